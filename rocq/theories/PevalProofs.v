(** Proofs about the exact evaluation of policies. *)
From Coq Require Import List Bool Arith QArith Lia Lqa.
From Verif Require Import Py PyList PyMore AoProofs PevalModel PevalSpec.
Import ListNotations.
Open Scope nat_scope.

Lemma Forall2_weaken : forall X Y (P Q : X -> Y -> Prop) l m, (forall x y, P x y -> Q x y) -> Forall2 P l m -> Forall2 Q l m.
Proof. intros X Y P Q l m H F. induction F; constructor; auto. Qed.

Section Peval.
Context {St A : Type} {ES : PyEq St}.
Variable d : pdom St A.
Variable pol : St -> A.
Notation met := (met d pol).
Notation costs := (costs d pol).
Notation dist s := (d_dist d s (pol s)).

Lemma mem_get : forall V (m : list (St * V)) k, dmem m k = true <-> exists v, dget m k = Some v.
Proof. intros V m k. unfold dmem. destruct (dget m k); split; intros H; eauto; try discriminate. destruct H as [v H]. discriminate. Qed.
Lemma mem_set : forall V (m : list (St * V)) k v x, dmem (dset m k v) x = pyeqb k x || dmem m x.
Proof. intros. unfold dmem. rewrite dget_dset. now destruct (pyeqb k x). Qed.

Lemma pget_padd : forall (preds : pred_dict) k s x y, In y (pget (padd preds k s) x) <-> (x = k /\ y = s) \/ In y (pget preds x).
Proof.
  intros preds k s x y. unfold padd, pget. rewrite dget_dset. destruct (pyeqb_spec k x) as [EQ|N].
  - subst k. rewrite pyadd_In. tauto.
  - split; [auto|]. intros [[E _]|H]; [congruence|auto].
Qed.
Lemma mem_padd : forall (preds : pred_dict) k s x, dmem (padd preds k s) x = pyeqb k x || dmem preds x.
Proof. intros. unfold padd. apply mem_set. Qed.

(** *** The states that are explored *)
Definition edge (s t : St) : Prop := exists pr, In (t, pr) (dist s) /\ ~ (pr == 0)%Q.

Definition einv (stack : list St) (pd : pol_dict) (preds : pred_dict) (succs : succ_dict) : Prop :=
  (forall s, dmem pd s = true -> met s /\ d_term d s = false) /\
  (forall s a, dget pd s = Some a -> a = pol s) /\
  (forall s, dget succs s = if dmem pd s then Some (dist s) else None) /\
  (forall s, In s stack -> met s) /\
  (forall s t, dmem pd s = true -> edge s t -> In t stack \/ d_term d t = true \/ dmem pd t = true) /\
  (forall s t, In s (pget preds t) <-> dmem pd s = true /\ edge s t) /\
  (forall t, dmem preds t = true -> pget preds t <> []) /\
  (In (d_init d) stack \/ d_term d (d_init d) = true \/ dmem pd (d_init d) = true).

Definition push (s : St) (sp : list St * pred_dict) (o : St * Q) : list St * pred_dict :=
  let '(stk, ps) := sp in if Qeq_bool (snd o) 0 then sp else (fst o :: stk, padd ps (fst o) s).
Lemma push_fold : forall s os stk ps, let r := fold_left (push s) os (stk, ps) in
  (forall x, In x (fst r) <-> In x stk \/ exists pr, In (x, pr) os /\ ~ (pr == 0)%Q) /\
  (forall x y, In y (pget (snd r) x) <-> In y (pget ps x) \/ (y = s /\ exists pr, In (x, pr) os /\ ~ (pr == 0)%Q)) /\
  ((forall t, dmem ps t = true -> pget ps t <> []) -> (forall t, dmem (snd r) t = true -> pget (snd r) t <> [])) /\
  length (fst r) <= length stk + length os.
Proof.
  intros s. induction os as [|[x pr] os IH]; intros stk ps; cbn [fold_left].
  - cbn. split; [|split; [|split; [auto|lia]]].
    + intros x. split; [auto|]. intros [H|(pr & [] & _)]; auto.
    + intros x y. split; [auto|]. intros [H|(_ & pr & [] & _)]; auto.
  - change (push s (stk, ps) (x, pr)) with (if Qeq_bool pr 0 then (stk, ps) else (x :: stk, padd ps x s)). destruct (Qeq_bool pr 0) eqn:Z.
    + apply Qeq_bool_iff in Z. destruct (IH stk ps) as (H1 & H2 & H3 & H4). cbn [In fst snd] in H1; cbn zeta in H2, H3, H4; cbn [length fst snd] in H4. cbn zeta. split; [|split; [|split; [auto|cbn [length]; lia]]].
      * intros y. rewrite H1. split; intros [H|(q & I & N)]; auto; right; exists q; split; auto; [now right|]. destruct I as [I|I]; [injection I as -> ->; contradiction|auto].
      * intros y z. rewrite H2. split; intros [H|(E & q & I & N)]; auto; right; split; auto; exists q; split; auto; [now right|]. destruct I as [I|I]; [injection I as -> ->; contradiction|auto].
    + assert (NZ : ~ (pr == 0)%Q) by (intros C; apply Qeq_bool_iff in C; congruence).
      destruct (IH (x :: stk) (padd ps x s)) as (H1 & H2 & H3 & H4). cbn [In fst snd] in H1; cbn zeta in H2, H3, H4; cbn [length fst snd] in H4. cbn zeta. split; [|split; [|split]].
      * intros y. rewrite H1. split.
        -- intros [[<-|H]|(q & I & N)]; auto; right; [exists pr; split; [now left|auto]|exists q; split; [now right|auto]].
        -- intros [H|(q & [I|I] & N)]; auto; [injection I as <- <-; auto|]. right. eauto.
      * intros y z. rewrite H2, pget_padd. split.
        -- intros [[[-> ->]|H]|(E & q & I & N)]; auto; right; split; auto; [exists pr; split; [now left|auto]|exists q; split; [now right|auto]].
        -- intros [H|(E & q & [I|I] & N)]; auto; [injection I as <- <-; auto|]. right. eauto.
      * intros H0 t. apply H3. intros t' M. rewrite mem_padd in M. destruct (pyeqb_spec x t') as [EQ|NE].
        -- subst t'. intros C. assert (J : In s (pget (padd ps x s) x)) by (apply pget_padd; auto). rewrite C in J. destruct J.
        -- cbn in M. unfold padd, pget in *. rewrite dget_dset. destruct (pyeqb_spec x t'); [congruence|]. apply H0; auto.
      * cbn [length]. eapply Nat.le_trans; [exact H4|lia].
Qed.

Lemma let_pair : forall X Y Z (f : X -> Y -> Z) p, (let '(a, b) := p in f a b) = f (fst p) (snd p).
Proof. now intros X Y Z f [a b]. Qed.
Lemma explore_S : forall fuel s stack pd preds succs, explore (S fuel) d pol (s :: stack) pd preds succs =
  if d_term d s || dmem pd s then explore fuel d pol stack pd preds succs
  else explore fuel d pol (fst (fold_left (push s) (dist s) (stack, preds))) (dset pd s (pol s)) (snd (fold_left (push s) (dist s) (stack, preds))) (dset succs s (dist s)).
Proof.
  intros. cbn [explore]. destruct (d_term d s || dmem pd s); [reflexivity|].
  exact (let_pair _ _ _ (fun stk ps => explore fuel d pol stk (dset pd s (pol s)) ps (dset succs s (dist s))) (fold_left (push s) (dist s) (stack, preds))).
Qed.

Lemma einv_skip : forall s stack pd preds succs, einv (s :: stack) pd preds succs -> d_term d s || dmem pd s = true -> einv stack pd preds succs.
Proof.
  intros s stack pd preds succs (E1 & E1' & E2 & E3 & E4 & E5 & E6 & E7) T. apply orb_true_iff in T. split; [auto|]. split; [auto|]. split; [auto|]. split; [intros; apply E3; now right|]. split; [|split; [auto|split; [auto|]]].
  - intros x t P Q. destruct (E4 x t P Q) as [[<-|H]|H]; auto.
  - destruct E7 as [[<-|H]|H]; auto.
Qed.
Lemma einv_push : forall s stack pd preds succs, einv (s :: stack) pd preds succs -> d_term d s = false -> dmem pd s = false ->
  einv (fst (fold_left (push s) (dist s) (stack, preds))) (dset pd s (pol s)) (snd (fold_left (push s) (dist s) (stack, preds))) (dset succs s (dist s)).
Proof.
  intros s stack pd preds succs (E1 & E1' & E2 & E3 & E4 & E5 & E6 & E7) T M. destruct (push_fold s (dist s) stack preds) as (P1 & P2 & P3 & _). cbn zeta in *.
  assert (MS : met s) by (apply E3; now left).
  split; [|split; [|split; [|split; [|split; [|split; [|split]]]]]].
  - intros x. rewrite mem_set. destruct (pyeqb_spec s x) as [EQ|N]; [subst x; auto|apply E1].
  - intros x a. rewrite dget_dset. destruct (pyeqb_spec s x) as [EQ|N]; [subst x; congruence|apply E1'].
  - intros x. rewrite dget_dset, mem_set. destruct (pyeqb_spec s x) as [EQ|N]; [subst x; reflexivity|apply E2].
  - intros x H. apply P1 in H. destruct H as [H|(pr & I & N)]; [apply E3; now right|]. eapply met_step; eauto.
  - intros x t. rewrite mem_set, P1. intros H ED. rewrite mem_set. destruct (pyeqb_spec s x) as [EQ|N].
    + subst x. left. right. exact ED.
    + destruct (E4 x t H ED) as [[->|H']|[H'|H']]; auto.
      * rewrite pyeqb_refl. auto.
      * rewrite H', orb_true_r. auto.
  - intros x t. rewrite P2, mem_set, E5. destruct (pyeqb_spec s x) as [EQ|N].
    + subst x. split; [intros [[H _]|[_ H]]; [congruence|auto]|]. intros [_ H]. right. auto.
    + split; [intros [H|[H _]]; [auto|congruence]|auto].
  - apply P3. auto.
  - rewrite P1, mem_set. destruct E7 as [[E|H]|[H|H]]; auto.
    + rewrite E, pyeqb_refl. auto.
    + rewrite H, orb_true_r. auto.
Qed.

Lemma explore_inv : forall fuel stack pd preds succs pd' preds' succs', einv stack pd preds succs ->
  explore fuel d pol stack pd preds succs = Ok (pd', preds', succs') -> einv [] pd' preds' succs'.
Proof.
  induction fuel as [|fuel IH]; intros stack pd preds succs pd' preds' succs' I E; (destruct stack as [|s stack]; [cbn in E; injection E as <- <- <-; exact I|]); [discriminate|].
  rewrite explore_S in E. destruct (d_term d s || dmem pd s) eqn:T.
  - eapply IH; [|exact E]. eapply einv_skip; eauto.
  - apply orb_false_iff in T. destruct T as [T M]. eapply IH; [|exact E]. now apply einv_push.
Qed.

Definition load (U : list St) (pd : pol_dict (A := A)) : nat := list_sum (map (fun x => if dmem pd x then 0 else length (dist x)) U).
Lemma load_drop : forall U (pd : pol_dict (A := A)) s a, In s U -> dmem pd s = false -> load U (dset pd s a) + length (dist s) <= load U pd.
Proof.
  intros U pd s a I M. unfold load.
  assert (LE : forall U, list_sum (map (fun x => if dmem (dset pd s a) x then 0 else length (dist x)) U) <= list_sum (map (fun x => if dmem pd x then 0 else length (dist x)) U)).
  { intros V. induction V as [|x V IH]; [cbn; lia|]. cbn [map list_sum fold_right] in *. unfold list_sum in IH. cbn [fold_right]. rewrite mem_set. destruct (pyeqb s x); destruct (dmem pd x); cbn; lia. }
  induction U as [|x U IH]; [destruct I|]. change (list_sum (map ?f (x :: U))) with (f x + list_sum (map f U)). cbn beta. destruct I as [->|I].
  - rewrite mem_set, pyeqb_refl, M. cbn. specialize (LE U). lia.
  - specialize (IH I). rewrite mem_set. destruct (pyeqb s x); destruct (dmem pd x); cbn; lia.
Qed.
Lemma explore_total : forall U, (forall s, met s -> In s U) -> forall fuel stack pd preds succs, einv stack pd preds succs ->
  length stack + load U pd + length (filter (fun x => negb (dmem pd x)) U) <= fuel -> exists r, explore fuel d pol stack pd preds succs = Ok r.
Proof.
  intros U HU. induction fuel as [|fuel IH]; intros stack pd preds succs I L; (destruct stack as [|s stack]; [cbn; eauto|]); [cbn in L; lia|].
  rewrite explore_S. destruct (d_term d s || dmem pd s) eqn:T.
  - apply IH; [eapply einv_skip; eauto|cbn in L; lia].
  - apply orb_false_iff in T. destruct T as [T M]. apply IH; [now apply einv_push|].
    destruct (push_fold s (dist s) stack preds) as (_ & _ & _ & P4). cbn zeta in P4.
    assert (IU : In s U) by (apply HU; apply I; now left). pose proof (load_drop U pd s (pol s) IU M) as LD.
    assert (FL : length (filter (fun x => negb (dmem (dset pd s (pol s)) x)) U) <= length (filter (fun x => negb (dmem pd x)) U)).
    { apply filter_length_mono. intros x _ H. rewrite mem_set in H. destruct (dmem pd x); [now rewrite orb_true_r in H|auto]. }
    cbn [length] in L. lia.
Qed.

Lemma einv_start : einv [d_init d] [] [] [].
Proof.
  split; [discriminate|]. split; [discriminate|]. split; [reflexivity|]. split; [intros s [<-|[]]; constructor|]. split; [discriminate|]. split; [|split; [discriminate|left; now left]].
  intros s t. cbn. split; [intros []|intros [H _]; discriminate].
Qed.
Lemma einv_done : forall pd preds succs, einv [] pd preds succs -> forall s, dmem pd s = true <-> met s /\ d_term d s = false.
Proof.
  intros pd preds succs (E1 & _ & _ & _ & E4 & _ & _ & E7) s. split; [apply E1|]. intros [M T]. induction M as [|s t pr M IH T' I N].
  - destruct E7 as [[]|[H|H]]; [congruence|auto].
  - destruct (E4 s t (IH T')) as [[]|[H|H]]; [exists pr; auto|congruence|auto].
Qed.
Lemma sane_ok : forall pd preds succs, einv [] pd preds succs -> live d pol -> NoDup (dkeys succs) -> sane preds succs = true.
Proof.
  intros pd preds succs I LV ND. pose proof (einv_done pd preds succs I) as DN. destruct I as (E1 & _ & E2 & _ & _ & E5 & _). unfold sane. apply forallb_forall. intros [s os] J. apply forallb_forall. intros [t pr] K. cbn [fst snd] in *.
  apply In_dget in J; auto. rewrite E2 in J. destruct (dmem pd s) eqn:M; [|discriminate]. injection J as <-. apply pymem_true. apply E5. split; [auto|].
  exists pr. split; [auto|]. destruct (E1 s M) as [_ T]. destruct (LV s T) as [_ H]. eapply H; eauto.
Qed.

Lemma explore_nodup : forall fuel stack pd preds succs pd' preds' succs', NoDup (dkeys succs) -> NoDup (dkeys preds) ->
  explore fuel d pol stack pd preds succs = Ok (pd', preds', succs') -> NoDup (dkeys succs') /\ NoDup (dkeys preds').
Proof.
  assert (PF : forall s os stk (ps : pred_dict), NoDup (dkeys ps) -> NoDup (dkeys (snd (fold_left (push s) os (stk, ps))))).
  { intros s. induction os as [|[x pr] os IH]; intros stk ps N; [exact N|]. cbn [fold_left]. change (push s (stk, ps) (x, pr)) with (if Qeq_bool pr 0 then (stk, ps) else (x :: stk, padd ps x s)).
    destruct (Qeq_bool pr 0); apply IH; [auto|]. now apply NoDup_dset. }
  induction fuel as [|fuel IH]; intros stack pd preds succs pd' preds' succs' N N2 E; (destruct stack as [|s stack]; [cbn in E; injection E as <- <- <-; auto|]); [discriminate|].
  rewrite explore_S in E. destruct (d_term d s || dmem pd s) eqn:T; eapply IH; try exact E; auto. now apply NoDup_dset.
Qed.

Lemma construct_facts : forall fuel pd preds succs, construct_dict_policy fuel d pol = Ok (pd, preds, succs) ->
  einv [] pd preds succs /\ sane preds succs = true /\ NoDup (dkeys succs) /\ NoDup (dkeys preds).
Proof.
  intros fuel pd preds succs E. unfold construct_dict_policy in E. destruct (explore fuel d pol [d_init d] [] [] []) as [[[pd0 preds0] succs0]|er] eqn:X; [|discriminate]. cbn [bind] in E.
  destruct (sane preds0 succs0) eqn:SN; [|discriminate]. injection E as <- <- <-. split; [eapply explore_inv; [apply einv_start|exact X]|]. split; [auto|]. eapply explore_nodup; [| |exact X]; constructor.
Qed.

(** *** The evaluation *)
Lemma mean_compat : forall s a os ws ws', Forall2 Qeq ws ws' -> (mean d s a os ws == mean d s a os ws')%Q.
Proof.
  intros s a os. induction os as [|[t pr] os IH]; intros ws ws' F; cbn; [reflexivity|]. destruct F as [|w w' ws ws' E F]; [reflexivity|]. rewrite (IH _ _ F), E. reflexivity.
Qed.
Lemma costs_unique : forall s v, costs s v -> forall v', costs s v' -> (v == v')%Q.
Proof.
  fix IH 3. intros s v H v' H'. destruct H as [s v G E|s ws v G T F E].
  - destruct H' as [s v' _ E'|s ws' v' G' _ _ _]; [now rewrite E, E'|congruence].
  - destruct H' as [s v' G' _|s ws' v' _ _ F' E']; [congruence|]. rewrite E, E'. apply mean_compat. clear E E'. revert ws' F'.
    remember (dist s) as os eqn:OS. clear OS. revert os ws F. fix IHF 3. intros os ws F. destruct F as [|o w os ws C F]; intros ws' F'.
    + inversion F'; subst. constructor.
    + inversion F' as [|o' w' os' ws'' C' F'' E1 E2]; subst. constructor; [exact (IH _ _ C _ C')|exact (IHF _ _ F _ F'')].
Qed.

Variables (pd : pol_dict (St := St) (A := A)) (preds : pred_dict (St := St)) (succs : succ_dict (St := St)).
Hypothesis EI : einv [] pd preds succs.
Hypothesis SN : sane preds succs = true.
Hypothesis NS : NoDup (dkeys succs).
Hypothesis NP : NoDup (dkeys preds).

Lemma outcome_edge : forall s t pr, dmem pd s = true -> In (t, pr) (dist s) -> edge s t.
Proof.
  intros s t pr M I. destruct EI as (_ & _ & E2 & _ & _ & E5 & _). unfold sane in SN. rewrite forallb_forall in SN.
  assert (J : In (s, dist s) succs) by (apply dget_In; rewrite E2, M; reflexivity). specialize (SN _ J). cbn [fst snd] in SN. rewrite forallb_forall in SN. specialize (SN _ I). apply pymem_true in SN. now apply E5 in SN.
Qed.
Lemma edge_met : forall s t, dmem pd s = true -> edge s t -> met t.
Proof. intros s t M (pr & I & N). apply (einv_done pd preds succs EI) in M. destruct M as [M T]. eapply met_step; eauto. Qed.

Definition vinv (opt : list (St * Q)) (stack : list St) : Prop :=
  (d_goal d (d_init d) = false -> forall s v, dget opt s = Some v -> costs s v) /\
  (forall s, In s stack -> dmem pd s = true) /\
  (forall s t, dmem pd s = true -> edge s t -> d_goal d t = true -> dmem opt t = true) /\
  (live d pol -> forall s, dmem pd s = true -> dmem opt s = false -> ~ In s stack -> exists t, edge s t /\ dmem opt t = false) /\
  (forall s, dmem opt s = true -> d_goal d s = true \/ dmem pd s = true) /\
  NoDup stack.

Definition seed1 (os : list (St * Q) * list St) (kl : St * list St) : list (St * Q) * list St :=
  if d_goal d (fst kl) then (dset (fst os) (fst kl) 0%Q, fold_left pyadd (snd kl) (snd os)) else os.
Lemma fold_nodup : forall l (st : list St), NoDup st -> NoDup (fold_left pyadd l st).
Proof. induction l as [|x l IH]; intros st N; cbn; [auto|]. apply IH. now apply pyadd_NoDup. Qed.
Lemma seed_fold : forall ps opt st, NoDup st -> let r := fold_left seed1 ps (opt, st) in
  (forall s v, dget (fst r) s = Some v -> dget opt s = Some v \/ (In s (map fst ps) /\ d_goal d s = true /\ v = 0%Q)) /\
  (forall s, dmem opt s = true \/ (In s (map fst ps) /\ d_goal d s = true) -> dmem (fst r) s = true) /\
  (forall s, In s (snd r) <-> In s st \/ exists t l, In (t, l) ps /\ d_goal d t = true /\ In s l) /\
  NoDup (snd r).
Proof.
  induction ps as [|[t l] ps IH]; intros opt st N; cbn [fold_left].
  - cbn. split; [auto|]. split; [intros s [H|[[] _]]; auto|]. split; [|auto]. intros s. split; [auto|]. intros [H|(t & l & [] & _)]. auto.
  - unfold seed1 at 2 4 6 8. cbn [fst snd]. destruct (d_goal d t) eqn:G.
    + destruct (IH (dset opt t 0%Q) (fold_left pyadd l st) (fold_nodup _ _ N)) as (H1 & H2 & H3 & H4). cbn zeta. split; [|split; [|split]].
      * intros s v E. apply H1 in E. destruct E as [E|(I & X & Y)]; [|right; cbn; auto]. rewrite dget_dset in E. destruct (pyeqb_spec t s) as [EQ|NE]; [|auto]. right. subst s. cbn. split; [auto|]. split; [auto|congruence].
      * intros s H. apply H2. rewrite mem_set. destruct H as [H|[[<-|I] X]]; [rewrite H, orb_true_r; auto|cbn [fst]; rewrite pyeqb_refl; auto|auto].
      * intros s. rewrite H3, pyadd_fold_In. split.
        -- intros [[H|H]|(u & l' & I & X & Y)]; [auto|right; exists t, l; cbn; auto|right; exists u, l'; cbn; auto].
        -- intros [H|(u & l' & [I|I] & X & Y)]; [auto|injection I as <- <-; auto|right; eauto].
      * exact H4.
    + destruct (IH opt st N) as (H1 & H2 & H3 & H4). cbn zeta. split; [|split; [|split]].
      * intros s v E. apply H1 in E. destruct E as [E|(I & X & Y)]; [|right; cbn]; auto.
      * intros s H. apply H2. destruct H as [H|[[<-|I] X]]; auto. cbn [fst] in X. congruence.
      * intros s. rewrite H3. split.
        -- intros [H|(u & l' & I & X & Y)]; [auto|right; exists u, l'; cbn; auto].
        -- intros [H|(u & l' & [I|I] & X & Y)]; [auto|injection I as <- <-; congruence|right; eauto].
      * exact H4.
Qed.
Lemma seed_inv : vinv (fst (seed d preds)) (snd (seed d preds)).
Proof.
  change (seed d preds) with (fold_left seed1 preds ([], [])). destruct (seed_fold preds [] [] (NoDup_nil _)) as (H1 & H2 & H3 & H4). cbn zeta in *.
  assert (PE : forall t l, In (t, l) preds -> pget preds t = l). { intros t l I. unfold pget. now rewrite (In_dget preds t l NP I). }
  assert (EI' := EI). destruct EI' as (E1 & _ & _ & _ & _ & E5 & E6 & _).
  assert (SV : forall s t, dmem pd s = true -> edge s t -> In (t, pget preds t) preds).
  { intros s t M ED. assert (J : In s (pget preds t)) by (apply E5; auto). unfold pget in *. destruct (dget preds t) eqn:Z; [|destruct J]. now apply dget_In. }
  split; [|split; [|split; [|split; [|split; [|exact H4]]]]].
  - intros _ s v E. apply H1 in E. destruct E as [E|(_ & G & ->)]; [discriminate|]. apply costs_goal; [auto|reflexivity].
  - intros s I. apply H3 in I. destruct I as [[]|(t & l & I & _ & J)]. rewrite <- (PE t l I) in J. now apply E5 in J.
  - intros s t M ED G. apply H2. right. split; [|auto]. apply in_map_iff. exists (t, pget preds t). split; [auto|]. eapply SV; eauto.
  - intros LV s M O NI. destruct (E1 s M) as [_ T]. destruct (LV s T) as [NE NZ]. destruct (dist s) as [|[t pr] os] eqn:D; [congruence|]. exists t.
    assert (ED : edge s t). { exists pr. rewrite D. split; [now left|]. apply (NZ t pr). now left. }
    split; [auto|]. destruct (dmem (fst (fold_left seed1 preds ([], []))) t) eqn:Z; [|auto]. exfalso. apply NI. apply H3. right. exists t, (pget preds t). split; [eapply SV; eauto|].
    split; [|apply E5; auto]. apply mem_get in Z. destruct Z as [v Z]. apply H1 in Z. destruct Z as [Z|(_ & G & _)]; [discriminate|auto].
  - intros s O. apply mem_get in O. destruct O as [v O]. apply H1 in O. destruct O as [O|(_ & G & _)]; [discriminate|auto].
Qed.

Lemma main_cost_ok : forall opt s a os, (forall t pr, In (t, pr) os -> dmem opt t = true) ->
  exists ws, Forall2 (fun o w => dget opt (fst o) = Some w) os ws /\ forall u0, exists u, foldM (fun u o => let* w := dgetE opt (fst o) in Ok (u + snd o * (d_cost d s a (fst o) + w))%Q) u0 os = Ok u /\ (u == u0 + mean d s a os ws)%Q.
Proof.
  intros opt s a os. induction os as [|[t pr] os IH]; intros H.
  - exists []. split; [constructor|]. intros u0. exists u0. split; [reflexivity|]. cbn. ring.
  - destruct IH as (ws & F & K). { intros; eapply H; right; eauto. } destruct (proj1 (mem_get _ opt t) (H t pr (or_introl eq_refl))) as [w W].
    exists (w :: ws). split; [constructor; auto|]. intros u0. destruct (K (u0 + pr * (d_cost d s a t + w))%Q) as (u & U & V). exists u. split.
    + cbn [foldM fst snd]. unfold dgetE at 1. rewrite W. cbn [bind]. exact U.
    + rewrite V. cbn [mean]. ring.
Qed.

Lemma filter_other : forall (s : St) l x, In x (filter (fun x => negb (pyeqb x s)) l) <-> In x l /\ x <> s.
Proof. intros s l x. rewrite filter_In. destruct (pyeqb_spec x s); cbn; intuition congruence. Qed.

Inductive after (opt : list (St * Q)) (stack : list St) (s : St) : list (St * Q) -> list St -> Prop :=
| after_skip : after opt stack s opt (filter (fun x => negb (pyeqb x s)) stack)
| after_value : forall u, dmem opt s = false -> after opt stack s (dset opt s u) (fold_left pyadd (pget preds s) (filter (fun x => negb (pyeqb x s)) stack)).

Lemma evaluate_turn : forall fuel pick opt stack, picks pick -> stack <> [] -> vinv opt stack ->
  exists opt' stack', evaluate (S fuel) pick d pd preds succs opt stack = evaluate fuel pick d pd preds succs opt' stack' /\ vinv opt' stack' /\ after opt stack (pick stack) opt' stack'.
Proof.
  intros fuel pick opt stack PK NE (V1 & V2 & V3 & V4 & V5 & V6). specialize (PK stack NE). set (s := pick stack) in *. assert (EI' := EI). destruct EI' as (E1 & E1' & E2 & _ & _ & E5 & _ & _).
  assert (MS : dmem pd s = true) by auto.
  assert (EV : evaluate (S fuel) pick d pd preds succs opt stack =
    (let stack' := filter (fun x => negb (pyeqb x s)) stack in
          if dmem opt s then evaluate fuel pick d pd preds succs opt stack'
          else
            let* os := dgetE succs s in
            if negb (successor_value_is_known os opt) then evaluate fuel pick d pd preds succs opt stack'
            else
              let* a := dgetE pd s in
              let* u := main_cost d opt s a os in
              evaluate fuel pick d pd preds succs (dset opt s u) (fold_left pyadd (pget preds s) stack'))) by (destruct stack; [congruence|reflexivity]).
  rewrite EV. clear EV. cbn zeta. set (stack1 := filter (fun x => negb (pyeqb x s)) stack).
  assert (SKIP : (live d pol -> dmem opt s = false -> exists t, edge s t /\ dmem opt t = false) -> vinv opt stack1).
  { intros W. split; [auto|]. split; [intros x I; apply filter_other in I; apply V2; tauto|]. split; [auto|]. split; [|split; [auto|now apply NoDup_filter]].
    intros LV x M O NI. destruct (pyeqb_spec x s) as [EQ|N]; [subst x; auto|]. apply V4; auto. intros C. apply NI. apply filter_other. auto. }
  destruct (dmem opt s) eqn:O. { exists opt, stack1. split; [reflexivity|]. split; [apply SKIP; congruence|constructor]. }
  unfold dgetE at 1. rewrite E2, MS. cbn [bind]. destruct (successor_value_is_known (dist s) opt) eqn:K; cbn [negb].
  - assert (KN : forall t pr, In (t, pr) (dist s) -> dmem opt t = true).
    { intros t pr I. destruct (outcome_edge s t pr MS I) as (q & J & N). unfold successor_value_is_known in K. rewrite forallb_forall in K. specialize (K _ J). cbn [fst snd] in K. apply orb_true_iff in K. destruct K as [K|K]; [apply Qeq_bool_iff in K; contradiction|auto]. }
    destruct (proj1 (mem_get _ pd s) MS) as [a GA]. pose proof (E1' _ _ GA) as EA. subst a. unfold dgetE at 1. rewrite GA. cbn [bind].
    destruct (main_cost_ok opt s (pol s) (dist s) KN) as (ws & F & KU). destruct (KU 0%Q) as (u & U & V). unfold main_cost. rewrite U. cbn [bind].
    exists (dset opt s u), (fold_left pyadd (pget preds s) stack1). split; [reflexivity|]. split; [|constructor; auto]. split; [|split; [|split; [|split; [|split]]]].
    + intros GI x v. rewrite dget_dset. destruct (pyeqb_spec s x) as [EQ|N]; [|apply V1; auto]. subst x. intros E. injection E as <-. destruct (d_goal d s) eqn:G.
      * exfalso. destruct (E1 s MS) as [M T]. inversion M as [Q|x t pr M' T' I N Q]; [congruence|]. subst t.
        rewrite (V3 x s) in O; [discriminate| |exists pr; auto|auto]. apply (einv_done pd preds succs EI). auto.
      * apply costs_act with ws; [auto|apply E1; auto| |rewrite V; ring]. eapply Forall2_weaken; [|exact F]. intros o w W. apply (V1 GI). exact W.
    + intros x I. apply pyadd_fold_In in I. destruct I as [I|I]; [apply filter_other in I; apply V2; tauto|]. now apply E5 in I.
    + intros x t M ED G. rewrite mem_set, (V3 x t M ED G). apply orb_true_r.
    + intros LV x M OX NI. rewrite mem_set in OX. apply orb_false_iff in OX. destruct OX as [NX OX]. rewrite pyadd_fold_In in NI.
      assert (XS : x <> s). { intros ->. now rewrite pyeqb_refl in NX. }
      destruct (V4 LV x M OX) as (t & ED & OT). { intros C. apply NI. left. apply filter_other. auto. }
      exists t. split; [auto|]. rewrite mem_set, OT, orb_false_r. destruct (pyeqb_spec s t) as [EQ|N]; [|auto]. subst t. exfalso. apply NI. right. apply E5. auto.
    + intros x. rewrite mem_set. destruct (pyeqb_spec s x) as [EQ|N]; [subst x; auto|apply V5].
    + apply fold_nodup. now apply NoDup_filter.
  - exists opt, stack1. split; [reflexivity|]. split; [|constructor]. apply SKIP. intros _ _. unfold successor_value_is_known in K.
    assert (exists o, In o (dist s) /\ (Qeq_bool (snd o) 0 || dmem opt (fst o)) = false) as ([t pr] & I & W).
    { clear -K. induction (dist s) as [|o os IH]; [discriminate|]. cbn [forallb] in K. apply andb_false_iff in K. destruct K as [K|K]; [exists o; split; [now left|auto]|]. destruct (IH K) as (o' & I & W). exists o'. split; [now right|auto]. }
    cbn [fst snd] in W. apply orb_false_iff in W. destruct W as [W1 W2]. exists t. split; [|auto]. exists pr. split; [auto|]. intros C. apply Qeq_bool_iff in C. congruence.
Qed.

Lemma evaluate_inv : forall fuel pick opt stack opt', picks pick -> vinv opt stack -> evaluate fuel pick d pd preds succs opt stack = Ok opt' -> vinv opt' [].
Proof.
  induction fuel as [|fuel IH]; intros pick opt stack opt' PK V E; (destruct stack as [|s0 stack]; [cbn in E; injection E as <-; exact V|]); [discriminate|].
  destruct (evaluate_turn fuel pick opt (s0 :: stack) PK ltac:(discriminate) V) as (opt1 & stack1 & EQ & V' & _). rewrite EQ in E. eapply IH; eauto.
Qed.

Definition unvalued (U : list St) (opt : list (St * Q)) : nat := length (filter (fun x => negb (dmem opt x)) U).
Lemma evaluate_total : forall U pick, picks pick -> (forall s, met s -> In s U) -> forall fuel opt stack, vinv opt stack ->
  unvalued U opt * S (length U) + length stack <= fuel -> exists opt', evaluate fuel pick d pd preds succs opt stack = Ok opt'.
Proof.
  intros U pick PK HU. induction fuel as [|fuel IH]; intros opt stack V L; (destruct stack as [|s0 stack]; [cbn; eauto|]); [cbn [length] in L; lia|].
  set (st := s0 :: stack) in *. assert (NE : st <> []) by discriminate.
  destruct (evaluate_turn fuel pick opt st PK NE V) as (opt1 & stack1 & EQ & V' & AF). rewrite EQ. apply IH; [exact V'|].
  specialize (PK st NE). destruct V as (_ & V2 & _). destruct V' as (_ & V2' & _ & _ & _ & V6').
  assert (INU : forall x, dmem pd x = true -> In x U). { intros x M. apply HU. apply (einv_done pd preds succs EI) in M. tauto. }
  assert (LS : length stack1 <= length U). { apply NoDup_incl_length; [exact V6'|]. intros x I. apply INU, V2', I. }
  destruct AF as [|u O].
  - assert (length (filter (fun x => negb (pyeqb x (pick st))) st) < length st).
    { rewrite <- (filter_all _ (fun _ => true) st) at 2 by auto. apply filter_length_strict with (pick st); auto. now rewrite pyeqb_refl. }
    lia.
  - assert (unvalued U (dset opt (pick st) u) < unvalued U opt).
    { unfold unvalued. apply filter_length_strict with (pick st).
      - intros x _ H. rewrite mem_set in H. destruct (dmem opt x); [now rewrite orb_true_r in H|auto].
      - apply INU, V2, PK.
      - now rewrite O.
      - now rewrite mem_set, pyeqb_refl. }
    unfold st in *. cbn [length] in L. nia.
Qed.
End Peval.
