(** Invariants of the pile solver. *)
From Coq Require Import String.
From Coq Require Import List Bool Arith ZArith Lia Permutation Sorted.
From Coq Require Import ZifyBool ZifyNat.
From Verif Require Import Py PyList SgsModel PileModel TspProofs.
Import ListNotations.

Lemma filterM_ok : forall A (f : A -> res bool) l l', filterM f l = Ok l' ->
  forall x, In x l' <-> In x l /\ f x = Ok true.
Proof.
  induction l as [|y l IH]; intros l' H x; cbn [filterM] in H.
  - injection H as <-. cbn. tauto.
  - apply bind_ok in H as [b [B H]]. apply bind_ok in H as [l1 [L H]]. injection H as <-. specialize (IH _ L).
    destruct b; cbn [In]; rewrite IH; split; intros K.
    + destruct K as [<-|[K1 K2]]; auto.
    + destruct K as [[<-|K1] K2]; auto.
    + tauto.
    + destruct K as [[<-|K1] K2]; [congruence|auto].
Qed.

Lemma filterM_total : forall A (f : A -> res bool) l, (forall x, In x l -> exists b, f x = Ok b) ->
  exists l', filterM f l = Ok l'.
Proof.
  induction l as [|y l IH]; intros H; cbn [filterM]; [eauto|].
  destruct (H y (or_introl eq_refl)) as [b ->]. destruct IH as [l' ->]; [intros; apply H; now right|]. cbn [bind]. eauto.
Qed.

Lemma allM_true : forall A (f : A -> res bool) l, allM f l = Ok true -> forall x, In x l -> f x = Ok true.
Proof.
  induction l as [|y l IH]; intros H x Ix; [destruct Ix|]. cbn [allM] in H. apply bind_ok in H as [b [B H]].
  destruct b; [|discriminate]. destruct Ix as [<-|Ix]; auto.
Qed.

Lemma allM_total : forall A (f : A -> res bool) l, (forall x, In x l -> exists b, f x = Ok b) -> exists b, allM f l = Ok b.
Proof.
  induction l as [|y l IH]; intros H; cbn [allM]; [eauto|].
  destruct (H y (or_introl eq_refl)) as [[] ->]; cbn [bind]; eauto. apply IH. intros; apply H; now right.
Qed.

Lemma allM_all : forall A (f : A -> res bool) l, (forall x, In x l -> f x = Ok true) -> allM f l = Ok true.
Proof.
  induction l as [|y l IH]; intros H; cbn [allM]; auto. rewrite (H y (or_introl eq_refl)). cbn [bind].
  apply IH. intros; apply H; now right.
Qed.

(** * Updates of the resource dictionary *)
Definition upd (skip : string -> bool) (g : string -> res Z) (h : Z -> Z -> Z) (rs : list (string * Z)) (r : string)
  : res (list (string * Z)) :=
  if skip r then Ok rs else let* x := dgetE rs r in let* n := g r in Ok (dset rs r (h x n)).

Lemma upd_ok : forall skip g h l rs rs', foldM (upd skip g h) rs l = Ok rs' -> NoDup l ->
  dkeys rs' = dkeys rs /\
  (forall r, In r l -> skip r = false -> exists x n, dget rs r = Some x /\ g r = Ok n /\ dget rs' r = Some (h x n)) /\
  (forall r, (~ In r l \/ skip r = true) -> dget rs' r = dget rs r).
Proof.
  induction l as [|r l IH]; intros rs rs' H N; cbn [foldM] in H.
  - injection H as <-. repeat split; auto. intros r [].
  - apply bind_ok in H as [rs1 [U H]]. inversion N as [|? ? Nr N']; subst. destruct (IH _ _ H N') as (K & A & B). clear IH.
    unfold upd in U. destruct (skip r) eqn:S.
    + injection U as <-. split; [auto|split].
      * intros r' [<-|Ir] Sr; [congruence|auto].
      * intros r' [Hn|Hs]; apply B; [left; intros Ir; apply Hn; now right|auto].
    + apply bind_ok in U as [x [X U]]. apply bind_ok in U as [n [G U]]. injection U as <-.
      unfold dgetE in X. destruct (dget rs r) as [x'|] eqn:D; [|discriminate]. injection X as ->.
      split; [|split].
      * rewrite K. apply dset_keys_present. apply dmem_true. unfold dmem. now rewrite D.
      * intros r' [<-|Ir] Sr.
        -- exists x, n. rewrite (B r) by auto. rewrite dget_dset, pyeqb_refl. auto.
        -- destruct (A r' Ir Sr) as (x1 & n1 & D1 & G1 & R1). rewrite dget_dset in D1.
           destruct (pyeqb_spec r r') as [->|Ne]; [contradiction|]. eauto.
      * intros r' Hr. assert (r <> r') by (destruct Hr as [Hn|Hs]; [intros ->; apply Hn; now left|congruence]).
        rewrite B; [|destruct Hr as [Hn|Hs]; [left; intros Ir; apply Hn; now right|auto]].
        rewrite dget_dset. destruct (pyeqb_spec r r'); [contradiction|auto].
Qed.

Lemma upd_total : forall skip g h l rs, NoDup l -> incl l (dkeys rs) -> (forall r, In r l -> exists n, g r = Ok n) ->
  exists rs', foldM (upd skip g h) rs l = Ok rs'.
Proof.
  induction l as [|r l IH]; intros rs N I G; cbn [foldM]; [eauto|]. inversion N; subst.
  assert (U : exists rs1, upd skip g h rs r = Ok rs1 /\ dkeys rs1 = dkeys rs).
  { unfold upd. destruct (skip r); [eauto|]. unfold dgetE.
    assert (In r (dkeys rs)) as Ir by (apply I; now left). pose proof Ir as Ir'. apply dmem_true in Ir'. unfold dmem in Ir'.
    destruct (dget rs r) eqn:D; [|discriminate]. destruct (G r (or_introl eq_refl)) as [n' ->]. cbn [bind].
    eexists. split; [reflexivity|]. now apply dset_keys_present. }
  destruct U as (rs1 & -> & K). cbn [bind]. apply IH; auto.
  - rewrite K. intros x Ix. apply I. now right.
  - intros r' Ir. apply G. now right.
Qed.

(** * Unlocking *)
Lemma pyremove_absent : forall (k : nat) l, ~ In k l -> pyremove k l = l.
Proof.
  induction l as [|x l IH]; intros H; auto. cbn [pyremove]. destruct (pyeqb_spec k x) as [->|Ne]; [elim H; now left|].
  f_equal. apply IH. intros I. apply H. now right.
Qed.

Lemma unlock_ok : forall a l pred av pred' av', foldM (pile_unlock a) (pred, av) l = Ok (pred', av') ->
  (forall b s, dget pred b = Some s -> NoDup s) ->
  dkeys pred' = dkeys pred /\
  (forall b s, dget pred b = Some s -> dget pred' b = Some (if pymem b l then pyremove a s else s)) /\
  (forall b, In b av' <-> In b av \/ (In b l /\ exists s, dget pred b = Some s /\ In a s /\ pyremove a s = [])) /\
  (NoDup av -> NoDup av').
Proof.
  induction l as [|b l IH]; intros pred av pred' av' H N; cbn [foldM] in H.
  - injection H as <- <-. repeat split; auto; try tauto. intros [K|[[] _]]; auto.
  - apply bind_ok in H as [[pred1 av1] [U H]]. unfold pile_unlock in U. apply bind_ok in U as [s [S U]].
    unfold dgetE in S. cbn [fst snd] in *. destruct (dget pred b) as [s'|] eqn:D; [|discriminate]. injection S as ->.
    destruct (pymem a s) eqn:M.
    + apply pymem_true in M. set (s1 := pyremove a s) in *.
      injection U as <- E1.
      assert (Nb : NoDup s1) by (apply pyremove_NoDup; eauto).
      destruct (IH _ _ _ _ H) as (K & P & A & Nd).
      { intros b' s' D'. rewrite dget_dset in D'. destruct (pyeqb_spec b b') as [->|Ne]; [injection D' as <-; auto|eauto]. }
      clear IH H. assert (Abs : ~ In a s1) by (unfold s1; rewrite pyremove_In by eauto; tauto).
      split; [|split; [|split]].
      * rewrite K. apply dset_keys_present. apply dmem_true. unfold dmem. now rewrite D.
      * intros b' s' D'. destruct (pyeqb_spec b b') as [->|Ne].
        -- assert (s' = s) by congruence. subst s'. rewrite (P b' s1) by (now rewrite dget_dset, pyeqb_refl).
           replace (pymem b' (b' :: l)) with true by (symmetry; apply pymem_true; now left).
           destruct (pymem b' l); auto. now rewrite pyremove_absent.
        -- rewrite (P b' s') by (rewrite dget_dset; destruct (pyeqb_spec b b'); [contradiction|auto]).
           unfold pymem. cbn [existsb]. destruct (pyeqb_spec b' b); [congruence|]. reflexivity.
      * intros b'. rewrite A. clear A Nd. destruct (pyeqb_spec b b') as [->|Ne].
        -- split.
           ++ intros [I|[I (s' & D' & Ia & R)]].
              ** rewrite <- E1 in I. destruct s1 eqn:Es; [|auto]. apply pyadd_In in I as [_|I]; auto.
                 right. split; [now left|]. exists s. auto.
              ** exfalso. rewrite dget_dset, pyeqb_refl in D'. injection D' as <-. contradiction.
           ++ intros [I|[_ (s' & D' & Ia & R)]].
              ** left. rewrite <- E1. destruct s1; [apply pyadd_In; auto|auto].
              ** left. assert (s' = s) by congruence. subst s'. rewrite <- E1. fold s1 in R. rewrite R. apply pyadd_In. auto.
        -- assert (I1 : In b' av1 <-> In b' av).
           { rewrite <- E1. destruct s1; [rewrite pyadd_In|reflexivity]. split; [intros [E|I]; [congruence|auto]|auto]. }
           rewrite I1. clear I1. split.
           ++ intros [I|[I (s' & D' & Ia & R)]]; auto. right. split; [now right|]. exists s'.
              rewrite dget_dset in D'. destruct (pyeqb_spec b b'); [contradiction|auto].
           ++ intros [I|[[E|I] (s' & D' & Ia & R)]]; [auto|congruence|]. right. split; auto. exists s'.
              rewrite dget_dset. destruct (pyeqb_spec b b'); [contradiction|auto].
      * intros Na. apply Nd. rewrite <- E1. destruct s1; [apply pyadd_NoDup|]; auto.
    + injection U as <- <-. assert (Abs : ~ In a s) by (now apply (proj1 (pymem_false a s))).
      destruct (IH _ _ _ _ H N) as (K & P & A & Nd). clear IH. repeat split; auto.
      * intros b' s' D'. rewrite (P b' s' D'). unfold pymem. cbn [existsb]. destruct (pyeqb_spec b' b) as [->|Ne]; auto.
        assert (s' = s) by congruence. subst s'. cbn [orb]. rewrite pyremove_absent by auto. now destruct (existsb (pyeqb b) l).
      * intros I. apply A in I as [I|[I E]]; auto. right. split; [now right|auto].
      * intros [I|[[<-|I] E]]; apply A; auto. exfalso. destruct E as (s' & D' & Ia & _). assert (s' = s) by congruence. subst. contradiction.
Qed.

Lemma unlock_total : forall a l pred av, incl l (dkeys pred) -> exists pa, foldM (pile_unlock a) (pred, av) l = Ok pa.
Proof.
  induction l as [|b l IH]; intros pred av I; cbn [foldM]; [eauto|].
  assert (U : exists pred1 av1, pile_unlock a (pred, av) b = Ok (pred1, av1) /\ dkeys pred1 = dkeys pred).
  { unfold pile_unlock. cbn [fst snd]. assert (In b (dkeys pred)) as Ib by (apply I; now left).
    pose proof Ib as Ib'. apply dmem_true in Ib'. unfold dmem in Ib'. unfold dgetE. destruct (dget pred b) eqn:D; [|discriminate].
    cbn [bind]. destruct (pymem a l0); [|eauto]. eexists. eexists. split; [reflexivity|]. now apply dset_keys_present. }
  destruct U as (p1 & a1 & -> & K). cbn [bind]. apply IH. rewrite K. intros x Ix. apply I. now right.
Qed.

(** * The queue *)
Lemma before_total : forall a b, before a b = false -> before b a = true.
Proof. intros [a1 a2] [b1 b2]. unfold before. cbn [fst snd]. lia. Qed.
Lemma before_trans : forall a b c, before a b = true -> before b c = true -> before a c = true.
Proof. intros [a1 a2] [b1 b2] [c1 c2]. unfold before. cbn [fst snd]. lia. Qed.

Lemma sum_change : forall (f g : nat -> Z) a l, NoDup l -> In a l -> (forall x, x <> a -> f x = g x) ->
  (sumZ (map f l) - f a = sumZ (map g l) - g a)%Z.
Proof.
  intros f g a l N I E. induction l as [|x l IH]; [destruct I|]. inversion N; subst. cbn [map]. rewrite !sumZ_cons.
  destruct (Nat.eq_dec x a) as [->|Ne].
  - rewrite (sumZ_map_ext f g l); [lia|]. intros y Iy. apply E. intros ->. contradiction.
  - destruct I as [I|I]; [congruence|]. rewrite (E x Ne). specialize (IH H2 I). lia.
Qed.

Section Pile.
Variables (p : rcpsp) (md : list (nat * nat)) (resources : list (string * Z)) (preds : list (nat * list nat)).
Variables (nbrs : nat -> list nat) (choose : nat -> list nat -> res nat).

Definition dm (a : nat) (r : string) : Z := match pile_need p md a r with Ok x => x | Err _ => 0%Z end.
(** What task [a] holds of resource [r] when the tasks [q] are running. *)
Definition held (q : list nat) (r : string) (a : nat) : Z :=
  if a =? 1 then 0%Z else if pymem r (p_nonren p) || pymem a q then dm a r else 0%Z.
Definition use (r : string) (t : nat) (x : nat * (nat * nat)) : Z :=
  if (fst (snd x) <=? t) && (t <? snd (snd x)) then dm (fst x) r else 0%Z.

(** The graph data: predecessor sets of the tasks 1 to [p_sink p], the first of them empty. *)
Record graph_ok : Prop := {
  go_keys : NoDup (dkeys preds);
  go_tasks : forall a, In a (dkeys preds) <-> 1 <= a <= p_sink p;
  go_sets : forall a s, dget preds a = Some s -> NoDup s;
  go_first : dget preds 1 = Some [];
  go_nbrs : forall a b s, dget preds b = Some s -> In a s -> In b (nbrs a)
}.
Hypothesis Go : graph_ok.
Hypothesis Names : NoDup (dkeys resources).
Hypothesis Caps : forall r c, dget resources r = Some c -> (0 <= c)%Z.
Hypothesis Needs : forall a r, (0 <= dm a r)%Z.
Hypothesis Choice : forall k l a, choose k l = Ok a -> In a l.

Definition queued (st : pile) : list nat := map snd (l_queue st).
Definition finished (st : pile) (a : nat) : Prop := In a (map fst (l_sched st)) /\ ~ In a (queued st).

Record pinv (st : pile) : Prop := {
  v_sched : NoDup (map fst (l_sched st));
  v_first : exists l, l_sched st = (1, (0, 0)) :: l;
  v_sorted : Sorted (fun a b => before a b = true) (l_queue st);
  v_queue : NoDup (queued st);
  v_queued : forall a e, In (e, a) (l_queue st) -> a <> 1 /\ l_time st <= e /\ exists s, In (a, (s, e)) (l_sched st);
  v_past : forall a s e, In (a, (s, e)) (l_sched st) -> s <= l_time st /\ (~ In a (queued st) -> e <= l_time st);
  v_len : forall a s e, In (a, (s, e)) (l_sched st) -> a <> 1 -> exists d, pile_duration p md a = Ok d /\ e = s + d;
  v_keys : dkeys (l_pred st) = dkeys preds;
  v_pred : forall b s0 s, dget preds b = Some s0 -> dget (l_pred st) b = Some s ->
    NoDup s /\ forall x, In x s <-> In x s0 /\ ~ finished st x;
  v_av : NoDup (l_av st);
  v_disj : forall a, In a (l_av st) -> ~ In a (map fst (l_sched st));
  v_ready : forall a, In a (l_av st) \/ In a (map fst (l_sched st)) <-> dget (l_pred st) a = Some [];
  v_prec : forall a b s sb eb, In (b, (sb, eb)) (l_sched st) -> dget preds b = Some s -> In a s ->
    exists sa ea, In (a, (sa, ea)) (l_sched st) /\ ea <= sb;
  v_order : forall l1 b x l2 s, l_sched st = l1 ++ (b, x) :: l2 -> dget preds b = Some s -> incl s (map fst l1);
  v_names : dkeys (l_res st) = dkeys resources;
  v_res : forall r c, dget resources r = Some c ->
    dget (l_res st) r = Some (c - sumZ (map (held (queued st) r) (map fst (l_sched st))))%Z;
  v_room : forall r x, dget (l_res st) r = Some x -> (0 <= x)%Z;
  v_cap : forall r c t, dget resources r = Some c -> ~ In r (p_nonren p) -> (sumZ (map (use r t) (l_sched st)) <= c)%Z;
  v_perm : l_perm st = map (fun a => Z.of_nat a - 2)%Z (tl (map fst (l_sched st)))
}.

Lemma in_preds : forall a st, pinv st -> dget (l_pred st) a = Some [] -> 1 <= a <= p_sink p.
Proof.
  intros a st V D. apply (go_tasks Go). rewrite <- (v_keys _ V). apply dmem_true. unfold dmem. now rewrite D.
Qed.

Lemma held_nonneg : forall q r a, (0 <= held q r a)%Z.
Proof. intros. unfold held. pose proof (Needs a r). destruct (a =? 1), (pymem r (p_nonren p) || pymem a q); lia. Qed.

Lemma start_ok : forall a st st', pinv st -> In a (l_av st) -> pile_fits p md (l_res st) a = Ok true ->
  pile_start p md resources a st = Ok st' -> pinv st'.
Proof.
  intros a st st' V Ia Ft H. unfold pile_start in H.
  replace (pymem a (l_av st)) with true in H by (symmetry; now apply pymem_true).
  apply bind_ok in H as [d [D H]]. apply bind_ok in H as [rs [R H]]. injection H as <-.
  pose proof (v_disj _ V a Ia) as Na.
  assert (Ra : dget (l_pred st) a = Some []) by (apply (v_ready _ V); auto).
  rewrite dset_absent by exact Na. set (T := l_time st) in *.
  destruct (v_first _ V) as [l0 F].
  assert (A1 : a <> 1) by (intros ->; apply Na; rewrite F; now left).
  assert (Nq : ~ In a (queued st)).
  { intros I. apply in_map_iff in I as [[e a'] [E I]]. cbn in E. subst a'. destruct (v_queued _ V a e I) as (_ & _ & s & Is).
    apply Na. apply in_map_iff. exists (a, (s, e)). auto. }
  assert (Q : Permutation (map snd (qpush (T + d, a) (l_queue st))) (a :: queued st)).
  { unfold qpush. rewrite <- (Permutation_map snd (sinsert_perm before (T + d, a) (l_queue st))). reflexivity. }
  assert (Qi : forall x, In x (map snd (qpush (T + d, a) (l_queue st))) <-> x = a \/ In x (queued st)).
  { intros x. split; intros I.
    - apply (Permutation_in _ Q) in I. destruct I; auto.
    - apply (Permutation_in _ (Permutation_sym Q)). destruct I as [->|I]; [now left|now right]. }
  change (fun (rs : list (string * Z)) (r : string) => let* x := dgetE rs r in let* n := pile_need p md a r in Ok (dset rs r (x - n)%Z))
    with (upd (fun _ => false) (pile_need p md a) Z.sub) in R.
  destruct (upd_ok _ _ _ _ _ _ R Names) as (Kr & Ur & _).
  assert (Fin : forall x, finished (Pile (l_sched st ++ [(a, (T, T + d))]) (pyremove a (l_av st)) (l_pred st) rs
             (qpush (T + d, a) (l_queue st)) T (l_perm st ++ [(Z.of_nat a - 2)%Z])) x <-> finished st x).
  { intros x. unfold finished, queued. cbn [l_sched l_queue]. rewrite map_app, in_app_iff, Qi. cbn [map fst In]. split.
    - intros [[I|[<-|[]]] N]; [split; auto|elim N; auto].
    - intros [I N]. split; auto. intros [->|J]; auto. }
  assert (Done : forall s b, dget preds a = Some s -> In b s -> finished st b).
  { intros s b Dc Ib. destruct (v_pred _ V a s [] Dc Ra) as [_ H].
    destruct (in_dec Nat.eq_dec b (map fst (l_sched st))) as [J|J], (in_dec Nat.eq_dec b (queued st)) as [K|K]; try (split; auto; fail).
    - destruct (proj2 (H b)). split; auto. intros [_ X]; auto.
    - destruct (proj2 (H b)). split; auto. intros [X _]; auto.
    - destruct (proj2 (H b)). split; auto. intros [X _]; auto. }
  (* what fits *)
  assert (Fits : forall r x, dget (l_res st) r = Some x -> (dm a r <= x)%Z).
  { intros r x Dx. assert (Ir : In r (dkeys (l_res st))) by (apply dmem_true; unfold dmem; now rewrite Dx).
    pose proof (allM_true _ _ _ Ft r Ir) as E. cbv beta in E. apply bind_ok in E as [n [En E]]. apply bind_ok in E as [y [Ey E]].
    unfold dgetE in Ey. rewrite Dx in Ey. injection Ey as <-. injection E as E. unfold dm. rewrite En. lia. }
  assert (Hx : forall r, sumZ (map (held (map snd (qpush (T + d, a) (l_queue st))) r) (map fst (l_sched st ++ [(a, (T, T + d))])))
    = (sumZ (map (held (queued st) r) (map fst (l_sched st))) + dm a r)%Z).
  { intros r. rewrite map_app, map_app, sumZ_app. cbn [map fst]. f_equal.
    - apply sumZ_map_ext. intros x Ix. unfold held. destruct (x =? 1); auto.
      assert (x <> a) by (intros ->; contradiction).
      replace (pymem x (map snd (qpush (T + d, a) (l_queue st)))) with (pymem x (queued st)); auto.
      destruct (pymem x (queued st)) eqn:M.
      + symmetry. apply pymem_true, Qi. right. exact (proj1 (pymem_true x (queued st)) M).
      + symmetry. apply pymem_false. rewrite Qi. intros [->|J]; [congruence|]. exact (proj1 (pymem_false x _) M J).
    - rewrite sumZ_one. unfold held. destruct (Nat.eqb_spec a 1); [contradiction|].
      replace (pymem a (map snd (qpush (T + d, a) (l_queue st)))) with true by (symmetry; apply pymem_true, Qi; auto).
      now rewrite orb_true_r. }
  constructor; cbn [l_sched l_av l_pred l_res l_queue l_time l_perm]; unfold queued; cbn [l_sched l_av l_pred l_res l_queue l_time l_perm].
  - rewrite map_app. cbn [map fst]. apply NoDup_snoc; [apply V|exact Na].
  - exists (l0 ++ [(a, (T, T + d))]). rewrite F. reflexivity.
  - apply sinsert_sorted; [exact before_total|apply V].
  - eapply Permutation_NoDup; [symmetry; exact Q|]. constructor; [exact Nq|apply V].
  - intros b e I. apply (Permutation_in _ (Permutation_sym (sinsert_perm before (T + d, a) (l_queue st)))) in I.
    destruct I as [I|I].
    + injection I as <- <-. split; auto. split; [lia|]. exists T. apply in_or_app. right. now left.
    + destruct (v_queued _ V b e I) as (H1 & H2 & s & Is). split; auto. split; auto. exists s. apply in_or_app. auto.
  - intros b s e I. apply in_app_or in I as [I|[I|[]]].
    + destruct (v_past _ V b s e I) as [H1 H2]. split; auto. intros N. apply H2. intros J. apply N, Qi. auto.
    + injection I as <- <- <-. split; auto. intros N. elim N. apply Qi. auto.
  - intros b s e I Nb. apply in_app_or in I as [I|[I|[]]]; [eapply v_len; eauto|]. injection I as <- <- <-. eauto.
  - apply V.
  - intros b s0 s D0 Ds. destruct (v_pred _ V b s0 s D0 Ds) as [H1 H2]. split; auto. intros x. rewrite H2, Fin. reflexivity.
  - apply pyremove_NoDup, V.
  - intros b I. apply pyremove_In in I as [Ne I]; [|apply V]. rewrite map_app, in_app_iff. cbn [map fst In].
    intros [J|[J|[]]]; [eapply v_disj; eauto|congruence].
  - intros b. rewrite <- (v_ready _ V b), map_app, in_app_iff. cbn [map fst In]. rewrite pyremove_In by apply V.
    destruct (Nat.eq_dec b a) as [->|Ne]; [tauto|]. split; [intros [[_ I]|[I|[I|[]]]]; auto; congruence|intros [I|I]; auto].
  - intros b c s sc ec I Dc Ib. apply in_app_or in I as [I|[I|[]]].
    + destruct (v_prec _ V b c s sc ec I Dc Ib) as (sa & ea & J & L). exists sa, ea. split; auto. apply in_or_app. auto.
    + injection I as <- <- <-.
      assert (Fb : finished st b) by (apply (Done s); auto).
      destruct Fb as [J K]. apply in_map_iff in J as [[b' [sb eb]] [E J]]. cbn in E. subst b'.
      exists sb, eb. split; [apply in_or_app; auto|]. apply (v_past _ V b sb eb J). exact K.
  - intros l1 b x l2 s E Db. destruct (exists_last (l := (b, x) :: l2)) as (l3 & z & E3); [congruence|].
    rewrite E3, app_assoc in E. apply app_inj_tail in E as [E Ez]. destruct l3 as [|y l3].
    + cbn [app] in E3. injection E3 as E3 ->. rewrite app_nil_r in E. rewrite <- Ez in E3. injection E3 as -> ->. rewrite <- E.
      intros y Iy. apply (Done s y Db Iy).
    + cbn [app] in E3. injection E3 as <- E3. eapply v_order; eauto.
  - rewrite Kr. apply V.
  - intros r c Dc. rewrite Hx. pose proof (v_res _ V r c Dc) as Dr.
    assert (Ir : In r (dkeys resources)) by (apply dmem_true; unfold dmem; now rewrite Dc).
    destruct (Ur r Ir eq_refl) as (x & n & Dx & Gn & ->). f_equal. rewrite Dr in Dx. injection Dx as <-.
    unfold dm at 1. rewrite Gn. lia.
  - intros r x Dx. assert (Ir : In r (dkeys resources)).
    { rewrite <- (v_names _ V), <- Kr. apply dmem_true. unfold dmem. now rewrite Dx. }
    destruct (Ur r Ir eq_refl) as (y & n & Dy & Gn & E). rewrite E in Dx. injection Dx as <-.
    specialize (Fits r y Dy). unfold dm in Fits. rewrite Gn in Fits. lia.
  - intros r c t Dc Nr. rewrite map_app, sumZ_app. cbn [map]. rewrite sumZ_one. unfold use at 2. cbn [fst snd].
    destruct (Nat.leb_spec T t); cbn [andb]; [|specialize (v_cap _ V r c t Dc Nr); lia].
    destruct (Nat.ltb_spec t (T + d)); [|specialize (v_cap _ V r c t Dc Nr); lia].
    pose proof (Fits r _ (v_res _ V r c Dc)) as Fr.
    assert (sumZ (map (use r t) (l_sched st)) <= sumZ (map (held (queued st) r) (map fst (l_sched st))))%Z; [|lia].
    rewrite map_map. apply sumZ_map_le. intros [b [s e]] I. unfold use. cbn [fst snd].
    pose proof (held_nonneg (queued st) r b). destruct (Nat.leb_spec s t); cbn [andb]; [|lia]. destruct (Nat.ltb_spec t e); [|lia].
    destruct (v_past _ V b s e I) as [_ P]. destruct (in_dec Nat.eq_dec b (queued st)) as [J|J]; [|specialize (P J); fold T in P; lia].
    unfold held. apply in_map_iff in J as J'. destruct J' as [[e' b'] [E J']]. cbn in E. subst b'.
    destruct (v_queued _ V b e' J') as [N1 _]. destruct (Nat.eqb_spec b 1); [contradiction|].
    replace (pymem b (queued st)) with true by (symmetry; now apply pymem_true). rewrite orb_true_r. lia.
  - rewrite (v_perm _ V), F. cbn [map fst tl app]. rewrite map_app, map_app. reflexivity.
Qed.

Lemma fill_ok : forall fuel st st', pinv st -> pile_fill fuel p md resources choose st = Ok st' -> pinv st'.
Proof.
  induction fuel as [|fuel IH]; intros st st' V H; cbn [pile_fill] in H; apply bind_ok in H as [poss [P H]];
    (destruct poss as [|x poss]; [injection H as <-; auto|]); [discriminate|].
  apply bind_ok in H as [a [C H]]. apply bind_ok in H as [st1 [S H]]. apply Choice in C.
  apply (filterM_ok _ _ _ _ P) in C as [Ia Ft]. eapply IH; [|exact H]. eapply start_ok; eauto.
Qed.

Lemma pop_ok : forall st st', pinv st -> pile_pop p md resources nbrs st = Ok st' -> pinv st'.
Proof.
  intros st st' V H. unfold pile_pop in H. destruct (l_queue st) as [|[e a] q] eqn:Q; [discriminate|].
  apply bind_ok in H as [[pred' av'] [U H]]. apply bind_ok in H as [rs [R H]]. injection H as <-. cbn [fst snd] in *.
  destruct (v_queued _ V a e) as (A1 & Le & s0 & Is); [rewrite Q; now left|].
  assert (Ndq : NoDup (a :: map snd q)) by (pose proof (v_queue _ V) as N; unfold queued in N; now rewrite Q in N).
  inversion Ndq as [|? ? Naq Nq]; subst.
  assert (Srt : Sorted (fun a b => before a b = true) ((e, a) :: q)) by (rewrite <- Q; apply V).
  assert (Qd : forall x, In x (queued st) <-> x = a \/ In x (map snd q)).
  { intros x. unfold queued. rewrite Q. cbn [map snd In]. split; intros [E|I]; auto. }
  destruct (unlock_ok _ _ _ _ _ _ U) as (Kp & Pp & Ap & Np).
  { intros b s D. assert (exists s1, dget preds b = Some s1) as [s1 D1].
    { assert (In b (dkeys preds)) as I by (rewrite <- (v_keys _ V); apply dmem_true; unfold dmem; now rewrite D).
      apply dmem_true in I. unfold dmem in I. destruct (dget preds b); [eauto|discriminate]. }
    apply (v_pred _ V b s1 s D1 D). }
  change (fun (rs : list (string * Z)) (r : string) => if pymem r (p_nonren p) then Ok rs
     else let* x := dgetE rs r in let* n := pile_need p md a r in Ok (dset rs r (x + n)%Z))
    with (upd (fun r => pymem r (p_nonren p)) (pile_need p md a) Z.add) in R.
  destruct (upd_ok _ _ _ _ _ _ R Names) as (Kr & Ur & Us).
  assert (Ia : In a (map fst (l_sched st))) by (apply in_map_iff; exists (a, (s0, e)); auto).
  set (st1 := Pile (l_sched st) av' pred' rs q e (l_perm st)).
  assert (Fin : forall x, finished st1 x <-> finished st x \/ x = a).
  { intros x. unfold finished. rewrite Qd. unfold queued. cbn [st1 l_sched l_queue]. split.
    - intros [I N]. destruct (Nat.eq_dec x a) as [->|Ne]; [auto|]. left. split; auto. intros [E|J]; auto.
    - intros [[I N]| ->]; split; auto. }
  assert (Get : forall b s, dget (l_pred st) b = Some s -> exists s1, dget preds b = Some s1 /\ NoDup s).
  { intros b s D. assert (In b (dkeys preds)) as I by (rewrite <- (v_keys _ V); apply dmem_true; unfold dmem; now rewrite D).
    apply dmem_true in I. unfold dmem in I. destruct (dget preds b) as [s1|] eqn:D1; [|discriminate]. exists s1. split; auto.
    apply (v_pred _ V b s1 s D1 D). }
  assert (New : forall b s, dget (l_pred st) b = Some s -> dget pred' b = Some (pyremove a s)).
  { intros b s D. rewrite (Pp b s D). destruct (pymem b (nbrs a)) eqn:M; auto. f_equal. symmetry. apply pyremove_absent.
    intros J. destruct (Get b s D) as (s1 & D1 & _). destruct (v_pred _ V b s1 s D1 D) as [_ H]. destruct (proj1 (H a) J) as [J1 _].
    pose proof (go_nbrs Go a b s1 D1 J1) as K. exact (proj1 (pymem_false b _) M K). }
  assert (Old : forall b s', dget pred' b = Some s' -> exists s, dget (l_pred st) b = Some s /\ s' = pyremove a s).
  { intros b s' D. assert (In b (dkeys (l_pred st))) as I by (rewrite <- Kp; apply dmem_true; unfold dmem; now rewrite D).
    apply dmem_true in I. unfold dmem in I. destruct (dget (l_pred st) b) as [s|] eqn:Ds; [|discriminate]. exists s. split; auto.
    rewrite (New b s Ds) in D. congruence. }
  assert (Hx : forall r, sumZ (map (held (map snd q) r) (map fst (l_sched st)))
    = (sumZ (map (held (queued st) r) (map fst (l_sched st))) - if pymem r (p_nonren p) then 0 else dm a r)%Z).
  { intros r. pose proof (sum_change (held (map snd q) r) (held (queued st) r) a (map fst (l_sched st)) (v_sched _ V) Ia) as E.
    assert (X : forall x, x <> a -> held (map snd q) r x = held (queued st) r x).
    { intros x Ne. unfold held. destruct (x =? 1); auto. replace (pymem x (queued st)) with (pymem x (map snd q)); auto.
      destruct (pymem x (map snd q)) eqn:M; symmetry.
      - apply pymem_true, Qd. right. exact (proj1 (pymem_true x (map snd q)) M).
      - apply pymem_false. rewrite Qd. intros [->|J]; [congruence|]. exact (proj1 (pymem_false x _) M J). }
    specialize (E X). unfold held at 2 4 in E. destruct (Nat.eqb_spec a 1); [contradiction|].
    replace (pymem a (map snd q)) with false in E by (symmetry; apply pymem_false; exact Naq).
    replace (pymem a (queued st)) with true in E by (symmetry; apply pymem_true, Qd; auto).
    rewrite orb_true_r, orb_false_r in E. destruct (pymem r (p_nonren p)); lia. }
  fold st1. constructor; unfold queued; cbn [st1 l_sched l_av l_pred l_res l_queue l_time l_perm].
  - apply V.
  - apply V.
  - now inversion Srt.
  - exact Nq.
  - intros b x I. destruct (v_queued _ V b x) as (H1 & H2 & H3); [rewrite Q; now right|]. split; auto. split; auto.
    apply Sorted_extends in Srt; [|intros x1 x2 x3; apply before_trans]. rewrite Forall_forall in Srt. specialize (Srt _ I).
    unfold before in Srt. cbn [fst snd] in Srt. lia.
  - intros b s x I. destruct (v_past _ V b s x I) as [H1 H2]. split; [lia|]. intros N.
    destruct (Nat.eq_dec b a) as [->|Ne].
    + assert (D1 : dget (l_sched st) a = Some (s, x)) by (apply In_dget; [apply V|auto]).
      assert (D2 : dget (l_sched st) a = Some (s0, e)) by (apply In_dget; [apply V|auto]). assert (x = e) by congruence. lia.
    + assert (~ In b (queued st)) by (rewrite Qd; intros [E|J]; auto). specialize (H2 H). lia.
  - apply V.
  - rewrite Kp. apply V.
  - intros b s0' s' D0 Ds. destruct (Old b s' Ds) as (s & Ds1 & ->). destruct (v_pred _ V b s0' s D0 Ds1) as [N H].
    split; [now apply pyremove_NoDup|]. intros x. rewrite pyremove_In by auto. rewrite H, Fin. tauto.
  - apply Np, V.
  - intros b I J. apply Ap in I as [I|[I (s & D & Ias & _)]]; [eapply v_disj; eauto|].
    assert (D' : dget (l_pred st) b = Some []) by (apply (v_ready _ V); auto). rewrite D in D'. injection D' as ->. destruct Ias.
  - intros b. rewrite Ap. split.
    + intros [[I|[I (s & D & Ias & E)]]|I].
      * assert (D : dget (l_pred st) b = Some []) by (apply (v_ready _ V); auto). rewrite (New b [] D). reflexivity.
      * rewrite (New b s D). now rewrite E.
      * assert (D : dget (l_pred st) b = Some []) by (apply (v_ready _ V); auto). rewrite (New b [] D). reflexivity.
    + intros D. destruct (Old b [] D) as (s & Ds & E). destruct (in_dec Nat.eq_dec a s) as [J|J].
      * left. right. split; [|eauto]. destruct (Get b s Ds) as (s1 & D1 & _). destruct (v_pred _ V b s1 s D1 Ds) as [_ H].
        apply (go_nbrs Go a b s1 D1). now apply H.
      * rewrite pyremove_absent in E by auto. subst s. apply (v_ready _ V) in Ds as [I|I]; auto.
  - apply V.
  - apply V.
  - rewrite Kr. apply V.
  - intros r c Dc. rewrite Hx. pose proof (v_res _ V r c Dc) as Dr.
    assert (Ir : In r (dkeys resources)) by (apply dmem_true; unfold dmem; now rewrite Dc).
    destruct (pymem r (p_nonren p)) eqn:M.
    + rewrite (Us r) by auto. rewrite Dr. f_equal. lia.
    + destruct (Ur r Ir M) as (x & n & Dx & Gn & ->). f_equal. rewrite Dr in Dx. injection Dx as <-.
      unfold dm at 1. rewrite Gn. lia.
  - intros r x Dx. destruct (pymem r (p_nonren p)) eqn:M.
    + rewrite (Us r) in Dx by auto. eapply v_room; eauto.
    + assert (Ir : In r (dkeys resources)).
      { rewrite <- (v_names _ V), <- Kr. apply dmem_true. unfold dmem. now rewrite Dx. }
      destruct (Ur r Ir M) as (y & n & Dy & Gn & E). rewrite E in Dx. injection Dx as <-.
      pose proof (v_room _ V r y Dy). pose proof (Needs a r) as Nn. unfold dm in Nn. rewrite Gn in Nn. lia.
  - apply V.
  - apply V.
Qed.

Lemma init_ok : forall st, pile_init p resources preds nbrs = Ok st -> pinv st.
Proof.
  intros st H. unfold pile_init in H. apply bind_ok in H as [x [_ H]].
  set (av := filter (fun a => negb (a =? 1) && match dget preds a with Some [] => true | _ => false end) (dkeys preds)) in H.
  replace (filter (fun a => negb (dmem preds a)) (seq 1 (p_sink p))) with (@nil nat) in H.
  2:{ assert (K : forall l, (forall a, In a l -> In a (dkeys preds)) -> [] = filter (fun a => negb (dmem preds a)) l).
      { induction l as [|a l IH]; intros I; auto. cbn [filter]. replace (dmem preds a) with true; [|symmetry; apply dmem_true, I; now left].
        cbn [negb]. apply IH. intros b Ib. apply I. now right. }
      apply K. intros a Ia. apply (go_tasks Go). apply in_seq in Ia. lia. }
  rewrite app_nil_r in H. apply bind_ok in H as [[pred' av'] [U H]]. injection H as <-. cbn [fst snd].
  assert (Av : forall a, In a av <-> a <> 1 /\ dget preds a = Some []).
  { intros a. unfold av. rewrite filter_In, andb_true_iff, negb_true_iff, Nat.eqb_neq. split.
    - intros (_ & N & E). split; auto. destruct (dget preds a) as [[]|]; congruence.
    - intros [N E]. rewrite E. repeat split; auto. apply dmem_true. unfold dmem. now rewrite E. }
  destruct (unlock_ok _ _ _ _ _ _ U (go_sets Go)) as (Kp & Pp & Ap & Np).
  set (st := Pile [(1, (0, 0))] av' pred' resources [] 0 []).
  assert (Fin : forall x, finished st x <-> x = 1).
  { intros y. unfold finished, queued. cbn. split; [intros [[E|[]] _]; auto|intros ->; auto]. }
  assert (New : forall b s, dget preds b = Some s -> dget pred' b = Some (pyremove 1 s)).
  { intros b s D. rewrite (Pp b s D). destruct (pymem b (nbrs 1)) eqn:M; auto. f_equal. symmetry. apply pyremove_absent.
    intros J. pose proof (go_nbrs Go 1 b s D J) as K. exact (proj1 (pymem_false b _) M K). }
  assert (Old : forall b s', dget pred' b = Some s' -> exists s, dget preds b = Some s /\ s' = pyremove 1 s).
  { intros b s' D. assert (In b (dkeys preds)) as I by (rewrite <- Kp; apply dmem_true; unfold dmem; now rewrite D).
    apply dmem_true in I. unfold dmem in I. destruct (dget preds b) as [s|] eqn:Ds; [|discriminate]. exists s. split; auto.
    rewrite (New b s Ds) in D. congruence. }
  constructor; unfold queued; cbn [st l_sched l_av l_pred l_res l_queue l_time l_perm map fst snd tl].
  - repeat constructor; auto.
  - eauto.
  - constructor.
  - constructor.
  - intros a e [].
  - intros a s e [I|[]]. injection I as <- <- <-. auto.
  - intros a s e [I|[]] N. injection I as <- <- <-. congruence.
  - exact Kp.
  - intros b s0 s' D0 Ds. destruct (Old b s' Ds) as (s & Ds1 & ->). assert (s = s0) by congruence. subst s.
    pose proof (go_sets Go b s0 D0). split; [now apply pyremove_NoDup|]. intros y. rewrite pyremove_In by auto. rewrite Fin. tauto.
  - apply Np. apply NoDup_filter, Go.
  - intros b I [<-|[]]. apply Ap in I as [I|[I (s & D & Ias & _)]].
    + apply Av in I as [N _]. congruence.
    + rewrite (go_first Go) in D. injection D as <-. destruct Ias.
  - intros b. rewrite Ap, Av. cbn [In]. split.
    + intros [[[N D]|[I (s & D & Ias & E)]]|[<-|[]]].
      * rewrite (New b [] D). reflexivity.
      * rewrite (New b s D). now rewrite E.
      * rewrite (New 1 [] (go_first Go)). reflexivity.
    + intros D. destruct (Old b [] D) as (s & Ds & E). destruct (in_dec Nat.eq_dec 1 s) as [J|J].
      * left. right. split; [|eauto]. apply (go_nbrs Go 1 b s Ds J).
      * rewrite pyremove_absent in E by auto. subst s. destruct (Nat.eq_dec b 1); auto.
  - intros a b s sb eb [I|[]] D Ia. injection I as <- <- <-. rewrite (go_first Go) in D. injection D as <-. destruct Ia.
  - intros l1 b y l2 s E D. destruct l1 as [|z l1]; [|destruct l1; discriminate]. injection E as <- <- <-.
    rewrite (go_first Go) in D. injection D as <-. intros w [].
  - reflexivity.
  - intros r c D. rewrite D. f_equal. unfold held. cbn. lia.
  - exact Caps.
  - intros r c t D _. cbn [map]. rewrite sumZ_one. unfold use. cbn. specialize (Caps r c D). rewrite andb_false_r || idtac.
    destruct t; cbn; lia.
  - reflexivity.
Qed.

Lemma loop_ok : forall fuel st st', pinv st -> pile_loop fuel p md resources nbrs choose st = Ok st' ->
  pinv st' /\ p_sink p <= length (l_sched st').
Proof.
  induction fuel as [|fuel IH]; intros st st' V H; cbn [pile_loop] in H;
    (destruct (Nat.ltb_spec (length (l_sched st)) (p_sink p)); [|injection H as <-; auto]); [discriminate|].
  apply bind_ok in H as [st1 [F H]]. apply bind_ok in H as [st2 [P H]].
  eapply IH; [|exact H]. eapply pop_ok; [|exact P]. eapply fill_ok; eauto.
Qed.

Lemma run_ok : forall st, pile_run p md resources preds nbrs choose = Ok st ->
  pinv st /\ Permutation (map fst (l_sched st)) (seq 1 (p_sink p)).
Proof.
  intros st H. unfold pile_run in H. apply bind_ok in H as [st0 [I H]]. apply init_ok in I.
  destruct (loop_ok _ _ _ I H) as [V L]. split; auto.
  apply NoDup_Permutation_bis; [apply V|rewrite seq_length, map_length; auto|].
  intros a Ia. assert (D : dget (l_pred st) a = Some []) by (apply (v_ready _ V); auto).
  apply in_preds in D; auto. apply in_seq. lia.
Qed.

(** * Termination *)
Lemma queue_len : forall st, pinv st -> length (l_queue st) < length (l_sched st).
Proof.
  intros st V. destruct (v_first _ V) as [l F].
  assert (incl (1 :: queued st) (map fst (l_sched st))).
  { intros x [<-|I]; [rewrite F; now left|]. apply in_map_iff in I as [[e a] [E I]]. cbn in E. subst a.
    destruct (v_queued _ V x e I) as (_ & _ & s & Is). apply in_map_iff. exists (x, (s, e)). auto. }
  assert (N : NoDup (1 :: queued st)).
  { constructor; [|apply V]. intros I. apply in_map_iff in I as [[e a] [E I]]. cbn in E. subst a.
    destruct (v_queued _ V 1 e I) as (X & _). congruence. }
  pose proof (NoDup_incl_length N H) as L. cbn [length] in L. unfold queued in L. rewrite !map_length in L. lia.
Qed.

Hypothesis Dur : forall a, 1 <= a <= p_sink p -> exists d, pile_duration p md a = Ok d.
Hypothesis Need : forall a r, 1 <= a <= p_sink p -> In r (dkeys resources) -> exists x, pile_need p md a r = Ok x.
Hypothesis Nbrs : forall a, incl (nbrs a) (dkeys preds).
Hypothesis Nonren : incl (p_nonren p) (dkeys resources).
Hypothesis Chooses : forall k l, l <> [] -> (forall a, In a l -> 1 <= a <= p_sink p) -> exists a, choose k l = Ok a.

Lemma fits_total : forall st a, pinv st -> In a (l_av st) -> exists b, pile_fits p md (l_res st) a = Ok b.
Proof.
  intros st a V I. apply allM_total. intros r Ir. assert (Ra : 1 <= a <= p_sink p) by (eapply in_preds; eauto; apply (v_ready _ V); auto).
  pose proof Ir as Ir'. rewrite (v_names _ V) in Ir'. destruct (Need a r Ra Ir') as [x ->]. cbn [bind].
  apply dmem_true in Ir. unfold dmem in Ir. unfold dgetE. destruct (dget (l_res st) r); [|discriminate]. cbn [bind]. eauto.
Qed.

Lemma start_total : forall st a, pinv st -> In a (l_av st) -> exists st', pile_start p md resources a st = Ok st' /\
  l_av st' = pyremove a (l_av st) /\ length (l_sched st') = S (length (l_sched st)) /\ length (l_queue st') = S (length (l_queue st)).
Proof.
  intros st a V I. assert (Ra : 1 <= a <= p_sink p) by (eapply in_preds; eauto; apply (v_ready _ V); auto).
  unfold pile_start. replace (pymem a (l_av st)) with true by (symmetry; now apply pymem_true).
  destruct (Dur a Ra) as [d ->]. cbn [bind].
  destruct (upd_total (fun _ => false) (pile_need p md a) Z.sub (dkeys resources) (l_res st) Names) as [rs R].
  { rewrite (v_names _ V). apply incl_refl. }
  { intros r Ir. now apply Need. }
  change (foldM _ (l_res st) (dkeys resources)) with (foldM (upd (fun _ => false) (pile_need p md a) Z.sub) (l_res st) (dkeys resources)).
  rewrite R. cbn [bind]. eexists. split; [reflexivity|]. cbn [l_av l_sched l_queue]. split; auto. split.
  - rewrite dset_absent by (now apply (v_disj _ V)). rewrite app_length. cbn. lia.
  - unfold qpush. rewrite <- (Permutation_length (sinsert_perm before (l_time st + d, a) (l_queue st))). reflexivity.
Qed.

Lemma remove_length : forall (a : nat) l, In a l -> S (length (pyremove a l)) = length l.
Proof.
  induction l as [|x l IH]; intros I; [destruct I|]. cbn [pyremove]. destruct (pyeqb_spec a x); auto.
  destruct I as [I|I]; [congruence|]. cbn [length]. now rewrite IH.
Qed.

(** Filling always ends; the number of finished tasks is unchanged; either nothing was possible or the
    queue is not empty. *)
Lemma fill_total : forall fuel st, pinv st -> length (l_av st) <= fuel -> exists st', pile_fill fuel p md resources choose st = Ok st' /\
  length (l_sched st') - length (l_queue st') = length (l_sched st) - length (l_queue st) /\
  (l_queue st' <> [] \/ (st' = st /\ forall a, In a (l_av st) -> pile_fits p md (l_res st) a = Ok false)).
Proof.
  induction fuel as [|fuel IH]; intros st V L; cbn [pile_fill];
    destruct (filterM_total _ (pile_fits p md (l_res st)) (l_av st) (fun a I => fits_total st a V I)) as [poss P]; rewrite P; cbn [bind];
    pose proof (filterM_ok _ _ _ _ P) as F.
  - destruct poss as [|x poss].
    + exists st. split; auto. split; auto. right. split; auto. intros a Ia. destruct (fits_total st a V Ia) as [[] E]; auto.
      exfalso. eapply (proj2 (F a)); eauto.
    + exfalso. destruct (proj1 (F x)) as [I _]; [now left|]. destruct (l_av st); [destruct I|cbn in L; lia].
  - destruct poss as [|x poss].
    + exists st. split; auto. split; auto. right. split; auto. intros a Ia. destruct (fits_total st a V Ia) as [[] E]; auto.
      exfalso. eapply (proj2 (F a)); eauto.
    + destruct (Chooses (length (l_sched st)) (x :: poss)) as [a C]; [congruence| |].
      { intros y Iy. apply F in Iy as [Iy _]. eapply in_preds; eauto. apply (v_ready _ V). auto. } rewrite C. cbn [bind]. apply Choice in C.
      apply F in C as [Ia Ft]. destruct (start_total st a V Ia) as (st1 & S1 & A1 & L1 & Q1). rewrite S1. cbn [bind].
      assert (V1 : pinv st1) by (eapply start_ok; eauto).
      destruct (IH st1 V1) as (st' & E & D & O).
      { rewrite A1. pose proof (remove_length a (l_av st) Ia). lia. }
      exists st'. split; auto. split; [lia|]. left. destruct O as [O|[-> _]]; auto. intros X. rewrite X in Q1. discriminate.
Qed.

Lemma pop_total : forall st, pinv st -> l_queue st <> [] -> exists st', pile_pop p md resources nbrs st = Ok st' /\
  l_sched st' = l_sched st /\ S (length (l_queue st')) = length (l_queue st).
Proof.
  intros st V N. unfold pile_pop. destruct (l_queue st) as [|[e a] q] eqn:Q; [congruence|].
  destruct (unlock_total a (nbrs a) (l_pred st) (l_av st)) as [pa ->]; [rewrite (v_keys _ V); apply Nbrs|]. cbn [bind].
  destruct (v_queued _ V a e) as (_ & _ & s & Is); [rewrite Q; now left|].
  assert (Ra : 1 <= a <= p_sink p).
  { eapply in_preds; eauto. apply (v_ready _ V). right. apply in_map_iff. exists (a, (s, e)). auto. }
  destruct (upd_total (fun r => pymem r (p_nonren p)) (pile_need p md a) Z.add (dkeys resources) (l_res st) Names) as [rs R].
  { rewrite (v_names _ V). apply incl_refl. }
  { intros r Ir. now apply Need. }
  change (foldM _ (l_res st) (dkeys resources)) with (foldM (upd (fun r => pymem r (p_nonren p)) (pile_need p md a) Z.add) (l_res st) (dkeys resources)).
  rewrite R. cbn [bind]. eexists. split; [reflexivity|]. cbn. auto.
Qed.

Lemma init_total : exists st, pile_init p resources preds nbrs = Ok st.
Proof.
  unfold pile_init.
  assert (M : exists x, mapM (dgetE resources) (p_nonren p) = Ok x).
  { clear -Nonren. induction (p_nonren p) as [|r l IH]; cbn [mapM]; [eauto|].
    assert (In r (dkeys resources)) as I by (apply Nonren; now left). apply dmem_true in I. unfold dmem in I.
    unfold dgetE at 1. destruct (dget resources r); [|discriminate]. cbn [bind].
    destruct IH as [x ->]; [intros y Iy; apply Nonren; now right|]. cbn [bind]. eauto. }
  destruct M as [x ->]. cbn [bind].
  destruct (unlock_total 1 (nbrs 1) preds
    (filter (fun a => negb (a =? 1) && match dget preds a with Some [] => true | _ => false end) (dkeys preds)
            ++ filter (fun a => negb (dmem preds a)) (seq 1 (p_sink p))) (Nbrs 1)) as [pa ->].
  cbn [bind]. eauto.
Qed.

(** The loop ends within [p_sink p] turns, or fails because nothing can be started or finished. *)
Lemma loop_total : forall fuel st, pinv st -> p_sink p <= length (l_sched st) - length (l_queue st) + fuel ->
  (exists st', pile_loop fuel p md resources nbrs choose st = Ok st') \/
  (pile_loop fuel p md resources nbrs choose st = Err IndexError /\
   exists st1, pinv st1 /\ l_queue st1 = [] /\ length (l_sched st1) < p_sink p /\
     forall a, In a (l_av st1) -> pile_fits p md (l_res st1) a = Ok false).
Proof.
  induction fuel as [|fuel IH]; intros st V L; cbn [pile_loop];
    (destruct (Nat.ltb_spec (length (l_sched st)) (p_sink p)) as [Lt|Ge]; [|eauto]); [pose proof (queue_len st V); lia|].
  destruct (fill_total _ st V (le_n _)) as (st1 & F & D & O). rewrite F. cbn [bind].
  assert (V1 : pinv st1) by (eapply fill_ok; eauto).
  destruct (l_queue st1) as [|x q] eqn:Q.
  - right. unfold pile_pop. rewrite Q. split; auto. destruct O as [O|[-> O]]; [congruence|]. exists st. auto.
  - destruct (pop_total st1 V1) as (st2 & P & S2 & Q2); [congruence|]. rewrite P. cbn [bind].
    assert (V2 : pinv st2) by (eapply pop_ok; eauto). pose proof (queue_len st1 V1). rewrite Q in Q2, H. cbn [length] in Q2, H, D.
    apply IH; auto. rewrite S2. lia.
Qed.
End Pile.
