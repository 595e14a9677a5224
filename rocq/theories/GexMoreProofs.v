(** Proofs about the other explorations and about merging. *)
From Coq Require Import List Bool Arith QArith Lia.
From Verif Require Import Py PyList PyMore AoProofs PevalSpec GexModel GexSpec GexProofs.
Import ListNotations.
Open Scope nat_scope.

(** *** FullSpaceExploration *)
Section Full.
Context {St A X : Type} {ES : PyEq St} {EA : PyEq A}.
Variable d : xdom St A.
Variable ext : St -> A -> St -> X.
Variable s0 : St.

Definition finv (l : list A) (z : xst (St := St) (A := A) (X := X)) : Prop :=
  xs_stack z = [] /\ dmem (xs_map z) s0 = true /\ dmem (xs_att z) s0 = true /\
  (forall s, dmem (xs_map z) s = true <-> s = s0 \/ exists a, In a l /\ s = x_next d s0 a) /\
  (forall s a t, look2 (xs_map z) s a = Some t <-> s = s0 /\ In a l /\ t = x_next d s0 a).

Lemma full_action_ok : forall l z a, finv l z -> exists z', full_action d ext s0 z a = Ok z' /\ finv (l ++ [a]) z'.
Proof.
  intros l z a (ST & M0 & T0 & KS & ED). unfold full_action. set (n := x_next d s0 a). set (fresh := negb (dmem (xs_map z) n)).
  set (m0 := if fresh then dset (xs_map z) n [] else xs_map z). set (t0 := if fresh then dset (xs_att z) n [] else xs_att z). cbn zeta.
  assert (M : forall s, dmem m0 s = pyeqb n s || dmem (xs_map z) s).
  { intros s. unfold m0, fresh. destruct (dmem (xs_map z) n) eqn:Z; cbn [negb]; [|now rewrite dmem_dset]. destruct (pyeqb_spec n s) as [EQ|NE]; [subst s; now rewrite Z|reflexivity]. }
  assert (L : forall s b, look2 m0 s b = look2 (xs_map z) s b).
  { intros s b. unfold m0, fresh. destruct (dmem (xs_map z) n) eqn:Z; cbn [negb]; [reflexivity|]. rewrite look2_dset. destruct (pyeqb_spec n s) as [EQ|NE]; [|reflexivity]. subst s. cbn. unfold look2. unfold dmem in Z. destruct (dget (xs_map z) n); [discriminate|reflexivity]. }
  assert (MT : dmem t0 s0 = true). { unfold t0. destruct fresh; [rewrite dmem_dset, T0; apply orb_true_r|exact T0]. }
  assert (MM : dmem m0 s0 = true) by (rewrite M, M0; apply orb_true_r).
  destruct (proj1 (dmem_get _ _ _ _) MM) as [inner GI]. destruct (proj1 (dmem_get _ _ _ _) MT) as [iatt GT]. unfold dgetE at 1. rewrite GI. cbn [bind]. unfold dgetE at 1. rewrite GT. cbn [bind].
  assert (M1 : forall s, dmem (dset m0 s0 (dset inner a n)) s = dmem m0 s). { intros s. rewrite dmem_dset. destruct (pyeqb_spec s0 s) as [EQ|NE]; [subst s; now rewrite MM|reflexivity]. }
  assert (MN : dmem (dset m0 s0 (dset inner a n)) n = true) by (rewrite M1, M, pyeqb_refl; reflexivity). rewrite MN.
  eexists. split; [reflexivity|]. unfold finv. cbn [xs_map xs_att xs_stack]. split; [destruct (x_goal d n); exact ST|]. split; [now rewrite M1|]. split; [rewrite dmem_dset, pyeqb_refl; reflexivity|]. split.
  - intros s. rewrite M1, M, orb_true_iff, KS. split.
    + intros [H|[H|(b & I & E)]]; [|auto|right; exists b; rewrite in_app_iff; auto]. destruct (pyeqb_spec n s) as [EQ|NE]; [|discriminate]. right. exists a. split; [apply in_app_iff; right; now left|now rewrite <- EQ].
    + intros [H|(b & I & E)]; [auto|]. apply in_app_iff in I. destruct I as [I|[<-|[]]]; [right; right; eauto|]. left. subst s. unfold n. apply pyeqb_refl.
  - intros s b t. rewrite look2_dset. destruct (pyeqb_spec s0 s) as [EQ|NE].
    + subst s. rewrite dget_dset. destruct (pyeqb_spec a b) as [EQ|NE].
      * subst b. split; [intros E; injection E as <-; split; [auto|split; [apply in_app_iff; right; now left|reflexivity]]|intros (_ & _ & ->); reflexivity].
      * assert (E : dget inner b = look2 (xs_map z) s0 b) by (rewrite <- L; unfold look2; now rewrite GI). rewrite E, ED. split; [intros (? & ? & ?); rewrite in_app_iff; auto|]. intros (? & I & ?). apply in_app_iff in I. destruct I as [I|[C|[]]]; [auto|congruence].
    + rewrite L, ED. split; [intros (C & _); congruence|intros (C & _); congruence].
Qed.
Lemma full_actions_ok : forall l l0 z, finv l0 z -> exists z', foldM (full_action d ext s0) z l = Ok z' /\ finv (l0 ++ l) z'.
Proof.
  induction l as [|a l IH]; intros l0 z F; [exists z; rewrite app_nil_r; auto|]. destruct (full_action_ok l0 z a F) as (z1 & R & F1). destruct (IH _ _ F1) as (z2 & R2 & F2). exists z2. rewrite <- app_assoc in F2. cbn [foldM]. rewrite R. auto.
Qed.
Lemma full_start : finv [] (XSt (X := X) [(s0, [])] [(s0, [])] 1 0 0 []).
Proof.
  split; [reflexivity|]. cbn [xs_map xs_att]. split; [unfold dmem; cbn; now rewrite pyeqb_refl|]. split; [unfold dmem; cbn; now rewrite pyeqb_refl|]. split.
  - intros s. unfold dmem. cbn. destruct (pyeqb_spec s s0); split; auto; [discriminate|]. intros [H|(a & [] & _)]. contradiction.
  - intros s a t. unfold look2. cbn. destruct (pyeqb s s0); split; try discriminate; intros (_ & [] & _).
Qed.
Lemma full_loop_ok : forall fuel l z', full_loop (S fuel) d ext l (XSt [(s0, [])] [(s0, [])] 1 0 0 [s0]) = Ok z' -> finv (x_apps d s0) z'.
Proof.
  intros fuel l z' E. cbn [full_loop xs_stack xs_map xs_att xs_nodes xs_edges xs_paths] in E. destruct (full_actions_ok (x_apps d s0) [] _ full_start) as (z1 & R & F). rewrite R in E. cbn [bind] in E.
  destruct (past l (xs_nodes z1) (xs_edges z1) (xs_paths z1)) as [[|]|er]; [injection E as <-; exact F| |discriminate]. cbn [bind] in E. destruct fuel as [|fuel]; cbn [full_loop] in E; rewrite (proj1 F) in E; injection E as <-; exact F.
Qed.
End Full.

(** *** reachable_states *)
Section Reachable.
Context {St A : Type} {ES : PyEq St} {EA : PyEq A}.
Variable d : udom St A.
Variable s0 : St.
Notation ureach := (ureach d s0 (u_term d)).
Definition uedge (s t : St) : Prop := exists a pr, In a (u_apps d s) /\ In (t, pr) (u_dist d s a) /\ ~ (pr == 0)%Q.
Definition remaining (U result : list St) : nat := length (filter (fun x => negb (pymem x result)) U).

Lemma pymem_pyadd : forall (l : list St) t x, pymem x (pyadd l t) = pyeqb x t || pymem x l.
Proof.
  intros l t x. apply eq_true_iff_eq. rewrite orb_true_iff, !pymem_true, pyadd_In. destruct (pyeqb_spec x t); intuition congruence.
Qed.

Lemma add_news : forall os result stack, let r := fold_left add_new os (result, stack) in
  (forall x, In x (fst r) <-> In x result \/ exists pr, In (x, pr) os /\ ~ (pr == 0)%Q) /\
  (forall x, In x (fst r) -> In x result \/ In x (snd r)) /\
  (forall x, In x stack -> In x (snd r)) /\
  (forall x, In x (snd r) -> In x stack \/ In x (fst r)) /\
  (NoDup result -> NoDup (fst r)) /\
  (forall U, (forall x, In x (fst r) -> In x U) -> length (snd r) + remaining U (fst r) <= length stack + remaining U result).
Proof.
  induction os as [|[t pr] os IH]; intros result stack.
  - cbn. split; [intros x; split; [auto|intros [H|(pr & [] & _)]; auto]|]. auto 10.
  - cbn [fold_left]. change (add_new (result, stack) (t, pr)) with (if negb (Qeq_bool pr 0) && negb (pymem t result) then (pyadd result t, t :: stack) else (result, stack)).
    destruct (negb (Qeq_bool pr 0) && negb (pymem t result)) eqn:C.
    + apply andb_true_iff in C. destruct C as [C1 C2]. apply negb_true_iff in C1, C2. assert (NZ : ~ (pr == 0)%Q) by (intros Z; apply Qeq_bool_iff in Z; congruence).
      destruct (IH (pyadd result t) (t :: stack)) as (H1 & H2 & H3 & H4 & H5 & H6). cbn zeta in *. split; [|split; [|split; [|split; [|split]]]].
      * intros x. rewrite H1, pyadd_In. split.
        -- intros [[->|H]|(q & I & N)]; auto; right; [exists pr; split; [now left|auto]|exists q; split; [now right|auto]].
        -- intros [H|(q & [I|I] & N)]; auto; [injection I as -> ->; auto|]. right. eauto.
      * intros x H. apply H2 in H. rewrite pyadd_In in H. destruct H as [[->|H]|H]; auto. right. apply H3. now left.
      * intros x H. apply H3. now right.
      * intros x H. apply H4 in H. destruct H as [[<-|H]|H]; auto. right. apply H1. left. apply pyadd_In. auto.
      * intros N. apply H5. now apply pyadd_NoDup.
      * intros U HU. specialize (H6 U HU). cbn [length] in H6. assert (remaining U (pyadd result t) < remaining U result); [|lia]. unfold remaining. apply filter_length_strict with t.
        -- intros x _ H. rewrite pymem_pyadd in H. destruct (pymem x result); [now rewrite orb_true_r in H|auto].
        -- apply HU, H1. left. apply pyadd_In. auto.
        -- now rewrite C2.
        -- now rewrite pymem_pyadd, pyeqb_refl.
    + destruct (IH result stack) as (H1 & H2 & H3 & H4 & H5 & H6). cbn zeta in *. split; [|auto 10].
      intros x. rewrite H1. split; intros [H|(q & I & N)]; auto.
      * right. exists q. split; [now right|auto].
      * destruct I as [I|I]; [|right; eauto]. injection I as -> ->. apply andb_false_iff in C. destruct C as [C|C]; apply negb_false_iff in C; [apply Qeq_bool_iff in C; contradiction|]. left. apply pymem_true in C. exact C.
Qed.
Lemma add_all : forall s l result stack, let r := fold_left (fun rs a => fold_left add_new (u_dist d s a) rs) l (result, stack) in
  (forall x, In x (fst r) <-> In x result \/ exists a pr, In a l /\ In (x, pr) (u_dist d s a) /\ ~ (pr == 0)%Q) /\
  (forall x, In x (fst r) -> In x result \/ In x (snd r)) /\
  (forall x, In x stack -> In x (snd r)) /\
  (forall x, In x (snd r) -> In x stack \/ In x (fst r)) /\
  (NoDup result -> NoDup (fst r)) /\
  (forall U, (forall x, In x (fst r) -> In x U) -> length (snd r) + remaining U (fst r) <= length stack + remaining U result).
Proof.
  intros s. induction l as [|a l IH]; intros result stack.
  - cbn. split; [intros x; split; [auto|intros [H|(a & pr & [] & _)]; auto]|]. auto 10.
  - cbn [fold_left]. destruct (add_news (u_dist d s a) result stack) as (P1 & P2 & P3 & P4 & P5 & P6). destruct (fold_left add_new (u_dist d s a) (result, stack)) as [r1 k1]. cbn [fst snd] in *.
    destruct (IH r1 k1) as (H1 & H2 & H3 & H4 & H5 & H6). cbn zeta in *. split; [|split; [|split; [|split; [|split]]]].
    + intros x. rewrite H1, P1. split.
      * intros [[H|(pr & I & N)]|(b & pr & J & I & N)]; auto; right; [exists a, pr; split; [now left|auto]|exists b, pr; split; [now right|auto]].
      * intros [H|(b & pr & [<-|J] & I & N)]; auto; [left; right; eauto|right; eauto].
    + intros x H. apply H2 in H. destruct H as [H|H]; auto. apply P2 in H. destruct H as [H|H]; auto.
    + auto.
    + intros x H. apply H4 in H. destruct H as [H|H]; auto. apply P4 in H. destruct H as [H|H]; auto. right. apply H1. auto.
    + auto.
    + intros U HU. specialize (H6 U HU). specialize (P6 U). assert (forall x, In x r1 -> In x U) by (intros x H; apply HU, H1; auto). specialize (P6 H). lia.
Qed.

Definition rinv (result stack : list St) : Prop :=
  (forall s, In s result -> ureach s) /\ (forall s, In s stack -> In s result) /\ NoDup result /\ In s0 result /\
  (forall s, In s result -> In s stack \/ u_term d s = true \/ forall t, uedge s t -> In t result).

Lemma reachable_turn : forall s stack result, rinv result (s :: stack) -> u_term d s = false ->
  let r := fold_left (fun rs a => fold_left add_new (u_dist d s a) rs) (u_apps d s) (result, stack) in rinv (fst r) (snd r).
Proof.
  intros s stack result (R1 & R2 & R3 & R4 & R5) T. destruct (add_all s (u_apps d s) result stack) as (H1 & H2 & H3 & H4 & H5 & _). cbn zeta in *. split; [|split; [|split; [auto|split; [apply H1; auto|]]]].
  - intros x H. apply H1 in H. destruct H as [H|(a & pr & J & I & N)]; [auto|]. apply (ureach_step d s0 (u_term d) s a x pr); auto. apply R1, R2. now left.
  - intros x H. apply H4 in H. destruct H as [H|H]; [apply H1; left; apply R2; now right|auto].
  - intros x H. apply H2 in H. destruct H as [H|H]; [|auto]. destruct (R5 x H) as [[<-|H']|[H'|H']]; auto.
    + right; right. intros t (a & pr & E). apply H1. right. eauto.
    + right; right. intros t E. apply H1. left. auto.
Qed.
Lemma reachable_skip : forall s stack result, rinv result (s :: stack) -> u_term d s = true -> rinv result stack.
Proof.
  intros s stack result (R1 & R2 & R3 & R4 & R5) T. split; [auto|]. split; [intros; apply R2; now right|]. split; [auto|]. split; [auto|]. intros x H. destruct (R5 x H) as [[<-|H']|[H'|H']]; auto.
Qed.
Lemma reachable_S : forall fuel s result stack, reachable_loop (S fuel) d result (s :: stack) = if u_term d s then reachable_loop fuel d result stack
  else let r := fold_left (fun rs a => fold_left add_new (u_dist d s a) rs) (u_apps d s) (result, stack) in reachable_loop fuel d (fst r) (snd r).
Proof. intros. cbn [reachable_loop]. destruct (u_term d s); [reflexivity|]. cbn zeta. destruct (fold_left _ (u_apps d s) (result, stack)); reflexivity. Qed.
Lemma reachable_inv : forall fuel result stack r, rinv result stack -> reachable_loop fuel d result stack = Ok r -> rinv r [].
Proof.
  induction fuel as [|fuel IH]; intros result stack r I E; (destruct stack as [|s stack]; [cbn in E; injection E as <-; exact I|]); [discriminate|].
  rewrite reachable_S in E. destruct (u_term d s) eqn:T; (eapply IH; [|exact E]); [eapply reachable_skip; eauto|now apply reachable_turn].
Qed.
Lemma reachable_total : forall U, (forall s, ureach s -> In s U) -> forall fuel result stack, rinv result stack -> length stack + remaining U result <= fuel ->
  exists r, reachable_loop fuel d result stack = Ok r.
Proof.
  intros U HU. induction fuel as [|fuel IH]; intros result stack I L; (destruct stack as [|s stack]; [cbn; eauto|]); [cbn in L; lia|].
  rewrite reachable_S. cbn [length] in L. destruct (u_term d s) eqn:T; apply IH; [eapply reachable_skip; eauto|lia|now apply reachable_turn|].
  pose proof (reachable_turn s stack result I T) as (R1 & _). cbn zeta in R1. destruct (add_all s (u_apps d s) result stack) as (_ & _ & _ & _ & _ & H6). cbn zeta in H6. specialize (H6 U). cbn zeta. assert (forall x, In x (fst (fold_left (fun rs a => fold_left add_new (u_dist d s a) rs) (u_apps d s) (result, stack))) -> In x U) by (intros x H; apply HU, R1, H). specialize (H6 H). lia.
Qed.
Lemma rinv_start : rinv [s0] [s0].
Proof. split; [intros s [<-|[]]; constructor|]. split; [auto|]. split; [constructor; [intros []|constructor]|]. split; [now left|]. intros s H. auto. Qed.
Lemma rinv_done : forall r, rinv r [] -> forall s, In s r <-> ureach s.
Proof.
  intros r (R1 & _ & _ & R4 & R5) s. split; [apply R1|]. intros H. induction H as [|s a t pr H IH T I J N]; [exact R4|]. destruct (R5 s IH) as [[]|[H'|H']]; [congruence|]. apply H'. exists a, pr. auto.
Qed.
End Reachable.
