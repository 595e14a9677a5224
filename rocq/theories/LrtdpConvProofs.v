(** Proofs about the LRTDP solver: on acyclic domains the trials end. *)
From Coq Require Import List Bool Arith QArith Qabs Lia Lqa.
From Verif Require Import Py PyList PyMore AoModel AoSpec AoProofs AoSolveProofs LrtdpModel LrtdpSpec LrtdpProofs LrtdpLabelProofs LrtdpSolveProofs.
Import ListNotations.
Open Scope nat_scope.

Section Conv.
Context {St A : Type} {ES : PyEq St}.
Variable p : mdp St A.
Variable cf : lconfig.
Notation gamma := (lc_discount cf).
Notation eps := (lc_epsilon cf).
Notation lgraph := (lgraph St A).
Notation lv := (lv p).
Notation lsol := (lsol p).
Notation bell := (bell p cf).
Notation qv := (@qv St A cf).
Notation acts := (acts p).
Notation good := (good p cf).
Variable rk : St -> nat.
Hypothesis rank_down : forall s a y pr, m_goal p s = false -> In a (m_apps p s) -> In (y, pr) (m_dist p s a) -> rk y < rk s.
Hypothesis eps_pos : (0 <= eps)%Q.
Variable R : nat.
Variable U : list St.
Hypothesis UR : forall u, In u U -> rk u <= R.
Variable P : St -> Prop.
Hypothesis PU : forall x, P x -> In x U.

Lemma qv_qeq : forall V V' an, (forall y, V y == V' y)%Q -> (qv V an == qv V' an)%Q.
Proof.
  intros V V' an H. unfold LrtdpProofs.qv. assert (K : forall os u u', (u == u')%Q ->
    (fold_left (fun u (o : Q * Q * St) => u + fst (fst o) * (snd (fst o) + gamma * V (snd o))) os u == fold_left (fun u o => u + fst (fst o) * (snd (fst o) + gamma * V' (snd o))) os u')%Q).
  { induction os as [|o os IH]; intros u u' E; cbn [fold_left]; auto. apply IH. now rewrite E, H. }
  apply K. reflexivity.
Qed.
Lemma bell_qeq : forall V V' x an v, (forall y, V y == V' y)%Q -> bell V x = Some (an, v) -> exists an' v', bell V' x = Some (an', v') /\ (v == v')%Q.
Proof.
  intros V V' x an v H E. unfold LrtdpProofs.bell in *. pose proof (best_spec (qv V) (acts x)) as B1. rewrite E in B1. destruct B1 as (I1 & E1 & L1).
  pose proof (best_spec (qv V') (acts x)) as B2. destruct (best (qv V') (acts x)) as [[an' v']|].
  - destruct B2 as (I2 & E2 & L2). exists an', v'. split; auto. apply Qle_antisym.
    + rewrite E2, <- (qv_qeq V V' an' H). now apply L1.
    + rewrite E1, (qv_qeq V V' an H). now apply L2.
  - rewrite B2 in I1. destruct I1.
Qed.

Definition stale (V : St -> Q) (u : St) : bool :=
  negb (m_goal p u) && match bell V u with None => false | Some (_, v) => negb (Qeq_bool (V u) v) end.
Lemma stale_qeq : forall V V' u, (forall y, V y == V' y)%Q -> stale V u = stale V' u.
Proof.
  intros V V' u H. unfold stale. f_equal. destruct (bell V u) as [[an v]|] eqn:E.
  - destruct (bell_qeq V V' u an v H E) as (an' & v' & -> & EQ). f_equal. apply eq_true_iff_eq. rewrite !Qeq_bool_iff, H, EQ. tauto.
  - destruct (bell V' u) as [[an' v']|] eqn:E'; auto.
    destruct (bell_qeq V' V u an' v') as (an & v & E2 & _); auto; [intros; symmetry; auto|congruence].
Qed.
Lemma bell_local : forall V V' x, m_goal p x = false -> (forall y, rk y < rk x -> V y = V' y) -> bell V x = bell V' x.
Proof.
  intros V V' x G H. apply best_ext. intros an I. apply qv_ext. intros o J. apply H.
  destruct (acts_in p x an I) as [IA OE]. rewrite OE in J. apply in_outcomes in J. destruct J as (y & pr & J & ->). cbn. eauto.
Qed.

Definition K := S (length U).
Definition charge (V : St -> Q) (u : St) : nat := if stale V u then K ^ (R - rk u) else 0.
Definition phi (V : St -> Q) : nat := list_sum (map (charge V) U).

Lemma K_pos : forall n, 1 <= K ^ n.
Proof. intros n. pose proof (Nat.pow_nonzero K n). unfold K in *. lia. Qed.

Lemma phi_qeq : forall V V', (forall y, V y == V' y)%Q -> phi V = phi V'.
Proof. intros V V' H. unfold phi. f_equal. apply map_ext. intros u. unfold charge. now rewrite (stale_qeq V V' u H). Qed.

Lemma phi_step : forall V V2 x an v, P x -> m_goal p x = false -> bell V x = Some (an, v) -> (forall y, V2 y = if pyeqb x y then v else V y) ->
  ~ (V x == v)%Q -> phi V2 < phi V.
Proof.
  intros V V2 x an v PX G B E NQ. set (e := R - rk x). set (b := match e with 0 => 0 | S e => K ^ e end).
  assert (SX : stale V x = true).
  { unfold stale. rewrite G, B. cbn. destruct (Qeq_bool (V x) v) eqn:Q; auto. apply Qeq_bool_iff in Q. contradiction. }
  assert (SX2 : stale V2 x = false).
  { unfold stale. rewrite G, (bell_local V2 V x G), B.
    - rewrite E, pyeqb_refl. cbn. destruct (Qeq_bool v v) eqn:Q; auto. assert (Z : Qeq_bool v v = true) by (apply Qeq_bool_iff; reflexivity). congruence.
    - intros y L. rewrite E. destruct (pyeqb_spec x y) as [EQ|]; auto. subst y. lia. }
  assert (CH : forall u, In u U -> u <> x -> charge V2 u <= charge V u + b).
  { intros u I N. destruct (le_lt_dec (rk u) (rk x)) as [L|L].
    - assert (SU : stale V2 u = stale V u).
      { unfold stale. destruct (m_goal p u) eqn:GU; auto. cbn [negb andb]. rewrite (bell_local V2 V u GU).
        - rewrite E. destruct (pyeqb_spec x u) as [EQ|]; [congruence|auto].
        - intros y LY. rewrite E. destruct (pyeqb_spec x y) as [EQ|]; auto. subst y. lia. }
      unfold charge. rewrite SU. lia.
    - unfold charge. destruct (stale V2 u); [|lia]. pose proof (UR u I). subst b. destruct e as [|e'] eqn:EE; [lia|].
      assert (K ^ (R - rk u) <= K ^ e') by (apply Nat.pow_le_mono_r; [unfold K; lia|lia]). lia. }
  assert (SUM : forall l, incl l U -> list_sum (map (charge V2) l) <= list_sum (map (charge V) l) + length l * b /\
                          (In x l -> list_sum (map (charge V2) l) + K ^ e <= list_sum (map (charge V) l) + length l * b)).
  { induction l as [|u l IH]; intros IN; [cbn; lia|]. destruct IH as [I1 I2]; [intros y J; apply IN; now right|].
    assert (IU : In u U) by (apply IN; now left). unfold list_sum in *. cbn [map fold_right length].
    assert (CX : charge V2 x = 0 /\ charge V x = K ^ e) by (unfold charge; rewrite SX, SX2; auto). destruct CX as [C1 C2].
    destruct (pyeqb_spec u x) as [EQ|N].
    - subst u. rewrite C1, C2. split; [lia|]. intros _. lia.
    - specialize (CH u IU N). split; [lia|]. intros [|J]; [congruence|]. specialize (I2 J). lia. }
  destruct (SUM U (incl_refl U)) as [_ S2]. specialize (S2 (PU x PX)). unfold phi.
  assert (BB : length U * b < K ^ e).
  { subst b. destruct e as [|e']; [pose proof (K_pos 0); lia|]. cbn [Nat.pow]. pose proof (K_pos e'). change (length U * K ^ e' < S (length U) * K ^ e'). lia. }
  lia.
Qed.

Lemma step_split : forall V V2 x v, (forall y, V2 y = if pyeqb x y then v else V y) -> (V x == v)%Q -> forall y, (V2 y == V y)%Q.
Proof. intros V V2 x v E Q y. rewrite E. destruct (pyeqb_spec x y) as [EQ|]; [subst y; now symmetry|reflexivity]. Qed.

Lemma ups_phi : forall V V', ups p cf P V V' -> phi V' <= phi V.
Proof.
  intros V V' H. induction H as [V' E|V1 V2 x an v H IH PX G B E].
  - rewrite (phi_qeq V' V); auto. intros y. rewrite E. reflexivity.
  - destruct (Qeq_dec (V1 x) v) as [Q|Q].
    + rewrite (phi_qeq V2 V1); auto. eapply step_split; eauto.
    + pose proof (phi_step V1 V2 x an v PX G B E Q). lia.
Qed.
Lemma upl_phi : forall l V V', upl p cf P l V V' -> phi V' <= phi V /\ (forall x, In x l -> stale V x = true -> phi V' < phi V).
Proof.
  intros l V V' H. induction H as [V V' E|y l V V' an v PX G B H [IH1 IH2]].
  - split; [|intros x []]. rewrite (phi_qeq V' V); auto. intros y. rewrite E. reflexivity.
  - set (V1 := fun z => if pyeqb y z then v else V z) in *. destruct (Qeq_dec (V y) v) as [Q|Q].
    + assert (QE : forall z, (V1 z == V z)%Q) by (apply (step_split V V1 y v); auto). rewrite (phi_qeq V1 V QE) in *. split; auto.
      intros x [<-|I] S.
      * unfold stale in S. rewrite G, B in S. cbn in S. apply Qeq_bool_iff in Q. rewrite Q in S. discriminate.
      * apply (IH2 x I). now rewrite (stale_qeq V1 V x QE).
    + pose proof (phi_step V V1 y an v PX G B (fun z => eq_refl) Q). split; [lia|]. intros; lia.
Qed.
Lemma upl_members : forall l V V' x, upl p cf P l V V' -> In x l -> m_goal p x = false.
Proof. intros l V V' x H. induction H as [V V' E|y l V V' an v PX G B H IH]; intros I; [destruct I|]. destruct I as [<-|I]; auto. Qed.
Lemma improves_phi : forall V V', improves p cf P V V' -> phi V' < phi V.
Proof.
  intros V V' (l & x & H & I & an & v & B & L). apply (proj2 (upl_phi l V V' H) x I). unfold stale. rewrite (upl_members l V V' x H I), B. cbn.
  destruct (Qeq_bool (V x) v) eqn:Q; auto. apply Qeq_bool_iff in Q. exfalso.
  assert (Z : (V x - v == 0)%Q) by (rewrite Q; ring). rewrite Z in L. change (Qabs 0) with 0%Q in L. lra.
Qed.

Definition size (g : lgraph) : nat := phi (lv g) + length (filter (fun u => negb (lsol g u)) U).
Lemma size_evolves : forall g g', good g -> evolves p cf P g g' -> size g' <= size g.
Proof.
  intros g g' _ (_ & _ & UP & SO). unfold size. apply ups_phi in UP.
  assert (length (filter (fun u => negb (lsol g' u)) U) <= length (filter (fun u => negb (lsol g u)) U)); [|lia].
  apply filter_length_mono. intros x _ N. apply negb_true_iff in N. apply negb_true_iff. destruct (lsol g x) eqn:S; auto. rewrite (SO x S) in N. discriminate.
Qed.
Lemma size_progress : forall g g', good g -> evolves p cf P g g' -> progress p cf P g g' -> size g' < size g.
Proof.
  intros g g' GD (_ & _ & UP & SO) (g1 & (_ & _ & UP1 & SO1) & PR). unfold size.
  assert (MO : length (filter (fun u => negb (lsol g' u)) U) <= length (filter (fun u => negb (lsol g u)) U)).
  { apply filter_length_mono. intros x _ N. apply negb_true_iff in N. apply negb_true_iff. destruct (lsol g x) eqn:S; auto. rewrite (SO x S) in N. discriminate. }
  destruct PR as [(x & PX & S1 & S2 & _)|IM].
  - apply ups_phi in UP. assert (length (filter (fun u => negb (lsol g' u)) U) < length (filter (fun u => negb (lsol g u)) U)); [|lia].
    apply (filter_length_strict _ _ _ U x).
    + intros y _ N. apply negb_true_iff in N. apply negb_true_iff. destruct (lsol g y) eqn:S; auto. rewrite (SO y S) in N. discriminate.
    + now apply PU.
    + destruct (lsol g x) eqn:S; auto. rewrite (SO1 x S) in S1. discriminate.
    + now rewrite S2.
  - apply ups_phi in UP1. apply improves_phi in IM. lia.
Qed.
Lemma size_max : forall g, size g <= length U * K ^ R + length U.
Proof.
  clear rank_down eps_pos UR PU P. intros g. unfold size.
  assert (LF : forall f (l : list St), length (filter f l) <= length l) by (intros f; induction l as [|y l IH]; cbn; auto; destruct (f y); cbn; lia).
  assert (phi (lv g) <= length U * K ^ R); [|specialize (LF (fun u => negb (lsol g u)) U); lia].
  unfold phi. generalize U at 1 2 as l. induction l as [|u l IH]; [cbn; lia|]. unfold list_sum in *. cbn [map fold_right length].
  assert (charge (lv g) u <= K ^ R); [|lia]. unfold charge. destruct (stale (lv g) u); [|lia]. apply Nat.pow_le_mono_r; [unfold K; lia|lia].
Qed.
End Conv.

Section Stop.
Context {St A : Type} {ES : PyEq St}.
Variable p : mdp St A.

Lemma reach_rank : forall (rk : St -> nat), (forall s a y pr, m_goal p s = false -> In a (m_apps p s) -> In (y, pr) (m_dist p s a) -> rk y < rk s) ->
  forall s x, reach p s x -> rk x <= rk s.
Proof. intros rk RD s x H. induction H as [|x a y pr H IH G I J]; auto. pose proof (RD x a y pr G I J). lia. Qed.

(** The number of trials needed depends on the domain and the start only. *)
Lemma stops : forall s, acyclic p -> exists N, forall cf w g g' r, lc_labels cf = true -> (0 <= lc_epsilon cf)%Q -> N < lc_rollouts cf ->
  good p cf g -> m_goal p s = false -> room p s (lc_depth cf) -> onward w -> timely w -> lrtdp_solve p cf w g s = Ok (g', r) ->
  match r with None => True | Some n => n <= N end.
Proof.
  intros s (rk & RD). set (U := filter (fun u => rk u <=? rk s) (tree p (rk s) s)). exists (length U * S (length U) ^ rk s + length U).
  intros cf w g g' r LB EP RB GD G (U0 & PU0 & RM) OW T E. destruct (rooted_good p cf g s GD G) as (GD1 & M1 & _). unfold lrtdp_solve in E. fold (rooted p g s) in E.
  destruct (_ || _); [injection E as <- <-; auto|].
  destruct (ltrials (lc_rollouts cf) p cf w s (LState (rooted p g s) 0 0)) as [q|] eqn:TR; [|discriminate]. cbn [bind] in E. injection E as <- <-.
  assert (UR : forall u, In u U -> rk u <= rk s) by (intros u I; apply filter_In in I; destruct I as [_ I]; now apply Nat.leb_le).
  assert (PU : forall x, reach p s x -> In x U).
  { intros x RX. apply filter_In. split; [now apply (tree_reach p rk RD)|]. apply Nat.leb_le. now apply reach_rank. }
  pose proof (size_max p cf rk (rk s) U (rooted p g s)) as SM. unfold K in SM.
  pose proof (trials_bound p cf (reach p s) (reach_closed p s) U0 PU0 RM LB (size p cf rk (rk s) U)) as TB.
  specialize (TB (size_progress p cf rk RD EP (rk s) U UR (reach p s) PU)).
  specialize (TB w s OW T (lc_rollouts cf) (LState (rooted p g s) 0 0) q GD1 M1 (reach_refl p s)). cbn [ls_graph] in TB.
  destruct TB as [TB _]; auto; lia.
Qed.
End Stop.
