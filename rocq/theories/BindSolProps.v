(** Property C120: the solution built from the last state of a simulation
    (skdecide/hub/solver/do_solver/sk_to_do_binding.py:14-23). *)
From Coq Require Import String List Bool Arith ZArith Lia Permutation Sorted.
From Verif Require Import Py PyList PyMore SgsModel SgsProofs SgsTotalProofs SgsProps SatProps BindModel BindProps.
Import ListNotations.
Open Scope string_scope.
Open Scope list_scope.
Open Scope nat_scope.

(** ** Vocabulary *)

(** The mode of a task in the state; 1 when none is recorded. *)
Definition mode_in (s : last_state) (a : nat) : nat := match dget (s_mode s) a with Some q => q | None => 1 end.

(** Task [a] starts no later than task [b]. *)
Definition not_after (sch : schedule) (a b : nat) : Prop :=
  forall sa ea sb eb, In (a, (sa, ea)) sch -> In (b, (sb, eb)) sch -> (sa <= sb)%Z.

(** The permutation lists the tasks [0 .. n-1] of the optimisation problem, task [a] of the domain being
    [a - 2], by start. *)
Record by_start (sch : schedule) (n : nat) (p : list Z) : Prop := {
  y_perm : Permutation p (map Z.of_nat (seq 0 n));
  y_order : forall i j x y, i < j -> nth_error p i = Some (Z.of_nat x) -> nth_error p j = Some (Z.of_nat y) ->
    not_after sch (x + 2) (y + 2)
}.

(** ** Proofs *)

Lemma sort_seq l n : Permutation l (seq 1 n) -> ssort Nat.leb l = seq 1 n.
Proof.
  intros P. assert (Sorted (fun a b => Nat.leb a b = true) (ssort Nat.leb l)) as So.
  { apply ssort_sorted. intros a b H. apply Nat.leb_gt in H. apply Nat.leb_le. lia. }
  assert (Permutation (ssort Nat.leb l) (seq 1 n)) as P' by (eapply Permutation_trans; [apply Permutation_sym, ssort_perm|exact P]).
  assert (StronglySorted le (ssort Nat.leb l)) as St.
  { apply Sorted_StronglySorted; [intros a b c; lia|]. eapply Sorted_ind with (P := fun l => Sorted le l); [constructor| |exact So].
    intros a l0 S0 IH H. constructor; [exact IH|]. destruct H; constructor. apply Nat.leb_le. assumption. }
  clear So. revert St P'. generalize (ssort Nat.leb l) as m. generalize 1. clear. 
  induction n as [|n IH]; intros k m St P; cbn in P.
  - apply Permutation_sym, Permutation_nil in P. exact P.
  - destruct m as [|x m]; [apply Permutation_nil in P; discriminate|].
    inversion St as [|? ? St' Fa]; subst.
    assert (x = k) as ->.
    { assert (In x (k :: seq (S k) n)) as Ix by (apply (Permutation_in _ P); left; reflexivity).
      assert (In k (x :: m)) as Ik by (apply (Permutation_in _ (Permutation_sym P)); left; reflexivity).
      destruct Ix as [E|Ix]; [auto|]. destruct Ik as [E|Ik]; [auto|]. apply in_seq in Ix.
      rewrite Forall_forall in Fa. specialize (Fa k Ik). lia. }
    cbn. f_equal. apply IH; [exact St'|]. apply Permutation_cons_inv in P. exact P.
Qed.

Lemma pyremove_perm (x : Z) l : In x l -> Permutation l (x :: pyremove x l).
Proof.
  induction l as [|y l IH]; intros I; [destruct I|]. cbn [pyremove]. destruct (pyeqb_spec x y) as [->|N]; [reflexivity|].
  destruct I as [->|I]; [congruence|]. rewrite (IH I) at 1. apply perm_swap.
Qed.

Definition sorted_z (R : Z -> Z -> Prop) := StronglySorted R.

Lemma pyremove_sorted R (x : Z) l : StronglySorted R l -> StronglySorted R (pyremove x l).
Proof.
  induction 1 as [|y l S IH F]; cbn [pyremove]; [constructor|]. destruct (pyeqb_spec x y); [exact S|].
  constructor; [exact IH|]. rewrite Forall_forall in *. intros z I. apply F.
  clear -I. induction l as [|w l IH]; cbn [pyremove] in I; [destruct I|]. destruct (pyeqb_spec x w); [right; exact I|].
  destruct I as [->|I]; [left; reflexivity|right; auto].
Qed.

Lemma sorted_nth A (R : A -> A -> Prop) l : StronglySorted R l -> forall i j x y, i < j -> nth_error l i = Some x -> nth_error l j = Some y -> R x y.
Proof.
  induction 1 as [|z l S IH F]; intros i j x y L E1 E2; [destruct i; discriminate|].
  destruct j as [|j]; [lia|]. cbn in E2. destruct i as [|i]; cbn in E1.
  - injection E1 as ->. rewrite Forall_forall in F. apply F. apply (nth_error_In _ _ E2).
  - apply (IH i j); auto. lia.
Qed.

Lemma ssort_strong A (f : A -> Z) (l : list A) : StronglySorted (fun x y => (f x <= f y)%Z) (ssort (fun x y => (f x <=? f y)%Z) l).
Proof.
  apply Sorted_StronglySorted; [intros x y z; lia|].
  assert (Sorted (fun x y => (f x <=? f y)%Z = true) (ssort (fun x y => (f x <=? f y)%Z) l)) as S.
  { apply ssort_sorted. intros x y H. apply Z.leb_gt in H. apply Z.leb_le. lia. }
  induction S as [|x m S IH H]; [constructor|]. constructor; [exact IH|]. destruct H; constructor. apply Z.leb_le. assumption.
Qed.

Lemma sorted_map A B (R : A -> A -> Prop) (R' : B -> B -> Prop) (f : A -> B) l :
  (forall x y, In x l -> In y l -> R x y -> R' (f x) (f y)) -> StronglySorted R l -> StronglySorted R' (map f l).
Proof.
  intros H S. induction S as [|x l S IH F]; cbn; [constructor|]. constructor.
  - apply IH. intros; apply H; cbn; auto.
  - rewrite Forall_forall in *. intros y I. apply in_map_iff in I as (z & <- & I). apply H; cbn; auto.
Qed.

Lemma maxz_perm l n : Permutation l (map Z.of_nat (seq 0 (S n))) -> maxz l = Ok (Z.of_nat n).
Proof.
  intros P. destruct (maxz l) as [x|e] eqn:E.
  - destruct (maxz_spec l x E) as [I M]. f_equal.
    apply (Permutation_in _ P) in I. apply in_map_iff in I as (y & <- & I). apply in_seq in I.
    assert (In (Z.of_nat n) l) as J.
    { apply (Permutation_in _ (Permutation_sym P)). apply in_map. apply in_seq. lia. }
    specialize (M _ J). lia.
  - destruct l; [apply Permutation_nil in P; discriminate|discriminate].
Qed.

Lemma permutation_ok sch n : Permutation (map fst sch) (seq 1 (n + 2)) -> exists p, permutation_of sch = Ok p /\ by_start sch n p.
Proof.
  intros P. unfold permutation_of.
  set (so := ssort (fun x y : nat * (Z * Z) => (fst (snd x) <=? fst (snd y))%Z) sch).
  set (l := map (fun x : nat * (Z * Z) => (Z.of_nat (fst x) - 2)%Z) so).
  assert (NoDup (map fst sch)) as Nd by (eapply Permutation_NoDup; [apply Permutation_sym, P|apply seq_NoDup]).
  assert (Permutation so sch) as Ps by (apply Permutation_sym, ssort_perm).
  assert (Permutation l ((-1)%Z :: map Z.of_nat (seq 0 (n + 1)))) as Pl.
  { unfold l. rewrite <- (map_map fst (fun a => (Z.of_nat a - 2)%Z)). rewrite (Permutation_map fst Ps), P.
    replace (n + 2) with (S (n + 1)) by lia. cbn [seq map]. apply perm_skip.
    assert (map (fun a => (Z.of_nat a - 2)%Z) (seq 2 (n + 1)) = map Z.of_nat (seq 0 (n + 1))) as ->; [|reflexivity].
    rewrite <- (seq_shift _ 1), map_map, <- (seq_shift _ 0), map_map. apply map_ext. intros a. lia. }
  set (Rz := fun x y : Z => forall sx ex sy ey, In (Z.to_nat (x + 2), (sx, ex)) sch -> In (Z.to_nat (y + 2), (sy, ey)) sch -> (sx <= sy)%Z).
  assert (StronglySorted Rz l) as Sl.
  { unfold l. apply (sorted_map _ _ (fun x y : nat * (Z * Z) => (fst (snd x) <= fst (snd y))%Z)).
    - intros [a [sa ea]] [b [sb eb]] Ia Ib Le. cbn in Le. unfold Rz. cbn [fst]. intros sx ex sy ey Ix Iy.
      replace (Z.to_nat (Z.of_nat a - 2 + 2)) with a in Ix by lia. replace (Z.to_nat (Z.of_nat b - 2 + 2)) with b in Iy by lia.
      apply (Permutation_in _ Ps) in Ia, Ib.
      pose proof (In_dget sch _ _ Nd Ia) as Ea. rewrite (In_dget sch _ _ Nd Ix) in Ea. injection Ea as -> ->.
      pose proof (In_dget sch _ _ Nd Ib) as Eb. rewrite (In_dget sch _ _ Nd Iy) in Eb. injection Eb as -> ->. exact Le.
    - apply (ssort_strong _ (fun x : nat * (Z * Z) => fst (snd x))). }
  assert (In (-1)%Z l) as I1 by (apply (Permutation_in _ (Permutation_sym Pl)); left; reflexivity).
  rewrite (proj2 (pymem_true (-1)%Z l) I1).
  pose proof (Permutation_trans (Permutation_sym Pl) (pyremove_perm _ _ I1)) as P1. apply Permutation_cons_inv, Permutation_sym in P1.
  replace (n + 1) with (S n) in P1 by lia. rewrite (maxz_perm _ _ P1). cbn [bind].
  assert (In (Z.of_nat n) (pyremove (-1)%Z l)) as I2.
  { apply (Permutation_in _ (Permutation_sym P1)). apply in_map, in_seq. lia. }
  eexists. split; [reflexivity|]. constructor.
  - pose proof (Permutation_trans (Permutation_sym P1) (pyremove_perm _ _ I2)) as P2. rewrite seq_S, map_app in P2. cbn in P2.
    rewrite <- Permutation_cons_append in P2. apply Permutation_cons_inv, Permutation_sym in P2. exact P2.
  - intros i j x y L E1 E2. pose proof (pyremove_sorted Rz (Z.of_nat n) _ (pyremove_sorted Rz (-1)%Z l Sl)) as So.
    pose proof (sorted_nth _ _ _ So i j _ _ L E1 E2) as H. unfold Rz in H. unfold not_after.
    replace (x + 2) with (Z.to_nat (Z.of_nat x + 2)) by lia. replace (y + 2) with (Z.to_nat (Z.of_nat y + 2)) by lia. exact H.
Qed.

Lemma removelast_map A B (f : A -> B) l : removelast (map f l) = map f (removelast l).
Proof. induction l as [|x [|y l] IH]; try reflexivity. cbn [map removelast] in *. rewrite <- IH. reflexivity. Qed.

Lemma modes_ok s ids n : Permutation ids (seq 1 (n + 2)) ->
  removelast (tl (map (fun j => match dget (s_mode s) j with Some x => x | None => 1 end) (ssort Nat.leb ids))) =
  map (mode_in s) (seq 2 n).
Proof.
  intros P. rewrite (sort_seq ids (n + 2) P). replace (n + 2) with (S (n + 1)) by lia. cbn [seq map tl].
  rewrite removelast_map. replace (n + 1) with (S n) by lia. rewrite seq_S, removelast_last. reflexivity.
Qed.

(** C120.  When every task has started and ended, the solution has the state's schedule, the state's modes at
    their positions, and a permutation of the tasks by start. *)
Theorem C120_solution s k m n : Permutation (k_ids k) (seq 1 (n + 2)) -> Permutation (map fst (s_times s)) (seq 1 (n + 2)) ->
  build_do k = Ok m ->
  exists sol, last_solution s k = Ok sol /\ sol_problem sol = m /\ sol_schedule sol = s_times s /\
    length (sol_modes sol) = n /\ (forall a, 2 <= a <= n + 1 -> nth_error (sol_modes sol) (a - 2) = Some (mode_in s a)) /\
    by_start (s_times s) n (sol_perm sol).
Proof.
  intros Pi Pt B. unfold last_solution. rewrite B. cbn [bind]. destruct (permutation_ok (s_times s) n Pt) as (p & -> & Y).
  cbn [bind]. eexists. split; [reflexivity|]. cbn [sol_problem sol_schedule sol_modes sol_perm].
  rewrite (modes_ok s (k_ids k) n Pi). split; [reflexivity|]. split; [reflexivity|].
  split; [rewrite map_length, seq_length; reflexivity|]. split; [|exact Y].
  intros a Ha. rewrite nth_error_map, (nth_error_nth' _ 0) by (rewrite seq_length; lia). rewrite seq_nth by lia. cbn.
  do 2 f_equal. lia.
Qed.

(** The solution passes the feasibility check of its problem exactly when the simulated schedule is feasible
    in the terms of the domain. *)
Theorem C120_checked s k n : Permutation (k_ids k) (seq 1 (n + 2)) -> Permutation (map fst (s_times s)) (seq 1 (n + 2)) ->
  supported k n (map (mode_in s) (seq 2 n)) ->
  forall start e, In (n + 2, (start, e)) (s_times s) -> (0 < e)%Z -> (k_kind k = KCalendar -> (e <= Z.of_nat (k_horizon k))%Z) ->
  exists sol m b, last_solution s k = Ok sol /\ sol_problem sol = Some m /\
    satisfy (view m) (sol_modes sol) (sol_schedule sol) None = Ok b /\
    (b = true <-> feasible k n (map (mode_in s) (seq 2 n)) (s_times s) e).
Proof.
  intros Pi Pt U start e I Pos Hc. destruct (C119_feasible k n _ U) as (m & B & H).
  destruct (H (s_times s) None e Pt (ex_intro _ start I) Pos Hc) as (b & S & E).
  destruct (permutation_ok (s_times s) n Pt) as (p & Ep & _).
  eexists. exists m, b. unfold last_solution. rewrite B, Ep. cbn [bind]. split; [reflexivity|].
  cbn [sol_problem sol_schedule sol_modes]. rewrite (modes_ok s (k_ids k) n Pi). split; [reflexivity|]. split; [exact S|].
  rewrite E. split; [tauto|]. intros F. split; [discriminate|exact F].
Qed.

(** ** Examples and findings *)

(** The state does not record the modes of the dummy tasks. *)
Definition ex_last : last_state := Last [(2, 1); (3, 2); (4, 1)] ex_sch.
Example C120_ex : exists sol m, last_solution ex_last (ex_sk KMulti (fun r _ => ex_amount r)) = Ok sol /\ sol_problem sol = Some m /\
  sol_modes sol = [1; 2; 1] /\ sol_perm sol = [1; 0; 2]%Z /\ supported (ex_sk KMulti (fun r _ => ex_amount r)) 3 (map (mode_in ex_last) (seq 2 3)) /\
  satisfy (view m) (sol_modes sol) (sol_schedule sol) None = Ok true.
Proof.
  eexists. eexists. split; [vm_compute; reflexivity|]. split; [reflexivity|]. split; [reflexivity|]. split; [reflexivity|].
  split; [apply ex_supported; [discriminate|reflexivity]|vm_compute; reflexivity].
Qed.

(** Tasks numbered from 0: the permutation of the three tasks has the index -2 and not the index 2. *)
Theorem C120_zero_based_refuted : exists s k m sol, Permutation (k_ids k) (seq 0 5) /\ Permutation (map fst (s_times s)) (seq 0 5) /\
  build_do k = Ok m /\ last_solution s k = Ok sol /\ In (-2)%Z (sol_perm sol) /\ ~ In 2%Z (sol_perm sol).
Proof.
  exists (Last [] [(0, (0, 0)%Z); (1, (0, 3)%Z); (2, (3, 5)%Z); (3, (5, 7)%Z); (4, (7, 7)%Z)]),
    (Sk KMulti [] [0; 1; 2; 3; 4] [] (fun _ _ => Ok 0%Z) (fun _ => Ok 0%Z) (fun _ _ => Ok 0%Z) [] [] 10).
  eexists. eexists. split; [apply Permutation_refl|]. split; [apply Permutation_refl|]. split; [reflexivity|].
  split; [vm_compute; reflexivity|]. cbn. split; [tauto|]. intros [E|[E|[E|[]]]]; discriminate.
Qed.

(** Before the source has started there is no solution: [remove] raises ValueError. *)
Theorem C120_incomplete_refuted : exists s k, build_do k <> Err ValueError /\ k_ids k = [1; 2; 3] /\ last_solution s k = Err ValueError.
Proof.
  exists (Last [] [(2, (0, 1)%Z)]),
    (Sk KMulti [] [1; 2; 3] [] (fun _ _ => Ok 0%Z) (fun _ => Ok 0%Z) (fun _ _ => Ok 0%Z) [] [] 10).
  split; [discriminate|]. split; reflexivity.
Qed.

(** In an unfinished schedule the task removed from the permutation is the last of those started, not the
    sink. *)
Theorem C120_unfinished_refuted : exists s k m sol, Permutation (k_ids k) (seq 1 5) /\ map fst (s_times s) = [1; 2; 3] /\
  build_do k = Ok m /\ last_solution s k = Ok sol /\ sol_perm sol = [0%Z].
Proof.
  exists (Last [] [(1, (0, 0)%Z); (2, (0, 2)%Z); (3, (2, 3)%Z)]),
    (Sk KMulti [] [1; 2; 3; 4; 5] [] (fun _ _ => Ok 0%Z) (fun _ => Ok 0%Z) (fun _ _ => Ok 0%Z) [] [] 10).
  eexists. eexists. split; [apply Permutation_refl|]. split; [reflexivity|]. split; [reflexivity|].
  split; [vm_compute; reflexivity|]. reflexivity.
Qed.

Print Assumptions C120_solution.
Print Assumptions C120_checked.
