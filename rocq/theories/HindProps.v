(** C136: hindsight planning. *)
From Coq Require Import List Bool QArith Lia.
From Verif Require Import Py PyList HindModel HindSpec HindProofs.
Import ListNotations.
Open Scope nat_scope.

Section Any.
Context {S A K : Type} {ES : PyEq S} {EA : PyEq A} {EK : PyEq K}.
Variable keys : list K.
Variable cost : K -> S -> Q.
Variable act : K -> S -> A.
Variable next : K -> S -> A -> S.
Variable trans : K -> S -> A -> S -> Q.
Variable w : K -> Q.
Variable arrange : list A -> list A.

(** [arrange] gives the elements of a set in some order. *)
Definition walks : Prop := forall l, NoDup (arrange l) /\ forall a, In a (arrange l) <-> In a l.

Notation give reuse := (give_first_action keys cost act next trans w reuse arrange).
Notation best := (best keys cost act next trans w).

(** A first question: the answer is proposed by a scenario and has the least weighted sum of costs over
    the scenarios, and these sums are the values kept. *)
Theorem C136_fresh : NoDup keys -> keys <> [] -> walks -> forall reuse s, (forall k a, next k s a <> s) ->
  exists st a, give reuse empty s = Ok (st, a) /\ best s a /\
    forall b, proposed keys act s b -> exists v, dget (h_q st) (s, b) = Some v /\ (v == total keys cost act next trans w s b)%Q.
Proof.
  intros N Ne Wa reuse s Ns.
  destruct (call_gen keys cost act next trans w reuse arrange N Wa (fun _ => True) s Ne Ns) with (st := @empty S A K)
    as (st & a & E & _ & _ & _ & B & V); auto.
  - apply ok_empty.
  - apply tidy_empty.
  - now exists st, a.
Qed.

(** Questions asked along histories, each at least as late as the previous ones, when the states of a
    scenario tell how they were reached: all the answers are right, although plans are reused. *)
Theorem C136_forward : NoDup keys -> keys <> [] -> walks -> forall depth : S -> nat,
  (forall k s a, depth (next k s a) = Datatypes.S (depth s)) ->
  (forall k s a s' a', next k s a = next k s' a' -> s = s' /\ a = a') ->
  forall l, (forall i j s t, nth_error l i = Some s -> nth_error l j = Some t -> i <= j -> depth s <= depth t) ->
  exists st acts, calls keys cost act next trans w true arrange empty l = Ok (st, acts) /\ Forall2 best l acts.
Proof.
  intros N Ne Wa depth Hd Hi l Dl.
  destruct (calls_from keys cost act next trans w true arrange N Wa depth Hd Hi l [] (@empty S A K) [] Ne eq_refl) as (st & acts & E & F); auto.
  - split; [intros; apply ok_empty|]. cbn. congruence.
  - apply tidy_empty.
  - intros u s [].
  - now exists st, acts.
Qed.

(** Asking again right away changes neither the answer nor the values kept, whatever was asked before. *)
Theorem C136_again : NoDup keys -> walks -> forall l st acts s st1 a,
  calls keys cost act next trans w true arrange empty l = Ok (st, acts) ->
  give true st s = Ok (st1, a) -> give true st1 s = Ok (st1, a).
Proof.
  intros N Wa l st acts s st1 a E E1. eapply again; eauto.
  eapply base_calls; [apply base_empty|exact E].
Qed.
End Any.

(** ** Cases *)
Lemma pyset_walks : @walks nat pyset.
Proof. intros l. split; [apply pyset_NoDup|apply pyset_In]. Qed.

(** Two scenarios over histories (lists of actions): the second thinks that action 1 is dear. *)
Definition hcost (k : nat) (s : list nat) : Q := match k with 0 => 2 | _ => 3 end.
Definition hact (k : nat) (s : list nat) : nat := k.
Definition hnext (k : nat) (s : list nat) (a : nat) : list nat := a :: s.
Definition htrans (k : nat) (s : list nat) (a : nat) (t : list nat) : Q := if a =? 1 then 9 else 1.
#[local] Instance PyEq_hist : PyEq (list nat).
Proof.
  refine {| pyeqb := fun a b => if list_eq_dec Nat.eq_dec a b then true else false |}.
  intros a b. destruct (list_eq_dec Nat.eq_dec a b); constructor; auto.
Defined.

Example C136_ex : NoDup [0; 1] /\ walks (@pyset nat _) /\ (forall k s a, hnext k s a <> s) /\
  (forall k s a, length (hnext k s a) = Datatypes.S (length s)) /\
  (forall k s a s' a', hnext k s a = hnext k s' a' -> s = s' /\ a = a') /\
  total [0; 1] hcost hact hnext htrans (fun _ => 1%Q) [] 0 == 6 /\ total [0; 1] hcost hact hnext htrans (fun _ => 1%Q) [] 1 == 14 /\
  (exists st, calls [0; 1] hcost hact hnext htrans (fun _ => 1%Q) true pyset empty [[]; [0]; [0; 0]] = Ok (st, [0; 0; 0])).
Proof.
  repeat split; try (intros; unfold hnext in *; congruence); try reflexivity.
  - repeat constructor; cbn; intuition lia.
  - apply pyset_NoDup.
  - apply pyset_In.
  - apply pyset_In.
  - intros k s a E. apply (f_equal (@length nat)) in E. cbn in E. lia.
  - eexists. vm_compute. reflexivity.
Qed.

(** Without reuse of plans, a second question about the same state is answered wrongly: the costs of the
    plans are counted twice, those of the steps ahead once. *)
Theorem C136_no_reuse_refuted : exists keys cost act next trans w st a st' b, NoDup keys /\ walks (@pyset nat _) /\
  (forall k s a, next k s a <> s) /\
  give_first_action (S := nat) (A := nat) (K := nat) keys cost act next trans w false pyset empty 0 = Ok (st, a) /\
  give_first_action keys cost act next trans w false pyset st 0 = Ok (st', b) /\
  best keys cost act next trans w 0 a /\ ~ best keys cost act next trans w 0 b.
Proof.
  set (co := fun k s => match k, s with 0, 0 => 5%Q | _, _ => 0%Q end).
  set (ac := fun k s : nat => k). set (ne := fun k s a : nat => Datatypes.S s).
  set (tr := fun k s a t : nat => match k with 0 => 6%Q | _ => 0%Q end).
  assert (Ns : forall k s a, ne k s a <> s) by (intros; unfold ne; lia).
  assert (N : NoDup [0; 1]) by (repeat constructor; cbn; intuition lia).
  destruct (C136_fresh [0; 1] co ac ne tr (fun _ => 1%Q) pyset N ltac:(discriminate) pyset_walks false 0 (fun k a => Ns k 0 a)) as (st & a & E & B & _).
  assert (E' : give_first_action [0; 1] co ac ne tr (fun _ => 1%Q) false pyset empty 0 = Ok (st, a)) by exact E.
  vm_compute in E. injection E as <- <-.
  exists [0; 1], co, ac, ne, tr, (fun _ => 1%Q). eexists _, _, _, 1.
  split; auto. split; [apply pyset_walks|]. split; auto. split; [exact E'|]. split; [vm_compute; reflexivity|]. split; auto.
  intros (_ & L). assert (P : proposed [0; 1] ac 0 0) by (exists 0; cbn; auto). apply L in P. vm_compute in P. congruence.
Qed.

(** A scenario in which an action leaves the state as it is: its plan is counted twice. *)
Theorem C136_loop_refuted : exists keys cost act next trans w st a, NoDup keys /\ walks (@pyset nat _) /\
  give_first_action (S := nat) (A := nat) (K := nat) keys cost act next trans w true pyset empty 0 = Ok (st, a) /\
  ~ best keys cost act next trans w 0 a.
Proof.
  set (co := fun k s => match s with 0 => match k with 0 => 3%Q | _ => 4%Q end | _ => 2%Q end).
  set (ac := fun k s : nat => k). set (ne := fun k s a : nat => if k =? a then Datatypes.S s else match k with 1 => s | _ => Datatypes.S s end).
  set (tr := fun k s a t : nat => 1%Q).
  exists [0; 1], co, ac, ne, tr, (fun _ => 1%Q). eexists _, 0.
  split; [repeat constructor; cbn; intuition lia|]. split; [apply pyset_walks|]. split; [vm_compute; reflexivity|].
  intros (_ & L). assert (P : proposed [0; 1] ac 0 1) by (exists 1; cbn; auto). apply L in P. vm_compute in P. congruence.
Qed.

(** Two actions that lead a scenario to the same state: its plan from there is counted twice, and the
    answer for that state is wrong. *)
Theorem C136_merge_refuted : exists keys cost act next trans w st a b, NoDup keys /\ walks (@pyset nat _) /\
  (forall k s a, s < next k s a) /\
  calls (S := nat) (A := nat) (K := nat) keys cost act next trans w true pyset empty [0; 1] = Ok (st, [a; b]) /\
  ~ best keys cost act next trans w 1 b.
Proof.
  set (co := fun k s => match k, s with 0, 1 => 5%Q | _, _ => 0%Q end).
  set (ac := fun k s : nat => match s with 1 => match k with 0 => 0 | _ => 1 end | _ => k end).
  set (ne := fun k s a : nat => match s with 0 => match k with 0 => 1 | _ => 10 + 3 * k + a end | _ => s + 40 + 3 * k + a end).
  set (tr := fun k s a t : nat => match k, s, a with 0, 1, 1 => 6%Q | _, _, _ => 0%Q end).
  exists [0; 1; 2], co, ac, ne, tr, (fun _ => 1%Q). eexists _, _, 1.
  split; [repeat constructor; cbn; intuition lia|]. split; [apply pyset_walks|]. split; [|split; [vm_compute; reflexivity|]].
  - intros k s a. unfold ne. destruct s; [destruct k; lia|lia].
  - intros (_ & L). assert (P : proposed [0; 1; 2] ac 1 0) by (exists 0; cbn; auto). apply L in P. vm_compute in P. congruence.
Qed.

Print Assumptions C136_fresh.
Print Assumptions C136_forward.
Print Assumptions C136_again.
Print Assumptions C136_no_reuse_refuted.
Print Assumptions C136_loop_refuted.
Print Assumptions C136_merge_refuted.
