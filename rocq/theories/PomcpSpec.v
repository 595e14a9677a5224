(** Vocabulary for the properties of the partially observable Monte Carlo planner. *)
From Coq Require Import List Bool Arith ZArith QArith.
Import ListNotations.
From Verif Require Import Py PyList PomcpModel.
Set Implicit Arguments.
Open Scope nat_scope.

Section Spec.
  Variables St Act Obs : Type.
  Context {EA : PyEq Act} {EO : PyEq Obs}.
  Variable w : world St Act Obs.
  Variable max_depth : nat.

  (** A domain the planner is meant for: transitions never raise, every state has applicable actions,
      all of them in the action space, costs lie between zero and the planner's "very large value", and the
      random generator answers within range. *)
  Record lawful : Prop := Lawful {
    l_next : forall d s a, (forall b, a = Some b -> In b (w_actions w)) -> exists s', w_next w d s a = Ok s';
    l_cost : forall s a s', (0 <= w_cost w s a s')%Q /\ (w_cost w s a s' <= vlv max_depth)%Q;
    l_some : forall s, w_applicable w s <> [];
    l_incl : forall s a, In a (w_applicable w s) -> In a (w_actions w);
    l_nodup : NoDup (w_actions w);
    l_pick : forall d s, exists a, w_pick w d s = Ok a /\ In a (w_applicable w s);
    l_choice : forall d n, 0 < n -> w_choice w d n < n;
    l_weighted : forall d ws, 0 < list_sum ws -> exists v, nth_error ws (w_weighted w d ws) = Some (S v);
    l_bonus : forall N n, 2 <= N -> 1 <= n -> (0 < w_bonus w N n)%Q;
    l_depth : 1 <= max_depth
  }.

  (** The simulated costs recorded for a history that ends with an action. *)
  Definition costs_of (log : list (key Act Obs * Q)) (k : key Act Obs) : list Q :=
    map snd (filter (fun e => pyeqb (fst e) k) log).
  Definition total (l : list Q) : Q := fold_right Qplus 0%Q l.
  Definition mean (l : list Q) : Q := (total l / inject_Z (Z.of_nat (length l)))%Q.

  (** What the planner has noted about a history. *)
  Definition visits (t : tree Act Obs) (k : key Act Obs) : nat :=
    match dget t k with Some n => n_visits n | None => 0 end.
  Definition known (t : tree Act Obs) (k : key Act Obs) : Prop := exists n, dget t k = Some n.

  (** States compatible with a history of (action before, observation) pairs, when a state is observed
      before the action and then moves with it. *)
  Inductive compatible (initial : list St) : list (option Act * Obs) -> St -> Prop :=
  | compatible_start s : In s initial -> compatible initial [] s
  | compatible_step h s a o s' d d' :
      compatible initial h s -> w_obs w d s a = o -> w_next w d' s a = Ok s' ->
      compatible initial (h ++ [(a, o)]) s'.

  (** A run of the environment itself: the state moves with the action, and the new state is observed. *)
  Inductive lived (s0 : St) : list (option Act * Obs) -> St -> Prop :=
  | lived_start o d : w_obs w d s0 None = o -> lived s0 [(None, o)] s0
  | lived_step h s a s' o d d' :
      lived s0 h s -> w_next w d s (Some a) = Ok s' -> w_obs w d' s' (Some a) = o ->
      lived s0 (h ++ [(Some a, o)]) s'.

  (** A sequence of decisions: the actions answered, and the planner after the last. *)
  Fixpoint run (iterations : nat) (x : solver St Act Obs) (os : list Obs)
    : res (list (option Act) * solver St Act Obs) :=
    match os with
    | [] => Ok ([], x)
    | o :: r =>
        let* y := get_next_action w iterations max_depth x o in
        let* z := run iterations (snd y) r in
        Ok (fst y :: fst z, snd z)
    end.
End Spec.
