(** Vocabulary for the evaluation of policies. *)
From Coq Require Import List Bool Arith QArith.
From Verif Require Import Py PevalModel.
Import ListNotations.

Section Spec.
Context {St A : Type} {ES : PyEq St}.
Variable d : pdom St A.
Variable pol : St -> A.

(** States that can be met from the initial one when the policy is followed until a terminal state. *)
Inductive met : St -> Prop :=
| met_init : met (d_init d)
| met_step : forall s t pr, met s -> d_term d s = false -> In (t, pr) (d_dist d s (pol s)) -> ~ (pr == 0)%Q -> met t.

Fixpoint mean (s : St) (a : A) (os : list (St * Q)) (ws : list Q) : Q :=
  match os, ws with
  | (t, pr) :: os, w :: ws => (pr * (d_cost d s a t + w) + mean s a os ws)%Q
  | _, _ => 0%Q
  end.

(** Following the policy from [s] on reaches a goal whatever the outcomes, at the expected cost [v]. *)
Inductive costs : St -> Q -> Prop :=
| costs_goal : forall s v, d_goal d s = true -> (v == 0)%Q -> costs s v
| costs_act : forall s ws v, d_goal d s = false -> d_term d s = false ->
    Forall2 (fun o w => costs (fst o) w) (d_dist d s (pol s)) ws ->
    (v == mean s (pol s) (d_dist d s (pol s)) ws)%Q -> costs s v.

(** No outcome is listed with probability zero, and there is at least one. *)
Definition live : Prop := forall s, d_term d s = false -> d_dist d s (pol s) <> [] /\ forall t pr, In (t, pr) (d_dist d s (pol s)) -> ~ (pr == 0)%Q.

(** Finitely many states can be met. *)
Definition finite_met : Prop := exists U, forall s, met s -> In s U.

(** A simulated execution of the policy from [s] on, where [draw n s a] is the [n]-th sample taken: the states left with the
    cost paid, the state in which it ends, and the number of samples taken so far. *)
Definition ends (t : St) : Prop := d_goal d t = true \/ d_term d t = true.
Inductive trip (draw : nat -> St -> A -> St) : nat -> St -> list (St * Q) -> St -> nat -> Prop :=
| trip_end : forall n s t, t = draw n s (pol s) -> ends t -> trip draw n s [(s, d_cost d s (pol s) t)] t (S n)
| trip_more : forall n s t path z m, t = draw n s (pol s) -> ~ ends t -> trip draw (S n) t path z m ->
    trip draw n s ((s, d_cost d s (pol s) t) :: path) z m.

(** Successive executions from the initial state. *)
Inductive trips (draw : nat -> St -> A -> St) : nat -> list (list (St * Q) * St) -> nat -> Prop :=
| trips_none : forall n, trips draw n [] n
| trips_one : forall n m l es k, trips draw n es m -> trip draw m (d_init d) (fst l) (snd l) k -> trips draw n (es ++ [l]) k.
End Spec.

Fixpoint total {St} (path : list (St * Q)) : Q := match path with [] => 0%Q | x :: path => (snd x + total path)%Q end.
Fixpoint qsum (l : list Q) : Q := match l with [] => 0%Q | x :: l => (x + qsum l)%Q end.

(** What remained to be paid each time an execution was in [s]. *)
Fixpoint to_go {St} {ES : PyEq St} (s : St) (path : list (St * Q)) : list Q :=
  match path with
  | [] => []
  | x :: rest => (if pyeqb (fst x) s then [total path] else []) ++ to_go s rest
  end.
Definition all_to_go {St} {ES : PyEq St} (s : St) (es : list (list (St * Q) * St)) : list Q := flat_map (fun e => to_go s (fst e)) es.

(** [s] and [t] follow each other in the list. *)
Definition consec {St} (l : list St) (s t : St) : Prop := exists l1 l2, l = l1 ++ s :: t :: l2.

(** Taking an element from a set gives one of its elements. *)
Definition picks {St} (pick : list St -> St) : Prop := forall l, l <> [] -> In (pick l) l.
