(** Vocabulary for the properties of the LRTDP solver, added to that of AoSpec.v. *)
From Coq Require Import List Bool Arith QArith Qabs.
From Verif Require Import Py AoModel AoSpec LrtdpModel.
Import ListNotations.

Section Spec.
Context {St A : Type} {ES : PyEq St}.
Variable p : mdp St A.

(** The number of outcomes of the actions of a state. *)
Definition branches (x : St) : nat := list_sum (map (fun a => length (m_dist p x a)) (m_apps p x)).

(** Finitely many states can be met from [s] on, and [d] exceeds the number of outcomes of their actions. *)
Definition room (s : St) (d : nat) : Prop :=
  exists U, (forall x, reach p s x -> In x U) /\ list_sum (map branches U) < d.

(** The probabilities of the outcomes of an action sum up to 1. *)
Definition proper : Prop := forall s a, In a (m_apps p s) -> (fold_right (fun o u => snd o + u) 0 (m_dist p s a) == 1)%Q.

(** Time does not go back. *)
Definition onward (w : world St) : Prop := forall n, late w n = true -> late w (S n) = true.
(** The time budget is not used up. *)
Definition timely (w : world St) : Prop := forall n, late w n = false.
(** Drawing among some outcomes gives one of them. *)
Definition drawn (w : world St) : Prop := forall n l, l <> [] -> draw w n l < length l.

(** The graphs that calls to [solve], none of them from a goal state and each with enough depth, leave in a new solver. *)
Inductive lsession (cf : lconfig) : lgraph St A -> Prop :=
| lsession_new : lsession cf []
| lsession_solve : forall g w s g' r, lsession cf g -> m_goal p s = false -> room s (lc_depth cf) -> onward w ->
    lrtdp_solve p cf w g s = Ok (g', r) -> lsession cf g'.

(** [V] gives upper bounds of what the solver may report: at least 0 in goals, at least the heuristic
    elsewhere, and at least the expected cost of some action followed by [V]. *)
Definition above (gamma : Q) (V : St -> Q) : Prop :=
  (forall s, m_goal p s = true -> (0 <= V s)%Q) /\
  (forall s, m_goal p s = false -> (m_heur p s <= V s)%Q /\
     exists a, In a (m_apps p s) /\ (expected p gamma s a (m_dist p s a) (map (fun o => V (fst o)) (m_dist p s a)) <= V s)%Q).
End Spec.

Definition lanswers {St A} {ES : PyEq St} (g : lgraph St A) (s : St) : option A :=
  match lrtdp_best_action g s with Ok a => Some a | Err _ => None end.

(** Around [s] the values reported hardly change when the actions [pol] are followed: there is a set of
    states that contains [s], that [pol] does not leave before a goal, and on which the value is 0 in
    goals and elsewhere within [eps] of the expected cost of the action with the values that follow. *)
Definition near {St A} (p : mdp St A) (gamma eps : Q) (pol : St -> option A) (val : St -> res Q) (s : St) : Prop :=
  exists (C : St -> Prop) (V : St -> Q), C s /\ forall x, C x -> val x = Ok (V x) /\
    if m_goal p x then (V x == 0)%Q
    else exists a, pol x = Some a /\ In a (m_apps p x) /\ (forall y pr, In (y, pr) (m_dist p x a) -> C y) /\
         (Qabs (V x - expected p gamma x a (m_dist p x a) (map (fun o => V (fst o)) (m_dist p x a))) <= eps)%Q.
