(** Vocabulary for the properties of the AO* solver: plans of a Markov decision process with goals,
    independently of the solver. *)
From Coq Require Import List Bool Arith QArith Permutation.
From Verif Require Import Py AoModel.
Import ListNotations.

Section Spec.
Context {St A : Type} {ES : PyEq St}.
Variable p : mdp St A.
Variable gamma : Q.

(** The expected cost of doing [a] in [s] when what follows each outcome costs [ws] in turn. *)
Fixpoint expected (s : St) (a : A) (os : list (St * Q)) (ws : list Q) : Q :=
  match os, ws with
  | (y, pr) :: os, w :: ws => (pr * (m_cost p s a y + gamma * w) + expected s a os ws)%Q
  | _, _ => 0%Q
  end.

(** A plan that leads to a goal whatever the outcomes has the expected cost [v] from [s] on; it may use
    the history. *)
Inductive plan_cost : St -> Q -> Prop :=
| plan_goal : forall s v, m_goal p s = true -> (v == 0)%Q -> plan_cost s v
| plan_act : forall s a ws v, m_goal p s = false -> In a (m_apps p s) ->
    Forall2 (fun o w => plan_cost (fst o) w) (m_dist p s a) ws ->
    (v == expected s a (m_dist p s a) ws)%Q -> plan_cost s v.

(** The same for the plan that follows the policy [pol]. *)
Inductive policy_cost (pol : St -> option A) : St -> Q -> Prop :=
| policy_goal : forall s v, m_goal p s = true -> (v == 0)%Q -> policy_cost pol s v
| policy_act : forall s a ws v, m_goal p s = false -> pol s = Some a -> In a (m_apps p s) ->
    Forall2 (fun o w => policy_cost pol (fst o) w) (m_dist p s a) ws ->
    (v == expected s a (m_dist p s a) ws)%Q -> policy_cost pol s v.

(** States that can be met from [s] on before a goal is reached. *)
Inductive reach (s : St) : St -> Prop :=
| reach_refl : reach s s
| reach_step : forall x a y pr, reach s x -> m_goal p x = false -> In a (m_apps p x) -> In (y, pr) (m_dist p x a) -> reach s y.

Definition no_dead_end (s : St) : Prop := forall y, reach s y -> m_goal p y = false -> m_apps p y <> [].

Definition acyclic : Prop := exists rank : St -> nat,
  forall s a y pr, m_goal p s = false -> In a (m_apps p s) -> In (y, pr) (m_dist p s a) -> rank y < rank s.

(** Probabilities are not negative. *)
Definition weights : Prop := forall s a y pr, In a (m_apps p s) -> In (y, pr) (m_dist p s a) -> (0 <= pr)%Q.

Definition admissible : Prop := forall s v, plan_cost s v -> (m_heur p s <= v)%Q.
End Spec.

(** Iterating over a set visits each of its elements once. *)
Definition fair {St} (cf : config St) : Prop := forall l, Permutation (c_order cf l) l.

(** The graphs that calls to [solve], none of them from a goal state, leave in a new solver. *)
Inductive session {St A} {ES : PyEq St} (p : mdp St A) (cf : config St) : sgraph St A -> Prop :=
| session_new : session p cf []
| session_solve : forall g fuel s g', session p cf g -> m_goal p s = false -> ao_solve fuel p cf g s = Ok g' -> session p cf g'.

(** The policy that the solver answers with. *)
Definition answers {St A} {ES : PyEq St} (g : sgraph St A) (s : St) : option A :=
  match ao_best_action g s with Ok a => Some a | Err _ => None end.
