(** Vocabulary for the exploration of domains. *)
From Coq Require Import List Bool Arith QArith.
From Verif Require Import Py GexModel.
Import ListNotations.
Open Scope nat_scope.

(** The value of a dict of dicts. *)
Definition look2 {St A T} {ES : PyEq St} {EA : PyEq A} (m : list (St * list (A * T))) (s : St) (a : A) : option T :=
  match dget m s with Some inner => dget inner a | None => None end.

Section Det.
Context {St A : Type} {ES : PyEq St} {EA : PyEq A}.
Variable d : xdom St A.
Variable s0 : St.

(** Goals are not left, except the state from which the exploration starts. *)
Definition expandable (s : St) : Prop := s = s0 \/ x_goal d s = false.
Inductive xreach : St -> Prop :=
| xreach_start : xreach s0
| xreach_step : forall s a, xreach s -> expandable s -> In a (x_apps d s) -> xreach (x_next d s a).

(** The numbers of states, of transitions, and of transitions into a goal. *)
Definition node_count (m : list (St * list (A * St))) : nat := length m.
Definition edge_count (m : list (St * list (A * St))) : nat := list_sum (map (fun x => length (snd x)) m).
Definition goal_count (m : list (St * list (A * St))) : nat := list_sum (map (fun x => length (filter (fun e => x_goal d (snd e)) (snd x))) m).

(** The limits are set and not passed. *)
Definition within (l : limits) (m : list (St * list (A * St))) : Prop :=
  exists e n p, l = {| l_edges := Some e; l_nodes := Some n; l_path := Some p |} /\ edge_count m <= e /\ node_count m <= n /\ goal_count m <= p.
End Det.

Section Unc.
Context {St A : Type} {ES : PyEq St} {EA : PyEq A}.
Variable d : udom St A.
Variable s0 : St.
Variable stop : St -> bool.

(** States that can be met from [s0] on through states that are not stopping. *)
Inductive ureach : St -> Prop :=
| ureach_start : ureach s0
| ureach_step : forall s a t pr, ureach s -> stop s = false -> In a (u_apps d s) -> In (t, pr) (u_dist d s a) -> ~ (pr == 0)%Q -> ureach t.
End Unc.

(** The value of a dict of dicts of dicts. *)
Definition look3 {St A V} {ES : PyEq St} {EA : PyEq A} (m : list (St * list (A * list (St * V)))) (s : St) (a : A) (t : St) : option V :=
  match look2 m s a with Some e => dget e t | None => None end.

(** The limits of the exploration under uncertainty are set and not passed by that many states; the edges are one less. *)
Definition within_u (l : limits) (n : nat) : Prop := exists e k p, l = {| l_edges := Some e; l_nodes := Some k; l_path := p |} /\ n <= k /\ n <= S e.
