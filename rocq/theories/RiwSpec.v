(** Specification vocabulary for the rollout-based width solver: it mentions only the domain and the calls of the
    user. *)
From Coq Require Import List Bool Arith ZArith QArith.
From Verif Require Import Py PyList RiwModel.
Import ListNotations.
Open Scope nat_scope.

Section Spec.
Context {St A V : Type} {ES : PyEq St} {EV : PyEq V}.
Variable p : @problem St A V.

(** [walk s l t]: the actions [l], each applicable in the non-terminal state where it is taken, lead from [s] to [t]. *)
Inductive walk (s : St) : list A -> St -> Prop :=
| walk_nil : walk s [] s
| walk_snoc : forall l t a, walk s l t -> is_terminal p t = false -> In a (apps p t) -> walk s (l ++ [a]) (next p t a).

(** [l] is a complete execution from [s]: it stops in the first terminal state. *)
Fixpoint complete (s : St) (l : list A) : Prop :=
  match l with
  | [] => is_terminal p s = true
  | a :: l' => is_terminal p s = false /\ In a (apps p s) /\ complete (next p s a) l'
  end.

(** The discounted sum of the rewards of an execution *)
Fixpoint gain (gamma : Q) (s : St) (l : list A) : Q :=
  match l with [] => 0%Q | a :: l' => (reward p s a + gamma * gain gamma (next p s a) l')%Q end.

(** The best sum over the complete executions from [s] *)
Definition optimal (gamma : Q) (s : St) (v : Q) : Prop :=
  (exists l, complete s l /\ gain gamma s l == v)%Q /\ (forall l, complete s l -> gain gamma s l <= v)%Q.

(** What a user can do with a solver, from its creation: any sequence of [solve] (from any state), [clear] and
    requests for the best action, whatever the clock, the draws and the order of the sets. *)
Inductive used (c : params) : @world St A V -> Prop :=
| used_start : used c (start p)
| used_clear : forall w, used c w -> used c (clear w)
| used_solve : forall w clock draw order fuel s b w', (forall l x, In x (order l) <-> In x l) ->
    used c w -> solve p c clock draw order fuel w s = Ok (b, w') -> used c w'
| used_ask : forall w order s a w', (forall l x, In x (order l) <-> In x l) ->
    used c w -> get_best_action p c order w s = Ok (a, w') -> used c w'.
End Spec.
