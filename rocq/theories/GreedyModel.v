(** SimpleGreedy: skdecide/hub/solver/simple_greedy/simple_greedy.py.

    - Rewards and probabilities are exact rationals instead of floats.
    - The domain is a record of oracles; a space is its elements and whether Python can iterate over it directly.
      No space of the library defines [__iter__]. *)
From Coq Require Import List Bool Arith ZArith QArith.
From Verif Require Import Py PyList.
Import ListNotations.

Section Greedy.
Context {S A : Type}.

Record space := Space { elements : list A; iterable : bool }.
Record gdomain := GDomain {
  applicable : S -> space;
  depends_on_next : bool;                        (* is_transition_value_dependent_on_next_state() *)
  next_distribution : S -> A -> list (S * Q);    (* get_next_state_distribution(memory, [a]).get_values() *)
  reward_next : S -> A -> S -> Q;                (* get_transition_value(memory, [a], s).reward *)
  reward_now : S -> A -> Q }.                    (* get_transition_value(memory, a).reward *)

(** [values]: simple_greedy.py:32-39 *)
Definition expected (d : gdomain) (s : S) (a : A) : Q :=
  fold_left (fun acc sp => Qplus acc (Qmult (snd sp) (reward_next d s a (fst sp)))) (next_distribution d s a) 0%Q.
Definition values (d : gdomain) (s : S) : res (list Q) :=
  if depends_on_next d then Ok (map (expected d s) (elements (applicable d s)))
  else if iterable (applicable d s) then Ok (map (reward_now d s) (elements (applicable d s)))
  else Err TypeError.
(** [max(range(len(values)), key=lambda i: values[i])]: the first index of a maximal value *)
Fixpoint argmax_from (best : nat) (b : Q) (i : nat) (l : list Q) : nat :=
  match l with
  | [] => best
  | x :: l => if Qle_bool x b then argmax_from best b (Datatypes.S i) l else argmax_from i x (Datatypes.S i) l
  end.
Definition argmax (l : list Q) : res nat :=
  match l with [] => Err ValueError | x :: l => Ok (argmax_from 0 x 1 l) end.
(** SimpleGreedy._get_next_action: simple_greedy.py:27-41 *)
Definition next_action (d : gdomain) (s : S) : res (list A) :=
  let* vs := values d s in
  let* i := argmax vs in
  let* a := lget (elements (applicable d s)) i in
  Ok [a].
End Greedy.
Arguments space : clear implicits.
Arguments gdomain : clear implicits.
