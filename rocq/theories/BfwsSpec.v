(** Specification vocabulary for BfwsProps.v. *)
From Coq Require Import List Bool Arith ZArith.
From Verif Require Import Py BfwsModel.
Import ListNotations.
Open Scope nat_scope.

(** The place [i] of [f] has a value that no vector evaluated before with the same heuristic value has there. *)
Definition new_place {V} (h : Z) (f : list V) (seen : list (Z * list V)) (i : nat) : Prop :=
  i < length f /\ forall f', In (h, f') seen -> nth_error f' i <> nth_error f i.

(** The rank of a vector [f] with heuristic value [h]: zero for the first one with this value; otherwise the number
    of its new places, or one more than its length when there is none. *)
Definition is_rank {V} (h : Z) (f : list V) (seen : list (Z * list V)) (rank : nat) : Prop :=
  ((forall f', ~ In (h, f') seen) /\ rank = 0) \/
  ((exists f', In (h, f') seen) /\ (forall i, ~ new_place h f seen i) /\ rank = S (length f)) \/
  ((exists f', In (h, f') seen) /\ exists places, places <> [] /\ NoDup places /\
     (forall i, In i places <-> new_place h f seen i) /\ rank = length places).

Section Exec.
Context {St A V K : Type}.
Variable p : @problem St A V K.

(** [exec s l t c]: the actions [l] can be taken from [s], each applicable where it is taken; they end in [t] and
    their transition costs add up to [c]. *)
Inductive exec : St -> list A -> St -> Z -> Prop :=
| ex_nil : forall s, exec s [] s 0%Z
| ex_cons : forall s a l s' c, In a (apps p s) -> exec (next p s a) l s' c ->
    exec s (a :: l) s' (cost p s a (next p s a) + c)%Z.
End Exec.
