(** Hindsight planning, without a table. *)
From Coq Require Import List QArith.
From Verif Require Import Py.
Import ListNotations.

Section Spec.
Context {S A K : Type} {EA : PyEq A}.
Variable keys : list K.
Variable cost : K -> S -> Q.
Variable act : K -> S -> A.
Variable next : K -> S -> A -> S.
Variable trans : K -> S -> A -> S -> Q.
Variable w : K -> Q.

(** What scenario [k] says action [a] is worth in state [s]: its own plan, or one step and a plan. *)
Definition worth (k : K) (s : S) (a : A) : Q :=
  if pyeqb (act k s) a then cost k s else (trans k s a (next k s a) + cost k (next k s a))%Q.

(** The weighted sum over scenarios. *)
Definition total (s : S) (a : A) : Q := fold_right Qplus 0%Q (map (fun k => worth k s a * w k)%Q keys).

(** Some scenario plans to begin with [a]. *)
Definition proposed (s : S) (a : A) : Prop := exists k, In k keys /\ a = act k s.

(** [a] is a right answer for [s]. *)
Definition best (s : S) (a : A) : Prop := proposed s a /\ forall b, proposed s b -> (total s a <= total s b)%Q.
End Spec.
