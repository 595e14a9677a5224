(** Specification vocabulary for the width-based solvers: it mentions only the domain and feature vectors. *)
From Coq Require Import List Bool Arith ZArith Sorted.
From Verif Require Import Py IwModel.
Import ListNotations.
Open Scope nat_scope.

(** A choice of [k] different indices below [n], in increasing order. *)
Definition choice (k n : nat) (idx : list nat) : Prop :=
  length idx = k /\ StronglySorted lt idx /\ Forall (fun i => i < n) idx.

(** Two feature vectors have the same values at the given places. *)
Definition agree {V} (f f' : list V) (idx : list nat) : Prop := forall i, In i idx -> nth_error f i = nth_error f' i.

(** Some [k] features of [f] have values that no vector seen before has at the same places. *)
Definition fresh {V} (k : nat) (f : list V) (seen : list (list V)) : Prop :=
  exists idx, choice k (length f) idx /\ forall f', In f' seen -> ~ agree f f' idx.

(** The novelty of [f]: the least size, up to [width], of a combination of values not seen before; one more
    than the number of features when there is none. *)
Definition is_novelty {V} (width : nat) (f : list V) (seen : list (list V)) (nov : nat) : Prop :=
  (nov = S (length f) /\ forall k, 1 <= k <= width -> ~ fresh k f seen) \/
  (1 <= nov <= width /\ fresh nov f seen /\ forall k, 1 <= k < nov -> ~ fresh k f seen).

Section Exec.
Context {St A V K : Type}.
Variable p : @problem St A V K.

(** [exec s l t c]: the actions [l] can be taken from [s], each applicable in the non-terminal state where it is
    taken; they end in [t] and their transition costs add up to [c]. *)
Inductive exec : St -> list A -> St -> Z -> Prop :=
| ex_nil : forall s, exec s [] s 0%Z
| ex_cons : forall s a l s' c, is_terminal p s = false -> In a (apps p s) -> exec (next p s a) l s' c ->
    exec s (a :: l) s' (cost p s a (next p s a) + c)%Z.
End Exec.
