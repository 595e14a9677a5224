(** Specification vocabulary of large neighbourhood search (C97-C99). *)
From Coq Require Import List Bool Arith ZArith.
From Verif Require Import Py PyList StoreModel.
Import ListNotations.

Section Spec.
Context {Sol : Type} {ES : PyEq Sol}.
Notation store := (@store Sol).

(** [a] is strictly better than [b]. *)
Definition beats (mx : bool) (a b : Z) : Prop := if mx then (b < a)%Z else (a < b)%Z.

(** A store that was filled: it has solutions, knows its extreme fitnesses and its map has the
    solutions of its list. *)
Record ready (mx : bool) (st : store) : Prop := {
  r_sense : maximize st = mx;
  r_some : fits st <> [];
  r_bounds : exists lo hi, fmin st = Some lo /\ fmax st = Some hi;
  r_keys : forall s, In s (dkeys (smap st)) <-> In s (map fst (fits st))
}.

(** New solutions go to the end; a known solution keeps its place and fitness. *)
Definition known (s : Sol) (l : list (Sol * Z)) : bool := existsb (fun p => pyeqb s (fst p)) l.
Fixpoint merge (l k : list (Sol * Z)) : list (Sol * Z) :=
  match k with
  | [] => l
  | p :: k => merge (if known (fst p) l then l else l ++ [p]) k
  end.

(** What one round of the CP version finds: the solutions of the post-processed store, nothing when
    the solver finds none or anything fails. *)
Definition found (solve : nat -> option store -> res store) (post : nat -> store -> res store)
  (it : nat) (st : option store) : list (Sol * Z) :=
  match solve it st with
  | Err _ => []
  | Ok r => match fits r with
            | [] => []
            | _ => match post it r with Ok r' => fits r' | Err _ => [] end
            end
  end.

(** Rounds [it], [it + 1], ... from the store [st]: [ls] are the lists found. *)
Inductive search (find : nat -> option store -> list (Sol * Z)) : nat -> store -> list (list (Sol * Z)) -> store -> Prop :=
| Search_end it st : search find it st [] st
| Search_round it st st1 ls st' :
    fits st1 = merge (fits st) (find it (Some st)) -> search find (S it) st1 ls st' ->
    search find it st (find it (Some st) :: ls) st'.

(** Round [i] finds a solution that beats those at the beginning and those of all earlier rounds. *)
Definition record (mx : bool) (base : list (Sol * Z)) (ls : list (list (Sol * Z))) (i : nat) : Prop :=
  exists l p, nth_error ls i = Some l /\ In p l /\
    (forall q, In q base -> beats mx (snd p) (snd q)) /\
    forall j l' q, j < i -> nth_error ls j = Some l' -> In q l' -> beats mx (snd p) (snd q).
(** The last [q] rounds were no records, the one before was (or there was none before). *)
Definition quiet (mx : bool) (base : list (Sol * Z)) (ls : list (list (Sol * Z))) (q : nat) : Prop :=
  q <= length ls /\ (forall i, length ls - q <= i < length ls -> ~ record mx base ls i) /\
  (q = length ls \/ record mx base ls (length ls - q - 1)).

(** When a search of at most [n] rounds from round [it] on stops. *)
Definition stops (mx : bool) (late : nat -> bool) (limit n it : nat) (base : list (Sol * Z)) (ls : list (list (Sol * Z))) : Prop :=
  length ls <= n /\
  (forall k, 0 < k < length ls -> late (it + k - 1) = false /\ exists q, quiet mx base (firstn k ls) q /\ q <= limit) /\
  (length ls = n \/ 0 < length ls /\
     (late (it + length ls - 1) = true \/ exists q, quiet mx base ls q /\ limit < q)).

(** The MILP version: the constraints of a round come from the store of the round before. *)
Section Milp.
Context {C : Type}.
Variable solve : nat -> option C -> res store.
Variable post : nat -> store -> res store.
Variable adding : nat -> store -> res C.
Inductive search_milp : nat -> store -> option C -> list (list (Sol * Z)) -> store -> Prop :=
| Milp_end it st c : search_milp it st c [] st
| Milp_round it st c r r' c' st1 ls st' :
    solve it c = Ok r -> post it r = Ok r' -> fits r' <> [] -> adding (S it) r' = Ok c' ->
    fits st1 = merge (fits st) (fits r') -> search_milp (S it) st1 (Some c') ls st' ->
    search_milp it st c (fits r' :: ls) st'.
End Milp.

(** The best of round [i] equals the best of what was there before. *)
Definition tie (mx : bool) (base : list (Sol * Z)) (ls : list (list (Sol * Z))) (i : nat) : Prop :=
  exists l p q, nth_error ls i = Some l /\ In p l /\ snd p = snd q /\
    (In q base \/ exists j l', j < i /\ nth_error ls j = Some l' /\ In q l') /\
    (forall q', In q' base -> ~ beats mx (snd q') (snd q)) /\
    (forall q', In q' l -> ~ beats mx (snd q') (snd q)) /\
    forall j l' q', j < i -> nth_error ls j = Some l' -> In q' l' -> ~ beats mx (snd q') (snd q).
(** There were [n] ties since the last record. *)
Definition ties (mx : bool) (base : list (Sol * Z)) (ls : list (list (Sol * Z))) (n : nat) : Prop :=
  exists idx, NoDup idx /\ length idx = n /\
    forall i, In i idx <-> i < length ls /\ tie mx base ls i /\ forall j, i <= j < length ls -> ~ record mx base ls j.
End Spec.
