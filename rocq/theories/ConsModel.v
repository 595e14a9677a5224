(** Model of the resource views of a schedule, on the data of SgsModel.v:
    skdecide/builders/discrete_optimization/rcpsp/rcpsp_utils.py:14-57 (compute_resource_consumption,
    compute_nice_resource_consumption), 356-363 (all_diff_start_time) and 366-388 (compute_graph_rcpsp).

    The matrices of numpy hold doubles, here integers.  There is no task 0. *)
From Coq Require Import String.
From Coq Require Import List Bool Arith ZArith.
From Verif Require Import Py PyList SgsModel.
Import ListNotations.
Local Open Scope nat_scope.

(** The bounds of a slice of a row of length [len]: a negative bound counts from the end. *)
Definition clip (len : nat) (i : Z) : nat :=
  if (i <? 0)%Z then Z.to_nat (i + Z.of_nat len) else Nat.min (Z.to_nat i) len.
(** [row[a:b] += x] *)
Definition add_slice (a b : Z) (x : Z) (row : list Z) : list Z :=
  map (fun jy => if (clip (length row) a <=? fst jy) && (fst jy <? clip (length row) b) then (snd jy + x)%Z else snd jy)
    (combine (seq 0 (length row)) row).

(** rcpsp_utils.py:27-33: one resource of one task *)
Definition add_use (p : rcpsp) (a k : nat) (s e : Z) (future : bool) (rr : string * list Z) : res (list Z) :=
  let* x := need_of p a k (fst rr) in
  Ok (if future then add_slice (s + 1) (e + 1) x (snd rr) else add_slice s e x (snd rr)).

(** rcpsp_utils.py:26-33: one task; the mode is looked up in [modes_extended] at [act_id - 1], once per resource *)
Definition add_task (p : rcpsp) (modes : list nat) (rs : list string) (future : bool) (rows : list (list Z)) (x : nat * (Z * Z))
    : res (list (list Z)) :=
  let '(a, (s, e)) := x in
  match rs, a with
  | [], _ => Ok rows
  | _, 0 => Err IndexError
  | _, S i => let* k := lget (1 :: modes ++ [1]) i in mapM (add_use p a k s e future) (combine rs rows)
  end.

(** compute_resource_consumption: the matrix and the times; a negative size is a [ValueError] *)
Definition consumption (p : rcpsp) (modes : list nat) (sch : schedule) (rs : list string) (future : bool)
    : res (list (list Z) * list Z) :=
  let* last := max_key (dkeys sch) in
  let* se := dgetE sch last in
  let n := (snd se + 1)%Z in
  if (n <? 0)%Z then Err ValueError
  else
    let* rows := foldM (add_task p modes rs future) (repeat (repeat 0%Z (Z.to_nat n)) (length rs)) sch in
    Ok (rows, map Z.of_nat (seq 0 (Z.to_nat n))).

(** rcpsp_utils.py:49-52: one resource *)
Definition merge_row (times : list Z) (future past : list Z) : res (list Z * list Z) :=
  let* l := mapM (fun it => let* f := lget future (fst it) in let* q := lget past (fst it) in Ok ([snd it; snd it], [f; q]))
              (combine (seq 0 (length times)) times) in
  Ok (concat (map fst l), concat (map snd l)).

(** compute_nice_resource_consumption: per resource, the times and the values of a staircase *)
Definition nice (p : rcpsp) (modes : list nat) (sch : schedule) (rs : list string) : res (list (list Z * list Z)) :=
  let* f := consumption p modes sch rs true in
  let* q := consumption p modes sch rs false in
  mapM (fun i => let* rf := lget (fst f) i in let* rq := lget (fst q) i in merge_row (snd q) rf rq) (seq 0 (length rs)).

(** all_diff_start_time *)
Definition all_diff (sch1 sch2 : schedule) : res (list (nat * Z)) :=
  foldM (fun d a => let* x := dgetE sch1 a in let* y := dgetE sch2 a in Ok (dset d a (fst x - fst y)%Z)) [] (dkeys sch1).

(** rcpsp_utils.py:366-388, the edges with the attributes [min_duration] and [max_duration] (the other attributes are the
    durations by mode, the opposite numbers and the constant 1) *)
Definition least_of (l : list nat) : res nat := match l with [] => Err ValueError | x :: l => Ok (fold_left Nat.min l x) end.
Definition most_of (l : list nat) : res nat := match l with [] => Err ValueError | x :: l => Ok (fold_left Nat.max l x) end.
Definition graph_edges (p : rcpsp) : res (list (nat * nat * (nat * nat))) :=
  let* l := mapM (fun al => mapM (fun b =>
              let* d := dgetE (p_modes p) (fst al) in
              let* lo := least_of (map (fun km => m_duration (snd km)) d) in
              let* hi := most_of (map (fun km => m_duration (snd km)) d) in
              Ok (fst al, b, (lo, hi))) (snd al)) (p_succ p) in
  Ok (concat l).
