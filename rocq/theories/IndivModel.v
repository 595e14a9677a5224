(** Model of compute_schedule_per_resource_individual:
    skdecide/builders/discrete_optimization/rcpsp/rcpsp_utils.py:171-273, on the data of SgsModel.v.

    The table [activity] is kept unit by unit (the code has one row per time and one column per unit).  Not modelled:
    [binary_activity] and [activity_last_n_hours], computed from the same cells for the plots, the margins of the boxes
    (0.25 of a unit, 0.01 of a time step), and the messages.  There is no task 0. *)
From Coq Require Import String.
From Coq Require Import List Bool Arith ZArith.
From Verif Require Import Py PyList SgsModel.
Import ListNotations.
Local Open Scope nat_scope.

(** One rectangle of the Gantt chart: unit, start, end, task *)
Record box := Box { b_unit : nat; b_start : Z; b_end : Z; b_task : nat }.
(** [activity] (0 for a free cell), [total_activity], [boxes_time] *)
Record usage := Usage { u_rows : list (list nat); u_total : list Z; u_boxes : list box }.

(** rcpsp_utils.py:183-186: the sorted tasks; the key is an integer, so the sort depends on it only *)
Definition date_key (t : Z) (a : nat) : Z := (100000 * t + Z.of_nat a)%Z.
Definition by_start (sch : schedule) : schedule :=
  ssort (fun x y => (date_key (fst (snd x)) (fst x) <=? date_key (fst (snd y)) (fst y))%Z) sch.
Definition by_end (sch : schedule) : schedule :=
  ssort (fun x y => (date_key (snd (snd x)) (fst x) <=? date_key (snd (snd y)) (fst y))%Z) sch.

(** rcpsp_utils.py:187-188: the first and the last time *)
Definition window (sch : schedule) : res (Z * Z) :=
  match by_end sch with
  | [] => Err IndexError
  | x :: l => Ok (fst (snd x), snd (snd (last l x)))
  end.

(** The number of columns: rcpsp_utils.py:195-197.  [max] of an empty calendar is a [ValueError], and so is a table with a
    negative size. *)
Definition nb_units (p : rcpsp) (r : string) : res nat :=
  let* x := match p_res p with
            | Constant c => dgetE c r
            | Calendar c => let* row := dgetE c r in
                            match row with [] => Err ValueError | x :: l => Ok (fold_left Z.max l x) end
            end in
  if (x <? 0)%Z then Err ValueError else Ok (Z.to_nat x).

(** rcpsp_utils.py:193-211 *)
Definition init_usage (p : rcpsp) (lo hi : Z) (tb : list (string * usage)) (r : string) : res (list (string * usage)) :=
  let* k := nb_units p r in
  if (hi - lo + 1 <? 0)%Z then Err ValueError
  else Ok (dset tb r (Usage (repeat (repeat 0 (Z.to_nat (hi - lo + 1))) k) (repeat 0%Z k) [])).

(** [time_to_index]: rcpsp_utils.py:214-215 *)
Definition time_index (lo hi t : Z) : res nat :=
  if (lo <=? t)%Z && (t <=? hi)%Z then Ok (Z.to_nat (t - lo)) else Err KeyError.

(** [range_interest]: rcpsp_utils.py:229-236; with a calendar the entry of the index of the time, not of the time *)
Definition units_at (p : rcpsp) (lo hi : Z) (r : string) (u : usage) (s : Z) : res (list nat) :=
  match p_res p with
  | Constant _ => Ok (seq 0 (length (u_rows u)))
  | Calendar c => let* row := dgetE c r in let* i := time_index lo hi s in let* x := lget row i in Ok (seq 0 (Z.to_nat x))
  end.

(** rcpsp_utils.py:240-241: is the unit free at the start of the task? *)
Definition is_free (u : usage) (si i : nat) : res bool :=
  let* row := lget (u_rows u) i in let* x := lget row si in Ok (x =? 0).
Definition free_units (u : usage) (si : nat) (range : list nat) : res (list nat) :=
  let* l := mapM (fun i => let* b := is_free u si i in Ok (i, b)) range in Ok (map fst (filter snd l)).

(** rcpsp_utils.py:245-246 [min(..., key=total_activity)]: the first one among the least loaded *)
Definition load (u : usage) (i : nat) : Z := nth i (u_total u) 0%Z.
Definition least (u : usage) (i0 : nat) (l : list nat) : nat :=
  fold_left (fun best i => if (load u i <? load u best)%Z then i else best) l i0.

(** [row[si:ei] = a] *)
Definition paint (si ei a : nat) (row : list nat) : list nat :=
  map (fun jx => if (si <=? fst jx) && (fst jx <? ei) then a else snd jx) (combine (seq 0 (length row)) row).

(** rcpsp_utils.py:249-262: the unit is given to the task *)
Definition give (u : usage) (i si ei : nat) (a : nat) (s e : Z) : res usage :=
  let* row := lget (u_rows u) i in
  let* x := lget (u_total u) i in
  Ok (Usage (lset (u_rows u) i (paint si ei a row)) (lset (u_total u) i (x + (e - s))%Z) (u_boxes u ++ [Box i s e a])).

(** rcpsp_utils.py:237-271: the loop on the units still needed; without free unit the rest is given up *)
Fixpoint serve (lo hi : Z) (range : list nat) (a : nat) (s e : Z) (needed : nat) (u : usage) : res usage :=
  match needed with
  | 0 => Ok u
  | S needed' =>
      let* si := time_index lo hi s in
      let* l := free_units u si range in
      match l with
      | [] => Ok u
      | i0 :: l =>
          let* ei := time_index lo hi e in
          let* u' := give u (least u i0 l) si ei a s e in
          serve lo hi range a s e needed' u'
      end
  end.

(** rcpsp_utils.py:226-236 *)
Definition serve_resource (p : rcpsp) (lo hi : Z) (a : nat) (s e : Z) (tb : list (string * usage)) (rn : string * Z)
    : res (list (string * usage)) :=
  match dget tb (fst rn) with
  | None => Ok tb
  | Some u =>
      let* range := units_at p lo hi (fst rn) u s in
      let* u' := serve lo hi range a s e (Z.to_nat (snd rn)) u in
      Ok (dset tb (fst rn) u')
  end.

(** rcpsp_utils.py:217-225: one task *)
Definition serve_task (p : rcpsp) (modes : list nat) (rs : list string) (lo hi : Z) (tb : list (string * usage))
    (x : nat * (Z * Z)) : res (list (string * usage)) :=
  let '(a, (s, e)) := x in
  match a with
  | 0 => Err IndexError
  | S i =>
      let* k := lget (1 :: modes ++ [1]) i in
      if (e =? s)%Z then Ok tb
      else
        let* needs := foldM (fun d r => let* n := need_of p a k r in Ok (dset d r n)) [] rs in
        foldM (serve_resource p lo hi a s e) tb needs
  end.

(** compute_schedule_per_resource_individual; [rs] is [resource_types_to_consider], by default all the resources *)
Definition per_individual (p : rcpsp) (modes : list nat) (sch : schedule) (rs : list string) : res (list (string * usage)) :=
  let* w := window sch in
  let* tb := foldM (init_usage p (fst w) (snd w)) [] rs in
  foldM (serve_task p modes rs (fst w) (snd w)) tb (by_start sch).
