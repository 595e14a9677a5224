(** Model of the scheduling problem with helper activities, RCPSP_H_Model:
    skdecide/builders/discrete_optimization/rcpsp/rcpsp_model.py:1081-1188, with the consumption of lines 640-651, on the
    data of SgsModel.v.

    The dictionaries of helpers map the main activity to a list of which only the first element is read: here to that
    element.  The solution is copied with its schedule shared (rcpsp_model.py:81-87), so the schedule returned is also the
    new schedule of the argument; the model returns it.  Resources are numbers; with a calendar (lists) the comparison is a
    [TypeError]. *)
From Coq Require Import String.
From Coq Require Import List Bool Arith ZArith.
From Verif Require Import Py PyList SgsModel ReserveModel ConsModel.
Import ListNotations.
Local Open Scope nat_scope.

(** [min(all_successor_starts)] *)
Definition leastZ (l : list Z) : res Z := match l with [] => Err ValueError | x :: l => Ok (fold_left Z.min l x) end.

(** rcpsp_model.py:1156-1161: the consumption of the helper, in mode 1, is taken out of one row *)
Definition take_out (p : rcpsp) (a : nat) (s e : Z) (rr : string * list Z) : res (list Z) :=
  foldM (fun row t => let* i := at_index row (t + 1) in
                      let* x := lget row i in
                      let* n := need_of p a 1 (fst rr) in
                      Ok (lset row i (x - n)%Z)) (snd rr) (zrange s e).

(** rcpsp_model.py:1173: one time, one resource *)
Definition cap_number (p : rcpsp) (r : string) : res Z :=
  match p_res p with Constant c => dgetE c r | Calendar _ => Err TypeError end.
Definition room (p : rcpsp) (a : nat) (t : Z) (rr : string * list Z) : res bool :=
  let* i := at_index (snd rr) (t + 1) in
  let* x := lget (snd rr) i in
  let* n := need_of p a 1 (fst rr) in
  let* c := cap_number p (fst rr) in
  Ok (x + n <=? c)%Z.
(** rcpsp_model.py:1168-1175: the [break] leaves the loop over the resources only *)
Definition all_room (p : rcpsp) (a : nat) (rows : list (string * list Z)) (s d : Z) : res bool :=
  foldM (fun good t => let* b := allM (room p a t) rows in Ok (good && b)) true (zrange s (s + d)).
(** rcpsp_model.py:1165-1183: [while not stop] *)
Fixpoint seek (fuel : nat) (p : rcpsp) (a : nat) (rows : list (string * list Z)) (d s : Z) : res Z :=
  match fuel with
  | 0 => Err OutOfFuel
  | S fuel => let* b := all_room p a rows s d in if b then Ok s else seek fuel p a rows d (s - 1)
  end.

(** rcpsp_model.py:1138-1183: one helper.  A start below [-(makespan + 2)] raises an exception, hence the fuel. *)
Definition shift (p : rcpsp) (modes : list nat) (sch : schedule) (a : nat) : res schedule :=
  let* l := dgetE (p_succ p) a in
  let* starts := mapM (fun b => let* se := dgetE sch b in Ok (fst se)) l in
  let* latest_end := leastZ starts in
  let* se := dgetE sch a in
  let d := (snd se - fst se)%Z in
  let* ct := consumption p modes sch (res_names p) true in
  let* rows := mapM (take_out p a (fst se) (snd se)) (combine (res_names p) (fst ct)) in
  let* st := seek (Z.to_nat (latest_end - d + Z.of_nat (length (snd ct)) + 3)) p a (combine (res_names p) rows) d (latest_end - d) in
  Ok (dset sch a (st, st + d)%Z).

(** rcpsp_model.py:1127-1134: the helpers by decreasing start, then by decreasing number *)
Definition later_first (x y : Z * nat) : bool := ((fst y <? fst x) || ((fst y =? fst x) && (Z.of_nat (snd y) <=? Z.of_nat (snd x))))%Z.
Definition correction (p : rcpsp) (modes : list nat) (sch : schedule) (pre : list (nat * nat)) : res schedule :=
  let* l := mapM (fun mh => let* se := dgetE sch (snd mh) in Ok (fst se, snd mh)) pre in
  foldM (shift p modes) sch (map snd (ssort later_first l)).

(** rcpsp_model.py:1102-1108: the distance of the helpers to their main activities *)
Definition gap (sch : schedule) (pre post : list (nat * nat)) : res Z :=
  foldM (fun g mh =>
    let* m := dgetE sch (fst mh) in
    let* h := dgetE sch (snd mh) in
    let* q := dgetE post (fst mh) in
    let* k := dgetE sch q in
    Ok (g + ((fst m - snd h) + (fst k - snd m)))%Z) 0%Z pre.
