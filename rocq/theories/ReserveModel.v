(** Model of RCPSPSolution.compute_mean_resource_reserve:
    skdecide/builders/discrete_optimization/rcpsp/rcpsp_model.py:113-151, on the data of SgsModel.v.

    Means and quotients are rationals (the code uses doubles).  Where numpy would give nan or an infinity with a warning
    (mean of an empty list, division by zero) the model has [ZeroDivisionError].  There is no task 0. *)
From Coq Require Import String.
From Coq Require Import List Bool Arith ZArith QArith.
From Verif Require Import Py PyList SgsModel.
Import ListNotations.
Local Open Scope nat_scope.

(** rcpsp_model.py:118-123.  [np.full] of a negative length is a [ValueError]; a negative makespan with a calendar (a
    slice counted from the end) is not modelled and is a [ValueError] too. *)
Definition reserve_init (p : rcpsp) (makespan : Z) : res (list (string * list Z)) :=
  if (makespan <? 0)%Z then Err ValueError
  else Ok match p_res p with
          | Constant r => map (fun kv => (fst kv, repeat (snd kv) (Z.to_nat makespan))) r
          | Calendar r => map (fun kv => (fst kv, firstn (Z.to_nat makespan + 1) (snd kv))) r
          end.

(** [row[t]]: a negative index counts from the end. *)
Definition at_index (row : list Z) (t : Z) : res nat :=
  let i := (if t <? 0 then t + Z.of_nat (length row) else t)%Z in
  if (0 <=? i)%Z && (i <? Z.of_nat (length row))%Z then Ok (Z.to_nat i) else Err IndexError.

(** [resource_avail_in_time[res][t] -= mode_details[act_id][mode][res]]: rcpsp_model.py:137 and 140-141 *)
Definition take (p : rcpsp) (a k : nat) (r : string) (av : list (string * list Z)) (t : Z) : res (list (string * list Z)) :=
  let* row := dgetE av r in
  let* i := at_index row t in
  let* x := lget row i in
  let* n := need_of p a k r in
  Ok (dset av r (lset row i (x - n)%Z)).

(** [range(a, b)] *)
Definition zrange (a b : Z) : list Z := map (fun i => (a + Z.of_nat i)%Z) (seq 0 (Z.to_nat (b - a))).

(** rcpsp_model.py:136-141: one resource at one time *)
Definition reserve_cell (p : rcpsp) (a k : nat) (e makespan t : Z) (av : list (string * list Z)) (r : string)
    : res (list (string * list Z)) :=
  let* av := take p a k r av t in
  if pymem r (p_nonren p) && (t =? e)%Z then foldM (take p a k r) av (zrange (e + 1) makespan) else Ok av.

(** rcpsp_model.py:124-141: one task; the mode is looked up by index, [act_id - 2] *)
Definition reserve_task (p : rcpsp) (modes : list nat) (sch : schedule) (makespan : Z) (av : list (string * list Z)) (a : nat)
    : res (list (string * list Z)) :=
  if (a =? 1) || (a =? p_sink p) then Ok av
  else
    let* se := dgetE sch a in
    match a with
    | 0 => Err IndexError
    | _ =>
        let* k := lget modes (a - 2) in
        foldM (fun av t => foldM (reserve_cell p a k (snd se) makespan t) av (dkeys av)) av (zrange (fst se) (snd se))
    end.

(** [np.mean] *)
Definition sumQ (l : list Q) : Q := fold_right Qplus 0%Q l.
Definition mean (l : list Q) : res Q :=
  match l with [] => Err ZeroDivisionError | _ => Ok (sumQ l / inject_Z (Z.of_nat (length l)))%Q end.
Definition divide (a b : Q) : res Q := if Qeq_bool b 0 then Err ZeroDivisionError else Ok (a / b)%Q.

(** rcpsp_model.py:143-147.  With a calendar the quotient is an array, one number per entry of the calendar of the
    resource, and the mean of the arrays is the mean of all these numbers; calendars of different lengths are not modelled
    ([ValueError]). *)
Definition ratios (p : rcpsp) (av : list (string * list Z)) : res (list Q) :=
  let mean_of r := let* row := dgetE av r in mean (map inject_Z row) in
  match p_res p with
  | Constant c => mapM (fun kv => let* m := mean_of (fst kv) in divide m (inject_Z (snd kv))) c
  | Calendar c =>
      let* ms := mapM (fun kv => let* m := mean_of (fst kv) in Ok (m, snd kv)) c in
      let n := match c with [] => 0 | kv :: _ => length (snd kv) end in
      if forallb (fun kv => length (snd kv) =? n) c then
        let* l := mapM (fun mr => mapM (fun x => divide (fst mr) (inject_Z x)) (snd mr)) ms in Ok (concat l)
      else Err ValueError
  end.

(** compute_mean_resource_reserve; [flag] is [rcpsp_schedule_feasible] *)
Definition mean_reserve (p : rcpsp) (modes : list nat) (sch : schedule) (flag : bool) : res Q :=
  if negb flag then Ok 0%Q
  else
    let* last := max_key (dkeys sch) in
    let* se := dgetE sch last in
    let* av := reserve_init p (snd se) in
    let* av := foldM (reserve_task p modes sch (snd se)) av (dkeys (p_modes p)) in
    let* l := ratios p av in
    mean l.
