(** Model of the robust problems: several scenarios of one problem, judged together.
    skdecide/builders/discrete_optimization/generic_tools/do_problem.py:127-191 (MethodAggregating,
    RobustProblem) and skdecide/builders/discrete_optimization/rcpsp/rcpsp_model.py:25-95, 472-600
    (solutions and their evaluation), 874-930 (Aggreg_RCPSPModel), 933-1080 (laws of uncertainty, UncertainRCPSPModel).

    Floating-point numbers are rationals here. *)
From Coq Require Import String.
From Coq Require Import List Bool Arith ZArith QArith Qround.
From Verif Require Import Py PyList SgsModel.
Import ListNotations.
Open Scope nat_scope.

(** BaseMethodAggregating and MethodAggregating: do_problem.py:127-143.  [percentile] is a number of
    [0, 100]; [ponderation] may be [None] (the default). *)
Inductive method :=
| Mean | Median | Percentile (p : Q) | Ponderation (w : option (list Q)) | Min | Max.

Definition qsum (l : list Q) : Q := fold_right Qplus 0%Q l.
Definition qsort (l : list Q) : list Q := ssort Qle_bool l.
(** [l[i]] as a number read by numpy: the index is always inside for the callers below. *)
Definition qlen (l : list Q) : Q := inject_Z (Z.of_nat (length l)).

(** [np.mean] *)
Definition mean (l : list Q) : Q := (qsum l / qlen l)%Q.
(** [np.median]: the middle of the sorted values, or the mean of the two middle ones. *)
Definition median (l : list Q) : res Q :=
  let s := qsort l in
  let n := length s in
  if Nat.even n then
    let* a := lget s (n / 2 - 1) in
    let* b := lget s (n / 2) in
    Ok ((a + b) / 2)%Q
  else lget s (n / 2).
(** [np.percentile(x, q=[p])[0]], with the default linear interpolation. *)
Definition percentile (p : Q) (l : list Q) : res Q :=
  if Qle_bool 0 p && Qle_bool p 100 then
    let s := qsort l in
    let n := length s in
    let pos := (inject_Z (Z.of_nat (n - 1)) * p / 100)%Q in
    let lo := Z.to_nat (Qfloor pos) in
    let frac := (pos - inject_Z (Qfloor pos))%Q in
    let* a := lget s lo in
    let* b := lget s (Nat.min (S lo) (n - 1)) in
    Ok (a + frac * (b - a))%Q
  else Err ValueError.
(** [np.dot(x, ponderation)]: the lengths must agree; [None] is no array of numbers. *)
Definition dot (w : option (list Q)) (l : list Q) : res Q :=
  match w with
  | None => Err TypeError
  | Some w => if length w =? length l
              then Ok (qsum (map (fun xy => fst xy * snd xy)%Q (combine l w)))
              else Err ValueError
  end.
(** [np.min] and [np.max] *)
Definition qmin (x y : Q) : Q := if Qle_bool x y then x else y.
Definition qmax (x y : Q) : Q := if Qle_bool x y then y else x.

(** RobustProblem.aggregate_vector: do_problem.py:155-170.  The vector has one number per scenario;
    it is never empty (do_problem.py:174 reads the first scenario): [np.min] of an empty vector is a
    ValueError, used here for all the methods. *)
Definition aggregate (m : method) (l : list Q) : res Q :=
  match l with
  | [] => Err ValueError
  | x :: r =>
      match m with
      | Mean => Ok (mean l)
      | Median => median l
      | Percentile p => percentile p l
      | Ponderation w => dot w l
      | Min => Ok (fold_left qmin r x)
      | Max => Ok (fold_left qmax r x)
      end
  end.

(** do_problem.py:174-179 and rcpsp_model.py:909-914, 925-930: the objectives are those of the first
    scenario. *)
Definition aggregate_fits (m : method) (fits : list (list (string * Q))) : res (list (string * Q)) :=
  match fits with
  | [] => Err IndexError
  | f :: _ =>
      mapM (fun k => let* vals := mapM (fun fit => dgetE fit k) fits in
                     let* v := aggregate m vals in Ok (k, v)) (dkeys f)
  end.

(** A problem, as far as RobustProblem is concerned: what it returns for a solution. *)
Record problem (S : Type) := Problem {
  evaluate : S -> res (list (string * Q));
  is_satisfied : S -> res bool }.
Arguments Problem {S}. Arguments evaluate {S}. Arguments is_satisfied {S}.

(** RobustProblem.evaluate: do_problem.py:172-179. *)
Definition robust_evaluate {S} (ps : list (problem S)) (m : method) (s : S) : res (list (string * Q)) :=
  let* fits := mapM (fun p => evaluate p s) ps in
  aggregate_fits m fits.
(** RobustProblem.satisfy: do_problem.py:181-182. *)
Definition robust_satisfy {S} (ps : list (problem S)) (s : S) : res bool :=
  match ps with [] => Err IndexError | p :: _ => is_satisfied p s end.

(** * Solutions of scheduling problems *)

(** RCPSPSolution: rcpsp_model.py:25-74.  [s_problem] is [None] when the problem is an
    Aggreg_RCPSPModel.  [s_stale] is [_schedule_to_recompute], [s_feas] is
    [rcpsp_schedule_feasible].  The attribute [standardised_permutation] is not modelled. *)
Record rsol := Rsol {
  s_problem : option rcpsp;
  s_perm : list nat;
  s_modes : list nat;
  s_sched : option schedule;
  s_stale : bool;
  s_feas : option bool }.

(** generate_schedule_from_permutation_serial_sgs on the object: rcpsp_model.py:153-268.  An
    Aggreg_RCPSPModel has no attribute [non_renewable_resources]. *)
Definition generate (s : rsol) : res rsol :=
  match s_problem s with
  | None => Err AttributeError
  | Some p =>
      let* r := serial_sgs p (s_perm s) (s_modes s) in
      Ok (Rsol (Some p) (s_perm s) (fst r) (Some (fst (snd r))) false (Some (snd (snd r))))
  end.

(** The constructor with a permutation and modes: rcpsp_model.py:31-69. *)
Definition new_sol (p : option rcpsp) (perm modes : list nat) (sch : option schedule) (f : option bool)
  : res rsol :=
  let s := Rsol p perm modes sch (match sch with None => true | Some _ => false end) f in
  match sch, p with
  | None, Some _ => generate s
  | _, _ => Ok s
  end.

(** lazy_copy: rcpsp_model.py:89-95.  The list of modes is shared with the copy. *)
Definition lazy_copy (s : rsol) : res rsol :=
  new_sol (s_problem s) (s_perm s) (s_modes s) (s_sched s) (s_feas s).

(** Assigning an attribute: rcpsp_model.py:76-79.  Only a new permutation marks the schedule. *)
Definition set_perm (s : rsol) (perm : list nat) : rsol :=
  Rsol (s_problem s) perm (s_modes s) (s_sched s) true (s_feas s).
Definition set_modes (s : rsol) (modes : list nat) : rsol :=
  Rsol (s_problem s) (s_perm s) modes (s_sched s) (s_stale s) (s_feas s).

Section Reserve.
(** compute_mean_resource_reserve (rcpsp_model.py:113-151; see ReserveModel.v), here any number that depends
    on the problem of the solution, its modes, its schedule and its flag. *)
Variable reserve : option rcpsp -> list nat -> schedule -> option bool -> res Q.

(** RCPSPModel.evaluate and evaluate_function: rcpsp_model.py:518-532.  Note that the schedule is
    generated for the problem of the solution, not for the problem that evaluates.  Returns the
    objectives and the solution, which may have received a schedule. *)
Definition rcpsp_evaluate (s : rsol) : res (list (string * Q) * rsol) :=
  let* s := (if s_stale s then generate s else Ok s) in
  match s_sched s with
  | None => Err AttributeError
  | Some sch =>
      let* last := max_key (dkeys sch) in
      let* se := dgetE sch last in
      let* r := reserve (s_problem s) (s_modes s) sch (s_feas s) in
      Ok ([("makespan"%string, inject_Z (snd se)); ("mean_resource_reserve"%string, r)], s)
  end.

(** One turn of the loop of Aggreg_RCPSPModel.evaluate: rcpsp_model.py:918-924.  The state holds the
    modes of the solution, written through the shared list, and the values so far. *)
Definition aggreg_turn (v : rsol) (st : list nat * list (list (string * Q))) (p : rcpsp)
  : res (list nat * list (list (string * Q))) :=
  let* var := lazy_copy (set_modes v (fst st)) in
  let* r := rcpsp_evaluate (Rsol (Some p) (s_perm var) (s_modes var) None true (s_feas var)) in
  Ok (s_modes (snd r), snd st ++ [fst r]).

(** Aggreg_RCPSPModel.evaluate: rcpsp_model.py:916-930.  Returns the solution as the call leaves it. *)
Definition aggreg_evaluate (ps : list rcpsp) (m : method) (v : rsol) : res (list (string * Q) * rsol) :=
  let* st := foldM (aggreg_turn v) (s_modes v, []) ps in
  let* d := aggregate_fits m (snd st) in
  Ok (d, set_modes v (fst st)).

(** RobustProblem.evaluate over the same scenarios, on a solution object: do_problem.py:172-179.
    The object is handed over as it is. *)
Definition plain_turn (st : rsol * list (list (string * Q))) (p : rcpsp) : res (rsol * list (list (string * Q))) :=
  let* r := rcpsp_evaluate (fst st) in
  Ok (snd r, snd st ++ [fst r]).
Definition plain_evaluate (ps : list rcpsp) (m : method) (v : rsol) : res (list (string * Q) * rsol) :=
  let* st := foldM plain_turn (v, []) ps in
  let* d := aggregate_fits m (snd st) in
  Ok (d, fst st).
End Reserve.

(** Aggreg_RCPSPModel.satisfy is RobustProblem.satisfy: the first scenario looks at the schedule of
    the solution (rcpsp_model.py:542-553): [None.keys()] without one. *)
Definition aggreg_satisfy (ps : list rcpsp) (v : rsol) : res bool :=
  match ps with
  | [] => Err IndexError
  | p :: _ =>
      match s_feas v, s_sched v with
      | Some false, _ => Ok false
      | _, None => Err AttributeError
      | f, Some sch => satisfy p (s_modes v) sch f
      end
  end.

(** * One problem for all the scenarios *)

(** [int(x)]: towards zero. *)
Definition trunc (q : Q) : Z := if Qle_bool 0 q then Qfloor q else Qceiling q.
Definition as_nat (z : Z) : res nat :=
  (** A negative duration is outside of the model (SgsModel.v). *)
  if (z <? 0)%Z then Err ValueError else Ok (Z.to_nat z).

(** [self.list_problem[i].mode_details[job][mode]] *)
Definition mode_entry (p : rcpsp) (a k : nat) : res mode := let* d := dgetE (p_modes p) a in dgetE d k.

(** The inside of the loops of get_unique_rcpsp_model: rcpsp_model.py:896-902.  The entry "duration"
    is a field of its own in the model. *)
Definition unique_mode (ps : list rcpsp) (m : method) (a k : nat) (e : mode) : res mode :=
  let* es := mapM (fun p => mode_entry p a k) ps in
  let* d := aggregate m (map (fun x => inject_Z (Z.of_nat (m_duration x))) es) in
  let* d := as_nat (trunc d) in
  let* need := mapM (fun rv : string * Z =>
                 let* vals := mapM (fun x => dgetE (m_need x) (fst rv)) es in
                 let* v := aggregate m (map inject_Z vals) in
                 Ok (fst rv, trunc v)) (m_need e) in
  Ok (Mode d need).

Definition with_modes (p : rcpsp) (ms : list (nat * list (nat * mode))) : rcpsp :=
  Rcpsp (p_res p) (p_nonren p) ms (p_succ p) (p_horizon p) (p_mult p).

(** Rewriting every entry of [model.mode_details] in place, the keys staying as they are. *)
Definition map_modes (f : nat -> nat -> mode -> res mode) (ms : list (nat * list (nat * mode)))
  : res (list (nat * list (nat * mode))) :=
  mapM (fun ad : nat * list (nat * mode) =>
          let* d := mapM (fun ke : nat * mode => let* e := f (fst ad) (fst ke) (snd ke) in Ok (fst ke, e))
                         (snd ad) in
          Ok (fst ad, d)) ms.

(** get_unique_rcpsp_model: rcpsp_model.py:893-903. *)
Definition unique_model (ps : list rcpsp) (m : method) : res rcpsp :=
  match ps with
  | [] => Err IndexError
  | p :: _ => let* ms := map_modes (unique_mode ps m) (p_modes p) in Ok (with_modes p ms)
  end.

(** * Laws of uncertainty *)

(** create_poisson_laws_duration: rcpsp_model.py:954-970; the range [(min, mean, max)] of one entry. *)
Definition law_duration (p : rcpsp) (range : Z) (a : nat) (duration : Z) : Z * Z * Z :=
  if (a =? 1) || (a =? p_sink p) then (duration, duration, duration)
  else (Z.max 1 (duration - range), duration, duration + range)%Z.
(** create_poisson_laws_resource: rcpsp_model.py:973-998; [None]: no law for a non-renewable resource.
    [min(..., limit_resource[resource])]: a KeyError for a name without capacity, and a TypeError when
    the capacity is a calendar. *)
Definition law_resource (p : rcpsp) (range : Z) (a : nat) (rv : string * Z) : res (option (Z * Z * Z)) :=
  let (r, v) := rv in
  if pymem r (p_nonren p) then Ok None
  else if (a =? 1) || (a =? p_sink p) then Ok (Some (v, v, v))
  else match p_res p with
       | Calendar c => let* _ := dgetE c r in Err TypeError
       | Constant c => let* x := dgetE c r in Ok (Some (Z.max 0 (v - range), v, Z.min (v + range) x)%Z)
       end.

(** create_poisson_laws: rcpsp_model.py:1001-1023, for one entry of [mode_details]: the law of its
    duration and the laws of its resources. *)
Record laws := Laws { l_duration : option (Z * Z * Z); l_need : list (string * (Z * Z * Z)) }.
Definition somes {A} (l : list (option A)) : list A :=
  concat (map (fun o => match o with Some x => [x] | None => [] end) l).
Definition create_laws (p : rcpsp) (range_res range_dur : Z) (do_res do_dur : bool) (a : nat) (e : mode) : res laws :=
  let* need := (if do_res then
                  mapM (fun rv => let* o := law_resource p range_res a rv in
                                  Ok (match o with Some l => Some (fst rv, l) | None => None end)) (m_need e)
                else Ok []) in
  Ok (Laws (if do_dur then Some (law_duration p range_dur a (Z.of_nat (m_duration e))) else None) (somes need)).

(** [np.arange(min_, max_+1, 1)] *)
Definition arange (lo hi : Z) : list Z := map (fun i => lo + Z.of_nat i)%Z (seq 0 (Z.to_nat (hi + 1 - lo))).

(** How an entry is drawn from its law: MethodRobustification, rcpsp_model.py:933-951.  [Sample f]:
    [f] tells which value of the list is drawn for each entry (task, mode, name; "duration" for the
    length): the random draws. *)
Inductive robustification :=
| Average | WorstCase | BestCase | Quantile (p : Q) | Sample (f : nat -> nat -> string -> nat).

Section Laws.
(** [rv.pmf] of the law [(min, mean, max)] at a value: rcpsp_model.py:1043-1053.  Uniform, or
    [poisson(mean)] restricted to the range. *)
Variable pmf : Z * Z * Z -> Z -> Q.

(** The values and their probabilities: rcpsp_model.py:1047-1053. *)
Definition law_probas (l : Z * Z * Z) : list (Z * Q) :=
  let '(lo, _, hi) := l in
  let vs := arange lo hi in
  let total := qsum (map (pmf l) vs) in
  map (fun v => (v, pmf l v / total)%Q) vs.

(** [prob-distribution.mean()] *)
Definition law_mean (d : list (Z * Q)) : Q := qsum (map (fun vp : Z * Q => inject_Z (fst vp) * snd vp)%Q d).
(** [isf(q)] of scipy's discrete laws with [q = 1 - p/100]: the smallest value whose cumulated
    probability reaches [p/100]; [max] when [p] is 100, [min - 1] when [p] is 0, nan outside of
    [0, 100] ([int(nan)] is a ValueError). *)
Fixpoint reach (x acc : Q) (d : list (Z * Q)) : res Z :=
  match d with
  | [] => Err ValueError
  | (v, w) :: r => if Qle_bool x (acc + w)%Q then Ok v else reach x (acc + w)%Q r
  end.
Definition law_quantile (p : Q) (lo hi : Z) (d : list (Z * Q)) : res Z :=
  if negb (Qle_bool 0 p && Qle_bool p 100) then Err ValueError
  else if Qeq_bool p 0 then Ok (lo - 1)%Z
  else if Qeq_bool p 100 then Ok hi
  else reach (p / 100)%Q 0%Q d.

(** The value written for one entry: rcpsp_model.py:1070-1086.  An empty range, or probabilities that
    sum to zero, make the constructor of the law fail (ValueError). *)
Definition draw (how : robustification) (l : Z * Z * Z) (a k : nat) (name : string) : res Z :=
  let '(lo, _, hi) := l in
  let d := law_probas l in
  if (hi <? lo)%Z || Qeq_bool (qsum (map (pmf l) (arange lo hi))) 0 then Err ValueError else
  match how with
  | Average => Ok (trunc (law_mean d))
  | WorstCase => Ok hi
  | BestCase => Ok lo
  | Quantile p => let* v := law_quantile p lo hi d in Ok (Z.max v 1)
  | Sample f => let* v := lget (map fst d) (f a k name) in Ok v
  end.

(** UncertainRCPSPModel.create_rcpsp_model: rcpsp_model.py:1063-1087, for one entry, the laws being
    those of create_poisson_laws: source and sink keep their entries, and so do the entries without
    law. *)
Definition uncertain_mode (p : rcpsp) (ls : nat -> mode -> res laws) (how : robustification) (a k : nat) (e : mode)
  : res mode :=
  let* l := ls a e in
  if (a =? 1) || (a =? p_sink p) then Ok e
  else
    let* d := (match l_duration l with
               | None => Ok (m_duration e)
               | Some x => let* v := draw how x a k "duration"%string in as_nat v
               end) in
    let* need := mapM (fun rv : string * Z =>
                   match dget (l_need l) (fst rv) with
                   | None => Ok rv
                   | Some x => let* v := draw how x a k (fst rv) in Ok (fst rv, v)
                   end) (m_need e) in
    Ok (Mode d need).

Definition uncertain_model (p : rcpsp) (range_res range_dur : Z) (do_res do_dur : bool) (how : robustification)
  : res rcpsp :=
  let* ms := map_modes (uncertain_mode p (create_laws p range_res range_dur do_res do_dur) how) (p_modes p) in
  Ok (with_modes p ms).
End Laws.

(** The uniform law of rcpsp_model.py:1044: [randint(low=min_, high=max_+1).pmf]. *)
Definition uniform (l : Z * Z * Z) (v : Z) : Q :=
  let '(lo, _, hi) := l in
  if (lo <=? v)%Z && (v <=? hi)%Z then (1 / inject_Z (hi + 1 - lo))%Q else 0%Q.
