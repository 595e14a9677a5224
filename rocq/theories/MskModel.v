(** Model of multi-skill project scheduling:
    skdecide/builders/discrete_optimization/rcpsp_multiskill/rcpsp_multiskill.py.

    The resource part of the file repeats rcpsp_model.py, so the definitions of SgsModel are used for
    the steps that are the same text; the lines cited are those of rcpsp_multiskill.py.  As there:
    task identifiers are [nat], 1 is the source and [len(mode_details)] the sink of the generation
    scheme; durations, the horizon and the times of the generation scheme are [nat]; amounts are
    integers.  [skill_value] is a float in Python and an integer here (any finite set of decimal
    values can be scaled to integers). *)
From Coq Require Import String.
From Coq Require Import List Bool Arith ZArith.
From Verif Require Import Py PyList SgsModel.
Import ListNotations.

(** Employee: 324-332.  [salary], [efficiency_ratio] and [experience] are not used by the functions
    modelled. *)
Record employee := Emp { e_skill : list (string * Z); e_cal : list bool }.

(** MS_RCPSPModel: 364-399.  [ms_base] holds [resources_availability] (as a [Calendar], restricted to
    [resources_set]), [non_renewable_resources], [mode_details], [successors], [horizon] and
    [horizon_multiplier].  The two sets are lists in an order that stands for the iteration order. *)
Record ms := Ms {
  ms_base : rcpsp;
  ms_skills : list string;
  ms_emps : list (nat * employee);
  ms_sink : nat;
  ms_source : nat;
  ms_one : bool }.

(** [max(l)] and [min(l)] *)
Definition min_key (l : list nat) : res nat :=
  match l with [] => Err ValueError | x :: l => Ok (fold_left Nat.min l x) end.

(** MS_RCPSPModel.__init__: 364-399 *)
Definition ms_new (base : rcpsp) (skills : list string) (emps : list (nat * employee))
  (sink source : option nat) (one : bool) : res ms :=
  let* sk := match sink with Some k => Ok k | None => max_key (dkeys (p_modes base)) end in
  let* so := match source with Some k => Ok k | None => min_key (dkeys (p_modes base)) end in
  Ok (Ms base skills emps sk so one).

(** MS_RCPSPModel.copy (586-596): the sink, the source and [one_unit_per_task_max] are not passed. *)
Definition ms_copy (x : ms) : res ms := ms_new (ms_base x) (ms_skills x) (ms_emps x) None None false.

(** MS_RCPSPModel_Variant.__init__ (618-645): the last three arguments are ignored. *)
Definition variant_new (base : rcpsp) (skills : list string) (emps : list (nat * employee))
  (sink source : option nat) (one : bool) : res ms := ms_new base skills emps None None false.

(** MS_RCPSPModel.to_variant_model: 598-609 *)
Definition to_variant_model (x : ms) : res ms :=
  variant_new (ms_base x) (ms_skills x) (ms_emps x) None None (ms_one x).

(** [self.tasks]: 398 *)
Definition ms_tasks (x : ms) : list nat := ssort Nat.leb (dkeys (p_modes (ms_base x))).

(** [required_skills]: 207-209 and 475-477 *)
Definition required (x : ms) (m : mode) : list (string * Z) :=
  filter (fun kv : string * Z => pymem (fst kv) (ms_skills x) && (0 <? snd kv)%Z) (m_need m).

(** * The generation scheme *)

(** Lines 191-203, one time step: the loop stops at the first resource that does not fit.  The pair
    is [(valid, unfeasible_non_renewable_resources)]. *)
Fixpoint mscan_res (p : rcpsp) (av : list (string * list Z)) (m : mode) (t : nat) (rs : list string)
  : res (bool * bool) :=
  match rs with
  | [] => Ok (true, false)
  | r :: rs =>
      if t <? new_horizon p then
        let* row := dgetE av r in
        let* x := lget row t in
        let* n := dgetE (m_need m) r in
        if (x <? n)%Z then Ok (false, false) else mscan_res p av m t rs
      else Ok (false, true)
  end.

(** Lines 189-205 *)
Fixpoint mscan (p : rcpsp) (av : list (string * list Z)) (m : mode) (ts : list nat) : res (bool * bool) :=
  match ts with
  | [] => Ok (true, false)
  | t :: ts =>
      let* vb := mscan_res p av m t (dkeys av) in
      if fst vb then mscan p av m ts else Ok vb
  end.

(** Lines 212-213: [all] stops at the first time step at which the worker is not available. *)
Fixpoint free_workers (ts : list nat) (wav : list (nat * list bool)) : res (list nat) :=
  match wav with
  | [] => Ok []
  | (w, row) :: wav =>
      let* b := allM (fun t => lget row t) ts in
      let* ws := free_workers ts wav in
      Ok (if b then w :: ws else ws)
  end.

(** Lines 218-220: the worker has every required skill at the required level. *)
Definition capable (e : employee) (req : list (string * Z)) : bool :=
  forallb (fun kv : string * Z =>
    match dget (e_skill e) (fst kv) with Some v => (snd kv <=? v)%Z | None => false end) req.

(** Lines 217-225: the first capable worker. *)
Fixpoint first_capable (x : ms) (req : list (string * Z)) (ws : list nat) : res (option nat) :=
  match ws with
  | [] => Ok None
  | w :: ws => let* e := dgetE (ms_emps x) w in
               if capable e req then Ok (Some w) else first_capable x req ws
  end.

(** Lines 230-232, one skill: [sum([employees[w].dict_skill[s].skill_value ...])]. *)
Definition level (x : ms) (ws : list nat) (s : string) : res Z :=
  foldM (fun z w => let* e := dgetE (ms_emps x) w in
                    Ok (match dget (e_skill e) s with Some v => z + v | None => z end)%Z) 0%Z ws.

(** Lines 206-234: is there a team, and [worker_ids] ([None] when no skill is required). *)
Definition team (x : ms) (wav : list (nat * list bool)) (m : mode) (ts : list nat)
  : res (bool * option (list nat)) :=
  let req := required x m in
  match req with
  | [] => Ok (true, None)
  | _ =>
      let* ws := free_workers ts wav in
      if ms_one x then
        let* f := first_capable x req ws in
        Ok (match f with Some w => (true, Some [w]) | None => (false, Some ws) end)
      else
        let* ok := allM (fun kv : string * Z => let* v := level x ws (fst kv) in Ok (snd kv <=? v)%Z) req in
        Ok (ok, Some ws)
  end.

(** How the search for a start ends. *)
Inductive found :=
| Start (c : nat) (bad : bool) (ws : option (list nat))  (* valid *)
| Too_late (bad : bool).                                  (* unfeasible_in_horizon *)

(** [while not valid]: 179-239.  A time step [t >= new_horizon] sets the flag of the non-renewable
    resources (line 200) and the search goes on. *)
Fixpoint msearch (fuel : nat) (x : ms) (av : list (string * list Z)) (wav : list (nat * list bool))
  (m : mode) (bad : bool) (c : nat) : res found :=
  match fuel with
  | 0 => Err OutOfFuel
  | S fuel =>
      let p := ms_base x in
      if p_horizon p <=? c + m_duration m then Ok (Too_late bad) else
      let ts := seq c (m_duration m) in
      let* vb := mscan p av m ts in
      let bad' := bad || snd vb in
      let* vw := if fst vb then team x wav m ts else Ok (false, None) in
      let c' := if fst vw then c else c + 1 in
      if new_horizon p <? c' then Ok (Too_late bad')
      else if fst vw then Ok (Start c bad' (snd vw))
      else msearch fuel x av wav m bad' c'
  end.

(** Lines 271-274: the worker is taken for the duration of the task. *)
Definition take_worker (wav : list (nat * list bool)) (w : nat) (ts : list nat)
  : res (list (nat * list bool)) :=
  let* row := dgetE wav w in
  let* row' := foldM (fun row t => lput row t false) row ts in
  Ok (dset wav w row').

(** Lines 263-270: the skills of one worker are added to the team; [use] is [employee_usage[act_id]]
    (empty while that key is absent). *)
Definition add_skill (w : nat) (s : list (string * Z) * list (nat * list string)) (kv : string * Z)
  : list (string * Z) * list (nat * list string) :=
  match dget (fst s) (fst kv) with
  | None => s
  | Some v =>
      let old := match dget (snd s) w with Some l => l | None => [] end in
      (dset (fst s) (fst kv) (v + snd kv)%Z, dset (snd s) w (pyadd old (fst kv)))
  end.

(** Line 275: [all(current_skills[s] >= required_skills[s] for s in required_skills)] *)
Definition met (req cur : list (string * Z)) : res bool :=
  allM (fun kv : string * Z => let* v := dgetE cur (fst kv) in Ok (snd kv <=? v)%Z) req.

(** Lines 260-276: the workers are taken in the order of the priority list until the skills are met. *)
Fixpoint assign (x : ms) (req : list (string * Z)) (ws : list nat) (ts : list nat) (prio : list nat)
  (cur : list (string * Z)) (use : list (nat * list string)) (wav : list (nat * list bool))
  : res (list (nat * list string) * list (nat * list bool)) :=
  match prio with
  | [] => Ok (use, wav)
  | w :: prio =>
      let* s := if pymem w ws then
                  let* e := dgetE (ms_emps x) w in
                  let cu := fold_left (add_skill w) (e_skill e) (cur, use) in
                  let* wav' := take_worker wav w ts in
                  Ok (fst cu, snd cu, wav')
                else Ok (cur, use, wav) in
      let '(cur', use', wav') := s in
      let* b := met req cur' in
      if b then Ok (use', wav') else assign x req ws ts prio cur' use' wav'
  end.

(** [employee_usage]: [{task: {employee: set of skills}}] *)
Definition usage := list (nat * list (nat * list string)).

(** Lines 256-276.  [priority_worker_per_task[act_id-2]] with Python's negative indices. *)
Definition staff (x : ms) (prios : list (list nat)) (a : nat) (m : mode) (c : nat)
  (ws : option (list nat)) (eu : usage) (wav : list (nat * list bool))
  : res (usage * list (nat * list bool)) :=
  match ws with
  | None => Ok (eu, wav)
  | Some ws =>
      let* prio := zget prios (Z.of_nat a - 2)%Z in
      let req := required x m in
      let use0 := match dget eu a with Some u => u | None => [] end in
      let* uw := assign x req ws (seq c (m_duration m)) prio (map (fun kv => (fst kv, 0%Z)) req) use0 wav in
      Ok (match fst uw with [] => eu | u => dset eu a u end, snd uw)
  end.

(** The variables of the main loop. *)
Record mstate := MS {
  h_avail : list (string * list Z);
  h_wav : list (nat * list bool);    (* worker_avail_in_time *)
  h_min : list (nat * nat);
  h_perm : list nat;
  h_ends : list (nat * nat);
  h_use : usage;
  h_bad : bool;                      (* unfeasible_non_renewable_resources *)
  h_late : bool }.                   (* unfeasible_in_horizon *)

(** One turn of the main loop: 160-283.  When no task qualifies [act_id] is [None] and
    [minimum_starting_time[None]] raises [KeyError]. *)
Definition ms_step (x : ms) (modes : list nat) (prios : list (list nat)) (g : mstate) : res mstate :=
  let p := ms_base x in
  match next_act p (h_perm g) with
  | None => Err KeyError
  | Some a =>
      let* c0 := dgetE (h_min g) a in
      let* m := mode_of p modes a in
      let* f := msearch (S (p_horizon p)) x (h_avail g) (h_wav g) m false c0 in
      match f with
      | Too_late bad => Ok (MS (h_avail g) (h_wav g) (h_min g) (h_perm g) (h_ends g) (h_use g) bad true)
      | Start c true ws => Ok (MS (h_avail g) (h_wav g) (h_min g) (h_perm g) (h_ends g) (h_use g) true false)
      | Start c false ws =>
          let* ab := book p (h_avail g) m c in
          let* uw := staff x prios a m c ws (h_use g) (h_wav g) in
          let e := c + m_duration m in
          let* succs := dgetE (p_succ p) a in
          let* mins := foldM (raise_min e) (h_min g) succs in
          Ok (MS (fst ab) (snd uw) mins (pyremove a (h_perm g)) (dset (h_ends g) a e) (fst uw) (snd ab) false)
      end
  end.

(** Line 160 *)
Fixpoint ms_loop (fuel : nat) (x : ms) (modes : list nat) (prios : list (list nat)) (g : mstate) : res mstate :=
  match h_perm g with
  | [] => Ok g
  | _ =>
      if h_bad g || h_late g then Ok g else
      match fuel with
      | 0 => Err OutOfFuel
      | S fuel => let* g' := ms_step x modes prios g in ms_loop fuel x modes prios g'
      end
  end.

(** Lines 292-300: the schedule returned when no complete one was found gets a marker for the last
    task. *)
Definition ms_finish (p : rcpsp) (fail : bool) (sch : schedule) : res schedule :=
  if fail then
    let* last := max_key (dkeys (p_succ p)) in
    Ok (if dmem sch last then sch else dset sch last (99999999, 9999999)%Z)
  else Ok sch.

(** [modes_dict]: line 150, built before the modes are corrected. *)
Definition modes_dict (modes : list nat) : list (nat * nat) :=
  let me := extend_modes modes in combine (seq 1 (length me)) me.

(** A solution: [schedule], [modes] and [employee_usage] (25-34). *)
Record msol := Msol { s_sch : schedule; s_modes : list (nat * nat); s_use : usage }.

(** sgs_multi_skill (122-303) and MS_RCPSPSolution_Variant.do_recompute (105-110). *)
Definition sgs_multi_skill (x : ms) (perm modes : list nat) (prios : list (list nat)) : res msol :=
  let p := ms_base x in
  let mins := map (fun a => (a, 0)) (dkeys (p_succ p)) in
  let pe := extend_perm p perm in
  let* me := fix_modes p modes in
  let wav := map (fun we : nat * employee => (fst we, e_cal (snd we))) (ms_emps x) in
  let* g := ms_loop (length pe) x me prios (MS (avail_init p) wav mins pe [] [] false false) in
  let* sch := make_schedule p me (h_ends g) in
  let* sch' := ms_finish p (h_bad g || h_late g) sch in
  Ok (Msol sch' (modes_dict modes) (h_use g)).

(** MS_RCPSPModel_Variant.get_dummy_solution: 684-690 *)
Definition dummy_solution (x : ms) : res msol :=
  let n := p_sink (ms_base x) - 2 in
  sgs_multi_skill x (seq 0 n) (repeat 1 n) (repeat (dkeys (ms_emps x)) n).

(** * Checking a solution: MS_RCPSPModel.satisfy, 469-559 *)

(** [self.mode_details[task][mode]] *)
Definition mode_at (x : ms) (sol : msol) (a : nat) : res mode :=
  let* k := dgetE (s_modes sol) a in
  let* d := dgetE (p_modes (ms_base x)) a in
  dgetE d k.

(** Lines 481-484: the level of the employees of the task for which the skill is recorded. *)
Definition used_level (x : ms) (u : list (nat * list string)) (s : string) : res Z :=
  foldM (fun z (es : nat * list string) =>
    if pymem s (snd es) then
      let* e := dgetE (ms_emps x) (fst es) in
      let* v := dgetE (e_skill e) s in
      Ok (z + v)%Z
    else Ok z) 0%Z u.

(** Lines 474-502.  Times may be negative here, and Python's indices too.  The message of line 498
    reads the calendar over the whole task. *)
Definition zrange (s e : Z) : list Z := map (fun i => (s + Z.of_nat i)%Z) (seq 0 (Z.to_nat (e - s))).
Definition check_task (x : ms) (sol : msol) (a : nat) : res bool :=
  let* m := mode_at x sol a in
  let* ok := allM (fun kv : string * Z =>
               let* u := dgetE (s_use sol) a in
               let* v := used_level x u (fst kv) in Ok (snd kv <=? v)%Z) (required x m) in
  if ok then
    match dget (s_use sol) a with
    | None => Ok true
    | Some u =>
        allM (fun es : nat * list string =>
          let* e := dgetE (ms_emps x) (fst es) in
          let* se := dgetE (s_sch sol) a in
          let ts := zrange (fst se) (snd se) in
          let* b := allM (zget (e_cal e)) ts in
          if b then Ok true else let* _ := mapM (zget (e_cal e)) ts in Ok false) u
    end
  else Ok false.

(** [intersect]: 340-347 *)
Definition intersect (i1 i2 : Z * Z) : option (Z * Z) :=
  if (snd i1 <=? fst i2)%Z || (snd i2 <=? fst i1)%Z then None
  else Some (Z.max (fst i1) (fst i2), Z.min (snd i1) (snd i2)).

(** Lines 503-513, one pair of tasks.  In Python the list of all overlaps is computed first. *)
Definition overlap (sol : msol) (ab : nat * nat) : res bool :=
  if fst ab <? snd ab then
    let* s1 := dgetE (s_sch sol) (fst ab) in
    let* s2 := dgetE (s_sch sol) (snd ab) in
    Ok (match intersect s1 s2 with Some _ => true | None => false end)
  else Ok false.
Definition users (sol : msol) (a : nat) : list nat :=
  match dget (s_use sol) a with Some u => dkeys u | None => [] end.
Definition share (sol : msol) (ab : nat * nat) : bool :=
  existsb (fun k => pymem k (users sol (snd ab))) (users sol (fst ab)).
Definition check_overlaps (x : ms) (sol : msol) : res bool :=
  let pairs := list_prod (ms_tasks x) (ms_tasks x) in
  let* os := mapM (overlap sol) pairs in
  Ok (forallb (fun bo : (nat * nat) * bool => negb (snd bo && share sol (fst bo))) (combine pairs os)).

(** Lines 516-538, one time step. *)
Definition ms_add_usage (x : ms) (sol : msol) (t : Z) (u : list (string * Z)) (a : nat)
  : res (list (string * Z)) :=
  let* se := dgetE (s_sch sol) a in
  let* k := dgetE (s_modes sol) a in
  if (fst se <=? t)%Z && (t <? snd se)%Z then
    foldM (fun u r => let* z := dgetE u r in let* n := need_of (ms_base x) a k r in Ok (dset u r (z + n)%Z))
          u (res_names (ms_base x))
  else Ok u.
Definition ms_check_time (x : ms) (sol : msol) (t : nat) : res bool :=
  let p := ms_base x in
  let* u := foldM (ms_add_usage x sol (Z.of_nat t)) (map (fun r => (r, 0%Z)) (res_names p)) (ms_tasks x) in
  allM (fun r => let* z := dgetE u r in let* c := capacity_at p r t in Ok (z <=? c)%Z) (res_names p).

(** Lines 541-549 *)
Definition ms_check_nonren (x : ms) (sol : msol) (r : string) : res bool :=
  let p := ms_base x in
  let* u := foldM (fun u a => let* k := dgetE (s_modes sol) a in
                              let* n := need_of p a k r in Ok (u + n)%Z) 0%Z (ms_tasks x) in
  let* c := capacity_at p r 0 in
  Ok (u <=? c)%Z.

(** MS_RCPSPModel.satisfy: 469-559 *)
Definition ms_satisfy (x : ms) (sol : msol) : res bool :=
  let p := ms_base x in
  if negb (length (s_sch sol) =? length (p_modes p)) then Ok false else
  let* ok := allM (check_task x sol) (ms_tasks x) in
  if negb ok then Ok false else
  let* ok := check_overlaps x sol in
  if negb ok then Ok false else
  let* se := dgetE (s_sch sol) (ms_sink x) in
  let* ok := allM (ms_check_time x sol) (seq 0 (Z.to_nat (snd se))) in
  if negb ok then Ok false else
  let* ok := allM (ms_check_nonren x sol) (p_nonren p) in
  if negb ok then Ok false else
  allM (check_prec p (s_sch sol)) (p_succ p).

(** MS_RCPSPModel.evaluate: 450-460.  The fitness of evaluate_mobj_from_dict (465-467) is its
    opposite. *)
Definition ms_evaluate (x : ms) (sol : msol) : res Z :=
  let* se := dgetE (s_sch sol) (ms_sink x) in Ok (snd se).

(** * From a solution to priorities: schedule_solution_to_variant, 45-64 *)
Definition by_start (sch : schedule) (a b : nat) : bool :=
  match dget sch a, dget sch b with
  | Some sa, Some sb => (fst sa <=? fst sb)%Z
  | _, _ => true
  end.
Definition py_remove (a : nat) (l : list nat) : res (list nat) :=
  if pymem a l then Ok (pyremove a l) else Err ValueError.
(** The workers recorded for the task first, then the others. *)
Definition worker_order (x : ms) (sol : msol) (a : nat) : list nat :=
  let w := users sol a in w ++ filter (fun k => negb (pymem k w)) (dkeys (ms_emps x)).
(** [p - 2] is negative for a task 1 that is not the source; the priorities are integers. *)
Definition inner_tasks (x : ms) : list nat := removelast (tl (ms_tasks x)).
Definition to_variant (x : ms) (sol : msol) : res (list Z * (list nat * list (list nat))) :=
  let* l1 := py_remove (ms_source x) (ssort (by_start (s_sch sol)) (dkeys (s_sch sol))) in
  let* l2 := py_remove (ms_sink x) l1 in
  let* ms := mapM (dgetE (s_modes sol)) (inner_tasks x) in
  Ok (map (fun a => (Z.of_nat a - 2)%Z) l2, (ms, map (worker_order x sol) (inner_tasks x))).

(** * Priorities of workers from a permutation: 728-736, 759-772.  [scipy.stats.rankdata] gives tied
    values the average of their ranks, here only used on vectors without ties: the rank is one plus
    the number of smaller values. *)
Definition rank_of (l : list Z) (v : Z) : nat := S (length (filter (fun y => (y <? v)%Z) l)).
Definition row_of (perm : list Z) (w i : nat) : res (list nat) :=
  let* tmp := mapM (fun j => lget perm (i * w + j)) (seq 0 w) in
  Ok (map (rank_of tmp) tmp).
Definition prios_of_perm (x : ms) (perm : list Z) : res (list (list nat)) :=
  mapM (row_of perm (length (ms_emps x))) (seq 0 (p_sink (ms_base x) - 2)).
