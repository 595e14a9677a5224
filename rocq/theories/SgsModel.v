(** Model of resource-constrained project scheduling:
    skdecide/builders/discrete_optimization/rcpsp/rcpsp_model.py.

    Task identifiers are positive integers (here [nat]): 1 is the source, [len(mode_details)] the
    sink.  Durations, horizons and the times inside the generation scheme are non-negative
    integers ([nat]); a negative duration makes Python's [range] empty and is not modelled.
    Amounts of resources are integers.  The times of a schedule are integers ([Z]), because the
    schedules checked by [satisfy] may come from anywhere. *)
From Coq Require Import String.
From Coq Require Import List Bool Arith ZArith.
From Verif Require Import Py PyList.
Import ListNotations.

(** One entry [mode_details[task][mode]]: rcpsp_model.py:478-479.  The Python dictionary mixes the
    key "duration" with the resource names; here the duration is a separate field, so a resource
    called "duration" is not modelled. *)
Record mode := Mode { m_duration : nat; m_need : list (string * Z) }.

(** [resources]: a number per resource (RCPSPModel, rcpsp_model.py:474) or a list of availabilities
    per time step (RCPSPModelCalendar, rcpsp_model.py:691). *)
Inductive capacities :=
| Constant (r : list (string * Z))
| Calendar (r : list (string * list Z)).

(** RCPSPModel.__init__: rcpsp_model.py:481-499.  [n_jobs = len(mode_details) - 2], so the sink
    [n_jobs + 2] is [length p_modes].  [name_task] is not used by the modelled functions. *)
Record rcpsp := Rcpsp {
  p_res : capacities;
  p_nonren : list string;
  p_modes : list (nat * list (nat * mode));
  p_succ : list (nat * list nat);
  p_horizon : nat;
  p_mult : nat }.

Definition p_sink (p : rcpsp) : nat := length (p_modes p).
(** [new_horizon = horizon * horizon_multiplier]: rcpsp_model.py:158. *)
Definition new_horizon (p : rcpsp) : nat := p_horizon p * p_mult p.

(** [resources.keys()] *)
Definition res_names (p : rcpsp) : list string :=
  match p_res p with Constant r => dkeys r | Calendar r => dkeys r end.

(** [resource_avail_in_time] at the start: rcpsp_model.py:161-166.  [list[:n]] never raises and
    may be shorter than [n]. *)
Definition avail_init (p : rcpsp) : list (string * list Z) :=
  match p_res p with
  | Constant r => map (fun kv => (fst kv, repeat (snd kv) (new_horizon p))) r
  | Calendar r => map (fun kv => (fst kv, firstn (new_horizon p + 1) (snd kv))) r
  end.

(** [mode_details[act_id][modes_extended[act_id-1]]]: e.g. rcpsp_model.py:214.  [act_id - 1] with
    [act_id = 0] would be Python's index -1; there is no task 0, so it is an [IndexError] here. *)
Definition mode_of (p : rcpsp) (modes : list nat) (a : nat) : res mode :=
  let* d := dgetE (p_modes p) a in
  match a with
  | 0 => Err IndexError
  | S i => let* m := lget modes i in dgetE d m
  end.

(** [modes_extended.insert(0, 1); modes_extended.append(1)]: rcpsp_model.py:176-178. *)
Definition extend_modes (modes : list nat) : list nat := 1 :: modes ++ [1].

(** "fix modes in case specified mode not in mode details": rcpsp_model.py:182-188.  The Python code
    also writes the corrected modes back into [self.rcpsp_modes]: here that list is the inside of
    the returned one ([fixed_modes]). *)
Definition fix_modes (p : rcpsp) (modes : list nat) : res (list nat) :=
  let me := extend_modes modes in
  mapM (fun im : nat * nat =>
          let* d := dgetE (p_modes p) (fst im + 1) in
          Ok (if dmem d (snd im) then snd im else 1))
       (combine (seq 0 (length me)) me).
Definition fixed_modes (modes_extended : list nat) : list nat := removelast (tl modes_extended).

(** [perm_extended]: rcpsp_model.py:172-174. *)
Definition extend_perm (p : rcpsp) (perm : list nat) : list nat :=
  1 :: map (fun x => x + 2) perm ++ [p_sink p].

(** "get first activity in perm with precedences respected": rcpsp_model.py:195-203.  [None] when no
    activity qualifies: the variable [act_id] then keeps its previous value. *)
Definition ready (succ : list (nat * list nat)) (perm : list nat) (a : nat) : bool :=
  negb (existsb (fun kv : nat * list nat => pymem a (snd kv) && pymem (fst kv) perm) succ).
Definition next_act (p : rcpsp) (perm : list nat) : option nat :=
  find (ready (p_succ p) perm) perm.

(** Lines 211-227: the two nested loops over the time steps and the resources.  The pair is
    [(valid, unfeasible_non_renewable_resources)]. *)
Definition scan_cell (p : rcpsp) (av : list (string * list Z)) (m : mode) (t : nat)
  (vb : bool * bool) (r : string) : res (bool * bool) :=
  if t <? new_horizon p then
    let* row := dgetE av r in
    let* x := lget row t in
    let* n := dgetE (m_need m) r in
    Ok (if (x <? n)%Z then (false, snd vb) else vb)
  else Ok (fst vb, true).

Definition scan_time (p : rcpsp) (av : list (string * list Z)) (m : mode) (vb : bool * bool) (t : nat)
  : res (bool * bool) := foldM (scan_cell p av m t) vb (dkeys av).

Definition scan (p : rcpsp) (av : list (string * list Z)) (m : mode) (bad : bool) (c : nat)
  : res (bool * bool) :=
  foldM (scan_time p av m) (true, bad) (seq c (m_duration m)).

(** [while not valid]: rcpsp_model.py:208-229.  Returns [current_min_time] and the flag. *)
Fixpoint search (fuel : nat) (p : rcpsp) (av : list (string * list Z)) (m : mode) (bad : bool) (c : nat)
  : res (nat * bool) :=
  match fuel with
  | 0 => Err OutOfFuel
  | S fuel =>
      let* vb := scan p av m bad c in
      if fst vb then Ok (c, snd vb) else search fuel p av m (snd vb) (c + 1)
  end.

(** [resource_avail_in_time[res][t] -= mode_details[act_id][mode][res]]: rcpsp_model.py:238 and 241;
    returns the new value too. *)
Definition deduct (av : list (string * list Z)) (m : mode) (r : string) (t : nat)
  : res (list (string * list Z) * Z) :=
  let* row := dgetE av r in
  let* x := lget row t in
  let* n := dgetE (m_need m) r in
  Ok (dset av r (lset row t (x - n)%Z), (x - n)%Z).

(** Lines 240-243: a non-renewable resource is taken from all later time steps. *)
Definition book_later (m : mode) (r : string) (s : list (string * list Z) * bool) (tt : nat)
  : res (list (string * list Z) * bool) :=
  let* d := deduct (fst s) m r tt in
  Ok (fst d, snd s || (snd d <? 0)%Z).

(** Lines 237-243, one time step and one resource. *)
Definition book_cell (p : rcpsp) (m : mode) (c t : nat) (s : list (string * list Z) * bool) (r : string)
  : res (list (string * list Z) * bool) :=
  let* d := deduct (fst s) m r t in
  let s' := (fst d, snd s) in
  if pymem r (p_nonren p) && (t + 1 =? c + m_duration m) then
    foldM (book_later m r) s' (seq (t + 1) (new_horizon p - (t + 1)))
  else Ok s'.

Definition book_time (p : rcpsp) (m : mode) (c : nat) (s : list (string * list Z) * bool) (t : nat)
  : res (list (string * list Z) * bool) := foldM (book_cell p m c t) s (dkeys (fst s)).

(** rcpsp_model.py:234-243 *)
Definition book (p : rcpsp) (av : list (string * list Z)) (m : mode) (c : nat)
  : res (list (string * list Z) * bool) :=
  foldM (book_time p m c) (av, false) (seq c (m_duration m)).

(** The variables of the main loop. *)
Record sgs_state := Sgs {
  g_avail : list (string * list Z);
  g_min : list (nat * nat);          (* minimum_starting_time *)
  g_perm : list nat;                 (* perm_extended *)
  g_ends : list (nat * nat);         (* activity_end_times *)
  g_act : option nat;                (* act_id, [None] while unbound *)
  g_bad : bool }.                    (* unfeasible_non_renewable_resources *)

(** [minimum_starting_time[s] = max(minimum_starting_time[s], end)]: rcpsp_model.py:250-251. *)
Definition raise_min (e : nat) (mins : list (nat * nat)) (s : nat) : res (list (nat * nat)) :=
  let* x := dgetE mins s in Ok (dset mins s (Nat.max x e)).

(** One turn of the main loop: rcpsp_model.py:192-251. *)
Definition sgs_step (p : rcpsp) (modes : list nat) (g : sgs_state) : res sgs_state :=
  let act := match next_act p (g_perm g) with Some a => Some a | None => g_act g end in
  match act with
  | None => Err UnboundLocalError
  | Some a =>
      let* c0 := dgetE (g_min g) a in
      let* m := mode_of p modes a in
      let* cb := search (S (new_horizon p)) p (g_avail g) m false c0 in
      if snd cb then
        Ok (Sgs (g_avail g) (g_min g) (g_perm g) (g_ends g) (Some a) true)
      else
        let* ab := book p (g_avail g) m (fst cb) in
        let e := fst cb + m_duration m in
        if pymem a (g_perm g) then
          let* succs := dgetE (p_succ p) a in
          let* mins := foldM (raise_min e) (g_min g) succs in
          Ok (Sgs (fst ab) mins (pyremove a (g_perm g)) (dset (g_ends g) a e) (Some a) (snd ab))
        else Err ValueError
  end.

(** [while len(perm_extended) > 0 and not unfeasible...]: rcpsp_model.py:192. *)
Fixpoint sgs_loop (fuel : nat) (p : rcpsp) (modes : list nat) (g : sgs_state) : res sgs_state :=
  match g_perm g with
  | [] => Ok g
  | _ =>
      if g_bad g then Ok g else
      match fuel with
      | 0 => Err OutOfFuel
      | S fuel => let* g' := sgs_step p modes g in sgs_loop fuel p modes g'
      end
  end.

(** A schedule: [{task: {'start_time': s, 'end_time': e}}]. *)
Definition schedule := list (nat * (Z * Z)).

(** rcpsp_model.py:254-258 *)
Definition make_schedule (p : rcpsp) (modes : list nat) (ends : list (nat * nat)) : res schedule :=
  mapM (fun ae : nat * nat =>
          let* m := mode_of p modes (fst ae) in
          Ok (fst ae, (Z.of_nat (snd ae) - Z.of_nat (m_duration m), Z.of_nat (snd ae))%Z)) ends.

(** rcpsp_model.py:259-267 *)
Definition finish (p : rcpsp) (bad : bool) (sch : schedule) : res (schedule * bool) :=
  if bad then
    match rev (dkeys (p_succ p)) with
    | [] => Err IndexError
    | last :: _ => Ok (if dmem sch last then sch else dset sch last (99999999, 9999999)%Z, false)
    end
  else Ok (sch, true).

(** RCPSPSolution.generate_schedule_from_permutation_serial_sgs: rcpsp_model.py:153-268.
    Returns the modes after correction, the schedule and the flag [rcpsp_schedule_feasible]. *)
Definition serial_sgs (p : rcpsp) (perm modes : list nat) : res (list nat * (schedule * bool)) :=
  let* me := fix_modes p modes in
  let mins := map (fun a => (a, 0)) (dkeys (p_succ p)) in
  let pe := extend_perm p perm in
  let* g := sgs_loop (length pe) p me (Sgs (avail_init p) mins pe [] None false) in
  let* sch := make_schedule p me (g_ends g) in
  let* r := finish p (g_bad g) sch in
  Ok (fixed_modes me, r).

(** generate_schedule_from_permutation_serial_sgs_2: rcpsp_model.py:271-398.  [completed]: the tasks
    already completed with their start and end; [started]: the start times of the tasks already
    scheduled; [now]: [current_t].  The variable [all_activities] (line 305) is unused. *)
Definition sgs2_min (now : nat) (started : list (nat * nat)) (a : nat) : nat * nat :=
  (a, match dget started a with Some s => s | None => now end).

Definition serial_sgs_2 (p : rcpsp) (perm modes : list nat) (now : nat)
  (completed : list (nat * (nat * nat))) (started : list (nat * nat))
  : res (list nat * (schedule * bool)) :=
  let mins := map (sgs2_min now started) (dkeys (p_succ p)) in
  let pe := filter (fun x => negb (dmem completed x)) (extend_perm p perm) in
  let* me := fix_modes p modes in
  let* g := sgs_loop (length pe) p me (Sgs (avail_init p) mins pe [] None false) in
  let* sch := make_schedule p me (g_ends g) in
  let sch' := fold_left (fun s (kv : nat * (nat * nat)) =>
                dset s (fst kv) (Z.of_nat (fst (snd kv)), Z.of_nat (snd (snd kv)))) completed sch in
  let* r := finish p (g_bad g) sch' in
  Ok (fixed_modes me, r).

(** * Checking a schedule *)

(** A loop that returns [False] at the first failing element. *)
Fixpoint allM {A} (f : A -> res bool) (l : list A) : res bool :=
  match l with
  | [] => Ok true
  | x :: l => let* b := f x in if b then allM f l else Ok false
  end.

(** [modes_extended[act_id-1]]; there is no task 0. *)
Definition act_mode (me : list nat) (a : nat) : res nat :=
  match a with 0 => Err IndexError | S i => lget me i end.

(** [mode_details[act_id][mode][res]] *)
Definition need_of (p : rcpsp) (a k : nat) (r : string) : res Z :=
  let* d := dgetE (p_modes p) a in let* m := dgetE d k in dgetE (m_need m) r.

(** [max(list(rcpsp_schedule.keys()))] *)
Definition max_key (l : list nat) : res nat :=
  match l with [] => Err ValueError | x :: l => Ok (fold_left Nat.max l x) end.

(** The inside of the loop on the tasks: rcpsp_model.py:558-569. *)
Definition add_usage (p : rcpsp) (me : list nat) (sch : schedule) (t : Z)
  (u : list (string * Z)) (a : nat) : res (list (string * Z)) :=
  let* se := dgetE sch a in
  let* k := act_mode me a in
  foldM (fun u r =>
    if (fst se <=? t)%Z && (t <? snd se)%Z then
      let* x := dgetE u r in let* n := need_of p a k r in Ok (dset u r (x + n)%Z)
    else Ok u) u (res_names p).

Definition usage_at (p : rcpsp) (me : list nat) (sch : schedule) (t : Z) : res (list (string * Z)) :=
  foldM (add_usage p me sch t) (map (fun r => (r, 0%Z)) (res_names p)) (dkeys (p_succ p)).

(** [self.resources[res]], or [self.resources[res][t]] with a calendar. *)
Definition capacity_at (p : rcpsp) (r : string) (t : nat) : res Z :=
  match p_res p with
  | Constant c => dgetE c r
  | Calendar c => let* row := dgetE c r in lget row t
  end.

(** rcpsp_model.py:554-575 / 733-754 *)
Definition check_time (p : rcpsp) (me : list nat) (sch : schedule) (t : nat) : res bool :=
  let* u := usage_at p me sch (Z.of_nat t) in
  allM (fun r => let* x := dgetE u r in let* c := capacity_at p r t in Ok (x <=? c)%Z) (res_names p).

(** rcpsp_model.py:578-585 / 757-764.  On a violation the message prints the variable
    [resource_usage] of the previous loop, which is unbound when that loop did not run. *)
Definition check_nonren (p : rcpsp) (me : list nat) (makespan : Z) (r : string) : res bool :=
  let* u := foldM (fun u a => let* k := act_mode me a in let* n := need_of p a k r in Ok (u + n)%Z)
                  0%Z (dkeys (p_succ p)) in
  let* c := capacity_at p r 0 in
  if (u <=? c)%Z then Ok true
  else if (makespan <=? 0)%Z then Err UnboundLocalError
  else if pymem r (res_names p) then Ok false else Err KeyError.

(** rcpsp_model.py:588-594 / 767-773 *)
Definition check_prec (p : rcpsp) (sch : schedule) (kv : nat * list nat) : res bool :=
  allM (fun b => let* sb := dgetE sch b in let* sa := dgetE sch (fst kv) in
                 Ok (snd sa <=? fst sb)%Z) (snd kv).

(** RCPSPModel.satisfy (rcpsp_model.py:542-596) and RCPSPModelCalendar.satisfy (722-775).
    [flag] is the attribute [rcpsp_schedule_feasible] ([None] when never set). *)
Definition satisfy (p : rcpsp) (modes : list nat) (sch : schedule) (flag : option bool) : res bool :=
  match flag with
  | Some false => Ok false
  | _ =>
      let me := extend_modes modes in
      let* last := max_key (dkeys sch) in
      let* se := dgetE sch last in
      let* ok1 := allM (check_time p me sch) (seq 0 (Z.to_nat (snd se))) in
      if ok1 then
        let* ok2 := allM (check_nonren p me (snd se)) (p_nonren p) in
        if ok2 then allM (check_prec p sch) (p_succ p) else Ok false
      else Ok false
  end.
