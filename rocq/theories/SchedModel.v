(** Model of skdecide/builders/scheduling/scheduling_domains.py (the stateful scheduling domain),
    with the parts of modes.py, task.py, task_progress.py, skills.py, conditional_tasks.py,
    resource_renewability.py, graph_toolbox.py and scheduling_domains_modelling.py it calls.

    - Tasks, modes, resource names and conditions are natural numbers; quantities and dates are
      integers; task progress is an exact rational (the code uses floats: rounding is not modelled
      here).
    - Python sets are lists without duplicates; [add] appends, iteration is in list order.
    - States are values: [State.copy] (scheduling_domains_modelling.py:98-113) is the identity and
      in-place updates return the new state; sharing of dictionaries between states
      ([inplace_environment], scheduling_domains.py:93) is not modelled.
    - A value drawn by the problem (duration of the started task, resource quantities) is an
      argument of the transition function, so that theorems quantify over every realisation.
    - [action.mode] = None in START or RESUME raises KeyError (in the code: as soon as there is a
      resource type to look up). *)
From Coq Require Import List Bool Arith ZArith QArith.
From Verif Require Import Py.
Import ListNotations.
Open Scope Z_scope.

(** [l[i]] for a list and an integer index, with Python's negative indices. *)
Definition py_index {A} (l : list A) (i : Z) : res A :=
  let n := Z.of_nat (length l) in
  let j := if i <? 0 then n + i else i in
  if j <? 0 then Err IndexError
  else match nth_error l (Z.to_nat j) with Some x => Ok x | None => Err IndexError end.

(** [s.add(x)] and [s.remove(x)] on a set. *)
Definition set_add (x : nat) (l : list nat) : list nat := if pymem x l then l else l ++ [x].
Definition set_remove (x : nat) (l : list nat) : res (list nat) :=
  if pymem x l then Ok (pyremove x l) else Err KeyError.

(** [all(f(x) for x in l)], stopping at the first False. *)
Fixpoint allM {A} (f : A -> res bool) (l : list A) : res bool :=
  match l with
  | [] => Ok true
  | x :: r => let* b := f x in if (b : bool) then allM f r else Ok false
  end.

(** modes.py:31-72: VaryingModeConsumption and ConstantModeConsumption. *)
Inductive consumption :=
| Varying (d : list (nat * list Z))
| Constant (d : list (nat * Z)).

(** modes.py:36-42, 69-72 [get_resource_need_at_time] *)
Definition need_at (c : consumption) (r : nat) (time : Z) : res Z :=
  match c with
  | Varying d => match dget d r with Some l => py_index l time | None => Ok 0 end
  | Constant d => Ok (match dget d r with Some q => q | None => 0 end)
  end.

(** modes.py:61-67 [get_resource_need]: only ConstantModeConsumption has it. *)
Definition resource_need (c : consumption) (r : nat) : res Z :=
  match c with
  | Varying _ => Err AttributeError
  | Constant d => Ok (match dget d r with Some q => q | None => 0 end)
  end.

(** task.py:14-33: execution record of a task. *)
Record task_rec := mkTask {
  tk_start : option Z; tk_end : option Z; tk_dur : option Z;
  tk_paused : list Z; tk_resumed : list Z; tk_resources : list (nat * Z) }.
Definition task0 : task_rec := mkTask None None None [] [] [].

(** task.py:43-45: the time spent paused; [resumed[i]] may be missing. *)
Fixpoint paused_time (p r : list Z) : res Z :=
  match p with
  | [] => Ok 0
  | x :: p' => match r with
               | [] => Err IndexError
               | y :: r' => let* z := paused_time p' r' in Ok (y - x + z)
               end
  end.

(** task.py:35-46 [Task.get_task_active_time] *)
Definition active_time (k : task_rec) (t : Z) : res Z :=
  let tt := match tk_end k with Some e => Z.min t e | None => t end in
  match tk_start k with
  | None => Ok 0
  | Some s => let* p := paused_time (tk_paused k) (tk_resumed k) in Ok (tt - s - p)
  end.

(** scheduling_domains_modelling.py:22-96: the state ([resource_to_task] is never used). *)
Record state := mkState {
  s_t : Z;
  s_remaining : list nat; s_ongoing : list nat; s_complete : list nat; s_paused : list nat;
  s_progress : list (nat * Q);
  s_mode : list (nat * nat);
  s_avail : list (nat * Z);
  s_used : list (nat * Z);
  s_held : list (nat * list (nat * Z));      (* resource_used_for_task *)
  s_details : list (nat * task_rec);
  s_conds : list nat }.

(** Attribute assignments. *)
Definition w_t v s := mkState v (s_remaining s) (s_ongoing s) (s_complete s) (s_paused s) (s_progress s) (s_mode s) (s_avail s) (s_used s) (s_held s) (s_details s) (s_conds s).
Definition w_remaining v s := mkState (s_t s) v (s_ongoing s) (s_complete s) (s_paused s) (s_progress s) (s_mode s) (s_avail s) (s_used s) (s_held s) (s_details s) (s_conds s).
Definition w_ongoing v s := mkState (s_t s) (s_remaining s) v (s_complete s) (s_paused s) (s_progress s) (s_mode s) (s_avail s) (s_used s) (s_held s) (s_details s) (s_conds s).
Definition w_complete v s := mkState (s_t s) (s_remaining s) (s_ongoing s) v (s_paused s) (s_progress s) (s_mode s) (s_avail s) (s_used s) (s_held s) (s_details s) (s_conds s).
Definition w_paused v s := mkState (s_t s) (s_remaining s) (s_ongoing s) (s_complete s) v (s_progress s) (s_mode s) (s_avail s) (s_used s) (s_held s) (s_details s) (s_conds s).
Definition w_progress v s := mkState (s_t s) (s_remaining s) (s_ongoing s) (s_complete s) (s_paused s) v (s_mode s) (s_avail s) (s_used s) (s_held s) (s_details s) (s_conds s).
Definition w_mode v s := mkState (s_t s) (s_remaining s) (s_ongoing s) (s_complete s) (s_paused s) (s_progress s) v (s_avail s) (s_used s) (s_held s) (s_details s) (s_conds s).
Definition w_avail v s := mkState (s_t s) (s_remaining s) (s_ongoing s) (s_complete s) (s_paused s) (s_progress s) (s_mode s) v (s_used s) (s_held s) (s_details s) (s_conds s).
Definition w_used v s := mkState (s_t s) (s_remaining s) (s_ongoing s) (s_complete s) (s_paused s) (s_progress s) (s_mode s) (s_avail s) v (s_held s) (s_details s) (s_conds s).
Definition w_held v s := mkState (s_t s) (s_remaining s) (s_ongoing s) (s_complete s) (s_paused s) (s_progress s) (s_mode s) (s_avail s) (s_used s) v (s_details s) (s_conds s).
Definition w_details v s := mkState (s_t s) (s_remaining s) (s_ongoing s) (s_complete s) (s_paused s) (s_progress s) (s_mode s) (s_avail s) (s_used s) (s_held s) v (s_conds s).
Definition w_conds v s := mkState (s_t s) (s_remaining s) (s_ongoing s) (s_complete s) (s_paused s) (s_progress s) (s_mode s) (s_avail s) (s_used s) (s_held s) (s_details s) v.

(** scheduling_domains_modelling.py:8-19, 154-193 *)
Inductive act_kind := START | PAUSE | RESUME | TIME_PR.
Record action := mkAction {
  a_task : option nat; a_kind : act_kind; a_mode : option nat; a_tp : bool;
  a_units : option (list nat) }.

(** Keys of the dictionary of preemptivity.py:75: documented as task ids, looked up by resource. *)
Inductive pkey := KTask (n : nat) | KRes (n : nat).
#[export] Instance PyEq_pkey : PyEq pkey.
Proof.
  refine {| pyeqb := fun a b => match a, b with
                                | KTask x, KTask y | KRes x, KRes y => Nat.eqb x y
                                | _, _ => false end |}.
  intros [a|a] [b|b]; try (constructor; congruence);
    destruct (Nat.eqb_spec a b); constructor; congruence.
Defined.

(** What a concrete scheduling domain provides. *)
Record domain := {
  d_tasks : list nat;                                   (* get_tasks_ids *)
  d_modes : list (nat * list (nat * consumption));      (* get_tasks_modes *)
  d_types : list nat;                                   (* get_resource_types_names *)
  d_units : list nat;                                   (* get_resource_units_names *)
  d_renew : option (list (nat * bool));                 (* None: RenewableOnly *)
  d_preempt : list (nat * bool);                        (* get_task_preemptivity *)
  d_paused_ret : list (pkey * bool);     (* get_task_paused_non_renewable_resource_returned *)
  d_skills : option (list (nat * list (nat * Z)) * list (nat * list (nat * list (nat * Z))));
        (* None: WithoutResourceSkills; otherwise skills of resources, skills of tasks/modes *)
  d_progress : nat -> Z -> Z -> nat -> option Z -> Q;   (* get_task_progress *)
  d_succ : list (nat * list nat);                       (* get_successors *)
  d_exist : list (nat * list nat);                      (* get_task_existence_conditions *)
  d_cond : list (nat * list (list (nat * Q)));          (* get_task_on_completion_added_conditions *)
  d_horizon : Z;                                        (* get_max_horizon *)
  d_mode_costs : list (nat * list (nat * Q));           (* get_mode_costs *)
  d_res_costs : list (nat * Q);                         (* get_resource_cost_per_time_unit *)
  d_makespan : bool; d_cost : bool }.                   (* get_objectives *)

(** task_progress.py:31-42 [DeterministicTaskProgress]; [latest] is get_latest_sampled_duration. *)
Definition lin_progress (latest : nat -> nat -> Z) (task : nat) (t_from t_to : Z) (mode : nat)
           (sampled : option Z) : Q :=
  let d := match sampled with Some d => d | None => latest task mode end in
  if d =? 0 then 1%Q else (inject_Z (t_to - t_from) / inject_Z d)%Q.

(** resource_renewability.py:23-24, 62-63 *)
Definition is_renewable (dm : domain) (r : nat) : res bool :=
  match d_renew dm with None => Ok true | Some d => dgetE d r end.

(** scheduling_domains.py:204 and graph_toolbox.py:93-95: direct predecessors in the graph built by
    [compute_graph] (219-230), for a task id. *)
Definition preds (dm : domain) (n : nat) : list nat :=
  map fst (filter (fun e => pymem n (snd e)) (d_succ dm)).

(** modes.py:118-122 then [[mode]] *)
Definition get_mode (dm : domain) (task mode : nat) : res consumption :=
  let* ms := dgetE (d_modes dm) task in dgetE ms mode.

(** scheduling_domains.py:559-571 [get_resource_used]: first the resource types... *)
Fixpoint types_used (dm : domain) (task mode : nat) (time : Z) (types : list nat)
         (r_used : list (nat * Z)) : res (list (nat * Z)) :=
  match types with
  | [] => Ok r_used
  | r :: l => let* c := get_mode dm task mode in
              let* q := need_at c r time in
              types_used dm task mode time l (dset r_used r q)
  end.
(** ... then one of each resource unit. *)
Definition get_resource_used (dm : domain) (task mode : nat) (units : option (list nat)) (time : Z)
  : res (list (nat * Z)) :=
  let* d := types_used dm task mode time (d_types dm) [] in
  Ok (fold_left (fun d u => dset d u 1) (match units with Some us => us | None => [] end) d).

(** skills.py:55-59, 77-89 [get_skills_of_task], [check_if_skills_are_fulfilled] *)
Definition skills_of_task (dm : domain) (task mode : nat) : res (list (nat * Z)) :=
  match d_skills dm with
  | None => Ok []
  | Some (_, ts) => let* ms := dgetE ts task in
                    let* sk := dgetE ms mode in
                    Ok (filter (fun e => 0 <? snd e) sk)
  end.
Fixpoint sum_skills (rs : list (nat * list (nat * Z))) (used : list (nat * Z)) (acc : list (nat * Z))
  : res (list (nat * Z)) :=
  match used with
  | [] => Ok acc
  | (r, _) :: l =>
      let* sk := dgetE rs r in
      sum_skills rs l (fold_left (fun a e => match dget a (fst e) with
                                             | Some v => dset a (fst e) (v + snd e)
                                             | None => a end) sk acc)
  end.
Definition check_skills (dm : domain) (task mode : nat) (used : list (nat * Z)) : res bool :=
  match d_skills dm with
  | None => Ok true
  | Some (rs, _) =>
      let* need := skills_of_task dm task mode in
      match need with
      | [] => Ok true
      | _ => let* got := sum_skills rs used (map (fun e => (fst e, 0)) need) in
             allM (fun e => let* g := dgetE got (fst e) in Ok (snd e <=? g)) need
      end
  end.

Definition act_task (a : action) : res nat :=
  match a_task a with Some k => Ok k | None => Err KeyError end.
Definition act_mode (a : action) : res nat :=
  match a_mode a with Some m => Ok m | None => Err KeyError end.

(** [any(q > avail[r] - used[r] for r in resource_to_use)], negated *)
Definition enough (st : state) (rtu : list (nat * Z)) : res bool :=
  allM (fun e => let* av := dgetE (s_avail st) (fst e) in
                 let* us := dgetE (s_used st) (fst e) in
                 Ok (snd e <=? av - us)) rtu.

(** scheduling_domains.py:539-557 [check_if_action_can_be_started], for START and RESUME. *)
Definition can_start (dm : domain) (st : state) (a : action) : res (bool * list (nat * Z)) :=
  let* task := act_task a in
  let* k := dgetE (s_details st) task in
  let* mode := act_mode a in
  let* time := active_time k (s_t st) in
  let* rtu := get_resource_used dm task mode (a_units a) time in
  let* ok := enough st rtu in
  if (ok : bool) then let* b := check_skills dm task mode rtu in Ok (b, rtu)
  else Ok (false, rtu).

(** [for res in rtu: resource_used[res] += rtu[res]] *)
Fixpoint add_used (rtu : list (nat * Z)) (u : list (nat * Z)) : res (list (nat * Z)) :=
  match rtu with
  | [] => Ok u
  | (r, q) :: l => let* v := dgetE u r in add_used l (dset u r (v + q))
  end.

(** The effect common to scheduling_domains.py:581-594 and 614-623, for the duration [dur]
    (594-595: [resources] is recorded only by the deterministic version; recorded here in both). *)
Definition do_start (st : state) (task mode : nat) (rtu : list (nat * Z)) (dur : Z) : res state :=
  let* rem := set_remove task (s_remaining st) in
  let* k := dgetE (s_details st) task in
  let* u := add_used rtu (s_used st) in
  Ok (mkState (s_t st) rem (set_add task (s_ongoing st)) (s_complete st) (s_paused st)
        (dset (s_progress st) task 0%Q) (dset (s_mode st) task mode) (s_avail st) u
        (dset (s_held st) task rtu)
        (dset (s_details st) task
           (mkTask (Some (s_t st)) (tk_end k) (Some dur) (tk_paused k) (tk_resumed k) rtu))
        (s_conds st)).

(** scheduling_domains.py:573-595 [update_start_tasks]; [dur] is what
    [get_latest_sampled_duration] returns. *)
Definition update_start (dm : domain) (dur : Z) (st : state) (a : action) : res state :=
  match a_kind a with
  | START =>
      let* br := can_start dm st a in
      if (fst br : bool) then
        let* task := act_task a in let* mode := act_mode a in
        do_start st task mode (snd br) dur
      else Ok st
  | _ => Ok st
  end.

(** scheduling_domains.py:597-628 [update_start_tasks_uncertain]; [durs] are the values of
    [get_task_duration_distribution]. *)
Definition update_start_uncertain (dm : domain) (durs : list (Z * Q)) (st : state) (a : action)
  : res (list (state * Q)) :=
  match a_kind a with
  | START =>
      let* br := can_start dm st a in
      if (fst br : bool) then
        let* task := act_task a in let* mode := act_mode a in
        mapM (fun dp => let* s := do_start st task mode (snd br) (fst dp) in Ok (s, snd dp)) durs
      else Ok [(st, 1%Q)]
  | _ => Ok [(st, 1%Q)]
  end.

(** scheduling_domains.py:418-429, 431-444 [update_complete_dummy_tasks] *)
Definition update_dummy (st : state) (a : action) : res state :=
  match a_kind a with
  | START =>
      let* task := act_task a in
      let* k := dgetE (s_details st) task in
      match tk_dur k with
      | Some 0 =>
          let* og := set_remove task (s_ongoing st) in
          let* _ := dgetE (s_held st) task in
          Ok (mkState (s_t st) (s_remaining st) og (set_add task (s_complete st)) (s_paused st)
                (dset (s_progress st) task 1%Q) (s_mode st) (s_avail st) (s_used st)
                (ddel (s_held st) task)
                (dset (s_details st) task
                   (mkTask (tk_start k) (Some (s_t st)) (tk_dur k) (tk_paused k) (tk_resumed k)
                      (tk_resources k)))
                (s_conds st))
      | _ => Ok st
      end
  | _ => Ok st
  end.

(** scheduling_domains.py:460-464: resources given back by a paused task. *)
Fixpoint pause_release (dm : domain) (h : list (nat * Z)) (u : list (nat * Z)) : res (list (nat * Z)) :=
  match h with
  | [] => Ok u
  | (r, q) :: l =>
      let* b := is_renewable dm r in
      let* give := (if (b : bool) then Ok true else dgetE (d_paused_ret dm) (KRes r)) in
      if (give : bool) then let* v := dgetE u r in pause_release dm l (dset u r (v - q))
      else pause_release dm l u
  end.

(** scheduling_domains.py:451-468 [update_pause_tasks] *)
Definition update_pause (dm : domain) (st : state) (a : action) : res state :=
  match a_kind a with
  | PAUSE =>
      let* task := act_task a in
      let* og := set_remove task (s_ongoing st) in
      let* h := dgetE (s_held st) task in
      let* u := pause_release dm h (s_used st) in
      let* k := dgetE (s_details st) task in
      Ok (mkState (s_t st) (s_remaining st) og (s_complete st) (set_add task (s_paused st))
            (s_progress st) (s_mode st) (s_avail st) u (ddel (s_held st) task)
            (dset (s_details st) task
               (mkTask (tk_start k) (tk_end k) (tk_dur k) (tk_paused k ++ [s_t st]) (tk_resumed k)
                  (tk_resources k)))
            (s_conds st))
  | _ => Ok st
  end.

(** scheduling_domains.py:482-525 [update_resume_tasks]: the status changes before the resources
    are checked (491-496). *)
Definition update_resume (dm : domain) (st : state) (a : action) : res state :=
  match a_kind a with
  | RESUME =>
      let* task := act_task a in
      let* pa := set_remove task (s_paused st) in
      let* k := dgetE (s_details st) task in
      let st1 := mkState (s_t st) (s_remaining st) (set_add task (s_ongoing st)) (s_complete st) pa
            (s_progress st) (s_mode st) (s_avail st) (s_used st) (s_held st)
            (dset (s_details st) task
               (mkTask (tk_start k) (tk_end k) (tk_dur k) (tk_paused k) (tk_resumed k ++ [s_t st])
                  (tk_resources k)))
            (s_conds st) in
      let* br := can_start dm st1 a in
      if (fst br : bool) then
        let* u := add_used (snd br) (s_used st1) in
        Ok (w_held (dset (s_held st1) task (snd br)) (w_used u st1))
      else Ok st1
  | _ => Ok st
  end.

(** scheduling_domains.py:301-312 [update_progress], for the ongoing tasks [l]. *)
Fixpoint update_progress (dm : domain) (st : state) (l : list nat) (pr : list (nat * Q))
  : res (list (nat * Q)) :=
  match l with
  | [] => Ok pr
  | k :: r =>
      let* m := dgetE (s_mode st) k in
      let* d := dgetE (s_details st) k in
      let* p := dgetE pr k in
      update_progress dm st r
        (dset pr k (p + d_progress dm k (s_t st) (s_t st + 1) m (tk_dur d))%Q)
  end.

(** scheduling_domains.py:273-277: [h] is resource_used_for_task[task], [u] is resource_used. *)
Fixpoint rebook (rtu : list (nat * Z)) (h u : list (nat * Z)) : res (list (nat * Z) * list (nat * Z)) :=
  match rtu with
  | [] => Ok (h, u)
  | (r, q) :: l =>
      let* prev := dgetE h r in
      let* v := dgetE u r in
      rebook l (dset h r q) (dset u r (v + (q - prev)))
  end.

(** scheduling_domains.py:264-278 [update_res_consumption], for the ongoing tasks [l].  (When the
    domain has no resource type, [resource_used_for_task[task]] is not looked up; the look-up made
    here can only fail then for a task resumed without its resources.) *)
Fixpoint update_res (dm : domain) (l : list nat) (st : state) : res state :=
  match l with
  | [] => Ok st
  | k :: r =>
      let* m := dgetE (s_mode st) k in
      let* d := dgetE (s_details st) k in
      let* time := active_time d (s_t st + 1) in
      let* rtu := get_resource_used dm k m (Some []) time in
      let* h := dgetE (s_held st) k in
      let* hu := rebook rtu h (s_used st) in
      update_res dm r (w_held (dset (s_held st) k (fst hu)) (w_used (snd hu) st))
  end.

(** scheduling_domains.py:338-342: tasks whose progress is at least 0.9999. *)
Fixpoint scan_complete (l : list nat) (pr : list (nat * Q)) : res (list nat * list (nat * Q)) :=
  match l with
  | [] => Ok ([], pr)
  | k :: r =>
      let* p := dgetE pr k in
      if Qle_bool (9999 # 10000) p then
        let* cr := scan_complete r (dset pr k 1%Q) in Ok (k :: fst cr, snd cr)
      else scan_complete r pr
  end.

(** scheduling_domains.py:346-349: only renewable resources are given back. *)
Fixpoint complete_release (dm : domain) (h u : list (nat * Z)) : res (list (nat * Z)) :=
  match h with
  | [] => Ok u
  | (r, q) :: l =>
      let* b := is_renewable dm r in
      if (b : bool) then let* v := dgetE u r in complete_release dm l (dset u r (v - q))
      else complete_release dm l u
  end.

(** scheduling_domains.py:343-351, 372-380: the body for one completed task. *)
Definition complete_one (dm : domain) (st : state) (k : nat) : res state :=
  let* og := set_remove k (s_ongoing st) in
  let* h := dgetE (s_held st) k in
  let* u := complete_release dm h (s_used st) in
  let* d := dgetE (s_details st) k in
  Ok (mkState (s_t st) (s_remaining st) og (set_add k (s_complete st)) (s_paused st)
        (s_progress st) (s_mode st) (s_avail st) u (ddel (s_held st) k)
        (dset (s_details st) k
           (mkTask (tk_start d) (Some (s_t st + 1)) (tk_dur d) (tk_paused d) (tk_resumed d)
              (tk_resources d)))
        (s_conds st)).

Fixpoint complete_all (dm : domain) (l : list nat) (st : state) : res state :=
  match l with
  | [] => Ok st
  | k :: r => let* s := complete_one dm st k in complete_all dm r s
  end.

(** scheduling_domains.py:334-354 [update_complete_tasks]; also returns the completed tasks. *)
Definition update_complete (dm : domain) (st : state) : res (list nat * state) :=
  let* cp := scan_complete (s_ongoing st) (s_progress st) in
  let* s := complete_all dm (fst cp) (w_progress (snd cp) st) in
  Ok (fst cp, s).

(** scheduling_domains.py:236-237: the first half of a time step. *)
Definition tick (dm : domain) (st : state) : res state :=
  let* pr := update_progress dm st (s_ongoing st) (s_progress st) in
  update_res dm (s_ongoing st) (w_progress pr st).

(** scheduling_domains.py:232-240 [update_time] *)
Definition update_time (dm : domain) (st : state) (a : action) : res state :=
  if a_tp a then
    let* s := tick dm st in
    let* cs := update_complete dm s in
    Ok (w_t (s_t st + 1) (snd cs))
  else Ok st.

(** scheduling_domains.py:700-714 [update_resource_availability]; [q] is
    [sample_quantity_resource]. *)
Definition update_avail (dm : domain) (q : nat -> Z -> Z) (st : state) (a : action) : state :=
  if a_tp a then
    w_avail (fold_left (fun av r => dset av r (q r (s_t st))) (d_units dm ++ d_types dm) (s_avail st)) st
  else st.

(** scheduling_domains.py:126-142 [_get_next_state] *)
Definition next_state (dm : domain) (dur : Z) (q : nat -> Z -> Z) (st : state) (a : action) : res state :=
  let* s := update_pause dm st a in
  let* s := update_resume dm s a in
  let* s := update_start dm dur s a in
  let* s := update_dummy s a in
  let* s := update_time dm s a in
  Ok (update_avail dm q s a).

(** conditional_tasks.py:122-139 [get_available_tasks] *)
Definition available (dm : domain) (st : state) : list nat :=
  filter (fun n => match dget (d_exist dm) n with
                   | None => true
                   | Some cs => forallb (fun c => pymem c (s_conds st)) cs
                   end) (nodup Nat.eq_dec (d_tasks dm)).

(** conditional_tasks.py:147-155 [get_all_unconditional_tasks] *)
Definition unconditional (dm : domain) : list nat :=
  filter (fun n => match dget (d_exist dm) n with None => true | Some [] => true | _ => false end)
    (nodup Nat.eq_dec (d_tasks dm)).

(** scheduling_domains.py:742-755 [update_conditional_tasks_uncertain], for one state. *)
Definition update_conditional (dm : domain) (st : state) (a : action) : state :=
  if a_tp a then
    let av := available dm st in
    let considered := s_remaining st ++ s_ongoing st ++ dkeys (s_progress st) ++ s_complete st in
    let new := filter (fun n => negb (pymem n considered)) av
               ++ filter (fun n => negb (pymem n av)) considered in
    w_remaining (fold_left (fun l n => set_add n l) new (s_remaining st)) st
  else st.

(** itertools.product *)
Fixpoint product {A} (ls : list (list A)) : list (list A) :=
  match ls with
  | [] => [[]]
  | l :: r => flat_map (fun x => map (cons x) (product r)) l
  end.

(** scheduling_domains.py:381-390: for each completed task with conditions, the values of all its
    distributions in one list. *)
Definition models (dm : domain) (completed : list nat) : list (list (nat * Q)) :=
  flat_map (fun k => match dget (d_cond dm) k with Some ds => [concat ds] | None => [] end) completed.

(** scheduling_domains.py:356-408 [update_complete_tasks_uncertain], for one state: the probability
    of the incoming state is not used. *)
Definition update_complete_uncertain (dm : domain) (st : state) : res (list (state * Q)) :=
  let* cs := update_complete dm st in
  Ok (map (fun comb => (w_conds (fold_left (fun l cp => set_add (fst cp) l) comb (s_conds (snd cs))) (snd cs),
                        fold_left (fun p cp => (p * snd cp)%Q) comb 1%Q))
        (product (models dm (fst cs)))).

(** A function applied to each state of a distribution. *)
Definition dist_map (f : state -> res state) (l : list (state * Q)) : res (list (state * Q)) :=
  mapM (fun sp => let* s := f (fst sp) in Ok (s, snd sp)) l.

(** scheduling_domains.py:242-251 [update_time_uncertain] *)
Definition update_time_uncertain (dm : domain) (l : list (state * Q)) (a : action) : res (list (state * Q)) :=
  if a_tp a then
    let* l1 := dist_map (tick dm) l in
    let* l2 := mapM (fun sp => update_complete_uncertain dm (fst sp)) l1 in
    Ok (map (fun sp => (w_t (s_t (fst sp) + 1) (fst sp), snd sp)) (concat l2))
  else Ok l.

(** scheduling_domains.py:109-124 [_get_next_state_distribution] *)
Definition next_dist (dm : domain) (durs : list (Z * Q)) (q : nat -> Z -> Z) (st : state) (a : action)
  : res (list (state * Q)) :=
  let* s := update_pause dm st a in
  let* s := update_resume dm s a in
  let* l := update_start_uncertain dm durs s a in
  let* l := dist_map (fun s => update_dummy s a) l in
  let* l := dist_map (fun s => Ok (update_conditional dm s a)) l in
  let* l := update_time_uncertain dm l a in
  dist_map (fun s => Ok (update_avail dm q s a)) l.

(** scheduling_domains.py:144-158 [_get_initial_state_] *)
Definition initial_state (dm : domain) (q : nat -> Z -> Z) : state :=
  let av := fold_left (fun av r => dset av r (q r 0)) (d_types dm ++ d_units dm) [] in
  mkState 0 (unconditional dm) [] [] [] [] [] av (map (fun e => (fst e, 0)) av) []
    (fold_left (fun d n => dset d n task0) (d_tasks dm) []) [].

(** scheduling_domains.py:185-189 [_get_goals_] *)
Definition is_goal (st : state) : bool :=
  match s_remaining st, s_ongoing st, s_paused st with [], [], [] => true | _, _, _ => false end.

(** resource_renewability.py:26-47 [all_tasks_possible] *)
Definition mode_possible (dm : domain) (st : state) (c : consumption) : res bool :=
  allM (fun r => match d_renew dm with
                 | None => Ok true
                 | Some d => let* b := dgetE d r in
                     if (b : bool) then Ok true
                     else let* need := resource_need c r in
                          let* av := dgetE (s_avail st) r in
                          let* us := dgetE (s_used st) r in
                          Ok (0 <=? av - us - need)
                 end) (d_types dm).
Fixpoint some_mode (dm : domain) (st : state) (ms : list (nat * consumption)) : res bool :=
  match ms with
  | [] => Ok false
  | (_, c) :: r => let* b := mode_possible dm st c in if (b : bool) then Ok true else some_mode dm st r
  end.
(** A first task without modes raises UnboundLocalError; a later one reuses the previous answer,
    which is True: simplified here to UnboundLocalError in both cases. *)
Definition all_tasks_possible (dm : domain) (st : state) : res bool :=
  allM (fun n => let* ms := dgetE (d_modes dm) n in
                 match ms with [] => Err UnboundLocalError | _ => some_mode dm st ms end)
    (s_remaining st).

(** scheduling_domains.py:801-806 [_is_terminal] *)
Definition is_terminal (dm : domain) (st : state) : res bool :=
  let* p := all_tasks_possible dm st in
  Ok ((d_horizon dm <? s_t st) || negb p || is_goal st).

(** scheduling_domains.py:697-698 [state_is_overconsuming] *)
Fixpoint overconsuming (u av : list (nat * Z)) : res bool :=
  match u with
  | [] => Ok false
  | (r, x) :: l => let* y := dgetE av r in if y <? x then Ok true else overconsuming l av
  end.

(** [[x for x in l if f(x)]] with a condition that may raise *)
Fixpoint filterM {A} (f : A -> res bool) (l : list A) : res (list A) :=
  match l with
  | [] => Ok []
  | x :: r => let* b := f x in let* r' := filterM f r in Ok (if (b : bool) then x :: r' else r')
  end.

(** scheduling_domains.py:666-673, 685-692: enough of each resource type is left; the need is
    evaluated at the date of the state. *)
Definition fits (dm : domain) (st : state) (n m : nat) : res bool :=
  allM (fun r => let* av := dgetE (s_avail st) r in
                 let* us := dgetE (s_used st) r in
                 let* c := get_mode dm n m in
                 let* q := need_at c r (s_t st) in
                 Ok (0 <=? av - us - q)) (d_types dm).

(** scheduling_domains.py:638-642: (task, mode) pairs of remaining tasks whose available
    predecessors are complete. *)
Definition modes_of (dm : domain) (n : nat) : res (list (nat * nat)) :=
  let* ms := dgetE (d_modes dm) n in Ok (map (fun e => (n, fst e)) ms).
Definition ready (dm : domain) (st : state) (n : nat) : bool :=
  forallb (fun m => negb (pymem m (available dm st)) || pymem m (s_complete st)) (preds dm n).

(** scheduling_domains.py:636-676 [get_possible_starting_tasks]: task -> mode.  The dictionary
    comprehension keeps the last mode of each task.  (The list of resource names attached to the
    mode is left out.) *)
Definition possible_start (dm : domain) (st : state) : res (list (nat * nat)) :=
  let* nms := mapM (modes_of dm) (filter (ready dm st) (s_remaining st)) in
  let* ok := filterM (fun nm => fits dm st (fst nm) (snd nm)) (concat nms) in
  Ok (fold_left (fun d nm => dset d (fst nm) (snd nm)) ok []).

(** scheduling_domains.py:678-695 [get_possible_resume_tasks] *)
Definition possible_resume (dm : domain) (st : state) : res (list (nat * nat)) :=
  let* nms := mapM (modes_of dm)
                (filter (fun n => forallb (fun m => pymem m (s_complete st)) (preds dm n)) (s_paused st)) in
  let* ok := filterM (fun nm => fits dm st (fst nm) (snd nm)) (concat nms) in
  Ok (fold_left (fun d nm => dset d (fst nm) (snd nm)) ok []).

Definition start_act (n m : nat) : action := mkAction (Some n) START (Some m) false None.
Definition pause_act (n : nat) : action := mkAction (Some n) PAUSE None false None.
Definition resume_act (n m : nat) : action := mkAction (Some n) RESUME (Some m) false None.
Definition time_act : action := mkAction None TIME_PR None true None.

(** scheduling_domains.py:894-932 [SchedulingActionSpace.get_elements] *)
Definition action_space (dm : domain) (st : state) : res (list action) :=
  let* over := overconsuming (s_used st) (s_avail st) in
  let* pa := filterM (fun n => dgetE (d_preempt dm) n) (s_ongoing st) in
  let pauses := map pause_act pa in
  if (over : bool) then Ok (pauses ++ [time_act])
  else
    let* ps := possible_start dm st in
    let* rs := mapM (fun n => let* m := dgetE (s_mode st) n in Ok (resume_act n m)) (s_paused st) in
    Ok (map (fun e => start_act (fst e) (snd e)) ps ++ pauses ++ rs ++ [time_act]).

(** skills.py:61-75 [find_one_ressource_to_do_one_task] *)
Definition one_resource (dm : domain) (task mode : nat) : res (list (option nat)) :=
  let* need := skills_of_task dm task mode in
  match need with
  | [] => Ok [None]
  | _ => match d_skills dm with
         | None => Ok []
         | Some (rs, _) =>
             Ok (map (fun e => Some (fst e))
                   (filter (fun e => forallb (fun s => snd s <=? match dget (snd e) (fst s) with
                                                                 | Some v => v | None => 0 end) need) rs))
         end
  end.

(** scheduling_domains.py:966-973, 991-998: START actions for one task, mode and possible units. *)
Definition unit_acts (dm : domain) (st : state) (n m : nat) : res (list action) :=
  let* possible := one_resource dm n m in
  let* ok := filterM (fun r => match r with
                               | None => Ok true
                               | Some r => let* u := dgetE (s_used st) r in
                                           let* av := dgetE (s_avail st) r in
                                           Ok (u + 1 <=? av)
                               end) possible in
  Ok (map (fun r => mkAction (Some n) START (Some m) false
                      (match r with Some r => Some [r] | None => None end)) ok).

(** scheduling_domains.py:949-1004 [SchedulingActionSpaceWithResourceUnit.get_elements]: resuming is
    offered as a START action (992). *)
Definition action_space_units (dm : domain) (st : state) : res (list action) :=
  let* over := overconsuming (s_used st) (s_avail st) in
  let* pa := filterM (fun n => dgetE (d_preempt dm) n) (s_ongoing st) in
  let pauses := map pause_act pa in
  if (over : bool) then Ok (pauses ++ [time_act])
  else
    let* ps := possible_start dm st in
    let* ss := mapM (fun e => unit_acts dm st (fst e) (snd e)) ps in
    let* rs := mapM (fun n => let* m := dgetE (s_mode st) n in unit_acts dm st n m) (s_paused st) in
    Ok (concat ss ++ pauses ++ concat rs ++ [time_act]).

(** scheduling_domains.py:768-799 [_get_transition_value]: cost of a transition.  For a
    non-renewable resource the code indexes the previous state ([memory[-1]], 787 and 794), and a
    State is not subscriptable: TypeError. *)
Definition transition_cost (dm : domain) (st : state) (a : action) (st' : state) : res Q :=
  let mk := if d_makespan dm then inject_Z (s_t st' - s_t st) else 0%Q in
  if d_cost dm then
    let* mc := (match a_kind a with
                | START => let* task := act_task a in let* m := act_mode a in
                           let* ms := dgetE (d_mode_costs dm) task in dgetE ms m
                | _ => Ok 0%Q end) in
    let* cs := mapM (fun r => let* b := is_renewable dm r in
                              if (b : bool) then
                                let* c := dgetE (d_res_costs dm) r in
                                let* u := dgetE (s_used st') r in Ok (c * inject_Z u)%Q
                              else Err TypeError) (d_types dm ++ d_units dm) in
    Ok (mk + (mc + fold_right Qplus 0%Q cs))%Q
  else Ok mk.
