(** Model of the policies for scheduling domains:
    skdecide/hub/solver/sgs_policies/sgs_policies.py (PolicyRCPSP and its six methods),
    skdecide/hub/solver/pile_policy/pile_policy.py (PilePolicy),
    skdecide/hub/solver/do_solver/do_solver_scheduling.py:76-123 (from_solution_to_policy, for an
    RCPSPSolution),
    on top of the scheduling domain of SchedModel.v.

    - [resource_allocation_priority] is stored by the constructor and never read: left out.
    - [check_if_applicable] (always False) and the keyword arguments that a method ignores are left out.
    - A list comprehension over [range(len(permutation_task))] is in index order, so the [sorted] by
      index around it is the identity. *)
From Coq Require Import List Bool Arith ZArith QArith.
From Verif Require Import Py SchedModel.
Import ListNotations.
Open Scope Z_scope.

(** sgs_policies.py:9-16 *)
Inductive method :=
| FOLLOW_GANTT | SGS_PRECEDENCE | SGS_READY | SGS_STRICT | SGS_TIME_FREEDOM | SGS_INDEX_FREEDOM | PILE.

(** sgs_policies.py:19-24, 30-51: the parameters and the attributes of a policy.  [p_order] is the
    order in which Python enumerates a set of tasks. *)
Record policy := {
  p_method : method; p_delta_time : Z; p_delta_index : Z;
  p_perm : list nat;                          (* permutation_task *)
  p_modes : list (nat * nat);                 (* modes_dictionnary *)
  p_sched : option (list (nat * Z));          (* schedule: task -> start_time *)
  p_alloc : option (list (nat * list nat));   (* resource_allocation *)
  p_order : list nat -> list nat }.

(** sgs_policies.py:43-49: start date -> set of tasks. *)
Definition store_start_date (p : policy) : list (Z * list nat) :=
  match p_sched p with
  | None => []
  | Some sch => fold_left (fun d e => dset d (snd e) (set_add (fst e)
                   (match dget d (snd e) with Some l => l | None => [] end))) sch []
  end.

(** precedence.py:64-71 [task_possible_to_launch_precedence] *)
Definition launchable (dm : domain) (st : state) : list nat :=
  filter (fun n => forallb (fun m => pymem m (s_complete st)) (preds dm n)) (s_remaining st).

(** sgs_policies.py:73-76 [action_in_applicable_actions], first component; scheduling_domains.py:539-542:
    actions other than START and RESUME are always accepted. *)
Definition applicable (dm : domain) (st : state) (a : action) : res bool :=
  match a_kind a with
  | START | RESUME => let* br := can_start dm st a in Ok (fst br)
  | _ => Ok true
  end.

(** The START action built by every method, e.g. sgs_policies.py:194-200. *)
Definition start_of (p : policy) (n : nat) : res action :=
  let* m := dgetE (p_modes p) n in
  Ok (mkAction (Some n) START (Some m) false
        (match p_alloc p with Some d => dget d n | None => None end)).

(** The loop over the tasks of interest, sgs_policies.py:145-174, 230-255, 274-301, 318-344: the first
    applicable START, otherwise let time progress. *)
Fixpoint first_applicable (dm : domain) (p : policy) (st : state) (l : list nat) : res action :=
  match l with
  | [] => Ok time_act
  | n :: r =>
      let* a := start_of p n in
      let* b := applicable dm st a in
      if (b : bool) then Ok a else first_applicable dm p st r
  end.

(** [[(index, permutation_task[index]) for index in range(len(permutation_task)) if ...]] *)
Fixpoint indexed (i : Z) (l : list nat) : list (Z * nat) :=
  match l with [] => [] | x :: r => (i, x) :: indexed (i + 1) r end.
Definition not_done (p : policy) (st : state) : list (Z * nat) :=
  filter (fun x => pymem (snd x) (s_remaining st)) (indexed 0 (p_perm p)).

(** sgs_policies.py:79-116 [next_action_follow_static_gantt] *)
Definition follow_gantt (dm : domain) (p : policy) (st : state) : res action :=
  let possible := launchable dm st in
  let* a := match dget (store_start_date p) (s_t st) with
            | None => Ok time_act
            | Some ts =>
                match filter (fun n => negb (pymem n (s_ongoing st)) && negb (pymem n (s_complete st))
                                       && pymem n possible) (p_order p ts) with
                | [] => Ok time_act
                | n :: _ => start_of p n
                end
            end in
  let* b := applicable dm st a in
  if (b : bool) then Ok a else Ok time_act.

(** sgs_policies.py:119-174 [next_action_sgs_first_task_precedence_ready] *)
Definition precedence_ready (dm : domain) (p : policy) (st : state) : res action :=
  let possible := launchable dm st in
  let nd := map snd (not_done p st) in
  match find (fun n => pymem n possible) nd with
  | None => Ok time_act
  | Some n =>
      let* others := match p_sched p with
                     | None => Ok []
                     | Some sch =>
                         let* t0 := dgetE sch n in
                         filterM (fun k => if Nat.eqb k n then Ok false
                                           else let* t := dgetE sch k in
                                                Ok ((t =? t0) && pymem k possible)) nd
                     end in
      first_applicable dm p st (n :: others)
  end.

(** sgs_policies.py:177-210 [next_action_sgs_first_task_ready] *)
Fixpoint ready_loop (dm : domain) (p : policy) (st : state) (possible l : list nat) : res action :=
  match l with
  | [] => Ok time_act
  | n :: r =>
      if pymem n possible then
        let* a := start_of p n in
        let* b := applicable dm st a in
        if (b : bool) then Ok a else ready_loop dm p st possible r
      else ready_loop dm p st possible r
  end.
Definition first_ready (dm : domain) (p : policy) (st : state) : res action :=
  ready_loop dm p st (launchable dm st) (map snd (not_done p st)).

(** The tasks not done whose predecessors are complete, sgs_policies.py:221-225, 266-270, 312-316. *)
Definition candidates (dm : domain) (p : policy) (st : state) : list (Z * nat) :=
  filter (fun x => pymem (snd x) (s_remaining st) && pymem (snd x) (launchable dm st)) (indexed 0 (p_perm p)).

(** sgs_policies.py:213-255 [next_action_sgs_strict] *)
Definition strict (dm : domain) (p : policy) (st : state) : res action :=
  match candidates dm p st with
  | [] => Ok time_act
  | ((_, n) :: _) as cs =>
      let* l := match p_sched p with
                | None => Ok [n]
                | Some sch =>
                    let* t0 := dgetE sch n in
                    filterM (fun k => let* t := dgetE sch k in Ok (t =? t0)) (map snd cs)
                end in
      first_applicable dm p st l
  end.

(** sgs_policies.py:258-301 [next_action_sgs_time_freedom] *)
Definition time_freedom (dm : domain) (p : policy) (st : state) : res action :=
  match candidates dm p st with
  | [] => Ok time_act
  | ((_, n) :: _) as cs =>
      let* l := match p_sched p with
                | None => Ok [n]
                | Some sch =>
                    let* t0 := dgetE sch n in
                    filterM (fun k => let* t := dgetE sch k in
                                      Ok ((t0 <=? t) && (t <=? t0 + p_delta_time p))) (map snd cs)
                end in
      first_applicable dm p st l
  end.

(** sgs_policies.py:304-344 [next_action_sgs_index_freedom] *)
Definition index_freedom (dm : domain) (p : policy) (st : state) : res action :=
  match candidates dm p st with
  | [] => Ok time_act
  | ((i0, _) :: _) as cs =>
      first_applicable dm p st (map snd (filter (fun x => fst x <=? i0 + p_delta_index p) cs))
  end.

(** sgs_policies.py:57-67, 347-352: [map_method_to_function] has no entry for PILE (in the code the
    KeyError is raised when the policy is built). *)
Definition next_action (dm : domain) (p : policy) (st : state) : res action :=
  match p_method p with
  | FOLLOW_GANTT => follow_gantt dm p st
  | SGS_PRECEDENCE => precedence_ready dm p st
  | SGS_READY => first_ready dm p st
  | SGS_STRICT => strict dm p st
  | SGS_TIME_FREEDOM => time_freedom dm p st
  | SGS_INDEX_FREEDOM => index_freedom dm p st
  | PILE => Err KeyError
  end.

(** Executing a policy, as a roll-out does (domain.step until a goal; scheduling_domains.py:126-142):
    [dur n m] is the duration drawn for task [n] in mode [m] when it is started, [q] the resource
    quantities.  At most [fuel] actions. *)
Definition drawn (dur : nat -> nat -> Z) (a : action) : Z :=
  match a_task a, a_mode a with Some n, Some m => dur n m | _, _ => 0 end.
Fixpoint execute (dm : domain) (pick : state -> res action) (dur : nat -> nat -> Z) (q : nat -> Z -> Z)
         (fuel : nat) (st : state) : res state :=
  if is_goal st then Ok st
  else match fuel with
       | O => Err OutOfFuel
       | S f => let* a := pick st in
                let* st' := next_state dm (drawn dur a) q st a in
                execute dm pick dur q f st'
       end.

(** do_solver_scheduling.py:86-95: the policy made from an RCPSPSolution, given by its schedule
    (task -> start time), its modes and the number of non-dummy jobs.  [ssort] of the tasks by
    (start time, task). *)
Fixpoint insert_by (le : nat -> nat -> bool) (x : nat) (l : list nat) : list nat :=
  match l with [] => [x] | y :: r => if le x y then x :: l else y :: insert_by le x r end.
Definition sort_by (le : nat -> nat -> bool) (l : list nat) : list nat := fold_right (insert_by le) [] l.
Definition start_le (sch : list (nat * Z)) (x y : nat) : bool :=
  match dget sch x, dget sch y with
  | Some a, Some b => (a <? b) || ((a =? b) && Nat.leb x y)
  | _, _ => true
  end.
Fixpoint modes_from (i : nat) (l : list nat) (d : list (nat * nat)) : list (nat * nat) :=
  match l with [] => d | m :: r => modes_from (S i) r (dset d i m) end.
Definition policy_of_solution (sch : list (nat * Z)) (modes : list nat) (n_jobs : nat) (m : method)
           (dt di : Z) (order : list nat -> list nat) : policy :=
  {| p_method := m; p_delta_time := dt; p_delta_index := di;
     p_perm := sort_by (start_le sch) (dkeys sch);
     p_modes := modes_from 2 modes (dset (dset [] 1 1) (n_jobs + 2) 1)%nat;
     p_sched := Some sch; p_alloc := None; p_order := order |}.

(** pile_policy.py:13-17 *)
Inductive greedy := MOST_SUCCESSORS | SAMPLE_MOST_SUCCESSORS | FASTEST | TOTALLY_RANDOM.

(** What PilePolicy calls: [nx.algorithms.descendants], [domain.sample_task_duration(x, 1, 0.)],
    [np.random.choice(..., p=...)] and [random.choice], each an index. *)
Record pile_env := {
  e_desc : nat -> list nat; e_dur : nat -> Z;
  e_choice : list Q -> nat; e_random : list nat -> nat }.

(** Python's [max(l, key=f)] and [min(l, key=f)] for a non-empty list: the first best element. *)
Definition arg_best (better : Z -> Z -> bool) (f : nat -> Z) (x : nat) (l : list nat) : nat :=
  fold_left (fun b y => if better (f y) (f b) then y else b) l x.

(** [l[i]] for a drawn index. *)
Definition pick_at (l : list nat) (i : nat) : res nat :=
  match nth_error l i with Some x => Ok x | None => Err IndexError end.

(** pile_policy.py:55-61: mode 1 is tried for every task. *)
Definition pile_start (n : nat) : action := mkAction (Some n) START (Some 1%nat) false None.
Definition pile_possible (dm : domain) (st : state) : res (list nat) :=
  filterM (fun n => applicable dm st (pile_start n)) (launchable dm st).

(** pile_policy.py:65-72: probabilities proportional to the number of descendants. *)
Definition desc_weights (e : pile_env) (l : list nat) : list Q :=
  let s := fold_right Z.add 0 (map (fun n => Z.of_nat (length (e_desc e n))) l) in
  if s =? 0 then map (fun _ => (1 / inject_Z (Z.of_nat (length l)))%Q) l
  else map (fun n => (inject_Z (Z.of_nat (length (e_desc e n))) / inject_Z s)%Q) l.

(** pile_policy.py:43-88 [PilePolicy._get_next_action] *)
Definition pile_next (dm : domain) (e : pile_env) (g : greedy) (st : state) : res action :=
  let* l := pile_possible dm st in
  match l with
  | [] => Ok (mkAction None TIME_PR (Some 1%nat) true None)
  | x :: r =>
      let* n := match g with
                | MOST_SUCCESSORS => Ok (arg_best Z.gtb (fun n => Z.of_nat (length (e_desc e n))) x r)
                | SAMPLE_MOST_SUCCESSORS => pick_at l (e_choice e (desc_weights e l))
                | FASTEST => Ok (arg_best Z.ltb (e_dur e) x r)
                | TOTALLY_RANDOM => pick_at l (e_random e l)
                end in
      Ok (pile_start n)
  end.

(** utils.py:327-343 with [max_steps = None]: steps until the outcome says termination
    (scheduling_domains.py:102-106), at least one.  Only the last state is kept
    (meta_policies.py:44 reads [states[-1]]). *)
Fixpoint episode (dm : domain) (pick : state -> res action) (dur : nat -> nat -> Z) (q : nat -> Z -> Z)
         (fuel : nat) (st : state) : res state :=
  match fuel with
  | O => Err OutOfFuel
  | S f => let* a := pick st in
           let* st' := next_state dm (drawn dur a) q st a in
           let* e := is_terminal dm st' in
           if is_goal st' || e then Ok st' else episode dm pick dur q f st'
  end.

(** meta_policies.py:35-44: the results of one policy, added over the roll-outs; one table of durations
    per roll-out ([nb_rollout_estimation] of them). *)
Fixpoint estimate (dm : domain) (pick : state -> res action) (durs : list (nat -> nat -> Z)) (q : nat -> Z -> Z)
         (fuel : nat) (st : state) : res Z :=
  match durs with
  | [] => Ok 0
  | dur :: r => let* e := episode dm pick dur q fuel st in
                let* x := estimate dm pick r q fuel st in
                Ok (s_t e - s_t st + x)
  end.

(** Python's [min(results, key=...)]: the first smallest, with its action. *)
Definition cheapest (x : Z * action) (l : list (Z * action)) : action :=
  snd (fold_left (fun b y => if fst y <? fst b then y else b) l x).

(** skdecide/hub/solver/meta_policy/meta_policies.py:27-51 [MetaPolicy._get_next_action], for policies
    of this file; the known domain and the one the policies ask are both [dm].
    - SchedulingAction defines neither [__eq__] nor [__hash__] and every policy builds a new object, so
      [len(set(actions_c))] is the number of policies.
    - [actions_map[method]] is the first action of the last roll-out: what the policy answers on the
      observation; without roll-outs the dictionary is empty and the lookup raises KeyError.
    - The in-place environment works on a copy of the observation: no effect on the caller. *)
Definition meta_next (dm : domain) (ps : list policy) (durs : list (nat -> nat -> Z)) (q : nat -> Z -> Z)
           (fuel : nat) (st : state) : res action :=
  let* acts := mapM (fun p => next_action dm p st) ps in
  if (1 <? length ps)%nat then
    let* results := mapM (fun p => estimate dm (next_action dm p) durs q fuel st) ps in
    match durs, combine results acts with
    | [], _ => Err KeyError
    | _, [] => Err ValueError
    | _, x :: l => Ok (cheapest x l)
    end
  else match acts with a :: _ => Ok a | [] => Err IndexError end.
