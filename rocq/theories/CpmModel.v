(** The critical path method:
    skdecide/builders/discrete_optimization/rcpsp/solver/cpm.py (class CPM).

    - The instance is the one of [SgsModel].
    - What the constructor asks networkx (cpm.py:39-59: nodes, immediate successors and predecessors,
      ancestors, descendants) is a parameter: record [nxg].  The lists of immediate neighbours are in
      the order in which Python iterates over the sets.
    - Dates are integers.  The heap is a sorted list of pairs (date, task): Python compares the tuples
      lexicographically and equal pairs cannot be told apart.
    - Line 115 compares task numbers with [is not]; here numbers are compared.
    - The dictionaries that explain delays ([effects_on_delay], [causes_of_delay],
      [unlock_task_transition], [resource_links_to_add]) are left out, but not the exceptions their
      construction raises; printing is left out. *)
From Coq Require Import String.
From Coq Require Import List Bool Arith ZArith.
From Verif Require Import Py PyList SgsModel.
Import ListNotations.

Record nxg := Nxg {
  n_nodes : list nat;
  n_succ : nat -> list nat;
  n_pred : nat -> list nat;
  n_desc : nat -> list nat;
  n_anc : nat -> list nat }.

(** cpm.py:12-17 *)
Record dates := Dates { d_es : option Z; d_ef : option Z; d_ls : option Z; d_lf : option Z }.

(** [min(mode_details)] and [max(mode_details)]: cpm.py:40-41. *)
Definition cpm_source (p : rcpsp) : res nat :=
  match dkeys (p_modes p) with [] => Err ValueError | x :: l => Ok (fold_left Nat.min l x) end.
Definition cpm_sink (p : rcpsp) : res nat := max_key (dkeys (p_modes p)).

(** [min([mode_details[node][k]["duration"] for k in mode_details[node]])]: cpm.py:85-86. *)
Definition min_duration (p : rcpsp) (n : nat) : res Z :=
  let* d := dgetE (p_modes p) n in
  match d with
  | [] => Err ValueError
  | km :: l => Ok (fold_left (fun x km => Z.min x (Z.of_nat (m_duration (snd km)))) l
                             (Z.of_nat (m_duration (snd km))))
  end.

(** The heap. *)
Definition zbefore (x y : Z * nat) : bool :=
  (fst x <? fst y)%Z || (fst x =? fst y)%Z && (snd x <=? snd y).
Definition zpush (x : Z * nat) (q : list (Z * nat)) : list (Z * nat) := sinsert zbefore x q.

(** The variables of [run_classic_cpm]. *)
Record pass := Pass {
  c_map : list (nat * dates);
  c_fw : list nat;          (* done_forward *)
  c_bw : list nat;          (* done_backward *)
  c_queue : list (Z * nat);
  c_forward : bool }.

(** cpm.py:79-90: the dates of the task taken from the heap. *)
Definition set_dates (forward : bool) (time dur : Z) (d : dates) : dates :=
  if forward then Dates (Some time) (Some (time + dur)%Z) (d_ls d) (d_lf d)
  else Dates (d_es d) (d_ef d) (Some (- time - dur)%Z) (Some (- time)%Z).

(** [self.map_node[n]._EFD] (or [_LSD]) for all [n]; [None] when a date used in the test
    [_ESD is not None] (or [_LSD]) is missing. *)
Fixpoint known (forward : bool) (mp : list (nat * dates)) (l : list nat) : res (option (list Z)) :=
  match l with
  | [] => Ok (Some [])
  | n :: l =>
      let* d := dgetE mp n in
      match (if forward then d_ef d else d_ls d) with
      | None => Ok None
      | Some x => let* r := known forward mp l in Ok (option_map (cons x) r)
      end
  end.

(** [max] and [min] of a list: cpm.py:101, 106-107. *)
Definition zmax (l : list Z) : res Z :=
  match l with [] => Err ValueError | x :: l => Ok (fold_left Z.max l x) end.
Definition zmin (l : list Z) : res Z :=
  match l with [] => Err ValueError | x :: l => Ok (fold_left Z.min l x) end.

(** cpm.py:96-108: one neighbour of the task. *)
Definition propose (g : nxg) (forward : bool) (mp : list (nat * dates)) (q : list (Z * nat)) (n : nat)
  : res (list (Z * nat)) :=
  let* k := known forward mp (if forward then n_pred g n else n_succ g n) in
  match k with
  | None => Ok q
  | Some l =>
      if forward then let* x := zmax l in Ok (zpush (x, n) q)
      else let* x := zmin l in Ok (zpush ((- x)%Z, n) q)
  end.

(** cpm.py:74-111: one turn of the loop, with (time, node) taken from the heap. *)
Definition visit (p : rcpsp) (g : nxg) (sink : nat) (st : pass) (time : Z) (node : nat) (q : list (Z * nat))
  : res pass :=
  let fw := c_forward st in
  if pymem node (if fw then c_fw st else c_bw st) then
    Ok (Pass (c_map st) (c_fw st) (c_bw st) q fw)
  else
    let* d := dgetE (c_map st) node in
    let* dur := min_duration p node in
    let d' := set_dates fw time dur d in
    let mp := dset (c_map st) node d' in
    let* q' := foldM (propose g fw mp) q (if fw then n_succ g node else n_pred g node) in
    let fwl := if fw then node :: c_fw st else c_fw st in
    let bwl := if fw then c_bw st else node :: c_bw st in
    if node =? sink then
      match d_ef d' with
      | None => Err TypeError
      | Some e => Ok (Pass mp fwl bwl (zpush ((- e)%Z, node) q') false)
      end
    else Ok (Pass mp fwl bwl q' fw).

Fixpoint pass_loop (fuel : nat) (p : rcpsp) (g : nxg) (sink : nat) (st : pass) : res pass :=
  match c_queue st with
  | [] => Ok st
  | (time, node) :: q =>
      match fuel with
      | 0 => Err OutOfFuel
      | S fuel => let* st' := visit p g sink st time node q in pass_loop fuel p g sink st'
      end
  end.

(** cpm.py:113-121: from the sink back to the source, the first predecessor without slack each time. *)
Definition same_date (x y : option Z) : bool :=
  match x, y with Some a, Some b => (a =? b)%Z | None, None => true | _, _ => false end.
Definition no_slack (mp : list (nat * dates)) (n : nat) : res bool :=
  let* d := dgetE mp n in Ok (same_date (d_es d) (d_ls d)).
Fixpoint filterM {A} (f : A -> res bool) (l : list A) : res (list A) :=
  match l with
  | [] => Ok []
  | x :: l => let* b := f x in let* l' := filterM f l in Ok (if b then x :: l' else l')
  end.
Fixpoint walk_back (fuel : nat) (g : nxg) (mp : list (nat * dates)) (source cur : nat) (path : list nat)
  : res (list nat) :=
  if cur =? source then Ok path
  else
    match fuel with
    | 0 => Err OutOfFuel
    | S fuel =>
        let* l := filterM (no_slack mp) (n_pred g cur) in
        match l with
        | [] => Err IndexError
        | n :: _ => walk_back fuel g mp source n (n :: path)
        end
    end.

(** [{n: CPMObject(None, None, None, None) ...}]: cpm.py:44-45. *)
Definition no_dates (g : nxg) : list (nat * dates) := map (fun n => (n, Dates None None None None)) (n_nodes g).

(** [queue = [(0, n) for n in available_activities]]: cpm.py:68-71. *)
Definition first_queue (g : nxg) : list (Z * nat) :=
  fold_left (fun q n => match n_anc g n with [] => zpush (0%Z, n) q | _ => q end) (n_nodes g) [].

(** A number of turns that is enough (theorem C56_dates). *)
Definition cpm_fuel (g : nxg) : nat :=
  length (n_nodes g) + list_sum (map (fun n => S (length (n_succ g n)) + S (length (n_pred g n))) (n_nodes g)).

(** CPM.run_classic_cpm (cpm.py:61-121) on a fresh object: the dates and the critical path. *)
Definition run_cpm (p : rcpsp) (g : nxg) : res (list (nat * dates) * list nat) :=
  let* source := cpm_source p in
  let* sink := cpm_sink p in
  let* st := pass_loop (cpm_fuel g) p g sink (Pass (no_dates g) [] [] (first_queue g) true) in
  let* path := walk_back (length (n_nodes g)) g (c_map st) source sink [sink] in
  Ok (c_map st, path).

(** [return_order_cpm]: cpm.py:123-125.  Dates that are [None] cannot be compared ([TypeError]); they
    are not met after [run_classic_cpm] (theorem C56_dates). *)
Definition date_le (mp : list (nat * dates)) (a b : nat) : bool :=
  match dget mp a, dget mp b with
  | Some (Dates (Some x) _ (Some y) _), Some (Dates (Some x') _ (Some y') _) =>
      (x <? x')%Z || (x =? x')%Z && (y <=? y')%Z
  | _, _ => true
  end.
Definition order_cpm (mp : list (nat * dates)) : list nat := ssort (date_le mp) (dkeys mp).

(** * run_sgs_on_order: cpm.py:127-255 *)

(** [resource_avail_in_time]: cpm.py:136-141 (and 286-291).  A slice of a list is a
    copy of it (availabilities given as numpy arrays, whose slices share the data, are not modelled). *)
Definition cpm_avail (p : rcpsp) : list (string * list Z) :=
  match p_res p with
  | Constant r => map (fun kv => (fst kv, repeat (snd kv) (p_horizon p))) r
  | Calendar r => map (fun kv => (fst kv, firstn (p_horizon p + 1) (snd kv))) r
  end.

(** [self.rcpsp_model.mode_details[j][1]] *)
Definition first_mode (p : rcpsp) (j : nat) : res mode := let* d := dgetE (p_modes p) j in dgetE d 1.

(** The variables that both generation schemes change. *)
Record sgs_vars := Vars {
  v_avail : list (string * list Z);
  v_min : list (nat * nat);               (* min_time_to_schedule *)
  v_done : list nat;
  v_sched : list (nat * (nat * nat));
  v_lost : list nat }.                    (* tasks refused at every date before the horizon *)

(** cpm.py:177-190: the time steps of one resource; [ressource_usage[res][t]] exists for the times
    before the horizon only. *)
Fixpoint row_ok (h : nat) (row : list Z) (need : res Z) (ts : list nat) : res bool :=
  match ts with
  | [] => Ok true
  | t :: ts =>
      let* x := lget row t in
      let* n := need in
      if (x <? n)%Z then (if t <? h then Ok false else Err KeyError) else row_ok h row need ts
  end.
Definition fits_at (p : rcpsp) (av : list (string * list Z)) (m : mode) (time : nat) : res bool :=
  allM (fun kv => row_ok (p_horizon p) (snd kv) (dgetE (m_need m) (fst kv)) (seq time (m_duration m))) av.

(** cpm.py:174-191: the first date, from [early] on, where the task fits; [None] when there is none
    before the horizon (the loop then ends without a word). *)
Fixpoint first_fit (p : rcpsp) (av : list (string * list Z)) (m : mode) (ts : list nat) : res (option nat) :=
  match ts with
  | [] => Ok None
  | t :: ts => let* b := fits_at p av m t in if b then Ok (Some t) else first_fit p av m ts
  end.

(** cpm.py:206-210: [resource_avail_in_time[res][t] -= ...] and [ressource_usage[res][t][j] = ...]. *)
Definition take_row (h : nat) (n : Z) (row : list Z) (ts : list nat) : res (list Z) :=
  foldM (fun row t => let* x := lget row t in
                      if (0 <? n)%Z && negb (t <? h) then Err KeyError else Ok (lset row t (x - n)%Z)) row ts.
Definition take_all (p : rcpsp) (m : mode) (time : nat) (av : list (string * list Z)) : res (list (string * list Z)) :=
  mapM (fun kv => match seq time (m_duration m) with
                  | [] => Ok kv
                  | ts => let* n := dgetE (m_need m) (fst kv) in
                          let* row := take_row (p_horizon p) n (snd kv) ts in Ok (fst kv, row)
                  end) av.

(** cpm.py:203-222 (and 333-350): the task is scheduled at [time]. *)
Definition place (p : rcpsp) (g : nxg) (j : nat) (m : mode) (time : nat) (v : sgs_vars) : res sgs_vars :=
  let e := time + m_duration m in
  let* av := take_all p m time (v_avail v) in
  let* mins := foldM (fun mins s => let* x := dgetE mins s in Ok (dset mins s (Nat.max x e))) (v_min v) (n_desc g j) in
  Ok (Vars av mins (pyadd (v_done v) j) (dset (v_sched v) j (time, e)) (v_lost v)).

(** cpm.py:164-224: [while len(ll) > 0].  [next] raises [StopIteration] when no task qualifies. *)
Definition cpm_ready (g : nxg) (dn : list nat) (t : nat) : bool := forallb (fun k => pymem k dn) (n_pred g t).
Fixpoint fill (fuel : nat) (p : rcpsp) (g : nxg) (ll : list nat) (v : sgs_vars) : res sgs_vars :=
  match ll with
  | [] => Ok v
  | _ =>
      match fuel with
      | 0 => Err OutOfFuel
      | S fuel =>
          match find (cpm_ready g (v_done v)) ll with
          | None => Err StopIteration
          | Some j =>
              let* early := dgetE (v_min v) j in
              let* m := first_mode p j in
              let* t := first_fit p (v_avail v) m (seq early (p_horizon p - early)) in
              let* v' := (match t with
                          | None => Ok (if early <? p_horizon p
                                        then Vars (v_avail v) (v_min v) (v_done v) (v_sched v) (j :: v_lost v) else v)
                          | Some t => place p g j m t v
                          end) in
              fill fuel p g (pyremove j ll) v'
          end
      end
  end.

(** [index_in_order[x]] and [sorted(..., key=...)]: cpm.py:135, 152-154, 238-241. *)
Fixpoint index_of (l : list nat) (x : nat) : option nat :=
  match l with
  | [] => None
  | y :: l => match index_of l x with
              | Some i => Some (S i)
              | None => if x =? y then Some 0 else None
              end
  end.
Definition index_le (order : list nat) (a b : nat) : bool :=
  match index_of order a, index_of order b with Some i, Some j => i <=? j | _, _ => true end.
Definition before_task (g : nxg) (order dn : list nat) (c : nat) : res (list nat) :=
  let l := filter (fun n => negb (pymem n dn)) (n_anc g c) in
  let* _ := mapM (fun n => match index_of order n with Some i => Ok i | None => Err KeyError end) l in
  Ok (ssort (index_le order) l).

(** cpm.py:158-241 with [cut_sgs_by_critical]: one critical task after the other.  The test on
    lines 227-230 only reads the start of the critical task. *)
Fixpoint by_critical (p : rcpsp) (g : nxg) (order critical : list nat) (v : sgs_vars) : res sgs_vars :=
  match critical with
  | [] => Ok v
  | c :: rest =>
      let* l := before_task g order (v_done v) c in
      let ll := l ++ [c] in
      let* v' := fill (length ll) p g ll v in
      if dmem (v_sched v') c then by_critical p g order rest v' else Err KeyError
  end.

(** [min_time_to_schedule]: cpm.py:148.  The dates come from [run_classic_cpm]: they are non-negative
    (theorem C56_dates); a missing one is an error as soon as it is used. *)
Definition min_times (mp : list (nat * dates)) : res (list (nat * nat)) :=
  mapM (fun kd => match d_es (snd kd) with Some x => Ok (fst kd, Z.to_nat x) | None => Err TypeError end) mp.

(** cpm.py:245-255: what follows the loop reads [current_schedule[j]] for the tasks whose start was
    refused at some date and [current_schedule[critical_path[-1]]]. *)
Definition report (critical : list nat) (v : sgs_vars) : res (list (nat * (nat * nat))) :=
  if forallb (dmem (v_sched v)) (v_lost v) then
    match critical with
    | [] => Err IndexError
    | _ => let* _ := dgetE (v_sched v) (last critical 0) in Ok (v_sched v)
    end
  else Err KeyError.

(** CPM.run_sgs_on_order: the schedule it returns.  [mp] is [self.map_node] (the argument [map_nodes]
    is not read); [order = None] is the default.  With an empty critical path the first branch raises
    [IndexError] (line 151). *)
Definition run_sgs_on_order (p : rcpsp) (g : nxg) (mp : list (nat * dates)) (critical : list nat)
  (order : option (list nat)) (cut : bool) : res (list (nat * (nat * nat))) :=
  let total := match order with Some o => o | None => order_cpm mp end in
  let* mins := min_times mp in
  let v := Vars (cpm_avail p) mins [] [] [] in
  if cut then
    match critical with
    | [] => Err IndexError
    | _ => let* v' := by_critical p g total critical v in report critical v'
    end
  else
    let* v' := fill (length total) p g total v in report critical v'.

(** * run_sgs_time_loop: cpm.py:278-364 *)

(** Lines 315-331: [break] on line 329 ends the loop on the time steps after the first one, and
    [break] on line 331 follows the loop on the resources: only the time step [cur_time] is looked at,
    for every resource. *)
Definition fits_now (p : rcpsp) (av : list (string * list Z)) (m : mode) (time : nat) : res bool :=
  foldM (fun ok kv => let* b := row_ok (p_horizon p) (snd kv) (dgetE (m_need m) (fst kv)) (firstn 1 (seq time (m_duration m)))
                      in Ok (ok && b)) true av.

(** Lines 306-353: the first of the ten tasks that can start now is started, and the loop ends there. *)
Fixpoint start_one (p : rcpsp) (g : nxg) (now : nat) (l : list nat) (v : sgs_vars) : res sgs_vars :=
  match l with
  | [] => Ok v
  | j :: l =>
      let* early := dgetE (v_min v) j in
      let* ok := allM (fun k => if pymem k (v_done v) then let* se := dgetE (v_sched v) k in Ok (snd se <=? now)
                                else Ok false) (n_pred g j) in
      if ok && (early <=? now) then
        let* m := first_mode p j in
        let* b := fits_now p (v_avail v) m now in
        if b then place p g j m now v else start_one p g now l v
      else start_one p g now l v
  end.

(** [while len(done) < nb_task]; [fuel] bounds the number of time steps. *)
Fixpoint time_loop (fuel : nat) (p : rcpsp) (g : nxg) (nb : nat) (order : list nat) (now : nat) (v : sgs_vars)
  : res sgs_vars :=
  if length (v_done v) <? nb then
    match fuel with
    | 0 => Err OutOfFuel
    | S fuel =>
        let todo := firstn 10 (filter (fun t => negb (pymem t (v_done v))) order) in
        let* v' := start_one p g now todo v in
        time_loop fuel p g nb order (now + 1) v'
    end
  else Ok v.

Definition run_sgs_time_loop (fuel : nat) (p : rcpsp) (g : nxg) (mp : list (nat * dates)) (critical : list nat)
  (order : option (list nat)) : res (list (nat * (nat * nat))) :=
  let total := match order with Some o => o | None => order_cpm mp end in
  let* mins := min_times mp in
  let* v := time_loop fuel p g (length mp) total 0 (Vars (cpm_avail p) mins [] [] []) in
  report critical v.
