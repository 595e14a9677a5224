(** Model of the translation between scheduling domains and discrete-optimisation problems:
    skdecide/hub/solver/do_solver/sk_to_do_binding.py, with the hub domains it builds
    (skdecide/hub/domain/rcpsp/rcpsp_sk.py:16-173) and the construction of a solution from a schedule
    (skdecide/builders/discrete_optimization/rcpsp/rcpsp_model.py:31-69, 106-111).

    - The multi-skill problems (sk_to_do_binding.py:113-163 and 218-274) are not modelled here.
    - The domain's methods are kept as functions of their arguments; of [initialize_domain] only the new value of
      [successors] is kept (the rest prepares the simulation).
    - A dictionary filled by a loop over the keys of another dictionary gets the same keys in the same order
      ([mapM] over the entries). *)
From Coq Require Import String List Bool Arith ZArith.
From Verif Require Import Py PyList SgsModel.
Import ListNotations.
Open Scope string_scope.

(** An entry [mode_details[task][mode]] of a discrete-optimisation problem: the needs of the resources
    together with the key "duration" (rcpsp_model.py:478-479). *)
Definition needs := list (string * Z).
Definition details := list (nat * list (nat * needs)).

(** The problems: RCPSPModelCalendar when the resources are calendars; otherwise SingleModeRCPSPModel when
    [d_single], else MultiModeRCPSPModel or RCPSPModel (rcpsp_model.py:481-499, 693-709, 778-823). *)
Record do_model := Do {
  d_single : bool;
  d_res : capacities;
  d_nonren : list string;
  d_details : details;
  d_succ : list (nat * list nat);
  d_horizon : nat;
  d_mult : nat }.

(** modes.py:31-72: what a task consumes in a mode. *)
Inductive consumption :=
| ConstantUse (d : list (string * list Z))
| VaryingUse (d : list (string * list Z)).

Definition use_names (c : consumption) : list string := match c with ConstantUse d | VaryingUse d => dkeys d end.

(** [get_resource_need_at_time]: modes.py:36-42 and 65-72. *)
Definition use_at (c : consumption) (r : string) (t : nat) : res Z :=
  match c with
  | ConstantUse d => lget (match dget d r with Some l => l | None => [0%Z] end) 0
  | VaryingUse d => match dget d r with Some l => lget l t | None => Ok 0%Z end
  end.

(** The families of domains told apart by [isinstance] (sk_to_do_binding.py:34, 53, 72, 91); the multi-mode
    domains with uncertain durations and the conditional ones match none of the tests. *)
Inductive sk_kind := KSingle | KSingleUncertain | KMulti | KCalendar | KOther.

(** A scheduling domain, through the methods that are called. *)
Record sk_domain := Sk {
  k_kind : sk_kind;
  k_names : list string;                                  (* get_resource_types_names *)
  k_ids : list nat;                                       (* get_tasks_ids *)
  k_modes : list (nat * list (nat * consumption));        (* get_tasks_modes *)
  k_duration : nat -> nat -> res Z;                       (* get_task_duration, or sample_task_duration *)
  k_original : string -> res Z;                           (* get_original_quantity_resource *)
  k_quantity : string -> nat -> res Z;                    (* get_quantity_resource *)
  k_renewable : list (string * bool);                     (* get_resource_renewability *)
  k_succ : list (nat * list nat);                         (* get_successors *)
  k_horizon : nat }.                                      (* get_max_horizon *)

(** [mode_details_do[task][mode]]: sk_to_do_binding.py:40-43.  The key "duration" replaces a resource of that
    name. *)
Definition make_entry (k : sk_domain) (task mode : nat) (c : consumption) : res needs :=
  let* e := mapM (fun r => let* n := use_at c r 0 in Ok (r, n)) (use_names c) in
  let* d := k_duration k task mode in
  Ok (dset e "duration" d).

(** sk_to_do_binding.py:35-43, and the same lines of the other branches. *)
Definition make_details (k : sk_domain) : res details :=
  mapM (fun tm : nat * list (nat * consumption) =>
    let* d := mapM (fun mc : nat * consumption =>
                      let* e := make_entry k (fst tm) (fst mc) (snd mc) in Ok (fst mc, e)) (snd tm) in
    Ok (fst tm, d)) (k_modes k).

(** A dictionary comprehension over a list of names. *)
Definition make_dict {V} (f : string -> res V) (l : list string) : res (list (string * V)) :=
  foldM (fun d r => let* v := f r in Ok (dset d r v)) [] l.

(** sk_to_do_binding.py:46-48 *)
Definition make_nonren (k : sk_domain) : list string :=
  map fst (filter (fun rb : string * bool => negb (snd rb)) (k_renewable k)).

(** [build_do_domain]: sk_to_do_binding.py:26-112; [None] when no test applies. *)
Definition build_do (k : sk_domain) : res (option do_model) :=
  match k_kind k with
  | KSingle | KSingleUncertain =>
      let* d := make_details k in
      let* c := make_dict (k_original k) (k_names k) in
      Ok (Some (Do true (Constant c) (make_nonren k) d (k_succ k) (k_horizon k) 1))
  | KMulti =>
      let* d := make_details k in
      let* c := make_dict (k_original k) (k_names k) in
      Ok (Some (Do false (Constant c) (make_nonren k) d (k_succ k) (k_horizon k) 1))
  | KCalendar =>
      let* d := make_details k in
      let* c := make_dict (fun r => mapM (fun t => k_quantity k r t) (seq 0 (k_horizon k))) (k_names k) in
      Ok (Some (Do false (Calendar c) (make_nonren k) d (k_succ k) (k_horizon k) 1))
  | KOther => Ok None
  end.

(** [MRCPSP.__init__]: rcpsp_sk.py:28-38, the consumption and the duration of each mode. *)
Definition read_entry (names : list string) (e : needs) : res (consumption * Z) :=
  let* d := dgetE e "duration" in
  Ok (ConstantUse (map (fun rn : string * Z => (fst rn, [snd rn])) (filter (fun rn => pymem (fst rn) names) e)), d).
Definition read_details (names : list string) (ds : details)
  : res (list (nat * list (nat * (consumption * Z)))) :=
  mapM (fun tm : nat * list (nat * needs) =>
    let* d := mapM (fun me : nat * needs => let* x := read_entry names (snd me) in Ok (fst me, x)) (snd tm) in
    Ok (fst tm, d)) ds.

(** rcpsp_sk.py:60-61 *)
Definition duration_in (ds : list (nat * list (nat * (consumption * Z)))) (task mode : nat) : res Z :=
  let* d := dgetE ds task in let* x := dgetE d mode in Ok (snd x).

Definition only_modes (ds : list (nat * list (nat * (consumption * Z)))) : list (nat * list (nat * consumption)) :=
  map (fun tm => (fst tm, map (fun mx : nat * (consumption * Z) => (fst mx, fst (snd mx))) (snd tm))) ds.

Definition sorted_ids (ds : details) : list nat := ssort Nat.leb (dkeys ds).

(** Python's [max] of a list. *)
Definition maxz (l : list Z) : res Z :=
  match l with [] => Err ValueError | x :: l => Ok (fold_left Z.max l x) end.

(** [resource_renewable]: sk_to_do_binding.py:180-181, 192-193, 203-204, 214-215. *)
Definition renewability (m : do_model) (names : list string) : list (string * bool) :=
  map (fun r => (r, negb (pymem r (d_nonren m)))) names.

(** [initialize_domain] (scheduling_domains.py:199-209) replaces [self.successors] by the successors in the
    graph of [compute_graph] (218-229): graph_toolbox.py:66-70 and 89-91 with networkx's [add_nodes_from],
    [add_edges_from] and [neighbors].  The nodes are the tasks, then the other ends of edges; the successors of a
    node are in the order of the edges, each once. *)
Definition add_node (g : list (nat * list nat)) (n : nat) : list (nat * list nat) :=
  if dmem g n then g else dset g n [].
Definition add_edge (g : list (nat * list nat)) (u v : nat) : list (nat * list nat) :=
  let g := add_node (add_node g u) v in
  dset g u (pyadd (match dget g u with Some l => l | None => [] end) v).
Definition graph_successors (ids : list nat) (succ : list (nat * list nat)) : list (nat * list nat) :=
  fold_left (fun g nl => fold_left (fun g v => add_edge g (fst nl) v) (snd nl) g) succ
    (fold_left add_node ids []).
(** The successors that a domain built from a problem answers. *)
Definition new_successors (m : do_model) : list (nat * list nat) :=
  graph_successors (sorted_ids (d_details m)) (d_succ m).

(** [MRCPSP]: rcpsp_sk.py:16-68. *)
Definition mrcpsp (names : list string) (m : do_model) (avail : list (string * Z)) : res sk_domain :=
  let* ds := read_details names (d_details m) in
  Ok (Sk KMulti names (sorted_ids (d_details m)) (only_modes ds) (duration_in ds)
         (fun r => dgetE avail r) (fun r _ => dgetE avail r) (renewability m names) (new_successors m) (d_horizon m)).

(** [MRCPSPCalendar]: rcpsp_sk.py:78-139. *)
Definition mrcpsp_calendar (names : list string) (m : do_model) (avail : list (string * list Z)) : res sk_domain :=
  let* ds := read_details names (d_details m) in
  let* top := mapM (fun rl : string * list Z => let* x := maxz (snd rl) in Ok (fst rl, x)) avail in
  Ok (Sk KCalendar names (sorted_ids (d_details m)) (only_modes ds) (duration_in ds)
         (fun r => dgetE top r) (fun r t => let* l := dgetE avail r in lget l t)
         (renewability m names) (new_successors m) (d_horizon m)).

(** [RCPSP]: rcpsp_sk.py:142-158.  The class is multi-mode: it inherits from MRCPSP and from SingleMode but not
    from SingleModeRCPSP, and the methods of MRCPSP come first. *)
Definition rcpsp_single (names : list string) (m : do_model) (avail : list (string * Z)) : res sk_domain :=
  let* k := mrcpsp names m avail in
  let* _ := mapM (fun tm : nat * list (nat * consumption) => dgetE (snd tm) 1) (k_modes k) in
  Ok k.

(** [build_sk_domain]: sk_to_do_binding.py:167-216. *)
Definition build_sk (varying : bool) (m : do_model) : res sk_domain :=
  match d_res m with
  | Calendar c =>
      if varying then mrcpsp_calendar (dkeys c) m c
      else let* top := mapM (fun rl : string * list Z => let* x := maxz (snd rl) in Ok (fst rl, x)) c in
           mrcpsp (dkeys c) m top
  | Constant c => if d_single m then rcpsp_single (dkeys c) m c else mrcpsp (dkeys c) m c
  end.

(** ** Solutions *)

(** The last state of a simulation: [tasks_mode] and [tasks_details], whose start and end are known. *)
Record last_state := Last { s_mode : list (nat * nat); s_times : list (nat * (Z * Z)) }.

(** rcpsp_model.py:106-111 [generate_permutation_from_schedule] *)
Definition permutation_of (sch : schedule) : res (list Z) :=
  let l := map (fun x : nat * (Z * Z) => (Z.of_nat (fst x) - 2)%Z)
             (ssort (fun x y : nat * (Z * Z) => (fst (snd x) <=? fst (snd y))%Z) sch) in
  if pymem (-1)%Z l then
    let l := pyremove (-1)%Z l in
    let* x := maxz l in
    Ok (pyremove x l)
  else Err ValueError.

(** What is kept of an RCPSPSolution. *)
Record solution := Sol {
  sol_problem : option do_model;
  sol_perm : list Z;
  sol_modes : list nat;
  sol_schedule : schedule }.

(** [from_last_state_to_solution]: sk_to_do_binding.py:14-23, and RCPSPSolution.__init__
    (rcpsp_model.py:31-69) with modes, a schedule and no permutation. *)
Definition last_solution (s : last_state) (k : sk_domain) : res solution :=
  let modes := map (fun j => match dget (s_mode s) j with Some x => x | None => 1 end) (ssort Nat.leb (k_ids k)) in
  let* m := build_do k in
  let* p := permutation_of (s_times s) in
  Ok (Sol m p (removelast (tl modes)) (s_times s)).
