(** Model of the Rollout Iterated Width solver of the C++ hub, cpp/src/hub/solver/riw.hh (class RIWSolver,
    sequential execution, states hashed by the domain: DomainStateHash, riw.hh:31-51), as driven by
    skdecide/hub/solver/riw/riw.py.

    Values and rewards are rationals (the code uses doubles: rounding is not modelled).  A node is identified by
    its state; a [Node*] is that state, and following the pointer of a node that is no longer in the graph is
    undefined behaviour, reported as [AttributeError].  The depth is a size_t: arithmetic modulo 2^64.  The clock
    is an oracle: its n-th reading, in milliseconds since the start of the call.  The random draws are an oracle
    too: any child that may be drawn can be drawn, the weights of the draw (riw.hh:559-570) are left out.  The
    order in which an [unordered_set] is visited is the oracle [order].  The domain is deterministic, as the
    comment of riw.hh:776 assumes.  Logging, threads and mutexes are left out. *)
From Coq Require Import List Bool Arith ZArith QArith.
From Verif Require Import Py PyList.
From Verif Require PomcpModel IwModel.
Import ListNotations.
Open Scope nat_scope.

#[export] Existing Instance PomcpModel.PyEq_list.

(** std::numeric_limits<double>::max(), and the arithmetic of size_t *)
Definition dbl_max : Q := inject_Z (2 ^ 1024 - 2 ^ 971).
Definition wrap (z : Z) : Z := (z mod 2 ^ 64)%Z.
Definition size_max : Z := (2 ^ 64 - 1)%Z.

Definition Qltb (a b : Q) : bool := negb (Qle_bool b a).

Section Riw.
Context {St A V : Type} {ES : PyEq St} {EV : PyEq V}.

Record problem := {
  apps : St -> list A;              (* get_applicable_actions(s).get_elements() *)
  next : St -> A -> St;             (* the state of the outcome of [sample] or [step] *)
  reward : St -> A -> Q;            (* its reward *)
  is_terminal : St -> bool;         (* whether the outcome leading to that state is terminal *)
  features : St -> list V;          (* state_features *)
  initial : St }.                   (* where [reset] puts the environment *)

(** riw.py:52-68: the arguments of the solver *)
Record params := {
  time_budget : nat; rollout_budget : nat; max_depth : Z; discount : Q;
  online_node_garbage : bool; use_simulation_domain : bool }.

Variables (p : problem) (c : params) (clock : nat -> nat) (draw : nat -> nat) (order : list St -> list St).

(** riw.hh:352-364 struct Node.  A child is an action, the reward and the next node when it is known.
    [best_action] points into the children: it is an index. *)
Record node := {
  n_children : list (A * Q * option St);
  n_parents : list St;
  n_value : Q;
  n_depth : Z;
  n_novelty : option nat;
  n_best : option nat;
  n_terminal : bool;
  n_pruned : bool;
  n_solved : bool }.

(** riw.hh:366-379 *)
Definition new_node : node :=
  {| n_children := []; n_parents := []; n_value := (- dbl_max)%Q; n_depth := size_max; n_novelty := None;
     n_best := None; n_terminal := false; n_pruned := false; n_solved := false |}.

Definition set_children (n : node) l := {| n_children := l; n_parents := n_parents n; n_value := n_value n;
  n_depth := n_depth n; n_novelty := n_novelty n; n_best := n_best n; n_terminal := n_terminal n;
  n_pruned := n_pruned n; n_solved := n_solved n |}.
Definition set_parents (n : node) l := {| n_children := n_children n; n_parents := l; n_value := n_value n;
  n_depth := n_depth n; n_novelty := n_novelty n; n_best := n_best n; n_terminal := n_terminal n;
  n_pruned := n_pruned n; n_solved := n_solved n |}.
Definition set_value (n : node) v := {| n_children := n_children n; n_parents := n_parents n; n_value := v;
  n_depth := n_depth n; n_novelty := n_novelty n; n_best := n_best n; n_terminal := n_terminal n;
  n_pruned := n_pruned n; n_solved := n_solved n |}.
Definition set_depth (n : node) d := {| n_children := n_children n; n_parents := n_parents n; n_value := n_value n;
  n_depth := d; n_novelty := n_novelty n; n_best := n_best n; n_terminal := n_terminal n;
  n_pruned := n_pruned n; n_solved := n_solved n |}.
Definition set_novelty (n : node) v := {| n_children := n_children n; n_parents := n_parents n; n_value := n_value n;
  n_depth := n_depth n; n_novelty := Some v; n_best := n_best n; n_terminal := n_terminal n;
  n_pruned := n_pruned n; n_solved := n_solved n |}.
Definition set_best (n : node) v b := {| n_children := n_children n; n_parents := n_parents n; n_value := v;
  n_depth := n_depth n; n_novelty := n_novelty n; n_best := b; n_terminal := n_terminal n;
  n_pruned := n_pruned n; n_solved := n_solved n |}.
Definition set_terminal (n : node) t := {| n_children := n_children n; n_parents := n_parents n; n_value := n_value n;
  n_depth := n_depth n; n_novelty := n_novelty n; n_best := n_best n; n_terminal := t;
  n_pruned := n_pruned n; n_solved := n_solved n |}.
Definition set_pruned (n : node) b := {| n_children := n_children n; n_parents := n_parents n; n_value := n_value n;
  n_depth := n_depth n; n_novelty := n_novelty n; n_best := n_best n; n_terminal := n_terminal n;
  n_pruned := b; n_solved := n_solved n |}.
Definition set_solved (n : node) b := {| n_children := n_children n; n_parents := n_parents n; n_value := n_value n;
  n_depth := n_depth n; n_novelty := n_novelty n; n_best := n_best n; n_terminal := n_terminal n;
  n_pruned := n_pruned n; n_solved := b |}.

Local Notation graph := (list (St * node)).

(** Following a pointer *)
Definition at_ (g : graph) (s : St) : res node := match dget g s with Some n => Ok n | None => Err AttributeError end.
Definition on (g : graph) (s : St) (f : node -> node) : res graph := let* n := at_ g s in Ok (dset g s (f n)).

(** [_graph.emplace(Node(s, ...))]: the graph and whether the node is new *)
Definition emplace (g : graph) (s : St) : graph * bool := if dmem g s then (g, false) else (dset g s new_node, true).

(** *** riw.hh:886-951 the backup of the values *)

(** riw.hh:918-927: one child of [x]; the fields of [x] are updated in place *)
Definition update_child (x : St) (g : graph) (e : nat * (A * Q * option St)) : res graph :=
  let '(i, (_, r, ch)) := e in
  let* n := at_ g x in
  match ch with
  | None => Ok (dset g x (set_solved n false))
  | Some k =>
      let* m := at_ g k in
      let n1 := set_solved n (n_solved n && n_solved m) in
      let t := (r + discount c * n_value m)%Q in
      Ok (dset g x (if Qltb (n_value n1) t then set_best n1 t (Some i) else n1))
  end.

Definition enum {B} (l : list B) : list (nat * B) := combine (seq 0 (length l)) l.

(** riw.hh:913-928: a parent of a node of the frontier *)
Definition update_parent (g : graph) (x : St) : res graph :=
  let* n := at_ g x in
  foldM (update_child x) (dset g x (set_best (set_solved n true) (- dbl_max)%Q None)) (enum (n_children n)).

(** riw.hh:912-931 update_frontier *)
Definition update_frontier (st : graph * list St) (k : St) : res (graph * list St) :=
  let '(g, new) := st in
  let* n := at_ g k in
  foldM (fun st x => let* g' := update_parent (fst st) x in Ok (g', pyadd (snd st) x)) (g, new) (order (n_parents n)).

(** riw.hh:889-898: the value of a pruned node: the worst reward until the maximum depth *)
Definition tail_value (minr : Q) (d : Z) : Q :=
  Nat.iter (Z.to_nat (wrap (max_depth c - d))) (fun v => (minr + discount c * v)%Q) 0%Q.
Definition tip (minr : Q) (g : graph) (k : St) : res graph :=
  let* n := at_ g k in
  Ok (if n_pruned n then dset g k (set_value n (tail_value minr (n_depth n))) else g).

(** riw.hh:900-907: at most [max_depth + 1] rounds *)
Fixpoint backup_loop (rounds : nat) (g : graph) (frontier : list St) : res graph :=
  match rounds with
  | 0 => Ok g
  | S rounds' =>
      match frontier with
      | [] => Ok g
      | _ => let* r := foldM update_frontier (g, []) (order frontier) in backup_loop rounds' (fst r) (snd r)
      end
  end.

(** riw.hh:887-908 *)
Definition backup_values (minr : Q) (g : graph) (frontier : list St) : res graph :=
  let* g1 := foldM (tip minr) g (order frontier) in
  backup_loop (S (Z.to_nat (max_depth c))) g1 frontier.

(** *** riw.hh:656-685 novelty *)
Local Notation table := (list (list (nat * V) * Z)).

(** riw.hh:666-677: one call of the lambda *)
Definition novelty_tuple (f : list V) (d : Z) (nn : bool) (k : nat) (st : nat * bool * table) (cv : list nat)
    : res (nat * bool * table) :=
  let '(nov, novel, tbl) := st in
  let* t := mapM (fun i => let* v := lget f i in Ok (i, v)) cv in
  match dget tbl t with
  | None => Ok (Nat.min nov k, true, dset tbl t d)
  | Some d0 =>
      Ok (nov, novel || (nn && (d <? d0)%Z) || (negb nn && (d0 =? d)%Z), dset tbl t (Z.min d0 d))
  end.

(** riw.hh:662-679; the combinations are those of iw.hh ([generate_tuples], riw.hh:687-714, is the same text) *)
Definition novelty_size (f : list V) (d : Z) (nn : bool) (st : nat * bool * list table) (k : nat)
    : res (nat * bool * list table) :=
  let '(nov, novel, tbls) := st in
  let* tbl := lget tbls (k - 1) in
  let* cvs := IwModel.generate_tuples k (length f) in
  let* r := foldM (novelty_tuple f d nn k) (nov, novel, tbl) cvs in
  let '(nov', novel', tbl') := r in
  let* tbls' := lput tbls (k - 1) tbl' in
  Ok (nov', novel', tbls').

Definition novelty_of (width : nat) (tbls : list table) (f : list V) (d : Z) (nn : bool) : res (nat * bool * list table) :=
  foldM (novelty_size f d nn) (S (length f), false, tbls) (seq 1 (Nat.min width (length f))).

(** *** The state of the solver.  [w_changed], [w_pruned] and [w_end] belong to one run at a given width
    ([_min_reward_changed], [states_pruned] and [reached_end_of_trajectory_once]); [w_env] is the state of the
    environment and [w_prefix] the actions it is replayed; the last two fields count the readings of the oracles. *)
Record world := {
  w_graph : graph; w_tuples : list table; w_min : Q; w_changed : bool; w_rollouts : nat;
  w_pruned : bool; w_end : bool; w_env : St; w_prefix : list A; w_ticks : nat; w_draws : nat }.

Definition with_graph (w : world) g := {| w_graph := g; w_tuples := w_tuples w; w_min := w_min w;
  w_changed := w_changed w; w_rollouts := w_rollouts w; w_pruned := w_pruned w; w_end := w_end w;
  w_env := w_env w; w_prefix := w_prefix w; w_ticks := w_ticks w; w_draws := w_draws w |}.
Definition with_tuples (w : world) t := {| w_graph := w_graph w; w_tuples := t; w_min := w_min w;
  w_changed := w_changed w; w_rollouts := w_rollouts w; w_pruned := w_pruned w; w_end := w_end w;
  w_env := w_env w; w_prefix := w_prefix w; w_ticks := w_ticks w; w_draws := w_draws w |}.
Definition with_min (w : world) m ch := {| w_graph := w_graph w; w_tuples := w_tuples w; w_min := m;
  w_changed := ch; w_rollouts := w_rollouts w; w_pruned := w_pruned w; w_end := w_end w;
  w_env := w_env w; w_prefix := w_prefix w; w_ticks := w_ticks w; w_draws := w_draws w |}.
Definition with_rollouts (w : world) n := {| w_graph := w_graph w; w_tuples := w_tuples w; w_min := w_min w;
  w_changed := w_changed w; w_rollouts := n; w_pruned := w_pruned w; w_end := w_end w;
  w_env := w_env w; w_prefix := w_prefix w; w_ticks := w_ticks w; w_draws := w_draws w |}.
Definition with_flags (w : world) pr e := {| w_graph := w_graph w; w_tuples := w_tuples w; w_min := w_min w;
  w_changed := w_changed w; w_rollouts := w_rollouts w; w_pruned := pr; w_end := e;
  w_env := w_env w; w_prefix := w_prefix w; w_ticks := w_ticks w; w_draws := w_draws w |}.
Definition with_env (w : world) s := {| w_graph := w_graph w; w_tuples := w_tuples w; w_min := w_min w;
  w_changed := w_changed w; w_rollouts := w_rollouts w; w_pruned := w_pruned w; w_end := w_end w;
  w_env := s; w_prefix := w_prefix w; w_ticks := w_ticks w; w_draws := w_draws w |}.
Definition with_prefix (w : world) l := {| w_graph := w_graph w; w_tuples := w_tuples w; w_min := w_min w;
  w_changed := w_changed w; w_rollouts := w_rollouts w; w_pruned := w_pruned w; w_end := w_end w;
  w_env := w_env w; w_prefix := l; w_ticks := w_ticks w; w_draws := w_draws w |}.
Definition with_oracles (w : world) t d := {| w_graph := w_graph w; w_tuples := w_tuples w; w_min := w_min w;
  w_changed := w_changed w; w_rollouts := w_rollouts w; w_pruned := w_pruned w; w_end := w_end w;
  w_env := w_env w; w_prefix := w_prefix w; w_ticks := t; w_draws := d |}.

Definition read_clock (w : world) : nat * world := (clock (w_ticks w), with_oracles w (S (w_ticks w)) (w_draws w)).

(** riw.hh:96-100 (environment) and riw.hh:130 (simulation) *)
Definition init_rollout (w : world) : world :=
  if use_simulation_domain c then w else with_env w (fold_left (next p) (w_prefix w) (initial p)).

(** riw.hh:102-107 and riw.hh:132-137: where the outcome is computed from, and the state of the environment after *)
Definition progress (w : world) (s : St) (a : A) : St * Q * bool * world :=
  let from := if use_simulation_domain c then s else w_env w in
  (next p from a, reward p from a, is_terminal p (next p from a),
   if use_simulation_domain c then w else with_env w (next p from a)).

(** riw.hh:109-119 and riw.hh:139-143 *)
Definition advance (w : world) (a : A) (record : bool) : world :=
  if use_simulation_domain c then w
  else if record then with_prefix w (w_prefix w ++ [a]) else with_env w (next p (w_env w) a).

(** riw.hh:796-816 update_node *)
Definition update_node (w : world) (k : St) (sv : bool) : res world :=
  let* g := on (w_graph w) k (fun n => set_value (set_solved n sv) 0%Q) in
  let frontier := if w_changed w then map fst (filter (fun e => match n_children (snd e) with [] => true | _ => false end) g)
                  else [k] in
  let* g' := backup_values (w_min w) g frontier in
  Ok (with_min (with_graph w g') (w_min w) false).

(** riw.hh:551-557: the applicable actions of a node without children *)
Definition expand (g : graph) (k : St) : res graph :=
  on g k (fun n => match n_children n with [] => set_children n (map (fun a => (a, 0%Q, None)) (apps p k)) | _ => n end).

(** riw.hh:559-570: the children that may be drawn *)
Definition unsolved (g : graph) (k : St) : res (list nat) :=
  let* n := at_ g k in
  let* l := mapM (fun e => match snd (snd e) with
                           | None => Ok [fst e]
                           | Some m => let* x := at_ g m in Ok (if n_solved x then [] else [fst e])
                           end) (enum (n_children n)) in
  Ok (concat l).

(** riw.hh:717-794 fill_child_node: the solver, the next node and whether it is new *)
Definition fill_child (w : world) (k : St) (i : nat) : res (world * St * bool) :=
  let* n := at_ (w_graph w) k in
  let* e := lget (n_children n) i in
  let '(a, r0, ch) := e in
  match ch with
  | None =>
      let '(y, r, term, w1) := progress w k a in
      let '(g1, new) := emplace (w_graph w1) y in
      let* g2 := on g1 k (fun n => set_children n (lset (n_children n) i (a, r, Some y))) in
      let w2 := if Qltb r (w_min w1) then with_min w1 r true else w1 in
      let* g3 := on g2 y (fun m => set_parents m (pyadd (n_parents m) k)) in
      let* n3 := at_ g3 k in
      if new then
        let* g4 := on g3 y (fun m => set_terminal (set_depth m (wrap (n_depth n3 + 1))) term) in
        let w3 := if term && Qltb 0%Q (w_min w2) then with_min w2 0%Q true else w2 in
        Ok (with_graph w3 g4, y, true)
      else
        let* g4 := on g3 y (fun m => set_depth m (Z.min (n_depth m) (wrap (n_depth n3 + 1)))) in
        Ok (with_graph w2 g4, y, false)
  | Some y =>
      let w1 := advance w a false in
      let* g1 := on (w_graph w1) y (fun m => set_depth m (Z.min (n_depth m) (wrap (n_depth n + 1)))) in
      Ok (with_graph w1 g1, y, false)
  end.

(** riw.hh:656-685 on a node of the graph *)
Definition novelty (width : nat) (w : world) (k : St) (nn : bool) : res (world * bool) :=
  let* n := at_ (w_graph w) k in
  let* r := novelty_of width (w_tuples w) (features p k) (n_depth n) nn in
  let '(nov, novel, tbls) := r in
  Ok (with_tuples (with_graph w (dset (w_graph w) k (set_novelty n nov))) tbls, novel).

(** riw.hh:538-651: the loop of a rollout, from the node [k] *)
Fixpoint rollout_loop (fuel : nat) (width : nat) (w : world) (k : St) : res world :=
  let* n := at_ (w_graph w) k in
  if n_solved n then Ok w
  else
    match fuel with
    | 0 => Err OutOfFuel
    | S fuel' =>
        let* g1 := expand (w_graph w) k in
        let* l := unsolved g1 k in
        match l with
        | [] => Err RuntimeError
        | i0 :: _ =>
            let i := nth (draw (w_draws w) mod length l) l i0 in
            let w1 := with_oracles (with_graph w g1) (w_ticks w) (S (w_draws w)) in
            let* r := fill_child w1 k i in
            let '(w2, y, new) := r in
            let* m := at_ (w_graph w2) y in
            if n_terminal m || n_solved m then
              let* w3 := update_node w2 y true in Ok (with_flags w3 (w_pruned w3) true)
            else
              let* r := novelty width w2 y new in
              let '(w3, novel) := r in
              if negb novel then
                let* g4 := on (w_graph w3) y (fun m => set_pruned m true) in
                update_node (with_flags (with_graph w3 g4) true (w_end w3)) y true
              else if (max_depth c <=? n_depth m)%Z then
                let* w4 := update_node w3 y true in Ok (with_flags w4 (w_pruned w4) true)
              else
                let '(time, w4) := read_clock w3 in
                if time_budget c <=? time then
                  match n_children m with [] => update_node w4 y false | _ => Ok w4 end
                else rollout_loop fuel' width w4 y
        end
    end.

(** riw.hh:523-536 *)
Definition rollout (fuel : nat) (width : nat) (w : world) (root : St) : res world :=
  rollout_loop fuel width (init_rollout (with_rollouts w (S (w_rollouts w)))) root.

(** riw.hh:470-474: the rollouts of a run; [rounds] starts above the rollout budget *)
Fixpoint rollouts (rounds fuel : nat) (width : nat) (w : world) (root : St) : res world :=
  let* n := at_ (w_graph w) root in
  if n_solved n then Ok w
  else
    let '(time, w1) := read_clock w in
    if (time <? time_budget c) && (w_rollouts w1 <? rollout_budget c) then
      match rounds with
      | 0 => Err OutOfFuel
      | S rounds' => let* w2 := rollout fuel width w1 root in rollouts rounds' fuel width w2 root
      end
    else Ok w1.

(** riw.hh:435-492 WidthSolver::solve *)
Definition width_solve (fuel : nat) (w : world) (width : nat) (s : St) : res (bool * world) :=
  let g0 := map (fun e => (fst e, set_pruned (set_solved (snd e) false) false)) (w_graph w) in
  let '(g1, _) := emplace g0 s in
  let* g2 := on g1 s (fun n => set_depth n 0%Z) in
  let tbls := if length (w_tuples w) <? width then w_tuples w ++ [[]] else w_tuples w in
  let w1 := with_flags (with_min (with_tuples (with_graph w g2) tbls) (w_min w) false) false false in
  let* r := novelty width w1 s true in
  let* w2 := rollouts (S (rollout_budget c)) fuel width (fst r) s in
  let '(time, w3) := read_clock w2 in
  Ok (negb ((time <? time_budget c) && (w_rollouts w3 <? rollout_budget c) && negb (w_end w3) && w_pruned w3), w3).

(** riw.hh:209-219: one width after the other *)
Fixpoint widths (fuel : nat) (w : world) (s : St) (ws : list nat) : res (bool * world) :=
  match ws with
  | [] => Ok (false, w)
  | v :: ws' => let* r := width_solve fuel w v s in if fst r then Ok r else widths fuel (snd r) s ws'
  end.

(** riw.hh:199-234 [solve]: whether the final message is "finished to solve".  The clock starts with the call. *)
Definition solve (fuel : nat) (w : world) (s : St) : res (bool * world) :=
  widths fuel (with_tuples (with_oracles (with_rollouts w 0) 0 (w_draws w)) []) s (seq 1 (length (features p s))).

(** riw.hh:166-196 the constructor, and [clear] *)
Definition start : world :=
  {| w_graph := []; w_tuples := []; w_min := dbl_max; w_changed := false; w_rollouts := 0; w_pruned := false;
     w_end := false; w_env := initial p; w_prefix := []; w_ticks := 0; w_draws := 0 |}.
Definition clear (w : world) : world := with_min (with_graph w []) dbl_max (w_changed w).

(** riw.hh:236-243 *)
Definition is_solution_defined_for (w : world) (s : St) : bool :=
  match dget (w_graph w) s with None => false | Some n => match n_best n with None => false | Some _ => true end end.

(** *** riw.hh:831-849 compute_reachable_subgraph.  The null pointers that the code puts in the set are left out:
    update_graph ignores them. *)
Definition reach_step (st : list St * list St) (k : St) (g : graph) : res (list St * list St) :=
  let* n := at_ g k in
  Ok (fold_left (fun st e => match snd e with
                             | None => st
                             | Some m => if pymem m (fst st) then st else (fst st ++ [m], snd st ++ [m])
                             end) (n_children n) st).
Fixpoint reach_loop (rounds : nat) (g : graph) (sub frontier : list St) : res (list St) :=
  match frontier with
  | [] => Ok sub
  | _ =>
      match rounds with
      | 0 => Err OutOfFuel
      | S rounds' =>
          let* r := foldM (fun st k => reach_step st k g) (sub, []) (order frontier) in
          reach_loop rounds' g (fst r) (snd r)
      end
  end.
(** A round adds at least one node of the graph. *)
Definition reachable (g : graph) (s : St) : res (list St) := reach_loop (S (length g)) g [s] [s].

(** riw.hh:853-885 update_graph, first pass, on the node [k]: the graph, the nodes to remove and the frontier *)
Definition first_pass (child_sub : list St) (st : graph * list St * list St) (k : St) : res (graph * list St * list St) :=
  let '(g, removed, frontier) := st in
  let* n := at_ g k in
  if online_node_garbage c && negb (pymem k child_sub) then
    let* g' := foldM (fun g e => match snd e with
                                 | None => Ok g
                                 | Some m => on g m (fun x => set_parents x (filter (fun y => negb (pyeqb y k)) (n_parents x)))
                                 end) g (n_children n) in
    Ok (g', pyadd removed k, frontier)
  else
    Ok (dset g k (set_depth n (wrap (n_depth n - 1))), removed,
        match n_children n with [] => pyadd frontier k | _ => frontier end).

Definition update_graph (w : world) (root_sub child_sub : list St) : res world :=
  let* r := foldM (first_pass child_sub) (w_graph w, [], []) (order root_sub) in
  let '(g, removed, frontier) := r in
  let* g' := backup_values (w_min w) (fold_left (fun g k => ddel g k) removed g) frontier in
  Ok (with_graph w g').

(** riw.hh:245-274 get_best_action; the exceptions are [ValueError] (no best action) and [RuntimeError] (its next
    node is not known) *)
Definition get_best_action (w : world) (s : St) : res (A * world) :=
  match dget (w_graph w) s with
  | None => Err ValueError
  | Some n =>
      match n_best n with
      | None => Err ValueError
      | Some i =>
          let* e := lget (n_children n) i in
          let '(a, _, ch) := e in
          let w1 := advance w a true in
          let* root_sub := reachable (w_graph w1) s in
          match ch with
          | None => Err RuntimeError
          | Some m =>
              let* child_sub := (if online_node_garbage c then reachable (w_graph w1) m else Ok []) in
              let* w2 := update_graph w1 root_sub child_sub in
              Ok (a, w2)
          end
      end
  end.

(** riw.hh:276-283 *)
Definition get_best_value (w : world) (s : St) : res Q :=
  match dget (w_graph w) s with None => Err ValueError | Some n => Ok (n_value n) end.

(** riw.hh:285-317 *)
Definition get_nb_of_explored_states (w : world) : nat := length (w_graph w).
Definition get_nb_of_pruned_states (w : world) : nat := length (filter (fun e => n_pruned (snd e)) (w_graph w)).
Definition get_nb_rollouts (w : world) : nat := w_rollouts w.
Definition action_prefix (w : world) : list A := if use_simulation_domain c then [] else w_prefix w.

(** riw.hh:319-327 *)
Definition policy (w : world) : list (St * (A * Q)) :=
  flat_map (fun k => match dget (w_graph w) k with
                     | None => []
                     | Some n => match n_best n with
                                 | None => []
                                 | Some i => match nth_error (n_children n) i with
                                             | None => []
                                             | Some (a, _, _) => [(k, (a, n_value n))]
                                             end
                                 end
                     end) (dkeys (w_graph w)).

(** riw.py:122-140 [_get_next_action]; the C++ binding (py_riw.cc:226-232) turns the exception of a missing best
    action into [None], hence the random action.  It would do the same for a next node that is not known, which does
    not happen (RiwProps.v). *)
Definition get_next_action (fuel : nat) (continuous : bool) (w : world) (s : St) : res (option A * world) :=
  let* w1 := (if continuous || negb (is_solution_defined_for w s) then let* r := solve fuel w s in Ok (snd r) else Ok w) in
  match get_best_action w1 s with
  | Ok (a, w2) => Ok (Some a, w2)
  | Err ValueError => Ok (None, w1)
  | Err e => Err e
  end.
End Riw.
