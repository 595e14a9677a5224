(** Model of the Iterated Width solver of the C++ hub, cpp/src/hub/solver/iw.hh (class IWSolver, sequential
    execution), as driven by skdecide/hub/solver/iw/iw.py.

    Costs are integers (the code uses doubles: rounding is not modelled); [None] stands for infinity, or for
    the largest size_t.  A node is identified by its key, which the hashing policy computes from the state:
    the state itself (DomainStateHash, iw.hh:27-48) or the feature vector (StateFeatureHash, iw.hh:51-82); a
    [Node*] is the key of the node it points to.  The priority queue is the vector heap of CppAstarModel.v,
    whose comparisons read the {i current} scores of the nodes.  The clock is an oracle: its n-th reading,
    in milliseconds since the start of the call.  Logging is left out. *)
From Coq Require Import List Bool Arith ZArith.
From Verif Require Import Py PyList CppAstarModel.
Import ListNotations.
Open Scope nat_scope.

(** *** iw.hh:488-514 generate_tuples: the combinations of [k] indices among [0 .. n-1] *)

(** iw.hh:500-501: the rightmost element below its highest value, among the first [i] ones *)
Fixpoint rightmost (n k : nat) (cv : list nat) (i : nat) : option nat :=
  match i with
  | 0 => None
  | S i' => if nth i' cv 0 <? n - k + i' then Some i' else rightmost n k cv i'
  end.

(** iw.hh:504-507: it is incremented, and the next ones take their lowest values *)
Definition bump_at (k : nat) (cv : list nat) (i : nat) : list nat :=
  fold_left (fun v j => lset v j (S (nth (j - 1) v 0))) (seq (S i) (k - S i)) (lset cv i (S (nth i cv 0))).

Fixpoint gen_loop (fuel n k : nat) (cv : list nat) : res (list (list nat)) :=
  match fuel with
  | 0 => Err OutOfFuel
  | S fuel' =>
      match rightmost n k cv k with
      | None => Ok []
      | Some i =>
          let cv' := bump_at k cv i in
          let* rest := gen_loop fuel' n k cv' in
          Ok (cv' :: rest)
      end
  end.

(** The combinations in the order [f] is called on them.  There are at most [(n + 1) ^ k] of them. *)
Definition generate_tuples (k n : nat) : res (list (list nat)) :=
  let cv := seq 0 k in
  let* rest := gen_loop ((n + 1) ^ k) n k cv in
  Ok (cv :: rest).

(** *** iw.hh:464-485 novelty *)
Section Novelty.
Context {V : Type} {EV : PyEq V}.

Definition tuple : Type := list (nat * V).

Fixpoint tuple_eqb (a b : tuple) : bool :=
  match a, b with
  | [], [] => true
  | x :: a', y :: b' => pyeqb x y && tuple_eqb a' b'
  | _, _ => false
  end.

(** [unordered_set::insert]: the set and whether the tuple is new *)
Definition insert (s : list tuple) (t : tuple) : list tuple * bool :=
  if existsb (tuple_eqb t) s then (s, false) else (t :: s, true).

(** iw.hh:472-481: one call of the lambda *)
Definition novelty_tuple (f : list V) (k : nat) (st : nat * list tuple) (cv : list nat) : res (nat * list tuple) :=
  let '(nov, set) := st in
  let* t := mapM (fun i => let* v := lget f i in Ok (i, v)) cv in
  let '(set', new) := insert set t in
  Ok (if new then Nat.min nov k else nov, set').

Definition novelty_size (f : list V) (st : nat * list (list tuple)) (k : nat) : res (nat * list (list tuple)) :=
  let '(nov, sets) := st in
  let* set := lget sets (k - 1) in
  let* cvs := generate_tuples k (length f) in
  let* r := foldM (novelty_tuple f k) (nov, set) cvs in
  let '(nov', set') := r in
  let* sets' := lput sets (k - 1) set' in
  Ok (nov', sets').

Definition novelty (width : nat) (sets : list (list tuple)) (f : list V) : res (nat * list (list tuple)) :=
  foldM (novelty_size f) (S (length f), sets) (seq 1 (Nat.min width (length f))).
End Novelty.

Section Iw.
Context {St A V K : Type} {EV : PyEq V} {EK : PyEq K}.

Record problem := {
  apps : St -> list A;              (* get_applicable_actions(s).get_elements() *)
  next : St -> A -> St;             (* get_next_state *)
  cost : St -> A -> St -> Z;        (* get_transition_cost *)
  is_goal : St -> bool;
  is_terminal : St -> bool;
  features : St -> list V;          (* state_features *)
  key : St -> K }.                  (* what the hashing policy compares *)

(** iw.hh:225-247 struct Node.  The features are those of the state.  [best_action] points into the
    [best_parent] of a child node, hence the key of that child. *)
Record node := {
  state : option St;                (* always [Some] for the nodes of the graph *)
  best_parent : option (K * A * Z);
  gscore : option Z;
  fscore : option Z;
  n_novelty : option nat;
  depth : option nat;
  best_action : option K;
  pruned : bool;
  solved : bool }.

Definition new_node (s : option St) : node :=
  {| state := s; best_parent := None; gscore := None; fscore := None; n_novelty := None; depth := None;
     best_action := None; pruned := false; solved := false |}.

Definition set_score (n : node) (g : option Z) (par : K * A * Z) : node :=
  {| state := state n; best_parent := Some par; gscore := g; fscore := fscore n; n_novelty := n_novelty n;
     depth := depth n; best_action := best_action n; pruned := pruned n; solved := solved n |}.
Definition set_depth (n : node) (d : option nat) : node :=
  {| state := state n; best_parent := best_parent n; gscore := gscore n; fscore := fscore n; n_novelty := n_novelty n;
     depth := d; best_action := best_action n; pruned := pruned n; solved := solved n |}.
Definition set_novelty (n : node) (v : nat) : node :=
  {| state := state n; best_parent := best_parent n; gscore := gscore n; fscore := fscore n; n_novelty := Some v;
     depth := depth n; best_action := best_action n; pruned := pruned n; solved := solved n |}.
Definition set_pruned (n : node) : node :=
  {| state := state n; best_parent := best_parent n; gscore := gscore n; fscore := fscore n; n_novelty := n_novelty n;
     depth := depth n; best_action := best_action n; pruned := true; solved := solved n |}.
Definition set_goal (n : node) : node :=
  {| state := state n; best_parent := best_parent n; gscore := gscore n;
     fscore := if solved n then fscore n else Some 0%Z; n_novelty := n_novelty n;
     depth := depth n; best_action := best_action n; pruned := pruned n; solved := true |}.
Definition set_best (n : node) (child : K) (v : option Z) : node :=
  {| state := state n; best_parent := best_parent n; gscore := gscore n; fscore := v; n_novelty := n_novelty n;
     depth := depth n; best_action := Some child; pruned := pruned n; solved := true |}.
Definition set_root (n : node) : node :=
  {| state := state n; best_parent := best_parent n; gscore := Some 0%Z; fscore := fscore n; n_novelty := n_novelty n;
     depth := Some 0; best_action := best_action n; pruned := pruned n; solved := solved n |}.

Definition graph : Type := list (K * node).

(** Reading a node through its pointer: the node is always in the graph. *)
Definition at_ (g : graph) (k : K) : node := match dget g k with Some n => n | None => new_node None end.

(** [_graph.emplace(Node(s, ...))]: the graph and whether the node is new.  A node with an equal key keeps
    its own state. *)
Definition emplace (p : problem) (g : graph) (s : St) : graph * bool :=
  if dmem g (key p s) then (g, false) else (dset g (key p s) (new_node (Some s)), true).

(** [a < b] on size_t, and [a + 1] (which wraps around) *)
Definition dlt (a b : option nat) : bool :=
  match a, b with
  | Some x, Some y => x <? y
  | Some _, None => true
  | None, _ => false
  end.
Definition dsucc (a : option nat) : option nat := match a with Some x => Some (S x) | None => Some 0 end.

(** The [node_ordering] argument: the scores, novelties and depths of [a] and [b]; "a goes after b" *)
Definition ordering : Type := option Z -> option nat -> option nat -> option Z -> option nat -> option nat -> bool.
(** iw.hh:106-110 *)
Definition default_ordering : ordering := fun ga _ _ gb _ _ => fgt ga gb.
(** iw.hh:300-303 *)
Definition after (o : ordering) (g : graph) (a b : K) : bool :=
  let na := at_ g a in let nb := at_ g b in
  o (gscore na) (n_novelty na) (depth na) (gscore nb) (n_novelty nb) (depth nb).

(** What a search at a given width carries along: the graph, the queue, [feature_tuples] and
    [states_pruned]. *)
Record search := { s_graph : graph; s_queue : list K; s_tuples : list (list (@tuple V)); s_pruned : bool }.

(** iw.hh:384-431: the body of the loop over the applicable actions of the node [x], whose state is [sx]. *)
Definition expand (p : problem) (o : ordering) (width : nat) (x : K) (sx : St) (w : search) (a : A) : res search :=
  let y := next p sx a in
  let ky := key p y in
  let '(g1, new) := emplace p (s_graph w) y in
  match state (at_ g1 ky) with
  | None => Err AttributeError
  | Some sy =>
      let c := cost p sx a sy in
      let t := fadd (gscore (at_ g1 x)) c in
      let d := dsucc (depth (at_ g1 x)) in
      let n1 := at_ g1 ky in
      let n2 := if new || flt t (gscore n1) then set_score n1 t (x, a, c) else n1 in
      let n3 := if new || dlt d (depth n2) then set_depth n2 d else n2 in
      let* r := novelty width (s_tuples w) (features p sy) in
      let '(nov, tuples) := r in
      let n4 := set_novelty n3 nov in
      if width <? nov then
        Ok {| s_graph := dset g1 ky (set_pruned n4); s_queue := s_queue w; s_tuples := tuples; s_pruned := true |}
      else
        let g2 := dset g1 ky n4 in
        Ok {| s_graph := g2; s_queue := heap_push (after o g2) (s_queue w) ky; s_tuples := tuples; s_pruned := s_pruned w |}
  end.

(** iw.hh:336-343: the cost of the path back from [cur] to the root.  Following the parent of a node without
    one is undefined behaviour (a null pointer), reported as [AttributeError]. *)
Fixpoint path_cost (fuel : nat) (root cur : K) (g : graph) (acc : Z) : res Z :=
  if pyeqb cur root then Ok acc
  else
    match fuel with
    | 0 => Err OutOfFuel
    | S fuel' =>
        match best_parent (at_ g cur) with
        | None => Err AttributeError
        | Some (par, _, c) => path_cost fuel' root par g (acc + c)%Z
        end
    end.

(** iw.hh:350-356 *)
Fixpoint backtrack (fuel : nat) (root cur : K) (g : graph) : res graph :=
  if pyeqb cur root then Ok g
  else
    match fuel with
    | 0 => Err OutOfFuel
    | S fuel' =>
        match best_parent (at_ g cur) with
        | None => Err AttributeError
        | Some (par, _, c) =>
            backtrack fuel' root par (dset g par (set_best (at_ g par) cur (fadd (fscore (at_ g cur)) c)))
        end
    end.

(** iw.hh:345-357: the plan is recorded when it is the first one or a cheaper one. *)
Definition record_plan (root x : K) (found : bool) (g : graph) : res graph :=
  let* t := path_cost (length g) root x g 0%Z in
  if negb found || fgt (fscore (at_ g root)) (Some t) then
    let g1 := dset g x (set_goal (at_ g x)) in backtrack (length g1) root x g1
  else Ok g.

(** One entry of get_intermediate_scores: the elapsed time, the width and the cost of the best plan. *)
Definition score : Type := nat * nat * option Z.

(** The attributes that a search at a given width shares with the following ones: the graph, [found_goal],
    [_intermediate_scores], and the number of readings of the clock. *)
Record shared := { h_graph : graph; h_found : bool; h_scores : list score; h_ticks : nat }.

(** iw.hh:317-444: the main loop at a given width.  The two booleans are whether a plan is known and whether
    states were pruned. *)
Fixpoint loop (fuel : nat) (p : problem) (o : ordering) (clock : nat -> nat) (budget width : nat) (root : K)
    (h : shared) (queue : list K) (tuples : list (list tuple)) (pr : bool) (closed : list K)
    : res (bool * bool * shared) :=
  match fuel with
  | 0 => Err OutOfFuel
  | S fuel' =>
      let g := h_graph h in
      match heap_pop (after o g) queue with
      | None => Ok (h_found h, pr, h)
      | Some (x, queue1) =>
          if pymem x closed then loop fuel' p o clock budget width root h queue1 tuples pr closed
          else
            let closed' := x :: closed in
            match state (at_ g x) with
            | None => Err AttributeError
            | Some sx =>
                if is_goal p sx || solved (at_ g x) then
                  let* g1 := record_plan root x (h_found h) g in
                  let time := clock (h_ticks h) in
                  let h1 := {| h_graph := g1; h_found := true;
                               h_scores := h_scores h ++ [(time, width, fscore (at_ g1 root))];
                               h_ticks := S (h_ticks h) |} in
                  if time <? budget then loop fuel' p o clock budget width root h1 queue1 tuples pr closed'
                  else Ok (true, pr, h1)
                else if is_terminal p sx then loop fuel' p o clock budget width root h queue1 tuples pr closed'
                else
                  let* w := foldM (expand p o width x sx)
                              {| s_graph := g; s_queue := queue1; s_tuples := tuples; s_pruned := pr |} (apps p sx) in
                  let h1 := {| h_graph := s_graph w; h_found := h_found h; h_scores := h_scores h; h_ticks := h_ticks h |} in
                  loop fuel' p o clock budget width root h1 (s_queue w) (s_tuples w) (s_pruned w) closed'
            end
      end
  end.

(** iw.hh:284-449 WidthSolver::solve *)
Definition width_solve (fuel : nat) (p : problem) (o : ordering) (clock : nat -> nat) (budget width : nat)
    (s : St) (h : shared) : res (bool * bool * shared) :=
  let '(g1, _) := emplace p (h_graph h) s in
  let root := key p s in
  let with_graph g := {| h_graph := g; h_found := h_found h; h_scores := h_scores h; h_ticks := h_ticks h |} in
  if solved (at_ g1 root) || is_goal p s then Ok (true, false, with_graph g1)
  else if is_terminal p s then Ok (false, false, with_graph g1)
  else
    let g2 := dset g1 root (set_root (at_ g1 root)) in
    let queue := heap_push (after o g2) [] root in
    match state (at_ g2 root) with
    | None => Err AttributeError
    | Some s0 =>
        let* r := novelty width (repeat [] width) (features p s0) in
        let '(nov, tuples) := r in
        let g3 := dset g2 root (set_novelty (at_ g2 root) nov) in
        loop fuel p o clock budget width root (with_graph g3) queue tuples false []
    end.

(** iw.hh:138-161: one width after the other.  The boolean is false when the final message is "could not find
    a solution". *)
Fixpoint widths (fuel : nat) (p : problem) (o : ordering) (clock : nat -> nat) (budget : nat) (s : St)
    (h : shared) (ws : list nat) : res (bool * shared) :=
  match ws with
  | [] => Ok (false, h)
  | w :: ws' =>
      let* r := width_solve fuel p o clock budget w s h in
      let '(ok, pr, h1) := r in
      if ok then
        let h2 := {| h_graph := h_graph h1; h_found := h_found h1; h_scores := h_scores h1; h_ticks := S (h_ticks h1) |} in
        if clock (h_ticks h1) <? budget then widths fuel p o clock budget s h2 ws' else Ok (true, h2)
      else if h_found h1 then Ok (true, h1)
      else if negb pr then Ok (false, h1)
      else widths fuel p o clock budget s h1 ws'
  end.

(** iw.hh:130-168 [solve] on the graph left by earlier calls: the graph and the intermediate scores *)
Definition solve (fuel : nat) (p : problem) (o : ordering) (clock : nat -> nat) (budget : nat) (g : graph) (s : St)
    : res (bool * graph * list score) :=
  let h := {| h_graph := g; h_found := false; h_scores := []; h_ticks := 0 |} in
  let* r := widths fuel p o clock budget s h (seq 1 (length (features p s))) in
  let '(ok, h1) := r in
  Ok (ok, h_graph h1, h_scores h1).

(** iw.hh:170-177 *)
Definition is_solution_defined_for (p : problem) (g : graph) (s : St) : bool :=
  match dget g (key p s) with
  | None => false
  | Some n => match best_action n with None => false | Some _ => solved n end
  end.

(** iw.hh:179-186; an exception is a [ValueError].  The pointer is followed when the action is read. *)
Definition get_best_action (p : problem) (g : graph) (s : St) : res A :=
  match dget g (key p s) with
  | None => Err ValueError
  | Some n =>
      match best_action n with
      | None => Err ValueError
      | Some child => match best_parent (at_ g child) with
                      | None => Err AttributeError
                      | Some (_, a, _) => Ok a
                      end
      end
  end.

(** iw.hh:188-195 *)
Definition get_best_value (p : problem) (g : graph) (s : St) : res (option Z) :=
  match dget g (key p s) with
  | None => Err ValueError
  | Some n => Ok (fscore n)
  end.

(** iw.hh:197-209 *)
Definition get_nb_of_explored_states (g : graph) : nat := length g.
Definition get_nb_of_pruned_states (g : graph) : nat := length (filter (fun e => pruned (snd e)) g).

(** iw.py:106-111 [_get_next_action]: solves from the observation when no solution is known for it. *)
Definition get_next_action (fuel : nat) (p : problem) (o : ordering) (clock : nat -> nat) (budget : nat) (g : graph) (s : St)
    : res (A * graph) :=
  let* g' := (if is_solution_defined_for p g s then Ok g
              else let* r := solve fuel p o clock budget g s in Ok (snd (fst r))) in
  let* a := get_best_action p g' s in
  Ok (a, g').
End Iw.
