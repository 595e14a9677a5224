(** Model of the Best First Width Search solver of the C++ hub, cpp/src/hub/solver/bfws.hh (class BFWSSolver,
    sequential execution), as driven by skdecide/hub/solver/bfws/bfws.py.

    Costs and heuristic values are integers (the code uses doubles: rounding is not modelled); [None] stands for
    infinity, or for the largest size_t.  A node is identified by its key, which the hashing policy computes from
    the state: the state itself (DomainStateHash, bfws.hh:30-51) or the feature vector (StateFeatureHash,
    bfws.hh:54-87); a [Node*] is the key of the node it points to.  The priority queue is the vector heap of
    CppAstarModel.v, whose comparisons read the {i current} heuristic and novelty of the nodes.  Logging is left
    out. *)
From Coq Require Import List Bool Arith ZArith.
From Verif Require Import Py PyList CppAstarModel.
Import ListNotations.
Open Scope nat_scope.

Section Bfws.
Context {St A V K : Type} {EV : PyEq V} {EK : PyEq K}.

Record problem := {
  apps : St -> list A;              (* get_applicable_actions(s).get_elements() *)
  next : St -> A -> St;             (* get_next_state *)
  cost : St -> A -> St -> Z;        (* get_transition_cost *)
  is_goal : St -> bool;             (* termination_checker *)
  features : St -> list V;          (* state_features *)
  heur : St -> Z;                   (* heuristic *)
  key : St -> K }.                  (* what the hashing policy compares *)

(** bfws.hh:272-298 struct Node.  The features are those of the state.  [best_action] points into the
    [best_parent] of a child node, hence the key of that child. *)
Record node := {
  state : option St;                (* always [Some] for the nodes of the graph *)
  best_parent : option (K * A * Z);
  n_novelty : option nat;
  n_heur : option Z;                (* [None]: not yet computed *)
  gscore : option Z;
  fscore : option Z;
  best_action : option K;
  solved : bool }.

Definition new_node (s : option St) : node :=
  {| state := s; best_parent := None; n_novelty := None; n_heur := None; gscore := None; fscore := None;
     best_action := None; solved := false |}.

Definition set_score (n : node) (g : option Z) (par : option (K * A * Z)) : node :=
  {| state := state n; best_parent := par; n_novelty := n_novelty n; n_heur := n_heur n; gscore := g;
     fscore := fscore n; best_action := best_action n; solved := solved n |}.
Definition set_rank (n : node) (h : Z) (v : nat) : node :=
  {| state := state n; best_parent := best_parent n; n_novelty := Some v; n_heur := Some h; gscore := gscore n;
     fscore := fscore n; best_action := best_action n; solved := solved n |}.
Definition set_fscore (n : node) (f : option Z) : node :=
  {| state := state n; best_parent := best_parent n; n_novelty := n_novelty n; n_heur := n_heur n; gscore := gscore n;
     fscore := f; best_action := best_action n; solved := solved n |}.
Definition set_best (n : node) (child : K) (v : option Z) : node :=
  {| state := state n; best_parent := best_parent n; n_novelty := n_novelty n; n_heur := n_heur n; gscore := gscore n;
     fscore := v; best_action := Some child; solved := true |}.

Definition graph : Type := list (K * node).

(** Reading a node through its pointer: the node is always in the graph. *)
Definition at_ (g : graph) (k : K) : node := match dget g k with Some n => n | None => new_node None end.

(** [_graph.emplace(Node(s, ...))]: the graph and whether the node is new.  A node with an equal key keeps its
    own state. *)
Definition emplace (p : problem) (g : graph) (s : St) : graph * bool :=
  if dmem g (key p s) then (g, false) else (dset g (key p s) (new_node (Some s)), true).

(** *** bfws.hh:303-318 novelty *)

(** [PairMap]: for each heuristic value the (index, value) pairs seen with it *)
Definition pair_map : Type := list (Z * list (nat * V)).

(** bfws.hh:310-312: the loop over the features, from index [i]; the pairs and the number of new ones *)
Fixpoint insert_pairs (i : nat) (f : list V) (pairs : list (nat * V)) : list (nat * V) * nat :=
  match f with
  | [] => (pairs, 0)
  | v :: f' =>
      if pymem (i, v) pairs then insert_pairs (S i) f' pairs
      else let '(pairs', n) := insert_pairs (S i) f' (pairs ++ [(i, v)]) in (pairs', S n)
  end.

Definition novelty (m : pair_map) (h : Z) (f : list V) : nat * pair_map :=
  match dget m h with
  | None => (0, dset m h (fst (insert_pairs 0 f [])))
  | Some pairs =>
      let '(pairs', n) := insert_pairs 0 f pairs in
      (if n =? 0 then S (length f) else n, dset m h pairs')
  end.

(** [a > b] on size_t, [None] being its largest value *)
Definition ngt (a b : option nat) : bool :=
  match a, b with
  | Some x, Some y => y <? x
  | None, Some _ => true
  | _, None => false
  end.
Definition feqb (a b : option Z) : bool :=
  match a, b with
  | Some x, Some y => Z.eqb x y
  | None, None => true
  | _, _ => false
  end.

(** bfws.hh:320-327 NodeCompare *)
Definition after (g : graph) (a b : K) : bool :=
  fgt (n_heur (at_ g a)) (n_heur (at_ g b)) ||
  (feqb (n_heur (at_ g a)) (n_heur (at_ g b)) && ngt (n_novelty (at_ g a)) (n_novelty (at_ g b))).

(** What the search carries along: the graph, the queue and [heuristic_features_map]. *)
Record search := { s_graph : graph; s_queue : list K; s_map : pair_map }.

(** bfws.hh:189-228: the body of the loop over the applicable actions of the node [x], whose state is [sx]. *)
Definition expand (p : problem) (closed : list K) (x : K) (sx : St) (w : search) (a : A) : res search :=
  let y := next p sx a in
  let ky := key p y in
  let '(g1, new) := emplace p (s_graph w) y in
  if pymem ky closed then Ok {| s_graph := g1; s_queue := s_queue w; s_map := s_map w |}
  else
    match state (at_ g1 ky) with
    | None => Err AttributeError
    | Some sy =>
        let c := cost p sx a sy in
        let t := fadd (gscore (at_ g1 x)) c in
        let n1 := at_ g1 ky in
        let n2 := if new || flt t (gscore n1) then set_score n1 t (Some (x, a, c)) else n1 in
        let h := heur p sy in
        let '(nov, m) := novelty (s_map w) h (features p sy) in
        let g2 := dset g1 ky (set_rank n2 h nov) in
        Ok {| s_graph := g2; s_queue := heap_push (after g2) (s_queue w) ky; s_map := m |}
    end.

(** bfws.hh:171-177: back from [cur] to the root.  Following the parent of a node without one is undefined
    behaviour (a null pointer), reported as [AttributeError]. *)
Fixpoint backtrack (fuel : nat) (root cur : K) (g : graph) : res graph :=
  if pyeqb cur root then Ok g
  else
    match fuel with
    | 0 => Err OutOfFuel
    | S fuel' =>
        match best_parent (at_ g cur) with
        | None => Err AttributeError
        | Some (par, _, c) =>
            backtrack fuel' root par (dset g par (set_best (at_ g par) cur (fadd (fscore (at_ g cur)) c)))
        end
    end.

(** bfws.hh:151-229: the main loop.  The walk back visits each node at most once unless it never ends: the number
    of nodes is enough fuel for it. *)
Fixpoint loop (fuel : nat) (p : problem) (root : K) (w : search) (closed : list K) : res graph :=
  match fuel with
  | 0 => Err OutOfFuel
  | S fuel' =>
      let g := s_graph w in
      match heap_pop (after g) (s_queue w) with
      | None => Ok g
      | Some (x, queue1) =>
          if pymem x closed then loop fuel' p root {| s_graph := g; s_queue := queue1; s_map := s_map w |} closed
          else
            match state (at_ g x) with
            | None => Err AttributeError
            | Some sx =>
                if is_goal p sx || solved (at_ g x) then
                  let g1 := if solved (at_ g x) then g else dset g x (set_fscore (at_ g x) (Some 0%Z)) in
                  backtrack (length g1) root x g1
                else
                  let closed' := x :: closed in
                  let* w' := foldM (expand p closed' x sx) {| s_graph := g; s_queue := queue1; s_map := s_map w |} (apps p sx) in
                  loop fuel' p root w' closed'
            end
      end
  end.

(** bfws.hh:124-234 [solve] on the graph left by earlier calls *)
Definition solve (fuel : nat) (p : problem) (g : graph) (s : St) : res graph :=
  let '(g1, _) := emplace p g s in
  let root := key p s in
  if solved (at_ g1 root) || is_goal p s then Ok g1
  else
    match state (at_ g1 root) with
    | None => Err AttributeError
    | Some s0 =>
        let h := heur p s0 in
        let '(nov, m) := novelty [] h (features p s0) in
        let n := at_ g1 root in
        let g2 := dset g1 root (set_rank (set_score n (Some 0%Z) (best_parent n)) h nov) in
        loop fuel p root {| s_graph := g2; s_queue := heap_push (after g2) [] root; s_map := m |} []
    end.

(** bfws.hh:236-243 *)
Definition is_solution_defined_for (p : problem) (g : graph) (s : St) : bool :=
  match dget g (key p s) with
  | None => false
  | Some n => match best_action n with None => false | Some _ => solved n end
  end.

(** bfws.hh:245-251; an exception is a [ValueError].  The pointer is followed when the action is read. *)
Definition get_best_action (p : problem) (g : graph) (s : St) : res A :=
  match dget g (key p s) with
  | None => Err ValueError
  | Some n =>
      match best_action n with
      | None => Err ValueError
      | Some child => match best_parent (at_ g child) with
                      | None => Err AttributeError
                      | Some (_, a, _) => Ok a
                      end
      end
  end.

(** bfws.hh:253-259 *)
Definition get_best_value (p : problem) (g : graph) (s : St) : res (option Z) :=
  match dget g (key p s) with
  | None => Err ValueError
  | Some n => Ok (fscore n)
  end.

(** bfws.py:113-118 [_get_next_action]: solves from the observation when no solution is known for it. *)
Definition get_next_action (fuel : nat) (p : problem) (g : graph) (s : St) : res (A * graph) :=
  let* g' := (if is_solution_defined_for p g s then Ok g else solve fuel p g s) in
  let* a := get_best_action p g' s in
  Ok (a, g').
End Bfws.
