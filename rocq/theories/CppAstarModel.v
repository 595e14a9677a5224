(** Model of the A* solver of the C++ hub, cpp/src/hub/solver/astar.hh (class AStarSolver, sequential
    execution), as driven by skdecide/hub/solver/astar/astar.py.

    Costs and heuristic values are integers (the code uses doubles: rounding is not modelled);
    [None] stands for infinity.  A node is identified by its state, as the graph is a set keyed by the
    state, and a [Node*] is the state of the node it points to.  The priority queue is the vector heap of
    the C++ library, whose comparisons read the {i current} fscore of the nodes.  Logging is left out. *)
From Coq Require Import List Bool Arith ZArith.
From Verif Require Import Py PyList.
Import ListNotations.
Open Scope nat_scope.

(** *** The vector heap behind std::priority_queue (libstdc++ bits/stl_heap.h), for the comparison
    [gt a b], read "a goes after b". *)
Section Heap.
Context {X : Type}.
Variable gt : X -> X -> bool.

(** stl_heap.h [__push_heap]: the value [x] moves up from the hole.  The index [parent] is always within
    the vector, so the default of [nth] is never used. *)
Fixpoint sift_up (fuel : nat) (v : list X) (hole : nat) (x : X) : list X :=
  match fuel with
  | 0 => lset v hole x
  | S fuel' =>
      if hole =? 0 then lset v hole x
      else
        let parent := (hole - 1) / 2 in
        let p := nth parent v x in
        if gt p x then sift_up fuel' (lset v hole p) parent x else lset v hole x
  end.

(** [priority_queue::push]: [push_back] and [push_heap]. *)
Definition heap_push (v : list X) (x : X) : list X := sift_up (length v) (v ++ [x]) (length v) x.

(** stl_heap.h [__adjust_heap]: the hole moves down to a leaf, then the value moves up from there. *)
Fixpoint sift_down (fuel : nat) (v : list X) (hole : nat) (x : X) : list X * nat :=
  let n := length v in
  match fuel with
  | 0 => (v, hole)
  | S fuel' =>
      if hole <? (n - 1) / 2 then
        let right := 2 * (hole + 1) in
        let child := if gt (nth right v x) (nth (right - 1) v x) then right - 1 else right in
        sift_down fuel' (lset v hole (nth child v x)) child x
      else if Nat.even n && (hole =? (n - 2) / 2) && (2 <=? n) then
        let child := 2 * hole + 1 in
        (lset v hole (nth child v x), child)
      else (v, hole)
  end.

Definition adjust_heap (v : list X) (x : X) : list X :=
  let '(v', hole) := sift_down (length v) v 0 x in sift_up hole v' hole x.

(** [top] and [pop]: the last element is put back in place of the first. *)
Definition heap_pop (v : list X) : option (X * list X) :=
  match v with
  | [] => None
  | top :: rest =>
      match rev rest with
      | [] => Some (top, [])
      | last :: _ => Some (top, adjust_heap (removelast v) last)
      end
  end.
End Heap.

Section Astar.
Context {St A : Type} {ES : PyEq St}.

Record problem := {
  apps : St -> list A;              (* get_applicable_actions(s).get_elements() *)
  next : St -> A -> St;             (* get_next_state *)
  cost : St -> A -> St -> Z;        (* get_transition_cost *)
  goal : St -> bool;                (* goal_checker *)
  heur : St -> Z }.                 (* heuristic *)

(** astar.hh:180-201 struct Node.  [best_action] points into the [best_parent] of a child node, hence
    the state of that child. *)
Record node := {
  gscore : option Z;
  fscore : option Z;
  best_parent : option (St * A * Z);
  best_action : option St;
  solved : bool }.

Definition new_node : node :=
  {| gscore := None; fscore := None; best_parent := None; best_action := None; solved := false |}.

Definition graph : Type := list (St * node).

(** [_graph.emplace(s)]: the graph and whether the node is new. *)
Definition emplace (g : graph) (s : St) : graph * bool :=
  if dmem g s then (g, false) else (dset g s new_node, true).

(** Reading a node through its pointer: the node is always in the graph. *)
Definition at_ (g : graph) (s : St) : node := match dget g s with Some n => n | None => new_node end.

(** [a > b] and [a < b] on doubles, with infinity *)
Definition fgt (a b : option Z) : bool :=
  match a, b with
  | Some x, Some y => Z.ltb y x
  | None, Some _ => true
  | _, None => false
  end.
Definition flt (a b : option Z) : bool := fgt b a.
Definition fadd (a : option Z) (c : Z) : option Z := match a with Some x => Some (x + c)%Z | None => None end.

(** astar.hh:203-207 NodeCompare *)
Definition after (g : graph) (a b : St) : bool := fgt (fscore (at_ g a)) (fscore (at_ g b)).

(** astar.hh:114-146: the body of the loop over the applicable actions of [x]. *)
Definition expand (p : problem) (closed : list St) (x : St) (st : graph * list St) (a : A) : graph * list St :=
  let '(g, queue) := st in
  let y := next p x a in
  let '(g1, new) := emplace g y in
  if pymem y closed then (g1, queue)
  else
    let c := cost p x a y in
    let t := fadd (gscore (at_ g1 x)) c in
    if new || flt t (gscore (at_ g1 y)) then
      let g2 := dset g1 y {| gscore := t; fscore := fadd t (heur p y); best_parent := Some (x, a, c);
                             best_action := best_action (at_ g1 y); solved := solved (at_ g1 y) |} in
      (g2, heap_push (after g2) queue y)
    else (g1, queue).

(** astar.hh:91-101: back from [cur] to the root.  Following the parent of a node without one is
    undefined behaviour (a null pointer), reported as [AttributeError]. *)
Fixpoint backtrack (fuel : nat) (root cur : St) (g : graph) : res graph :=
  if pyeqb cur root then Ok g
  else
    match fuel with
    | 0 => Err OutOfFuel
    | S fuel' =>
        match best_parent (at_ g cur) with
        | None => Err AttributeError
        | Some (par, _, c) =>
            let n := at_ g par in
            let g' := dset g par {| gscore := gscore n; fscore := fadd (fscore (at_ g cur)) c;
                                    best_parent := best_parent n; best_action := Some cur; solved := true |} in
            backtrack fuel' root par g'
        end
    end.

(** [current_node->fscore = 0] *)
Definition set_fscore (g : graph) (s : St) (v : option Z) : graph :=
  let n := at_ g s in
  dset g s {| gscore := gscore n; fscore := v; best_parent := best_parent n;
              best_action := best_action n; solved := solved n |}.

(** astar.hh:72-149: the main loop. *)
Fixpoint loop (fuel : nat) (p : problem) (root : St) (g : graph) (queue closed : list St) : res graph :=
  match fuel with
  | 0 => Err OutOfFuel
  | S fuel' =>
      match heap_pop (after g) queue with
      | None => Ok g
      | Some (x, queue1) =>
          if pymem x closed then loop fuel' p root g queue1 closed
          else if goal p x || solved (at_ g x) then
            let g1 := if solved (at_ g x) then g else set_fscore g x (Some 0%Z) in
            backtrack (length g1) root x g1
          else
            let closed' := x :: closed in
            let '(g2, queue2) := fold_left (expand p closed' x) (apps p x) (g, queue1) in
            loop fuel' p root g2 queue2 closed'
      end
  end.

(** astar.hh:51-155 [solve] on the graph left by earlier calls. *)
Definition solve (fuel : nat) (p : problem) (g : graph) (s : St) : res graph :=
  let '(g1, _) := emplace g s in
  if solved (at_ g1 s) || goal p s then Ok g1
  else
    let n := at_ g1 s in
    let g2 := dset g1 s {| gscore := Some 0%Z; fscore := Some (heur p s); best_parent := best_parent n;
                           best_action := best_action n; solved := solved n |} in
    loop fuel p s g2 (heap_push (after g2) [] s) [].

(** astar.hh:157-164 *)
Definition is_solution_defined_for (g : graph) (s : St) : bool :=
  match dget g s with
  | None => false
  | Some n => match best_action n with None => false | Some _ => solved n end
  end.

(** astar.hh:166-172; an exception is a [ValueError].  The pointer is followed when the action is read. *)
Definition get_best_action (g : graph) (s : St) : res A :=
  match dget g s with
  | None => Err ValueError
  | Some n =>
      match best_action n with
      | None => Err ValueError
      | Some child => match best_parent (at_ g child) with
                      | None => Err AttributeError
                      | Some (_, a, _) => Ok a
                      end
      end
  end.

(** astar.hh:174-180 *)
Definition get_best_value (g : graph) (s : St) : res (option Z) :=
  match dget g s with
  | None => Err ValueError
  | Some n => Ok (fscore n)
  end.

(** astar.py:96-101 [_get_next_action]: solves from the observation when no solution is known for it. *)
Definition get_next_action (fuel : nat) (p : problem) (g : graph) (s : St) : res (A * graph) :=
  let* g' := (if is_solution_defined_for g s then Ok g else solve fuel p g s) in
  let* a := get_best_action g' s in
  Ok (a, g').
End Astar.
