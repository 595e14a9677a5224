(** Model of the AO* solver of the C++ hub, cpp/src/hub/solver/aostar.hh (class AOStarSolver, sequential
    execution), as driven by skdecide/hub/solver/aostar/aostar.py.

    Costs, probabilities, the discount and heuristic values are rationals (the code uses doubles:
    rounding is not modelled, and the heuristic is finite); in the graph [None] stands for infinity.
    A node is identified by its state, as the graph is a set keyed by the state, and a [StateNode*] is
    the state of the node it points to.  A pointer to an action node is that action node: it does not
    change once its outcomes are known.  The priority queue is the vector heap of CppAstarModel.v.
    The order in which an unordered set of pointers is iterated over is a parameter.  Dereferencing a null
    pointer is [AttributeError], a C++ exception is [ValueError].  Logging is left out. *)
From Coq Require Import List Bool Arith QArith.
From Verif Require Import Py PyList CppAstarModel.
Import ListNotations.
Open Scope nat_scope.

Section Ao.
Context {St A : Type} {ES : PyEq St}.

Record mdp := {
  m_apps : St -> list A;                 (* get_applicable_actions(s).get_elements() *)
  m_dist : St -> A -> list (St * Q);     (* get_next_state_distribution(s, a).get_values() *)
  m_cost : St -> A -> St -> Q;           (* get_transition_cost *)
  m_goal : St -> bool;                   (* goal_checker *)
  m_heur : St -> Q }.                    (* heuristic *)

(** The constructor's arguments: aostar.hh:33-41. *)
Record config := {
  c_discount : Q;
  c_max_tips : nat;                      (* max_tip_expansions *)
  c_detect : bool;                       (* detect_cycles *)
  c_order : list St -> list St }.        (* iteration over an unordered set, given the insertions *)

(** aostar.hh:247-255 struct ActionNode: [value] is only used while [update] runs, and [parent] is the
    state that holds the action node. *)
Record anode := ANode { an_action : A; an_out : list (Q * Q * St) }.

(** aostar.hh:229-245 struct StateNode; [parents] through their field [parent]. *)
Record snode := SNode {
  sn_actions : list anode;
  sn_best : option anode;
  sn_value : option Q;
  sn_solved : bool;
  sn_parents : list St }.

Definition new_snode : snode := SNode [] None None false [].
Definition sgraph : Type := list (St * snode).

(** Reading a node through its pointer: the node is always in the graph. *)
Definition nd (g : sgraph) (s : St) : snode := match dget g s with Some n => n | None => new_snode end.

(** [a < b] on doubles, with infinity *)
Definition vlt (a b : option Q) : bool :=
  match a, b with
  | Some x, Some y => negb (Qle_bool y x)
  | Some _, None => true
  | None, _ => false
  end.

(** aostar.hh:94-116: one outcome of an action of [x]: the node is created if needed. *)
Definition reach_node (p : mdp) (x : St) (g : sgraph) (o : St * Q) : sgraph :=
  let y := fst o in
  let n := if dmem g y then nd g y
           else if m_goal p y then SNode [] None (Some 0%Q) true []
           else SNode [] None (Some (m_heur p y)) false [] in
  dset g y (SNode (sn_actions n) (sn_best n) (sn_value n) (sn_solved n) (sn_parents n ++ [x])).

(** aostar.hh:101: [an.outcomes] *)
Definition outcomes (p : mdp) (x : St) (a : A) : list (Q * Q * St) :=
  map (fun o => (snd o, m_cost p x a (fst o), fst o)) (m_dist p x a).

(** aostar.hh:86-117: one applicable action of the tip [x].  The action node is put in the list with its
    outcomes (the code puts it there first and fills it in; nothing reads it in between). *)
Definition expand_action (p : mdp) (x : St) (g : sgraph) (a : A) : sgraph :=
  let g1 := fold_left (reach_node p x) (m_dist p x a) g in
  let n := nd g1 x in
  dset g1 x (SNode (sn_actions n ++ [ANode a (outcomes p x a)]) (sn_best n) (sn_value n) (sn_solved n) (sn_parents n)).

Definition expand_tip (p : mdp) (g : sgraph) (x : St) : sgraph := fold_left (expand_action p x) (m_apps p x) g.

(** aostar.hh:257-261 StateNodeCompare *)
Definition tip_after (g : sgraph) (a b : St) : bool := vlt (sn_value (nd g b)) (sn_value (nd g a)).

(** aostar.hh:75-118: [n] tips are taken from the queue and expanded; the nodes taken, in a set. *)
Fixpoint expand_tips (n : nat) (p : mdp) (g : sgraph) (q frontier : list St) : sgraph * list St :=
  match n with
  | 0 => (g, frontier)
  | S n =>
      match heap_pop (tip_after g) q with
      | None => (g, frontier)
      | Some (x, q') => expand_tips n p (expand_tip p g x) q' (pyadd frontier x)
      end
  end.

(** aostar.hh:130-133: the value of an action of [x], [run] being the current [best_value] of [x] itself.
    An infinite value with probability zero makes a NaN in the code, here infinity: neither is less than
    anything. *)
Definition q_value (gamma : Q) (g : sgraph) (x : St) (run : option Q) (an : anode) : option Q :=
  fold_left (fun acc o =>
    let '(pr, c, y) := o in
    match acc, (if pyeqb y x then run else sn_value (nd g y)) with
    | Some u, Some v => Some (u + pr * (c + gamma * v))%Q
    | _, _ => None
    end) (an_out an) (Some 0%Q).

(** aostar.hh:127-139: the best value and action of [x]. *)
Definition choose (gamma : Q) (g : sgraph) (x : St) (actions : list anode) : option Q * option anode :=
  fold_left (fun b an =>
    let v := q_value gamma g x (fst b) an in
    if vlt v (fst b) then (v, Some an) else b) actions (None, None).

(** aostar.hh:126-144: the update of the node [x]; while it runs the node itself counts as solved until
    an unsolved outcome is met. *)
Definition update (gamma : Q) (g : sgraph) (x : St) : res sgraph :=
  let n := nd g x in
  let '(v, b) := choose gamma g x (sn_actions n) in
  match b with
  | None => Err AttributeError
  | Some an =>
      let slv := fold_left (fun acc o => acc && (if pyeqb (snd o) x then acc else sn_solved (nd g (snd o))))
                           (an_out an) true in
      Ok (dset g x (SNode (sn_actions n) (Some an) v slv (sn_parents n)))
  end.

(** aostar.hh:124-152: one turn of the back-propagation, over the frontier. *)
Definition update_all (gamma : Q) (order : list St) (g : sgraph) : res (sgraph * list St) :=
  foldM (fun gf x =>
    let '(g, newf) := gf in
    let* g' := update gamma g x in
    Ok (g', fold_left pyadd (sn_parents (nd g' x)) newf)) (g, []) order.

(** aostar.hh:120-161: the back-propagation; [explored] is only used to detect cycles. *)
Fixpoint propagate (fuel : nat) (cf : config) (explored frontier : list St) (g : sgraph) : res sgraph :=
  match frontier with
  | [] => Ok g
  | _ =>
      match fuel with
      | 0 => Err OutOfFuel
      | S fuel =>
          let* gf := update_all (c_discount cf) (c_order cf frontier) g in
          let '(g', newf) := gf in
          if c_detect cf && existsb (fun x => pymem x explored) newf then Err ValueError
          else propagate fuel cf (explored ++ newf) newf g'
      end
  end.

(** aostar.hh:163-181: the tips of the best partial graph, from the frontier on. *)
Definition look (g : sgraph) (qf : list St * list St) (x : St) : list St * list St :=
  let '(q, newf) := qf in
  let n := nd g x in
  if sn_solved n then (q, newf)
  else match sn_best n with
       | Some an => (q, fold_left pyadd (map snd (an_out an)) newf)
       | None => (heap_push (tip_after g) q x, newf)
       end.
Fixpoint find_tips (fuel : nat) (cf : config) (g : sgraph) (frontier q : list St) : res (list St) :=
  match frontier with
  | [] => Ok q
  | _ =>
      match fuel with
      | 0 => Err OutOfFuel
      | S fuel =>
          let '(q', newf) := fold_left (look g) (c_order cf frontier) (q, []) in
          find_tips fuel cf g newf q'
      end
  end.

(** aostar.hh:70-182: the main loop. *)
Fixpoint ao_loop (fuel inner : nat) (p : mdp) (cf : config) (root : St) (g : sgraph) (q : list St) : res sgraph :=
  match q with
  | [] => Ok g
  | _ =>
      match fuel with
      | 0 => Err OutOfFuel
      | S fuel =>
          let '(g1, frontier) := expand_tips (Nat.min (length q) (c_max_tips cf)) p g q [] in
          let* g2 := propagate inner cf frontier frontier g1 in
          let* q2 := find_tips inner cf g2 [root] [] in
          ao_loop fuel inner p cf root g2 q2
      end
  end.

(** aostar.hh:57-190 [solve] on the graph left by earlier calls; [fuel] bounds the turns of each loop. *)
Definition ao_solve (fuel : nat) (p : mdp) (cf : config) (g : sgraph) (s : St) : res sgraph :=
  let g1 := if dmem g s then g else dset g s new_snode in
  if sn_solved (nd g1 s) || m_goal p s then Ok g1
  else ao_loop fuel fuel p cf s g1 (heap_push (tip_after g1) [] s).

(** aostar.hh:192-199 *)
Definition ao_defined (g : sgraph) (s : St) : bool :=
  match dget g s with
  | None => false
  | Some n => match sn_best n with None => false | Some _ => sn_solved n end
  end.

(** aostar.hh:201-207 *)
Definition ao_best_action (g : sgraph) (s : St) : res A :=
  match dget g s with
  | None => Err ValueError
  | Some n => match sn_best n with None => Err ValueError | Some an => Ok (an_action an) end
  end.

(** aostar.hh:209-215 *)
Definition ao_best_value (g : sgraph) (s : St) : res (option Q) :=
  match dget g s with
  | None => Err ValueError
  | Some n => Ok (sn_value n)
  end.

(** aostar.py:109-114 [_get_next_action] *)
Definition ao_next_action (fuel : nat) (p : mdp) (cf : config) (g : sgraph) (s : St) : res (A * sgraph) :=
  let* g' := (if ao_defined g s then Ok g else ao_solve fuel p cf g s) in
  let* a := ao_best_action g' s in
  Ok (a, g').
End Ao.
Arguments mdp : clear implicits.
Arguments config : clear implicits.
Arguments sgraph : clear implicits.
Arguments anode : clear implicits.
Arguments snode : clear implicits.
