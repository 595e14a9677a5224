(** Model of skdecide/hub/solver/lazy_astar/lazy_astar.py (LazyAstar).

    Costs, heuristic and weight are rational numbers (the code uses floats: rounding is not
    modelled).  The binary heap is modelled by its contract: popping returns the least entry in
    the order of (priority, insertion counter).  Rendering and printing are left out. *)
From Coq Require Import List Bool Arith QArith.
From Verif Require Import Py.
Import ListNotations.
Open Scope nat_scope.

Section Astar.
Context {S A : Type} {ES : PyEq S}.

(** The planning domain seen by the solver, with the heuristic and the weight. *)
Record problem := {
  apps : S -> list A;              (* get_applicable_actions(s).get_elements() *)
  next : S -> A -> S;              (* get_next_state *)
  cost : S -> A -> S -> Q;         (* get_transition_value(s, a, s').cost *)
  goal : S -> bool;                (* is_goal *)
  heur : S -> Q;
  weight : Q }.

(** An entry of the OPEN list (lazy_astar.py:79, 118). *)
Record entry := { e_f : Q; e_cnt : nat; e_node : S; e_dist : Q; e_parent : option S; e_label : option A }.

Definition entry_lt (x y : entry) : bool :=
  match Qcompare (e_f x) (e_f y) with
  | Lt => true
  | Eq => e_cnt x <? e_cnt y
  | Gt => false
  end.

(** [heappop]: the least entry and the others. *)
Fixpoint pop_min (l : list entry) : option (entry * list entry) :=
  match l with
  | [] => None
  | x :: r => match pop_min r with
              | None => Some (x, [])
              | Some (m, r') => if entry_lt x m then Some (x, m :: r') else Some (m, x :: r')
              end
  end.

Definition enq_t : Type := list (S * (Q * Q)).                 (* enqueued: node -> (dist, h) *)
Definition expl_t : Type := list (S * (option S * option A)).  (* explored: node -> (parent, label) *)

(** lazy_astar.py:41-47 [extender] *)
Definition extender (p : problem) (node : S) (explored : expl_t) : list (S * Q * A) :=
  let neigh := map (fun a => (next p node a, a)) (apps p node) in
  let neigh_not_explored := filter (fun na => negb (dmem explored (fst na))) neigh in
  map (fun na => (fst na, cost p node (snd na) (fst na), snd na)) neigh_not_explored.

(** lazy_astar.py:102-118: the body of the loop over the neighbours of [curnode]. *)
Definition relax (p : problem) (explored : expl_t) (curnode : S) (dist : Q)
           (st : list entry * nat * enq_t) (nb : S * Q * A) : list entry * nat * enq_t :=
  let '(queue, c, enqueued) := st in
  let '(neighbor, cst, lbl) := nb in
  if dmem explored neighbor then st
  else
    let ncost := (dist + cst)%Q in
    let upd h := ({| e_f := (ncost + weight p * h)%Q; e_cnt := c; e_node := neighbor; e_dist := ncost;
                     e_parent := Some curnode; e_label := Some lbl |} :: queue,
                  c + 1, dset enqueued neighbor (ncost, h)) in
    match dget enqueued neighbor with
    | Some (qcost, h) => if Qle_bool qcost ncost then st else upd h
    | None => upd (heur p neighbor)
    end.

(** lazy_astar.py:91-97: the path from the source to [node], in front of [path]. *)
Fixpoint rebuild (fuel : nat) (explored : expl_t) (node : option S) (path : list (option S * option A))
  : res (list (option S * option A)) :=
  match node with
  | None => Ok path
  | Some n =>
      match fuel with
      | 0 => Err OutOfFuel
      | Datatypes.S fuel' =>
          let* pl := dgetE explored n in
          let path' := match fst pl with Some _ => (fst pl, snd pl) :: path | None => path end in
          rebuild fuel' explored (fst pl) path'
      end
  end.

(** lazy_astar.py:84-118: the main loop.  Returns the path (empty when the queue is exhausted),
    the last popped priority and the enqueued dictionary. *)
Fixpoint search (fuel : nat) (p : problem) (queue : list entry) (c : nat) (enqueued : enq_t)
         (explored : expl_t) (estim_total : Q)
  : res (list (option S * option A) * Q * enq_t) :=
  match fuel with
  | 0 => Err OutOfFuel
  | Datatypes.S fuel' =>
      match pop_min queue with
      | None => Ok ([], estim_total, enqueued)
      | Some (x, queue1) =>
          let curnode := e_node x in
          if goal p curnode then
            let* path := rebuild (Datatypes.S (length explored)) explored (e_parent x)
                                 [(e_parent x, e_label x); (Some curnode, None)] in
            Ok (path, e_f x, enqueued)
          else if dmem explored curnode then search fuel' p queue1 c enqueued explored (e_f x)
          else
            let explored' := dset explored curnode (e_parent x, e_label x) in
            let '(queue2, c2, enqueued2) :=
              fold_left (relax p explored' curnode (e_dist x)) (extender p curnode explored')
                        (queue1, c, enqueued) in
            search fuel' p queue2 c2 enqueued2 explored' (e_f x)
      end
  end.

(** What the solver keeps: [_policy], [_values] and [_plan]. *)
Record solution := {
  policy : list (S * option A);
  values : list (S * Q);
  plan : list A }.

(** lazy_astar.py:119-124; [enqueued[None]] is a KeyError. *)
Fixpoint store (path : list (option S * option A)) (estim_total : Q) (enqueued : enq_t) (sol : solution)
  : res solution :=
  match path with
  | [] => Ok sol
  | (None, _) :: _ => Err KeyError
  | (Some node, label) :: r =>
      let* qh := dgetE enqueued node in
      store r estim_total enqueued
            {| policy := dset (policy sol) node label;
               values := dset (values sol) node (estim_total - fst qh)%Q;
               plan := match label with Some a => plan sol ++ [a] | None => plan sol end |}
  end.

(** lazy_astar.py:38-125 [_solve_domain] from state [s0]; [_values] and [_plan] are those left by
    earlier calls on the same solver object. *)
Definition solve (fuel : nat) (p : problem) (s0 : S) (values0 : list (S * Q)) (plan0 : list A) : res solution :=
  let h0 := (weight p * heur p s0)%Q in
  let enqueued := [(s0, (0%Q, h0))] in
  let queue := [{| e_f := h0; e_cnt := 0; e_node := s0; e_dist := 0%Q; e_parent := None; e_label := None |}] in
  let* r := search fuel p queue 1 enqueued [] 0%Q in
  let '(path, estim_total, enqueued') := r in
  store path estim_total enqueued' {| policy := []; values := values0; plan := plan0 |}.

(** lazy_astar.py:127-128 [_get_next_action] and 133-136 [_get_utility] *)
Definition get_next_action (sol : solution) (s : S) : res (option A) := dgetE (policy sol) s.
Definition get_utility (p : problem) (sol : solution) (s : S) : Q :=
  match dget (values sol) s with Some v => v | None => heur p s end.

End Astar.
