(** Model of the LRTDP solver of the C++ hub, cpp/src/hub/solver/lrtdp.hh (class LRTDPSolver, sequential
    execution), as driven by skdecide/hub/solver/lrtdp/lrtdp.py.

    Domains, action nodes and their outcomes are those of AoModel.v.  Costs, probabilities, the discount,
    epsilon and heuristic values are rationals (the code uses doubles: rounding is not modelled, and the
    heuristic is finite).  A node is identified by its state and a [StateNode*] is the state it points to.
    The clock and the random generator are parameters ([late], [draw]), indexed by the number of times
    they have been read.  Dereferencing a null pointer is [AttributeError].  The deletion of nodes
    ([online_node_garbage], off by default) is not modelled; logging and the number of explored states are left out. *)
From Coq Require Import List Bool Arith QArith Qabs.
From Verif Require Import Py PyList AoModel.
Import ListNotations.
Open Scope nat_scope.

Section Lrtdp.
Context {St A : Type} {ES : PyEq St}.

(** The constructor's arguments: lrtdp.hh:41-51. *)
Record lconfig := {
  lc_labels : bool;                 (* use_labels *)
  lc_rollouts : nat;                (* rollout_budget *)
  lc_depth : nat;                   (* max_depth *)
  lc_discount : Q;
  lc_epsilon : Q }.

(** What the outside world answers during a call: the n-th test [elapsed_time(start_time) >= _time_budget]
    and the n-th index drawn from the distribution of an action. *)
Record world := {
  late : nat -> bool;
  draw : nat -> list (Q * Q * St) -> nat }.

(** lrtdp.hh:202-219 struct StateNode *)
Record lnode := LNode {
  l_actions : list (anode St A);
  l_best : option (anode St A);
  l_value : Q;
  l_goal : bool;
  l_solved : bool }.

Definition lgraph : Type := list (St * lnode).

(** The graph, and how many times the clock and the generator have been read. *)
Record lstate := LState { ls_graph : lgraph; ls_ticks : nat; ls_draws : nat }.
Definition on_graph (f : lgraph -> lgraph) (st : lstate) : lstate := LState (f (ls_graph st)) (ls_ticks st) (ls_draws st).

(** Reading a node through its pointer: the node is always in the graph. *)
Definition ln (g : lgraph) (s : St) : lnode := match dget g s with Some n => n | None => LNode [] None 0%Q false false end.

(** [elapsed_time(start_time) >= _time_budget] *)
Definition clock (w : world) (st : lstate) : bool * lstate :=
  (late w (ls_ticks st), LState (ls_graph st) (S (ls_ticks st)) (ls_draws st)).

(** lrtdp.hh:259-279: a new node for an outcome. *)
Definition reach_lnode (p : mdp St A) (g : lgraph) (o : St * Q) : lgraph :=
  let y := fst o in
  if dmem g y then g
  else dset g y (if m_goal p y then LNode [] None 0%Q true true else LNode [] None (m_heur p y) false false).

(** lrtdp.hh:248-286 [expand]; as in AoModel.v an action node is put in the list with its outcomes. *)
Definition expand_laction (p : mdp St A) (x : St) (g : lgraph) (a : A) : lgraph :=
  let g1 := fold_left (reach_lnode p) (m_dist p x a) g in
  let n := ln g1 x in
  dset g1 x (LNode (l_actions n ++ [ANode a (outcomes p x a)]) (l_best n) (l_value n) (l_goal n) (l_solved n)).
Definition lexpand (p : mdp St A) (x : St) (g : lgraph) : lgraph := fold_left (expand_laction p x) (m_apps p x) g.

(** lrtdp.hh:288-297 [q_value] *)
Definition lq (gamma : Q) (g : lgraph) (an : anode St A) : Q :=
  fold_left (fun u o => (u + fst (fst o) * (snd (fst o) + gamma * l_value (ln g (snd o))))%Q) (an_out an) 0%Q.

(** lrtdp.hh:299-321 [greedy_action]: the first action with the least value; [None] is the null pointer. *)
Definition lgreedy (gamma : Q) (g : lgraph) (l : list (anode St A)) : option (anode St A * Q) :=
  fold_left (fun b an =>
    let v := lq gamma g an in
    match b with
    | None => Some (an, v)
    | Some (_, u) => if Qle_bool u v then b else Some (an, v)
    end) l None.

(** [expand(s)] when the node has no action: lrtdp.hh:303-305. *)
Definition ready (p : mdp St A) (x : St) (g : lgraph) : lgraph :=
  match l_actions (ln g x) with [] => lexpand p x g | _ => g end.

(** lrtdp.hh:323-328 [update] *)
Definition lupdate (p : mdp St A) (cf : lconfig) (x : St) (st : lstate) : res (lstate * anode St A) :=
  let g := ready p x (ls_graph st) in
  let n := ln g x in
  match lgreedy (lc_discount cf) g (l_actions n) with
  | None => Err AttributeError
  | Some (an, v) =>
      Ok (LState (dset g x (LNode (l_actions n) (Some an) v (l_goal n) (l_solved n))) (ls_ticks st) (ls_draws st), an)
  end.

(** lrtdp.hh:330-339 [pick_next_state] *)
Definition pick (w : world) (an : anode St A) (st : lstate) : res (lstate * St) :=
  match nth_error (an_out an) (draw w (ls_draws st) (an_out an)) with
  | None => Err IndexError
  | Some o => Ok (LState (ls_graph st) (ls_ticks st) (S (ls_draws st)), snd o)
  end.

(** lrtdp.hh:341-348 [residual], with the best action it stores in the node. *)
Definition lresidual (p : mdp St A) (cf : lconfig) (x : St) (st : lstate) : res (lstate * anode St A * Q) :=
  let g := ready p x (ls_graph st) in
  let n := ln g x in
  match lgreedy (lc_discount cf) g (l_actions n) with
  | None => Err AttributeError
  | Some (an, v) =>
      Ok (LState (dset g x (LNode (l_actions n) (Some an) (l_value n) (l_goal n) (l_solved n))) (ls_ticks st) (ls_draws st),
          an, Qabs (l_value n - v))
  end.

(** lrtdp.hh:371-394: the loop of [check_solved] with [d] pops left; [open] and [closed] are stacks.  The
    result is the state, [rv], [open] and [closed]. *)
Fixpoint check_loop (d : nat) (p : mdp St A) (cf : lconfig) (w : world) (st : lstate) (rv : bool) (open closed visited : list St)
  : res (lstate * bool * list St * list St) :=
  match open with
  | [] => Ok (st, rv, open, closed)
  | cs :: rest =>
      let '(lt, st) := clock w st in
      if lt then Ok (st, rv, open, closed)
      else match d with
      | 0 => Ok (st, rv, open, closed)
      | S d =>
          let visited := pyadd visited cs in
          let* r := lresidual p cf cs st in
          let '(st, an, e) := r in
          if Qle_bool e (lc_epsilon cf) then
            let open' := fold_left (fun l o => if l_solved (ln (ls_graph st) (snd o)) || pymem (snd o) visited then l else snd o :: l)
                                   (an_out an) rest in
            check_loop d p cf w st rv open' (cs :: closed) visited
          else check_loop d p cf w st false rest (cs :: closed) visited
      end
  end.

(** lrtdp.hh:401-404 *)
Definition mark (g : lgraph) (x : St) : lgraph :=
  let n := ln g x in dset g x (LNode (l_actions n) (l_best n) (l_value n) (l_goal n) true).

(** lrtdp.hh:406-411 *)
Fixpoint update_closed (p : mdp St A) (cf : lconfig) (w : world) (st : lstate) (closed : list St) : res lstate :=
  match closed with
  | [] => Ok st
  | x :: closed =>
      let '(lt, st) := clock w st in
      if lt then Ok st
      else let* r := lupdate p cf x st in update_closed p cf w (fst r) closed
  end.

(** lrtdp.hh:350-422 [check_solved] *)
Definition check_solved (p : mdp St A) (cf : lconfig) (w : world) (s : St) (st : lstate) : res (lstate * bool) :=
  let start := if l_solved (ln (ls_graph st) s) then [] else [s] in
  let* r := check_loop (lc_depth cf) p cf w st true start [] start in
  let '(st, rv, open, closed) := r in
  let '(lt, st) := clock w st in
  let rv := rv && (negb lt || match open with [] => true | _ => false end) in
  if rv then Ok (on_graph (fun g => fold_left mark closed g) st, true)
  else let* st := update_closed p cf w st closed in Ok (st, false).

(** lrtdp.hh:427-448: the walk of a trial; [d] steps are left, [visited] is a stack. *)
Fixpoint walk (d : nat) (p : mdp St A) (cf : lconfig) (w : world) (st : lstate) (visited : list St) (cs : St) (found : bool)
  : res (lstate * list St) :=
  if (negb (lc_labels cf) || negb (l_solved (ln (ls_graph st) cs))) && negb found then
    let '(lt, st) := clock w st in
    if lt then Ok (st, visited)
    else match d with
    | 0 => Ok (st, visited)
    | S d =>
        let found := l_goal (ln (ls_graph st) cs) in
        let* r := lupdate p cf cs st in
        let* r' := pick w (snd r) (fst r) in
        walk d p cf w (fst r') (cs :: visited) (snd r') found
    end
  else Ok (st, visited).

(** lrtdp.hh:450-457: the labelling that follows the walk. *)
Fixpoint label (p : mdp St A) (cf : lconfig) (w : world) (st : lstate) (visited : list St) : res lstate :=
  match visited with
  | [] => Ok st
  | x :: visited =>
      let '(lt, st) := clock w st in
      if lt then Ok st
      else
        let* r := check_solved p cf w x st in
        if snd r then label p cf w (fst r) visited else Ok (fst r)
  end.

(** lrtdp.hh:424-458 [trial] *)
Definition ltrial (p : mdp St A) (cf : lconfig) (w : world) (s : St) (st : lstate) : res lstate :=
  let* r := walk (lc_depth cf) p cf w st [] s false in
  if lc_labels cf then label p cf w (fst r) (snd r) else Ok (fst r).

(** lrtdp.hh:96-103: the trials; [n] rollouts are left.  The result is the state and the number of
    rollouts left. *)
Fixpoint ltrials (n : nat) (p : mdp St A) (cf : lconfig) (w : world) (s : St) (st : lstate) : res (lstate * nat) :=
  if negb (lc_labels cf) || negb (l_solved (ln (ls_graph st) s)) then
    let '(lt, st) := clock w st in
    if lt then Ok (st, n)
    else match n with
         | 0 => Ok (st, n)
         | S n => let* st := ltrial p cf w s st in ltrials n p cf w s st
         end
  else Ok (st, n).

(** lrtdp.hh:73-115 [solve] on the graph left by earlier calls: the graph and [get_nb_rollouts()] after it.
    ([None]: the call returned before the counter is reset, which keeps its old value.)
    The parallel capacity is 1 (python_domain_adapter.hh:622-624). *)
Definition lrtdp_solve (p : mdp St A) (cf : lconfig) (w : world) (g : lgraph) (s : St) : res (lgraph * option nat) :=
  let g1 := if dmem g s then g else dset g s (LNode [] None (m_heur p s) false false) in
  if l_solved (ln g1 s) || m_goal p s then Ok (g1, None)
  else
    let* r := ltrials (lc_rollouts cf) p cf w s (LState g1 0 0) in
    Ok (ls_graph (fst r), Some (lc_rollouts cf - snd r)).

(** lrtdp.hh:117-125 *)
Definition lrtdp_defined (g : lgraph) (s : St) : bool :=
  match dget g s with None => false | Some n => match l_best n with None => false | Some _ => true end end.

(** lrtdp.hh:127-149 [get_best_action]; an exception is a [ValueError]. *)
Definition lrtdp_best_action (g : lgraph) (s : St) : res A :=
  match dget g s with
  | None => Err ValueError
  | Some n => match l_best n with None => Err ValueError | Some an => Ok (an_action an) end
  end.

(** lrtdp.hh:151-157 *)
Definition lrtdp_best_value (g : lgraph) (s : St) : res Q :=
  match dget g s with None => Err ValueError | Some n => Ok (l_value n) end.

(** lrtdp.hh:167-177 [policy] *)
Definition lrtdp_policy (g : lgraph) : list (St * (A * Q)) :=
  flat_map (fun e => match l_best (snd e) with Some an => [(fst e, (an_action an, l_value (snd e)))] | None => [] end) g.

(** lrtdp.py:124-143 [_get_next_action], with [get_next_action] of py_lrtdp.cc:191-197; [None] stands for a
    random element of the action space. *)
Definition lrtdp_next_action (continuous : bool) (p : mdp St A) (cf : lconfig) (w : world) (g : lgraph) (s : St) : res (option A * lgraph) :=
  let* g' := (if continuous || negb (lrtdp_defined g s) then let* r := lrtdp_solve p cf w g s in Ok (fst r) else Ok g) in
  Ok (match lrtdp_best_action g' s with Ok a => Some a | Err _ => None end, g').
End Lrtdp.
Arguments lnode : clear implicits.
Arguments lgraph : clear implicits.
Arguments lstate : clear implicits.
Arguments world : clear implicits.
