(** Model of the ILAO* solver of the C++ hub, cpp/src/hub/solver/ilaostar.hh (class ILAOStarSolver,
    sequential execution), as driven by skdecide/hub/solver/ilaostar/ilaostar.py.

    Domains, action nodes and their outcomes are those of AoModel.v.  Costs, probabilities, the discount,
    epsilon and heuristic values are rationals (the code uses doubles: rounding is not modelled, and the
    heuristic is finite); [None] stands for an infinite value.  A node is identified by its state and a
    [StateNode*] is the state it points to.  The order in which an unordered set of pointers is iterated
    over is a parameter.  Dereferencing a null pointer is [AttributeError], a C++ exception [ValueError];
    each loop has a bound on its turns, past which it is [OutOfFuel].  Logging and the two counters of
    states are left out. *)
From Coq Require Import List Bool Arith QArith Qabs.
From Verif Require Import Py PyList AoModel.
Import ListNotations.
Open Scope nat_scope.

Section Ilao.
Context {St A : Type} {ES : PyEq St}.

(** The constructor's arguments: ilaostar.hh:37-42. *)
Record iconfig := {
  ic_discount : Q;
  ic_epsilon : Q;
  ic_order : list St -> list St }.       (* iteration over an unordered set, given the insertions *)

(** The absolute difference of two values that may be infinite: a number, infinity, or NaN. *)
Inductive gap := Fin (q : Q) | Inf | NaN.

(** ilaostar.hh:176-197 struct StateNode *)
Record inode := INode {
  i_actions : list (anode St A);
  i_best : option (anode St A);
  i_value : option Q;
  i_mfpt : Q;                            (* first_passage_time *)
  i_residual : gap;
  i_goal : bool;
  i_tip : bool;                          (* reach_tip_node *)
  i_solved : bool }.

Definition new_inode : inode := INode [] None None 0%Q Inf false true false.
Definition igraph : Type := list (St * inode).

(** Reading a node through its pointer: the node is always in the graph. *)
Definition inn (g : igraph) (s : St) : inode := match dget g s with Some n => n | None => new_inode end.

Definition set_tip (b : bool) (g : igraph) (x : St) : igraph :=
  let n := inn g x in
  dset g x (INode (i_actions n) (i_best n) (i_value n) (i_mfpt n) (i_residual n) (i_goal n) b (i_solved n)).
Definition set_mfpt (q : Q) (g : igraph) (x : St) : igraph :=
  let n := inn g x in
  dset g x (INode (i_actions n) (i_best n) (i_value n) q (i_residual n) (i_goal n) (i_tip n) (i_solved n)).
Definition set_solved (b : bool) (g : igraph) (x : St) : igraph :=
  let n := inn g x in
  dset g x (INode (i_actions n) (i_best n) (i_value n) (i_mfpt n) (i_residual n) (i_goal n) (i_tip n) b).
Definition set_value (v : option Q) (g : igraph) (x : St) : igraph :=
  let n := inn g x in
  dset g x (INode (i_actions n) (i_best n) v (i_mfpt n) (i_residual n) (i_goal n) (i_tip n) (i_solved n)).

(** ilaostar.hh:226-244: one outcome of an action: the node is created if needed. *)
Definition reach_inode (p : mdp St A) (g : igraph) (o : St * Q) : igraph :=
  let y := fst o in
  if dmem g y then g
  else dset g y (if m_goal p y then INode [] None (Some 0%Q) 0%Q Inf true true true
                 else INode [] None (Some (m_heur p y)) 0%Q Inf false true false).

(** ilaostar.hh:216-246: one applicable action; as in AoModel.v the action node is put in the list with
    its outcomes. *)
Definition expand_iaction (p : mdp St A) (x : St) (g : igraph) (a : A) : igraph :=
  let g1 := fold_left (reach_inode p) (m_dist p x a) g in
  let n := inn g1 x in
  dset g1 x (INode (i_actions n ++ [ANode a (outcomes p x a)]) (i_best n) (i_value n) (i_mfpt n) (i_residual n)
                   (i_goal n) (i_tip n) (i_solved n)).
(** ilaostar.hh:212-247 *)
Definition iexpand (p : mdp St A) (g : igraph) (x : St) : igraph := fold_left (expand_iaction p x) (m_apps p x) g.

(** ilaostar.hh:328-331: the value of an action.  An infinite value with probability or discount zero makes
    a NaN in the code, here infinity: neither is less than anything. *)
Definition iq (gamma : Q) (g : igraph) (an : anode St A) : option Q :=
  fold_left (fun acc o =>
    let '(pr, c, y) := o in
    match acc, i_value (inn g y) with
    | Some u, Some v => Some (u + pr * (c + gamma * v))%Q
    | _, _ => None
    end) (an_out an) (Some 0%Q).

(** ilaostar.hh:324-338 *)
Definition ichoose (gamma : Q) (g : igraph) (l : list (anode St A)) : option Q * option (anode St A) :=
  fold_left (fun b an =>
    let v := iq gamma g an in
    if vlt v (fst b) then (v, Some an) else b) l (None, None).

(** ilaostar.hh:341 [std::fabs(best_value - record_value)] *)
Definition gap_of (v w : option Q) : gap :=
  match v, w with
  | Some x, Some y => Fin (Qabs (x - y))
  | None, None => NaN
  | _, _ => Inf
  end.

(** ilaostar.hh:321-343 [update] *)
Definition iupdate (gamma : Q) (g : igraph) (x : St) : igraph :=
  let n := inn g x in
  let '(v, b) := ichoose gamma g (i_actions n) in
  dset g x (INode (i_actions n) b v (i_mfpt n) (gap_of v (i_value n)) (i_goal n) (i_tip n) (i_solved n)).

(** ilaostar.hh:256-286: the loop of [depth_first_search] from [s]; the top of the stack is the head of the list. *)
Fixpoint dfs_loop (fuel : nat) (p : mdp St A) (gamma : Q) (s : St) (g : igraph) (visited open : list St) : res igraph :=
  match open with
  | [] => Ok g
  | cs :: rest =>
      match fuel with
      | 0 => Err OutOfFuel
      | S fuel =>
          let n := inn g cs in
          if i_solved n then dfs_loop fuel p gamma s g visited rest
          else if i_goal n then dfs_loop fuel p gamma s (set_value (Some 0%Q) g cs) visited rest
          else match i_actions n with
               | [] => dfs_loop fuel p gamma s (iupdate gamma (iexpand p (set_tip true g s) cs) cs) visited rest
               | _ :: _ =>
                   if pymem cs visited then dfs_loop fuel p gamma s (iupdate gamma g cs) visited rest
                   else match i_best n with
                        | None => Err AttributeError
                        | Some an =>
                            let visited' := pyadd visited cs in
                            dfs_loop fuel p gamma s g visited'
                              (fold_left (fun st o => if pymem (snd o) visited' then st else snd o :: st) (an_out an) open)
                        end
               end
      end
  end.
(** ilaostar.hh:249-287 *)
Definition dfs (fuel : nat) (p : mdp St A) (gamma : Q) (g : igraph) (s : St) : res igraph :=
  dfs_loop fuel p gamma s (set_tip false g s) [] [s].

(** ilaostar.hh:78-80 *)
Fixpoint dfs_all (fuel inner : nat) (p : mdp St A) (gamma : Q) (g : igraph) (s : St) : res igraph :=
  if i_tip (inn g s) then
    match fuel with
    | 0 => Err OutOfFuel
    | S fuel => let* g' := dfs inner p gamma g s in dfs_all fuel inner p gamma g' s
    end
  else Ok g.

(** ilaostar.hh:300-314: one outcome of the best action of a state of the frontier. *)
Definition bsg_outcome (t : igraph * list St * list St) (o : Q * Q * St) : igraph * list St * list St :=
  let '(g, bsg, newf) := t in
  let y := snd o in
  let n := inn g y in
  if i_goal n || i_solved n then (set_tip false g y, bsg, newf)
  else match i_actions n with
       | [] => (set_tip true g y, bsg, newf)
       | _ :: _ => if pymem y bsg then t else (set_tip false g y, pyadd bsg y, pyadd newf y)
       end.
Definition bsg_state (t : igraph * list St * list St) (x : St) : igraph * list St * list St :=
  match i_best (inn (fst (fst t)) x) with
  | None => t
  | Some an => fold_left bsg_outcome (an_out an) t
  end.
(** ilaostar.hh:296-318 *)
Fixpoint bsg_loop (fuel : nat) (order : list St -> list St) (g : igraph) (bsg frontier : list St) : res (igraph * list St) :=
  match frontier with
  | [] => Ok (g, bsg)
  | _ :: _ =>
      match fuel with
      | 0 => Err OutOfFuel
      | S fuel =>
          let '(g', bsg', newf) := fold_left bsg_state (order frontier) (g, bsg, []) in
          bsg_loop fuel order g' bsg' newf
      end
  end.
(** ilaostar.hh:289-319 [compute_best_solution_graph] *)
Definition best_graph (fuel : nat) (order : list St -> list St) (g : igraph) (s : St) : res (igraph * list St) :=
  bsg_loop fuel order g [s] [s].

(** [std::max] of the running residual, which is never a NaN, and a new one; and [residual > epsilon]. *)
Definition gmax (r u : gap) : gap :=
  match r, u with
  | Fin a, Fin b => if Qle_bool b a then Fin a else Fin b
  | Fin _, Inf => Inf
  | _, _ => r
  end.
Definition exceeds (r : gap) (eps : Q) : bool :=
  match r with Fin q => negb (Qle_bool q eps) | Inf => true | NaN => false end.

(** ilaostar.hh:350-353: one sweep. *)
Definition vi_step (gamma : Q) (t : igraph * gap) (x : St) : igraph * gap :=
  let g' := iupdate gamma (fst t) x in (g', gmax (snd t) (i_residual (inn g' x))).
Definition vi_sweep (gamma : Q) (g : igraph) (l : list St) : igraph * gap := fold_left (vi_step gamma) l (g, Fin 0%Q).
(** ilaostar.hh:345-358 [value_iteration] *)
Fixpoint value_iteration (fuel : nat) (cf : iconfig) (g : igraph) (bsg : list St) : res igraph :=
  match fuel with
  | 0 => Err OutOfFuel
  | S fuel =>
      let '(g', r) := vi_sweep (ic_discount cf) g (ic_order cf bsg) in
      if exceeds r (ic_epsilon cf) then value_iteration fuel cf g' bsg else Ok g'
  end.

(** ilaostar.hh:360-373 [update_reachability] *)
Definition reach_step (t : igraph * bool) (x : St) : res (igraph * bool) :=
  let g := fst t in
  match i_best (inn g x) with
  | None => Err AttributeError
  | Some an =>
      let r := fold_left (fun b o => b || i_tip (inn g (snd o))) (an_out an) false in
      Ok (set_tip r g x, negb (Bool.eqb (i_tip (inn g x)) r) || snd t)
  end.
(** ilaostar.hh:375-387 [compute_reachability] *)
Fixpoint reachability (fuel : nat) (order : list St -> list St) (g : igraph) (bsg : list St) : res igraph :=
  match fuel with
  | 0 => Err OutOfFuel
  | S fuel =>
      let* t := foldM reach_step (g, false) (order bsg) in
      if snd t then reachability fuel order (fst t) bsg else Ok (fst t)
  end.

(** ilaostar.hh:389-402 [update_mfpt] *)
Definition mfpt_step (t : igraph * Q) (x : St) : res (igraph * Q) :=
  let g := fst t in
  match i_best (inn g x) with
  | None => Err AttributeError
  | Some an =>
      let f := fold_left (fun u o => u + fst (fst o) * (1 + i_mfpt (inn g (snd o))))%Q (an_out an) 0%Q in
      let d := Qabs (f - i_mfpt (inn g x)) in
      Ok (set_mfpt f g x, if Qle_bool d (snd t) then snd t else d)
  end.
(** ilaostar.hh:404-422 [compute_mfpt] *)
Fixpoint mfpt (fuel : nat) (cf : iconfig) (g : igraph) (bsg : list St) : res igraph :=
  match fuel with
  | 0 => Err OutOfFuel
  | S fuel =>
      let* t := foldM mfpt_step (g, 0%Q) (ic_order cf bsg) in
      if negb (Qle_bool (snd t) (ic_epsilon cf)) then mfpt fuel cf (fst t) bsg else Ok (fst t)
  end.

(** ilaostar.hh:424-442 [update_solved_bits]; an infinite or NaN residual makes a product that is not less
    than epsilon. *)
Definition settle (eps : Q) (g : igraph) (x : St) : igraph :=
  let n := inn g x in
  set_solved (negb (i_tip n) && match i_residual n with
                                | Fin r => negb (Qle_bool eps (i_mfpt n * r))
                                | _ => false
                                end) g x.

(** ilaostar.hh:77-96: one turn of the main loop. *)
Definition ilao_turn (fuel : nat) (p : mdp St A) (cf : iconfig) (g : igraph) (s : St) : res igraph :=
  let* g1 := dfs_all fuel fuel p (ic_discount cf) g s in
  let* t2 := best_graph fuel (ic_order cf) g1 s in
  let* g3 := value_iteration fuel cf (fst t2) (snd t2) in
  let* t4 := best_graph fuel (ic_order cf) g3 s in
  let* g5 := reachability fuel (ic_order cf) (fst t4) (snd t4) in
  let* g6 := mfpt fuel cf g5 (snd t4) in
  Ok (fold_left (settle (ic_epsilon cf)) (ic_order cf (snd t4)) g6).
(** ilaostar.hh:76-106 *)
Fixpoint ilao_loop (fuel inner : nat) (p : mdp St A) (cf : iconfig) (g : igraph) (s : St) : res igraph :=
  if i_solved (inn g s) then Ok g
  else match fuel with
       | 0 => Err OutOfFuel
       | S fuel => let* g' := ilao_turn inner p cf g s in ilao_loop fuel inner p cf g' s
       end.

(** ilaostar.hh:59-115 [solve] on the graph left by earlier calls; [fuel] bounds the turns of each loop. *)
Definition ilao_solve (fuel : nat) (p : mdp St A) (cf : iconfig) (g : igraph) (s : St) : res igraph :=
  let g1 := if dmem g s then g else dset g s (INode [] None (Some (m_heur p s)) 0%Q Inf false true false) in
  if i_solved (inn g1 s) || m_goal p s then Ok g1
  else ilao_loop fuel fuel p cf g1 s.

(** ilaostar.hh:117-124 *)
Definition ilao_defined (g : igraph) (s : St) : bool :=
  match dget g s with
  | None => false
  | Some n => match i_best n with None => false | Some _ => true end
  end.

(** ilaostar.hh:126-132 *)
Definition ilao_best_action (g : igraph) (s : St) : res A :=
  match dget g s with
  | None => Err ValueError
  | Some n => match i_best n with None => Err ValueError | Some an => Ok (an_action an) end
  end.

(** ilaostar.hh:134-140 *)
Definition ilao_best_value (g : igraph) (s : St) : res (option Q) :=
  match dget g s with
  | None => Err ValueError
  | Some n => Ok (i_value n)
  end.

(** ilaostar.hh:150-160 [policy] *)
Definition ilao_policy (g : igraph) : list (St * (A * option Q)) :=
  flat_map (fun sn => match i_best (snd sn) with None => [] | Some an => [(fst sn, (an_action an, i_value (snd sn)))] end) g.

(** ilaostar.py:106-111 [_get_next_action] and py_ilaostar.cc:173-179: [None] when there is no best action. *)
Definition ilao_next_action (fuel : nat) (p : mdp St A) (cf : iconfig) (g : igraph) (s : St) : res (option A * igraph) :=
  let* g' := (if ilao_defined g s then Ok g else ilao_solve fuel p cf g s) in
  Ok (match ilao_best_action g' s with Ok a => Some a | Err _ => None end, g').
End Ilao.
Arguments iconfig : clear implicits.
Arguments igraph : clear implicits.
Arguments inode : clear implicits.
