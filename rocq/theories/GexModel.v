(** Model of skdecide/hub/solver/graph_explorer: DFSExploration.py, FullSpaceExploration.py,
    DFS_Uncertain_Exploration.py and GraphDomain.py.

    States and actions are hashable values; an inner dict has no identity except in [merge], where the dicts live in
    a store.  Printing is left out.  A limit of [None] is Python's None: comparing with it is a TypeError. *)
From Coq Require Import String List Bool Arith QArith.
From Verif Require Import Py PyList.
Import ListNotations.
Open Scope nat_scope.

Section Gex.
Context {St A X : Type} {ES : PyEq St} {EA : PyEq A}.

(** The deterministic domain that is explored. *)
Record xdom := {
  x_init : St;                           (* get_initial_state() *)
  x_apps : St -> list A;                 (* get_applicable_actions(s).get_elements() *)
  x_next : St -> A -> St;                (* get_next_state(s, a) *)
  x_goal : St -> bool }.                 (* is_goal *)

(** max_edges, max_nodes, max_path *)
Record limits := { l_edges : option nat; l_nodes : option nat; l_path : option nat }.

(** [n > limit] *)
Definition gtN (n : nat) (lim : option nat) : res bool :=
  match lim with None => Err TypeError | Some m => Ok (m <? n) end.

(** DFSExploration.py:66-67, FullSpaceExploration.py:54-55: the test after each state; [and] and [or] are lazy. *)
Definition past (l : limits) (nodes edges paths : nat) : res bool :=
  let* a := gtN paths (l_path l) in
  if a then Ok true else
  let* b := gtN nodes (l_nodes l) in
  if b && (1 <=? paths) then Ok true else
  let* c := gtN edges (l_edges l) in
  Ok (c && (1 <=? paths)).

Definition nmap : Type := list (St * list (A * St)).
Definition amap : Type := list (St * list (A * X)).

(** The variables of the loop. *)
Record xst := XSt { xs_map : nmap; xs_att : amap; xs_nodes : nat; xs_edges : nat; xs_paths : nat; xs_stack : list St }.

(** DFSExploration.py:40-65: one action of [vertex]; of the stack only the state is kept, the path is not used. *)
Definition dfs_action (d : xdom) (ext : St -> A -> St -> X) (vertex : St) (z : xst) (a : A) : res xst :=
  let n := x_next d vertex a in
  let* inner := dgetE (xs_map z) vertex in
  if dmem inner a then Ok z
  else
    let* iatt := dgetE (xs_att z) vertex in
    let m1 := dset (xs_map z) vertex (dset inner a n) in
    let t1 := dset (xs_att z) vertex (dset iatt a (ext vertex a n)) in
    let paths := if x_goal d n then S (xs_paths z) else xs_paths z in
    let stack := if x_goal d n then xs_stack z else if dmem m1 n then xs_stack z else n :: xs_stack z in
    if dmem m1 n then Ok (XSt m1 t1 (xs_nodes z) (S (xs_edges z)) paths stack)
    else Ok (XSt (dset m1 n []) (dset t1 n []) (S (xs_nodes z)) (S (xs_edges z)) paths stack).

(** DFSExploration.py:37-68; the top of the stack is the head of the list. *)
Fixpoint dfs_loop (fuel : nat) (d : xdom) (ext : St -> A -> St -> X) (l : limits) (z : xst) : res xst :=
  match xs_stack z with
  | [] => Ok z
  | vertex :: rest =>
      match fuel with
      | 0 => Err OutOfFuel
      | S fuel =>
          let* z' := foldM (dfs_action d ext vertex) (XSt (xs_map z) (xs_att z) (xs_nodes z) (xs_edges z) (xs_paths z) rest) (x_apps d vertex) in
          let* stop := past l (xs_nodes z') (xs_edges z') (xs_paths z') in
          if stop then Ok z' else dfs_loop fuel d ext l z'
      end
  end.

(** GraphDomain.py:100-171: a GraphDomain. *)
Record gdomain := { g_map : nmap; g_att : amap; g_targets : list St; g_weight : option string }.

(** GraphDomain.py:122-133 with targets None *)
Definition mk_gdomain (m : nmap) (t : amap) (w : option string) : gdomain := {| g_map := m; g_att := t; g_targets := []; g_weight := w |}.

(** DFSExploration.py:19-71 [build_graph_domain] *)
Definition dfs_build (fuel : nat) (d : xdom) (ext : St -> A -> St -> X) (l : limits) (init : option St) : res gdomain :=
  let s0 := match init with None => x_init d | Some s => s end in
  let* z := dfs_loop fuel d ext l (XSt [(s0, [])] [(s0, [])] 1 0 0 [s0]) in
  Ok (mk_gdomain (xs_map z) (xs_att z) None).

(** FullSpaceExploration.py:34-53: one action of [vertex]. *)
Definition full_action (d : xdom) (ext : St -> A -> St -> X) (vertex : St) (z : xst) (a : A) : res xst :=
  let n := x_next d vertex a in
  let fresh := negb (dmem (xs_map z) n) in
  let m0 := if fresh then dset (xs_map z) n [] else xs_map z in
  let t0 := if fresh then dset (xs_att z) n [] else xs_att z in
  let nodes := if fresh then S (xs_nodes z) else xs_nodes z in
  let* inner := dgetE m0 vertex in
  let* iatt := dgetE t0 vertex in
  let edges := if dmem inner a then xs_edges z else S (xs_edges z) in
  let m1 := dset m0 vertex (dset inner a n) in
  let t1 := dset t0 vertex (dset iatt a (ext vertex a n)) in
  let paths := if x_goal d n then S (xs_paths z) else xs_paths z in
  let stack := if x_goal d n then xs_stack z else if dmem m1 n then xs_stack z else n :: xs_stack z in
  Ok (XSt m1 t1 nodes edges paths stack).

(** FullSpaceExploration.py:31-56 *)
Fixpoint full_loop (fuel : nat) (d : xdom) (ext : St -> A -> St -> X) (l : limits) (z : xst) : res xst :=
  match xs_stack z with
  | [] => Ok z
  | vertex :: rest =>
      match fuel with
      | 0 => Err OutOfFuel
      | S fuel =>
          let* z' := foldM (full_action d ext vertex) (XSt (xs_map z) (xs_att z) (xs_nodes z) (xs_edges z) (xs_paths z) rest) (x_apps d vertex) in
          let* stop := past l (xs_nodes z') (xs_edges z') (xs_paths z') in
          if stop then Ok z' else full_loop fuel d ext l z'
      end
  end.

(** FullSpaceExploration.py:20-59 [build_graph_domain] *)
Definition full_build (fuel : nat) (d : xdom) (ext : St -> A -> St -> X) (l : limits) (init : option St) : res gdomain :=
  let s0 := match init with None => x_init d | Some s => s end in
  let* z := full_loop fuel d ext l (XSt [(s0, [])] [(s0, [])] 1 0 0 [s0]) in
  Ok (mk_gdomain (xs_map z) (xs_att z) None).

(** GraphDomain.py:135-136 [_get_next_state], on the last state of the memory *)
Definition g_next (g : gdomain) (s : St) (a : A) : res St := let* inner := dgetE (g_map g) s in dgetE inner a.
(** GraphDomain.py:150-151 [_get_applicable_actions_from] *)
Definition g_apps (g : gdomain) (s : St) : res (list A) := let* inner := dgetE (g_map g) s in Ok (dkeys inner).
(** GraphDomain.py:156-157 [is_goal] and 144-145 [is_terminal] *)
Definition g_goal (g : gdomain) (s : St) : bool := pymem s (g_targets g).
End Gex.
Arguments xdom : clear implicits.
Arguments gdomain : clear implicits.

(** GraphDomain.py:138-142 [_get_transition_value], the attributes being dicts. *)
Definition g_cost {St A} {ES : PyEq St} {EA : PyEq A} (g : gdomain St A (list (string * Q))) (s : St) (a : A) : res Q :=
  let* inner := dgetE (g_att g) s in
  let* att := dgetE inner a in
  match g_weight g with None => Err KeyError | Some w => dgetE att w end.

(** DFSExploration.py:22-25: the default extractor. *)
Definition cost_of {St A} (cost : St -> A -> St -> Q) (s : St) (a : A) (t : St) : list (string * Q) := [("cost"%string, cost s a t)].

Section Uncertain.
Context {St A : Type} {ES : PyEq St} {EA : PyEq A}.

(** The uncertain domain that is explored. *)
Record udom := {
  u_init : St;
  u_apps : St -> list A;
  u_dist : St -> A -> list (St * Q);     (* get_next_state_distribution(s, a).get_values() *)
  u_goal : St -> bool;
  u_term : St -> bool;
  u_cost : St -> A -> St -> Q }.

(** FullSpaceExploration.py:77-80: the outcomes of one action. *)
Definition add_new (rs : list St * list St) (o : St * Q) : list St * list St :=
  let '(result, stack) := rs in
  if negb (Qeq_bool (snd o) 0) && negb (pymem (fst o) result) then (pyadd result (fst o), fst o :: stack) else rs.

(** FullSpaceExploration.py:62-81 [reachable_states]; the top of the stack is the head of the list. *)
Fixpoint reachable_loop (fuel : nat) (d : udom) (result stack : list St) : res (list St) :=
  match stack with
  | [] => Ok result
  | s :: stack =>
      match fuel with
      | 0 => Err OutOfFuel
      | S fuel =>
          if u_term d s then reachable_loop fuel d result stack
          else
            let '(result', stack') := fold_left (fun rs a => fold_left add_new (u_dist d s a) rs) (u_apps d s) (result, stack) in
            reachable_loop fuel d result' stack'
      end
  end.
Definition reachable_states (fuel : nat) (d : udom) (s0 : St) : res (list St) := reachable_loop fuel d [s0] [s0].

Definition umap : Type := list (St * list (A * list (St * (Q * Q)))).

(** The variables of the loop of DFS_Uncertain_Exploration.py; [terminal_states], [goal_states] and [state_to_ind] are
    not used afterwards, and [nb_states] is the size of [result]. *)
Record ust := USt { us_map : umap; us_term : list (St * bool); us_goal : list (St * bool); us_result : list St; us_edges : nat; us_stack : list St }.

(** DFS_Uncertain_Exploration.py:63-77: one outcome of [action] in [s]. *)
Definition u_outcome (d : udom) (s : St) (a : A) (z : ust) (o : St * Q) : res ust :=
  let '(t, pr) := o in
  let m0 := if dmem (us_map z) s then us_map z else dset (us_map z) s [] in
  let* i0 := dgetE m0 s in
  let m1 := if dmem i0 a then m0 else dset m0 s (dset i0 a []) in
  if negb (Qeq_bool pr 0) && negb (pymem t (us_result z)) then
    let* i1 := dgetE m1 s in
    let* e := dgetE i1 a in
    Ok (USt (dset m1 s (dset i1 a (dset e t (pr, u_cost d s a t)))) (dset (us_term z) t (u_term d t)) (dset (us_goal z) t (u_goal d t))
            (pyadd (us_result z) t) (S (us_edges z)) (t :: us_stack z))
  else Ok (USt m1 (us_term z) (us_goal z) (us_result z) (us_edges z) (us_stack z)).

(** DFS_Uncertain_Exploration.py:46-80; [pick] is the state that heappop takes: which one depends on the score
    function, whose values are taken to be distinct. *)
Fixpoint u_loop (fuel : nat) (pick : list St -> St) (d : udom) (l : limits) (z : ust) : res ust :=
  match us_stack z with
  | [] => Ok z
  | _ :: _ =>
      match fuel with
      | 0 => Err OutOfFuel
      | S fuel =>
          let s := pick (us_stack z) in
          let z0 := USt (us_map z) (us_term z) (us_goal z) (us_result z) (us_edges z) (pyremove s (us_stack z)) in
          if u_goal d s || u_term d s then u_loop fuel pick d l z0
          else
            let* z' := foldM (fun z a => foldM (u_outcome d s a) z (u_dist d s a)) z0 (u_apps d s) in
            let* b := gtN (length (us_result z')) (l_nodes l) in
            if b then Ok z' else
            let* c := gtN (us_edges z') (l_edges l) in
            if c then Ok z' else u_loop fuel pick d l z'
      end
  end.

(** DFS_Uncertain_Exploration.py:26-83 [build_graph_domain]: next_state_map, state_terminal and state_goal. *)
Definition u_build (fuel : nat) (pick : list St -> St) (d : udom) (l : limits) (init : option St) : res (umap * list (St * bool) * list (St * bool)) :=
  let s0 := match init with None => u_init d | Some s => s end in
  let* z := u_loop fuel pick d l (USt [] [(s0, u_term d s0)] [(s0, u_goal d s0)] [s0] 0 [s0]) in
  Ok (us_map z, us_term z, us_goal z).
End Uncertain.
Arguments udom : clear implicits.

(** *** Merging: the inner dicts live in a store, the outer dicts hold references to them. *)
Section Merge.
Context {St A X : Type} {ES : PyEq St} {EA : PyEq A}.
Definition store : Type := list (nat * list (A * X)).
Definition refs : Type := list (St * nat).

(** GraphDomain.py:115-119: the actions of a state that both have. *)
Definition merge_actions (h : store) (mine theirs : nat) : res store :=
  let* other := dgetE h theirs in
  foldM (fun h a =>
    let* inner := dgetE h mine in
    if dmem inner a then Ok h
    else let* o := dgetE h theirs in let* x := dgetE o a in Ok (dset h mine (dset inner a x))) h (dkeys other).

(** GraphDomain.py:108-120 [merge], for one of the two dicts of dicts: the attributes are merged alike, along with them. *)
Definition merge (h : store) (mine theirs : refs) : res (store * refs) :=
  foldM (fun hm k =>
    let '(h, m) := hm in
    let* r' := dgetE theirs k in
    match dget m k with
    | None => Ok (h, dset m k r')
    | Some r => let* h' := merge_actions h r r' in Ok (h', m)
    end) (h, mine) (dkeys theirs).

(** What a dict of dicts holds. *)
Definition look (h : store) (m : refs) (s : St) (a : A) : option X :=
  match dget m s with None => None | Some r => match dget h r with None => None | Some inner => dget inner a end end.
End Merge.
