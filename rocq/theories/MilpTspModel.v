(** The iterative linear program for the travelling salesman:
    builders/discrete_optimization/tsp/solver/solver_lp_iterative.py (class [LP_TSP_Iterative] and the functions
    around it), with tsp/common_tools_tsp.py 50-60 for the distance matrix.

    - The integer programming engine is an arbitrary function from programs to assignments ([engine]); the
      time limits (192, 261), gaps (197-198) and starting points (157-164, 225-230, 376-390) given to it are
      not modelled.  The gurobi and the or-tools versions post the same program.
    - Python sets of edges are lists without repetition; the order in which a set is enumerated is an arbitrary
      rearrangement [order].
    - [nx.weakly_connected_components] is an arbitrary function [wcc] of the edges.
    - Numbers are exact integers (see TspModel); prints and plots (407-424) are left out; the objective is the
      default one, the length with weight 1.  The graph is an argument of everything below; [build_graph_pruned]
      and [build_graph_complete] are two ways of building it. *)
From Coq Require Import List Bool Arith ZArith.
From Verif Require Import Py PyList TspModel MilpModel.
Import ListNotations.
Open Scope nat_scope.

Notation edge := (nat * nat)%type.
(** [nx.DiGraph] with weights; [graph[a][b]["weight"]] is [dgetE g (a, b)]. *)
Definition graph : Type := list ((nat * nat) * Z).

(** * The graph, 20-102 *)
Section Graph.
Context {P : Type}.
Variable len : P -> P -> Z.
Implicit Types t : tsp (P:=P).

(** common_tools_tsp.py 50-60: the upper half is computed and copied to the lower half. *)
Definition mat t (i j : nat) : res Z :=
  if i <? j then dist len t i j else if j <? i then dist len t j i else Ok 0%Z.
(** 81-89, 91-99 *)
Definition add_both t (g : graph) (i n : nat) : res graph :=
  if n =? i then Ok g else
  let* w1 := mat t i n in
  let* w2 := mat t n i in
  Ok (dset (dset g (i, n) w1) (n, i) w2).
(** 79-99: [sd] is [np.argsort(mat, axis=1)], whose first column is dropped. *)
Definition complete_row t (sd : nat -> list nat) (g : graph) (i : nat) : res graph :=
  let* g := foldM (fun g n => add_both t g i n) g (tl (sd i)) in
  add_both t g i (t_end t).
Definition build_graph_complete t (sd : nat -> list nat) : res graph :=
  foldM (complete_row t sd) [] (seq 0 (t_n t)).
(** 33-38, 43-48, 53-58 *)
Definition add_pruned t (g : graph) (i n : nat) : res graph :=
  if n =? i then Ok g else
  let* w1 := dist len t i n in
  let* w2 := dist len t n i in
  Ok (dset (dset g (i, n) w1) (n, i) w2).
(** 31-58: the neighbours in [sd[i, 1:50]], the nodes numbered up to four higher, and the end. *)
Definition pruned_row t (sd : nat -> list nat) (g : graph) (i : nat) : res graph :=
  foldM (fun g n => add_pruned t g i n) g
    (firstn 49 (tl (sd i)) ++ seq i (Nat.min (i + 5) (t_n t) - i) ++ [t_end t]).
Definition build_graph_pruned t (sd : nat -> list nat) : res graph :=
  foldM (pruned_row t sd) [] (seq 0 (t_n t)).
End Graph.

Section Lp.
Variable order : list edge -> list edge.

(** * The program, 135-261 *)

Definition flip (e : edge) : edge := (snd e, fst e).
(** 138, 208: [set(g.edges())] *)
Definition edges_of (g : graph) : list edge := order (dkeys g).
(** 151-156, 219-224 *)
Definition add_to (d : list (nat * list edge)) (k : nat) (e : edge) : list (nat * list edge) :=
  dset d k (pyadd (match dget d k with Some s => s | None => [] end) e).
Definition flow_in (es : list edge) : list (nat * list edge) := fold_left (fun d e => add_to d (snd e) e) es [].
Definition flow_out (es : list edge) : list (nat * list edge) := fold_left (fun d e => add_to d (fst e) e) es [].
Definition total (es : list edge) : expr edge := esum (map evar es).
Definition equals (e : expr edge) (k : Z) : constr edge := Constr e SEq (econst k).
(** 165-170, 231-236 *)
Definition two_cycles (es : list edge) : list (constr edge) :=
  flat_map (fun e => if pymem (flip e) es then [Constr (eadd (evar e) (evar (flip e))) SLe (econst 1%Z)] else []) es.
(** 175-191, 240-255, the constraints posted for one node *)
Definition flow_constrs (start end_ : nat) (fi fo : list (nat * list edge)) (n : nat) : res (list (constr edge)) :=
  let* i := dgetE fi n in
  let* c1 := if negb (n =? start) && negb (n =? end_)
             then let* o := dgetE fo n in
                  Ok [equals (esum (map evar i ++ map (fun e => escale (-1) (evar e)) o)) 0%Z]
             else Ok [] in
  let c2 := if negb (n =? start) then [equals (total i) 1%Z] else [] in
  let* c3 := if n =? start
             then let* o := dgetE fo n in
                  Ok (equals (total o) 1%Z :: if negb (n =? end_) then [equals (total i) 0%Z] else [])
             else Ok [] in
  let* c4 := if n =? end_
             then let* l := if negb (n =? start) then let* o := dgetE fo n in Ok [equals (total o) 0%Z] else Ok [] in
                  Ok (equals (total i) 1%Z :: l)
             else Ok [] in
  Ok (c1 ++ c2 ++ c3 ++ c4).
(** 135-202, 204-261 *)
Definition master (start end_ : nat) (g : graph) : res (milp edge) :=
  let es := edges_of g in
  let fi := flow_in es in
  let fo := flow_out es in
  let* cs := mapM (flow_constrs start end_ fi fo) (dkeys fi) in
  let* ws := mapM (fun e => let* w := dgetE g e in Ok (escale w (evar e))) es in
  Ok (Milp (map binary_var es) (two_cycles es ++ concat cs) (esum ws) false).
(** 342-350: the two constraints posted for a component *)
Definition cut (es : list edge) (s : list nat) : list (constr edge) :=
  [ Constr (total (filter (fun e => pymem (snd e) s && negb (pymem (fst e) s)) es)) SGe (econst 1%Z);
    Constr (total (filter (fun e => pymem (fst e) s && negb (pymem (snd e) s)) es)) SGe (econst 1%Z) ].
Definition with_cuts (p : milp edge) (cs : list (constr edge)) : milp edge :=
  Milp (p_vars p) (p_constrs p ++ cs) (p_obj p) (p_max p).
(** 263-285: the edges used *)
Definition used (es : list edge) (x : edge -> Z) : list edge := filter (fun e => (1 <=? x e)%Z) es.

(** * 439-460 [build_the_cycles] *)

(** 452-456; [cur_index] is the number of nodes already on the path. *)
Fixpoint walk (fuel : nat) (outt : list (nat * edge)) (end_node : nat) (path : list nat) (indexes : list (nat * nat))
    (cur_index : nat) (cur : edge) : res (list nat * list (nat * nat) * nat) :=
  match fuel with
  | 0 => Err OutOfFuel
  | S f =>
    if snd cur =? end_node then Ok (path, indexes, cur_index) else
    let* nxt := dgetE outt (snd cur) in
    walk f outt end_node (path ++ [snd cur]) (dset indexes (snd cur) cur_index) (S cur_index) nxt
  end.
Definition build_the_cycles (xs : list edge) (comp : list nat) (start end_ : nat) : res (list nat * list (nat * nat)) :=
  let eoi := order (filter (fun e => pymem (snd e) comp && pymem (fst e) comp) xs) in
  let innn := fold_left (fun d e => dset d (snd e) e) eoi ([] : list (nat * edge)) in
  let outt := fold_left (fun d e => dset d (fst e) e) eoi ([] : list (nat * edge)) in
  let* some_node := if dmem outt start then Ok start
                    else match eoi with e :: _ => Ok (fst e) | [] => Err StopIteration end in
  let end_node := if dmem innn end_ then end_ else some_node in
  let* cur := dgetE outt some_node in
  let* r := walk (S (length eoi)) outt end_node [some_node] (dset [] some_node 0) 1 cur in
  let '(path, indexes, cur_index) := r in
  if dmem innn end_ then Ok (path ++ [end_node], dset indexes end_node cur_index) else Ok (path, indexes).

(** * 463-571 [rebuild_tsp_routine] *)
Section Rebuild.
Context {P : Type}.
Variable len : P -> P -> Z.
Variable t : tsp (P:=P).
Variable es : list edge.
(** [paths_component], [indexes]: dictionaries with keys 0, 1, ... *)
Variable paths : list (list nat).
Variable indexes : list (list (nat * nat)).
Variable node_to_component : list (nat * nat).

(** A way of inserting a component: cost, component, edge out, edge in, position in the path. *)
Definition choice : Type := option (Z * (nat * edge * edge * nat)).
Definition cheaper (c : Z) (b : choice) : bool :=
  match b with None => true | Some (m, _) => Z.ltb c m end.
(** 487 *)
Definition index_path (path : list nat) : list (nat * nat) :=
  fold_left (fun d p => dset d (fst p) (snd p)) (combine path (seq 0 (length path))) [].
(** 506-536, for one edge; [nb] components of which [done] are joined; the best way and the backup. *)
Definition look (g : graph) (path : list nat) (ip : list (nat * nat)) (edges_in : list edge) (component_end nb done : nat)
    (b : choice * choice) (e : edge) : res (choice * choice) :=
  let* index_in := dgetE ip (fst e) in
  if index_in =? length path - 1 then Ok b else
  let* next_node_1 := lget path (index_in + 1) in
  let* c := dgetE node_to_component (snd e) in
  if (c =? component_end) && (done <? nb - 1) then Ok b else
  let* ixs := lget indexes c in
  let* k := dgetE ixs (snd e) in
  let* pc := lget paths c in
  let k1 := if length pc <=? k + 1 then 0 else k + 1 in
  let* next_c := lget pc k1 in
  let* w1 := dgetE g e in
  if pymem (next_c, next_node_1) edges_in
  then let* w2 := dgetE g (next_c, next_node_1) in
       let* w3 := dgetE g (fst e, next_node_1) in
       let cost := (w1 + w2 - w3)%Z in
       Ok (if cheaper cost (fst b) then Some (cost, (c, e, (next_c, next_node_1), index_in)) else fst b, snd b)
  else Ok (fst b, if cheaper w1 (snd b) then Some (w1, (c, e, (next_c, next_node_1), index_in)) else snd b).
(** 537-546: without a best way the backup is used, and its edge in is added to the graph.  Line 546, which
    computes a cost nobody reads, looks up edges that were just added. *)
Definition settle (g : graph) (b : choice * choice) : res (graph * (nat * edge * edge * nat)) :=
  match b with
  | (Some (_, x), _) => Ok (g, x)
  | (None, None) => Err TypeError
  | (None, Some (_, (c, out, e, i))) =>
    let* w1 := dist len t (fst e) (snd e) in
    let* w2 := dist len t (snd e) (fst e) in
    Ok (dset (dset g e w1) (flip e) w2, (c, out, e, i))
  end.
(** 554-555: the component walked backwards from the node the edge out reaches *)
Definition unroll (pc : list nat) (k : nat) : res (list nat) :=
  mapM (fun i => lget pc (Z.to_nat ((Z.of_nat k - Z.of_nat i) mod Z.of_nat (length pc)))) (seq 0 (length pc)).
(** 561-563 *)
Definition add_missing (g : graph) (e : edge) : res graph :=
  if dmem g e then Ok g else let* w := dist len t (fst e) (snd e) in Ok (dset g e w).
(** 487-566: one component joined *)
Definition join (component_end nb : nat) (g : graph) (path : list nat) (joined : list nat) : res (graph * list nat * list nat) :=
  let edges_out := order (filter (fun e => pymem (fst e) path && negb (pymem (snd e) path)) es) in
  let edges_in := filter (fun e => negb (pymem (fst e) path) && pymem (snd e) path) es in
  let* b := foldM (look g path (index_path path) edges_in component_end nb (length joined)) (None, None) edges_out in
  let* r := settle g b in
  let '(g, (c, out, _, i)) := r in
  let* pc := lget paths c in
  let* ixs := lget indexes c in
  let* k := dgetE ixs (snd out) in
  let* new := unroll pc k in
  let* g := foldM add_missing g (combine new (tl new)) in
  Ok (g, firstn (i + 1) path ++ new ++ skipn (i + 1) path, pyadd joined c).
(** 481-566 *)
Fixpoint joins (fuel : nat) (component_end nb : nat) (g : graph) (path : list nat) (joined : list nat) : res (graph * list nat) :=
  if length joined <? nb then
    match fuel with
    | 0 => Err OutOfFuel
    | S f =>
      let* cs := dgetE node_to_component (t_start t) in
      let* ce := dgetE node_to_component (t_end t) in
      if (length joined =? nb - 1) && negb (t_end t =? t_start t) && negb (ce =? cs)
      then let* pc := lget paths component_end in
           joins f component_end nb g (path ++ pc) (pyadd joined component_end)
      else let* r := join component_end nb g path joined in
           let '(g, path, joined) := r in
           joins f component_end nb g path joined
    end
  else Ok (g, path).
(** [path[1:-1]] *)
Definition middle (path : list nat) : list nat := removelast (tl path).
(** 463-571; the length is the value of [evaluate]. *)
Definition rebuild (g : graph) (nb : nat) : res (graph * list nat * Z) :=
  let* cs := dgetE node_to_component (t_start t) in
  let* path := lget paths cs in
  let* component_end := dgetE node_to_component (t_end t) in
  let* r := joins nb component_end nb g path [cs] in
  let* v := new_solution len t (Some (t_start t)) (Some (t_end t)) (Some (middle (snd r))) None None None in
  let* f := evaluate len t v in
  Ok (fst r, snd r, snd f).
End Rebuild.

(** * 287-436 [solve] *)
Section Solve.
Context {P : Type}.
Variable len : P -> P -> Z.
Variable wcc : list edge -> list (list nat).
Variable engine : milp edge -> edge -> Z.
Variable t : tsp (P:=P).

(** 323-325 *)
Definition sorted_components (xs : list edge) : list (list nat) := ssort (fun a b => length b <=? length a) (wcc xs).
(** 341 *)
Definition number_nodes (paths : list (list nat)) : list (nat * nat) :=
  fold_left (fun d ip => fold_left (fun d p => dset d p (fst ip)) (snd ip) d)
    (combine (seq 0 (length paths)) paths) [].

(** What the loop carries: constraints added so far, the graph, and per iteration the number of components,
    the rebuilt path and its length; the best length and where it is. *)
Record state := mkState { st_cuts : list (constr edge); st_graph : graph; st_iteration : nat;
  st_components : list nat; st_paths : list (list nat); st_lengths : list Z;
  st_best : num; st_best_index : nat }.

(** 319-371: one pass, up to the decision to stop; [true] when there is a single component *)
Definition pass (es : list edge) (m : milp edge) (s : state) : res (state * bool) :=
  let xs := used es (engine (with_cuts m (st_cuts s))) in
  let comps := sorted_components xs in
  let* cycles := mapM (fun c => build_the_cycles xs c (t_start t) (t_end t)) comps in
  let paths := map fst cycles in
  let* r := rebuild len t es paths (map snd cycles) (number_nodes paths) (st_graph s) (length comps) in
  let '(g, path, l) := r in
  let better := num_lt (Fin l) (st_best s) in
  Ok (mkState (st_cuts s ++ flat_map (cut es) comps) g (st_iteration s) (st_components s ++ [length comps])
        (st_paths s ++ [path]) (st_lengths s ++ [l])
        (if better then Fin l else st_best s) (if better then st_iteration s else st_best_index s),
      negb (1 <? length comps)).
Definition next_iteration (s : state) : state :=
  mkState (st_cuts s) (st_graph s) (S (st_iteration s)) (st_components s) (st_paths s) (st_lengths s)
    (st_best s) (st_best_index s).
(** 318-406 *)
Fixpoint passes (fuel : nat) (es : list edge) (m : milp edge) (nb_iteration_max : nat) (s : state) : res state :=
  match fuel with
  | 0 => Err OutOfFuel
  | S f =>
    let* r := pass es m s in
    if snd r then Ok (fst r) else
    let s' := next_iteration (fst r) in
    if nb_iteration_max <=? st_iteration s' then Ok s' else passes f es m nb_iteration_max s'
  end.
Record result := mkResult { r_solution : sol; r_fit : Z; r_components : list nat }.
(** 287-436, after [init_model] with the graph [g]; [r_components]: the numbers of components printed at 324 *)
Definition solve (g : graph) (nb_iteration_max : nat) : res result :=
  let* m := master (t_start t) (t_end t) g in
  let* s := passes (S nb_iteration_max) (edges_of g) m nb_iteration_max (mkState [] g 0 [] [] [] Inf 0) in
  let* path := lget (st_paths s) (st_best_index s) in
  let* v := new_solution len t (Some (t_start t)) (Some (t_end t)) (Some (middle path)) None None None in
  let* f := evaluate len t v in
  Ok (mkResult (fst f) (snd f) (st_components s)).
End Solve.
End Lp.
