(** The Graph helper (two identical copies) and graph colouring.
    builders/discrete_optimization/generic_tools/graph_api.py,
    builders/scheduling/graph_toolbox.py (same class; 72-94 add networkx queries, not modelled),
    builders/discrete_optimization/coloring/{coloring_model,coloring_toolbox}.py, solvers/greedy_coloring.py.
    Node names are any type with equality and an order ([sorted]); attribute dictionaries map strings to
    values of any type.  Paths below are relative to builders/discrete_optimization. *)
From Coq Require Import String.
From Coq Require Import List Bool Arith ZArith.
From Verif Require Import Py PyList.
Import ListNotations.

Section Graph.
Context {N V : Type} {EN : PyEq N} (le : N -> N -> bool).

(** A dictionary of attributes. *)
Definition attrs := list (string * V).

(** generic_tools/graph_api.py:5-20, the attributes of the object (without [graph_nx], the networkx copy). *)
Record graph := mkGraph {
  g_edges : list (N * N * attrs);
  g_undirected : bool;
  g_neighbors : list (N * list N);
  g_predecessors : list (N * list N);
  g_edges_infos : list (N * N * attrs);
  g_nodes_infos : list (N * attrs);
  g_names : list N
}.

(** [d[k].add(x)] after [if k not in d: d[k] = set()] *)
Definition add_to (d : list (N * list N)) (k x : N) : list (N * list N) :=
  dset d k (pyadd (match dget d k with Some s => s | None => [] end) x).

(** generic_tools/graph_api.py:28-30 [build_nodes_infos_dict] *)
Definition nodes_infos (nodes : list (N * attrs)) : list (N * attrs) :=
  fold_left (fun d nd => dset d (fst nd) (snd nd)) nodes [].

(** generic_tools/graph_api.py:32-48 [build_edges], one turn: (neighbours, predecessors, infos). *)
Definition build_edge (undirected : bool)
    (st : list (N * list N) * list (N * list N) * list (N * N * attrs)) (e : N * N * attrs)
    : list (N * list N) * list (N * list N) * list (N * N * attrs) :=
  let '(nb, pr, inf) := st in
  let '(n1, n2, d) := e in
  let inf := dset inf (n1, n2) d in
  let pr := add_to pr n2 n1 in
  let nb := add_to nb n1 n2 in
  if undirected then (add_to nb n2 n1, add_to pr n1 n2, dset inf (n2, n1) d)
  else (nb, pr, inf).

(** generic_tools/graph_api.py:6-20 [__init__] *)
Definition make_graph (nodes : list (N * attrs)) (edges : list (N * N * attrs)) (undirected : bool) : graph :=
  let '(nb, pr, inf) := fold_left (build_edge undirected) edges ([], [], []) in
  let ni := nodes_infos nodes in
  mkGraph edges undirected nb pr inf ni (ssort le (dkeys ni)).

(** generic_tools/graph_api.py:22-23, 50-60 *)
Definition get_edges (g : graph) : list (N * N) := dkeys (g_edges_infos g).
Definition get_nodes (g : graph) : list N := g_names g.
Definition get_neighbors (g : graph) (n : N) : list N :=
  match dget (g_neighbors g) n with Some s => s | None => [] end.
Definition get_predecessors (g : graph) (n : N) : list N :=
  match dget (g_predecessors g) n with Some s => s | None => [] end.
Definition get_attr_node (g : graph) (n : N) (a : string) : option V :=
  match dget (g_nodes_infos g) n with Some d => dget d a | None => None end.
Definition get_attr_edge (g : graph) (n1 n2 : N) (a : string) : option V :=
  match dget (g_edges_infos g) (n1, n2) with Some d => dget d a | None => None end.

(** * Colouring (coloring/coloring_model.py) *)

(** coloring/coloring_model.py:9-21; colours are integers. *)
Record csol := mkCsol { c_colors : list Z; c_nb : option Z; c_viol : option Z }.

(** coloring/coloring_model.py:77 [index_nodes_name], with 75 [number_of_nodes]. *)
Definition index_nodes (g : graph) : list (N * nat) :=
  fold_left (fun d e => dset d (snd e) (fst e)) (combine (seq 0 (length (g_names g))) (g_names g)) [].

(** [variable.colors[self.index_nodes_name[n]]] *)
Definition color_of (g : graph) (colors : list Z) (n : N) : res Z :=
  let* i := dgetE (index_nodes g) n in lget colors i.

(** coloring/coloring_model.py:94-99 [satisfy]: stops at the first violated edge. *)
Fixpoint satisfy_edges (g : graph) (colors : list Z) (es : list (N * N * attrs)) : res bool :=
  match es with
  | [] => Ok true
  | (a, b, _) :: es => let* x := color_of g colors a in
                       let* y := color_of g colors b in
                       if (x =? y)%Z then Ok false else satisfy_edges g colors es
  end.
Definition satisfy (g : graph) (s : csol) : res bool := satisfy_edges g (c_colors s) (g_edges g).

(** coloring/coloring_model.py:131-136 [count_violations] *)
Definition count_violations (g : graph) (s : csol) : res Z :=
  foldM (fun v e => let '(a, b, _) := e in
                    let* x := color_of g (c_colors s) a in
                    let* y := color_of g (c_colors s) b in
                    Ok (if (x =? y)%Z then v + 1 else v)%Z) 0%Z (g_edges g).

(** coloring/coloring_model.py:88-92 [evaluate]: the pair returned and the solution afterwards. *)
Definition evaluate (g : graph) (s : csol) : res (option Z * option Z * csol) :=
  let* s' := match c_nb s with
             | Some _ => Ok s
             | None => let* v := count_violations g s in
                       Ok (mkCsol (c_colors s) (Some (Z.of_nat (length (pyset (c_colors s))))) (Some v))
             end in
  Ok (c_nb s', c_viol s', s').

(** coloring/coloring_model.py:59-69 [transform_color_values_to_value_precede]: the state is
    (index_value_color, new_colors_vector); [new_value] is the number of entries. *)
Definition precede_turn (st : list (Z * Z) * list Z) (c : Z) : list (Z * Z) * list Z :=
  let '(d, out) := st in
  match dget d c with
  | Some v => (d, out ++ [v])
  | None => let v := Z.of_nat (length d) in (dset d c v, out ++ [v])
  end.
Definition value_precede (l : list Z) : list Z := snd (fold_left precede_turn l ([], [])).

(** coloring/coloring_model.py:42-47 [to_reformated_solution] *)
Definition reformat (s : csol) : csol := mkCsol (value_precede (c_colors s)) (c_nb s) (c_viol s).

(** coloring/coloring_model.py:125-129 [get_dummy_solution] *)
Definition dummy (g : graph) : res csol :=
  let* r := evaluate g (mkCsol (map Z.of_nat (seq 0 (length (g_names g)))) None None) in Ok (snd r).

(** coloring/solvers/greedy_coloring.py:52-76 [GreedyColoring.solve], up to the storage.  [nx s] is what
    networkx' [greedy_color] returns for the strategy [s], a dictionary, or None when it raises; the
    state is (best_solution, best_nb_color), None standing for the infinite count.  A failed lookup cannot
    happen: the nodes are the keys. *)
Definition greedy_turn (nx : string -> option (list (N * Z))) (best : option (list Z * nat)) (strategy : string)
    : option (list Z * nat) :=
  match nx strategy with
  | None => best
  | Some colors =>
      let k := length (pyset (map snd colors)) in
      match mapM (fun n => dgetE colors n) (ssort le (dkeys colors)) with
      | Err _ => best
      | Ok sol => match best with
                  | None => Some (sol, k)
                  | Some (_, kb) => if k <? kb then Some (sol, k) else best
                  end
      end
  end.
(** With no successful strategy, [len(None)] raises TypeError. *)
Definition greedy_coloring (nx : string -> option (list (N * Z))) (strategies : list string) : res csol :=
  match fold_left (greedy_turn nx) strategies None with
  | None => Err TypeError
  | Some (sol, _) => Ok (reformat (mkCsol sol None None))
  end.

(** coloring/coloring_toolbox.py:4-14 [compute_cliques]: [cs] is what networkx enumerates. *)
Fixpoint cliques_loop {C} (cs : list C) (nb_max : option nat) (acc : list C) (nb : nat) (not_all : option bool)
    : list C * option bool :=
  match cs with
  | [] => (acc, not_all)
  | c :: cs => match nb_max with
               | Some k => if k <=? S nb then (acc ++ [c], Some true) else cliques_loop cs nb_max (acc ++ [c]) (S nb) not_all
               | None => cliques_loop cs nb_max (acc ++ [c]) (S nb) not_all
               end
  end.
Definition compute_cliques {C} (cs : list C) (nb_max : option nat) : res (list C * bool) :=
  match cliques_loop cs nb_max [] 0 None with
  | (l, Some b) => Ok (l, b)
  | (_, None) => Err UnboundLocalError
  end.

End Graph.
Arguments graph N V : clear implicits.
Arguments attrs V : clear implicits.
