(** The integer program of the graph colouring solvers: coloring/solvers/coloring_lp_solvers.py of
    skdecide/builders/discrete_optimization.  The greedy or dummy start solution is modelled in [GraphModel] and is
    a parameter here; the fitness computed when reading back, parameters and printing are not modelled. *)
From Coq Require Import List Bool Arith ZArith.
From Verif Require Import Py PyList GraphModel MilpModel.
Import ListNotations.
Open Scope nat_scope.

(** The variables [colors_var[node, color]] and [opt]. *)
Inductive cvar (N : Type) := CX (n : N) (c : nat) | COpt.
Arguments CX {N} n c.
Arguments COpt {N}.

Section Colouring.
Context {N V : Type} {EN : PyEq N}.
(** The number [i] as a node name: the constraints look nodes up by number (coloring_lp_solvers.py:63-64, 94-95)
    in a dictionary keyed by name. *)
Variable int : nat -> N.

(** [colors_var[n, c]] in a dictionary filled for all names and [range(nb_colors)]: coloring_lp_solvers.py:56-61 *)
Definition col_x (g : graph N V) (k : nat) (n : N) (c : nat) : res (expr (cvar N)) :=
  if pymem n (g_names g) && (c <? k) then Ok (evar (CX n c)) else Err KeyError.
Definition col_pairs (l : list N) (k : nat) : list (N * nat) := flat_map (fun n => map (pair n) (seq 0 k)) l.

(** coloring_lp_solvers.py:63-64 *)
Definition col_one (g : graph N V) (k : nat) (i : nat) : res (constr (cvar N)) :=
  let* l := mapM (fun c => col_x g k (int i) c) (seq 0 k) in Ok (Constr (esum l) SEq (econst 1)).
(** coloring_lp_solvers.py:79-88, one clique *)
Definition col_clique (g : graph N V) (k : nat) (q : list N) : res (list (constr (cvar N))) :=
  let* l1 := mapM (fun e => let* x := col_x g k (fst e) (snd e) in Ok (escale (Z.of_nat (snd e) + 1) x)) (col_pairs q k) in
  let* l2 := mapM (fun e => col_x g k (fst e) (snd e)) (col_pairs q k) in
  Ok [Constr (esum l1) SGe (econst (sumZ (map (fun i => (Z.of_nat i + 1)%Z) (seq 0 (length q)))));
      Constr (esum l2) SLe (evar COpt)].
(** coloring_lp_solvers.py:92-95, one edge and one colour *)
Definition col_edge (g : graph N V) (k : nat) (ec : N * N * nat) : res (constr (cvar N)) :=
  let* x := col_x g k (fst (fst ec)) (snd ec) in
  let* y := col_x g k (snd (fst ec)) (snd ec) in
  Ok (Constr (eadd x y) SLe (econst 1)).
(** coloring_lp_solvers.py:96-97 *)
Definition col_opt (g : graph N V) (k : nat) (i : nat) : res (constr (cvar N)) :=
  let* l := mapM (fun c => let* x := col_x g k (int i) c in Ok (escale (Z.of_nat c + 1) x)) (seq 0 k) in
  Ok (Constr (esum l) SLe (evar COpt)).

(** ColoringLP.init_model: coloring_lp_solvers.py:36-117, and ColoringLP_MIP.init_model: 153-219.
    [edges]: the edges of the networkx copy; [cliques]: with [use_cliques], the cliques networkx finds, of which the
    100 longest are used.  A start solution that was not evaluated has no [nb_color]: [range(None)] raises. *)
Definition col_milp (g : graph N V) (start : csol) (edges : list (N * N)) (cliques : option (list (list N)))
    : res (milp (cvar N)) :=
  match c_nb start with
  | None => Err TypeError
  | Some nb =>
      let k := Z.to_nat nb in
      let n := length (g_names g) in
      let* ones := mapM (col_one g k) (seq 0 n) in
      let* cl := match cliques with
                 | None => Ok []
                 | Some cs => mapM (col_clique g k) (firstn 100 (ssort (fun x y => length y <=? length x) cs))
                 end in
      let* nbs := mapM (col_edge g k) (flat_map (fun e => map (pair e) (seq 0 k)) edges) in
      let* opts := mapM (col_opt g k) (seq 0 n) in
      Ok (Milp (map (fun e => binary_var (CX (fst e) (snd e))) (col_pairs (g_names g) k) ++ [Var COpt 0 (Some nb)])
               (ones ++ concat cl ++ nbs ++ opts) (evar COpt) false)
  end.

(** retrieve_solutions: coloring_lp_solvers.py:119-132, 221-234 *)
Definition col_read (g : graph N V) (a : cvar N -> Z) (sol : list Z) (e : N * nat) : res (list Z) :=
  if (1 <=? a (CX (fst e) (snd e)))%Z
  then let* i := dgetE (index_nodes g) (fst e) in lput sol i (Z.of_nat (snd e))
  else Ok sol.
Definition col_retrieve (g : graph N V) (start : csol) (a : cvar N -> Z) : res csol :=
  match c_nb start with
  | None => Err TypeError
  | Some nb => let* sol := foldM (col_read g a) (repeat 0%Z (length (g_names g))) (col_pairs (g_names g) (Z.to_nat nb)) in
               Ok (mkCsol sol None None)
  end.
End Colouring.
