(** The integer programs of the knapsack solvers: knapsack/solvers/lp_solvers.py of
    skdecide/builders/discrete_optimization.  Warm starts, time limits, tolerances and the pool size only
    influence which solutions the external solver returns and are not modelled, nor is the fitness stored beside
    the solution. *)
From Coq Require Import List Bool Arith ZArith.
From Verif Require Import Py PyList KnapModel MilpModel.
Import ListNotations.
Open Scope nat_scope.
Open Scope Z_scope.

(** The loop over the items of [init_model]: lp_solvers.py:46-54 (gurobi), 194-200 (cbc), 273-280 (python-mip).
    A variable is the number of its creation; the state is the coefficient of each variable in the objective,
    the dictionary [x] and the dictionary [weight], both by label. *)
Definition kp_turn (st : list Z * list (nat * nat) * list (nat * Z)) (it : item)
  : list Z * list (nat * nat) * list (nat * Z) :=
  let '(objs, x, w) := st in
  (objs ++ [it_value it], dset x (it_index it) (length objs), dset w (it_index it) (it_weight it)).
Definition kp_vars (m : kmodel) : list Z * list (nat * nat) * list (nat * Z) :=
  fold_left kp_turn (m_items m) ([], [], []).

(** [xsum([weight[i] * x[i] for i in x]) <= max_capacity] *)
Definition kp_capacity (m : kmodel) (x : list (nat * nat)) (w : list (nat * Z)) : res (constr nat) :=
  let* l := mapM (fun iv => let* k := dgetE w (fst iv) in Ok (escale k (evar (snd iv)))) x in
  Ok (Constr (esum l) SLe (econst (m_cap m))).

(** LPKnapsack.init_model: lp_solvers.py:255-286, LPKnapsackGurobi.init_model: 32-63; the objective is the sum
    of the [obj] of the variables, maximised. *)
Definition kp_milp (m : kmodel) : res (milp nat) :=
  let '(objs, x, w) := kp_vars m in
  let* c := kp_capacity m x w in
  Ok (Milp (map binary_var (seq 0 (length objs))) [c]
           (esum (map (fun ov => escale (fst ov) (evar (snd ov))) (combine objs (seq 0 (length objs))))) true).

(** LPKnapsackCBC.init_model: lp_solvers.py:176-207: the objective is [Sum([x[i] * value[i] for i in x])]. *)
Definition kp_milp_cbc (m : kmodel) : res (milp nat) :=
  let '(objs, x, w) := kp_vars m in
  let v := fold_left (fun d it => dset d (it_index it) (it_value it)) (m_items m) [] in
  let* c := kp_capacity m x w in
  let* o := mapM (fun iv => let* k := dgetE v (fst iv) in Ok (escale k (evar (snd iv)))) x in
  Ok (Milp (map binary_var (seq 0 (length objs))) [c] (esum o) true).

(** [index_to_item]: knapsack_model.py:70 *)
Definition index_to_item (m : kmodel) : list (nat * item) :=
  fold_left (fun d it => dset d (it_index it) it) (m_items m) [].

(** One variable of retrieve_solutions: lp_solvers.py:298-305; [value <= 0.1] for an integral value. *)
Definition kp_read (m : kmodel) (a : nat -> Z) (st : list (nat * Z) * Z * Z) (iv : nat * nat)
  : res (list (nat * Z) * Z * Z) :=
  let '(xs, weight, value) := st in
  if a (snd iv) <=? 0 then Ok (dset xs (fst iv) 0, weight, value)
  else let* it := dgetE (index_to_item m) (fst iv) in
       Ok (dset xs (fst iv) 1, weight + it_weight it, value + it_value it).
(** [[xs[e] for e in sorted(xs)]] *)
Definition by_label (xs : list (nat * Z)) : res (list Z) :=
  mapM (fun e => dgetE xs e) (ssort Nat.leb (dkeys xs)).
(** LPKnapsack.retrieve_solutions for one solution: lp_solvers.py:293-309 *)
Definition kp_retrieve (m : kmodel) (a : nat -> Z) : res ksol :=
  let '(_, x, _) := kp_vars m in
  let* st := foldM (kp_read m a) ([], 0, 0) x in
  let '(xs, weight, value) := st in
  let* taken := by_label xs in
  Ok (mkSol (Some value) (Some weight) taken).
(** LPKnapsackGurobi.retrieve_solutions: lp_solvers.py:70-85, and the end of LPKnapsackCBC.solve: 215-229: the
    value is the objective value reported by the solver. *)
Definition kp_retrieve_obj (m : kmodel) (a : nat -> Z) (objective : Z) : res ksol :=
  let* s := kp_retrieve m a in Ok (mkSol (Some objective) (k_weight s) (k_taken s)).

(** KnapsackORTools.solve: lp_solvers.py:400-417; [contains i] is [BestSolutionContains(i)]. *)
Definition ort_turn (m : kmodel) (contains : nat -> bool) (st : list (nat * Z) * Z * Z) (i : nat)
  : res (list (nat * Z) * Z * Z) :=
  let '(xs, weight, value) := st in
  let* it := lget (m_items m) i in
  if contains i then Ok (dset xs (it_index it) 1, weight + it_weight it, value + it_value it)
  else Ok (dset xs (it_index it) 0, weight, value).
Definition ort_solve (m : kmodel) (contains : nat -> bool) : res ksol :=
  let* st := foldM (ort_turn m contains) ([], 0, 0) (seq 0 (nb_items m)) in
  let '(xs, weight, value) := st in
  let* taken := by_label xs in
  Ok (mkSol (Some value) (Some weight) taken).
