(** The integer program of the facility location solvers: facility/solvers/facility_lp_solver.py of
    skdecide/builders/discrete_optimization.  [facility_count] is taken to be the number of facilities (as the
    parser sets it); distances are exact integers.  Warm starts, hints and solver parameters are not modelled. *)
From Coq Require Import List Bool Arith ZArith.
From Verif Require Import Py PyList FacModel MilpModel.
Import ListNotations.
Open Scope nat_scope.

(** The variables [x[f, c]] and [used[f]]. *)
Inductive fvar := FX (f c : nat) | FU (f : nat).

Section Facility.
Variable service : facility -> customer -> Z.
(** [np.argsort]: some permutation of the positions that sorts the numbers. *)
Variable argsort : list Z -> list nat.

(** [matrix_distance[f, c]]: facility_lp_solver.py:16-28 *)
Definition distance (p : fproblem) (f c : nat) : Z :=
  match nth_error (p_facilities p) f, nth_error (p_customers p) c with
  | Some fac, Some cust => service fac cust
  | _, _ => 0%Z
  end.
(** [closest[:, c]] *)
Definition closest (p : fproblem) (c : nat) : list nat :=
  argsort (map (fun f => distance p f c) (seq 0 (length (p_facilities p)))).

(** prune_search_space: facility_lp_solver.py:31-43: is [matrix_fc_indicator[f, c]] 2 (it is 0 otherwise)? *)
Definition kept (p : fproblem) (n_cheapest n_shortest f c : nat) : bool :=
  pymem f (firstn n_cheapest (argsort (map f_setup (p_facilities p)))) || pymem f (firstn n_shortest (closest p c)).
(** facility_lp_solver.py:65-75: with [use_matrix_indicator_heuristic] the numbers given (10 by default), otherwise
    the number of facilities. *)
Definition indicator (p : fproblem) (heuristic : option (nat * nat)) (f c : nat) : bool :=
  match heuristic with
  | Some (n_cheapest, n_shortest) => kept p n_cheapest n_shortest f c
  | None => kept p (length (p_facilities p)) (length (p_facilities p)) f c
  end.

(** [x[f, c]]: the number 0 or a binary variable: facility_lp_solver.py:77-87 *)
Definition xfc (p : fproblem) (h : option (nat * nat)) (f c : nat) : expr fvar :=
  if indicator p h f c then evar (FX f c) else econst 0.

Definition fac_pairs (p : fproblem) : list (nat * nat) :=
  flat_map (fun f => map (fun c => (f, c)) (seq 0 (p_customers_count p))) (seq 0 (length (p_facilities p))).

(** [customers[c].demand], [facilities[f].capacity]: an index out of range raises. *)
Definition fac_capacity (p : fproblem) (h : option (nat * nat)) (f : nat) : res (list (constr fvar)) :=
  let* fac := lget (p_facilities p) f in
  let* l := mapM (fun c => let* cust := lget (p_customers p) c in Ok (escale (c_demand cust) (xfc p h f c)))
                 (seq 0 (p_customers_count p)) in
  Ok (map (fun c => Constr (evar (FU f)) SGe (xfc p h f c)) (seq 0 (p_customers_count p)) ++
      [Constr (esum l) SLe (econst (f_capacity fac))]).

(** LP_Facility_Solver.init_model: facility_lp_solver.py:62-124 (gurobi); the same program is built by
    LP_Facility_Solver_CBC.init_model, 244-297, and LP_Facility_Solver_PyMip.init_model, 414-470. *)
Definition fac_milp (p : fproblem) (h : option (nat * nat)) : res (milp fvar) :=
  let F := seq 0 (length (p_facilities p)) in
  let C := seq 0 (p_customers_count p) in
  let* caps := mapM (fac_capacity p h) F in
  Ok (Milp (map (fun k => binary_var (FX (fst k) (snd k))) (filter (fun k => indicator p h (fst k) (snd k)) (fac_pairs p)) ++
            map (fun f => binary_var (FU f)) F)
           (map (fun c => Constr (esum (map (fun f => xfc p h f c) F)) SEq (econst 1)) C ++ concat caps)
           (eadd (esum (map (fun ff => escale (f_setup (snd ff)) (evar (FU (fst ff)))) (combine F (p_facilities p))))
                 (esum (map (fun k => escale (distance p (fst k) (snd k)) (xfc p h (fst k) (snd k))) (fac_pairs p))))
           false).

(** retrieve: facility_lp_solver.py:126-139, 299-312 and retrieve_solutions: 485-500, without the fitness: the value
    of a fixed pair is the number itself. *)
Definition fac_read (p : fproblem) (h : option (nat * nat)) (a : fvar -> Z) (sol : list Z) (k : nat * nat) : res (list Z) :=
  let value := eval a (xfc p h (fst k) (snd k)) in
  if (1 <=? value)%Z then lput sol (snd k) (Z.of_nat (fst k)) else Ok sol.
Definition fac_retrieve (p : fproblem) (h : option (nat * nat)) (a : fvar -> Z) : res fsolution :=
  let* sol := foldM (fac_read p h a) (repeat 0%Z (p_customers_count p)) (fac_pairs p) in
  Ok (FSolution sol None).

(** fix_decision_fo_customer: facility_lp_solver.py:155-192: the constraints added for the customers of [fixed],
    which keep their facility of [current].  Where [x[f, c]] is a number the call raises and is ignored. *)
Definition fac_fix (p : fproblem) (h : option (nat * nat)) (current : list Z) (fixed : list nat) : list (constr fvar) :=
  flat_map (fun k => if pymem (snd k) fixed && indicator p h (fst k) (snd k)
                     then [Constr (evar (FX (fst k) (snd k))) SEq
                             (econst (match nth_error current (snd k) with
                                      | Some g => if (Z.of_nat (fst k) =? g)%Z then 1 else 0
                                      | None => 0 end))]
                     else []) (fac_pairs p).
(** The same for python-mip: facility_lp_solver.py:502-539: its models have no method [addConstr], so that every
    call raises AttributeError, which is ignored. *)
Definition fac_fix_pymip (p : fproblem) (h : option (nat * nat)) (current : list Z) (fixed : list nat) : list (constr fvar) := [].
Definition with_constrs {X} (P : milp X) (cs : list (constr X)) : milp X :=
  Milp (p_vars P) (p_constrs P ++ cs) (p_obj P) (p_max P).
End Facility.
