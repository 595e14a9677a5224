(** Facility location: skdecide/builders/discrete_optimization/facility/facility_model.py and
    facility/solvers/greedy_solvers.py.

    - Costs, demands and capacities are exact integers instead of floats.
    - [evaluate_customer_facility] is abstract in the code and a section variable here; locations are names. *)
From Coq Require Import List Bool Arith ZArith.
From Verif Require Import Py PyList.
Import ListNotations.

(** facility_model.py:9-11 *)
Record facility := Facility { f_setup : Z; f_capacity : Z; f_location : nat }.
Record customer := Customer { c_demand : Z; c_location : nat }.
(** FacilityProblem.__init__: facility_model.py:45-53 *)
Record fproblem := FProblem { p_customers_count : nat; p_facilities : list facility; p_customers : list customer }.

(** One entry of [facility_details]: facility_model.py:85-88 *)
Record detail := Detail { k_used : Z; k_customers : list nat; k_cost : Z; k_setup : Z }.
(** What [evaluate] returns; it is also the type of [dict_details]. *)
Record summary := Summary { m_cost : Z; m_setup : Z; m_details : list (Z * detail); m_violation : Z }.
(** FacilitySolution: facility_model.py:16-29; an index may be negative, as in Python. *)
Record fsolution := FSolution { s_assign : list Z; s_details : option summary }.

Section Facility.
Variable service : facility -> customer -> Z.

(** The body of the loop of [evaluate_cost]: facility_model.py:82-95; the state is
    (cost, setup_cost, facility_details). *)
Definition cost_step (p : fproblem) (assign : list Z) (st : Z * Z * list (Z * detail)) (i : nat)
  : res (Z * Z * list (Z * detail)) :=
  let '(cost, setup, details) := st in
  let* f := lget assign i in
  let* sd := (if dmem details f then Ok (setup, details)
              else let* fac := zget (p_facilities p) f in
                   Ok ((setup + f_setup fac)%Z, dset details f (Detail 0 [] 0 (f_setup fac)))) in
  let* k := dgetE (snd sd) f in
  let* cust := lget (p_customers p) i in
  let* fac := zget (p_facilities p) f in
  let c := service fac cust in
  Ok ((cost + c)%Z, fst sd,
      dset (snd sd) f (Detail (k_used k + c_demand cust) (pyadd (k_customers k) i) (k_cost k + c) (k_setup k))).

(** FacilityProblem.evaluate_cost: facility_model.py:78-96 *)
Definition evaluate_cost (p : fproblem) (assign : list Z) : res (Z * Z * list (Z * detail)) :=
  foldM (cost_step p assign) (0%Z, 0%Z, []) (seq 0 (p_customers_count p)).

(** FacilityProblem.evaluate: facility_model.py:58-66; the violation is overwritten in every iteration. *)
Definition evaluate (p : fproblem) (s : fsolution) : res summary :=
  match s_details s with
  | Some d => Ok d
  | None =>
      let* r := evaluate_cost p (s_assign s) in
      let '(cost, setup, details) := r in
      let* v := foldM (fun (_ : Z) fk => let* fac := zget (p_facilities p) (fst fk) in
                          Ok (Z.max (k_used (snd fk) - f_capacity fac) 0)) 0%Z details in
      Ok (Summary cost setup details v)
  end.

(** FacilityProblem.satisfy: facility_model.py:98-100 *)
Definition satisfy (p : fproblem) (s : fsolution) : res bool :=
  let* d := evaluate p s in Ok (m_violation d =? 0)%Z.

(** FacilitySolution.change_problem: facility_model.py:39-42; the details are kept. *)
Definition change_problem (s : fsolution) : fsolution := s.

(** The loop of GreedySolverFacility.solve: greedy_solvers.py:23-32; the state is
    (solution, capacity_remaining, facility_index). *)
Definition greedy_step (p : fproblem) (st : list Z * list Z * nat) (i : nat) : res (list Z * list Z * nat) :=
  let '(sol, room, fi) := st in
  let* cust := lget (p_customers p) i in
  let* r := lget room fi in
  if (c_demand cust <=? r)%Z then
    let* sol' := lput sol i (Z.of_nat fi) in
    let* room' := lput room fi (r - c_demand cust)%Z in
    Ok (sol', room', fi)
  else
    let fi' := S fi in
    let* r' := lget room fi' in
    if (c_demand cust <=? r')%Z then
      let* sol' := lput sol i (Z.of_nat fi') in
      let* room' := lput room fi' (r' - c_demand cust)%Z in
      Ok (sol', room', fi')
    else Err AssertionError.
(** GreedySolverFacility.solve: greedy_solvers.py:19-38, without the fitness of the solution *)
Definition greedy (p : fproblem) : res fsolution :=
  let* st := foldM (greedy_step p) (repeat (-1)%Z (p_customers_count p), map f_capacity (p_facilities p), 0)
                   (seq 0 (length (p_customers p))) in
  Ok (FSolution (fst (fst st)) None).
End Facility.
