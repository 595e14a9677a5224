(** Comparing results: generic_tools/result_storage/resultcomparator.py, without the plots.
    Simplifications: fitnesses are vectors of integers (as in StoreModel), objectives of a problem are
    rationals; an exception loses the writes made before it. *)
From Coq Require Import String List ZArith QArith Bool Arith.
From Verif Require Import Py PyList StoreModel KnapModel SgsModel RobustModel.
Import ListNotations.
Local Open Scope nat_scope.

(** A ResultStorage as the comparator sees it; [r_id] is the identity of the object
    ([list.index] compares with [==], which for storages is identity). *)
Record storage (S : Type) := Storage { r_id : nat; r_max : bool; r_fits : list (S * list Z) }.
Arguments Storage {S}. Arguments r_id {S}. Arguments r_max {S}. Arguments r_fits {S}.

(** ResultStorage.get_best_solution (result_storage.py:102-106): None on an empty storage. *)
Definition best_of {S} (r : storage S) : res (option S) :=
  match r_fits r with
  | [] => Ok None
  | _ => let* p := p_best_fit (mkPareto (r_fits r) [] (r_max r) true []) in Ok (Some (fst p))
  end.

(** [list_result_storage.index(res)] *)
Fixpoint index_of {S} (l : list (storage S)) (id : nat) : res nat :=
  match l with
  | [] => Err ValueError
  | r :: q => if r_id r =? id then Ok 0 else let* i := index_of q id in Ok (1 + i)
  end.

Section Reevaluate.
Variables Sol Pb : Type.
(** [solution.change_problem(problem)] and [problem.evaluate(solution)], which may write the solution. *)
Variable change : Sol -> Pb -> res Sol.
Variable evaluate : Pb -> Sol -> res (list (string * Q) * Sol).

(** The solutions are objects, the storages hold references to them. *)
Local Notation heap := (list Sol).

(** One scenario, for one storage and one objective: resultcomparator.py:45-47. *)
Definition re_scenario (r : storage nat) (obj : string) (st : heap * list Q) (sc : Pb) : res (heap * list Q) :=
  let* b := best_of r in
  match b with
  | None => Err AttributeError
  | Some loc =>
      let* s := lget (fst st) loc in
      let* s1 := change s sc in
      let* fs := evaluate sc s1 in
      let* v := dgetE (fst fs) obj in
      let* h := lput (fst st) loc (snd fs) in
      Ok (h, snd st ++ [v])
  end.
(** One objective: resultcomparator.py:40-47. *)
Definition re_objective (r : storage nat) (scs : list Pb) (st : heap * list (string * list Q)) (obj : string)
  : res (heap * list (string * list Q)) :=
  let* hv := foldM (re_scenario r obj) (fst st, []) scs in
  Ok (fst hv, dset (snd st) obj (snd hv)).
(** One storage: resultcomparator.py:38-47. *)
Definition re_storage (all : list (storage nat)) (objs : list string) (scs : list Pb)
  (st : heap * list (nat * list (string * list Q))) (r : storage nat)
  : res (heap * list (nat * list (string * list Q))) :=
  let* i := index_of all (r_id r) in
  let* hd := foldM (re_objective r scs) (fst st, []) objs in
  Ok (fst hd, dset (snd st) i (snd hd)).
(** reevaluate_result_storages: resultcomparator.py:37-48. *)
Definition reevaluate (all : list (storage nat)) (objs : list string) (scs : list Pb) (h : heap)
  : res (heap * list (nat * list (string * list Q))) :=
  foldM (re_storage all objs scs) (h, []) all.
End Reevaluate.

(** RCPSPSolution.change_problem: rcpsp_model.py:71-74. *)
Definition change_sched (s : rsol) (p : rcpsp) : res rsol := new_sol (Some p) (s_perm s) (s_modes s) None None.
(** KnapsackSolution.change_problem: knapsack_model.py:38-42 (the values are kept). *)
Definition change_knap (s : ksol) (m : kmodel) : res ksol := Ok (mkSol (k_value s) (k_weight s) (k_taken s)).
(** KnapsackModel.evaluate as a dictionary: knapsack_model.py:101-107. *)
Definition eval_knap (m : kmodel) (s : ksol) : res (list (string * Q) * ksol) :=
  let* r := KnapModel.evaluate m s in
  Ok ([("value"%string, inject_Z (fst (fst r))); ("weight_violation"%string, inject_Z (snd (fst r)))], snd r).

(** [l.index(x)] and the best by one objective: resultcomparator.py:66-85. *)
Fixpoint index_str (l : list string) (x : string) : res nat :=
  match l with
  | [] => Err ValueError
  | y :: r => if String.eqb y x then Ok 0 else let* i := index_str r x in Ok (1 + i)
  end.
Fixpoint index_Z (l : list Z) (x : Z) : res nat :=
  match l with
  | [] => Err ValueError
  | y :: r => if Z.eqb y x then Ok 0 else let* i := index_Z r x in Ok (1 + i)
  end.
Definition py_extreme (mx : bool) (l : list Z) : res Z :=
  match l with [] => Err ValueError | x :: r => Ok (fold_left (if mx then Z.max else Z.min) r x) end.
Definition best_entry {S} (k : nat) (r : storage S) : res (S * list Z) :=
  let* fit_array := mapM (fun p => lget (snd p) k) (r_fits r) in
  let* best_fit := py_extreme (r_max r) fit_array in
  let* best_index := index_Z fit_array best_fit in
  lget (r_fits r) best_index.
Definition best_by_objective {S} (objs names : list string) (all : list (storage S)) (obj : string)
  : res (list (string * (S * list Z))) :=
  let* k := index_str objs obj in
  foldM (fun val ir => let* b := best_entry k (snd ir) in
                       let* name := lget names (fst ir) in
                       Ok (dset val name b))
        [] (combine (seq 0 (length all)) all).

(** generate_super_pareto: resultcomparator.py:87-97, with result_storage_to_pareto_front
    (result_storage.py:135-147): a new storage, whose sense is the default one. *)
Definition super_pareto {S} {ES : PyEq S} (all : list (storage S)) : res (list (S * list Z)) :=
  let sols := flat_map r_fits all in
  let* pf := p_init sols true in
  Ok (p_front (p_finalize pf)).
