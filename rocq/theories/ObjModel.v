(** Aggregation of objectives and robust problems.
    builders/discrete_optimization/generic_tools/do_problem.py.  Objective values and weights are integers (the
    arithmetic is exact); objective names are strings of ASCII characters. *)
From Coq Require Import String List Bool Arith ZArith.
From Verif Require Import Py PyList.
Import ListNotations.

(** do_problem.py 39-42 ObjectiveHandling *)
Inductive handling := Single | Aggregate | MultiObj.
(** do_problem.py 194-208 ParamsObjectiveFunction, without the sense, which the functions below do not read
    (line 244: the sign is always 1). *)
Record params := mkParams { p_handling : handling; objectives : list string; weights : list Z }.
(** do_problem.py 50-61 ObjectiveRegister: the names with their default weights, in the order of the dictionary. *)
Record register := mkRegister { r_handling : handling; r_objectives : list (string * Z) }.

Inductive fitness := Scalar (z : Z) | Vector (v : list Z).

(** do_problem.py 63-65 and 219-227 *)
Definition default_setup (r : register) : params :=
  mkParams (r_handling r) (map fst (r_objectives r)) (map snd (r_objectives r)).

(** one term: [dict_values[objectives[i]] * weights[i]] *)
Definition term (p : params) (d : list (string * Z)) (i : nat) : res Z :=
  let* o := lget (objectives p) i in
  let* v := dgetE d o in
  let* w := lget (weights p) i in Ok (v * w)%Z.
(** do_problem.py 279-280: the weight is read before the value *)
Definition term' (p : params) (d : list (string * Z)) (i : nat) : res Z :=
  let* w := lget (weights p) i in
  let* o := lget (objectives p) i in
  let* v := dgetE d o in Ok (w * v)%Z.

(** do_problem.py 239-281, [eval_from_dict_values]; [sum] of a list and multiplication by the sign 1 are exact. *)
Definition eval_dict (p : params) (d : list (string * Z)) : res fitness :=
  let n := length (objectives p) in
  match p_handling p with
  | Aggregate => let* l := mapM (term p d) (seq 0 n) in Ok (Scalar (1 * sumZ l))
  | Single => let* x := term p d 0 in Ok (Scalar (1 * x))
  | MultiObj => let* l := mapM (term' p d) (seq 0 n) in Ok (Vector (map (Z.mul 1) l))
  end.

Section Problem.
Variable Sol : Type.
Variable evaluate : Sol -> res (list (string * Z)).
(** do_problem.py 253-257, 266-268, 275-277 [eval] *)
Definition eval_sol (p : params) (s : Sol) : res fitness := let* d := evaluate s in eval_dict p d.

(** do_problem.py 97-103 and 105-108: vector of the raw values in the alphabetic order of the names *)
Definition mobj_dict (r : register) (d : list (string * Z)) : res (list Z) :=
  mapM (dgetE d) (ssort String.leb (map fst (r_objectives r))).
Definition mobj (r : register) (s : Sol) : res (list Z) := let* d := evaluate s in mobj_dict r d.
End Problem.

(** do_problem.py 155-170, for the methods MIN, MAX and PONDERATION (MEAN, MEDIAN and PERCENTILE are not
    modelled); numpy raises on an empty vector and on sizes that differ. *)
Inductive method := Min | Max | Ponderation (p : list Z).
Definition aggregate (m : method) (x : list Z) : res Z :=
  match m with
  | Min => match x with [] => Err ValueError | a :: r => Ok (fold_left Z.min r a) end
  | Max => match x with [] => Err ValueError | a :: r => Ok (fold_left Z.max r a) end
  | Ponderation p => if length x =? length p then Ok (sumZ (map (fun q => fst q * snd q)%Z (combine x p))) else Err ValueError
  end.
(** do_problem.py 172-179 RobustProblem.evaluate; [fits] are the evaluations by the problems of the list. *)
Definition robust (m : method) (fits : list (list (string * Z))) : res (list (string * Z)) :=
  let* f0 := lget fits 0 in
  foldM (fun agg k => let* vals := mapM (fun fit => dgetE fit k) fits in
                      let* a := aggregate m vals in Ok (dset agg k a)) [] (dkeys f0).
