(** Model of skdecide/hub/solver/cgp/pycgp/cgpfunctions.py and of the default library (cgp/cgp.py:261-283),
    over the real numbers: the floating-point roundings are left out.  The functions are given an array
    of [max_arity] = 2 numbers. *)
From Coq Require Import List Reals ZArith.
From Verif Require Import CgpModel.
Import ListNotations.
Local Open Scope R_scope.

(** [args[0]] and [args[1]] of an array of at least two entries. *)
Definition with1 (f : R -> R) (args : list R) : R := match args with a :: _ => f a | [] => 0 end.
Definition with2 (f : R -> R -> R) (args : list R) : R := match args with a :: b :: _ => f a b | _ => 0 end.

(** cgpfunctions.py:8-39 *)
Definition f_sum (a b : R) : R := (1 / 2) * (a + b).
Definition f_aminus (a b : R) : R := (1 / 2) * Rabs (a - b).
Definition f_mult (a b : R) : R := a * b.
Definition f_exp (a : R) : R := (exp a - 1) / (exp 1 - 1).
Definition f_abs (a : R) : R := Rabs a.
Definition f_sqrt (a : R) : R := sqrt (Rabs a).
Definition f_sqrtxy (a b : R) : R := sqrt (a * a + b * b) / sqrt 2.
Definition f_squared (a : R) : R := a * a.
(** Python's [pow] of two non-negative floats: [pow(0, 0)] is 1. *)
Definition py_pow (a b : R) : R :=
  if Req_EM_T a 0 then (if Req_EM_T b 0 then 1 else 0) else Rpower a b.
Definition f_pow (a b : R) : R := py_pow (Rabs a) (Rabs b).
Definition f_one (_ : list R) : R := 1.
Definition f_zero (_ : list R) : R := 0.

(** cgpfunctions.py:41-58 *)
Definition f_inv (a : R) : R := if Req_EM_T a 0 then 0 else a / Rabs a.
Definition f_gt (a b : R) : R := if Rlt_dec b a then 1 else 0.
Definition f_acos (a : R) : R := acos a / PI.
Definition f_asin (a : R) : R := 2 * asin a / PI.
Definition f_atan (a : R) : R := 4 * atan a / PI.

(** cgpfunctions.py:60-73; [np.min] and [np.max] of the whole array (not empty); [round] is to the
    even one of two nearest integers. *)
Definition f_min (args : list R) : R := match args with [] => 0 | a :: r => fold_left Rmin r a end.
Definition f_max (args : list R) : R := match args with [] => 0 | a :: r => fold_left Rmax r a end.
Definition floorZ (a : R) : Z := Int_part a.
Definition f_floor (a : R) : R := IZR (floorZ a).
Definition f_ceil (a : R) : R := IZR (- floorZ (- a)).
Definition f_round (a : R) : R :=
  let z := floorZ a in
  if Rlt_dec (a - IZR z) (1 / 2) then IZR z
  else if Rlt_dec (1 / 2) (a - IZR z) then IZR (z + 1)
  else if Z.even z then IZR z else IZR (z + 1).

(** cgp.py:261-283 [_get_default_function_lib] *)
Definition default_library : list (cgpfunc R) :=
  [ {| fn := with2 f_sum; arity := 2 |}; {| fn := with2 f_aminus; arity := 2 |}; {| fn := with2 f_mult; arity := 2 |};
    {| fn := with1 f_exp; arity := 2 |}; {| fn := with1 f_abs; arity := 1 |}; {| fn := with1 f_sqrt; arity := 1 |};
    {| fn := with2 f_sqrtxy; arity := 2 |}; {| fn := with1 f_squared; arity := 1 |}; {| fn := with2 f_pow; arity := 2 |};
    {| fn := f_one; arity := 0 |}; {| fn := f_zero; arity := 0 |}; {| fn := with1 f_inv; arity := 1 |};
    {| fn := with2 f_gt; arity := 2 |}; {| fn := with1 f_asin; arity := 1 |}; {| fn := with1 f_acos; arity := 1 |};
    {| fn := with1 f_atan; arity := 1 |}; {| fn := f_min; arity := 2 |}; {| fn := f_max; arity := 2 |};
    {| fn := with1 f_round; arity := 1 |}; {| fn := with1 f_floor; arity := 1 |}; {| fn := with1 f_ceil; arity := 1 |} ]%nat.
