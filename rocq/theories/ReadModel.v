(** Model of the readers of facility location and vehicle routing instances:
    skdecide/builders/discrete_optimization/facility/facility_parser.py:10-26 and
    skdecide/builders/discrete_optimization/vrp/vrp_parser.py:13-35, on the texts of ParseModel.v.

    [float] is a parameter: a function from words to values or exceptions.  The constructors of the problems only store what they are
    given and are not called. *)
From Coq Require Import String Ascii.
From Coq Require Import List Bool Arith ZArith.
From Verif Require Import Py PyList ParseModel.
Import ListNotations.
Local Open Scope nat_scope.

Section Read.
Context {F : Type}.
Variable to_float : string -> res F.

Record facility := Facility { f_index : nat; f_setup : F; f_capacity : Z; f_x : F; f_y : F }.
Record customer := Customer { u_index : nat; u_demand : Z; u_x : F; u_y : F }.

(** [int(parts[i])], [float(parts[i])] *)
Definition int_at (parts : list string) (i : nat) : res Z := let* w := lget parts i in to_int w.
Definition float_at (parts : list string) (i : nat) : res F := let* w := lget parts i in to_float w.

(** facility_parser.py:19-20 *)
Definition facility_row (ls : list string) (i : nat) : res facility :=
  let* line := lget ls i in
  let parts := words line in
  let* s := float_at parts 0 in
  let* c := int_at parts 1 in
  let* x := float_at parts 2 in
  let* y := float_at parts 3 in
  Ok (Facility (i - 1) s c x y).
(** facility_parser.py:23-24, vrp_parser.py:23-26: [skip] lines of other entries come before *)
Definition customer_row (ls : list string) (skip i : nat) : res customer :=
  let* line := lget ls i in
  let parts := words line in
  let* d := int_at parts 0 in
  let* x := float_at parts 1 in
  let* y := float_at parts 2 in
  Ok (Customer (i - 1 - skip) d x y).

(** facility_parser.py:10-26 *)
Definition parse_facility (s : string) : res (list facility * list customer) :=
  let ls := lines s in
  let* h := lget ls 0 in
  let parts := words h in
  let* nf := int_at parts 0 in
  let* nc := int_at parts 1 in
  let f := Z.to_nat nf in
  let* fs := mapM (facility_row ls) (seq 1 f) in
  let* cs := mapM (customer_row ls f) (seq (f + 1) (Z.to_nat nc)) in
  Ok (fs, cs).

(** vrp_parser.py:13-35: capacities, customers, start and end of every vehicle *)
Definition parse_vrp (s : string) (start finish : nat) (vehicles : option nat) : res (list Z * list customer * list nat * list nat) :=
  let ls := lines s in
  let* h := lget ls 0 in
  let parts := words h in
  let* nc := int_at parts 0 in
  let* v := match vehicles with None => let* v := int_at parts 1 in Ok (Z.to_nat v) | Some v => Ok v end in
  let* cap := int_at parts 2 in
  let* cs := mapM (customer_row ls 0) (seq 1 (Z.to_nat nc)) in
  Ok (repeat cap v, cs, repeat start v, repeat finish v).
End Read.
Arguments Facility {F}. Arguments Customer {F}.
