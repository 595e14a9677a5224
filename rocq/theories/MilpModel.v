(** Mixed integer linear programs, as built by the [init_model] methods of the solvers of
    skdecide/builders/discrete_optimization and handed to python-mip, gurobi or or-tools.

    - The external solver is not modelled: theorems quantify over every assignment of the variables that
      satisfies the program (what a pool of solutions contains), or that is optimal among those.
    - All variables of the modelled programs are integer variables, and the values read back are taken to be
      exactly integral: the tolerances of the solvers are not modelled.  Coefficients are exact integers. *)
From Coq Require Import List Bool ZArith.
From Verif Require Import Py PyList.
Import ListNotations.
Open Scope Z_scope.

Section Milp.
(** [X]: the variables of the program. *)
Context {X : Type}.

(** A linear expression: weighted variables and a constant ([xsum], [quicksum], [LinExpr]). *)
Definition expr : Type := list (Z * X) * Z.
Definition evar (x : X) : expr := ([(1, x)], 0).
Definition econst (k : Z) : expr := ([], k).
Definition escale (k : Z) (e : expr) : expr := (map (fun t => (k * fst t, snd t)) (fst e), k * snd e).
Definition eadd (e1 e2 : expr) : expr := (fst e1 ++ fst e2, snd e1 + snd e2).
(** [xsum(list)], [quicksum(list)], [Solver.Sum(list)] *)
Definition esum (l : list expr) : expr := fold_right eadd (econst 0) l.

Inductive sense := SLe | SGe | SEq.
(** [add_constr(left <= right)] etc. *)
Record constr := Constr { c_left : expr; c_sense : sense; c_right : expr }.
(** [add_var(var_type=BINARY)]: bounds 0 and 1; [INTEGER]: lower bound 0 by default. *)
Record var := Var { v_id : X; v_lo : Z; v_hi : option Z }.
Definition binary_var (x : X) : var := Var x 0 (Some 1).
Record milp := Milp { p_vars : list var; p_constrs : list constr; p_obj : expr; p_max : bool }.

(** * What an external solver answers *)
Definition eval (a : X -> Z) (e : expr) : Z := sumZ (map (fun t => fst t * a (snd t)) (fst e)) + snd e.
Definition holds (a : X -> Z) (c : constr) : Prop :=
  match c_sense c with
  | SLe => eval a (c_left c) <= eval a (c_right c)
  | SGe => eval a (c_left c) >= eval a (c_right c)
  | SEq => eval a (c_left c) = eval a (c_right c)
  end.
Definition in_bounds (a : X -> Z) (v : var) : Prop :=
  v_lo v <= a (v_id v) /\ match v_hi v with Some h => a (v_id v) <= h | None => True end.
(** A solution of the program. *)
Record admissible (p : milp) (a : X -> Z) : Prop := {
  ad_bounds : forall v, In v (p_vars p) -> in_bounds a v;
  ad_constrs : forall c, In c (p_constrs p) -> holds a c
}.
Definition better_or_equal (p : milp) (a b : X -> Z) : Prop :=
  if p_max p then eval b (p_obj p) <= eval a (p_obj p) else eval a (p_obj p) <= eval b (p_obj p).
(** An optimal one. *)
Definition optimal (p : milp) (a : X -> Z) : Prop :=
  admissible p a /\ forall b, admissible p b -> better_or_equal p a b.
End Milp.
Arguments expr : clear implicits.
Arguments milp : clear implicits.
Arguments var : clear implicits.
Arguments constr : clear implicits.
