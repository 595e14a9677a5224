(** Model of the LRTA* solver, skdecide/hub/solver/lrtastar/lrtastar.py (class LRTAstar).

    Costs and heuristic values are integers (the code uses floats: rounding is not modelled); in the
    table of values [None] stands for infinity, and the heuristic is finite.  Domains are the records of
    CppAstarModel.v (applicable actions, next state, cost, goal test, heuristic); actions are assumed
    different from Python's [None].  The printing and the list [list_action], which no caller reads, are
    left out. *)
From Coq Require Import List Bool Arith ZArith.
From Verif Require Import Py PyList CppAstarModel.
Import ListNotations.
Open Scope nat_scope.

Section Lrta.
Context {St A : Type} {ES : PyEq St}.
Notation problem := (@problem St A).

(** [self.values], [self._policy] *)
Definition values : Type := list (St * option Z).
Definition policy : Type := list (St * option A).

(** lrtastar.py:98-110: one turn of the loop over the applicable actions of [x]; the accumulator is the
    table and the best (next state, action, estimated cost) so far. *)
Definition scan (p : problem) (roll : list St) (x : St) (acc : values * option (St * A * Z)) (a : A) :
  values * option (St * A * Z) :=
  let '(vals, best) := acc in
  let y := next p x a in
  let r := cost p x a y in
  if pymem y roll then acc
  else
    let vals1 := if dmem vals y then vals else dset vals y (Some (heur p y)) in
    match dget vals1 y with
    | Some (Some v) =>
        if match best with None => true | Some (_, _, b) => (r + v <? b)%Z end
        then (vals1, Some (y, a, (r + v)%Z)) else (vals1, best)
    | _ => (vals1, best)
    end.

(** What a trial returns: [dead_end], [cumulated_reward], the states of the roll with the action taken in
    each (the last state has the action [None]), the table and [self.heuristic_changed]. *)
Record trial_result := mkTrial {
  t_dead : bool;
  t_cost : option Z;
  t_roll : list (St * option A);
  t_vals : values;
  t_changed : bool }.

(** lrtastar.py:128-131 *)
Definition finish (x : St) (dead : bool) (cum : Z) (path : list (St * option A)) (vals : values) (changed : bool) :
  res trial_result :=
  let* v := dgetE vals x in
  Ok (mkTrial dead (fadd v cum) (path ++ [(x, None)]) vals changed).

(** lrtastar.py:93-127: the loop of [doTrial] with [depth] turns left.  The subtraction of an infinite
    value (line 120) is reported as [AssertionError]; it does not happen (theorem C54_complete and the others
    that conclude [Ok]). *)
Fixpoint trial (depth : nat) (p : problem) (x : St) (roll : list St) (cum : Z) (path : list (St * option A))
  (vals : values) (changed : bool) : res trial_result :=
  match depth with
  | 0 => finish x false cum path vals changed
  | S depth' =>
      if goal p x then finish x false cum path vals changed
      else
        match fold_left (scan p roll x) (apps p x) (vals, None) with
        | (vals1, None) => finish x true cum path (dset vals1 x None) true
        | (vals1, Some (y, a, e)) =>
            let same := match dget vals1 x with Some (Some v) => (v =? e)%Z | _ => false end in
            let vals2 := if same then vals1 else dset vals1 x (Some e) in
            let changed' := changed || negb same in
            let* hy := (match dget vals2 y with
                        | Some (Some v) => Ok v
                        | Some None => Err AssertionError
                        | None => Ok (heur p y)
                        end) in
            trial depth' p y (roll ++ [y]) (cum + (e - hy))%Z (path ++ [(x, Some a)]) vals2 changed'
        end
  end.

(** lrtastar.py:84-131 [doTrial] *)
Definition do_trial (max_depth : nat) (p : problem) (s : St) (vals : values) : res trial_result :=
  trial max_depth p s [s] 0%Z [] vals false.

(** The attributes of the solver after [solve]. *)
Record solver := mkSolver { sv_values : values; sv_policy : policy; sv_changed : bool }.

(** lrtastar.py:75-76 *)
Definition store (pol : policy) (roll : list (St * option A)) : policy :=
  fold_left (fun pol sa => dset pol (fst sa) (snd sa)) roll pol.

(** lrtastar.py:67-82: the trials; [more] is [max_iter - iteration]. *)
Fixpoint trials (more : nat) (max_depth : nat) (p : problem) (s : St) (best : option Z) (pol : policy) (vals : values) :
  res solver :=
  let* t := do_trial max_depth p s vals in
  let accept := negb (t_dead t) && flt (t_cost t) best in
  let best' := if accept then t_cost t else best in
  let pol' := if accept then store pol (t_roll t) else pol in
  if negb (t_changed t) then Ok (mkSolver (t_vals t) pol' (t_changed t))
  else match more with
       | 0 => Ok (mkSolver (t_vals t) pol' (t_changed t))
       | S more' => trials more' max_depth p s best' pol' (t_vals t)
       end.

(** lrtastar.py:56-82 [_solve_domain]; the policy of earlier calls is kept, the table is not. *)
Definition lrta_solve (max_iter max_depth : nat) (p : problem) (pol : policy) (s : St) : res solver :=
  trials max_iter max_depth p s None pol [].

(** lrtastar.py:25-26 [_get_next_action] *)
Definition lrta_next_action (sv : solver) (s : St) : option A :=
  match dget (sv_policy sv) s with Some a => a | None => None end.

(** lrtastar.py:28-29 [_is_policy_defined_for]: compares the observation with the dictionary by identity,
    and no observation is that dictionary. *)
Definition lrta_policy_defined (sv : solver) (s : St) : bool := false.

(** lrtastar.py:31-34 [_get_utility] *)
Definition lrta_utility (p : problem) (sv : solver) (s : St) : option Z :=
  match dget (sv_values sv) s with Some v => v | None => Some (heur p s) end.
End Lrta.
