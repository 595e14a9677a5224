(** Model of the value classes of skdecide/core.py: TransitionValue, outcomes, constraints,
    and of the policy API chain (builders/solver/policy.py), spaces and match_solvers. *)
From Coq Require Import String.
From Coq Require Import List Bool Arith ZArith.
From Verif Require Import Py.
Import ListNotations.
Set Implicit Arguments.

Section TransitionValue.
  (** The numeric type D.T_value is abstract: a zero literal and unary minus. *)
  Variable V : Type.
  Variable vzero : V.
  Variable vneg : V -> V.

  (** core.py:279-303 (dataclass fields after initialisation: both are always set) *)
  Record tvalue := TV { tv_reward : V; tv_cost : V }.

  (** core.py:314-318 *)
  Definition cost_to_reward (cost : V) : V := vneg cost.
  Definition reward_to_cost (reward : V) : V := vneg reward.

  (** core.py:305-312, [TransitionValue.__post_init__]; [None] = argument not given. *)
  Definition TransitionValue (reward cost : option V) : tvalue :=
    match reward with
    | Some r => TV r (reward_to_cost r)
    | None =>
        match cost with
        | Some c => TV (cost_to_reward c) c
        | None => TV vzero vzero
        end
    end.

  (** *** Outcomes *)
  Variables (K O I : Type).   (* agent names, observations/states, infos *)

  (** An observation/state/value/info is either a dictionary (agent -> x) or a plain object;
      core.py uses [isinstance(self.observation, dict)] to tell them apart. *)
  Inductive multi (X : Type) :=
  | MDict (d : list (K * X))
  | MOne (x : X).
  Arguments MDict {X} d.
  Arguments MOne {X} x.

  (** core.py:321-335 and 350-364 (both dataclasses have the same shape; the first field is
      called [observation] in EnvironmentOutcome and [state] in TransitionOutcome). *)
  Record outcome := Outcome {
    oc_subject : multi O;
    oc_value : multi tvalue;
    oc_termination : bool;
    oc_info : multi (option I)     (* MOne None is Python's None *)
  }.

  (** core.py:337-342 / 366-371 [__post_init__].  Arguments [value] and [info] are [None] when
      not given (or given as Python None). *)
  Definition mk_outcome (subject : multi O) (value : option (multi tvalue)) (termination : bool)
             (info : option (multi (option I))) : outcome :=
    {| oc_subject := subject;
       oc_value := match value with
                   | Some v => v
                   | None => match subject with
                             | MDict d => MDict (map (fun kv => (fst kv, TransitionValue None None)) d)
                             | MOne _ => MOne (TransitionValue None None)
                             end
                   end;
       oc_termination := termination;
       oc_info := match info with
                  | Some i => i
                  | None => match subject with
                            | MDict d => MDict (map (fun kv => (fst kv, None)) d)
                            | MOne _ => MOne None
                            end
                  end |}.
End TransitionValue.
Arguments MDict {K X} d.
Arguments MOne {K X} x.

Section Constraints.
  Variables (M A S : Type).   (* memory, action, state *)
  Variable R : Type.          (* the number type of evaluate/bound *)
  Variables (ltb leb : R -> R -> bool).   (* Python's < and <= on R; > and >= are the flipped ones *)

  (** core.py:475-506: fields kept by the constructor; the symbol is a Python string. *)
  Record bound_constraint := BC {
    bc_evaluate : M -> A -> option S -> R;
    bc_inequality : string;
    bc_bound : R;
    bc_depends : bool;
    bc_check : R -> R -> bool
  }.

  (** core.py:501-505: the assertion, then the dictionary of four lambdas.  [val > bnd] is
      evaluated by Python as a flipped comparison for numbers: [ltb bnd val]. *)
  Definition BoundConstraint (evaluate : M -> A -> option S -> R) (inequality : string) (bound : R)
             (depends : bool) : res bound_constraint :=
    let mk f := Ok (BC evaluate inequality bound depends f) in
    if String.eqb inequality "<" then mk (fun v b => ltb v b)
    else if String.eqb inequality "<=" then mk (fun v b => leb v b)
    else if String.eqb inequality ">" then mk (fun v b => ltb b v)
    else if String.eqb inequality ">=" then mk (fun v b => leb b v)
    else Err AssertionError.

  (** core.py:508-509 [check]; 514-532 [evaluate]; 511-512; 534-548 *)
  Definition bc_evaluate_call (c : bound_constraint) m a s : R := bc_evaluate c m a s.
  Definition bc_check_call (c : bound_constraint) m a s : bool :=
    bc_check c (bc_evaluate_call c m a s) (bc_bound c).
  Definition bc_get_inequality (c : bound_constraint) : string := bc_inequality c.
  Definition bc_get_bound (c : bound_constraint) : R := bc_bound c.

  (** core.py:550-556 [BoundConstraint._cast]: the casts of the three arguments (from the
      destination level back to the source level) are given as functions. *)
  Definition bc_cast (M' A' S' : Type) (c : bound_constraint)
    (cm : M' -> M) (ca : A' -> A) (cs : option S' -> option S) :=
    (fun m a s => bc_evaluate c (cm m) (ca a) (cs s), bc_inequality c, bc_bound c, bc_depends c).
End Constraints.

Section Match.
  Variables (Domain Solver : Type).
  Variable check_domain : Solver -> Domain -> bool.

  (** utils.py:77-86 [match_solvers] with an explicit candidate list; the loop with [append].
      When [candidates is None] the registered solvers are loaded and the failed loads ([None])
      filtered out: [registered] below. *)
  Definition match_solvers_loop (domain : Domain) (candidates : list Solver) : list Solver :=
    fold_left (fun matches s => if check_domain s domain then matches ++ [s] else matches)
              candidates [].

  Definition match_solvers (domain : Domain) (candidates : option (list Solver))
             (registered : list (option Solver)) : list Solver :=
    match candidates with
    | Some l => match_solvers_loop domain l
    | None =>
        match_solvers_loop domain
          (flat_map (fun o => match o with Some s => [s] | None => [] end) registered)
    end.
End Match.
