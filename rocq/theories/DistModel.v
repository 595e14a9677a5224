(** Model of the distributions of skdecide/core.py (153-259) and of the policy API chain of
    skdecide/builders/solver/policy.py.  Probabilities/weights and random draws are rationals. *)
From Coq Require Import List Bool Arith QArith.
From Verif Require Import Py.
Import ListNotations.
Set Implicit Arguments.

Definition Qltb (x y : Q) : bool := negb (Qle_bool y x).

(** CPython [bisect.bisect_right(a, x, lo, hi)]: the binary search loop, [fuel] turns at most. *)
Fixpoint bisect (fuel : nat) (a : list Q) (x : Q) (lo hi : nat) : res nat :=
  if Nat.ltb lo hi then
    match fuel with
    | O => Err OutOfFuel
    | S fuel =>
        let mid := Nat.div (lo + hi) 2 in
        match nth_error a mid with
        | None => Err IndexError
        | Some am => if Qltb x am then bisect fuel a x lo mid else bisect fuel a x (S mid) hi
        end
    end
  else Ok lo.

(** [itertools.accumulate(weights)] *)
Fixpoint accumulate_from (acc : Q) (ws : list Q) : list Q :=
  match ws with [] => [] | w :: r => (acc + w) :: accumulate_from (acc + w) r end.
Definition accumulate (ws : list Q) : list Q := accumulate_from 0 ws.

(** CPython [random.choices(population, weights)[0]] for the draw [u = random()].
    Python >= 3.9 raises ValueError when the total weight is not positive. *)
Definition random_choices {T} (population : list T) (weights : list Q) (u : Q) : res T :=
  let cum := accumulate weights in
  let n := length population in
  if negb (Nat.eqb (length cum) n) then Err ValueError else
  match rev cum with
  | [] => Err IndexError
  | total :: _ =>
      if Qle_bool total 0 then Err ValueError else
      let* i := bisect n cum (u * total) 0 (n - 1) in
      match nth_error population i with Some x => Ok x | None => Err IndexError end
  end.

(** core.py:194-259: a distribution object is either a DiscreteDistribution holding its
    (element, probability) list or a SingleValueDistribution holding its value. *)
Inductive dist (T : Type) :=
| Discrete (values : list (T * Q))
| Single (value : T).
Arguments Discrete {T} values.
Arguments Single {T} value.

(** core.py:197-216 [DiscreteDistribution.__init__]: [unzip_values[0]] fails on an empty list. *)
Definition DiscreteDistribution {T} (values : list (T * Q)) : res (dist T) :=
  match values with [] => Err IndexError | _ => Ok (Discrete values) end.

(** core.py:236-242 *)
Definition SingleValueDistribution {T} (value : T) : dist T := Single value.

(** core.py:218-219 and 244-245 [sample]; [u] is the random draw (unused by Single). *)
Definition dist_sample {T} (d : dist T) (u : Q) : res T :=
  match d with
  | Discrete values => random_choices (map fst values) (map snd values) u
  | Single v => Ok v
  end.

(** core.py:221-227 and 247-248 [get_values] *)
Definition dist_get_values {T} (d : dist T) : list (T * Q) :=
  match d with Discrete values => values | Single v => [(v, 1)] end.

(** core.py:229-230 and 258-259 [_cast]; [f] is [cast(., src_sub[0], dst_sub[0])]. *)
Definition dist_cast {T U} (f : T -> res U) (d : dist T) : res (dist U) :=
  match d with
  | Discrete values =>
      let* vs := mapM (fun ep => let* e := f (fst ep) in Ok (e, snd ep)) values in
      DiscreteDistribution vs
  | Single v => let* e := f v in Ok (SingleValueDistribution e)
  end.

(** builders/solver/policy.py:66-67: [UncertainPolicies._sample_action]. *)
Section Policies.
  Variables (Obs Act : Type).

  Definition uncertain_sample_action (next_action_distribution : Obs -> dist Act) (o : Obs) (u : Q)
    : res Act := dist_sample (next_action_distribution o) u.

  (** policy.py:100-102: [DeterministicPolicies._get_next_action_distribution] *)
  Definition det_next_action_distribution (next_action : Obs -> Act) (o : Obs) : dist Act :=
    SingleValueDistribution (next_action o).

  (** inherited [_sample_action] of a deterministic policy (66-67 through 100-102) *)
  Definition det_sample_action (next_action : Obs -> Act) (o : Obs) (u : Q) : res Act :=
    uncertain_sample_action (det_next_action_distribution next_action) o u.
End Policies.
