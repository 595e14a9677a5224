(** What the deterministic gym domains should do: runs of the wrapped environment. *)
From Coq Require Import List Bool Arith ZArith.
Import ListNotations.
From Verif Require Import Py GymDomModel.

Section Spec.
  Variables E Obs Act Info Snap : Type.
  Variable env_reset : E -> E * Obs.
  Variable env_step : E -> Act -> E * (Obs * Z * bool * Info).

  (** ** Runs of a fresh environment [e] *)

  (** The environment after a reset and a sequence of actions. *)
  Definition after (e : E) (path : list Act) : E :=
    fold_left (fun e a => fst (env_step e a)) path (fst (env_reset e)).

  (** What the environment answered to the last action of the sequence; nothing just after the reset. *)
  Definition answer (e : E) (path : list Act) : option (Obs * Z * bool * Info) :=
    match rev path with
    | [] => None
    | a :: r => Some (snd (env_step (after e (rev r)) a))
    end.

  Definition seen (e : E) (path : list Act) : Obs :=
    match answer e path with None => snd (env_reset e) | Some (o, _, _, _) => o end.

  Definition rewarded (e : E) (path : list Act) : option Z :=
    match answer e path with None => None | Some (_, r, _, _) => Some r end.

  Definition finished (e : E) (path : list Act) : bool :=
    match answer e path with None => false | Some (_, _, d, _) => d end.

  (** Sum of the rewards received along a sequence of actions. *)
  Fixpoint total (e : E) (path : list Act) : Z :=
    match path with
    | [] => 0
    | a :: r => let '(e', (_, rew, _, _)) := env_step e a in (rew + total e' r)%Z
    end.

  (** ** Requirements on [set_state] and [get_state] *)

  (** Either the environment is copied, or the snapshot determines everything the environment will
      ever answer, and setting it back restores it. *)
  Definition lawful (set_state : option (E -> Snap -> E)) (get_state : option (E -> Snap))
      (snap_neq : Snap -> Snap -> res bool) : Prop :=
    match set_state, get_state with
    | Some set, Some get =>
        (forall e e', get (set e (get e')) = get e') /\
        (forall e e' a, get e = get e' ->
           snd (env_step e a) = snd (env_step e' a) /\ get (fst (env_step e a)) = get (fst (env_step e' a))) /\
        (forall e e', exists b, snap_neq (get e) (get e') = Ok b /\ (b = false -> get e = get e'))
    | _, _ => True
    end.

  (** ** Exploration of the tree of states *)

  (** A client repeatedly expands one of the states it has received so far (given by its number)
      with an action; the sequences of actions leading to the states it receives: *)
  Fixpoint paths (known : list (list Act)) (script : list (nat * Act)) : list (list Act) :=
    match script with
    | [] => known
    | (i, a) :: r => paths (known ++ [nth i known [] ++ [a]]) r
    end.

  (** … and those of the states it expands, in order. *)
  Fixpoint expanded (known : list (list Act)) (script : list (nat * Act)) : list (list Act) :=
    match script with
    | [] => []
    | (i, a) :: r => nth i known [] :: expanded (known ++ [nth i known [] ++ [a]]) r
    end.

  Fixpoint in_range (n : nat) (script : list (nat * Act)) : Prop :=
    match script with
    | [] => True
    | (i, _) :: r => i < n /\ in_range (S n) r
    end.
End Spec.

(** Number of maximal runs of [true]. *)
Fixpoint runs (previous : bool) (l : list bool) : nat :=
  match l with
  | [] => 0
  | b :: r => (if b && negb previous then 1 else 0) + runs b r
  end.

(** ** The environment-like domain *)
Section Init.
  Variables E Obs Act Info : Type.
  Variable env_reset : E -> E * Obs.
  Variable env_step : E -> Act -> E * (Obs * Z * bool * Info).
  Notation after := (after E Obs Act Info env_reset env_step).

  (** A client resets the domain, steps it, or sets its memory to a state received before. *)
  Inductive call := CReset | CStep (a : Act) | CSet (k : nat).
  Inductive reply := RState (o : Obs) | RStep (o : Obs) (r : Z) (done : bool) (i : Info) | RNone.

  (** The replies expected from an environment [e] when the current episode has followed [path], its
      first observation being [first], and [got] are the observations received so far: setting the
      memory starts a new episode, which is announced by the observation given. *)
  Fixpoint replies (e : E) (path : list Act) (first : Obs) (got : list Obs) (l : list call) : list reply :=
    match l with
    | [] => []
    | CReset :: r => RState first :: replies e [] first (got ++ [first]) r
    | CStep a :: r =>
        let '(o, rew, d, i) := snd (env_step (after e path) a) in
        RStep o rew d i :: replies e (path ++ [a]) first (got ++ [o]) r
    | CSet k :: r => RNone :: replies e [] (nth k got first) got r
    end.

  (** Only states already received are set. *)
  Fixpoint known (n : nat) (l : list call) : Prop :=
    match l with
    | [] => True
    | CSet k :: r => k < n /\ known n r
    | _ :: r => known (S n) r
    end.
End Init.
Arguments CReset {Act}.
Arguments CStep {Act} a.
Arguments CSet {Act} k.
Arguments RState {Obs Info} o.
Arguments RStep {Obs Info} o r done i.
Arguments RNone {Obs Info}.
