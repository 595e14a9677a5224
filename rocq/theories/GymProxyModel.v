(** Model of the hashable observations of the gym domains and of the wrapping of a domain as a gym
    environment (/repo/skdecide/hub/domain/gym/gym.py).

    Observations are the elements of gym spaces of [GymFeatModel]; numbers are exact or NaN.
    Simplification: leaves that are neither arrays, tuples, dictionaries nor numbers are left out. *)
From Coq Require Import String.
From Coq Require Import List Bool Arith ZArith.
Import ListNotations.
From Verif Require Import Py PyList GymFeatModel SpaceModel.
Set Implicit Arguments.
Open Scope nat_scope.

(** ** GymDomainStateProxy *)

(** gym.py 95-103 [flatten]. *)
Fixpoint flatten (e : gelem num) : list num :=
  match e with
  | EArr cs => cs
  | EInts l => map Num l
  | ETuple l => flat_map flatten l
  | EDict l => flat_map (fun p => flatten (snd p)) l
  | EInt z => [Num z]
  end.

(** Python's [==] on numbers. *)
Definition num_eq (a b : num) : bool :=
  match a, b with Num x, Num y => (x =? y)%Z | _, _ => false end.
(** [==] on lists of freshly built numbers. *)
Fixpoint list_eq (l l' : list num) : bool :=
  match l, l' with
  | [], [] => true
  | x :: r, y :: t => num_eq x y && list_eq r t
  | _, _ => false
  end.

(** gym.py 86-87 [__eq__]; [None]: an object that is not a proxy. *)
Definition proxy_eq (a : gelem num) (b : option (gelem num)) : res bool :=
  match b with
  | Some b => Ok (list_eq (flatten a) (flatten b))
  | None => Err AttributeError
  end.

(** gym.py 83-84 [__hash__], with Python's hash of a tuple of numbers. *)
Definition proxy_hash (hash_tuple : list num -> Z) (a : gelem num) : Z := hash_tuple (flatten a).

(** ** DeterministicGymDomain._are_same *)

(** [(e1 == e2).all()] on arrays; one-cell arrays are broadcast, other sizes give a plain boolean. *)
Definition arrays_same (l l' : list num) : res bool :=
  if length l =? length l' then Ok (list_eq l l')
  else match l, l' with
       | [x], _ => Ok (forallb (num_eq x) l')
       | _, [y] => Ok (forallb (fun x => num_eq x y) l)
       | _, _ => Err AttributeError
       end.

(** the array behind an element *)
Definition array_of (e : gelem num) : option (list num) :=
  match e with EArr cs => Some cs | EInts l => Some (map Num l) | _ => None end.

Definition set_same (l l' : list string) : bool :=
  forallb (fun k => pymem k l') l && forallb (fun k => pymem k l) l'.

(** gym.py 760-781 [_are_same]; MultiDiscrete is missing from the cases, hence [RuntimeError]. *)
Fixpoint are_same (sp : gspace) (e1 e2 : gelem num) {struct sp} : res bool :=
  match sp with
  | GBox _ | GMultiBinary _ =>
      match array_of e1, array_of e2 with
      | Some l, Some l' => arrays_same l l'
      | None, None => Err AttributeError
      | _, _ => Err AssertionError
      end
  | GDiscrete _ =>
      match e1, e2 with
      | EInt z, EInt z' => Ok (z =? z')%Z
      | _, _ => Err AssertionError
      end
  | GTuple sps =>
      match e1, e2 with
      | ETuple l, ETuple l' =>
          if (length l =? length l') && (length l' =? length sps) then
            (fix go (sps : list gspace) (l l' : list (gelem num)) : res bool :=
               match sps, l, l' with
               | s :: r, x :: t, y :: t' =>
                   let* b := are_same s x y in if b then go r t t' else Ok false
               | _, _, _ => Ok true
               end) sps l l'
          else Err AssertionError
      | _, _ => Err AssertionError
      end
  | GDict kvs =>
      match e1, e2 with
      | EDict l, EDict l' =>
          if set_same (map fst l) (map fst l') && set_same (map fst l') (map fst kvs) then
            (fix go (kvs : list (string * gspace)) : res bool :=
               match kvs with
               | [] => Ok true
               | (k, s) :: r =>
                   let* x := dgetE l k in
                   let* y := dgetE l' k in
                   let* b := are_same s x y in if b then go r else Ok false
               end) kvs
          else Err AssertionError
      | _, _ => Err AssertionError
      end
  | GMultiDiscrete _ | GOther => Err RuntimeError
  end.

(** ** AsGymEnv *)

Section AsGym.
  (** A domain: its hidden state, [step] and [reset] (skdecide/builders/domain/dynamics.py 52-83,
      initialization.py 30-43); a transition gives observation, reward, termination and info, the
      latter possibly None. *)
  Variables S O A UO UA Info : Type.
  Variable dom_step : S -> A -> S * (O * Z * bool * option Info).
  Variable dom_reset : S -> S * O.
  (** the wrappings of one element by the action and observation spaces *)
  Variable from_unwrapped : UA -> res A.
  Variable to_unwrapped : O -> res UO.
  Variable no_info : Info.     (* [{}] *)

  (** gym.py 902-924 [step]. *)
  Definition as_step (s : S) (ua : UA) : res (S * (UO * Z * bool * Info)) :=
    let* a := from_unwrapped ua in
    let '(s', (o, r, t, i)) := dom_step s a in
    let* uo := to_unwrapped o in
    Ok (s', (uo, r, t, match i with Some x => x | None => no_info end)).

  (** gym.py 926-932 [reset]: the observation of the domain, not unwrapped. *)
  Definition as_reset (s : S) : S * O := dom_reset s.
End AsGym.

(** gym.py 46-52 and dynamics.py 75-83: [GymDomain.step] and [reset] through the generic domain. *)
Definition gymdom_step {E O A Info} (env_step : E -> A -> E * (O * Z * bool * option Info)) (e : E) (a : A)
  : E * (O * Z * bool * option Info) := env_step e a.
Definition gymdom_reset {E O} (env_reset : E -> E * O) (e : E) : E * O := env_reset e.

(** skdecide/hub/space/gym/gym.py 56-60: [GymSpace] leaves elements as they are. *)
Definition gs_id {T} (x : T) : res T := Ok x.

(** skdecide/hub/space/gym/gym.py 219-223: [ListSpace] on one element. *)
Definition ls_to {T} {ET : PyEq T} (elements : list T) (x : T) : res nat := list_index elements x.
Definition ls_from {T} (elements : list T) (i : Z) : res T := zget elements i.
