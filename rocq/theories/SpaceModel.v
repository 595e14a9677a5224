(** Spaces: skdecide/core.py:45-109 and skdecide/hub/space/gym/gym.py.

    - Elements have decidable equality (the Python [==]).
    - The draw of gym's Discrete space is an oracle index. *)
From Coq Require Import String.
From Coq Require Import List Bool Arith ZArith.
From Verif Require Import Py PyList.
Import ListNotations.

(** [l.index(x)] *)
Fixpoint list_index {K} {EK : PyEq K} (l : list K) (x : K) : res nat :=
  match l with
  | [] => Err ValueError
  | y :: l => if pyeqb x y then Ok 0 else let* i := list_index l x in Ok (S i)
  end.

Section Lists.
Context {T : Type} {ET : PyEq T}.

(** ListSpace: gym.py:187-223; the space is its list of elements. *)
Definition ls_contains (elements : list T) (x : T) : bool := pymem x elements.
Definition ls_elements (elements : list T) : list T := elements.
(** gym.spaces.Discrete(n).sample() draws below [n]; drawing below 0 is a ValueError of numpy. *)
Definition discrete_sample (n draw : nat) : res nat := if n =? 0 then Err ValueError else Ok (draw mod n).
Definition ls_sample (elements : list T) (draw : nat) : res T :=
  let* i := discrete_sample (length elements) draw in lget elements i.
Definition ls_to_unwrapped (elements : list T) (samples : list T) : res (list nat) := mapM (list_index elements) samples.
Definition ls_from_unwrapped (elements : list T) (samples : list Z) : res (list T) := mapM (zget elements) samples.
Definition ls_to_jsonable (elements : list T) (samples : list T) : list T := samples.
Definition ls_from_jsonable (elements : list T) (samples : list T) : list T := samples.

(** EnumerableSpace.contains (core.py:101-102) and Space.contains, inherited by EmptySpace (core.py:55, 105-109). *)
Definition enumerable_contains (elements : list T) (x : T) : res bool := Ok (pymem x elements).
Definition empty_elements : list T := [].
Definition empty_contains (x : T) : res bool := Err NotImplementedError.
End Lists.

(** An enumeration class: its definitions (name, value) in order.  A later name with the same value is an alias of the
    first one; a member is the name of a definition that is not an alias. *)
Definition enum_class := list (string * Z).
Fixpoint members_from (seen : list Z) (e : enum_class) : list string :=
  match e with
  | [] => []
  | (n, v) :: e => if pymem v seen then members_from seen e else n :: members_from (v :: seen) e
  end.
(** [list(enum_class)] *)
Definition members (e : enum_class) : list string := members_from [] e.
(** [enum_class[name]]: the member with the value of the definition *)
Definition canonical (e : enum_class) (v : Z) : option string :=
  match find (fun nv : string * Z => (snd nv =? v)%Z) e with Some nv => Some (fst nv) | None => None end.
Definition enum_get (e : enum_class) (n : string) : res string :=
  match dget e n with
  | Some v => match canonical e v with Some m => Ok m | None => Err KeyError end
  | None => Err KeyError
  end.
(** Python objects, as far as an enumeration space cares: members of an enumeration (by class name), or others. *)
Inductive obj := Member (cls : string) (name : string) | Other (k : nat).

(** EnumSpace: gym.py:137-175 *)
Definition es_contains (cls : string) (x : obj) : bool :=
  match x with Member c _ => String.eqb c cls | Other _ => false end.
Definition es_sample (e : enum_class) (draw : nat) : res string :=
  let* i := discrete_sample (length (members e)) draw in lget (members e) i.
Definition es_to_unwrapped (e : enum_class) (samples : list string) : res (list nat) := mapM (list_index (members e)) samples.
Definition es_from_unwrapped (e : enum_class) (samples : list Z) : res (list string) := mapM (zget (members e)) samples.
Definition es_to_jsonable (samples : list string) : list string := samples.
Definition es_from_jsonable (e : enum_class) (samples : list string) : res (list string) := mapM (enum_get e) samples.

(** Values of dataclass fields; [VData] is an instance of a dataclass. *)
Inductive value :=
| VAtom (z : Z)
| VList (l : list value)
| VDict (d : list (string * value))
| VData (cls : string) (fields : list (string * value)).
(** dataclasses.asdict: recurses into dataclasses, lists and dictionaries *)
Fixpoint asdict (v : value) : value :=
  match v with
  | VAtom z => VAtom z
  | VList l => VList (map asdict l)
  | VDict d => VDict (map (fun kv => (fst kv, asdict (snd kv))) d)
  | VData _ fs => VDict (map (fun kv => (fst kv, asdict (snd kv))) fs)
  end.
(** The call of a dataclass with keyword arguments, for a dataclass with the given fields and no defaults *)
Definition construct (cls : string) (fields : list string) (kwargs : list (string * value)) : res value :=
  if forallb (fun k => pymem k fields) (dkeys kwargs)
  then let* fs := mapM (fun f => match dget kwargs f with Some v => Ok (f, v) | None => Err TypeError end) fields in
       Ok (VData cls fs)
  else Err TypeError.
(** DataSpace.to_unwrapped, from_unwrapped: gym.py:282-287; [asdict] of something else is a TypeError *)
Definition ds_to_unwrapped (samples : list value) : res (list (list (string * value))) :=
  mapM (fun v => match v with
                 | VData _ _ => match asdict v with VDict d => Ok d | _ => Err TypeError end
                 | _ => Err TypeError end) samples.
Definition ds_from_unwrapped (cls : string) (fields : list string) (samples : list (list (string * value))) : res (list value) :=
  mapM (construct cls fields) samples.
