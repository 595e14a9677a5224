(** Model of how the C++ solvers hash and compare Python states and actions
    (/repo/cpp/src/utils/python_hash_eq.hh, /repo/cpp/src/utils/python_container_adapter.hh).

    Python values: numbers, strings, tuples, lists, dictionaries and instances of user classes, and numpy
    arrays at top level.  Simplifications: floats are finite rationals; a representation ([__repr__]) is kept as
    the tree it prints, so that distinct trees stand for distinct texts, and a text returned by a user's
    [__repr__] is never the text of another kind of value; the branches that try [__str__] (49-53, 95-104) are
    left out because the text returned by [__repr__] always has a usable [__hash__] and [__eq__]. *)
From Coq Require Import String List Bool Arith ZArith QArith.
Import ListNotations.
From Verif Require Import Py PyList.
Set Implicit Arguments.
Open Scope nat_scope.

(** What a user class defines. *)
Inductive hash_kind := HashFields | HashIdentity | HashNone.
Record cls := Cls {
  k_eq : bool;              (* [__eq__] compares the fields of instances of the same class *)
  k_hash : hash_kind;       (* a class with [__eq__] and no [__hash__] has [__hash__ = None] *)
  k_repr : bool             (* [__repr__] prints the fields *)
}.

Inductive obj :=
  | ONone | OBool (b : bool) | OInt (z : Z) | OFloat (q : Q) | OStr (s : string)
  | OTup (l : list obj) | OList (l : list obj) | ODict (l : list (obj * obj))
  | OInst (name : string) (id : nat) (fields : string).    (* an instance of the class with that name *)

(** Numbers compare by value whatever their type. *)
Definition num (o : obj) : option Q :=
  match o with
  | OBool b => Some (if b then 1%Q else 0%Q)
  | OInt z => Some (inject_Z z)
  | OFloat q => Some q
  | _ => None
  end.

Section Python.
(** The user classes, by name. *)
Variable K : string -> cls.

Definition inst_eq (c : string) (i : nat) (f : string) (d : string) (j : nat) (g : string) : bool :=
  String.eqb c d && (if k_eq (K c) then String.eqb f g else i =? j).

(** Python's [x == y]. *)
Fixpoint pyop (x y : obj) {struct x} : bool :=
  let seq := fix seq (l l' : list obj) : bool :=
    match l, l' with
    | [], [] => true
    | a :: r, b :: t => pyop a b && seq r t
    | _, _ => false
    end in
  match num x, num y with
  | Some p, Some q => Qeq_bool p q
  | Some _, None | None, Some _ => false
  | None, None =>
      match x, y with
      | ONone, ONone => true
      | OStr s, OStr t => String.eqb s t
      | OTup l, OTup l' => seq l l'
      | OList l, OList l' => seq l l'
      | ODict l, ODict l' =>
          (length l =? length l') &&
          forallb (fun e => existsb (fun e' => pyop (fst e) (fst e') && pyop (snd e) (snd e')) l') l
      | OInst c i f, OInst d j g => inst_eq c i f d j g
      | _, _ => false
      end
  end.

(** [x.__eq__(y)]; [None] stands for [NotImplemented]. *)
Definition eq_method (x y : obj) : option bool :=
  match x, y with
  | ONone, ONone => Some true
  | OBool _, OBool _ | OBool _, OInt _ | OInt _, OBool _ | OInt _, OInt _ => Some (pyop x y)
  | OFloat _, OBool _ | OFloat _, OInt _ | OFloat _, OFloat _ => Some (pyop x y)
  | OStr _, OStr _ | OTup _, OTup _ | OList _, OList _ | ODict _, ODict _ => Some (pyop x y)
  | OInst c i f, OInst d j g =>
      if k_eq (K c) then (if String.eqb c d then Some (String.eqb f g) else None)
      else if String.eqb c d && (i =? j) then Some true else None
  | _, _ => None
  end.

(** What [__repr__] prints. *)
Inductive text :=
  | TNone | TBool (b : bool) | TInt (z : Z) | TFloat (q : Q) | TStr (s : string)
  | TTup (l : list text) | TList (l : list text) | TDict (l : list (text * text))
  | TInst (name fields : string) | TAddress (name : string) (id : nat).

Fixpoint repr (o : obj) : text :=
  match o with
  | ONone => TNone
  | OBool b => TBool b
  | OInt z => TInt z
  | OFloat q => TFloat (Qred q)
  | OStr s => TStr s
  | OTup l => TTup (map repr l)
  | OList l => TList (map repr l)
  | ODict l => TDict (map (fun e => (repr (fst e), repr (snd e))) l)
  | OInst c i f => if k_repr (K c) then TInst c f else TAddress c i
  end.

Fixpoint text_eqb (x y : text) {struct x} : bool :=
  let seq := fix seq (l l' : list text) : bool :=
    match l, l' with
    | [], [] => true
    | a :: r, b :: t => text_eqb a b && seq r t
    | _, _ => false
    end in
  match x, y with
  | TNone, TNone => true
  | TBool a, TBool b => Bool.eqb a b
  | TInt a, TInt b => (a =? b)%Z
  | TFloat p, TFloat q => Z.eqb (Qnum p) (Qnum q) && Pos.eqb (Qden p) (Qden q)
  | TStr s, TStr t => String.eqb s t
  | TTup l, TTup l' => seq l l'
  | TList l, TList l' => seq l l'
  | TDict l, TDict l' =>
      (fix go (l l' : list (text * text)) : bool :=
        match l, l' with
        | [], [] => true
        | a :: r, b :: t => text_eqb (fst a) (fst b) && text_eqb (snd a) (snd b) && go r t
        | _, _ => false
        end) l l'
  | TInst n f, TInst m g => String.eqb n m && String.eqb f g
  | TAddress n i, TAddress m j => String.eqb n m && (i =? j)
  | _, _ => false
  end.

(** numpy arrays: a view on a memory of numbers, with a shape and strides (counted in elements). *)
Inductive dtype := Float32 | Float64 | Int8 | Int16 | Int32 | Int64 | UInt8 | UInt16 | UInt32 | UInt64
  | DBool | Float16 | DObject.
Record array := Array {
  a_dtype : dtype;
  a_shape : list nat;
  a_strides : list Z;
  a_offset : Z;
  a_memory : Z -> Q
}.

(** The elements of an array, in the order of their indices. *)
Fixpoint elements (shape : list nat) (strides : list Z) (offset : Z) (mem : Z -> Q) : list Q :=
  match shape, strides with
  | n :: r, s :: t => flat_map (fun i => elements r t (offset + Z.of_nat i * s)%Z mem) (List.seq 0 n)
  | _, _ => [mem offset]
  end.
Definition elems (a : array) : list Q := elements (a_shape a) (a_strides a) (a_offset a) (a_memory a).
Definition size (a : array) : nat := fold_right Nat.mul 1 (a_shape a).

Inductive value := VObj (o : obj) | VArr (a : array).

  (** CPython's hashes of numbers, texts, tuples and identities, the hash of a printed text, boost's hash of a
      number of some C++ type and its combination of hashes, all left open. *)
  Record hashes := Hashes {
    h_none : Z;
    h_num : Q -> Z;
    h_str : string -> Z;
    h_tuple : list Z -> Z;
    h_fields : string -> string -> Z;
    h_id : nat -> Z;
    h_text : text -> Z;
    h_prim : dtype -> Q -> Z;
    h_combine : Z -> Z -> Z
  }.
  Variable H : hashes.

  (** [x.__hash__()]: [Ok None] when there is no [__hash__]; a tuple with such an element raises. *)
  Fixpoint hash_method (o : obj) : res (option Z) :=
    match o with
    | ONone => Ok (Some (h_none H))
    | OBool b => Ok (Some (h_num H (if b then 1%Q else 0%Q)))
    | OInt z => Ok (Some (h_num H (inject_Z z)))
    | OFloat q => Ok (Some (h_num H q))
    | OStr s => Ok (Some (h_str H s))
    | OTup l =>
        let go := fix go (l : list obj) : res (list Z) :=
          match l with
          | [] => Ok []
          | x :: r => let* h := hash_method x in
                      match h with
                      | None => Err TypeError
                      | Some z => let* t := go r in Ok (z :: t)
                      end
          end in
        let* hs := go l in Ok (Some (h_tuple H hs))
    | OList _ | ODict _ => Ok None
    | OInst c i f => Ok (match k_hash (K c) with
                         | HashFields => Some (h_fields H c f)
                         | HashIdentity => Some (h_id H i)
                         | HashNone => None
                         end)
    end.

  (** python_hash_eq.hh 34: the Python hash plus [sys.maxsize], as a 64-bit unsigned number. *)
  Definition shifted (z : Z) : Z := ((z + (2 ^ 63 - 1)) mod 2 ^ 64)%Z.

  (** python_container_adapter.hh 159-195: the element types that are handled.  numpy prints the type of
      boolean arrays as "bool", which is not in the list (167 has "bool_"). *)
  Definition handled (d : dtype) : bool :=
    match d with DBool | Float16 | DObject => false | _ => true end.

  (** python_container_adapter.hh 229-235 and 326-329: the hashes of the first [size] numbers found in memory
      from the start of the array, whatever its strides. *)
  Definition array_hash (a : array) : res Z :=
    if handled (a_dtype a) then
      Ok (fold_left (fun seed i => h_combine H seed (h_prim H (a_dtype a) (a_memory a (a_offset a + Z.of_nat i)%Z)))
            (List.seq 0 (size a)) 0%Z)
    else Err ValueError.

  (** python_hash_eq.hh 26-64 [PythonHash]. *)
  Definition py_hash (v : value) : res Z :=
    match v with
    | VArr a => array_hash a
    | VObj o =>
        let* h := hash_method o in
        Ok (shifted (match h with Some z => z | None => h_text H (repr o) end))
    end.

(** [numpy.array_equal]. *)
Fixpoint all_equal (l l' : list Q) : bool :=
  match l, l' with
  | [], [] => true
  | x :: r, y :: t => Qeq_bool x y && all_equal r t
  | _, _ => false
  end.
Definition array_equal (a b : array) : bool :=
  (if list_eq_dec Nat.eq_dec (a_shape a) (a_shape b) then true else false) && all_equal (elems a) (elems b).

(** python_hash_eq.hh 70-114 [PythonEqual]; comparing an array with something else yields an array, which is
    not a truth value. *)
Definition py_equal (x y : value) : res bool :=
  match x, y with
  | VArr a, VArr b => Ok (array_equal a b)
  | VObj o, VObj p =>
      Ok (match eq_method o p with
          | Some b => b
          | None => text_eqb (repr o) (repr p)
          end)
  | _, _ => Err RuntimeError
  end.
End Python.
