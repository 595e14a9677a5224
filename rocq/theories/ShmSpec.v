(** What is expected of shared-memory domains, without registers. *)
From Coq Require Import String.
From Coq Require Import List Bool Arith.
From Verif Require Import ShmModel.
Import ListNotations.
Open Scope nat_scope.
Set Implicit Arguments.

(** A declaration: types, numbers of registers, numbers of arrays. *)
Definition declaration := list (string * nat * nat).
(** Each type is declared once, with at least one array. *)
Definition proper (reg : declaration) : Prop :=
  NoDup (map (fun r => fst (fst r)) reg) /\ (forall T c sz, In (T, c, sz) reg -> 0 < sz).

Section Values.
Variables V C : Type.
Variable typ : V -> string.
Variable enc : V -> list C -> list C.
Variable dec : string -> list C -> V.

Definition count (T : string) (l : list V) : nat := length (filter (fun v => String.eqb (typ v) T) l).

(** There are registers enough for the values. *)
Definition fits (reg : declaration) (l : list V) : Prop :=
  forall v, In v l -> exists c sz, In (typ v, c, sz) reg /\ count (typ v) l <= c.

(** The types met several times take one array. *)
Definition slim (reg : declaration) (l : list V) : Prop :=
  forall T c sz, 1 < count T l -> In (T, c, sz) reg -> sz = 1.

(** The proxy: encoding fills the arrays it is given, decoding gives the value back. *)
Definition lawful (reg : declaration) : Prop :=
  (forall v old, length (enc v old) = length old) /\
  (forall v c sz old, In (typ v, c, sz) reg -> length old = sz -> dec (typ v) (enc v old) = v).

Variable is_none : V -> bool.
(** The values of an outcome that are sent back, and what the client makes of them. *)
Definition sent (o : outcome V) : list V :=
  match o with
  | One v => if is_none v then [] else [v]
  | Many (v :: r) => if is_none v then [] else v :: r
  | _ => []
  end.
Definition reply (l : list V) : answer V :=
  match l with [] => Nothing V | [v] => Value v | _ => Values l end.
End Values.
