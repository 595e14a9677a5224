(** What the clients of parallel domains may expect: each domain answers its jobs one after the other. *)
From Coq Require Import String.
From Coq Require Import List Bool Arith.
From Verif Require Import Py ParModel.
Import ListNotations.
Open Scope nat_scope.
Set Implicit Arguments.

Section Spec.
Variables A V D : Type.
Variable none : V.
Variable work : D -> job A -> D * outcome V.

(** The jobs sent to domain [i] and the values got back from it, in order. *)
Definition launched (i : nat) (tr : list (event A V)) : list (job A) :=
  flat_map (fun e => match e with ELaunch _ k b => if k =? i then [b] else [] | _ => [] end) tr.
Definition returned (i : nat) (tr : list (event A V)) : list V :=
  flat_map (fun e => match e with EReturn _ k v => if k =? i then [v] else [] | _ => [] end) tr.

(** A sequential domain given the jobs in that order; a job that raises gives [None]. *)
Definition value (o : outcome V) : V := match o with Val v => v | Exn _ => none end.
Fixpoint answers (d : D) (js : list (job A)) : list V :=
  match js with
  | [] => []
  | b :: r => value (snd (work d b)) :: answers (fst (work d b)) r
  end.
(** The domain afterwards. *)
Definition after (d : D) (js : list (job A)) : D := fold_left (fun d b => fst (work d b)) js d.
(** What a job does: a method or a lambda on the arguments given; a lambda that is not there raises. *)
Definition perform (meth : D -> string -> list A -> D * outcome V) (lams : list (D -> list A -> D * outcome V))
  (d : D) (b : job A) : D * outcome V :=
  let (f, args) := b in
  match f with
  | Method name => meth d name args
  | Lambda k => nth k (map (fun l => l d args) lams) (d, Exn "list index out of range"%string)
  end.
(** No domain is used by two threads. *)
Definition exclusive (may : nat -> nat -> Prop) : Prop := forall t t' i, may t i -> may t' i -> t = t'.
End Spec.
