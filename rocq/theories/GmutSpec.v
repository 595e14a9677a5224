(** What the generic mutations should do, without reference to how they do it. *)
From Coq Require Import String List ZArith QArith Bool Arith.
From Verif Require Import Py PyList SgsModel.
Import ListNotations.
Local Open Scope nat_scope.

(** The entry [i] is hit: its number is at most the probability. *)
Definition hit (p : Q) (draws : list Q) (i : nat) : Prop := exists u, nth_error draws i = Some u /\ (u <= p)%Q.

(** [l'] is [l] with the bits at the positions [P] inverted. *)
Definition inverted (P : nat -> Prop) (l l' : list Z) : Prop :=
  length l' = length l /\
  forall i x, nth_error l i = Some x ->
    (P i -> nth_error l' i = Some (1 - x)%Z) /\ (~ P i -> nth_error l' i = Some x).

(** The sum of the first weights. *)
Fixpoint upto (w : list Q) (i : nat) : Q :=
  match w, i with
  | x :: r, S j => (x + upto r j)%Q
  | _, _ => 0%Q
  end.

(** The objectives of the project [p] for a permutation and modes: the schedule made from them, its
    last task by number, and a function of it. *)
Definition worth (reserve : option rcpsp -> list nat -> schedule -> option bool -> res Q)
  (p : rcpsp) (perm modes : list nat) (f : list (string * Q)) : Prop :=
  exists modes' sch flag last s e r,
    serial_sgs p perm modes = Ok (modes', (sch, flag)) /\
    dget sch last = Some (s, e) /\ (forall a, In a (dkeys sch) -> a <= last) /\
    reserve (Some p) modes' sch (Some flag) = Ok r /\
    f = [("makespan"%string, inject_Z e); ("mean_resource_reserve"%string, r)].
