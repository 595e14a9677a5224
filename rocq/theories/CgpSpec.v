(** What Cartesian genetic programming should do, independently of CgpModel's own functions. *)
From Coq Require Import List Bool Arith ZArith QArith.
From Verif Require Import Py CgpModel.
Import ListNotations.
Local Open Scope nat_scope.

Fixpoint all_some {A} (l : list (option A)) : option (list A) :=
  match l with
  | [] => Some []
  | Some x :: r => match all_some r with Some s => Some (x :: s) | None => None end
  | None :: _ => None
  end.

Section Net.
Context {V : Type}.
Variable zero : V.
Variables (ni : nat) (lib : list (cgpfunc V)) (nodes : list cgpnode).

(** The genes of a list of nodes: the function, then the arguments. *)
Definition flat (ns : list cgpnode) : list nat := concat (map (fun n => n_fun n :: n_args n) ns).

(** The nodes an output depends on. *)
Inductive needed (outs : list nat) : nat -> Prop :=
| needed_out : forall p, In (ni + p) outs -> needed outs p
| needed_arg : forall p q n, needed outs q -> nth_error nodes q = Some n -> In (ni + p) (n_args n) -> needed outs p.

(** One synchronous step: the node [p] applied to what [look] gives for its arguments. *)
Definition fire (look : nat -> option V) (g : nat) : option V :=
  match nth_error nodes (g - ni) with
  | Some n => match nth_error lib (n_fun n), all_some (map look (n_args n)) with
              | Some f, Some vs => Some (fn f vs)
              | _, _ => None
              end
  | None => None
  end.

(** The synchronous network: after the inputs [h] (the latest first) the signal of a gene.  An input is
    the latest one; a node reads the latest inputs and the other nodes one step before; at the start a
    node gives zero. *)
Fixpoint signal (h : list (list V)) (g : nat) : option V :=
  match h with
  | [] => if g <? ni then None else Some zero
  | x :: h' => if g <? ni then nth_error x g
               else fire (fun a => if a <? ni then nth_error x a else signal h' a) g
  end.

(** The mathematical value of a gene for an input, as a circuit without delays of at most [d] layers. *)
Fixpoint value (d : nat) (x : list V) (g : nat) : option V :=
  match d with
  | O => None
  | S d' => if g <? ni then nth_error x g
            else fire (fun a => if a <? ni then nth_error x a else value d' x a) g
  end.
End Net.

(** A genome in which every gene is within its range: function genes index the library, the arguments
    of a node are inputs or nodes of an earlier column, the output genes are inputs or nodes. *)
Definition limit (ni cols rows ma nlib : nat) (i : nat) : nat :=
  if i <? cols * rows * (ma + 1) then
    if i mod (ma + 1) =? 0 then nlib else ni + (i / (ma + 1)) / rows * rows
  else ni + cols * rows.
Definition valid_genome (ni no cols rows ma nlib : nat) (g : list nat) : Prop :=
  length g = cols * rows * (ma + 1) + no /\
  forall i v, nth_error g i = Some v -> v < limit ni cols rows ma nlib i.
Definition valid {V} (c : cgp V) : Prop :=
  valid_genome (c_inputs c) (c_outputs c) (c_cols c) (c_rows c) (max_arity (c_library c)) (length (c_library c)) (c_genome c).

(** The same shape. *)
Definition same_shape {V} (c c' : cgp V) : Prop :=
  c_inputs c' = c_inputs c /\ c_outputs c' = c_outputs c /\ c_cols c' = c_cols c /\ c_rows c' = c_rows c /\
  c_library c' = c_library c.
