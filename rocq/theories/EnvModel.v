(** Model of the stateful side of a domain: memory, reset, step, sample and set_memory
    (skdecide/builders/domain/memory.py, initialization.py, dynamics.py).

    Memories of non-Markovian domains are deques, which the code stores without copying; they are
    therefore modelled as references into a heap.  A call of user code (initial state, transition,
    observation) receives its random draw as an argument and does not touch the memory. *)
From Coq Require Import List Bool Arith.
From Verif Require Import Py.
Import ListNotations.
Set Implicit Arguments.

Section Env.
Context {St A O V I W : Type}.

(** memory.py:13-114: the four classes; [Finite n] is a FiniteHistory whose
    [_get_memory_maxlen_] returns [n]. *)
Inductive mkind := History | Finite (n : nat) | Markovian | Memoryless.

(** memory.py:36-45, 57-82, 93-94, 113-114 *)
Definition maxlen (k : mkind) : option nat :=
  match k with
  | History => None
  | Finite n => Some n
  | Markovian => Some 1
  | Memoryless => Some 0
  end.

(** A deque: its [maxlen] and its content, oldest first. *)
Definition deque : Type := option nat * list St.

Definition truncate (m : option nat) (l : list St) : list St :=
  match m with None => l | Some n => skipn (length l - n) l end.

(** [collections.deque(content, maxlen)] and [deque.append] *)
Definition new_deque (l : list St) (m : option nat) : deque := (m, truncate m l).
Definition append (q : deque) (x : St) : deque := (fst q, truncate (fst q) (snd q ++ [x])).

(** What the attribute [_memory] can hold: nothing, a state, or a reference to a deque. *)
Inductive mem := MNone | MState (s : St) | MRef (r : nat).
(** What user code sees through it. *)
Inductive mview := VNone | VState (s : St) | VSeq (l : list St).

Record outcome := { o_observation : O; o_value : V; o_termination : bool; o_info : I }.

(** The user-supplied part of a domain. *)
Record domain := {
  d_kind : mkind;
  d_state_reset : W -> St;
  d_state_sample : mview -> A -> W -> res (St * V * bool * I);
  d_observe : St -> option A -> W -> O }.

Record env := { heap : list deque; memory : mem }.

(** Dereferencing (a dangling reference cannot exist in Python and is reported as KeyError). *)
Definition view (h : list deque) (m : mem) : res mview :=
  match m with
  | MNone => Ok VNone
  | MState s => Ok (VState s)
  | MRef r => match nth_error h r with Some q => Ok (VSeq (snd q)) | None => Err KeyError end
  end.

(** memory.py:21-34, 90-91, 110-111 [_init_memory(state)] *)
Definition init_memory (k : mkind) (h : list deque) (s : St) : list deque * mem :=
  match k with
  | Markovian => (h, MState s)
  | Memoryless => (h, MNone)
  | _ => (h ++ [new_deque [s] (maxlen k)], MRef (length h))
  end.

(** initialization.py:30-43 [_reset] *)
Definition reset (d : domain) (e : env) (w : W) : env * O :=
  let s := d_state_reset d w in
  let (h, m) := init_memory (d_kind d) (heap e) s in
  ({| heap := h; memory := m |}, d_observe d s None w).

(** dynamics.py:101-103 [_state_step] and 52-83 [_step].  [None == 1] is False and [None > 1] a
    TypeError; appending to something which is not a deque is an AttributeError. *)
Definition step (d : domain) (e : env) (a : A) (w : W) : res (env * outcome) :=
  let* mv := view (heap e) (memory e) in
  let* t := d_state_sample d mv a w in
  let '(next, v, term, inf) := t in
  let o := {| o_observation := d_observe d next (Some a) w; o_value := v;
              o_termination := term; o_info := inf |} in
  match maxlen (d_kind d) with
  | Some 1 => Ok ({| heap := heap e; memory := MState next |}, o)
  | Some n =>
      if Nat.ltb 1 n then
        match memory e with
        | MRef r =>
            match nth_error (heap e) r with
            | Some q => Ok ({| heap := lset (heap e) r (append q next); memory := memory e |}, o)
            | None => Err KeyError
            end
        | _ => Err AttributeError
        end
      else Ok (e, o)
  | None => Err TypeError
  end.

(** dynamics.py:176-202 [_sample] *)
Definition sample (d : domain) (e : env) (m : mem) (a : A) (w : W) : env * res outcome :=
  (e, let* mv := view (heap e) m in
      let* t := d_state_sample d mv a w in
      let '(next, v, term, inf) := t in
      Ok {| o_observation := d_observe d next (Some a) w; o_value := v;
            o_termination := term; o_info := inf |}).

(** dynamics.py:128-148 [_set_memory]: the object itself is stored, not a copy. *)
Definition set_memory (e : env) (m : mem) : env := {| heap := heap e; memory := m |}.

(** The calls a user can make; [ONew] is the creation of a Memory object by the user. *)
Inductive op :=
| OReset (w : W)
| OStep (a : A) (w : W)
| OSample (m : mem) (a : A) (w : W)
| OSetMemory (m : mem)
| ONew (l : list St) (m : option nat).

(** Visible result of a call. *)
Inductive answer := AObs (o : O) | AOut (o : outcome) | AErr (e : py_err) | AUnit.

Definition ans (r : res outcome) : answer := match r with Ok o => AOut o | Err e => AErr e end.

Definition do_op (d : domain) (e : env) (o : op) : env * answer :=
  match o with
  | OReset w => let (e', ob) := reset d e w in (e', AObs ob)
  | OStep a w => match step d e a w with
                 | Ok (e', out) => (e', AOut out)
                 | Err x => (e, AErr x)
                 end
  | OSample m a w => let (e', r) := sample d e m a w in (e', ans r)
  | OSetMemory m => (set_memory e m, AUnit)
  | ONew l m => ({| heap := heap e ++ [new_deque l m]; memory := memory e |}, AUnit)
  end.

Fixpoint run (d : domain) (e : env) (ops : list op) : env * list answer :=
  match ops with
  | [] => (e, [])
  | o :: r => let (e1, a1) := do_op d e o in
              let (e2, l) := run d e1 r in (e2, a1 :: l)
  end.

End Env.
Arguments mem : clear implicits.
Arguments mview : clear implicits.
Arguments env : clear implicits.
Arguments op : clear implicits.
Arguments domain : clear implicits.
Arguments outcome : clear implicits.
