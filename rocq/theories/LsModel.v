(** Local search: hill climbing, simulated annealing and the restart handlers.
    builders/discrete_optimization/generic_tools/ls/hill_climber.py, simulated_annealing.py, local_search.py.
    Solutions are mutable objects: the memory is the list of the contents of all solution objects, an object is
    its position in it, and nothing is ever freed.  Objects are compared by identity (this is what Python does for
    every solution class of the package except KnapsackSolution and RCPSPSolution, which compare by content).
    The mutation is arbitrary: it may write in the object it is given or create new ones.  Objectives are
    integers (floats without NaN).  Printing and pickling are left out. *)
From Coq Require Import List Bool Arith ZArith.
From Verif Require Import Py PyList StoreModel.
Import ListNotations.

Section Ls.
Variable C : Type.                 (* contents of a solution *)
Variable value : C -> Z.           (* evaluator and aggregation: aggreg_from_solution *)
Definition memory := list C.

(** [mutate k mem a]: the k-th call of the mutator on object [a] gives the new memory, the object [nv] and the
    objective that [mutate_and_compute_obj] announces for it. *)
Variable mutate : nat -> memory -> nat -> res (memory * nat * Z).
(** [undo k mem nv prev]: [backtrack_local_move(nv)] of the k-th move, made from object [prev]. *)
Variable undo : nat -> memory -> nat -> nat -> res (memory * nat).

Definition copy (mem : memory) (a : nat) : res (memory * nat) :=
  let* c := lget mem a in Ok (mem ++ [c], length mem).

(** local_search.py 12-60 (RestartHandler, RestartHandlerLimit); [h_limit = None] is the base class. *)
Record handler := mkHandler {
  h_limit : option nat;        (* nb_iteration_no_improvement *)
  h_no_local : nat; h_no_global : nat;
  h_best_fit : Z; h_best : option nat }.

(** local_search.py 25-39 [update] *)
Definition h_update (mem : memory) (h : handler) (nv : nat) (fit : Z) (glob loc : bool) : res (memory * handler) :=
  let nl := if loc then 0 else S (h_no_local h) in
  if glob then
    let* r := copy mem nv in let '(mem, a) := r in Ok (mem, mkHandler (h_limit h) nl 0 fit (Some a))
  else Ok (mem, mkHandler (h_limit h) nl (S (h_no_global h)) (h_best_fit h) (h_best h)).
(** local_search.py 41-42 and 52-60 [restart] *)
Definition h_restart (mem : memory) (h : handler) (cur : nat) (obj : Z) : res (memory * handler * nat * Z) :=
  match h_limit h with
  | None => Ok (mem, h, cur, obj)
  | Some n =>
    if (n <? h_no_global h) || (n <? h_no_local h) then
      match h_best h with
      | None => Err AttributeError
      | Some b => let* r := copy mem b in let '(mem, a) := r in
                  Ok (mem, mkHandler (Some n) 0 0 (h_best_fit h) (Some b), a, h_best_fit h)
      end
    else Ok (mem, h, cur, obj)
  end.

Record state := mkState {
  mem : memory; cur : nat; cur_obj : Z; best_obj : Z; best_var : nat; st_store : store nat; hd : handler;
  met : list (C * Z)           (* not in the code: the contents evaluated so far and their objectives *) }.

Variable mx : bool.                (* mode_optim == MAXIMIZATION *)
Variable and_evaluate : bool.      (* mode_mutation == MUTATE_AND_EVALUATE *)
Variable store_solution : bool.
(** SimulatedAnnealing instead of HillClimber: worse solutions may be accepted, copies are stored. *)
Variable annealing : bool.
Variable accept_worse : nat -> Z -> Z -> bool.   (* p > r, simulated_annealing.py 87-91 *)

(** hill_climber.py 37-53, simulated_annealing.py 50-66; [h] is the handler given to the constructor.  The
    storage is created without [mode_optim], hence for maximisation. *)
Definition start (m : memory) (init_var : nat) (h : handler) : res state :=
  let* c := lget m init_var in
  let obj := value c in
  let* r := copy m init_var in let '(m, cv) := r in
  let* r := copy m init_var in let '(m, b0) := r in
  let* st := init [(init_var, obj)] (Some b0) true true (if store_solution then 1000 else 1) in
  let* r := copy m init_var in let '(m, bv) := r in
  Ok (mkState m cv obj obj bv st (mkHandler (h_limit h) (h_no_local h) (h_no_global h) obj (h_best h)) [(c, obj)]).

(** the object stored: hill_climber.py 79 and 86, simulated_annealing.py 102 and 110 *)
Definition stored (m : memory) (a : nat) : res (memory * nat) := if annealing then copy m a else Ok (m, a).

(** One turn of the loop: hill_climber.py 56-94, simulated_annealing.py 69-120. *)
Definition step (k : nat) (s : state) : res state :=
  let* r := mutate k (mem s) (cur s) in let '(m, nv, announced) := r in
  let* c := lget m nv in
  let obj := if and_evaluate then announced else value c in
  let loc := better mx obj (cur_obj s) in
  let glob := loc && better mx obj (best_obj s) in
  let accept := loc || (annealing && accept_worse k obj (cur_obj s)) in
  let cobj := if accept then obj else cur_obj s in
  let* r := (if accept then Ok (m, nv) else undo k m nv (cur s)) in let '(m, cv) := r in
  let* r := (if store_solution
                    then let* r := stored m nv in let '(m, a) := r in let* st := add (st_store s) a obj in Ok (m, st)
                    else Ok (m, st_store s)) in let '(m, st) := r in
  let* r := (if glob then
       let* r := copy m cv in let '(m, b) := r in
       if store_solution then Ok (m, obj, b, st)
       else let* r := stored m cv in let '(m, a) := r in let* st := add st a obj in Ok (m, obj, b, st)
     else Ok (m, best_obj s, best_var s, st)) in let '(m, bobj, bvar, st) := r in
  let* r := h_update m (hd s) nv obj glob loc in let '(m, h) := r in
  let* r := h_restart m h cv cobj in let '(m, h, cv, cobj) := r in
  Ok (mkState m cv cobj bobj bvar st h (met s ++ [(c, obj)])).

(** The loop, [n] iterations starting from iteration [k]. *)
Fixpoint loop (n k : nat) (s : state) : res state :=
  match n with 0 => Ok s | S n => let* s := step k s in loop n (S k) s end.
(** [solve]: the storage returned (with the memory); [finalize] only sorts the heap of scores. *)
Definition solve (m : memory) (init_var : nat) (h : handler) (n : nat) : res state :=
  let* s := start m init_var h in loop n 0 s.
End Ls.
Arguments mem {C}. Arguments cur {C}. Arguments cur_obj {C}. Arguments best_obj {C}. Arguments best_var {C}.
Arguments st_store {C}. Arguments hd {C}. Arguments met {C}.
