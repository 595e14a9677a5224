(** Large neighbourhood search.
    builders/discrete_optimization/generic_tools/lns_cp.py (LNS_CP.solve_lns) and lns_mip.py
    (LNS_MILP.solve_lns).
    The solver, the constraint handler, the post-processing, [problem.satisfy] and the clock are
    parameters: they get the number of the round and the store they see, and may raise.  They are
    assumed not to change the store they are given.  Stores are those of StoreModel.v; printing is
    left out. *)
From Coq Require Import List Bool Arith ZArith.
From Verif Require Import Py PyList StoreModel.
Import ListNotations.

Section Lns.
Context {Sol : Type} {ES : PyEq Sol}.
Notation store := (@store Sol).

(** [add_solution] (result_storage.py 51-69) as a change of the store: when it raises, the map and the
    list have been extended already.  The boolean tells whether it returned. *)
Definition add_mut (st : store) (s : Sol) (f : Z) : store * bool :=
  match add st s f with
  | Ok st' => (st', true)
  | Err _ =>
      (if dmem (smap st) s then st
       else mkStore (fits st ++ [(s, f)]) (best st) (maximize st) (size_heap st) (heap st) (limit_store st) (nb_best st)
              (dset (smap st) s f) (fmin st) (fmax st), false)
  end.

(** lns_cp.py 125-126, lns_mip.py 120-121: [for s, f in result_store.list_solution_fits:
    store_lns.add_solution(...)], two different stores. *)
Fixpoint add_all (st : store) (l : list (Sol * Z)) : store * bool :=
  match l with
  | [] => (st, true)
  | (s, f) :: l => let (st', b) := add_mut st s f in if b then add_all st' l else (st', false)
  end.

(** The same when both names stand for the same store (lns_cp.py 123-124, lns_mip.py 118-119): the list may grow while it is read. *)
Fixpoint add_self (fuel i : nat) (st : store) : res (store * bool) :=
  match fuel with
  | 0 => Err OutOfFuel
  | S fuel =>
      match nth_error (fits st) i with
      | None => Ok (st, true)
      | Some (s, f) => let (st', b) := add_mut st s f in if b then add_self fuel (S i) st' else Ok (st', false)
      end
  end.
Definition add_itself (st : store) : res (store * bool) := add_self (2 * length (fits st) + 1) 0 st.

(** * LNS_CP *)

(** The variables of the loop.  [best_solution] and [best_objective] change together; [None] is the
    infinity of line 74, worse than any fitness. *)
Record lns := Lns { l_store : option store; l_best : option (Sol * Z); l_quiet : nat }.

(** lns_cp.py 105-122: [mx] tells whether the sense is MAXIMIZATION. *)
Definition take (mx : bool) (p : Sol * Z) (g : lns) : lns :=
  match l_best g with
  | None => Lns (l_store g) (Some p) 0
  | Some (_, o) =>
      if better mx (snd p) o then Lns (l_store g) (Some p) 0
      else if (snd p =? o)%Z then Lns (l_store g) (Some p) (S (l_quiet g))
      else Lns (l_store g) (l_best g) (S (l_quiet g))
  end.

Section CP.
Variables (mx skip : bool) (nb limit : nat).
Variable start : res store.                          (* initial_solution_provider.get_starting_solution *)
Variable handler : nat -> option store -> res unit.   (* constraint_handler.adding_constraint_from_results_store *)
Variable solve : nat -> option store -> res store.    (* child.solve and cp_solver.retrieve_solutions *)
Variable post : nat -> store -> res store.            (* post_process_solution.build_other_solution *)
Variable satisfy : Sol -> res bool.                  (* problem.satisfy *)
Variable late : nat -> bool.                         (* time.time() - deb_time > max_time_seconds *)

(** lns_cp.py 123-126: the found solutions enter the store; [None] has no [add_solution]. *)
Definition enter (it : nat) (g : lns) (r : store) : res (lns * bool) :=
  if skip && (it =? 0) then
    let* sb := add_itself r in Ok (Lns (Some (fst sb)) (l_best g) (l_quiet g), snd sb)
  else
    match l_store g, fits r with
    | _, [] => Ok (g, true)
    | None, _ => Ok (g, false)
    | Some st, l => let (st', b) := add_all st l in Ok (Lns (Some st') (l_best g) (l_quiet g), b)
    end.

(** lns_cp.py 87-129, the body of [try]; the boolean tells that nothing was raised. *)
Definition attempt (it : nat) (g : lns) : res (lns * bool) :=
  match solve it (l_store g) with
  | Err _ => Ok (g, false)
  | Ok r =>
      match fits r with
      | [] => Ok (Lns (l_store g) (l_best g) (S (l_quiet g)), true)
      | _ =>
          match post it r with
          | Err _ => Ok (g, false)
          | Ok r' =>
              match best_fit r' with
              | Err _ => Ok (g, false)
              | Ok p =>
                  let* gb := enter it (take mx p g) r' in
                  if snd gb then
                    match l_best (fst gb) with
                    | None => Ok gb
                    | Some (s, _) => match satisfy s with Ok _ => Ok gb | Err _ => Ok (fst gb, false) end
                    end
                  else Ok gb
              end
          end
      end
  end.

(** lns_cp.py 81-132: one round; what the constraint handler raises is not caught. *)
Definition lns_round (it : nat) (g : lns) : res lns :=
  let* _ := if skip && (it =? 0) then Ok tt else handler it (l_store g) in
  let* gb := attempt it g in
  Ok (if snd gb then fst gb else Lns (l_store (fst gb)) (l_best (fst gb)) (S (l_quiet (fst gb)))).

(** lns_cp.py 78-139 *)
Fixpoint lns_rounds (n it : nat) (g : lns) : res lns :=
  match n with
  | 0 => Ok g
  | S n => let* g' := lns_round it g in
           if late it then Ok g' else if limit <? l_quiet g' then Ok g' else lns_rounds n (S it) g'
  end.

(** LNS_CP.solve_lns: 51-151.  [limit] is [nb_iteration_no_improvement]. *)
Definition solve_lns_cp : res (option store) :=
  let* g0 := if skip then Ok (Lns None None 0) else
             let* st := start in
             let* p := best_fit st in
             let* _ := satisfy (fst p) in
             Ok (Lns (Some st) (Some p) 0) in
  let* g := lns_rounds nb 0 g0 in
  Ok (l_store g).
End CP.

(** lns_cp.py 61-62, lns_mip.py 77-78 *)
Definition limit_of (nb : nat) (limit : option nat) : nat :=
  match limit with Some l => l | None => 2 * nb end.

(** * LNS_MILP *)

(** lns_mip.py 104-117; [None] is [float('inf')] (line 90) whatever the sense.  Nothing is counted when the fitness
    is worse. *)
Definition take_milp (mx : bool) (p : Sol * Z) (g : lns) : lns :=
  match l_best g with
  | None => if mx then g else Lns (l_store g) (Some p) 0
  | Some (_, o) =>
      if better mx (snd p) o then Lns (l_store g) (Some p) 0
      else if (snd p =? o)%Z then Lns (l_store g) (Some p) (S (l_quiet g))
      else g
  end.

Section MILP.
Context {C : Type}.
Variables (mx skip : bool) (nb limit : nat).
Variable start : res store.
Variable adding : nat -> store -> res C.              (* adding_constraint_from_results_store; 0 before the rounds *)
Variable removing : nat -> option C -> res unit.      (* remove_constraints_from_previous_iteration *)
Variable solve : nat -> option C -> res store.        (* milp_solver.solve; [None] without added constraints *)
Variable post : nat -> store -> res store.
Variable late : nat -> bool.

(** lns_mip.py 118-121; the second store is [result_store] afterwards. *)
Definition enter_milp (it : nat) (g : lns) (r : store) : res (lns * store) :=
  if skip && (it =? 0) then
    let* sb := add_itself r in
    if snd sb then Ok (Lns (Some (fst sb)) (l_best g) (l_quiet g), fst sb) else Err AttributeError
  else
    match l_store g, fits r with
    | _, [] => Ok (g, r)
    | None, _ => Err AttributeError
    | Some st, l => let (st', b) := add_all st l in
                    if b then Ok (Lns (Some st') (l_best g) (l_quiet g), r) else Err AttributeError
    end.

(** lns_mip.py 95-129: one round; nothing is caught. *)
Definition milp_round (it : nat) (g : lns) (c : option C) : res (lns * option C) :=
  let* r := solve it c in
  let* _ := best_fit r in
  let* r' := post it r in
  let* p := best_fit r' in
  let* gr := enter_milp it (take_milp mx p g) r' in
  let* _ := removing it c in
  let* c' := adding (S it) (snd gr) in
  Ok (fst gr, Some c').

(** lns_mip.py 94-135 *)
Fixpoint milp_rounds (n it : nat) (g : lns) (c : option C) : res lns :=
  match n with
  | 0 => Ok g
  | S n => let* gc := milp_round it g c in
           if late it then Ok (fst gc) else if limit <? l_quiet (fst gc) then Ok (fst gc)
           else milp_rounds n (S it) (fst gc) (snd gc)
  end.

(** LNS_MILP.solve_lns: 67-136 *)
Definition solve_lns_milp : res (option store) :=
  let* gc := if skip then Ok (Lns None None 0, None) else
             let* st := start in
             let* p := best_fit st in
             let* c := adding 0 st in
             Ok (Lns (Some st) (Some p) 0, Some c) in
  let* g := milp_rounds nb 0 (fst gc) (snd gc) in
  Ok (l_store g).
End MILP.
End Lns.
