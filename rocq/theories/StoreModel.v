(** Result storage and Pareto front.
    builders/discrete_optimization/generic_tools/result_storage/result_storage.py, multiobj_utils.py.
    Solutions are keys (compared with their Python equality).  Scalar fitnesses are integers (floats
    without NaN, which are totally ordered).  The heap, of which the code only uses the contents, is the
    ascending list of its contents. *)
From Coq Require Import List Bool Arith ZArith.
From Verif Require Import Py PyList.
Import ListNotations.

(** Python's [max(l, key=...)] and [min(l, key=...)] on pairs, with the comparison [better new old] ([>] for
    max, [<] for min): the first of the best; ValueError when there is none. *)
Definition pick {A F} (better : F -> F -> bool) (l : list (A * F)) : res (A * F) :=
  match l with
  | [] => Err ValueError
  | x :: r => Ok (fold_left (fun b y => if better (snd y) (snd b) then y else b) r x)
  end.

Section Store.
Context {Sol : Type} {ES : PyEq Sol}.

Record store := mkStore {
  fits : list (Sol * Z);       (* list_solution_fits *)
  best : option Sol;           (* best_solution *)
  maximize : bool;
  size_heap : nat;
  heap : list Z;
  limit_store : bool;
  nb_best : nat;               (* nb_best_score *)
  smap : list (Sol * Z);       (* map_solutions *)
  fmin : option Z;             (* min and max: absent until the heap is non-empty *)
  fmax : option Z }.

Definition better (mx : bool) (a b : Z) : bool := if mx then Z.ltb b a else Z.ltb a b.
Definition hpush (h : list Z) (f : Z) : list Z := sinsert Z.leb f h.
(** heappushpop: the smallest leaves. *)
Definition hpushpop (h : list Z) (f : Z) : list Z := tl (hpush h f).

(** result_storage.py 34-38 *)
Definition init_turn (s : list (Sol * Z) * list Z * nat) (p : Sol * Z) : list (Sol * Z) * list Z * nat :=
  let '(m, h, n) := s in
  if dmem m (fst p) then s else (dset m (fst p) (snd p), hpush h (snd p), S n).
(** result_storage.py 18-49 [__init__] *)
Definition init (l : list (Sol * Z)) (b : option Sol) (mx limit : bool) (nb : nat) : res store :=
  let '(m, h, n) := fold_left init_turn l ([], [], 0) in
  let '(h, n) := if (nb <=? n) && limit
                 then (if mx then skipn (length h - nb) h else firstn nb h, nb) else (h, n) in
  match h with
  | [] => Ok (mkStore l b mx n h limit nb m None None)
  | x :: r =>
    let mn := fold_left Z.min r x in
    let mxx := fold_left Z.max r x in
    match b with
    | Some _ => Ok (mkStore l b mx n h limit nb m (Some mn) (Some mxx))
    | None => let* p := pick (better mx) l in
              Ok (mkStore l (Some (fst p)) mx n h limit nb m (Some mn) (Some mxx))
    end
  end.

(** result_storage.py 51-69 [add_solution]; reading [self.max] or [self.min] before they exist raises. *)
Definition add (st : store) (s : Sol) (f : Z) : res store :=
  let new := negb (dmem (smap st) s) in
  let m := if new then dset (smap st) s f else smap st in
  let l := if new then fits st ++ [(s, f)] else fits st in
  match fmin st, fmax st with
  | Some mn, Some mx =>
    let b := if better (maximize st) f (if maximize st then mx else mn) then Some s else best st in
    if (if maximize st then Z.leb mn f else Z.leb f mx) then
      if (nb_best st <=? size_heap st) && limit_store st
      then Ok (mkStore l b (maximize st) (size_heap st) (hpushpop (heap st) f) (limit_store st) (nb_best st) m
                       (Some (Z.min f mn)) (Some (Z.max f mx)))
      else Ok (mkStore l b (maximize st) (S (size_heap st)) (hpush (heap st) f) (limit_store st) (nb_best st) m
                       (Some (Z.min f mn)) (Some (Z.max f mx)))
    else Ok (mkStore l b (maximize st) (size_heap st) (heap st) (limit_store st) (nb_best st) m (Some mn) (Some mx))
  | _, _ => Err AttributeError
  end.
Definition adds (st : store) (l : list (Sol * Z)) : res store := foldM (fun st p => add st (fst p) (snd p)) st l.

(** result_storage.py 71-72 [finalize]: what the heap becomes. *)
Definition final_heap (st : store) : list Z := if maximize st then rev (heap st) else heap st.

(** result_storage.py 74-76 [get_best_solution_fit] *)
Definition best_fit (st : store) : res (Sol * Z) := pick (better (maximize st)) (fits st).
(** result_storage.py 102-106 [get_best_solution]; [None] on an empty store. *)
Definition best_sol (st : store) : res (option Sol) :=
  match fits st with
  | [] => Ok None
  | _ => let* p := best_fit st in Ok (Some (fst p))
  end.
(** result_storage.py 78-84 [get_last_best_solution] *)
Definition last_best (st : store) : res (Sol * Z) :=
  let* b := best_fit st in
  let is := filter (fun i => match nth_error (fits st) i with Some p => Z.eqb (snd p) (snd b) | None => false end)
                   (seq 0 (length (fits st))) in
  match is with
  | [] => Err ValueError
  | i :: r => lget (fits st) (fold_left Nat.max r i)
  end.
(** result_storage.py 86-92 [get_random_best_solution]; [c] is the position drawn among the best. *)
Definition random_best (st : store) (c : nat) : res (Sol * Z) :=
  let* b := best_fit st in
  let is := filter (fun i => match nth_error (fits st) i with Some p => Z.eqb (snd p) (snd b) | None => false end)
                   (seq 0 (length (fits st))) in
  let* i := lget is c in lget (fits st) i.
(** result_storage.py 94-100 [get_random_solution]; [c] is the position drawn among the candidates. *)
Definition random_sol (st : store) (c : nat) : res (Sol * Z) :=
  match fits st with
  | [] => lget (fits st) c     (* the comprehension is empty, random.choice raises IndexError *)
  | _ => let* b := best_fit st in
         let s := filter (fun p => negb (Z.eqb (snd p) (snd b))) (fits st) in
         match s with [] => lget (fits st) c | _ => lget s c end
  end.

(** result_storage.py 114-132 [remove_duplicate_solutions]; [vec] is the attribute compared, entry by entry over the length of
    the first. *)
Fixpoint all_similar (a b : list Z) : res bool :=
  match a, b with
  | [], _ => Ok true
  | _ :: _, [] => Err IndexError
  | x :: a, y :: b => if Z.eqb x y then all_similar a b else Ok false
  end.
Variable vec : Sol -> list Z.
Definition dup_pair (l : list (Sol * Z)) (i : nat) (rm : list nat) (j : nat) : res (list nat) :=
  let* p := lget l i in
  let* q := lget l j in
  let* b := all_similar (vec (fst p)) (vec (fst q)) in
  Ok (if b then (if existsb (Nat.eqb j) rm then rm else rm ++ [j]) else rm).
Definition dup_row (l : list (Sol * Z)) (rm : list nat) (i : nat) : res (list nat) :=
  foldM (dup_pair l i) rm (seq (S i) (length l - S i)).
Definition remove_duplicates (l : list (Sol * Z)) : res (list (Sol * Z)) :=
  let* rm := foldM (dup_row l) [] (seq 0 (length l - 1)) in
  mapM (lget l) (filter (fun i => negb (existsb (Nat.eqb i) rm)) (seq 0 (length l))).

(** * Vector fitness (multiobj_utils.py) and Pareto front *)

(** multiobj_utils.py 26-32: [<] and [>]; both vectors have the same size. *)
Definition tlt (a b : list Z) : bool :=
  forallb (fun p => Z.leb (fst p) (snd p)) (combine a b) && existsb (fun p => Z.ltb (fst p) (snd p)) (combine a b).
Definition tgt (a b : list Z) : bool :=
  forallb (fun p => Z.leb (snd p) (fst p)) (combine a b) && existsb (fun p => Z.ltb (snd p) (fst p)) (combine a b).
(** multiobj_utils.py 17-24 *)
Definition teq (a b : list Z) : bool := negb (tlt a b) && negb (tgt a b).
Definition tle (a b : list Z) : bool := tlt a b || teq a b.
Definition tge (a b : list Z) : bool := tgt a b || teq a b.

(** result_storage.py 172-195 [add_point] *)
Definition add_point (mx : bool) (front : list (Sol * list Z)) (p : Sol * list Z) : list (Sol * list Z) :=
  if mx then
    if forallb (fun t => tge (snd p) (snd t)) front
    then filter (fun q => negb (tlt (snd q) (snd p))) (front ++ [p]) else front
  else
    if forallb (fun t => tle (snd p) (snd t)) front
    then filter (fun q => negb (tgt (snd q) (snd p))) (front ++ [p]) else front.

(** The part of a ParetoFront that determines its front: the stored pairs, the keys of the map, whether
    [min] and [max] exist (the storage was created with a solution), and the front. *)
Record pareto := mkPareto { p_fits : list (Sol * list Z); p_keys : list Sol; p_max : bool; p_started : bool;
                            p_front : list (Sol * list Z) }.
(** result_storage.py 51-69 with 167-169: the parts that matter to the front *)
Definition p_add (pf : pareto) (p : Sol * list Z) : res pareto :=
  let new := negb (pymem (fst p) (p_keys pf)) in
  let pf' := mkPareto (if new then p_fits pf ++ [p] else p_fits pf) (if new then p_keys pf ++ [fst p] else p_keys pf)
                      (p_max pf) (p_started pf) (p_front pf) in
  if p_started pf then Ok pf' else Err AttributeError.
Definition p_adds (pf : pareto) (l : list (Sol * list Z)) : res pareto := foldM p_add pf l.
(** result_storage.py 151-165, for a positive [nb_best_store]; the constructor adds every listed solution,
    all of which are in the map already, and does not fill the front. *)
Definition p_init (l : list (Sol * list Z)) (mx : bool) : res pareto :=
  p_adds (mkPareto l (pyset (map fst l)) mx (match l with [] => false | _ => true end) []) l.
(** result_storage.py 200-208 [finalize] *)
Definition p_finalize (pf : pareto) : pareto :=
  mkPareto (p_fits pf) (p_keys pf) (p_max pf) (p_started pf) (fold_left (add_point (p_max pf)) (p_fits pf) []).
(** result_storage.py 210-217 [compute_extreme_points] *)
Definition zbetter (mx : bool) (a b : Z) : bool := if mx then Z.ltb b a else Z.ltb a b.
Definition extreme (pf : pareto) (i : nat) : res (Sol * list Z) :=
  let* keyed := mapM (fun p => let* v := lget (snd p) i in Ok (p, v)) (p_front pf) in
  let* b := pick (zbetter (p_max pf)) keyed in Ok (fst b).
Definition extreme_points (pf : pareto) : res (list (Sol * list Z)) :=
  let* p := lget (p_fits pf) 0 in mapM (extreme pf) (seq 0 (length (snd p))).

(** result_storage.py 74-84, with vector fitnesses: [get_best_solution_fit] and [get_last_best_solution]. *)
Definition p_best_fit (pf : pareto) : res (Sol * list Z) :=
  pick (fun a b => if p_max pf then tgt a b else tlt a b) (p_fits pf).
Definition p_last_best (pf : pareto) : res (Sol * list Z) :=
  let* b := p_best_fit pf in
  let is := filter (fun i => match nth_error (p_fits pf) i with Some p => teq (snd p) (snd b) | None => false end)
                   (seq 0 (length (p_fits pf))) in
  match is with
  | [] => Err ValueError
  | i :: r => lget (p_fits pf) (fold_left Nat.max r i)
  end.

End Store.
Arguments store Sol : clear implicits.
Arguments pareto Sol : clear implicits.
