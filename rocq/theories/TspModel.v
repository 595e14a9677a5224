(** Travelling salesman.
    builders/discrete_optimization/tsp/tsp_model.py and tsp/mutation/mutation_tsp.py.
    Distances are integers ([len], an arbitrary function of two points): the floats the code adds are
    multiples of a common power of two; rounding of the sums is not modelled.  Points are an arbitrary
    type.  Indices are naturals (negative indices other than [-1] are not used by the code).  Solutions
    are values: two solutions sharing a list through [lazy_copy] are not modelled. *)
From Coq Require Import List Bool Arith ZArith.
From Verif Require Import Py PyList.
Import ListNotations.

(** Floats: finite, or [float('inf')]. *)
Inductive num := Fin (z : Z) | Inf.
Definition num_add (a b : num) : num :=
  match a, b with Fin x, Fin y => Fin (x + y) | _, _ => Inf end.
Definition num_lt (a b : num) : bool :=
  match a, b with Fin x, Fin y => Z.ltb x y | Fin _, Inf => true | Inf, _ => false end.

Section Tsp.
Context {P : Type}.
(** 236-237 [length(point1, point2)] *)
Variable len : P -> P -> Z.

(** TSPModel 94-117.  [t_numba]: which evaluation TSPModel2D was built with (210-224). *)
Record tsp := mkTsp { t_pts : list P; t_n : nat; t_start : nat; t_end : nat; t_numba : bool }.

(** 105, 110-111: [ind_in_permutation] and [original_indices_to_permutation_indices] are the same list. *)
Definition inner (t : tsp) (i : nat) : bool := negb (i =? t_start t) && negb (i =? t_end t).
Definition ind_in_permutation (t : tsp) : list nat := filter (inner t) (seq 0 (t_n t)).
(** 106 *)
Definition length_permutation (t : tsp) : nat := length (ind_in_permutation t).
(** 112-117 *)
Definition indices_turn (t : tsp) (s : list (nat * nat) * nat) (i : nat) : list (nat * nat) * nat :=
  if inner t i then (dset (fst s) i (snd s), S (snd s)) else s.
Definition indices_dict (t : tsp) : list (nat * nat) :=
  fst (fold_left (indices_turn t) (seq 0 (t_n t)) ([], 0)).

(** 172-174 *)
Definition convert_from0 (t : tsp) (l : list nat) : res (list nat) := mapM (lget (ind_in_permutation t)) l.
(** 176-180 *)
Definition convert_to0 (t : tsp) (perm : list nat) : res (list nat) := mapM (dgetE (indices_dict t)) perm.

(** 231-232 [evaluate_function_indexes] *)
Definition dist (t : tsp) (a b : nat) : res Z :=
  let* p := lget (t_pts t) a in
  let* q := lget (t_pts t) b in
  Ok (len p q).

(** [l[-1]] *)
Definition last_of {B : Type} (l : list B) : res B := lget (rev l) 0.

(** 240-254 [compute_length] *)
Definition length_turn (t : tsp) (sol : list nat) (s : list Z * Z) (index : nat) : res (list Z * Z) :=
  let* a := lget sol index in
  let* b := lget sol (index + 1) in
  let* ll := dist t a b in
  Ok (fst s ++ [ll], (snd s + ll)%Z).
Definition compute_length (t : tsp) (sol : list nat) : res (list Z * Z) :=
  let* s0 := lget sol 0 in
  let* obj := dist t (t_start t) s0 in
  let* r := foldM (length_turn t sol) ([obj], obj) (seq 0 (length_permutation t - 1)) in
  let* sl := last_of sol in
  let* l := dist t (t_end t) sl in
  Ok (fst r ++ [l], (snd r + l)%Z).

(** 258-277 [compute_length_np]; out-of-range accesses, which compiled code does not check, are errors. *)
Definition length_np_turn (t : tsp) (sol : list nat) (s : list Z * Z) (index : nat) : res (list Z * Z) :=
  let* a := lget sol index in
  let* b := lget sol (index + 1) in
  let* ll := dist t a b in
  let* ls := lput (fst s) index ll in
  Ok (ls, (snd s + ll)%Z).
Definition compute_length_np (t : tsp) (sol : list nat) : res (list Z * Z) :=
  let* s0 := lget sol 0 in
  let* obj := dist t (t_start t) s0 in
  let* ls := lput (repeat 0%Z (t_n t)) 0 obj in
  let* r := foldM (length_np_turn t sol) (ls, obj) (seq 0 (length_permutation t - 1)) in
  let* sl := last_of sol in
  let* l := dist t (t_end t) sl in
  let* ls := lput (fst r) (t_n t - 1) l in
  Ok (ls, (snd r + l)%Z).

(** SolutionTSP 14-83 *)
Record sol := mkSol { s_start : nat; s_end : nat; s_perm : list nat; s_from0 : list nat;
                      s_lengths : option (list Z); s_length : option num }.

(** 148-152 [evaluate] with 226-228; the updated solution and the length. *)
Definition evaluate (t : tsp) (s : sol) : res (sol * Z) :=
  let* r := if t_numba t then compute_length_np t (s_perm s) else compute_length t (s_perm s) in
  Ok (mkSol (s_start s) (s_end s) (s_perm s) (s_from0 s) (Some (fst r)) (Some (Fin (snd r))), snd r).

(** 22-53 *)
Definition new_solution (t : tsp) (start end_ : option nat) (perm : option (list nat))
    (lengths : option (list Z)) (length : option num) (from0 : option (list nat)) : res sol :=
  match perm, from0 with
  | None, None => Err AssertionError
  | _, _ =>
    let st := match start with Some x => x | None => t_start t end in
    let en := match end_ with Some x => x | None => t_end t end in
    let* p := match perm, from0 with
              | Some p, _ => Ok p
              | None, Some f => convert_from0 t f
              | None, None => Err TypeError
              end in
    let* f := match from0 with Some f => Ok f | None => convert_to0 t p end in
    let s := mkSol st en p f lengths length in
    match length with
    | Some _ => Ok s
    | None => let* r := evaluate t s in Ok (fst r)
    end
  end.

(** 155-158: the value when the test holds is Python's None. *)
Definition satisfy (t : tsp) (s : sol) : res (option bool) :=
  let* a := lget (s_perm s) 0 in
  if a =? t_start t
  then let* b := last_of (s_perm s) in
       if b =? t_end t then Ok None else Ok (Some false)
  else Ok (Some false).

(** 160-167 *)
Definition dummy (t : tsp) : res sol :=
  let* s := new_solution t (Some (t_start t)) (Some (t_end t)) (Some (ind_in_permutation t)) None None None in
  let* r := evaluate t s in Ok (fst r).

(** 131-146 [evaluate_from_encoding], for the encodings 'permutation_from0' ([true]) and 'permutation'. *)
Definition evaluate_from_encoding (t : tsp) (v : list nat) (from0 : bool) : res Z :=
  let* p := if from0 then convert_from0 t v else Ok v in
  let* s := new_solution t (Some (t_start t)) (Some (t_end t)) (Some p) None None None in
  let* r := evaluate t s in Ok (snd r).

(** * mutation_tsp.py *)

(** 44-56 and 98-112 [get_points_index] *)
Definition points_index (t : tsp) (it jt : nat) (s : sol) : res (nat * nat * nat * nat) :=
  let* i := lget (s_perm s) it in
  let* j := lget (s_perm s) jt in
  let* ib := if it =? 0 then Ok (s_start s) else lget (s_perm s) (it - 1) in
  let* ja := if S jt =? length_permutation t then Ok (s_end s) else lget (s_perm s) (jt + 1) in
  Ok (ib, i, j, ja).

(** 66-80 [Mutation2Opt.__init__]: the number of tests kept; [min(None, ...)] raises. *)
Definition nb_test_of (t : tsp) (nb : option nat) : res nat :=
  match nb with Some n => Ok (Nat.min n (t_n t - 1)) | None => Err TypeError end.

(** 134-137, 216-219 *)
Definition change_of (t : tsp) (s : sol) (i j : nat) : res Z :=
  let* q := points_index t i j s in
  let '(ib, i_, j_, ja) := q in
  let* a := dist t ib j_ in
  let* b := dist t ib i_ in
  let* c := dist t j_ ja in
  let* e := dist t i_ ja in
  Ok (a - b - c + e)%Z.

(** 142-145: the loop state is [it, jt, min_change]. *)
Definition try_pair (t : tsp) (s : sol) (i : nat) (b : nat * nat * num) (j : nat) : res (nat * nat * num) :=
  let* c := change_of t s i j in
  if num_lt (Fin c) (snd b) then Ok (i, j, Fin c) else Ok b.
(** 121-145; [jts i] is the sample of positions drawn for [i]. *)
Definition try_row (t : tsp) (s : sol) (jts : nat -> list nat) (b : nat * nat * num) (i : nat) : res (nat * nat * num) :=
  foldM (try_pair t s i) b (if S i =? length_permutation t then [] else jts i).

(** 146-157: what is built from the chosen pair. *)
Definition reversed (t : tsp) (s : sol) (it jt : nat) : res (list nat * list Z) :=
  let* q := points_index t it jt s in
  let '(ib, i_, j_, ja) := q in
  let p := s_perm s in
  let permut := firstn it p ++ rev (firstn (S jt - it) (skipn it p)) ++ skipn (S jt) p in
  match s_lengths s with
  | None => Err TypeError
  | Some ls =>
    let l0 := if 0 <? it then firstn it ls else [] in
    let* a := dist t ib j_ in
    let l1 := rev (firstn (jt - it) (skipn (S it) ls)) in
    let* b := dist t i_ ja in
    let l2 := if S jt <? length_permutation t then skipn (jt + 2) ls else [] in
    Ok (permut, l0 ++ [a] ++ l1 ++ [b] ++ l2)
  end.

Definition length_of (s : sol) : res num :=
  match s_length s with Some x => Ok x | None => Err TypeError end.

(** 114-175 [mutate_and_compute_obj]; [it0], [jt0], [its], [jts] are the random draws.
    Returns the solution and its reported length; [only]: [return_only_improvement]. *)
Definition two_opt (t : tsp) (only : bool) (s : sol) (it0 jt0 : nat) (its : list nat) (jts : nat -> list nat)
    : res (sol * num) :=
  let* _ := points_index t it0 jt0 s in
  let* b := foldM (try_row t s jts) (it0, jt0, Inf) its in
  let '(it, jt, min_change) := b in
  let* l := length_of s in
  let fitness := num_add l min_change in
  let* r := reversed t s it jt in
  if num_lt min_change (Fin 0) || negb only
  then let* v := new_solution t (Some (s_start s)) (Some (s_end s)) (Some (fst r)) (Some (snd r)) (Some fitness) None in
       Ok (v, fitness)
  else Ok (s, l).
(** 118-126 with [test_all]: every position, every later position. *)
Definition all_its (t : tsp) : list nat := seq 0 (length_permutation t).
Definition all_jts (t : tsp) (i : nat) : list nat := seq (S i) (length_permutation t - S i).

(** 205-258 [Mutation2OptIntersection.mutate_and_compute_obj]; [pairs]: the result of [find_intersection].
    The tail of the lengths is not copied (no counterpart of 156-157). *)
Definition reversed_cut (t : tsp) (s : sol) (it jt : nat) : res (list nat * list Z) :=
  let* q := points_index t it jt s in
  let '(ib, i_, j_, ja) := q in
  let p := s_perm s in
  let permut := firstn it p ++ rev (firstn (S jt - it) (skipn it p)) ++ skipn (S jt) p in
  match s_lengths s with
  | None => Err TypeError
  | Some ls =>
    let l0 := if 0 <? it then firstn it ls else [] in
    let* a := dist t ib j_ in
    let l1 := rev (firstn (jt - it) (skipn (S it) ls)) in
    let* b := dist t i_ ja in
    Ok (permut, l0 ++ [a] ++ l1 ++ [b])
  end.
Definition try_intersection (t : tsp) (s : sol) (b : nat * nat * num) (p : nat * nat) : res (nat * nat * num) :=
  try_pair t s (fst p) b (snd p).
Definition two_opt_intersection (t : tsp) (only : bool) (s : sol) (pairs : list (nat * nat)) : res (sol * num) :=
  let* l := length_of s in
  match pairs with
  | [] => Ok (s, l)
  | (i0, j0) :: _ =>
    let* b := foldM (try_intersection t s) (i0, j0, Inf) pairs in
    let '(it, jt, min_change) := b in
    let fitness := num_add l min_change in
    let* r := reversed_cut t s it jt in
    if num_lt min_change (Fin 0) || negb only
    then let* v := new_solution t (Some (s_start s)) (Some (s_end s)) (Some (fst r)) (Some (snd r)) (Some fitness) None in
         Ok (v, fitness)
    else Ok (s, l)
  end.

(** 270-290 [SwapTSPMove.apply_local_move] on the attribute "permutation" (308); 292-293 backtracking is
    the same. *)
Definition swap_move (t : tsp) (i1 i2 : nat) (s : sol) : res sol :=
  let* v1 := lget (s_perm s) i1 in
  let* v2 := lget (s_perm s) i2 in
  let* c := lput (s_perm s) i1 v2 in
  let* c := lput c i2 v1 in
  let* q := points_index t i1 i2 (mkSol (s_start s) (s_end s) c (s_from0 s) (s_lengths s) (s_length s)) in
  let '(ib, _, _, ja) := q in
  match s_lengths s with
  | None => Err TypeError
  | Some ls =>
    let* p1 := lget ls i1 in
    let* p2 := lget ls (i1 + 1) in
    let* p3 := lget ls i2 in
    let* p4 := lget ls (i2 + 1) in
    let* a := lget c i1 in
    let* a1 := lget c (i1 + 1) in
    let* b0 := lget c (i2 - 1) in
    let* b := lget c i2 in
    let* d1 := dist t ib a in let* ls := lput ls i1 d1 in
    let* d2 := dist t a a1 in let* ls := lput ls (i1 + 1) d2 in
    let* d3 := dist t b0 b in let* ls := lput ls i2 d3 in
    let* d4 := dist t b ja in let* ls := lput ls (i2 + 1) d4 in
    let* n1 := lget ls i1 in
    let* n2 := lget ls (i1 + 1) in
    let* n3 := lget ls i2 in
    let* n4 := lget ls (i2 + 1) in
    let* l := length_of s in
    Ok (mkSol (s_start s) (s_end s) c (s_from0 s) (Some ls)
              (Some (num_add l (Fin (n1 + n2 + n3 + n4 - (p1 + p2 + p3 + p4))%Z))))
  end.

(** A run of mutations on a solution. *)
Inductive step := Swap (i j : nat) | TwoOpt (only : bool) (it0 jt0 : nat) (its : list nat) (jts : nat -> list nat).
Definition do_step (t : tsp) (s : sol) (c : step) : res sol :=
  match c with
  | Swap i j => swap_move t i j s
  | TwoOpt only it0 jt0 its jts => let* r := two_opt t only s it0 jt0 its jts in Ok (fst r)
  end.
Definition run_steps (t : tsp) (s : sol) (cs : list step) : res sol := foldM (do_step t) s cs.

End Tsp.
