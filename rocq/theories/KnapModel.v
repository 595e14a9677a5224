(** Knapsack: skdecide/builders/discrete_optimization/knapsack.

    Simplifications: values and weights are exact integers (Python allows floats; the dynamic
    programming solver needs integer weights and capacity anyway); item labels ([Item.index]) are
    naturals; random draws and the clock are arguments; the aggregated fitness put beside the
    solution in the result storage is not modelled here (see the objective model). *)
From Coq Require Import List Bool Arith ZArith QArith.
From Verif Require Import Py PyList.
Import ListNotations.
Open Scope nat_scope.
Open Scope Z_scope.

(** knapsack_model.py:8-11 [Item] *)
Record item := mkItem { it_index : nat; it_value : Z; it_weight : Z }.

(** knapsack_model.py:17-26 [KnapsackSolution]: a mutable object, so functions return its new contents. *)
Record ksol := mkSol { k_value : option Z; k_weight : option Z; k_taken : list Z }.

(** knapsack_model.py:62-72 [KnapsackModel.__init__] *)
Record kmodel := mkModel { m_items : list item; m_cap : Z; m_force : bool }.

Definition nb_items (m : kmodel) : nat := length (m_items m).

(** knapsack_model.py:71 [index_to_index_list]: label to position; the last item wins. *)
Definition index_to_pos (m : kmodel) : list (nat * nat) :=
  fold_left (fun d e => dset d (it_index (snd e)) (fst e)) (combine (seq 0 (nb_items m)) (m_items m)) [].

(** [sum([list_taken[i] * f(list_items[i]) for i in range(nb_items)])] (110-117) *)
Definition weighted (f : item -> Z) (m : kmodel) (s : ksol) : res Z :=
  let* l := mapM (fun i => let* t := lget (k_taken s) i in
                           let* it := lget (m_items m) i in Ok (t * f it)) (seq 0 (nb_items m)) in
  Ok (fold_left Z.add l 0).

(** knapsack_model.py:109-117 [evaluate_value]: stores value and weight, returns the value. *)
Definition evaluate_value (m : kmodel) (s : ksol) : res (Z * ksol) :=
  let* v := weighted it_value m s in
  let* w := weighted it_weight m s in
  let s' := mkSol (Some v) (Some w) (k_taken s) in
  let* v' := weighted it_value m s' in
  Ok (v', s').

(** knapsack_model.py:119-121: [None - capacity] raises TypeError. *)
Definition weight_violation (m : kmodel) (s : ksol) : res Z :=
  match k_weight s with
  | Some w => Ok (Z.max 0 (w - m_cap m))
  | None => Err TypeError
  end.

(** knapsack_model.py:101-107 [evaluate]: the pair is (value, weight_violation). *)
Definition evaluate (m : kmodel) (s : ksol) : res ((Z * Z) * ksol) :=
  let* vs := (match k_value s with
              | Some v => if m_force m then evaluate_value m s else Ok (v, s)
              | None => evaluate_value m s
              end) in
  let* wv := weight_violation m (snd vs) in
  Ok ((fst vs, wv), snd vs).

(** knapsack_model.py:123-126 [satisfy] *)
Definition satisfy (m : kmodel) (s : ksol) : res (bool * ksol) :=
  let* s' := (match k_value s with
              | None => let* r := evaluate m s in Ok (snd r)
              | Some _ => Ok s
              end) in
  match k_weight s' with
  | Some w => Ok (w <=? m_cap m, s')
  | None => Err TypeError
  end.

(** knapsack_model.py:133-136 [get_dummy_solution] *)
Definition dummy (m : kmodel) : res ksol :=
  let* r := evaluate m (mkSol None None (repeat 0 (nb_items m))) in Ok (snd r).

(** knapsack_model.py:160-170 [KnapsackModel_Mobj.evaluate]: the additional entries
    (heaviest_item, weight); 172-177 keeps (value, -heaviest_item). *)
Definition evaluate_mobj (m : kmodel) (s : ksol) : res ((Z * Z) * (Z * Z) * ksol) :=
  let* r := evaluate m s in
  let* hw := foldM (fun hw i =>
                 let* t := lget (k_taken (snd r)) i in
                 if t =? 1 then let* it := lget (m_items m) i in
                                Ok (Z.max (fst hw) (it_weight it), snd hw + it_weight it)
                 else Ok hw) (0, 0) (seq 0 (nb_items m)) in
  Ok (fst r, hw, snd r).

(** * Greedy solvers (solvers/greedy_solvers.py) *)

(** The sorting keys 10 and 17; a zero weight raises ZeroDivisionError. *)
Definition density (it : item) : res Q :=
  if it_weight it =? 0 then Err ZeroDivisionError
  else Ok (inject_Z (it_value it) / inject_Z (it_weight it))%Q.
Definition density_pen (it : item) : res Q :=
  let* d := density it in Ok (d - inject_Z (it_weight it))%Q.

(** greedy_solvers.py:7-19: items that fit alone, by decreasing key; [sorted(reverse=True)] is stable. *)
Definition by_key (key : item -> res Q) (m : kmodel) : res (list item) :=
  let fit := filter (fun it => it_weight it <=? m_cap m) (m_items m) in
  let* ks := mapM (fun it => let* k := key it in Ok (k, it)) fit in
  Ok (map snd (ssort (fun a b => Qle_bool (fst b) (fst a)) ks)).

(** greedy_solvers.py:29-35: one turn; the state is (taken, value, weight). *)
Definition greedy_turn (m : kmodel) (q : list item) (st : list Z * Z * Z) (i : nat) : res (list Z * Z * Z) :=
  let '(taken, v, w) := st in
  let* it := lget q i in
  if it_weight it + w <=? m_cap m then
    let* taken' := lput taken (it_index it) 1 in
    Ok (taken', v + it_value it, w + it_weight it)
  else Ok (taken, v, w).

(** greedy_solvers.py:22-36 [greedy_using_queue] *)
Definition greedy (m : kmodel) (queue : kmodel -> res (list item)) : res ksol :=
  let* q := queue m in
  let* st := foldM (greedy_turn m q) (repeat 0 (nb_items m), 0, 0) (seq 0 (nb_items m)) in
  let '(taken, v, w) := st in
  Ok (mkSol (Some v) (Some w) taken).

(** greedy_solvers.py:39-42 [best_of_greedy] (57: what GreedyBest returns) *)
Definition best_of_greedy (m : kmodel) : res ksol :=
  let* r1 := greedy m (by_key density) in
  let* r2 := greedy m (by_key density_pen) in
  match k_value r1, k_value r2 with
  | Some v1, Some v2 => Ok (if v2 <? v1 then r1 else r2)
  | _, _ => Err TypeError
  end.

(** * Dynamic programming (solvers/dyn_prog_knapsack.py) *)

(** dyn_prog_knapsack.py:36-43: the order in which items are considered, as labels. *)
Definition promising (m : kmodel) (greedy_start : bool) : res (list nat) :=
  if greedy_start then let* l := by_key density m in Ok (map it_index l)
  else Ok (map it_index (m_items m)).

(** 51, 71: the item behind [index_promising[nb_item-1]]. *)
Definition ith_item (m : kmodel) (order : list nat) (i : nat) : res item :=
  let* lab := lget order i in
  let* p := dgetE (index_to_pos m) lab in
  lget (m_items m) p.

(** dyn_prog_knapsack.py:52-59: one row of the table from the previous one.  [self.capacity+1]
    columns; a negative capacity makes [np.zeros] raise (ValueError), see [dp]. *)
Definition next_row (m : kmodel) (row : list Z) (it : item) : res (list Z) :=
  mapM (fun c => let c := Z.of_nat c in
                 if c <? it_weight it then zget row c
                 else let* a := zget row c in
                      let* b := zget row (c - it_weight it) in
                      Ok (Z.max a (b + it_value it))) (seq 0 (Z.to_nat (m_cap m) + 1)).

(** dyn_prog_knapsack.py:47-61: the loop over items; [turns] is the number of turns made (all of
    [max_items - 1], or fewer when the clock runs out).  The state is (rows so far, cur_indexes[0]):
    cur_indexes[1] is the capacity whenever cur_indexes[0] is not zero. *)
Definition dp_turn (m : kmodel) (order : list nat) (st : list (list Z) * nat) (i : nat)
    : res (list (list Z) * nat) :=
  let '(rows, cur) := st in
  let* it := ith_item m order i in
  let* row := lget rows i in
  let* row' := next_row m row it in
  Ok (rows ++ [row'], if it_weight it <=? m_cap m then S i else cur).

(** dyn_prog_knapsack.py:68-79: the state is (taken, value, weight); [k] is cur_indexes[0] and [c]
    is cur_indexes[1]. *)
Fixpoint dp_back (m : kmodel) (order : list nat) (rows : list (list Z)) (k : nat) (c : Z)
    (st : list Z * Z * Z) : res (list Z * Z * Z) :=
  match k with
  | O => Ok st
  | S k' =>
      let* rk := lget rows k in let* cur := zget rk c in
      let* rl := lget rows k' in let* left := zget rl c in
      if cur =? left then dp_back m order rows k' c st
      else
        let* it := ith_item m order k' in
        let '(taken, v, w) := st in
        let* taken' := lput taken (it_index it) 1 in
        dp_back m order rows k' (c - it_weight it) (taken', v + it_value it, w + it_weight it)
  end.

(** dyn_prog_knapsack.py:25-86 [solve].  [max_items]: the option, or None for the default;
    [stop]: the number of turns after which the clock runs out, or None. *)
Definition dp (m : kmodel) (greedy_start : bool) (max_items : option nat) (stop : option nat) : res ksol :=
  if m_cap m <? 0 then Err ValueError
  else
    let* order := promising m greedy_start in
    let mi := match max_items with Some k => Nat.min (nb_items m + 1) k | None => (nb_items m + 1)%nat end in
    let turns := match stop with Some k => Nat.min (mi - 1) k | None => (mi - 1)%nat end in
    let row0 := repeat 0 (Z.to_nat (m_cap m) + 1) in
    let* rc := foldM (dp_turn m order) ([row0], 0%nat) (seq 0 turns) in
    let* st := dp_back m order (fst rc) (snd rc) (m_cap m) (repeat 0 (nb_items m), 0, 0) in
    let '(taken, v, w) := st in
    Ok (mkSol (Some v) (Some w) taken).

(** dyn_prog_knapsack.py:116-118: the row of [solve_np].  [ind] is a list, so [ind != 0] is True and
    the item is counted in every column. *)
Definition next_row_np (m : kmodel) (row : list Z) (it : item) : res (list Z) :=
  mapM (fun c => let c := Z.of_nat c in
                 let* a := zget row c in
                 let* b := zget row (Z.max (c - it_weight it) 0) in
                 Ok (Z.max a (b + it_value it))) (seq 0 (Z.to_nat (m_cap m) + 1)).
Definition dp_turn_np (m : kmodel) (order : list nat) (st : list (list Z) * nat) (i : nat)
    : res (list (list Z) * nat) :=
  let* it := ith_item m order i in
  let* row := lget (fst st) i in
  let* row' := next_row_np m row it in
  Ok (fst st ++ [row'], S i).
(** dyn_prog_knapsack.py:88-143 [solve_np] with the default options. *)
Definition dp_np (m : kmodel) : res ksol :=
  if m_cap m <? 0 then Err ValueError
  else
    let* order := promising m false in
    let row0 := repeat 0 (Z.to_nat (m_cap m) + 1) in
    let* rc := foldM (dp_turn_np m order) ([row0], 0%nat) (seq 0 (nb_items m)) in
    let* st := dp_back m order (fst rc) (snd rc) (m_cap m) (repeat 0 (nb_items m), 0, 0) in
    let '(taken, v, w) := st in
    Ok (mkSol (Some v) (Some w) taken).

(** * Moves (mutation/mutation_knapsack.py) *)

(** mutation_knapsack.py:19-26 [SingleBitFlipMove]: a new solution without cached values. *)
Definition flip1 (i : nat) (s : ksol) : res ksol :=
  let* x := lget (k_taken s) i in
  let* t := lput (k_taken s) i (Z.abs (x - 1)) in
  Ok (mkSol None None t).

(** mutation_knapsack.py:38-55 [KnapsackMutationSingleBitFlip.mutate_and_compute_obj], [i] being the
    random index: (new solution, objectives, old solution afterwards). *)
Definition mutate1 (m : kmodel) (i : nat) (s : ksol) : res (ksol * (Z * Z) * ksol) :=
  let* n := flip1 i s in
  match k_weight s with
  | Some w =>
      let* x := lget (k_taken n) i in
      let* it := lget (m_items m) i in
      match k_value s with
      | None => Err TypeError
      | Some v =>
          let w' := if x =? 0 then w - it_weight it else w + it_weight it in
          let v' := if x =? 0 then v - it_value it else v + it_value it in
          Ok (n, (v', Z.max 0 (w' - m_cap m)), s)
      end
  | None => let* r := evaluate m s in Ok (n, fst r, snd r)
  end.

(** mutation_knapsack.py:71-90 [BitFlipMoveKP.apply_local_move] (in place; undoing is applying again). *)
Definition flips_turn (m : kmodel) (st : list Z * Z * Z) (i : nat) : res (list Z * Z * Z) :=
  let '(l, w, v) := st in
  let* x := lget l i in
  let* l' := lput l i (1 - x) in
  let* y := lget l' i in
  let* it := lget (m_items m) i in
  if y =? 0 then Ok (l', w - it_weight it, v - it_value it)
  else Ok (l', w + it_weight it, v + it_value it).
Definition flips (m : kmodel) (idx : list nat) (s : ksol) : res ksol :=
  let* s1 := (match k_weight s with
              | None => let* r := evaluate m s in Ok (snd r)
              | Some _ => Ok s
              end) in
  match k_weight s1, k_value s1 with
  | Some w, Some v =>
      let* st := foldM (flips_turn m) (k_taken s1, w, v) idx in
      let '(l, w', v') := st in Ok (mkSol (Some v') (Some w') l)
  | _, _ => Err TypeError
  end.

(** mutation_knapsack.py:113-114 and 131: the candidates. *)
Definition not_used (m : kmodel) (s : ksol) : res (list nat) :=
  let* l := mapM (fun i => let* t := lget (k_taken s) i in
                           if t =? 0 then
                             let* it := lget (m_items m) i in
                             match k_weight s with
                             | Some w => Ok (i, w + it_weight it <=? m_cap m)
                             | None => Err TypeError
                             end
                           else Ok (i, false)) (seq 0 (nb_items m)) in
  Ok (map fst (filter snd l)).
Definition used (m : kmodel) (s : ksol) : res (list nat) :=
  let* l := mapM (fun i => let* t := lget (k_taken s) i in Ok (i, t =? 1)) (seq 0 (nb_items m)) in
  Ok (map fst (filter snd l)).

(** The objectives returned with a solution (121-122, 125-127 and so on). *)
Definition cached_obj (m : kmodel) (s : ksol) : res (Z * Z) :=
  match k_value s, k_weight s with
  | Some v, Some w => Ok (v, Z.max 0 (w - m_cap m))
  | _, _ => Err TypeError
  end.

(** mutation_knapsack.py:112-145 [switch_on] and [switch_off].  [pick] is [np.random.choice]: one of
    the candidates.  Result: (solution, flipped indices, objectives); the [LocalMoveDefault] of the
    unchanged solution is an empty list of flips. *)
Definition switched (m : kmodel) (s : ksol) (i : nat) : res (ksol * list nat * (Z * Z)) :=
  let* s' := flips m [i] s in let* o := cached_obj m s' in Ok (s', [i], o).
Definition unchanged (m : kmodel) (s : ksol) : res (ksol * list nat * (Z * Z)) :=
  let* o := cached_obj m s in Ok (s, [], o).
Definition mutate_on (m : kmodel) (pick : list nat -> nat) (s : ksol) : res (ksol * list nat * (Z * Z)) :=
  let* nu := not_used m s in
  match nu with
  | _ :: _ => switched m s (pick nu)
  | [] => let* us := used m s in
          match us with
          | _ :: _ => switched m s (pick us)
          | [] => unchanged m s
          end
  end.
Definition mutate_off (m : kmodel) (pick : list nat -> nat) (s : ksol) : res (ksol * list nat * (Z * Z)) :=
  let* us := used m s in
  match us with
  | _ :: _ => switched m s (pick us)
  | [] => let* nu := not_used m s in
          match nu with
          | _ :: _ => switched m s (pick nu)
          | [] => unchanged m s
          end
  end.

(** mutation_knapsack.py:151-158 [mutate_and_compute_obj]; [on] is [random() < 0.8]. *)
Definition mutate (m : kmodel) (on : bool) (pick : list nat -> nat) (s : ksol)
    : res (ksol * list nat * (Z * Z)) :=
  let* s1 := (match k_weight s with
              | None => let* r := evaluate m s in Ok (snd r)
              | Some _ => Ok s
              end) in
  if on then mutate_on m pick s1 else mutate_off m pick s1.
