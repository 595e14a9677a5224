(** Vehicle routing: skdecide/builders/discrete_optimization/vrp/vrp_model.py.

    - Demands, capacities and distances are exact integers instead of floats; indices are natural numbers.
    - [evaluate_function_indexes] is abstract in the code and a section variable here.
    - A Python set of customers is a list without duplicates; it is only iterated over after sorting or
      to count. *)
From Coq Require Import List Bool Arith ZArith.
From Verif Require Import Py PyList.
Import ListNotations.

(** VrpProblem.__init__: vrp_model.py:62-75; [w_demands] are the demands of [customers]. *)
Record vrp := Vrp {
  w_vehicles : nat; w_caps : list Z; w_count : nat; w_demands : list Z; w_starts : list nat; w_ends : list nat }.
(** VrpSolution.__init__: vrp_model.py:30-43; [x_cache] is (lengths, length, capacities). *)
Record vsolution := VSolution {
  x_starts : list nat; x_ends : list nat; x_paths : list (list nat); x_cache : option (list (list Z) * Z * list Z) }.

Section Vrp.
Variable dist : nat -> nat -> Z.

(** compute_length: vrp_model.py:236-261 *)
Definition compute_length (start end_ : nat) (sol : list nat) (demands : list Z) : res (list Z * Z * Z) :=
  match sol with
  | [] =>
      let obj := dist start end_ in
      let* c := lget demands start in
      if end_ =? start then Ok ([obj], obj, c)
      else let* e := lget demands end_ in Ok ([obj], obj, (c + e)%Z)
  | x :: _ =>
      let obj := dist start x in
      let* c1 := lget demands start in
      let* c2 := lget demands x in
      let* st := foldM (fun st index =>
                   let '(lengths, obj, cap) := st in
                   let* a := lget sol index in
                   let* b := lget sol (index + 1) in
                   let ll := dist a b in
                   let* c := lget demands b in
                   Ok (lengths ++ [ll], (obj + ll)%Z, (cap + c)%Z))
                 ([obj], obj, (c1 + c2)%Z) (seq 0 (length sol - 1)) in
      let '(lengths, obj, cap) := st in
      let ll := dist end_ (last sol 0) in
      let* cap := (if end_ =? start then Ok cap else let* e := lget demands end_ in Ok (cap + e)%Z) in
      Ok (lengths ++ [ll], (obj + ll)%Z, cap)
  end.

(** sequential_computing: vrp_model.py:286-301, without [obj_list], which nobody reads *)
Definition sequential_computing (p : vrp) (x : vsolution) : res (list (list Z) * Z * list Z) :=
  foldM (fun st i =>
    let '(lengths_list, sum_obj, capacity_list) := st in
    let* s := lget (x_starts x) i in
    let* e := lget (x_ends x) i in
    let* path := lget (x_paths x) i in
    let* r := compute_length s e path (w_demands p) in
    let '(lengths, obj, capacity) := r in
    Ok (lengths_list ++ [lengths], (sum_obj + obj)%Z, capacity_list ++ [capacity])) ([], 0%Z, []) (seq 0 (length (x_paths x))).

(** VrpProblem.evaluate: vrp_model.py:86-95; returns the solution with the cache filled, the length and the violation. *)
Definition evaluate (p : vrp) (x : vsolution) : res (vsolution * (Z * Z)) :=
  let* c := match x_cache x with Some c => Ok c | None => sequential_computing p x end in
  let '(lengths, obj, capacities) := c in
  let* v := foldM (fun v i => let* c := lget capacities i in let* k := lget (w_caps p) i in Ok (v + Z.max (c - k) 0)%Z)
                  0%Z (seq 0 (w_vehicles p)) in
  Ok (VSolution (x_starts x) (x_ends x) (x_paths x) (Some c), (obj, v)).

(** VrpProblem.satisfy: vrp_model.py:97-99 *)
Definition satisfy (p : vrp) (x : vsolution) : res bool :=
  let* r := evaluate p x in Ok (snd (snd r) =? 0)%Z.

(** The depots: vrp_model.py:169-182 (and 210-223); the state is (remaining capacities, remaining customers). *)
Definition depot_step (p : vrp) (st : list Z * list nat) (v : nat) : res (list Z * list nat) :=
  let* s := lget (w_starts p) v in
  let* e := lget (w_ends p) v in
  let* ds := lget (w_demands p) s in
  let* r := lget (fst st) v in
  let* room := lput (fst st) v (r - ds)%Z in
  let* room := (if e =? s then Ok room
                else let* de := lget (w_demands p) e in let* r := lget room v in lput room v (r - de)%Z) in
  Ok (room, pyremove e (pyremove s (snd st))).
Definition depots (p : vrp) : res (list Z * list nat) :=
  let* room := mapM (lget (w_caps p)) (seq 0 (w_vehicles p)) in
  foldM (depot_step p) (room, seq 0 (w_count p)) (seq 0 (w_vehicles p)).

(** [order]: vrp_model.py:188-189 *)
Definition order_of (p : vrp) (remaining : list nat) : res (list nat) :=
  let* ks := mapM (fun x => let* d := lget (w_demands p) x in Ok ((- d * Z.of_nat (w_count p) + Z.of_nat x)%Z, x)) remaining in
  Ok (map snd (ssort (fun a b : Z * nat => (fst a <=? fst b)%Z) ks)).
(** [for customer in order]: vrp_model.py:190-195; the state is (remaining capacity, customers added). *)
Definition take_step (p : vrp) (st : Z * list nat) (c : nat) : res (Z * list nat) :=
  let* d := lget (w_demands p) c in
  if (d <=? fst st)%Z then Ok ((fst st - d)%Z, snd st ++ [c]) else Ok st.
(** The loop of one vehicle: vrp_model.py:185-196; the state is (remaining capacity, tour, remaining customers). *)
Fixpoint fill_vehicle (fuel : nat) (p : vrp) (room : Z) (tour : list nat) (remaining : list nat)
  : res (Z * list nat * list nat) :=
  let* ok := mapM (fun c => let* d := lget (w_demands p) c in Ok (d <=? room)%Z) remaining in
  if existsb (fun b => b) ok then
    match fuel with
    | 0 => Err OutOfFuel
    | S fuel =>
        let* order := order_of p remaining in
        let* st := foldM (take_step p) (room, []) order in
        fill_vehicle fuel p (fst st) (tour ++ snd st) (filter (fun c => negb (pymem c (snd st))) remaining)
    end
  else Ok (room, tour, remaining).
(** trivial_solution: vrp_model.py:165-203, before the evaluation *)
Definition vehicle_step (p : vrp) (st : list Z * list (list nat) * list nat) (v : nat)
  : res (list Z * list (list nat) * list nat) :=
  let '(room, tours, remaining) := st in
  let* r := lget room v in
  let* f := fill_vehicle (length remaining) p r [] remaining in
  let '(r', tour, remaining') := f in
  let* room' := lput room v r' in
  Ok (room', tours ++ [tour], remaining').
Definition trivial_solution (p : vrp) : res vsolution :=
  let* d := depots p in
  let* st := foldM (vehicle_step p) (fst d, [], snd d) (seq 0 (w_vehicles p)) in
  Ok (VSolution (w_starts p) (w_ends p) (snd (fst st)) None).
(** stupid_solution: vrp_model.py:206-233 *)
Definition stupid_solution (p : vrp) : res vsolution :=
  let* d := depots p in
  let* tours := lput (repeat [] (w_vehicles p)) 0 (ssort Nat.leb (snd d)) in
  Ok (VSolution (w_starts p) (w_ends p) tours None).
End Vrp.
