(** Model of the travelling thief problem.
    skdecide/builders/discrete_optimization/ttp/ttp_model.py:9-36 (TTPSolution), 42-120 (TTPModel),
    131-229 (the compiled evaluation functions).

    Floating-point numbers are rationals here, and [math.sqrt] is the oracle [root] (its results are
    floats, never the exact root).  The compiled code does not check array bounds; here an index outside
    an array gives [Err IndexError], and the theorems speak of indices inside.  Division by zero raises
    in the compiled code (numba's default error model) as it does in Python. *)
From Coq Require Import String.
From Coq Require Import List Bool Arith ZArith QArith.
From Verif Require Import Py PyList.
Import ListNotations.
Open Scope nat_scope.

(** One row of items_array: [index, profit, weight, node_index] (ttp_parser.py:89-105). *)
Record item := Item { it_profit : Z; it_weight : Z; it_city : nat }.

(** TTPModel.__init__: ttp_model.py:66-97, with the data that the evaluation functions receive
    (134-152).  [av] only feeds a loop without effect (174-176 and 214-216): it is left out. *)
Record ttp := Ttp {
  t_nodes : list (Z * Z);
  t_items : list item;
  t_capacity : Q;
  t_min_speed : Q;
  t_max_speed : Q;
  t_rent : Q
}.

(** TTPSolution: ttp_model.py:9-28; [packing[j]] is the city where item [j] is taken, [-1] for none.
    A city of the tour is a row number of nodes_array.  [weight_array] is kept by [evaluate_details]. *)
Record tsol := Tsol {
  s_tour : list nat;
  s_packing : list Z;
  s_time : Q;
  s_distance : Q;
  s_profit : Z;
  s_weight_used : Z;
  s_weight_end : Q;
  s_objective : Q;
  s_weight_array : list Z
}.

Section Eval.
Variable root : Z -> Q.
Variable p : ttp.

(** [selectedItem = [j for j in range(len(z)) if z[j]==tour[i]]]: ttp_model.py:170 and 210. *)
Definition selected (z : list Z) (c : nat) : list nat :=
  filter (fun j => match nth_error z j with Some x => (x =? Z.of_nat c)%Z | None => false end)
         (seq 0 (length z)).

(** The loop over the selected items: ttp_model.py:177-180 and 217-220. *)
Definition load_item (wp : Z * Z) (j : nat) : res (Z * Z) :=
  let* it := lget (t_items p) j in
  Ok (fst wp + it_weight it, snd wp + it_profit it)%Z.

(** [distance_i]: ttp_model.py:181-182 and 222-223. *)
Definition leg (a b : nat) : res Q :=
  let* x := lget (t_nodes p) a in
  let* y := lget (t_nodes p) b in
  Ok (root ((fst x - fst y) ^ 2 + (snd x - snd y) ^ 2)%Z).

(** A division of floats: ttp_model.py:184 and 225. *)
Definition fdiv (a b : Q) : res Q := if Qeq_bool b 0 then Err ZeroDivisionError else Ok (a / b)%Q.

(** wc, profit, distance_tour, time_trip *)
Record acc := Acc { a_wc : Z; a_profit : Z; a_distance : Q; a_time : Q }.

(** One turn of the loop of [evaluate]: ttp_model.py:169-184. *)
Definition turn (z : list Z) (st : acc) (ab : nat * nat) : res acc :=
  let* wp := foldM load_item (a_wc st, a_profit st) (selected z (fst ab)) in
  let* d := leg (fst ab) (snd ab) in
  let* slow := fdiv (inject_Z (fst wp) * (t_max_speed p - t_min_speed p))%Q (t_capacity p) in
  let* dt := fdiv d (t_max_speed p - slow)%Q in
  Ok (Acc (fst wp) (snd wp) (a_distance st + d)%Q (a_time st + dt)%Q).

(** [evaluate]: ttp_model.py:154-188; [None] is the bare [return] of an open tour. *)
Definition evaluate_function (tour : list nat) (z : list Z) : res (option acc) :=
  match tour with
  | [] => Err IndexError
  | c :: _ =>
      if negb (c =? last tour c) then Ok None else
      let* st := foldM (turn z) (Acc 0 0 0 0) (combine tour (tl tour)) in
      Ok (Some st)
  end.

(** One turn of the loop of [evaluate_with_details]: ttp_model.py:209-225; weight_array is written
    position after position. *)
Definition turn_details (z : list Z) (st : acc * list Z) (ab : nat * nat) : res (acc * list Z) :=
  let* wp := foldM load_item (a_wc (fst st), a_profit (fst st)) (selected z (fst ab)) in
  let* d := leg (fst ab) (snd ab) in
  let* slow := fdiv (inject_Z (fst wp) * (t_max_speed p - t_min_speed p))%Q (t_capacity p) in
  let* dt := fdiv d (t_max_speed p - slow)%Q in
  Ok (Acc (fst wp) (snd wp) (a_distance (fst st) + d)%Q (a_time (fst st) + dt)%Q, snd st ++ [fst wp]).

(** [evaluate_with_details]: ttp_model.py:192-229. *)
Definition evaluate_function_details (tour : list nat) (z : list Z) : res (option (acc * list Z)) :=
  match tour with
  | [] => Err IndexError
  | c :: _ =>
      if negb (c =? last tour c) then Ok None else
      let* st := foldM (turn_details z) (Acc 0 0 0 0, []) (combine tour (tl tour)) in
      Ok (Some st)
  end.

(** The end of both functions: ttp_model.py:185-188 and 226-229. *)
Definition objective (st : acc) : Q := (inject_Z (a_profit st) - a_time st * t_rent p)%Q.
Definition weight_end (st : acc) : Q := (t_capacity p - inject_Z (a_wc st))%Q.

(** TTPModel.evaluate: ttp_model.py:99-108; unpacking the [None] of an open tour is a TypeError.  The
    fields of the solution are overwritten. *)
Definition evaluate (s : tsol) : res (list (string * Q) * tsol) :=
  let* o := evaluate_function (s_tour s) (s_packing s) in
  match o with
  | None => Err TypeError
  | Some st =>
      let s' := Tsol (s_tour s) (s_packing s) (a_time st) (a_distance st) (a_profit st) (a_wc st)
                     (weight_end st) (objective st) (s_weight_array s) in
      Ok ([("obj"%string, s_objective s')], s')
  end.

(** TTPModel.evaluate_details: ttp_model.py:110-120. *)
Definition evaluate_details (s : tsol) : res (Q * tsol) :=
  let* o := evaluate_function_details (s_tour s) (s_packing s) in
  match o with
  | None => Err TypeError
  | Some (st, ws) =>
      let s' := Tsol (s_tour s) (s_packing s) (a_time st) (a_distance st) (a_profit st) (a_wc st)
                     (weight_end st) (objective st) ws in
      Ok (s_objective s', s')
  end.

(** TTPModel.satisfy: ttp_model.py:43-45. *)
Definition satisfy (s : tsol) : bool := true.

(** TTPModel.get_attribute_register: ttp_model.py:47-54: a tour is declared as a permutation of the
    row numbers. *)
Definition register : nat * list nat := (length (t_nodes p), seq 0 (length (t_nodes p))).
End Eval.

(** TTPSolution as built from a tour and a packing: ttp_model.py:10-21. *)
Definition fresh (tour : list nat) (z : list Z) : tsol := Tsol tour z 0 0 0 0 0 0 [].
