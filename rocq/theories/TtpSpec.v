(** What the travelling thief pays and earns, said over the tour, the places where items are taken and
    the data of the problem. *)
From Coq Require Import List Bool Arith ZArith QArith.
From Verif Require Import Py PyList TtpModel.
Import ListNotations.
Open Scope nat_scope.

Section Spec.
Variable root : Z -> Q.
Variable p : ttp.

(** The sum of [f] over the items taken in one of the cities [cs]. *)
Definition taken (f : item -> Z) (z : list Z) (cs : list nat) : Z :=
  sumZ (map (fun x : Z * item => if existsb (fun c => (Z.of_nat c =? fst x)%Z) cs then f (snd x) else 0%Z)
            (combine z (t_items p))).
(** The distance between two cities. *)
Definition far (a b : nat) : Q :=
  let x := nth a (t_nodes p) (0, 0)%Z in
  let y := nth b (t_nodes p) (0, 0)%Z in
  root ((fst x - fst y) ^ 2 + (snd x - snd y) ^ 2)%Z.
(** The speed under a load. *)
Definition pace (w : Z) : Q := (t_max_speed p - inject_Z w * (t_max_speed p - t_min_speed p) / t_capacity p)%Q.

Definition total (n : nat) (f : nat -> Q) : Q := fold_right Qplus 0%Q (map f (seq 0 n)).
Definition city (tour : list nat) (i : nat) : nat := nth i tour 0.
Definition legs (tour : list nat) : nat := length tour - 1.

(** The load when leaving the [i]-th city: what was taken in it and in those before. *)
Definition load (z : list Z) (tour : list nat) (i : nat) : Z := taken it_weight z (firstn (S i) tour).
Definition length_of (tour : list nat) : Q := total (legs tour) (fun i => far (city tour i) (city tour (S i))).
Definition duration (z : list Z) (tour : list nat) : Q :=
  total (legs tour) (fun i => (far (city tour i) (city tour (S i)) / pace (load z tour i))%Q).

(** A tour that comes back where it started and meets no other city twice. *)
Definition round_trip (tour : list nat) : Prop := exists c rest, tour = c :: rest ++ [c] /\ NoDup (c :: rest).
Definition inside (tour : list nat) (z : list Z) : Prop :=
  (forall c, In c tour -> c < length (t_nodes p)) /\ length z <= length (t_items p).
(** Positive speeds, no negative weight, room in the knapsack for what is taken. *)
Definition sensible (z : list Z) (tour : list nat) : Prop :=
  (0 < t_min_speed p)%Q /\ (t_min_speed p <= t_max_speed p)%Q /\ (0 < t_capacity p)%Q /\
  (forall it, In it (t_items p) -> (0 <= it_weight it)%Z) /\
  (inject_Z (taken it_weight z tour) <= t_capacity p)%Q.
End Spec.
