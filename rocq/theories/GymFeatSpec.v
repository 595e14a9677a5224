(** What the feature encoders are meant to compute, as functions of the values seen before. *)
From Coq Require Import String.
From Coq Require Import List Bool Arith ZArith.
Import ListNotations.
From Verif Require Import Py GymFeatModel.

(** The element [e] belongs to the space [sp] (gym's [contains], up to the values of Box cells). *)
Fixpoint fits {C} (sp : gspace) (e : gelem C) {struct sp} : Prop :=
  match sp with
  | GBox n => match e with EArr cs => length cs = n | _ => False end
  | GDiscrete n => match e with EInt z => (0 <= z < n)%Z | _ => False end
  | GMultiDiscrete nvec =>
      match e with EInts l => Forall2 (fun n z => (0 <= z < n)%Z) nvec l | _ => False end
  | GMultiBinary n =>
      match e with EInts l => length l = n /\ Forall (fun z => z = 0 \/ z = 1)%Z l | _ => False end
  | GTuple sps =>
      match e with
      | ETuple es =>
          (fix all (sps : list gspace) (es : list (gelem C)) : Prop :=
             match sps, es with
             | [], [] => True
             | s :: r, x :: t => fits s x /\ all r t
             | _, _ => False
             end) sps es
      | _ => False
      end
  | GDict kvs =>
      match e with
      | EDict es =>
          (fix all (kvs : list (string * gspace)) (es : list (string * gelem C)) : Prop :=
             match kvs, es with
             | [], [] => True
             | (k, s) :: r, (k', x) :: t => k = k' /\ fits s x /\ all r t
             | _, _ => False
             end) kvs es
      | _ => False
      end
  | GOther => False
  end.

(** Spaces made of Boxes and (nested) tuples of them only. *)
Fixpoint boxes (sp : gspace) : Prop :=
  match sp with
  | GBox _ => True
  | GTuple l => (fix all (l : list gspace) : Prop :=
                   match l with [] => True | s :: r => boxes s /\ all r end) l
  | _ => False
  end.

(** Spaces with no dictionary inside. *)
Fixpoint no_dict (sp : gspace) : Prop :=
  match sp with
  | GTuple l => (fix all (l : list gspace) : Prop :=
                   match l with [] => True | s :: r => no_dict s /\ all r end) l
  | GDict _ => False
  | _ => True
  end.

(** All the cells of an observation, in order. *)
Fixpoint cells {C} (e : gelem C) : list C :=
  match e with
  | EArr cs => cs
  | ETuple l => flat_map cells l
  | EDict l => flat_map (fun p => cells (snd p)) l
  | _ => []
  end.

(** ** BEE1 *)

(** The values of [l] that exceed [top] and every value before them. *)
Fixpoint records (top : Z) (l : list Z) : list Z :=
  match l with
  | [] => []
  | x :: r => if (top <? x)%Z then x :: records x r else records top r
  end.

(** … and the other ones. *)
Fixpoint others (top : Z) (l : list Z) : list Z :=
  match l with
  | [] => []
  | x :: r => if (top <? x)%Z then others x r else x :: others top r
  end.

(** How many of [rs] are below [v], and the largest of them (0 if none). *)
Definition rank (rs : list Z) (v : Z) : nat := length (filter (fun r => r <? v)%Z rs).
Definition base (rs : list Z) (v : Z) : Z := fold_right Z.max 0%Z (filter (fun r => r <? v)%Z rs).

(** The earlier values that fell, without being a record, in the band starting at [b]; as distances
    from [b]. *)
Definition inside (b : Z) (h : list Z) : list Z :=
  map (fun w => w - b)%Z
      (filter (fun w => base (records 0 h) w =? b)%Z (others 0 h)).

(** The increments reported for a positive distance [v] when the positive distances [h] were seen
    before: the number of the band of [v] between successive records, then the same inside the band
    measured from its start; a new record gets zeros at the finer levels. *)
Fixpoint code1 (f : nat) (h : list Z) (v : Z) : list Z :=
  match f with
  | 0 => []
  | S f' =>
      let rs := records 0 h in
      Z.of_nat (S (rank rs v)) ::
      (if forallb (fun r => r <? v)%Z rs then repeat 0%Z f'
       else code1 f' (inside (base rs v) h) (v - base rs v))
  end.

(** Distances above and below the reference. *)
Definition above (x0 : Z) (h : list Z) : list Z :=
  filter (fun d => 0 <? d)%Z (map (fun x => x - x0)%Z h).
Definition below (x0 : Z) (h : list Z) : list Z :=
  filter (fun d => 0 <? d)%Z (map (fun x => x0 - x)%Z h).

(** The BEE1 features of one variable of value [x]: [x0] its value in the first state, [h] its values
    in the states seen before. *)
Definition bee1_spec (f : nat) (x0 : Z) (h : list Z) (x : Z) : list Z :=
  if (x0 <? x)%Z then code1 f (above x0 h) (x - x0)
  else if (x <? x0)%Z then map Z.opp (code1 f (below x0 h) (x0 - x))
  else repeat 0%Z f.

(** ** BEE2 *)

(** The bands opened by the values of [l] that leave [lo, hi]. *)
Fixpoint bands_from (lo hi : Z) (l : list Z) : list (Z * Z) :=
  match l with
  | [] => []
  | x :: r => if (x <? lo)%Z then (x, lo) :: bands_from x hi r
              else if (hi <? x)%Z then (hi, x) :: bands_from lo x r
              else bands_from lo hi r
  end.
Definition bands (h : list Z) : list (Z * Z) :=
  match h with [] => [] | x :: r => (x, x) :: bands_from x x r end.

(** The values of [l] that do not leave the range seen so far. *)
Fixpoint within_from (lo hi : Z) (l : list Z) : list Z :=
  match l with
  | [] => []
  | x :: r => if (x <? lo)%Z then within_from x hi r
              else if (hi <? x)%Z then within_from lo x r
              else x :: within_from lo hi r
  end.
Definition within (h : list Z) : list Z :=
  match h with [] => [] | x :: r => within_from x x r end.

(** The number of the first band containing [x] (the number of bands if there is none). *)
Fixpoint band_of (bs : list (Z * Z)) (x : Z) : nat :=
  match bs with
  | [] => 0
  | (a, b) :: r => if (a <=? x)%Z && (x <=? b)%Z then 0 else S (band_of r x)
  end.

(** The BEE2 features of the value [x] of one variable, [h] being its values seen before. *)
Fixpoint code2 (level : nat) (h : list Z) (x : Z) : list Z :=
  if forallb (fun w => x <? w)%Z h || forallb (fun w => w <? x)%Z h
  then Z.of_nat (length (bands h)) :: repeat (-1)%Z level
  else let k := band_of (bands h) x in
       Z.of_nat k ::
       match level with
       | 0 => []
       | S level' => code2 level' (filter (fun w => band_of (bands h) w =? k) (within h)) x
       end.

(** The values of the [i]-th variable in a list of states. *)
Definition column (i : nat) (states : list (list Z)) : list Z := map (fun s => nth i s 0%Z) states.

(** The value of a cell that is not NaN, and those of a whole observation. *)
Definition val (c : num) : Z := match c with Num z => z | NaN => 0%Z end.
Definition vals (e : gelem num) : list Z := map val (cells e).

(** The features of a state with values [s], variable after variable, when the states [hs] were seen
    before since the last reset; [one f i x0 h x] stands for the features of one variable of initial
    value [x0]. *)
Definition state_spec (one : Z -> list Z -> Z -> list Z) (hs : list (list Z)) (s : list Z) : list Z :=
  flat_map (fun i => one (nth i (hd s hs) 0%Z) (column i hs) (nth i s 0%Z)) (seq 0 (length s)).

(** What a planner does with the encoder: evaluate states, and forget everything when it restarts
    from the initial state. *)
Inductive op := Reset | Eval (e : gelem num).

(** The features expected along a sequence of operations. *)
Fixpoint expected (one : Z -> list Z -> Z -> list Z) (hs : list (list Z)) (ops : list op)
  : list (res (list Z)) :=
  match ops with
  | [] => []
  | Reset :: r => expected one [] r
  | Eval e :: r => Ok (state_spec one hs (vals e)) :: expected one (hs ++ [vals e]) r
  end.

(** The features computed along a sequence of operations. *)
Fixpoint play {T} (start : T) (features : gelem num -> SM T (list Z)) (ops : list op) (t : T)
  : list (res (list Z)) :=
  match ops with
  | [] => []
  | Reset :: r => play start features r start
  | Eval e :: r => snd (features e t) :: play start features r (fst (features e t))
  end.

(** Every evaluated state belongs to the space and has no NaN cell. *)
Definition states_of (sp : gspace) (ops : list op) : Prop :=
  forall e, In (Eval e) ops -> fits sp e /\ ~ In NaN (cells e).
