(** Mutations of permutations.
    builders/discrete_optimization/generic_tools/mutations/permutation_mutations.py.
    Solutions are objects with one attribute (the one chosen in the constructors, 38-49 and alike) that
    refers to a list object: several solutions and moves may refer to the same list, so lists live in a
    store.  Random draws are arguments.  [mutate_and_compute_obj] is [mutate] followed by the problem's
    [evaluate]. *)
From Coq Require Import List Bool Arith Permutation.
From Verif Require Import Py PyList.
Import ListNotations.

Section Perm.
Context {A : Type}.

(** The list objects, and for each solution object the list its attribute refers to. *)
Record world := mkW { w_lists : list (list A); w_sols : list nat }.

Definition addr (w : world) (s : nat) : res nat := lget (w_sols w) s.
(** [getattr(solution, self.attribute)], the contents. *)
Definition attr (w : world) (s : nat) : res (list A) := let* a := addr w s in lget (w_lists w) a.
(** A new list object. *)
Definition alloc (w : world) (l : list A) : world * nat :=
  (mkW (w_lists w ++ [l]) (w_sols w), length (w_lists w)).
(** [setattr(solution, self.attribute, ...)] *)
Definition setattr (w : world) (s a : nat) : res world :=
  let* ss := lput (w_sols w) s a in Ok (mkW (w_lists w) ss).
(** The contents of the list object [a] are replaced (in place). *)
Definition write (w : world) (a : nat) (l : list A) : world := mkW (lset (w_lists w) a l) (w_sols w).
(** [solution.lazy_copy()]: a new object referring to the same list. *)
Definition lazy_copy (w : world) (s : nat) : res (world * nat) :=
  let* a := addr w s in Ok (mkW (w_lists w) (w_sols w ++ [a]), length (w_sols w)).

(** The moves: ShuffleMove 13-27, SwapsLocalMove 135-152, TwoOptMove 192-207. *)
Inductive move :=
| Shuffle (new prev : nat)
| Swaps (l : list (nat * nat))
| TwoOpt (l : list (nat * nat)).

(** 142-144: [v1, v2 = current[i1], current[i2]; current[i1], current[i2] = v2, v1] *)
Definition swap1 (l : list A) (p : nat * nat) : res (list A) :=
  let* v1 := lget l (fst p) in
  let* v2 := lget l (snd p) in
  let* l := lput l (fst p) v2 in
  lput l (snd p) v1.
Definition swaps (l : list A) (ps : list (nat * nat)) : res (list A) := foldM swap1 l ps.

(** 199: [current[:i]+current[i:j+1][::-1]+current[j+1:]] *)
Definition reverse_part (l : list A) (p : nat * nat) : list A :=
  firstn (fst p) l ++ rev (firstn (S (snd p) - fst p) (skipn (fst p) l)) ++ skipn (S (snd p)) l.
Definition two_opts (l : list A) (ps : list (nat * nat)) : list A := fold_left reverse_part ps l.

(** 21-23, 140-145, 196-201 [apply_local_move] *)
Definition apply_move (w : world) (s : nat) (m : move) : res world :=
  match m with
  | Shuffle new _ => setattr w s new
  | Swaps ps => let* a := addr w s in let* l := attr w s in
                let* l' := swaps l ps in Ok (write w a l')
  | TwoOpt ps => let* l := attr w s in
                 let (w', a') := alloc w (two_opts l ps) in setattr w' s a'
  end.

(** 25-27, 147-152, 202-207 [backtrack_local_move]: swaps in the same order, 2-opt in reverse order. *)
Definition backtrack (w : world) (s : nat) (m : move) : res world :=
  match m with
  | Shuffle _ prev => setattr w s prev
  | Swaps ps => apply_move w s (Swaps ps)
  | TwoOpt ps => apply_move w s (TwoOpt (rev ps))
  end.

(** 51-57 [PermutationShuffleMutation.mutate]; [r] is [range_int] after the shuffle. *)
Definition mutate_shuffle (w : world) (s : nat) (r : list nat) : res (world * nat * move) :=
  let* l := attr w s in
  let (w, prev) := alloc w l in
  let* n := mapM (fun i => lget l i) r in
  let (w, new) := alloc w n in
  let* ws := lazy_copy w s in
  let* w := setattr (fst ws) (snd ws) new in
  Ok (w, snd ws, Shuffle new prev).

(** 114-127 [PermutationPartialShuffleMutation.mutate]; [t] and [r] are [range_int_total] and
    [range_int] after the shuffles. *)
Definition partial_turn (prev : list A) (itm r : list nat) (l : list A) (k : nat) : res (list A) :=
  let* i := lget itm k in
  let* rk := lget r k in
  let* j := lget itm rk in
  let* v := lget prev j in
  lput l i v.
Definition mutate_partial (w : world) (s : nat) (n_to_move : nat) (t r : list nat) : res (world * nat * move) :=
  let* l := attr w s in
  let (w, prev) := alloc w l in
  let* a := addr w s in
  let* n := foldM (partial_turn l (firstn n_to_move t) r) l (seq 0 n_to_move) in
  let w := write w a n in
  let* ws := lazy_copy w s in
  Ok (fst ws, snd ws, Shuffle a prev).

(** 180-184 [PermutationSwap.mutate]: the same solution object, modified.  The draws are below
    [length-1]; numpy raises ValueError when there is none.
    [self.length] is the registered length, here that of the vector. *)
Definition mutate_swap (w : world) (s : nat) (ps : list (nat * nat)) : res (world * nat * move) :=
  let* l := attr w s in
  if length l <=? 1 then Err ValueError else
  let* w := apply_move w s (Swaps ps) in Ok (w, s, Swaps ps).

(** 233-238 [TwoOptMutation.mutate]: [0 <= i <= length-2], [i+1 <= j <= length-1]. *)
Definition mutate_two_opt (w : world) (s : nat) (i j : nat) : res (world * nat * move) :=
  let* w := apply_move w s (TwoOpt [(i, j)]) in Ok (w, s, TwoOpt [(i, j)]).

(** One mutation with its random draws. *)
Inductive choice :=
| CShuffle (r : list nat)
| CPartial (n_to_move : nat) (t r : list nat)
| CSwap (ps : list (nat * nat))
| CTwoOpt (i j : nat).
Definition mutate (w : world) (s : nat) (c : choice) : res (world * nat * move) :=
  match c with
  | CShuffle r => mutate_shuffle w s r
  | CPartial n t r => mutate_partial w s n t r
  | CSwap ps => mutate_swap w s ps
  | CTwoOpt i j => mutate_two_opt w s i j
  end.

(** A run of mutations, each applied to the solution returned by the previous one; the moves, last first. *)
Fixpoint run (w : world) (s : nat) (cs : list choice) (ms : list move) : res (world * nat * list move) :=
  match cs with
  | [] => Ok (w, s, ms)
  | c :: cs => let* r := mutate w s c in
               let '(w, s, m) := r in run w s cs (m :: ms)
  end.
(** Undoing: every move is backtracked on the solution, last first. *)
Fixpoint undo (w : world) (s : nat) (ms : list move) : res world :=
  match ms with
  | [] => Ok w
  | m :: ms => let* w := backtrack w s m in undo w s ms
  end.

End Perm.
Arguments world A : clear implicits.
