(** Generic mutations of discrete optimisation: generic_tools/mutations/mutation_bool.py,
    mutation_integer.py, mixed_mutation.py, mutation_catalog.py, mutation_util.py, do_mutation.py, and
    rcpsp/mutations/mutation_rcpsp.py; applied to the solutions of knapsack (KnapModel) and of
    scheduling (RobustModel).
    Simplifications: floating-point numbers are rationals; a random generator is what it returns; an
    exception loses the writes made before it; every entry of a register has "name" and "type". *)
From Coq Require Import String List ZArith QArith Bool Arith.
From Verif Require Import Py PyList KnapModel SgsModel RobustModel.
Import ListNotations.
Local Open Scope nat_scope.

(** * Registers *)

(** TypeAttribute: do_problem.py:8-17. *)
Inductive ttype :=
| LIST_INTEGER | LIST_BOOLEAN | PERMUTATION | PERMUTATION_TSP | PERMUTATION_RCPSP
| SET_INTEGER | LIST_BOOLEAN_KNAP | LIST_INTEGER_SPECIFIC_ARRITY | SET_TUPLE_INTEGER.
Definition ttype_eqb (a b : ttype) : bool :=
  match a, b with
  | LIST_INTEGER, LIST_INTEGER | LIST_BOOLEAN, LIST_BOOLEAN | PERMUTATION, PERMUTATION
  | PERMUTATION_TSP, PERMUTATION_TSP | PERMUTATION_RCPSP, PERMUTATION_RCPSP
  | SET_INTEGER, SET_INTEGER | LIST_BOOLEAN_KNAP, LIST_BOOLEAN_KNAP
  | LIST_INTEGER_SPECIFIC_ARRITY, LIST_INTEGER_SPECIFIC_ARRITY
  | SET_TUPLE_INTEGER, SET_TUPLE_INTEGER => true
  | _, _ => false
  end.

(** An entry of [EncodingRegister.dict_attribute_to_type] (do_problem.py:25-33); the keys "n" and
    "arrities" may be missing. *)
Record entry := Entry {
  e_name : string;
  e_types : list ttype;
  e_n : option nat;
  e_arities : option (list nat) }.
Definition register := list (string * entry).

(** EncodingRegister.get_types: do_problem.py:31-33. *)
Definition get_types (r : register) : list ttype := flat_map (fun ke => e_types (snd ke)) r.

(** get_attribute_for_type: mutation_util.py:7-13; a key comes once for each occurrence of the type. *)
Definition for_type (r : register) (t : ttype) : list (string * entry) :=
  flat_map (fun ke => map (fun _ => ke) (filter (fun t' => ttype_eqb t' t) (e_types (snd ke)))) r.

(** * Bit flips *)

(** MutationBitFlip.__init__: mutation_bool.py:33-41.  Returns the attribute and the length.  Without an
    attribute of the type, the attribute stays None and is looked up as such. *)
Definition bit_init (r : register) (attribute : option string) : res (string * nat) :=
  let attr := match attribute with
              | Some a => Some a
              | None => match for_type r LIST_BOOLEAN with [] => None | ke :: _ => Some (fst ke) end
              end in
  match attr with
  | None => Err KeyError
  | Some a =>
      let* e := dgetE r a in
      match e_n e with Some n => Ok (a, n) | None => Err KeyError end
  end.

(** [np.where(np.random.random(n) <= p)[0]]: mutation_bool.py:44. *)
Definition where_le (p : Q) (draws : list Q) : list nat :=
  map fst (filter (fun iu => Qle_bool (snd iu) p) (combine (seq 0 (length draws)) draws)).

(** BitFlipMove.apply_local_move on the list of the attribute: mutation_bool.py:18-22.  The list is
    written in place, so the solution given is the solution returned. *)
Definition flip_turn (l : list Z) (i : nat) : res (list Z) :=
  let* x := lget l i in lput l i (1 - x)%Z.
Definition flip_all (idx : list nat) (l : list Z) : res (list Z) := foldM flip_turn l idx.
(** backtrack_local_move: mutation_bool.py:24-25. *)
Definition flip_back (idx : list nat) (l : list Z) : res (list Z) := flip_all idx l.

(** MutationBitFlip.mutate: mutation_bool.py:43-46; returns the new list and the indexes of the move. *)
Definition bit_mutate (p : Q) (draws : list Q) (l : list Z) : res (list Z * list nat) :=
  let idx := where_le p draws in
  let* l' := flip_all idx l in
  Ok (l', idx).

(** The same on a KnapsackSolution with attribute [list_taken]: the stored value and weight stay.
    mutate_and_compute_obj: mutation_bool.py:48-51. *)
Definition bit_mutate_knap (p : Q) (draws : list Q) (s : ksol) : res (ksol * list nat) :=
  let* r := bit_mutate p draws (k_taken s) in
  Ok (mkSol (k_value s) (k_weight s) (fst r), snd r).
Definition bit_mutate_obj_knap (m : kmodel) (p : Q) (draws : list Q) (s : ksol)
  : res (ksol * list nat * (Z * Z)) :=
  let* r := bit_mutate_knap p draws s in
  let* f := KnapModel.evaluate m (fst r) in
  Ok (snd f, snd r, fst f).

(** * Integers with an arity each *)

(** MutationIntegerSpecificArrity.__init__: mutation_integer.py:24-42.  Returns the attribute and the
    ranges.  An explicit attribute comes with its arities: [len(None)] is a TypeError. *)
Definition int_init (r : register) (attribute : option string) (arities : option (list nat))
  : res (string * list (list nat)) :=
  let* aa := (match attribute with
              | Some a => match arities with Some l => Ok (a, l) | None => Err TypeError end
              | None =>
                  match for_type r LIST_INTEGER_SPECIFIC_ARRITY with
                  | [] => Err IndexError
                  | ke :: _ => match e_arities (snd ke) with
                               | Some l => Ok (e_name (snd ke), l)
                               | None => Err KeyError
                               end
                  end
              end) in
  Ok (fst aa, map (fun n => seq 1 n) (snd aa)).

(** random.choice: IndexError on an empty list; [c] is the generator's number. *)
Definition choice {A} (c : nat) (l : list A) : res A :=
  match l with [] => Err IndexError | _ => lget l (c mod length l) end.

(** The loop of mutate: mutation_integer.py:47-50.  [draws k] is the number drawn for the entry [k],
    [picks k] the one used to choose its new value. *)
Definition int_turn (p : Q) (draws : nat -> Q) (picks : nat -> nat) (v : list nat) (kr : nat * list nat)
  : res (list nat) :=
  if Qle_bool (draws (fst kr)) p then
    let* x := choice (picks (fst kr)) (snd kr) in
    lput v (fst kr) x
  else Ok v.
Definition int_vector (p : Q) (draws : nat -> Q) (picks : nat -> nat) (ranges : list (list nat)) (v : list nat)
  : res (list nat) :=
  foldM (int_turn p draws picks) v (combine (seq 0 (length ranges)) ranges).

(** RCPSPSolution.copy: rcpsp_model.py:81-87 (the lists are the copy's own). *)
Definition copy_sol (s : rsol) : res rsol :=
  new_sol (s_problem s) (s_perm s) (s_modes s) (s_sched s) (s_feas s).

(** MutationIntegerSpecificArrity.mutate on a RCPSPSolution with attribute [rcpsp_modes]:
    mutation_integer.py:44-52.  The move is the pair of the solutions (do_mutation.py:16-31). *)
Definition int_mutate (p : Q) (draws : nat -> Q) (picks : nat -> nat) (ranges : list (list nat)) (s : rsol)
  : res (rsol * (rsol * rsol)) :=
  let* s2 := copy_sol s in
  let* v := int_vector p draws picks ranges (s_modes s2) in
  let s3 := set_modes s2 v in
  Ok (s3, (s, s3)).

(** LocalMoveDefault: do_mutation.py:23-31. *)
Definition default_apply {S} (mv : S * S) (s : S) : S := snd mv.
Definition default_back {S} (mv : S * S) (s : S) : S := fst mv.

(** PermutationShuffleMutation.mutate on a RCPSPSolution with attribute [rcpsp_permutation]:
    permutation_mutations.py:51-57; [order] is [range_int] after the shuffle. *)
Definition shuffle_mutate (order : list nat) (s : rsol) : res (rsol * (list nat * list nat)) :=
  let previous := s_perm s in
  let* new := mapM (fun i => lget previous i) order in
  let* sol := lazy_copy s in
  Ok (set_perm sol new, (new, previous)).

Section Rcpsp.
Variable reserve : option rcpsp -> list nat -> schedule -> option bool -> res Q.

(** Any mutation followed by an evaluation (mutation_integer.py:54-57, permutation_mutations.py:60-63). *)
Definition with_obj {M} (r : res (rsol * M)) : res (rsol * M * list (string * Q)) :=
  let* sm := r in
  let* f := rcpsp_evaluate reserve (fst sm) in
  Ok (snd f, snd sm, fst f).

(** generate_permutation_from_schedule: rcpsp_model.py:106-111, as far as whether it raises
    ([list.remove] and [max] raise ValueError).  The order of the tasks is not modelled. *)
Definition gen_perm (s : rsol) : res unit :=
  match s_sched s with
  | None => Err TypeError
  | Some sch =>
      if pymem 1 (dkeys sch) then
        match filter (fun a => negb (Nat.eqb a 1)) (dkeys sch) with [] => Err ValueError | _ => Ok tt end
      else Err ValueError
  end.

Definition mark (s : rsol) : rsol :=
  Rsol (s_problem s) (s_perm s) (s_modes s) (s_sched s) true (s_feas s).

(** PermutationMutationRCPSP.mutate around another mutation: mutation_rcpsp.py:22-29 ([except: pass]). *)
Definition wrap {M} (r : res (rsol * M)) : res (rsol * M) :=
  let* sm := r in
  match gen_perm (fst sm) with
  | Ok _ => Ok (mark (fst sm), snd sm)
  | Err _ => Ok sm
  end.

(** PermutationMutationRCPSP.mutate_and_compute_obj: mutation_rcpsp.py:31-38.  The value is the one
    computed before the mark. *)
Definition wrap_obj {M} (r : res (rsol * M)) : res (rsol * M * list (string * Q)) :=
  let* smf := with_obj r in
  Ok (mark (fst (fst smf)), snd (fst smf), snd smf).
End Rcpsp.

(** * Portfolios *)

(** BasicPortfolioMutation.__init__: mixed_mutation.py:11-18 (the class BasicPortfolioMutationTrack,
    31-48, is the same).  A sum of zero gives NaN, kept as [None]. *)
Definition sumQ (l : list Q) : Q := fold_right Qplus 0%Q l.
Definition normalise (w : list Q) : option (list Q) :=
  if Qeq_bool (sumQ w) 0 then None else Some (map (fun x => x / sumQ w)%Q w).

(** [np.random.choice(index, size=1, p=w)[0]] with the uniform number [u]: errors of numpy, then
    [searchsorted(cumsum(p), u, side="right")]. *)
Fixpoint cumsum (acc : Q) (w : list Q) : list Q :=
  match w with [] => [] | x :: r => (acc + x)%Q :: cumsum (acc + x)%Q r end.
Definition np_choice (n : nat) (w : option (list Q)) (u : Q) : res nat :=
  if n =? 0 then Err ValueError else
  match w with
  | None => Err ValueError
  | Some w =>
      if negb (length w =? n) then Err ValueError
      else if existsb (fun x => negb (Qle_bool 0 x)) w then Err ValueError
      else Ok (length (filter (fun c => Qle_bool c u) (cumsum 0 w)))
  end.

(** mutate and mutate_and_compute_obj: mixed_mutation.py:20-28.  [ms] are the methods of the
    mutations. *)
Definition portfolio {S R} (ms : list (S -> res R)) (w : list Q) (u : Q) (s : S) : res R :=
  let* i := np_choice (length ms) (normalise w) u in
  let* m := lget ms i in
  m s.

(** * The catalogue *)

(** dictionnary_mutation: mutation_catalog.py:13-46; names only. *)
Definition catalog : list (ttype * list string) :=
  [(PERMUTATION, ["total_shuffle"; "partial_shuffle"; "swap"; "2opt_gen"]%string);
   (PERMUTATION_TSP, ["2opt"; "2opt_interection"; "swap_tsp"]%string);
   (PERMUTATION_RCPSP, ["total_shuffle_rcpsp"; "partial_shuffle_rcpsp"; "swap_rcpsp"; "2opt_gen_rcpsp"]%string);
   (LIST_BOOLEAN, ["bitflip"]%string);
   (LIST_BOOLEAN_KNAP, ["bitflip-kp"; "singlebitflip-kp"]%string);
   (LIST_INTEGER_SPECIFIC_ARRITY, ["random_flip"; "random_flip_modes_rcpsp"]%string)].
Definition in_catalog (t : ttype) : option (list string) :=
  match find (fun e => ttype_eqb (fst e) t) catalog with Some e => Some (snd e) | None => None end.

(** get_available_mutations: mutation_catalog.py:49-63.  [present] lists the set of the types in the
    order of iteration.  The tuples (class, parameters) are named by their keys. *)
Definition available (present : list ttype) : list (ttype * list string) * list string :=
  fold_left (fun acc t => match in_catalog t with
                          | Some l => (fst acc ++ [(t, l)], snd acc ++ l)
                          | None => acc
                          end) present ([], []).
