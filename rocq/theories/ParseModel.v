(** Model of the readers of knapsack and coloring instances:
    skdecide/builders/discrete_optimization/knapsack/knapsack_parser.py:11-28 and
    skdecide/builders/discrete_optimization/coloring/coloring_parser.py:10-23, on texts of ASCII characters.

    [int] accepts an optional sign and decimal digits; the underscores Python allows between digits are refused. *)
From Coq Require Import String Ascii.
From Coq Require Import List Bool Arith ZArith.
From Coq Require Import DecimalString Decimal.
From Verif Require Import Py PyList KnapModel.
Import ListNotations.
Local Open Scope nat_scope.

Definition nl : ascii := ascii_of_nat 10.
(** [str.isspace] on ASCII *)
Definition is_space (c : ascii) : bool :=
  let n := nat_of_ascii c in ((9 <=? n) && (n <=? 13)) || ((28 <=? n) && (n <=? 32)).

(** The pieces of a text between the separators *)
Fixpoint split_by (f : ascii -> bool) (s : string) : list string :=
  match s with
  | EmptyString => [EmptyString]
  | String a r =>
      if f a then EmptyString :: split_by f r
      else match split_by f r with [] => [String a EmptyString] | w :: ws => String a w :: ws end
  end.
(** [split('\n')] *)
Definition lines (s : string) : list string := split_by (fun c => Ascii.eqb c nl) s.
(** [split()] *)
Definition words (s : string) : list string := filter (fun w => negb (String.eqb w EmptyString)) (split_by is_space s).

(** [int(w)] *)
Definition to_int (w : string) : res Z :=
  match (match w with
         | String a r => if Ascii.eqb a "+"%char then option_map Pos (NilZero.uint_of_string r) else NilZero.int_of_string w
         | EmptyString => None
         end) with
  | Some d => Ok (Z.of_int d)
  | None => Err ValueError
  end.

(** knapsack_parser.py:20-22 and 25-27; coloring_parser.py:13-15 and 19-21: the two numbers of a line *)
Definition row (line : string) : res (Z * Z) :=
  let parts := words line in
  let* a := lget parts 0 in
  let* x := to_int a in
  let* b := lget parts 1 in
  let* y := to_int b in
  Ok (x, y).

(** [int(parts[0])] of the header comes first; then one line per announced entry *)
Definition table (s : string) : res ((Z * Z) * list (Z * Z)) :=
  let ls := lines s in
  let* h := lget ls 0 in
  let* h := row h in
  let* rs := mapM (fun i => let* l := lget ls i in row l) (seq 1 (Z.to_nat (fst h))) in
  Ok (h, rs).

(** knapsack_parser.py:11-28 parse_input_data *)
Definition parse_knapsack (s : string) (force : bool) : res kmodel :=
  let* t := table s in
  let '((_, cap), rs) := t in
  Ok (mkModel (map (fun iv => mkItem (fst iv) (fst (snd iv)) (snd (snd iv))) (combine (seq 0 (length rs)) rs)) cap force).

(** coloring_parser.py:10-23 parse: the number of edges is the second number of the header.  The result is the nodes and
    the edges given to the graph. *)
Definition parse_coloring (s : string) : res (list nat * list (Z * Z)) :=
  let ls := lines s in
  let* h := lget ls 0 in
  let* h := row h in
  let* es := mapM (fun i => let* l := lget ls i in row l) (seq 1 (Z.to_nat (snd h))) in
  Ok (seq 0 (Z.to_nat (fst h)), es).
