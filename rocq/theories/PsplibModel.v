(** Model of the reader of project scheduling instances:
    skdecide/builders/discrete_optimization/rcpsp/rcpsp_parser.py:19-101 parse_psplib, on the words of the lines of each section.

    The lines of the sections are located first ([sections]); splitting lines into words and words into numbers is modelled in
    ParseModel.v and not repeated here.  The numbers are natural numbers. *)
From Coq Require Import String Ascii.
From Coq Require Import List Bool Arith ZArith.
From Verif Require Import Py PyList SgsModel.
Import ListNotations.
Local Open Scope nat_scope.

(** rcpsp_parser.py:48-50: the dictionary of capacities from the two lines with names and numbers *)
Definition read_resources (tmp1 : list string) (tmp2 : list nat) : res (list (string * Z)) :=
  foldM (fun d i =>
    let* a := lget tmp1 (2 * i) in
    let* b := lget tmp1 (2 * i + 1) in
    let* c := lget tmp2 i in
    Ok (dset d (a ++ b)%string (Z.of_nat c))) [] (seq 0 (length tmp2)).
(** rcpsp_parser.py:51 *)
Definition starts_with_N (s : string) : bool := match s with String a _ => Ascii.eqb a "N"%char | EmptyString => false end.

(** rcpsp_parser.py:55-62 *)
Definition read_successors (rows : list (list nat)) : res (list (nat * list nat)) :=
  foldM (fun d tmp =>
    let* t := lget tmp 0 in
    let* _ := lget tmp 1 in
    let* n := lget tmp 2 in
    Ok (dset d t (firstn n (skipn 3 tmp)))) [] rows.

(** rcpsp_parser.py:65-85: one line; the state is whether the problem is multi-mode, the last task and the dictionary *)
Definition mode_row (names : list string) (st : bool * (option nat * list (nat * list (nat * mode)))) (tmp : list nat)
    : res (bool * (option nat * list (nat * list (nat * mode)))) :=
  let '(multi, (task, d)) := st in
  let n := length names in
  let* r := if length tmp =? 3 + n then
              let* t := lget tmp 0 in
              let* m := lget tmp 1 in
              let* dur := lget tmp 2 in
              Ok (multi, Some t, m, dur, firstn n (skipn 3 tmp))
            else
              let* m := lget tmp 0 in
              let* dur := lget tmp 1 in
              Ok (true, task, m, dur, firstn (1 + n) (skipn 2 tmp)) in
  let '(multi, task, m, dur, usage) := r in
  match task with
  | None => Err UnboundLocalError
  | Some t =>
      let modes := match dget d t with Some ms => ms | None => [] end in
      let* us := mapM (lget usage) (seq 0 n) in
      Ok (multi, (Some t, dset d t (dset modes m (Mode dur (combine names (map Z.of_nat us))))))
  end.
Definition read_modes (names : list string) (rows : list (list nat)) : res (bool * (option nat * list (nat * list (nat * mode)))) :=
  foldM (mode_row names) (false, (None, [])) rows.

(** rcpsp_parser.py:43-101; the first component tells whether the multi-mode class is used *)
Definition parse_psplib (horizon : nat) (tmp1 : list string) (tmp2 : list nat) (precedences requests : list (list nat)) : res (bool * rcpsp) :=
  let* c := read_resources tmp1 tmp2 in
  let* s := read_successors precedences in
  let* r := read_modes (dkeys c) requests in
  let '(multi, (_, ms)) := r in
  Ok (multi, Rcpsp (Constant c) (filter starts_with_N (dkeys c)) ms s horizon 30).

(** [lines.index(x)] *)
Fixpoint line_index (ls : list string) (x : string) : res nat :=
  match ls with
  | [] => Err ValueError
  | y :: ls => if String.eqb y x then Ok 0 else let* i := line_index ls x in Ok (S i)
  end.
(** [lines[i-1]]: index -1 is the last line *)
Definition line_before (ls : list string) (i : nat) : res string := match i with O => lget (rev ls) 0 | S i => lget ls i end.
Record psplib := Psplib { l_horizon : string; l_names : string; l_numbers : string; l_precedences : list string; l_requests : list string }.
(** rcpsp_parser.py:22-41 with the uses of the bounds in 44, 48-49, 57 and 66: the lines of each section *)
Definition sections (ls : list string) : res psplib :=
  let* h := line_index ls "RESOURCES" in
  let* p := line_index ls "PRECEDENCE RELATIONS:" in
  let* d := line_index ls "REQUESTS/DURATIONS:" in
  let* r := line_index ls "RESOURCEAVAILABILITIES:" in
  let* horizon := line_before ls h in
  let* names := lget ls (r + 1) in
  let* numbers := lget ls (r + 2) in
  let* precedences := mapM (lget ls) (seq (p + 2) (d - 1 - (p + 2))) in
  let* requests := mapM (lget ls) (seq (d + 3) (r - 1 - (d + 3))) in
  Ok (Psplib horizon names numbers precedences requests).
