(** Model of skdecide/hub/domain/simple_grid_world/simple_grid_world.py and of
    skdecide/hub/domain/maze/maze.py (rendering left out).  Coordinates are integers. *)
From Coq Require Import ZArith Bool Ascii String List.
From Verif Require Import Py.
Import ListNotations.
Open Scope Z_scope.

(** simple_grid_world.py:15-24, maze.py:43-52: a state is the pair (x, y). *)
Definition cell : Type := Z * Z.
Inductive action := up | down | left | right.

(** Enumeration order of [EnumSpace(Action)] (simple_grid_world.py:68-69, maze.py:120-121). *)
Definition all_actions : list action := [up; down; left; right].

(** ** Grid world *)
Record grid := { num_cols : Z; num_rows : Z }.

(** simple_grid_world.py:41-53 *)
Definition g_next (g : grid) (s : cell) (a : action) : cell :=
  let '(x, y) := s in
  match a with
  | left => (Z.max (x - 1) 0, y)
  | right => (Z.min (x + 1) (num_cols g - 1), y)
  | up => (x, Z.max (y - 1) 0)
  | down => (x, Z.min (y + 1) (num_rows g - 1))
  end.

(** simple_grid_world.py:55-63, maze.py:107-115: cost of a transition (the same text in both). *)
Definition move_cost (s s' : cell) : Z :=
  if (fst s' =? fst s) && (snd s' =? snd s) then 2
  else Z.abs (fst s' - fst s) + Z.abs (snd s' - snd s).

(** simple_grid_world.py:71-75; [is_goal] is membership in the goal ListSpace. *)
Definition g_goal (g : grid) : cell := (num_cols g - 1, num_rows g - 1).
Definition g_is_goal (g : grid) (s : cell) : bool := pyeqb s (g_goal g).
Definition g_start : cell := (0, 0).

(** simple_grid_world.py:77-78: [MultiDiscreteSpace([n, m])] contains (a, b) iff 0<=a<n, 0<=b<m. *)
Definition in_multidiscrete2 (n m : Z) (s : cell) : bool :=
  (0 <=? fst s) && (fst s <? n) && (0 <=? snd s) && (snd s <? m).
Definition g_observable (g : grid) : cell -> bool := in_multidiscrete2 (num_cols g) (num_rows g).

(** ** Maze *)
(** Python whitespace among the characters < 128 that [str.strip] removes. *)
Definition is_ws (c : ascii) : bool :=
  let n := nat_of_ascii c in ((n =? 32) || ((9 <=? n) && (n <=? 13)) || ((28 <=? n) && (n <=? 31)))%nat.

Fixpoint lstrip (l : list ascii) : list ascii :=
  match l with
  | c :: r => if is_ws c then lstrip r else l
  | [] => []
  end.
Definition rstrip (l : list ascii) : list ascii := rev (lstrip (rev l)).

Definition newline : ascii := "010"%char.
(** [str.split('\n')]; never returns an empty list. *)
Fixpoint split_lines (l : list ascii) : list (list ascii) :=
  match l with
  | [] => [[]]
  | c :: r => if Ascii.eqb c newline then [] :: split_lines r
              else match split_lines r with
                   | [] => [[c]]
                   | w :: ws => (c :: w) :: ws
                   end
  end.

(** The maze object; [_start]/[_goal] are absent attributes when no 'o'/'x' occurs. *)
Record maze := { m_rows : list (list Z); m_start : option cell; m_goal : option cell; m_cols : Z; m_nrows : Z }.

(** maze.py:70-78: one character at (x, y). *)
Definition open_char (c : ascii) : bool :=
  Ascii.eqb c " " || Ascii.eqb c "o" || Ascii.eqb c "x".

Fixpoint parse_line (y x : Z) (line : list ascii) (st : option cell * option cell)
  : list Z * (option cell * option cell) :=
  match line with
  | [] => ([], st)
  | c :: r =>
      let st' := if open_char c then
                   ((if Ascii.eqb c "o" then Some (x, y) else fst st),
                    (if Ascii.eqb c "x" then Some (x, y) else snd st))
                 else st in
      let '(row, st'') := parse_line y (x + 1) r st' in
      ((if open_char c then 1 else 0) :: row, st'')
  end.

Fixpoint parse_lines (y : Z) (lines : list (list ascii)) (st : option cell * option cell)
  : list (list Z) * (option cell * option cell) :=
  match lines with
  | [] => ([], st)
  | l :: r =>
      let '(row, st') := parse_line y 0 (rstrip l) st in
      let '(rows, st'') := parse_lines (y + 1) r st' in
      (row :: rows, st'')
  end.

(** maze.py:65-84 [__init__] *)
Definition parse_maze (text : list ascii) : maze :=
  let lines := split_lines (rstrip (lstrip text)) in
  let '(rows, (s, g)) := parse_lines 0 lines (None, None) in
  {| m_rows := rows; m_start := s; m_goal := g;
     m_cols := Z.of_nat (length (hd [] rows)); m_nrows := Z.of_nat (length rows) |}.

(** [self._maze[y][x]] for non-negative indices. *)
Definition m_get (m : maze) (c : cell) : res Z :=
  match nth_error (m_rows m) (Z.to_nat (snd c)) with
  | Some row => match nth_error row (Z.to_nat (fst c)) with Some v => Ok v | None => Err IndexError end
  | None => Err IndexError
  end.

Definition m_target (s : cell) (a : action) : cell :=
  let '(x, y) := s in
  match a with left => (x - 1, y) | right => (x + 1, y) | up => (x, y - 1) | down => (x, y + 1) end.

(** maze.py:88-105 [_get_next_state] *)
Definition m_next (m : maze) (s : cell) (a : action) : res cell :=
  let t := m_target s a in
  if (0 <=? fst t) && (fst t <? m_cols m) && (0 <=? snd t) && (snd t <? m_nrows m) then
    let* v := m_get m t in
    Ok (if v =? 1 then t else s)
  else Ok s.

(** maze.py:123-127: attributes that may be missing. *)
Definition m_initial (m : maze) : res cell := match m_start m with Some s => Ok s | None => Err AttributeError end.
Definition m_is_goal (m : maze) (s : cell) : res bool :=
  match m_goal m with Some g => Ok (pyeqb s g) | None => Err AttributeError end.
