(** Models of skdecide/hub/domain/mastermind/mastermind.py and
    skdecide/hub/domain/rock_paper_scissors/rock_paper_scissors.py. *)
From Coq Require Import String List Bool Arith ZArith QArith.
From Verif Require Import Py.
Import ListNotations.
Open Scope nat_scope.

(** ** MasterMind *)
Definition row : Type := list nat.
Record score := { total_bulls : nat; total_cows : nat }.
Record mm_state := { solution : row; m_score : score }.

(** mastermind.py:86-91 [_list_hidden_solutions] *)
Fixpoint hidden_solutions (n_colours n_positions : nat) : list row :=
  match n_positions with
  | 0 => [[]]
  | S n => flat_map (fun s => map (fun c => s ++ [c]) (seq 0 n_colours)) (hidden_solutions n_colours n)
  end.

(** mastermind.py:96-99: the bulls flags; [solution[i]] out of range is an IndexError. *)
Fixpoint bulls_of (guess sol : row) : res (list bool) :=
  match guess, sol with
  | [], _ => Ok []
  | _ :: _, [] => Err IndexError
  | g :: gs, s :: ss => let* r := bulls_of gs ss in Ok ((g =? s) :: r)
  end.

(** mastermind.py:103-106: the first free peg of colour [g] is marked ([cows] has the length of the guess). *)
Fixpoint mark (g : nat) (sol : row) (bulls cows : list bool) : list bool :=
  match sol, bulls, cows with
  | s :: ss, b :: bs, c :: cs =>
      if (g =? s) && negb b && negb c then true :: cs else c :: mark g ss bs cs
  | _, _, _ => cows
  end.

(** mastermind.py:101-106: the loop over the positions of the guess that are not bulls
    ([guess[i] != solution[i]] is [not bulls[i]]). *)
Fixpoint cows_loop (guess : row) (gb : list bool) (sol : row) (bulls cows : list bool) : list bool :=
  match guess, gb with
  | g :: gs, b :: bs => cows_loop gs bs sol bulls (if b then cows else mark g sol bulls cows)
  | _, _ => cows
  end.

Definition count_true (l : list bool) : nat := length (filter (fun b => b) l).

(** mastermind.py:93-107 [_calc_score] *)
Definition calc_score (sol guess : row) : res score :=
  let* bulls := bulls_of guess sol in
  let cows := cows_loop guess bulls sol bulls (map (fun _ => false) guess) in
  Ok {| total_bulls := count_true bulls; total_cows := count_true cows |}.

(** mastermind.py:43-49 [_get_next_state] *)
Definition mm_next (st : mm_state) (action : option row) : res mm_state :=
  match action with
  | None => Ok st
  | Some g => let* sc := calc_score (solution st) g in Ok {| solution := solution st; m_score := sc |}
  end.

(** mastermind.py:75-81 [_get_observation] *)
Definition mm_observation (st : mm_state) (action : option row) : res score :=
  match action with
  | None => Ok {| total_bulls := 0; total_cows := 0 |}
  | Some g => calc_score (solution st) g
  end.

(** mastermind.py:59-60, 66-68 *)
Definition mm_is_goal (n_positions : nat) (s : score) : bool :=
  (total_bulls s =? n_positions) && (total_cows s =? 0).
Definition mm_is_terminal (n_positions : nat) (st : mm_state) : bool := mm_is_goal n_positions (m_score st).

(** mastermind.py:70-73: the initial distribution, as weighted states. *)
Definition mm_initial (n_colours n_positions : nat) : list (mm_state * Q) :=
  let h := hidden_solutions n_colours n_positions in
  map (fun s => ({| solution := s; m_score := {| total_bulls := 0; total_cows := 0 |} |},
                 (1 / inject_Z (Z.of_nat (length h)))%Q)) h.

(** mastermind.py:83-84: [MultiDiscreteSpace([n, n])] contains (a, b) iff a < n and b < n. *)
Definition mm_in_observation_space (n_positions : nat) (s : score) : bool :=
  (total_bulls s <? n_positions) && (total_cows s <? n_positions).

(** ** Rock, paper, scissors *)
Inductive move := rock | paper | scissors.

Record rps_outcome := {
  o_num_move : Z;                        (* next state *)
  o_value : list (string * Z);           (* reward of each player *)
  o_termination : bool }.

Open Scope string_scope.

(** rock_paper_scissors.py:45-55 *)
Definition rewards (m1 m2 : move) : Z * Z :=
  match m1, m2 with
  | rock, rock => (0, 0) | rock, paper => (-1, 1) | rock, scissors => (1, -1)
  | paper, rock => (1, -1) | paper, paper => (0, 0) | paper, scissors => (-1, 1)
  | scissors, rock => (-1, 1) | scissors, paper => (1, -1) | scissors, scissors => (0, 0)
  end%Z.

(** rock_paper_scissors.py:38-63 [_state_step]; [mem] is the number of moves of the last state. *)
Definition rps_step (max_moves : Z) (mem : Z) (action : list (string * move)) : res rps_outcome :=
  let* m1 := dgetE action "player1" in
  let* m2 := dgetE action "player2" in
  let '(r1, r2) := rewards m1 m2 in
  let num_move := (mem + 1)%Z in
  Ok {| o_num_move := num_move; o_value := [("player1", r1); ("player2", r2)];
        o_termination := (max_moves <=? num_move)%Z |}.

(** rock_paper_scissors.py:71-76 [_get_observation] *)
Definition rps_observation (action : option (list (string * move))) : res (list (string * move)) :=
  match action with
  | None => Ok [("player1", rock); ("player2", rock)]
  | Some a => let* m2 := dgetE a "player2" in let* m1 := dgetE a "player1" in
              Ok [("player1", m2); ("player2", m1)]
  end.

(** The environment loop: after reset (rock_paper_scissors.py:68-69) the memory holds the last state
    (builders/domain/memory.py, dynamics.py); an episode stops at the first termination. *)
Fixpoint rps_play (max_moves : Z) (mem : Z) (actions : list (list (string * move))) : res (list rps_outcome) :=
  match actions with
  | [] => Ok []
  | a :: r => let* o := rps_step max_moves mem a in
              if o_termination o then Ok [o]
              else let* os := rps_play max_moves (o_num_move o) r in Ok (o :: os)
  end.
