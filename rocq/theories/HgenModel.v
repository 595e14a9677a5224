(** Model of the generator of problems with helper activities:
    skdecide/builders/discrete_optimization/rcpsp/rcpsp_data_generator.py:6-129, on the data of SgsModel.v.

    The random permutation of the non-dummy activities, the draws for the cross precedences and the ancestors found by
    networkx are parameters.  The problem is single-mode or multi-mode with constant capacities (with a calendar the new
    entry is a number among lists: not modelled, [TypeError]).  The name of the new resource, 'R' and the number of
    renewable resources plus one, is a parameter.  Factors and durations are natural numbers.  In the dictionaries of
    helpers the lists of one element are that element. *)
From Coq Require Import String.
From Coq Require Import List Bool Arith ZArith.
From Verif Require Import Py PyList SgsModel.
Import ListNotations.
Local Open Scope nat_scope.

Definition succs := list (nat * list nat).

(** [del l[l.index(x)]] *)
Fixpoint remove_first (x : nat) (l : list nat) : list nat :=
  match l with [] => [] | y :: l => if y =? x then l else y :: remove_first x l end.

(** rcpsp_data_generator.py:54-57: the sink gets its new number in a list of successors *)
Definition rename (old new : nat) (l : list nat) : list nat := if pymem old l then remove_first old l ++ [new] else l.
(** rcpsp_data_generator.py:54-59 *)
Definition rename_sink (old new : nat) (s : succs) : res succs :=
  let s := map (fun kv => (fst kv, rename old new (snd kv))) s in
  let* _ := dgetE s old in
  Ok (dset (ddel s old) new []).

(** rcpsp_data_generator.py:25-28 and 62-65: durations multiplied, no need of the assistants *)
Definition scale (mult : nat) (r : string) (m : mode) : mode := Mode (m_duration m * mult) (dset (m_need m) r 0%Z).
(** rcpsp_data_generator.py:68-77 *)
Definition helper_mode (names : list string) (r : string) (dur : nat) : mode :=
  Mode dur (map (fun k => (k, if String.eqb k r then 1%Z else 0%Z)) names).
(** rcpsp_data_generator.py:25-28, 45-47, 62-77 *)
Definition new_modes (ms : list (nat * list (nat * mode))) (mult : nat) (r : string) (old k : nat) (names : list string) (dur : nat)
    : res (list (nat * list (nat * mode))) :=
  let* temp := dgetE ms old in
  let ms := dset (ddel ms old) (old + 2 * k) temp in
  let ms := map (fun ad => (fst ad, map (fun km => (fst km, scale mult r (snd km))) (snd ad))) ms in
  Ok (fold_left (fun ms i => dset ms (old + i) [(1, helper_mode names r dur)]) (seq 0 (2 * k)) ms).

(** rcpsp_data_generator.py:85-100: one assisted activity; the state is the successors and the two dictionaries *)
Definition assist (old new k : nat) (assisted : list nat) (st : succs * (list (nat * nat) * list (nat * nat))) (i : nat)
    : res (succs * (list (nat * nat) * list (nat * nat))) :=
  let '(s, (pre, post)) := st in
  let* m := lget assisted i in
  let s := dset s (old + i) [m] in
  let* l := dgetE s m in
  let s := dset s m (l ++ [old + k + i]) in
  let s := dset s (old + k + i) [] in
  let* l := dgetE s m in
  let s := if pymem new l then
             dset (dset s m (remove_first new l)) (old + k + i) [new]
           else s in
  Ok (s, (dset pre m (old + i), dset post m (old + k + i))).

(** rcpsp_data_generator.py:106-115: the pairs of assisted activities in increasing order *)
Fixpoint pairs (l : list nat) : list (nat * nat) :=
  match l with [] => [] | x :: l => map (pair x) l ++ pairs l end.
Definition cross (pre post : list (nat * nat)) (coin : nat -> nat -> bool) (s : succs) (mm : nat * nat) : res succs :=
  if coin (fst mm) (snd mm) then
    let* q := dgetE post (fst mm) in
    let* h := dgetE pre (snd mm) in
    let* l := dgetE s q in
    Ok (dset s q (l ++ [h]))
  else Ok s.

(** rcpsp_data_generator.py:122-128: the tasks that do not precede the sink get it as successor *)
Definition close (anc : list nat) (new jobs : nat) (s : succs) : res succs :=
  if length anc =? jobs + 1 then Ok s
  else foldM (fun s m => let* l := dgetE s m in Ok (dset s m (l ++ [new])))
         s (filter (fun i => negb (pymem i anc)) (seq 1 (jobs + 1))).

Record generated := Gen { g_model : rcpsp; g_pre : list (nat * nat); g_post : list (nat * nat); g_argument : capacities }.

(** generate_rcpsp_with_helper_tasks_data.  [order] is the permutation drawn; the resources of the copy are those of the
    argument (rcpsp_model.py:801-807, 856-865: the dictionary is not copied), so they gain the assistants as well:
    [g_argument]. *)
Definition generate (p : rcpsp) (r : string) (mult k assistants dur : nat) (order : list nat) (coin : nat -> nat -> bool)
    (ancestors : succs -> nat -> list nat) : res generated :=
  match p_res p with
  | Calendar _ => Err TypeError
  | Constant c =>
      let c := dset c r (Z.of_nat assistants) in
      let assisted := firstn k order in
      let* old := max_key (dkeys (p_modes p)) in
      let new := old + 2 * k in
      let* ms := new_modes (p_modes p) mult r old k (dkeys c) dur in
      let* s := rename_sink old new (p_succ p) in
      let* st := foldM (assist old new k assisted) (s, ([], [])) (seq 0 k) in
      let '(s, (pre, post)) := st in
      let* s := foldM (cross pre post coin) s (pairs (ssort Nat.leb assisted)) in
      let* s := close (ancestors s new) new (length ms - 2) s in
      Ok (Gen (Rcpsp (Constant c) (p_nonren p) ms s (p_horizon p) (p_mult p)) pre post (Constant c))
  end.
