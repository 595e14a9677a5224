(** The pile (parallel schedule generation) solver:
    skdecide/builders/discrete_optimization/rcpsp/solver/rcpsp_pile.py.

    - The instance is the one of [SgsModel], with constant capacities ([self.resources]).
    - The predecessor sets ([predecessors_map], [immediate_predecessors]) and neighbour lists come from
      the external library networkx: they are parameters ([preds], [nbrs]).
    - The activity chosen among the possible ones is an oracle ([choose]), which covers the four greedy
      rules and, since Python iterates over sets, every order of the set [available_activities].
    - The counter "nb" kept beside every set "succs" is always the size of the set; the model uses the
      size.  The heap is a sorted list of pairs (end time, activity). *)
From Coq Require Import String.
From Coq Require Import List Bool Arith ZArith.
From Verif Require Import Py PyList SgsModel.
Import ListNotations.

(** [self.mode_details[n][self.modes_dict[n]][r]] and [...["duration"]] *)
Definition pile_need (p : rcpsp) (md : list (nat * nat)) (a : nat) (r : string) : res Z :=
  let* k := dgetE md a in need_of p a k r.
Definition pile_duration (p : rcpsp) (md : list (nat * nat)) (a : nat) : res nat :=
  let* k := dgetE md a in
  let* d := dgetE (p_modes p) a in let* m := dgetE d k in Ok (m_duration m).

(** The local variables of [solve]. *)
Record pile := Pile {
  l_sched : list (nat * (nat * nat));
  l_av : list nat;                      (* available_activities *)
  l_pred : list (nat * list nat);       (* current_pred *)
  l_res : list (string * Z);            (* current_ressource_available *)
  l_queue : list (nat * nat);
  l_time : nat;
  l_perm : list Z }.

(** [[n for n in available_activities if all(...)]]: rcpsp_pile.py:105-108, 146-149 (405-407, 423-426). *)
Fixpoint filterM {A} (f : A -> res bool) (l : list A) : res (list A) :=
  match l with
  | [] => Ok []
  | x :: l => let* b := f x in let* l' := filterM f l in Ok (if b then x :: l' else l')
  end.
Definition pile_fits (p : rcpsp) (md : list (nat * nat)) (rs : list (string * Z)) (a : nat) : res bool :=
  allM (fun r => let* n := pile_need p md a r in let* x := dgetE rs r in Ok (n <=? x)%Z) (dkeys rs).

(** [push(queue, (end, activity, "end_"))]: tuples are compared lexicographically. *)
Definition before (x y : nat * nat) : bool :=
  (fst x <? fst y) || (fst x =? fst y) && (snd x <=? snd y).
Definition qpush (x : nat * nat) (q : list (nat * nat)) : list (nat * nat) := sinsert before x q.

(** Starting the chosen activity: rcpsp_pile.py:132-142 (411-422 in the executor). *)
Definition pile_start (p : rcpsp) (md : list (nat * nat)) (resources : list (string * Z)) (a : nat) (st : pile)
  : res pile :=
  if pymem a (l_av st) then
    let* d := pile_duration p md a in
    let e := l_time st + d in
    let* rs := foldM (fun rs r => let* x := dgetE rs r in let* n := pile_need p md a r in Ok (dset rs r (x - n)%Z))
                     (l_res st) (dkeys resources) in
    Ok (Pile (dset (l_sched st) a (l_time st, e)) (pyremove a (l_av st)) (l_pred st) rs
             (qpush (e, a) (l_queue st)) (l_time st) (l_perm st ++ [(Z.of_nat a - 2)%Z]))
  else Err KeyError.

(** [while len(possible_activities) > 0]: rcpsp_pile.py:111-149 (408-426). *)
Fixpoint pile_fill (fuel : nat) (p : rcpsp) (md : list (nat * nat)) (resources : list (string * Z))
  (choose : nat -> list nat -> res nat) (st : pile) : res pile :=
  let* poss := filterM (pile_fits p md (l_res st)) (l_av st) in
  match poss with
  | [] => Ok st
  | _ =>
      match fuel with
      | 0 => Err OutOfFuel
      | S fuel =>
          let* a := choose (length (l_sched st)) poss in
          let* st' := pile_start p md resources a st in
          pile_fill fuel p md resources choose st'
      end
  end.

(** [for neighbor in ...: if activity in current_pred[neighbor]["succs"]: ...]: rcpsp_pile.py:90-95,
    151-156 (394-399, 429-434). *)
Definition pile_unlock (a : nat) (s : list (nat * list nat) * list nat) (b : nat)
  : res (list (nat * list nat) * list nat) :=
  let* l := dgetE (fst s) b in
  if pymem a l then
    let l' := pyremove a l in
    Ok (dset (fst s) b l', match l' with [] => pyadd (snd s) b | _ => snd s end)
  else Ok s.

(** [current_time, activity, descr = pop(queue)] and the release of the renewable resources:
    rcpsp_pile.py:150-159 (428-437). *)
Definition pile_pop (p : rcpsp) (md : list (nat * nat)) (resources : list (string * Z)) (nbrs : nat -> list nat)
  (st : pile) : res pile :=
  match l_queue st with
  | [] => Err IndexError
  | (e, a) :: q =>
      let* pa := foldM (pile_unlock a) (l_pred st, l_av st) (nbrs a) in
      let* rs := foldM (fun rs r => if pymem r (p_nonren p) then Ok rs
                          else let* x := dgetE rs r in let* n := pile_need p md a r in Ok (dset rs r (x + n)%Z))
                       (l_res st) (dkeys resources) in
      Ok (Pile (l_sched st) (snd pa) (fst pa) rs q e (l_perm st))
  end.

(** [while len(schedule) < self.n_jobs+2]: rcpsp_pile.py:101-159 (404-437). *)
Fixpoint pile_loop (fuel : nat) (p : rcpsp) (md : list (nat * nat)) (resources : list (string * Z))
  (nbrs : nat -> list nat) (choose : nat -> list nat -> res nat) (st : pile) : res pile :=
  if length (l_sched st) <? p_sink p then
    match fuel with
    | 0 => Err OutOfFuel
    | S fuel =>
        let* st1 := pile_fill (length (l_av st)) p md resources choose st in
        let* st2 := pile_pop p md resources nbrs st1 in
        pile_loop fuel p md resources nbrs choose st2
    end
  else Ok st.

(** The beginning of [solve]: rcpsp_pile.py:77-100 (382-403). *)
Definition pile_init (p : rcpsp) (resources : list (string * Z)) (preds : list (nat * list nat)) (nbrs : nat -> list nat)
  : res pile :=
  let* _ := mapM (dgetE resources) (p_nonren p) in
  let av := filter (fun a => negb (a =? 1) && match dget preds a with Some [] => true | _ => false end) (dkeys preds)
            ++ filter (fun a => negb (dmem preds a)) (seq 1 (p_sink p)) in
  let* pa := foldM (pile_unlock 1) (preds, av) (nbrs 1) in
  Ok (Pile [(1, (0, 0))] (snd pa) (fst pa) resources [] 0 []).

Definition pile_run (p : rcpsp) (md : list (nat * nat)) (resources : list (string * Z)) (preds : list (nat * list nat))
  (nbrs : nat -> list nat) (choose : nat -> list nat -> res nat) : res pile :=
  let* st := pile_init p resources preds nbrs in
  pile_loop (p_sink p) p md resources nbrs choose st.

(** The schedule, permutation and modes of the solution: rcpsp_pile.py:162-166; in the executor the
    modes are read with another offset: 439-444. *)
Definition pile_schedule (st : pile) : schedule :=
  map (fun x : nat * (nat * nat) => (fst x, (Z.of_nat (fst (snd x)), Z.of_nat (snd (snd x))))) (l_sched st).
Definition pile_modes (p : rcpsp) (offset : nat) (md : list (nat * nat)) : res (list nat) :=
  mapM (fun i => dgetE md (i + offset)) (seq 0 (p_sink p - 2)).

(** PileSolverRCPSP.solve (rcpsp_pile.py:74-172); [preds] are the ancestors, and the loops run over all
    the tasks of [current_pred]. *)
Definition pile_solve (p : rcpsp) (md : list (nat * nat)) (resources : list (string * Z)) (preds : list (nat * list nat))
  (choose : nat -> list nat -> res nat) : res (list nat * (schedule * list Z)) :=
  let* st := pile_run p md resources preds (fun _ => dkeys preds) choose in
  let* modes := pile_modes p 2 md in
  Ok (modes, (pile_schedule st, removelast (l_perm st))).

(** [max(possible_activities, key=...)] and [min(...)]: the first best element: rcpsp_pile.py:112-131. *)
Definition first_best (better : nat -> nat -> bool) (l : list nat) : res nat :=
  match l with
  | [] => Err ValueError
  | x :: l => Ok (fold_left (fun b y => if better y b then y else b) l x)
  end.
Definition most_successors (nb : nat -> nat) (step : nat) (l : list nat) : res nat :=
  first_best (fun x y => nb y <? nb x) l.
(** GreedyChoice.FASTEST: rcpsp_pile.py:127-129 *)
Definition fastest (duration : nat -> nat) (step : nat) (l : list nat) : res nat :=
  first_best (fun x y => duration x <? duration y) l.
(** [random.choice] and [np.random.choice]: rcpsp_pile.py:115-126, 130-131; [rnd] is the random stream. *)
Definition at_random (rnd : nat -> nat) (step : nat) (l : list nat) : res nat :=
  match l with [] => Err IndexError | _ => lget l (rnd step mod length l) end.

(** [permutation_jobs.index(x)]: rcpsp_pile.py:410 *)
Fixpoint index_of (x : nat) (l : list nat) : option nat :=
  match l with [] => None | y :: l => if x =? y then Some 0 else option_map S (index_of x l) end.
(** [min(possible_activities, key=lambda x: permutation_jobs.index(x))]: rcpsp_pile.py:409-410.  The
    activities already started are removed from the list (417), which keeps the order of the others. *)
Definition by_priority (perm : list nat) (step : nat) (l : list nat) : res nat :=
  let* ks := mapM (fun x => match index_of x perm with Some i => Ok (i, x) | None => Err ValueError end) l in
  match ks with
  | [] => Err ValueError
  | k :: ks => Ok (snd (fold_left (fun b y : nat * nat => if fst y <? fst b then y else b) ks k))
  end.

(** [immediate_predecessors] and [immediate_successors]: rcpsp_pile.py:372-373, from the graph built by
    RCPSPModel.compute_graph (rcpsp_model.py:507-515); the nodes are the tasks 1 to [n_jobs + 2]. *)
Definition imm_preds (p : rcpsp) : list (nat * list nat) :=
  map (fun b => (b, map fst (filter (fun kv : nat * list nat => pymem b (snd kv)) (p_succ p)))) (seq 1 (p_sink p)).
Definition imm_succs (p : rcpsp) (a : nat) : list nat :=
  match dget (p_succ p) a with Some l => pyset l | None => [] end.

(** Executor.compute_schedule_from_priority_list: rcpsp_pile.py:379-450. *)
Definition execute (p : rcpsp) (md : list (nat * nat)) (resources : list (string * Z)) (perm : list nat)
  : res (list nat * (schedule * list Z)) :=
  if pymem 1 perm then
    let* st := pile_run p md resources (imm_preds p) (imm_succs p) (by_priority perm) in
    let* modes := pile_modes p 1 md in
    Ok (modes, (pile_schedule st, removelast (l_perm st)))
  else Err ValueError.
