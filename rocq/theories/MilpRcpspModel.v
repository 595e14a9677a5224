(** The integer programs of project scheduling: rcpsp/solver/rcpsp_lp_solver.py of
    skdecide/builders/discrete_optimization.  The start solution (a greedy or dummy one) only enters through its
    makespan and its flag [rcpsp_schedule_feasible]; warm starts, solver parameters, printing and the fitness
    computed when reading back are not modelled.  Task numbers are positive. *)
From Coq Require Import String.
From Coq Require Import List Bool Arith ZArith.
From Verif Require Import Py PyList SgsModel MilpModel.
Import ListNotations.
Open Scope nat_scope.

(** The variables [x[(task, mode, t)]] and [durations[task]]. *)
Inductive rvar := RX (task mode time : nat) | RD (task : nat).
Definition key : Type := nat * nat * nat.
Definition key_x (k : key) : expr rvar := let '(a, m, t) := k in evar (RX a m t).

(** [sorted(mode_details.keys())] *)
Definition rp_tasks (p : rcpsp) : list nat := ssort Nat.leb (dkeys (p_modes p)).
(** [mode_details[a][m]] *)
Definition mode_at (p : rcpsp) (a m : nat) : res mode := let* d := dgetE (p_modes p) a in dgetE d m.

(** * LP_MRCPSP, LP_MRCPSP_GUROBI *)
(** The start times: rcpsp_lp_solver.py:254-257, 272-275 (and 458-461, 476-481 with [max_horizon]): one more than the
    makespan of a feasible start solution, else the sum of the longest durations.  [max([])] raises. *)
Definition longest (p : rcpsp) (a : nat) : res nat :=
  let* d := dgetE (p_modes p) a in
  match d with
  | [] => Err ValueError
  | x :: d => Ok (fold_left (fun acc y => Nat.max acc (m_duration (snd y))) d (m_duration (snd x)))
  end.
Definition rp_times (p : rcpsp) (feasible : bool) (makespan : nat) (max_horizon : option nat) : res (list nat) :=
  let* ps := mapM (longest p) (rp_tasks p) in
  match max_horizon with
  | Some h => Ok (seq 0 (h + 1))
  | None => if feasible then Ok (seq 0 (makespan + 1)) else Ok (seq 0 (fold_left Nat.add ps 0))
  end.

(** [variable_per_task]: rcpsp_lp_solver.py:281-289, 488-501 *)
Definition keys_of (p : rcpsp) (T : list nat) (a : nat) : res (nat * list key) :=
  let* d := dgetE (p_modes p) a in
  Ok (a, flat_map (fun m => map (fun t => (a, m, t)) T) (dkeys d)).
(** [renewable_quantity[r][t]], [non_renewable_quantity[r][0]]: rcpsp_lp_solver.py:260-262, 294-302 *)
Definition quantity (p : rcpsp) (r : string) (t : nat) : res Z :=
  match p_res p with
  | Constant c => dgetE c r
  | Calendar c => let* row := dgetE c r in lget row t
  end.
(** rcpsp_lp_solver.py:304-308 (gurobi: 497-500 and 523-526, by the sets [keys_for_t], whose lookup raises when no task
    takes any time, which is not modelled), one resource and one time *)
Definition rp_running (p : rcpsp) (xs : list key) (r : string) (t : nat) : res (constr rvar) :=
  let* terms := mapM (fun k : key => let '(a, m, s) := k in
                        let* md := mode_at p a m in
                        if (s <=? t) && (t <? s + m_duration md)
                        then let* n := dgetE (m_need md) r in Ok [escale n (key_x k)]
                        else Ok []) xs in
  let* q := quantity p r t in
  Ok (Constr (esum (concat terms)) SLe (econst q)).
(** rcpsp_lp_solver.py:310-312, 528-530: with no start time at all the list of quantities is empty *)
Definition rp_total (p : rcpsp) (T : list nat) (xs : list key) (r : string) : res (constr rvar) :=
  let* terms := mapM (fun k : key => let '(a, m, s) := k in
                        let* md := mode_at p a m in
                        let* n := dgetE (m_need md) r in Ok (escale n (key_x k))) xs in
  let* q := quantity p r 0 in
  match p_res p, T with
  | Constant _, [] => Err IndexError
  | _, _ => Ok (Constr (esum terms) SLe (econst q))
  end.
(** rcpsp_lp_solver.py:318-320, 537-539 *)
Definition rp_duration (p : rcpsp) (ak : nat * list key) : res (constr rvar) :=
  let* terms := mapM (fun k : key => let '(a, m, s) := k in
                        let* md := mode_at p a m in Ok (escale (Z.of_nat (m_duration md)) (key_x k))) (snd ak) in
  Ok (Constr (esum terms) SEq (evar (RD (fst ak)))).
(** [key[2] * x[key]] for the keys of a task, with a sign *)
Definition time_terms (sign : Z) (ks : list key) : list (expr rvar) :=
  map (fun k : key => let '(_, _, t) := k in escale (sign * Z.of_nat t) (key_x k)) ks.
(** rcpsp_lp_solver.py:268-270, 321-325, 540-544, the successors of one task *)
Definition rp_after (p : rcpsp) (vpt : list (nat * list key)) (a : nat) : res (list (constr rvar)) :=
  let* l := dgetE (p_succ p) a in
  mapM (fun b => let* kb := dgetE vpt b in
                 let* ka := dgetE vpt a in
                 Ok (Constr (esum (time_terms 1 kb ++ time_terms (-1) ka)) SGe (evar (RD a)))) l.

(** [non_renewable = {r: resources[r] for r in non_renewable_resources}] raises for an unknown name *)
Definition rp_known (p : rcpsp) (r : string) : res string :=
  if pymem r (res_names p) then Ok r else Err KeyError.

(** init_model without a partial solution: rcpsp_lp_solver.py:254-325, 458-544 (the additional variables [starts] of
    the gurobi variant, 547-554, are sums of the others and are not modelled) *)
Definition rp_milp (p : rcpsp) (T : list nat) : res (milp rvar) :=
  let* vpt := mapM (keys_of p T) (rp_tasks p) in
  let xs := concat (map snd vpt) in
  let* nonren := mapM (rp_known p) (p_nonren p) in
  let* last := max_key (dkeys (p_modes p)) in
  let* kl := dgetE vpt last in
  let* caps := mapM (fun rt : string * nat => rp_running p xs (fst rt) (snd rt))
                    (flat_map (fun r => map (pair r) T) (filter (fun r => negb (pymem r (p_nonren p))) (res_names p))) in
  let* tots := mapM (rp_total p T xs) nonren in
  let* durs := mapM (rp_duration p) vpt in
  let* prec := mapM (rp_after p vpt) (rp_tasks p) in
  Ok (Milp (map (fun k : key => let '(a, m, t) := k in binary_var (RX a m t)) xs ++ map (fun ak => Var (RD (fst ak)) 0 None) vpt)
           (map (fun ak : nat * list key => Constr (esum (map key_x (snd ak))) SEq (econst 1)) vpt ++
            caps ++ tots ++ durs ++ concat prec)
           (esum (time_terms 1 kl)) false).

(** PartialSolution: rcpsp_model.py:456-469 *)
Record partial_solution := PSolution {
  ps_task_mode : option (list (nat * nat));
  ps_start_times : option (list (nat * nat));
  ps_end_times : option (list (nat * nat));
  ps_permutation : option (list nat);
  ps_orders : option (list (list nat)) }.
(** [zip(l[:-1], l[1:])] *)
Definition consecutive (l : list nat) : list (nat * nat) := combine (removelast l) (tl l).
Definition rp_fixed (vpt : list (nat * list key)) (at_ : nat * nat) : res (constr rvar) :=
  let* ks := dgetE vpt (fst at_) in
  Ok (Constr (esum (map key_x (filter (fun k : key => let '(_, _, t) := k in t =? snd at_) ks))) SEq (econst 1)).
Definition rp_not_after (vpt : list (nat * list key)) (ab : nat * nat) : res (constr rvar) :=
  let* ka := dgetE vpt (fst ab) in
  let* kb := dgetE vpt (snd ab) in
  Ok (Constr (esum (time_terms 1 ka ++ time_terms (-1) kb)) SLe (econst 0)).
Definition given {A} (o : option (list A)) : list A := match o with Some l => l | None => [] end.
(** The constraints of a partial solution in LP_MRCPSP: rcpsp_lp_solver.py:339-358; [task_mode] and [end_times] are
    not looked at. *)
Definition rp_partial (p : rcpsp) (T : list nat) (ps : partial_solution) : res (list (constr rvar)) :=
  let* vpt := mapM (keys_of p T) (rp_tasks p) in
  let* c1 := mapM (rp_fixed vpt) (given (ps_start_times ps)) in
  let* c2 := mapM (rp_not_after vpt) (consecutive (given (ps_permutation ps))) in
  let* c3 := mapM (rp_not_after vpt) (flat_map consecutive (given (ps_orders ps))) in
  Ok (c1 ++ c2 ++ c3).
(** LP_MRCPSP.init_model with the argument [partial_solution] *)
Definition rp_milp_partial (p : rcpsp) (T : list nat) (ps : option partial_solution) : res (milp rvar) :=
  let* P := rp_milp p T in
  match ps with
  | None => Ok P
  | Some ps => let* cs := rp_partial p T ps in Ok (Milp (p_vars P) (p_constrs P ++ cs) (p_obj P) (p_max P))
  end.

(** retrieve_solutions, one solution of the pool: rcpsp_lp_solver.py:370-387, 613-631.  An error while building the
    solution makes it disappear from the result. *)
Definition rp_read (p : rcpsp) (v : rvar -> Z) (st : schedule * list (nat * nat)) (k : key) : res (schedule * list (nat * nat)) :=
  let '(a, m, t) := k in
  if (1 <=? v (RX a m t))%Z
  then let* md := mode_at p a m in
       Ok (dset (fst st) a (Z.of_nat t, (Z.of_nat t + Z.of_nat (m_duration md))%Z), dset (snd st) a m)
  else Ok st.
Definition rp_retrieve (p : rcpsp) (T : list nat) (v : rvar -> Z) : res (list nat * schedule) :=
  let* vpt := mapM (keys_of p T) (rp_tasks p) in
  let* st := foldM (rp_read p v) ([], []) (concat (map snd vpt)) in
  let modes := snd st in
  let* _ := dgetE modes 1 in
  let modes := ddel modes 1 in
  let* _ := dgetE modes (p_sink p) in
  let modes := ddel modes (p_sink p) in
  let* vec := mapM (fun a => dgetE modes a) (ssort Nat.leb (dkeys modes)) in
  Ok (vec, fst st).

(** * LP_RCPSP: the single mode 1; [x[j][t]] is the variable [RX (j + 1) 1 t] *)
(** [p[j]] and [u[j]]: rcpsp_lp_solver.py:68-81 *)
Definition sm_task (p : rcpsp) (a : nat) : res (nat * list Z) :=
  let* m := mode_at p a 1 in
  let* u := mapM (fun r => dgetE (m_need m) r) (res_names p) in
  Ok (m_duration m, u).
Definition sm_x (n : nat) (j t : nat) : res (expr rvar) :=
  if j <? n then Ok (evar (RX (j + 1) 1 t)) else Err IndexError.
(** rcpsp_lp_solver.py:85, 112-115, one resource (by position) and one time; with a calendar [c[r]] is a list *)
Definition sm_capacity (p : rcpsp) (r : nat) : res Z :=
  match p_res p with
  | Constant c => lget (map snd c) r
  | Calendar _ => Err TypeError
  end.
Definition sm_running (p : rcpsp) (data : list (nat * list Z)) (r t : nat) : res (constr rvar) :=
  let* terms := mapM (fun jd : nat * (nat * list Z) =>
                        mapM (fun t2 => let* n := lget (snd (snd jd)) r in
                                        Ok (escale n (evar (RX (fst jd + 1) 1 t2))))
                             (seq (t + 1 - fst (snd jd)) (t + 1 - (t + 1 - fst (snd jd)))))
                     (combine (seq 0 (length data)) data) in
  let* q := sm_capacity p r in
  Ok (Constr (esum (concat terms)) SLe (econst q)).
(** rcpsp_lp_solver.py:92-94 and 117-118, the successors of one task; [S] holds the numbers minus one *)
Definition sm_after (p : rcpsp) (data : list (nat * list Z)) (T : list nat) (a : nat) : res (list (constr rvar)) :=
  let* l := dgetE (p_succ p) a in
  mapM (fun b => let* xs := mapM (fun t => let* xb := sm_x (length data) (b - 1) t in
                                           let* xa := sm_x (length data) (a - 1) t in
                                           Ok (eadd (escale (Z.of_nat t) xb) (escale (- Z.of_nat t) xa))) T in
                 let* d := lget data (a - 1) in
                 Ok (Constr (esum xs) SGe (econst (Z.of_nat (fst d))))) l.
(** LP_RCPSP.init_model: rcpsp_lp_solver.py:96-118, [makespan] that of the start solution; and 128-163: a partial
    solution is an object without the attribute [start_at_end], which is read whatever it contains (an earlier error,
    for tasks or times that do not exist, is not modelled). *)
Definition sm_milp (p : rcpsp) (makespan : nat) (ps : option partial_solution) : res (milp rvar) :=
  let T := seq 0 (makespan + 1) in
  let* data := mapM (sm_task p) (rp_tasks p) in
  let J := seq 0 (length data) in
  let* caps := mapM (fun rt : nat * nat => sm_running p data (fst rt) (snd rt))
                    (flat_map (fun r => map (pair r) T) (seq 0 (length (res_names p)))) in
  let* prec := mapM (sm_after p data T) (rp_tasks p) in
  match ps with
  | Some _ => Err AttributeError
  | None =>
      Ok (Milp (flat_map (fun j => map (fun t => binary_var (RX (j + 1) 1 t)) T) J)
               (map (fun j => Constr (esum (map (fun t => evar (RX (j + 1) 1 t)) T)) SEq (econst 1)) J ++ caps ++ concat prec)
               (esum (map (fun t => escale (Z.of_nat t) (evar (RX (length data - 1 + 1) 1 t))) T)) false)
  end.
(** LP_RCPSP.retrieve_solutions, one solution: rcpsp_lp_solver.py:175-181 *)
Definition sm_read (p : rcpsp) (v : rvar -> Z) (sch : schedule) (jt : nat * nat) : res schedule :=
  let '(j, t) := jt in
  if (1 <=? v (RX (j + 1) 1 t))%Z
  then let* md := mode_at p (j + 1) 1 in Ok (dset sch (j + 1) (Z.of_nat t, (Z.of_nat t + Z.of_nat (m_duration md))%Z))
  else Ok sch.
Definition sm_retrieve (p : rcpsp) (makespan : nat) (v : rvar -> Z) : res schedule :=
  foldM (sm_read p v) [] (flat_map (fun j => map (pair j) (seq 0 (makespan + 1))) (seq 0 (length (p_modes p)))).
