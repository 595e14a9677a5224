(** Multi-skill project scheduling: C94 (checking a staffed schedule), C95 (the generation scheme),
    C96 (priorities read from a schedule, copies of a problem). *)
From Coq Require Import String.
From Coq Require Import List Bool Arith ZArith Lia Permutation.
From Verif Require Import Py PyList SgsModel MskModel SgsProps MskSpec MskSatProofs MskEndProofs MskTotalProofs MskVarProofs.
Import ListNotations.
Local Open Scope string_scope.

(** * A small project *)
(** Workers 1 (skill s), 2 (skill q, absent at times 2 and 3) and 3 (both skills); tasks 2 and 3 between
    the source 1 and the sink 4; one renewable resource r and one non-renewable resource b. *)
Definition ex_modes : list (nat * list (nat * mode)) :=
  [(1, [(1, Mode 0 [("r", 0%Z); ("b", 0%Z)])]);
   (2, [(1, Mode 2 [("r", 1%Z); ("b", 1%Z); ("s", 1%Z)]); (2, Mode 1 [("r", 2%Z); ("b", 2%Z); ("s", 2%Z)])]);
   (3, [(1, Mode 3 [("r", 1%Z); ("b", 1%Z); ("s", 1%Z); ("q", 1%Z)])]);
   (4, [(1, Mode 0 [("r", 0%Z); ("b", 0%Z)])])].
Definition ex_base : rcpsp := Rcpsp
  (Calendar [("r", repeat 2%Z 13); ("b", repeat 3%Z 13)]) ["b"] ex_modes [(1, [2; 3]); (2, [4]); (3, [4]); (4, [])] 12 1.
Definition ex_emps : list (nat * employee) :=
  [(1, Emp [("s", 1%Z)] (repeat true 12));
   (2, Emp [("q", 1%Z)] ([true; true; false; false] ++ repeat true 8));
   (3, Emp [("s", 1%Z); ("q", 1%Z)] (repeat true 12))].
Definition ex : ms := Ms ex_base ["s"; "q"] ex_emps 4 1 false.
Definition ex_perm := [0; 1].
Definition ex_prios := [[3; 1; 2]; [1; 2; 3]].
Definition ex_sol : msol := Msol [(1, (0, 0)%Z); (2, (0, 2)%Z); (3, (4, 7)%Z); (4, (7, 7)%Z)]
  [(1, 1); (2, 1); (3, 1); (4, 1)] [(2, [(3, ["s"])]); (3, [(1, ["s"]); (2, ["q"])])].

Example ex_run : sgs_multi_skill ex ex_perm [1; 1] ex_prios =
  Ok (Msol [(1, (0, 0)%Z); (2, (0, 2)%Z); (3, (2, 5)%Z); (4, (5, 5)%Z)] [(1, 1); (2, 1); (3, 1); (4, 1)]
       [(2, [(3, ["s"])]); (3, [(1, ["s"]); (3, ["s"; "q"])])]).
Proof. vm_compute. reflexivity. Qed.

Ltac enum H := apply dget_In in H; cbv [ex ex_base ex_modes ex_emps ms_base ms_emps p_modes p_succ In] in H;
  repeat (destruct H as [H|H]); try contradiction; injection H as; subst.

Lemma ex_capacity : forall r t c, capacity_of ex_base r t = Some c <-> t < 13 /\ ((r = "r" /\ c = 2%Z) \/ (r = "b" /\ c = 3%Z)).
Proof.
  intros r t c. unfold capacity_of. cbn [ex_base p_res]. split.
  - intros H. destruct (dget _ r) as [row|] eqn:E; [|discriminate]. apply dget_In in E. cbn [In] in E.
    assert (L : t < length row) by (apply nth_error_Some; congruence).
    destruct E as [E|[E|[]]]; pose proof (f_equal fst E) as E1; pose proof (f_equal snd E) as E2; cbn [fst snd] in E1, E2;
      rewrite <- E1; rewrite <- E2 in H, L; (split; [rewrite repeat_length in L; exact L|]);
      apply nth_error_In, repeat_spec in H; auto.
  - intros (L & [[-> ->]|[-> ->]]); cbn [dget]; cbn - [repeat nth_error]; apply nth_error_repeat; exact L.
Qed.

Lemma ex_data : ms_data ex 2.
Proof.
  constructor.
  - apply Permutation_refl.
  - reflexivity.
  - repeat constructor; cbn; intuition discriminate.
  - intros r t c H. apply (ex_capacity r t c) in H. intuition lia.
  - intros a d k m Hd Hm. enum Hd; enum Hm; repeat constructor; cbn; intuition discriminate.
  - intros a d k m r z Hd Hm Hz. enum Hd; enum Hm; enum Hz; lia.
  - repeat constructor; cbn; intuition discriminate.
  - intros w e H. enum H; repeat constructor; cbn; intuition discriminate.
  - repeat constructor; cbn; intuition discriminate.
  - intros a H. cbn in H. lia.
  - exists (fun a => a). intros a l b Hl Hb. enum Hl; cbn in Hb; lia.
  - reflexivity.
  - intros d m Hd Hm. enum Hd; enum Hm; try discriminate; reflexivity.
  - intros a d k m s z Hd Hm Is Hz L. enum Hd; enum Hm; cbn; try lia; enum Hz; lia.
Qed.

Lemma ex_flat : ms_flat ex.
Proof.
  constructor.
  - intros r t c Ir L H. apply (ex_capacity r 0 c) in H. apply (ex_capacity r t c). cbn in L. split; [lia|tauto].
  - intros a d k m r z Ir Hd Hm Z0 Hz. enum Hd; enum Hm; cbn in Z0; try lia; enum Hz; reflexivity.
Qed.

Lemma ex_full : ms_full ex 2.
Proof.
  constructor.
  - intros r t Ir L. cbn in Ir, L. assert (Lt : t < 13) by lia. destruct Ir as [<-|[<-|[]]]; eexists; apply (ex_capacity _ t); split; eauto.
  - intros a d k m r Hd Hm Ir. cbn in Ir. enum Hd; enum Hm; destruct Ir as [<-|[<-|[]]]; eexists; reflexivity.
  - intros a [-> | ->]; do 2 eexists; split; reflexivity.
  - intros a L. assert (E : a = 1 \/ a = 2 \/ a = 3 \/ a = 4) by lia. destruct E as [->|[->|[-> | ->]]]; eexists; reflexivity.
  - intros a l b Hl Hb. enum Hl; cbn in Hb; lia.
  - intros w e H. enum H; cbn; lia.
  - intros r Ir. cbn in *. tauto.
  - intros a d k m s z Ha Hd Hm Is Hz. enum Hd; try lia; enum Hm; enum Hz; lia.
Qed.

Lemma ex_choice : ms_choice ex 2 ex_perm [1; 1] ex_prios.
Proof.
  constructor; [apply Permutation_refl|reflexivity| |].
  - intros [|[|i]] k H; cbn in H; try discriminate; [injection H as <-..|destruct i; discriminate]; do 2 eexists; split; reflexivity.
  - intros pr [<-|[<-|[]]]; cbn; [|apply Permutation_refl]. apply (Permutation_middle [1; 2] [] 3).
Qed.

(** * C94: checking a staffed schedule *)

(** A solution with the entries the problem asks for is accepted exactly when every task has a team
    with the skills it needs, the teams are at work while their tasks run, nobody is at two places,
    resources suffice up to the end of the sink, and precedences hold. *)
Theorem C94_satisfy : forall x sol, ms_wf x sol -> (ms_satisfy x sol = Ok true <-> ms_ok x sol).
Proof. exact satisfy_ok. Qed.
Print Assumptions C94_satisfy.

(** When a team is recorded for every task that needs a skill, the answer is always a boolean; so the
    other solutions are rejected. *)
Theorem C94_decides : forall x sol, ms_wf x sol ->
  (forall a s, In a (tasks_of x) -> In s (ms_skills x) -> (0 < need_in x sol a s)%Z -> exists u, dget (s_use sol) a = Some u) ->
  (ms_satisfy x sol = Ok true /\ ms_ok x sol) \/ (ms_satisfy x sol = Ok false /\ ~ ms_ok x sol).
Proof.
  intros x sol W Rec. destruct (satisfy_total x sol W Rec) as [b E]. destruct b.
  - left. split; auto. apply C94_satisfy; auto.
  - right. split; auto. intros K. apply C94_satisfy in K; auto. congruence.
Qed.
Print Assumptions C94_decides.

Lemma ex_wf : forall s2 e2 s3 e3 s4 e4 use, (0 <= s2)%Z -> (0 <= s3)%Z -> (0 <= s4)%Z -> (e4 <= 12)%Z ->
  (forall a u w l, dget use a = Some u -> In (w, l) u -> exists e, dget ex_emps w = Some e /\
     forall s, In s l -> exists v, dget (e_skill e) s = Some v) -> (e2 <= 12)%Z -> (e3 <= 12)%Z ->
  ms_wf ex (Msol [(1, (0, 0)%Z); (2, (s2, e2)); (3, (s3, e3)); (4, (s4, e4))] [(1, 1); (2, 1); (3, 1); (4, 1)] use).
Proof.
  intros s2 e2 s3 e3 s4 e4 use P2 P3 P4 L Us L2 L3. pose proof ex_data as D. pose proof ex_full as F.
  assert (T : forall a s e, time_of (Msol [(1, (0, 0)%Z); (2, (s2, e2)); (3, (s3, e3)); (4, (s4, e4))] [(1, 1); (2, 1); (3, 1); (4, 1)] use) a = Some (s, e) ->
    (0 <= s)%Z /\ (e <= 12)%Z).
  { intros a s e H. apply dget_In in H. cbn [s_sch In] in H. destruct H as [H|[H|[H|[H|[]]]]]; injection H as <- <- <-; lia. }
  constructor.
  - repeat constructor; cbn; intuition discriminate.
  - apply Permutation_refl.
  - intros a s e H. apply T in H. lia.
  - intros a Ia. cbn in Ia. repeat (destruct Ia as [<-|Ia]); try contradiction; eexists; reflexivity.
  - intros a m Ia M. unfold mode_in in M. destruct (dget _ a) as [k|]; [|discriminate].
    destruct (dget (p_modes (ms_base ex)) a) as [d|] eqn:E; [|discriminate]. exact (d_keys _ _ D a d k m E M).
  - cbn. auto.
  - exact (d_names _ _ D).
  - exact (u_nonren _ _ F).
  - intros a m r Ia M. unfold mode_in in M. destruct (dget _ a) as [k|]; [|discriminate].
    destruct (dget (p_modes (ms_base ex)) a) as [d|] eqn:E; [|discriminate]. exact (u_need _ _ F a d k m r E M).
  - intros r t Ir Q. assert (Lt : t < 13).
    { destruct Q as [->|(se & ee & H & Lt)]; [lia|]. apply T in H. lia. }
    cbn in Ir. destruct Ir as [<-|[<-|[]]]; eexists; apply (ex_capacity _ t); split; eauto.
  - intros a u w l Ia Hu Iw. cbn [s_use] in Hu. destruct (Us a u w l Hu Iw) as (e & De & Q). exists e. split; auto. split; auto.
    intros s f H. apply T in H. enum De; cbn; lia.
  - exact (d_succ _ _ D).
  - intros a l Hl. split.
    + apply dget_In in Hl. cbn in Hl. cbn. intuition congruence.
    + intros b Ib. pose proof (u_closed _ _ F a l b Hl Ib). cbn. lia.
Qed.

Ltac users_ex := intros a u w l Hu Iw; apply dget_In in Hu; cbn [In] in Hu; repeat (destruct Hu as [Hu|Hu]);
  try contradiction; injection Hu as <- <-; cbn [In] in Iw; repeat (destruct Iw as [Iw|Iw]); try contradiction;
  injection Iw as <- <-; eexists; (split; [reflexivity|]); intros s Is; cbn in Is;
  repeat (destruct Is as [<-|Is]); try contradiction; eexists; reflexivity.

(** The hypotheses of [C94_satisfy] and [C94_decides] hold of a schedule that is accepted, and of one
    in which worker 2 is away. *)
Example C94_accepts : ms_wf ex ex_sol /\ ms_satisfy ex ex_sol = Ok true /\
  (forall a s, In a (tasks_of ex) -> In s (ms_skills ex) -> (0 < need_in ex ex_sol a s)%Z -> exists u, dget (s_use ex_sol) a = Some u).
Proof.
  split; [apply ex_wf; try lia; users_ex|]. split; [vm_compute; reflexivity|].
  intros a s Ia Is L. cbn in Ia, Is. repeat (destruct Ia as [<-|Ia]); try contradiction; repeat (destruct Is as [<-|Is]); try contradiction;
    try (vm_compute in L; discriminate); eexists; reflexivity.
Qed.
Definition ex_away : msol := Msol [(1, (0, 0)%Z); (2, (0, 2)%Z); (3, (1, 4)%Z); (4, (4, 4)%Z)]
  [(1, 1); (2, 1); (3, 1); (4, 1)] [(2, [(3, ["s"])]); (3, [(1, ["s"]); (2, ["q"])])].
Example C94_rejects : ms_wf ex ex_away /\ ms_satisfy ex ex_away = Ok false.
Proof. split; [apply ex_wf; try lia; users_ex|vm_compute; reflexivity]. Qed.

(** Nothing checks that a task lasts as long as its mode: task 3 needs three units of time and gets
    one, and the schedule is accepted. *)
Definition ex_short : msol := Msol [(1, (0, 0)%Z); (2, (0, 2)%Z); (3, (4, 5)%Z); (4, (5, 5)%Z)]
  [(1, 1); (2, 1); (3, 1); (4, 1)] [(2, [(3, ["s"])]); (3, [(1, ["s"]); (2, ["q"])])].
Theorem C94_length_refuted : exists x sol a s e m, ms_wf x sol /\ ms_satisfy x sol = Ok true /\
  time_of sol a = Some (s, e) /\ mode_in x sol a = Some m /\ (e < s + Z.of_nat (m_duration m))%Z.
Proof.
  exists ex, ex_short, 3, 4%Z, 5%Z, (Mode 3 [("r", 1%Z); ("b", 1%Z); ("s", 1%Z); ("q", 1%Z)]).
  split; [apply ex_wf; try lia; users_ex|]. split; [vm_compute; reflexivity|]. split; [reflexivity|]. split; [reflexivity|]. cbn. lia.
Qed.
Print Assumptions C94_length_refuted.

(** A problem with [one_unit_per_task_max] asks for one worker per task; a schedule with a team of two
    is accepted all the same. *)
Theorem C94_one_unit_refuted : exists x sol a w w', ms_one x = true /\ ms_satisfy x sol = Ok true /\
  works sol a w /\ works sol a w' /\ w <> w'.
Proof.
  exists (Ms ex_base ["s"; "q"] ex_emps 4 1 true), ex_sol, 3, 1, 2. split; [reflexivity|]. split; [vm_compute; reflexivity|].
  split; [eexists; split; [reflexivity|cbn; auto]|]. split; [eexists; split; [reflexivity|cbn; auto]|]. lia.
Qed.
Print Assumptions C94_one_unit_refuted.

(** Resources are only checked until the end of the sink: two tasks that follow nothing and precede
    nothing run together after it, use three units of a resource that has two, and the schedule is
    accepted. *)
Definition ex_loose : ms := Ms
  (Rcpsp (Calendar [("r", repeat 2%Z 13)]) [] [(1, [(1, Mode 0 [("r", 0%Z)])]); (2, [(1, Mode 2 [("r", 1%Z)])]); (3, [(1, Mode 2 [("r", 2%Z)])]);
     (4, [(1, Mode 0 [("r", 0%Z)])])] [(1, [4]); (2, []); (3, []); (4, [])] 12 1) [] [] 4 1 false.
Theorem C94_after_sink_refuted : exists x sol r t c, ms_satisfy x sol = Ok true /\
  capacity_of (ms_base x) r t = Some c /\ (c < running_use x sol r (Z.of_nat t))%Z.
Proof.
  exists ex_loose, (Msol [(1, (0, 0)%Z); (2, (1, 3)%Z); (3, (1, 3)%Z); (4, (0, 0)%Z)] [(1, 1); (2, 1); (3, 1); (4, 1)] []), "r", 1, 2%Z.
  split; [vm_compute; reflexivity|]. split; [reflexivity|]. vm_compute. reflexivity.
Qed.
Print Assumptions C94_after_sink_refuted.

(** A solution without a team for a task that needs one is not rejected: looking up the team raises
    [KeyError]. *)
Theorem C94_no_team_refuted : exists x sol, ms_wf x sol /\ ms_satisfy x sol = Err KeyError.
Proof.
  exists ex, (Msol [(1, (0, 0)%Z); (2, (0, 2)%Z); (3, (4, 7)%Z); (4, (7, 7)%Z)] [(1, 1); (2, 1); (3, 1); (4, 1)] []).
  split; [apply ex_wf; try lia; intros a u w l Hu; discriminate|vm_compute; reflexivity].
Qed.
Print Assumptions C94_no_team_refuted.

(** * C95: the generation scheme *)

(** When the sink gets a time, the schedule is complete: every task once, for the length of its mode,
    before the horizon, with precedences, resources, teams, calendars and one place per worker
    respected, and with one worker per task when the problem says so. *)
Theorem C95_complete : forall x n perm modes prios sol, ms_data x n -> ms_flat x -> ms_choice x n perm modes prios ->
  sgs_multi_skill x perm modes prios = Ok sol -> time_of sol (ms_sink x) <> Some marker -> ms_complete x sol.
Proof. intros x n perm modes prios sol D F C R T. eapply run_complete; eauto. Qed.
Print Assumptions C95_complete.

(** Then the checker accepts it. *)
Theorem C95_checked : forall x n perm modes prios sol, ms_data x n -> ms_flat x -> ms_full x n -> ms_choice x n perm modes prios ->
  sgs_multi_skill x perm modes prios = Ok sol -> time_of sol (ms_sink x) <> Some marker -> ms_satisfy x sol = Ok true.
Proof.
  intros x n perm modes prios sol D F U C R T. apply C94_satisfy.
  - eapply run_wf; eauto.
  - eapply z_ok. eapply C95_complete; eauto.
Qed.
Print Assumptions C95_checked.

(** When no complete schedule was found, the tasks that were placed before the marker was put on the
    sink still respect everything except the non-renewable resources. *)
Theorem C95_placed : forall x n perm modes prios sol, ms_data x n -> ms_choice x n perm modes prios ->
  sgs_multi_skill x perm modes prios = Ok sol -> ms_part x sol.
Proof. intros x n perm modes prios sol D C R. eapply run_part; eauto. Qed.
Print Assumptions C95_placed.

(** On a complete problem, with a priority list for every task, the scheme always returns a solution. *)
Theorem C95_total : forall x n perm modes prios, ms_data x n -> ms_full x n -> ms_choice x n perm modes prios ->
  length prios = n -> exists sol, sgs_multi_skill x perm modes prios = Ok sol.
Proof. exact run_total. Qed.
Print Assumptions C95_total.

Example C95_hypotheses : ms_data ex 2 /\ ms_flat ex /\ ms_full ex 2 /\ ms_choice ex 2 ex_perm [1; 1] ex_prios /\ length ex_prios = 2 /\
  exists sol, sgs_multi_skill ex ex_perm [1; 1] ex_prios = Ok sol /\ time_of sol (ms_sink ex) = Some (5, 5)%Z.
Proof.
  split; [exact ex_data|]. split; [exact ex_flat|]. split; [exact ex_full|]. split; [exact ex_choice|]. split; [reflexivity|].
  eexists. split; [exact ex_run|reflexivity].
Qed.

(** A mode that a task does not have is replaced by mode 1 in the schedule, but the solution still
    names the missing mode, and checking it raises [KeyError]. *)
Theorem C95_modes_refuted : exists x n perm modes prios sol, ms_data x n /\ ms_full x n /\ Permutation perm (seq 0 n) /\ length modes = n /\
  sgs_multi_skill x perm modes prios = Ok sol /\ time_of sol (ms_sink x) = Some (5, 5)%Z /\ ms_satisfy x sol = Err KeyError.
Proof.
  exists ex, 2, ex_perm, [7; 1], ex_prios, (Msol [(1, (0, 0)%Z); (2, (0, 2)%Z); (3, (2, 5)%Z); (4, (5, 5)%Z)] [(1, 1); (2, 7); (3, 1); (4, 1)]
       [(2, [(3, ["s"])]); (3, [(1, ["s"]); (3, ["s"; "q"])])]).
  split; [exact ex_data|]. split; [exact ex_full|]. split; [apply Permutation_refl|]. split; [reflexivity|].
  split; [vm_compute; reflexivity|]. split; vm_compute; reflexivity.
Qed.
Print Assumptions C95_modes_refuted.

(** A priority list that leaves a worker out gives a task without the team it needs, and a time for
    the sink. *)
Theorem C95_missing_worker_refuted : exists x n perm modes prios sol a, ms_data x n /\ ms_full x n /\ Permutation perm (seq 0 n) /\ length modes = n /\
  sgs_multi_skill x perm modes prios = Ok sol /\ time_of sol (ms_sink x) = Some (3, 3)%Z /\ In a (tasks_of x) /\
  (team_level x sol a "s" < need_in x sol a "s")%Z.
Proof.
  exists ex, 2, ex_perm, [1; 1], [[2]; [1; 2; 3]],
    (Msol [(1, (0, 0)%Z); (2, (0, 2)%Z); (3, (0, 3)%Z); (4, (3, 3)%Z)] [(1, 1); (2, 1); (3, 1); (4, 1)] [(3, [(1, ["s"]); (3, ["s"; "q"])])]), 2.
  split; [exact ex_data|]. split; [exact ex_full|]. split; [apply Permutation_refl|]. split; [reflexivity|].
  split; [vm_compute; reflexivity|]. split; [reflexivity|]. split; [cbn; auto|]. vm_compute. reflexivity.
Qed.
Print Assumptions C95_missing_worker_refuted.

(** A project that fills the horizon exactly is declared impossible: with horizon 5 a chain that ends
    at 4 is scheduled, with horizon 4 the same chain is not. *)
Definition chain (h : nat) : ms := Ms
  (Rcpsp (Calendar [("r", repeat 1%Z 9)]) [] [(1, [(1, Mode 0 [("r", 0%Z)])]); (2, [(1, Mode 4 [("r", 1%Z)])]); (3, [(1, Mode 0 [("r", 0%Z)])])]
     [(1, [2]); (2, [3]); (3, [])] h 2) [] [] 3 1 false.
Theorem C95_horizon_refuted : exists x sol, sgs_multi_skill x [0] [1] [[]] = Ok sol /\ time_of sol (ms_sink x) = Some marker /\
  exists sol', ms_satisfy x sol' = Ok true /\ time_of sol' 2 = Some (0%Z, Z.of_nat (p_horizon (ms_base x))) /\
    (forall a m s e, mode_in x sol' a = Some m -> time_of sol' a = Some (s, e) -> e = (s + Z.of_nat (m_duration m))%Z).
Proof.
  exists (chain 4), (Msol [(1, (0, 0)%Z); (3, marker)] [(1, 1); (2, 1); (3, 1)] []). split; [vm_compute; reflexivity|]. split; [reflexivity|].
  exists (Msol [(1, (0, 0)%Z); (2, (0, 4)%Z); (3, (4, 4)%Z)] [(1, 1); (2, 1); (3, 1)] []). split; [vm_compute; reflexivity|]. split; [reflexivity|].
  intros a m s e M T. apply dget_In in T. cbn [s_sch In] in T.
  destruct T as [T|[T|[T|[]]]]; injection T as <- <- <-; vm_compute in M; injection M as <-; reflexivity.
Qed.
Print Assumptions C95_horizon_refuted.

(** A worker is reserved for a task even when the worker adds none of the skills the task needs and is not
    recorded on it: with the useless worker 2 first in the priorities of task 2, task 3, that only
    worker 2 can do, waits. *)
Definition busy : ms := Ms
  (Rcpsp (Calendar [("r", repeat 2%Z 13)]) [] [(1, [(1, Mode 0 [("r", 0%Z)])]); (2, [(1, Mode 3 [("r", 1%Z); ("s", 1%Z)])]);
     (3, [(1, Mode 3 [("r", 1%Z); ("q", 1%Z)])]); (4, [(1, Mode 0 [("r", 0%Z)])])] [(1, [2; 3]); (2, [4]); (3, [4]); (4, [])] 12 1)
  ["s"; "q"] [(1, Emp [("s", 1%Z)] (repeat true 12)); (2, Emp [("q", 1%Z)] (repeat true 12))] 4 1 false.
Theorem C95_reserved_refuted : exists x sol sol', ms_data x 2 /\
  sgs_multi_skill x [0; 1] [1; 1] [[2; 1]; [1; 2]] = Ok sol /\ sgs_multi_skill x [0; 1] [1; 1] [[1; 2]; [1; 2]] = Ok sol' /\
  ~ works sol 2 2 /\ time_of sol 2 = time_of sol' 2 /\ time_of sol 3 = Some (3, 6)%Z /\ time_of sol' 3 = Some (0, 3)%Z.
Proof.
  exists busy, (Msol [(1, (0, 0)%Z); (2, (0, 3)%Z); (3, (3, 6)%Z); (4, (6, 6)%Z)] [(1, 1); (2, 1); (3, 1); (4, 1)] [(2, [(1, ["s"])]); (3, [(2, ["q"])])]),
    (Msol [(1, (0, 0)%Z); (2, (0, 3)%Z); (3, (0, 3)%Z); (4, (3, 3)%Z)] [(1, 1); (2, 1); (3, 1); (4, 1)] [(2, [(1, ["s"])]); (3, [(2, ["q"])])]).
  split; [|split; [vm_compute; reflexivity|split; [vm_compute; reflexivity|split; [|repeat split; reflexivity]]]].
  - constructor.
    + apply Permutation_refl.
    + reflexivity.
    + repeat constructor; cbn; intuition discriminate.
    + intros r t c H. unfold capacity_of in H. cbn [busy ms_base p_res] in H. destruct (dget _ r) as [row|] eqn:E; [|discriminate].
      apply dget_In in E. destruct E as [E|[]]. injection E as <- <-. apply nth_error_In in H. apply (repeat_spec 13) in H. lia.
    + intros a d k m Hd Hm. apply dget_In in Hd, Hm. cbn in Hd. repeat (destruct Hd as [Hd|Hd]; [injection Hd as <- <-; cbn in Hm; destruct Hm as [Hm|[]];
        injection Hm as <- <-; repeat constructor; cbn; intuition discriminate|]). contradiction.
    + intros a d k m r z Hd Hm Hz. apply dget_In in Hd, Hm, Hz. cbn in Hd. repeat (destruct Hd as [Hd|Hd]; [injection Hd as <- <-; cbn in Hm; destruct Hm as [Hm|[]];
        injection Hm as <- <-; cbn in Hz; repeat (destruct Hz as [Hz|Hz]; [injection Hz as <- <-; lia|]); contradiction|]). contradiction.
    + repeat constructor; cbn; intuition discriminate.
    + intros w e H. apply dget_In in H. cbn in H. destruct H as [H|[H|[]]]; injection H as <- <-; repeat constructor; cbn; intuition discriminate.
    + repeat constructor; cbn; intuition discriminate.
    + intros a H. cbn in H. lia.
    + exists (fun a => a). intros a l b Hl Hb. apply dget_In in Hl. cbn in Hl. repeat (destruct Hl as [Hl|Hl]; [injection Hl as <- <-; cbn in Hb; lia|]). contradiction.
    + reflexivity.
    + intros d m Hd Hm. cbn in Hd. injection Hd as <-. cbn in Hm. injection Hm as <-. reflexivity.
    + intros a d k m s z Hd Hm Is Hz L. apply dget_In in Hd, Hm, Hz. cbn in Hd. repeat (destruct Hd as [Hd|Hd]; [injection Hd as <- <-; cbn in Hm; destruct Hm as [Hm|[]];
        injection Hm as <- <-; cbn in *; repeat (destruct Hz as [Hz|Hz]; [injection Hz as <- <-; lia|]); contradiction|]). contradiction.
  - intros (u & Hu & Iw). vm_compute in Hu. injection Hu as <-. cbn in Iw. lia.
Qed.
Print Assumptions C95_reserved_refuted.

(** A task that needs a skill but takes no time is staffed with a worker who is busy elsewhere: the
    schedule gets a time for the sink and the checker rejects it. *)
Definition instant : ms := Ms
  (Rcpsp (Calendar [("r", repeat 2%Z 13)]) [] [(1, [(1, Mode 0 [("r", 0%Z)])]); (2, [(1, Mode 3 [("r", 1%Z); ("s", 1%Z)])]);
     (3, [(1, Mode 1 [("r", 1%Z)])]); (4, [(1, Mode 0 [("r", 0%Z); ("s", 1%Z)])]); (5, [(1, Mode 0 [("r", 0%Z)])])]
     [(1, [2; 3]); (2, [5]); (3, [4]); (4, [5]); (5, [])] 12 1)
  ["s"] [(1, Emp [("s", 1%Z)] (repeat true 12))] 5 1 false.
Theorem C95_instant_refuted : exists x perm modes prios sol a b w, sgs_multi_skill x perm modes prios = Ok sol /\
  time_of sol (ms_sink x) = Some (3, 3)%Z /\ works sol a w /\ works sol b w /\
  time_of sol a = Some (0, 3)%Z /\ time_of sol b = Some (1, 1)%Z /\ ms_satisfy x sol = Ok false.
Proof.
  exists instant, [0; 1; 2], [1; 1; 1], [[1]; [1]; [1]],
    (Msol [(1, (0, 0)%Z); (2, (0, 3)%Z); (3, (0, 1)%Z); (4, (1, 1)%Z); (5, (3, 3)%Z)] [(1, 1); (2, 1); (3, 1); (4, 1); (5, 1)]
       [(2, [(1, ["s"])]); (4, [(1, ["s"])])]), 2, 4, 1.
  split; [vm_compute; reflexivity|]. split; [reflexivity|]. split; [eexists; split; [reflexivity|cbn; auto]|].
  split; [eexists; split; [reflexivity|cbn; auto]|]. split; [reflexivity|]. split; [reflexivity|]. vm_compute. reflexivity.
Qed.
Print Assumptions C95_instant_refuted.

(** A task without length takes nothing from a non-renewable resource: the schedule gets a time for
    the sink and the checker rejects it. *)
Definition stock : ms := Ms
  (Rcpsp (Calendar [("b", repeat 1%Z 13)]) ["b"] [(1, [(1, Mode 0 [("b", 0%Z)])]); (2, [(1, Mode 0 [("b", 2%Z)])]);
     (3, [(1, Mode 0 [("b", 0%Z)])])] [(1, [2]); (2, [3]); (3, [])] 12 1) [] [] 3 1 false.
Theorem C95_stock_refuted : exists x perm modes prios sol r c, sgs_multi_skill x perm modes prios = Ok sol /\
  time_of sol (ms_sink x) = Some (0, 0)%Z /\ In r (p_nonren (ms_base x)) /\ capacity_of (ms_base x) r 0 = Some c /\
  (c < total_use x sol r)%Z /\ ms_satisfy x sol = Ok false.
Proof.
  exists stock, [0], [1], [[]], (Msol [(1, (0, 0)%Z); (2, (0, 0)%Z); (3, (0, 0)%Z)] [(1, 1); (2, 1); (3, 1)] []), "b", 1%Z.
  split; [vm_compute; reflexivity|]. split; [reflexivity|]. split; [now left|]. split; [reflexivity|]. split; vm_compute; reflexivity.
Qed.
Print Assumptions C95_stock_refuted.

(** * C96: priorities from a schedule; copies of a problem *)

(** The priorities read from a schedule: the tasks in the order of their starts, the modes of the
    schedule, and for each task all the workers, those of its team first. *)
Theorem C96_to_variant : forall x sol n,
  Permutation (tasks_of x) (seq 1 (n + 2)) -> Permutation (dkeys (s_sch sol)) (seq 1 (n + 2)) ->
  ms_source x = 1 -> ms_sink x = n + 2 -> NoDup (dkeys (ms_emps x)) ->
  (forall a, 2 <= a <= n + 1 -> exists k, dget (s_modes sol) a = Some k) ->
  (forall a u, dget (s_use sol) a = Some u -> NoDup (dkeys u) /\ incl (dkeys u) (dkeys (ms_emps x))) ->
  exists order modes prios, to_variant x sol = Ok (map Z.of_nat order, (modes, prios)) /\
    Permutation order (seq 0 n) /\
    (forall i j a b, i < j -> nth_error order i = Some a -> nth_error order j = Some b ->
       (start_of sol (a + 2) <= start_of sol (b + 2))%Z) /\
    length modes = n /\ length prios = n /\
    (forall i, i < n -> nth_error modes i = dget (s_modes sol) (i + 2)) /\
    (forall i pr, nth_error prios i = Some pr -> Permutation pr (dkeys (ms_emps x)) /\
       exists rest, pr = (match dget (s_use sol) (i + 2) with Some u => dkeys u | None => [] end ++ rest)%list).
Proof. exact variant_ok. Qed.
Print Assumptions C96_to_variant.

Example C96_to_variant_ex : Permutation (tasks_of ex) (seq 1 4) /\ Permutation (dkeys (s_sch ex_sol)) (seq 1 4) /\
  to_variant ex ex_sol = Ok ([0; 1]%Z, ([1; 1], [[3; 1; 2]; [1; 2; 3]])).
Proof. split; [apply Permutation_refl|]. split; [apply Permutation_refl|]. vm_compute. reflexivity. Qed.

(** A permutation of all pairs of task and worker gives each task the ranks 1, 2, ... of the workers in
    the order of the permutation. *)
Theorem C96_ranks : forall x perm n, p_sink (ms_base x) = n + 2 -> NoDup perm -> length perm = n * length (ms_emps x) ->
  exists prios, prios_of_perm x perm = Ok prios /\ length prios = n /\
    (forall i pr, nth_error prios i = Some pr -> Permutation pr (seq 1 (length (ms_emps x))) /\
       forall j k rj rk vj vk, nth_error pr j = Some rj -> nth_error pr k = Some rk ->
         nth_error perm (i * length (ms_emps x) + j) = Some vj -> nth_error perm (i * length (ms_emps x) + k) = Some vk ->
         (rj < rk <-> (vj < vk)%Z)).
Proof. exact prios_ok. Qed.
Print Assumptions C96_ranks.

Example C96_ranks_ex : p_sink (ms_base ex) = 4 /\ prios_of_perm ex [4; 0; 5; 2; 3; 1]%Z = Ok [[2; 1; 3]; [2; 3; 1]].
Proof. split; vm_compute; reflexivity. Qed.

(** The order and the teams of a feasible schedule do not reproduce it: here the first task moves
    to the only worker of the second, and no schedule is found. *)
Definition moved : ms := Ms
  (Rcpsp (Calendar [("r", repeat 2%Z 5)]) [] [(1, [(1, Mode 0 [("r", 0%Z)])]); (2, [(1, Mode 2 [("r", 1%Z); ("s", 1%Z)])]);
     (3, [(1, Mode 1 [("r", 1%Z); ("q", 1%Z)])]); (4, [(1, Mode 0 [("r", 0%Z)])])] [(1, [2; 3]); (2, [4]); (3, [4]); (4, [])] 5 1)
  ["s"; "q"] [(1, Emp [("s", 1%Z)] [false; true; true; false; false]); (2, Emp [("s", 1%Z); ("q", 1%Z)] [true; true; false; false; false])] 4 1 false.
Definition moved_sol : msol := Msol [(1, (0, 0)%Z); (2, (1, 3)%Z); (3, (1, 2)%Z); (4, (3, 3)%Z)] [(1, 1); (2, 1); (3, 1); (4, 1)]
  [(2, [(1, ["s"])]); (3, [(2, ["q"])])].
Theorem C96_reproduce_refuted : exists x sol order modes prios sol', ms_satisfy x sol = Ok true /\
  to_variant x sol = Ok (map Z.of_nat order, (modes, prios)) /\ sgs_multi_skill x order modes prios = Ok sol' /\
  time_of sol (ms_sink x) = Some (3, 3)%Z /\ time_of sol' (ms_sink x) = Some marker.
Proof.
  exists moved, moved_sol, [0; 1], [1; 1], [[1; 2]; [2; 1]],
    (Msol [(1, (0, 0)%Z); (2, (0, 2)%Z); (4, marker)] [(1, 1); (2, 1); (3, 1); (4, 1)] [(2, [(2, ["s"])])]).
  split; [vm_compute; reflexivity|]. split; [vm_compute; reflexivity|]. split; [vm_compute; reflexivity|]. split; reflexivity.
Qed.
Print Assumptions C96_reproduce_refuted.

(** The ranks are used as the names of the workers: with workers 10 and 20 no worker is ever taken,
    and the schedule gets a time for the sink without teams. *)
Definition renamed : ms := Ms ex_base ["s"; "q"]
  [(10, Emp [("s", 1%Z)] (repeat true 12)); (20, Emp [("s", 1%Z); ("q", 1%Z)] (repeat true 12))] 4 1 false.
Theorem C96_names_refuted : exists x perm prios sol a, prios_of_perm x perm = Ok prios /\
  sgs_multi_skill x [0; 1] [1; 1] prios = Ok sol /\ time_of sol (ms_sink x) <> Some marker /\ In a (tasks_of x) /\
  (0 < need_in x sol a "s")%Z /\ (forall w, ~ works sol a w).
Proof.
  exists renamed, [0; 1; 2; 3]%Z, [[1; 2]; [1; 2]],
    (Msol [(1, (0, 0)%Z); (2, (0, 2)%Z); (3, (0, 3)%Z); (4, (3, 3)%Z)] [(1, 1); (2, 1); (3, 1); (4, 1)] []), 2.
  split; [vm_compute; reflexivity|]. split; [vm_compute; reflexivity|]. split; [vm_compute; congruence|]. split; [cbn; auto|].
  split; [vm_compute; reflexivity|]. intros w (u & Hu & _). discriminate.
Qed.
Print Assumptions C96_names_refuted.

(** The variant of a problem forgets [one_unit_per_task_max]; a copy forgets it too, and the names of
    its source and sink. *)
Theorem C96_variant_model : forall x, p_modes (ms_base x) <> [] ->
  exists y, to_variant_model x = Ok y /\ ms_copy x = Ok y /\
    ms_base y = ms_base x /\ ms_skills y = ms_skills x /\ ms_emps y = ms_emps x /\ ms_one y = false /\
    In (ms_sink y) (tasks_of x) /\ In (ms_source y) (tasks_of x) /\
    forall a, In a (tasks_of x) -> ms_source y <= a <= ms_sink y.
Proof.
  intros x Ne. unfold to_variant_model, variant_new, ms_copy, ms_new.
  fold (tasks_of x). destruct (tasks_of x) as [|k l] eqn:E; [unfold tasks_of in E; destruct (p_modes (ms_base x)); [congruence|discriminate E]|].
  cbn [max_key min_key bind].
  assert (Mx : forall l y, (fold_left Nat.max l y = y \/ In (fold_left Nat.max l y) l) /\ y <= fold_left Nat.max l y /\
    forall a, In a l -> a <= fold_left Nat.max l y).
  { clear. induction l as [|z l IH]; intros y; cbn [fold_left]; [split; [auto|]; split; [lia|intros ? []]|].
    destruct (IH (Nat.max y z)) as (H1 & H2 & H3). split; [|split; [lia|]].
    - destruct H1 as [->|H1]; [|right; now right]. destruct (Nat.max_spec y z) as [[_ ->]|[_ ->]]; auto. right. now left.
    - intros a [<-|Ia]; [lia|auto]. }
  assert (Mn : forall l y, (fold_left Nat.min l y = y \/ In (fold_left Nat.min l y) l) /\ fold_left Nat.min l y <= y /\
    forall a, In a l -> fold_left Nat.min l y <= a).
  { clear. induction l as [|z l IH]; intros y; cbn [fold_left]; [split; [auto|]; split; [lia|intros ? []]|].
    destruct (IH (Nat.min y z)) as (H1 & H2 & H3). split; [|split; [lia|]].
    - destruct H1 as [->|H1]; [|right; now right]. destruct (Nat.min_spec y z) as [[_ ->]|[_ ->]]; auto. right. now left.
    - intros a [<-|Ia]; [lia|auto]. }
  destruct (Mx l k) as (X1 & X2 & X3). destruct (Mn l k) as (N1 & N2 & N3).
  eexists. split; [reflexivity|]. split; [reflexivity|]. cbn [ms_base ms_skills ms_emps ms_one ms_sink ms_source].
  do 4 (split; [reflexivity|]). split; [destruct X1 as [->|X1]; [now left|now right]|].
  split; [destruct N1 as [->|N1]; [now left|now right]|].
  intros a [<-|Ia]; [lia|]. specialize (X3 a Ia). specialize (N3 a Ia). lia.
Qed.
Print Assumptions C96_variant_model.
Example C96_variant_model_ex : p_modes (ms_base ex) <> [] /\ to_variant_model ex = Ok ex.
Proof. split; [discriminate|reflexivity]. Qed.

(** So the variant of a problem that allows one worker per task accepts teams of two. *)
Theorem C96_one_unit_refuted : exists x y perm modes prios sol a w w', ms_one x = true /\ to_variant_model x = Ok y /\
  sgs_multi_skill y perm modes prios = Ok sol /\ works sol a w /\ works sol a w' /\ w <> w'.
Proof.
  exists (Ms ex_base ["s"; "q"] ex_emps 4 1 true), ex, ex_perm, [1; 1], ex_prios.
  exists (Msol [(1, (0, 0)%Z); (2, (0, 2)%Z); (3, (2, 5)%Z); (4, (5, 5)%Z)] [(1, 1); (2, 1); (3, 1); (4, 1)]
       [(2, [(3, ["s"])]); (3, [(1, ["s"]); (3, ["s"; "q"])])]), 3, 1, 3.
  split; [reflexivity|]. split; [reflexivity|]. split; [exact ex_run|].
  split; [eexists; split; [reflexivity|cbn; auto]|]. split; [eexists; split; [reflexivity|cbn; auto]|]. lia.
Qed.
Print Assumptions C96_one_unit_refuted.

(** A copy of a problem whose sink is not the task with the largest number has another sink. *)
Theorem C96_copy_refuted : exists x y, ms_copy x = Ok y /\ In (ms_sink x) (tasks_of x) /\ ms_sink y <> ms_sink x /\ ms_source y <> ms_source x.
Proof.
  exists (Ms ex_base ["s"; "q"] ex_emps 1 4 false), ex. split; [reflexivity|]. split; [cbn; auto|]. cbn. lia.
Qed.
Print Assumptions C96_copy_refuted.
