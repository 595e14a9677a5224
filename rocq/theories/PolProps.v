(** C72-C79: policies for scheduling domains. *)
From Coq Require Import List Bool Arith ZArith QArith Lia Sorted Permutation.
From Verif Require Import Py PyList SchedModel SchedProofs SchedActProofs SchedTimeProofs SchedProps.
From Verif Require Import PolModel PolSpec PolProofs PolExecProofs PolGanttProofs PolMoreProofs.
Import ListNotations.
Open Scope Z_scope.

(** * Vocabulary *)

(** A task not started whose predecessors are complete. *)
Definition released (dm : domain) (st : state) (n : nat) : Prop :=
  In n (s_remaining st) /\ forall k l, In (k, l) (d_succ dm) -> In n l -> In k (s_complete st).

(** [a] starts [n] in the mode of the policy, and the domain accepts it now. *)
Definition would_start (dm : domain) (p : policy) (st : state) (n : nat) (a : action) : Prop :=
  exists m rtu, dget (p_modes p) n = Some m /\
    a = mkAction (Some n) START (Some m) false (match p_alloc p with Some d => dget d n | None => None end) /\
    can_start dm st a = Ok (true, rtu).

Lemma released_launchable : forall dm st n, In n (launchable dm st) <-> released dm st n.
Proof.
  intros dm st n. rewrite launchable_In. unfold released. split; intros [A B]; split; auto.
  - intros k l I J. apply B. apply preds_In. eauto.
  - intros m M. apply preds_In in M. destruct M as [l [M1 M2]]. eauto.
Qed.

Lemma accepted_would : forall dm p st n a, accepted dm p st n a <-> would_start dm p st n a.
Proof.
  intros dm p st n a. unfold accepted, would_start, start_of, applicable. split.
  - intros [A B]. apply bind_ok in A. destruct A as [m [M A]]. apply dgetE_ok in M. injection A as <-.
    cbn [a_kind] in B. apply bind_ok in B. destruct B as [[b rtu] [C B]]. cbn [fst] in B. injection B as ->. eauto.
  - intros [m [rtu [M [-> C]]]]. split.
    + unfold dgetE. rewrite M. reflexivity.
    + cbn [a_kind]. rewrite C. reflexivity.
Qed.

(** A small project: 0 before 1 and 2, which are before 3; one renewable resource; task 1 has two modes. *)
Definition need (x : Z) : consumption := Constant [(0%nat, x)].
Definition dom_pol : domain := {|
  d_tasks := [0; 1; 2; 3]%nat;
  d_modes := [(0%nat, [(1%nat, need 0)]); (1%nat, [(1%nat, need 2); (2%nat, need 1)]);
              (2%nat, [(1%nat, need 1)]); (3%nat, [(1%nat, need 0)])];
  d_types := [0]%nat; d_units := []; d_renew := None; d_preempt := []; d_paused_ret := []; d_skills := None;
  d_progress := lin_progress (fun _ _ => 0);
  d_succ := [(0, [1; 2]); (1, [3]); (2, [3]); (3, [])]%nat;
  d_exist := []; d_cond := []; d_horizon := 100; d_mode_costs := []; d_res_costs := [];
  d_makespan := true; d_cost := false |}.
Definition dur_pol (n m : nat) : Z :=
  match n, m with 1%nat, 1%nat => 2 | 1%nat, 2%nat => 4 | 2%nat, _ => 3 | _, _ => 0 end.
Definition cap_pol (r : nat) : Z := 2.
Definition pol (m : method) (m1 : nat) (perm : list nat) (sch : option (list (nat * Z))) : policy := {|
  p_method := m; p_delta_time := 1; p_delta_index := 1; p_perm := perm;
  p_modes := [(0, 1); (1, m1); (2, 1); (3, 1)]%nat; p_sched := sch; p_alloc := None; p_order := fun l => l |}.
Definition plan_pol : list (nat * Z) := [(0%nat, 0); (1%nat, 0); (2%nat, 1); (3%nat, 4)].

Lemma pol_modes : forall k m c, get_mode dom_pol k m = Ok c ->
  exists x, c = need x /\ 0 <= x <= 2.
Proof.
  intros k m c H. unfold get_mode in H. mon. apply dget_In in H0. apply dget_In in H. simpl in H0.
  destruct H0 as [E|[E|[E|[E|[]]]]]; injection E as <- <-; simpl in H;
    repeat (destruct H as [E|H]; [injection E as <- <-; eexists; split; [reflexivity|lia]|]); destruct H.
Qed.

Lemma pol_workable : forall m m1 perm sch, (m1 = 1 \/ m1 = 2)%nat ->
  workable dom_pol (pol m m1 perm sch) dur_pol cap_pol.
Proof.
  intros m m1 perm sch M1. constructor.
  - intros k m' c H. destruct (pol_modes k m' c H) as [x [-> _]]. unfold need. eauto.
  - intros k m' c r time q H N. destruct (pol_modes k m' c H) as [x [-> B]]. unfold need in N. simpl in N.
    destruct (Nat.eqb r 0); injection N as <-; lia.
  - reflexivity.
  - exists (fun _ _ => 0). reflexivity.
  - reflexivity.
  - intros r [<-|[]]. reflexivity.
  - reflexivity.
  - intros r. unfold cap_pol. lia.
  - intros n I. simpl in I.
    destruct I as [<-|[<-|[<-|[<-|[]]]]]; [| destruct M1 as [-> | ->] | |];
      (eexists; eexists; split; [reflexivity|]; split; [vm_compute; reflexivity|]; split; [cbn; lia|];
       intros r x E; unfold need_at in E; simpl in E; destruct (Nat.eqb r 0); injection E as <-; cbn; unfold cap_pol; lia).
  - intros k l n I J. simpl in I. repeat (destruct I as [E|I]; [injection E as <- <-; simpl; tauto|]). destruct I.
  - exists (fun n => match n with O => 0 | 3 => 2 | _ => 1 end)%nat. intros k l n I J. simpl in I.
    repeat (destruct I as [E|I]; [injection E as <- <-; simpl in J;
      repeat (destruct J as [<-|J]; [lia|]); destruct J|]). destruct I.
Qed.

Lemma pol_covers : forall m m1 perm sch, sgs m -> (forall n, In n [0; 1; 2; 3]%nat -> In n perm) ->
  match sch with None => True | Some s => forall n, In n [0; 1; 2; 3]%nat -> exists t, dget s n = Some t end ->
  covers dom_pol (pol m m1 perm sch).
Proof.
  intros m m1 perm sch S P C. split; auto. split; auto. split; [|split; cbn; lia].
  intros s n E I. cbn in E. subst sch. auto.
Qed.

(** * C72: the action of a policy *)

(** Whatever the method, the action lets time progress or starts, in the mode of the policy, a task not
    started yet whose predecessors are complete and which the domain accepts; the task comes from the
    permutation, or is planned at the date of the state. *)
Theorem C72_sound : forall dm p st a, (forall l x, In x (p_order p l) -> In x l) -> next_action dm p st = Ok a ->
  a = time_act \/ exists n, released dm st n /\ would_start dm p st n a /\
    (p_method p <> FOLLOW_GANTT -> In n (p_perm p)) /\
    (p_method p = FOLLOW_GANTT -> exists sch, p_sched p = Some sch /\ In (n, s_t st) sch).
Proof.
  intros dm p st a OR H.
  assert (NP : p_method p <> PILE) by (intros E; unfold next_action in H; rewrite E in H; discriminate).
  assert (DE : p_method p = FOLLOW_GANTT \/ p_method p <> FOLLOW_GANTT) by (destruct (p_method p); auto; right; discriminate).
  destruct DE as [G|NG].
  - unfold next_action in H. rewrite G in H.
    destruct (gantt_spec dm p st a OR H) as [->|[n [sch [A [B [C E]]]]]]; [auto|right].
    exists n. split; [now apply released_launchable|]. split; [now apply accepted_would|].
    split; [congruence|eauto].
  - destruct (sgs_shape dm p st a (conj NG NP) H) as [[_ ->]|[i0 [n0 [cs [w [C [F [_ [IW _]]]]]]]]]; [auto|].
    destruct (first_applicable_spec dm p st _ a F) as [[-> _]|[l1 [n [l2 [E [A _]]]]]]; [auto|right].
    assert (I : In n (map snd w)) by (rewrite E; apply in_app_iff; simpl; auto).
    apply in_map_iff in I. destruct I as [[j n'] [E' I]]. cbn [snd] in E'. subst n'.
    apply IW, candidates_In in I. destruct I as [i [_ [N L]]].
    exists n. split; [now apply released_launchable|]. split; [now apply accepted_would|].
    split; [intros _; eapply nth_error_In; eauto|congruence].
Qed.

(** On any state met in an execution, that START does start the task. *)
Theorem C72_starts : forall dm p q0 st a n dur q, hist dm q0 anything st -> released dm st n ->
  would_start dm p st n a ->
  exists st', next_state dm dur q st a = Ok st' /\ s_t st' = s_t st /\ starts st' n (s_t st) /\
    ~ In n (s_remaining st') /\ (dur <> 0 -> In n (s_ongoing st')) /\ (dur = 0 -> In n (s_complete st')) /\
    dget (s_mode st') n = dget (p_modes p) n.
Proof.
  intros dm p q0 st a n dur q H [I _] A. apply accepted_would in A.
  pose proof (hist_WF _ _ _ _ H) as W. destruct (wf_sep _ W) as [_ [_ [_ [N1 _]]]].
  destruct (accepted_start_works dm p st n a dur q W (hist_DR _ _ _ _ H) I A)
    as [m [rtu [u [s' [C1 [C2 [_ [_ [_ C6]]]]]]]]].
  exists s'. split; auto. destruct (Z.eqb_spec dur 0) as [Z0|Z0]; subst s'.
  - split; [reflexivity|]. split.
    { eexists. cbn [s_details st_dummy]. rewrite dget_dset_same. split; reflexivity. }
    split. { cbn [s_remaining st_dummy]. rewrite pyremove_In by assumption. tauto. }
    split; [contradiction|]. split; [intros _; cbn [s_complete st_dummy]; apply in_app_iff; simpl; auto|].
    cbn [s_mode st_dummy]. now rewrite dget_dset_same.
  - split; [reflexivity|]. split.
    { eexists. cbn [s_details st_start]. rewrite dget_dset_same. split; reflexivity. }
    split. { cbn [s_remaining st_start]. rewrite pyremove_In by assumption. tauto. }
    split; [intros _; cbn [s_ongoing st_start]; apply in_app_iff; simpl; auto|]. split; [contradiction|].
    cbn [s_mode st_start]. now rewrite dget_dset_same.
Qed.

(** After the start of task 0: the policy starts task 2, first in the permutation, then task 1 in mode 2. *)
Example C72_ex : let p := pol SGS_READY 2 [0; 2; 1; 3]%nat None in
  exists s s2, hist dom_pol (fun r _ => cap_pol r) anything s /\ s_complete s = [0]%nat /\
  next_action dom_pol p s = Ok (start_act 2 1) /\ released dom_pol s 2 /\ would_start dom_pol p s 2 (start_act 2 1) /\
  next_state dom_pol 3 (fun r _ => cap_pol r) s (start_act 2 1) = Ok s2 /\
  next_action dom_pol p s2 = Ok (start_act 1 2).
Proof.
  eexists. eexists. split.
  - eapply h_step with (a := start_act 0 1) (dur := 0) (q := fun r _ => cap_pol r); [constructor|exact Logic.I|].
    vm_compute. reflexivity.
  - split; [reflexivity|]. split; [vm_compute; reflexivity|]. split.
    + split; [simpl; auto|]. intros k l I J. simpl in I.
      repeat (destruct I as [E|I]; [injection E as <- <-; simpl in *; intuition congruence|]). destruct I.
    + split; [eexists; eexists; split; [reflexivity|]; split; [reflexivity|vm_compute; reflexivity]|].
      split; vm_compute; reflexivity.
Qed.

(** The value PILE of the enumeration of methods has no function. *)
Theorem C72_pile_method_refuted : exists dm p st, In (p_method p) [FOLLOW_GANTT; SGS_PRECEDENCE; SGS_READY;
  SGS_STRICT; SGS_TIME_FREEDOM; SGS_INDEX_FREEDOM; PILE] /\ next_action dm p st = Err KeyError.
Proof.
  exists dom_pol, (pol PILE 2 [0]%nat None), (initial_state dom_pol (fun r _ => cap_pol r)).
  split; [simpl; auto 10|reflexivity].
Qed.

(** The action need not be among the applicable actions listed by the domain, which keep one mode per
    task (C25). *)
Theorem C72_unlisted_refuted : exists dm p q st a l, hist dm q anything st /\ next_action dm p st = Ok a /\
  action_space dm st = Ok l /\ ~ In a l.
Proof.
  exists dom_pol, (pol SGS_READY 1 [0; 1; 2; 3]%nat None), (fun r _ => cap_pol r). eexists. exists (start_act 1 1). eexists.
  split; [|split; [|split]].
  - eapply h_step with (a := start_act 0 1) (dur := 0) (q := fun r _ => cap_pol r); [constructor|exact Logic.I|].
    vm_compute. reflexivity.
  - vm_compute. reflexivity.
  - vm_compute. reflexivity.
  - simpl. intuition discriminate.
Qed.

(** * C73: which task an SGS method chooses *)

(** Let [n0], at index [i0], be the first released task of the permutation.  The method looks, in the
    order of the permutation, at the released tasks in the window of [n0] ([in_window]: everything for
    SGS_READY; the same planned date for SGS_PRECEDENCE and SGS_STRICT, [n0] alone without a schedule;
    a planned date at most delta later for SGS_TIME_FREEDOM; an index at most delta later for
    SGS_INDEX_FREEDOM) and starts the first one that can start; time progresses when there is none. *)
Theorem C73_choice : forall dm p st a, sgs (p_method p) -> next_action dm p st = Ok a ->
  (a = time_act /\ forall i n, nth_error (p_perm p) i = Some n -> ~ released dm st n) \/
  exists i0 n0, nth_error (p_perm p) i0 = Some n0 /\ released dm st n0 /\
    (forall i n, (i < i0)%nat -> nth_error (p_perm p) i = Some n -> ~ released dm st n) /\
    ((a = time_act /\ forall i n b, nth_error (p_perm p) i = Some n -> released dm st n -> in_window p i0 n0 i n ->
        ~ would_start dm p st n b) \/
     exists i n, nth_error (p_perm p) i = Some n /\ released dm st n /\ in_window p i0 n0 i n /\
       would_start dm p st n a /\
       forall j k b, (j < i)%nat -> nth_error (p_perm p) j = Some k -> released dm st k -> in_window p i0 n0 j k ->
         ~ would_start dm p st k b).
Proof.
  intros dm p st a SG H.
  assert (CA : forall i n, In (Z.of_nat i, n) (candidates dm p st) <->
                           nth_error (p_perm p) i = Some n /\ released dm st n).
  { intros i n. rewrite candidates_In. rewrite <- released_launchable. split.
    - intros [j [E [A B]]]. assert (i = j) by lia. subst j. auto.
    - intros [A B]. eauto. }
  destruct (sgs_shape dm p st a SG H) as [[C ->]|[i0 [n0 [cs [w [C [F [SO [IW W]]]]]]]]].
  - left. split; auto. intros i n N R. assert (X : In (Z.of_nat i, n) []) by (rewrite <- C; apply CA; auto). destruct X.
  - right. exists i0, n0.
    assert (X : In (Z.of_nat i0, n0) (candidates dm p st)) by (rewrite C; simpl; auto). apply CA in X.
    destruct X as [X1 X2]. split; auto. split; auto. split.
    { intros i n L N R. assert (Y : In (Z.of_nat i, n) (candidates dm p st)) by (apply CA; auto).
      pose proof (candidates_sorted dm p st) as S. rewrite C in Y, S. inversion S; subst.
      destruct Y as [E|Y]; [injection E as E1 _; lia|]. rewrite Forall_forall in H3. specialize (H3 _ Y). cbn [fst] in H3. lia. }
    destruct (first_applicable_spec dm p st _ a F) as [[-> RF]|[l1 [n [l2 [E [A RF]]]]]].
    + left. split; auto. intros i n b N R I B. apply accepted_would in B.
      assert (Y : In (Z.of_nat i, n) w) by (apply W; rewrite CA; auto).
      apply (in_map snd) in Y. exact (refused_not _ _ _ _ _ (RF n Y) B).
    + right. apply map_split in E. destruct E as [w1 [[j n'] [w2 [-> [E1 [E2 _]]]]]]. cbn [snd] in E2. subst n'.
      assert (Y : In (j, n) (w1 ++ (j, n) :: w2)) by (apply in_app_iff; simpl; auto).
      assert (Z0 : exists i, j = Z.of_nat i).
      { apply IW, candidates_In in Y. destruct Y as [i [-> _]]. eauto. }
      destruct Z0 as [i ->]. exists i, n. apply W in Y. destruct Y as [Y1 Y2]. apply CA in Y1. destruct Y1 as [Y1 Y3].
      split; auto. split; auto. split; auto. split; [now apply accepted_would|].
      intros k m b L N R I B. apply accepted_would in B.
      assert (V : In (Z.of_nat k, m) (w1 ++ (Z.of_nat i, n) :: w2)) by (apply W; rewrite CA; auto).
      destruct (sorted_split _ _ _ _ _ SO) as [S1 S2].
      apply in_app_iff in V. destruct V as [V|[V|V]].
      * apply (in_map snd) in V. rewrite E1 in V. exact (refused_not _ _ _ _ _ (RF m V) B).
      * injection V as V1 _. lia.
      * specialize (S2 _ V). cbn [fst] in S2. lia.
Qed.

(** Task 2 runs; task 1 (mode 1, two units) cannot start: SGS_STRICT waits for it, SGS_READY looks on. *)
Example C73_ex : exists s, reached dom_pol (pol SGS_STRICT 1 [0; 2; 1; 3]%nat None) dur_pol cap_pol s /\
  s_ongoing s = [2]%nat /\
  next_action dom_pol (pol SGS_STRICT 1 [0; 2; 1; 3]%nat None) s = Ok time_act /\
  next_action dom_pol (pol SGS_STRICT 2 [0; 2; 1; 3]%nat None) s = Ok (start_act 1 2) /\
  released dom_pol s 1 /\ in_window (pol SGS_STRICT 1 [0; 2; 1; 3]%nat None) 2 1 2 1.
Proof.
  eexists. split.
  - eapply h_step with (a := start_act 2 1) (dur := 3) (q := fun r _ => cap_pol r).
    + eapply h_step with (a := start_act 0 1) (dur := 0) (q := fun r _ => cap_pol r); [constructor| |vm_compute; reflexivity].
      split; [reflexivity|]. right. exists 0%nat. split; [vm_compute; auto|]. split; [split; vm_compute; reflexivity|reflexivity].
    + split; [reflexivity|]. right. exists 2%nat. split; [vm_compute; auto|]. split; [split; vm_compute; reflexivity|reflexivity].
    + vm_compute. reflexivity.
  - split; [reflexivity|]. split; [vm_compute; reflexivity|]. split; [vm_compute; reflexivity|]. split; [|reflexivity].
    split; [simpl; auto|]. intros k l I J. simpl in I.
    repeat (destruct I as [E|I]; [injection E as <- <-; simpl in *; intuition congruence|]). destruct I.
Qed.

(** * C74: how the methods relate *)

Definition with_method (p : policy) (m : method) : policy :=
  {| p_method := m; p_delta_time := p_delta_time p; p_delta_index := p_delta_index p; p_perm := p_perm p;
     p_modes := p_modes p; p_sched := p_sched p; p_alloc := p_alloc p; p_order := p_order p |}.

Lemma same_first : forall dm p m m' st l,
  first_applicable dm (with_method p m) st l = first_applicable dm (with_method p m') st l.
Proof.
  intros dm p m m' st. induction l as [|n l IH]; [reflexivity|]. cbn [first_applicable].
  change (start_of (with_method p m) n) with (start_of (with_method p m') n).
  destruct (start_of (with_method p m') n); [|reflexivity]. cbn [bind].
  destruct (applicable dm st a) as [[|]|]; cbn [bind]; auto.
Qed.

Lemma same_strict : forall dm p m m' st, strict dm (with_method p m) st = strict dm (with_method p m') st.
Proof.
  intros dm p m m' st. unfold strict.
  change (candidates dm (with_method p m) st) with (candidates dm (with_method p m') st).
  change (p_sched (with_method p m)) with (p_sched (with_method p m')).
  destruct (candidates dm (with_method p m') st) as [|[i n] cs]; [reflexivity|].
  destruct (match p_sched (with_method p m') with Some _ => _ | None => _ end); cbn [bind]; [|reflexivity].
  apply same_first.
Qed.

Lemma same_ready : forall dm p m m' st, first_ready dm (with_method p m) st = first_ready dm (with_method p m') st.
Proof. intros dm p m m' st. unfold first_ready. rewrite !ready_loop_filter. apply same_first. Qed.

(** SGS_PRECEDENCE and SGS_STRICT are the same policy when the schedule, if any, dates the remaining
    tasks of the permutation. *)
Theorem C74_precedence_is_strict : forall dm p st,
  (forall sch n, p_sched p = Some sch -> In n (p_perm p) -> In n (s_remaining st) -> exists t, dget sch n = Some t) ->
  next_action dm (with_method p SGS_PRECEDENCE) st = next_action dm (with_method p SGS_STRICT) st.
Proof.
  intros dm p st D. cbn [next_action with_method p_method].
  transitivity (strict dm (with_method p SGS_PRECEDENCE) st); [|apply same_strict].
  apply precedence_strict_eq. unfold dated. cbn [with_method p_sched p_perm].
  destruct (p_sched p) as [sch|]; [|exact Logic.I]. intros n I J. eauto.
Qed.

(** Without time freedom, SGS_TIME_FREEDOM is SGS_STRICT. *)
Theorem C74_no_time_freedom : forall dm p st, p_delta_time p = 0 ->
  next_action dm (with_method p SGS_TIME_FREEDOM) st = next_action dm (with_method p SGS_STRICT) st.
Proof.
  intros dm p st D. cbn [next_action with_method p_method].
  transitivity (strict dm (with_method p SGS_TIME_FREEDOM) st); [|apply same_strict].
  apply time_freedom_strict. exact D.
Qed.

(** With an index freedom that spans the permutation, SGS_INDEX_FREEDOM is SGS_READY. *)
Theorem C74_full_index_freedom : forall dm p st, Z.of_nat (length (p_perm p)) <= p_delta_index p + 1 ->
  next_action dm (with_method p SGS_INDEX_FREEDOM) st = next_action dm (with_method p SGS_READY) st.
Proof.
  intros dm p st D. cbn [next_action with_method p_method].
  transitivity (first_ready dm (with_method p SGS_INDEX_FREEDOM) st); [|apply same_ready].
  apply index_freedom_ready. exact D.
Qed.

Example C74_ex : let p := pol SGS_STRICT 2 [0; 2; 1; 3]%nat (Some plan_pol) in
  (forall sch n, p_sched p = Some sch -> In n (p_perm p) -> exists t, dget sch n = Some t) /\
  ~ Z.of_nat (length (p_perm p)) <= p_delta_index p + 1 /\
  next_action dom_pol (with_method p SGS_PRECEDENCE) (initial_state dom_pol (fun r _ => cap_pol r)) = Ok (start_act 0 1).
Proof.
  split; [|split; [cbn; lia|vm_compute; reflexivity]].
  intros sch n E I. injection E as <-. simpl in I. intuition subst; eexists; reflexivity.
Qed.

(** A schedule that misses a task not yet released stops SGS_PRECEDENCE, not SGS_STRICT. *)
Theorem C74_undated_refuted : exists dm p st, hist dm (fun r _ => cap_pol r) anything st /\
  next_action dm (with_method p SGS_STRICT) st = Ok (start_act 0 1) /\
  next_action dm (with_method p SGS_PRECEDENCE) st = Err KeyError.
Proof.
  exists dom_pol, (pol SGS_STRICT 2 [0; 2; 1; 3]%nat (Some [(0%nat, 0); (1%nat, 0); (2%nat, 1)])).
  eexists. split; [constructor|]. split; vm_compute; reflexivity.
Qed.

(** * C75: executing an SGS policy *)

(** The execution of any SGS method ends at the goal, by the sum of the durations, after at most one
    action per task and one per time unit. *)
Theorem C75_terminates : forall dm p dur cap q, workable dm p dur cap -> covers dm p ->
  (forall r t, q r t = cap r) ->
  exists s, execute dm (next_action dm p) dur q
      (length (nodup Nat.eq_dec (d_tasks dm)) + Z.to_nat (total_duration dm p dur)) (initial_state dm q) = Ok s /\
    is_goal s = true /\ s_t s <= total_duration dm p dur /\
    (forall k, In k (d_tasks dm) -> lasts s k (lasts_for p dur k) 0 /\ dget (s_mode s) k = dget (p_modes p) k).
Proof.
  intros dm p dur cap q WK CO Q.
  rewrite (initial_ext dm cap q Q). set (s0 := initial_state dm (fun r _ => cap r)).
  assert (H0 : reached dm p dur cap s0) by constructor.
  pose proof (work_init dm p dur cap WK) as WI. fold s0 in WI.
  pose proof (work_nonneg dm p dur cap WK s0 H0) as WN.
  assert (LR : length (s_remaining s0) = length (nodup Nat.eq_dec (d_tasks dm))).
  { pose proof (hist_all _ _ _ _ H0) as P. apply Permutation_length in P.
    rewrite (uncond dm p dur cap WK) in P. unfold all_of in P. rewrite <- P. unfold s0, initial_state. cbn.
    rewrite !app_length. cbn. lia. }
  destruct (execute_diligent dm p dur cap WK (next_action dm p) q (sgs_diligent dm p dur cap WK CO) Q
     (length (nodup Nat.eq_dec (d_tasks dm)) + Z.to_nat (total_duration dm p dur)) s0 H0) as [s [E [R [G L]]]].
  { rewrite LR. lia. }
  exists s. split; auto. split; auto.
  assert (T0 : s_t s0 = 0) by reflexivity. pose proof (work_nonneg dm p dur cap WK s R).
  split; [lia|]. intros k TK.
  assert (C : In k (s_complete s)).
  { apply (all_tasks dm p dur cap WK s R) in TK. unfold all_of in TK. unfold is_goal in G.
    destruct (s_remaining s), (s_ongoing s), (s_paused s); try discriminate. now rewrite app_nil_r in TK. }
  pose proof (reached_ongoing dm p dur cap WK s R) as J. split.
  - destruct (dt_com _ (reached_DT dm p dur cap WK s R) k C) as [r [x [e [dd [pt [A1 [[A2 [A3 A4]] _]]]]]]].
    destruct (j_det _ _ _ _ J k r A1) as [B1 B2]. exists r. split; auto.
    assert (dd = lasts_for p dur k) by auto. subst dd. split; auto. rewrite B1. reflexivity.
  - apply (j_mode _ _ _ _ J). auto.
Qed.

(** The schedule obtained is feasible. *)
Theorem C75_feasible : forall dm p dur cap q f s, workable dm p dur cap -> covers dm p -> no_preempt dm ->
  (forall r t, q r t = cap r) -> execute dm (next_action dm p) dur q f (initial_state dm q) = Ok s ->
  (forall k, In k (d_tasks dm) -> exists a e, starts s k a /\ ends s k e /\ a <= e <= s_t s /\
     (lasts_for p dur k < 10000 -> e = a + lasts_for p dur k)) /\
  (forall m k succs a e, In (m, succs) (d_succ dm) -> In k succs -> starts s k a -> ends s m e -> e <= a) /\
  (forall r tau, In r (d_types dm) -> load dm s r tau <= cap r).
Proof.
  intros dm p dur cap q f s WK CO NP Q E.
  destruct (C75_terminates dm p dur cap q WK CO Q) as [s' [E' [G [_ LA]]]].
  assert (s = s') by (eapply execute_det; eauto). subst s'.
  rewrite (initial_ext dm cap q Q) in E.
  assert (R : reached dm p dur cap s).
  { set (s0 := initial_state dm (fun r _ => cap r)) in *. assert (H0 : reached dm p dur cap s0) by constructor.
    destruct (execute_diligent dm p dur cap WK (next_action dm p) q (sgs_diligent dm p dur cap WK CO) Q
      (length (s_remaining s0) + Z.to_nat (work dm p dur s0)) s0 H0) as [s1 [E1 [R1 _]]].
    { pose proof (work_nonneg dm p dur cap WK s0 H0). lia. }
    assert (s = s1) by exact (execute_det _ _ _ _ _ _ _ _ _ E E1). now subst. }
  destruct (C47_any_mode_feasible dm cap s (wk_const _ _ _ _ WK) (wk_nonneg _ _ _ _ WK) NP (wk_linear _ _ _ _ WK)
    (wk_cap _ _ _ _ WK) (reached_offer dm p dur cap WK s R) G) as [F1 [F2 [F3 _]]].
  split; [|split].
  - intros k K. destruct (F1 k K (wk_exist _ _ _ _ WK k K)) as [a [e [d [A1 [A2 [A3 [A4 A5]]]]]]].
    exists a, e. split; auto. split; auto. split; auto. intros B.
    destruct (LA k K) as [LK _]. unfold lasts in A3, LK. destruct A3 as [r1 [X1 [X2 _]]], LK as [r2 [Y1 [Y2 _]]].
    assert (d = lasts_for p dur k) by congruence. subst d. auto.
  - intros m k succs a e I J S T.
    assert (TM : In m (d_tasks dm)) by (eapply (wk_edges _ _ _ _ WK); eauto).
    eapply F2; eauto. apply (wk_exist _ _ _ _ WK m TM).
  - intros r tau R0. apply F3; auto. apply (wk_renew _ _ _ _ WK r R0).
Qed.

Example C75_ex : let p := pol SGS_STRICT 1 [0; 2; 1; 3]%nat None in
  workable dom_pol p dur_pol cap_pol /\ covers dom_pol p /\ no_preempt dom_pol /\ total_duration dom_pol p dur_pol = 5 /\
  exists s, execute dom_pol (next_action dom_pol p) dur_pol (fun r _ => cap_pol r) 9
     (initial_state dom_pol (fun r _ => cap_pol r)) = Ok s /\ s_t s = 5.
Proof.
  split; [apply pol_workable; auto|]. split.
  { apply pol_covers; [split; discriminate| |exact Logic.I]. intros n I; simpl in *; tauto. }
  split; [intros n H; discriminate|]. split; [reflexivity|]. eexists. split; [vm_compute; reflexivity|reflexivity].
Qed.

(** * C76: FOLLOW_GANTT reproduces the plan *)

(** A plan that respects the precedences and the capacities for the durations met is executed exactly:
    the goal is reached by the end of the plan, and every task starts at its planned date. *)
Theorem C76_follows_plan : forall dm p dur cap q sch horizon, workable dm p dur cap -> planned dm p dur cap sch ->
  (forall r t, q r t = cap r) -> 0 <= horizon ->
  (forall n a, In n (d_tasks dm) -> dget sch n = Some a -> a + lasts_for p dur n <= horizon) ->
  exists s, execute dm (next_action dm p) dur q (length (nodup Nat.eq_dec (d_tasks dm)) + Z.to_nat horizon)
      (initial_state dm q) = Ok s /\ is_goal s = true /\ s_t s <= horizon /\
    forall n a, In n (d_tasks dm) -> dget sch n = Some a -> starts s n a.
Proof.
  intros dm p dur cap q sch ho WK PL Q HP HH.
  rewrite (initial_ext dm cap q Q). set (s0 := initial_state dm (fun r _ => cap r)).
  assert (H0 : reached dm p dur cap s0) by constructor.
  assert (LR : length (s_remaining s0) = length (nodup Nat.eq_dec (d_tasks dm))).
  { pose proof (hist_all _ _ _ _ H0) as P. apply Permutation_length in P.
    rewrite (uncond dm p dur cap WK) in P. unfold all_of in P. rewrite <- P. unfold s0, initial_state. cbn.
    rewrite !app_length. cbn. lia. }
  assert (T0 : s_t s0 = 0) by reflexivity.
  destruct (gantt_execute dm p dur cap sch WK PL ho HH q Q
    (length (nodup Nat.eq_dec (d_tasks dm)) + Z.to_nat ho) s0 H0 (on_plan_init dm p dur cap sch WK PL)) as [s [E [R [OP [G L]]]]].
  - lia.
  - rewrite LR. lia.
  - auto.
  - exists s. split; auto. split; auto. split; [lia|]. intros n a I A.
    eapply goal_on_plan; eauto.
Qed.

Lemma plan_pol_ok : planned dom_pol (pol FOLLOW_GANTT 2 [] (Some plan_pol)) dur_pol cap_pol plan_pol.
Proof.
  constructor; auto; try reflexivity.
  - unfold plan_pol, dkeys. cbn. repeat constructor; simpl; intuition discriminate.
  - intros n I. simpl in I. intuition subst; eexists; (split; [reflexivity|lia]).
  - intros m l n a b I J A B. simpl in I.
    repeat (destruct I as [E|I]; [injection E as <- <-; simpl in J;
      repeat (destruct J as [<-|J]; [vm_compute in A; vm_compute in B; injection A as <-; injection B as <-; vm_compute; discriminate|]);
      destruct J|]). destruct I.
  - intros r tau [<-|[]]. unfold planned_load, plan_pol. cbn -[Z.leb Z.ltb Z.add Z.le]. unfold cap_pol.
    repeat match goal with |- context [?x && ?y] => destruct (x && y) end; cbn; lia.
Qed.

Example C76_ex : workable dom_pol (pol FOLLOW_GANTT 2 [] (Some plan_pol)) dur_pol cap_pol /\
  planned dom_pol (pol FOLLOW_GANTT 2 [] (Some plan_pol)) dur_pol cap_pol plan_pol /\
  exists s, execute dom_pol (next_action dom_pol (pol FOLLOW_GANTT 2 [] (Some plan_pol))) dur_pol (fun r _ => cap_pol r) 8
     (initial_state dom_pol (fun r _ => cap_pol r)) = Ok s /\ s_t s = 4 /\ starts s 2 1.
Proof.
  split; [apply pol_workable; auto|]. split; [apply plan_pol_ok|].
  eexists. split; [vm_compute; reflexivity|]. split; [reflexivity|]. eexists. split; reflexivity.
Qed.

(** A task whose planned date has passed is never started: the execution does not end. *)
Theorem C76_missed_date_blocks : forall dm p q0 q dur sch n a f s s', p_method p = FOLLOW_GANTT ->
  p_sched p = Some sch -> (forall l x, In x (p_order p l) -> In x l) -> NoDup (dkeys sch) ->
  hist dm q0 anything s -> In n (s_remaining s) -> dget sch n = Some a -> a < s_t s ->
  execute dm (next_action dm p) dur q f s <> Ok s'.
Proof.
  intros. eapply gantt_missed; eauto. eapply hist_WF; eauto.
Qed.

(** [k] actions before the goal. *)
Fixpoint steps (dm : domain) (pick : state -> res action) (dur : nat -> nat -> Z) (q : nat -> Z -> Z)
         (k : nat) (st : state) : res state :=
  match k with
  | O => Ok st
  | S k => if is_goal st then Err StopIteration
           else let* a := pick st in let* st' := next_state dm (drawn dur a) q st a in steps dm pick dur q k st'
  end.

Lemma steps_execute : forall dm pick dur q q0 k st s, hist dm q0 anything st -> steps dm pick dur q k st = Ok s ->
  hist dm q0 anything s /\ forall f, execute dm pick dur q (k + f) st = execute dm pick dur q f s.
Proof.
  intros dm pick dur q q0. induction k as [|k IH]; intros st s H E; cbn [steps] in E.
  - injection E as <-. auto.
  - destruct (is_goal st) eqn:G; [discriminate|].
    apply bind_ok in E. destruct E as [a [A E]]. apply bind_ok in E. destruct E as [s1 [N E]].
    destruct (IH s1 s) as [H1 E1]; auto.
    { eapply h_step; eauto. exact Logic.I. }
    split; auto. intros f. cbn [Nat.add]. rewrite execute_S, G, A. cbn [bind]. rewrite N. cbn [bind]. auto.
Qed.

(** So with a task that takes one time unit longer than planned, the execution of a feasible plan never
    ends, although every other method would only be late. *)
Theorem C76_late_task_refuted : exists dm p sch dur dur' cap, workable dm p dur cap /\ planned dm p dur cap sch /\
  workable dm p dur' cap /\
  (forall n m, dur n m <= dur' n m <= dur n m + 1) /\
  forall f s, execute dm (next_action dm p) dur' (fun r _ => cap r) f (initial_state dm (fun r _ => cap r)) <> Ok s.
Proof.
  set (dur' := fun n m => match n, m with 1%nat, 2%nat => 5 | _, _ => dur_pol n m end).
  exists dom_pol, (pol FOLLOW_GANTT 2 [] (Some plan_pol)), plan_pol, dur_pol, dur', cap_pol.
  split; [apply pol_workable; auto|]. split; [apply plan_pol_ok|]. split.
  { destruct (pol_workable FOLLOW_GANTT 2 [] (Some plan_pol) (or_intror eq_refl)) as [A1 A2 A3 A4 A5 A6 A7 A8 A9 A10 A11].
    constructor; auto. intros n I. destruct (A9 n I) as [m [c [B1 [B2 [B3 B4]]]]]. exists m, c.
    split; auto. split; auto. unfold dur'. simpl in I. destruct I as [<-|[<-|[<-|[<-|[]]]]]; vm_compute in B1; injection B1 as <-; auto.
    split; [lia|]. intros r x E. split; [apply (B4 r x E)|lia]. }
  split.
  { intros n m. unfold dur'. destruct n as [|[|[|n]]]; try lia. destruct m as [|[|[|m]]]; simpl; lia. }
  set (p := pol FOLLOW_GANTT 2 [] (Some plan_pol)). set (q := fun (r : nat) (_ : Z) => cap_pol r).
  assert (X : exists s1, steps dom_pol (next_action dom_pol p) dur' q 8 (initial_state dom_pol q) = Ok s1 /\
     s_t s1 = 5 /\ In 3%nat (s_remaining s1)).
  { eexists. split; [vm_compute; reflexivity|]. split; [reflexivity|simpl; auto]. }
  destruct X as [s1 [X [T1 I1]]]. apply steps_execute with (q0 := q) in X; [|constructor].
  destruct X as [H1 E1]. intros f s E.
  assert (E' : execute dom_pol (next_action dom_pol p) dur' q (8 + f) (initial_state dom_pol q) = Ok s)
    by (eapply execute_more; [exact E|lia]).
  rewrite E1 in E'. revert E'. eapply C76_missed_date_blocks with (n := 3%nat) (a := 4) (sch := plan_pol); eauto; try reflexivity.
  - unfold plan_pol, dkeys. cbn. repeat constructor; simpl; intuition discriminate.
  - lia.
Qed.

(** * C77: PilePolicy *)

(** The task can start now in mode 1. *)
Definition starts_in_mode_one (dm : domain) (st : state) (n : nat) : Prop :=
  released dm st n /\ exists rtu, can_start dm st (start_act n 1) = Ok (true, rtu).

Lemma possible_mode_one : forall dm st l n, pile_possible dm st = Ok l -> (In n l <-> starts_in_mode_one dm st n).
Proof.
  intros dm st l n H. destruct (pile_possible_spec _ _ _ H) as [S _]. rewrite S, released_launchable.
  unfold starts_in_mode_one. change (pile_start n) with (start_act n 1).
  change (applicable dm st (start_act n 1)) with (let* br := can_start dm st (start_act n 1) in Ok (fst br)).
  split; intros [A B]; split; auto.
  - apply bind_ok in B. destruct B as [[b rtu] [C B]]. cbn [fst] in B. injection B as ->. eauto.
  - destruct B as [rtu B]. now rewrite B.
Qed.

(** Time progresses only when no released task can start in mode 1; otherwise one of them is started:
    one with the most descendants, or one with the shortest duration; the random rule gives its drawn
    index among them. *)
Theorem C77_choice : forall dm e g st a, pile_next dm e g st = Ok a ->
  (a_kind a = TIME_PR /\ a_tp a = true /\ forall n, ~ starts_in_mode_one dm st n) \/
  exists n, a = start_act n 1 /\ starts_in_mode_one dm st n /\
    (g = MOST_SUCCESSORS -> forall k, starts_in_mode_one dm st k -> (length (e_desc e k) <= length (e_desc e n))%nat) /\
    (g = FASTEST -> forall k, starts_in_mode_one dm st k -> e_dur e n <= e_dur e k).
Proof.
  intros dm e g st a H. destruct (pile_next_spec _ _ _ _ _ H) as [l [P C]].
  pose proof (fun n => possible_mode_one dm st l n P) as M.
  destruct C as [[-> ->]|[n [I [-> C]]]].
  - left. split; [reflexivity|]. split; [reflexivity|]. intros n S. apply M in S. destruct S.
  - right. exists n. split; [reflexivity|]. split; [now apply M|].
    split; intros ->; intros k K; apply C; now apply M.
Qed.

(** SAMPLE_MOST_SUCCESSORS with a draw of positive probability: a task without descendants is started
    only when no candidate has any. *)
Theorem C77_sample : forall dm e st a w, pile_next dm e SAMPLE_MOST_SUCCESSORS st = Ok a ->
  (forall l, pile_possible dm st = Ok l -> l <> [] ->
     nth_error (desc_weights e l) (e_choice e (desc_weights e l)) = Some (w l) /\ (w l > 0)%Q) ->
  forall n, a = start_act n 1 -> e_desc e n = [] -> forall k, starts_in_mode_one dm st k -> e_desc e k = [].
Proof.
  intros dm e st a w H W n -> D k K. destruct (pile_next_spec _ _ _ _ _ H) as [l [P C]].
  apply (possible_mode_one dm st l k P) in K.
  destruct C as [[_ E]|[n' [I [E C]]]]; [discriminate|]. injection E as <-.
  destruct (W l P) as [W1 W2]; [intros ->; destruct K|].
  destruct (desc_weights_spec e l _ n (w l) C W1 W2) as [X|X]; [contradiction|auto].
Qed.

(** The weights are a probability distribution. *)
Theorem C77_weights : forall e l, l <> [] -> length (desc_weights e l) = length l /\
  (forall w, In w (desc_weights e l) -> (0 <= w)%Q) /\ (fold_right Qplus 0 (desc_weights e l) == 1)%Q.
Proof.
  intros e l NE. unfold desc_weights.
  set (s := fold_right Z.add 0 (map (fun n => Z.of_nat (length (e_desc e n))) l)) in *.
  assert (SP : 0 <= s) by (subst s; clear; induction l; cbn; lia).
  destruct (Z.eqb_spec s 0) as [Z0|Z0].
  - split; [now rewrite map_length|]. split.
    + intros w I. apply in_map_iff in I. destruct I as [_ [<- _]]. unfold Qle, Qdiv, Qmult, Qinv. cbn.
      destruct (Z.of_nat (length l)) eqn:E; cbn; lia.
    + assert (LP : (0 < length l)%nat) by (destruct l; [congruence|cbn; lia]).
      set (c := (1 / inject_Z (Z.of_nat (length l)))%Q).
      assert (G : forall l0 : list nat, (fold_right Qplus 0 (map (fun _ => c) l0) == inject_Z (Z.of_nat (length l0)) * c)%Q).
      { induction l0 as [|x l0 IH]; [reflexivity|]. cbn [map fold_right length]. rewrite IH.
        rewrite Nat2Z.inj_succ. unfold Z.succ. rewrite inject_Z_plus. ring. }
      rewrite G. unfold c. field. intros X. unfold Qeq in X. cbn in X. lia.
  - split; [now rewrite map_length|]. split.
    + intros w I. apply in_map_iff in I. destruct I as [k [<- _]]. unfold Qle, Qdiv, Qmult, Qinv. cbn.
      destruct s; cbn; lia.
    + assert (G : forall l0, (fold_right Qplus 0 (map (fun n => inject_Z (Z.of_nat (length (e_desc e n))) / inject_Z s) l0) ==
          inject_Z (fold_right Z.add 0%Z (map (fun n => Z.of_nat (length (e_desc e n))) l0)) / inject_Z s)%Q).
      { induction l0 as [|x l0 IH]; cbn [map fold_right].
        - unfold Qdiv. ring.
        - rewrite IH, inject_Z_plus. unfold Qdiv. ring. }
      rewrite G. fold s. field. intros X. unfold Qeq in X. cbn in X. lia.
Qed.

(** When every task can be executed in mode 1, the execution of any greedy rule ends at the goal. *)
Theorem C77_terminates : forall dm p dur cap e g q, workable dm p dur cap ->
  (forall n, In n (d_tasks dm) -> dget (p_modes p) n = Some 1%nat) ->
  (forall l, l <> [] -> (e_choice e (desc_weights e l) < length l)%nat /\ (e_random e l < length l)%nat) ->
  (forall r t, q r t = cap r) ->
  exists s, execute dm (pile_next dm e g) dur q
      (length (nodup Nat.eq_dec (d_tasks dm)) + Z.to_nat (total_duration dm p dur)) (initial_state dm q) = Ok s /\
    is_goal s = true /\ s_t s <= total_duration dm p dur.
Proof.
  intros dm p dur cap e g q WK M1 CH Q.
  rewrite (initial_ext dm cap q Q). set (s0 := initial_state dm (fun r _ => cap r)).
  assert (H0 : reached dm p dur cap s0) by constructor.
  pose proof (work_init dm p dur cap WK) as WI. fold s0 in WI.
  pose proof (work_nonneg dm p dur cap WK s0 H0) as WN.
  assert (LR : length (s_remaining s0) = length (nodup Nat.eq_dec (d_tasks dm))).
  { pose proof (hist_all _ _ _ _ H0) as P. apply Permutation_length in P.
    rewrite (uncond dm p dur cap WK) in P. unfold all_of in P. rewrite <- P. unfold s0, initial_state. cbn.
    rewrite !app_length. cbn. lia. }
  destruct (pile_execute dm p dur cap e g q WK M1 CH Q
    (length (nodup Nat.eq_dec (d_tasks dm)) + Z.to_nat (total_duration dm p dur)) s0 H0) as [s [E [R [G L]]]].
  { rewrite LR. lia. }
  exists s. split; auto. split; auto. assert (T0 : s_t s0 = 0) by reflexivity.
  pose proof (work_nonneg dm p dur cap WK s R). lia.
Qed.

Definition env_pol : pile_env := {|
  e_desc := fun n => match n with O => [1; 2; 3] | 1 | 2 => [3] | _ => [] end%nat;
  e_dur := fun n => dur_pol n 1; e_choice := fun _ => O; e_random := fun _ => O |}.

Example C77_ex : workable dom_pol (pol SGS_READY 1 [] None) dur_pol cap_pol /\
  (forall n, In n (d_tasks dom_pol) -> dget (p_modes (pol SGS_READY 1 [] None)) n = Some 1%nat) /\
  (exists s, hist dom_pol (fun r _ => cap_pol r) anything s /\
     pile_next dom_pol env_pol FASTEST s = Ok (start_act 1 1) /\ starts_in_mode_one dom_pol s 2) /\
  exists s, execute dom_pol (pile_next dom_pol env_pol FASTEST) dur_pol (fun r _ => cap_pol r) 9
     (initial_state dom_pol (fun r _ => cap_pol r)) = Ok s /\ s_t s = 5.
Proof.
  split; [apply pol_workable; auto|]. split.
  { intros n I. simpl in I. intuition subst; reflexivity. }
  split; [|eexists; split; vm_compute; reflexivity].
  eexists. split.
  - eapply h_step with (a := start_act 0 1) (dur := 0) (q := fun r _ => cap_pol r); [constructor|exact Logic.I|].
    vm_compute. reflexivity.
  - split; [vm_compute; reflexivity|]. split; [|eexists; vm_compute; reflexivity].
    split; [simpl; auto|]. intros k l I J. simpl in I.
    repeat (destruct I as [E|I]; [injection E as <- <-; simpl in *; intuition congruence|]). destruct I.
Qed.

(** Mode 1 is the only one tried.  A task without a mode 1 stops the policy ... *)
Definition dom_two : domain := {|
  d_tasks := [0]%nat; d_modes := [(0%nat, [(2%nat, need 1)])];
  d_types := [0]%nat; d_units := []; d_renew := None; d_preempt := []; d_paused_ret := []; d_skills := None;
  d_progress := lin_progress (fun _ _ => 0); d_succ := []; d_exist := []; d_cond := []; d_horizon := 100;
  d_mode_costs := []; d_res_costs := []; d_makespan := true; d_cost := false |}.
Theorem C77_no_mode_one_refuted : exists dm q st n, st = initial_state dm q /\ offered dm st (start_act n 2) /\
  forall e g, pile_next dm e g st = Err KeyError.
Proof.
  exists dom_two, (fun _ _ => 2). eexists. exists 0%nat. split; [reflexivity|]. split.
  - eexists. split; [vm_compute; reflexivity|]. simpl. auto.
  - intros e g. reflexivity.
Qed.

(** ... and a task whose mode 1 exceeds a capacity is never started, even if another mode fits. *)
Theorem C77_mode_one_too_large_blocks : forall dm cap e g s n r a, const_dom dm -> need_nonneg dm ->
  (forall r, 0 <= cap r) -> hist dm (fun r _ => cap r) (offer_at dm cap) s ->
  In r (d_types dm) -> is_renewable dm r = Ok true -> cap r < cneed dm n 1 r ->
  pile_next dm e g s = Ok a -> a <> start_act n 1.
Proof.
  intros dm cap e g s n r a CD NN CP H R RN LT E ->.
  destruct (C77_choice dm e g s _ E) as [[K _]|[n' [A [[_ [rtu S]] _]]]]; [discriminate|].
  injection A as <-. unfold can_start, act_task, act_mode in S. cbn [a_task a_mode a_units start_act bind] in S.
  apply bind_ok in S. destruct S as [k [K S]]. apply bind_ok in S. destruct S as [time [T S]].
  apply bind_ok in S. destruct S as [rt [G S]]. apply bind_ok in S. destruct S as [b [EN S]].
  destruct b; [|discriminate].
  pose proof (rtu_const dm n 1 None time rt CD ltac:(discriminate) G r R) as RT.
  apply dget_In in RT.
  assert (X : (let* av := dgetE (s_avail s) r in let* us := dgetE (s_used s) r in Ok (cneed dm n 1 r <=? av - us)) = Ok true).
  { clear - EN RT. unfold enough in EN. revert EN RT. generalize rt. induction rt0 as [|[x y] l IH]; cbn [allM]; intros EN RT; [destruct RT|].
    apply bind_ok in EN. destruct EN as [b [B EN]]. destruct b; [|discriminate].
    destruct RT as [E|RT]; [injection E as -> ->; exact B|auto]. }
  apply bind_ok in X. destruct X as [av [AV X]]. apply bind_ok in X. destruct X as [us [US X]]. injection X as X.
  apply dgetE_ok in AV, US.
  assert (PL : forall s dur q a, offer_at dm cap s dur q a -> plain dm s a /\ forall r t, q r t = cap r).
  { intros s0 d q a0 [_ [Q O]]. split; auto. now apply offer_plain. }
  destruct (hist_cap dm cap _ _ s CD NN CP (fun _ _ => eq_refl) PL H) as [AI _].
  specialize (AI r). rewrite AV in AI.
  destruct (pymem r (d_types dm ++ d_units dm)); [|discriminate]. injection AI as ->.
  pose proof (C21_never_negative dm _ s r NN RN (hist_weaken _ _ _ anything _ (fun _ _ _ _ _ => Logic.I) H)) as NG.
  unfold qty in NG. rewrite US in NG. apply Z.leb_le in X. lia.
Qed.

(** * C78: MetaPolicy *)

(** The action is the one some base policy gives on the same state. *)
Theorem C78_sound : forall dm ps durs q fuel st a, meta_next dm ps durs q fuel st = Ok a ->
  exists p, In p ps /\ next_action dm p st = Ok a.
Proof.
  intros dm ps durs q fuel st a H. unfold meta_next in H. apply bind_ok in H. destruct H as [acts [A H]].
  assert (MI : forall l acts, mapM (fun p => next_action dm p st) l = Ok acts -> forall b, In b acts ->
     exists p, In p l /\ next_action dm p st = Ok b).
  { clear. induction l as [|p l IH]; intros acts A b I; cbn in A.
    - injection A as <-. destruct I.
    - apply bind_ok in A. destruct A as [x [X A]]. apply bind_ok in A. destruct A as [r [R A]]. injection A as <-.
      destruct I as [<-|I]; [exists p; simpl; auto|]. destruct (IH r R b I) as [p' [P1 P2]]. exists p'. simpl; auto. }
  destruct (1 <? length ps)%nat.
  - apply bind_ok in H. destruct H as [res [R H]]. destruct durs; [discriminate|].
    destruct (combine res acts) as [|x l] eqn:C; [discriminate|]. injection H as <-.
    destruct (cheapest_spec l x) as [c [I _]].
    apply (MI ps acts A). rewrite <- C in I. apply in_combine_r in I. exact I.
  - destruct acts as [|b acts]; [discriminate|]. injection H as ->. apply (MI ps (a :: acts) A). simpl. auto.
Qed.

(** When the durations of the roll-outs are those of the execution, the execution of the meta policy
    reaches the goal no later than that of every base policy. *)
Theorem C78_no_worse : forall dm dur cap q ps p0 k, In p0 ps ->
  (forall p, In p ps -> workable dm p dur cap /\ covers dm p /\ p_modes p = p_modes p0) ->
  (forall r t, q r t = cap r) -> total_duration dm p0 dur <= d_horizon dm ->
  let fuel := (length (nodup Nat.eq_dec (d_tasks dm)) + Z.to_nat (total_duration dm p0 dur))%nat in
  exists s, execute dm (meta_next dm ps (repeat dur (S k)) q fuel) dur q fuel (initial_state dm q) = Ok s /\
    is_goal s = true /\
    forall p, In p ps -> exists e, execute dm (next_action dm p) dur q fuel (initial_state dm q) = Ok e /\
      is_goal e = true /\ s_t s <= s_t e.
Proof.
  intros dm dur cap q ps p0 k P0 HP Q HO fuel.
  pose proof (fun p I => proj1 (HP p I)) as WK. pose proof (fun p I => proj1 (proj2 (HP p I))) as CO.
  pose proof (fun p I => proj2 (proj2 (HP p I))) as MO.
  rewrite (initial_ext dm cap q Q). set (s0 := initial_state dm (fun r _ => cap r)).
  assert (H0 : reached dm p0 dur cap s0) by constructor.
  pose proof (work_init dm p0 dur cap (WK p0 P0)) as WI. fold s0 in WI.
  pose proof (work_nonneg dm p0 dur cap (WK p0 P0) s0 H0) as WN.
  assert (LR : length (s_remaining s0) = length (nodup Nat.eq_dec (d_tasks dm))).
  { pose proof (hist_all _ _ _ _ H0) as P. apply Permutation_length in P.
    rewrite (uncond dm p0 dur cap (WK p0 P0)) in P. unfold all_of in P. rewrite <- P. unfold s0, initial_state. cbn.
    rewrite !app_length. cbn. lia. }
  assert (T0 : s_t s0 = 0) by reflexivity.
  destruct (meta_execute dm dur cap q ps p0 P0 WK CO MO Q k fuel fuel s0 H0) as [s [E [_ [G M]]]];
    [lia|unfold fuel; lia|unfold fuel; lia|].
  exists s. split; auto. split; auto. intros p I.
  assert (TD : total_duration dm p dur = total_duration dm p0 dur).
  { unfold total_duration. apply f_equal. apply map_ext. intros n. unfold lasts_for, mode_of. now rewrite (MO p I). }
  destruct (C75_terminates dm p dur cap q (WK p I) (CO p I) Q) as [e [E1 [E2 _]]].
  rewrite TD, (initial_ext dm cap q Q) in E1. exists e. split; [exact E1|]. split; auto.
  apply (M p e I). exact E1.
Qed.

Definition dom_meta : domain := {|
  d_tasks := [1; 2; 3]%nat;
  d_modes := [(1%nat, [(1%nat, need 2)]); (2%nat, [(1%nat, need 1)]); (3%nat, [(1%nat, need 1)])];
  d_types := [0]%nat; d_units := []; d_renew := None; d_preempt := []; d_paused_ret := []; d_skills := None;
  d_progress := lin_progress (fun _ _ => 0); d_succ := [(1%nat, [3%nat])];
  d_exist := []; d_cond := []; d_horizon := 100; d_mode_costs := []; d_res_costs := [];
  d_makespan := true; d_cost := false |}.
Definition dur_meta (n m : nat) : Z := match n with 1%nat => 1 | _ => 3 end.
Definition pol_meta (perm : list nat) : policy := {|
  p_method := SGS_READY; p_delta_time := 0; p_delta_index := 0; p_perm := perm;
  p_modes := [(1, 1); (2, 1); (3, 1)]%nat; p_sched := None; p_alloc := None; p_order := fun l => l |}.

Lemma dom_meta_workable : forall p, p_alloc p = None -> (forall n, In n [1; 2; 3]%nat -> dget (p_modes p) n = Some 1%nat) ->
  workable dom_meta p dur_meta cap_pol.
Proof.
  intros p PA PM.
  assert (MO : forall k m c, get_mode dom_meta k m = Ok c -> exists x, c = need x /\ 0 <= x <= 2).
  { intros k m c H. unfold get_mode in H. mon. apply dget_In in H0. apply dget_In in H. simpl in H0.
    destruct H0 as [E|[E|[E|[]]]]; injection E as <- <-; simpl in H;
      repeat (destruct H as [E|H]; [injection E as <- <-; eexists; split; [reflexivity|lia]|]); destruct H. }
  constructor.
  - intros k m' c H. destruct (MO k m' c H) as [x [-> _]]. unfold need. eauto.
  - intros k m' c r time q H N. destruct (MO k m' c H) as [x [-> B]]. unfold need in N. simpl in N.
    destruct (Nat.eqb r 0); injection N as <-; lia.
  - reflexivity.
  - exists (fun _ _ => 0). reflexivity.
  - reflexivity.
  - intros r [<-|[]]. reflexivity.
  - exact PA.
  - intros r. unfold cap_pol. lia.
  - intros n I. simpl in I.
    destruct I as [<-|[<-|[<-|[]]]];
      (eexists; eexists; split; [apply PM; simpl; auto|]; split; [vm_compute; reflexivity|]; split; [cbn; lia|];
       intros r x E; unfold need_at in E; simpl in E; destruct (Nat.eqb r 0); injection E as <-; cbn; unfold cap_pol; lia).
  - intros k l n I J. simpl in I. repeat (destruct I as [E|I]; [injection E as <- <-; simpl; tauto|]). destruct I.
  - exists (fun n => n). intros k l n I J. simpl in I.
    repeat (destruct I as [E|I]; [injection E as <- <-; simpl in J;
      repeat (destruct J as [<-|J]; [lia|]); destruct J|]). destruct I.
Qed.

Lemma meta_workable : forall perm, workable dom_meta (pol_meta perm) dur_meta cap_pol.
Proof. intros perm. apply dom_meta_workable; [reflexivity|]. intros n I. simpl in I. intuition subst; reflexivity. Qed.

Example C78_ex : let ps := [pol_meta [2; 1; 3]; pol_meta [1; 2; 3]]%nat in let q := fun (r : nat) (_ : Z) => cap_pol r in
  (forall p, In p ps -> workable dom_meta p dur_meta cap_pol /\ covers dom_meta p /\ p_modes p = p_modes (pol_meta [2; 1; 3]%nat)) /\
  total_duration dom_meta (pol_meta [2; 1; 3]%nat) dur_meta <= d_horizon dom_meta /\
  map (fun p => rmap s_t (execute dom_meta (next_action dom_meta p) dur_meta q 10 (initial_state dom_meta q))) ps = [Ok 7; Ok 4] /\
  rmap s_t (execute dom_meta (meta_next dom_meta ps [dur_meta] q 10) dur_meta q 10 (initial_state dom_meta q)) = Ok 4.
Proof.
  cbv zeta. split; [|split; [cbn; lia|split; vm_compute; reflexivity]].
  intros p I. simpl in I. destruct I as [<-|[<-|[]]]; (split; [apply meta_workable|]); (split; [|reflexivity]);
    (split; [split; discriminate|]); (split; [intros n I; simpl in *; tauto|]); (split; [discriminate|cbn; lia]).
Qed.

(** Without roll-outs the meta policy fails whenever it has two policies, even if they agree. *)
Theorem C78_agreement_refuted : exists dm p q st fuel a, next_action dm p st = Ok a /\
  meta_next dm [p; p] [] q fuel st = Err KeyError.
Proof.
  exists dom_meta, (pol_meta [1; 2; 3]%nat), (fun _ _ => 2), (initial_state dom_meta (fun _ _ => 2)), 10%nat.
  eexists. split; vm_compute; reflexivity.
Qed.

(** * C79: policies built from a solution of the discrete-optimisation solvers *)

(** The permutation holds exactly the scheduled tasks, by start date (ties by task); the modes are 1 for
    the first and the last job and the chosen ones in between. *)
Theorem C79_permutation : forall sch modes n m dt di order,
  let p := policy_of_solution sch modes n m dt di order in
  Permutation (dkeys sch) (p_perm p) /\ p_method p = m /\ p_sched p = Some sch /\
  forall i j x y a b, nth_error (p_perm p) i = Some x -> nth_error (p_perm p) j = Some y -> (i < j)%nat ->
    dget sch x = Some a -> dget sch y = Some b -> a < b \/ (a = b /\ (x <= y)%nat).
Proof.
  intros sch modes n m dt di order p. split; [apply sort_by_perm|]. split; auto. split; auto.
  intros i j x y a b I J LT A B. pose proof (sort_dates sch) as S. change (sort_by (start_le sch) (dkeys sch)) with (p_perm p) in S.
  revert i j I J LT. induction S as [|z l S IH F]; intros i j I J LT; [destruct i; discriminate|].
  destruct j as [|j]; [lia|]. cbn in J. destruct i as [|i].
  - cbn in I. injection I as ->. rewrite Forall_forall in F. apply (F y); auto. eapply nth_error_In; eauto.
  - cbn in I. eapply IH; eauto. lia.
Qed.

Theorem C79_modes : forall sch modes n m dt di order, length modes = n ->
  let p := policy_of_solution sch modes n m dt di order in
  dget (p_modes p) 1%nat = Some 1%nat /\ dget (p_modes p) (n + 2)%nat = Some 1%nat /\
  (forall i, (i < n)%nat -> dget (p_modes p) (i + 2)%nat = nth_error modes i) /\
  (forall k, (k = 0 \/ n + 2 < k)%nat -> dget (p_modes p) k = None).
Proof.
  intros sch modes n m dt di order L p. unfold p, policy_of_solution. cbn [p_modes].
  repeat split; intros; rewrite modes_from_get.
  - change (2 <=? 1)%nat with false. cbn [andb]. rewrite dget_dset_other by lia. reflexivity.
  - replace (n + 2 <? 2 + length modes)%nat with false by (symmetry; apply Nat.ltb_ge; lia).
    rewrite andb_false_r. apply dget_dset_same.
  - replace (2 <=? i + 2)%nat with true by (symmetry; apply Nat.leb_le; lia).
    replace (i + 2 <? 2 + length modes)%nat with true by (symmetry; apply Nat.ltb_lt; lia). cbn [andb].
    f_equal. lia.
  - assert (B : ((2 <=? k)%nat && (k <? 2 + length modes)%nat) = false).
    { apply andb_false_iff. destruct H as [-> | H]; [now left|right]. apply Nat.ltb_ge. lia. }
    rewrite B. rewrite !dget_dset_other by lia. reflexivity.
Qed.

(** A solution whose schedule is feasible is replayed at its dates. *)
Theorem C79_replay : forall dm dur cap q sch modes n dt di order horizon,
  let p := policy_of_solution sch modes n FOLLOW_GANTT dt di order in
  workable dm p dur cap -> NoDup (dkeys sch) -> (forall l x, In x (order l) <-> In x l) ->
  (forall k, In k (d_tasks dm) -> exists a, dget sch k = Some a /\ 0 <= a) ->
  (forall k l j a b, In (k, l) (d_succ dm) -> In j l -> dget sch k = Some a -> dget sch j = Some b ->
     a + lasts_for p dur k <= b) ->
  (forall r tau, In r (d_types dm) -> planned_load dm p dur sch r tau <= cap r) ->
  (forall r t, q r t = cap r) -> 0 <= horizon ->
  (forall k a, In k (d_tasks dm) -> dget sch k = Some a -> a + lasts_for p dur k <= horizon) ->
  exists s, execute dm (next_action dm p) dur q (length (nodup Nat.eq_dec (d_tasks dm)) + Z.to_nat horizon)
      (initial_state dm q) = Ok s /\ is_goal s = true /\ s_t s <= horizon /\
    forall k a, In k (d_tasks dm) -> dget sch k = Some a -> starts s k a.
Proof.
  intros dm dur cap q sch modes n dt di order ho p WK ND OR DA PR LO Q HP HH.
  apply (C76_follows_plan dm p dur cap q sch ho); auto. constructor; auto.
Qed.

(** Two jobs between the first and the last: tasks 1 to 4. *)
Example C79_ex : let p := policy_of_solution [(1%nat, 0); (2%nat, 4); (3%nat, 0); (4%nat, 6)] [2; 1]%nat 2 SGS_READY 0 0 (fun l => l) in
  p_perm p = [1; 3; 2; 4]%nat /\ map (dget (p_modes p)) [1; 2; 3; 4]%nat = [Some 1; Some 2; Some 1; Some 1]%nat.
Proof. vm_compute. split; reflexivity. Qed.

Example C79_replay_ex : let sch := [(3%nat, 1); (1%nat, 0); (2%nat, 1)] in
  let p := policy_of_solution sch [1%nat] 1 FOLLOW_GANTT 0 0 (fun l => l) in
  workable dom_meta p dur_meta cap_pol /\ planned dom_meta p dur_meta cap_pol sch /\
  exists s, execute dom_meta (next_action dom_meta p) dur_meta (fun r _ => cap_pol r) 7
     (initial_state dom_meta (fun r _ => cap_pol r)) = Ok s /\ s_t s = 4 /\ starts s 2 1.
Proof.
  intros sch p. split; [|split].
  - apply dom_meta_workable; [reflexivity|]. intros n I. simpl in I. intuition subst; reflexivity.
  - constructor; auto; try reflexivity.
    + unfold sch, dkeys. cbn. repeat constructor; simpl; intuition discriminate.
    + intros n I. simpl in I. intuition subst; eexists; (split; [reflexivity|lia]).
    + intros m l n a b I J A B. simpl in I.
      repeat (destruct I as [E|I]; [injection E as <- <-; simpl in J;
        repeat (destruct J as [<-|J]; [vm_compute in A; vm_compute in B; injection A as <-; injection B as <-; vm_compute; discriminate|]);
        destruct J|]). destruct I.
    + intros r tau [<-|[]]. unfold planned_load, sch. cbn -[Z.leb Z.ltb Z.add Z.le]. unfold cap_pol.
      assert (X1 : ((0 <=? tau) && (tau <? 0 + 1) = true -> 0 <= tau < 1)) by (rewrite andb_true_iff, Z.leb_le, Z.ltb_lt; lia).
      assert (X2 : ((1 <=? tau) && (tau <? 1 + 3) = true -> 1 <= tau < 4)) by (rewrite andb_true_iff, Z.leb_le, Z.ltb_lt; lia).
      destruct ((0 <=? tau) && (tau <? 0 + 1)); destruct ((1 <=? tau) && (tau <? 1 + 3)); cbn; try lia;
        specialize (X1 eq_refl); specialize (X2 eq_refl); lia.
  - eexists. split; [vm_compute; reflexivity|]. split; [reflexivity|]. eexists. split; reflexivity.
Qed.

Print Assumptions C72_sound.
Print Assumptions C72_starts.
Print Assumptions C72_pile_method_refuted.
Print Assumptions C72_unlisted_refuted.
Print Assumptions C73_choice.
Print Assumptions C74_precedence_is_strict.
Print Assumptions C74_no_time_freedom.
Print Assumptions C74_full_index_freedom.
Print Assumptions C74_undated_refuted.
Print Assumptions C75_terminates.
Print Assumptions C75_feasible.
Print Assumptions C76_follows_plan.
Print Assumptions C76_missed_date_blocks.
Print Assumptions C76_late_task_refuted.
Print Assumptions C77_choice.
Print Assumptions C77_sample.
Print Assumptions C77_weights.
Print Assumptions C77_terminates.
Print Assumptions C77_no_mode_one_refuted.
Print Assumptions C77_mode_one_too_large_blocks.
Print Assumptions C78_sound.
Print Assumptions C78_no_worse.
Print Assumptions C78_agreement_refuted.
Print Assumptions C79_permutation.
Print Assumptions C79_modes.
Print Assumptions C79_replay.
