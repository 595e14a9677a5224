(** Executing FOLLOW_GANTT reproduces a feasible plan. *)
From Coq Require Import List Bool Arith ZArith QArith Lia Permutation.
From Verif Require Import Py PyList PyMore SchedModel SchedProofs SchedActProofs SchedTimeProofs.
From Verif Require Import PolModel PolSpec PolProofs PolExecProofs.
Import ListNotations.
Open Scope Z_scope.

Lemma sum_sub : forall (f : nat -> Z) l t, NoDup l -> incl l t -> (forall k, In k t -> 0 <= f k) ->
  sumZ (map f l) <= sumZ (map f t).
Proof.
  intros f. induction l as [|x l IH]; intros t ND IN NN.
  - cbn. clear - NN. induction t as [|y t IH]; cbn; [lia|]. unfold sumZ in *. cbn.
    pose proof (NN y (or_introl eq_refl)). specialize (IH (fun k I => NN k (or_intror I))). lia.
  - inversion ND; subst. destruct (in_split x t) as [t1 [t2 E]]; [apply IN; simpl; auto|].
    assert (P : Permutation t (x :: t1 ++ t2)) by (subst t; symmetry; apply Permutation_middle).
    rewrite (sumZ_perm _ _ (Permutation_map f P)). cbn [map]. unfold sumZ. cbn [fold_right].
    assert (X : sumZ (map f l) <= sumZ (map f (t1 ++ t2))).
    { apply IH; auto.
      - intros y I. assert (J : In y t) by (apply IN; simpl; auto). apply (Permutation_in _ P) in J.
        destruct J as [<-|J]; [contradiction|auto].
      - intros k I. apply NN. apply (Permutation_in _ (Permutation_sym P)). simpl. auto. }
    unfold sumZ in X. lia.
Qed.

Section Gantt.
Variables (dm : domain) (p : policy) (dur : nat -> nat -> Z) (cap : nat -> Z) (sch : list (nat * Z)).
Hypothesis WK : workable dm p dur cap.
Hypothesis PL : planned dm p dur cap sch.
Let D := lasts_for p dur.
Notation reached := (reached dm p dur cap).

(** The plan has been followed so far. *)
Record on_plan (s : state) : Prop := {
  op_rem : forall n a, In n (s_remaining s) -> dget sch n = Some a -> s_t s <= a;
  op_sta : forall n x, starts s n x -> dget sch n = Some x }.

Lemma cneed_ge : forall n m r, 0 <= cneed dm n m r.
Proof.
  intros n m r. unfold cneed. destruct (get_mode dm n m) as [[d|d]|e] eqn:G; try lia.
  apply (wk_nonneg _ _ _ _ WK n m (Constant d) r 0 (qty d r) G). reflexivity.
Qed.

(** What is used is less than the plan's load, leaving room for a task due now. *)
Lemma plan_room : forall s n m r, reached s -> on_plan s -> In n (s_remaining s) -> dget sch n = Some (s_t s) ->
  dget (p_modes p) n = Some m -> In r (d_types dm) -> cneed dm n m r <= cap r - qty (s_used s) r.
Proof.
  intros s n m r H OP I A M R.
  assert (TN : In n (d_tasks dm)) by (apply (all_tasks dm p dur cap WK s H); unfold all_of; apply in_app_iff; auto).
  destruct (mode_D dm p dur cap WK n TN) as [m1 [_ [_ [C1 [_ [_ [_ [C5 C6]]]]]]]].
  assert (m1 = m) by congruence. subst m1.
  pose proof (reached_bal dm p dur cap WK s r H R) as B. unfold bal in B.
  pose proof (hist_WF _ _ _ _ H) as W. pose proof (reached_ongoing dm p dur cap WK s H) as J.
  pose proof (ongoing_held dm s r W (reached_const dm p dur cap WK s H) (j_hold _ _ _ _ J) R) as OH.
  set (f := fun k => match dget sch k with
                     | Some a => if (a <=? s_t s) && (s_t s <? a + lasts_for p dur k)
                                 then cneed dm k (mode_of p k) r else 0
                     | None => 0 end).
  assert (FN : forall k, 0 <= f k).
  { intros k. unfold f. destruct (dget sch k); [|lia]. destruct (_ && _); [apply cneed_ge|lia]. }
  assert (EO : sumZ (map (mode_need dm s r) (s_ongoing s)) = sumZ (map f (s_ongoing s))).
  { apply sum_map_ext. intros k K.
    destruct (ongoing_dates dm p dur cap WK s k H K) as [d [x [A1 [A2 [A3 [A4 [A5 [A6 [A7 A8]]]]]]]]].
    assert (SK : dget sch k = Some x) by (apply (op_sta _ OP); exists d; auto).
    unfold f. rewrite SK. replace ((x <=? s_t s) && (s_t s <? x + lasts_for p dur k)) with true
      by (symmetry; apply andb_true_iff; lia).
    unfold mode_need, mode_of. rewrite (j_mode _ _ _ _ J k (or_introl K)).
    assert (TK : In k (d_tasks dm)) by (apply (all_tasks dm p dur cap WK s H); unfold all_of; rewrite !in_app_iff; auto).
    destruct (mode_D dm p dur cap WK k TK) as [mk [_ [_ [MK _]]]]. now rewrite MK. }
  pose proof (pl_load _ _ _ _ _ PL r (s_t s) R) as PLD. unfold planned_load in PLD. fold f in PLD.
  destruct (wf_sep _ W) as [D1 [_ [_ [_ [N2 _]]]]].
  assert (IO : incl (s_ongoing s) (nodup Nat.eq_dec (d_tasks dm))).
  { intros k K. apply nodup_In. apply (all_tasks dm p dur cap WK s H). unfold all_of. rewrite !in_app_iff. auto. }
  destruct (Z.eq_dec (lasts_for p dur n) 0) as [Z0|Z0].
  - destruct (C6 r) as [_ C7]. rewrite (C7 Z0).
    pose proof (sum_sub f (s_ongoing s) _ N2 IO (fun k _ => FN k)). lia.
  - assert (X : sumZ (map f (n :: s_ongoing s)) <= sumZ (map f (nodup Nat.eq_dec (d_tasks dm)))).
    { apply sum_sub; auto.
      - constructor; auto. intros K. destruct (D1 n I). contradiction.
      - intros k [<-|K]; [now apply nodup_In|auto]. }
    cbn [map] in X. unfold sumZ in X at 1. cbn [fold_right] in X. fold (sumZ (map f (s_ongoing s))) in X.
    assert (FX : f n = cneed dm n m r).
    { unfold f. rewrite A. replace ((s_t s <=? s_t s) && (s_t s <? s_t s + lasts_for p dur n)) with true
        by (symmetry; apply andb_true_iff; lia). unfold mode_of. now rewrite M. }
    lia.
Qed.

(** A remaining task due now with no remaining predecessor due now may be launched. *)
Lemma due_launchable : forall s, reached s -> on_plan s ->
  (exists n, In n (s_remaining s) /\ dget sch n = Some (s_t s)) ->
  exists n, In n (launchable dm s) /\ dget sch n = Some (s_t s).
Proof.
  intros s H OP EX. destruct (wk_acyclic _ _ _ _ WK) as [rank RK].
  destruct (min_rank rank (s_remaining s) (fun n => dget sch n = Some (s_t s)) EX) as [n [I [A MIN]]].
  { intros x. destruct (dget sch x) as [z|]; [|right; discriminate].
    destruct (Z.eq_dec z (s_t s)) as [->|N]; [auto|right; congruence]. }
  exists n. split; auto. apply launchable_In. split; auto. intros m M. apply preds_In in M. destruct M as [l [M1 M2]].
  assert (TM : In m (d_tasks dm)) by (eapply (wk_edges _ _ _ _ WK); eauto).
  destruct (pl_dates _ _ _ _ _ PL m TM) as [am [AM _]].
  pose proof (pl_prec _ _ _ _ _ PL m l n am (s_t s) M1 M2 AM A) as PR.
  destruct (mode_D dm p dur cap WK m TM) as [_ [_ [_ [_ [_ [_ [_ [DP _]]]]]]]].
  apply (all_tasks dm p dur cap WK s H) in TM. unfold all_of in TM.
  rewrite !in_app_iff, (j_paused _ _ _ _ (reached_ongoing dm p dur cap WK s H)) in TM.
  destruct TM as [J|[J|[J|[]]]]; auto; exfalso.
  - pose proof (op_rem _ OP m am J AM). assert (am = s_t s) by lia. subst am.
    specialize (MIN m J AM). specialize (RK _ _ _ M1 M2). lia.
  - destruct (ongoing_dates dm p dur cap WK s m H J) as [d [x [A1 [A2 [A3 [A4 [A5 [A6 [A7 A8]]]]]]]]].
    assert (SK : dget sch m = Some x) by (apply (op_sta _ OP); exists d; auto).
    assert (x = am) by congruence. subst x. lia.
Qed.

(** What the policy does on a state on plan. *)
Lemma gantt_pick : forall s, reached s -> on_plan s ->
  (exists n a, In n (launchable dm s) /\ dget sch n = Some (s_t s) /\ accepted dm p s n a /\
      next_action dm p s = Ok a) \/
  ((forall n, In n (s_remaining s) -> dget sch n <> Some (s_t s)) /\ next_action dm p s = Ok time_act).
Proof.
  intros s H OP. unfold next_action. rewrite (pl_method _ _ _ _ _ PL). unfold follow_gantt.
  destruct (store_spec p sch (s_t s) (pl_sched _ _ _ _ _ PL)) as [S1 S2].
  assert (NONE : (forall n, In n (launchable dm s) -> ~ In (n, s_t s) sch) ->
                 forall n, In n (s_remaining s) -> dget sch n <> Some (s_t s)).
  { intros X n I E. destruct (due_launchable s H OP) as [k [K1 K2]]; [eauto|].
    apply (X k K1). now apply dget_In. }
  destruct (dget (store_start_date p) (s_t s)) as [ts|] eqn:E.
  - destruct (filter _ (p_order p ts)) as [|n l] eqn:F.
    + right. split; [|reflexivity]. apply NONE. intros n L J.
      destruct (S2 n J) as [ts' [E1 J1]]. assert (ts' = ts) by congruence. subst ts'.
      assert (In n []).
      { rewrite <- F. apply filter_In. split; [now apply (pl_order _ _ _ _ _ PL)|].
        pose proof (proj1 (launchable_In _ _ _) L) as [I _].
        destruct (wf_sep _ (hist_WF _ _ _ _ H)) as [D1 _]. destruct (D1 n I) as [Q1 [Q2 Q3]].
        apply andb_true_iff. split; [apply andb_true_iff; split; apply negb_true_iff; apply pymem_false; auto|].
        apply pymem_true. exact L. }
      destruct H0.
    + left. assert (IN : In n (n :: l)) by (simpl; auto). rewrite <- F in IN. apply filter_In in IN.
      destruct IN as [IN1 IN2]. apply andb_true_iff in IN2. destruct IN2 as [_ IN2].
      assert (L : In n (launchable dm s)) by (rewrite <- pymem_true; exact IN2).
      apply (proj1 (pl_order _ _ _ _ _ PL _ _)) in IN1. apply (S1 ts eq_refl) in IN1.
      assert (SN : dget sch n = Some (s_t s)) by (apply In_dget; [apply (pl_nodup _ _ _ _ _ PL)|exact IN1]).
      pose proof (proj1 (launchable_In _ _ _) L) as [I _].
      destruct (check_total dm p dur cap WK s n H I) as [m [b [B1 [B2 [B3 [B4 _]]]]]].
      assert (b = true) by (apply B4; intros r R; eapply plan_room; eauto). subst b.
      exists n, (start_act n m). rewrite B2. cbn [bind]. rewrite B3. cbn [bind].
      split; auto. split; auto. split; [split; auto|]. reflexivity.
  - right. split; [|reflexivity]. apply NONE. intros n L J. destruct (S2 n J) as [ts' [E1 _]]. congruence.
Qed.

Lemma plan_start : forall s s' n, on_plan s -> reached s -> reached s' -> dget sch n = Some (s_t s) -> s_t s' = s_t s ->
  s_remaining s' = pyremove n (s_remaining s) ->
  (exists d, dget (s_details s') n = Some d /\ tk_start d = Some (s_t s)) ->
  (forall k, k <> n -> dget (s_details s') k = dget (s_details s) k) -> on_plan s'.
Proof.
  intros s s' n [O1 O2] H H' A T R [d [DN1 DN2]] DO. constructor.
  - intros k a I E. rewrite T. apply (O1 k a); auto. rewrite R in I. now apply pyremove_incl in I.
  - intros k x [d' [E1 E2]]. destruct (Nat.eq_dec k n) as [->|N].
    + assert (d' = d) by congruence. subst d'. congruence.
    + apply O2. exists d'. rewrite <- DO by assumption. auto.
Qed.

Lemma on_plan_init : on_plan (initial_state dm (fun r _ => cap r)).
Proof.
  constructor.
  - intros n a I E. unfold initial_state in *. cbn [s_t s_remaining] in *.
    assert (TN : In n (d_tasks dm)).
    { apply (all_tasks dm p dur cap WK (initial_state dm (fun r _ => cap r))); [constructor|].
      unfold all_of. apply in_app_iff. left. exact I. }
    destruct (pl_dates _ _ _ _ _ PL n TN) as [b [B1 B2]]. assert (a = b) by congruence. lia.
  - intros n x [d [E1 E2]]. unfold initial_state in E1. cbn [s_details] in E1. rewrite details_fold in E1.
    destruct (pymem n (d_tasks dm)); [|discriminate]. injection E1 as <-. discriminate.
Qed.

(** At a goal, every task has started, at the planned date. *)
Lemma goal_on_plan : forall s, reached s -> on_plan s -> is_goal s = true ->
  forall n a, In n (d_tasks dm) -> dget sch n = Some a -> starts s n a.
Proof.
  intros s H OP G n a TN A. unfold is_goal in G.
  apply (all_tasks dm p dur cap WK s H) in TN. unfold all_of in TN.
  destruct (s_remaining s), (s_ongoing s), (s_paused s); try discriminate.
  rewrite app_nil_r in TN. cbn [app] in TN.
  destruct (dt_com _ (reached_DT dm p dur cap WK s H) n TN) as [r [x [e [dd [pt [A1 [[A2 _] _]]]]]]].
  assert (SX : starts s n x) by (exists r; auto).
  rewrite (op_sta _ OP n x SX) in A. now injection A as <-.
Qed.

Variable H0 : Z.
Hypothesis HH : forall n a, In n (d_tasks dm) -> dget sch n = Some a -> a + lasts_for p dur n <= H0.

Lemma gantt_execute : forall q, (forall r t, q r t = cap r) ->
  forall f s, reached s -> on_plan s -> 0 <= s_t s ->
  Z.of_nat (length (s_remaining s)) + Z.max 0 (H0 - s_t s) <= Z.of_nat f ->
  (s_t s <= H0 \/ s_t s = 0) ->
  exists s', execute dm (next_action dm p) dur q f s = Ok s' /\ reached s' /\ on_plan s' /\ is_goal s' = true /\
    (s_t s' <= H0 \/ s_t s' = 0).
Proof.
  intros q Q. induction f as [|f IH]; intros s H OP TP LE TB; rewrite execute_S;
    destruct (is_goal s) eqn:G; try (exists s; now auto).
  - exfalso.
    assert (RE : s_remaining s = []) by (destruct (s_remaining s); [reflexivity|cbn [length] in LE; lia]).
    assert (OE : exists k, In k (s_ongoing s)).
    { unfold is_goal in G. rewrite RE, (j_paused _ _ _ _ (reached_ongoing dm p dur cap WK s H)) in G.
      destruct (s_ongoing s) as [|k l]; [discriminate|]. exists k. simpl; auto. }
    destruct OE as [k K].
    destruct (ongoing_dates dm p dur cap WK s k H K) as [d [x [A1 [A2 [A3 [A4 [A5 [A6 [A7 A8]]]]]]]]].
    assert (SK : dget sch k = Some x) by (apply (op_sta _ OP); exists d; auto).
    assert (TK : In k (d_tasks dm)) by (apply (all_tasks dm p dur cap WK s H); unfold all_of; rewrite !in_app_iff; auto).
    specialize (HH k x TK SK). lia.
  - destruct (gantt_pick s H OP) as [[n [a [L [A [AC ->]]]]]|[NO ->]]; cbn [bind].
    + destruct (step_start dm p dur cap WK s n a q H L AC Q) as [s1 [N [R [T [_ [LN [RM [SN SO]]]]]]]].
      rewrite N. cbn [bind]. apply IH; auto.
      * eapply plan_start; eauto.
      * lia.
      * rewrite T. lia.
      * now rewrite T.
    + destruct (step_time dm p dur cap WK s q H Q) as [s1 [N [R [T [RM [_ [_ ST]]]]]]].
      rewrite N. cbn [bind].
      assert (OP1 : on_plan s1).
      { destruct OP as [O1 O2]. constructor.
        - intros n a I E. rewrite RM in I. specialize (O1 n a I E). specialize (NO n I).
          assert (a <> s_t s) by congruence. lia.
        - intros n x X. apply O2. now apply ST. }
      assert (LT : s_t s < H0).
      { destruct (s_remaining s) as [|n l] eqn:RE.
        - assert (OE : exists k, In k (s_ongoing s)).
          { unfold is_goal in G. rewrite RE, (j_paused _ _ _ _ (reached_ongoing dm p dur cap WK s H)) in G.
            destruct (s_ongoing s) as [|k l]; [discriminate|]. exists k. simpl; auto. }
          destruct OE as [k K].
          destruct (ongoing_dates dm p dur cap WK s k H K) as [d [x [A1 [A2 [A3 [A4 [A5 [A6 [A7 A8]]]]]]]]].
          assert (SK : dget sch k = Some x) by (apply (op_sta _ OP); exists d; auto).
          assert (TK : In k (d_tasks dm)) by (apply (all_tasks dm p dur cap WK s H); unfold all_of; rewrite !in_app_iff; auto).
          specialize (HH k x TK SK). lia.
        - assert (I : In n (s_remaining s)) by (rewrite RE; simpl; auto).
          assert (TN : In n (d_tasks dm)) by (apply (all_tasks dm p dur cap WK s H); unfold all_of; apply in_app_iff; auto).
          destruct (pl_dates _ _ _ _ _ PL n TN) as [a [A _]].
          pose proof (op_rem _ OP n a I A). rewrite <- RE in NO. specialize (NO n I). rewrite A in NO.
          assert (a <> s_t s) by congruence. specialize (HH n a TN A).
          destruct (mode_D dm p dur cap WK n TN) as [_ [_ [_ [_ [_ [_ [_ [DP _]]]]]]]]. lia. }
      apply IH; auto; rewrite ?RM, ?T; lia.
Qed.

End Gantt.

(** * A missed date *)

Lemma gantt_missed : forall dm p q dur sch n a, p_method p = FOLLOW_GANTT -> p_sched p = Some sch ->
  (forall l x, In x (p_order p l) -> In x l) -> NoDup (dkeys sch) -> dget sch n = Some a ->
  forall f s s', WF s -> In n (s_remaining s) -> a < s_t s ->
  execute dm (next_action dm p) dur q f s <> Ok s'.
Proof.
  intros dm p q dur sch n a PM PS OR ND A. induction f as [|f IH]; intros s s' W I LT E;
    rewrite execute_S in E;
    (assert (G : is_goal s = false) by (unfold is_goal; destruct (s_remaining s); [destruct I|reflexivity]));
    rewrite G in E; [discriminate|].
  apply bind_ok in E. destruct E as [b [E1 E]]. apply bind_ok in E. destruct E as [s1 [E2 E]].
  unfold next_action in E1. rewrite PM in E1.
  pose proof (next_state_tstep _ _ _ _ _ _ W E2) as T.
  refine (IH s1 s' _ _ _ E).
  - eapply tstep_WF; eauto.
  - destruct (gantt_spec dm p s b OR E1) as [->|[k [sch' [PS' [K1 [K2 [SO AP]]]]]]].
    + destruct T as [T _|s3 c s4 T P TM ->]; [discriminate|].
      assert (s3 = s) by (inversion P; subst; auto; discriminate). subst s3.
      destruct (timed_spec _ _ _ _ W TM) as [_ [R _]]. unfold update_avail. cbn [a_tp time_act].
      cbn [s_remaining w_avail w_t]. now rewrite R.
    + assert (sch' = sch) by congruence. subst sch'.
      assert (KN : k <> n).
      { intros ->. apply In_dget in K1; auto. assert (a = s_t s) by congruence. lia. }
      unfold start_of in SO. apply bind_ok in SO. destruct SO as [m [_ SO]]. injection SO as <-.
      destruct (wf_sep _ W) as [_ [_ [_ [N1 _]]]].
      destruct T as [_ P|s3 c s4 T _ _ _]; [|discriminate].
      destruct P; cbn in *; try discriminate; auto; apply pyremove_In; auto; split; auto; congruence.
  - pose proof (tstep_t _ _ _ _ _ _ W T). destruct (a_tp b); lia.
Qed.
