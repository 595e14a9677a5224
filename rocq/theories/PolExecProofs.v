(** Executing a scheduling policy: invariants of the states reached, and progress. *)
From Coq Require Import List Bool Arith ZArith QArith Lia Permutation.
From Verif Require Import Py PyList PyMore SchedModel SchedProofs SchedActProofs SchedTimeProofs.
From Verif Require Import PolModel PolSpec PolProofs.
Import ListNotations.
Open Scope Z_scope.

Lemma sum_le : forall (f g : nat -> Z) l, (forall x, In x l -> f x <= g x) -> sumZ (map f l) <= sumZ (map g l).
Proof.
  intros f g. induction l as [|x l IH]; cbn; intros H; [lia|].
  unfold sumZ in *. cbn. pose proof (H x (or_introl eq_refl)). specialize (IH (fun y I => H y (or_intror I))). lia.
Qed.

Lemma sum_lt : forall (f g : nat -> Z) l y, (forall x, In x l -> f x <= g x) -> In y l -> f y < g y ->
  sumZ (map f l) < sumZ (map g l).
Proof.
  intros f g. induction l as [|x l IH]; cbn; intros y H I L; [destruct I|].
  unfold sumZ in *. cbn. pose proof (H x (or_introl eq_refl)).
  pose proof (sum_le f g l (fun y J => H y (or_intror J))). unfold sumZ in *.
  destruct I as [->|I]; [lia|]. specialize (IH y (fun y J => H y (or_intror J)) I L). lia.
Qed.

Lemma min_rank : forall (rank : nat -> nat) (l : list nat) (P : nat -> Prop),
  (exists x, In x l /\ P x) -> (forall x, P x \/ ~ P x) ->
  exists x, In x l /\ P x /\ forall y, In y l -> P y -> (rank x <= rank y)%nat.
Proof.
  intros rank l P [x [I X]] DEC.
  assert (G : forall k x, (rank x <= k)%nat -> In x l -> P x ->
      exists x, In x l /\ P x /\ forall y, In y l -> P y -> (rank x <= rank y)%nat).
  { induction k as [|k IH]; intros z LE IZ PZ.
    - exists z. split; auto. split; auto. intros; lia.
    - assert (EX : (exists y, In y l /\ P y /\ (rank y < rank z)%nat) \/
                   ~ (exists y, In y l /\ P y /\ (rank y < rank z)%nat)).
      { clear IH LE IZ I. induction l as [|w l' IHl]; [right; intros [y [[] _]]|].
        destruct IHl as [[y [A B]]|N]; [left; exists y; simpl; tauto|].
        destruct (DEC w) as [Q|Q].
        - destruct (Nat.lt_ge_cases (rank w) (rank z)).
          + left. exists w. simpl; auto.
          + right. intros [y [[->|A] B]]; [lia|]. apply N. exists y. tauto.
        - right. intros [y [[->|A] B]]; [tauto|]. apply N. exists y. tauto. }
      destruct EX as [[y [A [B C]]]|N].
      + apply (IH y); auto. lia.
      + exists z. split; auto. split; auto. intros y A B.
        destruct (Nat.le_gt_cases (rank z) (rank y)); auto. exfalso. apply N. eauto. }
  apply (G (rank x) x); auto.
Qed.

Lemma execute_S : forall dm dur pick q f s, execute dm pick dur q f s =
  if is_goal s then Ok s else match f with
    | O => Err OutOfFuel
    | S f => let* a := pick s in let* s' := next_state dm (drawn dur a) q s a in execute dm pick dur q f s' end.
Proof. intros dm dur pick q [|f] s; reflexivity. Qed.

Section Exec.
Variables (dm : domain) (p : policy) (dur : nat -> nat -> Z) (cap : nat -> Z).
Hypothesis WK : workable dm p dur cap.
Let D := lasts_for p dur.

(** What a policy may do in a state. *)
Definition moves : state -> Z -> (nat -> Z -> Z) -> action -> Prop :=
  fun s d q a => (forall r t, q r t = cap r) /\
    ((a = time_act /\ d = 0) \/ exists n, In n (launchable dm s) /\ accepted dm p s n a /\ d = D n).

Definition reached := hist dm (fun r _ => cap r) moves.

Lemma uncond : unconditional dm = nodup Nat.eq_dec (d_tasks dm).
Proof.
  unfold unconditional. apply filter_all. intros n I. apply nodup_In in I.
  now rewrite (wk_exist _ _ _ _ WK n I).
Qed.

Lemma all_tasks : forall s, reached s -> forall n, In n (d_tasks dm) <-> In n (all_of s).
Proof.
  intros s H n. pose proof (hist_all _ _ _ _ H) as P. rewrite uncond in P. split; intros I.
  - apply (Permutation_in _ (Permutation_sym P)). now apply nodup_In.
  - apply (Permutation_in _ P) in I. now apply nodup_In in I.
Qed.

Lemma mode_D : forall n, In n (d_tasks dm) -> exists m c d, dget (p_modes p) n = Some m /\
  get_mode dm n m = Ok (Constant d) /\ c = Constant d /\ D n = dur n m /\ 0 <= D n /\
  forall r, (In r (d_types dm) -> cneed dm n m r <= cap r) /\ (D n = 0 -> cneed dm n m r = 0).
Proof.
  intros n I. destruct (wk_mode _ _ _ _ WK n I) as [m [c [A1 [A2 [A3 A4]]]]].
  destruct (wk_const _ _ _ _ WK _ _ _ A2) as [d E].
  assert (DE : D n = dur n m) by (unfold D, lasts_for, mode_of; now rewrite A1).
  subst c. exists m, (Constant d), d. split; auto. split; auto. split; auto. split; auto. split; [lia|].
  intros r. unfold cneed. rewrite A2. destruct (A4 r (qty d r)) as [B1 B2]; [reflexivity|].
  split; auto. rewrite DE. auto.
Qed.

Lemma start_of_ok : forall n, In n (d_tasks dm) -> exists m, dget (p_modes p) n = Some m /\
  start_of p n = Ok (start_act n m).
Proof.
  intros n I. destruct (mode_D n I) as [m [_ [_ [A _]]]]. exists m. split; auto.
  unfold start_of, dgetE. rewrite A. cbn [bind]. now rewrite (wk_alloc _ _ _ _ WK).
Qed.

Lemma accepted_act : forall s n a, In n (d_tasks dm) -> accepted dm p s n a ->
  exists m, dget (p_modes p) n = Some m /\ a = start_act n m /\ drawn dur a = D n.
Proof.
  intros s n a I [A _]. destruct (start_of_ok n I) as [m [B C]]. exists m. split; auto.
  assert (a = start_act n m) by congruence. split; auto. subst. unfold drawn, D, lasts_for, mode_of.
  now rewrite B.
Qed.

Lemma launchable_task : forall s n, reached s -> In n (launchable dm s) -> In n (d_tasks dm).
Proof.
  intros s n H I. apply launchable_In in I. apply (all_tasks s H). unfold all_of. apply in_app_iff. tauto.
Qed.

Lemma moves_plain : forall s d q a, moves s d q a -> plain dm s a /\ forall r t, q r t = cap r.
Proof.
  intros s d q a [Q M]. split; auto. destruct M as [[-> _]|[n [_ [[A _] _]]]].
  - split; simpl; discriminate.
  - unfold start_of in A. apply bind_ok in A. destruct A as [m [_ A]]. injection A as <-.
    rewrite (wk_alloc _ _ _ _ WK). split; simpl; discriminate.
Qed.

Lemma reached_cap : forall s, reached s -> avail_is dm cap s /\ cap_ok s.
Proof.
  intros s H. apply (hist_cap dm cap _ moves s (wk_const _ _ _ _ WK) (wk_nonneg _ _ _ _ WK) (wk_cap _ _ _ _ WK)
    (fun _ _ => eq_refl) moves_plain H).
Qed.

Lemma reached_const : forall s, reached s -> held_const dm s.
Proof.
  intros s H. refine (hist_const _ _ _ _ (wk_const _ _ _ _ WK) _ H). intros; eapply moves_plain; eauto.
Qed.

Lemma reached_avail : forall s r, reached s -> In r (d_types dm) ->
  dget (s_avail s) r = Some (cap r) /\ exists u, dget (s_used s) r = Some u /\ qty (s_used s) r = u.
Proof.
  intros s r H I. destruct (reached_cap s H) as [A _]. specialize (A r).
  assert (J : In r (d_types dm ++ d_units dm)) by (apply in_app_iff; auto).
  assert (M : pymem r (d_types dm ++ d_units dm) = true) by (rewrite pymem_true; exact J).
  rewrite M in A. split; auto.
  assert (K : In r (dkeys (s_used s))) by (now apply (hist_used_keys _ _ _ _ _ H)).
  apply key_dget in K. destruct K as [u K]. exists u. split; auto. unfold qty. now rewrite K.
Qed.

(** A task without duration takes nothing, so what is in use is what ongoing tasks hold. *)
Lemma reached_bal : forall s r, reached s -> In r (d_types dm) -> bal s r = 0.
Proof.
  intros s r H I.
  refine (proj2 (hist_inv dm _ moves (fun s => bal s r = 0) _ _ s H)).
  - unfold bal. rewrite used_init. reflexivity.
  - intros s1 d q a s2 W H1 B M T. rewrite <- B. eapply tstep_bal; eauto.
    + intros K DZ. destruct M as [_ [[-> _]|[n [L [A ->]]]]]; [discriminate|].
      pose proof (launchable_task s1 n H1 L) as TN.
      destruct (accepted_act s1 n a TN A) as [m [B1 [-> _]]]. split; [reflexivity|].
      intros k m' c r' time x E1 E2 G N. cbn [a_task a_mode start_act] in E1, E2.
      injection E1 as <-. injection E2 as <-.
      destruct (mode_D n TN) as [m1 [_ [dd [C1 [C2 [_ [_ [_ C5]]]]]]]].
      assert (m1 = m) by congruence. subst m1.
      assert (c = Constant dd) by congruence. subst c.
      destruct (C5 r') as [_ Z0]. specialize (Z0 DZ). unfold cneed in Z0. rewrite C2 in Z0.
      unfold qty in Z0. simpl in N. congruence.
    + apply (wk_renew _ _ _ _ WK r I).
Qed.

(** * What the policy's checks answer *)

Lemma check_total : forall s n, reached s -> In n (s_remaining s) -> exists m b,
  dget (p_modes p) n = Some m /\ start_of p n = Ok (start_act n m) /\ applicable dm s (start_act n m) = Ok b /\
  ((forall r, In r (d_types dm) -> cneed dm n m r <= cap r - qty (s_used s) r) -> b = true) /\
  (b = true -> forall r, In r (d_types dm) -> cneed dm n m r <= cap r - qty (s_used s) r).
Proof.
  intros s n H I.
  assert (TN : In n (d_tasks dm)) by (apply (all_tasks s H); unfold all_of; apply in_app_iff; auto).
  destruct (start_of_ok n TN) as [m [A B]].
  destruct (mode_D n TN) as [m1 [_ [d [C1 [C2 _]]]]]. assert (m1 = m) by congruence. subst m1.
  pose proof (dr_rem _ (hist_DR _ _ _ _ H) n I) as DN.
  destruct (resource_used_ok dm n m d 0 None C2) as [rtu R].
  destruct (get_resource_used_spec _ _ _ _ _ _ R) as [ND [RK RQ]].
  assert (RV : forall r x, In (r, x) rtu -> In r (d_types dm) /\ x = cneed dm n m r).
  { intros r x J. pose proof (In_dget _ r x ND J) as E.
    assert (K : In r (dkeys rtu)) by (eapply dget_key; eauto). apply RK in K. destruct K as [K|[]].
    split; auto. pose proof (rtu_const dm n m None 0 rtu (wk_const _ _ _ _ WK)) as RC.
    rewrite RC in E; auto; [congruence|discriminate]. }
  assert (EV : forall e, In e rtu ->
     (let* av := dgetE (s_avail s) (fst e) in let* us := dgetE (s_used s) (fst e) in Ok (snd e <=? av - us))
     = Ok (cneed dm n m (fst e) <=? cap (fst e) - qty (s_used s) (fst e))).
  { intros [r x] J. cbn [fst snd]. destruct (RV r x J) as [T ->].
    destruct (reached_avail s r H T) as [F1 [u [F2 F3]]]. unfold dgetE. rewrite F1, F2. cbn [bind]. now rewrite F3. }
  assert (EN : exists b, enough s rtu = Ok b /\
     (b = true <-> forall r, In r (d_types dm) -> cneed dm n m r <= cap r - qty (s_used s) r)).
  { assert (G : forall l, incl l rtu -> exists b, enough s l = Ok b /\
        (b = true <-> forall r, In r (dkeys l) -> cneed dm n m r <= cap r - qty (s_used s) r)).
    { unfold enough. induction l as [|e l IH]; intros IL; cbn [allM].
      - exists true. split; auto. split; auto. intros _ r [].
      - rewrite EV by (apply IL; simpl; auto). cbn [bind].
        destruct (IH (fun y J => IL y (or_intror J))) as [b [E F]].
        destruct (Z.leb_spec (cneed dm n m (fst e)) (cap (fst e) - qty (s_used s) (fst e))).
        + exists b. split; auto. rewrite F. split.
          * intros G r [<-|J]; auto.
          * intros G r J. apply G. simpl. auto.
        + exists false. split; auto. split; [discriminate|]. intros G.
          specialize (G (fst e) (or_introl eq_refl)). lia. }
    destruct (G rtu (incl_refl _)) as [b [E F]]. exists b. split; auto. rewrite F. split.
    - intros X r J. apply X. apply RK. auto.
    - intros X r J. apply X. apply RK in J. destruct J as [J|[]]. auto. }
  destruct EN as [b [EB FB]]. exists m, b. split; auto. split; auto. split.
  - unfold applicable, start_act. cbn [a_kind]. unfold can_start, act_task, act_mode. cbn [a_task a_mode a_units bind].
    unfold dgetE at 1. rewrite DN. cbn [bind active_time task0 tk_end tk_start]. rewrite R. cbn [bind].
    rewrite EB. cbn [bind]. unfold check_skills. rewrite (wk_skills _ _ _ _ WK). destruct b; reflexivity.
  - split; apply FB.
Qed.

Lemma moves_offer : forall s d q a, reached s -> moves s d q a -> offer_at dm cap s d q a.
Proof.
  intros s d q a H [Q M]. destruct M as [[-> ->]|[n [L [A ->]]]].
  - split; [lia|]. split; auto. apply of_time.
  - pose proof (launchable_task s n H L) as TN. apply launchable_In in L. destruct L as [I PR].
    destruct (mode_D n TN) as [m [_ [c [C1 [C2 [_ [_ [C5 _]]]]]]]].
    split; auto. split; auto.
    destruct (check_total s n H I) as [m1 [b [B1 [B2 [B3 [_ B5]]]]]].
    assert (m1 = m) by congruence. subst m1. destruct A as [A1 A2].
    assert (a = start_act n m) by congruence. subst a.
    assert (b = true) by congruence. specialize (B5 H0).
    apply of_start; auto.
    + unfold ready. apply forallb_forall. intros k K. apply orb_true_iff. right. rewrite pymem_true. auto.
    + unfold fits. apply allM_true. intros r J. destruct (reached_avail s r H J) as [F1 [u [F2 F3]]].
      unfold dgetE. rewrite F1, F2. cbn [bind]. rewrite C2. cbn [bind].
      specialize (B5 r J). unfold cneed in B5. rewrite C2 in B5. rewrite F3 in B5. cbn [need_at].
      unfold qty in B5. cbn [bind]. f_equal. lia.
    + unfold get_mode in C2. apply bind_ok in C2. destruct C2 as [ms [G1 G2]]. apply dgetE_ok in G1, G2.
      exists ms, (Constant c). split; auto. now apply dget_In.
Qed.

Lemma reached_offer : forall s, reached s -> hist dm (fun r _ => cap r) (offer_at dm cap) s.
Proof.
  intros s H. induction H as [|s d q a s' H IH M N]; [constructor|].
  econstructor; eauto. now apply moves_offer.
Qed.

(** * Invariant of the ongoing tasks *)

Record ongoing_ok (s : state) : Prop := {
  j_paused : s_paused s = [];
  j_hold : all_hold s;
  j_mode : forall k, In k (s_ongoing s) \/ In k (s_complete s) -> dget (s_mode s) k = dget (p_modes p) k;
  j_keys : forall k h, dget (s_held s) k = Some h -> forall r, In r (dkeys h) <-> In r (d_types dm);
  j_det : forall k d, dget (s_details s) k = Some d -> tk_paused d = [] /\
            forall x, tk_dur d = Some x -> x = D k }.

Lemma timed_held : forall st c s, WF st -> timed dm st c s ->
  forall k h, dget (s_held s) k = Some h -> exists h0, dget (s_held st) k = Some h0 /\ dkeys h = dkeys h0.
Proof.
  intros st c s W [pr [h [u [pr2 [P [R [S C]]]]]]] k x E.
  destruct (wf_sep _ W) as [_ [_ [_ [_ [N2 _]]]]].
  destruct (scan_complete_spec _ _ _ _ N2 S) as [K [NC [IC _]]].
  pose proof (WF_timed_mid _ _ _ _ _ _ W P R K) as WM.
  destruct (update_res_spec _ _ _ _ R) as [h' [u' [E' [A1 [A2 [A3 [A4 A5]]]]]]].
  apply (f_equal s_held) in E' as E1. cbn in E1. subst h'.
  refine (match complete_all_ind dm (fun a b => forall k h, dget (s_held b) k = Some h -> dget (s_held a) k = Some h)
     _ _ _ c _ _ WM C with conj _ F => _ end).
  - auto.
  - auto.
  - intros st0 k0 h0 u0 d0 W0 _ _ _ _ k1 h1. cbn [s_held st_complete]. intros G.
    destruct (Nat.eq_dec k0 k1) as [->|N].
    + rewrite dget_ddel_same in G by apply (wf_held_nd _ W0). discriminate.
    + rewrite dget_ddel_other in G by assumption. exact G.
  - apply F in E. cbn in E. apply A4 in E. destruct E as [d0 [B1 B2]]. exists d0. auto.
Qed.

Lemma reached_ongoing : forall s, reached s -> ongoing_ok s.
Proof.
  intros s H. refine (proj2 (hist_inv dm _ moves ongoing_ok _ _ s H)).
  - constructor; unfold initial_state; cbn.
    + reflexivity.
    + intros k [].
    + intros k [[]|[]].
    + discriminate.
    + intros k d E. rewrite details_fold in E. destruct (pymem k (d_tasks dm)); [|discriminate].
      injection E as <-. split; [reflexivity|discriminate].
  - intros s1 d q a s2 W H1 [J1 J2 J3 J4 J5] M T.
    destruct M as [_ [[-> ->]|[n [L [A ->]]]]].
    + destruct T as [T _|s3 c s4 T P TM ->]; [discriminate|].
      assert (s3 = s1) by (inversion P; subst; auto; discriminate). subst s3.
      destruct (timed_spec _ _ _ _ W TM) as [_ [_ [B3 [B4 [_ [_ [B7 [B8 [B9 [B10 [B11 _]]]]]]]]]]].
      unfold update_avail. cbn [a_tp time_act].
      constructor; cbn [s_paused s_ongoing s_complete s_mode s_held s_details w_avail w_t].
      * congruence.
      * exact (timed_hold _ _ _ _ W TM J2).
      * intros k I. rewrite B4. apply J3. rewrite B8, B9 in I. specialize (B7 k). tauto.
      * intros k h E r. destruct (timed_held _ _ _ W TM k h E) as [h0 [F1 F2]]. rewrite F2. eapply J4; eauto.
      * intros k x E. destruct (in_dec Nat.eq_dec k c) as [I|I].
        -- destruct (B11 k I) as [d0 [G1 G2]]. rewrite G2 in E. injection E as <-. cbn [tk_paused tk_dur]. eauto.
        -- rewrite B10 in E by assumption. eauto.
    + pose proof (launchable_task s1 n H1 L) as TN.
      destruct (accepted_act s1 n a TN A) as [m [B1 [EA _]]].
      assert (KA : a_kind a = START \/ a_kind a = TIME_PR) by (subst a; auto).
      assert (TP : a_tp a = false) by (subst a; auto).
      destruct T as [_ P|s3 c s4 T _ _ _]; [|congruence].
      assert (X := phase_hold _ _ _ _ _ W KA P J2). assert (Y := phase_paused _ _ _ _ _ KA P).
      destruct (wf_sep _ W) as [D1 _].
      destruct P; try (subst a; discriminate).
      * constructor; auto.
      * assert (task = n) by (subst a; cbn in H2; congruence). subst task.
        assert (mode = m) by (subst a; cbn in H3; congruence). subst mode.
        assert (UN : a_units a = None) by (subst a; reflexivity). rewrite UN in H7.
        constructor; [congruence|exact X|..]; cbn [s_paused s_ongoing s_complete s_mode s_held s_details st_start].
        -- intros k1 I. rewrite dget_dset. rewrite in_app_iff in I.
           destruct (pyeqb_spec n k1) as [E|N]; [subst; auto|]. apply J3. simpl in I. intuition congruence.
        -- intros k1 h E r. rewrite dget_dset in E. destruct (pyeqb_spec n k1) as [E'|N]; [|eauto].
           injection E as <-. destruct (get_resource_used_spec _ _ _ _ _ _ H7) as [_ [RK _]].
           rewrite RK. simpl. tauto.
        -- intros k1 x E. rewrite dget_dset in E. destruct (pyeqb_spec n k1) as [E'|N]; [|eauto].
           subst k1. injection E as <-. cbn [tk_paused tk_dur]. split; [apply (J5 n k H5)|].
           intros x E. congruence.
      * assert (task = n) by (subst a; cbn in H2; congruence). subst task.
        constructor; [congruence|exact X|..]; cbn [s_paused s_ongoing s_complete s_mode s_held s_details st_dummy].
        -- assert (mode = m) by (subst a; cbn in H3; congruence). subst mode.
           intros k1 I. rewrite dget_dset. rewrite in_app_iff in I.
           destruct (pyeqb_spec n k1) as [E|N]; [subst; auto|]. apply J3. simpl in I. intuition congruence.
        -- exact J4.
        -- intros k1 x E. rewrite dget_dset in E. destruct (pyeqb_spec n k1) as [E'|N]; [|eauto].
           subst k1. injection E as <-. cbn [tk_paused tk_dur]. split; [apply (J5 n k H5)|].
           intros x E. congruence.
Qed.

Lemma moves_dur : forall s d q a, reached s -> moves s d q a -> 0 <= d.
Proof. intros s d q a H M. apply (moves_offer s d q a H) in M. apply M. Qed.

Lemma reached_DT : forall s, reached s -> DT s.
Proof.
  intros s H. apply reached_offer in H.
  refine (hist_DT dm _ (offer_at dm cap) s (wk_linear _ _ _ _ WK) _ H). intros s0 d q a [A _]. exact A.
Qed.

(** An ongoing task was started at some date [x] and will end after now. *)
Lemma ongoing_dates : forall s k, reached s -> In k (s_ongoing s) -> exists r x,
  dget (s_details s) k = Some r /\ tk_start r = Some x /\ tk_dur r = Some (D k) /\ tk_end r = None /\
  paused_time (tk_paused r) (tk_resumed r) = Ok 0 /\
  x <= s_t s /\ 0 < D k /\ 10000 * (s_t s - x) < 9999 * D k.
Proof.
  intros s k H I. destruct (dt_ong _ (reached_DT s H) k I)
    as [r [x [dd [pt [pr [A1 [[A2 [A3 A4]] [A5 [A6 [A7 [A8 [A9 [A10 [A11 _]]]]]]]]]]]]]].
  destruct (j_det _ (reached_ongoing s H) k r A1) as [B1 B2].
  assert (E := B2 _ A3). subst dd. exists r, x.
  assert (P0 : paused_time (tk_paused r) (tk_resumed r) = Ok 0) by (rewrite B1; reflexivity).
  assert (pt = 0) by congruence. subst pt.
  split; auto. split; auto. split; auto. split; auto. split; auto. split; auto. split; auto. lia.
Qed.

Lemma ongoing_tick : forall s k, reached s -> In k (s_ongoing s) -> tick_ok dm s k.
Proof.
  intros s k H I. destruct (ongoing_dates s k H I) as [r [x [A1 [_ [_ [_ [A5 _]]]]]]].
  assert (TN : In k (d_tasks dm)) by (apply (all_tasks s H); unfold all_of; rewrite !in_app_iff; auto).
  destruct (mode_D k TN) as [m [_ [c [C1 [C2 _]]]]].
  pose proof (reached_ongoing s H) as J.
  assert (KH : In k (dkeys (s_held s))) by (apply (j_hold _ J); auto).
  apply key_dget in KH. destruct KH as [h KH].
  exists m, c, r, h, 0. split; [rewrite (j_mode _ J k (or_introl I)); auto|]. split; auto. split; auto. split; auto. split; auto.
  split.
  - intros r0 T. now apply (j_keys _ J k h KH).
  - intros r0 T. apply (j_keys _ J k h KH) in T. split.
    + apply (hist_used_keys _ _ _ _ _ H). apply in_app_iff. auto.
    + exists true. now apply (wk_renew _ _ _ _ WK).
Qed.

(** * Work left *)

Definition left_of (s : state) (k : nat) : Z :=
  match dget (s_details s) k with
  | Some d => match tk_end d, tk_start d with
              | Some _, _ => 0
              | None, Some x => x + D k - s_t s
              | None, None => D k
              end
  | None => 0
  end.
Definition work (s : state) : Z := sumZ (map (left_of s) (unconditional dm)).

Lemma left_nonneg : forall s k, reached s -> In k (d_tasks dm) -> 0 <= left_of s k.
Proof.
  intros s k H TN. destruct (mode_D k TN) as [_ [_ [_ [_ [_ [_ [_ [C5 _]]]]]]]].
  apply (all_tasks s H) in TN. unfold all_of in TN. rewrite !in_app_iff, (j_paused _ (reached_ongoing s H)) in TN.
  unfold left_of. destruct TN as [I|[I|[I|[]]]].
  - rewrite (dr_rem _ (hist_DR _ _ _ _ H) k I). exact C5.
  - destruct (ongoing_dates s k H I) as [r [x [A1 [A2 [A3 [A4 [A5 [A6 [A7 A8]]]]]]]]]. rewrite A1, A4, A2. lia.
  - destruct (dt_com _ (reached_DT s H) k I) as [r [x [e [dd [pt [A1 [_ [A3 _]]]]]]]]. rewrite A1, A3. lia.
Qed.

Lemma work_nonneg : forall s, reached s -> 0 <= work s.
Proof.
  intros s H. unfold work. rewrite uncond.
  assert (G : forall l, incl l (d_tasks dm) -> 0 <= sumZ (map (left_of s) l)).
  { induction l as [|x l IH]; intros IL; cbn; [lia|]. pose proof (left_nonneg s x H (IL x (or_introl eq_refl))).
    specialize (IH (fun y J => IL y (or_intror J))). unfold sumZ in *. lia. }
  apply G. intros x I. now apply nodup_In in I.
Qed.

(** Starting an accepted task. *)
Lemma step_start : forall s n a q, reached s -> In n (launchable dm s) -> accepted dm p s n a ->
  (forall r t, q r t = cap r) ->
  exists s', next_state dm (drawn dur a) q s a = Ok s' /\ reached s' /\ s_t s' = s_t s /\ work s' = work s /\
    S (length (s_remaining s')) = length (s_remaining s) /\
    s_remaining s' = pyremove n (s_remaining s) /\
    (exists d, dget (s_details s') n = Some d /\ tk_start d = Some (s_t s)) /\
    (forall k, k <> n -> dget (s_details s') k = dget (s_details s) k).
Proof.
  intros s n a q H L A Q.
  pose proof (launchable_task s n H L) as TN.
  destruct (accepted_act s n a TN A) as [m [B1 [EA DA]]].
  pose proof (hist_WF _ _ _ _ H) as W. pose proof (hist_DR _ _ _ _ H) as DRs.
  destruct (proj1 (launchable_In _ _ _) L) as [I _].
  destruct (accepted_start_works dm p s n a (drawn dur a) q W DRs I A) as [m' [rtu [u [s' [C1 [C2 [C3 [C4 [C5 C6]]]]]]]]].
  exists s'. split; auto. rewrite DA in *.
  assert (R : reached s').
  { eapply h_step with (s := s) (dur := D n) (q := q) (a := a); eauto. split; auto. right. exists n. auto. }
  split; auto.
  assert (LEN : S (length (pyremove n (s_remaining s))) = length (s_remaining s)).
  { pose proof (Permutation_length (pyremove_perm n (s_remaining s) I)). cbn in H0. lia. }
  assert (DN := dr_rem _ DRs n I).
  destruct (mode_D n TN) as [_ [_ [_ [_ [_ [_ [_ [DP _]]]]]]]].
  destruct (Z.eqb_spec (D n) 0) as [Z0|Z0]; subst s'.
  - split; [reflexivity|]. split.
    + unfold work. apply sum_map_ext. intros k K. unfold left_of. cbn [s_details s_t st_dummy].
      rewrite dget_dset. destruct (pyeqb_spec n k) as [E|N]; [|reflexivity]. subst k.
      rewrite DN. cbn. lia.
    + split; [exact LEN|]. split; [reflexivity|]. split.
      * cbn [s_details st_dummy]. rewrite dget_dset_same. eexists. split; [reflexivity|]. reflexivity.
      * intros k N. cbn [s_details st_dummy]. now rewrite dget_dset_other by congruence.
  - split; [reflexivity|]. split.
    + unfold work. apply sum_map_ext. intros k K. unfold left_of. cbn [s_details s_t st_start].
      rewrite dget_dset. destruct (pyeqb_spec n k) as [E|N]; [|reflexivity]. subst k.
      rewrite DN. cbn. lia.
    + split; [exact LEN|]. split; [reflexivity|]. split.
      * cbn [s_details st_start]. rewrite dget_dset_same. eexists. split; [reflexivity|]. reflexivity.
      * intros k N. cbn [s_details st_start]. now rewrite dget_dset_other by congruence.
Qed.

(** Letting time progress. *)
Lemma step_time : forall s q, reached s -> (forall r t, q r t = cap r) ->
  exists s', next_state dm (drawn dur time_act) q s time_act = Ok s' /\ reached s' /\ s_t s' = s_t s + 1 /\
    s_remaining s' = s_remaining s /\ work s' <= work s /\ (s_ongoing s <> [] -> work s' < work s) /\
    (forall k x, starts s' k x <-> starts s k x).
Proof.
  intros s q H Q. pose proof (hist_WF _ _ _ _ H) as W.
  destruct (time_works dm (drawn dur time_act) q s W (fun k => ongoing_tick s k H)) as [s' N].
  exists s'. split; auto.
  assert (R : reached s').
  { eapply h_step with (s := s) (dur := 0) (q := q) (a := time_act); eauto. split; auto. }
  split; auto.
  pose proof (next_state_tstep _ _ _ _ _ _ W N) as T.
  destruct T as [T _|s3 c s4 T P TM E]; [discriminate|].
  assert (s3 = s) by (inversion P; subst; auto; discriminate). subst s3.
  destruct (timed_spec _ _ _ _ W TM) as [B1 [B2 [B3 [B4 [_ [_ [B7 [B8 [_ [B10 [B11 _]]]]]]]]]]].
  unfold update_avail in E. cbn [a_tp time_act] in E.
  assert (ET : s_t s' = s_t s + 1) by (subst s'; reflexivity).
  assert (ED : s_details s' = s_details s4) by (subst s'; reflexivity).
  split; auto. split; [subst s'; cbn; congruence|].
  assert (LE : forall k, In k (unconditional dm) -> left_of s' k <= left_of s k /\
                 (In k (s_ongoing s) -> left_of s' k < left_of s k)).
  { intros k K. rewrite uncond in K. apply nodup_In in K.
    unfold left_of. rewrite ED, ET.
    pose proof (left_nonneg s k H K) as LN. unfold left_of in LN.
    destruct (in_dec Nat.eq_dec k c) as [J|J].
    - destruct (B11 k J) as [d0 [G1 G2]]. rewrite G2, G1. cbn [tk_end].
      destruct (ongoing_dates s k H (B7 k J)) as [r [x [A1 [A2 [A3 [A4 [A5 [A6 [A7 A8]]]]]]]]].
      assert (r = d0) by congruence. subst r. rewrite A4, A2. lia.
    - rewrite B10 by assumption. split.
      + destruct (dget (s_details s) k) as [r|]; [|lia].
        destruct (tk_end r); [lia|]. destruct (tk_start r); lia.
      + intros O. destruct (ongoing_dates s k H O) as [r [x [A1 [A2 [A3 [A4 _]]]]]].
        rewrite A1, A4, A2. lia. }
  split; [|split].
  - unfold work. apply sum_le. intros k K. now apply LE.
  - intros O. destruct (s_ongoing s) as [|k l] eqn:EO; [congruence|].
    assert (I : In k (s_ongoing s)) by (rewrite EO; simpl; auto). rewrite <- EO in LE.
    assert (K : In k (unconditional dm)).
    { rewrite uncond. apply nodup_In. apply (all_tasks s H). unfold all_of. rewrite !in_app_iff. auto. }
    unfold work. apply sum_lt with (y := k); auto; intros; now apply LE.
  - intros k x. unfold starts. rewrite ED. destruct (in_dec Nat.eq_dec k c) as [J|J].
    + destruct (B11 k J) as [d0 [G1 G2]]. rewrite G2, G1. split; intros [d [F1 F2]]; injection F1 as <-.
      * exists d0. auto.
      * eexists. split; [reflexivity|]. exact F2.
    + rewrite B10 by assumption. reflexivity.
Qed.

(** * When nothing is ongoing, some task may be launched and every one is accepted *)

Lemma idle_accepts : forall s n, reached s -> s_ongoing s = [] -> In n (s_remaining s) ->
  exists a, accepted dm p s n a.
Proof.
  intros s n H O I. destruct (check_total s n H I) as [m [b [B1 [B2 [B3 [B4 _]]]]]].
  assert (TN : In n (d_tasks dm)) by (apply (all_tasks s H); unfold all_of; apply in_app_iff; auto).
  destruct (mode_D n TN) as [m1 [_ [_ [C1 [_ [_ [_ [_ C6]]]]]]]]. assert (m1 = m) by congruence. subst m1.
  exists (start_act n m). split; auto. rewrite B3. f_equal. apply B4. intros r T.
  pose proof (reached_bal s r H T) as BA. unfold bal in BA.
  rewrite (heldsum_nil s r (hist_WF _ _ _ _ H) O) in BA. destruct (C6 r) as [C7 _]. specialize (C7 T). lia.
Qed.

Lemma idle_launchable : forall s, reached s -> s_ongoing s = [] -> s_remaining s <> [] ->
  exists n, In n (launchable dm s).
Proof.
  intros s H O NE. destruct (wk_acyclic _ _ _ _ WK) as [rank RK].
  destruct (min_rank rank (s_remaining s) (fun _ => True)) as [n [I [_ MIN]]]; auto.
  { destruct (s_remaining s) as [|x l]; [congruence|]. exists x. simpl; auto. }
  exists n. apply launchable_In. split; auto. intros m M. apply preds_In in M. destruct M as [l [M1 M2]].
  assert (TM : In m (d_tasks dm)) by (eapply (wk_edges _ _ _ _ WK); eauto).
  apply (all_tasks s H) in TM. unfold all_of in TM.
  rewrite !in_app_iff, O, (j_paused _ (reached_ongoing s H)) in TM.
  destruct TM as [J|[[]|[J|[]]]]; auto. exfalso. specialize (RK _ _ _ M1 M2). specialize (MIN m J Logic.I). lia.
Qed.

(** * Execution *)

(** A policy that never fails, follows [moves], and does not wait when nothing is ongoing. *)
Definition diligent (pick : state -> res action) : Prop := forall s, reached s -> is_goal s = false ->
  exists a, pick s = Ok a /\
    ((a = time_act /\ s_ongoing s <> []) \/ exists n, In n (launchable dm s) /\ accepted dm p s n a).

Lemma execute_diligent : forall pick q, diligent pick -> (forall r t, q r t = cap r) ->
  forall f s, reached s -> Z.of_nat (length (s_remaining s)) + work s <= Z.of_nat f ->
  exists s', execute dm pick dur q f s = Ok s' /\ reached s' /\ is_goal s' = true /\
    s_t s' + work s' <= s_t s + work s.
Proof.
  intros pick q DI Q. induction f as [|f IH]; intros s H LE; rewrite execute_S;
    destruct (is_goal s) eqn:G; try (exists s; split; auto; split; auto; split; auto; lia).
  - exfalso. pose proof (work_nonneg s H). destruct (DI s H G) as [a [_ [[_ O]|[n [L _]]]]].
    + destruct (step_time s q H Q) as [s' [_ [R [_ [_ [_ [W2 _]]]]]]]. specialize (W2 O).
      pose proof (work_nonneg s' R). lia.
    + apply launchable_In in L. destruct L as [L _]. destruct (s_remaining s); [destruct L|]. cbn [length] in LE. lia.
  - destruct (DI s H G) as [a [-> [[-> O]|[n [L A]]]]]; cbn [bind].
    + destruct (step_time s q H Q) as [s1 [N [R [T [RM [_ [W2 _]]]]]]]. rewrite N. cbn [bind].
      specialize (W2 O). destruct (IH s1 R) as [s' [E [R' [G' LE']]]]; [rewrite RM; lia|].
      exists s'. split; auto. split; auto. split; auto. lia.
    + destruct (step_start s n a q H L A Q) as [s1 [N [R [T [WE [LN _]]]]]]. rewrite N. cbn [bind].
      destruct (IH s1 R) as [s' [E [R' [G' LE']]]]; [lia|].
      exists s'. split; auto. split; auto. split; auto. lia.
Qed.

Lemma work_init : work (initial_state dm (fun r _ => cap r)) = total_duration dm p dur.
Proof.
  unfold work, total_duration. rewrite uncond. apply sum_map_ext. intros k K. apply nodup_In in K.
  unfold left_of, initial_state. cbn [s_details]. rewrite details_fold.
  assert (M : pymem k (d_tasks dm) = true) by (rewrite pymem_true; exact K). now rewrite M.
Qed.

Lemma initial_ext : forall q, (forall r t, q r t = cap r) -> initial_state dm q = initial_state dm (fun r _ => cap r).
Proof.
  intros q Q. unfold initial_state.
  assert (E : fold_left (fun av r => dset av r (q r 0)) (d_types dm ++ d_units dm) [] =
              fold_left (fun av r => dset av r (cap r)) (d_types dm ++ d_units dm) []).
  { apply (fold_ext_q (fun r => q r 0) cap). auto. }
  now rewrite E.
Qed.

(** * SGS policies are diligent *)

Lemma covers_ok : forall s, covers dm p -> reached s -> exists a, next_action dm p s = Ok a.
Proof.
  intros s [[NG NP] [PE [SC _]]] H.
  assert (FA : forall l, incl l (s_remaining s) -> exists a, first_applicable dm p s l = Ok a).
  { intros l IL. apply first_applicable_ok. intros n I.
    destruct (check_total s n H (IL n I)) as [m [b [_ [B2 [B3 _]]]]]. eauto. }
  assert (CI : forall n, In n (map snd (candidates dm p s)) -> In n (s_remaining s)).
  { intros n I. rewrite candidates_not_done in I. apply filter_In in I. destruct I as [I _].
    now apply not_done_In in I. }
  assert (TS : forall n, In n (s_remaining s) -> In n (d_tasks dm)).
  { intros n I. apply (all_tasks s H). unfold all_of. apply in_app_iff. auto. }
  assert (FM : forall sch (g : Z -> bool) l, p_sched p = Some sch -> incl l (s_remaining s) ->
     exists l', filterM (fun k => let* t := dgetE sch k in Ok (g t)) l = Ok l' /\ incl l' l).
  { intros sch g l E IL. rewrite filterM_total.
    - eexists. split; [reflexivity|]. intros x I. now apply filter_In in I.
    - intros k I. destruct (SC sch k E (TS k (IL k I))) as [t T]. unfold dgetE. rewrite T. cbn [bind]. eauto. }
  unfold next_action. destruct (p_method p); try congruence.
  - rewrite precedence_strict_eq.
    2:{ unfold dated. destruct (p_sched p) as [sch|] eqn:E; [|exact Logic.I]. intros n _ I. eauto. }
    unfold strict. destruct (candidates dm p s) as [|[i n] cs] eqn:C; [eauto|].
    destruct (p_sched p) as [sch|] eqn:E.
    + destruct (SC sch n eq_refl) as [t T]; [apply TS, CI; simpl; auto|]. unfold dgetE at 1. rewrite T. cbn [bind].
      destruct (FM sch (fun x => x =? t) (map snd ((i, n) :: cs)) eq_refl CI) as [l [-> IL]]. cbn [bind].
      apply FA. intros x I. apply CI, IL, I.
    + cbn [bind]. apply FA. intros x [<-|[]]. apply CI. simpl; auto.
  - unfold first_ready. rewrite ready_loop_filter, <- candidates_not_done. apply FA. exact CI.
  - unfold strict. destruct (candidates dm p s) as [|[i n] cs] eqn:C; [eauto|].
    destruct (p_sched p) as [sch|] eqn:E.
    + destruct (SC sch n eq_refl) as [t T]; [apply TS, CI; simpl; auto|]. unfold dgetE at 1. rewrite T. cbn [bind].
      destruct (FM sch (fun x => x =? t) (map snd ((i, n) :: cs)) eq_refl CI) as [l [-> IL]]. cbn [bind].
      apply FA. intros x I. apply CI, IL, I.
    + cbn [bind]. apply FA. intros x [<-|[]]. apply CI. simpl; auto.
  - unfold time_freedom. destruct (candidates dm p s) as [|[i n] cs] eqn:C; [eauto|].
    destruct (p_sched p) as [sch|] eqn:E.
    + destruct (SC sch n eq_refl) as [t T]; [apply TS, CI; simpl; auto|]. unfold dgetE at 1. rewrite T. cbn [bind].
      destruct (FM sch (fun x => (t <=? x) && (x <=? t + p_delta_time p)) (map snd ((i, n) :: cs)) eq_refl CI) as [l [-> IL]]. cbn [bind].
      apply FA. intros x I. apply CI, IL, I.
    + cbn [bind]. apply FA. intros x [<-|[]]. apply CI. simpl; auto.
  - unfold index_freedom. destruct (candidates dm p s) as [|[i n] cs] eqn:C; [eauto|].
    apply FA. intros x I. apply CI. apply in_map_iff in I. destruct I as [y [<- I]]. apply filter_In in I.
    apply in_map. tauto.
Qed.

Lemma sgs_diligent : covers dm p -> diligent (next_action dm p).
Proof.
  intros CO s H G. destruct (covers_ok s CO H) as [a E]. exists a. split; auto.
  destruct CO as [SG [PE [SC [DT0 DI0]]]].
  assert (NONE : candidates dm p s = [] -> s_ongoing s <> []).
  { intros C O. destruct (idle_launchable s H O) as [n L].
    - intros R. unfold is_goal in G. rewrite R, O, (j_paused _ (reached_ongoing s H)) in G. discriminate.
    - pose proof (launchable_task s n H L) as TN. apply PE in TN. apply In_nth_error in TN. destruct TN as [i TN].
      assert (X : In (Z.of_nat i, n) (candidates dm p s)) by (apply candidates_In; eauto).
      rewrite C in X. destruct X. }
  destruct (sgs_shape dm p s a SG E) as [[C ->]|[i0 [n0 [cs [w [C [FA [SO [IW W]]]]]]]]].
  - left. split; auto.
  - assert (X : In (Z.of_nat i0, n0) (candidates dm p s)) by (rewrite C; simpl; auto).
    assert (LA : forall i n, In (Z.of_nat i, n) (candidates dm p s) -> In n (launchable dm s)).
    { intros i n Y. apply candidates_In in Y. destruct Y as [_ [_ [_ Y]]]. exact Y. }
    destruct (first_applicable_spec dm p s (map snd w) a FA) as [[-> RF]|[l1 [n [l2 [EL [A _]]]]]].
    + left. split; auto. intros O.
      assert (IW0 : in_window p i0 n0 i0 n0).
      { pose proof (launchable_task s n0 H (LA _ _ X)) as TN.
        unfold in_window. destruct SG as [NG NP]. destruct (p_method p); try congruence; auto; try lia.
        - destruct (p_sched p) as [sch|] eqn:ES; auto. destruct (SC sch n0 eq_refl TN) as [t T]. eauto.
        - destruct (p_sched p) as [sch|] eqn:ES; auto. destruct (SC sch n0 eq_refl TN) as [t T]. eauto.
        - destruct (p_sched p) as [sch|] eqn:ES; auto. destruct (SC sch n0 eq_refl TN) as [t T].
          exists t, t. split; auto. split; auto. lia. }
      assert (Y : In (Z.of_nat i0, n0) w) by (apply W; auto).
      apply (in_map snd) in Y. cbn [snd] in Y. apply RF in Y.
      destruct (idle_accepts s n0 H O) as [b B].
      { specialize (LA _ _ X). apply launchable_In in LA. tauto. }
      exact (refused_not _ _ _ _ _ Y B).
    + right. exists n. split; auto.
      assert (Y : In n (map snd w)) by (rewrite EL; apply in_app_iff; simpl; auto).
      apply in_map_iff in Y. destruct Y as [[j n'] [E1 Y]]. cbn [snd] in E1. subst n'.
      assert (Z0 : exists i, j = Z.of_nat i).
      { apply IW in Y. apply candidates_In in Y. destruct Y as [i [E1 _]]. eauto. }
      destruct Z0 as [i ->]. apply W in Y. destruct Y as [Y _]. eauto.
Qed.
End Exec.
