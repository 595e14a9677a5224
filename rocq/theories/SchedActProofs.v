(** Lemmas about the offered actions, the final schedule and the stochastic transitions. *)
From Coq Require Import List ZArith QArith Lia Bool Permutation.
From Verif Require Import Py SchedModel SchedProofs.
Import ListNotations.
Open Scope nat_scope.
Open Scope Z_scope.

(** * Offered actions *)

Definition offered (dm : domain) (st : state) (a : action) : Prop :=
  exists l, action_space dm st = Ok l /\ In a l.

Lemma dset_fold_In : forall (l : list (nat * nat)) d n m,
  In (n, m) (fold_left (fun d nm => dset d (fst nm) (snd nm)) l d) -> In (n, m) d \/ In (n, m) l.
Proof.
  induction l as [|[a b] l IH]; cbn [fold_left fst snd]; intros d n m H; [auto|].
  apply IH in H. destruct H as [H|H]; [|simpl; auto].
  revert H. clear. induction d as [|[x y] d IHd]; simpl.
  - intros [E|[]]. auto.
  - destruct (Nat.eqb_spec a x); simpl; intros I; (destruct I as [E|I]).
    all: try (injection E as <- <-); subst; auto.
    apply IHd in I. tauto.
Qed.

Lemma filterM_In : forall A (f : A -> res bool) l l' x, filterM f l = Ok l' -> In x l' ->
  In x l /\ f x = Ok true.
Proof.
  intros A f. induction l as [|y l IH]; cbn [filterM]; intros l' x H I; mon; [destruct I|].
  destruct x0.
  - destruct I as [ <- |I]; [simpl; auto|]. destruct (IH _ _ H1 I). simpl; auto.
  - destruct (IH _ _ H1 I). simpl; auto.
Qed.

Lemma mapM_In : forall A B (f : A -> res B) l l' y, mapM f l = Ok l' -> In y l' ->
  exists x, In x l /\ f x = Ok y.
Proof.
  intros A B f. induction l as [|x l IH]; cbn [mapM]; intros l' y H I; mon; [destruct I|].
  destruct I as [ <- |I]; [simpl; eauto|]. destruct (IH _ _ H1 I) as [z [I1 I2]]. simpl; eauto.
Qed.

Lemma possible_start_In : forall dm st ps n m, possible_start dm st = Ok ps -> In (n, m) ps ->
  In n (s_remaining st) /\ ready dm st n = true /\ fits dm st n m = Ok true /\
  exists ms c, dget (d_modes dm) n = Some ms /\ In (m, c) ms.
Proof.
  intros dm st ps n m H I. unfold possible_start in H. mon.
  apply dset_fold_In in I. destruct I as [[]|I].
  destruct (filterM_In _ _ _ _ _ H1 I) as [I1 F]. cbn [fst snd] in F.
  apply in_concat in I1. destruct I1 as [l [I1 I2]].
  destruct (mapM_In _ _ _ _ _ _ H0 I1) as [n' [I3 I4]].
  apply filter_In in I3. destruct I3 as [I3 I5].
  unfold modes_of in I4. mon. apply in_map_iff in I2. destruct I2 as [[m' c] [E I2]].
  cbn [fst] in E. injection E as -> ->. eauto 10.
Qed.

Inductive offer (dm : domain) (st : state) : action -> Prop :=
| of_start : forall n m, In n (s_remaining st) -> ready dm st n = true -> fits dm st n m = Ok true ->
    (exists ms c, dget (d_modes dm) n = Some ms /\ In (m, c) ms) -> offer dm st (start_act n m)
| of_pause : forall n, In n (s_ongoing st) -> dget (d_preempt dm) n = Some true -> offer dm st (pause_act n)
| of_resume : forall n m, In n (s_paused st) -> dget (s_mode st) n = Some m -> offer dm st (resume_act n m)
| of_time : offer dm st time_act.

Lemma offered_offer : forall dm st a, offered dm st a -> offer dm st a.
Proof.
  intros dm st a [l [H I]]. unfold action_space in H.
  apply bind_ok in H. destruct H as [over [_ H]]. apply bind_ok in H. destruct H as [pa [P H]].
  assert (PP : In a (map pause_act pa) -> offer dm st a).
  { intros J. apply in_map_iff in J. destruct J as [n [ <- J]].
    destruct (filterM_In _ _ _ _ _ P J) as [J1 J2]. rewrite dgetE_ok in J2. now apply of_pause. }
  destruct over.
  - mon. apply in_app_iff in I. destruct I as [I|[ <- |[]]]; auto. apply of_time.
  - apply bind_ok in H. destruct H as [ps [S H]]. apply bind_ok in H. destruct H as [rs [R H]]. mon.
    rewrite !in_app_iff in I. destruct I as [I|[I|[I|[ <- |[]]]]]; auto; [| |apply of_time].
    + apply in_map_iff in I. destruct I as [[n m] [ <- I]].
      destruct (possible_start_In _ _ _ _ _ S I) as [A [B [C D]]]. now apply of_start.
    + destruct (mapM_In _ _ _ _ _ _ R I) as [n [J1 J2]]. mon. now apply of_resume.
Qed.

Lemma offer_plain : forall dm st a, offer dm st a -> plain dm st a.
Proof.
  intros dm st a [n m A B C D|n A B|n m A B|]; split; simpl; try discriminate.
  intros _ k m' E1 E2. injection E1 as <-. injection E2 as <-. assumption.
Qed.

(** * Precedence *)

(** The dates of a started task. *)
Definition starts (st : state) (k : nat) (s : Z) : Prop :=
  exists d, dget (s_details st) k = Some d /\ tk_start d = Some s.
Definition ends (st : state) (k : nat) (e : Z) : Prop :=
  exists d, dget (s_details st) k = Some d /\ tk_end d = Some e.

Definition PREC (dm : domain) (st : state) : Prop :=
  forall k s p, starts st k s -> In p (preds dm k) -> In p (unconditional dm) ->
    In p (s_complete st) /\ exists e, ends st p e /\ e <= s.

Lemma available_det : forall dm st, s_conds st = [] -> available dm st = unconditional dm.
Proof.
  intros dm st E. unfold available, unconditional. apply filter_ext. intros n. rewrite E.
  destruct (dget (d_exist dm) n) as [[|c cs]|]; reflexivity.
Qed.

Lemma started_new : forall dm dur q st a s k s0, WF st -> DR st -> tstep dm dur q st a s ->
  starts s k s0 -> starts st k s0 \/
  (a_kind a = START /\ a_task a = Some k /\ s0 = s_t st /\ In k (s_remaining st)).
Proof.
  intros dm dur q st a s k s0 W D T [d [E1 E2]].
  assert (PH : forall s1 d1, phase dm dur st a s1 -> dget (s_details s1) k = Some d1 -> tk_start d1 = Some s0 ->
    starts st k s0 \/ (a_kind a = START /\ a_task a = Some k /\ s0 = s_t st /\ In k (s_remaining st))).
  { intros s1 d1 P F1 F2. destruct P; proj; [left; exists d1; auto|..];
      rewrite dget_dset in F1; destruct (pyeqb_spec task k) as [X|X];
      try (left; exists d1; now auto); subst; injection F1 as <-; cbn [tk_start] in F2.
    - left. eexists. split; eauto.
    - left. eexists. split; eauto.
    - left. eexists. split; eauto.
    - right. injection F2 as <-. auto.
    - right. injection F2 as <-. auto. }
  destruct T as [T P|s1 c s2 T P M ->]; [eapply PH; eauto|].
  destruct (timed_spec _ _ _ _ (phase_WF _ _ _ _ _ W P) M) as [_ [_ [_ [_ [_ [_ [_ [_ [_ [B10 [B11 _]]]]]]]]]]].
  unfold update_avail in E1. rewrite T in E1. proj.
  destruct (in_dec Nat.eq_dec k c) as [J|J].
  - destruct (B11 k J) as [d' [G1 G2]]. rewrite G2 in E1. injection E1 as <-. eapply PH; eauto.
  - rewrite B10 in E1 by assumption. eapply PH; eauto.
Qed.

Lemma tstep_PREC : forall dm dur q st a s, WF st -> DR st -> s_conds st = [] -> offer dm st a ->
  tstep dm dur q st a s -> PREC dm st -> PREC dm s.
Proof.
  intros dm dur q st a s W D CO OF T P k s0 p S I U.
  destruct (tstep_status _ _ _ _ _ _ W T) as [IC _].
  assert (X : In p (s_complete st) /\ exists e, ends st p e /\ e <= s0).
  { destruct (started_new _ _ _ _ _ _ _ _ W D T S) as [S0|[K [A [E R]]]]; [eapply P; eauto|].
    destruct OF as [n m A1 A2 A3 A4|n A1 A2|n m A1 A2|]; try discriminate.
    simpl in A. injection A as ->. unfold ready in A2. rewrite forallb_forall in A2.
    specialize (A2 p I). rewrite (available_det _ _ CO) in A2.
    rewrite (proj2 (pymem_true p (unconditional dm)) U) in A2. simpl in A2.
    apply (proj1 (pymem_true p (s_complete st))) in A2. split; auto.
    destruct (dr_sta _ D p) as [d [s1 [B1 [B2 [B3 [B4 _]]]]]]; [rewrite !in_app_iff; auto|].
    destruct (B4 A2) as [e [C1 C2]]. exists e. split; [exists d; auto|lia]. }
  destruct X as [X1 [e [[d [X2 X3]] X4]]]. split; [auto|]. exists e. split; auto.
  destruct (tstep_details _ _ _ _ _ _ p W T) as [Y _]. exists d. rewrite Y; auto.
Qed.

Lemma PREC_init : forall dm q, PREC dm (initial_state dm q).
Proof.
  intros dm q k s p [d [E1 E2]] _ _. exfalso. unfold initial_state in E1. proj.
  rewrite details_fold in E1. destruct (pymem k (d_tasks dm)); [|discriminate].
  injection E1 as <-. discriminate.
Qed.

Lemma hist_PREC : forall dm q0 (ok : state -> Z -> (nat -> Z -> Z) -> action -> Prop) s,
  (forall s dur q a, ok s dur q a -> offer dm s a) ->
  hist dm q0 ok s -> PREC dm s.
Proof.
  intros dm q0 ok s O H.
  refine (proj2 (hist_inv dm q0 ok (PREC dm) (PREC_init dm q0) _ s H)).
  intros s1 dur q a s2 W H1 P OK T. eapply tstep_PREC; eauto.
  - eapply hist_DR; eauto.
  - eapply hist_conds; eauto.
Qed.

(** * An offered START starts *)

Lemma types_used_const : forall dm n m c time l d0,
  get_mode dm n m = Ok (Constant c) -> (forall r, In r l -> exists q, need_at (Constant c) r time = Ok q) ->
  exists d, types_used dm n m time l d0 = Ok d.
Proof.
  intros dm n m c time. induction l as [|r l IH]; intros d0 G H; cbn [types_used]; [eauto|].
  rewrite G. cbn [bind]. destruct (H r) as [q E]; [simpl; auto|]. rewrite E. cbn [bind].
  apply IH; auto. intros r' I. apply H. simpl; auto.
Qed.

Lemma allM_true : forall A (f : A -> res bool) l, (forall x, In x l -> f x = Ok true) -> allM f l = Ok true.
Proof.
  intros A f. induction l as [|x l IH]; cbn [allM]; intros H; [reflexivity|].
  rewrite H by (simpl; auto). cbn [bind]. apply IH. intros y I. apply H. simpl; auto.
Qed.

Lemma allM_In : forall A (f : A -> res bool) l, allM f l = Ok true -> forall x, In x l -> f x = Ok true.
Proof.
  intros A f. induction l as [|x l IH]; cbn [allM]; intros H y I; [destruct I|].
  apply bind_ok in H. destruct H as [b [E H]]. destruct b; [|discriminate].
  destruct I as [ <- |I]; auto.
Qed.

Lemma add_used_ok : forall rtu u, (forall r, In r (dkeys rtu) -> In r (dkeys u)) -> exists u', add_used rtu u = Ok u'.
Proof.
  induction rtu as [|[r q] l IH]; cbn [add_used]; intros u H; [eauto|].
  destruct (key_dget _ u r) as [v E]; [apply H; simpl; auto|].
  unfold dgetE. rewrite E. cbn [bind]. apply IH. intros r' I. rewrite dkeys_dset.
  right. apply H. simpl; auto.
Qed.

Lemma need_const_time : forall d r t1 t2, need_at (Constant d) r t1 = need_at (Constant d) r t2.
Proof. reflexivity. Qed.

Lemma start_works : forall dm st n m dur q, WF st -> DR st -> const_dom dm -> d_skills dm = None ->
  offer dm st (start_act n m) ->
  exists rtu u s, next_state dm dur q st (start_act n m) = Ok s /\
    get_resource_used dm n m None 0 = Ok rtu /\ add_used rtu (s_used st) = Ok u /\
    s = (if dur =? 0 then st_dummy st n m task0 rtu u else st_start st n m task0 rtu u dur).
Proof.
  intros dm st n m dur q W D CD SK OF. destruct (wf_sep _ W) as [D1 _].
  inversion OF as [n' m' I R F M E1| | |]; subst. clear OF.
  destruct M as [ms [c0 [M1 M2]]].
  pose proof (dr_rem _ D n I) as DN.
  unfold fits in F. pose proof (allM_In _ _ _ F) as FA. cbv beta in FA.
  assert (G : d_types dm = [] \/ exists c, get_mode dm n m = Ok (Constant c)).
  { destruct (d_types dm) as [|r l] eqn:ET; [auto|right].
    specialize (FA r (or_introl eq_refl)). mon. destruct (CD _ _ _ H1) as [d ->]. eauto. }
  assert (TU : exists d, types_used dm n m 0 (d_types dm) [] = Ok d).
  { destruct G as [ -> |[c G]]; [simpl; eauto|].
    eapply types_used_const; eauto. intros r J. specialize (FA r J). mon. rewrite G in H1.
    injection H1 as <-. eauto. }
  destruct TU as [rtu TU].
  assert (GR : get_resource_used dm n m None 0 = Ok rtu).
  { unfold get_resource_used. rewrite TU. reflexivity. }
  assert (EN : forall r x, In (r, x) rtu -> exists av us, dget (s_avail st) r = Some av /\
             dget (s_used st) r = Some us /\ x <= av - us).
  { intros r x J. destruct (get_resource_used_spec _ _ _ _ _ _ GR) as [N [K Q]].
    pose proof (In_dget _ r x N J) as E. specialize (Q _ _ E). simpl in Q. destruct Q as [c [Q1 Q2]].
    assert (JT : In r (d_types dm)).
    { assert (In r (dkeys rtu)) by (eapply dget_key; eauto). apply K in H. simpl in H. tauto. }
    specialize (FA r JT). apply bind_ok in FA. destruct FA as [av [F1 FA]].
    apply bind_ok in FA. destruct FA as [us [F2 FA]]. rewrite Q1 in FA. cbn [bind] in FA.
    destruct (CD _ _ _ Q1) as [d ->]. rewrite (need_const_time d r (s_t st) 0), Q2 in FA.
    cbn [bind] in FA. rewrite dgetE_ok in F1, F2. exists av, us. split; auto. split; auto.
    injection FA as FA. lia. }
  destruct (add_used_ok rtu (s_used st)) as [u U].
  { intros r J. apply in_map_iff in J. destruct J as [[r' x] [E J]]. cbn [fst] in E. subst.
    destruct (EN _ _ J) as [av [us [_ [E _]]]]. eapply dget_key; eauto. }
  exists rtu, u, (if dur =? 0 then st_dummy st n m task0 rtu u else st_start st n m task0 rtu u dur).
  split; [|auto].
  destruct (D1 _ I) as [X1 [X2 X3]].
  unfold next_state, start_act. cbn [a_kind]. unfold update_pause, update_resume. cbn [a_kind bind].
  unfold update_start. cbn [a_kind]. unfold can_start, act_task, act_mode. cbn [a_task a_mode a_units bind].
  unfold dgetE at 1. rewrite DN. cbn [bind active_time task0 tk_end tk_start]. rewrite GR. cbn [bind].
  unfold enough. rewrite (allM_true _ _ rtu).
  2:{ intros [r x] J. destruct (EN _ _ J) as [av [us [E1 [E2 E3]]]]. cbn [fst snd].
      unfold dgetE. rewrite E1, E2. cbn [bind]. f_equal. lia. }
  cbn [bind]. unfold check_skills. rewrite SK. cbn [bind fst snd].
  unfold do_start. rewrite (set_remove_in n _ I). cbn [bind]. unfold dgetE at 1. rewrite DN. cbn [bind].
  rewrite U. cbn [bind]. rewrite (set_add_fresh _ _ X1).
  unfold update_dummy. cbn [a_kind]. unfold act_task. cbn [a_task bind]. proj.
  unfold dgetE at 1. rewrite dget_dset_same. cbn [bind tk_dur].
  unfold update_time, update_avail. cbn [a_tp].
  destruct (Z.eqb_spec dur 0) as [ -> |ND].
  - rewrite (set_remove_in n (s_ongoing st ++ [n])) by (apply in_app_iff; simpl; auto).
    rewrite (pyremove_app_fresh _ _ X1), (set_add_fresh _ _ X2). cbn [bind].
    unfold dgetE. rewrite dget_dset_same. cbn [bind].
    rewrite !dset_dset. cbn [tk_start tk_paused tk_resumed tk_resources].
    rewrite ddel_dset_fresh by (intros J; apply (wf_held_ong _ W) in J; contradiction).
    reflexivity.
  - destruct dur; [contradiction| |]; cbn [bind]; reflexivity.
Qed.

(** * The load of a schedule *)

(** Task [k] is being executed during [[tau, tau+1)], according to the recorded dates. *)
Definition running (st : state) (tau : Z) (k : nat) : bool :=
  match dget (s_details st) k with
  | Some d => match tk_start d with
              | Some s => (s <=? tau) && (match tk_end d with Some e => tau <? e | None => true end)
              | None => false
              end
  | None => false
  end.

(** What the tasks executed at [tau] need of resource [r]. *)
Definition load (dm : domain) (st : state) (r : nat) (tau : Z) : Z :=
  sumZ (map (mode_need dm st r) (filter (running st tau) (unconditional dm))).

Lemma sum_filter_ext : forall (f g : nat -> Z) (p p' : nat -> bool) l,
  (forall x, In x l -> p x = p' x /\ (p x = true -> f x = g x)) ->
  sumZ (map f (filter p l)) = sumZ (map g (filter p' l)).
Proof.
  induction l as [|x l IH]; intros H; [reflexivity|]. cbn [filter].
  destruct (H x (or_introl eq_refl)) as [E F]. rewrite <- E.
  specialize (IH (fun y I => H y (or_intror I))).
  destruct (p x) eqn:P; [|exact IH]. cbn [map]. rewrite (F eq_refl).
  change (g x + sumZ (map f (filter p l)) = g x + sumZ (map g (filter p' l))). now rewrite IH.
Qed.

Lemma phase_mode : forall dm dur st a s x, WF st -> phase dm dur st a s -> ~ In x (s_remaining st) ->
  dget (s_mode s) x = dget (s_mode st) x.
Proof.
  intros dm dur st a s x W P N. destruct P; proj; auto; apply dget_dset_other; intros ->; contradiction.
Qed.

(** Dates in the past of a state are settled. *)
Lemma phase_running : forall dm dur st a s tau x, WF st -> DR st -> phase dm dur st a s -> tau < s_t st ->
  running s tau x = running st tau x.
Proof.
  intros dm dur st a s tau x W D P L. destruct (wf_sep _ W) as [D1 _]. unfold running.
  destruct P; proj; auto; rewrite dget_dset; destruct (pyeqb_spec task x) as [E|E]; auto; subst.
  - rewrite H2. reflexivity.
  - rewrite H3. reflexivity.
  - rewrite H2. reflexivity.
  - rewrite H3. rewrite (dr_rem _ D x H2) in H3. injection H3 as <-. cbn [tk_start tk_end task0].
    destruct (Z.leb_spec (s_t st) tau); [lia|reflexivity].
  - rewrite H3. rewrite (dr_rem _ D x H2) in H3. injection H3 as <-. cbn [tk_start tk_end task0].
    destruct (Z.leb_spec (s_t st) tau); [lia|reflexivity].
Qed.

Lemma timed_running : forall dm st c s tau x, WF st -> DR st -> timed dm st c s -> tau <= s_t st ->
  running s tau x = running st tau x.
Proof.
  intros dm st c s tau x W D M L. destruct (wf_sep _ W) as [_ [D2 _]].
  destruct (timed_spec _ _ _ _ W M) as [_ [_ [_ [_ [_ [_ [C [_ [_ [A [B _]]]]]]]]]]].
  unfold running. destruct (in_dec Nat.eq_dec x c) as [J|J]; [|now rewrite A].
  destruct (B x J) as [d [E1 E2]]. rewrite E1, E2. cbn [tk_start tk_end].
  destruct (dr_sta _ D x) as [d' [s0 [F1 [F2 [F3 [F4 F5]]]]]]; [rewrite in_app_iff; left; auto|].
  rewrite E1 in F1. injection F1 as <-. rewrite F5 by (apply D2; auto). rewrite F2.
  destruct (Z.ltb_spec tau (s_t st + 1)); [reflexivity|lia].
Qed.

Lemma running_started : forall st tau x, DR st -> running st tau x = true -> ~ In x (s_remaining st).
Proof.
  intros st tau x D R I. unfold running in R. rewrite (dr_rem _ D x I) in R. discriminate.
Qed.

Lemma phase_load : forall dm dur st a s r tau, WF st -> DR st -> phase dm dur st a s -> tau < s_t st ->
  load dm s r tau = load dm st r tau.
Proof.
  intros dm dur st a s r tau W D P L. unfold load. apply sum_filter_ext. intros x I.
  rewrite (phase_running _ _ _ _ _ tau x W D P L). split; auto. intros R.
  unfold mode_need. rewrite (phase_mode _ _ _ _ _ x W P); auto. eapply running_started; eauto.
Qed.

Lemma timed_load : forall dm st c s r tau, WF st -> DR st -> timed dm st c s -> tau <= s_t st ->
  load dm s r tau = load dm st r tau.
Proof.
  intros dm st c s r tau W D M L. unfold load. apply sum_filter_ext. intros x I.
  rewrite (timed_running _ _ _ _ tau x W D M L). split; auto. intros R.
  unfold mode_need. destruct (timed_spec _ _ _ _ W M) as [_ [_ [_ [E _]]]]. now rewrite E.
Qed.

(** At its own date, a state's running tasks are the ongoing ones. *)
Lemma load_now : forall dm st r, WF st -> DR st -> Permutation (all_of st) (unconditional dm) ->
  s_paused st = [] -> load dm st r (s_t st) = sumZ (map (mode_need dm st r) (s_ongoing st)).
Proof.
  intros dm st r W D P PA. unfold load. apply sumZ_perm, Permutation_map.
  destruct (wf_sep _ W) as [_ [D2 [_ [_ [N2 _]]]]]. apply NoDup_Permutation; auto.
  { apply NoDup_filter. unfold unconditional. apply NoDup_filter, NoDup_nodup. }
  intros x. rewrite filter_In. split.
  - intros [I R]. apply (Permutation_in _ (Permutation_sym P)) in I. unfold all_of in I.
    rewrite PA, app_nil_r, !in_app_iff in I. destruct I as [I|[I|I]]; auto; exfalso.
    + eapply running_started; eauto.
    + destruct (dr_sta _ D x) as [d [s0 [F1 [F2 [F3 [F4 _]]]]]]; [rewrite !in_app_iff; auto|].
      destruct (F4 I) as [e [E1 E2]]. unfold running in R. rewrite F1, F2, E1 in R. lia.
  - intros I. split.
    + eapply Permutation_in; [exact P|]. unfold all_of. rewrite !in_app_iff. auto.
    + destruct (dr_sta _ D x) as [d [s0 [F1 [F2 [F3 [_ F5]]]]]]; [rewrite !in_app_iff; auto|].
      unfold running. rewrite F1, F2, F5 by (apply D2; auto). lia.
Qed.

(** Every ongoing task holds its resources. *)
Definition all_hold (st : state) : Prop := incl (s_ongoing st) (dkeys (s_held st)).

Lemma phase_hold : forall dm dur st a s, WF st -> (a_kind a = START \/ a_kind a = TIME_PR) ->
  phase dm dur st a s -> all_hold st -> all_hold s.
Proof.
  intros dm dur st a s W K P H. unfold all_hold in *. destruct P; proj; auto;
    try (destruct K; congruence).
  intros x I. apply dkeys_dset. apply in_app_iff in I. simpl in I.
  destruct I as [I|[I|[]]]; auto.
Qed.

Lemma timed_hold : forall dm st c s, WF st -> timed dm st c s -> all_hold st -> all_hold s.
Proof.
  intros dm st c s W [pr [h [u [pr2 [P [R [S C]]]]]]] H.
  destruct (wf_sep _ W) as [_ [_ [_ [_ [N2 _]]]]].
  destruct (scan_complete_spec _ _ _ _ N2 S) as [K _].
  pose proof (WF_timed_mid _ _ _ _ _ _ W P R K) as WM.
  destruct (update_res_spec _ _ _ _ R) as [h' [u' [E [A1 _]]]].
  apply (f_equal s_held) in E as E1. proj. subst h'.
  assert (H0 : all_hold (w_progress pr2 (w_held h (w_used u (w_progress pr st))))).
  { unfold all_hold in *. proj. now rewrite A1. }
  revert H0. refine (proj2 (complete_all_ind dm (fun a b => all_hold a -> all_hold b) _ _ _ _ _ _ WM C)); auto.
  intros st0 k h0 u0 d W0 I0 _ _ _ H0. unfold all_hold, st_complete in *. proj.
  destruct (wf_sep _ W0) as [_ [_ [_ [_ [N20 _]]]]].
  intros x I. apply pyremove_In in I; auto. destruct I as [I1 I2]. specialize (H0 x I2).
  destruct (key_dget _ _ _ H0) as [v V]. eapply dget_key. rewrite dget_ddel_other; eauto.
Qed.

Lemma ongoing_held : forall dm st r, WF st -> held_const dm st -> all_hold st -> In r (d_types dm) ->
  sumZ (map (mode_need dm st r) (s_ongoing st)) = heldsum (s_held st) r.
Proof.
  intros dm st r W HC AH IR. destruct (wf_sep _ W) as [_ [_ [_ [_ [N2 _]]]]].
  assert (P : Permutation (s_ongoing st) (dkeys (s_held st))).
  { apply NoDup_Permutation; auto using (wf_held_nd _ W). intros x. split; [apply AH|apply (wf_held_ong _ W)]. }
  rewrite (sumZ_perm _ _ (Permutation_map _ P)). unfold heldsum, dkeys. rewrite map_map.
  f_equal. apply map_ext_in. intros [k h] I. cbn [fst snd].
  destruct (HC k h (In_dget _ _ _ (wf_held_nd _ W) I)) as [m [M1 M2]].
  unfold mode_need. rewrite M1. symmetry. auto.
Qed.

(** No task may be pre-empted. *)
Definition no_preempt (dm : domain) : Prop := forall n, dget (d_preempt dm) n <> Some true.

Lemma np_action : forall dm st a, no_preempt dm -> s_paused st = [] -> offer dm st a ->
  a_kind a = START \/ a_kind a = TIME_PR.
Proof.
  intros dm st a NP PA [n m A B C D|n A B|n m A B|]; auto.
  - now apply NP in B.
  - now rewrite PA in A.
Qed.

Lemma phase_paused : forall dm dur st a s, (a_kind a = START \/ a_kind a = TIME_PR) ->
  phase dm dur st a s -> s_paused s = s_paused st.
Proof. intros dm dur st a s K P. destruct P; auto; destruct K; congruence. Qed.

Lemma hist_const : forall dm q0 (ok : state -> Z -> (nat -> Z -> Z) -> action -> Prop) s, const_dom dm ->
  (forall s dur q a, ok s dur q a -> plain dm s a) -> hist dm q0 ok s -> held_const dm s.
Proof.
  intros dm q0 ok s CD O H. refine (proj2 (hist_inv dm q0 ok (held_const dm) _ _ s H)).
  - intros k h E. discriminate.
  - intros s1 dur q a s2 W _ HC OK T. eapply tstep_const; eauto.
Qed.

Lemma hist_nonneg : forall dm q0 ok s, need_nonneg dm -> hist dm q0 ok s -> held_nonneg s.
Proof.
  intros dm q0 ok s NN H. refine (proj2 (hist_inv dm q0 ok held_nonneg _ _ s H)).
  - intros k h E. discriminate.
  - intros s1 dur q a s2 W _ HC OK T. eapply tstep_nonneg; eauto.
Qed.

Lemma hist_bal_ge : forall dm q0 ok s r, need_nonneg dm -> is_renewable dm r = Ok true ->
  hist dm q0 ok s -> 0 <= bal s r.
Proof.
  intros dm q0 ok s r NN RN H. refine (proj2 (hist_inv dm q0 ok (fun s => 0 <= bal s r) _ _ s H)).
  - unfold bal. rewrite used_init. unfold initial_state. proj. unfold heldsum. simpl. lia.
  - intros s1 dur q a s2 W _ HB OK T. pose proof (tstep_bal_ge _ _ _ _ _ _ r W NN RN T). lia.
Qed.

Definition offered_at (dm : domain) (cap : nat -> Z) : state -> Z -> (nat -> Z -> Z) -> action -> Prop :=
  fun s dur q a => 0 <= dur /\ (forall r t, q r t = cap r) /\ offered dm s a.

(** The same for a START in any mode of the task. *)
Definition offer_at (dm : domain) (cap : nat -> Z) : state -> Z -> (nat -> Z -> Z) -> action -> Prop :=
  fun s dur q a => 0 <= dur /\ (forall r t, q r t = cap r) /\ offer dm s a.

Lemma offered_offer_at : forall dm cap q0 s, hist dm q0 (offered_at dm cap) s -> hist dm q0 (offer_at dm cap) s.
Proof.
  intros dm cap q0 s H. eapply hist_weaken; [|exact H]. intros s0 dur q a [A [B C]].
  split; auto. split; auto. now apply offered_offer.
Qed.

Lemma fold_ext_q : forall (f g : nat -> Z) l d, (forall r, f r = g r) ->
  fold_left (fun av r => dset av r (f r)) l d = fold_left (fun av r => dset av r (g r)) l d.
Proof. intros f g. induction l as [|x l IH]; intros d H; simpl; auto. rewrite H. auto. Qed.

Lemma avail_init : forall dm cap q, (forall r t, q r t = cap r) -> avail_is dm cap (initial_state dm q).
Proof.
  intros dm cap q H r. unfold initial_state. proj.
  rewrite (fold_ext_q (fun r => q r 0) cap) by auto. now rewrite (avail_fold cap).
Qed.

Lemma tstep_q_ext : forall dm dur q q' st a s, (forall r t, q r t = q' r t) ->
  tstep dm dur q st a s -> tstep dm dur q' st a s.
Proof.
  intros dm dur q q' st a s H [T P|s1 c s2 T P M ->]; [apply ts_now; auto|].
  eapply ts_time; eauto. unfold update_avail. rewrite T. f_equal. now apply fold_ext_q.
Qed.

(** Capacity along histories of plain actions. *)
Lemma hist_cap : forall dm cap q0 (ok : state -> Z -> (nat -> Z -> Z) -> action -> Prop) s,
  const_dom dm -> need_nonneg dm -> (forall r, 0 <= cap r) -> (forall r t, q0 r t = cap r) ->
  (forall s dur q a, ok s dur q a -> plain dm s a /\ forall r t, q r t = cap r) ->
  hist dm q0 ok s -> avail_is dm cap s /\ cap_ok s.
Proof.
  intros dm cap q0 ok s CD NN CP Q0 O H.
  refine (proj2 (hist_inv dm q0 ok (fun s => avail_is dm cap s /\ cap_ok s) _ _ s H)).
  - split; [now apply avail_init|]. intros r I. rewrite used_init.
    unfold qty. rewrite (avail_init dm cap q0 Q0 r).
    destruct (pymem r _); [apply CP|lia].
  - intros s1 dur q a s2 W H1 [AV CO] OK T. destruct (O _ _ _ _ OK) as [PL QQ].
    apply (tstep_q_ext _ _ _ (fun r _ => cap r) _ _ _ QQ) in T. split.
    + eapply tstep_avail; eauto.
    + eapply tstep_cap; eauto.
      * eapply hist_nonneg; eauto.
      * eapply hist_const; eauto. intros; eapply O; eauto.
Qed.

Lemma used_keys_init : forall dm q r, In r (dkeys (s_used (initial_state dm q))) <-> In r (d_types dm ++ d_units dm).
Proof.
  intros dm q r. unfold initial_state. proj. unfold dkeys. rewrite map_map. cbn [fst].
  fold (dkeys (fold_left (fun av r => dset av r (q r 0)) (d_types dm ++ d_units dm) [])).
  pose proof (avail_fold (fun r => q r 0) (d_types dm ++ d_units dm) [] r) as E.
  rewrite <- (pymem_true r (d_types dm ++ d_units dm)). destruct (pymem r _).
  - split; auto. intros _. eapply dget_key; eauto.
  - split; [|discriminate]. intros I. apply key_dget in I. destruct I as [v I].
    cbv beta in E. unfold dget at 2 in E. rewrite I in E. discriminate.
Qed.

Lemma hist_used_keys : forall dm q0 ok s r, hist dm q0 ok s ->
  In r (dkeys (s_used s)) <-> In r (d_types dm ++ d_units dm).
Proof.
  intros dm q0 ok s r H.
  refine (proj2 (hist_inv dm q0 ok (fun s => In r (dkeys (s_used s)) <-> In r (d_types dm ++ d_units dm)) _ _ s H)).
  - apply used_keys_init.
  - intros s1 dur q a s2 W _ K _ [T P|s3 c s4 T P M ->].
    + destruct (phase_used_keys _ _ _ _ _ W P) as [E _]. now rewrite E.
    + destruct (phase_used_keys _ _ _ _ _ W P) as [E _].
      destruct (timed_spec _ _ _ _ (phase_WF _ _ _ _ _ W P) M)
        as [_ [_ [_ [_ [_ [_ [_ [_ [_ [_ [_ [_ [_ F]]]]]]]]]]]]].
      unfold update_avail. rewrite T. proj. now rewrite F, E.
Qed.

(** Capacity of the schedule, at every date up to now. *)
Lemma hist_load : forall dm cap q0 s r, const_dom dm -> need_nonneg dm -> no_preempt dm ->
  (forall r, 0 <= cap r) -> (forall r t, q0 r t = cap r) -> In r (d_types dm) -> is_renewable dm r = Ok true ->
  hist dm q0 (offer_at dm cap) s ->
  s_paused s = [] /\ all_hold s /\ forall tau, tau <= s_t s -> load dm s r tau <= cap r.
Proof.
  intros dm cap q0 s r CD NN NP CP Q0 IR RN H.
  assert (OO : forall s dur q a, offer_at dm cap s dur q a -> plain dm s a /\ forall r t, q r t = cap r).
  { intros s0 dur q a [_ [B C]]. split; auto. now apply offer_plain. }
  assert (NOW : forall s, hist dm q0 (offer_at dm cap) s -> s_paused s = [] -> all_hold s ->
                load dm s r (s_t s) <= cap r).
  { intros s1 H1 PA AH. pose proof (hist_WF _ _ _ _ H1) as W.
    rewrite (load_now dm s1 r W (hist_DR _ _ _ _ H1) (hist_all _ _ _ _ H1) PA).
    rewrite (ongoing_held dm s1 r W (hist_const _ _ _ _ CD (fun s d q a O => proj1 (OO s d q a O)) H1) AH IR).
    pose proof (hist_bal_ge _ _ _ _ r NN RN H1) as B. unfold bal in B.
    destruct (hist_cap dm cap q0 _ s1 CD NN CP Q0 OO H1) as [AV CO].
    assert (K : In r (dkeys (s_used s1))) by (apply (hist_used_keys _ _ _ _ _ H1), in_app_iff; auto).
    specialize (CO r K). unfold qty at 2 in CO. rewrite (AV r) in CO.
    rewrite (proj2 (pymem_true r _)) in CO by (apply in_app_iff; auto). lia. }
  induction H as [|s dur q a s' H IH OK N].
  - split; [reflexivity|]. split; [intros x []|]. intros tau L.
    unfold load. replace (filter _ _) with (@nil nat); [simpl; apply CP|].
    symmetry. clear. induction (unconditional dm) as [|x l IH]; [reflexivity|]. cbn [filter].
    assert (E : running (initial_state dm q0) tau x = false).
    { unfold running, initial_state. proj. rewrite details_fold. now destruct (pymem x (d_tasks dm)). }
    now rewrite E.
  - destruct IH as [PA [AH LO]].
    pose proof (h_step _ _ _ _ _ _ _ _ H OK N) as H'.
    pose proof (hist_WF _ _ _ _ H) as W. pose proof (hist_DR _ _ _ _ H) as D.
    pose proof (next_state_tstep _ _ _ _ _ _ W N) as T.
    assert (KA : a_kind a = START \/ a_kind a = TIME_PR).
    { eapply np_action; eauto. destruct OK as [_ [_ OK]]. exact OK. }
    assert (X : s_paused s' = [] /\ all_hold s').
    { destruct T as [T P|s1 c s2 T P M ->].
      - split; [rewrite (phase_paused _ _ _ _ _ KA P); auto|eapply phase_hold; eauto].
      - pose proof (phase_hold _ _ _ _ _ W KA P AH) as AH1. pose proof (phase_WF _ _ _ _ _ W P) as W1.
        pose proof (timed_hold _ _ _ _ W1 M AH1) as AH2.
        destruct (timed_spec _ _ _ _ W1 M) as [_ [_ [E _]]].
        unfold update_avail. rewrite T. proj. split; auto.
        now rewrite E, (phase_paused _ _ _ _ _ KA P). }
    destruct X as [PA' AH']. split; auto. split; auto. intros tau L.
    destruct (Z.eq_dec tau (s_t s')) as [ -> |NE]; [auto|].
    destruct T as [T P|s1 c s2 T P M E].
    + rewrite (phase_t _ _ _ _ _ P) in *.
      rewrite (phase_load _ _ _ _ _ r tau W D P) by lia. apply LO. lia.
    + pose proof (phase_WF _ _ _ _ _ W P) as W1. pose proof (phase_DR _ _ _ _ _ W P D) as D1.
      pose proof (phase_t _ _ _ _ _ P) as T1.
      assert (L1 : tau <= s_t s1). { subst s'. unfold update_avail in L, NE. rewrite T in L, NE. proj. lia. }
      assert (EQ : load dm s' r tau = load dm s1 r tau).
      { rewrite <- (timed_load _ _ _ _ r tau W1 D1 M L1). subst s'. unfold update_avail. rewrite T. reflexivity. }
      rewrite EQ. destruct (Z.eq_dec tau (s_t s1)) as [ -> |NE1].
      * (* the state after the action and before the clock advances: reachable with the same action
           without time progress, or bounded directly *)
        assert (ST : a_tp a = true -> a = time_act).
        { destruct OK as [_ [_ OK]].
          destruct OK; simpl; intros; congruence. }
        specialize (ST T). subst a. inversion P; subst; try discriminate. apply LO. lia.
      * rewrite (phase_load _ _ _ _ _ r tau W D P) by lia. apply LO. lia.
Qed.

(** * Non-renewable resources along histories *)

Lemma hist_total : forall dm cap q0 s r, const_dom dm -> need_nonneg dm -> no_preempt dm ->
  In r (d_types dm) -> is_renewable dm r = Ok false ->
  hist dm q0 (offer_at dm cap) s -> s_paused s = [] /\ qty (s_used s) r = total_need dm s r.
Proof.
  intros dm cap q0 s r CD NN NP IR RN H.
  refine (proj2 (hist_inv dm q0 (offer_at dm cap)
            (fun s => s_paused s = [] /\ qty (s_used s) r = total_need dm s r) _ _ s H)).
  - split; [reflexivity|]. rewrite used_init. reflexivity.
  - intros s1 dur q a s2 W H1 [PA E] [_ [_ OF]] T.
    pose proof (np_action _ _ _ NP PA OF) as KA. pose proof (offer_plain _ _ _ OF) as PL.
    assert (NPA : a_kind a <> PAUSE) by (destruct KA; congruence).
    destruct T as [T P|s3 c s4 T P M ->].
    + destruct (phase_total _ _ _ _ _ r W CD PL IR NPA PA P) as [A B]. split; auto. lia.
    + destruct (phase_total _ _ _ _ _ r W CD PL IR NPA PA P) as [A B].
      pose proof (phase_WF _ _ _ _ _ W P) as W1.
      assert (HC : held_const dm s1).
      { eapply hist_const; eauto. intros ? ? ? ? [_ [_ X]]. now apply offer_plain. }
      pose proof (phase_const _ _ _ _ _ W CD PL P HC) as HC1.
      pose proof (phase_nonneg _ _ _ _ _ W NN P (hist_nonneg _ _ _ _ NN H1)) as HN1.
      pose proof (timed_total _ _ _ _ r W1 CD HC1 HN1 RN M) as B2.
      destruct (timed_spec _ _ _ _ W1 M) as [_ [_ [E3 _]]].
      unfold update_avail. rewrite T. proj. split; [congruence|].
      unfold total_need, mode_need in *. proj. lia.
Qed.

(** * Stochastic transitions *)

Lemma dist_map_In : forall f l l' s p, dist_map f l = Ok l' -> In (s, p) l' ->
  exists s0, In (s0, p) l /\ f s0 = Ok s.
Proof.
  intros f l l' s p H I. unfold dist_map in H. destruct (mapM_In _ _ _ _ _ _ H I) as [[s0 p0] [J E]].
  mon. cbn [fst snd] in *. eauto.
Qed.

Lemma start_uncertain_In : forall dm durs st a l s p, update_start_uncertain dm durs st a = Ok l -> In (s, p) l ->
  exists dur, update_start dm dur st a = Ok s /\
    ((exists pr, In (dur, pr) durs) \/ (dur = 0 /\ s = st)).
Proof.
  intros dm durs st a l s p H I. unfold update_start_uncertain, update_start in *.
  destruct (a_kind a); try (mon; destruct I as [I|[]]; injection I as <- <-; eauto; fail).
  apply bind_ok in H. destruct H as [[b rtu] [C H]]. rewrite C. cbn [bind fst snd] in *. destruct b.
  - apply bind_ok in H. destruct H as [task [A1 H]]. apply bind_ok in H. destruct H as [mode [A2 H]].
    destruct (mapM_In _ _ _ _ _ _ H I) as [[dur pr] [J E]]. cbn [fst snd] in E. mon.
    exists dur. rewrite A1, A2. cbn [bind]. split; eauto.
  - mon. destruct I as [I|[]]. injection I as <- <-. eauto.
Qed.

Definition conds_more (s s' : state) : Prop := incl (s_conds s) (s_conds s').

Inductive ustep (dm : domain) (durs : list (Z * Q)) (q : nat -> Z -> Z) (st : state) (a : action) (s : state) : Prop :=
| us_now : forall dur, a_tp a = false -> phase dm dur st a s ->
    ((exists pr, In (dur, pr) durs) \/ dur = 0) -> ustep dm durs q st a s
| us_time : forall dur s1 c s2 cs, a_tp a = true -> phase dm dur st a s1 ->
    ((exists pr, In (dur, pr) durs) \/ dur = 0) ->
    timed dm (update_conditional dm s1 a) c s2 ->
    incl (s_conds s2) cs ->
    s = update_avail dm q (w_t (s_t s1 + 1) (w_conds cs s2)) a -> ustep dm durs q st a s.

Lemma set_add_incl : forall x (l : list nat), incl l (set_add x l).
Proof. intros x l y I. apply set_add_In. auto. Qed.

Lemma fold_set_add_incl : forall (comb : list (nat * Q)) l,
  incl l (fold_left (fun l cp => set_add (fst cp) l) comb l).
Proof.
  induction comb as [|c r IH]; intros l; [apply incl_refl|].
  simpl. eapply incl_tran; [apply set_add_incl|apply IH].
Qed.

Lemma NoDup_app_intro : forall (l1 l2 : list nat), NoDup l1 -> NoDup l2 ->
  (forall x, In x l1 -> ~ In x l2) -> NoDup (l1 ++ l2).
Proof.
  induction l1 as [|x l IH]; intros l2 N1 N2 D; [assumption|].
  inversion N1; subst. simpl. constructor.
  - rewrite in_app_iff. intros [I|I]; [contradiction|]. eapply D; eauto. simpl; auto.
  - apply IH; auto. intros y I. apply D. simpl; auto.
Qed.

Lemma WF_cond_pre : forall dm st a, WF st -> incl (all_of st) (available dm st) ->
  WF (update_conditional dm st a) /\
  (forall x, In x (all_of (update_conditional dm st a)) <->
             In x (all_of st) \/ (a_tp a = true /\ In x (available dm st))).
Proof.
  intros dm st a W AV. unfold update_conditional. destruct (a_tp a).
  2:{ split; auto. intros x. intuition discriminate. }
  cbv zeta.
  set (considered := s_remaining st ++ s_ongoing st ++ dkeys (s_progress st) ++ s_complete st).
  assert (CE : forall x, In x considered <-> In x (all_of st)).
  { intros x. unfold considered, all_of. rewrite !in_app_iff, (wf_prog _ W x), !in_app_iff. tauto. }
  assert (E2 : filter (fun n => negb (pymem n (available dm st))) considered = []).
  { assert (forall l, incl l considered -> filter (fun n => negb (pymem n (available dm st))) l = []) as X.
    { induction l as [|x l IH]; intros I; [reflexivity|]. cbn [filter].
      rewrite (proj2 (pymem_true x (available dm st))) by (apply AV, CE, I; simpl; auto). cbn [negb].
      apply IH. intros y J. apply I. simpl; auto. }
    apply X, incl_refl. }
  rewrite E2, app_nil_r.
  set (new := filter (fun n => negb (pymem n considered)) (available dm st)).
  assert (NEW : forall x, In x new <-> In x (available dm st) /\ ~ In x (all_of st)).
  { intros x. unfold new. rewrite filter_In, negb_true_iff, <- CE. split; intros [A B]; split; auto.
    - intros C. apply (pymem_true x considered) in C. congruence.
    - destruct (pymem x considered) eqn:M; auto. apply (pymem_true x considered) in M. contradiction. }
  assert (FO : forall l rem, NoDup l -> NoDup rem -> (forall x, In x l -> ~ In x rem) ->
             fold_left (fun l n => set_add n l) l rem = rem ++ l).
  { induction l as [|x l IH]; intros rem N1 N2 D; cbn [fold_left]; [now rewrite app_nil_r|].
    inversion N1; subst. rewrite (set_add_fresh x rem) by (apply D; simpl; auto). rewrite IH; auto.
    - now rewrite <- app_assoc.
    - eapply Permutation_NoDup; [apply Permutation_cons_append|]. constructor; auto. apply D. simpl; auto.
    - intros y I J. apply in_app_iff in J. simpl in J. destruct J as [J|[ <- |[]]]; [|contradiction].
      eapply D; eauto. simpl; auto. }
  destruct (wf_sep _ W) as [_ [_ [_ [N1 _]]]].
  assert (NN : NoDup new). { unfold new, available. apply NoDup_filter, NoDup_filter, NoDup_nodup. }
  rewrite FO; auto.
  2:{ intros x I J. apply NEW in I. apply (proj2 I). unfold all_of. rewrite in_app_iff. auto. }
  assert (PM : Permutation (all_of (w_remaining (s_remaining st ++ new) st)) (new ++ all_of st)).
  { unfold all_of. proj. rewrite !app_assoc. do 3 apply Permutation_app_tail. apply Permutation_app_comm. }
  split.
  - destruct W as [W1 W2 W3 W4 W5 W6]. constructor; auto.
    eapply Permutation_NoDup; [symmetry; exact PM|].
    apply NoDup_app_intro; auto. intros x I. now apply NEW in I.
  - intros x. rewrite (Permutation_in' eq_refl PM), in_app_iff, NEW.
    destruct (in_dec Nat.eq_dec x (all_of st)); tauto.
Qed.

Lemma next_dist_ustep : forall dm durs q st a l s p, WF st -> incl (all_of st) (available dm st) ->
  next_dist dm durs q st a = Ok l -> In (s, p) l -> ustep dm durs q st a s.
Proof.
  intros dm durs q st a l s p W AV H I. unfold next_dist in H.
  apply bind_ok in H. destruct H as [s1 [H1 H]].
  apply bind_ok in H. destruct H as [s2 [H2 H]].
  apply bind_ok in H. destruct H as [l3 [H3 H]].
  apply bind_ok in H. destruct H as [l4 [H4 H]].
  apply bind_ok in H. destruct H as [l5 [H5 H]].
  apply bind_ok in H. destruct H as [l6 [H6 H]].
  destruct (dist_map_In _ _ _ _ _ H I) as [s6 [I6 E6]]. injection E6 as <-.
  assert (PH : forall s4 p4, In (s4, p4) l4 -> exists dur, phase dm dur st a s4 /\
             ((exists pr, In (dur, pr) durs) \/ dur = 0)).
  { intros s4 p4 I4. destruct (dist_map_In _ _ _ _ _ H4 I4) as [s3 [I3 E4]].
    destruct (start_uncertain_In _ _ _ _ _ _ _ H3 I3) as [dur [E3 O]].
    exists dur. split; [eapply phase_shape; eauto|tauto]. }
  unfold update_time_uncertain in H6. destruct (a_tp a) eqn:T.
  - apply bind_ok in H6. destruct H6 as [l7 [H7 H6]]. apply bind_ok in H6. destruct H6 as [l8 [H8 H6]].
    injection H6 as <-. apply in_map_iff in I6. destruct I6 as [[s8 p8] [E8 I8]]. cbn [fst snd] in E8.
    injection E8 as <- <-. apply in_concat in I8. destruct I8 as [l9 [I9 I8]].
    destruct (mapM_In _ _ _ _ _ _ H8 I9) as [[s7 p7] [I7 E7]]. cbn [fst] in E7.
    destruct (dist_map_In _ _ _ _ _ H7 I7) as [s5 [I5 E5]].
    destruct (dist_map_In _ _ _ _ _ H5 I5) as [s4 [I4 E4]]. injection E4 as <-.
    destruct (PH _ _ I4) as [dur [P O]].
    unfold update_complete_uncertain in E7. apply bind_ok in E7. destruct E7 as [[c s10] [E10 E7]].
    injection E7 as <-. apply in_map_iff in I8. destruct I8 as [comb [E8 _]]. cbn [fst snd] in E8.
    injection E8 as <- <-.
    pose proof (phase_WF _ _ _ _ _ W P) as W1.
    assert (AV1 : incl (all_of s4) (available dm s4)).
    { intros x J. apply (Permutation_in _ (phase_perm _ _ _ _ _ W P)) in J. apply AV in J.
      unfold available in *. now rewrite (phase_conds _ _ _ _ _ P). }
    destruct (WF_cond_pre dm s4 a W1 AV1) as [W2 _].
    pose proof (tick_complete_timed _ _ _ _ _ E5 E10) as M.
    eapply us_time; [exact T|exact P|exact O|exact M| |].
    + apply fold_set_add_incl.
    + unfold update_avail. rewrite T. proj.
      destruct (timed_spec _ _ _ _ W2 M) as [TT _]. unfold update_conditional in TT. rewrite T in TT.
      proj. now rewrite TT.
  - injection H6 as <-. destruct (dist_map_In _ _ _ _ _ H5 I6) as [s4 [I4 E4]]. injection E4 as <-.
    destruct (PH _ _ I4) as [dur [P O]]. unfold update_avail. rewrite T.
    unfold update_conditional. rewrite T. eapply us_now; eauto.
Qed.

Lemma available_mono : forall dm s1 s2, incl (s_conds s1) (s_conds s2) -> incl (available dm s1) (available dm s2).
Proof.
  intros dm s1 s2 I x J. unfold available in *. apply filter_In in J. destruct J as [J1 J2].
  apply filter_In. split; auto. destruct (dget (d_exist dm) x) as [cs|]; auto.
  rewrite forallb_forall in *. intros c K. apply (proj2 (pymem_true c (s_conds s2))), I.
  apply (proj1 (pymem_true c (s_conds s1))); auto.
Qed.

(** The invariant of stochastic histories. *)
Definition UI (dm : domain) (st : state) : Prop :=
  WF st /\ incl (all_of st) (available dm st) /\ incl (unconditional dm) (all_of st).

Lemma UI_init : forall dm q, UI dm (initial_state dm q).
Proof.
  intros dm q. split; [apply WF_init|].
  assert (E : all_of (initial_state dm q) = unconditional dm).
  { unfold all_of, initial_state. proj. now rewrite app_nil_r. }
  rewrite E. split; [|apply incl_refl]. rewrite <- (available_det dm (initial_state dm q) eq_refl). apply incl_refl.
Qed.

Lemma ustep_UI : forall dm durs q st a s, UI dm st -> ustep dm durs q st a s ->
  UI dm s /\ incl (all_of st) (all_of s) /\ incl (s_complete st) (s_complete s) /\ (a_tp a = true -> incl (available dm st) (all_of s)).
Proof.
  intros dm durs q st a s [W [A U]] [dur T P O|dur s1 c s2 cs T P O M I ->].
  - pose proof (phase_perm _ _ _ _ _ W P) as PM.
    assert (E : incl (all_of st) (all_of s)).
    { intros x J. eapply Permutation_in; [symmetry; exact PM|exact J]. }
    split; [split; [eapply phase_WF; eauto|split]|split; [auto|split]].
    + intros x J. apply (Permutation_in _ PM) in J. apply A in J. revert J. apply available_mono.
      rewrite (phase_conds _ _ _ _ _ P). apply incl_refl.
    + eapply incl_tran; eauto.
    + eapply phase_status; eauto.
    + congruence.
  - pose proof (phase_perm _ _ _ _ _ W P) as PM. pose proof (phase_WF _ _ _ _ _ W P) as W1.
    assert (A1 : incl (all_of s1) (available dm s1)).
    { intros x J. apply (Permutation_in _ PM) in J. apply A in J. revert J. apply available_mono.
      rewrite (phase_conds _ _ _ _ _ P). apply incl_refl. }
    destruct (WF_cond_pre dm s1 a W1 A1) as [W2 EQ].
    destruct (timed_WF _ _ _ _ W2 M) as [W3 PM3].
    destruct (timed_spec _ _ _ _ W2 M) as [_ [_ [_ [_ [_ [CO [_ [_ [CC _]]]]]]]]].
    assert (CO1 : s_conds s2 = s_conds s1).
    { rewrite CO. unfold update_conditional. rewrite T. reflexivity. }
    assert (AL : forall x, In x (all_of s2) <-> In x (all_of s1) \/ In x (available dm s1)).
    { intros x. rewrite (Permutation_in' eq_refl PM3), EQ. tauto. }
    assert (E : incl (all_of st) (all_of s2)).
    { intros x J. apply AL. left. eapply Permutation_in; [symmetry; exact PM|exact J]. }
    unfold update_avail. rewrite T.
    split; [split; [apply WF_w_avail, WF_w_t, WF_w_conds; auto|split]|split; [exact E|split]].
    + intros x J. apply AL in J. assert (K : In x (available dm s1)) by (destruct J; auto).
      revert K. apply available_mono. proj. now rewrite <- CO1.
    + eapply incl_tran; [exact U|exact E].
    + proj. intros x J. apply CC. left. unfold update_conditional. rewrite T. proj.
      destruct (phase_status _ _ _ _ _ W P) as [Y _]. apply Y, J.
    + intros _ x J. apply AL. right. revert J. apply available_mono.
      rewrite (phase_conds _ _ _ _ _ P). apply incl_refl.
Qed.

(** * Probabilities *)

Open Scope Q_scope.

Definition mass {A} (l : list (A * Q)) : Q := fold_right (fun sp z => snd sp + z) 0 l.

Lemma mass_app : forall A (l1 l2 : list (A * Q)), mass (l1 ++ l2) == mass l1 + mass l2.
Proof.
  induction l1 as [|x l IH]; intros l2; simpl; [ring|]. rewrite IH. ring.
Qed.

Lemma mass_map : forall A B (f : A * Q -> B * Q) l, (forall x, snd (f x) = snd x) -> mass (map f l) = mass l.
Proof. intros A B f l H. induction l as [|x l IH]; simpl; auto. now rewrite H, IH. Qed.

Lemma dist_map_mass : forall f l l', dist_map f l = Ok l' -> map snd l' = map snd l.
Proof.
  unfold dist_map. intros f. induction l as [|[s p] l IH]; cbn [mapM]; intros l' H; mon; [reflexivity|].
  cbn [map snd]. f_equal. auto.
Qed.

Lemma mass_snd : forall A B (l : list (A * Q)) (l' : list (B * Q)), map snd l = map snd l' -> mass l = mass l'.
Proof.
  induction l as [|x l IH]; destruct l' as [|y l']; simpl; intros H; try discriminate; auto.
  injection H as E H. rewrite E. f_equal. auto.
Qed.

Definition prodQ (l : list Q) : Q := fold_right Qmult 1 l.

Lemma comb_fold : forall (comb : list (nat * Q)) acc,
  fold_left (fun p cp => p * snd cp) comb acc == acc * fold_left (fun p cp => p * snd cp) comb 1.
Proof.
  induction comb as [|c l IH]; intros acc; simpl; [ring|].
  rewrite IH, (IH (1 * snd c)). ring.
Qed.

Definition wt (comb : list (nat * Q)) : Q := fold_left (fun p cp => p * snd cp) comb 1.

Lemma wt_cons : forall c comb, wt (c :: comb) == snd c * wt comb.
Proof. intros c comb. unfold wt. simpl. rewrite comb_fold. ring. Qed.

Definition sumw (l : list (list (nat * Q))) : Q := fold_right (fun c z => wt c + z) 0 l.

Lemma sumw_app : forall l1 l2, sumw (l1 ++ l2) == sumw l1 + sumw l2.
Proof. induction l1 as [|x l IH]; intros l2; simpl; [ring|]. rewrite IH. ring. Qed.

Lemma sumw_cons : forall x l, sumw (map (cons x) l) == snd x * sumw l.
Proof. induction l as [|c l IH]; simpl; [ring|]. rewrite wt_cons, IH. ring. Qed.

Lemma product_mass : forall ls, sumw (product ls) == prodQ (map mass ls).
Proof.
  induction ls as [|l r IH]; [reflexivity|]. cbn [product map].
  change (prodQ (mass l :: map mass r)) with (mass l * prodQ (map mass r)). rewrite <- IH. clear IH.
  induction l as [|x l IH]; simpl; [ring|]. rewrite sumw_app, sumw_cons, IH. unfold mass. ring.
Qed.

Lemma wt_nonneg : forall comb, (forall c, In c comb -> 0 <= snd c) -> 0 <= wt comb.
Proof.
  induction comb as [|c l IH]; intros H; [discriminate|]. rewrite wt_cons.
  apply Qmult_le_0_compat; [apply H; simpl; auto|apply IH; intros; apply H; simpl; auto].
Qed.

Lemma product_In : forall A (ls : list (list A)) comb x, In comb (product ls) -> In x comb ->
  exists l, In l ls /\ In x l.
Proof.
  induction ls as [|l r IH]; cbn [product]; intros comb x I J.
  - destruct I as [ <- |[]]. destruct J.
  - apply in_flat_map in I. destruct I as [y [I1 I2]]. apply in_map_iff in I2. destruct I2 as [c [ <- I2]].
    destruct J as [ <- |J]; [exists l; simpl; auto|]. destruct (IH _ _ I2 J) as [l' [A1 A2]].
    exists l'. simpl; auto.
Qed.

Lemma ucu_mass : forall dm st l, update_complete_uncertain dm st = Ok l ->
  exists c s, update_complete dm st = Ok (c, s) /\ mass l == prodQ (map mass (models dm c)).
Proof.
  intros dm st l H. unfold update_complete_uncertain in H. apply bind_ok in H.
  destruct H as [[c s] [E H]]. injection H as <-. exists c, s. split; auto. cbn [fst snd].
  rewrite <- product_mass. induction (product (models dm c)) as [|x r IH]; [reflexivity|].
  simpl. rewrite IH. reflexivity.
Qed.

Lemma prodQ_ones : forall l, (forall x, In x l -> x == 1) -> prodQ l == 1.
Proof.
  induction l as [|x l IH]; intros H; [reflexivity|].
  change (prodQ (x :: l)) with (x * prodQ l). rewrite IH by (intros; apply H; simpl; auto).
  rewrite (H x) by (simpl; auto). ring.
Qed.

Lemma start_mass : forall dm durs st a l, update_start_uncertain dm durs st a = Ok l -> mass durs == 1 ->
  mass l == 1 /\ (a_kind a <> START -> l = [(st, 1)]).
Proof.
  intros dm durs st a l H M. unfold update_start_uncertain in H.
  destruct (a_kind a) eqn:K; try (injection H as <-; split; [simpl; ring|auto]).
  split; [|congruence]. apply bind_ok in H. destruct H as [[b rtu] [C H]]. cbn [fst snd] in H. destruct b.
  - apply bind_ok in H. destruct H as [task [_ H]]. apply bind_ok in H. destruct H as [mode [_ H]].
    rewrite <- M. rewrite (mass_snd _ _ l durs); [reflexivity|]. clear M C.
    revert l H. induction durs as [|[d p] r IH]; cbn [mapM]; intros l H; mon; [reflexivity|].
    cbn [map snd fst]. f_equal. auto.
  - injection H as <-. simpl. ring.
Qed.

Lemma next_dist_mass : forall dm durs q st a l, next_dist dm durs q st a = Ok l ->
  (a_kind a = START -> a_tp a = false) -> mass durs == 1 ->
  (forall k ds, dget (d_cond dm) k = Some ds -> mass (concat ds) == 1) ->
  mass l == 1.
Proof.
  intros dm durs q st a l H KT MD MC. unfold next_dist in H.
  apply bind_ok in H. destruct H as [s1 [H1 H]].
  apply bind_ok in H. destruct H as [s2 [H2 H]].
  apply bind_ok in H. destruct H as [l3 [H3 H]].
  apply bind_ok in H. destruct H as [l4 [H4 H]].
  apply bind_ok in H. destruct H as [l5 [H5 H]].
  apply bind_ok in H. destruct H as [l6 [H6 H]].
  destruct (start_mass _ _ _ _ _ H3 MD) as [M3 N3].
  rewrite (mass_snd _ _ _ _ (dist_map_mass _ _ _ H)).
  pose proof (dist_map_mass _ _ _ H4) as E4. pose proof (dist_map_mass _ _ _ H5) as E5.
  unfold update_time_uncertain in H6. destruct (a_tp a) eqn:T.
  - assert (K : a_kind a <> START) by (intros K; apply KT in K; congruence).
    rewrite (N3 K) in E4. rewrite E4 in E5.
    destruct l5 as [|[s5 p5] [|? ?]]; try discriminate.
    apply bind_ok in H6. destruct H6 as [l7 [H7 H6]]. apply bind_ok in H6. destruct H6 as [l8 [H8 H6]].
    injection H6 as <-. unfold dist_map in H7. cbn [mapM] in H7. mon. cbn [mapM fst] in H8. mon.
    rewrite mass_map by reflexivity. cbn [concat]. rewrite app_nil_r.
    destruct (ucu_mass _ _ _ H0) as [c [s [_ E]]]. rewrite E. apply prodQ_ones.
    intros y I. apply in_map_iff in I. destruct I as [m [ <- I]]. unfold models in I.
    apply in_flat_map in I. destruct I as [k [_ I]]. destruct (dget (d_cond dm) k) eqn:D; [|destruct I].
    destruct I as [ <- |[]]. eauto.
  - injection H6 as <-. rewrite (mass_snd _ _ _ _ E5), (mass_snd _ _ _ _ E4). assumption.
Qed.

Lemma next_dist_nonneg : forall dm durs q st a l s p, next_dist dm durs q st a = Ok l -> In (s, p) l ->
  (forall d pr, In (d, pr) durs -> 0 <= pr) ->
  (forall k ds d c pr, dget (d_cond dm) k = Some ds -> In d ds -> In (c, pr) d -> 0 <= pr) ->
  0 <= p.
Proof.
  intros dm durs q st a l s p H I ND NC. unfold next_dist in H.
  apply bind_ok in H. destruct H as [s1 [H1 H]].
  apply bind_ok in H. destruct H as [s2 [H2 H]].
  apply bind_ok in H. destruct H as [l3 [H3 H]].
  apply bind_ok in H. destruct H as [l4 [H4 H]].
  apply bind_ok in H. destruct H as [l5 [H5 H]].
  apply bind_ok in H. destruct H as [l6 [H6 H]].
  destruct (dist_map_In _ _ _ _ _ H I) as [s6 [I6 _]].
  unfold update_time_uncertain in H6. destruct (a_tp a) eqn:T.
  - apply bind_ok in H6. destruct H6 as [l7 [H7 H6]]. apply bind_ok in H6. destruct H6 as [l8 [H8 H6]].
    injection H6 as <-. apply in_map_iff in I6. destruct I6 as [[s8 p8] [E8 I8]]. cbn [fst snd] in E8.
    injection E8 as _ <-. apply in_concat in I8. destruct I8 as [l9 [I9 I8]].
    destruct (mapM_In _ _ _ _ _ _ H8 I9) as [[s7 p7] [I7 E7]]. cbn [fst] in E7.
    unfold update_complete_uncertain in E7. apply bind_ok in E7. destruct E7 as [[c s10] [E10 E7]].
    injection E7 as <-. apply in_map_iff in I8. destruct I8 as [comb [E8 IC]]. cbn [fst snd] in E8.
    injection E8 as _ <-. apply wt_nonneg. intros [cc pr] J. cbn [snd].
    destruct (product_In _ _ _ _ IC J) as [m [M1 M2]]. unfold models in M1.
    apply in_flat_map in M1. destruct M1 as [k [_ M1]]. destruct (dget (d_cond dm) k) eqn:D; [|destruct M1].
    destruct M1 as [ <- |[]]. apply in_concat in M2. destruct M2 as [d [M2 M3]]. eauto.
  - injection H6 as <-. destruct (dist_map_In _ _ _ _ _ H5 I6) as [s5 [I5 _]].
    destruct (dist_map_In _ _ _ _ _ H4 I5) as [s4 [I4 _]].
    unfold update_start_uncertain in H3.
    destruct (a_kind a); try (injection H3 as <-; destruct I4 as [I4|[]]; injection I4 as _ <-; discriminate).
    apply bind_ok in H3. destruct H3 as [[b rtu] [C H3]]. cbn [fst snd] in H3. destruct b.
    + apply bind_ok in H3. destruct H3 as [task [_ H3]]. apply bind_ok in H3. destruct H3 as [mode [_ H3]].
      destruct (mapM_In _ _ _ _ _ _ H3 I4) as [[d pr] [J E]]. cbn [fst snd] in E. mon. eauto.
    + injection H3 as <-. destruct I4 as [I4|[]]. injection I4 as _ <-. discriminate.
Qed.
