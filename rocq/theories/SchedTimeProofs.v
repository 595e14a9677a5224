(** A time step of the scheduling domain does not raise. *)
From Coq Require Import List Bool Arith ZArith QArith Lia.
From Verif Require Import Py SchedModel SchedProofs SchedActProofs.
Import ListNotations.
Open Scope Z_scope.

(** What a time step looks up for an ongoing task. *)
Definition tick_ok (dm : domain) (st : state) (k : nat) : Prop :=
  exists m c d h z, dget (s_mode st) k = Some m /\ get_mode dm k m = Ok (Constant c) /\
    dget (s_details st) k = Some d /\ paused_time (tk_paused d) (tk_resumed d) = Ok z /\
    dget (s_held st) k = Some h /\ (forall r, In r (d_types dm) -> In r (dkeys h)) /\
    forall r, In r (dkeys h) -> In r (dkeys (s_used st)) /\ exists b, is_renewable dm r = Ok b.

Lemma update_progress_ok : forall dm st l pr,
  (forall k, In k l -> (exists m, dget (s_mode st) k = Some m) /\ (exists d, dget (s_details st) k = Some d) /\
     In k (dkeys pr)) -> exists pr', update_progress dm st l pr = Ok pr'.
Proof.
  intros dm st. induction l as [|k l IH]; intros pr H; cbn [update_progress]; [eauto|].
  destruct (H k (or_introl eq_refl)) as [[m M] [[d D] K]]. apply key_dget in K. destruct K as [p P].
  unfold dgetE. rewrite M, D, P. cbn [bind]. apply IH. intros k' I.
  destruct (H k' (or_intror I)) as [A [B C]]. split; auto. split; auto. rewrite dkeys_dset. auto.
Qed.

Lemma rebook_ok : forall rtu h u, (forall r, In r (dkeys rtu) -> In r (dkeys h) /\ In r (dkeys u)) ->
  exists hu, rebook rtu h u = Ok hu.
Proof.
  induction rtu as [|[r q] l IH]; intros h u H; cbn [rebook]; [eauto|].
  destruct (H r) as [A B]; [simpl; auto|]. apply key_dget in A. apply key_dget in B.
  destruct A as [x A], B as [y B]. unfold dgetE. rewrite A, B. cbn [bind]. apply IH.
  intros r' I. rewrite !dkeys_dset. destruct (H r'); [simpl; auto|]. auto.
Qed.

Lemma resource_used_ok : forall dm k m c time us, get_mode dm k m = Ok (Constant c) ->
  exists rtu, get_resource_used dm k m us time = Ok rtu.
Proof.
  intros dm k m c time us G. unfold get_resource_used.
  destruct (types_used_const dm k m c time (d_types dm) [] G) as [d E]; [intros; simpl; eauto|].
  rewrite E. cbn [bind]. eauto.
Qed.

Lemma update_res_ok : forall dm l st, NoDup l -> (forall k, In k l -> tick_ok dm st k) ->
  exists s, update_res dm l st = Ok s.
Proof.
  intros dm. induction l as [|k l IH]; intros st N H; cbn [update_res]; [eauto|].
  inversion N; subst.
  destruct (H k (or_introl eq_refl)) as [m [c [d [h [z [A1 [A2 [A3 [A4 [A5 [A6 A7]]]]]]]]]]].
  unfold dgetE. rewrite A1, A3. cbn [bind]. unfold active_time at 1.
  assert (AT : exists time, match tk_start d with
    | Some s => let* p := paused_time (tk_paused d) (tk_resumed d) in
                Ok ((match tk_end d with Some e => Z.min (s_t st + 1) e | None => s_t st + 1 end) - s - p)
    | None => Ok 0 end = Ok time).
  { destruct (tk_start d); [rewrite A4; cbn [bind]; eauto|eauto]. }
  destruct AT as [time AT]. rewrite AT. cbn [bind].
  destruct (resource_used_ok dm k m c time (Some []) A2) as [rtu R]. rewrite R. cbn [bind].
  rewrite A5. cbn [bind].
  destruct (get_resource_used_spec _ _ _ _ _ _ R) as [_ [RK _]].
  assert (KK : forall r, In r (dkeys rtu) -> In r (dkeys h) /\ In r (dkeys (s_used st))).
  { intros r I. apply RK in I. destruct I as [I|[]]. split; auto. now apply A7, A6. }
  destruct (rebook_ok rtu h (s_used st) KK) as [[h' u'] B]. rewrite B. cbn [bind fst snd].
  destruct (rebook_spec _ _ _ _ _ B) as [K1 [K2 _]].
  apply IH; auto. intros k' I.
  destruct (H k' (or_intror I)) as [m' [c' [d' [h'' [z' [B1 [B2 [B3 [B4 [B5 [B6 B7]]]]]]]]]]].
  exists m', c', d', h'', z'. cbn [s_mode s_details s_held s_used w_held w_used].
  split; auto. split; auto. split; auto. split; auto. split.
  - rewrite dget_dset_other; auto. intros ->. contradiction.
  - split; auto. rewrite K1. auto.
Qed.

Lemma scan_complete_ok : forall l pr, (forall k, In k l -> In k (dkeys pr)) ->
  exists cp, scan_complete l pr = Ok cp.
Proof.
  induction l as [|k l IH]; intros pr H; cbn [scan_complete]; [eauto|].
  destruct (key_dget _ pr k (H k (or_introl eq_refl))) as [p P]. unfold dgetE. rewrite P. cbn [bind].
  destruct (Qle_bool (9999 # 10000) p).
  - destruct (IH (dset pr k 1%Q)) as [[c pr'] E].
    { intros k' I. rewrite dkeys_dset. right. apply H. simpl; auto. }
    rewrite E. cbn [bind]. eauto.
  - apply IH. intros; apply H; simpl; auto.
Qed.

Lemma complete_release_ok : forall dm h u,
  (forall r, In r (dkeys h) -> In r (dkeys u) /\ exists b, is_renewable dm r = Ok b) ->
  exists u', complete_release dm h u = Ok u' /\ forall r, In r (dkeys u) -> In r (dkeys u').
Proof.
  intros dm. induction h as [|[r q] h IH]; intros u H; cbn [complete_release]; [eauto|].
  destruct (H r) as [A [b B]]; [simpl; auto|]. rewrite B. cbn [bind]. destruct b.
  - apply key_dget in A. destruct A as [v A]. unfold dgetE. rewrite A. cbn [bind].
    destruct (IH (dset u r (v - q))) as [u' [E F]].
    { intros r' I. destruct (H r') as [C D]; [simpl; auto|]. split; auto. rewrite dkeys_dset. auto. }
    exists u'. split; auto. intros r' I. apply F. rewrite dkeys_dset. auto.
  - apply IH. intros; apply H; simpl; auto.
Qed.

Lemma complete_all_ok : forall dm l st, NoDup l ->
  (forall k, In k l -> In k (s_ongoing st) /\ (exists d, dget (s_details st) k = Some d) /\
     exists h, dget (s_held st) k = Some h /\
       forall r, In r (dkeys h) -> In r (dkeys (s_used st)) /\ exists b, is_renewable dm r = Ok b) ->
  NoDup (s_ongoing st) -> NoDup (dkeys (s_held st)) ->
  exists s, complete_all dm l st = Ok s.
Proof.
  intros dm. induction l as [|k l IH]; intros st N H NO NH; cbn [complete_all]; [eauto|].
  inversion N; subst. destruct (H k (or_introl eq_refl)) as [A [[d D] [h [B C]]]].
  unfold complete_one. rewrite (set_remove_in _ _ A). cbn [bind]. unfold dgetE. rewrite B. cbn [bind].
  destruct (complete_release_ok dm h (s_used st) C) as [u [E F]]. rewrite E. cbn [bind]. rewrite D. cbn [bind].
  apply IH; auto; cbn [s_ongoing s_details s_held s_used].
  - intros k' I. destruct (H k' (or_intror I)) as [A' [[d' D'] [h' [B' C']]]].
    assert (k <> k') by (intros ->; contradiction).
    split; [|split].
    + apply pyremove_In; auto.
    + rewrite dget_dset_other by assumption. eauto.
    + exists h'. rewrite dget_ddel_other by assumption. split; auto.
      intros r J. destruct (C' r J). auto.
  - now apply pyremove_NoDup.
  - now apply NoDup_ddel.
Qed.

Lemma time_works : forall dm dur q st, WF st -> (forall k, In k (s_ongoing st) -> tick_ok dm st k) ->
  exists s, next_state dm dur q st time_act = Ok s.
Proof.
  intros dm dur q st W H. destruct (wf_sep _ W) as [_ [_ [_ [_ [NO _]]]]].
  unfold next_state, update_pause, update_resume, update_start, update_dummy, update_time, time_act.
  cbn [a_kind bind a_tp]. unfold tick.
  assert (PK : forall k, In k (s_ongoing st) -> In k (dkeys (s_progress st))).
  { intros k I. apply (wf_prog _ W). apply in_app_iff. auto. }
  destruct (update_progress_ok dm st (s_ongoing st) (s_progress st)) as [pr P].
  { intros k I. destruct (H k I) as [m [c [d [h [z [A1 [A2 [A3 _]]]]]]]]. split; [eauto|]. split; eauto. }
  rewrite P. cbn [bind].
  destruct (update_progress_spec _ _ _ _ _ NO P) as [PR _].
  destruct (update_res_ok dm (s_ongoing st) (w_progress pr st) NO) as [s1 R]; [exact H|].
  rewrite R. cbn [bind].
  destruct (update_res_spec _ _ _ _ R) as [h [u [-> [A1 [A2 [A3 [A4 A5]]]]]]].
  unfold update_complete. cbn [s_ongoing s_progress w_held w_used w_progress].
  destruct (scan_complete_ok (s_ongoing st) pr) as [[c pr2] S]; [rewrite PR; auto|].
  rewrite S. cbn [bind fst snd].
  destruct (scan_complete_spec _ _ _ _ NO S) as [_ [NC [IC _]]].
  cbn [s_held s_used w_progress] in A1, A2, A4.
  destruct (complete_all_ok dm c (w_progress pr2 (w_held h (w_used u (w_progress pr st))))) as [s3 C]; auto;
    cbn [s_ongoing s_details s_held s_used w_held w_used w_progress].
  - intros k I. apply IC in I. destruct (H k I) as [m [c' [d [h0 [z [B1 [B2 [B3 [B4 [B5 [B6 B7]]]]]]]]]]].
    split; auto. split; eauto.
    assert (KH : In k (dkeys h)) by (rewrite A1; eapply dget_key; eauto).
    apply key_dget in KH. destruct KH as [h1 KH]. exists h1. split; auto.
    destruct (A4 _ _ KH) as [h0' [E1 E2]]. rewrite B5 in E1. injection E1 as <-.
    intros r J. rewrite E2 in J. destruct (B7 r J) as [X Y]. split; auto. now rewrite A2.
  - rewrite A1. apply (wf_held_nd _ W).
  - rewrite C. cbn [bind]. eauto.
Qed.
