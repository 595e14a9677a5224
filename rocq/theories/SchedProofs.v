(** Invariants of the scheduling domain model (SchedModel.v). *)
From Coq Require Import List Bool Arith ZArith QArith Lia Permutation.
From Coq Require Import ZifyBool.
From Verif Require Import Py SchedModel.
Import ListNotations.
Open Scope Z_scope.

(** * Monadic inversion and dictionaries *)

Lemma dgetE_ok : forall K V (E : PyEq K) (d : list (K * V)) k v, dgetE d k = Ok v <-> dget d k = Some v.
Proof.
  intros K V E d k v. unfold dgetE. destruct (dget d k); split; intros H; congruence.
Qed.

Ltac mon :=
  repeat match goal with
  | H : bind _ _ = Ok _ |- _ => apply bind_ok in H; destruct H as [? [? H]]
  | H : dgetE _ _ = Ok _ |- _ => rewrite dgetE_ok in H
  | H : Ok _ = Ok _ |- _ => injection H; clear H; intros; subst
  | H : Err _ = Ok _ |- _ => discriminate H
  end.

Lemma set_remove_ok : forall x l l', set_remove x l = Ok l' -> In x l /\ l' = pyremove x l.
Proof.
  intros x l l' H. unfold set_remove in H.
  destruct (pymem x l) eqn:E; [|discriminate]. injection H as <-.
  split; auto. now apply (proj1 (pymem_true x l)).
Qed.

Lemma set_remove_in : forall x l, In x l -> set_remove x l = Ok (pyremove x l).
Proof.
  intros x l H. unfold set_remove. now rewrite (proj2 (pymem_true x l) H).
Qed.

Lemma set_add_fresh : forall x l, ~ In x l -> set_add x l = l ++ [x].
Proof.
  intros x l H. unfold set_add. now rewrite (proj2 (pymem_false x l) H).
Qed.

Lemma set_add_In : forall x l y, In y (set_add x l) <-> y = x \/ In y l.
Proof.
  intros x l y. unfold set_add. destruct (pymem x l) eqn:E.
  - split; auto. intros [ -> |]; auto. now apply (proj1 (pymem_true x l)).
  - rewrite in_app_iff. simpl. intuition.
Qed.

Lemma set_add_NoDup : forall x l, NoDup l -> NoDup (set_add x l).
Proof.
  intros x l H. unfold set_add. destruct (pymem x l) eqn:E; auto.
  apply (proj1 (pymem_false x l)) in E.
  apply (Permutation_NoDup (Permutation_cons_append l x)). constructor; auto.
Qed.

Lemma pyremove_perm : forall x (l : list nat), In x l -> Permutation l (x :: pyremove x l).
Proof.
  induction l as [|y l IH]; simpl; intros H; [contradiction|].
  destruct (Nat.eqb_spec x y); [now subst|].
  destruct H as [H|H]; [congruence|].
  rewrite (IH H) at 1. constructor.
Qed.

Lemma pyremove_app_fresh : forall x (l : list nat), ~ In x l -> pyremove x (l ++ [x]) = l.
Proof.
  induction l as [|y l IH]; simpl; intros H.
  - now rewrite Nat.eqb_refl.
  - destruct (Nat.eqb_spec x y); [exfalso; auto|]. f_equal; auto.
Qed.

Lemma ddel_dset_fresh : forall V (d : list (nat * V)) k v, ~ In k (dkeys d) -> ddel (dset d k v) k = d.
Proof.
  induction d as [|[k' v'] d IH]; simpl; intros k v H.
  - now rewrite Nat.eqb_refl.
  - destruct (Nat.eqb_spec k k'); [exfalso; auto|]. simpl.
    destruct (Nat.eqb_spec k k'); [contradiction|]. f_equal; auto.
Qed.

Lemma dset_dset : forall V (d : list (nat * V)) k v w, dset (dset d k v) k w = dset d k w.
Proof.
  induction d as [|[k' v'] d IH]; simpl; intros k v w.
  - now rewrite Nat.eqb_refl.
  - destruct (Nat.eqb_spec k k'); simpl.
    + now rewrite Nat.eqb_refl.
    + destruct (Nat.eqb_spec k k'); [contradiction|]. f_equal; auto.
Qed.

Lemma dget_key : forall V (d : list (nat * V)) k v, dget d k = Some v -> In k (dkeys d).
Proof.
  intros V d k v H. apply dget_In in H. apply in_map_iff. exists (k, v); auto.
Qed.

Lemma key_dget : forall V (d : list (nat * V)) k, In k (dkeys d) -> exists v, dget d k = Some v.
Proof.
  intros V d k H. destruct (dget d k) eqn:E; eauto.
  apply dget_None in E. contradiction.
Qed.

(** * Quantities *)

(** The quantity of resource [r] in a dictionary (0 when absent). *)
Definition qty (d : list (nat * Z)) (r : nat) : Z := match dget d r with Some q => q | None => 0 end.

(** Sum over all tasks of what they hold of [r]. *)
Definition heldsum (h : list (nat * list (nat * Z))) (r : nat) : Z :=
  sumZ (map (fun e => qty (snd e) r) h).

Lemma qty_dset : forall d k v r, qty (dset d k v) r = if Nat.eqb k r then v else qty d r.
Proof.
  intros d k v r. unfold qty. rewrite dget_dset. simpl. destruct (Nat.eqb k r); auto.
Qed.

Lemma heldsum_dset : forall h k d r,
  heldsum (dset h k d) r = heldsum h r - (match dget h k with Some d0 => qty d0 r | None => 0 end) + qty d r.
Proof.
  induction h as [|[k' d'] h IH]; intros k d r; unfold heldsum in *; simpl.
  - lia.
  - destruct (Nat.eqb_spec k k'); simpl; [lia|]. rewrite IH. lia.
Qed.

Lemma heldsum_ddel : forall h k r,
  heldsum (ddel h k) r = heldsum h r - (match dget h k with Some d0 => qty d0 r | None => 0 end).
Proof.
  induction h as [|[k' d'] h IH]; intros k r; unfold heldsum in *; simpl.
  - lia.
  - destruct (Nat.eqb_spec k k'); simpl; [lia|]. rewrite IH. lia.
Qed.

Lemma add_used_spec : forall rtu u u', NoDup (dkeys rtu) -> add_used rtu u = Ok u' ->
  dkeys u' = dkeys u /\ (forall r, qty u' r = qty u r + qty rtu r) /\ incl (dkeys rtu) (dkeys u).
Proof.
  induction rtu as [|[r0 q] l IH]; simpl; intros u u' N H; mon.
  - split; auto. split; [intros; unfold qty; simpl; lia|]. intros x [].
  - inversion N; subst. destruct (IH _ _ H4 H) as [K [Q I]].
    pose proof (dget_key _ _ _ _ H0) as K0.
    rewrite (dset_keys_present _ _ _ K0) in K, I.
    split; [assumption|]. split; [|intros y [ <- |Hy]; auto].
    intros r. rewrite Q, qty_dset.
    assert (qty ((r0, q) :: l) r = if Nat.eqb r r0 then q else qty l r) as ->.
    { unfold qty. simpl. destruct (Nat.eqb r r0); auto. }
    destruct (Nat.eqb_spec r0 r), (Nat.eqb_spec r r0); try congruence; try lia.
    subst. unfold qty at 1 2. rewrite H0.
    assert (dget l r = None) as -> by (apply dget_None; assumption). lia.
Qed.

(** Signed part of a dictionary given back, for a Boolean choice per resource. *)
Lemma complete_release_spec : forall dm h u u', NoDup (dkeys h) -> complete_release dm h u = Ok u' ->
  dkeys u' = dkeys u /\
  forall r, (is_renewable dm r = Ok true -> qty u' r = qty u r - qty h r) /\
            (is_renewable dm r = Ok false -> qty u' r = qty u r) /\
            (In r (dkeys h) -> exists b, is_renewable dm r = Ok b).
Proof.
  intros dm. induction h as [|[r0 q] l IH]; simpl; intros u u' N H.
  - mon. split; auto. intros r. unfold qty at 3. simpl. split; [lia|split; [auto|intros []]].
  - apply bind_ok in H. destruct H as [b [B H]]. inversion N; subst.
    assert (Hq : forall r, qty ((r0, q) :: l) r = if Nat.eqb r r0 then q else qty l r).
    { intros r. unfold qty. simpl. destruct (Nat.eqb r r0); auto. }
    assert (Hl : qty l r0 = 0).
    { unfold qty. assert (dget l r0 = None) as -> by (apply dget_None; assumption). auto. }
    destruct b.
    + apply bind_ok in H. destruct H as [v [Hv H]]. rewrite dgetE_ok in Hv.
      destruct (IH _ _ H3 H) as [K Q]. rewrite (dset_keys_present _ _ _ (dget_key _ _ _ _ Hv)) in K.
      split; auto. intros r. destruct (Q r) as [Q1 [Q2 Q3]]. rewrite Hq.
      rewrite qty_dset in Q1, Q2.
      destruct (Nat.eqb_spec r0 r), (Nat.eqb_spec r r0); try congruence.
      * subst. split; [|split; [congruence|eauto]]. intros E. rewrite Q1 by auto.
        unfold qty at 2. rewrite Hv. rewrite Hl. lia.
      * split; [auto|split; [auto|]]. intros [E|E]; [congruence|auto].
    + destruct (IH _ _ H3 H) as [K Q]. split; auto. intros r. destruct (Q r) as [Q1 [Q2 Q3]]. rewrite Hq.
      destruct (Nat.eqb_spec r r0).
      * subst. split; [congruence|split; [auto|eauto]].
      * split; [auto|split; [auto|]]. intros [E|E]; [congruence|auto].
Qed.

Lemma pause_release_spec : forall dm h u u', NoDup (dkeys h) -> pause_release dm h u = Ok u' ->
  dkeys u' = dkeys u /\
  forall r, (is_renewable dm r = Ok true -> qty u' r = qty u r - qty h r) /\
            (is_renewable dm r = Ok false ->
               (In r (dkeys h) -> exists b, dget (d_paused_ret dm) (KRes r) = Some b) /\
               qty u' r = qty u r - (if (match dget (d_paused_ret dm) (KRes r) with
                                         | Some b => b | None => false end) then qty h r else 0)) /\
            (In r (dkeys h) -> exists b, is_renewable dm r = Ok b).
Proof.
  intros dm. induction h as [|[r0 q] l IH]; simpl; intros u u' N H.
  - mon. split; auto. intros r. unfold qty at 3 6. simpl.
    split; [lia|split; [intros _; split; [tauto|]|intros []]].
    destruct (match dget (d_paused_ret dm) (KRes r) with Some b => b | None => false end); lia.
  - apply bind_ok in H. destruct H as [b [B H]]. apply bind_ok in H. destruct H as [g [G H]].
    inversion N; subst.
    assert (Hq : forall r, qty ((r0, q) :: l) r = if Nat.eqb r r0 then q else qty l r).
    { intros r. unfold qty. simpl. destruct (Nat.eqb r r0); auto. }
    assert (Hl : qty l r0 = 0).
    { unfold qty. assert (dget l r0 = None) as -> by (apply dget_None; assumption). auto. }
    destruct g.
    + apply bind_ok in H. destruct H as [v [Hv H]]. rewrite dgetE_ok in Hv.
      destruct (IH _ _ H3 H) as [K Q]. rewrite (dset_keys_present _ _ _ (dget_key _ _ _ _ Hv)) in K.
      split; auto. intros r. destruct (Q r) as [Q1 [Q2 Q3]]. rewrite Hq.
      rewrite qty_dset in Q1, Q2.
      destruct (Nat.eqb_spec r0 r), (Nat.eqb_spec r r0); try congruence.
      * subst. split; [|split; [|eauto]].
        -- intros E. rewrite Q1 by auto. unfold qty at 2. rewrite Hv. rewrite Hl. lia.
        -- intros E. rewrite E in B. injection B as <-. rewrite dgetE_ok in G. split; [eauto|].
           destruct (Q2 E) as [_ Q2']. rewrite Q2', G, Hl. unfold qty. rewrite Hv. lia.
      * split; [auto|split; [|intros [E|E]; [congruence|auto]]]. intros E.
        destruct (Q2 E). split; auto. intros [E2|E2]; [congruence|auto].
    + destruct (IH _ _ H3 H) as [K Q]. split; auto. intros r. destruct (Q r) as [Q1 [Q2 Q3]]. rewrite Hq.
      destruct b; [discriminate|]. rewrite dgetE_ok in G.
      destruct (Nat.eqb_spec r r0).
      * subst. split; [congruence|split; [|eauto]]. intros E. split; [eauto|].
        destruct (Q2 E) as [_ Q2']. rewrite Q2', G. auto.
      * split; [auto|split; [|intros [E|E]; [congruence|auto]]]. intros E.
        destruct (Q2 E). split; auto. intros [E2|E2]; [congruence|auto].
Qed.

Lemma rebook_spec : forall rtu h u h' u', rebook rtu h u = Ok (h', u') ->
  dkeys u' = dkeys u /\ dkeys h' = dkeys h /\
  forall r, qty u' r - qty h' r = qty u r - qty h r.
Proof.
  induction rtu as [|[r0 q] l IH]; simpl; intros h u h' u' H; mon; auto.
  destruct (IH _ _ _ _ H) as [K1 [K2 Q]].
  rewrite (dset_keys_present _ _ _ (dget_key _ _ _ _ H0)) in K2.
  rewrite (dset_keys_present _ _ _ (dget_key _ _ _ _ H1)) in K1.
  split; auto. split; auto. intros r. rewrite Q, !qty_dset.
  destruct (Nat.eqb_spec r0 r); auto. subst. unfold qty. rewrite H0, H1. lia.
Qed.

Lemma rebook_qty : forall rtu h u h' u', NoDup (dkeys rtu) -> rebook rtu h u = Ok (h', u') ->
  forall r, qty h' r = match dget rtu r with Some q => q | None => qty h r end.
Proof.
  induction rtu as [|[r0 q] l IH]; simpl; intros h u h' u' N H r; mon; auto.
  inversion N; subst. rewrite (IH _ _ _ _ H5 H). rewrite qty_dset.
  destruct (Nat.eqb_spec r r0), (Nat.eqb_spec r0 r); try congruence.
  subst. assert (dget l r0 = None) as -> by (apply dget_None; assumption). auto.
Qed.

(** [get_resource_used] *)
Lemma types_used_spec : forall dm task mode time types acc d,
  types_used dm task mode time types acc = Ok d -> NoDup (dkeys acc) ->
  NoDup (dkeys d) /\
  (forall r, In r (dkeys d) <-> In r types \/ In r (dkeys acc)) /\
  forall r q, dget d r = Some q ->
    (~ In r types /\ dget acc r = Some q) \/
    (In r types /\ exists c, get_mode dm task mode = Ok c /\ need_at c r time = Ok q).
Proof.
  intros dm task mode time. induction types as [|r0 l IH]; simpl; intros acc d H N; mon.
  - split; auto. split; [tauto|]. intros r q H. left; auto.
  - destruct (IH _ _ H (NoDup_dset _ _ _ N)) as [N' [K Q]]. split; auto. split.
    + intros r. rewrite K, dkeys_dset. intuition.
    + intros r q Hq. destruct (Q _ _ Hq) as [[A B]|[A B]].
      * rewrite dget_dset in B. simpl in B. destruct (Nat.eqb_spec r0 r).
        -- subst. right. injection B as <-. split; auto. eauto.
        -- left. split; auto. intros [E|E]; auto.
      * right. auto.
Qed.

Lemma get_resource_used_spec : forall dm task mode units time d,
  get_resource_used dm task mode units time = Ok d ->
  NoDup (dkeys d) /\
  (forall r, In r (dkeys d) <-> In r (d_types dm) \/ In r (match units with Some u => u | None => [] end)) /\
  (forall r q, dget d r = Some q ->
     if pymem r (match units with Some u => u | None => [] end) then q = 1
     else exists c, get_mode dm task mode = Ok c /\ need_at c r time = Ok q).
Proof.
  intros dm task mode units time d H. unfold get_resource_used in H. mon.
  destruct (types_used_spec _ _ _ _ _ _ _ H0 (NoDup_nil _)) as [N [K Q]].
  set (us := match units with Some u => u | None => [] end). clearbody us. clear H0.
  assert (G : forall d0, NoDup (dkeys d0) ->
     let d' := fold_left (fun d u => dset d u 1) us d0 in
     NoDup (dkeys d') /\ (forall r, In r (dkeys d') <-> In r (dkeys d0) \/ In r us) /\
     forall r, dget d' r = if pymem r us then Some 1 else dget d0 r).
  { clear. induction us as [|u us IH]; simpl; intros d0 N.
    - split; auto. split; [tauto|]. auto.
    - destruct (IH (dset d0 u 1) (NoDup_dset _ _ _ N)) as [N' [K' Q']].
      split; auto. split.
      + intros r. rewrite K', dkeys_dset. intuition.
      + intros r. rewrite Q'. rewrite dget_dset. unfold pymem. simpl.
        destruct (existsb (Nat.eqb r) us); [now rewrite orb_true_r|]. rewrite orb_false_r.
        rewrite (Nat.eqb_sym u r). auto. }
  destruct (G x N) as [N' [K' Q']]. split; auto. split.
  - intros r. rewrite K', K. simpl. intuition.
  - intros r q Hq. rewrite Q' in Hq. destruct (pymem r us).
    + congruence.
    + destruct (Q _ _ Hq) as [[A B]|[A B]]; [discriminate|auto].
Qed.

Lemma can_start_ok : forall dm st a b rtu, can_start dm st a = Ok (b, rtu) ->
  exists task mode k time, a_task a = Some task /\ a_mode a = Some mode /\
    dget (s_details st) task = Some k /\ active_time k (s_t st) = Ok time /\
    get_resource_used dm task mode (a_units a) time = Ok rtu /\
    (b = true -> enough st rtu = Ok true).
Proof.
  intros dm st a b rtu H. unfold can_start in H. mon. unfold act_task in H0. unfold act_mode in H2.
  destruct (a_task a) as [task|]; [|discriminate]. destruct (a_mode a) as [mode|]; [|discriminate].
  injection H0 as <-. injection H2 as <-. exists task, mode, x0, x2. repeat split; auto.
  - destruct x4; mon; auto.
  - destruct x4; mon; auto. discriminate.
Qed.

(** * The shape of a transition *)

(** All tasks that have a status. *)
Definition all_of (st : state) : list nat :=
  s_remaining st ++ s_ongoing st ++ s_complete st ++ s_paused st.

Record WF (st : state) : Prop := {
  wf_nodup : NoDup (all_of st);
  wf_prog : forall x, In x (dkeys (s_progress st)) <-> In x (s_ongoing st ++ s_complete st ++ s_paused st);
  wf_held_nd : NoDup (dkeys (s_held st));
  wf_held_ong : incl (dkeys (s_held st)) (s_ongoing st);
  wf_held_in : forall k h, dget (s_held st) k = Some h -> NoDup (dkeys h);
  wf_dur : forall k, In k (s_ongoing st) \/ In k (s_paused st) ->
             exists d dur, dget (s_details st) k = Some d /\ tk_dur d = Some dur /\ dur <> 0 }.

Definition st_pause (st : state) (task : nat) (k : task_rec) (u : list (nat * Z)) : state :=
  mkState (s_t st) (s_remaining st) (pyremove task (s_ongoing st)) (s_complete st) (s_paused st ++ [task])
    (s_progress st) (s_mode st) (s_avail st) u (ddel (s_held st) task)
    (dset (s_details st) task
       (mkTask (tk_start k) (tk_end k) (tk_dur k) (tk_paused k ++ [s_t st]) (tk_resumed k) (tk_resources k)))
    (s_conds st).

Definition st_resume (st : state) (task : nat) (k : task_rec) (u : list (nat * Z))
           (h : list (nat * list (nat * Z))) : state :=
  mkState (s_t st) (s_remaining st) (s_ongoing st ++ [task]) (s_complete st) (pyremove task (s_paused st))
    (s_progress st) (s_mode st) (s_avail st) u h
    (dset (s_details st) task
       (mkTask (tk_start k) (tk_end k) (tk_dur k) (tk_paused k) (tk_resumed k ++ [s_t st]) (tk_resources k)))
    (s_conds st).

Definition st_start (st : state) (task mode : nat) (k : task_rec) (rtu u : list (nat * Z)) (dur : Z) : state :=
  mkState (s_t st) (pyremove task (s_remaining st)) (s_ongoing st ++ [task]) (s_complete st) (s_paused st)
    (dset (s_progress st) task 0%Q) (dset (s_mode st) task mode) (s_avail st) u
    (dset (s_held st) task rtu)
    (dset (s_details st) task
       (mkTask (Some (s_t st)) (tk_end k) (Some dur) (tk_paused k) (tk_resumed k) rtu))
    (s_conds st).

Definition st_dummy (st : state) (task mode : nat) (k : task_rec) (rtu u : list (nat * Z)) : state :=
  mkState (s_t st) (pyremove task (s_remaining st)) (s_ongoing st) (s_complete st ++ [task]) (s_paused st)
    (dset (s_progress st) task 1%Q) (dset (s_mode st) task mode) (s_avail st) u
    (s_held st)
    (dset (s_details st) task
       (mkTask (Some (s_t st)) (Some (s_t st)) (Some 0) (tk_paused k) (tk_resumed k) rtu))
    (s_conds st).

Inductive phase (dm : domain) (dur : Z) (st : state) (a : action) : state -> Prop :=
| ph_none : (a_kind a = TIME_PR \/
             (a_kind a = START /\ exists rtu, can_start dm st a = Ok (false, rtu))) -> phase dm dur st a st
| ph_pause : forall task k h u,
    a_kind a = PAUSE -> a_task a = Some task -> In task (s_ongoing st) ->
    dget (s_details st) task = Some k -> dget (s_held st) task = Some h ->
    pause_release dm h (s_used st) = Ok u -> phase dm dur st a (st_pause st task k u)
| ph_resume : forall task mode k time rtu u,
    a_kind a = RESUME -> a_task a = Some task -> a_mode a = Some mode -> In task (s_paused st) ->
    dget (s_details st) task = Some k ->
    get_resource_used dm task mode (a_units a) time = Ok rtu -> enough st rtu = Ok true ->
    add_used rtu (s_used st) = Ok u ->
    phase dm dur st a (st_resume st task k u (dset (s_held st) task rtu))
| ph_resume_fail : forall task k,
    a_kind a = RESUME -> a_task a = Some task -> In task (s_paused st) ->
    dget (s_details st) task = Some k ->
    phase dm dur st a (st_resume st task k (s_used st) (s_held st))
| ph_start : forall task mode k time rtu u,
    a_kind a = START -> a_task a = Some task -> a_mode a = Some mode -> In task (s_remaining st) ->
    dget (s_details st) task = Some k -> active_time k (s_t st) = Ok time ->
    get_resource_used dm task mode (a_units a) time = Ok rtu -> enough st rtu = Ok true ->
    add_used rtu (s_used st) = Ok u -> dur <> 0 ->
    phase dm dur st a (st_start st task mode k rtu u dur)
| ph_dummy : forall task mode k time rtu u,
    a_kind a = START -> a_task a = Some task -> a_mode a = Some mode -> In task (s_remaining st) ->
    dget (s_details st) task = Some k -> active_time k (s_t st) = Ok time ->
    get_resource_used dm task mode (a_units a) time = Ok rtu -> enough st rtu = Ok true ->
    add_used rtu (s_used st) = Ok u -> dur = 0 ->
    phase dm dur st a (st_dummy st task mode k rtu u).

Lemma app_disj : forall (l1 l2 : list nat) x, NoDup (l1 ++ l2) -> In x l1 -> ~ In x l2.
Proof.
  induction l1 as [|y l1 IH]; simpl; intros l2 x N I J; [contradiction|].
  inversion N; subst. destruct I as [ -> |I]; [|eapply IH; eauto].
  apply H1. apply in_app_iff. auto.
Qed.

Lemma NoDup_app_l : forall (l1 l2 : list nat), NoDup (l1 ++ l2) -> NoDup l1.
Proof.
  induction l1 as [|y l1 IH]; simpl; intros l2 N; constructor; inversion N; subst.
  - intros I. apply H1. apply in_app_iff; auto.
  - eauto.
Qed.

Lemma NoDup_app_r : forall (l1 l2 : list nat), NoDup (l1 ++ l2) -> NoDup l2.
Proof. induction l1; simpl; intros l2 N; auto. inversion N; auto. Qed.

Lemma wf_sep : forall st, WF st ->
  (forall x, In x (s_remaining st) -> ~ In x (s_ongoing st) /\ ~ In x (s_complete st) /\ ~ In x (s_paused st)) /\
  (forall x, In x (s_ongoing st) -> ~ In x (s_complete st) /\ ~ In x (s_paused st)) /\
  (forall x, In x (s_complete st) -> ~ In x (s_paused st)) /\
  NoDup (s_remaining st) /\ NoDup (s_ongoing st) /\ NoDup (s_complete st) /\ NoDup (s_paused st).
Proof.
  intros st W. pose proof (wf_nodup _ W) as N. unfold all_of in N.
  pose proof (NoDup_app_r _ _ N) as N1. pose proof (NoDup_app_r _ _ N1) as N2.
  split; [|split; [|split; [|split; [|split; [|split]]]]].
  - intros x I. pose proof (app_disj _ _ _ N I) as D. rewrite !in_app_iff in D. tauto.
  - intros x I. pose proof (app_disj _ _ _ N1 I) as D. rewrite !in_app_iff in D. tauto.
  - intros x I. exact (app_disj _ _ _ N2 I).
  - eapply NoDup_app_l; eauto.
  - eapply NoDup_app_l; eauto.
  - eapply NoDup_app_l; eauto.
  - eapply NoDup_app_r; eauto.
Qed.

Lemma phase_shape : forall dm dur st a s1 s2 s3 s4, WF st ->
  update_pause dm st a = Ok s1 -> update_resume dm s1 a = Ok s2 ->
  update_start dm dur s2 a = Ok s3 -> update_dummy s3 a = Ok s4 ->
  phase dm dur st a s4.
Proof.
  intros dm dur st a s1 s2 s3 s4 W P R T D.
  destruct (wf_sep _ W) as [D1 [D2 [D3 [N1 [N2 [N3 N4]]]]]].
  unfold update_pause, update_resume, update_start, update_dummy in *.
  destruct (a_kind a) eqn:K.
  - (* START *)
    injection P as <-. injection R as <-.
    apply bind_ok in T. destruct T as [[b rtu] [C T]]. cbn [fst snd] in T.
    destruct b.
    + destruct (can_start_ok _ _ _ _ _ C) as [task [mode [k [time [A1 [A2 [A3 [A4 [A5 A6]]]]]]]]].
      unfold act_task, act_mode in T, D. rewrite A1, A2 in *. cbn [bind] in T, D.
      unfold do_start in T. apply bind_ok in T. destruct T as [rem [T1 T]].
      apply set_remove_ok in T1. destruct T1 as [T1 ->].
      rewrite (proj2 (dgetE_ok _ _ _ _ _ _) A3) in T. cbn [bind] in T.
      apply bind_ok in T. destruct T as [u [T2 T]]. injection T as <-.
      destruct (D1 _ T1) as [E1 [E2 E3]].
      cbn [s_details s_ongoing s_held s_t s_remaining s_complete s_paused s_progress s_mode s_avail s_used s_conds] in D.
      unfold dgetE at 1 in D. rewrite dget_dset_same in D. cbn [bind tk_dur] in D.
      rewrite (set_add_fresh _ _ E1) in D.
      destruct (Z.eq_dec dur 0) as [ -> |ND].
      * rewrite (set_remove_in task (s_ongoing st ++ [task])) in D by (apply in_app_iff; simpl; auto).
        rewrite (pyremove_app_fresh _ _ E1), (set_add_fresh _ _ E2) in D. cbn [bind] in D.
        unfold dgetE in D. rewrite dget_dset_same in D. cbn [bind] in D.
        rewrite !dset_dset in D. cbn [tk_start tk_paused tk_resumed tk_resources] in D.
        rewrite ddel_dset_fresh in D
          by (intros I; apply (wf_held_ong _ W) in I; contradiction).
        injection D as <-.
        exact (ph_dummy dm 0 st a task mode k time rtu u K A1 A2 T1 A3 A4 A5 (A6 eq_refl) T2 eq_refl).
      * destruct dur; [contradiction| |]; injection D as <-;
          exact (ph_start dm _ st a task mode k time rtu u K A1 A2 T1 A3 A4 A5 (A6 eq_refl) T2 ND).
    + injection T as <-.
      assert (s4 = st) as ->; [|apply ph_none; right; eauto].
      apply bind_ok in D. destruct D as [task [A1 D]].
      apply bind_ok in D. destruct D as [d [A2 D]]. rewrite dgetE_ok in A2.
      destruct (tk_dur d) as [[| |]|] eqn:E; try (injection D as <-; reflexivity).
      apply bind_ok in D. destruct D as [og [A3 D]]. apply set_remove_ok in A3. destruct A3 as [A3 _].
      destruct (wf_dur _ W task (or_introl A3)) as [d' [dur' [B1 [B2 B3]]]].
      rewrite A2 in B1. injection B1 as <-. rewrite E in B2. injection B2 as <-. contradiction.
  - (* PAUSE *)
    injection R as <-. injection T as <-. injection D as <-. mon.
    unfold act_task in H. destruct (a_task a) as [task|] eqn:A; [|discriminate]. injection H as <-.
    apply set_remove_ok in H0. destruct H0 as [I ->].
    rewrite set_add_fresh by (apply D2; assumption).
    exact (ph_pause dm dur st a task x3 x1 x2 K A I H3 H1 H2).
  - (* RESUME *)
    injection P as <-. injection T as <-. injection D as <-.
    apply bind_ok in R. destruct R as [task [A R]].
    unfold act_task in A. destruct (a_task a) as [tk|] eqn:A0; [|discriminate]. injection A as ->.
    apply bind_ok in R. destruct R as [pa [T1 R]]. apply set_remove_ok in T1. destruct T1 as [T1 ->].
    apply bind_ok in R. destruct R as [k [T2 R]]. rewrite dgetE_ok in T2.
    assert (F : ~ In task (s_ongoing st)) by (intros I; apply D2 in I; tauto).
    rewrite (set_add_fresh _ _ F) in R.
    apply bind_ok in R. destruct R as [[b rtu] [C R]]. cbn [fst snd] in R.
    destruct b.
    + destruct (can_start_ok _ _ _ _ _ C) as [task' [mode [k' [time [A1 [A2 [A3 [A4 [A5 A6]]]]]]]]].
      rewrite A0 in A1. injection A1 as <-.
      apply bind_ok in R. destruct R as [u [U R]]. injection R as <-. cbn [s_used] in U.
      exact (ph_resume dm dur st a task mode k time rtu u K A0 A2 T1 T2 A5 (A6 eq_refl) U).
    + injection R as <-. exact (ph_resume_fail dm dur st a task k K A0 T1 T2).
  - injection P as <-. injection R as <-. injection T as <-. injection D as <-. apply ph_none. auto.
Qed.

Ltac proj := cbn [s_t s_remaining s_ongoing s_complete s_paused s_progress s_mode s_avail s_used s_held
                  s_details s_conds st_pause st_resume st_start st_dummy all_of
                  w_t w_remaining w_ongoing w_complete w_paused w_progress w_mode w_avail w_used w_held
                  w_details w_conds] in *.

Lemma count_perm : forall (l1 l2 : list nat), (forall z, count_occ Nat.eq_dec l1 z = count_occ Nat.eq_dec l2 z) ->
  Permutation l1 l2.
Proof. intros l1 l2 H. now apply (Permutation_count_occ Nat.eq_dec). Qed.

Lemma count_remove : forall x l z, In x l ->
  count_occ Nat.eq_dec l z = ((if Nat.eq_dec x z then 1 else 0) + count_occ Nat.eq_dec (pyremove x l) z)%nat.
Proof.
  intros x l z I. pose proof (pyremove_perm x l I) as P.
  apply (Permutation_count_occ Nat.eq_dec) with (x := z) in P. rewrite P. simpl.
  destruct (Nat.eq_dec x z); auto.
Qed.

(** In every phase each task keeps having a status. *)
Lemma phase_perm : forall dm dur st a s, WF st -> phase dm dur st a s ->
  Permutation (all_of s) (all_of st).
Proof.
  intros dm dur st a s W P. destruct P; unfold all_of; proj; try apply Permutation_refl;
    apply count_perm; intros z; rewrite !count_occ_app;
    try rewrite (count_remove task (s_ongoing st) z) by assumption;
    try rewrite (count_remove task (s_paused st) z) by assumption;
    try rewrite (count_remove task (s_remaining st) z) by assumption;
    simpl; destruct (Nat.eq_dec task z); lia.
Qed.

Lemma WF_all : forall st, WF st -> forall x, In x (all_of st) <->
  In x (s_remaining st) \/ In x (s_ongoing st) \/ In x (s_complete st) \/ In x (s_paused st).
Proof. intros st W x. unfold all_of. rewrite !in_app_iff. tauto. Qed.

Lemma phase_WF : forall dm dur st a s, WF st -> phase dm dur st a s -> WF s.
Proof.
  intros dm dur st a s W P. pose proof (phase_perm _ _ _ _ _ W P) as PM.
  destruct (wf_sep _ W) as [D1 [D2 [D3 [N1 [N2 [N3 N4]]]]]].
  assert (ND : NoDup (all_of s)) by (eapply Permutation_NoDup; [symmetry; exact PM|apply (wf_nodup _ W)]).
  assert (WP : forall x, In x (dkeys (s_progress st)) <->
     (In x (s_ongoing st) \/ In x (s_complete st) \/ In x (s_paused st))).
  { intros x. rewrite (wf_prog _ W x), !in_app_iff. tauto. }
  pose proof (wf_held_nd _ W) as WH. pose proof (wf_held_ong _ W) as WO.
  pose proof (wf_held_in _ W) as WI. pose proof (wf_dur _ W) as WD.
  destruct P; [exact W|..]; constructor; try assumption; proj.
  - (* pause *)
    intros x. rewrite WP, !in_app_iff, pyremove_In by assumption. simpl.
    destruct (Nat.eq_dec x task); [subst; tauto|]. intuition congruence.
  - apply NoDup_ddel; assumption.
  - intros x I. apply dkeys_ddel in I; [|assumption]. destruct I as [I1 I2].
    apply pyremove_In; auto.
  - intros x h0 E. destruct (Nat.eq_dec task x).
    + subst. rewrite dget_ddel_same in E by assumption. discriminate.
    + rewrite dget_ddel_other in E by assumption. eauto.
  - intros x I. rewrite in_app_iff in I. simpl in I. rewrite dget_dset. simpl.
    destruct (Nat.eqb_spec task x).
    + destruct (WD task (or_introl H1)) as [d [du [E1 [E2 E3]]]].
      rewrite H2 in E1. injection E1 as <-.
      eexists. exists du. split; [reflexivity|]. auto.
    + apply WD. destruct I as [I|[I|[I|[]]]]; auto; [left; eapply pyremove_incl; eauto|congruence].
  - (* resume *)
    intros x. rewrite WP, !in_app_iff, pyremove_In by assumption. simpl.
    destruct (Nat.eq_dec x task); [subst; tauto|]. intuition congruence.
  - apply NoDup_dset; assumption.
  - intros x I. apply dkeys_dset in I. apply in_app_iff. simpl. destruct I as [ -> |I]; auto.
  - intros x h0 E. rewrite dget_dset in E. simpl in E. destruct (Nat.eqb task x).
    + injection E as <-. eapply get_resource_used_spec; eauto.
    + eauto.
  - intros x I. rewrite in_app_iff in I. simpl in I. rewrite dget_dset. simpl.
    destruct (Nat.eqb_spec task x).
    + destruct (WD task (or_intror H2)) as [d [du [E1 [E2 E3]]]].
      rewrite H3 in E1. injection E1 as <-.
      eexists. exists du. split; [reflexivity|]. auto.
    + apply WD. destruct I as [[I|[I|[]]]|I]; auto; [congruence|right; eapply pyremove_incl; eauto].
  - (* failed resume *)
    intros x. rewrite WP, !in_app_iff, pyremove_In by assumption. simpl.
    destruct (Nat.eq_dec x task); [subst; tauto|]. intuition congruence.
  - intros x I. apply in_app_iff. auto.
  - intros x I. rewrite in_app_iff in I. simpl in I. rewrite dget_dset. simpl.
    destruct (Nat.eqb_spec task x).
    + destruct (WD task (or_intror H1)) as [d [du [E1 [E2 E3]]]].
      rewrite H2 in E1. injection E1 as <-.
      eexists. exists du. split; [reflexivity|]. auto.
    + apply WD. destruct I as [[I|[I|[]]]|I]; auto; [congruence|right; eapply pyremove_incl; eauto].
  - (* start *)
    intros x. rewrite dkeys_dset, WP, !in_app_iff. simpl. intuition.
  - apply NoDup_dset; assumption.
  - intros x I. apply dkeys_dset in I. apply in_app_iff. simpl. destruct I as [ -> |I]; auto.
  - intros x h0 E. rewrite dget_dset in E. simpl in E. destruct (Nat.eqb task x).
    + injection E as <-. eapply get_resource_used_spec; eauto.
    + eauto.
  - intros x I. rewrite in_app_iff in I. simpl in I. rewrite dget_dset. simpl.
    destruct (Nat.eqb_spec task x).
    + eexists. exists dur. split; [reflexivity|]. auto.
    + apply WD. destruct I as [[I|[I|[]]]|I]; auto; congruence.
  - (* dummy *)
    intros x. rewrite dkeys_dset, WP, !in_app_iff. simpl. intuition.
  - intros x I. rewrite dget_dset. simpl.
    destruct (Nat.eqb_spec task x); [|apply WD; auto].
    subst. destruct (D1 _ H2) as [E1 [E2 E3]]. tauto.
Qed.

(** * Time steps *)

Lemma update_progress_spec : forall dm st l pr pr', NoDup l -> update_progress dm st l pr = Ok pr' ->
  dkeys pr' = dkeys pr /\
  (forall k, ~ In k l -> dget pr' k = dget pr k) /\
  (forall k, In k l -> exists m d p, dget (s_mode st) k = Some m /\ dget (s_details st) k = Some d /\
      dget pr k = Some p /\
      dget pr' k = Some (p + d_progress dm k (s_t st) (s_t st + 1) m (tk_dur d))%Q).
Proof.
  intros dm st. induction l as [|k0 l IH]; cbn [update_progress]; intros pr pr' N H.
  - mon. split; auto. split; auto. intros k [].
  - mon. inversion N; subst. destruct (IH _ _ H6 H) as [K [O S]].
    rewrite (dset_keys_present _ _ _ (dget_key _ _ _ _ H2)) in K. split; auto. split.
    + intros k I. rewrite O by (simpl in I; tauto). apply dget_dset_other. simpl in I. intuition.
    + intros k [ <- |I].
      * exists x, x0, x1. repeat split; auto. rewrite O by assumption. apply dget_dset_same.
      * destruct (S k I) as [m [d [p [A1 [A2 [A3 A4]]]]]]. exists m, d, p. repeat split; auto.
        rewrite <- A3. symmetry. apply dget_dset_other. intros ->. contradiction.
Qed.

Lemma scan_complete_spec : forall l pr c pr', NoDup l -> scan_complete l pr = Ok (c, pr') ->
  dkeys pr' = dkeys pr /\ NoDup c /\ incl c l /\
  (forall k, ~ In k l -> dget pr' k = dget pr k) /\
  (forall k, In k l -> exists p, dget pr k = Some p /\
     ((In k c /\ Qle_bool (9999 # 10000) p = true /\ dget pr' k = Some 1%Q) \/
      (~ In k c /\ Qle_bool (9999 # 10000) p = false /\ dget pr' k = Some p))).
Proof.
  induction l as [|k0 l IH]; cbn [scan_complete]; intros pr c pr' N H.
  - mon. split; auto. split; [constructor|]. split; [intros x []|]. split; auto. intros k [].
  - apply bind_ok in H. destruct H as [p [Hp H]]. rewrite dgetE_ok in Hp. inversion N; subst.
    destruct (Qle_bool (9999 # 10000) p) eqn:E.
    + apply bind_ok in H. destruct H as [[c' pr''] [H0 H]]. cbn [fst snd] in H. injection H as <- <-.
      destruct (IH _ _ _ H3 H0) as [K [NC [IC [O S]]]].
      rewrite (dset_keys_present _ _ _ (dget_key _ _ _ _ Hp)) in K.
      split; [assumption|]. split; [constructor; auto|]. split; [intros x [ -> |I]; simpl; auto|].
      split.
      * intros k I. rewrite O by (simpl in I; tauto). apply dget_dset_other. simpl in I. intuition.
      * intros k [ <- |I].
        -- exists p. split; auto. left. split; [simpl; auto|]. split; auto.
           rewrite O by assumption. apply dget_dset_same.
        -- assert (k0 <> k) by (intros ->; contradiction).
           destruct (S k I) as [p' [A B]]. rewrite dget_dset_other in A by assumption.
           exists p'. split; auto. destruct B as [[B1 B2]|[B1 B2]]; [left|right]; split; simpl; auto.
           intros [ -> |C]; auto.
    + destruct (IH _ _ _ H3 H) as [K [NC [IC [O S]]]].
      split; [assumption|]. split; [assumption|]. split; [intros x I; simpl; auto|].
      split.
      * intros k I. apply O. simpl in I. tauto.
      * intros k [ <- |I]; [|auto]. exists p. split; auto. right. split; [intros I; apply IC in I; auto|].
        split; auto. rewrite O by assumption. assumption.
Qed.

(** What [update_res] may change: the bookings, keeping used - booked constant. *)
Lemma update_res_spec : forall dm l st s, update_res dm l st = Ok s ->
  exists h u, s = w_held h (w_used u st) /\ dkeys h = dkeys (s_held st) /\ dkeys u = dkeys (s_used st) /\
    (forall r, qty u r - heldsum h r = qty (s_used st) r - heldsum (s_held st) r) /\
    (forall k d, dget h k = Some d -> exists d0, dget (s_held st) k = Some d0 /\ dkeys d = dkeys d0) /\
    (forall k, In k l -> In k (dkeys (s_held st))).
Proof.
  intros dm. induction l as [|k l IH]; cbn [update_res]; intros st s H.
  - mon. exists (s_held s), (s_used s). destruct s; simpl. repeat split; auto.
    + eauto.
    + intros k [].
  - mon. destruct x4 as [ht u0]. cbn [fst snd] in H. rename H5 into RB. rename H3 into GR. rename H4 into H3.
    destruct (rebook_spec _ _ _ _ _ RB) as [K1 [K2 Q]].
    destruct (IH _ _ H) as [h [u [-> [A1 [A2 [A3 [A4 A5]]]]]]]. proj.
    pose proof (dget_key _ _ _ _ H3) as KH.
    rewrite (dset_keys_present _ _ _ KH) in A1, A5.
    exists h, u. split; [reflexivity|]. split; [assumption|]. split; [congruence|]. split; [|split].
    + intros r. rewrite A3, heldsum_dset, H3. specialize (Q r). lia.
    + intros k0 d E. destruct (A4 _ _ E) as [d0 [B1 B2]]. rewrite dget_dset in B1. simpl in B1.
      destruct (Nat.eqb_spec k k0); [|eauto]. subst. injection B1 as <-. exists x3. split; auto. congruence.
    + intros k0 [ <- |I]; auto.
Qed.

Definition st_complete (st : state) (k : nat) (d : task_rec) (u : list (nat * Z)) : state :=
  mkState (s_t st) (s_remaining st) (pyremove k (s_ongoing st)) (s_complete st ++ [k]) (s_paused st)
    (s_progress st) (s_mode st) (s_avail st) u (ddel (s_held st) k)
    (dset (s_details st) k
       (mkTask (tk_start d) (Some (s_t st + 1)) (tk_dur d) (tk_paused d) (tk_resumed d) (tk_resources d)))
    (s_conds st).

Lemma complete_one_shape : forall dm st k s, WF st -> complete_one dm st k = Ok s ->
  exists h u d, In k (s_ongoing st) /\ dget (s_held st) k = Some h /\
    complete_release dm h (s_used st) = Ok u /\ dget (s_details st) k = Some d /\ s = st_complete st k d u.
Proof.
  intros dm st k s W H. unfold complete_one in H. mon.
  apply set_remove_ok in H0. destruct H0 as [I ->].
  exists x0, x1, x2. repeat split; auto. unfold st_complete.
  destruct (wf_sep _ W) as [_ [D2 _]]. rewrite set_add_fresh by (apply D2; assumption). reflexivity.
Qed.

Lemma st_complete_perm : forall st k d u, In k (s_ongoing st) ->
  Permutation (all_of (st_complete st k d u)) (all_of st).
Proof.
  intros st k d u I. unfold all_of, st_complete. proj. apply count_perm. intros z.
  rewrite !count_occ_app, (count_remove k (s_ongoing st) z) by assumption. simpl.
  destruct (Nat.eq_dec k z); lia.
Qed.

Lemma st_complete_WF : forall st k d u, WF st -> In k (s_ongoing st) -> WF (st_complete st k d u).
Proof.
  intros st k d u W I.
  destruct (wf_sep _ W) as [D1 [D2 [D3 [N1 [N2 [N3 N4]]]]]].
  pose proof (wf_held_nd _ W) as WH. pose proof (wf_held_ong _ W) as WO.
  pose proof (wf_held_in _ W) as WI. pose proof (wf_dur _ W) as WD.
  constructor; unfold st_complete; proj.
  - eapply Permutation_NoDup; [symmetry; exact (st_complete_perm st k d u I)|apply (wf_nodup _ W)].
  - intros x. rewrite (wf_prog _ W x), !in_app_iff, pyremove_In by assumption. simpl.
    destruct (Nat.eq_dec x k); [subst; tauto|]. intuition congruence.
  - apply NoDup_ddel; assumption.
  - intros x J. apply dkeys_ddel in J; [|assumption]. destruct J as [J1 J2].
    apply pyremove_In; auto.
  - intros x h0 E. destruct (Nat.eq_dec k x).
    + subst. rewrite dget_ddel_same in E by assumption. discriminate.
    + rewrite dget_ddel_other in E by assumption. eauto.
  - intros x J. assert (x <> k) as N.
    { destruct J as [J|J]; [apply pyremove_In in J; tauto|]. intros ->. apply D2 in I. tauto. }
    rewrite dget_dset_other by congruence. apply WD. destruct J as [J|J]; auto.
    left. eapply pyremove_incl; eauto.
Qed.

(** A property preserved by each completion is preserved by all of them. *)
Lemma complete_all_ind : forall dm (R : state -> state -> Prop),
  (forall s, R s s) ->
  (forall s1 s2 s3, R s1 s2 -> R s2 s3 -> R s1 s3) ->
  (forall st k h u d, WF st -> In k (s_ongoing st) -> dget (s_held st) k = Some h ->
     complete_release dm h (s_used st) = Ok u -> dget (s_details st) k = Some d ->
     R st (st_complete st k d u)) ->
  forall l st s, WF st -> complete_all dm l st = Ok s -> WF s /\ R st s.
Proof.
  intros dm R Refl Tr Step. induction l as [|k l IH]; cbn [complete_all]; intros st s W H; mon; auto.
  destruct (complete_one_shape _ _ _ _ W H0) as [h [u [d [A1 [A2 [A3 [A4 ->]]]]]]].
  destruct (IH _ _ (st_complete_WF _ _ d u W A1) H) as [W' R']. split; auto.
  eapply Tr; [|exact R']. eapply Step; eauto.
Qed.

(** The effect of a whole time step, before the clock moves. *)
Definition timed (dm : domain) (st : state) (c : list nat) (s : state) : Prop :=
  exists pr h u pr2,
    update_progress dm st (s_ongoing st) (s_progress st) = Ok pr /\
    update_res dm (s_ongoing st) (w_progress pr st) = Ok (w_held h (w_used u (w_progress pr st))) /\
    scan_complete (s_ongoing st) pr = Ok (c, pr2) /\
    complete_all dm c (w_progress pr2 (w_held h (w_used u (w_progress pr st)))) = Ok s.

Lemma tick_complete_timed : forall dm st s1 c s, tick dm st = Ok s1 -> update_complete dm s1 = Ok (c, s) ->
  timed dm st c s.
Proof.
  intros dm st s1 c s T U. unfold tick in T. apply bind_ok in T. destruct T as [pr [P T]].
  unfold update_complete in U.
  destruct (update_res_spec _ _ _ _ T) as [h [u [-> _]]].
  apply bind_ok in U. destruct U as [[c' pr2] [S U]]. apply bind_ok in U. destruct U as [s' [C U]].
  cbn [fst snd] in *. injection U as <- <-.
  exists pr, h, u, pr2. proj. auto.
Qed.

Lemma WF_timed_mid : forall dm st pr h u pr2, WF st ->
  update_progress dm st (s_ongoing st) (s_progress st) = Ok pr ->
  update_res dm (s_ongoing st) (w_progress pr st) = Ok (w_held h (w_used u (w_progress pr st))) ->
  dkeys pr2 = dkeys pr -> WF (w_progress pr2 (w_held h (w_used u (w_progress pr st)))).
Proof.
  intros dm st pr h u pr2 W P R K.
  destruct (wf_sep _ W) as [D1 [D2 [D3 [N1 [N2 [N3 N4]]]]]].
  destruct (update_progress_spec _ _ _ _ _ N2 P) as [K1 _].
  destruct (update_res_spec _ _ _ _ R) as [h' [u' [E [A1 [A2 [A3 [A4 A5]]]]]]].
  apply (f_equal s_held) in E as E1. apply (f_equal s_used) in E as E2. proj. subst h' u'.
  constructor; proj.
  - exact (wf_nodup _ W).
  - intros x. rewrite K, K1. exact (wf_prog _ W x).
  - rewrite A1. exact (wf_held_nd _ W).
  - rewrite A1. exact (wf_held_ong _ W).
  - intros k d E3. destruct (A4 _ _ E3) as [d0 [B1 B2]]. rewrite B2. eapply (wf_held_in _ W); eauto.
  - exact (wf_dur _ W).
Qed.

Lemma WF_w_t : forall st v, WF st -> WF (w_t v st).
Proof. intros st v W. destruct W. constructor; auto. Qed.
Lemma WF_w_avail : forall st v, WF st -> WF (w_avail v st).
Proof. intros st v W. destruct W. constructor; auto. Qed.
Lemma WF_w_conds : forall st v, WF st -> WF (w_conds v st).
Proof. intros st v W. destruct W. constructor; auto. Qed.

Lemma timed_WF : forall dm st c s, WF st -> timed dm st c s -> WF s /\ Permutation (all_of s) (all_of st).
Proof.
  intros dm st c s W [pr [h [u [pr2 [P [R [S C]]]]]]].
  destruct (wf_sep _ W) as [D1 [D2 [D3 [N1 [N2 [N3 N4]]]]]].
  destruct (scan_complete_spec _ _ _ _ N2 S) as [K _].
  pose proof (WF_timed_mid _ _ _ _ _ _ W P R K) as WM.
  refine (complete_all_ind dm (fun a b => Permutation (all_of b) (all_of a)) _ _ _ _ _ _ WM C).
  - auto.
  - intros s1 s2 s3 A B. now rewrite B.
  - intros st0 k h0 u0 d W0 I _ _ _. now apply st_complete_perm.
Qed.

(** * Transitions *)

Inductive tstep (dm : domain) (dur : Z) (q : nat -> Z -> Z) (st : state) (a : action) (s : state) : Prop :=
| ts_now : a_tp a = false -> phase dm dur st a s -> tstep dm dur q st a s
| ts_time : forall s1 c s2, a_tp a = true -> phase dm dur st a s1 -> timed dm s1 c s2 ->
    s = update_avail dm q (w_t (s_t s1 + 1) s2) a -> tstep dm dur q st a s.

Lemma next_state_tstep : forall dm dur q st a s, WF st -> next_state dm dur q st a = Ok s ->
  tstep dm dur q st a s.
Proof.
  intros dm dur q st a s W H. unfold next_state in H.
  apply bind_ok in H. destruct H as [s1 [H1 H]].
  apply bind_ok in H. destruct H as [s2 [H2 H]].
  apply bind_ok in H. destruct H as [s3 [H3 H]].
  apply bind_ok in H. destruct H as [s4 [H4 H]].
  apply bind_ok in H. destruct H as [s5 [H5 H]].
  injection H as <-.
  pose proof (phase_shape _ _ _ _ _ _ _ _ W H1 H2 H3 H4) as P.
  unfold update_time in H5. destruct (a_tp a) eqn:T.
  - apply bind_ok in H5. destruct H5 as [s6 [H5 H6]]. apply bind_ok in H6.
    destruct H6 as [[c s7] [H6 H7]]. injection H7 as <-. cbn [snd] in *.
    eapply ts_time; eauto. eapply tick_complete_timed; eauto.
  - injection H5 as <-. unfold update_avail. rewrite T. apply ts_now; auto.
Qed.

Lemma tstep_WF : forall dm dur q st a s, WF st -> tstep dm dur q st a s ->
  WF s /\ Permutation (all_of s) (all_of st).
Proof.
  intros dm dur q st a s W [T P|s1 c s2 T P M ->].
  - split; [eapply phase_WF; eauto|eapply phase_perm; eauto].
  - pose proof (phase_WF _ _ _ _ _ W P) as W1. pose proof (phase_perm _ _ _ _ _ W P) as P1.
    destruct (timed_WF _ _ _ _ W1 M) as [W2 P2]. unfold update_avail. rewrite T.
    split; [apply WF_w_avail, WF_w_t; auto|]. unfold all_of in *. proj. now rewrite P2.
Qed.

(** * Field-level description of a time step *)

Lemma complete_all_spec : forall dm l st s, WF st -> NoDup l -> incl l (s_ongoing st) ->
  complete_all dm l st = Ok s ->
  s_t s = s_t st /\ s_remaining s = s_remaining st /\ s_paused s = s_paused st /\
  s_progress s = s_progress st /\ s_mode s = s_mode st /\ s_avail s = s_avail st /\ s_conds s = s_conds st /\
  (forall x, In x (s_ongoing s) <-> In x (s_ongoing st) /\ ~ In x l) /\
  (forall x, In x (s_complete s) <-> In x (s_complete st) \/ In x l) /\
  (forall x, ~ In x l -> dget (s_details s) x = dget (s_details st) x) /\
  (forall x, In x l -> exists d, dget (s_details st) x = Some d /\
     dget (s_details s) x = Some (mkTask (tk_start d) (Some (s_t st + 1)) (tk_dur d) (tk_paused d)
                                     (tk_resumed d) (tk_resources d))) /\
  (forall x, ~ In x l -> dget (s_held s) x = dget (s_held st) x) /\
  dkeys (s_used s) = dkeys (s_used st).
Proof.
  intros dm. induction l as [|k l IH]; cbn [complete_all]; intros st s W N I H.
  - mon. repeat match goal with |- _ /\ _ => split end; auto; try (intros; simpl; tauto); intros ? [].
  - mon. destruct (complete_one_shape _ _ _ _ W H0) as [h [u [d [A1 [A2 [A3 [A4 ->]]]]]]].
    inversion N; subst.
    destruct (wf_sep _ W) as [_ [_ [_ [_ [N2 _]]]]].
    assert (I' : incl l (s_ongoing (st_complete st k d u))).
    { intros x J. unfold st_complete. proj. apply pyremove_In; auto. split; [intros ->; contradiction|].
      apply I. simpl; auto. }
    destruct (IH _ _ (st_complete_WF _ _ d u W A1) H4 I' H)
      as [B1 [B2 [B3 [B4 [B5 [B6 [B7 [B8 [B9 [B10 [B11 [B12 B13]]]]]]]]]]]].
    unfold st_complete in B1, B2, B3, B4, B5, B6, B7, B8, B9, B10, B11, B12, B13. proj.
    assert (B13' : dkeys u = dkeys (s_used st)).
    { apply complete_release_spec in A3; [apply A3|]. eapply (wf_held_in _ W); eauto. }
    repeat match goal with |- _ /\ _ => split end; auto.
    + intros x. rewrite B8, pyremove_In by assumption. simpl. intuition.
    + intros x. rewrite B9, in_app_iff. simpl. intuition.
    + intros x J. simpl in J. rewrite B10 by tauto. apply dget_dset_other. intuition.
    + intros x [ <- |J].
      * exists d. split; auto. rewrite B10 by assumption. apply dget_dset_same.
      * destruct (B11 x J) as [d' [C1 C2]]. rewrite dget_dset_other in C1 by (intros ->; contradiction).
        eauto.
    + intros x J. simpl in J. rewrite B12 by tauto. apply dget_ddel_other. intuition.
    + congruence.
Qed.

Lemma timed_spec : forall dm st c s, WF st -> timed dm st c s ->
  s_t s = s_t st /\ s_remaining s = s_remaining st /\ s_paused s = s_paused st /\
  s_mode s = s_mode st /\ s_avail s = s_avail st /\ s_conds s = s_conds st /\
  incl c (s_ongoing st) /\
  (forall x, In x (s_ongoing s) <-> In x (s_ongoing st) /\ ~ In x c) /\
  (forall x, In x (s_complete s) <-> In x (s_complete st) \/ In x c) /\
  (forall x, ~ In x c -> dget (s_details s) x = dget (s_details st) x) /\
  (forall x, In x c -> exists d, dget (s_details st) x = Some d /\
     dget (s_details s) x = Some (mkTask (tk_start d) (Some (s_t st + 1)) (tk_dur d) (tk_paused d)
                                     (tk_resumed d) (tk_resources d))) /\
  (forall x, ~ In x (s_ongoing st) -> dget (s_progress s) x = dget (s_progress st) x) /\
  (forall x, In x (s_ongoing st) -> exists m d p, dget (s_mode st) x = Some m /\
      dget (s_details st) x = Some d /\ dget (s_progress st) x = Some p /\
      let p' := (p + d_progress dm x (s_t st) (s_t st + 1) m (tk_dur d))%Q in
      (In x c /\ Qle_bool (9999 # 10000) p' = true) \/
      (~ In x c /\ Qle_bool (9999 # 10000) p' = false /\ dget (s_progress s) x = Some p')) /\
  dkeys (s_used s) = dkeys (s_used st).
Proof.
  intros dm st c s W [pr [h [u [pr2 [P [R [S C]]]]]]].
  destruct (wf_sep _ W) as [D1 [D2 [D3 [N1 [N2 [N3 N4]]]]]].
  destruct (update_progress_spec _ _ _ _ _ N2 P) as [PK [PO PI]].
  destruct (scan_complete_spec _ _ _ _ N2 S) as [K [NC [IC [SO SI]]]].
  pose proof (WF_timed_mid _ _ _ _ _ _ W P R K) as WM.
  destruct (update_res_spec _ _ _ _ R) as [h' [u' [E [A1 [A2 [A3 [A4 A5]]]]]]].
  apply (f_equal s_used) in E as E2. proj. subst u'.
  destruct (complete_all_spec _ _ _ _ WM NC IC C)
    as [B1 [B2 [B3 [B4 [B5 [B6 [B7 [B8 [B9 [B10 [B11 [B12 B13]]]]]]]]]]]].
  proj. repeat match goal with |- _ /\ _ => split end; auto.
  - intros x I. rewrite B4, SO by assumption. now apply PO.
  - intros x I. destruct (PI x I) as [m [d [p [F1 [F2 [F3 F4]]]]]]. exists m, d, p.
    split; auto. split; auto. split; auto.
    destruct (SI x I) as [p' [G1 G2]]. rewrite F4 in G1. injection G1 as <-. cbv zeta.
    destruct G2 as [[G2 [G3 G4]]|[G2 [G3 G4]]]; [left; auto|right].
    split; auto. split; auto. now rewrite B4.
  - congruence.
Qed.

(** * Resource accounting *)

(** What is in use beyond what the tasks hold. *)
Definition bal (st : state) (r : nat) : Z := qty (s_used st) r - heldsum (s_held st) r.

Lemma held_none : forall st k, WF st -> ~ In k (s_ongoing st) -> dget (s_held st) k = None.
Proof. intros st k W N. apply dget_None. intros I. apply (wf_held_ong _ W) in I. contradiction. Qed.

Lemma phase_bal : forall dm dur st a s r, WF st -> is_renewable dm r = Ok true -> phase dm dur st a s ->
  bal s r = bal st r \/
  (dur = 0 /\ exists task mode time rtu, a_kind a = START /\ a_task a = Some task /\ a_mode a = Some mode /\
     get_resource_used dm task mode (a_units a) time = Ok rtu /\ bal s r = bal st r + qty rtu r).
Proof.
  intros dm dur st a s r W RN P. destruct (wf_sep _ W) as [D1 [D2 _]].
  unfold bal. destruct P; proj.
  - auto.
  - left. destruct (pause_release_spec _ _ _ _ (wf_held_in _ W _ _ H3) H4) as [_ Q].
    destruct (Q r) as [Q1 _]. rewrite Q1, heldsum_ddel, H3 by assumption. lia.
  - left. destruct (get_resource_used_spec _ _ _ _ _ _ H4) as [N _].
    destruct (add_used_spec _ _ _ N H6) as [_ [Q _]].
    rewrite Q, heldsum_dset, held_none; [lia|assumption|]. intros I. apply D2 in I. tauto.
  - auto.
  - left. destruct (get_resource_used_spec _ _ _ _ _ _ H5) as [N _].
    destruct (add_used_spec _ _ _ N H7) as [_ [Q _]].
    rewrite Q, heldsum_dset, held_none; [lia|assumption|]. now apply D1.
  - right. split; auto. destruct (get_resource_used_spec _ _ _ _ _ _ H5) as [N _].
    destruct (add_used_spec _ _ _ N H7) as [_ [Q _]].
    exists task, mode, time, rtu. repeat split; auto. rewrite Q. lia.
Qed.

Lemma timed_bal : forall dm st c s r, WF st -> is_renewable dm r = Ok true -> timed dm st c s ->
  bal s r = bal st r.
Proof.
  intros dm st c s r W RN [pr [h [u [pr2 [P [R [S C]]]]]]].
  destruct (wf_sep _ W) as [_ [_ [_ [_ [N2 _]]]]].
  destruct (scan_complete_spec _ _ _ _ N2 S) as [K _].
  pose proof (WF_timed_mid _ _ _ _ _ _ W P R K) as WM.
  destruct (update_res_spec _ _ _ _ R) as [h' [u' [E [_ [_ [A3 _]]]]]].
  apply (f_equal s_held) in E as E1. apply (f_equal s_used) in E as E2. proj. subst h' u'.
  transitivity (bal (w_progress pr2 (w_held h (w_used u (w_progress pr st)))) r).
  - refine (proj2 (complete_all_ind dm (fun a b => bal b r = bal a r) _ _ _ _ _ _ WM C)).
    + auto.
    + congruence.
    + intros st0 k h0 u0 d W0 I0 Hh Hu _. unfold bal, st_complete. proj.
      destruct (complete_release_spec _ _ _ _ (wf_held_in _ W0 _ _ Hh) Hu) as [_ Q].
      destruct (Q r) as [Q1 _]. rewrite Q1, heldsum_ddel, Hh by assumption. lia.
  - unfold bal. proj. apply A3.
Qed.

(** The quantities held by tasks satisfy [P], if every need does. *)
Definition held_all (Pq : nat -> Z -> Prop) (st : state) : Prop :=
  forall k h, dget (s_held st) k = Some h -> forall r, Pq r (qty h r).

Definition need_nonneg (dm : domain) : Prop :=
  forall k m c r time q, get_mode dm k m = Ok c -> need_at c r time = Ok q -> 0 <= q.

Lemma rtu_nonneg : forall dm task mode units time rtu, need_nonneg dm ->
  get_resource_used dm task mode units time = Ok rtu -> forall r, 0 <= qty rtu r.
Proof.
  intros dm task mode units time rtu NN H r. destruct (get_resource_used_spec _ _ _ _ _ _ H) as [_ [_ Q]].
  unfold qty. destruct (dget rtu r) eqn:E; [|lia]. specialize (Q _ _ E).
  destruct (pymem r _); [lia|]. destruct Q as [c [Q1 Q2]]. eapply NN; eauto.
Qed.

Definition held_nonneg (st : state) : Prop := held_all (fun _ q => 0 <= q) st.

Lemma phase_nonneg : forall dm dur st a s, WF st -> need_nonneg dm -> phase dm dur st a s ->
  held_nonneg st -> held_nonneg s.
Proof.
  intros dm dur st a s W NN P H k h E r. unfold held_nonneg, held_all in H. destruct P; proj.
  - eauto.
  - destruct (Nat.eq_dec task k).
    + subst. rewrite dget_ddel_same in E by (apply (wf_held_nd _ W)). discriminate.
    + rewrite dget_ddel_other in E by assumption. eauto.
  - rewrite dget_dset in E. simpl in E. destruct (Nat.eqb task k); [|eauto].
    injection E as <-. eapply rtu_nonneg; eauto.
  - eauto.
  - rewrite dget_dset in E. simpl in E. destruct (Nat.eqb task k); [|eauto].
    injection E as <-. eapply rtu_nonneg; eauto.
  - eauto.
Qed.

Lemma update_res_nonneg : forall dm l st s, need_nonneg dm -> update_res dm l st = Ok s ->
  held_nonneg st -> held_nonneg s.
Proof.
  intros dm. induction l as [|k l IH]; cbn [update_res]; intros st s NN H HN; mon; auto.
  destruct x4 as [ht u0]. cbn [fst snd] in H. eapply IH; [assumption|exact H|].
  intros k0 h0 E r. proj. rewrite dget_dset in E. simpl in E. destruct (Nat.eqb k k0); [|eapply HN; eauto].
  injection E as <-. rewrite (rebook_qty _ _ _ _ _ (proj1 (get_resource_used_spec _ _ _ _ _ _ H3)) H5).
  destruct (dget x2 r) eqn:E; [|eapply HN; eauto].
  pose proof (rtu_nonneg _ _ _ _ _ _ NN H3 r) as Q. unfold qty in Q. now rewrite E in Q.
Qed.

Lemma timed_nonneg : forall dm st c s, WF st -> need_nonneg dm -> timed dm st c s ->
  held_nonneg st -> held_nonneg s.
Proof.
  intros dm st c s W NN [pr [h [u [pr2 [P [R [S C]]]]]]] HN.
  destruct (wf_sep _ W) as [_ [_ [_ [_ [N2 _]]]]].
  destruct (scan_complete_spec _ _ _ _ N2 S) as [K _].
  pose proof (WF_timed_mid _ _ _ _ _ _ W P R K) as WM.
  assert (HN0 : held_nonneg (w_progress pr2 (w_held h (w_used u (w_progress pr st))))).
  { pose proof (update_res_nonneg _ _ _ _ NN R) as X.
    assert (held_nonneg (w_progress pr st)) as Y by (intros k0 h0 E r0; eapply HN; eauto).
    specialize (X Y). intros k0 h0 E r0. eapply X; eauto. }
  revert HN0. refine (proj2 (complete_all_ind dm (fun a b => held_nonneg a -> held_nonneg b) _ _ _ _ _ _ WM C)).
  - auto.
  - auto.
  - intros st0 k h0 u0 d W0 I0 Hh Hu _ HN0 k1 h1 E r. unfold st_complete in E. proj.
    destruct (Nat.eq_dec k k1).
    + subst. rewrite dget_ddel_same in E by (apply (wf_held_nd _ W0)). discriminate.
    + rewrite dget_ddel_other in E by assumption. eapply HN0; eauto.
Qed.

Lemma tstep_nonneg : forall dm dur q st a s, WF st -> need_nonneg dm -> tstep dm dur q st a s ->
  held_nonneg st -> held_nonneg s.
Proof.
  intros dm dur q st a s W NN [T P|s1 c s2 T P M ->] HN.
  - eapply phase_nonneg; eauto.
  - pose proof (phase_nonneg _ _ _ _ _ W NN P HN) as H1.
    pose proof (timed_nonneg _ _ _ _ (phase_WF _ _ _ _ _ W P) NN M H1) as H2.
    unfold update_avail. rewrite T. intros k h E r. eapply H2; eauto.
Qed.

Lemma heldsum_nonneg : forall st r, NoDup (dkeys (s_held st)) -> held_nonneg st -> 0 <= heldsum (s_held st) r.
Proof.
  intros st r N H. unfold heldsum. apply sumZ_nonneg. rewrite Forall_forall. intros q I.
  apply in_map_iff in I. destruct I as [[k h] [E I]]. subst. simpl. eapply H. apply In_dget; eauto.
Qed.

(** * Constant consumption *)

Definition const_dom (dm : domain) : Prop :=
  forall k m c, get_mode dm k m = Ok c -> exists d, c = Constant d.

(** Need of task [k] in mode [m] for [r]. *)
Definition cneed (dm : domain) (k m r : nat) : Z :=
  match get_mode dm k m with Ok (Constant d) => qty d r | _ => 0 end.

(** Actions whose named units are not resource types, and which resume in the recorded mode. *)
Definition plain (dm : domain) (st : state) (a : action) : Prop :=
  (forall us u, a_units a = Some us -> In u us -> ~ In u (d_types dm)) /\
  (a_kind a = RESUME -> forall k m, a_task a = Some k -> a_mode a = Some m -> dget (s_mode st) k = Some m).

Definition held_const (dm : domain) (st : state) : Prop :=
  forall k h, dget (s_held st) k = Some h ->
    exists m, dget (s_mode st) k = Some m /\ forall r, In r (d_types dm) -> qty h r = cneed dm k m r.

Lemma rtu_const : forall dm task mode units time rtu, const_dom dm ->
  (forall us u, units = Some us -> In u us -> ~ In u (d_types dm)) ->
  get_resource_used dm task mode units time = Ok rtu ->
  forall r, In r (d_types dm) -> dget rtu r = Some (cneed dm task mode r).
Proof.
  intros dm task mode units time rtu CD U H r I.
  destruct (get_resource_used_spec _ _ _ _ _ _ H) as [_ [K Q]].
  destruct (key_dget _ rtu r) as [q E]; [apply K; auto|]. rewrite E. f_equal. specialize (Q _ _ E).
  destruct (pymem r match units with Some u => u | None => [] end) eqn:M.
  - apply (proj1 (pymem_true _ _)) in M. destruct units as [us|]; [|destruct M].
    exfalso. eapply U; eauto.
  - destruct Q as [c [Q1 Q2]]. destruct (CD _ _ _ Q1) as [d ->]. unfold cneed. rewrite Q1.
    simpl in Q2. unfold qty. congruence.
Qed.

Lemma phase_const : forall dm dur st a s, WF st -> const_dom dm -> plain dm st a -> phase dm dur st a s ->
  held_const dm st -> held_const dm s.
Proof.
  intros dm dur st a s W CD [PU PR] P H k h E. unfold held_const in H.
  destruct (wf_sep _ W) as [D1 _]. destruct P; proj.
  - eauto.
  - destruct (Nat.eq_dec task k).
    + subst. rewrite dget_ddel_same in E by (apply (wf_held_nd _ W)). discriminate.
    + rewrite dget_ddel_other in E by assumption. eauto.
  - rewrite dget_dset in E. simpl in E. destruct (Nat.eqb_spec task k); [|eauto].
    subst. injection E as <-. exists mode. split; [apply PR; auto|]. intros r I.
    unfold qty. now rewrite (rtu_const _ _ _ _ _ _ CD PU H5 r I).
  - eauto.
  - rewrite dget_dset in E. simpl in E. rewrite dget_dset. simpl. destruct (Nat.eqb_spec task k); [|eauto].
    subst. injection E as <-. exists mode. split; [auto|]. intros r I.
    unfold qty. now rewrite (rtu_const _ _ _ _ _ _ CD PU H6 r I).
  - destruct (H _ _ E) as [m [M1 M2]]. exists m. split; auto. rewrite dget_dset_other; auto.
    intros ->. apply dget_key in E. apply (wf_held_ong _ W) in E. apply D1 in H3. tauto.
Qed.

Lemma update_res_const : forall dm l st s, const_dom dm -> held_const dm st -> update_res dm l st = Ok s ->
  held_const dm s /\ (forall r, qty (s_used s) r = qty (s_used st) r) /\
  (forall r k, match dget (s_held s) k with Some h => qty h r | None => 0 end =
               match dget (s_held st) k with Some h => qty h r | None => 0 end).
Proof.
  intros dm. induction l as [|k l IH]; cbn [update_res]; intros st s CD HC H; mon; auto.
  destruct x4 as [ht u0]. cbn [fst snd] in H. rename H4 into HH. rename H5 into RB.
  destruct (HC _ _ HH) as [m [M1 M2]]. rewrite H0 in M1. injection M1 as ->.
  destruct (get_resource_used_spec _ _ _ _ _ _ H3) as [N [K _]].
  assert (EQ : forall r, qty ht r = qty x3 r).
  { intros r. rewrite (rebook_qty _ _ _ _ _ N RB). destruct (dget x2 r) eqn:E; auto.
    assert (In r (d_types dm)) as I.
    { apply dget_key in E. apply K in E. simpl in E. tauto. }
    assert (U : forall us u, Some (@nil nat) = Some us -> In u us -> ~ In u (d_types dm))
      by (intros us u X; injection X as <-; intros []).
    rewrite (rtu_const _ _ _ _ _ _ CD U H3 r I) in E.
    injection E as <-. symmetry. auto. }
  destruct (rebook_spec _ _ _ _ _ RB) as [_ [_ Q]].
  assert (HC' : held_const dm (w_held (dset (s_held st) k ht) (w_used u0 st))).
  { intros k0 h0 E. proj. rewrite dget_dset in E. simpl in E. destruct (Nat.eqb_spec k k0); [|eauto].
    subst. injection E as <-. exists m. split; auto. intros r I. rewrite EQ. auto. }
  destruct (IH _ _ CD HC' H) as [A [B C]]. split; auto. split.
  - intros r. rewrite B. proj. specialize (Q r). rewrite EQ in Q. lia.
  - intros r k0. rewrite C. proj. rewrite dget_dset. simpl. destruct (Nat.eqb_spec k k0); auto.
    subst. rewrite HH. auto.
Qed.

Lemma mid_const : forall dm st pr h u pr2, const_dom dm -> held_const dm st ->
  update_res dm (s_ongoing st) (w_progress pr st) = Ok (w_held h (w_used u (w_progress pr st))) ->
  let s := w_progress pr2 (w_held h (w_used u (w_progress pr st))) in
  held_const dm s /\ (forall r, qty (s_used s) r = qty (s_used st) r) /\
  (forall r k, match dget (s_held s) k with Some h => qty h r | None => 0 end =
               match dget (s_held st) k with Some h => qty h r | None => 0 end).
Proof.
  intros dm st pr h u pr2 CD HC R s.
  assert (HC' : held_const dm (w_progress pr st)) by exact HC.
  destruct (update_res_const _ _ _ _ CD HC' R) as [A [B C]].
  split; [exact A|]. split; [exact B|exact C].
Qed.

Lemma timed_const : forall dm st c s, WF st -> const_dom dm -> held_const dm st -> timed dm st c s ->
  held_const dm s.
Proof.
  intros dm st c s W CD HC [pr [h [u [pr2 [P [R [S C]]]]]]].
  destruct (wf_sep _ W) as [_ [_ [_ [_ [N2 _]]]]].
  destruct (scan_complete_spec _ _ _ _ N2 S) as [K _].
  pose proof (WF_timed_mid _ _ _ _ _ _ W P R K) as WM.
  pose proof (proj1 (mid_const _ _ _ _ _ pr2 CD HC R)) as HN0.
  revert HN0. refine (proj2 (complete_all_ind dm (fun a b => held_const dm a -> held_const dm b) _ _ _ _ _ _ WM C)).
  - auto.
  - auto.
  - intros st0 k h0 u0 d W0 I0 Hh Hu _ HN0 k1 h1 E. unfold st_complete in E. proj.
    destruct (Nat.eq_dec k k1).
    + subst. rewrite dget_ddel_same in E by (apply (wf_held_nd _ W0)). discriminate.
    + rewrite dget_ddel_other in E by assumption. eapply HN0; eauto.
Qed.

Lemma tstep_const : forall dm dur q st a s, WF st -> const_dom dm -> plain dm st a -> tstep dm dur q st a s ->
  held_const dm st -> held_const dm s.
Proof.
  intros dm dur q st a s W CD PL [T P|s1 c s2 T P M ->] HC.
  - eapply phase_const; eauto.
  - pose proof (phase_const _ _ _ _ _ W CD PL P HC) as H1.
    pose proof (timed_const _ _ _ _ (phase_WF _ _ _ _ _ W P) CD H1 M) as H2.
    unfold update_avail. rewrite T. intros k h E. eapply H2; eauto.
Qed.

(** With constant consumption, what is in use never increases during a time step. *)
Lemma timed_used_le : forall dm st c s r, WF st -> const_dom dm -> held_const dm st -> held_nonneg st ->
  timed dm st c s -> qty (s_used s) r <= qty (s_used st) r /\
  (is_renewable dm r = Ok false -> qty (s_used s) r = qty (s_used st) r).
Proof.
  intros dm st c s r W CD HC HN [pr [h [u [pr2 [P [R [S C]]]]]]].
  destruct (wf_sep _ W) as [_ [_ [_ [_ [N2 _]]]]].
  destruct (scan_complete_spec _ _ _ _ N2 S) as [K _].
  pose proof (WF_timed_mid _ _ _ _ _ _ W P R K) as WM.
  destruct (mid_const _ _ _ _ _ pr2 CD HC R) as [M1 [M2 M3]].
  assert (HN0 : held_nonneg (w_progress pr2 (w_held h (w_used u (w_progress pr st))))).
  { intros k0 h0 E r0. specialize (M3 r0 k0). rewrite E in M3. rewrite M3.
    destruct (dget (s_held st) k0) eqn:E2; [eapply HN; eauto|lia]. }
  rewrite <- M2. revert HN0.
  refine (fun HN0 => proj2 (proj2 (complete_all_ind dm
     (fun a b => held_nonneg a -> held_nonneg b /\ qty (s_used b) r <= qty (s_used a) r /\
        (is_renewable dm r = Ok false -> qty (s_used b) r = qty (s_used a) r))
     _ _ _ _ _ _ WM C) HN0)).
  - intros s0 H0. split; auto. split; [lia|auto].
  - intros x1 x2 x3 A B H0. destruct (A H0) as [A1 [A2 A3]]. destruct (B A1) as [B1 [B2 B3]].
    split; auto. split; [lia|]. intros E. rewrite (B3 E). auto.
  - intros st0 k h0 u0 d W0 I0 Hh Hu _ H0. unfold st_complete. split; [|split]; proj.
    + intros k1 h1 E r1. proj. destruct (Nat.eq_dec k k1).
      * subst. rewrite dget_ddel_same in E by (apply (wf_held_nd _ W0)). discriminate.
      * rewrite dget_ddel_other in E by assumption. eapply H0; eauto.
    + destruct (complete_release_spec _ _ _ _ (wf_held_in _ W0 _ _ Hh) Hu) as [_ Q].
      destruct (Q r) as [Q1 [Q2 Q3]]. pose proof (H0 _ _ Hh r) as Q0. cbv beta in Q0.
      destruct (in_dec Nat.eq_dec r (dkeys h0)) as [J|J].
      * destruct (Q3 J) as [[|] E]; [rewrite Q1 by auto; lia|rewrite Q2 by auto; lia].
      * destruct (is_renewable dm r) as [[|]|e] eqn:E; [rewrite Q1 by auto; lia|rewrite Q2 by auto; lia|].
        (* r is not held and its renewability is unknown: the release does not touch it *)
        clear - Hu J. revert Hu J. generalize (s_used st0) as us. revert u0.
        induction h0 as [|[r1 q1] l IH]; cbn [complete_release]; intros u0 us H J; mon; [lia|].
        destruct x; mon.
        -- specialize (IH _ _ H). rewrite qty_dset in IH. simpl in J.
           destruct (Nat.eqb_spec r1 r); [tauto|]. apply IH. tauto.
        -- apply (IH _ _ H). simpl in J. tauto.
    + intros E. destruct (complete_release_spec _ _ _ _ (wf_held_in _ W0 _ _ Hh) Hu) as [_ Q].
      apply (Q r); auto.
Qed.

(** * Capacity *)

Definition cap_ok (st : state) : Prop :=
  forall r, In r (dkeys (s_used st)) -> qty (s_used st) r <= qty (s_avail st) r.

Lemma enough_spec : forall st rtu, enough st rtu = Ok true ->
  forall r q, In (r, q) rtu -> q <= qty (s_avail st) r - qty (s_used st) r /\ In r (dkeys (s_avail st)).
Proof.
  intros st. unfold enough. induction rtu as [|[r0 q0] l IH]; cbn [allM]; intros H r q I; [destruct I|].
  apply bind_ok in H. destruct H as [b [B H]]. mon. cbn [fst snd] in *.
  destruct (q0 <=? x - x0) eqn:E; [|discriminate].
  destruct I as [I|I]; [|eauto]. injection I as -> ->.
  unfold qty. rewrite H0, H1. split; [lia|]. eapply dget_key; eauto.
Qed.

Lemma pause_release_le : forall dm h u u' r, NoDup (dkeys h) -> 0 <= qty h r ->
  pause_release dm h u = Ok u' -> qty u' r <= qty u r.
Proof.
  intros dm h u u' r N NN H.
  destruct (pause_release_spec _ _ _ _ N H) as [_ Q]. destruct (Q r) as [Q1 [Q2 Q3]].
  destruct (is_renewable dm r) as [[|]|e] eqn:E.
  - rewrite Q1; auto. lia.
  - destruct (Q2 eq_refl) as [_ ->]. destruct (match dget _ _ with Some b => b | None => false end); lia.
  - assert (~ In r (dkeys h)) as J by (intros I; apply Q3 in I; destruct I; discriminate).
    clear - H J. revert u H. induction h as [|[r1 q1] l IH]; cbn [pause_release]; intros u H.
    { mon. lia. }
    apply bind_ok in H. destruct H as [b [_ H]]. apply bind_ok in H. destruct H as [g [_ H]].
    simpl in J. destruct g.
    + mon. apply IH in H; [|tauto]. rewrite qty_dset in H. destruct (Nat.eqb_spec r1 r); [tauto|]. auto.
    + apply IH in H; auto.
Qed.

Lemma add_used_cap : forall st rtu u r, NoDup (dkeys rtu) -> enough st rtu = Ok true ->
  add_used rtu (s_used st) = Ok u -> qty (s_used st) r <= qty (s_avail st) r ->
  qty u r <= qty (s_avail st) r.
Proof.
  intros st rtu u r N E A C. destruct (add_used_spec _ _ _ N A) as [_ [Q _]]. rewrite Q.
  unfold qty at 2. destruct (dget rtu r) eqn:D; [|lia].
  apply dget_In in D. destruct (enough_spec _ _ E _ _ D). lia.
Qed.

Lemma phase_used_keys : forall dm dur st a s, WF st -> phase dm dur st a s ->
  dkeys (s_used s) = dkeys (s_used st) /\ s_avail s = s_avail st /\ s_t s = s_t st /\ s_conds s = s_conds st.
Proof.
  intros dm dur st a s W P. destruct P; proj; repeat split; auto.
  - eapply pause_release_spec; [|eassumption]. eapply (wf_held_in _ W); eauto.
  - eapply add_used_spec; [|eassumption]. eapply get_resource_used_spec; eauto.
  - eapply add_used_spec; [|eassumption]. eapply get_resource_used_spec; eauto.
  - eapply add_used_spec; [|eassumption]. eapply get_resource_used_spec; eauto.
Qed.

Lemma phase_cap : forall dm dur st a s, WF st -> held_nonneg st -> phase dm dur st a s ->
  cap_ok st -> cap_ok s.
Proof.
  intros dm dur st a s W HN P C r I.
  destruct (phase_used_keys _ _ _ _ _ W P) as [K _]. rewrite K in I. specialize (C r I).
  destruct P; proj; auto.
  - etransitivity; [|exact C].
    assert (NoDup (dkeys h)) by (eapply (wf_held_in _ W); eauto).
    assert (0 <= qty h r) by (eapply HN; eauto).
    eapply pause_release_le; eauto.
  - eapply add_used_cap; eauto. eapply get_resource_used_spec; eauto.
  - eapply add_used_cap; eauto. eapply get_resource_used_spec; eauto.
  - eapply add_used_cap; eauto. eapply get_resource_used_spec; eauto.
Qed.

Lemma avail_fold : forall (q : nat -> Z) names av r,
  dget (fold_left (fun av r => dset av r (q r)) names av) r =
  if pymem r names then Some (q r) else dget av r.
Proof.
  intros q. induction names as [|n l IH]; intros av r; [reflexivity|].
  cbn [fold_left]. rewrite IH, dget_dset. unfold pymem. cbn [existsb pyeqb PyEq_nat].
  rewrite (Nat.eqb_sym n r). destruct (existsb (Nat.eqb r) l) eqn:E; [now rewrite orb_true_r|].
  destruct (Nat.eqb_spec r n); simpl; auto. subst. auto.
Qed.

(** The availabilities are those of a constant function. *)
Definition avail_is (dm : domain) (cap : nat -> Z) (st : state) : Prop :=
  forall r, dget (s_avail st) r = if pymem r (d_types dm ++ d_units dm) then Some (cap r) else None.

Lemma pymem_swap : forall r (l1 l2 : list nat), pymem r (l1 ++ l2) = pymem r (l2 ++ l1).
Proof. intros r l1 l2. unfold pymem. rewrite !existsb_app. apply orb_comm. Qed.

Lemma tstep_avail : forall dm dur cap st a s, WF st -> tstep dm dur (fun r _ => cap r) st a s ->
  avail_is dm cap st -> avail_is dm cap s.
Proof.
  intros dm dur cap st a s W [T P|s1 c s2 T P M ->] H r.
  - destruct (phase_used_keys _ _ _ _ _ W P) as [_ [-> _]]. apply H.
  - destruct (phase_used_keys _ _ _ _ _ W P) as [_ [A _]].
    destruct (timed_spec _ _ _ _ (phase_WF _ _ _ _ _ W P) M) as [_ [_ [_ [_ [B _]]]]].
    unfold update_avail. rewrite T. proj. rewrite (avail_fold cap), (pymem_swap r (d_units dm)).
    specialize (H r). rewrite B, A, H. destruct (pymem r _); auto.
Qed.

Lemma tstep_cap : forall dm dur cap st a s, WF st -> const_dom dm -> need_nonneg dm ->
  held_nonneg st -> held_const dm st -> plain dm st a -> avail_is dm cap st ->
  tstep dm dur (fun r _ => cap r) st a s -> cap_ok st -> cap_ok s.
Proof.
  intros dm dur cap st a s W CD NN HN HC PL AV TS C.
  pose proof (tstep_avail _ _ _ _ _ _ W TS AV) as AV'.
  destruct TS as [T P|s1 c s2 T P M ->].
  - eapply phase_cap; eauto.
  - pose proof (phase_cap _ _ _ _ _ W HN P C) as C1.
    pose proof (phase_WF _ _ _ _ _ W P) as W1.
    pose proof (phase_nonneg _ _ _ _ _ W NN P HN) as HN1.
    pose proof (phase_const _ _ _ _ _ W CD PL P HC) as HC1.
    destruct (phase_used_keys _ _ _ _ _ W P) as [KU [KA _]].
    destruct (timed_spec _ _ _ _ W1 M) as [_ [_ [_ [_ [B [_ [_ [_ [_ [_ [_ [_ [_ KU2]]]]]]]]]]]]].
    intros r I. unfold update_avail in *. rewrite T in *. proj. rewrite KU2 in I.
    specialize (C1 r I). destruct (timed_used_le _ _ _ _ r W1 CD HC1 HN1 M) as [L _].
    etransitivity; [exact L|]. etransitivity; [exact C1|].
    unfold qty. specialize (AV r). specialize (AV' r). proj. rewrite AV', KA, AV. lia.
Qed.

(** * Consumption of non-renewable resources *)

Definition mode_need (dm : domain) (st : state) (r k : nat) : Z :=
  match dget (s_mode st) k with Some m => cneed dm k m r | None => 0 end.

Definition total_need (dm : domain) (st : state) (r : nat) : Z :=
  sumZ (map (mode_need dm st r) (s_ongoing st ++ s_complete st)).

Lemma sumZ_perm : forall l1 l2, Permutation l1 l2 -> sumZ l1 = sumZ l2.
Proof. induction 1; simpl; lia. Qed.

Lemma sum_map_ext : forall (f g : nat -> Z) l, (forall x, In x l -> f x = g x) -> sumZ (map f l) = sumZ (map g l).
Proof. induction l as [|x l IH]; simpl; intros H; auto. rewrite H, IH; auto. Qed.

Lemma sum_map_insert : forall (f : nat -> Z) l x l', Permutation l (x :: l') ->
  sumZ (map f l) = f x + sumZ (map f l').
Proof. intros f l x l' H. rewrite (sumZ_perm _ _ (Permutation_map f H)). reflexivity. Qed.

Lemma phase_total : forall dm dur st a s r, WF st -> const_dom dm -> plain dm st a -> In r (d_types dm) ->
  a_kind a <> PAUSE -> s_paused st = [] -> phase dm dur st a s ->
  s_paused s = [] /\ qty (s_used s) r - total_need dm s r = qty (s_used st) r - total_need dm st r.
Proof.
  intros dm dur st a s r W CD [PU PR] IR NP PE P. destruct (wf_sep _ W) as [D1 _].
  assert (ST : forall task mode, In task (s_remaining st) ->
    sumZ (map (fun k => match dget (dset (s_mode st) task mode) k with Some m => cneed dm k m r | None => 0 end)
            (s_ongoing st ++ s_complete st)) = total_need dm st r).
  { intros task mode I. apply sum_map_ext. intros x J. unfold mode_need.
    rewrite dget_dset_other; auto. intros ->. apply in_app_iff in J. apply D1 in I. tauto. }
  destruct P; proj; try (rewrite PE in *; contradiction); try congruence.
  - auto.
  - split; auto. destruct (get_resource_used_spec _ _ _ _ _ _ H5) as [N _].
    destruct (add_used_spec _ _ _ N H7) as [_ [Q _]]. rewrite Q.
    unfold qty at 2. rewrite (rtu_const _ _ _ _ _ _ CD PU H5 r IR).
    specialize (ST task mode H2). unfold total_need at 1, mode_need at 1, st_start. proj.
    rewrite <- ST. rewrite (sum_map_insert _ _ task (s_ongoing st ++ s_complete st)).
    + rewrite dget_dset_same. lia.
    + rewrite <- app_assoc. simpl. symmetry. apply Permutation_middle.
  - split; auto. destruct (get_resource_used_spec _ _ _ _ _ _ H5) as [N _].
    destruct (add_used_spec _ _ _ N H7) as [_ [Q _]]. rewrite Q.
    unfold qty at 2. rewrite (rtu_const _ _ _ _ _ _ CD PU H5 r IR).
    specialize (ST task mode H2). unfold total_need at 1, mode_need at 1, st_dummy. proj.
    rewrite <- ST. rewrite (sum_map_insert _ _ task (s_ongoing st ++ s_complete st)).
    + rewrite dget_dset_same. lia.
    + rewrite app_assoc. symmetry. apply Permutation_cons_append.
Qed.

Lemma timed_total : forall dm st c s r, WF st -> const_dom dm -> held_const dm st -> held_nonneg st ->
  is_renewable dm r = Ok false -> timed dm st c s ->
  qty (s_used s) r - total_need dm s r = qty (s_used st) r - total_need dm st r.
Proof.
  intros dm st c s r W CD HC HN RN M.
  destruct (timed_used_le _ _ _ _ r W CD HC HN M) as [_ E]. rewrite (E RN). f_equal.
  destruct (timed_spec _ _ _ _ W M) as [_ [R [PA [MO _]]]].
  destruct (timed_WF _ _ _ _ W M) as [_ PM].
  unfold total_need, mode_need. rewrite MO. apply sumZ_perm, Permutation_map.
  unfold all_of in PM. rewrite R, PA in PM. apply Permutation_app_inv_l in PM.
  rewrite !app_assoc in PM. now apply Permutation_app_inv_r in PM.
Qed.

(** * Dates *)

Definition started_rec (d : task_rec) (s dur pt : Z) : Prop :=
  tk_start d = Some s /\ tk_dur d = Some dur /\ paused_time (tk_paused d) (tk_resumed d) = Ok pt.

Record DT (st : state) : Prop := {
  dt_rem : forall x, In x (s_remaining st) -> dget (s_details st) x = Some task0;
  dt_ong : forall x, In x (s_ongoing st) -> exists d s dur pt p,
     dget (s_details st) x = Some d /\ started_rec d s dur pt /\ tk_end d = None /\
     length (tk_paused d) = length (tk_resumed d) /\
     0 < dur /\ s <= s_t st /\ 0 <= pt /\ 0 <= s_t st - s - pt /\ 10000 * (s_t st - s - pt) < 9999 * dur /\
     dget (s_progress st) x = Some p /\ (p == (s_t st - s - pt) # Z.to_pos dur)%Q;
  dt_pau : forall x, In x (s_paused st) -> exists d s dur pt p tp ps,
     dget (s_details st) x = Some d /\ tk_start d = Some s /\ tk_dur d = Some dur /\
     tk_paused d = ps ++ [tp] /\ paused_time ps (tk_resumed d) = Ok pt /\ tk_end d = None /\
     length ps = length (tk_resumed d) /\
     0 < dur /\ s <= tp /\ tp <= s_t st /\ 0 <= pt /\ 0 <= tp - s - pt /\ 10000 * (tp - s - pt) < 9999 * dur /\
     dget (s_progress st) x = Some p /\ (p == (tp - s - pt) # Z.to_pos dur)%Q;
  dt_com : forall x, In x (s_complete st) -> exists d s e dur pt,
     dget (s_details st) x = Some d /\ started_rec d s dur pt /\ tk_end d = Some e /\
     s <= e /\ e <= s_t st /\ 0 <= pt /\
     ((dur = 0 /\ e = s /\ tk_paused d = []) \/
      (0 < dur /\ 9999 * dur <= 10000 * (e - s - pt) /\ 10000 * (e - s - pt - 1) < 9999 * dur)) }.

Lemma paused_time_app : forall p r z x y, length p = length r -> paused_time p r = Ok z ->
  paused_time (p ++ [x]) (r ++ [y]) = Ok (z + (y - x)).
Proof.
  induction p as [|a p IH]; destruct r as [|b r]; simpl; intros z x y L H; try discriminate.
  - injection H as <-. f_equal; lia.
  - apply bind_ok in H. destruct H as [w [H1 H]]. injection H as <-.
    rewrite (IH r w x y) by (auto || lia). simpl. f_equal. lia.
Qed.

Lemma phase_DT : forall dm dur st a s, WF st -> 0 <= dur -> phase dm dur st a s -> DT st -> DT s.
Proof.
  intros dm dur st a s W DU P D. destruct (wf_sep _ W) as [D1 [D2 [D3 [N1 [N2 [N3 N4]]]]]].
  destruct D as [DR DO DP DC]. destruct P; [constructor; assumption|..]; constructor; proj; intros x I.
  - (* pause *) rewrite dget_dset_other; [auto|]. intros ->. apply D1 in I. tauto.
  - apply pyremove_In in I; [|assumption]. rewrite dget_dset_other by intuition. apply DO; tauto.
  - apply in_app_iff in I. simpl in I. destruct (Nat.eq_dec x task).
    + subst. destruct (DO task H1) as [d [s [du [pt [p [A1 [[A2 [A3 A4]] [A5 [A6 [A7 [A8 [A9 [A10 [A11 [A12 A13]]]]]]]]]]]]]]].
      rewrite H2 in A1. injection A1 as <-.
      eexists. exists s, du, pt, p, (s_t st), (tk_paused k). rewrite dget_dset_same.
      split; [reflexivity|]. cbn [tk_start tk_dur tk_paused tk_resumed tk_end].
      repeat (split; [first [assumption|reflexivity|lia]|]). assumption.
    + rewrite dget_dset_other by auto. apply DP. destruct I as [I|[I|[]]]; congruence.
  - rewrite dget_dset_other; [auto|]. intros ->. apply D2 in H1. tauto.
  - (* resume *) rewrite dget_dset_other; [auto|]. intros ->. apply D1 in I. tauto.
  - apply in_app_iff in I. simpl in I. destruct (Nat.eq_dec x task).
    + subst. destruct (DP task H2) as [d [s [du [pt [p [tp [ps [A1 [A2 [A3 [A4 [A5 [A6 [A7 [A8 [A9 [A10 [A11 [A12 [A13 [A14 A15]]]]]]]]]]]]]]]]]]]]].
      rewrite H3 in A1. injection A1 as <-.
      eexists. exists s, du, (pt + (s_t st - tp)), p. rewrite dget_dset_same.
      split; [reflexivity|]. unfold started_rec. cbn [tk_start tk_dur tk_paused tk_resumed tk_end].
      rewrite A4. split; [split; [assumption|split; [assumption|now apply paused_time_app]]|].
      replace (s_t st - s - (pt + (s_t st - tp))) with (tp - s - pt) by lia.
      rewrite !app_length. simpl.
      repeat (split; [first [assumption|reflexivity|lia]|]). assumption.
    + rewrite dget_dset_other by auto. apply DO. destruct I as [I|[I|[]]]; congruence.
  - apply pyremove_In in I; [|assumption]. rewrite dget_dset_other by intuition. apply DP; tauto.
  - rewrite dget_dset_other; [auto|]. intros ->. apply D3 in I. tauto.
  - (* failed resume *) rewrite dget_dset_other; [auto|]. intros ->. apply D1 in I. tauto.
  - apply in_app_iff in I. simpl in I. destruct (Nat.eq_dec x task).
    + subst. destruct (DP task H1) as [d [s [du [pt [p [tp [ps [A1 [A2 [A3 [A4 [A5 [A6 [A7 [A8 [A9 [A10 [A11 [A12 [A13 [A14 A15]]]]]]]]]]]]]]]]]]]]].
      rewrite H2 in A1. injection A1 as <-.
      eexists. exists s, du, (pt + (s_t st - tp)), p. rewrite dget_dset_same.
      split; [reflexivity|]. unfold started_rec. cbn [tk_start tk_dur tk_paused tk_resumed tk_end].
      rewrite A4. split; [split; [assumption|split; [assumption|now apply paused_time_app]]|].
      replace (s_t st - s - (pt + (s_t st - tp))) with (tp - s - pt) by lia.
      rewrite !app_length. simpl.
      repeat (split; [first [assumption|reflexivity|lia]|]). assumption.
    + rewrite dget_dset_other by auto. apply DO. destruct I as [I|[I|[]]]; congruence.
  - apply pyremove_In in I; [|assumption]. rewrite dget_dset_other by intuition. apply DP; tauto.
  - rewrite dget_dset_other; [auto|]. intros ->. apply D3 in I. tauto.
  - (* start *) apply pyremove_In in I; [|assumption]. rewrite dget_dset_other by intuition. apply DR; tauto.
  - apply in_app_iff in I. simpl in I. destruct (Nat.eq_dec x task).
    + subst. rewrite (DR task H2) in H3. injection H3 as <-. cbn [tk_paused tk_resumed tk_end task0] in *.
      eexists. exists (s_t st), dur, 0, 0%Q. rewrite !dget_dset_same.
      split; [reflexivity|]. unfold started_rec. cbn [tk_start tk_dur tk_paused tk_resumed tk_end paused_time].
      split; [auto|]. replace (s_t st - s_t st - 0) with 0 by lia.
      repeat (split; [first [assumption|reflexivity|lia]|]). reflexivity.
    + rewrite !dget_dset_other by auto. apply DO. destruct I as [I|[I|[]]]; congruence.
  - assert (x <> task) by (intros ->; apply D1 in H2; tauto). rewrite !dget_dset_other by auto. auto.
  - assert (x <> task) by (intros ->; apply D1 in H2; tauto). rewrite !dget_dset_other by auto. auto.
  - (* dummy *) apply pyremove_In in I; [|assumption]. rewrite dget_dset_other by intuition. apply DR; tauto.
  - assert (x <> task) by (intros ->; apply D1 in H2; tauto). rewrite !dget_dset_other by auto. auto.
  - assert (x <> task) by (intros ->; apply D1 in H2; tauto). rewrite !dget_dset_other by auto. auto.
  - apply in_app_iff in I. simpl in I. destruct (Nat.eq_dec x task).
    + subst. rewrite (DR task H2) in H3. injection H3 as <-. cbn [tk_paused tk_resumed tk_end task0] in *.
      eexists. exists (s_t st), (s_t st), 0, 0. rewrite !dget_dset_same.
      split; [reflexivity|]. unfold started_rec. cbn [tk_start tk_dur tk_paused tk_resumed tk_end paused_time].
      split; [auto|]. split; auto. split; [lia|]. split; [lia|]. split; [lia|]. left. auto.
    + rewrite !dget_dset_other by auto. apply DC. destruct I as [I|[I|[]]]; congruence.
Qed.

Lemma prog_step : forall (p : Q) n dur, 0 < dur -> (p == n # Z.to_pos dur)%Q ->
  (p + inject_Z (1) / inject_Z dur == (n + 1) # Z.to_pos dur)%Q.
Proof.
  intros p n dur H E. rewrite E. destruct dur as [|d|d]; try lia. simpl.
  unfold Qeq, Qplus, Qdiv, Qmult, Qinv, inject_Z. simpl. nia.
Qed.

Lemma thr_spec : forall (p : Q) n dur, 0 < dur -> (p == n # Z.to_pos dur)%Q ->
  Qle_bool (9999 # 10000) p = true <-> 9999 * dur <= 10000 * n.
Proof.
  intros p n dur H E. rewrite Qle_bool_iff, E. unfold Qle. simpl Qnum. simpl Qden.
  rewrite Z2Pos.id by assumption. lia.
Qed.

(** Linear progress (DeterministicTaskProgress). *)
Definition linear (dm : domain) : Prop := exists latest, d_progress dm = lin_progress latest.

Lemma timed_DT : forall dm st c s, WF st -> linear dm -> timed dm st c s -> DT st -> DT (w_t (s_t st + 1) s).
Proof.
  intros dm st c s W [latest L] M D.
  destruct (wf_sep _ W) as [D1 [D2 [D3 _]]].
  destruct (timed_spec _ _ _ _ W M)
    as [B1 [B2 [B3 [B4 [B5 [B6 [B7 [B8 [B9 [B10 [B11 [B12 [B13 _]]]]]]]]]]]]].
  destruct D as [DR DO DP DC]. constructor; proj; intros x I.
  - rewrite B2 in I. rewrite B10; auto. intros J. apply B7 in J. apply D1 in I. tauto.
  - apply B8 in I. destruct I as [I NC]. rewrite (B10 x NC).
    destruct (DO x I) as [d [s0 [du [pt [p [A1 [[A2 [A3 A4]] [A5 [A6 [A7 [A8 [A9 [A10 [A11 [A12 A13]]]]]]]]]]]]]]].
    destruct (B13 x I) as [m [d' [p' [E1 [E2 [E3 E4]]]]]]. rewrite A1 in E2. injection E2 as <-.
    rewrite A12 in E3. injection E3 as <-. cbv zeta in E4.
    destruct E4 as [[E4 _]|[_ [E5 E6]]]; [contradiction|].
    rewrite L, A3 in E5, E6. unfold lin_progress in E5, E6.
    assert (ZE : (du =? 0) = false) by lia. rewrite ZE in *. clear ZE.
    replace (s_t st + 1 - s_t st) with 1 in * by lia.
    pose proof (prog_step _ _ _ A7 A13) as PS.
    assert (NT : ~ 9999 * du <= 10000 * (s_t st - s0 - pt + 1)).
    { intros C. apply (thr_spec _ _ _ A7 PS) in C. congruence. }
    eexists d, s0, du, pt, _. split; [assumption|]. split; [split; auto|].
    replace (s_t st + 1 - s0 - pt) with (s_t st - s0 - pt + 1) by lia.
    split; [assumption|]. split; [assumption|]. split; [assumption|]. split; [lia|]. split; [assumption|].
    split; [lia|]. split; [lia|]. split; [exact E6|]. exact PS.
  - rewrite B3 in I.
    destruct (DP x I) as [d [s0 [du [pt [p [tp [ps [A1 [A2 [A3 [A4 [A5 [A6 [A7 [A8 [A9 [A10 [A11 [A12 [A13 [A14 A15]]]]]]]]]]]]]]]]]]]]].
    assert (NO : ~ In x (s_ongoing st)) by (intros J; apply D2 in J; tauto).
    rewrite B10 by (intros J; apply B7 in J; contradiction). rewrite B12 by assumption.
    exists d, s0, du, pt, p, tp, ps. repeat (split; [first [assumption|lia]|]). assumption.
  - apply B9 in I. destruct (in_dec Nat.eq_dec x c) as [J|J].
    + pose proof (B7 _ J) as JO.
      destruct (DO x JO) as [d [s0 [du [pt [p [A1 [[A2 [A3 A4]] [A5 [A6 [A7 [A8 [A9 [A10 [A11 [A12 A13]]]]]]]]]]]]]]].
      destruct (B11 x J) as [d1 [E1 E2]]. rewrite A1 in E1. injection E1 as <-.
      destruct (B13 x JO) as [m [d' [p' [F1 [F2 [F3 F4]]]]]]. rewrite A1 in F2. injection F2 as <-.
      rewrite A12 in F3. injection F3 as <-. cbv zeta in F4.
      destruct F4 as [[_ F5]|[F4 _]]; [|contradiction].
      rewrite L, A3 in F5. unfold lin_progress in F5.
      assert (ZE : (du =? 0) = false) by lia. rewrite ZE in *. clear ZE.
      replace (s_t st + 1 - s_t st) with 1 in * by lia.
      apply (thr_spec _ _ _ A7 (prog_step _ _ _ A7 A13)) in F5.
      eexists. exists s0, (s_t st + 1), du, pt. split; [exact E2|].
      unfold started_rec. cbn [tk_start tk_dur tk_paused tk_resumed tk_end].
      split; [auto|]. split; [auto|]. split; [lia|]. split; [lia|]. split; [lia|].
      right. split; [lia|]. split; lia.
    + destruct I as [I|I]; [|contradiction].
      destruct (DC x I) as [d [s0 [e [du [pt [A1 [A2 [A3 [A4 [A5 A6]]]]]]]]]].
      rewrite B10 by assumption. exists d, s0, e, du, pt.
      split; [assumption|]. split; [assumption|]. split; [assumption|]. split; [assumption|]. split; [lia|]. assumption.
Qed.

Lemma DT_w_avail : forall st v, DT st -> DT (w_avail v st).
Proof. intros st v D. destruct D. constructor; assumption. Qed.

Lemma tstep_DT : forall dm dur q st a s, WF st -> linear dm -> 0 <= dur -> tstep dm dur q st a s -> DT st -> DT s.
Proof.
  intros dm dur q st a s W L DU [T P|s1 c s2 T P M ->] D.
  - eapply phase_DT; eauto.
  - pose proof (phase_DT _ _ _ _ _ W DU P D) as D1'.
    pose proof (timed_DT _ _ _ _ (phase_WF _ _ _ _ _ W P) L M D1').
    unfold update_avail. rewrite T. now apply DT_w_avail.
Qed.

(** * Histories *)

(** States reached from the initial state by transitions satisfying [ok]. *)
Inductive hist (dm : domain) (q0 : nat -> Z -> Z)
          (ok : state -> Z -> (nat -> Z -> Z) -> action -> Prop) : state -> Prop :=
| h_init : hist dm q0 ok (initial_state dm q0)
| h_step : forall s dur q a s', hist dm q0 ok s -> ok s dur q a -> next_state dm dur q s a = Ok s' ->
    hist dm q0 ok s'.

Lemma hist_weaken : forall dm q0 (ok ok' : state -> Z -> (nat -> Z -> Z) -> action -> Prop) s,
  (forall s dur q a, ok s dur q a -> ok' s dur q a) -> hist dm q0 ok s -> hist dm q0 ok' s.
Proof. intros dm q0 ok ok' s H P. induction P; econstructor; eauto. Qed.

Lemma WF_init : forall dm q, WF (initial_state dm q).
Proof.
  intros dm q. constructor; unfold initial_state; proj; simpl.
  - unfold all_of. proj. rewrite app_nil_r. apply NoDup_filter, NoDup_nodup.
  - tauto.
  - constructor.
  - intros x [].
  - discriminate.
  - tauto.
Qed.

Lemma hist_inv : forall dm q0 ok (I : state -> Prop), I (initial_state dm q0) ->
  (forall s dur q a s', WF s -> hist dm q0 ok s -> I s -> ok s dur q a -> tstep dm dur q s a s' -> I s') ->
  forall s, hist dm q0 ok s -> WF s /\ I s.
Proof.
  intros dm q0 ok I I0 IS s H. induction H as [|s dur q a s' H [W IH] O N].
  - split; [apply WF_init|assumption].
  - pose proof (next_state_tstep _ _ _ _ _ _ W N) as T.
    split; [exact (proj1 (tstep_WF _ _ _ _ _ _ W T))|]. eapply IS; eauto.
Qed.

Lemma hist_WF : forall dm q0 ok s, hist dm q0 ok s -> WF s.
Proof. intros dm q0 ok s H. exact (proj1 (hist_inv dm q0 ok (fun _ => True) I (fun _ _ _ _ _ _ _ _ _ _ => I) s H)). Qed.

Lemma hist_all : forall dm q0 ok s, hist dm q0 ok s -> Permutation (all_of s) (unconditional dm).
Proof.
  intros dm q0 ok s H.
  refine (proj2 (hist_inv dm q0 ok (fun s => Permutation (all_of s) (unconditional dm)) _ _ s H)).
  - unfold all_of, initial_state. proj. now rewrite app_nil_r.
  - intros s1 dur q a s2 W _ P _ T. destruct (tstep_WF _ _ _ _ _ _ W T) as [_ P2]. now rewrite P2.
Qed.

Lemma phase_status : forall dm dur st a s, WF st -> phase dm dur st a s ->
  incl (s_complete st) (s_complete s) /\ incl (s_remaining s) (s_remaining st).
Proof.
  intros dm dur st a s W P. destruct (wf_sep _ W) as [_ [_ [_ [N1 _]]]]. destruct P; proj; split;
    try apply incl_refl; try (intros x I; apply in_app_iff; auto; fail);
    intros x I; apply pyremove_In in I; tauto.
Qed.

Lemma tstep_status : forall dm dur q st a s, WF st -> tstep dm dur q st a s ->
  incl (s_complete st) (s_complete s) /\ incl (s_remaining s) (s_remaining st).
Proof.
  intros dm dur q st a s W [T P|s1 c s2 T P M ->].
  - eapply phase_status; eauto.
  - destruct (phase_status _ _ _ _ _ W P) as [A B].
    destruct (timed_spec _ _ _ _ (phase_WF _ _ _ _ _ W P) M) as [_ [R [_ [_ [_ [_ [_ [_ [C _]]]]]]]]].
    unfold update_avail. rewrite T. proj. split.
    + intros x I. apply C. auto.
    + now rewrite R.
Qed.

Lemma phase_t : forall dm dur st a s, phase dm dur st a s -> s_t s = s_t st.
Proof. intros dm dur st a s P. destruct P; reflexivity. Qed.

Lemma tstep_t : forall dm dur q st a s, WF st -> tstep dm dur q st a s ->
  s_t s = s_t st + (if a_tp a then 1 else 0).
Proof.
  intros dm dur q st a s W [T P|s1 c s2 T P M ->]; rewrite T.
  - rewrite (phase_t _ _ _ _ _ P). lia.
  - unfold update_avail. rewrite T. proj. rewrite (phase_t _ _ _ _ _ P). lia.
Qed.

(** Recorded dates do not change once set. *)
Lemma phase_details : forall dm dur st a s x, WF st -> phase dm dur st a s ->
  (In x (s_complete st) -> dget (s_details s) x = dget (s_details st) x) /\
  (~ In x (s_remaining st) -> option_map tk_start (dget (s_details s) x) = option_map tk_start (dget (s_details st) x)).
Proof.
  intros dm dur st a s x W P. destruct (wf_sep _ W) as [D1 [D2 [D3 _]]].
  destruct P; proj; split; intros I; auto; rewrite dget_dset;
    destruct (pyeqb_spec task x) as [E|E]; auto; subst.
  - apply D2 in H1. tauto.
  - rewrite H2. reflexivity.
  - apply D3 in I. tauto.
  - rewrite H3. reflexivity.
  - apply D3 in I. tauto.
  - rewrite H2. reflexivity.
  - apply D1 in H2. tauto.
  - contradiction.
  - apply D1 in H2. tauto.
  - contradiction.
Qed.

Lemma tstep_details : forall dm dur q st a s x, WF st -> tstep dm dur q st a s ->
  (In x (s_complete st) -> dget (s_details s) x = dget (s_details st) x) /\
  (~ In x (s_remaining st) -> option_map tk_start (dget (s_details s) x) = option_map tk_start (dget (s_details st) x)).
Proof.
  intros dm dur q st a s x W [T P|s1 c s2 T P M ->].
  - eapply phase_details; eauto.
  - destruct (phase_details _ _ _ _ _ x W P) as [A B].
    destruct (phase_status _ _ _ _ _ W P) as [A' _].
    pose proof (phase_WF _ _ _ _ _ W P) as W1. destruct (wf_sep _ W1) as [_ [D2 _]].
    destruct (timed_spec _ _ _ _ W1 M) as [_ [_ [_ [_ [_ [_ [C [_ [_ [D [E _]]]]]]]]]]].
    unfold update_avail. rewrite T. proj. split; intros I.
    + rewrite D; auto. intros J. apply C in J. apply D2 in J. apply (proj1 J), A', I.
    + rewrite <- (B I). destruct (in_dec Nat.eq_dec x c) as [J|J].
      * destruct (E x J) as [d [E1 E2]]. now rewrite E1, E2.
      * now rewrite D.
Qed.

Lemma details_fold : forall (l : list nat) d x,
  dget (fold_left (fun d n => dset d n task0) l d) x = if pymem x l then Some task0 else dget d x.
Proof.
  induction l as [|n l IH]; intros d x; [reflexivity|].
  cbn [fold_left]. rewrite IH, dget_dset. unfold pymem. cbn [existsb pyeqb PyEq_nat].
  rewrite (Nat.eqb_sym n x). destruct (existsb (Nat.eqb x) l) eqn:E; [now rewrite orb_true_r|].
  destruct (Nat.eqb_spec x n); simpl; auto.
Qed.

Lemma DT_init : forall dm q, DT (initial_state dm q).
Proof.
  intros dm q. constructor; unfold initial_state; proj; try (intros x []).
  intros x I. rewrite details_fold. unfold unconditional in I. apply filter_In in I. destruct I as [I _].
  apply nodup_In in I. now rewrite (proj2 (pymem_true x (d_tasks dm)) I).
Qed.

Lemma hist_DT : forall dm q0 (ok : state -> Z -> (nat -> Z -> Z) -> action -> Prop) s, linear dm -> (forall s dur q a, ok s dur q a -> 0 <= dur) ->
  hist dm q0 ok s -> DT s.
Proof.
  intros dm q0 ok s L O H.
  refine (proj2 (hist_inv dm q0 ok DT (DT_init dm q0) _ s H)).
  intros s1 dur q a s2 W _ D OK T. eapply tstep_DT; eauto.
Qed.

(** The parts of the dates that do not depend on how progress is made. *)
Record DR (st : state) : Prop := {
  dr_rem : forall x, In x (s_remaining st) -> dget (s_details st) x = Some task0;
  dr_sta : forall x, In x (s_ongoing st ++ s_complete st ++ s_paused st) -> exists d s,
     dget (s_details st) x = Some d /\ tk_start d = Some s /\ s <= s_t st /\
     (In x (s_complete st) -> exists e, tk_end d = Some e /\ s <= e <= s_t st) /\
     (~ In x (s_complete st) -> tk_end d = None) }.

Lemma DR_init : forall dm q, DR (initial_state dm q).
Proof.
  intros dm q. constructor; [apply DT_init|]. unfold initial_state; proj. intros x [].
Qed.

Lemma phase_DR : forall dm dur st a s, WF st -> phase dm dur st a s -> DR st -> DR s.
Proof.
  intros dm dur st a s W P D. destruct (wf_sep _ W) as [D1 [D2 [D3 [N1 [N2 [N3 N4]]]]]].
  destruct D as [DR0 DS]. destruct P; [constructor; assumption|..]; constructor; proj; intros x I.
  - rewrite dget_dset_other; [auto|]. intros ->. apply D1 in I. tauto.
  - destruct (DS x) as [d [s [A1 [A2 [A3 [A4 A5]]]]]].
    { rewrite !in_app_iff in *. rewrite pyremove_In in I by assumption. simpl in I. intuition (subst; auto). }
    rewrite dget_dset. destruct (pyeqb_spec task x) as [E|E]; [|exists d, s; auto]. subst.
    rewrite H2 in A1. injection A1 as <-. eexists _, s. split; [reflexivity|]. cbn [tk_start tk_end].
    split; auto.
  - rewrite dget_dset_other; [auto|]. intros ->. apply D1 in I. tauto.
  - destruct (DS x) as [d [s [A1 [A2 [A3 [A4 A5]]]]]].
    { rewrite !in_app_iff in *. rewrite pyremove_In in I by assumption. simpl in I. intuition (subst; auto). }
    rewrite dget_dset. destruct (pyeqb_spec task x) as [E|E]; [|exists d, s; auto]. subst.
    rewrite H3 in A1. injection A1 as <-. eexists _, s. split; [reflexivity|]. cbn [tk_start tk_end].
    split; auto.
  - rewrite dget_dset_other; [auto|]. intros ->. apply D1 in I. tauto.
  - destruct (DS x) as [d [s [A1 [A2 [A3 [A4 A5]]]]]].
    { rewrite !in_app_iff in *. rewrite pyremove_In in I by assumption. simpl in I. intuition (subst; auto). }
    rewrite dget_dset. destruct (pyeqb_spec task x) as [E|E]; [|exists d, s; auto]. subst.
    rewrite H2 in A1. injection A1 as <-. eexists _, s. split; [reflexivity|]. cbn [tk_start tk_end].
    split; auto.
  - apply pyremove_In in I; [|assumption]. rewrite dget_dset_other by intuition. apply DR0; tauto.
  - rewrite dget_dset. destruct (pyeqb_spec task x) as [E|E].
    + subst. rewrite (DR0 x H2) in H3. injection H3 as <-. eexists _, (s_t st). split; [reflexivity|].
      cbn [tk_start tk_end task0]. split; [reflexivity|]. split; [lia|]. split; [|auto].
      intros J. apply D1 in H2. tauto.
    + apply DS. rewrite !in_app_iff in *. simpl in I. intuition congruence.
  - apply pyremove_In in I; [|assumption]. rewrite dget_dset_other by intuition. apply DR0; tauto.
  - rewrite dget_dset. destruct (pyeqb_spec task x) as [E|E].
    + subst. eexists _, (s_t st). split; [reflexivity|].
      cbn [tk_start tk_end task0]. split; [reflexivity|]. split; [lia|]. split.
      * intros _. eexists. split; [reflexivity|]. lia.
      * intros J. contradict J. apply in_app_iff. simpl. auto.
    + rewrite !in_app_iff in *. simpl in I.
      destruct (DS x) as [d [s [A1 [A2 [A3 [A4 A5]]]]]]; [rewrite !in_app_iff; intuition congruence|].
      exists d, s. split; auto. split; auto. split; auto. split.
      * intros J. apply A4. apply in_app_iff in J. simpl in J. intuition congruence.
      * intros J. apply A5. intros K. apply J. apply in_app_iff. auto.
Qed.

Lemma timed_DR : forall dm st c s, WF st -> timed dm st c s -> DR st -> DR (w_t (s_t st + 1) s).
Proof.
  intros dm st c s W M D. destruct (wf_sep _ W) as [D1 [D2 [D3 _]]].
  destruct (timed_spec _ _ _ _ W M)
    as [B1 [B2 [B3 [B4 [B5 [B6 [B7 [B8 [B9 [B10 [B11 _]]]]]]]]]]].
  destruct D as [DR0 DS]. constructor; proj; intros x I.
  - rewrite B2 in I. rewrite B10; auto. intros J. apply B7 in J. apply D1 in I. tauto.
  - rewrite !in_app_iff, B8, B9, B3 in I.
    destruct (DS x) as [d [s0 [A1 [A2 [A3 [A4 A5]]]]]].
    { rewrite !in_app_iff. intuition. }
    destruct (in_dec Nat.eq_dec x c) as [J|J].
    + destruct (B11 x J) as [d' [E1 E2]]. rewrite A1 in E1. injection E1 as <-.
      eexists _, s0. split; [exact E2|]. cbn [tk_start tk_end]. split; auto. split; [lia|]. split.
      * intros _. eexists. split; [reflexivity|]. lia.
      * intros K. contradict K. apply B9. auto.
    + exists d, s0. rewrite (B10 x J). split; auto. split; auto. split; [lia|]. split.
      * intros K. apply B9 in K. destruct K as [K|K]; [|contradiction]. destruct (A4 K) as [e [E1 E2]].
        exists e. split; auto. lia.
      * intros K. apply A5. intros K2. apply K, B9. auto.
Qed.

Lemma tstep_DR : forall dm dur q st a s, WF st -> tstep dm dur q st a s -> DR st -> DR s.
Proof.
  intros dm dur q st a s W [T P|s1 c s2 T P M ->] D.
  - eapply phase_DR; eauto.
  - pose proof (phase_DR _ _ _ _ _ W P D) as D1'.
    pose proof (timed_DR _ _ _ _ (phase_WF _ _ _ _ _ W P) M D1') as X.
    unfold update_avail. rewrite T. destruct X. constructor; assumption.
Qed.

Lemma hist_DR : forall dm q0 ok s, hist dm q0 ok s -> DR s.
Proof.
  intros dm q0 ok s H. refine (proj2 (hist_inv dm q0 ok DR (DR_init dm q0) _ s H)).
  intros s1 dur q a s2 W _ D _ T. eapply tstep_DR; eauto.
Qed.

Lemma phase_conds : forall dm dur st a s, phase dm dur st a s -> s_conds s = s_conds st.
Proof. intros dm dur st a s P. destruct P; reflexivity. Qed.

Lemma hist_conds : forall dm q0 ok s, hist dm q0 ok s -> s_conds s = [].
Proof.
  intros dm q0 ok s H. refine (proj2 (hist_inv dm q0 ok (fun s => s_conds s = []) eq_refl _ s H)).
  intros s1 dur q a s2 W _ D _ [T P|s3 c s4 T P M ->].
  - now rewrite (phase_conds _ _ _ _ _ P).
  - destruct (timed_spec _ _ _ _ (phase_WF _ _ _ _ _ W P) M) as [_ [_ [_ [_ [_ [B _]]]]]].
    unfold update_avail. rewrite T. proj. now rewrite B, (phase_conds _ _ _ _ _ P).
Qed.

(** * Accounting along histories *)

Lemma sum_zero_qty : forall (l : list (nat * Z)) r, qty (map (fun e => (fst e, 0)) l) r = 0.
Proof.
  intros l r. unfold qty. induction l as [|[k v] l IH]; [reflexivity|].
  simpl. destruct (Nat.eqb _ _); auto.
Qed.

Lemma used_init : forall dm q r, qty (s_used (initial_state dm q)) r = 0.
Proof. intros dm q r. unfold initial_state. proj. apply sum_zero_qty. Qed.

Lemma tstep_bal_ge : forall dm dur q st a s r, WF st -> need_nonneg dm -> is_renewable dm r = Ok true ->
  tstep dm dur q st a s -> bal st r <= bal s r.
Proof.
  intros dm dur q st a s r W NN RN TS.
  assert (PH : forall s1, phase dm dur st a s1 -> bal st r <= bal s1 r).
  { intros s1 P. destruct (phase_bal _ _ _ _ _ r W RN P) as [E|[_ [task [mode [time [rtu [_ [_ [_ [G E]]]]]]]]]].
    - lia.
    - pose proof (rtu_nonneg _ _ _ _ _ _ NN G r). lia. }
  destruct TS as [T P|s1 c s2 T P M ->]; auto.
  pose proof (timed_bal _ _ _ _ r (phase_WF _ _ _ _ _ W P) RN M) as E.
  specialize (PH s1 P). unfold update_avail. rewrite T. unfold bal in *. proj. lia.
Qed.

(** Tasks of zero duration need nothing. *)
Definition free_dummy (dm : domain) (dur : Z) (a : action) : Prop :=
  a_kind a = START -> dur = 0 -> a_units a = None /\
  forall k m c r time q, a_task a = Some k -> a_mode a = Some m -> get_mode dm k m = Ok c ->
    need_at c r time = Ok q -> q = 0.

Lemma tstep_bal : forall dm dur q st a s r, WF st -> free_dummy dm dur a -> is_renewable dm r = Ok true ->
  tstep dm dur q st a s -> bal s r = bal st r.
Proof.
  intros dm dur q st a s r W FD RN TS.
  assert (PH : forall s1, phase dm dur st a s1 -> bal s1 r = bal st r).
  { intros s1 P. destruct (phase_bal _ _ _ _ _ r W RN P) as [E|[D [task [mode [time [rtu [K [A1 [A2 [G E]]]]]]]]]].
    - lia.
    - destruct (FD K D) as [U F]. rewrite U in G.
      destruct (get_resource_used_spec _ _ _ _ _ _ G) as [_ [_ Q]].
      assert (qty rtu r = 0); [|lia]. unfold qty. destruct (dget rtu r) eqn:ED; [|reflexivity].
      specialize (Q _ _ ED). simpl in Q. destruct Q as [c [Q1 Q2]]. eapply F; eauto. }
  destruct TS as [T P|s1 c s2 T P M ->]; auto.
  pose proof (timed_bal _ _ _ _ r (phase_WF _ _ _ _ _ W P) RN M) as E.
  specialize (PH s1 P). unfold update_avail. rewrite T. unfold bal in *. proj. lia.
Qed.

Lemma heldsum_nil : forall st r, WF st -> s_ongoing st = [] -> heldsum (s_held st) r = 0.
Proof.
  intros st r W E. destruct (s_held st) as [|[k h] l] eqn:H; [reflexivity|].
  exfalso. assert (I : In k (dkeys (s_held st))) by (rewrite H; simpl; auto).
  apply (wf_held_ong _ W) in I. now rewrite E in I.
Qed.
