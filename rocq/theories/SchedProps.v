(** Properties C20-C26, C47-C48 of scheduling domains.

    [hist dm q0 ok s] (SchedProofs) is "state [s] is reached from the initial state by transitions
    [next_state] whose (state, duration, availabilities, action) all satisfy [ok]".  [offered] is
    "listed by the applicable-action space".  [starts s k t], [ends s k t] are the recorded dates. *)
From Coq Require Import List ZArith QArith Lia Bool Permutation.
From Verif Require Import Py SchedModel SchedProofs SchedActProofs.
Import ListNotations.
Open Scope nat_scope.
Open Scope Z_scope.

(** * Running examples *)

Definition anything : state -> Z -> (nat -> Z -> Z) -> action -> Prop := fun _ _ _ _ => True.

(** Applies a list of (duration, action). *)
Fixpoint play (dm : domain) (q : nat -> Z -> Z) (l : list (Z * action)) (st : state) : res state :=
  match l with
  | [] => Ok st
  | (d, a) :: r => let* s := next_state dm d q st a in play dm q r s
  end.

(** Applies the [i]-th offered action, for a list of (duration, [i]). *)
Fixpoint play_offered (dm : domain) (q : nat -> Z -> Z) (l : list (Z * nat)) (st : state) : option state :=
  match l with
  | [] => Some st
  | (d, i) :: r =>
      match action_space dm st with
      | Ok acts => match nth_error acts i with
                   | Some a => match next_state dm d q st a with
                               | Ok s => play_offered dm q r s | Err _ => None end
                   | None => None end
      | Err _ => None
      end
  end.

Lemma play_hist : forall dm q0 q l s s', hist dm q0 anything s -> play dm q l s = Ok s' -> hist dm q0 anything s'.
Proof.
  intros dm q0 q. induction l as [|[d a] r IH]; cbn [play]; intros s s' H P.
  - injection P as <-. assumption.
  - apply bind_ok in P. destruct P as [s1 [E P]]. eapply IH; [|exact P].
    econstructor; [exact H|exact I|exact E].
Qed.

Lemma play_offered_hist : forall dm cap l s s', (forall x, In x l -> 0 <= fst x) ->
  hist dm (fun r _ => cap r) (offered_at dm cap) s -> play_offered dm (fun r _ => cap r) l s = Some s' ->
  hist dm (fun r _ => cap r) (offered_at dm cap) s'.
Proof.
  intros dm cap. induction l as [|[d i] r IH]; cbn [play_offered]; intros s s' NN H P.
  - injection P as <-. assumption.
  - destruct (action_space dm s) as [acts|] eqn:A; [|discriminate].
    destruct (nth_error acts i) as [a|] eqn:N; [|discriminate].
    destruct (next_state dm d (fun r _ => cap r) s a) as [s1|] eqn:E; [|discriminate].
    eapply IH; [|econstructor; [exact H| |exact E]|exact P].
    + intros x I. apply NN. simpl; auto.
    + split; [apply (NN (d, i)); simpl; auto|]. split; [reflexivity|]. exists acts. split; auto.
      eapply nth_error_In; eauto.
Qed.

(** Four tasks 0 -> {1, 2} -> 3; 0 and 3 are dummies; resource 0 is renewable, 1 is not. *)
Definition cst (a b : Z) : consumption := Constant [(0%nat, a); (1%nat, b)].
Definition dom1 : domain := {|
  d_tasks := [0; 1; 2; 3]%nat;
  d_modes := [(0%nat, [(1%nat, cst 0 0)]); (1%nat, [(1%nat, cst 2 1)]);
              (2%nat, [(1%nat, cst 1 3)]); (3%nat, [(1%nat, cst 0 0)])];
  d_types := [0; 1]%nat; d_units := [];
  d_renew := Some [(0%nat, true); (1%nat, false)];
  d_preempt := [(0%nat, false); (1%nat, false); (2%nat, false); (3%nat, false)];
  d_paused_ret := []; d_skills := None;
  d_progress := lin_progress (fun _ _ => 0);
  d_succ := [(0, [1; 2]); (1, [3]); (2, [3]); (3, [])]%nat;
  d_exist := []; d_cond := []; d_horizon := 100; d_mode_costs := []; d_res_costs := [];
  d_makespan := true; d_cost := false |}.
Definition cap1 (r : nat) : Z := match r with O => 2 | _ => 5 end.

(** The same with pre-emption allowed and only the renewable resource. *)
Definition dom2 : domain := {|
  d_tasks := [0; 1; 2; 3]%nat;
  d_modes := [(0%nat, [(1%nat, cst 0 0)]); (1%nat, [(1%nat, cst 2 1)]);
              (2%nat, [(1%nat, cst 1 3)]); (3%nat, [(1%nat, cst 0 0)])];
  d_types := [0%nat]; d_units := [];
  d_renew := None;
  d_preempt := [(0%nat, false); (1%nat, true); (2%nat, true); (3%nat, false)];
  d_paused_ret := []; d_skills := None;
  d_progress := lin_progress (fun _ _ => 0);
  d_succ := [(0, [1; 2]); (1, [3]); (2, [3]); (3, [])]%nat;
  d_exist := []; d_cond := []; d_horizon := 100; d_mode_costs := []; d_res_costs := [];
  d_makespan := true; d_cost := false |}.


(** Dates and quantities of a final state, for the examples. *)
Definition run1 : list (Z * nat) :=
  [(0, 0%nat); (2, 0%nat); (0, 0%nat); (0, 0%nat); (3, 0%nat); (0, 0%nat); (0, 0%nat); (0, 0%nat); (0, 0%nat)].
Definition play1 := play_offered dom1 (fun r _ => cap1 r) run1
  (initial_state dom1 (fun r _ => cap1 r)).

Lemma dom1_const : const_dom dom1.
Proof.
  intros k m c H. unfold get_mode in H. mon. apply dget_In in H0. apply dget_In in H. simpl in H0.
  destruct H0 as [E|[E|[E|[E|[]]]]]; injection E as <- <-; destruct H as [E|[]]; injection E as <- <-;
    unfold cst; eauto.
Qed.

Lemma dom1_nonneg : need_nonneg dom1.
Proof.
  intros k m c r time q H N. unfold get_mode in H. mon. apply dget_In in H0. apply dget_In in H. simpl in H0.
  destruct H0 as [E|[E|[E|[E|[]]]]]; injection E as <- <-; destruct H as [E|[]]; injection E as <- <-;
    unfold cst in N; simpl in N; destruct (Nat.eqb r 0), (Nat.eqb r 1); injection N as <-; lia.
Qed.

Lemma dom1_np : no_preempt dom1.
Proof. intros n H. apply dget_In in H. simpl in H. intuition congruence. Qed.

Lemma cap1_nonneg : forall r, 0 <= cap1 r.
Proof. intros [|]; simpl; lia. Qed.

Ltac play_nonneg :=
  let x := fresh in let J := fresh in
  intros x J; simpl in J; repeat (destruct J as [ <- |J]; [simpl; lia|]); destruct J.

(** * C20: one status per task *)

(** Exactly one of the four statuses. *)
Definition one_status (st : state) (k : nat) : Prop :=
  let r := In k (s_remaining st) in let o := In k (s_ongoing st) in
  let p := In k (s_paused st) in let c := In k (s_complete st) in
  (r /\ ~ o /\ ~ p /\ ~ c) \/ (~ r /\ o /\ ~ p /\ ~ c) \/ (~ r /\ ~ o /\ p /\ ~ c) \/ (~ r /\ ~ o /\ ~ p /\ c).
Definition no_status (st : state) (k : nat) : Prop :=
  ~ In k (s_remaining st) /\ ~ In k (s_ongoing st) /\ ~ In k (s_paused st) /\ ~ In k (s_complete st).

Lemma all_one_status : forall st k, WF st -> In k (all_of st) -> one_status st k.
Proof.
  intros st k W I. destruct (wf_sep _ W) as [D1 [D2 [D3 _]]].
  specialize (D1 k). specialize (D2 k). specialize (D3 k).
  unfold all_of in I. rewrite !in_app_iff in I. unfold one_status. tauto.
Qed.

(** Every task without existence conditions has exactly one status in every reachable state, whatever
    the actions; a task identifier foreign to the problem has none; a completed task stays completed
    and a task never returns to remaining. *)
Theorem C20_one_status : forall dm q0 s, hist dm q0 anything s ->
  (forall k, In k (d_tasks dm) -> dget (d_exist dm) k = None -> one_status s k) /\
  (forall k, ~ In k (d_tasks dm) -> no_status s k) /\
  NoDup (s_remaining s) /\ NoDup (s_ongoing s) /\ NoDup (s_paused s) /\ NoDup (s_complete s) /\
  (forall dur q a s', next_state dm dur q s a = Ok s' ->
     incl (s_complete s) (s_complete s') /\ incl (s_remaining s') (s_remaining s)).
Proof.
  intros dm q0 s H. pose proof (hist_WF _ _ _ _ H) as W. pose proof (hist_all _ _ _ _ H) as P.
  destruct (wf_sep _ W) as [D1 [D2 [D3 [N1 [N2 [N3 N4]]]]]].
  split; [|split; [|repeat match goal with |- _ /\ _ => split end; auto]].
  - intros k I E. apply all_one_status; auto. eapply Permutation_in; [symmetry; exact P|].
    unfold unconditional. apply filter_In. rewrite E. split; auto. now apply nodup_In.
  - intros k N. assert (X : ~ In k (all_of s)).
    { intros I. apply (Permutation_in _ P) in I. unfold unconditional in I. apply filter_In in I.
      destruct I as [I _]. apply nodup_In in I. contradiction. }
    unfold all_of in X. rewrite !in_app_iff in X. unfold no_status. tauto.
  - intros dur q a s' E. eapply tstep_status; eauto. eapply next_state_tstep; eauto.
Qed.

Example C20_one_status_ex : exists s, play1 = Some s /\ hist dom1 (fun r _ => cap1 r) anything s /\
  s_complete s = [0; 1; 2; 3]%nat /\ s_remaining s = [].
Proof.
  eexists. split; [vm_compute; reflexivity|]. split; [|split; reflexivity].
  eapply hist_weaken; [|eapply play_offered_hist with (l := run1); [|apply h_init|]].
  - intros; exact I.
  - play_nonneg.
  - vm_compute. reflexivity.
Qed.

(** States reached through the stochastic transitions. *)
Inductive uhist (dm : domain) (q0 : nat -> Z -> Z) : state -> Prop :=
| uh_init : uhist dm q0 (initial_state dm q0)
| uh_step : forall s durs q a l s' p, uhist dm q0 s -> next_dist dm durs q s a = Ok l -> In (s', p) l ->
    uhist dm q0 s'.

Lemma uhist_UI : forall dm q0 s, uhist dm q0 s -> UI dm s.
Proof.
  intros dm q0 s H. induction H as [|s durs q a l s' p H IH N I].
  - apply UI_init.
  - eapply ustep_UI; eauto. eapply next_dist_ustep; eauto; apply IH.
Qed.

(** All existence conditions of [k] hold. *)
Definition conditions_hold (dm : domain) (st : state) (k : nat) : Prop :=
  forall cs, dget (d_exist dm) k = Some cs -> forall c, In c cs -> In c (s_conds st).

Lemma available_iff : forall dm st k, In k (available dm st) <-> In k (d_tasks dm) /\ conditions_hold dm st k.
Proof.
  intros dm st k. unfold available, conditions_hold. rewrite filter_In, nodup_In.
  destruct (dget (d_exist dm) k) as [cs|].
  - rewrite forallb_forall. split; intros [A B]; split; auto.
    + intros cs' E c J. injection E as <-. apply (pymem_true c (s_conds st)). auto.
    + intros c J. apply (pymem_true c (s_conds st)). eapply B; eauto.
  - split; intros [A B]; split; auto. discriminate.
Qed.

(** With conditional tasks: a task has at most one status, it has one only if its conditions hold, every
    unconditional task has one, statuses do not disappear, and a time step gives one to every task
    whose conditions held before it. *)
Theorem C20_conditional_status : forall dm q0 s, uhist dm q0 s ->
  (forall k, one_status s k \/ no_status s k) /\
  (forall k, one_status s k -> In k (d_tasks dm) /\ conditions_hold dm s k) /\
  (forall k, In k (d_tasks dm) -> dget (d_exist dm) k = None -> one_status s k) /\
  (forall durs q a l s' p k, next_dist dm durs q s a = Ok l -> In (s', p) l ->
     (one_status s k -> one_status s' k) /\
     (In k (s_complete s) -> In k (s_complete s')) /\
     (a_tp a = true -> In k (d_tasks dm) -> conditions_hold dm s k -> one_status s' k)).
Proof.
  intros dm q0 s H. pose proof (uhist_UI _ _ _ H) as U. destruct U as [W [A B]].
  assert (ON : forall st k, one_status st k -> In k (all_of st)).
  { intros st k O. unfold one_status in O. unfold all_of. rewrite !in_app_iff. tauto. }
  split; [|split; [|split]].
  - intros k. destruct (in_dec Nat.eq_dec k (all_of s)) as [I|I].
    + left. now apply all_one_status.
    + right. unfold all_of in I. rewrite !in_app_iff in I. unfold no_status. tauto.
  - intros k O. apply available_iff. auto.
  - intros k I E. apply all_one_status; auto. apply B. unfold unconditional. apply filter_In. rewrite E.
    split; auto. now apply nodup_In.
  - intros durs q a l s' p k N I.
    destruct (ustep_UI dm durs q s a s') as [[W' _] [X1 [X2 X3]]].
    { split; auto. } { eapply next_dist_ustep; eauto. }
    split; [|split].
    + intros O. apply all_one_status; auto.
    + apply X2.
    + intros T J C. apply all_one_status; auto. apply X3; auto. now apply available_iff.
Qed.

(** Task 1 exists when condition 7 holds, which the completion of task 0 decides. *)
Definition dom_cond : domain := {|
  d_tasks := [0; 1]%nat;
  d_modes := [(0%nat, [(1%nat, Constant [])]); (1%nat, [(1%nat, Constant [])])];
  d_types := []; d_units := []; d_renew := None; d_preempt := [(0%nat, false); (1%nat, false)];
  d_paused_ret := []; d_skills := None; d_progress := lin_progress (fun _ _ => 0);
  d_succ := []; d_exist := [(1%nat, [7%nat])];
  d_cond := [(0%nat, [[(7%nat, 1 # 4); (8%nat, 3 # 4)]])];
  d_horizon := 100; d_mode_costs := []; d_res_costs := []; d_makespan := true; d_cost := false |}.


(** Follows the [i]-th outcome of each stochastic transition. *)
Fixpoint uplay (dm : domain) (q : nat -> Z -> Z) (l : list (list (Z * Q) * action * nat)) (st : state) : option state :=
  match l with
  | [] => Some st
  | (durs, a, i) :: r =>
      match next_dist dm durs q st a with
      | Ok d => match nth_error d i with Some (s, _) => uplay dm q r s | None => None end
      | Err _ => None
      end
  end.

Lemma uplay_hist : forall dm q0 q l s s', uhist dm q0 s -> uplay dm q l s = Some s' -> uhist dm q0 s'.
Proof.
  intros dm q0 q. induction l as [|[[durs a] i] r IH]; cbn [uplay]; intros s s' H P.
  - injection P as <-. assumption.
  - destruct (next_dist dm durs q s a) as [d|] eqn:E; [|discriminate].
    destruct (nth_error d i) as [[s1 p]|] eqn:N; [|discriminate].
    eapply IH; [|exact P]. eapply uh_step; [exact H|exact E|eapply nth_error_In; exact N].
Qed.

Definition run_cond : list (list (Z * Q) * action * nat) :=
  [([(1, 1%Q)], start_act 0 1, 0%nat); ([], time_act, 0%nat)].

(** The state reached after task 0 (duration 1) is a goal state, and terminal, although condition 7
    holds and task 1 has not been executed: it has no status at all. *)
Theorem C20_goal_before_conditional_refuted : exists dm q0 s, uhist dm q0 s /\ is_goal s = true /\
  is_terminal dm s = Ok true /\
  exists k, In k (d_tasks dm) /\ conditions_hold dm s k /\ no_status s k.
Proof.
  exists dom_cond, (fun _ _ => 0). eexists. split.
  { eapply uplay_hist with (l := run_cond) (q := fun _ _ => 0); [apply uh_init|]. vm_compute. reflexivity. }
  split; [reflexivity|]. split; [reflexivity|].
  exists 1%nat. split; [simpl; auto|]. split.
  - intros cs E c I. injection E as <-. simpl in *. tauto.
  - unfold no_status. simpl. intuition discriminate.
Qed.

Example C20_conditional_status_ex : exists s, uhist dom_cond (fun _ _ => 0) s /\
  s_remaining s = [1%nat] /\ s_complete s = [0%nat] /\ s_conds s = [7%nat].
Proof.
  eexists. split.
  { eapply uplay_hist with (l := run_cond ++ [([], time_act, 0%nat)]) (q := fun _ _ => 0); [apply uh_init|].
    vm_compute. reflexivity. }
  auto.
Qed.

(** * C21: resource accounting *)

(** [heldsum (s_held s) r] is the sum, over the tasks holding resources, of what each holds of [r]. *)

(** Renewable resources: what is in use is what the tasks hold, provided tasks of zero duration need
    nothing; it is never negative (in any case), and zero when no task is ongoing. *)
Theorem C21_renewable : forall dm q0 s r, need_nonneg dm -> is_renewable dm r = Ok true ->
  hist dm q0 (fun _ dur _ a => free_dummy dm dur a) s ->
  qty (s_used s) r = heldsum (s_held s) r /\ 0 <= qty (s_used s) r /\
  incl (dkeys (s_held s)) (s_ongoing s) /\
  (s_ongoing s = [] -> qty (s_used s) r = 0).
Proof.
  intros dm q0 s r NN RN H. pose proof (hist_WF _ _ _ _ H) as W.
  assert (B : bal s r = 0).
  { refine (proj2 (hist_inv dm q0 _ (fun s => bal s r = 0) _ _ s H)).
    - unfold bal. rewrite used_init. reflexivity.
    - intros s1 dur q a s2 W1 _ B1 OK T. rewrite (tstep_bal _ _ _ _ _ _ r W1 OK RN T). exact B1. }
  unfold bal in B. pose proof (heldsum_nonneg _ r (wf_held_nd _ W) (hist_nonneg _ _ _ _ NN H)).
  split; [lia|]. split; [lia|]. split; [apply (wf_held_ong _ W)|].
  intros E. rewrite (heldsum_nil _ r W E) in B. lia.
Qed.

Theorem C21_never_negative : forall dm q0 s r, need_nonneg dm -> is_renewable dm r = Ok true ->
  hist dm q0 anything s -> 0 <= heldsum (s_held s) r <= qty (s_used s) r.
Proof.
  intros dm q0 s r NN RN H. pose proof (hist_WF _ _ _ _ H) as W.
  pose proof (hist_bal_ge _ _ _ _ r NN RN H) as B. unfold bal in B.
  pose proof (heldsum_nonneg _ r (wf_held_nd _ W) (hist_nonneg _ _ _ _ NN H)). lia.
Qed.

(** Non-renewable resources with constant consumption, no pre-emption, offered actions: what is in use
    is what the ongoing and completed tasks need in their modes. *)
Theorem C21_non_renewable : forall dm cap q0 s r, const_dom dm -> need_nonneg dm -> no_preempt dm ->
  In r (d_types dm) -> is_renewable dm r = Ok false -> hist dm q0 (offered_at dm cap) s ->
  qty (s_used s) r = sumZ (map (mode_need dm s r) (s_ongoing s ++ s_complete s)).
Proof. intros. eapply hist_total; eauto. apply offered_offer_at; eauto. Qed.

Example C21_ex : exists s, hist dom1 (fun r _ => cap1 r) (offered_at dom1 cap1) s /\
  s_ongoing s = [2%nat] /\ s_used s = [(0%nat, 1); (1%nat, 4)] /\
  heldsum (s_held s) 0 = 1 /\ mode_need dom1 s 1 1 + mode_need dom1 s 1 2 = 4.
Proof.
  eexists. split.
  { eapply play_offered_hist with (l := firstn 6 run1); [play_nonneg|apply h_init|].
    vm_compute. reflexivity. }
  auto.
Qed.

Example C21_free_ex : exists s, hist dom1 (fun r _ => cap1 r) (fun _ dur _ a => free_dummy dom1 dur a) s /\
  s_used s = [(0%nat, 2); (1%nat, 1)].
Proof.
  eexists. split.
  - eapply h_step with (dur := 2) (a := start_act 1 1) (q := fun r _ => cap1 r).
    + apply h_init.
    + intros _ E. discriminate.
    + vm_compute. reflexivity.
  - reflexivity.
Qed.

(** A task of zero duration that needs a renewable resource never gives it back. *)
Definition dom_leak : domain := {|
  d_tasks := [0]%nat; d_modes := [(0%nat, [(1%nat, Constant [(0%nat, 1)])])];
  d_types := [0]%nat; d_units := []; d_renew := None; d_preempt := [(0%nat, false)];
  d_paused_ret := []; d_skills := None; d_progress := lin_progress (fun _ _ => 0);
  d_succ := []; d_exist := []; d_cond := []; d_horizon := 100; d_mode_costs := []; d_res_costs := [];
  d_makespan := true; d_cost := false |}.

Theorem C21_zero_duration_leak_refuted : exists dm q0 s r, need_nonneg dm /\ is_renewable dm r = Ok true /\
  hist dm q0 anything s /\ s_ongoing s = [] /\ is_goal s = true /\ qty (s_used s) r <> 0.
Proof.
  exists dom_leak, (fun _ _ => 1). eexists. exists 0%nat. split.
  - intros k m c r time q H N. unfold get_mode in H. mon. apply dget_In in H0. apply dget_In in H.
    destruct H0 as [E|[]]. injection E as <- <-. destruct H as [E|[]]. injection E as <- <-.
    simpl in N. destruct (Nat.eqb r 0); injection N as <-; lia.
  - split; [reflexivity|]. split.
    + eapply play_hist with (l := [(0, start_act 0 1)]) (q := fun _ _ => 1); [apply h_init|]. vm_compute. reflexivity.
    + split; [reflexivity|]. split; [reflexivity|]. discriminate.
Qed.

(** Pausing an ongoing task that holds a non-renewable resource: with the table "task -> returned?"
    of preemptivity.py:75 filled as documented, the offered PAUSE action raises KeyError (the code
    looks the resource up in it). *)
Definition dom_pause : domain := {|
  d_tasks := [0; 1]%nat; d_modes := [(0%nat, [(1%nat, Constant [(5%nat, 1)])]); (1%nat, [(1%nat, Constant [(5%nat, 1)])])];
  d_types := [5]%nat; d_units := []; d_renew := Some [(5%nat, false)];
  d_preempt := [(0%nat, true); (1%nat, true)];
  d_paused_ret := [(KTask 0, true); (KTask 1, true)]; d_skills := None; d_progress := lin_progress (fun _ _ => 0);
  d_succ := []; d_exist := []; d_cond := []; d_horizon := 100; d_mode_costs := []; d_res_costs := [];
  d_makespan := true; d_cost := false |}.

Theorem C21_pause_non_renewable_refuted : exists dm cap s a, 
  (forall k, In k (d_tasks dm) -> exists b, dget (d_paused_ret dm) (KTask k) = Some b) /\
  hist dm (fun r _ => cap r) (offered_at dm cap) s /\ offered dm s a /\ a_kind a = PAUSE /\
  forall dur q, next_state dm dur q s a = Err KeyError.
Proof.
  exists dom_pause, (fun _ => 3). eexists. exists (pause_act 0). split; [|split; [|split; [|split]]].
  - intros k [ <- |[ <- |[]]]; eexists; reflexivity.
  - eapply play_offered_hist with (l := [(2, 0%nat)]); [play_nonneg|apply h_init|]. vm_compute. reflexivity.
  - eexists. split; [vm_compute; reflexivity|]. simpl. auto.
  - reflexivity.
  - intros dur q. reflexivity.
Qed.

(** * C22: capacity *)

(** Constant availability, constant consumption, offered actions (pauses and resumptions included):
    what is in use never exceeds the availability. *)
Theorem C22_capacity : forall dm cap s r, const_dom dm -> need_nonneg dm -> (forall r, 0 <= cap r) ->
  hist dm (fun r _ => cap r) (offered_at dm cap) s ->
  In r (d_types dm ++ d_units dm) ->
  qty (s_used s) r <= cap r /\ dget (s_avail s) r = Some (cap r).
Proof.
  intros dm cap s r CD NN CP H I.
  assert (O : forall s dur q a, offered_at dm cap s dur q a -> plain dm s a /\ forall r t, q r t = cap r).
  { intros s0 dur q a [_ [B C]]. split; auto. now apply offer_plain, offered_offer. }
  destruct (hist_cap dm cap (fun r _ => cap r) _ s CD NN CP (fun _ _ => eq_refl) O H) as [AV CO].
  assert (E : dget (s_avail s) r = Some (cap r)).
  { rewrite (AV r). now rewrite (proj2 (pymem_true r _) I). }
  split; auto. assert (K : In r (dkeys (s_used s))) by (now apply (hist_used_keys _ _ _ _ _ H)).
  specialize (CO r K). unfold qty at 2 in CO. now rewrite E in CO.
Qed.

(** Also for actions that were not offered, if they name no resource type as a unit and resume in the
    recorded mode. *)
Theorem C22_capacity_any_action : forall dm cap s r, const_dom dm -> need_nonneg dm -> (forall r, 0 <= cap r) ->
  hist dm (fun r _ => cap r) (fun s _ q a => plain dm s a /\ forall r t, q r t = cap r) s ->
  In r (d_types dm ++ d_units dm) -> qty (s_used s) r <= cap r.
Proof.
  intros dm cap s r CD NN CP H I.
  destruct (hist_cap dm cap (fun r _ => cap r) _ s CD NN CP (fun _ _ => eq_refl) (fun _ _ _ _ X => X) H) as [AV CO].
  assert (K : In r (dkeys (s_used s))) by (now apply (hist_used_keys _ _ _ _ _ H)).
  specialize (CO r K). unfold qty at 2 in CO. rewrite (AV r), (proj2 (pymem_true r _) I) in CO. exact CO.
Qed.

(** Pre-emptible tasks: task 1 is started, advanced, paused, task 2 started, ... *)
Lemma dom2_const : const_dom dom2.
Proof.
  intros k m c H. unfold get_mode in H. mon. apply dget_In in H0. apply dget_In in H. simpl in H0.
  destruct H0 as [E|[E|[E|[E|[]]]]]; injection E as <- <-; destruct H as [E|[]]; injection E as <- <-;
    unfold cst; eauto.
Qed.
Lemma dom2_nonneg : need_nonneg dom2.
Proof.
  intros k m c r time q H N. unfold get_mode in H. mon. apply dget_In in H0. apply dget_In in H. simpl in H0.
  destruct H0 as [E|[E|[E|[E|[]]]]]; injection E as <- <-; destruct H as [E|[]]; injection E as <- <-;
    unfold cst in N; simpl in N; destruct (Nat.eqb r 0), (Nat.eqb r 1); injection N as <-; lia.
Qed.

Example C22_capacity_ex : exists s, hist dom2 (fun r _ => cap1 r) (offered_at dom2 cap1) s /\
  const_dom dom2 /\ need_nonneg dom2 /\ s_paused s = [1%nat] /\ s_ongoing s = [2%nat] /\ s_used s = [(0%nat, 1)].
Proof.
  eexists. split.
  { eapply play_offered_hist with (l := [(0, 0%nat); (3, 0%nat); (0, 1%nat); (0, 0%nat); (2, 0%nat)]);
      [play_nonneg|apply h_init|]. vm_compute. reflexivity. }
  split; [apply dom2_const|]. split; [apply dom2_nonneg|]. auto.
Qed.

(** Whatever the actions, with an availability that may vary in time (every transition sampling the same
    table [q0]): each reachable state reports, for each declared resource and for no other, the
    availability at its own date. *)
Theorem C22_availability_is_current : forall dm q0 s r,
  hist dm q0 (fun _ _ q _ => forall r t, q r t = q0 r t) s ->
  (In r (d_types dm ++ d_units dm) -> dget (s_avail s) r = Some (q0 r (s_t s))) /\
  (~ In r (d_types dm ++ d_units dm) -> dget (s_avail s) r = None).
Proof.
  intros dm q0 s r H.
  assert (A : dget (s_avail s) r = if pymem r (d_types dm ++ d_units dm) then Some (q0 r (s_t s)) else None).
  { refine (proj2 (hist_inv dm q0 _ (fun s => dget (s_avail s) r =
      if pymem r (d_types dm ++ d_units dm) then Some (q0 r (s_t s)) else None) _ _ s H)).
    - unfold initial_state. proj. rewrite (avail_fold (fun r => q0 r 0)). reflexivity.
    - intros s1 dur q a s2 W _ IH OK [T P|s3 c s4 T P M ->].
      + destruct (phase_used_keys _ _ _ _ _ W P) as [_ [-> [-> _]]]. exact IH.
      + destruct (phase_used_keys _ _ _ _ _ W P) as [_ [A _]].
        destruct (timed_spec _ _ _ _ (phase_WF _ _ _ _ _ W P) M) as [_ [_ [_ [_ [B _]]]]].
        unfold update_avail. rewrite T. proj.
        rewrite (avail_fold (fun r => q r (s_t s3 + 1))), (pymem_swap r (d_units dm)).
        destruct (pymem r _); [now rewrite OK|]. now rewrite B, A. }
  rewrite A. split; intros I.
  - now rewrite (proj2 (pymem_true _ _) I).
  - now rewrite (proj2 (pymem_false _ _) I).
Qed.

Example C22_availability_ex : exists s,
  hist dom1 (fun r t => 2 + Z.of_nat r + t) (fun _ _ q _ => forall r t, q r t = 2 + Z.of_nat r + t) s /\
  s_t s = 2 /\ s_avail s = [(0%nat, 4); (1%nat, 5)].
Proof.
  eexists. split.
  - eapply h_step with (dur := 1) (q := fun r t => 2 + Z.of_nat r + t) (a := time_act);
      [eapply h_step with (dur := 1) (q := fun r t => 2 + Z.of_nat r + t) (a := time_act);
       [apply h_init|auto|]|auto|]; vm_compute; reflexivity.
  - split; reflexivity.
Qed.

(** With time-varying consumption the claim is false: two tasks that need nothing first and everything
    later are both offered. *)
Definition dom_vary : domain := {|
  d_tasks := [0; 1]%nat;
  d_modes := [(0%nat, [(1%nat, Varying [(0%nat, [0; 1; 1; 1])])]); (1%nat, [(1%nat, Varying [(0%nat, [0; 1; 1; 1])])])];
  d_types := [0]%nat; d_units := []; d_renew := None; d_preempt := [(0%nat, false); (1%nat, false)];
  d_paused_ret := []; d_skills := None; d_progress := lin_progress (fun _ _ => 0);
  d_succ := []; d_exist := []; d_cond := []; d_horizon := 100; d_mode_costs := []; d_res_costs := [];
  d_makespan := true; d_cost := false |}.

Theorem C22_varying_refuted : exists dm cap s r, (forall r, 0 <= cap r) /\ need_nonneg dm /\
  hist dm (fun r _ => cap r) (offered_at dm cap) s /\ In r (d_types dm) /\ cap r < qty (s_used s) r.
Proof.
  exists dom_vary, (fun _ => 1). eexists. exists 0%nat. split; [lia|]. split; [|split; [|split]].
  - intros k m c r time q H N. unfold get_mode in H. mon. apply dget_In in H0. apply dget_In in H.
    assert (X : c = Varying [(0%nat, [0; 1; 1; 1])]).
    { destruct H0 as [E|[E|[]]]; injection E as <- <-; destruct H as [E|[]]; injection E as <- <-; reflexivity. }
    subst c. simpl in N. destruct (Nat.eqb r 0); [|injection N as <-; lia].
    unfold py_index in N. cbv zeta in N. destruct (_ <? 0); [discriminate|].
    match type of N with match nth_error _ ?i with _ => _ end = _ => destruct i as [|[|[|[|[|]]]]] end;
      simpl in N; try discriminate; injection N as <-; lia.
  - eapply play_offered_hist with (l := [(3, 0%nat); (3, 0%nat); (0, 0%nat)]); [play_nonneg|apply h_init|].
    vm_compute. reflexivity.
  - simpl; auto.
  - reflexivity.
Qed.

(** * C23: precedence *)

Lemma precedence_any : forall dm cap s k p t, hist dm (fun r _ => cap r) (offer_at dm cap) s ->
  starts s k t -> (exists succs, In (p, succs) (d_succ dm) /\ In k succs) ->
  In p (d_tasks dm) -> dget (d_exist dm) p = None ->
  In p (s_complete s) /\ exists e, ends s p e /\ e <= t.
Proof.
  intros dm cap s k p t H S [succs [I J]] T E.
  refine (hist_PREC dm _ (offer_at dm cap) s _ H k t p S _ _).
  - intros s0 dur q a [_ [_ O]]. exact O.
  - unfold preds. apply in_map_iff. exists (p, succs). split; auto. apply filter_In. split; auto.
    simpl. now apply (pymem_true k succs).
  - unfold unconditional. apply filter_In. rewrite E. split; auto. now apply nodup_In.
Qed.

(** Following offered actions: a started task's predecessors (those without existence conditions) are
    complete and ended no later than its start. *)
Theorem C23_precedence : forall dm cap s k p t, hist dm (fun r _ => cap r) (offered_at dm cap) s ->
  starts s k t -> (exists succs, In (p, succs) (d_succ dm) /\ In k succs) ->
  In p (d_tasks dm) -> dget (d_exist dm) p = None ->
  In p (s_complete s) /\ exists e, ends s p e /\ e <= t.
Proof.
  intros dm cap s k p t H. apply precedence_any with (cap := cap). now apply offered_offer_at.
Qed.

Example C23_precedence_ex : exists s, hist dom1 (fun r _ => cap1 r) (offered_at dom1 cap1) s /\
  starts s 3 5 /\ ends s 1 2 /\ ends s 2 5.
Proof.
  eexists. split.
  { eapply play_offered_hist with (l := run1); [play_nonneg|apply h_init|]. vm_compute. reflexivity. }
  split; [|split]; eexists; split; reflexivity.
Qed.

(** * C24: clock and dates *)

Theorem C24_clock : forall dm q0 s dur q a s', hist dm q0 anything s -> next_state dm dur q s a = Ok s' ->
  s_t s' = s_t s + (if a_tp a then 1 else 0).
Proof.
  intros dm q0 s dur q a s' H E. pose proof (hist_WF _ _ _ _ H) as W.
  eapply tstep_t; eauto. eapply next_state_tstep; eauto.
Qed.

(** Only the time-progress action among the offered ones advances the clock. *)
Theorem C24_offered_clock : forall dm s a, offered dm s a -> (a_tp a = true <-> a = time_act).
Proof.
  intros dm s a O. apply offered_offer in O. destruct O; simpl; split; intros E; try discriminate; reflexivity.
Qed.

(** In every reachable state, completed tasks have both dates, in order, and in the past. *)
Theorem C24_dates : forall dm q0 s k, hist dm q0 anything s -> In k (s_complete s) ->
  exists a e, starts s k a /\ ends s k e /\ a <= e <= s_t s.
Proof.
  intros dm q0 s k H I. pose proof (hist_DR _ _ _ _ H) as D.
  destruct (dr_sta _ D k) as [d [a [A1 [A2 [A3 [A4 _]]]]]]; [rewrite !in_app_iff; auto|].
  destruct (A4 I) as [e [E1 E2]]. exists a, e. split; [exists d; auto|]. split; [exists d; auto|]. lia.
Qed.

(** Duration [d], time spent paused [pt]. *)
Definition lasts (s : state) (k : nat) (d pt : Z) : Prop :=
  exists r, dget (s_details s) k = Some r /\ tk_dur r = Some d /\ paused_time (tk_paused r) (tk_resumed r) = Ok pt.
Definition never_paused (s : state) (k : nat) : Prop :=
  exists r, dget (s_details s) k = Some r /\ tk_paused r = [].

(** With linear progress, a completed task was active for exactly its duration, if that is below
    10000 (start to end, minus the time spent paused). *)
Theorem C24_active_for_duration : forall dm q0 s k, linear dm ->
  hist dm q0 (fun _ dur _ _ => 0 <= dur) s -> In k (s_complete s) ->
  exists a e d pt, starts s k a /\ ends s k e /\ lasts s k d pt /\ 0 <= d /\ 0 <= pt /\
    (d < 10000 -> e - a - pt = d) /\
    (0 < d -> 9999 * d <= 10000 * (e - a - pt) < 9999 * d + 10000).
Proof.
  intros dm q0 s k L H I.
  pose proof (hist_DT dm q0 _ s L (fun _ _ _ _ X => X) H) as D.
  destruct (dt_com _ D k I) as [r [a [e [d [pt [A1 [[A2 [A3 A4]] [A5 [A6 [A7 [A8 A9]]]]]]]]]]].
  exists a, e, d, pt. split; [exists r; auto|]. split; [exists r; auto|]. split; [exists r; auto|].
  destruct A9 as [[ -> [ -> P]]|[P [Q1 Q2]]].
  - rewrite P in A4. destruct (tk_resumed r); injection A4 as <-; repeat split; lia.
  - repeat match goal with |- _ /\ _ => split end; lia.
Qed.

(** Hence a never paused task with duration [d] below 10000 started at [a] completes at [a + d]... *)
Theorem C24_completes_on_time : forall dm q0 s k, linear dm ->
  hist dm q0 (fun _ dur _ _ => 0 <= dur) s -> In k (s_complete s) -> never_paused s k ->
  exists a d, starts s k a /\ lasts s k d 0 /\ (d < 10000 -> ends s k (a + d)).
Proof.
  intros dm q0 s k L H I [r [R1 R2]].
  destruct (C24_active_for_duration _ _ _ _ L H I) as [a [e [d [pt [A1 [A2 [A3 [A4 [A5 [A6 A7]]]]]]]]]].
  exists a, d. split; auto. destruct A3 as [r' [B1 [B2 B3]]]. rewrite R1 in B1. injection B1 as <-.
  rewrite R2 in B3. destruct (tk_resumed r) eqn:RR; injection B3 as <-;
    (split; [exists r; rewrite R2, RR; auto|]); intros X; replace (a + d) with e by lia; assumption.
Qed.

(** ... and not later: a task that is still ongoing was started less than [d] active steps ago. *)
Theorem C24_not_late : forall dm q0 s k, linear dm ->
  hist dm q0 (fun _ dur _ _ => 0 <= dur) s -> In k (s_ongoing s) ->
  exists a d pt, starts s k a /\ lasts s k d pt /\ a <= s_t s /\ s_t s - a - pt < d.
Proof.
  intros dm q0 s k L H I.
  pose proof (hist_DT dm q0 _ s L (fun _ _ _ _ X => X) H) as D.
  destruct (dt_ong _ D k I) as [r [a [d [pt [p [A1 [[A2 [A3 A4]] [A5 [A6 [A7 [A8 [A9 [A10 [A11 _]]]]]]]]]]]]]].
  exists a, d, pt. split; [exists r; auto|]. split; [exists r; auto|]. lia.
Qed.

Example C24_ex : exists s, hist dom2 (fun r _ => cap1 r) (offered_at dom2 cap1) s /\
  In 1%nat (s_complete s) /\ starts s 1 0 /\ ends s 1 5 /\ lasts s 1 3 2.
Proof.
  eexists. split.
  { eapply play_offered_hist with
      (l := [(0, 0%nat); (3, 0%nat); (0, 1%nat); (0, 0%nat); (2, 0%nat); (0, 2%nat); (0, 2%nat); (0, 0%nat); (0, 1%nat); (0, 1%nat)]);
      [play_nonneg|apply h_init|]. vm_compute. reflexivity. }
  split; [simpl; auto|]. split; [|split]; eexists; (split; [reflexivity|]); auto.
Qed.

(** A duration of 10000 is too long for the completion threshold 0.9999: the task completes after 9999
    time steps. *)
Definition dom_long : domain := {|
  d_tasks := [0]%nat; d_modes := [(0%nat, [(1%nat, Constant [])])];
  d_types := []; d_units := []; d_renew := None; d_preempt := [(0%nat, false)];
  d_paused_ret := []; d_skills := None; d_progress := lin_progress (fun _ _ => 0);
  d_succ := []; d_exist := []; d_cond := []; d_horizon := 20000; d_mode_costs := []; d_res_costs := [];
  d_makespan := true; d_cost := false |}.

Definition long_st (t : Z) (p : Q) : state :=
  mkState t [] [0%nat] [] [] [(0%nat, p)] [(0%nat, 1%nat)] [] [] [(0%nat, [])]
    [(0%nat, mkTask (Some 0) None (Some 10000) [] [] [])] [].

Lemma long_step : forall t p q, exists s',
  next_state dom_long 0 q (long_st t p) time_act = Ok s' /\
  let p' := (p + inject_Z (t + 1 - t) / inject_Z 10000)%Q in
  (Qle_bool (9999 # 10000) p' = false -> s' = long_st (t + 1) p') /\
  (Qle_bool (9999 # 10000) p' = true -> In 0%nat (s_complete s') /\ starts s' 0 0 /\ ends s' 0 (t + 1) /\
     lasts s' 0 10000 0 /\ never_paused s' 0).
Proof.
  intros t p q. cbv zeta.
  destruct (Qle_bool (9999 # 10000) (p + inject_Z (t + 1 - t) / inject_Z 10000)) eqn:E;
    unfold long_st, next_state, update_time, tick, update_complete;
    cbn -[Qle_bool Qplus Qdiv inject_Z Z.add Z.sub]; try rewrite E;
    cbn -[Qle_bool Qplus Qdiv inject_Z Z.add Z.sub]; eexists; (split; [reflexivity|]); split; try discriminate.
  - intros _. split; [simpl; auto|].
    split; [eexists; split; reflexivity|]. split; [eexists; split; reflexivity|].
    split; [eexists; split; [reflexivity|split; reflexivity]|]. eexists; split; reflexivity.
  - reflexivity.
Qed.

Lemma long_run : forall n, Z.of_nat n <= 9998 -> exists p,
  hist dom_long (fun _ _ => 0) (offered_at dom_long (fun _ => 0)) (long_st (Z.of_nat n) p) /\
  (p == Z.of_nat n # 10000)%Q.
Proof.
  induction n as [|n IH]; intros L.
  - exists 0%Q. split; [|reflexivity].
    eapply play_offered_hist with (cap := fun _ => 0) (l := [(10000, 0%nat)]); [play_nonneg|apply h_init|].
    vm_compute. reflexivity.
  - destruct IH as [p [H E]]; [lia|].
    destruct (long_step (Z.of_nat n) p (fun _ _ => 0)) as [s' [N [A _]]]. cbv zeta in A.
    set (p' := (p + inject_Z (Z.of_nat n + 1 - Z.of_nat n) / inject_Z 10000)%Q) in *.
    assert (PE : (p' == Z.of_nat (S n) # 10000)%Q).
    { unfold p'. replace (Z.of_nat n + 1 - Z.of_nat n) with 1 by lia.
      rewrite (prog_step p (Z.of_nat n) 10000) by (lia || exact E).
      replace (Z.of_nat (S n)) with (Z.of_nat n + 1) by lia. reflexivity. }
    assert (F : Qle_bool (9999 # 10000) p' = false).
    { destruct (Qle_bool (9999 # 10000) p') eqn:Q0; auto.
      apply (thr_spec p' (Z.of_nat (S n)) 10000) in Q0; [lia|lia|exact PE]. }
    specialize (A F). subst s'. exists p'. split; auto.
    replace (Z.of_nat (S n)) with (Z.of_nat n + 1) by lia.
    eapply h_step; [exact H| |exact N]. split; [lia|]. split; [reflexivity|].
    eexists. split; [reflexivity|]. simpl. auto.
Qed.

Theorem C24_long_duration_refuted : exists dm cap s k d, linear dm /\
  hist dm (fun r _ => cap r) (offered_at dm cap) s /\ In k (s_complete s) /\ never_paused s k /\
  starts s k 0 /\ lasts s k d 0 /\ 0 < d /\ ends s k (d - 1).
Proof.
  exists dom_long, (fun _ => 0).
  destruct (long_run (Z.to_nat 9998)) as [p [H E]]; [lia|]. rewrite Z2Nat.id in H, E by lia.
  destruct (long_step 9998 p (fun _ _ => 0)) as [s' [N [_ A]]]. cbv zeta in A.
  replace (9998 + 1 - 9998) with 1 in A by lia.
  destruct A as [A1 [A2 [A3 [A4 A5]]]].
  { apply (thr_spec _ 9999 10000); [lia| |lia]. now rewrite (prog_step p 9998 10000). }
  exists s', 0%nat, 10000. split; [exists (fun _ _ => 0); reflexivity|]. split.
  - eapply h_step; [exact H| |exact N]. split; [lia|]. split; [reflexivity|].
    eexists. split; [reflexivity|]. simpl. auto.
  - repeat match goal with |- _ /\ _ => split end; auto; lia.
Qed.

(** * C25: an offered START starts the task *)

Theorem C25_offered_start_works : forall dm q0 s n m dur q, hist dm q0 anything s ->
  const_dom dm -> d_skills dm = None -> offered dm s (start_act n m) ->
  exists s', next_state dm dur q s (start_act n m) = Ok s' /\
    (dur <> 0 -> In n (s_ongoing s')) /\ (dur = 0 -> In n (s_complete s')) /\ ~ In n (s_remaining s') /\
    dget (s_mode s') n = Some m /\ starts s' n (s_t s) /\ s_t s' = s_t s /\
    (forall r, In r (d_types dm) -> qty (s_used s') r = qty (s_used s) r + cneed dm n m r) /\
    (dur <> 0 -> forall r, In r (d_types dm) -> exists h, dget (s_held s') n = Some h /\ qty h r = cneed dm n m r) /\
    (forall k, k <> n -> (In k (s_remaining s') <-> In k (s_remaining s)) /\ (In k (s_ongoing s') <-> In k (s_ongoing s)) /\
        (In k (s_paused s') <-> In k (s_paused s)) /\ (In k (s_complete s') <-> In k (s_complete s))).
Proof.
  intros dm q0 s n m dur q H CD SK O. pose proof (hist_WF _ _ _ _ H) as W.
  apply offered_offer in O.
  destruct (start_works dm s n m dur q W (hist_DR _ _ _ _ H) CD SK O) as [rtu [u [s' [E [G [A ->]]]]]].
  destruct (wf_sep _ W) as [_ [_ [_ [N1 _]]]].
  destruct (get_resource_used_spec _ _ _ _ _ _ G) as [ND _].
  destruct (add_used_spec _ _ _ ND A) as [_ [Q _]].
  assert (RC : forall r, In r (d_types dm) -> dget rtu r = Some (cneed dm n m r)).
  { intros r I. refine (rtu_const _ _ _ _ _ _ CD _ G r I). discriminate. }
  eexists. split; [exact E|].
  assert (US : forall r, In r (d_types dm) -> qty u r = qty (s_used s) r + cneed dm n m r).
  { intros r I. rewrite Q. unfold qty at 2. now rewrite (RC r I). }
  destruct (Z.eqb_spec dur 0) as [Z0|Z0]; unfold st_dummy, st_start;
    cbn [s_t s_remaining s_ongoing s_complete s_paused s_mode s_used s_held s_details].
  - split; [contradiction|]. split; [intros _; apply in_app_iff; simpl; auto|].
    split; [rewrite pyremove_In by assumption; tauto|]. split; [apply dget_dset_same|].
    split; [eexists; cbn [s_details]; rewrite dget_dset_same; auto|]. split; auto. split; auto.
    split; [contradiction|]. intros k NE. rewrite pyremove_In by assumption. rewrite in_app_iff. simpl.
    intuition congruence.
  - split; [intros _; apply in_app_iff; simpl; auto|]. split; [contradiction|].
    split; [rewrite pyremove_In by assumption; tauto|]. split; [apply dget_dset_same|].
    split; [eexists; cbn [s_details]; rewrite dget_dset_same; auto|]. split; auto. split; auto.
    split.
    + intros _ r I. exists rtu. split; [apply dget_dset_same|]. unfold qty. now rewrite (RC r I).
    + intros k NE. rewrite pyremove_In by assumption. rewrite in_app_iff. simpl. intuition congruence.
Qed.

Example C25_ex : exists s, hist dom1 (fun r _ => cap1 r) anything s /\ const_dom dom1 /\ d_skills dom1 = None /\
  offered dom1 s (start_act 2 1) /\ s_t s = 2.
Proof.
  eexists. split.
  - eapply hist_weaken; [|eapply play_offered_hist with (l := firstn 4 run1); [|apply h_init|]].
    + intros; exact I.
    + play_nonneg.
    + vm_compute. reflexivity.
  - split; [apply dom1_const|]. split; [reflexivity|]. split; [|reflexivity].
    eexists. split; [vm_compute; reflexivity|]. simpl. auto.
Qed.

(** The converse fails: a task that could start in two modes is offered in the last one only. *)
Definition dom_modes : domain := {|
  d_tasks := [0]%nat; d_modes := [(0%nat, [(1%nat, Constant [(0%nat, 1)]); (2%nat, Constant [(0%nat, 2)])])];
  d_types := [0]%nat; d_units := []; d_renew := None; d_preempt := [(0%nat, false)];
  d_paused_ret := []; d_skills := None; d_progress := lin_progress (fun _ _ => 0);
  d_succ := []; d_exist := []; d_cond := []; d_horizon := 100; d_mode_costs := []; d_res_costs := [];
  d_makespan := true; d_cost := false |}.

Theorem C25_not_all_modes_offered_refuted : exists dm q s n m l, s = initial_state dm q /\
  action_space dm s = Ok l /\ ~ In (start_act n m) l /\
  exists s', next_state dm 3 q s (start_act n m) = Ok s' /\ In n (s_ongoing s') /\ dget (s_mode s') n = Some m.
Proof.
  exists dom_modes, (fun _ _ => 2). eexists. exists 0%nat, 1%nat. eexists. split; [reflexivity|].
  split; [vm_compute; reflexivity|]. split.
  - simpl. intuition discriminate.
  - eexists. split; [vm_compute; reflexivity|]. split; [simpl; auto|reflexivity].
Qed.

(** Time-varying consumption: the needs of the first step of a task are read at the date of the state,
    so after two time steps the list of offered actions cannot be computed at all. *)
Theorem C25_varying_space_refuted : exists dm cap s, hist dm (fun r _ => cap r) (offered_at dm cap) s /\
  s_remaining s <> [] /\ action_space dm s = Err IndexError.
Proof.
  exists dom_vary, (fun _ => 1). eexists. split; [|split].
  - eapply play_offered_hist with (l := [(0, 2%nat); (0, 2%nat); (0, 2%nat); (0, 2%nat)]); [play_nonneg|apply h_init|].
    vm_compute. reflexivity.
  - simpl. discriminate.
  - vm_compute. reflexivity.
Qed.

(** A consumption list with one entry per time unit of the task is too short: the last time step raises
    IndexError. *)
Definition dom_short : domain := {|
  d_tasks := [0]%nat; d_modes := [(0%nat, [(1%nat, Varying [(0%nat, [1; 2])])])];
  d_types := [0]%nat; d_units := []; d_renew := None; d_preempt := [(0%nat, false)];
  d_paused_ret := []; d_skills := None; d_progress := lin_progress (fun _ _ => 0);
  d_succ := []; d_exist := []; d_cond := []; d_horizon := 100; d_mode_costs := []; d_res_costs := [];
  d_makespan := true; d_cost := false |}.

Theorem C25_varying_last_step_refuted : exists dm cap s, hist dm (fun r _ => cap r) (offered_at dm cap) s /\
  offered dm s time_act /\ lasts s 0 2 0 /\ s_ongoing s = [0%nat] /\
  next_state dm 0 (fun r _ => cap r) s time_act = Err IndexError.
Proof.
  exists dom_short, (fun _ => 2). eexists. split; [|split; [|split; [|split]]].
  - eapply play_offered_hist with (l := [(2, 0%nat); (0, 0%nat)]); [play_nonneg|apply h_init|].
    vm_compute. reflexivity.
  - eexists. split; [vm_compute; reflexivity|]. simpl. auto.
  - eexists. split; [reflexivity|]. auto.
  - reflexivity.
  - vm_compute. reflexivity.
Qed.

(** A RESUME action is offered without checking resources; the task becomes ongoing without any, and the
    next time step raises KeyError. *)
Theorem C25_resume_without_resources_refuted : exists dm cap s s' n m, const_dom dm /\
  hist dm (fun r _ => cap r) (offered_at dm cap) s /\ offered dm s (resume_act n m) /\
  next_state dm 0 (fun r _ => cap r) s (resume_act n m) = Ok s' /\
  In n (s_ongoing s') /\ dget (s_held s') n = None /\ offered dm s' time_act /\
  next_state dm 0 (fun r _ => cap r) s' time_act = Err KeyError.
Proof.
  exists dom2, cap1. eexists. eexists. exists 1%nat, 1%nat. split; [apply dom2_const|]. split.
  - eapply play_offered_hist with (l := [(0, 0%nat); (3, 0%nat); (0, 1%nat); (0, 0%nat); (2, 0%nat)]);
      [play_nonneg|apply h_init|]. vm_compute. reflexivity.
  - split; [eexists; split; [vm_compute; reflexivity|simpl; auto]|].
    split; [vm_compute; reflexivity|]. split; [simpl; auto|]. split; [reflexivity|].
    split; [eexists; split; [vm_compute; reflexivity|simpl; auto]|].
    vm_compute. reflexivity.
Qed.

(** With resource units, resuming a paused task is offered as a START action, which raises IndexError
    (the active time of a task that has not resumed). *)
Theorem C25_units_resume_refuted : exists dm cap s l a, const_dom dm /\
  hist dm (fun r _ => cap r) (offered_at dm cap) s /\ action_space_units dm s = Ok l /\ In a l /\
  a_kind a = START /\ (exists k, a_task a = Some k /\ In k (s_paused s)) /\
  next_state dm 3 (fun r _ => cap r) s a = Err IndexError.
Proof.
  exists dom2, cap1. eexists. eexists. exists (start_act 1 1). split; [apply dom2_const|]. split.
  - eapply play_offered_hist with (l := [(0, 0%nat); (3, 0%nat); (0, 1%nat); (0, 0%nat)]);
      [play_nonneg|apply h_init|]. vm_compute. reflexivity.
  - split; [vm_compute; reflexivity|]. split; [simpl; auto|]. split; [reflexivity|].
    split; [exists 1%nat; simpl; auto|]. vm_compute. reflexivity.
Qed.

(** * C26: next-state distributions *)

(** For the offered actions (START without time progress), normalised duration distributions and at most
    one normalised completion distribution per task: the probabilities are non-negative and add up to 1. *)
Theorem C26_distribution : forall dm durs q st a l, next_dist dm durs q st a = Ok l ->
  (a_kind a = START -> a_tp a = false) ->
  (mass durs == 1)%Q -> (forall d p, In (d, p) durs -> 0 <= p)%Q ->
  (forall k ds, dget (d_cond dm) k = Some ds -> exists d, ds = [d] /\ (mass d == 1)%Q /\ (forall c p, In (c, p) d -> 0 <= p)%Q) ->
  (mass l == 1)%Q /\ (forall s p, In (s, p) l -> 0 <= p)%Q.
Proof.
  intros dm durs q st a l H K M ND C. split.
  - eapply next_dist_mass; eauto. intros k ds E. destruct (C k ds E) as [d [ -> [X _]]].
    simpl. now rewrite app_nil_r.
  - intros s p I. eapply next_dist_nonneg; eauto.
    intros k ds d c pr E J L. destruct (C k ds E) as [d' [ -> [_ X]]]. destruct J as [ <- |[]]. eauto.
Qed.

Theorem C26_offered : forall dm durs q st a l, offered dm st a -> next_dist dm durs q st a = Ok l ->
  (mass durs == 1)%Q ->
  (forall k ds, dget (d_cond dm) k = Some ds -> exists d, ds = [d] /\ (mass d == 1)%Q) ->
  (mass l == 1)%Q.
Proof.
  intros dm durs q st a l O H M C. eapply next_dist_mass; eauto.
  - apply offered_offer in O. destruct O; simpl; auto; discriminate.
  - intros k ds E. destruct (C k ds E) as [d [ -> X]]. simpl. now rewrite app_nil_r.
Qed.

Example C26_ex : exists l, next_dist dom_cond [(1, 1 # 3); (2, 2 # 3)] (fun _ _ => 0)
    (initial_state dom_cond (fun _ _ => 0)) (start_act 0 1) = Ok l /\ length l = 2%nat /\ map snd l = [1 # 3; 2 # 3].
Proof. eexists. split; [vm_compute; reflexivity|]. auto. Qed.

Example C26_cond_ex : exists s l, uhist dom_cond (fun _ _ => 0) s /\
  next_dist dom_cond [] (fun _ _ => 0) s time_act = Ok l /\ map snd l = [1 # 4; 3 # 4] /\
  map (fun sp => s_conds (fst sp)) l = [[7]; [8]]%nat.
Proof.
  eexists. eexists. split.
  - eapply uplay_hist with (l := firstn 1 run_cond) (q := fun _ _ => 0); [apply uh_init|]. vm_compute. reflexivity.
  - split; [vm_compute; reflexivity|]. auto.
Qed.

(** START with time progress: the probabilities of the durations are dropped. *)
Theorem C26_start_with_time_refuted : exists dm durs q l, (mass durs == 1)%Q /\
  next_dist dm durs q (initial_state dm q) (mkAction (Some 0%nat) START (Some 1%nat) true None) = Ok l /\
  (mass l == 2)%Q.
Proof.
  exists dom_long, [(5, 1 # 3); (7, 2 # 3)], (fun _ _ => 0). eexists.
  split; [reflexivity|]. split; [vm_compute; reflexivity|]. reflexivity.
Qed.

(** Two completion distributions for one task: the values of both are put in one list. *)
Definition dom_cond2 : domain := {|
  d_tasks := [0]%nat; d_modes := [(0%nat, [(1%nat, Constant [])])];
  d_types := []; d_units := []; d_renew := None; d_preempt := [(0%nat, false)];
  d_paused_ret := []; d_skills := None; d_progress := lin_progress (fun _ _ => 0);
  d_succ := []; d_exist := [];
  d_cond := [(0%nat, [[(7%nat, 1 # 2); (8%nat, 1 # 2)]; [(9%nat, 1 # 4); (10%nat, 3 # 4)]])];
  d_horizon := 100; d_mode_costs := []; d_res_costs := []; d_makespan := true; d_cost := false |}.

Theorem C26_two_distributions_refuted : exists dm q s l, uhist dm q s /\
  (forall k ds, dget (d_cond dm) k = Some ds -> forall d, In d ds -> (mass d == 1)%Q) /\
  offered dm s time_act /\ next_dist dm [] q s time_act = Ok l /\ (mass l == 2)%Q.
Proof.
  exists dom_cond2, (fun _ _ => 0). eexists. eexists. split.
  - eapply uplay_hist with (l := firstn 1 run_cond) (q := fun _ _ => 0); [apply uh_init|]. vm_compute. reflexivity.
  - split.
    + intros k ds E d I. apply dget_In in E. destruct E as [E|[]]. injection E as <- <-.
      destruct I as [ <- |[ <- |[]]]; reflexivity.
    + split; [eexists; split; [vm_compute; reflexivity|simpl; auto]|].
      split; [vm_compute; reflexivity|]. reflexivity.
Qed.

(** * C47: the final schedule is feasible *)

(** The same for actions starting a task in any of its modes, when its predecessors are complete and
    its resources suffice, whether or not the action space lists that mode (C25). *)
Theorem C47_any_mode_feasible : forall dm cap s, const_dom dm -> need_nonneg dm -> no_preempt dm ->
  linear dm -> (forall r, 0 <= cap r) -> hist dm (fun r _ => cap r) (offer_at dm cap) s -> is_goal s = true ->
  (forall k, In k (d_tasks dm) -> dget (d_exist dm) k = None ->
     exists a e d, starts s k a /\ ends s k e /\ lasts s k d 0 /\ a <= e <= s_t s /\ (d < 10000 -> e = a + d)) /\
  (forall p k succs a e, In (p, succs) (d_succ dm) -> In k succs -> In p (d_tasks dm) -> dget (d_exist dm) p = None ->
     starts s k a -> ends s p e -> e <= a) /\
  (forall r tau, In r (d_types dm) -> is_renewable dm r = Ok true -> load dm s r tau <= cap r) /\
  (forall r, In r (d_types dm) -> is_renewable dm r = Ok false ->
     sumZ (map (mode_need dm s r) (unconditional dm)) <= cap r).
Proof.
  intros dm cap s CD NN NP L CP H G.
  pose proof (hist_WF _ _ _ _ H) as W. pose proof (hist_all _ _ _ _ H) as PM.
  assert (GE : s_remaining s = [] /\ s_ongoing s = [] /\ s_paused s = []).
  { unfold is_goal in G. destruct (s_remaining s), (s_ongoing s), (s_paused s); try discriminate. auto. }
  destruct GE as [GR [GO GP]].
  assert (CO : forall k, In k (unconditional dm) -> In k (s_complete s)).
  { intros k I. apply (Permutation_in _ (Permutation_sym PM)) in I. unfold all_of in I.
    rewrite GR, GO, GP, app_nil_r in I. exact I. }
  assert (UN : forall k, In k (d_tasks dm) -> dget (d_exist dm) k = None -> In k (unconditional dm)).
  { intros k I E. unfold unconditional. apply filter_In. rewrite E. split; auto. now apply nodup_In. }
  assert (H0 : hist dm (fun r _ => cap r) (fun _ dur _ _ => 0 <= dur) s).
  { eapply hist_weaken; [|exact H]. intros s0 dur q a [X _]. exact X. }
  assert (H1 : hist dm (fun r _ => cap r) anything s).
  { eapply hist_weaken; [|exact H]. intros; exact I. }
  (* no recorded task was ever paused *)
  assert (NPA : forall k r, dget (s_details s) k = Some r -> tk_paused r = []).
  { refine (proj2 (proj2 (hist_inv dm _ (offer_at dm cap)
      (fun s => s_paused s = [] /\ forall k r, dget (s_details s) k = Some r -> tk_paused r = []) _ _ s H))).
    - split; [reflexivity|]. intros k r E. unfold initial_state in E. cbn [s_details] in E.
      rewrite details_fold in E. destruct (pymem k (d_tasks dm)); [|discriminate]. now injection E as <-.
    - intros s1 dur q a s2 W1 _ [PA IH] [_ [_ O]] T.
      pose proof (np_action _ _ _ NP PA O) as KA.
      assert (PH : forall s3, phase dm dur s1 a s3 ->
                s_paused s3 = [] /\ forall k r, dget (s_details s3) k = Some r -> tk_paused r = []).
      { intros s3 P. split; [rewrite (phase_paused _ _ _ _ _ KA P); auto|].
        destruct P; auto; try (destruct KA; congruence); intros k0 r0; cbn [s_details st_start st_dummy];
          rewrite dget_dset; destruct (pyeqb_spec task k0); eauto; intros E; injection E as <-;
          cbn [tk_paused]; eauto. }
      destruct T as [T P|s3 c s4 T P M ->]; [auto|].
      destruct (PH s3 P) as [Q1 Q2].
      destruct (timed_spec _ _ _ _ (phase_WF _ _ _ _ _ W1 P) M)
        as [_ [_ [B3 [_ [_ [_ [_ [_ [_ [B10 [B11 _]]]]]]]]]]].
      unfold update_avail. rewrite T. cbn [s_paused s_details w_avail w_t]. split; [congruence|].
      intros k r E. destruct (in_dec Nat.eq_dec k c) as [J|J].
      + destruct (B11 k J) as [d [E1 E2]]. rewrite E2 in E. injection E as <-. cbn [tk_paused]. eauto.
      + rewrite B10 in E by assumption. eauto. }
  split; [|split; [|split]].
  - intros k I E. pose proof (CO k (UN k I E)) as C.
    destruct (C24_active_for_duration _ _ _ _ L H0 C) as [a [e [d [pt [A1 [A2 [A3 [A4 [A5 [A6 A7]]]]]]]]]].
    destruct (C24_dates _ _ _ _ H1 C) as [a' [e' [B1 [B2 B3]]]].
    assert (a' = a /\ e' = e) as [-> ->].
    { destruct A1 as [r1 [X1 X2]], A2 as [r2 [X3 X4]], B1 as [r3 [X5 X6]], B2 as [r4 [X7 X8]].
      rewrite X1 in X3, X5, X7. injection X3 as <-. injection X5 as <-. injection X7 as <-.
      split; congruence. }
    assert (pt = 0).
    { destruct A3 as [r [X1 [X2 X3]]]. rewrite (NPA k r X1) in X3.
      destruct (tk_resumed r); injection X3 as <-; reflexivity. }
    subst pt. exists a, e, d. split; auto. split; auto. split; auto. split; auto. lia.
  - intros p k succs a e I J P E S EN.
    destruct (precedence_any dm cap s k p a H S (ex_intro _ succs (conj I J)) P E) as [_ [e' [F1 F2]]].
    destruct EN as [r1 [X1 X2]], F1 as [r2 [X3 X4]]. rewrite X1 in X3. injection X3 as <-. 
    assert (e' = e) by congruence. lia.
  - intros r tau IR RN.
    destruct (hist_load dm cap (fun r _ => cap r) s r CD NN NP CP (fun _ _ => eq_refl) IR RN H) as [_ [_ LO]].
    destruct (Z.le_gt_cases tau (s_t s)) as [X|X]; [auto|].
    unfold load. replace (filter _ _) with (@nil nat); [simpl; apply CP|].
    symmetry. assert (Y : forall l, incl l (unconditional dm) -> filter (running s tau) l = []).
    { induction l as [|x l IH]; intros Q; [reflexivity|]. cbn [filter].
      destruct (C24_dates _ _ _ _ H1 (CO x (Q x (or_introl eq_refl)))) as [a [e [[r1 [X1 X2]] [[r2 [X3 X4]] X5]]]].
      rewrite X1 in X3. injection X3 as <-. unfold running at 1. rewrite X1, X2, X4.
      destruct (Z.ltb_spec tau e); [lia|]. rewrite andb_false_r. apply IH. intros y Z0. apply Q. simpl; auto. }
    apply Y, incl_refl.
  - intros r IR RN. pose proof (proj2 (hist_total dm cap _ s r CD NN NP IR RN H)) as E. unfold total_need in E.
    assert (C : qty (s_used s) r <= cap r).
    { apply (C22_capacity_any_action dm cap s r CD NN CP); [|apply in_app_iff; auto].
      eapply hist_weaken; [|exact H]. intros s0 dur q a [_ [Q O]]. split; auto. now apply offer_plain. }
    rewrite E in C. rewrite GO in C. cbn [app] in C.
    rewrite (sumZ_perm _ (map (mode_need dm s r) (s_complete s))); auto.
    apply Permutation_map. rewrite <- PM. unfold all_of. rewrite GR, GO, GP, app_nil_r. reflexivity.
Qed.


(** A goal state reached by offered actions, without pre-emption, with constant consumption and
    availability and linear progress, records a feasible schedule: every task has a start and an end
    at [start + duration] (durations below 10000), predecessors end before their successors start, at
    every date [tau] the tasks in progress together need no more of a renewable resource than its
    capacity, and all tasks together need no more of a non-renewable resource than its capacity. *)
Theorem C47_final_schedule_feasible : forall dm cap s, const_dom dm -> need_nonneg dm -> no_preempt dm ->
  linear dm -> (forall r, 0 <= cap r) -> hist dm (fun r _ => cap r) (offered_at dm cap) s -> is_goal s = true ->
  (forall k, In k (d_tasks dm) -> dget (d_exist dm) k = None ->
     exists a e d, starts s k a /\ ends s k e /\ lasts s k d 0 /\ a <= e <= s_t s /\ (d < 10000 -> e = a + d)) /\
  (forall p k succs a e, In (p, succs) (d_succ dm) -> In k succs -> In p (d_tasks dm) -> dget (d_exist dm) p = None ->
     starts s k a -> ends s p e -> e <= a) /\
  (forall r tau, In r (d_types dm) -> is_renewable dm r = Ok true -> load dm s r tau <= cap r) /\
  (forall r, In r (d_types dm) -> is_renewable dm r = Ok false ->
     sumZ (map (mode_need dm s r) (unconditional dm)) <= cap r).
Proof.
  intros dm cap s CD NN NP L CP H G. apply C47_any_mode_feasible; auto. now apply offered_offer_at.
Qed.

Example C47_ex : exists s, hist dom1 (fun r _ => cap1 r) (offered_at dom1 cap1) s /\ is_goal s = true /\
  const_dom dom1 /\ need_nonneg dom1 /\ no_preempt dom1 /\ linear dom1 /\
  load dom1 s 0 1 = 2 /\ load dom1 s 0 2 = 1 /\ sumZ (map (mode_need dom1 s 1) (unconditional dom1)) = 4.
Proof.
  eexists. split.
  { eapply play_offered_hist with (l := run1); [play_nonneg|apply h_init|]. vm_compute. reflexivity. }
  split; [reflexivity|]. split; [apply dom1_const|]. split; [apply dom1_nonneg|]. split; [apply dom1_np|].
  split; [exists (fun _ _ => 0); reflexivity|]. auto.
Qed.

(** * C48: the makespan objective *)

(** [costs dm s c s']: from [s] to [s'] with accumulated transition cost [c]. *)
Inductive costs (dm : domain) : state -> Q -> state -> Prop :=
| co_nil : forall s, costs dm s 0 s
| co_step : forall s dur q a s1 x c s', next_state dm dur q s a = Ok s1 -> transition_cost dm s a s1 = Ok x ->
    costs dm s1 c s' -> costs dm s (x + c) s'.

(** With the makespan as only objective, the accumulated cost of any run from a reachable state is the
    time elapsed; in particular from the initial state it is the final date. *)
Theorem C48_makespan_cost : forall dm q0 s c s', d_makespan dm = true -> d_cost dm = false ->
  hist dm q0 anything s -> costs dm s c s' -> (c == inject_Z (s_t s' - s_t s))%Q.
Proof.
  intros dm q0 s c s' MK CO H C. induction C as [s|s dur q a s1 x c s' N T C IH].
  - rewrite Z.sub_diag. reflexivity.
  - assert (H1 : hist dm q0 anything s1) by (eapply h_step; [exact H|exact I|exact N]).
    rewrite (IH H1). unfold transition_cost in T. rewrite MK, CO in T. injection T as <-.
    rewrite <- inject_Z_plus. replace (s_t s1 - s_t s + (s_t s' - s_t s1)) with (s_t s' - s_t s) by lia. reflexivity.
Qed.

Theorem C48_goal_is_terminal : forall dm s, is_goal s = true -> is_terminal dm s = Ok true.
Proof.
  intros dm s G. unfold is_terminal, is_goal, all_tasks_possible in *. destruct (s_remaining s); [|discriminate].
  simpl. f_equal. destruct (s_ongoing s), (s_paused s); try discriminate. now rewrite orb_true_r.
Qed.

Example C48_ex : exists c s, costs dom1 (initial_state dom1 (fun r _ => cap1 r)) c s /\
  d_makespan dom1 = true /\ s_t s = 1.
Proof.
  eexists. eexists. split.
  - eapply co_step with (dur := 2) (a := start_act 1 1) (q := fun r _ => cap1 r); [vm_compute; reflexivity|reflexivity|].
    eapply co_step with (dur := 0) (a := time_act) (q := fun r _ => cap1 r); [vm_compute; reflexivity|reflexivity|].
    apply co_nil.
  - split; reflexivity.
Qed.

(** With both objectives the cost of a transition is the time elapsed, plus the cost of the mode of a
    task that starts, plus the price of every resource times what is used of it after the transition. *)
Theorem C48_both_objectives : forall dm s a s' x (price : nat -> Q) (used : nat -> Z), d_makespan dm = true -> d_cost dm = true ->
  (forall r, In r (d_types dm ++ d_units dm) -> dget (d_res_costs dm) r = Some (price r) /\ dget (s_used s') r = Some (used r)) ->
  transition_cost dm s a s' = Ok x ->
  exists starting,
    (x == inject_Z (s_t s' - s_t s) + starting
          + fold_right Qplus 0 (map (fun r => price r * inject_Z (used r)) (d_types dm ++ d_units dm)))%Q /\
    match a_kind a with
    | START => exists n m ms, a_task a = Some n /\ a_mode a = Some m /\
                 dget (d_mode_costs dm) n = Some ms /\ dget ms m = Some starting
    | _ => starting = 0%Q
    end.
Proof.
  intros dm s a s' x price used MK CO PR T. unfold transition_cost in T. rewrite MK, CO in T.
  apply bind_ok in T. destruct T as [mc [T1 T]]. apply bind_ok in T. destruct T as [cs [T2 T]]. injection T as <-.
  exists mc. split.
  - assert (E : cs = map (fun r => price r * inject_Z (used r))%Q (d_types dm ++ d_units dm)).
    { revert T2 PR. generalize (d_types dm ++ d_units dm). intros l. revert cs. induction l as [|r l IH]; intros cs T2 PR.
      - cbn in T2. now injection T2 as <-.
      - cbn [mapM] in T2. apply bind_ok in T2. destruct T2 as [y [Y T2]]. apply bind_ok in T2. destruct T2 as [ys [Z T2]].
        injection T2 as <-. cbn [map]. rewrite <- (IH ys Z) by (intros; apply PR; now right). f_equal.
        destruct (PR r (or_introl eq_refl)) as [P1 P2]. apply bind_ok in Y. destruct Y as [b [_ Y]]. destruct b; [|discriminate].
        unfold dgetE in Y. rewrite P1, P2 in Y. cbn [bind] in Y. congruence. }
    rewrite E. apply Qplus_assoc.
  - destruct (a_kind a); try (now injection T1 as <-).
    apply bind_ok in T1. destruct T1 as [n [N1 T1]]. apply bind_ok in T1. destruct T1 as [m [M1 T1]].
    apply bind_ok in T1. destruct T1 as [ms [S1 T1]]. exists n, m, ms. unfold act_task, act_mode, dgetE in *.
    destruct (a_task a); [|discriminate]. destruct (a_mode a); [|discriminate].
    destruct (dget (d_mode_costs dm) n) as [ms'|] eqn:Q1; [|discriminate]. injection S1 as <-.
    destruct (dget ms' m) eqn:Q2; [|discriminate]. repeat split; congruence.
Qed.
Example C48_both_ex : transition_cost
  {| d_tasks := [0]%nat; d_modes := [(0%nat, [(1%nat, Constant [])])]; d_types := [4]%nat; d_units := [];
     d_renew := Some [(4%nat, true)]; d_preempt := []; d_paused_ret := []; d_skills := None;
     d_progress := lin_progress (fun _ _ => 0); d_succ := []; d_exist := []; d_cond := []; d_horizon := 9;
     d_mode_costs := [(0%nat, [(1%nat, 5%Q)])]; d_res_costs := [(4%nat, 2%Q)]; d_makespan := true; d_cost := true |}
  (mkState 3 [] [] [] [] [] [] [] [(4%nat, 1)] [] [] [])
  (mkAction (Some 0%nat) START (Some 1%nat) true None)
  (mkState 4 [] [] [] [] [] [] [] [(4%nat, 1)] [] [] []) = Ok 8%Q.
Proof. reflexivity. Qed.

(** With the cost objective, no transition has a value as soon as there is a non-renewable resource
    (whatever the action is, TypeError or an earlier exception is raised). *)
Theorem C48_cost_non_renewable_fails : forall dm s a s' r, d_cost dm = true ->
  In r (d_types dm ++ d_units dm) -> is_renewable dm r = Ok false ->
  exists e, transition_cost dm s a s' = Err e.
Proof.
  intros dm s a s' r CO I RN. unfold transition_cost. rewrite CO.
  destruct (match a_kind a with START => _ | _ => _ end) as [mc|e]; [cbn [bind]|cbn [bind]; eauto].
  assert (X : forall (f : nat -> res Q) l, In r l -> f r = Err TypeError -> exists e, mapM f l = Err e).
  { intros f. induction l as [|x l IH]; intros J F; [destruct J|]. cbn [mapM].
    destruct (f x) as [y|e] eqn:E; [|simpl; eauto]. cbn [bind]. destruct J as [ -> |J]; [congruence|].
    destruct (IH J F) as [e ->]. simpl. eauto. }
  match goal with |- context [mapM ?f (d_types dm ++ d_units dm)] =>
    destruct (X f (d_types dm ++ d_units dm) I) as [e E] end.
  - now rewrite RN.
  - rewrite E. simpl. eauto.
Qed.

Example C48_cost_ex : exists e, transition_cost
  {| d_tasks := [0]%nat; d_modes := [(0%nat, [(1%nat, Constant [])])]; d_types := [4]%nat; d_units := [];
     d_renew := Some [(4%nat, false)]; d_preempt := []; d_paused_ret := []; d_skills := None;
     d_progress := lin_progress (fun _ _ => 0); d_succ := []; d_exist := []; d_cond := []; d_horizon := 9;
     d_mode_costs := []; d_res_costs := [(4%nat, 1%Q)]; d_makespan := true; d_cost := true |}
  (initial_state dom1 (fun _ _ => 0)) time_act (initial_state dom1 (fun _ _ => 0)) = Err e.
Proof. eexists. reflexivity. Qed.
(** With the cost objective, no transition has a value as soon as there is a non-renewable resource. *)
Theorem C48_cost_non_renewable_refuted : exists dm r s a s' e, d_cost dm = true /\ In r (d_types dm) /\ is_renewable dm r = Ok false /\ transition_cost dm s a s' = Err e.
Proof.
  destruct C48_cost_ex as [e E]. do 5 eexists. exists e. split; [|split; [|split; [|exact E]]]; [reflexivity|now left|reflexivity].
Qed.

Print Assumptions C20_one_status.
Print Assumptions C20_conditional_status.
Print Assumptions C21_renewable.
Print Assumptions C21_non_renewable.
Print Assumptions C22_availability_is_current.
Print Assumptions C22_capacity.
Print Assumptions C23_precedence.
Print Assumptions C24_completes_on_time.
Print Assumptions C24_long_duration_refuted.
Print Assumptions C25_offered_start_works.
Print Assumptions C26_distribution.
Print Assumptions C47_any_mode_feasible.
Print Assumptions C47_final_schedule_feasible.
Print Assumptions C48_makespan_cost.
Print Assumptions C48_both_objectives.
