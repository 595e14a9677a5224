(** C66, C67: the expected cost of a policy. *)
From Coq Require Import List Bool Arith QArith Lia Lqa.
From Verif Require Import Py PyList PyMore PevalModel PevalSpec PevalProofs PevalRollProofs.
Import ListNotations.
Open Scope nat_scope.

Section Thms.
Context {St A : Type} {ES : PyEq St}.
Variable d : pdom St A.
Variable pol : St -> A.
Variable pick : list St -> St.
Hypothesis PK : picks pick.

Lemma compute_facts : forall fuel opt pd preds succs, compute_expected_cost_for_policy fuel pick d pol = Ok (opt, pd, preds, succs) ->
  einv d pol [] pd preds succs /\ vinv d pol pd opt [].
Proof.
  intros fuel opt pd preds succs E. unfold compute_expected_cost_for_policy in E. destruct (construct_dict_policy fuel d pol) as [[[pd0 preds0] succs0]|er] eqn:C; [|discriminate]. cbn [bind] in E.
  destruct (construct_facts d pol _ _ _ _ C) as (EI & SN & NS & NP). unfold expected_costs_for_policy in E. pose proof (seed_inv d pol pd0 preds0 succs0 EI NP) as SI. destruct (seed d preds0) as [o st]. cbn [fst snd] in SI.
  destruct (evaluate fuel pick d pd0 preds0 succs0 o st) as [o'|er] eqn:V; [|discriminate]. cbn [bind] in E. injection E as <- <- <- <-. split; [exact EI|].
  eapply evaluate_inv; eauto.
Qed.

(** The policy that is returned is the given one, on the states that can be met before a terminal state; so are their
    distributions and predecessors. *)
Theorem C66_policy : forall fuel opt pd preds succs, compute_expected_cost_for_policy fuel pick d pol = Ok (opt, pd, preds, succs) ->
  (forall s a, dget pd s = Some a <-> met d pol s /\ d_term d s = false /\ a = pol s) /\
  (forall s os, dget succs s = Some os <-> met d pol s /\ d_term d s = false /\ os = d_dist d s (pol s)) /\
  (forall s t, In s (pget preds t) <-> met d pol s /\ d_term d s = false /\ exists pr, In (t, pr) (d_dist d s (pol s))).
Proof.
  intros fuel opt pd preds succs E. destruct (compute_facts _ _ _ _ _ E) as [EI _].
  assert (exists f, construct_dict_policy f d pol = Ok (pd, preds, succs)) as (f & CD).
  { unfold compute_expected_cost_for_policy in E. destruct (construct_dict_policy fuel d pol) as [[[pd0 preds0] succs0]|er] eqn:C; [|discriminate]. exists fuel. rewrite C. cbn [bind] in E. destruct (expected_costs_for_policy fuel pick d pd0 preds0 succs0); [|discriminate]. cbn [bind] in E. congruence. }
  destruct (construct_facts d pol _ _ _ _ CD) as (_ & SN & _ & _).
  pose proof (einv_done d pol _ _ _ EI) as DN. assert (EI' := EI). destruct EI' as (E1 & E1' & E2 & _ & _ & E5 & _). split; [|split].
  - intros s a. split.
    + intros G. assert (M : dmem pd s = true) by (apply mem_get; eauto). apply DN in M. destruct M. rewrite (E1' _ _ G). auto.
    + intros (M & T & ->). assert (D : dmem pd s = true) by (apply DN; auto). apply mem_get in D. destruct D as [a G]. rewrite G. f_equal. apply E1'. exact G.
  - intros s os. rewrite E2. destruct (dmem pd s) eqn:M.
    + apply DN in M. split; [intros Z; injection Z as <-; tauto|intros (_ & _ & ->); reflexivity].
    + split; [discriminate|]. intros (M' & T & _). assert (dmem pd s = true) by (apply DN; auto). congruence.
  - intros s t. rewrite E5, DN. split.
    + intros [[M T] (pr & I & N)]. eauto.
    + intros (M & T & pr & I). split; [auto|]. apply (outcome_edge d pol pd preds succs EI SN s t pr); [apply DN; auto|exact I].
Qed.

(** A value that is returned is the expected cost of following the policy until a goal, which is then certain to be reached. *)
Theorem C66_sound : forall fuel opt pd preds succs, compute_expected_cost_for_policy fuel pick d pol = Ok (opt, pd, preds, succs) ->
  d_goal d (d_init d) = false -> forall s v, dget opt s = Some v -> costs d pol s v.
Proof. intros fuel opt pd preds succs E GI s v G. destruct (compute_facts _ _ _ _ _ E) as [_ (V1 & _)]. auto. Qed.

(** Every state that can be met and from which a goal is reached in boundedly many steps has a value. *)
Theorem C66_complete : forall fuel opt pd preds succs, compute_expected_cost_for_policy fuel pick d pol = Ok (opt, pd, preds, succs) ->
  d_goal d (d_init d) = false -> live d pol ->
  forall s v, met d pol s -> costs d pol s v -> exists v', dget opt s = Some v' /\ (v' == v)%Q.
Proof.
  intros fuel opt pd preds succs E GI LV s v M C. destruct (compute_facts _ _ _ _ _ E) as [EI (V1 & _ & V3 & V4 & _)].
  assert (D : dmem opt s = true).
  { revert s v C M. fix IH 3. intros s v C M. destruct C as [s v G Z|s ws v G T F Z].
    - inversion M as [Q|x t pr M' T' I N Q]; [congruence|]. subst t. apply (V3 x s); [apply (einv_done d pol _ _ _ EI); auto|exists pr; auto|auto].
    - destruct (dmem opt s) eqn:O; [auto|]. exfalso. destruct (V4 LV s) as (t & (pr & I & N) & OT); [apply (einv_done d pol _ _ _ EI); auto|exact O|intros []|].
      assert (MT : met d pol t) by (eapply met_step; eauto). clear Z LV V1 V3 V4 O.
      assert (K : forall os ws, Forall2 (fun o w => costs d pol (fst o) w) os ws -> In (t, pr) os -> dmem opt t = true).
      { fix IHF 3. intros os ws' F'. destruct F' as [|o w os ws' C' F']; intros J; [destruct J|]. destruct J as [->|J]; [exact (IH _ _ C' MT)|exact (IHF _ _ F' J)]. }
      rewrite (K _ _ F I) in OT. discriminate. }
  apply mem_get in D. destruct D as [v' G]. exists v'. split; [exact G|]. eapply costs_unique; [|exact C]. eapply C66_sound; eauto.
Qed.

(** The computation ends without an exception when finitely many states can be met. *)
Theorem C66_returns : live d pol -> finite_met d pol -> exists N, forall fuel, N <= fuel -> exists r, compute_expected_cost_for_policy fuel pick d pol = Ok r.
Proof.
  intros LV (U & HU). set (N1 := 1 + load d pol U [] + length (filter (fun x => negb (dmem (V := A) [] x)) U)). exists (N1 + length U * S (length U) + length U). intros fuel LE.
  destruct (explore_total d pol U HU fuel [d_init d] [] [] [] (einv_start d pol)) as [[[pd preds] succs] X]; [cbn [length]; unfold N1 in LE; lia|].
  pose proof (explore_inv d pol _ _ _ _ _ _ _ _ (einv_start d pol) X) as EI.
  assert (NoDup (dkeys succs) /\ NoDup (dkeys preds)) as [NS NP] by (eapply explore_nodup; [| |exact X]; constructor). pose proof (sane_ok d pol pd preds succs EI LV NS) as SN.
  unfold compute_expected_cost_for_policy, construct_dict_policy. rewrite X. cbn [bind]. rewrite SN. cbn [bind]. unfold expected_costs_for_policy.
  pose proof (seed_inv d pol pd preds succs EI NP) as SI. destruct (seed d preds) as [o st]. cbn [fst snd] in SI.
  destruct (evaluate_total d pol pd preds succs EI SN U pick PK HU fuel o st SI) as [o' EV].
  - assert (unvalued U o <= length U). { unfold unvalued. rewrite <- (filter_all _ (fun _ => true) U) at 2 by auto. apply AoProofs.filter_length_mono. auto. }
    assert (length st <= length U). { destruct SI as (_ & V2 & _ & _ & _ & V6). apply NoDup_incl_length; [exact V6|]. intros x I. apply HU. apply V2 in I. apply (einv_done d pol _ _ _ EI) in I. tauto. }
    nia.
  - rewrite EV. cbn [bind]. eauto.
Qed.
End Thms.

(** *** Rollouts *)
Section Rolls.
Context {St A : Type} {ES : PyEq St}.
Variable d : pdom St A.
Variable pol : St -> A.
Variable draw : nat -> St -> A -> St.

(** The mean of a list, as the code computes it. *)
Definition average (l : list Q) : Q := (qsum l / inject_Z (Z.of_nat (length l)))%Q.

Theorem C67_estimate : forall fuel nb fv pd preds succs, rollout_based_policy_estimation fuel draw d pol nb = Ok (fv, pd, preds, succs) ->
  exists es n, length es = nb /\ trips d pol draw 0 es n /\
  (forall s, match dget fv s with
             | Some v => all_to_go s es <> [] /\ (v == average (all_to_go s es))%Q
             | None => all_to_go s es = []
             end) /\
  (forall s a, dget pd s = Some a <-> all_to_go s es <> [] /\ a = pol s) /\
  (forall s t, In t (pget preds s) <-> exists e, In e es /\ consec (map fst (fst e)) t s) /\
  (forall s t, In t (pget succs s) <-> exists e, In e es /\ consec (map fst (fst e) ++ [snd e]) s t).
Proof.
  intros fuel nb fv pd preds succs E. unfold rollout_based_policy_estimation in E. destruct (foldM _ _ (seq 0 nb)) as [en|er] eqn:F; [|discriminate]. cbn [bind] in E.
  destruct (rollouts_ok d pol draw fuel nb en F) as (es & L & T & EO). destruct (final_value_ok pol _ _ EO) as (fv0 & FV & G). rewrite FV in E. cbn [bind] in E. injection E as <- <- <- <-.
  exists es, (snd en). split; [exact L|]. split; [exact T|]. destruct EO as (_ & _ & H3 & _ & H5 & _ & H7).
  assert (NE : forall s, at_state s (all_events pol es) = [] <-> all_to_go s es = []).
  { intros s. destruct (all_events_to_go pol s es) as [_ Z]. destruct (at_state s (all_events pol es)), (all_to_go s es); cbn in Z; split; congruence. }
  split; [|split; [|split]].
  - intros s. specialize (G s). destruct (dget fv0 s) as [v|]; [|apply NE; exact G]. destruct G as [N V]. split; [rewrite <- NE; exact N|]. destruct (all_events_to_go pol s es) as [Z1 Z2]. rewrite V, Z1, Z2. reflexivity.
  - intros s a. rewrite H3, NE. reflexivity.
  - intros s t. rewrite H5. unfold all_events. split.
    + intros (v & I & E1 & E2). apply in_flat_map in I. destruct I as (e & J & I). apply in_rev in I. exists e. split; [exact J|]. destruct (proj1 (events_prev pol (fst e) (snd e) None s t)) as [C|[C _]]; [eauto|exact C|discriminate].
    + intros (e & J & C). destruct (proj2 (events_prev pol (fst e) (snd e) None s t)) as (v & I & E1 & E2); [auto|]. exists v. split; [|auto]. apply in_flat_map. exists e. split; [exact J|]. now apply in_rev in I.
  - intros s t. rewrite H7. unfold all_events. split.
    + intros (v & I & E1 & E2). apply in_flat_map in I. destruct I as (e & J & I). apply in_rev in I. exists e. split; [exact J|]. apply (proj1 (events_next pol (fst e) (snd e) None s t)). eauto.
    + intros (e & J & C). destruct (proj2 (events_next pol (fst e) (snd e) None s t)) as (v & I & E1 & E2); [auto|]. exists v. split; [|auto]. apply in_flat_map. exists e. split; [exact J|]. now apply in_rev in I.
Qed.

(** The estimation ends if the executions do. *)
Theorem C67_returns : forall es n, trips d pol draw 0 es n -> exists N, forall fuel, N <= fuel -> exists r, rollout_based_policy_estimation fuel draw d pol (length es) = Ok r.
Proof.
  intros es n T. destruct (rollouts_total d pol draw es n T) as (N & H). exists N. intros fuel LE. destruct (H fuel LE) as (en & F & _ & EO). unfold rollout_based_policy_estimation. rewrite F. cbn [bind].
  destruct (final_value_ok pol _ _ EO) as (fv & FV & _). rewrite FV. cbn [bind]. eauto.
Qed.

(** Without uncertainty the estimate is the exact cost. *)
Lemma trip_costs : (forall n s, d_term d s = false -> d_dist d s (pol s) = [(draw n s (pol s), 1%Q)]) ->
  forall n s path z m, trip d pol draw n s path z m -> d_goal d s = false -> d_term d s = false -> d_goal d z = true ->
  forall x v, In v (to_go x path) -> costs d pol x v.
Proof.
  intros DT n s path z m T. induction T as [n s t -> EN|n s t path z m -> EN T IH]; intros GS TS GZ x v I.
  - cbn in I. destruct (pyeqb_spec s x) as [EQ|N]; [|destruct I]. subst x. cbn in I. destruct I as [<-|[]]. apply costs_act with [0%Q]; auto.
    + rewrite (DT n s TS). constructor; [|constructor]. apply costs_goal; [exact GZ|reflexivity].
    + rewrite (DT n s TS). cbn. ring.
  - set (t := draw n s (pol s)) in *. assert (GT : d_goal d t = false /\ d_term d t = false).
    { unfold ends in EN. destruct (d_goal d t), (d_term d t); auto; exfalso; apply EN; auto. }
    destruct GT as [GT TT]. cbn [to_go fst] in I. apply in_app_iff in I. destruct I as [I|I]; [|now apply IH]. destruct (pyeqb_spec s x) as [EQ|N]; [|destruct I]. subst x. cbn [In total snd] in I. destruct I as [<-|[]].
    assert (CT : costs d pol t (total path)).
    { apply IH; auto. destruct T as [n' s' t' -> E'|n' s' t' path z m' -> E' T']; cbn [to_go fst]; rewrite pyeqb_refl; now left. }
    apply costs_act with [total path]; auto.
    + rewrite (DT n s TS). constructor; [exact CT|constructor].
    + rewrite (DT n s TS). cbn [mean]. fold t. ring.
Qed.
Lemma all_trips : forall n es m, trips d pol draw n es m -> forall e, In e es -> exists k k', trip d pol draw k (d_init d) (fst e) (snd e) k'.
Proof. intros n es m T. induction T as [n|n m l es k T IH TR]; intros e I; [destruct I|]. apply in_app_iff in I. destruct I as [I|[<-|[]]]; eauto. Qed.
Lemma average_same : forall l c, l <> [] -> (forall x, In x l -> (x == c)%Q) -> (average l == c)%Q.
Proof.
  intros l c N H. assert (E : (qsum l == c * inject_Z (Z.of_nat (length l)))%Q).
  { clear N. induction l as [|x l IH]; [cbn; ring|]. cbn [qsum length]. rewrite IH by (intros; apply H; now right). rewrite (H x) by now left. rewrite Nat2Z.inj_succ. unfold Z.succ. rewrite inject_Z_plus. ring. }
  unfold average. rewrite E. field. intros C. destruct l; [congruence|]. change 0%Q with (inject_Z 0) in C. apply inject_Z_injective in C. cbn in C. discriminate C.
Qed.

Theorem C67_exact : (forall n s, d_term d s = false -> d_dist d s (pol s) = [(draw n s (pol s), 1%Q)]) ->
  d_goal d (d_init d) = false -> d_term d (d_init d) = false -> (forall s, d_term d s = true -> d_goal d s = true) ->
  forall fuel nb fv pd preds succs, rollout_based_policy_estimation fuel draw d pol nb = Ok (fv, pd, preds, succs) ->
  (forall s v, dget fv s = Some v -> exists w, costs d pol s w /\ (v == w)%Q) /\ (0 < nb -> exists v, dget fv (d_init d) = Some v).
Proof.
  intros DT GI TI TG fuel nb fv pd preds succs E. destruct (C67_estimate _ _ _ _ _ _ E) as (es & n & L & T & FV & _). split.
  - intros s v G. specialize (FV s). rewrite G in FV. destruct FV as [N V].
    assert (AC : forall c, In c (all_to_go s es) -> costs d pol s c).
    { intros c I. unfold all_to_go in I. apply in_flat_map in I. destruct I as (e & J & I). destruct (all_trips _ _ _ T e J) as (k & k' & TR). eapply trip_costs; eauto.
      clear -TR TG. induction TR as [n s t -> [X|X]|]; auto. }
    destruct (all_to_go s es) as [|c l] eqn:Z; [congruence|]. exists c. split; [apply AC; now left|]. rewrite V. apply average_same; [discriminate|]. intros x I. eapply costs_unique; [apply AC; exact I|apply AC; now left].
  - intros P. specialize (FV (d_init d)). destruct (dget fv (d_init d)) as [v|]; [eauto|]. exfalso. destruct es as [|e es]; [cbn in L; lia|]. destruct (all_trips _ _ _ T e (or_introl eq_refl)) as (k & k' & TR).
    unfold all_to_go in FV. cbn [flat_map] in FV. apply app_eq_nil in FV. destruct FV as [FV _]. destruct TR; cbn [to_go fst] in FV; rewrite pyeqb_refl in FV; discriminate.
Qed.
End Rolls.

(** *** Cases *)
Definition first {X} (x0 : X) (l : list X) : X := match l with [] => x0 | x :: _ => x end.
Lemma first_picks : picks (first 0).
Proof. intros l N. destruct l; [congruence|now left]. Qed.

(** From 0, a toss leads to 1 or 2; 1 leads to the goal 3 and 2 to 1 or 3. *)
Definition toss : pdom nat unit := {|
  d_init := 0;
  d_term := fun s => s =? 3;
  d_goal := fun s => s =? 3;
  d_dist := fun s _ => match s with 0 => [(1, (1#2)%Q); (2, (1#2)%Q)] | 1 => [(3, 1%Q)] | _ => [(1, (1#4)%Q); (3, (3#4)%Q)] end;
  d_cost := fun s _ t => match s with 0 => 1%Q | 1 => 4%Q | _ => 2%Q end |}.

Example C66_ex : exists opt pd preds succs, compute_expected_cost_for_policy 30 (first 0) toss (fun _ => tt) = Ok (opt, pd, preds, succs) /\
  d_goal toss (d_init toss) = false /\ live toss (fun _ => tt) /\ finite_met toss (fun _ => tt) /\
  dget opt 3 = Some 0%Q /\ (exists v, dget opt 0 = Some v /\ (v == 9#2)%Q) /\ costs toss (fun _ => tt) 0 (9#2).
Proof.
  eexists _, _, _, _. split; [vm_compute; reflexivity|]. split; [reflexivity|]. split; [|split; [|split; [reflexivity|split; [eexists; split; [vm_compute; reflexivity|reflexivity]|]]]].
  - intros s _. destruct s as [|[|s]]; cbn; split; try discriminate; intros t pr I; repeat (destruct I as [I|I]; [injection I as <- <-; intros C; discriminate C|]); destruct I.
  - exists [0; 1; 2; 3]. intros s M. induction M as [|s t pr M IH T I N]; [now left|]. destruct IH as [<-|[<-|[<-|[<-|[]]]]]; cbn in I; repeat (destruct I as [I|I]; [injection I as <- <-; cbn; tauto|]); destruct I.
  - assert (C3 : costs toss (fun _ => tt) 3 0%Q) by (apply costs_goal; reflexivity).
    assert (C1 : costs toss (fun _ => tt) 1 4%Q) by (apply costs_act with [0%Q]; [reflexivity|reflexivity|constructor; [exact C3|constructor]|reflexivity]).
    assert (C2 : costs toss (fun _ => tt) 2 3%Q) by (apply costs_act with [4%Q; 0%Q]; [reflexivity|reflexivity|constructor; [exact C1|constructor; [exact C3|constructor]]|reflexivity]).
    apply costs_act with [4%Q; 3%Q]; [reflexivity|reflexivity|constructor; [exact C1|constructor; [exact C2|constructor]]|reflexivity].
Qed.

(** A policy that may have to try again reaches the goal with probability one, at the expected cost 2, but gets no value. *)
Definition retry : pdom nat unit := {|
  d_init := 0;
  d_term := fun s => s =? 1;
  d_goal := fun s => s =? 1;
  d_dist := fun s _ => [(0, (1#2)%Q); (1, (1#2)%Q)];
  d_cost := fun _ _ _ => 1%Q |}.
Theorem C66_loop_refuted : exists (d : pdom nat unit) pol, live d pol /\ finite_met d pol /\ d_goal d (d_init d) = false /\
  (exists V : nat -> Q, (forall s, d_goal d s = true -> V s == 0)%Q /\
     (forall s, d_goal d s = false -> (V s == mean d s (pol s) (d_dist d s (pol s)) (map (fun o => V (fst o)) (d_dist d s (pol s))))%Q) /\ (V (d_init d) == 2)%Q) /\
  exists opt pd preds succs, compute_expected_cost_for_policy 30 (first 0) d pol = Ok (opt, pd, preds, succs) /\ dget opt (d_init d) = None.
Proof.
  exists retry, (fun _ => tt). split; [|split; [|split; [reflexivity|split]]].
  - intros s _. cbn. split; [discriminate|]. intros t pr I. repeat (destruct I as [I|I]; [injection I as <- <-; intros C; discriminate C|]); destruct I.
  - exists [0; 1]. intros s M. induction M as [|s t pr M IH T I N]; [now left|]. cbn in I. repeat (destruct I as [I|I]; [injection I as <- <-; cbn; tauto|]); destruct I.
  - exists (fun s => if s =? 1 then 0%Q else 2%Q). split; [|split; [|reflexivity]].
    + intros s G. cbn in G. rewrite G. reflexivity.
    + intros s G. cbn in G. rewrite G. reflexivity.
  - eexists _, _, _, _. split; [vm_compute; reflexivity|reflexivity].
Qed.

(** An initial state that is a goal: when it is terminal it gets no value, otherwise a value that is not zero. *)
Definition goal_first (term : bool) : pdom nat unit := {|
  d_init := 0;
  d_term := fun s => if s =? 0 then term else s =? 1;
  d_goal := fun _ => true;
  d_dist := fun _ _ => [(1, 1%Q)];
  d_cost := fun _ _ _ => 1%Q |}.
Theorem C66_goal_start_refuted :
  (exists opt pd preds succs, compute_expected_cost_for_policy 30 (first 0) (goal_first true) (fun _ => tt) = Ok (opt, pd, preds, succs) /\ dget opt 0 = None) /\
  (exists opt pd preds succs, compute_expected_cost_for_policy 30 (first 0) (goal_first false) (fun _ => tt) = Ok (opt, pd, preds, succs) /\ dget opt 0 = Some 1%Q).
Proof. split; eexists _, _, _, _; (split; [vm_compute; reflexivity|reflexivity]). Qed.

(** An outcome listed with probability zero stops the computation. *)
Definition zero_outcome : pdom nat unit := {|
  d_init := 0;
  d_term := fun s => negb (s =? 0);
  d_goal := fun s => negb (s =? 0);
  d_dist := fun _ _ => [(1, 1%Q); (2, 0%Q)];
  d_cost := fun _ _ _ => 1%Q |}.
Theorem C66_zero_refuted : exists (d : pdom nat unit) pol, d_goal d (d_init d) = false /\ compute_expected_cost_for_policy 30 (first 0) d pol = Err AssertionError.
Proof. exists zero_outcome, (fun _ => tt). split; reflexivity. Qed.

(** Rollouts of [toss] with the outcomes 2, 1, 3 and then 1, 3. *)
Definition toss_draw (n s : nat) (_ : unit) : nat := nth n [2; 1; 3; 1; 3] 3.
Example C67_ex : exists fv pd preds succs, rollout_based_policy_estimation 30 toss_draw toss (fun _ => tt) 2 = Ok (fv, pd, preds, succs) /\
  trips toss (fun _ => tt) toss_draw 0 [([(0, 1%Q); (2, 2%Q); (1, 4%Q)], 3); ([(0, 1%Q); (1, 4%Q)], 3)] 5 /\
  (exists v, dget fv 0 = Some v /\ (v == 6)%Q) /\ dget fv 3 = None /\ pget preds 1 = [2; 0] /\ pget succs 0 = [2; 1].
Proof.
  eexists _, _, _, _. split; [vm_compute; reflexivity|]. split; [|split; [eexists; split; [vm_compute; reflexivity|reflexivity]|repeat split]].
  assert (E3 : ends toss 3) by (left; reflexivity).
  assert (E : forall s, s <> 3 -> ~ ends toss s). { intros s N [C|C]; cbn in C; apply Nat.eqb_eq in C; contradiction. }
  apply (trips_one _ _ _ 0 3 ([(0, 1%Q); (1, 4%Q)], 3) [([(0, 1%Q); (2, 2%Q); (1, 4%Q)], 3)] 5).
  - apply (trips_one _ _ _ 0 0 ([(0, 1%Q); (2, 2%Q); (1, 4%Q)], 3) [] 3); [constructor|]. cbn [fst snd].
    apply (trip_more toss (fun _ => tt) toss_draw 0 0 2); [reflexivity|apply E; discriminate|].
    apply (trip_more toss (fun _ => tt) toss_draw 1 2 1); [reflexivity|apply E; discriminate|].
    apply (trip_end toss (fun _ => tt) toss_draw 2 1 3); [reflexivity|exact E3].
  - apply (trip_more toss (fun _ => tt) toss_draw 3 0 1); [reflexivity|apply E; discriminate|].
    apply (trip_end toss (fun _ => tt) toss_draw 4 1 3); [reflexivity|exact E3].
Qed.

(** A path of length three without uncertainty. *)
Definition road : pdom nat unit := {|
  d_init := 0; d_term := fun s => s =? 3; d_goal := fun s => s =? 3;
  d_dist := fun s _ => [(S s, 1%Q)]; d_cost := fun s _ _ => inject_Z (Z.of_nat s + 1) |}.
Example C67_exact_ex : (forall n s, d_term road s = false -> d_dist road s tt = [((fun (_ s : nat) (_ : unit) => S s) n s tt, 1%Q)]) /\
  exists fv pd preds succs, rollout_based_policy_estimation 30 (fun _ s _ => S s) road (fun _ => tt) 2 = Ok (fv, pd, preds, succs) /\ exists v, dget fv 0 = Some v /\ (v == 6)%Q.
Proof. split; [reflexivity|]. eexists _, _, _, _. split; [vm_compute; reflexivity|]. eexists. split; [vm_compute; reflexivity|reflexivity]. Qed.

(** The penalty for ending in a terminal state that is not a goal is in the total of the rollout but not in the estimated value. *)
Definition dead : pdom nat unit := {|
  d_init := 0; d_term := fun s => s =? 1; d_goal := fun _ => false;
  d_dist := fun _ _ => [(1, 1%Q)]; d_cost := fun _ _ _ => 1%Q |}.
Theorem C67_penalty_refuted : exists (d : pdom nat unit) pol draw fv pd preds succs,
  rollout_based_policy_estimation 30 draw d pol 1 = Ok (fv, pd, preds, succs) /\
  (exists v, dget fv (d_init d) = Some v /\ (v == 1)%Q) /\
  (exists states values actions n u, steps 30 draw d pol 0 (d_init d) = Ok (states, values, actions, n) /\ rollout_sum d states values = Ok u /\ (u == 1001)%Q) /\
  forall s, d_goal d s = false.
Proof.
  exists dead, (fun _ => tt), (fun _ _ _ => 1). eexists _, _, _, _. split; [vm_compute; reflexivity|]. split; [eexists; split; [vm_compute; reflexivity|reflexivity]|]. split; [|reflexivity].
  eexists _, _, _, _, _. split; [vm_compute; reflexivity|]. split; [vm_compute; reflexivity|reflexivity].
Qed.

Print Assumptions C66_policy.
Print Assumptions C66_sound.
Print Assumptions C66_complete.
Print Assumptions C66_returns.
Print Assumptions C66_loop_refuted.
Print Assumptions C67_estimate.
Print Assumptions C67_returns.
Print Assumptions C67_exact.
