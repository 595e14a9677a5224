(** Properties C64 and C65: the ILAO* solver. *)
From Coq Require Import List Bool Arith QArith Qabs Lia Lqa Permutation.
From Verif Require Import Py PyList AoModel AoSpec AoProofs AoProps LrtdpModel LrtdpSpec IlaoModel IlaoSpec IlaoProofs IlaoSolveProofs.
Import ListNotations.
Open Scope nat_scope.

(** *** C64: the values reported never exceed the cost of a plan *)

Lemma value_at : forall St A {ES : PyEq St} (g : igraph St A) s v, ilao_best_value g s = Ok v -> dget g s <> None /\ i_value (inn g s) = v.
Proof. intros St A ES g s v E. unfold ilao_best_value in E. unfold inn. destruct (dget g s); [|discriminate]. split; congruence. Qed.

(** Whatever calls to [solve] have been made, and in whatever order sets are iterated over: if [V] is at
    least the heuristic and at least the expected cost of some action followed by [V], then the values
    of the states known to the solver are numbers not above [V]. *)
Theorem C64_below : forall St A {ES : PyEq St} (p : mdp St A) cf V g x v, ifair cf -> (0 <= ic_discount cf)%Q -> weights p ->
  above p (ic_discount cf) V -> isession p cf g -> ilao_best_value g x = Ok v -> exists u, v = Some u /\ (u <= V x)%Q.
Proof.
  intros St A ES p cf V g x v FA GP WT [AG AN] SE BV.
  assert (BD : bounding p (ic_discount cf) (fun x v => v = V x)).
  { intros y w ->. destruct (m_goal p y) eqn:G; [auto|]. destruct (AN y G) as (H & a & IA & L). split; [auto|].
    exists a, (map (fun o => V (fst o)) (m_dist p y a)). split; [auto|]. split; [|auto]. clear. induction (m_dist p y a); constructor; auto. }
  pose proof (session_inv p cf FA (fun x v => v = V x) (fun _ _ _ => conj GP WT) BD g SE) as I.
  apply value_at in BV. destruct BV as [M <-]. destruct (dget g x) as [n|] eqn:D; [|congruence]. rewrite (inn_some _ _ _ D).
  exact (k_below _ _ _ _ _ _ (I x n D) (V x) eq_refl).
Qed.

(** In particular, with an admissible heuristic, they do not exceed the cost of any plan. *)
Theorem C64_below_plans : forall St A {ES : PyEq St} (p : mdp St A) cf g x v w, ifair cf -> (0 <= ic_discount cf)%Q -> weights p ->
  admissible p (ic_discount cf) -> isession p cf g -> ilao_best_value g x = Ok v -> plan_cost p (ic_discount cf) x w ->
  exists u, v = Some u /\ (u <= w)%Q.
Proof.
  intros St A ES p cf g x v w FA GP WT AD SE BV PC.
  assert (BD : bounding p (ic_discount cf) (plan_cost p (ic_discount cf))).
  { intros y u PY. pose proof (AD y u PY) as H. inversion PY as [s0 v0 G E|s0 a ws v0 G IA F E]; subst; rewrite G.
    - rewrite E. apply Qle_refl.
    - split; [auto|]. exists a, ws. split; [auto|]. split; [auto|]. rewrite E. apply Qle_refl. }
  pose proof (session_inv p cf FA (plan_cost p (ic_discount cf)) (fun _ _ _ => conj GP WT) BD g SE) as I.
  apply value_at in BV. destruct BV as [M <-]. destruct (dget g x) as [n|] eqn:D; [|congruence]. rewrite (inn_some _ _ _ D).
  exact (k_below _ _ _ _ _ _ (I x n D) w PC).
Qed.

Definition usual : iconfig nat := {| ic_discount := 1%Q; ic_epsilon := 1 # 1000; ic_order := fun l => l |}.
Lemma usual_fair : ifair usual.
Proof. intros l. apply Permutation_refl. Qed.

(** In state 0 an action of cost 1 leads to 1 or stays in 0 with the same chance; from 1 an action of cost
    2 leads to the goal 2. *)
Definition loop : mdp nat nat := {|
  m_apps := fun s => match s with 0 | 1 => [0] | _ => [] end;
  m_dist := fun s _ => match s with 0 => [(0, 1 # 2); (1, 1 # 2)] | _ => [(2, 1%Q)] end;
  m_cost := fun s _ _ => match s with 0 => 1%Q | _ => 2%Q end;
  m_goal := fun s => match s with 0 | 1 => false | _ => true end;
  m_heur := fun _ => 0%Q |}.
Definition loop_cost (s : nat) : Q := match s with 0 => 4%Q | 1 => 2%Q | _ => 0%Q end.
Lemma loop_weights : weights loop.
Proof. intros [|[|s]] a y pr I J; cbn in I, J; repeat (destruct J as [J|J]; [injection J as <- <-; discriminate|]); destruct J. Qed.
Example C64_ex : ifair usual /\ weights loop /\ above loop 1 loop_cost /\ m_goal loop 0 = false /\
  exists g v, ilao_solve 30 loop usual [] 0 = Ok g /\ ilao_best_value g 0 = Ok (Some v) /\ (399 # 100 < v < 4)%Q.
Proof.
  split; [exact usual_fair|]. split; [exact loop_weights|]. split; [|split; [reflexivity|]].
  - split.
    + intros [|[|s]] G; cbn; lra.
    + intros [|[|s]] G; try discriminate; (split; [cbn; lra|]); exists 0; (split; [now left|cbn; lra]).
  - do 2 eexists. split; [vm_compute; reflexivity|]. split; [reflexivity|]. split; reflexivity.
Qed.

(** A call from a goal state leaves a node that is not known to be a goal: from 1 the goal 0 is reached at
    cost 1, but after a call from 0 the solver reports 6, the goal 0 being left again for the goal 2. *)
Definition leave : mdp nat nat := {|
  m_apps := fun s => match s with 0 | 1 => [0] | _ => [] end;
  m_dist := fun s _ => match s with 1 => [(0, 1%Q)] | _ => [(2, 1%Q)] end;
  m_cost := fun s _ _ => match s with 1 => 1%Q | _ => 5%Q end;
  m_goal := fun s => negb (s =? 1);
  m_heur := fun _ => 0%Q |}.
Theorem C64_goal_start_refuted : exists (p : mdp nat nat) cf fuel g1 g2 v w, ifair cf /\ weights p /\ above p (ic_discount cf) (fun s => if s =? 1 then w else 0%Q) /\
  ilao_solve fuel p cf [] 0 = Ok g1 /\ m_goal p 0 = true /\ ilao_solve fuel p cf g1 1 = Ok g2 /\
  ilao_best_value g2 1 = Ok (Some v) /\ plan_cost p (ic_discount cf) 1 w /\ (w + 5 <= v)%Q.
Proof.
  exists leave, usual, 30. eexists. eexists. eexists. exists 1%Q. split; [exact usual_fair|]. split.
  { intros [|[|s]] a y pr I J; cbn in I, J; repeat (destruct J as [J|J]; [injection J as <- <-; discriminate|]); destruct J. }
  split.
  { split.
    - intros [|[|s]] G; cbn in *; try discriminate; lra.
    - intros [|[|s]] G; try discriminate; (split; [cbn; lra|]); exists 0; (split; [now left|cbn; lra]). }
  split; [vm_compute; reflexivity|]. split; [reflexivity|]. split; [vm_compute; reflexivity|]. split; [reflexivity|]. split; [|vm_compute; discriminate].
  apply (plan_act leave _ 1 0 [0%Q]); [reflexivity|now left| |reflexivity]. constructor; [|constructor]. apply plan_goal; reflexivity.
Qed.

(** *** C65: what a call to [solve] that returns leaves *)

Lemma no_bound : forall St A (p : mdp St A) gamma, bounding p gamma (fun _ _ => False).
Proof. intros St A p gamma x v []. Qed.
Lemma best_action_at : forall St A {ES : PyEq St} (g : igraph St A) s an, i_best (inn g s) = Some an -> ilao_best_action g s = Ok (an_action an) /\ ilao_defined g s = true.
Proof. intros St A ES g s an E. unfold ilao_best_action, ilao_defined. unfold inn in E. destruct (dget g s); [|discriminate]. rewrite E. auto. Qed.
Lemma defined_at : forall St A {ES : PyEq St} (g : igraph St A) s, ilao_defined g s = true <-> i_best (inn g s) <> None.
Proof. intros St A ES g s. unfold ilao_defined, inn. destruct (dget g s) as [n|]; cbn; [destruct (i_best n)|]; split; congruence. Qed.

(** The state asked about has an action, one that is applicable; [get_next_action] answers with one as well. *)
Theorem C65_answers : forall St A {ES : PyEq St} (p : mdp St A) cf g s fuel g', ifair cf -> isession p cf g -> m_goal p s = false ->
  ilao_solve fuel p cf g s = Ok g' ->
  ilao_defined g' s = true /\ exists a, ilao_best_action g' s = Ok a /\ In a (m_apps p s).
Proof.
  intros St A ES p cf g s fuel g' FA SE G E. pose proof (session_inv p cf FA (fun _ _ => False) (fun _ _ F => match F with end) (no_bound _ _ _ _) g SE) as I.
  destruct (solve_ok p cf FA (fun _ _ => False) (fun _ _ F => match F with end) (no_bound _ _ _ _) fuel g s g' I G E) as (I' & M & NB & _).
  destruct (i_best (inn g' s)) as [an|] eqn:BE; [|congruence]. destruct (best_action_at _ _ g' s an BE) as [H1 H2]. split; [auto|]. exists (an_action an).
  split; [auto|]. destruct (best_full _ _ _ _ _ _ I' BE) as (_ & _ & IA). apply in_map_iff in IA. destruct IA as (a & <- & IA). exact IA.
Qed.
Theorem C65_next_action : forall St A {ES : PyEq St} (p : mdp St A) cf g s fuel o g', ifair cf -> isession p cf g -> m_goal p s = false ->
  ilao_next_action fuel p cf g s = Ok (o, g') -> isession p cf g' /\ exists a, o = Some a /\ In a (m_apps p s).
Proof.
  intros St A ES p cf g s fuel o g' FA SE G E. unfold ilao_next_action in E. destruct (ilao_defined g s) eqn:DF.
  - cbn [bind] in E. injection E as <- <-. split; [auto|]. apply defined_at in DF. destruct (i_best (inn g s)) as [an|] eqn:BE; [|congruence].
    destruct (best_action_at _ _ g s an BE) as [-> _]. exists (an_action an). split; [auto|].
    pose proof (session_inv p cf FA (fun _ _ => False) (fun _ _ F => match F with end) (no_bound _ _ _ _) g SE) as I.
    destruct (best_full _ _ _ _ _ _ I BE) as (_ & _ & IA). apply in_map_iff in IA. destruct IA as (a & <- & IA). exact IA.
  - unfold bind in E. destruct (ilao_solve fuel p cf g s) as [g1|] eqn:SO; [|discriminate]. injection E as <- <-.
    destruct (C65_answers St A p cf g s fuel g1 FA SE G SO) as (_ & a & -> & IA). split; [|eauto]. eapply isession_solve; eauto.
Qed.

(** The values at [s] add up, to epsilon: in the graph left by a call that had to search, the value of [s] is the
    expected cost of the answered action followed by the reported values, and no applicable action looks better. *)
Lemma Forall2_len : forall X Y (R : X -> Y -> Prop) l m, Forall2 R l m -> length l = length m.
Proof. intros X Y R l m F. induction F; cbn; auto. Qed.
Lemma expected_near : forall St A (p : mdp St A) gamma e x a os us ws, (0 <= e)%Q -> (0 <= gamma)%Q -> (forall y pr, In (y, pr) os -> 0 <= pr)%Q ->
  length us = length os -> Forall2 (fun u w => Qabs (w - u) <= e)%Q us ws ->
  (Qabs (expected p gamma x a os us - expected p gamma x a os ws) <= gamma * e * fold_right (fun o u => snd o + u) 0 os)%Q.
Proof.
  intros St A p gamma e x a os us ws EP GP WT LN F. revert os LN WT. induction F as [|u w us ws D F IH]; intros os LN WT; destruct os as [|[y pr] os]; try discriminate LN.
  - cbn [expected fold_right]. rewrite Qmult_0_r. discriminate.
  - cbn [expected fold_right fst snd] in *. assert (WO : (0 <= pr)%Q) by (apply (WT y pr); now left).
    specialize (IH os (f_equal pred LN) (fun y pr I => WT y pr (or_intror I))).
    set (E1 := expected p gamma x a os us) in *. set (E2 := expected p gamma x a os ws) in *. set (S0 := fold_right _ _ os) in *.
    assert (X : (pr * (m_cost p x a y + gamma * u) + E1 - (pr * (m_cost p x a y + gamma * w) + E2) == pr * (gamma * (u - w)) + (E1 - E2))%Q) by ring.
    rewrite X. eapply Qle_trans; [apply Qabs_triangle|]. rewrite Qabs_Qmult, Qabs_Qmult, (Qabs_pos pr WO), (Qabs_pos gamma GP).
    assert (Y : (gamma * Qabs (u - w) <= gamma * e)%Q).
    { rewrite (Qmult_comm gamma (Qabs _)), (Qmult_comm gamma e). apply Qmult_le_compat_r; [|auto]. setoid_replace (u - w)%Q with (- (w - u))%Q by ring. now rewrite Qabs_opp. }
    assert (Z : (pr * (gamma * Qabs (u - w)) <= pr * (gamma * e))%Q) by (rewrite (Qmult_comm pr), (Qmult_comm pr); now apply Qmult_le_compat_r).
    assert (T : (gamma * e * (pr + S0) == pr * (gamma * e) + gamma * e * S0)%Q) by ring. rewrite T. lra.
Qed.

Theorem C65_consistent : forall St A {ES : PyEq St} (p : mdp St A) cf g s fuel g', ifair cf -> (0 <= ic_discount cf)%Q -> (0 <= ic_epsilon cf)%Q ->
  weights p -> proper p -> isession p cf g -> m_goal p s = false -> ilao_defined g s = false -> ilao_solve fuel p cf g s = Ok g' ->
  exists v a ws, ilao_best_value g' s = Ok (Some v) /\ ilao_best_action g' s = Ok a /\ In a (m_apps p s) /\
    Forall2 (fun o w => ilao_best_value g' (fst o) = Ok (Some w)) (m_dist p s a) ws /\
    (Qabs (v - expected p (ic_discount cf) s a (m_dist p s a) ws) <= ic_discount cf * ic_epsilon cf)%Q /\
    forall b us, In b (m_apps p s) -> Forall2 (fun o w => ilao_best_value g' (fst o) = Ok (Some w)) (m_dist p s b) us ->
      (v <= expected p (ic_discount cf) s b (m_dist p s b) us + ic_discount cf * ic_epsilon cf)%Q.
Proof.
  intros St A ES p cf g s fuel g' FA GP EP WT PR SE G DF E. set (gamma := ic_discount cf) in *. set (e := ic_epsilon cf) in *.
  pose proof (session_inv p cf FA (fun _ _ => False) (fun _ _ F => match F with end) (no_bound _ _ _ _) g SE) as I.
  destruct (solve_ok p cf FA (fun _ _ => False) (fun _ _ F => match F with end) (no_bound _ _ _ _) fuel g s g' I G E) as (I' & M & NB & CO).
  destruct CO as [CO _]. { destruct (i_best (inn g s)) eqn:BE; [|auto]. destruct (best_action_at _ _ g s _ BE). congruence. }
  specialize (CO EP). destruct CO as (gx & CL & EB & EV). destruct (i_best (inn g' s)) as [an|] eqn:BE; [|congruence].
  destruct (best_full _ _ _ _ _ _ I' BE) as (_ & FU & IN). destruct (ichoose gamma gx (full p s)) as [cv cb] eqn:CH. fold gamma in EB, EV. rewrite CH in EB, EV. cbn [fst snd] in EB, EV. subst cb cv.
  destruct (ichoose_in cf gx (full p s) _ an CH) as (_ & QA & NN). unfold IlaoSolveProofs.vals in *.
  destruct (i_value (inn g' s)) as [v|] eqn:V; [|congruence]. apply in_map_iff in IN. destruct IN as (a & <- & IA).
  destruct (best_action_at _ _ g' s _ BE) as [AT _]. cbn [an_action] in AT.
  assert (VM : forall x, dmem g' x = true -> ilao_best_value g' x = Ok (i_value (inn g' x))).
  { intros x MX. unfold ilao_best_value. rewrite (dmem_some g' x MX). reflexivity. }
  assert (DO : forall b, In b (m_apps p s) -> forall o, In o (m_dist p s b) -> dmem g' (fst o) = true).
  { intros b IB [y pr] J. exact (full_out p (fun _ _ => False) none g' s b y pr I' M FU IB J). }
  destruct (iq_values p cf gx s a v (eq_sym QA)) as [us FU1]. destruct (iq_expected p cf gx s a us FU1) as (v' & EQ' & QV). fold gamma in EQ', QV. unfold gamma in EQ'. rewrite EQ' in QA. injection QA as QA. subst v'.
  assert (WS : exists ws, Forall2 (fun o w => ilao_best_value g' (fst o) = Ok (Some w)) (m_dist p s a) ws /\ Forall2 (fun u w => Qabs (w - u) <= e)%Q us ws).
  { pose proof (DO a IA) as DA. clear - FU1 CL VM DA. induction FU1 as [|o u os us EU F IH]; [exists []; split; constructor|].
    destruct IH as (ws & H1 & H2); [intros; apply DA; now right|]. specialize (CL (fst o)). unfold close in CL. rewrite EU in CL.
    destruct (i_value (inn g' (fst o))) as [w|] eqn:W; [|contradiction]. exists (w :: ws). split; constructor; auto. rewrite VM, W; auto. apply DA. now left. }
  destruct WS as (ws & WS1 & WS2). exists v, a, ws. split; [now rewrite VM, V|]. split; [auto|]. split; [auto|]. split; [auto|].
  split.
  - rewrite QV. eapply Qle_trans; [apply (expected_near St A p gamma e s a (m_dist p s a) us ws EP GP)|].
    + intros y pr J. eapply WT; eauto.
    + symmetry. eapply Forall2_len; eauto.
    + auto.
    + rewrite (PR s a IA). rewrite Qmult_1_r. apply Qle_refl.
  - intros b ws' IB F'.
    assert (US : exists us', Forall2 (fun o u => i_value (inn gx (fst o)) = Some u) (m_dist p s b) us' /\ Forall2 (fun u w => Qabs (w - u) <= e)%Q us' ws').
    { pose proof (DO b IB) as DB. clear - F' CL VM DB. induction F' as [|o w os ws EW F IH]; [exists []; split; constructor|].
      destruct IH as (us' & H1 & H2); [intros; apply DB; now right|]. specialize (CL (fst o)). unfold close in CL. rewrite VM in EW by (apply DB; now left).
      injection EW as EW. rewrite EW in CL. destruct (i_value (inn gx (fst o))) as [u|] eqn:U; [|contradiction]. exists (u :: us'). split; constructor; auto. }
    destruct US as (us' & U1 & U2). destruct (iq_expected p cf gx s b us' U1) as (v' & EV' & QV').
    destruct (ichoose_min cf gx (full p s) (ANode b (outcomes p s b)) v') as (v2 & E2 & L2); [apply in_map_iff; eauto|auto|].
    fold gamma in E2. rewrite CH in E2. cbn [fst] in E2. injection E2 as <-. eapply Qle_trans; [exact L2|]. rewrite QV'. fold gamma.
    pose proof (expected_near St A p gamma e s b (m_dist p s b) us' ws' EP GP (fun y pr J => WT s b y pr IB J) (eq_sym (Forall2_len _ _ _ _ _ U1)) U2) as N.
    rewrite (PR s b IB), Qmult_1_r in N. apply Qabs_Qle_condition in N. lra.
Qed.

(** Unless epsilon is positive no search ever returns. *)
Theorem C65_epsilon : forall St A {ES : PyEq St} (p : mdp St A) cf g s fuel, ifair cf -> weights p -> (ic_epsilon cf <= 0)%Q ->
  isession p cf g -> m_goal p s = false -> ilao_defined g s = false -> exists e, ilao_solve fuel p cf g s = Err e.
Proof.
  intros St A ES p cf g s fuel FA WT EP SE G DF. destruct (ilao_solve fuel p cf g s) as [g'|e] eqn:E; [exfalso|eauto].
  pose proof (session_inv p cf FA (fun _ _ => False) (fun _ _ F => match F with end) (no_bound _ _ _ _) g SE) as I.
  destruct (solve_ok p cf FA (fun _ _ => False) (fun _ _ F => match F with end) (no_bound _ _ _ _) fuel g s g' I G E) as (_ & _ & _ & CO).
  destruct CO as [_ CO]. { destruct (i_best (inn g s)) eqn:BE; [|auto]. destruct (best_action_at _ _ g s _ BE). congruence. }
  apply CO. auto.
Qed.

Lemma loop_proper : proper loop.
Proof. intros [|[|s]] a I; cbn in I |- *; try destruct I; reflexivity. Qed.
Example C65_ex : ifair usual /\ weights loop /\ proper loop /\ isession loop usual [] /\ m_goal loop 0 = false /\ ilao_defined (A := nat) ([] : igraph nat nat) 0 = false /\
  exists g, ilao_solve 30 loop usual [] 0 = Ok g /\ ilao_best_action g 0 = Ok 0.
Proof.
  split; [exact usual_fair|]. split; [exact loop_weights|]. split; [exact loop_proper|]. split; [constructor|]. split; [reflexivity|]. split; [reflexivity|].
  eexists. split; [vm_compute; reflexivity|]. reflexivity.
Qed.

(** The answer need not be the best one, even when no state can be met twice, the heuristic is admissible and
    epsilon has its default value: from 0 the actions 1 to 4 (cost 1) lead to the states of these names,
    then to 5 (at costs 1 to 4) and to the goal 6 (cost 10).  All of 1 to 4 are expanded while 5 still has its
    heuristic value; then as 5 turns out to be expensive they are found out one by one, and the search ends
    when only the values of 0, 3 and 5 have been seen not to change.  It answers 4, with the value 5: in
    fact action 4 costs 15, action 1 costs 12. The state 4 is said to have a solution, with the value 4 instead of 14. *)
Definition branches4 : mdp nat nat := {|
  m_apps := fun s => match s with 0 => [1; 2; 3; 4] | 1 | 2 | 3 | 4 | 5 => [0] | _ => [] end;
  m_dist := fun s a => match s with 0 => [(a, 1%Q)] | 5 => [(6, 1%Q)] | _ => [(5, 1%Q)] end;
  m_cost := fun s _ _ => match s with 0 => 1%Q | 1 => 1%Q | 2 => 2%Q | 3 => 3%Q | 4 => 4%Q | _ => 10%Q end;
  m_goal := fun s => s =? 6;
  m_heur := fun _ => 0%Q |}.
Lemma branches4_acyclic : acyclic branches4.
Proof.
  exists (fun s => match s with 0 => 3 | 1 | 2 | 3 | 4 => 2 | 5 => 1 | _ => 0 end). intros [|[|[|[|[|[|s]]]]]] a y pr G I J; cbn in I, J;
    repeat (destruct I as [<-|I]; [destruct J as [J|[]]; injection J as <- <-; lia|]); destruct I.
Qed.
Lemma branches4_weights : weights branches4.
Proof. intros [|[|[|[|[|[|s]]]]]] a y pr I J; cbn in J; destruct J as [J|[]]; injection J as <- <-; discriminate. Qed.
Lemma branches4_proper : proper branches4.
Proof. intros [|[|[|[|[|[|s]]]]]] a I; reflexivity. Qed.
Theorem C65_optimal_refuted : exists (p : mdp nat nat) cf fuel g v, ifair cf /\ acyclic p /\ weights p /\ proper p /\ admissible p 1 /\
  (ic_discount cf == 1)%Q /\ (ic_epsilon cf == 1 # 1000)%Q /\
  ilao_solve fuel p cf [] 0 = Ok g /\ ilao_best_value g 0 = Ok (Some v) /\ (v == 5)%Q /\
  plan_cost p 1 0 12 /\ policy_cost p 1 (ianswers g) 0 15 /\
  ilao_defined g 4 = true /\ (exists u, ilao_best_value g 4 = Ok (Some u) /\ (u == 4)%Q) /\ policy_cost p 1 (ianswers g) 4 14.
Proof.
  exists branches4, usual, 60. eexists. eexists. split; [exact usual_fair|]. split; [exact branches4_acyclic|]. split; [exact branches4_weights|].
  split; [exact branches4_proper|]. split.
  { apply zero_admissible; [exact branches4_acyclic|exact branches4_weights| |intros; reflexivity]. intros [|[|[|[|[|[|s]]]]]] a y; cbn; lra. }
  split; [reflexivity|]. split; [reflexivity|]. split; [vm_compute; reflexivity|]. split; [reflexivity|]. split; [reflexivity|].
  assert (PG : forall pol v, (v == 0)%Q -> policy_cost branches4 1 pol 6 v) by (intros; now apply policy_goal).
  split; [|split; [|split; [reflexivity|split; [eexists; split; [reflexivity|reflexivity]|]]]].
  - apply (plan_act branches4 1 0 1 [11%Q]); [reflexivity|now left| |reflexivity]. constructor; [|constructor]. cbn [fst].
    apply (plan_act branches4 1 1 0 [10%Q]); [reflexivity|now left| |reflexivity]. constructor; [|constructor]. cbn [fst].
    apply (plan_act branches4 1 5 0 [0%Q]); [reflexivity|now left| |reflexivity]. constructor; [|constructor]. apply plan_goal; reflexivity.
  - apply (policy_act branches4 1 _ 0 4 [14%Q]); [reflexivity|reflexivity|cbn; tauto| |reflexivity]. constructor; [|constructor]. cbn [fst].
    apply (policy_act branches4 1 _ 4 0 [10%Q]); [reflexivity|reflexivity|now left| |reflexivity]. constructor; [|constructor]. cbn [fst].
    apply (policy_act branches4 1 _ 5 0 [0%Q]); [reflexivity|reflexivity|now left| |reflexivity]. constructor; [|constructor]. now apply PG.
  - apply (policy_act branches4 1 _ 4 0 [10%Q]); [reflexivity|reflexivity|now left| |reflexivity]. constructor; [|constructor]. cbn [fst].
    apply (policy_act branches4 1 _ 5 0 [0%Q]); [reflexivity|reflexivity|now left| |reflexivity]. constructor; [|constructor]. now apply PG.
Qed.

(** From a state without actions the search goes on for ever; from one all of whose actions lead there it
    dereferences a null pointer. *)
Definition stuck : mdp nat nat := {|
  m_apps := fun s => match s with 1 => [0] | _ => [] end;
  m_dist := fun _ _ => [(0, 1%Q)];
  m_cost := fun _ _ _ => 1%Q;
  m_goal := fun s => s =? 2;
  m_heur := fun _ => 0%Q |}.
Theorem C65_dead_end_refuted : exists (p : mdp nat nat) cf s1 s2, ifair cf /\ m_goal p s1 = false /\ m_goal p s2 = false /\
  (forall fuel, ilao_solve fuel p cf [] s1 = Err OutOfFuel) /\ (forall fuel, 10 <= fuel -> ilao_solve fuel p cf [] s2 = Err AttributeError).
Proof.
  exists stuck, usual, 0, 1. split; [exact usual_fair|]. split; [reflexivity|]. split; [reflexivity|]. split.
  - intros [|fuel]; [reflexivity|]. unfold ilao_solve. cbn [dmem dget]. 
    assert (D : forall v r, dfs (S fuel) stuck 1 [(0, INode [] None v 0%Q r false true false)] 0 = Ok [(0, INode [] None None 0%Q (gap_of None v) false true false)]).
    { intros v r. unfold dfs. cbn. destruct fuel; reflexivity. }
    assert (L : forall n v r, dfs_all n (S fuel) stuck 1 [(0, INode [] None v 0%Q r false true false)] 0 = Err OutOfFuel).
    { induction n as [|n IH]; intros v r; [reflexivity|]. cbn [dfs_all]. change (i_tip (inn [(0, INode [] None v 0%Q r false true false)] 0)) with true. cbn iota.
      rewrite D. cbn [bind]. apply IH. }
    change (dset [] 0 (INode [] None (Some (m_heur stuck 0)) 0%Q Inf false true false)) with [(0, INode ([] : list (anode nat nat)) None (Some 0%Q) 0%Q Inf false true false)].
    cbn [i_solved inn dget m_goal stuck]. change (pyeqb 0 0) with true. cbn iota. cbn [i_solved orb Nat.eqb ilao_loop]. unfold ilao_turn.
    cbn [ic_discount usual]. change (dget [(0, INode ([] : list (anode nat nat)) None (Some 0%Q) 0%Q Inf false true false)] 0) with (Some (INode ([] : list (anode nat nat)) None (Some 0%Q) 0%Q Inf false true false)).
    unfold inn. change (dget [(0, INode ([] : list (anode nat nat)) None (Some 0%Q) 0%Q Inf false true false)] 0) with (Some (INode ([] : list (anode nat nat)) None (Some 0%Q) 0%Q Inf false true false)).
    cbn [i_solved]. rewrite L. reflexivity.
  - intros fuel L. do 10 (destruct fuel as [|fuel]; [lia|]). vm_compute. reflexivity.
Qed.

Print Assumptions C64_below.
Print Assumptions C64_below_plans.
Print Assumptions C64_goal_start_refuted.
Print Assumptions C65_answers.
Print Assumptions C65_next_action.
Print Assumptions C65_consistent.
Print Assumptions C65_epsilon.
Print Assumptions C65_optimal_refuted.
Print Assumptions C65_dead_end_refuted.
