(** Properties C61 to C63: the LRTDP solver. *)
From Coq Require Import List Bool Arith QArith Qabs Lia Lqa.
From Verif Require Import Py PyList PyMore AoModel AoSpec AoProofs AoSolveProofs AoProps LrtdpModel LrtdpSpec LrtdpProofs LrtdpLabelProofs LrtdpSolveProofs LrtdpConvProofs.
Import ListNotations.
Open Scope nat_scope.

(** A call that ends without using up its time or its rollouts (no rollout at all: the state was solved
    by an earlier call). *)
Definition converged {St} (cf : lconfig) (w : world St) (r : option nat) : Prop :=
  match r with None => True | Some n => timely w /\ n < lc_rollouts cf end.

(** *** C61: what the solver answers *)

(** When a call converges, the values around its start hardly change when the answers are followed. *)
Theorem C61_converged : forall St A {ES : PyEq St} (p : mdp St A) cf w g s g' r, lc_labels cf = true -> lsession p cf g ->
  m_goal p s = false -> room p s (lc_depth cf) -> onward w -> lrtdp_solve p cf w g s = Ok (g', r) -> converged cf w r ->
  near p (lc_discount cf) (lc_epsilon cf) (lanswers g') (lrtdp_best_value g') s.
Proof.
  intros St A ES p cf w g s g' r LB SE G RM OW E CV. pose proof (session_good p cf g LB SE) as GD.
  destruct (LrtdpSolveProofs.solve_any p cf w g s g' r LB GD G RM OW E) as [(GD' & _) K]. destruct (K CV) as [S M]. now apply solved_near.
Qed.

(** Without cycles, following them leads to a goal whatever the outcomes, at an expected cost that is the
    value reported up to [epsilon] per step. *)
Theorem C61_policy : forall St A {ES : PyEq St} (p : mdp St A) cf w g s g' r (rank : St -> nat), lc_labels cf = true -> lsession p cf g ->
  m_goal p s = false -> room p s (lc_depth cf) -> onward w -> lrtdp_solve p cf w g s = Ok (g', r) -> converged cf w r ->
  (0 <= lc_epsilon cf)%Q -> (0 <= lc_discount cf <= 1)%Q -> weights p -> proper p ->
  (forall s a y pr, m_goal p s = false -> In a (m_apps p s) -> In (y, pr) (m_dist p s a) -> rank y < rank s) ->
  exists u v, lrtdp_best_value g' s = Ok u /\ policy_cost p (lc_discount cf) (lanswers g') s v /\
              (Qabs (u - v) <= lc_epsilon cf * inject_Z (Z.of_nat (S (rank s))))%Q.
Proof.
  intros. eapply near_policy; eauto. eapply C61_converged; eauto.
Qed.

(** With an admissible heuristic, no plan is cheaper by more than that. *)
Theorem C61_optimal : forall St A {ES : PyEq St} (p : mdp St A) cf w g s g' r (rank : St -> nat), lc_labels cf = true -> lsession p cf g ->
  m_goal p s = false -> room p s (lc_depth cf) -> onward w -> lrtdp_solve p cf w g s = Ok (g', r) -> converged cf w r ->
  (0 <= lc_epsilon cf)%Q -> (0 <= lc_discount cf <= 1)%Q -> weights p -> proper p ->
  (forall s a y pr, m_goal p s = false -> In a (m_apps p s) -> In (y, pr) (m_dist p s a) -> rank y < rank s) ->
  admissible p (lc_discount cf) ->
  exists v, policy_cost p (lc_discount cf) (lanswers g') s v /\
  forall v', plan_cost p (lc_discount cf) s v' -> (v <= v' + lc_epsilon cf * inject_Z (Z.of_nat (S (rank s))))%Q.
Proof.
  intros St A ES p cf w g s g' r rank LB SE G RM OW E CV EP GP WT PR RK AD.
  destruct (C61_policy St A p cf w g s g' r rank LB SE G RM OW E CV EP GP WT PR RK) as (u & v & U & PC & D). exists v. split; auto. intros v' PL.
  assert (SE' : lsession p cf g') by (eapply lsession_solve; eauto).
  assert (LE : (lv p g' s <= v')%Q).
  { apply (session_below p cf (plan_cost p (lc_discount cf)) g' LB (proj1 GP) WT); auto. intros x z PX. destruct (m_goal p x) eqn:GX.
    - inversion PX as [x0 v0 G0 Q0|]; subst; [rewrite Q0; apply Qle_refl|congruence].
    - split; [now apply AD|]. inversion PX as [x0 v0 G0 Q0|x0 a ws v0 G0 IA F Q0]; subst; [congruence|]. exists a, ws. split; auto. split; auto. rewrite Q0. apply Qle_refl. }
  destruct (value_lv p g' s u U) as [_ EU]. rewrite EU in LE. apply Qabs_Qle_condition in D. lra.
Qed.

(** [get_policy] lists the states with an answer, with the answer and the value. *)
Theorem C61_policy_map : forall St A {ES : PyEq St} (p : mdp St A) cf g s a v, lc_labels cf = true -> lsession p cf g ->
  In (s, (a, v)) (lrtdp_policy g) <-> lrtdp_best_action g s = Ok a /\ lrtdp_best_value g s = Ok v.
Proof.
  intros St A ES p cf g s a v LB SE. pose proof (wf_nodup p g (proj1 (session_good p cf g LB SE))) as ND.
  unfold lrtdp_policy, lrtdp_best_action, lrtdp_best_value. rewrite in_flat_map. split.
  - intros ([k n] & I & J). cbn [fst snd] in J. destruct (l_best n) as [an|] eqn:B; [|destruct J]. destruct J as [J|[]]. injection J as -> <- <-.
    rewrite (In_dget _ _ _ ND I), B. auto.
  - destruct (dget g s) as [n|] eqn:E; [|intros [? ?]; discriminate]. destruct (l_best n) as [an|] eqn:B; [|intros [? ?]; discriminate].
    intros [H1 H2]. injection H1 as <-. injection H2 as <-. exists (s, n). split; [now apply dget_In|]. cbn [fst snd]. rewrite B. now left.
Qed.

Definition steady : lconfig := {| lc_labels := true; lc_rollouts := 50; lc_depth := 20; lc_discount := 1; lc_epsilon := 0 |}.
Definition calm : world nat := {| late := fun _ => false; draw := fun n l => n mod length l |}.
Lemma calm_onward : onward calm.
Proof. intros n H. discriminate. Qed.
Lemma calm_drawn : drawn calm.
Proof. intros n l H. cbn. apply Nat.mod_upper_bound. destruct l; [contradiction|discriminate]. Qed.
Lemma fork_reach : forall y, reach fork 0 y -> y <= 3.
Proof.
  intros y R. induction R as [|x a y pr R IH G I J]; [lia|]. destruct x as [|[|[|x]]]; cbn in I, J.
  - destruct I as [<-|[<-|[]]]; cbn in J; repeat (destruct J as [J|J]; [injection J as <- <-; lia|]); destruct J.
  - destruct J as [J|[]]. injection J as <- <-. lia.
  - destruct J as [J|[]]. injection J as <- <-. lia.
  - destruct I.
Qed.
Lemma fork_room : room fork 0 20.
Proof.
  exists [0; 1; 2; 3]. split; [|cbn; lia]. intros x R. apply fork_reach in R. cbn. lia.
Qed.
Example C61_ex : proper fork /\ weights fork /\ admissible fork 1 /\ room fork 0 (lc_depth steady) /\ exists g n u,
  lrtdp_solve fork steady calm [] 0 = Ok (g, Some n) /\ n < 50 /\ lanswers g 0 = Some 0 /\ lrtdp_best_value g 0 = Ok u /\ (u == 4)%Q /\
  map fst (lrtdp_policy g) = [0; 1; 2].
Proof.
  split; [|split; [apply fork_weights|split; [|split; [apply fork_room|]]]].
  - intros [|[|[|s]]] a I; cbn in I; try (destruct I as [<-|[<-|[]]]; reflexivity); try (destruct I as [<-|[]]; reflexivity). destruct I.
  - apply (zero_admissible fork fork_acyclic fork_weights); [|reflexivity]. intros [|[|[|s]]] [|a] y; discriminate.
  - do 3 eexists. split; [vm_compute; reflexivity|]. split; [lia|]. repeat split.
Qed.

(** If the depth does not leave room, a state can be taken as solved although states its answers lead to have not
    been looked at. *)
Definition chain : mdp nat nat := {|
  m_apps := fun s => match s with 0 | 1 => [0] | _ => [] end;
  m_dist := fun s _ => [(S s, 1%Q)];
  m_cost := fun _ _ _ => 1%Q;
  m_goal := fun s => s =? 2;
  m_heur := fun _ => 0%Q |}.
Theorem C61_depth_refuted : acyclic chain /\ exists g' u,
  let cf := {| lc_labels := true; lc_rollouts := 50; lc_depth := 1; lc_discount := 1; lc_epsilon := 0 |} in
  lrtdp_solve chain cf calm [] 0 = Ok (g', Some 1) /\ lrtdp_best_value g' 0 = Ok u /\ (u == 1)%Q /\ lanswers g' 1 = None /\
  forall v, plan_cost chain 1 0 v -> (v == 2)%Q.
Proof.
  split.
  - exists (fun s => 2 - s). intros s a y pr G I J. cbn in G, I, J. apply Nat.eqb_neq in G. destruct J as [J|[]]. injection J as <- <-.
    destruct s as [|[|s]]; [lia|lia|destruct I].
  - do 2 eexists. split; [vm_compute; reflexivity|]. split; [reflexivity|]. split; [reflexivity|]. split; [reflexivity|].
    assert (V2 : forall v, plan_cost chain 1 2 v -> (v == 0)%Q) by (intros v H; inversion H; subst; auto; discriminate).
    assert (V1 : forall v, plan_cost chain 1 1 v -> (v == 1)%Q).
    { intros v H. inversion H as [|s a ws v0 G I F E]; subst; [discriminate|]. cbn in I. destruct I as [<-|[]]. cbn in F. inversion F as [|o w l ws' HW FN]; subst.
      inversion FN; subst. apply V2 in HW. rewrite E. cbn [expected m_dist m_cost chain]. rewrite HW. reflexivity. }
    intros v H. inversion H as [|s a ws v0 G I F E]; subst; [discriminate|]. cbn in I. destruct I as [<-|[]]. cbn in F. inversion F as [|o w l ws' HW FN]; subst.
    inversion FN; subst. apply V1 in HW. rewrite E. cbn [expected m_dist m_cost chain]. rewrite HW. reflexivity.
Qed.

(** Without labels the value of a goal is updated too: here the reported value grows with the number of rollouts. *)
Definition sink : mdp nat nat := {|
  m_apps := fun _ => [0];
  m_dist := fun _ _ => [(1, 1%Q)];
  m_cost := fun _ _ _ => 1%Q;
  m_goal := fun s => s =? 1;
  m_heur := fun _ => 0%Q |}.
Theorem C61_no_labels_refuted : plan_cost sink 1 0 1 /\ exists g' u,
  let cf := {| lc_labels := false; lc_rollouts := 7; lc_depth := 20; lc_discount := 1; lc_epsilon := 0 |} in
  lrtdp_solve sink cf calm [] 0 = Ok (g', Some 7) /\ lrtdp_best_value g' 0 = Ok u /\ (u == 7)%Q.
Proof.
  split.
  - apply (plan_act sink 1 0 0 [0%Q]); [reflexivity|now left| |reflexivity]. constructor; [|constructor]. apply plan_goal; reflexivity.
  - do 2 eexists. split; [vm_compute; reflexivity|]. split; reflexivity.
Qed.

(** On a cyclic domain the answers may go round in circles when that costs nothing. *)
Definition idle : mdp nat nat := {|
  m_apps := fun s => match s with 0 => [0; 1] | _ => [] end;
  m_dist := fun _ a => match a with 0 => [(0, 1%Q)] | _ => [(1, 1%Q)] end;
  m_cost := fun _ a _ => match a with 0 => 0%Q | _ => 1%Q end;
  m_goal := fun s => s =? 1;
  m_heur := fun _ => 0%Q |}.
Theorem C61_cycles_refuted : plan_cost idle 1 0 1 /\ exists g', lrtdp_solve idle steady calm [] 0 = Ok (g', Some 1) /\ lanswers g' 0 = Some 0 /\
  forall v, ~ policy_cost idle 1 (lanswers g') 0 v.
Proof.
  split.
  - apply (plan_act idle 1 0 1 [0%Q]); [reflexivity|right; now left| |reflexivity]. constructor; [|constructor]. apply plan_goal; reflexivity.
  - eexists. split; [vm_compute; reflexivity|]. split; [reflexivity|]. match goal with |- forall v, ~ policy_cost _ _ (lanswers ?x) _ _ => set (g' := x) end.
    assert (K : forall s v, policy_cost idle 1 (lanswers g') s v -> s <> 0).
    { fix IH 3. intros s v H. destruct H as [s v G Q|s a ws v G AN IA F E]; [intros ->; discriminate|].
      intros ->. assert (a = 0) by (vm_compute in AN; congruence). subst a.
      remember (m_dist idle 0 0) as os eqn:EO. destruct F as [|o w l ws' HW F]; [discriminate|]. injection EO as EO _.
      apply (IH _ _ HW). now rewrite EO. }
    intros v H. now apply (K 0 v H).
Qed.

(** *** C62: whether it answers *)

(** Without dead ends [solve] returns, on cyclic domains too. *)
Theorem C62_returns : forall St A {ES : PyEq St} (p : mdp St A) cf w g s, lc_labels cf = true -> lsession p cf g ->
  m_goal p s = false -> room p s (lc_depth cf) -> onward w -> drawn w -> no_dead_end p s ->
  (forall x a, reach p s x -> m_goal p x = false -> In a (m_apps p x) -> m_dist p x a <> []) ->
  exists g' r, lrtdp_solve p cf w g s = Ok (g', r).
Proof.
  intros St A ES p cf w g s LB SE G RM OW DR ND NE. pose proof (session_good p cf g LB SE) as GD.
  destruct (LrtdpSolveProofs.solve_total p cf w g s LB GD G RM OW DR ND NE) as ([g' r] & E). eauto.
Qed.

(** Without cycles, a number of rollouts that depends on the domain and the start only is enough to
    converge, whatever is drawn. *)
Theorem C62_converges : forall St A {ES : PyEq St} (p : mdp St A) s, acyclic p ->
  exists N, forall cf w g g' r, lc_labels cf = true -> (0 <= lc_epsilon cf)%Q -> N < lc_rollouts cf -> lsession p cf g ->
  m_goal p s = false -> room p s (lc_depth cf) -> timely w -> lrtdp_solve p cf w g s = Ok (g', r) ->
  converged cf w r /\ forall n, r = Some n -> n <= N.
Proof.
  intros St A ES p s AC. destruct (stops p s AC) as (N & H). exists N. intros cf w g g' r LB EP RB SE G RM T E.
  assert (OW : onward w) by (intros n L; rewrite T in L; discriminate).
  specialize (H cf w g g' r LB EP RB (session_good p cf g LB SE) G RM OW T E). split.
  - unfold converged. destruct r as [n|]; auto. split; auto. lia.
  - intros n ->. exact H.
Qed.

(** An action answered in a state that is not a goal is applicable. *)
Theorem C62_next_action : forall St A {ES : PyEq St} (p : mdp St A) continuous cf w g s a g', lc_labels cf = true -> lsession p cf g ->
  m_goal p s = false -> room p s (lc_depth cf) -> onward w -> lrtdp_next_action continuous p cf w g s = Ok (Some a, g') -> In a (m_apps p s).
Proof.
  intros St A ES p continuous cf w g s a g' LB SE G RM OW E. unfold lrtdp_next_action in E.
  assert (GD : exists g1, good p cf g1 /\ match lrtdp_best_action g1 s with Ok a => Some a | Err _ => None end = Some a).
  { pose proof (session_good p cf g LB SE) as GD. destruct (continuous || negb (lrtdp_defined g s)).
    - destruct (lrtdp_solve p cf w g s) as [[g1 r]|] eqn:ES1; [|discriminate]. cbn [bind fst] in E. exists g1. split; [|congruence].
      now apply (LrtdpSolveProofs.solve_any p cf w g s g1 r LB GD G RM OW ES1).
    - cbn [bind] in E. exists g. split; auto. congruence. }
  destruct GD as (g1 & (W & _) & B). unfold lrtdp_best_action in B. destruct (dget g1 s) as [n|] eqn:D; [|discriminate].
  destruct (l_best n) as [an|] eqn:LBE; [|discriminate]. injection B as <-.
  assert (M : dmem g1 s = true) by (unfold dmem; now rewrite D). assert (LN : ln g1 s = n) by (unfold ln; now rewrite D).
  destruct (wf_best p g1 W s an M) as [_ I]; [now rewrite LN|]. now apply (acts_in p s an I).
Qed.

Example C62_ex : acyclic fork /\ no_dead_end fork 0 /\ drawn calm /\ onward calm /\ timely calm /\
  exists g, lrtdp_next_action true fork steady calm [] 0 = Ok (Some 0, g).
Proof.
  split; [apply fork_acyclic|]. split; [|split; [apply calm_drawn|split; [apply calm_onward|split; [intros n; reflexivity|]]]].
  - intros y R G. apply fork_reach in R. destruct y as [|[|[|[|y]]]]; cbn; try discriminate. lia.
  - eexists. vm_compute. reflexivity.
Qed.

(** A dead end makes [solve] follow a null pointer, although a plan avoids it. *)
Theorem C62_dead_end_refuted : plan_cost trap 1 0 3 /\ acyclic trap /\ lrtdp_solve trap steady calm [] 0 = Err AttributeError.
Proof. split; [apply C60_dead_end_refuted|]. split; [apply C60_dead_end_refuted|]. vm_compute. reflexivity. Qed.

(** So does a goal without actions when labels are off, or when an earlier call started from that goal. *)
Theorem C62_no_labels_refuted : no_dead_end fork 0 /\
  lrtdp_solve fork {| lc_labels := false; lc_rollouts := 50; lc_depth := 20; lc_discount := 1; lc_epsilon := 0 |} calm [] 0 = Err AttributeError.
Proof. split; [apply C62_ex|]. vm_compute. reflexivity. Qed.
Theorem C62_goal_start_refuted : no_dead_end fork 0 /\ m_goal fork 3 = true /\ exists g, lrtdp_solve fork steady calm [] 3 = Ok (g, None) /\
  lrtdp_solve fork steady calm g 0 = Err AttributeError.
Proof. split; [apply C62_ex|]. split; [reflexivity|]. eexists. split; [vm_compute; reflexivity|]. vm_compute. reflexivity. Qed.

(** *** C63: the values reported on the way *)

(** At any time, and on cyclic domains too, no value exceeds an upper bound that the heuristic respects. *)
Theorem C63_below : forall St A {ES : PyEq St} (p : mdp St A) cf g V s v, lc_labels cf = true -> (0 <= lc_discount cf)%Q -> weights p ->
  lsession p cf g -> above p (lc_discount cf) V -> lrtdp_best_value g s = Ok v -> (v <= V s)%Q.
Proof.
  intros St A ES p cf g V s v LB GP WT SE (AG & AN) E. destruct (value_lv p g s v E) as [_ <-].
  apply (session_below p cf (fun x u => u = V x) g LB GP WT); auto. intros x u ->. destruct (m_goal p x) eqn:G; auto.
  destruct (AN x G) as (H & a & I & LE). split; auto. exists a, (map (fun o => V (fst o)) (m_dist p x a)). split; auto. split; auto.
  clear. induction (m_dist p x a) as [|o l IH]; cbn [map]; constructor; auto.
Qed.

(** In particular none exceeds the cost of a plan, if the heuristic does not. *)
Theorem C63_below_plans : forall St A {ES : PyEq St} (p : mdp St A) cf g s v w, lc_labels cf = true -> (0 <= lc_discount cf)%Q -> weights p ->
  lsession p cf g -> admissible p (lc_discount cf) -> lrtdp_best_value g s = Ok v -> plan_cost p (lc_discount cf) s w -> (v <= w)%Q.
Proof.
  intros St A ES p cf g s v w LB GP WT SE AD E PC. destruct (value_lv p g s v E) as [_ <-].
  apply (session_below p cf (plan_cost p (lc_discount cf)) g LB GP WT); auto. intros x z PX. destruct (m_goal p x) eqn:GX.
  - inversion PX as [x0 v0 G0 Q0|]; subst; [rewrite Q0; apply Qle_refl|congruence].
  - split; [now apply AD|]. inversion PX as [x0 v0 G0 Q0|x0 a ws v0 G0 IA F Q0]; subst; [congruence|]. exists a, ws. split; auto. split; auto. rewrite Q0. apply Qle_refl.
Qed.

(** A cyclic domain: from 0 to 1, from there back to 0 or to a goal; the expected costs are 4, 3 and 0. *)
Definition again : mdp nat nat := {|
  m_apps := fun s => match s with 0 | 1 => [0] | _ => [] end;
  m_dist := fun s a => match s with 0 => [(1, 1%Q)] | _ => [(0, 1 # 2); (2, 1 # 2)] end;
  m_cost := fun s a _ => 1%Q;
  m_goal := fun s => 2 <=? s;
  m_heur := fun _ => 0%Q |}.
Definition again_cost (s : nat) : Q := match s with 0 => 4%Q | 1 => 3%Q | _ => 0%Q end.
Lemma again_reach : forall y, reach again 0 y -> y <= 2.
Proof.
  intros y R. induction R as [|x a y pr R IH G I J]; [lia|]. destruct x as [|[|x]]; cbn in I, J; [| |destruct I];
    repeat (destruct J as [J|J]; [injection J as <- <-; lia|]); destruct J.
Qed.
Definition brief : world nat := {| late := fun n => 20 <? n; draw := fun n l => 0 |}.
Example C63_ex : weights again /\ above again 1 again_cost /\ room again 0 (lc_depth steady) /\ onward brief /\
  exists g n v, lrtdp_solve again steady brief [] 0 = Ok (g, Some n) /\ lrtdp_best_value g 0 = Ok v /\ (3 < v < 4)%Q.
Proof.
  split; [|split; [|split; [|split]]].
  - intros [|[|s]] a y pr I J; cbn in I, J; try destruct I; cbn in J; repeat (destruct J as [J|J]; [injection J as <- <-; discriminate|]); destruct J.
  - split.
    + intros [|[|s]] G; cbn; lra.
    + intros [|[|s]] G; cbn in G; try discriminate; (split; [cbn; lra|]); exists 0; split; try (now left); cbn; lra.
  - exists [0; 1; 2]. split; [|cbn; lia]. intros x R. apply again_reach in R. cbn. lia.
  - intros n L. cbn [late brief] in *. apply Nat.ltb_lt in L. apply Nat.ltb_lt. lia.
  - do 3 eexists. split; [vm_compute; reflexivity|]. split; [reflexivity|]. split; reflexivity.
Qed.

Print Assumptions C61_converged.
Print Assumptions C61_policy.
Print Assumptions C61_optimal.
Print Assumptions C61_policy_map.
Print Assumptions C61_depth_refuted.
Print Assumptions C61_no_labels_refuted.
Print Assumptions C61_cycles_refuted.
Print Assumptions C62_returns.
Print Assumptions C62_converges.
Print Assumptions C62_next_action.
Print Assumptions C62_dead_end_refuted.
Print Assumptions C62_no_labels_refuted.
Print Assumptions C62_goal_start_refuted.
Print Assumptions C63_below.
Print Assumptions C63_below_plans.
