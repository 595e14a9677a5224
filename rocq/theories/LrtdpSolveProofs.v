(** Proofs about the LRTDP solver: calls to [solve], bounds, costs, convergence. *)
From Coq Require Import List Bool Arith QArith Qabs Lia Lqa.
From Verif Require Import Py PyList PyMore AoModel AoSpec AoProofs AoSolveProofs LrtdpModel LrtdpSpec LrtdpProofs LrtdpLabelProofs.
Import ListNotations.
Open Scope nat_scope.

Section Solve.
Context {St A : Type} {ES : PyEq St}.
Variable p : mdp St A.
Variable cf : lconfig.
Notation gamma := (lc_discount cf).
Notation eps := (lc_epsilon cf).
Notation lgraph := (lgraph St A).
Notation lstate := (lstate St A).
Notation lv := (lv p).
Notation lsol := (lsol p).
Notation bell := (bell p cf).
Notation qv := (@qv St A cf).
Notation acts := (acts p).
Notation good := (good p cf).

Lemma good_nil : good [].
Proof.
  split.
  - constructor; try discriminate. constructor.
  - intros x S G. unfold LrtdpProofs.lsol in S. cbn in S. congruence.
Qed.

Definition rooted (g : lgraph) (s : St) : lgraph := if dmem g s then g else dset g s (LNode [] None (m_heur p s) false false).
Lemma rooted_good : forall g s, good g -> m_goal p s = false ->
  good (rooted g s) /\ dmem (rooted g s) s = true /\ (forall x, dmem g x = true -> dmem (rooted g s) x = true) /\
  (forall x, lv (rooted g s) x = lv g x) /\ (forall x, lsol (rooted g s) x = lsol g x).
Proof.
  intros g s [W L] G. unfold rooted. destruct (dmem g s) eqn:M; [split; [split; auto|]; auto|].
  set (g1 := dset g s _).
  assert (NS : dget g s = None) by (unfold dmem in M; destruct (dget g s); auto; discriminate).
  assert (DM : forall x, dmem g1 x = pyeqb s x || dmem g x) by (intros; apply lmem_dset).
  assert (V : forall x, lv g1 x = lv g x).
  { intros x. unfold g1. rewrite lv_dset. destruct (pyeqb_spec s x) as [EQ|]; auto. subst x. cbn. unfold LrtdpProofs.lv. now rewrite NS, G. }
  assert (S : forall x, lsol g1 x = lsol g x).
  { intros x. unfold g1. rewrite lsol_dset. destruct (pyeqb_spec s x) as [EQ|]; auto. subst x. cbn. unfold LrtdpProofs.lsol. now rewrite NS, G. }
  assert (B : forall x, lb g1 x = lb g x).
  { intros x. unfold g1. rewrite lb_dset. destruct (pyeqb_spec s x) as [EQ|]; auto. subst x. cbn. unfold lb. now rewrite NS. }
  assert (MM : forall x, dmem g x = true -> dmem g1 x = true) by (intros x D; rewrite DM, D; apply orb_true_r).
  split; [|split; [rewrite DM, pyeqb_refl; auto|auto]]. split.
  - constructor.
    + intros x D. unfold g1. rewrite ln_dset. rewrite DM in D. destruct (pyeqb_spec s x) as [EQ|]; [now left|]. now apply (wf_acts p g W).
    + intros x an o D I J. unfold g1 in I. rewrite ln_dset in I. rewrite DM in D. destruct (pyeqb_spec s x) as [EQ|]; [destruct I|]. apply MM. now apply (wf_out p g W x an o).
    + intros x D GX. unfold g1. rewrite ln_dset. rewrite DM in D. destruct (pyeqb_spec s x) as [EQ|]; [congruence|]. now apply (wf_goal p g W).
    + intros x an D I. unfold g1 in I. rewrite ln_dset in I. rewrite DM in D. destruct (pyeqb_spec s x) as [EQ|]; [discriminate|]. now apply (wf_best p g W).
    + apply dset_nodup, W.
  - intros x SX GX. rewrite S in SX. destruct (L x SX GX) as (D & an & H1 & H2 & H3 & H4). split; auto. exists an. rewrite B, V.
    rewrite (qv_ext cf (lv g1) (lv g)) by auto. repeat split; auto.
    + rewrite S. now apply H4.
    + apply MM. now apply H4.
Qed.

Lemma reach_closed : forall s x a y pr, reach p s x -> m_goal p x = false -> In a (m_apps p x) -> In (y, pr) (m_dist p x a) -> reach p s y.
Proof. intros. eapply reach_step; eauto. Qed.

Lemma solve_any : forall w g s g' r, lc_labels cf = true -> good g -> m_goal p s = false -> room p s (lc_depth cf) -> onward w ->
  lrtdp_solve p cf w g s = Ok (g', r) ->
  evolves p cf (reach p s) (rooted g s) g' /\
  (match r with None => True | Some n => timely w /\ n < lc_rollouts cf end -> lsol g' s = true /\ dmem g' s = true).
Proof.
  intros w g s g' r LB GD G (U & PU & RM) OW E. destruct (rooted_good g s GD G) as (GD1 & M1 & _). unfold lrtdp_solve in E. fold (rooted g s) in E.
  rewrite G, orb_false_r, <- (lsol_ln p _ s M1) in E. destruct (lsol (rooted g s) s) eqn:SO.
  - injection E as <- <-. split; [now apply evolves_refl|]. auto.
  - destruct (ltrials (lc_rollouts cf) p cf w s (LState (rooted g s) 0 0)) as [q|] eqn:TR; [|discriminate]. cbn [bind] in E. injection E as <- <-.
    destruct (trials_any p cf (reach p s) (reach_closed s) U PU RM LB w s (lc_rollouts cf) (LState (rooted g s) 0 0) q OW GD1 M1 (reach_refl p s) TR) as [T1 T2].
    cbn [ls_graph] in *. split; auto. intros [TI LT]. split; [apply T2; auto; lia|]. now apply T1.
Qed.

Lemma solve_total : forall w g s, lc_labels cf = true -> good g -> m_goal p s = false -> room p s (lc_depth cf) -> onward w -> drawn w ->
  no_dead_end p s -> (forall x a, reach p s x -> m_goal p x = false -> In a (m_apps p x) -> m_dist p x a <> []) ->
  exists r, lrtdp_solve p cf w g s = Ok r.
Proof.
  intros w g s LB GD G (U & PU & RM) OW DR ND NE. destruct (rooted_good g s GD G) as (GD1 & M1 & _). unfold lrtdp_solve. fold (rooted g s).
  destruct (_ || _); eauto.
  destruct (trials_total p cf (reach p s) (reach_closed s) U PU RM LB (fun x R G => ND x R G) NE w s OW DR (lc_rollouts cf) (LState (rooted g s) 0 0) GD1 M1 (reach_refl p s)) as (r & ->).
  cbn [bind]. eauto.
Qed.

Lemma session_good : forall g, lc_labels cf = true -> lsession p cf g -> good g.
Proof.
  intros g LB H. induction H as [|g w s g' r H IH G RM OW E]; [apply good_nil|]. now apply (solve_any w g s g' r LB IH G RM OW E).
Qed.

(** *** Values *)
Lemma qv_expected : forall V x an, In an (acts x) ->
  (qv V an == expected p gamma x (an_action an) (m_dist p x (an_action an)) (map (fun o => V (fst o)) (m_dist p x (an_action an))))%Q.
Proof.
  intros V x an I. destruct (acts_in p x an I) as [_ OE]. unfold LrtdpProofs.qv. rewrite OE. unfold outcomes. set (a := an_action an). set (l := m_dist p x a). clearbody l.
  assert (K : forall u, (fold_left (fun u o => u + fst (fst o) * (snd (fst o) + gamma * V (snd o)))
     (map (fun o => (snd o, m_cost p x a (fst o), fst o)) l) u == u + expected p gamma x a l (map (fun o => V (fst o)) l))%Q).
  { induction l as [|[y pr] l IH]; intros u; cbn [map fold_left expected fst snd]; [ring|]. rewrite IH. ring. }
  rewrite K. ring.
Qed.

Lemma best_value_lv : forall g x, dmem g x = true -> lrtdp_best_value g x = Ok (lv g x).
Proof. intros g x M. unfold lrtdp_best_value, LrtdpProofs.lv. unfold dmem in M. destruct (dget g x); [auto|discriminate]. Qed.
Lemma value_lv : forall g x v, lrtdp_best_value g x = Ok v -> dmem g x = true /\ lv g x = v.
Proof. intros g x v E. unfold lrtdp_best_value in E. unfold dmem, LrtdpProofs.lv. destruct (dget g x); [|discriminate]. injection E as <-. auto. Qed.
Lemma answers_lb : forall (g : lgraph) x an, lb g x = Some an -> lanswers g x = Some (an_action an).
Proof. intros g x an B. unfold lanswers, lrtdp_best_action. unfold lb in B. destruct (dget g x) as [n|]; [|discriminate]. now rewrite B. Qed.

Lemma solved_near : forall g s, good g -> lsol g s = true -> dmem g s = true -> near p gamma eps (lanswers g) (lrtdp_best_value g) s.
Proof.
  intros g s [W L] SO M. exists (fun x => lsol g x = true /\ dmem g x = true), (lv g). split; auto. intros x [SX DX]. split; [now apply best_value_lv|].
  destruct (m_goal p x) eqn:G; [now rewrite (goal_lv p g x W G)|]. destruct (L x SX G) as (_ & an & B & I & R & O). exists (an_action an).
  destruct (acts_in p x an I) as [IA OE]. split; [now apply answers_lb|]. split; auto. split.
  - intros y pr J. assert (OI : In (pr, m_cost p x (an_action an) y, y) (an_out an)) by (rewrite OE; apply in_outcomes; eauto). apply (O _ OI).
  - rewrite <- (qv_expected (lv g) x an I). exact R.
Qed.

Definition bounding (B : St -> Q -> Prop) : Prop := forall x v, B x v ->
  if m_goal p x then (0 <= v)%Q
  else (m_heur p x <= v)%Q /\ exists a ws, In a (m_apps p x) /\ Forall2 (fun o w => B (fst o) w) (m_dist p x a) ws /\ (expected p gamma x a (m_dist p x a) ws <= v)%Q.

Lemma ups_below : forall B P V V', (0 <= gamma)%Q -> weights p -> bounding B -> (forall x v, B x v -> V x <= v)%Q -> ups p cf P V V' ->
  (forall x v, B x v -> V' x <= v)%Q.
Proof.
  intros B P V V' GP WT BD H U1. induction U1 as [V' E|V1 V2 x an v U1 IH PX G BE E]; intros z u BZ.
  - rewrite E. auto.
  - rewrite E. destruct (pyeqb_spec x z) as [EQ|]; [subst z|auto]. pose proof (BD x u BZ) as K. rewrite G in K. destruct K as (_ & a & ws & IA & F & LE).
    pose proof (best_spec (qv V1) (acts x)) as BS. unfold LrtdpProofs.bell in BE. rewrite BE in BS. destruct BS as (_ & _ & BS).
    assert (I' : In (ANode a (outcomes p x a)) (acts x)) by (apply in_map_iff; eauto).
    eapply Qle_trans; [apply (BS _ I')|]. eapply Qle_trans; [|exact LE]. rewrite (qv_expected V1 x _ I'). cbn [an_action].
    apply (expected_mono p {| c_discount := gamma; c_max_tips := 0; c_detect := false; c_order := fun l => l |}); auto.
    + intros y pr J. eapply WT; eauto.
    + clear - F IH. induction F as [|[y pr] w l ws PY F IHF]; cbn [map]; constructor; auto.
    + now rewrite map_length.
Qed.

Lemma session_below : forall B g, lc_labels cf = true -> (0 <= gamma)%Q -> weights p -> bounding B -> lsession p cf g ->
  (forall x v, B x v -> lv g x <= v)%Q.
Proof.
  intros B g LB GP WT BD H. induction H as [|g w s g' r H IH G RM OW E].
  - intros x v BX. pose proof (BD x v BX) as K. unfold LrtdpProofs.lv. cbn. destruct (m_goal p x); [auto|apply K].
  - pose proof (session_good g LB H) as GD. destruct (solve_any w g s g' r LB GD G RM OW E) as [(_ & _ & EV & _) _].
    apply (ups_below B (reach p s) (lv (rooted g s))); auto. intros x v BX. destruct (rooted_good g s GD G) as (_ & _ & _ & RV & _). rewrite RV. auto.
Qed.

(** *** The cost of a policy around which values hardly change *)
Lemma expected_diff : forall x a e os V ws, (0 <= e)%Q -> (0 <= gamma <= 1)%Q -> (forall y pr, In (y, pr) os -> 0 <= pr)%Q ->
  Forall2 (fun o w => Qabs (V (fst o) - w) <= e)%Q os ws ->
  (Qabs (expected p gamma x a os (map (fun o => V (fst o)) os) - expected p gamma x a os ws) <= e * fold_right (fun o u => snd o + u)%Q 0%Q os)%Q.
Proof.
  intros x a e os V ws EP GP WT F. induction F as [|[y pr] w os ws D F IH]; cbn [map expected fold_right fst snd] in *.
  - rewrite Qmult_0_r. discriminate.
  - assert (WO : (0 <= pr)%Q) by (apply (WT y pr); now left). specialize (IH (fun y pr I => WT y pr (or_intror I))).
    set (E1 := expected p gamma x a os _) in *. set (E2 := expected p gamma x a os ws) in *. set (S := fold_right _ _ os) in *.
    assert (X : (pr * (m_cost p x a y + gamma * V y) + E1 - (pr * (m_cost p x a y + gamma * w) + E2) == pr * (gamma * (V y - w)) + (E1 - E2))%Q) by ring.
    rewrite X. eapply Qle_trans; [apply Qabs_triangle|]. rewrite Qabs_Qmult, Qabs_Qmult, (Qabs_pos pr WO), (Qabs_pos gamma (proj1 GP)).
    assert (Y : (gamma * Qabs (V y - w) <= e)%Q).
    { eapply Qle_trans; [|exact D]. assert (Z : (0 <= Qabs (V y - w))%Q) by apply Qabs_nonneg. 
      setoid_replace (Qabs (V y - w)) with (1 * Qabs (V y - w))%Q at 2 by ring. apply Qmult_le_compat_r; [apply GP|auto]. }
    assert (Z : (pr * (gamma * Qabs (V y - w)) <= pr * e)%Q) by (rewrite (Qmult_comm pr), (Qmult_comm pr); now apply Qmult_le_compat_r).
    lra.
Qed.

Lemma near_policy : forall pol val s (rk : St -> nat), (0 <= eps)%Q -> (0 <= gamma <= 1)%Q -> weights p -> proper p ->
  (forall s a y pr, m_goal p s = false -> In a (m_apps p s) -> In (y, pr) (m_dist p s a) -> rk y < rk s) ->
  near p gamma eps pol val s -> exists u v, val s = Ok u /\ policy_cost p gamma pol s v /\ (Qabs (u - v) <= eps * inject_Z (Z.of_nat (S (rk s))))%Q.
Proof.
  intros pol val s rk EP GP WT PR RK (C & V & CS & H). exists (V s).
  assert (K : forall n x, rk x < n -> C x -> exists v, policy_cost p gamma pol x v /\ (Qabs (V x - v) <= eps * inject_Z (Z.of_nat (S (rk x))))%Q).
  { induction n as [|n IH]; intros x L CX; [lia|]. destruct (H x CX) as [_ HX]. destruct (m_goal p x) eqn:G.
    - exists 0%Q. split; [apply policy_goal; auto; reflexivity|]. rewrite HX. setoid_replace (0 - 0)%Q with 0%Q by ring. change (Qabs 0) with 0%Q.
      apply Qmult_le_0_compat; auto. change 0%Q with (inject_Z 0). rewrite <- Zle_Qle. lia.
    - destruct HX as (a & PA & IA & CO & NE).
      assert (CH : exists ws, Forall2 (fun o w => policy_cost p gamma pol (fst o) w) (m_dist p x a) ws /\
                              Forall2 (fun o w => Qabs (V (fst o) - w) <= eps * inject_Z (Z.of_nat (rk x)))%Q (m_dist p x a) ws).
      { assert (KO : forall y pr, In (y, pr) (m_dist p x a) -> exists v, policy_cost p gamma pol y v /\ (Qabs (V y - v) <= eps * inject_Z (Z.of_nat (rk x)))%Q).
        { intros y pr I. pose proof (RK x a y pr G IA I) as LT. destruct (IH y) as (v & P1 & P2); [lia|eauto|]. exists v. split; auto.
          eapply Qle_trans; [exact P2|]. rewrite (Qmult_comm eps), (Qmult_comm eps). apply Qmult_le_compat_r; auto. rewrite <- Zle_Qle. lia. }
        clear - KO. induction (m_dist p x a) as [|[y pr] l IHl]; [exists []; split; constructor|].
        destruct IHl as (ws & F1 & F2); [intros; eapply KO; right; eauto|]. destruct (KO y pr (or_introl eq_refl)) as (v & P1 & P2). exists (v :: ws).
        split; constructor; auto. }
      destruct CH as (ws & F1 & F2). exists (expected p gamma x a (m_dist p x a) ws). split.
      + eapply policy_act; eauto. reflexivity.
      + set (e := (eps * inject_Z (Z.of_nat (rk x)))%Q) in *.
        assert (EE : (0 <= e)%Q) by (apply Qmult_le_0_compat; auto; change 0%Q with (inject_Z 0); rewrite <- Zle_Qle; lia).
        pose proof (expected_diff x a e (m_dist p x a) V ws EE GP (fun y pr I => WT x a y pr IA I) F2) as DI. rewrite (PR x a IA), Qmult_1_r in DI.
        set (E1 := expected p gamma x a (m_dist p x a) (map _ _)) in *. set (E2 := expected p gamma x a (m_dist p x a) ws) in *.
        setoid_replace (V x - E2)%Q with ((V x - E1) + (E1 - E2))%Q by ring. eapply Qle_trans; [apply Qabs_triangle|].
        rewrite Nat2Z.inj_succ. unfold Z.succ. rewrite inject_Z_plus. setoid_replace (eps * (inject_Z (Z.of_nat (rk x)) + inject_Z 1))%Q with (e + eps)%Q by (unfold e; change (inject_Z 1) with 1%Q; ring). lra. }
  destruct (K (S (rk s)) s) as (v & P1 & P2); [lia|auto|]. exists v. split; [now apply H|]. auto.
Qed.
End Solve.
