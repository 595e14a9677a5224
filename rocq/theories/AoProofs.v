(** Proofs about the AO* solver. *)
From Coq Require Import List Bool Arith QArith Lia Lqa Permutation.
From Verif Require Import Py PyList PyMore CppAstarModel CppHeapProofs AoModel.
Import ListNotations.
Open Scope nat_scope.

Lemma forallb_same : forall X (f h : X -> bool) l, (forall x, In x l -> f x = h x) -> forallb f l = forallb h l.
Proof. induction l as [|x l IH]; intros H; cbn; auto. rewrite (H x) by now left. rewrite IH; auto. intros; apply H; now right. Qed.

Lemma pyadd_fold_In : forall X {EX : PyEq X} (l s : list X) y, In y (fold_left pyadd l s) <-> In y s \/ In y l.
Proof.
  induction l as [|x l IH]; intros s y; cbn [fold_left In]; [tauto|]. rewrite IH, pyadd_In. intuition congruence.
Qed.

Lemma filter_length_mono : forall X (f h : X -> bool) l, (forall x, In x l -> h x = true -> f x = true) ->
  length (filter h l) <= length (filter f l).
Proof.
  induction l as [|x l IH]; intros H; cbn; auto. assert (L : length (filter h l) <= length (filter f l)) by (apply IH; intros; apply H; auto; now right).
  destruct (h x) eqn:E; [rewrite (H x (or_introl eq_refl) E); cbn; lia|]. destruct (f x); cbn; lia.
Qed.
Lemma filter_length_strict : forall X (f h : X -> bool) l z, (forall x, In x l -> h x = true -> f x = true) ->
  In z l -> f z = true -> h z = false -> length (filter h l) < length (filter f l).
Proof.
  induction l as [|x l IH]; intros z H I F Z; [destruct I|]. cbn.
  assert (H' : forall x, In x l -> h x = true -> f x = true) by (intros; apply H; auto; now right).
  destruct I as [->|I].
  - rewrite F, Z. pose proof (filter_length_mono _ f h l H'). cbn. lia.
  - specialize (IH z H' I F Z). destruct (h x) eqn:E; [rewrite (H x (or_introl eq_refl) E); cbn; lia|]. destruct (f x); cbn; lia.
Qed.

Section Graph.
Context {St A : Type} {ES : PyEq St}.
Variable p : mdp St A.
Notation sgraph := (sgraph St A).
Notation nd := (@nd St A ES).

Lemma nd_dset : forall (g : sgraph) s n t, nd (dset g s n) t = if pyeqb t s then n else nd g t.
Proof.
  intros. unfold AoModel.nd. rewrite dget_dset. destruct (pyeqb_spec s t), (pyeqb_spec t s); congruence.
Qed.
Lemma dmem_dset : forall (g : sgraph) s n t, dmem (dset g s n) t = pyeqb t s || dmem g t.
Proof. intros. unfold dmem. rewrite dget_dset. destruct (pyeqb_spec s t), (pyeqb_spec t s); try congruence; reflexivity. Qed.
Lemma nd_absent : forall (g : sgraph) s, dmem g s = false -> nd g s = new_snode.
Proof. intros g s H. unfold AoModel.nd, dmem in *. destruct (dget g s); congruence. Qed.

Definition expanded (g : sgraph) (s : St) : Prop := sn_actions (nd g s) <> [].
Lemma expanded_mem : forall g s, expanded g s -> dmem g s = true.
Proof. intros g s E. destruct (dmem g s) eqn:D; auto. exfalso. apply E. now rewrite nd_absent. Qed.
Lemma parent_mem : forall (g : sgraph) s x, In x (sn_parents (nd g s)) -> dmem g s = true.
Proof. intros g s x E. destruct (dmem g s) eqn:D; auto. rewrite nd_absent in E by auto. destruct E. Qed.

Definition core (n : snode St A) := (sn_actions n, sn_best n, sn_value n, sn_solved n).
Definition fresh (y : St) : list (anode St A) * option (anode St A) * option Q * bool :=
  if m_goal p y then ([], None, Some 0%Q, true) else ([], None, Some (m_heur p y), false).

Lemma reach_fold : forall x os g, let g1 := fold_left (reach_node p x) os g in
  forall s,
    (dmem g1 s = true <-> dmem g s = true \/ In s (map fst os)) /\
    (dmem g s = true -> core (nd g1 s) = core (nd g s)) /\
    (dmem g s = false -> In s (map fst os) -> core (nd g1 s) = fresh s) /\
    (forall z, In z (sn_parents (nd g1 s)) <-> In z (sn_parents (nd g s)) \/ z = x /\ In s (map fst os)).
Proof.
  intros x. induction os as [|o os IH]; intros g g1 s.
  - cbn in g1. subst g1. cbn [map In]. repeat split; auto; try tauto.
  - cbn [fold_left] in g1. specialize (IH (reach_node p x g o) s). cbv zeta in IH. fold g1 in IH.
    destruct IH as (I1 & I2 & I3 & I4). cbn [map In]. destruct o as [y pr]. cbn [fst] in *.
    assert (N : nd (reach_node p x g (y, pr)) s = if pyeqb s y then
        let n := if dmem g y then nd g y
           else if m_goal p y then SNode [] None (Some 0%Q) true []
           else SNode [] None (Some (m_heur p y)) false [] in
        SNode (sn_actions n) (sn_best n) (sn_value n) (sn_solved n) (sn_parents n ++ [x]) else nd g s)
      by (unfold reach_node; cbn [fst]; apply nd_dset).
    assert (D : dmem (reach_node p x g (y, pr)) s = pyeqb s y || dmem g s) by (unfold reach_node; cbn [fst]; apply dmem_dset).
    destruct (pyeqb_spec s y) as [->|NE].
    + cbn [orb] in D. split; [|split; [|split]].
      * rewrite I1. rewrite D. tauto.
      * intros M. rewrite I2 by auto. rewrite N, M. reflexivity.
      * intros M _. rewrite I2 by auto. rewrite N, M. unfold fresh. destruct (m_goal p y); reflexivity.
      * intros z. rewrite I4, N. cbn [sn_parents]. rewrite in_app_iff. cbn [In].
        destruct (dmem g y) eqn:M.
        -- split; [intros [[I|[->|[]]]|[-> I]]|intros [I|[-> I]]]; tauto.
        -- rewrite (nd_absent g y M). destruct (m_goal p y); cbn [sn_parents new_snode In]; split;
             [intros [[I|[->|[]]]|[-> I]]|intros [I|[-> I]]|intros [[I|[->|[]]]|[-> I]]|intros [I|[-> I]]]; tauto.
    + cbn [orb] in D. split; [|split; [|split]].
      * rewrite I1, D. split; [intros [I|I]; auto|intros [I|[I|I]]; auto; congruence].
      * intros M. rewrite I2 by congruence. now rewrite N.
      * intros M [I|I]; [congruence|]. apply I3; congruence.
      * intros z. rewrite I4, N. split; [intros [I|[-> I]]; auto|intros [I|[-> [I|I]]]; auto; congruence].
Qed.

(** What the expansion of a tip does to the graph. *)
Record expansion (g : sgraph) (x : St) (l : list A) (g' : sgraph) : Prop := {
  ex_mem : forall s, dmem g' s = true <-> dmem g s = true \/ exists a, In a l /\ In s (map fst (m_dist p x a));
  ex_old : forall s, s <> x -> dmem g s = true -> core (nd g' s) = core (nd g s);
  ex_tip : core (nd g' x) = (sn_actions (nd g x) ++ map (fun a => ANode a (outcomes p x a)) l,
                             sn_best (nd g x), sn_value (nd g x), sn_solved (nd g x));
  ex_new : forall s, dmem g s = false -> dmem g' s = true -> core (nd g' s) = fresh s;
  ex_par : forall s z, In z (sn_parents (nd g' s)) <->
             In z (sn_parents (nd g s)) \/ z = x /\ exists a, In a l /\ In s (map fst (m_dist p x a)) }.

Lemma expand_action_spec : forall g x a, dmem g x = true -> expansion g x [a] (expand_action p x g a).
Proof.
  intros g x a M. unfold expand_action. set (g1 := fold_left (reach_node p x) (m_dist p x a) g).
  pose proof (reach_fold x (m_dist p x a) g) as R. cbv zeta in R. fold g1 in R.
  assert (X : core (nd g1 x) = core (nd g x)) by (apply R; auto).
  assert (EX : forall s, (exists b, In b [a] /\ In s (map fst (m_dist p x b))) <-> In s (map fst (m_dist p x a))).
  { intros s. split; [intros (b & [<-|[]] & I); auto|intros I; exists a; split; [now left|auto]]. }
  constructor.
  - intros s. rewrite dmem_dset, EX. destruct (R s) as (R1 & _). rewrite <- R1.
    destruct (pyeqb_spec s x) as [->|NE]; cbn [orb]; [|reflexivity]. split; auto. intros _. apply R. auto.
  - intros s NE D. rewrite nd_dset. destruct (pyeqb_spec s x); [contradiction|]. now apply R.
  - rewrite nd_dset, pyeqb_refl. unfold core in X |- *. cbn [sn_actions sn_best sn_value sn_solved map]. congruence.
  - intros s D D'. rewrite dmem_dset in D'. rewrite nd_dset. destruct (pyeqb_spec s x) as [->|NE]; [congruence|].
    cbn [orb] in D'. destruct (R s) as (R1 & _ & R3 & _). apply R3; auto. apply R1 in D'. destruct D'; [congruence|auto].
  - intros s z. rewrite nd_dset, EX. destruct (pyeqb_spec s x) as [->|NE]; cbn [sn_parents]; apply R.
Qed.

Lemma expansion_trans : forall g x l1 g1 l2 g2, dmem g x = true -> expansion g x l1 g1 -> expansion g1 x l2 g2 ->
  expansion g x (l1 ++ l2) g2.
Proof.
  intros g x l1 g1 l2 g2 M [A1 A2 A3 A4 A5] [B1 B2 B3 B4 B5].
  assert (EX : forall s, (exists b, In b (l1 ++ l2) /\ In s (map fst (m_dist p x b))) <->
     (exists b, In b l1 /\ In s (map fst (m_dist p x b))) \/ (exists b, In b l2 /\ In s (map fst (m_dist p x b)))).
  { intros s. split.
    - intros (b & I & J). apply in_app_iff in I. destruct I; [left|right]; eauto.
    - intros [(b & I & J)|(b & I & J)]; exists b; rewrite in_app_iff; auto. }
  constructor.
  - intros s. rewrite B1, A1, EX. tauto.
  - intros s NE D. rewrite B2, A2; auto. apply A1. auto.
  - rewrite B3. unfold core in A3. injection A3 as -> -> -> ->. now rewrite map_app, app_assoc.
  - intros s D D'. destruct (dmem g1 s) eqn:D1.
    + rewrite B2; auto. intros ->. congruence.
    + auto.
  - intros s z. rewrite B5, A5, EX. tauto.
Qed.

Lemma expand_tip_spec : forall l g x, dmem g x = true -> expansion g x l (fold_left (expand_action p x) l g).
Proof.
  induction l as [|a l IH]; intros g x M; cbn [fold_left].
  - constructor; intros; cbn [map]; rewrite ?app_nil_r; auto; try congruence.
    + split; auto. intros [I|(b & [] & _)]; auto.
    + split; auto. intros [I|(_ & b & [] & _)]; auto.
  - pose proof (expand_action_spec g x a M) as E1. apply (expansion_trans g x [a] _ l _ M E1).
    apply IH. apply (ex_mem _ _ _ _ E1). auto.
Qed.
End Graph.

Section Ao.
Context {St A : Type} {ES : PyEq St}.
Variable p : mdp St A.
Variable cf : config St.
Notation gamma := (c_discount cf).
Notation sgraph := (sgraph St A).
Notation nd := (@nd St A ES).
Variable rk : St -> nat.
Hypothesis acyclic : forall s a y pr, m_goal p s = false -> In a (m_apps p s) -> In (y, pr) (m_dist p s a) -> rk y < rk s.

Record wf (g : sgraph) : Prop := {
  wf_act : forall s an, In an (sn_actions (nd g s)) ->
    In (an_action an) (m_apps p s) /\ an_out an = outcomes p s (an_action an);
  wf_all : forall s a, expanded g s -> In a (m_apps p s) -> exists an, In an (sn_actions (nd g s)) /\ an_action an = a;
  wf_goal : forall s, expanded g s -> m_goal p s = false;
  wf_child : forall s an o, In an (sn_actions (nd g s)) -> In o (an_out an) ->
    dmem g (snd o) = true /\ In s (sn_parents (nd g (snd o)));
  wf_parent : forall y x, In x (sn_parents (nd g y)) ->
    expanded g x /\ exists an o, In an (sn_actions (nd g x)) /\ In o (an_out an) /\ snd o = y;
  wf_leaf : forall s, dmem g s = true -> ~ expanded g s ->
    sn_best (nd g s) = None /\
    if m_goal p s then sn_solved (nd g s) = true /\ sn_value (nd g s) = Some 0%Q
    else sn_solved (nd g s) = false /\ (sn_value (nd g s) = Some (m_heur p s) \/ sn_value (nd g s) = None) }.

Lemma in_outcomes : forall s a o, In o (outcomes p s a) <-> exists y pr, In (y, pr) (m_dist p s a) /\ o = (pr, m_cost p s a y, y).
Proof.
  intros. unfold outcomes. rewrite in_map_iff. split.
  - intros ([y pr] & <- & I). exists y, pr. auto.
  - intros (y & pr & I & ->). exists (y, pr). auto.
Qed.

Lemma rank_out : forall g s an o, wf g -> In an (sn_actions (nd g s)) -> In o (an_out an) -> rk (snd o) < rk s.
Proof.
  intros g s an o W I O. destruct (wf_act g W s an I) as [I1 E]. rewrite E in O. apply in_outcomes in O.
  destruct O as (y & pr & D & ->). cbn [snd]. apply (acyclic s (an_action an) y pr); auto.
  apply (wf_goal g W). intros X. now rewrite X in I.
Qed.

Lemma rank_parent : forall g y x, wf g -> In x (sn_parents (nd g y)) -> rk y < rk x.
Proof.
  intros g y x W I. destruct (wf_parent g W y x I) as (_ & an & o & J & O & <-). eapply rank_out; eauto.
Qed.

Lemma fst_dist : forall s x a, In s (map fst (m_dist p x a)) <-> exists o, In o (outcomes p x a) /\ snd o = s.
Proof.
  intros. rewrite in_map_iff. split.
  - intros ([y pr] & <- & I). exists (pr, m_cost p x a y, y). split; auto. apply in_outcomes. eauto.
  - intros (o & I & <-). apply in_outcomes in I. destruct I as (y & pr & I & ->). exists (y, pr). auto.
Qed.

Lemma core_eqs : forall n n' : snode St A, core n = core n' ->
  sn_actions n = sn_actions n' /\ sn_best n = sn_best n' /\ sn_value n = sn_value n' /\ sn_solved n = sn_solved n'.
Proof. unfold core. intros. injection H. auto. Qed.

Lemma fresh_actions : forall (g : sgraph) s, core (nd g s) = fresh p s -> sn_actions (nd g s) = [].
Proof. intros g s E. unfold fresh, core in E. destruct (m_goal p s); now injection E. Qed.

Lemma expand_wf : forall g x, wf g -> dmem g x = true -> m_goal p x = false -> wf (expand_tip p g x).
Proof.
  intros g x W M G. unfold expand_tip.
  pose proof (expand_tip_spec p (m_apps p x) g x M) as X. set (g' := fold_left _ _ _) in *. clearbody g'.
  destruct X as [X1 X2 X3 X4 X5].
  assert (ACT : forall s, s <> x -> sn_actions (nd g' s) = sn_actions (nd g s)).
  { intros s N. destruct (dmem g s) eqn:D.
    - apply core_eqs; auto.
    - rewrite (nd_absent g s D). destruct (dmem g' s) eqn:D'.
      + cbn. apply fresh_actions. auto.
      + now rewrite nd_absent. }
  assert (ACX : sn_actions (nd g' x) = sn_actions (nd g x) ++ map (fun a => ANode a (outcomes p x a)) (m_apps p x))
    by (unfold core in X3; now injection X3).
  assert (SUB : forall s an, In an (sn_actions (nd g s)) -> In an (sn_actions (nd g' s))).
  { intros s an I. destruct (pyeqb_spec s x) as [->|N]; [rewrite ACX; apply in_app_iff; auto|rewrite ACT; auto]. }
  assert (INV : forall s an, In an (sn_actions (nd g' s)) -> In an (sn_actions (nd g s)) \/
     s = x /\ exists a, In a (m_apps p x) /\ an = ANode a (outcomes p x a)).
  { intros s an I. destruct (pyeqb_spec s x) as [->|N]; [|rewrite ACT in I; auto].
    rewrite ACX in I. apply in_app_iff in I. destruct I as [I|I]; auto. apply in_map_iff in I.
    destruct I as (a & <- & I). right. eauto. }
  assert (EXP : forall s, expanded g' s <-> expanded g s \/ s = x /\ m_apps p x <> []).
  { intros s. unfold expanded. destruct (pyeqb_spec s x) as [->|N].
    - rewrite ACX. destruct (sn_actions (nd g x)), (m_apps p x); cbn; intuition congruence.
    - rewrite ACT by auto. intuition congruence. }
  constructor.
  - intros s an I. apply INV in I. destruct I as [I|(-> & a & I & ->)]; [now apply (wf_act g W)|]. cbn. auto.
  - intros s a E I. destruct (pyeqb_spec s x) as [->|N].
    + exists (ANode a (outcomes p x a)). split; auto. rewrite ACX. apply in_app_iff. right.
      apply in_map_iff. eauto.
    + assert (E0 : expanded g s) by (apply EXP in E; destruct E as [E|[? _]]; [auto|contradiction]).
      destruct (wf_all g W s a E0 I) as (an & J & K). eauto.
  - intros s E. apply EXP in E. destruct E as [E|[-> _]]; auto. now apply (wf_goal g W).
  - intros s an o I O. apply INV in I. destruct I as [I|(-> & a & I & ->)].
    + destruct (wf_child g W s an o I O) as [C1 C2]. split; [apply X1; auto|apply X5; auto].
    + cbn [an_out] in O. assert (F : In (snd o) (map fst (m_dist p x a))) by (apply fst_dist; eauto).
      split; [apply X1; eauto|apply X5; eauto].
  - intros y z I. apply X5 in I. destruct I as [I|(-> & a & I & J)].
    + destruct (wf_parent g W y z I) as (E & an & o & K & O & Y). split; [apply EXP; auto|]. exists an, o. auto.
    + split.
      * apply EXP. right. split; auto. intros Z. now rewrite Z in I.
      * apply fst_dist in J. destruct J as (o & O & Y). exists (ANode a (outcomes p x a)), o. repeat split; auto.
        rewrite ACX. apply in_app_iff. right. apply in_map_iff. eauto.
  - intros s D E. destruct (dmem g s) eqn:DS.
    + assert (E0 : ~ expanded g s) by (intros Z; apply E, EXP; auto).
      destruct (pyeqb_spec s x) as [->|N].
      * pose proof (wf_leaf g W x DS E0) as L. unfold core in X3. injection X3 as _ -> -> ->. auto.
      * pose proof (core_eqs _ _ (X2 s N DS)) as CE. destruct CE as (_ & -> & -> & ->). now apply (wf_leaf g W).
    + pose proof (X4 s DS D) as C. unfold core, fresh in C. destruct (m_goal p s); injection C as _ -> -> ->; auto.
Qed.

(** Finite values, but for a start state that has not been evaluated yet. *)
Definition fin (root : St) (g : sgraph) : Prop :=
  forall s, dmem g s = true -> sn_value (nd g s) = None -> s = root /\ sn_parents (nd g s) = [].

Lemma expand_fin : forall root g x, wf g -> dmem g x = true -> m_goal p x = false -> rk x <= rk root -> fin root g ->
  fin root (expand_tip p g x).
Proof.
  intros root g x W M G R F s D V. unfold expand_tip in *.
  pose proof (expand_tip_spec p (m_apps p x) g x M) as X. set (g' := fold_left _ _ _) in *. clearbody g'.
  destruct X as [X1 X2 X3 X4 X5].
  destruct (dmem g s) eqn:DS.
  - assert (V0 : sn_value (nd g s) = None).
    { destruct (pyeqb_spec s x) as [->|N].
      - unfold core in X3. injection X3 as _ _ E _. congruence.
      - pose proof (core_eqs _ _ (X2 s N DS)) as CE. destruct CE as (_ & _ & E & _). congruence. }
    destruct (F s DS V0) as [-> P]. split; auto.
    destruct (sn_parents (nd g' root)) as [|z l] eqn:E; auto. exfalso.
    assert (I : In z (sn_parents (nd g' root))) by (rewrite E; now left). apply X5 in I. rewrite P in I.
    destruct I as [[]|(-> & a & I & J)]. apply in_map_iff in J. destruct J as ([y pr] & Y & J). cbn in Y. subst y.
    pose proof (acyclic x a root pr G I J). lia.
  - pose proof (X4 s DS D) as C. unfold core, fresh in C. destruct (m_goal p s); injection C as _ _ C _; congruence.
Qed.

(** Values. *)
Definition val (g : sgraph) (s : St) : Q := match sn_value (nd g s) with Some v => v | None => 0%Q end.
Definition qsum (g : sgraph) (os : list (Q * Q * St)) : Q :=
  fold_left (fun u o => (u + fst (fst o) * (snd (fst o) + gamma * val g (snd o)))%Q) os 0%Q.

Lemma qsum_ext : forall g g' os, (forall o, In o os -> val g (snd o) = val g' (snd o)) -> qsum g os = qsum g' os.
Proof.
  intros g g' os. unfold qsum. generalize 0%Q. induction os as [|o os IH]; intros u H; cbn [fold_left]; auto.
  rewrite (H o) by now left. apply IH. intros; apply H; now right.
Qed.

Lemma q_value_sum : forall g x run an, (forall o, In o (an_out an) -> snd o <> x /\ sn_value (nd g (snd o)) <> None) ->
  q_value gamma g x run an = Some (qsum g (an_out an)).
Proof.
  intros g x run an. unfold q_value, qsum. generalize 0%Q. induction (an_out an) as [|o os IH]; intros u H; cbn [fold_left]; auto.
  destruct (H o (or_introl eq_refl)) as [N V]. destruct o as [[pr c] y]. cbn [fst snd] in *.
  destruct (pyeqb_spec y x); [contradiction|]. unfold val at 2. destruct (sn_value (nd g y)) as [v|]; [|congruence].
  apply IH. intros; apply H; now right.
Qed.

Lemma choose_best : forall g x l, l <> [] -> (forall an o, In an l -> In o (an_out an) -> snd o <> x /\ sn_value (nd g (snd o)) <> None) ->
  exists an, choose gamma g x l = (Some (qsum g (an_out an)), Some an) /\ In an l /\
    forall an', In an' l -> (qsum g (an_out an) <= qsum g (an_out an'))%Q.
Proof.
  intros g x l N H. unfold choose.
  assert (K : forall l', (forall an, In an l' -> In an l) -> forall b0, In b0 l ->
    exists an, fold_left (fun b an => let v := q_value gamma g x (fst b) an in if vlt v (fst b) then (v, Some an) else b) l'
       (Some (qsum g (an_out b0)), Some b0) = (Some (qsum g (an_out an)), Some an) /\ In an l /\
       (qsum g (an_out an) <= qsum g (an_out b0))%Q /\
       forall an', In an' l' -> (qsum g (an_out an) <= qsum g (an_out an'))%Q).
  { induction l' as [|a l' IH]; intros SUB b0 I0.
    - exists b0. cbn. repeat split; auto; try lra. intros ? [].
    - cbn [fold_left fst]. cbv zeta. rewrite (q_value_sum g x _ a) by (intros o O; apply (H a o); auto; apply SUB; now left).
      cbn [vlt]. destruct (Qle_bool (qsum g (an_out b0)) (qsum g (an_out a))) eqn:L; cbn [negb].
      + apply Qle_bool_iff in L. destruct (IH (fun an I => SUB an (or_intror I)) b0 I0) as (an & E & I & B & M).
        exists an. repeat split; auto. intros an' [<-|J]; auto. lra.
      + assert (L' : (qsum g (an_out a) <= qsum g (an_out b0))%Q).
        { apply Qlt_le_weak. apply Qnot_le_lt. intros Z. apply Qle_bool_iff in Z. congruence. }
        destruct (IH (fun an I => SUB an (or_intror I)) a (SUB a (or_introl eq_refl))) as (an & E & I & B & M).
        exists an. repeat split; auto; try lra. intros an' [<-|J]; auto. }
  destruct l as [|a l]; [congruence|]. cbn [fold_left fst]. cbv zeta.
  rewrite (q_value_sum g x _ a) by (intros o O; apply (H a o); auto; now left). cbn [vlt].
  destruct (K l (fun an I => or_intror I) a (or_introl eq_refl)) as (an & E & I & B & M).
  exists an. repeat split; auto. intros an' [<-|J]; auto.
Qed.

Lemma solved_fold : forall (g : sgraph) x os, (forall o, In o os -> snd o <> x) -> forall acc,
  fold_left (fun acc o => acc && (if pyeqb (snd o) x then acc else sn_solved (nd g (snd o)))) os acc
  = acc && forallb (fun o => sn_solved (nd g (snd o))) (os : list (Q * Q * St)).
Proof.
  induction os as [|o os IH]; intros H acc; cbn [fold_left forallb]; [now rewrite andb_true_r|].
  rewrite IH by (intros; apply H; now right). destruct (pyeqb_spec (snd o) x) as [E|_].
  - destruct (H o (or_introl eq_refl) E).
  - now rewrite andb_assoc.
Qed.

Definition consistent (g : sgraph) (s : St) : Prop :=
  exists an, In an (sn_actions (nd g s)) /\ sn_best (nd g s) = Some an /\
    sn_value (nd g s) = Some (qsum g (an_out an)) /\
    (forall an', In an' (sn_actions (nd g s)) -> (qsum g (an_out an) <= qsum g (an_out an'))%Q) /\
    sn_solved (nd g s) = forallb (fun o => sn_solved (nd g (snd o))) (an_out an).

Definition dirty (g : sgraph) (F : list St) : Prop := forall s, expanded g s -> In s F \/ consistent g s.

(** The parts of the graph that the back-propagation does not change. *)
Definition same_shape (g g' : sgraph) : Prop :=
  forall s, dmem g' s = dmem g s /\ sn_actions (nd g' s) = sn_actions (nd g s) /\ sn_parents (nd g' s) = sn_parents (nd g s) /\
    (~ expanded g s -> nd g' s = nd g s).

Lemma same_shape_refl : forall g, same_shape g g.
Proof. intros g s. auto. Qed.
Lemma same_shape_expanded : forall g g' s, same_shape g g' -> expanded g' s <-> expanded g s.
Proof. intros g g' s H. unfold expanded. now rewrite (proj1 (proj2 (H s))). Qed.
Lemma same_shape_trans : forall g1 g2 g3, same_shape g1 g2 -> same_shape g2 g3 -> same_shape g1 g3.
Proof.
  intros g1 g2 g3 H K s. destruct (H s) as (H1 & H2 & H3 & H4), (K s) as (K1 & K2 & K3 & K4). repeat split; try congruence.
  intros E. rewrite K4, H4; auto. now rewrite (same_shape_expanded g1 g2 s H).
Qed.

Lemma same_shape_wf : forall g g', same_shape g g' -> wf g -> wf g'.
Proof.
  intros g g' H W.
  assert (EA : forall s, sn_actions (nd g' s) = sn_actions (nd g s)) by (intros; apply H).
  assert (EP : forall s, sn_parents (nd g' s) = sn_parents (nd g s)) by (intros; apply H).
  assert (ED : forall s, dmem g' s = dmem g s) by (intros; apply H).
  assert (EE : forall s, expanded g' s <-> expanded g s) by (intros; now apply same_shape_expanded).
  constructor.
  - intros s an. rewrite EA. apply (wf_act g W).
  - intros s a. rewrite EE, EA. apply (wf_all g W).
  - intros s. rewrite EE. apply (wf_goal g W).
  - intros s an o. rewrite EA, ED, EP. apply (wf_child g W).
  - intros y x. rewrite EP, EE, EA. apply (wf_parent g W).
  - intros s. rewrite ED, EE. intros D E. destruct (H s) as (_ & _ & _ & H4). rewrite H4 by auto. now apply (wf_leaf g W).
Qed.

Lemma update_ok : forall root g x F, wf g -> fin root g -> expanded g x -> dirty g (x :: F) ->
  exists g', update gamma g x = Ok g' /\ same_shape g g' /\ fin root g' /\
    dirty g' (sn_parents (nd g' x) ++ F).
Proof.
  intros root g x F W FI E D. unfold update.
  assert (OUT : forall an o, In an (sn_actions (nd g x)) -> In o (an_out an) -> snd o <> x /\ sn_value (nd g (snd o)) <> None).
  { intros an o I O. split.
    - intros Z. pose proof (rank_out g x an o W I O). rewrite Z in H. lia.
    - intros Z. destruct (wf_child g W x an o I O) as [C1 C2]. destruct (FI _ C1 Z) as [_ P]. now rewrite P in C2. }
  destruct (choose_best g x (sn_actions (nd g x)) E OUT) as (an & CH & I & MIN). rewrite CH.
  rewrite solved_fold by (intros o O; now apply (OUT an o)). cbn [andb].
  set (n' := SNode _ _ _ _ _). set (g' := dset g x n').
  assert (ND : forall s, nd g' s = if pyeqb s x then n' else nd g s) by (intros; apply nd_dset).
  assert (NX : nd g' x = n') by (now rewrite ND, pyeqb_refl).
  assert (SH : same_shape g g').
  { intros s. rewrite ND. unfold g'. rewrite dmem_dset. destruct (pyeqb_spec s x) as [->|N]; cbn [orb].
    - repeat split; auto; [now rewrite (expanded_mem g x E)|]. intros Z. contradiction.
    - auto. }
  assert (VAL : forall s, s <> x -> val g' s = val g s /\ sn_solved (nd g' s) = sn_solved (nd g s)).
  { intros s N. unfold val. rewrite ND. destruct (pyeqb_spec s x); [contradiction|auto]. }
  assert (QS : forall an', In an' (sn_actions (nd g x)) -> qsum g' (an_out an') = qsum g (an_out an')).
  { intros an' I'. apply qsum_ext. intros o O. apply VAL. now apply (OUT an' o). }
  exists g'. split; [reflexivity|]. split; [exact SH|]. split.
  - intros s DS V. rewrite ND in V |- *. unfold g' in DS. rewrite dmem_dset in DS. destruct (pyeqb_spec s x) as [_|N].
    + discriminate.
    + now apply FI.
  - intros s ES0. destruct (pyeqb_spec s x) as [->|N].
    + right. exists an. rewrite NX. unfold n'. cbn [sn_actions sn_best sn_value sn_solved]. repeat split; auto.
      * now rewrite QS.
      * intros an' I'. rewrite !QS; auto.
      * apply forallb_same. intros o O. symmetry. apply VAL. now apply (OUT an o).
    + destruct (D s) as [DS|DS]; [now apply (same_shape_expanded g g' s SH)| |].
      * left. apply in_app_iff. right. destruct DS; [congruence|auto].
      * destruct (pymem s (sn_parents (nd g x))) eqn:PM.
        -- apply pymem_true in PM. left. apply in_app_iff. left. rewrite NX. exact PM.
        -- apply pymem_false in PM. right. destruct DS as (an1 & C1 & C2 & C3 & C4 & C5).
           assert (NO : forall an' o, In an' (sn_actions (nd g s)) -> In o (an_out an') -> snd o <> x).
           { intros an' o I' O Z. apply PM. rewrite <- Z. now apply (wf_child g W s an' o). }
           assert (QE : forall an', In an' (sn_actions (nd g s)) -> qsum g' (an_out an') = qsum g (an_out an')).
           { intros an' I'. apply qsum_ext. intros o O. apply VAL. now apply (NO an' o). }
           exists an1. rewrite ND. destruct (pyeqb_spec s x); [contradiction|]. repeat split; auto.
           ++ now rewrite QE.
           ++ intros an' I'. rewrite !QE; auto.
           ++ rewrite C5. apply forallb_same. intros o O. symmetry. apply VAL. now apply (NO an1 o).
Qed.


Hypothesis order_perm : forall l, Permutation (c_order cf l) l.

Lemma update_all_ok : forall root order g newf, wf g -> fin root g -> (forall x, In x order -> expanded g x) ->
  dirty g (order ++ newf) ->
  exists g' newf',
    foldM (fun gf x => let '(g, newf) := gf in let* g' := update gamma g x in
                       Ok (g', fold_left pyadd (sn_parents (nd g' x)) newf)) (g, newf) order = Ok (g', newf') /\
    same_shape g g' /\ fin root g' /\ dirty g' newf' /\
    (forall y, In y newf' <-> In y newf \/ exists x, In x order /\ In y (sn_parents (nd g x))).
Proof.
  intros root. induction order as [|x order IH]; intros g newf W FI EX D.
  - exists g, newf. cbn [foldM]. split; [reflexivity|]. split; [apply same_shape_refl|]. split; [auto|]. split; [exact D|].
    intros y. split; auto. intros [?|(? & [] & _)]; auto.
  - destruct (update_ok root g x (order ++ newf) W FI (EX x (or_introl eq_refl)) D) as (g1 & U & SH & FI1 & D1).
    cbn [foldM]. rewrite U. cbn [bind].
    destruct (IH g1 (fold_left pyadd (sn_parents (nd g1 x)) newf)) as (g' & newf' & E & SH' & FI' & D' & IN).
    + now apply (same_shape_wf g).
    + auto.
    + intros y I. apply (same_shape_expanded g g1 y SH). apply EX. now right.
    + intros s ES0. destruct (D1 s ES0) as [I|C]; auto. left. rewrite !in_app_iff in *. rewrite pyadd_fold_In. tauto.
    + exists g', newf'. split; [exact E|]. split; [eapply same_shape_trans; eauto|]. split; [auto|]. split; [auto|].
      intros y. rewrite IN, pyadd_fold_In.
      assert (EP : forall z, sn_parents (nd g1 z) = sn_parents (nd g z)) by (intros; apply SH).
      split.
      * intros [[I|I]|(z & I & J)]; auto.
        -- right. exists x. rewrite <- EP. split; auto. now left.
        -- right. exists z. rewrite <- EP. split; auto. now right.
      * intros [I|(z & [<-|I] & J)]; auto; rewrite <- EP in J; eauto.
Qed.


Lemma propagate_S : forall fuel explored F (g : sgraph), F <> [] -> propagate (S fuel) cf explored F g =
  let* gf := update_all gamma (c_order cf F) g in
  let '(g', newf) := gf in
  if c_detect cf && existsb (fun x => pymem x explored) newf then Err ValueError
  else propagate fuel cf (explored ++ newf) newf g'.
Proof. intros. destruct F; [congruence|reflexivity]. Qed.
Lemma find_tips_S : forall fuel (g : sgraph) F q, F <> [] -> find_tips (S fuel) cf g F q =
  let '(q', newf) := fold_left (look g) (c_order cf F) (q, []) in find_tips fuel cf g newf q'.
Proof. intros. destruct F; [congruence|reflexivity]. Qed.
Lemma ao_loop_S : forall fuel inner root (g : sgraph) q, q <> [] -> ao_loop (S fuel) inner p cf root g q =
  let '(g1, frontier) := expand_tips (Nat.min (length q) (c_max_tips cf)) p g q [] in
  let* g2 := propagate inner cf frontier frontier g1 in
  let* q2 := find_tips inner cf g2 [root] [] in
  ao_loop fuel inner p cf root g2 q2.
Proof. intros. destruct q; [congruence|reflexivity]. Qed.

Lemma propagate_ok : c_detect cf = false -> forall root M fuel F explored g, wf g -> fin root g -> (forall x, In x F -> expanded g x) -> dirty g F ->
  (forall x, dmem g x = true -> rk x <= M) -> (forall x, In x F -> M < rk x + fuel) ->
  exists g', propagate fuel cf explored F g = Ok g' /\ same_shape g g' /\ fin root g' /\ dirty g' [].
Proof.
  intros no_detect root M. induction fuel as [|fuel IH]; intros F explored g W FI EX D MX FU.
  - destruct F as [|x F].
    + exists g. split; [reflexivity|]. split; [apply same_shape_refl|]. split; auto.
    + pose proof (FU x (or_introl eq_refl)). pose proof (MX x (expanded_mem g x (EX x (or_introl eq_refl)))). lia.
  - destruct F as [|x F]; [exists g; split; [reflexivity|]; split; [apply same_shape_refl|]; split; auto|].
    remember (x :: F) as F0. rewrite propagate_S by (subst F0; discriminate). rewrite no_detect. cbn [andb].
    assert (PM : forall y, In y (c_order cf F0) <-> In y F0)
      by (intros y; split; apply Permutation_in; [|apply Permutation_sym]; apply order_perm).
    destruct (update_all_ok root (c_order cf F0) g []) as (g1 & newf & E & SH & FI1 & D1 & IN); auto.
    { intros y I. apply EX. now apply PM. }
    { intros s ES0. destruct (D s ES0) as [I|C]; auto. left. rewrite app_nil_r. now apply PM. }
    unfold update_all. rewrite E. cbn [bind].
    assert (W1 : wf g1) by (now apply (same_shape_wf g)).
    assert (PAR : forall y, In y newf -> exists z, In z F0 /\ In y (sn_parents (nd g1 z))).
    { intros y I. apply IN in I. destruct I as [[]|(z & I & J)]. exists z. split; [now apply PM|].
      now rewrite (proj1 (proj2 (proj2 (SH z)))). }
    destruct (IH newf (explored ++ newf) g1) as (g' & E' & SH' & FI' & D'); auto.
    { intros y I. destruct (PAR y I) as (z & _ & J). now apply (wf_parent g1 W1 z). }
    { intros y. rewrite (proj1 (SH y)). apply MX. }
    { intros y I. destruct (PAR y I) as (z & I' & J). pose proof (rank_parent g1 z y W1 J). pose proof (FU z I'). lia. }
    exists g'. split; [exact E'|]. split; [exact (same_shape_trans g g1 g' SH SH')|]. split; auto.
Qed.

(** The search for the tips. *)
Variable P : St -> Prop.
Hypothesis P_succ : forall s a y pr, P s -> m_goal p s = false -> In a (m_apps p s) -> In (y, pr) (m_dist p s a) -> P y.

Definition tip (g : sgraph) (x : St) : Prop := dmem g x = true /\ ~ expanded g x /\ m_goal p x = false.

Lemma look_fold : forall g l q newf,
  let r := fold_left (look g) l (q, newf) in
  (forall y, In y (fst r) <-> In y q \/ In y l /\ sn_solved (nd g y) = false /\ sn_best (nd g y) = None) /\
  (forall y, In y (snd r) <-> In y newf \/ exists x an o, In x l /\ sn_solved (nd g x) = false /\ sn_best (nd g x) = Some an /\
                                              In o (an_out an) /\ snd o = y).
Proof.
  intros g. induction l as [|x l IH]; intros q newf; cbv zeta in *.
  - cbn [fold_left fst snd In]. split; intros y; split; auto; [intros [?|([] & _)]; auto|intros [?|(z & an & o & [] & _)]; auto].
  - assert (L : look g (q, newf) x = if sn_solved (nd g x) then (q, newf)
       else match sn_best (nd g x) with
            | Some an => (q, fold_left pyadd (map snd (an_out an)) newf)
            | None => (heap_push (tip_after g) q x, newf)
            end) by reflexivity.
    cbn [fold_left]. rewrite L. clear L. destruct (sn_solved (nd g x)) eqn:SO.
    + destruct (IH q newf) as [I1 I2].  split; intros y.
      * rewrite I1. cbn [In]. split; [intuition|intros [I|([->|I] & B & C)]; auto; congruence].
      * rewrite I2. split.
        -- intros [I|(z & an & o & I & J)]; auto. right. exists z, an, o. split; auto. now right.
        -- intros [I|(z & an & o & [->|I] & J & K)]; auto; [congruence|]. right. exists z, an, o. auto.
    + destruct (sn_best (nd g x)) as [an|] eqn:B.
      * destruct (IH q (fold_left pyadd (map snd (an_out an)) newf)) as [I1 I2].  split; intros y.
        -- rewrite I1. cbn [In]. split; [intuition|intros [I|([->|I] & B' & C)]; auto; congruence].
        -- rewrite I2, pyadd_fold_In, in_map_iff. split.
           ++ intros [[I|(o & E & O)]|(z & an' & o & I & J)]; auto.
              ** right. exists x, an, o. repeat split; auto. now left.
              ** right. exists z, an', o. split; auto. now right.
           ++ intros [I|(z & an' & o & [->|I] & J & K & O & E)]; auto.
              ** left. right. exists o. split; congruence.
              ** right. exists z, an', o. auto.
      * destruct (IH (heap_push (tip_after g) q x) newf) as [I1 I2]. 
        assert (HP : forall y, In y (heap_push (tip_after g) q x) <-> y = x \/ In y q).
        { intros y. pose proof (heap_push_perm (tip_after g) q x) as HP. split; intros I.
          - apply (Permutation_in _ HP) in I. destruct I; auto.
          - apply (Permutation_in _ (Permutation_sym HP)). destruct I; [left|right]; auto. }
        split; intros y.
        -- rewrite I1, HP. cbn [In]. split; [intros [[->|I]|(I & J)]; auto|intros [I|([->|I] & J)]; auto].
        -- rewrite I2. split.
           ++ intros [I|(z & an & o & I & J)]; auto. right. exists z, an, o. split; auto. now right.
           ++ intros [I|(z & an & o & [->|I] & J & K & O)]; auto; [congruence|]. right. exists z, an, o. auto.
Qed.

Lemma find_tips_ok : forall g R fuel F q, wf g -> dirty g [] ->
  (forall x, In x F -> dmem g x = true /\ P x /\ rk x <= R) ->
  ((forall x, In x F -> rk x < fuel) -> exists q', find_tips fuel cf g F q = Ok q') /\
  forall q', find_tips fuel cf g F q = Ok q' ->
    (forall x, In x q' -> In x q \/ tip g x /\ P x /\ rk x <= R) /\
    (q <> [] -> q' <> []) /\
    ((exists x, In x F /\ sn_solved (nd g x) = false) -> q' <> []).
Proof.
  intros g R. induction fuel as [|fuel IH]; intros F q W D HF.
  - destruct F as [|x F].
    + cbn [find_tips]. split; [eauto|]. intros q' E. injection E as <-. repeat split; auto. intros (x & [] & _).
    + split; [|discriminate]. intros Z. specialize (Z x (or_introl eq_refl)). lia.
  - destruct F as [|x0 F].
    { cbn [find_tips]. split; [eauto|]. intros q' E. injection E as <-. repeat split; auto. intros (x & [] & _). }
    remember (x0 :: F) as F0. rewrite find_tips_S by (subst F0; discriminate). clear HeqF0 x0 F.
    assert (PM : forall y, In y (c_order cf F0) <-> In y F0)
      by (intros y; split; apply Permutation_in; [|apply Permutation_sym]; apply order_perm).
    destruct (look_fold g (c_order cf F0) q []) as [L1 L2].
    destruct (fold_left (look g) (c_order cf F0) (q, [])) as [q1 newf] eqn:LE. cbn [fst snd] in L1, L2.
    assert (UNS : forall x, In x F0 -> sn_solved (nd g x) = false -> sn_best (nd g x) = None -> tip g x).
    { intros x I SO B. destruct (HF x I) as (M & _).
      assert (NE : ~ expanded g x). { intros E. destruct (D x E) as [[]|(an & _ & B' & _)]. congruence. }
      split; auto. split; auto. destruct (wf_leaf g W x M NE) as (_ & L). destruct (m_goal p x); auto.
      destruct L as [L _]. congruence. }
    assert (NX : forall x an, In x F0 -> sn_solved (nd g x) = false -> sn_best (nd g x) = Some an ->
              In an (sn_actions (nd g x)) /\ sn_solved (nd g x) = forallb (fun o => sn_solved (nd g (snd o))) (an_out an)).
    { intros x an I SO B. destruct (HF x I) as (M & _).
      assert (E : expanded g x).
      { unfold expanded. destruct (sn_actions (nd g x)) eqn:AX; [|discriminate]. exfalso.
        assert (NE : ~ expanded g x) by (unfold expanded; rewrite AX; auto).
        destruct (wf_leaf g W x M NE) as (B' & _). congruence. }
      destruct (D x E) as [[]|(an1 & A1 & A2 & _ & _ & A5)]. rewrite B in A2. injection A2 as <-. auto. }
    assert (ST : forall y, In y newf -> exists x, In x F0 /\ rk y < rk x /\ dmem g y = true /\ P y).
    { intros y I. apply L2 in I. destruct I as [[]|(x & an & o & I & SO & B & O & <-)]. apply PM in I.
      destruct (NX x an I SO B) as [IA _]. destruct (HF x I) as (M & PX & RX').
      destruct (wf_act g W x an IA) as [AP OE]. rewrite OE in O. pose proof (rank_out g x an o W IA) as RO. rewrite OE in RO.
      specialize (RO O). apply in_outcomes in O. destruct O as (y & pr & DI & ->). cbn [snd] in *.
      exists x. repeat split; auto.
      - apply (wf_child g W x an (pr, m_cost p x (an_action an) y, y) IA). rewrite OE. apply in_outcomes. eauto.
      - apply (P_succ x (an_action an) y pr); auto. apply (wf_goal g W). intros Z. now rewrite Z in IA. }
    destruct (IH newf q1) as [T1 T2]; auto.
    { intros y I. destruct (ST y I) as (x & Ix & RY & DY & PY). destruct (HF x Ix) as (_ & _ & RX). repeat split; auto. lia. }
    split.
    { intros Z. apply T1. intros y I. destruct (ST y I) as (x & Ix & RY & _). specialize (Z x Ix). lia. }
    intros q' E. destruct (T2 q' E) as (Q1 & Q2 & Q3). split; [|split].
    + intros x I. apply Q1 in I. destruct I as [I|I]; auto. apply L1 in I. destruct I as [I|(I & SO & B)]; auto.
      apply PM in I. destruct (HF x I) as (_ & PX & RX). right. split; auto.
    + intros NE. apply Q2. intros Z. destruct q as [|z q]; [congruence|]. assert (J : In z q1) by (apply L1; left; now left).
      rewrite Z in J. destruct J.
    + intros (x & I & SO). destruct (sn_best (nd g x)) as [an|] eqn:B.
      * destruct (NX x an I SO B) as [IA SE]. rewrite SO in SE. symmetry in SE.
        assert (EX : exists o, In o (an_out an) /\ sn_solved (nd g (snd o)) = false).
        { clear -SE. induction (an_out an) as [|o os IHo]; [discriminate|]. cbn in SE.
          destruct (sn_solved (nd g (snd o))) eqn:SO; [destruct (IHo SE) as (o' & I & J); exists o'; split; auto; now right|].
          exists o. split; auto. now left. }
        destruct EX as (o & O & SO'). apply Q3. exists (snd o). split; auto. apply L2. right. exists x, an, o.
        repeat split; auto. now apply PM.
      * apply Q2. intros Z. assert (J : In x q1) by (apply L1; right; split; [now apply PM|auto]). rewrite Z in J. destruct J.
Qed.

(** One turn of the main loop. *)
Definition blank (g : sgraph) (s : St) : bool := match sn_actions (nd g s) with [] => true | _ => false end.
Lemma blank_false : forall g s, blank g s = false <-> expanded g s.
Proof. intros. unfold blank, expanded. destruct (sn_actions (nd g s)); split; congruence. Qed.

Lemma expand_more : forall g x, wf g -> dmem g x = true -> m_goal p x = false ->
  let g' := expand_tip p g x in
  (m_apps p x <> [] -> expanded g' x) /\ (forall s, expanded g s -> expanded g' s) /\ (forall s, dmem g s = true -> dmem g' s = true) /\
  (forall s, dmem g' s = true -> dmem g s = true \/ rk s < rk x) /\
  (forall s, expanded g' s -> s = x \/ expanded g s) /\
  (forall s, s <> x -> consistent g s -> consistent g' s).
Proof.
  intros g x W M G g'. subst g'. unfold expand_tip.
  pose proof (expand_tip_spec p (m_apps p x) g x M) as X. set (g' := fold_left _ _ _) in *. clearbody g'.
  destruct X as [X1 X2 X3 X4 X5].
  assert (ACX : sn_actions (nd g' x) = sn_actions (nd g x) ++ map (fun a => ANode a (outcomes p x a)) (m_apps p x))
    by (unfold core in X3; now injection X3).
  assert (EX : m_apps p x <> [] -> expanded g' x).
  { intros LV. unfold expanded. rewrite ACX. destruct (sn_actions (nd g x)), (m_apps p x); cbn; congruence. }
  assert (CO : forall s, dmem g s = true -> val g' s = val g s /\ sn_solved (nd g' s) = sn_solved (nd g s)).
  { intros s D. unfold val. destruct (pyeqb_spec s x) as [->|N].
    - unfold core in X3. injection X3 as _ _ -> ->. auto.
    - destruct (core_eqs _ _ (X2 s N D)) as (_ & _ & -> & ->). auto. }
  split; [exact EX|]. split; [|split; [|split; [|split]]].
  - intros s E. destruct (pyeqb_spec s x) as [->|N].
    { unfold expanded in *. rewrite ACX. intros Z. apply app_eq_nil in Z. tauto. }
    unfold expanded. destruct (core_eqs _ _ (X2 s N (expanded_mem g s E))) as (-> & _). auto.
  - intros s D. apply X1. auto.
  - intros s D. apply X1 in D. destruct D as [D|(a & I & J)]; auto. right. apply in_map_iff in J.
    destruct J as ([y pr] & <- & J). cbn [fst]. now apply (acyclic x a y pr).
  - intros s E. destruct (pyeqb_spec s x) as [->|N]; auto. right. unfold expanded in *. destruct (dmem g s) eqn:DS.
    + destruct (core_eqs _ _ (X2 s N DS)) as (EA & _). congruence.
    + exfalso. apply E. apply fresh_actions. apply X4; auto. apply (expanded_mem g' s E).
  - intros s N (an & C1 & C2 & C3 & C4 & C5).
    assert (DS : dmem g s = true) by (apply expanded_mem; intros Z; now rewrite Z in C1).
    assert (CH : forall an' o, In an' (sn_actions (nd g s)) -> In o (an_out an') -> dmem g (snd o) = true)
      by (intros an' o I O; now apply (wf_child g W s an' o)).
    assert (QE : forall an', In an' (sn_actions (nd g s)) -> qsum g' (an_out an') = qsum g (an_out an')).
    { intros an' I. apply qsum_ext. intros o O. apply CO. now apply (CH an' o). }
    destruct (core_eqs _ _ (X2 s N DS)) as (E1 & E2 & E3 & E4). exists an. rewrite E1, E2, E3, E4. repeat split; auto.
    + now rewrite QE.
    + intros an' I. rewrite !QE; auto.
    + rewrite C5. apply forallb_same. intros o O. symmetry. apply CO. now apply (CH an o).
Qed.

Variable U : list St.
Definition cnt (g : sgraph) : nat := length (filter (blank g) U).

Lemma expand_tips_ok : forall root M n q g F, wf g -> fin root g -> dirty g F ->
  (forall x, In x q -> dmem g x = true /\ P x /\ m_goal p x = false /\ rk x <= rk root) ->
  (forall x, dmem g x = true -> rk x <= M) ->
  let r := expand_tips n p g q F in
  wf (fst r) /\ fin root (fst r) /\ dirty (fst r) (snd r) /\
  (forall x, dmem (fst r) x = true -> rk x <= M) /\ (forall x, dmem g x = true -> dmem (fst r) x = true) /\
  cnt (fst r) <= cnt g /\
  (forall x, expanded g x -> expanded (fst r) x) /\
  (forall x, In x F -> In x (snd r)) /\
  (n <> 0 -> q <> [] -> exists x, In x q /\ In x (snd r)) /\
  ((forall x, In x q -> m_apps p x <> []) -> (forall x, In x F -> expanded g x) -> forall x, In x (snd r) -> expanded (fst r) x) /\
  ((forall x, In x q -> m_apps p x <> [] /\ In x U /\ ~ expanded g x) -> n <> 0 -> q <> [] -> cnt (fst r) < cnt g).
Proof.
  intros root M. induction n as [|n IH]; intros q g F W FI D HQ MX r.
  - cbn in r. subst r. cbn [fst snd]. split; [exact W|]. split; [exact FI|]. split; [exact D|]. split; [exact MX|].
    repeat split; auto; try congruence; try lia.
  - cbn [expand_tips] in r. pose proof (heap_pop_perm (tip_after g) q) as HP.
    destruct (heap_pop (tip_after g) q) as [[x q1]|].
    + destruct HP as [HP _]. assert (Ix : In x q) by (apply (Permutation_in _ (Permutation_sym HP)); now left).
      assert (Iq : forall y, In y q1 -> In y q) by (intros y I; apply (Permutation_in _ (Permutation_sym HP)); now right).
      destruct (HQ x Ix) as (Mx & Px & Gx & Rx).
      destruct (expand_more g x W Mx Gx) as (E1 & E2 & E3 & E4 & E5 & E6). set (g1 := expand_tip p g x) in *.
      assert (MONO : forall s, In s U -> blank g1 s = true -> blank g s = true).
      { intros s _ B. destruct (blank g s) eqn:B0; auto. apply blank_false in B0. apply E2 in B0.
        apply blank_false in B0. congruence. }
      assert (CM : cnt g1 <= cnt g) by (apply filter_length_mono; auto).
      destruct (IH q1 g1 (pyadd F x)) as (R1 & R2 & R3 & R4 & R5 & R6 & R7 & R8 & R9 & R10 & R11).
      * now apply expand_wf.
      * now apply expand_fin.
      * intros s ES0. rewrite pyadd_In. destruct (pyeqb_spec s x) as [->|N]; auto. destruct (E5 s ES0) as [?|E0]; [contradiction|].
        destruct (D s E0) as [I|C]; auto.
      * intros y I. destruct (HQ y (Iq y I)) as (A1 & A2 & A3 & A4). auto.
      * intros y I. destruct (E4 y I) as [I0|L]; auto. pose proof (MX x Mx). lia.
      * fold r in R1, R2, R3, R4, R5, R6, R7, R8, R9, R10, R11. split; [exact R1|]. split; [exact R2|]. split; [exact R3|].
        split; [exact R4|]. split; [auto|]. split; [lia|]. split; [auto|].
        split; [intros y I; apply R8; apply pyadd_In; auto|].
        split; [intros _ _; exists x; split; auto; apply R8; apply pyadd_In; auto|]. split.
        -- intros LV EX. apply R10; [auto|]. intros y I. apply pyadd_In in I. destruct I as [->|I]; auto.
        -- intros LV _ _. destruct (LV x Ix) as (L1 & L2 & L3). assert (cnt g1 < cnt g); [|lia].
           apply (filter_length_strict _ _ _ _ x); auto.
           ++ destruct (blank g x) eqn:B0; auto. apply blank_false in B0. contradiction.
           ++ apply blank_false. auto.
    + subst q. subst r. cbn [fst snd]. split; [exact W|]. split; [exact FI|]. split; [exact D|]. split; [exact MX|].
      repeat split; auto; try congruence; try lia.
Qed.

Lemma update_expanded : forall (g : sgraph) x g', update gamma g x = Ok g' -> expanded g x.
Proof.
  intros g x g' E Z. unfold update in E. rewrite Z in E. cbn in E. discriminate.
Qed.
Lemma update_shape : forall (g : sgraph) x g', update gamma g x = Ok g' -> forall s, sn_actions (nd g' s) = sn_actions (nd g s).
Proof.
  intros g x g' E s. unfold update in E. destruct (choose _ _ _ _) as [v [an|]]; [|discriminate]. injection E as <-.
  rewrite nd_dset. destruct (pyeqb_spec s x) as [->|N]; auto.
Qed.
Lemma update_all_expanded : forall order (g : sgraph) newf r,
  foldM (fun gf x => let '(g, newf) := gf in let* g' := update gamma g x in
                       Ok (g', fold_left pyadd (sn_parents (nd g' x)) newf)) (g, newf) order = Ok r ->
  forall x, In x order -> expanded g x.
Proof.
  induction order as [|y order IH]; intros g newf r E x I; [destruct I|]. cbn [foldM] in E.
  destruct (update gamma g y) as [g1|] eqn:U1; [|discriminate]. cbn [bind] in E. destruct I as [<-|I].
  - eapply update_expanded; eauto.
  - pose proof (IH _ _ _ E x I) as X. unfold expanded in *. now rewrite (update_shape _ _ _ U1) in X.
Qed.

(** When the back-propagation ends, its result is right. *)
Lemma propagate_any : forall root fuel F explored g g', wf g -> fin root g -> dirty g F ->
  propagate fuel cf explored F g = Ok g' ->
  same_shape g g' /\ fin root g' /\ dirty g' [] /\ forall x, In x F -> expanded g x.
Proof.
  intros root. induction fuel as [|fuel IH]; intros F explored g g' W FI D E.
  - destruct F as [|x F]; [|discriminate]. cbn in E. injection E as <-. split; [apply same_shape_refl|]. split; auto. split; auto.
    intros x [].
  - destruct F as [|x0 F].
    { cbn in E. injection E as <-. split; [apply same_shape_refl|]. split; auto. split; auto. intros x []. }
    remember (x0 :: F) as F0. rewrite propagate_S in E by (subst F0; discriminate). clear HeqF0 x0 F.
    assert (PM : forall y, In y (c_order cf F0) <-> In y F0)
      by (intros y; split; apply Permutation_in; [|apply Permutation_sym]; apply order_perm).
    destruct (update_all gamma (c_order cf F0) g) as [[g1 newf]|] eqn:UE; [|discriminate]. cbn [bind] in E.
    assert (EX : forall x, In x F0 -> expanded g x).
    { intros x I. unfold update_all in UE. eapply update_all_expanded; eauto. now apply PM. }
    destruct (update_all_ok root (c_order cf F0) g []) as (g2 & newf2 & E2 & SH & FI1 & D1 & IN); auto.
    { intros y I. apply EX. now apply PM. }
    { intros s ES0. destruct (D s ES0) as [I|C]; auto. left. rewrite app_nil_r. now apply PM. }
    unfold update_all in UE. rewrite E2 in UE. injection UE as -> ->.
    destruct (c_detect cf && _); [discriminate|].
    destruct (IH newf (explored ++ newf) g1 g') as (SH' & FI' & D' & _); auto.
    { now apply (same_shape_wf g). }
    split; [exact (same_shape_trans g g1 g' SH SH')|]. auto.
Qed.

Definition sound (root : St) (g : sgraph) : Prop := wf g /\ fin root g /\ dirty g [] /\ dmem g root = true.

Lemma turn_any : forall root M fuel q g g1 F g2 q2, P root -> sound root g -> q <> [] -> c_max_tips cf <> 0 ->
  (forall x, In x q -> dmem g x = true /\ P x /\ m_goal p x = false /\ rk x <= rk root) ->
  (forall x, dmem g x = true -> rk x <= M) ->
  expand_tips (Nat.min (length q) (c_max_tips cf)) p g q [] = (g1, F) ->
  propagate fuel cf F F g1 = Ok g2 -> find_tips fuel cf g2 [root] [] = Ok q2 ->
  sound root g2 /\
  (forall x, In x q2 -> tip g2 x /\ P x /\ rk x <= rk root) /\
  (forall x, dmem g2 x = true -> rk x <= M) /\
  (q2 = [] -> sn_solved (nd g2 root) = true) /\
  (forall x, expanded g x -> expanded g2 x) /\
  (exists x, In x q /\ expanded g2 x) /\
  cnt g2 <= cnt g /\ ((forall x, In x q -> m_apps p x <> [] /\ In x U /\ ~ expanded g x) -> cnt g2 < cnt g).
Proof.
  intros root M fuel q g g1 F g2 q2 PR (W & FI & D & MR) NQ TP HQ MX EXP PRO FT.
  assert (NN : Nat.min (length q) (c_max_tips cf) <> 0) by (destruct q; [congruence|cbn [length]; lia]).
  pose proof (expand_tips_ok root M (Nat.min (length q) (c_max_tips cf)) q g [] W FI D HQ MX) as X.
  cbv zeta in X. rewrite EXP in X. cbn [fst snd] in X.
  destruct X as (X1 & X2 & X3 & X4 & X5 & X6 & X7 & _ & X9 & _ & X11).
  destruct (propagate_any root fuel F F g1 g2 X1 X2 X3 PRO) as (SH & FI2 & D2 & EXF).
  assert (W2 : wf g2) by (now apply (same_shape_wf g1)).
  assert (M2 : forall x, dmem g2 x = dmem g1 x) by (intros; apply SH).
  destruct (find_tips_ok g2 (rk root) fuel [root] []) as [_ FQ]; auto.
  { intros x [<-|[]]. rewrite M2. repeat split; auto. }
  destruct (FQ q2 FT) as (Q1 & _ & Q3).
  assert (CE : cnt g2 = cnt g1).
  { unfold cnt. f_equal. apply filter_ext. intros s. unfold blank. now rewrite (proj1 (proj2 (SH s))). }
  assert (EE : forall s, expanded g2 s <-> expanded g1 s) by (intros; now apply same_shape_expanded).
  split; [split; [exact W2|]; split; [exact FI2|]; split; [exact D2|]; rewrite M2; auto|].
  split; [|split; [|split; [|split; [|split; [|split]]]]].
  - intros x I. destruct (Q1 x I) as [[]|Z]. exact Z.
  - intros x. rewrite M2. apply X4.
  - intros ->. destruct (sn_solved (nd g2 root)) eqn:SO; auto. exfalso. apply Q3; auto. exists root. split; auto. now left.
  - intros x E0. apply EE. auto.
  - destruct (X9 NN NQ) as (x & I & J). exists x. split; auto. apply EE. auto.
  - lia.
  - intros LV. rewrite CE. apply X11; auto.
Qed.

Lemma turn_total : forall root M fuel q g g1 F, P root -> sound root g -> c_detect cf = false ->
  (forall x, In x q -> dmem g x = true /\ P x /\ m_goal p x = false /\ rk x <= rk root) ->
  (forall x, dmem g x = true -> rk x <= M) -> (forall x, In x q -> m_apps p x <> []) ->
  M < fuel ->
  expand_tips (Nat.min (length q) (c_max_tips cf)) p g q [] = (g1, F) ->
  exists g2 q2, propagate fuel cf F F g1 = Ok g2 /\ find_tips fuel cf g2 [root] [] = Ok q2.
Proof.
  intros root M fuel q g g1 F PR (W & FI & D & MR) ND HQ MX LV FU EXP.
  pose proof (expand_tips_ok root M (Nat.min (length q) (c_max_tips cf)) q g [] W FI D HQ MX) as X.
  cbv zeta in X. rewrite EXP in X. cbn [fst snd] in X.
  destruct X as (X1 & X2 & X3 & X4 & X5 & X6 & X7 & _ & _ & X10 & _).
  specialize (X10 LV (fun x i => match i with end)).
  destruct (propagate_ok ND root M fuel F F g1) as (g2 & E & SH & FI2 & D2); auto.
  { intros x I. lia. }
  assert (W2 : wf g2) by (now apply (same_shape_wf g1)).
  destruct (find_tips_ok g2 (rk root) fuel [root] []) as [FT _]; auto.
  { intros x [<-|[]]. rewrite (proj1 (SH root)). repeat split; auto. }
  destruct FT as (q2 & E2). { intros x [<-|[]]. pose proof (MX root MR). lia. }
  eauto.
Qed.

Lemma tip_ready : forall root g q, (forall x, In x q -> tip g x /\ P x /\ rk x <= rk root) ->
  forall x, In x q -> dmem g x = true /\ P x /\ m_goal p x = false /\ rk x <= rk root.
Proof. intros root g q H x I. destruct (H x I) as ((A1 & A2 & A3) & A4 & A5). auto. Qed.

Lemma loop_any : forall root M fuel inner q g g', P root -> c_max_tips cf <> 0 -> sound root g ->
  (q = [] -> sn_solved (nd g root) = true) ->
  (forall x, In x q -> dmem g x = true /\ P x /\ m_goal p x = false /\ rk x <= rk root) ->
  (forall x, dmem g x = true -> rk x <= M) ->
  ao_loop fuel inner p cf root g q = Ok g' ->
  sound root g' /\ sn_solved (nd g' root) = true /\ (forall x, expanded g x -> expanded g' x).
Proof.
  intros root M. induction fuel as [|fuel IH]; intros inner q g g' PR TP SD SR HQ MX E.
  - destruct q; [|discriminate]. cbn in E. injection E as <-. auto.
  - destruct q as [|x0 q0]; [cbn in E; injection E as <-; auto|].
    remember (x0 :: q0) as q. assert (NQ : q <> []) by (subst q; discriminate). clear Heqq x0 q0.
    rewrite ao_loop_S in E by auto.
    destruct (expand_tips _ p g q []) as [g1 F] eqn:E1.
    apply bind_ok in E. destruct E as (g2 & E2 & E). apply bind_ok in E. destruct E as (q2 & E3 & E).
    destruct (turn_any root M inner q g g1 F g2 q2) as (T1 & T2 & T3 & T4 & T5 & T6 & T7 & T8); auto.
    destruct (IH inner q2 g2 g') as (R1 & R2 & R3); auto.
    eapply tip_ready; eauto.
Qed.

Lemma loop_total : forall root M fuel inner q g, P root -> c_max_tips cf <> 0 -> c_detect cf = false ->
  (forall x, P x -> m_goal p x = false -> m_apps p x <> []) -> (forall x, P x -> In x U) ->
  sound root g -> (forall x, In x q -> tip g x /\ P x /\ rk x <= rk root) ->
  (forall x, dmem g x = true -> rk x <= M) -> M < inner -> cnt g < fuel ->
  exists g', ao_loop fuel inner p cf root g q = Ok g'.
Proof.
  intros root M. induction fuel as [|fuel IH]; intros inner q g PR TP ND LV PU SD HQ MX FU C; [lia|].
  destruct q as [|x0 q0]; [exists g; reflexivity|].
  remember (x0 :: q0) as q. assert (NQ : q <> []) by (subst q; discriminate). clear Heqq x0 q0.
  rewrite ao_loop_S by auto. destruct (expand_tips _ p g q []) as [g1 F] eqn:E1.
  assert (LQ : forall x, In x q -> m_apps p x <> []).
  { intros x I. destruct (HQ x I) as ((_ & _ & G) & PX & _). auto. }
  destruct (turn_total root M inner q g g1 F) as (g2 & q2 & E2 & E3); auto.
  { eapply tip_ready; eauto. }
  rewrite E2. cbn [bind]. rewrite E3. cbn [bind].
  destruct (turn_any root M inner q g g1 F g2 q2) as (T1 & T2 & T3 & T4 & T5 & T6 & T7 & T8); auto.
  { eapply tip_ready; eauto. }
  apply IH; auto. assert (cnt g2 < cnt g); [|lia]. apply T8. intros x I. destruct (HQ x I) as ((_ & A2 & _) & PX & _). auto.
Qed.
End Ao.
