(** Proofs about the ILAO* solver: what every step of a search preserves. *)
From Coq Require Import List Bool Arith QArith Qabs Lia Lqa Permutation.
From Verif Require Import Py PyList AoModel AoSpec AoProofs IlaoModel IlaoSpec.
Import ListNotations.
Open Scope nat_scope.

(** Costs [B] that the values never exceed. *)
Definition bounding {St A} (p : mdp St A) (gamma : Q) (B : St -> Q -> Prop) : Prop := forall x v, B x v ->
  if m_goal p x then (0 <= v)%Q
  else (m_heur p x <= v)%Q /\ exists a ws, In a (m_apps p x) /\ Forall2 (fun o w => B (fst o) w) (m_dist p x a) ws /\ (expected p gamma x a (m_dist p x a) ws <= v)%Q.

Section Ilao.
Context {St A : Type} {ES : PyEq St}.
Variable p : mdp St A.
Variable cf : iconfig St.
Notation gamma := (ic_discount cf).
Variable B : St -> Q -> Prop.
Hypothesis HB : forall x v, B x v -> (0 <= gamma)%Q /\ weights p.
Hypothesis BD : bounding p gamma B.
Implicit Types g : igraph St A.

Lemma inn_dset : forall g s n t, inn (dset g s n) t = if pyeqb s t then n else inn g t.
Proof. intros. unfold inn. rewrite dget_dset. now destruct (pyeqb s t). Qed.
Lemma dmem_dset_i : forall g s n t, dmem (dset g s n) t = pyeqb s t || dmem g t.
Proof. intros. unfold dmem. rewrite dget_dset. now destruct (pyeqb s t). Qed.
Lemma inn_some : forall g s n, dget g s = Some n -> inn g s = n.
Proof. intros g s n E. unfold inn. now rewrite E. Qed.
Lemma dmem_some : forall g s, dmem g s = true -> dget g s = Some (inn g s).
Proof. intros g s M. unfold dmem in M. unfold inn. destruct (dget g s); [auto|discriminate]. Qed.
Lemma some_dmem : forall g s n, dget g s = Some n -> dmem g s = true.
Proof. intros g s n E. unfold dmem. now rewrite E. Qed.

Definition full (x : St) : list (anode St A) := map (fun a => ANode a (outcomes p x a)) (m_apps p x).

Definition bounded (x : St) (v : option Q) : Prop := forall w, B x w -> exists u, v = Some u /\ (u <= w)%Q.
Definition positive (n : inode St A) : Prop := (weights p -> (0 <= i_mfpt n)%Q) /\ (forall r, i_residual n = Fin r -> (0 <= r)%Q).

(** What holds of the node [n] of [x]; [D] is the set of known states, [E] states that may be about to be expanded. *)
Record okn (E : St -> Prop) (D : St -> bool) (x : St) (n : inode St A) : Prop := {
  k_goal : m_goal p x = true -> i_goal n = true /\ i_solved n = true /\ i_value n = Some 0%Q /\ i_actions n = [];
  k_plain : m_goal p x = false -> i_goal n = false;
  k_acts : i_actions n = [] \/ i_actions n = full x;
  k_out : forall an o, In an (i_actions n) -> In o (an_out an) -> D (snd o) = true;
  k_best : forall an, i_best n = Some an -> In an (i_actions n);
  k_solved : m_goal p x = false -> i_solved n = true -> i_best n <> None;
  k_tip : m_goal p x = false -> i_tip n = false -> E x \/ i_actions n = full x;
  k_below : bounded x (i_value n);
  k_pos : positive n }.

Definition inv (E : St -> Prop) (g : igraph St A) : Prop := forall x n, dget g x = Some n -> okn E (dmem g) x n.
Definition none (x : St) : Prop := False.

Lemma okn_mono : forall E D D' x n, (forall y, D y = true -> D' y = true) -> okn E D x n -> okn E D' x n.
Proof. intros E D D' x n H [a b c d e f h i j]. split; auto. intros an o I J. apply H. eauto. Qed.
Lemma okn_weaken : forall (E E' : St -> Prop) D x n, (forall y, E y -> E' y) -> okn E D x n -> okn E' D x n.
Proof. intros E E' D x n H [a b c d e f h i j]. split; auto. intros G T. destruct (h G T); auto. Qed.
Lemma inv_weaken : forall (E E' : St -> Prop) g, (forall y, E y -> E' y) -> inv E g -> inv E' g.
Proof. intros E E' g H I x n G. eapply okn_weaken; eauto. Qed.
Lemma inv_tighten : forall s g, inv (eq s) g -> (m_goal p s = false -> i_actions (inn g s) = full s) -> inv none g.
Proof.
  intros s g I F x n G. specialize (I x n G). destruct I as [a b c d e f h i j]. split; auto.
  intros G0 T. destruct (h G0 T) as [<-|]; auto. right. rewrite (inn_some _ _ _ G) in F. auto.
Qed.

Lemma inv_set : forall E g x n, inv E g -> okn E (dmem g) x n -> inv E (dset g x n).
Proof.
  intros E g x n I K y m G. rewrite dget_dset in G. assert (MO : forall z, dmem g z = true -> dmem (dset g x n) z = true).
  { intros z M. rewrite dmem_dset_i, M. apply orb_true_r. }
  destruct (pyeqb_spec x y) as [EQ|N].
  - subst y. injection G as <-. eapply okn_mono; eauto.
  - eapply okn_mono; eauto.
Qed.
Lemma inv_at : forall E g x, inv E g -> dmem g x = true -> okn E (dmem g) x (inn g x).
Proof. intros E g x I M. apply I. now apply dmem_some. Qed.
Lemma inv_nil : inv none [].
Proof. intros x n G. discriminate. Qed.

Definition fresh (x : St) : inode St A :=
  if m_goal p x then INode [] None (Some 0%Q) 0%Q Inf true true true else INode [] None (Some (m_heur p x)) 0%Q Inf false true false.
Lemma fresh_ok : forall E D x, okn E D x (fresh x).
Proof.
  intros E D x. unfold fresh. destruct (m_goal p x) eqn:G; split; cbn; auto; try congruence; try (intros; contradiction).
  - intros w BW. pose proof (BD x w BW) as H. rewrite G in H. eauto.
  - split; cbn; [intros; lra|discriminate].
  - intros w BW. pose proof (BD x w BW) as H. rewrite G in H. destruct H as [H _]. eauto.
  - split; cbn; [intros; lra|discriminate].
Qed.

(** *** Expansion *)
Lemma reach_fold_i : forall os g, let g1 := fold_left (reach_inode p) os g in
  (forall y n, dget g y = Some n -> dget g1 y = Some n) /\
  (forall y n, dget g1 y = Some n -> dget g y = Some n \/ n = fresh y) /\
  (forall o, In o os -> dmem g1 (fst o) = true).
Proof.
  induction os as [|o os IH]; intros g; cbn [fold_left].
  - cbn. split; [auto|]. split; [auto|]. intros o [].
  - destruct (IH (reach_inode p g o)) as (H1 & H2 & H3). cbn in *.
    assert (K : (forall y n, dget g y = Some n -> dget (reach_inode p g o) y = Some n) /\
                (forall y n, dget (reach_inode p g o) y = Some n -> dget g y = Some n \/ n = fresh y) /\ dmem (reach_inode p g o) (fst o) = true).
    { unfold reach_inode. destruct (dmem g (fst o)) eqn:M; [auto|]. split; [|split].
      - intros y n G. rewrite dget_dset. destruct (pyeqb_spec (fst o) y) as [EQ|N]; [|auto]. subst y. unfold dmem in M. rewrite G in M. discriminate.
      - intros y n G. rewrite dget_dset in G. destruct (pyeqb_spec (fst o) y) as [EQ|N]; [|auto]. subst y. injection G as <-. now right.
      - rewrite dmem_dset_i, pyeqb_refl. reflexivity. }
    destruct K as (K1 & K2 & K3). split; [auto|]. split.
    + intros y n G. destruct (H2 y n G) as [G'|]; auto.
    + intros o' [<-|I]; auto. apply dmem_some in K3. apply H1 in K3. eapply some_dmem; eauto.
Qed.

Definition with_actions (n : inode St A) (l : list (anode St A)) : inode St A :=
  INode l (i_best n) (i_value n) (i_mfpt n) (i_residual n) (i_goal n) (i_tip n) (i_solved n).

Lemma expand_fold_i : forall x l g, dmem g x = true -> let g1 := fold_left (expand_iaction p x) l g in
  (forall y n, y <> x -> dget g y = Some n -> dget g1 y = Some n) /\
  (forall y n, y <> x -> dget g1 y = Some n -> dget g y = Some n \/ n = fresh y) /\
  dmem g1 x = true /\ inn g1 x = with_actions (inn g x) (i_actions (inn g x) ++ map (fun a => ANode a (outcomes p x a)) l) /\
  (forall a o, In a l -> In o (outcomes p x a) -> dmem g1 (snd o) = true).
Proof.
  intros x. induction l as [|a l IH]; intros g M; cbn [fold_left].
  - cbn. split; [auto|]. split; [auto|]. split; [auto|]. split; [|intros a o []]. rewrite app_nil_r. unfold with_actions. now destruct (inn g x).
  - destruct (reach_fold_i (m_dist p x a) g) as (R1 & R2 & R3). cbn in R1, R2, R3.
    set (g0 := fold_left (reach_inode p) (m_dist p x a) g) in *.
    assert (E0 : expand_iaction p x g a = dset g0 x (with_actions (inn g0 x) (i_actions (inn g0 x) ++ [ANode a (outcomes p x a)]))) by reflexivity.
    set (g2 := expand_iaction p x g a) in *.
    assert (M0 : inn g0 x = inn g x) by (apply inn_some, R1, dmem_some; auto).
    assert (M2 : dmem g2 x = true) by (rewrite E0, dmem_dset_i, pyeqb_refl; auto).
    destruct (IH g2 M2) as (H1 & H2 & H3 & H4 & H5). cbn in *.
    assert (S2 : forall y n, y <> x -> dget g2 y = Some n <-> dget g0 y = Some n).
    { intros y n N. rewrite E0, dget_dset. destruct (pyeqb_spec x y); [congruence|tauto]. }
    split; [|split; [|split; [auto|split]]].
    + intros y n N G. apply H1; auto. apply S2; auto.
    + intros y n N G. destruct (H2 y n N G) as [G'|]; auto. apply S2 in G'; auto.
    + rewrite H4. rewrite E0, !inn_dset, pyeqb_refl, M0. unfold with_actions; cbn. now rewrite <- app_assoc.
    + intros b o [<-|I] J; [|eauto]. apply in_outcomes in J. destruct J as (y & pr & J & ->). cbn.
      destruct (pyeqb_spec x y) as [EQ|N]; [subst y; auto|]. pose proof (R3 (y, pr) J) as D. cbn in D. apply dmem_some in D.
      apply S2 in D; auto. apply H1 in D; auto. eapply some_dmem; eauto.
Qed.

Lemma iexpand_spec : forall E g x, inv E g -> dmem g x = true -> m_goal p x = false -> i_actions (inn g x) = [] ->
  inv E (iexpand p g x) /\ inn (iexpand p g x) x = with_actions (inn g x) (full x) /\
  (forall y, dmem g y = true -> dmem (iexpand p g x) y = true) /\
  (forall y, dmem g y = true -> y <> x -> inn (iexpand p g x) y = inn g y).
Proof.
  intros E g x I M G AE. destruct (expand_fold_i x (m_apps p x) g M) as (H1 & H2 & H3 & H4 & H5). cbn in *. unfold iexpand.
  set (g1 := fold_left (expand_iaction p x) (m_apps p x) g) in *. rewrite AE in H4. cbn in H4. fold (full x) in H4.
  assert (MO : forall y, dmem g y = true -> dmem g1 y = true).
  { intros y D. destruct (pyeqb_spec x y) as [EQ|N]; [subst y; auto|]. apply dmem_some in D. eapply some_dmem. apply H1; eauto. }
  split; [|split; [auto|split; [auto|]]].
  - intros y n D. destruct (pyeqb_spec x y) as [EQ|N].
    + subst y. apply inn_some in D. rewrite <- D, H4. pose proof (inv_at E g x I M) as [a b c d e f h i j]. split; cbn; auto.
      * intros C. congruence.
      * intros an o J K. apply in_map_iff in J. destruct J as (a' & <- & J). eauto.
      * intros an BE. rewrite (AE) in e. exfalso. eapply (e an); eauto.
    + destruct (H2 y n (fun C => N (eq_sym C)) D) as [D0| ->]; [|apply fresh_ok]. eapply okn_mono; [|apply I; eauto]. auto.
  - intros y D N. apply inn_some. apply H1; auto. now apply dmem_some.
Qed.

(** *** The update of a node *)
Definition ready (g : igraph St A) (x : St) : Prop :=
  dmem g x = true /\ m_goal p x = false /\ i_solved (inn g x) = false /\ i_actions (inn g x) = full x.

Lemma ichoose_in : forall g l v an, ichoose gamma g l = (v, Some an) -> In an l /\ v = iq gamma g an /\ v <> None.
Proof.
  intros g l. unfold ichoose.
  assert (K : forall l b, match fold_left (fun b an => let v := iq gamma g an in if vlt v (fst b) then (v, Some an) else b) l b with
              (v, Some an) => (v, Some an) = b \/ (In an l /\ v = iq gamma g an /\ v <> None) | (v, None) => (v, None) = b end).
  { induction l0 as [|a l0 IH]; intros b; cbn [fold_left]; [destruct b as [v [an|]]; auto|].
    specialize (IH (let v := iq gamma g a in if vlt v (fst b) then (v, Some a) else b)). cbn zeta in IH |- *.
    destruct (fold_left _ l0 _) as [v [an|]] eqn:F.
    - destruct IH as [E|(I & E)]; [|right; split; [now right|auto]]. destruct (vlt (iq gamma g a) (fst b)) eqn:V; [|auto]. injection E as -> ->.
      right. split; [now left|]. split; auto. unfold vlt in V. destruct (iq gamma g a); congruence.
    - destruct (vlt (iq gamma g a) (fst b)); auto; discriminate. }
  intros v an E. specialize (K l (None, None)). cbn zeta in K. rewrite E in K. destruct K as [K|K]; [discriminate|auto].
Qed.
Lemma ichoose_none : forall g l v, ichoose gamma g l = (v, None) -> v = None.
Proof.
  intros g l. unfold ichoose.
  assert (K : forall l b, (snd b = None -> fst b = None) -> let r := fold_left (fun b an => let v := iq gamma g an in if vlt v (fst b) then (v, Some an) else b) l b in
     snd r = None -> fst r = None).
  { induction l0 as [|a l0 IH]; intros b H; cbn [fold_left]; [exact H|]. apply IH. cbn zeta. destruct (vlt (iq gamma g a) (fst b)); [discriminate|auto]. }
  intros v E. specialize (K l (None, None) (fun _ => eq_refl)). cbn zeta in K. rewrite E in K. auto.
Qed.
Lemma ichoose_min : forall g l an w, In an l -> iq gamma g an = Some w -> exists v, fst (ichoose gamma g l) = Some v /\ (v <= w)%Q.
Proof.
  intros g l. unfold ichoose.
  set (F := fun (b : option Q * option (anode St A)) an => let v := iq gamma g an in if vlt v (fst b) then (v, Some an) else b).
  assert (MO : forall l b v, fst b = Some v -> exists v', fst (fold_left F l b) = Some v' /\ (v' <= v)%Q).
  { induction l0 as [|a l0 IH]; intros b v E; cbn [fold_left]; [exists v; split; [auto|apply Qle_refl]|].
    unfold F at 2. cbn zeta. destruct (vlt (iq gamma g a) (fst b)) eqn:V.
    - unfold vlt in V. rewrite E in V. destruct (iq gamma g a) as [u|] eqn:U; [|discriminate]. apply negb_true_iff in V.
      destruct (IH (Some u, Some a) u eq_refl) as (v' & E' & L). exists v'. split; [exact E'|]. eapply Qle_trans; [exact L|].
      apply Qlt_le_weak, Qnot_le_lt. intros C. apply Qle_bool_iff in C. congruence.
    - auto. }
  intros an w. generalize (@None Q, @None (anode St A)). induction l as [|a l IH]; intros b I E; [destruct I|]. cbn [fold_left].
  destruct I as [->|I]; [|apply IH; auto].
  assert (exists v, fst (F b an) = Some v /\ (v <= w)%Q) as (v & EV & LV).
  { unfold F. cbn zeta. rewrite E. destruct (fst b) as [u|] eqn:U; cbn [vlt].
    - destruct (Qle_bool u w) eqn:Q0; cbn [negb].
      + exists u. rewrite U. split; auto. now apply Qle_bool_iff.
      + exists w. split; [auto|apply Qle_refl].
    - exists w. split; [auto|apply Qle_refl]. }
  destruct (MO l _ v EV) as (v' & E' & L). exists v'. split; [auto|]. lra.
Qed.

Lemma iq_fold_none : forall g os, fold_left (fun acc (o : Q * Q * St) => let '(pr, c, y) := o in
    match acc, i_value (inn g y) with Some u, Some v => Some (u + pr * (c + gamma * v))%Q | _, _ => None end) os None = None.
Proof. intros g. induction os as [|[[pr c] y] os IH]; cbn [fold_left]; auto. Qed.
(** The value of an action when the values of its outcomes are known. *)
Lemma iq_expected : forall g x a ws, Forall2 (fun o w => i_value (inn g (fst o)) = Some w) (m_dist p x a) ws ->
  exists v, iq gamma g (ANode a (outcomes p x a)) = Some v /\ (v == expected p gamma x a (m_dist p x a) ws)%Q.
Proof.
  intros g x a ws F. unfold iq, outcomes. cbn [an_out]. generalize (m_dist p x a) F. clear F. intros os F.
  assert (K : forall u, exists v, fold_left (fun acc (o : Q * Q * St) => let '(pr, c, y) := o in
    match acc, i_value (inn g y) with Some u, Some v => Some (u + pr * (c + gamma * v))%Q | _, _ => None end)
    (map (fun o => (snd o, m_cost p x a (fst o), fst o)) os) (Some u) = Some v /\ (v == u + expected p gamma x a os ws)%Q).
  { induction F as [|[y pr] w os ws E F IH]; intros u; cbn [map fold_left fst snd expected] in *.
    - exists u. split; [auto|ring].
    - rewrite E. destruct (IH (u + pr * (m_cost p x a y + gamma * w))%Q) as (v & E' & L). exists v. split; [auto|]. rewrite L. ring. }
  destruct (K 0%Q) as (v & E & L). exists v. split; [auto|]. rewrite L. ring.
Qed.
Lemma iq_values : forall g x a v, iq gamma g (ANode a (outcomes p x a)) = Some v ->
  exists ws, Forall2 (fun o w => i_value (inn g (fst o)) = Some w) (m_dist p x a) ws.
Proof.
  intros g x a v. unfold iq, outcomes. cbn [an_out]. generalize (m_dist p x a). intros os. generalize 0%Q. revert v.
  induction os as [|[y pr] os IH]; intros v u; cbn [map fold_left fst snd].
  - intros _. exists []. constructor.
  - destruct (i_value (inn g y)) as [w|] eqn:E; [|rewrite iq_fold_none; discriminate]. intros H. apply IH in H. destruct H as [ws F].
    exists (w :: ws). constructor; auto.
Qed.

Lemma expected_le : forall x a os ws ws', (0 <= gamma)%Q -> (forall y pr, In (y, pr) os -> 0 <= pr)%Q ->
  Forall2 Qle ws ws' -> (expected p gamma x a os ws <= expected p gamma x a os ws')%Q.
Proof.
  intros x a os ws ws' GP WT F. revert os WT. induction F as [|w w' ws ws' L F IH]; intros os WT; destruct os as [|[y pr] os]; cbn [expected]; try apply Qle_refl.
  assert (0 <= pr)%Q by (apply (WT y pr); now left). assert (R : (expected p gamma x a os ws <= expected p gamma x a os ws')%Q) by (apply IH; intros; eapply WT; right; eauto).
  assert (K : (gamma * w <= gamma * w')%Q) by (rewrite (Qmult_comm gamma w), (Qmult_comm gamma w'); now apply Qmult_le_compat_r).
  assert (K' : (pr * (m_cost p x a y + gamma * w) <= pr * (m_cost p x a y + gamma * w'))%Q).
  { rewrite (Qmult_comm pr), (Qmult_comm pr). apply Qmult_le_compat_r; [lra|auto]. }
  lra.
Qed.

Lemma full_out : forall E g x a y pr, inv E g -> dmem g x = true -> i_actions (inn g x) = full x -> In a (m_apps p x) -> In (y, pr) (m_dist p x a) ->
  dmem g y = true.
Proof.
  intros E g x a y pr I M F IA J. pose proof (inv_at E g x I M) as K. apply (k_out _ _ _ _ K (ANode a (outcomes p x a)) (pr, m_cost p x a y, y)).
  - rewrite F. apply in_map_iff. eauto.
  - cbn. apply in_outcomes. eauto.
Qed.

Lemma choose_below : forall E g x, inv E g -> dmem g x = true -> m_goal p x = false -> i_actions (inn g x) = full x ->
  bounded x (fst (ichoose gamma g (full x))).
Proof.
  intros E g x I M G F w BW. destruct (HB x w BW) as [GP WT]. pose proof (BD x w BW) as K. rewrite G in K. destruct K as (_ & a & ws & IA & FW & L).
  assert (V : exists us, Forall2 (fun o u => i_value (inn g (fst o)) = Some u) (m_dist p x a) us /\ Forall2 Qle us ws).
  { assert (DM : forall y pr, In (y, pr) (m_dist p x a) -> dmem g y = true) by (intros; eapply full_out; eauto).
    clear L. induction FW as [|[y pr] w0 os ws BY FW IH].
    - exists []. split; constructor.
    - destruct IH as (us & H1 & H2). { intros; eapply DM; right; eauto. }
      pose proof (inv_at E g y I (DM y pr (or_introl eq_refl))) as KY. destruct (k_below _ _ _ _ KY w0 BY) as (u & EU & LU).
      exists (u :: us). split; constructor; auto. }
  destruct V as (us & V1 & V2). destruct (iq_expected g x a us V1) as (v & EV & QV).
  destruct (ichoose_min g (full x) (ANode a (outcomes p x a)) v) as (v' & E' & L').
  { apply in_map_iff. eauto. } { auto. }
  exists v'. split; [auto|]. eapply Qle_trans; [exact L'|]. rewrite QV. eapply Qle_trans; [|exact L]. apply expected_le; auto. intros; eapply WT; eauto.
Qed.

Lemma iupdate_eq : forall g x, iupdate gamma g x = dset g x (INode (i_actions (inn g x)) (snd (ichoose gamma g (i_actions (inn g x))))
   (fst (ichoose gamma g (i_actions (inn g x)))) (i_mfpt (inn g x)) (gap_of (fst (ichoose gamma g (i_actions (inn g x)))) (i_value (inn g x)))
   (i_goal (inn g x)) (i_tip (inn g x)) (i_solved (inn g x))).
Proof. intros. unfold iupdate. now destruct (ichoose gamma g (i_actions (inn g x))). Qed.

Lemma gap_nonneg : forall v w r, gap_of v w = Fin r -> (0 <= r)%Q.
Proof. intros [v|] [w|] r E; cbn [gap_of] in E; try discriminate. assert (X : r = Qabs (v - w)) by congruence. rewrite X. apply Qabs_nonneg. Qed.

Lemma iupdate_inv : forall E g x, inv E g -> ready g x -> inv E (iupdate gamma g x).
Proof.
  intros E g x I (M & G & SO & F). rewrite iupdate_eq. apply inv_set; auto. pose proof (inv_at E g x I M) as [a b c d e f h i j].
  rewrite F in *. destruct (ichoose gamma g (full x)) as [v bo] eqn:C. split; cbn; auto; try congruence.
  - intros an ->. apply ichoose_in in C. tauto.
  - pose proof (choose_below E g x I M G F) as K. rewrite C in K. exact K.
  - split; cbn; [apply j|]. intros r. apply gap_nonneg.
Qed.
Lemma iupdate_other : forall g x y, y <> x -> inn (iupdate gamma g x) y = inn g y.
Proof. intros g x y N. rewrite iupdate_eq, inn_dset. destruct (pyeqb_spec x y); [congruence|auto]. Qed.
Lemma iupdate_mem : forall g x y, dmem g y = true -> dmem (iupdate gamma g x) y = true.
Proof. intros g x y M. rewrite iupdate_eq, dmem_dset_i, M. apply orb_true_r. Qed.

(** What a search leaves as it is. *)
Definition keeps (g g' : igraph St A) : Prop := forall y, dmem g y = true ->
  dmem g' y = true /\ i_solved (inn g' y) = i_solved (inn g y) /\ (i_actions (inn g y) = full y -> i_actions (inn g' y) = full y).
Lemma keeps_refl : forall g, keeps g g.
Proof. intros g y M. auto. Qed.
Lemma keeps_trans : forall g1 g2 g3, keeps g1 g2 -> keeps g2 g3 -> keeps g1 g3.
Proof. intros g1 g2 g3 H1 H2 y M. destruct (H1 y M) as (M2 & S2 & F2). destruct (H2 y M2) as (M3 & S3 & F3). split; [auto|]. split; [congruence|auto]. Qed.
Lemma iupdate_keeps : forall g x, dmem g x = true -> keeps g (iupdate gamma g x).
Proof.
  intros g x M y MY. split; [now apply iupdate_mem|]. rewrite iupdate_eq, !inn_dset. destruct (pyeqb_spec x y) as [EQ|N]; [subst y; cbn; auto|auto].
Qed.
Lemma set_tip_keeps : forall b g x, keeps g (set_tip b g x).
Proof.
  intros b g x y MY. unfold set_tip. rewrite dmem_dset_i, MY, orb_true_r. split; [auto|]. rewrite !inn_dset. destruct (pyeqb_spec x y) as [EQ|N]; [subst y; cbn; auto|auto].
Qed.
Lemma set_tip_inv : forall E b g x, inv E g -> dmem g x = true -> (m_goal p x = false -> b = false -> E x \/ i_actions (inn g x) = full x) -> inv E (set_tip b g x).
Proof.
  intros E b g x I M H. unfold set_tip. apply inv_set; auto. pose proof (inv_at E g x I M) as [a0 b0 c d e f h i j]. split; cbn; auto.
Qed.
Lemma acts_full : forall E g x, inv E g -> i_actions (inn g x) <> [] -> i_actions (inn g x) = full x.
Proof.
  intros E g x I N. destruct (dmem g x) eqn:M.
  - destruct (k_acts _ _ _ _ (inv_at E g x I M)); [contradiction|auto].
  - exfalso. apply N. unfold inn. unfold dmem in M. destruct (dget g x); [discriminate|reflexivity].
Qed.
Lemma best_full : forall E g x an, inv E g -> i_best (inn g x) = Some an -> dmem g x = true /\ i_actions (inn g x) = full x /\ In an (full x).
Proof.
  intros E g x an I BE. assert (M : dmem g x = true).
  { unfold inn in BE. unfold dmem. destruct (dget g x); [auto|discriminate]. }
  pose proof (k_best _ _ _ _ (inv_at E g x I M) an BE) as K. assert (F : i_actions (inn g x) = full x).
  { apply (acts_full E); auto. intros C. rewrite C in K. destruct K. }
  split; [auto|]. split; [auto|]. now rewrite <- F.
Qed.
Lemma not_goal : forall E g x, inv E g -> dmem g x = true -> i_solved (inn g x) = false -> m_goal p x = false.
Proof. intros E g x I M SO. destruct (m_goal p x) eqn:G; [|auto]. destruct (k_goal _ _ _ _ (inv_at E g x I M) G) as (_ & C & _). congruence. Qed.

(** *** Depth-first search *)
Lemma push_in : forall vis os st y, In y (fold_left (fun st (o : Q * Q * St) => if pymem (snd o) vis then st else snd o :: st) os st) ->
  In y st \/ exists o, In o os /\ snd o = y.
Proof.
  intros vis. induction os as [|o os IH]; intros st y H; cbn [fold_left] in H; [auto|]. apply IH in H. destruct H as [H|(o' & I & E)]; [|right; exists o'; split; [now right|auto]].
  destruct (pymem (snd o) vis); [auto|]. destruct H as [<-|H]; [right; exists o; split; [now left|auto]|auto].
Qed.

Lemma dfs_loop_spec : forall s fuel g vis op g', inv (eq s) g -> dmem g s = true -> (forall y, In y op -> dmem g y = true) ->
  dfs_loop fuel p gamma s g vis op = Ok g' -> inv (eq s) g' /\ keeps g g'.
Proof.
  intros s. induction fuel as [|fuel IH]; intros g vis op g' I MS OP E.
  - destruct op as [|cs rest]; [|discriminate]. injection E as <-. split; [auto|apply keeps_refl].
  - destruct op as [|cs rest]; [injection E as <-; split; [auto|apply keeps_refl]|]. cbn [dfs_loop] in E.
    assert (MC : dmem g cs = true) by (apply OP; now left). assert (OR : forall y, In y rest -> dmem g y = true) by (intros; apply OP; now right).
    destruct (i_solved (inn g cs)) eqn:SO; [eapply IH; eauto|]. pose proof (not_goal _ g cs I MC SO) as G.
    destruct (i_goal (inn g cs)) eqn:GO; [rewrite (k_plain _ _ _ _ (inv_at _ g cs I MC) G) in GO; discriminate|].
    destruct (i_actions (inn g cs)) as [|an0 l0] eqn:AC.
    + set (g0 := set_tip true g s) in *.
      assert (I0 : inv (eq s) g0) by (apply set_tip_inv; auto; discriminate). pose proof (set_tip_keeps true g s) as K0. fold g0 in K0.
      destruct (K0 cs MC) as (M0 & S0 & _). 
      assert (A0 : i_actions (inn g0 cs) = []).
      { unfold g0, set_tip. rewrite inn_dset. destruct (pyeqb_spec s cs) as [EQ|N]; [cbn; congruence|auto]. }
      destruct (iexpand_spec _ g0 cs I0 M0 G A0) as (I1 & N1 & D1 & Y1). set (g1 := iexpand p g0 cs) in *.
      assert (K1 : keeps g0 g1).
      { intros y M. split; [auto|]. destruct (pyeqb_spec cs y) as [EQ|N]; [subst y; rewrite N1; cbn; auto|rewrite Y1; auto]. }
      assert (R1 : ready g1 cs). { split; [auto|]. split; [auto|]. rewrite N1. cbn. split; [congruence|auto]. }
      pose proof (iupdate_inv _ g1 cs I1 R1) as I2. pose proof (iupdate_keeps g1 cs (proj1 R1)) as K2.
      pose proof (keeps_trans _ _ _ K0 (keeps_trans _ _ _ K1 K2)) as K.
      apply IH in E; [|auto|apply K; auto|intros; apply K; auto]. destruct E as [E1 E2]. split; [auto|]. eapply keeps_trans; eauto.
    + assert (F : i_actions (inn g cs) = full cs) by (apply (acts_full (eq s)); auto; rewrite AC; discriminate).
      destruct (pymem cs vis).
      * assert (R : ready g cs) by (split; [auto|]; split; [auto|]; split; auto).
        pose proof (iupdate_inv _ g cs I R) as I2. pose proof (iupdate_keeps g cs MC) as K.
        apply IH in E; [|auto|apply K; auto|intros; apply K; auto]. destruct E as [E1 E2]. split; [auto|]. eapply keeps_trans; eauto.
      * destruct (i_best (inn g cs)) as [an|] eqn:BE; [|discriminate]. apply IH in E; auto.
        intros y J. apply push_in in J. destruct J as [J|(o & J & <-)]; [auto|].
        pose proof (inv_at _ g cs I MC) as K. eapply (k_out _ _ _ _ K an); eauto. apply (k_best _ _ _ _ K); auto.
Qed.

Lemma dfs_spec : forall fuel g s g', inv none g -> dmem g s = true -> i_solved (inn g s) = false -> dfs fuel p gamma g s = Ok g' ->
  inv none g' /\ keeps g g' /\ i_actions (inn g' s) = full s.
Proof.
  intros fuel g s g' I M SO E. pose proof (not_goal _ g s I M SO) as G. unfold dfs in E.
  set (g0 := set_tip false g s) in *. pose proof (set_tip_keeps false g s) as K0. fold g0 in K0. destruct (K0 s M) as (M0 & S0 & F0).
  assert (I0 : inv (eq s) g0).
  { apply set_tip_inv; auto. eapply inv_weaken; [|exact I]. intros y []. }
  destruct fuel as [|fuel]; [discriminate|]. cbn [dfs_loop] in E. rewrite S0, SO in E.
  destruct (i_goal (inn g0 s)) eqn:GO; [rewrite (k_plain _ _ _ _ (inv_at _ g0 s I0 M0) G) in GO; discriminate|].
  assert (DONE : forall g2 vis op, inv (eq s) g2 -> keeps g0 g2 -> (forall y, In y op -> dmem g2 y = true) -> i_actions (inn g2 s) = full s -> dfs_loop fuel p gamma s g2 vis op = Ok g' ->
     inv none g' /\ keeps g g' /\ i_actions (inn g' s) = full s).
  { intros g2 vis op I2 K2 OP F2 E2. destruct (K2 s M0) as (M2 & _). destruct (dfs_loop_spec s fuel g2 vis op g' I2 M2 OP E2) as [I3 K3].
    assert (F3 : i_actions (inn g' s) = full s) by (apply K3; auto). split; [eapply inv_tighten; eauto|]. split; [|auto].
    eapply keeps_trans; [exact K0|]. eapply keeps_trans; eauto. }
  destruct (i_actions (inn g0 s)) as [|an0 l0] eqn:AC.
  - set (g1 := set_tip true g0 s) in *. pose proof (set_tip_keeps true g0 s) as K1. fold g1 in K1. destruct (K1 s M0) as (M1 & S1 & _).
    assert (I1 : inv (eq s) g1) by (apply set_tip_inv; auto; discriminate).
    assert (A1 : i_actions (inn g1 s) = []) by (unfold g1, set_tip; rewrite inn_dset, pyeqb_refl; cbn; auto).
    destruct (iexpand_spec _ g1 s I1 M1 G A1) as (I2 & N2 & D2 & Y2). set (g2 := iexpand p g1 s) in *.
    assert (K2 : keeps g1 g2).
    { intros y MY. split; [auto|]. destruct (pyeqb_spec s y) as [EQ|N]; [subst y; rewrite N2; cbn; auto|rewrite Y2; auto]. }
    assert (R2 : ready g2 s). { split; [auto|]. split; [auto|]. rewrite N2. cbn. split; [congruence|auto]. }
    pose proof (iupdate_keeps g2 s (proj1 R2)) as K3.
    apply (DONE (iupdate gamma g2 s) [] []); [apply iupdate_inv; auto| |intros y []|apply K3; apply R2|exact E].
    eapply keeps_trans; [exact K1|]. eapply keeps_trans; eauto.
  - assert (F : i_actions (inn g0 s) = full s) by (apply (acts_full (eq s)); auto; rewrite AC; discriminate).
    cbn [pymem existsb] in E. destruct (i_best (inn g0 s)) as [an|] eqn:BE; [|discriminate].
    eapply DONE; [exact I0|apply keeps_refl| |exact F|exact E].
    intros y J. apply push_in in J. destruct J as [[<-|[]]|(o & J & <-)]; [auto|].
    pose proof (inv_at _ g0 s I0 M0) as K. eapply (k_out _ _ _ _ K an); eauto. apply (k_best _ _ _ _ K); auto.
Qed.

Lemma dfs_all_spec : forall fuel inner g s g', inv none g -> dmem g s = true -> i_solved (inn g s) = false -> dfs_all fuel inner p gamma g s = Ok g' ->
  inv none g' /\ keeps g g' /\ i_actions (inn g' s) = full s.
Proof.
  induction fuel as [|fuel IH]; intros inner g s g' I M SO E; cbn [dfs_all] in E; destruct (i_tip (inn g s)) eqn:T.
  - discriminate.
  - injection E as <-. split; [auto|]. split; [apply keeps_refl|]. destruct (k_tip _ _ _ _ (inv_at _ g s I M) (not_goal _ g s I M SO) T) as [[]|]; auto.
  - unfold bind in E. destruct (dfs inner p gamma g s) as [g1|] eqn:D; [|discriminate]. destruct (dfs_spec inner g s g1 I M SO D) as (I1 & K1 & F1).
    destruct (K1 s M) as (M1 & S1 & _). destruct (IH inner g1 s g' I1 M1) as (I2 & K2 & F2); [congruence|auto|]. split; [auto|]. split; [eapply keeps_trans; eauto|auto].
  - injection E as <-. split; [auto|]. split; [apply keeps_refl|]. destruct (k_tip _ _ _ _ (inv_at _ g s I M) (not_goal _ g s I M SO) T) as [[]|]; auto.
Qed.
End Ilao.
