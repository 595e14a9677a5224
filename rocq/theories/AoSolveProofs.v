(** Proofs about the AO* solver: calls to [solve], costs of the policies. *)
From Coq Require Import List Bool Arith QArith Lia Lqa Permutation.
From Verif Require Import Py PyList PyMore CppAstarModel CppHeapProofs AoModel AoSpec AoProofs.
Import ListNotations.
Open Scope nat_scope.

Section Solve.
Context {St A : Type} {ES : PyEq St}.
Variable p : mdp St A.
Variable cf : config St.
Notation gamma := (c_discount cf).
Notation sgraph := (sgraph St A).
Notation nd := (@nd St A ES).
Variable rk : St -> nat.
Hypothesis rank_down : forall s a y pr, m_goal p s = false -> In a (m_apps p s) -> In (y, pr) (m_dist p s a) -> rk y < rk s.
Hypothesis order_perm : forall l, Permutation (c_order cf l) l.

(** A finite list with all the states that can be met. *)
Fixpoint tree (n : nat) (s : St) : list St :=
  match n with
  | 0 => [s]
  | S n => s :: flat_map (fun a => flat_map (fun o => tree n (fst o)) (m_dist p s a)) (m_apps p s)
  end.
Lemma tree_self : forall n s, In s (tree n s).
Proof. destruct n; intros; now left. Qed.
Lemma tree_reach : forall n s y, rk s <= n -> reach p s y -> In y (tree n s).
Proof.
  intros n s y L R.
  assert (Z : forall x y, reach p x y -> x = y \/ exists a z pr, m_goal p x = false /\ In a (m_apps p x) /\ In (z, pr) (m_dist p x a) /\ reach p z y).
  { intros x z RX. induction RX as [|u a z pr RX IH G I J]; auto. right. destruct IH as [->|(b & t & q & G' & I' & J' & R')].
    - exists a, z, pr. repeat split; auto. constructor.
    - exists b, t, q. repeat split; auto. eapply reach_step; eauto. }
  revert s y L R. induction n as [|n IH]; intros s y L R; destruct (Z s y R) as [->|(a & z & pr & G & I & J & RZ)].
  - now left.
  - pose proof (rank_down s a z pr G I J). lia.
  - apply tree_self.
  - right. apply in_flat_map. exists a. split; auto. apply in_flat_map. exists (z, pr). split; auto.
    apply IH; auto. pose proof (rank_down s a z pr G I J). cbn. lia.
Qed.

(** What holds of the graph between calls. *)
Definition settled (g : sgraph) : Prop :=
  wf p g /\ dirty cf g [] /\ forall s, dmem g s = true -> sn_value (nd g s) <> None.

Lemma settled_nil : settled [].
Proof.
  split; [|split].
  - constructor; unfold expanded, AoModel.nd; cbn; intros; try contradiction; try discriminate.
  - intros s E. destruct E. reflexivity.
  - discriminate.
Qed.

Lemma emplace_sound : forall g s, settled g -> m_goal p s = false ->
  let g1 := if dmem g s then g else dset g s new_snode in sound p cf s g1.
Proof.
  intros g s (W & D & V) G g1. subst g1. destruct (dmem g s) eqn:M.
  - split; [exact W|]. split; [|split; auto]. intros x DX VX. destruct (V x DX VX).
  - pose proof (nd_absent g s M) as NS.
    assert (ND : forall x, nd (dset g s new_snode) x = nd g x).
    { intros x. rewrite nd_dset. destruct (pyeqb_spec x s) as [->|]; auto. }
    assert (EX : forall x, expanded (dset g s new_snode) x <-> expanded g x) by (intros x; unfold expanded; now rewrite ND).
    assert (DM : forall x, dmem g x = true -> dmem (dset g s new_snode) x = true).
    { intros x DX. rewrite dmem_dset, DX. apply orb_true_r. }
    split; [|split; [|split]].
    + destruct W as [W1 W2 W3 W4 W5 W6]. constructor.
      * intros x an. rewrite ND. apply W1.
      * intros x a. rewrite EX, ND. apply W2.
      * intros x. rewrite EX. apply W3.
      * intros x an o. rewrite !ND. intros I O. destruct (W4 x an o I O). auto.
      * intros y x. rewrite !ND, EX. apply W5.
      * intros x DX NE. rewrite ND. rewrite dmem_dset in DX. destruct (pyeqb_spec x s) as [EQ|N].
        -- subst x. rewrite NS, G. cbn. auto.
        -- apply W6; auto. intros Z. apply NE, EX, Z.
    + intros x DX VX. rewrite dmem_dset in DX. rewrite ND in VX |- *. destruct (pyeqb_spec x s) as [EQ|N]; [subst x; rewrite NS; auto|].
      destruct (V x DX VX).
    + intros x E. apply EX in E. destruct (D x E) as [[]|(an & C1 & C2 & C3 & C4 & C5)]. right. exists an. rewrite !ND.
      assert (QE : forall os, qsum cf (dset g s new_snode) os = qsum cf g os).
      { intros os. apply qsum_ext. intros o _. unfold val. now rewrite ND. }
      rewrite QE. repeat split; auto.
      * intros an' I. rewrite QE. auto.
      * rewrite C5. apply forallb_same. intros o _. now rewrite ND.
    + rewrite dmem_dset, pyeqb_refl. reflexivity.
Qed.

Definition max_rank (g : sgraph) : nat := fold_right (fun e m => Nat.max (rk (fst e)) m) 0 g.
Lemma max_rank_le : forall g x, dmem g x = true -> rk x <= max_rank g.
Proof.
  induction g as [|[k n] g IH]; intros x D; [discriminate|]. unfold dmem in D. cbn [dget] in D. cbn [max_rank fold_right fst].
  destruct (pyeqb_spec x k) as [EQ|]; [subst x; lia|]. assert (DX : dmem g x = true) by exact D. specialize (IH x DX). unfold max_rank in IH. lia.
Qed.

Lemma sound_settled : forall root g, sound p cf root g -> m_goal p root = false -> sn_solved (nd g root) = true -> settled g /\ expanded g root.
Proof.
  intros root g (W & FI & D & M) G SO.
  assert (E : expanded g root).
  { unfold expanded. intros Z. assert (NE : ~ expanded g root) by (unfold expanded; auto).
    destruct (wf_leaf p g W root M NE) as (_ & L). rewrite G in L. destruct L. congruence. }
  split; auto. split; [exact W|]. split; [exact D|]. intros s DS VS. destruct (FI s DS VS) as [-> _].
  destruct (D root E) as [[]|(an & _ & _ & C & _)]. congruence.
Qed.

Lemma defined_of : forall g s, settled g -> m_goal p s = false -> dmem g s = true -> sn_solved (nd g s) = true -> ao_defined g s = true.
Proof.
  intros g s (W & D & V) G M SO.
  assert (E : expanded g s).
  { unfold expanded. intros Z. assert (NE : ~ expanded g s) by (unfold expanded; auto).
    destruct (wf_leaf p g W s M NE) as (_ & L). rewrite G in L. destruct L. congruence. }
  destruct (D s E) as [[]|(an & _ & B & _)]. unfold ao_defined. unfold AoModel.nd, dmem in *. destruct (dget g s); [|discriminate].
  now rewrite B.
Qed.

Lemma solve_any : forall fuel g s g', c_max_tips cf <> 0 -> settled g -> m_goal p s = false -> ao_solve fuel p cf g s = Ok g' ->
  settled g' /\ ao_defined g' s = true.
Proof.
  intros fuel g s g' TP SG G E. unfold ao_solve in E.
  pose proof (emplace_sound g s SG G) as SD. cbv zeta in SD. rewrite G, orb_false_r in E.
  destruct (sn_solved (nd (if dmem g s then g else dset g s new_snode) s)) eqn:SO.
  - injection E as <-. destruct (dmem g s) eqn:M.
    + split; auto. now apply defined_of.
    + rewrite nd_dset, pyeqb_refl in SO. discriminate.
  - set (g1 := if dmem g s then g else dset g s new_snode) in *.
    destruct (loop_any p cf rk rank_down order_perm (fun _ => True) (fun _ _ _ _ _ _ _ _ => Logic.I) [] s (max_rank g1) fuel fuel
                (heap_push (tip_after g1) [] s) g1 g') as (S1 & S2 & S3); auto.
    + intros Z. pose proof (Permutation_length (heap_push_perm (tip_after g1) [] s)) as L. rewrite Z in L. discriminate.
    + intros x I. apply (Permutation_in _ (heap_push_perm (tip_after g1) [] s)) in I. destruct I as [<-|[]].
      repeat split; auto. now destruct SD as (_ & _ & _ & M).
    + apply max_rank_le.
    + destruct (sound_settled s g' S1 G S2) as [S4 S5]. split; auto. apply defined_of; auto. now apply expanded_mem.
Qed.

Lemma solve_total : forall g s, c_max_tips cf <> 0 -> c_detect cf = false -> settled g -> m_goal p s = false -> no_dead_end p s ->
  exists n, forall fuel, n <= fuel -> exists g', ao_solve fuel p cf g s = Ok g'.
Proof.
  intros g s TP ND SG G LV. set (g1 := if dmem g s then g else dset g s new_snode).
  pose proof (emplace_sound g s SG G) as SD. cbv zeta in SD. fold g1 in SD.
  set (U := tree (rk s) s).
  assert (PU : forall x, reach p s x -> In x U) by (intros x R; now apply tree_reach).
  assert (PS : forall x a y pr, reach p s x -> m_goal p x = false -> In a (m_apps p x) -> In (y, pr) (m_dist p x a) -> reach p s y)
    by (intros; eapply reach_step; eauto).
  exists (S (S (max_rank g1 + cnt U g1))). intros fuel FU. unfold ao_solve. fold g1. rewrite G, orb_false_r.
  destruct (sn_solved (nd g1 s)) eqn:SO; eauto.
  destruct fuel as [|fuel]; [lia|]. set (q := heap_push (tip_after g1) [] s).
  assert (IQ : forall x, In x q -> x = s).
  { intros x I. apply (Permutation_in _ (heap_push_perm (tip_after g1) [] s)) in I. destruct I as [<-|[]]; auto. }
  assert (HQ : forall x, In x q -> dmem g1 x = true /\ reach p s x /\ m_goal p x = false /\ rk x <= rk s).
  { intros x I. apply IQ in I. subst x. destruct SD as (_ & _ & _ & M). repeat split; auto. constructor. }
  assert (NQ : q <> []).
  { intros Z. pose proof (Permutation_length (heap_push_perm (tip_after g1) [] s)) as L. fold q in L. rewrite Z in L. discriminate. }
  rewrite ao_loop_S by auto. destruct (expand_tips _ p g1 q []) as [g2 F] eqn:E1.
  assert (RS : reach p s s) by constructor.
  destruct (turn_total p cf rk rank_down order_perm (reach p s) PS U s (max_rank g1) (S fuel) q g1 g2 F RS SD ND HQ) as (g3 & q3 & E2 & E3); auto.
  { apply max_rank_le. }
  { intros x I. apply IQ in I. subst x. apply LV; auto. }
  { lia. }
  rewrite E2. cbn [bind]. rewrite E3. cbn [bind].
  destruct (turn_any p cf rk rank_down order_perm (reach p s) PS U s (max_rank g1) (S fuel) q g1 g2 F g3 q3 RS SD NQ TP HQ) as (T1 & T2 & T3 & T4 & T5 & T6 & T7 & T8); auto.
  { apply max_rank_le. }
  apply (loop_total p cf rk rank_down order_perm (reach p s) PS U s (max_rank g1)); auto; lia.
Qed.

Lemma session_settled : forall g, c_max_tips cf <> 0 -> session p cf g -> settled g.
Proof.
  intros g TP H. induction H as [|g fuel s g' H IH G E]; [apply settled_nil|]. now apply (solve_any fuel g s g').
Qed.

(** Costs. *)
Lemma qsum_expected : forall (g : sgraph) s a (f : St -> Q), (forall y pr, In (y, pr) (m_dist p s a) -> f y = val g y) ->
  (qsum cf g (outcomes p s a) == expected p gamma s a (m_dist p s a) (map (fun o => f (fst o)) (m_dist p s a)))%Q.
Proof.
  intros g s a f. unfold qsum, outcomes. set (l := m_dist p s a). clearbody l. intros H.
  assert (K : forall u, (fold_left (fun u o => u + fst (fst o) * (snd (fst o) + gamma * val g (snd o))) 
     (map (fun o => (snd o, m_cost p s a (fst o), fst o)) l) u == u + expected p gamma s a l (map (fun o => f (fst o)) l))%Q).
  { induction l as [|[y pr] l IH]; intros u; cbn [map fold_left expected fst snd]; [ring|].
    rewrite IH by (intros; eapply H; right; eauto). rewrite (H y pr) by now left. ring. }
  rewrite K. ring.
Qed.

Lemma expected_mono : forall s a os ws ws', (0 <= gamma)%Q -> (forall y pr, In (y, pr) os -> 0 <= pr)%Q ->
  Forall2 Qle ws ws' -> length ws = length os -> (expected p gamma s a os ws <= expected p gamma s a os ws')%Q.
Proof.
  intros s a. induction os as [|[y pr] os IH]; intros ws ws' G W F L; destruct F as [|w w' ws ws' LE F]; try discriminate; cbn [expected]; try lra.
  assert (X : (expected p gamma s a os ws <= expected p gamma s a os ws')%Q).
  { apply IH; auto. intros; apply (W y0 pr0); now right. }
  assert (Y : (pr * (m_cost p s a y + gamma * w) <= pr * (m_cost p s a y + gamma * w'))%Q).
  { rewrite (Qmult_comm pr), (Qmult_comm pr). apply Qmult_le_compat_r; [|apply (W y pr); now left].
    rewrite (Qmult_comm gamma), (Qmult_comm gamma). apply Qplus_le_r. now apply Qmult_le_compat_r. }
  lra.
Qed.

Lemma value_val : forall (g : sgraph) s v, sn_value (nd g s) = Some v -> val g s = v.
Proof. intros g s v E. unfold val. now rewrite E. Qed.

Lemma leaf_dec : forall (g : sgraph) s, expanded g s \/ ~ expanded g s.
Proof. intros. unfold expanded. destruct (sn_actions (nd g s)); [right; auto|left; discriminate]. Qed.

Lemma answers_of : forall (g : sgraph) s an, sn_best (nd g s) = Some an -> answers g s = Some (an_action an).
Proof.
  intros g s an B. unfold answers, ao_best_action. unfold AoModel.nd in B. destruct (dget g s); [now rewrite B|discriminate].
Qed.

Lemma solved_policy : forall g, settled g -> forall n s, rk s < n -> dmem g s = true -> sn_solved (nd g s) = true ->
  policy_cost p gamma (answers g) s (val g s).
Proof.
  intros g (W & D & V). induction n as [|n IH]; intros s L M SO; [lia|]. destruct (leaf_dec g s) as [E|NE].
  - destruct (D s E) as [[]|(an & C1 & C2 & C3 & _ & C5)]. rewrite (value_val g s _ C3).
    destruct (wf_act p g W s an C1) as [AP OE]. rewrite SO in C5. symmetry in C5.
    apply (policy_act p gamma (answers g) s (an_action an) (map (fun o => val g (fst o)) (m_dist p s (an_action an)))).
    + now apply (wf_goal p g W).
    + now apply answers_of.
    + auto.
    + assert (K : forall y pr, In (y, pr) (m_dist p s (an_action an)) -> policy_cost p gamma (answers g) y (val g y)).
      { intros y pr I. assert (O : In (pr, m_cost p s (an_action an) y, y) (an_out an)) by (rewrite OE; apply in_outcomes; eauto).
        rewrite forallb_forall in C5. pose proof (C5 _ O) as SY. cbn [snd] in SY.
        destruct (wf_child p g W s an _ C1 O) as [DY _]. cbn [snd] in DY. apply IH; auto.
        pose proof (rank_down s (an_action an) y pr (wf_goal p g W s E) AP I). lia. }
      revert K. induction (m_dist p s (an_action an)) as [|[y pr] l IHl]; intros K; cbn [map]; constructor; cbn [fst].
      * apply (K y pr). now left.
      * apply IHl. intros; eapply K; right; eauto.
    + rewrite OE. now apply (qsum_expected g s (an_action an) (val g)).
  - destruct (wf_leaf p g W s M NE) as (_ & LF). destruct (m_goal p s) eqn:G; [|destruct LF; congruence].
    destruct LF as [_ LV]. apply policy_goal; auto. rewrite (value_val g s _ LV). reflexivity.
Qed.

Lemma value_below : forall g, settled g -> (0 <= gamma)%Q -> weights p -> admissible p gamma ->
  forall n s w, rk s < n -> dmem g s = true -> plan_cost p gamma s w -> (val g s <= w)%Q.
Proof.
  intros g (W & D & V) GP WT AD. induction n as [|n IH]; intros s w L M PC; [lia|]. destruct (leaf_dec g s) as [E|NE].
  - destruct (D s E) as [[]|(an & C1 & C2 & C3 & C4 & _)]. rewrite (value_val g s _ C3).
    pose proof (wf_goal p g W s E) as G. inversion PC as [s0 v0 G0 _|s0 a ws v0 _ AP F EQ]; subst; [congruence|].
    destruct (wf_all p g W s a E AP) as (an' & I' & <-). specialize (C4 an' I'). destruct (wf_act p g W s an' I') as [_ OE].
    rewrite EQ. apply (Qle_trans _ _ _ C4). rewrite OE.
    rewrite (qsum_expected g s (an_action an') (val g)) by auto.
    apply expected_mono; auto.
    + intros y pr I. apply (WT s (an_action an') y pr); auto.
    + assert (K : forall y pr, In (y, pr) (m_dist p s (an_action an')) -> dmem g y = true /\ rk y < n).
      { intros y pr I. assert (O : In (pr, m_cost p s (an_action an') y, y) (an_out an')) by (rewrite OE; apply in_outcomes; eauto).
        destruct (wf_child p g W s an' _ I' O) as [DY _]. split; auto. pose proof (rank_down s (an_action an') y pr G AP I). lia. }
      clear EQ OE. induction F as [|[y pr] w0 l ws PY F IHF]; cbn [map]; constructor; cbn [fst] in *.
      * destruct (K y pr (or_introl eq_refl)). now apply IH.
      * apply IHF. intros; eapply K; right; eauto.
    + apply map_length.
  - destruct (wf_leaf p g W s M NE) as (_ & LF). unfold val. destruct (m_goal p s) eqn:G.
    + destruct LF as [_ ->]. inversion PC; subst; [|congruence]. lra.
    + destruct LF as [_ [->|Z]]; [now apply AD|]. destruct (V s M Z).
Qed.
End Solve.
