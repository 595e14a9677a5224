(** Proofs about the ILAO* solver: the best solution graph, value iteration and the main loop. *)
From Coq Require Import List Bool Arith QArith Qabs Lia Lqa Permutation.
From Verif Require Import Py PyList AoModel AoSpec AoProofs LrtdpSpec IlaoModel IlaoSpec IlaoProofs.
Import ListNotations.
Open Scope nat_scope.

Section Ilao.
Context {St A : Type} {ES : PyEq St}.
Variable p : mdp St A.
Variable cf : iconfig St.
Notation gamma := (ic_discount cf).
Notation eps := (ic_epsilon cf).
Hypothesis FA : ifair cf.
Variable B : St -> Q -> Prop.
Hypothesis HB : forall x v, B x v -> (0 <= gamma)%Q /\ weights p.
Hypothesis BD : bounding p gamma B.
Implicit Types g : igraph St A.
Notation inv := (inv p B (@none St)).
Notation ready := (ready p).
Notation full := (full p).

Lemma inn_absent : forall g y, dmem g y = false -> inn g y = new_inode.
Proof. intros g y M. unfold dmem in M. unfold inn. destruct (dget g y); [discriminate M|reflexivity]. Qed.

(** Steps that change neither values nor actions. *)
Definition same (g g' : igraph St A) : Prop := forall x, dmem g' x = dmem g x /\ i_actions (inn g' x) = i_actions (inn g x) /\
  i_best (inn g' x) = i_best (inn g x) /\ i_value (inn g' x) = i_value (inn g x) /\ i_residual (inn g' x) = i_residual (inn g x).
Lemma same_refl : forall g, same g g.
Proof. intros g x. auto. Qed.
Lemma same_trans : forall g1 g2 g3, same g1 g2 -> same g2 g3 -> same g1 g3.
Proof.
  intros g1 g2 g3 H1 H2 x. destruct (H1 x) as (a & b & c & d & e). destruct (H2 x) as (a' & b' & c' & d' & e').
  split; [congruence|]. split; [congruence|]. split; [congruence|]. split; congruence.
Qed.
Definition like (g g' : igraph St A) : Prop := same g g' /\ forall x, i_solved (inn g' x) = i_solved (inn g x).
Lemma like_refl : forall g, like g g.
Proof. intros g. split; [apply same_refl|auto]. Qed.
Lemma like_trans : forall g1 g2 g3, like g1 g2 -> like g2 g3 -> like g1 g3.
Proof. intros g1 g2 g3 [H1 K1] [H2 K2]. split; [eapply same_trans; eauto|]. intros x. now rewrite K2. Qed.

Lemma dset_same : forall g x n, dmem g x = true -> i_actions n = i_actions (inn g x) -> i_best n = i_best (inn g x) ->
  i_value n = i_value (inn g x) -> i_residual n = i_residual (inn g x) -> same g (dset g x n).
Proof.
  intros g x n M H1 H2 H3 H4 y. rewrite dmem_dset_i, inn_dset. destruct (pyeqb_spec x y) as [EQ|N]; [subst y; rewrite M; auto|auto].
Qed.
Lemma set_tip_like : forall b g x, dmem g x = true -> like g (set_tip b g x).
Proof.
  intros b g x M. split; [apply dset_same; auto|]. intros y. unfold set_tip. rewrite inn_dset. destruct (pyeqb_spec x y) as [EQ|N]; [subst y; auto|auto].
Qed.
Lemma set_mfpt_like : forall q g x, dmem g x = true -> like g (set_mfpt q g x).
Proof.
  intros b g x M. split; [apply dset_same; auto|]. intros y. unfold set_mfpt. rewrite inn_dset. destruct (pyeqb_spec x y) as [EQ|N]; [subst y; auto|auto].
Qed.
Lemma set_solved_same : forall b g x, dmem g x = true -> same g (set_solved b g x).
Proof. intros b g x M. apply dset_same; auto. Qed.

Lemma like_ready : forall g g' x, like g g' -> ready g x -> ready g' x.
Proof.
  intros g g' x [S L] (M & G & SO & F). destruct (S x) as (a & b & _). split; [congruence|]. split; [auto|]. split; [rewrite L; auto|congruence].
Qed.

(** *** The best solution graph *)
Definition bsg_ok (s : St) (t : igraph St A * list St * list St) : Prop :=
  let '(g, bsg, newf) := t in
  inv g /\ (forall y, In y bsg -> ready g y) /\ (forall y, In y newf -> In y bsg) /\ In s bsg /\ NoDup bsg.

Lemma pyadd_NoDup : forall (l : list St) y, NoDup l -> NoDup (pyadd l y).
Proof.
  intros l y N. unfold pyadd. destruct (pymem y l) eqn:M; [auto|]. apply pymem_false in M. apply NoDup_app_disjoint || idtac.
  eapply Permutation_NoDup; [apply Permutation_cons_append|]. constructor; auto.
Qed.

Lemma bsg_outcome_ok : forall s t o, bsg_ok s t -> dmem (fst (fst t)) (snd o) = true ->
  bsg_ok s (bsg_outcome t o) /\ like (fst (fst t)) (fst (fst (bsg_outcome t o))).
Proof.
  intros s [[g bsg] newf] o (I & R & N & IS & ND) M. cbn [fst] in M. unfold bsg_outcome. set (y := snd o) in *.
  assert (OK : forall b, (m_goal p y = false -> b = false -> i_actions (inn g y) = full y) -> inv (set_tip b g y) /\ like g (set_tip b g y)).
  { intros b H. split; [|now apply set_tip_like]. apply set_tip_inv; auto. }
  destruct (i_goal (inn g y) || i_solved (inn g y)) eqn:GS.
  - destruct (OK false) as [I1 L1].
    { intros G _. rewrite (k_plain _ _ _ _ _ _ (inv_at _ _ _ _ _ I M) G) in GS. cbn in GS.
      destruct (i_best (inn g y)) as [an|] eqn:BE; [|destruct (k_solved _ _ _ _ _ _ (inv_at _ _ _ _ _ I M) G GS BE)]. eapply best_full; eauto. }
    cbn [fst]. split; [|auto]. split; [auto|]. split; [intros; eapply like_ready; eauto|]. auto.
  - destruct (i_actions (inn g y)) as [|an0 l0] eqn:AC.
    + destruct (OK true) as [I1 L1]; [discriminate|]. cbn [fst]. split; [|auto]. split; [auto|]. split; [intros; eapply like_ready; eauto|]. auto.
    + destruct (pymem y bsg) eqn:PM.
      * cbn [fst]. split; [|apply like_refl]. split; [auto|]. auto.
      * assert (F : i_actions (inn g y) = full y) by (eapply acts_full; eauto; rewrite AC; discriminate).
        apply orb_false_iff in GS. destruct GS as [_ SO].
        destruct (OK false) as [I1 L1]; [rewrite <- AC; auto|]. cbn [fst]. split; [|auto]. split; [auto|]. split; [|split; [|split]].
        -- intros z J. apply pyadd_In in J. apply (like_ready g _ z L1). destruct J as [-> |J]; [|auto]. split; [auto|].
           split; [exact (not_goal _ _ _ _ _ I M SO)|]. split; [exact SO|exact F].
        -- intros z J. apply pyadd_In. apply pyadd_In in J. destruct J as [-> |J]; auto.
        -- apply pyadd_In. auto.
        -- now apply pyadd_NoDup.
Qed.
Lemma like_mem : forall g g' y, like g g' -> dmem g' y = dmem g y.
Proof. intros g g' y [S _]. apply S. Qed.

Lemma bsg_outcomes_ok : forall s os t, bsg_ok s t -> (forall o, In o os -> dmem (fst (fst t)) (snd o) = true) ->
  bsg_ok s (fold_left bsg_outcome os t) /\ like (fst (fst t)) (fst (fst (fold_left bsg_outcome os t))).
Proof.
  intros s. induction os as [|o os IH]; intros t K H; cbn [fold_left]; [split; [auto|apply like_refl]|].
  destruct (bsg_outcome_ok s t o K (H o (or_introl eq_refl))) as [K1 L1]. destruct (IH (bsg_outcome t o) K1) as [K2 L2].
  { intros o' J. rewrite (like_mem _ _ _ L1). apply H. now right. }
  split; [auto|]. eapply like_trans; eauto.
Qed.
Lemma bsg_state_ok : forall s t x, bsg_ok s t -> bsg_ok s (bsg_state t x) /\ like (fst (fst t)) (fst (fst (bsg_state t x))).
Proof.
  intros s t x K. unfold bsg_state. destruct (i_best (inn (fst (fst t)) x)) as [an|] eqn:BE; [|split; [auto|apply like_refl]].
  apply bsg_outcomes_ok; auto. destruct t as [[g bsg] newf]. cbn [fst] in *. destruct K as (I & _).
  intros o J. destruct (best_full _ _ _ _ _ _ I BE) as (M & F & IA). apply (k_out _ _ _ _ _ _ (inv_at _ _ _ _ _ I M) an); auto. now rewrite F.
Qed.
Lemma bsg_states_ok : forall s l t, bsg_ok s t -> bsg_ok s (fold_left bsg_state l t) /\ like (fst (fst t)) (fst (fst (fold_left bsg_state l t))).
Proof.
  intros s. induction l as [|x l IH]; intros t K; cbn [fold_left]; [split; [auto|apply like_refl]|].
  destruct (bsg_state_ok s t x K) as [K1 L1]. destruct (IH _ K1) as [K2 L2]. split; [auto|]. eapply like_trans; eauto.
Qed.
Lemma bsg_loop_ok : forall s fuel g bsg fr g' bsg', bsg_ok s (g, bsg, fr) -> bsg_loop fuel (ic_order cf) g bsg fr = Ok (g', bsg') ->
  inv g' /\ (forall y, In y bsg' -> ready g' y) /\ In s bsg' /\ NoDup bsg' /\ like g g'.
Proof.
  intros s. induction fuel as [|fuel IH]; intros g bsg fr g' bsg' K E; destruct fr as [|x fr]; cbn [bsg_loop] in E; try discriminate.
  - injection E as <- <-. destruct K as (a & b & c & d & e). split; [auto|]. split; [auto|]. split; [auto|]. split; [auto|apply like_refl].
  - injection E as <- <-. destruct K as (a & b & c & d & e). split; [auto|]. split; [auto|]. split; [auto|]. split; [auto|apply like_refl].
  - assert (K0 : bsg_ok s (g, bsg, [])). { destruct K as (a & b & c & d & e). split; [auto|]. split; [auto|]. split; [intros y []|auto]. }
    destruct (bsg_states_ok s (ic_order cf (x :: fr)) (g, bsg, []) K0) as [K1 L1].
    destruct (fold_left bsg_state (ic_order cf (x :: fr)) (g, bsg, [])) as [[g1 b1] f1]. cbn [fst] in L1.
    destruct (IH _ _ _ _ _ K1 E) as (a & b & c & d & e). split; [auto|]. split; [auto|]. split; [auto|]. split; [auto|]. eapply like_trans; eauto.
Qed.
Lemma best_graph_ok : forall fuel g s g' bsg, inv g -> ready g s -> best_graph fuel (ic_order cf) g s = Ok (g', bsg) ->
  inv g' /\ (forall y, In y bsg -> ready g' y) /\ In s bsg /\ NoDup bsg /\ like g g'.
Proof.
  intros fuel g s g' bsg I R E. apply (bsg_loop_ok s fuel g [s] [s]); auto. split; [auto|]. split; [|split; [auto|split; [now left|]]].
  - intros y [<-|[]]; auto.
  - constructor; [intros []|constructor].
Qed.

(** *** Value iteration *)
Definition close (v w : option Q) : Prop :=
  match v, w with Some a, Some b => (Qabs (b - a) <= eps)%Q | None, None => True | _, _ => False end.
Definition vals (g : igraph St A) (x : St) : option Q := i_value (inn g x).
(** The value and the action of [x] come from values that are all close to those of [g]. *)
Definition consistent (g : igraph St A) (x : St) : Prop := exists gx, (forall y, close (vals gx y) (vals g y)) /\
  i_best (inn g x) = snd (ichoose gamma gx (full x)) /\ vals g x = fst (ichoose gamma gx (full x)).

Lemma gmax_exceeds : forall r u, exceeds (gmax r u) eps = false -> r <> NaN -> exceeds r eps = false /\ exceeds u eps = false.
Proof.
  intros [a| |] [b| |] H NR; cbn [gmax exceeds] in *; try discriminate; try contradiction; auto.
  destruct (Qle_bool b a) eqn:L; cbn [exceeds] in *; apply negb_false_iff in H; apply Qle_bool_iff in H.
  - apply Qle_bool_iff in L. split; apply negb_false_iff, Qle_bool_iff; [auto|lra].
  - split; apply negb_false_iff, Qle_bool_iff; [|auto]. apply Qlt_le_weak. apply Qlt_le_trans with b; [|auto]. apply Qnot_le_lt. intros C. apply Qle_bool_iff in C. congruence.
Qed.
Lemma gmax_nan : forall r u, r <> NaN -> gmax r u <> NaN.
Proof. intros [a| |] [b| |] N; cbn [gmax]; try (destruct (Qle_bool b a)); congruence. Qed.
Lemma gap_close : forall v w, exceeds (gap_of v w) eps = false -> close w v.
Proof. intros [v|] [w|] H; cbn [gap_of exceeds close] in *; try discriminate; auto. apply negb_false_iff, Qle_bool_iff in H. exact H. Qed.
Lemma close_refl : (0 <= eps)%Q -> forall v, close v v.
Proof. intros EP [v|]; cbn [close]; auto. setoid_replace (v - v)%Q with 0%Q by ring. exact EP. Qed.

Lemma vi_step_ready : forall g x y, ready g x -> ready g y -> ready (iupdate gamma g x) y.
Proof.
  intros g x y R (M & G & SO & F). destruct (iupdate_keeps p cf g x (proj1 R) y M) as (M1 & S1 & F1).
  split; [auto|]. split; [auto|]. split; [congruence|auto].
Qed.

Lemma sweep_ok : forall l g r, inv g -> (forall x, In x l -> ready g x) -> r <> NaN ->
  let t := fold_left (vi_step gamma) l (g, r) in
  inv (fst t) /\ (forall x, ready g x -> ready (fst t) x) /\
  (NoDup l -> (0 <= eps)%Q -> exceeds (snd t) eps = false ->
     exceeds r eps = false /\ (forall y, close (vals g y) (vals (fst t) y)) /\ (forall y, ~ In y l -> inn (fst t) y = inn g y) /\
     (forall x, In x l -> consistent (fst t) x)).
Proof.
  induction l as [|x l IH]; intros g r I R NR; cbn [fold_left].
  - cbn. split; [auto|]. split; [auto|]. intros _ EP E. split; [auto|]. split; [intros; now apply close_refl|]. split; [auto|]. intros x [].
  - pose proof (R x (or_introl eq_refl)) as RX. set (g1 := iupdate gamma g x). set (r1 := gmax r (i_residual (inn g1 x))).
    change (vi_step gamma (g, r) x) with (g1, r1).
    assert (I1 : inv g1) by (apply iupdate_inv; auto). assert (R1 : forall y, ready g y -> ready g1 y) by (intros; now apply vi_step_ready).
    destruct (IH g1 r1 I1) as (I2 & R2 & H2); [intros; apply R1, R; now right|now apply gmax_nan|]. cbn zeta. cbn in I2, R2, H2.
    split; [auto|]. split; [auto|]. intros ND EP E. inversion ND as [|x0 l0 NI ND']; subst. destruct (H2 ND' EP E) as (ER & C2 & O2 & CO).
    unfold r1 in ER. apply gmax_exceeds in ER; auto. destruct ER as [ER EX]. split; [auto|].
    assert (N1 : inn g1 x = INode (full x) (snd (ichoose gamma g (full x))) (fst (ichoose gamma g (full x))) (i_mfpt (inn g x))
       (gap_of (fst (ichoose gamma g (full x))) (i_value (inn g x))) (i_goal (inn g x)) (i_tip (inn g x)) (i_solved (inn g x))).
    { unfold g1. rewrite iupdate_eq, inn_dset, pyeqb_refl. destruct RX as (_ & _ & _ & ->). reflexivity. }
    rewrite N1 in EX. cbn [i_residual] in EX. apply gap_close in EX.
    assert (CX : forall y, close (vals g y) (vals (fst (fold_left (vi_step gamma) l (g1, r1))) y)).
    { intros y. destruct (pyeqb_spec x y) as [EQ|N].
      - subst y. unfold vals at 2. rewrite (O2 x NI), N1. exact EX.
      - specialize (C2 y). unfold vals at 1 in C2. unfold g1 in C2. rewrite iupdate_other in C2 by auto. exact C2. }
    split; [exact CX|]. split.
    + intros y NY. rewrite O2 by (intros C; apply NY; now right). unfold g1. apply iupdate_other. intros C. apply NY. now left.
    + intros y [<-|J]; [|auto]. exists g. split; [exact CX|]. unfold vals. rewrite (O2 x NI), N1. auto.
Qed.

Lemma order_in : forall l (y : St), In y (ic_order cf l) <-> In y l.
Proof. intros l y. split; apply Permutation_in; [|apply Permutation_sym]; apply FA. Qed.
Lemma order_NoDup : forall l : list St, NoDup l -> NoDup (ic_order cf l).
Proof. intros l. apply Permutation_NoDup, Permutation_sym, FA. Qed.

Lemma value_iteration_ok : forall fuel g bsg g', inv g -> (forall x, In x bsg -> ready g x) -> NoDup bsg -> value_iteration fuel cf g bsg = Ok g' ->
  inv g' /\ (forall x, ready g x -> ready g' x) /\ ((0 <= eps)%Q -> forall x, In x bsg -> consistent g' x).
Proof.
  induction fuel as [|fuel IH]; intros g bsg g' I R ND E; cbn [value_iteration] in E; [discriminate|]. unfold vi_sweep in E.
  destruct (sweep_ok (ic_order cf bsg) g (Fin 0) I) as (I1 & R1 & H1); [intros x J; apply R; now apply order_in|discriminate|]. cbn zeta in *.
  destruct (fold_left (vi_step gamma) (ic_order cf bsg) (g, Fin 0)) as [g1 r1]. cbn [fst snd] in *.
  destruct (exceeds r1 eps) eqn:EX.
  - destruct (IH g1 bsg g' I1) as (I2 & R2 & H2); auto.
  - injection E as <-. split; [auto|]. split; [auto|]. intros EP x J. apply H1; auto; [now apply order_NoDup|now apply order_in].
Qed.

(** *** Reachability and mean first passage times *)
Lemma reach_fold_ok : forall l g b t, inv g -> foldM reach_step (g, b) l = Ok t ->
  inv (fst t) /\ like g (fst t) /\ (forall x, In x l -> i_best (inn g x) <> None).
Proof.
  induction l as [|x l IH]; intros g b t I E; cbn [foldM] in E.
  - injection E as <-. cbn. split; [auto|]. split; [apply like_refl|intros x []].
  - unfold reach_step at 1 in E. cbn [fst snd] in E. destruct (i_best (inn g x)) as [an|] eqn:BE; cbn [bind] in E; [|discriminate].
    destruct (best_full _ _ _ _ _ _ I BE) as (M & F & _).
    apply IH in E; [|apply set_tip_inv; auto]. destruct E as (I2 & L2 & N2). pose proof (set_tip_like (fold_left (fun b o => b || i_tip (inn g (snd o))) (an_out an) false) g x M) as L1.
    split; [auto|]. split; [eapply like_trans; eauto|]. intros y [<-|J]; [congruence|]. specialize (N2 y J). destruct L1 as [S1 _]. destruct (S1 y) as (_ & _ & EB & _). congruence.
Qed.
Lemma reachability_ok : forall fuel g bsg g', inv g -> reachability fuel (ic_order cf) g bsg = Ok g' ->
  inv g' /\ like g g' /\ (forall x, In x bsg -> i_best (inn g x) <> None).
Proof.
  induction fuel as [|fuel IH]; intros g bsg g' I E; cbn [reachability] in E; [discriminate|]. unfold bind in E.
  destruct (foldM reach_step (g, false) (ic_order cf bsg)) as [t|] eqn:F; [|discriminate]. apply reach_fold_ok in F; auto. destruct F as (I1 & L1 & N1).
  assert (N : forall x, In x bsg -> i_best (inn g x) <> None) by (intros x J; apply N1; now apply order_in).
  destruct (snd t).
  - apply IH in E; auto. destruct E as (I2 & L2 & _). split; [auto|]. split; [eapply like_trans; eauto|auto].
  - injection E as <-. auto.
Qed.

Lemma passage_nonneg : forall g (os : list (Q * Q * St)) u, (0 <= u)%Q -> (forall o, In o os -> (0 <= fst (fst o) /\ 0 <= i_mfpt (inn g (snd o)))%Q) ->
  (0 <= fold_left (fun u o => u + fst (fst o) * (1 + i_mfpt (inn g (snd o)))) os u)%Q.
Proof.
  intros g. induction os as [|o os IH]; intros u Z P; cbn [fold_left]; auto.
  apply IH; [|intros; apply P; now right]. destruct (P o (or_introl eq_refl)) as [P1 P2].
  assert (0 <= fst (fst o) * (1 + i_mfpt (inn g (snd o))))%Q by (apply Qmult_le_0_compat; lra). lra.
Qed.
Lemma mfpt_fold_ok : forall l g b t, inv g -> foldM mfpt_step (g, b) l = Ok t -> inv (fst t) /\ like g (fst t).
Proof.
  induction l as [|x l IH]; intros g b t I E; cbn [foldM] in E.
  - injection E as <-. cbn. split; [auto|apply like_refl].
  - unfold mfpt_step at 1 in E. cbn [fst snd] in E. destruct (i_best (inn g x)) as [an|] eqn:BE; cbn [bind] in E; [|discriminate].
    destruct (best_full _ _ _ _ _ _ I BE) as (M & F & IA). set (f := fold_left _ _ _) in *.
    apply IH in E.
    + destruct E as (I2 & L2). split; [auto|]. eapply like_trans; [apply (set_mfpt_like f g x M)|auto].
    + unfold set_mfpt. apply inv_set; auto. pose proof (inv_at _ _ _ _ _ I M) as [a0 b0 c d e f0 h i j]. split; cbn; auto. split; cbn; [|apply j].
      intros WT. unfold f. apply in_map_iff in IA. destruct IA as (a & <- & IA). cbn [an_out].
      assert (P : forall o, In o (outcomes p x a) -> (0 <= fst (fst o) /\ 0 <= i_mfpt (inn g (snd o)))%Q).
      { intros o J. apply in_outcomes in J. destruct J as (y & pr & J & ->). cbn. split; [eapply WT; eauto|].
        destruct (dmem g y) eqn:MY; [apply (proj1 (k_pos _ _ _ _ _ _ (inv_at _ _ _ _ _ I MY))); auto|]. rewrite (inn_absent g y MY). cbn. lra. }
      apply passage_nonneg; [lra|auto].
Qed.
Lemma mfpt_ok : forall fuel g bsg g', inv g -> mfpt fuel cf g bsg = Ok g' -> inv g' /\ like g g'.
Proof.
  induction fuel as [|fuel IH]; intros g bsg g' I E; cbn [mfpt] in E; [discriminate|]. unfold bind in E.
  destruct (foldM mfpt_step (g, 0%Q) (ic_order cf bsg)) as [t|] eqn:F; [|discriminate]. apply mfpt_fold_ok in F; auto. destruct F as (I1 & L1).
  destruct (negb (Qle_bool (snd t) eps)).
  - apply IH in E; auto. destruct E as (I2 & L2). split; [auto|]. eapply like_trans; eauto.
  - injection E as <-. auto.
Qed.

(** *** Solved bits *)
Lemma settle_ok : forall l g, inv g -> (forall x, In x l -> dmem g x = true /\ m_goal p x = false /\ i_best (inn g x) <> None) ->
  inv (fold_left (settle eps) l g) /\ same g (fold_left (settle eps) l g) /\
  ((eps <= 0)%Q -> weights p -> forall x, In x l \/ i_solved (inn g x) = false -> i_solved (inn (fold_left (settle eps) l g) x) = false).
Proof.
  induction l as [|x l IH]; intros g I H; cbn [fold_left].
  - split; [auto|]. split; [apply same_refl|]. intros _ _ x [[]|]; auto.
  - destruct (H x (or_introl eq_refl)) as (M & G & NB). pose proof (inv_at _ _ _ _ _ I M) as K.
    assert (S1 : same g (settle eps g x)) by (apply set_solved_same; auto).
    destruct (IH (settle eps g x)) as (I2 & S2 & Z2).
    + unfold settle, set_solved. apply inv_set; auto. destruct K as [a0 b0 c d e f h i j]. split; cbn; auto. congruence.
    + intros y J. destruct (H y (or_intror J)) as (M' & G' & N'). destruct (S1 y) as (a & b & c & _). split; [congruence|]. split; [auto|congruence].
    + split; [auto|]. split; [eapply same_trans; eauto|]. intros EP WT y J. apply Z2; auto.
      assert (SX : i_solved (inn (settle eps g x) x) = false).
      { unfold settle, set_solved. rewrite inn_dset, pyeqb_refl. cbn [i_solved]. apply andb_false_iff. right.
        destruct (k_pos _ _ _ _ _ _ K) as [P1 P2]. destruct (i_residual (inn g x)) as [r| |]; auto. apply negb_false_iff, Qle_bool_iff.
        assert (0 <= i_mfpt (inn g x) * r)%Q by (apply Qmult_le_0_compat; auto). lra. }
      destruct (pyeqb_spec x y) as [EQ|N]; [subst y; now right|]. destruct J as [[C|J]|J]; [congruence|now left|right].
      unfold settle, set_solved. rewrite inn_dset. destruct (pyeqb_spec x y); [congruence|auto].
Qed.

Lemma same_consistent : forall g g' x, same g g' -> consistent g x -> consistent g' x.
Proof.
  intros g g' x S (gx & C & E1 & E2). exists gx. split; [intros y|].
  - unfold vals at 2. destruct (S y) as (_ & _ & _ & -> & _). apply C.
  - destruct (S x) as (_ & _ & -> & E3 & _). split; [auto|]. unfold vals in *. congruence.
Qed.

(** *** The main loop *)
Lemma turn_ok : forall fuel g s g', inv g -> dmem g s = true -> i_solved (inn g s) = false -> ilao_turn fuel p cf g s = Ok g' ->
  inv g' /\ dmem g' s = true /\ i_best (inn g' s) <> None /\ ((0 <= eps)%Q -> consistent g' s) /\
  ((eps <= 0)%Q -> weights p -> i_solved (inn g' s) = false).
Proof.
  intros fuel g s g' I M SO E. pose proof (not_goal _ _ _ _ _ I M SO) as G. unfold ilao_turn, bind in E.
  destruct (dfs_all fuel fuel p gamma g s) as [g1|] eqn:E1; [|discriminate].
  destruct (dfs_all_spec p cf B HB BD fuel fuel g s g1 I M SO E1) as (I1 & K1 & F1). destruct (K1 s M) as (M1 & S1 & _).
  assert (R1 : ready g1 s) by (split; [auto|]; split; [auto|]; split; [congruence|auto]).
  destruct (best_graph fuel (ic_order cf) g1 s) as [[g2 b2]|] eqn:E2; [|discriminate]. destruct (best_graph_ok fuel g1 s g2 b2 I1 R1 E2) as (I2 & R2 & IN2 & ND2 & L2).
  cbn [fst snd] in E. destruct (value_iteration fuel cf g2 b2) as [g3|] eqn:E3; [|discriminate].
  destruct (value_iteration_ok fuel g2 b2 g3 I2 R2 ND2 E3) as (I3 & R3 & C3).
  destruct (best_graph fuel (ic_order cf) g3 s) as [[g4 b4]|] eqn:E4; [|discriminate]. destruct (best_graph_ok fuel g3 s g4 b4 I3 (R3 s (R2 s IN2)) E4) as (I4 & R4 & IN4 & ND4 & L4).
  cbn [fst snd] in E. destruct (reachability fuel (ic_order cf) g4 b4) as [g5|] eqn:E5; [|discriminate]. destruct (reachability_ok fuel g4 b4 g5 I4 E5) as (I5 & L5 & N5).
  destruct (mfpt fuel cf g5 b4) as [g6|] eqn:E6; [|discriminate]. destruct (mfpt_ok fuel g5 b4 g6 I5 E6) as (I6 & L6).
  injection E as <-. pose proof (like_trans _ _ _ L5 L6) as L46. destruct L46 as [S46 L46].
  assert (B6 : forall x, In x b4 -> i_best (inn g6 x) <> None). { intros x J. destruct (S46 x) as (_ & _ & -> & _). auto. }
  destruct (settle_ok (ic_order cf b4) g6) as (I7 & S7 & Z7); [auto| |].
  { intros x J. apply (proj1 (order_in b4 x)) in J. destruct (R4 x J) as (MX & GX & _). split; [destruct (S46 x) as (-> & _); auto|]. split; auto. }
  pose proof (same_trans _ _ _ (proj1 L4) (same_trans _ _ _ S46 S7)) as S37.
  split; [auto|]. split; [destruct (S37 s) as (-> & _); apply R3, R2, IN2|]. split; [|split].
  - destruct (S7 s) as (_ & _ & -> & _). auto.
  - intros EP. eapply same_consistent; [exact S37|]. apply C3; auto.
  - intros EP WT. apply Z7; auto. left. now apply order_in.
Qed.

Lemma loop_ok : forall fuel inner g s g', inv g -> dmem g s = true -> i_solved (inn g s) = false -> ilao_loop fuel inner p cf g s = Ok g' ->
  inv g' /\ dmem g' s = true /\ i_best (inn g' s) <> None /\ ((0 <= eps)%Q -> consistent g' s) /\ ~ ((eps <= 0)%Q /\ weights p).
Proof.
  induction fuel as [|fuel IH]; intros inner g s g' I M SO E; cbn [ilao_loop] in E; rewrite SO in E; [discriminate|]. unfold bind in E.
  destruct (ilao_turn inner p cf g s) as [g1|] eqn:T; [|discriminate]. destruct (turn_ok inner g s g1 I M SO T) as (I1 & M1 & B1 & C1 & Z1).
  destruct (i_solved (inn g1 s)) eqn:S1.
  - destruct fuel; cbn [ilao_loop] in E; rewrite S1 in E; injection E as <-; (split; [auto|]; split; [auto|]; split; [auto|]; split; [auto|]);
      intros [EP WT]; pose proof (Z1 EP WT); congruence.
  - apply (IH inner g1 s g'); auto.
Qed.

Definition rooted (g : igraph St A) (s : St) : igraph St A := if dmem g s then g else dset g s (fresh p s).
Lemma rooted_inv : forall g s, inv g -> inv (rooted g s) /\ dmem (rooted g s) s = true /\ (i_best (inn (rooted g s) s) = i_best (inn g s)).
Proof.
  intros g s I. unfold rooted. destruct (dmem g s) eqn:M; [auto|]. split; [apply inv_set; auto; apply (fresh_ok p cf); auto|]. rewrite dmem_dset_i, inn_dset, pyeqb_refl.
  split; [auto|]. unfold inn. unfold dmem in M. destruct (dget g s); [discriminate|]. unfold fresh. now destruct (m_goal p s).
Qed.
Lemma solve_ok : forall fuel g s g', inv g -> m_goal p s = false -> ilao_solve fuel p cf g s = Ok g' ->
  inv g' /\ dmem g' s = true /\ i_best (inn g' s) <> None /\
  (i_best (inn g s) = None -> ((0 <= eps)%Q -> consistent g' s) /\ ~ ((eps <= 0)%Q /\ weights p)).
Proof.
  intros fuel g s g' I G E. unfold ilao_solve in E. rewrite G, orb_false_r in E.
  assert (RE : (if dmem g s then g else dset g s (INode [] None (Some (m_heur p s)) 0%Q Inf false true false)) = rooted g s).
  { unfold rooted, fresh. now rewrite G. }
  rewrite RE in E. destruct (rooted_inv g s I) as (I1 & M1 & B1). set (g1 := rooted g s) in *. clear RE. destruct (i_solved (inn g1 s)) eqn:SO.
  - injection E as <-. pose proof (k_solved _ _ _ _ _ _ (inv_at _ _ _ _ _ I1 M1) G SO) as NB.
    split; [auto|]. split; [auto|]. split; [auto|]. intros C. congruence.
  - destruct (loop_ok fuel fuel g1 s g' I1 M1 SO E) as (I2 & M2 & B2 & C2 & Z2). auto.
Qed.
Lemma session_inv : forall g, isession p cf g -> inv g.
Proof.
  intros g H. induction H as [|g fuel s g' H IH G E]; [intros x n C; discriminate|]. apply (solve_ok fuel g s g'); auto.
Qed.
End Ilao.
