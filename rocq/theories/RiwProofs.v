(** Proofs about RiwModel.v: the graph of a solver on a simulation domain stays sound. *)
From Coq Require Import List Bool Arith ZArith QArith Lia Sorted.
From Verif Require Import Py PyList RiwModel RiwSpec.
From Verif Require IwModel IwSpec IwTupleProofs.
Import ListNotations.
Open Scope nat_scope.

(** Either a result with the property [P] or one of the errors [al] *)
Definition safe0 (al : py_err -> Prop) {B} (P : B -> Prop) (r : res B) : Prop :=
  match r with Ok b => P b | Err e => al e end.

Lemma safe_bind : forall al A B (P : A -> Prop) (R : B -> Prop) r (f : A -> res B),
  safe0 al P r -> (forall a, r = Ok a -> P a -> safe0 al R (f a)) -> safe0 al R (bind r f).
Proof. intros al A B P R [a|e] f Hs Hf; cbn in *; auto. Qed.

Lemma safe_weak : forall al A (P R : A -> Prop) r, safe0 al P r -> (forall a, P a -> R a) -> safe0 al R r.
Proof. intros al A P R [a|e] H I; cbn in *; auto. Qed.

Lemma safe_foldM : forall al A B (I : A -> Prop) (f : A -> B -> res A) l acc, I acc ->
  (forall acc x, In x l -> I acc -> safe0 al I (f acc x)) -> safe0 al I (foldM f acc l).
Proof.
  intros al A B I f l. induction l as [|x l IH]; intros acc H Hf; cbn; [exact H|].
  eapply safe_bind; [apply Hf; [now left|exact H]|].
  intros a _ Ha. apply IH; [exact Ha|]. intros acc' y Iy. apply Hf. now right.
Qed.

Lemma safe_mapM : forall al A B (P : B -> Prop) (f : A -> res B) l, (forall x, In x l -> safe0 al P (f x)) ->
  safe0 al (Forall P) (mapM f l).
Proof.
  intros al A B P f l. induction l as [|x l IH]; intros H; cbn; [constructor|].
  eapply safe_bind; [apply H; now left|]. intros b _ Hb.
  eapply safe_bind; [apply IH; intros y Iy; apply H; now right|]. intros bs _ Hbs. cbn. now constructor.
Qed.

Lemma enum_In : forall B (l : list B) i x, In (i, x) (enum l) -> nth_error l i = Some x.
Proof.
  intros B l i x. unfold enum. intros H.
  assert (G : forall n (m : list B), In (i, x) (combine (seq n (length m)) m) -> n <= i /\ nth_error m (i - n) = Some x).
  { intros n m. revert n. induction m as [|y m IH]; intros n Hi; cbn in Hi; [contradiction|].
    destruct Hi as [E|Hi].
    - injection E as -> ->. rewrite Nat.sub_diag. split; [lia|reflexivity].
    - destruct (IH _ Hi) as [L E]. split; [lia|]. replace (i - n) with (S (i - S n)) by lia. exact E. }
  destruct (G 0 l H) as [_ E]. now rewrite Nat.sub_0_r in E.
Qed.

Section Riw.
Context {St A V : Type} {ES : PyEq St} {EV : PyEq V}.
Variables (p : @problem St A V) (c : params) (clock : nat -> nat) (draw : nat -> nat) (order : list St -> list St).
Variable al : py_err -> Prop.
Hypothesis sim : use_simulation_domain c = true.
Hypothesis order_in : forall l x, In x (order l) <-> In x l.

Local Notation safe := (safe0 al).
Local Notation graph := (list (St * @node St A)).
Local Notation world := (@world St A V).

Definition dom (g : graph) (k : St) : Prop := exists n, dget g k = Some n.

Definition good (g : graph) (s : St) (n : node) : Prop :=
  (forall a r ch, In (a, r, ch) (n_children n) -> In a (apps p s) /\
     forall y, ch = Some y -> y = next p s a /\ r = reward p s a /\ dom g y) /\
  (forall i, n_best n = Some i -> exists a r y, nth_error (n_children n) i = Some (a, r, Some y)) /\
  (forall k, In k (n_parents n) -> dom g k).

Definition ok (g : graph) : Prop := forall s n, dget g s = Some n -> good g s n.

(** Nodes stay in the graph, and stay pruned. *)
Definition ext (g g' : graph) : Prop := forall k n, dget g k = Some n ->
  exists n', dget g' k = Some n' /\ (n_pruned n = true -> n_pruned n' = true).

Definition post (g g' : graph) : Prop := ok g' /\ ext g g'.

Lemma ext_refl : forall g, ext g g.
Proof. intros g k n E. exists n. auto. Qed.

Lemma ext_trans : forall a b d, ext a b -> ext b d -> ext a d.
Proof. intros a b d H1 H2 k n E. destruct (H1 k n E) as (n1 & E1 & P1). destruct (H2 k n1 E1) as (n2 & E2 & P2). exists n2. auto. Qed.

Lemma ext_dom : forall g g' k, ext g g' -> dom g k -> dom g' k.
Proof. intros g g' k H [n E]. destruct (H k n E) as (n' & E' & _). now exists n'. Qed.

Lemma post_trans : forall a b d, ext a b -> post b d -> post a d.
Proof. intros a b d H1 [H2 H3]. split; [exact H2|]. eapply ext_trans; eauto. Qed.

Lemma dom_dset : forall g s n k, dom g k -> dom (dset g s n) k.
Proof.
  intros g s n k [m E]. destruct (pyeqb_spec s k) as [->|N]; [exists n; apply dget_dset_same|].
  exists m. now rewrite dget_dset_other.
Qed.

Lemma dom_same : forall (g : graph) s n, dom (dset g s n) s.
Proof. intros g s n. exists n. apply dget_dset_same. Qed.

Lemma good_ext : forall g g' s n, (forall k, dom g k -> dom g' k) -> good g s n -> good g' s n.
Proof.
  intros g g' s n H (G1 & G2 & G3). repeat split.
  - now destruct (G1 _ _ _ H0).
  - destruct (G1 _ _ _ H0) as [_ G]. now destruct (G y H1) as (-> & _).
  - destruct (G1 _ _ _ H0) as [_ G]. now destruct (G y H1) as (_ & -> & _).
  - destruct (G1 _ _ _ H0) as [_ G]. destruct (G y H1) as (_ & _ & D). auto.
  - exact G2.
  - auto.
Qed.

Lemma ok_dset : forall g s n, ok g -> good (dset g s n) s n -> ok (dset g s n).
Proof.
  intros g s n H Hn t m E. destruct (pyeqb_spec s t) as [->|N].
  - rewrite dget_dset_same in E. injection E as <-. exact Hn.
  - rewrite dget_dset_other in E by exact N. eapply good_ext; [|exact (H _ _ E)]. intros k. apply dom_dset.
Qed.

Lemma ext_dset : forall g s n n', dget g s = Some n -> (n_pruned n = true -> n_pruned n' = true) -> ext g (dset g s n').
Proof.
  intros g s n n' E Hp k m Ek. destruct (pyeqb_spec s k) as [->|N].
  - rewrite E in Ek. injection Ek as <-. exists n'. rewrite dget_dset_same. auto.
  - exists m. rewrite dget_dset_other by exact N. auto.
Qed.

(** A change of a node that keeps its children and its parents *)
Lemma post_set : forall g s n n', ok g -> dget g s = Some n -> (n_pruned n = true -> n_pruned n' = true) ->
  n_children n' = n_children n -> n_parents n' = n_parents n ->
  (forall i, n_best n' = Some i -> n_best n = Some i \/ exists a r y, nth_error (n_children n) i = Some (a, r, Some y)) ->
  post g (dset g s n').
Proof.
  intros g s n n' H E Hp Hc Hpa Hb. split; [|eapply ext_dset; eauto].
  apply ok_dset; [exact H|]. apply good_ext with g; [intros k; apply dom_dset|].
  destruct (H _ _ E) as (G1 & G2 & G3). repeat split.
  - rewrite Hc in H0. now destruct (G1 _ _ _ H0).
  - rewrite Hc in H0. destruct (G1 _ _ _ H0) as [_ G]. now destruct (G y H1) as (-> & _).
  - rewrite Hc in H0. destruct (G1 _ _ _ H0) as [_ G]. now destruct (G y H1) as (_ & -> & _).
  - rewrite Hc in H0. destruct (G1 _ _ _ H0) as [_ G]. destruct (G y H1) as (_ & _ & D). auto.
  - intros i Ei. rewrite Hc. destruct (Hb i Ei) as [Eb|X]; [exact (G2 i Eb)|exact X].
  - rewrite Hpa. exact G3.
Qed.

Lemma at_safe : forall g k, dom g k -> safe (fun n => dget g k = Some n) (at_ g k).
Proof. intros g k [n E]. unfold at_. rewrite E. reflexivity. Qed.

Lemma at_ok : forall (g : graph) k n, at_ g k = Ok n -> dget g k = Some n.
Proof. intros g k n. unfold at_. destruct (dget g k); congruence. Qed.

Lemma on_safe : forall g k f, ok g -> dom g k ->
  (forall n, (n_pruned n = true -> n_pruned (f n) = true) /\ n_children (f n) = n_children n /\ n_parents (f n) = n_parents n /\
             n_best (f n) = n_best n) ->
  safe (post g) (on g k f).
Proof.
  intros g k f H [n E] Hf. unfold on, at_. rewrite E. cbn. destruct (Hf n) as (F1 & F2 & F3 & F4).
  eapply post_set; eauto. intros i Ei. left. congruence.
Qed.

(** *** The backup *)
Lemma update_parent_safe : forall g x, ok g -> dom g x -> safe (post g) (update_parent c g x).
Proof.
  intros g x H [n E]. unfold update_parent. unfold at_ at 1. rewrite E. cbn [bind].
  set (g0 := dset g x (set_best (set_solved n true) (- dbl_max)%Q None)).
  assert (P0 : post g g0).
  { eapply post_set; eauto; try (intros; discriminate). }
  eapply safe_weak with (P := fun g' => post g g' /\ exists nx, dget g' x = Some nx /\ n_children nx = n_children n);
    [|intros a [P _]; exact P].
  apply safe_foldM.
  - split; [exact P0|]. eexists. split; [apply dget_dset_same|reflexivity].
  - intros acc [i [[a r] ch]] Ie [[Oa Xa] (nx & Ex & Ec)]. unfold update_child.
    unfold at_ at 1. rewrite Ex. cbn [bind].
    apply enum_In in Ie.
    destruct ch as [k|].
    + destruct (Oa _ _ Ex) as (G1 & _ & _).
      destruct (G1 a r (Some k)) as [_ G]; [rewrite Ec; eapply nth_error_In; eauto|].
      destruct (G k eq_refl) as (_ & _ & [m Em]).
      unfold at_. rewrite Em. cbn [bind safe].
      set (n' := if Qltb _ _ then _ else _). split.
      * eapply post_trans; [exact Xa|]. eapply post_set; [exact Oa|exact Ex| | | |];
          subst n'; destruct (Qltb _ _); cbn; auto.
        intros j Ej. injection Ej as <-. right. rewrite Ec. eauto.
      * exists n'. rewrite dget_dset_same. split; [reflexivity|]. subst n'; destruct (Qltb _ _); exact Ec.
    + cbn. split.
      * eapply post_trans; [exact Xa|]. eapply post_set; [exact Oa|exact Ex|..]; cbn; auto.
      * eexists. rewrite dget_dset_same. split; [reflexivity|]. exact Ec.
Qed.

Definition inside (g : graph) (l : list St) : Prop := forall k, In k l -> dom g k.

Lemma inside_ext : forall g g' l, ext g g' -> inside g l -> inside g' l.
Proof. intros g g' l X H k Ik. eapply ext_dom; eauto. Qed.

Lemma inside_add : forall g l x, inside g l -> dom g x -> inside g (pyadd l x).
Proof. intros g l x H D k Ik. apply pyadd_In in Ik. destruct Ik as [->|Ik]; auto. Qed.

Lemma update_frontier_safe : forall g new k, ok g -> inside g new -> dom g k ->
  safe (fun st => post g (fst st) /\ inside (fst st) (snd st)) (update_frontier c order (g, new) k).
Proof.
  intros g new k H Hn [n E]. unfold update_frontier, at_. rewrite E. cbn [bind].
  apply safe_foldM.
  - cbn. split; [split; [exact H|apply ext_refl]|exact Hn].
  - intros [ga fa] x Ix [[Oa Xa] Fa]. cbn [fst snd] in *.
    assert (Dx : dom ga x).
    { eapply ext_dom; [exact Xa|]. destruct (H _ _ E) as (_ & _ & G). apply G. exact (proj1 (order_in _ _) Ix). }
    eapply safe_bind; [apply update_parent_safe; [exact Oa|exact Dx]|].
    intros g' _ [O' X']. cbn. split; [split; [exact O'|eapply ext_trans; eauto]|].
    apply inside_add; [eapply inside_ext; eauto|eapply ext_dom; eauto].
Qed.

Lemma backup_loop_safe : forall rounds g frontier, ok g -> inside g frontier ->
  safe (post g) (backup_loop c order rounds g frontier).
Proof.
  induction rounds as [|rounds IH]; intros g frontier H Hf; cbn [backup_loop].
  - split; [exact H|apply ext_refl].
  - destruct frontier as [|k0 l0] eqn:Ef; [split; [exact H|apply ext_refl]|]. rewrite <- Ef in *.
    eapply safe_bind with (P := fun st => post g (fst st) /\ inside (fst st) (snd st)).
    + apply safe_foldM.
      * cbn. split; [split; [exact H|apply ext_refl]|]. intros k [].
      * intros [ga fa] x Ix [[Oa Xa] Fa]. cbn [fst snd] in *.
        eapply safe_weak; [apply update_frontier_safe; [exact Oa|exact Fa|]|].
        -- eapply ext_dom; [exact Xa|]. apply Hf. exact (proj1 (order_in _ _) Ix).
        -- intros [g' f'] [[O' X'] F']. cbn in *. split; [split; [exact O'|eapply ext_trans; eauto]|exact F'].
    + intros [g' f'] _ [[O' X'] F']. cbn [fst snd] in *.
      eapply safe_weak; [apply IH; [exact O'|exact F']|]. intros g'' P. eapply post_trans; eauto.
Qed.

Lemma backup_safe : forall minr g frontier, ok g -> inside g frontier ->
  safe (post g) (backup_values c order minr g frontier).
Proof.
  intros minr g frontier H Hf. unfold backup_values.
  eapply safe_bind with (P := post g).
  - apply safe_foldM.
    + split; [exact H|apply ext_refl].
    + intros ga k Ik [Oa Xa]. unfold tip.
      assert (D : dom ga k) by (eapply ext_dom; [exact Xa|]; apply Hf; exact (proj1 (order_in _ _) Ik)).
      destruct D as [n E]. unfold at_. rewrite E. cbn.
      destruct (n_pruned n) eqn:Ep; [|split; assumption].
      eapply post_trans; [exact Xa|]. eapply post_set; [exact Oa|exact E|..]; cbn; auto.
  - intros g1 _ [O1 X1]. eapply safe_weak; [apply backup_loop_safe; [exact O1|eapply inside_ext; eauto]|].
    intros g2 P. eapply post_trans; eauto.
Qed.

(** *** The steps of a rollout *)
Definition wpost (w w' : world) : Prop :=
  post (w_graph w) (w_graph w') /\ w_rollouts w' = w_rollouts w /\ length (w_tuples w') = length (w_tuples w).

Lemma wpost_trans : forall a b d, wpost a b -> wpost b d -> wpost a d.
Proof.
  intros a b d ([_ X1] & R1 & T1) (P2 & R2 & T2). split; [eapply post_trans; eauto|]. split; congruence.
Qed.

Lemma update_node_safe : forall w k sv, ok (w_graph w) -> dom (w_graph w) k ->
  safe (wpost w) (update_node c order w k sv).
Proof.
  intros w k sv H D. unfold update_node.
  eapply safe_bind; [apply on_safe; [exact H|exact D|]|].
  { intros n. cbn. auto. }
  intros g _ [O X].
  eapply safe_bind; [apply backup_safe; [exact O|]|].
  - intros y Iy. destruct (w_changed w).
    + apply in_map_iff in Iy. destruct Iy as ([y' m] & <- & Im). apply filter_In in Im. destruct Im as [Im _].
      cbn. destruct (dget g y') as [m'|] eqn:E; [now exists m'|].
      exfalso. apply (proj1 (dget_None _ _)) in E. apply E. unfold dkeys. change y' with (fst (y', m)). now apply in_map.
    + destruct Iy as [<-|[]]. eapply ext_dom; eauto.
  - intros g' _ P. cbn. split; [eapply post_trans; eauto|]. auto.
Qed.

Lemma expand_safe : forall g k, ok g -> dom g k -> safe (post g) (expand p g k).
Proof.
  intros g k H [n E]. unfold expand, on, at_. rewrite E. cbn [bind safe].
  destruct (n_children n) eqn:Ec.
  - split; [|eapply ext_dset; [exact E|]; auto].
    apply ok_dset; [exact H|]. destruct (H _ _ E) as (_ & G2 & G3). repeat split; cbn.
    + cbn in H0. apply in_map_iff in H0. destruct H0 as (a' & E' & Ia). injection E' as <- <- <-. exact Ia.
    + cbn in H0. apply in_map_iff in H0. destruct H0 as (a' & E' & Ia). congruence.
    + cbn in H0. apply in_map_iff in H0. destruct H0 as (a' & E' & Ia). congruence.
    + cbn in H0. apply in_map_iff in H0. destruct H0 as (a' & E' & Ia). congruence.
    + intros i Ei. exfalso. destruct (G2 i Ei) as (a & r & y & X). rewrite Ec in X. destruct i; discriminate X.
    + intros y Iy. apply dom_dset. auto.
  - eapply post_set; eauto.
Qed.

(** What may be drawn: the children without a next node and those whose next node is not solved. *)
Definition drawable (g : graph) (n : @node St A) (i : nat) : Prop :=
  exists a r ch, nth_error (n_children n) i = Some (a, r, ch) /\
    forall y, ch = Some y -> exists m, dget g y = Some m /\ n_solved m = false.

Lemma unsolved_safe : forall g k n, ok g -> dget g k = Some n ->
  safe (fun l => forall i, In i l -> drawable g n i) (unsolved g k).
Proof.
  intros g k n H E. unfold unsolved, at_ at 1. rewrite E. cbn [bind].
  eapply safe_bind with (P := Forall (fun l => forall i, In i l -> drawable g n i)).
  - apply safe_mapM. intros [i [[a r] ch]] Ie. apply enum_In in Ie. cbn [snd fst].
    destruct ch as [y|].
    + destruct (H _ _ E) as (G1 & _ & _). destruct (G1 a r (Some y) (nth_error_In _ _ Ie)) as [_ G].
      destruct (G y eq_refl) as (_ & _ & [m Em]). unfold at_. rewrite Em. cbn. intros j Ij.
      destruct (n_solved m) eqn:Es; [contradiction|]. destruct Ij as [<-|[]].
      exists a, r, (Some y). split; [exact Ie|]. intros y' Ey. injection Ey as <-. eauto.
    + cbn. intros j [<-|[]]. exists a, r, None. split; [exact Ie|]. discriminate.
  - intros ls _ F. cbn. intros i Ii. apply in_concat in Ii. destruct Ii as (l & Il & Iil).
    rewrite Forall_forall in F. exact (F l Il i Iil).
Qed.

Lemma ok_children : forall g k n i a r y, ok g -> dget g k = Some n -> nth_error (n_children n) i = Some (a, r, Some y) ->
  In a (apps p k) /\ y = next p k a /\ r = reward p k a /\ dom g y.
Proof.
  intros g k n i a r y H E En. destruct (H _ _ E) as (G1 & _ & _). destruct (G1 a r (Some y) (nth_error_In _ _ En)) as [Ia G].
  destruct (G y eq_refl) as (E1 & E2 & D). auto.
Qed.

Lemma lset_nth : forall B (l : list B) i x j y, nth_error (lset l i x) j = Some y -> y = x \/ nth_error l j = Some y.
Proof.
  intros B l. induction l as [|z l IH]; intros [|i] x [|j] y H; cbn in *; try discriminate; auto.
  - injection H as <-. auto.
  - eapply IH; eauto.
Qed.

Lemma lset_filled : forall B (l : list B) i x j y, nth_error l j = Some y -> nth_error (lset l i x) j = Some y \/ nth_error (lset l i x) j = Some x.
Proof.
  intros B l. induction l as [|z l IH]; intros [|i] x [|j] y H; cbn in *; try discriminate; auto.
Qed.

Lemma emplace_spec : forall (g : graph) y, ok g -> ok (fst (emplace g y)) /\ ext g (fst (emplace g y)) /\ dom (fst (emplace g y)) y.
Proof.
  intros g y H. unfold emplace. destruct (dmem g y) eqn:M; cbn.
  - split; [exact H|]. split; [apply ext_refl|]. unfold dmem in M. destruct (dget g y) as [n|] eqn:E; [now exists n|discriminate].
  - split; [|split].
    + apply ok_dset; [exact H|]. repeat split; cbn in *; try contradiction; try discriminate.
    + intros k n E. exists n. split; [|auto]. rewrite dget_dset_other; [exact E|].
      intros ->. unfold dmem in M. rewrite E in M. discriminate.
    + apply dom_same.
Qed.

Lemma fill_child_safe : forall w k n i, ok (w_graph w) -> dget (w_graph w) k = Some n -> drawable (w_graph w) n i ->
  safe (fun r => wpost w (fst (fst r)) /\ dom (w_graph (fst (fst r))) (snd (fst r))) (fill_child p c w k i).
Proof.
  intros w k n i H E (a & r & ch & En & Hch). unfold fill_child. unfold at_ at 1. rewrite E. cbn [bind].
  unfold lget. rewrite En. cbn [bind].
  assert (Ia : In a (apps p k)).
  { destruct (H _ _ E) as (G1 & _ & _). now destruct (G1 a r ch (nth_error_In _ _ En)). }
  destruct ch as [y|].
  - destruct (ok_children _ _ _ _ _ _ _ H E En) as (_ & _ & _ & D).
    unfold advance. rewrite sim.
    eapply safe_bind; [apply on_safe; [exact H|exact D|]|].
    { intros m. cbn. auto. }
    intros g1 _ [O1 X1]. cbn. split; [|eapply ext_dom; eauto]. split; [split; assumption|]. auto.
  - unfold progress. rewrite sim. cbv zeta. destruct (emplace (w_graph w) (next p k a)) as [g1 new] eqn:Em.
    pose proof (emplace_spec _ (next p k a) H) as (O1 & X1 & D1). rewrite Em in O1, X1, D1. cbn [fst] in O1, X1, D1.
    eapply safe_bind with (P := post g1).
    { unfold on. destruct (X1 _ _ E) as (n1 & E1 & _). unfold at_. rewrite E1. cbn [bind safe].
      destruct (O1 _ _ E1) as (G1 & G2 & G3). split; [|eapply ext_dset; [exact E1|]; auto].
      apply ok_dset; [exact O1|]. repeat split; cbn.
      - cbn in H0. apply In_nth_error in H0. destruct H0 as [j Ej]. apply lset_nth in Ej. destruct Ej as [Ej|Ej].
        + injection Ej as -> -> ->. exact Ia.
        + now destruct (G1 _ _ _ (nth_error_In _ _ Ej)).
      - cbn in H0. apply In_nth_error in H0. destruct H0 as [j Ej]. apply lset_nth in Ej. destruct Ej as [Ej|Ej].
        + congruence.
        + destruct (G1 _ _ _ (nth_error_In _ _ Ej)) as [_ G]. now destruct (G y H1) as (-> & _).
      - cbn in H0. apply In_nth_error in H0. destruct H0 as [j Ej]. apply lset_nth in Ej. destruct Ej as [Ej|Ej].
        + congruence.
        + destruct (G1 _ _ _ (nth_error_In _ _ Ej)) as [_ G]. now destruct (G y H1) as (_ & -> & _).
      - cbn in H0. apply In_nth_error in H0. destruct H0 as [j Ej]. apply lset_nth in Ej. destruct Ej as [Ej|Ej].
        + assert (y = next p k a) as -> by congruence. now apply dom_dset.
        + destruct (G1 _ _ _ (nth_error_In _ _ Ej)) as [_ G]. destruct (G y H1) as (_ & _ & Dy). now apply dom_dset.
      - intros j Ej. destruct (G2 j Ej) as (a' & r' & y' & X).
        destruct (@lset_filled _ _ i (a, reward p k a, Some (next p k a)) _ _ X) as [X'|X']; eauto.
      - intros q Iq. apply dom_dset. auto. }
    intros g2 _ [O2 X2].
    assert (Dk : dom g2 k) by (eapply ext_dom; [exact X2|]; eapply ext_dom; [exact X1|]; now exists n).
    eapply safe_bind with (P := post g2).
    { assert (Dy : dom g2 (next p k a)) by (eapply ext_dom; eauto). destruct Dy as [m Em2].
      unfold on, at_. rewrite Em2. cbn [bind safe]. split; [|eapply ext_dset; [exact Em2|]; auto].
      apply ok_dset; [exact O2|]. destruct (O2 _ _ Em2) as (G1 & G2 & G3).
      apply good_ext with g2; [intros q; apply dom_dset|]. split; [exact G1|]. split; [exact G2|].
      cbn. intros q Iq. apply pyadd_In in Iq. destruct Iq as [->|Iq]; auto. }
    intros g3 _ [O3 X3].
    assert (X03 : ext (w_graph w) g3) by (eapply ext_trans; [exact X1|]; eapply ext_trans; eauto).
    eapply safe_bind; [apply at_safe; eapply ext_dom; [exact X3|exact Dk]|].
    intros n3 _ E3.
    assert (D3 : dom g3 (next p k a)) by (eapply ext_dom; [exact X3|]; eapply ext_dom; eauto).
    destruct new.
    + eapply safe_bind; [apply on_safe; [exact O3|exact D3|]|].
      { intros m. cbn. auto. }
      intros g4 _ [O4 X4]. cbn. split; [|eapply ext_dom; eauto].
      split; [split; [exact O4|eapply ext_trans; eauto]|].
      destruct (Qltb (reward p k a) (w_min w)); destruct (is_terminal p (next p k a) && _); auto.
    + eapply safe_bind; [apply on_safe; [exact O3|exact D3|]|].
      { intros m. cbn. auto. }
      intros g4 _ [O4 X4]. cbn. split; [|eapply ext_dom; eauto].
      split; [split; [exact O4|eapply ext_trans; eauto]|].
      destruct (Qltb (reward p k a) (w_min w)); auto.
Qed.

(** *** The novelty *)
Lemma novelty_of_safe : forall width (tbls : list (list (list (nat * V) * Z))) f d nn, width <= length tbls ->
  safe (fun r => length (snd r) = length tbls) (novelty_of width tbls f d nn).
Proof.
  intros width tbls f d nn L. unfold novelty_of.
  apply safe_foldM; [reflexivity|].
  intros [[nov novel] ts] k Ik El. cbn [snd] in El. apply in_seq in Ik.
  unfold novelty_size. unfold lget at 1.
  destruct (nth_error ts (k - 1)) as [tbl|] eqn:Et.
  2:{ apply nth_error_None in Et. lia. }
  cbn [bind]. rewrite IwTupleProofs.generate_ok by lia. cbn [bind].
  eapply safe_bind with (P := fun _ => True).
  - apply safe_foldM; [exact I|]. intros [[nov' novel'] tbl'] cv Icv _. unfold novelty_tuple.
    eapply safe_bind with (P := fun _ => True).
    + eapply safe_weak; [apply safe_mapM with (P := fun _ => True)|auto]. intros j Ij.
      apply IwTupleProofs.combs_choice in Icv; [|lia]. destruct Icv as (_ & _ & F).
      rewrite Forall_forall in F. specialize (F j Ij). unfold lget.
      destruct (nth_error f j) eqn:Ef; [exact I|]. apply nth_error_None in Ef. lia.
    + intros t _ _. destruct (dget tbl' t); exact I.
  - intros [[nov' novel'] tbl'] _ _. unfold lput. destruct (k - 1 <? length ts) eqn:Ek; [|apply Nat.ltb_ge in Ek; lia].
    cbn. rewrite lset_length. exact El.
Qed.

Lemma novelty_safe : forall width w k nn, ok (w_graph w) -> dom (w_graph w) k -> width <= length (w_tuples w) ->
  safe (fun r => wpost w (fst r)) (novelty p width w k nn).
Proof.
  intros width w k nn H [n E] L. unfold novelty, at_. rewrite E. cbn [bind].
  eapply safe_bind; [apply novelty_of_safe; exact L|].
  intros [[nov novel] ts] _ El. cbn [snd] in El. cbn. split; [|auto].
  eapply post_set; [exact H|exact E|..]; cbn; auto.
Qed.

Lemma nth_pick : forall (l : list nat) i0 j, In (nth j (i0 :: l) i0) (i0 :: l).
Proof. intros l i0 j. destruct (nth_in_or_default j (i0 :: l) i0) as [I|E]; [exact I|]. rewrite E. now left. Qed.

Hypothesis al_fuel : al OutOfFuel.
Hypothesis al_end : al RuntimeError.

Lemma rollout_loop_safe : forall fuel width w k, ok (w_graph w) -> dom (w_graph w) k -> width <= length (w_tuples w) ->
  safe (wpost w) (rollout_loop p c clock draw order fuel width w k).
Proof.
  induction fuel as [|fuel IH]; intros width w k H D L; cbn [rollout_loop].
  - eapply safe_bind; [apply at_safe; exact D|]. intros n _ E. destruct (n_solved n); cbn; auto.
    split; [split; [exact H|apply ext_refl]|auto].
  - eapply safe_bind; [apply at_safe; exact D|]. intros n _ E. destruct (n_solved n).
    { split; [split; [exact H|apply ext_refl]|auto]. }
    eapply safe_bind; [apply expand_safe; [exact H|exact D]|]. intros g1 _ [O1 X1].
    assert (D1 : dom g1 k) by (eapply ext_dom; eauto). destruct D1 as [n1 E1].
    eapply safe_bind; [apply unsolved_safe; [exact O1|exact E1]|]. intros l _ Hl.
    destruct l as [|i0 l]; [cbn; auto|].
    assert (W1 : wpost w (with_oracles (with_graph w g1) (w_ticks w) (S (w_draws w)))).
    { split; [split; assumption|]. auto. }
    eapply safe_bind; [eapply fill_child_safe; [exact O1|exact E1|apply Hl; apply nth_pick]|].
    intros [[w2 y] new] _ [W2 D2]. cbn [fst snd] in W2, D2.
    assert (W02 : wpost w w2) by (eapply wpost_trans; eauto).
    pose proof W02 as ([O2 _] & _ & T2).
    eapply safe_bind; [apply at_safe; exact D2|]. intros m _ Em.
    destruct (n_terminal m || n_solved m).
    { eapply safe_bind; [apply update_node_safe; [exact O2|exact D2]|]. intros w3 _ W3. cbn.
      eapply wpost_trans; [exact W02|]. exact W3. }
    eapply safe_bind; [apply novelty_safe; [exact O2|exact D2|lia]|].
    intros [w3 novel] _ W3. cbn [fst] in W3.
    assert (W03 : wpost w w3) by (eapply wpost_trans; eauto).
    pose proof W03 as ([O3 _] & _ & T3).
    assert (D3 : dom (w_graph w3) y) by (destruct W3 as ([_ X] & _); eapply ext_dom; eauto).
    destruct (negb novel).
    { eapply safe_bind; [apply on_safe; [exact O3|exact D3|]|].
      { intros q. cbn. auto. }
      intros g4 _ [O4 X4]. eapply safe_weak; [apply update_node_safe; cbn; [exact O4|eapply ext_dom; eauto]|].
      intros w5 W5. eapply wpost_trans; [exact W03|].
      destruct W5 as ([O5 X5] & R5 & T5). cbn in *. split; [split; [exact O5|eapply ext_trans; eauto]|]. auto. }
    destruct (max_depth c <=? n_depth m)%Z.
    { eapply safe_bind; [apply update_node_safe; [exact O3|exact D3]|]. intros w4 _ W4. cbn.
      eapply wpost_trans; [exact W03|]. exact W4. }
    unfold read_clock. destruct (time_budget c <=? clock (w_ticks w3)).
    { destruct (n_children m).
      - eapply safe_weak; [apply update_node_safe; cbn; [exact O3|exact D3]|].
        intros w5 W5. eapply wpost_trans; [exact W03|]. exact W5.
      - exact W03. }
    eapply safe_weak; [apply IH; cbn; [exact O3|exact D3|lia]|].
    intros w5 W5. eapply wpost_trans; [exact W03|]. exact W5.
Qed.

(** *** The rollouts, the widths *)
Definition sound (w : world) : Prop := ok (w_graph w).

(** An action is drawn only in a rollout that is counted. *)
Definition counted (w w' : world) : Prop := w_rollouts w < w_rollouts w' \/ (w_rollouts w' = w_rollouts w /\ w_draws w' = w_draws w).

Lemma counted_trans : forall a b d, counted a b -> counted b d -> counted a d.
Proof. unfold counted. intros a b d [?|[? ?]] [?|[? ?]]; (left; lia) || (right; split; lia). Qed.

Lemma novelty_counted : forall width w k nn r, novelty p width w k nn = Ok r -> counted w (fst r).
Proof.
  intros width w k nn r H. unfold novelty in H. destruct (at_ (w_graph w) k) as [n|]; [|discriminate]. cbn [bind] in H.
  destruct (novelty_of width (w_tuples w) (features p k) (n_depth n) nn) as [[[nov novel] ts]|]; [|discriminate]. cbn [bind] in H.
  injection H as <-. right. split; reflexivity.
Qed.

Lemma rollouts_safe : forall rounds fuel width w s, sound w -> dom (w_graph w) s -> width <= length (w_tuples w) ->
  w_rollouts w <= rollout_budget c ->
  safe (fun w' => post (w_graph w) (w_graph w') /\ length (w_tuples w') = length (w_tuples w) /\ w_rollouts w' <= rollout_budget c /\ counted w w')
    (rollouts p c clock draw order rounds fuel width w s).
Proof.
  induction rounds as [|rounds IH]; intros fuel width w s H D L B; cbn [rollouts].
  - eapply safe_bind; [apply at_safe; exact D|]. intros n _ E. destruct (n_solved n).
    { cbn. split; [split; [exact H|apply ext_refl]|repeat split; auto; right; split; reflexivity]. }
    unfold read_clock. cbn [w_rollouts with_oracles]. destruct ((clock (w_ticks w) <? time_budget c) && (w_rollouts w <? rollout_budget c)); cbn; auto. split; [split; [exact H|apply ext_refl]|repeat split; auto; right; split; reflexivity].
  - eapply safe_bind; [apply at_safe; exact D|]. intros n _ E. destruct (n_solved n).
    { cbn. split; [split; [exact H|apply ext_refl]|repeat split; auto; right; split; reflexivity]. }
    unfold read_clock. cbn [w_rollouts with_oracles].
    destruct ((clock (w_ticks w) <? time_budget c) && (w_rollouts w <? rollout_budget c)) eqn:Eb; [|cbn; split; [split; [exact H|apply ext_refl]|repeat split; auto; right; split; reflexivity]].
    apply andb_prop in Eb. destruct Eb as [_ Eb]. apply Nat.ltb_lt in Eb. cbn in Eb.
    eapply safe_bind.
    { unfold rollout, init_rollout. rewrite sim. apply rollout_loop_safe; cbn; [exact H|exact D|exact L]. }
    intros w2 _ ([O2 X2] & R2 & T2). cbn in R2, T2, X2.
    eapply safe_weak; [apply IH; [exact O2|eapply ext_dom; eauto|lia|lia]|].
    intros w3 (P3 & T3 & R3 & C3). split; [eapply post_trans; eauto|]. split; [congruence|]. split; [exact R3|].
    apply counted_trans with w2; [left; lia|exact C3].
Qed.

Lemma dget_map : forall (g : graph) (f : @node St A -> @node St A) k, dget (map (fun e => (fst e, f (snd e))) g) k = option_map f (dget g k).
Proof.
  intros g f k. induction g as [|[k' n] g IH]; cbn; [reflexivity|]. destruct (pyeqb k k'); [reflexivity|exact IH].
Qed.

Lemma width_solve_safe : forall fuel w width s, sound w -> width <= S (length (w_tuples w)) -> w_rollouts w <= rollout_budget c ->
  safe (fun r => sound (snd r) /\ width <= length (w_tuples (snd r)) /\ w_rollouts (snd r) <= rollout_budget c /\ counted w (snd r))
    (width_solve p c clock draw order fuel w width s).
Proof.
  intros fuel w width s H L B. unfold width_solve.
  set (g0 := map (fun e : St * node => (fst e, set_pruned (set_solved (snd e) false) false)) (w_graph w)).
  assert (O0 : ok g0).
  { intros k n E. subst g0. rewrite (dget_map (w_graph w) (fun n => set_pruned (set_solved n false) false)) in E.
    destruct (dget (w_graph w) k) as [m|] eqn:Em; [|discriminate]. injection E as <-.
    apply good_ext with (w_graph w); [|exact (H _ _ Em)].
    intros q [x Ex]. eexists. rewrite (dget_map (w_graph w) (fun n => set_pruned (set_solved n false) false)), Ex. reflexivity. }
  pose proof (emplace_spec g0 s O0) as (O1 & _ & D1). destruct (emplace g0 s) as [g1 new]. cbn [fst] in O1, D1.
  eapply safe_bind; [apply on_safe; [exact O1|exact D1|]|].
  { intros m. cbn. auto. }
  intros g2 _ [O2 X2]. set (tbls := if length (w_tuples w) <? width then w_tuples w ++ [[]] else w_tuples w).
  assert (Lt : width <= length tbls).
  { subst tbls. destruct (length (w_tuples w) <? width) eqn:Ew; [rewrite app_length; cbn; lia|].
    apply Nat.ltb_ge in Ew. exact Ew. }
  assert (D2 : dom g2 s) by (eapply ext_dom; eauto).
  eapply safe_bind; [apply novelty_safe; cbn; [exact O2|exact D2|exact Lt]|].
  intros [w3 novel] En ([O3 X3] & R3 & T3). apply novelty_counted in En. cbn [fst] in *. cbn in X3, R3, T3.
  eapply safe_bind; [apply rollouts_safe with (width := width); [exact O3|eapply ext_dom; eauto|lia|lia]|].
  intros w4 _ ([O4 X4] & T4 & R4 & C4). cbn. split; [exact O4|]. split; [lia|]. split; [exact R4|].
  pose proof (counted_trans _ _ _ En C4) as C5. exact C5.
Qed.

Lemma widths_safe : forall ws fuel w s b, ws = seq b (length ws) -> sound w -> b <= S (length (w_tuples w)) -> w_rollouts w <= rollout_budget c ->
  safe (fun r => sound (snd r) /\ w_rollouts (snd r) <= rollout_budget c /\ counted w (snd r)) (widths p c clock draw order fuel w s ws).
Proof.
  induction ws as [|v ws IH]; intros fuel w s b Ews H L B; cbn [widths].
  - cbn. split; [exact H|]. split; [exact B|]. right. split; reflexivity.
  - cbn [length seq] in Ews. injection Ews as -> Ews.
    eapply safe_bind; [apply width_solve_safe; [exact H|exact L|exact B]|].
    intros [ok' w1] _ (H1 & L1 & B1 & C1). cbn [fst snd] in *. destruct ok'; [cbn; auto|].
    eapply safe_weak; [eapply IH; [exact Ews|exact H1|lia|exact B1]|].
    intros [b' w2] (H2 & B2 & C2). split; [exact H2|]. split; [exact B2|]. eapply counted_trans; eauto.
Qed.

Lemma solve_safe : forall fuel w s, sound w ->
  safe (fun r => sound (snd r) /\ w_rollouts (snd r) <= rollout_budget c /\
    (w_draws (snd r) <> w_draws w -> 0 < w_rollouts (snd r))) (solve p c clock draw order fuel w s).
Proof.
  intros fuel w s H. unfold solve. eapply safe_weak.
  - eapply widths_safe with (b := 1); [now rewrite seq_length|exact H|cbn; lia|cbn; lia].
  - intros [b w'] (S0 & B0 & C0). split; [exact S0|]. split; [exact B0|]. cbn [snd] in *.
    destruct C0 as [C0|[_ C0]]; cbn in C0; [lia|]. intros X. congruence.
Qed.

(** *** The best action *)
Definition spans (g : graph) (sub : list St) : Prop := NoDup sub /\ inside g sub.

Lemma reach_step_safe : forall g st k, ok g -> spans g (fst st) -> inside g (snd st) -> dom g k ->
  safe (fun st' => spans g (fst st') /\ inside g (snd st') /\ length (fst st') + length (snd st) = length (fst st) + length (snd st'))
    (reach_step st k g).
Proof.
  intros g st k H Hs Hf [n E]. unfold reach_step, at_. rewrite E. cbn [bind safe].
  destruct (H _ _ E) as (G1 & _ & _).
  assert (G : forall l st0, (forall e, In e l -> In e (n_children n)) -> spans g (fst st0) -> inside g (snd st0) ->
    let st' := fold_left (fun st e => match snd e with
                             | None => st
                             | Some m => if pymem m (fst st) then st else (fst st ++ [m], snd st ++ [m])
                             end) l st0 in
    spans g (fst st') /\ inside g (snd st') /\ length (fst st') + length (snd st0) = length (fst st0) + length (snd st')).
  { intros l. induction l as [|[[a r] ch] l IH]; intros st0 Hi S0 F0; cbn; [auto|].
    assert (Hl : forall e, In e l -> In e (n_children n)) by (intros e Ie; apply Hi; now right).
    destruct ch as [m|]; [|apply (IH st0 Hl S0 F0)].
    destruct (pymem m (fst st0)) eqn:Em; [apply (IH st0 Hl S0 F0)|].
    destruct (G1 a r (Some m)) as [_ Gm]; [apply Hi; now left|]. destruct (Gm m eq_refl) as (_ & _ & Dm).
    destruct (IH (fst st0 ++ [m], snd st0 ++ [m]) Hl) as (I1 & I2 & I3).
    - destruct S0 as [N0 J0]. split; cbn [fst].
      + apply NoDup_snoc; [exact N0|]. exact (proj1 (pymem_false _ _) Em).
      + intros q Iq. apply in_app_iff in Iq. destruct Iq as [Iq|[<-|[]]]; auto.
    - intros q Iq. cbn [snd] in Iq. apply in_app_iff in Iq. destruct Iq as [Iq|[<-|[]]]; auto.
    - split; [exact I1|]. split; [exact I2|]. cbn [fst snd] in I3. rewrite !app_length in I3. cbn in I3. lia. }
  apply (G (n_children n) st); auto.
Qed.

Lemma spans_length : forall (g : graph) sub, spans g sub -> length sub <= length g.
Proof.
  intros g sub [N I]. rewrite <- (map_length fst g). apply NoDup_incl_length; [exact N|].
  intros k Ik. destruct (I k Ik) as [n E]. apply dget_In in E. change k with (fst (k, n)). now apply in_map.
Qed.

Lemma reach_loop_safe : forall rounds g sub frontier, ok g -> spans g sub -> inside g frontier ->
  length g < rounds + length sub ->
  safe (inside g) (reach_loop order rounds g sub frontier).
Proof.
  induction rounds as [|rounds IH]; intros g sub frontier H Hs Hf L; destruct frontier as [|k0 l0] eqn:Ef; cbn [reach_loop].
  - apply Hs.
  - apply spans_length in Hs. lia.
  - apply Hs.
  - rewrite <- Ef in *.
    assert (R : safe (fun st => spans g (fst st) /\ inside g (snd st) /\ length (fst st) = length sub + length (snd st))
      (foldM (fun st k => reach_step st k g) (sub, []) (order frontier))).
    { apply safe_foldM.
      - cbn. split; [exact Hs|]. split; [intros q []|lia].
      - intros st k Ik (S1 & F1 & E1). eapply safe_weak; [apply reach_step_safe; [exact H|exact S1|exact F1|]|].
        + apply Hf. exact (proj1 (order_in _ _) Ik).
        + intros st' (S2 & F2 & E2). split; [exact S2|]. split; [exact F2|]. lia. }
    destruct (foldM (fun st k => reach_step st k g) (sub, []) (order frontier)) as [st|e]; [|exact R].
    cbn [bind safe0] in *. destruct R as (S1 & F1 & E1).
    destruct (snd st) as [|q l] eqn:Es.
    + destruct rounds; cbn [reach_loop]; apply S1.
    + rewrite <- Es in *. apply IH; auto. assert (length (snd st) >= 1) by (rewrite Es; cbn; lia). lia.
Qed.

Lemma reachable_safe : forall g s, ok g -> dom g s -> safe (inside g) (reachable order g s).
Proof.
  intros g s H D. apply reach_loop_safe; [exact H|split|..].
  - constructor; [auto|constructor].
  - intros q [<-|[]]. exact D.
  - intros q [<-|[]]. exact D.
  - cbn. lia.
Qed.

Hypothesis no_garbage : online_node_garbage c = false.


Lemma update_graph_safe : forall w root_sub, sound w -> inside (w_graph w) root_sub ->
  safe (fun w' => sound w' /\ w_rollouts w' = w_rollouts w) (update_graph c order w root_sub []).
Proof.
  intros w root_sub H Hr. unfold update_graph.
  eapply safe_bind with (P := fun st => post (w_graph w) (fst (fst st)) /\ snd (fst st) = [] /\ inside (fst (fst st)) (snd st)).
  - apply safe_foldM.
    + cbn. split; [split; [exact H|apply ext_refl]|]. split; [reflexivity|]. intros q [].
    + intros [[g rem] fr] k Ik ([O X] & Er & F). cbn [fst snd] in *. unfold first_pass. rewrite no_garbage.
      assert (D : dom g k) by (eapply ext_dom; [exact X|]; apply Hr; exact (proj1 (order_in _ _) Ik)).
      destruct D as [n E]. unfold at_. rewrite E. cbn [bind andb safe0 fst snd].
      assert (P : post g (dset g k (set_depth n (wrap (n_depth n - 1))))).
      { eapply post_set; [exact O|exact E|..]; cbn; auto. }
      destruct P as [O' X']. split; [split; [exact O'|eapply ext_trans; eauto]|]. split; [exact Er|].
      destruct (n_children n); [apply inside_add; [eapply inside_ext; eauto|apply dom_same]|eapply inside_ext; eauto].
  - intros [[g rem] fr] _ ([O X] & Er & F). cbn [fst snd] in *. subst rem. cbn [fold_left].
    eapply safe_bind; [apply backup_safe; [exact O|exact F]|]. intros g' _ [O' _]. cbn. split; [exact O'|reflexivity].
Qed.

Lemma best_action_safe : forall w s n i a r y, sound w -> dget (w_graph w) s = Some n -> n_best n = Some i ->
  nth_error (n_children n) i = Some (a, r, Some y) ->
  safe (fun aw => fst aw = a /\ sound (snd aw)) (get_best_action p c order w s).
Proof.
  intros w s n i a r y H E Eb En. unfold get_best_action. rewrite E, Eb. unfold lget. rewrite En. cbn [bind].
  unfold advance. rewrite sim.
  eapply safe_bind; [apply reachable_safe; [exact H|now exists n]|]. intros sub _ Hs.
  rewrite no_garbage. cbn [bind].
  eapply safe_bind; [apply update_graph_safe; [exact H|exact Hs]|]. intros w2 _ [H2 _]. cbn. auto.
Qed.
End Riw.
