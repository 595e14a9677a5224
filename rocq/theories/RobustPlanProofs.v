(** Plans of a scheduling problem, and what changes when its entries change. *)
From Coq Require Import String.
From Coq Require Import List Bool Arith ZArith QArith Qround Lia Lqa Permutation.
From Coq Require Import ZifyBool ZifyNat.
From Verif Require Import Py PyList SchedProofs SgsModel SgsProofs SgsTotalProofs SgsProps RobustModel RobustProofs.
Import ListNotations.
Open Scope nat_scope.

(** * Specification vocabulary *)
(** The data of task [a] in mode [k]. *)
Definition entry (p : rcpsp) (a k : nat) : option mode :=
  match dget (p_modes p) a with Some d => dget d k | None => None end.
Definition needs (e : mode) (r : string) : Z := match dget (m_need e) r with Some n => n | None => 0%Z end.
Definition lasts (p : rcpsp) (choice : nat -> nat) (a : nat) : Z :=
  match entry p a (choice a) with Some e => Z.of_nat (m_duration e) | None => 0%Z end.
Definition takes (p : rcpsp) (choice : nat -> nat) (a : nat) (r : string) : Z :=
  match entry p a (choice a) with Some e => needs e r | None => 0%Z end.
(** What the tasks running at time [t] use, what all the tasks use. *)
Definition busy (p : rcpsp) (choice : nat -> nat) (start : nat -> Z) (r : string) (t : Z) : Z :=
  sumZ (map (fun a => if (start a <=? t)%Z && (t <? start a + lasts p choice a)%Z then takes p choice a r else 0%Z)
            (dkeys (p_modes p))).
Definition eating (p : rcpsp) (choice : nat -> nat) (r : string) : Z :=
  sumZ (map (fun a => takes p choice a r) (dkeys (p_modes p))).

(** A plan, that is a mode and a start for every task, that can be carried out. *)
Record feasible (p : rcpsp) (choice : nat -> nat) (start : nat -> Z) : Prop := {
  f_mode : forall a, In a (dkeys (p_modes p)) -> entry p a (choice a) <> None;
  f_start : forall a, In a (dkeys (p_modes p)) -> (0 <= start a)%Z;
  f_after : forall a l b, dget (p_succ p) a = Some l -> In b l -> (start a + lasts p choice a <= start b)%Z;
  f_using : forall r t c, ~ In r (p_nonren p) -> capacity_of p r t = Some c -> (busy p choice start r (Z.of_nat t) <= c)%Z;
  f_eating : forall r c, In r (p_nonren p) -> capacity_of p r 0 = Some c -> (eating p choice r <= c)%Z
}.
(** No task gives resources back. *)
Definition no_giving (p : rcpsp) : Prop := forall a k e r, entry p a k = Some e -> (0 <= needs e r)%Z.

(** Two scenarios of the same project: same resources, precedence, tasks, modes and names. *)
Record alike (p q : rcpsp) : Prop := {
  k_res : p_res p = p_res q;
  k_nonren : p_nonren p = p_nonren q;
  k_succ : p_succ p = p_succ q;
  k_tasks : Permutation (dkeys (p_modes p)) (dkeys (p_modes q));
  k_modes : forall a k, entry p a k = None <-> entry q a k = None;
  k_names : forall a k e e' r, entry p a k = Some e -> entry q a k = Some e' -> dget (m_need e) r = None <-> dget (m_need e') r = None
}.
(** Nothing is longer or needs more in [p] than in [q]. *)
Definition lighter (p q : rcpsp) : Prop :=
  forall a k e e', entry p a k = Some e -> entry q a k = Some e' ->
    m_duration e <= m_duration e' /\ forall r, (needs e r <= needs e' r)%Z.

Lemma lighter_feasible : forall p q choice start, alike p q -> lighter p q -> no_giving p ->
  feasible q choice start -> feasible p choice start.
Proof.
  intros p q choice start K L N [F1 F2 F3 F4 F5].
  assert (T : forall a, In a (dkeys (p_modes p)) -> In a (dkeys (p_modes q))) by (intros a; apply Permutation_in, (k_tasks _ _ K)).
  assert (D : forall a, (lasts p choice a <= lasts q choice a)%Z).
  { intros a. unfold lasts. destruct (entry p a (choice a)) as [e|] eqn:E; [|destruct (entry q a (choice a)); lia].
    destruct (entry q a (choice a)) as [e'|] eqn:E'; [|apply (k_modes _ _ K) in E'; congruence]. destruct (L _ _ _ _ E E'). lia. }
  assert (G : forall a r, (0 <= takes p choice a r <= takes q choice a r)%Z).
  { intros a r. unfold takes. destruct (entry p a (choice a)) as [e|] eqn:E.
    - destruct (entry q a (choice a)) as [e'|] eqn:E'; [|apply (k_modes _ _ K) in E'; congruence].
      split; [eapply N; eauto|]. now apply (L _ _ _ _ E E').
    - apply (k_modes _ _ K) in E. rewrite E. lia. }
  assert (C : capacity_of p = capacity_of q) by (unfold capacity_of; now rewrite (k_res _ _ K)).
  constructor.
  - intros a I E. apply (k_modes _ _ K) in E. exact (F1 a (T a I) E).
  - auto.
  - intros a l b Sa I. rewrite (k_succ _ _ K) in Sa. specialize (F3 a l b Sa I). specialize (D a). lia.
  - intros r t c Nr Cp. rewrite (k_nonren _ _ K) in Nr. rewrite C in Cp. specialize (F4 r t c Nr Cp). unfold busy in *.
    rewrite (sumZ_map_perm _ (k_tasks _ _ K)). eapply Z.le_trans; [|exact F4]. apply sumZ_map_le. intros a _.
    specialize (D a). specialize (G a r).
    destruct (start a <=? Z.of_nat t)%Z eqn:X1; cbn [andb]; [|lia].
    destruct (Z.of_nat t <? start a + lasts p choice a)%Z eqn:X2, (Z.of_nat t <? start a + lasts q choice a)%Z eqn:X3; lia.
  - intros r c Nr Cp. rewrite (k_nonren _ _ K) in Nr. rewrite C in Cp. specialize (F5 r c Nr Cp). unfold eating in *.
    rewrite (sumZ_map_perm _ (k_tasks _ _ K)). eapply Z.le_trans; [|exact F5]. apply sumZ_map_le. intros a _. apply G.
Qed.

(** * Rewriting a dictionary *)
Lemma keyed_mapM : forall K V W (E : PyEq K) (g : K -> V -> res W) (d : list (K * V)) d',
  mapM (fun kv => let* w := g (fst kv) (snd kv) in Ok (fst kv, w)) d = Ok d' ->
  dkeys d' = dkeys d /\
  (forall k, dget d k = None <-> dget d' k = None) /\
  (forall k v w, dget d k = Some v -> dget d' k = Some w -> g k v = Ok w).
Proof.
  intros K V W E g d. induction d as [|[k v] d IH]; intros d' H; cbn in H.
  - injection H as <-. repeat split; intros; discriminate.
  - apply bind_ok in H as [x [X H]]. apply bind_ok in H as [r [R H]]. injection H as <-. apply bind_ok in X as [w [G X]]. injection X as <-.
    destruct (IH _ R) as [I1 [I2 I3]]. repeat split.
    + cbn. f_equal. exact I1.
    + intros N. cbn in *. destruct (pyeqb k0 k) eqn:B; [discriminate|]. now apply I2.
    + intros N. cbn in *. destruct (pyeqb k0 k) eqn:B; [discriminate|]. now apply I2.
    + intros k' v' w' Gv Gw. cbn in Gv, Gw. destruct (pyeqb_spec k' k) as [->|B]; [|eauto]. congruence.
Qed.

Lemma map_modes_ok : forall f p ms, map_modes f (p_modes p) = Ok ms ->
  dkeys ms = dkeys (p_modes p) /\
  (forall a k, entry p a k = None <-> entry (with_modes p ms) a k = None) /\
  (forall a k e e', entry p a k = Some e -> entry (with_modes p ms) a k = Some e' -> f a k e = Ok e').
Proof.
  intros f p ms H. unfold map_modes in H.
  pose proof (keyed_mapM nat (list (nat * mode)) _ _ (fun a d => mapM (fun ke : nat * mode => let* e := f a (fst ke) (snd ke) in Ok (fst ke, e)) d) (p_modes p) ms H) as [K1 [K2 K3]].
  split; [exact K1|]. unfold entry. cbn [p_modes with_modes]. split.
  - intros a k. destruct (dget (p_modes p) a) as [d|] eqn:D.
    + destruct (dget ms a) as [d'|] eqn:D'; [|apply K2 in D'; congruence]. pose proof (K3 _ _ _ D D') as M.
      destruct (keyed_mapM _ _ _ _ (f a) d d' M) as [_ [J _]]. apply J.
    + apply K2 in D. rewrite D. tauto.
  - intros a k e e' X Y. destruct (dget (p_modes p) a) as [d|] eqn:D; [|discriminate]. destruct (dget ms a) as [d'|] eqn:D'; [|discriminate].
    pose proof (K3 _ _ _ D D') as M. destruct (keyed_mapM _ _ _ _ (f a) d d' M) as [_ [_ J]]. eauto.
Qed.

Lemma mode_entry_ok : forall p a k e, mode_entry p a k = Ok e <-> entry p a k = Some e.
Proof.
  intros. unfold mode_entry, entry, dgetE. destruct (dget (p_modes p) a); cbn; [|split; discriminate]. destruct (dget l k); split; congruence.
Qed.

(** * Truncation *)
Lemma trunc_mono : forall a b, (a <= b)%Q -> (trunc a <= trunc b)%Z.
Proof.
  intros a b H. unfold trunc. destruct (Qle_bool 0 a) eqn:A; destruct (Qle_bool 0 b) eqn:B; try apply qle_true in A; try apply qle_true in B; try apply qle_false in A; try apply qle_false in B.
  - now apply Qfloor_resp_le.
  - lra.
  - assert (Qceiling a <= 0)%Z by (change 0%Z with (Qceiling 0); apply Qceiling_resp_le; lra).
    assert (0 <= Qfloor b)%Z by (change 0%Z with (Qfloor 0); apply Qfloor_resp_le; lra). lia.
  - now apply Qceiling_resp_le.
Qed.
Lemma trunc_Z : forall z, trunc (inject_Z z) = z.
Proof. intros. unfold trunc. destruct (Qle_bool 0 (inject_Z z)); [apply Qfloor_Z|apply Qceiling_Z]. Qed.
Lemma trunc_between : forall lo hi q, (inject_Z lo <= q <= inject_Z hi)%Q -> (lo <= trunc q <= hi)%Z.
Proof. intros lo hi q [H1 H2]. rewrite <- (trunc_Z lo) at 1. rewrite <- (trunc_Z hi). split; now apply trunc_mono. Qed.
Lemma inj_le : forall a b, (a <= b)%Z -> (inject_Z a <= inject_Z b)%Q.
Proof. intros. now rewrite <- Zle_Qle. Qed.

Lemma mapM_In_r : forall A B (f : A -> res B) l l' y, mapM f l = Ok l' -> In y l' -> exists x, In x l /\ f x = Ok y.
Proof.
  intros A B f l l' y H. apply mapM_ok in H. induction H; intros []; subst.
  - eexists. split; [now left|auto].
  - destruct IHForall2 as [z [I E]]; auto. exists z. split; auto. now right.
Qed.
Lemma mapM_In_l : forall A B (f : A -> res B) l l' x, mapM f l = Ok l' -> In x l -> exists y, In y l' /\ f x = Ok y.
Proof.
  intros A B f l l' x H. apply mapM_ok in H. induction H; intros []; subst.
  - eexists. split; [now left|auto].
  - destruct IHForall2 as [z [I E]]; auto. exists z. split; auto. now right.
Qed.

(** * The single problem made out of the scenarios *)
Lemma unique_mode_ok : forall ps m a k e e', unique_mode ps m a k e = Ok e' -> exists es d,
  mapM (fun p => mode_entry p a k) ps = Ok es /\
  aggregate m (map (fun x => inject_Z (Z.of_nat (m_duration x))) es) = Ok d /\ (0 <= trunc d)%Z /\ m_duration e' = Z.to_nat (trunc d) /\
  forall r, (dget (m_need e) r = None <-> dget (m_need e') r = None) /\
    forall w, dget (m_need e') r = Some w -> exists vals v, mapM (fun x => dgetE (m_need x) r) es = Ok vals /\
      aggregate m (map inject_Z vals) = Ok v /\ w = trunc v.
Proof.
  intros ps m a k e e' H. unfold unique_mode in H. apply bind_ok in H as [es [Es H]]. apply bind_ok in H as [d [D H]].
  apply bind_ok in H as [n [Nn H]]. apply bind_ok in H as [need [Ne H]]. injection H as <-. exists es, d. split; auto. split; auto.
  unfold as_nat in Nn. destruct (trunc d <? 0)%Z eqn:Ld; [discriminate|]. injection Nn as <-. split; [lia|]. split; [reflexivity|].
  cbn [m_need]. intros r.
  assert (Ne' : mapM (fun kv : string * Z => let* w := (fun r0 _ => let* vals := mapM (fun x => dgetE (m_need x) r0) es in
                 let* v := aggregate m (map inject_Z vals) in Ok (trunc v)) (fst kv) (snd kv) in Ok (fst kv, w)) (m_need e) = Ok need).
  { rewrite <- Ne. clear. induction (m_need e) as [|x l IH]; [reflexivity|]. cbn [mapM]. rewrite IH.
    destruct (mapM (fun x0 => dgetE (m_need x0) (fst x)) es) as [vals|]; [|reflexivity]. cbn [bind].
    destruct (aggregate m (map inject_Z vals)); reflexivity. }
  destruct (keyed_mapM _ _ _ _ (fun r0 _ => let* vals := mapM (fun x => dgetE (m_need x) r0) es in
                 let* v := aggregate m (map inject_Z vals) in Ok (trunc v)) (m_need e) need Ne') as [_ [K1 K2]].
  split; [apply K1|]. intros w W. destruct (dget (m_need e) r) as [v0|] eqn:G; [|apply K1 in G; congruence].
  specialize (K2 _ _ _ G W). apply bind_ok in K2 as [vals [V K2]]. apply bind_ok in K2 as [v [A K2]]. injection K2 as <-. eauto.
Qed.

Lemma unique_ok : forall ps m u, unique_model ps m = Ok u -> exists p0 rest, ps = p0 :: rest /\
  p_res u = p_res p0 /\ p_nonren u = p_nonren p0 /\ p_succ u = p_succ p0 /\ dkeys (p_modes u) = dkeys (p_modes p0) /\
  (forall a k, entry p0 a k = None <-> entry u a k = None) /\
  (forall a k e e', entry p0 a k = Some e -> entry u a k = Some e' -> unique_mode ps m a k e = Ok e').
Proof.
  intros [|p0 rest] m u H; [discriminate|]. unfold unique_model in H. apply bind_ok in H as [ms [M H]]. injection H as <-.
  destruct (map_modes_ok _ _ _ M) as [K1 [K2 K3]]. exists p0, rest. repeat split; auto; apply K2.
Qed.

(** Everything said about the entries of the single problem. *)
Lemma unique_entry : forall ps m u a k e', unique_model ps m = Ok u -> entry u a k = Some e' ->
  exists es d, length es = length ps /\
   (forall p, In p ps -> exists e, In e es /\ entry p a k = Some e) /\ (forall e, In e es -> exists p, In p ps /\ entry p a k = Some e) /\
   aggregate m (map (fun x => inject_Z (Z.of_nat (m_duration x))) es) = Ok d /\ Z.of_nat (m_duration e') = trunc d /\
   forall r w, dget (m_need e') r = Some w -> (forall e, In e es -> dget (m_need e) r <> None) /\
     exists v, aggregate m (map (fun e => inject_Z (needs e r)) es) = Ok v /\ w = trunc v.
Proof.
  intros ps m u a k e' U E'. destruct (unique_ok _ _ _ U) as [p0 [rest [-> [_ [_ [_ [_ [K1 K2]]]]]]]].
  destruct (entry p0 a k) as [e|] eqn:E; [|apply K1 in E; congruence]. specialize (K2 _ _ _ _ E E').
  destruct (unique_mode_ok _ _ _ _ _ _ K2) as [es [d [Es [D [D0 [Du Ne]]]]]]. exists es, d. repeat split.
  - eapply mapM_length; eauto.
  - intros p I. destruct (mapM_In_l _ _ _ _ _ _ Es I) as [x [Ix X]]. apply mode_entry_ok in X. eauto.
  - intros x I. destruct (mapM_In_r _ _ _ _ _ _ Es I) as [p [Ip X]]. apply mode_entry_ok in X. eauto.
  - exact D.
  - rewrite Du. lia.
  - intros x I. destruct (Ne r) as [_ N]. destruct (N _ H) as [vals [v [V [A ->]]]].
    destruct (mapM_In_l _ _ _ _ _ _ V I) as [y [_ Y]]. unfold dgetE in Y. destruct (dget (m_need x) r); discriminate.
  - destruct (Ne r) as [_ N]. destruct (N _ H) as [vals [v [V [A ->]]]]. exists v. split; [|reflexivity]. rewrite <- A. f_equal.
    clear -V. revert vals V. induction es as [|x es IH]; intros vals V; cbn in V; [now injection V as <-|].
    apply bind_ok in V as [y [Y V]]. apply bind_ok in V as [ys [Ys V]]. injection V as <-. cbn. rewrite (IH _ Ys). f_equal.
    unfold needs, dgetE in *. destruct (dget (m_need x) r); congruence.
Qed.

Lemma unique_alike : forall ps m u p, unique_model ps m = Ok u -> (forall q, In q ps -> alike p q) -> alike p u.
Proof.
  intros ps m u p U K. destruct (unique_ok _ _ _ U) as [p0 [rest [-> [U1 [U2 [U3 [U4 [U5 U6]]]]]]]].
  destruct (K p0 (or_introl eq_refl)) as [K1 K2 K3 K4 K5 K6]. constructor.
  - now rewrite U1.
  - now rewrite U2.
  - now rewrite U3.
  - now rewrite U4.
  - intros a k. rewrite K5. apply U5.
  - intros a k e e' r E E'. destruct (entry p0 a k) as [e0|] eqn:E0; [|apply K5 in E0; congruence].
    rewrite (K6 _ _ _ _ r E E0). specialize (U6 _ _ _ _ E0 E'). apply unique_mode_ok in U6 as [es [d [_ [_ [_ [_ N]]]]]]. apply N.
Qed.

Lemma aggregate_top : forall l v, aggregate Max l = Ok v -> In v l /\ forall x, In x l -> (x <= v)%Q.
Proof. intros [|x l] v A; [discriminate|]. injection A as <-. apply fold_max_spec. Qed.
Lemma aggregate_bottom : forall l v, aggregate Min l = Ok v -> In v l /\ forall x, In x l -> (v <= x)%Q.
Proof. intros [|x l] v A; [discriminate|]. injection A as <-. apply fold_min_spec. Qed.

(** The worst-case problem is the heaviest, the best-case problem the lightest. *)
Lemma max_heavier : forall ps u p, unique_model ps Max = Ok u -> In p ps -> (forall q, In q ps -> alike p q) -> lighter p u.
Proof.
  intros ps u p U I K a k e e' E E'. pose proof (unique_alike _ _ _ _ U K) as Ku.
  destruct (unique_entry _ _ _ _ _ _ U E') as [es [d [_ [Ep [_ [D [Du N]]]]]]]. destruct (Ep p I) as [x [Ix X]]. rewrite E in X. injection X as <-. split.
  - apply aggregate_top in D as [_ D]. specialize (D _ (in_map _ _ _ Ix)). apply trunc_mono in D. rewrite trunc_Z, <- Du in D. lia.
  - intros r. destruct (dget (m_need e') r) as [w|] eqn:W.
    + destruct (N _ _ W) as [_ [v [A ->]]]. apply aggregate_top in A as [_ A]. specialize (A _ (in_map (fun e => inject_Z (needs e r)) _ _ Ix)).
      apply trunc_mono in A. rewrite trunc_Z in A. unfold needs at 2. rewrite W. exact A.
    + pose proof W as W'. apply (k_names _ _ Ku _ _ _ _ r E E') in W'. unfold needs. rewrite W, W'. lia.
Qed.
Lemma min_lighter : forall ps u p, unique_model ps Min = Ok u -> In p ps -> (forall q, In q ps -> alike p q) -> lighter u p.
Proof.
  intros ps u p U I K a k e' e E' E. pose proof (unique_alike _ _ _ _ U K) as Ku.
  destruct (unique_entry _ _ _ _ _ _ U E') as [es [d [_ [Ep [_ [D [Du N]]]]]]]. destruct (Ep p I) as [x [Ix X]]. rewrite E in X. injection X as <-. split.
  - apply aggregate_bottom in D as [_ D]. specialize (D _ (in_map _ _ _ Ix)). apply trunc_mono in D. rewrite trunc_Z, <- Du in D. lia.
  - intros r. destruct (dget (m_need e') r) as [w|] eqn:W.
    + destruct (N _ _ W) as [_ [v [A ->]]]. apply aggregate_bottom in A as [_ A]. specialize (A _ (in_map (fun e => inject_Z (needs e r)) _ _ Ix)).
      apply trunc_mono in A. rewrite trunc_Z in A. unfold needs at 1. rewrite W. exact A.
    + pose proof W as W'. apply (k_names _ _ Ku _ _ _ _ r E E') in W'. unfold needs. rewrite W, W'. lia.
Qed.

Lemma alike_sym : forall p q, alike p q -> alike q p.
Proof.
  intros p q [K1 K2 K3 K4 K5 K6]. constructor; auto; try (now symmetry).
  intros a k e e' r E E'. symmetry. eauto.
Qed.

(** The single problem gives nothing back when no scenario does (for the usual methods). *)
Lemma unique_no_giving : forall ps m u, plain m -> unique_model ps m = Ok u -> (forall p, In p ps -> no_giving p) -> no_giving u.
Proof.
  intros ps m u P U G a k e' r E'. destruct (unique_entry _ _ _ _ _ _ U E') as [es [d [L [Ep [Ee [D [Du N]]]]]]].
  unfold needs. destruct (dget (m_need e') r) as [w|] eqn:W; [|lia]. destruct (N _ _ W) as [_ [v [A ->]]].
  destruct es as [|e0 es']; [discriminate|]. set (es := e0 :: es') in *.
  set (hi := fold_right Z.max 0%Z (map (fun e => needs e r) es)).
  assert (B : forall x, In x (map (fun e => inject_Z (needs e r)) es) -> (inject_Z 0 <= x <= inject_Z hi)%Q).
  { intros x Ix. apply in_map_iff in Ix as [e [<- Ie]]. destruct (Ee e Ie) as [p [Ip X]]. split; apply inj_le; [now apply (G p Ip a k e r)|].
    unfold hi. clear -Ie. induction es as [|y l IH]; [destruct Ie|]. cbn. destruct Ie as [->|I]; [lia|]. specialize (IH I). lia. }
  pose proof (aggregate_bounds m _ v _ _ P A B) as H. apply trunc_between in H. lia.
Qed.

(** * The uncertain problem *)
Definition ranged (how : robustification) : Prop := match how with Quantile _ => False | _ => True end.

Lemma arange_In : forall lo hi v, In v (arange lo hi) <-> (lo <= v <= hi)%Z.
Proof.
  intros lo hi v. unfold arange. rewrite in_map_iff. split.
  - intros [i [<- I]]. apply in_seq in I. lia.
  - intros H. exists (Z.to_nat (v - lo)). split; [lia|]. apply in_seq. lia.
Qed.

Section Draws.
Variable pmf : Z * Z * Z -> Z -> Q.
Hypothesis pmf_nonneg : forall l v, (0 <= pmf l v)%Q.

Lemma qsum_nonneg : forall l, (forall x, In x l -> (0 <= x)%Q) -> (0 <= qsum l)%Q.
Proof. clear pmf_nonneg.
  induction l as [|x l IH]; intros H; [apply Qle_refl|]. cbn [qsum fold_right]. pose proof (H x (or_introl eq_refl)).
  assert (0 <= qsum l)%Q by (apply IH; intros; apply H; now right). unfold qsum in *. lra.
Qed.
Lemma mean_weights : forall (vs : list Z) (w : Z -> Q) lo hi, (forall v, (0 <= w v)%Q) -> (forall v, In v vs -> (lo <= v <= hi)%Z) ->
  (inject_Z lo * qsum (map w vs) <= qsum (map (fun v => inject_Z v * w v) vs) <= inject_Z hi * qsum (map w vs))%Q.
Proof. clear pmf_nonneg.
  induction vs as [|v vs IH]; intros w lo hi W H; [cbn [map]; change (qsum []) with 0%Q; lra|].
  cbn [map qsum fold_right]. destruct (IH w lo hi W (fun x I => H x (or_intror I))) as [I1 I2]. unfold qsum in I1, I2.
  destruct (H v (or_introl eq_refl)) as [H1 H2]. apply inj_le in H1, H2. specialize (W v). split.
  - rewrite Qmult_plus_distr_r. apply Qplus_le_compat; auto. apply Qmult_le_compat_r; auto.
  - rewrite Qmult_plus_distr_r. apply Qplus_le_compat; auto. apply Qmult_le_compat_r; auto.
Qed.
Lemma qsum_ext : forall A (f g : A -> Q) l, (forall x, f x == g x) -> qsum (map f l) == qsum (map g l).
Proof. clear pmf_nonneg. intros A f g l H. unfold qsum. induction l; cbn; [reflexivity|]. now rewrite IHl, H. Qed.
Lemma qsum_scale : forall A (f : A -> Q) c l, (qsum (map (fun x => f x * c) l) == qsum (map f l) * c)%Q.
Proof. clear pmf_nonneg. intros A f c l. unfold qsum. induction l; cbn; [ring|]. rewrite IHl. ring. Qed.

Lemma draw_range : forall how l a k name v, ranged how -> draw pmf how l a k name = Ok v ->
  (fst (fst l) <= v <= snd l)%Z.
Proof.
  intros how [[lo mid] hi] a k name v R H. unfold draw in H. cbn [fst snd].
  destruct ((hi <? lo)%Z || Qeq_bool (qsum (map (pmf (lo, mid, hi)) (arange lo hi))) 0) eqn:G; [discriminate|].
  apply orb_false_iff in G as [G1 G2]. apply Z.ltb_ge in G1. destruct how; try contradiction.
  - injection H as <-. apply trunc_between.
    set (w := pmf (lo, mid, hi)). set (vs := arange lo hi). set (total := qsum (map w vs)).
    assert (T : (0 < total)%Q).
    { assert (0 <= total)%Q by (apply qsum_nonneg; intros x I; apply in_map_iff in I as [z [<- _]]; apply pmf_nonneg).
      apply Qle_lteq in H as [H|H]; auto. exfalso. symmetry in H. apply Qeq_bool_iff in H. fold w vs total in G2. congruence. }
    assert (E : (law_mean (map (fun v => (v, w v / total)) vs) == qsum (map (fun v => inject_Z v * w v) vs) / total)%Q).
    { unfold law_mean. rewrite map_map. cbn [fst snd].
      unfold Qdiv at 2. rewrite <- qsum_scale. apply qsum_ext. intros x. unfold Qdiv. ring. }
    destruct (mean_weights vs w lo hi) as [M1 M2]; [apply pmf_nonneg|intros x I; now apply arange_In in I|]. fold total in M1, M2.
    rewrite E. split; [apply Qle_shift_div_l|apply Qle_shift_div_r]; auto.
  - injection H as <-. lia.
  - injection H as <-. lia.
  - apply bind_ok in H as [x [X H]]. injection H as <-. apply lget_ok, nth_error_In in X. unfold law_probas in X.
    rewrite map_map in X. cbn [fst] in X. rewrite map_id in X. now apply arange_In in X.
Qed.
Lemma draw_ends : forall l a k name v, (draw pmf WorstCase l a k name = Ok v -> v = snd l) /\ (draw pmf BestCase l a k name = Ok v -> v = fst (fst l)).
Proof. clear pmf_nonneg.
  intros [[lo mid] hi] a k name v. unfold draw. destruct ((hi <? lo)%Z || _); split; intros H; try discriminate; now injection H.
Qed.

(** Two problems drawn from the same laws. *)
Lemma uncertain_ok : forall p r1 r2 b1 b2 how u, uncertain_model pmf p r1 r2 b1 b2 how = Ok u ->
  p_res u = p_res p /\ p_nonren u = p_nonren p /\ p_succ u = p_succ p /\ dkeys (p_modes u) = dkeys (p_modes p) /\
  (forall a k, entry p a k = None <-> entry u a k = None) /\
  (forall a k e e', entry p a k = Some e -> entry u a k = Some e' ->
     uncertain_mode pmf p (create_laws p r1 r2 b1 b2) how a k e = Ok e').
Proof. clear pmf_nonneg.
  intros p r1 r2 b1 b2 how u H. unfold uncertain_model in H. apply bind_ok in H as [ms [M H]]. injection H as <-.
  destruct (map_modes_ok _ _ _ M) as [K1 [K2 K3]]. repeat split; auto; apply K2.
Qed.

Definition same_keys (e e' : mode) : Prop := forall r, dget (m_need e) r = None <-> dget (m_need e') r = None.

Lemma uncertain_mode_ok : forall p ls how a k e e', uncertain_mode pmf p ls how a k e = Ok e' ->
  ((a = 1 \/ a = p_sink p) /\ e' = e) \/
  (~ (a = 1 \/ a = p_sink p) /\ exists l, ls a e = Ok l /\
     (match l_duration l with None => m_duration e' = m_duration e
      | Some x => exists v, draw pmf how x a k "duration"%string = Ok v /\ (0 <= v)%Z /\ Z.of_nat (m_duration e') = v end) /\
     forall r, (dget (m_need e) r = None <-> dget (m_need e') r = None) /\
       forall v v', dget (m_need e) r = Some v -> dget (m_need e') r = Some v' ->
         match dget (l_need l) r with None => v' = v | Some x => draw pmf how x a k r = Ok v' end).
Proof. clear pmf_nonneg.
  intros p ls how a k e e' H. unfold uncertain_mode in H. apply bind_ok in H as [l [L H]].
  destruct ((a =? 1) || (a =? p_sink p)) eqn:B.
  { left. injection H as <-. split; [lia|reflexivity]. }
  right. split; [lia|]. exists l. split; [exact L|]. apply bind_ok in H as [d [D H]]. apply bind_ok in H as [need [N H]]. injection H as <-.
  cbn [m_duration m_need]. split.
  - destruct (l_duration l) as [x|]; [|now injection D]. apply bind_ok in D as [v [V D]]. exists v. split; auto.
    unfold as_nat in D. destruct (v <? 0)%Z eqn:Lt; [discriminate|]. injection D as <-. lia.
  - set (g := fun (r : string) (v : Z) => match dget (l_need l) r with None => Ok v | Some x => draw pmf how x a k r end).
    assert (N' : mapM (fun kv : string * Z => let* w := g (fst kv) (snd kv) in Ok (fst kv, w)) (m_need e) = Ok need).
    { rewrite <- N. clear. induction (m_need e) as [|[r v] m IH]; [reflexivity|]. cbn [mapM fst snd]. rewrite IH. unfold g at 1.
      destruct (dget (l_need l) r) as [x|]; [|reflexivity]. destruct (draw pmf how x a k r); reflexivity. }
    destruct (keyed_mapM _ _ _ _ g _ _ N') as [_ [K1 K2]]. intros r. split; [apply K1|]. intros v v' V V'. specialize (K2 _ _ _ V V').
    unfold g in K2. destruct (dget (l_need l) r); [auto|congruence].
Qed.

Lemma uncertain_alike : forall p r1 r2 b1 b2 how how' u u', uncertain_model pmf p r1 r2 b1 b2 how = Ok u ->
  uncertain_model pmf p r1 r2 b1 b2 how' = Ok u' -> alike u u'.
Proof. clear pmf_nonneg.
  intros p r1 r2 b1 b2 how how' u u' H H'. apply uncertain_ok in H as [A1 [A2 [A3 [A4 [A5 A6]]]]]. apply uncertain_ok in H' as [B1 [B2 [B3 [B4 [B5 B6]]]]].
  constructor.
  - now rewrite A1, B1.
  - now rewrite A2, B2.
  - now rewrite A3, B3.
  - rewrite A4, B4. reflexivity.
  - intros a k. rewrite <- A5. apply B5.
  - intros a k e e' r E E'. destruct (entry p a k) as [e0|] eqn:E0; [|apply A5 in E0; congruence].
    specialize (A6 _ _ _ _ E0 E). specialize (B6 _ _ _ _ E0 E').
    apply uncertain_mode_ok in A6 as [[I0 ->]|[N [l [_ [_ A]]]]]; apply uncertain_mode_ok in B6 as [[I ->]|[N' [l' [_ [_ B]]]]]; try contradiction.
    + tauto.
    + rewrite <- (proj1 (A r)). apply B.
Qed.

Lemma uncertain_lighter : forall p r1 r2 b1 b2 how how' u u', uncertain_model pmf p r1 r2 b1 b2 how = Ok u ->
  uncertain_model pmf p r1 r2 b1 b2 how' = Ok u' ->
  (forall l a k name v v', draw pmf how l a k name = Ok v -> draw pmf how' l a k name = Ok v' -> (v <= v')%Z) -> lighter u u'.
Proof. clear pmf_nonneg.
  intros p r1 r2 b1 b2 how how' u u' H H' Dr a k e e' E E'.
  apply uncertain_ok in H as [_ [_ [_ [_ [A5 A6]]]]]. apply uncertain_ok in H' as [_ [_ [_ [_ [B5 B6]]]]].
  destruct (entry p a k) as [e0|] eqn:E0; [|apply A5 in E0; congruence].
  specialize (A6 _ _ _ _ E0 E). specialize (B6 _ _ _ _ E0 E').
  apply uncertain_mode_ok in A6 as [[I ->]|[N [l [L [A1 A2]]]]]; apply uncertain_mode_ok in B6 as [[I' ->]|[N' [l' [L' [B1 B2]]]]]; try contradiction.
  - split; [lia|intros; lia].
  - rewrite L in L'. injection L' as <-. split.
    + destruct (l_duration l) as [x|]; [|lia]. destruct A1 as [v [V [_ Ev]]]. destruct B1 as [v' [V' [_ Ev']]]. specialize (Dr _ _ _ _ _ _ V V'). lia.
    + intros r. destruct (A2 r) as [X1 X2]. destruct (B2 r) as [Y1 Y2]. unfold needs.
      destruct (dget (m_need e0) r) as [v0|] eqn:G.
      * destruct (dget (m_need e) r) as [v|]; [|discriminate (proj2 X1 eq_refl)]. destruct (dget (m_need e') r) as [v'|]; [|discriminate (proj2 Y1 eq_refl)].
        specialize (X2 _ _ eq_refl eq_refl). specialize (Y2 _ _ eq_refl eq_refl). destruct (dget (l_need l) r); [eauto|lia].
      * destruct X1 as [X1 _]. rewrite (X1 eq_refl). destruct Y1 as [Y1 _]. rewrite (Y1 eq_refl). lia.
Qed.
End Draws.
