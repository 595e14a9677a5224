(** Properties of facility location: C41. *)
From Coq Require Import List Bool Arith ZArith Lia Permutation.
From Coq Require Import ZifyBool ZifyNat.
From Verif Require Import Py PyList PyMore TspProofs FacModel.
Import ListNotations.

(** * Specification vocabulary *)
(** Every customer of the problem exists and has an existing facility. *)
Definition assignment (p : fproblem) (a : list Z) : Prop :=
  forall i, i < p_customers_count p -> exists f fac c, nth_error a i = Some (Z.of_nat f) /\
    nth_error (p_facilities p) f = Some fac /\ nth_error (p_customers p) i = Some c.
Definition demand_of (p : fproblem) (i : nat) : Z := match nth_error (p_customers p) i with Some c => c_demand c | None => 0 end.
Definition facility_of (p : fproblem) (f : Z) : option facility := if (f <? 0)%Z then None else nth_error (p_facilities p) (Z.to_nat f).
Definition capacity_of (p : fproblem) (f : Z) : Z := match facility_of p f with Some x => f_capacity x | None => 0 end.
Definition setup_of (p : fproblem) (f : Z) : Z := match facility_of p f with Some x => f_setup x | None => 0 end.
Definition goes_to (a : list Z) (i : nat) (f : Z) : bool := match nth_error a i with Some g => (g =? f)%Z | None => false end.
(** The demand served by facility [f]. *)
Definition load (p : fproblem) (a : list Z) (f : Z) : Z :=
  sumZ (map (demand_of p) (filter (fun i => goes_to a i f) (seq 0 (p_customers_count p)))).
(** The cost of serving customer [i]. *)
Definition price (service : facility -> customer -> Z) (p : fproblem) (a : list Z) (i : nat) : Z :=
  match nth_error a i, nth_error (p_customers p) i with
  | Some f, Some c => match facility_of p f with Some fac => service fac c | None => 0 end
  | _, _ => 0
  end.
(** [fs] lists the facilities in use, each once. *)
Definition in_use (p : fproblem) (a : list Z) (fs : list Z) : Prop :=
  NoDup fs /\ forall f, In f fs <-> exists i, i < p_customers_count p /\ nth_error a i = Some f.
Definition within_capacities (p : fproblem) (a : list Z) : Prop :=
  forall i f, i < p_customers_count p -> nth_error a i = Some f -> (load p a f <= capacity_of p f)%Z.

(** * Lemmas *)
Lemma pyset_snoc : forall (l : list Z) x, pyset (l ++ [x]) = pyadd (pyset l) x.
Proof. intros. unfold pyset. now rewrite fold_left_app. Qed.

Lemma pyset_last : forall (l k : list Z) f, pyset l = k ++ [f] ->
  exists l1 l2, l = l1 ++ f :: l2 /\ ~ In f l1 /\ forall g, In g l -> In g l1 \/ g = f.
Proof.
  induction l as [|x l IH] using rev_ind; intros k f E; [destruct k; discriminate|].
  rewrite pyset_snoc in E. unfold pyadd in E. destruct (pymem x (pyset l)) eqn:M.
  - apply pymem_true in M. apply (proj1 (pyset_In _ _)) in M. destruct (IH _ _ E) as (l1 & l2 & -> & N & G).
    exists l1, (l2 ++ [x]). split; [now rewrite <- app_assoc|]. split; auto.
    intros g I. apply in_app_iff in I as [I|[<-|[]]]; auto.
  - apply app_inj_tail in E as [<- <-]. exists l, []. split; auto. split.
    + intros I. apply (proj1 (pymem_false x (pyset l)) M). now apply pyset_In.
    + intros g I. apply in_app_iff in I as [I|[<-|[]]]; auto.
Qed.

Section Fac.
Variable p : fproblem.

Lemma facility_zget : forall f fac, nth_error (p_facilities p) f = Some fac ->
  zget (p_facilities p) (Z.of_nat f) = Ok fac /\ facility_of p (Z.of_nat f) = Some fac.
Proof.
  intros f fac H. split; [rewrite zget_nat; now apply lget_ok|]. unfold facility_of.
  destruct (Z.ltb_spec (Z.of_nat f) 0); [lia|]. now rewrite Nat2Z.id.
Qed.

Definition ftotal (g : nat -> Z) (a : list Z) (k : nat) (f : Z) : Z :=
  sumZ (map g (filter (fun i => goes_to a i f) (seq 0 k))).

Lemma ftotal_S : forall g a k f, ftotal g a (S k) f = (ftotal g a k f + (if goes_to a k f then g k else 0))%Z.
Proof.
  intros. unfold ftotal. rewrite seq_S, filter_app, map_app, sumZ_app. f_equal. cbn [plus filter].
  destruct (goes_to a k f); cbn [map]; [now rewrite sumZ_one|reflexivity].
Qed.

Variable service : facility -> customer -> Z.
Record cinv (a : list Z) (k : nat) (st : Z * Z * list (Z * detail)) : Prop := {
  v_cost : fst (fst st) = sumZ (map (price service p a) (seq 0 k));
  v_keys : dkeys (snd st) = pyset (firstn k a);
  v_setup : snd (fst st) = sumZ (map (setup_of p) (dkeys (snd st)));
  v_detail : forall f d, dget (snd st) f = Some d ->
    k_used d = ftotal (demand_of p) a k f /\ k_cost d = ftotal (price service p a) a k f /\ k_setup d = setup_of p f /\
    (NoDup (k_customers d) /\ forall i, In i (k_customers d) <-> i < k /\ nth_error a i = Some f)
}.

Lemma cost_step_ok : forall a k st, assignment p a -> k < p_customers_count p -> cinv a k st ->
  exists st', cost_step service p a st k = Ok st' /\ cinv a (S k) st'.
Proof.
  intros a k [[cost setup] details] As Hk [V1 V2 V3 V4]. cbn [fst snd] in *. subst cost setup.
  destruct (As k Hk) as (f & fac & c & A & F & C). destruct (facility_zget f fac F) as [Z1 Z2].
  unfold cost_step. rewrite (proj2 (lget_ok a k _) A). cbn [bind]. set (zf := Z.of_nat f) in *.
  assert (Pr : price service p a k = service fac c) by (unfold price; now rewrite A, C, Z2).
  assert (Nk : NoDup (dkeys details)) by (rewrite V2; apply pyset_NoDup).
  assert (First : firstn (S k) a = firstn k a ++ [zf]) by now apply firstn_snoc.
  assert (Dk : demand_of p k = c_demand c) by (unfold demand_of; now rewrite C).
  assert (Gk : goes_to a k zf = true) by (unfold goes_to; rewrite A; apply Z.eqb_refl).
  assert (Gn : forall g, g <> zf -> goes_to a k g = false) by (intros g N; unfold goes_to; rewrite A; apply Z.eqb_neq; congruence).
  assert (Tot : forall g h, ftotal g a (S k) h = (ftotal g a k h + (if (h =? zf)%Z then g k else 0))%Z).
  { intros g h. rewrite ftotal_S. destruct (Z.eqb_spec h zf) as [->|N]; [now rewrite Gk|now rewrite Gn]. }
  assert (Cost : (sumZ (map (price service p a) (seq 0 k)) + service fac c = sumZ (map (price service p a) (seq 0 (S k))))%Z).
  { rewrite seq_S, map_app, sumZ_app. cbn [plus map]. now rewrite sumZ_one, Pr. }
  assert (Rest : forall h d, h <> zf -> dget details h = Some d ->
    k_used d = ftotal (demand_of p) a (S k) h /\ k_cost d = ftotal (price service p a) a (S k) h /\ k_setup d = setup_of p h /\
    NoDup (k_customers d) /\ forall i, In i (k_customers d) <-> i < S k /\ nth_error a i = Some h).
  { intros h d N D. destruct (V4 h d D) as (U & Co & Se & Nd & Cu). rewrite !Tot. destruct (Z.eqb_spec h zf); [congruence|].
    repeat split; auto; try lia; try (apply Cu in H; intuition lia). intros [L E]. apply Cu. split; auto.
    assert (i <> k) by congruence. lia. }
  destruct (dmem details zf) eqn:M; cbn [bind fst snd].
  - unfold dmem in M. destruct (dget details zf) as [d|] eqn:D; [|discriminate]. unfold dgetE. rewrite D. cbn [bind].
    rewrite (proj2 (lget_ok (p_customers p) k c) C), Z1. cbn [bind]. eexists. split; [reflexivity|].
    assert (Pk : dkeys (dset details zf (Detail (k_used d + c_demand c) (pyadd (k_customers d) k) (k_cost d + service fac c) (k_setup d))) = dkeys details)
      by (apply dset_keys_present; apply dmem_true; unfold dmem; now rewrite D).
    constructor; cbn [fst snd]; rewrite ?Pk; auto.
    + rewrite V2, First, pyset_snoc. unfold pyadd. replace (pymem zf (pyset (firstn k a))) with true; auto.
      symmetry. apply pymem_true. rewrite <- V2. apply dmem_true. unfold dmem. now rewrite D.
    + intros h dd Q. rewrite dget_dset in Q. destruct (pyeqb_spec zf h) as [<-|E].
      * injection Q as <-. cbn [k_used k_cost k_setup k_customers].
        destruct (V4 zf d D) as (U & Co & Se & Nd & Cu). rewrite !Tot, Z.eqb_refl, Dk, Pr. split; [lia|]. split; [lia|]. split; auto.
        split; [now apply pyadd_NoDup|]. intros i. rewrite pyadd_In, Cu. split; [intros [->|[L E]]; auto; split; auto; lia|].
        intros [L E]. destruct (Nat.eq_dec i k); auto. right. split; auto. lia.
      * apply Rest; auto.
  - assert (Na : ~ In zf (dkeys details)) by (intros I; apply dmem_true in I; congruence).
    rewrite Z1. cbn [bind fst snd]. unfold dgetE. rewrite dget_dset, pyeqb_refl. cbn [bind].
    rewrite (proj2 (lget_ok (p_customers p) k c) C). cbn [bind]. eexists. split; [reflexivity|].
    assert (K2 : dkeys (dset details zf (Detail 0 [] 0 (f_setup fac))) = dkeys details ++ [zf]) by now apply dset_keys_absent.
    cbn [k_used k_customers k_cost k_setup].
    assert (Pk : forall v, dkeys (dset (dset details zf (Detail 0 [] 0 (f_setup fac))) zf v) = dkeys details ++ [zf]).
    { intros v. rewrite dset_keys_present; auto. rewrite K2. apply in_app_iff. right. now left. }
    assert (Fresh : ~ In zf (firstn k a)) by (intros I; apply Na; rewrite V2; now apply pyset_In).
    assert (T0 : forall g, ftotal g a k zf = 0%Z).
    { intros g. unfold ftotal. replace (filter (fun i => goes_to a i zf) (seq 0 k)) with (@nil nat); auto.
      symmetry. apply filter_none. intros i Ii. apply in_seq in Ii. unfold goes_to. destruct (nth_error a i) eqn:E; auto.
      apply Z.eqb_neq. intros ->. apply Fresh. apply nth_error_In with i. rewrite nth_error_firstn by lia. auto. }
    constructor; cbn [fst snd]; rewrite ?Pk; auto.
    + rewrite V2, First, pyset_snoc. unfold pyadd. rewrite <- V2. now rewrite (proj2 (pymem_false zf (dkeys details)) Na).
    + rewrite map_app, sumZ_app. cbn [map]. rewrite sumZ_one. unfold setup_of at 3. now rewrite Z2.
    + intros h dd Q. rewrite dget_dset in Q. destruct (pyeqb_spec zf h) as [<-|E].
      * injection Q as <-. cbn [k_used k_cost k_setup k_customers].
        rewrite !Tot, Z.eqb_refl, Dk, Pr, !T0. split; [lia|]. split; [lia|]. split; [unfold setup_of; now rewrite Z2|].
        split; [repeat constructor; intros []|]. intros i. cbn. split; [intros [<-|[]]; auto|].
        intros [L E]. left. destruct (Nat.eq_dec k i); auto. exfalso. apply Fresh. apply nth_error_In with i.
        rewrite nth_error_firstn by lia. auto.
      * rewrite dget_dset_other in Q by auto. apply Rest; auto.
Qed.

Lemma evaluate_cost_ok : forall a, assignment p a ->
  exists st, evaluate_cost service p a = Ok st /\ cinv a (p_customers_count p) st.
Proof.
  intros a As. unfold evaluate_cost.
  destruct (@foldM_total _ _ (cost_step service p a) (fun l st => cinv a (length l) st) (seq 0 (p_customers_count p)) (0%Z, 0%Z, []))
    as (st & E & V).
  - constructor; auto. cbn. discriminate.
  - intros l0 x l1 s1 E V. apply seq_split in E as [-> L]. destruct (cost_step_ok a (length l0) s1 As L V) as (s2 & E2 & V2).
    exists s2. split; auto. rewrite app_length. cbn [length]. now rewrite Nat.add_1_r.
  - exists st. split; auto. now rewrite seq_length in V.
Qed.

Definition excess (fk : Z * detail) : Z := Z.max (k_used (snd fk) - capacity_of p (fst fk)) 0.

Lemma violation_ok : forall details v0, (forall f, In f (dkeys details) -> exists g fac, f = Z.of_nat g /\ nth_error (p_facilities p) g = Some fac) ->
  foldM (fun (_ : Z) fk => let* fac := zget (p_facilities p) (fst fk) in Ok (Z.max (k_used (snd fk) - f_capacity fac) 0)) v0 details
  = Ok (last (map excess details) v0).
Proof.
  induction details as [|[f d] details IH]; intros v0 H; [reflexivity|]. cbn [foldM fst snd].
  destruct (H f (or_introl eq_refl)) as (g & fac & -> & F). destruct (facility_zget g fac F) as [Z1 Z2]. rewrite Z1. cbn [bind].
  rewrite IH by (intros; apply H; now right). f_equal. cbn [map].
  replace (Z.max (k_used d - f_capacity fac) 0) with (excess (Z.of_nat g, d)) by (unfold excess, capacity_of; cbn [fst snd]; now rewrite Z2).
  destruct details; [reflexivity|]. cbn [map]. generalize (excess p0) (map excess details). clear.
  intros z l. revert z. induction l; intros; auto. cbn [last] in *. apply IHl.
Qed.
End Fac.


(** * The greedy solver *)
Section Greedy.
Variable p : fproblem.
Hypothesis Count : p_customers_count p = length (p_customers p).

Record ginv (k : nat) (st : list Z * list Z * nat) : Prop := {
  g_sol : length (fst (fst st)) = p_customers_count p;
  g_room : length (snd (fst st)) = length (p_facilities p);
  g_assigned : forall i, i < k -> exists f fac, f <= snd st /\ nth_error (fst (fst st)) i = Some (Z.of_nat f) /\ nth_error (p_facilities p) f = Some fac;
  g_left : forall f r, nth_error (snd (fst st)) f = Some r ->
    (r = capacity_of p (Z.of_nat f) - ftotal (demand_of p) (fst (fst st)) k (Z.of_nat f))%Z;
  g_nonneg : forall i f r, i < k -> nth_error (fst (fst st)) i = Some (Z.of_nat f) -> nth_error (snd (fst st)) f = Some r -> (0 <= r)%Z;
  g_mono : forall i j x y, i < j -> j < k -> nth_error (fst (fst st)) i = Some x -> nth_error (fst (fst st)) j = Some y -> (x <= y)%Z
}.

Lemma ftotal_lset : forall g a i v k f, k <= i -> ftotal g (lset a i v) k f = ftotal g a k f.
Proof.
  intros. unfold ftotal. f_equal. f_equal. apply filter_ext_in. intros x Ix. apply in_seq in Ix. unfold goes_to.
  rewrite lset_nth_error. destruct (Nat.eqb_spec i x); [lia|reflexivity].
Qed.

Lemma give : forall k sol room fi f r c, ginv k (sol, room, fi) -> k < p_customers_count p -> fi <= f ->
  nth_error (p_customers p) k = Some c -> nth_error room f = Some r -> (c_demand c <= r)%Z ->
  ginv (S k) (lset sol k (Z.of_nat f), lset room f (r - c_demand c)%Z, f).
Proof.
  intros k sol room fi f r c V Hk Le C R D. destruct V as [V1 V2 V3 V4 V5 V6]. cbn [fst snd] in *.
  assert (Lf : f < length room) by (apply nth_error_Some; congruence).
  assert (Same : forall i, i < k -> nth_error (lset sol k (Z.of_nat f)) i = nth_error sol i).
  { intros i L. rewrite lset_nth_error. destruct (Nat.eqb_spec k i); [lia|auto]. }
  assert (New : nth_error (lset sol k (Z.of_nat f)) k = Some (Z.of_nat f)).
  { rewrite lset_nth_error, Nat.eqb_refl. destruct (Nat.ltb_spec k (length sol)); [auto|lia]. }
  constructor; cbn [fst snd].
  - now rewrite lset_length.
  - now rewrite lset_length.
  - intros i L. destruct (Nat.eq_dec i k) as [->|N].
    + destruct (nth_error (p_facilities p) f) as [fac|] eqn:F; [|apply nth_error_None in F; lia]. exists f, fac. auto.
    + destruct (V3 i) as (g & fac & G1 & G2 & G3); [lia|]. exists g, fac. rewrite Same by lia. split; auto. lia.
  - intros g x X. rewrite ftotal_S. unfold goes_to. rewrite New, ftotal_lset by lia. rewrite lset_nth_error in X.
    destruct (Nat.eqb_spec f g) as [<-|N].
    + destruct (Nat.ltb_spec f (length room)); [|lia]. injection X as <-. rewrite Z.eqb_refl, (V4 f r R).
      unfold demand_of at 3. rewrite C. lia.
    + rewrite (V4 g x X). destruct (Z.eqb_spec (Z.of_nat f) (Z.of_nat g)); lia.
  - intros i g x L I X. rewrite lset_nth_error in X. destruct (Nat.eqb_spec f g) as [<-|N].
    + destruct (Nat.ltb_spec f (length room)); [|lia]. injection X as <-. lia.
    + destruct (Nat.eq_dec i k) as [->|Ni].
      * rewrite New in I. injection I as I. lia.
      * rewrite Same in I by lia. apply (V5 i g x); auto. lia.
  - intros i j x y Lij Lj I J. rewrite Same in I by lia. destruct (Nat.eq_dec j k) as [->|N].
    + rewrite New in J. injection J as <-. destruct (V3 i) as (g & fac & G1 & G2 & _); [lia|]. rewrite I in G2. injection G2 as ->. lia.
    + rewrite Same in J by lia. apply (V6 i j x y); auto. lia.
Qed.

Lemma greedy_step_ok : forall k st st', ginv k st -> k < p_customers_count p -> greedy_step p st k = Ok st' -> ginv (S k) st'.
Proof.
  intros k [[sol room] fi] st' V Hk H. unfold greedy_step in H.
  apply bind_ok in H as [c [C H]]. apply bind_ok in H as [r [R H]]. apply lget_ok in C, R.
  destruct (Z.leb_spec (c_demand c) r).
  - apply bind_ok in H as [s1 [S1 H]]. apply bind_ok in H as [r1 [R1 H]]. injection H as <-.
    apply lput_ok in S1 as [_ ->]. apply lput_ok in R1 as [_ ->]. eapply give; eauto.
  - apply bind_ok in H as [r' [R' H]]. apply lget_ok in R'. destruct (Z.leb_spec (c_demand c) r'); [|discriminate].
    apply bind_ok in H as [s1 [S1 H]]. apply bind_ok in H as [r1 [R1 H]]. injection H as <-.
    apply lput_ok in S1 as [_ ->]. apply lput_ok in R1 as [_ ->]. eapply give; eauto.
Qed.

Lemma greedy_init : ginv 0 (repeat (-1)%Z (p_customers_count p), map f_capacity (p_facilities p), 0).
Proof.
  constructor; cbn [fst snd]; try (intros; lia).
  - apply repeat_length.
  - now rewrite map_length.
  - intros f r H. rewrite nth_error_map in H. destruct (nth_error (p_facilities p) f) as [fac|] eqn:F; [|discriminate].
    injection H as <-. unfold capacity_of, ftotal. rewrite (proj2 (facility_zget p f fac F)). cbn. lia.
Qed.

Lemma greedy_ok : forall s, greedy p = Ok s -> exists st, ginv (p_customers_count p) st /\ s = FSolution (fst (fst st)) None.
Proof.
  intros s H. unfold greedy in H. apply bind_ok in H as [st [F H]]. injection H as <-. exists st. split; auto.
  assert (V : ginv (length (seq 0 (length (p_customers p)))) st).
  { refine (@foldM_inv _ _ (greedy_step p) (fun l s => ginv (length l) s) _ _ _ F greedy_init _).
    intros l0 x l1 s1 s2 E V G. apply seq_split in E as [-> L]. rewrite app_length. cbn [length]. rewrite Nat.add_1_r.
    eapply greedy_step_ok; eauto. lia. }
  rewrite seq_length in V. now rewrite Count.
Qed.
End Greedy.

(** * C41 *)
(** The evaluation: total service cost, set-up cost of exactly the facilities in use, and the load, the cost and the
    customers of each of them. *)
Theorem C41_evaluate : forall service p a, assignment p a -> exists m, evaluate service p (FSolution a None) = Ok m /\
  m_cost m = sumZ (map (price service p a) (seq 0 (p_customers_count p))) /\
  in_use p a (dkeys (m_details m)) /\
  (forall fs, in_use p a fs -> m_setup m = sumZ (map (setup_of p) fs)) /\
  forall f d, dget (m_details m) f = Some d -> k_used d = load p a f /\ k_setup d = setup_of p f /\
    k_cost d = sumZ (map (price service p a) (k_customers d)) /\
    NoDup (k_customers d) /\ forall i, In i (k_customers d) <-> i < p_customers_count p /\ nth_error a i = Some f.
Proof.
  intros service p a As. destruct (evaluate_cost_ok p service a As) as ([[cost setup] details] & E & V).
  destruct V as [V1 V2 V3 V4]. cbn [fst snd] in *.
  assert (U : in_use p a (dkeys details)).
  { split; [rewrite V2; apply pyset_NoDup|]. intros f. rewrite V2, pyset_In. split.
    - intros I. apply In_nth_error in I as [i I]. assert (L : i < length (firstn (p_customers_count p) a)) by (apply nth_error_Some; congruence).
      rewrite firstn_length in L. rewrite nth_error_firstn in I by lia. exists i. split; auto. lia.
    - intros (i & L & I). apply nth_error_In with i. now rewrite nth_error_firstn. }
  unfold evaluate. cbn [s_details s_assign]. rewrite E. cbn [bind]. rewrite (violation_ok p).
  2: { intros f I. apply U in I as (i & L & I). destruct (As i L) as (g & fac & c & A & F & C). exists g, fac. split; auto. congruence. }
  cbn [bind]. eexists. split; [reflexivity|]. cbn [m_cost m_setup m_details]. split; auto. split; auto. split.
  - intros fs Uf. rewrite V3. apply sumZ_map_perm. apply NoDup_Permutation; [apply U|apply Uf|]. intros x. rewrite (proj2 U), (proj2 Uf). tauto.
  - intros f d D. destruct (V4 f d D) as (X1 & X2 & X3 & X4 & X5). repeat (split; auto); try apply X5; auto.
    rewrite X2. unfold ftotal. apply sumZ_map_perm. apply NoDup_Permutation; auto.
    + apply NoDup_filter, seq_NoDup.
    + intros i. rewrite filter_In, X5, in_seq. unfold goes_to. destruct (nth_error a i) as [g|]; [|intuition congruence].
      rewrite Z.eqb_eq. intuition (try lia; congruence).
Qed.

(** The reported violation is the excess of the facility whose first customer comes last, and nothing else. *)
Theorem C41_violation : forall service p a m i f, assignment p a -> evaluate service p (FSolution a None) = Ok m ->
  i < p_customers_count p -> nth_error a i = Some f -> (forall j, j < i -> nth_error a j <> Some f) ->
  (forall k g, k < p_customers_count p -> nth_error a k = Some g -> g <> f -> exists j, j < i /\ nth_error a j = Some g) ->
  m_violation m = Z.max (load p a f - capacity_of p f) 0.
Proof.
  intros service p a m i f As H Li Ai First Last.
  destruct (evaluate_cost_ok p service a As) as ([[cost setup] details] & E & V).
  destruct V as [V1 V2 V3 V4]. cbn [fst snd] in *. set (n := p_customers_count p) in *.
  assert (Keys : forall g, In g (dkeys details) -> exists j, j < n /\ nth_error a j = Some g).
  { intros g I. rewrite V2 in I. apply (proj1 (pyset_In _ _)) in I. apply In_nth_error in I as [j I].
    assert (L : j < length (firstn n a)) by (apply nth_error_Some; congruence).
    rewrite firstn_length in L. rewrite nth_error_firstn in I by lia. exists j. split; auto. lia. }
  unfold evaluate in H. cbn [s_details s_assign] in H. rewrite E in H. cbn [bind] in H. rewrite (violation_ok p) in H.
  2: { intros g I. apply Keys in I as (j & L & I). destruct (As j L) as (h & fac & c & A & F & C). exists h, fac. split; auto. congruence. }
  cbn [bind] in H. injection H as <-. cbn [m_violation].
  assert (If : In f (dkeys details)) by (rewrite V2; apply pyset_In; apply nth_error_In with i; now rewrite nth_error_firstn).
  destruct details as [|x details _] using rev_ind; [destruct If|]. rewrite map_app. cbn [map]. rewrite last_last.
  destruct x as [g d]. unfold dkeys in V2. rewrite map_app in V2. cbn [map fst] in V2.
  destruct (pyset_last _ _ _ (eq_sym V2)) as (l1 & l2 & S & Ng & G).
  assert (Pos : nth_error a (length l1) = Some g).
  { assert (L : length l1 < n). { assert (length (firstn n a) <= n) by (rewrite firstn_length; lia). rewrite S, app_length in H. cbn in H. lia. }
    rewrite <- (nth_error_firstn a L), S. rewrite nth_error_app2, Nat.sub_diag; auto. }
  assert (Ln : length l1 < n). { assert (length (firstn n a) <= n) by (rewrite firstn_length; lia). rewrite S, app_length in H. cbn in H. lia. }
  assert (g = f) as ->.
  { destruct (Z.eq_dec g f) as [|N]; auto. exfalso. destruct (Last (length l1) g Ln Pos N) as (j & Lj & Aj).
    assert (If1 : In f (firstn n a)) by (apply nth_error_In with i; now rewrite nth_error_firstn).
    apply G in If1 as [If1| ->]; [|congruence]. apply In_nth_error in If1 as [q Q].
    assert (Lq : q < length l1) by (apply nth_error_Some; congruence).
    assert (Aq : nth_error a q = Some f). { assert (L : q < n) by lia. rewrite <- (nth_error_firstn a L), S, nth_error_app1; auto. }
    assert (i <= q). { destruct (le_lt_dec i q); auto. exfalso. now apply (First q). }
    apply Ng. apply nth_error_In with j. assert (L : j < n) by lia. rewrite <- Aj, <- (nth_error_firstn a L), S, nth_error_app1; auto. lia. }
  assert (D : dget (details ++ [(f, d)]) f = Some d).
  { apply In_dget; [|apply in_app_iff; right; now left]. unfold dkeys. rewrite map_app. cbn [map fst]. rewrite V2. apply pyset_NoDup. }
  destruct (V4 f d D) as (U & _). unfold excess. cbn [fst snd]. now rewrite U.
Qed.

(** A solution within the capacities is accepted. *)
Theorem C41_accepts : forall service p a, assignment p a -> within_capacities p a ->
  satisfy service p (FSolution a None) = Ok true.
Proof.
  intros service p a As W. destruct (evaluate_cost_ok p service a As) as ([[cost setup] details] & E & V).
  destruct V as [V1 V2 V3 V4]. cbn [fst snd] in *. set (n := p_customers_count p) in *.
  assert (Keys : forall g, In g (dkeys details) -> exists j, j < n /\ nth_error a j = Some g).
  { intros g I. rewrite V2 in I. apply (proj1 (pyset_In _ _)) in I. apply In_nth_error in I as [j I].
    assert (L : j < length (firstn n a)) by (apply nth_error_Some; congruence).
    rewrite firstn_length in L. rewrite nth_error_firstn in I by lia. exists j. split; auto. lia. }
  unfold satisfy, evaluate. cbn [s_details s_assign]. rewrite E. cbn [bind]. rewrite (violation_ok p).
  2: { intros g I. apply Keys in I as (j & L & I). destruct (As j L) as (h & fac & c & A & F & C). exists h, fac. split; auto. congruence. }
  cbn [bind m_violation]. f_equal. apply Z.eqb_eq.
  destruct details as [|[f d] details _] using rev_ind; [reflexivity|]. rewrite map_app. cbn [map]. rewrite last_last.
  assert (Nd : NoDup (dkeys (details ++ [(f, d)]))) by (rewrite V2; apply pyset_NoDup).
  assert (D : dget (details ++ [(f, d)]) f = Some d) by (apply In_dget; auto; apply in_app_iff; right; now left).
  destruct (V4 f d D) as (U & _). destruct (Keys f) as (j & L & Aj).
  { unfold dkeys. rewrite map_app. apply in_app_iff. right. now left. }
  specialize (W j f L Aj). unfold excess. cbn [fst snd]. rewrite U. unfold load in W. fold n in W. unfold ftotal. lia.
Qed.

(** With a single facility in use the check is exact. *)
Theorem C41_single : forall service p a f, assignment p a -> 0 < p_customers_count p ->
  (forall i, i < p_customers_count p -> nth_error a i = Some f) ->
  (satisfy service p (FSolution a None) = Ok true <-> within_capacities p a).
Proof.
  intros service p a f As Pos All. split; [|now apply C41_accepts]. intros H.
  unfold satisfy in H. apply bind_ok in H as [m [E H]]. injection H as H. apply Z.eqb_eq in H.
  pose proof (C41_violation service p a m 0 f As E Pos (All 0 Pos)) as V. rewrite V in H.
  - intros i g Li Ai. rewrite All in Ai by auto. injection Ai as <-. lia.
  - intros j L. lia.
  - intros k g L A N. rewrite All in A by auto. congruence.
Qed.

(** The greedy solver: every customer gets a facility, no capacity is exceeded, the facilities are opened in order, and
    the solution is accepted. *)
Theorem C41_greedy : forall service p s, p_customers_count p = length (p_customers p) -> greedy p = Ok s ->
  assignment p (s_assign s) /\ within_capacities p (s_assign s) /\ satisfy service p s = Ok true /\
  forall i j x y, i < j -> nth_error (s_assign s) i = Some x -> nth_error (s_assign s) j = Some y -> (x <= y)%Z.
Proof.
  intros service p s Count H. destruct (greedy_ok p Count s H) as (st & V & ->). cbn [s_assign].
  destruct V as [V1 V2 V3 V4 V5 V6].
  assert (As : assignment p (fst (fst st))).
  { intros i L. destruct (V3 i L) as (f & fac & _ & A & F). destruct (nth_error (p_customers p) i) as [c|] eqn:C.
    - exists f, fac, c. auto.
    - apply nth_error_None in C. lia. }
  assert (W : within_capacities p (fst (fst st))).
  { intros i f L A. destruct (V3 i L) as (g & fac & _ & A' & F). assert (f = Z.of_nat g) as -> by congruence.
    destruct (nth_error (snd (fst st)) g) as [r|] eqn:R.
    - pose proof (V4 g r R). pose proof (V5 i g r L A R). unfold load. unfold ftotal in H0. lia.
    - apply nth_error_None in R. assert (g < length (p_facilities p)) by (apply nth_error_Some; congruence). lia. }
  repeat (split; auto).
  - now apply C41_accepts.
  - intros i j x y L I J. apply (V6 i j x y); auto. rewrite <- V1. apply nth_error_Some. congruence.
Qed.

(** It succeeds when every facility can serve any single customer and there are as many facilities as customers. *)
Theorem C41_greedy_total : forall p, p_customers_count p = length (p_customers p) ->
  length (p_customers p) <= length (p_facilities p) ->
  (forall c fac, In c (p_customers p) -> In fac (p_facilities p) -> (c_demand c <= f_capacity fac)%Z) ->
  exists s, greedy p = Ok s.
Proof.
  intros p Count Len Big. unfold greedy.
  pose (P := fun (l : list nat) (st : list Z * list Z * nat) => ginv p (length l) st /\ snd st <= length l - 1 /\
    forall f r, snd st < f -> nth_error (snd (fst st)) f = Some r -> exists fac, nth_error (p_facilities p) f = Some fac /\ r = f_capacity fac).
  destruct (@foldM_total _ _ (greedy_step p) P (seq 0 (length (p_customers p)))
    (repeat (-1)%Z (p_customers_count p), map f_capacity (p_facilities p), 0)) as (st & E & _).
  - split; [now apply greedy_init|]. split; [auto|]. intros f r _ H. cbn in H. rewrite nth_error_map in H.
    destruct (nth_error (p_facilities p) f) as [fac|]; [|discriminate]. injection H as <-. eauto.
  - intros l0 x l1 [[sol room] fi] E [V [Lf Fr]]. apply seq_split in E as [-> L]. cbn [plus fst snd] in *.
    pose proof (g_sol _ _ _ V) as V1. pose proof (g_room _ _ _ V) as V2. cbn [fst snd] in *.
    assert (exists st', greedy_step p (sol, room, fi) (length l0) = Ok st' /\ snd st' <= length l0 /\
      forall f r, snd st' < f -> nth_error (snd (fst st')) f = Some r -> exists fac, nth_error (p_facilities p) f = Some fac /\ r = f_capacity fac) as (st' & G & L' & Fr').
    { unfold greedy_step. destruct (lget_lt (p_customers p) L) as [c C]. rewrite C. cbn [bind]. apply lget_ok in C.
      assert (Lr : fi < length room) by lia. destruct (lget_lt room Lr) as [r R]. rewrite R. cbn [bind].
      destruct (Z.leb_spec (c_demand c) r).
      - rewrite (proj2 (lput_ok sol (length l0) _ _) (conj (ltac:(lia) : length l0 < length sol) eq_refl)). cbn [bind].
        rewrite (proj2 (lput_ok room fi _ _) (conj Lr eq_refl)). cbn [bind]. eexists. split; [reflexivity|]. cbn [fst snd]. split; [lia|].
        intros f q Hf Q. rewrite lset_nth_error in Q. destruct (Nat.eqb_spec fi f); [lia|]. eapply Fr; eauto.
      - assert (l0 <> []).
        { intros ->. cbn in *. assert (fi = 0) as -> by lia. pose proof (g_left _ _ _ V 0 r (proj1 (lget_ok room 0 r) R)) as Q.
          unfold ftotal in Q. cbn in Q. destruct (p_facilities p) as [|fac fs] eqn:F; [cbn in *; lia|].
          unfold capacity_of, facility_of in Q. cbn in Q. rewrite F in Q. cbn in Q.
          specialize (Big c fac (@nth_error_In _ (p_customers p) 0 c C) (or_introl eq_refl)). lia. }
        assert (0 < length l0) by (destruct l0; [congruence|cbn; lia]).
        assert (Lr' : S fi < length room) by lia. destruct (lget_lt room Lr') as [r' R']. rewrite R'. cbn [bind].
        apply lget_ok in R'. destruct (Fr (S fi) r') as (fac & F & ->); auto.
        destruct (Z.leb_spec (c_demand c) (f_capacity fac)).
        + rewrite (proj2 (lput_ok sol (length l0) _ _) (conj (ltac:(lia) : length l0 < length sol) eq_refl)). cbn [bind].
          rewrite (proj2 (lput_ok room (S fi) _ _) (conj Lr' eq_refl)). cbn [bind]. eexists. split; [reflexivity|]. cbn [fst snd]. split; [lia|].
          intros f q Hf Q. rewrite lset_nth_error in Q. destruct (Nat.eqb_spec (S fi) f); [lia|]. apply (Fr f q); auto. lia.
        + specialize (Big c fac (nth_error_In _ _ C) (nth_error_In _ _ F)). lia. }
    exists st'. split; auto. unfold P. rewrite app_length. cbn [length]. rewrite Nat.add_1_r. split; [|split; auto; cbn; lia].
    eapply greedy_step_ok; eauto. lia.
  - rewrite E. cbn [bind]. eauto.
Qed.

(** * Concrete cases *)
(** Three facilities, four customers; the service cost is the difference of the locations. *)
Definition ex_service (f : facility) (c : customer) : Z := Z.abs (Z.of_nat (f_location f) - Z.of_nat (c_location c)).
Definition ex_fp : fproblem := FProblem 4
  [Facility 10 7 0; Facility 5 6 4; Facility 3 9 9]
  [Customer 3 1; Customer 4 2; Customer 5 5; Customer 6 8].
Example C41_ex : assignment ex_fp [2; 0; 2; 0]%Z /\ in_use ex_fp [2; 0; 2; 0]%Z [2; 0]%Z /\
  (exists m, evaluate ex_service ex_fp (FSolution [2; 0; 2; 0]%Z None) = Ok m /\ m_cost m = 22%Z /\ m_setup m = 13%Z /\ m_violation m = 3%Z) /\
  greedy ex_fp = Ok (FSolution [0; 0; 1; 2]%Z None) /\ within_capacities ex_fp [0; 0; 1; 2]%Z.
Proof.
  split; [|split; [|split; [|split]]].
  - intros i L. destruct i as [|[|[|[|i]]]]; [exists 2|exists 0|exists 2|exists 0|cbn in L; lia]; do 2 eexists; repeat split.
  - split; [repeat constructor; cbn; intuition lia|]. intros f. split.
    + intros [<-|[<-|[]]]; [exists 0|exists 1]; split; auto; cbn; lia.
    + intros (i & L & A). destruct i as [|[|[|[|i]]]]; cbn in A, L; try (injection A as <-; cbn; auto); lia.
  - eexists. split; [vm_compute; reflexivity|]. cbn. auto.
  - vm_compute. reflexivity.
  - apply (C41_greedy ex_service ex_fp (FSolution [0; 0; 1; 2]%Z None)); vm_compute; reflexivity.
Qed.
Example C41_greedy_total_ex : exists p s, 2 < length (p_customers p) /\ p_customers_count p = length (p_customers p) /\
  length (p_customers p) <= length (p_facilities p) /\
  (forall c fac, In c (p_customers p) -> In fac (p_facilities p) -> (c_demand c <= f_capacity fac)%Z) /\
  greedy p = Ok s /\ s_assign s = [0; 0; 1]%Z.
Proof.
  exists (FProblem 3 [Facility 1 6 0; Facility 1 5 1; Facility 1 7 2] [Customer 3 0; Customer 2 0; Customer 5 0]). eexists.
  split; [cbn; lia|]. split; [reflexivity|]. split; [cbn; lia|]. split; [|split; [vm_compute; reflexivity|reflexivity]].
  intros c fac I J. cbn in I, J. intuition (subst; cbn; lia).
Qed.

(** * Findings *)
(** The check only looks at the last facility opened: an overloaded solution is accepted. *)
Theorem C41_satisfy_refuted : exists service p a, assignment p a /\ satisfy service p (FSolution a None) = Ok true /\
  exists i f, i < p_customers_count p /\ nth_error a i = Some f /\ (capacity_of p f < load p a f)%Z.
Proof.
  exists ex_service, ex_fp, [0; 0; 0; 2]%Z. split; [|split; [vm_compute; reflexivity|]].
  - intros i L. destruct i as [|[|[|[|i]]]]; [exists 0|exists 0|exists 0|exists 2|cbn in L; lia]; do 2 eexists; repeat split.
  - exists 0, 0%Z. split; [cbn; lia|]. split; auto. vm_compute. reflexivity.
Qed.

(** The greedy solver can fail although a solution exists: facilities are never reused, and only the next one is tried. *)
Theorem C41_greedy_refuted : exists p a, p_customers_count p = length (p_customers p) /\ assignment p a /\ within_capacities p a /\
  greedy p = Err AssertionError.
Proof.
  exists (FProblem 1 [Facility 1 1 0; Facility 1 1 0; Facility 1 9 0] [Customer 5 0]), [2%Z].
  split; [reflexivity|]. split; [|split; [|vm_compute; reflexivity]].
  - intros i L. destruct i; [|cbn in L; lia]. exists 2. do 2 eexists. repeat split.
  - intros i f L A. destruct i; [|cbn in L; lia]. injection A as <-. vm_compute. discriminate.
Qed.

(** A solution that carries its details keeps them when the problem changes: the evaluation for the new problem is the old one. *)
Theorem C41_change_problem_refuted : exists service p p' a m, evaluate service p (FSolution a None) = Ok m /\
  evaluate service p' (change_problem (FSolution a (Some m))) = Ok m /\ evaluate service p' (FSolution a None) <> Ok m.
Proof.
  exists ex_service, ex_fp, (FProblem 4 [Facility 1 7 0; Facility 1 6 4; Facility 1 9 9] (p_customers ex_fp)), [0; 0; 1; 2]%Z.
  eexists. split; [vm_compute; reflexivity|]. split; [vm_compute; reflexivity|]. vm_compute. congruence.
Qed.

(** Negative indices, accepted by Python lists, make the last facility count twice. *)
Theorem C41_negative_refuted : exists service p a m, evaluate service p (FSolution a None) = Ok m /\ p_facilities p = [Facility 10 4 0] /\
  m_setup m = 20%Z /\ m_violation m = 0%Z /\ sumZ (map c_demand (p_customers p)) = 8%Z.
Proof.
  exists ex_service, (FProblem 2 [Facility 10 4 0] [Customer 4 0; Customer 4 0]), [0; -1]%Z.
  eexists. split; [vm_compute; reflexivity|]. auto.
Qed.

Print Assumptions C41_evaluate.
Print Assumptions C41_violation.
Print Assumptions C41_accepts.
Print Assumptions C41_single.
Print Assumptions C41_greedy.
Print Assumptions C41_greedy_total.
Print Assumptions C41_satisfy_refuted.
Print Assumptions C41_greedy_refuted.
Print Assumptions C41_change_problem_refuted.
Print Assumptions C41_negative_refuted.
