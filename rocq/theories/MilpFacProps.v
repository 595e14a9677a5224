(** Properties of the integer program of the facility location solvers: C123. *)
From Coq Require Import List Bool Arith ZArith Lia Permutation Sorted.
From Coq Require Import ZifyBool ZifyNat.
From Verif Require Import Py PyList PyMore TspProofs FacModel FacProps MilpModel MilpProofs MilpFacModel.
Import ListNotations.
Open Scope nat_scope.

(** * Specification vocabulary *)
(** What the problem must look like: the count of customers is right, set-up costs and capacities are not negative. *)
Record posed (p : fproblem) : Prop := {
  po_count : p_customers_count p = length (p_customers p);
  po_setup : forall fac, In fac (p_facilities p) -> (0 <= f_setup fac)%Z;
  po_capacity : forall fac, In fac (p_facilities p) -> (0 <= f_capacity fac)%Z
}.
(** A plan: every customer has a facility, within the capacities. *)
Definition plan (p : fproblem) (s : list Z) : Prop :=
  length s = p_customers_count p /\ assignment p s /\ within_capacities p s.
(** The service cost plus the set-up cost of the facilities in use, as the problem evaluates a plan. *)
Definition costs (service : facility -> customer -> Z) (p : fproblem) (s : list Z) (k : Z) : Prop :=
  exists m, evaluate service p (FSolution s None) = Ok m /\ k = (m_cost m + m_setup m)%Z.
(** A sorting function. *)
Definition sorts (argsort : list Z -> list nat) : Prop :=
  forall l, Permutation (argsort l) (seq 0 (length l)) /\
    StronglySorted (fun i j => (nth i l 0 <= nth j l 0)%Z) (argsort l).
(** The plan only uses pairs kept by the pruning. *)
Definition kept_plan (service : facility -> customer -> Z) argsort (p : fproblem) (h : option (nat * nat)) (s : list Z) : Prop :=
  forall c f, nth_error s c = Some (Z.of_nat f) -> indicator service argsort p h f c = true.

(** * Sums *)
Lemma sum_swap : forall A B (h : A -> B -> Z) la lb,
  sumZ (map (fun k => h (fst k) (snd k)) (flat_map (fun a => map (fun b => (a, b)) lb) la)) =
  sumZ (map (fun b => sumZ (map (fun a => h a b) la)) lb).
Proof.
  intros A B h la lb. induction la as [|a la IH]; cbn [flat_map map].
  - rewrite sumZ_map_zero; auto.
  - rewrite map_app, sumZ_app, IH, map_map. cbn [fst snd]. clear.
    induction lb as [|b lb IH]; [reflexivity|]. cbn [map]. rewrite !sumZ_cons. lia.
Qed.
Lemma sum_le : forall A (f g : A -> Z) l, (forall x, In x l -> (f x <= g x)%Z) -> (sumZ (map f l) <= sumZ (map g l))%Z.
Proof.
  induction l as [|x l IH]; intros H; [cbn; lia|]. cbn [map]. rewrite !sumZ_cons.
  pose proof (H x (or_introl eq_refl)). assert (sumZ (map f l) <= sumZ (map g l))%Z; [|lia]. apply IH. intros; apply H; now right.
Qed.
Lemma sum_filter : forall A (f : A -> Z) (b : A -> bool) l,
  sumZ (map f (filter b l)) = sumZ (map (fun x => if b x then f x else 0%Z) l).
Proof.
  induction l as [|x l IH]; [reflexivity|]. cbn [filter map]. rewrite sumZ_cons, <- IH. destruct (b x); cbn [map]; rewrite ?sumZ_cons; lia.
Qed.
Lemma sum_ext : forall A (f g : A -> Z) l, (forall x, In x l -> f x = g x) -> sumZ (map f l) = sumZ (map g l).
Proof. intros A f g l H. f_equal. apply map_ext_in. exact H. Qed.

(** * Reading back *)
Lemma read_fold : forall (on : nat -> nat -> bool) l sol, (forall f c, In (f, c) l -> c < length sol) ->
  exists sol', foldM (fun s (k : nat * nat) => if on (fst k) (snd k) then lput s (snd k) (Z.of_nat (fst k)) else Ok s) sol l = Ok sol' /\
    length sol' = length sol /\
    forall c g, (forall f, In (f, c) l -> on f c = true -> f = g) ->
      (nth_error sol c = Some (Z.of_nat g) \/ In (g, c) l /\ on g c = true) -> nth_error sol' c = Some (Z.of_nat g).
Proof.
  induction l as [|[f c] l IH]; intros sol B; cbn [foldM fst snd].
  - exists sol. split; auto. split; auto. intros c g _ [H|[[] _]]. exact H.
  - assert (Bc : c < length sol) by (apply (B f); now left). destruct (on f c) eqn:On.
    + rewrite (proj2 (lput_ok _ _ _ _) (conj Bc eq_refl)). cbn [bind].
      destruct (IH (lset sol c (Z.of_nat f))) as (sol' & E & L & S).
      { intros f' c' I. rewrite lset_length. apply (B f'). now right. }
      exists sol'. split; auto. rewrite lset_length in L. split; auto. intros c' g U H.
      apply S; [intros f' I; apply U; now right|]. destruct (Nat.eq_dec c' c) as [->|Ne].
      * left. rewrite lset_nth_error, Nat.eqb_refl. destruct (Nat.ltb_spec c (length sol)); [|lia]. assert (f = g) by (apply U; [now left|auto]). now subst.
      * rewrite lset_nth_error. destruct (Nat.eqb_spec c c'); [congruence|]. destruct H as [H|[[H|H] O]]; auto. congruence.
    + cbn [bind]. destruct (IH sol) as (sol' & E & L & S); [intros f' c' I; apply (B f'); now right|].
      exists sol'. split; auto. split; auto. intros c' g U H. apply S; [intros f' I; apply U; now right|].
      destruct H as [H|[[H|H] O]]; auto. injection H as -> ->. congruence.
Qed.

Section Sol.
Variables (service : facility -> customer -> Z) (argsort : list Z -> list nat) (p : fproblem) (h : option (nat * nat)).
Hypothesis Po : posed p.
Let nF := length (p_facilities p).
Let nC := p_customers_count p.
Notation x := (xfc service argsort p h).

Lemma pairs_In : forall f c, In (f, c) (fac_pairs p) <-> f < nF /\ c < nC.
Proof.
  intros f c. unfold fac_pairs. rewrite in_flat_map. split.
  - intros (g & Ig & I). apply in_map_iff in I as (d & E & Id). injection E as -> ->. apply in_seq in Ig, Id. unfold nF, nC. lia.
  - intros [Hf Hc]. exists f. split; [apply in_seq; unfold nF in Hf; lia|]. apply in_map_iff. exists c. split; auto. apply in_seq. unfold nC in Hc. lia.
Qed.

Definition dem (c : nat) : Z := demand_of p c.

Lemma caps_ok : exists caps, mapM (fac_capacity service argsort p h) (seq 0 nF) = Ok caps /\
  forall k, In k (concat caps) <-> exists f, f < nF /\
    ((exists c, c < nC /\ k = Constr (evar (FU f)) SGe (x f c)) \/
     k = Constr (esum (map (fun c => escale (dem c) (x f c)) (seq 0 nC))) SLe (econst (capacity_of p (Z.of_nat f)))).
Proof.
  set (one := fun f => map (fun c => Constr (evar (FU f)) SGe (x f c)) (seq 0 nC) ++
    [Constr (esum (map (fun c => escale (dem c) (x f c)) (seq 0 nC))) SLe (econst (capacity_of p (Z.of_nat f)))]).
  assert (E : mapM (fac_capacity service argsort p h) (seq 0 nF) = Ok (map one (seq 0 nF))).
  { apply mapM_total with (g := one). intros f If. apply in_seq in If. unfold fac_capacity.
    destruct (nth_error (p_facilities p) f) as [fac|] eqn:Nf; [|apply nth_error_None in Nf; unfold nF in If; lia].
    rewrite (proj2 (lget_ok _ _ _) Nf). cbn [bind].
    rewrite mapM_total with (g := fun c => escale (dem c) (x f c)).
    - cbn [bind]. unfold one. destruct (facility_zget p f fac Nf) as [_ Fo]. unfold capacity_of. now rewrite Fo.
    - intros c Ic. apply in_seq in Ic. destruct (nth_error (p_customers p) c) as [cu|] eqn:Nc.
      + rewrite (proj2 (lget_ok _ _ _) Nc). cbn [bind]. unfold dem, demand_of. now rewrite Nc.
      + apply nth_error_None in Nc. rewrite <- (po_count _ Po) in Nc. lia. }
  exists (map one (seq 0 nF)). split; auto. intros k. rewrite in_concat. split.
  - intros (l & Il & Ik). apply in_map_iff in Il as (f & <- & If). apply in_seq in If. exists f. split; [lia|].
    unfold one in Ik. apply in_app_iff in Ik as [Ik|[<-|[]]]; [left|now right].
    apply in_map_iff in Ik as (c & <- & Ic). apply in_seq in Ic. exists c. split; [lia|reflexivity].
  - intros (f & Hf & K). exists (one f). split; [apply in_map, in_seq; lia|]. unfold one. apply in_app_iff.
    destruct K as [(c & Hc & ->)| ->]; [left|right; now left]. apply in_map_iff. exists c. split; auto. apply in_seq. lia.
Qed.

(** The program exists and says this. *)
Lemma milp_says : exists P, fac_milp service argsort p h = Ok P /\ p_max P = false /\
  (forall a, admissible P a <->
    (forall f c, f < nF -> c < nC -> indicator service argsort p h f c = true -> (0 <= a (FX f c) <= 1)%Z) /\
    (forall f, f < nF -> (0 <= a (FU f) <= 1)%Z) /\
    (forall c, c < nC -> sumZ (map (fun f => eval a (x f c)) (seq 0 nF)) = 1%Z) /\
    (forall f c, f < nF -> c < nC -> (eval a (x f c) <= a (FU f))%Z) /\
    (forall f, f < nF -> (sumZ (map (fun c => dem c * eval a (x f c)) (seq 0 nC)) <= capacity_of p (Z.of_nat f))%Z)) /\
  (forall a, eval a (p_obj P) = (sumZ (map (fun f => setup_of p (Z.of_nat f) * a (FU f)) (seq 0 nF)) +
    sumZ (map (fun c => sumZ (map (fun f => distance service p f c * eval a (x f c)) (seq 0 nF))) (seq 0 nC)))%Z).
Proof.
  destruct caps_ok as (caps & E & In_caps). unfold fac_milp. fold nF nC. rewrite E. cbn [bind]. eexists. split; [reflexivity|].
  split; [reflexivity|]. split.
  - intros a. split.
    + intros [B C]. cbn [p_vars p_constrs] in B, C. repeat split.
      * intros. destruct (B (binary_var (FX f c))) as [B0 B1]; [|cbn in B0, B1; lia]. apply in_app_iff. left.
        apply in_map_iff. exists (f, c). split; auto. apply filter_In. split; [now apply pairs_In|auto].
      * destruct (B (binary_var (FX f c))) as [B0 B1]; [|cbn in B0, B1; lia]. apply in_app_iff. left.
        apply in_map_iff. exists (f, c). split; auto. apply filter_In. split; [now apply pairs_In|auto].
      * destruct (B (binary_var (FU f))) as [B0 B1]; [|cbn in B0, B1; lia]. apply in_app_iff. right.
        apply in_map_iff. exists f. split; auto. apply in_seq. lia.
      * destruct (B (binary_var (FU f))) as [B0 B1]; [|cbn in B0, B1; lia]. apply in_app_iff. right.
        apply in_map_iff. exists f. split; auto. apply in_seq. lia.
      * intros c Hc. specialize (C (Constr (esum (map (fun f => x f c) (seq 0 nF))) SEq (econst 1))).
        unfold holds in C. cbn [c_sense c_left c_right] in C. rewrite eval_sum_map, eval_const in C. apply C.
        apply in_app_iff. left. apply in_map_iff. exists c. split; auto. apply in_seq. lia.
      * intros f c Hf Hc. specialize (C (Constr (evar (FU f)) SGe (x f c))). unfold holds in C. cbn [c_sense c_left c_right] in C.
        rewrite eval_var in C. apply Z.ge_le, C. apply in_app_iff. right. apply (proj2 (In_caps _)). exists f. split; auto. left. eauto.
      * intros f Hf. specialize (C (Constr (esum (map (fun c => escale (dem c) (x f c)) (seq 0 nC))) SLe (econst (capacity_of p (Z.of_nat f))))).
        unfold holds in C. cbn [c_sense c_left c_right] in C. rewrite eval_sum_map, eval_const in C.
        rewrite (sum_ext _ _ (fun c => dem c * eval a (x f c))%Z) in C by (intros; apply eval_scale). apply C.
        apply in_app_iff. right. apply (proj2 (In_caps _)). exists f. split; auto.
    + intros (B1 & B2 & C1 & C2 & C3). split; cbn [p_vars p_constrs].
      * intros v Iv. apply in_app_iff in Iv as [Iv|Iv].
        -- apply in_map_iff in Iv as ([f c] & <- & I). apply filter_In in I as [I K]. apply (proj1 (pairs_In f c)) in I as [Hf Hc].
           specialize (B1 f c Hf Hc K). split; cbn; lia.
        -- apply in_map_iff in Iv as (f & <- & I). apply in_seq in I. specialize (B2 f ltac:(lia)). split; cbn; lia.
      * intros k Ik. apply in_app_iff in Ik as [Ik|Ik].
        -- apply in_map_iff in Ik as (c & <- & Ic). apply in_seq in Ic. unfold holds. cbn [c_sense c_left c_right].
           rewrite eval_sum_map, eval_const. apply C1. lia.
        -- apply (proj1 (In_caps _)) in Ik as (f & Hf & [(c & Hc & ->)| ->]); unfold holds; cbn [c_sense c_left c_right].
           ++ rewrite eval_var. apply Z.le_ge, C2; auto.
           ++ rewrite eval_sum_map, eval_const. rewrite (sum_ext _ _ (fun c => dem c * eval a (x f c))%Z) by (intros; apply eval_scale). auto.
  - intros a. cbn [p_obj]. rewrite eval_add, !eval_sum_map. f_equal.
    + assert (G : forall l k (q : list facility), q = p_facilities p -> skipn k q = l ->
        sumZ (map (fun b : nat * facility => eval a (escale (f_setup (snd b)) (evar (FU (fst b))))) (combine (seq k (length l)) l)) =
        sumZ (map (fun f => (setup_of p (Z.of_nat f) * a (FU f))%Z) (seq k (length l)))).
      { induction l as [|fac l IH]; intros k q Eq Sk; [reflexivity|]. cbn [length seq combine map]. rewrite !sumZ_cons.
        assert (Nk : nth_error (p_facilities p) k = Some fac).
        { rewrite <- Eq. rewrite <- (firstn_skipn k q), Sk. assert (k < length q).
          { destruct (Nat.lt_ge_cases k (length q)); auto. rewrite skipn_all2 in Sk by lia. discriminate. }
          rewrite nth_error_app2; rewrite firstn_length_le by lia; [|lia]. now rewrite Nat.sub_diag. }
        rewrite (IH (S k) q); auto.
        - f_equal. cbn [fst snd]. rewrite eval_scale, eval_var. unfold setup_of. destruct (facility_zget p k fac Nk) as [_ ->]. reflexivity.
        - clear -Sk. revert q Sk. induction k as [|k IHk]; intros [|y q] Sk; cbn [skipn] in *; try discriminate; [now injection Sk|].
          destruct q; [destruct k; discriminate|]. exact (IHk _ Sk). }
      apply (G (p_facilities p) 0 (p_facilities p)); auto.
    + rewrite <- (sum_swap _ _ (fun f c => (distance service p f c * eval a (x f c))%Z)). apply sum_ext.
      intros [f c] _. apply eval_scale.
Qed.

Section Solution.
Variable a : fvar -> Z.
Hypothesis B1 : forall f c, f < nF -> c < nC -> indicator service argsort p h f c = true -> (0 <= a (FX f c) <= 1)%Z.
Hypothesis C1 : forall c, c < nC -> sumZ (map (fun f => eval a (x f c)) (seq 0 nF)) = 1%Z.

Lemma value_range : forall f c, f < nF -> c < nC -> (0 <= eval a (x f c) <= 1)%Z.
Proof.
  intros f c Hf Hc. unfold xfc. destruct (indicator service argsort p h f c) eqn:E.
  - rewrite eval_var. auto.
  - rewrite eval_const. lia.
Qed.

Lemma unique : forall c, c < nC -> exists g, g < nF /\ eval a (x g c) = 1%Z /\ forall f, f < nF -> f <> g -> eval a (x f c) = 0%Z.
Proof.
  intros c Hc. destruct (sum_one _ (fun f => eval a (x f c)) (seq 0 nF)) as (g & Ig & G & U); auto.
  - intros f If. apply in_seq in If. apply value_range; lia.
  - apply seq_NoDup.
  - apply in_seq in Ig. exists g. split; [lia|]. split; auto. intros f Hf Ne. apply U; auto. apply in_seq. lia.
Qed.

Lemma retrieved : exists s, fac_retrieve service argsort p h a = Ok (FSolution s None) /\ length s = nC /\
  forall c, c < nC -> exists g, g < nF /\ nth_error s c = Some (Z.of_nat g) /\
    forall f, f < nF -> eval a (x f c) = (if Nat.eqb f g then 1 else 0)%Z.
Proof.
  unfold fac_retrieve. destruct (read_fold (fun f c => 1 <=? eval a (x f c))%Z (fac_pairs p) (repeat 0%Z (p_customers_count p))) as (s & E & L & S).
  { intros f c I. apply (proj1 (pairs_In f c)) in I. rewrite repeat_length. unfold nC in I. lia. }
  unfold fac_read. rewrite E. cbn [bind]. exists s. rewrite repeat_length in L. split; auto. split; auto.
  intros c Hc. destruct (unique c Hc) as (g & Hg & G & U). exists g. split; auto. split.
  - apply S.
    + intros f I On. apply (proj1 (pairs_In f c)) in I as [Hf _]. destruct (Nat.eq_dec f g) as [|Ne]; auto. rewrite (U f Hf Ne) in On. discriminate.
    + right. split; [apply pairs_In; auto|]. now rewrite G.
  - intros f Hf. destruct (Nat.eqb_spec f g) as [->|Ne]; auto.
Qed.
End Solution.

(** A plan and the assignment of the variables agree. *)
Definition agree (a : fvar -> Z) (s : list Z) : Prop := length s = nC /\
  forall c, c < nC -> exists g, g < nF /\ nth_error s c = Some (Z.of_nat g) /\
    forall f, f < nF -> eval a (x f c) = (if Nat.eqb f g then 1 else 0)%Z.

Lemma agree_assignment : forall a s, agree a s -> assignment p s.
Proof.
  intros a s [L A] c Hc. destruct (A c Hc) as (g & Hg & N & _).
  destruct (nth_error (p_facilities p) g) as [fac|] eqn:Nf; [|apply nth_error_None in Nf; unfold nF in Hg; lia].
  destruct (nth_error (p_customers p) c) as [cu|] eqn:Nc; [|apply nth_error_None in Nc; rewrite <- (po_count _ Po) in Nc; lia].
  eauto 6.
Qed.
Lemma agree_load : forall a s f, agree a s -> f < nF ->
  load p s (Z.of_nat f) = sumZ (map (fun c => dem c * eval a (x f c))%Z (seq 0 nC)).
Proof.
  intros a s f [L A] Hf. unfold load. rewrite sum_filter. apply sum_ext. intros c Ic. apply in_seq in Ic.
  destruct (A c) as (g & Hg & N & V); [unfold nC in *; lia|]. rewrite V by auto. unfold goes_to. rewrite N. unfold dem.
  destruct (Nat.eqb_spec f g) as [->|Ne].
  - rewrite Z.eqb_refl. lia.
  - destruct (Z.eqb_spec (Z.of_nat g) (Z.of_nat f)); lia.
Qed.
Lemma agree_service : forall a s, agree a s -> sumZ (map (price service p s) (seq 0 nC)) =
  sumZ (map (fun c => sumZ (map (fun f => distance service p f c * eval a (x f c)) (seq 0 nF))) (seq 0 nC))%Z.
Proof.
  intros a s [L A]. apply sum_ext. intros c Ic. apply in_seq in Ic. destruct (A c) as (g & Hg & N & V); [lia|].
  rewrite (sum_indicator _ _ _ g); [|apply seq_NoDup|apply in_seq; lia|].
  - rewrite V, Nat.eqb_refl by auto. unfold price, distance. rewrite N.
    destruct (nth_error (p_facilities p) g) as [fac|] eqn:Nf; [|apply nth_error_None in Nf; unfold nF in Hg; lia].
    destruct (facility_zget p g fac Nf) as [_ ->]. destruct (nth_error (p_customers p) c); lia.
  - intros f If Ne. apply in_seq in If. rewrite V by lia. destruct (Nat.eqb_spec f g); [congruence|]. lia.
Qed.

Definition used_in (s : list Z) (f : nat) : bool := existsb (fun g => (g =? Z.of_nat f)%Z) s.
Lemma in_use_ok : forall a s, agree a s -> in_use p s (map Z.of_nat (filter (used_in s) (seq 0 nF))).
Proof.
  intros a s [L A]. split.
  - apply FinFun.Injective_map_NoDup; [intros i j; apply Nat2Z.inj|]. apply NoDup_filter, seq_NoDup.
  - intros z. rewrite in_map_iff. split.
    + intros (f & <- & I). apply filter_In in I as [_ U]. unfold used_in in U. apply existsb_exists in U as (g & Ig & E).
      apply Z.eqb_eq in E. subst g. apply In_nth_error in Ig as [i Hi]. exists i. split; auto.
      assert (i < length s) by (apply nth_error_Some; congruence). unfold nC in L. lia.
    + intros (i & Hi & N). destruct (A i Hi) as (g & Hg & N' & _). exists g. split; [congruence|].
      apply filter_In. split; [apply in_seq; lia|]. unfold used_in. apply existsb_exists. exists (Z.of_nat g).
      split; [apply nth_error_In with i; auto|apply Z.eqb_refl].
Qed.

Lemma setup_nonneg : forall f, (0 <= setup_of p (Z.of_nat f))%Z.
Proof.
  intros f. unfold setup_of, facility_of. destruct (Z.ltb_spec (Z.of_nat f) 0); [lia|]. rewrite Nat2Z.id.
  destruct (nth_error (p_facilities p) f) as [fac|] eqn:N; [|lia]. apply (po_setup _ Po). eapply nth_error_In; eauto.
Qed.

Lemma agree_costs : forall a s, agree a s -> exists k, costs service p s k /\
  k = (sumZ (map (price service p s) (seq 0 nC)) + sumZ (map (fun f => setup_of p (Z.of_nat f) * (if used_in s f then 1 else 0)) (seq 0 nF)))%Z.
Proof.
  intros a s Ag. destruct (C41_evaluate service p s (agree_assignment a s Ag)) as (m & E & C & _ & St & _).
  exists (m_cost m + m_setup m)%Z. split; [exists m; auto|]. rewrite C. fold nC. f_equal.
  rewrite (St _ (in_use_ok a s Ag)), map_map, sum_filter. apply sum_ext. intros f _. destruct (used_in s f); lia.
Qed.

(** The assignment of the variables made from a plan. *)
Definition encode (s : list Z) (v : fvar) : Z :=
  match v with
  | FX f c => match nth_error s c with Some g => if (g =? Z.of_nat f)%Z then 1 else 0 | None => 0 end
  | FU f => if used_in s f then 1 else 0
  end%Z.

Lemma encode_agree : forall s, plan p s -> kept_plan service argsort p h s -> agree (encode s) s.
Proof.
  intros s (L & As & _) K. split; [exact L|]. intros c Hc. destruct (As c Hc) as (g & fac & cu & N & Nf & _). exists g.
  assert (Hg : g < nF) by (apply nth_error_Some; congruence). split; auto. split; auto. intros f Hf. unfold xfc.
  destruct (indicator service argsort p h f c) eqn:I.
  - rewrite eval_var. cbn [encode]. rewrite N. destruct (Nat.eqb_spec f g) as [->|Ne]; [now rewrite Z.eqb_refl|].
    destruct (Z.eqb_spec (Z.of_nat g) (Z.of_nat f)); [lia|auto].
  - rewrite eval_const. destruct (Nat.eqb_spec f g) as [->|Ne]; auto. rewrite (K c g N) in I. discriminate.
Qed.
End Sol.

(** * The theorems *)
(** Every solution of the program is read back as a plan that uses kept pairs and costs at most what the program
    minimises. *)
Theorem C123_sound : forall service argsort p h P a, posed p -> fac_milp service argsort p h = Ok P -> admissible P a ->
  exists s k, fac_retrieve service argsort p h a = Ok (FSolution s None) /\ plan p s /\ kept_plan service argsort p h s /\
    costs service p s k /\ (k <= eval a (p_obj P))%Z.
Proof.
  intros service argsort p h P a Po E A. destruct (milp_says service argsort p h Po) as (P' & E' & _ & Ad & Ob).
  rewrite E in E'. injection E' as <-. apply (proj1 (Ad a)) in A as (B1 & B2 & C1 & C2 & C3).
  destruct (retrieved service argsort p h a B1 C1) as (s & R & L & G).
  assert (Ag : agree service argsort p h a s) by (split; auto).
  destruct (agree_costs service argsort p h Po a s Ag) as (k & K & Ek).
  exists s, k. split; auto. split; [|split; [|split; auto]].
  - split; auto. split; [eapply agree_assignment; eauto|]. intros c z Hc N. destruct (G c Hc) as (g & Hg & N' & _).
    assert (z = Z.of_nat g) as -> by congruence. rewrite (agree_load service argsort p h a s g Ag Hg). auto.
  - intros c f N. assert (Hc : c < p_customers_count p) by (rewrite <- L; apply nth_error_Some; congruence).
    destruct (G c Hc) as (g & Hg & N' & V). assert (f = g) as -> by (apply Nat2Z.inj; congruence).
    specialize (V g Hg). rewrite Nat.eqb_refl in V. unfold xfc in V. destruct (indicator service argsort p h g c); auto.
    rewrite eval_const in V. discriminate.
  - rewrite Ek, Ob, (agree_service service argsort p h a s Ag).
    assert (sumZ (map (fun f => setup_of p (Z.of_nat f) * (if used_in s f then 1 else 0)) (seq 0 (length (p_facilities p)))) <=
            sumZ (map (fun f => setup_of p (Z.of_nat f) * a (FU f)) (seq 0 (length (p_facilities p)))))%Z; [|lia].
    apply sum_le. intros f If. apply in_seq in If. pose proof (setup_nonneg p Po f).
    assert ((if used_in s f then 1 else 0) <= a (FU f))%Z; [|nia]. pose proof (B2 f ltac:(lia)).
    destruct (used_in s f) eqn:U; [|lia]. unfold used_in in U. apply existsb_exists in U as (z & Iz & Ez).
    apply Z.eqb_eq in Ez. subst z. apply In_nth_error in Iz as [c Nc].
    assert (Hc : c < p_customers_count p) by (rewrite <- L; apply nth_error_Some; congruence).
    destruct (G c Hc) as (g & Hg & N' & V). assert (f = g) as -> by (apply Nat2Z.inj; congruence).
    specialize (V g Hg). rewrite Nat.eqb_refl in V. specialize (C2 g c Hg Hc). lia.
Qed.

(** The encoding of a plan is a solution whose objective is the cost of the plan. *)
Lemma C123_complete_encode : forall service argsort p h s P, posed p -> fac_milp service argsort p h = Ok P -> plan p s ->
  kept_plan service argsort p h s -> exists k, admissible P (encode s) /\ costs service p s k /\ eval (encode s) (p_obj P) = k /\
    fac_retrieve service argsort p h (encode s) = Ok (FSolution s None).
Proof.
  intros service argsort p h s P Po E Pl K. destruct (milp_says service argsort p h Po) as (P' & E' & _ & Ad & Ob).
  rewrite E in E'. injection E' as <-.
  pose proof (encode_agree service argsort p h s Pl K) as Ag. set (a := encode s) in *.
  destruct (agree_costs service argsort p h Po a s Ag) as (k & Kc & Ek). exists k.
  pose proof Ag as [L G]. destruct Pl as (_ & As & W).
  assert (A : admissible P a).
  { apply (proj2 (Ad a)). split; [|split; [|split; [|split]]].
    - intros f c Hf Hc I. cbn [a encode]. destruct (nth_error s c) as [z|]; [destruct (z =? Z.of_nat f)%Z|]; lia.
    - intros f Hf. cbn [a encode]. destruct (used_in s f); lia.
    - intros c Hc. destruct (G c Hc) as (g & Hg & N & V). rewrite (sum_indicator _ _ _ g); [|apply seq_NoDup|apply in_seq; lia|].
      + rewrite V by auto. now rewrite Nat.eqb_refl.
      + intros f If Ne. apply in_seq in If. rewrite V by lia. destruct (Nat.eqb_spec f g); congruence.
    - intros f c Hf Hc. destruct (G c Hc) as (g & Hg & N & V). rewrite V by auto. destruct (Nat.eqb_spec f g) as [->|Ne].
      + cbn [a encode]. replace (used_in s g) with true; [lia|]. symmetry. unfold used_in. apply existsb_exists.
        exists (Z.of_nat g). split; [eapply nth_error_In; eauto|apply Z.eqb_refl].
      + cbn [a encode]. destruct (used_in s f); lia.
    - intros f Hf. rewrite <- (agree_load service argsort p h a s f Ag Hf).
      destruct (used_in s f) eqn:U.
      + unfold used_in in U. apply existsb_exists in U as (z & Iz & Ez). apply Z.eqb_eq in Ez. subst z.
        apply In_nth_error in Iz as [c Nc]. apply (W c); auto. fold (p_customers_count p) in *. rewrite <- L. apply nth_error_Some. congruence.
      + replace (load p s (Z.of_nat f)) with 0%Z.
        * destruct (nth_error (p_facilities p) f) as [fac|] eqn:Nf; [|apply nth_error_None in Nf; lia].
          destruct (facility_zget p f fac Nf) as [_ Fo]. unfold capacity_of. rewrite Fo. apply (po_capacity _ Po). eapply nth_error_In; eauto.
        * symmetry. unfold load. rewrite sum_filter. apply sumZ_map_zero. intros c Ic. unfold goes_to.
          destruct (nth_error s c) as [z|] eqn:Nc; auto. destruct (z =? Z.of_nat f)%Z eqn:Ez; auto.
          exfalso. enough (used_in s f = true) by congruence. unfold used_in. apply existsb_exists. exists z.
          split; auto. eapply nth_error_In; eauto. }
  split; auto. split; auto. split.
  2: { apply (proj1 (Ad a)) in A as (B1 & _ & C1 & _ & _).
    destruct (retrieved service argsort p h a B1 C1) as (s' & R & L' & G'). rewrite R. f_equal. f_equal.
    apply nth_ext with (d := 0%Z) (d' := 0%Z); [congruence|]. intros c Hc. rewrite L' in Hc.
    destruct (G c Hc) as (g & Hg & N & V). destruct (G' c Hc) as (g' & Hg' & N' & V').
    specialize (V g' Hg'). rewrite (V' g' Hg'), Nat.eqb_refl in V. destruct (Nat.eqb_spec g' g) as [Eg|]; [subst g'|discriminate].
    rewrite (nth_error_nth _ _ _ N), (nth_error_nth _ _ _ N'). reflexivity. }
  rewrite Ob, Ek, (agree_service service argsort p h a s Ag). cbn [a encode]. lia.
Qed.


(** Every plan that uses kept pairs is read back from a solution whose objective is the cost of the plan. *)
Theorem C123_complete : forall service argsort p h s, posed p -> plan p s -> kept_plan service argsort p h s ->
  exists P a k, fac_milp service argsort p h = Ok P /\ admissible P a /\
    fac_retrieve service argsort p h a = Ok (FSolution s None) /\ costs service p s k /\ eval a (p_obj P) = k.
Proof.
  intros service argsort p h s Po Pl K. destruct (milp_says service argsort p h Po) as (P & E & _).
  destruct (C123_complete_encode service argsort p h s P Po E Pl K) as (k & A & C & O & R). exists P, (encode s), k. auto.
Qed.

(** An optimal solution of the program is read back as a cheapest plan among those that use kept pairs. *)
Theorem C123_optimal : forall service argsort p h P a, posed p -> fac_milp service argsort p h = Ok P -> optimal P a ->
  exists s k, fac_retrieve service argsort p h a = Ok (FSolution s None) /\ plan p s /\ costs service p s k /\
    forall s' k', plan p s' -> kept_plan service argsort p h s' -> costs service p s' k' -> (k <= k')%Z.
Proof.
  intros service argsort p h P a Po E [A O]. destruct (C123_sound _ _ _ _ _ _ Po E A) as (s & k & R & Pl & _ & K & Le).
  exists s, k. repeat (split; auto). intros s' k' Pl' Kp K'.
  destruct (C123_complete service argsort p h s' Po Pl' Kp) as (P' & a' & k1 & E' & A' & _ & K1 & Ob).
  rewrite E in E'. injection E' as <-. specialize (O a' A'). unfold better_or_equal in O.
  destruct (milp_says service argsort p h Po) as (P' & E' & Mx & _ & _). rewrite E in E'. injection E' as <-. rewrite Mx in O.
  assert (k1 = k'); [|lia]. destruct K1 as (m & Em & ->), K' as (m' & Em' & ->). congruence.
Qed.

(** Without the heuristic nothing is pruned. *)
Theorem C123_exact : forall service argsort p P a, posed p -> sorts argsort -> fac_milp service argsort p None = Ok P ->
  optimal P a ->
  exists s k, fac_retrieve service argsort p None a = Ok (FSolution s None) /\ plan p s /\ costs service p s k /\
    forall s' k', plan p s' -> costs service p s' k' -> (k <= k')%Z.
Proof.
  intros service argsort p P a Po So E O. destruct (C123_optimal _ _ _ _ _ _ Po E O) as (s & k & R & Pl & K & B).
  exists s, k. repeat (split; auto). intros s' k' Pl' K'. apply (B s'); auto.
  intros c f N. unfold indicator, kept. apply orb_true_intro. left. apply pymem_true.
  destruct (So (map f_setup (p_facilities p))) as [Pm _]. rewrite map_length in Pm.
  rewrite firstn_all2.
  - apply (Permutation_in _ (Permutation_sym Pm)). apply in_seq. split; [lia|]. destruct Pl' as (L & As & _).
    destruct (As c) as (g & fac & cu & N' & Nf & _); [rewrite <- L; apply nth_error_Some; congruence|].
    assert (f = g) as -> by (apply Nat2Z.inj; congruence). apply nth_error_Some. congruence.
  - apply Permutation_length in Pm. rewrite seq_length in Pm. lia.
Qed.

(** One round of the large neighbourhood search (gurobi): with the decisions of some customers fixed to those of
    the current plan, an optimal solution is read back as a plan that keeps them and is a cheapest such plan; in
    particular it costs no more than the current one. *)
Theorem C123_lns : forall service argsort p h P current fixed k0 a, posed p -> fac_milp service argsort p h = Ok P ->
  plan p current -> kept_plan service argsort p h current -> costs service p current k0 ->
  optimal (with_constrs P (fac_fix service argsort p h current fixed)) a ->
  exists s k, fac_retrieve service argsort p h a = Ok (FSolution s None) /\ plan p s /\ costs service p s k /\
    (forall c, In c fixed -> nth_error s c = nth_error current c) /\ (k <= k0)%Z /\
    forall s' k', plan p s' -> kept_plan service argsort p h s' -> costs service p s' k' ->
      (forall c, In c fixed -> nth_error s' c = nth_error current c) -> (k <= k')%Z.
Proof.
  intros service argsort p h P current fixed k0 a Po E Pc Kc K0 [A O].
  assert (Sp : forall b, admissible (with_constrs P (fac_fix service argsort p h current fixed)) b <->
    admissible P b /\ forall f c, f < length (p_facilities p) -> c < p_customers_count p -> In c fixed ->
      indicator service argsort p h f c = true ->
      b (FX f c) = (match nth_error current c with Some g => if (Z.of_nat f =? g)%Z then 1 else 0 | None => 0 end)%Z).
  { intros b. split.
    - intros [Bo Co]. cbn [with_constrs p_vars p_constrs] in *. split; [split; auto; intros; apply Co, in_app_iff; auto|].
      intros f c Hf Hc If Ik. specialize (Co (Constr (evar (FX f c)) SEq (econst (match nth_error current c with
        | Some g => if (Z.of_nat f =? g)%Z then 1 else 0 | None => 0 end)))).
      unfold holds in Co. cbn [c_sense c_left c_right] in Co. rewrite eval_var, eval_const in Co. apply Co.
      apply in_app_iff. right. unfold fac_fix. apply in_flat_map. exists (f, c). split; [apply pairs_In; auto|]. cbn [fst snd].
      replace (pymem c fixed) with true by (symmetry; now apply pymem_true). rewrite Ik. cbn [andb]. now left.
    - intros [[Bo Co] Fx]. split; cbn [with_constrs p_vars p_constrs]; auto. intros k Ik. apply in_app_iff in Ik as [Ik|Ik]; auto.
      unfold fac_fix in Ik. apply in_flat_map in Ik as ([f c] & Ip & Ik). cbn [fst snd] in Ik.
      apply (proj1 (pairs_In p f c)) in Ip as [Hf Hc]. destruct (pymem c fixed) eqn:M; [|destruct Ik].
      destruct (indicator service argsort p h f c) eqn:Ii; [|destruct Ik]. cbn [andb] in Ik. destruct Ik as [<-|[]].
      unfold holds. cbn [c_sense c_left c_right]. rewrite eval_var, eval_const. apply Fx; auto. apply (proj1 (pymem_true c fixed)); auto. }
  pose proof (proj1 (Sp a) A) as [Aa Fx].
  destruct (C123_sound _ _ _ _ _ _ Po E Aa) as (s & k & R & Pl & Kp & K & Le). exists s, k. split; auto. split; auto. split; auto.
  destruct (milp_says service argsort p h Po) as (P' & E' & Mx & Ad & _). rewrite E in E'. injection E' as <-.
  assert (Keep : forall c, In c fixed -> nth_error s c = nth_error current c).
  { intros c Ic. destruct Pl as (L & _ & _), Pc as (Lc & _ & _). destruct (Nat.lt_ge_cases c (p_customers_count p)) as [Hc|Hc].
    - apply (proj1 (Ad a)) in Aa as (B1 & _ & C1 & _ & _). destruct (retrieved service argsort p h a B1 C1) as (s1 & R1 & _ & G).
      rewrite R in R1. injection R1 as <-. destruct (G c Hc) as (g & Hg & N & V). specialize (V g Hg). rewrite Nat.eqb_refl in V.
      assert (Ii : indicator service argsort p h g c = true) by (apply Kp; auto).
      unfold xfc in V. rewrite Ii, eval_var in V. rewrite (Fx g c Hg Hc Ic Ii) in V. rewrite N.
      destruct (nth_error current c) as [z|]; [|discriminate]. destruct (Z.eqb_spec (Z.of_nat g) z); [congruence|discriminate].
    - rewrite (proj2 (nth_error_None s c)), (proj2 (nth_error_None current c)) by lia. reflexivity. }
  assert (Best : forall s' k', plan p s' -> kept_plan service argsort p h s' -> costs service p s' k' ->
      (forall c, In c fixed -> nth_error s' c = nth_error current c) -> (k <= k')%Z).
  { intros s' k' Pl' Kp' K' Same. destruct (C123_complete_encode service argsort p h s' P Po E Pl' Kp') as (k1 & A' & K1 & Ob).
    assert (A2 : admissible (with_constrs P (fac_fix service argsort p h current fixed)) (encode s')).
    { apply (proj2 (Sp _)). split; auto. intros f c Hf Hc Ic _. cbn [encode]. rewrite (Same c Ic).
      destruct (nth_error current c) as [z|]; auto. rewrite Z.eqb_sym. reflexivity. }
    specialize (O _ A2). unfold better_or_equal in O. cbn [with_constrs p_max p_obj] in O. rewrite Mx in O.
    assert (k1 = k'); [|lia]. destruct K1 as (m & Em & ->), K' as (m' & Em' & ->). congruence. }
  split; auto. split; auto. apply (Best current); auto.
Qed.

(** * Examples *)
Definition ex_argsort (l : list Z) : list nat := ssort (fun i j => nth i l 0 <=? nth j l 0)%Z (seq 0 (length l)).
Lemma ex_sorts : sorts ex_argsort.
Proof.
  intros l. unfold ex_argsort. split; [symmetry; apply ssort_perm|]. apply Sorted_StronglySorted; [intros i j k; lia|].
  assert (Sorted (fun i j => (nth i l 0 <=? nth j l 0)%Z = true) (ssort (fun i j => (nth i l 0 <=? nth j l 0)%Z) (seq 0 (length l)))) as S.
  { apply ssort_sorted. intros x y H. apply Z.leb_gt in H. apply Z.leb_le. lia. }
  induction S as [|x m S IH H]; [constructor|]. constructor; [exact IH|]. destruct H; constructor. apply Z.leb_le. assumption.
Qed.
Lemma ex_posed : posed ex_fp.
Proof. split; [reflexivity| |]; cbn; intros fac I; intuition (subst; cbn; lia). Qed.
Definition ex_plan : list Z := [0; 0; 1; 2]%Z.
Example C123_ex : posed ex_fp /\ sorts ex_argsort /\ plan ex_fp ex_plan /\
  kept_plan ex_service ex_argsort ex_fp (Some (1, 2)) ex_plan /\ costs ex_service ex_fp ex_plan 23 /\
  indicator ex_service ex_argsort ex_fp (Some (1, 2)) 0 3 = false /\
  exists P, fac_milp ex_service ex_argsort ex_fp (Some (1, 2)) = Ok P /\ length (p_vars P) = 13 /\ length (p_constrs P) = 19 /\
    admissible P (encode ex_plan) /\
    fac_retrieve ex_service ex_argsort ex_fp (Some (1, 2)) (encode ex_plan) = Ok (FSolution ex_plan None).
Proof.
  assert (Pl : plan ex_fp ex_plan).
  { split; [reflexivity|]. destruct C41_ex as (_ & _ & _ & _ & W). split; [|exact W].
    intros i L. destruct i as [|[|[|[|i]]]]; [exists 0|exists 0|exists 1|exists 2|cbn in L; lia]; do 2 eexists; repeat split. }
  assert (Kp : kept_plan ex_service ex_argsort ex_fp (Some (1, 2)) ex_plan).
  { intros c f N. destruct c as [|[|[|[|c]]]]; cbn in N; try (destruct c; discriminate);
      injection N as N; [assert (f = 0) by lia|assert (f = 0) by lia|assert (f = 1) by lia|assert (f = 2) by lia]; subst f; vm_compute; reflexivity. }
  split; [exact ex_posed|]. split; [exact ex_sorts|]. split; [exact Pl|]. split; [exact Kp|].
  split; [eexists; split; [vm_compute; reflexivity|reflexivity]|]. split; [vm_compute; reflexivity|].
  destruct (milp_says ex_service ex_argsort ex_fp (Some (1, 2)) ex_posed) as (P & E & _).
  destruct (C123_complete_encode ex_service ex_argsort ex_fp (Some (1, 2)) ex_plan P ex_posed E Pl Kp) as (k & A & _ & _ & R).
  exists P. split; [exact E|]. split; [|split; [|split; [exact A|exact R]]].
  - vm_compute in E. injection E as <-. reflexivity.
  - vm_compute in E. injection E as <-. reflexivity.
Qed.

(** * Where the statements stop *)
Definition ex_small : fproblem := FProblem 2 [Facility 1 4 0; Facility 9 9 5] [Customer 4 0; Customer 4 1].
Lemma small_posed : posed ex_small.
Proof. split; [reflexivity| |]; cbn; intros fac I; intuition (subst; cbn; lia). Qed.
Lemma small_plan : forall a b, (a = 0%Z /\ b = 1%Z \/ a = 1%Z /\ b = 0%Z \/ a = 1%Z /\ b = 1%Z) -> plan ex_small [a; b].
Proof.
  intros a b H. split; [reflexivity|]. split.
  - intros i L. destruct i as [|[|i]]; [exists (Z.to_nat a)|exists (Z.to_nat b)|cbn in L; lia];
      destruct H as [[-> ->]|[[-> ->]|[-> ->]]]; do 2 eexists; repeat split.
  - intros i z L N. destruct i as [|[|i]]; [| |cbn in L; lia]; cbn in N; injection N as <-;
      destruct H as [[-> ->]|[[-> ->]|[-> ->]]]; vm_compute; discriminate.
Qed.

(** The pruning may leave a program without solutions although the problem has a plan: every customer has the same
    closest facility, which is also the cheapest, and it cannot serve them all. *)
Theorem C123_pruned_refuted : exists service argsort p h s P, posed p /\ sorts argsort /\ plan p s /\
  fac_milp service argsort p h = Ok P /\ forall a, ~ admissible P a.
Proof.
  exists ex_service, ex_argsort, ex_small, (Some (1, 1)), [0; 1]%Z. eexists. split; [exact small_posed|]. split; [exact ex_sorts|].
  split; [apply small_plan; auto|]. split; [vm_compute; reflexivity|]. intros a [_ Co]. cbn [p_constrs] in Co.
  pose proof (Co _ (or_introl eq_refl)) as H1. pose proof (Co _ (or_intror (or_introl eq_refl))) as H2.
  pose proof (Co _ (or_intror (or_intror (or_intror (or_intror (or_introl eq_refl)))))) as H3.
  unfold holds, eval in *. cbn [c_sense c_left c_right map fst snd] in *. rewrite ?sumZ_cons in *. change (sumZ []) with 0%Z in *. lia.
Qed.

(** A round of the large neighbourhood search may have no solution although the current plan is a plan and the
    program has solutions: the current plan uses a pair that the pruning removed. *)
Theorem C123_lns_refuted : exists service argsort p h P current fixed a, posed p /\ sorts argsort /\ plan p current /\
  fac_milp service argsort p h = Ok P /\ admissible P a /\
  forall b, ~ admissible (with_constrs P (fac_fix service argsort p h current fixed)) b.
Proof.
  exists ex_service, ex_argsort, (FProblem 2 [Facility 1 9 0; Facility 9 9 5] [Customer 4 0; Customer 4 1]), (Some (1, 1)).
  eexists. exists [1; 0]%Z, [0], (encode [0; 0]%Z). assert (Po : posed (FProblem 2 [Facility 1 9 0; Facility 9 9 5] [Customer 4 0; Customer 4 1])).
  { split; [reflexivity| |]; cbn; intros fac I; intuition (subst; cbn; lia). }
  split; [exact Po|]. split; [exact ex_sorts|]. split; [|split; [vm_compute; reflexivity|split]].
  - split; [reflexivity|]. split.
    + intros i L. destruct i as [|[|i]]; [exists 1|exists 0|cbn in L; lia]; do 2 eexists; repeat split.
    + intros i z L N. destruct i as [|[|i]]; [| |cbn in L; lia]; cbn in N; injection N as <-; vm_compute; discriminate.
  - split; cbn [p_vars p_constrs]; intros k I;
      repeat (destruct I as [<-|I]; [vm_compute; try (split; discriminate); try discriminate; reflexivity|]); destruct I.
  - intros b [_ Co]. assert (F : In (Constr (evar (FX 0 0)) SEq (econst 0))
      (fac_fix ex_service ex_argsort (FProblem 2 [Facility 1 9 0; Facility 9 9 5] [Customer 4 0; Customer 4 1]) (Some (1, 1)) [1; 0]%Z [0]))
      by (vm_compute; auto).
    cbn [with_constrs p_constrs] in Co. pose proof (Co _ (or_introl eq_refl)) as H1.
    specialize (Co _ (proj2 (in_app_iff _ _ _) (or_intror F))).
    unfold holds, eval in *. cbn [c_sense c_left c_right map fst snd evar econst] in *. rewrite ?sumZ_cons in *. change (sumZ []) with 0%Z in *. lia.
Qed.

(** The rounds made with python-mip fix nothing: the optimal solution found may move a customer that was to be
    kept. *)
Theorem C123_pymip_lns_refuted : exists service argsort p P current fixed a s, posed p /\ sorts argsort /\ plan p current /\
  fac_milp service argsort p None = Ok P /\
  optimal (with_constrs P (fac_fix_pymip p None current fixed)) a /\
  fac_retrieve service argsort p None a = Ok (FSolution s None) /\
  exists c, In c fixed /\ nth_error s c <> nth_error current c.
Proof.
  destruct (milp_says ex_service ex_argsort ex_small None small_posed) as (P & E & _).
  assert (Pl : plan ex_small [0; 1]%Z) by (apply small_plan; auto).
  assert (Al : forall s, kept_plan ex_service ex_argsort ex_small None s \/ ~ plan ex_small s).
  { intros s. destruct (Nat.eq_dec (length s) 2) as [L|L]; [|right; intros (L' & _); apply L, L'].
    destruct s as [|x [|y [|]]]; try discriminate.
    destruct (Z.leb_spec 0 x), (Z.leb_spec x 1), (Z.leb_spec 0 y), (Z.leb_spec y 1);
      try (right; intros (_ & As & _); destruct (As 0 ltac:(cbn; lia)) as (f & fac & cu & N & Nf & _);
           destruct (As 1 ltac:(cbn; lia)) as (f' & fac' & cu' & N' & Nf' & _); cbn in N, N'; injection N as N; injection N' as N';
           assert (f < 2) by (change 2 with (length (p_facilities ex_small)); apply nth_error_Some; congruence);
           assert (f' < 2) by (change 2 with (length (p_facilities ex_small)); apply nth_error_Some; congruence); lia).
    left. intros c f N. destruct c as [|[|c]]; cbn in N; [| |destruct c; discriminate]; injection N as N;
      assert (f = 0 \/ f = 1) as [->| ->] by lia; vm_compute; reflexivity. }
  exists ex_service, ex_argsort, ex_small, P, [1; 0]%Z, [0], (encode [0; 1]%Z), [0; 1]%Z.
  split; [exact small_posed|]. split; [exact ex_sorts|]. split; [apply small_plan; auto|]. split; [exact E|].
  assert (Kp : kept_plan ex_service ex_argsort ex_small None [0; 1]%Z) by (destruct (Al [0; 1]%Z); [auto|contradiction]).
  destruct (C123_complete_encode _ _ _ _ _ _ small_posed E Pl Kp) as (k & A & K & Ob & R).
  split; [|split; [exact R|exists 0; split; [cbn; auto|discriminate]]].
  unfold fac_fix_pymip, with_constrs. rewrite app_nil_r. destruct P as [vs cs ob mx]. cbn [p_vars p_constrs p_obj p_max].
  split; [exact A|]. intros b B. destruct (C123_sound _ _ _ _ _ _ small_posed E B) as (s & k' & _ & Ps & _ & K' & Le).
  assert (mx = false) as -> by (vm_compute in E; congruence). unfold better_or_equal. cbn [p_max p_obj] in *. rewrite Ob.
  enough (k <= k')%Z by lia. clear - K K' Ps.
  destruct Ps as (L & As & W). destruct s as [|x [|y [|]]]; try discriminate.
  destruct (As 0 ltac:(cbn; lia)) as (f & fac & cu & N & Nf & _).
  destruct (As 1 ltac:(cbn; lia)) as (f' & fac' & cu' & N' & Nf' & _). cbn in N, N'. injection N as N. injection N' as N'.
  assert (f < 2) by (change 2 with (length (p_facilities ex_small)); apply nth_error_Some; congruence).
  assert (f' < 2) by (change 2 with (length (p_facilities ex_small)); apply nth_error_Some; congruence).
  destruct K as (m & Em & ->), K' as (m' & Em' & ->). subst x y.
  assert (f = 0 \/ f = 1) as [->| ->] by lia; assert (f' = 0 \/ f' = 1) as [->| ->] by lia;
    vm_compute in Em; vm_compute in Em'; injection Em as <-; injection Em' as <-; cbn; try lia.
  specialize (W 0 0%Z ltac:(cbn; lia) eq_refl). vm_compute in W. congruence.
Qed.

Print Assumptions C123_sound.
Print Assumptions C123_complete.
Print Assumptions C123_optimal.
Print Assumptions C123_exact.
Print Assumptions C123_lns.
Print Assumptions C123_pruned_refuted.
Print Assumptions C123_lns_refuted.
Print Assumptions C123_pymip_lns_refuted.
