(** Lemmas on the aggregation of a vector. *)
From Coq Require Import String.
From Coq Require Import List Bool Arith ZArith QArith Qround Lia Lqa Permutation Sorted.
From Verif Require Import Py PyList SgsModel RobustModel.
Import ListNotations.
Open Scope nat_scope.

Lemma qle_true : forall a b, Qle_bool a b = true <-> (a <= b)%Q.
Proof. intros. apply Qle_bool_iff. Qed.
Lemma qle_false : forall a b, Qle_bool a b = false -> (b < a)%Q.
Proof.
  intros a b H. apply Qnot_le_lt. intros L. apply Qle_bool_iff in L. congruence.
Qed.

(** Sorted lists, with the relation made explicit. *)
Fixpoint asc (l : list Q) : Prop :=
  match l with
  | [] => True
  | x :: r => (forall y, In y r -> (x <= y)%Q) /\ asc r
  end.

Lemma sinsert_In : forall x y l, In y (sinsert Qle_bool x l) <-> y = x \/ In y l.
Proof.
  intros x y l. split; intros H.
  - apply (Permutation_in _ (Permutation_sym (sinsert_perm Qle_bool x l))) in H. destruct H; auto.
  - apply (Permutation_in _ (sinsert_perm Qle_bool x l)). destruct H; [left|right]; auto.
Qed.
Lemma sinsert_asc : forall x l, asc l -> asc (sinsert Qle_bool x l).
Proof.
  induction l as [|y l IH]; intros A; [cbn; split; [intros ? []|auto]|].
  destruct A as [A1 A2]. cbn. destruct (Qle_bool x y) eqn:E.
  - apply qle_true in E. split; [|split; auto]. intros z [<-|I]; auto. apply Qle_trans with y; auto.
  - apply qle_false in E. split; auto. intros z I. apply sinsert_In in I as [->|I]; auto. lra.
Qed.
Lemma qsort_asc : forall l, asc (qsort l).
Proof. induction l as [|x l IH]; [exact I|]. apply sinsert_asc, IH. Qed.
Lemma qsort_In : forall x l, In x (qsort l) <-> In x l.
Proof.
  intros. split; intros H.
  - apply (Permutation_in _ (Permutation_sym (ssort_perm Qle_bool l)) H).
  - apply (Permutation_in _ (ssort_perm Qle_bool l) H).
Qed.
Lemma qsort_length : forall l, length (qsort l) = length l.
Proof. intros. apply ssort_length. Qed.

Lemma asc_nth : forall l i j x y, asc l -> i <= j -> nth_error l i = Some x -> nth_error l j = Some y -> (x <= y)%Q.
Proof.
  induction l as [|z l IH]; intros [|i] [|j] x y A L X Y; cbn in *; try discriminate; try lia; destruct A as [A1 A2].
  - injection X as ->. injection Y as ->. apply Qle_refl.
  - injection X as ->. apply A1. eapply nth_error_In; eauto.
  - eapply (IH i j); eauto. lia.
Qed.

(** Insertion is monotone in everything. *)
Lemma sinsert_head : forall x l, (forall y, In y l -> (x <= y)%Q) -> sinsert Qle_bool x l = x :: l.
Proof.
  intros x [|y l] H; [reflexivity|]. cbn. assert (E : Qle_bool x y = true).
  { apply qle_true, H. now left. } now rewrite E.
Qed.
Lemma sinsert_mono : forall s t x y, Forall2 Qle s t -> asc s -> asc t -> (x <= y)%Q ->
  Forall2 Qle (sinsert Qle_bool x s) (sinsert Qle_bool y t).
Proof.
  intros s t x y F. revert x y. induction F as [|a b s t L F IH]; intros x y A B X.
  - cbn. constructor; auto.
  - destruct A as [A1 A2], B as [B1 B2]. cbn. destruct (Qle_bool x a) eqn:E1, (Qle_bool y b) eqn:E2.
    + constructor; auto.
    + apply qle_true in E1. apply qle_false in E2. constructor; [lra|].
      rewrite <- (sinsert_head a s A1). apply IH; auto. lra.
    + apply qle_false in E1. apply qle_true in E2. constructor; [lra|].
      rewrite <- (sinsert_head b t B1). apply IH; auto. lra.
    + constructor; auto.
Qed.
Lemma qsort_mono : forall l l', Forall2 Qle l l' -> Forall2 Qle (qsort l) (qsort l').
Proof.
  intros l l' F. induction F; cbn; [constructor|]. apply sinsert_mono; auto; apply qsort_asc.
Qed.

Lemma F2_le_eq : forall l l', Forall2 Qle l l' -> Forall2 Qle l' l -> Forall2 Qeq l l'.
Proof.
  intros l l' F. induction F; intros G; [constructor|]. inversion G; subst. constructor; auto. now apply Qle_antisym.
Qed.
Lemma F2_eq_le : forall l l', Forall2 Qeq l l' -> Forall2 Qle l l'.
Proof. intros l l' F. induction F; constructor; auto. rewrite H. apply Qle_refl. Qed.
Lemma F2_eq_sym : forall l l', Forall2 Qeq l l' -> Forall2 Qeq l' l.
Proof. intros l l' F. induction F; constructor; auto. now symmetry. Qed.
Lemma F2_eq_refl : forall l, Forall2 Qeq l l.
Proof. induction l; constructor; auto. reflexivity. Qed.
Lemma F2_eq_trans : forall a b c, Forall2 Qeq a b -> Forall2 Qeq b c -> Forall2 Qeq a c.
Proof.
  intros a b c F. revert c. induction F; intros c G; inversion G; subst; constructor; auto.
  now transitivity y.
Qed.
Lemma sinsert_eq : forall s t x y, Forall2 Qeq s t -> asc s -> asc t -> x == y ->
  Forall2 Qeq (sinsert Qle_bool x s) (sinsert Qle_bool y t).
Proof.
  intros s t x y F A B E. apply F2_le_eq; apply sinsert_mono; auto.
  - now apply F2_eq_le.
  - rewrite E. apply Qle_refl.
  - now apply F2_eq_le, F2_eq_sym.
  - rewrite E. apply Qle_refl.
Qed.
Lemma sinsert_comm : forall s x y, Forall2 Qeq (sinsert Qle_bool x (sinsert Qle_bool y s)) (sinsert Qle_bool y (sinsert Qle_bool x s)).
Proof.
  induction s as [|a s IH]; intros x y.
  - cbn. destruct (Qle_bool x y) eqn:E1, (Qle_bool y x) eqn:E2; repeat constructor; try reflexivity.
    + apply qle_true in E1, E2. lra.
    + apply qle_true in E1, E2. lra.
    + apply qle_false in E1, E2. lra.
    + apply qle_false in E1, E2. lra.
  - cbn. destruct (Qle_bool y a) eqn:Y, (Qle_bool x a) eqn:X; cbn.
    + destruct (Qle_bool x y) eqn:E1, (Qle_bool y x) eqn:E2; rewrite ?X, ?Y; repeat constructor; try reflexivity; try apply F2_eq_refl;
      try (apply qle_true in E1, E2; lra); apply qle_false in E1, E2; lra.
    + rewrite X. assert (E : Qle_bool x y = false).
      { destruct (Qle_bool x y) eqn:E; auto. apply qle_true in E, Y. apply qle_false in X. lra. }
      rewrite E. cbn. rewrite Y. apply F2_eq_refl.
    + rewrite Y. assert (E : Qle_bool y x = false).
      { destruct (Qle_bool y x) eqn:E; auto. apply qle_true in E, X. apply qle_false in Y. lra. }
      rewrite E, X. apply F2_eq_refl.
    + rewrite X, Y. constructor; [reflexivity|apply IH].
Qed.
Lemma qsort_perm : forall l l', Permutation l l' -> Forall2 Qeq (qsort l) (qsort l').
Proof.
  intros l l' P. induction P; cbn.
  - constructor.
  - apply sinsert_eq; auto; try apply qsort_asc. reflexivity.
  - apply sinsert_comm.
  - eapply F2_eq_trans; eauto.
Qed.

(** Sums. *)
Lemma qsum_mono : forall l l', Forall2 Qle l l' -> (qsum l <= qsum l')%Q.
Proof. intros l l' F. unfold qsum. induction F; cbn [fold_right]; lra. Qed.
Lemma qsum_perm : forall l l', Permutation l l' -> qsum l == qsum l'.
Proof. intros l l' P. unfold qsum. induction P; cbn [fold_right]; lra. Qed.
Lemma qlen_cons : forall x l, qlen (x :: l) == 1 + qlen l.
Proof.
  intros. unfold qlen. cbn [length]. rewrite Nat2Z.inj_succ. unfold Z.succ. rewrite inject_Z_plus. cbn. ring.
Qed.
Lemma qlen_pos : forall x l, (0 < qlen (x :: l))%Q.
Proof. intros. unfold qlen. cbn [length]. unfold Qlt. cbn. lia. Qed.
Lemma qsum_bounds : forall l lo hi, (forall x, In x l -> (lo <= x <= hi)%Q) -> (lo * qlen l <= qsum l <= hi * qlen l)%Q.
Proof.
  induction l as [|x l IH]; intros lo hi H; [change (qlen []) with 0%Q; change (qsum []) with 0%Q; lra|].
  rewrite qlen_cons. cbn [qsum fold_right]. destruct (H x (or_introl eq_refl)).
  destruct (IH lo hi); [intros; apply H; now right|]. change (fold_right Qplus 0%Q l) with (qsum l). split; lra.
Qed.

(** Reading the sorted vector. *)
Lemma lget_bounds : forall l lo hi i v, (forall x, In x l -> (lo <= x <= hi)%Q) -> lget (qsort l) i = Ok v -> (lo <= v <= hi)%Q.
Proof. intros l lo hi i v H G. apply lget_ok, nth_error_In in G. apply H. apply (proj1 (qsort_In v l) G). Qed.
Lemma F2_nth : forall A B (R : A -> B -> Prop) l l' i x y, Forall2 R l l' -> nth_error l i = Some x -> nth_error l' i = Some y -> R x y.
Proof.
  intros A B R l l' i x y F. revert i. induction F; intros [|i] X Y; cbn in *; try discriminate.
  - injection X as ->. now injection Y as ->.
  - eauto.
Qed.
Lemma F2_len : forall A B (R : A -> B -> Prop) l l', Forall2 R l l' -> length l = length l'.
Proof. intros A B R l l' F. induction F; cbn; auto. Qed.
Lemma lget_mono : forall l l' i v v', Forall2 Qle l l' -> lget (qsort l) i = Ok v -> lget (qsort l') i = Ok v' -> (v <= v')%Q.
Proof. intros l l' i v v' F X Y. apply lget_ok in X, Y. exact (F2_nth _ _ _ _ _ _ _ _ (qsort_mono _ _ F) X Y). Qed.
Lemma lget_perm : forall l l' i v, Permutation l l' -> lget (qsort l) i = Ok v -> exists v', lget (qsort l') i = Ok v' /\ v == v'.
Proof.
  intros l l' i v P X. apply lget_ok in X. pose proof (qsort_perm _ _ P) as F.
  destruct (nth_error (qsort l') i) as [v'|] eqn:Y.
  - exists v'. split; [now apply lget_ok|]. exact (F2_nth _ _ _ _ _ _ _ _ F X Y).
  - apply nth_error_None in Y. apply F2_len in F. assert (i < length (qsort l)) by (apply nth_error_Some; congruence). lia.
Qed.
Lemma lget_total : forall l i, i < length l -> exists v, lget (qsort l) i = Ok v.
Proof.
  intros l i L. destruct (nth_error (qsort l) i) as [v|] eqn:E.
  - exists v. now apply lget_ok.
  - apply nth_error_None in E. rewrite qsort_length in E. lia.
Qed.

(** The position of a percentile. *)
Definition pos_of (n : nat) (p : Q) : Q := (inject_Z (Z.of_nat (n - 1)) * p / 100)%Q.
Lemma inj_nonneg : forall k, (0 <= inject_Z (Z.of_nat k))%Q.
Proof. intros. unfold Qle. cbn. lia. Qed.
Lemma pos_range : forall n p, (0 <= p)%Q -> (p <= 100)%Q -> (0 <= pos_of n p)%Q /\ (pos_of n p <= inject_Z (Z.of_nat (n - 1)))%Q.
Proof.
  intros n p H1 H2. pose proof (inj_nonneg (n - 1)) as H. unfold pos_of. generalize dependent (inject_Z (Z.of_nat (n - 1))).
  intros k H. split.
  - apply Qle_shift_div_l; [lra|]. setoid_replace (0 * 100)%Q with 0%Q by ring. apply Qmult_le_0_compat; auto.
  - apply Qle_shift_div_r; [lra|]. rewrite (Qmult_comm k p), (Qmult_comm k 100). apply Qmult_le_compat_r; auto.
Qed.
Lemma floor_range : forall q k, (0 <= q)%Q -> (q <= inject_Z (Z.of_nat k))%Q ->
  (0 <= Qfloor q)%Z /\ Z.to_nat (Qfloor q) <= k.
Proof.
  intros q k H1 H2. split.
  - change 0%Z with (Qfloor 0). now apply Qfloor_resp_le.
  - apply Qfloor_resp_le in H2. rewrite Qfloor_Z in H2. lia.
Qed.
Lemma frac_range : forall q, (0 <= q - inject_Z (Qfloor q))%Q /\ (q - inject_Z (Qfloor q) < 1)%Q.
Proof.
  intros q. pose proof (Qfloor_le q). pose proof (Qlt_floor q). rewrite inject_Z_plus in H0. change (inject_Z 1) with 1%Q in H0. split; lra.
Qed.

Lemma percentile_inv : forall p l v, percentile p l = Ok v -> exists a b,
  ((0 <= p)%Q /\ (p <= 100)%Q) /\
  lget (qsort l) (Z.to_nat (Qfloor (pos_of (length l) p))) = Ok a /\
  lget (qsort l) (Nat.min (S (Z.to_nat (Qfloor (pos_of (length l) p)))) (length l - 1)) = Ok b /\
  v = (a + (pos_of (length l) p - inject_Z (Qfloor (pos_of (length l) p))) * (b - a))%Q.
Proof.
  intros p l v H. unfold percentile in H. destruct (Qle_bool 0 p) eqn:E1; [|discriminate]. destruct (Qle_bool p 100) eqn:E2; [|discriminate].
  cbn [andb] in H. rewrite qsort_length in H. fold (pos_of (length l) p) in H.
  apply bind_ok in H as [a [A H]]. apply bind_ok in H as [b [B H]]. injection H as <-. apply qle_true in E1, E2. eauto 10.
Qed.
Lemma percentile_total : forall p l, l <> [] -> (0 <= p)%Q -> (p <= 100)%Q -> exists v, percentile p l = Ok v.
Proof.
  intros p l N H1 H2. unfold percentile. apply qle_true in H1 as E1. apply qle_true in H2 as E2. rewrite E1, E2. cbn [andb].
  rewrite qsort_length. fold (pos_of (length l) p). assert (L : 0 < length l) by (destruct l; [congruence|cbn; lia]).
  destruct (pos_range (length l) p H1 H2) as [P1 P2]. destruct (floor_range _ _ P1 P2) as [_ F].
  destruct (lget_total l (Z.to_nat (Qfloor (pos_of (length l) p)))) as [a ->]; [lia|].
  destruct (lget_total l (Nat.min (S (Z.to_nat (Qfloor (pos_of (length l) p)))) (length l - 1))) as [b ->]; [lia|]. cbn. eauto.
Qed.

Lemma mix_between : forall a b f lo hi, (0 <= f)%Q -> (f <= 1)%Q -> (lo <= a <= hi)%Q -> (lo <= b <= hi)%Q -> (lo <= a + f * (b - a) <= hi)%Q.
Proof. intros. split; nra. Qed.
Lemma mix_mono : forall a b a' b' f, (0 <= f)%Q -> (f <= 1)%Q -> (a <= a')%Q -> (b <= b')%Q -> (a + f * (b - a) <= a' + f * (b' - a'))%Q.
Proof. intros. nra. Qed.

Lemma fold_min_spec : forall l x, In (fold_left qmin l x) (x :: l) /\ forall y, In y (x :: l) -> (fold_left qmin l x <= y)%Q.
Proof.
  induction l as [|z l IH]; intros x; [cbn; split; auto; intros y [<-|[]]; apply Qle_refl|].
  destruct (IH (qmin x z)) as [I H]. cbn [fold_left]. assert (M : (qmin x z <= x)%Q /\ (qmin x z <= z)%Q /\ (qmin x z = x \/ qmin x z = z)).
  { unfold qmin. destruct (Qle_bool x z) eqn:E; [apply qle_true in E|apply qle_false in E]; repeat split; auto; lra. }
  destruct M as [M1 [M2 M3]]. pose proof (H _ (or_introl eq_refl)) as H0. split.
  - destruct I as [I|I]; [|right; right; auto]. destruct M3 as [M|M]; rewrite M in *; rewrite <- I; cbn; auto.
  - intros y [<-|[<-|J]]; [lra|lra|]. apply H. now right.
Qed.
Lemma fold_max_spec : forall l x, In (fold_left qmax l x) (x :: l) /\ forall y, In y (x :: l) -> (y <= fold_left qmax l x)%Q.
Proof.
  induction l as [|z l IH]; intros x; [cbn; split; auto; intros y [<-|[]]; apply Qle_refl|].
  destruct (IH (qmax x z)) as [I H]. cbn [fold_left]. assert (M : (x <= qmax x z)%Q /\ (z <= qmax x z)%Q /\ (qmax x z = x \/ qmax x z = z)).
  { unfold qmax. destruct (Qle_bool x z) eqn:E; [apply qle_true in E|apply qle_false in E]; repeat split; auto; lra. }
  destruct M as [M1 [M2 M3]]. pose proof (H _ (or_introl eq_refl)) as H0. split.
  - destruct I as [I|I]; [|right; right; auto]. destruct M3 as [M|M]; rewrite M in *; rewrite <- I; cbn; auto.
  - intros y [<-|[<-|J]]; [lra|lra|]. apply H. now right.
Qed.

Lemma median_inv : forall l v, median l = Ok v ->
  (exists a b, Nat.even (length l) = true /\ lget (qsort l) (length l / 2 - 1) = Ok a /\ lget (qsort l) (length l / 2) = Ok b /\ v = ((a + b) / 2)%Q)
  \/ (Nat.even (length l) = false /\ lget (qsort l) (length l / 2) = Ok v).
Proof.
  intros l v H. unfold median in H. rewrite qsort_length in H. destruct (Nat.even (length l)); [left|right; auto].
  apply bind_ok in H as [a [A H]]. apply bind_ok in H as [b [B H]]. injection H as <-. eauto 8.
Qed.
Lemma median_total : forall l, l <> [] -> exists v, median l = Ok v.
Proof.
  intros l N. unfold median. rewrite qsort_length. assert (L : 0 < length l) by (destruct l; [congruence|cbn; lia]).
  assert (D : length l / 2 < length l) by (apply Nat.div_lt; lia).
  destruct (lget_total l (length l / 2)) as [b B]; [lia|]. destruct (lget_total l (length l / 2 - 1)) as [a A]; [lia|].
  rewrite A, B. cbn. destruct (Nat.even (length l)); eauto.
Qed.
Lemma half : forall a b, ((a + b) / 2 == a + (1#2) * (b - a))%Q.
Proof. intros. field. Qed.

Definition plain (m : method) : Prop := match m with Ponderation _ => False | _ => True end.

Lemma aggregate_bounds : forall m l v lo hi, plain m -> aggregate m l = Ok v ->
  (forall x, In x l -> (lo <= x <= hi)%Q) -> (lo <= v <= hi)%Q.
Proof.
  intros m [|x r] v lo hi P A H; [discriminate|]. unfold aggregate in A. destruct m as [| |p|w| |]; [| | |contradiction| |].
  - injection A as <-. destruct (qsum_bounds _ _ _ H). pose proof (qlen_pos x r). unfold mean. split.
    + apply Qle_shift_div_l; auto.
    + apply Qle_shift_div_r; auto.
  - apply median_inv in A as [[a [b [_ [A [B ->]]]]]|[_ A]]; [|eapply lget_bounds; eauto].
    rewrite half. apply mix_between; try lra; eapply lget_bounds; eauto.
  - apply percentile_inv in A as [a [b [_ [A [B ->]]]]]. destruct (frac_range (pos_of (length (x :: r)) p)).
    apply mix_between; try lra; eapply lget_bounds; eauto.
  - injection A as <-. destruct (fold_min_spec r x) as [I _]. auto.
  - injection A as <-. destruct (fold_max_spec r x) as [I _]. auto.
Qed.

Lemma fold_le : forall r r' x x', Forall2 Qle (x :: r) (x' :: r') ->
  (fold_left qmin r x <= fold_left qmin r' x')%Q /\ (fold_left qmax r x <= fold_left qmax r' x')%Q.
Proof.
  intros r r' x x' F.
  assert (L : forall y', In y' (x' :: r') -> exists y, In y (x :: r) /\ (y <= y')%Q).
  { clear -F. intros y'. remember (x :: r) as l. remember (x' :: r') as l'. clear -F. induction F; intros []; subst.
    - eexists. split; [now left|auto].
    - destruct IHF as [z [I H']]; auto. exists z. split; auto. now right. }
  assert (R : forall y, In y (x :: r) -> exists y', In y' (x' :: r') /\ (y <= y')%Q).
  { clear -F. intros y. remember (x :: r) as l. remember (x' :: r') as l'. clear -F. induction F; intros []; subst.
    - eexists. split; [now left|auto].
    - destruct IHF as [z [I H']]; auto. exists z. split; auto. now right. }
  destruct (fold_min_spec r x) as [_ A]. destruct (fold_min_spec r' x') as [B _].
  destruct (fold_max_spec r x) as [C _]. destruct (fold_max_spec r' x') as [_ D].
  destruct (L _ B) as [y [I1 I2]]. destruct (R _ C) as [y' [J1 J2]]. split.
  - apply Qle_trans with y; auto.
  - apply Qle_trans with y'; auto.
Qed.

Lemma dot_mono : forall w l l', Forall2 Qle l l' -> (forall x, In x w -> (0 <= x)%Q) ->
  (qsum (map (fun xy => fst xy * snd xy) (combine l w)) <= qsum (map (fun xy => fst xy * snd xy) (combine l' w)))%Q.
Proof.
  induction w as [|a w IH]; intros l l' F H; [destruct l, l'; cbn; lra|].
  inversion F as [|x x' r r' X R]; subst; cbn; [lra|]. specialize (IH r r' R (fun z I => H z (or_intror I))). unfold qsum in IH.
  pose proof (H a (or_introl eq_refl)). apply Qplus_le_compat; auto. now apply Qmult_le_compat_r.
Qed.

Definition weighted (m : method) : Prop :=
  match m with Ponderation (Some w) => forall x, In x w -> (0 <= x)%Q | _ => True end.

Lemma aggregate_mono : forall m l l' v v', weighted m -> Forall2 Qle l l' ->
  aggregate m l = Ok v -> aggregate m l' = Ok v' -> (v <= v')%Q.
Proof.
  intros m l l' v v' W F A A'. pose proof (F2_len _ _ _ _ _ F) as L.
  destruct l as [|x r]; [discriminate|]. destruct l' as [|x' r']; [discriminate|].
  unfold aggregate in A, A'. destruct m as [| |p|w| |].
  - injection A as <-. injection A' as <-. apply qsum_mono in F. unfold mean.
    assert (E : qlen (x' :: r') = qlen (x :: r)) by (unfold qlen; now rewrite L). rewrite E.
    apply Qmult_le_compat_r; auto. apply Qinv_le_0_compat. apply Qlt_le_weak, qlen_pos.
  - apply median_inv in A as [[a [b [E [A [B ->]]]]]|[E A]]; apply median_inv in A' as [[a' [b' [E' [A' [B' ->]]]]]|[E' A']];
      rewrite <- L in *; try congruence.
    + rewrite !half. apply mix_mono; try lra; eapply lget_mono; eauto.
    + eapply lget_mono; eauto.
  - apply percentile_inv in A as [a [b [_ [A [B ->]]]]]. apply percentile_inv in A' as [a' [b' [_ [A' [B' ->]]]]].
    rewrite <- L in *. destruct (frac_range (pos_of (length (x :: r)) p)). apply mix_mono; try lra; eapply lget_mono; eauto.
  - destruct w as [w|]; [|discriminate]. cbn [dot] in A, A'. rewrite <- L in A'.
    destruct (length w =? length (x :: r)); [|discriminate]. injection A as <-. injection A' as <-. exact (dot_mono w _ _ F W).
  - injection A as <-. injection A' as <-. now apply fold_le.
  - injection A as <-. injection A' as <-. now apply fold_le.
Qed.

Lemma aggregate_perm : forall m l l' v, plain m -> Permutation l l' -> aggregate m l = Ok v ->
  exists v', aggregate m l' = Ok v' /\ v == v'.
Proof.
  intros m l l' v P Pm A. pose proof (Permutation_length Pm) as L.
  destruct l as [|x r]; [discriminate|]. destruct l' as [|x' r']; [discriminate|].
  unfold aggregate in A |- *. destruct m as [| |p|w| |]; [| | |contradiction| |].
  - injection A as <-. eexists. split; [reflexivity|]. unfold mean, qlen. rewrite L, (qsum_perm _ _ Pm). reflexivity.
  - unfold median. rewrite qsort_length, <- L. apply median_inv in A as [[a [b [E [A [B ->]]]]]|[E A]]; rewrite E.
    + destruct (lget_perm _ _ _ _ Pm A) as [a' [-> Ea]]. destruct (lget_perm _ _ _ _ Pm B) as [b' [-> Eb]]. cbn.
      eexists. split; [reflexivity|]. now rewrite Ea, Eb.
    + destruct (lget_perm _ _ _ _ Pm A) as [a' [E' Ea]]. eauto.
  - apply percentile_inv in A as [a [b [[H1 H2] [A [B ->]]]]]. unfold percentile. apply qle_true in H1, H2. rewrite H1, H2. cbn [andb].
    rewrite qsort_length, <- L. fold (pos_of (length (x :: r)) p).
    destruct (lget_perm _ _ _ _ Pm A) as [a' [-> Ea]]. destruct (lget_perm _ _ _ _ Pm B) as [b' [-> Eb]]. cbn [bind].
    eexists. split; [reflexivity|]. now rewrite Ea, Eb.
  - injection A as <-. eexists. split; [reflexivity|]. destruct (fold_min_spec r x) as [I1 H1]. destruct (fold_min_spec r' x') as [I2 H2].
    apply Qle_antisym; [apply H1|apply H2]; [apply (Permutation_in _ (Permutation_sym Pm) I2)|apply (Permutation_in _ Pm I1)].
  - injection A as <-. eexists. split; [reflexivity|]. destruct (fold_max_spec r x) as [I1 H1]. destruct (fold_max_spec r' x') as [I2 H2].
    apply Qle_antisym; [apply H2|apply H1]; [apply (Permutation_in _ Pm I1)|apply (Permutation_in _ (Permutation_sym Pm) I2)].
Qed.

(** Percentiles grow with the percentage. *)
Lemma percentile_le : forall p q l v v', (p <= q)%Q -> percentile p l = Ok v -> percentile q l = Ok v' -> (v <= v')%Q.
Proof.
  intros p q l v v' PQ A A'. destruct l as [|x r].
  { apply percentile_inv in A as [a [b [_ [A _]]]]. apply lget_ok in A. apply nth_error_In in A. destruct A. }
  set (l := x :: r) in *. assert (L0 : 0 < length l) by (cbn; lia).
  apply percentile_inv in A as [a [b [[P1 P2] [A [B ->]]]]]. apply percentile_inv in A' as [a' [b' [[Q1 Q2] [A' [B' ->]]]]].
  destruct (pos_range (length l) p P1 P2) as [R1 R2]. destruct (pos_range (length l) q Q1 Q2) as [S1 S2].
  assert (LE : (pos_of (length l) p <= pos_of (length l) q)%Q).
  { unfold pos_of. pose proof (inj_nonneg (length l - 1)) as K. generalize dependent (inject_Z (Z.of_nat (length l - 1))). intros k K.
    unfold Qdiv. intros. apply Qmult_le_compat_r; [|compute; discriminate]. rewrite (Qmult_comm k p), (Qmult_comm k q). apply Qmult_le_compat_r; auto. }
  destruct (floor_range _ _ R1 R2) as [F1 F2]. destruct (floor_range _ _ S1 S2) as [G1 G2].
  destruct (frac_range (pos_of (length l) p)) as [U1 U2]. destruct (frac_range (pos_of (length l) q)) as [V1 V2].
  pose proof (Qfloor_resp_le _ _ LE) as FL.
  apply lget_ok in A, B, A', B'.
  assert (ab : (a <= b)%Q) by (eapply (asc_nth (qsort l)); [apply qsort_asc| |exact A|exact B]; lia).
  assert (ab' : (a' <= b')%Q) by (eapply (asc_nth (qsort l)); [apply qsort_asc| |exact A'|exact B']; lia).
  destruct (Z.eq_dec (Qfloor (pos_of (length l) p)) (Qfloor (pos_of (length l) q))) as [E|N].
  - rewrite E in *. assert (a' = a) by congruence. assert (b' = b) by congruence. subst a' b'. nra.
  - assert (ba : (b <= a')%Q) by (eapply (asc_nth (qsort l)); [apply qsort_asc| |exact B|exact A']; lia). nra.
Qed.

Lemma even_half : forall n, Nat.even n = true -> n = 2 * (n / 2).
Proof. intros n E. apply Nat.even_spec in E as [k ->]. rewrite (Nat.mul_comm 2 k), Nat.div_mul; lia. Qed.
Lemma odd_half : forall n, Nat.even n = false -> n = 2 * (n / 2) + 1.
Proof.
  intros n E. assert (O : Nat.odd n = true) by (unfold Nat.odd; now rewrite E). apply Nat.odd_spec in O as [k ->].
  replace (2 * k + 1) with (1 + k * 2) by lia. rewrite Nat.div_add by lia. cbn. lia.
Qed.

Lemma Qfloor_between : forall q z, (inject_Z z <= q)%Q -> (q < inject_Z (z + 1))%Q -> Qfloor q = z.
Proof.
  intros q z H1 H2. apply Qfloor_resp_le in H1. rewrite Qfloor_Z in H1. pose proof (Qfloor_le q) as H3.
  assert (inject_Z (Qfloor q) < inject_Z (z + 1))%Q by lra. rewrite <- Zlt_Qlt in H. lia.
Qed.

Lemma median_is_50 : forall l v, median l = Ok v -> exists w, percentile 50 l = Ok w /\ v == w.
Proof.
  intros [|x r] v M.
  { apply median_inv in M as [[a [b [_ [A _]]]]|[_ A]]; apply lget_ok in A; discriminate. }
  set (l := x :: r) in *. assert (L0 : 0 < length l) by (cbn; lia).
  destruct (percentile_total 50 l) as [w W]; [discriminate|lra|lra|]. exists w. split; auto.
  apply percentile_inv in W as [a [b [_ [A [B ->]]]]].
  apply median_inv in M as [[c [d [E [C [D ->]]]]]|[E C]].
  - assert (N : length l = 2 * (length l / 2)) by now apply even_half. set (h := length l / 2) in *.
    assert (H1 : 1 <= h) by lia.
    assert (P : (pos_of (length l) 50 == inject_Z (Z.of_nat (h - 1)) + (1#2))%Q).
    { unfold pos_of. replace (Z.of_nat (length l - 1)) with (2 * Z.of_nat (h - 1) + 1)%Z by lia.
      rewrite inject_Z_plus, inject_Z_mult. change (inject_Z 2) with 2%Q. change (inject_Z 1) with 1%Q. field. }
    assert (F : Qfloor (pos_of (length l) 50) = Z.of_nat (h - 1)).
    { apply Qfloor_between; rewrite P; [lra|]. rewrite inject_Z_plus. change (inject_Z 1) with 1%Q. lra. }
    rewrite F in *. rewrite Nat2Z.id in A, B. rewrite A in C. injection C as ->.
    replace (Nat.min (S (h - 1)) (length l - 1)) with h in B by lia. rewrite B in D. injection D as ->.
    rewrite P. field.
  - assert (N : length l = 2 * (length l / 2) + 1) by now apply odd_half. set (h := length l / 2) in *.
    assert (P : (pos_of (length l) 50 == inject_Z (Z.of_nat h))%Q).
    { unfold pos_of. replace (Z.of_nat (length l - 1)) with (2 * Z.of_nat h)%Z by lia. rewrite inject_Z_mult. change (inject_Z 2) with 2%Q. field. }
    assert (F : Qfloor (pos_of (length l) 50) = Z.of_nat h) by (rewrite P; apply Qfloor_Z).
    rewrite F in *. rewrite Nat2Z.id in A. rewrite A in C. injection C as ->. rewrite P. ring.
Qed.
Lemma percentile_ends : forall l v, l <> [] ->
  (percentile 0 l = Ok v -> (forall y, In y l -> (v <= y)%Q)) /\ (percentile 100 l = Ok v -> (forall y, In y l -> (y <= v)%Q)).
Proof.
  intros l v N. assert (L0 : 0 < length l) by (destruct l; [congruence|cbn; lia]). split; intros H y I; apply percentile_inv in H as [a [b [_ [A [B ->]]]]].
  - assert (P : (pos_of (length l) 0 == 0)%Q) by (unfold pos_of; field).
    assert (F : Qfloor (pos_of (length l) 0) = 0%Z) by (rewrite P; reflexivity). rewrite F in *. rewrite P. apply lget_ok in A.
    apply (proj2 (qsort_In y l)) in I. apply In_nth_error in I as [j J].
    assert (a <= y)%Q by (eapply (asc_nth (qsort l) 0 j); eauto; [apply qsort_asc|lia]). change (inject_Z 0) with 0%Q. lra.
  - assert (P : (pos_of (length l) 100 == inject_Z (Z.of_nat (length l - 1)))%Q) by (unfold pos_of; field).
    assert (F : Qfloor (pos_of (length l) 100) = Z.of_nat (length l - 1)) by (rewrite P; apply Qfloor_Z). rewrite F in *. rewrite P. apply lget_ok in A.
    apply (proj2 (qsort_In y l)) in I. apply In_nth_error in I as [j J].
    assert (j < length (qsort l)) by (apply nth_error_Some; congruence). rewrite qsort_length in H.
    assert (y <= a)%Q by (eapply (asc_nth (qsort l)); [apply qsort_asc| |exact J|exact A]; lia).
    setoid_replace (inject_Z (Z.of_nat (length l - 1)) - inject_Z (Z.of_nat (length l - 1)))%Q with 0%Q by ring. lra.
Qed.

(** The median splits the values into halves. *)
Definition count (f : Q -> bool) (l : list Q) : nat := length (filter f l).
Lemma count_perm : forall f l l', Permutation l l' -> count f l = count f l'.
Proof.
  intros f l l' P. unfold count. induction P; cbn; auto.
  - destruct (f x); cbn; congruence.
  - destruct (f x), (f y); reflexivity.
  - congruence.
Qed.
Lemma count_app : forall f a b, count f (a ++ b) = count f a + count f b.
Proof. intros. unfold count. rewrite filter_app, app_length. reflexivity. Qed.
Lemma count_all : forall f l, (forall x, In x l -> f x = true) -> count f l = length l.
Proof.
  intros f l H. unfold count. induction l as [|x l IH]; cbn; auto. rewrite (H x) by now left. cbn. rewrite IH; auto. intros; apply H; now right.
Qed.
Lemma count_first : forall l k v, asc l -> k <= length l -> (forall x i, i < k -> nth_error l i = Some x -> (x <= v)%Q) -> k <= count (fun x => Qle_bool x v) l.
Proof.
  intros l k v A K H. rewrite <- (firstn_skipn k l), count_app, (count_all _ (firstn k l)).
  - rewrite firstn_length. lia.
  - intros x I. apply In_nth_error in I as [i E]. assert (Li : i < length (firstn k l)) by (apply nth_error_Some; congruence).
    rewrite firstn_length in Li. apply qle_true. apply (H x i); [lia|]. rewrite <- E. rewrite <- (firstn_skipn k l) at 1.
    rewrite nth_error_app1; auto. rewrite firstn_length. lia.
Qed.
Lemma count_last : forall l k v, asc l -> k <= length l -> (forall x i, k <= i -> nth_error l i = Some x -> (v <= x)%Q) -> length l - k <= count (fun x => Qle_bool v x) l.
Proof.
  intros l k v A K H. rewrite <- (firstn_skipn k l) at 2. rewrite count_app, (count_all _ (skipn k l)).
  - rewrite skipn_length. lia.
  - intros x I. apply In_nth_error in I as [i E]. apply qle_true. apply (H x (k + i)); [lia|].
    rewrite <- E. rewrite <- (firstn_skipn k l) at 1. rewrite nth_error_app2; rewrite firstn_length; [f_equal; lia|lia].
Qed.
Lemma median_halves : forall l v, median l = Ok v ->
  length l <= 2 * count (fun x => Qle_bool x v) l /\ length l <= 2 * count (fun x => Qle_bool v x) l.
Proof.
  intros l v M. rewrite !(count_perm _ _ _ (ssort_perm Qle_bool l)). fold (qsort l).
  pose proof (qsort_asc l) as As. pose proof (qsort_length l) as Ls.
  apply median_inv in M as [[c [d [E [C [D ->]]]]]|[E C]].
  - assert (N : length l = 2 * (length l / 2)) by now apply even_half. set (h := length l / 2) in *. apply lget_ok in C, D.
    assert (Lh : h < length (qsort l)) by (apply nth_error_Some; congruence).
    assert (cd : (c <= d)%Q) by (eapply (asc_nth (qsort l)); [auto| |exact C|exact D]; lia).
    assert (c <= (c + d) / 2)%Q by (rewrite half; lra). assert ((c + d) / 2 <= d)%Q by (rewrite half; lra).
    split.
    + pose proof (count_first (qsort l) h ((c + d) / 2) As). rewrite N at 1. apply Nat.mul_le_mono_l, H1; [lia|].
      intros x i Hi X. apply Qle_trans with c; auto. eapply (asc_nth (qsort l)); [auto| |exact X|exact C]; lia.
    + pose proof (count_last (qsort l) h ((c + d) / 2) As). assert (length (qsort l) - h <= count (fun x => Qle_bool ((c + d) / 2) x) (qsort l)).
      { apply H1; [lia|]. intros x i Hi X. apply Qle_trans with d; auto. eapply (asc_nth (qsort l)); [auto| |exact D|exact X]; lia. } lia.
  - assert (N : length l = 2 * (length l / 2) + 1) by now apply odd_half. set (h := length l / 2) in *. apply lget_ok in C.
    assert (Lh : h < length (qsort l)) by (apply nth_error_Some; congruence). split.
    + assert (S h <= count (fun x => Qle_bool x v) (qsort l)).
      { apply count_first; auto. intros x i Hi X. eapply (asc_nth (qsort l)); [auto| |exact X|exact C]; lia. } lia.
    + assert (length (qsort l) - h <= count (fun x => Qle_bool v x) (qsort l)).
      { apply count_last; auto; [lia|]. intros x i Hi X. eapply (asc_nth (qsort l)); [auto| |exact C|exact X]; lia. } lia.
Qed.
