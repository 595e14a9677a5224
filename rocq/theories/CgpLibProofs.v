(** Proofs about CgpLibModel: every function of the library keeps the numbers within -1 and 1. *)
From Coq Require Import List Reals ZArith Lra Lia.
From Verif Require Import CgpModel CgpLibModel.
Import ListNotations.
Local Open Scope R_scope.

Definition unit_range (x : R) : Prop := -1 <= x <= 1.

Lemma exp1_ge2 : 2 < exp 1.
Proof. pose proof (exp_ineq1 1). lra. Qed.

Lemma sum_range : forall a b, unit_range a -> unit_range b -> unit_range (f_sum a b).
Proof. unfold unit_range, f_sum. intros. lra. Qed.
Lemma aminus_range : forall a b, unit_range a -> unit_range b -> unit_range (f_aminus a b).
Proof. unfold unit_range, f_aminus. intros. unfold Rabs. destruct (Rcase_abs (a - b)); lra. Qed.
Lemma mult_range : forall a b, unit_range a -> unit_range b -> unit_range (f_mult a b).
Proof. unfold unit_range, f_mult. intros. nra. Qed.
Lemma div_range : forall n d, 0 < d -> - d <= n <= d -> unit_range (n / d).
Proof.
  intros n d D [H1 H2]. unfold unit_range. split.
  - apply Rmult_le_reg_r with d; auto. unfold Rdiv. rewrite Rmult_assoc, Rinv_l by lra. lra.
  - apply Rmult_le_reg_r with d; auto. unfold Rdiv. rewrite Rmult_assoc, Rinv_l by lra. lra.
Qed.
Lemma exp_range : forall a, unit_range a -> unit_range (f_exp a).
Proof.
  intros a [H1 H2]. unfold f_exp. pose proof exp1_ge2. apply div_range; [lra|].
  pose proof (exp_pos a). split; [lra|]. destruct H2 as [H2| ->]; [|lra]. pose proof (exp_increasing _ _ H2). lra.
Qed.
Lemma abs_range : forall a, unit_range a -> unit_range (f_abs a).
Proof. unfold unit_range, f_abs. intros. unfold Rabs. destruct (Rcase_abs a); lra. Qed.
Lemma abs_01 : forall a, unit_range a -> 0 <= Rabs a <= 1.
Proof. unfold unit_range. intros. unfold Rabs. destruct (Rcase_abs a); lra. Qed.
Lemma sqrt_range : forall a, unit_range a -> unit_range (f_sqrt a).
Proof.
  intros a H. destruct (abs_01 _ H). unfold f_sqrt, unit_range. pose proof (sqrt_pos (Rabs a)). split; [lra|].
  rewrite <- sqrt_1. now apply sqrt_le_1_alt.
Qed.
Lemma sqrtxy_range : forall a b, unit_range a -> unit_range b -> unit_range (f_sqrtxy a b).
Proof.
  intros a b Ha Hb. unfold f_sqrtxy. assert (0 < sqrt 2) by (apply sqrt_lt_R0; lra). apply div_range; auto.
  pose proof (sqrt_pos (a * a + b * b)). split; [lra|]. apply sqrt_le_1_alt. unfold unit_range in *. nra.
Qed.
Lemma pow_range : forall a b, unit_range a -> unit_range b -> unit_range (f_pow a b).
Proof.
  intros a b Ha Hb. destruct (abs_01 _ Ha) as [A0 A1], (abs_01 _ Hb) as [B0 B1]. unfold f_pow, py_pow, unit_range.
  destruct (Req_EM_T (Rabs a) 0) as [E|N]; [destruct (Req_EM_T (Rabs b) 0); lra|].
  assert (0 < Rabs a) by lra. unfold Rpower. pose proof (exp_pos (Rabs b * ln (Rabs a))). split; [lra|].
  assert (L : ln (Rabs a) <= 0).
  { rewrite <- ln_1. destruct A1 as [A1|A1]; [left; apply ln_increasing; auto|rewrite A1; lra]. }
  assert (K : Rabs b * ln (Rabs a) <= 0) by nra.
  rewrite <- exp_0. destruct K as [K|K]; [left; now apply exp_increasing|rewrite K; lra].
Qed.
Lemma inv_range : forall a, unit_range (f_inv a).
Proof.
  intros a. unfold f_inv. destruct (Req_EM_T a 0); [unfold unit_range; lra|].
  apply div_range; [now apply Rabs_pos_lt|]. unfold Rabs. destruct (Rcase_abs a); lra.
Qed.
Lemma gt_range : forall a b, unit_range (f_gt a b).
Proof. intros a b. unfold f_gt, unit_range. destruct (Rlt_dec b a); lra. Qed.
Lemma acos_range : forall a, unit_range (f_acos a).
Proof. intros a. unfold f_acos. pose proof PI_RGT_0. apply div_range; auto. pose proof (acos_bound a). lra. Qed.
Lemma asin_range : forall a, unit_range (f_asin a).
Proof. intros a. unfold f_asin. pose proof PI_RGT_0. apply div_range; auto. pose proof (asin_bound a). lra. Qed.
Lemma atan_range : forall a, unit_range a -> unit_range (f_atan a).
Proof.
  intros a [H1 H2]. unfold f_atan. pose proof PI_RGT_0. apply div_range; auto.
  pose proof atan_1 as A1. pose proof (atan_opp 1) as A2.
  assert (U : atan a <= atan 1) by (destruct H2 as [H2| ->]; [left; now apply atan_increasing|lra]).
  assert (D : atan (- (1)) <= atan a) by (destruct H1 as [H1|H1]; [left; apply atan_increasing; lra|rewrite <- H1; right; f_equal; lra]).
  lra.
Qed.
Lemma fold_range : forall (op : R -> R -> R), (forall a b, unit_range a -> unit_range b -> unit_range (op a b)) ->
  forall l a, unit_range a -> Forall unit_range l -> unit_range (fold_left op l a).
Proof.
  intros op OP. induction l as [|x l IH]; intros a A F; auto. inversion F; subst. cbn. apply IH; auto.
Qed.
Lemma min_range : forall l, Forall unit_range l -> unit_range (f_min l).
Proof.
  intros [|a l] F; [unfold f_min, unit_range; lra|]. inversion F; subst. apply fold_range; auto.
  intros x y X Y. unfold Rmin. destruct (Rle_dec x y); auto.
Qed.
Lemma max_range : forall l, Forall unit_range l -> unit_range (f_max l).
Proof.
  intros [|a l] F; [unfold f_max, unit_range; lra|]. inversion F; subst. apply fold_range; auto.
  intros x y X Y. unfold Rmax. destruct (Rle_dec x y); auto.
Qed.

Lemma floor_bounds : forall a, unit_range a -> (-1 <= floorZ a <= 1)%Z /\ IZR (floorZ a) <= a < IZR (floorZ a) + 1.
Proof.
  intros a [H1 H2]. unfold floorZ. destruct (base_Int_part a) as [B1 B2].
  assert (U : a - 1 < IZR (Int_part a)) by lra. split; [|lra].
  split.
  - assert (IZR (-2) < IZR (Int_part a)) by (rewrite <- (Ropp_involutive (IZR (-2))); cbn; lra).
    apply lt_IZR in H. lia.
  - assert (IZR (Int_part a) <= IZR 1) by lra. now apply le_IZR.
Qed.
Lemma izr_range : forall z, (-1 <= z <= 1)%Z -> unit_range (IZR z).
Proof. intros z [H1 H2]. unfold unit_range. apply IZR_le in H1, H2. lra. Qed.
Lemma floor_range : forall a, unit_range a -> unit_range (f_floor a).
Proof. intros a H. destruct (floor_bounds a H) as [B _]. now apply izr_range. Qed.
Lemma ceil_range : forall a, unit_range a -> unit_range (f_ceil a).
Proof.
  intros a H. assert (H' : unit_range (- a)) by (unfold unit_range in *; lra).
  destruct (floor_bounds _ H') as [B _]. apply izr_range. lia.
Qed.
Lemma round_range : forall a, unit_range a -> unit_range (f_round a).
Proof.
  intros a H. destruct (floor_bounds a H) as [B C]. unfold f_round. cbv zeta.
  assert (N1 : a - IZR (floorZ a) >= 1 / 2 -> (-1 <= floorZ a + 1 <= 1)%Z).
  { intros G. assert (floorZ a <> 1)%Z; [|lia]. intros E. rewrite E in *. unfold unit_range in H. lra. }
  destruct (Rlt_dec _ _); [now apply izr_range|].
  destruct (Rlt_dec _ _); [apply izr_range, N1; lra|].
  destruct (Z.even _); [now apply izr_range|]. apply izr_range, N1. lra.
Qed.

Lemma library_range : forall f, In f default_library -> forall args, length args = 2%nat -> Forall unit_range args -> unit_range (fn f args).
Proof.
  intros f I args L F. destruct args as [|a [|b [|? ?]]]; try discriminate.
  assert (Ha : unit_range a) by (inversion F; auto). assert (Hb : unit_range b) by (inversion F as [|? ? ? F2]; inversion F2; auto).
  assert (U0 : unit_range 0) by (unfold unit_range; lra). assert (U1 : unit_range 1) by (unfold unit_range; lra).
  cbn [default_library In] in I.
  repeat (destruct I as [<-|I]; [cbn [fn with1 with2];
    first [exact U0 | exact U1 | now apply sum_range | now apply aminus_range | now apply mult_range | now apply exp_range
      | now apply abs_range | now apply sqrt_range | now apply sqrtxy_range | apply (mult_range a a Ha Ha) | now apply pow_range
      | apply inv_range | apply gt_range | apply asin_range | apply acos_range | now apply atan_range | now apply min_range
      | now apply max_range | now apply round_range | now apply floor_range | now apply ceil_range ]|]).
  destruct I.
Qed.

Lemma default_arity : max_arity default_library = 2%nat.
Proof. reflexivity. Qed.
