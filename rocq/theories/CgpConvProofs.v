(** Proofs about CgpModel: conversions between the spaces of a domain and the range of the nodes. *)
From Coq Require Import List Bool Arith ZArith QArith Qreduction Lia Lqa.
From Verif Require Import Py PyList CgpModel.
Import ListNotations.
Local Open Scope Q_scope.

(** The bounds [change_interval] works with. *)
Definition lo_of (b : bound) : option Q := match b with Fin q => Some q | MinusInf => Some (-1 # 1) | PlusInf => None end.
Definition hi_of (b : bound) : option Q := match b with Fin q => Some q | PlusInf => Some 1 | MinusInf => None end.

Lemma qmax_spec : forall a b, (b <= a /\ qmax a b = a) \/ (a < b /\ qmax a b = b).
Proof.
  intros a b. unfold qmax. destruct (Qle_bool b a) eqn:E.
  - left. split; auto. now apply Qle_bool_iff.
  - right. split; auto. apply Qnot_le_lt. intros H. apply Qle_bool_iff in H. congruence.
Qed.
Lemma qmin_spec : forall a b, (a <= b /\ qmin a b = a) \/ (b < a /\ qmin a b = b).
Proof.
  intros a b. unfold qmin. destruct (Qle_bool a b) eqn:E.
  - left. split; auto. now apply Qle_bool_iff.
  - right. split; auto. apply Qnot_le_lt. intros H. apply Qle_bool_iff in H. congruence.
Qed.

Lemma clamp_range : forall lo hi x, lo <= hi -> lo <= qmax lo (qmin hi x) <= hi.
Proof.
  intros lo hi x H. destruct (qmin_spec hi x) as [[A ->]|[A ->]].
  - destruct (qmax_spec lo hi) as [[B ->]|[B ->]]; lra.
  - destruct (qmax_spec lo x) as [[B ->]|[B ->]]; lra.
Qed.
Lemma clamp_id : forall lo hi x, lo <= x <= hi -> qmax lo (qmin hi x) == x.
Proof.
  intros lo hi x H. destruct (qmin_spec hi x) as [[A ->]|[A ->]].
  - destruct (qmax_spec lo hi) as [[B ->]|[B ->]]; lra.
  - destruct (qmax_spec lo x) as [[B ->]|[B ->]]; lra.
Qed.

Lemma change_interval_eq : forall x bl bh lo hi a b, lo_of bl = Some lo -> hi_of bh = Some hi -> lo < hi ->
  change_interval x bl bh a b = Ok ((qmax lo (qmin hi x) - lo) / (hi - lo) * (b - a) + a).
Proof.
  intros x bl bh lo hi a b L H LH. unfold change_interval.
  assert (E1 : (match bl with Fin q => Ok q | MinusInf => Ok (-1 # 1) | PlusInf => Err ValueError end) = Ok lo).
  { destruct bl; cbn in L; congruence. }
  assert (E2 : (match bh with Fin q => Ok q | PlusInf => Ok 1 | MinusInf => Err ValueError end) = Ok hi).
  { destruct bh; cbn in H; congruence. }
  rewrite E1, E2. cbn [bind]. cbv zeta.
  destruct (Qeq_bool (hi - lo) 0) eqn:E; auto. apply Qeq_bool_iff in E. lra.
Qed.

(** The position within the range, between 0 and 1. *)
Lemma ratio_range : forall lo hi x, lo < hi -> 0 <= (qmax lo (qmin hi x) - lo) / (hi - lo) <= 1.
Proof.
  intros lo hi x H. destruct (clamp_range lo hi x) as [A B]; [lra|].
  assert (P : 0 < hi - lo) by lra. split.
  - apply Qle_shift_div_l; auto. lra.
  - apply Qle_shift_div_r; auto. lra.
Qed.

Lemma interp_range : forall r a b, 0 <= r <= 1 -> a <= b -> a <= r * (b - a) + a <= b.
Proof. intros r a b [R0 R1] H. split; nra. Qed.

Lemma change_interval_range : forall x bl bh a b y, a <= b ->
  (exists lo hi, lo_of bl = Some lo /\ hi_of bh = Some hi /\ lo < hi) ->
  change_interval x bl bh a b = Ok y -> a <= y <= b.
Proof.
  intros x bl bh a b y AB (lo & hi & L & H & LH) E. rewrite (change_interval_eq _ _ _ _ _ _ _ L H LH) in E.
  injection E as <-. apply interp_range; auto. now apply ratio_range.
Qed.

Lemma Qdiv_mono : forall a b c, 0 < c -> a <= b -> a / c <= b / c.
Proof. intros a b c C H. apply Qle_shift_div_l; auto. setoid_replace (a / c * c) with a; auto. field. lra. Qed.

Lemma clamp_mono : forall lo hi x y, lo <= hi -> x <= y -> qmax lo (qmin hi x) <= qmax lo (qmin hi y).
Proof.
  intros lo hi x y LH XY.
  destruct (qmin_spec hi x) as [[A ->]|[A ->]], (qmin_spec hi y) as [[B ->]|[B ->]];
  match goal with |- qmax lo ?p <= qmax lo ?q => destruct (qmax_spec lo p) as [[C EC]|[C EC]], (qmax_spec lo q) as [[D ED]|[D ED]] end; rewrite EC, ?ED; lra.
Qed.

(** * The integers *)

Lemma trunc_pos : forall q, 0 <= q -> inject_Z (trunc q) <= q /\ q < inject_Z (trunc q) + 1.
Proof.
  intros [n d] H. unfold trunc, Qle, Qlt, Qplus, inject_Z in *. cbn [Qnum Qden] in *.
  assert (N : (0 <= n)%Z) by lia. rewrite Z.quot_div_nonneg by lia.
  pose proof (Z.div_mod n (Z.pos d)). pose proof (Z.mod_pos_bound n (Z.pos d)). lia.
Qed.

Lemma to_int_range : forall x n k, (1 <= n)%Z -> to_int_interval x (Fin (-1 # 1)) (Fin 1) 0 (n - 1) = Ok k -> (0 <= k <= n - 1)%Z.
Proof.
  intros x n k N H. unfold to_int_interval in H.
  rewrite (change_interval_eq x (Fin (-1 # 1)) (Fin 1) (-1 # 1) 1 0 1 eq_refl eq_refl ltac:(lra)) in H. cbn [bind] in H.
  pose proof (ratio_range (-1 # 1) 1 x ltac:(lra)) as R.
  set (r := (qmax (-1 # 1) (qmin 1 x) - (-1 # 1)) / (1 - (-1 # 1))) in *. clearbody r.
  assert (E : r * (1 - 0) + 0 == r) by ring.
  destruct (Qeq_bool (r * (1 - 0) + 0) 1) eqn:Q1.
  - injection H as <-. lia.
  - assert (K : k = trunc ((r * (1 - 0) + 0) * inject_Z (n - 1 - 0 + 1) + inject_Z 0)) by congruence. clear H.
    assert (R1 : r < 1).
    { destruct R as [_ R]. apply Qle_lt_or_eq in R. destruct R as [R|R]; auto.
      exfalso. assert (B : Qeq_bool (r * (1 - 0) + 0) 1 = true) by (apply Qeq_bool_iff; rewrite E; exact R). congruence. }
    set (z := (r * (1 - 0) + 0) * inject_Z (n - 1 - 0 + 1) + inject_Z 0) in *.
    assert (Z1 : z == r * inject_Z n).
    { unfold z. rewrite E. replace (n - 1 - 0 + 1)%Z with n by lia. ring. }
    assert (NP : 0 < inject_Z n) by (change 0 with (inject_Z 0); rewrite <- Zlt_Qlt; lia).
    assert (Z0 : 0 <= z) by (rewrite Z1; nra).
    assert (Z2 : z < inject_Z n) by (rewrite Z1; nra).
    destruct (trunc_pos z Z0) as [T1 T2]. rewrite <- K in T1, T2.
    split.
    + assert (inject_Z 0 < inject_Z (k + 1)). { rewrite inject_Z_plus. change (inject_Z 0) with 0. change (inject_Z 1) with 1. lra. }
      rewrite <- Zlt_Qlt in H. lia.
    + assert (inject_Z k < inject_Z n) by lra. rewrite <- Zlt_Qlt in H. lia.
Qed.

Lemma to_int_total : forall x lo hi, exists k, to_int_interval x (Fin (-1 # 1)) (Fin 1) lo hi = Ok k.
Proof.
  intros x lo hi. unfold to_int_interval.
  rewrite (change_interval_eq x (Fin (-1 # 1)) (Fin 1) (-1 # 1) 1 0 1 eq_refl eq_refl ltac:(lra)). cbn [bind].
  destruct (Qeq_bool _ 1); eauto.
Qed.

Lemma trunc_eq : forall q k, (0 <= k)%Z -> inject_Z k <= q -> q < inject_Z (k + 1) -> trunc q = k.
Proof.
  intros q k K H1 H2. assert (0 <= q). { assert (inject_Z 0 <= inject_Z k) by (rewrite <- Zle_Qle; lia). change (inject_Z 0) with 0 in H. lra. }
  destruct (trunc_pos q H) as [T1 T2].
  assert (A : inject_Z k < inject_Z (trunc q + 1)) by (rewrite inject_Z_plus; change (inject_Z 1) with 1; lra).
  assert (B : inject_Z (trunc q) < inject_Z (k + 1)) by lra.
  rewrite <- Zlt_Qlt in A, B. lia.
Qed.

(** A discrete value survives the conversion there and back. *)
Lemma disc_round_trip : forall n k y, (0 <= k <= n - 1)%Z -> (2 <= n)%Z ->
  norm_one (inject_Z k) (Fin 0, Fin (inject_Z (n - 1))) = Ok y ->
  to_int_interval y (Fin (-1 # 1)) (Fin 1) 0 (n - 1) = Ok k.
Proof.
  intros n k y K N H. unfold norm_one in H. cbn [fst snd] in H.
  assert (NP : 0 < inject_Z (n - 1)) by (change 0 with (inject_Z 0); rewrite <- Zlt_Qlt; lia).
  rewrite (change_interval_eq _ (Fin 0) (Fin (inject_Z (n - 1))) 0 (inject_Z (n - 1)) _ _ eq_refl eq_refl NP) in H.
  assert (K0 : 0 <= inject_Z k) by (change 0 with (inject_Z 0); rewrite <- Zle_Qle; lia).
  assert (K1 : inject_Z k <= inject_Z (n - 1)) by (rewrite <- Zle_Qle; lia).
  assert (Y : y == inject_Z k / inject_Z (n - 1) * 2 - 1).
  { assert (Y' : y = (qmax 0 (qmin (inject_Z (n - 1)) (inject_Z k)) - 0) / (inject_Z (n - 1) - 0) * (1 - (-1 # 1)) + (-1 # 1)) by congruence.
    rewrite Y', clamp_id by (split; auto). field. lra. }
  clear H. unfold to_int_interval.
  rewrite (change_interval_eq y (Fin (-1 # 1)) (Fin 1) (-1 # 1) 1 0 1 eq_refl eq_refl ltac:(lra)). cbn [bind].
  set (z := (qmax (-1 # 1) (qmin 1 y) - (-1 # 1)) / (1 - (-1 # 1)) * (1 - 0) + 0).
  assert (KR : 0 <= inject_Z k / inject_Z (n - 1) <= 1).
  { split; [apply Qle_shift_div_l; auto; lra|apply Qle_shift_div_r; auto; lra]. }
  assert (Z1 : z == inject_Z k / inject_Z (n - 1)).
  { unfold z. rewrite clamp_id by (rewrite Y; lra). rewrite Y. field. lra. }
  destruct (Qeq_bool z 1) eqn:Q1.
  - apply Qeq_bool_iff in Q1. rewrite Z1 in Q1.
    assert (E : inject_Z k == inject_Z (n - 1)).
    { setoid_replace (inject_Z k) with (inject_Z k / inject_Z (n - 1) * inject_Z (n - 1)) by (field; lra). rewrite Q1. ring. }
    apply (proj1 (inject_Z_injective _ _)) in E. f_equal. lia.
  - f_equal. assert (KL : (k < n - 1)%Z).
    { destruct (Z.eq_dec k (n - 1)) as [->|]; [|lia]. exfalso.
      assert (B : Qeq_bool z 1 = true) by (apply Qeq_bool_iff; rewrite Z1; field; lra). congruence. }
    assert (ZZ : z * inject_Z (n - 1 - 0 + 1) + inject_Z 0 == inject_Z k + inject_Z k / inject_Z (n - 1)).
    { rewrite Z1. replace (n - 1 - 0 + 1)%Z with (n - 1 + 1)%Z by lia. rewrite inject_Z_plus. change (inject_Z 1) with 1. change (inject_Z 0) with 0. field. lra. }
    apply trunc_eq; [lia| |].
    + rewrite ZZ. lra.
    + rewrite ZZ, inject_Z_plus. change (inject_Z 1) with 1.
      assert (inject_Z k / inject_Z (n - 1) < 1).
      { apply Qlt_shift_div_r; auto. assert (inject_Z k < inject_Z (n - 1)) by (rewrite <- Zlt_Qlt; lia). lra. }
      lra.
Qed.

Lemma box_round_trip : forall lo hi x y z, lo <= x <= hi -> lo < hi -> norm_one x (Fin lo, Fin hi) = Ok y ->
  denorm_one y (Fin lo, Fin hi) = Ok z -> z == x.
Proof.
  intros lo hi x y z X LH H1 H2. unfold norm_one, denorm_one in *. cbn [fst snd fin bind] in *.
  rewrite (change_interval_eq _ (Fin lo) (Fin hi) lo hi _ _ eq_refl eq_refl LH) in H1.
  rewrite (change_interval_eq _ (Fin (-1 # 1)) (Fin 1) (-1 # 1) 1 _ _ eq_refl eq_refl ltac:(lra)) in H2.
  assert (Y : y == (x - lo) / (hi - lo) * 2 - 1).
  { assert (Y' : y = (qmax lo (qmin hi x) - lo) / (hi - lo) * (1 - (-1 # 1)) + (-1 # 1)) by congruence.
    rewrite Y', clamp_id by auto. field. lra. }
  assert (R : 0 <= (x - lo) / (hi - lo) <= 1).
  { split; [apply Qle_shift_div_l; lra|apply Qle_shift_div_r; lra]. }
  assert (Z' : z = (qmax (-1 # 1) (qmin 1 y) - (-1 # 1)) / (1 - (-1 # 1)) * (hi - lo) + lo) by congruence.
  rewrite Z', clamp_id by (rewrite Y; lra). rewrite Y. field. lra.
Qed.
