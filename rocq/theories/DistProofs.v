From Coq Require Import List Bool Arith QArith Lia Lqa.
From Verif Require Import Py DistModel.
Import ListNotations.
Set Implicit Arguments.

Lemma Qltb_true : forall x y, Qltb x y = true <-> x < y.
Proof.
  intros x y. unfold Qltb. rewrite negb_true_iff. split; intros H.
  - apply Qnot_le_lt. intros L. apply Qle_bool_iff in L. congruence.
  - destruct (Qle_bool y x) eqn:E; auto. apply Qle_bool_iff in E.
    exfalso. apply (Qlt_not_le _ _ H E).
Qed.

Lemma Qltb_false : forall x y, Qltb x y = false <-> y <= x.
Proof.
  intros x y. unfold Qltb. rewrite negb_false_iff. apply Qle_bool_iff.
Qed.

(** Sum of the first [i] weights. *)
Fixpoint cum (ws : list Q) (i : nat) : Q :=
  match i, ws with
  | S i, w :: r => w + cum r i
  | _, _ => 0
  end.

Lemma acc_length : forall ws a, length (accumulate_from a ws) = length ws.
Proof. induction ws; simpl; intros; auto. Qed.

Lemma acc_nth : forall ws a i c, nth_error (accumulate_from a ws) i = Some c -> c == a + cum ws (S i).
Proof.
  induction ws as [|w ws IH]; intros a i c H.
  - destruct i; discriminate.
  - destruct i; simpl in H.
    + inversion H; subst. simpl. destruct ws; simpl; lra.
    + apply IH in H. rewrite H. simpl. lra.
Qed.

Lemma cum_mono1 : forall ws i, Forall (fun w => 0 <= w) ws -> cum ws i <= cum ws (S i).
Proof.
  induction ws as [|w ws IH]; intros i F.
  - destruct i; simpl; lra.
  - inversion F; subst. destruct i.
    + simpl. destruct ws; simpl; lra.
    + specialize (IH i H2). simpl in *. lra.
Qed.

Lemma cum_mono : forall ws i j, Forall (fun w => 0 <= w) ws -> (i <= j)%nat -> cum ws i <= cum ws j.
Proof.
  intros ws i j F H. induction H; [lra|]. pose proof (cum_mono1 m F). lra.
Qed.

Lemma cum_step : forall ws i w, nth_error ws i = Some w -> cum ws (S i) == cum ws i + w.
Proof.
  induction ws as [|v ws IH]; intros i w H; [destruct i; discriminate|].
  destruct i; simpl in H.
  - inversion H; subst. simpl. destruct ws; simpl; lra.
  - apply IH in H. simpl in *. lra.
Qed.

Lemma bisect_ok : forall a x fuel lo hi,
  (hi <= lo + fuel)%nat -> (lo <= hi)%nat -> (hi < length a)%nat ->
  (forall i j ai aj, (i <= j)%nat -> nth_error a i = Some ai -> nth_error a j = Some aj -> ai <= aj) ->
  (forall j aj, (j < lo)%nat -> nth_error a j = Some aj -> aj <= x) ->
  (forall ah, nth_error a hi = Some ah -> x < ah) ->
  exists i ai, bisect fuel a x lo hi = Ok i /\ nth_error a i = Some ai /\ x < ai /\
    (forall j aj, (j < i)%nat -> nth_error a j = Some aj -> aj <= x).
Proof.
  intros a x. induction fuel as [|fuel IH]; intros lo hi F L LH Mono Low High.
  - assert (lo = hi) by lia. subst. simpl. rewrite Nat.ltb_irrefl.
    destruct (nth_error a hi) as [ah|] eqn:E.
    + exists hi, ah. auto.
    + apply nth_error_None in E. lia.
  - cbn [bisect]. destruct (Nat.ltb_spec lo hi).
    + pose proof (Nat.div_mod (lo + hi) 2 ltac:(lia)) as DM.
      pose proof (Nat.mod_upper_bound (lo + hi) 2 ltac:(lia)) as MU.
      set (mid := Nat.div (lo + hi) 2) in *.
      assert (lo <= mid < hi)%nat by lia.
      destruct (nth_error a mid) as [am|] eqn:E.
      2:{ apply nth_error_None in E. lia. }
      destruct (Qltb x am) eqn:B.
      * apply Qltb_true in B. apply IH; auto; try lia.
        intros ah E2. rewrite E in E2. inversion E2; subst; auto.
      * apply Qltb_false in B. apply IH; auto; try lia.
        intros j aj Hj Ej. assert (aj <= am) by (apply (Mono j mid); auto; lia). lra.
    + assert (lo = hi) by lia. subst.
      destruct (nth_error a hi) as [ah|] eqn:E.
      * exists hi, ah. auto.
      * apply nth_error_None in E. lia.
Qed.

Lemma rev_last_nth : forall A (l : list A) t r, rev l = t :: r -> nth_error l (length l - 1) = Some t.
Proof.
  intros A l t r H. assert (l = rev r ++ [t]).
  { rewrite <- (rev_involutive l), H. reflexivity. }
  subst. rewrite app_length. simpl.
  replace (length (rev r) + 1 - 1)%nat with (length (rev r)) by lia.
  rewrite nth_error_app2 by lia. now rewrite Nat.sub_diag.
Qed.

Lemma cum_all : forall ws i, (length ws <= i)%nat -> cum ws i == cum ws (length ws).
Proof.
  induction ws as [|w ws IH]; intros i H.
  - destruct i; simpl; lra.
  - destruct i; simpl in *; [lia|]. rewrite IH by lia. lra.
Qed.

Lemma random_choices_interval : forall T (pop : list T) ws u,
  length pop = length ws ->
  Forall (fun w => 0 <= w) ws -> 0 < cum ws (length ws) -> 0 <= u -> u < 1 ->
  exists i x, random_choices pop ws u = Ok x /\ nth_error pop i = Some x /\ (i < length ws)%nat /\
    cum ws i <= u * cum ws (length ws) /\ u * cum ws (length ws) < cum ws (S i).
Proof.
  intros T pop ws u LP F TP U0 U1.
  unfold random_choices, accumulate.
  rewrite acc_length, LP, Nat.eqb_refl. simpl negb. cbv iota.
  destruct (rev (accumulate_from 0 ws)) as [|t r] eqn:ER.
  { apply (f_equal (@length Q)) in ER. rewrite rev_length, acc_length in ER. simpl in ER.
    destruct ws; [simpl in TP; lra|discriminate]. }
  assert (WL : (0 < length ws)%nat) by (destruct ws; simpl; [simpl in TP; lra|lia]).
  pose proof (rev_last_nth _ ER) as EL. rewrite acc_length in EL.
  pose proof (acc_nth _ _ _ EL) as ET.
  replace (S (length ws - 1)) with (length ws) in ET by lia.
  rewrite Qplus_0_l in ET.
  destruct (Qle_bool t 0) eqn:QB.
  { apply Qle_bool_iff in QB. rewrite ET in QB. lra. }
  destruct (@bisect_ok (accumulate_from 0 ws) (u * t) (length ws) 0 (length ws - 1))
    as (i & ai & EB & EI & HX & HL).
  - lia.
  - lia.
  - rewrite acc_length. lia.
  - intros p q ap aq L Ep Eq. apply acc_nth in Ep. apply acc_nth in Eq.
    rewrite Ep, Eq. pose proof (@cum_mono ws (S p) (S q) F ltac:(lia)). lra.
  - intros; lia.
  - intros ah EH. apply acc_nth in EH. rewrite EH.
    replace (S (length ws - 1)) with (length ws) by lia.
    assert (u * t < 1 * t). { apply Qmult_lt_compat_r; auto. rewrite ET. auto. }
    rewrite ET in *. lra.
  - rewrite EB. simpl bind.
    assert (IL : (i < length ws)%nat).
    { rewrite <- (acc_length ws 0). apply nth_error_Some. rewrite EI. discriminate. }
    destruct (nth_error pop i) as [x|] eqn:EP.
    2:{ apply nth_error_None in EP. lia. }
    exists i, x. split; [reflexivity|split; [exact EP|split; [exact IL|split]]].
    + destruct i as [|i].
      * assert (Z0 : cum ws 0 == 0) by (destruct ws; simpl; lra). rewrite Z0.
        apply Qmult_le_0_compat; lra.
      * assert (exists aj, nth_error (accumulate_from 0 ws) i = Some aj) as [aj EJ].
        { destruct (nth_error (accumulate_from 0 ws) i) eqn:E; eauto.
          apply nth_error_None in E. rewrite acc_length in E. lia. }
        pose proof (HL i aj ltac:(lia) EJ). apply acc_nth in EJ. rewrite EJ in H.
        rewrite ET in H. lra.
    + apply acc_nth in EI. rewrite EI in HX. rewrite ET in HX. lra.
Qed.

Lemma mapM_cast_fst_snd : forall T U (f : T -> res U) values vs,
  mapM (fun ep : T * Q => let* e := f (fst ep) in Ok (e, snd ep)) values = Ok vs ->
  map snd vs = map snd values /\ Forall2 (fun v v' => f (fst v) = Ok (fst v')) values vs.
Proof.
  induction values as [|[x w] values IH]; simpl; intros vs H.
  - inversion H; subst. split; auto.
  - apply bind_ok in H. destruct H as (y & E1 & H).
    apply bind_ok in E1. destruct E1 as (e & E1 & E2). inversion E2; subst.
    apply bind_ok in H. destruct H as (ys & E3 & H). inversion H; subst.
    destruct (IH _ E3). simpl. split; [congruence|]. constructor; auto.
Qed.
