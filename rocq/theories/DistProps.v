(** C03 and C10. *)
From Coq Require Import List Bool Arith QArith Lia Lqa.
From Verif Require Import Py DistModel DistProofs.
Import ListNotations.

(** ** Specification vocabulary
    [below values i] is the total weight of the entries before position [i]. *)
Fixpoint below {T} (values : list (T * Q)) (i : nat) : Q :=
  match i, values with
  | S i, (_, w) :: r => w + below r i
  | _, _ => 0
  end.
Definition total {T} (values : list (T * Q)) : Q := below values (length values).

Lemma below_cum : forall T (values : list (T * Q)) i, below values i = cum (map snd values) i.
Proof.
  induction values as [|[x w] values IH]; destruct i; simpl; auto. now rewrite IH.
Qed.

(** ** C03 *)

(** A draw [u] in [0,1) selects entry [i] exactly when [u*total] lies in the half-open interval
    of length [weight i] that starts at the sum of the earlier weights: each entry is drawn with
    probability weight/total. *)
Theorem C03_sample_law : forall T (values : list (T * Q)) u d,
  Forall (fun vw => 0 <= snd vw) values -> 0 < total values -> 0 <= u -> u < 1 ->
  DiscreteDistribution values = Ok d ->
  exists i x w, nth_error values i = Some (x, w) /\ dist_sample d u = Ok x /\
    below values i <= u * total values /\ u * total values < below values i + w /\ 0 < w.
Proof.
  intros T values u d F TP U0 U1 HD.
  assert (d = Discrete values) by (destruct values; simpl in HD; congruence). subst d.
  simpl. unfold total in *. rewrite below_cum in *.
  destruct (@random_choices_interval T (map fst values) (map snd values) u) as (i & x & E & EP & IL & H1 & H2).
  - now rewrite !map_length.
  - rewrite Forall_forall in *. intros w Hw. apply in_map_iff in Hw.
    destruct Hw as ([y w'] & Ew & HI). simpl in Ew. subst. apply (F _ HI).
  - rewrite map_length. auto.
  - auto.
  - auto.
  - rewrite map_length in *.
    destruct (nth_error values i) as [[x' w]|] eqn:EN.
    2:{ apply nth_error_None in EN. lia. }
    assert (ES : nth_error (map snd values) i = Some w).
    { rewrite nth_error_map, EN. reflexivity. }
    rewrite nth_error_map, EN in EP. simpl in EP. inversion EP; subst.
    pose proof (cum_step _ _ ES) as CS.
    exists i, x, w. split; [exact EN|split; [exact E|split; [|split]]].
    + now rewrite below_cum.
    + rewrite below_cum. rewrite CS in H2. auto.
    + rewrite CS in H2. lra.
Qed.

(** Conversely every entry of positive weight is returned by some draw. *)
Theorem C03_every_positive_value_reachable : forall T (values : list (T * Q)) i x w d,
  Forall (fun vw => 0 <= snd vw) values ->
  nth_error values i = Some (x, w) -> 0 < w -> DiscreteDistribution values = Ok d ->
  exists u, 0 <= u /\ u < 1 /\ dist_sample d u = Ok x.
Proof.
  intros T values i x w d F EN W HD.
  assert (FS : Forall (fun w => 0 <= w) (map snd values)).
  { rewrite Forall_forall in *. intros v Hv. apply in_map_iff in Hv.
    destruct Hv as ([y w'] & Ew & HI). simpl in Ew. subst. apply (F _ HI). }
  assert (ES : nth_error (map snd values) i = Some w) by (rewrite nth_error_map, EN; reflexivity).
  pose proof (cum_step _ _ ES) as CS.
  assert (IL : (i < length values)%nat) by (apply nth_error_Some; congruence).
  assert (C0 : 0 <= cum (map snd values) i).
  { pose proof (@cum_mono (map snd values) 0 i FS ltac:(lia)) as M.
    destruct (map snd values); simpl in M; auto; destruct i; simpl in *; lra. }
  assert (CT : cum (map snd values) (S i) <= total values).
  { unfold total. rewrite below_cum. apply cum_mono; auto. }
  assert (TP : 0 < total values) by lra.
  set (u := cum (map snd values) i / total values).
  assert (EU : u * total values == cum (map snd values) i).
  { unfold u. field. lra. }
  assert (U0 : 0 <= u). { unfold u. apply Qle_shift_div_l; auto. lra. }
  assert (U1 : u < 1). { unfold u. apply Qlt_shift_div_r; auto. lra. }
  exists u. split; [auto|split; [auto|]].
  destruct (@C03_sample_law T values u d F TP U0 U1 HD) as (j & y & v & EJ & HS & L & R & _).
  rewrite EU in L, R. rewrite below_cum in L, R.
  assert (ES2 : nth_error (map snd values) j = Some v) by (rewrite nth_error_map, EJ; reflexivity).
  pose proof (cum_step _ _ ES2) as CS2.
  destruct (Nat.lt_trichotomy i j) as [H|[H|H]].
  - exfalso. pose proof (@cum_mono (map snd values) (S i) j FS ltac:(lia)). lra.
  - subst. congruence.
  - exfalso. pose proof (@cum_mono (map snd values) (S j) i FS ltac:(lia)). lra.
Qed.

(** Whatever the weights, a successful sample is one of the listed values. *)
Theorem C03_sample_in_values : forall T (d : dist T) u x,
  dist_sample d u = Ok x -> exists w, In (x, w) (dist_get_values d).
Proof.
  intros T [values|v] u x H; simpl in *.
  - unfold random_choices in H.
    destruct (negb _); [discriminate|]. destruct (rev _); [discriminate|].
    destruct (Qle_bool q 0); [discriminate|].
    apply bind_ok in H. destruct H as (i & _ & H).
    destruct (nth_error (map fst values) i) eqn:E; [|discriminate]. inversion H; subst.
    apply nth_error_In in E. apply in_map_iff in E. destruct E as ([y w] & E & HI).
    simpl in E. subst. eauto.
  - inversion H; subst. exists 1. auto.
Qed.

(** Casting keeps the number of entries, their order and weights, and maps each value. *)
Theorem C03_cast_keeps_weights : forall T U (f : T -> res U) d d',
  dist_cast f d = Ok d' ->
  map snd (dist_get_values d') = map snd (dist_get_values d) /\
  Forall2 (fun v v' => f (fst v) = Ok (fst v')) (dist_get_values d) (dist_get_values d').
Proof.
  intros T U f [values|v] d' H; simpl in H.
  - apply bind_ok in H. destruct H as (vs & E & H).
    assert (d' = Discrete vs) by (destruct vs; simpl in H; congruence). subst. simpl.
    now apply mapM_cast_fst_snd.
  - apply bind_ok in H. destruct H as (e & E & H). inversion H; subst. simpl. auto.
Qed.

(** A SingleValueDistribution always returns its value and announces it with weight one. *)
Theorem C03_single_value : forall T (v : T) u,
  dist_sample (SingleValueDistribution v) u = Ok v /\
  dist_get_values (SingleValueDistribution v) = [(v, 1)].
Proof. split; reflexivity. Qed.

(** An empty DiscreteDistribution cannot be built. *)
Theorem C03_empty_rejected : forall T, DiscreteDistribution (@nil (T * Q)) = Err IndexError.
Proof. reflexivity. Qed.

Definition C03_values : list (nat * Q) := [(7%nat, 1 # 2); (8%nat, 0); (9%nat, 1 # 2)].
Example C03_example :
  Forall (fun vw => 0 <= snd vw) C03_values /\ 0 < total C03_values /\
  dist_sample (Discrete C03_values) (1 # 4) = Ok 7%nat /\
  dist_sample (Discrete C03_values) (1 # 2) = Ok 9%nat /\
  dist_sample (Discrete C03_values) (99 # 100) = Ok 9%nat.
Proof.
  repeat split; try reflexivity. repeat constructor; simpl; lra.
Qed.

(** ** C10 *)

(** Deterministic policy: all three queries agree, for every random draw. *)
Theorem C10_deterministic_policy : forall Obs Act (next_action : Obs -> Act) o u,
  det_sample_action next_action o u = Ok (next_action o) /\
  dist_get_values (det_next_action_distribution next_action o) = [(next_action o, 1)].
Proof. split; reflexivity. Qed.

(** Uncertain policy: a sampled action is announced, with positive weight. *)
Theorem C10_uncertain_policy : forall Obs Act (dd : Obs -> dist Act) o u a,
  uncertain_sample_action dd o u = Ok a ->
  Forall (fun vw => 0 <= snd vw) (dist_get_values (dd o)) ->
  0 < total (dist_get_values (dd o)) -> 0 <= u -> u < 1 ->
  exists w, In (a, w) (dist_get_values (dd o)) /\ 0 < w.
Proof.
  intros Obs Act dd o u a H F TP U0 U1. unfold uncertain_sample_action in H.
  destruct (dd o) as [values|v] eqn:ED; simpl in *.
  - assert (HD : DiscreteDistribution values = Ok (Discrete values)).
    { destruct values; [unfold total in TP; simpl in TP; lra|reflexivity]. }
    destruct (C03_sample_law _ _ _ _ F TP U0 U1 HD) as (i & x & w & EN & HS & _ & _ & W).
    simpl in HS. rewrite H in HS. inversion HS; subst.
    exists w. split; auto. eapply nth_error_In; eauto.
  - inversion H; subst. exists 1. split; [auto|lra].
Qed.

Example C10_example :
  uncertain_sample_action (fun _ : nat => Discrete C03_values) 0%nat (3 # 4) = Ok 9%nat.
Proof. reflexivity. Qed.

Print Assumptions C03_sample_law.
Print Assumptions C03_every_positive_value_reachable.
Print Assumptions C03_sample_in_values.
Print Assumptions C03_cast_keeps_weights.
Print Assumptions C03_single_value.
Print Assumptions C03_empty_rejected.
Print Assumptions C10_deterministic_policy.
Print Assumptions C10_uncertain_policy.
