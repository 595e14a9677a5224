(** Priorities read from a staffed schedule (C96). *)
From Coq Require Import String.
From Coq Require Import List Bool Arith ZArith Lia Permutation Sorted.
From Coq Require Import ZifyBool ZifyNat.
From Verif Require Import Py PyList PyMore SgsModel MskModel TspProofs SgsProofs SgsProps MskSpec MskTotalProofs.
Import ListNotations.

Lemma sorted_impl : forall (R Q : nat -> nat -> Prop) l, Sorted R l -> (forall a b, In a l -> In b l -> R a b -> Q a b) -> Sorted Q l.
Proof.
  intros R Q l H. induction H as [|a l H IH Hd]; intros Im; [constructor|]. constructor.
  - apply IH. intros b c Ib Ic. apply Im; now right.
  - destruct Hd; constructor. apply Im; auto; [now left|right; now left].
Qed.

Lemma strong_remove : forall (R : nat -> nat -> Prop) a l, StronglySorted R l -> StronglySorted R (pyremove a l).
Proof.
  intros R a l H. induction H as [|b l H IH Fa]; cbn [pyremove]; [constructor|]. destruct (pyeqb a b); auto.
  constructor; auto. rewrite Forall_forall in *. intros y Iy. apply Fa. eapply pyremove_incl; eauto.
Qed.

Lemma strong_nth : forall (R : nat -> nat -> Prop) l i j a b, StronglySorted R l -> i < j -> nth_error l i = Some a -> nth_error l j = Some b -> R a b.
Proof.
  intros R l i j a b H. revert i j. induction H as [|c l H IH Fa]; intros i j L Na Nb; [destruct i; discriminate|].
  destruct j as [|j]; [lia|]. cbn [nth_error] in Nb. destruct i as [|i]; cbn [nth_error] in Na.
  - injection Na as ->. rewrite Forall_forall in Fa. apply Fa. eapply nth_error_In; eauto.
  - eapply (IH i j); eauto. lia.
Qed.

Lemma ms_tasks_seq : forall x k, Permutation (tasks_of x) (seq 1 k) -> ms_tasks x = seq 1 k.
Proof.
  intros x k P. unfold ms_tasks. apply (sorted_unique Nat.leb).
  - intros a b H1 H2. apply Nat.leb_le in H1, H2. lia.
  - intros a b c H1 H2. apply Nat.leb_le in H1, H2. apply Nat.leb_le. lia.
  - apply ssort_sorted. intros a b H. apply Nat.leb_gt in H. apply Nat.leb_le. lia.
  - clear. generalize 1. induction k as [|k IH]; intros s; cbn [seq]; constructor; auto.
    destruct k; cbn [seq]; constructor. apply Nat.leb_le. lia.
  - etransitivity; [symmetry; apply ssort_perm|exact P].
Qed.

Lemma removelast_seq : forall s k, removelast (seq s (S k)) = seq s k.
Proof. intros s k. rewrite seq_S. apply removelast_last. Qed.

(** Start of a task. *)
Definition start_of (sol : msol) (a : nat) : Z := match time_of sol a with Some (s, _) => s | None => 0%Z end.

Lemma variant_ok : forall x sol n,
  Permutation (tasks_of x) (seq 1 (n + 2)) -> Permutation (dkeys (s_sch sol)) (seq 1 (n + 2)) ->
  ms_source x = 1 -> ms_sink x = n + 2 -> NoDup (dkeys (ms_emps x)) ->
  (forall a, 2 <= a <= n + 1 -> exists k, dget (s_modes sol) a = Some k) ->
  (forall a u, dget (s_use sol) a = Some u -> NoDup (dkeys u) /\ incl (dkeys u) (dkeys (ms_emps x))) ->
  exists order modes prios, to_variant x sol = Ok (map Z.of_nat order, (modes, prios)) /\
    Permutation order (seq 0 n) /\
    (forall i j a b, i < j -> nth_error order i = Some a -> nth_error order j = Some b -> (start_of sol (a + 2) <= start_of sol (b + 2))%Z) /\
    length modes = n /\ length prios = n /\
    (forall i, i < n -> nth_error modes i = dget (s_modes sol) (i + 2)) /\
    (forall i pr, nth_error prios i = Some pr -> Permutation pr (dkeys (ms_emps x)) /\
       exists rest, pr = users sol (i + 2) ++ rest).
Proof.
  intros x sol n Pt Ps So Si Ne Md Us. unfold to_variant.
  pose proof (ms_tasks_seq x (n + 2) Pt) as Et.
  assert (Ei : inner_tasks x = seq 2 n).
  { unfold inner_tasks. rewrite Et. replace (n + 2) with (S (S n)) by lia. cbn [seq tl]. apply (removelast_seq 2 n). }
  set (l0 := ssort (by_start (s_sch sol)) (dkeys (s_sch sol))).
  assert (P0 : Permutation l0 (seq 1 (n + 2))) by (etransitivity; [symmetry; apply ssort_perm|exact Ps]).
  assert (N0 : NoDup l0) by (apply (Permutation_NoDup (Permutation_sym P0)), seq_NoDup).
  assert (St0 : StronglySorted (fun a b => (start_of sol a <= start_of sol b)%Z) l0).
  { apply Sorted_StronglySorted; [intros a b c; lia|].
    apply (sorted_impl (fun a b => by_start (s_sch sol) a b = true)).
    - apply ssort_sorted. intros a b H. unfold by_start in *. destruct (dget (s_sch sol) a) as [sa|], (dget (s_sch sol) b) as [sb|]; try discriminate; lia.
    - intros a b Ia Ib H. unfold l0 in Ia, Ib.
      apply (Permutation_in _ (Permutation_sym (ssort_perm _ _))) in Ia, Ib.
      destruct (key_some Ia) as [[sa ea] Da]. destruct (key_some Ib) as [[sb eb] Db]. unfold by_start in H. rewrite Da, Db in H. cbn [fst] in H.
      unfold start_of, time_of. rewrite Da, Db. lia. }
  assert (I1 : In 1 l0) by (rewrite P0; apply in_seq; lia).
  unfold py_remove at 1. rewrite So, (proj2 (pymem_true 1 l0) I1). cbn [bind].
  assert (I2 : In (n + 2) (pyremove 1 l0)) by (rewrite pyremove_In by auto; split; [lia|rewrite P0; apply in_seq; lia]).
  unfold py_remove. rewrite Si, (proj2 (pymem_true (n + 2) (pyremove 1 l0)) I2). cbn [bind].
  set (l2 := pyremove (n + 2) (pyremove 1 l0)).
  assert (N2 : NoDup l2) by (apply pyremove_NoDup, pyremove_NoDup, N0).
  assert (In2 : forall a, In a l2 <-> 2 <= a <= n + 1).
  { intros a. unfold l2. rewrite pyremove_In by (apply pyremove_NoDup, N0). rewrite pyremove_In by auto. rewrite P0, in_seq. lia. }
  destruct (mapM_some _ _ (dgetE (s_modes sol)) (inner_tasks x)) as [ms Hms].
  { intros a Ia. rewrite Ei, in_seq in Ia. destruct (Md a ltac:(lia)) as [k K]. unfold dgetE. rewrite K. eauto. }
  rewrite Hms. cbn [bind]. exists (map (fun a => a - 2) l2), ms, (map (worker_order x sol) (inner_tasks x)).
  assert (Lm : length ms = n) by (apply mapM_length in Hms; rewrite Ei, seq_length in Hms; lia).
  split; [|split; [|split; [|split; [|split; [|split]]]]].
  - do 2 f_equal. rewrite map_map. apply map_ext_in. intros a Ia. apply In2 in Ia. lia.
  - apply NoDup_Permutation.
    + assert (G : forall l, NoDup l -> (forall a, In a l -> 2 <= a) -> NoDup (map (fun a => a - 2) l)).
      { clear. induction l as [|y l IH]; intros N H; cbn [map]; [constructor|]. inversion N; subst. constructor.
        - intros K. apply in_map_iff in K as [z [Ez Iz]]. pose proof (H z (or_intror Iz)). pose proof (H y (or_introl eq_refl)).
          assert (z = y) by lia. subst. contradiction.
        - apply IH; auto. intros a Ia. apply H. now right. }
      apply G; auto. intros a Ia. apply In2 in Ia. lia.
    + apply seq_NoDup.
    + intros a. rewrite in_map_iff, in_seq. split.
      * intros [b [<- Ib]]. apply In2 in Ib. lia.
      * intros La. exists (a + 2). split; [lia|]. apply In2. lia.
  - intros i j a b L Na Nb. rewrite nth_error_map in Na, Nb.
    destruct (nth_error l2 i) as [a'|] eqn:Ea; [|discriminate]. destruct (nth_error l2 j) as [b'|] eqn:Eb; [|discriminate].
    cbn [option_map] in Na, Nb. injection Na as <-. injection Nb as <-.
    pose proof (proj1 (In2 a') (nth_error_In _ _ Ea)). pose proof (proj1 (In2 b') (nth_error_In _ _ Eb)).
    replace (a' - 2 + 2) with a' by lia. replace (b' - 2 + 2) with b' by lia.
    eapply (strong_nth (fun a b => (start_of sol a <= start_of sol b)%Z)); [|exact L|exact Ea|exact Eb].
    apply strong_remove, strong_remove, St0.
  - exact Lm.
  - rewrite map_length, Ei, seq_length. reflexivity.
  - intros i Li. destruct (nth_error ms i) as [k|] eqn:E; [|apply nth_error_None in E; lia].
    destruct (mapM_nth _ _ _ Hms E) as [a [Na F]]. rewrite Ei in Na. apply dgetE_ok in F.
    assert (a = i + 2).
    { rewrite (nth_error_nth' _ 0) in Na by (rewrite seq_length; lia). rewrite seq_nth in Na by lia. injection Na as <-. lia. }
    subst a. congruence.
  - intros i pr Np. rewrite nth_error_map in Np. destruct (nth_error (inner_tasks x) i) as [a|] eqn:Ea; [|discriminate].
    cbn [option_map] in Np. injection Np as <-. rewrite Ei in Ea.
    assert (Li : i < n) by (rewrite <- (seq_length n 2); apply nth_error_Some; congruence).
    assert (a = i + 2).
    { rewrite (nth_error_nth' _ 0) in Ea by (rewrite seq_length; lia). rewrite seq_nth in Ea by lia. injection Ea as <-. lia. }
    subst a. unfold worker_order. split; [|eauto].
    assert (Q : NoDup (users sol (i + 2)) /\ incl (users sol (i + 2)) (dkeys (ms_emps x))).
    { unfold users. destruct (dget (s_use sol) (i + 2)) as [u|] eqn:U; [apply Us in U; exact U|]. split; [constructor|intros y []]. }
    destruct Q as [Q1 Q2]. apply NoDup_Permutation; auto.
    + apply NoDup_app_disjoint; auto; [apply NoDup_filter; auto|]. intros y Iy Jy. apply filter_In in Jy as [_ Jy].
      rewrite (proj2 (pymem_true y _) Iy) in Jy. discriminate.
    + intros y. rewrite in_app_iff, filter_In. split.
      * intros [K|[K _]]; auto.
      * intros K. destruct (pymem y (users sol (i + 2))) eqn:Py; [left; exact (proj1 (pymem_true y _) Py)|right; auto].
Qed.

(** * Priorities from a permutation *)
Lemma rank_bound : forall l v, In v l -> 1 <= rank_of l v <= length l.
Proof.
  intros l v I. unfold rank_of. split; [lia|]. destruct (in_split _ _ I) as (l1 & l2 & ->).
  rewrite filter_app, !app_length. cbn [filter]. rewrite Z.ltb_irrefl. cbn [length].
  assert (F : forall l : list Z, length (filter (fun y => (y <? v)%Z) l) <= length l).
  { clear. induction l as [|y l IH]; cbn [filter]; auto. destruct (y <? v)%Z; cbn [length]; lia. }
  pose proof (F l1). pose proof (F l2). lia.
Qed.

Lemma rank_mono : forall l v w, In v l -> (v < w)%Z -> rank_of l v < rank_of l w.
Proof.
  intros l v w I L. unfold rank_of. destruct (in_split _ _ I) as (l1 & l2 & ->). rewrite !filter_app, !app_length. cbn [filter].
  rewrite Z.ltb_irrefl. replace (v <? w)%Z with true by lia. cbn [length].
  assert (F : forall l : list Z, length (filter (fun y => (y <? v)%Z) l) <= length (filter (fun y => (y <? w)%Z) l)).
  { clear -L. induction l as [|y l IH]; cbn [filter]; auto. destruct (Z.ltb_spec y v), (Z.ltb_spec y w); cbn [length]; lia. }
  pose proof (F l1). pose proof (F l2). lia.
Qed.

Lemma rank_perm : forall l, NoDup l -> Permutation (map (rank_of l) l) (seq 1 (length l)).
Proof.
  intros l N. apply NoDup_Permutation_bis.
  - assert (G : forall k, NoDup k -> incl k l -> NoDup (map (rank_of l) k)).
    { induction k as [|y k IH]; intros Nk Inc; cbn [map]; [constructor|]. inversion Nk; subst. constructor.
      - intros K. apply in_map_iff in K as [z [Ez Iz]].
        pose proof (Inc y (or_introl eq_refl)). pose proof (Inc z (or_intror Iz)).
        destruct (Z.lt_trichotomy z y) as [L|[->|L]]; [|contradiction|].
        + pose proof (rank_mono l z y H0 L). lia.
        + pose proof (rank_mono l y z H L). lia.
      - apply IH; auto. intros z Iz. apply Inc. now right. }
    apply G; auto. apply incl_refl.
  - rewrite map_length, seq_length. lia.
  - intros y Iy. apply in_map_iff in Iy as [v [<- Iv]]. apply in_seq. pose proof (rank_bound l v Iv). lia.
Qed.

Lemma prios_ok : forall x perm n, p_sink (ms_base x) = n + 2 -> NoDup perm -> length perm = n * length (ms_emps x) ->
  exists prios, prios_of_perm x perm = Ok prios /\ length prios = n /\
    (forall i pr, nth_error prios i = Some pr -> Permutation pr (seq 1 (length (ms_emps x))) /\
       forall j k rj rk vj vk, nth_error pr j = Some rj -> nth_error pr k = Some rk ->
         nth_error perm (i * length (ms_emps x) + j) = Some vj -> nth_error perm (i * length (ms_emps x) + k) = Some vk ->
         (rj < rk <-> (vj < vk)%Z)).
Proof.
  intros x perm n Sk Nd Ln. set (w := length (ms_emps x)) in *. unfold prios_of_perm. fold w. rewrite Sk. replace (n + 2 - 2) with n by lia.
  assert (Row : forall i, i < n -> exists tmp, mapM (fun j => lget perm (i * w + j)) (seq 0 w) = Ok tmp /\ NoDup tmp /\ length tmp = w /\
    forall j, j < w -> nth_error tmp j = nth_error perm (i * w + j)).
  { intros i Li. destruct (mapM_some _ _ (fun j => lget perm (i * w + j)) (seq 0 w)) as [tmp E].
    { intros j Ij. apply in_seq in Ij. unfold lget. destruct (nth_error perm (i * w + j)) eqn:E; eauto. apply nth_error_None in E. nia. }
    exists tmp. assert (Lt : length tmp = w) by (apply mapM_length in E; rewrite seq_length in E; lia).
    assert (At : forall j, j < w -> nth_error tmp j = nth_error perm (i * w + j)).
    { intros j Lj. destruct (nth_error tmp j) as [v|] eqn:V; [|apply nth_error_None in V; lia].
      destruct (mapM_nth _ _ _ E V) as [j' [Nj F]]. rewrite (nth_error_nth' _ 0) in Nj by (rewrite seq_length; lia).
      rewrite seq_nth in Nj by lia. injection Nj as <-. apply lget_ok in F. cbn in F. congruence. }
    split; auto. split; [|split; auto].
    apply NoDup_nth_error. intros j k Lj Ejk. rewrite Lt in Lj. rewrite At in Ejk by auto.
    destruct (le_lt_dec w k) as [Lk|Lk].
    - rewrite (proj2 (nth_error_None tmp k)) in Ejk by lia. exfalso. apply nth_error_None in Ejk. nia.
    - rewrite At in Ejk by auto. assert (i * w + j = i * w + k); [|lia].
      apply (proj1 (NoDup_nth_error perm) Nd); auto. nia. }
  destruct (mapM_some _ _ (row_of perm w) (seq 0 n)) as [prios E].
  { intros i Ii. apply in_seq in Ii. unfold row_of. destruct (Row i ltac:(lia)) as (tmp & -> & _). cbn [bind]. eauto. }
  exists prios. split; auto. split; [apply mapM_length in E; rewrite seq_length in E; lia|].
  intros i pr Np. destruct (mapM_nth _ _ _ E Np) as [i' [Ni F]].
  assert (Li : i < n) by (rewrite <- (seq_length n 0); apply nth_error_Some; congruence).
  rewrite (nth_error_nth' _ 0) in Ni by (rewrite seq_length; lia). rewrite seq_nth in Ni by lia. injection Ni as <-. cbn [Nat.add] in F.
  unfold row_of in F. destruct (Row i Li) as (tmp & Et & Nt & Lt & At). rewrite Et in F. cbn [bind] in F. injection F as <-.
  split; [rewrite <- Lt; apply rank_perm; auto|].
  intros j k rj rk vj vk Nj Nk Vj Vk. rewrite nth_error_map in Nj, Nk.
  destruct (nth_error tmp j) as [a|] eqn:Ea; [|discriminate]. destruct (nth_error tmp k) as [b|] eqn:Eb; [|discriminate].
  cbn [option_map] in Nj, Nk. injection Nj as <-. injection Nk as <-.
  assert (Lj : j < w) by (rewrite <- Lt; apply nth_error_Some; congruence).
  assert (Lk : k < w) by (rewrite <- Lt; apply nth_error_Some; congruence).
  rewrite At in Ea, Eb by auto. rewrite Ea in Vj. rewrite Eb in Vk. injection Vj as <-. injection Vk as <-.
  assert (Ia : In a tmp) by (rewrite <- At in Ea by auto; eapply nth_error_In; eauto).
  assert (Ib : In b tmp) by (rewrite <- At in Eb by auto; eapply nth_error_In; eauto).
  destruct (Z.lt_trichotomy a b) as [L|[->|L]].
  - pose proof (rank_mono tmp a b Ia L). lia.
  - lia.
  - pose proof (rank_mono tmp b a Ib L). lia.
Qed.
