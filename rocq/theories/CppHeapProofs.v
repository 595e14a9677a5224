(** The vector heap of CppAstarModel.v keeps its elements; when the order is fixed it also keeps the heap
    order, so that the first element is a least one. *)
From Coq Require Import List Bool Arith ZArith Lia Permutation.
From Verif Require Import Py PyList CppAstarModel.
Import ListNotations.
Open Scope nat_scope.

(** *** elements *)
Lemma lset_swap_perm : forall X (v : list X) i j x y, i < length v -> j < length v -> i <> j ->
  nth_error v j = Some y -> Permutation (lset v i x) (lset (lset v i y) j x).
Proof.
  intros X. induction v as [|a v IH]; intros i j x y Hi Hj N E; cbn in Hi; [lia|].
  destruct i as [|i], j as [|j]; try congruence.
  - cbn in E |- *. clear IH. cbn in Hj. assert (P : forall w k, nth_error w k = Some y -> Permutation (x :: w) (y :: lset w k x)).
    { induction w as [|b w IH]; intros [|k] E'; try discriminate.
      - cbn in E'. injection E' as ->. cbn. apply perm_swap.
      - cbn in E' |- *. rewrite perm_swap. rewrite (IH k E'). apply perm_swap. }
    now apply P.
  - cbn in E |- *. injection E as ->. assert (P : forall w k, k < length w -> Permutation (y :: lset w k x) (x :: lset w k y)).
    { induction w as [|b w IHw]; intros [|k] H; cbn in H; try lia.
      - cbn. apply perm_swap.
      - cbn. rewrite perm_swap. rewrite (IHw k) by lia. apply perm_swap. }
    apply P. lia.
  - cbn in *. apply perm_skip. apply IH; auto; lia.
Qed.

Section Perm.
Context {X : Type}.
Variable gt : X -> X -> bool.

Lemma nth_nth_error : forall (v : list X) i d, i < length v -> nth_error v i = Some (nth i v d).
Proof. intros. now apply nth_error_nth'. Qed.

Lemma div2_lt : forall h, h <> 0 -> (h - 1) / 2 < h.
Proof. intros h N. apply Nat.div_lt_upper_bound; lia. Qed.

Lemma sift_up_perm : forall fuel v hole x, hole < length v -> Permutation (sift_up gt fuel v hole x) (lset v hole x).
Proof.
  induction fuel as [|fuel IH]; intros v hole x H; cbn [sift_up]; auto.
  destruct (Nat.eqb_spec hole 0); auto. destruct (gt _ x); auto.
  pose proof (div2_lt hole n). rewrite IH by (rewrite lset_length; lia).
  symmetry. apply lset_swap_perm; try lia. apply nth_nth_error. lia.
Qed.

Lemma sift_up_length : forall fuel v hole x, length (sift_up gt fuel v hole x) = length v.
Proof.
  induction fuel as [|fuel IH]; intros v hole x; cbn [sift_up]; [apply lset_length|].
  destruct (hole =? 0); [apply lset_length|]. destruct (gt _ x); [rewrite IH|]; apply lset_length.
Qed.

Lemma heap_push_perm : forall v x, Permutation (heap_push gt v x) (x :: v).
Proof.
  intros. unfold heap_push. rewrite sift_up_perm by (rewrite app_length; cbn; lia).
  rewrite lset_app_mid. symmetry. apply Permutation_cons_append.
Qed.

Lemma half_bound : forall n h, h < (n - 1) / 2 -> 2 * (h + 1) < n.
Proof. intros n h H. pose proof (Nat.mul_div_le (n - 1) 2). lia. Qed.

Lemma even_half : forall n, Nat.even n = true -> 2 <= n -> 2 * ((n - 2) / 2) + 2 = n.
Proof.
  intros n E L. apply Nat.even_spec in E. destruct E as [k ->].
  replace (2 * k - 2) with ((k - 1) * 2) by lia. rewrite Nat.div_mul by lia. lia.
Qed.

Lemma sift_down_perm : forall fuel v hole x, hole < length v ->
  let '(v', hole') := sift_down gt fuel v hole x in
  length v' = length v /\ hole' < length v' /\ forall y, Permutation (lset v' hole' y) (lset v hole y).
Proof.
  induction fuel as [|fuel IH]; intros v hole x H; cbn [sift_down]; auto.
  destruct (Nat.ltb_spec hole ((length v - 1) / 2)) as [L|L].
  - pose proof (half_bound _ _ L) as B. set (child := if gt _ _ then _ else _).
    assert (C : child < length v /\ child <> hole). { unfold child. destruct (gt _ _); lia. }
    specialize (IH (lset v hole (nth child v x)) child x). rewrite lset_length in IH. specialize (IH (proj1 C)).
    destruct (sift_down gt fuel _ child x) as [v' hole']. destruct IH as (I1 & I2 & I3). repeat split; auto.
    intros y. rewrite I3. symmetry. apply lset_swap_perm; try lia. apply nth_nth_error. lia.
  - destruct (Nat.even (length v) && _ && _) eqn:E; auto.
    apply andb_true_iff in E as [E E3]. apply andb_true_iff in E as [E1 E2].
    apply Nat.eqb_eq in E2. apply Nat.leb_le in E3. pose proof (even_half _ E1 E3) as B. rewrite <- E2 in B.
    rewrite lset_length. repeat split; try lia. intros y. symmetry. apply lset_swap_perm; try lia.
    apply nth_nth_error. lia.
Qed.

Lemma adjust_heap_perm : forall v x, v <> [] -> Permutation (adjust_heap gt v x) (lset v 0 x).
Proof.
  intros v x N. unfold adjust_heap. assert (H : 0 < length v) by (destruct v; [congruence|cbn; lia]).
  pose proof (sift_down_perm (length v) v 0 x H) as D. destruct (sift_down _ _ _ _ _) as [v' h].
  destruct D as (D1 & D2 & D3). now rewrite sift_up_perm.
Qed.

Lemma heap_pop_perm : forall v, match heap_pop gt v with
  | None => v = []
  | Some (x, v') => Permutation v (x :: v') /\ nth_error v 0 = Some x
  end.
Proof.
  intros [|t r]; [reflexivity|]. cbn [heap_pop]. destruct (rev r) as [|l s] eqn:R.
  - apply (f_equal (@rev X)) in R. rewrite rev_involutive in R. cbn in R. subst r. auto.
  - split; [|reflexivity]. apply (f_equal (@rev X)) in R. rewrite rev_involutive in R. cbn in R. subst r.
    assert (E : removelast (t :: rev s ++ [l]) = t :: rev s) by (rewrite app_comm_cons; apply removelast_last).
    rewrite E. rewrite adjust_heap_perm by discriminate. cbn. rewrite <- Permutation_cons_append. auto.
Qed.
End Perm.

(** *** heap order *)
Section Order.
Context {X : Type}.
Variable gt : X -> X -> bool.
Hypothesis gt_asym : forall a b, gt a b = true -> gt b a = false.
Hypothesis gt_trans : forall a b c, gt a b = false -> gt b c = false -> gt a c = false.

Definition heap (v : list X) : Prop :=
  forall i a b, i <> 0 -> nth_error v ((i - 1) / 2) = Some a -> nth_error v i = Some b -> gt a b = false.

(** A heap with a hole. *)
Definition hheap (v : list X) (hole : nat) : Prop :=
  (forall i a b, i <> 0 -> i <> hole -> (i - 1) / 2 <> hole ->
     nth_error v ((i - 1) / 2) = Some a -> nth_error v i = Some b -> gt a b = false) /\
  (forall i a b, i <> 0 -> (i - 1) / 2 = hole -> hole <> 0 ->
     nth_error v ((hole - 1) / 2) = Some a -> nth_error v i = Some b -> gt a b = false).

Lemma gt_refl : forall a, gt a a = false.
Proof. intros a. destruct (gt a a) eqn:E; auto. pose proof (gt_asym a a E). congruence. Qed.

Lemma nth_lset : forall (v : list X) i j x, i < length v ->
  nth_error (lset v i x) j = if i =? j then Some x else nth_error v j.
Proof.
  induction v as [|a v IH]; intros i j x H; cbn in H; [lia|].
  destruct i, j; cbn; auto. rewrite IH by lia. reflexivity.
Qed.

Lemma heap_sift_up : forall fuel v hole x, hole < length v -> hole <= fuel -> hheap v hole ->
  (forall i b, i <> 0 -> (i - 1) / 2 = hole -> nth_error v i = Some b -> gt x b = false) ->
  heap (sift_up gt fuel v hole x).
Proof.
  induction fuel as [|fuel IH]; intros v hole x H F [H1 H2] H3; cbn [sift_up].
  - assert (hole = 0) by lia. subst hole. intros i a b N.
    rewrite !nth_lset by auto. destruct (Nat.eqb_spec 0 i); [congruence|].
    destruct (Nat.eqb_spec 0 ((i - 1) / 2)) as [E|E].
    + intros Ea Eb. injection Ea as <-. eapply H3; eauto.
    + intros Ea Eb. eapply (H1 i); eauto.
  - destruct (Nat.eqb_spec hole 0) as [ -> |N0].
    + intros i a b N. rewrite !nth_lset by auto. destruct (Nat.eqb_spec 0 i); [congruence|].
      destruct (Nat.eqb_spec 0 ((i - 1) / 2)) as [E|E].
      * intros Ea Eb. injection Ea as <-. eapply H3; eauto.
      * intros Ea Eb. eapply (H1 i); eauto.
    + set (q := (hole - 1) / 2) in *. pose proof (div2_lt hole N0) as Lq. fold q in Lq.
      set (p := nth q v x). assert (Ep : nth_error v q = Some p) by (apply nth_nth_error; lia).
      destruct (gt p x) eqn:G.
      * apply IH; [rewrite lset_length; lia|lia| |].
        -- split.
           ++ intros i a b N Nq Nq' . rewrite !nth_lset by auto.
              destruct (Nat.eqb_spec hole i) as [ <- |Ni]; [exfalso; apply Nq'; reflexivity|].
              destruct (Nat.eqb_spec hole ((i - 1) / 2)) as [E|E].
              ** intros Ea Eb. injection Ea as <-. eapply H2; eauto.
              ** intros Ea Eb. eapply (H1 i); eauto.
           ++ intros i a b N Eq Nq. rewrite !nth_lset by auto.
              pose proof (div2_lt q Nq) as L2.
              destruct (Nat.eqb_spec hole ((q - 1) / 2)); [lia|].
              destruct (Nat.eqb_spec hole i) as [ <- |Ni]; intros Ea Eb.
              ** injection Eb as <-. apply (H1 q a p); auto; lia.
              ** apply gt_trans with p.
                 --- apply (H1 q a p); auto; lia.
                 --- apply (H1 i p b); auto; try lia. now rewrite Eq.
        -- intros i b N Eq. rewrite nth_lset by auto. destruct (Nat.eqb_spec hole i) as [ <- |Ni]; intros Eb.
           ++ injection Eb as <-. now apply gt_asym.
           ++ apply gt_trans with p; [now apply gt_asym|]. apply (H1 i p b); auto; [lia|now rewrite Eq].
      * intros i a b N. rewrite !nth_lset by auto. destruct (Nat.eqb_spec hole i) as [ <- |Ni].
        -- destruct (Nat.eqb_spec hole ((hole - 1) / 2)) as [E|E]; [fold q in E; lia|].
           intros Ea Eb. injection Eb as <-. fold q in Ea. congruence.
        -- destruct (Nat.eqb_spec hole ((i - 1) / 2)) as [E|E].
           ++ intros Ea Eb. injection Ea as <-. eapply H3; eauto.
           ++ intros Ea Eb. eapply (H1 i); eauto.
Qed.

Lemma heap_push_heap : forall v x, heap v -> heap (heap_push gt v x).
Proof.
  intros v x H. unfold heap_push. apply heap_sift_up; [rewrite app_length; cbn; lia|lia| |].
  - split.
    + intros i a b N Ni Np Ea Eb.
      assert (i < length v). { assert (i < length (v ++ [x])) by (apply nth_error_Some; congruence). rewrite app_length in *. cbn in *. lia. }
      rewrite nth_error_app1 in Ea, Eb; eauto; pose proof (div2_lt i N); lia.
    + intros i a b N E. assert (L : length v < i). { rewrite <- E. now apply div2_lt. }
      intros _ _ Eb. exfalso. assert (i < length (v ++ [x])) by (apply nth_error_Some; congruence).
      rewrite app_length in *. cbn in *. lia.
  - intros i b N E Eb. exfalso. assert (L : length v < i). { rewrite <- E. now apply div2_lt. }
    assert (i < length (v ++ [x])) by (apply nth_error_Some; congruence).
    rewrite app_length in *. cbn in *. lia.
Qed.

Lemma parent_of : forall i h, i <> 0 -> (i - 1) / 2 = h -> i = 2 * h + 1 \/ i = 2 * h + 2.
Proof.
  intros i h N E. pose proof (Nat.div_mod_eq (i - 1) 2) as D. rewrite E in D.
  pose proof (Nat.mod_upper_bound (i - 1) 2). lia.
Qed.

Lemma parent_child : forall h, (2 * h + 1 - 1) / 2 = h /\ (2 * h + 2 - 1) / 2 = h.
Proof.
  intros h. split; [replace (2 * h + 1 - 1) with (h * 2) by lia; apply Nat.div_mul; lia|].
  replace (2 * h + 2 - 1) with (1 + h * 2) by lia. rewrite Nat.div_add by lia. reflexivity.
Qed.

(** Moving the least child [c] into the hole. *)
Lemma hheap_down : forall v hole c p, hole < length v -> c <> 0 -> (c - 1) / 2 = hole -> nth_error v c = Some p ->
  (forall i b, i <> 0 -> (i - 1) / 2 = hole -> nth_error v i = Some b -> gt p b = false) ->
  hheap v hole -> hheap (lset v hole p) c.
Proof.
  intros v hole c p H N E Ec M [H1 H2]. assert (L : hole < c) by (rewrite <- E; now apply div2_lt). split.
  - intros i a b Ni Nc Np. rewrite !nth_lset by auto. destruct (Nat.eqb_spec hole i) as [ <- |Nh].
    + destruct (Nat.eqb_spec hole ((hole - 1) / 2)) as [X0|X0]; [pose proof (div2_lt hole Ni); lia|].
      intros Ea Eb. injection Eb as <-. apply (H2 c a p); auto.
    + destruct (Nat.eqb_spec hole ((i - 1) / 2)) as [X0|X0]; intros Ea Eb.
      * injection Ea as <-. eapply M; eauto.
      * eapply (H1 i); eauto.
  - intros i a b Ni Ei Nc. rewrite E. rewrite !nth_lset by auto. rewrite Nat.eqb_refl.
    destruct (Nat.eqb_spec hole i) as [ -> |Nh].
    + exfalso. pose proof (div2_lt i Ni). lia.
    + intros Ea Eb. injection Ea as <-. apply (H1 i p b); auto; try lia. now rewrite Ei.
Qed.

Lemma sift_down_heap : forall fuel v hole x, hole < length v -> length v <= fuel + hole -> hheap v hole ->
  let '(v', hole') := sift_down gt fuel v hole x in hheap v' hole' /\ length v' <= 2 * hole' + 1.
Proof.
  induction fuel as [|fuel IH]; intros v hole x H F HH; cbn [sift_down]; [lia|].
  destruct (Nat.ltb_spec hole ((length v - 1) / 2)) as [L|L].
  - pose proof (half_bound _ _ L) as B.
    replace (2 * (hole + 1)) with (2 * hole + 2) by lia. replace (2 * hole + 2 - 1) with (2 * hole + 1) by lia.
    set (child := if gt _ _ then _ else _).
    destruct (parent_child hole) as [P1 P2].
    assert (C : child < length v /\ child <> 0 /\ (child - 1) / 2 = hole /\ hole < child).
    { unfold child. destruct (gt _ _); repeat split; auto; lia. }
    destruct C as (C1 & C2 & C3 & C4).
    assert (Ec : nth_error v child = Some (nth child v x)) by (apply nth_nth_error; lia).
    apply IH; rewrite ?lset_length; try lia.
    apply hheap_down; auto. intros i b Ni Ei Eb.
    assert (E1 : nth_error v (2 * hole + 1) = Some (nth (2 * hole + 1) v x)) by (apply nth_nth_error; lia).
    assert (E2 : nth_error v (2 * hole + 2) = Some (nth (2 * hole + 2) v x)) by (apply nth_nth_error; lia).
    unfold child. destruct (gt (nth (2 * hole + 2) v x) (nth (2 * hole + 1) v x)) eqn:G;
      destruct (parent_of i hole Ni Ei) as [ -> | -> ].
    + rewrite E1 in Eb. injection Eb as <-. apply gt_refl.
    + rewrite E2 in Eb. injection Eb as <-. now apply gt_asym.
    + rewrite E1 in Eb. injection Eb as <-. exact G.
    + rewrite E2 in Eb. injection Eb as <-. apply gt_refl.
  - pose proof (Nat.div_mod_eq (length v - 1) 2) as D. pose proof (Nat.mod_upper_bound (length v - 1) 2) as U.
    destruct (Nat.even (length v)) eqn:Ev.
    + cbn [andb]. apply Nat.even_spec in Ev as [k Ek].
      assert (Hk : (length v - 2) / 2 = k - 1).
      { rewrite Ek. replace (2 * k - 2) with ((k - 1) * 2) by lia. apply Nat.div_mul. lia. }
      rewrite Hk. destruct (Nat.leb_spec 2 (length v)) as [L2|L2].
      * rewrite andb_true_r. destruct (Nat.eqb_spec hole (k - 1)) as [Eh|Eh].
        -- assert (Ec : nth_error v (2 * hole + 1) = Some (nth (2 * hole + 1) v x)) by (apply nth_nth_error; lia).
           destruct (parent_child hole) as [P1 P2]. rewrite lset_length. split; [|lia].
           apply hheap_down; auto; try lia. intros i b Ni Ei Eb.
           destruct (parent_of i hole Ni Ei) as [ -> | -> ].
           ++ rewrite Ec in Eb. injection Eb as <-. apply gt_refl.
           ++ exfalso. assert (2 * hole + 2 < length v) by (apply nth_error_Some; congruence). lia.
        -- split; auto. lia.
      * lia.
    + cbn [andb]. split; auto.
      assert (O : Nat.odd (length v) = true) by (rewrite <- Nat.negb_even, Ev; reflexivity).
      apply Nat.odd_spec in O as [k Ek].
      assert (Hk : (length v - 1) / 2 = k).
      { rewrite Ek. replace (2 * k + 1 - 1) with (k * 2) by lia. apply Nat.div_mul. lia. }
      lia.
Qed.

Lemma heap_least : forall v x, heap v -> nth_error v 0 = Some x -> forall y, In y v -> gt x y = false.
Proof.
  intros v x H E0 y I. apply In_nth_error in I as [i Ei].
  revert y Ei. induction i as [i IH] using lt_wf_ind. intros y Ei.
  destruct (Nat.eq_dec i 0) as [ -> |N]; [rewrite E0 in Ei; injection Ei as <-; apply gt_refl|].
  pose proof (div2_lt i N) as L.
  destruct (nth_error v ((i - 1) / 2)) as [z|] eqn:Ez.
  - apply gt_trans with z; [eapply IH; eauto|]. eapply H; eauto.
  - apply nth_error_None in Ez. assert (i < length v) by (apply nth_error_Some; congruence). lia.
Qed.

Lemma heap_pop_heap : forall v x v', heap v -> heap_pop gt v = Some (x, v') ->
  heap v' /\ forall y, In y v -> gt x y = false.
Proof.
  intros v x v' H E. pose proof (heap_pop_perm gt v) as P. rewrite E in P. destruct P as [P E0].
  split; [|eapply heap_least; eauto].
  destruct v as [|t r]; [discriminate|]. cbn [heap_pop] in E. destruct (rev r) as [|l s] eqn:R.
  - injection E as <- <-. intros i a b _ _ X0. destruct i; discriminate.
  - apply (f_equal (@rev X)) in R. rewrite rev_involutive in R. cbn in R. subst r.
    assert (Er : removelast (t :: rev s ++ [l]) = t :: rev s) by (rewrite app_comm_cons; apply removelast_last).
    rewrite Er in E. injection E as <- <-. unfold adjust_heap.
    assert (Hs : hheap (t :: rev s) 0).
    { split; [|intros; congruence]. intros i a b N _ N2 Ea Eb.
      apply (H i a b); auto; rewrite app_comm_cons, nth_error_app1; auto; apply nth_error_Some; congruence. }
    pose proof (sift_down_heap (length (t :: rev s)) (t :: rev s) 0 l ltac:(cbn; lia) ltac:(lia) Hs) as D.
    pose proof (sift_down_perm gt (length (t :: rev s)) (t :: rev s) 0 l ltac:(cbn; lia)) as D'.
    destruct (sift_down _ _ _ _ _) as [w h]. destruct D as [D1 D2], D' as (D3 & D4 & _).
    apply heap_sift_up; auto. intros i b Ni Ei Eb. exfalso.
    assert (i < length w) by (apply nth_error_Some; congruence).
    destruct (parent_of i h Ni Ei); lia.
Qed.
End Order.
