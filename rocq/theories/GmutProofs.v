(** Lemmas about the generic mutations. *)
From Coq Require Import String List ZArith QArith Bool Arith Lia Lqa.
From Verif Require Import Py PyList KnapModel SgsModel RobustModel GmutModel GmutSpec.
Import ListNotations.
Local Open Scope nat_scope.

(** * Bit flips *)

Lemma where_In : forall p draws i, In i (where_le p draws) <-> hit p draws i.
Proof.
  intros p draws i. unfold where_le, hit. rewrite in_map_iff.
  assert (C : forall k (d : list Q) (j : nat) u, In (j, u) (combine (seq k (length d)) d) <-> k <= j /\ nth_error d (j - k) = Some u).
  { intros k d. revert k. induction d as [|x d IH]; intros k j u; cbn [length seq combine In].
    - split; [intros []|]. intros [_ H]. destruct (j - k); discriminate.
    - split.
      + intros [E|I]; [injection E as <- <-; rewrite Nat.sub_diag; auto|].
        apply (proj1 (IH _ _ _)) in I as [L N]. split; [lia|]. replace (j - k) with (S (j - S k)) by lia. exact N.
      + intros [L N]. destruct (Nat.eq_dec j k) as [-> |D].
        * rewrite Nat.sub_diag in N. cbn in N. left. congruence.
        * right. apply (proj2 (IH _ _ _)). split; [lia|]. replace (j - k) with (S (j - S k)) in N by lia. exact N. }
  split.
  - intros [[j u] [<- I]]. apply filter_In in I as [I Q]. apply (proj1 (C _ _ _ _)) in I as [_ N].
    rewrite Nat.sub_0_r in N. cbn [fst snd] in *. apply Qle_bool_iff in Q. eauto.
  - intros [u [N Q]]. exists (i, u). split; auto. apply filter_In. split.
    + apply (proj2 (C _ _ _ _)). rewrite Nat.sub_0_r. split; [lia|auto].
    + cbn [snd]. now apply Qle_bool_iff.
Qed.

Lemma where_NoDup : forall p draws, NoDup (where_le p draws).
Proof.
  intros p draws. unfold where_le.
  assert (C : forall k (d : list Q), NoDup (map fst (filter (fun iu => Qle_bool (snd iu) p) (combine (seq k (length d)) d)))
     /\ forall j, In j (map fst (filter (fun iu => Qle_bool (snd iu) p) (combine (seq k (length d)) d))) -> k <= j).
  { intros k d. revert k. induction d as [|x d IH]; intros k; cbn [length seq combine filter]; [split; [constructor|intros j []]|].
    destruct (IH (S k)) as [N B]. cbn [snd]. destruct (Qle_bool x p); cbn [map fst].
    - split; [constructor; auto; intros I; apply B in I; lia|]. intros j [<-|I]; [lia|]. apply B in I. lia.
    - split; auto. intros j I. apply B in I. lia. }
  apply C.
Qed.

Lemma nth_lset : forall A (l : list A) i v j, i < length l ->
  nth_error (lset l i v) j = if Nat.eqb j i then Some v else nth_error l j.
Proof.
  induction l as [|x l IH]; intros i v j H; cbn [length] in H; [lia|].
  destruct i, j; cbn; auto. rewrite IH by lia. reflexivity.
Qed.

Lemma length_lset : forall A (l : list A) i v, length (lset l i v) = length l.
Proof. induction l as [|x l IH]; intros [|i] v; cbn; auto. Qed.

Lemma flip_all_spec : forall idx l, NoDup idx -> (forall i, In i idx -> i < length l) ->
  exists l', flip_all idx l = Ok l' /\ inverted (fun i => In i idx) l l'.
Proof.
  induction idx as [|i idx IH]; intros l N B.
  - exists l. split; [reflexivity|]. split; auto. intros i x H. split; [intros []|auto].
  - inversion N as [|? ? NI N']; subst. assert (Li : i < length l) by (apply B; now left).
    destruct (nth_error l i) as [x|] eqn:E; [|apply nth_error_None in E; lia].
    destruct (IH (lset l i (1 - x)%Z)) as (l' & F & L & V); auto.
    { intros j I. rewrite length_lset. apply B. now right. }
    exists l'. split.
    + unfold flip_all in *. cbn [foldM]. unfold flip_turn at 1. unfold lget. rewrite E. cbn [bind].
      unfold lput. destruct (Nat.ltb_spec i (length l)); [|lia]. exact F.
    + rewrite length_lset in L. split; auto. intros j y Y.
      destruct (Nat.eq_dec j i) as [-> |D].
      * rewrite E in Y. injection Y as <-. split; [intros _|intros C; destruct C; now left].
        destruct (V i (1 - x)%Z) as [_ V2]; [rewrite nth_lset, Nat.eqb_refl by auto; auto|]. now apply V2.
      * destruct (V j y) as [V1 V2].
        { rewrite nth_lset by auto. apply Nat.eqb_neq in D. now rewrite D. }
        split; [intros [C|C]; [congruence|auto]|]. intros C. apply V2. intros I. apply C. now right.
Qed.

Lemma inverted_twice : forall P l l' l2, (forall i, P i \/ ~ P i) -> inverted P l l' -> inverted P l' l2 -> l2 = l.
Proof.
  intros P l l' l2 Dc [L1 V1] [L2 V2]. apply nth_error_ext. intros i.
  destruct (nth_error l i) as [x|] eqn:E.
  - destruct (V1 _ _ E) as [A B]. destruct (Dc i) as [Pi|Pi].
    + destruct (V2 _ _ (A Pi)) as [A2 _]. rewrite (A2 Pi). f_equal. lia.
    + destruct (V2 _ _ (B Pi)) as [_ B2]. now apply B2.
  - apply nth_error_None. apply nth_error_None in E. lia.
Qed.

Lemma flip_err : forall idx l i, In i idx -> length l <= i -> flip_all idx l = Err IndexError.
Proof.
  induction idx as [|j idx IH]; intros l i I L; [destruct I|].
  unfold flip_all in *. cbn [foldM]. unfold flip_turn at 1, lget.
  destruct (nth_error l j) as [x|] eqn:E; [|reflexivity]. cbn [bind]. unfold lput.
  destruct (Nat.ltb_spec j (length l)); [|reflexivity]. cbn [bind].
  destruct I as [-> |I]; [apply nth_error_None in L; congruence|]. eapply IH; eauto. now rewrite length_lset.
Qed.

(** * The attribute *)

Lemma for_type_first : forall r t, match for_type r t with
  | [] => forall k e, In (k, e) r -> ~ In t (e_types e)
  | ke :: _ => exists pre post, r = pre ++ ke :: post /\ In t (e_types (snd ke)) /\
                 forall k e, In (k, e) pre -> ~ In t (e_types e)
  end.
Proof.
  intros r t.
  assert (Tq : forall x, ttype_eqb x t = true <-> x = t).
  { intros x. destruct x, t; cbn; split; congruence. }
  induction r as [|[k e] r IH]; cbn [for_type flat_map]; [intros k e []|].
  unfold for_type in *. cbn [flat_map snd]. destruct (filter _ (e_types e)) as [|x fl] eqn:F; cbn [map app].
  - assert (NI : ~ In t (e_types e)).
    { intros I. assert (In t (filter (fun t' => ttype_eqb t' t) (e_types e))) by (apply filter_In; split; auto; now apply Tq).
      rewrite F in H. destruct H. }
    destruct (flat_map _ r) as [|ke l].
    + intros k' e' [E|I]; [injection E as <- <-; auto|eauto].
    + destruct IH as (pre & post & -> & I & B). exists ((k, e) :: pre), post. split; auto. split; auto.
      intros k' e' [E|J]; [injection E as <- <-; auto|eauto].
  - exists [], r. split; auto. split; [|intros k' e' []]. cbn [snd].
    assert (I : In x (filter (fun t' => ttype_eqb t' t) (e_types e))) by (rewrite F; now left).
    apply filter_In in I as [I T]. apply Tq in T. congruence.
Qed.

(** * Integers *)

Lemma int_spec : forall p draws picks ar k v, length v >= k + length ar -> (forall n, In n ar -> 0 < n) ->
  exists v', foldM (int_turn p draws picks) v (combine (seq k (length (map (fun n => seq 1 n) ar))) (map (fun n => seq 1 n) ar)) = Ok v' /\
    length v' = length v /\
    forall j x, nth_error v j = Some x ->
      nth_error v' j = Some (match (if k <=? j then nth_error ar (j - k) else None) with
                             | Some n => if Qle_bool (draws j) p then 1 + picks j mod n else x
                             | None => x end).
Proof.
  intros p draws picks. induction ar as [|n ar IH]; intros k v L P; cbn [map length seq combine foldM].
  - exists v. split; auto. split; auto. intros j x H. rewrite H. destruct (k <=? j); auto. destruct (j - k); auto.
  - cbn [length] in L. assert (Pn : 0 < n) by (apply P; now left).
    assert (Lk : k < length v) by lia.
    destruct (nth_error v k) as [x0|] eqn:E; [|apply nth_error_None in E; lia].
    set (v1 := if Qle_bool (draws k) p then lset v k (1 + picks k mod n) else v).
    assert (T : int_turn p draws picks v (k, seq 1 n) = Ok v1).
    { unfold int_turn. cbn [fst snd]. unfold v1. destruct (Qle_bool (draws k) p); auto.
      unfold choice. destruct (seq 1 n) as [|y l] eqn:S; [destruct n; [lia|discriminate]|].
      rewrite <- S, seq_length. unfold lget.
      assert (M : picks k mod n < n) by (apply Nat.mod_upper_bound; lia).
      rewrite (nth_error_nth' (seq 1 n) 0) by (rewrite seq_length; auto). rewrite seq_nth by auto. cbn [bind].
      unfold lput. destruct (Nat.ltb_spec k (length v)); [reflexivity|lia]. }
    assert (L1 : length v1 = length v) by (unfold v1; destruct (Qle_bool _ _); auto using length_lset).
    destruct (IH (S k) v1) as (v' & F & L' & V); [lia|intros; apply P; now right|].
    exists v'. rewrite T. cbn [bind]. split; auto. split; [lia|]. intros j x H.
    assert (N1 : nth_error v1 j = Some (if Nat.eqb j k then if Qle_bool (draws k) p then 1 + picks k mod n else x else x)).
    { unfold v1. destruct (Qle_bool (draws k) p); [rewrite nth_lset by auto|]; destruct (Nat.eqb j k); auto. }
    rewrite (V _ _ N1). f_equal. clear - Pn. destruct (Nat.eqb_spec j k) as [-> |D].
    + destruct (Nat.leb_spec (S k) k); [lia|]. destruct (Nat.leb_spec k k); [|lia]. rewrite Nat.sub_diag. reflexivity.
    + destruct (Nat.leb_spec (S k) j), (Nat.leb_spec k j); try lia; auto.
      replace (j - k) with (S (j - S k)) by lia. reflexivity.
Qed.

(** * Scheduling solutions *)

Lemma max_key_le : forall l m, max_key l = Ok m -> forall a, In a l -> a <= m.
Proof.
  unfold max_key. intros [|x l] m H a I; [discriminate|]. injection H as <-.
  assert (G : forall l y, y <= fold_left Nat.max l y /\ forall a, In a l -> a <= fold_left Nat.max l y).
  { clear. induction l as [|z l IH]; intros y; cbn; [split; [lia|intros a []]|].
    destruct (IH (Nat.max y z)) as [A B]. split; [lia|]. intros a [<-|I]; [lia|auto]. }
  destruct I as [<-|I]; [apply (proj1 (G l x))|apply (proj2 (G l x)); auto].
Qed.

Lemma stale_worth : forall reserve s p f s', s_problem s = Some p -> s_stale s = true ->
  rcpsp_evaluate reserve s = Ok (f, s') -> worth reserve p (s_perm s) (s_modes s) f /\ s_perm s' = s_perm s.
Proof.
  intros reserve s p f s' P S H. unfold rcpsp_evaluate in H. rewrite S in H. unfold generate in H. rewrite P in H.
  apply bind_ok in H as [s1 [G H]]. apply bind_ok in G as [[m' [sch flag]] [G E]]. injection E as <-.
  cbn [fst snd s_sched s_problem s_modes s_feas] in H.
  apply bind_ok in H as [last [M H]]. apply bind_ok in H as [[a e] [D H]]. apply bind_ok in H as [r [R H]].
  injection H as <- <-. split; auto. exists m', sch, flag, last, a, e, r. repeat split; auto.
  - unfold dgetE in D. destruct (dget sch last); congruence.
  - intros b I. eapply max_key_le; eauto.
Qed.

(** * Portfolios *)

Lemma sumQ_div : forall w s, (~ s == 0 -> sumQ (map (fun x => x / s) w) == sumQ w / s)%Q.
Proof.
  induction w as [|x w IH]; intros s H; unfold sumQ in *; cbn [map fold_right].
  - unfold Qdiv. ring.
  - rewrite IH by auto. field. auto.
Qed.

Lemma upto_div : forall w s i, (~ s == 0 -> upto (map (fun x => x / s) w) i == upto w i / s)%Q.
Proof.
  induction w as [|x w IH]; intros s [|i] H; cbn [map upto]; try (unfold Qdiv; ring).
  rewrite IH by auto. field. auto.
Qed.

Lemma upto_nonneg : forall w i, (forall x, In x w -> 0 <= x)%Q -> (0 <= upto w i)%Q.
Proof.
  induction w as [|x w IH]; intros [|i] H; cbn; try lra.
  assert (0 <= x)%Q by (apply H; now left). assert (0 <= upto w i)%Q by (apply IH; intros; apply H; now right). lra.
Qed.

Lemma cumsum_nth : forall w acc i c, nth_error (cumsum acc w) i = Some c -> (c == acc + upto w (S i))%Q.
Proof.
  induction w as [|x w IH]; intros acc [|i] c H; cbn in H; try discriminate.
  - injection H as <-. cbn [upto]. destruct w; cbn [upto]; ring.
  - apply IH in H. rewrite H. cbn [upto]. destruct w; cbn [upto]; ring.
Qed.

Lemma cumsum_length : forall w acc, length (cumsum acc w) = length w.
Proof. induction w; intros; cbn; auto. Qed.

(** With nonnegative weights, counting the sums at most [u] finds the place. *)
Lemma count_place : forall w acc u i, (forall x, In x w -> 0 <= x)%Q -> (i < length w) ->
  (acc + upto w i <= u)%Q -> (u < acc + upto w (S i))%Q ->
  length (filter (fun c => Qle_bool c u) (cumsum acc w)) = i.
Proof.
  induction w as [|x w IH]; intros acc u i P L A B; cbn [length] in L; [lia|].
  cbn [cumsum filter].
  destruct i as [|i].
  - cbn [upto] in B. assert (Bx : (u < acc + x)%Q) by (destruct w; cbn [upto] in B; lra).
    destruct (Qle_bool (acc + x) u) eqn:E; [apply Qle_bool_iff in E; lra|].
    assert (Z : forall w acc', (forall x, In x w -> 0 <= x)%Q -> (u < acc')%Q -> filter (fun c => Qle_bool c u) (cumsum acc' w) = []).
    { clear. induction w as [|y w IH]; intros acc P H; cbn; auto.
      assert (0 <= y)%Q by (apply P; now left).
      destruct (Qle_bool (acc + y) u) eqn:E; [apply Qle_bool_iff in E; lra|]. apply IH; [intros; apply P; now right|lra]. }
    rewrite Z; auto. intros y I. apply P. now right.
  - cbn [upto] in A, B.
    assert (U : (0 <= upto w i)%Q) by (apply upto_nonneg; intros; apply P; now right).
    destruct (Qle_bool (acc + x) u) eqn:E.
    + cbn [length]. f_equal. apply IH; [intros; apply P; now right|lia|lra|]. cbn [upto]. lra.
    + exfalso. assert (~ (acc + x <= u)%Q) by (intros C; apply Qle_bool_iff in C; congruence). lra.
Qed.

Lemma place_exists : forall w u, (forall x, In x w -> 0 <= x)%Q -> (0 <= u)%Q -> (u < sumQ w)%Q ->
  exists i, i < length w /\ (upto w i <= u)%Q /\ (u < upto w (S i))%Q.
Proof.
  induction w as [|x w IH]; intros u P A B; cbn [sumQ fold_right] in B; [lra|].
  change (fold_right Qplus 0%Q w) with (sumQ w) in B.
  destruct (Qlt_le_dec u x) as [C|C].
  - exists 0. cbn [length upto]. split; [lia|]. split; [lra|]. destruct w; cbn [upto]; lra.
  - destruct (IH (u - x)%Q) as (i & L & D & E); [intros; apply P; now right|lra|lra|].
    exists (S i). cbn [length]. split; [lia|]. cbn [upto] in *. split; [lra|]. destruct w; cbn [upto] in *; lra.
Qed.
