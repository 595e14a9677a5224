(** C32: mutations of permutations. *)
From Coq Require Import List Bool Arith Lia Permutation.
From Verif Require Import Py PyList PermModel.
Import ListNotations.

Section PermProps.
Context {A : Type}.
Implicit Types (w : world A) (l : list A).

(** * Vocabulary *)

(** The contents of solution [s]'s vector. *)
Definition holds w (s : nat) (l : list A) : Prop := attr w s = Ok l.

(** Pairs of positions that do not share a position with one another. *)
Fixpoint disjoint (ps : list (nat * nat)) : Prop :=
  match ps with
  | [] => True
  | (i, j) :: r => (forall k h, In (k, h) r -> i <> k /\ i <> h /\ j <> k /\ j <> h) /\ disjoint r
  end.

(** The draws the random generators can make, for vectors of length [n].  Swaps: pairs below [n-1], any
    number of them; for undoing they must not overlap. *)
Definition possible (n : nat) (c : choice) : Prop :=
  match c with
  | CShuffle r => Permutation r (seq 0 n)
  | CPartial k t r => k <= n /\ Permutation t (seq 0 n) /\ Permutation r (seq 0 k)
  | CSwap ps => 2 <= n /\ forall i j, In (i, j) ps -> i < n - 1 /\ j < n - 1
  | CTwoOpt i j => i < j < n
  end.
Definition undoable (c : choice) : Prop :=
  match c with CSwap ps => disjoint ps | _ => True end.

(** * Lists *)

Lemma map_nth_seq : forall B (l : list B) d, l = map (fun i => nth i l d) (seq 0 (length l)).
Proof.
  intros B. induction l as [|x l IH]; intros d; auto. cbn [length seq map]. f_equal.
  rewrite <- seq_shift, map_map. apply IH.
Qed.

Lemma lget_nth : forall B (l : list B) i d, i < length l -> lget l i = Ok (nth i l d).
Proof. intros B l i d H. apply lget_ok. now apply nth_error_nth'. Qed.

Lemma shuffle_perm : forall l r, Permutation r (seq 0 (length l)) ->
  exists n, mapM (fun i => lget l i) r = Ok n /\ Permutation n l.
Proof.
  intros [|d l] r P.
  - apply Permutation_sym, Permutation_nil in P. subst. exists []. auto.
  - exists (map (fun i => nth i (d :: l) d) r). split.
    + apply mapM_total. intros i I. apply lget_nth. apply (Permutation_in _ P) in I. apply in_seq in I. lia.
    + transitivity (map (fun i => nth i (d :: l) d) (seq 0 (length (d :: l)))); [now apply Permutation_map|].
      now rewrite <- map_nth_seq.
Qed.

Lemma swap1_spec : forall l i j x y, nth_error l i = Some x -> nth_error l j = Some y ->
  swap1 l (i, j) = Ok (lset (lset l i y) j x).
Proof.
  intros l i j x y X Y. unfold swap1, lget, lput. cbn [fst snd]. rewrite X, Y. cbn [bind].
  assert (i < length l) by (apply nth_error_Some; congruence).
  assert (j < length l) by (apply nth_error_Some; congruence).
  destruct (Nat.ltb_spec i (length l)); [|lia]. cbn [bind]. rewrite lset_length.
  destruct (Nat.ltb_spec j (length l)); [|lia]. reflexivity.
Qed.

Lemma lset_split : forall l i x v, nth_error l i = Some x ->
  exists l1 l2, l = l1 ++ x :: l2 /\ length l1 = i /\ lset l i v = l1 ++ v :: l2.
Proof.
  intros l i x v H. apply nth_error_split in H. destruct H as [l1 [l2 [E L]]].
  exists l1, l2. split; auto. split; auto. subst. apply lset_app_mid.
Qed.

Lemma swap1_perm : forall l i j x y, nth_error l i = Some x -> nth_error l j = Some y ->
  Permutation (lset (lset l i y) j x) l.
Proof.
  intros l i j x y X Y. destruct (Nat.eq_dec i j) as [ -> |NE].
  - rewrite X in Y. injection Y as ->. rewrite lset_lset, lset_same; auto.
  - destruct (lset_split l i x y X) as [l1 [l2 [E [L1 E1]]]]. rewrite E1.
    assert (Y1 : nth_error (l1 ++ y :: l2) j = Some y).
    { rewrite <- E1, lset_nth_error. destruct (Nat.eqb_spec i j); congruence. }
    destruct (lset_split _ j y x Y1) as [l3 [l4 [E2 [L3 E3]]]]. rewrite E3. subst l.
    assert (P : Permutation (y :: l1 ++ x :: l2) (y :: l3 ++ x :: l4)).
    { transitivity (x :: l1 ++ y :: l2).
      - rewrite <- !Permutation_middle. apply perm_swap.
      - rewrite E2. rewrite <- !Permutation_middle. apply perm_swap. }
    apply Permutation_cons_inv in P. now apply Permutation_sym.
Qed.

Lemma swap1_undo : forall l p l', swap1 l p = Ok l' -> swap1 l' p = Ok l.
Proof.
  intros l [i j] l' H.
  destruct (nth_error l i) as [x|] eqn:X; [|unfold swap1, lget in H; cbn [fst snd] in H; rewrite X in H; discriminate].
  destruct (nth_error l j) as [y|] eqn:Y; [|unfold swap1, lget in H; cbn [fst snd] in H; rewrite X, Y in H; discriminate].
  rewrite (swap1_spec l i j x y X Y) in H. injection H as <-.
  assert (i < length l) by (apply nth_error_Some; congruence).
  assert (j < length l) by (apply nth_error_Some; congruence).
  rewrite (swap1_spec _ i j y x).
  - f_equal. destruct (Nat.eq_dec i j) as [ -> |NE].
    + rewrite !lset_lset. now apply lset_same.
    + rewrite (@lset_comm _ (lset l i y) j i) by congruence. rewrite !lset_lset, (lset_same _ i X). now apply lset_same.
  - rewrite !lset_nth_error, lset_length. destruct (Nat.eqb_spec j i) as [ -> |NE].
    + destruct (Nat.ltb_spec i (length l)); [|lia]. congruence.
    + rewrite Nat.eqb_refl. destruct (Nat.ltb_spec i (length l)); [|lia]. reflexivity.
  - rewrite lset_nth_error, lset_length, Nat.eqb_refl. destruct (Nat.ltb_spec j (length l)); [|lia]. reflexivity.
Qed.

Lemma swap1_ok : forall l i j, i < length l -> j < length l ->
  exists l', swap1 l (i, j) = Ok l' /\ Permutation l' l.
Proof.
  intros l i j Hi Hj.
  destruct (nth_error l i) as [x|] eqn:X; [|apply nth_error_None in X; lia].
  destruct (nth_error l j) as [y|] eqn:Y; [|apply nth_error_None in Y; lia].
  eexists. split; [apply swap1_spec; eauto|]. now apply swap1_perm.
Qed.

Lemma swaps_ok : forall ps l, (forall i j, In (i, j) ps -> i < length l /\ j < length l) ->
  exists l', swaps l ps = Ok l' /\ Permutation l' l.
Proof.
  induction ps as [|[i j] ps IH]; intros l H; [exists l; split; auto|].
  destruct (H i j) as [Hi Hj]; [simpl; auto|].
  destruct (swap1_ok l i j Hi Hj) as [l1 [E1 P1]].
  assert (L1 : length l1 = length l) by now apply Permutation_length.
  destruct (IH l1) as [l2 [E2 P2]]; [intros k h I; rewrite L1; apply H; simpl; auto|].
  exists l2. split; [|now transitivity l1]. unfold swaps in *. cbn [foldM]. rewrite E1. exact E2.
Qed.

(** Disjoint swaps commute. *)
Lemma swap1_comm : forall l i j k h l1 l2, i <> k -> i <> h -> j <> k -> j <> h ->
  swap1 l (i, j) = Ok l1 -> swap1 l1 (k, h) = Ok l2 ->
  exists l3, swap1 l (k, h) = Ok l3 /\ swap1 l3 (i, j) = Ok l2.
Proof.
  intros l i j k h l1 l2 N1 N2 N3 N4 H1 H2.
  destruct (nth_error l i) as [x|] eqn:X; [|unfold swap1, lget in H1; cbn [fst snd] in H1; rewrite X in H1; discriminate].
  destruct (nth_error l j) as [y|] eqn:Y; [|unfold swap1, lget in H1; cbn [fst snd] in H1; rewrite X, Y in H1; discriminate].
  rewrite (swap1_spec l i j x y X Y) in H1. injection H1 as <-.
  assert (O : forall m a b u v z, z <> a -> z <> b -> nth_error (lset (lset m a u) b v) z = nth_error (m : list A) z).
  { intros m a b u v z Za Zb. rewrite !lset_nth_error. destruct (Nat.eqb_spec b z); [congruence|]. destruct (Nat.eqb_spec a z); congruence. }
  destruct (nth_error l k) as [p|] eqn:Pk.
  2:{ unfold swap1, lget in H2. cbn [fst snd] in H2. rewrite O, Pk in H2 by congruence. discriminate. }
  destruct (nth_error l h) as [q|] eqn:Q.
  2:{ unfold swap1, lget in H2. cbn [fst snd] in H2. rewrite !O, Pk, Q in H2 by congruence. discriminate. }
  rewrite (swap1_spec _ k h p q) in H2 by (rewrite O by congruence; assumption). injection H2 as <-.
  exists (lset (lset l k q) h p). split; [now apply swap1_spec|].
  rewrite (swap1_spec _ i j x y) by (rewrite O by congruence; assumption). f_equal.
  rewrite (@lset_comm _ (lset l k q) h i) by congruence. rewrite (@lset_comm _ l k i) by congruence.
  rewrite (@lset_comm _ (lset (lset l i y) k q) h j) by congruence.
  rewrite (@lset_comm _ (lset l i y) k j) by congruence. reflexivity.
Qed.

Lemma swap1_swaps_comm : forall ps l i j l1 l2, (forall k h, In (k, h) ps -> i <> k /\ i <> h /\ j <> k /\ j <> h) ->
  swap1 l (i, j) = Ok l1 -> swaps l1 ps = Ok l2 -> exists l3, swaps l ps = Ok l3 /\ swap1 l3 (i, j) = Ok l2.
Proof.
  induction ps as [|[k h] ps IH]; intros l i j l1 l2 D H1 H2.
  - unfold swaps in H2. cbn in H2. injection H2 as <-. exists l. auto.
  - unfold swaps in H2. cbn [foldM] in H2. apply bind_ok in H2. destruct H2 as [l4 [H2 H3]].
    destruct (D k h) as [D1 [D2 [D3 D4]]]; [simpl; auto|].
    destruct (swap1_comm l i j k h l1 l4 D1 D2 D3 D4 H1 H2) as [l5 [E1 E2]].
    destruct (IH l5 i j l4 l2) as [l6 [E3 E4]]; auto; [intros; apply D; simpl; auto|].
    exists l6. split; auto. unfold swaps. cbn [foldM]. rewrite E1. exact E3.
Qed.

Lemma swaps_undo : forall ps l l', disjoint ps -> swaps l ps = Ok l' -> swaps l' ps = Ok l.
Proof.
  induction ps as [|[i j] ps IH]; intros l l' D H.
  - unfold swaps in *. cbn in *. congruence.
  - destruct D as [D1 D2]. unfold swaps in H. cbn [foldM] in H. apply bind_ok in H. destruct H as [l1 [H1 H2]].
    destruct (swap1_swaps_comm ps l i j l1 l' D1 H1 H2) as [l3 [E1 E2]].
    unfold swaps. cbn [foldM]. rewrite (swap1_undo _ _ _ E2). cbn [bind]. now apply IH.
Qed.

Lemma skipn_add : forall n m l, skipn n (skipn m l) = skipn (m + n) l.
Proof.
  intros n m. induction m as [|m IH]; intros l; auto. destruct l as [|x l]; [now rewrite !skipn_nil|]. cbn. apply IH.
Qed.

Lemma reverse_part_perm : forall l i j, i <= S j -> Permutation (reverse_part l (i, j)) l.
Proof.
  intros l i j H. unfold reverse_part. cbn [fst snd].
  transitivity (firstn i l ++ skipn i l); [|now rewrite firstn_skipn]. apply Permutation_app_head.
  transitivity (firstn (S j - i) (skipn i l) ++ skipn (S j - i) (skipn i l)); [|now rewrite firstn_skipn].
  rewrite skipn_add. replace (i + (S j - i)) with (S j) by lia. apply Permutation_app_tail.
  apply Permutation_sym, Permutation_rev.
Qed.

Lemma reverse_part_split : forall (a b c : list A) i j, length a = i -> i + length b = S j ->
  reverse_part (a ++ b ++ c) (i, j) = a ++ rev b ++ c.
Proof.
  intros a b c i j La Lb. unfold reverse_part. cbn [fst snd].
  assert (E1 : firstn i (a ++ b ++ c) = a).
  { rewrite firstn_app, firstn_all2 by lia. replace (i - length a) with 0 by lia. now rewrite app_nil_r. }
  assert (E2 : skipn i (a ++ b ++ c) = b ++ c).
  { rewrite skipn_app, skipn_all2 by lia. now replace (i - length a) with 0 by lia. }
  assert (E3 : skipn (S j) (a ++ b ++ c) = c).
  { replace (S j) with (i + length b) by lia. rewrite <- skipn_add, E2.
    rewrite skipn_app, skipn_all2 by lia. now replace (length b - length b) with 0 by lia. }
  rewrite E1, E2, E3. do 2 f_equal. rewrite firstn_app. replace (S j - i - length b) with 0 by lia.
  rewrite firstn_all2 by lia. now rewrite app_nil_r.
Qed.

Lemma reverse_part_undo : forall l i j, i <= j < length l -> reverse_part (reverse_part l (i, j)) (i, j) = l.
Proof.
  intros l i j H.
  assert (E : l = firstn i l ++ firstn (S j - i) (skipn i l) ++ skipn (S j) l).
  { rewrite <- (firstn_skipn i l) at 1. f_equal. rewrite <- (firstn_skipn (S j - i) (skipn i l)) at 1. f_equal.
    rewrite skipn_add. f_equal. lia. }
  set (a := firstn i l) in *. set (b := firstn (S j - i) (skipn i l)) in *. set (c := skipn (S j) l) in *.
  assert (La : length a = i) by (unfold a; rewrite firstn_length; lia).
  assert (Lb : length b = S j - i) by (unfold b; rewrite firstn_length, skipn_length; lia).
  rewrite E. rewrite (reverse_part_split a b c) by lia. rewrite reverse_part_split by (try rewrite rev_length; lia).
  now rewrite rev_involutive.
Qed.

(** Partial shuffle. *)
Lemma partial_perm : forall l k t r, k <= length l -> Permutation t (seq 0 (length l)) -> Permutation r (seq 0 k) ->
  exists n, foldM (partial_turn l (firstn k t) r) l (seq 0 k) = Ok n /\ Permutation n l.
Proof.
  intros [|d l0] k t r Hk Pt Pr.
  - cbn in Hk. replace k with 0 by lia. exists []. split; auto.
  - set (l := d :: l0) in *. set (itm := firstn k t).
    assert (Lt : length t = length l) by (rewrite (Permutation_length Pt); apply seq_length).
    assert (Li : length itm = k) by (unfold itm; rewrite firstn_length; lia).
    assert (Lr : length r = k) by (rewrite (Permutation_length Pr); apply seq_length).
    assert (NDt : NoDup t) by (eapply Permutation_NoDup; [apply Permutation_sym; eauto|apply seq_NoDup]).
    assert (NDi : NoDup itm).
    { rewrite <- (firstn_skipn k t) in NDt. fold itm in NDt. clear - NDt. induction itm as [|y m IH]; [constructor|].
      cbn in NDt. inversion NDt; subst. constructor; auto. intros I. apply H1. apply in_or_app; auto. }
    assert (Ti : forall x, In x t -> x < length l) by (intros x I; apply (Permutation_in _ Pt) in I; apply in_seq in I; lia).
    assert (Ii : forall x, In x itm -> In x t) by (intros x I; rewrite <- (firstn_skipn k t); apply in_or_app; auto).
    assert (Ri : forall x, In x r -> x < k) by (intros x I; apply (Permutation_in _ Pr) in I; apply in_seq in I; lia).
    set (src := fun q => nth (nth (nth q r 0) itm 0) l d).
    edestruct (@foldM_total _ _ (partial_turn l itm r)
      (fun done n => length n = length l /\
         (forall q, q < length done -> nth (nth q itm 0) n d = src q) /\
         (forall x, ~ In x (firstn (length done) itm) -> nth x n d = nth x l d)) (seq 0 k) l) as [n [E [Ln [N1 N2]]]].
    + split; auto. split; [cbn; lia|auto].
    + intros l1 q l2 n EL [Ln [N1 N2]]. destruct (seq_split _ _ _ _ _ EL) as [Eq Lq]. cbn in Eq.
      assert (QI : In (nth q itm 0) itm) by (apply nth_In; lia).
      assert (RI : nth q r 0 < k) by (apply Ri, nth_In; lia).
      assert (SI : In (nth (nth q r 0) itm 0) itm) by (apply nth_In; lia).
      unfold partial_turn. rewrite (lget_nth _ itm q 0) by lia. cbn [bind]. rewrite (lget_nth _ r q 0) by lia. cbn [bind].
      rewrite (lget_nth _ itm _ 0) by lia. cbn [bind]. rewrite (lget_nth _ l _ d) by auto. cbn [bind].
      fold (src q). unfold lput. assert (QL : nth q itm 0 < length n) by (rewrite Ln; auto).
      destruct (Nat.ltb_spec (nth q itm 0) (length n)); [|lia].
      eexists. split; [reflexivity|]. rewrite lset_length, app_length. cbn [length]. split; auto. split.
      * intros q' Hq'. rewrite lset_nth. destruct (Nat.eqb_spec (nth q itm 0) (nth q' itm 0)) as [Q|Q].
        -- destruct (Nat.ltb_spec (nth q itm 0) (length n)); [|lia].
           apply (proj1 (NoDup_nth itm 0) NDi) in Q; [now rewrite Q|lia|lia].
        -- apply N1. destruct (Nat.eq_dec q' q); [congruence|lia].
      * intros x Hx. rewrite lset_nth. rewrite Nat.add_1_r in Hx.
        assert (NQ : nth_error itm (length l1) = Some (nth q itm 0)) by (rewrite <- Eq; apply nth_error_nth'; lia).
        rewrite (firstn_snoc itm _ NQ) in Hx. rewrite in_app_iff in Hx. cbn [In] in Hx.
        destruct (Nat.eqb_spec (nth q itm 0) x); [tauto|]. apply N2. tauto.
    + exists n. split; [exact E|]. rewrite seq_length in N1, N2.
      rewrite (@firstn_all2 _ k itm) in N2 by lia.
      transitivity (map (fun i => nth i n d) (seq 0 (length n))); [now rewrite <- map_nth_seq|]. rewrite Ln.
      transitivity (map (fun i => nth i n d) t); [apply Permutation_map; now apply Permutation_sym|].
      transitivity (map (fun i => nth i l d) (seq 0 (length l))); [|now rewrite <- map_nth_seq].
      transitivity (map (fun i => nth i l d) t); [|apply Permutation_map; exact Pt].
      rewrite <- (firstn_skipn k t). fold itm. rewrite !map_app.
      replace (map (fun i => nth i n d) (skipn k t)) with (map (fun i => nth i l d) (skipn k t)).
      2:{ apply map_ext_in. intros x I. symmetry. apply N2. intros I2.
          rewrite <- (firstn_skipn k t) in NDt. fold itm in NDt.
          clear - NDt I I2. induction itm as [|y m IH]; [destruct I2|]. inversion NDt; subst. destruct I2 as [ -> |I2]; auto.
          apply H1. apply in_or_app; auto. }
      apply Permutation_app_tail.
      assert (G : forall m : list A, map (fun i => nth i m d) itm = map (fun q => nth (nth q itm 0) m d) (seq 0 k)).
      { intros m. rewrite <- (map_map (fun q => nth q itm 0) (fun i => nth i m d)). f_equal. rewrite <- Li. apply map_nth_seq. }
      rewrite !G. rewrite (map_ext_in _ src) by (intros q I; apply in_seq in I; apply N1; lia).
      replace (map src (seq 0 k)) with (map (fun q => nth (nth q itm 0) l d) r).
      2:{ unfold src. rewrite <- (map_map (fun q => nth q r 0) (fun q => nth (nth q itm 0) l d)). f_equal.
          rewrite <- Lr. apply map_nth_seq. }
      apply Permutation_map. exact Pr.
Qed.

(** * The store *)

Lemma holds_inv : forall w s l, holds w s l <-> exists a, nth_error (w_sols w) s = Some a /\ nth_error (w_lists w) a = Some l.
Proof.
  intros w s l. unfold holds, attr, addr. split.
  - intros H. apply bind_ok in H. destruct H as [a [H1 H2]]. apply lget_ok in H1. apply lget_ok in H2. eauto.
  - intros [a [H1 H2]]. apply lget_ok in H1. apply lget_ok in H2. rewrite H1. exact H2.
Qed.

Definition prevs (ms : list move) : list nat :=
  flat_map (fun m => match m with Shuffle _ p => [p] | _ => [] end) ms.

(** Undoing the moves [ms] on a solution holding [l] gives [l0]. *)
Fixpoint chain (ls : list (list A)) (ms : list move) (l l0 : list A) : Prop :=
  match ms with
  | [] => l = l0
  | m :: ms => exists lp, (match m with
                           | Shuffle _ p => nth_error ls p = Some lp
                           | Swaps ps => swaps l ps = Ok lp
                           | TwoOpt ps => two_opts l (rev ps) = lp
                           end) /\ chain ls ms lp l0
  end.

Lemma chain_ext : forall ms ls ls' l l0, (forall p, In p (prevs ms) -> nth_error ls' p = nth_error ls p) ->
  chain ls ms l l0 -> chain ls' ms l l0.
Proof.
  induction ms as [|m ms IH]; intros ls ls' l l0 H C; auto. destruct C as [lp [C1 C2]]. exists lp.
  split.
  - destruct m; auto. rewrite H; auto. simpl. auto.
  - apply (IH ls); auto. intros p I. apply H. simpl. apply in_or_app. auto.
Qed.

Definition inv w (s : nat) (ms : list move) (l l0 : list A) : Prop :=
  exists a, nth_error (w_sols w) s = Some a /\ nth_error (w_lists w) a = Some l /\
    NoDup (prevs ms) /\ ~ In a (prevs ms) /\ (forall p, In p (prevs ms) -> p < length (w_lists w)) /\
    chain (w_lists w) ms l l0.

Lemma setattr_ok : forall w s a, s < length (w_sols w) -> setattr w s a = Ok (mkW (w_lists w) (lset (w_sols w) s a)).
Proof. intros w s a H. unfold setattr, lput. destruct (Nat.ltb_spec s (length (w_sols w))); [reflexivity|lia]. Qed.

Lemma undo_step : forall w s m ms l l0, inv w s (m :: ms) l l0 ->
  exists w' l', backtrack w s m = Ok w' /\ inv w' s ms l' l0.
Proof.
  intros w s m ms l l0 [a [H1 [H2 [H3 [H4 [H5 [lp [C1 C2]]]]]]]].
  assert (Ls : s < length (w_sols w)) by (apply nth_error_Some; congruence).
  assert (La : a < length (w_lists w)) by (apply nth_error_Some; congruence).
  assert (Ea : addr w s = Ok a) by (now apply lget_ok).
  assert (El : attr w s = Ok l) by (apply holds_inv; eauto).
  destruct m as [new p|ps|ps]; cbn [backtrack apply_move prevs flat_map app] in *.
  - exists (mkW (w_lists w) (lset (w_sols w) s p)), lp. split; [now apply setattr_ok|].
    inversion H3; subst. exists p. cbn [w_lists w_sols].
    split; [rewrite lset_nth_error, Nat.eqb_refl; destruct (Nat.ltb_spec s (length (w_sols w))); [auto|lia]|].
    split; auto. split; auto. split; auto. split; [intros q I; apply H5; simpl; auto|exact C2].
  - rewrite Ea, El. cbn [bind]. rewrite C1. cbn [bind].
    exists (write w a lp), lp. split; [reflexivity|]. exists a. unfold write. cbn [w_lists w_sols]. split; auto.
    split; [rewrite lset_nth_error, Nat.eqb_refl; destruct (Nat.ltb_spec a (length (w_lists w))); [auto|lia]|].
    split; auto. split; auto. split; [intros p I; rewrite lset_length; auto|].
    apply (chain_ext ms (w_lists w)); auto. intros p I. rewrite lset_nth_error.
    destruct (Nat.eqb_spec a p); [subst; contradiction|reflexivity].
  - rewrite El. cbn [bind alloc]. rewrite C1.
    exists (mkW (w_lists w ++ [lp]) (lset (w_sols w) s (length (w_lists w)))), lp.
    split; [rewrite setattr_ok; [reflexivity|exact Ls]|]. exists (length (w_lists w)). cbn [w_lists w_sols].
    split; [rewrite lset_nth_error, Nat.eqb_refl; destruct (Nat.ltb_spec s (length (w_sols w))); [auto|lia]|].
    split; [rewrite nth_error_app2, Nat.sub_diag by lia; reflexivity|].
    split; auto. split; [intros I; apply H5 in I; lia|].
    split; [intros p I; rewrite app_length; apply H5 in I; lia|].
    apply (chain_ext ms (w_lists w)); auto. intros p I. apply nth_error_app1. auto.
Qed.

Lemma undo_all : forall ms w s l l0, inv w s ms l l0 -> exists w', undo w s ms = Ok w' /\ holds w' s l0.
Proof.
  induction ms as [|m ms IH]; intros w s l l0 I.
  - exists w. split; [reflexivity|]. destruct I as [a [H1 [H2 [_ [_ [_ C]]]]]]. cbn in C. subst. apply holds_inv. eauto.
  - destruct (undo_step w s m ms l l0 I) as [w1 [l1 [E I1]]]. cbn [undo]. rewrite E. cbn [bind]. eauto.
Qed.

Lemma mutate_step : forall w s c ms l l0, inv w s ms l l0 -> possible (length l) c -> undoable c ->
  exists w' s' m l', mutate w s c = Ok (w', s', m) /\ inv w' s' (m :: ms) l' l0 /\ Permutation l' l.
Proof.
  intros w s c ms l l0 [a [H1 [H2 [H3 [H4 [H5 C]]]]]] P U.
  assert (Ls : s < length (w_sols w)) by (apply nth_error_Some; congruence).
  assert (La : a < length (w_lists w)) by (apply nth_error_Some; congruence).
  assert (Ea : addr w s = Ok a) by (now apply lget_ok).
  assert (El : attr w s = Ok l) by (apply holds_inv; eauto).
  destruct c as [r|k t r|ps|i j]; cbn [mutate possible undoable] in *.
  - destruct (shuffle_perm l r P) as [n [E1 E2]].
    unfold mutate_shuffle. rewrite El. cbn [bind alloc w_lists w_sols]. rewrite E1. cbn [bind].
    unfold lazy_copy, addr. cbn [w_lists w_sols]. unfold lget. rewrite H1. cbn [bind fst snd].
    rewrite setattr_ok by (cbn [w_sols]; rewrite app_length; simpl; lia). cbn [bind w_lists w_sols].
    eexists. eexists. eexists. exists n. split; [reflexivity|]. split; [|exact E2].
    exists (length (w_lists w ++ [l])). cbn [w_lists w_sols].
    split; [rewrite lset_app_mid, nth_error_app2, Nat.sub_diag by lia; reflexivity|].
    split; [rewrite nth_error_app2, Nat.sub_diag by lia; reflexivity|].
    cbn [prevs flat_map app]. fold (prevs ms). rewrite !app_length. cbn [length].
    split; [constructor; auto; intros I; apply H5 in I; lia|].
    split; [intros [I|I]; [lia|apply H5 in I; lia]|].
    split; [intros p [ <- |I]; [lia|apply H5 in I; lia]|].
    exists l. split.
    + rewrite nth_error_app1 by (rewrite app_length; simpl; lia). rewrite nth_error_app2, Nat.sub_diag by lia. reflexivity.
    + apply (chain_ext ms (w_lists w)); auto. intros p I. apply H5 in I.
      rewrite nth_error_app1 by (rewrite app_length; simpl; lia). apply nth_error_app1. lia.
  - destruct P as [Pk [Pt Pr]]. destruct (partial_perm l k t r Pk Pt Pr) as [n [E1 E2]].
    unfold mutate_partial. rewrite El. cbn [bind alloc w_lists w_sols].
    unfold addr. cbn [w_sols]. unfold lget at 1. rewrite H1. cbn [bind]. rewrite E1. cbn [bind].
    unfold lazy_copy, addr, write. cbn [w_lists w_sols]. unfold lget. rewrite H1. cbn [bind fst snd].
    eexists. eexists. eexists. exists n. split; [reflexivity|]. split; [|exact E2].
    exists a. cbn [w_lists w_sols]. split; [rewrite nth_error_app2, Nat.sub_diag by lia; reflexivity|].
    split; [rewrite lset_nth_error, Nat.eqb_refl, app_length; destruct (Nat.ltb_spec a (length (w_lists w) + length [l])); [auto|simpl in *; lia]|].
    cbn [prevs flat_map app]. fold (prevs ms). rewrite !lset_length, !app_length. cbn [length].
    split; [constructor; auto; intros I; apply H5 in I; lia|].
    split; [intros [I|I]; [lia|auto]|].
    split; [intros p [ <- |I]; [lia|apply H5 in I; lia]|].
    exists l. split.
    + rewrite lset_nth_error. destruct (Nat.eqb_spec a (length (w_lists w))); [lia|].
      rewrite nth_error_app2, Nat.sub_diag by lia. reflexivity.
    + apply (chain_ext ms (w_lists w)); auto. intros p I. rewrite lset_nth_error.
      destruct (Nat.eqb_spec a p); [subst; contradiction|]. apply nth_error_app1. auto.
  - destruct (swaps_ok ps l) as [n [E1 E2]]; [intros x y I; apply (proj2 P) in I; lia|].
    unfold mutate_swap, apply_move. rewrite Ea, El. cbn [bind]. destruct (Nat.leb_spec (length l) 1); [lia|]. rewrite E1. cbn [bind].
    eexists. eexists. eexists. exists n. split; [reflexivity|]. split; [|exact E2].
    exists a. unfold write. cbn [w_lists w_sols prevs flat_map app]. fold (prevs ms). split; auto.
    split; [rewrite lset_nth_error, Nat.eqb_refl; destruct (Nat.ltb_spec a (length (w_lists w))); [auto|lia]|].
    split; auto. split; auto. split; [intros p I; rewrite lset_length; auto|].
    exists l. split; [now apply swaps_undo|].
    apply (chain_ext ms (w_lists w)); auto. intros p I. rewrite lset_nth_error.
    destruct (Nat.eqb_spec a p); [subst; contradiction|reflexivity].
  - unfold mutate_two_opt, apply_move. rewrite El. cbn [bind alloc].
    rewrite setattr_ok by assumption. cbn [bind w_lists w_sols].
    eexists. eexists. eexists. exists (two_opts l [(i, j)]). split; [reflexivity|].
    split; [|cbn; apply reverse_part_perm; lia].
    exists (length (w_lists w)). cbn [w_lists w_sols prevs flat_map app]. fold (prevs ms).
    split; [rewrite lset_nth_error, Nat.eqb_refl; destruct (Nat.ltb_spec s (length (w_sols w))); [auto|lia]|].
    split; [rewrite nth_error_app2, Nat.sub_diag by lia; reflexivity|].
    split; auto. split; [intros I; apply H5 in I; lia|].
    split; [intros p I; rewrite app_length; apply H5 in I; lia|].
    exists l. split; [cbn; apply reverse_part_undo; lia|].
    apply (chain_ext ms (w_lists w)); auto. intros p I. apply nth_error_app1. auto.
Qed.

Lemma run_inv : forall cs w s ms l l0, inv w s ms l l0 -> Forall (possible (length l)) cs -> Forall undoable cs ->
  exists w' s' ms' l', run w s cs ms = Ok (w', s', ms') /\ inv w' s' ms' l' l0 /\ Permutation l' l.
Proof.
  induction cs as [|c cs IH]; intros w s ms l l0 I P U.
  - exists w, s, ms, l. split; [reflexivity|]. auto.
  - inversion P; subst. inversion U; subst.
    destruct (mutate_step w s c ms l l0 I H1 H3) as [w1 [s1 [m [l1 [E [I1 P1]]]]]].
    cbn [run]. rewrite E. cbn [bind].
    assert (L1 : length l1 = length l) by now apply Permutation_length.
    destruct (IH w1 s1 (m :: ms) l1 l0) as [w2 [s2 [ms2 [l2 [E2 [I2 P2]]]]]]; auto; [now rewrite L1|].
    exists w2, s2, ms2, l2. split; auto. split; auto. now transitivity l1.
Qed.

Lemma start_inv : forall w s l, holds w s l -> inv w s [] l l.
Proof.
  intros w s l H. apply holds_inv in H. destruct H as [a [H1 H2]]. exists a. cbn.
  repeat split; auto; try constructor; intros p [].
Qed.

(** * Theorems *)

(** Every mutation yields a rearrangement of the vector, for every draw the generators can make. *)
Theorem C32_permutation : forall w s l c, holds w s l -> possible (length l) c ->
  exists w' s' m l', mutate w s c = Ok (w', s', m) /\ holds w' s' l' /\ Permutation l' l.
Proof.
  intros w s l c H P. destruct c as [r|k t r|ps|i j].
  1, 2, 4: destruct (mutate_step w s _ [] l l (start_inv _ _ _ H) P I) as [w' [s' [m [l' [E [[a [I1 [I2 _]]] P']]]]]];
    exists w', s', m, l'; split; auto; split; auto; apply holds_inv; eauto.
  pose proof H as H0. apply holds_inv in H0. destruct H0 as [a [H1 H2]].
  assert (La : a < length (w_lists w)) by (apply nth_error_Some; congruence).
  destruct (swaps_ok ps l) as [n [E1 E2]]; [intros x y I; apply (proj2 P) in I; lia|].
  cbn [mutate]. unfold mutate_swap, apply_move, addr. unfold holds in H. unfold lget. rewrite H1, H. cbn [bind].
  destruct (Nat.leb_spec (length l) 1); [destruct P; lia|]. rewrite E1. cbn [bind]. eexists. eexists. eexists. exists n. split; [reflexivity|]. split; [|exact E2].
  apply holds_inv. exists a. unfold write. cbn [w_sols w_lists]. split; auto.
  rewrite lset_nth_error, Nat.eqb_refl. destruct (Nat.ltb_spec a (length (w_lists w))); [auto|lia].
Qed.

(** So does a run of mutations of any length and any mix, and undoing its moves, last first, on the
    solution obtained restores the contents of the vector.  Swaps of one mutation must not overlap. *)
Theorem C32_run_undo : forall w s l cs, holds w s l ->
  Forall (possible (length l)) cs -> Forall undoable cs ->
  exists w' s' ms l', run w s cs [] = Ok (w', s', ms) /\ holds w' s' l' /\ Permutation l' l /\
    exists w2, undo w' s' ms = Ok w2 /\ holds w2 s' l.
Proof.
  intros w s l cs H P U.
  destruct (run_inv cs w s [] l l (start_inv _ _ _ H) P U) as [w' [s' [ms [l' [E [I P']]]]]].
  exists w', s', ms, l'. split; auto. split.
  - destruct I as [a [H1 [H2 _]]]. apply holds_inv; eauto.
  - split; auto. eapply undo_all; eauto.
Qed.

(** The full shuffle leaves the solution it was given, and every other solution, as they were. *)
Theorem C32_shuffle_input : forall w s l r, holds w s l -> Permutation r (seq 0 (length l)) ->
  exists w' s' m, mutate w s (CShuffle r) = Ok (w', s', m) /\ s' <> s /\
    forall s0 l0, holds w s0 l0 -> holds w' s0 l0.
Proof.
  intros w s l r H P. pose proof H as H0. apply holds_inv in H0. destruct H0 as [a [H1 H2]].
  assert (Ls : s < length (w_sols w)) by (apply nth_error_Some; congruence).
  destruct (shuffle_perm l r P) as [n [E1 E2]].
  cbn [mutate]. unfold mutate_shuffle. unfold holds in H. rewrite H. cbn [bind alloc w_lists w_sols]. rewrite E1. cbn [bind].
  unfold lazy_copy, addr. cbn [w_lists w_sols]. unfold lget. rewrite H1. cbn [bind fst snd].
  rewrite setattr_ok by (cbn [w_sols]; rewrite app_length; simpl; lia). cbn [bind w_lists w_sols].
  eexists. eexists. eexists. split; [reflexivity|]. split; [lia|].
  intros s0 l0 H0. apply holds_inv in H0. destruct H0 as [b [B1 B2]]. apply holds_inv. exists b. cbn [w_lists w_sols].
  rewrite lset_app_mid. split.
  - rewrite nth_error_app1; auto. apply nth_error_Some. congruence.
  - assert (b < length (w_lists w)) by (apply nth_error_Some; congruence).
    rewrite nth_error_app1 by (rewrite app_length; simpl; lia). rewrite nth_error_app1; auto.
Qed.

(** 2-opt replaces the list of the solution it is given; solutions that shared the list keep it. *)
Theorem C32_two_opt_others : forall w s l i j, holds w s l -> i < j < length l ->
  exists w' m, mutate w s (CTwoOpt i j) = Ok (w', s, m) /\
    forall s0 l0, s0 <> s -> holds w s0 l0 -> holds w' s0 l0.
Proof.
  intros w s l i j H P. pose proof H as H0. apply holds_inv in H0. destruct H0 as [a [H1 H2]].
  assert (Ls : s < length (w_sols w)) by (apply nth_error_Some; congruence).
  cbn [mutate]. unfold mutate_two_opt, apply_move. unfold holds in H. rewrite H. cbn [bind alloc].
  rewrite setattr_ok by assumption. cbn [bind w_lists w_sols].
  eexists. eexists. split; [reflexivity|]. intros s0 l0 N H0. apply holds_inv in H0. destruct H0 as [b [B1 B2]].
  apply holds_inv. exists b. cbn [w_lists w_sols]. split.
  - rewrite lset_nth_error. destruct (Nat.eqb_spec s s0); [congruence|auto].
  - rewrite nth_error_app1; auto. apply nth_error_Some. congruence.
Qed.

(** Finding: the swap mutation never moves the last element. *)
Theorem C32_swap_last_fixed : forall w s l x ps, holds w s (l ++ [x]) -> possible (length (l ++ [x])) (CSwap ps) ->
  exists w' m l', mutate w s (CSwap ps) = Ok (w', s, m) /\ holds w' s (l' ++ [x]).
Proof.
  intros w s l x ps H P. pose proof H as H0. apply holds_inv in H0. destruct H0 as [a [H1 H2]].
  assert (La : a < length (w_lists w)) by (apply nth_error_Some; congruence).
  rewrite app_length in P. cbn [length possible] in P. destruct P as [P2 P]. replace (length l + 1 - 1) with (length l) in P by lia.
  assert (G : forall ps l, (forall i j, In (i, j) ps -> i < length l /\ j < length l) ->
            exists l', swaps (l ++ [x]) ps = Ok (l' ++ [x]) /\ length l' = length l).
  { clear. induction ps as [|[i j] ps IH]; intros l P; [exists l; auto|].
    destruct (P i j) as [Pi Pj]; [simpl; auto|].
    destruct (nth_error l i) as [u|] eqn:X; [|apply nth_error_None in X; lia].
    destruct (nth_error l j) as [v|] eqn:Y; [|apply nth_error_None in Y; lia].
    unfold swaps. cbn [foldM]. rewrite (swap1_spec (l ++ [x]) i j u v) by (rewrite nth_error_app1; auto).
    cbn [bind]. rewrite lset_app1 by assumption. rewrite lset_app1 by (rewrite lset_length; assumption).
    destruct (IH (lset (lset l i v) j u)) as [l' [E L]]; [intros k h I; rewrite !lset_length; apply P; simpl; auto|].
    exists l'. split; [exact E|]. now rewrite !lset_length in L. }
  destruct (G ps l P) as [l' [E _]].
  cbn [mutate]. unfold mutate_swap, apply_move, addr. unfold holds in H. unfold lget. rewrite H1, H. cbn [bind]. rewrite app_length. cbn [length].
  destruct (Nat.leb_spec (length l + 1) 1); [lia|]. rewrite E. cbn [bind]. eexists. eexists. exists l'. split; [reflexivity|].
  apply holds_inv. exists a. unfold write. cbn [w_sols w_lists]. split; auto.
  rewrite lset_nth_error, Nat.eqb_refl. destruct (Nat.ltb_spec a (length (w_lists w))); [auto|lia].
Qed.

End PermProps.

(** * Examples and findings *)

Ltac permt := cbn; apply NoDup_Permutation_bis; [repeat constructor; cbn; lia|cbn; lia|intros x; cbn; lia].

Definition ex_w : world nat := mkW [[10; 11; 12; 13; 14]] [0].

Example C32_ex : holds ex_w 0 [10; 11; 12; 13; 14] /\
  let cs := [CShuffle [1; 0; 3; 4; 2]; CPartial 2 [2; 0; 4; 3; 1] [1; 0]; CSwap [(0, 1); (3, 2)]; CTwoOpt 1 3] in
  Forall (possible 5) cs /\ Forall undoable cs /\
  exists w' s' ms w2, run ex_w 0 cs [] = Ok (w', s', ms) /\ attr w' s' = Ok [10; 11; 14; 13; 12] /\
    undo w' s' ms = Ok w2 /\ attr w2 s' = Ok [10; 11; 12; 13; 14].
Proof.
  split; [reflexivity|]. cbv zeta. split.
  - apply Forall_cons; [permt|]. apply Forall_cons; [split; [lia|split; permt]|].
    apply Forall_cons; [split; [lia|]; intros i j [E|[E|[]]]; injection E as <- <-; lia|].
    apply Forall_cons; [cbn; lia|apply Forall_nil].
  - split.
    + repeat (apply Forall_cons; [cbn; try easy|]); [|apply Forall_nil].
      split; [intros k h [E|[]]; injection E as <- <-; lia|]. split; [intros k h []|easy].
    + eexists. eexists. eexists. eexists. split; [vm_compute; reflexivity|].
      split; [vm_compute; reflexivity|]. split; vm_compute; reflexivity.
Qed.

(** The partial shuffle modifies the solution it is given, and backtracking the move on the new solution
    does not repair the old one. *)
Theorem C32_partial_input_refuted : exists (w : world nat) s l c w' s' m w2, holds w s l /\ possible (length l) c /\
  mutate w s c = Ok (w', s', m) /\ attr w' s = Ok [12; 11; 10; 13; 14] /\ l = [10; 11; 12; 13; 14] /\
  backtrack w' s' m = Ok w2 /\ attr w2 s' = Ok l /\ attr w2 s = Ok [12; 11; 10; 13; 14].
Proof.
  exists ex_w, 0, [10; 11; 12; 13; 14], (CPartial 2 [2; 0; 4; 3; 1] [1; 0]). eexists. eexists. eexists. eexists.
  split; [reflexivity|]. split.
  { split; [cbn; lia|split; permt]. }
  split; [vm_compute; reflexivity|]. repeat split.
Qed.

(** Several swaps are undone in the order they were made: overlapping ones are not restored. *)
Theorem C32_swaps_undo_refuted : exists (w : world nat) s l c w' m w2, holds w s l /\ possible (length l) c /\
  mutate w s c = Ok (w', s, m) /\ backtrack w' s m = Ok w2 /\ attr w2 s <> Ok l.
Proof.
  exists ex_w, 0, [10; 11; 12; 13; 14], (CSwap [(0, 1); (1, 2)]). eexists. eexists. eexists.
  split; [reflexivity|]. split.
  { split; [cbn; lia|]. intros i j [E|[E|[]]]; injection E as <- <-; cbn; lia. }
  split; [vm_compute; reflexivity|]. split; [vm_compute; reflexivity|]. vm_compute. discriminate.
Qed.

(** No swap is possible on a vector of one element: the generator has no value to draw. *)
Theorem C32_swap_short_refuted : exists (w : world nat) s l, holds w s l /\ l <> [] /\
  forall ps, mutate w s (CSwap ps) = Err ValueError.
Proof. exists (mkW [[7]] [0]), 0, [7]. split; [reflexivity|]. split; [discriminate|]. reflexivity. Qed.

(** A move kept for later is not a record of what it did: the list of a shuffle move is the list of the
    solution, so mutating that solution further changes what re-applying the move gives. *)
Theorem C32_reapply_refuted : exists (w w1 w2 w3 : world nat) s1 s2 m1 m2 l1,
  mutate w 0 (CShuffle [1; 0; 2; 3; 4]) = Ok (w1, s1, m1) /\ attr w1 s1 = Ok l1 /\
  mutate w1 s1 (CPartial 2 [2; 0; 4; 3; 1] [1; 0]) = Ok (w2, s2, m2) /\
  apply_move w2 0 m1 = Ok w3 /\ attr w3 0 <> Ok l1.
Proof.
  exists ex_w. do 8 eexists. split; [vm_compute; reflexivity|]. split; [vm_compute; reflexivity|].
  split; [vm_compute; reflexivity|]. split; [vm_compute; reflexivity|]. vm_compute. discriminate.
Qed.

Print Assumptions C32_permutation.
Print Assumptions C32_run_undo.
Print Assumptions C32_shuffle_input.
Print Assumptions C32_two_opt_others.
