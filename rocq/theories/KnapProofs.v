(** Lemmas about the knapsack model. *)
From Coq Require Import List Bool Arith ZArith QArith Lia Permutation Sorted.
From Coq Require Import ZifyBool ZifyNat.
From Verif Require Import Py PyList KnapModel.
Import ListNotations.
Open Scope nat_scope.
Open Scope Z_scope.

(** * Specification vocabulary *)

(** Sum over the items of [taken or not] times [f]. *)
Definition total (f : item -> Z) (items : list item) (sel : list Z) : Z :=
  sumZ (map (fun p => fst p * f (snd p)) (combine sel items)).

Definition selection (items : list item) (sel : list Z) : Prop :=
  length sel = length items /\ Forall (fun x => x = 0 \/ x = 1) sel.

(** Item labels are the positions (what the file parser produces). *)
Definition labelled (m : kmodel) : Prop :=
  forall i it, nth_error (m_items m) i = Some it -> it_index it = i.

(** The cached value and weight are those of the selection. *)
Definition coherent (m : kmodel) (s : ksol) : Prop :=
  length (k_taken s) = length (m_items m) /\
  k_value s = Some (total it_value (m_items m) (k_taken s)) /\
  k_weight s = Some (total it_weight (m_items m) (k_taken s)).

(** * Evaluation *)

Lemma fold_left_add : forall l a, fold_left Z.add l a = a + sumZ l.
Proof. induction l; simpl; intros; [lia|]. rewrite IHl. lia. Qed.

Lemma lget_app_mid : forall A (l1 l2 : list A) x, lget (l1 ++ x :: l2) (length l1) = Ok x.
Proof. intros. apply lget_ok. rewrite nth_error_app2 by lia. now rewrite Nat.sub_diag. Qed.

Lemma mapM_pairs : forall (f : Z -> item -> Z) items pt pi taken, length pt = length pi ->
  (length items <= length taken)%nat ->
  mapM (fun i => let* t := lget (pt ++ taken) i in let* it := lget (pi ++ items) i in Ok (f t it))
    (seq (length pt) (length items)) = Ok (map (fun p => f (fst p) (snd p)) (combine taken items)).
Proof.
  induction items as [|it items IH]; intros pt pi taken E L; simpl.
  - now destruct taken.
  - destruct taken as [|t taken]; simpl in L; [lia|].
    rewrite lget_app_mid. cbn [bind]. rewrite E, lget_app_mid, <- E. cbn [bind].
    specialize (IH (pt ++ [t]) (pi ++ [it]) taken). rewrite !app_length in IH. simpl in IH.
    rewrite <- !app_assoc in IH. simpl in IH.
    replace (S (length pt)) with (length pt + 1)%nat by lia. rewrite IH by lia. reflexivity.
Qed.

Lemma weighted_spec : forall f m s, (length (m_items m) <= length (k_taken s))%nat ->
  weighted f m s = Ok (total f (m_items m) (k_taken s)).
Proof.
  intros f m s L. unfold weighted, nb_items, total.
  pose proof (mapM_pairs (fun t it => t * f it) (m_items m) [] [] (k_taken s) eq_refl L) as E.
  cbn [app length] in E. rewrite E. simpl. now rewrite fold_left_add.
Qed.

Lemma evaluate_value_spec : forall m s, (length (m_items m) <= length (k_taken s))%nat ->
  let v := total it_value (m_items m) (k_taken s) in
  let w := total it_weight (m_items m) (k_taken s) in
  evaluate_value m s = Ok (v, mkSol (Some v) (Some w) (k_taken s)).
Proof.
  intros m s L. unfold evaluate_value. rewrite !weighted_spec by assumption. simpl.
  rewrite weighted_spec by assumption. reflexivity.
Qed.

Lemma evaluate_fresh : forall m s, (length (m_items m) <= length (k_taken s))%nat ->
  k_value s = None \/ m_force m = true ->
  let v := total it_value (m_items m) (k_taken s) in
  let w := total it_weight (m_items m) (k_taken s) in
  evaluate m s = Ok ((v, Z.max 0 (w - m_cap m)), mkSol (Some v) (Some w) (k_taken s)).
Proof.
  intros m s L H. unfold evaluate.
  destruct (k_value s) as [v0|] eqn:E.
  - destruct H as [H|H]; [discriminate|]. rewrite H, evaluate_value_spec by assumption. reflexivity.
  - rewrite evaluate_value_spec by assumption. reflexivity.
Qed.

Lemma coherent_eta : forall m s, coherent m s ->
  s = mkSol (Some (total it_value (m_items m) (k_taken s))) (Some (total it_weight (m_items m) (k_taken s))) (k_taken s).
Proof. intros m [v w t] [_ [E1 E2]]. simpl in *. congruence. Qed.

Lemma evaluate_coherent : forall m s, coherent m s ->
  evaluate m s = Ok ((total it_value (m_items m) (k_taken s),
                      Z.max 0 (total it_weight (m_items m) (k_taken s) - m_cap m)), s).
Proof.
  intros m s C. destruct (m_force m) eqn:F.
  - rewrite evaluate_fresh; auto. 2:{ destruct C as [C _]. lia. } cbv zeta.
    now rewrite <- (coherent_eta m s C).
  - unfold evaluate. destruct C as [_ [-> E]]. rewrite F. simpl. unfold weight_violation. rewrite E. reflexivity.
Qed.

(** * Sums over selections *)

Lemma total_lset : forall f items sel i x it, length sel = length items ->
  nth_error sel i = Some x -> nth_error items i = Some it -> forall y,
  total f items (lset sel i y) = total f items sel + (y - x) * f it.
Proof.
  unfold total. induction items as [|a items IH]; intros sel i x it L X I y.
  - destruct i; discriminate.
  - destruct sel as [|z sel]; [discriminate|]. destruct i; simpl in *.
    + injection X as ->. injection I as ->. lia.
    + rewrite (IH sel i x it) by (auto; lia). lia.
Qed.

Lemma total_zero : forall f items n, total f items (repeat 0 n) = 0.
Proof.
  unfold total. induction items as [|a items IH]; intros n; [destruct n; reflexivity|].
  destruct n; simpl; auto.
Qed.

Lemma selection_repeat : forall items, selection items (repeat 0 (length items)).
Proof.
  intros. split; [apply repeat_length|]. apply Forall_forall. intros x I. apply repeat_spec in I. auto.
Qed.

Lemma total_app : forall f i1 i2 s1 s2, length s1 = length i1 ->
  total f (i1 ++ i2) (s1 ++ s2) = total f i1 s1 + total f i2 s2.
Proof. intros. unfold total. rewrite combine_app by assumption. now rewrite map_app, sumZ_app. Qed.

(** A selection of items is a selection of any rearrangement of them. *)
Lemma selection_perm : forall items items' sel, Permutation items items' -> selection items sel ->
  exists sel', selection items' sel' /\ forall f, total f items' sel' = total f items sel.
Proof.
  intros items items' sel P [L F].
  assert (E : map snd (combine sel items) = items) by (apply combine_map_snd; auto).
  rewrite <- E in P. apply Permutation_sym in P.
  destruct (Permutation_map_inv snd _ P) as [l [E1 E2]].
  exists (map fst l). split; [split|].
  - rewrite E1. now rewrite !map_length.
  - apply Forall_forall. intros x I. rewrite Forall_forall in F. apply F.
    rewrite <- (combine_map_fst sel items L).
    eapply Permutation_in; [|exact I]. apply Permutation_map. now apply Permutation_sym.
  - intros f. unfold total. rewrite E1.
    replace (combine (map fst l) (map snd l)) with l.
    + apply sumZ_map_perm. now apply Permutation_sym.
    + clear. induction l as [|[a b] l IH]; simpl; congruence.
Qed.

(** * The label dictionary *)

Lemma index_to_pos_get : forall m i it, labelled m -> nth_error (m_items m) i = Some it ->
  dget (index_to_pos m) i = Some i.
Proof.
  intros m i it L N.
  assert (G : forall items k d, (forall j x, nth_error items j = Some x -> it_index x = (k + j)%nat) ->
            forall j, dget (fold_left (fun d e => dset d (it_index (snd e)) (fst e))
                       (combine (seq k (length items)) items) d) j =
                      if (Nat.leb k j && Nat.ltb j (k + length items))%bool then Some j else dget d j).
  { induction items as [|x items IH]; intros k d H j; simpl.
    - destruct (Nat.leb_spec k j), (Nat.ltb_spec j (k + 0)); simpl; auto. lia.
    - rewrite IH.
      + pose proof (H 0%nat x eq_refl) as E. rewrite Nat.add_0_r in E. rewrite E.
        rewrite dget_dset. cbn [pyeqb PyEq_nat].
        destruct (Nat.leb_spec (S k) j), (Nat.ltb_spec j (S k + length items)), (Nat.leb_spec k j),
          (Nat.ltb_spec j (k + S (length items))), (Nat.eqb_spec k j); simpl; auto; try lia; subst; auto.
      + intros j0 y E. rewrite (H (S j0) y E). lia. }
  unfold index_to_pos, nb_items. rewrite (G (m_items m) 0%nat []).
  - assert (i < length (m_items m))%nat by (apply nth_error_Some; congruence).
    destruct (Nat.leb_spec 0 i), (Nat.ltb_spec i (0 + length (m_items m))); simpl; auto; lia.
  - intros j x E. now rewrite (L j x E).
Qed.

Lemma label_nth : forall m it, labelled m -> In it (m_items m) ->
  nth_error (m_items m) (it_index it) = Some it.
Proof.
  intros m it L I. apply In_nth_error in I. destruct I as [i E]. now rewrite (L i it E).
Qed.

Lemma labels_nodup : forall m, labelled m -> NoDup (map it_index (m_items m)).
Proof.
  intros m L. replace (map it_index (m_items m)) with (seq 0 (length (m_items m))); [apply seq_NoDup|].
  apply nth_error_ext. intros i. destruct (nth_error (map it_index (m_items m)) i) as [x|] eqn:E.
  - rewrite nth_error_map in E. destruct (nth_error (m_items m) i) as [it|] eqn:N; [|discriminate].
    injection E as <-. rewrite (L i it N). rewrite nth_error_seq; auto. apply nth_error_Some. congruence.
  - apply nth_error_None in E. rewrite map_length in E. apply nth_error_None. now rewrite seq_length.
Qed.

Lemma ith_item_spec : forall m sq i it, labelled m -> incl sq (m_items m) -> nth_error sq i = Some it ->
  ith_item m (map it_index sq) i = Ok it.
Proof.
  intros m sq i it L I N. unfold ith_item, lget at 1. rewrite nth_error_map, N. cbn [option_map bind].
  pose proof (label_nth m it L (I _ (nth_error_In _ _ N))) as E.
  unfold dgetE. rewrite (index_to_pos_get m _ it L E). cbn [bind]. unfold lget. now rewrite E.
Qed.

(** * The table *)

(** [v] is the best value of a selection of [l] of weight at most [c]. *)
Definition best (l : list item) (c v : Z) : Prop :=
  (exists sel, selection l sel /\ total it_weight l sel <= c /\ total it_value l sel = v) /\
  (forall sel, selection l sel -> total it_weight l sel <= c -> total it_value l sel <= v).

Lemma best_nil : forall c, 0 <= c -> best [] c 0.
Proof.
  intros c H. split.
  - exists []. repeat split; auto.
  - intros sel [L _] _. destruct sel; [|discriminate]. simpl. reflexivity.
Qed.

Lemma selection_snoc : forall l it sel, selection (l ++ [it]) sel ->
  exists sel' b, sel = sel' ++ [b] /\ selection l sel' /\ (b = 0 \/ b = 1).
Proof.
  intros l it sel [L F]. rewrite app_length in L. simpl in L.
  destruct (exists_last (l := sel)) as [sel' [b ->]]; [intros ->; simpl in L; lia|].
  exists sel', b. rewrite app_length in L. simpl in L. apply Forall_app in F. destruct F as [F1 F2].
  inversion F2; subst. split; auto. split; [split; auto; lia|auto].
Qed.

Lemma total_snoc : forall f l it sel b, length sel = length l ->
  total f (l ++ [it]) (sel ++ [b]) = total f l sel + b * f it.
Proof. intros. rewrite total_app by assumption. unfold total at 2. simpl. lia. Qed.

Lemma best_skip : forall l it c a, 0 <= it_weight it -> (forall x, In x l -> 0 <= it_weight x) ->
  c < it_weight it -> best l c a -> best (l ++ [it]) c a.
Proof.
  intros l it c a W WL H [[sel [S1 [S2 S3]]] B]. split.
  - exists (sel ++ [0]). destruct S1 as [L F]. rewrite !total_snoc by assumption.
    split; [split; [rewrite !app_length; simpl; lia|apply Forall_app; split; auto]|]. lia.
  - intros sel0 S0 Q. destruct (selection_snoc _ _ _ S0) as [s [b [-> [S4 Bb]]]].
    destruct S4 as [L F]. rewrite total_snoc in * by assumption.
    destruct Bb as [-> | ->].
    + assert (total it_value l s <= a) by (apply B; [split; auto|lia]). lia.
    + exfalso. assert (0 <= total it_weight l s); [|lia].
      unfold total. apply sumZ_map_nonneg. intros [x y] I. simpl.
      pose proof (in_combine_l _ _ _ _ I) as I1. pose proof (in_combine_r _ _ _ _ I) as I2.
      rewrite Forall_forall in F. specialize (F _ I1). specialize (WL _ I2). nia.
Qed.

Lemma best_take : forall l it c a b, it_weight it <= c -> best l c a -> best l (c - it_weight it) b ->
  best (l ++ [it]) c (Z.max a (b + it_value it)).
Proof.
  intros l it c a b H [[sa [A1 [A2 A3]]] A] [[sb [B1 [B2 B3]]] B]. split.
  - destruct (Z.max_spec a (b + it_value it)) as [[M ->]|[M ->]].
    + exists (sb ++ [1]). destruct B1 as [L F]. rewrite !total_snoc by assumption.
      split; [split; [rewrite !app_length; simpl; lia|apply Forall_app; split; auto]|]. lia.
    + exists (sa ++ [0]). destruct A1 as [L F]. rewrite !total_snoc by assumption.
      split; [split; [rewrite !app_length; simpl; lia|apply Forall_app; split; auto]|]. lia.
  - intros sel0 S0 Q. destruct (selection_snoc _ _ _ S0) as [s [x [-> [S4 Bb]]]].
    destruct S4 as [L F]. rewrite total_snoc in * by assumption.
    destruct Bb as [-> | ->].
    + assert (total it_value l s <= a) by (apply A; [split; auto|lia]). lia.
    + assert (total it_value l s <= b) by (apply B; [split; auto|lia]). lia.
Qed.

(** A row of the table for the items [l]. *)
Definition row_ok (cap : Z) (l : list item) (row : list Z) : Prop :=
  length row = (Z.to_nat cap + 1)%nat /\ forall c, 0 <= c <= cap -> exists v, zget row c = Ok v /\ best l c v.

Lemma row0_ok : forall cap, 0 <= cap -> row_ok cap [] (repeat 0 (Z.to_nat cap + 1)).
Proof.
  intros cap H. split; [apply repeat_length|]. intros c C. exists 0. split; [|apply best_nil; lia].
  rewrite zget_pos by lia. apply lget_ok. rewrite nth_error_repeat; auto. lia.
Qed.

Lemma next_row_ok : forall m l it row, 0 <= m_cap m -> 0 <= it_weight it ->
  (forall x, In x l -> 0 <= it_weight x) -> row_ok (m_cap m) l row ->
  exists row', next_row m row it = Ok row' /\ row_ok (m_cap m) (l ++ [it]) row' /\
    forall c, 0 <= c <= m_cap m -> exists a v, zget row c = Ok a /\ zget row' c = Ok v /\
      (v = a \/ (it_weight it <= c /\ exists b, zget row (c - it_weight it) = Ok b /\ v = b + it_value it)).
Proof.
  intros m l it row C W WL [L R].
  set (g := fun c : nat => let c := Z.of_nat c in
       match zget row c, zget row (c - it_weight it) with
       | Ok a, Ok b => if c <? it_weight it then a else Z.max a (b + it_value it)
       | _, _ => match zget row c with Ok a => a | _ => 0 end end).
  assert (E : next_row m row it = Ok (map g (seq 0 (Z.to_nat (m_cap m) + 1)))).
  { unfold next_row. apply mapM_total. intros i I. apply in_seq in I. cbv zeta. unfold g.
    destruct (R (Z.of_nat i)) as [a [Ea _]]; [lia|]. rewrite Ea.
    destruct (Z.ltb_spec (Z.of_nat i) (it_weight it)) as [K|K].
    - destruct (zget row (Z.of_nat i - it_weight it)); reflexivity.
    - destruct (R (Z.of_nat i - it_weight it)) as [b [Eb _]]; [lia|]. rewrite Eb. reflexivity. }
  assert (P : forall c, 0 <= c <= m_cap m -> zget (map g (seq 0 (Z.to_nat (m_cap m) + 1))) c = Ok (g (Z.to_nat c))).
  { intros c H. rewrite zget_pos by lia. apply lget_ok. rewrite nth_error_map, nth_error_seq by lia. reflexivity. }
  eexists. split; [exact E|]. split; [split|].
  - now rewrite map_length, seq_length.
  - intros c H. rewrite (P c H). eexists. split; [reflexivity|]. unfold g. cbv zeta. rewrite Z2Nat.id by lia.
    destruct (R c H) as [a [Ea Ba]]. rewrite Ea.
    destruct (Z.ltb_spec c (it_weight it)) as [K|K].
    + replace (match zget row (c - it_weight it) with Ok _ => a | Err _ => a end) with a
        by (now destruct (zget row (c - it_weight it))). now apply best_skip.
    + destruct (R (c - it_weight it)) as [b [Eb Bb]]; [lia|]. rewrite Eb. now apply best_take.
  - intros c H. destruct (R c H) as [a [Ea Ba]]. exists a, (g (Z.to_nat c)). split; auto. split; auto.
    unfold g. cbv zeta. rewrite Z2Nat.id by lia. rewrite Ea.
    destruct (Z.ltb_spec c (it_weight it)) as [K|K].
    + left. now destruct (zget row (c - it_weight it)).
    + destruct (R (c - it_weight it)) as [b [Eb Bb]]; [lia|]. rewrite Eb.
      destruct (Z.max_spec a (b + it_value it)) as [[M ->]|[M ->]]; [right|left; auto].
      split; auto. exists b. auto.
Qed.

(** The rows computed for the processing sequence [sq]. *)
Definition rows_ok (m : kmodel) (sq : list item) (n : nat) (rows : list (list Z)) : Prop :=
  length rows = S n /\ (n <= length sq)%nat /\
  (forall k row, nth_error rows k = Some row -> row_ok (m_cap m) (firstn k sq) row) /\
  (forall k it row row', nth_error sq k = Some it -> nth_error rows k = Some row -> nth_error rows (S k) = Some row' ->
     forall c, 0 <= c <= m_cap m -> exists a v, zget row c = Ok a /\ zget row' c = Ok v /\
      (v = a \/ (it_weight it <= c /\ exists b, zget row (c - it_weight it) = Ok b /\ v = b + it_value it))).

Definition cur_ok (m : kmodel) (sq : list item) (n cur : nat) : Prop :=
  (cur <= n)%nat /\ forall k it, (cur <= k < n)%nat -> nth_error sq k = Some it -> m_cap m < it_weight it.

Lemma dp_rows : forall m sq n, labelled m -> incl sq (m_items m) -> 0 <= m_cap m ->
  (forall it, In it (m_items m) -> 0 <= it_weight it) -> (n <= length sq)%nat ->
  exists rows cur, foldM (dp_turn m (map it_index sq)) ([repeat 0 (Z.to_nat (m_cap m) + 1)], 0%nat) (seq 0 n) = Ok (rows, cur) /\
    rows_ok m sq n rows /\ cur_ok m sq n cur.
Proof.
  intros m sq n L I C W. induction n as [|n IH]; intros LE.
  - exists [repeat 0 (Z.to_nat (m_cap m) + 1)], 0%nat. split; [reflexivity|]. split.
    + split; [reflexivity|]. split; [lia|]. split.
      * intros k row H. destruct k; [|destruct k; discriminate]. injection H as <-. now apply row0_ok.
      * intros k it row row' _ _ H. destruct k; discriminate.
    + split; [lia|]. intros; lia.
  - destruct IH as [rows [cur [F [[R1 [R2 [R3 R4]]] [C1 C2]]]]]; [lia|].
    rewrite seq_S, foldM_app, F. cbn [bind foldM plus].
    destruct (nth_error sq n) as [it|] eqn:N; [|apply nth_error_None in N; lia].
    destruct (nth_error rows n) as [row|] eqn:E; [|apply nth_error_None in E; lia].
    destruct (next_row_ok m (firstn n sq) it row C) as [row' [E1 [E2 E3]]].
    { apply W, I. eapply nth_error_In; eauto. }
    { intros x Hx. apply W, I. rewrite <- (firstn_skipn n sq). apply in_or_app; auto. }
    { now apply R3. }
    unfold dp_turn. rewrite (ith_item_spec m sq n it L I N). cbn [bind]. unfold lget. rewrite E. cbn [bind].
    rewrite E1. cbn [bind]. eexists. eexists. split; [reflexivity|]. split.
    + split; [rewrite app_length; simpl; lia|]. split; [lia|]. split.
      * intros k r H. destruct (lt_dec k (length rows)).
        -- rewrite nth_error_app1 in H by lia. now apply R3.
        -- rewrite nth_error_app2 in H by lia. destruct (k - length rows)%nat eqn:D; [|destruct n1; discriminate].
           injection H as <-. replace k with (S n) by lia. now rewrite (firstn_snoc _ _ N).
      * intros k it0 r r' H1 H2 H3. destruct (lt_dec (S k) (length rows)).
        -- rewrite nth_error_app1 in H2, H3 by lia. now apply (R4 k).
        -- rewrite nth_error_app2 in H3 by lia. destruct (S k - length rows)%nat eqn:D; [|destruct n1; discriminate].
           injection H3 as <-. replace k with n in * by lia. rewrite nth_error_app1 in H2 by lia.
           rewrite E in H2. injection H2 as <-. rewrite N in H1. injection H1 as <-. exact E3.
    + destruct (Z.leb_spec (it_weight it) (m_cap m)) as [K|K].
      * split; [lia|]. intros; lia.
      * split; [lia|]. intros k it0 HK H. destruct (Nat.eq_dec k n) as [-> |NE].
        -- rewrite N in H. now injection H as <-.
        -- apply (C2 k); auto. lia.
Qed.

(** The backward pass: what was chosen among the first [k] items of [sq]. *)
Definition chosen_ok (m : kmodel) (taken : list Z) (l : list item) : Prop :=
  length taken = length (m_items m) /\ Forall (fun x => x = 0 \/ x = 1) taken /\
  (forall it, In it l -> nth_error taken (it_index it) = Some 0).

Lemma dp_back_ok : forall m sq n rows, labelled m -> incl sq (m_items m) -> NoDup sq -> 0 <= m_cap m ->
  (forall it, In it (m_items m) -> 0 <= it_weight it) -> rows_ok m sq n rows ->
  forall k c taken v w row x, (k <= n)%nat -> 0 <= c <= m_cap m -> nth_error rows k = Some row -> zget row c = Ok x ->
  chosen_ok m taken (firstn k sq) ->
  exists taken' v' w', dp_back m (map it_index sq) rows k c (taken, v, w) = Ok (taken', v', w') /\
    chosen_ok m taken' [] /\ v' - v = x /\ 0 <= w' - w <= c /\
    total it_value (m_items m) taken' = total it_value (m_items m) taken + (v' - v) /\
    total it_weight (m_items m) taken' = total it_weight (m_items m) taken + (w' - w) /\
    (forall i, ~ In i (map it_index (firstn k sq)) -> nth_error taken' i = nth_error taken i).
Proof.
  intros m sq n rows L I ND C W [R1 [R2 [R3 R4]]]. induction k as [|k IH]; intros c taken v w row x LE HC N X CH.
  - exists taken, v, w. cbn [dp_back].
    destruct (R3 0%nat row N) as [_ R]. destruct (R c HC) as [z [Z1 Z2]]. rewrite X in Z1. injection Z1 as <-.
    assert (x = 0).
    { destruct Z2 as [[sel [[SL _] [_ S]]] _]. destruct sel; [|discriminate]. now rewrite <- S. }
    subst x. split; [reflexivity|]. split; [exact CH|]. repeat split; auto; lia.
  - cbn [dp_back]. unfold lget at 1. rewrite N. cbn [bind]. rewrite X. cbn [bind].
    destruct (nth_error rows k) as [rl|] eqn:NL; [|apply nth_error_None in NL; lia].
    unfold lget at 1. rewrite NL. cbn [bind].
    destruct (nth_error sq k) as [it|] eqn:NS; [|apply nth_error_None in NS; lia].
    destruct (R4 k it rl row NS NL N c HC) as [a [x' [A [X' B]]]].
    rewrite X in X'. injection X' as <-. rewrite A. cbn [bind].
    rewrite (firstn_snoc _ _ NS) in CH |- *.
    destruct CH as [T1 [T2 T3]].
    destruct (Z.eqb_spec x a) as [-> |NE].
    + destruct (IH c taken v w rl a) as [t' [v' [w' [E1 [E2 [E3 [E4 [E5 [E6 E7]]]]]]]]]; auto; [lia| |].
      { split; auto. split; auto. intros it0 H. apply T3. apply in_or_app; auto. }
      exists t', v', w'. repeat (split; [assumption|]). intros i H. apply E7.
      intros H2. apply H. rewrite map_app. apply in_or_app; auto.
    + destruct B as [B|[B [b [B1 B2]]]]; [congruence|].
      rewrite (ith_item_spec m sq k it L I NS). cbn [bind].
      assert (IT : In it (m_items m)) by (apply I; eapply nth_error_In; eauto).
      pose proof (label_nth m it L IT) as LN.
      assert (T0 : nth_error taken (it_index it) = Some 0) by (apply T3, in_or_app; simpl; auto).
      assert (LT : (it_index it < length taken)%nat) by (apply nth_error_Some; congruence).
      unfold lput. destruct (Nat.ltb_spec (it_index it) (length taken)); [|lia]. cbn [bind].
      pose proof (W it IT) as WI.
      assert (NI : ~ In it (firstn k sq)).
      { intros H0. rewrite <- (firstn_skipn (S k) sq) in ND. rewrite (firstn_snoc _ _ NS) in ND.
        rewrite <- app_assoc in ND. apply NoDup_remove_2 in ND. apply ND. apply in_or_app; auto. }
      destruct (IH (c - it_weight it) (lset taken (it_index it) 1) (v + it_value it) (w + it_weight it) rl b)
        as [t' [v' [w' [E1 [E2 [E3 [E4 [E5 [E6 E7]]]]]]]]]; auto; [lia|lia| |].
      { split; [now rewrite lset_length|]. split.
        - apply Forall_forall. intros y Hy. apply In_lset in Hy. destruct Hy as [-> |Hy]; auto.
          rewrite Forall_forall in T2. auto.
        - intros it0 H0. rewrite lset_nth_error.
          destruct (Nat.eqb_spec (it_index it) (it_index it0)) as [EQ|EQ]; [|apply T3, in_or_app; auto].
          exfalso. apply NI. replace it with it0; auto.
          assert (I0 : In it0 (m_items m)).
          { apply I. rewrite <- (firstn_skipn k sq). apply in_or_app; auto. }
          pose proof (label_nth m it0 L I0). congruence. }
      exists t', v', w'. split; [exact E1|]. split; [exact E2|]. split; [lia|]. split; [lia|].
      rewrite E5, E6. rewrite !(total_lset _ _ _ _ 0 it) by (auto; lia). split; [lia|]. split; [lia|].
      intros i H0. rewrite E7.
      * rewrite lset_nth_error. destruct (Nat.eqb_spec (it_index it) i); auto. subst i.
        exfalso. apply H0. rewrite map_app. apply in_or_app. simpl. auto.
      * intros H2. apply H0. rewrite map_app. apply in_or_app; auto.
Qed.

(** Items too heavy for the knapsack do not change the best value. *)
Lemma best_heavy : forall l c v, (forall it, In it l -> 0 <= it_weight it) ->
  forall l', (forall it, In it l' -> c < it_weight it /\ 0 <= it_weight it) -> best l c v -> best (l ++ l') c v.
Proof.
  intros l c v W l'. revert l W. induction l' as [|x l' IH]; intros l W H B.
  - now rewrite app_nil_r.
  - replace (l ++ x :: l') with ((l ++ [x]) ++ l') by (rewrite <- app_assoc; reflexivity).
    assert (c < it_weight x /\ 0 <= it_weight x) by (apply H; simpl; auto).
    apply IH.
    + intros it I. apply in_app_iff in I. destruct I as [I|[<-|[]]]; auto. lia.
    + intros it I. apply H. simpl; auto.
    + apply best_skip; auto; lia.
Qed.

(** The solver on a processing sequence [sq], [n] turns. *)
Lemma dp_on : forall m sq n, labelled m -> incl sq (m_items m) -> NoDup sq -> 0 <= m_cap m ->
  (forall it, In it (m_items m) -> 0 <= it_weight it) -> (n <= length sq)%nat ->
  exists taken v w,
    (let* rc := foldM (dp_turn m (map it_index sq)) ([repeat 0 (Z.to_nat (m_cap m) + 1)], 0%nat) (seq 0 n) in
     dp_back m (map it_index sq) (fst rc) (snd rc) (m_cap m) (repeat 0 (nb_items m), 0, 0)) = Ok (taken, v, w) /\
    selection (m_items m) taken /\ v = total it_value (m_items m) taken /\ w = total it_weight (m_items m) taken /\
    w <= m_cap m /\ best (firstn n sq) (m_cap m) v /\
    (forall i, ~ In i (map it_index (firstn n sq)) -> (i < length (m_items m))%nat -> nth_error taken i = Some 0).
Proof.
  intros m sq n L I ND C W LE.
  destruct (dp_rows m sq n L I C W LE) as [rows [cur [E [R [C1 C2]]]]]. rewrite E. cbn [bind fst snd].
  pose proof R as [R1 [R2 [R3 R4]]].
  destruct (nth_error rows cur) as [row|] eqn:N; [|apply nth_error_None in N; lia].
  destruct (R3 cur row N) as [_ RK]. destruct (RK (m_cap m)) as [x [X B]]; [lia|].
  assert (INC : forall k, incl (firstn k sq) (m_items m)).
  { intros k y H. apply I. rewrite <- (firstn_skipn k sq). apply in_or_app; auto. }
  destruct (dp_back_ok m sq n rows L I ND C W R cur (m_cap m) (repeat 0 (nb_items m)) 0 0 row x)
    as [t [v [w [E1 [[E2 [E2' _]] [E3 [E4 [E5 [E6 E7]]]]]]]]]; auto; try lia.
  { destruct (selection_repeat (m_items m)) as [S1 S2]. split; auto. split; auto.
    intros it H. apply nth_error_repeat. apply nth_error_Some. rewrite (label_nth m it L); [discriminate|].
    now apply (INC cur). }
  exists t, v, w. unfold nb_items in *. split; [exact E1|]. split; [split; auto|].
  rewrite total_zero in E5, E6. split; [lia|]. split; [lia|]. split; [lia|]. split.
  - replace (firstn n sq) with (firstn cur sq ++ skipn cur (firstn n sq)).
    + replace v with x by lia. apply best_heavy; auto.
      * intros it H. apply W. now apply (INC cur).
      * intros it H. split.
        -- apply In_nth_error in H. destruct H as [j H]. rewrite nth_error_skipn in H.
           assert (cur + j < n)%nat.
           { assert (cur + j < length (firstn n sq))%nat by (apply nth_error_Some; congruence).
             rewrite firstn_length in H0. lia. }
           apply (C2 (cur + j)%nat); [lia|]. 
           rewrite <- (firstn_skipn n sq). rewrite nth_error_app1; auto. apply nth_error_Some. congruence.
        -- apply W, (INC n). rewrite <- (firstn_skipn cur (firstn n sq)). apply in_or_app; auto.
    + rewrite <- (firstn_skipn cur (firstn n sq)) at 2. f_equal. rewrite firstn_firstn. now rewrite Nat.min_l by lia.
  - intros i H Hi. rewrite E7.
    + now apply nth_error_repeat.
    + intros H0. apply H. apply in_map_iff in H0. destruct H0 as [it [<- H0]]. apply in_map.
      rewrite <- (firstn_skipn cur (firstn n sq)). rewrite firstn_firstn, Nat.min_l by lia. apply in_or_app; auto.
Qed.
