(** Facts on the enumeration of combinations and on the novelty table of IwModel.v. *)
From Coq Require Import List Bool Arith ZArith Lia Sorted.
From Verif Require Import Py PyList PyMore IwModel IwSpec.
Import ListNotations.
Open Scope nat_scope.

(** Lexicographic enumeration: increasing lists of length [k], from [lo] on, whose i-th element is at most
    [lim + i]. *)
Fixpoint combs (k lo lim : nat) : list (list nat) :=
  match k with
  | 0 => [[]]
  | S k' => flat_map (fun c => map (cons c) (combs k' (S c) (S lim))) (seq lo (S lim - lo))
  end.

(** The successor of a combination, from the left. *)
Fixpoint bump (lim : nat) (cv : list nat) : option (list nat) :=
  match cv with
  | [] => None
  | c :: rest =>
      match bump (S lim) rest with
      | Some rest' => Some (c :: rest')
      | None => if c <? lim then Some (seq (S c) (length cv)) else None
      end
  end.

Lemma bump_length : forall cv lim cv', bump lim cv = Some cv' -> length cv' = length cv.
Proof.
  induction cv as [|c cv IH]; intros lim cv' E; [discriminate|]. cbn [bump] in E.
  destruct (bump (S lim) cv) as [r|] eqn:B.
  - injection E as <-. cbn. f_equal. eauto.
  - destruct (c <? lim); [|discriminate]. injection E as <-. cbn [length]. now rewrite seq_length.
Qed.

Lemma bump_none : forall cv lim, bump lim cv = None -> forall m, m < length cv -> lim + m <= nth m cv 0.
Proof.
  induction cv as [|c cv IH]; intros lim E m L; [cbn in L; lia|]. cbn [bump] in E.
  destruct (bump (S lim) cv) eqn:B; [discriminate|].
  destruct (Nat.ltb_spec c lim); [discriminate|]. destruct m; cbn [nth]; [lia|].
  cbn in L. specialize (IH _ B m ltac:(lia)). lia.
Qed.

Lemma bump_some : forall cv lim cv', bump lim cv = Some cv' -> exists i, i < length cv /\ nth i cv 0 < lim + i /\
  (forall m, i < m -> m < length cv -> lim + m <= nth m cv 0) /\
  cv' = firstn i cv ++ seq (S (nth i cv 0)) (length cv - i).
Proof.
  induction cv as [|c cv IH]; intros lim cv' E; [discriminate|]. cbn [bump] in E.
  destruct (bump (S lim) cv) as [r|] eqn:B.
  - injection E as <-. destruct (IH _ _ B) as (i & L & N & H & ->). exists (S i). cbn [length nth firstn app].
    split; [lia|]. split; [lia|]. split; [|reflexivity].
    intros [|m] L1 L2; [lia|]. cbn [nth]. specialize (H m ltac:(lia) ltac:(lia)). lia.
  - destruct (Nat.ltb_spec c lim) as [Lc|Lc]; [|discriminate]. injection E as <-.
    exists 0. cbn [nth firstn app]. split; [cbn; lia|]. split; [lia|]. split.
    + intros [|m] L1 L2; [lia|]. cbn [nth]. cbn in L2. pose proof (bump_none _ _ B m ltac:(lia)). lia.
    + now rewrite Nat.sub_0_r.
Qed.

(** *** the model's successor *)
Lemma rightmost_some : forall n k cv i j, rightmost n k cv i = Some j ->
  j < i /\ nth j cv 0 < n - k + j /\ forall m, j < m -> m < i -> n - k + m <= nth m cv 0.
Proof.
  induction i as [|i IH]; intros j E; [discriminate|]. cbn [rightmost] in E.
  destruct (Nat.ltb_spec (nth i cv 0) (n - k + i)) as [L|L].
  - injection E as <-. split; [lia|]. split; [lia|]. intros; lia.
  - destruct (IH _ E) as (H1 & H2 & H3). split; [lia|]. split; [lia|].
    intros m M1 M2. destruct (Nat.eq_dec m i) as [ -> |]; [lia|]. apply H3; lia.
Qed.

Lemma rightmost_none : forall n k cv i, rightmost n k cv i = None -> forall m, m < i -> n - k + m <= nth m cv 0.
Proof.
  induction i as [|i IH]; intros E m L; [lia|]. cbn [rightmost] in E.
  destruct (Nat.ltb_spec (nth i cv 0) (n - k + i)); [discriminate|].
  destruct (Nat.eq_dec m i) as [ -> |]; [lia|]. apply IH; auto; lia.
Qed.

Lemma bump_at_spec : forall k cv i, length cv = k -> i < k ->
  bump_at k cv i = firstn i cv ++ seq (S (nth i cv 0)) (k - i).
Proof.
  intros k cv i Lk Li. unfold bump_at. set (c := nth i cv 0).
  assert (G : forall m, m <= k - S i ->
    let r := fold_left (fun v j => lset v j (S (nth (j - 1) v 0))) (seq (S i) m) (lset cv i (S c)) in
    length r = k /\ forall j, nth j r 0 = if j <? i then nth j cv 0 else if j <=? i + m then (if j <? k then S c + (j - i) else 0) else nth j cv 0).
  { induction m as [|m IH]; intros Lm r.
    - unfold r. cbn [seq fold_left]. split; [now rewrite lset_length|]. intros j. rewrite lset_nth.
      destruct (Nat.ltb_spec j i), (Nat.leb_spec j (i + 0)), (Nat.eqb_spec i j); try lia;
        try (destruct (Nat.ltb_spec i (length cv)), (Nat.ltb_spec j k); try lia; auto).
    - destruct IH as [IH1 IH2]; [lia|]. unfold r. rewrite seq_S, fold_left_app. cbn [fold_left].
      set (q := fold_left _ (seq (S i) m) _) in *. split; [now rewrite lset_length|].
      intros j. rewrite lset_nth, IH1.
      replace (S i + m - 1) with (i + m) by lia. rewrite (IH2 (i + m)).
      destruct (Nat.ltb_spec (i + m) i); [lia|]. destruct (Nat.leb_spec (i + m) (i + m)); [|lia].
      destruct (Nat.ltb_spec (i + m) k); [|lia].
      rewrite IH2.
      destruct (Nat.eqb_spec (S i + m) j) as [Ej|Ej].
      + destruct (Nat.ltb_spec (S i + m) k); [|lia]. destruct (Nat.ltb_spec j i); [lia|].
        destruct (Nat.leb_spec j (i + S m)); [|lia]. destruct (Nat.ltb_spec j k); lia.
      + destruct (Nat.ltb_spec j i), (Nat.leb_spec j (i + m)), (Nat.leb_spec j (i + S m)); try lia. }
  destruct (G (k - S i) (le_n _)) as [G1 G2]. apply nth_ext with (d := 0) (d' := 0).
  - rewrite G1, app_length, firstn_length, seq_length. lia.
  - intros j Lj. rewrite G1 in Lj. rewrite G2.
    destruct (Nat.ltb_spec j i).
    + rewrite app_nth1 by (rewrite firstn_length; lia).
      rewrite <- (firstn_skipn i cv) at 1. rewrite app_nth1 by (rewrite firstn_length; lia). reflexivity.
    + rewrite app_nth2 by (rewrite firstn_length; lia). rewrite firstn_length.
      replace (Nat.min i (length cv)) with i by lia. rewrite seq_nth by lia.
      destruct (Nat.leb_spec j (i + (k - S i))); [|lia]. destruct (Nat.ltb_spec j k); lia.
Qed.

Lemma bump_eq : forall n k cv, length cv = k ->
  match rightmost n k cv k with None => None | Some i => Some (bump_at k cv i) end = bump (n - k) cv.
Proof.
  intros n k cv Lk. destruct (rightmost n k cv k) as [i|] eqn:R; destruct (bump (n - k) cv) as [cv'|] eqn:B; auto.
  - apply rightmost_some in R as (R1 & R2 & R3). apply bump_some in B as (j & B1 & B2 & B3 & ->).
    rewrite bump_at_spec by auto. assert (i = j).
    { destruct (Nat.lt_trichotomy i j) as [L|[E|L]]; auto.
      - specialize (R3 j L ltac:(lia)). lia.
      - specialize (B3 i L ltac:(lia)). lia. }
    subst j. now rewrite Lk.
  - apply rightmost_some in R as (R1 & R2 & R3). pose proof (bump_none _ _ B i ltac:(lia)). lia.
  - apply bump_some in B as (j & B1 & B2 & _). pose proof (rightmost_none _ _ _ _ R j ltac:(lia)). lia.
Qed.

(** *** the enumeration *)
Inductive steps (lim : nat) : list nat -> list (list nat) -> Prop :=
| st_last : forall cv, bump lim cv = None -> steps lim cv []
| st_next : forall cv cv' L, bump lim cv = Some cv' -> steps lim cv' L -> steps lim cv (cv' :: L).

Lemma steps_cons : forall lim rest L, steps (S lim) rest L -> forall c L2 k, length rest = k ->
  (if c <? lim then exists L3, L2 = seq (S c) (S k) :: L3 /\ steps lim (seq (S c) (S k)) L3 else L2 = []) ->
  steps lim (c :: rest) (map (cons c) L ++ L2).
Proof.
  induction 1 as [rest B|rest rest' L B S IH]; intros c L2 k Lk H.
  - cbn [map app]. destruct (c <? lim) eqn:C.
    + destruct H as (L3 & -> & H). apply st_next; auto. cbn [bump]. rewrite B, C. cbn [length]. now rewrite Lk.
    + subst L2. apply st_last. cbn [bump]. now rewrite B, C.
  - cbn [map app]. apply st_next; [cbn [bump]; now rewrite B|]. apply (IH _ _ k); auto.
    rewrite (bump_length _ _ _ B). auto.
Qed.

Lemma combs_steps : forall k lo lim, lo <= lim -> exists L, steps lim (seq lo k) L /\ combs k lo lim = seq lo k :: L.
Proof.
  induction k as [|k IH]; intros lo lim H.
  - exists []. split; [constructor; reflexivity|reflexivity].
  - remember (lim - lo) as d eqn:Ed. revert lo H Ed. induction d as [|d IHd]; intros lo H Ed.
    + assert (lo = lim) by lia. subst lo. destruct (IH (S lim) (S lim) (le_n _)) as (L & S1 & S2).
      exists (map (cons lim) L ++ []). split.
      * cbn [seq]. apply (steps_cons _ _ _ S1 _ _ k); [now rewrite seq_length|]. now rewrite Nat.ltb_irrefl.
      * cbn [combs]. replace (S lim - lim) with 1 by lia. cbn [seq flat_map]. rewrite S2. reflexivity.
    + destruct (IH (S lo) (S lim)) as (L & S1 & S2); [lia|].
      destruct (IHd (S lo)) as (L2 & T1 & T2); [lia|lia|].
      exists (map (cons lo) L ++ seq (S lo) (S k) :: L2). split.
      * cbn [seq]. apply (steps_cons _ _ _ S1 _ _ k); [now rewrite seq_length|].
        destruct (Nat.ltb_spec lo lim); [|lia]. exists L2. auto.
      * cbn [combs] in *. replace (S lim - lo) with (S (S lim - S lo)) by lia. cbn [seq flat_map]. rewrite S2.
        rewrite T2. reflexivity.
Qed.

Lemma gen_loop_steps : forall n k cv L, steps (n - k) cv L -> length cv = k -> forall fuel, length L < fuel ->
  gen_loop fuel n k cv = Ok L.
Proof.
  intros n k cv L S. induction S as [cv B|cv cv' L B S IH]; intros Lk fuel F; destruct fuel as [|fuel]; try lia;
    cbn [gen_loop]; pose proof (bump_eq n k cv Lk) as Q; rewrite B in Q; destruct (rightmost n k cv k) as [i|]; try discriminate; auto.
  injection Q as Q. rewrite Q. rewrite IH; auto.
  - now rewrite (bump_length _ _ _ B).
  - cbn in F. lia.
Qed.

Lemma combs_count : forall k lo lim, length (combs k lo lim) <= (lim + k + 1) ^ k.
Proof.
  induction k as [|k IH]; intros lo lim; [cbn; lia|]. cbn [combs Nat.pow].
  assert (G : forall l, length (flat_map (fun c => map (cons c) (combs k (S c) (S lim))) l) <= length l * (lim + S k + 1) ^ k).
  { induction l as [|c l IHl]; [cbn; lia|]. cbn [flat_map length]. rewrite app_length, map_length.
    specialize (IH (S c) (S lim)). replace (S lim + k + 1) with (lim + S k + 1) in IH by lia. lia. }
  specialize (G (seq lo (S lim - lo))). rewrite seq_length in G.
  eapply Nat.le_trans; [exact G|]. apply Nat.mul_le_mono_r. lia.
Qed.

Lemma generate_ok : forall k n, k <= n -> generate_tuples k n = Ok (combs k 0 (n - k)).
Proof.
  intros k n H. unfold generate_tuples. destruct (combs_steps k 0 (n - k) ltac:(lia)) as (L & S1 & S2).
  rewrite (gen_loop_steps n k (seq 0 k) L S1).
  - cbn [bind]. now rewrite S2.
  - apply seq_length.
  - pose proof (combs_count k 0 (n - k)) as C. rewrite S2 in C. cbn [length] in C.
    replace (n - k + k + 1) with (n + 1) in C by lia. lia.
Qed.

(** *** which lists are enumerated *)
Lemma sorted_count : forall l lo hi, StronglySorted lt l -> Forall (fun x => lo <= x < hi) l -> length l <= hi - lo.
Proof.
  intros l lo hi So F. rewrite <- (seq_length (hi - lo) lo). apply NoDup_incl_length.
  - clear F. induction So as [|x l So IH F]; constructor; auto. intros I. apply (proj1 (Forall_forall _ _) F) in I. lia.
  - intros x I. apply (proj1 (Forall_forall _ _) F) in I. apply in_seq. lia.
Qed.

Lemma combs_In : forall k lo lim cv, In cv (combs k lo lim) <->
  length cv = k /\ StronglySorted lt cv /\ Forall (fun x => lo <= x < lim + k) cv.
Proof.
  induction k as [|k IH]; intros lo lim cv.
  - cbn [combs]. split.
    + intros [ <- |[]]. split; [reflexivity|]. split; constructor.
    + intros (L & _). destruct cv; [now left|discriminate].
  - cbn [combs]. rewrite in_flat_map. split.
    + intros (c & Ic & I). apply in_seq in Ic. apply in_map_iff in I as (r & <- & I).
      apply IH in I as (L & So & F). split; [cbn; lia|]. split.
      * constructor; auto. eapply Forall_impl; [|exact F]. cbn. intros; lia.
      * constructor; [lia|]. eapply Forall_impl; [|exact F]. cbn. intros; lia.
    + intros (L & So & F). destruct cv as [|c r]; [discriminate|]. cbn in L.
      inversion So as [|? ? S' Fc]; subst. inversion F as [|? ? Hc F']; subst.
      assert (F2 : Forall (fun x => S c <= x < lim + S k) r).
      { apply Forall_forall. intros x I. apply (proj1 (Forall_forall _ _) F') in I as I1.
        apply (proj1 (Forall_forall _ _) Fc) in I. lia. }
      pose proof (sorted_count _ _ _ S' F2) as C.
      exists c. split; [apply in_seq; lia|]. apply in_map. apply IH. split; [lia|]. split; auto.
      eapply Forall_impl; [|exact F2]. cbn. intros; lia.
Qed.

Lemma combs_NoDup : forall k lo lim, NoDup (combs k lo lim).
Proof.
  induction k as [|k IH]; intros lo lim; [constructor; [intros []|constructor]|]. cbn [combs].
  assert (G : forall l, NoDup l -> NoDup (flat_map (fun c => map (cons c) (combs k (S c) (S lim))) l)).
  { induction l as [|c l IHl]; intros N; [constructor|]. inversion N; subst. cbn [flat_map].
    apply NoDup_app_disjoint; auto.
    - apply FinFun.Injective_map_NoDup; auto. intros a b E. congruence.
    - intros x I1 I2. apply in_map_iff in I1 as (r & <- & _). apply in_flat_map in I2 as (d & Id & I2).
      apply in_map_iff in I2 as (r' & E & _). injection E as <- _. contradiction. }
  apply G. apply seq_NoDup.
Qed.

(** *** novelty *)
Section Novelty.
Context {V : Type} {EV : PyEq V}.
Notation tuple := (@tuple V).

Lemma tuple_eqb_spec : forall a b : tuple, reflect (a = b) (tuple_eqb a b).
Proof.
  induction a as [|x a IH]; intros [|y b]; cbn [tuple_eqb]; try (constructor; congruence).
  destruct (pyeqb_spec x y) as [ -> |N]; cbn [andb]; [|constructor; congruence].
  destruct (IH b) as [ -> |N]; constructor; congruence.
Qed.

Lemma tuple_mem : forall t (s : list tuple), existsb (tuple_eqb t) s = true <-> In t s.
Proof.
  intros t s. rewrite existsb_exists. split.
  - intros (u & I & E). destruct (tuple_eqb_spec t u); [now subst|discriminate].
  - intros I. exists t. split; auto. destruct (tuple_eqb_spec t t); congruence.
Qed.

Definition tup (f : list V) (cv : list nat) : res tuple := mapM (fun i => let* v := lget f i in Ok (i, v)) cv.

Lemma tup_total : forall f cv, Forall (fun i => i < length f) cv -> exists t, tup f cv = Ok t.
Proof.
  intros f cv F. unfold tup. induction F as [|i cv L F IH]; [exists []; reflexivity|].
  cbn [mapM]. destruct (lget_lt f L) as (v & E). rewrite E. cbn [bind]. destruct IH as (t & ->). cbn [bind]. eauto.
Qed.

Lemma tup_same : forall f f' cv cv' t, tup f cv = Ok t -> tup f' cv' = Ok t ->
  cv' = cv /\ agree f f' cv /\ Forall (fun i => i < length f') cv.
Proof.
  intros f f'. unfold tup. induction cv as [|i cv IH]; intros cv' t E E'.
  - cbn [mapM] in E. injection E as <-. destruct cv' as [|j cv']; [split; [reflexivity|split; [intros ? []|constructor]]|].
    cbn [mapM] in E'. apply bind_ok in E' as (x & _ & E'). apply bind_ok in E' as (y & _ & E'). discriminate.
  - cbn [mapM] in E. apply bind_ok in E as (x & Ex & E). apply bind_ok in Ex as (v & Ev & Ex). injection Ex as <-.
    apply bind_ok in E as (y & Ey & E). injection E as <-.
    destruct cv' as [|j cv']; [discriminate|]. cbn [mapM] in E'.
    apply bind_ok in E' as (x' & Ex' & E'). apply bind_ok in Ex' as (v' & Ev' & Ex'). injection Ex' as <-.
    apply bind_ok in E' as (y' & Ey' & E'). injection E' as <- <- <-.
    destruct (IH _ _ Ey Ey') as (-> & H1 & H2). apply lget_ok in Ev. apply lget_ok in Ev'. split; [reflexivity|]. split.
    + intros k [ <- |I]; [congruence|auto].
    + constructor; auto. apply nth_error_Some. congruence.
Qed.

Lemma tup_agree : forall f f' cv t, tup f cv = Ok t -> agree f f' cv -> tup f' cv = Ok t.
Proof.
  intros f f'. unfold tup. induction cv as [|i cv IH]; intros t E H; [exact E|].
  cbn [mapM] in E |- *. apply bind_ok in E as (x & Ex & E). apply bind_ok in Ex as (v & Ev & Ex). injection Ex as <-.
  apply bind_ok in E as (y & Ey & E). injection E as <-. apply lget_ok in Ev.
  rewrite (H i) in Ev by now left. apply lget_ok in Ev. rewrite Ev. cbn [bind].
  rewrite (IH y Ey); [reflexivity|]. intros k I. apply H. now right.
Qed.

Lemma tuples_fold : forall f k cvs nov set, Forall (fun cv => Forall (fun i => i < length f) cv) cvs ->
  exists nov' set', foldM (novelty_tuple f k) (nov, set) cvs = Ok (nov', set') /\
    (forall t, In t set' <-> In t set \/ exists cv, In cv cvs /\ tup f cv = Ok t) /\
    ((nov' = Nat.min nov k /\ exists cv, In cv cvs /\ forall t, tup f cv = Ok t -> ~ In t set) \/
     (nov' = nov /\ forall cv, In cv cvs -> exists t, tup f cv = Ok t /\ In t set)).
Proof.
  intros f k. induction cvs as [|cv cvs IH]; intros nov set F.
  - exists nov, set. split; [reflexivity|]. split.
    + intros t. split; [now left|]. intros [H|(cv & [] & _)]; auto.
    + right. split; [reflexivity|]. intros cv [].
  - inversion F as [|? ? Fc F']; subst. destruct (tup_total f cv Fc) as (t & Et).
    cbn [foldM]. unfold novelty_tuple at 1. unfold tup in Et. rewrite Et. cbn [bind]. unfold insert.
    change (tup f cv = Ok t) in Et.
    destruct (existsb (tuple_eqb t) set) eqn:M.
    + apply tuple_mem in M. cbn [bind].
      destruct (IH nov set F') as (nov' & set' & E & H1 & H2). exists nov', set'. split; [exact E|]. split.
      * intros u. rewrite H1. split.
        -- intros [H|(d & Id & Ed)]; [now left|]. right. exists d. split; [now right|auto].
        -- intros [H|(d & [ <- |Id] & Ed)]; [now left| |right; eauto].
           rewrite Et in Ed. injection Ed as <-. now left.
      * destruct H2 as [[H2 (d & Id & Ed)]|[H2 H3]].
        -- left. split; auto. exists d. split; [now right|auto].
        -- right. split; auto. intros d [ <- |Id]; eauto.
    + assert (NM : ~ In t set) by (intros I; apply tuple_mem in I; congruence). cbn [bind].
      destruct (IH (Nat.min nov k) (t :: set) F') as (nov' & set' & E & H1 & H2). exists nov', set'. split; [exact E|]. split.
      * intros u. rewrite H1. cbn [In]. split.
        -- intros [[ <- |H]|(d & Id & Ed)]; [right; exists cv; split; [now left|auto]|now left|].
           right. exists d. split; [now right|auto].
        -- intros [H|(d & [ <- |Id] & Ed)]; [left; now right| |right; eauto].
           rewrite Et in Ed. injection Ed as <-. left. now left.
      * left. split.
        -- destruct H2 as [[H2 _]|[H2 _]]; lia.
        -- exists cv. split; [now left|]. intros u Eu. congruence.
Qed.

(** The tables hold the combinations of values of the vectors evaluated so far. *)
Definition table (width : nat) (sets : list (list tuple)) (seen : list (list V)) : Prop :=
  length sets = width /\
  forall k, 1 <= k <= width -> forall t, In t (nth (k - 1) sets []) <->
    exists f cv, In f seen /\ choice k (length f) cv /\ tup f cv = Ok t.

Lemma table_start : forall width, table width (repeat [] width) [].
Proof.
  intros width. split; [apply repeat_length|]. intros k H t. rewrite nth_repeat. split; [intros []|].
  intros (f & _ & [] & _).
Qed.

Lemma combs_choice : forall k n cv, k <= n -> In cv (combs k 0 (n - k)) <-> choice k n cv.
Proof.
  intros k n cv H. rewrite combs_In. unfold choice. replace (n - k + k) with n by lia.
  split; intros (H1 & H2 & H3); (split; [exact H1|]); (split; [exact H2|]); (eapply Forall_impl; [|exact H3]); cbn; intros; lia.
Qed.

Lemma choice_le : forall k n cv, choice k n cv -> k <= n.
Proof.
  intros k n cv (H1 & H2 & H3). rewrite <- H1. replace n with (n - 0) by lia. apply sorted_count; auto.
  eapply Forall_impl; [|exact H3]. cbn. intros; lia.
Qed.

Definition fresh_in (k : nat) (f : list V) (set : list tuple) : Prop :=
  exists cv, choice k (length f) cv /\ forall t, tup f cv = Ok t -> ~ In t set.

Lemma novelty_raw : forall width sets f, length sets = width -> exists nov sets',
  novelty width sets f = Ok (nov, sets') /\ length sets' = width /\
  (forall k, 1 <= k <= width -> forall t, In t (nth (k - 1) sets' []) <->
     In t (nth (k - 1) sets []) \/ exists cv, choice k (length f) cv /\ tup f cv = Ok t) /\
  ((nov = S (length f) /\ forall k, 1 <= k <= width -> ~ fresh_in k f (nth (k - 1) sets [])) \/
   (1 <= nov <= width /\ fresh_in nov f (nth (nov - 1) sets []) /\
    forall k, 1 <= k < nov -> ~ fresh_in k f (nth (k - 1) sets []))).
Proof.
  intros width sets f Lw. set (m := Nat.min width (length f)).
  set (P := fun (l0 : list nat) (st : nat * list (list tuple)) =>
    length (snd st) = width /\
    (forall k, 1 <= k <= length l0 -> forall t, In t (nth (k - 1) (snd st) []) <->
       In t (nth (k - 1) sets []) \/ exists cv, choice k (length f) cv /\ tup f cv = Ok t) /\
    (forall k, length l0 < k -> nth (k - 1) (snd st) [] = nth (k - 1) sets []) /\
    ((fst st = S (length f) /\ forall k, 1 <= k <= length l0 -> ~ fresh_in k f (nth (k - 1) sets [])) \/
     (1 <= fst st <= length l0 /\ fresh_in (fst st) f (nth (fst st - 1) sets []) /\
      forall k, 1 <= k < fst st -> ~ fresh_in k f (nth (k - 1) sets [])))).
  destruct (@foldM_total _ _ (novelty_size f) P (seq 1 m) (S (length f), sets)) as ((nov & sets') & E & H1 & H2 & H3 & H4).
  - unfold P. cbn [fst snd length]. split; [exact Lw|]. split; [intros; lia|]. split; [reflexivity|]. left. split; [reflexivity|]. intros; lia.
  - intros l0 k l1 (nov & cur) El (P1 & P2 & P3 & P4). cbn [fst snd] in *.
    destruct (@seq_split _ _ _ _ _ El) as [Ek Ll]. assert (k = S (length l0)) by lia. clear Ek. subst k.
    set (j := length l0) in *. assert (Jm : S j <= width /\ S j <= length f) by lia.
    unfold novelty_size.
    destruct (lget_lt cur (i := S j - 1)) as (set & Es); [lia|].
    rewrite Es. cbn [bind]. rewrite generate_ok by lia. cbn [bind].
    destruct (tuples_fold f (S j) (combs (S j) 0 (length f - S j)) nov set) as (nov' & set' & E & T1 & T2).
    { apply Forall_forall. intros cv I. apply combs_choice in I; [apply I|lia]. }
    rewrite E. cbn [bind].
    assert (Lp : lput cur (S j - 1) set' = Ok (lset cur (S j - 1) set')) by (apply lput_ok; split; [lia|reflexivity]).
    rewrite Lp. cbn [bind]. eexists. split; [reflexivity|].
    assert (HSet : set = nth j sets []).
    { apply lget_ok in Es. replace (S j - 1) with j in Es by lia.
      pose proof (P3 (S j) ltac:(lia)) as Q. replace (S j - 1) with j in Q by lia. rewrite <- Q. symmetry. now apply nth_error_nth. }
    unfold P. cbn [fst snd]. rewrite app_length. cbn [length]. fold j. replace (j + 1) with (S j) by lia.
    replace (S j - 1) with j in * by lia.
    split; [now rewrite lset_length|]. split; [|split].
    + intros k Hk t. rewrite lset_nth. destruct (Nat.eqb_spec j (k - 1)) as [Ej|Nj].
      * assert (k = S j) by lia. subst k. destruct (Nat.ltb_spec j (length cur)); [|lia]. rewrite T1, HSet.
        replace (S j - 1) with j by lia. split; intros [Hu|(cv & Hu & Ht)]; auto; right; exists cv; (split; [|exact Ht]);
          apply (combs_choice (S j) (length f)); auto; lia.
      * apply P2. lia.
    + intros k Hk. rewrite lset_nth. destruct (Nat.eqb_spec j (k - 1)) as [Ej|Nj]; [lia|]. apply P3. lia.
    + destruct T2 as [[En (cv & Icv & Fc)]|[En Old]].
      * assert (Fr : fresh_in (S j) f (nth (S j - 1) sets [])).
        { replace (S j - 1) with j by lia. exists cv. rewrite <- HSet. split; [apply combs_choice in Icv; [exact Icv|lia]|exact Fc]. }
        destruct P4 as [[N1 N2]|(N1 & N2 & N3)].
        -- right. assert (nov' = S j) by lia. subst nov'. rewrite H. split; [lia|]. split; [exact Fr|]. intros k Hk. apply N2. lia.
        -- right. assert (nov' = nov) by lia. rewrite H. split; [lia|]. auto.
      * destruct P4 as [[N1 N2]|(N1 & N2 & N3)].
        -- left. split; [lia|]. intros k Hk. destruct (Nat.eq_dec k (S j)) as [ -> |]; [|apply N2; lia].
           replace (S j - 1) with j by lia. intros (cv & C1 & C2). rewrite <- HSet in C2.
           destruct (Old cv) as (t & Et & It); [apply combs_choice; auto; lia|]. exact (C2 t Et It).
        -- right. rewrite En. split; [lia|]. auto.
  - cbn [fst snd] in *. rewrite seq_length in *. exists nov, sets'. split; [exact E|]. split; [exact H1|]. split.
    + intros k Hk t. destruct (le_lt_dec k (length f)) as [L|L].
      * apply H2. unfold m. lia.
      * rewrite H3 by (unfold m; lia). split; [now left|]. intros [H|(cv & C & _)]; auto. apply choice_le in C. lia.
    + destruct H4 as [[N1 N2]|(N1 & N2 & N3)].
      * left. split; auto. intros k Hk. destruct (le_lt_dec k (length f)) as [L|L]; [apply N2; unfold m; lia|].
        intros (cv & C & _). apply choice_le in C. lia.
      * right. split; [unfold m in *; lia|]. auto.
Qed.

Lemma fresh_table : forall width sets seen f k, table width sets seen -> 1 <= k <= width ->
  (fresh_in k f (nth (k - 1) sets []) <-> fresh k f seen).
Proof.
  intros width sets seen f k (_ & T) Hk. split; intros (cv & C & H); exists cv; (split; [exact C|]).
  - intros f' If Ag. destruct (tup_total f cv (proj2 (proj2 C))) as (t & Et). apply (H t Et). apply T; auto.
    pose proof (tup_agree _ _ _ _ Et Ag) as Et'. exists f', cv. split; [exact If|]. split; [|exact Et'].
    destruct (tup_same _ _ _ _ _ Et Et') as (_ & _ & F). split; [apply C|]. split; [apply C|exact F].
  - intros t Et It. apply T in It as (f' & cv' & If & _ & Et'); auto.
    destruct (tup_same _ _ _ _ _ Et Et') as (_ & Ag & _). exact (H f' If Ag).
Qed.

Lemma novelty_ok : forall width sets seen f, table width sets seen -> exists nov sets',
  novelty width sets f = Ok (nov, sets') /\ table width sets' (f :: seen) /\ is_novelty width f seen nov.
Proof.
  intros width sets seen f T. destruct (novelty_raw width sets f (proj1 T)) as (nov & sets' & E & L & H1 & H2).
  exists nov, sets'. split; [exact E|]. split.
  - split; [exact L|]. intros k Hk t. rewrite H1 by auto. rewrite (proj2 T k Hk). split.
    + intros [(f' & cv & If & X)|(cv & X)]; [exists f', cv; split; [now right|exact X]|exists f, cv; split; [now left|exact X]].
    + intros (f' & cv & [ <- |If] & X); [right; eauto|left; eauto].
  - destruct H2 as [[N1 N2]|(N1 & N2 & N3)]; [left|right].
    + split; auto. intros k Hk. rewrite <- (fresh_table _ _ _ f k T Hk). auto.
    + split; auto. split.
      * apply (fresh_table _ _ _ f nov T N1). exact N2.
      * intros k Hk. rewrite <- (fresh_table _ _ _ f k T ltac:(lia)). auto.
Qed.
End Novelty.
