(** Lemmas on the stores and the history of large neighbourhood search. *)
From Coq Require Import List Bool Arith ZArith Lia.
From Verif Require Import Py PyList StoreModel StoreProps LnsModel LnsSpec.
Import ListNotations.

Section P.
Context {Sol : Type} {ES : PyEq Sol}.
Notation store := (@store Sol).

Lemma beats_better : forall mx a b, better mx a b = true <-> beats mx a b.
Proof. intros [] a b; cbn; apply Z.ltb_lt. Qed.
Lemma beats_trans : forall mx a b c, beats mx a b -> beats mx b c -> beats mx a c.
Proof. intros [] a b c; cbn; lia. Qed.
Lemma beats_irr : forall mx a, ~ beats mx a a.
Proof. intros [] a; cbn; lia. Qed.
Lemma beats_cases : forall mx a b, beats mx a b \/ a = b \/ beats mx b a.
Proof. intros [] a b; cbn; lia. Qed.

(** * Stores *)
Lemma known_true : forall (s : Sol) (l : list (Sol * Z)), known s l = true <-> In s (map fst l).
Proof.
  intros s l. unfold known. rewrite existsb_exists, in_map_iff. split.
  - intros (p & I & E). destruct (pyeqb_spec s (fst p)); [|discriminate]. exists p. auto.
  - intros (p & E & I). exists p. split; auto. rewrite E. apply pyeqb_refl.
Qed.

Lemma known_dmem : forall mx (st : store) s, ready mx st -> dmem (smap st) s = known s (fits st).
Proof.
  intros mx st s R. destruct (dmem (smap st) s) eqn:E; symmetry.
  - apply known_true, (r_keys _ _ R), dmem_true, E.
  - destruct (known s (fits st)) eqn:K; auto. apply known_true, (r_keys _ _ R), dmem_true in K. congruence.
Qed.

Lemma keys_dset : forall (m : list (Sol * Z)) s f x, In x (dkeys (dset m s f)) <-> x = s \/ In x (dkeys m).
Proof.
  intros m s f x. rewrite <- !dmem_true. unfold dmem. destruct (py_dec x s) as [->|N].
  - rewrite dget_dset_same. split; auto.
  - rewrite dget_dset_other by auto. split; [auto|]. intros [E|E]; [congruence|exact E].
Qed.

Lemma add_ready : forall mx (st : store) s f, ready mx st -> exists st', add st s f = Ok st' /\ ready mx st' /\
  fits st' = if known s (fits st) then fits st else fits st ++ [(s, f)].
Proof.
  intros mx st s f R. pose proof (known_dmem mx st s R) as K. destruct (r_bounds _ _ R) as (lo & hi & Lo & Hi).
  unfold add. rewrite Lo, Hi, K.
  assert (Ks : forall x, In x (dkeys (if negb (known s (fits st)) then dset (smap st) s f else smap st)) <->
    In x (map fst (if negb (known s (fits st)) then fits st ++ [(s, f)] else fits st))).
  { intros x. destruct (known s (fits st)); cbn [negb]; [apply (r_keys _ _ R)|].
    rewrite keys_dset, map_app, in_app_iff, (r_keys _ _ R). cbn. intuition congruence. }
  assert (Fs : (if negb (known s (fits st)) then fits st ++ [(s, f)] else fits st) =
    if known s (fits st) then fits st else fits st ++ [(s, f)]) by (destruct (known s (fits st)); reflexivity).
  assert (Ne : (if negb (known s (fits st)) then fits st ++ [(s, f)] else fits st) <> []).
  { destruct (known s (fits st)); cbn [negb]; [apply (r_some _ _ R)|]. destruct (fits st); discriminate. }
  destruct (if maximize st then _ else _); [destruct (_ && _)|]; (eexists; split; [reflexivity|]; split; [|exact Fs]);
    constructor; cbn [maximize fits smap fmin fmax]; auto; try apply (r_sense _ _ R); eauto.
Qed.

Lemma add_mut_ready : forall mx (st : store) s f, ready mx st -> exists st', add_mut st s f = (st', true) /\ ready mx st' /\
  fits st' = if known s (fits st) then fits st else fits st ++ [(s, f)].
Proof. intros mx st s f R. destruct (add_ready mx st s f R) as (st' & E & R' & F). exists st'. unfold add_mut. rewrite E. auto. Qed.

Lemma add_all_ready : forall mx l (st : store), ready mx st -> exists st', add_all st l = (st', true) /\ ready mx st' /\
  fits st' = merge (fits st) l.
Proof.
  intros mx l. induction l as [|[s f] l IH]; intros st R; cbn [add_all merge].
  - exists st. auto.
  - destruct (add_mut_ready mx st s f R) as (st1 & E & R1 & F1). rewrite E.
    destruct (IH st1 R1) as (st2 & E2 & R2 & F2). exists st2. rewrite F1 in F2. auto.
Qed.

Lemma nth_error_known : forall (l : list (Sol * Z)) i s f, nth_error l i = Some (s, f) -> known s l = true.
Proof. intros l i s f H. apply known_true, in_map_iff. exists (s, f). split; auto. eapply nth_error_In; eauto. Qed.

Lemma add_self_ready : forall mx fuel i (st : store), ready mx st -> length (fits st) - i < fuel ->
  exists st', add_self fuel i st = Ok (st', true) /\ ready mx st' /\ fits st' = fits st.
Proof.
  intros mx fuel. induction fuel as [|fuel IH]; intros i st R L; [lia|]. cbn [add_self].
  destruct (nth_error (fits st) i) as [[s f]|] eqn:E; [|exists st; auto].
  destruct (add_mut_ready mx st s f R) as (st1 & A & R1 & F1). rewrite A.
  rewrite (nth_error_known _ _ _ _ E) in F1. assert (Li : i < length (fits st)) by (apply nth_error_Some; congruence).
  destruct (IH (S i) st1 R1) as (st2 & E2 & R2 & F2); [rewrite F1; lia|]. exists st2. rewrite F2. auto.
Qed.

Lemma add_itself_ready : forall mx (st : store), ready mx st ->
  exists st', add_itself st = Ok (st', true) /\ ready mx st' /\ fits st' = fits st.
Proof. intros mx st R. apply add_self_ready; auto. lia. Qed.

(** The loop over a list that grows always ends. *)
Definition news (st : store) (i : nat) : nat := length (filter (fun p => negb (dmem (smap st) (fst p))) (skipn i (fits st))).
Lemma skipn_nth : forall A (l : list A) i x, nth_error l i = Some x -> skipn i l = x :: skipn (S i) l.
Proof. intros A l. induction l as [|y l IH]; intros [|i] x H; cbn in *; try discriminate; [congruence|]. apply IH in H. exact H. Qed.
Lemma filter_le : forall A (f g : A -> bool) l, (forall x, f x = true -> g x = true) -> length (filter f l) <= length (filter g l).
Proof.
  intros A f g l H. induction l as [|x l IH]; cbn; auto. destruct (f x) eqn:E; [rewrite (H x E); cbn; lia|]. destruct (g x); cbn; lia.
Qed.
Lemma filter_len : forall A (f : A -> bool) l, length (filter f l) <= length l.
Proof. intros A f l. induction l as [|x l IH]; cbn; auto. destruct (f x); cbn; lia. Qed.

Lemma add_mut_fits : forall (st : store) s f, 
  (dmem (smap st) s = true -> fits (fst (add_mut st s f)) = fits st /\ smap (fst (add_mut st s f)) = smap st) /\
  (dmem (smap st) s = false -> fits (fst (add_mut st s f)) = fits st ++ [(s, f)] /\ smap (fst (add_mut st s f)) = dset (smap st) s f).
Proof.
  intros st s f. unfold add_mut, add. destruct (dmem (smap st) s) eqn:D; cbn [negb]; (split; [|]); try discriminate; intros _;
    destruct (fmin st); cbn [fst fits smap]; auto; destruct (fmax st); cbn [fst fits smap]; auto;
    destruct (if maximize st then _ else _); cbn [fst fits smap]; auto; destruct (_ && _); cbn [fst fits smap]; auto.
Qed.

Lemma add_self_total : forall fuel i (st : store), length (fits st) - i + news st i < fuel -> exists sb, add_self fuel i st = Ok sb.
Proof.
  intros fuel. induction fuel as [|fuel IH]; intros i st L; [lia|]. cbn [add_self].
  destruct (nth_error (fits st) i) as [[s f]|] eqn:E; [|eauto].
  assert (Li : i < length (fits st)) by (apply nth_error_Some; congruence).
  pose proof (skipn_nth _ _ _ _ E) as Sk. unfold news in L. rewrite Sk in L. cbn [filter fst] in L.
  destruct (add_mut_fits st s f) as [A1 A2]. destruct (add_mut st s f) as [st' b] eqn:A. cbn [fst] in A1, A2.
  destruct b; [|eauto]. apply IH. unfold news. destruct (dmem (smap st) s) eqn:D.
  - destruct (A1 eq_refl) as [F M]. rewrite F, M. cbn [negb] in L. lia.
  - destruct (A2 eq_refl) as [F M]. rewrite F, M. cbn [negb length] in L.
    rewrite app_length, skipn_app. cbn [length]. rewrite filter_app, app_length.
    replace (S i - length (fits st)) with 0 by lia. change (skipn 0 [(s, f)]) with [(s, f)]. cbn [filter].
    assert (Q : dmem (dset (smap st) s f) s = true) by (apply dmem_true, keys_dset; auto).
    cbn [fst]. rewrite Q. cbn [negb length].
    pose proof (filter_le _ (fun p : Sol * Z => negb (dmem (dset (smap st) s f) (fst p))) (fun p => negb (dmem (smap st) (fst p))) (skipn (S i) (fits st))) as Fl.
    assert (length (filter (fun p : Sol * Z => negb (dmem (dset (smap st) s f) (fst p))) (skipn (S i) (fits st))) <=
            length (filter (fun p : Sol * Z => negb (dmem (smap st) (fst p))) (skipn (S i) (fits st)))); [|lia].
    apply Fl. intros x H. destruct (dmem (smap st) (fst x)) eqn:Dx; auto.
    assert (T : dmem (dset (smap st) s f) (fst x) = true) by (apply dmem_true, keys_dset; right; apply dmem_true, Dx).
    rewrite T in H. discriminate.
Qed.
Lemma add_itself_total : forall st : store, exists sb, add_itself st = Ok sb.
Proof.
  intros st. apply add_self_total. unfold news. pose proof (filter_len _ (fun p : Sol * Z => negb (dmem (smap st) (fst p))) (skipn 0 (fits st))).
  cbn [skipn] in *. lia.
Qed.

Lemma init_ready : forall (l : list (Sol * Z)) b mx limit nb, l <> [] -> (limit = true -> 0 < nb) -> 
  exists st, init l b mx limit nb = Ok st /\ ready mx st /\ fits st = l.
Proof.
  intros l b mx limit nb Ne Nb.
  assert (Loop : forall l m h n, let '(m', h', n') := fold_left init_turn l (m, h, n) in
    (forall s, In s (dkeys m') <-> In s (dkeys m) \/ In s (map fst l)) /\ length h' >= length h /\ n' = n + (length h' - length h) /\
    (length h < length h' \/ forall p, In p l -> dmem m (fst p) = true)).
  { clear. induction l as [|p l IH]; intros m h n; cbn [fold_left].
    - split; [cbn; tauto|]. split; auto. split; [lia|]. right. intros p [].
    - unfold init_turn at 2. destruct (dmem m (fst p)) eqn:D.
      + specialize (IH m h n). destruct (fold_left init_turn l (m, h, n)) as [[m' h'] n']. destruct IH as (I1 & I2 & I3 & I4).
        split; [|split; [auto|split; [auto|]]].
        * intros s. rewrite I1. cbn. apply dmem_true in D. intuition congruence.
        * destruct I4 as [I4|I4]; [auto|right]. intros q [<-|Iq]; auto.
      + specialize (IH (dset m (fst p) (snd p)) (hpush h (snd p)) (S n)).
        destruct (fold_left init_turn l (dset m (fst p) (snd p), hpush h (snd p), S n)) as [[m' h'] n']. destruct IH as (I1 & I2 & I3 & I4).
        rewrite hpush_len in *. split; [|split; [lia|split; [lia|left; lia]]].
        intros s. rewrite I1, keys_dset. cbn. intuition congruence. }
  unfold init. specialize (Loop l [] [] 0). destruct (fold_left init_turn l ([], [], 0)) as [[m h] n] eqn:E.
  destruct Loop as (K & _ & N & Q). cbn [length] in N, Q. rewrite Nat.sub_0_r in N. cbn in N.
  assert (Hn : h <> []).
  { intros ->. destruct Q as [Q|Q]; [cbn in Q; lia|]. destruct l as [|p l]; [congruence|]. specialize (Q p (or_introl eq_refl)). discriminate. }
  set (hn := if (nb <=? n) && limit then _ else _).
  assert (Hh : fst hn <> []).
  { unfold hn. destruct ((nb <=? n) && limit) eqn:B; [|exact Hn]. apply andb_prop in B as [B1 B2]. apply Nat.leb_le in B1. specialize (Nb B2).
    cbn [fst]. destruct mx; intros Z0; apply (f_equal (@length Z)) in Z0; cbn [length] in Z0; [rewrite skipn_length in Z0; lia|].
    rewrite firstn_length in Z0. destruct h; [congruence|]. cbn [length] in *. lia. }
  destruct hn as [h1 n1]. cbn [fst] in Hh. destruct h1 as [|x r]; [congruence|].
  destruct (pick_total _ _ (better mx) l Ne) as [p P].
  destruct b as [s|]; [|rewrite P; cbn [bind]]; (eexists; split; [reflexivity|]; split; [|reflexivity]);
    constructor; cbn [maximize fits smap fmin fmax]; eauto; intros s0; rewrite K; cbn; tauto.
Qed.

(** * History *)
Definition hist (base : list (Sol * Z)) (ls : list (list (Sol * Z))) : list (Sol * Z) := base ++ concat ls.
(** [o] is the best fitness of the history. *)
Definition top (mx : bool) (h : list (Sol * Z)) (o : Z) : Prop :=
  (exists q, In q h /\ snd q = o) /\ forall q, In q h -> ~ beats mx (snd q) o.

Lemma top_unique : forall mx h a b, top mx h a -> top mx h b -> a = b.
Proof.
  intros mx h a b ((p & Ip & <-) & A) ((q & Iq & <-) & B). destruct (beats_cases mx (snd p) (snd q)) as [H|[H|H]]; auto.
  - destruct (B _ Ip H).
  - destruct (A _ Iq H).
Qed.
Lemma top_beaten : forall mx h o f, top mx h o -> (beats mx f o <-> forall q, In q h -> beats mx f (snd q)).
Proof.
  intros mx h o f ((p & Ip & <-) & A). split; [|intros H; apply H, Ip].
  intros B q Iq. specialize (A q Iq). destruct (beats_cases mx (snd q) (snd p)) as [H|[H|H]]; [tauto|congruence|].
  eapply beats_trans; eauto.
Qed.
Lemma top_app : forall mx h l o f, top mx h o -> top mx l f -> top mx (h ++ l) (if better mx f o then f else o).
Proof.
  intros mx h l o f Th Tl. pose proof Th as ((p & Ip & Ep) & A). pose proof Tl as ((q & Iq & Eq) & B).
  destruct (better mx f o) eqn:E.
  - apply beats_better in E. split.
    + exists q. split; auto. apply in_or_app. auto.
    + intros x Ix. apply in_app_or in Ix as [Ix|Ix]; [|apply B, Ix]. intros H.
      apply (A x Ix). eapply beats_trans; eauto.
  - assert (N : ~ beats mx f o) by (intros H; apply beats_better in H; congruence). split.
    + exists p. split; auto. apply in_or_app. auto.
    + intros x Ix. apply in_app_or in Ix as [Ix|Ix]; [apply A, Ix|]. intros H. specialize (B x Ix).
      destruct (beats_cases mx (snd x) f) as [K|[K|K]]; [tauto|congruence|]. apply N. eapply beats_trans; eauto.
Qed.
Lemma hist_snoc : forall base ls l, hist base (ls ++ [l]) = hist base ls ++ l.
Proof. intros base ls l. unfold hist. rewrite concat_app. cbn. now rewrite app_nil_r, app_assoc. Qed.
Lemma in_hist : forall base ls q, In q (hist base ls) <-> In q base \/ exists j l, nth_error ls j = Some l /\ In q l.
Proof.
  intros base ls q. unfold hist. rewrite in_app_iff, in_concat. split; (intros [H|H]; [auto|right]).
  - destruct H as (l & Il & Iq). apply In_nth_error in Il as [j Ej]. eauto.
  - destruct H as (j & l & Ej & Iq). exists l. split; auto. eapply nth_error_In; eauto.
Qed.

Lemma record_app : forall mx base (ls k : list (list (Sol * Z))) i, i < length ls -> record mx base (ls ++ k) i <-> record mx base ls i.
Proof.
  intros mx base ls k i L. unfold record. split; intros (l & p & E & Ip & B1 & B2); exists l, p.
  - rewrite nth_error_app1 in E by lia. split; auto. split; auto. split; auto.
    intros j l' q Lj Ej. apply (B2 j l' q Lj). rewrite nth_error_app1 by lia. exact Ej.
  - rewrite nth_error_app1 by lia. split; auto. split; auto. split; auto.
    intros j l' q Lj Ej. rewrite nth_error_app1 in Ej by lia. exact (B2 j l' q Lj Ej).
Qed.
Lemma record_snoc : forall mx base (ls : list (list (Sol * Z))) l o, top mx (hist base ls) o ->
  (record mx base (ls ++ [l]) (length ls) <-> exists p, In p l /\ beats mx (snd p) o).
Proof.
  intros mx base ls l o T. unfold record. split.
  - intros (l0 & p & E & Ip & B1 & B2). rewrite nth_error_app2, Nat.sub_diag in E by lia. injection E as <-.
    exists p. split; auto. apply (top_beaten _ _ _ _ T). intros q Iq. apply in_hist in Iq as [Iq|(j & l' & Ej & Iq)]; [auto|].
    assert (j < length ls) by (apply nth_error_Some; congruence). apply (B2 j l' q); auto. rewrite nth_error_app1 by lia. exact Ej.
  - intros (p & Ip & B). exists l, p. rewrite nth_error_app2, Nat.sub_diag by lia. split; auto. split; auto.
    pose proof (proj1 (top_beaten _ _ _ _ T) B) as Q. split.
    + intros q Iq. apply Q, in_hist. auto.
    + intros j l' q Lj Ej Iq. rewrite nth_error_app1 in Ej by lia. apply Q, in_hist. eauto.
Qed.
Lemma quiet_record : forall mx base (ls : list (list (Sol * Z))) l, record mx base (ls ++ [l]) (length ls) -> quiet mx base (ls ++ [l]) 0.
Proof.
  intros mx base ls l R. unfold quiet. rewrite app_length. cbn [length]. split; [lia|]. split; [intros; lia|].
  right. replace (length ls + 1 - 0 - 1) with (length ls) by lia. exact R.
Qed.
Lemma quiet_more : forall mx base (ls : list (list (Sol * Z))) l q, ~ record mx base (ls ++ [l]) (length ls) -> quiet mx base ls q -> quiet mx base (ls ++ [l]) (S q).
Proof.
  intros mx base ls l q R (L & N & O). unfold quiet. rewrite app_length. cbn [length]. split; [lia|]. split.
  - intros i Li. destruct (Nat.eq_dec i (length ls)) as [->|Ne]; auto. rewrite record_app by lia. apply N. lia.
  - destruct O as [->|O]; [left; lia|]. destruct (Nat.eq_dec q (length ls)) as [->|Ne]; [left; lia|]. right.
    replace (length ls + 1 - S q - 1) with (length ls - q - 1) by lia. apply record_app; [lia|exact O].
Qed.
Lemma quiet_unique : forall mx base (ls : list (list (Sol * Z))) a b, quiet mx base ls a -> quiet mx base ls b -> a = b.
Proof.
  assert (W : forall mx base (ls : list (list (Sol * Z))) a b, quiet mx base ls a -> quiet mx base ls b -> a <= b).
  { intros mx base ls a b (La & Na & Oa) (Lb & Nb & Ob). destruct (le_lt_dec a b) as [|Lt]; auto. exfalso.
    destruct Ob as [->|Ob]; [lia|]. apply (Na (length ls - b - 1)); [lia|exact Ob]. }
  intros. apply Nat.le_antisymm; eapply W; eauto.
Qed.

(** * Merging *)
Lemma merge_keeps : forall k l, exists r, merge l k = l ++ r /\ incl r k.
Proof.
  intros k. induction k as [|p k IH]; intros l; cbn [merge].
  - exists []. rewrite app_nil_r. split; auto. intros x [].
  - destruct (known (fst p) l) eqn:E.
    + destruct (IH l) as (r & H & I). exists r. split; auto. intros x Ix. right. auto.
    + destruct (IH (l ++ [p])) as (r & H & I). exists (p :: r). rewrite H, <- app_assoc. split; auto.
      intros x [<-|Ix]; [now left|right; auto].
Qed.
Lemma merge_keys : forall k l s, In s (map fst (merge l k)) <-> In s (map fst l) \/ In s (map fst k).
Proof.
  intros k. induction k as [|p k IH]; intros l s; cbn [merge map]; [cbn; tauto|]. rewrite IH. destruct (known (fst p) l) eqn:E.
  - apply known_true in E. cbn. intuition congruence.
  - rewrite map_app, in_app_iff. cbn. tauto.
Qed.

Lemma search_keeps : forall find it (st : store) ls st', search find it st ls st' ->
  exists r, fits st' = fits st ++ r /\ incl r (concat ls) /\
    forall s, In s (map fst (fits st')) <-> In s (map fst (fits st)) \/ In s (map fst (concat ls)).
Proof.
  intros find it st ls st' H. induction H as [it st|it st st1 ls st' F H (r & E & I & K)].
  - exists []. rewrite app_nil_r. split; auto. split; [intros x []|]. cbn. tauto.
  - destruct (merge_keeps (find it (Some st)) (fits st)) as (r1 & E1 & I1). exists (r1 ++ r). rewrite E, F, E1, app_assoc. split; auto. split.
    + intros x Ix. cbn [concat]. apply in_or_app. apply in_app_or in Ix as [Ix|Ix]; auto.
    + intros s. rewrite <- E1, <- F, <- E. rewrite K, F, merge_keys. cbn [concat]. rewrite map_app, in_app_iff. tauto.
Qed.
End P.
