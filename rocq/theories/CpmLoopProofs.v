(** Proofs about run_sgs_time_loop. *)
From Coq Require Import String.
From Coq Require Import List Bool Arith ZArith Lia Permutation.
From Verif Require Import Py PyList PyMore SgsModel CpmModel CpmSpec CpmProofs CpmSgsProofs CpmTotalProofs.
Import ListNotations.

(** * The default order *)

Lemma before_cons : forall x l a b, stands_before l a b -> stands_before (x :: l) a b.
Proof. intros x l a b [l1 [l2 [-> H]]]. exists (x :: l1), l2. auto. Qed.

Lemma before_sinsert : forall le x l a b, stands_before l a b -> stands_before (sinsert le x l) a b.
Proof.
  intros le x l a b [l1 [l2 [-> H]]]. induction l1 as [|y l1 IH]; cbn [app sinsert].
  - destruct (le x a).
    + apply before_cons. exists [], l2. auto.
    + exists [], (sinsert le x l2). split; auto. eapply Permutation_in; [apply sinsert_perm|]. now right.
  - destruct (le x y).
    + apply before_cons. exists (y :: l1), l2. auto.
    + now apply before_cons.
Qed.

Lemma sinsert_before : forall le x l b, In b l -> le x b = true -> stands_before (sinsert le x l) x b.
Proof.
  intros le x. induction l as [|y l IH]; intros b I H; [destruct I|]. cbn [sinsert]. destruct (le x y) eqn:Q.
  - exists [], (y :: l). auto.
  - destruct I as [->|I]; [congruence|]. apply before_cons. now apply IH.
Qed.

Lemma ssort_stable : forall le l a b, stands_before l a b -> le a b = true -> stands_before (ssort le l) a b.
Proof.
  intros le l a b [l1 [l2 [-> I]]] H. unfold ssort. induction l1 as [|y l1 IH]; cbn [app fold_right].
  - apply sinsert_before; auto. eapply Permutation_in; [apply ssort_perm|exact I].
  - now apply before_sinsert.
Qed.

Lemma allM_in : forall A (f : A -> res bool) l x, allM f l = Ok true -> In x l -> f x = Ok true.
Proof.
  intros A f. induction l as [|y l IH]; intros x H I; [destruct I|]. cbn [allM] in H. apply bind_ok in H.
  destruct H as [b [H1 H2]]. destruct b; [|discriminate]. destruct I as [<-|I]; auto.
Qed.
Lemma firstn_In : forall A n (l : list A) x, In x (firstn n l) -> In x l.
Proof. intros A n l x H. rewrite <- (firstn_skipn n l). apply in_or_app. auto. Qed.

Section Loop.
Context (p : rcpsp) (g : nxg) (P : project p) (N : networkx p g).

Lemma order_respects : forall mp,
  (forall n, task p n -> dget mp n = Some (Dates (Some (E p g n)) (Some (E p g n + dur p n)%Z) (Some (L p g n)) (Some (L p g n + dur p n)%Z))) ->
  dkeys mp = n_nodes g -> respects p (n_nodes g) -> respects p (order_cpm mp).
Proof.
  intros mp D K R a b Ed. unfold order_cpm. rewrite K. apply ssort_stable; [now apply R|].
  destruct (pr_edges _ P _ _ Ed) as [Ta Tb]. unfold date_le. rewrite (D a Ta), (D b Tb).
  pose proof (E_edge p g P N a b Ed). pose proof (L_edge p g P N a b Ed). pose proof (dur_nonneg p g P N a Ta).
  apply orb_true_iff. destruct (Z.ltb_spec (E p g a) (E p g b)); [auto|right].
  apply andb_true_iff. split; [apply Z.eqb_eq; lia|apply Z.leb_le; lia].
Qed.

(** * Soundness *)

Context (caps : list (string * Z)).
Hypothesis CAPS : p_res p = Constant caps.
Hypothesis POS : forall a r, (0 <= needs p a r)%Z.

Lemma load_falls : forall sch r now t, (forall a s e, In (a, (s, e)) sch -> s <= now) -> now <= t ->
  (load p sch r t <= load p sch r now)%Z.
Proof.
  intros sch r now t. unfold load. induction sch as [|[a [s e]] sch IH]; intros H T; [cbn; lia|].
  cbn [map]. unfold sumZ in *. cbn [fold_right].
  assert (IH' := IH (fun a s e X => H a s e (or_intror X)) T). specialize (H a s e (or_introl eq_refl)). pose proof (POS a r).
  assert (X : ((s <=? t) && (t <? e)) = true -> ((s <=? now) && (now <? e)) = true).
  { rewrite !andb_true_iff, !Nat.leb_le, !Nat.ltb_lt. lia. }
  destruct ((s <=? t) && (t <? e)); [rewrite X by auto|destruct ((s <=? now) && (now <? e))]; lia.
Qed.

Lemma fits_now_true : forall av m now, fits_now p av m now = Ok true ->
  forall r row, In (r, row) av -> 0 < m_duration m ->
  exists x k, nth_error row now = Some x /\ dget (m_need m) r = Some k /\ (k <= x)%Z.
Proof.
  intros av m now H. unfold fits_now in H.
  assert (G : forall av ok, foldM (fun ok kv => let* b := row_ok (p_horizon p) (snd kv) (dgetE (m_need m) (fst kv)) (firstn 1 (seq now (m_duration m)))
                      in Ok (ok && b)) ok av = Ok true -> ok = true /\
     forall r row, In (r, row) av -> row_ok (p_horizon p) row (dgetE (m_need m) r) (firstn 1 (seq now (m_duration m))) = Ok true).
  { clear. induction av as [|[r0 row0] av IH]; intros ok H; [cbn in H; injection H as ->; split; [auto|intros r row []]|].
    cbn [foldM fst snd] in H. apply bind_ok in H. destruct H as [b1 [H1 H2]]. apply bind_ok in H1. destruct H1 as [b [H0 H1]].
    injection H1 as <-. destruct (IH _ H2) as [A B]. apply andb_true_iff in A. destruct A as [-> ->]. split; auto.
    intros r row [X|X]; [injection X as <- <-|]; auto. }
  destruct (G _ _ H) as [_ G']. intros r row I D. specialize (G' r row I).
  destruct (row_ok_true _ _ _ _ G' now) as [x [k [A [B C]]]].
  - destruct (m_duration m); [lia|]. cbn. auto.
  - apply dgetE_some in B. eauto.
Qed.

Lemma take_row_bound : forall h n ts row row', take_row h n row ts = Ok row' -> forall t, In t ts -> t < length row.
Proof.
  intros h n. induction ts as [|t ts IH]; intros row row' H t' I; [destruct I|]. unfold take_row in H. cbn [foldM] in H.
  apply bind_ok in H. destruct H as [r1 [H1 H2]]. apply bind_ok in H1. destruct H1 as [x [X1 X2]]. apply lget_ok in X1.
  destruct ((0 <? n)%Z && negb (t <? h)); [discriminate|]. injection X2 as <-. destruct I as [<-|I].
  - apply nth_error_Some. congruence.
  - specialize (IH _ _ H2 _ I). now rewrite lset_length in IH.
Qed.

Lemma take_all_bound : forall m time av av', take_all p m time av = Ok av' ->
  forall r row t, In (r, row) av -> time <= t < time + m_duration m -> t < length row.
Proof.
  intros m time av av' H r row t I T. unfold take_all in H. apply mapM_ok in H.
  induction H as [|kv kv' av av' H _ IH]; [destruct I|]. destruct I as [->|I]; [|auto]. cbn [fst snd] in H.
  destruct (seq time (m_duration m)) as [|t0 ts] eqn:Q.
  - destruct (m_duration m); [lia|discriminate].
  - apply bind_ok in H. destruct H as [n [_ H]]. apply bind_ok in H. destruct H as [row' [H _]].
    rewrite <- Q in H. eapply take_row_bound; eauto. apply in_seq. lia.
Qed.

Record running (mins0 : list (nat * nat)) (now : nat) (v : sgs_vars) : Prop := {
  r_inv : inv p v;
  r_early : early mins0 v;
  r_keys : forall x, In x (dkeys (v_min v)) -> task p x;
  r_past : forall a s e, In (a, (s, e)) (v_sched v) -> s < now;
  r_single : forall a b s ea eb, In (a, (s, ea)) (v_sched v) -> In (b, (s, eb)) (v_sched v) -> a = b }.

Lemma start_place : forall mins0 now j m v v' x, running mins0 now v -> ~ In j (v_done v) ->
  allM (fun k => if pymem k (v_done v) then let* se := dgetE (v_sched v) k in Ok (snd se <=? now) else Ok false) (n_pred g j) = Ok true ->
  dget (v_min v) j = Some x -> x <= now -> first_mode p j = Ok m -> fits_now p (v_avail v) m now = Ok true ->
  place p g j m now v = Ok v' ->
  running mins0 (now + 1) v' /\ dkeys (v_min v') = dkeys (v_min v) /\
  v_sched v' = v_sched v ++ [(j, (now, now + m_duration m))] /\ (forall a, In a (v_done v') <-> a = j \/ In a (v_done v)).
Proof.
  intros mins0 now j m v v' x R NI OK X1 X2 FM FN PL.
  assert (RD : cpm_ready g (v_done v) j = true).
  { unfold cpm_ready. apply forallb_forall. intros k K. apply allM_in with (x := k) in OK; auto.
    destruct (pymem k (v_done v)); [auto|discriminate]. }
  destruct (step_ok p g P N mins0 j m now v v') as [A [B [C [D F]]]]; auto; try (apply R; fail).
  - exists x. auto.
  - intros r row t I T. destruct (row_is p caps CAPS v r row (r_inv _ _ _ R) I) as [c [C1 [C2 C3]]].
    destruct (fits_now_true _ _ _ FN r row I) as [y [k [Y1 [Y2 Y3]]]]; [lia|].
    assert (T2 : t < p_horizon p).
    { rewrite <- C2. unfold place in PL. apply bind_ok in PL. destruct PL as [av [PL _]]. eapply take_all_bound; eauto. }
    rewrite C3 in Y1 by lia. injection Y1 as <-. rewrite C3 by auto. eexists. split; [reflexivity|].
    assert (needs p j r = k) by (unfold needs; rewrite (first_mode_ok _ _ _ FM), Y2; auto).
    pose proof (load_falls (v_sched v) r now t) as LF.
    assert (forall a s e, In (a, (s, e)) (v_sched v) -> s <= now) by (intros a s e Z; apply (r_past _ _ _ R) in Z; lia).
    specialize (LF H0). lia.
  - split; [|auto]. constructor; auto.
    + rewrite C. apply R.
    + intros a s e I. rewrite D in I. apply in_app_or in I. destruct I as [I|[I|[]]].
      * apply (r_past _ _ _ R) in I. lia.
      * injection I as <- <- <-. lia.
    + intros a b s ea eb I1 I2. rewrite D in I1, I2. apply in_app_or in I1, I2.
      destruct I1 as [I1|[I1|[]]], I2 as [I2|[I2|[]]].
      * eapply (r_single _ _ _ R); eauto.
      * apply (r_past _ _ _ R) in I1. injection I2 as _ <- _. lia.
      * apply (r_past _ _ _ R) in I2. injection I1 as _ <- _. lia.
      * congruence.
Qed.

Lemma running_later : forall mins0 now v, running mins0 now v -> running mins0 (now + 1) v.
Proof. intros mins0 now v R. destruct R. constructor; auto. intros a s e I. apply r_past0 in I. lia. Qed.

Lemma start_one_ok : forall mins0 now l v v', running mins0 now v -> (forall x, In x l -> ~ In x (v_done v)) ->
  start_one p g now l v = Ok v' -> running mins0 (now + 1) v' /\ dkeys (v_min v') = dkeys (v_min v).
Proof.
  intros mins0 now. induction l as [|j l IH]; intros v v' R NI H.
  - cbn in H. injection H as <-. split; [now apply running_later|auto].
  - cbn [start_one] in H. apply bind_ok in H. destruct H as [x [H1 H]]. apply dgetE_some in H1.
    apply bind_ok in H. destruct H as [ok [H2 H]]. destruct (ok && (x <=? now)) eqn:Q.
    + apply andb_true_iff in Q. destruct Q as [-> Q]. apply Nat.leb_le in Q.
      apply bind_ok in H. destruct H as [m [H3 H]]. apply bind_ok in H. destruct H as [b [H4 H]]. destruct b.
      * destruct (start_place mins0 now j m v v' x) as [A [B _]]; auto. apply NI. now left.
      * apply IH; auto. intros y Y. apply NI. now right.
    + apply IH; auto. intros y Y. apply NI. now right.
Qed.

Lemma time_loop_ok : forall mins0 nb order fuel now v v', running mins0 now v ->
  time_loop fuel p g nb order now v = Ok v' ->
  exists now', running mins0 now' v' /\ dkeys (v_min v') = dkeys (v_min v) /\ nb <= length (v_done v').
Proof.
  intros mins0 nb order. induction fuel as [|fuel IH]; intros now v v' R H; cbn [time_loop] in H;
    destruct (Nat.ltb_spec (length (v_done v)) nb) as [LT|GE]; try discriminate;
    try (injection H as <-; exists now; auto; fail).
  apply bind_ok in H. destruct H as [v1 [H1 H2]].
  destruct (start_one_ok mins0 now (firstn 10 (filter (fun t : nat => negb (pymem t (v_done v))) order)) v v1 R) as [A B]; auto.
  { intros x X. apply firstn_In in X. apply filter_In in X. destruct X as [_ X]. apply negb_true_iff, mem_out in X. exact X. }
  destruct (IH _ _ _ A H2) as [now' [C [D F]]]. exists now'. split; auto. split; auto. congruence.
Qed.

Lemma running_start : forall mins, (forall x, In x (dkeys mins) -> task p x) -> running mins 0 (Vars (cpm_avail p) mins [] [] []).
Proof. intros mins H. constructor; auto; cbn; [apply inv_start|apply early_start|intros a s e []|intros a b s ea eb []]. Qed.

(** * Completeness *)

Hypothesis ALONE : forall a, task p a -> exists m, mode_one p a = Some m /\
      forall r c, In (r, c) caps -> exists n, dget (m_need m) r = Some n /\ (n <= c)%Z.
Context (mins0 : list (nat * nat)).
Hypothesis MINS : forall a, task p a -> dget mins0 a = Some (Z.to_nat (E p g a)).
Let n := length (p_modes p).
Hypothesis ROOM : one_by_one p + n <= p_horizon p + 1.

Lemma fits_now_total : forall v j m t, inv p v -> task p j -> mode_one p j = Some m ->
  t + m_duration m <= p_horizon p -> exists b, fits_now p (v_avail v) m t = Ok b.
Proof.
  intros v j m t G T MO H. unfold fits_now. generalize true as ok.
  assert (A : forall r row, In (r, row) (v_avail v) -> exists b,
    row_ok (p_horizon p) row (dgetE (m_need m) r) (firstn 1 (seq t (m_duration m))) = Ok b).
  { intros r row I. destruct (row_is p caps CAPS v r row G I) as [c [C1 [C2 _]]]. destruct (ALONE j T) as [m' [M1 M2]].
    rewrite MO in M1. injection M1 as <-. destruct (M2 r c C1) as [k [M3 _]]. unfold dgetE. rewrite M3. apply row_ok_total.
    intros x X. apply firstn_In, in_seq in X. lia. }
  revert A. generalize (v_avail v). clear. induction l as [|[r row] l IH]; intros A ok; [eexists; reflexivity|].
  cbn [foldM fst snd]. destruct (A r row (or_introl eq_refl)) as [b B]. rewrite B. cbn [bind]. apply IH. intros; eapply A; right; eauto.
Qed.

Lemma fits_now_all : forall av m now,
  (forall r row, In (r, row) av -> row_ok (p_horizon p) row (dgetE (m_need m) r) (seq now (m_duration m)) = Ok true) ->
  fits_now p av m now = Ok true.
Proof.
  intros av m now A. unfold fits_now. revert A. induction av as [|[r row] av IH]; intros A; [reflexivity|].
  cbn [foldM fst snd].
  assert (B : row_ok (p_horizon p) row (dgetE (m_need m) r) (firstn 1 (seq now (m_duration m))) = Ok true).
  { specialize (A r row (or_introl eq_refl)). destruct (seq now (m_duration m)) as [|t ts]; [reflexivity|].
    cbn [firstn row_ok] in *. apply bind_ok in A. destruct A as [x [A1 A]]. rewrite A1. cbn [bind] in *.
    apply bind_ok in A. destruct A as [k [A2 A]]. rewrite A2. cbn [bind] in *.
    destruct (x <? k)%Z; [destruct (t <? p_horizon p); discriminate|reflexivity]. }
  rewrite B. cbn [bind andb]. apply IH. intros; apply A; now right.
Qed.

Lemma start_one_total : forall now l v, running mins0 now v -> dkeys (v_min v) = n_nodes g ->
  (forall x, In x l -> task p x /\ ~ In x (v_done v) /\ now + length_one p x <= p_horizon p) ->
  exists v', start_one p g now l v = Ok v' /\ v_lost v' = v_lost v /\
   ((v' = v /\ forall j, In j l -> cpm_ready g (v_done v) j = true ->
       exists a s e, In (a, (s, e)) (v_sched v) /\ now < e) \/
    (exists j, In j l /\ running mins0 (now + 1) v' /\ dkeys (v_min v') = n_nodes g /\
       v_sched v' = v_sched v ++ [(j, (now, now + length_one p j))] /\ v_done v' = v_done v ++ [j])).
Proof.
  intros now. induction l as [|j l IH]; intros v R K NEW.
  - exists v. cbn. split; auto. split; auto. left. split; auto. intros j [].
  - destruct (NEW j (or_introl eq_refl)) as [T [NI H]]. cbn [start_one].
    destruct (proj1 (dget_keys _ _ (v_min v) j)) as [x X]; [rewrite K; now apply (node_task p g P N)|].
    unfold dgetE at 1. rewrite X. cbn [bind].
    set (f := fun k => if pymem k (v_done v) then let* se := dgetE (v_sched v) k in Ok (snd se <=? now) else Ok false).
    assert (IS : forall k, In k (v_done v) -> exists s e, dget (v_sched v) k = Some (s, e) /\ In (k, (s, e)) (v_sched v)).
    { intros k Q. apply (i_done _ _ (r_inv _ _ _ R)) in Q. apply (proj1 (dget_keys _ _ (v_sched v) k)) in Q.
      destruct Q as [[s e] Q]. exists s, e. split; auto. eapply dget_In; eauto. }
    destruct (allM_total _ f (n_pred g j)) as [ok OK].
    { intros k Y. unfold f. destruct (pymem k (v_done v)) eqn:Q; [|eauto]. apply mem_in, IS in Q. destruct Q as [s [e [Q _]]].
      unfold dgetE. rewrite Q. cbn. eauto. }
    rewrite OK. cbn [bind]. destruct (ALONE j T) as [m [MO AL]].
    assert (FM : first_mode p j = Ok m).
    { unfold first_mode, dgetE. unfold mode_one in MO. destruct (dget (p_modes p) j); [|discriminate]. cbn [bind]. now rewrite MO. }
    assert (LO : length_one p j = m_duration m) by (unfold length_one; now rewrite MO). rewrite LO in H.
    assert (NEW' : forall x, In x l -> task p x /\ ~ In x (v_done v) /\ now + length_one p x <= p_horizon p) by (intros; apply NEW; now right).
    destruct (IH v R K NEW') as [v2 [S1 [S2 S3]]].
    assert (SKIP : (cpm_ready g (v_done v) j = true -> exists a s e, In (a, (s, e)) (v_sched v) /\ now < e) ->
      exists v', start_one p g now l v = Ok v' /\ v_lost v' = v_lost v /\
   ((v' = v /\ forall j0, In j0 (j :: l) -> cpm_ready g (v_done v) j0 = true ->
       exists a s e, In (a, (s, e)) (v_sched v) /\ now < e) \/
    (exists j0, In j0 (j :: l) /\ running mins0 (now + 1) v' /\ dkeys (v_min v') = n_nodes g /\
       v_sched v' = v_sched v ++ [(j0, (now, now + length_one p j0))] /\ v_done v' = v_done v ++ [j0]))).
    { intros Z. exists v2. split; auto. split; auto. destruct S3 as [[S3 S4]|[j0 [S3 S4]]].
      - left. split; auto. intros j0 [<-|J]; [exact Z|exact (S4 j0 J)].
      - right. exists j0. split; [now right|auto]. }
    (* every scheduled task is over, or one is still running *)
    destruct (existsb (fun y : nat * (nat * nat) => now <? snd (snd y)) (v_sched v)) eqn:EX.
    + assert (LATE : exists a s e, In (a, (s, e)) (v_sched v) /\ now < e).
      { apply existsb_exists in EX. destruct EX as [[a [s e]] [Y1 Y2]]. apply Nat.ltb_lt in Y2. exists a, s, e. auto. }
      destruct (ok && (x <=? now)) eqn:Q; [|apply SKIP; auto].
      apply andb_true_iff in Q. destruct Q as [-> Q]. apply Nat.leb_le in Q. rewrite FM. cbn [bind].
      destruct (fits_now_total v j m now (r_inv _ _ _ R) T MO H) as [b B]. rewrite B. cbn [bind]. destruct b; [|apply SKIP; auto].
      destruct (place_total p g P N caps CAPS ALONE v j m now (r_inv _ _ _ R) K T MO H) as [v1 [PL [LS DN]]].
      rewrite PL. exists v1. split; auto. split; auto. right. exists j. split; [now left|].
      destruct (start_place mins0 now j m v v1 x) as [A [B' [C _]]]; auto. split; auto. split; [congruence|].
      rewrite LO. split; auto. rewrite DN. unfold pyadd. now rewrite (proj2 (mem_out j (v_done v)) NI).
    + assert (OVER : forall a s e, In (a, (s, e)) (v_sched v) -> e <= now).
      { intros a s e Y. destruct (Nat.le_gt_cases e now); auto. exfalso.
        assert (Z : existsb (fun y : nat * (nat * nat) => now <? snd (snd y)) (v_sched v) = true); [|congruence].
        apply existsb_exists. exists (a, (s, e)). split; auto. now apply Nat.ltb_lt. }
      destruct (cpm_ready g (v_done v) j) eqn:RD.
      * destruct (early_bound p g P N mins0 MINS v j now (r_inv _ _ _ R) (r_early _ _ _ R) K OVER T RD) as [x' [X1 X2]].
        rewrite X in X1. injection X1 as <-.
        assert (OKT : ok = true).
        { enough (allM f (n_pred g j) = Ok true) by congruence. apply allM_all. intros k Y. unfold f.
          unfold cpm_ready in RD. rewrite forallb_forall in RD. specialize (RD k Y). rewrite RD. apply mem_in, IS in RD.
          destruct RD as [s [e [Z1 Z2]]]. unfold dgetE. rewrite Z1. cbn. f_equal. apply Nat.leb_le. eapply OVER; eauto. }
        subst ok. assert (Q : (x <=? now) = true) by now apply Nat.leb_le. rewrite Q. cbn [andb]. rewrite FM. cbn [bind].
        assert (FN : fits_now p (v_avail v) m now = Ok true).
        { apply fits_now_all. pose proof (fits_last p caps CAPS ALONE v j m now (r_inv _ _ _ R) OVER T MO H) as FL.
          intros r row I. apply (allM_in _ _ _ (r, row)) in FL; auto. }
        rewrite FN. cbn [bind].
        destruct (place_total p g P N caps CAPS ALONE v j m now (r_inv _ _ _ R) K T MO H) as [v1 [PL [LS DN]]].
        rewrite PL. exists v1. split; auto. split; auto. right. exists j. split; [now left|].
        destruct (start_place mins0 now j m v v1 x) as [A [B' [C _]]]; auto. split; auto. split; [congruence|].
        rewrite LO. split; auto. rewrite DN. unfold pyadd. now rewrite (proj2 (mem_out j (v_done v)) NI).
      * destruct (ok && (x <=? now)) eqn:Q; [|apply SKIP; discriminate].
        apply andb_true_iff in Q. destruct Q as [-> Q].
        assert (cpm_ready g (v_done v) j = true); [|congruence]. unfold cpm_ready. apply forallb_forall. intros k Y.
        apply (allM_in _ _ _ k) in OK; auto. unfold f in OK. destruct (pymem k (v_done v)); [auto|discriminate].
Qed.

Context (order : list nat).
Hypothesis ORDER : respects p order.
Hypothesis ALL : forall a, task p a -> In a order.
Hypothesis ONLY : forall a, In a order -> task p a.
Let total := one_by_one p + n.

Lemma before_nodup : forall (l : list nat) a b, stands_before l a b -> In a l /\ In b l.
Proof. intros l a b [l1 [l2 [-> H]]]. rewrite !in_app_iff. simpl. tauto. Qed.

Lemma before_filter : forall (f : nat -> bool) l a b, stands_before l a b -> f a = true -> f b = true ->
  stands_before (filter f l) a b.
Proof.
  intros f l a b [l1 [l2 [-> H]]] A B. exists (filter f l1), (filter f l2). rewrite filter_app. cbn [filter]. rewrite A.
  split; auto. apply filter_In. auto.
Qed.

Lemma time_loop_total : forall fuel now v, running mins0 now v -> dkeys (v_min v) = n_nodes g -> v_lost v = [] ->
  NoDup order ->
  (forall a s e, In (a, (s, e)) (v_sched v) -> e <= spent p v + length (v_done v)) ->
  now <= spent p v + length (v_done v) -> total <= fuel + now ->
  exists v' now', time_loop fuel p g n order now v = Ok v' /\ running mins0 now' v' /\ v_lost v' = [] /\ n <= length (v_done v') /\
   (forall a s e, In (a, (s, e)) (v_sched v') -> e <= spent p v' + length (v_done v')).
Proof.
  induction fuel as [|fuel IH]; intros now v R K LS NDO EN NW FU; cbn [time_loop];
    destruct (Nat.ltb_spec (length (v_done v)) n) as [LT|GE]; try (exists v, now; auto 6; fail).
  - exfalso. pose proof (spent_le p v (r_inv _ _ _ R)). unfold total in FU. lia.
  - set (todo := firstn 10 (filter (fun t => negb (pymem t (v_done v))) order)).
    assert (TODO : forall x, In x todo -> task p x /\ ~ In x (v_done v)).
    { intros x X. apply firstn_In, filter_In in X. destruct X as [X1 X2]. apply negb_true_iff, mem_out in X2. auto. }
    assert (SR : forall x, task p x -> ~ In x (v_done v) -> spent p v + length_one p x <= one_by_one p).
    { intros x Tx NI. unfold one_by_one, spent.
      assert (A : list_sum (map (length_one p) (x :: v_done v)) <= list_sum (map (length_one p) (seq 1 (length (p_modes p))))).
      { apply list_sum_incl; [constructor; auto; apply (i_nd _ _ (r_inv _ _ _ R))|].
        intros y [<-|Y]; [|apply (i_task _ _ (r_inv _ _ _ R)) in Y]; apply in_seq; unfold task in *; lia. }
      unfold list_sum in *. cbn [map fold_right] in A. lia. }
    destruct (start_one_total now todo v R K) as [v1 [S1 [S2 S3]]].
    { intros x X. destruct (TODO x X). split; auto. split; auto. specialize (SR x H H0). lia. }
    rewrite S1. cbn [bind]. destruct S3 as [[-> S3]|[j [J1 [J2 [J3 [J4 J5]]]]]].
    + apply IH; auto.
      * now apply running_later.
      * assert (exists a s e, In (a, (s, e)) (v_sched v) /\ now < e).
        { (* the first task of the list is ready *)
          assert (NE : exists j l, filter (fun t => negb (pymem t (v_done v))) order = j :: l).
          { destruct (filter (fun t => negb (pymem t (v_done v))) order) as [|j l] eqn:Q; [|eauto]. exfalso.
            assert (A : incl (seq 1 n) (v_done v)).
            { intros a A. assert (Ta : task p a) by (apply in_seq in A; unfold task, n in *; lia).
              destruct (pymem a (v_done v)) eqn:M; [now apply mem_in|]. exfalso.
              assert (B : In a (filter (fun t => negb (pymem t (v_done v))) order)).
              { apply filter_In. split; [auto|now rewrite M]. }
              rewrite Q in B. destruct B. }
            apply NoDup_incl_length in A; [|apply seq_NoDup]. rewrite seq_length in A. lia. }
          destruct NE as [j [l Q]]. apply (S3 j).
          - unfold todo. rewrite Q. cbn. auto.
          - unfold cpm_ready. apply forallb_forall. intros k Y. apply (nx_pred _ _ N) in Y.
            destruct (pymem k (v_done v)) eqn:M; auto. exfalso.
            assert (NJ : ~ In j (v_done v)).
            { assert (In j (filter (fun t => negb (pymem t (v_done v))) order)) by (rewrite Q; now left).
              apply filter_In in H. destruct H as [_ H]. apply negb_true_iff, mem_out in H. exact H. }
            pose proof (before_filter (fun t => negb (pymem t (v_done v))) order k j (ORDER k j Y)) as BF.
            cbv beta in BF. rewrite M, (proj2 (mem_out j (v_done v)) NJ) in BF. specialize (BF eq_refl eq_refl).
            assert (NDF : NoDup (filter (fun t => negb (pymem t (v_done v))) order)) by now apply NoDup_filter.
            rewrite Q in BF, NDF. destruct BF as [l1 [l2 [E1 E2]]]. destruct l1 as [|z l1]; injection E1 as -> ->.
            + apply (pr_acyclic _ P k). now apply path_one.
            + apply NoDup_cons_iff in NDF. destruct NDF as [NDF _]. apply NDF. apply in_or_app. right. now right. }
        destruct H as [a [s [e [H1 H2]]]]. apply EN in H1. lia.
      * lia.
    + assert (SP : spent p v1 = spent p v + length_one p j).
      { unfold spent. rewrite J5, map_app, list_sum_app. cbn. lia. }
      assert (LN : length (v_done v1) = length (v_done v) + 1) by (rewrite J5, app_length; auto).
      apply IH; auto.
      * congruence.
      * intros a s e Y. rewrite J4 in Y. apply in_app_or in Y. destruct Y as [Y|[Y|[]]].
        -- apply EN in Y. lia.
        -- injection Y as <- <- <-. lia.
      * lia.
      * lia.
Qed.
End Loop.
