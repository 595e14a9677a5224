(** The serial generation scheme never fails on a well-formed instance, and succeeds when the
    horizon is long enough. *)
From Coq Require Import String.
From Coq Require Import List Bool Arith ZArith Lia Permutation.
From Coq Require Import ZifyBool ZifyNat.
From Verif Require Import Py PyList SgsModel TspProofs SgsProofs.
Import ListNotations.

Definition row_full (p : rcpsp) (av : list (string * list Z)) : Prop :=
  forall r t, In r (dkeys av) -> t < new_horizon p -> exists x, cell av r t = Some x.
Definition needs_all (m : mode) (av : list (string * list Z)) : Prop :=
  forall r, In r (dkeys av) -> exists n, dget (m_need m) r = Some n.

Lemma cell_row : forall av r t x, cell av r t = Some x -> exists row, dget av r = Some row /\ nth_error row t = Some x.
Proof. intros av r t x H. unfold cell in H. destruct (dget av r); [eauto|discriminate]. Qed.

Lemma scan_total : forall p av m bad c, row_full p av -> needs_all m av -> exists vb, scan p av m bad c = Ok vb.
Proof.
  intros p av m bad c R N. unfold scan.
  destruct (@foldM_total _ _ (scan_time p av m) (fun _ _ => True) (seq c (m_duration m)) (true, bad)) as [s [H _]]; eauto.
  intros l0 t l1 s1 _ _. unfold scan_time.
  destruct (@foldM_total _ _ (scan_cell p av m t) (fun _ _ => True) (dkeys av) s1) as [s [H _]]; eauto.
  intros k0 r k1 s2 E _. unfold scan_cell. destruct (Nat.ltb_spec t (new_horizon p)); eauto.
  assert (I : In r (dkeys av)) by (rewrite E; apply in_elt).
  destruct (R r t I H) as [x C]. apply cell_row in C as [row [D T]]. destruct (N r I) as [n Dn].
  unfold dgetE, lget. rewrite D. cbn [bind]. rewrite T. cbn [bind]. rewrite Dn. cbn [bind]. eauto.
Qed.

Lemma search_total : forall fuel p av m bad c, row_full p av -> needs_all m av -> new_horizon p <= fuel + c ->
  exists cb, search (S fuel) p av m bad c = Ok cb.
Proof.
  induction fuel as [|fuel IH]; intros p av m bad c R N L; cbn [search];
    destruct (scan_total p av m bad c R N) as [vb H]; rewrite H; cbn [bind];
    destruct (fst vb) eqn:V; eauto; apply scan_ok in H as [H _]; destruct (H V) as (r & t & x & n & T1 & T2 & _).
  - lia.
  - apply IH; auto. lia.
Qed.

Lemma deduct_total : forall av m r t x n, cell av r t = Some x -> dget (m_need m) r = Some n ->
  exists d, deduct av m r t = Ok d.
Proof.
  intros av m r t x n C D. apply cell_row in C as [row [E T]]. unfold deduct, dgetE, lget.
  rewrite E. cbn [bind]. rewrite T. cbn [bind]. rewrite D. cbn [bind]. eauto.
Qed.

Lemma shift_full : forall p a b f, shift a b f -> row_full p a -> row_full p b.
Proof.
  intros p a b f [K H] R r t I L. rewrite K in I. destruct (R r t I L) as [x C]. rewrite H, C. eauto.
Qed.
Lemma shift_needs : forall m a b f, shift a b f -> needs_all m a -> needs_all m b.
Proof. intros m a b f [K H] N r I. rewrite K in I. auto. Qed.

Lemma book_total : forall p av m c, NoDup (dkeys av) -> row_full p av -> needs_all m av ->
  (forall r t, In r (dkeys av) -> c <= t < c + m_duration m -> t < new_horizon p) ->
  exists s, book p av m c = Ok s.
Proof.
  intros p av m c ND R N T. unfold book.
  set (Q := fun (s : list (string * list Z) * bool) => exists f, shift av (fst s) f).
  destruct (@foldM_total _ _ (book_time p m c) (fun _ s => Q s) (seq c (m_duration m)) (av, false)) as [s [H _]]; eauto.
  - exists (fun _ _ => 0%Z). apply shift_refl.
  - intros l0 t l1 s1 E [f1 S1]. apply seq_split in E as [Et Lt]. unfold book_time.
    destruct (@foldM_total _ _ (book_cell p m c t) (fun _ s => Q s) (dkeys (fst s1)) s1) as [s2 [H2 Q2]]; eauto.
    + exists f1. exact S1.
    + intros k0 r k1 s3 E3 [f3 S3].
      assert (I : In r (dkeys (fst s3))).
      { rewrite (proj1 S3), <- (proj1 S1), E3. apply in_elt. }
      assert (Ia : In r (dkeys av)) by (rewrite <- (proj1 S3); exact I).
      assert (Lh : t < new_horizon p) by (apply (T r); auto; lia).
      destruct (shift_full p _ _ _ S3 R r t I Lh) as [x C].
      destruct (shift_needs m _ _ _ S3 N r I) as [n Dn].
      assert (Bk : exists s4, book_cell p m c t s3 r = Ok s4).
      { unfold book_cell. destruct (deduct_total _ _ _ _ _ _ C Dn) as [d D]. rewrite D. cbn [bind].
        destruct (pymem r (p_nonren p) && (t + 1 =? c + m_duration m)); eauto.
        apply deduct_ok in D as (xd & nd & _ & _ & _ & _ & SD).
        destruct (@foldM_total _ _ (book_later m r) (fun _ s => Q s)
           (seq (t + 1) (new_horizon p - (t + 1))) (fst d, snd s3)) as [s4 [H4 _]]; eauto.
        - eexists. eapply shift_trans; [exact S3|exact SD].
        - intros j0 tt j1 s5 E5 [f5 S5]. apply seq_split in E5 as [Ett Ltt].
          assert (I5 : In r (dkeys (fst s5))) by (now rewrite (proj1 S5)).
          destruct (shift_full p _ _ _ S5 R r tt I5) as [x5 C5]; [lia|].
          destruct (deduct_total _ _ _ _ _ _ C5 Dn) as [d5 D5].
          exists (fst d5, snd s5 || (snd d5 <? 0)%Z). split.
          + unfold book_later. now rewrite D5.
          + apply deduct_ok in D5 as (xd5 & nd5 & _ & _ & _ & _ & SD5). eexists. eapply shift_trans; [exact S5|exact SD5]. }
      destruct Bk as [s4 B4]. exists s4. split; auto.
      apply book_cell_ok in B4 as (_ & S4 & _). eexists. eapply shift_trans; [exact S3|exact S4].
Qed.

(** When a booking raises the flag, some cell is below zero. *)
Lemma book_bad : forall p av m c s, (forall r n, dget (m_need m) r = Some n -> (0 <= n)%Z) ->
  book p av m c = Ok s -> snd s = true -> exists r t x, pymem r (p_nonren p) = true /\
    cell (fst s) r t = Some x /\ (x < 0)%Z.
Proof.
  intros p av m c s NN H B. unfold book in H.
  set (Q := fun (s : list (string * list Z) * bool) => snd s = true -> exists r t x, pymem r (p_nonren p) = true /\
    cell (fst s) r t = Some x /\ (x < 0)%Z).
  assert (Step : forall s s' f, Q s -> snd s' = snd s -> shift (fst s) (fst s') f -> (forall r' t', (0 <= f r' t')%Z) -> Q s').
  { intros s1 s2 f Q1 E [_ S] P B2. rewrite E in B2. destruct (Q1 B2) as (r & t & x & R1 & R2 & R3).
    exists r, t, (x - f r t)%Z. split; auto. split; [now rewrite S, R2|]. specialize (P r t). lia. }
  assert (QQ : Q s).
  { apply (@foldM_inv _ _ (book_time p m c) (fun _ s => Q s) _ _ _ H).
    - discriminate.
    - intros l0 t l1 s1 s2 _ Q1 H1. unfold book_time in H1.
      apply (@foldM_inv _ _ (book_cell p m c t) (fun _ s => Q s) _ _ _ H1); auto.
      intros k0 r k1 s3 s4 _ Q3 H3. unfold book_cell in H3. apply bind_ok in H3 as [d [D H3]].
      apply deduct_ok in D as (x & n & C & Dn & V & C' & SD).
      assert (Qd : Q (fst d, snd s3)).
      { apply (Step s3 (fst d, snd s3) (fun r' t' => if at_cell r t r' t' then n else 0%Z)); auto. intros. destruct (at_cell r t r' t'); [eapply NN; eauto|lia]. }
      destruct (pymem r (p_nonren p) && (t + 1 =? c + m_duration m)) eqn:L; [|now injection H3 as <-].
      apply andb_prop in L as [L _].
      apply (@foldM_inv _ _ (book_later m r) (fun _ s => Q s) _ _ _ H3); auto.
      intros j0 tt j1 s5 s6 _ Q5 H5. unfold book_later in H5. apply bind_ok in H5 as [d5 [D5 H5]]. injection H5 as <-.
      apply deduct_ok in D5 as (x5 & n5 & C5 & Dn5 & V5 & C5' & SD5). intros B5. cbn [snd fst] in *.
      apply orb_prop in B5 as [B5|B5].
      + apply (Step s5 (fst d5, snd s5) (fun r' t' => if at_cell r tt r' t' then n5 else 0%Z)); auto.
        intros. destruct (at_cell r tt r' t'); [eapply NN; eauto|lia].
      + exists r, tt, (x5 - n5)%Z. split; auto. split; auto. lia. }
  apply QQ, B.
Qed.

(** * Well-formed instances *)
Record well_formed (p : rcpsp) : Prop := {
  w_names : NoDup (res_names p);
  w_rows : row_full p (avail_init p);
  w_task : forall a, 1 <= a <= p_sink p -> exists d m, dget (p_modes p) a = Some d /\ dget d 1 = Some m;
  w_need : forall a d k m r, dget (p_modes p) a = Some d -> dget d k = Some m -> In r (res_names p) ->
             exists n, dget (m_need m) r = Some n;
  w_succ : forall a, 1 <= a <= p_sink p -> exists l, dget (p_succ p) a = Some l;
  w_closed : forall a l b, dget (p_succ p) a = Some l -> In b l -> In b (dkeys (p_succ p));
  w_acyclic : exists rank : nat -> nat, forall a l b, dget (p_succ p) a = Some l -> In b l -> rank a < rank b;
  w_dict : NoDup (dkeys (p_succ p))
}.

Lemma min_rank : forall (rank : nat -> nat) l, l <> [] -> exists a, In a l /\ forall b, In b l -> rank a <= rank b.
Proof.
  induction l as [|x l IH]; intros N; [congruence|]. destruct l as [|y l].
  - exists x. split; [now left|]. intros b [<-|[]]. lia.
  - destruct IH as [a [I H]]; [discriminate|]. destruct (le_lt_dec (rank x) (rank a)).
    + exists x. split; [now left|]. intros b [<-|Ib]; [lia|]. specialize (H b Ib). lia.
    + exists a. split; [now right|]. intros b [<-|Ib]; [lia|]. auto.
Qed.

Lemma next_total : forall p perm, well_formed p -> perm <> [] -> exists a, next_act p perm = Some a /\ In a perm.
Proof.
  intros p perm W N. unfold next_act. destruct (find (ready (p_succ p) perm) perm) eqn:F.
  - apply find_some in F. exists n. tauto.
  - exfalso. destruct (w_acyclic _ W) as [rank R]. destruct (min_rank rank perm N) as [a [I M]].
    pose proof (find_none _ _ F a I) as E. unfold ready in E. apply negb_false_iff in E.
    apply existsb_exists in E as [[b l] [Ib E]]. cbn [fst snd] in E. apply andb_prop in E as [E1 E2].
    apply pymem_true in E1, E2. pose proof (In_dget _ _ _ (w_dict _ W) Ib) as D.
    specialize (R b l a D E1). specialize (M b E2). lia.
Qed.

Lemma list_sum_perm : forall l1 l2, Permutation l1 l2 -> list_sum l1 = list_sum l2.
Proof. unfold list_sum. induction 1; simpl; lia. Qed.

Lemma list_sum_in : forall (f : nat -> nat) l a, In a l -> f a <= list_sum (map f l).
Proof. unfold list_sum. induction l as [|x l IH]; intros a H; [destruct H|]. simpl. destruct H as [<-|H]; [lia|]. specialize (IH a H). lia. Qed.

Lemma sum_in : forall (f : nat -> Z) l a, (forall x, 0 <= f x)%Z -> In a l -> (f a <= sumZ (map f l))%Z.
Proof.
  induction l as [|x l IH]; intros a P H; [destruct H|]. cbn [map]. rewrite sumZ_cons. destruct H as [<-|H].
  - pose proof (sumZ_map_nonneg f l (fun x _ => P x)). lia.
  - specialize (IH a P H). specialize (P x). lia.
Qed.

Section Total.
  Variables (p : rcpsp) (me pe : list nat) (mins0 : list (nat * nat)).
  Hypothesis W : well_formed p.
  Hypothesis K0 : dkeys mins0 = dkeys (p_succ p).
  Hypothesis Pe : forall a, In a pe -> 1 <= a <= p_sink p.
  Hypothesis Me : forall a, In a pe -> exists m, mode_of p me a = Ok m.

  Lemma mode_needs : forall a m av, mode_of p me a = Ok m -> dkeys av = res_names p -> needs_all m av.
  Proof.
    intros a m av M K r I. unfold mode_of in M. apply bind_ok in M as [d [D M]]. apply dgetE_ok in D.
    destruct a; [discriminate|]. apply bind_ok in M as [k [_ M]]. apply dgetE_ok in M.
    eapply w_need; eauto. now rewrite <- K.
  Qed.

  Lemma raise_total : forall e l mins, (forall s, In s l -> In s (dkeys mins)) -> exists mins', foldM (raise_min e) mins l = Ok mins'.
  Proof.
    intros e l mins H.
    destruct (@foldM_total _ _ (raise_min e) (fun _ ms => dkeys ms = dkeys mins) l mins) as [s [S _]]; eauto.
    intros l0 x l1 s1 E K. assert (I : In x (dkeys s1)) by (rewrite K; apply H; rewrite E; apply in_elt).
    unfold raise_min. unfold dgetE. destruct (dget s1 x) eqn:D; [|apply dget_None in D; contradiction].
    cbn [bind]. eexists. split; [reflexivity|]. rewrite dset_keys_present; auto.
  Qed.

  Lemma step_total : forall g, inv p me pe mins0 g -> g_bad g = false -> g_perm g <> [] ->
    exists g', sgs_step p me g = Ok g'.
  Proof.
    intros g I B N. destruct (next_total p (g_perm g) W N) as [a [NA Ia]].
    unfold sgs_step. rewrite NA.
    assert (Ip : In a pe) by (apply (i_all _ _ _ _ _ I); auto).
    destruct (w_succ _ W a (Pe a Ip)) as [l D].
    assert (Ks : In a (dkeys (g_min g))).
    { rewrite (i_keys _ _ _ _ _ I), K0. apply dmem_true. unfold dmem. now rewrite D. }
    unfold dgetE at 1. destruct (dget (g_min g) a) as [c0|] eqn:C0; [|apply dget_None in C0; contradiction].
    cbn [bind]. destruct (Me a Ip) as [m M]. rewrite M. cbn [bind].
    pose proof (i_avail _ _ _ _ _ I) as SH.
    assert (AK : dkeys (g_avail g) = res_names p) by (rewrite (proj1 SH); apply avail_keys).
    assert (RF : row_full p (g_avail g)) by (eapply shift_full; eauto; apply (w_rows _ W)).
    assert (NA' : needs_all m (g_avail g)) by (eapply mode_needs; eauto).
    destruct (search_total (new_horizon p) p (g_avail g) m false c0 RF NA') as [cb CB]; [lia|].
    rewrite CB. cbn [bind]. destruct (snd cb) eqn:Bad; [eauto|].
    apply search_ok in CB as (_ & _ & F & _); auto.
    destruct (book_total p (g_avail g) m (fst cb)) as [ab AB]; auto.
    - rewrite AK. apply (w_names _ W).
    - intros r t Ir Ht. apply (F r t Ir Ht).
    - rewrite AB. cbn [bind]. rewrite (proj2 (pymem_true a _) Ia). unfold dgetE. rewrite D. cbn [bind].
      destruct (raise_total (fst cb + m_duration m) l (g_min g)) as [mins' R].
      + intros s Is. rewrite (i_keys _ _ _ _ _ I), K0. eapply w_closed; eauto.
      + rewrite R. cbn [bind]. eauto.
  Qed.

  Lemma loop_total : forall fuel g, inv p me pe mins0 g -> length (g_perm g) <= fuel ->
    exists g', sgs_loop fuel p me g = Ok g'.
  Proof.
    induction fuel as [|fuel IH]; intros g I L; cbn [sgs_loop].
    - destruct (g_perm g); [eauto|cbn in L; lia].
    - destruct (g_perm g) eqn:P; [eauto|]. destruct (g_bad g) eqn:B; [eauto|].
      destruct (step_total g I B) as [g1 S1]; [congruence|]. rewrite S1. cbn [bind].
      destruct (step_inv p me pe mins0 (w_names _ W) g g1 I B S1) as (I1 & L1 & L2).
      destruct (g_bad g1) eqn:B1.
      + destruct fuel; cbn [sgs_loop]; destruct (g_perm g1); eauto; rewrite B1; eauto.
      + apply IH; auto. specialize (L1 eq_refl). rewrite P in L1. cbn in L1, L. lia.
  Qed.

  (** * Long horizons *)
  Definition dur (a : nat) : nat := match mode_of p me a with Ok m => m_duration m | Err _ => 0 end.
  Definition amt (a : nat) (r : string) : Z := match mode_of p me a with Ok m => amount m r | Err _ => 0%Z end.

  Hypothesis NN : nonneg_needs p me.
  Hypothesis Nd : NoDup pe.
  Hypothesis Long : list_sum (map dur pe) <= new_horizon p.
  Hypothesis Zero : forall a x, dget mins0 a = Some x -> x = 0.
  Hypothesis Fit : forall r t x, cell (avail_init p) r t = Some x ->
    if pymem r (p_nonren p) then (sumZ (map (fun a => amt a r) pe) <= x)%Z
    else forall a, In a pe -> (amt a r <= x)%Z.

  Lemma amount_nonneg : forall a m r, mode_of p me a = Ok m -> (0 <= amount m r)%Z.
  Proof. intros a m r M. unfold amount. destruct (dget (m_need m) r) eqn:D; [eapply NN; eauto|lia]. Qed.
  Lemma amt_nonneg : forall a r, (0 <= amt a r)%Z.
  Proof. intros a r. unfold amt. destruct (mode_of p me a) eqn:M; [eapply amount_nonneg; eauto|lia]. Qed.

  Lemma inv_split : forall g, inv p me pe mins0 g -> Permutation pe (g_perm g ++ dkeys (g_ends g)).
  Proof.
    intros g I. apply NoDup_Permutation; auto.
    - assert (A : forall l1 l2 : list nat, NoDup l1 -> NoDup l2 -> (forall a, In a l1 -> ~ In a l2) -> NoDup (l1 ++ l2)).
      { clear. induction l1 as [|x l1 IH]; intros l2 N1 N2 D; cbn; auto. inversion N1; subst. constructor.
        - intros K. apply in_app_or in K as [K|K]; [auto|]. apply (D x); [now left|auto].
        - apply IH; auto. intros a Ia. apply D. now right. }
      apply A; [apply (i_perm _ _ _ _ _ I)|apply (i_ends _ _ _ _ _ I)|apply (i_disj _ _ _ _ _ I)].
    - intros a. rewrite in_app_iff. apply (i_all _ _ _ _ _ I).
  Qed.

  Definition done (g : sgs_state) : nat := list_sum (map dur (dkeys (g_ends g))).

  Lemma total_late : forall g r t, inv p me pe mins0 g -> (forall a e, In (a, e) (g_ends g) -> e <= t) ->
    pymem r (p_nonren p) = false -> total p me (g_ends g) r t = 0%Z.
  Proof.
    intros g r t I L NR. unfold total. rewrite (sumZ_map_ext _ (fun _ => 0%Z)).
    - clear. induction (g_ends g); cbn [map]; [reflexivity|]. rewrite sumZ_cons. lia.
    - intros [a e] Ia. specialize (L a e Ia). destruct (i_placed _ _ _ _ _ I a e Ia) as (m & M & De & _).
      unfold use_of. cbn [fst snd]. rewrite M. unfold uses. rewrite NR.
      replace (t <? e - m_duration m + m_duration m) with false by lia. cbn [andb orb]. now rewrite andb_false_r.
  Qed.

  Lemma total_bound : forall ends r t, (total p me ends r t <= sumZ (map (fun a => amt a r) (dkeys ends)))%Z.
  Proof.
    intros ends r t. unfold total, dkeys. rewrite map_map. apply sumZ_map_le. intros [a e] _.
    unfold use_of, amt. cbn [fst snd]. destruct (mode_of p me a) eqn:M; [|lia].
    pose proof (amount_nonneg a a0 r M). destruct (uses p a0 (e - m_duration a0) r t); lia.
  Qed.

  Lemma search_finds : forall fuel av m bad c, row_full p av -> needs_all m av -> bad = false ->
    forall D, c <= D -> D < c + fuel -> (forall r t, In r (dkeys av) -> t < D + m_duration m -> t < new_horizon p) ->
    ~ blocked p av m D -> exists c', search fuel p av m bad c = Ok (c', false) /\ c <= c' <= D.
  Proof.
    induction fuel as [|fuel IH]; intros av m bad c R N Eb D L1 L2 Hor NB; [lia|]. cbn [search].
    destruct (scan_total p av m bad c R N) as [vb H]. rewrite H. cbn [bind].
    assert (B0 : snd vb = false).
    { destruct (snd vb) eqn:Sb; auto. exfalso.
      (* the flag is raised only beyond the horizon *)
      revert H Sb. unfold scan. intros H Sb.
      assert (Q : snd vb = bad).
      { apply (@foldM_inv _ _ (scan_time p av m) (fun _ s => snd s = bad) _ _ _ H); auto.
        intros l0 t l1 s1 s2 E S1 H1. apply seq_split in E as [Et Lt]. unfold scan_time in H1.
        apply (@foldM_inv _ _ (scan_cell p av m t) (fun _ s => snd s = bad) _ _ _ H1); auto.
        intros k0 r k1 s3 s4 E S3 H3. unfold scan_cell in H3.
        assert (T : t < new_horizon p). { apply (Hor r); [rewrite E; apply in_elt|lia]. }
        replace (t <? new_horizon p) with true in H3 by lia.
        apply bind_ok in H3 as [row [_ H3]]. apply bind_ok in H3 as [x [_ H3]]. apply bind_ok in H3 as [n [_ H3]].
        destruct (x <? n)%Z; injection H3 as <-; auto. }
      congruence. }
    destruct (fst vb) eqn:V.
    - rewrite B0. exists c. split; auto.
    - apply scan_ok in H as [H _]. destruct (Nat.eq_dec c D) as [->|Ne]; [elim NB; auto|].
      destruct (IH av m (snd vb) (c + 1) R N B0 D) as [c' [S L]]; auto; try lia. exists c'. split; auto. lia.
  Qed.

  Lemma step_long : forall g g', inv p me pe mins0 g -> g_bad g = false -> g_perm g <> [] ->
    (forall a e, In (a, e) (g_ends g) -> e <= done g) -> sgs_step p me g = Ok g' ->
    g_bad g' = false /\ (forall a e, In (a, e) (g_ends g') -> e <= done g').
  Proof.
    intros g g' I B N Le H. destruct (next_total p (g_perm g) W N) as [a [NA Ia]].
    pose proof (step_inv p me pe mins0 (w_names _ W) g g' I B H) as (I' & _ & _).
    pose proof (inv_split g I) as PS. pose proof (inv_split g' I') as PS'.
    unfold sgs_step in H. rewrite NA in H.
    assert (Ip : In a pe) by (apply (i_all _ _ _ _ _ I); auto).
    apply bind_ok in H as [c0 [C0 H]]. apply bind_ok in H as [m [M H]]. apply bind_ok in H as [cb [CB H]].
    apply dgetE_ok in C0.
    pose proof (i_avail _ _ _ _ _ I) as SH.
    assert (AK : dkeys (g_avail g) = res_names p) by (rewrite (proj1 SH); apply avail_keys).
    assert (RF : row_full p (g_avail g)) by (eapply shift_full; eauto; apply (w_rows _ W)).
    assert (NA' : needs_all m (g_avail g)) by (eapply mode_needs; eauto).
    assert (Da : dur a = m_duration m) by (unfold dur; now rewrite M).
    assert (Dle : done g + m_duration m <= new_horizon p).
    { unfold done. rewrite <- Da. etransitivity; [|exact Long].
      rewrite (list_sum_perm _ _ (Permutation_map dur PS)), map_app, list_sum_app.
      pose proof (list_sum_in dur _ _ Ia). lia. }
    assert (C0le : c0 <= done g).
    { destruct (i_min_le _ _ _ _ _ I a c0 C0) as [D|(b & l & _ & _ & Ib)].
      - rewrite (Zero _ _ D). lia.
      - eapply Le; eauto. }
    assert (AmA : forall r, amt a r = amount m r) by (intros; unfold amt; now rewrite M).
    assert (NB : ~ blocked p (g_avail g) m (done g)).
    { intros (r & t & x & n & T1 & T2 & T3 & T4 & T5).
      rewrite (proj2 SH) in T3. destruct (cell (avail_init p) r t) as [y|] eqn:Cy; [|discriminate].
      injection T3 as <-. pose proof (Fit r t y Cy) as Fy.
      assert (An : amount m r = n) by (unfold amount; now rewrite T4).
      destruct (pymem r (p_nonren p)) eqn:NR.
      - pose proof (total_bound (g_ends g) r t) as TB.
        rewrite (sumZ_map_perm (fun a => amt a r) PS), map_app, sumZ_app in Fy.
        pose proof (sum_in (fun a => amt a r) _ _ (fun x => amt_nonneg x r) Ia) as SI. cbn beta in SI.
        rewrite AmA in SI. lia.
      - rewrite total_late in T5; auto; [|intros; etransitivity; [eapply Le; eauto|lia]].
        specialize (Fy a Ip). rewrite AmA in Fy. lia. }
    destruct (search_finds (S (new_horizon p)) (g_avail g) m false c0 RF NA' eq_refl (done g)) as [c' [S L]]; auto; try lia.
    rewrite S in CB. injection CB as <-. cbn [fst snd] in H.
    apply bind_ok in H as [ab [AB H]]. rewrite (proj2 (pymem_true a _) Ia) in H.
    apply bind_ok in H as [succs [_ H]]. apply bind_ok in H as [mins [_ H]]. injection H as <-.
    cbn [g_bad g_ends].
    assert (Na : ~ In a (dkeys (g_ends g))) by (eapply (i_disj _ _ _ _ _ I); eauto).
    split.
    - destruct (snd ab) eqn:Bad; auto. exfalso.
      apply book_bad in AB as (r & t & x & NR & C & Neg); auto; [|intros r n Dn; eapply NN; eauto].
      pose proof (i_avail _ _ _ _ _ I') as SH'. cbn [g_avail g_ends] in SH'.
      rewrite (proj2 SH') in C. destruct (cell (avail_init p) r t) as [y|] eqn:Cy; [|discriminate]. injection C as <-.
      pose proof (Fit r t y Cy) as Fy. rewrite NR in Fy.
      cbn [g_perm g_ends] in PS'. rewrite (sumZ_map_perm (fun a => amt a r) PS'), map_app, sumZ_app in Fy.
      pose proof (total_bound (dset (g_ends g) a (c' + m_duration m)) r t) as TB.
      pose proof (sumZ_map_nonneg (fun a => amt a r) (pyremove a (g_perm g)) (fun x _ => amt_nonneg x r)). lia.
    - intros b e. unfold done. cbn [g_ends]. rewrite (@dset_absent nat) by auto. unfold dkeys.
      rewrite map_app, map_app, list_sum_app. cbn [map fst list_sum fold_right]. fold (dkeys (g_ends g)). fold (done g).
      intros Ib. rewrite Da. apply in_app_or in Ib as [Ib|[[= <- <-]|[]]].
      + specialize (Le b e Ib). lia.
      + lia.
  Qed.

  Lemma loop_long : forall fuel g g', inv p me pe mins0 g -> g_bad g = false ->
    (forall a e, In (a, e) (g_ends g) -> e <= done g) -> sgs_loop fuel p me g = Ok g' ->
    g_bad g' = false /\ (forall a e, In (a, e) (g_ends g') -> e <= list_sum (map dur pe)).
  Proof.
    assert (Fin : forall g, inv p me pe mins0 g -> (forall a e, In (a, e) (g_ends g) -> e <= done g) ->
      forall a e, In (a, e) (g_ends g) -> e <= list_sum (map dur pe)).
    { intros g I L a e Ia. specialize (L a e Ia).
      rewrite (list_sum_perm _ _ (Permutation_map dur (inv_split g I))), map_app, list_sum_app. unfold done in L. lia. }
    induction fuel as [|fuel IH]; intros g g' I B L H; cbn [sgs_loop] in H.
    - destruct (g_perm g) eqn:P; [injection H as <-; split; eauto|]. rewrite B in H. discriminate.
    - destruct (g_perm g) eqn:P; [injection H as <-; split; eauto|]. rewrite B in H.
      apply bind_ok in H as [g1 [S1 H]]. destruct (step_long g g1 I B) as [B1 L1]; auto; [congruence|].
      eapply IH; [| | |exact H]; auto.
      apply (step_inv p me pe mins0 (w_names _ W) g g1 I B S1).
  Qed.
End Total.
