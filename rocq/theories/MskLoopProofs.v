(** The invariant of the main loop of the multi-skill generation scheme (C95). *)
From Coq Require Import String.
From Coq Require Import List Bool Arith ZArith Lia Permutation.
From Coq Require Import ZifyBool ZifyNat.
From Verif Require Import Py PyList PyMore SgsModel MskModel TspProofs SgsProofs SgsTotalProofs SgsProps MskSpec MskSatProofs MskProofs.
Import ListNotations.

Section Loop.
  Variables (x : ms) (me : list nat) (prios : list (list nat)) (pe : list nat) (mins0 : list (nat * nat)).
  Let p := ms_base x.
  Hypothesis Names : NoDup (res_names p).
  Hypothesis Esk : forall w e, dget (ms_emps x) w = Some e -> NoDup (dkeys (e_skill e)).
  Hypothesis Nemp : NoDup (dkeys (ms_emps x)).
  Hypothesis Pr : forall pr, In pr prios -> Permutation pr (dkeys (ms_emps x)).
  Hypothesis Nneed : forall a m, mode_of p me a = Ok m -> NoDup (dkeys (m_need m)).

  (** Task [a] runs at [t]. *)
  Definition runs (ends : list (nat * nat)) (a t : nat) : Prop :=
    exists e m, In (a, e) ends /\ mode_of p me a = Ok m /\ e - m_duration m <= t < e.

  Record minv (g : mstate) : Prop := {
    v_perm : NoDup (h_perm g);
    v_ends : NoDup (dkeys (h_ends g));
    v_all : forall a, In a pe <-> In a (h_perm g) \/ In a (dkeys (h_ends g));
    v_disj : forall a, In a (h_perm g) -> ~ In a (dkeys (h_ends g));
    v_placed : forall a e, In (a, e) (h_ends g) ->
      exists m, mode_of p me a = Ok m /\ m_duration m <= e /\ e < p_horizon p /\
        (forall b l, dget (p_succ p) b = Some l -> In a l -> ~ In b (h_perm g) /\
           forall eb, In (b, eb) (h_ends g) -> eb <= e - m_duration m);
    v_horizon : forall a e m r, In (a, e) (h_ends g) -> mode_of p me a = Ok m -> 0 < m_duration m ->
      In r (res_names p) -> e <= new_horizon p;
    v_keys : dkeys (h_min g) = dkeys mins0;
    v_min : forall s v, dget (h_min g) s = Some v ->
      forall b l eb, dget (p_succ p) b = Some l -> In s l -> In (b, eb) (h_ends g) -> eb <= v;
    v_avail : shift (avail_init p) (h_avail g) (total p me (h_ends g));
    v_cap : nonneg_caps p -> forall r t v, cell (h_avail g) r t = Some v ->
      h_bad g = false \/ pymem r (p_nonren p) = false -> (0 <= v)%Z;
    v_use_keys : forall a, In a (dkeys (h_use g)) -> In a (dkeys (h_ends g));
    v_team : forall a e m, In (a, e) (h_ends g) -> mode_of p me a = Ok m -> required x m <> [] ->
      exists u, dget (h_use g) a = Some u /\ forall s n, In (s, n) (required x m) -> (n <= brings x u s)%Z;
    v_users : forall a u, dget (h_use g) a = Some u -> NoDup (dkeys u) /\
      (exists m, mode_of p me a = Ok m /\ required x m <> []) /\ (ms_one x = true -> exists wl, u = [wl]) /\
      forall w ls, In (w, ls) u -> exists em, dget (ms_emps x) w = Some em /\
        (forall s, In s ls -> exists v, dget (e_skill em) s = Some v) /\
        forall t, runs (h_ends g) a t -> nth_error (e_cal em) t = Some true /\ ~ free (h_wav g) w t;
    v_wkeys : dkeys (h_wav g) = dkeys (ms_emps x);
    v_free : forall w t, free (h_wav g) w t -> exists em, dget (ms_emps x) w = Some em /\ nth_error (e_cal em) t = Some true;
    v_excl : forall a b w ua ub t, a <> b -> dget (h_use g) a = Some ua -> dget (h_use g) b = Some ub ->
      In w (dkeys ua) -> In w (dkeys ub) -> runs (h_ends g) a t -> runs (h_ends g) b t -> False
  }.

  Lemma NoDup_one : forall (u : list (nat * list string)) w, u <> [] -> NoDup (dkeys u) ->
    (forall v ls, In (v, ls) u -> v = w) -> exists wl, u = [wl].
  Proof.
    intros u w Ne Nd H. destruct u as [|a [|b u]]; [congruence|eauto|]. exfalso.
    destruct a as [a la], b as [b lb]. pose proof (H a la (or_introl eq_refl)). pose proof (H b lb (or_intror (or_introl eq_refl))).
    subst. inversion Nd; subst. apply H2. now left.
  Qed.

  Lemma mstep_inv : forall g g', minv g -> h_bad g = false -> h_late g = false -> ms_step x me prios g = Ok g' ->
    minv g' /\
    ((h_late g' = true \/ (h_bad g' = true /\ h_perm g' = h_perm g) \/
      exists a, next_act p (h_perm g) = Some a /\ In a (h_perm g) /\ h_perm g' = pyremove a (h_perm g) /\
        h_late g' = false /\ (h_bad g' = true -> forall m, mode_of p me a = Ok m -> m_duration m <> 0)) /\
     (h_late g' = true -> h_perm g' = h_perm g)).
  Proof.
    intros g g' I B Lt H. unfold ms_step in H. fold p in H.
    destruct (next_act p (h_perm g)) as [a|] eqn:NA; [|discriminate].
    apply bind_ok in H as [c0 [C0 H]]. apply bind_ok in H as [m [M H]]. apply bind_ok in H as [f [F H]].
    apply dgetE_ok in C0. destruct f as [c bad ws|bad].
    2:{ injection H as <-. split; [|cbn; split; auto]. destruct I. constructor; cbn; auto.
        intros N r t v Cv _. eapply v_cap0; eauto. }
    destruct bad.
    { injection H as <-. split; [|cbn; split; auto; discriminate]. destruct I. constructor; cbn; auto.
      intros N r t v Cv [Q|Q]; [discriminate|eauto]. }
    apply bind_ok in H as [ab [AB H]]. apply bind_ok in H as [[eu' wav'] [SF H]]. cbn [fst snd] in H.
    apply bind_ok in H as [succs [SU H]]. apply bind_ok in H as [mins [MI H]]. injection H as <-.
    apply dgetE_ok in SU. apply find_some in NA as NA'. destruct NA' as [Pa Rd].
    apply msearch_ok in F as (_ & Lc & Hz & Fi & TE). fold p in Hz, Fi.
    assert (Na : ~ In a (dkeys (h_ends g))) by (eapply v_disj; eauto).
    assert (Nk : NoDup (dkeys (h_avail g))).
    { destruct (v_avail _ I) as [K _]. rewrite K, avail_keys. exact Names. }
    assert (Dur0 : snd ab = true -> m_duration m <> 0).
    { intros Q Z0. unfold book in AB. rewrite Z0 in AB. cbn [seq foldM] in AB. injection AB as <-. discriminate. }
    apply book_ok in AB as (_ & SH & BB); auto.
    apply foldM_raise_min in MI as (MK & MS & MD).
    rewrite (@dset_absent nat) by auto.
    set (e := c + m_duration m) in *.
    assert (Ue : forall r t, use_of p me (a, e) r t = if uses p m c r t then amount m r else 0%Z).
    { intros. unfold use_of. cbn [fst snd]. rewrite M. unfold e. now rewrite Nat.add_sub. }
    assert (Preds : forall b l eb, dget (p_succ p) b = Some l -> In a l -> In (b, eb) (h_ends g) -> eb <= c0).
    { intros b l eb D Ia Ib. eapply (v_min _ I a c0 C0); eauto. }
    assert (SA : shift (avail_init p) (fst ab) (total p me (h_ends g ++ [(a, e)]))).
    { eapply shift_ext; [eapply shift_trans; [exact (v_avail _ I)|exact SH]|]. intros. cbn beta. now rewrite total_snoc, Ue. }
    assert (Dua : dget (h_use g) a = None).
    { apply dget_None. intros K. apply Na. apply (v_use_keys _ I). exact K. }
    assert (Nw : NoDup (dkeys (h_wav g))) by (now rewrite (v_wkeys _ I)).
    assert (RunsA : forall t, runs (h_ends g ++ [(a, e)]) a t -> c <= t < e).
    { intros t (e' & m' & Ie & M' & Ht). rewrite M in M'. injection M' as <-. apply in_app_or in Ie as [Ie|[[= <-]|[]]].
      - elim Na. apply in_map_iff. exists (a, e'). auto.
      - unfold e in *. lia. }
    assert (RunsB : forall b t, b <> a -> runs (h_ends g ++ [(a, e)]) b t -> runs (h_ends g) b t).
    { intros b t Ne (e' & m' & Ie & M' & Ht). apply in_app_or in Ie as [Ie|[[= E _]|[]]]; [|congruence]. exists e', m'. auto. }
    (* what the staffing did *)
    assert (Staff : dkeys wav' = dkeys (h_wav g) /\ (forall w t, free wav' w t -> free (h_wav g) w t) /\
      ((required x m = [] /\ eu' = h_use g) \/
       (required x m <> [] /\ exists u, eu' = dset (h_use g) a u /\ NoDup (dkeys u) /\ (ms_one x = true -> exists wl, u = [wl]) /\
         (forall s n, In (s, n) (required x m) -> (n <= brings x u s)%Z) /\
         (forall w ls, In (w, ls) u -> (forall t, c <= t < e -> free (h_wav g) w t /\ ~ free wav' w t) /\
            exists em, dget (ms_emps x) w = Some em /\ forall s, In s ls -> exists v, dget (e_skill em) s = Some v)))).
    { destruct (team_ok _ _ _ _ _ TE Nw) as [[R ->]|(R & l & -> & Nl & Fl & Suf & One)].
      - cbn [staff] in SF. injection SF as <- <-. split; auto.
      - assert (Il : forall w, In w l -> In w (dkeys (ms_emps x))).
        { intros w Iw. rewrite <- (v_wkeys _ I). apply (Fl w Iw). }
        destruct (staff_ok x prios a m c l (h_use g) (h_wav g) eu' wav' Esk Nemp Pr (Nneed a m M) Dua R Nl Il Suf SF)
          as (u & Eu & Nu & Une & Met & Us & Wk & Wf).
        split; auto. split; [intros w t Fw; apply (Wf w t Fw)|]. right. split; auto. exists u. split; auto. split; auto. split.
        + intros O. destruct (One O) as [w0 ->]. apply (NoDup_one u w0 Une Nu). intros v ls Iv.
          destruct (Us v ls Iv) as [[->|[]] _]. reflexivity.
        + split; auto. intros w ls Iw. destruct (Us w ls Iw) as [Il' X]. split; auto. intros t Ht.
          assert (It : In t (seq c (m_duration m))) by (apply in_seq; unfold e in Ht; lia).
          split; [apply (Fl w Il'); auto|]. intros Fr. destruct (Wf w t Fr) as [_ K]. apply K; auto.
          apply in_map_iff. exists (w, ls). auto. }
    destruct Staff as (Wk & Wf & St).
    assert (GetOld : forall b, b <> a -> dget eu' b = dget (h_use g) b).
    { intros b Nb. destruct St as [[_ ->]|(_ & u & -> & _)]; auto. rewrite dget_dset_other; auto. }
    split.
    2:{ cbn [h_late h_bad h_perm]. split; [|discriminate]. right. right. exists a. split; auto. split; auto. split; auto. split; auto.
        intros Q m' M'. rewrite M in M'. injection M' as <-. auto. }
    constructor; cbn [h_avail h_wav h_min h_perm h_ends h_use h_bad h_late].
    - apply pyremove_NoDup, v_perm, I.
    - unfold dkeys. rewrite map_app. apply NoDup_snoc; [apply v_ends, I|exact Na].
    - intros y. rewrite (v_all _ I y). unfold dkeys. rewrite map_app, in_app_iff. cbn [map fst In].
      rewrite pyremove_In by (apply v_perm, I). destruct (Nat.eq_dec y a); [subst y; tauto|intuition congruence].
    - intros y Iy. rewrite pyremove_In in Iy by (apply v_perm, I). destruct Iy as [Ny Iy].
      unfold dkeys. rewrite map_app, in_app_iff. cbn [map fst In]. intros [K|[K|[]]]; [|congruence].
      eapply v_disj; eauto.
    - intros y ey Iy. apply in_app_or in Iy as [Iy|[[= <- <-]|[]]].
      + destruct (v_placed _ I y ey Iy) as (mx & M1 & M2 & M3 & M4). exists mx. split; auto. split; auto. split; auto.
        intros b l D Il. destruct (M4 b l D Il) as [N1 N2]. split.
        * intros K. apply pyremove_incl in K. auto.
        * intros eb Ib. apply in_app_or in Ib as [Ib|[[= <- <-]|[]]]; auto. contradiction.
      + exists m. split; auto. split; [unfold e; lia|]. split; [unfold e; lia|]. replace (e - m_duration m) with c by (unfold e; lia).
        intros b l D Il. split.
        * intros K. apply pyremove_incl in K. exact (ready_spec p _ _ Rd b l D Il K).
        * intros eb Ib. apply in_app_or in Ib as [Ib|[[= <- _]|[]]].
          -- specialize (Preds b l eb D Il Ib). lia.
          -- exfalso. exact (ready_spec p _ _ Rd a l D Il Pa).
    - intros y ey mx r Iy Mx Dx Ir. apply in_app_or in Iy as [Iy|[[= <- <-]|[]]].
      + eapply v_horizon; eauto.
      + rewrite M in Mx. injection Mx as <-.
        assert (Ir' : In r (dkeys (h_avail g))) by (rewrite (proj1 (v_avail _ I)), avail_keys; exact Ir).
        destruct (Fi r (c + m_duration m - 1) Ir') as [L _]; [lia|]. unfold e. lia.
    - rewrite MK. apply v_keys, I.
    - intros s v G b l eb D Il Ib. rewrite MD in G. destruct (dget (h_min g) s) as [y|] eqn:Gy; [|discriminate].
      injection G as <-. apply in_app_or in Ib as [Ib|[[= <- <-]|[]]].
      + pose proof (v_min _ I s y Gy _ _ _ D Il Ib). destruct (pymem s succs); lia.
      + rewrite SU in D. injection D as <-. rewrite (proj2 (pymem_true s succs) Il). fold e. lia.
    - exact SA.
    - intros NC r t v C Bb. destruct SH as [KK SH]. rewrite SH in C.
      destruct (cell (h_avail g) r t) as [y|] eqn:Cy; [|discriminate]. injection C as <-.
      pose proof (v_cap _ I NC r t y Cy (or_introl B)) as Py.
      destruct (uses p m c r t) eqn:U; [|lia].
      unfold uses in U. apply andb_prop in U as [U1 U2]. apply Nat.leb_le in U1.
      destruct (Nat.ltb_spec t (c + m_duration m)) as [L|L].
      + destruct (Fi r t (cell_key _ _ _ _ Cy) (conj U1 L)) as (_ & v & n & Cx & Dn & Le).
        rewrite Cy in Cx. injection Cx as <-. unfold amount. rewrite Dn. lia.
      + cbn [orb] in U2. apply andb_prop in U2 as [U2 U3]. apply andb_prop in U2 as [U2 U4].
        apply Nat.ltb_lt in U3, U4. destruct Bb as [Bb|Bb]; [|congruence].
        apply (BB Bb r t); auto. rewrite SH, Cy. unfold uses. rewrite U2.
        replace (c <=? t) with true by lia. replace (0 <? m_duration m) with true by lia.
        replace (t <? new_horizon p) with true by lia. cbn [andb]. rewrite orb_true_r. reflexivity.
    - intros b Kb. unfold dkeys. rewrite map_app, in_app_iff. cbn [map fst In].
      destruct (Nat.eq_dec b a) as [->|Ne]; [auto|]. left. apply (v_use_keys _ I).
      destruct St as [[_ E]|(_ & u & E & _)]; rewrite E in Kb; auto. rewrite dkeys_dset in Kb. destruct Kb; [congruence|auto].
    - intros b eb mb Ib Mb Rb. apply in_app_or in Ib as [Ib|[[= <- <-]|[]]].
      + destruct (v_team _ I b eb mb Ib Mb Rb) as (u & Du & Q). exists u. split; auto. rewrite GetOld; auto.
        intros ->. apply Na. apply in_map_iff. exists (a, eb). auto.
      + rewrite M in Mb. injection Mb as <-. destruct St as [[R _]|(_ & u & -> & _ & _ & Q & _)]; [contradiction|].
        exists u. rewrite dget_dset_same. auto.
    - intros b u Du. destruct (Nat.eq_dec b a) as [->|Ne].
      + destruct St as [[_ E]|(R & u' & E & Nu & One & Q & Us)]; rewrite E in Du; [congruence|].
        rewrite dget_dset_same in Du. injection Du as ->. split; auto. split; [eauto|]. split; auto.
        intros w ls Iw. destruct (Us w ls Iw) as [X1 (em & Em & X2)]. exists em. split; auto. split; auto.
        intros t Rt. apply RunsA in Rt. destruct (X1 t Rt) as [Fr NF]. split; auto.
        destruct (v_free _ I w t Fr) as (em' & Em' & N'). rewrite Em in Em'. now injection Em' as <-.
      + rewrite GetOld in Du by auto. destruct (v_users _ I b u Du) as (Nu & Rm & One & Us). split; auto. split; auto. split; auto.
        intros w ls Iw. destruct (Us w ls Iw) as (em & Em & X2 & X3). exists em. split; auto. split; auto.
        intros t Rt. destruct (X3 t (RunsB b t Ne Rt)) as [Y1 Y2]. split; [exact Y1|]. intros Fr. apply Y2. apply Wf. exact Fr.
    - rewrite Wk. apply (v_wkeys _ I).
    - intros w t Fr. apply (v_free _ I). apply Wf. exact Fr.
    - assert (Sym : forall b w ub ua t, b <> a -> dget eu' a = Some ua -> dget eu' b = Some ub -> In w (dkeys ua) -> In w (dkeys ub) ->
        runs (h_ends g ++ [(a, e)]) a t -> runs (h_ends g ++ [(a, e)]) b t -> False).
      { intros b w ub ua t Ne Da Db Ia Ib Ra Rb. rewrite GetOld in Db by auto. apply RunsB in Rb; auto. apply RunsA in Ra.
        destruct St as [[_ E]|(R & u' & E & Nu & One & Q & Us)]; rewrite E in Da; [congruence|].
        rewrite dget_dset_same in Da. injection Da as ->.
        apply in_map_iff in Ia as [[w' ls] [Ew Ia]]. cbn [fst] in Ew. subst w'.
        apply in_map_iff in Ib as [[w' ls'] [Ew Ib]]. cbn [fst] in Ew. subst w'.
        destruct (Us w ls Ia) as [X1 _]. destruct (X1 t Ra) as [Fr _].
        destruct (v_users _ I b ub Db) as (_ & _ & _ & Ub). destruct (Ub w ls' Ib) as (em & _ & _ & X3).
        destruct (X3 t Rb) as [_ NF]. contradiction. }
      intros b d w ub ud t Ne Db Dd Ib Id Rb Rd'. destruct (Nat.eq_dec b a) as [->|Nb].
      + eapply (Sym d); eauto.
      + destruct (Nat.eq_dec d a) as [->|Nd]; [eapply (Sym b); eauto|].
        rewrite GetOld in Db, Dd by auto. eapply (v_excl _ I b d); eauto.
  Qed.

  Lemma mstart_inv : NoDup pe -> NoDup (dkeys (ms_emps x)) ->
    minv (MS (avail_init p) (map (fun we : nat * employee => (fst we, e_cal (snd we))) (ms_emps x)) mins0 pe [] [] false false).
  Proof.
    intros N Ne. constructor; cbn [h_avail h_wav h_min h_perm h_ends h_use h_bad h_late]; auto; try (intros; contradiction); try discriminate.
    - constructor.
    - intros a. cbn. tauto.
    - eapply shift_ext; [apply shift_refl|]. reflexivity.
    - intros NC r t v C _. eapply NC; eauto.
    - unfold dkeys. rewrite map_map. reflexivity.
    - intros w t [row [D T]]. revert D. clear -T. induction (ms_emps x) as [|[k em] l IH]; cbn [map dget fst snd]; [discriminate|].
      destruct (pyeqb w k); [|exact IH]. intros E. injection E as <-. eauto.
  Qed.

  (** The sink stays at the end of the list, and is the last task placed. *)
  Variable sink : nat.
  Hypothesis Acyclic : exists rank : nat -> nat, forall a l b, dget (p_succ p) a = Some l -> In b l -> rank a < rank b.
  Hypothesis Sdict : NoDup (dkeys (p_succ p)).
  Hypothesis SinkLast : forall l, dget (p_succ p) sink = Some l -> l = [].
  Hypothesis SinkDur : forall m, mode_of p me sink = Ok m -> m_duration m = 0.

  Definition shape (g : mstate) : Prop :=
    (h_perm g = [] /\ h_bad g = false /\ h_late g = false) \/ exists l, h_perm g = l ++ [sink].

  Lemma next_before : forall l a, next_act p (l ++ [sink]) = Some a -> l <> [] -> In a l.
  Proof.
    intros l a F Ne. unfold next_act in F. destruct Acyclic as [rank R]. destruct (min_rank rank l Ne) as [b [Ib Mb]].
    assert (Rb : ready (p_succ p) (l ++ [sink]) b = true).
    { destruct (ready (p_succ p) (l ++ [sink]) b) eqn:E; auto. unfold ready in E. apply negb_false_iff in E.
      apply existsb_exists in E as [[d ls] [Id E]]. cbn [fst snd] in E. apply andb_prop in E as [E1 E2].
      apply pymem_true in E1, E2. pose proof (In_dget _ _ _ Sdict Id) as D. exfalso.
      apply in_app_or in E2 as [E2|[<-|[]]].
      - specialize (R d ls b D E1). specialize (Mb d E2). lia.
      - rewrite (SinkLast ls D) in E1. destruct E1. }
    clear -F Ib Rb. induction l as [|y l IH]; [destruct Ib|]. cbn [app find] in F.
    destruct (ready (p_succ p) ((y :: l) ++ [sink]) y) eqn:E.
    - cbn [app] in E. rewrite E in F. injection F as <-. now left.
    - cbn [app] in E. rewrite E in F. right. destruct Ib as [->|Ib]; [cbn [app] in Rb; congruence|].
      revert F Ib Rb. clear. cbn [app]. generalize (ready (p_succ p) (y :: l ++ [sink])). intros f F Ib Rb.
      induction l as [|z l IH]; [destruct Ib|]. cbn [app find] in F. destruct (f z) eqn:E; [injection F as <-; now left|].
      right. destruct Ib as [->|Ib]; [congruence|auto].
  Qed.

  Lemma pyremove_app : forall a (l : list nat) r, In a l -> pyremove a (l ++ r) = pyremove a l ++ r.
  Proof.
    intros a l r. induction l as [|y l IH]; intros H; [destruct H|]. cbn [app pyremove].
    destruct (pyeqb_spec a y) as [E|E]; auto. cbn [app]. f_equal. apply IH. destruct H; [congruence|auto].
  Qed.

  Lemma mstep_shape : forall g g', minv g -> h_bad g = false -> h_late g = false -> shape g -> h_perm g <> [] ->
    ms_step x me prios g = Ok g' -> shape g'.
  Proof.
    intros g g' I B Lt Sh Ne H. destruct Sh as [[E _]|[l E]]; [congruence|].
    destruct (mstep_inv g g' I B Lt H) as (_ & Q & Ql). destruct (h_late g') eqn:L'.
    { right. exists l. rewrite (Ql eq_refl). exact E. }
    destruct Q as [Q|[[_ Q]|(a & NA & Ia & Pa & _ & Db)]]; [discriminate|right; exists l; congruence|].
    destruct l as [|y l].
    - left. rewrite E in Ia, Pa. cbn [app] in Ia, Pa. destruct Ia as [<-|[]]. cbn [pyremove] in Pa.
      rewrite pyeqb_refl in Pa. split; auto. split; auto.
      destruct (h_bad g') eqn:B'; auto. exfalso. unfold ms_step in H. fold p in H. rewrite NA in H.
      apply bind_ok in H as [c0 [_ H]]. apply bind_ok in H as [m [M _]]. apply (Db eq_refl m M). auto.
    - right. exists (pyremove a (y :: l)). rewrite Pa, E. apply pyremove_app. rewrite E in NA. eapply next_before; eauto. discriminate.
  Qed.

  Lemma mloop_inv : forall fuel g g', minv g -> ms_loop fuel x me prios g = Ok g' ->
    minv g' /\ (h_bad g' = false -> h_late g' = false -> h_perm g' = []).
  Proof.
    induction fuel as [|fuel IH]; intros g g' I H; cbn [ms_loop] in H.
    - destruct (h_perm g) eqn:P; [injection H as <-; auto|].
      destruct (h_bad g || h_late g) eqn:B; [injection H as <-|discriminate]. split; auto. intros E1 E2. rewrite E1, E2 in B. discriminate.
    - destruct (h_perm g) eqn:P; [injection H as <-; auto|].
      destruct (h_bad g || h_late g) eqn:B; [injection H as <-; split; auto; intros E1 E2; rewrite E1, E2 in B; discriminate|].
      apply orb_false_iff in B as [B1 B2]. apply bind_ok in H as [g1 [S H]]. eapply IH; [|exact H]. eapply mstep_inv; eauto.
  Qed.

  Lemma mloop_shape : forall fuel g g', minv g -> shape g -> ms_loop fuel x me prios g = Ok g' -> shape g'.
  Proof.
    induction fuel as [|fuel IH]; intros g g' I Sh H; cbn [ms_loop] in H.
    - destruct (h_perm g) eqn:P; [injection H as <-; auto|].
      destruct (h_bad g || h_late g) eqn:B; [injection H as <-; auto|discriminate].
    - destruct (h_perm g) eqn:P; [injection H as <-; auto|].
      destruct (h_bad g || h_late g) eqn:B; [injection H as <-; auto|].
      apply orb_false_iff in B as [B1 B2]. apply bind_ok in H as [g1 [S H]]. eapply IH; [| |exact H].
      + eapply mstep_inv; eauto.
      + eapply mstep_shape; eauto. congruence.
  Qed.
End Loop.
