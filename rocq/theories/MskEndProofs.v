(** From the invariant of the main loop to the staffed schedule (C95). *)
From Coq Require Import String.
From Coq Require Import List Bool Arith ZArith Lia Permutation.
From Coq Require Import ZifyBool ZifyNat.
From Verif Require Import Py PyList PyMore SgsModel MskModel TspProofs SgsProofs SgsTotalProofs SgsProps MskSpec MskSatProofs MskProofs MskLoopProofs.
Import ListNotations.

Lemma dget_numbered : forall (l : list nat) s a, s <= a -> dget (combine (seq s (length l)) l) a = nth_error l (a - s).
Proof.
  induction l as [|y l IH]; intros s a L; cbn [length seq combine dget].
  - now destruct (a - s).
  - destruct (pyeqb_spec a s) as [->|N]; [now rewrite Nat.sub_diag|].
    rewrite IH by lia. replace (a - s) with (S (a - S s)) by lia. reflexivity.
Qed.

Lemma mode_of_in : forall x sch use modes a m, 1 <= a ->
  (mode_of (ms_base x) (extend_modes modes) a = Ok m <-> mode_in x (Msol sch (modes_dict modes) use) a = Some m).
Proof.
  intros x sch use modes a m L. unfold mode_of, mode_in, modes_dict. cbn [s_modes]. rewrite dget_numbered by lia.
  destruct a as [|i]; [lia|]. replace (S i - 1) with i by lia. unfold dgetE, lget.
  destruct (dget (p_modes (ms_base x)) (S i)) as [d|]; cbn [bind].
  - destruct (nth_error (extend_modes modes) i) as [k|]; cbn [bind]; [|split; discriminate].
    destruct (dget d k); split; congruence.
  - destruct (nth_error (extend_modes modes) i); split; discriminate.
Qed.

Lemma nth_ext : forall A (l l' : list A), length l = length l' -> (forall i y, nth_error l i = Some y -> nth_error l' i = Some y) -> l = l'.
Proof.
  induction l as [|y l IH]; intros [|z l'] L H; try discriminate; auto. f_equal.
  - specialize (H 0 y eq_refl). cbn in H. congruence.
  - apply IH; [cbn in L; lia|]. intros i v N. exact (H (S i) v N).
Qed.

Lemma fix_valid : forall p modes me n, fix_modes p modes = Ok me -> length modes = n -> p_sink p = n + 2 ->
  (forall i k, nth_error modes i = Some k -> exists d m, dget (p_modes p) (i + 2) = Some d /\ dget d k = Some m) ->
  me = extend_modes modes.
Proof.
  intros p modes me n F L S V. destruct (fix_ok p modes me n F L S) as (E & Lf & At). rewrite E. unfold extend_modes.
  do 2 f_equal. symmetry. apply nth_ext; [lia|]. intros i k N. destruct (At i k N) as (d & D & Q).
  destruct (V i k N) as (d' & m & D' & M). rewrite D in D'. injection D' as <-. rewrite Q. unfold dmem. now rewrite M.
Qed.

Lemma mode_of_entry : forall p me a m, mode_of p me a = Ok m -> exists d k, dget (p_modes p) a = Some d /\ dget d k = Some m.
Proof.
  intros p me a m M. unfold mode_of in M. apply bind_ok in M as [d [D M]]. apply dgetE_ok in D. destruct a; [discriminate|].
  apply bind_ok in M as [k [_ M]]. apply dgetE_ok in M. eauto.
Qed.

Lemma required_in : forall x m s n, NoDup (dkeys (m_need m)) ->
  (In (s, n) (required x m) <-> In s (ms_skills x) /\ dget (m_need m) s = Some n /\ (0 < n)%Z).
Proof.
  intros x m s n N. unfold required. rewrite filter_In. cbn [fst snd]. rewrite andb_true_iff, Z.ltb_lt. split.
  - intros (I & P & L). split; [exact (proj1 (pymem_true s _) P)|]. split; auto. apply In_dget; auto.
  - intros (P & D & L). split; [apply dget_In; exact D|]. split; auto. exact (proj2 (pymem_true s _) P).
Qed.

Section Core.
  Variables (x : ms) (n : nat) (modes : list nat) (pe : list nat) (mins0 : list (nat * nat)) (g : mstate).
  Let p := ms_base x.
  Let me := extend_modes modes.
  Hypothesis D : ms_data x n.
  Hypothesis Rng : forall a, In a pe <-> 1 <= a <= n + 2.
  Hypothesis I : minv x me pe mins0 g.

  Definition sch0 : schedule :=
    map (fun ae : nat * nat => (fst ae, (Z.of_nat (snd ae) - Z.of_nat (dur p me (fst ae)), Z.of_nat (snd ae))%Z)) (h_ends g).
  Let sol := Msol sch0 (modes_dict modes) (h_use g).

  Lemma ends_range : forall a e, In (a, e) (h_ends g) -> 1 <= a <= n + 2.
  Proof. intros a e Ia. apply Rng. apply (v_all _ _ _ _ _ I). right. eapply In_key; eauto. Qed.

  Lemma time0 : forall a s e, time_of sol a = Some (s, e) <->
    exists e' m, In (a, e') (h_ends g) /\ mode_of p me a = Ok m /\ m_duration m <= e' /\ e' < p_horizon p /\
      e = Z.of_nat e' /\ s = Z.of_nat (e' - m_duration m).
  Proof.
    intros a s e. unfold time_of, sol. cbn [s_sch].
    assert (N : NoDup (dkeys sch0)).
    { unfold dkeys, sch0. rewrite map_map. exact (v_ends _ _ _ _ _ I). }
    split.
    - intros T. apply dget_In in T. apply in_map_iff in T as [[a' e'] [E Ia]]. cbn [fst snd] in E. injection E as -> <- <-.
      destruct (v_placed _ _ _ _ _ I a e' Ia) as (m & M & L & H & _). exists e', m.
      unfold dur. fold p me in M. rewrite M. repeat split; auto. lia.
    - intros (e' & m & Ia & M & L & H & -> & ->). apply In_dget; auto. apply in_map_iff. exists (a, e'). split; auto.
      cbn [fst snd]. unfold dur. rewrite M. f_equal. f_equal. lia.
  Qed.

  Lemma mode0 : forall a e m, In (a, e) (h_ends g) -> (mode_of p me a = Ok m <-> mode_in x sol a = Some m).
  Proof. intros a e m Ia. apply mode_of_in. apply ends_range in Ia. lia. Qed.

  Lemma need_pos : forall a m s z, mode_of p me a = Ok m -> 1 <= a -> In s (ms_skills x) -> need_in x sol a s = z -> (0 < z)%Z ->
    In (s, z) (required x m).
  Proof.
    intros a m s z M La Is N L. destruct (mode_of_entry _ _ _ _ M) as (d & k & Dd & Dm).
    apply required_in; [eapply (d_keys _ _ D); eauto|]. split; auto. split; auto.
    unfold need_in in N. apply (mode_of_in x sch0 (h_use g)) in M; [|auto]. fold sol in M. rewrite M in N.
    destruct (dget (m_need m) s); [congruence|lia].
  Qed.

  Lemma skill0 : forall a e s z, In (a, e) (h_ends g) -> In s (ms_skills x) -> need_in x sol a s = z -> (0 < z)%Z ->
    (z <= team_level x sol a s)%Z.
  Proof.
    intros a e s z Ia Is N L. destruct (v_placed _ _ _ _ _ I a e Ia) as (m & M & _). fold p me in M.
    pose proof (need_pos a m s z M ltac:(apply ends_range in Ia; lia) Is N L) as R.
    destruct (v_team _ _ _ _ _ I a e m Ia M) as (u & Du & Q); [intros E; rewrite E in R; destruct R|].
    unfold team_level, sol. cbn [s_use]. rewrite Du. apply Q. exact R.
  Qed.

  Lemma works0 : forall a w, works sol a w -> exists e m u ls, In (a, e) (h_ends g) /\ mode_of p me a = Ok m /\ required x m <> [] /\
    0 < m_duration m /\ dget (h_use g) a = Some u /\ In (w, ls) u /\ In w (dkeys u).
  Proof.
    intros a w (u & Du & Iw). unfold sol in Du. cbn [s_use] in Du.
    assert (K : In a (dkeys (h_ends g))).
    { apply (v_use_keys _ _ _ _ _ I). apply dmem_true. unfold dmem. now rewrite Du. }
    apply in_map_iff in K as [[a' e] [Ea Ie]]. cbn [fst] in Ea. subst a'.
    pose proof Iw as Iw'. apply in_map_iff in Iw as [[w' ls] [Ew Iw]]. cbn [fst] in Ew. subst w'.
    destruct (v_users _ _ _ _ _ I a u Du) as (_ & (m & M & R) & _). exists e, m, u, ls. fold p me in M.
    split; auto. split; auto. split; auto. split; auto.
    destruct (mode_of_entry _ _ _ _ M) as (d & k & Dd & Dm).
    destruct (required x m) as [|[s z] q] eqn:E; [congruence|].
    assert (In (s, z) (required x m)) by (rewrite E; now left). apply required_in in H; [|eapply (d_keys _ _ D); eauto].
    destruct H as (H1 & H2 & H3). eapply (d_skilled _ _ D); eauto.
  Qed.

  Lemma staff0 : forall a w, works sol a w -> (exists s e, time_of sol a = Some (s, e)) /\
    In w (dkeys (ms_emps x)) /\ exists sk, In sk (ms_skills x) /\ (0 < need_in x sol a sk)%Z.
  Proof.
    intros a w W. destruct (works0 a w W) as (e & m & u & ls & Ie & M & R & _ & Du & Iw & _).
    split; [|split].
    - destruct (v_placed _ _ _ _ _ I a e Ie) as (m' & M' & L & H & _). fold p me in M'.
      do 2 eexists. apply time0. exists e, m'. repeat split; eauto.
    - destruct (v_users _ _ _ _ _ I a u Du) as (_ & _ & _ & U). destruct (U w ls Iw) as (em & Em & _).
      apply dmem_true. unfold dmem. now rewrite Em.
    - destruct (mode_of_entry _ _ _ _ M) as (d & k & Dd & Dm).
      destruct (required x m) as [|[s z] q] eqn:E; [congruence|].
      assert (In (s, z) (required x m)) by (rewrite E; now left). apply required_in in H; [|eapply (d_keys _ _ D); eauto].
      destruct H as (H1 & H2 & H3). exists s. split; auto. unfold need_in.
      rewrite (proj1 (mode0 a e m Ie) M), H2. exact H3.
  Qed.

  Lemma runs0 : forall a s e t, time_of sol a = Some (s, e) -> (s <= Z.of_nat t < e)%Z -> runs x me (h_ends g) a t.
  Proof.
    intros a s e t T L. apply time0 in T as (e' & m & Ie & M & L1 & L2 & -> & ->). exists e', m. split; auto. split; auto. lia.
  Qed.

  Lemma calendar0 : forall a w s e t, works sol a w -> time_of sol a = Some (s, e) -> (s <= Z.of_nat t < e)%Z -> at_work x w t.
  Proof.
    intros a w s e t W T L. destruct (works0 a w W) as (_ & m & u & ls & _ & M & R & _ & Du & Iw & _).
    destruct (v_users _ _ _ _ _ I a u Du) as (_ & _ & _ & U). destruct (U w ls Iw) as (em & Em & _ & Q).
    exists em. split; auto. apply Q. eapply runs0; eauto.
  Qed.

  Lemma one_place0 : forall a b w sa ea sb eb, a <> b -> works sol a w -> works sol b w ->
    time_of sol a = Some (sa, ea) -> time_of sol b = Some (sb, eb) -> (ea <= sb \/ eb <= sa)%Z.
  Proof.
    intros a b w sa ea sb eb Ne Wa Wb Ta Tb.
    destruct (works0 a w Wa) as (_ & ma & ua & la & _ & Ma & _ & La & Dua & _ & Ka).
    destruct (works0 b w Wb) as (_ & mb & ub & lb & _ & Mb & _ & Lb & Dub & _ & Kb).
    assert (Pa : (0 <= sa /\ sa < ea)%Z).
    { apply time0 in Ta as (e' & m & Ie & M & L1 & L2 & -> & ->). rewrite M in Ma. injection Ma as <-. lia. }
    assert (Pb : (0 <= sb /\ sb < eb)%Z).
    { apply time0 in Tb as (e' & m & Ie & M & L1 & L2 & -> & ->). rewrite M in Mb. injection Mb as <-. lia. }
    destruct (Z_le_gt_dec ea sb); [auto|]. destruct (Z_le_gt_dec eb sa); [auto|]. exfalso.
    apply (v_excl _ _ _ _ _ I a b w ua ub (Z.to_nat (Z.max sa sb))); auto.
    - eapply runs0; eauto. lia.
    - eapply runs0; eauto. lia.
  Qed.

  Lemma one_unit0 : ms_one x = true -> forall a w w', works sol a w -> works sol a w' -> w = w'.
  Proof.
    intros O a w w' (u & Du & Iw) (u' & Du' & Iw'). rewrite Du in Du'. injection Du' as <-.
    unfold sol in Du. cbn [s_use] in Du. destruct (v_users _ _ _ _ _ I a u Du) as (_ & _ & Q & _).
    destruct (Q O) as [wl ->]. destruct Iw as [<-|[]]. destruct Iw' as [<-|[]]. reflexivity.
  Qed.

  Lemma order0 : forall a b l sa ea sb eb, dget (p_succ p) a = Some l -> In b l ->
    time_of sol a = Some (sa, ea) -> time_of sol b = Some (sb, eb) -> (ea <= sb)%Z.
  Proof.
    intros a b l sa ea sb eb Dl Ib Ta Tb. apply time0 in Ta as (e & m & Ie & M & L1 & L2 & -> & ->).
    apply time0 in Tb as (e' & m' & Ie' & M' & L1' & L2' & -> & ->).
    destruct (v_placed _ _ _ _ _ I b e' Ie') as (m2 & M2 & _ & _ & Q). fold p me in M2, Q. rewrite M' in M2. injection M2 as <-.
    destruct (Q a l Dl Ib) as [_ H]. specialize (H e Ie). lia.
  Qed.

  Lemma length0 : forall a s e, time_of sol a = Some (s, e) -> exists m, mode_in x sol a = Some m /\
    (0 <= s)%Z /\ e = (s + Z.of_nat (m_duration m))%Z /\ (e < Z.of_nat (p_horizon p))%Z.
  Proof.
    intros a s e T. apply time0 in T as (e' & m & Ie & M & L1 & L2 & -> & ->). exists m.
    split; [apply (mode0 a e' m Ie); auto|]. lia.
  Qed.

  (** Sums over tasks are sums over the placed tasks. *)
  Lemma sum_tasks : forall (f : nat -> Z), (forall a, In a (tasks_of x) -> ~ In a (dkeys (h_ends g)) -> f a = 0%Z) ->
    sumZ (map f (tasks_of x)) = sumZ (map (fun ae : nat * nat => f (fst ae)) (h_ends g)).
  Proof.
    intros f Z0. rewrite <- (map_map fst f). fold (dkeys (h_ends g)).
    assert (G : forall l k, NoDup k -> NoDup l -> incl k l -> (forall a, In a l -> ~ In a k -> f a = 0%Z) ->
      sumZ (map f l) = sumZ (map f k)).
    { induction l as [|y l IH]; intros k Nk Nl Inc Zk.
      - destruct k as [|z k]; auto. destruct (Inc z (or_introl eq_refl)).
      - inversion Nl as [|? ? Ny Nl']; subst. cbn [map]. rewrite sumZ_cons. destruct (in_dec Nat.eq_dec y k) as [Iy|Iy].
        + destruct (in_split _ _ Iy) as (k1 & k2 & ->).
          rewrite (IH (k1 ++ k2)).
          * rewrite !map_app, !sumZ_app. cbn [map]. rewrite sumZ_cons. ring.
          * eapply NoDup_remove_1; eauto.
          * auto.
          * intros z Iz. destruct (Inc z) as [<-|]; auto; [rewrite in_app_iff in *; cbn; tauto|].
            exfalso. apply (NoDup_remove_2 _ _ _ Nk). exact Iz.
          * intros a Ia Na. apply Zk; [now right|]. rewrite in_app_iff in *. cbn [In]. intros [K|[K|K]]; [tauto| |tauto].
            subst a. contradiction.
        + rewrite (Zk y) by (auto; now left). rewrite (IH k); [lia|auto|auto| |].
          * intros z Iz. destruct (Inc z Iz) as [<-|]; auto. contradiction.
          * intros a Ia. apply Zk. now right. }
    apply G; auto.
    - exact (v_ends _ _ _ _ _ I).
    - apply (Permutation_NoDup (Permutation_sym (d_tasks _ _ D))), seq_NoDup.
    - intros a Ka. apply in_map_iff in Ka as [[a' e] [Ea Ie]]. cbn [fst] in Ea. subst a'. apply ends_range in Ie.
      rewrite (d_tasks _ _ D). apply in_seq. lia.
  Qed.

  Lemma amt_need : forall a e m r, In (a, e) (h_ends g) -> mode_of p me a = Ok m -> need_in x sol a r = amount m r.
  Proof. intros a e m r Ie M. unfold need_in, amount. now rewrite (proj1 (mode0 a e m Ie) M). Qed.

  Lemma amount_pos : forall a m r, mode_of p me a = Ok m -> (0 <= amount m r)%Z.
  Proof.
    intros a m r M. destruct (mode_of_entry _ _ _ _ M) as (d & k & Dd & Dm). unfold amount.
    destruct (dget (m_need m) r) eqn:E; [|lia]. eapply (d_needs _ _ D); eauto.
  Qed.

  Lemma time_in : forall a e m, In (a, e) (h_ends g) -> mode_of p me a = Ok m ->
    time_of sol a = Some (Z.of_nat (e - m_duration m), Z.of_nat e).
  Proof.
    intros a e m Ie M. apply time0. destruct (v_placed _ _ _ _ _ I a e Ie) as (m' & M' & L & H & _). fold p me in M'.
    rewrite M in M'. injection M' as <-. exists e, m. repeat split; auto.
  Qed.
  Lemma time_none : forall a, ~ In a (dkeys (h_ends g)) -> time_of sol a = None.
  Proof.
    intros a N. destruct (time_of sol a) as [[s e]|] eqn:T; auto. exfalso. apply time0 in T as (e' & m & Ie & _).
    apply N. eapply In_key; eauto.
  Qed.

  Lemma running_sum : forall r t, running_use x sol r (Z.of_nat t) =
    sumZ (map (fun ae : nat * nat => match mode_of p me (fst ae) with
      | Ok m => if (snd ae - m_duration m <=? t) && (t <? snd ae) then amount m r else 0%Z | Err _ => 0%Z end) (h_ends g)).
  Proof.
    intros r t. unfold running_use. rewrite sum_tasks.
    - apply sumZ_map_ext. intros [a e] Ie. cbn [fst snd].
      destruct (v_placed _ _ _ _ _ I a e Ie) as (m & M & L & _). fold p me in M. rewrite M.
      rewrite (time_in a e m Ie M), (amt_need a e m r Ie M).
      destruct (Z.leb_spec (Z.of_nat (e - m_duration m)) (Z.of_nat t)), (Z.ltb_spec (Z.of_nat t) (Z.of_nat e)),
        (Nat.leb_spec (e - m_duration m) t), (Nat.ltb_spec t e); cbn [andb]; auto; lia.
    - intros a _ N. now rewrite time_none.
  Qed.

  Lemma sumZ_le : forall A (f h : A -> Z) l, (forall y, In y l -> (f y <= h y)%Z) -> (sumZ (map f l) <= sumZ (map h l))%Z.
  Proof.
    intros A f h l H. induction l as [|y l IH]; cbn [map]; [lia|]. rewrite !sumZ_cons.
    pose proof (H y (or_introl eq_refl)). assert (sumZ (map f l) <= sumZ (map h l))%Z by (apply IH; intros; apply H; now right). lia.
  Qed.

  Lemma running_le : forall r t, (running_use x sol r (Z.of_nat t) <= total p me (h_ends g) r t)%Z.
  Proof.
    intros r t. rewrite running_sum. unfold total. apply sumZ_le. intros [a e] Ie. unfold use_of. cbn [fst snd].
    destruct (v_placed _ _ _ _ _ I a e Ie) as (m & M & L & _). fold p me in M. rewrite M.
    pose proof (amount_pos a m r M). unfold uses. rewrite Nat.sub_add by lia.
    destruct (e - m_duration m <=? t), (t <? e); cbn [andb orb]; try lia.
    destruct (pymem r (p_nonren p) && (0 <? m_duration m) && (t <? new_horizon p)); lia.
  Qed.

  Lemma caps0 : nonneg_caps p.
  Proof. intros r t v C. apply cell_capacity_some in C. eapply (d_caps _ _ D); eauto. Qed.

  Lemma running0 : forall r t c, h_bad g = false \/ ~ In r (p_nonren p) -> capacity_of p r t = Some c ->
    (running_use x sol r (Z.of_nat t) <= c)%Z.
  Proof.
    intros r t c B C. destruct (le_lt_dec (new_horizon p) t) as [L|L].
    - rewrite running_sum. replace (sumZ _) with 0%Z; [eapply (d_caps _ _ D); eauto|]. symmetry.
      rewrite (sumZ_map_ext _ (fun _ => 0%Z)).
      + clear. induction (h_ends g); cbn [map]; [reflexivity|]. rewrite sumZ_cons. lia.
      + intros [a e] Ie. cbn [fst snd]. destruct (v_placed _ _ _ _ _ I a e Ie) as (m & M & De & _). fold p me in M. rewrite M.
        destruct (Nat.eq_dec (m_duration m) 0) as [Z0|Z0].
        * rewrite Z0. destruct (Nat.leb_spec (e - 0) t), (Nat.ltb_spec t e); cbn [andb]; auto; lia.
        * pose proof (v_horizon _ _ _ _ _ I a e m r Ie M ltac:(lia) (capacity_name _ _ _ _ C)). fold p in H.
          destruct (Nat.ltb_spec t e); [lia|]. now rewrite andb_false_r.
    - eapply Z.le_trans; [apply running_le|]. rewrite <- cell_capacity in C by auto.
      destruct (v_avail _ _ _ _ _ I) as [_ SH]. specialize (SH r t). fold p me in SH. rewrite C in SH.
      pose proof (v_cap _ _ _ _ _ I caps0 r t _ SH) as Q.
      assert (0 <= c - total p me (h_ends g) r t)%Z; [|lia]. apply Q. destruct B as [B|B]; [auto|].
      right. exact (proj2 (pymem_false r (p_nonren p)) B).
  Qed.

  Lemma total0 : forall r c, ms_flat x -> h_bad g = false -> h_perm g = [] -> In r (p_nonren p) -> capacity_of p r 0 = Some c ->
    (total_use x sol r <= c)%Z.
  Proof.
    intros r c F B Pe Nr C. unfold total_use. rewrite sum_tasks.
    2:{ intros a Ia Na. exfalso. apply Na. rewrite (d_tasks _ _ D), in_seq in Ia.
        assert (Ip : In a pe) by (apply Rng; lia). apply (v_all _ _ _ _ _ I) in Ip as [Ip|Ip]; auto.
        rewrite Pe in Ip. destruct Ip. }
    assert (Zn : forall a e m, In (a, e) (h_ends g) -> mode_of p me a = Ok m -> m_duration m = 0 -> amount m r = 0%Z).
    { intros a e m Ie M Z0. destruct (mode_of_entry _ _ _ _ M) as (d & k & Dd & Dm). unfold amount.
      destruct (dget (m_need m) r) eqn:E; auto. eapply (f_zero _ F); eauto. }
    assert (Hz : forall a e m, In (a, e) (h_ends g) -> mode_of p me a = Ok m -> 0 < m_duration m -> e <= new_horizon p).
    { intros a e m Ie M L. exact (v_horizon _ _ _ _ _ I a e m r Ie M L (capacity_name _ _ _ _ C)). }
    assert (Each : forall a e, In (a, e) (h_ends g) -> need_in x sol a r = use_of p me (a, e) r (new_horizon p - 1)).
    { intros a e Ie. destruct (v_placed _ _ _ _ _ I a e Ie) as (m & M & De & _). fold p me in M.
      rewrite (amt_need a e m r Ie M). unfold use_of. cbn [fst snd]. rewrite M.
      destruct (Nat.eq_dec (m_duration m) 0) as [Z0|Z0].
      - rewrite (Zn a e m Ie M Z0). now destruct (uses _ _ _ _ _).
      - pose proof (Hz a e m Ie M ltac:(lia)). unfold uses. fold p. rewrite (proj2 (pymem_true r (p_nonren p)) Nr).
        replace (e - m_duration m <=? new_horizon p - 1) with true by lia.
        replace (0 <? m_duration m) with true by lia. replace (new_horizon p - 1 <? new_horizon p) with true by lia.
        cbn [andb]. now rewrite orb_true_r. }
    rewrite (sumZ_map_ext _ (fun ae => use_of p me ae r (new_horizon p - 1))) by (intros [a e] Ie; apply Each; auto).
    fold (total p me (h_ends g) r (new_horizon p - 1)).
    destruct (Nat.eq_dec (new_horizon p) 0) as [Nh|Nh].
    - unfold total. rewrite (sumZ_map_ext _ (fun _ => 0%Z)).
      + replace (sumZ (map (fun _ => 0%Z) (h_ends g))) with 0%Z; [eapply (d_caps _ _ D); eauto|].
        clear. induction (h_ends g); cbn [map]; [reflexivity|]. rewrite sumZ_cons. lia.
      + intros [a e] Ie. destruct (v_placed _ _ _ _ _ I a e Ie) as (m & M & De & _). fold p me in M.
        unfold use_of. cbn [fst snd]. rewrite M. destruct (Nat.eq_dec (m_duration m) 0) as [Z0|Z0].
        * rewrite (Zn a e m Ie M Z0). now destruct (uses _ _ _ _ _).
        * pose proof (Hz a e m Ie M ltac:(lia)). lia.
    - assert (Lt : new_horizon p - 1 < new_horizon p) by lia.
      pose proof (f_flat _ F r (new_horizon p - 1) c Nr Lt C) as C'. fold p in C'. rewrite <- cell_capacity in C' by auto.
      destruct (v_avail _ _ _ _ _ I) as [_ SH]. specialize (SH r (new_horizon p - 1)). fold p me in SH. rewrite C' in SH.
      pose proof (v_cap _ _ _ _ _ I caps0 r (new_horizon p - 1) _ SH (or_introl B)). lia.
  Qed.

  Lemma complete0 : ms_flat x -> h_bad g = false -> h_perm g = [] -> NoDup pe -> ms_complete x sol.
  Proof.
    intros F B Pe Np. constructor.
    - unfold sol. cbn [s_sch]. unfold sch0, dkeys at 1. rewrite map_map. cbn [fst]. fold (dkeys (h_ends g)).
      apply NoDup_Permutation.
      + exact (v_ends _ _ _ _ _ I).
      + apply (Permutation_NoDup (Permutation_sym (d_tasks _ _ D))), seq_NoDup.
      + intros a. rewrite (d_tasks _ _ D), in_seq. split; intros K.
        * assert (Q : In a pe) by (apply (v_all _ _ _ _ _ I); auto). apply Rng in Q. lia.
        * assert (Q : In a pe) by (apply Rng; lia). apply (v_all _ _ _ _ _ I) in Q as [Q|Q]; auto. rewrite Pe in Q. destruct Q.
    - exact length0.
    - constructor.
      + intros a s z Ia Is Nz L. rewrite (d_tasks _ _ D), in_seq in Ia.
        assert (Q : In a pe) by (apply Rng; lia). apply (v_all _ _ _ _ _ I) in Q as [Q|Q]; [rewrite Pe in Q; destruct Q|].
        apply in_map_iff in Q as [[a' e] [Ea Ie]]. cbn [fst] in Ea. subst a'. eapply skill0; eauto.
      + intros a w s e t _ W T L. eapply calendar0; eauto.
      + intros a b w sa ea sb eb _ _ Ne Wa Wb Ta Tb. eapply one_place0; eauto.
      + intros r t c se ee _ _ C. apply running0; auto.
      + intros r c Nr C. apply total0; auto.
      + intros a b l sa ea sb eb Dl Ib Ta Tb. eapply order0; eauto.
    - exact one_unit0.
    - intros a w W. apply staff0 in W. tauto.
  Qed.
End Core.

(** * The whole run *)
Definition marker : Z * Z := (99999999, 9999999)%Z.

Lemma max_key_last : forall l n, In n l -> (forall a, In a l -> a <= n) -> max_key l = Ok n.
Proof.
  intros l n I H. destruct l as [|y l]; [destruct I|]. cbn [max_key]. f_equal.
  assert (G : forall l y, fold_left Nat.max l y <= Nat.max y (fold_left Nat.max l y) /\ y <= fold_left Nat.max l y /\
    (forall a, In a l -> a <= fold_left Nat.max l y) /\ (fold_left Nat.max l y = y \/ In (fold_left Nat.max l y) l)).
  { clear. induction l as [|z l IH]; intros y; cbn [fold_left]; [split; [lia|]; split; [lia|]; split; [intros ? []|auto]|].
    destruct (IH (Nat.max y z)) as (_ & H2 & H3 & H4). split; [lia|]. split; [lia|]. split.
    - intros a [<-|Ia]; [lia|auto].
    - destruct H4 as [H4|H4]; [|right; now right]. rewrite H4. destruct (Nat.max_spec y z) as [[_ ->]|[_ ->]]; auto. right. now left. }
  destruct (G l y) as (_ & G2 & G3 & G4). apply Nat.le_antisymm.
  - apply H. destruct G4 as [->|G4]; [now left|now right].
  - destruct I as [<-|I]; auto.
Qed.

Section Run.
  Variables (x : ms) (n : nat) (perm modes : list nat) (prios : list (list nat)) (sol : msol).
  Hypothesis D : ms_data x n.
  Hypothesis C : ms_choice x n perm modes prios.
  Hypothesis Run : sgs_multi_skill x perm modes prios = Ok sol.
  Let p := ms_base x.
  Let me := extend_modes modes.
  Let pe := extend_perm p perm.
  Let mins := map (fun a => (a, 0)) (dkeys (p_succ p)).

  Lemma psink : p_sink p = n + 2.
  Proof.
    unfold p_sink. rewrite <- (map_length fst). pose proof (Permutation_length (d_tasks _ _ D)) as L. rewrite seq_length in L. exact L.
  Qed.

  Lemma run_cases : exists g, minv x me pe mins g /\ NoDup pe /\ (forall a, In a pe <-> 1 <= a <= n + 2) /\
    ((h_perm g = [] /\ h_bad g = false /\ sol = Msol (sch0 x modes g) (modes_dict modes) (h_use g)) \/
     (~ In (n + 2) (dkeys (h_ends g)) /\
      sol = Msol (sch0 x modes g ++ [(n + 2, marker)]) (modes_dict modes) (h_use g))).
  Proof.
    unfold sgs_multi_skill in Run. fold p mins pe in Run. apply bind_ok in Run as [me' [F H]].
    apply bind_ok in H as [g [L H]]. apply bind_ok in H as [sch [S H]]. apply bind_ok in H as [sch' [Fi H]]. injection H as H.
    assert (E : me' = me) by (eapply fix_valid; [exact F|apply (c_modes _ _ _ _ _ C)|apply psink|apply (c_exists _ _ _ _ _ C)]).
    subst me'. destruct (extend_range p perm n (c_perm _ _ _ _ _ C) psink) as [Np Rp]. fold pe in Np, Rp. rewrite psink in Rp.
    assert (Nn : forall a m, mode_of (ms_base x) me a = Ok m -> NoDup (dkeys (m_need m))).
    { intros a m M. destruct (mode_of_entry _ _ _ _ M) as (d & k & Dd & Dm). eapply (d_keys _ _ D); eauto. }
    pose proof (mstart_inv x me pe mins Np (d_emps _ _ D)) as I0. fold p in I0.
    pose proof (mloop_inv x me prios pe mins (d_names _ _ D) (d_skills _ _ D) (d_emps _ _ D) (c_prios _ _ _ _ _ C) Nn _ _ _ I0 L) as [I Q].
    assert (Sh : shape (n + 2) g).
    { eapply (mloop_shape x me prios pe mins (d_names _ _ D) (d_skills _ _ D) (d_emps _ _ D) (c_prios _ _ _ _ _ C) Nn (n + 2)
        (d_acyclic _ _ D) (d_succ _ _ D)); [| |exact I0| |exact L].
      - intros l Dl. rewrite (d_sink_succ _ _ D) in Dl. congruence.
      - intros m M. destruct (n + 2) as [|k] eqn:Ek; [lia|]. unfold mode_of in M. apply bind_ok in M as [d [Dd M]]. apply dgetE_ok in Dd.
        apply bind_ok in M as [k0 [K0 M]]. apply dgetE_ok in M. unfold me, extend_modes, lget in K0.
        destruct (nth_error (1 :: modes ++ [1]) k) as [k1|] eqn:N1; [|discriminate]. injection K0 as ->.
        assert (k = 1 + n) by lia. subst k. cbn [Nat.add nth_error] in N1.
        rewrite nth_error_app2 in N1 by (rewrite (c_modes _ _ _ _ _ C); lia). rewrite (c_modes _ _ _ _ _ C), Nat.sub_diag in N1.
        injection N1 as <-. eapply (d_sink_length _ _ D); rewrite ?Ek; eauto.
      - right. exists (1 :: map (fun y => y + 2) perm). cbn [h_perm]. unfold pe, extend_perm. rewrite psink. reflexivity. }
    exists g. split; auto. split; auto. split; auto. apply make_ok in S. fold p me in S.
    change (sch = sch0 x modes g) in S. subst sch. rewrite <- H. unfold ms_finish in Fi.
    destruct (h_bad g || h_late g) eqn:B.
    - destruct Sh as [(_ & B1 & B2)|[l E]]; [rewrite B1, B2 in B; discriminate|]. right.
      assert (Ns : ~ In (n + 2) (dkeys (h_ends g))).
      { apply (v_disj _ _ _ _ _ I). rewrite E. apply in_or_app. right. now left. }
      split; auto. f_equal.
      assert (Mk : max_key (dkeys (p_succ p)) = Ok (n + 2)).
      { apply max_key_last; [|intros a Ka; apply (d_succ_range _ _ D) in Ka; lia]. apply dmem_true. unfold dmem. unfold p. now rewrite (d_sink_succ _ _ D). }
      rewrite Mk in Fi. cbn [bind] in Fi. injection Fi as <-.
      assert (Nk : ~ In (n + 2) (dkeys (sch0 x modes g))).
      { unfold dkeys, sch0. rewrite map_map. exact Ns. }
      destruct (dmem (sch0 x modes g) (n + 2)) eqn:Dm; [apply dmem_true in Dm; contradiction|].
      apply dset_new. exact Nk.
    - apply orb_false_iff in B as [B1 B2]. left. injection Fi as <-. auto.
  Qed.

  Lemma run_complete : ms_flat x -> time_of sol (ms_sink x) <> Some marker -> ms_complete x sol.
  Proof.
    intros F T. destruct run_cases as (g & I & Np & Rp & [(P & B & ->)|(Ns & ->)]).
    - eapply complete0; eauto.
    - exfalso. apply T. rewrite (d_sink _ _ D). unfold time_of. cbn [s_sch]. apply dget_last.
      unfold dkeys, sch0. rewrite map_map. exact Ns.
  Qed.

  Lemma run_part : ms_part x sol.
  Proof.
    destruct run_cases as (g & I & Np & Rp & Cs).
    assert (Ex : exists tail, sol = Msol (sch0 x modes g ++ tail) (modes_dict modes) (h_use g) /\
      (tail = [] \/ (tail = [(n + 2, marker)] /\ ~ In (n + 2) (dkeys (h_ends g))))).
    { destruct Cs as [(_ & _ & ->)|(Ns & ->)]; [exists []; rewrite app_nil_r; auto|eauto]. }
    destruct Ex as (tail & Es & Ht). clear Cs Run. subst sol.
    set (sol := Msol (sch0 x modes g ++ tail) (modes_dict modes) (h_use g)).
    set (sol0 := Msol (sch0 x modes g) (modes_dict modes) (h_use g)).
    assert (T1 : forall a s e, time_of sol0 a = Some (s, e) -> time_of sol a = Some (s, e)).
    { intros a s e T. unfold time_of, sol0, sol in *. cbn [s_sch] in *. clear -T. revert T.
      induction (sch0 x modes g) as [|[k v] l IH]; cbn [app dget]; [discriminate|]. destruct (pyeqb a k); auto. }
    assert (T2 : forall a, a <> n + 2 -> time_of sol a = time_of sol0 a).
    { intros a Na. unfold time_of, sol0, sol. cbn [s_sch]. clear -Na Ht.
      induction (sch0 x modes g) as [|[k v] l IH]; cbn [app dget].
      - destruct Ht as [->|[-> _]]; auto. cbn [dget]. destruct (pyeqb_spec a (n + 2)); [congruence|auto].
      - destruct (pyeqb a k); auto. }
    assert (T3 : forall a s e, placed x sol a s e -> time_of sol0 a = Some (s, e)).
    { intros a s e [T N]. rewrite (d_sink _ _ D) in N. rewrite <- T2; auto. }
    constructor.
    - intros a s e Pl. exact (length0 x n modes pe mins g Rp I a s e (T3 _ _ _ Pl)).
    - intros a b l sa ea sb eb Dl Ib Pa Pb. exact (order0 x n modes pe mins g Rp I a b l sa ea sb eb Dl Ib (T3 _ _ _ Pa) (T3 _ _ _ Pb)).
    - intros a s e sk z Pl Is Nz L. apply T3 in Pl. apply (time0 x n modes pe mins g Rp I) in Pl as (e' & m & Ie & _).
      exact (skill0 x n modes pe mins g D Rp I a e' sk z Ie Is Nz L).
    - intros a w W. destruct (staff0 x n modes pe mins g D Rp I a w W) as ((s & e & T) & Q). split; auto.
      exists s, e. apply T1. exact T.
    - intros a w s e t W Pl L. exact (calendar0 x n modes pe mins g D Rp I a w s e t W (T3 _ _ _ Pl) L).
    - intros a b w sa ea sb eb Ne Wa Wb Pa Pb. exact (one_place0 x n modes pe mins g D Rp I a b w sa ea sb eb Ne Wa Wb (T3 _ _ _ Pa) (T3 _ _ _ Pb)).
    - intros O a w w'. exact (one_unit0 x modes pe mins g I O a w w').
    - intros r t c Nr Cc. pose proof (running0 x n modes pe mins g D Rp I r t c (or_intror Nr) Cc) as Q. fold sol0 in Q.
      replace (running_use x sol r (Z.of_nat t)) with (running_use x sol0 r (Z.of_nat t)); auto.
      unfold running_use. f_equal. apply map_ext_in. intros a _. change (need_in x sol0 a r) with (need_in x sol a r).
      destruct (Nat.eq_dec a (n + 2)) as [->|Na]; [|now rewrite T2].
      destruct Ht as [->|[-> Ns]]; [unfold sol; rewrite app_nil_r; reflexivity|].
      assert (Nk : ~ In (n + 2) (dkeys (sch0 x modes g))) by (unfold dkeys, sch0; rewrite map_map; exact Ns).
      assert (E0 : time_of sol0 (n + 2) = None) by (apply dget_None; exact Nk).
      assert (E1 : time_of sol (n + 2) = Some marker) by (apply dget_last; exact Nk).
      rewrite E0, E1. unfold marker. destruct (Z.leb_spec 99999999 (Z.of_nat t)), (Z.ltb_spec (Z.of_nat t) 9999999); cbn [andb]; auto; lia.
  Qed.

  Lemma run_wf : ms_full x n -> time_of sol (ms_sink x) <> Some marker -> ms_wf x sol.
  Proof.
    intros U T. destruct run_cases as (g & I & Np & Rp & [(P & B & Es)|(Ns & Es)]).
    2:{ exfalso. apply T. rewrite Es, (d_sink _ _ D). unfold time_of. cbn [s_sch]. apply dget_last.
        unfold dkeys, sch0. rewrite map_map. exact Ns. }
    clear Run. subst sol. set (sol := Msol (sch0 x modes g) (modes_dict modes) (h_use g)).
    assert (Nt : NoDup (tasks_of x)) by (apply (Permutation_NoDup (Permutation_sym (d_tasks _ _ D))), seq_NoDup).
    assert (Pl : forall a, In a (tasks_of x) -> exists e m, In (a, e) (h_ends g) /\ mode_of p me a = Ok m /\ e < p_horizon p).
    { intros a Ia. rewrite (d_tasks _ _ D), in_seq in Ia. assert (Q : In a pe) by (apply Rp; lia).
      apply (v_all _ _ _ _ _ I) in Q as [Q|Q]; [rewrite P in Q; destruct Q|].
      apply in_map_iff in Q as [[a' e] [Ea Ie]]. cbn [fst] in Ea. subst a'.
      destruct (v_placed _ _ _ _ _ I a e Ie) as (m & M & _ & H & _). exists e, m. auto. }
    assert (Md : forall a m, In a (tasks_of x) -> mode_in x sol a = Some m -> exists d k, dget (p_modes p) a = Some d /\ dget d k = Some m).
    { intros a m Ia M. destruct (Pl a Ia) as (e & m' & Ie & M' & _). pose proof (proj1 (mode0 x n modes pe mins g Rp I a e m' Ie) M') as Q.
      fold sol in Q. rewrite M in Q. injection Q as <-. eapply mode_of_entry; eauto. }
    constructor; auto.
    - unfold sol. cbn [s_sch]. unfold sch0, dkeys at 1. rewrite map_map. cbn [fst]. fold (dkeys (h_ends g)).
      apply NoDup_Permutation; auto.
      + exact (v_ends _ _ _ _ _ I).
      + intros a. split; intros K.
        * rewrite (d_tasks _ _ D), in_seq. assert (Q : In a pe) by (apply (v_all _ _ _ _ _ I); auto). apply Rp in Q. lia.
        * destruct (Pl a K) as (e & m & Ie & _). eapply In_key; eauto.
    - intros a s e Ta. apply (length0 x n modes pe mins g Rp I) in Ta as (m & _ & Q & _). exact Q.
    - intros a Ia. destruct (Pl a Ia) as (e & m & Ie & M & _). exists m. apply (mode0 x n modes pe mins g Rp I a e m Ie). exact M.
    - intros a m Ia M. destruct (Md a m Ia M) as (d & k & Dd & Dm). eapply (d_keys _ _ D); eauto.
    - rewrite (d_sink _ _ D), (d_tasks _ _ D). apply in_seq. lia.
    - exact (d_names _ _ D).
    - exact (u_nonren _ _ U).
    - intros a m r Ia M Ir. destruct (Md a m Ia M) as (d & k & Dd & Dm). eapply (u_need _ _ U); eauto.
    - intros r t Ir Q. apply (u_rows _ _ U); auto. left.
      assert (Is : In (n + 2) (tasks_of x)) by (rewrite (d_tasks _ _ D); apply in_seq; lia).
      destruct (Pl _ Is) as (e & m & _ & _ & H). fold p. destruct Q as [->|(se & ee & Ts & Lt)]; [lia|].
      apply (length0 x n modes pe mins g Rp I) in Ts as (m' & _ & _ & _ & Q). fold p in Q. lia.
    - intros a u w l Ia Du Iw. unfold sol in Du. cbn [s_use] in Du.
      destruct (v_users _ _ _ _ _ I a u Du) as (_ & _ & _ & Us). destruct (Us w l Iw) as (em & Em & S1 & S2).
      exists em. split; auto. split; auto. intros s f Ta.
      assert (W : works sol a w). { exists u. split; auto. apply in_map_iff. exists (w, l). auto. }
      apply (length0 x n modes pe mins g Rp I) in Ta as (m' & _ & _ & _ & Q). pose proof (u_cal _ _ U w em Em). lia.
    - exact (d_succ _ _ D).
    - intros a l Dl. split.
      + rewrite (d_tasks _ _ D), in_seq.
        assert (K : In a (dkeys (p_succ (ms_base x)))) by (apply dmem_true; unfold dmem; now rewrite Dl).
        apply (d_succ_range _ _ D) in K. lia.
      + intros b Ib. rewrite (d_tasks _ _ D), in_seq. pose proof (u_closed _ _ U a l b Dl Ib). lia.
  Qed.
End Run.
