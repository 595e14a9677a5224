(** The multi-skill generation scheme never fails on a complete problem (C95). *)
From Coq Require Import String.
From Coq Require Import List Bool Arith ZArith Lia Permutation.
From Coq Require Import ZifyBool ZifyNat.
From Verif Require Import Py PyList PyMore SgsModel MskModel TspProofs SgsProofs SgsTotalProofs SgsProps MskSpec MskSatProofs MskProofs MskLoopProofs MskEndProofs.
Import ListNotations.

Lemma allM_total : forall A (f : A -> res bool) l, (forall y, In y l -> exists b, f y = Ok b) -> exists b, allM f l = Ok b.
Proof.
  intros A f l. induction l as [|y l IH]; intros H; cbn [allM]; [eauto|].
  destruct (H y (or_introl eq_refl)) as [b ->]. cbn [bind]. destruct b; [|eauto]. apply IH. intros z Iz. apply H. now right.
Qed.

Lemma key_some : forall K V {E : PyEq K} (d : list (K * V)) k, In k (dkeys d) -> exists v, dget d k = Some v.
Proof. intros K V E d k I. destruct (dget d k) eqn:G; eauto. apply dget_None in G. contradiction. Qed.

Lemma mapM_some : forall A B (f : A -> res B) l, (forall y, In y l -> exists b, f y = Ok b) -> exists ys, mapM f l = Ok ys.
Proof.
  intros A B f l. induction l as [|y l IH]; intros H; cbn [mapM]; [eauto|].
  destruct (H y (or_introl eq_refl)) as [b ->]. cbn [bind]. destruct IH as [ys ->]; [intros z Iz; apply H; now right|].
  cbn [bind]. eauto.
Qed.

Arguments key_some {K V E d k} _.

Lemma mscan_res_total : forall p av m t rs, row_full p av -> needs_all m av -> incl rs (dkeys av) ->
  exists vb, mscan_res p av m t rs = Ok vb.
Proof.
  intros p av m t rs R N. induction rs as [|r rs IH]; intros Inc; cbn [mscan_res]; [eauto|].
  destruct (Nat.ltb_spec t (new_horizon p)) as [L|L]; [|eauto].
  destruct (R r t (Inc r (or_introl eq_refl)) L) as [v Cv]. apply cell_row in Cv as [row [Dr T]].
  destruct (N r (Inc r (or_introl eq_refl))) as [z Dz]. unfold dgetE, lget. rewrite Dr. cbn [bind]. rewrite T. cbn [bind]. rewrite Dz. cbn [bind].
  destruct (v <? z)%Z; [eauto|]. apply IH. intros y Iy. apply Inc. now right.
Qed.

Lemma mscan_total : forall p av m ts, row_full p av -> needs_all m av -> exists vb, mscan p av m ts = Ok vb.
Proof.
  intros p av m ts R N. induction ts as [|t ts IH]; cbn [mscan]; [eauto|].
  destruct (mscan_res_total p av m t (dkeys av) R N (incl_refl _)) as [vb ->]. cbn [bind]. destruct (fst vb); eauto.
Qed.

(** Every calendar is long enough. *)
Definition long (wav : list (nat * list bool)) (h : nat) : Prop := forall w row, In (w, row) wav -> h <= length row.

Lemma free_workers_total : forall ts wav h, long wav h -> (forall t, In t ts -> t < h) ->
  exists ws, free_workers ts wav = Ok ws /\ incl ws (dkeys wav).
Proof.
  intros ts wav h. induction wav as [|[w row] wav IH]; intros L T; cbn [free_workers].
  - exists []. split; auto. intros y [].
  - destruct (allM_total _ (fun t => lget row t) ts) as [b ->].
    { intros t It. unfold lget. destruct (nth_error row t) eqn:E; eauto. apply nth_error_None in E.
      pose proof (L w row (or_introl eq_refl)). specialize (T t It). lia. }
    cbn [bind]. destruct IH as [ws [-> Inc]]; [intros w' r' I'; eapply L; right; eauto|auto|]. cbn [bind].
    eexists. split; [reflexivity|]. destruct b; intros y Iy.
    + destruct Iy as [<-|Iy]; [now left|right; apply Inc; auto].
    + right. apply Inc. auto.
Qed.

Section Problem.
  Variable x : ms.
  Let p := ms_base x.

  Lemma first_capable_total : forall req ws, incl ws (dkeys (ms_emps x)) -> exists f, first_capable x req ws = Ok f.
  Proof.
    intros req ws. induction ws as [|w ws IH]; intros Inc; cbn [first_capable]; [eauto|].
    destruct (key_some (Inc w (or_introl eq_refl))) as [e De]. unfold dgetE. rewrite De. cbn [bind].
    destruct (capable e req); [eauto|]. apply IH. intros y Iy. apply Inc. now right.
  Qed.

  Lemma level_total : forall ws s, incl ws (dkeys (ms_emps x)) -> exists v, level x ws s = Ok v.
  Proof.
    intros ws s Inc. unfold level. match goal with |- context [foldM ?f _ _] => set (f0 := f) end.
    destruct (@foldM_total _ _ f0 (fun _ _ => True) ws 0%Z) as [z [H _]]; eauto.
    intros l0 w l1 z E _. unfold f0. assert (K : In w (dkeys (ms_emps x))) by (apply Inc; rewrite E; apply in_elt). destruct (key_some K) as [e De].
    unfold dgetE. rewrite De. cbn [bind]. eauto.
  Qed.

  Lemma team_total : forall wav m ts h, dkeys wav = dkeys (ms_emps x) -> long wav h -> (forall t, In t ts -> t < h) ->
    exists vw, team x wav m ts = Ok vw /\ forall ws, snd vw = Some ws -> incl ws (dkeys (ms_emps x)) /\ required x m <> [].
  Proof.
    intros wav m ts h K L T. unfold team. destruct (required x m) as [|kv q] eqn:R; [exists (true, None); split; auto; discriminate|].
    destruct (free_workers_total ts wav h L T) as [ws [-> Inc]]. rewrite K in Inc. cbn [bind]. destruct (ms_one x).
    - destruct (first_capable_total (kv :: q) ws Inc) as [f Hf]. rewrite Hf. cbn [bind]. eexists. split; [reflexivity|].
      intros ws' E. destruct f as [w|]; cbn [snd] in E; injection E as <-; [|split; [auto|discriminate]].
      split; [|discriminate]. intros y [<-|[]]. apply first_capable_ok in Hf. apply Inc. apply Hf.
    - match goal with |- context [allM ?f _] => destruct (allM_total _ f (kv :: q)) as [b ->] end.
      { intros y _. destruct (level_total ws (fst y) Inc) as [v ->]. cbn [bind]. eauto. }
      cbn [bind]. eexists. split; [reflexivity|]. intros ws' E. cbn [snd] in E. injection E as <-. split; [auto|discriminate].
  Qed.

  Lemma msearch_total : forall fuel av wav m bad c, row_full p av -> needs_all m av -> dkeys wav = dkeys (ms_emps x) ->
    long wav (p_horizon p) -> p_horizon p <= fuel + c ->
    exists f, msearch (S fuel) x av wav m bad c = Ok f /\
      forall c' b ws, f = Start c' b (Some ws) -> incl ws (dkeys (ms_emps x)) /\ required x m <> [] /\ c' + m_duration m < p_horizon p.
  Proof.
    induction fuel as [|fuel IH]; intros av wav m bad c R N K L H; cbn [msearch]; fold p;
      destruct (Nat.leb_spec (p_horizon p) (c + m_duration m)) as [Lt|Lt];
      try (eexists; split; [reflexivity|discriminate]); [lia|].
    destruct (mscan_total p av m (seq c (m_duration m)) R N) as [vb ->]. cbn [bind].
    assert (T : exists vw, (if fst vb then team x wav m (seq c (m_duration m)) else Ok (false, None)) = Ok vw /\
      forall ws, snd vw = Some ws -> incl ws (dkeys (ms_emps x)) /\ required x m <> []).
    { destruct (fst vb); [|exists (false, None); split; auto; discriminate].
      apply (team_total wav m _ (p_horizon p) K L). intros t It. apply in_seq in It. lia. }
    destruct T as [vw [-> Q]]. cbn [bind]. destruct (new_horizon p <? _); [eexists; split; [reflexivity|discriminate]|].
    destruct (fst vw).
    - eexists. split; [reflexivity|]. intros c' b ws E. injection E as <- _ E. destruct (Q ws E). auto.
    - apply IH; auto. lia.
  Qed.

  Lemma lput_total : forall ts (row : list bool), (forall t, In t ts -> t < length row) ->
    exists row', foldM (fun row t => lput row t false) row ts = Ok row' /\ length row' = length row.
  Proof.
    intros ts. induction ts as [|t ts IH]; intros row T; cbn [foldM]; [eauto|].
    destruct (lput row t false) as [row1|] eqn:E.
    - cbn [bind]. pose proof E as Q. apply lput_ok in Q. assert (Len : length row1 = length row).
      { destruct Q as [_ ->]. apply lset_length. }
      destruct (IH row1) as [row' [H1 H2]]; [intros t' It'; rewrite Len; apply T; now right|].
      exists row'. split; auto. congruence.
    - exfalso. unfold lput in E. pose proof (T t (or_introl eq_refl)). destruct (Nat.ltb_spec t (length row)); [discriminate|lia].
  Qed.

  Lemma take_total : forall wav w ts h, In w (dkeys wav) -> NoDup (dkeys wav) -> long wav h -> (forall t, In t ts -> t < h) ->
    exists wav', take_worker wav w ts = Ok wav' /\ dkeys wav' = dkeys wav /\ long wav' h.
  Proof.
    intros wav w ts h I Nd L T. unfold take_worker. destruct (key_some I) as [row Dr]. unfold dgetE. rewrite Dr. cbn [bind].
    pose proof (L w row (dget_In _ _ Dr)) as Lr.
    destruct (lput_total ts row) as [row' [-> Len]]; [intros t It; specialize (T t It); lia|]. cbn [bind].
    eexists. split; [reflexivity|]. split; [apply dset_keys_present; auto|].
    intros w' r' I'. assert (Nd' : NoDup (dkeys (dset wav w row'))) by (rewrite dset_keys_present; auto).
    apply (In_dget _ _ _ Nd') in I'. destruct (Nat.eq_dec w' w) as [->|Ne].
    { rewrite dget_dset_same in I'. injection I' as <-. lia. }
    rewrite dget_dset_other in I' by auto. apply (L w'). apply dget_In. exact I'.
  Qed.

  Lemma add_keys : forall w sk cur use, dkeys (fst (fold_left (add_skill w) sk (cur, use))) = dkeys cur.
  Proof.
    intros w sk. induction sk as [|[s v] sk IH]; intros cur use; cbn [fold_left]; auto.
    unfold add_skill at 2. cbn [fst snd]. destruct (dget cur s) eqn:G; [|apply IH]. rewrite IH. apply dset_keys_present.
    apply dmem_true. unfold dmem. now rewrite G.
  Qed.

  Lemma assign_total : forall req ws ts h prio cur use wav, incl ws (dkeys (ms_emps x)) -> dkeys cur = dkeys req ->
    dkeys wav = dkeys (ms_emps x) -> NoDup (dkeys wav) -> long wav h -> (forall t, In t ts -> t < h) ->
    exists use' wav', assign x req ws ts prio cur use wav = Ok (use', wav') /\ long wav' h.
  Proof.
    intros req ws ts h prio. induction prio as [|w prio IH]; intros cur use wav Iw Kc Kw Nd L T; cbn [assign]; [eauto|].
    match goal with |- context [if pymem w ws then ?A else ?B] =>
      assert (Ex : exists cur' use' wav', (if pymem w ws then A else B) = Ok (cur', use', wav') /\
        dkeys cur' = dkeys req /\ dkeys wav' = dkeys (ms_emps x) /\ long wav' h) end.
    { destruct (pymem w ws) eqn:P; [|eauto 8]. apply (proj1 (pymem_true w ws)) in P. apply Iw in P.
      destruct (key_some P) as [e De]. unfold dgetE at 1. rewrite De. cbn [bind].
      destruct (take_total wav w ts h) as (wav' & -> & K' & L'); auto; [now rewrite Kw|]. cbn [bind].
      do 3 eexists. split; [reflexivity|]. split; [rewrite add_keys; auto|]. split; [congruence|auto]. }
    destruct Ex as (cur' & use' & wav' & -> & Kc' & Kw' & L'). cbn [bind].
    assert (Mt : exists b, met req cur' = Ok b).
    { apply allM_total. intros [s z] Is. cbn [fst snd]. assert (K : In s (dkeys cur')).
      { rewrite Kc'. apply in_map_iff. exists (s, z). auto. }
      destruct (key_some K) as [v Dv]. unfold dgetE. rewrite Dv. cbn [bind]. eauto. }
    destruct Mt as [b ->]. cbn [bind]. destruct b; [eauto|]. apply IH; auto. rewrite Kw', <- Kw. exact Nd.
  Qed.

  Lemma staff_total : forall prios a m c ws eu wav h, (ws <> None -> 2 <= a /\ a - 2 < length prios) ->
    (forall l, ws = Some l -> incl l (dkeys (ms_emps x)) /\ c + m_duration m <= h) ->
    dkeys wav = dkeys (ms_emps x) -> NoDup (dkeys wav) -> long wav h ->
    exists uw, staff x prios a m c ws eu wav = Ok uw /\ long (snd uw) h.
  Proof.
    intros prios a m c ws eu wav h A B K Nd L. unfold staff. destruct ws as [ws|]; [|eauto].
    destruct (A ltac:(discriminate)) as [A1 A2]. destruct (B ws eq_refl) as [B1 B2].
    assert (Zg : exists pr, zget prios (Z.of_nat a - 2)%Z = Ok pr).
    { replace (Z.of_nat a - 2)%Z with (Z.of_nat (a - 2)) by lia. rewrite zget_nat.
      unfold lget. destruct (nth_error prios (a - 2)) eqn:E; eauto. apply nth_error_None in E. lia. }
    destruct Zg as [pr ->]. cbn [bind].
    match goal with |- context [assign _ ?r ?w ?t _ ?c0 ?u _] => destruct (assign_total r w t h pr c0 u wav) as (u' & wav' & -> & L') end; auto.
    - unfold dkeys. rewrite map_map. reflexivity.
    - intros t It. apply in_seq in It. lia.
    - cbn [bind]. eexists. split; [reflexivity|]. exact L'.
  Qed.
End Problem.

Section Run.
  Variables (x : ms) (n : nat) (perm modes : list nat) (prios : list (list nat)).
  Hypothesis D : ms_data x n.
  Hypothesis U : ms_full x n.
  Hypothesis C : ms_choice x n perm modes prios.
  Hypothesis Lp : length prios = n.
  Let p := ms_base x.
  Let me := extend_modes modes.
  Let pe := extend_perm p perm.
  Let mins := map (fun a => (a, 0)) (dkeys (p_succ p)).

  Lemma tpsink : p_sink p = n + 2.
  Proof. unfold p_sink. rewrite <- (map_length fst). pose proof (Permutation_length (d_tasks _ _ D)) as L. rewrite seq_length in L. exact L. Qed.

  Lemma tentry : forall a, 1 <= a <= n + 2 -> exists m, mode_of p me a = Ok m.
  Proof.
    intros a L. destruct a as [|i]; [lia|]. unfold mode_of. unfold dgetE at 1.
    assert (Q : exists d k m, dget (p_modes p) (S i) = Some d /\ nth_error me i = Some k /\ dget d k = Some m).
    { destruct (Nat.eq_dec (S i) 1) as [E|E]; [|destruct (Nat.eq_dec (S i) (n + 2)) as [E2|E2]].
      - destruct (u_ends _ _ U (S i)) as (d & m & Dd & Dm); [auto|]. exists d, 1, m. split; auto. split; auto.
        injection E as ->. reflexivity.
      - destruct (u_ends _ _ U (S i)) as (d & m & Dd & Dm); [auto|]. exists d, 1, m. split; auto. split; auto.
        unfold me, extend_modes. replace i with (S n) by lia. cbn [nth_error]. rewrite nth_error_app2 by (rewrite (c_modes _ _ _ _ _ C); lia).
        now rewrite (c_modes _ _ _ _ _ C), Nat.sub_diag.
      - destruct i as [|i]; [lia|]. destruct (nth_error modes i) as [k|] eqn:N.
        + destruct (c_exists _ _ _ _ _ C i k N) as (d & m & Dd & Dm). exists d, k, m. replace (S (S i)) with (i + 2) by lia.
          split; auto. split; auto. unfold me, extend_modes. cbn [nth_error]. rewrite nth_error_app1; auto. apply nth_error_Some. congruence.
        + apply nth_error_None in N. rewrite (c_modes _ _ _ _ _ C) in N. lia. }
    destruct Q as (d & k & m & Dd & Nk & Dm). rewrite Dd. cbn [bind]. unfold lget. rewrite Nk. cbn [bind].
    unfold dgetE. rewrite Dm. eauto.
  Qed.

  Lemma tfix : fix_modes p modes = Ok me.
  Proof.
    assert (Q : exists me', fix_modes p modes = Ok me').
    { unfold fix_modes. apply mapM_some. intros [i k] Ii.
      assert (Li : i < n + 2).
      { apply in_combine_l in Ii. apply in_seq in Ii. unfold extend_modes in Ii. cbn [length] in Ii. rewrite app_length in Ii.
        cbn [length] in Ii. rewrite (c_modes _ _ _ _ _ C) in Ii. lia. }
      cbn [fst snd]. assert (K : In (i + 1) (tasks_of x)) by (rewrite (d_tasks _ _ D); apply in_seq; lia).
      destruct (key_some K) as [d Dd]. unfold dgetE. fold p in Dd. rewrite Dd. cbn [bind]. eauto. }
    destruct Q as [me' E]. rewrite E. f_equal. eapply fix_valid; [exact E|apply (c_modes _ _ _ _ _ C)|apply tpsink|apply (c_exists _ _ _ _ _ C)].
  Qed.

  Lemma tready : forall l, l <> [] -> exists a, next_act p l = Some a /\ In a l.
  Proof.
    intros l Ne. unfold next_act. destruct (find (ready (p_succ p) l) l) eqn:F.
    - apply find_some in F. exists n0. tauto.
    - exfalso. destruct (d_acyclic _ _ D) as [rank R]. destruct (min_rank rank l Ne) as [a [I M]].
      pose proof (find_none _ _ F a I) as E. unfold ready in E. apply negb_false_iff in E.
      apply existsb_exists in E as [[b ls] [Ib E]]. cbn [fst snd] in E. apply andb_prop in E as [E1 E2].
      apply pymem_true in E1, E2. pose proof (In_dget _ _ _ (d_succ _ _ D) Ib) as Dl.
      specialize (R b ls a Dl E1). specialize (M b E2). lia.
  Qed.

  Hypothesis Rng : forall a, In a pe <-> 1 <= a <= n + 2.

  Lemma tstep : forall g, minv x me pe mins g -> long (h_wav g) (p_horizon p) -> h_perm g <> [] ->
    exists g', ms_step x me prios g = Ok g' /\ long (h_wav g') (p_horizon p).
  Proof.
    intros g I Lw Ne. destruct (tready (h_perm g) Ne) as [a [NA Ia]].
    unfold ms_step. fold p. rewrite NA.
    assert (Ra : 1 <= a <= n + 2) by (apply Rng; apply (v_all _ _ _ _ _ I); auto).
    destruct (u_succ _ _ U a Ra) as [l Dl]. fold p in Dl.
    assert (Kk : forall b, 1 <= b <= n + 2 -> In b (dkeys (h_min g))).
    { intros b Rb. rewrite (v_keys _ _ _ _ _ I). unfold mins, dkeys. rewrite map_map. cbn [fst]. rewrite map_id.
      destruct (u_succ _ _ U b Rb) as [l' Dl']. apply dmem_true. unfold dmem. unfold p. now rewrite Dl'. }
    destruct (key_some (Kk a Ra)) as [c0 C0]. unfold dgetE at 1. rewrite C0. cbn [bind].
    destruct (tentry a Ra) as [m M]. rewrite M. cbn [bind].
    pose proof (v_avail _ _ _ _ _ I) as SH. fold p me in SH.
    assert (AK : dkeys (h_avail g) = res_names p) by (rewrite (proj1 SH); apply avail_keys).
    assert (RF : row_full p (h_avail g)).
    { eapply shift_full; [exact SH|]. intros r t Ir L. rewrite cell_capacity by auto. apply (u_rows _ _ U); auto.
      rewrite avail_keys in Ir. exact Ir. }
    destruct (mode_of_entry _ _ _ _ M) as (d & k & Dd & Dm).
    assert (NAl : needs_all m (h_avail g)).
    { intros r Ir. rewrite AK in Ir. eapply (u_need _ _ U); eauto. }
    assert (Nw : NoDup (dkeys (h_wav g))) by (rewrite (v_wkeys _ _ _ _ _ I); apply (d_emps _ _ D)).
    destruct (msearch_total x (p_horizon p) (h_avail g) (h_wav g) m false c0 RF NAl (v_wkeys _ _ _ _ _ I) Lw) as (f & F & Q); [fold p; lia|].
    rewrite F. cbn [bind]. destruct f as [c bad ws|bad]; [|eauto]. destruct bad; [eauto|].
    pose proof (msearch_ok _ _ _ _ _ _ _ _ _ F) as (_ & _ & _ & Fi & _). fold p in Fi.
    destruct (book_total p (h_avail g) m c) as [ab AB]; auto.
    { rewrite AK. apply (d_names _ _ D). }
    { intros r t Ir Ht. apply (Fi r t Ir Ht). }
    rewrite AB. cbn [bind].
    destruct (staff_total x prios a m c ws (h_use g) (h_wav g) (p_horizon p)) as [uw [SF Lw']]; auto.
    { intros W. destruct ws as [ws|]; [|congruence]. destruct (Q c false ws eq_refl) as (_ & Rq & _).
      assert (Ha : a <> 1 /\ a <> n + 2).
      { destruct (required x m) as [|[s z] q] eqn:E; [congruence|].
        assert (In (s, z) (required x m)) by (rewrite E; now left). apply required_in in H; [|eapply (d_keys _ _ D); eauto].
        destruct H as (H1 & H2 & H3). split; intros Ea.
        - pose proof (u_inner _ _ U a d k m s z (or_introl Ea) Dd Dm H1 H2). lia.
        - pose proof (u_inner _ _ U a d k m s z (or_intror Ea) Dd Dm H1 H2). lia. }
      rewrite Lp. lia. }
    { intros ws' ->. destruct (Q c false ws' eq_refl) as (Q1 & _ & Q2). split; auto. apply Nat.lt_le_incl; exact Q2. }
    { exact (v_wkeys _ _ _ _ _ I). }
    rewrite SF. cbn [bind]. unfold dgetE. rewrite Dl. cbn [bind].
    destruct (raise_total (c + m_duration m) l (h_min g)) as [mins' R].
    { intros s Is. apply Kk. eapply (u_closed _ _ U); eauto. }
    rewrite R. cbn [bind]. eexists. split; [reflexivity|]. exact Lw'.
  Qed.

  Lemma tloop : forall fuel g, minv x me pe mins g -> long (h_wav g) (p_horizon p) -> length (h_perm g) <= fuel ->
    exists g', ms_loop fuel x me prios g = Ok g'.
  Proof.
    assert (Nn : forall a m, mode_of (ms_base x) me a = Ok m -> NoDup (dkeys (m_need m))).
    { intros a m M. destruct (mode_of_entry _ _ _ _ M) as (d & k & Dd & Dm). eapply (d_keys _ _ D); eauto. }
    induction fuel as [|fuel IH]; intros g I Lw L; cbn [ms_loop].
    - destruct (h_perm g); [eauto|cbn in L; lia].
    - destruct (h_perm g) eqn:P; [eauto|]. destruct (h_bad g || h_late g) eqn:B; [eauto|]. apply orb_false_iff in B as [B1 B2].
      destruct (tstep g I Lw) as [g1 [S1 Lw1]]; [congruence|]. rewrite S1. cbn [bind].
      destruct (mstep_inv x me prios pe mins (d_names _ _ D) (d_skills _ _ D) (d_emps _ _ D) (c_prios _ _ _ _ _ C) Nn g g1 I B1 B2 S1)
        as (I1 & Q & _).
      destruct (h_bad g1 || h_late g1) eqn:B'.
      + destruct fuel; cbn [ms_loop]; destruct (h_perm g1); eauto; rewrite B'; eauto.
      + apply orb_false_iff in B' as [B1' B2']. apply IH; auto. destruct Q as [Q|[[Q _]|(a & _ & Ia & E & _)]]; try congruence.
        rewrite E. assert (Lr : forall l : list nat, In a l -> length (pyremove a l) < length l).
        { clear. induction l as [|y l IHl]; intros H; [destruct H|]. cbn [pyremove]. destruct (pyeqb_spec a y); [cbn; lia|].
          cbn [length]. destruct H; [congruence|]. specialize (IHl H). lia. }
        specialize (Lr _ Ia). rewrite P in Lr. rewrite P. cbn [length] in *. lia.
  Qed.
End Run.

Lemma run_total : forall x n perm modes prios, ms_data x n -> ms_full x n -> ms_choice x n perm modes prios -> length prios = n ->
  exists sol, sgs_multi_skill x perm modes prios = Ok sol.
Proof.
  intros x n perm modes prios D U C Lp. unfold sgs_multi_skill.
  pose proof (tpsink x n D) as Ps.
  destruct (extend_range (ms_base x) perm n (c_perm _ _ _ _ _ C) Ps) as [Np Rp]. rewrite Ps in Rp.
  rewrite (tfix x n perm modes prios D C Lp). cbn [bind].
  pose proof (mstart_inv x (extend_modes modes) (extend_perm (ms_base x) perm) (map (fun a => (a, 0)) (dkeys (p_succ (ms_base x)))) Np (d_emps _ _ D)) as I0.
  destruct (tloop x n perm modes prios D U C Lp Rp (length (extend_perm (ms_base x) perm)) _ I0) as [g L].
  { cbn [h_wav]. intros w row Iw. apply in_map_iff in Iw as [[w' e] [E Iw]]. cbn [fst snd] in E. injection E as -> <-.
    eapply (u_cal _ _ U). apply In_dget; [apply (d_emps _ _ D)|eauto]. }
  { cbn [h_perm]. lia. }
  rewrite L. cbn [bind].
  assert (Nn : forall a m, mode_of (ms_base x) (extend_modes modes) a = Ok m -> NoDup (dkeys (m_need m))).
  { intros a m M. destruct (mode_of_entry _ _ _ _ M) as (d & k & Dd & Dm). eapply (d_keys _ _ D); eauto. }
  pose proof (mloop_inv x _ prios _ _ (d_names _ _ D) (d_skills _ _ D) (d_emps _ _ D) (c_prios _ _ _ _ _ C) Nn _ _ _ I0 L) as [I _].
  assert (M : exists sch, make_schedule (ms_base x) (extend_modes modes) (h_ends g) = Ok sch).
  { apply mapM_some. intros [a e] Ie. cbn [fst snd]. destruct (v_placed _ _ _ _ _ I a e Ie) as (m & -> & _). cbn [bind]. eauto. }
  destruct M as [sch ->]. cbn [bind]. unfold ms_finish. destruct (h_bad g || h_late g); [|cbn [bind]; eexists; reflexivity].
  rewrite (max_key_last (dkeys (p_succ (ms_base x))) (n + 2)); [cbn [bind]; eexists; reflexivity| |].
  - apply dmem_true. unfold dmem. now rewrite (d_sink_succ _ _ D).
  - intros a Ka. apply (d_succ_range _ _ D) in Ka. lia.
Qed.

(** * The checker never fails on complete data (C94) *)
Lemma satisfy_total : forall x sol, ms_wf x sol ->
  (forall a s, In a (tasks_of x) -> In s (ms_skills x) -> (0 < need_in x sol a s)%Z -> exists u, dget (s_use sol) a = Some u) ->
  exists b, ms_satisfy x sol = Ok b.
Proof.
  intros x sol W Rec. unfold ms_satisfy. destruct (negb _); [eauto|].
  assert (H1 : exists b, allM (check_task x sol) (ms_tasks x) = Ok b).
  { apply allM_total. intros a Ia. apply tasks_in in Ia. destruct (w_mode _ _ W a Ia) as [m M]. unfold check_task.
    rewrite (mode_at_ok x sol _ _ M). cbn [bind].
    match goal with |- context [allM ?f (required x m)] => destruct (allM_total _ f (required x m)) as [b ->] end.
    { intros [s z] J. apply (in_required x sol W a m s z Ia M) in J as (Is & N & P). cbn [fst snd].
      destruct (Rec a s Ia Is ltac:(lia)) as [u U]. unfold dgetE. rewrite U. cbn [bind]. rewrite (used_level_ok x sol W a u s Ia U). cbn [bind]. eauto. }
    cbn [bind]. destruct b; [|eauto]. destruct (dget (s_use sol) a) as [u|] eqn:U; [|eauto].
    apply allM_total. intros [w l] Iw. cbn [fst]. destruct (w_users _ _ W a u w l Ia U Iw) as (em & Em & _ & Lc).
    destruct (time_some x sol W a Ia) as (s0 & e0 & T). pose proof (w_start _ _ W a s0 e0 T) as S0. specialize (Lc _ _ T).
    unfold dgetE. rewrite Em. cbn [bind]. unfold time_of in T. rewrite T. cbn [bind fst snd].
    assert (Zt : forall t, In t (zrange s0 e0) -> exists b, zget (e_cal em) t = Ok b).
    { intros t It. apply in_zrange in It. destruct (nth_error (e_cal em) (Z.to_nat t)) as [b|] eqn:E.
      - exists b. apply zget_ok; [lia|exact E].
      - apply nth_error_None in E. lia. }
    destruct (allM_total _ _ _ Zt) as [b ->]. cbn [bind]. destruct b; [eauto|].
    destruct (mapM_some _ _ _ _ Zt) as [ys ->]. cbn [bind]. eauto. }
  destruct H1 as [b1 ->]. cbn [bind]. destruct (negb b1); [eauto|].
  assert (H2 : exists b, check_overlaps x sol = Ok b).
  { unfold check_overlaps. destruct (mapM_some _ _ (overlap sol) (list_prod (ms_tasks x) (ms_tasks x))) as [os ->].
    - intros [a b] I. apply in_prod_iff in I as [Ia Ib]. apply tasks_in in Ia, Ib. unfold overlap. cbn [fst snd].
      destruct (a <? b); [|eauto]. destruct (time_some x sol W a Ia) as (sa & ea & Ta). destruct (time_some x sol W b Ib) as (sb & eb & Tb).
      unfold time_of in Ta, Tb. unfold dgetE. rewrite Ta, Tb. cbn [bind]. eauto.
    - cbn [bind]. eauto. }
  destruct H2 as [b2 ->]. cbn [bind]. destruct (negb b2); [eauto|].
  destruct (time_some x sol W _ (w_sink _ _ W)) as (se & ee & Ts). pose proof Ts as Ts'. unfold time_of in Ts'.
  unfold dgetE at 1. rewrite Ts'. cbn [bind snd].
  destruct (allM_total _ (ms_check_time x sol) (seq 0 (Z.to_nat ee))) as [b3 ->].
  { intros t It. apply in_seq in It. unfold ms_check_time.
    destruct (use_table x sol W (Z.of_nat t) (ms_tasks x) (map (fun r => (r, 0%Z)) (res_names (ms_base x)))) as (u & F & K & _).
    - intros a Ia. now apply tasks_in.
    - unfold dkeys. rewrite map_map. cbn [fst]. apply map_id.
    - rewrite F. cbn [bind]. apply allM_total. intros r Ir. rewrite <- K in Ir. destruct (key_some Ir) as [z Dz]. rewrite K in Ir.
      unfold dgetE at 1. rewrite Dz. cbn [bind]. destruct (w_cap _ _ W r t Ir) as [c C].
      { right. exists se, ee. split; auto. lia. }
      rewrite cap_at, C. cbn [bind]. eauto. }
  cbn [bind]. destruct (negb b3); [eauto|].
  destruct (allM_total _ (ms_check_nonren x sol) (p_nonren (ms_base x))) as [b4 ->].
  { intros r Ir. unfold ms_check_nonren. match goal with |- context [foldM ?f _ _] => set (f0 := f) end.
    destruct (@foldM_total _ _ f0 (fun _ _ => True) (ms_tasks x) 0%Z) as [z [H _]]; auto.
    - intros l0 a l1 z E _. unfold f0. assert (Ia : In a (tasks_of x)) by (apply tasks_in; rewrite E; apply in_elt).
      destruct (key_mode x sol W a Ia) as (k & m & K & M).
      destruct (w_need _ _ W a m r Ia M (w_nonren _ _ W r Ir)) as [n Dn]. destruct (need_ok x sol a k m r n Ia K M Dn) as [Q1 Q2].
      unfold dgetE. rewrite K. cbn [bind]. rewrite Q1. cbn [bind]. eauto.
    - rewrite H. cbn [bind]. destruct (w_cap _ _ W r 0 (w_nonren _ _ W r Ir) (or_introl eq_refl)) as [c C].
      rewrite cap_at, C. cbn [bind]. eauto. }
  cbn [bind]. destruct (negb b4); [eauto|]. apply allM_total. intros [a l] Ial.
  pose proof (In_dget _ _ _ (w_succ _ _ W) Ial) as Dl. unfold check_prec. cbn [fst snd]. apply allM_total. intros b Ib.
  destruct (w_closed _ _ W a l Dl) as [Ka Kl].
  destruct (time_some x sol W a Ka) as (sa & ea & Ta). destruct (time_some x sol W b (Kl b Ib)) as (sb & eb & Tb).
  unfold time_of in *. unfold dgetE. rewrite Ta, Tb. cbn [bind]. eauto.
Qed.
