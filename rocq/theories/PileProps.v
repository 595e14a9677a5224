(** Properties of the pile solver and of the priority-list executor: C40, C51. *)
From Coq Require Import String.
From Coq Require Import List Bool Arith ZArith Lia Permutation.
From Coq Require Import ZifyBool ZifyNat.
From Verif Require Import Py PyList SgsModel PileModel TspProofs PileProofs SgsProps SatProps.
Import ListNotations.

(** * Specification vocabulary *)
(** A complete instance with constant capacities, a mode for every task (mode 1 for source and sink),
    and predecessor sets that contain at least the direct predecessors. *)
Record pile_instance (p : rcpsp) (md : list (nat * nat)) (resources : list (string * Z)) (preds : list (nat * list nat))
  (n : nat) : Prop := {
  pi_res : p_res p = Constant resources;
  pi_names : NoDup (dkeys resources);
  pi_caps : forall r c, dget resources r = Some c -> (0 <= c)%Z;
  pi_nonren : incl (p_nonren p) (dkeys resources);
  pi_sink : p_sink p = n + 2;
  pi_ends : dget md 1 = Some 1 /\ dget md (n + 2) = Some 1;
  pi_modes : forall a, 1 <= a <= n + 2 -> exists k d m, dget md a = Some k /\ dget (p_modes p) a = Some d /\ dget d k = Some m /\
    forall r, In r (dkeys resources) -> exists x, dget (m_need m) r = Some x;
  pi_needs : forall a d k m r x, dget (p_modes p) a = Some d -> dget d k = Some m -> dget (m_need m) r = Some x -> (0 <= x)%Z;
  pi_source : forall m d, dget (p_modes p) 1 = Some d -> dget d 1 = Some m -> m_duration m = 0;
  pi_dict : NoDup (dkeys preds);
  pi_tasks : forall a, In a (dkeys preds) <-> 1 <= a <= n + 2;
  pi_sets : forall a s, dget preds a = Some s -> NoDup s;
  pi_first : dget preds 1 = Some [];
  pi_direct : forall a b l, dget (p_succ p) a = Some l -> In b l -> exists s, dget preds b = Some s /\ In a s
}.
(** A choice rule that always picks one of the possible tasks. *)
Definition rule (n : nat) (choose : nat -> list nat -> res nat) : Prop :=
  forall k l, (l <> [] -> (forall a, In a l -> 1 <= a <= n + 2) -> exists a, choose k l = Ok a) /\ forall a, choose k l = Ok a -> In a l.
(** Non-renewable resources over all tasks but the source. *)
Definition spent (p : rcpsp) (modes : list nat) (n : nat) (r : string) : Z :=
  sumZ (map (fun a => demand p modes a r) (seq 2 (n + 1))).
(** Every task fits alone, and the non-renewable totals fit. *)
Record each_fits (p : rcpsp) (modes : list nat) (resources : list (string * Z)) (n : nat) : Prop := {
  ef_alone : forall a r c, 1 <= a <= n + 2 -> dget resources r = Some c -> (demand p modes a r <= c)%Z;
  ef_spent : forall r c, In r (p_nonren p) -> dget resources r = Some c -> (spent p modes n r <= c)%Z
}.

(** * Links *)
Section Link.
Variables (p : rcpsp) (md : list (nat * nat)) (resources : list (string * Z)) (preds : list (nat * list nat)) (n : nat).
Hypothesis PI : pile_instance p md resources preds n.

Lemma modes_ok : exists modes, pile_modes p 2 md = Ok modes /\ length modes = n /\
  forall i, i < n -> nth_error modes i = dget md (i + 2).
Proof.
  unfold pile_modes. rewrite (pi_sink _ _ _ _ _ PI). replace (n + 2 - 2) with n by lia.
  pose (g := fun i => match dget md (i + 2) with Some k => k | None => 0 end).
  exists (map g (seq 0 n)). split; [|split].
  - apply mapM_total. intros i Ii. apply in_seq in Ii. unfold g, dgetE.
    destruct (pi_modes _ _ _ _ _ PI (i + 2)) as (k & d & m & E & _); [lia|]. now rewrite E.
  - now rewrite map_length, seq_length.
  - intros i Hi. rewrite nth_error_map, nth_error_seq by auto. cbn [option_map]. unfold g. cbn [plus].
    destruct (pi_modes _ _ _ _ _ PI (i + 2)) as (k & d & m & E & _); [lia|]. now rewrite E.
Qed.

Variable modes : list nat.
Hypothesis M : pile_modes p 2 md = Ok modes.

Lemma mode_at : forall a, 1 <= a <= n + 2 -> exists k d m, dget md a = Some k /\ dget (p_modes p) a = Some d /\ dget d k = Some m /\
  chosen p modes a = Some m /\ forall r, In r (dkeys resources) -> exists x, dget (m_need m) r = Some x.
Proof.
  intros a Ha. destruct (pi_modes _ _ _ _ _ PI a Ha) as (k & d & m & E & D & K & Nd). exists k, d, m. repeat (split; auto).
  unfold chosen. rewrite (pi_sink _ _ _ _ _ PI). destruct modes_ok as (ms & M' & L & Nth). rewrite M in M'. injection M' as <-.
  rewrite D. destruct (Nat.eqb_spec a 1) as [->|N1]; cbn [orb].
  - pose proof (proj1 (pi_ends _ _ _ _ _ PI)). assert (k = 1) as -> by congruence. exact K.
  - destruct (Nat.eqb_spec a (n + 2)) as [->|N2].
    + pose proof (proj2 (pi_ends _ _ _ _ _ PI)). assert (k = 1) as -> by congruence. exact K.
    + rewrite Nth by lia. replace (a - 2 + 2) with a by lia. rewrite E. exact K.
Qed.

Lemma need_demand : forall a r, 1 <= a <= n + 2 -> dm p md a r = demand p modes a r.
Proof.
  intros a r Ha. destruct (mode_at a Ha) as (k & d & m & E & D & K & C & _).
  unfold dm, pile_need, need_of, demand, dgetE. rewrite E, C. cbn [bind]. rewrite D. cbn [bind]. rewrite K. cbn [bind].
  destruct (dget (m_need m) r); auto.
Qed.

Lemma needs_nonneg : forall a r, (0 <= dm p md a r)%Z.
Proof.
  intros a r. unfold dm, pile_need, need_of, dgetE. destruct (dget md a) as [k|]; cbn [bind]; [|lia].
  destruct (dget (p_modes p) a) as [d|] eqn:D; cbn [bind]; [|lia]. destruct (dget d k) as [m|] eqn:K; cbn [bind]; [|lia].
  destruct (dget (m_need m) r) eqn:X; [|lia]. eapply pi_needs; eauto.
Qed.

Lemma dur_at : forall a x, 1 <= a <= n + 2 -> pile_duration p md a = Ok x -> exists m, chosen p modes a = Some m /\ x = m_duration m.
Proof.
  intros a x Ha H. destruct (mode_at a Ha) as (k & d & m & E & D & K & C & _). exists m. split; auto.
  unfold pile_duration, dgetE in H. rewrite E in H. cbn [bind] in H. rewrite D in H. cbn [bind] in H. rewrite K in H. cbn [bind] in H. congruence.
Qed.

Lemma dur_total : forall a, 1 <= a <= p_sink p -> exists x, pile_duration p md a = Ok x.
Proof.
  intros a Ha. rewrite (pi_sink _ _ _ _ _ PI) in Ha. destruct (mode_at a Ha) as (k & d & m & E & D & K & C & _).
  unfold pile_duration, dgetE. rewrite E. cbn [bind]. rewrite D. cbn [bind]. rewrite K. cbn [bind]. eauto.
Qed.

Lemma need_total : forall a r, 1 <= a <= p_sink p -> In r (dkeys resources) -> exists x, pile_need p md a r = Ok x.
Proof.
  intros a r Ha Ir. rewrite (pi_sink _ _ _ _ _ PI) in Ha. destruct (mode_at a Ha) as (k & d & m & E & D & K & C & Nd).
  destruct (Nd r Ir) as [x X]. exists x. unfold pile_need, need_of, dgetE. rewrite E. cbn [bind]. rewrite D. cbn [bind]. rewrite K. cbn [bind].
  now rewrite X.
Qed.

Variables (nbrs : nat -> list nat) (choose : nat -> list nat -> res nat).
Hypothesis NB : forall a b s, dget preds b = Some s -> In a s -> In b (nbrs a).
Hypothesis NI : forall a, incl (nbrs a) (dkeys preds).
Hypothesis Ru : rule n choose.

Lemma graph : graph_ok p preds nbrs.
Proof.
  constructor; try apply PI; auto. intros a. rewrite (pi_sink _ _ _ _ _ PI). apply PI.
Qed.

Lemma pile_feasible : forall st, pile_run p md resources preds nbrs choose = Ok st ->
  timed p modes (seq 1 (n + 2)) (pile_schedule st) /\
  (forall r t c, ~ In r (p_nonren p) -> capacity_of p r t = Some c -> (running p modes (pile_schedule st) r (Z.of_nat t) <= c)%Z) /\
  (forall r c, In r (p_nonren p) -> dget resources r = Some c -> (spent p modes n r <= c)%Z).
Proof.
  intros st H.
  destruct (run_ok p md resources preds nbrs choose graph (pi_names _ _ _ _ _ PI) (pi_caps _ _ _ _ _ PI) needs_nonneg (fun k l => proj2 (Ru k l)) st H) as [V P].
  rewrite (pi_sink _ _ _ _ _ PI) in P.
  assert (Rg : forall a s e, In (a, (s, e)) (l_sched st) -> 1 <= a <= n + 2).
  { intros a s e I. apply (in_map fst) in I. apply (Permutation_in _ P) in I. cbn in I. apply in_seq in I. lia. }
  assert (Back : forall a s e, In (a, (s, e)) (pile_schedule st) -> exists s' e', In (a, (s', e')) (l_sched st) /\ s = Z.of_nat s' /\ e = Z.of_nat e').
  { intros a s e I. apply in_map_iff in I as [[a' [s' e']] [E I]]. cbn [fst snd] in E. injection E as -> <- <-. eauto. }
  assert (Src : In (1, (0, 0)) (l_sched st)) by (destruct (v_first _ _ _ _ _ V) as [l ->]; now left).
  assert (One : forall s e, In (1, (s, e)) (l_sched st) -> s = 0 /\ e = 0).
  { intros s e I. apply (In_dget _ _ _ (v_sched _ _ _ _ _ V)) in I, Src. split; congruence. }
  split; [constructor|split].
  - unfold pile_schedule. rewrite map_map. cbn [fst]. exact P.
  - intros a s e I. apply Back in I as (s' & e' & I & -> & ->). pose proof (Rg _ _ _ I) as Ra.
    destruct (Nat.eq_dec a 1) as [->|N1].
    + destruct (One _ _ I) as [-> ->]. destruct (mode_at 1 Ra) as (k & d & m & E & D & K & C & _).
      exists m. split; auto. pose proof (proj1 (pi_ends _ _ _ _ _ PI)). assert (k = 1) as -> by congruence.
      rewrite (pi_source _ _ _ _ _ PI m d D K). cbn. lia.
    + destruct (v_len _ _ _ _ _ V a s' e' I N1) as (x & Dx & ->). destruct (dur_at a x Ra Dx) as (m & C & ->).
      exists m. split; auto. lia.
  - intros a b l sa ea sb eb D Ib Ia Jb. apply Back in Ia as (sa' & ea' & Ia & -> & ->). apply Back in Jb as (sb' & eb' & Jb & -> & ->).
    destruct (pi_direct _ _ _ _ _ PI a b l D Ib) as (s & Ds & Is).
    destruct (v_prec _ _ _ _ _ V a b s sb' eb' Jb Ds Is) as (sa2 & ea2 & Ia2 & L).
    apply (In_dget _ _ _ (v_sched _ _ _ _ _ V)) in Ia, Ia2. assert (ea2 = ea') by congruence. lia.
  - intros r t c Nr Cp. unfold capacity_of in Cp. rewrite (pi_res _ _ _ _ _ PI) in Cp.
    pose proof (v_cap _ _ _ _ _ V r c t Cp Nr) as L. replace (running p modes (pile_schedule st) r (Z.of_nat t)) with (sumZ (map (use p md r t) (l_sched st))); auto.
    unfold running, pile_schedule. rewrite map_map. apply sumZ_map_ext. intros [a [s e]] I. unfold use. cbn [fst snd].
    rewrite need_demand by eauto.
    destruct (Nat.leb_spec s t), (Z.leb_spec (Z.of_nat s) (Z.of_nat t)), (Nat.ltb_spec t e), (Z.ltb_spec (Z.of_nat t) (Z.of_nat e)); cbn [andb]; auto; lia.
  - intros r c Nr Cp. pose proof (v_res _ _ _ _ _ V r c Cp) as D. pose proof (v_room _ _ _ _ _ V r _ D) as L.
    rewrite (sumZ_map_perm _ P) in L. replace (n + 2) with (S (n + 1)) in L by lia. cbn [seq map] in L. rewrite sumZ_cons in L.
    replace (spent p modes n r) with (sumZ (map (held p md (queued st) r) (seq 2 (n + 1)))); [unfold held at 1 in L; cbn in L; lia|].
    apply sumZ_map_ext. intros a Ia. apply in_seq in Ia. unfold held. destruct (Nat.eqb_spec a 1); [lia|].
    replace (pymem r (p_nonren p)) with true by (symmetry; now apply pymem_true). cbn [orb]. apply need_demand. lia.
Qed.

Lemma pile_perm : forall st, pile_run p md resources preds nbrs choose = Ok st ->
  Permutation (l_perm st) (map (fun a => Z.of_nat a - 2)%Z (seq 2 (n + 1))).
Proof.
  intros st H.
  destruct (run_ok p md resources preds nbrs choose graph (pi_names _ _ _ _ _ PI) (pi_caps _ _ _ _ _ PI) needs_nonneg (fun k l => proj2 (Ru k l)) st H) as [V P].
  rewrite (pi_sink _ _ _ _ _ PI) in P. rewrite (v_perm _ _ _ _ _ V). apply Permutation_map.
  destruct (v_first _ _ _ _ _ V) as [l F]. rewrite F in P |- *. cbn [map fst tl] in *. replace (n + 2) with (S (n + 1)) in P by lia.
  cbn [seq] in P. eapply Permutation_cons_inv; eauto.
Qed.

(** When the sink has every other task as a predecessor, it is the last to be scheduled. *)
Lemma pile_last : forall st s, pile_run p md resources preds nbrs choose = Ok st -> dget preds (n + 2) = Some s ->
  (forall a, 1 <= a < n + 2 -> In a s) ->
  exists l, l_perm st = l ++ [Z.of_nat n].
Proof.
  intros st s H D All.
  destruct (run_ok p md resources preds nbrs choose graph (pi_names _ _ _ _ _ PI) (pi_caps _ _ _ _ _ PI) needs_nonneg (fun k l => proj2 (Ru k l)) st H) as [V P].
  rewrite (pi_sink _ _ _ _ _ PI) in P.
  assert (I : In (n + 2) (map fst (l_sched st))) by (apply (Permutation_in _ (Permutation_sym P)), in_seq; lia).
  apply in_map_iff in I as [[b x] [E I]]. cbn in E. subst b. apply in_split in I as (l1 & l2 & F).
  pose proof (v_order _ _ _ _ _ V l1 (n + 2) x l2 s F D) as O.
  assert (l2 = []) as ->.
  { assert (N : NoDup (seq 1 (n + 1))) by apply seq_NoDup.
    assert (I : incl (seq 1 (n + 1)) (map fst l1)) by (intros a Ia; apply in_seq in Ia; apply O, All; lia).
    apply NoDup_incl_length in I; auto. apply Permutation_length in P. rewrite F, map_length, app_length, seq_length in P.
    rewrite seq_length, map_length in I. cbn [length] in P. destruct l2; auto. cbn [length] in P. lia. }
  rewrite (v_perm _ _ _ _ _ V), F. destruct l1 as [|y l1].
  - exfalso. specialize (O 1). cbn in O. apply O, All. lia.
  - cbn [map app tl fst]. rewrite map_app, map_app. cbn [map fst]. replace (Z.of_nat (n + 2) - 2)%Z with (Z.of_nat n) by lia. eauto.
Qed.

Lemma pile_total :
  (exists st, pile_run p md resources preds nbrs choose = Ok st) \/
  (pile_run p md resources preds nbrs choose = Err IndexError /\
   exists st, pinv p md resources preds st /\ l_queue st = [] /\ length (l_sched st) < n + 2 /\
     forall a, In a (l_av st) -> pile_fits p md (l_res st) a = Ok false).
Proof.
  unfold pile_run. destruct (init_total p resources preds nbrs NI (pi_nonren _ _ _ _ _ PI)) as [st0 I]. rewrite I. cbn [bind].
  pose proof (init_ok p md resources preds nbrs choose graph (pi_caps _ _ _ _ _ PI) needs_nonneg (fun k l => proj2 (Ru k l)) st0 I) as V0.
  assert (Ch : forall k l, l <> [] -> (forall a, In a l -> 1 <= a <= p_sink p) -> exists a, choose k l = Ok a).
  { rewrite (pi_sink _ _ _ _ _ PI). intros k l. apply (Ru k l). }
  destruct (loop_total p md resources preds nbrs choose graph (pi_names _ _ _ _ _ PI) (pi_caps _ _ _ _ _ PI) needs_nonneg (fun k l => proj2 (Ru k l))
    dur_total need_total NI Ch (p_sink p) st0 V0) as [O|[E (st1 & O)]].
  - unfold pile_init in I. apply bind_ok in I as [x [_ I]]. apply bind_ok in I as [pa [_ I]]. injection I as <-. cbn. lia.
  - now left.
  - right. split; auto. rewrite (pi_sink _ _ _ _ _ PI) in O. eauto.
Qed.

Lemma pile_complete : each_fits p modes resources n ->
  (exists rank : nat -> nat, forall a b s, dget preds b = Some s -> In a s -> rank a < rank b /\ 1 <= a <= n + 2) ->
  exists st, pile_run p md resources preds nbrs choose = Ok st.
Proof.
  intros EF [rank Rk]. destruct pile_total as [O|[E (st & V & Q & Lt & Stuck)]]; auto. exfalso.
  assert (Qd : queued st = []) by (unfold queued; now rewrite Q).
  assert (Un : exists a, 1 <= a <= n + 2 /\ ~ In a (map fst (l_sched st))).
  { destruct (Forall_Exists_dec (fun a => In a (map fst (l_sched st))) (fun a => in_dec Nat.eq_dec a _) (seq 1 (n + 2))) as [A|A].
    - exfalso. rewrite Forall_forall in A. assert (incl (seq 1 (n + 2)) (map fst (l_sched st))) as I by (intros a; apply A).
      apply NoDup_incl_length in I; [|apply seq_NoDup]. rewrite seq_length, map_length in I. lia.
    - apply Exists_exists in A as (a & Ia & Na). apply in_seq in Ia. exists a. split; auto. lia. }
  assert (Min : forall k a, rank a <= k -> 1 <= a <= n + 2 -> ~ In a (map fst (l_sched st)) ->
    exists b, 1 <= b <= n + 2 /\ ~ In b (map fst (l_sched st)) /\ forall s x, dget preds b = Some s -> In x s -> In x (map fst (l_sched st))).
  { induction k as [|k IH]; intros a Hk Ha Na.
    - exists a. repeat split; auto; try lia. intros s x D Ix. destruct (Rk x a s D Ix). lia.
    - destruct (dget preds a) as [s|] eqn:D.
      + destruct (Forall_Exists_dec (fun x => In x (map fst (l_sched st))) (fun x => in_dec Nat.eq_dec x _) s) as [A|A].
        * exists a. repeat split; auto; try lia. intros s' x D' Ix. assert (s' = s) by congruence. subst. rewrite Forall_forall in A. auto.
        * apply Exists_exists in A as (x & Ix & Nx). destruct (Rk x a s D Ix). apply (IH x); auto; lia.
      + exists a. repeat split; auto; try lia. intros s' x D' Ix. congruence. }
  destruct Un as (a0 & Ha0 & Na0). destruct (Min (rank a0) a0 (le_n _) Ha0 Na0) as (a & Ha & Na & Pr).
  assert (Da : exists s, dget preds a = Some s).
  { apply (pi_tasks _ _ _ _ _ PI) in Ha. apply dmem_true in Ha. unfold dmem in Ha. destruct (dget preds a); [eauto|discriminate]. }
  destruct Da as [s0 Da].
  assert (Dp : exists s, dget (l_pred st) a = Some s).
  { assert (In a (dkeys (l_pred st))) as I by (rewrite (v_keys _ _ _ _ _ V); apply (pi_tasks _ _ _ _ _ PI); auto).
    apply dmem_true in I. unfold dmem in I. destruct (dget (l_pred st) a); [eauto|discriminate]. }
  destruct Dp as [s Dp]. destruct (v_pred _ _ _ _ _ V a s0 s Da Dp) as [_ Sx].
  assert (s = []) as ->.
  { destruct s as [|x s]; auto. exfalso. destruct (proj1 (Sx x) (or_introl eq_refl)) as [Ix Nf]. apply Nf. split; [eapply Pr; eauto|].
    rewrite Qd. intros []. }
  apply (v_ready _ _ _ _ _ V) in Dp as [Av|]; [|contradiction].
  assert (pile_fits p md (l_res st) a = Ok true); [|rewrite (Stuck a Av) in H; discriminate].
  apply allM_all. intros r Ir. pose proof Ir as Ir'. rewrite (v_names _ _ _ _ _ V) in Ir'.
  destruct (need_total a r) as [x X]; [rewrite (pi_sink _ _ _ _ _ PI); lia|auto|]. rewrite X. cbn [bind].
  apply dmem_true in Ir'. unfold dmem in Ir'. destruct (dget resources r) as [c|] eqn:Dc; [|discriminate].
  unfold dgetE. rewrite (v_res _ _ _ _ _ V r c Dc). cbn [bind]. f_equal. apply Z.leb_le.
  assert (Ex : x = demand p modes a r) by (rewrite <- need_demand by lia; unfold dm; now rewrite X).
  rewrite Ex, Qd. destruct (pymem r (p_nonren p)) eqn:Nr.
  - pose proof (ef_spent _ _ _ _ EF r c (proj1 (pymem_true r _) Nr) Dc) as L.
    assert (Src : exists l, l_sched st = (1, (0, 0)) :: l) by apply V. destruct Src as [l F].
    assert (demand p modes a r + sumZ (map (held p md [] r) (map fst (l_sched st))) <= spent p modes n r)%Z; [|lia].
    rewrite F. cbn [map fst]. rewrite sumZ_cons. unfold held at 1. cbn [Nat.eqb].
    assert (N2 : NoDup (a :: map fst l)).
    { pose proof (v_sched _ _ _ _ _ V) as N. rewrite F in N, Na. cbn [map fst] in N, Na. inversion N; subst. constructor; auto.
      intros I. apply Na. now right. }
    assert (I2 : incl (a :: map fst l) (seq 2 (n + 1))).
    { pose proof (v_sched _ _ _ _ _ V) as N. rewrite F in N, Na. cbn [map fst] in N, Na. inversion N; subst.
      intros y [<-|Iy]; apply in_seq.
      - assert (a <> 1) by (intros ->; apply Na; now left). lia.
      - assert (y <> 1) by (intros ->; contradiction).
        assert (Y : dget (l_pred st) y = Some []) by (apply (v_ready _ _ _ _ _ V); right; rewrite F; now right).
        pose proof (in_preds p md resources preds nbrs graph y st V Y). rewrite (pi_sink _ _ _ _ _ PI) in *. lia. }
    assert (G : forall l1 l2, NoDup l1 -> incl l1 l2 -> (forall y, 0 <= demand p modes y r)%Z ->
      (sumZ (map (fun y => demand p modes y r) l1) <= sumZ (map (fun y => demand p modes y r) l2))%Z).
    { clear. induction l1 as [|y l1 IH]; intros l2 N I Nn.
      - apply sumZ_map_nonneg. auto.
      - inversion N; subst. destruct (in_split y l2) as (u & v & ->); [apply I; now left|].
        cbn [map]. rewrite sumZ_cons, map_app, sumZ_app. cbn [map]. rewrite sumZ_cons.
        specialize (IH (u ++ v) H2). rewrite map_app, sumZ_app in IH.
        assert (incl l1 (u ++ v)).
        { intros z Iz. assert (In z (u ++ y :: v)) as J by (apply I; now right). apply in_app_or in J as [J|[J|J]]; apply in_or_app; auto.
          subst. contradiction. }
        specialize (IH H Nn). lia. }
    assert (Nn : forall y, (0 <= demand p modes y r)%Z).
    { intros y. unfold demand. destruct (chosen p modes y) as [m|] eqn:C; [|lia]. destruct (dget (m_need m) r) eqn:X2; [|lia].
      unfold chosen in C. destruct (if (y =? 1) || (y =? p_sink p) then Some 1 else nth_error modes (y - 2)); [|discriminate].
      destruct (dget (p_modes p) y) eqn:D1; [|discriminate]. eapply pi_needs; eauto. }
    specialize (G _ _ N2 I2 Nn). cbn [map] in G. rewrite sumZ_cons in G. unfold spent.
    assert (sumZ (map (held p md [] r) (map fst l)) <= sumZ (map (fun y => demand p modes y r) (map fst l)))%Z; [|lia].
    apply sumZ_map_le. intros y Iy. unfold held. rewrite Nr. cbn [orb]. destruct (y =? 1); auto.
    rewrite need_demand; [lia|]. assert (In y (seq 2 (n + 1))) as J by (apply I2; now right). apply in_seq in J. lia.
  - replace (sumZ (map (held p md [] r) (map fst (l_sched st)))) with 0%Z.
    + rewrite Z.sub_0_r. apply (ef_alone _ _ _ _ EF); auto; lia.
    + symmetry. rewrite (sumZ_map_ext _ (fun _ => 0%Z)).
      * clear. induction (map fst (l_sched st)); auto.
      * intros y _. unfold held. rewrite Nr. cbn. now destruct (y =? 1).
Qed.
End Link.

(** * C40 *)
Section C40.
Variables (p : rcpsp) (md : list (nat * nat)) (resources : list (string * Z)) (preds : list (nat * list nat)) (n : nat).
Variable choose : nat -> list nat -> res nat.
Hypothesis PI : pile_instance p md resources preds n.
Hypothesis Ru : rule n choose.

Lemma all_nbrs : forall a b s, dget preds b = Some s -> In a s -> In b ((fun _ : nat => dkeys preds) a).
Proof. intros a b s D _. apply dmem_true. unfold dmem. now rewrite D. Qed.
Lemma all_incl : forall a, incl ((fun _ : nat => dkeys preds) a) (dkeys preds).
Proof. intros a. apply incl_refl. Qed.
End C40.

(** A returned schedule contains every task once for the length of its mode, respects the precedences,
    the renewable capacities at all times and the non-renewable totals, whatever the choice rule. *)
Theorem C40_feasible : forall p md resources preds n choose modes sch perm,
  pile_instance p md resources preds n -> rule n choose ->
  pile_solve p md resources preds choose = Ok (modes, (sch, perm)) ->
  timed p modes (seq 1 (n + 2)) sch /\
  (forall r t c, ~ In r (p_nonren p) -> capacity_of p r t = Some c -> (running p modes sch r (Z.of_nat t) <= c)%Z) /\
  (forall r c, In r (p_nonren p) -> dget resources r = Some c -> (spent p modes n r <= c)%Z).
Proof.
  intros p md resources preds n choose modes sch perm PI Ru H. unfold pile_solve in H.
  apply bind_ok in H as [st [R H]]. apply bind_ok in H as [ms [M H]]. injection H as <- <- <-.
  exact (pile_feasible p md resources preds n PI ms M _ choose (all_nbrs preds) (all_incl preds) Ru st R).
Qed.

(** When the sink has all the other tasks as ancestors, the permutation of the solution lists every
    task between source and sink once. *)
Theorem C40_permutation : forall p md resources preds n choose modes sch perm s,
  pile_instance p md resources preds n -> rule n choose ->
  dget preds (n + 2) = Some s -> (forall a, 1 <= a < n + 2 -> In a s) ->
  pile_solve p md resources preds choose = Ok (modes, (sch, perm)) ->
  Permutation perm (map Z.of_nat (seq 0 n)).
Proof.
  intros p md resources preds n choose modes sch perm s PI Ru D All H. unfold pile_solve in H.
  apply bind_ok in H as [st [R H]]. apply bind_ok in H as [ms [M H]]. injection H as <- <- <-.
  pose proof (pile_perm p md resources preds n PI ms _ choose (all_nbrs preds) (all_incl preds) Ru st R) as P.
  destruct (pile_last p md resources preds n PI _ choose (all_nbrs preds) (all_incl preds) Ru st s R D All) as [l E].
  rewrite E in *. rewrite removelast_last.
  replace (seq 2 (n + 1)) with (seq 2 n ++ [n + 2]) in P by (rewrite seq_app; cbn; repeat f_equal; lia).
  rewrite map_app in P. cbn [map] in P. replace (Z.of_nat (n + 2) - 2)%Z with (Z.of_nat n) in P by lia.
  apply Permutation_app_inv_r in P. rewrite P.
  replace (map (fun a => (Z.of_nat a - 2)%Z) (seq 2 n)) with (map Z.of_nat (seq 0 n)); auto.
  rewrite <- (seq_shift n 1), <- (seq_shift n 0), !map_map. apply map_ext. intros a. lia.
Qed.

(** The solver always ends: with a solution, or an error when no task can be started or finished. *)
Theorem C40_total : forall p md resources preds n choose, pile_instance p md resources preds n -> rule n choose ->
  (exists r, pile_solve p md resources preds choose = Ok r) \/ pile_solve p md resources preds choose = Err IndexError.
Proof.
  intros p md resources preds n choose PI Ru. destruct (modes_ok p md resources preds n PI) as (ms & M & _).
  unfold pile_solve. destruct (pile_total p md resources preds n PI ms M _ choose (all_nbrs preds) (all_incl preds) Ru) as [[st E]|[E _]]; rewrite E; cbn [bind]; auto.
  rewrite M. cbn [bind]. eauto.
Qed.

(** It finds a solution whenever every task fits alone and the non-renewable totals fit. *)
Theorem C40_complete : forall p md resources preds n choose modes, pile_instance p md resources preds n -> rule n choose ->
  pile_modes p 2 md = Ok modes -> each_fits p modes resources n ->
  (exists rank : nat -> nat, forall a b s, dget preds b = Some s -> In a s -> rank a < rank b /\ 1 <= a <= n + 2) ->
  exists sch perm, pile_solve p md resources preds choose = Ok (modes, (sch, perm)).
Proof.
  intros p md resources preds n choose modes PI Ru M EF Rk. unfold pile_solve.
  destruct (pile_complete p md resources preds n PI modes M _ choose (all_nbrs preds) (all_incl preds) Ru EF Rk) as [st E].
  rewrite E. cbn [bind]. rewrite M. cbn [bind]. eauto.
Qed.

(** The greedy rules are choice rules; "most successors" and "fastest" pick the best possible task. *)
Lemma first_best_spec : forall (better : nat -> nat -> bool) l a,
  (forall x y z, better x y = false -> better y z = false -> better x z = false) -> (forall x, better x x = false) ->
  (forall x y, better x y = true -> better y x = false) ->
  first_best better l = Ok a -> In a l /\ forall x, In x l -> better x a = false.
Proof.
  intros better l a Tr Ir As H. destruct l as [|x l]; [discriminate|]. cbn [first_best] in H. injection H as <-.
  revert x. induction l as [|y l IH]; intros x; cbn [fold_left].
  - split; [now left|]. intros z [<-|[]]. auto.
  - destruct (better y x) eqn:B.
    + destruct (IH y) as [I M]. split; [now right|]. intros z [<-|[<-|Iz]].
      * apply Tr with y; [now apply As|]. apply M. now left.
      * apply M. now left.
      * apply M. now right.
    + destruct (IH x) as [I M]. split; [destruct I as [<-|I]; [now left|now right; right]|]. intros z [<-|[<-|Iz]].
      * apply M. now left.
      * apply Tr with x; auto. apply M. now left.
      * apply M. now right.
Qed.

Theorem C40_rules : forall n nb duration rnd,
  rule n (most_successors nb) /\ rule n (fastest duration) /\ rule n (at_random rnd) /\
  (forall k l a, most_successors nb k l = Ok a -> forall x, In x l -> nb x <= nb a) /\
  (forall k l a, fastest duration k l = Ok a -> forall x, In x l -> duration a <= duration x).
Proof.
  intros n nb duration rnd.
  assert (S1 : forall k l a, most_successors nb k l = Ok a -> In a l /\ forall x, In x l -> nb x <= nb a).
  { intros k l a H. apply first_best_spec in H as [I M]; try (cbv beta; intros; lia). split; auto. intros x Ix. specialize (M x Ix). cbv beta in M. lia. }
  assert (S2 : forall k l a, fastest duration k l = Ok a -> In a l /\ forall x, In x l -> duration a <= duration x).
  { intros k l a H. apply first_best_spec in H as [I M]; try (cbv beta; intros; lia). split; auto. intros x Ix. specialize (M x Ix). cbv beta in M. lia. }
  split; [|split; [|split; [|split]]].
  - intros k l. split; [|intros a H; now apply S1 in H]. intros N _. destruct l; [congruence|]. cbn. eauto.
  - intros k l. split; [|intros a H; now apply S2 in H]. intros N _. destruct l; [congruence|]. cbn. eauto.
  - intros k l. split.
    + intros N _. destruct l as [|x l]; [congruence|]. unfold at_random. apply lget_lt. apply Nat.mod_upper_bound. cbn. lia.
    + intros a H. unfold at_random in H. destruct l; [discriminate|]. eapply lget_In; eauto.
  - intros k l a H. now apply S1 in H.
  - intros k l a H. now apply S2 in H.
Qed.

(** * C51: the executor *)
Lemma imm_get : forall p b s, dget (imm_preds p) b = Some s ->
  1 <= b <= p_sink p /\ s = map fst (filter (fun kv : nat * list nat => pymem b (snd kv)) (p_succ p)).
Proof.
  intros p b s H. apply dget_In in H. apply in_map_iff in H as [b' [E I]]. apply in_seq in I. injection E as -> <-. split; auto. lia.
Qed.

Lemma imm_nbrs : forall p a b s, NoDup (dkeys (p_succ p)) -> dget (imm_preds p) b = Some s -> In a s -> In b (imm_succs p a).
Proof.
  intros p a b s N D Ia. apply imm_get in D as [_ ->]. apply in_map_iff in Ia as [[a' l] [E Ia]]. cbn in E. subst a'.
  apply filter_In in Ia as [I M]. cbn [snd] in M. apply pymem_true in M. unfold imm_succs.
  rewrite (In_dget _ _ _ N I). now apply pyset_In.
Qed.

Lemma index_In : forall x l, In x l -> exists i, index_of x l = Some i.
Proof.
  induction l as [|y l IH]; intros I; [destruct I|]. cbn [index_of]. destruct (Nat.eqb_spec x y); eauto.
  destruct I as [I|I]; [congruence|]. destruct (IH I) as [i ->]. cbn. eauto.
Qed.

Lemma by_priority_spec : forall perm k l a, by_priority perm k l = Ok a ->
  In a l /\ exists i, index_of a perm = Some i /\ forall x j, In x l -> index_of x perm = Some j -> i <= j.
Proof.
  intros perm k l a H. unfold by_priority in H. apply bind_ok in H as [ks [M H]].
  assert (K : forall i x, In (i, x) ks <-> In x l /\ index_of x perm = Some i).
  { apply mapM_ok in M. clear H. induction M as [|y z l ks E M IH]; intros i x; [cbn; tauto|]. cbn [In].
    destruct (index_of y perm) as [j|] eqn:J; [|discriminate]. injection E as <-. rewrite IH. split.
    - intros [E|[I E]]; [injection E as -> ->; auto|auto].
    - intros [[->|I] E]; [left; congruence|auto]. }
  destruct ks as [|x ks]; [discriminate|]. injection H as H.
  assert (G : forall ks x, let b := fold_left (fun b y : nat * nat => if fst y <? fst b then y else b) ks x in
    In b (x :: ks) /\ forall y, In y (x :: ks) -> fst b <= fst y).
  { clear. induction ks as [|y ks IH]; intros x; cbn [fold_left].
    - split; [now left|]. intros y [<-|[]]. auto.
    - destruct (Nat.ltb_spec (fst y) (fst x)).
      + destruct (IH y) as [I Mn]. split; [now right|]. intros z [<-|Iz]; [|auto]. specialize (Mn y (or_introl eq_refl)). cbv zeta in Mn. lia.
      + destruct (IH x) as [I Mn]. split; [destruct I as [I|I]; [now left|now right; right]|].
        intros z [<-|[<-|Iz]]; [apply Mn; now left| |apply Mn; now right]. specialize (Mn x (or_introl eq_refl)). cbv zeta in Mn. lia. }
  destruct (G ks x) as [I Mn]. cbv zeta in *.
  set (b := fold_left (fun b y : nat * nat => if fst y <? fst b then y else b) ks x) in *. destruct b as [i c]. cbn [fst snd] in *. subst c.
  apply K in I as [I E]. split; auto. exists i. split; auto. intros y j Iy Ej. apply (Mn (j, y)). now apply K.
Qed.

Lemma priority_rule : forall n perm, (forall a, 1 <= a <= n + 2 -> In a perm) -> rule n (by_priority perm).
Proof.
  intros n perm All k l. split.
  - intros N Rg. unfold by_priority.
    assert (M : exists ks, mapM (fun x => match index_of x perm with Some i => Ok (i, x) | None => Err ValueError end) l = Ok ks /\ length ks = length l).
    { clear N. induction l as [|x l IH]; cbn [mapM]; [eauto|]. destruct (index_In x perm) as [i ->]; [apply All, Rg; now left|].
      cbn [bind]. destruct IH as (ks & -> & L); [intros; apply Rg; now right|]. cbn [bind]. eexists. split; [reflexivity|]. cbn. now rewrite L. }
    destruct M as (ks & -> & L). cbn [bind]. destruct ks; [destruct l; [congruence|discriminate]|]. eauto.
  - intros a H. now apply by_priority_spec in H.
Qed.

(** The executor's schedule is feasible for the modes it was given. *)
Theorem C51_feasible : forall p md resources n modes perm modes' sch perm',
  pile_instance p md resources (imm_preds p) n -> NoDup (dkeys (p_succ p)) -> (forall a, 1 <= a <= n + 2 -> In a perm) ->
  pile_modes p 2 md = Ok modes -> execute p md resources perm = Ok (modes', (sch, perm')) ->
  timed p modes (seq 1 (n + 2)) sch /\
  (forall r t c, ~ In r (p_nonren p) -> capacity_of p r t = Some c -> (running p modes sch r (Z.of_nat t) <= c)%Z) /\
  (forall r c, In r (p_nonren p) -> dget resources r = Some c -> (spent p modes n r <= c)%Z).
Proof.
  intros p md resources n modes perm modes' sch perm' PI N All M H. unfold execute in H. destruct (pymem 1 perm); [|discriminate].
  apply bind_ok in H as [st [R H]]. apply bind_ok in H as [ms [M' H]]. injection H as <- <- <-.
  refine (pile_feasible p md resources _ n PI modes M (imm_succs p) (by_priority perm) _ _ _ st R).
  - intros a b s. now apply imm_nbrs.
  - intros a b Ib. unfold imm_succs in Ib. destruct (dget (p_succ p) a) as [l|] eqn:D; [|destruct Ib]. apply (proj1 (pyset_In _ _)) in Ib.
    destruct (pi_direct _ _ _ _ _ PI a b l D Ib) as (s & Ds & _). apply dmem_true. unfold dmem. now rewrite Ds.
  - now apply priority_rule.
Qed.

(** It returns whenever every task fits alone, the non-renewable totals fit and the graph is acyclic. *)
Theorem C51_complete : forall p md resources n modes perm,
  pile_instance p md resources (imm_preds p) n -> NoDup (dkeys (p_succ p)) -> (forall a, 1 <= a <= n + 2 -> In a perm) ->
  pile_modes p 2 md = Ok modes -> each_fits p modes resources n ->
  (exists rank : nat -> nat, forall a b l, dget (p_succ p) a = Some l -> In b l -> rank a < rank b /\ 1 <= a <= n + 2) ->
  exists r, execute p md resources perm = Ok r.
Proof.
  intros p md resources n modes perm PI N All M EF [rank Rk]. unfold execute.
  replace (pymem 1 perm) with true by (symmetry; apply pymem_true, All; lia).
  destruct (pile_complete p md resources (imm_preds p) n PI modes M (imm_succs p) (by_priority perm)) as [st E]; auto.
  - intros a b s. now apply imm_nbrs.
  - intros a b Ib. unfold imm_succs in Ib. destruct (dget (p_succ p) a) as [l|] eqn:D; [|destruct Ib]. apply (proj1 (pyset_In _ _)) in Ib.
    destruct (pi_direct _ _ _ _ _ PI a b l D Ib) as (s & Ds & _). apply dmem_true. unfold dmem. now rewrite Ds.
  - now apply priority_rule.
  - exists rank. intros a b s D Ia. pose proof (imm_nbrs p a b s N D Ia) as J. unfold imm_succs in J.
    destruct (dget (p_succ p) a) as [l|] eqn:Dl; [|destruct J]. apply (proj1 (pyset_In _ _)) in J. eauto.
  - rewrite E. cbn [bind]. unfold pile_modes. rewrite (pi_sink _ _ _ _ _ PI).
    assert (Q : exists ms, mapM (fun i => dgetE md (i + 1)) (seq 0 (n + 2 - 2)) = Ok ms).
    { eexists. apply mapM_total with (g := fun i => match dget md (i + 1) with Some k => k | None => 0 end).
      intros i Ii. apply in_seq in Ii. unfold dgetE. destruct (pi_modes _ _ _ _ _ PI (i + 1)) as (k & d & m & K & _); [lia|]. now rewrite K. }
    destruct Q as [ms ->]. cbn [bind]. eauto.
Qed.

(** Among the tasks that are ready and fit, the executor starts the one that comes first in the list. *)
Theorem C51_priority : forall perm k l a, by_priority perm k l = Ok a ->
  In a l /\ exists i, index_of a perm = Some i /\ forall x j, In x l -> index_of x perm = Some j -> i <= j.
Proof. exact by_priority_spec. Qed.

(** * Concrete cases *)
Local Open Scope string_scope.
Definition ex_md : list (nat * nat) := [(1, 1); (2, 1); (3, 2); (4, 1); (5, 1)].
Definition ex_caps : list (string * Z) := [("R", 2%Z); ("N", 3%Z)].
Definition ex_anc : list (nat * list nat) := [(1, []); (2, [1]); (3, [1]); (4, [1; 2]); (5, [1; 2; 3; 4])].

Lemma ex_pi : forall preds, dkeys preds = [1; 2; 3; 4; 5] -> (forall a s, dget preds a = Some s -> NoDup s) -> dget preds 1 = Some [] ->
  (forall a b l, dget (p_succ ex_p) a = Some l -> In b l -> exists s, dget preds b = Some s /\ In a s) ->
  pile_instance ex_p ex_md ex_caps preds 3.
Proof.
  intros preds K Nd F D. constructor; auto.
  - repeat constructor; cbn; intuition congruence.
  - intros r c H. cbn in H. destruct (String.eqb r "R"); [injection H as <-; lia|]. destruct (String.eqb r "N"); [injection H as <-; lia|discriminate].
  - intros r [<-|[]]. cbn. auto.
  - intros a Ha. five a Ha; do 3 eexists; (split; [reflexivity|]; split; [reflexivity|]; split; [reflexivity|]);
    intros r [<-|[<-|[]]]; cbn; eauto.
  - intros a d k m r x H J Q. cbn in H.
    repeat (destruct a as [|a]; cbn in H; try discriminate); injection H as <-;
    repeat (destruct k as [|k]; cbn in J; try discriminate); injection J as <-; cbn in Q;
    (destruct (String.eqb r "R"); [injection Q as <-; lia|]; destruct (String.eqb r "N"); [injection Q as <-; lia|discriminate]).
  - intros m d H J. cbn in H. injection H as <-. cbn in J. injection J as <-. reflexivity.
  - rewrite K. repeat constructor; cbn; intuition congruence.
  - intros a. rewrite K. cbn. lia.
Qed.

Lemma ex_pile : pile_instance ex_p ex_md ex_caps ex_anc 3.
Proof.
  apply ex_pi; auto.
  - intros a s H. cbn in H. repeat (destruct a as [|a]; cbn in H; try discriminate); injection H as <-; repeat constructor; cbn; intuition congruence.
  - intros a b l D Ib. cbn in D. repeat (destruct a as [|a]; cbn in D; try discriminate); injection D as <-; cbn in Ib;
    repeat (destruct Ib as [<-|Ib]; [cbn; eexists; split; [reflexivity|]; cbn; auto 6|]); destruct Ib.
Qed.

(** Two tasks compete for "R"; the task with the most successors goes first, and the other one starts at 2
    together with task 4. *)
Definition ex_pile_sch : schedule := [(1, (0, 0)%Z); (2, (0, 2)%Z); (3, (2, 5)%Z); (4, (2, 4)%Z); (5, (5, 5)%Z)].
Definition ex_nb (a : nat) : nat := nth a [0; 4; 2; 1; 1; 0] 0.
Example C40_ex : pile_solve ex_p ex_md ex_caps ex_anc (most_successors ex_nb) = Ok ([1; 2; 1], (ex_pile_sch, [0; 1; 2]%Z)) /\
  timed ex_p [1; 2; 1] (seq 1 5) ex_pile_sch /\ running ex_p [1; 2; 1] ex_pile_sch "R" 3 = 2%Z /\
  spent ex_p [1; 2; 1] 3 "N" = 3%Z /\ each_fits ex_p [1; 2; 1] ex_caps 3 /\
  pile_solve ex_p ex_md ex_caps ex_anc (fastest (fun a => nth a [0; 0; 2; 1; 2; 0] 0)) =
    Ok ([1; 2; 1], ([(1, (0, 0)%Z); (3, (0, 3)%Z); (2, (3, 5)%Z); (4, (5, 7)%Z); (5, (7, 7)%Z)], [1; 0; 2]%Z)).
Proof.
  assert (H : pile_solve ex_p ex_md ex_caps ex_anc (most_successors ex_nb) = Ok ([1; 2; 1], (ex_pile_sch, [0; 1; 2]%Z))) by (vm_compute; reflexivity).
  split; [exact H|]. split; [|split; [|split; [|split]]].
  - apply (C40_feasible _ _ _ _ 3 _ _ _ _ ex_pile (proj1 (C40_rules 3 ex_nb ex_nb (fun _ => 0))) H).
  - vm_compute. reflexivity.
  - vm_compute. reflexivity.
  - constructor.
    + intros a r c Ha D. cbn in D. destruct (String.eqb_spec r "R") as [->|]; [|destruct (String.eqb_spec r "N") as [->|]; [|discriminate]];
      injection D as <-; five a Ha; vm_compute; congruence.
    + intros r c [<-|[]] D. cbn in D. injection D as <-. vm_compute. congruence.
  - vm_compute. reflexivity.
Qed.

Lemma ex_exec : pile_instance ex_p ex_md ex_caps (imm_preds ex_p) 3.
Proof.
  apply ex_pi; auto.
  - intros a s H. cbn in H. repeat (destruct a as [|a]; cbn in H; try discriminate); injection H as <-; repeat constructor; cbn; intuition congruence.
  - intros a b l D Ib. cbn in D. repeat (destruct a as [|a]; cbn in D; try discriminate); injection D as <-; cbn in Ib;
    repeat (destruct Ib as [<-|Ib]; [cbn; eexists; split; [reflexivity|]; cbn; auto 6|]); destruct Ib.
Qed.

(** The list 1, 4, 3, 2, 5: task 3 starts first since task 4 waits for task 2. *)
Example C51_ex : execute ex_p ex_md ex_caps [1; 4; 3; 2; 5] =
    Ok ([1; 1; 2], ([(1, (0, 0)%Z); (3, (0, 3)%Z); (2, (3, 5)%Z); (4, (5, 7)%Z); (5, (7, 7)%Z)], [1; 0; 2]%Z)) /\
  timed ex_p [1; 2; 1] (seq 1 5) [(1, (0, 0)%Z); (3, (0, 3)%Z); (2, (3, 5)%Z); (4, (5, 7)%Z); (5, (7, 7)%Z)].
Proof.
  assert (H : execute ex_p ex_md ex_caps [1; 4; 3; 2; 5] =
    Ok ([1; 1; 2], ([(1, (0, 0)%Z); (3, (0, 3)%Z); (2, (3, 5)%Z); (4, (5, 7)%Z); (5, (7, 7)%Z)], [1; 0; 2]%Z))) by (vm_compute; reflexivity).
  split; [exact H|].
  apply (C51_feasible ex_p ex_md ex_caps 3 [1; 2; 1] [1; 4; 3; 2; 5] [1; 1; 2] _ [1; 0; 2]%Z ex_exec); auto.
  - repeat constructor; cbn; intuition congruence.
  - intros a Ha. five a Ha; cbn; auto 6.
Qed.

(** * Findings *)
(** The solution returned by the executor carries the modes shifted by one task (rcpsp_pile.py:441): for
    the instance above they are not the modes of the schedule, and the schedule does not fit them. *)
Theorem C51_modes_refuted : exists p md resources perm n modes modes' sch perm',
  pile_instance p md resources (imm_preds p) n /\ (forall a, 1 <= a <= n + 2 -> In a perm) /\
  pile_modes p 2 md = Ok modes /\ execute p md resources perm = Ok (modes', (sch, perm')) /\
  modes' <> modes /\ ~ timed p modes' (seq 1 (n + 2)) sch.
Proof.
  exists ex_p, ex_md, ex_caps, [1; 4; 3; 2; 5], 3, [1; 2; 1], [1; 1; 2].
  exists [(1, (0, 0)%Z); (3, (0, 3)%Z); (2, (3, 5)%Z); (4, (5, 7)%Z); (5, (7, 7)%Z)], [1; 0; 2]%Z.
  split; [exact ex_exec|]. split; [intros a Ha; five a Ha; cbn; auto 6|]. split; [reflexivity|].
  split; [vm_compute; reflexivity|]. split; [congruence|].
  intros T. destruct T as [_ T _]. destruct (T 3 0%Z 3%Z) as (m & C & _ & E); [cbn; auto|]. cbn in C. injection C as <-. discriminate.
Qed.

(** When a task is not an ancestor of the sink, the permutation of the solution may miss that task and hold
    the sink instead: [perm[:-1]] (rcpsp_pile.py:163) drops the last scheduled task. *)
Theorem C40_permutation_refuted : exists p md resources preds n choose modes sch perm,
  pile_instance p md resources preds n /\ rule n choose /\
  pile_solve p md resources preds choose = Ok (modes, (sch, perm)) /\ ~ Permutation perm (map Z.of_nat (seq 0 n)).
Proof.
  pose (p := Rcpsp (Constant [("R", 1%Z)]) [] [(1, [(1, Mode 0 [("R", 0%Z)])]); (2, [(1, Mode 1 [("R", 1%Z)])]); (3, [(1, Mode 0 [("R", 0%Z)])])]
     [(1, [2]); (2, []); (3, [])] 5 1).
  exists p, [(1, 1); (2, 1); (3, 1)], [("R", 1%Z)], [(1, []); (2, [1]); (3, [])], 1, (most_successors (fun a => a)), [1],
    [(1, (0, 0)%Z); (3, (0, 0)%Z); (2, (0, 1)%Z)], [1%Z].
  split; [|split; [apply (C40_rules 1 (fun a => a) (fun a => a) (fun _ => 0))|split; [vm_compute; reflexivity|]]].
  - constructor; auto.
    + repeat constructor; cbn; tauto.
    + intros r c H. cbn in H. destruct (String.eqb r "R"); [injection H as <-; lia|discriminate].
    + intros r [].
    + intros a Ha. destruct a as [|[|[|[|a]]]]; try (exfalso; lia); do 3 eexists; (split; [reflexivity|]; split; [reflexivity|]; split; [reflexivity|]);
      intros r [<-|[]]; cbn; eauto.
    + intros a d k m r x H J Q. cbn in H.
      repeat (destruct a as [|a]; cbn in H; try discriminate); injection H as <-;
      repeat (destruct k as [|k]; cbn in J; try discriminate); injection J as <-; cbn in Q;
      (destruct (String.eqb r "R"); [injection Q as <-; lia|discriminate]).
    + intros m d H J. cbn in H. injection H as <-. cbn in J. injection J as <-. reflexivity.
    + repeat constructor; cbn; intuition congruence.
    + intros a. cbn. lia.
    + intros a s H. cbn in H. repeat (destruct a as [|a]; cbn in H; try discriminate); injection H as <-; repeat constructor; cbn; intuition congruence.
    + intros a b l D Ib. cbn in D. repeat (destruct a as [|a]; cbn in D; try discriminate); injection D as <-; cbn in Ib;
      repeat (destruct Ib as [<-|Ib]; [cbn; eexists; split; [reflexivity|]; cbn; auto 6|]); destruct Ib.
  - intros P. apply Permutation_length_1 in P. discriminate.
Qed.

(** A task that needs more than the capacity makes the solver fail when it pops from the empty queue, instead
    of reporting that there is no solution. *)
Theorem C40_stuck_refuted : exists p md resources preds n choose,
  pile_instance p md resources preds n /\ rule n choose /\ pile_solve p md resources preds choose = Err IndexError.
Proof.
  exists (Rcpsp (Constant [("R", 1%Z); ("N", 3%Z)]) ["N"] (p_modes ex_p) (p_succ ex_p) 10 1), ex_md, [("R", 1%Z); ("N", 3%Z)], ex_anc, 3,
    (most_successors ex_nb).
  split; [|split; [apply (C40_rules 3 ex_nb ex_nb (fun _ => 0))|vm_compute; reflexivity]].
  destruct ex_pile. constructor; auto.
  intros r c H. cbn in H. destruct (String.eqb r "R"); [injection H as <-; lia|]. destruct (String.eqb r "N"); [injection H as <-; lia|discriminate].
Qed.

Print Assumptions C40_feasible.
Print Assumptions C40_permutation.
Print Assumptions C40_total.
Print Assumptions C40_complete.
Print Assumptions C40_rules.
Print Assumptions C51_feasible.
Print Assumptions C51_complete.
Print Assumptions C51_priority.
Print Assumptions C51_modes_refuted.
Print Assumptions C40_permutation_refuted.
Print Assumptions C40_stuck_refuted.
