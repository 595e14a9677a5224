(** Properties of the serial generation scheme: C38, C49, C50. *)
From Coq Require Import String.
From Coq Require Import List Bool Arith ZArith Lia Permutation.
From Coq Require Import ZifyBool ZifyNat.
From Verif Require Import Py PyList SgsModel TspProofs SgsProofs SgsTotalProofs.
Import ListNotations.

(** * Specification vocabulary *)
(** The mode a task runs in: source and sink use mode 1, task [i + 2] the [i]-th of the list. *)
Definition chosen (p : rcpsp) (modes : list nat) (a : nat) : option mode :=
  let k := if (a =? 1) || (a =? p_sink p) then Some 1 else nth_error modes (a - 2) in
  match k, dget (p_modes p) a with
  | Some k, Some d => dget d k
  | _, _ => None
  end.
Definition demand (p : rcpsp) (modes : list nat) (a : nat) (r : string) : Z :=
  match chosen p modes a with
  | Some m => match dget (m_need m) r with Some n => n | None => 0 end
  | None => 0
  end%Z.
(** Capacity of resource [r] at time [t]. *)
Definition capacity_of (p : rcpsp) (r : string) (t : nat) : option Z :=
  match p_res p with
  | Constant c => dget c r
  | Calendar c => match dget c r with Some row => nth_error row t | None => None end
  end.
(** What the tasks running at time [t] use; what the tasks of positive length started by time [t] use;
    what all tasks of positive length use. *)
Definition running (p : rcpsp) (modes : list nat) (sch : schedule) (r : string) (t : Z) : Z :=
  sumZ (map (fun x : nat * (Z * Z) => let '(a, (s, e)) := x in
    if (s <=? t)%Z && (t <? e)%Z then demand p modes a r else 0%Z) sch).
Definition consumed (p : rcpsp) (modes : list nat) (sch : schedule) (r : string) (t : Z) : Z :=
  sumZ (map (fun x : nat * (Z * Z) => let '(a, (s, e)) := x in
    if (s <=? t)%Z && (s <? e)%Z then demand p modes a r else 0%Z) sch).
Definition consumed_all (p : rcpsp) (modes : list nat) (sch : schedule) (r : string) : Z :=
  sumZ (map (fun x : nat * (Z * Z) => let '(a, (s, e)) := x in
    if (s <? e)%Z then demand p modes a r else 0%Z) sch).

(** Timing of a set of tasks: each once, for the length of its mode, after its predecessors. *)
Record timed (p : rcpsp) (modes : list nat) (tasks : list nat) (sch : schedule) : Prop := {
  t_tasks : Permutation (map fst sch) tasks;
  t_length : forall a s e, In (a, (s, e)) sch ->
    exists m, chosen p modes a = Some m /\ (0 <= s)%Z /\ e = (s + Z.of_nat (m_duration m))%Z;
  t_precedence : forall a b l sa ea sb eb, dget (p_succ p) a = Some l -> In b l ->
    In (a, (sa, ea)) sch -> In (b, (sb, eb)) sch -> (ea <= sb)%Z
}.
(** Resources are respected. *)
Record within (p : rcpsp) (modes : list nat) (sch : schedule) : Prop := {
  r_running : forall r t c, ~ In r (p_nonren p) -> capacity_of p r t = Some c ->
    (running p modes sch r (Z.of_nat t) <= c)%Z;
  r_consumed : forall r t c, In r (p_nonren p) -> t < new_horizon p -> capacity_of p r t = Some c ->
    (consumed p modes sch r (Z.of_nat t) <= c)%Z;
  r_total : forall c r x, p_res p = Constant c -> In r (p_nonren p) -> dget c r = Some x ->
    (consumed_all p modes sch r <= x)%Z
}.

(** Data that make sense: resource names are distinct and capacities are not negative. *)
Record sane (p : rcpsp) : Prop := {
  s_names : NoDup (res_names p);
  s_caps : forall r t c, capacity_of p r t = Some c -> (0 <= c)%Z
}.
(** A complete instance. *)
Record instance (p : rcpsp) : Prop := {
  in_names : NoDup (res_names p);
  in_rows : match p_res p with
            | Constant _ => True
            | Calendar c => forall r row, In (r, row) c -> new_horizon p <= length row
            end;
  in_task : forall a, 1 <= a <= p_sink p -> exists d m, dget (p_modes p) a = Some d /\ dget d 1 = Some m;
  in_need : forall a d k m r, dget (p_modes p) a = Some d -> dget d k = Some m -> In r (res_names p) ->
              exists n, dget (m_need m) r = Some n;
  in_succ : forall a, 1 <= a <= p_sink p -> exists l, dget (p_succ p) a = Some l;
  in_closed : forall a l b, dget (p_succ p) a = Some l -> In b l -> In b (dkeys (p_succ p));
  in_acyclic : exists rank : nat -> nat, forall a l b, dget (p_succ p) a = Some l -> In b l -> rank a < rank b;
  in_dict : NoDup (dkeys (p_succ p))
}.

(** * Links *)
Lemma fix_ok : forall p modes me n, fix_modes p modes = Ok me -> length modes = n -> p_sink p = n + 2 ->
  me = 1 :: fixed_modes me ++ [1] /\ length (fixed_modes me) = n /\
  forall i k, nth_error modes i = Some k -> exists d, dget (p_modes p) (i + 2) = Some d /\
    nth_error (fixed_modes me) i = Some (if dmem d k then k else 1).
Proof.
  intros p modes me n H L S. unfold fix_modes in H.
  assert (Len : length me = n + 2).
  { apply mapM_length in H. rewrite combine_length, seq_length in H. unfold extend_modes in H.
    cbn [length] in H. rewrite app_length in H. cbn [length] in H. lia. }
  assert (At : forall i k, nth_error (extend_modes modes) i = Some k -> exists d, dget (p_modes p) (i + 1) = Some d /\
    nth_error me i = Some (if dmem d k then k else 1)).
  { intros i k N. assert (Li : i < length me).
    { assert (i < length (extend_modes modes)) by (apply nth_error_Some; congruence). unfold extend_modes in H0.
      cbn [length] in H0. rewrite app_length in H0. cbn [length] in H0. lia. }
    destruct (nth_error me i) as [y|] eqn:Y; [|apply nth_error_None in Y; lia].
    destruct (mapM_nth _ _ _ H Y) as [[j k'] [N' F]].
    assert (E : j = i /\ k' = k).
    { clear -N N'. assert (G : forall (l : list nat) s i j k k', nth_error (combine (seq s (length l)) l) i = Some (j, k') ->
        nth_error l i = Some k -> j = s + i /\ k' = k).
      { induction l as [|x l IH]; intros s [|i'] j' a b E1 E2; cbn in *; try discriminate.
        - injection E1 as <- <-. injection E2 as <-. split; [lia|auto].
        - destruct (IH (Datatypes.S s) _ _ _ _ E1 E2). split; [lia|auto]. }
      destruct (G _ _ _ _ _ _ N' N). split; [lia|auto]. }
    destruct E as [-> ->]. cbn [fst snd] in F. apply bind_ok in F as [d [D F]]. apply dgetE_ok in D.
    injection F as <-. exists d. auto. }
  destruct me as [|x me]; [cbn in Len; lia|].
  destruct (@exists_last _ me) as [mid [y ->]]; [destruct me; [cbn in Len; lia|discriminate]|].
  unfold fixed_modes. cbn [tl]. rewrite removelast_last.
  cbn [length] in Len. rewrite app_length in Len. cbn [length] in Len.
  destruct (At 0 1 eq_refl) as [d0 [_ E0]]. cbn in E0. injection E0 as ->.
  assert (El : nth_error (extend_modes modes) (Datatypes.S n) = Some 1).
  { unfold extend_modes. cbn [nth_error]. rewrite nth_error_app2 by lia. now rewrite L, Nat.sub_diag. }
  destruct (At _ _ El) as [d1 [_ E1]]. cbn [nth_error] in E1. rewrite nth_error_app2 in E1 by lia.
  replace (n - length mid) with 0 in E1 by lia. cbn in E1. injection E1 as ->.
  assert (T : forall d : list (nat * mode), (if dmem d 1 then 1 else 1) = 1) by (intros d; now destruct (dmem d 1)).
  rewrite !T. split; auto. split; [lia|].
  intros i k N. destruct (At (Datatypes.S i) k) as [d [D E]].
  { unfold extend_modes. cbn [nth_error]. rewrite nth_error_app1; auto. apply nth_error_Some. congruence. }
  exists d. replace (i + 2) with (Datatypes.S i + 1) by lia. split; auto. cbn [nth_error] in E.
  rewrite nth_error_app1 in E; auto. assert (i < length modes) by (apply nth_error_Some; congruence). lia.
Qed.

Lemma mode_chosen : forall p modes a n, p_sink p = n + 2 -> length modes = n -> 1 <= a <= p_sink p ->
  forall m, mode_of p (1 :: modes ++ [1]) a = Ok m <-> chosen p modes a = Some m.
Proof.
  intros p modes a n S L Ha m. unfold mode_of, chosen, dgetE, lget.
  destruct a as [|i]; [lia|].
  assert (E : nth_error (1 :: modes ++ [1]) i =
    if (Datatypes.S i =? 1) || (Datatypes.S i =? p_sink p) then Some 1 else nth_error modes (Datatypes.S i - 2)).
  { destruct i as [|i]; [reflexivity|]. cbn [nth_error]. destruct (Nat.eqb_spec (Datatypes.S (Datatypes.S i)) (p_sink p)).
    - rewrite orb_true_r. rewrite nth_error_app2 by lia. replace (i - length modes) with 0 by lia. reflexivity.
    - replace (Datatypes.S (Datatypes.S i) =? 1) with false by lia. cbn [orb].
      rewrite nth_error_app1 by lia. f_equal. lia. }
  rewrite <- E. destruct (nth_error (1 :: modes ++ [1]) i) as [k|] eqn:N.
  - destruct (dget (p_modes p) (Datatypes.S i)) as [d|]; cbn [bind].
    + destruct (dget d k); split; congruence.
    + split; congruence.
  - apply nth_error_None in N. cbn [length] in N. rewrite app_length in N. cbn [length] in N. lia.
Qed.

Lemma make_ok : forall p me ends sch, make_schedule p me ends = Ok sch ->
  sch = map (fun ae : nat * nat => (fst ae, (Z.of_nat (snd ae) - Z.of_nat (dur p me (fst ae)), Z.of_nat (snd ae))%Z)) ends.
Proof.
  intros p me ends sch H. unfold make_schedule in H. apply mapM_ok in H. induction H; cbn [map]; auto.
  f_equal; auto. apply bind_ok in H as [m [M H]]. injection H as <-. unfold dur. now rewrite M.
Qed.

Lemma map_fst_make : forall p me ends,
  map fst (map (fun ae : nat * nat => (fst ae, (Z.of_nat (snd ae) - Z.of_nat (dur p me (fst ae)), Z.of_nat (snd ae))%Z)) ends)
  = dkeys ends.
Proof. intros. rewrite map_map. reflexivity. Qed.

Lemma cell_capacity : forall p r t, t < new_horizon p -> cell (avail_init p) r t = capacity_of p r t.
Proof.
  intros p r t L. unfold cell, avail_init, capacity_of. destruct (p_res p) as [c|c].
  - induction c as [|[k v] c IH]; cbn; auto. destruct (String.eqb r k); auto.
    apply nth_error_repeat. exact L.
  - induction c as [|[k v] c IH]; cbn; auto. destruct (String.eqb r k); auto.
    apply nth_error_firstn. lia.
Qed.

Lemma cell_capacity_some : forall p r t x, cell (avail_init p) r t = Some x -> capacity_of p r t = Some x.
Proof.
  intros p r t x C. unfold cell, avail_init, capacity_of in *. destruct (p_res p) as [c|c].
  - induction c as [|[k v] c IH]; cbn in *; [discriminate|]. destruct (String.eqb r k); auto.
    apply nth_error_In in C. apply repeat_spec in C. congruence.
  - induction c as [|[k v] c IH]; cbn in *; [discriminate|]. destruct (String.eqb r k); auto.
    assert (t < length (firstn (new_horizon p + 1) v)) by (apply nth_error_Some; congruence).
    rewrite firstn_length in H. rewrite <- C. symmetry. apply nth_error_firstn. lia.
Qed.

Lemma capacity_name : forall p r t c, capacity_of p r t = Some c -> In r (res_names p).
Proof.
  intros p r t c H. unfold capacity_of, res_names in *. destruct (p_res p).
  - apply dmem_true. unfold dmem. now rewrite H.
  - destruct (dget r0 r) eqn:D; [|discriminate]. apply dmem_true. unfold dmem. now rewrite D.
Qed.

Lemma instance_wf : forall p, instance p -> well_formed p.
Proof.
  intros p [I1 I2 I3 I4 I5 I6 I7 I8]. constructor; auto.
  intros r t Ir L. rewrite cell_capacity by auto. rewrite avail_keys in Ir. unfold capacity_of, res_names in *.
  destruct (p_res p) as [c|c].
  - destruct (dget c r) eqn:D; eauto. apply dget_None in D. contradiction.
  - destruct (dget c r) eqn:D; [|apply dget_None in D; contradiction]. apply dget_In in D. specialize (I2 _ _ D).
    destruct (nth_error l t) eqn:N; eauto. apply nth_error_None in N. lia.
Qed.

Section Core.
  Variables (p : rcpsp) (modes : list nat) (n : nat) (pe : list nat) (mins0 : list (nat * nat)).
  Let me := 1 :: modes ++ [1].
  Hypothesis Sane : sane p.
  Hypothesis Sink : p_sink p = n + 2.
  Hypothesis Len : length modes = n.
  Hypothesis Rng : forall a, In a pe -> 1 <= a <= p_sink p.

  Lemma core_timed : forall g sch, NoDup pe -> inv p me pe mins0 g -> g_perm g = [] -> make_schedule p me (g_ends g) = Ok sch ->
    timed p modes pe sch.
  Proof.
    intros g sch Nd I P M. apply make_ok in M. constructor.
    - rewrite M, map_fst_make. symmetry. rewrite (inv_split p me pe mins0 Nd g I), P. reflexivity.
    - intros a s e Ia. rewrite M in Ia. apply in_map_iff in Ia as [[a' e'] [E Ia]]. cbn [fst snd] in E.
      injection E as -> <- <-. destruct (i_placed _ _ _ _ _ I a e' Ia) as (m & Mm & De & _).
      exists m. split.
      + apply (mode_chosen p modes a n Sink Len); auto. apply Rng. apply (i_all _ _ _ _ _ I). right. eapply In_key; eauto.
      + unfold dur. rewrite Mm. lia.
    - intros a b l sa ea sb eb D Ib Ia Jb. rewrite M in Ia, Jb.
      apply in_map_iff in Ia as [[a' ea'] [E Ia]]. apply in_map_iff in Jb as [[b' eb'] [E' Jb]]. cbn [fst snd] in *.
      injection E as -> <- <-. injection E' as -> <- <-.
      destruct (i_placed _ _ _ _ _ I b eb' Jb) as (m & Mm & De & _ & Pr).
      destruct (Pr a l D Ib) as [_ H]. specialize (H ea' Ia). unfold dur. rewrite Mm. lia.
  Qed.

  Lemma demand_amt : forall a r, 1 <= a <= p_sink p -> demand p modes a r = amt p me a r.
  Proof.
    intros a r Ha. unfold demand, amt. destruct (chosen p modes a) as [m|] eqn:C.
    - apply (mode_chosen p modes a n Sink Len Ha) in C. fold me in C. rewrite C. reflexivity.
    - destruct (mode_of p me a) eqn:M; auto. apply (mode_chosen p modes a n Sink Len Ha) in M. congruence.
  Qed.

  Definition timed_of (ends : list (nat * nat)) : schedule :=
    map (fun ae : nat * nat => (fst ae, (Z.of_nat (snd ae) - Z.of_nat (dur p me (fst ae)), Z.of_nat (snd ae))%Z)) ends.

  Lemma core_sum : forall g ends (f : nat * (Z * Z) -> Z) (h : nat * nat -> Z), inv p me pe mins0 g ->
    incl ends (g_ends g) ->
    (forall a e m, In (a, e) ends -> mode_of p me a = Ok m -> m_duration m <= e -> 1 <= a <= p_sink p ->
       f (a, (Z.of_nat e - Z.of_nat (m_duration m), Z.of_nat e)%Z) = h (a, e)) ->
    sumZ (map f (timed_of ends)) = sumZ (map h ends).
  Proof.
    intros g ends f h I IN E. unfold timed_of. rewrite map_map. apply sumZ_map_ext. intros [a e] Ia.
    destruct (i_placed _ _ _ _ _ I a e (IN _ Ia)) as (m & Mm & De & _). cbn [fst snd]. unfold dur. rewrite Mm.
    apply E; auto. apply Rng. apply (i_all _ _ _ _ _ I). right. eapply In_key. exact (IN _ Ia).
  Qed.

  Lemma core_running : forall g ends r t, inv p me pe mins0 g -> incl ends (g_ends g) ->
    ~ In r (p_nonren p) -> running p modes (timed_of ends) r (Z.of_nat t) = total p me ends r t.
  Proof.
    intros g ends r t I M NR. apply (core_sum g); auto. intros a e m Ia Mm De Ha. rewrite demand_amt by auto.
    unfold use_of, amt, uses. cbn [fst snd]. rewrite Mm.
    replace (pymem r (p_nonren p)) with false by (symmetry; exact (proj2 (pymem_false r (p_nonren p)) NR)).
    cbn [andb]. rewrite orb_false_r. rewrite Nat.sub_add by lia.
    destruct (Z.leb_spec (Z.of_nat e - Z.of_nat (m_duration m)) (Z.of_nat t)), (Z.ltb_spec (Z.of_nat t) (Z.of_nat e)),
      (Nat.leb_spec (e - m_duration m) t), (Nat.ltb_spec t e); cbn [andb]; auto; lia.
  Qed.

  Lemma core_consumed : forall g ends r t, inv p me pe mins0 g -> incl ends (g_ends g) ->
    In r (p_nonren p) -> t < new_horizon p -> consumed p modes (timed_of ends) r (Z.of_nat t) = total p me ends r t.
  Proof.
    intros g ends r t I M NR Ht. apply (core_sum g); auto. intros a e m Ia Mm De Ha. rewrite demand_amt by auto.
    unfold use_of, amt, uses. cbn [fst snd]. rewrite Mm.
    rewrite (proj2 (pymem_true r (p_nonren p)) NR). replace (t <? new_horizon p) with true by lia.
    cbn [andb]. rewrite andb_true_r. rewrite Nat.sub_add by lia.
    destruct (Z.leb_spec (Z.of_nat e - Z.of_nat (m_duration m)) (Z.of_nat t)),
      (Z.ltb_spec (Z.of_nat e - Z.of_nat (m_duration m)) (Z.of_nat e)),
      (Nat.leb_spec (e - m_duration m) t), (Nat.ltb_spec t e), (Nat.ltb_spec 0 (m_duration m)); cbn [andb orb]; auto; lia.
  Qed.

  Lemma core_within : forall g sch, inv p me pe mins0 g -> g_bad g = false -> make_schedule p me (g_ends g) = Ok sch ->
    within p modes sch.
  Proof.
    intros g sch I B M. apply make_ok in M. fold (timed_of (g_ends g)) in M. subst sch. destruct Sane as [Sn Sc].
    set (sch := timed_of (g_ends g)).
    assert (NC : nonneg_caps p).
    { intros r t x C. apply cell_capacity_some in C. eapply Sc; eauto. }
    assert (Cap : forall r t c, t < new_horizon p -> capacity_of p r t = Some c -> (total p me (g_ends g) r t <= c)%Z).
    { intros r t c L C. rewrite <- cell_capacity in C by auto. destruct (i_avail _ _ _ _ _ I) as [_ SH].
      specialize (SH r t). rewrite C in SH. pose proof (i_cap _ _ _ _ _ I NC B r t _ SH). lia. }
    assert (Late : forall r t c, new_horizon p <= t -> capacity_of p r t = Some c ->
      running p modes sch r (Z.of_nat t) = 0%Z).
    { intros r t c L C. unfold running. rewrite (core_sum g (g_ends g) _ (fun _ => 0%Z) I (incl_refl _)).
      - clear. induction (g_ends g); cbn [map]; [reflexivity|]. rewrite sumZ_cons. lia.
      - intros a e m Ia Mm De Ha. destruct (Nat.eq_dec (m_duration m) 0) as [Z0|Z0].
        + rewrite Z0. destruct (Z.leb_spec (Z.of_nat e - Z.of_nat 0) (Z.of_nat t)), (Z.ltb_spec (Z.of_nat t) (Z.of_nat e));
            cbn [andb]; auto; lia.
        + pose proof (i_horizon _ _ _ _ _ I a e m r Ia Mm ltac:(lia) (capacity_name _ _ _ _ C)).
          destruct (Z.ltb_spec (Z.of_nat t) (Z.of_nat e)); [lia|]. now rewrite andb_false_r. }
    constructor.
    - intros r t c NR C. destruct (le_lt_dec (new_horizon p) t) as [L|L].
      + rewrite (Late r t c L C). eapply Sc; eauto.
      + unfold sch. rewrite (core_running g); auto. apply incl_refl.
    - intros r t c NR L C. unfold sch. rewrite (core_consumed g); auto. apply incl_refl.
    - intros c r x Pc NR D. assert (C : forall t, capacity_of p r t = Some x) by (intros; unfold capacity_of; now rewrite Pc).
      destruct (Nat.eq_dec (new_horizon p) 0) as [Z0|Z0].
      + unfold consumed_all. rewrite (core_sum g (g_ends g) _ (fun _ => 0%Z) I (incl_refl _)).
        * replace (sumZ (map (fun _ => 0%Z) (g_ends g))) with 0%Z; [exact (Sc _ _ _ (C 0))|].
          clear. induction (g_ends g); cbn [map]; [reflexivity|]. rewrite sumZ_cons. lia.
        * intros a e m Ia Mm De Ha. destruct (Nat.eq_dec (m_duration m) 0) as [Z1|Z1].
          -- rewrite Z1. destruct (Z.ltb_spec (Z.of_nat e - Z.of_nat 0) (Z.of_nat e)); auto; lia.
          -- pose proof (i_horizon _ _ _ _ _ I a e m r Ia Mm ltac:(lia) (capacity_name _ _ _ _ (C 0))). lia.
      + assert (E : consumed_all p modes sch r = consumed p modes sch r (Z.of_nat (new_horizon p - 1))).
        { unfold consumed_all, consumed. f_equal. apply map_ext_in. intros [a [s e]] Ia.
          destruct (Z.ltb_spec s e); [|now rewrite andb_false_r].
          assert (s <= Z.of_nat (new_horizon p - 1))%Z; [|destruct (Z.leb_spec s (Z.of_nat (new_horizon p - 1))); [reflexivity|lia]].
          apply in_map_iff in Ia as [[a' e'] [E Ia]]. cbn [fst snd] in E.
          injection E as -> <- <-. destruct (i_placed _ _ _ _ _ I a e' Ia) as (m & Mm & De & _).
          unfold dur in *. rewrite Mm in *.
          pose proof (i_horizon _ _ _ _ _ I a e' m r Ia Mm ltac:(lia) (capacity_name _ _ _ _ (C 0))). lia. }
        rewrite E. unfold sch. rewrite (core_consumed g); auto; [apply Cap; auto; lia|apply incl_refl|lia].
  Qed.
End Core.

Lemma extend_perm_spec : forall p perm n, Permutation perm (seq 0 n) -> p_sink p = n + 2 ->
  Permutation (extend_perm p perm) (seq 1 (p_sink p)).
Proof.
  intros p perm n P S. unfold extend_perm. rewrite S. replace (n + 2) with (Datatypes.S (Datatypes.S n)) by lia.
  change (seq 1 (Datatypes.S (Datatypes.S n))) with (1 :: seq 2 (Datatypes.S n)). constructor.
  rewrite seq_S. apply Permutation_app.
  - replace (seq 2 n) with (map (fun x => x + 2) (seq 0 n)); [now apply Permutation_map|].
    clear. assert (G : forall s, map (fun x => x + 2) (seq s n) = seq (s + 2) n).
    { induction n; intros s; cbn [seq map]; auto. f_equal. apply (IHn (Datatypes.S s)). }
    apply (G 0).
  - replace (2 + n) with (Datatypes.S (Datatypes.S n)) by lia. reflexivity.
Qed.

Lemma extend_range : forall p perm n, Permutation perm (seq 0 n) -> p_sink p = n + 2 ->
  NoDup (extend_perm p perm) /\ forall a, In a (extend_perm p perm) <-> 1 <= a <= p_sink p.
Proof.
  intros p perm n P S. pose proof (extend_perm_spec p perm n P S) as E. split.
  - apply (Permutation_NoDup (Permutation_sym E)), seq_NoDup.
  - intros a. rewrite E, in_seq. lia.
Qed.

Lemma finish_true : forall p bad sch sch', finish p bad sch = Ok (sch', true) -> bad = false /\ sch' = sch.
Proof.
  intros p bad sch sch' H. unfold finish in H. destruct bad.
  - destruct (rev (dkeys (p_succ p))); [discriminate|]. destruct (dmem sch n); discriminate.
  - injection H as <-. auto.
Qed.

Lemma sgs_unfold : forall p perm modes modes' sch n, Permutation perm (seq 0 n) -> p_sink p = n + 2 ->
  length modes = n -> NoDup (res_names p) -> serial_sgs p perm modes = Ok (modes', (sch, true)) ->
  exists g, length modes' = n /\
    inv p (1 :: modes' ++ [1]) (extend_perm p perm) (map (fun a => (a, 0)) (dkeys (p_succ p))) g /\
    g_perm g = [] /\ g_bad g = false /\ make_schedule p (1 :: modes' ++ [1]) (g_ends g) = Ok sch.
Proof.
  intros p perm modes modes' sch n P S L N H. unfold serial_sgs in H.
  apply bind_ok in H as [me [F H]]. destruct (fix_ok p modes me n F L S) as (E & L' & _).
  apply bind_ok in H as [g [G H]]. apply bind_ok in H as [sch0 [M H]]. apply bind_ok in H as [r [R H]].
  injection H as <- ->. apply finish_true in R as [B ->].
  destruct (extend_range p perm n P S) as [Nd _].
  rewrite E in G, M. set (ms := fixed_modes me) in *. clearbody ms.
  apply (loop_inv p (1 :: ms ++ [1]) (extend_perm p perm) (map (fun a => (a, 0)) (dkeys (p_succ p))) N) in G as [I Pg].
  - exists g. auto 10.
  - apply start_inv; auto.
Qed.

(** * C38 *)
(** A schedule marked feasible contains every task once, for the length of its mode, respects the
    precedences, the renewable capacities at every time, and the non-renewable capacities over the
    tasks of positive length. *)
Theorem C38_feasible : forall p perm modes modes' sch n,
  sane p -> p_sink p = n + 2 -> Permutation perm (seq 0 n) -> length modes = n ->
  serial_sgs p perm modes = Ok (modes', (sch, true)) ->
  timed p modes' (seq 1 (n + 2)) sch /\ within p modes' sch.
Proof.
  intros p perm modes modes' sch n Sa S P L H.
  destruct (sgs_unfold p perm modes modes' sch n P S L (s_names _ Sa) H) as (g & L' & I & Pg & B & M).
  destruct (extend_range p perm n P S) as [Nd R]. split.
  - pose proof (core_timed p modes' n _ _ S L' (fun a Ia => proj1 (R a) Ia) g sch Nd I Pg M) as [T1 T2 T3].
    constructor; auto. rewrite T1, <- S. eapply extend_perm_spec; eauto.
  - eapply core_within; eauto. intros a Ia. now apply R.
Qed.

(** The modes used are the requested ones, mode 1 replacing those that do not exist. *)
Theorem C38_modes : forall p perm modes modes' r n, p_sink p = n + 2 -> length modes = n ->
  serial_sgs p perm modes = Ok (modes', r) ->
  length modes' = n /\ forall i k, nth_error modes i = Some k ->
    exists d, dget (p_modes p) (i + 2) = Some d /\
      nth_error modes' i = Some (if dmem d k then k else 1).
Proof.
  intros p perm modes modes' r n S L H. unfold serial_sgs in H.
  apply bind_ok in H as [me [F H]]. destruct (fix_ok p modes me n F L S) as (_ & L' & Q).
  apply bind_ok in H as [g [G H]]. apply bind_ok in H as [sch0 [M H]]. apply bind_ok in H as [r' [R H]].
  injection H as <- _. auto.
Qed.

Lemma fix_total : forall p modes n, instance p -> p_sink p = n + 2 -> length modes = n ->
  exists me, fix_modes p modes = Ok me.
Proof.
  intros p modes n I S L. unfold fix_modes.
  assert (G : forall l : list (nat * nat), (forall im, In im l -> 1 <= fst im + 1 <= p_sink p) -> exists me,
    mapM (fun im : nat * nat => let* d := dgetE (p_modes p) (fst im + 1) in Ok (if dmem d (snd im) then snd im else 1)) l = Ok me).
  { induction l as [|x l IH]; intros H; cbn [mapM]; [eauto|].
    destruct (in_task _ I (fst x + 1) (H x (or_introl eq_refl))) as (d & m & D & _).
    destruct IH as [ys Y]; [intros; apply H; now right|]. unfold dgetE at 1. rewrite D. cbn [bind]. rewrite Y. cbn [bind]. eauto. }
  apply G. intros [i k] Ii. apply in_combine_l in Ii. apply in_seq in Ii. unfold extend_modes in Ii.
  cbn [length] in Ii. rewrite app_length in Ii. cbn [length fst] in *. lia.
Qed.

Lemma modes_exist : forall p modes me n, instance p -> p_sink p = n + 2 -> length modes = n -> fix_modes p modes = Ok me ->
  forall a, 1 <= a <= p_sink p -> exists m, mode_of p me a = Ok m.
Proof.
  intros p modes me n I S L F a Ha. destruct (fix_ok p modes me n F L S) as (E & L' & Q). rewrite E.
  destruct (in_task _ I a Ha) as (d & m1 & D & D1).
  assert (C : exists m, chosen p (fixed_modes me) a = Some m).
  { unfold chosen. rewrite D. destruct ((a =? 1) || (a =? p_sink p)) eqn:B; [eauto|].
    destruct (nth_error modes (a - 2)) as [k|] eqn:N; [|apply nth_error_None in N; lia].
    destruct (Q _ _ N) as (d' & D' & N'). replace (a - 2 + 2) with a in D' by lia. rewrite D in D'. injection D' as <-.
    rewrite N'. unfold dmem. destruct (dget d k) eqn:Dk; [rewrite Dk; eauto|eauto]. }
  destruct C as [m C]. exists m. apply (mode_chosen p (fixed_modes me) a n S L' Ha). exact C.
Qed.

Lemma make_total : forall p me ends, (forall a e, In (a, e) ends -> exists m, mode_of p me a = Ok m) ->
  exists sch, make_schedule p me ends = Ok sch.
Proof.
  intros p me ends. unfold make_schedule. induction ends as [|[a e] ends IH]; intros H; cbn [mapM]; [eauto|].
  destruct (H a e (or_introl eq_refl)) as [m M]. destruct IH as [sch S]; [intros; eapply H; right; eauto|].
  cbn [fst snd]. rewrite M. cbn [bind]. rewrite S. cbn [bind]. eauto.
Qed.

(** On a complete acyclic instance the scheme returns, whatever the priorities and modes. *)
Theorem C38_total : forall p perm modes n, instance p -> p_sink p = n + 2 ->
  Permutation perm (seq 0 n) -> length modes = n ->
  exists modes' sch flag, serial_sgs p perm modes = Ok (modes', (sch, flag)).
Proof.
  intros p perm modes n I S P L. pose proof (instance_wf _ I) as W.
  destruct (fix_total p modes n I S L) as [me F]. unfold serial_sgs. rewrite F. cbn [bind].
  destruct (extend_range p perm n P S) as [Nd R].
  pose proof (modes_exist p modes me n I S L F) as ME.
  set (mins := map (fun a => (a, 0)) (dkeys (p_succ p))).
  assert (K : dkeys mins = dkeys (p_succ p)).
  { unfold mins, dkeys. rewrite map_map. cbn [fst]. apply map_id. }
  pose proof (start_inv p me (extend_perm p perm) mins Nd) as I0.
  destruct (loop_total p me (extend_perm p perm) mins W K (fun a Ia => proj1 (R a) Ia)
    (fun a Ia => ME a (proj1 (R a) Ia)) (length (extend_perm p perm)) _ I0 (le_n _)) as [g G].
  rewrite G. cbn [bind]. apply (loop_inv p me (extend_perm p perm) mins (in_names _ I)) in G as [Ig _]; auto.
  destruct (make_total p me (g_ends g)) as [sch M].
  { intros a e Ia. apply ME, R, (i_all _ _ _ _ _ Ig). right. eapply In_key; eauto. }
  rewrite M. cbn [bind]. unfold finish. destruct (g_bad g); [|cbn [bind]; eauto].
  destruct (rev (dkeys (p_succ p))) eqn:Rv; [|cbn [bind]; eauto].
  exfalso. destruct (in_succ _ I 1) as [l D]; [lia|]. apply dget_In in D.
  apply (f_equal (@rev nat)) in Rv. rewrite rev_involutive in Rv. cbn in Rv.
  destruct (p_succ p); [destruct D|discriminate].
Qed.

(** The time needed to run all tasks one after the other. *)
Definition serial_length (p : rcpsp) (modes : list nat) : nat :=
  list_sum (map (fun a => match chosen p modes a with Some m => m_duration m | None => 0 end) (seq 1 (p_sink p))).

(** Enough room: the horizon covers all tasks one after the other, each task alone fits the renewable
    resources and all tasks together fit the non-renewable ones. *)
Record roomy (p : rcpsp) (modes : list nat) : Prop := {
  ro_horizon : serial_length p modes <= new_horizon p;
  ro_demand : forall a r, (0 <= demand p modes a r)%Z;
  ro_renewable : forall r t c a, ~ In r (p_nonren p) -> capacity_of p r t = Some c -> 1 <= a <= p_sink p ->
    (demand p modes a r <= c)%Z;
  ro_nonrenewable : forall r t c, In r (p_nonren p) -> capacity_of p r t = Some c ->
    (sumZ (map (fun a => demand p modes a r) (seq 1 (p_sink p))) <= c)%Z
}.

(** Then the scheme always succeeds, with every task finished within the sum of the durations. *)
Theorem C38_complete : forall p perm modes n, instance p -> p_sink p = n + 2 ->
  Permutation perm (seq 0 n) -> length modes = n ->
  (forall i k, nth_error modes i = Some k -> chosen p modes (i + 2) <> None) -> roomy p modes ->
  exists sch, serial_sgs p perm modes = Ok (modes, (sch, true)) /\
    forall a s e, In (a, (s, e)) sch -> (e <= Z.of_nat (serial_length p modes))%Z.
Proof.
  intros p perm modes n I S P L V RO. pose proof (instance_wf _ I) as W.
  destruct (fix_total p modes n I S L) as [me F]. unfold serial_sgs. rewrite F. cbn [bind].
  pose proof (modes_exist p modes me n I S L F) as ME.
  destruct (fix_ok p modes me n F L S) as (E & L' & Q).
  assert (Em : fixed_modes me = modes).
  { apply nth_error_ext. intros i. destruct (nth_error modes i) as [k|] eqn:N.
    - destruct (Q _ _ N) as (d & D & N'). rewrite N'. f_equal. specialize (V _ _ N). unfold chosen in V.
      rewrite D in V. assert (i < length modes) by (apply nth_error_Some; congruence).
      replace ((i + 2 =? 1) || (i + 2 =? p_sink p)) with false in V by lia.
      replace (i + 2 - 2) with i in V by lia. rewrite N in V. unfold dmem. destruct (dget d k); congruence.
    - apply nth_error_None. apply nth_error_None in N. lia. }
  rewrite Em in E. rewrite E in *. clear Em Q L' F.
  destruct (extend_range p perm n P S) as [Nd R].
  set (mins := map (fun a => (a, 0)) (dkeys (p_succ p))).
  assert (K : dkeys mins = dkeys (p_succ p)).
  { unfold mins, dkeys. rewrite map_map. cbn [fst]. apply map_id. }
  set (me' := 1 :: modes ++ [1]) in *.
  pose proof (start_inv p me' (extend_perm p perm) mins Nd) as I0.
  destruct (loop_total p me' (extend_perm p perm) mins W K (fun a Ia => proj1 (R a) Ia)
    (fun a Ia => ME a (proj1 (R a) Ia)) (length (extend_perm p perm)) _ I0 (le_n _)) as [g G].
  rewrite G. cbn [bind].
  assert (Dm : forall a r, 1 <= a <= p_sink p -> demand p modes a r = amt p me' a r).
  { intros. apply (demand_amt p modes n); auto. }
  assert (Du : list_sum (map (dur p me') (extend_perm p perm)) = serial_length p modes).
  { unfold serial_length. rewrite (list_sum_perm _ _ (Permutation_map (dur p me') (extend_perm_spec p perm n P S))). f_equal.
    apply map_ext_in. intros a Ia. apply in_seq in Ia. destruct (ME a) as [m M]; [lia|]. unfold dur. rewrite M.
    apply (mode_chosen p modes a n S L) in M; [|lia]. now rewrite M. }
  assert (Long : g_bad g = false /\ (forall a e, In (a, e) (g_ends g) -> e <= list_sum (map (dur p me') (extend_perm p perm)))).
  { eapply (loop_long p me' (extend_perm p perm) mins W (fun a Ia => proj1 (R a) Ia) (fun a Ia => ME a (proj1 (R a) Ia))); [ | | | | | exact I0 | reflexivity | | exact G].
    - (* demands *) intros a m r x Mm Dx. assert (Ha : 1 <= a <= p_sink p).
      { unfold mode_of in Mm. apply bind_ok in Mm as [d [Dd Mm]]. destruct a as [|i]; [discriminate|].
        apply bind_ok in Mm as [k [Lk _]]. apply lget_ok in Lk.
        assert (i < length me') by (apply nth_error_Some; congruence). unfold me' in H. cbn [length] in H.
        rewrite app_length in H. cbn [length] in H. lia. }
      pose proof (ro_demand _ _ RO a r) as Nn. rewrite (Dm a r Ha) in Nn. unfold amt, amount in Nn.
      rewrite Mm, Dx in Nn. exact Nn.
    - exact Nd.
    - rewrite Du. apply (ro_horizon _ _ RO).
    - intros a x D. unfold mins in D. apply dget_In, in_map_iff in D as [y [Ey _]]. congruence.
    - intros r t x C. apply cell_capacity_some in C. destruct (pymem r (p_nonren p)) eqn:NR.
      + apply pymem_true in NR. pose proof (ro_nonrenewable _ _ RO r t x NR C) as B.
        rewrite (sumZ_map_perm (fun a => amt p me' a r) (extend_perm_spec p perm n P S)).
        erewrite sumZ_map_ext; [exact B|]. intros a Ia. apply in_seq in Ia. cbn beta. symmetry. apply Dm. lia.
      + intros a Ia. apply R in Ia. rewrite <- Dm by auto. apply (ro_renewable _ _ RO r t); auto.
        exact (proj1 (pymem_false r (p_nonren p)) NR).
    - intros a e []. }
  apply (loop_inv p me' (extend_perm p perm) mins (in_names _ I)) in G as [Ig _]; auto.
  destruct Long as [B Le]. destruct (make_total p me' (g_ends g)) as [sch M].
  { intros a e Ia. apply ME, R, (i_all _ _ _ _ _ Ig). right. eapply In_key; eauto. }
  rewrite M. cbn [bind]. rewrite B. cbn [finish bind]. exists sch. split.
  - unfold me', fixed_modes. cbn [tl]. now rewrite removelast_last.
  - intros a s e Ia. apply make_ok in M. rewrite M in Ia. apply in_map_iff in Ia as [[a' e'] [Ee Ia]]. cbn [fst snd] in Ee.
    injection Ee as -> <- <-. specialize (Le _ _ Ia). rewrite Du in Le. lia.
Qed.

(** * C49: schedules are active *)
Definition without (a : nat) (sch : schedule) : schedule := filter (fun x => negb (fst x =? a)) sch.

(** No task of a schedule marked feasible can be moved earlier with the others fixed: at any earlier
    start allowed by its predecessors some resource would be exceeded within the horizon. *)
Theorem C49_active : forall p perm modes modes' sch n,
  sane p -> p_sink p = n + 2 -> Permutation perm (seq 0 n) -> length modes = n ->
  (forall a d k m r x, dget (p_modes p) a = Some d -> dget d k = Some m -> dget (m_need m) r = Some x -> (0 <= x)%Z) ->
  serial_sgs p perm modes = Ok (modes', (sch, true)) ->
  forall a s e m s', In (a, (s, e)) sch -> chosen p modes' a = Some m -> (0 <= s' < s)%Z ->
  (forall b l sb eb, dget (p_succ p) b = Some l -> In a l -> In (b, (sb, eb)) sch -> (eb <= s')%Z) ->
  exists r t c, (s' <= Z.of_nat t < s' + Z.of_nat (m_duration m))%Z /\ t < new_horizon p /\ capacity_of p r t = Some c /\
    (c < demand p modes' a r +
       if pymem r (p_nonren p) then consumed p modes' (without a sch) r (Z.of_nat t)
       else running p modes' (without a sch) r (Z.of_nat t))%Z.
Proof.
  intros p perm modes modes' sch n Sa S P L NN H a s e m s' Ia Cm Ls Pr.
  destruct (sgs_unfold p perm modes modes' sch n P S L (s_names _ Sa) H) as (g & L' & I & Pg & B & M).
  destruct (extend_range p perm n P S) as [Nd R].
  apply make_ok in M. set (me := 1 :: modes' ++ [1]) in *. rewrite M in Ia. apply in_map_iff in Ia as [[a' e'] [E Ia]].
  cbn [fst snd] in E. injection E as -> <- <-.
  assert (Ha : 1 <= a <= p_sink p).
  { apply R, (i_all _ _ _ _ _ I). right. eapply In_key; eauto. }
  assert (Mm : mode_of p me a = Ok m) by (apply (mode_chosen p modes' a n S L' Ha); exact Cm).
  assert (Da : dur p me a = m_duration m) by (unfold dur; now rewrite Mm). rewrite Da in Ls.
  assert (NN' : nonneg_needs p me).
  { intros x mx r y Mx Dy. unfold mode_of in Mx. apply bind_ok in Mx as [d [D Mx]]. apply dgetE_ok in D.
    destruct x; [discriminate|]. apply bind_ok in Mx as [k [_ Mx]]. apply dgetE_ok in Mx. eapply NN; eauto. }
  destruct (i_early _ _ _ _ _ I NN' a e' m (Z.to_nat s') Ia Mm) as (r & t & x & T1 & T2 & T3 & T4).
  - intros x D. apply dget_In, in_map_iff in D as [y [Ey _]]. injection Ey as _ <-. lia.
  - intros b l eb D Il Ib. specialize (Pr b l (Z.of_nat eb - Z.of_nat (dur p me b))%Z (Z.of_nat eb) D Il).
    rewrite M in Pr. enough (Z.of_nat eb <= s')%Z by lia. apply Pr. apply in_map_iff. exists (b, eb). auto.
  - lia.
  - exists r, t, x. split; [lia|]. split; auto. split; [now apply cell_capacity_some|].
    rewrite (demand_amt p modes' n S L' a r Ha). fold me. unfold amt. rewrite Mm.
    assert (Ew : without a sch = timed_of p modes' (others a (g_ends g))).
    { rewrite M. unfold without, others, timed_of. clear. induction (g_ends g) as [|[b eb] l IH]; cbn [map filter fst]; auto.
      destruct (b =? a); cbn [negb map]; [exact IH|]. f_equal. exact IH. }
    assert (IN : incl (others a (g_ends g)) (g_ends g)) by apply incl_filter.
    rewrite Ew. destruct (pymem r (p_nonren p)) eqn:NR.
    + apply pymem_true in NR. rewrite (core_consumed p modes' n (extend_perm p perm) _ S L' (fun a Ia => proj1 (R a) Ia) g _ r t I IN NR T2).
      fold me. lia.
    + assert (NR' : ~ In r (p_nonren p)) by exact (proj1 (pymem_false r (p_nonren p)) NR).
      rewrite (core_running p modes' n (extend_perm p perm) _ S L' (fun a Ia => proj1 (R a) Ia) g _ r t I IN NR'). fold me. lia.
Qed.

(** * C50: rescheduling from a given time *)
Definition recorded (completed : list (nat * (nat * nat))) : schedule :=
  map (fun kv => (fst kv, (Z.of_nat (fst (snd kv)), Z.of_nat (snd (snd kv))))) completed.

Lemma fold_dset : forall (completed : list (nat * (nat * nat))) (sch : schedule),
  NoDup (map fst completed) -> (forall a, In a (map fst completed) -> ~ In a (map fst sch)) ->
  fold_left (fun s (kv : nat * (nat * nat)) =>
    dset s (fst kv) (Z.of_nat (fst (snd kv)), Z.of_nat (snd (snd kv)))) completed sch = sch ++ recorded completed.
Proof.
  induction completed as [|[a [s e]] c IH]; intros sch N D; cbn [fold_left recorded map fst snd].
  - now rewrite app_nil_r.
  - inversion N; subst. rewrite dset_absent by (apply D; now left). rewrite IH; auto.
    + rewrite <- app_assoc. reflexivity.
    + intros b Ib. rewrite map_app, in_app_iff. cbn [map fst In]. intros [K|[K|[]]].
      * apply (D b); [now right|auto].
      * cbn [fst] in *. congruence.
Qed.

Lemma dget_map_min : forall now started ks a x,
  dget (map (sgs2_min now started) ks) a = Some x -> x = match dget started a with Some s => s | None => now end.
Proof.
  induction ks as [|k ks IH]; intros a x H; cbn [map] in H; [discriminate|]. unfold sgs2_min at 1 in H.
  cbn [dget] in H. destruct (pyeqb_spec a k); [|eauto]. subst. congruence.
Qed.

(** The tasks left to run, the tasks already completed; what is known about the past. *)
Record past (p : rcpsp) (now : nat) (completed : list (nat * (nat * nat))) (started : list (nat * nat)) : Prop := {
  pa_dict : NoDup (map fst completed);
  pa_ended : forall a s e, In (a, (s, e)) completed -> e <= now;
  pa_order : forall a b l sa ea sb eb, dget (p_succ p) a = Some l -> In b l ->
    In (a, (sa, ea)) completed -> In (b, (sb, eb)) completed -> ea <= sb;
  pa_closed : forall a b l sb eb, dget (p_succ p) a = Some l -> In b l -> In (b, (sb, eb)) completed ->
    In a (map fst completed);
  pa_started : forall a b l sa ea s, dget (p_succ p) a = Some l -> In b l -> In (a, (sa, ea)) completed ->
    dget started b = Some s -> ea <= s
}.

(** A rescheduled plan marked feasible keeps the completed tasks, schedules each other task once for
    the length of its mode within the resources, not before the current time (or, for a task already
    started, its start), and respects every precedence. *)
Theorem C50_feasible : forall p perm modes now completed started modes' sch n,
  sane p -> p_sink p = n + 2 -> Permutation perm (seq 0 n) -> length modes = n ->
  (forall a, 1 <= a <= p_sink p -> In a (dkeys (p_succ p))) -> past p now completed started ->
  serial_sgs_2 p perm modes now completed started = Ok (modes', (sch, true)) ->
  exists rest, sch = rest ++ recorded completed /\
    timed p modes' (filter (fun a => negb (dmem completed a)) (seq 1 (n + 2))) rest /\ within p modes' rest /\
    (forall a s e, In (a, (s, e)) rest -> match dget started a with Some s0 => (Z.of_nat s0 <= s)%Z | None => (Z.of_nat now <= s)%Z end) /\
    (forall a b l sa ea sb eb, dget (p_succ p) a = Some l -> In b l ->
       In (a, (sa, ea)) sch -> In (b, (sb, eb)) sch -> (ea <= sb)%Z).
Proof.
  intros p perm modes now completed started modes' sch n Sa S P L Ks Pa H. unfold serial_sgs_2 in H.
  apply bind_ok in H as [me [F H]]. destruct (fix_ok p modes me n F L S) as (E & L' & _).
  apply bind_ok in H as [g [G H]]. apply bind_ok in H as [sch0 [M H]]. apply bind_ok in H as [r [R H]].
  injection H as <- ->. apply finish_true in R as [B Esch].
  destruct (extend_range p perm n P S) as [Nd Rg].
  rewrite E in G, M. set (ms := fixed_modes me) in *. clearbody ms.
  set (pe := filter (fun x => negb (dmem completed x)) (extend_perm p perm)) in *.
  set (mins := map (sgs2_min now started) (dkeys (p_succ p))) in *.
  assert (Nde : NoDup pe) by (apply NoDup_filter; auto).
  assert (Rge : forall a, In a pe -> 1 <= a <= p_sink p) by (intros a Ia; apply filter_In in Ia as [Ia _]; now apply Rg).
  apply (loop_inv p (1 :: ms ++ [1]) pe mins (s_names _ Sa)) in G as [I Pg]; [|apply start_inv; auto].
  specialize (Pg B).
  pose proof (core_timed p ms n pe mins S L' Rge g sch0 Nde I Pg M) as T.
  assert (Abs : forall a, In a (map fst completed) -> ~ In a (map fst sch0)).
  { intros a Ia Ib. apply (Permutation_in _ (t_tasks _ _ _ _ T)) in Ib. apply filter_In in Ib as [_ Ib].
    apply negb_true_iff in Ib. apply dmem_false in Ib. contradiction. }
  rewrite (fold_dset completed sch0 (pa_dict _ _ _ _ Pa) Abs) in Esch.
  assert (Lb : forall a s e, In (a, (s, e)) sch0 -> match dget started a with Some s0 => (Z.of_nat s0 <= s)%Z | None => (Z.of_nat now <= s)%Z end).
  { intros a s e Ia. pose proof M as M'. apply make_ok in M'. rewrite M' in Ia. apply in_map_iff in Ia as [[a' e'] [Ee Ia]].
    cbn [fst snd] in Ee. injection Ee as -> <- <-.
    destruct (i_placed _ _ _ _ _ I a e' Ia) as (m & Mm & De & Lo & _). unfold dur. rewrite Mm.
    assert (Ha : In a pe) by (apply (i_all _ _ _ _ _ I); right; eapply In_key; eauto).
    assert (Km : In a (dkeys mins)).
    { unfold mins, dkeys. rewrite map_map. cbn [sgs2_min fst]. rewrite map_id. now apply Ks, Rge. }
    destruct (dget mins a) as [x|] eqn:Dx; [|apply dget_None in Dx; contradiction].
    pose proof (dget_map_min _ _ _ _ _ Dx) as Ex. specialize (Lo x eq_refl).
    destruct (dget started a); lia. }
  exists sch0. split; [exact Esch|]. split; [|split; [|split; [exact Lb|]]].
  - destruct T as [T1 T2 T3]. constructor; auto. rewrite T1, <- S. unfold pe.
    assert (PF : forall (f : nat -> bool) l1 l2, Permutation l1 l2 -> Permutation (filter f l1) (filter f l2)).
    { clear. intros f l1 l2 P. induction P; cbn.
      - constructor.
      - destruct (f x); auto.
      - destruct (f x), (f y); auto. apply perm_swap.
      - etransitivity; eauto. }
    apply PF. eapply extend_perm_spec; eauto.
  - eapply core_within; eauto.
  - intros a b l sa ea sb eb D Ib Ia Jb. rewrite Esch in Ia, Jb. apply in_app_or in Ia, Jb.
    assert (Rec : forall a s e, In (a, (s, e)) (recorded completed) -> exists s' e', In (a, (s', e')) completed /\ s = Z.of_nat s' /\ e = Z.of_nat e').
    { intros x s e Ix. apply in_map_iff in Ix as [[x' [s' e']] [Ex Ix]]. cbn [fst snd] in Ex. injection Ex as -> <- <-. eauto. }
    destruct Ia as [Ia|Ia], Jb as [Jb|Jb].
    + eapply (t_precedence _ _ _ _ T); eauto.
    + exfalso. apply Rec in Jb as (s' & e' & Jb & _). apply (Abs a).
      * eapply pa_closed; eauto.
      * apply in_map_iff. exists (a, (sa, ea)). auto.
    + apply Rec in Ia as (s' & e' & Ia & -> & ->). specialize (Lb _ _ _ Jb). destruct (dget started b) eqn:Sb.
      * pose proof (pa_started _ _ _ _ Pa a b l s' e' n0 D Ib Ia Sb). lia.
      * pose proof (pa_ended _ _ _ _ Pa a s' e' Ia). lia.
    + apply Rec in Ia as (s' & e' & Ia & -> & ->). apply Rec in Jb as (s2 & e2 & Jb & -> & ->).
      pose proof (pa_order _ _ _ _ Pa a b l _ _ _ _ D Ib Ia Jb). lia.
Qed.

(** Rescheduling always returns on a complete instance. *)
Theorem C50_total : forall p perm modes now completed started n, instance p -> p_sink p = n + 2 ->
  Permutation perm (seq 0 n) -> length modes = n ->
  exists modes' sch flag, serial_sgs_2 p perm modes now completed started = Ok (modes', (sch, flag)).
Proof.
  intros p perm modes now completed started n I S P L. pose proof (instance_wf _ I) as W.
  destruct (fix_total p modes n I S L) as [me F]. unfold serial_sgs_2. rewrite F. cbn [bind].
  destruct (extend_range p perm n P S) as [Nd R].
  pose proof (modes_exist p modes me n I S L F) as ME.
  set (pe := filter (fun x => negb (dmem completed x)) (extend_perm p perm)).
  set (mins := map (sgs2_min now started) (dkeys (p_succ p))).
  assert (Nde : NoDup pe) by (apply NoDup_filter; auto).
  assert (Rge : forall a, In a pe -> 1 <= a <= p_sink p) by (intros a Ia; apply filter_In in Ia as [Ia _]; now apply R).
  assert (K : dkeys mins = dkeys (p_succ p)).
  { unfold mins, dkeys. rewrite map_map. cbn [sgs2_min fst]. apply map_id. }
  pose proof (start_inv p me pe mins Nde) as I0.
  destruct (loop_total p me pe mins W K Rge (fun a Ia => ME a (Rge a Ia)) (length pe) _ I0 (le_n _)) as [g G].
  rewrite G. cbn [bind]. apply (loop_inv p me pe mins (in_names _ I)) in G as [Ig _]; auto.
  destruct (make_total p me (g_ends g)) as [sch M].
  { intros a e Ia. apply ME, Rge, (i_all _ _ _ _ _ Ig). right. eapply In_key; eauto. }
  rewrite M. cbn [bind]. unfold finish. destruct (g_bad g); [|cbn [bind]; eauto].
  destruct (rev (dkeys (p_succ p))) eqn:Rv; [|cbn [bind]; eauto].
  exfalso. destruct (in_succ _ I 1) as [l D]; [lia|]. apply dget_In in D.
  apply (f_equal (@rev nat)) in Rv. rewrite rev_involutive in Rv. cbn in Rv.
  destruct (p_succ p); [destruct D|discriminate].
Qed.

(** * Concrete cases *)
Local Open Scope string_scope.
Definition ex_task (d : nat) (r n : Z) : mode := Mode d [("R", r); ("N", n)].
(** Three tasks between source and sink; task 3 has a second mode; 2 precedes 4. *)
Definition ex_p : rcpsp := Rcpsp (Constant [("R", 2%Z); ("N", 3%Z)]) ["N"]
  [(1, [(1, ex_task 0 0 0)]); (2, [(1, ex_task 2 2 1)]); (3, [(1, ex_task 1 1 2); (2, ex_task 3 1 1)]);
   (4, [(1, ex_task 2 1 1)]); (5, [(1, ex_task 0 0 0)])]
  [(1, [2; 3; 4]); (2, [4; 5]); (3, [5]); (4, [5]); (5, [])] 10 1.

Lemma ex_sane : sane ex_p.
Proof.
  constructor.
  - repeat constructor; cbn; intuition congruence.
  - intros r t c H. unfold capacity_of, ex_p, p_res in H. cbn in H.
    destruct (String.eqb r "R"); [injection H as <-; lia|]. destruct (String.eqb r "N"); [injection H as <-; lia|discriminate].
Qed.

Ltac five a H := destruct a as [|[|[|[|[|[|a]]]]]]; [exfalso; lia| | | | | |exfalso; cbn in H; lia].

Lemma ex_instance : instance ex_p.
Proof.
  constructor.
  - apply ex_sane.
  - exact I.
  - intros a Ha. five a Ha; eexists; eexists; split; reflexivity.
  - intros a d k m r D K Ir. cbn in D. cbn in Ir.
    repeat (destruct a as [|a]; cbn in D; try discriminate); injection D as <-;
    repeat (destruct k as [|k]; cbn in K; try discriminate); injection K as <-;
    destruct Ir as [<-|[<-|[]]]; cbn; eauto.
  - intros a Ha. five a Ha; cbn; eauto.
  - intros a l b D Ib. cbn in D. cbn [ex_p p_succ dkeys map fst].
    repeat (destruct a as [|a]; cbn in D; try discriminate); injection D as <-; cbn in Ib |- *; intuition lia.
  - exists (fun a => a). intros a l b D Ib. cbn in D.
    repeat (destruct a as [|a]; cbn in D; try discriminate); injection D as <-; cbn in Ib; intuition lia.
  - cbn. repeat constructor; cbn; intuition congruence.
Qed.

(** Priorities 4, 3, 2 with task 3 in its second mode. *)
Definition ex_sch : schedule := [(1, (0, 0)%Z); (3, (0, 3)%Z); (2, (3, 5)%Z); (4, (5, 7)%Z); (5, (7, 7)%Z)].
Example C38_ex : serial_sgs ex_p [2; 1; 0] [1; 2; 1] = Ok ([1; 2; 1], (ex_sch, true)) /\
  timed ex_p [1; 2; 1] (seq 1 5) ex_sch /\ within ex_p [1; 2; 1] ex_sch /\
  running ex_p [1; 2; 1] ex_sch "R" 3 = 2%Z /\ consumed_all ex_p [1; 2; 1] ex_sch "N" = 3%Z.
Proof.
  assert (H : serial_sgs ex_p [2; 1; 0] [1; 2; 1] = Ok ([1; 2; 1], (ex_sch, true))) by (vm_compute; reflexivity).
  split; [exact H|].
  destruct (C38_feasible ex_p [2; 1; 0] [1; 2; 1] [1; 2; 1] ex_sch 3 ex_sane eq_refl) as [T Wi]; auto.
  - cbn. etransitivity; [apply perm_swap|]. etransitivity; [apply perm_skip, perm_swap|]. apply perm_swap.
Qed.

(** The room conditions of [C38_complete] hold for all modes at 1 once the capacity of "N" is 4. *)
Definition ex_p4 : rcpsp := Rcpsp (Constant [("R", 2%Z); ("N", 4%Z)]) ["N"] (p_modes ex_p) (p_succ ex_p) 5 1.
Example C38_complete_ex : roomy ex_p4 [1; 1; 1] /\ serial_length ex_p4 [1; 1; 1] = 5 /\
  serial_sgs ex_p4 [2; 1; 0] [1; 1; 1] = Ok ([1; 1; 1], ([(1, (0, 0)%Z); (3, (0, 1)%Z); (2, (1, 3)%Z); (4, (3, 5)%Z); (5, (5, 5)%Z)], true)).
Proof.
  split; [|split; vm_compute; reflexivity].
  set (ms := [1; 1; 1]).
  assert (Dm : forall a r, (0 <= demand ex_p4 ms a r)%Z /\ (r = "R" -> (demand ex_p4 ms a r <= 2)%Z)).
  { intros a r. unfold demand. destruct (chosen ex_p4 ms a) as [m|] eqn:C; [|split; [lia|intros; lia]].
    unfold chosen, ms in C.
    assert (In m [ex_task 0 0 0; ex_task 2 2 1; ex_task 1 1 2; ex_task 2 1 1]).
    { repeat (destruct a as [|a]; cbn in C; try discriminate); injection C as <-; cbn; tauto. }
    cbn in H. destruct H as [<-|[<-|[<-|[<-|[]]]]]; cbn;
      (split; [destruct (String.eqb r "R"); [lia|]; destruct (String.eqb r "N"); lia|intros ->; cbn; lia]). }
  constructor.
  - vm_compute. auto 10.
  - intros. apply Dm.
  - intros r t c a NR C Ha. unfold capacity_of in C. cbn in C. destruct (String.eqb_spec r "R").
    + injection C as <-. now apply Dm.
    + destruct (String.eqb_spec r "N"); [|discriminate]. subst. cbn in NR. tauto.
  - intros r t c [<-|[]] C. cbn in C. injection C as <-. vm_compute. congruence.
Qed.

(** Task 2 cannot start before 3: task 3 occupies one of the two units. *)
Example C49_ex : exists r t c, (2 <= Z.of_nat t < 2 + 2)%Z /\ t < 10 /\ capacity_of ex_p r t = Some c /\
  (c < demand ex_p [1; 2; 1]%nat 2 r + (if pymem r (p_nonren ex_p) then consumed ex_p [1; 2; 1]%nat (without 2 ex_sch) r (Z.of_nat t)
     else running ex_p [1; 2; 1]%nat (without 2 ex_sch) r (Z.of_nat t)))%Z.
Proof. exists "R", 2, 2%Z. split; [cbn; lia|]. split; [lia|]. split; [reflexivity|vm_compute; reflexivity]. Qed.

(** At time 2, task 3 completed and task 2 started at 1. *)
Example C50_ex : past ex_p4 2 [(1, (0, 0)); (3, (0, 1))] [(2, 1)] /\
  serial_sgs_2 ex_p4 [2; 1; 0] [1; 1; 1] 2 [(1, (0, 0)); (3, (0, 1))] [(2, 1)] =
    Ok ([1; 1; 1], ([(2, (1, 3)%Z); (4, (3, 5)%Z); (5, (5, 5)%Z); (1, (0, 0)%Z); (3, (0, 1)%Z)], true)).
Proof.
  split; [|vm_compute; reflexivity]. constructor.
  - repeat constructor; cbn; intuition congruence.
  - intros a s e [E|[E|[]]]; injection E as <- <- <-; lia.
  - intros a b l sa ea sb eb D Ib [E|[E|[]]]; injection E as <- <- <-; cbn in D; injection D as <-;
      intros [E|[E|[]]]; injection E as <- <- <-; cbn in Ib; intuition lia.
  - intros a b l sb eb D Ib [E|[E|[]]]; injection E as <- <- <-;
      repeat (destruct a as [|a]; cbn in D; try discriminate); injection D as <-; cbn in Ib |- *; intuition lia.
  - intros a b l sa ea s D Ib [E|[E|[]]]; injection E as <- <- <-; cbn in D; injection D as <-; intros G;
      cbn in G; destruct (Nat.eqb_spec b 2); try discriminate; injection G as <-; cbn in Ib; intuition lia.
Qed.

(** * Findings *)
(** A schedule is marked feasible although the tasks together need more of a non-renewable resource
    than there is: what a task of length zero consumes is never counted. *)
Theorem C38_zero_duration_refuted : exists p perm modes sch r c,
  instance p /\ sane p /\ In r (p_nonren p) /\ capacity_of p r 0 = Some c /\
  serial_sgs p perm modes = Ok (modes, (sch, true)) /\
  (c < sumZ (map (fun a => demand p modes a r) (seq 1 (p_sink p))))%Z /\
  satisfy p modes sch (Some true) = Ok false.
Proof.
  exists (Rcpsp (Constant [("R", 2%Z); ("N", 3%Z)]) ["N"]
    [(1, [(1, ex_task 0 0 0)]); (2, [(1, ex_task 2 2 1)]); (3, [(1, ex_task 0 1 2); (2, ex_task 3 1 1)]);
     (4, [(1, ex_task 2 1 1)]); (5, [(1, ex_task 0 0 0)])] (p_succ ex_p) 10 1), [0; 1; 2], [1; 1; 1].
  eexists. exists "N", 3%Z.
  split; [|split].
  - constructor.
    + apply ex_sane.
    + exact I.
    + intros a Ha. five a Ha; eexists; eexists; split; reflexivity.
    + intros a d k m r D K Ir. cbn in D. cbn in Ir.
      repeat (destruct a as [|a]; cbn in D; try discriminate); injection D as <-;
      repeat (destruct k as [|k]; cbn in K; try discriminate); injection K as <-;
      destruct Ir as [<-|[<-|[]]]; cbn; eauto.
    + exact (in_succ _ ex_instance).
    + exact (in_closed _ ex_instance).
    + exact (in_acyclic _ ex_instance).
    + exact (in_dict _ ex_instance).
  - constructor; [apply ex_sane|exact (s_caps _ ex_sane)].
  - cbn [p_nonren In]. split; [auto|]. split; [reflexivity|]. split; [vm_compute; reflexivity|].
    split; vm_compute; reflexivity.
Qed.

(** A schedule marked infeasible may contain a task that ends before it starts. *)
Theorem C38_infeasible_refuted : exists p perm modes modes' sch a s e, instance p /\
  serial_sgs p perm modes = Ok (modes', (sch, false)) /\ In (a, (s, e)) sch /\ (e < s)%Z.
Proof.
  exists (Rcpsp (p_res ex_p) (p_nonren ex_p) (p_modes ex_p) (p_succ ex_p) 4 1), [0; 1; 2], [1; 1; 1].
  eexists. eexists. exists 5, 99999999%Z, 9999999%Z. split; [|split; [vm_compute; reflexivity|split; [cbn; tauto|lia]]].
  destruct ex_instance. constructor; auto.
Qed.

(** Rescheduling may delay a task that has already started: task 3, started at time 0, is put after
    task 2 which has a higher priority and starts now. *)
Theorem C50_started_moved_refuted : exists p perm modes sch now started a s0 s e, instance p /\ sane p /\
  past p now [(1, (0, 0))] started /\ dget started a = Some s0 /\ s0 < now /\
  serial_sgs_2 p perm modes now [(1, (0, 0))] started = Ok (modes, (sch, true)) /\
  In (a, (s, e)) sch /\ (Z.of_nat now < s)%Z.
Proof.
  exists ex_p, [0; 1; 2], [1; 2; 1]. eexists. exists 1, [(3, 0)], 3, 0, 3%Z, 6%Z.
  split; [exact ex_instance|]. split; [exact ex_sane|]. split; [|split; [reflexivity|split; [lia|split; [vm_compute; reflexivity|split; [cbn; tauto|lia]]]]].
  constructor.
  - repeat constructor; cbn; intuition congruence.
  - intros a s e [E|[]]; injection E as <- <- <-; lia.
  - intros a b l sa ea sb eb D Ib [E|[]]; injection E as <- <- <-; intros [E|[]]; injection E as <- <- <-.
    cbn in D. injection D as <-. cbn in Ib. intuition lia.
  - intros a b l sb eb D Ib [E|[]]; injection E as <- <- <-.
    repeat (destruct a as [|a]; cbn in D; try discriminate); injection D as <-; cbn in Ib |- *; intuition lia.
  - intros a b l sa ea s D Ib [E|[]]; injection E as <- <- <-. lia.
Qed.

(** Rescheduling forgets what the completed tasks consumed of a non-renewable resource. *)
Theorem C50_non_renewable_refuted : exists p perm modes sch now completed r c, instance p /\ sane p /\
  past p now completed [] /\ serial_sgs_2 p perm modes now completed [] = Ok (modes, (sch, true)) /\
  In r (p_nonren p) /\ capacity_of p r 0 = Some c /\ (c < consumed_all p modes sch r)%Z.
Proof.
  exists ex_p, [0; 1; 2], [1; 1; 1]. eexists. exists 1, [(1, (0, 0)); (3, (0, 1))], "N", 3%Z.
  split; [exact ex_instance|]. split; [exact ex_sane|].
  split; [|split; [vm_compute; reflexivity|split; [cbn; tauto|split; [reflexivity|vm_compute; reflexivity]]]].
  constructor.
  - repeat constructor; cbn; intuition congruence.
  - intros a s e [E|[E|[]]]; injection E as <- <- <-; lia.
  - intros a b l sa ea sb eb D Ib [E|[E|[]]]; injection E as <- <- <-; cbn in D; injection D as <-;
      intros [E|[E|[]]]; injection E as <- <- <-; cbn in Ib; intuition lia.
  - intros a b l sb eb D Ib [E|[E|[]]]; injection E as <- <- <-;
      repeat (destruct a as [|a]; cbn in D; try discriminate); injection D as <-; cbn in Ib |- *; intuition lia.
  - intros a b l sa ea s D Ib Ia G. discriminate.
Qed.

Print Assumptions C38_feasible.
Print Assumptions C38_modes.
Print Assumptions C38_total.
Print Assumptions C38_complete.
Print Assumptions C49_active.
Print Assumptions C50_feasible.
Print Assumptions C50_total.
Print Assumptions C38_zero_duration_refuted.
Print Assumptions C38_infeasible_refuted.
Print Assumptions C50_started_moved_refuted.
Print Assumptions C50_non_renewable_refuted.
