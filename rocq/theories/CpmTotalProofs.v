(** Proofs about the generation schemes of cpm.py: a schedule is produced. *)
From Coq Require Import String.
From Coq Require Import List Bool Arith ZArith Lia Permutation.
From Verif Require Import Py PyList PyMore SgsModel CpmModel CpmSpec CpmProofs CpmSgsProofs.
Import ListNotations.

Lemma list_sum_incl : forall (f : nat -> nat) l l', NoDup l -> incl l l' ->
  list_sum (map f l) <= list_sum (map f l').
Proof.
  intros f. induction l as [|x l IH]; intros l' ND IN; [cbn; lia|]. apply NoDup_cons_iff in ND. destruct ND as [NI ND].
  destruct (in_split x l') as [l1 [l2 ->]]; [apply IN; now left|].
  specialize (IH (l1 ++ l2) ND). rewrite map_app, list_sum_app in *. unfold list_sum in *. cbn [map fold_right].
  enough (incl l (l1 ++ l2)) by (specialize (IH H); lia). intros y Y.
  assert (Z : In y (l1 ++ x :: l2)) by (apply IN; now right). apply in_app_or in Z. apply in_or_app.
  destruct Z as [Z|[Z|Z]]; auto. subst y. contradiction.
Qed.

Lemma row_ok_total : forall h row n ts, (forall t, In t ts -> t < length row /\ t < h) ->
  exists b, row_ok h row (Ok n) ts = Ok b.
Proof.
  intros h row n. induction ts as [|t ts IH]; intros H; [eexists; reflexivity|]. cbn [row_ok].
  destruct (H t (or_introl eq_refl)) as [A B]. unfold lget. destruct (nth_error row t) as [x|] eqn:X.
  - cbn [bind]. apply Nat.ltb_lt in B. rewrite B. destruct (x <? n)%Z; [eauto|]. apply IH. intros; apply H; now right.
  - apply nth_error_None in X. lia.
Qed.

Lemma row_ok_fits : forall h row n ts, (forall t, In t ts -> exists x, nth_error row t = Some x /\ (n <= x)%Z) ->
  row_ok h row (Ok n) ts = Ok true.
Proof.
  intros h row n. induction ts as [|t ts IH]; intros H; [reflexivity|]. cbn [row_ok].
  destruct (H t (or_introl eq_refl)) as [x [A B]]. unfold lget. rewrite A. cbn [bind].
  apply Z.ltb_ge in B. rewrite B. apply IH. intros; apply H; now right.
Qed.

Lemma mapM_exists : forall A B (f : A -> res B) l, (forall x, In x l -> exists y, f x = Ok y) -> exists l', mapM f l = Ok l'.
Proof.
  intros A B f. induction l as [|x l IH]; intros H; [eexists; reflexivity|]. cbn [mapM].
  destruct (H x (or_introl eq_refl)) as [y Y]. rewrite Y. cbn [bind].
  destruct IH as [l' L]; [intros; apply H; now right|]. rewrite L. eexists. reflexivity.
Qed.
Lemma allM_total : forall A (f : A -> res bool) l, (forall x, In x l -> exists b, f x = Ok b) -> exists b, allM f l = Ok b.
Proof.
  intros A f. induction l as [|x l IH]; intros H; [eexists; reflexivity|]. cbn [allM].
  destruct (H x (or_introl eq_refl)) as [b B]. rewrite B. cbn [bind]. destruct b; [|eauto]. apply IH. intros; apply H; now right.
Qed.
Lemma allM_all : forall A (f : A -> res bool) l, (forall x, In x l -> f x = Ok true) -> allM f l = Ok true.
Proof.
  intros A f. induction l as [|x l IH]; intros H; [reflexivity|]. cbn [allM].
  rewrite (H x (or_introl eq_refl)). cbn [bind]. apply IH. intros; apply H; now right.
Qed.

Lemma first_fit_total : forall p av m n a t0, a <= t0 < a + n ->
  (forall t, a <= t <= t0 -> exists b, fits_at p av m t = Ok b) -> fits_at p av m t0 = Ok true ->
  exists t, first_fit p av m (seq a n) = Ok (Some t) /\ a <= t <= t0.
Proof.
  intros p av m. induction n as [|n IH]; intros a t0 T H F; [lia|]. cbn [seq first_fit].
  destruct (H a) as [b B]; [lia|]. rewrite B. cbn [bind]. destruct b.
  - exists a. split; auto. lia.
  - assert (a <> t0) by (intros ->; congruence). destruct (IH (S a) t0) as [t [X Y]]; auto.
    + lia.
    + intros; apply H; lia.
    + exists t. split; auto. lia.
Qed.

Section Total.
Context (p : rcpsp) (g : nxg) (P : project p) (N : networkx p g) (caps : list (string * Z)).
Hypothesis CAPS : p_res p = Constant caps.
Hypothesis ALONE : forall a, task p a -> exists m, mode_one p a = Some m /\
      forall r c, In (r, c) caps -> exists n, dget (m_need m) r = Some n /\ (n <= c)%Z.
Hypothesis ROOM : one_by_one p < p_horizon p.
Context (mins0 : list (nat * nat)).
Hypothesis MINS : forall a, task p a -> dget mins0 a = Some (Z.to_nat (E p g a)).

Definition spent (v : sgs_vars) : nat := list_sum (map (length_one p) (v_done v)).
Record good (v : sgs_vars) : Prop := {
  g_inv : inv p v;
  g_early : early mins0 v;
  g_keys : dkeys (v_min v) = n_nodes g;
  g_lost : v_lost v = [];
  g_end : forall a s e, In (a, (s, e)) (v_sched v) -> e <= spent v }.

Lemma spent_room : forall v j, good v -> task p j -> ~ In j (v_done v) -> spent v + length_one p j <= one_by_one p.
Proof.
  intros v j G T NI. unfold one_by_one, spent.
  assert (A : list_sum (map (length_one p) (j :: v_done v)) <= list_sum (map (length_one p) (seq 1 (length (p_modes p))))).
  { apply list_sum_incl.
    - constructor; auto. apply (i_nd _ _ (g_inv _ G)).
    - intros x [<-|X]; [|apply (i_task _ _ (g_inv _ G)) in X; rename X into Y]; apply in_seq; unfold task in *; lia. }
  unfold list_sum in *. cbn [map fold_right] in A. lia.
Qed.

Lemma row_is : forall v r row, inv p v -> In (r, row) (v_avail v) ->
  exists c, In (r, c) caps /\ length row = p_horizon p /\
    forall t, t < p_horizon p -> nth_error row t = Some (c - load p (v_sched v) r t)%Z.
Proof.
  intros v r row G I. pose proof (i_rows _ _ G) as F. unfold cpm_avail in F. rewrite CAPS in F.
  assert (X : exists kv0, In kv0 (map (fun kv => (fst kv, repeat (snd kv) (p_horizon p))) caps) /\
    r = fst kv0 /\ length row = length (snd kv0) /\ forall t x0, nth_error (snd kv0) t = Some x0 ->
      nth_error row t = Some (x0 - load p (v_sched v) (fst kv0) t)%Z).
  { clear -F I. induction F as [|x y l l' [H1 [H2 H3]] _ IH]; [destruct I|]. destruct I as [->|I].
    - exists x. cbn [fst snd] in *. repeat split; auto. now left. intros t x0 Y. now apply H3.
    - destruct (IH I) as [kv0 [A B]]. exists kv0. split; auto. now right. }
  destruct X as [kv0 [X1 [-> [X2 X3]]]]. apply in_map_iff in X1. destruct X1 as [[r c] [<- X1]]. cbn [fst snd] in *.
  exists c. split; auto. rewrite repeat_length in X2. split; auto. intros t T. apply X3. now apply nth_error_repeat.
Qed.

Lemma load_after : forall v r B t, (forall a s e, In (a, (s, e)) (v_sched v) -> e <= B) -> B <= t ->
  load p (v_sched v) r t = 0%Z.
Proof using.
  clear ROOM ALONE CAPS MINS P N.
  intros v r B t H T. unfold load. revert H. generalize (v_sched v).
  induction l as [|[a [s e]] l IH]; intros H; [reflexivity|]. cbn [map]. unfold sumZ in *. cbn [fold_right].
  rewrite IH by (intros; eapply H; right; eauto). specialize (H a s e (or_introl eq_refl)).
  assert (t <? e = false) by (apply Nat.ltb_ge; lia). rewrite H0, andb_false_r. reflexivity.
Qed.

Lemma early_bound : forall v j B, inv p v -> early mins0 v -> dkeys (v_min v) = n_nodes g ->
  (forall a s e, In (a, (s, e)) (v_sched v) -> e <= B) -> task p j -> cpm_ready g (v_done v) j = true ->
  exists x, dget (v_min v) j = Some x /\ x <= B.
Proof using P N MINS.
  clear ROOM ALONE CAPS.
  intros v j B G EA KE EN T R.
  destruct (proj1 (dget_keys _ _ (v_min v) j)) as [x X].
  { rewrite KE. now apply (node_task p g P N). }
  exists x. split; auto. destruct EA as [E1 E2]. destruct (E1 j x X) as [y [Y1 [Y2 Y3]]].
  destruct Y3 as [->|[a [s Y3]]]; [|apply EN in Y3; lia].
  rewrite MINS in Y1 by auto. injection Y1 as <-.
  destruct (n_pred g j) as [|b l] eqn:PR.
  - rewrite E_eq by auto. rewrite PR. cbn. lia.
  - destruct (E_attained p g P N j) as [a [Ed Q]]; [congruence|]. rewrite Q.
    destruct (scheduled_pred p g N v j G R a Ed) as [s [e [Z1 _]]].
    destruct (E2 a s e Z1) as [w [W1 W2]]. assert (Ta : task p a) by (apply (pr_edges _ P) in Ed; tauto).
    rewrite MINS in W1 by auto. injection W1 as <-. pose proof (EN _ _ _ Z1).
    destruct (i_length _ _ G _ _ _ Z1) as [m [M1 ->]].
    destruct (dur_ok p g P N a Ta) as [_ [_ D]]. assert (HM : has_mode p a m).
    { unfold mode_one in M1. destruct (dget (p_modes p) a) as [d|] eqn:Q2; [|discriminate]. exists d, 1. split; auto.
      eapply dget_In; eauto. }
    specialize (D m HM). pose proof (E_nonneg p g P N a). lia.
Qed.

Lemma place_total : forall v j m t, inv p v -> dkeys (v_min v) = n_nodes g -> task p j -> mode_one p j = Some m ->
  t + m_duration m <= p_horizon p -> exists v', place p g j m t v = Ok v' /\ v_lost v' = v_lost v /\ v_done v' = pyadd (v_done v) j.
Proof using P N CAPS ALONE.
  clear ROOM MINS.
  intros v j m t G KE T MO H. unfold place.
  assert (A : exists av, take_all p m t (v_avail v) = Ok av).
  { unfold take_all. apply mapM_exists. intros [r row] I. destruct (row_is v r row G I) as [c [C1 [C2 _]]]. cbn [fst snd].
    destruct (seq t (m_duration m)) as [|t0 ts] eqn:S; [eexists; reflexivity|]. rewrite <- S.
    destruct (ALONE j T) as [m' [M1 M2]]. rewrite MO in M1. injection M1 as <-. destruct (M2 r c C1) as [n [M3 _]].
    unfold dgetE. rewrite M3. cbn [bind].
    assert (R : forall l row, (forall x, In x l -> x < p_horizon p) -> length row = p_horizon p ->
       exists row', take_row (p_horizon p) n row l = Ok row').
    { clear. induction l as [|x l IH]; intros row X L; [eexists; reflexivity|]. unfold take_row. cbn [foldM].
      assert (x < p_horizon p) by (apply X; now left). unfold lget at 1. destruct (nth_error row x) eqn:Q.
      - cbn [bind]. assert (Y : x <? p_horizon p = true) by now apply Nat.ltb_lt. rewrite Y. cbn [negb]. rewrite andb_false_r.
        cbn [bind]. apply IH; [intros; apply X; now right|now rewrite lset_length].
      - apply nth_error_None in Q. lia. }
    destruct (R (seq t (m_duration m)) row) as [row' R']; auto.
    - intros x X. apply in_seq in X. lia.
    - rewrite R'. eexists. reflexivity. }
  destruct A as [av A]. rewrite A. cbn [bind].
  assert (B : forall e (l : list nat) (mins : list (nat * nat)), (forall x, In x l -> In x (dkeys mins)) -> exists mins',
    foldM (fun mins s => let* x := dgetE mins s in Ok (dset mins s (Nat.max x e))) mins l = Ok mins').
  { clear. intros e. induction l as [|x l IH]; intros mins X; [eexists; reflexivity|]. cbn [foldM].
    destruct (proj1 (dget_keys _ _ mins x) (X x (or_introl eq_refl))) as [y Y]. unfold dgetE at 1. rewrite Y. cbn [bind].
    apply IH. intros z Z. apply dkeys_dset. right. apply X. now right. }
  destruct (B (t + m_duration m) (n_desc g j) (v_min v)) as [mins B'].
  { intros x X. rewrite KE. apply (node_task p g P N). apply (nx_desc _ _ N) in X. destruct X as [X _].
    now apply (path_task p P) in X. }
  rewrite B'. cbn [bind]. eexists. repeat split; eauto.
Qed.

Lemma fits_total : forall v j m t, inv p v -> task p j -> mode_one p j = Some m ->
  t + m_duration m <= p_horizon p -> exists b, fits_at p (v_avail v) m t = Ok b.
Proof using CAPS ALONE.
  clear ROOM MINS P N.
  intros v j m t G T MO H. apply allM_total. intros [r row] I. cbn [fst snd].
  destruct (row_is v r row G I) as [c [C1 [C2 _]]]. destruct (ALONE j T) as [m' [M1 M2]]. rewrite MO in M1. injection M1 as <-.
  destruct (M2 r c C1) as [n [M3 _]]. unfold dgetE. rewrite M3. apply row_ok_total. intros x X. apply in_seq in X. lia.
Qed.

Lemma fits_last : forall v j m t, inv p v -> (forall a s e, In (a, (s, e)) (v_sched v) -> e <= t) -> task p j -> mode_one p j = Some m ->
  t + m_duration m <= p_horizon p -> fits_at p (v_avail v) m t = Ok true.
Proof using CAPS ALONE.
  clear ROOM MINS P N.
  intros v j m t G EN T MO H. apply allM_all. intros [r row] I. cbn [fst snd].
  destruct (row_is v r row G I) as [c [C1 [C2 C3]]]. destruct (ALONE j T) as [m' [M1 M2]]. rewrite MO in M1. injection M1 as <-.
  destruct (M2 r c C1) as [n [M3 M4]]. unfold dgetE. rewrite M3. apply row_ok_fits. intros x X. apply in_seq in X.
  exists c. split; auto. rewrite C3 by lia. rewrite (load_after v r t x EN) by lia. f_equal. lia.
Qed.

Lemma ready_exists : forall dn ll, ll <> [] -> (forall x, In x ll -> task p x) ->
  (forall a x, In x ll -> edge p a x -> In a dn \/ In a ll) -> exists j, find (cpm_ready g dn) ll = Some j.
Proof.
  intros dn ll NE TK CL. destruct (find (cpm_ready g dn) ll) as [j|] eqn:F; [eauto|]. exfalso.
  assert (A : forall a, task p a -> ~ In a ll).
  { apply (by_rank p g P N (fun a => ~ In a ll)). intros a Ta IH IN. pose proof (find_none _ _ F a IN) as X.
    cbn in X. unfold cpm_ready in X. assert (Y : forallb (fun k => pymem k dn) (n_pred g a) = true).
    { apply forallb_forall. intros b B. apply (nx_pred _ _ N) in B. apply mem_in. destruct (CL b a IN B); auto.
      destruct (IH b B); auto. }
    congruence. }
  destruct ll as [|x l]; [congruence|]. apply (A x); [apply TK|]; now left.
Qed.

Lemma fill_total : forall fuel ll v, good v -> NoDup ll -> (forall x, In x ll -> task p x /\ ~ In x (v_done v)) ->
  (forall a x, In x ll -> edge p a x -> In a (v_done v) \/ In a ll) -> length ll <= fuel ->
  exists v', fill fuel p g ll v = Ok v' /\ good v' /\ (forall x, In x (v_done v') <-> In x (v_done v) \/ In x ll).
Proof.
  induction fuel as [|fuel IH]; intros ll v G ND NEW CL LEN.
  - destruct ll; [|cbn in LEN; lia]. exists v. cbn. split; [auto|]. split; [auto|]. intros x. tauto.
  - destruct ll as [|y0 l0]; [exists v; cbn; split; [auto|]; split; [auto|]; intros x; tauto|].
    cbn [fill]. set (ll := y0 :: l0) in *.
    destruct (ready_exists (v_done v) ll) as [j F]; [discriminate|intros x X; now apply NEW|exact CL|].
    rewrite F. apply find_some in F. destruct F as [F1 F2]. destruct (NEW j F1) as [T NI].
    destruct (early_bound v j (spent v) (g_inv _ G) (g_early _ G) (g_keys _ G) (g_end _ G) T F2) as [x [X1 X2]]. unfold dgetE at 1. rewrite X1. cbn [bind].
    destruct (ALONE j T) as [m [MO AL]].
    assert (FM : first_mode p j = Ok m).
    { unfold first_mode, dgetE. unfold mode_one in MO. destruct (dget (p_modes p) j); [|discriminate]. cbn [bind]. now rewrite MO. }
    rewrite FM. cbn [bind].
    assert (LO : length_one p j = m_duration m) by (unfold length_one; now rewrite MO).
    pose proof (spent_room v j G T NI) as SR. rewrite LO in SR.
    destruct (first_fit_total p (v_avail v) m (p_horizon p - x) x (spent v)) as [t [FF TB]].
    { lia. }
    { intros t Y. apply (fits_total v j m t (g_inv _ G) T MO). lia. }
    { apply (fits_last v j m (spent v) (g_inv _ G) (g_end _ G) T MO); lia. }
    rewrite FF. cbn [bind]. destruct (place_total v j m t (g_inv _ G) (g_keys _ G) T MO) as [v1 [PL [LS DN]]]; [lia|].
    rewrite PL. cbn [bind].
    assert (KT : forall x, In x (dkeys (v_min v)) -> task p x).
    { intros z Z. rewrite (g_keys _ G) in Z. now apply (node_task p g P N). }
    destruct (step_ok p g P N mins0 j m t v v1) as [A [B [C [D DE]]]]; auto.
    { apply G. } { apply G. } { exists x. split; auto. lia. }
    { apply fits_needs; auto. apply first_fit_ok in FF. tauto. }
    assert (SP : spent v1 = spent v + m_duration m).
    { unfold spent. rewrite DN. unfold pyadd. rewrite (proj2 (mem_out j (v_done v)) NI).
      rewrite map_app, list_sum_app. cbn. lia. }
    assert (G1 : good v1).
    { constructor; auto.
      - rewrite C. apply G.
      - rewrite LS. apply G.
      - intros a s e Y. rewrite D in Y. apply in_app_or in Y. destruct Y as [Y|[Y|[]]].
        + apply (g_end _ G) in Y. lia.
        + injection Y as <- <- <-. lia. }
    assert (IN : forall y, In y (pyremove j ll) <-> y <> j /\ In y ll) by (intros y; now apply pyremove_In).
    destruct (IH (pyremove j ll) v1 G1) as [v' [R1 [R2 R3]]].
    + now apply pyremove_NoDup.
    + intros y Y. apply IN in Y. destruct Y as [Y1 Y2]. destruct (NEW y Y2) as [W1 W2]. split; auto.
      intros Z. apply DE in Z. destruct Z; auto.
    + intros a y Y Ed. apply IN in Y. destruct Y as [Y1 Y2]. destruct (Nat.eq_dec a j) as [->|NE].
      * left. apply DE. now left.
      * destruct (CL a y Y2 Ed); [left; apply DE; now right|right; now apply IN].
    + assert (LR : length (pyremove j ll) < length ll); [|lia]. clear -F1. revert F1. generalize ll.
      induction ll0 as [|z l IHl]; intros X; [destruct X|]. cbn [pyremove]. destruct (pyeqb_spec j z) as [->|NE]; [cbn; lia|].
      destruct X as [X|X]; [congruence|]. specialize (IHl X). cbn [length]. lia.
    + exists v'. split; auto. split; auto. intros y. rewrite R3, DE, IN. split; [intros [[->|Y]|[Y1 Y2]]; auto|].
      intros [Y|Y]; auto. destruct (Nat.eq_dec y j); auto.
Qed.

Lemma by_critical_total : forall order, (forall a, task p a -> In a order) -> forall critical v prev, good v ->
  upto p (v_done v) prev -> (forall x, In x critical -> task p x) ->
  (forall a b, In b (v_done v) -> edge p a b -> In a (v_done v)) ->
  chain p (match prev with Some b => b :: critical | None => critical end) ->
  exists v', by_critical p g order critical v = Ok v' /\ good v' /\ (forall x, In x critical -> In x (v_done v')) /\
    (forall x, In x (v_done v) -> In x (v_done v')).
Proof.
  intros order ORD. induction critical as [|c rest IH]; intros v prev G U TK CL CH.
  - exists v. split; [auto|]. split; [auto|]. split; [intros x []|auto].
  - cbn [by_critical].
    assert (BT : exists l, before_task g order (v_done v) c = Ok l).
    { unfold before_task. destruct (mapM_exists _ _ (fun n => match index_of order n with Some i => Ok i | None => Err KeyError end)
        (filter (fun n => negb (pymem n (v_done v))) (n_anc g c))) as [z Z].
      - intros x X. apply filter_In in X. destruct X as [X _]. apply (nx_anc _ _ N) in X. destruct X as [X _].
        apply (path_task p P) in X. destruct X as [X _]. apply ORD in X. clear -X. induction order as [|y l IHl]; [destruct X|].
        cbn [index_of]. destruct (Nat.eqb_spec x y) as [->|NE]; [destruct (index_of l y); eauto|].
        destruct X as [X|X]; [congruence|]. destruct (IHl X) as [i Q]. destruct (index_of l x); [eauto|discriminate].
      - rewrite Z. eexists. reflexivity. }
    destruct BT as [l BT]. rewrite BT. cbn [bind]. destruct (before_task_ok p g P N _ _ _ _ BT) as [ND IN].
    assert (Ed : forall b, prev = Some b -> edge p b c) by (intros b ->; exact (proj1 CH)).
    destruct (upto_new p P _ _ _ U Ed) as [NC UC].
    destruct (fill_total (length (l ++ [c])) (l ++ [c]) v G ND) as [v1 [F1 [F2 F3]]]; auto.
    { intros x X. apply in_app_or in X. destruct X as [X|[<-|[]]].
      - apply IN in X. destruct X as [X1 X2]. split; auto. now apply (path_task p P) in X1.
      - split; auto. apply TK. now left. }
    { intros a x X Ea. destruct (pymem a (v_done v)) eqn:Q; [left; now apply mem_in|]. apply mem_out in Q. right.
      apply in_or_app. left. apply IN. split; auto. apply in_app_or in X. destruct X as [X|[<-|[]]]; [|now apply path_one].
      apply IN in X. eapply path_step; [exact Ea|tauto]. }
    rewrite F1. cbn [bind].
    assert (DC : In c (v_done v1)) by (apply F3; right; apply in_or_app; right; simpl; auto).
    assert (DM : dmem (v_sched v1) c = true).
    { apply dmem_true. now apply (i_done _ _ (g_inv _ F2)). }
    rewrite DM. destruct (IH v1 (Some c) F2) as [v' [R1 [R2 [R3 R4]]]].
    + intros x X. apply F3 in X. destruct X as [X|X]; [right; auto|]. apply in_app_or in X.
      destruct X as [X|[<-|[]]]; auto. right. now apply IN.
    + intros x X. apply TK. now right.
    + intros a b X Y. apply (i_done _ _ (g_inv _ F2)), in_map_iff in X. destruct X as [[b' [s e]] [X1 X2]]. cbn in X1. subst b'.
      destruct (i_after _ _ (g_inv _ F2) a b s e Y X2) as [sa [ea [Z _]]].
      apply (i_done _ _ (g_inv _ F2)), in_map_iff. exists (a, (sa, ea)). auto.
    + destruct prev; [exact (proj2 CH)|exact CH].
    + exists v'. split; auto. split; auto. split.
      * intros x [<-|X]; auto.
      * intros x X. apply R4, F3. now left.
Qed.
End Total.

Lemma spent_le : forall p v, inv p v -> spent p v <= one_by_one p.
Proof.
  intros p v I. unfold spent, one_by_one. apply list_sum_incl; [apply I|]. intros y Y. apply (i_task _ _ I) in Y.
  apply in_seq. unfold task in *. lia.
Qed.

Lemma mins_exist : forall p g mp, project p -> networkx p g -> dkeys mp = n_nodes g ->
  (forall n, task p n -> dget mp n = Some (Dates (Some (E p g n)) (Some (E p g n + dur p n)%Z) (Some (L p g n)) (Some (L p g n + dur p n)%Z))) ->
  exists mins, min_times mp = Ok mins /\ dkeys mins = n_nodes g /\
    forall a, task p a -> dget mins a = Some (Z.to_nat (E p g a)).
Proof.
  intros p g mp P N K D.
  destruct (mapM_exists _ _ (fun kd : nat * dates => match d_es (snd kd) with Some x => Ok (fst kd, Z.to_nat x) | None => Err TypeError end) mp) as [mins MI].
  { intros [a d] I. cbn [fst snd]. assert (T : task p a).
    { apply (node_task p g P N). rewrite <- K. apply in_map_iff. exists (a, d). auto. }
    assert (Q : dget mp a = Some d).
    { apply In_dget; auto. rewrite K. apply (nx_nodes_nd _ _ N). }
    rewrite (D a T) in Q. injection Q as <-. cbn. eauto. }
  change (min_times mp = Ok mins) in MI. exists mins. destruct (min_times_ok mp mins MI) as [MK ME]. split; auto.
  split; [congruence|]. intros a T.
  destruct (proj1 (dget_keys _ _ mins a)) as [y Y]; [rewrite MK, K; now apply (node_task p g P N)|].
  destruct (ME a y Y) as [d [x [Z1 [Z2 ->]]]]. rewrite (D a T) in Z1. injection Z1 as <-. cbn [d_es] in Z2. injection Z2 as <-. exact Y.
Qed.
