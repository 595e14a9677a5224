(** Proofs about the generation schemes of cpm.py. *)
From Coq Require Import String.
From Coq Require Import List Bool Arith ZArith Lia Permutation.
From Verif Require Import Py PyList PyMore SgsModel CpmModel CpmSpec CpmProofs.
Import ListNotations.

Lemma dgetE_some : forall K V {EK : PyEq K} (d : list (K * V)) k v, dgetE d k = Ok v <-> dget d k = Some v.
Proof. intros. unfold dgetE. destruct (dget d k); split; congruence. Qed.

Lemma first_mode_ok : forall p j m, first_mode p j = Ok m -> mode_one p j = Some m.
Proof.
  intros p j m H. unfold first_mode in H. apply bind_ok in H. destruct H as [d [H1 H2]].
  apply dgetE_some in H1, H2. unfold mode_one. now rewrite H1.
Qed.

(** * One row of availabilities *)

Lemma row_ok_true : forall h row n ts, row_ok h row n ts = Ok true ->
  forall t, In t ts -> exists x k, nth_error row t = Some x /\ n = Ok k /\ (k <= x)%Z.
Proof.
  intros h row n. induction ts as [|t ts IH]; intros H t' I; [destruct I|]. cbn [row_ok] in H.
  apply bind_ok in H. destruct H as [x [H1 H]]. apply bind_ok in H. destruct H as [k [H2 H]].
  apply lget_ok in H1. destruct (x <? k)%Z eqn:C; [destruct (t <? h); discriminate|].
  apply Z.ltb_ge in C. destruct I as [<-|I]; eauto 6.
Qed.

Lemma fits_at_true : forall p av m time, fits_at p av m time = Ok true ->
  forall r row t, In (r, row) av -> time <= t < time + m_duration m ->
  exists x k, nth_error row t = Some x /\ dget (m_need m) r = Some k /\ (k <= x)%Z.
Proof.
  intros p av m time. unfold fits_at. induction av as [|[r0 row0] av IH]; intros H r row t I T; [destruct I|].
  cbn [allM fst snd] in H. apply bind_ok in H. destruct H as [b [H1 H2]]. destruct b; [|discriminate].
  destruct I as [I|I]; [|eauto]. injection I as -> ->.
  destruct (row_ok_true _ _ _ _ H1 t) as [x [k [A [B C]]]]; [apply in_seq; lia|].
  apply dgetE_some in B. eauto.
Qed.

Lemma take_row_ok : forall h n ts row row', take_row h n row ts = Ok row' -> NoDup ts ->
  length row' = length row /\
  forall t, nth_error row' t = match nth_error row t with
                               | Some x => Some (if pymem t ts then x - n else x)%Z
                               | None => None
                               end.
Proof.
  intros h n. induction ts as [|t ts IH]; intros row row' H ND.
  - cbn in H. injection H as <-. split; auto. intros t. cbn. now destruct (nth_error row t).
  - unfold take_row in H. cbn [foldM] in H. apply bind_ok in H. destruct H as [r1 [H1 H2]].
    apply bind_ok in H1. destruct H1 as [x [X1 X2]]. apply lget_ok in X1.
    destruct ((0 <? n)%Z && negb (t <? h)); [discriminate|]. injection X2 as <-.
    apply NoDup_cons_iff in ND. destruct ND as [NI ND]. destruct (IH _ _ H2 ND) as [A B].
    split; [now rewrite A, lset_length|]. intros t'. rewrite B, pymem_cons.
    rewrite lset_nth_error, (Nat.eqb_sym t' t). destruct (Nat.eqb_spec t t') as [<-|NE]; cbn [orb].
    + assert (LT : t < length row) by (apply nth_error_Some; congruence). apply Nat.ltb_lt in LT.
      rewrite LT, X1. now rewrite (proj2 (mem_out t ts) NI).
    + reflexivity.
Qed.

Lemma take_all_ok : forall p m time av av', take_all p m time av = Ok av' ->
  Forall2 (fun kv kv' => fst kv' = fst kv /\ length (snd kv') = length (snd kv) /\
    forall t, nth_error (snd kv') t = match nth_error (snd kv) t with
      | Some x => Some (if (time <=? t) && (t <? time + m_duration m)
                        then (x - match dget (m_need m) (fst kv) with Some n => n | None => 0 end)%Z else x)
      | None => None end) av av'.
Proof.
  intros p m time av av' H. unfold take_all in H. apply mapM_ok in H. induction H as [|kv kv' av av' H _ IH]; constructor; auto.
  assert (W : forall t, pymem t (seq time (m_duration m)) = (time <=? t) && (t <? time + m_duration m)).
  { intros t. apply eq_true_iff_eq. rewrite mem_in, in_seq, andb_true_iff, Nat.leb_le, Nat.ltb_lt. reflexivity. }
  destruct (seq time (m_duration m)) as [|t0 ts] eqn:S.
  - injection H as <-. split; auto. split; auto. intros t. rewrite <- W. cbn. now destruct (nth_error (snd kv) t).
  - apply bind_ok in H. destruct H as [n [H1 H]]. apply bind_ok in H. destruct H as [row [H2 H]]. injection H as <-.
    apply dgetE_some in H1. cbn [fst snd]. rewrite <- S in *. destruct (take_row_ok _ _ _ _ _ H2 (seq_NoDup _ _)) as [A B].
    split; auto. split; auto. intros t. rewrite B, W, H1. reflexivity.
Qed.

Section Schedule.
Context (p : rcpsp) (g : nxg) (P : project p) (N : networkx p g).

Lemma sumZ_snoc : forall l x, sumZ (l ++ [x]) = (sumZ l + x)%Z.
Proof. induction l as [|y l IH]; intros; cbn [app sumZ fold_right] in *; unfold sumZ in *; cbn [fold_right] in *; [lia|]. rewrite IH. lia. Qed.

Lemma load_snoc : forall sch j s e r t,
  load p (sch ++ [(j, (s, e))]) r t = (load p sch r t + (if ((s <=? t) && (t <? e))%nat then needs p j r else 0))%Z.
Proof. intros. unfold load. rewrite map_app. cbn [map]. apply sumZ_snoc. Qed.

(** The invariant of both generation schemes. *)
Record inv (v : sgs_vars) : Prop := {
  i_once : NoDup (map fst (v_sched v));
  i_done : forall a, In a (v_done v) <-> In a (map fst (v_sched v));
  i_nd : NoDup (v_done v);
  i_task : forall a, In a (v_done v) -> task p a;
  i_length : forall a s e, In (a, (s, e)) (v_sched v) -> exists m, mode_one p a = Some m /\ e = s + m_duration m;
  i_after : forall a b sb eb, edge p a b -> In (b, (sb, eb)) (v_sched v) ->
    exists sa ea, In (a, (sa, ea)) (v_sched v) /\ ea <= sb;
  i_min : forall a s e b x, In (a, (s, e)) (v_sched v) -> path p a b -> dget (v_min v) b = Some x -> e <= x;
  i_rows : Forall2 (fun kv0 kv => fst kv = fst kv0 /\ length (snd kv) = length (snd kv0) /\
    forall t x0, nth_error (snd kv0) t = Some x0 ->
      nth_error (snd kv) t = Some (x0 - load p (v_sched v) (fst kv0) t)%Z /\
      (busy (v_sched v) t -> (load p (v_sched v) (fst kv0) t <= x0)%Z)) (cpm_avail p) (v_avail v);
  i_busy : forall kv0 t, In kv0 (cpm_avail p) -> busy (v_sched v) t -> t < length (snd kv0) }.

Lemma mins_ok : forall e (l : list nat) (mins mins' : list (nat * nat)), foldM (fun mins s => let* x := dgetE mins s in Ok (dset mins s (Nat.max x e))) mins l = Ok mins' ->
  dkeys mins' = dkeys mins /\
  (forall b x, dget mins' b = Some x -> exists y, dget mins b = Some y /\ y <= x /\ (In b l -> e <= x) /\ (x = y \/ x = e)).
Proof.
  intros e. induction l as [|s l IH]; intros mins mins' H.
  - cbn in H. injection H as <-. split; auto. intros b x H. exists x. repeat split; auto. intros [].
  - cbn [foldM] in H. apply bind_ok in H. destruct H as [m1 [H1 H2]]. apply bind_ok in H1. destruct H1 as [y [Y H1]].
    injection H1 as <-. apply dgetE_some in Y. destruct (IH _ _ H2) as [K A]. split.
    + rewrite K. clear -Y. induction mins as [|[k v] mins IH]; [discriminate|]. cbn [dget dset dkeys map fst] in *.
      destruct (pyeqb s k) eqn:Q; cbn [dkeys map fst]; [apply Nat.eqb_eq in Q; now subst|]. f_equal. auto.
    + intros b x H. destruct (A b x H) as [z [Z1 [Z2 [Z3 Z4]]]]. rewrite dget_dset in Z1.
      cbn [pyeqb PyEq_nat] in Z1. destruct (Nat.eqb_spec s b) as [->|NE].
      * injection Z1 as <-. exists y. split; auto. split; [lia|]. split; [lia|]. lia.
      * exists z. repeat split; auto. intros [->|I]; [congruence|auto].
Qed.

Lemma place_ok : forall j m time v v', inv v -> task p j -> ~ In j (v_done v) -> mode_one p j = Some m ->
  (forall a, edge p a j -> exists s e, In (a, (s, e)) (v_sched v) /\ e <= time) ->
  (forall r row t, In (r, row) (v_avail v) -> time <= t < time + m_duration m ->
     exists x, nth_error row t = Some x /\ (needs p j r <= x)%Z) ->
  place p g j m time v = Ok v' ->
  inv v' /\ v_sched v' = v_sched v ++ [(j, (time, time + m_duration m))] /\
  (forall a, In a (v_done v') <-> a = j \/ In a (v_done v)) /\
  dkeys (v_min v') = dkeys (v_min v) /\
  (forall b x, dget (v_min v') b = Some x -> exists y, dget (v_min v) b = Some y /\ y <= x /\
     (x = y \/ x = time + m_duration m)).
Proof.
  intros j m time v v' I T ND Em Pr Ft H. unfold place in H.
  apply bind_ok in H. destruct H as [av [H1 H]]. apply bind_ok in H. destruct H as [mins [H2 H]]. injection H as <-.
  set (e := time + m_duration m) in *. cbn [v_sched v_done v_min v_avail].
  assert (NK : ~ In j (dkeys (v_sched v))) by (intros X; apply ND, (i_done _ I); exact X).
  rewrite dset_new by exact NK. destruct (mins_ok _ _ _ _ H2) as [K A].
  pose proof (take_all_ok _ _ _ _ _ H1) as TK.
  assert (BS : forall t, busy (v_sched v ++ [(j, (time, e))]) t <-> busy (v_sched v) t \/ time <= t < e).
  { intros t. unfold busy. split.
    - intros [a [s [e0 [X Y]]]]. apply in_app_or in X. destruct X as [X|[X|[]]]; [left; eauto 6|]. injection X as <- <- <-. auto.
    - intros [[a [s [e0 [X Y]]]]|Y].
      + exists a, s, e0. split; auto. apply in_or_app; auto.
      + exists j, time, e. split; auto. apply in_or_app. right. simpl; auto. }
  assert (SELF : ~ edge p j j).
  { intros X. apply (pr_acyclic _ P j). now apply path_one. }
  split; [|split; [|split; [|split]]]; auto.
  - constructor; cbn [v_sched v_done v_min v_avail].
    + rewrite map_app. apply NoDup_snoc; [apply I|exact NK].
    + intros a. rewrite pyadd_In, map_app, in_app_iff, <- (i_done _ I a). cbn. intuition.
    + apply pyadd_NoDup, (i_nd _ I).
    + intros a X. apply pyadd_In in X. destruct X as [->|X]; [auto|now apply (i_task _ I)].
    + intros a s e0 X. apply in_app_or in X. destruct X as [X|[X|[]]]; [eapply (i_length _ I); eauto|].
      injection X as <- <- <-. exists m. auto.
    + intros a b sb eb Ed X. apply in_app_or in X. destruct X as [X|[X|[]]].
      * destruct (i_after _ I a b sb eb Ed X) as [sa [ea [Y1 Y2]]]. exists sa, ea. split; auto. apply in_or_app; auto.
      * injection X as <- <- <-. destruct (Pr a Ed) as [sa [ea [Y1 Y2]]]. exists sa, ea. split; auto. apply in_or_app; auto.
    + intros a s e0 b x X Y Z. destruct (A b x Z) as [y [Z1 [Z2 [Z3 _]]]]. apply in_app_or in X. destruct X as [X|[X|[]]].
      * pose proof (i_min _ I _ _ _ _ _ X Y Z1). lia.
      * injection X as <- <- <-. apply Z3. apply (nx_desc _ _ N). split; auto. intros ->. now apply (pr_acyclic _ P j).
    + assert (G : forall l0 l1 l2,
        Forall2 (fun kv0 kv => fst kv = fst kv0 /\ length (snd kv) = length (snd kv0) /\
          forall t x0, nth_error (snd kv0) t = Some x0 ->
            nth_error (snd kv) t = Some (x0 - load p (v_sched v) (fst kv0) t)%Z /\
            (busy (v_sched v) t -> (load p (v_sched v) (fst kv0) t <= x0)%Z)) l0 l1 ->
        incl l1 (v_avail v) ->
        Forall2 (fun kv kv' : string * list Z => fst kv' = fst kv /\ length (snd kv') = length (snd kv) /\
          forall t, nth_error (snd kv') t = match nth_error (snd kv) t with
            | Some x => Some (if (time <=? t) && (t <? time + m_duration m)
                        then (x - match dget (m_need m) (fst kv) with Some n => n | None => 0 end)%Z else x)
            | None => None end) l1 l2 ->
        Forall2 (fun kv0 kv => fst kv = fst kv0 /\ length (snd kv) = length (snd kv0) /\
          forall t x0, nth_error (snd kv0) t = Some x0 ->
            nth_error (snd kv) t = Some (x0 - load p (v_sched v ++ [(j, (time, e))]) (fst kv0) t)%Z /\
            (busy (v_sched v ++ [(j, (time, e))]) t -> (load p (v_sched v ++ [(j, (time, e))]) (fst kv0) t <= x0)%Z)) l0 l2).
      { intros l0 l1 l2 F1. revert l2. induction F1 as [|[r0 row0] [r1 row1] l0 l1 [B1 [B2 B3]] _ IH]; intros l2 IN F2.
        - inversion F2. constructor.
        - inversion F2 as [|? [r2 row2] ? l2' [C1 [C2 C3]] F2']; subst. constructor.
          + cbn [fst snd] in *. subst r1 r2. split; auto. split; [congruence|]. intros t x0 X0.
            destruct (B3 t x0 X0) as [D1 D2]. rewrite load_snoc, BS. rewrite C3, D1.
            assert (ND0 : match dget (m_need m) r0 with Some n => n | None => 0%Z end = needs p j r0).
            { unfold needs. now rewrite Em. }
            rewrite ND0. fold e. destruct ((time <=? t) && (t <? e)) eqn:W.
            * apply andb_true_iff in W. destruct W as [W1 W2]. apply Nat.leb_le in W1. apply Nat.ltb_lt in W2.
              destruct (Ft r0 row1 t (IN _ (or_introl eq_refl))) as [x [X1 X2]]; [unfold e in W2; lia|].
              rewrite D1 in X1. injection X1 as X1. split; [f_equal; lia|]. intros _. lia.
            * split; [f_equal; lia|]. intros [Y|Y]; [specialize (D2 Y); lia|]. exfalso. apply andb_false_iff in W.
              destruct W as [W|W]; [apply Nat.leb_gt in W|apply Nat.ltb_ge in W]; lia.
          + apply IH; auto. intros x X. apply IN. now right. }
      eapply G; [apply (i_rows _ I)|apply incl_refl|exact TK].
    + intros kv0 t X Y. apply BS in Y. destruct Y as [Y|Y]; [eapply (i_busy _ I); eauto|].
      pose proof (i_rows _ I) as R.
      assert (Z : exists kv, In kv (v_avail v) /\ length (snd kv) = length (snd kv0)).
      { clear -R X. induction R as [|x y l l' [_ [H _]] _ IH]; [destruct X|]. destruct X as [->|X].
        - exists y. split; [now left|auto].
        - destruct (IH X) as [kv [A B]]. exists kv. split; [now right|auto]. }
      destruct Z as [[r row] [Z1 Z2]]. rewrite <- Z2. destruct (Ft r row t Z1 Y) as [x [X1 _]].
      apply nth_error_Some. cbn [snd]. congruence.
  - intros a. rewrite pyadd_In. reflexivity.
  - intros b x X. destruct (A b x X) as [y [Y1 [Y2 [_ Y3]]]]. eauto.
Qed.

Lemma inv_start : forall mins, inv (Vars (cpm_avail p) mins [] [] []).
Proof.
  intros mins. constructor; cbn [v_sched v_done v_min v_avail map]; try (constructor; fail); try (intros ? []; fail); try tauto.
  - intros; contradiction.
  - intros; contradiction.
  - intros; contradiction.
  - assert (G : forall l : list (string * list Z), Forall2 (fun kv0 kv => fst kv = fst kv0 /\ length (snd kv) = length (snd kv0) /\
      forall t x0, nth_error (snd kv0) t = Some x0 -> nth_error (snd kv) t = Some (x0 - load p [] (fst kv0) t)%Z /\
      (busy [] t -> (load p [] (fst kv0) t <= x0)%Z)) l l); [|apply G].
    induction l as [|[r row] l IH]; constructor; auto. split; auto. split; auto. intros t x0 H. split.
    + cbn [snd] in *. rewrite H. f_equal. cbn. lia.
    + intros [a [s [e [[] _]]]].
  - intros kv0 t _ [a [s [e [[] _]]]].
Qed.

(** Starts and bounds relative to the dates of the critical path method. *)
Definition early (mins0 : list (nat * nat)) (v : sgs_vars) : Prop :=
  (forall b x, dget (v_min v) b = Some x -> exists y, dget mins0 b = Some y /\ y <= x /\
     (x = y \/ exists a s, In (a, (s, x)) (v_sched v))) /\
  (forall a s e, In (a, (s, e)) (v_sched v) -> exists y, dget mins0 a = Some y /\ y <= s).

Lemma first_fit_ok : forall av m ts t, first_fit p av m ts = Ok (Some t) -> In t ts /\ fits_at p av m t = Ok true.
Proof.
  intros av m. induction ts as [|x ts IH]; intros t H; [discriminate|]. cbn [first_fit] in H.
  apply bind_ok in H. destruct H as [b [H1 H2]]. destruct b.
  - injection H2 as <-. split; [now left|auto].
  - destruct (IH t H2). split; [now right|auto].
Qed.

Lemma inv_lost : forall v l, inv v -> inv (Vars (v_avail v) (v_min v) (v_done v) (v_sched v) l).
Proof. intros v l I. destruct I. constructor; auto. Qed.

Lemma scheduled_pred : forall v j, inv v -> cpm_ready g (v_done v) j = true ->
  forall a, edge p a j -> exists s e, In (a, (s, e)) (v_sched v) /\
    (forall x, dget (v_min v) j = Some x -> e <= x).
Proof.
  intros v j I R a Ed. unfold cpm_ready in R. rewrite forallb_forall in R.
  specialize (R a (proj2 (nx_pred _ _ N a j) Ed)). apply mem_in in R. apply (i_done _ I) in R.
  apply in_map_iff in R. destruct R as [[a' [s e]] [R1 R2]]. cbn in R1. subst a'. exists s, e. split; auto.
  intros x X. eapply (i_min _ I); eauto. now apply path_one.
Qed.

Lemma step_ok : forall mins0 j m time v v', inv v -> early mins0 v ->
  (forall x, In x (dkeys (v_min v)) -> task p x) ->
  ~ In j (v_done v) -> cpm_ready g (v_done v) j = true ->
  first_mode p j = Ok m -> (exists x, dget (v_min v) j = Some x /\ x <= time) ->
  (forall r row t, In (r, row) (v_avail v) -> time <= t < time + m_duration m ->
     exists x, nth_error row t = Some x /\ (needs p j r <= x)%Z) ->
  place p g j m time v = Ok v' ->
  inv v' /\ early mins0 v' /\ dkeys (v_min v') = dkeys (v_min v) /\
  v_sched v' = v_sched v ++ [(j, (time, time + m_duration m))] /\
  (forall a, In a (v_done v') <-> a = j \/ In a (v_done v)).
Proof.
  intros mins0 j m time v v' I [E1 E2] KT ND R FM [x [X1 X2]] Ft H.
  pose proof (first_mode_ok _ _ _ FM) as MO.
  assert (T : task p j) by (apply KT; apply (proj2 (dget_keys _ _ _ _)); eauto).
  destruct (place_ok j m time v v' I T ND MO) as [A [B [C [D G]]]]; auto.
  { intros a Ed. destruct (scheduled_pred v j I R a Ed) as [s [e [Y1 Y2]]]. exists s, e. split; auto.
    specialize (Y2 x X1). lia. }
  split; auto. split; [|auto]. split.
  - intros b y Y. destruct (G b y Y) as [z [Z1 [Z2 Z3]]]. destruct (E1 b z Z1) as [w [W1 [W2 W3]]]. exists w.
    split; auto. split; [lia|]. rewrite B. destruct Z3 as [->| ->].
    + destruct W3 as [W3|[a [s W3]]]; [auto|]. right. exists a, s. apply in_or_app; auto.
    + right. exists j, time. apply in_or_app. right. simpl; auto.
  - intros a s e Y. rewrite B in Y. apply in_app_or in Y. destruct Y as [Y|[Y|[]]]; [eauto|].
    injection Y as <- <- <-. destruct (E1 j x X1) as [w [W1 [W2 _]]]. exists w. split; auto. lia.
Qed.

Lemma fits_needs : forall j m time av, mode_one p j = Some m -> fits_at p av m time = Ok true ->
  forall r row t, In (r, row) av -> time <= t < time + m_duration m ->
     exists x, nth_error row t = Some x /\ (needs p j r <= x)%Z.
Proof.
  intros j m time av MO H r row t I T. destruct (fits_at_true _ _ _ _ H r row t I T) as [x [k [A [B C]]]].
  exists x. split; auto. unfold needs. now rewrite MO, B.
Qed.

Lemma fill_ok : forall mins0 fuel ll v v', inv v -> early mins0 v ->
  (forall x, In x (dkeys (v_min v)) -> task p x) -> NoDup ll -> (forall x, In x ll -> ~ In x (v_done v)) ->
  fill fuel p g ll v = Ok v' ->
  inv v' /\ early mins0 v' /\ dkeys (v_min v') = dkeys (v_min v) /\
  (forall x, In x (v_done v') -> In x (v_done v) \/ In x ll).
Proof.
  intros mins0. induction fuel as [|fuel IH]; intros ll v v' I Ea KT ND DJ H.
  - destruct ll; [|discriminate]. cbn in H. injection H as <-. auto.
  - destruct ll as [|y0 l0]; [cbn in H; injection H as <-; auto|]. cbn [fill] in H. set (ll := y0 :: l0) in *.
    destruct (find (cpm_ready g (v_done v)) ll) as [j|] eqn:F; [|discriminate].
    apply find_some in F. destruct F as [F1 F2].
    apply bind_ok in H. destruct H as [x [H1 H]]. apply dgetE_some in H1.
    apply bind_ok in H. destruct H as [m [H2 H]]. apply bind_ok in H. destruct H as [t [H3 H]].
    apply bind_ok in H. destruct H as [v1 [H4 H]].
    assert (ND' : NoDup (pyremove j ll)) by (apply pyremove_NoDup; exact ND).
    assert (IN : forall y, In y (pyremove j ll) -> In y ll /\ y <> j).
    { intros y Y. apply pyremove_In in Y; [tauto|exact ND]. }
    destruct t as [t|].
    + apply first_fit_ok in H3. destruct H3 as [H3 H3']. apply in_seq in H3.
      destruct (step_ok mins0 j m t v v1) as [A [B [C [D G]]]]; auto.
      { exists x. split; auto. lia. }
      { apply fits_needs; auto. now apply first_mode_ok. }
      destruct (IH (pyremove j ll) v1 v' A B) as [A' [B' [C' G']]]; auto.
      * now rewrite C.
      * intros y Y Z. apply IN in Y. destruct Y as [Y1 Y2]. apply G in Z. destruct Z as [Z|Z]; [auto|]. now apply (DJ y).
      * split; auto. split; auto. split; [congruence|]. intros y Y. apply G' in Y. destruct Y as [Y|Y].
        -- apply G in Y. destruct Y as [->|Y]; auto.
        -- right. now apply IN.
    + assert (V1 : inv v1 /\ early mins0 v1 /\ v_min v1 = v_min v /\ v_done v1 = v_done v).
      { destruct (x <? p_horizon p); injection H4 as <-; auto. split; [now apply inv_lost|auto]. }
      destruct V1 as [A [B [C D]]].
      destruct (IH (pyremove j ll) v1 v' A B) as [A' [B' [C' G']]]; auto.
      * now rewrite C.
      * intros y Y. apply IN in Y. rewrite D. now apply DJ.
      * split; auto. split; auto. split; [congruence|]. intros y Y. apply G' in Y. rewrite D in Y.
        destruct Y as [Y|Y]; auto. right. now apply IN.
Qed.

Lemma before_task_ok : forall order dn c l, before_task g order dn c = Ok l ->
  NoDup (l ++ [c]) /\ (forall x, In x l <-> path p x c /\ ~ In x dn).
Proof.
  intros order dn c l H. unfold before_task in H. apply bind_ok in H. destruct H as [z [_ H]]. injection H as <-.
  set (l0 := filter _ _). pose proof (ssort_perm (index_le order) l0) as PM.
  assert (IN : forall x, In x (ssort (index_le order) l0) <-> path p x c /\ ~ In x dn).
  { intros x. rewrite <- PM. unfold l0. rewrite filter_In, (nx_anc _ _ N), negb_true_iff, mem_out.
    split; [tauto|]. intros [A B]. split; auto. split; auto. intros ->. now apply (pr_acyclic _ P c). }
  split; auto. apply NoDup_snoc.
  - rewrite <- PM. apply NoDup_filter, (nx_anc_nd _ _ N).
  - rewrite IN. intros [X _]. now apply (pr_acyclic _ P c).
Qed.

(** The tasks scheduled so far when the critical task [c] comes up: none, or those leading to the
    critical task before it. *)
Definition upto (dn : list nat) (prev : option nat) : Prop :=
  match prev with
  | None => dn = []
  | Some b => forall x, In x dn -> x = b \/ path p x b
  end.

Lemma upto_new : forall dn prev c, upto dn prev ->
  (forall b, prev = Some b -> edge p b c) -> ~ In c dn /\ forall x, In x dn -> path p x c.
Proof.
  intros dn prev c U Ed. destruct prev as [b|]; cbn in U.
  - specialize (Ed b eq_refl). split.
    + intros X. apply U in X. apply (pr_acyclic _ P c). destruct X as [->|X]; [now apply path_one|].
      eapply path_last; eauto.
    + intros x X. apply U in X. destruct X as [->|X]; [now apply path_one|]. eapply path_last; eauto.
  - subst dn. split; [auto|]. intros x [].
Qed.

Lemma by_critical_ok : forall mins0 order critical v v' prev, inv v -> early mins0 v ->
  (forall x, In x (dkeys (v_min v)) -> task p x) -> upto (v_done v) prev ->
  chain p (match prev with Some b => b :: critical | None => critical end) ->
  by_critical p g order critical v = Ok v' ->
  inv v' /\ early mins0 v'.
Proof.
  intros mins0 order. induction critical as [|c rest IH]; intros v v' prev I Ea KT U CH H.
  - cbn in H. injection H as <-. auto.
  - cbn [by_critical] in H. apply bind_ok in H. destruct H as [l [H1 H]]. apply bind_ok in H. destruct H as [v1 [H2 H]].
    destruct (dmem (v_sched v1) c); [|discriminate].
    destruct (before_task_ok _ _ _ _ H1) as [ND IN].
    assert (Ed : forall b, prev = Some b -> edge p b c) by (intros b ->; exact (proj1 CH)).
    destruct (upto_new _ _ _ U Ed) as [NC UC].
    destruct (fill_ok mins0 (length (l ++ [c])) (l ++ [c]) v v1 I Ea KT ND) as [A [B [C D]]]; auto.
    { intros x X. apply in_app_or in X. destruct X as [X|[<-|[]]]; auto. now apply IN. }
    apply (IH v1 v' (Some c)); auto.
    + now rewrite C.
    + intros x X. apply D in X. destruct X as [X|X]; [right; auto|]. apply in_app_or in X.
      destruct X as [X|[<-|[]]]; auto. right. now apply IN.
    + destruct prev; [exact (proj2 CH)|exact CH].
Qed.

Lemma inv_feasible : forall v, inv v -> feasible p (v_sched v).
Proof.
  intros v I. constructor; try apply I. intros r t c B R. pose proof (i_rows _ I) as F.
  assert (G : exists kv0, In kv0 (cpm_avail p) /\ fst kv0 = r /\ (t < length (snd kv0) -> nth_error (snd kv0) t = Some c)).
  { unfold room in R. unfold cpm_avail. destruct (p_res p) as [l|l].
    - exists (r, repeat c (p_horizon p)). split; [apply in_map_iff; exists (r, c); auto|]. split; auto.
      cbn [snd]. rewrite repeat_length. intros L. apply nth_error_repeat. exact L.
    - destruct R as [row [R1 R2]]. exists (r, firstn (p_horizon p + 1) row). split; [apply in_map_iff; exists (r, row); auto|].
      split; auto. cbn [snd]. rewrite firstn_length. intros L. rewrite nth_error_firstn by lia. exact R2. }
  destruct G as [kv0 [G1 [<- G3]]]. specialize (G3 (i_busy _ I _ _ G1 B)).
  clear -F G1 G3 B. induction F as [|x y l l' [_ [_ H]] _ IH]; [destruct G1|]. destruct G1 as [->|G1]; auto.
  apply (H t c); auto.
Qed.

Lemma all_scheduled : forall v, inv v -> In (length (p_modes p)) (v_done v) ->
  Permutation (map fst (v_sched v)) (seq 1 (length (p_modes p))).
Proof.
  intros v I S. apply NoDup_Permutation; [apply I|apply seq_NoDup|]. intros a. rewrite in_seq, <- (i_done _ I).
  split.
  - intros X. apply (i_task _ I) in X. unfold task in X. lia.
  - intros X. assert (T : task p a) by (unfold task; lia).
    destruct (Nat.eq_dec a (length (p_modes p))) as [->|NE]; auto.
    pose proof (pr_sink _ P a T NE) as PT. clear X T NE.
    assert (CL : forall x b, In b (v_done v) -> edge p x b -> In x (v_done v)).
    { intros x b X Ed. apply (i_done _ I), in_map_iff in X. destruct X as [[b' [s e]] [X1 X2]]. cbn in X1. subst b'.
      destruct (i_after _ I x b s e Ed X2) as [sa [ea [Y _]]]. apply (i_done _ I), in_map_iff. exists (x, (sa, ea)). auto. }
    revert PT S. generalize (length (p_modes p)). intros z PT. induction PT; intros; eauto.
Qed.

Lemma min_times_ok : forall mp mins, min_times mp = Ok mins ->
  dkeys mins = dkeys mp /\
  forall a y, dget mins a = Some y -> exists d x, dget mp a = Some d /\ d_es d = Some x /\ y = Z.to_nat x.
Proof.
  intros mp mins H. unfold min_times in H. apply mapM_ok in H. induction H as [|[k d] [k' y] mp mins H _ [IH1 IH2]].
  - split; auto. discriminate.
  - cbn [fst snd] in H. destruct (d_es d) as [x|] eqn:Q; [|discriminate]. injection H as <- <-. split.
    + cbn [dkeys map fst] in *. now f_equal.
    + intros a y H. cbn [dget] in *. destruct (pyeqb a k); [|auto]. injection H as <-. eauto.
Qed.

Lemma early_start : forall mins, early mins (Vars (cpm_avail p) mins [] [] []).
Proof. intros mins. split; cbn; [intros b x H; exists x; auto|intros a s e []]. Qed.
End Schedule.
