(** PilePolicy, MetaPolicy and the policies made from solutions. *)
From Coq Require Import List Bool Arith ZArith QArith Lia Sorted Permutation.
From Verif Require Import Py PyList PyMore SchedModel SchedProofs SchedActProofs SchedTimeProofs.
From Verif Require Import PolModel PolSpec PolProofs PolExecProofs.
Import ListNotations.
Open Scope Z_scope.

(** * PilePolicy *)

Lemma arg_best_spec : forall (better : Z -> Z -> bool) (le : Z -> Z -> Prop) f,
  (forall x, le x x) -> (forall x y z, le x y -> le y z -> le x z) ->
  (forall x y, better y x = true -> le x y) -> (forall x y, better y x = false -> le y x) ->
  forall l x, In (arg_best better f x l) (x :: l) /\ forall y, In y (x :: l) -> le (f y) (f (arg_best better f x l)).
Proof.
  intros better le f R T B1 B2. unfold arg_best. induction l as [|y l IH]; intros x; cbn [fold_left].
  - split; [simpl; auto|]. intros y [<-|[]]. apply R.
  - destruct (better (f y) (f x)) eqn:E.
    + destruct (IH y) as [I M]. split; [simpl in *; tauto|]. intros z [<-|J]; [|now apply M].
      apply T with (f y); [now apply B1|]. apply M. simpl; auto.
    + destruct (IH x) as [I M]. split; [simpl in *; tauto|]. intros z [<-|[<-|J]].
      * apply M. simpl; auto.
      * apply T with (f x); [now apply B2|]. apply M. simpl; auto.
      * apply M. simpl; auto.
Qed.

Definition pile_time : action := mkAction None TIME_PR (Some 1%nat) true None.

Lemma pile_possible_spec : forall dm st l, pile_possible dm st = Ok l ->
  (forall n, In n l <-> In n (launchable dm st) /\ applicable dm st (pile_start n) = Ok true) /\
  (forall n, In n (launchable dm st) -> exists b, applicable dm st (pile_start n) = Ok b).
Proof.
  intros dm st l H. unfold pile_possible in H. apply filterM_pure in H. destruct H as [-> A]. split.
  - intros n. rewrite filter_In. split; intros [I J]; split; auto.
    + destruct (A n I) as [b E]. rewrite E in *. congruence.
    + now rewrite J.
  - exact A.
Qed.

Lemma pick_at_In : forall l i x, pick_at l i = Ok x -> nth_error l i = Some x /\ In x l.
Proof.
  intros l i x H. unfold pick_at in H. destruct (nth_error l i) eqn:E; [|discriminate]. injection H as ->.
  split; auto. eapply nth_error_In; eauto.
Qed.

Lemma pile_next_spec : forall dm e g st a, pile_next dm e g st = Ok a -> exists l, pile_possible dm st = Ok l /\
  ((l = [] /\ a = pile_time) \/ exists n, In n l /\ a = pile_start n /\
    match g with
    | MOST_SUCCESSORS => forall k, In k l -> (length (e_desc e k) <= length (e_desc e n))%nat
    | FASTEST => forall k, In k l -> e_dur e n <= e_dur e k
    | SAMPLE_MOST_SUCCESSORS => nth_error l (e_choice e (desc_weights e l)) = Some n
    | TOTALLY_RANDOM => nth_error l (e_random e l) = Some n
    end).
Proof.
  intros dm e g st a H. unfold pile_next in H. apply bind_ok in H. destruct H as [l [P H]]. exists l. split; auto.
  destruct l as [|x r]; [left; injection H as <-; auto|right].
  apply bind_ok in H. destruct H as [n [N H]]. injection H as <-. exists n.
  destruct g.
  - injection N as <-.
    destruct (arg_best_spec Z.gtb Z.le (fun n => Z.of_nat (length (e_desc e n)))) with (l := r) (x := x) as [I M];
      intros; try lia. split; auto. split; auto. intros k K. specialize (M k K). lia.
  - apply pick_at_In in N. split; [tauto|]. split; [reflexivity|tauto].
  - injection N as <-.
    destruct (arg_best_spec Z.ltb Z.ge (e_dur e)) with (l := r) (x := x) as [I M];
      intros; try lia. split; auto. split; auto. intros k K. specialize (M k K). lia.
  - apply pick_at_In in N. split; [tauto|]. split; [reflexivity|tauto].
Qed.

(** The weights of SAMPLE_MOST_SUCCESSORS. *)
Lemma desc_weights_spec : forall e l i n w, nth_error l i = Some n -> nth_error (desc_weights e l) i = Some w ->
  (w > 0)%Q -> e_desc e n <> [] \/ forall k, In k l -> e_desc e k = [].
Proof.
  intros e l i n w N W PO. unfold desc_weights in W.
  set (s := fold_right Z.add 0 (map (fun n => Z.of_nat (length (e_desc e n))) l)) in *.
  destruct (Z.eqb_spec s 0) as [Z0|Z0].
  - right. intros k K.
    assert (G : forall l0, fold_right Z.add 0 (map (fun n => Z.of_nat (length (e_desc e n))) l0) >= 0).
    { induction l0; cbn; lia. }
    assert (X : forall l0, fold_right Z.add 0 (map (fun n => Z.of_nat (length (e_desc e n))) l0) = 0 ->
                 forall k, In k l0 -> length (e_desc e k) = O).
    { induction l0 as [|y l0 IH]; cbn; intros E j J; [destruct J|]. pose proof (G l0).
      destruct J as [<-|J]; [lia|]. apply IH; auto. lia. }
    specialize (X l Z0 k K). destruct (e_desc e k); [reflexivity|discriminate].
  - left. intros E. rewrite nth_error_map, N in W. cbn in W. injection W as <-. rewrite E in PO. cbn in PO.
    unfold Qdiv, Qmult, Qgt, Qlt in PO. cbn in PO. lia.
Qed.

Lemma pile_time_same : forall dm d q st, next_state dm d q st pile_time = next_state dm d q st time_act.
Proof. reflexivity. Qed.

(** PilePolicy as a diligent policy: every task is started in mode 1. *)
Lemma pile_execute : forall dm p dur cap e g q, workable dm p dur cap ->
  (forall n, In n (d_tasks dm) -> dget (p_modes p) n = Some 1%nat) ->
  (forall l, l <> [] -> (e_choice e (desc_weights e l) < length l)%nat /\ (e_random e l < length l)%nat) ->
  (forall r t, q r t = cap r) ->
  forall f s, reached dm p dur cap s -> Z.of_nat (length (s_remaining s)) + work dm p dur s <= Z.of_nat f ->
  exists s', execute dm (pile_next dm e g) dur q f s = Ok s' /\ reached dm p dur cap s' /\ is_goal s' = true /\
    s_t s' + work dm p dur s' <= s_t s + work dm p dur s.
Proof.
  intros dm p dur cap e g q WK M1 CH Q f s H LE.
  set (pick := fun s => let* a := pile_next dm e g s in
                        Ok (match a_kind a with TIME_PR => time_act | _ => a end)).
  assert (PK : forall s, reached dm p dur cap s -> exists a, pile_next dm e g s = Ok a /\
     ((a = pile_time /\ forall n, In n (launchable dm s) -> applicable dm s (pile_start n) = Ok false) \/
      exists n, In n (launchable dm s) /\ a = pile_start n /\ accepted dm p s n a)).
  { intros s0 H0.
    assert (PP : exists l, pile_possible dm s0 = Ok l).
    { unfold pile_possible. rewrite filterM_total; [eauto|]. intros n L.
      pose proof (launchable_task dm p dur cap WK s0 n H0 L) as TN. apply launchable_In in L.
      destruct (check_total dm p dur cap WK s0 n H0 (proj1 L)) as [m [b [B1 [_ [B3 _]]]]].
      rewrite (M1 n TN) in B1. injection B1 as <-. exists b. exact B3. }
    destruct PP as [l PP].
    assert (EX : exists a, pile_next dm e g s0 = Ok a).
    { unfold pile_next. rewrite PP. cbn [bind]. destruct l as [|x r]; [eauto|].
      destruct (CH (x :: r)) as [C1 C2]; [discriminate|].
      assert (forall i, (i < length (x :: r))%nat -> exists y, pick_at (x :: r) i = Ok y).
      { intros i L. unfold pick_at. destruct (nth_error (x :: r) i) eqn:N; [eauto|]. apply nth_error_None in N. lia. }
      destruct g; cbn [bind]; eauto.
      - destruct (H1 _ C1) as [y ->]. cbn [bind]. eauto.
      - destruct (H1 _ C2) as [y ->]. cbn [bind]. eauto. }
    destruct EX as [a EX]. exists a. split; auto.
    destruct (pile_next_spec _ _ _ _ _ EX) as [l' [PP' C]]. assert (l' = l) by congruence. subst l'.
    destruct (pile_possible_spec _ _ _ PP) as [S1 S2].
    destruct C as [[-> ->]|[n [I [-> _]]]].
    - left. split; auto. intros n L. destruct (S2 n L) as [[|] E]; auto. exfalso.
      assert (X : In n []) by (apply S1; auto). destruct X.
    - right. apply S1 in I. destruct I as [I1 I2]. exists n. split; auto. split; auto. split; auto.
      unfold start_of, dgetE. rewrite (M1 n (launchable_task dm p dur cap WK s0 n H0 I1)). cbn [bind].
      now rewrite (wk_alloc _ _ _ _ WK). }
  assert (DI : diligent dm p dur cap pick).
  { intros s0 H0 G. destruct (PK s0 H0) as [a [E C]]. unfold pick. rewrite E. cbn [bind].
    eexists. split; [reflexivity|]. destruct C as [[-> NO]|[n [L [-> A]]]].
    - left. split; [reflexivity|]. intros O.
      destruct (idle_launchable dm p dur cap WK s0 H0 O) as [n L].
      + intros R. unfold is_goal in G. rewrite R, O, (j_paused _ _ _ _ (reached_ongoing dm p dur cap WK s0 H0)) in G.
        discriminate.
      + specialize (NO n L). pose proof (proj1 (launchable_In _ _ _) L) as [I _].
        destruct (idle_accepts dm p dur cap WK s0 n H0 O I) as [b [B1 B2]].
        unfold start_of, dgetE in B1. rewrite (M1 n (launchable_task dm p dur cap WK s0 n H0 L)) in B1. cbn [bind] in B1.
        rewrite (wk_alloc _ _ _ _ WK) in B1. injection B1 as <-. unfold pile_start in NO. congruence.
    - right. exists n. split; auto. }
  destruct (execute_diligent dm p dur cap WK pick q DI Q f s H LE) as [s' [E R]].
  exists s'. split; auto. rewrite <- E. clear - PK WK Q H.
  assert (X : forall f s, reached dm p dur cap s ->
     execute dm (pile_next dm e g) dur q f s = execute dm pick dur q f s).
  { clear s H. induction f0 as [|f0 IH]; intros s H; rewrite !execute_S; destruct (is_goal s); auto.
    destruct (PK s H) as [a [E C]]. unfold pick at 1. rewrite E. cbn [bind].
    destruct C as [[-> NO]|[n [L [-> A]]]]; cbn [a_kind pile_time pile_start].
    - change (drawn dur pile_time) with (drawn dur time_act). rewrite pile_time_same.
      destruct (step_time dm p dur cap WK s q H Q) as [s1 [N [R1 _]]]. rewrite N. cbn [bind]. now apply IH.
    - destruct (step_start dm p dur cap WK s n _ q H L A Q) as [s1 [N [R1 _]]]. rewrite N.
      cbn [bind]. now apply IH. }
  now apply X.
Qed.

(** * MetaPolicy *)

Lemma execute_more : forall dm pick dur q f s e, execute dm pick dur q f s = Ok e ->
  forall f', (f <= f')%nat -> execute dm pick dur q f' s = Ok e.
Proof.
  intros dm pick dur q. induction f as [|f IH]; intros s e H f' L; rewrite execute_S in *;
    destruct (is_goal s); auto; [discriminate|].
  apply bind_ok in H. destruct H as [a [A H]]. apply bind_ok in H. destruct H as [s1 [N H]].
  destruct f' as [|f']; [lia|]. rewrite A. cbn [bind]. rewrite N. cbn [bind]. apply IH; auto. lia.
Qed.

Lemma execute_det : forall dm pick dur q f f' s e e', execute dm pick dur q f s = Ok e ->
  execute dm pick dur q f' s = Ok e' -> e = e'.
Proof.
  intros dm pick dur q f f' s e e' A B.
  pose proof (execute_more _ _ _ _ _ _ _ A (max f f') ltac:(lia)).
  pose proof (execute_more _ _ _ _ _ _ _ B (max f f') ltac:(lia)). congruence.
Qed.

(** Policies with the same modes reach the same states. *)
Lemma reached_same : forall dm p p' dur cap s, p_modes p = p_modes p' -> p_alloc p = p_alloc p' ->
  reached dm p dur cap s -> reached dm p' dur cap s.
Proof.
  intros dm p p' dur cap s M A H. unfold reached in *. eapply hist_weaken; [|exact H].
  intros s0 d q a [Q C]. split; auto. destruct C as [C|[n [L [[C1 C2] C3]]]]; auto.
  right. exists n. split; auto. split.
  - split; auto. unfold start_of in *. now rewrite <- M, <- A.
  - subst d. unfold lasts_for, mode_of. now rewrite M.
Qed.

Lemma work_same : forall dm p p' dur s, p_modes p = p_modes p' -> work dm p dur s = work dm p' dur s.
Proof.
  intros dm p p' dur s M. unfold work. apply sum_map_ext. intros k _. unfold left_of, lasts_for, mode_of.
  now rewrite M.
Qed.

Lemma terminal_goal : forall dm p dur cap s, workable dm p dur cap -> reached dm p dur cap s -> s_t s <= d_horizon dm ->
  is_terminal dm s = Ok (is_goal s).
Proof.
  intros dm p dur cap s WK H T.
  assert (A : all_tasks_possible dm s = Ok true).
  { unfold all_tasks_possible. apply allM_true. intros n I.
    assert (TN : In n (d_tasks dm)) by (apply (all_tasks dm p dur cap WK s H); unfold all_of; apply in_app_iff; auto).
    destruct (mode_D dm p dur cap WK n TN) as [m [_ [c [C1 [C2 _]]]]].
    unfold get_mode in C2. apply bind_ok in C2. destruct C2 as [ms [G1 G2]]. rewrite G1. cbn [bind].
    destruct ms as [|[m0 c0] ms]; [discriminate|]. cbn [some_mode].
    assert (MP : mode_possible dm s c0 = Ok true).
    { unfold mode_possible. apply allM_true. intros r R. destruct (d_renew dm) as [d|] eqn:RN; auto.
      pose proof (wk_renew _ _ _ _ WK r R) as RR. unfold is_renewable in RR. rewrite RN in RR.
      rewrite RR. reflexivity. }
    rewrite MP. reflexivity. }
  unfold is_terminal. rewrite A. cbn [bind negb]. f_equal.
  replace (d_horizon dm <? s_t s) with false by lia. reflexivity.
Qed.

Lemma episode_execute : forall dm p dur cap pick q, workable dm p dur cap -> diligent dm p dur cap pick ->
  (forall r t, q r t = cap r) ->
  forall f s e, reached dm p dur cap s -> is_goal s = false -> s_t s + work dm p dur s <= d_horizon dm ->
  execute dm pick dur q f s = Ok e -> episode dm pick dur q f s = Ok e.
Proof.
  intros dm p dur cap pick q WK DI Q. induction f as [|f IH]; intros s e H G T E; rewrite execute_S, G in E;
    [discriminate|]. cbn [episode].
  destruct (DI s H G) as [a [P C]]. rewrite P in *. cbn [bind] in *.
  assert (X : exists s1, next_state dm (drawn dur a) q s a = Ok s1 /\ reached dm p dur cap s1 /\
              s_t s1 + work dm p dur s1 <= d_horizon dm).
  { destruct C as [[-> O]|[n [L A]]].
    - destruct (step_time dm p dur cap WK s q H Q) as [s1 [N [R [T1 [_ [_ [W2 _]]]]]]]. exists s1.
      split; auto. split; auto. specialize (W2 O). lia.
    - destruct (step_start dm p dur cap WK s n a q H L A Q) as [s1 [N [R [T1 [W1 _]]]]]. exists s1.
      split; auto. split; auto. lia. }
  destruct X as [s1 [N [R T1]]]. rewrite N in *. cbn [bind] in *.
  pose proof (work_nonneg dm p dur cap WK s1 R).
  rewrite (terminal_goal dm p dur cap s1 WK R) by lia. cbn [bind]. rewrite orb_diag.
  destruct (is_goal s1) eqn:G1; [|now apply IH].
  rewrite execute_S, G1 in E. exact E.
Qed.

Lemma cheapest_spec : forall l x, exists c, In (c, cheapest x l) (x :: l) /\ forall y, In y (x :: l) -> c <= fst y.
Proof.
  unfold cheapest. induction l as [|y l IH]; intros x; cbn [fold_left].
  - exists (fst x). destruct x. split; [simpl; auto|]. intros y [<-|[]]. cbn. lia.
  - destruct (Z.ltb_spec (fst y) (fst x)).
    + destruct (IH y) as [c [I M]]. exists c. split; [simpl in *; tauto|]. intros z [<-|J].
      * specialize (M y (or_introl eq_refl)). lia.
      * now apply M.
    + destruct (IH x) as [c [I M]]. exists c. split; [simpl in *; tauto|]. intros z [<-|[<-|J]].
      * apply M. simpl; auto.
      * specialize (M x (or_introl eq_refl)). lia.
      * apply M. simpl; auto.
Qed.

Lemma estimate_repeat : forall dm pick dur q fuel st e, episode dm pick dur q fuel st = Ok e ->
  forall k, estimate dm pick (repeat dur k) q fuel st = Ok (Z.of_nat k * (s_t e - s_t st)).
Proof.
  intros dm pick dur q fuel st e E. induction k as [|k IH]; [reflexivity|].
  cbn [repeat estimate]. rewrite E. cbn [bind]. rewrite IH. cbn [bind]. f_equal. lia.
Qed.

Lemma mapM_pure : forall A B (f : A -> res B) (g : A -> B) l, (forall x, In x l -> f x = Ok (g x)) ->
  mapM f l = Ok (map g l).
Proof.
  intros A B f g. induction l as [|x l IH]; intros H; [reflexivity|]. cbn [mapM map].
  rewrite (H x (or_introl eq_refl)). cbn [bind]. rewrite IH by (intros; apply H; simpl; auto). reflexivity.
Qed.

Lemma combine_map : forall A B C (f : A -> B) (g : A -> C) l, combine (map f l) (map g l) = map (fun x => (f x, g x)) l.
Proof. intros A B C f g. induction l as [|x l IH]; [reflexivity|]. cbn. now rewrite IH. Qed.

Section Meta.
Variables (dm : domain) (dur : nat -> nat -> Z) (cap : nat -> Z) (q : nat -> Z -> Z) (ps : list policy) (p0 : policy).
Hypothesis P0 : In p0 ps.
Hypothesis WK : forall p, In p ps -> workable dm p dur cap.
Hypothesis CO : forall p, In p ps -> covers dm p.
Hypothesis MO : forall p, In p ps -> p_modes p = p_modes p0.
Hypothesis Q : forall r t, q r t = cap r.
Notation meas s := (Z.of_nat (length (s_remaining s)) + work dm p0 dur s).
Notation R0 := (reached dm p0 dur cap).

Lemma same_alloc : forall p, In p ps -> p_alloc p = p_alloc p0.
Proof. intros p I. now rewrite (wk_alloc _ _ _ _ (WK p I)), (wk_alloc _ _ _ _ (WK p0 P0)). Qed.

Lemma dil : forall p, In p ps -> diligent dm p dur cap (next_action dm p).
Proof. intros p I. apply sgs_diligent; auto. Qed.

Lemma base : forall p f s, In p ps -> R0 s -> meas s <= Z.of_nat f ->
  exists e, execute dm (next_action dm p) dur q f s = Ok e /\ s_t e <= s_t s + work dm p0 dur s.
Proof.
  intros p f s I H LE.
  assert (H' : reached dm p dur cap s) by (eapply reached_same; [| |exact H]; [symmetry; auto|symmetry; apply same_alloc; auto]).
  destruct (execute_diligent dm p dur cap (WK p I) (next_action dm p) q (dil p I) Q f s H') as [e [E [R [G L]]]].
  { rewrite (work_same dm p p0) by auto. exact LE. }
  exists e. split; auto. rewrite (work_same dm p p0 dur s) in L by auto.
  pose proof (work_nonneg dm p dur cap (WK p I) e R). lia.
Qed.

(** The action of the meta policy is that of one of the best policies. *)
Lemma meta_pick : forall k F s, R0 s -> is_goal s = false -> s_t s + work dm p0 dur s <= d_horizon dm ->
  meas s <= Z.of_nat F ->
  exists p a, In p ps /\ meta_next dm ps (repeat dur (S k)) q F s = Ok a /\ next_action dm p s = Ok a /\
    forall p' e e', In p' ps -> execute dm (next_action dm p) dur q F s = Ok e ->
      execute dm (next_action dm p') dur q F s = Ok e' -> s_t e <= s_t e'.
Proof.
  intros k F s H G T LE.
  assert (H' : forall p, In p ps -> reached dm p dur cap s).
  { intros p I. eapply reached_same; [| |exact H]; [symmetry; auto|symmetry; apply same_alloc; auto]. }
  assert (AE : forall p, In p ps -> exists a, next_action dm p s = Ok a).
  { intros p I. apply covers_ok with (dur := dur) (cap := cap); auto. }
  set (act := fun p => match next_action dm p s with Ok a => a | Err _ => time_act end).
  set (fin := fun p => match execute dm (next_action dm p) dur q F s with Ok e => s_t e | Err _ => 0 end).
  assert (A1 : mapM (fun p => next_action dm p s) ps = Ok (map act ps)).
  { apply mapM_pure. intros p I. destruct (AE p I) as [a E]. unfold act. now rewrite E. }
  assert (A2 : mapM (fun p => estimate dm (next_action dm p) (repeat dur (S k)) q F s) ps =
               Ok (map (fun p => Z.of_nat (S k) * (fin p - s_t s)) ps)).
  { apply mapM_pure. intros p I. destruct (base p F s I H LE) as [e [E _]]. unfold fin. rewrite E.
    apply estimate_repeat. eapply episode_execute; eauto using dil.
    now rewrite (work_same dm p p0) by auto. }
  unfold meta_next. rewrite A1. cbn [bind].
  destruct (Nat.ltb_spec 1 (length ps)) as [L|L].
  - rewrite A2. cbn [bind]. cbn [repeat]. rewrite combine_map.
    destruct (map (fun p => (Z.of_nat (S k) * (fin p - s_t s), act p)) ps) as [|x l] eqn:M.
    { destruct ps; [cbn in L; lia|discriminate]. }
    destruct (cheapest_spec l x) as [c [I1 I2]]. rewrite <- M in I1, I2.
    apply in_map_iff in I1. destruct I1 as [p [E I1]].
    assert (E1 := f_equal fst E). assert (E2 := f_equal snd E). cbn [fst snd] in E1, E2. clear E.
    exists p, (act p). split; auto. split; [now rewrite E2|]. split.
    + destruct (AE p I1) as [a E]. unfold act. now rewrite E.
    + intros p' e e' I' X X'. specialize (I2 _ (in_map _ _ _ I')). cbn [fst] in I2. subst c.
      unfold fin in I2. rewrite X, X' in I2. apply Z.mul_le_mono_pos_l in I2; lia.
  - destruct ps as [|p [|p2 l]]; [destruct P0| |cbn in L; lia].
    exists p, (act p). split; [simpl; auto|]. split; [reflexivity|]. split.
    + destruct (AE p (or_introl eq_refl)) as [a E]. unfold act. now rewrite E.
    + intros p' e e' [<-|[]] X X'. rewrite X in X'. injection X' as <-. lia.
Qed.

Lemma meta_execute : forall k F f s, R0 s -> s_t s + work dm p0 dur s <= d_horizon dm ->
  meas s <= Z.of_nat F -> meas s <= Z.of_nat f ->
  exists s', execute dm (meta_next dm ps (repeat dur (S k)) q F) dur q f s = Ok s' /\ R0 s' /\ is_goal s' = true /\
    forall p e, In p ps -> execute dm (next_action dm p) dur q F s = Ok e -> s_t s' <= s_t e.
Proof.
  intros k F. induction f as [|f IH]; intros s H T LE LF; rewrite execute_S; destruct (is_goal s) eqn:G.
  1,3: (exists s; split; auto; split; auto; split; auto; intros p e I E; rewrite execute_S, G in E;
        injection E as <-; lia).
  - exfalso. pose proof (base p0 0 s P0 H LF) as [e [E _]]. rewrite execute_S, G in E. discriminate.
  - destruct (meta_pick k F s H G T LE) as [p [a [I [-> [A M]]]]]. cbn [bind].
    assert (H' : reached dm p dur cap s).
    { eapply reached_same; [| |exact H]; [symmetry; auto|symmetry; apply same_alloc; auto]. }
    assert (X : exists s1, next_state dm (drawn dur a) q s a = Ok s1 /\ reached dm p dur cap s1 /\
              s_t s1 + work dm p dur s1 <= s_t s + work dm p dur s /\
              Z.of_nat (length (s_remaining s1)) + work dm p dur s1 < Z.of_nat (length (s_remaining s)) + work dm p dur s).
    { destruct (dil p I s H' G) as [b [B C]]. assert (b = a) by congruence. subst b.
      destruct C as [[-> O]|[n [L AC]]].
      - destruct (step_time dm p dur cap (WK p I) s q H' Q) as [s1 [N [R [T1 [RM [_ [W2 _]]]]]]]. exists s1.
        split; auto. split; auto. specialize (W2 O). rewrite RM. lia.
      - destruct (step_start dm p dur cap (WK p I) s n a q H' L AC Q) as [s1 [N [R [T1 [W1 [LN _]]]]]]. exists s1.
        split; auto. split; auto. lia. }
    destruct X as [s1 [N [R [T1 M1]]]]. rewrite N. cbn [bind].
    rewrite !(work_same dm p p0) in T1, M1 by auto.
    assert (R' : R0 s1) by (eapply reached_same; [| |exact R]; [auto|apply same_alloc; auto]).
    destruct (IH s1 R') as [s' [E [RE [GE LEQ]]]]; try lia.
    exists s'. split; auto. split; auto. split; auto. intros p' e' I' E'.
    destruct (base p F s I H LE) as [e [EE _]].
    apply Z.le_trans with (s_t e); [|eapply M; eauto].
    apply (LEQ p e I). rewrite execute_S, G in EE. destruct F as [|F]; [discriminate|].
    rewrite A in EE. cbn [bind] in EE. rewrite N in EE. cbn [bind] in EE.
    eapply execute_more; eauto.
Qed.
End Meta.

(** * The policy made from a solution *)

Lemma insert_by_perm : forall le x l, Permutation (x :: l) (insert_by le x l).
Proof.
  intros le x. induction l as [|y l IH]; cbn; [auto|]. destruct (le x y); auto.
  eapply perm_trans; [apply perm_swap|]. now constructor.
Qed.

Lemma sort_by_perm : forall le l, Permutation l (sort_by le l).
Proof.
  intros le. induction l as [|x l IH]; cbn; [auto|].
  eapply perm_trans; [|apply insert_by_perm]. now constructor.
Qed.

Lemma sort_by_sorted : forall le, (forall x y, le x y = false -> le y x = true) ->
  (forall x y z, le x y = true -> le y z = true -> le x z = true) ->
  forall l, StronglySorted (fun x y => le x y = true) (sort_by le l).
Proof.
  intros le TO TR. induction l as [|x l IH]; cbn; [constructor|].
  assert (G : forall m, StronglySorted (fun x y => le x y = true) m ->
              StronglySorted (fun x y => le x y = true) (insert_by le x m)).
  { induction m as [|y m IHm]; cbn; intros S; [repeat constructor|].
    inversion S; subst. destruct (le x y) eqn:E.
    - constructor; auto. constructor; auto. rewrite Forall_forall in *. intros z I. eapply TR; eauto.
    - constructor; auto. rewrite Forall_forall in *. intros z I.
      apply (Permutation_in _ (Permutation_sym (insert_by_perm le x m))) in I. destruct I as [<-|I]; auto. }
  auto.
Qed.

Lemma sort_dates : forall (sch : list (nat * Z)),
  StronglySorted (fun x y => forall a b, dget sch x = Some a -> dget sch y = Some b -> a < b \/ (a = b /\ (x <= y)%nat))
    (sort_by (start_le sch) (dkeys sch)).
Proof.
  intros sch. set (val := fun n => match dget sch n with Some a => a | None => 0 end).
  set (le := fun x y => (val x <? val y) || ((val x =? val y) && Nat.leb x y)).
  assert (KE : forall n, In n (dkeys sch) -> exists a, dget sch n = Some a).
  { intros n I. now apply key_dget. }
  assert (EQ : forall l, incl l (dkeys sch) -> sort_by (start_le sch) l = sort_by le l).
  { assert (II : forall x l, incl (x :: l) (dkeys sch) -> insert_by (start_le sch) x l = insert_by le x l).
    { intros x. induction l as [|y l IH]; intros IN; [reflexivity|]. cbn [insert_by].
      assert (E : start_le sch x y = le x y).
      { unfold start_le, le, val. destruct (KE x) as [a ->]; [apply IN; simpl; auto|].
        destruct (KE y) as [b ->]; [apply IN; simpl; auto|]. reflexivity. }
      rewrite E. rewrite IH; [reflexivity|]. intros z [<-|J]; apply IN; simpl; auto. }
    induction l as [|x l IH]; intros IN; [reflexivity|].
    change (sort_by (start_le sch) (x :: l)) with (insert_by (start_le sch) x (sort_by (start_le sch) l)).
    change (sort_by le (x :: l)) with (insert_by le x (sort_by le l)).
    rewrite IH by (intros z J; apply IN; simpl; auto). apply II.
    intros z [<-|J]; [apply IN; simpl; auto|].
    apply (Permutation_in _ (Permutation_sym (sort_by_perm le l))) in J. apply IN. simpl; auto. }
  rewrite EQ by apply incl_refl.
  assert (S : StronglySorted (fun x y => le x y = true) (sort_by le (dkeys sch))).
  { apply sort_by_sorted; unfold le; intros.
    - apply orb_false_iff in H. destruct H as [H1 H2]. apply orb_true_iff.
      destruct (Z.eqb_spec (val x) (val y)).
      + right. cbn [andb] in H2. apply andb_true_iff. split; [lia|]. apply Nat.leb_le. apply Nat.leb_gt in H2. lia.
      + left. lia.
    - rewrite orb_true_iff, andb_true_iff in *. rewrite Nat.leb_le in *. lia. }
  revert S. generalize (sort_by le (dkeys sch)). induction 1; constructor; auto.
  rewrite Forall_forall in *. intros y I b c E1 E2. specialize (H y I). unfold le, val in H.
  rewrite E1, E2 in H. rewrite orb_true_iff, andb_true_iff, Nat.leb_le in H. lia.
Qed.

Lemma modes_from_get : forall l i d j, dget (modes_from i l d) j =
  if (i <=? j)%nat && (j <? i + length l)%nat then nth_error l (j - i) else dget d j.
Proof.
  induction l as [|m l IH]; intros i d j; cbn [modes_from length].
  - replace ((i <=? j)%nat && (j <? i + 0)%nat) with false; [reflexivity|].
    symmetry. apply andb_false_iff. destruct (Nat.le_gt_cases i j); [right|left]; [apply Nat.ltb_ge|apply Nat.leb_gt]; lia.
  - rewrite IH. rewrite dget_dset. destruct (pyeqb_spec i j) as [E|N].
    + subst j. replace (S i <=? i)%nat with false by (symmetry; apply Nat.leb_gt; lia). cbn [andb].
      replace (i <=? i)%nat with true by (symmetry; apply Nat.leb_le; lia).
      replace (i <? i + S (length l))%nat with true by (symmetry; apply Nat.ltb_lt; lia).
      cbn [andb]. now rewrite Nat.sub_diag.
    + replace (i + S (length l))%nat with (S i + length l)%nat by lia.
      destruct (Nat.leb_spec (S i) j) as [L|L].
      * replace (i <=? j)%nat with true by (symmetry; apply Nat.leb_le; lia). cbn [andb].
        replace (j - i)%nat with (S (j - S i))%nat by lia. reflexivity.
      * replace (i <=? j)%nat with false by (symmetry; apply Nat.leb_gt; lia). reflexivity.
Qed.
