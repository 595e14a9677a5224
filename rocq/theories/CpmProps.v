(** Properties C56, C57, C58: the critical path method and its two schedule generators (cpm.py).
    The vocabulary is in CpmSpec.v. *)
From Coq Require Import String.
From Coq Require Import List Bool Arith ZArith Lia Permutation.
From Verif Require Import Py PyList PyMore SgsModel CpmModel CpmSpec CpmProofs CpmSgsProofs CpmTotalProofs CpmLoopProofs CpmCheck.
Import ListNotations.

(** The earliest start, if the method found one. *)
Definition esd (mp : list (nat * dates)) (a : nat) (x : Z) : Prop := exists d, dget mp a = Some d /\ d_es d = Some x.
Definition lsd (mp : list (nat * dates)) (a : nat) (x : Z) : Prop := exists d, dget mp a = Some d /\ d_ls d = Some x.

(** * C56: dates and critical path *)

(** The run succeeds and sets the four dates of every task; the earliest starts are the least plan, the
    latest starts the greatest one among those that end with the earliest plan. *)
Theorem C56_dates : forall p g, project p -> networkx p g ->
  exists mp path es ls h, run_cpm p g = Ok (mp, path) /\ dkeys mp = n_nodes g /\
    (forall a d, task p a -> shortest p a d ->
       dget mp a = Some (Dates (Some (es a)) (Some (es a + d)) (Some (ls a)) (Some (ls a + d)))%Z) /\
    plan p es /\ (forall s, plan p s -> forall a, task p a -> (es a <= s a)%Z) /\
    (exists d, shortest p (length (p_modes p)) d /\ h = es (length (p_modes p)) + d)%Z /\
    over_by p es h /\ (forall s h', plan p s -> over_by p s h' -> (h <= h')%Z) /\
    plan p ls /\ over_by p ls h /\ (forall s, plan p s -> over_by p s h -> forall a, task p a -> (s a <= ls a)%Z).
Proof.
  intros p g P N. destruct (cpm_runs p g P N) as [mp [path [R [K [D _]]]]].
  exists mp, path, (E p g), (L p g), (M p g). split; auto. split; auto.
  assert (Ts : task p (length (p_modes p))) by (pose proof (pr_some _ P); unfold task; lia).
  assert (OV : over_by p (E p g) (M p g)).
  { intros a d T S. rewrite (shortest_unique _ _ _ _ S (proj2 (dur_ok p g P N a T))).
    pose proof (E_le_L p g P N a T). pose proof (L_over p g P N a T). lia. }
  split; [|split; [|split; [|split; [|split; [|split; [|split; [|split]]]]]]]; auto.
  - intros a d T S. rewrite (shortest_unique _ _ _ _ S (proj2 (dur_ok p g P N a T))). auto.
  - now apply E_plan.
  - intros s S a T. now apply (E_least p g P N).
  - exists (dur p (length (p_modes p))). split; [now apply (dur_ok p g P N)|reflexivity].
  - intros s h' S O. pose proof (E_least p g P N s S _ Ts). specialize (O _ _ Ts (proj2 (dur_ok p g P N _ Ts))).
    unfold M. cbn zeta. lia.
  - now apply L_plan.
  - intros a d T S. rewrite (shortest_unique _ _ _ _ S (proj2 (dur_ok p g P N a T))). now apply L_over.
  - intros s S O a T. now apply (L_greatest p g P N).
Qed.
Print Assumptions C56_dates.

(** The critical path leads from the first task to the last one along precedences and only visits tasks
    without slack. *)
Theorem C56_critical_path : forall p g mp path, project p -> networkx p g -> run_cpm p g = Ok (mp, path) ->
  chain p path /\ hd_error path = Some 1 /\ last path 0 = length (p_modes p) /\
  forall a, In a path -> task p a /\ exists x, esd mp a x /\ lsd mp a x.
Proof.
  intros p g mp path P N R. destruct (cpm_runs p g P N) as [mp' [path' [R' [K [D [C1 [C2 [C3 C4]]]]]]]].
  rewrite R in R'. injection R' as <- <-. split; auto. split; auto. split; auto. intros a I.
  destruct (C4 a I) as [T Q]. split; auto. exists (E p g a).
  split; eexists; (split; [apply (D a T)|cbn [d_es d_ls]; now rewrite <- ?Q]).
Qed.
Print Assumptions C56_critical_path.

(** The earliest start of a task is a lower bound on its start in every schedule that respects the
    precedences, whatever the modes. *)
Theorem C56_lower_bound : forall p g mp path (start len : nat -> Z), project p -> networkx p g ->
  run_cpm p g = Ok (mp, path) ->
  (forall a, task p a -> (0 <= start a)%Z /\ exists m, has_mode p a m /\ len a = Z.of_nat (m_duration m)) ->
  (forall a b, edge p a b -> (start a + len a <= start b)%Z) ->
  forall a x, task p a -> esd mp a x -> (x <= start a)%Z.
Proof.
  intros p g mp path start len P N R H Pr a x T [d [D1 D2]].
  destruct (cpm_runs p g P N) as [mp' [path' [R' [K [D _]]]]]. rewrite R in R'. injection R' as <- <-.
  rewrite (D a T) in D1. injection D1 as <-. cbn [d_es] in D2. injection D2 as <-. apply (E_least p g P N); auto. split.
  - intros b Tb. now apply H.
  - intros b c dd Ed [_ S]. specialize (Pr b c Ed). destruct (pr_edges _ P _ _ Ed) as [Tb _].
    destruct (H b Tb) as [_ [m [M1 M2]]]. specialize (S m M1). lia.
Qed.
Print Assumptions C56_lower_bound.

(** A plan that ends with the earliest plan starts every task of the critical path at its earliest date. *)
Theorem C56_critical_rigid : forall p g mp path s h e, project p -> networkx p g -> run_cpm p g = Ok (mp, path) ->
  plan p s -> over_by p s h -> esd mp (length (p_modes p)) e ->
  (forall d, shortest p (length (p_modes p)) d -> h = e + d)%Z ->
  forall a x, In a path -> esd mp a x -> s a = x.
Proof.
  intros p g mp path s h e P N R S O [de [De1 De2]] H a x I [d [D1 D2]].
  destruct (cpm_runs p g P N) as [mp' [path' [R' [K [D [_ [_ [_ C4]]]]]]]]. rewrite R in R'. injection R' as <- <-.
  destruct (C4 a I) as [T Q]. rewrite (D a T) in D1. injection D1 as <-. cbn [d_es] in D2. injection D2 as <-.
  assert (Ts : task p (length (p_modes p))) by (pose proof (pr_some _ P); unfold task; lia).
  rewrite (D _ Ts) in De1. injection De1 as <-. cbn [d_es] in De2. injection De2 as <-.
  assert (HM : h = M p g) by (apply H; now apply (dur_ok p g P N)). subst h.
  pose proof (E_least p g P N s S a T). pose proof (L_greatest p g P N s S O a T). lia.
Qed.
Print Assumptions C56_critical_rigid.

(** ** A project of five tasks *)
Definition work d n := Mode d [("r"%string, n)].
Definition house (h : nat) := Rcpsp (Constant [("r"%string, 2%Z)]) []
  [(1, [(1, work 0 0)]); (2, [(1, work 3 1); (2, work 5 1)]); (3, [(1, work 1 2)]); (4, [(1, work 1 1)]); (5, [(1, work 0 0)])]
  [(1, [2; 3; 4]); (2, [5]); (3, [4]); (4, [5])] h 1.
Lemma house_ok : forall h, project (house h) /\ networkx (house h) (nx_of (house h)).
Proof. intros h. apply check_project. reflexivity. Qed.
Definition on_order (p : rcpsp) (o : option (list nat)) (cut : bool) :=
  match run_cpm p (nx_of p) with Ok (mp, cr) => run_sgs_on_order p (nx_of p) mp cr o cut | Err e => Err e end.
Definition in_time (fuel : nat) (p : rcpsp) (o : option (list nat)) :=
  match run_cpm p (nx_of p) with Ok (mp, cr) => run_sgs_time_loop fuel p (nx_of p) mp cr o | Err e => Err e end.

Definition at_dates (a b c d : Z) := Dates (Some a) (Some b) (Some c) (Some d).
Example C56_dates_ex : project (house 10) /\ networkx (house 10) (nx_of (house 10)) /\
  run_cpm (house 10) (nx_of (house 10)) =
  Ok ([(1, at_dates 0 0 0 0); (2, at_dates 0 3 0 3);
       (3, at_dates 0 1 1 2); (4, at_dates 1 2 2 3);
       (5, at_dates 3 3 3 3)], [1; 2; 5]).
Proof. split; [apply house_ok|]. split; [apply house_ok|reflexivity]. Qed.
Example C56_lower_bound_ex :
  (forall a b, edge (house 10) a b -> (Z.of_nat a * 5 + 5 <= Z.of_nat b * 5)%Z) /\ esd [(4, Dates (Some 1%Z) None None None)] 4 1%Z.
Proof.
  split; [|eexists; split; reflexivity]. intros a b H. apply (edge_up (house 10) eq_refl) in H. lia.
Qed.
Example C56_critical_rigid_ex : plan (house 10) (fun a => nth a [0; 0; 0; 1; 2; 3]%Z 0%Z) /\
  over_by (house 10) (fun a => nth a [0; 0; 0; 1; 2; 3]%Z 0%Z) 3%Z.
Proof.
  assert (S : forall a d, shortest (house 10) a d -> a = 2 /\ d = 3%Z \/ (a = 3 \/ a = 4) /\ d = 1%Z \/ (a = 1 \/ a = 5) /\ d = 0%Z).
  { intros a d [[m [[l [k [H1 H2]]] ->]] H3]. cbn in H1.
    destruct (Nat.eqb_spec a 1) as [->|_]; [injection H1 as <-; destruct H2 as [H2|[]]; injection H2 as _ <-; cbn; auto|].
    destruct (Nat.eqb_spec a 2) as [->|_]; [injection H1 as <-|].
    { destruct H2 as [H2|[H2|[]]]; injection H2 as _ <-; cbn in *; auto.
      specialize (H3 (work 3 1)). cbn in H3. exfalso. enough (5 <= 3)%Z by lia. apply H3.
      eexists _, 1. split; [reflexivity|now left]. }
    destruct (Nat.eqb_spec a 3) as [->|_]; [injection H1 as <-; destruct H2 as [H2|[]]; injection H2 as _ <-; cbn; auto|].
    destruct (Nat.eqb_spec a 4) as [->|_]; [injection H1 as <-; destruct H2 as [H2|[]]; injection H2 as _ <-; cbn; auto|].
    destruct (Nat.eqb_spec a 5) as [->|_]; [injection H1 as <-; destruct H2 as [H2|[]]; injection H2 as _ <-; cbn; auto 6|discriminate]. }
  split; [split|].
  - intros a [T1 T2]. cbn in T2. do 6 (destruct a as [|a]; [cbn; lia|]). lia.
  - intros a b d Ed H. apply S in H. apply edge_succs in Ed. unfold succs in Ed.
    destruct H as [[-> ->]|[[[->| ->] ->]|[[->| ->] ->]]]; cbn in Ed; intuition; subst; cbn; lia.
  - intros a d _ H. apply S in H. destruct H as [[-> ->]|[[[->| ->] ->]|[[->| ->] ->]]]; cbn; lia.
Qed.

(** ** What does not hold *)

(** The critical path need not be a longest one: a precedence from the first task to the last suffices
    to hide the tasks in between. *)
Definition shortcut := Rcpsp (Constant [("r"%string, 2%Z)]) []
  [(1, [(1, work 0 0)]); (2, [(1, work 3 1)]); (3, [(1, work 0 0)])] [(1, [2; 3]); (2, [3])] 10 1.
Theorem C56_longest_refuted : exists p g mp path, project p /\ networkx p g /\ run_cpm p g = Ok (mp, path) /\
  esd mp (length (p_modes p)) 3 /\ path = [1; 3] /\ shortest p 1 0 /\ shortest p 3 0.
Proof.
  destruct (check_project shortcut eq_refl) as [P N]. exists shortcut, (nx_of shortcut).
  do 2 eexists. split; [exact P|]. split; [exact N|]. split; [vm_compute; reflexivity|].
  split; [eexists; split; reflexivity|]. split; [reflexivity|]. split.
  - split.
    + exists (work 0 0). split; [|reflexivity]. eexists _, 1. split; [reflexivity|now left].
    + intros m [l [k [H1 H2]]]. cbn in H1. injection H1 as <-. destruct H2 as [H2|[]]. injection H2 as _ <-. cbn. lia.
  - split.
    + exists (work 0 0). split; [|reflexivity]. eexists _, 1. split; [reflexivity|now left].
    + intros m [l [k [H1 H2]]]. cbn in H1. injection H1 as <-. destruct H2 as [H2|[]]. injection H2 as _ <-. cbn. lia.
Qed.
Print Assumptions C56_longest_refuted.

(** A task that is not before the last one, or not after the first one, makes the method fail. *)
Definition loose := Rcpsp (Constant [("r"%string, 2%Z)]) []
  [(1, [(1, work 0 0)]); (2, [(1, work 3 1)]); (3, [(1, work 1 1)]); (4, [(1, work 0 0)])] [(1, [2; 3]); (2, [4])] 10 1.
Definition two_roots := Rcpsp (Constant [("r"%string, 2%Z)]) []
  [(1, [(1, work 0 0)]); (2, [(1, work 3 1)]); (3, [(1, work 1 1)]); (4, [(1, work 0 0)])] [(1, [3]); (2, [4]); (3, [4])] 10 1.
Theorem C56_loose_task_refuted :
  (exists p g, networkx p g /\ (forall a, ~ path p a a) /\ (forall a, task p a -> a <> 1 -> path p 1 a) /\ run_cpm p g = Err IndexError) /\
  (exists p g, networkx p g /\ (forall a, ~ path p a a) /\
     (forall a, task p a -> a <> length (p_modes p) -> path p a (length (p_modes p))) /\ run_cpm p g = Err IndexError).
Proof.
  split.
  - exists loose, (nx_of loose). split; [now apply nx_of_ok|]. split; [intros a H; apply (path_up loose eq_refl) in H; lia|].
    split; [|reflexivity]. intros a [T1 T2] NE. cbn in T2. apply (reachb_path loose 4).
    do 5 (destruct a as [|a]; [try lia; try reflexivity|]). lia.
  - exists two_roots, (nx_of two_roots). split; [now apply nx_of_ok|].
    split; [intros a H; apply (path_up two_roots eq_refl) in H; lia|].
    split; [|reflexivity]. intros a [T1 T2] NE. cbn in T2, NE. apply (reachb_path two_roots 4).
    do 5 (destruct a as [|a]; [try lia; try reflexivity|]). lia.
Qed.
Print Assumptions C56_loose_task_refuted.

(** * C57: schedules built along an order *)

Lemma runs : forall p g mp cr, project p -> networkx p g -> run_cpm p g = Ok (mp, cr) ->
  dkeys mp = n_nodes g /\
  (forall n, task p n -> dget mp n = Some (Dates (Some (E p g n)) (Some (E p g n + dur p n)%Z) (Some (L p g n)) (Some (L p g n + dur p n)%Z))) /\
  chain p cr /\ last cr 0 = length (p_modes p) /\ cr <> [] /\ (forall x, In x cr -> task p x).
Proof.
  intros p g mp cr P N R. destruct (cpm_runs p g P N) as [mp' [cr' [R' [K [D [C1 [C2 [C3 C4]]]]]]]].
  rewrite R in R'. injection R' as <- <-. split; auto. split; auto. split; auto. split; auto. split; [intros ->; discriminate|].
  intros x X. now apply C4.
Qed.

Lemma order_nd : forall p g mp, networkx p g -> dkeys mp = n_nodes g -> NoDup (order_cpm mp).
Proof.
  intros p g mp N K. unfold order_cpm. rewrite <- ssort_perm, K. apply (nx_nodes_nd _ _ N).
Qed.

Lemma report_ok : forall cr v sch, report cr v = Ok sch -> cr <> [] -> sch = v_sched v /\ In (last cr 0) (dkeys (v_sched v)).
Proof.
  intros cr v sch H NE. unfold report in H. destruct (forallb _ _); [|discriminate]. destruct cr as [|x l]; [congruence|].
  apply bind_ok in H. destruct H as [se [H1 H2]]. injection H2 as <-. split; auto. apply dgetE_some in H1.
  apply (proj2 (dget_keys _ _ _ _)). eauto.
Qed.

(** The schedule that is returned is feasible in the modes numbered 1, contains every task exactly once
    and starts no task before its earliest date. *)
Theorem C57_feasible : forall p g mp cr order cut sch, project p -> networkx p g -> run_cpm p g = Ok (mp, cr) ->
  (forall o, order = Some o -> NoDup o) -> run_sgs_on_order p g mp cr order cut = Ok sch ->
  feasible p sch /\ Permutation (map fst sch) (seq 1 (length (p_modes p))) /\
  forall a s e x, In (a, (s, e)) sch -> esd mp a x -> (x <= Z.of_nat s)%Z.
Proof.
  intros p g mp cr order cut sch P N R NDO H. destruct (runs p g mp cr P N R) as [K [D [C1 [C2 [C3 C4]]]]].
  unfold run_sgs_on_order in H. set (total := match order with Some o => o | None => order_cpm mp end) in H.
  assert (NDT : NoDup total) by (unfold total; destruct order as [o|]; [now apply NDO|now apply (order_nd p g)]).
  apply bind_ok in H. destruct H as [mins [M H]]. destruct (min_times_ok mp mins M) as [MK ME].
  set (v0 := Vars (cpm_avail p) mins [] [] []) in H.
  assert (KT : forall x, In x (dkeys (v_min v0)) -> task p x).
  { cbn [v0 v_min]. intros x X. rewrite MK, K in X. now apply (node_task p g P N). }
  assert (G : exists v, inv p v /\ early mins v /\ report cr v = Ok sch).
  { destruct cut.
    - destruct cr as [|c0 cr0]; [congruence|]. apply bind_ok in H. destruct H as [v [H1 H2]].
      destruct (by_critical_ok p g P N mins total (c0 :: cr0) v0 v None) as [A B]; auto.
      + apply inv_start.
      + apply early_start.
      + cbn. reflexivity.
      + exists v. auto.
    - apply bind_ok in H. destruct H as [v [H1 H2]].
      destruct (fill_ok p g P N mins (length total) total v0 v) as [A [B _]]; auto.
      + apply inv_start.
      + apply early_start.
      + exists v. auto. }
  destruct G as [v [G1 [G2 G3]]]. destruct (report_ok cr v sch G3 C3) as [-> SK]. split; [now apply inv_feasible|]. split.
  - apply all_scheduled; auto. apply (i_done _ _ G1). rewrite <- C2. exact SK.
  - intros a s e x I [d [D1 D2]]. destruct (proj2 G2 a s e I) as [y [Y1 Y2]]. destruct (ME a y Y1) as [d' [x' [Z1 [Z2 ->]]]].
    rewrite D1 in Z1. injection Z1 as <-. rewrite D2 in Z2. injection Z2 as <-. lia.
Qed.
Print Assumptions C57_feasible.

(** With constant resources, when every task fits alone and the tasks one after the other end before the
    horizon, a schedule is returned, and it is not longer than the tasks one after the other. *)
Theorem C57_complete : forall p g mp cr order cut, project p -> networkx p g -> run_cpm p g = Ok (mp, cr) ->
  roomy p -> one_by_one p < p_horizon p ->
  (forall o, order = Some o -> Permutation o (seq 1 (length (p_modes p)))) ->
  exists sch, run_sgs_on_order p g mp cr order cut = Ok sch /\
    forall a s e, In (a, (s, e)) sch -> e <= one_by_one p.
Proof.
  intros p g mp cr order cut P N R [caps [CAPS ALONE]] ROOM PERM. destruct (runs p g mp cr P N R) as [K [D [C1 [C2 [C3 C4]]]]].
  unfold run_sgs_on_order. set (total := match order with Some o => o | None => order_cpm mp end).
  assert (TOT : NoDup total /\ forall a, In a total <-> task p a).
  { unfold total. destruct order as [o|].
    - specialize (PERM o eq_refl). split.
      + eapply Permutation_NoDup; [symmetry; exact PERM|apply seq_NoDup].
      + intros a. rewrite PERM, in_seq. unfold task. lia.
    - split; [now apply (order_nd p g)|]. intros a. unfold order_cpm. rewrite <- ssort_perm, K. apply (node_task p g P N). }
  destruct TOT as [NDT INT].
  destruct (mins_exist p g mp P N K D) as [mins [MI [MK MINS]]]. rewrite MI. cbn [bind].
  set (v0 := Vars (cpm_avail p) mins [] [] []).
  assert (G0 : good p g mins v0).
  { constructor; [apply inv_start|apply early_start|cbn [v0 v_min]; congruence|reflexivity|intros a s e []]. }
  assert (FIN : forall v, good p g mins v -> In (length (p_modes p)) (v_done v) ->
    report cr v = Ok (v_sched v) /\ forall a s e, In (a, (s, e)) (v_sched v) -> e <= one_by_one p).
  { intros v G S. split.
    - unfold report. rewrite (g_lost _ _ _ _ G). cbn [forallb]. destruct cr as [|c0 cr0]; [congruence|]. rewrite C2.
      unfold dgetE. apply (i_done _ _ (g_inv _ _ _ _ G)) in S. apply (proj1 (dget_keys _ _ (v_sched v) _)) in S.
      destruct S as [se S]. rewrite S. reflexivity.
    - intros a s e I. apply (g_end _ _ _ _ G) in I. pose proof (spent_le p v (g_inv _ _ _ _ G)). lia. }
  destruct cut.
  - destruct cr as [|c0 cr0]; [congruence|].
    destruct (by_critical_total p g P N caps CAPS ALONE ROOM mins MINS total (fun a T => proj2 (INT a) T) (c0 :: cr0) v0 None) as [v [V1 [V2 [V3 _]]]]; auto; try (intros a b []; fail); try reflexivity.
    + rewrite V1. cbn [bind]. destruct (FIN v V2) as [A B].
      * apply V3. rewrite <- C2. clear. revert c0. induction cr0 as [|y l IH]; intros x; [now left|]. right. apply IH.
      * eauto.
  - destruct (fill_total p g P N caps CAPS ALONE ROOM mins MINS (length total) total v0) as [v [V1 [V2 V3]]]; auto.
    + intros x X. split; [now apply INT|intros []].
    + intros a x X Ed. right. apply INT. now apply (pr_edges _ P) in Ed.
    + rewrite V1. cbn [bind]. destruct (FIN v V2) as [A B]; [|eauto]. apply V3. right. apply INT.
      pose proof (pr_some _ P). unfold task. lia.
Qed.
Print Assumptions C57_complete.

(** It always ends, on any input: with a schedule or with an exception. *)
Definition ends {A} (r : res A) : Prop := r <> Err OutOfFuel.
Lemma ends_bind : forall A B (r : res A) (k : A -> res B), ends r -> (forall x, r = Ok x -> ends (k x)) -> ends (bind r k).
Proof. intros A B r k H K. destruct r as [x|e]; [apply K; auto|]. intros Q. apply H. cbn in Q. congruence. Qed.
Lemma ends_foldM : forall A B (f : B -> A -> res B) l b, (forall b x, ends (f b x)) -> ends (foldM f b l).
Proof.
  intros A B f. induction l as [|x l IH]; intros b H; [discriminate|]. cbn [foldM]. apply ends_bind; auto.
Qed.
Lemma ends_mapM : forall A B (f : A -> res B) l, (forall x, ends (f x)) -> ends (mapM f l).
Proof.
  intros A B f. induction l as [|x l IH]; intros H; [discriminate|]. cbn [mapM]. apply ends_bind; auto. intros y _.
  apply ends_bind; auto. discriminate.
Qed.
Lemma ends_dgetE : forall K V {EK : PyEq K} (d : list (K * V)) k, ends (dgetE d k).
Proof. intros. unfold dgetE. destruct (dget d k); discriminate. Qed.
Lemma ends_lget : forall A (l : list A) i, ends (lget l i).
Proof. intros. unfold lget. destruct (nth_error l i); discriminate. Qed.
Lemma ends_row : forall h row n ts, ends n -> ends (row_ok h row n ts).
Proof.
  intros h row n ts H. induction ts as [|t ts IH]; [discriminate|]. cbn [row_ok]. apply ends_bind; [apply ends_lget|].
  intros x _. apply ends_bind; auto. intros k _. destruct (x <? k)%Z; [destruct (t <? h); discriminate|auto].
Qed.
Lemma ends_allM : forall A (f : A -> res bool) l, (forall x, ends (f x)) -> ends (allM f l).
Proof.
  intros A f. induction l as [|x l IH]; intros H; [discriminate|]. cbn [allM]. apply ends_bind; auto. intros [|] _; [auto|discriminate].
Qed.
Lemma ends_place : forall p g j m t v, ends (place p g j m t v).
Proof.
  intros. unfold place. apply ends_bind.
  - apply ends_mapM. intros kv. destruct (seq t (m_duration m)); [discriminate|]. apply ends_bind; [apply ends_dgetE|]. intros k _.
    apply ends_bind; [|discriminate]. apply ends_foldM. intros b x. apply ends_bind; [apply ends_lget|]. intros y _.
    destruct ((0 <? k)%Z && negb (x <? p_horizon p)); discriminate.
  - intros av _. apply ends_bind; [|discriminate]. apply ends_foldM. intros b x. apply ends_bind; [apply ends_dgetE|discriminate].
Qed.
Lemma ends_fill : forall fuel p g ll v, length ll <= fuel -> ends (fill fuel p g ll v).
Proof.
  induction fuel as [|fuel IH]; intros p g ll v H; destruct ll as [|y l]; try discriminate; [cbn in H; lia|].
  cbn [fill]. set (ll := y :: l) in *. destruct (find _ ll) as [j|] eqn:F; [|discriminate]. apply find_some in F. destruct F as [F _].
  apply ends_bind; [apply ends_dgetE|]. intros x _. apply ends_bind.
  { unfold first_mode. apply ends_bind; [apply ends_dgetE|intros; apply ends_dgetE]. }
  intros m _. apply ends_bind.
  { generalize (seq x (p_horizon p - x)). induction l0 as [|t ts IHt]; [discriminate|]. cbn [first_fit]. apply ends_bind.
    - apply ends_allM. intros kv. apply ends_row, ends_dgetE.
    - intros [|] _; [discriminate|auto]. }
  intros t _. apply ends_bind; [destruct t; [apply ends_place|discriminate]|]. intros v' _. apply IH.
  assert (LR : length (pyremove j ll) < length ll); [|lia]. clear -F. revert F. generalize ll.
  induction ll0 as [|z l0 IHl]; intros X; [destruct X|]. cbn [pyremove]. destruct (pyeqb_spec j z) as [->|NE]; [cbn; lia|].
  destruct X as [X|X]; [congruence|]. specialize (IHl X). cbn [length]. lia.
Qed.
Theorem C57_ends : forall p g mp cr order cut, run_sgs_on_order p g mp cr order cut <> Err OutOfFuel.
Proof.
  intros p g mp cr order cut. change (ends (run_sgs_on_order p g mp cr order cut)). unfold run_sgs_on_order.
  set (total := match order with Some o => o | None => order_cpm mp end).
  assert (RP : forall v, ends (report cr v)).
  { intros v. unfold report. destruct (forallb _ _); [|discriminate]. destruct cr; [discriminate|].
    apply ends_bind; [apply ends_dgetE|discriminate]. }
  apply ends_bind.
  { apply ends_mapM. intros kd. destruct (d_es (snd kd)); discriminate. }
  intros mins _. destruct cut.
  - destruct cr as [|c0 cr0] eqn:Q; [discriminate|]. apply ends_bind; [|auto]. clear RP Q.
    generalize (Vars (cpm_avail p) mins [] [] []). generalize (c0 :: cr0). clear -total.
    induction l as [|c l IH]; intros v; [discriminate|]. cbn [by_critical]. apply ends_bind.
    + unfold before_task. apply ends_bind; [|discriminate]. apply ends_mapM. intros x. destruct (index_of total x); discriminate.
    + intros b _. apply ends_bind; [apply ends_fill; auto|]. intros v' _. destruct (dmem (v_sched v') c); [auto|discriminate].
  - apply ends_bind; [apply ends_fill; auto|auto].
Qed.
Print Assumptions C57_ends.

Example C57_complete_ex : roomy (house 10) /\ one_by_one (house 10) = 5 /\
  on_order (house 10) None true = Ok [(1, (0, 0)); (2, (0, 3)); (3, (3, 4)); (4, (4, 5)); (5, (5, 5))] /\
  on_order (house 10) (Some [3; 4; 2; 5; 1]) true = Ok [(1, (0, 0)); (2, (0, 3)); (3, (3, 4)); (4, (4, 5)); (5, (5, 5))] /\
  on_order (house 10) (Some [3; 4; 2; 5; 1]) false = Ok [(1, (0, 0)); (3, (0, 1)); (4, (1, 2)); (2, (1, 4)); (5, (4, 4))].
Proof.
  split; [|vm_compute; auto]. exists [("r"%string, 2%Z)]. split; auto. intros a [T1 T2]. cbn in T2.
  do 6 (destruct a as [|a]; [first [lia|eexists; split; [reflexivity|]; intros r c [Q|[]]; injection Q as <- <-; eexists; split; [reflexivity|lia]]|]). lia.
Qed.

(** ** What does not hold *)

(** A schedule that ends exactly at the horizon is not found: the last task would start at the horizon,
    which is never tried. *)
Theorem C57_horizon_refuted : exists p g mp cr sch, project p /\ networkx p g /\ run_cpm p g = Ok (mp, cr) /\ roomy p /\
  one_by_one p = p_horizon p /\
  feasible p sch /\ Permutation (map fst sch) (seq 1 (length (p_modes p))) /\
  (forall a s e, In (a, (s, e)) sch -> e <= p_horizon p) /\
  run_sgs_on_order p g mp cr None true = Err KeyError /\ run_sgs_on_order p g mp cr None false = Err KeyError.
Proof.
  destruct (house_ok 5) as [P N]. destruct (house_ok 10) as [P' N'].
  assert (R : exists mp cr, run_cpm (house 5) (nx_of (house 5)) = Ok (mp, cr) /\ run_cpm (house 10) (nx_of (house 10)) = Ok (mp, cr) /\
    run_sgs_on_order (house 10) (nx_of (house 10)) mp cr None true = Ok [(1, (0, 0)); (2, (0, 3)); (3, (3, 4)); (4, (4, 5)); (5, (5, 5))] /\
    run_sgs_on_order (house 5) (nx_of (house 5)) mp cr None true = Err KeyError /\
    run_sgs_on_order (house 5) (nx_of (house 5)) mp cr None false = Err KeyError).
  { do 2 eexists. split; [vm_compute; reflexivity|]. vm_compute. auto. }
  destruct R as [mp [cr [R1 [R2 [R3 [R4 R5]]]]]].
  destruct (C57_feasible _ _ _ _ None true _ P' N' R2 ltac:(discriminate) R3) as [F [PM _]].
  exists (house 5), (nx_of (house 5)), mp, cr, [(1, (0, 0)); (2, (0, 3)); (3, (3, 4)); (4, (4, 5)); (5, (5, 5))].
  split; auto. split; auto. split; auto. split.
  { destruct C57_complete_ex as [Q _]. exact Q. }
  split; [reflexivity|]. split.
  { destruct F as [F1 F2 F3 F4]. constructor; auto. }
  split; auto. split; auto. intros a s e I. cbn in I. intuition; match goal with H : _ = _ |- _ => injection H as <- <- <- end; cbn; lia.
Qed.
Print Assumptions C57_horizon_refuted.

(** Only the modes numbered 1 are used, and a resource that is not renewed is treated like the others:
    the total use can exceed what there is although other modes would do. *)
Definition stock := Rcpsp (Constant [("r"%string, 3%Z)]) ["r"%string]
  [(1, [(1, work 0 0)]); (2, [(1, work 1 2); (2, work 2 1)]); (3, [(1, work 1 2); (2, work 2 1)]); (4, [(1, work 0 0)])]
  [(1, [2; 3]); (2, [4]); (3, [4])] 10 1.
Theorem C57_stock_refuted : exists p g mp cr sch r c, project p /\ networkx p g /\ run_cpm p g = Ok (mp, cr) /\
  In r (p_nonren p) /\ p_res p = Constant [(r, c)] /\
  run_sgs_on_order p g mp cr None true = Ok sch /\
  (c < sumZ (map (fun x => needs p (fst x) r) sch))%Z /\
  exists md : nat -> mode, (forall a, task p a -> has_mode p a (md a)) /\
    (sumZ (map (fun a => match dget (m_need (md a)) r with Some n => n | None => 0 end) (seq 1 (length (p_modes p)))) <= c)%Z.
Proof.
  destruct (check_project stock eq_refl) as [P N]. exists stock, (nx_of stock). do 2 eexists.
  exists [(1, (0, 0)); (2, (0, 1)); (3, (1, 2)); (4, (2, 2))], "r"%string, 3%Z.
  split; [exact P|]. split; [exact N|]. split; [vm_compute; reflexivity|]. split; [now left|]. split; [reflexivity|].
  split; [vm_compute; reflexivity|]. split; [vm_compute; reflexivity|].
  exists (fun a => if (a =? 1) || (a =? 4) then work 0 0 else work 2 1). split; [|vm_compute; discriminate].
  intros a [T1 T2]. cbn in T2. do 5 (destruct a as [|a]; [first [lia|eexists; eexists; split; [reflexivity|simpl; eauto]]|]). lia.
Qed.
Print Assumptions C57_stock_refuted.

(** * C58: the schedule built date after date *)

(** With constant resources and no negative need, the schedule that is returned is feasible in the modes
    numbered 1, contains every task exactly once, starts no task before its earliest date, and starts at
    most one task per date. *)
Theorem C58_feasible : forall fuel p g mp cr order sch caps, project p -> networkx p g -> run_cpm p g = Ok (mp, cr) ->
  p_res p = Constant caps -> (forall a r, 0 <= needs p a r)%Z ->
  run_sgs_time_loop fuel p g mp cr order = Ok sch ->
  feasible p sch /\ Permutation (map fst sch) (seq 1 (length (p_modes p))) /\
  (forall a s e x, In (a, (s, e)) sch -> esd mp a x -> (x <= Z.of_nat s)%Z) /\
  (forall a b s ea eb, In (a, (s, ea)) sch -> In (b, (s, eb)) sch -> a = b).
Proof.
  intros fuel p g mp cr order sch caps P N R CAPS POS H. destruct (runs p g mp cr P N R) as [K [D [C1 [C2 [C3 C4]]]]].
  unfold run_sgs_time_loop in H. set (total := match order with Some o => o | None => order_cpm mp end) in H.
  destruct (mins_exist p g mp P N K D) as [mins [MI [MK MINS]]]. rewrite MI in H. cbn [bind] in H.
  apply bind_ok in H. destruct H as [v [H1 H2]].
  destruct (time_loop_ok p g P N caps CAPS POS mins _ _ _ _ _ _ (running_start p mins (fun x X => proj1 (node_task p g P N x) (eq_rect _ (In x) X _ MK))) H1)
    as [now [RU [_ NB]]].
  destruct (report_ok cr v sch H2 C3) as [-> SK]. pose proof (r_inv _ _ _ _ RU) as I.
  split; [now apply inv_feasible|]. split; [|split].
  - apply all_scheduled; auto. apply (i_done _ _ I). rewrite <- C2. exact SK.
  - intros a s e x X [d [D1 D2]]. destruct (proj2 (r_early _ _ _ _ RU) a s e X) as [y [Y1 Y2]].
    destruct (min_times_ok mp mins MI) as [_ ME]. destruct (ME a y Y1) as [d' [x' [Z1 [Z2 ->]]]].
    rewrite D1 in Z1. injection Z1 as <-. rewrite D2 in Z2. injection Z2 as <-. lia.
  - apply (r_single _ _ _ _ RU).
Qed.
Print Assumptions C58_feasible.

(** The loop ends, within the time the tasks take one after the other plus one step per task, when the
    order puts every task after those it must follow and the horizon is long enough.  The default order
    does so as soon as the nodes of the graph are listed in such an order. *)
Theorem C58_complete : forall fuel p g mp cr order, project p -> networkx p g -> run_cpm p g = Ok (mp, cr) ->
  roomy p -> (forall a r, 0 <= needs p a r)%Z ->
  one_by_one p + length (p_modes p) <= p_horizon p + 1 ->
  match order with
  | Some o => Permutation o (seq 1 (length (p_modes p))) /\ respects p o
  | None => respects p (n_nodes g)
  end ->
  one_by_one p + length (p_modes p) <= fuel ->
  exists sch, run_sgs_time_loop fuel p g mp cr order = Ok sch /\
    forall a s e, In (a, (s, e)) sch -> e <= one_by_one p + length (p_modes p).
Proof.
  intros fuel p g mp cr order P N R [caps [CAPS ALONE]] POS ROOM ORD FU. destruct (runs p g mp cr P N R) as [K [D [C1 [C2 [C3 C4]]]]].
  unfold run_sgs_time_loop. set (total := match order with Some o => o | None => order_cpm mp end).
  destruct (mins_exist p g mp P N K D) as [mins [MI [MK MINS]]]. rewrite MI. cbn [bind].
  assert (TOT : NoDup total /\ (forall a, In a total <-> task p a) /\ respects p total).
  { unfold total. destruct order as [o|].
    - destruct ORD as [PERM RE]. split; [|split]; auto.
      + eapply Permutation_NoDup; [symmetry; exact PERM|apply seq_NoDup].
      + intros a. rewrite PERM, in_seq. unfold task. lia.
    - split; [now apply (order_nd p g)|]. split; [|now apply (order_respects p g P N)].
      intros a. unfold order_cpm. rewrite <- ssort_perm, K. apply (node_task p g P N). }
  destruct TOT as [NDT [INT RES]].
  assert (LEN : length mp = length (p_modes p)).
  { rewrite <- (map_length fst). change (length (dkeys mp) = length (p_modes p)). rewrite K. rewrite <- (seq_length (length (p_modes p)) 1).
    apply Permutation_length. apply NoDup_Permutation; [apply (nx_nodes_nd _ _ N)|apply seq_NoDup|].
    intros a. rewrite (node_task p g P N), in_seq. unfold task. lia. }
  rewrite LEN.
  destruct (time_loop_total p g P N caps CAPS POS ALONE mins MINS ROOM total RES (fun a => proj2 (INT a)) (fun a => proj1 (INT a))
    fuel 0 (Vars (cpm_avail p) mins [] [] [])) as [v [now [V1 [V2 [V3 [V4 V5]]]]]]; auto; cbn [v_sched v_done v_lost v_min]; try lia.
  - apply running_start. intros x X. rewrite MK in X. now apply (node_task p g P N).
  - intros a s e [].
  - rewrite V1. cbn [bind]. pose proof (r_inv _ _ _ _ V2) as I.
    assert (SUB : incl (v_done v) (seq 1 (length (p_modes p)))).
    { intros a A. apply (i_task _ _ I) in A. apply in_seq. unfold task in A. lia. }
    assert (LE : length (v_done v) <= length (p_modes p)).
    { apply NoDup_incl_length in SUB; [|apply (i_nd _ _ I)]. now rewrite seq_length in SUB. }
    assert (SK : In (length (p_modes p)) (v_done v)).
    { apply (NoDup_length_incl (i_nd _ _ I)) in SUB; [|rewrite seq_length; lia]. apply SUB, in_seq. pose proof (pr_some _ P). lia. }
    exists (v_sched v). split.
    + unfold report. rewrite V3. cbn [forallb]. destruct cr as [|c0 cr0]; [congruence|]. rewrite C2.
      unfold dgetE. apply (i_done _ _ I) in SK. apply (proj1 (dget_keys _ _ (v_sched v) _)) in SK.
      destruct SK as [se SK]. rewrite SK. reflexivity.
    + intros a s e X. apply V5 in X. pose proof (spent_le p v I). lia.
Qed.
Print Assumptions C58_complete.

Example C58_complete_ex : (forall a r, 0 <= needs (house 10) a r)%Z /\ one_by_one (house 10) + 5 <= 11 /\
  respects (house 10) (n_nodes (nx_of (house 10))) /\
  in_time 10 (house 10) None = Ok [(1, (0, 0)); (2, (1, 4)); (3, (4, 5)); (4, (5, 6)); (5, (6, 6))].
Proof.
  split; [|split; [|split]].
  - intros a r. unfold needs, mode_one. cbn. repeat (destruct (_ =? _); [cbn; destruct (String.eqb r "r"); cbn; lia|]). lia.
  - vm_compute. lia.
  - intros a b Ed. pose proof (edge_up (house 10) eq_refl a b Ed) as B. cbn in B.
    assert (X : b = 2 \/ b = 3 \/ b = 4 \/ b = 5) by lia.
    do 5 (destruct a as [|a]; [first [lia
      |exists [], [2; 3; 4; 5]; split; [reflexivity|simpl; lia] | exists [1], [3; 4; 5]; split; [reflexivity|simpl; lia]
      |exists [1; 2], [4; 5]; split; [reflexivity|simpl; lia] | exists [1; 2; 3], [5]; split; [reflexivity|simpl; lia]]|]). lia.
  - vm_compute. reflexivity.
Qed.

(** ** What does not hold *)

(** The schedule can be longer than the tasks one after the other. *)
Theorem C58_length_refuted : exists p g mp cr sch s e, project p /\ networkx p g /\ run_cpm p g = Ok (mp, cr) /\ roomy p /\
  run_sgs_time_loop 10 p g mp cr None = Ok sch /\ In (length (p_modes p), (s, e)) sch /\ one_by_one p < e.
Proof.
  destruct (house_ok 10) as [P N]. exists (house 10), (nx_of (house 10)). do 2 eexists.
  exists [(1, (0, 0)); (2, (1, 4)); (3, (4, 5)); (4, (5, 6)); (5, (6, 6))], 6, 6.
  split; auto. split; auto. split; [vm_compute; reflexivity|]. split; [exact (proj1 C57_complete_ex)|].
  split; [vm_compute; reflexivity|]. split; [simpl; tauto|]. vm_compute. lia.
Qed.
Print Assumptions C58_length_refuted.

(** With resources that vary over time a resource can be overused: only the first date of a task is
    looked at. *)
Definition shift := Rcpsp (Calendar [("r"%string, [2; 2; 0; 0; 2; 2; 2; 2]%Z)]) []
  [(1, [(1, work 0 0)]); (2, [(1, work 3 1)]); (3, [(1, work 0 0)])] [(1, [2]); (2, [3])] 7 1.
Theorem C58_calendar_refuted : exists p g mp cr sch r t c, project p /\ networkx p g /\ run_cpm p g = Ok (mp, cr) /\
  run_sgs_time_loop 10 p g mp cr None = Ok sch /\ busy sch t /\ room p r t c /\ (c < load p sch r t)%Z.
Proof.
  destruct (check_project shift eq_refl) as [P N]. exists shift, (nx_of shift). do 2 eexists.
  exists [(1, (0, 0)); (2, (1, 4)); (3, (4, 4))], "r"%string, 2, 0%Z.
  split; auto. split; auto. split; [vm_compute; reflexivity|]. split; [vm_compute; reflexivity|].
  split; [exists 2, 1, 4; split; [simpl; tauto|lia]|]. split; [|vm_compute; reflexivity].
  eexists. split; [now left|reflexivity].
Qed.
Print Assumptions C58_calendar_refuted.

(** Only the first ten waiting tasks are looked at: with another order the loop may never end. *)
Definition fan := Rcpsp (Constant [("r"%string, 2%Z)]) []
  ((1, [(1, work 1 1)]) :: map (fun a => (a, [(1, work 1 1)])) (seq 2 10) ++ [(12, [(1, work 1 1)])])
  ((1, seq 2 10) :: map (fun a => (a, [12])) (seq 2 10)) 100 1.
Definition fan_order := seq 2 10 ++ [1; 12].
Theorem C58_window_refuted : exists p g mp cr o, project p /\ networkx p g /\ run_cpm p g = Ok (mp, cr) /\ roomy p /\
  Permutation o (seq 1 (length (p_modes p))) /\
  (exists sch, run_sgs_on_order p g mp cr (Some o) true = Ok sch) /\
  forall fuel, run_sgs_time_loop fuel p g mp cr (Some o) = Err OutOfFuel.
Proof.
  destruct (check_project fan eq_refl) as [P N]. exists fan, (nx_of fan).
  assert (R : exists mp cr, run_cpm fan (nx_of fan) = Ok (mp, cr) /\
    (exists sch, run_sgs_on_order fan (nx_of fan) mp cr (Some fan_order) true = Ok sch) /\
    exists mins, min_times mp = Ok mins /\ length mp = 12 /\
      (forall now, start_one fan (nx_of fan) now (firstn 10 fan_order) (Vars (cpm_avail fan) mins [] [] []) = Ok (Vars (cpm_avail fan) mins [] [] []))).
  { do 2 eexists. split; [vm_compute; reflexivity|]. split; [eexists; vm_compute; reflexivity|].
    eexists. split; [vm_compute; reflexivity|]. split; [reflexivity|]. intros now. reflexivity. }
  destruct R as [mp [cr [R1 [R2 [mins [R3 [R4 R5]]]]]]]. exists mp, cr, fan_order.
  split; auto. split; auto. split; auto. split.
  { exists [("r"%string, 2%Z)]. split; auto. intros a [T1 T2]. cbn in T2.
    do 13 (destruct a as [|a]; [first [lia|eexists; split; [reflexivity|]; intros r c [Q|[]]; injection Q as <- <-; eexists; split; [reflexivity|lia]]|]). lia. }
  split.
  { change (length (p_modes fan)) with 12. exact (Permutation_sym (Permutation_middle (seq 2 10) [12] 1)). }
  split; auto. intros fuel. unfold run_sgs_time_loop. rewrite R3. cbn [bind]. rewrite R4.
  enough (H : forall now, time_loop fuel fan (nx_of fan) 12 fan_order now (Vars (cpm_avail fan) mins [] [] []) = Err OutOfFuel) by now rewrite H.
  induction fuel as [|fuel IH]; intros now; [reflexivity|]. cbn [time_loop v_done length].
  change (0 <? 12) with true. cbn [pymem existsb negb]. rewrite filter_all by reflexivity. rewrite R5. cbn [bind]. apply IH.
Qed.
Print Assumptions C58_window_refuted.
