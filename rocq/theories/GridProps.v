(** C16 (grid world) and C17 (maze), including LazyAstar run on them. *)
From Coq Require Import ZArith QArith Bool Ascii String List Lia Lqa.
From Verif Require Import Py GridModel AstarModel AstarProofs AstarProps.
Import ListNotations.
Open Scope Z_scope.

(** ** C16 *)
(** Specification: cells of the grid, and runs with their accumulated cost. *)
Definition on_grid (g : grid) (s : cell) : Prop :=
  0 <= fst s < num_cols g /\ 0 <= snd s < num_rows g.
Definition manhattan (s t : cell) : Z := Z.abs (fst t - fst s) + Z.abs (snd t - snd s).

Fixpoint run (g : grid) (s : cell) (l : list action) : list cell :=
  match l with [] => [] | a :: r => g_next g s a :: run g (g_next g s a) r end.
Fixpoint last_of (s : cell) (l : list cell) : cell := match l with [] => s | t :: r => last_of t r end.
Fixpoint total (s : cell) (l : list cell) : Z := match l with [] => 0 | t :: r => move_cost s t + total t r end.

(** The neighbouring cell in each direction; rows are counted from the top. *)
Definition neighbour (s : cell) (a : action) : cell :=
  match a with
  | up => (fst s, snd s - 1)
  | down => (fst s, snd s + 1)
  | left => (fst s - 1, snd s)
  | right => (fst s + 1, snd s)
  end.

(** The observation space is the grid. *)
Theorem C16_observation : forall g s, g_observable g s = true <-> on_grid g s.
Proof.
  intros g [x y]. unfold g_observable, in_multidiscrete2, on_grid. cbn [fst snd].
  rewrite !andb_true_iff, !Z.leb_le, !Z.ltb_lt. lia.
Qed.

(** Every action goes its way, or bumps into the border. *)
Theorem C16_directions : forall g s a, on_grid g s ->
  (on_grid g (neighbour s a) -> g_next g s a = neighbour s a) /\ (~ on_grid g (neighbour s a) -> g_next g s a = s).
Proof.
  intros [n m] [x y] a [Hx Hy]. unfold on_grid. destruct a; cbn in *; split; intros H; f_equal; lia.
Qed.

Theorem C16_stays_on_grid : forall g s a, on_grid g s ->
  on_grid g (g_next g s a) /\ g_observable g (g_next g s a) = true /\
  manhattan s (g_next g s a) <= 1 /\
  (* the cost is one for a move and two for bumping into the border *)
  (g_next g s a <> s /\ move_cost s (g_next g s a) = 1 \/
   g_next g s a = s /\ move_cost s (g_next g s a) = 2).
Proof.
  intros [n m] [x y] a [Hx Hy]. simpl in *.
  assert (M : forall x', (x', y) <> (x, y) -> x' <> x) by (intros; congruence).
  assert (E : forall x' y' : Z, {(x', y') = (x, y)} + {(x', y') <> (x, y)}).
  { intros x' y'. destruct (Z.eq_dec x' x), (Z.eq_dec y' y); subst; auto; right; congruence. }
  assert (K : forall x' y', 0 <= x' < n -> 0 <= y' < m -> Z.abs (x' - x) + Z.abs (y' - y) <= 1 ->
     on_grid {| num_cols := n; num_rows := m |} (x', y') /\
     g_observable {| num_cols := n; num_rows := m |} (x', y') = true /\
     manhattan (x, y) (x', y') <= 1 /\
     ((x', y') <> (x, y) /\ move_cost (x, y) (x', y') = 1 \/ (x', y') = (x, y) /\ move_cost (x, y) (x', y') = 2)).
  { intros x' y' Hx' Hy' Hd. unfold on_grid, g_observable, in_multidiscrete2, manhattan, move_cost. simpl.
    split; [lia|]. split; [|split; [lia|]].
    - repeat (apply andb_true_iff; split); try apply Z.leb_le; try apply Z.ltb_lt; lia.
    - destruct (E x' y') as [ Q|N].
      + right. split; auto. injection Q as -> ->. now rewrite !Z.eqb_refl.
      + left. split; auto. destruct (Z.eqb_spec x' x), (Z.eqb_spec y' y); simpl; try lia. subst. congruence. }
  destruct a; simpl; apply K; lia.
Qed.

Theorem C16_run_on_grid : forall g l s, on_grid g s -> Forall (on_grid g) (run g s l).
Proof.
  intros g. induction l as [|a l IH]; intros s H; constructor.
  - apply C16_stays_on_grid; auto.
  - apply IH, C16_stays_on_grid; auto.
Qed.

Lemma manhattan_triangle : forall s t u, manhattan s u <= manhattan s t + manhattan t u.
Proof. intros [a b] [c d] [e f]. unfold manhattan. simpl. lia. Qed.

Lemma move_cost_manhattan : forall s t, manhattan s t <= move_cost s t.
Proof.
  intros [a b] [c d]. unfold manhattan, move_cost. simpl.
  destruct (Z.eqb_spec c a), (Z.eqb_spec d b); simpl; lia.
Qed.

(** No action sequence gets anywhere cheaper than the Manhattan distance ... *)
Theorem C16_manhattan_lower_bound : forall g l s, manhattan s (last_of s (run g s l)) <= total s (run g s l).
Proof.
  intros g. induction l as [|a l IH]; intros s; simpl.
  - destruct s. unfold manhattan. simpl. lia.
  - specialize (IH (g_next g s a)). pose proof (manhattan_triangle s (g_next g s a) (last_of (g_next g s a) (run g (g_next g s a) l))).
    pose proof (move_cost_manhattan s (g_next g s a)). lia.
Qed.

(** ... and between any two cells of the grid some sequence achieves it. *)
Theorem C16_manhattan_achieved : forall g s t, on_grid g s -> on_grid g t ->
  exists l, last_of s (run g s l) = t /\ total s (run g s l) = manhattan s t /\
            Z.of_nat (List.length l) = manhattan s t.
Proof.
  intros [n m] s t Hs Ht.
  remember (Z.to_nat (manhattan s t)) as k eqn:Ek. revert s Hs Ek.
  induction k as [|k IH]; intros [x y] [Hx Hy] Ek; destruct t as [x' y']; destruct Ht as [Hx' Hy']; unfold manhattan in *; simpl in *.
  - exists []. simpl. assert (x = x') by lia. assert (y = y') by lia. subst. split; auto. split; lia.
  - assert (Step : exists a x1 y1, g_next {| num_cols := n; num_rows := m |} (x, y) a = (x1, y1) /\
       0 <= x1 < n /\ 0 <= y1 < m /\
       Z.abs (x' - x1) + Z.abs (y' - y1) = Z.abs (x' - x) + Z.abs (y' - y) - 1 /\
       move_cost (x, y) (x1, y1) = 1).
    { assert (C : forall x1 y1, Z.abs (x1 - x) + Z.abs (y1 - y) = 1 -> move_cost (x, y) (x1, y1) = 1).
      { intros x1 y1 H. unfold move_cost. simpl. destruct (Z.eqb_spec x1 x), (Z.eqb_spec y1 y); simpl; lia. }
      destruct (Z_lt_ge_dec x x') as [L|G].
      - exists right, (x + 1), y. simpl. split; [f_equal; lia|]. split; [lia|]. split; [lia|]. split; [lia|]. apply C. lia.
      - destruct (Z_lt_ge_dec x' x) as [L|G'].
        + exists left, (x - 1), y. simpl. split; [f_equal; lia|]. split; [lia|]. split; [lia|]. split; [lia|]. apply C. lia.
        + destruct (Z_lt_ge_dec y y') as [L|G''].
          * exists down, x, (y + 1). simpl. split; [f_equal; lia|]. split; [lia|]. split; [lia|]. split; [lia|]. apply C. lia.
          * exists up, x, (y - 1). simpl. split; [f_equal; lia|]. split; [lia|]. split; [lia|]. split; [lia|]. apply C. lia. }
    destruct Step as (a & x1 & y1 & En & B1 & B2 & B3 & B4).
    destruct (IH (x1, y1)) as (l & L1 & L2 & L3); [split; auto|simpl; lia|].
    exists (a :: l). cbn [run last_of total]. rewrite En. split; auto.
    rewrite B4, L2. cbn [List.length fst snd] in *. split; lia.
Qed.

(** LazyAstar on the grid world with the Manhattan heuristic: the returned plan costs exactly the
    Manhattan distance from the start to the goal corner. *)
Definition grid_problem (g : grid) : @problem cell action := {|
  apps _ := all_actions;
  next s a := g_next g s a;
  cost s _ s' := inject_Z (move_cost s s');
  goal s := g_is_goal g s;
  heur s := inject_Z (manhattan s (g_goal g));
  weight := 1%Q |}.

Lemma exec_run : forall g s l t c, exec (grid_problem g) s l t c ->
  t = last_of s (run g s l) /\ (c == inject_Z (total s (run g s l)))%Q.
Proof.
  intros g s l t c E. induction E as [s|s a l t c I E [IH1 IH2]]; simpl.
  - split; [auto|reflexivity].
  - split; auto. simpl in IH2. rewrite IH2, inject_Z_plus. reflexivity.
Qed.

Lemma run_exec : forall g l s, exists c, exec (grid_problem g) s l (last_of s (run g s l)) c.
Proof.
  intros g. induction l as [|a l IH]; intros s; simpl.
  - eexists. constructor.
  - destruct (IH (g_next g s a)) as (c & E). eexists. econstructor; [|exact E]. simpl. destruct a; simpl; auto.
Qed.

Definition cells (n m : nat) : list cell :=
  list_prod (map Z.of_nat (seq 0 n)) (map Z.of_nat (seq 0 m)).

Lemma in_cells : forall n m s, In s (cells n m) <-> 0 <= fst s < Z.of_nat n /\ 0 <= snd s < Z.of_nat m.
Proof.
  intros n m [x y]. unfold cells, cell. rewrite in_prod_iff, !in_map_iff. simpl. split.
  - intros [(i & <- & I) (j & <- & J)]. apply in_seq in I, J. lia.
  - intros [Hx Hy]. split; [exists (Z.to_nat x)|exists (Z.to_nat y)]; rewrite in_seq; lia.
Qed.

Lemma length_cells : forall n m, List.length (cells n m) = (n * m)%nat.
Proof.
  intros n m. unfold cells, cell. rewrite prod_length, !map_length, !seq_length. reflexivity.
Qed.

Lemma nodup_cells : forall n m, NoDup (cells n m).
Proof.
  assert (NP : forall A B (l : list A) (l' : list B), NoDup l -> NoDup l' -> NoDup (list_prod l l')).
  { induction l as [|x l IH]; intros l' H H'; simpl; [constructor|].
    inversion H as [|? ? N1 N2]; subst.
    assert (NA : forall (l1 l2 : list (A * B)), NoDup l1 -> NoDup l2 -> (forall z, In z l1 -> ~ In z l2) -> NoDup (l1 ++ l2)).
    { induction l1 as [|z l1 IH1]; intros l2 Q1 Q2 Q3; simpl; auto. inversion Q1; subst. constructor.
      - rewrite in_app_iff. intros [Z|Z]; [auto|]. eapply Q3; eauto. now left.
      - apply IH1; auto. intros z' Z. apply Q3. now right. }
    apply NA; auto.
    - apply FinFun.Injective_map_NoDup; auto. intros a b E. congruence.
    - intros z Z. apply in_map_iff in Z. destruct Z as (b & <- & _). rewrite in_prod_iff. tauto. }
  intros n m. apply NP; (apply FinFun.Injective_map_NoDup; [intros a b E; lia|apply seq_NoDup]).
Qed.

Theorem C16_lazy_astar : forall g v0 pl0 fuel, 1 <= num_cols g -> 1 <= num_rows g ->
  g_goal g <> g_start ->
  (2 + 4 * (Z.to_nat (num_cols g) * Z.to_nat (num_rows g)) <= fuel)%nat ->
  exists sol acts, solve fuel (grid_problem g) g_start v0 pl0 = Ok sol /\ plan sol = (pl0 ++ acts)%list /\
    last_of g_start (run g g_start acts) = g_goal g /\
    total g_start (run g g_start acts) = (num_cols g - 1) + (num_rows g - 1).
Proof.
  intros g v0 pl0 fuel Hc Hr Hne Hf.
  set (p := grid_problem g).
  assert (G0 : goal p g_start = false).
  { simpl. unfold g_is_goal. destruct (pyeqb_spec g_start (g_goal g)); congruence. }
  assert (OS : on_grid g g_start) by (unfold on_grid, g_start; simpl; lia).
  assert (OG : on_grid g (g_goal g)) by (unfold on_grid, g_goal; simpl; lia).
  assert (Man : manhattan g_start (g_goal g) = (num_cols g - 1) + (num_rows g - 1))
    by (unfold manhattan, g_start, g_goal; simpl; lia).
  destruct (C15_complete p g_start v0 pl0 (cells (Z.to_nat (num_cols g)) (Z.to_nat (num_rows g))) fuel) as (sol & E & Iff); auto.
  { apply nodup_cells. }
  { apply in_cells. simpl. lia. }
  { intros s a Hs _. apply in_cells in Hs. apply in_cells.
    assert (O : on_grid g s) by (unfold on_grid; lia).
    destruct (C16_stays_on_grid g s a O) as [[B1 B2] _]. simpl. lia. }
  { etransitivity; [|exact Hf]. apply le_n_S, le_n_S.
    assert (L : forall u : list cell, list_sum (map (fun s => List.length (apps p s)) u) = (4 * List.length u)%nat).
    { induction u as [|s u IH]; simpl in *; [reflexivity|]. rewrite IH. lia. }
    rewrite L, length_cells. lia. }
  assert (NP : policy sol <> []).
  { apply Iff. destruct (C16_manhattan_achieved g _ _ OS OG) as (l & L1 & _ & _).
    destruct (run_exec g l g_start) as (c & X). rewrite L1 in X. exists l, (g_goal g), c. split; auto.
    simpl. unfold g_is_goal. now destruct (pyeqb_spec (g_goal g) (g_goal g)). }
  destruct (C14_optimal fuel p g_start v0 pl0 sol G0 eq_refl) as (acts & t & c & P1 & P2 & P3 & _ & P5); auto.
  { intros s a _. simpl. pose proof (move_cost_manhattan s (g_next g s a)). unfold manhattan in H.
    unfold Qle. simpl. lia. }
  { intros s a _. simpl. rewrite <- inject_Z_plus, <- Zle_Qle.
    pose proof (manhattan_triangle s (g_next g s a) (g_goal g)). pose proof (move_cost_manhattan s (g_next g s a)). lia. }
  { intros s Hs. simpl in Hs. unfold g_is_goal in Hs. destruct (pyeqb_spec s (g_goal g)) as [Es|]; [rewrite Es|discriminate].
    simpl. unfold manhattan. rewrite !Z.sub_diag. reflexivity. }
  exists sol, acts. split; auto. split; auto.
  destruct (exec_run g _ _ _ _ P3) as [Ht Hcost].
  simpl in P2. unfold g_is_goal in P2. destruct (pyeqb_spec t (g_goal g)) as [ -> |]; [|discriminate].
  split; auto.
  destruct (C16_manhattan_achieved g _ _ OS OG) as (l & L1 & L2 & _).
  destruct (run_exec g l g_start) as (c' & X). rewrite L1 in X.
  assert (GG : goal p (g_goal g) = true) by (simpl; unfold g_is_goal; now destruct (pyeqb_spec (g_goal g) (g_goal g))).
  specialize (P5 _ _ _ X GG). destruct (exec_run g _ _ _ _ X) as [_ X2].
  rewrite Hcost, X2, <- Zle_Qle, L2, Man in P5.
  pose proof (C16_manhattan_lower_bound g acts g_start) as LB. rewrite <- Ht, Man in LB. lia.
Qed.

Example C16_example : let g := {| num_cols := 3; num_rows := 2 |} in
  on_grid g (1, 1) /\ run g (0, 0) [right; up; right; down; right] = [(1, 0); (1, 0); (2, 0); (2, 1); (2, 1)] /\
  total (0, 0) (run g (0, 0) [right; up; right; down; right]) = 7 /\
  (match solve 26 (grid_problem g) g_start [] [] with Ok sol => plan sol | Err _ => [] end)
    = [down; right; right].
Proof. cbv zeta. split; [unfold on_grid; simpl; lia|]. split; [reflexivity|]. split; reflexivity. Qed.

(** ** C17 *)
(** Specification: a free cell is one inside the maze whose value is 1. *)
Definition free (m : maze) (c : cell) : Prop :=
  0 <= fst c /\ 0 <= snd c /\
  exists row, nth_error (m_rows m) (Z.to_nat (snd c)) = Some row /\ nth_error row (Z.to_nat (fst c)) = Some 1.

(** All lines as long as the first one. *)
Definition rectangular (m : maze) : Prop :=
  m_nrows m = Z.of_nat (List.length (m_rows m)) /\
  Forall (fun row => Z.of_nat (List.length row) = m_cols m) (m_rows m).

Lemma m_get_in : forall m c, rectangular m -> 0 <= fst c < m_cols m -> 0 <= snd c < m_nrows m ->
  exists v row, m_get m c = Ok v /\ nth_error (m_rows m) (Z.to_nat (snd c)) = Some row /\ nth_error row (Z.to_nat (fst c)) = Some v.
Proof.
  intros m c [R1 R2] Hx Hy. unfold m_get.
  destruct (nth_error (m_rows m) (Z.to_nat (snd c))) as [row|] eqn:Er.
  - assert (Z.of_nat (List.length row) = m_cols m).
    { rewrite Forall_forall in R2. apply R2. eapply nth_error_In; eauto. }
    destruct (nth_error row (Z.to_nat (fst c))) as [v|] eqn:Ev.
    + exists v, row. auto.
    + apply nth_error_None in Ev. lia.
  - apply nth_error_None in Er. lia.
Qed.

(** One step: the agent moves to the neighbouring cell if and only if it is free, stays otherwise. *)
Theorem C17_step : forall m s a, rectangular m ->
  exists s', m_next m s a = Ok s' /\
    (free m (neighbour s a) /\ s' = neighbour s a /\ move_cost s s' = 1 \/
     ~ free m (neighbour s a) /\ s' = s /\ move_cost s s' = 2).
Proof.
  intros m s a R. unfold m_next. replace (neighbour s a) with (m_target s a) by (destruct s, a; reflexivity).
  assert (C1 : move_cost s (m_target s a) = 1).
  { destruct s as [x y]. unfold move_cost, m_target. destruct a; simpl.
    all: repeat match goal with |- context [?u =? ?v] => destruct (Z.eqb_spec u v) end; simpl; lia. }
  assert (C2 : move_cost s s = 2) by (destruct s; unfold move_cost; simpl; now rewrite !Z.eqb_refl).
  set (t := m_target s a) in *.
  destruct ((0 <=? fst t) && (fst t <? m_cols m) && (0 <=? snd t) && (snd t <? m_nrows m)) eqn:B.
  - apply andb_true_iff in B. destruct B as [B B4]. apply andb_true_iff in B. destruct B as [B B3].
    apply andb_true_iff in B. destruct B as [B1 B2].
    apply Z.leb_le in B1, B3. apply Z.ltb_lt in B2, B4.
    destruct (m_get_in m t R) as (v & row & E1 & E2 & E3); [lia|lia|].
    rewrite E1. cbn [bind]. eexists. split; [reflexivity|]. destruct (Z.eqb_spec v 1) as [ -> |Nv].
    + left. split; auto. unfold free. split; [lia|]. split; [lia|]. eauto.
    + right. split; auto. intros (_ & _ & row' & F1 & F2). rewrite E2 in F1. injection F1 as <-. congruence.
  - eexists. split; [reflexivity|]. right. split; auto. intros (F0 & F0' & row & F1 & F2).
    destruct R as [R1 R2]. assert (Z.of_nat (List.length row) = m_cols m).
    { rewrite Forall_forall in R2. apply R2. eapply nth_error_In; eauto. }
    assert (L1 : (Z.to_nat (snd t) < List.length (m_rows m))%nat) by (apply nth_error_Some; congruence).
    assert (L2 : (Z.to_nat (fst t) < List.length row)%nat) by (apply nth_error_Some; congruence).
    assert (X : (0 <=? fst t) && (fst t <? m_cols m) && (0 <=? snd t) && (snd t <? m_nrows m) = true).
    { repeat (apply andb_true_iff; split); try apply Z.leb_le; try apply Z.ltb_lt; lia. }
    congruence.
Qed.

(** A run of the domain. *)
Inductive mrun (m : maze) : cell -> list action -> list cell -> Prop :=
| mr_nil : forall s, mrun m s [] []
| mr_cons : forall s a s' l cs, m_next m s a = Ok s' -> mrun m s' l cs -> mrun m s (a :: l) (s' :: cs).

(** Never an error, never in a wall, never outside, at most one cell per action. *)
Theorem C17_run_free : forall m l s, rectangular m -> free m s ->
  exists cs, mrun m s l cs /\ Forall (free m) cs /\ List.length cs = List.length l.
Proof.
  intros m l. induction l as [|a l IH]; intros s R F.
  - exists []. split; [constructor|]. split; [constructor|reflexivity].
  - destruct (C17_step m s a R) as (s' & E & H).
    assert (F' : free m s') by (destruct H as [(H1 & -> & _)|(_ & -> & _)]; auto).
    destruct (IH s' R F') as (cs & C1 & C2 & C3). exists (s' :: cs). split; [econstructor; eauto|].
    split; [constructor; auto|]. simpl. lia.
Qed.

Theorem C17_run_adjacent : forall m l s cs, rectangular m -> mrun m s l cs ->
  forall i c d, nth_error (s :: cs) i = Some c -> nth_error cs i = Some d -> manhattan c d <= 1.
Proof.
  intros m l s cs R H. induction H as [s|s a s' l cs E H IH]; intros i c d E1 E2.
  - destruct i; discriminate.
  - destruct i as [|i].
    + simpl in E1, E2. injection E1 as <-. injection E2 as <-.
      destruct (C17_step m s a R) as (s2 & E' & X). rewrite E in E'. injection E' as <-.
      destruct X as [(_ & -> & _)|(_ & -> & _)]; destruct s as [x y]; unfold manhattan; [destruct a; simpl; lia|simpl; lia].
    + eapply IH; eauto.
Qed.

(** The constructor: values are 0/1, the start and goal cells (when present) are free, and the row
    count matches. *)
Lemma parse_line_spec : forall y line x st row st', parse_line y x line st = (row, st') ->
  List.length row = List.length line /\
  (forall s, fst st' = Some s -> fst st = Some s \/
     (snd s = y /\ x <= fst s /\ nth_error row (Z.to_nat (fst s - x)) = Some 1)) /\
  (forall s, snd st' = Some s -> snd st = Some s \/
     (snd s = y /\ x <= fst s /\ nth_error row (Z.to_nat (fst s - x)) = Some 1)).
Proof.
  intros y. induction line as [|c line IH]; intros x st row st' E.
  - injection E as <- <-. split; auto.
  - cbn [parse_line] in E. destruct (parse_line y (x + 1) line _) as [row1 st1] eqn:P.
    injection E as <- <-. destruct (IH _ _ _ _ P) as (L & H1 & H2). split; [simpl; lia|].
    assert (Sh : forall s : cell, x + 1 <= fst s -> nth_error row1 (Z.to_nat (fst s - (x + 1))) = Some 1 ->
              forall v, nth_error (v :: row1) (Z.to_nat (fst s - x)) = Some 1).
    { intros s Hs Hn v. replace (Z.to_nat (fst s - x)) with (S (Z.to_nat (fst s - (x + 1)))) by lia. exact Hn. }
    assert (Hd : forall v : Z, nth_error (v :: row1) (Z.to_nat (x - x)) = Some v) by (intros; rewrite Z.sub_diag; reflexivity).
    split.
    + intros s Es. destruct (H1 s Es) as [X|(X1 & X2 & X3)].
      * destruct (open_char c) eqn:O; [|auto]. cbn [fst] in X. destruct (Ascii.eqb c "o"); [|auto].
        injection X as <-. right. simpl. split; auto. split; [lia|]. apply Hd.
      * right. split; auto. split; [lia|]. apply Sh; auto.
    + intros s Es. destruct (H2 s Es) as [X|(X1 & X2 & X3)].
      * destruct (open_char c) eqn:O; [|auto]. cbn [snd] in X. destruct (Ascii.eqb c "x"); [|auto].
        injection X as <-. right. simpl. split; auto. split; [lia|]. apply Hd.
      * right. split; auto. split; [lia|]. apply Sh; auto.
Qed.

Lemma parse_lines_spec : forall lines y st rows st', parse_lines y lines st = (rows, st') ->
  List.length rows = List.length lines /\
  (forall s, fst st' = Some s -> fst st = Some s \/
     (y <= snd s /\ 0 <= fst s /\ exists row, nth_error rows (Z.to_nat (snd s - y)) = Some row /\ nth_error row (Z.to_nat (fst s)) = Some 1)) /\
  (forall s, snd st' = Some s -> snd st = Some s \/
     (y <= snd s /\ 0 <= fst s /\ exists row, nth_error rows (Z.to_nat (snd s - y)) = Some row /\ nth_error row (Z.to_nat (fst s)) = Some 1)).
Proof.
  induction lines as [|l lines IH]; intros y st rows st' E.
  - injection E as <- <-. split; auto.
  - cbn [parse_lines] in E. destruct (parse_line y 0 (rstrip l) st) as [row st1] eqn:P.
    destruct (parse_lines (y + 1) lines st1) as [rows1 st2] eqn:Q. injection E as <- <-.
    destruct (parse_line_spec _ _ _ _ _ _ P) as (_ & A1 & A2). destruct (IH _ _ _ _ Q) as (L & H1 & H2).
    split; [simpl; lia|].
    assert (Sh : forall s : cell, y + 1 <= snd s -> forall (P : list Z -> Prop),
              (exists r, nth_error rows1 (Z.to_nat (snd s - (y + 1))) = Some r /\ P r) ->
              exists r, nth_error (row :: rows1) (Z.to_nat (snd s - y)) = Some r /\ P r).
    { intros s Hs P0 (r & R1 & R2). exists r. split; auto.
      replace (Z.to_nat (snd s - y)) with (S (Z.to_nat (snd s - (y + 1)))) by lia. exact R1. }
    split.
    + intros s Es. destruct (H1 s Es) as [X|(X1 & X2 & X3)].
      * destruct (A1 s X) as [Y|(Y1 & Y2 & Y3)]; auto. right. split; [lia|]. split; auto.
        exists row. rewrite Y1, Z.sub_diag. rewrite Z.sub_0_r in Y3. auto.
      * right. split; [lia|]. split; auto.
    + intros s Es. destruct (H2 s Es) as [X|(X1 & X2 & X3)].
      * destruct (A2 s X) as [Y|(Y1 & Y2 & Y3)]; auto. right. split; [lia|]. split; auto.
        exists row. rewrite Y1, Z.sub_diag. rewrite Z.sub_0_r in Y3. auto.
      * right. split; [lia|]. split; auto.
Qed.

Theorem C17_start_goal_free : forall text s,
  (m_initial (parse_maze text) = Ok s -> free (parse_maze text) s) /\
  (m_is_goal (parse_maze text) s = Ok true -> free (parse_maze text) s).
Proof.
  intros text s. unfold parse_maze. destruct (parse_lines 0 _ (None, None)) as [rows [st gl]] eqn:E.
  destruct (parse_lines_spec _ _ _ _ _ E) as (_ & A1 & A2). cbn [fst snd] in A1, A2.
  unfold m_initial, m_is_goal, free. cbn [m_start m_goal m_rows]. split.
  - destruct st as [s1|]; [|discriminate]. intros X. injection X as ->.
    destruct (A1 s eq_refl) as [X|(X1 & X2 & X3)]; [discriminate|]. rewrite Z.sub_0_r in X3. auto.
  - destruct gl as [g1|]; [|discriminate]. intros X. destruct (pyeqb_spec s g1) as [ -> |]; [|discriminate].
    destruct (A2 g1 eq_refl) as [X'|(X1 & X2 & X3)]; [discriminate|]. rewrite Z.sub_0_r in X3. auto.
Qed.

(** The cells are read off the text: blanks, the start 'o' and the goal 'x' are free, everything else is a
    wall. *)
Definition text_at (text : list ascii) (c : cell) : option ascii :=
  if (0 <=? fst c) && (0 <=? snd c) then
    match nth_error (split_lines (rstrip (lstrip text))) (Z.to_nat (snd c)) with
    | Some line => nth_error (rstrip line) (Z.to_nat (fst c))
    | None => None
    end
  else None.

Lemma parse_line_row : forall y line x st row st', parse_line y x line st = (row, st') ->
  row = map (fun c => if open_char c then 1 else 0) line.
Proof.
  intros y. induction line as [|c line IH]; intros x st row st' E; cbn [parse_line] in E; [injection E as <- <-; reflexivity|].
  destruct (parse_line y (x + 1) line _) as [row1 st1] eqn:P. injection E as <- <-. cbn. f_equal. eapply IH; eauto.
Qed.

Lemma parse_lines_rows : forall lines y st rows st', parse_lines y lines st = (rows, st') ->
  rows = map (fun l => map (fun c => if open_char c then 1 else 0) (rstrip l)) lines.
Proof.
  induction lines as [|l lines IH]; intros y st rows st' E; cbn [parse_lines] in E; [injection E as <- <-; reflexivity|].
  destruct (parse_line y 0 (rstrip l) st) as [row st1] eqn:P.
  destruct (parse_lines (y + 1) lines st1) as [rows1 st2] eqn:Q. injection E as <- <-. cbn. f_equal; [|eapply IH; eauto].
  eapply parse_line_row; eauto.
Qed.

Lemma nth_error_map_some : forall A B (f : A -> B) l n b, nth_error (map f l) n = Some b <-> exists a, nth_error l n = Some a /\ f a = b.
Proof.
  intros A B f. induction l as [|a l IH]; intros [|n] b; cbn; try (split; [discriminate|intros (? & X & _); discriminate]).
  - split; [intros E; injection E as <-; eauto|intros (x & E & <-); injection E as <-; auto].
  - apply IH.
Qed.

Theorem C17_cells : forall text c,
  free (parse_maze text) c <-> exists ch, text_at text c = Some ch /\ In ch [" "%char; "o"%char; "x"%char].
Proof.
  intros text [x y]. unfold parse_maze, text_at, free. destruct (parse_lines 0 _ (None, None)) as [rows [st gl]] eqn:E.
  pose proof (parse_lines_rows _ _ _ _ _ E) as ->. cbn [m_rows fst snd].
  assert (O : forall ch, open_char ch = true <-> In ch [" "%char; "o"%char; "x"%char]).
  { intros ch. unfold open_char. rewrite !orb_true_iff, !Ascii.eqb_eq. cbn. intuition. }
  split.
  - intros (Hx & Hy & row & Er & Ev). apply nth_error_map_some in Er as (line & El & <-).
    apply nth_error_map_some in Ev as (ch & Ec & Eo).
    rewrite (proj2 (Z.leb_le _ _) Hx), (proj2 (Z.leb_le _ _) Hy). cbn [andb]. rewrite El. exists ch. split; auto.
    apply O. destruct (open_char ch); auto. discriminate.
  - intros (ch & Et & Io). destruct (Z.leb_spec 0 x), (Z.leb_spec 0 y); cbn [andb] in Et; try discriminate.
    split; auto. split; auto. destruct (nth_error (split_lines _) (Z.to_nat y)) as [line|] eqn:El; [|discriminate].
    eexists. split; [apply nth_error_map_some; eauto|]. apply nth_error_map_some. exists ch. split; auto.
    now rewrite (proj2 (O ch) Io).
Qed.

Lemma parse_line_marks : forall y line x st row st', parse_line y x line st = (row, st') ->
  (forall s, fst st' = Some s -> fst st = Some s \/
     (snd s = y /\ x <= fst s /\ nth_error line (Z.to_nat (fst s - x)) = Some "o"%char)) /\
  (forall s, snd st' = Some s -> snd st = Some s \/
     (snd s = y /\ x <= fst s /\ nth_error line (Z.to_nat (fst s - x)) = Some "x"%char)) /\
  (fst st <> None \/ In "o"%char line -> fst st' <> None) /\ (snd st <> None \/ In "x"%char line -> snd st' <> None).
Proof.
  intros y. induction line as [|c line IH]; intros x st row st' E.
  - injection E as <- <-. cbn. intuition.
  - cbn [parse_line] in E. destruct (parse_line y (x + 1) line _) as [row1 st1] eqn:P.
    injection E as <- <-. destruct (IH _ _ _ _ P) as (H1 & H2 & H3 & H4).
    assert (Sh : forall (s : cell) ch, x + 1 <= fst s -> nth_error line (Z.to_nat (fst s - (x + 1))) = Some ch ->
              nth_error (c :: line) (Z.to_nat (fst s - x)) = Some ch).
    { intros s ch Hs Hn. replace (Z.to_nat (fst s - x)) with (S (Z.to_nat (fst s - (x + 1)))) by lia. exact Hn. }
    split; [|split; [|split]].
    + intros s Es. destruct (H1 s Es) as [X|(X1 & X2 & X3)].
      * destruct (open_char c) eqn:O; [|auto]. cbn [fst] in X. destruct (Ascii.eqb_spec c "o") as [ -> |]; [|auto].
        injection X as <-. right. cbn [fst snd]. split; auto. split; [lia|]. now rewrite Z.sub_diag.
      * right. split; auto. split; [lia|]. apply Sh; auto.
    + intros s Es. destruct (H2 s Es) as [X|(X1 & X2 & X3)].
      * destruct (open_char c) eqn:O; [|auto]. cbn [snd] in X. destruct (Ascii.eqb_spec c "x") as [ -> |]; [|auto].
        injection X as <-. right. cbn [fst snd]. split; auto. split; [lia|]. now rewrite Z.sub_diag.
      * right. split; auto. split; [lia|]. apply Sh; auto.
    + intros Hs. apply H3. destruct Hs as [Hs|[ -> |Hs]]; [left|left; discriminate|now right].
      destruct (open_char c); auto. cbn [fst]. destruct (Ascii.eqb c "o"); [discriminate|auto].
    + intros Hs. apply H4. destruct Hs as [Hs|[ -> |Hs]]; [left|left; discriminate|now right].
      destruct (open_char c); auto. cbn [snd]. destruct (Ascii.eqb c "x"); [discriminate|auto].
Qed.

Lemma parse_lines_marks : forall lines y st rows st', parse_lines y lines st = (rows, st') ->
  (forall s, fst st' = Some s -> fst st = Some s \/ (y <= snd s /\ 0 <= fst s /\
     exists line, nth_error lines (Z.to_nat (snd s - y)) = Some line /\ nth_error (rstrip line) (Z.to_nat (fst s)) = Some "o"%char)) /\
  (forall s, snd st' = Some s -> snd st = Some s \/ (y <= snd s /\ 0 <= fst s /\
     exists line, nth_error lines (Z.to_nat (snd s - y)) = Some line /\ nth_error (rstrip line) (Z.to_nat (fst s)) = Some "x"%char)) /\
  (fst st <> None \/ (exists line, In line lines /\ In "o"%char (rstrip line)) -> fst st' <> None) /\
  (snd st <> None \/ (exists line, In line lines /\ In "x"%char (rstrip line)) -> snd st' <> None).
Proof.
  induction lines as [|l lines IH]; intros y st rows st' E.
  - injection E as <- <-. split; [auto|]. split; [auto|]. split; intros [H|(line & [] & _)]; auto.
  - cbn [parse_lines] in E. destruct (parse_line y 0 (rstrip l) st) as [row st1] eqn:P.
    destruct (parse_lines (y + 1) lines st1) as [rows1 st2] eqn:Q. injection E as <- <-.
    destruct (parse_line_marks _ _ _ _ _ _ P) as (A1 & A2 & A3 & A4). destruct (IH _ _ _ _ Q) as (H1 & H2 & H3 & H4).
    assert (Sh : forall (s : cell) ch, y + 1 <= snd s ->
              (exists r, nth_error lines (Z.to_nat (snd s - (y + 1))) = Some r /\ nth_error (rstrip r) (Z.to_nat (fst s)) = Some ch) ->
              exists r, nth_error (l :: lines) (Z.to_nat (snd s - y)) = Some r /\ nth_error (rstrip r) (Z.to_nat (fst s)) = Some ch).
    { intros s ch Hs (r & R1 & R2). exists r. split; auto.
      replace (Z.to_nat (snd s - y)) with (S (Z.to_nat (snd s - (y + 1)))) by lia. exact R1. }
    split; [|split; [|split]].
    + intros s Es. destruct (H1 s Es) as [X|(X1 & X2 & X3)].
      * destruct (A1 s X) as [Y|(Y1 & Y2 & Y3)]; auto. right. split; [lia|]. split; auto.
        exists l. rewrite Y1, Z.sub_diag. rewrite Z.sub_0_r in Y3. auto.
      * right. split; [lia|]. split; auto.
    + intros s Es. destruct (H2 s Es) as [X|(X1 & X2 & X3)].
      * destruct (A2 s X) as [Y|(Y1 & Y2 & Y3)]; auto. right. split; [lia|]. split; auto.
        exists l. rewrite Y1, Z.sub_diag. rewrite Z.sub_0_r in Y3. auto.
      * right. split; [lia|]. split; auto.
    + intros [Hs|(line & [ -> |I] & J)]; apply H3; [left; auto|left; auto|right; eauto].
    + intros [Hs|(line & [ -> |I] & J)]; apply H4; [left; auto|left; auto|right; eauto].
Qed.

(** The start is a cell marked 'o' and the goal one marked 'x', and they exist when such a cell does. *)
Theorem C17_start_goal : forall text s,
  (m_initial (parse_maze text) = Ok s -> text_at text s = Some "o"%char) /\
  (m_is_goal (parse_maze text) s = Ok true -> text_at text s = Some "x"%char) /\
  (text_at text s = Some "o"%char -> exists s', m_initial (parse_maze text) = Ok s') /\
  (text_at text s = Some "x"%char -> exists g, forall u, m_is_goal (parse_maze text) u = Ok true <-> u = g).
Proof.
  intros text s. unfold parse_maze. destruct (parse_lines 0 _ (None, None)) as [rows [st gl]] eqn:E.
  destruct (parse_lines_marks _ _ _ _ _ E) as (A1 & A2 & A3 & A4). cbn [fst snd] in A1, A2, A3, A4.
  assert (T : forall u ch, 0 <= snd u -> 0 <= fst u -> (exists line, nth_error (split_lines (rstrip (lstrip text))) (Z.to_nat (snd u - 0)) = Some line /\
     nth_error (rstrip line) (Z.to_nat (fst u)) = Some ch) -> text_at text u = Some ch).
  { intros u ch U1 U2 (line & L1 & L2). unfold text_at. rewrite (proj2 (Z.leb_le _ _) U1), (proj2 (Z.leb_le _ _) U2). cbn [andb].
    rewrite Z.sub_0_r in L1. now rewrite L1. }
  assert (T' : forall u ch, text_at text u = Some ch -> exists line, In line (split_lines (rstrip (lstrip text))) /\ In ch (rstrip line)).
  { intros u ch. unfold text_at. destruct ((0 <=? fst u) && (0 <=? snd u)); [|discriminate].
    destruct (nth_error (split_lines _) _) as [line|] eqn:El; [|discriminate]. intros N. exists line.
    split; eapply nth_error_In; eauto. }
  unfold m_initial, m_is_goal. cbn [m_start m_goal]. split; [|split; [|split]].
  - destruct st as [s1|]; [|discriminate]. intros X. injection X as ->.
    destruct (A1 s eq_refl) as [X|(X1 & X2 & X3)]; [discriminate|]. auto.
  - destruct gl as [g1|]; [|discriminate]. intros X. destruct (pyeqb_spec s g1) as [ -> |]; [|discriminate].
    destruct (A2 g1 eq_refl) as [X'|(X1 & X2 & X3)]; [discriminate|]. auto.
  - intros X. destruct st as [s1|]; [eauto|]. exfalso. apply A3; [right; eauto|reflexivity].
  - intros X. destruct gl as [g1|]; [|exfalso; apply A4; [right; eauto|reflexivity]].
    exists g1. intros u. destruct (pyeqb_spec u g1); split; congruence.
Qed.

(** The whole story from the text: in a maze whose stripped lines have equal length, every action
    sequence from the start stays on free cells. *)
Lemma rows_length : forall lines y st rows st', parse_lines y lines st = (rows, st') ->
  forall n, Forall (fun l => List.length (rstrip l) = n) lines -> Forall (fun row => List.length row = n) rows.
Proof.
  induction lines as [|l lines IH]; intros y st rows st' E n F; cbn [parse_lines] in E.
  - injection E as <- <-. constructor.
  - destruct (parse_line y 0 (rstrip l) st) as [row st1] eqn:P.
    destruct (parse_lines (y + 1) lines st1) as [rows1 st2] eqn:Q. injection E as <- <-.
    inversion F; subst. constructor; [|eapply IH; eauto].
    apply parse_line_spec in P. lia.
Qed.

Theorem C17_maze : forall text n s l,
  Forall (fun line => List.length (rstrip line) = n) (split_lines (rstrip (lstrip text))) ->
  m_initial (parse_maze text) = Ok s ->
  exists cs, mrun (parse_maze text) s l cs /\ Forall (free (parse_maze text)) cs /\ List.length cs = List.length l.
Proof.
  intros text n s l F I. apply C17_run_free; [|exact (proj1 (C17_start_goal_free text s) I)].
  unfold parse_maze in *. destruct (parse_lines 0 _ (None, None)) as [rows [st gl]] eqn:E.
  pose proof (rows_length _ _ _ _ _ E _ F) as R. split; cbn [m_nrows m_rows m_cols]; auto.
  destruct rows as [|row rows].
  - constructor.
  - cbn [hd]. inversion R as [|? ? R1 R2]; subst. constructor; auto.
    eapply Forall_impl; [|exact R2]. cbn. intros r Hr. lia.
Qed.

(** LazyAstar with the zero heuristic on a rectangular maze: it finds a plan exactly when the goal can
    be reached, and following the plan in the domain ends on the goal. *)
Definition maze_problem (m : maze) (g : cell) : @problem cell action := {|
  apps _ := all_actions;
  next s a := match m_next m s a with Ok s' => s' | Err _ => s end;
  cost s _ s' := inject_Z (move_cost s s');
  goal s := pyeqb s g;
  heur _ := 0%Q;
  weight := 1%Q |}.

Lemma mrun_exec : forall m g, rectangular m -> forall l s t,
  (exists cs, mrun m s l cs /\ last_of s cs = t) <-> (exists c, exec (maze_problem m g) s l t c).
Proof.
  intros m g R. induction l as [|a l IH]; intros s t; split.
  - intros (cs & H & L). inversion H; subst. exists 0%Q. constructor.
  - intros (c & E). inversion E; subst. exists []. split; [constructor|reflexivity].
  - intros (cs & H & L). inversion H as [|? ? s' ? cs' E H']; subst.
    destruct (proj1 (IH s' (last_of s' cs'))) as (c & X); [eauto|].
    eexists. econstructor; [destruct a; simpl; auto|]. simpl. rewrite E. exact X.
  - intros (c & E). inversion E as [|? ? ? ? c' I E']; subst.
    destruct (C17_step m s a R) as (s' & N & _). simpl in E'. rewrite N in E'.
    destruct (proj2 (IH s' t)) as (cs & X & Y); [eauto|]. exists (s' :: cs). split; auto. econstructor; eauto.
Qed.

Theorem C17_lazy_astar : forall m s g v0 fuel, rectangular m -> free m s -> free m g -> s <> g ->
  (2 + 4 * (Z.to_nat (m_cols m) * Z.to_nat (m_nrows m)) <= fuel)%nat ->
  exists sol, solve fuel (maze_problem m g) s v0 [] = Ok sol /\
    (policy sol <> [] <-> exists l cs, mrun m s l cs /\ last_of s cs = g) /\
    (policy sol <> [] -> exists cs, mrun m s (plan sol) cs /\ last_of s cs = g).
Proof.
  intros m s g v0 fuel R Fs Fg Ne Hf.
  assert (B : forall c, free m c -> 0 <= fst c < m_cols m /\ 0 <= snd c < m_nrows m).
  { intros c (C1 & C2 & row & C3 & C4). destruct R as [R1 R2].
    assert (Z.of_nat (List.length row) = m_cols m).
    { rewrite Forall_forall in R2. apply R2. eapply nth_error_In; eauto. }
    assert (L1 : (Z.to_nat (snd c) < List.length (m_rows m))%nat) by (apply nth_error_Some; congruence).
    assert (L2 : (Z.to_nat (fst c) < List.length row)%nat) by (apply nth_error_Some; congruence). lia. }
  assert (G0 : goal (maze_problem m g) s = false) by (cbn [goal maze_problem]; destruct (pyeqb_spec s g); congruence).
  destruct (C15_complete (maze_problem m g) s v0 [] (cells (Z.to_nat (m_cols m)) (Z.to_nat (m_nrows m))) fuel) as (sol & E & Iff); auto.
  { apply nodup_cells. }
  { apply in_cells. specialize (B s Fs). lia. }
  { intros c a Hc _. simpl. destruct (C17_step m c a R) as (c' & N & [(X & -> & _)|(_ & -> & _)]); rewrite N; auto.
    apply in_cells. specialize (B _ X). lia. }
  { etransitivity; [|exact Hf]. apply le_n_S, le_n_S.
    assert (L : forall u : list cell, list_sum (map (fun s => List.length (apps (maze_problem m g) s)) u) = (4 * List.length u)%nat).
    { induction u as [|x u IH]; simpl in *; [reflexivity|]. rewrite IH. lia. }
    rewrite L, length_cells. lia. }
  exists sol. split; auto. split.
  - rewrite Iff. split.
    + intros (l & t & c & X & Gt). cbn [goal maze_problem] in Gt. destruct (pyeqb_spec t g) as [ -> |]; [|discriminate].
      exists l. apply (mrun_exec m g R). eauto.
    + intros (l & X). apply (mrun_exec m g R) in X. destruct X as (c & X). exists l, g, c. split; auto.
      cbn [goal maze_problem]. now destruct (pyeqb_spec g g).
  - intros NP. destruct (C13_plan_valid fuel _ s v0 [] sol G0 E NP) as (acts & t & c & P1 & _ & P3 & P4 & _).
    simpl in P1. rewrite P1. cbn [goal maze_problem] in P3. destruct (pyeqb_spec t g) as [ -> |]; [|discriminate].
    apply (mrun_exec m g R). eauto.
Qed.

(** A small rectangular maze. *)
Definition tiny_text : list ascii := list_ascii_of_string
"+-o-+
|   |
+-+ +
|   |
+-x-+
"%string.

Example C17_example : exists n s, Forall (fun line => List.length (rstrip line) = n) (split_lines (rstrip (lstrip tiny_text))) /\
  m_initial (parse_maze tiny_text) = Ok s /\ s = (2, 0) /\ m_is_goal (parse_maze tiny_text) (2, 4) = Ok true /\
  m_next (parse_maze tiny_text) s down = Ok (2, 1) /\ m_next (parse_maze tiny_text) s right = Ok s /\
  (match solve 102 (maze_problem (parse_maze tiny_text) (2, 4)) s [] [] with Ok sol => plan sol | Err _ => [] end)
   = [down; right; down; down; left; down].
Proof.
  exists 5%nat, (2, 0). split; [vm_compute; repeat constructor|]. repeat split; vm_compute; reflexivity.
Qed.

(** Finding: lines are stripped on the right, so an opening in the right wall (a trailing space)
    makes a row shorter than the first one, and moving into the missing part raises IndexError. *)
Definition open_text : list ascii := list_ascii_of_string
"+o-+
| | 
|   
+x-+
"%string.

Theorem C17_right_opening_refuted : exists text s s1,
  m_initial (parse_maze text) = Ok s /\ mrun (parse_maze text) s [down] [s1] /\
  m_next (parse_maze text) s1 down = Err IndexError.
Proof.
  exists open_text, (1, 0), (1, 1).
  split; [vm_compute; reflexivity|]. split; [|vm_compute; reflexivity].
  econstructor; [vm_compute; reflexivity|]. constructor.
Qed.

Print Assumptions C16_observation.
Print Assumptions C16_directions.
Print Assumptions C17_cells.
Print Assumptions C17_start_goal.
Print Assumptions C16_stays_on_grid.
Print Assumptions C16_run_on_grid.
Print Assumptions C16_manhattan_lower_bound.
Print Assumptions C16_manhattan_achieved.
Print Assumptions C16_lazy_astar.
Print Assumptions C17_step.
Print Assumptions C17_run_free.
Print Assumptions C17_run_adjacent.
Print Assumptions C17_start_goal_free.
Print Assumptions C17_maze.
Print Assumptions C17_lazy_astar.
Print Assumptions C17_right_opening_refuted.
