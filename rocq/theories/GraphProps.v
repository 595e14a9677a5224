(** C31 (graph colouring) and C43 (the Graph helper). *)
From Coq Require Import String.
From Coq Require Import List Bool Arith ZArith Lia Permutation Sorted.
From Coq Require Import ZifyBool ZifyNat.
From Verif Require Import Py PyList GraphModel.
Import ListNotations.

Section GraphProps.
Context {N V : Type} {EN : PyEq N} (le : N -> N -> bool).
Implicit Types (nodes : list (N * attrs V)) (edges : list (N * N * attrs V)).

(** * C43 *)

(** [n] and [m] are joined: an edge (n,m) was given, or (m,n) when the graph is undirected. *)
Definition joined edges (u : bool) (n m : N) : Prop :=
  exists d, In (n, m, d) edges \/ (u = true /\ In (m, n, d) edges).

(** The attributes of the last given edge joining [n] to [m]. *)
Fixpoint last_edge edges (u : bool) (n m : N) : option (attrs V) :=
  match edges with
  | [] => None
  | (a, b, d) :: r => match last_edge r u n m with
                      | Some d' => Some d'
                      | None => if (pyeqb n a && pyeqb m b) || (u && pyeqb n b && pyeqb m a) then Some d else None
                      end
  end.
(** The attributes given last for the node [n]. *)
Fixpoint last_node nodes (n : N) : option (attrs V) :=
  match nodes with
  | [] => None
  | (a, d) :: r => match last_node r n with Some d' => Some d' | None => if pyeqb n a then Some d else None end
  end.

Definition look (d : list (N * list N)) (k : N) : list N := match dget d k with Some s => s | None => [] end.

Lemma add_to_look : forall d k x k' y, In y (look (add_to d k x) k') <-> In y (look d k') \/ (k' = k /\ y = x).
Proof.
  intros. unfold add_to, look. rewrite dget_dset. destruct (pyeqb_spec k k') as [ -> |E].
  - rewrite pyadd_In. intuition.
  - split; [auto|]. intros [H|[H _]]; [auto|congruence].
Qed.

Lemma add_to_NoDup : forall d k x k', (forall k, NoDup (look d k)) -> NoDup (look (add_to d k x) k').
Proof.
  intros d k x k' H. unfold add_to, look. rewrite dget_dset. destruct (pyeqb_spec k k') as [ -> |E].
  - apply pyadd_NoDup. apply (H k').
  - apply (H k').
Qed.

Definition inv edges u (st : list (N * list N) * list (N * list N) * list (N * N * attrs V)) : Prop :=
  let '(nb, pr, inf) := st in
  (forall n m, In m (look nb n) <-> joined edges u n m) /\
  (forall n m, In m (look pr n) <-> joined edges u m n) /\
  (forall n m, dget inf (n, m) = last_edge edges u n m) /\
  (forall n, NoDup (look nb n)) /\ (forall n, NoDup (look pr n)) /\
  NoDup (dkeys inf) /\ (forall n m, In (n, m) (dkeys inf) <-> joined edges u n m).

Lemma joined_snoc : forall edges u a b d n m, joined (edges ++ [(a, b, d)]) u n m <->
  joined edges u n m \/ (n = a /\ m = b) \/ (u = true /\ n = b /\ m = a).
Proof.
  intros. unfold joined. split.
  - intros [d0 [H|[U H]]]; apply in_app_iff in H; destruct H as [H|[E|[]]]; try (injection E as <- <- <-); eauto 8.
  - intros [[d0 [H|[U H]]]|[[ -> -> ]|[U [ -> -> ]]]];
      [exists d0; left; apply in_app_iff; auto|exists d0; right; split; auto; apply in_app_iff; auto|
       exists d; left; apply in_app_iff; simpl; auto|exists d; right; split; auto; apply in_app_iff; simpl; auto].
Qed.

Lemma last_edge_snoc : forall edges u a b d n m, last_edge (edges ++ [(a, b, d)]) u n m =
  if (pyeqb n a && pyeqb m b) || (u && pyeqb n b && pyeqb m a) then Some d else last_edge edges u n m.
Proof.
  induction edges as [|[[a' b'] d'] edges IH]; intros u a b d n m; simpl; auto.
  rewrite IH. destruct ((pyeqb n a && pyeqb m b) || (u && pyeqb n b && pyeqb m a)); reflexivity.
Qed.

Lemma build_inv : forall edges u, inv edges u (fold_left (build_edge u) edges ([], [], [])).
Proof.
  intros edges u. induction edges as [|[[a b] d] edges IH] using rev_ind.
  - assert (J : forall n m, ~ joined [] u n m) by (intros n m [d [[]|[_ []]]]).
    unfold inv, look. simpl. repeat match goal with |- _ /\ _ => split end; intros; try constructor; try easy;
      try (intros X; exfalso; eapply J; eauto).
  - rewrite fold_left_app. destruct (fold_left _ edges _) as [[nb pr] inf].
    destruct IH as [I1 [I2 [I3 [I4 [I5 [I6 I7]]]]]]. cbn [fold_left build_edge].
    assert (K : forall n m, dget (dset inf (a, b) d) (n, m) = if pyeqb n a && pyeqb m b then Some d else dget inf (n, m)).
    { intros n m. rewrite dget_dset. cbn. destruct (pyeqb_spec a n), (pyeqb_spec b m), (pyeqb_spec n a), (pyeqb_spec m b); cbn; congruence. }
    destruct u; unfold inv; repeat match goal with |- _ /\ _ => split end; intros.
    + rewrite !add_to_look, joined_snoc, I1. intuition.
    + rewrite !add_to_look, joined_snoc, I2. intuition.
    + rewrite dget_dset, K, last_edge_snoc, I3. cbn.
      destruct (pyeqb_spec b n), (pyeqb_spec a m), (pyeqb_spec n b), (pyeqb_spec m a); cbn; try congruence;
      destruct (pyeqb n a && pyeqb m b); cbn; auto.
    + apply add_to_NoDup. intros; now apply add_to_NoDup.
    + apply add_to_NoDup. intros; now apply add_to_NoDup.
    + now apply NoDup_dset, NoDup_dset.
    + rewrite !dkeys_dset, joined_snoc, I7. intuition congruence.
    + rewrite !add_to_look, joined_snoc, I1. intuition; discriminate.
    + rewrite !add_to_look, joined_snoc, I2. intuition; discriminate.
    + rewrite K, last_edge_snoc, I3. cbn. now rewrite orb_false_r.
    + now apply add_to_NoDup.
    + now apply add_to_NoDup.
    + now apply NoDup_dset.
    + rewrite !dkeys_dset, joined_snoc, I7. intuition congruence.
Qed.

Lemma make_graph_inv : forall nodes edges u, let g := make_graph le nodes edges u in
  inv edges u (g_neighbors g, g_predecessors g, g_edges_infos g) /\ g_edges g = edges /\
  g_nodes_infos g = nodes_infos nodes /\ g_names g = ssort le (dkeys (nodes_infos nodes)).
Proof.
  intros nodes edges u g. subst g. unfold make_graph. pose proof (build_inv edges u) as I.
  destruct (fold_left (build_edge u) edges ([], [], [])) as [[nb pr] inf]. auto.
Qed.

Lemma nodes_infos_spec : forall nodes, NoDup (dkeys (nodes_infos nodes)) /\
  (forall n, In n (dkeys (nodes_infos nodes)) <-> In n (map fst nodes)) /\
  (forall n, dget (nodes_infos nodes) n = last_node nodes n).
Proof.
  intros nodes. unfold nodes_infos. induction nodes as [|[a d] nodes IH] using rev_ind.
  - simpl. split; [constructor|]. split; [tauto|auto].
  - rewrite fold_left_app. cbn [fold_left fst snd]. destruct IH as [I1 [I2 I3]].
    split; [now apply NoDup_dset|]. split.
    + intros n. rewrite dkeys_dset, map_app, in_app_iff, I2. simpl. intuition.
    + intros n. rewrite dget_dset, I3. clear. induction nodes as [|[b e] nodes IH]; simpl.
      * destruct (pyeqb_spec a n), (pyeqb_spec n a); congruence.
      * rewrite <- IH. destruct (pyeqb a n); reflexivity.
Qed.

Theorem C43_neighbors : forall nodes edges u n m,
  In m (get_neighbors (make_graph le nodes edges u) n) <-> joined edges u n m.
Proof. intros. destruct (make_graph_inv nodes edges u) as [[I _] _]. apply I. Qed.

Theorem C43_predecessors : forall nodes edges u n m,
  In m (get_predecessors (make_graph le nodes edges u) n) <-> joined edges u m n.
Proof. intros. destruct (make_graph_inv nodes edges u) as [[_ [I _]] _]. apply I. Qed.

(** Consequences: predecessors are the converse of neighbours; the same sets in an undirected graph;
    no repetitions. *)
Theorem C43_converse : forall nodes edges u n m, let g := make_graph le nodes edges u in
  (In m (get_predecessors g n) <-> In n (get_neighbors g m)) /\
  (u = true -> (In m (get_neighbors g n) <-> In n (get_neighbors g m))) /\
  NoDup (get_neighbors g n) /\ NoDup (get_predecessors g n).
Proof.
  intros nodes edges u n m g. unfold g. rewrite !C43_neighbors, C43_predecessors. split; [reflexivity|]. split.
  - intros -> . unfold joined. firstorder.
  - destruct (make_graph_inv nodes edges u) as [[_ [_ [_ [I4 [I5 _]]]]] _]. split; [apply I4|apply I5].
Qed.

(** Edges and their attributes; the last edge given for a pair wins (in an undirected graph the two
    directions are one pair). *)
Theorem C43_edges : forall nodes edges u, let g := make_graph le nodes edges u in
  NoDup (get_edges g) /\ (forall n m, In (n, m) (get_edges g) <-> joined edges u n m) /\
  (forall n m a, get_attr_edge g n m a = match last_edge edges u n m with Some d => dget d a | None => None end).
Proof.
  intros nodes edges u g. destruct (make_graph_inv nodes edges u) as [[_ [_ [I3 [_ [_ [I6 I7]]]]]] _]. fold g in I3, I6, I7.
  split; [exact I6|]. split; [exact I7|]. intros. unfold get_attr_edge. now rewrite I3.
Qed.

(** Nodes: sorted, each name once, the last attributes given. *)
Theorem C43_nodes : (forall x y, le x y = false -> le y x = true) ->
  forall nodes edges u, let g := make_graph le nodes edges u in
  NoDup (get_nodes g) /\ Sorted (fun x y => le x y = true) (get_nodes g) /\
  (forall n, In n (get_nodes g) <-> In n (map fst nodes)) /\
  (forall n a, get_attr_node g n a = match last_node nodes n with Some d => dget d a | None => None end).
Proof.
  intros T nodes edges u g. destruct (make_graph_inv nodes edges u) as [_ [_ [E1 E2]]]. fold g in E1, E2.
  destruct (nodes_infos_spec nodes) as [I1 [I2 I3]]. unfold get_nodes, get_attr_node. rewrite E1, E2.
  pose proof (ssort_perm le (dkeys (nodes_infos nodes))) as P.
  split; [eapply Permutation_NoDup; eauto|]. split; [now apply ssort_sorted|]. split.
  - intros n. rewrite <- I2. split; apply Permutation_in; auto. now apply Permutation_sym.
  - intros. now rewrite I3.
Qed.

(** * C31 *)
Local Open Scope Z_scope.

(** The number of different elements. *)
Definition distinct (l : list Z) (k : Z) : Prop :=
  exists s, NoDup s /\ (forall x, In x s <-> In x l) /\ k = Z.of_nat (length s).

(** Edges between given nodes. *)
Definition well_formed nodes edges : Prop :=
  forall a b d, In (a, b, d) edges -> In a (map fst nodes) /\ In b (map fst nodes).

(** Colours in normal form: the next new colour is one more than the largest so far, starting from 0. *)
Definition normal (r : list Z) : Prop :=
  (forall x, In x r -> 0 <= x) /\
  forall j x, nth_error r j = Some (x + 1) -> 0 <= x -> exists i, (i < j)%nat /\ nth_error r i = Some x.

Definition monochromatic edges (c : N -> Z) : list (N * N * attrs V) :=
  filter (fun e => c (fst (fst e)) =? c (snd (fst e))) edges.

Lemma names_spec : forall nodes edges u, let g := make_graph le nodes edges u in
  NoDup (g_names g) /\ forall n, In n (g_names g) <-> In n (map fst nodes).
Proof.
  intros nodes edges u g. destruct (make_graph_inv nodes edges u) as [_ [_ [E1 E2]]]. fold g in E1, E2.
  destruct (nodes_infos_spec nodes) as [I1 [I2 I3]]. rewrite E2.
  pose proof (ssort_perm le (dkeys (nodes_infos nodes))) as P.
  split; [eapply Permutation_NoDup; eauto|].
  intros n. rewrite <- I2. split; apply Permutation_in; auto. now apply Permutation_sym.
Qed.

Lemma index_nodes_get : forall (g : graph N V) i n, NoDup (g_names g) -> nth_error (g_names g) i = Some n ->
  dget (index_nodes g) n = Some i.
Proof.
  intros g i n ND NE. unfold index_nodes.
  assert (G : forall (l : list N) k d, NoDup l ->
     forall m, dget (fold_left (fun d e => dset d (snd e) (fst e)) (combine (seq k (length l)) l) d) m =
       match find (fun e => pyeqb m (snd e)) (combine (seq k (length l)) l) with Some e => Some (fst e) | None => dget d m end).
  { induction l as [|x l IH]; intros k d D m; auto. inversion D; subst. cbn [length seq combine fold_left fst snd find].
    rewrite IH by assumption. destruct (pyeqb_spec m x) as [ -> |NX].
    - assert (F : find (fun e : nat * N => pyeqb x (snd e)) (combine (seq (S k) (length l)) l) = None).
      { destruct (find _ _) as [[a b]|] eqn:F; auto. apply find_some in F. destruct F as [F1 F2]. cbn [snd] in F2.
        apply in_combine_r in F1. destruct (pyeqb_spec x b) as [Q|Q]; [|discriminate].
        rewrite <- Q in F1. contradiction. }
      rewrite F. cbn. apply dget_dset_same.
    - destruct (find _ _); auto. apply dget_dset_other. congruence. }
  rewrite G by assumption.
  assert (F : forall (l : list N) k i, NoDup l -> nth_error l i = Some n ->
     find (fun e => pyeqb n (snd e)) (combine (seq k (length l)) l) = Some ((k + i)%nat, n)).
  { induction l as [|x l IH]; intros k j D NJ; destruct j; try discriminate; inversion D; subst; cbn [length seq combine find snd].
    - injection NJ as ->. rewrite pyeqb_refl. do 2 f_equal. lia.
    - cbn in NJ. destruct (pyeqb_spec n x) as [ -> |NX]; [apply nth_error_In in NJ; contradiction|].
      rewrite (IH (S k) j) by assumption. do 2 f_equal. lia. }
  rewrite (F _ 0%nat i) by assumption. reflexivity.
Qed.

Lemma color_of_map : forall (g : graph N V) c n, NoDup (g_names g) -> In n (g_names g) ->
  color_of g (map c (g_names g)) n = Ok (c n).
Proof.
  intros g c n ND I. apply In_nth_error in I. destruct I as [i I]. unfold color_of, dgetE.
  rewrite (index_nodes_get g i n ND I). cbn. apply lget_ok. rewrite nth_error_map, I. reflexivity.
Qed.

(** Every vector of the right length is given by a colouring function. *)
Theorem C31_every_vector : forall nodes edges u (colors : list Z), let g := make_graph le nodes edges u in
  length colors = length (get_nodes g) -> exists c, colors = map c (get_nodes g).
Proof.
  intros nodes edges u colors g L. pose proof (names_spec nodes edges u) as [ND _]. fold g in ND.
  unfold get_nodes in *. revert ND colors L. induction (g_names g) as [|n l IH]; intros ND colors L.
  - destruct colors; [|discriminate]. exists (fun _ => 0). reflexivity.
  - destruct colors as [|x colors]; [discriminate|]. inversion ND; subst.
    destruct (IH H2 colors) as [c ->]; [simpl in L; lia|].
    exists (fun m => if pyeqb m n then x else c m). cbn. rewrite pyeqb_refl. f_equal.
    apply map_ext_in. intros m I. destruct (pyeqb_spec m n); congruence.
Qed.

(** [satisfy] holds exactly when no edge has both ends of the same colour. *)
Theorem C31_satisfy : forall nodes edges u c nb v, let g := make_graph le nodes edges u in
  well_formed nodes edges ->
  exists b, satisfy g (mkCsol (map c (get_nodes g)) nb v) = Ok b /\
    (b = true <-> forall n m d, In (n, m, d) edges -> c n <> c m).
Proof.
  intros nodes edges u c nb v g W. destruct (make_graph_inv nodes edges u) as [_ [E _]].
  pose proof (names_spec nodes edges u) as [ND NI]. unfold satisfy. cbn [c_colors]. fold g in E, ND, NI.
  rewrite E. unfold get_nodes.
  assert (G : forall es, incl es edges -> exists b, satisfy_edges g (map c (g_names g)) es = Ok b /\
    (b = true <-> forall n m d, In (n, m, d) es -> c n <> c m)).
  { induction es as [|[[a b] d] es IH]; intros IN.
    - exists true. split; [reflexivity|]. split; [intros _ n m d []|reflexivity].
    - destruct IH as [r [IH1 IH2]]; [intros e I; apply IN; simpl; auto|].
      destruct (W a b d) as [Wa Wb]; [apply IN; simpl; auto|]. cbn [satisfy_edges].
      rewrite !color_of_map by (auto; now apply NI). cbn [bind].
      destruct (Z.eqb_spec (c a) (c b)) as [Q|Q].
      + exists false. split; [reflexivity|]. split; [discriminate|]. intros H. exfalso. apply (H a b d); simpl; auto.
      + exists r. split; auto. rewrite IH2. split.
        * intros H n m d0 [X|I]; [injection X as <- <- <-; auto|eauto].
        * intros H n m d0 I. apply (H n m d0). simpl; auto. }
  apply G. apply incl_refl.
Qed.

(** [evaluate] of a solution without cached values: the number of colours used and the number of edges
    given with both ends of the same colour. *)
Theorem C31_evaluate : forall nodes edges u c, let g := make_graph le nodes edges u in
  well_formed nodes edges ->
  exists k v, evaluate g (mkCsol (map c (get_nodes g)) None None) =
      Ok (Some k, Some v, mkCsol (map c (get_nodes g)) (Some k) (Some v)) /\
    distinct (map c (get_nodes g)) k /\ v = Z.of_nat (length (monochromatic edges c)) /\
    (v = 0 <-> satisfy g (mkCsol (map c (get_nodes g)) None None) = Ok true).
Proof.
  intros nodes edges u c g W. destruct (make_graph_inv nodes edges u) as [_ [E _]].
  pose proof (names_spec nodes edges u) as [ND NI]. fold g in E, ND, NI.
  assert (CV : count_violations g (mkCsol (map c (get_nodes g)) None None) = Ok (Z.of_nat (length (monochromatic edges c)))).
  { unfold count_violations. cbn [c_colors]. rewrite E. unfold get_nodes.
    assert (G : forall es a, incl es edges ->
      foldM (fun v e => let '(a, b, _) := e in let* x := color_of g (map c (g_names g)) a in
                        let* y := color_of g (map c (g_names g)) b in Ok (if x =? y then v + 1 else v)) a es
      = Ok (a + Z.of_nat (length (monochromatic es c)))).
    { induction es as [|[[x y] d] es IH]; intros a IN; cbn [foldM].
      - cbn. f_equal. lia.
      - destruct (W x y d) as [Wa Wb]; [apply IN; simpl; auto|].
        rewrite !color_of_map by (auto; now apply NI). cbn [bind]. rewrite IH by (intros e I; apply IN; simpl; auto).
        unfold monochromatic. cbn [filter fst snd]. destruct (c x =? c y); cbn [length]; f_equal; lia. }
    apply (G edges 0). apply incl_refl. }
  eexists. eexists. split.
  - unfold evaluate. cbn [c_nb]. rewrite CV. cbn [bind c_nb c_viol c_colors]. reflexivity.
  - split; [exists (pyset (map c (get_nodes g))); split; [apply pyset_NoDup|]; split; [intros; apply pyset_In|reflexivity]|].
    split; [reflexivity|]. destruct (C31_satisfy nodes edges u c None None W) as [b [S1 S2]]. fold g in S1. rewrite S1.
    split.
    + intros Z0. f_equal. apply S2. intros n m d I Q.
      assert (In (n, m, d) (monochromatic edges c)).
      { apply filter_In. split; auto. cbn. now apply Z.eqb_eq. }
      destruct (monochromatic edges c); [contradiction|discriminate].
    + intros H. injection H as ->. pose proof (proj1 S2 eq_refl) as P.
      destruct (monochromatic edges c) as [|[[n m] d] r] eqn:M; [reflexivity|]. exfalso.
      assert (I : In (n, m, d) (monochromatic edges c)) by (rewrite M; simpl; auto).
      apply filter_In in I. destruct I as [I Q]. cbn in Q. apply Z.eqb_eq in Q. exact (P n m d I Q).
Qed.

(** ** Normal form *)

Definition pinv (l : list Z) (st : list (Z * Z) * list Z) : Prop :=
  let '(d, out) := st in
  length out = length l /\ NoDup (dkeys d) /\ (forall c, In c (dkeys d) <-> In c l) /\
  (forall i c, nth_error l i = Some c -> nth_error out i = dget d c) /\
  (forall c v, dget d c = Some v -> 0 <= v < Z.of_nat (length d)) /\
  (forall c1 c2 v, dget d c1 = Some v -> dget d c2 = Some v -> c1 = c2) /\
  (forall x, 0 <= x < Z.of_nat (length d) -> exists i, nth_error out i = Some x) /\
  (forall j x, nth_error out j = Some (x + 1) -> 0 <= x -> exists i, (i < j)%nat /\ nth_error out i = Some x).

Lemma precede_inv : forall l, pinv l (fold_left precede_turn l ([], [])).
Proof.
  induction l as [|c l IH] using rev_ind.
  - cbn. repeat match goal with |- _ /\ _ => split end; try easy; try constructor; try lia.
    + intros i c H. destruct i; discriminate.
    + intros j x H. destruct j; discriminate.
  - rewrite fold_left_app. destruct (fold_left precede_turn l ([], [])) as [d out]. cbn [fold_left precede_turn].
    destruct IH as [L [ND [K [G [R [IJ [SU GR]]]]]]].
    assert (NTH : forall v i y, nth_error (out ++ [v]) i = Some y -> (nth_error out i = Some y /\ (i < length out)%nat) \/ (i = length out /\ y = v)).
    { intros v i y H. destruct (lt_dec i (length out)) as [D|D].
      - rewrite nth_error_app1 in H by assumption. auto.
      - rewrite nth_error_app2 in H by lia. destruct (i - length out)%nat as [|k] eqn:EK.
        + injection H as <-. right. split; [lia|reflexivity].
        + destruct k; discriminate. }
    destruct (dget d c) as [v|] eqn:Dc.
    + unfold pinv. rewrite !app_length. cbn [length].
      repeat match goal with |- _ /\ _ => split end; auto.
      * intros x. rewrite K, in_app_iff. simpl. split; [auto|]. intros [H|[ <- |[]]]; auto.
        apply K. apply dget_In in Dc. apply in_map_iff. exists (c, v). auto.
      * intros i x H. destruct (lt_dec i (length l)) as [D|D].
        -- rewrite nth_error_app1 in H by assumption. rewrite nth_error_app1 by lia. auto.
        -- rewrite nth_error_app2 in H by lia. rewrite nth_error_app2 by lia. rewrite L.
           destruct (i - length l)%nat as [|k]; [|destruct k; discriminate]. injection H as <-. now rewrite Dc.
      * intros x H. destruct (SU x H) as [i Hi]. exists i. rewrite nth_error_app1; auto.
        apply nth_error_Some. congruence.
      * intros j x H H0. destruct (NTH _ _ _ H) as [[H1 H2]|[ -> H2]].
        -- destruct (GR j x H1 H0) as [i [I1 I2]]. exists i. split; auto. rewrite nth_error_app1 by lia. auto.
        -- pose proof (R c v Dc) as Rv. destruct (SU x) as [i Hi]; [lia|].
           assert (i < length out)%nat by (apply nth_error_Some; congruence).
           exists i. split; auto. rewrite nth_error_app1; auto.
    + set (v := Z.of_nat (length d)).
      assert (NI : ~ In c (dkeys d)) by (now apply dget_None).
      assert (LD : length (dset d c v) = S (length d)).
      { now apply dset_length_new. }
      unfold pinv. rewrite !app_length, LD. cbn [length].
      repeat match goal with |- _ /\ _ => split end; auto.
      * now apply NoDup_dset.
      * intros x. rewrite dkeys_dset, K, in_app_iff. simpl. intuition.
      * intros i x H. rewrite dget_dset. destruct (lt_dec i (length l)) as [D|D].
        -- rewrite nth_error_app1 in H by assumption. rewrite nth_error_app1 by lia.
           destruct (pyeqb_spec c x) as [ <- |]; [|auto]. exfalso. apply NI, K. eapply nth_error_In; eauto.
        -- rewrite nth_error_app2 in H by lia. rewrite nth_error_app2 by lia. rewrite L.
           destruct (i - length l)%nat as [|k]; [|destruct k; discriminate]. injection H as <-.
           now rewrite pyeqb_refl.
      * intros x w H. rewrite dget_dset in H. destruct (pyeqb_spec c x); [injection H as <-; lia|].
        apply R in H. lia.
      * intros c1 c2 w H1 H2. rewrite dget_dset in H1, H2.
        destruct (pyeqb_spec c c1), (pyeqb_spec c c2); try congruence.
        -- injection H1 as <-. apply R in H2. lia.
        -- injection H2 as <-. apply R in H1. lia.
        -- eapply IJ; eauto.
      * intros x H. destruct (Z.eq_dec x v) as [ -> |NE].
        -- exists (length out). rewrite nth_error_app2 by lia. now rewrite Nat.sub_diag.
        -- destruct (SU x) as [i Hi]; [lia|]. exists i. rewrite nth_error_app1; auto. apply nth_error_Some. congruence.
      * intros j x H H0. destruct (NTH _ _ _ H) as [[H1 H2]|[ -> H2]].
        -- destruct (GR j x H1 H0) as [i [I1 I2]]. exists i. split; auto. rewrite nth_error_app1 by lia. auto.
        -- destruct (SU x) as [i Hi]; [lia|].
           assert (i < length out)%nat by (apply nth_error_Some; congruence).
           exists i. split; auto. rewrite nth_error_app1; auto.
Qed.

(** The normal form has the same colour classes, is in normal form, and uses the colours 0..k-1 where
    k is the number of colours of the original. *)
Theorem C31_normalise : forall l, let r := value_precede l in
  length r = length l /\ normal r /\
  (forall i j x y x' y', nth_error l i = Some x -> nth_error l j = Some y ->
     nth_error r i = Some x' -> nth_error r j = Some y' -> (x = y <-> x' = y')) /\
  (forall k, distinct l k -> forall c, In c r <-> 0 <= c < k).
Proof.
  intros l r. unfold r, value_precede. pose proof (precede_inv l) as P.
  destruct (fold_left precede_turn l ([], [])) as [d out]. cbn [snd].
  destruct P as [L [ND [K [G [R [IJ [SU GR]]]]]]].
  assert (IN : forall x, In x out -> 0 <= x < Z.of_nat (length d)).
  { intros x I. apply In_nth_error in I. destruct I as [i I].
    destruct (nth_error l i) as [c|] eqn:NL.
    - rewrite (G i c NL) in I. eapply R; eauto.
    - apply nth_error_None in NL. assert (i < length out)%nat by (apply nth_error_Some; congruence). lia. }
  split; auto. split; [split; [intros x I; apply IN in I; lia|exact GR]|]. split.
  - intros i j x y x' y' X Y X' Y'. rewrite (G i x X) in X'. rewrite (G j y Y) in Y'. split; intros Q.
    + subst. congruence.
    + subst y'. eapply IJ; eauto.
  - intros k [s [S1 [S2 ->]]] c.
    assert (LS : length s = length d).
    { rewrite <- (map_length fst d). apply Permutation_length. apply NoDup_Permutation; auto.
      intros x. rewrite S2. symmetry. apply K. }
    rewrite LS. split; [apply IN|]. intros H. destruct (SU c H) as [i Hi]. eapply nth_error_In; eauto.
Qed.

(** It is idempotent. *)
Lemma normal_unique : forall l1 l2, normal l1 -> normal l2 -> length l1 = length l2 ->
  (forall i j x y x' y', nth_error l1 i = Some x -> nth_error l1 j = Some y ->
     nth_error l2 i = Some x' -> nth_error l2 j = Some y' -> (x = y <-> x' = y')) -> l1 = l2.
Proof.
  intros l1 l2 [P1 N1] [P2 N2] L C.
  assert (G : forall n i, (i < n)%nat -> nth_error l1 i = nth_error l2 i).
  { induction n as [|n IH]; intros i Hi; [lia|]. destruct (Nat.eq_dec i n) as [ -> |]; [|apply IH; lia].
    destruct (nth_error l1 n) as [x|] eqn:E1, (nth_error l2 n) as [y|] eqn:E2; auto.
    2,3: (try apply nth_error_None in E1; try apply nth_error_None in E2;
          assert (n < length l1 \/ n < length l2)%nat by ((left; apply nth_error_Some; congruence) || (right; apply nth_error_Some; congruence)); lia).
    f_equal.
    assert (X0 : 0 <= x) by (apply P1; eapply nth_error_In; eauto).
    assert (Y0 : 0 <= y) by (apply P2; eapply nth_error_In; eauto).
    assert (CH : forall (l : list Z), (forall j x, nth_error l j = Some (x + 1) -> 0 <= x -> exists i, (i < j)%nat /\ nth_error l i = Some x) ->
              forall k z j, nth_error l j = Some (z + Z.of_nat k) -> 0 <= z -> (0 < k)%nat -> exists i, (i < j)%nat /\ nth_error l i = Some z).
    { intros l NN. induction k as [|k IHk]; intros z j H Hz Hk; [lia|].
      destruct (NN j (z + Z.of_nat k)) as [i [I1 I2]]; [rewrite H; f_equal; lia|lia|].
      destruct k as [|k]; [exists i; split; auto; rewrite I2; f_equal; lia|].
      destruct (IHk z i I2 Hz) as [i2 [J1 J2]]; [lia|]. exists i2. split; auto. lia. }
    destruct (Z.lt_trichotomy x y) as [Q|[Q|Q]]; auto; exfalso.
    - destruct (CH l2 N2 (Z.to_nat (y - x)) x n) as [i [I1 I2]]; [rewrite E2; f_equal; lia|lia|lia|].
      rewrite <- (IH i I1) in I2. assert (I3 : nth_error l2 i = Some x) by (rewrite <- (IH i I1); auto).
      assert (x = y) by (apply (C i n x x x y); auto). lia.
    - destruct (CH l1 N1 (Z.to_nat (x - y)) y n) as [i [I1 I2]]; [rewrite E1; f_equal; lia|lia|lia|].
      assert (I3 : nth_error l2 i = Some y) by (rewrite <- (IH i I1); auto).
      assert (y = x) by (apply (C i n y x y y); auto). lia. }
  apply nth_error_ext. intros i. apply (G (S i)). lia.
Qed.

Theorem C31_normal_form_unique : forall l r, normal r -> length r = length l ->
  (forall i j x y x' y', nth_error l i = Some x -> nth_error l j = Some y ->
     nth_error r i = Some x' -> nth_error r j = Some y' -> (x = y <-> x' = y')) -> value_precede l = r.
Proof.
  intros l r NR LR CR. destruct (C31_normalise l) as [L [NV [CV _]]].
  apply normal_unique; auto; [lia|]. intros i j x y x' y' X Y X' Y'.
  assert (LI : (i < length l)%nat) by (rewrite <- L; apply nth_error_Some; congruence).
  assert (LJ : (j < length l)%nat) by (rewrite <- L; apply nth_error_Some; congruence).
  destruct (nth_error l i) as [a|] eqn:A; [|apply nth_error_None in A; lia].
  destruct (nth_error l j) as [b|] eqn:B; [|apply nth_error_None in B; lia].
  rewrite <- (CV i j a b x y A B X Y). now apply (CR i j).
Qed.

Theorem C31_idempotent : forall l, value_precede (value_precede l) = value_precede l.
Proof.
  intros l. destruct (C31_normalise l) as [_ [NV _]]. apply C31_normal_form_unique; auto.
  intros i j x y x' y' X Y X' Y'. rewrite X in X'. rewrite Y in Y'. injection X' as <-. injection Y' as <-. reflexivity.
Qed.

(** Normalising changes neither [satisfy], nor the violations, nor the number of colours, whatever the
    graph and the vector (even when they do not fit together and an exception is raised). *)
Theorem C31_reformat : forall (g : graph N V) s,
  satisfy g (reformat s) = satisfy g s /\ count_violations g (reformat s) = count_violations g s /\
  forall k, distinct (c_colors s) k -> distinct (c_colors (reformat s)) k.
Proof.
  intros g s. destruct (C31_normalise (c_colors s)) as [L [NV [CV D]]].
  assert (CO : forall a b, match color_of g (c_colors s) a, color_of g (c_colors s) b,
                             color_of g (value_precede (c_colors s)) a, color_of g (value_precede (c_colors s)) b with
                       | Ok x, Ok y, Ok x', Ok y' => (x =? y) = (x' =? y')
                       | Ok _, Err e, Ok _, Err e' => e = e'
                       | Err e, _, Err e', _ => e = e'
                       | _, _, _, _ => False end).
  { intros a b. unfold color_of, dgetE.
    destruct (dget (index_nodes g) a) as [i|]; cbn; [|auto]. 
    destruct (dget (index_nodes g) b) as [j|]; cbn; unfold lget.
    - destruct (nth_error (c_colors s) i) as [x|] eqn:X.
      + assert (i < length (c_colors s))%nat by (apply nth_error_Some; congruence).
        destruct (nth_error (value_precede (c_colors s)) i) as [x'|] eqn:X'; [|apply nth_error_None in X'; lia].
        destruct (nth_error (c_colors s) j) as [y|] eqn:Y.
        * assert (j < length (c_colors s))%nat by (apply nth_error_Some; congruence).
          destruct (nth_error (value_precede (c_colors s)) j) as [y'|] eqn:Y'; [|apply nth_error_None in Y'; lia].
          pose proof (CV i j x y x' y' X Y X' Y') as C.
          destruct (Z.eqb_spec x y), (Z.eqb_spec x' y'); tauto.
        * apply nth_error_None in Y. destruct (nth_error (value_precede (c_colors s)) j) eqn:Y'; auto.
          assert (j < length (value_precede (c_colors s)))%nat by (apply nth_error_Some; congruence). lia.
      + apply nth_error_None in X. destruct (nth_error (value_precede (c_colors s)) i) eqn:X'; auto.
        assert (i < length (value_precede (c_colors s)))%nat by (apply nth_error_Some; congruence). lia.
    - destruct (nth_error (c_colors s) i) as [x|] eqn:X.
      + assert (i < length (c_colors s))%nat by (apply nth_error_Some; congruence).
        destruct (nth_error (value_precede (c_colors s)) i) as [x'|] eqn:X'; [auto|apply nth_error_None in X'; lia].
      + apply nth_error_None in X. destruct (nth_error (value_precede (c_colors s)) i) eqn:X'; auto.
        assert (i < length (value_precede (c_colors s)))%nat by (apply nth_error_Some; congruence). lia. }
  split; [|split].
  - unfold satisfy, reformat. cbn [c_colors]. induction (g_edges g) as [|[[a b] d] es IH]; auto. cbn [satisfy_edges].
    specialize (CO a b). destruct (color_of g (c_colors s) a), (color_of g (c_colors s) b),
      (color_of g (value_precede (c_colors s)) a), (color_of g (value_precede (c_colors s)) b); cbn [bind]; try easy; try congruence.
    rewrite <- CO. destruct (a0 =? a1); auto.
  - unfold count_violations, reformat. cbn [c_colors]. generalize 0. 
    induction (g_edges g) as [|[[a b] d] es IH]; intros z; auto. cbn [foldM].
    specialize (CO a b). destruct (color_of g (c_colors s) a), (color_of g (c_colors s) b),
      (color_of g (value_precede (c_colors s)) a), (color_of g (value_precede (c_colors s)) b); cbn [bind]; try easy; try congruence.
    rewrite <- CO. apply IH.
  - intros k Dk. exists (map Z.of_nat (seq 0 (Z.to_nat k))). pose proof Dk as [s0 [S1 [S2 S3]]]. split; [|split].
    + apply FinFun.Injective_map_NoDup; [intros x y; lia|apply seq_NoDup].
    + intros x. cbn [reformat c_colors]. rewrite (D k Dk), in_map_iff. split.
      * intros [y [ <- Y]]. apply in_seq in Y. lia.
      * intros H. exists (Z.to_nat x). split; [lia|]. apply in_seq. lia.
    + rewrite map_length, seq_length. lia.
Qed.

(** The dummy solution is valid when there are no loops, and uses one colour per node. *)
Theorem C31_dummy : forall nodes edges u, let g := make_graph le nodes edges u in
  well_formed nodes edges -> (forall n d, ~ In (n, n, d) edges) ->
  exists s, dummy g = Ok s /\ satisfy g s = Ok true /\ c_viol s = Some 0 /\
    c_nb s = Some (Z.of_nat (length (get_nodes g))) /\ length (c_colors s) = length (get_nodes g).
Proof.
  intros nodes edges u g W NL. pose proof (names_spec nodes edges u) as [ND NI]. fold g in ND, NI.
  set (cs := map Z.of_nat (seq 0 (length (g_names g)))).
  assert (LC : length cs = length (get_nodes g)) by (unfold cs; now rewrite map_length, seq_length).
  destruct (C31_every_vector nodes edges u cs LC) as [c EC]. fold g in EC.
  destruct (C31_evaluate nodes edges u c W) as [k [v [E [D [Hv Sv]]]]]. fold g in E, D, Sv.
  destruct (C31_satisfy nodes edges u c (Some k) (Some v) W) as [b [S1 S2]]. fold g in S1.
  destruct (C31_satisfy nodes edges u c None None W) as [b' [S1' S2']]. fold g in S1'.
  assert (P : forall n m d, In (n, m, d) edges -> c n <> c m).
  { intros n m d I Q. destruct (W n m d I) as [In1 In2]. apply NI in In1. apply NI in In2.
    apply In_nth_error in In1. apply In_nth_error in In2. destruct In1 as [i Hi]. destruct In2 as [j Hj].
    assert (NTH : forall i n, nth_error (g_names g) i = Some n -> c n = Z.of_nat i).
    { intros i0 n0 H. assert (HH : nth_error cs i0 = Some (c n0)) by (rewrite EC; unfold get_nodes; rewrite nth_error_map, H; reflexivity).
      unfold cs in HH. rewrite nth_error_map in HH.
      rewrite nth_error_seq in HH by (apply nth_error_Some; congruence). cbn in HH. congruence. }
    rewrite (NTH i n Hi), (NTH j m Hj) in Q. assert (i = j) by lia. subst j.
    rewrite Hi in Hj. injection Hj as ->. apply (NL m d I). }
  pose proof (proj2 S2 P) as ->. pose proof (proj2 S2' P) as ->.
  unfold dummy. fold cs. rewrite EC, E. cbn [bind snd]. eexists. split; [reflexivity|]. split; [exact S1|].
  cbn [c_viol c_nb c_colors]. split; [f_equal; now apply Sv|]. split; [|now rewrite <- EC].
  destruct D as [s [D1 [D2 ->]]]. do 2 f_equal. rewrite <- LC.
  apply Permutation_length. apply NoDup_Permutation; auto.
  - unfold cs. apply FinFun.Injective_map_NoDup; [intros x y; lia|apply seq_NoDup].
  - intros x. rewrite D2, EC. reflexivity.
Qed.

(** The greedy solver, whatever networkx does: if every dictionary it returns colours exactly the nodes
    and gives different colours to the ends of every edge, the solution returned is valid, in normal
    form, and uses at most as many colours as the result of any strategy that did not fail. *)
Theorem C31_greedy : (forall x y, le x y = false -> le y x = true) ->
  (forall x y, le x y = true -> le y x = true -> x = y) ->
  (forall x y z, le x y = true -> le y z = true -> le x z = true) ->
  forall nodes edges u nx strategies, let g := make_graph le nodes edges u in
  well_formed nodes edges ->
  (forall st colors, nx st = Some colors -> NoDup (dkeys colors) /\ (forall n, In n (dkeys colors) <-> In n (map fst nodes)) /\
     (forall a b d, In (a, b, d) edges -> dget colors a <> dget colors b)) ->
  (exists st, In st strategies /\ nx st <> None) ->
  exists s k, greedy_coloring le nx strategies = Ok s /\ satisfy g s = Ok true /\ normal (c_colors s) /\
    length (c_colors s) = length (get_nodes g) /\ distinct (c_colors s) k /\
    forall st colors k', In st strategies -> nx st = Some colors -> distinct (map snd colors) k' -> k <= k'.
Proof.
  intros TO AS TR nodes edges u nx strategies g W H [st0 [I0 N0]].
  destruct (C43_nodes TO nodes edges u) as [ND [SO [NI _]]]. fold g in ND, SO, NI.
  assert (ONE : forall st colors, nx st = Some colors -> exists c,
     mapM (fun n => dgetE colors n) (ssort le (dkeys colors)) = Ok (map c (get_nodes g)) /\
     (forall a b d, In (a, b, d) edges -> c a <> c b) /\
     (forall x, In x (map snd colors) <-> In x (map c (get_nodes g)))).
  { intros st colors E. destruct (H st colors E) as [H1 [H2 H3]].
    assert (KS : ssort le (dkeys colors) = get_nodes g).
    { apply (sorted_unique le); auto; [now apply ssort_sorted|].
      eapply Permutation_trans; [apply Permutation_sym, ssort_perm|]. apply NoDup_Permutation; auto.
      intros x. rewrite H2, NI. reflexivity. }
    exists (fun n => match dget colors n with Some x => x | None => 0 end).
    assert (GE : forall n, In n (map fst nodes) -> exists x, dget colors n = Some x).
    { intros n In0. destruct (dget colors n) eqn:DG; [eauto|]. apply dget_None in DG. exfalso. apply DG. now apply H2. }
    split; [|split].
    - rewrite KS. apply mapM_total. intros n In0. apply NI in In0. destruct (GE n In0) as [x Hx]. unfold dgetE. now rewrite Hx.
    - intros a b d Ie. destruct (W a b d Ie) as [Wa Wb]. destruct (GE a Wa) as [x Hx]. destruct (GE b Wb) as [y Hy].
      specialize (H3 a b d Ie). rewrite Hx, Hy in *. congruence.
    - intros x. rewrite !in_map_iff. split.
      + intros [[n y] [ <- In0]]. exists n. cbn. rewrite (In_dget _ _ _ H1 In0). split; auto. apply NI, H2.
        apply in_map_iff. exists (n, y). auto.
      + intros [n [ <- In0]]. apply NI in In0. destruct (GE n In0) as [y Hy]. exists (n, y). rewrite Hy. cbn. split; auto.
        now apply dget_In. }
  set (good := fun (done : list string) (best : option (list Z * nat)) =>
         match best with
         | None => forall st, In st done -> nx st = None
         | Some (sol, k) => (exists c, sol = map c (get_nodes g) /\ (forall a b d, In (a, b, d) edges -> c a <> c b)) /\
              k = length (pyset sol) /\
              forall st colors, In st done -> nx st = Some colors -> (k <= length (pyset (map snd colors)))%nat
         end).
  assert (LEN : forall l1 l2 : list Z, (forall x, In x l1 <-> In x l2) -> length (pyset l1) = length (pyset l2)).
  { intros l1 l2 E. apply Permutation_length. apply NoDup_Permutation; try apply pyset_NoDup.
    intros x. rewrite !pyset_In. apply E. }
  assert (GOOD : forall todo done best, good done best -> good (done ++ todo) (fold_left (greedy_turn le nx) todo best)).
  { induction todo as [|st todo IH]; intros done best G; cbn [fold_left]; [now rewrite app_nil_r|].
    replace (done ++ st :: todo) with ((done ++ [st]) ++ todo) by (now rewrite <- app_assoc).
    apply IH. unfold greedy_turn. destruct (nx st) as [colors|] eqn:E.
    - destruct (ONE st colors E) as [c [E1 [E2 E3]]]. rewrite E1.
      assert (NEW : length (pyset (map snd colors)) = length (pyset (map c (get_nodes g)))) by (apply LEN; auto).
      destruct best as [[sol k]|].
      + destruct G as [G1 [G2 G3]]. destruct (Nat.ltb_spec (length (pyset (map snd colors))) k) as [Q|Q].
        * split; [eauto|]. split; auto. intros st' co I Ec. apply in_app_iff in I. destruct I as [I|[ <- |[]]].
          -- specialize (G3 st' co I Ec). lia.
          -- rewrite E in Ec. injection Ec as <-. lia.
        * split; auto. split; auto. intros st' co I Ec. apply in_app_iff in I. destruct I as [I|[ <- |[]]]; [eauto|].
          rewrite E in Ec. injection Ec as <-. lia.
      + split; [eauto|]. split; auto. intros st' co I Ec. apply in_app_iff in I. destruct I as [I|[ <- |[]]].
        * rewrite (G st' I) in Ec. discriminate.
        * rewrite E in Ec. injection Ec as <-. lia.
    - destruct best as [[sol k]|].
      + destruct G as [G1 [G2 G3]]. split; auto. split; auto. intros st' co I Ec. apply in_app_iff in I.
        destruct I as [I|[ <- |[]]]; [eauto|congruence].
      + intros st' I. apply in_app_iff in I. destruct I as [I|[ <- |[]]]; auto. }
  specialize (GOOD strategies [] None). cbn [app] in GOOD.
  assert (G0 : good [] None) by (intros st []). specialize (GOOD G0).
  unfold greedy_coloring. destruct (fold_left (greedy_turn le nx) strategies None) as [[sol k]|].
  - destruct GOOD as [[c [-> PC]] [Ek G3]].
    set (s := mkCsol (map c (get_nodes g)) None None).
    destruct (C31_reformat g s) as [R1 [R2 R3]]. destruct (C31_normalise (c_colors s)) as [L [NV _]].
    exists (reformat s), (Z.of_nat k). split; [reflexivity|]. split.
    + rewrite R1. destruct (C31_satisfy nodes edges u c None None W) as [b [S1 S2]]. fold g in S1. fold s in S1.
      rewrite S1. f_equal. now apply S2.
    + split; [exact NV|]. split; [cbn [reformat c_colors]; rewrite L; apply map_length|]. split.
      * apply R3. exists (pyset (c_colors s)). split; [apply pyset_NoDup|]. split; [intros; apply pyset_In|]. now subst k.
      * intros st colors k' I E [s0 [D1 [D2 ->]]]. specialize (G3 st colors I E).
        assert (length s0 = length (pyset (map snd colors))); [|lia].
        apply Permutation_length. apply NoDup_Permutation; auto; [apply pyset_NoDup|]. intros x. rewrite pyset_In. apply D2.
  - exfalso. apply N0. now apply GOOD.
Qed.

(** When every strategy fails: TypeError, not a solution. *)
Theorem C31_greedy_all_fail : forall nx strategies, (forall st, In st strategies -> nx st = None) ->
  greedy_coloring (N := N) le nx strategies = Err TypeError.
Proof.
  intros nx strategies H. unfold greedy_coloring.
  replace (fold_left (greedy_turn le nx) strategies None) with (@None (list Z * nat)); auto.
  symmetry. induction strategies as [|st l IH]; auto. cbn [fold_left]. unfold greedy_turn at 2.
  rewrite H by (simpl; auto). apply IH. intros; apply H; simpl; auto.
Qed.

End GraphProps.

(** * Examples *)
Definition ex_nodes : list (nat * attrs Z) := [(2, []); (0, [("w"%string, 5%Z)]); (1, []); (0, [("w"%string, 7%Z)])].
Definition ex_edges : list (nat * nat * attrs Z) :=
  [(0, 1, [("d"%string, 1%Z)]); (1, 2, []); (1, 0, [("d"%string, 2%Z)])].
Definition ex_g (u : bool) := make_graph Nat.leb ex_nodes ex_edges u.

Example C43_ex : get_nodes (ex_g true) = [0; 1; 2] /\ get_neighbors (ex_g true) 1 = [0; 2] /\
  get_neighbors (ex_g false) 1 = [2; 0] /\ get_predecessors (ex_g false) 0 = [1] /\
  get_attr_edge (ex_g true) 0 1 "d" = Some 2%Z /\ get_attr_edge (ex_g false) 0 1 "d" = Some 1%Z /\
  get_attr_node (ex_g true) 0 "w" = Some 7%Z /\ get_attr_edge (ex_g true) 0 2 "d" = None.
Proof. repeat split. Qed.

Example C31_ex : well_formed ex_nodes ex_edges /\
  satisfy (ex_g true) (mkCsol [7; 3; 7]%Z None None) = Ok true /\
  satisfy (ex_g true) (mkCsol [7; 7; 3]%Z None None) = Ok false /\
  evaluate (ex_g true) (mkCsol [7; 7; 3]%Z None None) = Ok (Some 2%Z, Some 2%Z, mkCsol [7; 7; 3]%Z (Some 2%Z) (Some 2%Z)) /\
  value_precede [7; 3; 7; 9; 3]%Z = [0; 1; 0; 2; 1]%Z /\
  greedy_coloring Nat.leb (fun s => if String.eqb s "a" then Some [(1, 4%Z); (0, 6%Z); (2, 5%Z)]
                                    else if String.eqb s "b" then Some [(2, 8%Z); (0, 8%Z); (1, 5%Z)] else None)
    ["c"; "a"; "b"]%string = Ok (mkCsol [0; 1; 0]%Z None None).
Proof.
  split; [|repeat split; reflexivity].
  intros a b d [E|[E|[E|[]]]]; injection E as <- <- <-; simpl; auto.
Qed.

(** Findings.  The cache is used as soon as the number of colours is known: the violations can then be
    missing, or stale. *)
Theorem C31_cached_colors_refuted : exists (g : graph nat Z) colors k,
  evaluate g (mkCsol colors (Some k) None) = Ok (Some k, None, mkCsol colors (Some k) None) /\
  count_violations g (mkCsol colors (Some k) None) = Ok 2%Z.
Proof. exists (ex_g true), [7; 7; 3]%Z, 2%Z. split; reflexivity. Qed.

(** [compute_cliques] without a limit, or with a limit that is not reached, always fails. *)
Theorem C31_cliques_fails : forall C (cs : list C) nb_max,
  (forall k, nb_max = Some k -> length cs < k) -> compute_cliques cs nb_max = Err UnboundLocalError.
Proof.
  intros C cs nb_max H. unfold compute_cliques.
  assert (G : forall (cs : list C) acc nb, (forall k, nb_max = Some k -> nb + length cs < k) ->
            snd (cliques_loop cs nb_max acc nb None) = None).
  { induction cs0 as [|c cs0 IH]; intros acc nb Hk; auto. cbn [cliques_loop].
    destruct nb_max as [k|].
    - specialize (Hk k eq_refl). cbn [length] in Hk. destruct (Nat.leb_spec k (S nb)); [lia|].
      apply IH. intros k' Ek. injection Ek as <-. lia.
    - apply IH. intros k' Ek. discriminate. }
  specialize (G cs [] 0 H). destruct (cliques_loop cs nb_max [] 0 None) as [l o]. cbn in G. now subst.
Qed.
(** [compute_cliques] without a limit, or with a limit that is not reached, always fails. *)
Theorem C31_cliques_refuted : exists cs : list (list nat), compute_cliques cs None = Err UnboundLocalError /\ compute_cliques cs (Some 3) = Err UnboundLocalError.
Proof. exists [[0; 1]; [1; 2]]. split; reflexivity. Qed.

(** What does hold: a reached limit returns that many of the enumerated cliques. *)
Theorem C31_cliques_limited : forall C (cs : list C) k, 0 < k <= length cs ->
  compute_cliques cs (Some k) = Ok (firstn k cs, true).
Proof.
  intros C cs k H. unfold compute_cliques.
  assert (G : forall (cs : list C) acc nb, nb < k <= nb + length cs ->
            cliques_loop cs (Some k) acc nb None = (acc ++ firstn (k - nb) cs, Some true)).
  { induction cs0 as [|c cs0 IH]; intros acc nb Hk; cbn [length] in Hk; [lia|]. cbn [cliques_loop].
    destruct (Nat.leb_spec k (S nb)).
    - replace (k - nb) with 1 by lia. reflexivity.
    - rewrite IH by lia. rewrite <- app_assoc. replace (k - nb) with (S (k - S nb)) by lia. reflexivity. }
  rewrite (G cs [] 0) by lia. now rewrite Nat.sub_0_r.
Qed.

Print Assumptions C31_satisfy.
Print Assumptions C31_evaluate.
Print Assumptions C31_normalise.
Print Assumptions C31_normal_form_unique.
Print Assumptions C31_reformat.
Print Assumptions C31_dummy.
Print Assumptions C31_greedy.
Print Assumptions C43_neighbors.
Print Assumptions C43_predecessors.
Print Assumptions C43_edges.
Print Assumptions C43_nodes.
