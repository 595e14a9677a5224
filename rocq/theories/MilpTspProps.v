(** C127, C128: the integer program of the iterative travelling-salesman solver, and its loop. *)
From Coq Require Import List Bool Arith ZArith Lia Permutation Relations Sorted.
From Verif Require Import Py PyList PyMore TspModel TspProofs TspProps MilpModel MilpProofs MilpTspModel MilpTspProofs
  MilpTspCycleProofs MilpTspJoinProofs MilpTspSolveProofs MilpTspWitness.
Import ListNotations.
Open Scope nat_scope.

(** The vocabulary is in MilpTspSolveProofs ([whole], [within], [graph_for], [proper], [complete], [posed],
    [engine_sound], [engine_exact], [wcc_ok], [side_set]), MilpTspProofs ([hops], [graph_ok], [rearranges]) and
    MilpTspCycleProofs ([linked], [components]). *)
Section MilpTspProps.
Variable order : list edge -> list edge.
Hypothesis Hord : rearranges order.
Context {P : Type}.
Variable len : P -> P -> Z.
Hypothesis sym : forall p q, len p q = len q p.
Variable p0 : P.
Variable t : tsp (P:=P).
Hypothesis Ht : fits t.
Hypothesis Hp : proper t.
Variable g : graph.
Hypothesis Hg : graph_for len p0 t g.
Let es := edges_of order g.

(** Edges in both directions, none from a node to itself, and a tour among them. *)
Definition two_way : Prop := (forall a b, In (a, b) (dkeys g) -> In (b, a) (dkeys g)) /\ forall a, ~ In (a, a) (dkeys g).

Lemma master_ok : exists m, master order (t_start t) (t_end t) g = Ok m.
Proof.
  pose proof Ht as (_ & Hs & He). destruct Hg as [G _].
  destruct (master_says order Hord (t_n t) (t_start t) (t_end t) Hs He g G) as (m & E & _). eauto.
Qed.

(** * C127 *)

(** Every tour in the graph is a solution of the program, whatever sets of nodes were cut off so far, and the
    objective is its length. *)
Theorem C127_complete : exists m, master order (t_start t) (t_end t) g = Ok m /\
  forall css q, Forall (side_set t) css -> visits t q -> within t g q ->
    exists a, admissible (posed order g m css) a /\ (forall e, a e = 1%Z <-> In e (hops (whole t q))) /\
      eval a (p_obj m) = tour_length len p0 t (whole t q).
Proof.
  destruct master_ok as (m & E). exists m. split; auto. intros css q S V W. exists (encode t q).
  destruct (encode_posed order Hord len p0 t Ht Hp g Hg m q css E V W S) as [A O]. split; auto. split; auto. intros e. apply encode_one.
Qed.

(** A solution whose edges hang together is a tour in the graph, and the objective is its length. *)
Theorem C127_sound : exists m, master order (t_start t) (t_end t) g = Ok m /\
  forall css a, admissible (posed order g m css) a ->
    (forall v w, v < t_n t -> w < t_n t -> linked (used es a) v w) ->
    exists q, visits t q /\ within t g q /\ (forall e, In e es -> (a e = 1%Z <-> In e (hops (whole t q)))) /\
      eval a (p_obj m) = tour_length len p0 t (whole t q).
Proof.
  destruct master_ok as (m & E). exists m. split; auto. intros css a A Lk. pose proof Ht as (_ & Hs & He).
  destruct (solution_cover order Hord len p0 t Ht g Hg m E css a A) as (Cv & R & _). fold es in Cv, R.
  assert (Cp : components (t_n t) (used es a) [seq 0 (t_n t)]).
  { constructor.
    - cbn. now rewrite app_nil_r.
    - intros c [<-|[]]. destruct (t_n t); [lia|discriminate].
    - intros c v w [<-|[]] I. apply in_seq in I. rewrite in_seq. split; [intros J; split; [lia|apply Lk; lia]|intros; lia]. }
  destruct (cycles_ok order Hord (t_n t) (t_start t) (t_end t) (used es a) _ Hs He Cv Cp _ (or_introl eq_refl)) as (path & ixs & _ & Hh & Mem & _ & Sh & _).
  destruct Sh as (q & Ep & Nq & Ne & _); [apply in_seq; lia|].
  assert (V : visits t q).
  { inversion Nq as [|? ? Ns Nq']; subst. split; [exact Nq'|]. intros v. split.
    - intros I. assert (J : In v (seq 0 (t_n t))) by (apply Mem; right; apply in_or_app; now left). apply in_seq in J.
      split; [lia|]. split; intros ->; contradiction.
    - intros (Lv & D1 & D2). assert (J : In v (t_start t :: q ++ [t_end t])) by (apply Mem, in_seq; lia).
      destruct J as [J|J]; [congruence|]. apply in_app_or in J. destruct J as [J|[J|[]]]; [exact J|congruence]. }
  rewrite Ep in Hh. fold (whole t q) in Hh. exists q. split; auto.
  assert (W : within t g q).
  { intros h I. apply (es_In order Hord). apply (used_es order g a). now apply Hh. }
  split; auto. split; [|now apply (single_cycle order Hord len p0 t Ht g Hg m E a q Cv R V Hh)].
  pose proof (used_one order t Ht g a R) as U. fold es in U.
  intros [x y] I. split.
  - intros Ax. assert (Ux : In (x, y) (used es a)) by (apply U; auto).
    assert (Xf : In x (map fst (hops (whole t q)))).
    { rewrite tour_fst. destruct (cv_range _ _ _ _ Cv _ _ Ux) as [Lx _]. pose proof (proj2 (tour_In t Ht q x V) Lx) as K. unfold whole in K.
      destruct K as [K|K]; [now left|]. apply in_app_or in K. destruct K as [K|[K|[]]]; [now right|].
      destruct (Nat.eq_dec (t_start t) (t_end t)) as [D|D]; [left; congruence|]. exfalso. subst x. eapply (cv_out0 _ _ _ _ Cv D). exact Ux. }
    apply in_map_iff in Xf. destruct Xf as ([x' y'] & E' & K). cbn in E'. subst x'. rewrite (cv_out1 _ _ _ _ Cv x y y'); auto.
  - intros J. apply Hh in J. apply U in J. apply J.
Qed.

(** When the edges of a solution fall apart, the constraints posted for any of its components exclude it, and
    no tour with it. *)
Theorem C127_cuts : exists m, master order (t_start t) (t_end t) g = Ok m /\
  forall css a cs c, admissible (posed order g m css) a -> components (t_n t) (used es a) cs -> 1 < length cs -> In c cs ->
    (forall k, In k (cut es c) -> ~ holds a k) /\ ~ admissible (posed order g m (css ++ [c])) a /\
    forall q, visits t q -> within t g q -> forall k, In k (cut es c) -> holds (encode t q) k.
Proof.
  destruct master_ok as (m & E). exists m. split; auto. intros css a cs c A Cp L Ic.
  destruct (solution_cover order Hord len p0 t Ht g Hg m E css a A) as (Cv & R & _). fold es in Cv, R.
  assert (Br : forall k, In k (cut es c) -> ~ holds a k) by exact (cut_broken order t Ht g a cs c Cv R Cp Ic).
  split; [exact Br|]. split.
  - intros A'. destruct (cut_has order g c) as [k Ik]. apply (Br k Ik). apply (ad_constrs _ _ A'). cbn [posed with_cuts p_constrs].
    apply in_or_app. right. apply in_flat_map. exists c. split; [apply in_or_app; right; now left|exact Ik].
  - intros q V W. apply (encode_cut order Hord t Ht g q c V W). exact (comp_side_set order t g a cs c Cv Cp Ic L).
Qed.

(** * C128 *)
Variable wcc : list edge -> list (list nat).
Hypothesis Hw : wcc_ok (t_n t) wcc.
Variable engine : milp edge -> edge -> Z.

Lemma two_way_full : two_way -> forall q, visits t q -> within t g q -> full t es.
Proof.
  intros [W1 W2] q V W. pose proof (es_In order Hord g) as I. fold es in I. split; [|split].
  - intros a b J. apply I, W1, I, J.
  - intros a J. apply (W2 a), I, J.
  - exists q. split; auto. intros h J. apply I, W, J.
Qed.

(** With an engine that finds solutions, on a graph with edges both ways and a tour among them, the solver returns
    a tour, whatever the number of iterations allowed, and the value it returns is the length of the tour. *)
Theorem C128_valid : forall m nb q0, master order (t_start t) (t_end t) g = Ok m -> engine_sound order g m engine ->
  two_way -> visits t q0 -> within t g q0 ->
  exists r, solve order len wcc engine t g nb = Ok r /\ valid t (r_solution r) /\
    r_fit r = tour_length len p0 t (tour (r_solution r)) /\ s_length (r_solution r) = Some (Fin (r_fit r)).
Proof.
  intros m nb q0 Em En Tw V W.
  destruct (solve_ok order Hord len p0 t Ht Hp g Hg m Em sym wcc Hw engine En q0 V W nb) as [[Nf _]|(r & q & ks & k & Er & Va & Eq & Ef & El & _)].
  - exfalso. apply Nf. exact (two_way_full Tw q0 V W).
  - exists r. split; auto. split; auto. split; auto. rewrite Ef. unfold tour, whole. destruct Va as (_ & -> & ->). now rewrite Eq.
Qed.

(** When the last solution was in one piece and the engine is exact, no tour in the graph is shorter. *)
Theorem C128_optimal : forall m nb r ks, master order (t_start t) (t_end t) g = Ok m -> engine_exact order g m engine ->
  solve order len wcc engine t g nb = Ok r -> r_components r = ks ++ [1] ->
  forall q, visits t q -> within t g q -> (r_fit r <= tour_length len p0 t (whole t q))%Z.
Proof.
  intros m nb r ks Em En Es Ek q V W.
  assert (Sd : engine_sound order g m engine) by (intros css H; apply En, H).
  destruct (solve_ok order Hord len p0 t Ht Hp g Hg m Em sym wcc Hw engine Sd q V W nb) as [[_ Er]|(r' & q' & ks' & k & Er & _ & _ & _ & _ & Ek' & O & _)]; [congruence|].
  assert (r' = r) by congruence. subst r'. rewrite Ek' in Ek. apply app_inj_tail in Ek. destruct Ek as [_ ->]. now apply O.
Qed.

(** With enough iterations the loop only stops on a solution in one piece; so with an exact engine the tour is
    a shortest one. *)
Theorem C128_exact : forall m nb q0, master order (t_start t) (t_end t) g = Ok m -> engine_exact order g m engine ->
  two_way -> visits t q0 -> within t g q0 -> 2 ^ length g <= nb ->
  exists r ks, solve order len wcc engine t g nb = Ok r /\ r_components r = ks ++ [1] /\ valid t (r_solution r) /\
    r_fit r = tour_length len p0 t (tour (r_solution r)) /\
    forall q, visits t q -> within t g q -> (r_fit r <= tour_length len p0 t (whole t q))%Z.
Proof.
  intros m nb q0 Em En Tw V W Nb.
  assert (Sd : engine_sound order g m engine) by (intros css H; apply En, H).
  destruct (solve_ok order Hord len p0 t Ht Hp g Hg m Em sym wcc Hw engine Sd q0 V W nb) as [[Nf _]|(r & q & ks & k & Er & Va & Eq & Ef & _ & Ek & O & B)].
  - exfalso. apply Nf. exact (two_way_full Tw q0 V W).
  - assert (k = 1).
    { apply B. unfold edges_of. rewrite (Permutation_length (Hord (dkeys g))). unfold dkeys. rewrite map_length. exact Nb. }
    subst k. exists r, ks. split; auto. split; auto. split; auto. split; [|auto].
    rewrite Ef. unfold tour, whole. destruct Va as (_ & -> & ->). now rewrite Eq.
Qed.
End MilpTspProps.

Section CompleteProps.
Context {P : Type}.
Variable len : P -> P -> Z.
Hypothesis sym : forall p q, len p q = len q p.
Variable p0 : P.
Variable t : tsp (P:=P).
Hypothesis Ht : fits t.
Hypothesis Hp : proper t.

(** [np.argsort] of the rows of the distance matrix: every node once, nearest first. *)
Definition row_distance (i j : nat) : Z := if i =? j then 0%Z else between len p0 t i j.
Definition argsort (sd : nat -> list nat) : Prop := forall i, i < t_n t ->
  Permutation (sd i) (seq 0 (t_n t)) /\
  forall k l a b, k < l -> nth_error (sd i) k = Some a -> nth_error (sd i) l = Some b -> (row_distance i a <= row_distance i b)%Z.
Definition stable (sd : nat -> list nat) : Prop := forall i, i < t_n t ->
  forall k l a b, k < l -> nth_error (sd i) k = Some a -> nth_error (sd i) l = Some b -> row_distance i a = row_distance i b -> a < b.

(** The graph of [build_graph_complete] has all the edges, with the distances, if different nodes are apart or
    if ties are sorted by number. *)
Theorem C127_graph : forall sd, argsort sd ->
  (forall i j, i < t_n t -> j < t_n t -> i <> j -> (0 < between len p0 t i j)%Z) \/
  ((forall i j, (0 <= between len p0 t i j)%Z) /\ stable sd) ->
  exists g, build_graph_complete len t sd = Ok g /\ graph_for len p0 t g /\ complete t g.
Proof.
  intros sd A C. apply (complete_ok len sym p0 t Ht Hp); [intros i Li; now apply A|].
  assert (Own : forall i j, i < t_n t -> i <> j -> hd_error (sd i) = Some j -> (row_distance i j <= 0)%Z /\ (stable sd -> row_distance i j = 0%Z -> j < i)).
  { intros i j Li D H. destruct (A i Li) as [Pm So].
    assert (I : In i (sd i)) by (apply (Permutation_in _ (Permutation_sym Pm)), in_seq; lia).
    apply In_nth_error in I. destruct I as [k Hk]. destruct k as [|k].
    - destruct (sd i); cbn in *; congruence.
    - assert (H0 : nth_error (sd i) 0 = Some j) by (destruct (sd i); cbn in *; congruence).
      assert (R0 : row_distance i i = 0%Z) by (unfold row_distance; now rewrite Nat.eqb_refl).
      split; [rewrite <- R0; apply (So 0 (S k)); auto; lia|]. intros St E. apply (St i Li 0 (S k)); auto; [lia|congruence]. }
  intros i j Li Lj D H1 H2. destruct (Own i j Li D H1) as [U1 S1]. destruct (Own j i Lj (not_eq_sym D) H2) as [U2 S2].
  unfold row_distance in *. rewrite (proj2 (Nat.eqb_neq i j) D) in *. rewrite (proj2 (Nat.eqb_neq j i) (not_eq_sym D)) in *.
  destruct C as [C|[C1 C2]].
  - specialize (C i j Li Lj D). lia.
  - specialize (S1 C2). specialize (S2 C2). pose proof (C1 i j). pose proof (C1 j i). lia.
Qed.

(** The pruned graph has its edges both ways, none from a node to itself, the distances as weights, and a tour
    among its edges, whatever the rows of neighbours: with C128_valid, the solver always finds a tour on it. *)
Theorem C127_pruned : forall sd, (forall i j, i < t_n t -> In j (sd i) -> j < t_n t) ->
  exists g, build_graph_pruned len t sd = Ok g /\ graph_for len p0 t g /\ two_way g /\ exists q, visits t q /\ within t g q.
Proof.
  intros sd R. destruct (pruned_ok len sym p0 t Ht Hp sd R) as (g & E & G & T1 & T2 & Q). exists g. split; auto. split; auto. split; [|exact Q]. split; auto.
Qed.

(** On the complete graph: all the tours compete, and there is one. *)
Theorem C128_all_tours : forall order wcc engine g m nb, rearranges order -> wcc_ok (t_n t) wcc ->
  graph_for len p0 t g -> complete t g -> master order (t_start t) (t_end t) g = Ok m -> engine_sound order g m engine ->
  exists r, solve order len wcc engine t g nb = Ok r /\ valid t (r_solution r) /\
    r_fit r = tour_length len p0 t (tour (r_solution r)) /\
    (engine_exact order g m engine -> (exists ks, r_components r = ks ++ [1]) \/ 2 ^ length g <= nb ->
     forall q, visits t q -> (r_fit r <= tour_length len p0 t (whole t q))%Z).
Proof.
  intros order wcc engine g m nb Hord Hw Hg C Em En.
  pose proof (inner_visits t) as V. pose proof (complete_within t Ht Hp g _ C V) as W.
  assert (Tw : two_way g).
  { destruct C as [C1 C2]. split; [|exact C2]. intros a b I. destruct Hg as [(_ & R & _) _]. destruct (R a b I). apply C1; auto.
    intros ->. now apply (C2 a). }
  destruct (C128_valid order Hord len sym p0 t Ht Hp g Hg wcc Hw engine m nb _ Em En Tw V W) as (r & Er & Va & Ef & _).
  exists r. split; auto. split; auto. split; auto. intros Ex [[ks Ek]|Nb] q Vq.
  - apply (C128_optimal order Hord len sym p0 t Ht Hp g Hg wcc Hw engine m nb r ks Em Ex Er Ek q Vq). now apply complete_within.
  - destruct (C128_exact order Hord len sym p0 t Ht Hp g Hg wcc Hw engine m nb _ Em Ex Tw V W Nb) as (r' & ks & Er' & _ & _ & _ & O).
    assert (r' = r) by congruence. subst r'. apply O; auto. now apply complete_within.
Qed.
End CompleteProps.

(** * Examples and findings *)

(** Five points named 0 to 4, with a table of distances. *)
Definition ex_dist (a b : nat) : Z :=
  match Nat.min a b, Nat.max a b with
  | 0, 4 | 1, 2 | 2, 3 => 1%Z | 1, 3 => 9%Z | 0, 1 | 2, 4 | 1, 4 => 5%Z | 0, 3 => 6%Z | _, _ => 20%Z
  end.
Lemma ex_dist_sym : forall a b, ex_dist a b = ex_dist b a.
Proof. intros a b. unfold ex_dist. now rewrite Nat.min_comm, Nat.max_comm. Qed.
Definition ex_tsp : tsp := mkTsp [0; 1; 2; 3; 4] 5 0 4 false.
Definition both (l : list edge) : graph :=
  flat_map (fun e => [((fst e, snd e), ex_dist (fst e) (snd e)); ((snd e, fst e), ex_dist (fst e) (snd e))]) l.
Definition ex_graph : graph := both [(0, 4); (1, 2); (2, 3); (1, 3); (2, 4); (0, 3); (1, 4)].
Definition ex_order (l : list edge) : list edge := l.
Lemma ex_order_ok : rearranges ex_order. Proof. intros l. apply Permutation_refl. Qed.
Definition ex_engine := brute (edges_of ex_order ex_graph).

Lemma ex_fits : fits ex_tsp. Proof. unfold fits. cbn. lia. Qed.
Lemma ex_proper : proper ex_tsp. Proof. unfold proper. cbn. split; intros; discriminate. Qed.
Lemma ex_graph_for : graph_for ex_dist 0 ex_tsp ex_graph.
Proof.
  split; [split; [|split]|].
  - cbn. repeat (constructor; [cbn; intuition discriminate|]). constructor.
  - cbn. intros a b I. repeat (destruct I as [I|I]; [injection I as <- <-; lia|]). destruct I.
  - cbn [t_n ex_tsp]. intros v L. destruct v as [|[|[|[|[|v]]]]]; [..|lia]; split;
      first [exists 0; cbn; tauto|exists 1; cbn; tauto|exists 2; cbn; tauto|exists 4; cbn; tauto].
  - cbn [ex_graph both flat_map app fst snd]. intros a b w I. repeat (destruct I as [I|I]; [injection I as <- <- <-; reflexivity|]). destruct I.
Qed.
Lemma ex_two_way : two_way ex_graph.
Proof.
  split; cbn.
  - intros a b I. repeat (destruct I as [I|I]; [injection I as <- <-; tauto|]). destruct I.
  - intros a I. repeat (destruct I as [I|I]; [injection I as I1 I2; congruence|]). destruct I.
Qed.
Lemma ex_visits : visits ex_tsp [3; 2; 1] /\ within ex_tsp ex_graph [3; 2; 1].
Proof.
  split; [split; [repeat constructor; cbn; lia|intros i; cbn; lia]|]. intros h I. cbn in *. intuition (subst; auto).
Qed.
Lemma ex_exact : exists m, master ex_order (t_start ex_tsp) (t_end ex_tsp) ex_graph = Ok m /\ engine_exact ex_order ex_graph m ex_engine.
Proof.
  destruct (master_ok ex_order ex_order_ok ex_dist 0 ex_tsp ex_fits ex_graph ex_graph_for) as (m & E). exists m. split; auto.
  apply (brute_exact ex_order ex_order_ok 5 0 4) with (m := m); auto; try lia. apply ex_graph_for.
Qed.
Lemma ex_first : exists r, solve ex_order ex_dist (merged 5) ex_engine ex_tsp ex_graph 1 = Ok r /\ r_fit r = 21%Z /\ r_components r = [2].
Proof. eexists. split; [vm_compute; reflexivity|split; reflexivity]. Qed.
(** The hypotheses of C127 and C128 hold of an instance in which the first solution falls apart. *)
Example C128_ex : exists m r, master ex_order (t_start ex_tsp) (t_end ex_tsp) ex_graph = Ok m /\ engine_exact ex_order ex_graph m ex_engine /\
  fits ex_tsp /\ proper ex_tsp /\ graph_for ex_dist 0 ex_tsp ex_graph /\ two_way ex_graph /\ wcc_ok 5 (merged 5) /\
  visits ex_tsp [3; 2; 1] /\ within ex_tsp ex_graph [3; 2; 1] /\
  solve ex_order ex_dist (merged 5) ex_engine ex_tsp ex_graph 2 = Ok r /\ r_fit r = 13%Z /\ r_components r = [2; 1].
Proof.
  destruct ex_exact as (m & E & X). exists m. eexists. split; [exact E|]. split; [exact X|]. split; [apply ex_fits|]. split; [apply ex_proper|].
  split; [apply ex_graph_for|]. split; [apply ex_two_way|]. split; [apply merged_ok|]. split; [apply ex_visits|]. split; [apply ex_visits|].
  split; [vm_compute; reflexivity|split; reflexivity].
Qed.

(** Stopping at the iteration limit returns the best repaired tour, which can be longer than another tour even
    with an exact engine: the repair does not count the edge it removes from the component. *)
Theorem C128_iteration_limit_refuted : exists (t : tsp (P := nat)) len g order wcc engine m r nb q,
  rearranges order /\ (forall a b, len a b = len b a) /\ fits t /\ proper t /\ graph_for len 0 t g /\ two_way g /\ wcc_ok (t_n t) wcc /\
  master order (t_start t) (t_end t) g = Ok m /\ engine_exact order g m engine /\ 0 < nb /\
  solve order len wcc engine t g nb = Ok r /\ visits t q /\ within t g q /\ Z.lt (tour_length len 0 t (whole t q)) (r_fit r).
Proof.
  destruct ex_exact as (m & E & X). destruct ex_first as (r & Er & Ef & _).
  exists ex_tsp, ex_dist, ex_graph, ex_order, (merged 5), ex_engine, m, r, 1, [3; 2; 1].
  split; [apply ex_order_ok|]. split; [apply ex_dist_sym|]. split; [apply ex_fits|]. split; [apply ex_proper|].
  split; [apply ex_graph_for|]. split; [apply ex_two_way|]. split; [apply merged_ok|]. split; [exact E|]. split; [exact X|]. split; [lia|].
  split; [exact Er|]. split; [apply ex_visits|]. split; [apply ex_visits|]. rewrite Ef. reflexivity.
Qed.

(** A closed tour through two cities is a tour, but the program has no solution: the constraints against cycles of
    two nodes exclude it. *)
Theorem C127_two_cities_refuted : exists (t : tsp (P := nat)) len g m q,
  fits t /\ graph_for len 0 t g /\ complete t g /\ master (fun l => l) (t_start t) (t_end t) g = Ok m /\
  visits t q /\ within t g q /\ forall a, ~ admissible m a.
Proof.
  exists (mkTsp [0; 1] 2 0 0 false), (fun _ _ => 1%Z), [((0, 1), 1%Z); ((1, 0), 1%Z)]. eexists. exists [1].
  split; [unfold fits; cbn; lia|]. split; [split; [split; [|split]|]|].
  - cbn. repeat (constructor; [cbn; intuition discriminate|]). constructor.
  - cbn. intros a b I. repeat (destruct I as [I|I]; [injection I as <- <-; lia|]). destruct I.
  - cbn [t_n]. intros v L. destruct v as [|[|v]]; [..|lia]; split; first [exists 0; cbn; tauto|exists 1; cbn; tauto].
  - intros a b w I. cbn in I. repeat (destruct I as [I|I]; [injection I as <- <- <-; reflexivity|]). destruct I.
  - split; [split; cbn|].
    + intros a b La Lb D. assert (C : (a = 0 /\ b = 1) \/ (a = 1 /\ b = 0)) by lia. destruct C as [[-> ->]|[-> ->]]; tauto.
    + intros a I. intuition congruence.
    + split; [vm_compute; reflexivity|]. split; [split; [repeat constructor; cbn; lia|intros i; cbn; lia]|].
      split; [intros h I; cbn in *; intuition (subst; auto)|]. intros a [_ C]. cbn [p_constrs] in C.
      assert (H1 := C (Constr ([(1%Z, (0, 1)); (1%Z, (1, 0))], 0%Z) SLe ([], 1%Z)) (or_introl eq_refl)).
      assert (H2 := C (Constr ([(1%Z, (0, 1))], 0%Z) SEq ([], 1%Z)) ltac:(cbn; tauto)).
      assert (H3 := C (Constr ([(1%Z, (1, 0))], 0%Z) SEq ([], 1%Z)) ltac:(cbn; tauto)).
      clear C. unfold holds, eval, sumZ in *. cbn [c_sense c_left c_right fst snd map fold_right] in *. lia.
Qed.

(** The hypotheses of C127_graph: sorting does what is asked of [argsort], and the points are apart. *)
Definition sort_rows {P} (len : P -> P -> Z) (p0 : P) (t : tsp (P := P)) (i : nat) : list nat :=
  ssort (fun a b => (row_distance len p0 t i a <=? row_distance len p0 t i b)%Z) (seq 0 (t_n t)).
Lemma sort_rows_ok : forall P (len : P -> P -> Z) p0 (t : tsp (P := P)), argsort len p0 t (sort_rows len p0 t).
Proof.
  intros P len p0 t i L. split; [apply Permutation_sym, ssort_perm|]. unfold sort_rows.
  assert (S : Sorted (fun a b => (row_distance len p0 t i a <= row_distance len p0 t i b)%Z)
    (ssort (fun a b => (row_distance len p0 t i a <=? row_distance len p0 t i b)%Z) (seq 0 (t_n t)))).
  { pose proof (ssort_sorted (fun a b => (row_distance len p0 t i a <=? row_distance len p0 t i b)%Z) (seq 0 (t_n t))) as X.
    assert (Y : forall l, Sorted (fun a b => (row_distance len p0 t i a <=? row_distance len p0 t i b)%Z = true) l ->
      Sorted (fun a b => (row_distance len p0 t i a <= row_distance len p0 t i b)%Z) l).
    { induction 1 as [|a l H IH Hd]; constructor; auto. destruct Hd; constructor. now apply Z.leb_le. }
    apply Y, X. intros a b E. apply Z.leb_gt in E. apply Z.leb_le. lia. }
  apply Sorted_StronglySorted in S; [|intros a b c; lia]. revert S.
  generalize (ssort (fun a b => (row_distance len p0 t i a <=? row_distance len p0 t i b)%Z) (seq 0 (t_n t))).
  induction l as [|x l IH]; intros S k j a b Lt A B; [destruct k; discriminate|]. inversion S as [|? ? S' F]; subst.
  destruct j as [|j]; [lia|]. destruct k as [|k]; cbn in A, B.
  - injection A as <-. rewrite Forall_forall in F. apply F. eapply nth_error_In; eauto.
  - apply (IH S' k j a b); auto; lia.
Qed.
Example C127_graph_ex : argsort ex_len 0%Z (ex_t false) (sort_rows ex_len 0%Z (ex_t false)) /\
  sort_rows ex_len 0%Z (ex_t false) 3 = [3; 1; 4; 2; 0] /\
  (forall i j, i < t_n (ex_t false) -> j < t_n (ex_t false) -> i <> j -> (0 < between ex_len 0%Z (ex_t false) i j)%Z) /\
  proper (ex_t false) /\ fits (ex_t false).
Proof.
  split; [apply sort_rows_ok|]. split; [vm_compute; reflexivity|]. split; [|split].
  - intros i j Li Lj D. cbn [t_n ex_t] in *. destruct i as [|[|[|[|[|i]]]]]; [..|lia]; destruct j as [|[|[|[|[|j]]]]]; try lia; vm_compute; reflexivity.
  - unfold proper. cbn. split; intros; discriminate.
  - unfold fits. cbn. lia.
Qed.

Print Assumptions C127_complete.
Print Assumptions C127_sound.
Print Assumptions C127_cuts.
Print Assumptions C127_graph.
Print Assumptions C127_pruned.
Print Assumptions C127_two_cities_refuted.
Print Assumptions C128_valid.
Print Assumptions C128_optimal.
Print Assumptions C128_exact.
Print Assumptions C128_all_tours.
Print Assumptions C128_iteration_limit_refuted.
