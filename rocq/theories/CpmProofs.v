(** Proofs about the critical path method. *)
From Coq Require Import String.
From Coq Require Import List Bool Arith ZArith Lia Permutation.
From Verif Require Import Py PyList PyMore SgsModel CpmModel CpmSpec.
Import ListNotations.

Lemma path_app : forall p a b c, path p a b -> path p b c -> path p a c.
Proof. intros p a b c H. induction H; intros; [eapply path_step; eauto|]. eapply path_step; eauto. Qed.
Lemma path_last : forall p a b c, path p a b -> edge p b c -> path p a c.
Proof. intros. eapply path_app; eauto. now apply path_one. Qed.

Lemma fold_max_spec : forall l x, (forall y, In y (x :: l) -> y <= fold_left Z.max l x)%Z /\ In (fold_left Z.max l x) (x :: l).
Proof.
  induction l as [|y l IH]; intros x; simpl; [split; [intros y [->|[]]; lia|auto]|].
  destruct (IH (Z.max x y)) as [A B]. split.
  - intros z [->|[->|I]].
    + specialize (A (Z.max z y) (or_introl eq_refl)). lia.
    + specialize (A (Z.max x z) (or_introl eq_refl)). lia.
    + apply A. now right.
  - destruct B as [B|B]; [|auto]. rewrite <- B. destruct (Z.max_spec x y) as [[_ ->]|[_ ->]]; auto.
Qed.
Lemma fold_min_spec : forall l x, (forall y, In y (x :: l) -> fold_left Z.min l x <= y)%Z /\ In (fold_left Z.min l x) (x :: l).
Proof.
  induction l as [|y l IH]; intros x; simpl; [split; [intros y [->|[]]; lia|auto]|].
  destruct (IH (Z.min x y)) as [A B]. split.
  - intros z [->|[->|I]].
    + specialize (A (Z.min z y) (or_introl eq_refl)). lia.
    + specialize (A (Z.min x z) (or_introl eq_refl)). lia.
    + apply A. now right.
  - destruct B as [B|B]; [|auto]. rewrite <- B. destruct (Z.min_spec x y) as [[_ ->]|[_ ->]]; auto.
Qed.

Lemma fold_nmin_spec : forall l x, (forall y, In y (x :: l) -> fold_left Nat.min l x <= y) /\ In (fold_left Nat.min l x) (x :: l).
Proof.
  induction l as [|y l IH]; intros x; simpl; [split; [intros y [->|[]]; lia|auto]|].
  destruct (IH (Nat.min x y)) as [A B]. split.
  - intros z [->|[->|I]].
    + specialize (A (Nat.min z y) (or_introl eq_refl)). lia.
    + specialize (A (Nat.min x z) (or_introl eq_refl)). lia.
    + apply A. now right.
  - destruct B as [B|B]; [|auto]. rewrite <- B. destruct (Nat.min_spec x y) as [[_ ->]|[_ ->]]; auto.
Qed.
Lemma fold_nmax_spec : forall l x, (forall y, In y (x :: l) -> y <= fold_left Nat.max l x) /\ In (fold_left Nat.max l x) (x :: l).
Proof.
  induction l as [|y l IH]; intros x; simpl; [split; [intros y [->|[]]; lia|auto]|].
  destruct (IH (Nat.max x y)) as [A B]. split.
  - intros z [->|[->|I]].
    + specialize (A (Nat.max z y) (or_introl eq_refl)). lia.
    + specialize (A (Nat.max x z) (or_introl eq_refl)). lia.
    + apply A. now right.
  - destruct B as [B|B]; [|auto]. rewrite <- B. destruct (Nat.max_spec x y) as [[_ ->]|[_ ->]]; auto.
Qed.

Lemma fold_map_min : forall (l : list (nat * mode)) x,
  fold_left (fun x km => Z.min x (Z.of_nat (m_duration (snd km)))) l x =
  fold_left Z.min (map (fun km => Z.of_nat (m_duration (snd km))) l) x.
Proof. induction l; intros; simpl; auto. Qed.

Lemma min_duration_spec : forall p a m, has_mode p a m ->
  exists d, min_duration p a = Ok d /\ shortest p a d.
Proof.
  intros p a m [d [k [E I]]]. unfold min_duration, dgetE. rewrite E. cbn [bind].
  destruct d as [|[k0 m0] l]; [destruct I|]. eexists. split; [reflexivity|].
  cbn [snd]. rewrite fold_map_min.
  destruct (fold_min_spec (map (fun km => Z.of_nat (m_duration (snd km))) l) (Z.of_nat (m_duration m0))) as [A B].
  set (x := fold_left Z.min _ _) in *. split.
  - destruct B as [B|B].
    + exists m0. split; [|auto]. exists ((k0, m0) :: l), k0. simpl; auto.
    + apply in_map_iff in B. destruct B as [[k1 m1] [B1 B2]]. exists m1. split; [|auto].
      exists ((k0, m0) :: l), k1. simpl; auto.
  - intros m' [d' [k' [E' I']]]. rewrite E in E'. injection E' as <-. apply A.
    destruct I' as [I'|I']; [injection I' as -> ->; now left|]. right. apply in_map_iff. exists (k', m'). auto.
Qed.

Lemma shortest_unique : forall p a x y, shortest p a x -> shortest p a y -> x = y.
Proof.
  intros p a x y [[m [H ->]] A] [[m' [H' ->]] B]. specialize (A m' H'). specialize (B m H). lia.
Qed.

Section Sums.
(** Weights of the elements not in [vis]. *)
Definition left_of (nodes : list nat) (w : nat -> nat) (vis : list nat) : nat :=
  list_sum (map w (filter (fun n => negb (pymem n vis)) nodes)).

Lemma pymem_cons : forall (x y : nat) l, pymem x (y :: l) = (x =? y) || pymem x l.
Proof. reflexivity. Qed.

Lemma left_of_skip : forall nodes w vis n, ~ In n nodes -> left_of nodes w (n :: vis) = left_of nodes w vis.
Proof.
  intros nodes w vis n H. unfold left_of. f_equal. f_equal. apply filter_ext_in. intros a I.
  rewrite pymem_cons. destruct (Nat.eqb_spec a n); [subst; contradiction|reflexivity].
Qed.

Lemma left_of_visit : forall nodes w vis n, NoDup nodes -> In n nodes -> pymem n vis = false ->
  left_of nodes w vis = w n + left_of nodes w (n :: vis).
Proof.
  induction nodes as [|x l IH]; intros w vis n ND I V; [destruct I|].
  apply NoDup_cons_iff in ND. destruct ND as [NI ND]. destruct I as [->|I].
  - pose proof (left_of_skip l w vis n NI) as K. unfold left_of in *. cbn [filter].
    rewrite pymem_cons, Nat.eqb_refl, V. cbn [orb negb map]. unfold list_sum in *. cbn [fold_right]. now rewrite K.
  - specialize (IH w vis n ND I V). unfold left_of in *. cbn [filter]. rewrite (pymem_cons x n).
    destruct (Nat.eqb_spec x n) as [->|NE]; [contradiction|]. cbn [orb].
    destruct (negb (pymem x vis)); cbn [map]; [|exact IH].
    unfold list_sum in *. cbn [fold_right]. rewrite IH. lia.
Qed.
End Sums.

Lemma mem_in : forall (x : nat) l, pymem x l = true <-> In x l.
Proof. intros. apply pymem_true. Qed.
Lemma mem_out : forall (x : nat) l, pymem x l = false <-> ~ In x l.
Proof. intros. apply pymem_false. Qed.

(** * The two passes *)

Section Cpm.
Context (p : rcpsp) (g : nxg) (P : project p) (N : networkx p g).

Notation sink := (length (p_modes p)).

Lemma node_task : forall a, In a (n_nodes g) <-> task p a.
Proof.
  intros a. rewrite (nx_nodes _ _ N). split; [|auto]. intros [H|[b [H|H]]]; auto; apply (pr_edges _ P) in H; tauto.
Qed.

Lemma dur_ex : forall a, exists d, task p a -> min_duration p a = Ok d /\ shortest p a d.
Proof.
  intros a. destruct (In_dec Nat.eq_dec a (n_nodes g)) as [I|I].
  - apply node_task in I. destruct (pr_mode _ P a I) as [m H]. destruct (min_duration_spec _ _ _ H) as [d E]. eauto.
  - exists 0%Z. intros T. apply node_task in T. contradiction.
Qed.

Definition dur (a : nat) : Z := match min_duration p a with Ok d => d | Err _ => 0%Z end.
Lemma dur_ok : forall a, task p a -> min_duration p a = Ok (dur a) /\ shortest p a (dur a).
Proof.
  intros a T. destruct (dur_ex a) as [d H]. destruct (H T) as [E S]. unfold dur. rewrite E. auto.
Qed.
Lemma dur_nonneg : forall a, task p a -> (0 <= dur a)%Z.
Proof. intros a T. destruct (proj2 (dur_ok a T)) as [[m [_ ->]] _]. lia. Qed.

Definition rank (a : nat) : nat := length (n_anc g a).
Definition corank (a : nat) : nat := length (n_desc g a).

Lemma rank_edge : forall a b, edge p a b -> rank a < rank b.
Proof.
  intros a b E. unfold rank.
  assert (L : length (a :: n_anc g a) <= length (n_anc g b)); [|simpl in L; lia].
  apply NoDup_incl_length.
  - constructor; [|apply (nx_anc_nd _ _ N)]. rewrite (nx_anc _ _ N). tauto.
  - intros x [<-|I]; apply (nx_anc _ _ N).
    + split; [now apply path_one|]. intros ->. apply (pr_acyclic _ P b). now apply path_one.
    + apply (nx_anc _ _ N) in I. destruct I as [I _]. assert (Q : path p x b) by (eapply path_last; eauto).
      split; auto. intros ->. now apply (pr_acyclic _ P b).
Qed.
Lemma corank_edge : forall a b, edge p a b -> corank b < corank a.
Proof.
  intros a b E. unfold corank.
  assert (L : length (b :: n_desc g b) <= length (n_desc g a)); [|simpl in L; lia].
  apply NoDup_incl_length.
  - constructor; [|apply (nx_desc_nd _ _ N)]. rewrite (nx_desc _ _ N). tauto.
  - intros x [<-|I]; apply (nx_desc _ _ N).
    + split; [now apply path_one|]. intros ->. apply (pr_acyclic _ P a). now apply path_one.
    + apply (nx_desc _ _ N) in I. destruct I as [I _]. assert (Q : path p a x) by (eapply path_step; eauto).
      split; auto. intros ->. now apply (pr_acyclic _ P a).
Qed.
Lemma rank_bound : forall a, task p a -> rank a < length (n_nodes g).
Proof.
  intros a T. unfold rank.
  assert (L : length (a :: n_anc g a) <= length (n_nodes g)); [|simpl in L; lia].
  apply NoDup_incl_length.
  - constructor; [|apply (nx_anc_nd _ _ N)]. rewrite (nx_anc _ _ N). tauto.
  - intros x [<-|I]; [now apply node_task|]. apply (nx_anc _ _ N) in I. destruct I as [I _].
    apply node_task. destruct I as [? ? I|? ? ? I _]; apply (pr_edges _ P) in I; tauto.
Qed.

Lemma by_rank : forall Q : nat -> Prop, (forall a, task p a -> (forall b, edge p b a -> Q b) -> Q a) ->
  forall a, task p a -> Q a.
Proof.
  intros Q H a. remember (rank a) as r eqn:R. revert a R.
  induction r as [r IH] using lt_wf_ind. intros a -> T. apply H; auto. intros b E.
  eapply IH; [apply rank_edge; eassumption|reflexivity|apply (pr_edges _ P) in E; tauto].
Qed.
Lemma by_corank : forall Q : nat -> Prop, (forall a, task p a -> (forall b, edge p a b -> Q b) -> Q a) ->
  forall a, task p a -> Q a.
Proof.
  intros Q H a. remember (corank a) as r eqn:R. revert a R.
  induction r as [r IH] using lt_wf_ind. intros a -> T. apply H; auto. intros b E.
  eapply IH; [apply corank_edge; eassumption|reflexivity|apply (pr_edges _ P) in E; tauto].
Qed.

(** The earliest starts. *)
Fixpoint Efun (k : nat) (n : nat) : Z :=
  match k with
  | 0 => 0%Z
  | S k => fold_left Z.max (map (fun a => Efun k a + dur a)%Z (n_pred g n)) 0%Z
  end.
Definition E (n : nat) : Z := Efun (S (rank n)) n.

Lemma Efun_stable : forall k k' n, rank n < k -> rank n < k' -> Efun k n = Efun k' n.
Proof.
  induction k as [|k IH]; intros [|k'] n L L'; try lia. cbn [Efun]. f_equal.
  apply map_ext_in. intros a I. apply (nx_pred _ _ N), rank_edge in I. f_equal. apply IH; lia.
Qed.
Lemma E_eq : forall n, E n = fold_left Z.max (map (fun a => E a + dur a)%Z (n_pred g n)) 0%Z.
Proof.
  intros n. unfold E at 1. cbn [Efun]. f_equal. apply map_ext_in. intros a I.
  apply (nx_pred _ _ N), rank_edge in I. f_equal. unfold E. apply Efun_stable; lia.
Qed.
Lemma E_nonneg : forall n, (0 <= E n)%Z.
Proof. intros n. rewrite E_eq. apply fold_max_spec. simpl; auto. Qed.
Lemma E_edge : forall a b, edge p a b -> (E a + dur a <= E b)%Z.
Proof.
  intros a b H. rewrite (E_eq b). apply fold_max_spec. right. apply in_map_iff. exists a. split; auto.
  now apply (nx_pred _ _ N).
Qed.
Lemma E_attained : forall n, n_pred g n <> [] -> exists a, edge p a n /\ E n = (E a + dur a)%Z.
Proof.
  intros n H. pose proof (proj2 (fold_max_spec (map (fun a => E a + dur a)%Z (n_pred g n)) 0)) as I.
  rewrite <- E_eq in I. destruct I as [I|I].
  - destruct (n_pred g n) as [|a l] eqn:L; [congruence|].
    assert (H0 : edge p a n) by (apply (nx_pred _ _ N); rewrite L; simpl; auto).
    exists a. split; auto. pose proof (E_edge _ _ H0). pose proof (E_nonneg a).
    pose proof (dur_nonneg a (proj1 (pr_edges _ P _ _ H0))). lia.
  - apply in_map_iff in I. destruct I as [a [I1 I2]]. exists a. split; auto. now apply (nx_pred _ _ N).
Qed.
Lemma zmax_pred : forall n, n_pred g n <> [] ->
  zmax (map (fun a => E a + dur a)%Z (n_pred g n)) = Ok (E n).
Proof.
  intros n H. pose proof (E_eq n) as Q.
  assert (A : forall a, In a (n_pred g n) -> (0 <= E a + dur a)%Z).
  { intros a I. apply (nx_pred _ _ N) in I. pose proof (E_nonneg a).
    pose proof (dur_nonneg a (proj1 (pr_edges _ P _ _ I))). lia. }
  destruct (n_pred g n) as [|a l]; [congruence|]. cbn [map zmax fold_left] in *. rewrite Q.
  rewrite Z.max_r; [reflexivity|]. exact (A a (or_introl eq_refl)).
Qed.

(** The latest starts. *)
Definition M : Z := (E sink + dur sink)%Z.
Fixpoint Lfun (k : nat) (n : nat) : Z :=
  match k with
  | 0 => 0%Z
  | S k => match map (Lfun k) (n_succ g n) with
           | [] => M - dur n
           | x :: l => fold_left Z.min l x - dur n
           end%Z
  end.
Definition L (n : nat) : Z := Lfun (S (corank n)) n.
Lemma Lfun_stable : forall k k' n, corank n < k -> corank n < k' -> Lfun k n = Lfun k' n.
Proof.
  induction k as [|k IH]; intros [|k'] n H H'; try lia. cbn [Lfun].
  replace (map (Lfun k) (n_succ g n)) with (map (Lfun k') (n_succ g n)); [reflexivity|].
  apply map_ext_in. intros a I. apply (nx_succ _ _ N), corank_edge in I. symmetry. apply IH; lia.
Qed.
Lemma L_eq : forall n, L n = match map L (n_succ g n) with
           | [] => M - dur n
           | x :: l => fold_left Z.min l x - dur n
           end%Z.
Proof.
  intros n. unfold L at 1. cbn [Lfun].
  replace (map (Lfun (corank n)) (n_succ g n)) with (map L (n_succ g n)); [reflexivity|].
  apply map_ext_in. intros a I. apply (nx_succ _ _ N), corank_edge in I. unfold L. apply Lfun_stable; lia.
Qed.
Lemma L_edge : forall a b, edge p a b -> (L a + dur a <= L b)%Z.
Proof.
  intros a b H. apply (nx_succ _ _ N) in H. apply (in_map L) in H. rewrite (L_eq a).
  destruct (map L (n_succ g a)) as [|x l]; [destruct H|]. pose proof (proj1 (fold_min_spec l x) _ H). lia.
Qed.
Lemma L_attained : forall n, n_succ g n <> [] -> exists a, edge p n a /\ (L n + dur n = L a)%Z.
Proof.
  intros n H. pose proof (L_eq n) as Q. destruct (map L (n_succ g n)) as [|x l] eqn:EL.
  { destruct (n_succ g n); [congruence|discriminate]. }
  pose proof (proj2 (fold_min_spec l x)) as I. rewrite <- EL in I. apply in_map_iff in I.
  destruct I as [a [I1 I2]]. exists a. split; [now apply (nx_succ _ _ N)|]. lia.
Qed.
Lemma zmin_succ : forall n, n_succ g n <> [] -> zmin (map L (n_succ g n)) = Ok (L n + dur n)%Z.
Proof.
  intros n H. pose proof (L_eq n) as Q. unfold zmin. destruct (map L (n_succ g n)) as [|x l] eqn:EL.
  { destruct (n_succ g n); [congruence|discriminate]. }
  f_equal. lia.
Qed.

Lemma sink_task : task p sink.
Proof. pose proof (pr_some _ P). unfold task. lia. Qed.
Lemma source_task : task p 1.
Proof. pose proof (pr_some _ P). unfold task. lia. Qed.
Lemma path_task : forall a b, path p a b -> task p a /\ task p b.
Proof.
  intros a b H. induction H as [a b H|a b c H _ IH]; [now apply (pr_edges _ P)|].
  apply (pr_edges _ P) in H. tauto.
Qed.
Lemma sink_last : n_succ g sink = [].
Proof.
  destruct (n_succ g sink) as [|b l] eqn:EQ; auto.
  assert (H : edge p sink b) by (apply (nx_succ _ _ N); rewrite EQ; simpl; auto).
  exfalso. destruct (Nat.eq_dec b sink) as [->|NE].
  - apply (pr_acyclic _ P sink). now apply path_one.
  - apply (pr_acyclic _ P sink). eapply path_step; [exact H|]. apply (pr_sink _ P); auto.
    apply (pr_edges _ P) in H. tauto.
Qed.
Lemma has_succ : forall a, task p a -> a <> sink -> n_succ g a <> [].
Proof.
  intros a T NE EQ. pose proof (pr_sink _ P a T NE) as H.
  assert (X : exists b, edge p a b) by (destruct H; eauto).
  destruct X as [b X]. apply (nx_succ _ _ N) in X. rewrite EQ in X. destruct X.
Qed.
Lemma path_pred : forall a b, path p a b -> exists c, edge p c b.
Proof. intros a b H. induction H; eauto. Qed.
Lemma has_pred : forall a, task p a -> a <> 1 -> n_pred g a <> [].
Proof.
  intros a T NE EQ. destruct (path_pred _ _ (pr_source _ P a T NE)) as [b X].
  apply (nx_pred _ _ N) in X. rewrite EQ in X. destruct X.
Qed.
Lemma L_sink : L sink = E sink.
Proof. rewrite L_eq, sink_last. cbn [map]. unfold M. lia. Qed.

Lemma E_le_L : forall a, task p a -> (E a <= L a)%Z.
Proof.
  apply by_corank. intros a T IH. destruct (Nat.eq_dec a sink) as [->|NE]; [rewrite L_sink; lia|].
  destruct (L_attained a (has_succ a T NE)) as [b [H Q]]. specialize (IH b H). pose proof (E_edge _ _ H). lia.
Qed.
Lemma L_over : forall a, task p a -> (L a + dur a <= M)%Z.
Proof.
  apply by_corank. intros a T IH. destruct (Nat.eq_dec a sink) as [->|NE]; [rewrite L_sink; unfold M; lia|].
  destruct (L_attained a (has_succ a T NE)) as [b [H Q]]. specialize (IH b H).
  pose proof (dur_nonneg b (proj2 (pr_edges _ P _ _ H))). lia.
Qed.

Lemma E_plan : plan p E.
Proof.
  split; [intros; apply E_nonneg|]. intros a b d H S.
  rewrite (shortest_unique _ _ _ _ S (proj2 (dur_ok a (proj1 (pr_edges _ P _ _ H))))). now apply E_edge.
Qed.
Lemma E_least : forall s, plan p s -> forall a, task p a -> (E a <= s a)%Z.
Proof.
  intros s [S0 S1]. apply by_rank. intros a T IH. rewrite E_eq.
  destruct (fold_max_spec (map (fun a => E a + dur a)%Z (n_pred g a)) 0) as [_ I].
  set (x := fold_left Z.max _ _) in *. destruct I as [I|I]; [rewrite <- I; auto|].
  apply in_map_iff in I. destruct I as [b [I1 I2]]. apply (nx_pred _ _ N) in I2.
  specialize (S1 b a _ I2 (proj2 (dur_ok b (proj1 (pr_edges _ P _ _ I2))))). specialize (IH b I2). lia.
Qed.
Lemma L_plan : plan p L.
Proof.
  split; [intros a T; pose proof (E_nonneg a); pose proof (E_le_L a T); lia|]. intros a b d H S.
  rewrite (shortest_unique _ _ _ _ S (proj2 (dur_ok a (proj1 (pr_edges _ P _ _ H))))). now apply L_edge.
Qed.
Lemma L_greatest : forall s, plan p s -> over_by p s M -> forall a, task p a -> (s a <= L a)%Z.
Proof.
  intros s [S0 S1] O. apply by_corank. intros a T IH. destruct (Nat.eq_dec a sink) as [->|NE].
  - specialize (O sink _ T (proj2 (dur_ok _ T))). unfold M in O. rewrite L_sink. lia.
  - destruct (L_attained a (has_succ a T NE)) as [b [H Q]]. specialize (IH b H).
    specialize (S1 a b _ H (proj2 (dur_ok a T))). lia.
Qed.

(** ** The loop *)

Lemma foldM_app : forall {A B} (f : B -> A -> res B) l1 l2 b,
  foldM f b (l1 ++ l2) = let* x := foldM f b l1 in foldM f x l2.
Proof.
  intros A B f. induction l1 as [|a l1 IH]; intros l2 b; cbn [foldM app bind]; auto.
  destruct (f b a); cbn [bind]; auto.
Qed.

Lemma known_spec : forall fw mp l (f : nat -> Z) (b : nat -> bool),
  (forall n, In n l -> exists d, dget mp n = Some d /\
     (if fw : bool then d_ef d else d_ls d) = (if b n then Some (f n) else None)) ->
  known fw mp l = Ok (if forallb b l then Some (map f l) else None).
Proof.
  intros fw mp l f b. induction l as [|n l IH]; intros H; [reflexivity|]. cbn [known forallb map].
  destruct (H n (or_introl eq_refl)) as [d [D V]]. unfold dgetE. rewrite D. cbn [bind]. rewrite V.
  rewrite IH; [|intros; apply H; now right]. destruct (b n); cbn [andb]; auto.
  destruct (forallb b l); reflexivity.
Qed.

Lemma propose_all : forall fw mp (f : nat -> Z) (b : nat -> bool) (v : nat -> Z) l q,
  (forall n, In n l -> (if fw : bool then n_pred g n else n_succ g n) <> []) ->
  (forall n k, In n l -> In k (if fw : bool then n_pred g n else n_succ g n) -> exists d, dget mp k = Some d /\
     (if fw : bool then d_ef d else d_ls d) = (if b k then Some (f k) else None)) ->
  (forall n, In n l -> (if fw : bool then zmax else zmin) (map f (if fw : bool then n_pred g n else n_succ g n)) = Ok (v n)) ->
  exists q', foldM (propose g fw mp) q l = Ok q' /\
    Permutation q' (map (fun n => ((if fw then v n else - v n)%Z, n))
                      (filter (fun n => forallb b (if fw : bool then n_pred g n else n_succ g n)) l) ++ q).
Proof.
  intros fw mp f b v. induction l as [|n l IH]; intros q NE HK HV; [exists q; split; auto|].
  cbn [foldM].
  assert (PR : propose g fw mp q n = Ok (if forallb b (if fw then n_pred g n else n_succ g n)
                then zpush ((if fw then v n else - v n)%Z, n) q else q)).
  { unfold propose. rewrite (known_spec fw mp _ f b); [|intros k I; apply (HK n k); simpl; auto].
    cbn [bind]. specialize (HV n (or_introl eq_refl)).
    destruct fw; (destruct (forallb b _); [rewrite HV|]; reflexivity). }
  rewrite PR. cbn [bind filter].
  edestruct IH as [q' [A B]]; [intros; apply NE; now right|intros; eapply HK; eauto; now right|intros; apply HV; now right|].
  exists q'. split; [exact A|]. rewrite B. destruct (forallb b _); [|reflexivity].
  cbn [map app]. unfold zpush. rewrite <- (sinsert_perm _ _ q). symmetry. apply Permutation_middle.
Qed.

(** Dates during the forward pass, and during the backward pass. *)
Definition fdate (fw : list nat) (n : nat) : dates :=
  if pymem n fw then Dates (Some (E n)) (Some (E n + dur n)%Z) None None else Dates None None None None.
Definition bdate (bw : list nat) (n : nat) : dates :=
  if pymem n bw then Dates (Some (E n)) (Some (E n + dur n)%Z) (Some (L n)) (Some (L n + dur n)%Z)
  else Dates (Some (E n)) (Some (E n + dur n)%Z) None None.

Record inv_bw (st : pass) : Prop := {
  b_dir : c_forward st = false;
  b_keys : dkeys (c_map st) = n_nodes g;
  b_map : forall n, task p n -> dget (c_map st) n = Some (bdate (c_bw st) n);
  b_closed : forall n a, In n (c_bw st) -> edge p n a -> In a (c_bw st);
  b_queue : forall t n, In (t, n) (c_queue st) -> task p n /\ t = (- (L n + dur n))%Z /\
              forall a, edge p n a -> In a (c_bw st);
  b_complete : forall n, task p n -> ~ In n (c_bw st) -> (forall a, edge p n a -> In a (c_bw st)) ->
              exists t, In (t, n) (c_queue st) }.

Definition phi_bw (st : pass) : nat :=
  length (c_queue st) + left_of (n_nodes g) (fun n => S (length (n_pred g n))) (c_bw st).

Definition final (st : pass) : Prop :=
  dkeys (c_map st) = n_nodes g /\
  forall n, task p n -> dget (c_map st) n =
    Some (Dates (Some (E n)) (Some (E n + dur n)%Z) (Some (L n)) (Some (L n + dur n)%Z)).

Lemma dkeys_dset_in : forall (mp : list (nat * dates)) n d, In n (dkeys mp) -> dkeys (dset mp n d) = dkeys mp.
Proof.
  intros mp n d H. induction mp as [|[k v] mp IH]; [destruct H|]. cbn [dset dkeys map fst].
  destruct (pyeqb n k) eqn:Q; cbn [map fst]; auto.
  - apply Nat.eqb_eq in Q. now subst.
  - f_equal. apply IH. destruct H as [<-|H]; auto. cbn in Q. rewrite Nat.eqb_refl in Q. discriminate.
Qed.

Lemma bw_visit : forall st t n q, inv_bw st -> c_queue st = (t, n) :: q ->
  exists st', visit p g sink st t n q = Ok st' /\ inv_bw st' /\ phi_bw st' < phi_bw st.
Proof.
  intros st t n q I Q. destruct (b_queue _ I t n) as [T [Ht Hs]]; [rewrite Q; simpl; auto|].
  unfold visit. rewrite (b_dir _ I). destruct (pymem n (c_bw st)) eqn:V.
  - eexists. split; [reflexivity|]. split.
    + constructor; cbn [c_forward c_map c_bw c_queue]; auto; try apply I.
      * intros t' n' H. apply (b_queue _ I). rewrite Q. now right.
      * intros n' T' O' S'. destruct (b_complete _ I n' T' O' S') as [t' H]. rewrite Q in H.
        destruct H as [H|H]; [|eauto]. injection H as <- <-. apply mem_in in V. contradiction.
    + unfold phi_bw. cbn [c_queue c_bw]. rewrite Q. simpl. lia.
  - unfold dgetE. rewrite (b_map _ I n T). cbn [bind]. rewrite (proj1 (dur_ok n T)). cbn [bind].
    assert (BD : bdate (c_bw st) n = Dates (Some (E n)) (Some (E n + dur n)%Z) None None) by (unfold bdate; now rewrite V).
    rewrite BD. cbn [set_dates d_es d_ef].
    set (d' := Dates _ _ _ _). set (mp := dset (c_map st) n d').
    assert (MP : forall k, task p k -> dget mp k = Some (bdate (n :: c_bw st) k)).
    { intros k Tk. unfold mp. rewrite dget_dset. unfold bdate. rewrite pymem_cons.
      cbn [pyeqb PyEq_nat]. rewrite (Nat.eqb_sym n k). destruct (Nat.eqb_spec k n) as [->|NE].
      - cbn [orb]. unfold d'. subst t. f_equal. f_equal; f_equal; lia.
      - cbn [orb]. rewrite (b_map _ I k Tk). reflexivity. }
    edestruct (propose_all false mp L (fun k => pymem k (n :: c_bw st)) (fun k => (L k + dur k)%Z) (n_pred g n) q) as [q' [F Pq]].
    { intros k H. apply (nx_pred _ _ N) in H. cbn. intros EQ. apply (nx_succ _ _ N) in H. rewrite EQ in H. destruct H. }
    { intros k j Hk Hj. apply (nx_succ _ _ N) in Hj. exists (bdate (n :: c_bw st) j).
      split; [apply MP; apply (pr_edges _ P) in Hj; tauto|]. unfold bdate. now destruct (pymem j _). }
    { intros k H. apply zmin_succ. apply (nx_pred _ _ N) in H. intros EQ. apply (nx_succ _ _ N) in H. rewrite EQ in H. destruct H. }
    rewrite F. cbn [bind].
    assert (NB : ~ In n (c_bw st)) by (now apply mem_out).
    assert (INQ : forall t' n', In (t', n') q' -> (In (t', n') q \/
              (t' = - (L n' + dur n'))%Z /\ edge p n' n /\ forall a, edge p n' a -> In a (n :: c_bw st))).
    { intros t' n' H. rewrite Pq in H. apply in_app_or in H. destruct H as [H|H]; [right|auto].
      apply in_map_iff in H. destruct H as [k [H1 H2]]. injection H1 as <- <-. apply filter_In in H2.
      destruct H2 as [H2 H3]. split; [reflexivity|]. split; [now apply (nx_pred _ _ N)|].
      intros a Ha. apply mem_in. rewrite forallb_forall in H3. apply H3. now apply (nx_succ _ _ N). }
    assert (INV : forall q2, (forall t' n', In (t', n') q2 -> In (t', n') q' \/ (t' = t /\ n' = n)) -> incl q' q2 ->
              inv_bw (Pass mp (c_fw st) (n :: c_bw st) q2 false)).
    { intros q2 U W. constructor; cbn [c_forward c_map c_bw c_queue]; auto.
      - unfold mp. rewrite dkeys_dset_in; [apply I|]. rewrite (b_keys _ I). now apply node_task.
      - intros x a [<-|Hx] Ha; [right; now apply Hs|right; eapply (b_closed _ I); eauto].
      - intros t' n' H. apply U in H. destruct H as [H|[-> ->]].
        + apply INQ in H. destruct H as [H|[-> [H1 H2]]].
          * destruct (b_queue _ I t' n') as [A1 [A2 A3]]; [rewrite Q; now right|]. split; auto. split; auto.
            intros a Ha. right. auto.
          * split; [apply (pr_edges _ P) in H1; tauto|]. split; auto.
        + split; auto. split; auto. intros a Ha. right. auto.
      - intros k Tk Ok Sk.
        destruct (In_dec Nat.eq_dec n (n_succ g k)) as [IN|NI].
        + exists (- (L k + dur k))%Z. apply W. rewrite Pq. apply in_or_app. left. apply in_map_iff. exists k.
          split; auto. apply filter_In. split; [apply (nx_pred _ _ N); now apply (nx_succ _ _ N)|].
          apply forallb_forall. intros a Ha. apply mem_in, Sk. now apply (nx_succ _ _ N).
        + destruct (b_complete _ I k Tk) as [t' H].
          { intros X. apply Ok. now right. }
          { intros a Ha. destruct (Sk a Ha) as [<-|X]; auto. apply (nx_succ _ _ N) in Ha. contradiction. }
          rewrite Q in H. destruct H as [H|H]; [injection H as <- <-; exfalso; apply Ok; now left|].
          exists t'. apply W. rewrite Pq. apply in_or_app. now right. }
    assert (LQ : length q' <= length (n_pred g n) + length q).
    { rewrite (Permutation_length Pq), app_length, map_length. 
      assert (X : forall (f : nat -> bool) l, length (filter f l) <= length l).
      { intros f l. induction l as [|x l IH]; simpl; auto. destruct (f x); simpl; lia. }
      specialize (X (fun n0 => forallb (fun k => pymem k (n :: c_bw st)) (n_succ g n0)) (n_pred g n)). lia. }
    pose proof (left_of_visit (n_nodes g) (fun n => S (length (n_pred g n))) (c_bw st) n (nx_nodes_nd _ _ N)
                  (proj2 (node_task n) T) V) as LV. cbv beta in LV.
    destruct (Nat.eqb_spec n sink) as [ES|NS].
    + cbn [d_ef]. eexists. split; [reflexivity|]. split.
      * assert (EQ : (- (E n + dur n))%Z = t). { subst n. rewrite L_sink in Ht. lia. }
        rewrite EQ. apply INV.
        -- intros t' n' H. unfold zpush in H. rewrite <- sinsert_perm in H. destruct H as [H|H]; auto.
           injection H as <- <-. auto.
        -- intros x H. unfold zpush. rewrite <- sinsert_perm. now right.
      * unfold phi_bw. cbn [c_queue c_bw]. rewrite Q. unfold zpush.
        rewrite <- (Permutation_length (sinsert_perm _ _ q')). cbn [length]. lia.
    + eexists. split; [reflexivity|]. split.
      * apply INV; [auto|apply incl_refl].
      * unfold phi_bw. cbn [c_queue c_bw]. rewrite Q. cbn [length]. lia.
Qed.

Lemma bw_loop : forall fuel st, inv_bw st -> phi_bw st <= fuel ->
  exists st', pass_loop fuel p g sink st = Ok st' /\ final st'.
Proof.
  induction fuel as [|fuel IH]; intros st I F.
  - destruct (c_queue st) as [|[t n] q] eqn:Q; [|unfold phi_bw in F; rewrite Q in F; simpl in F; lia].
    exists st. unfold pass_loop. rewrite Q. split; auto.
    assert (A : forall n, task p n -> In n (c_bw st)).
    { apply by_corank. intros a T H. destruct (In_dec Nat.eq_dec a (c_bw st)) as [Y|Y]; auto.
      destruct (b_complete _ I a T Y H) as [t Z]. rewrite Q in Z. destruct Z. }
    split; [apply I|]. intros n T. rewrite (b_map _ I n T). unfold bdate.
    now rewrite (proj2 (mem_in n _) (A n T)).
  - cbn [pass_loop]. destruct (c_queue st) as [|[t n] q] eqn:Q.
    + exists st. split; auto.
      assert (A : forall n, task p n -> In n (c_bw st)).
      { apply by_corank. intros a T H. destruct (In_dec Nat.eq_dec a (c_bw st)) as [Y|Y]; auto.
        destruct (b_complete _ I a T Y H) as [t Z]. rewrite Q in Z. destruct Z. }
      split; [apply I|]. intros n T. rewrite (b_map _ I n T). unfold bdate.
      now rewrite (proj2 (mem_in n _) (A n T)).
    + destruct (bw_visit st t n q I Q) as [st' [V [I' L']]]. rewrite V. cbn [bind]. apply IH; auto. lia.
Qed.

Record inv_fw (st : pass) : Prop := {
  f_dir : c_forward st = true;
  f_bw : c_bw st = [];
  f_keys : dkeys (c_map st) = n_nodes g;
  f_map : forall n, task p n -> dget (c_map st) n = Some (fdate (c_fw st) n);
  f_sink : ~ In sink (c_fw st);
  f_closed : forall n a, In n (c_fw st) -> edge p a n -> In a (c_fw st);
  f_nd : NoDup (map snd (c_queue st));
  f_queue : forall t n, In (t, n) (c_queue st) -> task p n /\ t = E n /\ ~ In n (c_fw st) /\
              forall a, edge p a n -> In a (c_fw st);
  f_complete : forall n, task p n -> ~ In n (c_fw st) -> (forall a, edge p a n -> In a (c_fw st)) ->
              exists t, In (t, n) (c_queue st) }.

Definition phi_fw (st : pass) : nat :=
  length (c_queue st) + left_of (n_nodes g) (fun n => S (length (n_succ g n))) (c_fw st) +
  left_of (n_nodes g) (fun n => S (length (n_pred g n))) [].

Lemma closed_path : forall (fw : list nat), (forall n a, In n fw -> edge p a n -> In a fw) ->
  forall a b, path p a b -> In b fw -> In a fw.
Proof. intros fw C a b H. induction H; intros; eauto. Qed.

Lemma fw_visit : forall st t n q, inv_fw st -> c_queue st = (t, n) :: q ->
  exists st', visit p g sink st t n q = Ok st' /\
   ((inv_fw st' /\ phi_fw st' < phi_fw st) \/ (inv_bw st' /\ phi_bw st' < phi_fw st)).
Proof.
  intros st t n q I Q. destruct (f_queue _ I t n) as [T [Ht [V Hs]]]; [rewrite Q; simpl; auto|].
  pose proof (f_nd _ I) as ND. rewrite Q in ND. cbn [map snd] in ND. apply NoDup_cons_iff in ND. destruct ND as [NQ ND].
  unfold visit. rewrite (f_dir _ I). rewrite (proj2 (mem_out n _) V).
  unfold dgetE. rewrite (f_map _ I n T). cbn [bind]. rewrite (proj1 (dur_ok n T)). cbn [bind].
  assert (FD : fdate (c_fw st) n = Dates None None None None) by (unfold fdate; now rewrite (proj2 (mem_out n _) V)).
  rewrite FD. cbn [set_dates d_ls d_lf d_ef].
  set (d' := Dates _ _ _ _). set (mp := dset (c_map st) n d').
  assert (MP : forall k, task p k -> dget mp k = Some (fdate (n :: c_fw st) k)).
  { intros k Tk. unfold mp. rewrite dget_dset. unfold fdate. rewrite pymem_cons.
    cbn [pyeqb PyEq_nat]. rewrite (Nat.eqb_sym n k). destruct (Nat.eqb_spec k n) as [->|NE].
    - cbn [orb]. unfold d'. now subst t.
    - cbn [orb]. rewrite (f_map _ I k Tk). reflexivity. }
  edestruct (propose_all true mp (fun k => (E k + dur k)%Z) (fun k => pymem k (n :: c_fw st)) E (n_succ g n) q) as [q' [F Pq]].
  { intros k H. apply (nx_succ _ _ N) in H. cbn. intros EQ. apply (nx_pred _ _ N) in H. rewrite EQ in H. destruct H. }
  { intros k j Hk Hj. apply (nx_pred _ _ N) in Hj. exists (fdate (n :: c_fw st) j).
    split; [apply MP; apply (pr_edges _ P) in Hj; tauto|]. unfold fdate. now destruct (pymem j _). }
  { intros k H. apply zmax_pred. apply (nx_succ _ _ N) in H. intros EQ. apply (nx_pred _ _ N) in H. rewrite EQ in H. destruct H. }
  rewrite F. cbn [bind]. cbv iota in Pq.
  pose proof (left_of_visit (n_nodes g) (fun n => S (length (n_succ g n))) (c_fw st) n (nx_nodes_nd _ _ N)
                (proj2 (node_task n) T) (proj2 (mem_out n _) V)) as LV. cbv beta in LV.
  assert (KM : dkeys mp = n_nodes g).
  { unfold mp. rewrite dkeys_dset_in; [apply I|]. rewrite (f_keys _ I). now apply node_task. }
  destruct (Nat.eqb_spec n sink) as [ES|NS].
  - cbn [d_ef]. eexists. split; [reflexivity|]. right.
    assert (ALL : forall k, task p k -> In k (n :: c_fw st)).
    { intros k Tk. destruct (Nat.eq_dec k sink) as [->|NE]; [left; auto|]. right.
      pose proof (pr_sink _ P k Tk NE) as PK. rewrite <- ES in PK.
      assert (X : exists c, edge p c n /\ (c = k \/ path p k c)).
      { clear -PK. induction PK as [a b H|a b c H PK [x [H1 H2]]]; [exists a; auto|].
        exists x. split; auto. right. destruct H2 as [->|H2]; [now apply path_one|eapply path_step; eauto]. }
      destruct X as [c [H1 H2]]. apply Hs in H1. destruct H2 as [->|H2]; auto.
      eapply closed_path; eauto. apply (f_closed _ I). }
    assert (Q0 : q = []).
    { destruct q as [|[t0 n0] q0]; auto. exfalso. destruct (f_queue _ I t0 n0) as [T0 [_ [V0 _]]]; [rewrite Q; simpl; auto|].
      destruct (ALL n0 T0) as [<-|X]; [|contradiction]. apply NQ. simpl; auto. }
    assert (S0 : n_succ g n = []) by (rewrite ES; apply sink_last).
    subst q. rewrite S0 in Pq, F. cbn [filter map app] in Pq. apply Permutation_sym, Permutation_nil in Pq. subst q'.
    unfold zpush. cbn [sinsert]. split.
    + constructor; cbn [c_forward c_map c_bw c_queue]; auto.
      * intros k Tk. rewrite (MP k Tk). rewrite (f_bw _ I). unfold fdate, bdate.
        rewrite (proj2 (mem_in k _) (ALL k Tk)). reflexivity.
      * rewrite (f_bw _ I). intros x a [].
      * intros t' n' [H|[]]. injection H as <- <-. split; auto. split.
        -- rewrite ES, L_sink, <- ES. lia.
        -- intros a Ha. apply (nx_succ _ _ N) in Ha. rewrite S0 in Ha. destruct Ha.
      * intros k Tk _ Sk. rewrite (f_bw _ I) in Sk. destruct (Nat.eq_dec k sink) as [->|NE].
        -- rewrite <- ES. eexists. left. reflexivity.
        -- exfalso. pose proof (has_succ k Tk NE) as HS. destruct (n_succ g k) as [|a l] eqn:EQ; [congruence|].
           apply (Sk a). apply (nx_succ _ _ N). rewrite EQ. simpl; auto.
    + unfold phi_bw, phi_fw. cbn [c_queue c_bw length]. rewrite Q, (f_bw _ I). cbn [length]. lia.
  - eexists. split; [reflexivity|]. left. split.
    + constructor; cbn [c_forward c_map c_bw c_fw c_queue]; auto; try apply I.
      * intros [X|X]; [congruence|]. now apply (f_sink _ I).
      * intros x a [<-|Hx] Ha; [right; now apply Hs|right; eapply (f_closed _ I); eauto].
      * rewrite Pq, map_app, map_map. cbn [snd]. rewrite map_id.
        apply NoDup_app_disjoint; auto; [apply NoDup_filter, (nx_succ_nd _ _ N)|].
        intros x H1 H2. apply filter_In in H1. destruct H1 as [H1 _]. apply in_map_iff in H2.
        destruct H2 as [[t2 n2] [<- H2]]. cbn [snd] in H1. apply V.
        destruct (f_queue _ I t2 n2) as [_ [_ [_ X]]]; [rewrite Q; now right|]. apply X. now apply (nx_succ _ _ N).
      * intros t' n' H. rewrite Pq in H. apply in_app_or in H. destruct H as [H|H].
        -- apply in_map_iff in H. destruct H as [k [H1 H2]]. injection H1 as <- <-. apply filter_In in H2.
           destruct H2 as [H2 H3]. apply (nx_succ _ _ N) in H2. split; [apply (pr_edges _ P) in H2; tauto|].
           split; auto. split.
           ++ intros [->|X]; [apply (pr_acyclic _ P k); now apply path_one|]. apply V. eapply (f_closed _ I); eauto.
           ++ intros a Ha. apply mem_in. rewrite forallb_forall in H3. apply H3. now apply (nx_pred _ _ N).
        -- destruct (f_queue _ I t' n') as [A1 [A2 [A3 A4]]]; [rewrite Q; now right|]. split; auto. split; auto. split.
           ++ intros [->|X]; [|contradiction]. apply NQ. apply in_map_iff. exists (t', n'). auto.
           ++ intros a Ha. right. auto.
      * intros k Tk Ok Sk.
        destruct (In_dec Nat.eq_dec n (n_pred g k)) as [IN|NI].
        -- exists (E k). rewrite Pq. apply in_or_app. left. apply in_map_iff. exists k.
           split; auto. apply filter_In. split; [apply (nx_succ _ _ N); now apply (nx_pred _ _ N)|].
           apply forallb_forall. intros a Ha. apply mem_in, Sk. now apply (nx_pred _ _ N).
        -- destruct (f_complete _ I k Tk) as [t' H].
           { intros X. apply Ok. now right. }
           { intros a Ha. destruct (Sk a Ha) as [<-|X]; auto. apply (nx_pred _ _ N) in Ha. contradiction. }
           rewrite Q in H. destruct H as [H|H]; [injection H as <- <-; exfalso; apply Ok; now left|].
           exists t'. rewrite Pq. apply in_or_app. now right.
    + assert (LQ : length q' <= length (n_succ g n) + length q).
      { rewrite (Permutation_length Pq), app_length, map_length.
        assert (X : forall (f : nat -> bool) l, length (filter f l) <= length l).
        { intros f l. induction l as [|x l IH]; simpl; auto. destruct (f x); simpl; lia. }
        specialize (X (fun n0 => forallb (fun k => pymem k (n :: c_fw st)) (n_pred g n0)) (n_succ g n)). lia. }
      unfold phi_fw. cbn [c_queue c_fw]. rewrite Q. cbn [length]. lia.
Qed.

Lemma fw_loop : forall fuel st, inv_fw st -> phi_fw st <= fuel ->
  exists st', pass_loop fuel p g sink st = Ok st' /\ final st'.
Proof.
  assert (NE : forall st, inv_fw st -> c_queue st <> []).
  { intros st I Q. apply (f_sink _ I).
    assert (A : forall n, task p n -> In n (c_fw st)); [|apply A, sink_task].
    apply by_rank. intros a T H. destruct (In_dec Nat.eq_dec a (c_fw st)) as [Y|Y]; auto.
    destruct (f_complete _ I a T Y H) as [t Z]. rewrite Q in Z. destruct Z. }
  induction fuel as [|fuel IH]; intros st I F.
  - exfalso. apply (NE st I). destruct (c_queue st) eqn:Q; auto. unfold phi_fw in F. rewrite Q in F. simpl in F. lia.
  - destruct (c_queue st) as [|[t n] q] eqn:Q; [now destruct (NE st I)|].
    destruct (fw_visit st t n q I Q) as [st' [V H]].
    cbn [pass_loop]. rewrite Q, V. cbn [bind]. destruct H as [[I' L']|[I' L']].
    + apply IH; auto. lia.
    + apply bw_loop; auto. lia.
Qed.

Lemma first_queue_perm : forall l q, exists r,
  Permutation (fold_left (fun q n => match n_anc g n with [] => zpush (0%Z, n) q | _ => q end) l q) (r ++ q) /\
  map snd r = rev (filter (fun n => match n_anc g n with [] => true | _ => false end) l) /\
  forall t n, In (t, n) r -> t = 0%Z.
Proof.
  induction l as [|x l IH]; intros q; [exists []; cbn; repeat split; auto; intros ? ? []|].
  cbn [fold_left filter]. destruct (n_anc g x) eqn:EQ.
  - destruct (IH (zpush (0%Z, x) q)) as [r [A [B C]]]. exists (r ++ [(0%Z, x)]). split; [|split].
    + rewrite A. unfold zpush. rewrite <- sinsert_perm. rewrite <- app_assoc. reflexivity.
    + rewrite map_app, B. reflexivity.
    + intros t n I. apply in_app_or in I. destruct I as [I|[I|[]]]; [eauto|congruence].
  - apply IH.
Qed.

Lemma roots : forall n, n_anc g n = [] <-> forall a, ~ edge p a n.
Proof.
  intros n. split.
  - intros H a Ea. assert (X : In a (n_anc g n)); [|rewrite H in X; destruct X].
    apply (nx_anc _ _ N). split; [now apply path_one|]. intros ->. apply (pr_acyclic _ P n). now apply path_one.
  - intros H. destruct (n_anc g n) as [|a l] eqn:EQ; auto. exfalso.
    assert (X : In a (n_anc g n)) by (rewrite EQ; simpl; auto). apply (nx_anc _ _ N) in X. destruct X as [X _].
    apply path_pred in X. destruct X as [c X]. now apply (H c).
Qed.

Lemma nodup_rev : forall (l : list nat), NoDup l -> NoDup (rev l).
Proof. intros l H. eapply Permutation_NoDup; [apply Permutation_rev|exact H]. Qed.

Lemma no_dates_get : forall (l : list nat) n, In n l -> dget (map (fun n => (n, Dates None None None None)) l) n = Some (Dates None None None None).
Proof.
  induction l as [|x l IH]; intros n H; [destruct H|]. cbn [map dget fst].
  destruct (pyeqb n x) eqn:Q; auto. destruct H as [->|H]; [|auto]. rewrite pyeqb_refl in Q. discriminate.
Qed.

Lemma start_inv : inv_fw (Pass (no_dates g) [] [] (first_queue g) true) /\
  phi_fw (Pass (no_dates g) [] [] (first_queue g) true) <= cpm_fuel g.
Proof.
  destruct (first_queue_perm (n_nodes g) []) as [r [A [B C]]]. fold (first_queue g) in A. rewrite app_nil_r in A.
  set (f := fun n => match n_anc g n with [] => true | _ => false end) in B.
  split.
  - constructor; cbn [c_forward c_bw c_fw c_map c_queue]; auto.
    + unfold no_dates, dkeys. rewrite map_map. apply map_id.
    + intros n T. apply no_dates_get. now apply node_task.
    + rewrite A, B. apply nodup_rev, NoDup_filter, (nx_nodes_nd _ _ N).
    + intros t n H. rewrite A in H. assert (X : In n (map snd r)) by (apply in_map_iff; exists (t, n); auto).
      rewrite B in X. apply in_rev, filter_In in X. destruct X as [X1 X2]. unfold f in X2.
      destruct (n_anc g n) eqn:EQ; [|discriminate]. pose proof (proj1 (roots n) EQ) as RT.
      split; [now apply node_task|]. split.
      * rewrite (C _ _ H). rewrite E_eq. destruct (n_pred g n) as [|a l] eqn:EP; [reflexivity|].
        exfalso. apply (RT a). apply (nx_pred _ _ N). rewrite EP. simpl; auto.
      * split; [auto|]. intros a Ha. now apply RT in Ha.
    + intros n T _ H. assert (RT : n_anc g n = []) by (apply roots; intros a Ha; now apply H in Ha).
      assert (X : In n (map snd r)).
      { rewrite B, <- in_rev. apply filter_In. split; [now apply node_task|]. unfold f. now rewrite RT. }
      apply in_map_iff in X. destruct X as [[t n'] [X1 X2]]. cbn in X1. subst n'. exists t. now rewrite A.
  - unfold phi_fw, cpm_fuel. cbn [c_queue c_fw].
    assert (LQ : length (first_queue g) <= length (n_nodes g)).
    { rewrite (Permutation_length A), <- (map_length snd r), B, rev_length.
      clear. induction (n_nodes g) as [|x l IH]; simpl; auto. destruct (f x); simpl; lia. }
    assert (AL : forall w, left_of (n_nodes g) w [] = list_sum (map w (n_nodes g))).
    { intros w. unfold left_of. f_equal. f_equal. clear. induction (n_nodes g) as [|x l IH]; [reflexivity|]. cbn [filter]. rewrite IH. reflexivity. }
    rewrite !AL.
    assert (SU : forall l, list_sum (map (fun n => S (length (n_succ g n)) + S (length (n_pred g n))) l) =
      list_sum (map (fun n => S (length (n_succ g n))) l) + list_sum (map (fun n => S (length (n_pred g n))) l)).
    { clear. induction l as [|x l IH]; [reflexivity|]. unfold list_sum in *. cbn [map fold_right]. lia. }
    rewrite SU. lia.
Qed.

(** ** The critical path *)

Lemma filterM_ok : forall {A} (f : A -> res bool) (h : A -> bool) l, (forall x, In x l -> f x = Ok (h x)) ->
  filterM f l = Ok (filter h l).
Proof.
  intros A f h l. induction l as [|x l IH]; intros H; [reflexivity|]. cbn [filterM filter].
  rewrite (H x (or_introl eq_refl)), IH; [|intros; apply H; now right]. cbn [bind]. now destruct (h x).
Qed.

Lemma walk_ok : forall fuel mp cur path0,
  (forall n, task p n -> dget mp n = Some (Dates (Some (E n)) (Some (E n + dur n)%Z) (Some (L n)) (Some (L n + dur n)%Z))) ->
  task p cur -> E cur = L cur -> rank cur <= fuel ->
  (exists r, path0 = cur :: r) -> chain p path0 -> (forall x, In x path0 -> task p x /\ E x = L x) ->
  exists r, walk_back fuel g mp 1 cur path0 = Ok r /\ chain p r /\ hd_error r = Some 1 /\
    (exists pre, r = pre ++ path0) /\ (forall x, In x r -> task p x /\ E x = L x).
Proof.
  assert (ST : forall mp cur path0,
    (forall n, task p n -> dget mp n = Some (Dates (Some (E n)) (Some (E n + dur n)%Z) (Some (L n)) (Some (L n + dur n)%Z))) ->
    task p cur -> E cur = L cur -> cur <> 1 ->
    (exists r, path0 = cur :: r) -> chain p path0 -> (forall x, In x path0 -> task p x /\ E x = L x) ->
    exists n l, filterM (no_slack mp) (n_pred g cur) = Ok (n :: l) /\ edge p n cur /\ task p n /\ E n = L n).
  { intros mp cur path0 MP T Q NE [r0 EP] CH AL.
    rewrite (filterM_ok _ (fun n => (E n =? L n)%Z)).
    2: { intros x I. apply (nx_pred _ _ N) in I. unfold no_slack, dgetE.
         rewrite (MP x (proj1 (pr_edges _ P _ _ I))). reflexivity. }
    destruct (E_attained cur (has_pred cur T NE)) as [a [H1 H2]].
    pose proof (proj1 (pr_edges _ P _ _ H1)) as Ta.
    assert (Qa : E a = L a). { pose proof (L_edge _ _ H1). pose proof (E_le_L a Ta). lia. }
    assert (I : In a (filter (fun n => (E n =? L n)%Z) (n_pred g cur))).
    { apply filter_In. split; [now apply (nx_pred _ _ N)|]. now apply Z.eqb_eq. }
    destruct (filter _ _) as [|n l] eqn:F; [destruct I|]. exists n, l. split; auto.
    assert (X : In n (filter (fun n => (E n =? L n)%Z) (n_pred g cur))) by (rewrite F; simpl; auto).
    apply filter_In in X. destruct X as [X1 X2]. apply (nx_pred _ _ N) in X1. apply Z.eqb_eq in X2.
    split; auto. split; auto. apply (pr_edges _ P) in X1. tauto. }
  induction fuel as [|fuel IH]; intros mp cur path0 MP T Q RK [r0 EP] CH AL.
  - cbn [walk_back]. destruct (Nat.eqb_spec cur 1) as [->|NE].
    + exists path0. subst path0. repeat split; auto; try (now apply AL). exists []. auto.
    + destruct (ST mp cur path0) as [n [l [_ [X _]]]]; eauto. apply rank_edge in X. lia.
  - cbn [walk_back]. destruct (Nat.eqb_spec cur 1) as [->|NE].
    + exists path0. subst path0. repeat split; auto; try (now apply AL). exists []. auto.
    + destruct (ST mp cur path0) as [n [l [F [X [Tn Qn]]]]]; eauto. rewrite F. cbn [bind].
      pose proof (rank_edge _ _ X).
      destruct (IH mp n (n :: path0)) as [r [A [B [C [[pre D] G]]]]]; auto; try lia.
      * eauto.
      * subst path0. cbn [chain]. auto.
      * intros x [<-|I]; auto.
      * exists r. repeat split; auto; try (now apply G). exists (pre ++ [n]). now rewrite <- app_assoc.
Qed.

Lemma source_is : cpm_source p = Ok 1.
Proof.
  unfold cpm_source. destruct (dkeys (p_modes p)) as [|x l] eqn:K.
  - exfalso. pose proof (pr_modes _ P 1) as H. rewrite K in H. apply H, source_task.
  - f_equal. destruct (fold_nmin_spec l x) as [A B]. set (y := fold_left Nat.min l x) in *. rewrite <- K in A, B.
    apply (pr_modes _ P) in B. pose proof (A 1 (proj2 (pr_modes _ P 1) source_task)). unfold task in B. lia.
Qed.
Lemma sink_is : cpm_sink p = Ok sink.
Proof.
  unfold cpm_sink, max_key. destruct (dkeys (p_modes p)) as [|x l] eqn:K.
  - exfalso. pose proof (pr_modes _ P 1) as H. rewrite K in H. apply H, source_task.
  - f_equal. destruct (fold_nmax_spec l x) as [A B]. set (y := fold_left Nat.max l x) in *. rewrite <- K in A, B.
    apply (pr_modes _ P) in B. pose proof (A sink (proj2 (pr_modes _ P sink) sink_task)). unfold task in B. lia.
Qed.

Lemma cpm_runs : exists mp path, run_cpm p g = Ok (mp, path) /\
  dkeys mp = n_nodes g /\
  (forall n, task p n -> dget mp n = Some (Dates (Some (E n)) (Some (E n + dur n)%Z) (Some (L n)) (Some (L n + dur n)%Z))) /\
  chain p path /\ hd_error path = Some 1 /\ last path 0 = sink /\ (forall x, In x path -> task p x /\ E x = L x).
Proof.
  unfold run_cpm. rewrite source_is, sink_is. cbn [bind]. destruct start_inv as [I F].
  destruct (fw_loop _ _ I F) as [st [A [K B]]]. rewrite A. cbn [bind].
  pose proof (rank_bound sink sink_task) as RB.
  destruct (walk_ok (length (n_nodes g)) (c_map st) sink [sink]) as [r [W [C [D [[pre G] H]]]]]; auto.
  - exact sink_task.
  - now rewrite L_sink.
  - lia.
  - eauto.
  - exact Logic.I.
  - intros x [<-|[]]. split; [exact sink_task|now rewrite L_sink].
  - rewrite W. cbn [bind]. exists (c_map st), r. split; auto. split; auto. split; auto. split; auto. split; auto.
    split; auto. subst r. now rewrite last_last.
Qed.
End Cpm.
