(** Tours and the program of MilpTspModel; the loop of [solve]. *)
From Coq Require Import List Bool Arith ZArith Lia Permutation Relations.
From Verif Require Import Py PyList PyMore TspModel TspProofs TspProps MilpModel MilpProofs MilpTspModel MilpTspProofs
  MilpTspCycleProofs MilpTspJoinProofs.
Import ListNotations.
Open Scope nat_scope.

(** * Vocabulary *)
Section Vocabulary.
Context {P : Type}.
Variable len : P -> P -> Z.
Variable p0 : P.
Implicit Types t : tsp (P:=P).

(** The whole tour of a vector of intermediate nodes. *)
Definition whole t (q : list nat) : list nat := t_start t :: q ++ [t_end t].
(** The tour only uses edges of the graph. *)
Definition within t (g : graph) (q : list nat) : Prop := forall h, In h (hops (whole t q)) -> In h (dkeys g).
(** The graph belongs to the problem: its weights are the distances. *)
Definition graph_for t (g : graph) : Prop :=
  graph_ok (t_n t) g /\ forall a b w, In ((a, b), w) g -> w = between len p0 t a b.
(** There are intermediate nodes, and a closed tour is not a return trip between two nodes. *)
Definition proper t : Prop := length_permutation t <> 0 /\ (t_start t = t_end t -> length_permutation t <> 1).
(** All the edges between distinct nodes. *)
Definition complete t (g : graph) : Prop :=
  (forall a b, a < t_n t -> b < t_n t -> a <> b -> In (a, b) (dkeys g)) /\ forall a, ~ In (a, a) (dkeys g).
(** The programs given to the engine. *)
Definition posed (order : list edge -> list edge) (g : graph) (m : milp edge) (css : list (list nat)) : milp edge :=
  with_cuts m (flat_map (cut (edges_of order g)) css).
(** The engine answers programs that have a solution with a solution, or with a best one. *)
Definition engine_sound (order : list edge -> list edge) (g : graph) (m : milp edge) (engine : milp edge -> edge -> Z) : Prop :=
  forall css, (exists a, admissible (posed order g m css) a) ->
    admissible (posed order g m css) (engine (posed order g m css)).
Definition engine_exact (order : list edge -> list edge) (g : graph) (m : milp edge) (engine : milp edge -> edge -> Z) : Prop :=
  forall css, (exists a, admissible (posed order g m css) a) ->
    optimal (posed order g m css) (engine (posed order g m css)).
Definition wcc_ok (n : nat) (wcc : list edge -> list (list nat)) : Prop :=
  forall E, (forall a b, In (a, b) E -> a < n /\ b < n) -> components n E (wcc E).
End Vocabulary.

(** * Lists *)
Lemma map_inj : forall A B (f : A -> B) l x y, NoDup (map f l) -> In x l -> In y l -> f x = f y -> x = y.
Proof.
  induction l as [|z l IH]; intros x y N Ix Iy E; [destruct Ix|]. cbn [map] in N. inversion N as [|? ? Nz Nl]; subst.
  destruct Ix as [->|Ix], Iy as [->|Iy]; auto.
  - exfalso. apply Nz. rewrite E. now apply in_map.
  - exfalso. apply Nz. rewrite <- E. now apply in_map.
Qed.
Lemma legs_hops : forall d p, legs d p = map (fun h => d (fst h) (snd h)) (hops p).
Proof.
  intros d. induction p as [|a p IH]; [reflexivity|]. destruct p as [|b p]; [reflexivity|]. rewrite legs_cons, hops_cons, IH. reflexivity.
Qed.
Lemma hops_pos : forall p a b, In (a, b) (hops p) -> exists i, nth_error p i = Some a /\ nth_error p (S i) = Some b.
Proof.
  intros p a b I. apply hops_In in I. destruct I as (p1 & p2 & ->). exists (length p1). split.
  - rewrite nth_error_app2 by lia. now rewrite Nat.sub_diag.
  - rewrite nth_error_app2 by lia. replace (S (length p1) - length p1) with 1 by lia. reflexivity.
Qed.
Lemma sum_has_one : forall A (f : A -> Z) l x, In x l -> f x = 1%Z -> (forall y, In y l -> (0 <= f y)%Z) -> (1 <= sumZ (map f l))%Z.
Proof.
  induction l as [|y l IH]; intros x I F N; [destruct I|]. cbn [map]. rewrite sumZ_cons.
  pose proof (N y (or_introl eq_refl)). assert (0 <= sumZ (map f l))%Z by (apply sumZ_map_nonneg; intros; apply N; now right).
  destruct I as [->|I]; [lia|]. assert (1 <= sumZ (map f l))%Z; [|lia]. eapply IH; eauto. intros; apply N; now right.
Qed.
(** A sum over the chosen edges only. *)
Lemma chosen_sum : forall (w a : edge -> Z) (es H : list edge), NoDup es -> NoDup H -> incl H es ->
  (forall e, In e es -> (In e H -> a e = 1%Z) /\ (~ In e H -> a e = 0%Z)) ->
  sumZ (map (fun e => w e * a e)%Z es) = sumZ (map w H).
Proof.
  intros w a es H Ne Nh Inc V.
  rewrite (sumZ_map_ext (fun e => w e * a e)%Z (fun e => if pymem e H then w e else 0%Z)).
  - transitivity (sumZ (map w (filter (fun e => pymem e H) es))).
    + clear. induction es as [|e es IH]; [reflexivity|]. cbn [map filter]. rewrite sumZ_cons, IH.
      destruct (pymem e H); [now cbn [map]; rewrite sumZ_cons|lia].
    + apply sumZ_map_perm. apply NoDup_Permutation; auto; [now apply NoDup_filter|]. intros e. rewrite filter_In, pymem_true.
      split; [tauto|]. intros I. split; [now apply Inc|exact I].
  - intros e I. destruct (V e I) as [V1 V2]. destruct (pymem e H) eqn:M; [apply pymem_true in M; rewrite (V1 M); lia|].
    apply pymem_false in M. rewrite (V2 M). lia.
Qed.

(** * Sets of edges *)
Fixpoint subs (es : list edge) : list (list edge) :=
  match es with [] => [[]] | e :: r => subs r ++ map (cons e) (subs r) end.
Lemma subs_length : forall es, length (subs es) = 2 ^ length es.
Proof. induction es as [|e es IH]; [reflexivity|]. cbn [subs length Nat.pow]. rewrite app_length, map_length, IH. lia. Qed.
Lemma subs_filter : forall f es, In (filter f es) (subs es).
Proof.
  induction es as [|e es IH]; [now left|]. cbn [filter subs]. apply in_or_app. destruct (f e); [right; now apply in_map|now left].
Qed.

(** * A tour as a solution *)
Section Tour.
Variable order : list edge -> list edge.
Hypothesis Hord : rearranges order.
Context {P : Type}.
Variable len : P -> P -> Z.
Variable p0 : P.
Variable t : tsp (P:=P).
Hypothesis Ht : fits t.
Hypothesis Hp : proper t.
Variable g : graph.
Hypothesis Hg : graph_for len p0 t g.
Let n := t_n t.
Let es := edges_of order g.

Definition encode (q : list nat) (e : edge) : Z := if pymem e (hops (whole t q)) then 1%Z else 0%Z.
Lemma encode_one : forall q e, encode q e = 1%Z <-> In e (hops (whole t q)).
Proof. intros q e. unfold encode. destruct (pymem e (hops (whole t q))) eqn:M; [apply pymem_true in M; tauto|]. apply pymem_false in M. split; [discriminate|contradiction]. Qed.
Lemma encode_zero : forall q e, encode q e = 0%Z <-> ~ In e (hops (whole t q)).
Proof. intros q e. unfold encode. destruct (pymem e (hops (whole t q))) eqn:M; [apply pymem_true in M; split; [discriminate|contradiction]|]. apply pymem_false in M. tauto. Qed.
Lemma encode_range : forall q e, (0 <= encode q e <= 1)%Z.
Proof. intros q e. unfold encode. destruct (pymem _ _); lia. Qed.

Lemma tour_fst : forall q, map fst (hops (whole t q)) = t_start t :: q.
Proof. intros q. unfold whole. change (t_start t :: q ++ [t_end t]) with ((t_start t :: q) ++ [t_end t]). apply hops_fst. Qed.
Lemma tour_snd : forall q, map snd (hops (whole t q)) = q ++ [t_end t].
Proof. intros q. unfold whole. apply hops_snd. Qed.
Lemma tour_fst_nodup : forall q, visits t q -> NoDup (map fst (hops (whole t q))).
Proof. intros q [N V]. rewrite tour_fst. constructor; [|exact N]. intros I. apply V in I. tauto. Qed.
Lemma tour_snd_nodup : forall q, visits t q -> NoDup (map snd (hops (whole t q))).
Proof. intros q [N V]. rewrite tour_snd. apply NoDup_snoc; [exact N|]. intros I. apply V in I. tauto. Qed.
Lemma tour_nodup : forall q, visits t q -> NoDup (hops (whole t q)).
Proof. intros q V. apply (NoDup_map_inv' _ _ fst), tour_fst_nodup, V. Qed.
Lemma tour_In : forall q v, visits t q -> (In v (whole t q) <-> v < n).
Proof.
  intros q v [_ V]. unfold whole. destruct Ht as (_ & Hs & He). fold n in Hs, He. split.
  - intros [<-|I]; [exact Hs|]. apply in_app_or in I. destruct I as [I|[<-|[]]]; [now apply V|exact He].
  - intros L. destruct (Nat.eq_dec v (t_start t)) as [->|D1]; [now left|]. right. apply in_or_app.
    destruct (Nat.eq_dec v (t_end t)) as [->|D2]; [right; now left|]. left. now apply V.
Qed.

(** A sum of the encoding over the edges seen from one side. *)
Lemma side_sum : forall (side : edge -> nat) q v, within t g q -> NoDup (map side (hops (whole t q))) ->
  sumZ (map (encode q) (filter (fun e => side e =? v) es)) = if pymem v (map side (hops (whole t q))) then 1%Z else 0%Z.
Proof.
  intros side q v W N. destruct Hg as [G _]. pose proof (es_NoDup order Hord n g G) as Ne. fold es in Ne.
  destruct (pymem v (map side (hops (whole t q)))) eqn:M.
  - apply pymem_true in M. apply in_map_iff in M. destruct M as (h & S & I).
    rewrite (sum_indicator _ (encode q) _ h).
    + now apply encode_one.
    + now apply NoDup_filter.
    + apply filter_In. split; [apply (es_In order Hord); now apply W|now apply Nat.eqb_eq].
    + intros h' I' D. apply filter_In in I'. destruct I' as [I' S']. apply Nat.eqb_eq in S'. apply encode_zero. intros J.
      apply D. eapply map_inj; eauto. congruence.
  - apply pymem_false in M. apply sumZ_map_zero. intros h I. apply filter_In in I. destruct I as [_ S]. apply Nat.eqb_eq in S.
    apply encode_zero. intros J. apply M, in_map_iff. eauto.
Qed.

Lemma encode_flows : forall q, visits t q -> within t g q -> flows order n (t_start t) (t_end t) g (encode q).
Proof.
  intros q V W v L. pose proof (proj2 (tour_In q v V) L) as I. unfold into, outof. fold es.
  rewrite (side_sum snd q v W (tour_snd_nodup q V)), (side_sum fst q v W (tour_fst_nodup q V)), tour_snd, tour_fst.
  unfold whole in I. destruct V as [_ V].
  assert (A : In v (q ++ [t_end t]) <-> (v <> t_start t \/ t_start t = t_end t)).
  { rewrite in_app_iff. cbn [In] in *. rewrite in_app_iff in I. cbn [In] in I. specialize (V v).
    destruct (Nat.eq_dec v (t_start t)), (Nat.eq_dec (t_start t) (t_end t)); intuition (try congruence). }
  assert (B : In v (t_start t :: q) <-> (v <> t_end t \/ t_start t = t_end t)).
  { cbn [In] in *. rewrite in_app_iff in I. cbn [In] in I. specialize (V v).
    destruct (Nat.eq_dec v (t_end t)), (Nat.eq_dec (t_start t) (t_end t)); intuition (try congruence). }
  assert (A' : forall x : Z, (if pymem v (q ++ [t_end t]) then 1 else 0)%Z = x <-> (In v (q ++ [t_end t]) /\ x = 1%Z \/ ~ In v (q ++ [t_end t]) /\ x = 0%Z)).
  { intros x. destruct (pymem v (q ++ [t_end t])) eqn:M; [apply pymem_true in M|apply pymem_false in M]; intuition congruence. }
  assert (B' : forall x : Z, (if pymem v (t_start t :: q) then 1 else 0)%Z = x <-> (In v (t_start t :: q) /\ x = 1%Z \/ ~ In v (t_start t :: q) /\ x = 0%Z)).
  { intros x. destruct (pymem v (t_start t :: q)) eqn:M; [apply pymem_true in M|apply pymem_false in M]; intuition congruence. }
  rewrite !A', !B', !A, !B. intuition congruence.
Qed.

Lemma encode_two : forall q e, visits t q -> In e (hops (whole t q)) -> In (flip e) (hops (whole t q)) -> False.
Proof.
  intros q [a b] V I1 I2. cbn [flip fst snd] in I2. unfold flip in I2. cbn [fst snd] in I2.
  pose proof (tour_fst_nodup q V) as N1. rewrite tour_fst in N1. pose proof (tour_snd_nodup q V) as N2. rewrite tour_snd in N2.
  pose proof (visits_length t q V) as Lq.
  apply hops_pos in I1, I2. destruct I1 as (i & A1 & B1), I2 as (j & B2 & A2).
  assert (Li : i < length (t_start t :: q)).
  { assert (X : S i < length (whole t q)) by (apply nth_error_Some; congruence). unfold whole in X. cbn [length] in *. rewrite app_length in X. cbn in X. lia. }
  assert (Lj : j < length (t_start t :: q)).
  { assert (X : S j < length (whole t q)) by (apply nth_error_Some; congruence). unfold whole in X. cbn [length] in *. rewrite app_length in X. cbn in X. lia. }
  assert (U1 : forall x y, x < length (t_start t :: q) -> y < length (t_start t :: q) -> nth_error (whole t q) x = nth_error (whole t q) y -> x = y).
  { intros x y Lx Ly E. unfold whole in E. change (t_start t :: q ++ [t_end t]) with ((t_start t :: q) ++ [t_end t]) in E.
    rewrite !nth_error_app1 in E by assumption. apply (proj1 (NoDup_nth_error (t_start t :: q)) N1); auto. }
  assert (U2 : forall x y, x < length (t_start t :: q) -> y < length (t_start t :: q) -> nth_error (whole t q) (S x) = nth_error (whole t q) (S y) -> x = y).
  { intros x y Lx Ly E. unfold whole in E. cbn [nth_error] in E. apply (proj1 (NoDup_nth_error (q ++ [t_end t])) N2); auto.
    rewrite app_length. cbn [length] in *. lia. }
  assert (Close : t_start t = t_end t -> length q <> 1 /\ length q <> 0) by (intros D; destruct Hp as [H1 H2]; rewrite Lq; split; auto).
  assert (Last : forall x, nth_error (whole t q) (S (length q)) = Some x -> x = t_end t).
  { intros x E. unfold whole in E. cbn [nth_error] in E. rewrite nth_error_app2 in E by lia. rewrite Nat.sub_diag in E. cbn in E. congruence. }
  assert (First : nth_error (whole t q) 0 = Some (t_start t)) by reflexivity.
  assert (Nq : length q <> 0) by (rewrite Lq; apply Hp).
  cbn [length] in *.
  destruct (Nat.eq_dec j (S i)) as [->|Dj].
  - destruct i as [|i].
    + destruct (Nat.eq_dec (S (S 0)) (S (length q))) as [E|E].
      * rewrite E in A2. apply Last in A2. rewrite First in A1. injection A1 as A1. destruct (Close ltac:(congruence)). lia.
      * assert (0 = 2) by (apply U1; [lia|lia|congruence]). lia.
    + assert (i = S (S i)) by (apply U2; [lia|lia|congruence]). lia.
  - destruct j as [|j]; [|exfalso; apply Dj; f_equal; apply U2; [lia|lia|congruence]].
    destruct i as [|i].
    + destruct (Nat.eq_dec 1 (S (length q))) as [E|E]; [lia|]. assert (0 = 1) by (apply U1; [lia|lia|congruence]). lia.
    + destruct (Nat.eq_dec i 0) as [->|Di].
      * destruct (Nat.eq_dec 2 (S (length q))) as [E|E].
        -- rewrite E in B1. apply Last in B1. rewrite First in B2. injection B2 as B2. destruct (Close ltac:(congruence)). lia.
        -- assert (0 = 2) by (apply U1; [lia|lia|congruence]). lia.
      * apply Di. apply U2; [lia|lia|congruence].
Qed.

Definition price (e : edge) : Z := between len p0 t (fst e) (snd e).
Lemma weight_price : forall e, In e es -> weight g e = price e.
Proof.
  intros [a b] I. apply (es_In order Hord) in I. destruct (proj1 (dget_keys _ _ g (a, b)) I) as [w D]. unfold weight. rewrite D.
  apply dget_In in D. destruct Hg as [_ G]. now apply G.
Qed.
Lemma length_price : forall p, tour_length len p0 t p = sumZ (map price (hops p)).
Proof. intros p. unfold tour_length, legs_of. now rewrite legs_hops. Qed.

(** A set of nodes that leaves some out and keeps both ends on the same side. *)
Definition side_set (c : list nat) : Prop :=
  (exists v, v < n /\ In v c) /\ (exists v, v < n /\ ~ In v c) /\ (In (t_start t) c <-> In (t_end t) c).
Lemma encode_cut : forall q c, visits t q -> within t g q -> side_set c -> forall k, In k (cut es c) -> holds (encode q) k.
Proof.
  intros q c V W ((v1 & L1 & I1) & (v2 & L2 & I2) & Se) k K.
  assert (X : forall b, exists x y, In (x, y) (hops (whole t q)) /\ pymem x c = b /\ pymem y c = negb b).
  { assert (Y : forall (f : nat -> bool) v, f (t_start t) = f (t_end t) -> v < n -> f v <> f (t_start t) ->
      (exists x y, In (x, y) (hops (whole t q)) /\ f x = true /\ f y = false) /\
      (exists x y, In (x, y) (hops (whole t q)) /\ f x = false /\ f y = true)).
    { intros f v Es L D. assert (Iv : In v (whole t q)) by now apply tour_In.
      assert (Iv' : In v (q ++ [t_end t])).
      { destruct Iv as [<-|Iv]; [congruence|exact Iv]. }
      assert (Sp : exists p1 p2, whole t q = p1 ++ v :: p2 /\ In (t_end t) p2).
      { apply in_split in Iv'. destruct Iv' as (l1 & l2 & E). exists (t_start t :: l1), l2. split; [unfold whole; now rewrite E|].
        destruct l2 as [|z l2]; [apply app_inj_tail in E; destruct E as [_ E]; congruence|].
        destruct (exists_last (l := z :: l2)) as (l3 & w & E3); [discriminate|]. rewrite E3 in E.
        replace (l1 ++ v :: l3 ++ [w]) with ((l1 ++ v :: l3) ++ [w]) in E by (rewrite <- app_assoc; reflexivity).
        apply app_inj_tail in E. destruct E as [_ ->]. rewrite E3. apply in_or_app. right. now left. }
      destruct Sp as (p1 & p2 & Ep & Ie).
      assert (Sub : forall x y, In (x, y) (hops (v :: p2)) -> In (x, y) (hops (whole t q))).
      { intros x y J. rewrite Ep, hops_app. apply in_or_app. now right. }
      destruct (f (t_start t)) eqn:Fs.
      - assert (Fv : f v = false) by (destruct (f v); congruence).
        split; [eapply (cross f _ _ v Fs Iv' Fv)|].
        destruct (cross (fun z => negb (f z)) p2 v (t_end t)) as (x & y & J & Jx & Jy); [now rewrite Fv|exact Ie|now rewrite <- Es|].
        exists x, y. split; [now apply Sub|]. destruct (f x), (f y); auto.
      - assert (Fv : f v = true) by (destruct (f v); congruence).
        split.
        + destruct (cross f p2 v (t_end t) Fv Ie) as (x & y & J & Jx & Jy); [now rewrite <- Es|]. exists x, y. split; [now apply Sub|auto].
        + destruct (cross (fun z => negb (f z)) (q ++ [t_end t]) (t_start t) v) as (x & y & J & Jx & Jy);
            [now rewrite Fs|exact Iv'|now rewrite Fv|]. exists x, y. split; [exact J|]. destruct (f x), (f y); auto. }
    assert (Z : exists v, v < n /\ pymem v c <> pymem (t_start t) c).
    { destruct (pymem (t_start t) c) eqn:M; [exists v2|exists v1]; split; auto.
      - rewrite (proj2 (pymem_false v2 c) I2). discriminate.
      - rewrite (proj2 (pymem_true v1 c) I1). discriminate. }
    destruct Z as (v & Lv & Dv). destruct (Y (fun z => pymem z c) v) as [Y1 Y2]; auto.
    { destruct (pymem (t_start t) c) eqn:M.
      - apply pymem_true in M. symmetry. apply pymem_true. tauto.
      - apply pymem_false in M. symmetry. apply pymem_false. tauto. }
    intros [|]; [exact Y1|exact Y2]. }
  assert (Ge : forall f h, In h (hops (whole t q)) -> f h = true -> (1 <= eval (encode q) (total (filter f es)))%Z).
  { intros f h I F. rewrite eval_total. apply (sum_has_one _ (encode q) _ h).
    - apply filter_In. split; [apply (es_In order Hord); now apply W|exact F].
    - now apply encode_one.
    - intros; apply encode_range. }
  destruct K as [<-|[<-|[]]]; unfold holds; cbn [c_sense c_left c_right]; rewrite eval_const; apply Z.le_ge.
  - destruct (X false) as (x & y & I & Mx & My). apply (Ge _ (x, y) I). cbn [fst snd]. now rewrite Mx, My.
  - destruct (X true) as (x & y & I & Mx & My). apply (Ge _ (x, y) I). cbn [fst snd]. now rewrite Mx, My.
Qed.

(** The program has the tour among its solutions, with its length. *)
Lemma encode_posed : forall m q css, master order (t_start t) (t_end t) g = Ok m -> visits t q -> within t g q -> Forall side_set css ->
  admissible (posed order g m css) (encode q) /\ eval (encode q) (p_obj m) = tour_length len p0 t (whole t q).
Proof.
  intros m q css Em V W S. pose proof Ht as (_ & Hs & He). destruct Hg as [G _].
  destruct (master_says order Hord n (t_start t) (t_end t) Hs He g G) as (m' & Em' & Mx & Vs & Ob & Cs). assert (m' = m) by congruence. subst m'.
  split.
  - constructor.
    + intros v I. cbn [posed with_cuts p_vars] in I. rewrite Vs in I. apply in_map_iff in I. destruct I as (e & <- & _).
      split; cbn; apply encode_range.
    + intros c I. cbn [posed with_cuts p_constrs] in I. apply in_app_or in I. destruct I as [I|I].
      * revert c I. apply Cs. split; [|now apply encode_flows]. intros e _ _. pose proof (encode_range q e). pose proof (encode_range q (flip e)).
        destruct (Z.eq_dec (encode q e) 1) as [E1|]; [|lia]. destruct (Z.eq_dec (encode q (flip e)) 1) as [E2|]; [|lia].
        exfalso. apply encode_one in E1, E2. exact (encode_two q e V E1 E2).
      * apply in_flat_map in I. destruct I as (s & Is & I). apply (encode_cut q s V W); [|exact I]. rewrite Forall_forall in S. now apply S.
  - rewrite Ob. rewrite (chosen_sum (weight g) (encode q) _ (hops (whole t q))).
    + rewrite length_price. apply sumZ_map_ext. intros h I. apply weight_price. apply (es_In order Hord). now apply W.
    + now apply (es_NoDup order Hord n).
    + now apply tour_nodup.
    + intros h I. apply (es_In order Hord). now apply W.
    + intros e _. split; [apply encode_one|apply encode_zero].
Qed.

(** * A solution and its components *)
Variable m : milp edge.
Hypothesis Hm : master order (t_start t) (t_end t) g = Ok m.

Lemma solution_cover : forall css a, admissible (posed order g m css) a -> cover n (t_start t) (t_end t) (used es a) /\
  (forall e, In e es -> (0 <= a e <= 1)%Z) /\ (forall c k, In c css -> In k (cut es c) -> holds a k).
Proof.
  intros css a [B C]. pose proof Ht as (_ & Hs & He). destruct Hg as [G _].
  destruct (master_says order Hord n (t_start t) (t_end t) Hs He g G) as (m' & Em' & Mx & Vs & Ob & Cs). assert (m' = m) by congruence. subst m'.
  assert (R : forall e, In e es -> (0 <= a e <= 1)%Z).
  { intros e I. assert (J : In (binary_var e) (p_vars (posed order g m css))) by (cbn [posed with_cuts p_vars]; rewrite Vs; now apply in_map).
    specialize (B _ J). unfold in_bounds in B. cbn in B. exact B. }
  split; [|split; [exact R|]].
  - apply (used_cover order Hord n (t_start t) (t_end t) Hs He g G); auto.
    apply (proj1 (Cs a)). intros c I. apply C. cbn [posed with_cuts p_constrs]. apply in_or_app. now left.
  - intros c k Ic Ik. apply C. cbn [posed with_cuts p_constrs]. apply in_or_app. right. apply in_flat_map. eauto.
Qed.

Lemma used_one : forall a, (forall e, In e es -> (0 <= a e <= 1)%Z) -> forall e, In e (used es a) <-> In e es /\ a e = 1%Z.
Proof. intros a R e. pose proof Ht as (_ & Hs & He). exact (used_In order n _ _ Hs He g a R e). Qed.
Lemma used_es : forall a e, In e (used es a) -> In e es.
Proof. intros a e I. unfold used in I. apply filter_In in I. apply I. Qed.

(** A single component: its cycle is the whole tour, and the value of the solution is its length. *)
Lemma single_cycle : forall a q, cover n (t_start t) (t_end t) (used es a) -> (forall e, In e es -> (0 <= a e <= 1)%Z) ->
  visits t q -> (forall h, In h (hops (whole t q)) -> In h (used es a)) ->
  eval a (p_obj m) = tour_length len p0 t (whole t q).
Proof.
  intros a q Cv R V Inc. pose proof Ht as (_ & Hs & He). destruct Hg as [G _].
  destruct (master_says order Hord n (t_start t) (t_end t) Hs He g G) as (m' & Em' & Mx & Vs & Ob & Cs). assert (m' = m) by congruence. subst m'.
  rewrite Ob. fold es. rewrite (chosen_sum (weight g) a es (hops (whole t q))).
  - rewrite length_price. apply sumZ_map_ext. intros h I. apply weight_price. eapply used_es. apply Inc, I.
  - now apply (es_NoDup order Hord n).
  - now apply tour_nodup.
  - intros h I. eapply used_es. apply Inc, I.
  - intros [x y] I. split.
    + intros J. apply Inc in J. apply (used_one a R) in J. apply J.
    + intros J. destruct (Z.eq_dec (a (x, y)) 1) as [E|E]; [|specialize (R _ I); lia]. exfalso. apply J.
      assert (U : In (x, y) (used es a)) by (apply (used_one a R); auto).
      assert (Xf : In x (map fst (hops (whole t q)))).
      { rewrite tour_fst. destruct (cv_range _ _ _ _ Cv _ _ U) as [Lx _]. pose proof (proj2 (tour_In q x V) Lx) as K. unfold whole in K.
        destruct K as [K|K]; [now left|]. apply in_app_or in K. destruct K as [K|[K|[]]]; [now right|].
        destruct (Nat.eq_dec (t_start t) (t_end t)) as [D|D]; [left; congruence|]. exfalso. subst x. eapply (cv_out0 _ _ _ _ Cv D). exact U. }
      apply in_map_iff in Xf. destruct Xf as ([x' y'] & E' & K). cbn in E'. subst x'.
      rewrite (cv_out1 _ _ _ _ Cv x y y'); auto.
Qed.

(** The components of a solution with several of them are cut off from it, and not from tours. *)
Lemma comp_side_set : forall a cs c, cover n (t_start t) (t_end t) (used es a) -> components n (used es a) cs ->
  In c cs -> 1 < length cs -> side_set c.
Proof.
  intros a cs c Cv Cp Ic L. split; [|split].
  - pose proof (cp_nonempty _ _ _ Cp c Ic) as Ne. destruct c as [|v c]; [congruence|]. exists v. split; [|now left].
    eapply comp_range; eauto. now left.
  - assert (X : exists d, In d cs /\ d <> c).
    { destruct cs as [|x [|y cs]]; cbn [length] in L; try lia.
      assert (Dxy : x <> y).
      { intros ->. pose proof (cp_nonempty _ _ _ Cp y (or_introl eq_refl)). destruct y as [|v y]; [congruence|].
        assert (0 = 1) by (eapply (comp_pos n (used es a) _ Cp 0 1); try reflexivity; now left). lia. }
      destruct (list_eq_dec Nat.eq_dec x c) as [->|D]; [exists y; split; [right; now left|congruence]|exists x; split; [now left|exact D]]. }
    destruct X as (d & Id & D). pose proof (cp_nonempty _ _ _ Cp d Id) as Ne. destruct d as [|v d]; [congruence|]. exists v. split.
    + eapply comp_range; eauto. now left.
    + intros J. apply D. eapply (comp_same n (used es a) cs Cp); eauto. now left.
  - destruct (Nat.eq_dec (t_start t) (t_end t)) as [->|D]; [tauto|]. now apply (ends_together n _ _ (used es a) cs Cv Cp).
Qed.
Lemma cut_broken : forall a cs c, cover n (t_start t) (t_end t) (used es a) -> (forall e, In e es -> (0 <= a e <= 1)%Z) ->
  components n (used es a) cs -> In c cs -> forall k, In k (cut es c) -> ~ holds a k.
Proof.
  intros a cs c Cv R Cp Ic k K H.
  assert (Z : forall f, (forall x y, In (x, y) es -> f (x, y) = true -> pymem x c <> pymem y c) -> eval a (total (filter f es)) = 0%Z).
  { intros f F. rewrite eval_total. apply sumZ_map_zero. intros [x y] I. apply filter_In in I. destruct I as [I Fi].
    destruct (Z.eq_dec (a (x, y)) 1) as [E|E]; [|specialize (R _ I); lia]. exfalso.
    assert (U : In (x, y) (used es a)) by (apply (used_one a R); auto).
    apply (F x y I Fi). pose proof (comp_closed n _ _ (used es a) cs Cv Cp c x y Ic U) as Cl.
    destruct (pymem x c) eqn:M.
    - apply pymem_true in M. symmetry. apply pymem_true. tauto.
    - apply pymem_false in M. symmetry. apply pymem_false. tauto. }
  destruct K as [<-|[<-|[]]]; unfold holds in H; cbn [c_sense c_left c_right] in H; rewrite eval_const in H; rewrite Z in H; try lia;
    intros x y _ F; cbn [fst snd] in F; apply andb_true_iff in F; destruct F as [F1 F2]; apply negb_true_iff in F2; congruence.
Qed.

(** Constraints only depend on the edges used. *)
Lemma cut_used : forall a b c k, (forall e, In e es -> (0 <= a e <= 1)%Z) -> (forall e, In e es -> (0 <= b e <= 1)%Z) ->
  used es a = used es b -> In k (cut es c) -> holds a k -> holds b k.
Proof.
  intros a b c k Ra Rb E K. assert (A : forall e, In e es -> a e = b e).
  { intros e I. specialize (Ra e I). specialize (Rb e I).
    assert (In e (used es a) <-> In e (used es b)) by (rewrite E; tauto). unfold used in H. rewrite !filter_In, !Z.leb_le in H.
    destruct (Z.eq_dec (a e) 1); destruct (Z.eq_dec (b e) 1); try lia; [assert (1 <= b e)%Z by (apply H; split; auto; lia)|assert (1 <= a e)%Z by (apply H; split; auto; lia)]; lia. }
  assert (F : forall f, eval a (total (filter f es)) = eval b (total (filter f es))).
  { intros f. rewrite !eval_total. apply sumZ_map_ext. intros e I. apply filter_In in I. now apply A. }
  destruct K as [<-|[<-|[]]]; unfold holds; cbn [c_sense c_left c_right]; rewrite F; auto.
Qed.

(** * The loop *)
Hypothesis sym : forall p q, len p q = len q p.
Variable wcc : list edge -> list (list nat).
Hypothesis Hw : wcc_ok n wcc.
Variable engine : milp edge -> edge -> Z.
Hypothesis Heng : engine_sound order g m engine.
Variable q0 : list nat.
Hypothesis Hq0 : visits t q0.
Hypothesis Wq0 : within t g q0.
Let L (p : list nat) : Z := tour_length len p0 t p.

Lemma components_perm : forall E cs cs', Permutation cs cs' -> components n E cs -> components n E cs'.
Proof.
  intros E cs cs' Pm [C1 C2 C3]. constructor.
  - rewrite <- C1. apply Permutation_sym. clear - Pm. induction Pm; cbn [concat].
    + constructor.
    + now apply Permutation_app_head.
    + rewrite !app_assoc. apply Permutation_app_tail, Permutation_app_comm.
    + now rewrite IHPm1.
  - intros c I. apply C2. apply Permutation_in with cs'; [now apply Permutation_sym|exact I].
  - intros c a b I. apply C3. apply Permutation_in with cs'; [now apply Permutation_sym|exact I].
Qed.

Lemma map_cycles : forall E cs0 cs, cover n (t_start t) (t_end t) E -> components n E cs0 -> incl cs cs0 ->
  exists cycles, mapM (fun c => build_the_cycles order E c (t_start t) (t_end t)) cs = Ok cycles.
Proof.
  intros E cs0 cs Cv Cp. pose proof Ht as (_ & Hs & He). induction cs as [|c cs IH]; intros Inc; [eexists; reflexivity|].
  destruct (cycles_ok order Hord n _ _ E cs0 Hs He Cv Cp c (Inc c (or_introl eq_refl))) as (path & ixs & Eb & _).
  destruct IH as [cy Ec]; [intros x I; apply Inc; now right|]. cbn [mapM]. rewrite Eb. cbn [bind]. rewrite Ec. eexists; reflexivity.
Qed.

Lemma pass_ok : forall css s, st_cuts s = flat_map (cut es) css -> Forall side_set css -> incl es (dkeys (st_graph s)) ->
  let a := engine (posed order g m css) in
  (~ full t es /\ pass order len wcc engine t es m s = Err TypeError) \/
  exists g' q comps, pass order len wcc engine t es m s =
    Ok (mkState (flat_map (cut es) (css ++ comps)) g' (st_iteration s) (st_components s ++ [length comps])
          (st_paths s ++ [whole t q]) (st_lengths s ++ [L (whole t q)])
          (if num_lt (Fin (L (whole t q))) (st_best s) then Fin (L (whole t q)) else st_best s)
          (if num_lt (Fin (L (whole t q))) (st_best s) then st_iteration s else st_best_index s), negb (1 <? length comps)) /\
    visits t q /\ incl es (dkeys g') /\ components n (used es a) comps /\ comps <> [] /\
    cover n (t_start t) (t_end t) (used es a) /\ (forall e, In e es -> (0 <= a e <= 1)%Z) /\
    (forall c k, In c css -> In k (cut es c) -> holds a k) /\
    (length comps = 1 -> eval a (p_obj m) = L (whole t q)).
Proof.
  intros css s Ec Sd Gi a.
  assert (Ad : admissible (posed order g m css) a).
  { apply Heng. exists (encode q0). apply (encode_posed m q0 css Hm Hq0 Wq0 Sd). }
  destruct (solution_cover css a Ad) as (Cv & R & Hcut). pose proof Ht as (_ & Hs & He).
  unfold pass. rewrite Ec. change (with_cuts m (flat_map (cut es) css)) with (posed order g m css). fold a.
  set (comps := sorted_components wcc (used es a)).
  assert (Cp : components n (used es a) comps).
  { apply components_perm with (wcc (used es a)); [apply ssort_perm|]. apply Hw. intros x y I. apply (cv_range _ _ _ _ Cv _ _ I). }
  destruct (map_cycles (used es a) comps comps Cv Cp (fun x I => I)) as [cycles Ey]. rewrite Ey. cbn [bind].
  assert (Nth : forall i c, nth_error comps i = Some c -> exists y, nth_error cycles i = Some y /\ build_the_cycles order (used es a) c (t_start t) (t_end t) = Ok y).
  { intros i c Hi. pose proof (mapM_length _ _ Ey) as Ly. destruct (nth_error cycles i) as [y|] eqn:Hy.
    - destruct (mapM_nth _ _ _ Ey Hy) as (c' & Hc' & Eb). exists y. split; auto. congruence.
    - apply nth_error_None in Hy. assert (i < length comps) by (apply nth_error_Some; congruence). lia. }
  assert (Cyc : forall i c, nth_error comps i = Some c -> exists path ixs, nth_error (map fst cycles) i = Some path /\ nth_error (map snd cycles) i = Some ixs /\
     (forall h, In h (hops path) -> In h (used es a)) /\ (forall v, In v path <-> In v c) /\
     (forall v, In v c -> exists k, dget ixs v = Some k /\ nth_error path k = Some v) /\
     (In (t_start t) c -> exists q, path = t_start t :: q ++ [t_end t] /\ NoDup (t_start t :: q) /\ ~ In (t_end t) q) /\
     (~ In (t_start t) c -> NoDup path)).
  { intros i c Hi. destruct (Nth i c Hi) as ([path ixs] & Hy & Eb).
    destruct (cycles_ok order Hord n _ _ (used es a) comps Hs He Cv Cp c (nth_error_In _ _ Hi)) as (path' & ixs' & Eb' & H1 & H2 & H3 & H4 & H5).
    assert (Ex : (path', ixs') = (path, ixs)) by congruence. injection Ex as -> ->.
    exists path, ixs. rewrite !nth_error_map, Hy. cbn [option_map fst snd]. split; [reflexivity|]. split; [reflexivity|]. split; [exact H1|]. split; [exact H2|]. split; [exact H3|]. split; [|exact H5].
    intros I. destruct (H4 I) as (q & ? & ? & ? & _). eauto. }
  assert (Lc : length cycles = length comps) by exact (mapM_length _ _ Ey).
  assert (Inv : forall i p, nth_error (map fst cycles) i = Some p -> exists c, nth_error comps i = Some c /\ forall v, In v p <-> In v c).
  { intros i p Hp'. destruct (nth_error comps i) as [c|] eqn:Hc.
    - destruct (Cyc i c Hc) as (p' & ixs & Hq & _ & _ & M & _). exists c. split; auto. replace p with p' by congruence. exact M.
    - apply nth_error_None in Hc. assert (i < length (map fst cycles)) by (apply nth_error_Some; congruence). rewrite map_length in H. lia. }
  assert (Hrb := rebuild_ok order Hord len sym p0 t Ht (proj1 Hp) es).
  destruct Hrb with (comps := comps) (paths := map fst cycles) (indexes := map snd cycles)
     (ntc := number_nodes (map fst cycles)) (g := st_graph s) as [[Nf Er]|(g' & q & Er & V & Gi' & One)]; auto.
  - intros x y I. destruct Hg as [G _]. exact (es_range order Hord n g G (x, y) I).
  - exact (comp_pos n (used es a) comps Cp).
  - intros v Lv. destruct (comp_of n (used es a) comps Cp v Lv) as (c & Ic & Iv). apply In_nth_error in Ic. destruct Ic as [i Hi]. eauto.
  - exact (comp_range n (used es a) comps Cp).
  - exact (cp_nonempty _ _ _ Cp).
  - intros c Ic. destruct (Nat.eq_dec (t_start t) (t_end t)) as [->|D]; [tauto|]. exact (ends_together n _ _ (used es a) comps Cv Cp c Ic D).
  - intros v i. rewrite number_nodes_get.
    + split.
      * intros (p & Hp' & I). destruct (Inv i p Hp') as (c & Hc & M). exists c. split; auto. now apply M.
      * intros (c & Hc & I). destruct (Cyc i c Hc) as (p & ixs & Hp' & _ & _ & M & _). exists p. split; auto. now apply M.
    + intros i' j p p' v' H1 H2 I1 I2. destruct (Inv _ _ H1) as (c & Hc & M), (Inv _ _ H2) as (d & Hd & M').
      apply (comp_pos n (used es a) comps Cp i' j c d v'); auto; [now apply M|now apply M'].
  - intros i c Hi. destruct (Cyc i c Hi) as (p & ixs & H1 & H2 & H3 & H4). exists p, ixs. split; auto. split; auto. split; auto.
    intros h I. eapply used_es. apply H3, I.
  - left. split; auto. rewrite Er. reflexivity.
  - right. exists g', q, comps. rewrite Er. cbn [bind]. fold (whole t q). unfold L. rewrite flat_map_app.
    split; [reflexivity|]. split; [exact V|]. split; [exact Gi'|]. split; [exact Cp|]. split.
    { intros E0. destruct (comp_of n (used es a) comps Cp (t_start t) Hs) as (c & Ic & _). rewrite E0 in Ic. destruct Ic. }
    split; [exact Cv|]. split; [exact R|]. split; [exact Hcut|].
    intros E1. destruct (One E1) as (i & Hi). destruct (Inv _ _ Hi) as (c & Hc & _). destruct (Cyc i c Hc) as (p & ixs & Hp' & _ & Hh & _).
    apply single_cycle; auto. intros h I. apply Hh. replace p with (whole t q); [exact I|]. unfold whole. congruence.
Qed.

Definition best_spec (s : state) : Prop :=
  exists p, nth_error (st_paths s) (st_best_index s) = Some p /\ st_best s = Fin (L p) /\ forall p', In p' (st_paths s) -> (L p <= L p')%Z.
Record inv (css : list (list nat)) (hist : list (list edge)) (s : state) : Prop := {
  iv_cuts : st_cuts s = flat_map (cut es) css;
  iv_sides : Forall side_set css;
  iv_graph : incl es (dkeys (st_graph s));
  iv_len : length (st_paths s) = st_iteration s;
  iv_paths : forall p, In p (st_paths s) -> exists q, p = whole t q /\ visits t q;
  iv_best : (st_paths s = [] /\ st_best s = Inf) \/ best_spec s;
  iv_nodup : NoDup hist;
  iv_hlen : length hist = st_iteration s;
  iv_hist : forall h, In h hist -> In h (subs es) /\ exists c, In c css /\ forall b, (forall e, In e es -> (0 <= b e <= 1)%Z) ->
    used es b = h -> exists k, In k (cut es c) /\ ~ holds b k
}.
Record final (nb : nat) (s : state) : Prop := {
  fi_paths : forall p, In p (st_paths s) -> exists q, p = whole t q /\ visits t q;
  fi_best : best_spec s;
  fi_last : exists ks k, st_components s = ks ++ [k] /\
    (k = 1 -> engine_exact order g m engine -> exists p, In p (st_paths s) /\ forall q, visits t q -> within t g q -> (L p <= L (whole t q))%Z) /\
    (2 ^ length es <= nb -> k = 1)
}.

Lemma cut_has : forall c, exists k, In k (cut es c).
Proof. intros c. eexists. left. reflexivity. Qed.

Lemma passes_ok : forall fuel nb css hist s, inv css hist s -> nb + 1 <= fuel + st_iteration s -> (st_iteration s < nb \/ st_iteration s = 0) ->
  (~ full t es /\ passes order len wcc engine t fuel es m nb s = Err TypeError) \/
  exists s', passes order len wcc engine t fuel es m nb s = Ok s' /\ final nb s'.
Proof.
  induction fuel as [|fuel IH]; intros nb css hist s I F It; [lia|]. cbn [passes].
  destruct (pass_ok css s (iv_cuts _ _ _ I) (iv_sides _ _ _ I) (iv_graph _ _ _ I)) as [[Nf E]|X].
  { left. split; auto. rewrite E. reflexivity. }
  set (a := engine (posed order g m css)) in X.
  destruct X as (g' & q & comps & E & V & Gi & Cp & Ne & Cv & R & Hcut & One).
  rewrite E. cbn [bind fst snd].
  match goal with |- context [if negb _ then Ok ?x else _] => set (s1 := x) end.
  assert (Paths : forall p, In p (st_paths s1) -> exists q, p = whole t q /\ visits t q).
  { intros p J. cbn [s1 st_paths] in J. apply in_app_or in J. destruct J as [J|[<-|[]]]; [now apply (iv_paths _ _ _ I)|eauto]. }
  assert (Best : best_spec s1).
  { unfold best_spec. cbn [s1 st_paths st_best_index st_best].
    destruct (num_lt (Fin (L (whole t q))) (st_best s)) eqn:Nl.
    - exists (whole t q). split; [rewrite <- (iv_len _ _ _ I), nth_error_app2 by lia; now rewrite Nat.sub_diag|]. split; [reflexivity|].
      intros p' J. apply in_app_or in J. destruct J as [J|[<-|[]]]; [|lia].
      destruct (iv_best _ _ _ I) as [[E0 _]|(p & _ & Eb & Mn)]; [rewrite E0 in J; destruct J|]. rewrite Eb in Nl. unfold num_lt in Nl. apply Z.ltb_lt in Nl.
      specialize (Mn p' J). lia.
    - destruct (iv_best _ _ _ I) as [[E0 Eb]|(p & Hn & Eb & Mn)]; [rewrite Eb in Nl; discriminate|].
      exists p. split; [rewrite nth_error_app1; [exact Hn|]; apply nth_error_Some; congruence|]. split; [exact Eb|].
      rewrite Eb in Nl. unfold num_lt in Nl. apply Z.ltb_ge in Nl. intros p' J. apply in_app_or in J. destruct J as [J|[<-|[]]]; [now apply Mn|lia]. }
  assert (Opt : length comps = 1 -> engine_exact order g m engine ->
     exists p, In p (st_paths s1) /\ forall q, visits t q -> within t g q -> (L p <= L (whole t q))%Z).
  { intros E1 Ex. exists (whole t q). split; [apply in_or_app; right; now left|]. intros q' V' W'.
    rewrite <- (One E1). destruct (encode_posed m q' css Hm V' W' (iv_sides _ _ _ I)) as [Ad Ob]. unfold L. rewrite <- Ob.
    destruct (Ex css) as [_ Op]; [eauto|]. specialize (Op _ Ad). fold a in Op. unfold better_or_equal in Op. cbn [posed with_cuts p_max p_obj] in Op.
    assert (Mx : p_max m = false).
    { pose proof Ht as (_ & Hs & He). destruct Hg as [G _].
      destruct (master_says order Hord n (t_start t) (t_end t) Hs He g G) as (m' & Em' & Mx & _). congruence. }
    rewrite Mx in Op. exact Op. }
  destruct (Nat.ltb_spec 1 (length comps)) as [Lc|Lc]; cbn [negb].
  2:{ right. exists s1. split; auto. assert (E1 : length comps = 1) by (destruct comps; cbn [length] in *; [congruence|lia]).
    constructor; auto. exists (st_components s), (length comps). split; [reflexivity|]. split; auto. }
  assert (Sides : Forall side_set (css ++ comps)).
  { apply Forall_app. split; [apply I|]. apply Forall_forall. intros c Ic. now apply (comp_side_set a comps). }
  assert (I' : inv (css ++ comps) (used es a :: hist) (next_iteration s1)).
  { constructor; cbn [next_iteration s1 st_cuts st_graph st_paths st_iteration]; auto.
    - rewrite app_length, (iv_len _ _ _ I). cbn. lia.
    - constructor; [|apply I]. intros J. destruct (iv_hist _ _ _ I _ J) as (_ & c & Ic & Br). destruct (Br a R eq_refl) as (k & Ik & Nk).
      apply Nk. now apply (Hcut c).
    - cbn [length]. now rewrite (iv_hlen _ _ _ I).
    - intros h [<-|J].
      + split; [apply subs_filter|]. destruct comps as [|c comps']; [cbn in Lc; lia|]. exists c. split; [apply in_or_app; right; now left|].
        intros b Rb Eb. destruct (cut_has c) as [k Ik]. exists k. split; auto. intros Hb. apply (cut_broken a (c :: comps') c Cv R Cp (or_introl eq_refl) k Ik).
        apply (cut_used b a c k Rb R Eb Ik Hb).
      + destruct (iv_hist _ _ _ I _ J) as (S & c & Ic & Br). split; auto. exists c. split; [apply in_or_app; now left|exact Br]. }
  destruct (Nat.leb_spec nb (st_iteration (next_iteration s1))) as [Le|Lt].
  - right. exists (next_iteration s1). split; auto. constructor; auto.
    exists (st_components s), (length comps). split; [reflexivity|]. split; [exact Opt|]. intros Big. exfalso.
    assert (Fr : ~ In (used es (encode q0)) (used es a :: hist)).
    { intros J. destruct (iv_hist _ _ _ I' _ J) as (_ & c & Ic & Br). destruct (Br (encode q0) (fun e _ => encode_range q0 e) eq_refl) as (k & Ik & Nk).
      apply Nk. rewrite Forall_forall in Sides. apply (encode_cut q0 c Hq0 Wq0 (Sides c Ic) k Ik). }
    assert (N2 : NoDup (used es (encode q0) :: used es a :: hist)) by (constructor; [exact Fr|apply I']).
    assert (In2 : incl (used es (encode q0) :: used es a :: hist) (subs es)).
    { intros h [<-|J]; [apply subs_filter|now apply (iv_hist _ _ _ I')]. }
    pose proof (NoDup_incl_length N2 In2) as K. rewrite subs_length in K. pose proof (iv_hlen _ _ _ I') as H1.
    cbn [length] in K, H1. lia.
  - apply (IH nb (css ++ comps) (used es a :: hist) (next_iteration s1) I').
    + cbn [next_iteration s1 st_iteration]. lia.
    + left. exact Lt.
Qed.

Lemma solve_ok : forall nb,
  (~ full t es /\ solve order len wcc engine t g nb = Err TypeError) \/
  exists r q ks k, solve order len wcc engine t g nb = Ok r /\ valid t (r_solution r) /\ s_perm (r_solution r) = q /\
    r_fit r = L (whole t q) /\ s_length (r_solution r) = Some (Fin (r_fit r)) /\ r_components r = ks ++ [k] /\
    (k = 1 -> engine_exact order g m engine -> forall q', visits t q' -> within t g q' -> (r_fit r <= L (whole t q'))%Z) /\
    (2 ^ length es <= nb -> k = 1).
Proof.
  intros nb. unfold solve. rewrite Hm. cbn [bind].
  assert (I0 : inv [] [] (mkState [] g 0 [] [] [] Inf 0)).
  { constructor; cbn; auto; try (intros ? []); try constructor. intros e I. now apply (es_In order Hord). }
  destruct (passes_ok (S nb) nb [] [] _ I0) as [[Nf E]|(s & E & Fi)]; [cbn; lia|now right|left; split; auto; fold es; now rewrite E|].
  right. fold es. rewrite E. cbn [bind]. destruct (fi_best _ _ Fi) as (p & Hn & _ & Mn). unfold lget. rewrite Hn. cbn [bind].
  destruct (fi_paths _ _ Fi p (nth_error_In _ _ Hn)) as (q & -> & V).
  assert (Mid : middle (whole t q) = q) by (unfold middle, whole; cbn [tl]; apply removelast_last).
  rewrite Mid. assert (Nn : q <> []).
  { intros ->. apply visits_length in V. cbn in V. destruct Hp as [H _]. congruence. }
  destruct (C33_from_nodes len sym p0 t q) as (f & Ef & _); [apply V|].
  cbn [new_solution bind]. rewrite Ef. cbn [bind].
  destruct (evaluate_ok len sym p0 t (mkSol (t_start t) (t_end t) q f None None) Ht V Nn eq_refl eq_refl) as [ls [Ev _]].
  rewrite Ev. cbn [bind fst].
  match goal with |- context [evaluate len t ?s] => destruct (evaluate_ok len sym p0 t s Ht V Nn eq_refl eq_refl) as [ls' [Ev' _]] end.
  rewrite Ev'. cbn [bind fst snd]. destruct (fi_last _ _ Fi) as (ks & k & Ek & O & B).
  eexists _, q, ks, k. split; [reflexivity|]. cbn [r_solution r_fit r_components s_perm s_length].
  split; [split; [exact V|split; reflexivity]|]. split; [reflexivity|]. split; [reflexivity|]. split; [reflexivity|]. split; [exact Ek|].
  split; [|exact B]. intros K Ex q' V' W'. destruct (O K Ex) as (p & Ip & Op).
  specialize (Mn p Ip). specialize (Op q' V' W'). change (tour_length len p0 t _) with (L (whole t q)). lia.
Qed.
End Tour.

(** * Complete graphs have tours *)
Section CompleteTour.
Context {P : Type}.
Variable t : tsp (P:=P).
Hypothesis Ht : fits t.
Hypothesis Hp : proper t.

Lemma tour_apart : forall q a b, visits t q -> In (a, b) (hops (whole t q)) -> a < t_n t /\ b < t_n t /\ a <> b.
Proof.
  intros q a b V I. pose proof (hops_members _ _ _ I) as [Ia Ib]. apply (tour_In t Ht q a V) in Ia. apply (tour_In t Ht q b V) in Ib.
  split; auto. split; auto. intros <-.
  pose proof (tour_snd_nodup t q V) as N. rewrite tour_snd in N. pose proof (visits_length t q V) as Lq.
  apply hops_pos in I. destruct I as (i & A & B). destruct i as [|i].
  - unfold whole in A, B. cbn [nth_error] in A, B. injection A as <-. destruct q as [|x q]; [cbn in Lq; destruct Hp as [H _]; congruence|].
    cbn in B. injection B as ->. destruct V as [_ V]. destruct (proj1 (V (t_start t)) (or_introl eq_refl)) as (_ & D & _). congruence.
  - change (nth_error (q ++ [t_end t]) i = Some a) in A. change (nth_error (q ++ [t_end t]) (S i) = Some a) in B. assert (i = S i); [|lia].
    apply (proj1 (NoDup_nth_error (q ++ [t_end t])) N); [apply nth_error_Some; congruence|congruence].
Qed.
Lemma inner_visits : visits t (ind_in_permutation t).
Proof. split; [apply ind_NoDup|]. intros i. apply ind_In. Qed.
Lemma complete_within : forall g q, complete t g -> visits t q -> within t g q.
Proof. intros g q [C _] V [a b] I. destruct (tour_apart q a b V I) as (La & Lb & D). now apply C. Qed.
End CompleteTour.
