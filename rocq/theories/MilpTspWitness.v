(** Functions that do what MilpTspProps asks of the environment: an exhaustive engine, weakly connected
    components by merging; and the complete graph of MilpTspModel. *)
From Coq Require Import List Bool Arith ZArith Lia Permutation Relations.
From Verif Require Import Py PyList PyMore TspModel TspProofs TspProps MilpModel MilpProofs MilpTspModel MilpTspProofs
  MilpTspCycleProofs MilpTspJoinProofs MilpTspSolveProofs.
Import ListNotations.
Open Scope nat_scope.

(** * An engine that tries everything *)
Definition chi (h : list edge) (e : edge) : Z := if pymem e h then 1%Z else 0%Z.
Definition holdsb (a : edge -> Z) (c : constr edge) : bool :=
  match c_sense c with
  | SLe => (eval a (c_left c) <=? eval a (c_right c))%Z
  | SGe => (eval a (c_right c) <=? eval a (c_left c))%Z
  | SEq => (eval a (c_left c) =? eval a (c_right c))%Z
  end.
Lemma holdsb_ok : forall a c, holdsb a c = true <-> holds a c.
Proof. intros a c. unfold holdsb, holds. destruct (c_sense c); rewrite ?Z.leb_le, ?Z.eqb_eq; lia. Qed.
Fixpoint least {A} (f : A -> Z) (l : list A) : option A :=
  match l with
  | [] => None
  | x :: r => match least f r with Some y => if (f y <? f x)%Z then Some y else Some x | None => Some x end
  end.
Lemma least_ok : forall A (f : A -> Z) l, l <> [] -> exists x, least f l = Some x /\ In x l /\ forall y, In y l -> (f x <= f y)%Z.
Proof.
  induction l as [|x l IH]; intros N; [congruence|]. cbn [least]. destruct l as [|z l].
  - cbn. exists x. split; auto. split; [now left|]. intros y [<-|[]]. lia.
  - destruct IH as (y & E & I & M); [discriminate|]. rewrite E. destruct (Z.ltb_spec (f y) (f x)).
    + exists y. split; auto. split; [now right|]. intros w [<-|J]; [lia|now apply M].
    + exists x. split; auto. split; [now left|]. intros w [<-|J]; [lia|]. specialize (M w J). lia.
Qed.
Definition brute (es : list edge) (p : milp edge) : edge -> Z :=
  match least (fun h => eval (chi h) (p_obj p)) (filter (fun h => forallb (holdsb (chi h)) (p_constrs p)) (subs es)) with
  | Some h => chi h
  | None => fun _ => 0%Z
  end.

Section Brute.
Variable order : list edge -> list edge.
Hypothesis Hord : rearranges order.
Variables (n start end_ : nat).
Hypothesis Hs : start < n.
Hypothesis He : end_ < n.
Variable g : graph.
Hypothesis Hg : graph_ok n g.
Variable m : milp edge.
Hypothesis Hm : master order start end_ g = Ok m.
Let es := edges_of order g.

Lemma agree_ok : forall css a b, (forall e, In e es -> a e = b e) ->
  ((forall c, In c (p_constrs (posed order g m css)) -> holds a c) -> (forall c, In c (p_constrs (posed order g m css)) -> holds b c)) /\
  eval a (p_obj m) = eval b (p_obj m).
Proof.
  intros css a b A. destruct (master_says order Hord n start end_ Hs He g Hg) as (m' & Em' & Mx & Vs & Ob & Cs). assert (m' = m) by congruence. subst m'.
  split.
  - intros H c I. cbn [posed with_cuts p_constrs] in *. apply in_app_or in I. destruct I as [I|I].
    + revert c I. apply Cs. assert (H0 : forall c, In c (p_constrs m) -> holds a c) by (intros c I; apply H, in_or_app; now left).
      apply Cs in H0. destruct H0 as [H1 H2]. split.
      * intros e I J. rewrite <- !A by assumption. now apply H1.
      * assert (In1 : forall v, into order g b v = into order g a v) by (intros v; unfold into; apply sumZ_map_ext; intros e I; apply filter_In in I; symmetry; apply A, I).
        assert (Out1 : forall v, outof order g b v = outof order g a v) by (intros v; unfold outof; apply sumZ_map_ext; intros e I; apply filter_In in I; symmetry; apply A, I).
        intros v Lv. specialize (H2 v Lv). rewrite In1, Out1. exact H2.
    + apply in_flat_map in I. destruct I as (s & Is & I). assert (Hc : holds a c) by (apply H, in_or_app; right; apply in_flat_map; eauto).
      assert (F : forall f, eval a (total (filter f es)) = eval b (total (filter f es))).
      { intros f. rewrite !eval_total. apply sumZ_map_ext. intros e J. apply filter_In in J. now apply A. }
      destruct I as [<-|[<-|[]]]; unfold holds in *; cbn [c_sense c_left c_right] in *; fold es; fold es in Hc; rewrite <- F; exact Hc.
  - rewrite !Ob. apply sumZ_map_ext. intros e I. now rewrite A.
Qed.

Theorem brute_exact : engine_exact order g m (brute es).
Proof.
  intros css (a0 & Ad0). destruct (master_says order Hord n start end_ Hs He g Hg) as (m' & Em' & Mx & Vs & Ob & Cs). assert (m' = m) by congruence. subst m'.
  set (p := posed order g m css) in *.
  assert (R : forall a, admissible p a -> exists h, In h (filter (fun h => forallb (holdsb (chi h)) (p_constrs p)) (subs es)) /\ eval (chi h) (p_obj p) = eval a (p_obj p)).
  { intros a Ad. exists (used es a).
    assert (A : forall e, In e es -> a e = chi (used es a) e).
    { intros e I. assert (B : in_bounds a (binary_var e)) by (apply (ad_bounds _ _ Ad); cbn [p posed with_cuts p_vars]; rewrite Vs; now apply in_map).
      unfold in_bounds in B. cbn in B. unfold chi. destruct (pymem e (used es a)) eqn:M.
      - apply pymem_true in M. unfold used in M. apply filter_In in M. destruct M as [_ M]. apply Z.leb_le in M. lia.
      - apply pymem_false in M. unfold used in M. rewrite filter_In, Z.leb_le in M. destruct (Z.eq_dec (a e) 0); [auto|]. exfalso. apply M. split; [exact I|lia]. }
    destruct (agree_ok css a (chi (used es a)) A) as [H1 H2]. split; [|now symmetry].
    apply filter_In. split; [apply subs_filter|]. apply forallb_forall. intros c I. apply holdsb_ok. apply H1; [apply (ad_constrs _ _ Ad)|exact I]. }
  destruct (least_ok _ (fun h => eval (chi h) (p_obj p)) (filter (fun h => forallb (holdsb (chi h)) (p_constrs p)) (subs es))) as (h & El & Ih & Mh).
  { intros E. destruct (R a0 Ad0) as (h & I & _). rewrite E in I. destruct I. }
  unfold brute. fold es. rewrite El. apply filter_In in Ih. destruct Ih as [_ Fh]. rewrite forallb_forall in Fh. split.
  - constructor.
    + intros v I. cbn [p posed with_cuts p_vars] in I. rewrite Vs in I. apply in_map_iff in I. destruct I as (e & <- & _).
      unfold in_bounds. cbn. unfold chi. destruct (pymem e h); lia.
    + intros c I. apply holdsb_ok. now apply Fh.
  - intros b Ad. destruct (R b Ad) as (h' & I' & E'). unfold better_or_equal. cbn [p posed with_cuts p_max p_obj] in *. rewrite Mx. rewrite <- E'. now apply Mh.
Qed.
End Brute.

(** * Components by merging *)
Definition touches (e : edge) (c : list nat) : bool := pymem (fst e) c || pymem (snd e) c.
Definition merge (cs : list (list nat)) (e : edge) : list (list nat) :=
  concat (filter (touches e) cs) :: filter (fun c => negb (touches e c)) cs.
Definition merged (n : nat) (E : list edge) : list (list nat) := fold_left merge E (map (fun v => [v]) (seq 0 n)).

Lemma linked_incl : forall E E' a b, incl E E' -> linked E a b -> linked E' a b.
Proof. intros E E' a b I H. induction H; [apply rst_step; auto|apply rst_refl|now apply rst_sym|eapply rst_trans; eauto]. Qed.
Lemma linked_snoc : forall E a b x y, linked (E ++ [(a, b)]) x y ->
  linked E x y \/ ((linked E x a \/ linked E x b) /\ (linked E y a \/ linked E y b)).
Proof.
  intros E a b x y H. induction H as [x y I|x|x y H IH|x y z H1 IH1 H2 IH2].
  - apply in_app_or in I. destruct I as [I|[I|[]]]; [left; now apply rst_step|]. injection I as -> ->. right. split; [left|right]; apply rst_refl.
  - left. apply rst_refl.
  - destruct IH as [IH|IH]; [left; now apply rst_sym|right; tauto].
  - destruct IH1 as [IH1|[A B]], IH2 as [IH2|[C D]].
    + left. eapply rst_trans; eauto.
    + right. split; [|exact D]. destruct C; [left|right]; eapply rst_trans; eauto.
    + right. split; [exact A|]. apply rst_sym in IH2. destruct B; [left|right]; eapply rst_trans; eauto.
    + right. split; auto.
Qed.
Lemma filter_split_concat : forall (f : list nat -> bool) cs, Permutation (concat (filter f cs) ++ concat (filter (fun c => negb (f c)) cs)) (concat cs).
Proof.
  intros f. induction cs as [|c cs IH]; [constructor|]. cbn [filter]. destruct (f c); cbn [negb concat].
  - rewrite <- app_assoc. now apply Permutation_app_head.
  - rewrite Permutation_app_comm, <- app_assoc. apply Permutation_app_head. rewrite Permutation_app_comm. exact IH.
Qed.
Lemma touches_true : forall e c, touches e c = true <-> In (fst e) c \/ In (snd e) c.
Proof. intros e c. unfold touches. rewrite orb_true_iff, !pymem_true. tauto. Qed.

Lemma merge_ok : forall n E cs a b, components n E cs -> a < n -> b < n -> components n (E ++ [(a, b)]) (merge cs (a, b)).
Proof.
  intros n E cs a b Cp La Lb. pose proof Cp as [C1 C2 C3].
  assert (T : forall c x, In c cs -> In x c -> (touches (a, b) c = true <-> linked E x a \/ linked E x b)).
  { intros c x Ic Ix. rewrite touches_true. cbn [fst snd]. pose proof (C3 c x a Ic Ix). pose proof (C3 c x b Ic Ix). tauto. }
  assert (M : forall x, In x (concat (filter (touches (a, b)) cs)) <-> x < n /\ (linked E x a \/ linked E x b)).
  { intros x. rewrite in_concat. split.
    - intros (c & Ic & Ix). apply filter_In in Ic. destruct Ic as [Ic Tc]. split; [now apply (comp_range n E cs Cp c)|now apply (T c)].
    - intros (Lx & Hx). destruct (comp_of n E cs Cp x Lx) as (c & Ic & Ix). exists c. split; [|exact Ix]. apply filter_In. split; auto. now apply (T c x). }
  assert (Sub : incl E (E ++ [(a, b)])) by (intros e I; apply in_or_app; now left).
  assert (Ab : linked (E ++ [(a, b)]) a b) by (apply rst_step, in_or_app; right; now left).
  constructor.
  - unfold merge. cbn [concat]. rewrite filter_split_concat. exact C1.
  - intros c [<-|I].
    + intros E0. destruct (M a) as [_ M2]. rewrite E0 in M2. apply M2. split; auto. left. apply rst_refl.
    + apply filter_In in I. now apply C2.
  - intros c x y [<-|I] Ix.
    + rewrite M. rewrite M in Ix. destruct Ix as [Lx Hx]. split.
      * intros [Ly Hy]. split; auto.
        assert (Xa : linked (E ++ [(a, b)]) x a).
        { destruct Hx as [Hx|Hx]; [now apply (linked_incl E)|]. eapply rst_trans; [apply (linked_incl E); eauto|now apply rst_sym]. }
        assert (Ya : linked (E ++ [(a, b)]) y a).
        { destruct Hy as [Hy|Hy]; [now apply (linked_incl E)|]. eapply rst_trans; [apply (linked_incl E); eauto|now apply rst_sym]. }
        eapply rst_trans; [exact Xa|now apply rst_sym].
      * intros [Ly H]. split; auto. apply linked_snoc in H. destruct H as [H|[_ H]]; [|exact H].
        apply rst_sym in H. destruct Hx; [left|right]; eapply rst_trans; eauto.
    + apply filter_In in I. destruct I as [I Nt]. apply negb_true_iff in Nt. rewrite (C3 c x y I Ix). split.
      * intros [Ly H]. split; auto. now apply (linked_incl E).
      * intros [Ly H]. split; auto. apply linked_snoc in H. destruct H as [H|[H _]]; [exact H|]. apply (T c x I Ix) in H. congruence.
Qed.

Theorem merged_ok : forall n, wcc_ok n (merged n).
Proof.
  intros n E R. unfold merged.
  assert (G : forall E2 E1 cs, components n E1 cs -> (forall a b, In (a, b) E2 -> a < n /\ b < n) -> components n (E1 ++ E2) (fold_left merge E2 cs)).
  { induction E2 as [|[a b] E2 IH]; intros E1 cs C R2; cbn [fold_left]; [now rewrite app_nil_r|].
    replace (E1 ++ (a, b) :: E2) with ((E1 ++ [(a, b)]) ++ E2) by (rewrite <- app_assoc; reflexivity).
    apply IH; [|intros; apply R2; now right]. destruct (R2 a b (or_introl eq_refl)). now apply merge_ok. }
  apply (G E [] (map (fun v => [v]) (seq 0 n))); [|exact R]. constructor.
  - induction (seq 0 n) as [|v l IH]; [constructor|]. cbn [map concat app]. now constructor.
  - intros c I. apply in_map_iff in I. destruct I as (v & <- & _). discriminate.
  - intros c x y I Ix. apply in_map_iff in I. destruct I as (v & <- & Iv). destruct Ix as [<-|[]]. apply in_seq in Iv. split.
    + intros [<-|[]]. split; [lia|apply rst_refl].
    + intros [_ H]. left. clear - H. induction H as [x y []|x|x y _ IH|x y z _ IH1 _ IH2]; congruence.
Qed.

(** * The complete graph *)
Section Complete.
Context {P : Type}.
Variable len : P -> P -> Z.
Hypothesis sym : forall p q, len p q = len q p.
Variable p0 : P.
Variable t : tsp (P:=P).
Hypothesis Ht : fits t.
Hypothesis Hp : proper t.
Let n := t_n t.

Record weighted (g : graph) : Prop := {
  we_nodup : NoDup (dkeys g);
  we_range : forall a b, In (a, b) (dkeys g) -> a < n /\ b < n /\ a <> b;
  we_val : forall a b w, dget g (a, b) = Some w -> w = between len p0 t a b
}.
Lemma between_sym : forall a b, between len p0 t a b = between len p0 t b a.
Proof. intros a b. unfold between. apply sym. Qed.
Lemma mat_ok : forall a b, a < n -> b < n -> a <> b -> mat len t a b = Ok (between len p0 t a b).
Proof.
  intros a b La Lb D. unfold mat. destruct Ht as (L & _). fold n in L. destruct (Nat.ltb_spec a b).
  - apply dist_ok; lia.
  - destruct (Nat.ltb_spec b a); [|lia]. rewrite between_sym. apply dist_ok; lia.
Qed.
Lemma dset_weighted : forall g a b, weighted g -> a < n -> b < n -> a <> b -> weighted (dset g (a, b) (between len p0 t a b)) /\
  (forall e, In e (dkeys (dset g (a, b) (between len p0 t a b))) <-> e = (a, b) \/ In e (dkeys g)).
Proof.
  intros g a b W La Lb D.
  assert (K : forall e, In e (dkeys (dset g (a, b) (between len p0 t a b))) <-> e = (a, b) \/ In e (dkeys g)) by (intros e; apply dkeys_dset).
  split; [|exact K]. constructor.
  - apply NoDup_dset, W.
  - intros x y I. apply K in I. destruct I as [I|I]; [injection I as -> ->; auto|now apply (we_range _ W)].
  - intros x y w I. destruct (py_dec (a, b) (x, y)) as [E|E].
    + injection E as -> ->. rewrite dget_dset_same in I. congruence.
    + rewrite dget_dset_other in I by exact E. now apply (we_val _ W).
Qed.

Definition pair_of (i j : nat) (e : edge) : Prop := i <> j /\ (e = (i, j) \/ e = (j, i)).
Lemma add_both_ok : forall g i j, weighted g -> i < n -> j < n -> exists g', add_both len t g i j = Ok g' /\ weighted g' /\
  forall e, In e (dkeys g') <-> pair_of i j e \/ In e (dkeys g).
Proof.
  intros g i j W Li Lj. unfold add_both. destruct (Nat.eqb_spec j i) as [->|D].
  - exists g. split; auto. split; auto. intros e. unfold pair_of. tauto.
  - rewrite !mat_ok by auto. cbn [bind]. destruct (dset_weighted g i j W Li Lj) as [W1 K1]; [auto|].
    destruct (dset_weighted _ j i W1 Lj Li D) as [W2 K2]. eexists. split; [reflexivity|]. split; [exact W2|].
    intros e. rewrite K2, K1. unfold pair_of. split; [|tauto]. intros [->|[->|I]]; auto.
Qed.
Definition row_pairs (sd : nat -> list nat) (i : nat) (e : edge) : Prop := exists j, (In j (tl (sd i)) \/ j = t_end t) /\ pair_of i j e.
Lemma row_ok : forall sd g i, weighted g -> i < n -> (forall j, In j (sd i) -> j < n) -> exists g', complete_row len t sd g i = Ok g' /\ weighted g' /\
  forall e, In e (dkeys g') <-> row_pairs sd i e \/ In e (dkeys g).
Proof.
  intros sd g i W Li R. unfold complete_row.
  destruct (foldM_total (fun g n => add_both len t g i n) (fun done g' => weighted g' /\ forall e, In e (dkeys g') <-> (exists j, In j done /\ pair_of i j e) \/ In e (dkeys g)) (l := tl (sd i)) g) as (g1 & E1 & W1 & K1).
  - split; auto. intros e. split; [tauto|]. intros [(j & [] & _)|I]; exact I.
  - intros l0 x l1 s1 El [Ws Ks]. assert (Lx : x < n).
    { apply R. assert (I : In x (tl (sd i))) by (rewrite El; apply in_or_app; right; now left). destruct (sd i); [destruct I|now right]. }
    destruct (add_both_ok s1 i x Ws Li Lx) as (g' & E & W' & K'). exists g'. split; auto. split; auto. intros e. rewrite K', Ks. split.
    + intros [H|[(j & I & H)|H]]; [left; exists x; split; auto; apply in_or_app; right; now left|left; exists j; split; auto; apply in_or_app; now left|now right].
    + intros [(j & I & H)|H]; [|tauto]. apply in_app_or in I. destruct I as [I|[<-|[]]]; [right; left; eauto|now left].
  - rewrite E1. cbn [bind]. destruct (add_both_ok g1 i (t_end t) W1 Li) as (g' & E & W' & K'); [apply Ht|].
    exists g'. split; auto. split; auto. intros e. rewrite K', K1. unfold row_pairs. split.
    + intros [H|[(j & I & H)|H]]; [left; eauto|left; eauto|now right].
    + intros [(j & [I|Ej] & H)|H]; [right; left; eauto|left; now rewrite <- Ej|tauto].
Qed.
Lemma complete_keys : forall sd, (forall i j, i < n -> In j (sd i) -> j < n) -> exists g, build_graph_complete len t sd = Ok g /\ weighted g /\
  forall e, In e (dkeys g) <-> exists i, i < n /\ row_pairs sd i e.
Proof.
  intros sd R. unfold build_graph_complete. fold n.
  destruct (foldM_total (complete_row len t sd) (fun done g' => weighted g' /\ forall e, In e (dkeys g') <-> exists i, In i done /\ row_pairs sd i e) (l := seq 0 n) []) as (g1 & E1 & W1 & K1).
  - split; [constructor; [constructor|intros a b []|intros a b w H; discriminate]|]. intros e. split; [intros []|intros (i & [] & _)].
  - intros l0 x l1 s1 El [Ws Ks]. assert (Lx : x < n).
    { assert (I : In x (seq 0 n)) by (rewrite El; apply in_or_app; right; now left). apply in_seq in I. lia. }
    destruct (row_ok sd s1 x Ws Lx) as (g' & E & W' & K'); [intros j; now apply R|]. exists g'. split; auto. split; auto. intros e. rewrite K', Ks. split.
    + intros [H|(i & I & H)]; [exists x; split; auto; apply in_or_app; right; now left|exists i; split; auto; apply in_or_app; now left].
    + intros (i & I & H). apply in_app_or in I. destruct I as [I|[<-|[]]]; [right; eauto|now left].
  - exists g1. split; auto. split; auto. intros e. rewrite K1. split; intros (i & I & H); exists i; split; auto; apply in_seq in I || apply in_seq; lia.
Qed.
(** Rows that list the nodes, and of which no two start with each other. *)
Lemma complete_ok : forall sd, (forall i, i < n -> Permutation (sd i) (seq 0 n)) ->
  (forall i j, i < n -> j < n -> i <> j -> hd_error (sd i) = Some j -> hd_error (sd j) = Some i -> False) ->
  exists g, build_graph_complete len t sd = Ok g /\ graph_for len p0 t g /\ complete t g.
Proof.
  intros sd Pm Hd. assert (Mem : forall i j, i < n -> (In j (sd i) <-> j < n)).
  { intros i j Li. split; intros I.
    - apply (Permutation_in _ (Pm i Li)), in_seq in I. lia.
    - apply (Permutation_in _ (Permutation_sym (Pm i Li))), in_seq. lia. }
  destruct (complete_keys sd) as (g & E & W & K); [intros i j Li; now apply Mem|]. exists g. split; auto.
  assert (C : complete t g).
  { split; [|intros a I; apply (we_range _ W) in I; tauto]. intros a b La Lb D. fold n in La, Lb. apply K.
    assert (Ib : In b (sd a)) by now apply Mem. assert (Ia : In a (sd b)) by now apply Mem.
    assert (X : In b (tl (sd a)) \/ In a (tl (sd b))).
    { specialize (Hd a b La Lb D). destruct (sd a) as [|x xs]; [destruct Ib|]. destruct (sd b) as [|y ys]; [destruct Ia|]. cbn in *.
      destruct Ib as [->|Ib]; [|auto]. destruct Ia as [->|Ia]; [|auto]. destruct Hd; reflexivity. }
    destruct X as [X|X].
    - exists a. split; auto. exists b. split; [now left|]. split; auto.
    - exists b. split; auto. exists a. split; [now left|]. split; auto. }
  split; [|exact C]. destruct C as [C1 C2].
  assert (Two : forall v, v < n -> exists w, w < n /\ w <> v).
  { intros v Lv. destruct Hp as [H _]. unfold length_permutation in H. destruct (ind_in_permutation t) as [|u l] eqn:El; [cbn in H; congruence|].
    assert (Iu : In u (ind_in_permutation t)) by (rewrite El; now left). unfold ind_in_permutation in Iu. apply filter_In in Iu. destruct Iu as [Iu In_].
    apply in_seq in Iu. unfold inner in In_. apply andb_true_iff in In_. destruct In_ as [N1 _]. apply negb_true_iff, Nat.eqb_neq in N1.
    destruct (Nat.eq_dec v u) as [->|]; [exists (t_start t); split; [apply Ht|auto]|exists u; split; [unfold n; lia|auto]]. }
  split.
  - split; [apply W|]. split; [|].
    + intros a b I. apply (we_range _ W) in I. fold n. tauto.
    + intros v Lv. destruct (Two v Lv) as (w & Lw & D). split; exists w; apply C1; auto.
  - intros a b w I. apply (we_val _ W). apply In_dget; [apply W|exact I].
Qed.

(** * The pruned graph *)
Lemma add_pruned_ok : forall g i j, weighted g -> i < n -> j < n -> exists g', add_pruned len t g i j = Ok g' /\ weighted g' /\
  forall e, In e (dkeys g') <-> pair_of i j e \/ In e (dkeys g).
Proof.
  intros g i j W Li Lj. unfold add_pruned. destruct (Nat.eqb_spec j i) as [->|D].
  - exists g. split; auto. split; auto. intros e. unfold pair_of. tauto.
  - destruct Ht as (L & _). fold n in L. rewrite !(dist_ok len p0) by lia. cbn [bind]. destruct (dset_weighted g i j W Li Lj) as [W1 K1]; [auto|].
    destruct (dset_weighted _ j i W1 Lj Li D) as [W2 K2]. eexists. split; [reflexivity|]. split; [exact W2|].
    intros e. rewrite K2, K1. unfold pair_of. split; [|tauto]. intros [->|[->|I]]; auto.
Qed.
Definition pruned_neighbours (sd : nat -> list nat) (i j : nat) : Prop :=
  In j (firstn 49 (tl (sd i))) \/ (i <= j < i + 5 /\ j < n) \/ j = t_end t.
Lemma pruned_keys : forall sd, (forall i j, i < n -> In j (sd i) -> j < n) -> exists g, build_graph_pruned len t sd = Ok g /\ weighted g /\
  forall e, In e (dkeys g) <-> exists i j, i < n /\ pruned_neighbours sd i j /\ pair_of i j e.
Proof.
  intros sd R. unfold build_graph_pruned. fold n.
  assert (Sp : forall i j, In j (firstn 49 (tl (sd i)) ++ seq i (Nat.min (i + 5) n - i) ++ [t_end t]) <-> pruned_neighbours sd i j).
  { intros i j. rewrite !in_app_iff, in_seq. unfold pruned_neighbours. cbn [In]. split.
    - intros [H|[H|[H|[]]]]; [tauto|right; left; lia|right; right; auto].
    - intros [H|[H|H]]; [tauto|right; left; lia|right; right; left; auto]. }
  assert (Row : forall g i, weighted g -> i < n -> exists g', pruned_row len t sd g i = Ok g' /\ weighted g' /\
    forall e, In e (dkeys g') <-> (exists j, pruned_neighbours sd i j /\ pair_of i j e) \/ In e (dkeys g)).
  { intros g i W Li. unfold pruned_row. fold n.
    destruct (foldM_total (fun g n => add_pruned len t g i n) (fun done g' => weighted g' /\ forall e, In e (dkeys g') <-> (exists j, In j done /\ pair_of i j e) \/ In e (dkeys g))
      (l := firstn 49 (tl (sd i)) ++ seq i (Nat.min (i + 5) n - i) ++ [t_end t]) g) as (g1 & E1 & W1 & K1).
    - split; auto. intros e. split; [tauto|]. intros [(j & [] & _)|I]; exact I.
    - intros l0 x l1 s1 El [Ws Ks]. assert (Lx : x < n).
      { assert (I : In x (firstn 49 (tl (sd i)) ++ seq i (Nat.min (i + 5) n - i) ++ [t_end t])) by (rewrite El; apply in_or_app; right; now left).
        apply Sp in I. destruct I as [I|[I| ->]]; [|lia|apply Ht]. apply (R i); auto. assert (I' : In x (tl (sd i))) by (rewrite <- (firstn_skipn 49 (tl (sd i))); apply in_or_app; now left). destruct (sd i); [destruct I'|now right]. }
      destruct (add_pruned_ok s1 i x Ws Li Lx) as (g' & E & W' & K'). exists g'. split; auto. split; auto. intros e. rewrite K', Ks. split.
      + intros [H|[(j & I & H)|H]]; [left; exists x; split; auto; apply in_or_app; right; now left|left; exists j; split; auto; apply in_or_app; now left|now right].
      + intros [(j & I & H)|H]; [|tauto]. apply in_app_or in I. destruct I as [I|[<-|[]]]; [right; left; eauto|now left].
    - exists g1. split; auto. split; auto. intros e. rewrite K1. split; (intros [(j & I & H)|H]; [left; exists j; split; auto; now apply Sp|now right]). }
  destruct (foldM_total (pruned_row len t sd) (fun done g' => weighted g' /\ forall e, In e (dkeys g') <-> exists i j, In i done /\ pruned_neighbours sd i j /\ pair_of i j e) (l := seq 0 n) []) as (g1 & E1 & W1 & K1).
  - split; [constructor; [constructor|intros a b []|intros a b w H; discriminate]|]. intros e. split; [intros []|intros (i & j & [] & _)].
  - intros l0 x l1 s1 El [Ws Ks]. assert (Lx : x < n).
    { assert (I : In x (seq 0 n)) by (rewrite El; apply in_or_app; right; now left). apply in_seq in I. lia. }
    destruct (Row s1 x Ws Lx) as (g' & E & W' & K'). exists g'. split; auto. split; auto. intros e. rewrite K', Ks. split.
    + intros [(j & H)|(i & j & I & H)]; [exists x, j; split; auto; apply in_or_app; right; now left|exists i, j; split; auto; apply in_or_app; now left].
    + intros (i & j & I & H). apply in_app_or in I. destruct I as [I|[<-|[]]]; [right; eauto|left; eauto].
  - exists g1. split; auto. split; auto. intros e. rewrite K1. split; intros (i & j & I & H); exists i, j; split; auto; apply in_seq in I || apply in_seq; lia.
Qed.

(** A walk through [0..s] from [s], in steps of one or two, that ends next to [s]. *)
Fixpoint zig (s : nat) : list nat := match s with 0 => [0] | S r => S r :: rev (zig r) end.
Lemma zig_mem : forall s v, In v (zig s) <-> v <= s.
Proof.
  induction s as [|s IH]; intros v; cbn [zig In]; [lia|]. rewrite <- in_rev, IH. lia.
Qed.
Lemma zig_nodup : forall s, NoDup (zig s).
Proof.
  induction s as [|s IH]; cbn [zig]; constructor; auto; try constructor.
  - rewrite <- in_rev, zig_mem. lia.
  - now apply NoDup_rev.
Qed.
Definition near (a b : nat) : Prop := a <= b + 2 /\ b <= a + 2.
Fixpoint steps (l : list nat) : Prop := match l with a :: ((b :: _) as r) => near a b /\ steps r | _ => True end.
Lemma steps_hops : forall l, steps l <-> forall a b, In (a, b) (hops l) -> near a b.
Proof.
  induction l as [|x l IH]; [cbn; split; [intros _ a b []|auto]|]. destruct l as [|y l]; [cbn; split; [intros _ a b []|auto]|].
  rewrite hops_cons. cbn [steps]. rewrite IH. split.
  - intros [N S] a b [E|I]; [injection E as <- <-; exact N|now apply S].
  - intros H. split; [apply H; now left|]. intros a b I. apply H. now right.
Qed.
Lemma steps_rev : forall l, steps l -> steps (rev l).
Proof.
  intros l S. apply steps_hops. rewrite steps_hops in S. intros a b I. apply hops_In in I. destruct I as (p1 & p2 & E).
  assert (E2 : l = rev p2 ++ b :: a :: rev p1).
  { rewrite <- (rev_involutive l), E, rev_app_distr. cbn [rev]. rewrite <- !app_assoc. reflexivity. }
  assert (N : near b a) by (apply S; rewrite E2; apply hops_mid). unfold near in *. lia.
Qed.
Lemma zig_hd : forall s, hd_error (zig s) = Some s.
Proof. destruct s; reflexivity. Qed.
Lemma last_rev_hd : forall (l : list nat) x, hd_error l = Some x -> exists r, rev l = r ++ [x].
Proof. intros [|y l] x E; [discriminate|]. cbn in E. injection E as ->. exists (rev l). reflexivity. Qed.
Lemma zig_end : forall s, exists r, zig s = r ++ [s - 1].
Proof. destruct s as [|s]; [exists []; reflexivity|]. cbn [zig]. destruct (last_rev_hd (zig s) s (zig_hd s)) as [r E]. exists (S s :: r). rewrite E. cbn. now rewrite Nat.sub_0_r. Qed.
Lemma zig_steps : forall s, steps (zig s).
Proof.
  induction s as [|s IH]; [exact I|]. cbn [zig]. destruct (zig_end s) as [r E]. pose proof (steps_rev _ IH) as S. rewrite E, rev_app_distr in *. cbn [rev app] in *.
  split; [unfold near; lia|exact S].
Qed.
Lemma seq_steps : forall k a, steps (seq a k).
Proof. induction k as [|k IH]; intros a; [exact I|]. cbn [seq]. destruct k as [|k]; [exact I|]. split; [unfold near; lia|]. apply (IH (S a)). Qed.
(** A walk through all of [0..m-1] from [s]. *)
Definition zigzag (m s : nat) : list nat := zig s ++ seq (S s) (m - S s).
Lemma zigzag_ok : forall m s, s < m -> NoDup (zigzag m s) /\ (forall v, In v (zigzag m s) <-> v < m) /\ steps (zigzag m s) /\ hd_error (zigzag m s) = Some s.
Proof.
  intros m s L. unfold zigzag. split; [|split; [|split]].
  - apply NoDup_app_disjoint; [apply zig_nodup|apply seq_NoDup|]. intros v I J. apply zig_mem in I. apply in_seq in J. lia.
  - intros v. rewrite in_app_iff, zig_mem, in_seq. lia.
  - apply steps_hops. intros a b I. destruct (zig_end s) as [r E]. destruct (m - S s) as [|k] eqn:Ek.
    + cbn [seq] in I. rewrite app_nil_r in I. now apply (proj1 (steps_hops _) (zig_steps s)).
    + cbn [seq] in I. rewrite E in I. rewrite <- app_assoc in I. cbn [app] in I. rewrite hops_app, hops_cons in I. apply in_app_or in I. destruct I as [I|[I|I]].
      * rewrite <- E in I. now apply (proj1 (steps_hops _) (zig_steps s)).
      * injection I as <- <-. unfold near. lia.
      * now apply (proj1 (steps_hops _) (seq_steps (S k) (S s))).
  - destruct s; reflexivity.
Qed.

Lemma pruned_ok : forall sd, (forall i j, i < n -> In j (sd i) -> j < n) ->
  exists g, build_graph_pruned len t sd = Ok g /\ graph_for len p0 t g /\
    (forall a b, In (a, b) (dkeys g) -> In (b, a) (dkeys g)) /\ (forall a, ~ In (a, a) (dkeys g)) /\
    exists q, visits t q /\ within t g q.
Proof.
  intros sd R. destruct (pruned_keys sd R) as (g & E & W & K). exists g. split; auto.
  pose proof Ht as (_ & Hs & He). fold n in Hs, He.
  assert (Sy : forall a b, In (a, b) (dkeys g) -> In (b, a) (dkeys g)).
  { intros a b I. apply K in I. destruct I as (i & j & Li & N & D & Eq). apply K. exists i, j. split; auto. split; auto. split; auto.
    destruct Eq as [Eq|Eq]; injection Eq as -> ->; auto. }
  assert (To : forall a, a < n -> a <> t_end t -> In (a, t_end t) (dkeys g)).
  { intros a L D. apply K. exists a, (t_end t). split; auto. split; [right; now right|]. split; auto. }
  assert (Cl : forall a b, a < n -> b < n -> a <> b -> a <= b + 4 -> b <= a + 4 -> In (a, b) (dkeys g)).
  { intros a b La Lb D H1 H2. apply K. destruct (le_lt_dec a b).
    - exists a, b. split; auto. split; [right; left; lia|]. split; auto.
    - exists b, a. split; auto. split; [right; left; lia|]. split; auto. }
  assert (Inn : exists u, u < n /\ u <> t_start t /\ u <> t_end t).
  { destruct Hp as [H _]. unfold length_permutation in H. destruct (ind_in_permutation t) as [|u l] eqn:El; [cbn in H; congruence|].
    exists u. apply ind_In. rewrite El. now left. }
  split; [split; [split; [apply W|split]|]|].
  - intros a b I. apply (we_range _ W) in I. fold n. tauto.
  - fold n. intros v Lv. destruct Inn as (u & Lu & _ & D). destruct (Nat.eq_dec v (t_end t)) as [->|Dv].
    + split; exists u; [|apply Sy]; now apply To.
    + split; exists (t_end t); [apply Sy|]; now apply To.
  - intros a b w I. apply (we_val _ W). apply In_dget; [apply W|exact I].
  - split; [exact Sy|]. split; [intros a I; apply (we_range _ W) in I; tauto|].
    (* a walk over the nodes other than the end *)
    set (lab := fun r => if r <? t_end t then r else S r).
    assert (LabN : forall r, r < n - 1 -> lab r < n /\ lab r <> t_end t) by (intros r Lr; unfold lab; destruct (Nat.ltb_spec r (t_end t)); lia).
    assert (LabI : forall r r', lab r = lab r' -> r = r') by (intros r r'; unfold lab; destruct (Nat.ltb_spec r (t_end t)), (Nat.ltb_spec r' (t_end t)); lia).
    assert (LabS : forall v, v < n -> v <> t_end t -> exists r, r < n - 1 /\ lab r = v).
    { intros v Lv D. destruct (le_lt_dec v (t_end t)).
      - exists v. split; [lia|]. unfold lab. destruct (Nat.ltb_spec v (t_end t)); lia.
      - exists (v - 1). split; [lia|]. unfold lab. destruct (Nat.ltb_spec (v - 1) (t_end t)); lia. }
    assert (LabC : forall r r', r < n - 1 -> r' < n - 1 -> near r r' -> r <> r' -> In (lab r, lab r') (dkeys g)).
    { intros r r' L1 L2 [N1 N2] D. destruct (LabN r L1), (LabN r' L2). apply Cl; auto.
      all: unfold lab; destruct (Nat.ltb_spec r (t_end t)), (Nat.ltb_spec r' (t_end t)); lia. }
    assert (Walk : forall s', s' < n - 1 -> forall a b, In (a, b) (hops (map lab (zigzag (n - 1) s'))) -> In (a, b) (dkeys g)).
    { intros s' Ls a b I. destruct (zigzag_ok (n - 1) s' Ls) as (Nz & Mz & Sz & _). apply hops_In in I. destruct I as (p1 & p2 & Em).
      apply map_eq_app in Em. destruct Em as (l1 & l2 & Ez & _ & Em2). destruct l2 as [|r [|r' l2]]; try discriminate. cbn [map] in Em2. injection Em2 as <- <- _.
      assert (Ir : In (r, r') (hops (zigzag (n - 1) s'))) by (rewrite Ez; apply hops_mid).
      apply LabC.
      - apply Mz. rewrite Ez. apply in_or_app. right. now left.
      - apply Mz. rewrite Ez. apply in_or_app. right. right. now left.
      - now apply (proj1 (steps_hops _) Sz).
      - rewrite Ez in Nz. apply NoDup_remove_2 in Nz. intros ->. apply Nz. apply in_or_app. right. now left. }
    assert (Full : forall s', s' < n - 1 -> NoDup (map lab (zigzag (n - 1) s')) /\ forall v, In v (map lab (zigzag (n - 1) s')) <-> v < n /\ v <> t_end t).
    { intros s' Ls. destruct (zigzag_ok (n - 1) s' Ls) as (Nz & Mz & _). split.
      - apply NoDup_map_on; [intros; now apply LabI|exact Nz].
      - intros v. rewrite in_map_iff. split.
        + intros (r & <- & I). apply Mz in I. now apply LabN.
        + intros (Lv & D). destruct (LabS v Lv D) as (r & Lr & <-). exists r. split; auto. now apply Mz. }
    destruct (Nat.eq_dec (t_start t) (t_end t)) as [D|D].
    + (* closed: all of the walk *)
      assert (L1 : 0 < n - 1) by (destruct Inn as (u & ? & ? & ?); lia).
      exists (map lab (zigzag (n - 1) 0)). destruct (Full 0 L1) as [Nf Mf]. split.
      * split; [exact Nf|]. intros i. rewrite Mf. fold n. rewrite D. tauto.
      * intros [a b] I. unfold whole in I. remember (map lab (zigzag (n - 1) 0)) as z eqn:Ezz.
        destruct z as [|z0 z]; [destruct Inn as (u & U1 & _ & U2); destruct (proj2 (Mf u) (conj U1 U2))|].
        assert (J : (a, b) = (t_start t, z0) \/ In (a, b) (hops (z0 :: z)) \/ exists w, In w (z0 :: z) /\ (a, b) = (w, t_end t)).
        { cbn [app] in I. rewrite hops_cons in I. destruct I as [I|I]; [auto|right]. destruct (exists_last (l := z0 :: z)) as (z' & w & Ew); [discriminate|].
          change (z0 :: z ++ [t_end t]) with ((z0 :: z) ++ [t_end t]) in I. rewrite Ew in I. rewrite hops_snoc in I. apply in_app_or in I.
          destruct I as [I|[I|[]]]; [left; now rewrite Ew|right; exists w; split; [rewrite Ew; apply in_or_app; right; now left|auto]]. }
        destruct J as [J|[J|(w & Iw & J)]].
        -- injection J as -> ->. rewrite D. apply Sy. destruct (proj1 (Mf z0) (or_introl eq_refl)). now apply To.
        -- apply (Walk 0 L1). rewrite <- Ezz. exact J.
        -- injection J as -> ->. apply Mf in Iw. now apply To.
    + (* open: the walk from the start *)
      destruct (LabS (t_start t) Hs D) as (r & Lr & Er). destruct (Full r Lr) as [Nf Mf]. destruct (zigzag_ok (n - 1) r Lr) as (_ & _ & _ & Hz).
      destruct (zigzag (n - 1) r) as [|r0 zz] eqn:Ezz; [discriminate|]. cbn in Hz. injection Hz as ->. cbn [map] in Nf, Mf. rewrite Er in Nf, Mf.
      pose proof (Walk r Lr) as Wk. rewrite Ezz in Wk. cbn [map] in Wk. rewrite Er in Wk.
      exists (map lab zz). inversion Nf as [|? ? Ns Nz]; subst. split.
      * split; [exact Nz|]. intros i. fold n. specialize (Mf i). cbn [In] in Mf. split.
        -- intros I. assert (J : i < n /\ i <> t_end t) by tauto. split; [tauto|]. split; [|tauto]. intros ->. contradiction.
        -- intros (L1 & L2 & L3). destruct (proj2 Mf (conj L1 L3)); [congruence|auto].
      * intros [a b] I. unfold whole in I. destruct (exists_last (l := t_start t :: map lab zz)) as (z' & w & Ew); [discriminate|].
        change (t_start t :: map lab zz ++ [t_end t]) with ((t_start t :: map lab zz) ++ [t_end t]) in I. rewrite Ew, hops_snoc in I. apply in_app_or in I.
        destruct I as [I|[I|[]]]; [rewrite <- Ew in I; now apply Wk|]. injection I as <- <-.
        assert (Iw : In w (t_start t :: map lab zz)) by (rewrite Ew; apply in_or_app; right; now left). apply Mf in Iw. now apply To.
Qed.
End Complete.
