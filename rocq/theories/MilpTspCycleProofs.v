(** Solutions of the program of MilpTspModel are cycle covers, and [build_the_cycles] walks their cycles. *)
From Coq Require Import List Bool Arith ZArith Lia Permutation Relations.
From Verif Require Import Py PyList PyMore TspModel TspProofs MilpModel MilpProofs MilpTspModel MilpTspProofs.
Import ListNotations.
Open Scope nat_scope.

(** * Vocabulary *)

(** Every node is entered once and left once, except that an open tour neither enters its start nor leaves
    its end. *)
Record cover (n start end_ : nat) (E : list edge) : Prop := {
  cv_nodup : NoDup E;
  cv_range : forall a b, In (a, b) E -> a < n /\ b < n;
  cv_in : forall v, v < n -> v <> start \/ start = end_ -> exists a, In (a, v) E;
  cv_in1 : forall a a' v, In (a, v) E -> In (a', v) E -> a = a';
  cv_in0 : start <> end_ -> forall a, ~ In (a, start) E;
  cv_out : forall v, v < n -> v <> end_ \/ start = end_ -> exists b, In (v, b) E;
  cv_out1 : forall v b b', In (v, b) E -> In (v, b') E -> b = b';
  cv_out0 : start <> end_ -> forall b, ~ In (end_, b) E
}.
(** Weak connection. *)
Definition linked (E : list edge) : nat -> nat -> Prop := clos_refl_sym_trans nat (fun a b => In (a, b) E).
(** What [nx.weakly_connected_components] returns for the nodes below [n]. *)
Record components (n : nat) (E : list edge) (cs : list (list nat)) : Prop := {
  cp_nodes : Permutation (concat cs) (seq 0 n);
  cp_nonempty : forall c, In c cs -> c <> [];
  cp_linked : forall c a b, In c cs -> In a c -> (In b c <-> b < n /\ linked E a b)
}.

Lemma NoDup_map_on : forall A B (f : A -> B) l, (forall x y, In x l -> In y l -> f x = f y -> x = y) -> NoDup l -> NoDup (map f l).
Proof.
  induction l as [|x l IH]; intros U N; [constructor|]. inversion N as [|? ? Nx Nl]; subst. cbn [map]. constructor.
  - intros I. apply in_map_iff in I. destruct I as (y & E & I). apply Nx. rewrite (U x y); auto; [now left|now right].
  - apply IH; [|exact Nl]. intros; apply U; auto; now right.
Qed.

(** * Components *)
Section Comp.
Variables (n start end_ : nat) (E : list edge) (cs : list (list nat)).
Hypothesis HE : cover n start end_ E.
Hypothesis HC : components n E cs.

Lemma comp_range : forall c v, In c cs -> In v c -> v < n.
Proof.
  intros c v I J. assert (K : In v (concat cs)) by (apply in_concat; eauto).
  apply (Permutation_in _ (cp_nodes _ _ _ HC)) in K. apply in_seq in K. lia.
Qed.
Lemma comp_of : forall v, v < n -> exists c, In c cs /\ In v c.
Proof.
  intros v V. assert (K : In v (concat cs)).
  { apply (Permutation_in _ (Permutation_sym (cp_nodes _ _ _ HC))). apply in_seq. lia. }
  apply in_concat in K. destruct K as (c & I & J). eauto.
Qed.
Lemma concat_NoDup : NoDup (concat cs).
Proof. eapply Permutation_NoDup; [apply Permutation_sym, (cp_nodes _ _ _ HC)|apply seq_NoDup]. Qed.
Lemma NoDup_app_r : forall A (l1 l2 : list A), NoDup (l1 ++ l2) -> NoDup l1 /\ NoDup l2 /\ forall x, In x l1 -> ~ In x l2.
Proof.
  induction l1 as [|x l1 IH]; intros l2 N; cbn [app] in N; [split; [constructor|split; [exact N|intros ? []]]|].
  inversion N as [|? ? Nx Nr]; subst. destruct (IH _ Nr) as (A1 & A2 & A3). split; [|split; [exact A2|]].
  - constructor; [|exact A1]. intros I. apply Nx, in_or_app. now left.
  - intros y [<-|I]; [|now apply A3]. intros J. apply Nx, in_or_app. now right.
Qed.
Lemma concat_comp : forall (l : list (list nat)), NoDup (concat l) -> (forall c, In c l -> NoDup c) /\
  forall i j c d v, nth_error l i = Some c -> nth_error l j = Some d -> In v c -> In v d -> i = j.
Proof.
  induction l as [|x l IH]; intros N; [split; [intros ? []|intros i j c d v H; destruct i; discriminate]|].
  cbn [concat] in N. apply NoDup_app_r in N. destruct N as (N1 & N2 & D). destruct (IH N2) as [A B]. split.
  - intros c [<-|I]; auto.
  - intros i j c d v Hi Hj Ic Id. destruct i as [|i], j as [|j]; cbn in Hi, Hj; auto.
    + injection Hi as ->. exfalso. apply (D v Ic). apply in_concat. exists d. split; [eapply nth_error_In; eauto|exact Id].
    + injection Hj as ->. exfalso. apply (D v Id). apply in_concat. exists c. split; [eapply nth_error_In; eauto|exact Ic].
    + f_equal. eapply B; eauto.
Qed.
Lemma comp_NoDup : forall c, In c cs -> NoDup c.
Proof. apply concat_comp, concat_NoDup. Qed.
Lemma comp_pos : forall i j c d v, nth_error cs i = Some c -> nth_error cs j = Some d -> In v c -> In v d -> i = j.
Proof. apply concat_comp, concat_NoDup. Qed.
Lemma comp_same : forall c d v, In c cs -> In d cs -> In v c -> In v d -> c = d.
Proof.
  intros c d v Ic Id Vc Vd. apply In_nth_error in Ic, Id. destruct Ic as [i Hi], Id as [j Hj].
  assert (i = j) by (eapply comp_pos; eauto). subst. congruence.
Qed.
Lemma comp_closed : forall c a b, In c cs -> In (a, b) E -> (In a c <-> In b c).
Proof.
  intros c a b Ic I. destruct (cv_range _ _ _ _ HE _ _ I) as [A B]. split; intros J.
  - apply (proj2 (cp_linked _ _ _ HC c a b Ic J)). split; [exact B|]. now apply rst_step.
  - apply (proj2 (cp_linked _ _ _ HC c b a Ic J)). split; [exact A|]. now apply rst_sym, rst_step.
Qed.
Lemma linked_closed : forall (S : nat -> Prop), (forall a b, In (a, b) E -> (S a <-> S b)) -> forall a b, linked E a b -> (S a <-> S b).
Proof. intros S H a b L. induction L; [now apply H|tauto|tauto|tauto]. Qed.
Lemma comp_least : forall c (S : nat -> Prop), In c cs -> (forall a b, In (a, b) E -> (S a <-> S b)) ->
  forall a, In a c -> S a -> forall b, In b c -> S b.
Proof.
  intros c S Ic H a Ia Sa b Ib. apply (proj1 (cp_linked _ _ _ HC c a b Ic Ia)) in Ib. destruct Ib as [_ L].
  apply (linked_closed S H) in L. tauto.
Qed.

(** An open tour has its two ends in the same component. *)
Lemma ends_together : forall c, In c cs -> start <> end_ -> (In start c <-> In end_ c).
Proof.
  intros c Ic D. pose proof (comp_NoDup c Ic) as Nc.
  set (F := filter (fun e : edge => pymem (fst e) c) E).
  assert (IF : forall a b, In (a, b) F <-> In (a, b) E /\ In a c).
  { intros a b. unfold F. rewrite filter_In. cbn [fst]. now rewrite pymem_true. }
  assert (NF : NoDup F) by (apply NoDup_filter, (cv_nodup _ _ _ _ HE)).
  assert (N1 : NoDup (map fst F)).
  { apply NoDup_map_on; [|exact NF]. intros [a b] [a' b'] I I' Ea. cbn in Ea. subst a'. apply IF in I, I'.
    f_equal. eapply (cv_out1 _ _ _ _ HE); [apply I|apply I']. }
  assert (N2 : NoDup (map snd F)).
  { apply NoDup_map_on; [|exact NF]. intros [a b] [a' b'] I I' Ea. cbn in Ea. subst b'. apply IF in I, I'.
    f_equal. eapply (cv_in1 _ _ _ _ HE); [apply I|apply I']. }
  assert (L : length (map fst F) = length (map snd F)) by now rewrite !map_length.
  split; intros X.
  - destruct (in_dec Nat.eq_dec end_ c) as [Y|Y]; [exact Y|exfalso].
    assert (A : incl c (map fst F)).
    { intros v V. destruct (cv_out _ _ _ _ HE v) as [b B]; [eapply comp_range; eauto|left; intros ->; contradiction|].
      apply in_map_iff. exists (v, b). split; [reflexivity|]. apply IF. auto. }
    assert (B : incl (start :: map snd F) c).
    { intros v [<-|V]; [exact X|]. apply in_map_iff in V. destruct V as ([a b] & <- & V). apply IF in V.
      destruct V as [V1 V2]. cbn. now apply (proj1 (comp_closed c a b Ic V1)). }
    assert (N3 : NoDup (start :: map snd F)).
    { constructor; [|exact N2]. intros V. apply in_map_iff in V. destruct V as ([a b] & Eb & V). cbn in Eb. subst b.
      apply IF in V. eapply (cv_in0 _ _ _ _ HE D). apply V. }
    pose proof (NoDup_incl_length Nc A). pose proof (NoDup_incl_length N3 B). cbn [length] in *. lia.
  - destruct (in_dec Nat.eq_dec start c) as [Y|Y]; [exact Y|exfalso].
    assert (A : incl c (map snd F)).
    { intros v V. destruct (cv_in _ _ _ _ HE v) as [a A]; [eapply comp_range; eauto|left; intros ->; contradiction|].
      apply in_map_iff. exists (a, v). split; [reflexivity|]. apply IF. split; [exact A|].
      now apply (proj2 (comp_closed c a v Ic A)). }
    assert (B : incl (end_ :: map fst F) c).
    { intros v [<-|V]; [exact X|]. apply in_map_iff in V. destruct V as ([a b] & <- & V). apply IF in V. apply V. }
    assert (N3 : NoDup (end_ :: map fst F)).
    { constructor; [|exact N1]. intros V. apply in_map_iff in V. destruct V as ([a b] & Eb & V). cbn in Eb. subst a.
      apply IF in V. eapply (cv_out0 _ _ _ _ HE D). apply V. }
    pose proof (NoDup_incl_length Nc A). pose proof (NoDup_incl_length N3 B). cbn [length] in *. lia.
Qed.
End Comp.

(** * Solutions are covers *)
Section Cover.
Variable order : list edge -> list edge.
Hypothesis Hord : rearranges order.
Variable n start end_ : nat.
Hypothesis Hs : start < n.
Hypothesis He : end_ < n.
Variable g : graph.
Hypothesis Hg : graph_ok n g.
Variable a : edge -> Z.
Let es := edges_of order g.
Hypothesis Ha : forall e, In e es -> (0 <= a e <= 1)%Z.
Hypothesis Hf : flows order n start end_ g a.

Lemma used_In : forall e, In e (used es a) <-> In e es /\ a e = 1%Z.
Proof.
  intros e. unfold used. rewrite filter_In, Z.leb_le. split; intros [I A]; split; auto; [|lia]. specialize (Ha e I). lia.
Qed.
Lemma side_one : forall (side : edge -> nat) v, sumZ (map a (filter (fun e => side e =? v) es)) = 1%Z ->
  exists e, In e (used es a) /\ side e = v /\ forall e', In e' (used es a) -> side e' = v -> e' = e.
Proof.
  intros side v H. apply sum_one in H.
  - destruct H as (e & I & A & U). apply filter_In in I. destruct I as [I S]. apply Nat.eqb_eq in S. exists e.
    split; [now apply used_In|]. split; [exact S|]. intros e' I' S'. destruct (py_dec e' e) as [Eq|Ne]; [exact Eq|].
    apply used_In in I'. destruct I' as [I' A']. rewrite (U e') in A'; [discriminate| |exact Ne].
    apply filter_In. split; [exact I'|now apply Nat.eqb_eq].
  - intros e I. apply filter_In in I. now apply Ha.
  - apply NoDup_filter. now apply (es_NoDup order Hord n).
Qed.
Lemma side_zero : forall (side : edge -> nat) v, sumZ (map a (filter (fun e => side e =? v) es)) = 0%Z ->
  forall e, In e (used es a) -> side e <> v.
Proof.
  intros side v H e I S. apply used_In in I. destruct I as [I A].
  assert (J : In e (filter (fun e => side e =? v) es)) by (apply filter_In; split; [exact I|now apply Nat.eqb_eq]).
  assert (P : forall x, In x (filter (fun e => side e =? v) es) -> (0 <= a x)%Z) by (intros x Ix; apply filter_In in Ix; now apply Ha).
  revert J P H. generalize (filter (fun e => side e =? v) es). clear -A. induction l as [|x l IH]; intros J P H; [destruct J|].
  cbn [map] in H. rewrite sumZ_cons in H.
  pose proof (P x (or_introl eq_refl)). assert (0 <= sumZ (map a l))%Z by (apply sumZ_map_nonneg; intros; apply P; now right).
  destruct J as [->|J]; [lia|]. apply IH; auto; [intros; apply P; now right|lia].
Qed.

Lemma used_cover : cover n start end_ (used es a).
Proof.
  assert (In1 : forall v, v < n -> v <> start \/ start = end_ -> into order g a v = 1%Z).
  { intros v V D. destruct (Hf v V) as (A & B & C & _). destruct (Nat.eq_dec v start); [|auto].
    destruct D as [D|D]; [contradiction|]. now apply C. }
  assert (Out1 : forall v, v < n -> v <> end_ \/ start = end_ -> outof order g a v = 1%Z).
  { intros v V D. destruct (Hf v V) as (A & B & C & _). destruct (Nat.eq_dec v end_); [|auto].
    destruct D as [D|D]; [contradiction|]. now apply C. }
  assert (R : forall x y, In (x, y) (used es a) -> x < n /\ y < n).
  { intros x y I. apply used_In in I. apply (es_range order Hord n g Hg (x, y)). apply I. }
  assert (Z1 : start <> end_ -> forall x, ~ In (x, start) (used es a)).
  { intros D x I. destruct (Hf start Hs) as (_ & _ & _ & C). destruct (C D) as [C1 _]. specialize (C1 eq_refl).
    apply (side_zero snd start C1 _ I). reflexivity. }
  assert (Z2 : start <> end_ -> forall x, ~ In (end_, x) (used es a)).
  { intros D x I. destruct (Hf end_ He) as (_ & _ & _ & C). destruct (C D) as [_ C1]. specialize (C1 eq_refl).
    apply (side_zero fst end_ C1 _ I). reflexivity. }
  constructor; auto.
  - apply NoDup_filter. now apply (es_NoDup order Hord n).
  - intros v V D. destruct (side_one snd v (In1 v V D)) as ([x y] & I & S & _). cbn in S. subst. eauto.
  - intros x x' v I I'. destruct (R _ _ I) as [_ V].
    assert (D : v <> start \/ start = end_).
    { destruct (Nat.eq_dec v start) as [->|]; [|now left]. destruct (Nat.eq_dec start end_); [now right|]. exfalso. eapply Z1; eauto. }
    destruct (side_one snd v (In1 v V D)) as (e & _ & _ & U).
    pose proof (U _ I eq_refl) as U1. pose proof (U _ I' eq_refl) as U2. congruence.
  - intros v V D. destruct (side_one fst v (Out1 v V D)) as ([x y] & I & S & _). cbn in S. subst. eauto.
  - intros v x x' I I'. destruct (R _ _ I) as [V _].
    assert (D : v <> end_ \/ start = end_).
    { destruct (Nat.eq_dec v end_) as [->|]; [|now left]. destruct (Nat.eq_dec start end_); [now right|]. exfalso. eapply Z2; eauto. }
    destruct (side_one fst v (Out1 v V D)) as (e & _ & _ & U).
    pose proof (U _ I eq_refl) as U1. pose proof (U _ I' eq_refl) as U2. congruence.
Qed.
End Cover.

(** * [build_the_cycles] *)
Section Walk.
Variable order : list edge -> list edge.
Hypothesis Hord : rearranges order.
Variables (n start end_ : nat) (E : list edge) (cs : list (list nat)).
Hypothesis Hs : start < n.
Hypothesis He : end_ < n.
Hypothesis HE : cover n start end_ E.
Hypothesis HC : components n E cs.
Variable c : list nat.
Hypothesis Ic : In c cs.

Let eoi := order (filter (fun e : edge => pymem (snd e) c && pymem (fst e) c) E).
Let outt := fold_left (fun d e => dset d (fst e) e) eoi ([] : list (nat * edge)).
Let innn := fold_left (fun d e => dset d (snd e) e) eoi ([] : list (nat * edge)).

Lemma eoi_In : forall a b, In (a, b) eoi <-> In (a, b) E /\ In a c.
Proof.
  intros a b. unfold eoi. transitivity (In (a, b) (filter (fun e : edge => pymem (snd e) c && pymem (fst e) c) E)).
  - split; apply Permutation_in; [apply Hord|apply Permutation_sym, Hord].
  - rewrite filter_In. cbn [fst snd]. rewrite andb_true_iff, !pymem_true. split; [tauto|]. intros [I A].
    split; [exact I|]. split; [|exact A]. now apply (proj1 (comp_closed n start end_ E cs HE HC c a b Ic I)).
Qed.
Lemma outt_get : forall a e, dget outt a = Some e <-> In e E /\ In a c /\ fst e = a.
Proof.
  intros a [x y]. unfold outt. rewrite (dict_of_nil fst).
  - rewrite eoi_In. cbn [fst]. split; [intros [[A B] <-]; auto|intros (A & B & ->); auto].
  - intros [x1 y1] [x2 y2] I1 I2 Ex. cbn in Ex. subst x2. apply eoi_In in I1, I2. f_equal. eapply (cv_out1 _ _ _ _ HE); [apply I1|apply I2].
Qed.
Lemma innn_get : forall b e, dget innn b = Some e <-> In e E /\ In b c /\ snd e = b.
Proof.
  intros b [x y]. unfold innn. rewrite (dict_of_nil snd).
  - rewrite eoi_In. cbn [snd]. split.
    + intros [[A B] <-]. split; [exact A|]. split; [|reflexivity]. now apply (proj1 (comp_closed n start end_ E cs HE HC c x y Ic A)).
    + intros (A & B & ->). split; [|reflexivity]. split; [exact A|]. now apply (proj2 (comp_closed n start end_ E cs HE HC c x b Ic A)).
  - intros [x1 y1] [x2 y2] I1 I2 Ex. cbn in Ex. subst y2. apply eoi_In in I1, I2. f_equal. eapply (cv_in1 _ _ _ _ HE); [apply I1|apply I2].
Qed.
Lemma outt_mem : forall a, dmem outt a = true <-> In a c /\ exists b, In (a, b) E.
Proof.
  intros a. rewrite dmem_true, (dget_keys _ _ outt a). split.
  - intros [[x y] H]. apply outt_get in H. destruct H as (H1 & H2 & H3). cbn in H3. subst. eauto.
  - intros [A [b B]]. exists (a, b). apply outt_get. auto.
Qed.
Lemma innn_mem : forall b, dmem innn b = true <-> In b c /\ exists a, In (a, b) E.
Proof.
  intros b. rewrite dmem_true, (dget_keys _ _ innn b). split.
  - intros [[x y] H]. apply innn_get in H. destruct H as (H1 & H2 & H3). cbn in H3. subst. eauto.
  - intros [B [a A]]. exists (a, b). apply innn_get. auto.
Qed.

(** The two ways of walking: around a cycle, or from the start to the end of an open tour. *)
Definition goal (first end_node : nat) : Prop :=
  (end_node = first /\ (start = end_ \/ ~ In end_ c)) \/ (first = start /\ end_node = end_ /\ start <> end_).
(** The path so far. *)
Record trail (first end_node : nat) (path : list nat) : Prop := {
  tr_first : exists r, path = first :: r /\ ~ In end_node r /\ (first <> end_node -> ~ In end_node path);
  tr_nodup : NoDup path;
  tr_hops : forall e, In e (hops path) -> In e E;
  tr_in : forall v, In v path -> In v c
}.
Definition positions (path : list nat) (ixs : list (nat * nat)) : Prop :=
  forall v k, dget ixs v = Some k <-> nth_error path k = Some v.

Lemma trail_hops : forall first end_node p u v, trail first end_node (p ++ [u]) -> In (u, v) E ->
  length (p ++ [u]) <= length eoi.
Proof.
  intros first end_node p u v [_ N H I] IE.
  assert (M : map fst (hops ((p ++ [u]) ++ [v])) = p ++ [u]) by apply hops_fst.
  rewrite <- M, map_length. apply NoDup_incl_length.
  - apply (NoDup_map_inv' _ _ fst). now rewrite M.
  - intros [x y] J. rewrite hops_snoc in J. apply in_app_or in J. apply eoi_In. destruct J as [J|[J|[]]].
    + split; [now apply H|]. apply I. apply (hops_members _ _ _ J).
    + injection J as <- <-. split; [exact IE|]. apply I, in_or_app. right. now left.
Qed.

Lemma walk_ok : forall fuel first end_node, goal first end_node -> forall p u v ixs,
  trail first end_node (p ++ [u]) -> In (u, v) E -> positions (p ++ [u]) ixs ->
  length eoi + 2 <= fuel + length (p ++ [u]) ->
  exists p' u' ixs', walk fuel outt end_node (p ++ [u]) ixs (length (p ++ [u])) (u, v) =
      Ok (p' ++ [u'], ixs', length (p' ++ [u'])) /\
    trail first end_node (p' ++ [u']) /\ In (u', end_node) E /\ positions (p' ++ [u']) ixs'.
Proof.
  induction fuel as [|fuel IH]; intros first end_node G p u v ixs T I Px F.
  - pose proof (trail_hops _ _ _ _ _ T I). lia.
  - cbn [walk snd]. destruct (Nat.eqb_spec v end_node) as [->|Ne].
    + exists p, u, ixs. auto.
    + assert (Icu : In u c) by (apply (tr_in _ _ _ T), in_or_app; right; now left).
      assert (Icv : In v c) by now apply (proj1 (comp_closed n start end_ E cs HE HC c u v Ic I)).
      assert (Fr : ~ In v (p ++ [u])).
      { intros J. destruct (tr_first _ _ _ T) as (r & Er & _ & _).
        apply in_split in J. destruct J as (l1 & l2 & El). destruct l1 as [|z l1'] eqn:EL.
        - rewrite El in Er. cbn [app] in Er. injection Er as -> _.
          destruct G as [[G _]|(G1 & G2 & G3)]; [congruence|]. subst first. eapply (cv_in0 _ _ _ _ HE G3). exact I.
        - destruct (exists_last (l := z :: l1')) as (l0 & w & E0); [discriminate|]. rewrite E0 in El.
          assert (In (w, v) E).
          { apply (tr_hops _ _ _ T). rewrite El, <- app_assoc. cbn [app]. apply hops_mid. }
          assert (w = u) by (eapply (cv_in1 _ _ _ _ HE); eauto). subst w.
          pose proof (tr_nodup _ _ _ T) as N. rewrite El, <- app_assoc in N. cbn [app] in N.
          assert (Eq : p ++ [u] = (l0 ++ [u]) ++ v :: l2) by exact El.
          destruct (exists_last (l := v :: l2)) as (l3 & w & E3); [discriminate|]. rewrite E3, app_assoc in Eq.
          apply app_inj_tail in Eq. destruct Eq as [_ <-]. apply NoDup_remove_2 in N. apply N.
          apply in_or_app. right. rewrite E3. apply in_or_app. right. now left. }
      assert (Ov : exists w, In (v, w) E).
      { apply (cv_out _ _ _ _ HE); [eapply comp_range; eauto|].
        destruct G as [[_ [G|G]]|(_ & G & _)]; [now right|left; intros ->; contradiction|left; congruence]. }
      destruct Ov as [w W].
      assert (Gt : dgetE outt v = Ok (v, w)).
      { unfold dgetE. rewrite (proj2 (outt_get v (v, w))); auto. }
      rewrite Gt. cbn [bind].
      replace (S (length (p ++ [u]))) with (length ((p ++ [u]) ++ [v])) by (rewrite app_length; cbn; lia).
      apply IH; auto.
      * destruct (tr_first _ _ _ T) as (r & Er & R1 & R2). constructor.
        -- exists (r ++ [v]). split; [rewrite Er; reflexivity|]. split.
           ++ intros J. apply in_app_or in J. destruct J as [J|[J|[]]]; [contradiction|congruence].
           ++ intros D J. apply in_app_or in J. destruct J as [J|[J|[]]]; [now apply (R2 D)|congruence].
        -- apply NoDup_snoc; [apply T|exact Fr].
        -- intros e J. rewrite hops_snoc in J. apply in_app_or in J. destruct J as [J|[<-|[]]]; [now apply (tr_hops _ _ _ T)|exact I].
        -- intros x J. apply in_app_or in J. destruct J as [J|[<-|[]]]; [now apply (tr_in _ _ _ T)|exact Icv].
      * intros x k. destruct (Nat.eq_dec v x) as [<-|Nx].
        -- rewrite dget_dset_same. split.
           ++ intros Hk. injection Hk as <-. rewrite nth_error_app2 by lia. now rewrite Nat.sub_diag.
           ++ intros Hk. destruct (Nat.lt_ge_cases k (length (p ++ [u]))) as [Lk|Lk].
              ** rewrite nth_error_app1 in Hk by exact Lk. apply nth_error_In in Hk. contradiction.
              ** assert (k < length ((p ++ [u]) ++ [v])) by (apply nth_error_Some; congruence).
                 rewrite app_length in H. cbn in H. f_equal. lia.
        -- rewrite dget_dset_other by exact Nx. rewrite (Px x k). split; intros Hk.
           ++ rewrite nth_error_app1; [exact Hk|]. apply nth_error_Some. congruence.
           ++ destruct (Nat.lt_ge_cases k (length (p ++ [u]))) as [Lk|Lk]; [now rewrite nth_error_app1 in Hk by exact Lk|].
              rewrite nth_error_app2 in Hk by exact Lk. destruct (k - length (p ++ [u])) as [|[|]]; [cbn in Hk; congruence|discriminate|discriminate].
      * rewrite app_length. cbn [length]. lia.
Qed.

(** The walked path covers the component. *)
Lemma trail_all : forall first end_node p u, goal first end_node -> trail first end_node (p ++ [u]) -> In (u, end_node) E ->
  forall v, In v c -> In v ((p ++ [u]) ++ [end_node]).
Proof.
  intros first end_node p u G T I. set (path := p ++ [u]) in *.
  destruct (tr_first _ _ _ T) as (r & Er & R1 & R2).
  assert (Iend : In end_node c).
  { apply (proj1 (comp_closed n start end_ E cs HE HC c u end_node Ic I)). apply (tr_in _ _ _ T), in_or_app. right. now left. }
  assert (Cl : forall a b, In (a, b) E -> (In a (path ++ [end_node]) <-> In b (path ++ [end_node]))).
  { intros a b AB. split; intros J.
    - apply in_app_or in J.
      assert (J' : In a path \/ a = end_node /\ first <> end_node).
      { destruct J as [J|[<-|[]]]; [now left|]. destruct (Nat.eq_dec first end_node) as [<-|D]; [left; rewrite Er; now left|now right]. }
      destruct J' as [J'|[-> D]].
      + assert (K : In a (map fst (hops (path ++ [end_node])))) by (rewrite hops_fst; exact J').
        apply in_map_iff in K. destruct K as ([a' b'] & Ea & K). cbn in Ea. subst a'.
        assert (In (a, b') E).
        { unfold path in K. rewrite hops_snoc in K. apply in_app_or in K. destruct K as [K|[K|[]]]; [now apply (tr_hops _ _ _ T)|].
          injection K as <- <-. exact I. }
        assert (b' = b) by (eapply (cv_out1 _ _ _ _ HE); eauto). subst b'. apply (hops_members _ _ _ K).
      + exfalso. destruct G as [[G _]|(_ & -> & G)]; [congruence|]. eapply (cv_out0 _ _ _ _ HE G). exact AB.
    - rewrite Er in J. cbn [app] in J.
      assert (J' : In b (r ++ [end_node]) \/ b = first /\ first <> end_node).
      { destruct J as [<-|J]; [|now left]. destruct (Nat.eq_dec first end_node) as [<-|D]; [left; apply in_or_app; right; now left|now right]. }
      destruct J' as [J'|[-> D]].
      + assert (K : In b (map snd (hops (path ++ [end_node])))) by (rewrite Er; cbn [app]; rewrite hops_snd; exact J').
        apply in_map_iff in K. destruct K as ([a' b'] & Ea & K). cbn in Ea. subst b'.
        assert (In (a', b) E).
        { unfold path in K. rewrite hops_snoc in K. apply in_app_or in K. destruct K as [K|[K|[]]]; [now apply (tr_hops _ _ _ T)|].
          injection K as <- <-. exact I. }
        assert (a' = a) by (eapply (cv_in1 _ _ _ _ HE); eauto). subst a'. apply (hops_members _ _ _ K).
      + exfalso. destruct G as [[G _]|(-> & _ & G)]; [congruence|]. eapply (cv_in0 _ _ _ _ HE G). exact AB. }
  apply (comp_least n E cs HC c (fun v => In v (path ++ [end_node])) Ic Cl end_node Iend).
  apply in_or_app. right. now left.
Qed.

(** What [build_the_cycles] returns: the positions it records are positions of the nodes. *)
Lemma cycles_ok : exists path ixs, build_the_cycles order E c start end_ = Ok (path, ixs) /\
  (forall e, In e (hops path) -> In e E) /\ (forall v, In v path <-> In v c) /\
  (forall v, In v c -> exists k, dget ixs v = Some k /\ nth_error path k = Some v) /\
  (In start c -> exists q, path = start :: q ++ [end_] /\ NoDup (start :: q) /\ ~ In end_ q /\ (start <> end_ -> q <> [] \/ In (start, end_) E)) /\
  (~ In start c -> NoDup path).
Proof.
  unfold build_the_cycles. cbv zeta. fold eoi. fold outt. fold innn.
  assert (Together : start <> end_ -> (In start c <-> In end_ c)) by (intros; now apply (ends_together n start end_ E cs HE HC)).
  destruct (in_dec Nat.eq_dec start c) as [Sc|Sc].
  - destruct (cv_out _ _ _ _ HE start Hs) as [b B]; [destruct (Nat.eq_dec start end_); auto|].
    rewrite (proj2 (outt_mem start)) by eauto. cbn [bind].
    assert (Ec : In end_ c) by (destruct (Nat.eq_dec start end_) as [<-|D]; [exact Sc|now apply Together]).
    destruct (cv_in _ _ _ _ HE end_ He) as [z Z]; [destruct (Nat.eq_dec start end_); auto|].
    rewrite (proj2 (innn_mem end_)) by eauto.
    unfold dgetE at 1. rewrite (proj2 (outt_get start (start, b))) by auto. cbn [bind].
    assert (G : goal start end_) by (unfold goal; destruct (Nat.eq_dec start end_); auto).
    destruct (walk_ok (S (length eoi)) start end_ G [] start b (dset [] start 0)) as (p' & u' & ixs' & W & T & I & Px); auto.
    { constructor.
      - exists []. split; [reflexivity|]. split; [intros []|]. intros D [J|[]]. congruence.
      - constructor; [intros []|constructor].
      - intros e [].
      - intros v [<-|[]]. exact Sc. }
    { intros v k. cbn [app]. destruct (Nat.eq_dec start v) as [<-|D].
      - rewrite dget_dset_same. destruct k as [|[|k]]; cbn; split; congruence.
      - rewrite dget_dset_other by exact D. destruct k as [|[|k]]; cbn; split; congruence. }
    { cbn. lia. }
    cbn [app length] in W. rewrite W. cbn [bind]. eexists _, _. split; [reflexivity|].
    destruct (tr_first _ _ _ T) as (r & Er & R1 & R2).
    pose proof (trail_all start end_ p' u' G T I) as A. split; [|split; [|split; [|split]]].
    + intros e J. rewrite hops_snoc in J. apply in_app_or in J. destruct J as [J|[<-|[]]]; [now apply (tr_hops _ _ _ T)|exact I].
    + intros v. split; [|apply A]. intros J. apply in_app_or in J. destruct J as [J|[<-|[]]]; [now apply (tr_in _ _ _ T)|exact Ec].
    + intros v V. apply A in V. destruct (Nat.eq_dec end_ v) as [<-|D].
      * rewrite dget_dset_same. eexists. split; [reflexivity|]. rewrite nth_error_app2 by lia. now rewrite Nat.sub_diag.
      * rewrite dget_dset_other by exact D. apply in_app_or in V. destruct V as [V|[V|[]]]; [|congruence].
        apply In_nth_error in V. destruct V as [k V]. exists k. split; [now apply Px|]. rewrite nth_error_app1; [exact V|].
        apply nth_error_Some. congruence.
    + intros _. exists r. rewrite Er. split; [reflexivity|]. split; [rewrite <- Er; apply T|]. split; [exact R1|].
      intros D. destruct r as [|x r]; [|left; discriminate]. right.
      destruct p' as [|y p']; cbn in Er; [injection Er as ->; exact I|]. injection Er as _ Er. destruct p'; discriminate.
    + contradiction.
  - assert (Oc : ~ In end_ c) by (destruct (Nat.eq_dec start end_) as [<-|D]; [exact Sc|rewrite <- Together; auto]).
    destruct (dmem outt start) eqn:Ms; [apply outt_mem in Ms; tauto|].
    assert (V0 : exists v0, In v0 c).
    { pose proof (cp_nonempty _ _ _ HC c Ic) as Nc. revert Nc. generalize c as l. intros [|v0 l] Nc; [congruence|]. exists v0. now left. }
    destruct V0 as [v0 V0].
    destruct (cv_out _ _ _ _ HE v0) as [b0 B0]; [eapply comp_range; eauto|left; intros ->; contradiction|].
    assert (Eeoi : exists e l, eoi = e :: l).
    { assert (J : In (v0, b0) eoi) by (apply eoi_In; auto). revert J. generalize eoi. intros [|e l] J; [destruct J|eauto]. }
    destruct Eeoi as ([x y] & eoi' & Eeoi).
    assert (Em : match eoi with [] => Err StopIteration | e :: _ => Ok (fst e) end = Ok x) by (rewrite Eeoi; reflexivity).
    rewrite Em.
    cbn [bind fst]. assert (J : In (x, y) eoi) by (rewrite Eeoi; now left). apply eoi_In in J. destruct J as [J Jc].
    destruct (dmem innn end_) eqn:Mi; [apply innn_mem in Mi; tauto|].
    unfold dgetE at 1. rewrite (proj2 (outt_get x (x, y))) by auto. cbn [bind].
    assert (G : goal x x) by (left; split; [reflexivity|right; exact Oc]).
    destruct (walk_ok (S (length eoi)) x x G [] x y (dset [] x 0)) as (p' & u' & ixs' & W & T & I & Px); auto.
    { constructor.
      - exists []. split; [reflexivity|]. split; [intros []|]. intros D. congruence.
      - constructor; [intros []|constructor].
      - intros e [].
      - intros v [<-|[]]. exact Jc. }
    { intros v k. cbn [app]. destruct (Nat.eq_dec x v) as [<-|D].
      - rewrite dget_dset_same. destruct k as [|[|k]]; cbn; split; congruence.
      - rewrite dget_dset_other by exact D. destruct k as [|[|k]]; cbn; split; congruence. }
    { cbn. lia. }
    cbn [app length] in W. rewrite W. cbn [bind]. eexists _, _. split; [reflexivity|].
    destruct (tr_first _ _ _ T) as (r & Er & R1 & R2).
    pose proof (trail_all x x p' u' G T I) as A.
    assert (A' : forall v, In v c -> In v (p' ++ [u'])).
    { intros v V. apply A in V. apply in_app_or in V. destruct V as [V|[<-|[]]]; [exact V|]. rewrite Er. now left. }
    split; [apply (tr_hops _ _ _ T)|]. split; [|split; [|split]].
    + intros v. split; [apply (tr_in _ _ _ T)|apply A'].
    + intros v V. apply A' in V. apply In_nth_error in V. destruct V as [k V]. exists k. split; [now apply Px|exact V].
    + contradiction.
    + intros _. apply T.
Qed.
End Walk.
