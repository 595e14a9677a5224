(** Proofs about the scheduling policies: what each method may return. *)
From Coq Require Import List Bool Arith ZArith QArith Lia Sorted Permutation.
From Verif Require Import Py PyList PyMore SchedModel SchedProofs SchedActProofs PolModel PolSpec.
Import ListNotations.
Open Scope Z_scope.

(** * Lists *)

Lemma filterM_pure : forall A (f : A -> res bool) l l', filterM f l = Ok l' ->
  l' = filter (fun x => match f x with Ok b => b | Err _ => false end) l /\
  forall x, In x l -> exists b, f x = Ok b.
Proof.
  intros A f. induction l as [|x l IH]; cbn [filterM filter]; intros l' H.
  - injection H as <-. split; [reflexivity|intros x []].
  - apply bind_ok in H. destruct H as [b [E H]]. apply bind_ok in H. destruct H as [r [F H]].
    destruct (IH _ F) as [-> IA]. rewrite E. injection H as <-. split; [now destruct b|].
    intros y [<-|I]; eauto.
Qed.

Lemma filterM_total : forall A (f : A -> res bool) l, (forall x, In x l -> exists b, f x = Ok b) ->
  filterM f l = Ok (filter (fun x => match f x with Ok b => b | Err _ => false end) l).
Proof.
  intros A f. induction l as [|x l IH]; cbn [filterM filter]; intros H; [reflexivity|].
  destruct (H x (or_introl eq_refl)) as [b E]. rewrite E. cbn [bind].
  rewrite IH by (intros; apply H; simpl; auto). cbn [bind]. now destruct b.
Qed.

Lemma indexed_In : forall l i j n, In (j, n) (indexed i l) <->
  exists k, j = i + Z.of_nat k /\ nth_error l k = Some n.
Proof.
  induction l as [|x l IH]; intros i j n; cbn [indexed In].
  - split; [tauto|]. intros [[|k] [_ H]]; discriminate.
  - rewrite IH. split.
    + intros [E|[k [E H]]].
      * injection E as <- <-. exists O. split; [lia|reflexivity].
      * exists (S k). split; [lia|assumption].
    + intros [[|k] [E H]].
      * left. injection H as ->. f_equal. lia.
      * right. exists k. split; [lia|assumption].
Qed.

Lemma indexed_sorted : forall l i, StronglySorted (fun a b => fst a < fst b) (indexed i l).
Proof.
  induction l as [|x l IH]; intros i; cbn [indexed]; constructor; auto.
  apply Forall_forall. intros [j n] I. apply indexed_In in I. destruct I as [k [-> _]]. cbn [fst]. lia.
Qed.

Lemma sorted_filter : forall A (R : A -> A -> Prop) f l, StronglySorted R l -> StronglySorted R (filter f l).
Proof.
  intros A R f l S. induction S as [|x l S IH F]; cbn [filter]; [constructor|].
  destruct (f x); auto. constructor; auto. apply Forall_forall. intros y I.
  apply filter_In in I. rewrite Forall_forall in F. apply F. tauto.
Qed.

Lemma sorted_split : forall A (R : A -> A -> Prop) l1 x l2, StronglySorted R (l1 ++ x :: l2) ->
  (forall y, In y l1 -> R y x) /\ (forall y, In y l2 -> R x y).
Proof.
  intros A R. induction l1 as [|z l1 IH]; cbn [app]; intros x l2 S; inversion S; subst.
  - split; [intros y []|]. now apply Forall_forall.
  - destruct (IH _ _ H1) as [P Q]. split; auto. intros y [<-|I]; auto.
    rewrite Forall_forall in H2. apply H2. apply in_app_iff. simpl; auto.
Qed.

Lemma map_split : forall A B (f : A -> B) l l1 y l2, map f l = l1 ++ y :: l2 ->
  exists k1 x k2, l = k1 ++ x :: k2 /\ map f k1 = l1 /\ f x = y /\ map f k2 = l2.
Proof.
  intros A B f l l1 y l2 E. apply map_eq_app in E. destruct E as [k1 [k2 [-> [E1 E2]]]].
  destruct k2 as [|x k2]; [discriminate|]. injection E2 as <- <-. eauto 10.
Qed.

Lemma filter_map : forall A B (f : A -> B) (g : B -> bool) l,
  filter g (map f l) = map f (filter (fun x => g (f x)) l).
Proof. intros A B f g. induction l as [|x l IH]; cbn; auto. destruct (g (f x)); cbn; congruence. Qed.

Lemma filter_filter : forall A (f g : A -> bool) l, filter f (filter g l) = filter (fun x => g x && f x) l.
Proof.
  intros A f g. induction l as [|x l IH]; cbn; auto. destruct (g x); cbn; [|auto].
  destruct (f x); congruence.
Qed.

Lemma find_filter : forall A (f : A -> bool) l, find f l = hd_error (filter f l).
Proof. intros A f. induction l as [|x l IH]; cbn; auto. destruct (f x); auto. Qed.

(** * Tasks that may be launched *)

Lemma preds_In : forall dm n m, In m (preds dm n) <-> exists l, In (m, l) (d_succ dm) /\ In n l.
Proof.
  intros dm n m. unfold preds. rewrite in_map_iff. split.
  - intros [[m' l] [E I]]. cbn [fst] in E. subst. apply filter_In in I. cbn [snd] in I.
    destruct I as [I P]. rewrite pymem_true in P. eauto.
  - intros [l [I J]]. exists (m, l). split; auto. apply filter_In. split; auto. cbn [snd].
    now rewrite pymem_true.
Qed.

Lemma launchable_In : forall dm st n, In n (launchable dm st) <->
  In n (s_remaining st) /\ forall m, In m (preds dm n) -> In m (s_complete st).
Proof.
  intros dm st n. unfold launchable. rewrite filter_In, forallb_forall. split; intros [A B]; split; auto.
  - intros m I. specialize (B m I). now rewrite pymem_true in B.
  - intros m I. rewrite pymem_true. auto.
Qed.

Lemma candidates_In : forall dm p st j n, In (j, n) (candidates dm p st) <->
  exists i, j = Z.of_nat i /\ nth_error (p_perm p) i = Some n /\ In n (launchable dm st).
Proof.
  intros dm p st j n. unfold candidates. rewrite filter_In, indexed_In. cbn [snd].
  rewrite andb_true_iff, !pymem_true. split.
  - intros [[k [-> E]] [_ L]]. exists k. auto.
  - intros [k [-> [E L]]]. split; [exists k; auto|]. split; auto. now apply launchable_In in L.
Qed.

Lemma candidates_sorted : forall dm p st, StronglySorted (fun a b => fst a < fst b) (candidates dm p st).
Proof. intros. apply sorted_filter, indexed_sorted. Qed.

Lemma candidates_not_done : forall dm p st,
  map snd (candidates dm p st) = filter (fun n => pymem n (launchable dm st)) (map snd (not_done p st)).
Proof.
  intros dm p st. unfold candidates, not_done. rewrite filter_map, filter_filter. reflexivity.
Qed.

(** * The loop *)

Section Loop.
Variables (dm : domain) (p : policy) (st : state).

Definition accepted (n : nat) (a : action) : Prop := start_of p n = Ok a /\ applicable dm st a = Ok true.
Definition refused (n : nat) : Prop := exists a, start_of p n = Ok a /\ applicable dm st a = Ok false.

Lemma refused_not : forall n a, refused n -> ~ accepted n a.
Proof. intros n a [b [A B]] [C D]. congruence. Qed.

Lemma first_applicable_spec : forall l a, first_applicable dm p st l = Ok a ->
  (a = time_act /\ forall n, In n l -> refused n) \/
  exists l1 n l2, l = l1 ++ n :: l2 /\ accepted n a /\ forall k, In k l1 -> refused k.
Proof.
  induction l as [|n l IH]; cbn [first_applicable]; intros a H.
  - injection H as <-. left. split; auto. intros n [].
  - apply bind_ok in H. destruct H as [b [E H]]. apply bind_ok in H. destruct H as [c [F H]].
    destruct c.
    + injection H as <-. right. exists [], n, l. split; auto. split; [split; auto|intros k []].
    + assert (R : refused n) by (exists b; auto).
      destruct (IH _ H) as [[-> A]|[l1 [k [l2 [-> [A B]]]]]].
      * left. split; auto. intros k [<-|I]; auto.
      * right. exists (n :: l1), k, l2. split; auto. split; auto. intros j [<-|I]; auto.
Qed.

Lemma first_applicable_ok : forall l, (forall n, In n l -> exists a b, start_of p n = Ok a /\ applicable dm st a = Ok b) ->
  exists a, first_applicable dm p st l = Ok a.
Proof.
  induction l as [|n l IH]; cbn [first_applicable]; intros H; [eauto|].
  destruct (H n (or_introl eq_refl)) as [a [b [E F]]]. rewrite E. cbn [bind]. rewrite F. cbn [bind].
  destruct b; eauto. apply IH. intros; apply H; simpl; auto.
Qed.

Lemma ready_loop_filter : forall possible l,
  ready_loop dm p st possible l = first_applicable dm p st (filter (fun n => pymem n possible) l).
Proof.
  intros possible. induction l as [|n l IH]; cbn [ready_loop filter]; auto.
  destruct (pymem n possible); cbn [first_applicable]; auto.
  destruct (start_of p n) as [a|e]; cbn [bind]; auto. destruct (applicable dm st a) as [b|e]; cbn [bind]; auto.
  destruct b; auto.
Qed.

(** A task refused once is refused again. *)
Lemma first_applicable_dup : forall n l,
  first_applicable dm p st (n :: filter (fun k => negb (Nat.eqb k n)) l) = first_applicable dm p st (n :: l).
Proof.
  intros n l. cbn [first_applicable].
  destruct (start_of p n) as [a|e] eqn:E; cbn [bind]; auto.
  destruct (applicable dm st a) as [b|e] eqn:F; cbn [bind]; auto. destruct b; auto.
  induction l as [|k l IH]; cbn [filter first_applicable]; auto.
  destruct (Nat.eqb_spec k n) as [->|N]; cbn [negb first_applicable].
  - rewrite E. cbn [bind]. rewrite F. cbn [bind]. exact IH.
  - destruct (start_of p k) as [a'|e']; cbn [bind]; auto.
    destruct (applicable dm st a') as [b'|e']; cbn [bind]; auto. destruct b'; auto.
Qed.
End Loop.

(** * The same method under two names *)

Lemma filter_neq_tail : forall n (g : nat -> bool) l l', l = n :: l' -> g n = true ->
  filter (fun k => negb (Nat.eqb k n) && g k) l = filter (fun k => negb (Nat.eqb k n)) (filter g l').
Proof.
  intros n g l l' -> G. cbn [filter]. rewrite Nat.eqb_refl. cbn [negb andb].
  rewrite filter_filter. apply filter_ext. intros k. apply andb_comm.
Qed.

Lemma filter_and_l : forall A (f g : A -> bool) l, filter (fun x => f x && g x) l = filter g (filter f l).
Proof. intros. now rewrite filter_filter. Qed.

Lemma precedence_shape : forall dm p st n cs i, candidates dm p st = (i, n) :: cs ->
  find (fun n => pymem n (launchable dm st)) (map snd (not_done p st)) = Some n.
Proof.
  intros dm p st n cs i E. rewrite find_filter, <- candidates_not_done, E. reflexivity.
Qed.

Lemma precedence_none : forall dm p st, candidates dm p st = [] ->
  find (fun n => pymem n (launchable dm st)) (map snd (not_done p st)) = None.
Proof. intros dm p st E. rewrite find_filter, <- candidates_not_done, E. reflexivity. Qed.

Definition at_date (sch : list (nat * Z)) (t0 : Z) (k : nat) : bool :=
  match dget sch k with Some t => t =? t0 | None => false end.

Lemma precedence_strict : forall dm p st a, precedence_ready dm p st = Ok a -> strict dm p st = Ok a.
Proof.
  intros dm p st a H. unfold precedence_ready in H. unfold strict.
  pose proof (candidates_not_done dm p st) as CN.
  destruct (candidates dm p st) as [|[i n] cs] eqn:C.
  - rewrite (precedence_none dm p st C) in H. exact H.
  - rewrite (precedence_shape dm p st n cs i C) in H.
    apply bind_ok in H. destruct H as [others [O H]].
    destruct (p_sched p) as [sch|] eqn:SC.
    + apply bind_ok in O. destruct O as [t0 [T O]]. rewrite T. cbn [bind].
      apply filterM_pure in O. destruct O as [EO AO].
      assert (IN : forall k, In k (map snd ((i, n) :: cs)) -> exists t, dget sch k = Some t).
      { intros k I. rewrite CN in I. apply filter_In in I. destruct I as [I _].
        destruct (Nat.eqb_spec k n) as [->|N].
        - exists t0. now apply dgetE_ok.
        - destruct (AO k I) as [b B]. cbv beta in B. destruct (Nat.eqb_spec k n); [contradiction|].
          apply bind_ok in B. destruct B as [t [B _]]. exists t. now apply dgetE_ok. }
      rewrite (filterM_total _ _ (map snd ((i, n) :: cs))).
      2:{ intros k I. destruct (IN k I) as [t E]. unfold dgetE. rewrite E. cbn [bind]. eauto. }
      cbn [bind].
      assert (E2 : filter (fun x => match (let* t := dgetE sch x in Ok (t =? t0)) with Ok b => b | Err _ => false end)
                     (map snd ((i, n) :: cs)) = n :: filter (at_date sch t0) (map snd cs)).
      { cbn [map snd filter]. rewrite T. cbn [bind]. rewrite Z.eqb_refl. f_equal.
        apply filter_ext. intros k. unfold at_date, dgetE. destruct (dget sch k); reflexivity. }
      rewrite E2, <- first_applicable_dup.
      assert (E3 : others = filter (fun k => negb (Nat.eqb k n)) (filter (at_date sch t0) (map snd cs))).
      { rewrite EO.
        rewrite <- (filter_neq_tail n (at_date sch t0) (map snd ((i, n) :: cs)) (map snd cs)); auto.
        2:{ unfold at_date. apply dgetE_ok in T. rewrite T. apply Z.eqb_refl. }
        rewrite CN, filter_filter. apply filter_ext. intros k.
        destruct (Nat.eqb k n); cbn [negb andb]; [now rewrite andb_false_r|].
        unfold at_date, dgetE. destruct (dget sch k) as [t|]; cbn [bind]; [apply andb_comm|].
        now rewrite andb_false_r. }
      rewrite <- E3. exact H.
    + injection O as <-. cbn [bind]. exact H.
Qed.

(** The schedule gives a date to every remaining task of the permutation. *)
Definition dated (p : policy) (st : state) : Prop :=
  match p_sched p with
  | None => True
  | Some sch => forall n, In n (p_perm p) -> In n (s_remaining st) -> exists t, dget sch n = Some t
  end.

Lemma not_done_In : forall p st n, In n (map snd (not_done p st)) <-> In n (p_perm p) /\ In n (s_remaining st).
Proof.
  intros p st n. unfold not_done. rewrite in_map_iff. split.
  - intros [[i k] [E I]]. cbn [snd] in E. subst. apply filter_In in I. cbn [snd] in I. destruct I as [I P].
    rewrite pymem_true in P. split; auto. apply indexed_In in I. destruct I as [j [_ I]].
    eapply nth_error_In; eauto.
  - intros [I R]. apply In_nth_error in I. destruct I as [j I]. exists (0 + Z.of_nat j, n). split; auto.
    apply filter_In. cbn [snd]. rewrite pymem_true. split; auto. apply indexed_In. eauto.
Qed.

Lemma precedence_strict_eq : forall dm p st, dated p st -> precedence_ready dm p st = strict dm p st.
Proof.
  intros dm p st DA. destruct (precedence_ready dm p st) as [a|e] eqn:E.
  - symmetry. now apply precedence_strict.
  - unfold precedence_ready in E. unfold strict.
    pose proof (candidates_not_done dm p st) as CN.
    destruct (candidates dm p st) as [|[i n] cs] eqn:C.
    { rewrite (precedence_none dm p st C) in E. discriminate. }
    rewrite (precedence_shape dm p st n cs i C) in E.
    unfold dated in DA. destruct (p_sched p) as [sch|]; [|cbn [bind] in *; auto].
    assert (IN : forall k, In k (map snd (not_done p st)) -> exists t, dget sch k = Some t).
    { intros k I. apply not_done_In in I. apply DA; tauto. }
    assert (SUB : forall k, In k (map snd ((i, n) :: cs)) -> In k (map snd (not_done p st))).
    { intros k I. rewrite CN in I. apply filter_In in I. tauto. }
    destruct (IN n) as [t0 T]; [apply SUB; simpl; auto|].
    assert (T' : dgetE sch n = Ok t0) by (now apply dgetE_ok). rewrite T' in *. cbn [bind] in *.
    rewrite filterM_total in E.
    2:{ intros k I. destruct (Nat.eqb k n); [eauto|]. destruct (IN k I) as [t F]. unfold dgetE. rewrite F. cbn [bind]. eauto. }
    rewrite filterM_total.
    2:{ intros k I. destruct (IN k (SUB k I)) as [t F]. unfold dgetE. rewrite F. cbn [bind]. eauto. }
    cbn [bind] in *.
    assert (E2 : filter (fun x => match (let* t := dgetE sch x in Ok (t =? t0)) with Ok b => b | Err _ => false end)
                   (map snd ((i, n) :: cs)) = n :: filter (at_date sch t0) (map snd cs)).
    { cbn [map snd filter]. rewrite T'. cbn [bind]. rewrite Z.eqb_refl. f_equal.
      apply filter_ext. intros k. unfold at_date, dgetE. destruct (dget sch k); reflexivity. }
    rewrite E2, <- first_applicable_dup, <- E. f_equal. f_equal.
    rewrite <- (filter_neq_tail n (at_date sch t0) (map snd ((i, n) :: cs)) (map snd cs)); auto.
    2:{ unfold at_date. rewrite T. apply Z.eqb_refl. }
    rewrite CN, filter_filter. apply filter_ext. intros k.
    destruct (Nat.eqb k n); cbn [negb andb]; [now rewrite andb_false_r|].
    unfold at_date, dgetE. destruct (dget sch k) as [t|]; cbn [bind]; [apply andb_comm|].
    now rewrite andb_false_r.
Qed.

Lemma time_freedom_strict : forall dm p st, p_delta_time p = 0 -> time_freedom dm p st = strict dm p st.
Proof.
  intros dm p st D. unfold time_freedom, strict. destruct (candidates dm p st) as [|[i n] cs]; auto.
  destruct (p_sched p) as [sch|]; auto. destruct (dgetE sch n) as [t0|e]; cbn [bind]; auto.
  rewrite D. f_equal. generalize (map snd ((i, n) :: cs)). induction l as [|k l IH]; cbn [filterM]; auto.
  destruct (dgetE sch k) as [t|e]; cbn [bind]; auto. rewrite IH.
  replace ((t0 <=? t) && (t <=? t0 + 0)) with (t =? t0); auto.
  destruct (Z.eqb_spec t t0), (Z.leb_spec t0 t), (Z.leb_spec t (t0 + 0)); auto; lia.
Qed.

Lemma index_freedom_ready : forall dm p st, Z.of_nat (length (p_perm p)) <= p_delta_index p + 1 ->
  index_freedom dm p st = first_ready dm p st.
Proof.
  intros dm p st D. unfold index_freedom, first_ready. rewrite ready_loop_filter, <- candidates_not_done.
  destruct (candidates dm p st) as [|[i0 n0] cs] eqn:C; [reflexivity|].
  rewrite (filter_all _ (fun x : Z * nat => fst x <=? i0 + p_delta_index p)); [reflexivity|].
  intros [j k] I. cbn [fst]. rewrite <- C in I. apply candidates_In in I. destruct I as [x [-> [N _]]].
  assert (J : In (i0, n0) (candidates dm p st)) by (rewrite C; simpl; auto).
  apply candidates_In in J. destruct J as [y [-> [M _]]].
  assert (x < length (p_perm p))%nat by (apply nth_error_Some; congruence).
  apply Z.leb_le. lia.
Qed.

(** * The choice of each method *)

(** Every SGS method takes the first accepted task of a sublist of the candidates. *)
Lemma sgs_shape : forall dm p st a, sgs (p_method p) -> next_action dm p st = Ok a ->
  (candidates dm p st = [] /\ a = time_act) \/
  exists i0 n0 cs w, candidates dm p st = (Z.of_nat i0, n0) :: cs /\
    first_applicable dm p st (map snd w) = Ok a /\
    StronglySorted (fun x y => fst x < fst y) w /\
    incl w (candidates dm p st) /\
    forall i n, In (Z.of_nat i, n) w <-> In (Z.of_nat i, n) (candidates dm p st) /\ in_window p i0 n0 i n.
Proof.
  intros dm p st a [NG NP] H. unfold next_action in H.
  assert (H' : (p_method p = SGS_READY /\ first_ready dm p st = Ok a) \/
               ((p_method p = SGS_STRICT \/ p_method p = SGS_PRECEDENCE) /\ strict dm p st = Ok a) \/
               (p_method p = SGS_TIME_FREEDOM /\ time_freedom dm p st = Ok a) \/
               (p_method p = SGS_INDEX_FREEDOM /\ index_freedom dm p st = Ok a)).
  { destruct (p_method p); try congruence; auto. right. left. split; auto. now apply precedence_strict. }
  clear H NG NP.
  pose proof (candidates_sorted dm p st) as SO.
  pose proof (fun j k => proj1 (candidates_In dm p st j k)) as CI.
  destruct H' as [[M H]|[[M H]|[[M H]|[M H]]]].
  - unfold first_ready in H. rewrite ready_loop_filter, <- candidates_not_done in H.
    destruct (candidates dm p st) as [|[j n0] cs] eqn:C; [left; cbn in H; injection H as <-; auto|right].
    destruct (CI j n0 (or_introl eq_refl)) as [i0 [-> _]].
    exists i0, n0, cs, ((Z.of_nat i0, n0) :: cs). split; auto. split; auto. split; auto. split; [apply incl_refl|].
    intros i n. unfold in_window. rewrite M. tauto.
  - unfold strict in H. destruct (candidates dm p st) as [|[j n0] cs] eqn:C; [left; injection H as <-; auto|right].
    destruct (CI j n0 (or_introl eq_refl)) as [i0 [-> _]].
    apply bind_ok in H. destruct H as [l [L H]].
    destruct (p_sched p) as [sch|] eqn:SC.
    + apply bind_ok in L. destruct L as [t0 [T L]]. apply filterM_pure in L. destruct L as [-> LA].
      rewrite filter_map in H. eexists i0, n0, cs, _. split; [reflexivity|]. split; [exact H|].
      split; [now apply sorted_filter|]. split; [intros x J; apply filter_In in J; tauto|]. intros i n. rewrite filter_In. cbn [snd].
      assert (W : in_window p i0 n0 i n <-> exists t, dget sch n0 = Some t /\ dget sch n = Some t).
      { unfold in_window. destruct M as [-> | ->]; rewrite SC; reflexivity. }
      rewrite W. apply dgetE_ok in T. unfold dgetE. rewrite T. split.
      * intros [A B]. split; auto. destruct (dget sch n) as [t|]; cbn [bind] in B; [|discriminate].
        apply Z.eqb_eq in B. subst. eauto.
      * intros [A [t [B1 B2]]]. split; auto. rewrite B2. cbn [bind]. injection B1 as ->. apply Z.eqb_refl.
    + injection L as <-. exists i0, n0, cs, [(Z.of_nat i0, n0)]. split; auto. split; auto.
      split; [repeat constructor|]. split; [intros x [<-|[]]; simpl; auto|]. intros i n.
      assert (W : in_window p i0 n0 i n <-> i = i0).
      { unfold in_window. destruct M as [-> | ->]; rewrite SC; reflexivity. }
      rewrite W. cbn [In]. split.
      * intros [E|[]]. injection E as E1 <-. assert (i = i0) by lia. subst. auto.
      * intros [[E|I] ->]; [auto|]. exfalso. inversion SO; subst. rewrite Forall_forall in H3.
        specialize (H3 _ I). cbn [fst] in H3. lia.
  - unfold time_freedom in H. destruct (candidates dm p st) as [|[j n0] cs] eqn:C; [left; injection H as <-; auto|right].
    destruct (CI j n0 (or_introl eq_refl)) as [i0 [-> _]].
    apply bind_ok in H. destruct H as [l [L H]].
    destruct (p_sched p) as [sch|] eqn:SC.
    + apply bind_ok in L. destruct L as [t0 [T L]]. apply filterM_pure in L. destruct L as [-> LA].
      rewrite filter_map in H. eexists i0, n0, cs, _. split; [reflexivity|]. split; [exact H|].
      split; [now apply sorted_filter|]. split; [intros x J; apply filter_In in J; tauto|]. intros i n. rewrite filter_In. cbn [snd].
      unfold in_window. rewrite M, SC. apply dgetE_ok in T. unfold dgetE. rewrite T. split.
      * intros [A B]. split; auto. destruct (dget sch n) as [t|]; cbn [bind] in B; [|discriminate].
        apply andb_true_iff in B. exists t0, t. split; auto. split; auto. lia.
      * intros [A [t0' [t [B1 [B2 B3]]]]]. split; auto. rewrite B2. cbn [bind]. injection B1 as <-.
        apply andb_true_iff. lia.
    + injection L as <-. exists i0, n0, cs, [(Z.of_nat i0, n0)]. split; auto. split; auto.
      split; [repeat constructor|]. split; [intros x [<-|[]]; simpl; auto|]. intros i n. unfold in_window. rewrite M, SC. cbn [In]. split.
      * intros [E|[]]. injection E as E1 <-. assert (i = i0) by lia. subst. auto.
      * intros [[E|I] ->]; [auto|]. exfalso. inversion SO; subst. rewrite Forall_forall in H3.
        specialize (H3 _ I). cbn [fst] in H3. lia.
  - unfold index_freedom in H. destruct (candidates dm p st) as [|[j n0] cs] eqn:C; [left; injection H as <-; auto|right].
    destruct (CI j n0 (or_introl eq_refl)) as [i0 [-> _]].
    eexists i0, n0, cs, _. split; [reflexivity|]. split; [exact H|].
    split; [now apply sorted_filter|]. split; [intros x J; apply filter_In in J; tauto|]. intros i n. rewrite filter_In. cbn [fst].
    unfold in_window. rewrite M. rewrite Z.leb_le. tauto.
Qed.

(** * FOLLOW_GANTT *)

Lemma store_In : forall (sch : list (nat * Z)) (d : list (Z * list nat)) t l n,
  dget (fold_left (fun d e => dset d (snd e) (set_add (fst e)
           (match dget d (snd e) with Some l => l | None => [] end))) sch d) t = Some l ->
  In n l -> In (n, t) sch \/ exists l', dget d t = Some l' /\ In n l'.
Proof.
  induction sch as [|[k a] sch IH]; cbn [fold_left]; intros d t l n H I; [eauto|].
  destruct (IH _ _ _ _ H I) as [J|[l' [J1 J2]]]; [simpl; auto|]. cbn [fst snd] in J1.
  rewrite dget_dset in J1. destruct (pyeqb_spec a t) as [->|N].
  - injection J1 as <-. apply set_add_In in J2. destruct J2 as [->|J2]; [simpl; auto|].
    destruct (dget d t); [right; eauto|destruct J2].
  - right. eauto.
Qed.

Lemma store_has : forall (sch : list (nat * Z)) (d : list (Z * list nat)) t n, In (n, t) sch \/ (exists l', dget d t = Some l' /\ In n l') ->
  exists l, dget (fold_left (fun d e => dset d (snd e) (set_add (fst e)
           (match dget d (snd e) with Some l => l | None => [] end))) sch d) t = Some l /\ In n l.
Proof.
  induction sch as [|[k a] sch IH]; cbn [fold_left]; intros d t n H.
  - destruct H as [[]|H]. exact H.
  - apply IH. cbn [fst snd]. destruct H as [[E|H]|[l' [H1 H2]]]; [|auto|].
    + injection E as <- <-. right. eexists. rewrite dget_dset_same. split; [reflexivity|].
      apply set_add_In. auto.
    + right. rewrite dget_dset. destruct (pyeqb_spec a t) as [->|N]; [|eauto].
      eexists. split; [reflexivity|]. apply set_add_In. rewrite H1. auto.
Qed.

Lemma store_spec : forall p sch t, p_sched p = Some sch ->
  (forall l, dget (store_start_date p) t = Some l -> forall n, In n l -> In (n, t) sch) /\
  (forall n, In (n, t) sch -> exists l, dget (store_start_date p) t = Some l /\ In n l).
Proof.
  intros p sch t E. unfold store_start_date. rewrite E. split.
  - intros l H n I. destruct (store_In _ _ _ _ _ H I) as [J|[l' [J _]]]; [auto|discriminate].
  - intros n I. apply store_has. auto.
Qed.

Lemma gantt_spec : forall dm p st a, (forall l x, In x (p_order p l) -> In x l) ->
  follow_gantt dm p st = Ok a ->
  a = time_act \/ exists n sch, p_sched p = Some sch /\ In (n, s_t st) sch /\
    In n (launchable dm st) /\ accepted dm p st n a.
Proof.
  intros dm p st a OR H. unfold follow_gantt in H. apply bind_ok in H. destruct H as [b [B H]].
  apply bind_ok in H. destruct H as [c [C H]]. destruct c; [|injection H as <-; auto].
  injection H as <-.
  destruct (p_sched p) as [sch|] eqn:SC.
  2:{ left. unfold store_start_date in B. rewrite SC in B. now injection B as <-. }
  destruct (dget (store_start_date p) (s_t st)) as [ts|] eqn:D; [|left; now injection B as <-].
  destruct (filter _ _) as [|n r] eqn:F in B; [left; now injection B as <-|].
  assert (I : In n (n :: r)) by (simpl; auto). rewrite <- F in I. apply filter_In in I.
  destruct I as [I P]. rewrite !andb_true_iff in P. destruct P as [_ P]. rewrite pymem_true in P.
  right. exists n, sch. split; auto. split.
  - destruct (store_spec p sch (s_t st) SC) as [S1 _]. eapply S1; eauto.
  - split; auto. split; auto.
Qed.

(** * A START that was accepted works *)

Lemma accepted_start_works : forall dm p st n a dur q, WF st -> DR st -> In n (s_remaining st) ->
  accepted dm p st n a ->
  exists m rtu u s, dget (p_modes p) n = Some m /\ next_state dm dur q st a = Ok s /\
    get_resource_used dm n m (a_units a) 0 = Ok rtu /\ enough st rtu = Ok true /\ add_used rtu (s_used st) = Ok u /\
    s = (if dur =? 0 then st_dummy st n m task0 rtu u else st_start st n m task0 rtu u dur).
Proof.
  intros dm p st n a dur q W D I [SO AP]. destruct (wf_sep _ W) as [D1 _].
  unfold start_of in SO. apply bind_ok in SO. destruct SO as [m [M SO]]. apply dgetE_ok in M.
  injection SO as <-. set (un := match p_alloc p with Some d => dget d n | None => None end) in *.
  pose proof (dr_rem _ D n I) as DN.
  unfold applicable in AP. cbn [a_kind] in AP. apply bind_ok in AP. destruct AP as [[b rtu] [CS AP]].
  cbn [fst] in AP. injection AP as ->.
  assert (CS' := CS). unfold can_start, act_task, act_mode in CS'. cbn [a_task a_mode a_units bind] in CS'.
  unfold dgetE at 1 in CS'. rewrite DN in CS'. cbn [bind active_time task0 tk_end tk_start] in CS'.
  apply bind_ok in CS'. destruct CS' as [rtu' [GR CS']]. apply bind_ok in CS'. destruct CS' as [ok [EN CS']].
  assert (ok = true /\ rtu' = rtu) as [-> ->].
  { destruct ok; [|discriminate]. split; auto. apply bind_ok in CS'. destruct CS' as [b [_ CS']]. congruence. }
  destruct (add_used_ok rtu (s_used st)) as [u U].
  { intros r J. apply in_map_iff in J. destruct J as [[r' x] [E J]]. cbn [fst] in E. subst.
    pose proof (allM_In _ _ _ EN _ J) as F. cbn [fst snd] in F. apply bind_ok in F. destruct F as [av [_ F]].
    apply bind_ok in F. destruct F as [us [F _]]. apply dgetE_ok in F. eapply dget_key; eauto. }
  exists m, rtu, u, (if dur =? 0 then st_dummy st n m task0 rtu u else st_start st n m task0 rtu u dur).
  cbn [a_units]. split; auto. split; [|auto].
  destruct (D1 _ I) as [X1 [X2 X3]].
  unfold next_state. unfold update_pause, update_resume. cbn [a_kind bind].
  unfold update_start. cbn [a_kind]. rewrite CS. cbn [bind fst snd]. unfold act_task, act_mode. cbn [a_task a_mode bind].
  unfold do_start. rewrite (set_remove_in n _ I). cbn [bind]. unfold dgetE at 1. rewrite DN. cbn [bind].
  rewrite U. cbn [bind]. rewrite (set_add_fresh _ _ X1).
  unfold update_dummy. cbn [a_kind]. unfold act_task. cbn [a_task bind s_details].
  unfold dgetE at 1. rewrite dget_dset_same. cbn [bind tk_dur].
  unfold update_time, update_avail. cbn [a_tp].
  destruct (Z.eqb_spec dur 0) as [ -> |ND].
  - cbn [s_ongoing s_complete s_held s_progress s_details s_remaining s_t s_paused s_mode s_avail s_used s_conds].
    rewrite (set_remove_in n (s_ongoing st ++ [n])) by (apply in_app_iff; simpl; auto).
    rewrite (pyremove_app_fresh _ _ X1), (set_add_fresh _ _ X2). cbn [bind].
    unfold dgetE. rewrite dget_dset_same. cbn [bind].
    rewrite !dset_dset. cbn [tk_start tk_paused tk_resumed tk_resources].
    rewrite ddel_dset_fresh by (intros J; apply (wf_held_ong _ W) in J; contradiction).
    reflexivity.
  - destruct dur; [contradiction| |]; cbn [bind]; reflexivity.
Qed.
