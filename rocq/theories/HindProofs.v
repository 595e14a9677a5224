(** Proofs about hindsight planning. *)
From Coq Require Import List Bool QArith Lia Lqa.
From Verif Require Import Py PyList HindModel HindSpec.
Import ListNotations.
Open Scope nat_scope.

Section Any.
Context {S A K : Type} {ES : PyEq S} {EA : PyEq A} {EK : PyEq K}.
Variable keys : list K.
Variable cost : K -> S -> Q.
Variable act : K -> S -> A.
Variable next : K -> S -> A -> S.
Variable trans : K -> S -> A -> S -> Q.
Variable w : K -> Q.
Variable reuse : bool.
Variable arrange : list A -> list A.
Hypothesis Hk : NoDup keys.
Hypothesis Ha : forall l, NoDup (arrange l) /\ forall a, In a (arrange l) <-> In a l.

Notation state := (@state S A K).
Notation first_turn := (first_turn cost act w).
Notation missing := (missing keys reuse).
Notation first_pass := (first_pass keys cost act w reuse).
Notation look := (look cost act next trans w reuse).
Notation proposals := (proposals arrange).
Notation to_do := (to_do keys arrange).
Notation second_pass := (second_pass keys cost act next trans w reuse arrange).
Notation give_first_action := (give_first_action keys cost act next trans w reuse arrange).
Notation calls := (calls keys cost act next trans w reuse arrange).
Notation worth := (worth cost act next trans).
Notation total := (total keys cost act next trans w).

Definition rsum (qs : list ((S * A * K) * Q)) (s : S) (a : A) : Q :=
  fold_right Qplus 0%Q (map (fun k => match dget qs (s, a, k) with Some v => (v * w k)%Q | None => 0%Q end) keys).

Lemma rsum_other : forall qs s a s' a' k v, (s', a') <> (s, a) -> rsum (dset qs (s', a', k) v) s a = rsum qs s a.
Proof.
  intros. unfold rsum. f_equal. apply map_ext. intros x. rewrite dget_dset_other; auto. congruence.
Qed.

Lemma rsum_add : forall qs s a k v, In k keys -> dget qs (s, a, k) = None ->
  (rsum (dset qs (s, a, k) v) s a == rsum qs s a + v * w k)%Q.
Proof.
  intros qs s a k v I N. unfold rsum. revert I Hk. induction keys as [|x l IH]; [intros []|].
  intros I D. apply NoDup_cons_iff in D as (D1 & D2). cbn [map fold_right].
  rewrite dget_dset. destruct (pyeqb_spec (s, a, k) (s, a, x)) as [E|E].
  - injection E as ->. rewrite N.
    replace (map (fun k => match dget (dset qs (s, a, x) v) (s, a, k) with Some v0 => (v0 * w k)%Q | None => 0%Q end) l)
      with (map (fun k => match dget qs (s, a, k) with Some v0 => (v0 * w k)%Q | None => 0%Q end) l).
    + ring.
    + apply map_ext_in. intros y Iy. rewrite dget_dset_other; auto. intros E. injection E as ->. auto.
  - destruct I as [->|I]; [congruence|]. rewrite (IH I D2). ring.
Qed.

Lemma rsum_total : forall qs s a, (forall k, In k keys -> dget qs (s, a, k) = Some (worth k s a)) -> rsum qs s a = total s a.
Proof.
  intros qs s a H. unfold rsum, HindSpec.total. f_equal. apply map_ext_in. intros k I. now rewrite H.
Qed.

(** * The order of the least *)
Lemma least_ok : forall l a v, least (A := A) l = Some (a, v) -> In (a, v) l /\ forall b u, In (b, u) l -> (v <= u)%Q.
Proof.
  induction l as [|[b u] l IH]; intros a v E; [discriminate|]. cbn in E.
  destruct (least l) as [[b' u']|] eqn:El.
  - destruct (IH _ _ eq_refl) as (I & L). destruct (Qle_bool u u') eqn:Q; injection E as <- <-.
    + apply Qle_bool_iff in Q. split; [now left|]. intros c x [E|I']; [injection E as <- <-; apply Qle_refl|].
      eapply Qle_trans; eauto.
    + split; [now right|]. intros c x [E|I']; [injection E as <- <-|eauto].
      destruct (Qlt_le_dec u' u) as [H|H]; [now apply Qlt_le_weak|]. apply Qle_bool_iff in H. congruence.
  - destruct l as [|[c x] l]; [|cbn in El; destruct (least l) as [[]|]; [destruct (Qle_bool _ _)|]; discriminate].
    injection E as <- <-. split; [now left|]. intros c x [E|[]]. injection E as <- <-. apply Qle_refl.
Qed.

Lemma least_some : forall l : list (A * Q), l <> [] -> exists av, least l = Some av.
Proof.
  intros [|[a v] l] N; [congruence|]. cbn. destruct (least l) as [[b u]|]; [destruct (Qle_bool v u)|]; eauto.
Qed.

(** * What is known of one state *)
Record ok (st : state) (s : S) : Prop := Ok_ {
  o_rec : forall a k v, dget (h_qs st) (s, a, k) = Some v -> v = worth k s a /\ dget (h_planned st) (s, k) <> None /\
    dget (h_q st) (s, a) <> None;
  o_plan : forall k, dget (h_planned st) (s, k) <> None ->
    dget (h_acts st) (s, k) = Some (act k s) /\ dget (h_qs st) (s, act k s, k) <> None;
  o_acts : forall k a, dget (h_acts st) (s, k) = Some a ->
    a = act k s /\ In k keys /\ dget (h_planned st) (s, k) <> None /\ dget (h_q st) (s, a) <> None;
  o_sum : forall a v, dget (h_q st) (s, a) = Some v -> (v == rsum (h_qs st) s a)%Q;
  o_q : forall a, dget (h_q st) (s, a) <> None -> exists k, dget (h_acts st) (s, k) = Some a
}.

Definition tidy (st : state) : Prop := NoDup (dkeys (h_q st)) /\ NoDup (dkeys (h_acts st)).

Lemma ok_empty : forall s, ok empty s.
Proof. intros s. split; cbn; try discriminate; try congruence; intros; exfalso; auto. Qed.

Lemma tidy_empty : tidy empty.
Proof. split; constructor. Qed.

Lemma add_q_NoDup : forall q (s : S) (a : A) x, NoDup (dkeys q) -> NoDup (dkeys (add_q q s a x)).
Proof. intros. unfold add_q. destruct (dget q (s, a)); apply NoDup_dset; auto. Qed.

Lemma add_q_other : forall q (s : S) (a : A) x s' a', (s, a) <> (s', a') -> dget (add_q q s a x) (s', a') = dget q (s', a').
Proof. intros. unfold add_q. destruct (dget q (s, a)); apply dget_dset_other; auto. Qed.

Lemma add_q_same : forall q (s : S) (a : A) x, exists v0, dget (add_q q s a x) (s, a) = Some (v0 + x)%Q /\
  (dget q (s, a) = Some v0 \/ dget q (s, a) = None /\ v0 = 0%Q).
Proof.
  intros. unfold add_q. destruct (dget q (s, a)) as [v|]; [exists v|exists 0%Q]; rewrite dget_dset_same; auto.
Qed.

Lemma tidy_first : forall s st k, tidy st -> tidy (first_turn s st k).
Proof. intros s st k (A1 & A2). split; cbn; [now apply add_q_NoDup|now apply NoDup_dset]. Qed.

Lemma tidy_look : forall s st ka st', tidy st -> look s st ka = Ok st' -> tidy st'.
Proof.
  intros s st [k a] st' (A1 & A2) E. cbn in E. apply bind_ok in E as (v & _ & E). injection E as <-. split; cbn.
  - apply NoDup_dset. destruct reuse; auto. now apply add_q_NoDup.
  - destruct reuse; auto. now apply NoDup_dset.
Qed.

Lemma worth_own : forall k s, worth k s (act k s) = cost k s.
Proof. intros. unfold HindSpec.worth. now rewrite pyeqb_refl. Qed.

(** Another state is not concerned. *)
Definition unchanged (s : S) (st st' : state) : Prop :=
  (forall a, dget (h_q st') (s, a) = dget (h_q st) (s, a)) /\
  (forall a k, dget (h_qs st') (s, a, k) = dget (h_qs st) (s, a, k)) /\
  (forall k, dget (h_planned st') (s, k) = dget (h_planned st) (s, k)) /\
  (forall k, dget (h_acts st') (s, k) = dget (h_acts st) (s, k)).

Lemma unchanged_ok : forall s st st', unchanged s st st' -> ok st s -> ok st' s.
Proof.
  intros s st st' (Q & R & P & C) [O1 O2 O3 O4 O5]. split.
  - intros a k v. rewrite R, P, Q. apply O1.
  - intros k. rewrite P, C, R. apply O2.
  - intros k a. rewrite C, P, Q. apply O3.
  - intros a v. rewrite Q. intros E. rewrite (O4 _ _ E). unfold rsum.
    replace (map (fun k => match dget (h_qs st') (s, a, k) with Some v0 => (v0 * w k)%Q | None => 0%Q end) keys)
      with (map (fun k => match dget (h_qs st) (s, a, k) with Some v0 => (v0 * w k)%Q | None => 0%Q end) keys); [reflexivity|].
    apply map_ext. intros k. now rewrite R.
  - intros a. rewrite Q. intros H. destruct (O5 a H) as (k & E). exists k. now rewrite C.
Qed.

(** A plan for scenario [k] from state [t] is put down: the first pass, and the end of a step ahead. *)
Definition put_plan (t : S) (k : K) (st : state) : state := first_turn t st k.

Lemma put_plan_other : forall t k st u, u <> t -> unchanged u st (put_plan t k st).
Proof.
  intros t k st u N. unfold put_plan, HindModel.first_turn. repeat split; cbn; intros;
    [rewrite add_q_other by congruence|rewrite dget_dset_other by congruence|rewrite dget_dset_other by congruence|rewrite dget_dset_other by congruence]; auto.
Qed.

Lemma put_plan_ok : forall t k st, In k keys -> ok st t -> dget (h_planned st) (t, k) = None -> ok (put_plan t k st) t.
Proof.
  intros t k st I O Np. assert (Nr : forall a, dget (h_qs st) (t, a, k) = None).
  { intros a. destruct (dget (h_qs st) (t, a, k)) eqn:E; auto. destruct (o_rec _ _ O _ _ _ E) as (_ & H & _). congruence. }
  destruct O as [O1 O2 O3 O4 O5]. unfold put_plan, HindModel.first_turn. split; cbn.
  - intros a k' v. rewrite !dget_dset. destruct (pyeqb_spec (t, act k t, k) (t, a, k')) as [E|E].
    + injection E as <- <-. intros E. injection E as <-. rewrite worth_own, pyeqb_refl. split; auto. split; [discriminate|].
      destruct (add_q_same (h_q st) t (act k t) (cost k t * w k)%Q) as (v0 & E & _). rewrite E. discriminate.
    + intros E'. destruct (O1 _ _ _ E') as (B & C & D). split; auto. split; [destruct (pyeqb (t, k) (t, k')); auto; discriminate|].
      destruct (pyeqb_spec a (act k t)) as [->|N].
      * destruct (add_q_same (h_q st) t (act k t) (cost k t * w k)%Q) as (v0 & E2 & _). rewrite E2. discriminate.
      * rewrite add_q_other by congruence. auto.
  - intros k'. rewrite !dget_dset. destruct (pyeqb_spec (t, k) (t, k')) as [E|E].
    + injection E as <-. intros _. split; auto. rewrite pyeqb_refl. discriminate.
    + intros P. destruct (O2 _ P) as (B & C). split; auto. destruct (pyeqb _ _); auto. discriminate.
  - intros k' a. rewrite !dget_dset. destruct (pyeqb_spec (t, k) (t, k')) as [E|E].
    + injection E as <-. intros E. injection E as <-. repeat split; auto; [discriminate|].
      destruct (add_q_same (h_q st) t (act k t) (cost k t * w k)%Q) as (v0 & E & _). rewrite E. discriminate.
    + intros E'. destruct (O3 _ _ E') as (B & C & D & F). repeat split; auto.
      destruct (pyeqb_spec a (act k t)) as [->|N].
      * destruct (add_q_same (h_q st) t (act k t) (cost k t * w k)%Q) as (v0 & E2 & _). rewrite E2. discriminate.
      * rewrite add_q_other by congruence. auto.
  - intros a v. destruct (pyeqb_spec a (act k t)) as [->|N].
    + destruct (add_q_same (h_q st) t (act k t) (cost k t * w k)%Q) as (v0 & E2 & Q0). rewrite E2. intros E. injection E as <-.
      rewrite rsum_add by auto. apply Qplus_comp; [|reflexivity]. destruct Q0 as [Q0|(Q0 & ->)]; [now apply O4|].
      unfold rsum. assert (Z : forall k', dget (h_qs st) (t, act k t, k') = None).
      { intros k'. destruct (dget (h_qs st) (t, act k t, k')) eqn:E; auto. exfalso. destruct (O1 _ _ _ E) as (_ & _ & P). auto. }
      clear - Z. induction keys as [|x l IH]; [reflexivity|]. cbn. rewrite Z, <- IH. reflexivity.
    + rewrite add_q_other, rsum_other by congruence. apply O4.
  - intros a. destruct (pyeqb_spec a (act k t)) as [->|N].
    + intros _. exists k. now rewrite dget_dset_same.
    + rewrite add_q_other by congruence. intros H. destruct (O5 a H) as (k' & E). exists k'.
      rewrite dget_dset_other; auto. intros E2. injection E2 as <-. destruct (O3 _ _ E) as (B & _). congruence.
Qed.

(** * One step ahead *)
Lemma look_ok : forall s st k a, ok st s -> (forall k, In k keys -> dget (h_planned st) (s, k) <> None) ->
  In k keys -> (exists k0, dget (h_acts st) (s, k0) = Some a) -> dget (h_qs st) (s, a, k) = None -> next k s a <> s ->
  exists st', look s st (k, a) = Ok st' /\ ok st' s /\ dget (h_qs st') (s, a, k) <> None /\
    (forall a' k', (a', k') <> (a, k) -> dget (h_qs st') (s, a', k') = dget (h_qs st) (s, a', k')) /\
    (forall k', dget (h_planned st') (s, k') = dget (h_planned st) (s, k')) /\
    (forall k', dget (h_acts st') (s, k') = dget (h_acts st) (s, k')) /\
    (forall u, u <> s -> u <> next k s a -> unchanged u st st') /\
    (reuse = true -> unchanged (next k s a) (put_plan (next k s a) k st) st').
Proof.
  intros s st k a O Pl I (k0 & Ek0) Nr Nt. set (t := next k s a) in *.
  assert (Wa : worth k s a = (trans k s a t + cost k t)%Q).
  { unfold HindSpec.worth. destruct (pyeqb_spec (act k s) a) as [E|_]; [|reflexivity].
    destruct (o_plan _ _ O k (Pl k I)) as (_ & R). rewrite E in R. congruence. }
  destruct (o_acts _ _ O _ _ Ek0) as (_ & _ & _ & Hq). destruct (dget (h_q st) (s, a)) as [v|] eqn:Ev; [|congruence]. clear Hq.
  unfold HindModel.look. fold t.
  set (q1 := if reuse then _ else _).
  assert (Q1 : forall a', dget q1 (s, a') = dget (h_q st) (s, a')).
  { intros a'. unfold q1. destruct reuse; auto. apply add_q_other. congruence. }
  unfold dgetE at 1. rewrite Q1, Ev. cbn [bind]. eexists. split; [reflexivity|].
  set (st' := St _ _ _ _).
  assert (Hp : forall u k', u <> t -> dget (h_planned st') (u, k') = dget (h_planned st) (u, k')).
  { intros u k' N. unfold st'. cbn. destruct reuse; auto. apply dget_dset_other. congruence. }
  assert (Hac : forall u k', u <> t -> dget (h_acts st') (u, k') = dget (h_acts st) (u, k')).
  { intros u k' N. unfold st'. cbn. destruct reuse; auto. apply dget_dset_other. congruence. }
  assert (Nts : s <> t) by congruence.
  assert (Hqs : forall a' k', (a', k') <> (a, k) -> dget (h_qs st') (s, a', k') = dget (h_qs st) (s, a', k')).
  { intros a' k' N. unfold st'. cbn. rewrite !dget_dset_other; auto; congruence. }
  assert (Hqk : dget (h_qs st') (s, a, k) = Some (trans k s a t + cost k t)%Q).
  { unfold st'. cbn. rewrite dget_dset_other by congruence. apply dget_dset_same. }
  assert (Hv : forall a', dget (h_q st') (s, a') = if pyeqb a a' then Some (v + (trans k s a t + cost k t) * w k)%Q else dget (h_q st) (s, a')).
  { intros a'. unfold st'. cbn. rewrite dget_dset. destruct (pyeqb_spec (s, a) (s, a')) as [E|E], (pyeqb_spec a a'); subst; try congruence; auto. }
  split; [|split; [congruence|split; [exact Hqs|split; [|split; [|split]]]]].
  - destruct O as [O1 O2 O3 O4 O5]. split.
    + intros a' k' x E. rewrite Hp, Hv by auto. destruct (pyeqb_spec a a') as [<-|Na].
      * destruct (pyeqb_spec k k') as [<-|Nk].
        -- rewrite Hqk in E. injection E as <-. rewrite Wa. repeat split; auto; discriminate.
        -- rewrite Hqs in E by congruence. destruct (O1 _ _ _ E) as (B & C & D). repeat split; auto; discriminate.
      * rewrite Hqs in E by congruence. apply O1. auto.
    + intros k'. rewrite Hp, Hac by auto. intros P. destruct (O2 _ P) as (B & C). split; auto.
      destruct (pyeqb_spec (act k' s) a) as [E|N]; [destruct (pyeqb_spec k' k) as [->|N]|].
      * rewrite E, Hqk. discriminate.
      * rewrite Hqs by congruence. auto.
      * rewrite Hqs by congruence. auto.
    + intros k' a'. rewrite Hac, Hp, Hv by auto. intros E. destruct (O3 _ _ E) as (B & C & D & F). repeat split; auto.
      destruct (pyeqb a a'); auto. discriminate.
    + intros a' x. rewrite Hv. destruct (pyeqb_spec a a') as [<-|Na].
      * intros E. injection E as <-. unfold st'. cbn [h_qs]. rewrite rsum_other by congruence. rewrite rsum_add by auto.
        rewrite (O4 _ _ Ev). reflexivity.
      * intros E. unfold st'. cbn [h_qs]. rewrite !rsum_other by congruence. auto.
    + intros a'. rewrite Hv. intros H. destruct (pyeqb_spec a a') as [Q|Na]; [subst a'|].
      * exists k0. now rewrite Hac.
      * destruct (O5 _ H) as (k' & E). exists k'. now rewrite Hac.
  - auto.
  - auto.
  - intros u Nu Nu'. repeat split; intros; auto; unfold st'; cbn.
    + rewrite dget_dset_other by congruence. unfold q1. destruct reuse; auto. apply add_q_other. congruence.
    + rewrite !dget_dset_other by congruence. reflexivity.
  - intros R. unfold put_plan, HindModel.first_turn. repeat split; intros; unfold st', q1; cbn; rewrite ?R.
    + rewrite dget_dset_other by congruence. reflexivity.
    + rewrite (dget_dset (dset (h_qs st) (s, a, k) _)), (dget_dset (h_qs st) (t, act k t, k)).
      destruct (pyeqb _ _); auto. apply dget_dset_other. congruence.
    + reflexivity.
    + reflexivity.
Qed.

(** * Passes *)
Lemma first_pass_gen : forall s l st, NoDup l -> incl l keys -> ok st s -> tidy st ->
  (forall k, In k l -> dget (h_planned st) (s, k) = None) ->
  let st' := fold_left (first_turn s) l st in
  ok st' s /\ tidy st' /\ (forall u, u <> s -> unchanged u st st') /\
  (forall k, In k l \/ dget (h_planned st) (s, k) <> None -> dget (h_planned st') (s, k) <> None).
Proof.
  intros s l. induction l as [|k l IH]; intros st N Inc O T Np; cbn.
  - split; auto. split; auto. split; [intros; repeat split|]. intros k [[]|H]; auto.
  - apply NoDup_cons_iff in N as (N1 & N2).
    assert (O1 : ok (first_turn s st k) s) by (apply (put_plan_ok s k st); auto; [apply Inc; now left|apply Np; now left]).
    destruct (IH (first_turn s st k) N2 (fun x I => Inc x (or_intror I)) O1 (tidy_first s st k T)) as (B & C & D & E).
    { intros k' I. cbn. rewrite dget_dset_other; [apply Np; now right|]. intros E. injection E as ->. auto. }
    split; auto. split; auto. split.
    + intros u Nu. destruct (D u Nu) as (D1 & D2 & D3 & D4). destruct (put_plan_other s k st u Nu) as (F1 & F2 & F3 & F4).
      unfold put_plan in *. repeat split; intros; [rewrite D1|rewrite D2|rewrite D3|rewrite D4]; auto.
    + intros k' [[->|I]|P]; apply E; auto; right; cbn; rewrite ?dget_dset_same; try discriminate.
      rewrite dget_dset. destruct (pyeqb _ _); auto. discriminate.
Qed.

Lemma proposals_In : forall (st : state) s a, tidy st -> (In a (proposals st s) <-> exists k, dget (h_acts st) (s, k) = Some a).
Proof.
  intros st s a (_ & T). unfold HindModel.proposals. destruct (Ha (map snd (filter (fun e => pyeqb (fst (fst e)) s) (h_acts st)))) as (_ & H).
  rewrite H. split.
  - intros I. apply in_map_iff in I as ([[u k] b] & <- & I). apply filter_In in I as (I & E). cbn in *.
    destruct (pyeqb_spec u s) as [->|]; [|discriminate]. exists k. now apply In_dget.
  - intros (k & E). apply in_map_iff. exists ((s, k), a). split; auto. apply filter_In. split; [now apply dget_In|]. cbn. apply pyeqb_refl.
Qed.

Lemma to_do_In : forall (st : state) s k a, In (k, a) (to_do st s) <->
  In a (proposals st s) /\ In k keys /\ dget (h_qs st) (s, a, k) = None.
Proof.
  intros st s k a. unfold HindModel.to_do. rewrite in_flat_map. split.
  - intros (b & I & J). apply in_map_iff in J as (k' & E & J). injection E as -> ->. apply filter_In in J as (J & E).
    apply negb_true_iff in E. unfold dmem in E. destruct (dget _ _); [discriminate|auto].
  - intros (I & J & E). exists a. split; auto. apply in_map_iff. exists k. split; auto. apply filter_In. split; auto.
    unfold dmem. now rewrite E.
Qed.

Lemma to_do_NoDup : forall (st : state) s, NoDup (to_do st s).
Proof.
  intros st s. unfold HindModel.to_do. assert (N : NoDup (proposals st s)) by apply Ha.
  revert N. generalize (proposals st s). intros l. induction l as [|a l IH]; intros N; [constructor|].
  apply NoDup_cons_iff in N as (N1 & N2). cbn. revert IH. generalize (flat_map (fun a => map (fun k => (k, a)) (filter (fun k => negb (dmem (h_qs st) (s, a, k))) keys)) l) at 1.
  intros _ _.
  assert (F : forall (x : list (K * A)) y, NoDup x -> NoDup y -> (forall e, In e x -> ~ In e y) -> NoDup (x ++ y)).
  { clear. induction x as [|e x IH]; intros y Nx Ny D; auto. cbn. apply NoDup_cons_iff in Nx as (N1 & N2). constructor.
    - rewrite in_app_iff. intros [I|I]; [auto|]. apply (D e); [now left|auto].
    - apply IH; auto. intros e' I. apply D. now right. }
  assert (G : forall l', NoDup l' -> NoDup (flat_map (fun a => map (fun k => (k, a)) (filter (fun k => negb (dmem (h_qs st) (s, a, k))) keys)) l')).
  { induction l' as [|b l' IH]; intros Nl; [constructor|]. apply NoDup_cons_iff in Nl as (Nl1 & Nl2). cbn. apply F; auto.
    - apply FinFun.Injective_map_NoDup; [intros x y E; congruence|]. now apply NoDup_filter.
    - intros [k b'] I J. apply in_map_iff in I as (? & E & _). injection E as <- <-.
      apply in_flat_map in J as (c & J1 & J2). apply in_map_iff in J2 as (? & E & _). injection E as <- <-. auto. }
  apply (G (a :: l)). now constructor.
Qed.

(** The second pass, for any property [I] kept by single steps. *)
Lemma second_gen : forall (I : state -> Prop) s, (forall k a, next k s a <> s) ->
  (forall st k a st', I st -> ok st s -> tidy st -> In k keys -> dget (h_qs st) (s, a, k) = None ->
     (exists k0, dget (h_acts st) (s, k0) = Some a) -> look s st (k, a) = Ok st' -> I st') ->
  forall l st, I st -> ok st s -> tidy st -> (forall k, In k keys -> dget (h_planned st) (s, k) <> None) -> NoDup l ->
  (forall k a, In (k, a) l -> In k keys /\ dget (h_qs st) (s, a, k) = None /\ exists k0, dget (h_acts st) (s, k0) = Some a) ->
  exists st', foldM (look s) st l = Ok st' /\ I st' /\ ok st' s /\ tidy st' /\
    (forall k, dget (h_planned st') (s, k) = dget (h_planned st) (s, k)) /\
    (forall k, dget (h_acts st') (s, k) = dget (h_acts st) (s, k)) /\
    (forall a k, In (k, a) l \/ dget (h_qs st) (s, a, k) <> None -> dget (h_qs st') (s, a, k) <> None).
Proof.
  intros I s Ns HI l. induction l as [|[k a] l IH]; intros st Is O T Pl N Al.
  - exists st. cbn. split; auto. split; auto. split; auto. split; auto. split; auto. split; auto. intros a k [[]|H]; auto.
  - apply NoDup_cons_iff in N as (N1 & N2). destruct (Al k a (or_introl eq_refl)) as (Ik & Nr & Ex).
    destruct (look_ok s st k a O Pl Ik Ex Nr (Ns k a)) as (st1 & E1 & O1 & R1 & F1 & P1 & A1 & _).
    destruct (IH st1) as (st2 & E2 & I2 & O2 & T2 & P2 & A2 & F2); auto.
    + eapply HI; eauto.
    + eapply tidy_look; eauto.
    + intros k' I'. rewrite P1. auto.
    + intros k' a' I'. destruct (Al k' a' (or_intror I')) as (X & Y & k0 & Z). split; auto. split; [|exists k0; now rewrite A1].
      rewrite F1; auto. intros E. injection E as -> ->. auto.
    + exists st2. split; [cbn [foldM]; rewrite E1; exact E2|]. split; auto. split; auto. split; auto.
      split; [intros; rewrite P2; auto|]. split; [intros; rewrite A2; auto|].
      intros a' k' H. apply F2. destruct H as [[E|H]|H]; [injection E as <- <-; auto|auto|].
      destruct (pyeqb_spec (a', k') (a, k)) as [E|E]; [injection E as -> ->; auto|]. right. rewrite F1; auto.
Qed.

Lemma values_In : forall (st : state) s a v, tidy st -> (In (a, v) (values_at st s) <-> dget (h_q st) (s, a) = Some v).
Proof.
  intros st s a v (T & _). unfold values_at. split.
  - intros I. apply in_map_iff in I as ([[u b] x] & E & I). cbn in E. injection E as -> ->. apply filter_In in I as (I & E).
    cbn in E. destruct (pyeqb_spec u s) as [->|]; [|discriminate]. now apply In_dget.
  - intros E. apply in_map_iff. exists ((s, a), v). split; auto. apply filter_In. split; [now apply dget_In|]. cbn. apply pyeqb_refl.
Qed.

Lemma missing_ok : forall (st : state) s, (reuse = true \/ forall k, dget (h_planned st) (s, k) = None) ->
  NoDup (missing st s) /\ incl (missing st s) keys /\ (forall k, In k (missing st s) -> dget (h_planned st) (s, k) = None) /\
  (forall k, In k keys -> In k (missing st s) \/ dget (h_planned st) (s, k) <> None).
Proof.
  intros st s H. unfold HindModel.missing.
  assert (F : NoDup (filter (fun k => negb (dmem (h_planned st) (s, k))) keys)) by now apply NoDup_filter.
  assert (Q : forall k, negb (dmem (h_planned st) (s, k)) = true <-> dget (h_planned st) (s, k) = None).
  { intros k. unfold dmem. destruct (dget _ _); cbn; split; congruence. }
  destruct H as [H|H].
  - rewrite H. split; auto. split; [intros k I; now apply filter_In in I|]. split.
    + intros k I. apply filter_In in I as (_ & I). now apply Q.
    + intros k I. destruct (dget (h_planned st) (s, k)) eqn:E; [right; congruence|left]. apply filter_In. split; auto. now apply Q.
  - destruct reuse.
    + split; auto. split; [intros k I; now apply filter_In in I|]. split; auto. intros k I. left. apply filter_In. split; auto. now apply Q.
    + split; auto. split; [apply incl_refl|]. split; auto.
Qed.

(** * A whole call *)
Lemma call_gen : forall (I : state -> Prop) s, keys <> [] -> (forall k a, next k s a <> s) ->
  (forall st k a st', I st -> ok st s -> tidy st -> In k keys -> dget (h_qs st) (s, a, k) = None ->
     (exists k0, dget (h_acts st) (s, k0) = Some a) -> look s st (k, a) = Ok st' -> I st') ->
  forall st, I (first_pass st s) -> ok st s -> tidy st -> (reuse = true \/ forall k, dget (h_planned st) (s, k) = None) ->
  exists st' a, give_first_action st s = Ok (st', a) /\ I st' /\ ok st' s /\ tidy st' /\
    best keys cost act next trans w s a /\
    (forall b, proposed keys act s b -> exists v, dget (h_q st') (s, b) = Some v /\ (v == total s b)%Q).
Proof.
  intros I s Ne Ns HI st I1 O T R. destruct (missing_ok st s R) as (M1 & M2 & M3 & M4).
  destruct (first_pass_gen s (missing st s) st M1 M2 O T M3) as (O1 & T1 & _ & P1).
  change (fold_left (first_turn s) (missing st s) st) with (first_pass st s) in O1, T1, P1.
  assert (Pl : forall k, In k keys -> dget (h_planned (first_pass st s)) (s, k) <> None) by (intros k Ik; apply P1; destruct (M4 k Ik); auto).
  destruct (second_gen I s Ns HI (to_do (first_pass st s) s) (first_pass st s) I1 O1 T1 Pl (to_do_NoDup _ _)) as (st2 & E2 & I2 & O2 & T2 & P2 & A2 & R2).
  { intros k a J. apply to_do_In in J as (J1 & J2 & J3). split; auto. split; auto. now apply proposals_In. }
  assert (Prop1 : forall b, proposed keys act s b <-> exists k, dget (h_acts (first_pass st s)) (s, k) = Some b).
  { intros b. split.
    - intros (k & Ik & ->). exists k. now apply (o_plan _ _ O1 k (Pl k Ik)).
    - intros (k & E). destruct (o_acts _ _ O1 _ _ E) as (B & C & _). now exists k. }
  assert (Full : forall b k, proposed keys act s b -> In k keys -> dget (h_qs st2) (s, b, k) = Some (worth k s b)).
  { intros b k Pb Ik. assert (Q : dget (h_qs st2) (s, b, k) <> None).
    { apply R2. destruct (dget (h_qs (first_pass st s)) (s, b, k)) eqn:E; [right; congruence|left]. apply to_do_In.
      split; [apply proposals_In; auto; now apply Prop1|auto]. }
    destruct (dget (h_qs st2) (s, b, k)) eqn:E; [|congruence]. f_equal. apply (o_rec _ _ O2 _ _ _ E). }
  assert (Val : forall b v, dget (h_q st2) (s, b) = Some v -> proposed keys act s b /\ (v == total s b)%Q).
  { intros b v E. destruct (o_q _ _ O2 b ltac:(congruence)) as (k & Ek). rewrite A2 in Ek.
    assert (Pb : proposed keys act s b) by (apply Prop1; eauto). split; auto.
    rewrite (o_sum _ _ O2 _ _ E). rewrite (rsum_total _ _ _ (fun k Ik => Full b k Pb Ik)). reflexivity. }
  assert (Has : forall b, proposed keys act s b -> exists v, dget (h_q st2) (s, b) = Some v).
  { intros b Pb. apply Prop1 in Pb as (k & Ek). rewrite <- A2 in Ek. destruct (o_acts _ _ O2 _ _ Ek) as (_ & _ & _ & Q).
    destruct (dget (h_q st2) (s, b)); [eauto|congruence]. }
  assert (NE : values_at st2 s <> []).
  { destruct keys as [|k0 l] eqn:Ek; [congruence|]. destruct (Has (act k0 s)) as (v & E); [exists k0; split; [now left|auto]|].
    intros E'. apply values_In in E; auto. rewrite E' in E. destruct E. }
  destruct (least_some _ NE) as ([a v] & El). destruct (least_ok _ _ _ El) as (Ia & Lo).
  exists st2, a. split; [unfold HindModel.give_first_action, HindModel.second_pass; rewrite E2; cbn; now rewrite El|].
  split; auto. split; auto. split; auto. split.
  - apply values_In in Ia; auto. destruct (Val _ _ Ia) as (Pa & Va). split; auto. intros b Pb. destruct (Has b Pb) as (u & Eu).
    destruct (Val _ _ Eu) as (_ & Vb). rewrite <- Va, <- Vb. apply (Lo b). now apply values_In.
  - intros b Pb. destruct (Has b Pb) as (u & Eu). exists u. split; auto. now apply Val.
Qed.

(** * The same question again *)
Definition base (st : state) : Prop :=
  tidy st /\ (forall u k a, dget (h_acts st) (u, k) = Some a -> a = act k u /\ In k keys) /\
  (forall u k, dget (h_planned st) (u, k) <> None -> dget (h_acts st) (u, k) <> None).

Lemma base_empty : base empty.
Proof. split; [apply tidy_empty|]. split; cbn; [discriminate|congruence]. Qed.

Lemma base_first : forall s st k, In k keys -> base st -> base (first_turn s st k).
Proof.
  intros s st k I (T & B & C). split; [now apply tidy_first|]. split; cbn.
  - intros u k' a. rewrite dget_dset. destruct (pyeqb_spec (s, k) (u, k')) as [E|E]; [|auto].
    injection E as <- <-. intros E. injection E as <-. auto.
  - intros u k'. rewrite !dget_dset. destruct (pyeqb (s, k) (u, k')); auto. discriminate.
Qed.

Lemma base_look : forall s st k a st', In k keys -> base st -> look s st (k, a) = Ok st' -> base st' /\
  (forall u k', dget (h_planned st) (u, k') <> None -> dget (h_planned st') (u, k') <> None) /\
  (forall x, dget (h_qs st) x <> None -> dget (h_qs st') x <> None) /\ dget (h_qs st') (s, a, k) <> None.
Proof.
  intros s st k a st' I (T & B & C) E. pose proof (tidy_look _ _ _ _ T E) as T'. cbn in E.
  apply bind_ok in E as (v & _ & E). injection E as <-. split; [split; [exact T'|split]|split; [|split]]; cbn.
  - intros u k' b. destruct reuse; [|auto]. rewrite dget_dset. destruct (pyeqb_spec (next k s a, k) (u, k')) as [E|E]; [|auto].
    injection E as <- <-. intros E. injection E as <-. auto.
  - intros u k'. destruct reuse; [|auto]. rewrite !dget_dset. destruct (pyeqb (next k s a, k) (u, k')); auto. discriminate.
  - intros u k'. destruct reuse; [|auto]. rewrite dget_dset. destruct (pyeqb _ _); auto. discriminate.
  - intros x H. rewrite !dget_dset. destruct (pyeqb _ x); [discriminate|]. destruct (pyeqb _ x); [discriminate|auto].
  - rewrite dget_dset. destruct (pyeqb _ _); [discriminate|]. rewrite dget_dset_same. discriminate.
Qed.

Lemma base_firsts : forall s l st, incl l keys -> base st -> base (fold_left (first_turn s) l st) /\
  (forall k, In k l \/ dget (h_planned st) (s, k) <> None -> dget (h_planned (fold_left (first_turn s) l st)) (s, k) <> None).
Proof.
  intros s l. induction l as [|k l IH]; intros st Inc B; [split; auto; intros k [[]|H]; auto|]. cbn.
  destruct (IH (first_turn s st k)) as (B1 & P1); [intros x I; apply Inc; now right|apply base_first; auto; apply Inc; now left|].
  split; auto. intros k' H. apply P1. destruct H as [[->|H]|H]; [right|auto|right]; cbn.
  - rewrite dget_dset_same. discriminate.
  - rewrite dget_dset. destruct (pyeqb _ _); auto. discriminate.
Qed.

Lemma base_looks : forall s l st st', (forall k a, In (k, a) l -> In k keys) -> base st -> foldM (look s) st l = Ok st' -> base st' /\
  (forall u k', dget (h_planned st) (u, k') <> None -> dget (h_planned st') (u, k') <> None) /\
  (forall a k, In (k, a) l \/ dget (h_qs st) (s, a, k) <> None -> dget (h_qs st') (s, a, k) <> None).
Proof.
  intros s l. induction l as [|[k a] l IH]; intros st st' Al B E.
  - injection E as <-. split; auto. split; auto. intros a k [[]|H]; auto.
  - cbn [foldM] in E. apply bind_ok in E as (st1 & E1 & E). destruct (base_look s st k a st1 (Al k a (or_introl eq_refl)) B E1) as (B1 & P1 & R1 & R1').
    destruct (IH st1 st') as (B2 & P2 & R2); auto; [intros; eapply Al; right; eauto|].
    split; auto. split; auto. intros b k' H. apply R2. destruct H as [[H|H]|H]; [injection H as <- <-; auto|auto|auto].
Qed.

Lemma base_call : forall st s st' a, base st -> give_first_action st s = Ok (st', a) -> base st'.
Proof.
  intros st s st' a B E. unfold HindModel.give_first_action in E. apply bind_ok in E as (st1 & E1 & E).
  assert (st1 = st') by (destruct (least _) as [[]|]; [injection E; auto|discriminate]). subst st1.
  assert (M : incl (missing st s) keys).
  { unfold HindModel.missing. destruct reuse; [|apply incl_refl]. intros k I. now apply filter_In in I. }
  destruct (base_firsts s (missing st s) st M B) as (B1 & _).
  apply (base_looks s _ _ _) in E1 as (B2 & _); auto. intros k b I. now apply to_do_In in I.
Qed.

Lemma base_calls : forall l st acts st' acts', base st ->
  foldM (fun (r : state * list A) s => let* x := give_first_action (fst r) s in Ok (fst x, snd r ++ [snd x])) (st, acts) l = Ok (st', acts') -> base st'.
Proof.
  induction l as [|s l IH]; intros st acts st' acts' B E; [injection E as <- <-; auto|]. cbn [foldM] in E.
  apply bind_ok in E as ([st1 acts1] & E1 & E). apply bind_ok in E1 as ([st2 a] & E1 & E2). injection E2 as <- <-.
  eapply IH; [|exact E]. eapply base_call; eauto.
Qed.

Lemma again : forall st s st1 a, reuse = true -> base st -> give_first_action st s = Ok (st1, a) ->
  give_first_action st1 s = Ok (st1, a).
Proof.
  intros st s st1 a R B E. pose proof (base_call _ _ _ _ B E) as B'. unfold HindModel.give_first_action in E. apply bind_ok in E as (st2 & E1 & E).
  assert (st2 = st1) by (destruct (least _) as [[]|]; [injection E; auto|discriminate]). subst st2.
  destruct (missing_ok st s (or_introl R)) as (M1 & M2 & M3 & M4).
  destruct (base_firsts s (missing st s) st M2 B) as (B1 & P1).
  change (fold_left (first_turn s) (missing st s) st) with (first_pass st s) in *.
  destruct (base_looks s _ _ _ (fun k b I => proj1 (proj2 (proj1 (to_do_In _ _ _ _) I))) B1 E1) as (B2 & P2 & R2).
  assert (Pl : forall k, In k keys -> dget (h_planned (first_pass st s)) (s, k) <> None) by (intros k Ik; apply P1; destruct (M4 k Ik); auto).
  assert (F : first_pass st1 s = st1).
  { unfold HindModel.first_pass, HindModel.missing. rewrite R.
    replace (filter (fun k => negb (dmem (h_planned st1) (s, k))) keys) with (@nil K); auto.
    assert (Pl1 : forall k, In k keys -> dget (h_planned st1) (s, k) <> None) by auto.
    clear - Pl1. induction keys as [|k l IH]; auto. cbn. specialize (Pl1 k (or_introl eq_refl)) as Hk. unfold dmem at 1.
    destruct (dget (h_planned st1) (s, k)); [|congruence]. cbn. apply IH. intros; apply Pl1. now right. }
  assert (D : to_do st1 s = []).
  { destruct (to_do st1 s) as [|[k b] l] eqn:Ed; auto. exfalso. assert (I : In (k, b) (to_do st1 s)) by (rewrite Ed; now left).
    apply to_do_In in I as (I1 & I2 & I3). revert I3. apply R2.
    destruct B' as (T' & Ac & _). apply proposals_In in I1 as (k0 & E0); auto. destruct (Ac _ _ _ E0) as (-> & Ik0).
    destruct (dget (h_qs (first_pass st s)) (s, act k0 s, k)) eqn:Eq; [right; congruence|left]. apply to_do_In. split; auto.
    destruct B1 as (T1 & Ac1 & Pa1). apply proposals_In; auto. exists k0.
    destruct (dget (h_acts (first_pass st s)) (s, k0)) eqn:Ea; [|exfalso; eapply Pa1; eauto]. now destruct (Ac1 _ _ _ Ea) as (-> & _). }
  unfold HindModel.give_first_action, HindModel.second_pass. rewrite F, D. cbn. exact E.
Qed.

(** * Many calls, always further *)
Variable depth : S -> nat.
Hypothesis Hd : forall k s a, depth (next k s a) = Datatypes.S (depth s).
Hypothesis Hi : forall k s a s' a', next k s a = next k s' a' -> s = s' /\ a = a'.

Definition from_calls (called : list S) (st : state) : Prop :=
  (forall u, ok st u) /\
  (forall u k, dget (h_planned st) (u, k) <> None -> In u called \/
     exists s0 a0, In s0 called /\ next k s0 a0 = u /\ dget (h_qs st) (s0, a0, k) <> None).

Lemma no_loop : forall k s a, next k s a <> s.
Proof. intros k s a E. pose proof (Hd k s a) as H. rewrite E in H. lia. Qed.

Lemma first_from : forall called st s, reuse = true -> from_calls called st -> tidy st ->
  from_calls (s :: called) (first_pass st s).
Proof.
  intros called st s R (O & P) T. destruct (missing_ok st s (or_introl R)) as (M1 & M2 & M3 & M4).
  destruct (first_pass_gen s (missing st s) st M1 M2 (O s) T M3) as (O1 & T1 & U1 & P1).
  change (fold_left (first_turn s) (missing st s) st) with (first_pass st s) in *. split.
  - intros u. destruct (pyeqb_spec u s) as [->|N]; [auto|]. eapply unchanged_ok; eauto.
  - intros u k H. destruct (pyeqb_spec u s) as [->|N]; [left; now left|].
    destruct (U1 u N) as (_ & _ & Up & _). rewrite Up in H. destruct (P u k H) as [H'|(s0 & a0 & Ic & E & Hr)]; [left; now right|].
    right. exists s0, a0. split; [now right|]. split; auto.
    destruct (pyeqb_spec s0 s) as [->|N0].
    + destruct (dget (h_qs st) (s, a0, k)) eqn:Eq; [|congruence]. clear Hr.
      assert (Keep : forall l st0, dget (h_qs st0) (s, a0, k) <> None -> dget (h_qs (fold_left (first_turn s) l st0)) (s, a0, k) <> None).
      { induction l as [|x l IH]; intros st0 H0; auto. cbn. apply IH. cbn. rewrite dget_dset. destruct (pyeqb _ _); auto. discriminate. }
      apply Keep. congruence.
    + destruct (U1 s0 N0) as (_ & Uq & _). rewrite Uq. auto.
Qed.

Lemma look_from : forall called s, reuse = true -> (forall u, In u called -> depth u <= depth s) -> In s called ->
  forall st k a st', from_calls called st /\ (forall k, In k keys -> dget (h_planned st) (s, k) <> None) ->
  ok st s -> tidy st -> In k keys -> dget (h_qs st) (s, a, k) = None ->
  (exists k0, dget (h_acts st) (s, k0) = Some a) -> look s st (k, a) = Ok st' ->
  from_calls called st' /\ (forall k, In k keys -> dget (h_planned st') (s, k) <> None).
Proof.
  intros called s R Dc Is st k a st' ((O & P) & Pl) Os T Ik Nr Ex E.
  destruct (look_ok s st k a Os Pl Ik Ex Nr (no_loop k s a)) as (st1 & E1 & O1 & R1 & F1 & P1 & A1 & U1 & V1).
  rewrite E1 in E. injection E as <-. specialize (V1 R). set (t := next k s a) in *.
  assert (Up : dget (h_planned st) (t, k) = None).
  { destruct (dget (h_planned st) (t, k)) eqn:Et; auto. exfalso.
    destruct (P t k) as [H|(s0 & a0 & Ic & En & Hr)]; [congruence| |].
    - apply Dc in H. unfold t in H. rewrite Hd in H. lia.
    - destruct (Hi _ _ _ _ _ En) as (-> & ->). congruence. }
  assert (Nts : t <> s) by apply no_loop.
  split; [split|].
  - intros u. destruct (pyeqb_spec u s) as [->|N]; [auto|]. destruct (pyeqb_spec u t) as [->|N'].
    + eapply unchanged_ok; [exact V1|]. apply put_plan_ok; auto.
    + eapply unchanged_ok; [apply U1; auto|auto].
  - intros u k' H.
    assert (Old : dget (h_planned st) (u, k') <> None -> In u called \/
      exists s0 a0, In s0 called /\ next k' s0 a0 = u /\ dget (h_qs st1) (s0, a0, k') <> None).
    { intros H0. destruct (P u k' H0) as [H'|(s0 & a0 & Ic & En & Hr)]; [auto|]. right. exists s0, a0. repeat split; auto.
      destruct (pyeqb_spec s0 s) as [->|N0].
      - destruct (pyeqb_spec (a0, k') (a, k)) as [Q|Q]; [injection Q as -> ->; auto|]. rewrite F1; auto.
      - destruct (pyeqb_spec s0 t) as [->|N1].
        + destruct V1 as (_ & Vq & _). rewrite Vq. unfold put_plan. cbn. rewrite dget_dset. destruct (pyeqb _ _); auto. discriminate.
        + destruct (U1 s0 N0 N1) as (_ & Uq & _). rewrite Uq. auto. }
    destruct (pyeqb_spec u s) as [->|N]; [left; auto|]. destruct (pyeqb_spec u t) as [->|N'].
    + destruct V1 as (_ & _ & Vp & _). rewrite Vp in H. unfold put_plan in H. cbn in H. rewrite dget_dset in H.
      destruct (pyeqb_spec (t, k) (t, k')) as [Q|Q]; [|auto]. injection Q as <-. right. exists s, a. repeat split; auto.
    + apply Old. destruct (U1 u N N') as (_ & _ & Up' & _). now rewrite Up' in H.
  - intros k' I'. rewrite P1. auto.
Qed.

Lemma call_from : forall called st s, keys <> [] -> reuse = true -> from_calls called st -> tidy st ->
  (forall u, In u called -> depth u <= depth s) ->
  exists st' a, give_first_action st s = Ok (st', a) /\ from_calls (s :: called) st' /\ tidy st' /\
    best keys cost act next trans w s a.
Proof.
  intros called st s Ne R F T Dc.
  destruct (call_gen (fun st => from_calls (s :: called) st /\ (forall k, In k keys -> dget (h_planned st) (s, k) <> None)) s Ne
    (fun k a => no_loop k s a)) with (st := st) as (st' & a & E & (I & _) & _ & T' & B & _).
  - intros st0 k a st' Inv Os T0 Ik Nr Ex E. eapply look_from; eauto; [|now left].
    intros u [<-|Iu]; auto.
  - split; [apply first_from; auto|]. destruct F as (O & P). destruct (missing_ok st s (or_introl R)) as (M1 & M2 & M3 & M4).
    destruct (first_pass_gen s (missing st s) st M1 M2 (O s) T M3) as (_ & _ & _ & P1). intros k Ik. apply P1. destruct (M4 k Ik); auto.
  - apply F.
  - auto.
  - auto.
  - exists st', a. auto.
Qed.

Lemma calls_from : forall l called st acts, keys <> [] -> reuse = true -> from_calls called st -> tidy st ->
  (forall u s, In u called -> In s l -> depth u <= depth s) ->
  (forall i j s t, nth_error l i = Some s -> nth_error l j = Some t -> i <= j -> depth s <= depth t) ->
  exists st' new, foldM (fun (r : state * list A) s => let* x := give_first_action (fst r) s in Ok (fst x, snd r ++ [snd x])) (st, acts) l
    = Ok (st', acts ++ new) /\ Forall2 (best keys cost act next trans w) l new.
Proof.
  induction l as [|s l IH]; intros called st acts Ne R F T Dc Dl.
  - exists st, []. rewrite app_nil_r. split; [reflexivity|constructor].
  - destruct (call_from called st s Ne R F T) as (st1 & a & E & F1 & T1 & B); [intros u Iu; apply Dc; auto; now left|].
    destruct (IH (s :: called) st1 (acts ++ [a]) Ne R F1 T1) as (st2 & new & E2 & Fo).
    + intros u t [<-|Iu] It; [|apply Dc; auto; now right]. apply In_nth_error in It as (j & Ej).
      apply (Dl 0 (Datatypes.S j) s t); auto. lia.
    + intros i j u t Ei Ej Le. apply (Dl (Datatypes.S i) (Datatypes.S j)); auto. lia.
    + exists st2, (a :: new). split; [|constructor; auto]. cbn [foldM]. cbn [fst snd]. rewrite E. cbn [bind fst snd].
      rewrite E2. now rewrite <- app_assoc.
Qed.
End Any.
