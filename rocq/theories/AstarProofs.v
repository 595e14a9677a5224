(** Invariants of LazyAstar (used by AstarProps.v). *)
From Coq Require Import List Bool Arith QArith Lia Lqa Permutation.
From Verif Require Import Py AstarModel.
Import ListNotations.
Open Scope nat_scope.

Section Proofs.
Context {St A : Type} {ES : PyEq St}.
Variable p : @problem St A.
Variable s0 : St.

(** Specification: executions of the domain, with their total cost. *)
Inductive exec : St -> list A -> St -> Q -> Prop :=
| ex_nil : forall s, exec s [] s 0
| ex_cons : forall s a l s' c, In a (apps p s) -> exec (next p s a) l s' c ->
    exec s (a :: l) s' (cost p s a (next p s a) + c)%Q.

Lemma exec_app : forall s l1 m c1, exec s l1 m c1 -> forall l2 g c2, exec m l2 g c2 ->
  exists c, exec s (l1 ++ l2) g c /\ (c == c1 + c2)%Q.
Proof.
  induction 1 as [s|s a l s' c I E IH]; intros l2 g c2 E2.
  - exists c2. split; auto. lra.
  - destruct (IH _ _ _ E2) as (c' & E' & Q'). eexists. split; [simpl; econstructor; eauto|]. lra.
Qed.

(** *** the heap *)
Lemma pop_min_spec : forall l : list (@entry St A), match pop_min l with
  | None => l = []
  | Some (m, r) => Permutation l (m :: r) /\ forall y, In y l -> (e_f m <= e_f y)%Q
  end.
Proof.
  induction l as [|x l IH]; [reflexivity|]. cbn [pop_min].
  destruct (pop_min l) as [[m r]|].
  - destruct IH as [P M]. unfold entry_lt. destruct (Qcompare_spec (e_f x) (e_f m)) as [E|L|G].
    + destruct (e_cnt x <? e_cnt m).
      * split; [now apply perm_skip|]. intros y [ -> |I]; [lra|]. specialize (M y I). lra.
      * split; [rewrite P; apply perm_swap|]. intros y [ -> |I]; [lra|auto].
    + split; [now apply perm_skip|]. intros y [ -> |I]; [lra|]. specialize (M y I). lra.
    + split; [rewrite P; apply perm_swap|]. intros y [ -> |I]; [lra|auto].
  - subst l. split; [reflexivity|]. intros y [ -> |[]]. lra.
Qed.

Definition D (enq : @enq_t St) (n : St) : Q := match dget enq n with Some (q, _) => q | None => 0%Q end.

Notation expl_t := (@expl_t St A).
Notation enq_t := (@enq_t St).
Notation entry := (@entry St A).

(** The branch of the search tree leading to an explored node. *)
Inductive branch (expl : expl_t) : St -> list (St * A) -> Prop :=
| br_root : dget expl s0 = Some (None, None) -> branch expl s0 []
| br_step : forall n pn a l, branch expl pn l -> dget expl n = Some (Some pn, Some a) ->
    ~ In n (pn :: map fst l) -> In a (apps p pn) -> next p pn a = n ->
    branch expl n (l ++ [(pn, a)]).

Definition source_entry (x : entry) : Prop :=
  e_parent x = None /\ e_label x = None /\ e_node x = s0 /\ e_dist x = 0%Q /\
  e_f x = (weight p * heur p s0)%Q.

Definition child_entry (enq : enq_t) (expl : expl_t) (x : entry) : Prop :=
  exists pn a, e_parent x = Some pn /\ e_label x = Some a /\ In pn (dkeys expl) /\ In a (apps p pn) /\
    e_node x = next p pn a /\ e_node x <> s0 /\
    (e_dist x == D enq pn + cost p pn a (e_node x))%Q /\
    e_f x = (e_dist x + weight p * heur p (e_node x))%Q.

Record core (queue : list entry) (enq : enq_t) (expl : expl_t) : Prop := {
  c_keys : NoDup (dkeys expl);
  c_h : forall n q h, dget enq n = Some (q, h) -> n <> s0 -> h = heur p n;
  c_entry : forall x, In x queue -> (source_entry x \/ child_entry enq expl x) /\
                                    exists q h, dget enq (e_node x) = Some (q, h) /\ (q <= e_dist x)%Q;
  c_open : forall n q h, dget enq n = Some (q, h) -> ~ In n (dkeys expl) ->
             exists x, In x queue /\ e_node x = n /\ e_dist x = q;
  c_branch : forall n, In n (dkeys expl) -> exists l, branch expl n l;
  c_dist : forall n pn a, dget expl n = Some (Some pn, Some a) -> (D enq n == D enq pn + cost p pn a n)%Q;
  c_enq : forall n, In n (dkeys expl) -> exists q h, dget enq n = Some (q, h);
  c_start : dget enq s0 <> None /\ (D enq s0 == 0)%Q;
  c_src : (expl = [] /\ exists x, queue = [x] /\ source_entry x) \/
          (In s0 (dkeys expl) /\ forall x, In x queue -> child_entry enq expl x);
  c_nogoal : forall n, In n (dkeys expl) -> goal p n = false }.

Definition closed_at (enq : enq_t) (expl : expl_t) (n : St) (a : A) : Prop :=
  In (next p n a) (dkeys expl) \/
  exists q h, dget enq (next p n a) = Some (q, h) /\ (q <= D enq n + cost p n a (next p n a))%Q.

Definition inv queue enq expl : Prop :=
  core queue enq expl /\ forall n a, In n (dkeys expl) -> In a (apps p n) -> closed_at enq expl n a.

(** Enqueued distances only decrease, and do not move for explored nodes. *)
Definition enq_le (expl : expl_t) (enq enq' : enq_t) : Prop :=
  (forall n q h, dget enq n = Some (q, h) -> exists q', dget enq' n = Some (q', h) /\ (q' <= q)%Q) /\
  (forall n, In n (dkeys expl) -> dget enq' n = dget enq n).

Lemma enq_le_refl : forall expl enq, enq_le expl enq enq.
Proof. intros. split; auto. intros n q h E. exists q. split; auto. lra. Qed.

Lemma enq_le_trans : forall expl a b c, enq_le expl a b -> enq_le expl b c -> enq_le expl a c.
Proof.
  intros expl a b c [A1 A2] [B1 B2]. split.
  - intros n q h E. destruct (A1 _ _ _ E) as (q1 & E1 & L1). destruct (B1 _ _ _ E1) as (q2 & E2 & L2).
    exists q2. split; auto. lra.
  - intros n I. rewrite B2, A2; auto.
Qed.

Lemma D_expl : forall expl enq enq' n, enq_le expl enq enq' -> In n (dkeys expl) -> D enq' n = D enq n.
Proof. intros expl enq enq' n [_ H] I. unfold D. now rewrite H. Qed.

Lemma closed_mono : forall expl enq enq' n a, enq_le expl enq enq' -> In n (dkeys expl) ->
  closed_at enq expl n a -> closed_at enq' expl n a.
Proof.
  intros expl enq enq' n a H I [X|(q & h & E & L)]; [now left|].
  right. destruct (proj1 H _ _ _ E) as (q' & E' & L'). exists q', h. split; auto.
  rewrite (D_expl _ _ _ _ H I). lra.
Qed.

(** *** relaxing the neighbours *)
Lemma relax_core : forall queue c enq expl cur d nb queue' c' enq',
  core queue enq expl -> In cur (dkeys expl) -> In s0 (dkeys expl) -> (d == D enq cur)%Q ->
  (let '(m, cst, a) := nb in In a (apps p cur) /\ m = next p cur a /\ cst = cost p cur a m) ->
  relax p expl cur d (queue, c, enq) nb = (queue', c', enq') ->
  core queue' enq' expl /\ enq_le expl enq enq' /\ length queue' <= Datatypes.S (length queue) /\
  (let '(m, cst, a) := nb in In m (dkeys expl) \/ exists q h, dget enq' m = Some (q, h) /\ (q <= d + cst)%Q).
Proof.
  intros queue c enq expl cur d [[m cst] a] queue' c' enq' C Ic Is Ed (Ia & Em & Ecst) E.
  unfold relax in E. destruct (dmem expl m) eqn:M.
  - injection E as <- <- <-. split; auto. split; [apply enq_le_refl|]. split; [lia|].
    left. now apply dmem_true.
  - apply dmem_false in M.
    assert (Ms : m <> s0) by (intros Z; rewrite Z in M; contradiction).
    assert (U : forall h, h = heur p m ->
      (forall q h', dget enq m = Some (q, h') -> ((d + cst <= q)%Q /\ h' = h)) ->
      let queue' := {| e_f := (d + cst + weight p * h)%Q; e_cnt := c; e_node := m; e_dist := (d + cst)%Q;
                       e_parent := Some cur; e_label := Some a |} :: queue in
      let enq' := dset enq m ((d + cst)%Q, h) in
      core queue' enq' expl /\ enq_le expl enq enq' /\ length queue' <= Datatypes.S (length queue) /\
      (In m (dkeys expl) \/ exists q h, dget enq' m = Some (q, h) /\ (q <= d + cst)%Q)).
    { intros h Eh Hq q' e'. clear E.
      assert (LE : enq_le expl enq e').
      { split.
        - intros n q h' En. unfold e'. rewrite dget_dset. destruct (pyeqb_spec m n) as [ <- |Nm].
          + destruct (Hq _ _ En) as [L ->]. eexists. split; [reflexivity|]. exact L.
          + exists q. split; auto. lra.
        - intros n In'. unfold e'. rewrite dget_dset_other; auto. intros <-. contradiction. }
      assert (DE : forall n, In n (dkeys expl) -> D e' n = D enq n) by (intros; eapply D_expl; eauto).
      assert (CE : forall x, child_entry enq expl x -> child_entry e' expl x).
      { intros x (pn & b & E1 & E2 & E3 & E4 & E5 & E6 & E7 & E8). exists pn, b.
        repeat split; auto. now rewrite DE. }
      split; [|split; [exact LE|split; [simpl; lia|]]].
      - destruct C as [K1 K2 K3 K4 K5 K6 K7 K8 K9 K10]. constructor; auto.
        + intros n q hh En Nn. unfold e' in En. rewrite dget_dset in En. destruct (pyeqb_spec m n) as [ <- |Nm].
          * injection En as _ <-. auto.
          * eapply K2; eauto.
        + intros x [ <- |Ix].
          * split.
            -- right. exists cur, a. cbn. repeat split; auto; [ |now rewrite Eh].
               rewrite DE by auto. rewrite Ecst. lra.
            -- exists (d + cst)%Q, h. cbn. split; [unfold e'; apply dget_dset_same|lra].
          * destruct (K3 x Ix) as [X (q & hh & E1 & E2)]. split.
            -- destruct X as [X|X]; auto.
            -- destruct (proj1 LE _ _ _ E1) as (q1 & E3 & E4). exists q1, hh. split; auto. lra.
        + intros n q hh En Nn. unfold e' in En. rewrite dget_dset in En. destruct (pyeqb_spec m n) as [ <- |Nm].
          * injection En as <- <-. eexists. split; [left; reflexivity|]. auto.
          * destruct (K4 _ _ _ En Nn) as (x & X1 & X2). exists x. split; auto. now right.
        + intros n pn b En. assert (In n (dkeys expl)) by (apply dget_In in En; apply in_map_iff; exists (n, (Some pn, Some b)); auto).
          assert (In pn (dkeys expl)).
          { destruct (K5 n H) as (l & Br). inversion Br as [Er|n' pn' a' l' Br' En' _ _ _]; subst.
            - congruence.
            - rewrite En in En'. injection En' as <- <-. inversion Br'; subst;
                (match goal with Z : dget expl _ = Some _ |- _ =>
                   apply dget_In in Z; apply in_map_iff; eexists; split; [|exact Z]; reflexivity end). }
          rewrite !DE by auto. auto.
        + intros n In'. destruct (K7 n In') as (q & hh & En). destruct (proj1 LE _ _ _ En) as (q1 & E1 & _). eauto.
        + destruct K8 as [K8 K8']. split; [|rewrite DE; auto].
          destruct (dget enq s0) as [[q hh]|] eqn:En; [|congruence].
          destruct (proj1 LE _ _ _ En) as (q1 & E1 & _). congruence.
        + right. split; auto. destruct K9 as [[K9 _]|[_ K9]]; [subst expl; destruct Is|].
          intros x [ <- |Ix]; [|auto]. exists cur, a. cbn. repeat split; auto; [ |now rewrite Eh].
          rewrite DE by auto. rewrite Ecst. lra.
      - right. eexists _, _. split; [unfold e'; apply dget_dset_same|]. lra. }
    destruct (dget enq m) as [[q h]|] eqn:Eq.
    + destruct (Qle_bool q (d + cst)) eqn:B.
      * injection E as <- <- <-. split; auto. split; [apply enq_le_refl|]. split; [lia|].
        right. exists q, h. split; auto. now apply Qle_bool_iff.
      * injection E as <- <- <-. apply U.
        -- eapply (c_h _ _ _ C); eauto.
        -- intros q' h' X. injection X as <- <-. split; auto.
           assert (~ (q <= d + cst)%Q) by (intros X; apply Qle_bool_iff in X; congruence). lra.
    + injection E as <- <- <-. apply U; [reflexivity|]. discriminate.
Qed.

Lemma fold_relax : forall nbs queue c enq expl cur d queue' c' enq',
  core queue enq expl -> In cur (dkeys expl) -> In s0 (dkeys expl) -> (d == D enq cur)%Q ->
  (forall m cst a, In (m, cst, a) nbs -> In a (apps p cur) /\ m = next p cur a /\ cst = cost p cur a m) ->
  fold_left (relax p expl cur d) nbs (queue, c, enq) = (queue', c', enq') ->
  core queue' enq' expl /\ enq_le expl enq enq' /\ length queue' <= length nbs + length queue /\
  (forall m cst a, In (m, cst, a) nbs -> In m (dkeys expl) \/ exists q h, dget enq' m = Some (q, h) /\ (q <= d + cst)%Q).
Proof.
  induction nbs as [|nb nbs IH]; intros queue c enq expl cur d queue' c' enq' C Ic Is Ed Nb E.
  - injection E as <- <- <-. split; auto. split; [apply enq_le_refl|]. split; [lia|]. intros m cst a [].
  - cbn [fold_left] in E. destruct (relax p expl cur d (queue, c, enq) nb) as [[q1 c1] e1] eqn:R.
    assert (Nb0 : let '(m, cst, a) := nb in In a (apps p cur) /\ m = next p cur a /\ cst = cost p cur a m)
      by (destruct nb as [[m cst] a]; apply Nb; now left).
    destruct (relax_core _ _ _ _ _ _ _ _ _ _ C Ic Is Ed Nb0 R) as (C1 & L1 & Ln1 & P1).
    destruct (IH q1 c1 e1 expl cur d queue' c' enq') as (C2 & L2 & Ln2 & P2); auto.
    + rewrite (D_expl _ _ _ _ L1 Ic). auto.
    + intros m cst a I. apply Nb. now right.
    + split; auto. split; [eapply enq_le_trans; eauto|]. split; [simpl; lia|].
      intros m cst a [ -> |I]; [|eauto].
      destruct P1 as [P1|(q & h & E1 & E2)]; auto. right.
      destruct (proj1 L2 _ _ _ E1) as (q' & E3 & E4). exists q', h. split; auto. lra.
Qed.

Lemma dkeys_dset_new : forall (expl : expl_t) n v, ~ In n (dkeys expl) -> dkeys (dset expl n v) = dkeys expl ++ [n].
Proof.
  induction expl as [|[k w] expl IH]; intros n v N; simpl in *; auto.
  destruct (pyeqb_spec n k) as [ -> |Nk]; [exfalso; auto|]. simpl. f_equal. apply IH. auto.
Qed.

Lemma branch_mono : forall expl n v m l, ~ In n (dkeys expl) -> branch expl m l -> branch (dset expl n v) m l.
Proof.
  intros expl n v m l N B. induction B as [E|m pn a l B IH E Nd Ia En].
  - constructor. rewrite dget_dset_other; auto. intros ->. apply N. apply dget_In in E.
    apply in_map_iff. eexists. split; [|exact E]. reflexivity.
  - eapply br_step; eauto. rewrite dget_dset_other; auto. intros ->. apply N. apply dget_In in E.
    apply in_map_iff. eexists. split; [|exact E]. reflexivity.
Qed.

Lemma branch_keys : forall expl m l, branch expl m l -> incl (m :: map fst l) (dkeys expl).
Proof.
  intros expl m l B. induction B as [E|m pn a l B IH E Nd Ia En]; intros x [ <- |I].
  - apply dget_In in E. apply in_map_iff. eexists. split; [|exact E]. reflexivity.
  - destruct I.
  - apply dget_In in E. apply in_map_iff. eexists. split; [|exact E]. reflexivity.
  - apply IH. rewrite map_app in I. apply in_app_iff in I. simpl in I. destruct I as [I|[I|[]]]; [now right|now left].
Qed.

Lemma branch_nodup : forall expl m l, branch expl m l -> NoDup (map fst l ++ [m]).
Proof.
  intros expl m l B. induction B as [E|m pn a l B IH E Nd Ia En]; simpl.
  - constructor; [auto|constructor].
  - rewrite map_app. simpl. apply (Permutation_NoDup (l := m :: map fst l ++ [pn])).
    + apply Permutation_cons_append.
    + constructor; auto. intros I. apply Nd. apply in_app_iff in I. simpl in I. destruct I as [I|[I|[]]]; [now right|now left].
Qed.

(** The popped entry carries the best known distance of an unexplored node. *)
Lemma popped_dist : forall queue enq expl x queue1,
  core queue enq expl -> pop_min queue = Some (x, queue1) -> ~ In (e_node x) (dkeys expl) ->
  (e_dist x == D enq (e_node x))%Q.
Proof.
  intros queue enq expl x queue1 C P N. pose proof (pop_min_spec queue) as PS. rewrite P in PS.
  destruct PS as [Perm Min].
  assert (Ix : In x queue) by (eapply Permutation_in; [symmetry; exact Perm|now left]).
  destruct (c_entry _ _ _ C x Ix) as [K (q & h & Eq & Lq)].
  destruct (c_open _ _ _ C _ _ _ Eq N) as (y & Iy & Ny & Dy).
  specialize (Min y Iy). unfold D. rewrite Eq.
  destruct (c_src _ _ _ C) as [[_ (z & -> & Sz)]|[Is Ch]].
  - destruct Ix as [ <- |[]]. destruct Iy as [ <- |[]]. rewrite Dy. lra.
  - destruct (Ch x Ix) as (pn & a & _ & _ & _ & _ & _ & _ & _ & Fx).
    destruct (Ch y Iy) as (pn' & a' & _ & _ & _ & _ & _ & _ & _ & Fy).
    rewrite Fx, Fy, Ny, Dy in Min. lra.
Qed.

Lemma core_pop_explored : forall queue enq expl x queue1,
  core queue enq expl -> Permutation queue (x :: queue1) -> In (e_node x) (dkeys expl) -> core queue1 enq expl.
Proof.
  intros queue enq expl x queue1 C P N.
  assert (Sub : forall y, In y queue1 -> In y queue)
    by (intros y I; eapply Permutation_in; [symmetry; exact P|now right]).
  destruct C as [K1 K2 K3 K4 K5 K6 K7 K8 K9 K10]. constructor; auto.
  - intros n q h En Nn. destruct (K4 _ _ _ En Nn) as (y & Iy & Ey & Dy). exists y. split; auto.
    eapply Permutation_in in Iy; [|exact P]. destruct Iy as [ <- |I]; auto. congruence.
  - destruct K9 as [[-> _]|[K9 K9']]; [destruct N|]. right. split; auto.
Qed.

(** Exploring the popped node. *)
Lemma core_explore : forall queue enq expl x queue1,
  core queue enq expl -> pop_min queue = Some (x, queue1) -> ~ In (e_node x) (dkeys expl) ->
  goal p (e_node x) = false ->
  core queue1 enq (dset expl (e_node x) (e_parent x, e_label x)) /\
  In s0 (dkeys (dset expl (e_node x) (e_parent x, e_label x))).
Proof.
  intros queue enq expl x queue1 C P N G.
  pose proof (popped_dist _ _ _ _ _ C P N) as Dx.
  pose proof (pop_min_spec queue) as PS. rewrite P in PS. destruct PS as [Perm _].
  assert (Sub : forall y, In y queue1 -> In y queue)
    by (intros y I; eapply Permutation_in; [symmetry; exact Perm|now right]).
  assert (Ix : In x queue) by (eapply Permutation_in; [symmetry; exact Perm|now left]).
  set (expl' := dset expl (e_node x) (e_parent x, e_label x)).
  assert (Sub' : forall n, In n (dkeys expl) -> In n (dkeys expl')) by (intros n I; apply dkeys_dset; auto).
  destruct C as [K1 K2 K3 K4 K5 K6 K7 K8 K9 K10].
  assert (CE : forall y, child_entry enq expl y -> child_entry enq expl' y).
  { intros y (pn & b & E1 & E2 & E3 & E4 & E5 & E6 & E7 & E8). exists pn, b. repeat split; auto. }
  assert (Is : In s0 (dkeys expl')).
  { destruct K9 as [[-> (z & Ez & Sz)]|[K9 _]]; auto. rewrite Ez in Ix. destruct Ix as [ <- |[]].
    destruct Sz as (_ & _ & En & _). apply dkeys_dset. left. auto. }
  split; [|exact Is]. constructor.
  - apply NoDup_dset. auto.
  - auto.
  - intros y Iy. destruct (K3 y (Sub y Iy)) as [[Y|Y] Z]; auto.
  - intros n q h En Nn. assert (Nn' : ~ In n (dkeys expl)) by auto.
    destruct (K4 _ _ _ En Nn') as (y & Iy & Ey & Dy). exists y. split; auto.
    eapply Permutation_in in Iy; [|exact Perm]. destruct Iy as [ <- |I]; auto.
    exfalso. apply Nn. apply dkeys_dset. auto.
  - intros n In'. apply dkeys_dset in In'. destruct In' as [ -> |In'].
    + destruct (K3 x Ix) as [[S|Ch] _].
      * destruct S as (E1 & E2 & E3 & _). exists []. rewrite E3.
        constructor. unfold expl'. rewrite E3, dget_dset_same, E1, E2. reflexivity.
      * destruct Ch as (pn & a & E1 & E2 & E3 & E4 & E5 & E6 & _).
        destruct (K5 pn E3) as (l & Br). exists (l ++ [(pn, a)]). eapply br_step; eauto.
        -- now apply branch_mono.
        -- unfold expl'. rewrite dget_dset_same, E1, E2. reflexivity.
        -- intros X. apply N. eapply branch_keys; eauto.
    + destruct (K5 n In') as (l & Br). exists l. now apply branch_mono.
  - intros n pn a E. unfold expl' in E. rewrite dget_dset in E. destruct (pyeqb_spec (e_node x) n) as [ <- |Nm].
    + injection E as E1 E2. destruct (K3 x Ix) as [[S|Ch] _].
      * destruct S as (S1 & _). congruence.
      * destruct Ch as (pn' & a' & F1 & F2 & F3 & F4 & F5 & F6 & F7 & _).
        assert (pn' = pn) by congruence. assert (a' = a) by congruence. subst. lra.
    + auto.
  - intros n In'. apply dkeys_dset in In'. destruct In' as [ -> |In']; auto.
    destruct (K3 x Ix) as [_ (q & h & E & _)]. eauto.
  - auto.
  - right. split; auto. intros y Iy. destruct K9 as [[E0 (z & Ez & Sz)]|[K9 K9']].
    + rewrite Ez in Perm. apply Permutation_length_1_inv in Perm. injection Perm as _ ->. destruct Iy.
    + apply CE, K9'. auto.
  - intros n In'. apply dkeys_dset in In'. destruct In' as [ -> |In']; auto.
Qed.

Lemma extender_spec : forall n expl m c a, In (m, c, a) (extender p n expl) <->
  In a (apps p n) /\ m = next p n a /\ c = cost p n a m /\ ~ In m (dkeys expl).
Proof.
  intros n expl m c a. unfold extender. rewrite in_map_iff. split.
  - intros ([m' a'] & E & I). cbn [fst snd] in E. injection E as <- <- <-. apply filter_In in I.
    destruct I as [I F]. apply in_map_iff in I. destruct I as (b & E & I). injection E as <- <-.
    cbn [fst] in F. apply negb_true_iff in F. apply dmem_false in F. auto.
  - intros (Ia & -> & -> & N). exists (next p n a, a). split; auto. apply filter_In. split.
    + apply in_map_iff. eauto.
    + cbn [fst]. apply negb_true_iff. now apply dmem_false.
Qed.

Lemma extender_length : forall n expl, length (extender p n expl) <= length (apps p n).
Proof.
  intros n expl. unfold extender. rewrite map_length.
  etransitivity; [|rewrite <- (map_length (fun a => (next p n a, a))); reflexivity].
  generalize (map (fun a => (next p n a, a)) (apps p n)). intros l.
  induction l as [|x l IH]; simpl; auto. destruct (negb _); simpl; lia.
Qed.

(** One iteration of the main loop, when the popped node is not a goal and not yet explored. *)
Lemma inv_step : forall queue c enq expl x queue1 queue2 c2 enq2,
  inv queue enq expl -> pop_min queue = Some (x, queue1) -> ~ In (e_node x) (dkeys expl) ->
  goal p (e_node x) = false ->
  let expl' := dset expl (e_node x) (e_parent x, e_label x) in
  fold_left (relax p expl' (e_node x) (e_dist x)) (extender p (e_node x) expl') (queue1, c, enq) = (queue2, c2, enq2) ->
  inv queue2 enq2 expl' /\ enq_le expl enq enq2 /\ length queue2 <= length (apps p (e_node x)) + length queue1.
Proof.
  intros queue c enq expl x queue1 queue2 c2 enq2 [C Cl] P N G expl' F.
  destruct (core_explore _ _ _ _ _ C P N G) as [C1 Is]. fold expl' in C1, Is.
  pose proof (popped_dist _ _ _ _ _ C P N) as Dx.
  assert (Ix : In (e_node x) (dkeys expl')) by (apply dkeys_dset; auto).
  assert (Nb0 : forall m cst a, In (m, cst, a) (extender p (e_node x) expl') ->
            In a (apps p (e_node x)) /\ m = next p (e_node x) a /\ cst = cost p (e_node x) a m)
    by (intros m cst a Z; apply extender_spec in Z; tauto).
  destruct (fold_relax _ _ _ _ _ _ _ _ _ _ C1 Ix Is Dx Nb0 F) as (C2 & L2 & Ln & P2).
  split; [|split].
  - split; auto. intros n a In' Ia. apply dkeys_dset in In'. destruct In' as [ -> |In'].
    + destruct (dmem expl' (next p (e_node x) a)) eqn:M.
      * left. now apply dmem_true.
      * apply dmem_false in M. right.
        destruct (P2 (next p (e_node x) a) (cost p (e_node x) a (next p (e_node x) a)) a) as [X|(q & h & E1 & E2)].
        -- apply extender_spec. auto.
        -- contradiction.
        -- exists q, h. split; auto. rewrite (D_expl _ _ _ _ L2 Ix). lra.
    + assert (I' : In n (dkeys expl')) by (apply dkeys_dset; auto).
      apply (closed_mono expl' enq enq2); auto.
      destruct (Cl n a In' Ia) as [X|X]; [left; apply dkeys_dset; auto|right; auto].
  - split; [apply L2|]. intros n I. apply L2. apply dkeys_dset. auto.
  - pose proof (extender_length (e_node x) expl'). lia.
Qed.

Lemma inv_skip : forall queue enq expl x queue1,
  inv queue enq expl -> pop_min queue = Some (x, queue1) -> In (e_node x) (dkeys expl) -> inv queue1 enq expl.
Proof.
  intros queue enq expl x queue1 [C Cl] P I. pose proof (pop_min_spec queue) as PS. rewrite P in PS.
  destruct PS as [Perm _]. split; auto. eapply core_pop_explored; eauto.
Qed.

Lemma inv_init :
  inv [{| e_f := (weight p * heur p s0)%Q; e_cnt := 0; e_node := s0; e_dist := 0%Q; e_parent := None; e_label := None |}]
      [(s0, (0%Q, (weight p * heur p s0)%Q))] [].
Proof.
  split; [|intros n a []]. constructor; simpl.
  - constructor.
  - intros n q h E N. destruct (pyeqb_spec n s0); [contradiction|discriminate].
  - intros x [ <- |[]]. split; [left; repeat split; auto|]. cbn. rewrite pyeqb_refl. do 2 eexists. split; [reflexivity|lra].
  - intros n q h E _. destruct (pyeqb_spec n s0) as [ -> |]; [|discriminate]. injection E as <- <-.
    eexists. split; [left; reflexivity|]. auto.
  - intros n [].
  - discriminate.
  - intros n [].
  - unfold D. simpl. rewrite pyeqb_refl. split; [discriminate|lra].
  - left. split; auto. eexists. split; [reflexivity|]. repeat split; auto.
  - intros n [].
Qed.

(** *** the path *)
Definition mkstep (na : St * A) : option St * option A := (Some (fst na), Some (snd na)).

Lemma rebuild_branch : forall expl n l, branch expl n l -> forall fuel path, length l < fuel ->
  rebuild fuel expl (Some n) path = Ok (map mkstep l ++ path).
Proof.
  intros expl n l B. induction B as [E|n pn a l B IH E Nd Ia En]; intros [|fuel] path F; try (simpl in F; lia).
  - cbn [rebuild]. unfold dgetE. rewrite E. destruct fuel; reflexivity.
  - cbn [rebuild]. unfold dgetE. rewrite E. cbn [bind fst snd]. rewrite app_length in F. simpl in F.
    rewrite (IH fuel) by lia. rewrite map_app. simpl. now rewrite <- app_assoc.
Qed.

(** Consecutive steps, ending in [g]. *)
Fixpoint linked (l : list (St * A)) (g : St) : Prop :=
  match l with
  | [] => True
  | (n, a) :: r => In a (apps p n) /\ next p n a = (match r with (m, _) :: _ => m | [] => g end) /\ linked r g
  end.

Lemma linked_snoc : forall l m a g, linked l m -> In a (apps p m) -> next p m a = g -> linked (l ++ [(m, a)]) g.
Proof.
  induction l as [|[n b] l IH]; intros m a g L Ia E; simpl in *; auto.
  destruct L as (L1 & L2 & L3). split; auto. split; [|auto].
  destruct l as [|[n' b'] l]; simpl in *; auto.
Qed.

Definition first (l : list (St * A)) (g : St) : St := match l with (m, _) :: _ => m | [] => g end.

Lemma first_snoc : forall l m a g, first (l ++ [(m, a)]) g = first l m.
Proof. intros [|[n b] l] m a g; reflexivity. Qed.

Lemma branch_linked : forall expl n l, branch expl n l -> linked l n /\ first l n = s0.
Proof.
  intros expl n l B. induction B as [E|n pn a l B [IH1 IH2] E Nd Ia En]; [simpl; auto|].
  split; [apply linked_snoc; auto|]. rewrite first_snoc. auto.
Qed.

Lemma linked_exec : forall l g, linked l g -> exists c, exec (first l g) (map snd l) g c.
Proof.
  induction l as [|[n a] l IH]; intros g L; simpl in *.
  - eexists. constructor.
  - destruct L as (L1 & L2 & L3). destruct (IH g L3) as (c & E). fold (first l g) in L2.
    eexists. econstructor; eauto. rewrite L2. exact E.
Qed.

(** Telescoping of a potential along the path. *)
Fixpoint tele (V : St -> Q) (l : list (St * A)) (g : St) : Prop :=
  match l with
  | [] => True
  | (n, a) :: r => (V (first r g) == V n + cost p n a (first r g))%Q /\ tele V r g
  end.

Lemma tele_exec : forall V l g, linked l g -> tele V l g ->
  exists c, exec (first l g) (map snd l) g c /\ (c == V g - V (first l g))%Q.
Proof.
  intros V. induction l as [|[n a] l IH]; intros g L T; simpl in *.
  - exists 0%Q. split; [constructor|lra].
  - destruct L as (L1 & L2 & L3), T as (T1 & T2). fold (first l g) in L2.
    destruct (IH g L3 T2) as (c & E & Q). exists (cost p n a (next p n a) + c)%Q. split.
    + econstructor; auto. rewrite L2. exact E.
    + rewrite L2. lra.
Qed.

Lemma tele_snoc : forall V l m a g, tele V l m -> (V g == V m + cost p m a g)%Q -> tele V (l ++ [(m, a)]) g.
Proof.
  intros V. induction l as [|[n b] l IH]; intros m a g T E; simpl in *; auto.
  destruct T as (T1 & T2). split; [|auto]. rewrite first_snoc. exact T1.
Qed.

Lemma branch_tele : forall queue enq expl, core queue enq expl -> forall n l, branch expl n l -> tele (D enq) l n.
Proof.
  intros queue enq expl C n l B. induction B as [E|n pn a l B IH E Nd Ia En]; [exact I|].
  apply tele_snoc; auto. eapply c_dist; eauto.
Qed.

(** *** the final store *)
Lemma store_spec : forall enq total l g sol,
  (forall n, In n (map fst l ++ [g]) -> exists q h, dget enq n = Some (q, h)) ->
  NoDup (map fst l ++ [g]) ->
  exists sol', store (map mkstep l ++ [(Some g, None)]) total enq sol = Ok sol' /\
    plan sol' = plan sol ++ map snd l /\
    (forall n a, In (n, a) l -> dget (policy sol') n = Some (Some a)) /\
    dget (policy sol') g = Some None /\
    (forall n, In n (map fst l ++ [g]) -> exists v, dget (values sol') n = Some v /\ (v == total - D enq n)%Q) /\
    (forall n, ~ In n (map fst l ++ [g]) -> dget (policy sol') n = dget (policy sol) n /\
                                            dget (values sol') n = dget (values sol) n).
Proof.
  induction l as [|[n a] l IH]; intros g sol En ND.
  - simpl. unfold dgetE. destruct (En g (or_introl eq_refl)) as (q & h & E). rewrite E. simpl.
    eexists. split; [reflexivity|]. simpl. split; [now rewrite app_nil_r|]. split; [intros n a []|].
    split; [apply dget_dset_same|]. split.
    + intros n [ <- |[]]. rewrite dget_dset_same. eexists. split; [reflexivity|]. unfold D. rewrite E. simpl. lra.
    + intros n N. rewrite !dget_dset_other; auto; intros ->; apply N; now left.
  - cbn [map app store mkstep fst snd]. unfold dgetE. destruct (En n (or_introl eq_refl)) as (q & h & E). rewrite E.
    cbn [bind fst]. simpl in ND. inversion ND as [|? ? N1 N2]; subst.
    match goal with |- context [store _ _ _ ?s] => destruct (IH g s) as (sol' & S1 & S2 & S3 & S4 & S5 & S6); auto end.
    { intros m I. apply En. now right. }
    exists sol'. split; [exact S1|]. cbn [plan policy values] in *.
    split; [rewrite S2; now rewrite <- app_assoc|].
    split; [|split; [exact S4|split]].
    + intros m b [X|X]; [|auto]. injection X as <- <-. destruct (S6 n N1) as [X _]. rewrite X. apply dget_dset_same.
    + intros m [ <- |I]; [|auto]. destruct (S6 n N1) as [_ X]. rewrite X, dget_dset_same. eexists. split; [reflexivity|].
      unfold D. rewrite E. simpl. lra.
    + intros m N. assert (Nm : ~ In m (map fst l ++ [g])) by (intros X; apply N; now right).
      destruct (S6 m Nm) as [X Y]. rewrite X, Y, !dget_dset_other; auto; intros ->; apply N; now left.
Qed.

(** *** result of the search *)
Definition found (enq : enq_t) (l : list (St * A)) (g : St) (total : Q) : Prop :=
  goal p g = true /\ linked l g /\ first l g = s0 /\ NoDup (map fst l ++ [g]) /\ l <> [] /\
  tele (D enq) l g /\ (D enq s0 == 0)%Q /\ (total == D enq g + weight p * heur p g)%Q /\
  (forall n, In n (map fst l ++ [g]) -> exists q h, dget enq n = Some (q, h)).

Lemma found_goal : forall queue enq expl x queue1, inv queue enq expl ->
  pop_min queue = Some (x, queue1) -> goal p (e_node x) = true -> goal p s0 = false ->
  exists l, rebuild (Datatypes.S (length expl)) expl (e_parent x) [(e_parent x, e_label x); (Some (e_node x), None)]
            = Ok (map mkstep l ++ [(Some (e_node x), None)]) /\
            found enq l (e_node x) (e_f x).
Proof.
  intros queue enq expl x queue1 [C Cl] P G G0.
  pose proof (pop_min_spec queue) as PS. rewrite P in PS. destruct PS as [Perm _].
  assert (Ix : In x queue) by (eapply Permutation_in; [symmetry; exact Perm|now left]).
  assert (N : ~ In (e_node x) (dkeys expl)) by (intros X; apply (c_nogoal _ _ _ C) in X; congruence).
  pose proof (popped_dist _ _ _ _ _ C P N) as Dx.
  destruct (c_entry _ _ _ C x Ix) as [[S|Ch] (q & h & Eq & Lq)].
  { destruct S as (_ & _ & E & _). congruence. }
  destruct Ch as (pn & a & E1 & E2 & E3 & E4 & E5 & E6 & E7 & E8).
  destruct (c_branch _ _ _ C pn E3) as (l & Br).
  pose proof (branch_keys _ _ _ Br) as BK. pose proof (branch_nodup _ _ _ Br) as BN.
  destruct (branch_linked _ _ _ Br) as [BL BF].
  exists (l ++ [(pn, a)]). split.
  - rewrite E1, E2. rewrite (rebuild_branch _ _ _ Br).
    + rewrite map_app. simpl. rewrite <- app_assoc. reflexivity.
    + assert (length (map fst l ++ [pn]) <= length (dkeys expl)).
      { apply NoDup_incl_length; auto. intros y I. apply in_app_iff in I. apply BK. simpl in I.
        destruct I as [I|[I|[]]]; [now right|now left]. }
      rewrite app_length, map_length in H. unfold dkeys in H. rewrite map_length in H. simpl in H. lia.
  - unfold found. split; auto. split; [apply linked_snoc; auto|]. split; [rewrite first_snoc; auto|].
    split.
    { rewrite map_app. simpl. apply (Permutation_NoDup (l := e_node x :: map fst l ++ [pn])).
      - apply Permutation_cons_append.
      - constructor; auto. intros I. apply N. apply BK. apply in_app_iff in I. simpl in I.
        destruct I as [I|[I|[]]]; [now right|now left]. }
    split; [destruct l; discriminate|]. split.
    { apply tele_snoc; [eapply branch_tele; eauto|]. rewrite <- Dx. exact E7. }
    split; [apply (c_start _ _ _ C)|]. split; [rewrite E8; lra|].
    intros n I. rewrite map_app in I. apply in_app_iff in I. simpl in I. destruct I as [I|[ <- |[]]].
    + apply (c_enq _ _ _ C). apply BK. apply in_app_iff in I. simpl in I. destruct I as [I|[I|[]]]; [now right|now left].
    + eauto.
Qed.

Lemma search_found : forall fuel queue c enq expl et path total enq',
  goal p s0 = false -> inv queue enq expl ->
  search fuel p queue c enq expl et = Ok (path, total, enq') ->
  path = [] \/ exists l g, path = map mkstep l ++ [(Some g, None)] /\ found enq' l g total.
Proof.
  induction fuel as [|fuel IH]; intros queue c enq expl et path total enq' G0 I E; [discriminate|].
  cbn [search] in E. destruct (pop_min queue) as [[x queue1]|] eqn:P.
  2:{ injection E as <- <- <-. now left. }
  destruct (goal p (e_node x)) eqn:G.
  - destruct (found_goal _ _ _ _ _ I P G G0) as (l & R & F). rewrite R in E. cbn [bind] in E.
    injection E as <- <- <-. right. eauto.
  - destruct (dmem expl (e_node x)) eqn:M.
    + apply dmem_true in M. eapply IH; [auto| |exact E]. eapply inv_skip; eauto.
    + apply dmem_false in M.
      destruct (fold_left _ _ _) as [[q2 c2] e2] eqn:F.
      destruct (inv_step _ _ _ _ _ _ _ _ _ I P M G F) as (I2 & _). eapply IH; eauto.
Qed.

(** *** optimality *)
Section Optimal.
Hypothesis w1 : weight p = 1%Q.
Hypothesis cost_nonneg : forall s a, In a (apps p s) -> (0 <= cost p s a (next p s a))%Q.
Hypothesis consistent : forall s a, In a (apps p s) ->
  (heur p s <= cost p s a (next p s a) + heur p (next p s a))%Q.

Lemma exec_nonneg : forall s l s' c, exec s l s' c -> (0 <= c)%Q.
Proof. induction 1 as [s|s a l s' c I E IH]; [lra|]. pose proof (cost_nonneg s a I). lra. Qed.

Lemma exec_consistent : forall s l s' c, exec s l s' c -> (heur p s <= c + heur p s')%Q.
Proof. induction 1 as [s|s a l s' c I E IH]; [lra|]. pose proof (consistent s a I). lra. Qed.

(** Explored nodes have optimal distance. *)
Definition opt (enq : enq_t) (expl : expl_t) : Prop :=
  forall n l c, In n (dkeys expl) -> exec s0 l n c -> (D enq n <= c)%Q.

Lemma exec_snoc_inv : forall s l s' c, exec s l s' c -> forall l' a, l = l' ++ [a] ->
  exists m c', exec s l' m c' /\ In a (apps p m) /\ next p m a = s' /\ (c == c' + cost p m a s')%Q.
Proof.
  induction 1 as [s|s a0 l s' c I E IH]; intros l' a El.
  - destruct l'; discriminate.
  - destruct l' as [|b l']; simpl in El; injection El as -> ->.
    + inversion E; subst. exists s, 0%Q. split; [constructor|]. split; auto. split; auto. lra.
    + destruct (IH l' a eq_refl) as (m & c' & E1 & E2 & E3 & E4).
      exists m, (cost p s b (next p s b) + c')%Q. split; [econstructor; eauto|]. split; auto. split; auto. lra.
Qed.

(** The first unexplored node of an execution, its cost and the rest of the execution. *)
Lemma first_unexplored : forall (expl : expl_t) s l g c, exec s l g c -> In s (dkeys expl) -> ~ In g (dkeys expl) ->
  exists l1 m a l2 c1 c2, exec s l1 m c1 /\ In m (dkeys expl) /\ In a (apps p m) /\
    ~ In (next p m a) (dkeys expl) /\ exec (next p m a) l2 g c2 /\
    (c == c1 + cost p m a (next p m a) + c2)%Q.
Proof.
  intros expl s l g c E. induction E as [s|s a l g c I E IH]; intros Is Ng; [contradiction|].
  destruct (dmem expl (next p s a)) eqn:M.
  - apply dmem_true in M. destruct (IH M Ng) as (l1 & m & b & l2 & c1 & c2 & X1 & X2 & X3 & X4 & X5 & X6).
    exists (a :: l1), m, b, l2, (cost p s a (next p s a) + c1)%Q, c2.
    split; [econstructor; eauto|]. repeat (split; auto). lra.
  - apply dmem_false in M. exists [], s, a, l, 0%Q, c. split; [constructor|]. repeat (split; auto). lra.
Qed.

(** The popped priority is a lower bound on the cost plus heuristic of every execution that leaves
    the explored set. *)
Lemma popped_bound : forall queue enq expl x queue1, inv queue enq expl -> opt enq expl ->
  pop_min queue = Some (x, queue1) ->
  forall l n c, exec s0 l n c -> ~ In n (dkeys expl) -> (e_f x <= c + heur p n)%Q.
Proof.
  intros queue enq expl x queue1 [C Cl] O P l n c E N.
  pose proof (pop_min_spec queue) as PS. rewrite P in PS. destruct PS as [Perm Min].
  destruct (c_src _ _ _ C) as [[E0 (z & Ez & Sz)]|[Is Ch]].
  - assert (Iz : In x queue) by (eapply Permutation_in; [symmetry; exact Perm|now left]).
    rewrite Ez in Iz. destruct Iz as [ <- |[]]. destruct Sz as (_ & _ & _ & _ & Ef). rewrite Ef.
    pose proof (exec_consistent _ _ _ _ E). rewrite w1. lra.
  - destruct (first_unexplored expl s0 l n c E Is N) as (l1 & m & a & l2 & c1 & c2 & X1 & X2 & X3 & X4 & X5 & X6).
    destruct (Cl m a X2 X3) as [Y|(q & h & Eq & Lq)]; [contradiction|].
    destruct (c_open _ _ _ C _ _ _ Eq X4) as (y & Iy & Ny & Dy).
    specialize (Min y Iy). destruct (Ch y Iy) as (_ & _ & _ & _ & _ & _ & _ & _ & _ & Fy).
    rewrite Fy, Ny, Dy, w1 in Min.
    pose proof (O m l1 c1 X2 X1). pose proof (exec_consistent _ _ _ _ X5). lra.
Qed.

Lemma opt_step : forall queue c enq expl x queue1 queue2 c2 enq2,
  inv queue enq expl -> opt enq expl -> pop_min queue = Some (x, queue1) -> ~ In (e_node x) (dkeys expl) ->
  goal p (e_node x) = false ->
  let expl' := dset expl (e_node x) (e_parent x, e_label x) in
  fold_left (relax p expl' (e_node x) (e_dist x)) (extender p (e_node x) expl') (queue1, c, enq) = (queue2, c2, enq2) ->
  opt enq2 expl'.
Proof.
  intros queue c enq expl x queue1 queue2 c2 enq2 I O P N G expl' F n l cc In' E.
  pose proof I as [C Cl].
  destruct (core_explore _ _ _ _ _ C P N G) as [C1 Is]. fold expl' in C1, Is.
  pose proof (popped_dist _ _ _ _ _ C P N) as Dx.
  assert (Ix : In (e_node x) (dkeys expl')) by (apply dkeys_dset; auto).
  assert (Nb0 : forall m cst a, In (m, cst, a) (extender p (e_node x) expl') ->
            In a (apps p (e_node x)) /\ m = next p (e_node x) a /\ cst = cost p (e_node x) a m)
    by (intros m cst a Z; apply extender_spec in Z; tauto).
  destruct (fold_relax _ _ _ _ _ _ _ _ _ _ C1 Ix Is Dx Nb0 F) as (_ & L2 & _ & _).
  rewrite (D_expl _ _ _ _ L2 In'). apply dkeys_dset in In'. destruct In' as [ -> |In']; [|eapply O; eauto].
  pose proof (popped_bound _ _ _ _ _ I O P _ _ _ E N) as B. rewrite <- Dx.
  assert (Ix' : In x queue).
  { pose proof (pop_min_spec queue) as PS. rewrite P in PS. destruct PS as [Perm _].
    eapply Permutation_in; [symmetry; exact Perm|now left]. }
  destruct (c_entry _ _ _ C x Ix') as [[(_ & _ & E3 & E4 & E5)|(_ & _ & _ & _ & _ & _ & _ & _ & _ & Fx)] _].
  - rewrite E4. eapply exec_nonneg; eauto.
  - rewrite Fx, w1 in B. lra.
Qed.

Lemma search_optimal : forall fuel queue c enq expl et path total enq',
  goal p s0 = false -> inv queue enq expl -> opt enq expl ->
  search fuel p queue c enq expl et = Ok (path, total, enq') -> path <> [] ->
  forall l g cc, exec s0 l g cc -> goal p g = true -> (total <= cc + heur p g)%Q.
Proof.
  induction fuel as [|fuel IH]; intros queue c enq expl et path total enq' G0 I O E NE l g cc X Gg; [discriminate|].
  cbn [search] in E. destruct (pop_min queue) as [[x queue1]|] eqn:P.
  2:{ injection E as <- <- <-. congruence. }
  destruct (goal p (e_node x)) eqn:G.
  - destruct (found_goal _ _ _ _ _ I P G G0) as (l' & R & F). rewrite R in E. cbn [bind] in E.
    injection E as <- <- <-. eapply popped_bound; eauto.
    intros J. apply (c_nogoal _ _ _ (proj1 I)) in J. congruence.
  - destruct (dmem expl (e_node x)) eqn:M.
    + apply dmem_true in M. eapply IH; [auto| | |exact E| | |]; eauto. eapply inv_skip; eauto.
    + apply dmem_false in M. destruct (fold_left _ _ _) as [[q2 c2] e2] eqn:F.
      destruct (inv_step _ _ _ _ _ _ _ _ _ I P M G F) as (I2 & _).
      pose proof (opt_step _ _ _ _ _ _ _ _ _ I O P M G F) as O2. eapply IH; eauto.
Qed.
End Optimal.

(** *** termination and completeness *)
Section Complete.
Variable univ : list St.
Hypothesis univ_nodup : NoDup univ.
Hypothesis univ_start : In s0 univ.
Hypothesis univ_closed : forall s a, In s univ -> In a (apps p s) -> In (next p s a) univ.

Fixpoint todo (u : list St) (expl : expl_t) : nat :=
  match u with
  | [] => 0
  | s :: r => (if dmem expl s then 0 else length (apps p s)) + todo r expl
  end.

Lemma todo_dset : forall u expl n v, NoDup u -> In n u -> ~ In n (dkeys expl) ->
  todo u (dset expl n v) + length (apps p n) = todo u expl.
Proof.
  induction u as [|s u IH]; intros expl n v ND I N; [destruct I|]. cbn [todo].
  inversion ND as [|? ? N1 N2]; subst. destruct I as [ -> |I].
  - assert (E1 : dmem (dset expl n v) n = true) by (apply dmem_true; apply dkeys_dset; auto).
    assert (E2 : dmem expl n = false) by now apply dmem_false.
    rewrite E1, E2. assert (T : forall u', ~ In n u' -> todo u' (dset expl n v) = todo u' expl).
    { induction u' as [|s' u' IH']; intros N'; cbn [todo]; auto. rewrite IH' by (intros X; apply N'; now right).
      assert (s' <> n) by (intros ->; apply N'; now left).
      unfold dmem. now rewrite dget_dset_other by congruence. }
    rewrite T by auto. lia.
  - assert (s <> n) by (intros ->; contradiction).
    rewrite <- (IH expl n v N2 I N). unfold dmem. rewrite dget_dset_other by congruence. lia.
Qed.

Definition in_univ (queue : list entry) (expl : expl_t) : Prop :=
  (forall x, In x queue -> In (e_node x) univ) /\ incl (dkeys expl) univ.

Lemma fold_univ : forall nbs queue c enq expl cur d queue' c' enq',
  (forall m cst a, In (m, cst, a) nbs -> In m univ) ->
  (forall x, In x queue -> In (e_node x) univ) ->
  fold_left (relax p expl cur d) nbs (queue, c, enq) = (queue', c', enq') ->
  forall x, In x queue' -> In (e_node x) univ.
Proof.
  induction nbs as [|[[m cst] a] nbs IH]; intros queue c enq expl cur d queue' c' enq' Nb Q E.
  - injection E as <- <- <-. auto.
  - cbn [fold_left] in E. destruct (relax p expl cur d (queue, c, enq) (m, cst, a)) as [[q1 c1] e1] eqn:R.
    eapply IH; [| |exact E].
    + intros m' cst' a' I. apply (Nb m' cst' a'). now right.
    + assert (Im : In m univ) by (apply (Nb m cst a); now left).
      unfold relax in R. destruct (dmem expl m); [injection R as <- <- <-; auto|].
      destruct (dget enq m) as [[q h]|].
      * destruct (Qle_bool q (d + cst)); injection R as <- <- <-; auto. intros x [ <- |I]; auto.
      * injection R as <- <- <-. intros x [ <- |I]; auto.
Qed.

Lemma search_terminates : forall fuel queue c enq expl et,
  goal p s0 = false -> inv queue enq expl -> in_univ queue expl ->
  length queue + todo univ expl < fuel ->
  exists path total enq', search fuel p queue c enq expl et = Ok (path, total, enq') /\
    (path = [] -> forall l g cc, exec s0 l g cc -> goal p g = false).
Proof.
  induction fuel as [|fuel IH]; intros queue c enq expl et G0 I [U1 U2] M; [lia|].
  cbn [search]. destruct (pop_min queue) as [[x queue1]|] eqn:P.
  - pose proof (pop_min_spec queue) as PS. rewrite P in PS. destruct PS as [Perm _].
    assert (Sub : forall y, In y queue1 -> In y queue)
      by (intros y J; eapply Permutation_in; [symmetry; exact Perm|now right]).
    assert (Ix : In x queue) by (eapply Permutation_in; [symmetry; exact Perm|now left]).
    pose proof (Permutation_length Perm) as PL. simpl in PL.
    destruct (goal p (e_node x)) eqn:G.
    + destruct (found_goal _ _ _ _ _ I P G G0) as (l & R & F). rewrite R. cbn [bind].
      do 3 eexists. split; [reflexivity|]. intros X. exfalso. destruct l; discriminate.
    + destruct (dmem expl (e_node x)) eqn:Me.
      * apply dmem_true in Me. apply IH; auto; [eapply inv_skip; eauto|split; auto|lia].
      * apply dmem_false in Me.
        destruct (fold_left _ _ _) as [[q2 c2] e2] eqn:F.
        destruct (inv_step _ _ _ _ _ _ _ _ _ I P Me G F) as (I2 & _ & Ln).
        pose proof (todo_dset univ expl (e_node x) (e_parent x, e_label x) univ_nodup (U1 x Ix) Me) as T.
        apply IH; auto; [|lia]. split.
        -- eapply fold_univ; [| |exact F].
           ++ intros m cst a J. apply extender_spec in J. destruct J as (Ja & -> & _). apply univ_closed; auto.
           ++ intros y J. apply U1; auto.
        -- intros n J. apply dkeys_dset in J. destruct J as [ -> |J]; auto.
  - pose proof (pop_min_spec queue) as PS. rewrite P in PS. subst queue.
    do 3 eexists. split; [reflexivity|]. intros _ l g cc E.
    destruct I as [C Cl]. destruct (c_src _ _ _ C) as [[_ (z & Ez & _)]|[Is _]]; [discriminate|].
    assert (In g (dkeys expl)).
    { revert Is E. generalize s0 at 1 2. intros s Is E. induction E as [s|s a l g cc Ia E IH']; auto.
      apply IH'. destruct (Cl s a Is Ia) as [X|(q & h & Eq & _)]; auto.
      destruct (dmem expl (next p s a)) eqn:Me; [now apply dmem_true|]. apply dmem_false in Me.
      destruct (c_open _ _ _ C _ _ _ Eq Me) as (y & [] & _). }
    now apply (c_nogoal _ _ _ C).
Qed.
End Complete.

End Proofs.
