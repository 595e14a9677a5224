(** Invariants of the C++ A* (used by CppAstarProps.v). *)
From Coq Require Import List Bool Arith ZArith Lia Permutation.
From Verif Require Import Py PyList PyMore CppAstarModel CppHeapProofs.
Import ListNotations.
Open Scope nat_scope.

Lemma fgt_asym : forall a b, fgt a b = true -> fgt b a = false.
Proof. intros [x|] [y|] H; cbn in *; try discriminate; auto. lia. Qed.

Lemma fgt_trans : forall a b c, fgt a b = false -> fgt b c = false -> fgt a c = false.
Proof. intros [x|] [y|] [z|] H1 H2; cbn in *; try discriminate; auto. lia. Qed.

Section Proofs.
Context {St A : Type} {ES : PyEq St}.
Variable p : @problem St A.
Variable r : St.
Notation graph := (@graph St A).

(** Specification: executions of the domain, with their total cost. *)
Inductive exec : St -> list A -> St -> Z -> Prop :=
| ex_nil : forall s, exec s [] s 0%Z
| ex_cons : forall s a l s' c, In a (apps p s) -> exec (next p s a) l s' c ->
    exec s (a :: l) s' (cost p s a (next p s a) + c)%Z.

Lemma exec_app : forall s l1 m c1, exec s l1 m c1 -> forall l2 g c2, exec m l2 g c2 ->
  exec s (l1 ++ l2) g (c1 + c2)%Z.
Proof.
  induction 1 as [s|s a l s' c I E IH]; intros l2 g c2 E2; [exact E2|].
  cbn [app]. rewrite <- Z.add_assoc. constructor; auto.
Qed.

Lemma exec_snoc : forall s l m c a, exec s l m c -> In a (apps p m) ->
  exec s (l ++ [a]) (next p m a) (c + cost p m a (next p m a))%Z.
Proof.
  intros s l m c a E I. eapply exec_app; eauto.
  replace (cost p m a (next p m a)) with (cost p m a (next p m a) + 0)%Z by lia. constructor; auto. constructor.
Qed.

(** *** the graph *)
Lemma at_get : forall (g : graph) s n, dget g s = Some n -> at_ g s = n.
Proof. intros g s n E. unfold at_. now rewrite E. Qed.

Lemma at_ext : forall (g g' : graph) s, dget g s = dget g' s -> at_ g s = at_ g' s.
Proof. intros g g' s E. unfold at_. now rewrite E. Qed.

Lemma at_dset : forall (g : graph) s n t, at_ (dset g s n) t = if pyeqb s t then n else at_ g t.
Proof. intros. unfold at_. rewrite dget_dset. now destruct (pyeqb s t). Qed.

Lemma dmem_dset : forall (g : graph) s n t, dmem (dset g s n) t = pyeqb s t || dmem g t.
Proof. intros. unfold dmem. rewrite dget_dset. now destruct (pyeqb s t). Qed.

Lemma dmem_get : forall (g : graph) s, dmem g s = true <-> dget g s = Some (at_ g s).
Proof. intros. unfold dmem, at_. destruct (dget g s); split; congruence. Qed.

(** Heap order depends on the nodes of the queue only. *)
Lemma heap_ext : forall X (g1 g2 : X -> X -> bool) v, (forall a b, In a v -> In b v -> g1 a b = g2 a b) ->
  heap g1 v -> heap g2 v.
Proof.
  intros X g1 g2 v H Hp i a b N Ea Eb. rewrite <- H; try (eapply nth_error_In; eauto). eapply Hp; eauto.
Qed.

Definition stale (n : @node St A) : Prop := best_action n = None /\ solved n = false.

(** The node [s] has been reached by the best transition known for it. *)
Definition linked (g : graph) (closed : list St) (s : St) : Prop :=
  exists pr a gp, In pr closed /\ In a (apps p pr) /\ next p pr a = s /\
    best_parent (at_ g s) = Some (pr, a, cost p pr a s) /\
    gscore (at_ g pr) = Some gp /\ gscore (at_ g s) = Some (gp + cost p pr a s)%Z /\
    fscore (at_ g s) = Some (gp + cost p pr a s + heur p s)%Z.

Record core (g : graph) (queue closed : list St) : Prop := {
  c_fresh : forall s, dmem g s = true -> stale (at_ g s);
  c_root : dmem g r = true /\ gscore (at_ g r) = Some 0%Z /\ fscore (at_ g r) = Some (heur p r) /\
           best_parent (at_ g r) = None;
  c_link : forall s, dmem g s = true -> s <> r -> linked g closed s;
  c_closed : forall s, In s closed -> dmem g s = true /\ goal p s = false;
  c_order : forall l1 s l2, closed = l1 ++ s :: l2 -> ~ In s l2 /\
             (s <> r -> exists pr a c, best_parent (at_ g s) = Some (pr, a, c) /\ In pr l2);
  c_queue : forall s, In s queue -> dmem g s = true;
  c_open : forall s, dmem g s = true -> ~ In s closed -> In s queue }.

Definition covered (g : graph) (closed : list St) (s : St) (a : A) : Prop :=
  dmem g (next p s a) = true /\
  (In (next p s a) closed \/
   exists gs gn, gscore (at_ g s) = Some gs /\ gscore (at_ g (next p s a)) = Some gn /\
     (gn <= gs + cost p s a (next p s a))%Z).

(** What one relaxation may change. *)
Definition evolves (closed : list St) (g g' : graph) : Prop :=
  (forall s, In s closed -> dget g' s = dget g s) /\
  (forall s, dmem g s = true -> dmem g' s = true) /\
  (forall s v, dmem g s = true -> gscore (at_ g s) = Some v -> exists v', gscore (at_ g' s) = Some v' /\ (v' <= v)%Z).

Lemma evolves_refl : forall closed g, evolves closed g g.
Proof. intros. repeat split; auto. intros s v _ E. exists v. split; auto. lia. Qed.

Lemma evolves_trans : forall closed a b c, evolves closed a b -> evolves closed b c -> evolves closed a c.
Proof.
  intros closed a b c (A1 & A2 & A3) (B1 & B2 & B3). repeat split; auto.
  - intros s I. rewrite B1, A1; auto.
  - intros s v M E. destruct (A3 _ _ M E) as (v1 & E1 & L1). destruct (B3 _ _ (A2 _ M) E1) as (v2 & E2 & L2).
    exists v2. split; auto. lia.
Qed.

Lemma covered_mono : forall closed g g' s a, evolves closed g g' -> In s closed -> covered g closed s a ->
  covered g' closed s a.
Proof.
  intros closed g g' s a (E1 & E2 & E3) I [M [C|(gs & gn & G1 & G2 & L)]].
  - split; auto.
  - split; auto. right. destruct (E3 _ _ M G2) as (gn' & G2' & L').
    exists gs, gn'. rewrite (at_ext g' g s) by auto. split; auto. split; auto. lia.
Qed.

Lemma gscore_known : forall g queue closed s, core g queue closed -> dmem g s = true ->
  exists v, gscore (at_ g s) = Some v /\ fscore (at_ g s) = Some (v + heur p s)%Z.
Proof.
  intros g queue closed s C M. destruct (py_dec s r) as [ -> |N].
  - destruct (c_root _ _ _ C) as (_ & G & F & _). exists 0%Z. split; auto.
  - destruct (c_link _ _ _ C s M N) as (pr & a & gp & _ & _ & _ & _ & _ & G & F). eauto.
Qed.

Lemma in_split_order : forall (s : St) l, In s l -> exists l1 l2, l = l1 ++ s :: l2.
Proof. intros. now apply in_split. Qed.

Definition improves (closed : list St) (x : St) (g : graph) (a : A) : bool :=
  let y := next p x a in
  dmem g y && negb (pymem y closed) && flt (fadd (gscore (at_ g x)) (cost p x a y)) (gscore (at_ g y)).

Lemma expand_core : forall g queue closed x a g' queue',
  core g queue closed -> In x closed -> In r closed -> In a (apps p x) ->
  expand p closed x (g, queue) a = (g', queue') ->
  core g' queue' closed /\ evolves closed g g' /\ covered g' closed x a /\ length queue' <= Datatypes.S (length queue) /\
  (forall s, In s queue -> In s queue') /\
  (improves closed x g a = false -> heap (after g) queue -> heap (after g') queue') /\
  (improves closed x g a = false -> forall s, dmem g s = true -> dget g' s = dget g s) /\
  (forall s, dmem g' s = true -> dmem g s = false ->
     s = next p x a /\ gscore (at_ g' s) = fadd (gscore (at_ g x)) (cost p x a s)).
Proof.
  intros g queue closed x a g' queue' C Ix Ir Ia E. unfold expand in E. cbv zeta in E.
  remember (next p x a) as y eqn:Ey.
  destruct (gscore_known _ _ _ x C (proj1 (c_closed _ _ _ C x Ix))) as (gx & Gx & Fx).
  assert (Mx : dmem g x = true) by (apply C; auto).
  destruct (pymem y closed) eqn:PY.
  - apply pymem_true in PY. unfold emplace in E.
    rewrite (proj1 (c_closed _ _ _ C y PY)) in E. injection E as <- <-.
    split; [auto|]. split; [apply evolves_refl|]. split.
    + split; [rewrite <- Ey; apply C; auto|]. left. now rewrite <- Ey.
    + split; auto. split; auto. split; auto. split; auto. intros s M M'. congruence.
  - assert (NY : ~ In y closed) by exact (proj1 (pymem_false y closed) PY).
    assert (Nxy : x <> y) by (intros ->; auto). assert (Nry : r <> y) by (intros <-; auto).
    set (c := cost p x a y) in *.
    (* the update *)
    assert (UPD : forall (g1 : graph), (forall s, s <> y -> dget g1 s = dget g s) ->
      (dmem g y = true -> g1 = g) -> stale (at_ g1 y) ->
      (dmem g y = true -> forall v, gscore (at_ g y) = Some v -> (gx + c < v)%Z) ->
      let g2 := dset g1 y {| gscore := Some (gx + c)%Z; fscore := Some (gx + c + heur p y)%Z; best_parent := Some (x, a, c);
                             best_action := best_action (at_ g1 y); solved := solved (at_ g1 y) |} in
      core g2 (heap_push (after g2) queue y) closed /\ evolves closed g g2 /\ covered g2 closed x a /\
      length (heap_push (after g2) queue y) <= Datatypes.S (length queue) /\
      (forall s, In s queue -> In s (heap_push (after g2) queue y)) /\
      (dmem g y = false -> heap (after g) queue -> heap (after g2) (heap_push (after g2) queue y)) /\
      (dmem g y = false -> forall s, dmem g s = true -> dget g2 s = dget g s) /\
      (forall s, dmem g2 s = true -> dmem g s = false -> s = y /\ gscore (at_ g2 s) = Some (gx + cost p x a s)%Z)).
    { intros g1 G1 GY SY IMP g2.
      assert (O : forall s, s <> y -> dget g2 s = dget g s).
      { intros s N. unfold g2. rewrite dget_dset_other by congruence. auto. }
      assert (Oa : forall s, s <> y -> at_ g2 s = at_ g s) by (intros; apply at_ext; auto).
      assert (Ya : at_ g2 y = {| gscore := Some (gx + c)%Z; fscore := Some (gx + c + heur p y)%Z; best_parent := Some (x, a, c);
                             best_action := best_action (at_ g1 y); solved := solved (at_ g1 y) |}).
      { unfold g2. rewrite at_dset, pyeqb_refl. reflexivity. }
      assert (Om : forall s, s <> y -> dmem g2 s = dmem g s) by (intros s N; unfold dmem; rewrite O; auto).
      assert (Ym : dmem g2 y = true) by (unfold g2; rewrite dmem_dset, pyeqb_refl; reflexivity).
      assert (Cl : forall s, In s closed -> s <> y) by (intros s I ->; auto).
      pose proof (heap_push_perm (after g2) queue y) as P.
      split; [|split; [|split; [|split; [|split; [|split; [|split]]]]]].
      - constructor.
        + intros s M. destruct (py_dec s y) as [ -> |N]; [rewrite Ya; exact SY|].
          rewrite Oa by auto. apply C. now rewrite <- Om.
        + rewrite Om, Oa by auto. apply C.
        + intros s M N. destruct (py_dec s y) as [ -> |Ns].
          * exists x, a, gx. rewrite Ya. cbn. rewrite Oa by auto. repeat split; auto.
          * rewrite Om in M by auto. destruct (c_link _ _ _ C s M N) as (pr & b & gp & L1 & L2 & L3 & L4 & L5 & L6 & L7).
            exists pr, b, gp. rewrite Oa by auto. rewrite (Oa pr) by auto. repeat split; auto.
        + intros s I. rewrite Om by auto. now apply C.
        + intros l1 s l2 Es. destruct (c_order _ _ _ C _ _ _ Es) as [O1 O2]. split; auto.
          intros N. rewrite Oa; auto. apply Cl. rewrite Es. apply in_app_iff. right. now left.
        + intros s I. apply (Permutation_in _ P) in I as [ <- |I]; auto.
          destruct (py_dec s y) as [ -> |N]; auto. rewrite Om by auto. apply (c_queue _ _ _ C); auto.
        + intros s M NI. apply (Permutation_in _ (Permutation_sym P)). destruct (py_dec s y) as [ -> |N]; [now left|].
          right. apply (c_open _ _ _ C); auto. now rewrite <- Om.
      - repeat split.
        + intros s I. apply O. auto.
        + intros s M. destruct (py_dec s y) as [ -> |N]; auto. now rewrite Om.
        + intros s v M V. destruct (py_dec s y) as [ -> |N].
          * exists (gx + c)%Z. rewrite Ya. split; auto. specialize (IMP M v V). lia.
          * exists v. rewrite Oa by auto. split; auto. lia.
      - unfold covered. rewrite <- Ey. split; auto. right. exists gx, (gx + c)%Z. rewrite Oa by auto. rewrite Ya.
        split; auto. split; auto. unfold c. lia.
      - rewrite (Permutation_length P). auto.
      - intros s I. apply (Permutation_in _ (Permutation_sym P)). now right.
      - intros MY H. apply heap_push_heap.
        + intros u v. apply fgt_asym.
        + intros u v w. apply fgt_trans.
        + apply (heap_ext _ (after g)); auto. intros u v Iu Iv.
          assert (Nu : u <> y) by (intros ->; apply (c_queue _ _ _ C) in Iu; congruence).
          assert (Nv : v <> y) by (intros ->; apply (c_queue _ _ _ C) in Iv; congruence).
          unfold after. now rewrite !Oa.
      - intros MY s M. apply O. congruence.
      - intros s M M'. destruct (py_dec s y) as [ -> |N]; [|rewrite Om in M by auto; congruence].
        rewrite Ya. auto. }
    unfold emplace in E. unfold improves. rewrite <- Ey, PY. cbn [negb]. rewrite andb_true_r.
    destruct (dmem g y) eqn:MY.
    + cbn [orb andb] in E |- *. rewrite Gx in *. cbn [fadd] in E |- *. fold c.
      destruct (gscore_known _ _ _ y C MY) as (gy & Gy & _). rewrite Gy in *.
      destruct (flt (Some (gx + c)%Z) (Some gy)) eqn:L.
      * injection E as <- <-. destruct (UPD g) as (U1 & U2 & U3 & U4 & U5 & U6 & U7 & U8); auto; [apply C; auto|intros _ v V; injection V as <-; cbn in L; lia|].
        repeat (split; [first [assumption|discriminate]|]). first [exact U8|rewrite Ey in U8; exact U8].
      * injection E as <- <-. split; auto. split; [apply evolves_refl|].
        split; [|split; auto; split; auto; split; auto; split; auto; intros s M M'; congruence].
        unfold covered. rewrite <- Ey. split; auto. right. exists gx, gy. repeat split; auto. cbn in L. unfold c in L. lia.
    + cbn [orb andb] in E |- *.
      assert (Gx' : gscore (at_ (dset g y new_node) x) = Some gx).
      { rewrite at_dset. destruct (pyeqb_spec y x); [congruence|auto]. }
      rewrite Gx' in E. cbn [fadd] in E. injection E as <- <-.
      destruct (UPD (dset g y new_node)) as (U1 & U2 & U3 & U4 & U5 & U6 & U7 & U8); try discriminate.
      * intros s N. apply dget_dset_other. congruence.
      * rewrite at_dset, pyeqb_refl. split; reflexivity.
      * repeat (split; [assumption|]). rewrite Gx. cbn [fadd]. auto.
Qed.

(** The relaxation of a list of actions, and its stability: no queued node is reached more cheaply. *)
Fixpoint steady (closed : list St) (x : St) (l : list A) (st : graph * list St) : Prop :=
  match l with
  | [] => True
  | a :: l' => improves closed x (fst st) a = false /\ steady closed x l' (expand p closed x st a)
  end.

Lemma fold_core : forall closed x l g queue g' queue',
  core g queue closed -> In x closed -> In r closed -> incl l (apps p x) ->
  fold_left (expand p closed x) l (g, queue) = (g', queue') ->
  core g' queue' closed /\ evolves closed g g' /\ (forall a, In a l -> covered g' closed x a) /\
  length queue' <= length l + length queue /\
  (steady closed x l (g, queue) -> heap (after g) queue -> heap (after g') queue') /\
  (steady closed x l (g, queue) -> forall s, dmem g s = true -> dget g' s = dget g s) /\
  (steady closed x l (g, queue) -> forall s, dmem g' s = true -> dmem g s = false ->
     exists a, In a l /\ s = next p x a /\ gscore (at_ g' s) = fadd (gscore (at_ g x)) (cost p x a s)).
Proof.
  intros closed x. induction l as [|a l IH]; intros g queue g' queue' C Ix Ir Il E.
  - injection E as <- <-. split; auto. split; [apply evolves_refl|]. split; [intros ? []|]. split; auto.
    split; auto. split; auto. intros _ s M M'. congruence.
  - cbn [fold_left] in E. destruct (expand p closed x (g, queue) a) as [g1 q1] eqn:E1.
    destruct (expand_core _ _ _ _ _ _ _ C Ix Ir (Il a (or_introl eq_refl)) E1) as (C1 & V1 & K1 & L1 & _ & H1 & O1 & W1).
    assert (Il' : incl l (apps p x)) by (intros b I; apply Il; now right).
    destruct (IH _ _ _ _ C1 Ix Ir Il' E) as (C2 & V2 & K2 & L2 & H2 & O2 & W2).
    split; auto. split; [eapply evolves_trans; eauto|]. cbn [steady fst]. rewrite E1.
    split; [|split; [|split; [|split]]].
    + intros b [ <- |I]; auto. eapply covered_mono; eauto.
    + cbn [length]. lia.
    + intros [S1 S2] H. auto.
    + intros [S1 S2] s M. rewrite O2, O1; auto. apply V1. auto.
    + intros [S1 S2] s M M'. destruct (dmem g1 s) eqn:M1.
      * destruct (W1 s M1 M') as [Es Gs]. exists a. split; [now left|]. split; auto.
        rewrite <- Gs. f_equal. apply at_ext. auto.
      * destruct (W2 S2 s M M1) as (b & I & Es & Gs). exists b. split; [now right|]. split; auto.
        rewrite Gs. f_equal. f_equal. apply at_ext. apply V1. auto.
Qed.

Definition inv (g : graph) (queue closed : list St) : Prop :=
  core g queue closed /\ (forall s a, In s closed -> In a (apps p s) -> covered g closed s a) /\
  (In r closed \/ (closed = [] /\ forall s, dmem g s = true -> s = r)).

Lemma covered_grow : forall g closed x s a, covered g closed s a -> covered g (x :: closed) s a.
Proof. intros g closed x s a [M [I|H]]; split; auto. left. now right. Qed.

(** One turn of the loop on a node that is neither closed nor a goal. *)
Lemma step_inv : forall g queue closed x queue1 g' queue',
  inv g queue closed -> Permutation queue (x :: queue1) -> ~ In x closed -> goal p x = false ->
  fold_left (expand p (x :: closed) x) (apps p x) (g, queue1) = (g', queue') ->
  inv g' queue' (x :: closed) /\ evolves (x :: closed) g g' /\ length queue' <= length (apps p x) + length queue1 /\
  core g queue1 (x :: closed) /\ In r (x :: closed) /\
  (steady (x :: closed) x (apps p x) (g, queue1) -> heap (after g) queue1 -> heap (after g') queue') /\
  (steady (x :: closed) x (apps p x) (g, queue1) -> forall s, dmem g s = true -> dget g' s = dget g s) /\
  (steady (x :: closed) x (apps p x) (g, queue1) -> forall s, dmem g' s = true -> dmem g s = false ->
     exists a, In a (apps p x) /\ s = next p x a /\ gscore (at_ g' s) = fadd (gscore (at_ g x)) (cost p x a s)).
Proof.
  intros g queue closed x queue1 g' queue' (C & K & R) P NI GX E.
  assert (Mx : dmem g x = true). { apply (c_queue _ _ _ C). apply (Permutation_in _ (Permutation_sym P)). now left. }
  assert (R' : In r (x :: closed)). { destruct R as [R|[ -> R]]; [now right|]. left. auto. }
  assert (C' : core g queue1 (x :: closed)).
  { constructor.
    - apply C.
    - apply C.
    - intros s M N. destruct (c_link _ _ _ C s M N) as (pr & b & gp & L1 & L). exists pr, b, gp. split; [now right|auto].
    - intros s [ <- |I]; auto. now apply C.
    - intros [|y l1] s l2 Es; injection Es as <- Es.
      + subst l2. split; auto. intros N. destruct (c_link _ _ _ C x Mx N) as (pr & b & gp & L1 & _ & _ & L4 & _). eauto.
      + apply (c_order _ _ _ C _ _ _ Es).
    - intros s I. apply (c_queue _ _ _ C). apply (Permutation_in _ (Permutation_sym P)). now right.
    - intros s M N. assert (I : In s queue) by (apply (c_open _ _ _ C); auto; intros I; apply N; now right).
      apply (Permutation_in _ P) in I as [ <- |I]; auto. exfalso. apply N. now left. }
  destruct (fold_core _ _ _ _ _ _ _ C' (or_introl eq_refl) R' (incl_refl _) E) as (C2 & V2 & K2 & L2 & H2 & O2 & W2).
  split; [|auto 9]. split; auto. split; [|now left].
  intros s a [ <- |I] Ia; auto. eapply covered_mono; eauto; [now right|]. apply covered_grow; auto.
Qed.

(** Popping a node that is already closed. *)
Lemma skip_inv : forall g queue closed x queue1, inv g queue closed -> Permutation queue (x :: queue1) ->
  In x closed -> inv g queue1 closed.
Proof.
  intros g queue closed x queue1 (C & K & R) P I. split; [|auto]. constructor; try apply C.
  - intros s Is. apply (c_queue _ _ _ C). apply (Permutation_in _ (Permutation_sym P)). now right.
  - intros s M N. assert (Iq : In s queue) by (apply (c_open _ _ _ C); auto).
    apply (Permutation_in _ P) in Iq as [ <- |Iq]; auto. contradiction.
Qed.

(** *** the tree of parents *)
Inductive chain (g : graph) : St -> list (St * A) -> Z -> Prop :=
| ch_root : chain g r [] 0%Z
| ch_step : forall cur pr a l c, chain g pr l c -> cur <> r ->
    best_parent (at_ g cur) = Some (pr, a, cost p pr a cur) -> In a (apps p pr) -> next p pr a = cur ->
    ~ In cur (pr :: map fst l) ->
    chain g cur (l ++ [(pr, a)]) (c + cost p pr a cur)%Z.

Lemma chain_ext : forall g g' cur l c, (forall s, best_parent (at_ g s) = best_parent (at_ g' s)) ->
  chain g cur l c -> chain g' cur l c.
Proof.
  intros g g' cur l c H Ch. induction Ch as [|cur pr a l c Ch IH N B Ia E NI]; [constructor|].
  constructor; auto. now rewrite <- H.
Qed.

Lemma chain_exec : forall g cur l c, chain g cur l c -> exec r (map snd l) cur c.
Proof.
  intros g cur l c Ch. induction Ch as [|cur pr a l c Ch IH N B Ia E NI]; [constructor|].
  rewrite map_app. cbn. rewrite <- E. apply exec_snoc; auto.
Qed.

Lemma closed_chain : forall g queue closed, core g queue closed -> In r closed ->
  forall n s l1 l2, length l2 <= n -> closed = l1 ++ s :: l2 ->
  exists l c, chain g s l c /\ incl (map fst l) l2 /\ length l <= length l2 /\ gscore (at_ g s) = Some c.
Proof.
  intros g queue closed C Ir. induction n as [|n IH]; intros s l1 l2 Ln Es.
  - destruct l2; [|cbn in Ln; lia]. destruct (py_dec s r) as [ -> |N].
    + exists [], 0%Z. split; [constructor|]. split; [intros ? []|]. split; auto. apply C.
    + destruct (proj2 (c_order _ _ _ C _ _ _ Es) N) as (pr & a & c & _ & []).
  - destruct (py_dec s r) as [ -> |N].
    + exists [], 0%Z. split; [constructor|]. split; [intros ? []|]. split; [cbn; lia|]. apply C.
    + destruct (c_order _ _ _ C _ _ _ Es) as [ND H]. destruct (H N) as (pr & a & c & B & I).
      assert (Is : In s closed) by (rewrite Es; apply in_app_iff; right; now left).
      destruct (c_link _ _ _ C s (proj1 (c_closed _ _ _ C s Is)) N) as (pr' & a' & gp & _ & Ia & Nx & B' & Gp & Gs & _).
      rewrite B' in B. injection B as -> -> <-.
      destruct (in_split pr l2 I) as (m1 & m2 & ->).
      destruct (IH pr (l1 ++ s :: m1) m2) as (l & k & Ch & Il & Ll & Gk).
      { rewrite app_length in Ln. cbn in Ln. lia. }
      { rewrite Es, <- app_assoc. reflexivity. }
      rewrite Gp in Gk. injection Gk as ->.
      exists (l ++ [(pr, a)]), (k + cost p pr a s)%Z. split; [|split; [|split]].
      * constructor; auto. intros [ -> |X].
        -- apply ND. apply in_app_iff. right. now left.
        -- apply ND. apply in_app_iff. right. right. auto.
      * rewrite map_app. intros z Iz. apply in_app_iff in Iz as [Iz|[ <- |[]]]; apply in_app_iff; right; [right|left]; auto.
      * rewrite !app_length. cbn. lia.
      * auto.
Qed.

Lemma open_chain : forall g queue closed x, core g queue closed -> In r closed -> dmem g x = true -> ~ In x closed ->
  exists l c, chain g x l c /\ length l <= length closed /\ gscore (at_ g x) = Some c /\ incl (map fst l) closed.
Proof.
  intros g queue closed x C Ir M N.
  assert (Nr : x <> r) by (intros ->; auto).
  destruct (c_link _ _ _ C x M Nr) as (pr & a & gp & Ip & Ia & Nx & B & Gp & Gx & _).
  destruct (in_split _ _ Ip) as (l1 & l2 & E).
  destruct (closed_chain _ _ _ C Ir (length l2) pr l1 l2 (le_n _) E) as (l & c & Ch & Il & Ll & Gc).
  rewrite Gp in Gc. injection Gc as ->. exists (l ++ [(pr, a)]), (c + cost p pr a x)%Z. split; [|split; [|split]]; auto.
  - constructor; auto. intros [ -> |X]; auto. apply N. rewrite E. apply in_app_iff. right. right. auto.
  - rewrite E, !app_length. cbn. lia.
  - rewrite map_app. intros z Iz. apply in_app_iff in Iz as [Iz|[ <- |[]]]; auto. rewrite E. apply in_app_iff. right. right. auto.
Qed.

(** *** writing the solution *)
Definition hd_st (l : list (St * A)) (d : St) : St := match l with [] => d | (s, _) :: _ => s end.

Lemma chain_fst : forall g cur l c, chain g cur l c -> hd_st l cur = r.
Proof.
  intros g cur l c Ch. induction Ch as [|cur pr a l c Ch IH N B Ia E NI]; auto.
  destruct l as [|[s b] l]; auto.
Qed.

Definition marked (g : graph) (s : St) (child : St) (v : Z) : Prop :=
  exists n, dget g s = Some n /\ solved n = true /\ best_action n = Some child /\ fscore n = Some v.

Lemma backtrack_spec : forall cur l c g fuel f, chain g cur l c -> length l <= fuel -> fscore (at_ g cur) = Some f ->
  exists g', backtrack fuel r cur g = Ok g' /\
    (forall s, ~ In s (map fst l) -> dget g' s = dget g s) /\
    (forall s, best_parent (at_ g' s) = best_parent (at_ g s)) /\
    forall l1 s a l2, l = l1 ++ (s, a) :: l2 -> exists v, marked g' s (hd_st l2 cur) (f + v)%Z /\
       best_parent (at_ g (hd_st l2 cur)) = Some (s, a, cost p s a (hd_st l2 cur)) /\
       exec s (a :: map snd l2) cur v.
Proof.
  intros cur l c g fuel f Ch. revert fuel f. remember g as g0 eqn:Eg. rewrite Eg. rewrite Eg in Ch. clear Eg g0.
  revert g Ch. revert cur c. induction l as [|[pr a] l IH] using rev_ind; intros cur c g Ch fuel f Lf F.
  - assert (cur = r). { pose proof (chain_fst _ _ _ _ Ch). auto. } subst cur.
    exists g. destruct fuel; cbn [backtrack]; rewrite pyeqb_refl; repeat split; auto; intros [|? ?]; discriminate.
  - inversion Ch as [E1 E2 E3|cur' pr' a' l' c' Ch' N B Ia E NI E1 E2 E3].
    { destruct l; discriminate. }
    apply app_inj_tail in E2 as [ -> E2]. injection E2 as -> ->. subst cur'.
    rewrite app_length in Lf. cbn in Lf. destruct fuel as [|fuel]; [lia|].
    cbn [backtrack]. destruct (pyeqb_spec cur r) as [X|_]; [contradiction|]. rewrite B, F. cbn [fadd].
    set (n := at_ g pr). set (g1 := dset g pr _).
    assert (BP : forall s, best_parent (at_ g s) = best_parent (at_ g1 s)).
    { intros s. unfold g1. rewrite at_dset. destruct (pyeqb_spec pr s) as [ <- |]; reflexivity. }
    destruct (IH pr c' g1 (chain_ext _ _ _ _ _ BP Ch') fuel (f + cost p pr a cur)%Z) as (g' & R1 & R2 & R3 & R4).
    { lia. }
    { unfold g1. rewrite at_dset, pyeqb_refl. reflexivity. }
    exists g'. split; auto. split; [|split].
    + intros s NIs. rewrite map_app in NIs. rewrite R2.
      * unfold g1. apply dget_dset_other. intros ->. apply NIs. apply in_app_iff. right. now left.
      * intros I. apply NIs. apply in_app_iff. now left.
    + intros s. now rewrite R3, BP.
    + intros l1 s b l2 El. destruct l2 as [|[t d] l2 _] using rev_ind.
      * apply app_inj_tail in El as [ -> El]. injection El as <- <-. exists (cost p pr a cur + 0)%Z.
        split; [|split].
        -- cbn [hd_st]. exists {| gscore := gscore n; fscore := Some (f + cost p pr a cur)%Z; best_parent := best_parent n;
                                  best_action := Some cur; solved := true |}.
           rewrite R2.
           ++ unfold g1. rewrite dget_dset_same. cbn. repeat split; auto. f_equal. lia.
           ++ intros I. clear -Ch' I. inversion Ch' as [|? ? ? ? ? ? ? ? ? ? NI']; subst; [destruct I|].
              rewrite map_app in I. apply in_app_iff in I as [I|[I|[]]]; apply NI'; [now right|left; exact I].
        -- exact B.
        -- cbn [map]. rewrite <- E. constructor; auto. constructor.
      * rewrite app_comm_cons, app_assoc in El. apply app_inj_tail in El as [ -> El]. injection El as <- <-.
        destruct (R4 l1 s b l2 eq_refl) as (v & M & Bp & Ex).
        assert (H1 : hd_st (l2 ++ [(pr, a)]) cur = hd_st l2 pr) by (destruct l2 as [|[? ?] ?]; reflexivity).
        rewrite H1. exists (v + cost p pr a cur)%Z. split; [|split].
        -- replace (f + (v + cost p pr a cur))%Z with (f + cost p pr a cur + v)%Z by lia. auto.
        -- rewrite BP. auto.
        -- rewrite map_app. cbn [map]. rewrite app_comm_cons. rewrite <- E at 1. rewrite <- E at 1. apply exec_snoc; auto.
Qed.

(** *** the loop *)
(** A node is popped although a cheaper way to a queued node appears: the runs where this never happens. *)
Fixpoint stable (fuel : nat) (g : graph) (queue closed : list St) : Prop :=
  match fuel with
  | 0 => True
  | S fuel' =>
      match heap_pop (after g) queue with
      | None => True
      | Some (x, queue1) =>
          if pymem x closed then stable fuel' g queue1 closed
          else if goal p x || solved (at_ g x) then True
          else
            let closed' := x :: closed in
            steady closed' x (apps p x) (g, queue1) /\
            let '(g2, queue2) := fold_left (expand p closed' x) (apps p x) (g, queue1) in
            stable fuel' g2 queue2 closed'
      end
  end.

(** How the loop ends: the queue is exhausted and nothing reachable is a goal, or a goal [x] has been
    popped in a state [(g, queue, closed)] satisfying the invariant. *)
Definition ends_with (P : nat -> graph -> list St -> list St -> Prop) (g' : graph) : Prop :=
  (exists closed, inv g' [] closed) \/
  exists n g queue queue1 closed x, inv g queue closed /\ P n g queue closed /\
    heap_pop (after g) queue = Some (x, queue1) /\
    ~ In x closed /\ goal p x = true /\ backtrack (length g) r x (set_fscore g x (Some 0%Z)) = Ok g'.

Lemma not_solved : forall g queue closed x, core g queue closed -> dmem g x = true -> solved (at_ g x) = false.
Proof. intros g queue closed x C M. apply (c_fresh _ _ _ C x M). Qed.

Lemma dset_length_in : forall (g : graph) x n, dmem g x = true -> length (dset g x n) = length g.
Proof.
  induction g as [|[k w] g IH]; intros x n M; [discriminate|]. cbn. unfold dmem in M. cbn in M.
  destruct (pyeqb x k); cbn; auto.
Qed.

Lemma set_length : forall (g : graph) x v, dmem g x = true -> length (set_fscore g x v) = length g.
Proof. intros. now apply dset_length_in. Qed.

Lemma loop_ends : forall P : nat -> graph -> list St -> list St -> Prop,
  (forall n g queue closed x queue1, inv g queue closed -> P (S n) g queue closed ->
     heap_pop (after g) queue = Some (x, queue1) -> In x closed -> P n g queue1 closed) ->
  (forall n g queue closed x queue1 g2 queue2, inv g queue closed -> P (S n) g queue closed ->
     heap_pop (after g) queue = Some (x, queue1) -> ~ In x closed -> goal p x = false -> solved (at_ g x) = false ->
     fold_left (expand p (x :: closed) x) (apps p x) (g, queue1) = (g2, queue2) -> inv g2 queue2 (x :: closed) ->
     P n g2 queue2 (x :: closed)) ->
  forall fuel g queue closed g', inv g queue closed -> P fuel g queue closed ->
  loop fuel p r g queue closed = Ok g' -> ends_with P g'.
Proof.
  intros P P1 P2. induction fuel as [|fuel IH]; intros g queue closed g' I HP E; [discriminate|].
  cbn [loop] in E. pose proof (heap_pop_perm (after g) queue) as Pm.
  destruct (heap_pop (after g) queue) as [[x queue1]|] eqn:Ep.
  - destruct Pm as [Pm _]. destruct (pymem x closed) eqn:Ex.
    + apply pymem_true in Ex. apply (IH g queue1 closed g'); auto.
      * eapply skip_inv; eauto.
      * eapply P1; eauto.
    + assert (Nx : ~ In x closed) by exact (proj1 (pymem_false x closed) Ex).
      assert (Mx : dmem g x = true). { apply (c_queue _ _ _ (proj1 I)). apply (Permutation_in _ (Permutation_sym Pm)). now left. }
      pose proof (not_solved _ _ _ _ (proj1 I) Mx) as NS.
      rewrite NS in E. rewrite orb_false_r in E.
      destruct (goal p x) eqn:Gx.
      * right. exists (S fuel), g, queue, queue1, closed, x. rewrite set_length in E by auto. split; [exact I|]. auto 8.
      * destruct (fold_left _ _ _) as [g2 queue2] eqn:Ef.
        destruct (step_inv _ _ _ _ _ _ _ I Pm Nx Gx Ef) as (I2 & _).
        apply (IH g2 queue2 (x :: closed) g'); auto. eapply P2; eauto.
  - subst queue. injection E as <-. left. exists closed. auto.
Qed.
End Proofs.
