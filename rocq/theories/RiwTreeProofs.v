(** Proofs about RiwModel.v: where no state is reached in two ways, a solved node has the best value. *)
From Coq Require Import List Bool Arith ZArith QArith Lia Lqa.
From Verif Require Import Py PyList RiwModel RiwSpec RiwProofs.
Import ListNotations.
Open Scope nat_scope.

Lemma bind_inv : forall A B (r : res A) (f : A -> res B) b, bind r f = Ok b -> exists a, r = Ok a /\ f a = Ok b.
Proof. intros A B [a|e] f b H; cbn in H; [eauto|discriminate]. Qed.

Lemma safe_ok : forall al B (P : B -> Prop) r b, safe0 al P r -> r = Ok b -> P b.
Proof. intros al B P r b H ->. exact H. Qed.

(** An invariant of a fold that returned *)
Lemma foldM_ok : forall A B (I : A -> Prop) (f : A -> B -> res A) l acc r, foldM f acc l = Ok r -> I acc ->
  (forall a x a', In x l -> I a -> f a x = Ok a' -> I a') -> I r.
Proof.
  intros A B I f l. induction l as [|x l IH]; intros acc r H Ha Hf; cbn in H.
  - injection H as <-. exact Ha.
  - apply bind_inv in H. destruct H as (a' & E & H). eapply IH; [exact H|eapply Hf; eauto; now left|].
    intros a y a2 Iy. apply Hf. now right.
Qed.

(** The same, with the part of the list already seen *)
Lemma foldM_pre : forall A B (I : list B -> A -> Prop) (f : A -> B -> res A) l acc r, foldM f acc l = Ok r -> I [] acc ->
  (forall l0 x l1 a a', l = l0 ++ x :: l1 -> I l0 a -> f a x = Ok a' -> I (l0 ++ [x]) a') -> I l r.
Proof.
  intros A B I f l acc r H Ha Hf.
  assert (G : forall l1 l0 acc0, l = l0 ++ l1 -> foldM f acc0 l1 = Ok r -> I l0 acc0 -> I l r).
  { induction l1 as [|x l1 IH]; intros l0 acc0 El Hr Hi; cbn in Hr.
    - rewrite app_nil_r in El. injection Hr as <-. now subst.
    - apply bind_inv in Hr. destruct Hr as (a' & E & Hr). apply (IH (l0 ++ [x]) a'); [now rewrite <- app_assoc|exact Hr|].
      eapply Hf; eauto. }
  exact (G l [] acc eq_refl H Ha).
Qed.

Lemma Qltb_true : forall a b, Qltb a b = true <-> (a < b)%Q.
Proof.
  intros a b. unfold Qltb. destruct (Qle_bool b a) eqn:E; cbn.
  - apply Qle_bool_iff in E. split; [discriminate|]. intros H. lra.
  - split; [intros _|auto]. apply Qnot_le_lt. intros H. apply Qle_bool_iff in H. congruence.
Qed.

Lemma Qltb_false : forall a b, Qltb a b = false <-> (b <= a)%Q.
Proof.
  intros a b. unfold Qltb. destruct (Qle_bool b a) eqn:E; cbn.
  - apply Qle_bool_iff in E. tauto.
  - split; [discriminate|]. intros H. apply Qle_bool_iff in H. congruence.
Qed.

Lemma enum_nth : forall B (l : list B) i x, nth_error l i = Some x -> In (i, x) (enum l).
Proof.
  intros B l i x H. unfold enum.
  assert (G : forall n (m : list B) j, nth_error m j = Some x -> In (n + j, x) (combine (seq n (length m)) m)).
  { intros n m. revert n. induction m as [|y m IH]; intros n [|j] E; cbn in *; try discriminate.
    - injection E as ->. left. f_equal. lia.
    - right. replace (n + S j) with (S n + j) by lia. apply IH. exact E. }
  exact (G 0 l i H).
Qed.

Section Tree.
Context {St A V : Type} {ES : PyEq St} {EV : PyEq V}.
Variables (p : @problem St A V) (c : params) (clock : nat -> nat) (draw : nat -> nat) (order : list St -> list St).
Variable s0 : St.
Hypothesis sim : use_simulation_domain c = true.
Hypothesis order_in : forall l x, In x (order l) <-> In x l.
Hypothesis live0 : is_terminal p s0 = false.
Hypothesis tree : forall l l' t, walk p s0 l t -> walk p s0 l' t -> l = l'.
Hypothesis distinct : forall s, NoDup (apps p s).
Hypothesis horizon : forall l t, walk p s0 l t -> is_terminal p t = false -> (Z.of_nat (length l) < max_depth c)%Z.
Hypothesis small : (max_depth c < 2 ^ 64)%Z.
Hypothesis gamma0 : (0 <= discount c)%Q.
Hypothesis fits : forall l t e, walk p s0 l t -> complete p t e -> (- dbl_max < gain p (discount c) t e)%Q.

Local Notation graph := (list (St * @node St A)).
Local Notation world := (@world St A V).
Local Notation ok := (ok p).
Local Notation best := (optimal p (discount c)).

Definition shape (n : @node St A) := (n_children n, n_parents n, n_terminal n, n_depth n).

Record tr (g : graph) : Prop := {
  tr_walk : forall s n, dget g s = Some n -> exists l, walk p s0 l s /\ n_depth n = Z.of_nat (length l);
  tr_term : forall s n, dget g s = Some n -> n_terminal n = is_terminal p s;
  tr_kids : forall s n, dget g s = Some n -> n_children n = [] \/
      (map (fun e => fst (fst e)) (n_children n) = apps p s /\ is_terminal p s = false);
  tr_from : forall s n, dget g s = Some n -> s <> s0 -> exists q nq a r, dget g q = Some nq /\ In (a, r, Some s) (n_children nq);
  tr_par : forall s n, dget g s = Some n -> forall x, In x (n_parents n) -> exists nx, dget g x = Some nx /\ n_children nx <> [] }.

Definition shp (g g' : graph) : Prop := forall s, option_map shape (dget g' s) = option_map shape (dget g s).

Lemma shp_refl : forall g, shp g g.
Proof. intros g s. reflexivity. Qed.

Lemma shp_trans : forall a b d, shp a b -> shp b d -> shp a d.
Proof. intros a b d H1 H2 s. now rewrite H2. Qed.

Lemma shp_back : forall g g' s n', shp g g' -> dget g' s = Some n' -> exists n, dget g s = Some n /\ shape n' = shape n.
Proof.
  intros g g' s n' H E. specialize (H s). rewrite E in H. destruct (dget g s) as [n|]; [|discriminate].
  exists n. split; [reflexivity|]. cbn in H. congruence.
Qed.

Lemma shp_forth : forall g g' s n, shp g g' -> dget g s = Some n -> exists n', dget g' s = Some n' /\ shape n' = shape n.
Proof.
  intros g g' s n H E. specialize (H s). rewrite E in H. destruct (dget g' s) as [n'|]; [|discriminate].
  exists n'. split; [reflexivity|]. cbn in H. congruence.
Qed.

Lemma shape_eq : forall n n' : @node St A, shape n' = shape n ->
  n_children n' = n_children n /\ n_parents n' = n_parents n /\ n_terminal n' = n_terminal n /\ n_depth n' = n_depth n.
Proof. intros n n' H. unfold shape in H. injection H as -> -> -> ->. auto. Qed.

Lemma tr_shp : forall g g', shp g g' -> tr g -> tr g'.
Proof.
  intros g g' H [T1 T2 T3 T4 T5]. constructor; intros s n' E; destruct (shp_back _ _ _ _ H E) as (n & En & Es);
    apply shape_eq in Es; destruct Es as (C & P & T & D).
  - rewrite D. eauto.
  - rewrite T. eauto.
  - rewrite C. eauto.
  - intros Ns. destruct (T4 _ _ En Ns) as (q & nq & a & r & Eq & I).
    destruct (shp_forth _ _ _ _ H Eq) as (nq' & Eq' & Es'). apply shape_eq in Es'. destruct Es' as (C' & _).
    exists q, nq', a, r. rewrite C'. auto.
  - intros x Ix. rewrite P in Ix. destruct (T5 _ _ En x Ix) as (nx & Ex & Nx).
    destruct (shp_forth _ _ _ _ H Ex) as (nx' & Ex' & Es'). apply shape_eq in Es'. destruct Es' as (C' & _).
    exists nx'. rewrite C'. auto.
Qed.

Lemma shp_set : forall g s n n', dget g s = Some n -> shape n' = shape n -> shp g (dset g s n').
Proof.
  intros g s n n' E H t. destruct (pyeqb_spec s t) as [->|N].
  - rewrite dget_dset_same, E. cbn. congruence.
  - now rewrite dget_dset_other.
Qed.

(** *** The values *)
Definition nopr (g : graph) : Prop := forall s n, dget g s = Some n -> n_pruned n = false.

Definition right (s : St) (n : @node St A) : Prop :=
  best s (n_value n) /\
  (is_terminal p s = false -> exists i a r y v, n_best n = Some i /\ nth_error (n_children n) i = Some (a, r, Some y) /\
     best y v /\ (r + discount c * v == n_value n)%Q).

Definition vals (g : graph) : Prop := nopr g -> forall s n, dget g s = Some n -> n_solved n = true -> right s n.

Lemma nopr_ext : forall g g', ext g g' -> nopr g' -> nopr g.
Proof.
  intros g g' X H s n E. destruct (X _ _ E) as (n' & E' & P). specialize (H _ _ E').
  destruct (n_pruned n); [rewrite P in H; [discriminate|reflexivity]|reflexivity].
Qed.

Lemma vals_set : forall g s n n', dget g s = Some n -> (n_pruned n = true -> n_pruned n' = true) -> vals g ->
  (nopr g -> n_pruned n' = false -> n_solved n' = true -> right s n') -> vals (dset g s n').
Proof.
  intros g s n n' E P H Hn N t m Em Es.
  assert (N0 : nopr g) by (eapply nopr_ext; [eapply ext_dset; eauto|exact N]).
  destruct (pyeqb_spec s t) as [->|Nt].
  - assert (Pn : n_pruned n' = false) by (eapply N; apply dget_dset_same).
    rewrite dget_dset_same in Em. injection Em as <-. auto.
  - rewrite dget_dset_other in Em by exact Nt. eauto.
Qed.

Lemma vals_same : forall g s n n', dget g s = Some n -> vals g -> shape n' = shape n -> n_pruned n' = n_pruned n ->
  n_solved n' = n_solved n -> n_value n' = n_value n -> n_best n' = n_best n -> vals (dset g s n').
Proof.
  intros g s n n' E H Sh P Sv Vl B. eapply vals_set; [exact E|congruence|exact H|].
  intros N _ Hs. apply shape_eq in Sh. destruct Sh as (C & _). unfold right. rewrite Vl, B, C. apply (H N); congruence.
Qed.

(** *** A parent is updated *)
Lemma child_neq : forall g x nx a r y, ok g -> tr g -> dget g x = Some nx -> In (a, r, Some y) (n_children nx) ->
  y = next p x a /\ r = reward p x a /\ y <> x /\ exists ny, dget g y = Some ny.
Proof.
  intros g x nx a r y O T E I. destruct (O _ _ E) as (G & _). destruct (G _ _ _ I) as [Ia Gy].
  destruct (Gy y eq_refl) as (-> & -> & [ny Ey]). split; [reflexivity|]. split; [reflexivity|]. split; [|eauto].
  intros Ex. destruct (tr_walk _ T _ _ E) as (l & W & _).
  destruct (tr_kids _ T _ _ E) as [K|[_ K]]; [rewrite K in I; contradiction|].
  pose proof (walk_snoc p s0 l x a W K Ia) as W'. rewrite Ex in W'. pose proof (tree _ _ _ W W') as El.
  apply (f_equal (@length A)) in El. rewrite app_length in El. cbn in El. lia.
Qed.

Lemma update_parent_spec : forall g x nx g', ok g -> tr g -> dget g x = Some nx -> n_children nx <> [] ->
  update_parent c g x = Ok g' ->
  exists n', (forall y, y <> x -> dget g' y = dget g y) /\ dget g' x = Some n' /\ shape n' = shape nx /\ n_pruned n' = n_pruned nx /\
    (vals g -> nopr g -> n_solved n' = true -> right x n').
Proof.
  intros g x nx g' O T E Ne H. unfold update_parent, at_ in H. rewrite E in H. cbn [bind] in H.
  set (I := fun (seen : list (nat * (A * Q * option St))) (g1 : graph) => exists n', (forall y, y <> x -> dget g1 y = dget g y) /\
    dget g1 x = Some n' /\ shape n' = shape nx /\ n_pruned n' = n_pruned nx /\
    (n_solved n' = true -> forall i a r ch, In (i, (a, r, ch)) seen -> exists y ny, ch = Some y /\ dget g y = Some ny /\ n_solved ny = true) /\
    (forall i a r y ny, In (i, (a, r, Some y)) seen -> dget g y = Some ny -> (r + discount c * n_value ny <= n_value n')%Q) /\
    (n_value n' = (- dbl_max)%Q \/ exists i a r y ny, n_best n' = Some i /\ In (i, (a, r, Some y)) seen /\ dget g y = Some ny /\
       n_value n' = (r + discount c * n_value ny)%Q)).
  assert (R : I (enum (n_children nx)) g').
  { eapply foldM_pre with (I := I); [exact H| |].
    - exists (set_best (set_solved nx true) (- dbl_max)%Q None). split.
      { intros y Ny. apply dget_dset_other. congruence. }
      split; [apply dget_dset_same|]. split; [reflexivity|]. split; [reflexivity|]. split; [intros _ i a r ch []|].
      split; [intros i a r y ny []|]. now left.
    - intros l0 [i [[a r] ch]] l1 g1 g2 El (n1 & F1 & F2 & F3 & F4 & F5 & F6 & F7) H2.
      unfold update_child, at_ at 1 in H2. rewrite F2 in H2. cbn [bind] in H2.
      assert (Ie : nth_error (n_children nx) i = Some (a, r, ch)).
      { apply enum_In. rewrite El. apply in_app_iff. right. now left. }
      destruct ch as [k|].
      + destruct (child_neq _ _ _ _ _ _ O T E (nth_error_In _ _ Ie)) as (_ & _ & Nk & [nk Ek]).
        unfold at_ in H2. rewrite (F1 k Nk), Ek in H2. cbn [bind n_value set_solved] in H2.
        destruct (Qltb (n_value n1) (r + discount c * n_value nk)) eqn:Eq; injection H2 as <-.
        * apply Qltb_true in Eq. eexists. split.
          { intros y Ny. rewrite dget_dset_other by congruence. auto. }
          split; [apply dget_dset_same|]. split; [exact F3|]. split; [exact F4|]. cbn [n_solved n_value n_best set_best set_solved].
          split; [|split].
          -- intros Es i' a' r' ch' Ii. apply andb_prop in Es. destruct Es as [Es1 Es2].
             apply in_app_iff in Ii. destruct Ii as [Ii|[Ii|[]]]; [eauto|]. injection Ii as <- <- <- <-. eauto.
          -- intros i' a' r' y ny Ii Ey. apply in_app_iff in Ii. destruct Ii as [Ii|[Ii|[]]].
             ++ specialize (F6 _ _ _ _ _ Ii Ey). lra.
             ++ injection Ii as <- <- <- <-. rewrite Ek in Ey. injection Ey as <-. lra.
          -- right. exists i, a, r, k, nk. split; [reflexivity|]. split; [apply in_app_iff; right; now left|]. auto.
        * apply Qltb_false in Eq. eexists. split.
          { intros y Ny. rewrite dget_dset_other by congruence. auto. }
          split; [apply dget_dset_same|]. split; [exact F3|]. split; [exact F4|]. cbn [n_solved n_value n_best set_solved].
          split; [|split].
          -- intros Es i' a' r' ch' Ii. apply andb_prop in Es. destruct Es as [Es1 Es2].
             apply in_app_iff in Ii. destruct Ii as [Ii|[Ii|[]]]; [eauto|]. injection Ii as <- <- <- <-. eauto.
          -- intros i' a' r' y ny Ii Ey. apply in_app_iff in Ii. destruct Ii as [Ii|[Ii|[]]].
             ++ exact (F6 _ _ _ _ _ Ii Ey).
             ++ injection Ii as <- <- <- <-. rewrite Ek in Ey. injection Ey as <-. exact Eq.
          -- destruct F7 as [F7|(j & a' & r' & y & ny & B & Ij & Ey & Vn)]; [now left|]. right.
             exists j, a', r', y, ny. split; [exact B|]. split; [apply in_app_iff; now left|]. auto.
      + injection H2 as <-. eexists. split.
        { intros y Ny. rewrite dget_dset_other by congruence. auto. }
        split; [apply dget_dset_same|]. split; [exact F3|]. split; [exact F4|]. cbn [n_solved n_value n_best set_solved].
        split; [discriminate|]. split.
        * intros i' a' r' y ny Ii Ey. apply in_app_iff in Ii. destruct Ii as [Ii|[Ii|[]]]; [exact (F6 _ _ _ _ _ Ii Ey)|discriminate].
        * destruct F7 as [F7|(j & a' & r' & y & ny & B & Ij & Ey & Vn)]; [now left|]. right.
          exists j, a', r', y, ny. split; [exact B|]. split; [apply in_app_iff; now left|]. auto. }
  destruct R as (n' & F1 & F2 & F3 & F4 & F5 & F6 & F7). exists n'. repeat (split; [assumption|]).
  intros Va Np Es. specialize (F5 Es).
  destruct (tr_kids _ T _ _ E) as [K|[Ka Kt]]; [contradiction|].
  destruct (tr_walk _ T _ _ E) as (lx & Wx & _).
  (* every child is known, solved, and has the best value *)
  assert (Kids : forall i a r ch, nth_error (n_children nx) i = Some (a, r, ch) -> exists y ny, ch = Some y /\ dget g y = Some ny /\
      y = next p x a /\ r = reward p x a /\ In a (apps p x) /\ best y (n_value ny) /\ (r + discount c * n_value ny <= n_value n')%Q).
  { intros i a r ch Ei. destruct (F5 _ _ _ _ (enum_nth _ _ _ _ Ei)) as (y & ny & -> & Ey & Sy).
    destruct (child_neq _ _ _ _ _ _ O T E (nth_error_In _ _ Ei)) as (Hy & Hr & _).
    exists y, ny. split; [reflexivity|]. split; [exact Ey|]. split; [exact Hy|]. split; [exact Hr|]. split.
    { rewrite <- Ka. apply in_map_iff. exists (a, r, Some y). split; [reflexivity|]. eapply nth_error_In; exact Ei. }
    split; [apply (Va Np _ _ Ey Sy)|]. eapply F6; [apply enum_nth; exact Ei|exact Ey]. }
  assert (Bs : exists i a r y ny, n_best n' = Some i /\ nth_error (n_children nx) i = Some (a, r, Some y) /\ dget g y = Some ny /\
      n_value n' = (r + discount c * n_value ny)%Q).
  { destruct F7 as [F7|(i & a & r & y & ny & B & Ii & Ey & Vn)].
    - exfalso. destruct (n_children nx) as [|[[a r] ch] rest] eqn:Ec; [contradiction|].
      destruct (Kids 0 a r ch eq_refl) as (y & ny & -> & Ey & -> & -> & Ia & [(l & Cl & Gl) _] & Le).
      pose proof (fits lx x (a :: l) Wx) as Fx. cbn [complete gain] in Fx. specialize (Fx (conj Kt (conj Ia Cl))).
      rewrite F7 in Le. assert (discount c * gain p (discount c) (next p x a) l == discount c * n_value ny)%Q by now rewrite Gl.
      lra.
    - exists i, a, r, y, ny. split; [exact B|]. split; [apply enum_In; exact Ii|]. auto. }
  destruct Bs as (i & a & r & y & ny & B & Ei & Ey & Vn).
  destruct (Kids _ _ _ _ Ei) as (y' & ny' & Ey1 & Ey2 & Hy & Hr & Ia & Bst & _).
  injection Ey1 as <-. rewrite Ey in Ey2. injection Ey2 as <-.
  split.
  - split.
    + destruct Bst as [(l & Cl & Gl) _]. exists (a :: l). cbn [complete gain]. rewrite <- Hy, <- Hr. split; [auto|].
      rewrite Vn, Gl. reflexivity.
    + intros l Cl. destruct l as [|b l]; cbn [complete] in Cl; [congruence|]. destruct Cl as (_ & Ib & Cl).
      rewrite <- Ka in Ib. apply in_map_iff in Ib. destruct Ib as ([[b' rb] chb] & Eb & Ib). cbn in Eb. subst b'.
      apply In_nth_error in Ib. destruct Ib as [j Ej].
      destruct (Kids _ _ _ _ Ej) as (yb & nyb & _ & _ & Hyb & Hrb & _ & [_ Ub] & Le). cbn [gain].
      rewrite <- Hyb in *. rewrite <- Hrb. specialize (Ub l Cl).
      assert (discount c * gain p (discount c) yb l <= discount c * n_value nyb)%Q.
      { rewrite !(Qmult_comm (discount c)). now apply Qmult_le_compat_r. }
      lra.
  - intros _. apply shape_eq in F3. destruct F3 as (C & _). exists i, a, r, y, (n_value ny). rewrite C. split; [exact B|].
    split; [exact Ei|]. split; [exact Bst|]. rewrite Vn. reflexivity.
Qed.

(** *** What the backup keeps *)
Definition keep (g g' : graph) : Prop := ok g' /\ ext g g' /\ shp g g' /\ (vals g -> vals g').

Lemma keep_refl : forall g, ok g -> keep g g.
Proof. intros g O. split; [exact O|]. split; [apply ext_refl|]. split; [apply shp_refl|auto]. Qed.

Lemma keep_trans : forall a b d, keep a b -> keep b d -> keep a d.
Proof.
  intros a b d (O1 & X1 & S1 & V1) (O2 & X2 & S2 & V2). split; [exact O2|]. split; [eapply ext_trans; eauto|].
  split; [eapply shp_trans; eauto|auto].
Qed.

Local Notation anyerr := (fun _ : py_err => True).

Lemma update_parent_keep : forall g x nx g', ok g -> tr g -> dget g x = Some nx -> n_children nx <> [] ->
  update_parent c g x = Ok g' -> keep g g'.
Proof.
  intros g x nx g' O T E Ne H.
  assert (P : post p g g').
  { eapply safe_ok; [|exact H]. apply (update_parent_safe p c anyerr); [exact O|now exists nx]. }
  destruct P as [O' X']. destruct (update_parent_spec _ _ _ _ O T E Ne H) as (n' & F1 & F2 & F3 & F4 & F5).
  split; [exact O'|]. split; [exact X'|]. split.
  - intros y. destruct (pyeqb_spec x y) as [<-|N]; [rewrite F2, E; cbn; congruence|]. rewrite F1 by congruence. reflexivity.
  - intros Va Np y m Em Es. pose proof (nopr_ext _ _ X' Np) as Np0.
    destruct (pyeqb_spec x y) as [<-|N].
    + rewrite F2 in Em. injection Em as <-. auto.
    + rewrite F1 in Em by congruence. eauto.
Qed.

Lemma update_frontier_keep : forall g new k st, ok g -> tr g ->
  update_frontier c order (g, new) k = Ok st -> keep g (fst st).
Proof.
  intros g new k st O T H. unfold update_frontier in H. apply bind_inv in H. destruct H as (n & En & H). apply at_ok in En.
  eapply (foldM_ok _ _ (fun st => keep g (fst st))) in H; [exact H|apply keep_refl; exact O|].
  intros [ga fa] x [gb fb] Ix K Hs. cbn [fst snd] in *. apply bind_inv in Hs. destruct Hs as (g' & Hu & Hs).
  injection Hs as <- <-. eapply keep_trans; [exact K|]. destruct K as (Oa & Xa & Sa & _).
  destruct (tr_par _ T _ _ En x (proj1 (order_in _ _) Ix)) as (nx & Ex & Nx).
  destruct (shp_forth _ _ _ _ Sa Ex) as (nx' & Ex' & Es'). apply shape_eq in Es'. destruct Es' as (C' & _).
  eapply update_parent_keep; [exact Oa|eapply tr_shp; eauto|exact Ex'|rewrite C'; exact Nx|exact Hu].
Qed.

Lemma backup_loop_keep : forall rounds g frontier g', ok g -> tr g ->
  backup_loop c order rounds g frontier = Ok g' -> keep g g'.
Proof.
  induction rounds as [|rounds IH]; intros g frontier g' O T H; cbn [backup_loop] in H.
  - injection H as <-. now apply keep_refl.
  - destruct frontier as [|k0 l0] eqn:Ef; [injection H as <-; now apply keep_refl|]. rewrite <- Ef in *.
    apply bind_inv in H. destruct H as (st & Hf & H).
    eapply (foldM_ok _ _ (fun st => keep g (fst st))) in Hf; [|apply keep_refl; exact O|].
    + eapply keep_trans; [exact Hf|]. destruct Hf as (O1 & _ & S1 & _). eapply IH; [exact O1|eapply tr_shp; eauto|exact H].
    + intros [ga fa] k st' _ K Hs. cbn [fst] in K. eapply keep_trans; [exact K|]. destruct K as (Oa & _ & Sa & _).
      eapply update_frontier_keep; [exact Oa|eapply tr_shp; eauto|exact Hs].
Qed.

Lemma backup_keep : forall minr g frontier g', ok g -> tr g -> backup_values c order minr g frontier = Ok g' -> keep g g'.
Proof.
  intros minr g frontier g' O T H. unfold backup_values in H. apply bind_inv in H. destruct H as (g1 & H1 & H).
  assert (K1 : keep g g1).
  { eapply (foldM_ok _ _ (fun g' => keep g g')) in H1; [exact H1|now apply keep_refl|].
    intros ga k gb _ K Hs. eapply keep_trans; [exact K|]. destruct K as (Oa & _ & _ & _).
    unfold tip in Hs. apply bind_inv in Hs. destruct Hs as (n & En & Hs). apply at_ok in En. injection Hs as <-.
    destruct (n_pruned n) eqn:Ep; [|now apply keep_refl].
    assert (P : post p ga (dset ga k (set_value n (tail_value c minr (n_depth n))))).
    { eapply post_set; [exact Oa|exact En|..]; cbn; auto. }
    destruct P as [Ob Xb]. split; [exact Ob|]. split; [exact Xb|]. split; [eapply shp_set; eauto|].
    intros Va. eapply vals_set; [exact En|auto|exact Va|]. cbn. congruence. }
  eapply keep_trans; [exact K1|]. destruct K1 as (O1 & _ & S1 & _).
  eapply backup_loop_keep; [exact O1|eapply tr_shp; eauto|exact H].
Qed.

(** [update_node], on a node that is then as it should be *)
Lemma update_node_keep : forall (w : world) k n sv w', ok (w_graph w) -> tr (w_graph w) -> dget (w_graph w) k = Some n ->
  update_node c order w k sv = Ok w' ->
  (nopr (w_graph w) -> sv = true -> is_terminal p k = true) -> keep (w_graph w) (w_graph w') /\ w_rollouts w' = w_rollouts w.
Proof.
  intros w k n sv w' O T E H Hr. unfold update_node, on in H. apply bind_inv in H. destruct H as (g & Hg & H).
  apply bind_inv in Hg. destruct Hg as (n1 & En & Hg). apply at_ok in En. rewrite E in En. injection En as <-. injection Hg as <-.
  apply bind_inv in H. destruct H as (g' & Hb & H). injection H as <-. cbn [w_graph with_min with_graph w_rollouts].
  split; [|reflexivity].
  set (n' := set_value (set_solved n sv) 0) in *.
  assert (K : keep (w_graph w) (dset (w_graph w) k n')).
  { assert (P : post p (w_graph w) (dset (w_graph w) k n')).
    { eapply post_set; [exact O|exact E|..]; cbn; auto. }
    destruct P as [Ob Xb]. split; [exact Ob|]. split; [exact Xb|]. split; [eapply shp_set; eauto|].
    intros Va. eapply vals_set; [exact E|auto|exact Va|]. intros Np _ Es. cbn in Es. specialize (Hr Np Es). split; [|congruence].
    cbn. split.
    - exists []. cbn. split; [exact Hr|reflexivity].
    - intros l Cl. destruct l as [|a l]; cbn in *; [apply Qle_refl|]. destruct Cl as (X & _). congruence. }
  eapply keep_trans; [exact K|]. destruct K as (O1 & _ & S1 & _).
  eapply backup_keep; [exact O1|eapply tr_shp; eauto|exact Hb].
Qed.

(** *** Growing the graph *)
Lemma tr_change : forall g k n n', tr g -> dget g k = Some n -> n_parents n' = n_parents n -> n_terminal n' = n_terminal n ->
  n_depth n' = n_depth n ->
  (map (fun e => fst (fst e)) (n_children n') = apps p k /\ is_terminal p k = false) ->
  (forall a r y, In (a, r, Some y) (n_children n) -> In (a, r, Some y) (n_children n')) ->
  (n_children n <> [] -> n_children n' <> []) -> tr (dset g k n').
Proof.
  intros g k n n' [T1 T2 T3 T4 T5] E P T D K F Ne.
  assert (Q : forall s m, dget (dset g k n') s = Some m -> exists m0, dget g s = Some m0 /\ n_parents m = n_parents m0 /\
     n_terminal m = n_terminal m0 /\ n_depth m = n_depth m0 /\ (m = m0 \/ (s = k /\ m = n'))).
  { intros s m Em. destruct (pyeqb_spec k s) as [<-|N].
    - rewrite dget_dset_same in Em. injection Em as <-. exists n. repeat (split; [assumption|]). auto.
    - rewrite dget_dset_other in Em by exact N. exists m. auto 10. }
  assert (R : forall s m, dget g s = Some m -> exists m', dget (dset g k n') s = Some m' /\
     (forall a r y, In (a, r, Some y) (n_children m) -> In (a, r, Some y) (n_children m')) /\ (n_children m <> [] -> n_children m' <> [])).
  { intros s m Em. destruct (pyeqb_spec k s) as [<-|N].
    - rewrite E in Em. injection Em as <-. exists n'. rewrite dget_dset_same. auto.
    - exists m. rewrite dget_dset_other by exact N. auto. }
  constructor; intros s m Em; destruct (Q _ _ Em) as (m0 & E0 & P0 & T0 & D0 & C0).
  - rewrite D0. eauto.
  - rewrite T0. eauto.
  - destruct C0 as [->|[-> ->]]; [eauto|]. now right.
  - intros Ns. destruct (T4 _ _ E0 Ns) as (q & nq & a & r & Eq & I). destruct (R _ _ Eq) as (nq' & Eq' & Fq & _).
    exists q, nq', a, r. auto.
  - intros x Ix. rewrite P0 in Ix. destruct (T5 _ _ E0 x Ix) as (nx & Ex & Nx). destruct (R _ _ Ex) as (nx' & Ex' & _ & Nq).
    exists nx'. auto.
Qed.

Lemma tr_new : forall g y m l, tr g -> dget g y = None -> n_children m = [] -> walk p s0 l y ->
  n_depth m = Z.of_nat (length l) -> n_terminal m = is_terminal p y ->
  (y <> s0 -> exists q nq a r, dget g q = Some nq /\ In (a, r, Some y) (n_children nq)) ->
  (forall x, In x (n_parents m) -> exists nx, dget g x = Some nx /\ n_children nx <> []) -> tr (dset g y m).
Proof.
  intros g y m l [T1 T2 T3 T4 T5] E C W D T F P.
  assert (R : forall s n, dget g s = Some n -> dget (dset g y m) s = Some n).
  { intros s n En. rewrite dget_dset_other; [exact En|]. congruence. }
  assert (Q : forall s n, dget (dset g y m) s = Some n -> (s = y /\ n = m) \/ dget g s = Some n).
  { intros s n En. destruct (pyeqb_spec y s) as [<-|N]; [rewrite dget_dset_same in En; injection En as <-; auto|].
    rewrite dget_dset_other in En by exact N. auto. }
  constructor; intros s n En; destruct (Q _ _ En) as [[-> ->]|E0].
  - eauto.
  - eauto.
  - exact T.
  - eauto.
  - now left.
  - eauto.
  - intros Ns. destruct (F Ns) as (q & nq & a & r & Eq & I). eauto 10.
  - intros Ns. destruct (T4 _ _ E0 Ns) as (q & nq & a & r & Eq & I). eauto 10.
  - intros x Ix. destruct (P x Ix) as (nx & Ex & Nx). eauto.
  - intros x Ix. destruct (T5 _ _ E0 x Ix) as (nx & Ex & Nx). eauto.
Qed.

Lemma vals_new : forall g y m, dget g y = None -> n_solved m = false -> vals g -> vals (dset g y m).
Proof.
  intros g y m E Sm Va Np s n En Es. destruct (pyeqb_spec y s) as [<-|N].
  - rewrite dget_dset_same in En. congruence.
  - rewrite dget_dset_other in En by exact N. apply Va; auto. intros t q Et. apply (Np t).
    rewrite dget_dset_other; [exact Et|]. congruence.
Qed.

Lemma vals_eq : forall g g', (forall s, dget g' s = dget g s) -> vals g -> vals g'.
Proof. intros g g' H Va Np s n En Es. rewrite H in En. apply Va; auto. intros t m Et. apply (Np t). now rewrite H. Qed.

Lemma nth_NoDup : forall B (l : list B) i j x, NoDup l -> nth_error l i = Some x -> nth_error l j = Some x -> i = j.
Proof.
  intros B l i j x N Ei Ej. apply (proj1 (NoDup_nth_error l) N); [|congruence].
  apply nth_error_Some. congruence.
Qed.

(** A child without a next node leads to a state that is not in the graph. *)
Lemma child_fresh : forall g k n i a r, ok g -> tr g -> dget g k = Some n -> nth_error (n_children n) i = Some (a, r, None) ->
  dget g (next p k a) = None.
Proof.
  intros g k n i a r O T E Ei.
  destruct (tr_kids _ T _ _ E) as [K|[Ka Kt]]; [rewrite K in Ei; destruct i; discriminate|].
  destruct (O _ _ E) as (G & _). destruct (G _ _ _ (nth_error_In _ _ Ei)) as [Ia _].
  destruct (tr_walk _ T _ _ E) as (l & W & _). pose proof (walk_snoc p s0 l k a W Kt Ia) as Wy.
  destruct (dget g (next p k a)) as [ny|] eqn:Ey; [exfalso|reflexivity].
  destruct (pyeqb_spec (next p k a) s0) as [Es|Ns].
  - rewrite Es in Wy. pose proof (tree _ _ _ (walk_nil p s0) Wy) as X. destruct l; discriminate X.
  - destruct (tr_from _ T _ _ Ey Ns) as (q & nq & b & rb & Eq & Ib).
    destruct (child_neq _ _ _ _ _ _ O T Eq Ib) as (Hn & _ & _ & _).
    destruct (tr_walk _ T _ _ Eq) as (lq & Wq & _).
    destruct (O _ _ Eq) as (Gq & _). destruct (Gq _ _ _ Ib) as [Ibq _].
    destruct (tr_kids _ T _ _ Eq) as [Kq|[Kqa Kqt]]; [rewrite Kq in Ib; contradiction|].
    pose proof (walk_snoc p s0 lq q b Wq Kqt Ibq) as Wy'. rewrite <- Hn in Wy'.
    pose proof (tree _ _ _ Wy Wy') as El. apply app_inj_tail in El. destruct El as [<- <-].
    assert (q = k) as ->.
    { clear - W Wq. revert q Wq. induction W as [|l t a0 W IH Ht Ha]; intros q Wq; inversion Wq as [|l' t' a' W' Ht' Ha' El Eq'].
      - reflexivity.
      - destruct l'; discriminate El.
      - destruct l; discriminate H.
      - apply app_inj_tail in El. destruct El as [-> ->]. now rewrite (IH _ W'). }
    rewrite E in Eq. injection Eq as <-. apply In_nth_error in Ib. destruct Ib as [j Ej].
    assert (i = j) as <-.
    { apply (nth_NoDup _ (apps p k) i j a (distinct k)); rewrite <- Ka.
      - rewrite nth_error_map, Ei. reflexivity.
      - rewrite nth_error_map, Ej. reflexivity. }
    congruence.
Qed.

Lemma on_ok : forall (g : graph) k n f g', dget g k = Some n -> on g k f = Ok g' -> g' = dset g k (f n).
Proof. intros g k n f g' E H. unfold on, at_ in H. rewrite E in H. cbn in H. congruence. Qed.

Lemma map_lset_same : forall B C (f : B -> C) (l : list B) i x y, nth_error l i = Some y -> f x = f y -> map f (lset l i x) = map f l.
Proof.
  intros B C f l. induction l as [|z l IH]; intros [|i] x y H E; cbn in *; try discriminate.
  - injection H as ->. now rewrite E.
  - now rewrite (IH i x y H E).
Qed.

Lemma lset_other : forall B (l : list B) i x j, j <> i -> nth_error (lset l i x) j = nth_error l j.
Proof.
  intros B l. induction l as [|z l IH]; intros [|i] x [|j] N; cbn; try reflexivity; try contradiction.
  apply IH. congruence.
Qed.

Lemma lset_here : forall B (l : list B) i x y, nth_error l i = Some y -> nth_error (lset l i x) i = Some x.
Proof. intros B l. induction l as [|z l IH]; intros [|i] x y H; cbn in *; try discriminate; eauto. Qed.

Lemma depth_next : forall g k n l a, tr g -> dget g k = Some n -> walk p s0 l k -> is_terminal p k = false ->
  wrap (n_depth n + 1) = Z.of_nat (length (l ++ [a])).
Proof.
  intros g k n l a T E W Kt. destruct (tr_walk _ T _ _ E) as (l' & W' & ->). rewrite <- (tree _ _ _ W W').
  specialize (horizon _ _ W Kt). rewrite app_length. cbn [length]. unfold wrap.
  rewrite Z.mod_small; lia.
Qed.

Lemma fill_child_tree : forall w k n i w' y new, ok (w_graph w) -> tr (w_graph w) -> dget (w_graph w) k = Some n ->
  drawable (w_graph w) n i -> fill_child p c w k i = Ok (w', y, new) ->
  tr (w_graph w') /\ (vals (w_graph w) -> vals (w_graph w')) /\ w_rollouts w' = w_rollouts w /\
  exists m, dget (w_graph w') y = Some m /\ n_solved m = false.
Proof.
  intros w k n i w' y new O T E (a & r & ch & Ei & Hch) H. unfold fill_child in H.
  unfold at_ at 1 in H. rewrite E in H. cbn [bind] in H. unfold lget in H. rewrite Ei in H. cbn [bind] in H.
  destruct (tr_kids _ T _ _ E) as [K|[Ka Kt]]; [rewrite K in Ei; destruct i; discriminate|].
  destruct (tr_walk _ T _ _ E) as (l & W & Dk).
  destruct (O _ _ E) as (G & _). destruct (G _ _ _ (nth_error_In _ _ Ei)) as [Ia _].
  pose proof (walk_snoc p s0 l k a W Kt Ia) as Wy.
  destruct ch as [y0|].
  - apply bind_inv in H. destruct H as (g1 & H1 & H). injection H as <- <- <-.
    unfold advance in *. rewrite sim in *. destruct (Hch y0 eq_refl) as (m & Em & Sm).
    apply (on_ok _ _ _ _ _ Em) in H1. cbn [w_graph with_graph w_rollouts].
    destruct (child_neq _ _ _ _ _ _ O T E (nth_error_In _ _ Ei)) as (-> & _).
    destruct (tr_walk _ T _ _ Em) as (ly & Wly & Dy). pose proof (tree _ _ _ Wly Wy) as ->.
    rewrite (depth_next _ _ _ _ a T E W Kt), Dy, Z.min_id in H1. subst g1.
    assert (Sh : shape (set_depth m (Z.of_nat (length (l ++ [a])))) = shape m) by (unfold shape; cbn; now rewrite Dy).
    split; [eapply tr_shp; [eapply shp_set; eauto|exact T]|]. split; [|split; [reflexivity|]].
    + intros Va. eapply vals_same; eauto.
    + eexists. split; [apply dget_dset_same|exact Sm].
  - pose proof (child_fresh _ _ _ _ _ _ O T E Ei) as Fy.
    unfold progress in H. rewrite sim in H. set (yy := next p k a) in *.
    unfold emplace in H. unfold dmem in H. rewrite Fy in H.
    assert (Nk : yy <> k) by congruence.
    apply bind_inv in H. destruct H as (g2 & H2 & H).
    assert (E1 : dget (dset (w_graph w) yy new_node) k = Some n) by (rewrite dget_dset_other; auto).
    apply (on_ok _ _ _ _ _ E1) in H2.
    apply bind_inv in H. destruct H as (g3 & H3 & H).
    assert (E2 : dget g2 yy = Some new_node) by (subst g2; rewrite dget_dset_other by congruence; apply dget_dset_same).
    apply (on_ok _ _ _ _ _ E2) in H3.
    apply bind_inv in H. destruct H as (n3 & E3 & H). apply at_ok in E3.
    assert (E3' : dget g3 k = Some (set_children n (lset (n_children n) i (a, reward p k a, Some yy)))).
    { subst g3. rewrite dget_dset_other by exact Nk. subst g2. apply dget_dset_same. }
    rewrite E3' in E3. injection E3 as <-.
    apply bind_inv in H. destruct H as (g4 & H4 & H).
    assert (E4 : dget g3 yy = Some (set_parents new_node (pyadd (n_parents (@new_node St A)) k))) by (subst g3; apply dget_dset_same).
    apply (on_ok _ _ _ _ _ E4) in H4.
    injection H as Hw <- <-. cbn [n_depth set_children] in H4. unfold yy in H4 at 2. rewrite (depth_next _ _ _ _ a T E W Kt) in H4.
    set (m4 := set_terminal _ _) in H4. set (n2 := set_children n _) in *.
    assert (Gw : w_graph w' = g4 /\ w_rollouts w' = w_rollouts w).
    { rewrite <- Hw. cbn. split; [reflexivity|]. destruct (Qltb (reward p k a) (w_min w)); destruct (_ && _); reflexivity. }
    destruct Gw as [Gw Rw]. rewrite Gw, Rw. clear Hw Gw Rw w'.
    assert (Q : forall s, dget g4 s = dget (dset (dset (w_graph w) k n2) yy m4) s).
    { intros s. subst g4 g3 g2. destruct (pyeqb_spec yy s) as [<-|N1]; [now rewrite !dget_dset_same|].
      rewrite !(dget_dset_other _ _ N1). destruct (pyeqb_spec k s) as [<-|N2]; [now rewrite !dget_dset_same|].
      rewrite !(dget_dset_other _ _ N2). now rewrite (dget_dset_other _ _ N1). }
    assert (FyA : dget (dset (w_graph w) k n2) yy = None) by (rewrite dget_dset_other by congruence; exact Fy).
    assert (Fill : forall j e, j <> i -> nth_error (n_children n) j = Some e -> nth_error (n_children n2) j = Some e).
    { intros j e Nj Ej. unfold n2. cbn. rewrite lset_other; auto. }
    assert (TA : tr (dset (w_graph w) k n2)).
    { eapply tr_change; [exact T|exact E|reflexivity|reflexivity|reflexivity| | |].
      - split; [|exact Kt]. unfold n2. cbn [n_children set_children]. rewrite <- Ka.
        eapply map_lset_same; [exact Ei|reflexivity].
      - intros b rb z Ib. apply In_nth_error in Ib. destruct Ib as [j Ej]. eapply nth_error_In. apply Fill; [|exact Ej]. congruence.
      - intros _ X. apply (f_equal (@length _)) in X. unfold n2 in X. cbn [n_children set_children] in X. rewrite lset_length in X.
        destruct (n_children n); [destruct i; discriminate|discriminate]. }
    assert (TB : tr (dset (dset (w_graph w) k n2) yy m4)).
    { eapply tr_new; [exact TA|exact FyA|reflexivity|exact Wy|reflexivity|reflexivity| |].
      - intros _. exists k, n2, a, (reward p k a). rewrite dget_dset_same. split; [reflexivity|].
        eapply nth_error_In with (n := i). unfold n2. cbn. eapply lset_here; eauto.
      - intros x Ix. cbn in Ix. destruct Ix as [<-|[]]. exists n2. rewrite dget_dset_same. split; [reflexivity|].
        intros X. apply (f_equal (@length _)) in X. unfold n2 in X. cbn [n_children set_children] in X. rewrite lset_length in X.
        destruct (n_children n); [destruct i; discriminate|discriminate]. }
    split; [eapply tr_shp; [|exact TB]; intros s; now rewrite Q|]. split; [|split; [reflexivity|]].
    + intros Va. eapply vals_eq; [exact Q|]. apply vals_new; [exact FyA|reflexivity|].
      eapply vals_set; [exact E|auto|exact Va|]. intros Np _ Sn.
      destruct (Va Np _ _ E Sn) as [B1 B2]. split; [exact B1|]. intros Kt'.
      destruct (B2 Kt') as (j & b & rb & z & v & Bj & Ej & Bz & Ev). exists j, b, rb, z, v. split; [exact Bj|].
      split; [apply Fill; [congruence|exact Ej]|]. auto.
    + exists m4. rewrite Q, dget_dset_same. split; reflexivity.
Qed.

Lemma novelty_keep : forall width w k nn w' b, ok (w_graph w) -> novelty p width w k nn = Ok (w', b) ->
  keep (w_graph w) (w_graph w') /\ w_rollouts w' = w_rollouts w.
Proof.
  intros width w k nn w' b O H. unfold novelty in H. apply bind_inv in H. destruct H as (n & En & H). apply at_ok in En.
  apply bind_inv in H. destruct H as ([[nov novel] ts] & _ & H). injection H as <- <-. cbn. split; [|reflexivity].
  assert (P : post p (w_graph w) (dset (w_graph w) k (set_novelty n nov))).
  { eapply post_set; [exact O|exact En|..]; cbn; auto. }
  destruct P as [O' X']. split; [exact O'|]. split; [exact X'|]. split; [eapply shp_set; eauto|].
  intros Va. eapply vals_same; eauto.
Qed.

Lemma expand_tree : forall g k n g', ok g -> tr g -> dget g k = Some n -> n_solved n = false -> is_terminal p k = false ->
  expand p g k = Ok g' -> tr g' /\ (vals g -> vals g').
Proof.
  intros g k n g' O T E Sn Kt H. apply (on_ok _ _ _ _ _ E) in H. subst g'.
  destruct (n_children n) eqn:Ec.
  - destruct (apps p k) as [|a0 la] eqn:Ea.
    + assert (Sh : shape (set_children n []) = shape n) by (unfold shape; cbn; now rewrite Ec).
      split; [eapply tr_shp; [eapply shp_set; eauto|exact T]|]. intros Va. eapply vals_same; eauto.
    + rewrite <- Ea. split.
      * eapply tr_change; [exact T|exact E|reflexivity|reflexivity|reflexivity| | |].
        -- split; [|exact Kt]. cbn. rewrite map_map. cbn. apply map_id.
        -- rewrite Ec. intros ? ? ? [].
        -- rewrite Ec. congruence.
      * intros Va. eapply vals_set; [exact E|auto|exact Va|]. cbn. congruence.
  - split; [eapply tr_shp; [eapply shp_set; eauto|exact T]|]. intros Va. eapply vals_same; eauto.
Qed.

Definition fine (w : world) : Prop := ok (w_graph w) /\ tr (w_graph w) /\ vals (w_graph w).

Lemma fine_keep : forall w w', fine w -> keep (w_graph w) (w_graph w') -> fine w'.
Proof.
  intros w w' (O & T & Va) (O' & _ & S' & V'). split; [exact O'|]. split; [eapply tr_shp; eauto|auto].
Qed.

Lemma rollout_loop_fine : forall fuel width w k w', fine w -> is_terminal p k = false ->
  rollout_loop p c clock draw order fuel width w k = Ok w' -> fine w' /\ ext (w_graph w) (w_graph w') /\ w_rollouts w' = w_rollouts w.
Proof.
  induction fuel as [|fuel IH]; intros width w k w' F Kt H; cbn [rollout_loop] in H;
    apply bind_inv in H; destruct H as (n & En & H); apply at_ok in En; destruct (n_solved n) eqn:Sn;
    try (injection H as <-; split; [exact F|]; split; [apply ext_refl|reflexivity]); try discriminate.
  destruct F as (O & T & Va).
  apply bind_inv in H. destruct H as (g1 & H1 & H).
  destruct (expand_tree _ _ _ _ O T En Sn Kt H1) as [T1 V1].
  assert (P1 : post p (w_graph w) g1).
  { eapply safe_ok; [|exact H1]. apply (expand_safe p anyerr); [exact O|now exists n]. }
  destruct P1 as [O1 X1]. destruct (X1 _ _ En) as (n1 & En1 & _).
  apply bind_inv in H. destruct H as (ls & H2 & H).
  pose proof (safe_ok _ _ _ _ _ (unsolved_safe p anyerr g1 k n1 O1 En1) H2) as Dr. cbv beta in Dr.
  destruct ls as [|i0 ls]; [discriminate|].
  apply bind_inv in H. destruct H as ([[w2 y] new] & H3 & H).
  set (w1 := with_oracles (with_graph w g1) (w_ticks w) (S (w_draws w))) in *.
  pose proof (nth_pick ls i0 (draw (w_draws w) mod length (i0 :: ls))) as Ip. specialize (Dr _ Ip).
  destruct (fill_child_tree w1 _ _ _ _ _ _ O1 T1 En1 Dr H3) as (T2 & V2 & R2 & m & Em & Sm).
  assert (P2 : wpost p w1 w2).
  { pose proof (safe_ok _ _ _ _ _ (fill_child_safe p c anyerr sim w1 k n1 _ O1 En1 Dr) H3) as [X _]. exact X. }
  destruct P2 as ([O2 X2] & _ & _). cbn [w_graph with_oracles with_graph w1] in X2, V2, R2.
  assert (X02 : ext (w_graph w) (w_graph w2)) by (eapply ext_trans; eauto).
  assert (F2 : fine w2) by (split; [exact O2|]; split; [exact T2|auto]).
  apply bind_inv in H. destruct H as (m' & Em' & H). apply at_ok in Em'. rewrite Em in Em'. injection Em' as <-.
  assert (Fin : forall (w3 ko : world) sv, keep (w_graph w2) (w_graph w3) -> w_rollouts w3 = w_rollouts w2 ->
     update_node c order w3 y sv = Ok ko -> (nopr (w_graph w3) -> sv = true -> is_terminal p y = true) ->
     fine ko /\ ext (w_graph w) (w_graph ko) /\ w_rollouts ko = w_rollouts w).
  { intros w3 ko sv K3 R3 Hu Hc. pose proof (fine_keep _ _ F2 K3) as F3. destruct F3 as (O3 & T3 & V3).
    destruct K3 as (_ & X3 & _). destruct (X3 _ _ Em) as (m3 & Em3 & _).
    destruct (update_node_keep _ _ _ _ _ O3 T3 Em3 Hu Hc) as [K4 R4].
    split; [eapply fine_keep; [|exact K4]; split; [exact O3|]; split; assumption|].
    split; [eapply ext_trans; [exact X02|]; eapply ext_trans; [exact X3|apply K4]|]. cbn in R2. rewrite R4, R3, R2. reflexivity. }
  destruct (n_terminal m || n_solved m) eqn:Et.
  { apply bind_inv in H. destruct H as (w3 & Hu & H). injection H as <-.
    rewrite Sm, orb_false_r in Et. rewrite (tr_term _ T2 _ _ Em) in Et.
    destruct (Fin w2 w3 true (keep_refl _ O2) eq_refl Hu (fun _ _ => Et)) as (A1 & A2 & A3).
    split; [exact A1|]. split; assumption. }
  rewrite Sm, orb_false_r in Et. rewrite (tr_term _ T2 _ _ Em) in Et.
  apply bind_inv in H. destruct H as ([w3 novel] & H4 & H).
  destruct (novelty_keep _ _ _ _ _ _ O2 H4) as [K3 R3].
  pose proof (fine_keep _ _ F2 K3) as F3. pose proof F3 as (O3 & T3 & V3). pose proof K3 as (_ & X3 & _).
  destruct (X3 _ _ Em) as (m3 & Em3 & _).
  destruct (negb novel).
  { apply bind_inv in H. destruct H as (g4 & H5 & H). apply (on_ok _ _ _ _ _ Em3) in H5. subst g4.
    assert (P4 : post p (w_graph w3) (dset (w_graph w3) y (set_pruned m3 true))).
    { eapply post_set; [exact O3|exact Em3|..]; cbn; auto. }
    assert (K4 : keep (w_graph w3) (dset (w_graph w3) y (set_pruned m3 true))).
    { destruct P4 as [O4 X4]. split; [exact O4|]. split; [exact X4|]. split; [eapply shp_set; eauto|].
      intros _. intros Np. specialize (Np _ _ (dget_dset_same _ _ _)). discriminate Np. }
    apply (Fin _ _ true) in H; [exact H|cbn; eapply keep_trans; eauto|exact R3|].
    cbn. intros Np. specialize (Np _ _ (dget_dset_same _ _ _)). discriminate Np. }
  destruct (max_depth c <=? n_depth m)%Z eqn:Ed.
  { exfalso. apply Z.leb_le in Ed. destruct (tr_walk _ T2 _ _ Em) as (l & W & Dm). specialize (horizon _ _ W Et). lia. }
  unfold read_clock in H. destruct (time_budget c <=? clock (w_ticks w3)).
  { destruct (n_children m).
    - apply (Fin _ _ false) in H; [exact H|exact K3|exact R3|discriminate].
    - injection H as <-. split; [exact F3|]. split; [eapply ext_trans; eauto|cbn in R2; cbn; congruence]. }
  apply IH in H; [|exact F3|exact Et]. destruct H as (F5 & X5 & R5). split; [exact F5|].
  cbn in X5, R5, R2. split; [eapply ext_trans; [exact X02|]; eapply ext_trans; eauto|congruence].
Qed.

Lemma rollouts_fine : forall rounds fuel width w w' n, fine w -> dget (w_graph w) s0 = Some n ->
  rollouts p c clock draw order rounds fuel width w s0 = Ok w' -> (forall t, clock t < time_budget c) ->
  fine w' /\ exists n', dget (w_graph w') s0 = Some n' /\ (n_solved n' = true \/ rollout_budget c <= w_rollouts w').
Proof.
  intros rounds. induction rounds as [|rounds IH]; intros fuel width w w' n F E H Tm; cbn [rollouts] in H;
    apply bind_inv in H; destruct H as (n0 & En & H); apply at_ok in En; rewrite E in En; injection En as <-;
    destruct (n_solved n) eqn:Sn; try (injection H as <-; split; [exact F|]; exists n; auto);
    unfold read_clock in H; cbn [w_rollouts with_oracles] in H;
    rewrite (proj2 (Nat.ltb_lt _ _) (Tm (w_ticks w))) in H; cbn [andb] in H;
    destruct (w_rollouts w <? rollout_budget c) eqn:Er; try discriminate;
    try (injection H as <-; apply Nat.ltb_ge in Er; split; [exact F|]; exists n; cbn; auto).
  apply bind_inv in H. destruct H as (w2 & H2 & H). unfold rollout, init_rollout in H2. rewrite sim in H2.
  apply rollout_loop_fine in H2; [|exact F|exact live0]. destruct H2 as (F2 & X2 & _). destruct (X2 _ _ E) as (n2 & E2 & _).
  eapply IH; eauto.
Qed.

(** Between two runs, the marks of the nodes do not count. *)
Lemma width_solve_fine : forall fuel w width b w', ok (w_graph w) -> tr (w_graph w) ->
  width_solve p c clock draw order fuel w width s0 = Ok (b, w') -> (forall t, clock t < time_budget c) ->
  fine w' /\ exists n', dget (w_graph w') s0 = Some n' /\ (n_solved n' = true \/ rollout_budget c <= w_rollouts w').
Proof.
  intros fuel w width b w' O T H Tm. unfold width_solve in H.
  set (g0 := map (fun e : St * node => (fst e, set_pruned (set_solved (snd e) false) false)) (w_graph w)) in H.
  assert (Q0 : forall k, dget g0 k = option_map (fun n => set_pruned (set_solved n false) false) (dget (w_graph w) k)).
  { intros k. apply (dget_map (w_graph w) (fun n => set_pruned (set_solved n false) false)). }
  assert (O0 : ok g0).
  { intros k n E. rewrite Q0 in E. destruct (dget (w_graph w) k) as [m|] eqn:Em; [|discriminate]. injection E as <-.
    apply good_ext with (w_graph w); [|exact (O _ _ Em)].
    intros q [x Ex]. eexists. rewrite Q0, Ex. reflexivity. }
  assert (T0 : tr g0).
  { eapply tr_shp; [|exact T]. intros k. rewrite Q0. destruct (dget (w_graph w) k); reflexivity. }
  assert (V0 : vals g0).
  { intros _ k n E Es. rewrite Q0 in E. destruct (dget (w_graph w) k) as [m|]; [|discriminate]. injection E as <-. discriminate Es. }
  pose proof (emplace_spec p g0 s0 O0) as (O1 & _ & D1).
  destruct (emplace g0 s0) as [g1 new] eqn:Ee. cbn [fst] in O1, D1.
  apply bind_inv in H. destruct H as (g2 & H2 & H).
  destruct D1 as [n1 E1].
  assert (O2 : ok g2).
  { assert (P : post p g1 g2); [|apply P]. eapply safe_ok; [|exact H2]. apply (on_safe p anyerr); [exact O1|now exists n1|].
    intros q. cbn. auto. }
  apply (on_ok _ _ _ _ _ E1) in H2.
  assert (TV : tr g2 /\ vals g2 /\ dget g2 s0 = Some (set_depth n1 0)).
  { split; [|split; [|subst g2; apply dget_dset_same]].
    - unfold emplace in Ee. unfold dmem in Ee. destruct (dget g0 s0) as [m|] eqn:Em; injection Ee as <- <-.
      + rewrite Em in E1. injection E1 as <-. subst g2. eapply tr_shp; [eapply shp_set; [exact Em|]|exact T0].
        destruct (tr_walk _ T0 _ _ Em) as (l & W & D). pose proof (tree _ _ _ (walk_nil p s0) W) as <-. unfold shape. cbn. now rewrite D.
      + rewrite dget_dset_same in E1. injection E1 as <-. subst g2.
        assert (TT : tr (dset g0 s0 (set_depth new_node 0))).
        { eapply tr_new; [exact T0|exact Em|reflexivity|apply walk_nil|reflexivity|cbn; congruence|congruence|intros x []]. }
        eapply tr_shp; [|exact TT]. intros k. destruct (pyeqb_spec s0 k) as [<-|N]; [now rewrite !dget_dset_same|].
        rewrite !(dget_dset_other _ _ N). reflexivity.
    - unfold emplace in Ee. unfold dmem in Ee. destruct (dget g0 s0) as [m|] eqn:Em; injection Ee as <- <-.
      + rewrite Em in E1. injection E1 as <-. subst g2. eapply vals_set; [exact Em|auto|exact V0|]. cbn. intros _ _ Es.
        rewrite Q0 in Em. destruct (dget (w_graph w) s0); [|discriminate]. injection Em as <-. discriminate Es.
      + rewrite dget_dset_same in E1. injection E1 as <-. subst g2.
        eapply vals_eq with (g := dset g0 s0 (set_depth new_node 0)).
        { intros k. destruct (pyeqb_spec s0 k) as [<-|N]; [now rewrite !dget_dset_same|]. now rewrite !(dget_dset_other _ _ N). }
        apply vals_new; [exact Em|reflexivity|exact V0]. }
  destruct TV as (T2 & V2 & E2).
  apply bind_inv in H. destruct H as ([w3 nv] & H3 & H).
  apply novelty_keep in H3; [|exact O2]. destruct H3 as [K3 _]. cbn [w_graph with_flags with_min with_tuples with_graph] in K3.
  assert (F3 : fine w3).
  { destruct K3 as (O3 & _ & S3 & V3). split; [exact O3|]. split; [eapply tr_shp; eauto|auto]. }
  destruct K3 as (_ & X3 & _). destruct (X3 _ _ E2) as (n3 & E3 & _).
  apply bind_inv in H. destruct H as (w4 & H4 & H). cbn [fst] in H4.
  eapply rollouts_fine in H4; [|exact F3|exact E3|exact Tm].
  unfold read_clock in H. injection H as _ <-. exact H4.
Qed.

Lemma widths_fine : forall ws fuel w b w', ws <> [] -> ok (w_graph w) -> tr (w_graph w) ->
  widths p c clock draw order fuel w s0 ws = Ok (b, w') -> (forall t, clock t < time_budget c) ->
  fine w' /\ exists n', dget (w_graph w') s0 = Some n' /\ (n_solved n' = true \/ rollout_budget c <= w_rollouts w').
Proof.
  induction ws as [|v ws IH]; intros fuel w b w' Ne O T H Tm; [contradiction|]. cbn [widths] in H.
  apply bind_inv in H. destruct H as ([b1 w1] & H1 & H).
  pose proof (width_solve_fine _ _ _ _ _ O T H1 Tm) as R1. cbn [fst snd] in H. destruct b1; [injection H as <- <-; exact R1|].
  destruct ws as [|v' ws]; [cbn in H; injection H as <- <-; exact R1|].
  destruct R1 as ((O1 & T1 & _) & _). eapply IH; [discriminate|exact O1|exact T1|exact H|exact Tm].
Qed.

Lemma solve_fine : forall fuel b w', features p s0 <> [] ->
  solve p c clock draw order fuel (start p) s0 = Ok (b, w') -> (forall t, clock t < time_budget c) ->
  fine w' /\ exists n', dget (w_graph w') s0 = Some n' /\ (n_solved n' = true \/ rollout_budget c <= w_rollouts w').
Proof.
  intros fuel b w' Hf H Tm. unfold solve in H. eapply widths_fine; [| | |exact H|exact Tm].
  - destruct (features p s0); [contradiction|discriminate].
  - intros s n E. discriminate E.
  - constructor; intros s n E; discriminate E.
Qed.

Lemma nopr_count : forall w : world, get_nb_of_pruned_states w = 0 -> nopr (w_graph w).
Proof.
  intros w H s n E. unfold get_nb_of_pruned_states in H. apply dget_In in E.
  destruct (n_pruned n) eqn:Ep; [|reflexivity]. exfalso.
  assert (I : In (s, n) (filter (fun e => n_pruned (snd e)) (w_graph w))) by (apply filter_In; auto).
  destruct (filter _ _); [contradiction|discriminate].
Qed.
End Tree.
