From Coq Require Import List Bool Arith ZArith QArith Lia Lqa Psatz.
Import ListNotations.
From Verif Require Import Py PyList PyMore PomcpModel PomcpSpec.
Set Implicit Arguments.
Open Scope nat_scope.

Lemma qlt_spec a b : qlt a b = true <-> (a < b)%Q.
Proof.
  unfold qlt. rewrite negb_true_iff. split.
  - intros H. apply Qnot_le_lt. intros L. apply Qle_bool_iff in L. congruence.
  - intros H. destruct (Qle_bool b a) eqn:E; [|reflexivity]. apply Qle_bool_iff in E. lra.
Qed.
Lemma qlt_false a b : qlt a b = false <-> (b <= a)%Q.
Proof. unfold qlt. rewrite negb_false_iff. apply Qle_bool_iff. Qed.
Lemma pymin_bounds a b : (0 <= a)%Q -> (0 <= b)%Q -> (0 <= pymin a b)%Q /\ (pymin a b <= b)%Q.
Proof.
  intros. unfold pymin. destruct (Qle_bool a b) eqn:E; [apply Qle_bool_iff in E|]; lra.
Qed.

Section Proofs.
  Variables St Act Obs : Type.
  Context {EA : PyEq Act} {EO : PyEq Obs}.
  Variable w : world St Act Obs.
  Variable max_depth : nat.
  Notation vlv := (vlv max_depth).
  Notation key := (key Act Obs).
  Notation tree := (tree Act Obs).
  Notation memory := (memory Act Obs).
  Notation better := (better w max_depth).
  Notation score := (score w max_depth).
  Notation best_action := (best_action w max_depth).
  Notation rollout := (rollout w max_depth).
  Notation tree_search := (tree_search w max_depth).
  Notation add_children := (add_children w).

  (** ** The choice of an action *)

  Lemma fold_better t p ha ho l : forall b s b' s',
    fold_left (better t p ha ho) l (b, s) = (b', s') ->
    (s' <= s)%Q /\
    (forall a n, In a l -> dget t (ha ++ [Some a], ho) = Some n -> (s' <= score p n)%Q) /\
    ((b' = b /\ s' = s) \/
     exists l1 a l2 n, l = l1 ++ a :: l2 /\ dget t (ha ++ [Some a], ho) = Some n /\ b' = Some a /\
       s' = score p n /\ (s' < s)%Q /\
       forall a1 n1, In a1 l1 -> dget t (ha ++ [Some a1], ho) = Some n1 -> (score p n < score p n1)%Q).
  Proof.
    induction l as [|x l IH]; intros b s b' s' H; cbn [fold_left] in H.
    - inversion H; subst. split; [lra|]. split; [intros ? ? []|]. left; auto.
    - unfold better at 2 in H. destruct (dget t (ha ++ [Some x], ho)) as [n|] eqn:D.
      + cbn [snd] in H. destruct (qlt (score p n) s) eqn:Q.
        * apply qlt_spec in Q. destruct (IH _ _ _ _ H) as (L & M & C). split; [lra|]. split.
          -- intros a m [<- | I] E; [rewrite D in E; inversion E; subst; exact L|eauto].
          -- right. destruct C as [[-> ->]|(l1 & a & l2 & m & -> & Da & -> & -> & Lt & F)].
             ++ exists [], x, l, n. repeat split; auto. intros ? ? [].
             ++ exists (x :: l1), a, l2, m. repeat split; auto; [lra|].
                intros a1 n1 [<- | I] E; [rewrite D in E; inversion E; subst; exact Lt|eauto].
        * apply qlt_false in Q. destruct (IH _ _ _ _ H) as (L & M & C). split; [lra|]. split.
          -- intros a m [<- | I] E; [rewrite D in E; inversion E; subst; lra|eauto].
          -- destruct C as [C|(l1 & a & l2 & m & -> & Da & -> & -> & Lt & F)]; [left; exact C|right].
             exists (x :: l1), a, l2, m. repeat split; auto.
             intros a1 n1 [<- | I] E; [rewrite D in E; inversion E; subst; lra|eauto].
      + destruct (IH _ _ _ _ H) as (L & M & C). split; [lra|]. split.
        * intros a m [<- | I] E; [congruence|eauto].
        * destruct C as [C|(l1 & a & l2 & m & -> & Da & -> & -> & Lt & F)]; [left; exact C|right].
          exists (x :: l1), a, l2, m. repeat split; auto.
          intros a1 n1 [<- | I] E; [congruence|eauto].
  Qed.

  Lemma best_choice t p ha ho r :
    fst (fold_left (better t p ha ho) (w_actions w) (None, vlv)) = r ->
    match r with
    | None => forall a n, In a (w_actions w) -> dget t (ha ++ [Some a], ho) = Some n -> (vlv <= score p n)%Q
    | Some a => exists l1 l2 n, w_actions w = l1 ++ a :: l2 /\ dget t (ha ++ [Some a], ho) = Some n /\
        (score p n < vlv)%Q /\
        (forall b m, In b (w_actions w) -> dget t (ha ++ [Some b], ho) = Some m -> (score p n <= score p m)%Q) /\
        (forall b m, In b l1 -> dget t (ha ++ [Some b], ho) = Some m -> (score p n < score p m)%Q)
    end.
  Proof.
    intros E. destruct (fold_left (better t p ha ho) (w_actions w) (None, vlv)) as [b s] eqn:F.
    cbn in E. subst r. destruct (fold_better _ _ _ _ _ _ _ F) as (L & M & [[-> ->]|C]).
    - exact M.
    - destruct C as (l1 & a & l2 & n & E & D & -> & -> & Lt & Fi). exists l1, l2, n. auto.
  Qed.

  (** ** Rollouts *)

  Variable LAW : lawful w max_depth.

  Lemma vlv_pos : (0 < vlv)%Q.
  Proof.
    unfold PomcpModel.vlv. pose proof (l_depth LAW). replace 0%Q with (inject_Z 0) by reflexivity.
    rewrite <- Zlt_Qlt. lia.
  Qed.

  Lemma rollout_ok left : forall s d, exists c d', rollout left s d = Ok (c, d') /\ (0 <= c)%Q /\ (c <= vlv)%Q.
  Proof.
    pose proof vlv_pos as V. induction left as [|l IH]; intros s d; cbn [PomcpModel.rollout].
    - exists vlv, d. split; [reflexivity|]. lra.
    - destruct (l_pick LAW d s) as (a & -> & Ia). cbn [bind].
      destruct (l_next LAW (d + 1) s (a := Some a)) as (s' & ->).
      { intros b E; inversion E; subst. exact (l_incl LAW _ _ Ia). }
      cbn [bind]. pose proof (l_cost LAW s a s') as [C0 C1].
      destruct (w_goal w (w_obs w (d + 2) s (Some a))).
      + eexists _, _. split; [reflexivity|]. lra.
      + destruct (IH s' (d + 3)) as (c & d' & -> & c0 & c1). cbn [bind fst snd].
        eexists _, _. split; [reflexivity|]. apply pymin_bounds; lra.
  Qed.

  (** ** The tree *)

  Definition kid (ha : list (option Act)) (ho : list Obs) (a : Act) : key := (ha ++ [Some a], ho).

  Lemma kid_neq ha ho a : length ha = length ho -> forall ha' ho', length ha' = length ho' -> kid ha ho a <> (ha', ho').
  Proof.
    intros E ha' ho' E' H. unfold kid in H. inversion H; subst. rewrite app_length in E'. simpl in E'. lia.
  Qed.
  Lemma kid_inj ha ho a ha' ho' b : kid ha ho a = kid ha' ho' b -> ha = ha' /\ ho = ho' /\ a = b.
  Proof. unfold kid. intros H. inversion H as [[H1 H2]]. apply app_inj_tail in H1 as [-> E]. inversion E. auto. Qed.

  Definition sum_visits (t : tree) ha ho (l : list Act) : nat :=
    list_sum (map (fun a => visits t (kid ha ho a)) l).

  Lemma sum_visits_ext t t' ha ho l :
    (forall a, In a l -> visits t' (kid ha ho a) = visits t (kid ha ho a)) ->
    sum_visits t' ha ho l = sum_visits t ha ho l.
  Proof. intros H. unfold sum_visits. f_equal. apply map_ext_in. exact H. Qed.

  Lemma sum_visits_one t t' ha ho a l : NoDup l -> In a l ->
    visits t' (kid ha ho a) = visits t (kid ha ho a) + 1 ->
    (forall b, b <> a -> visits t' (kid ha ho b) = visits t (kid ha ho b)) ->
    sum_visits t' ha ho l = sum_visits t ha ho l + 1.
  Proof.
    intros ND I E O. induction l as [|x l IH]; [destruct I|].
    inversion ND as [|? ? N ND']; subst. unfold sum_visits in *. simpl. destruct I as [<- | I].
    - assert (map (fun b => visits t' (kid ha ho b)) l = map (fun b => visits t (kid ha ho b)) l) as ->.
      { apply map_ext_in. intros b Ib. apply O. intros ->. contradiction. }
      lia.
    - rewrite IH by assumption. rewrite (O x); [lia|]. intros ->. contradiction.
  Qed.

  Record inv (t : tree) (log : list (key * Q)) : Prop := Inv {
    i_node : forall ha ho n, length ha = length ho -> dget t (ha, ho) = Some n ->
      (exists a, In a (w_actions w) /\ known t (kid ha ho a)) /\
      n_visits n = 1 + sum_visits t ha ho (w_actions w);
    i_child : forall ha ho a n, length ha = length ho -> dget t (kid ha ho a) = Some n ->
      known t (ha, ho) /\ In a (w_actions w) /\ (0 <= n_value n)%Q /\ (n_value n <= vlv)%Q /\
      n_visits n = length (costs_of log (kid ha ho a)) /\
      (n_value n * inject_Z (Z.of_nat (n_visits n)) == total (costs_of log (kid ha ho a)))%Q /\
      (n_visits n = 0 -> n_value n = 0%Q);
    i_log : forall k c, In (k, c) log -> known t k /\ (0 <= c)%Q /\ (c <= vlv)%Q
  }.

  Lemma inv_empty : inv [] [].
  Proof. split; intros; try discriminate. contradiction. Qed.

  Lemma costs_of_cons (log : list (key * Q)) (k : key) c (k' : key) : costs_of ((k, c) :: log) k' = (if pyeqb k k' then [c] else []) ++ costs_of log k'.
  Proof. unfold costs_of. cbn [filter fst]. destruct (pyeqb k k'); reflexivity. Qed.

  Lemma costs_of_none (t : tree) log k : inv t log -> dget t k = None -> costs_of log k = [].
  Proof.
    intros I N. unfold costs_of. assert (filter (fun e : key * Q => pyeqb (fst e) k) log = []) as ->; [|reflexivity].
    destruct (filter _ log) as [|[k' c] r] eqn:E; [reflexivity|].
    assert (In (k', c) (filter (fun e : key * Q => pyeqb (fst e) k) log)) as J by (rewrite E; left; reflexivity).
    apply filter_In in J as [J P]. cbn [fst] in P. destruct (pyeqb_spec k' k); [subst|discriminate].
    destruct (i_log I _ _ J) as [[n D] _]. congruence.
  Qed.

  Lemma visits_dset (t : tree) k v k' : visits (dset t k v) k' = if pyeqb k k' then n_visits v else visits t k'.
  Proof.
    unfold visits. rewrite dget_dset. destruct (pyeqb k k'); reflexivity.
  Qed.

  (** *** New nodes *)

  Lemma add_children_get t s ha ho k :
    dget (add_children t s ha ho) k =
      if existsb (fun a => pyeqb (kid ha ho a) k) (w_applicable w s) then Some (Node 0 0) else dget t k.
  Proof.
    unfold PomcpModel.add_children. revert t. induction (w_applicable w s) as [|a l IH]; intros t; [reflexivity|].
    cbn [fold_left existsb]. rewrite IH. fold (kid ha ho a). rewrite dget_dset.
    destruct (pyeqb (kid ha ho a) k) eqn:E; cbn [orb].
    - destruct (existsb _ l); reflexivity.
    - reflexivity.
  Qed.

  Lemma add_children_hit t s ha ho a : In a (w_applicable w s) ->
    dget (add_children t s ha ho) (kid ha ho a) = Some (Node 0 0).
  Proof.
    intros I. rewrite add_children_get. replace (existsb _ _) with true; [reflexivity|].
    symmetry. apply existsb_exists. exists a. split; [exact I|apply pyeqb_refl].
  Qed.

  Lemma add_children_miss t s ha ho k : (forall a, In a (w_applicable w s) -> kid ha ho a <> k) ->
    dget (add_children t s ha ho) k = dget t k.
  Proof.
    intros H. rewrite add_children_get. destruct (existsb _ _) eqn:E; [|reflexivity].
    apply existsb_exists in E as (a & I & P). destruct (pyeqb_spec (kid ha ho a) k); [|discriminate].
    exfalso. exact (H a I e).
  Qed.

  Lemma add_children_cases t s ha ho k n : dget (add_children t s ha ho) k = Some n ->
    (exists a, In a (w_applicable w s) /\ k = kid ha ho a /\ n = Node 0 0) \/ dget t k = Some n.
  Proof.
    rewrite add_children_get. destruct (existsb _ _) eqn:E; [|auto].
    intros H. inversion H; subst. apply existsb_exists in E as (a & I & P).
    destruct (pyeqb_spec (kid ha ho a) k); [|discriminate]. left. exists a. auto.
  Qed.

  Lemma known_dset (t : tree) k v k' : known t k' -> known (dset t k v) k'.
  Proof. intros [n D]. unfold known. rewrite dget_dset. destruct (pyeqb k k'); eauto. Qed.

  Lemma inv_new t log s ha ho c : inv t log -> length ha = length ho -> dget t (ha, ho) = None ->
    inv (dset (add_children t s ha ho) (ha, ho) (Node 1 c)) log.
  Proof.
    intros I L N.
    assert (forall a, dget t (kid ha ho a) = None) as NK.
    { intros a. destruct (dget t (kid ha ho a)) as [n|] eqn:D; [|reflexivity].
      destruct (i_child I ha ho a L D) as ([p P] & _). congruence. }
    assert (forall k, ~ In k [(ha, ho)] -> (forall a, k <> kid ha ho a) ->
              dget (dset (add_children t s ha ho) (ha, ho) (Node 1 c)) k = dget t k) as Old.
    { intros k N1 N2. rewrite dget_dset_other by (intros E; apply N1; left; exact E).
      apply add_children_miss. intros a _ E. exact (N2 a (eq_sym E)). }
    assert (forall k, known t k -> known (dset (add_children t s ha ho) (ha, ho) (Node 1 c)) k) as Mono.
    { intros k [n D]. apply known_dset. unfold known. rewrite add_children_get. destruct (existsb _ _); eauto. }
    split.
    - intros ha' ho' n L' D. destruct (py_dec (ha, ho) (ha', ho')) as [E|E].
      + inversion E; subst ha' ho'. rewrite dget_dset_same in D. inversion D; subst n. split.
        * destruct (w_applicable w s) as [|a l] eqn:A; [exfalso; exact (l_some LAW s A)|].
          assert (In a (w_applicable w s)) as Ia by (rewrite A; left; reflexivity).
          exists a. split; [exact (l_incl LAW _ _ Ia)|]. apply known_dset. eexists. apply add_children_hit. exact Ia.
        * cbn [n_visits]. unfold sum_visits. replace (list_sum _) with 0; [reflexivity|]. symmetry.
          clear - L NK. induction (w_actions w) as [|a l IH]; [reflexivity|]. simpl. rewrite IH.
          unfold visits. rewrite dget_dset_other by (intros E; symmetry in E; revert E; apply kid_neq; assumption).
          rewrite add_children_get. rewrite NK. destruct (existsb _ _); reflexivity.
      + rewrite dget_dset_other in D by assumption. rewrite add_children_miss in D by (intros a _; apply kid_neq; assumption).
        destruct (i_node I ha' ho' L' D) as [(a & Ia & K) V]. split; [exists a; auto|].
        rewrite V. f_equal. symmetry. apply sum_visits_ext. intros b _. unfold visits. rewrite Old; [reflexivity| |].
        * intros [Z|[]]. symmetry in Z. revert Z. apply kid_neq; assumption.
        * intros b' Z. apply kid_inj in Z as (-> & -> & _). congruence.
    - intros ha' ho' a n L' D.
      rewrite dget_dset_other in D by (intros E; symmetry in E; revert E; apply kid_neq; assumption).
      apply add_children_cases in D as [(b & Ib & E & ->)|D].
      + apply kid_inj in E as (-> & -> & ->). split; [eexists; apply dget_dset_same|].
        split; [exact (l_incl LAW _ _ Ib)|]. cbn [n_value n_visits].
        pose proof vlv_pos. rewrite (costs_of_none _ I (NK b)). repeat split; try (cbn; lra). 
      + destruct (i_child I ha' ho' a L' D) as (K & Rest). split; [apply Mono; exact K|exact Rest].
    - intros k q J. destruct (i_log I _ _ J) as (K & B). split; [apply Mono; exact K|exact B].
  Qed.

  (** *** Back-propagation *)

  Lemma inv_back t d log ha ho a c p n : inv t log -> length ha = length ho ->
    dget t (ha, ho) = Some p -> dget t (kid ha ho a) = Some n -> (0 <= c)%Q -> (c <= vlv)%Q ->
    exists t', back (Memory t d log) ha ho a c = Ok (Memory t' d ((kid ha ho a, c) :: log)) /\
      inv t' ((kid ha ho a, c) :: log) /\
      (forall k, known t' k <-> known t k) /\
      (forall k, length (snd k) < length ho -> dget t' k = dget t k) /\
      (forall b, visits t' (kid ha ho b) = visits t (kid ha ho b) + (if pyeqb a b then 1 else 0)).
  Proof.
    intros I L Dp Dn c0 c1. unfold back. cbn [m_tree m_draws m_log]. unfold dgetE. rewrite Dp. cbn [bind].
    fold (kid ha ho a). rewrite Dn. cbn [bind].
    set (z := inject_Z (Z.of_nat (n_visits n))). set (v := ((n_value n * z + c) / (z + 1))%Q).
    set (t' := dset (dset t (ha, ho) (Node (n_visits p + 1) (n_value p))) (kid ha ho a) (Node (n_visits n + 1) v)).
    exists t'. split; [reflexivity|].
    assert ((ha, ho) <> kid ha ho a) as NE by (intros E; symmetry in E; revert E; apply kid_neq; assumption).
    assert (forall k, known t k -> known t' k) as Mono by (intros; apply known_dset, known_dset; assumption).
    assert (dget t' (ha, ho) = Some (Node (n_visits p + 1) (n_value p))) as T1.
    { unfold t'. rewrite dget_dset_other by congruence. apply dget_dset_same. }
    assert (dget t' (kid ha ho a) = Some (Node (n_visits n + 1) v)) as T2 by apply dget_dset_same.
    assert (forall k, k <> (ha, ho) -> k <> kid ha ho a -> dget t' k = dget t k) as T3.
    { intros k A B. unfold t'. rewrite !dget_dset_other by congruence. reflexivity. }
    destruct (i_child I ha ho a L Dn) as (_ & Ia & v0 & v1 & Nn & Nt & Nz).
    destruct (i_node I ha ho L Dp) as [_ Np].
    assert (0 <= z)%Q as z0. { unfold z. replace 0%Q with (inject_Z 0) by reflexivity. rewrite <- Zle_Qle. lia. }
    assert (v * (z + 1) == n_value n * z + c)%Q as Ev. { unfold v. field. lra. }
    assert (0 <= v)%Q as w0.
    { unfold v. apply Qle_shift_div_l; [lra|]. assert (0 <= n_value n * z)%Q by (apply Qmult_le_0_compat; lra). lra. }
    assert (v <= vlv)%Q as w1.
    { unfold v. apply Qle_shift_div_r; [lra|].
      assert (0 <= (vlv - n_value n) * z)%Q by (apply Qmult_le_0_compat; lra). lra. }
    assert (forall b, b <> a -> dget t' (kid ha ho b) = dget t (kid ha ho b)) as T4.
    { intros b B. apply T3; [apply kid_neq; assumption|]. intros E. apply kid_inj in E as (_ & _ & ->). congruence. }
    assert (forall b, visits t' (kid ha ho b) = visits t (kid ha ho b) + (if pyeqb a b then 1 else 0)) as TV.
    { intros b. destruct (pyeqb_spec a b) as [<- | B].
      - unfold visits. rewrite T2, Dn. reflexivity.
      - unfold visits. rewrite T4 by congruence. lia. }
    assert (forall k, known t' k -> known t k) as Back.
    { intros k [q D]. destruct (pyeqb_spec k (ha, ho)) as [-> | E1]; [eexists; exact Dp|].
      destruct (pyeqb_spec k (kid ha ho a)) as [-> | E2]; [eexists; exact Dn|].
      rewrite T3 in D by assumption. eexists; exact D. }
    split; [|split; [intros k; split; auto|split; [|exact TV]]].
    - split.
      + intros ha' ho' q L' D. destruct (pyeqb_spec (ha, ho) (ha', ho')) as [E|E].
        * inversion E; subst ha' ho'. rewrite T1 in D. inversion D; subst q. cbn [n_visits]. split.
          -- exists a. split; [exact Ia|]. eexists; exact T2.
          -- rewrite Np. rewrite (@sum_visits_one t t' ha ho a (w_actions w) (l_nodup LAW) Ia); [lia| |].
             ++ rewrite TV, pyeqb_refl. reflexivity.
             ++ intros b B. rewrite TV. destruct (pyeqb_spec a b); [congruence|lia].
        * rewrite T3 in D; [|congruence|intros Z; symmetry in Z; revert Z; apply kid_neq; assumption].
          destruct (i_node I ha' ho' L' D) as [(b & Ib & K) V]. split; [exists b; auto|].
          rewrite V. f_equal. symmetry. apply sum_visits_ext. intros b' _. unfold visits. rewrite T3; [reflexivity| |].
          -- apply kid_neq; assumption.
          -- intros Z. apply kid_inj in Z as (-> & -> & _). congruence.
      + intros ha' ho' b q L' D. rewrite costs_of_cons. destruct (pyeqb_spec (kid ha ho a) (kid ha' ho' b)) as [E|E].
        * apply kid_inj in E as (<- & <- & <-). rewrite T2 in D. inversion D; subst q. cbn [n_visits n_value app length].
          split; [eexists; exact T1|]. split; [exact Ia|]. split; [exact w0|]. split; [exact w1|].
          split; [lia|]. split; [|lia]. cbn [total fold_right]. fold (total (costs_of log (kid ha ho a))).
          rewrite <- Nt. fold z. replace (Z.of_nat (n_visits n + 1)) with (Z.of_nat (n_visits n) + 1)%Z by lia.
          rewrite inject_Z_plus. fold z. change (inject_Z 1) with 1%Q. rewrite Ev. ring.
        * cbn [app]. rewrite T3 in D; [|apply kid_neq; assumption|congruence].
          destruct (i_child I ha' ho' b L' D) as (K & Rest). split; [apply Mono; exact K|exact Rest].
      + intros k q [E|J].
        * inversion E; subst. split; [eexists; exact T2|auto].
        * destruct (i_log I _ _ J) as (K & B). split; [apply Mono; exact K|exact B].
    - intros k Lk. apply T3; intros ->; unfold kid in Lk; cbn in Lk; lia.
  Qed.

  (** *** One simulation *)

  Lemma explored t log ha ho p : inv t log -> length ha = length ho -> dget t (ha, ho) = Some p ->
    exists a n, best_action true t ha ho = Ok (Some a) /\ In a (w_actions w) /\ dget t (kid ha ho a) = Some n /\
      (forall b m, dget t (kid ha ho b) = Some m -> (score (Some p) n <= score (Some p) m)%Q).
  Proof.
    intros I L D. unfold PomcpModel.best_action. unfold dgetE. rewrite D. cbn [bind].
    destruct (fst (fold_left (better t (Some p) ha ho) (w_actions w) (None, vlv))) as [a|] eqn:E;
      apply best_choice in E.
    - destruct E as (l1 & l2 & n & Sp & Dn & _ & M & _). exists a, n. split; [reflexivity|].
      split; [rewrite Sp; apply in_elt|]. split; [exact Dn|]. intros b m Dm.
      destruct (i_child I ha ho b L Dm) as (_ & Ib & _). eapply M; eauto.
    - exfalso. destruct (i_node I ha ho L D) as [(a & Ia & n & Dn) Np].
      specialize (E a n Ia Dn). destruct (i_child I ha ho a L Dn) as (_ & _ & v0 & v1 & _).
      pose proof vlv_pos. unfold PomcpModel.score in E. destruct (n_visits n =? 0) eqn:Z; [lra|].
      apply Nat.eqb_neq in Z. assert (0 < w_bonus w (n_visits p) (n_visits n))%Q; [|lra].
      apply (l_bonus LAW); [|lia]. rewrite Np.
      assert (visits t (kid ha ho a) <= sum_visits t ha ho (w_actions w)) as LE.
      { clear - Ia. unfold sum_visits. induction (w_actions w) as [|x l IH]; [destruct Ia|].
        simpl. destruct Ia as [<- | Ia]; [lia|]. specialize (IH Ia). lia. }
      unfold visits in LE. rewrite Dn in LE. lia.
  Qed.

  Lemma tree_search_ok left : forall s ha ho m, inv (m_tree m) (m_log m) -> length ha = length ho ->
    exists c m', tree_search left s ha ho m = Ok (c, m') /\ (0 <= c)%Q /\ (c <= vlv)%Q /\
      inv (m_tree m') (m_log m') /\
      (forall k, known (m_tree m) k -> known (m_tree m') k) /\
      (forall k, length (snd k) < length ho -> dget (m_tree m') k = dget (m_tree m) k) /\
      (exists more, m_log m' = more ++ m_log m) /\
      (left <> 0 -> known (m_tree m') (ha, ho)) /\
      (left <> 0 -> match dget (m_tree m) (ha, ho) with
       | None => (forall b, visits (m_tree m') (kid ha ho b) = 0) /\
           (forall b, known (m_tree m') (kid ha ho b) <-> In b (w_applicable w s))
       | Some _ => exists a, best_action true (m_tree m) ha ho = Ok (Some a) /\
           (forall b, visits (m_tree m') (kid ha ho b) = visits (m_tree m) (kid ha ho b) + (if pyeqb a b then 1 else 0)) /\
           (forall b, known (m_tree m') (kid ha ho b) <-> known (m_tree m) (kid ha ho b))
       end).
  Proof.
    pose proof vlv_pos as V.
    induction left as [|l IH]; intros s ha ho m I L; cbn [PomcpModel.tree_search];
      rewrite (proj2 (Nat.eqb_eq _ _) L); cbn [negb].
    - exists vlv, m. split; [reflexivity|]. split; [lra|]. split; [lra|]. split; [exact I|]. split; [auto|].
      split; [auto|]. split; [exists []; reflexivity|]. split; congruence.
    - destruct (dget (m_tree m) (ha, ho)) as [p|] eqn:D.
      + replace (dmem (m_tree m) (ha, ho)) with true.
        2:{ symmetry. apply (proj2 (dmem_true _ _)). apply (proj2 (dget_keys _ _ _ _)). eauto. }
        replace (0 <? max_depth) with true.
        2:{ symmetry. apply Nat.ltb_lt. pose proof (l_depth LAW). lia. }
        destruct (explored _ _ I L D) as (a & n & BA & Ia & Dn & _). rewrite BA. cbn [bind].
        destruct (l_next LAW (m_draws m) s (a := Some a)) as (s' & ->).
        { intros b E; inversion E; subst; exact Ia. }
        cbn [bind]. pose proof (l_cost LAW s a s') as [C0 C1].
        set (o := w_obs w (m_draws m + 1) s (Some a)).
        assert (exists c m1, (if w_goal w o then Ok (w_cost w s a s', drawn 2 m)
              else let* r := tree_search l s' (ha ++ [Some a]) (ho ++ [o]) (drawn 2 m) in
                   Ok (pymin (w_cost w s a s' + fst r)%Q vlv, snd r)) = Ok (c, m1) /\
              (0 <= c)%Q /\ (c <= vlv)%Q /\ inv (m_tree m1) (m_log m1) /\
              (forall k, known (m_tree m) k -> known (m_tree m1) k) /\
              (forall k, length (snd k) < S (length ho) -> dget (m_tree m1) k = dget (m_tree m) k) /\
              (exists more, m_log m1 = more ++ m_log m)) as (c & m1 & -> & c0 & c1 & I1 & Mo & Fr & Lo).
        { destruct (w_goal w o).
          - exists (w_cost w s a s'), (drawn 2 m). split; [reflexivity|]. split; [lra|]. split; [lra|].
            split; [exact I|]. split; [auto|]. split; [auto|]. exists []; reflexivity.
          - destruct (IH s' (ha ++ [Some a]) (ho ++ [o]) (drawn 2 m)) as (c & m1 & -> & c0 & c1 & I1 & Mo & Fr & Lo & _).
            { exact I. } { rewrite !app_length. simpl. lia. }
            cbn [bind fst snd]. eexists _, m1. split; [reflexivity|].
            destruct (@pymin_bounds (w_cost w s a s' + c)%Q vlv) as [P1 P2]; [lra|lra|].
            split; [exact P1|]. split; [exact P2|]. split; [exact I1|]. split; [exact Mo|]. split; [|exact Lo].
            intros k Lk. apply Fr. rewrite app_length. simpl. lia. }
        cbn [bind fst snd].
        assert (dget (m_tree m1) (ha, ho) = Some p) as D1 by (rewrite Fr; [exact D|cbn; lia]).
        assert (dget (m_tree m1) (kid ha ho a) = Some n) as Dn1 by (rewrite Fr; [exact Dn|cbn; lia]).
        destruct m1 as [t1 d1 g1]. cbn [m_tree m_log] in *.
        destruct (@inv_back t1 d1 g1 ha ho a c p n I1 L D1 Dn1 c0 c1) as (t2 & -> & I2 & Mo2 & Fr2 & V2).
        cbn [bind]. eexists c, _. split; [reflexivity|]. cbn [m_tree m_log].
        split; [exact c0|]. split; [exact c1|]. split; [exact I2|]. split; [intros k K; apply (proj2 (Mo2 _)), Mo, K|].
        split; [intros k Lk; rewrite Fr2, Fr by lia; reflexivity|].
        split; [destruct Lo as [more ->]; eexists (_ :: more); reflexivity|].
        split; [intros _; apply (proj2 (Mo2 _)); eexists; exact D1|].
        intros _. exists a. split; [reflexivity|]. split.
        * intros b. rewrite V2. f_equal. unfold visits. rewrite Fr; [reflexivity|cbn; lia].
        * intros b. split; [|intros K; apply (proj2 (Mo2 _)), Mo, K]. intros [q Dq].
          destruct (pyeqb_spec a b) as [<- | NE]; [eexists; exact Dn|].
          assert (known t1 (kid ha ho b)) as [q1 Dq1] by (apply (proj1 (Mo2 _)); eexists; exact Dq).
          rewrite Fr in Dq1 by (cbn; lia). eexists; exact Dq1.
      + replace (dmem (m_tree m) (ha, ho)) with false.
        2:{ symmetry. apply (proj2 (dmem_false _ _)). apply (proj1 (dget_None _ _)). exact D. }
        destruct (rollout_ok (S l) s (m_draws m)) as (c & d' & -> & c0 & c1). cbn [bind fst snd].
        eexists c, _. split; [reflexivity|]. cbn [m_tree m_log m_draws].
        split; [exact c0|]. split; [exact c1|]. split; [apply inv_new; assumption|].
        assert (forall a, dget (m_tree m) (kid ha ho a) = None) as NK.
        { intros a. destruct (dget (m_tree m) (kid ha ho a)) as [n|] eqn:Dn; [|reflexivity].
          destruct (i_child I ha ho a L Dn) as ([p P] & _). congruence. }
        split; [|split; [|split; [|split; [|intros _; split]]]].
        * intros k [n Dk]. apply known_dset. unfold known. rewrite add_children_get. destruct (existsb _ _); eauto.
        * intros k Lk. rewrite dget_dset_other by (intros <-; cbn in Lk; lia).
          apply add_children_miss. intros a _ <-. unfold kid in Lk; cbn in Lk. lia.
        * exists []. reflexivity.
        * intros _. eexists. apply dget_dset_same.
        * intros b. unfold visits. rewrite dget_dset_other by (intros E; symmetry in E; revert E; apply kid_neq; assumption).
          rewrite add_children_get, NK. destruct (existsb _ _); reflexivity.
        * intros b. unfold known. rewrite dget_dset_other by (intros E; symmetry in E; revert E; apply kid_neq; assumption).
          split.
          -- intros [n Dn]. apply add_children_cases in Dn as [(x & Ix & E & _)|Dn].
             ++ apply kid_inj in E as (_ & _ & ->). exact Ix.
             ++ rewrite NK in Dn. discriminate.
          -- intros Ib. eexists. apply add_children_hit. exact Ib.
  Qed.

  (** ** The loop over the iterations *)

  Notation search := (search w max_depth).

  Lemma choice_ok (belief : list St) d : belief <> [] -> exists s, lget belief (w_choice w d (length belief)) = Ok s /\ In s belief.
  Proof.
    intros N. assert (0 < length belief) as P by (destruct belief; [congruence|simpl; lia]).
    destruct (lget_lt _ (l_choice LAW d P)) as (s & E). exists s. split; [exact E|]. eapply lget_In; eauto.
  Qed.

  Lemma search_ok it belief ha ho : belief <> [] -> length ha = length ho -> forall m, inv (m_tree m) (m_log m) ->
    exists m', search it belief ha ho m = Ok m' /\ inv (m_tree m') (m_log m') /\
      (it <> 0 -> known (m_tree m') (ha, ho)) /\ (forall k, known (m_tree m) k -> known (m_tree m') k).
  Proof.
    intros NB L. induction it as [|k IH]; intros m I; cbn [PomcpModel.search].
    - exists m. split; [reflexivity|]. split; [exact I|]. split; [congruence|auto].
    - destruct (choice_ok (m_draws m) NB) as (s & -> & _). cbn [bind].
      destruct (@tree_search_ok (max_depth + 1) s ha ho (drawn 1 m) I L)
        as (c & m1 & -> & _ & _ & I1 & Mo & _ & _ & K & _). cbn [bind snd].
      destruct (IH m1 I1) as (m2 & -> & I2 & K2 & Mo2). exists m2. split; [reflexivity|]. split; [exact I2|].
      split; [|intros q Q; apply Mo2, Mo, Q]. intros _. apply Mo2, K. lia.
  Qed.

  Definition untried (t : tree) ha ho := exists b, known t (kid ha ho b) /\ visits t (kid ha ho b) = 0.

  Variable BON : forall N n, N <= length (w_actions w) -> 1 <= n -> (w_bonus w N n < vlv)%Q.

  Lemma sum_small t ha ho l b : (forall a, visits t (kid ha ho a) <= 1) -> In b l -> visits t (kid ha ho b) = 0 ->
    sum_visits t ha ho l < length l.
  Proof.
    intros S1 Ib Z. unfold sum_visits.
    assert (forall l', list_sum (map (fun a => visits t (kid ha ho a)) l') <= length l') as G.
    { induction l' as [|x l' IH]; simpl; [lia|]. specialize (S1 x). lia. }
    induction l as [|x l IH]; [destruct Ib|]. simpl. destruct Ib as [-> | Ib].
    - specialize (G l). lia.
    - specialize (IH Ib). specialize (S1 x). lia.
  Qed.

  Lemma search_fair it belief ha ho : belief <> [] -> length ha = length ho -> forall m j, inv (m_tree m) (m_log m) ->
    known (m_tree m) (ha, ho) -> sum_visits (m_tree m) ha ho (w_actions w) = j ->
    (untried (m_tree m) ha ho -> forall b, visits (m_tree m) (kid ha ho b) <= 1) ->
    forall m', search it belief ha ho m = Ok m' ->
    sum_visits (m_tree m') ha ho (w_actions w) = j + it /\
    (untried (m_tree m') ha ho -> forall b, visits (m_tree m') (kid ha ho b) <= 1).
  Proof.
    intros NB L. induction it as [|k IH]; intros m j I [p D] Sm U m' H; cbn [PomcpModel.search] in H.
    - inversion H; subst m'. split; [lia|exact U].
    - destruct (choice_ok (m_draws m) NB) as (s & E & _). rewrite E in H. clear E. cbn [bind] in H.
      destruct (@tree_search_ok (max_depth + 1) s ha ho (drawn 1 m) I L)
        as (c & m1 & E & _ & _ & I1 & Mo & _ & _ & K & T). rewrite E in H. clear E. cbn [bind snd] in H.
      change (m_tree (drawn 1 m)) with (m_tree m) in *. specialize (T ltac:(lia)). specialize (K ltac:(lia)).
      rewrite D in T. destruct T as (a & BA & V & Kn).
      destruct (explored _ _ I L D) as (a' & n & BA' & Ia & Dn & Min). rewrite BA in BA'. inversion BA'; subst a'.
      replace (j + S k) with (j + 1 + k) by lia. apply (IH m1); auto.
      + rewrite <- Sm. apply (@sum_visits_one _ _ _ _ a); auto.
        * apply (l_nodup LAW).
        * rewrite V, pyeqb_refl. reflexivity.
        * intros b B. rewrite V. destruct (pyeqb_spec a b); [congruence|lia].
      + intros (b & Kb & Zb) b'. apply (proj1 (Kn _)) in Kb. rewrite V in Zb.
        assert (untried (m_tree m) ha ho) as Un by (exists b; split; [exact Kb|lia]).
        specialize (U Un). rewrite V. destruct (pyeqb_spec a b') as [<- | NE]; [|specialize (U b'); lia].
        destruct Kb as [q Dq]. assert (n_visits q = 0) as Zq by (unfold visits in Zb; rewrite Dq in Zb; lia).
        specialize (Min b q Dq). unfold PomcpModel.score in Min. rewrite Zq in Min. cbn [Nat.eqb] in Min.
        unfold visits. rewrite Dn. destruct (n_visits n =? 0) eqn:Zn; [apply Nat.eqb_eq in Zn; lia|exfalso].
        apply Nat.eqb_neq in Zn. destruct (i_child I ha ho a L Dn) as (_ & _ & v0 & _).
        destruct (i_child I ha ho b L Dq) as (_ & Ib & _).
        assert (w_bonus w (n_visits p) (n_visits n) < vlv)%Q; [|lra].
        apply BON; [|lia]. destruct (i_node I ha ho L D) as [_ ->].
        assert (sum_visits (m_tree m) ha ho (w_actions w) < length (w_actions w)); [|lia].
        apply (sum_small _ _ _ _ b); auto. lia.
  Qed.
End Proofs.

