(** C144: the generator of problems with helper activities. *)
From Coq Require Import String.
From Coq Require Import List Bool Arith ZArith Lia Permutation.
From Coq Require Import ZifyBool ZifyNat.
From Verif Require Import Py PyList PyMore SgsModel BindProps SatProps HgenModel HgenProofs.
Import ListNotations.
Local Open Scope nat_scope.

Lemma dget_table : forall V (f : string -> V) names q, In q names -> dget (map (fun k => (k, f k)) names) q = Some (f q).
Proof.
  induction names as [|x l IH]; intros q I; [contradiction|]. cbn [map dget]. destruct (pyeqb_spec q x) as [->|Ne]; [reflexivity|].
  apply IH. destruct I as [->|I]; [congruence|exact I].
Qed.

Section Gen.
Variables (p : rcpsp) (n k : nat) (c : list (string * Z)) (r : string) (mult assistants dur : nat) (order : list nat) (coin : nat -> nat -> bool).
Variable ancestors : succs -> nat -> list nat.
(** A problem with tasks 1 to n + 2, the last one without successors, constant capacities and lists of successors without repetition *)
Record base : Prop := {
  a_res : p_res p = Constant c;
  a_modes : Permutation (dkeys (p_modes p)) (seq 1 (n + 2));
  a_succ : Permutation (dkeys (p_succ p)) (seq 1 (n + 2));
  a_lists : forall a l, dget (p_succ p) a = Some l -> NoDup l /\ forall b, In b l -> 1 <= b <= n + 2;
  a_sink : dget (p_succ p) (n + 2) = Some []
}.
Hypothesis B : base.
(** At most as many assisted activities as there are, drawn from a permutation *)
Hypothesis Hk : k <= n.
Hypothesis Ord : Permutation order (seq 2 n).
(** What networkx returns does lead to the node. *)
Hypothesis Anc : forall s t, NoDup (ancestors s t) /\ forall x, In x (ancestors s t) -> x <> t /\ leads s x t.

Let sink := n + 2 + 2 * k.
Let ass := firstn k order.

Lemma modes_ok : forall names, exists ms, new_modes (p_modes p) mult r (n + 2) k names dur = Ok ms /\ length ms = sink /\ NoDup (dkeys ms) /\
  (forall a d, 1 <= a <= n + 2 -> dget (p_modes p) a = Some d ->
     dget ms (if a =? n + 2 then sink else a) = Some (map (fun km => (fst km, scale mult r (snd km))) d)) /\
  (forall x, n + 2 <= x < sink -> dget ms x = Some [(1, helper_mode names r dur)]).
Proof.
  intros names. pose proof (a_modes B) as Km. assert (N0 : NoDup (dkeys (p_modes p))) by (apply (Permutation_NoDup (Permutation_sym Km)), seq_NoDup).
  unfold new_modes. assert (exists d0, dget (p_modes p) (n + 2) = Some d0) as (d0 & D0).
  { destruct (dget (p_modes p) (n + 2)) as [d|] eqn:D; [eauto|]. exfalso. apply dget_None in D. apply D. apply (Permutation_in _ (Permutation_sym Km)). apply in_seq. lia. }
  unfold dgetE. rewrite D0. cbn [bind]. fold sink.
  set (f := fun d : list (nat * mode) => map (fun km => (fst km, scale mult r (snd km))) d).
  set (ms1 := map _ (dset (ddel (p_modes p) (n + 2)) sink d0)).
  assert (Get1 : forall a, dget ms1 a = option_map f (dget (dset (ddel (p_modes p) (n + 2)) sink d0) a)) by (intros a; apply dget_mapv).
  assert (K1 : dkeys ms1 = dkeys (dset (ddel (p_modes p) (n + 2)) sink d0)) by (unfold ms1, dkeys; rewrite map_map; reflexivity).
  assert (In1 : forall x, In x (dkeys ms1) <-> 1 <= x <= n + 1 \/ x = sink).
  { intros x. rewrite K1, dkeys_dset, dkeys_ddel by exact N0. split.
    - intros [->|[Ne I]]; [auto|]. apply (Permutation_in _ Km) in I. apply in_seq in I. lia.
    - intros [H| ->]; [right|auto]. split; [lia|]. apply (Permutation_in _ (Permutation_sym Km)). apply in_seq. lia. }
  assert (N1 : NoDup (dkeys ms1)) by (rewrite K1; apply NoDup_dset, NoDup_ddel; exact N0).
  assert (L1 : length ms1 = n + 2).
  { assert (P : Permutation (dkeys ms1) (sink :: seq 1 (n + 1))).
    { apply NoDup_Permutation; [exact N1|constructor; [rewrite in_seq; unfold sink; lia|apply seq_NoDup]|]. intros x. rewrite In1. cbn [In]. rewrite in_seq. intuition lia. }
    apply Permutation_length in P. unfold dkeys in P. rewrite map_length in P. cbn [length] in P. rewrite seq_length in P. lia. }
  assert (G : forall j, j <= 2 * k -> let F := fold_left (fun ms i => dset ms (n + 2 + i) [(1, helper_mode names r dur)]) (seq 0 j) ms1 in
    NoDup (dkeys F) /\ length F = n + 2 + j /\ (forall x, In x (dkeys F) <-> In x (dkeys ms1) \/ n + 2 <= x < n + 2 + j) /\
    forall x, dget F x = if (n + 2 <=? x) && (x <? n + 2 + j) then Some [(1, helper_mode names r dur)] else dget ms1 x).
  { induction j as [|j IH]; intros Hj; cbv zeta.
    - cbn [seq fold_left]. split; [exact N1|]. split; [lia|]. split; [intros x; intuition lia|]. intros x. replace ((n + 2 <=? x) && (x <? n + 2 + 0)) with false by lia. reflexivity.
    - rewrite seq_S, fold_left_app. cbn [fold_left plus]. destruct (IH ltac:(lia)) as (H1 & H2 & H3 & H4). set (F := fold_left _ (seq 0 j) ms1) in *.
      assert (Ab : ~ In (n + 2 + j) (dkeys F)) by (rewrite H3, In1; unfold sink; lia).
      split; [apply NoDup_dset; exact H1|]. split.
      + pose proof (dset_keys_absent _ _ F _ [(1, helper_mode names r dur)] Ab) as Kf. apply (f_equal (@length _)) in Kf. unfold dkeys in Kf.
        rewrite app_length, !map_length in Kf. cbn [length] in Kf. lia.
      + split; [intros x; rewrite dkeys_dset, H3; intuition lia|]. intros x. destruct (Nat.eq_dec x (n + 2 + j)) as [->|Ne].
        * rewrite dget_dset_same. replace ((n + 2 <=? n + 2 + j) && (n + 2 + j <? n + 2 + S j)) with true by lia. reflexivity.
        * rewrite dget_dset_other by congruence. rewrite H4. replace (x <? n + 2 + S j) with (x <? n + 2 + j) by lia. reflexivity. }
  destruct (G (2 * k) ltac:(lia)) as (H1 & H2 & _ & H4). eexists. split; [reflexivity|]. split; [exact H2|]. split; [exact H1|]. split.
  - intros a d Ha D. rewrite H4. fold sink. destruct (Nat.eqb_spec a (n + 2)) as [->|Ne].
    + replace ((n + 2 <=? sink) && (sink <? sink)) with false by lia. rewrite Get1, dget_dset_same. rewrite D0 in D. injection D as <-. reflexivity.
    + replace ((n + 2 <=? a) && (a <? sink)) with false by (unfold sink; lia). rewrite Get1, dget_dset_other by (unfold sink; lia). rewrite dget_ddel_other by lia.
      rewrite D. reflexivity.
  - intros x Hx. rewrite H4. fold sink. replace ((n + 2 <=? x) && (x <? sink)) with true by lia. reflexivity.
Qed.

(** The precedences before the last pass: the original ones and those of the helpers; a precedence from an assisted activity to the sink
    goes from the helper after it instead. *)
Definition joined (pre post : list (nat * nat)) (a b : nat) : Prop :=
  (edge (p_succ p) a b /\ b <> n + 2) \/ dget pre b = Some a \/ dget post a = Some b \/
  (exists m1 m2, dget post m1 = Some a /\ dget pre m2 = Some b /\ m1 < m2 /\ coin m1 m2 = true) \/
  (b = n + 2 + 2 * k /\ ((edge (p_succ p) a (n + 2) /\ dget post a = None) \/ exists m, dget post m = Some a /\ edge (p_succ p) m (n + 2))).

Inductive path (R : nat -> nat -> Prop) : nat -> nat -> Prop :=
  | path_one : forall a b, R a b -> path R a b
  | path_more : forall a b c, R a b -> path R b c -> path R a c.

Lemma gen_ok : exists ms s pre post,
  generate p r mult k assistants dur order coin ancestors =
    Ok (Gen (Rcpsp (Constant (dset c r (Z.of_nat assistants))) (p_nonren p) ms s (p_horizon p) (p_mult p)) pre post (Constant (dset c r (Z.of_nat assistants)))) /\
  new_modes (p_modes p) mult r (n + 2) k (dkeys (dset c r (Z.of_nat assistants))) dur = Ok ms /\
  (forall m x, dget pre m = Some x <-> exists j, nth_error ass j = Some m /\ x = n + 2 + j) /\
  (forall m x, dget post m = Some x <-> exists j, nth_error ass j = Some m /\ x = n + 2 + k + j) /\ dkeys pre = ass /\ dkeys post = ass /\
  (forall x, In x (dkeys s) <-> 1 <= x <= sink) /\ NoDup (dkeys s) /\
  (forall a b, b <> sink -> (edge s a b <-> (edge (p_succ p) a b /\ b <> n + 2) \/ dget pre b = Some a \/ dget post a = Some b \/
     exists m1 m2, dget post m1 = Some a /\ dget pre m2 = Some b /\ m1 < m2 /\ coin m1 m2 = true)) /\
  (forall b, ~ edge s sink b) /\ (forall a, 1 <= a < sink -> leads s a sink) /\
  exists s1, (forall a b, edge s1 a b <-> joined pre post a b) /\
    forall a, edge s a sink <-> joined pre post a sink \/ (length (ancestors s1 sink) <> n + 2 * k + 1 /\ 1 <= a < sink /\ ~ In a (ancestors s1 sink)).
Proof.
  pose proof (a_succ B) as Ks. pose proof (a_lists B) as Cl. unfold generate. rewrite (a_res B).
  rewrite (perm_max _ _ (a_modes B)) by lia. cbn [bind].
  destruct (modes_ok (dkeys (dset c r (Z.of_nat assistants)))) as (ms & Em & Lm & _). rewrite Em. cbn [bind].
  destruct (links_ok p n k order coin Ks Cl Ord Hk) as (s0 & st & E0 & E1 & L). fold sink in E0, E1 |- *. rewrite E0. cbn [bind]. rewrite E1. cbn [bind].
  destruct (cross_ok p n k order coin Ks Cl Ord Hk st L) as (s1 & E2 & X1). destruct st as [sb [pre post]]. cbn [fst snd] in *. rewrite E2. cbn [bind]. fold ass in X1.
  assert (K1 : forall x, In x (dkeys s1) <-> 1 <= x <= sink).
  { intros x. rewrite (proj1 X1). pose proof (b_keys _ _ _ _ _ _ L x) as Q. cbn [fst] in Q. rewrite Q. unfold sink. lia. }
  replace (length ms - 2) with (n + 2 * k) by (unfold sink in Lm; lia).
  destruct (close_ok p n k coin Cl Hk (ancestors s1 sink) s1 K1) as (s2 & E3 & X2). fold sink in E3, X2. rewrite E3. cbn [bind].
  exists ms, s2, pre, post. split; [reflexivity|]. split; [reflexivity|].
  assert (La : length ass = k) by (apply (ass_length p n k order coin (a_lists B) Ord Hk)).
  assert (Dk : dkeys pre = ass /\ dkeys post = ass).
  { destruct (b_dicts _ _ _ _ _ _ L) as [D1 D2]. cbn [fst snd] in D1, D2. fold ass in D1, D2. rewrite firstn_all2 in D1 by lia. rewrite firstn_all2 in D2 by lia. auto. }
  assert (Rng : forall j m, nth_error ass j = Some m -> j < k /\ 2 <= m <= n + 1) by (intros j m; apply (ass_range p n k order coin (a_lists B) Ord Hk)).
  assert (Pre : forall m x, dget pre m = Some x <-> exists j, nth_error ass j = Some m /\ x = n + 2 + j).
  { intros m x. split.
    - intros D. assert (I : In m ass) by (rewrite <- (proj1 Dk); apply dget_In in D; apply in_map_iff; exists (m, x); auto).
      apply In_nth_error in I. destruct I as (j & Ej). exists j. split; [exact Ej|].
      pose proof (proj1 (b_helpers _ _ _ _ _ _ L j m Ej (proj1 (Rng _ _ Ej)))) as Q. cbn [fst snd] in Q. congruence.
    - intros (j & Ej & ->). exact (proj1 (b_helpers _ _ _ _ _ _ L j m Ej (proj1 (Rng _ _ Ej)))). }
  assert (Post : forall m x, dget post m = Some x <-> exists j, nth_error ass j = Some m /\ x = n + 2 + k + j).
  { intros m x. split.
    - intros D. assert (I : In m ass) by (rewrite <- (proj2 Dk); apply dget_In in D; apply in_map_iff; exists (m, x); auto).
      apply In_nth_error in I. destruct I as (j & Ej). exists j. split; [exact Ej|].
      pose proof (proj2 (b_helpers _ _ _ _ _ _ L j m Ej (proj1 (Rng _ _ Ej)))) as Q. cbn [fst snd] in Q. congruence.
    - intros (j & Ej & ->). exact (proj2 (b_helpers _ _ _ _ _ _ L j m Ej (proj1 (Rng _ _ Ej)))). }
  split; [exact Pre|]. split; [exact Post|]. split; [apply Dk|]. split; [apply Dk|].
  split; [intros x; rewrite (proj1 X2); apply K1|].
  split; [rewrite (proj1 X2), (proj1 X1); exact (b_nodup _ _ _ _ _ _ L)|].
  assert (Ext : forall sA R sB a b, extended sA R sB -> (edge sB a b <-> (edge sA a b \/ (In a (dkeys sA) /\ R a b)))).
  { intros sA R sB a b [Kx Hx]. assert (Q : In a (dkeys sA) -> exists l, dget sA a = Some l).
    { intros I. destruct (dget sA a) as [l|] eqn:D; [eauto|]. exfalso. exact (proj1 (dget_None _ _) D I). }
    split.
    - intros (l' & D' & I). assert (Ia : In a (dkeys sA)) by (rewrite <- Kx; apply dget_In in D'; apply in_map_iff; exists (a, l'); auto).
      destruct (Q Ia) as (l & D). destruct (Hx a l D) as (l2 & D2 & Bl). rewrite D' in D2. injection D2 as <-. apply Bl in I.
      destruct I as [I|I]; [left; exists l; auto|right; auto].
    - intros [(l & D & I)|[Ia Hr]]; [|destruct (Q Ia) as (l & D)]; destruct (Hx a l D) as (l2 & D2 & Bl); exists l2; split; auto; apply Bl; auto. }
  assert (SbRange : forall a b, edge sb a b -> 1 <= a <= sink).
  { intros a b (l & D & _). apply K1. rewrite (proj1 X1). apply dget_In in D. apply in_map_iff. exists (a, l). auto. }
  assert (PostNone : forall a, dget post a = None <-> ~ In a ass) by (intros a; rewrite <- (proj2 Dk); apply dget_None).
  assert (OrigRange : forall a b, edge (p_succ p) a b -> 1 <= a <= n + 1).
  { intros a b (lo & Do & I). assert (Ia : In a (dkeys (p_succ p))) by (apply dget_In in Do; apply in_map_iff; exists (a, lo); auto). apply (Permutation_in _ Ks) in Ia. apply in_seq in Ia.
    assert (a <> n + 2) by (intros ->; rewrite (a_sink B) in Do; injection Do as <-; contradiction). lia. }
  assert (Core : forall a b, edge sb a b <-> (edge (p_succ p) a b /\ b <> n + 2) \/ dget pre b = Some a \/ dget post a = Some b \/
    (b = sink /\ ((edge (p_succ p) a (n + 2) /\ dget post a = None) \/ exists m, dget post m = Some a /\ edge (p_succ p) m (n + 2)))).
  { intros a b. split.
    + intros E. pose proof (SbRange a b E) as Ra. destruct E as (l & D & I). destruct (le_lt_dec a (n + 1)) as [La1|La1].
      * destruct (succ_of p n k order coin Ks Cl Hk a ltac:(lia)) as (lo & Do). destruct (in_dec Nat.eq_dec a ass) as [Ia|Na].
        -- apply In_nth_error in Ia. destruct Ia as (j & Ej). destruct (b_main _ _ _ _ _ _ L j a lo Ej (proj1 (Rng _ _ Ej)) Do) as (l' & D' & Bl). cbn [fst] in D'.
           rewrite D in D'. injection D' as <-. apply Bl in I. destruct I as [[I Nb']| ->]; [left; split; [exists lo; auto|exact Nb']|]. right. right. left. apply Post. eauto.
        -- pose proof (b_plain _ _ _ _ _ _ L a lo ltac:(lia)) as Q. cbn [fst] in Q. rewrite Q in D; [|intros j Ej; exfalso; apply Na; apply nth_error_In in Ej; exact Ej|exact Do].
           injection D as <-. apply (proj1 (proj2 (rename_In p n k coin Cl Hk a lo Do))) in I. destruct I as [[I Nb']|[-> Io]]; [left; split; [exists lo; auto|exact Nb']|].
           right. right. right. split; [reflexivity|]. left. split; [exists lo; auto|]. apply PostNone. exact Na.
      * destruct (Nat.eq_dec a sink) as [->|Ns].
        -- pose proof (b_sink _ _ _ _ _ _ L) as Q. cbn [fst] in Q. fold sink in Q. rewrite Q in D. injection D as <-. contradiction.
        -- destruct (le_lt_dec (n + 2 + k) a) as [Lp|Lp].
           ++ assert (exists j m, a = n + 2 + k + j /\ nth_error ass j = Some m) as (j & m & -> & Ej).
              { exists (a - (n + 2 + k)). destruct (nth_error ass (a - (n + 2 + k))) as [m|] eqn:Ej; [exists m; split; [lia|reflexivity]|].
                apply nth_error_None in Ej. unfold sink in *. lia. }
              destruct (Rng _ _ Ej) as [Lj Rm]. destruct (succ_of p n k order coin Ks Cl Hk m ltac:(lia)) as (lm & Dm).
              pose proof (b_post _ _ _ _ _ _ L j m lm Ej Lj Dm) as Q. cbn [fst] in Q. rewrite Q in D. injection D as <-.
              destruct (pymem (n + 2) lm) eqn:Pm; [|contradiction]. destruct I as [<-|[]]. right. right. right. split; [reflexivity|]. right. exists m.
              split; [apply Post; eauto|]. exists lm. split; [exact Dm|]. apply pymem_true in Pm. exact Pm.
           ++ assert (exists j m, a = n + 2 + j /\ nth_error ass j = Some m) as (j & m & -> & Ej).
              { exists (a - (n + 2)). destruct (nth_error ass (a - (n + 2))) as [m|] eqn:Ej; [exists m; split; [lia|reflexivity]|].
                apply nth_error_None in Ej. lia. }
              destruct (Rng _ _ Ej) as [Lj Rm]. pose proof (b_pre _ _ _ _ _ _ L j m Ej Lj) as Q. cbn [fst] in Q. rewrite Q in D. injection D as <-.
              destruct I as [<-|[]]. right. left. apply Pre. eauto.
    + intros [[Eo Nb']|[H|[H|[-> [[Eo Pn]|(m & H & Eo)]]]]].
      * pose proof (OrigRange a b Eo) as Ra. destruct Eo as (lo & Do & I). destruct (in_dec Nat.eq_dec a ass) as [Ia|Na].
        -- apply In_nth_error in Ia. destruct Ia as (j & Ej). destruct (b_main _ _ _ _ _ _ L j a lo Ej (proj1 (Rng _ _ Ej)) Do) as (l' & D' & Bl). exists l'. split; [exact D'|]. apply Bl. auto.
        -- pose proof (b_plain _ _ _ _ _ _ L a lo Ra) as Q. cbn [fst] in Q. eexists. split; [apply Q; [intros j Ej; exfalso; apply Na; apply nth_error_In in Ej; exact Ej|exact Do]|].
           apply (proj1 (proj2 (rename_In p n k coin Cl Hk a lo Do))). auto.
      * apply Pre in H. destruct H as (j & Ej & ->). exists [b]. split; [exact (b_pre _ _ _ _ _ _ L j b Ej (proj1 (Rng _ _ Ej)))|now left].
      * apply Post in H. destruct H as (j & Ej & ->). destruct (Rng _ _ Ej) as [Lj Rm]. destruct (succ_of p n k order coin Ks Cl Hk a ltac:(lia)) as (lo & Do).
        destruct (b_main _ _ _ _ _ _ L j a lo Ej Lj Do) as (l' & D' & Bl). exists l'. split; [exact D'|]. apply Bl. auto.
      * pose proof (OrigRange a _ Eo) as Ra. destruct Eo as (lo & Do & I). apply PostNone in Pn.
        pose proof (b_plain _ _ _ _ _ _ L a lo Ra) as Q. cbn [fst] in Q. eexists. split; [apply Q; [intros j Ej; exfalso; apply Pn; apply nth_error_In in Ej; exact Ej|exact Do]|].
        apply (proj1 (proj2 (rename_In p n k coin Cl Hk a lo Do))). auto.
      * apply Post in H. destruct H as (j & Ej & ->). destruct (Rng _ _ Ej) as [Lj Rm]. destruct Eo as (lo & Do & I).
        pose proof (b_post _ _ _ _ _ _ L j m lo Ej Lj Do) as Q. cbn [fst] in Q. rewrite (proj2 (pymem_true _ _) I) in Q. eexists. split; [exact Q|now left]. }
  assert (Jo : forall a b, edge s1 a b <-> joined pre post a b).
  { intros a b. rewrite (Ext _ _ _ a b X1), Core. unfold joined. fold sink. split.
    - intros [H|[_ (i & j & m1 & m2 & H1 & H2 & H3 & H4 & -> & ->)]]; [tauto|]. do 3 right. left. exists m1, m2. split; [apply Post; eauto|]. split; [apply Pre; eauto|auto].
    - intros [H|[H|[H|[(m1 & m2 & H1 & H2 & H3 & H4)|H]]]]; try tauto. right. apply Post in H1. apply Pre in H2. destruct H1 as (i & Ei & ->). destruct H2 as (j & Ej & ->).
      split; [|exists i, j, m1, m2; auto 10]. rewrite <- (proj1 X1). apply K1. pose proof (proj1 (Rng _ _ Ei)). unfold sink. lia. }
  split; [|split; [|split]].
  - intros a b Nb. rewrite (Ext _ _ _ a b X2), (Jo a b). unfold joined. fold sink. tauto.
  - intros b E. apply (Ext _ _ _ _ _ X2) in E. destruct E as [E|[_ (_ & H & _)]]; [|lia]. apply (Ext _ _ _ _ _ X1) in E.
    destruct E as [(l & D & I)|[_ (i & j & m1 & m2 & H1 & _ & _ & _ & H & _)]].
    + pose proof (b_sink _ _ _ _ _ _ L) as Q. cbn [fst] in Q. fold sink in Q. rewrite Q in D. injection D as <-. contradiction.
    + pose proof (proj1 (Rng _ _ H1)). unfold sink in H. lia.
  - assert (Mono : forall x y, leads s1 x y -> leads s2 x y).
    { intros x y Lx. induction Lx as [x y E|x y z E _ IH]; [apply leads_edge|eapply leads_step; [|exact IH]]; apply (Ext _ _ _ _ _ X2); auto. }
    destruct (Anc s1 sink) as [Na Sa]. intros a Ha. destruct (in_dec Nat.eq_dec a (ancestors s1 sink)) as [Ia|Nia]; [apply Mono, Sa; exact Ia|].
    destruct (Nat.eq_dec (length (ancestors s1 sink)) (n + 2 * k + 1)) as [El|Nl].
    + exfalso. apply Nia. refine (@NoDup_length_incl nat _ (seq 1 (n + 2 * k + 1)) Na _ _ a _); [rewrite seq_length; lia| |apply in_seq; unfold sink in Ha; lia].
      intros x Ix. apply Sa in Ix. destruct Ix as [Nx Lx]. assert (Kx : In x (dkeys s1)).
      { destruct Lx as [x y (l & D & _)|x y z (l & D & _) _]; apply dget_In in D; apply in_map_iff; exists (x, l); auto. }
      apply K1 in Kx. apply in_seq. unfold sink in *. lia.
    + apply leads_edge. apply (Ext _ _ _ _ _ X2). right. split; [apply K1; lia|]. auto.
  - exists s1. split; [exact Jo|]. intros a. rewrite (Ext _ _ _ a sink X2), (Jo a sink). split; [tauto|]. intros [H|(H1 & H2 & H3)]; [auto|]. right. split; [apply K1; lia|]. auto.
Qed.

Definition renumber (a : nat) : nat := if a =? n + 2 then sink else a.

(** The generator succeeds; the tasks are numbered without a hole; the original ones keep their modes and needs with the multiplied
    durations; the helpers need one assistant and nothing else. *)
Theorem C144_tasks : exists g, generate p r mult k assistants dur order coin ancestors = Ok g /\
  p_sink (g_model g) = n + 2 + 2 * k /\ p_res (g_model g) = Constant (dset c r (Z.of_nat assistants)) /\
  (forall x, In x (dkeys (p_succ (g_model g))) <-> 1 <= x <= n + 2 + 2 * k) /\
  (forall a d km m, dget (p_modes p) a = Some d -> dget d km = Some m -> exists d' m', dget (p_modes (g_model g)) (renumber a) = Some d' /\ dkeys d' = dkeys d /\
     dget d' km = Some m' /\ m_duration m' = m_duration m * mult /\ dget (m_need m') r = Some 0%Z /\ forall q, q <> r -> dget (m_need m') q = dget (m_need m) q) /\
  (forall m x, dget (g_pre g) m = Some x \/ dget (g_post g) m = Some x -> exists h, dget (p_modes (g_model g)) x = Some [(1, h)] /\ m_duration h = dur /\
     dget (m_need h) r = Some 1%Z /\ forall q, In q (dkeys c) -> q <> r -> dget (m_need h) q = Some 0%Z).
Proof.
  destruct gen_ok as (ms & s & pre & post & E & Em & Pre & Post & _ & _ & Ky & _). destruct (modes_ok (dkeys (dset c r (Z.of_nat assistants)))) as (ms' & Em' & Lm & _ & Orig & Help).
  rewrite Em in Em'. injection Em' as <-. eexists. split; [exact E|]. cbn [g_model g_pre g_post p_succ p_modes p_res]. split; [exact Lm|]. split; [reflexivity|].
  split; [exact Ky|]. split.
  - intros a d km m D Dm. assert (Ra : 1 <= a <= n + 2).
    { assert (Ia : In a (dkeys (p_modes p))) by (apply dget_In in D; apply in_map_iff; exists (a, d); auto). apply (Permutation_in _ (a_modes B)) in Ia. apply in_seq in Ia. lia. }
    eexists _, (scale mult r m). split; [exact (Orig a d Ra D)|]. split; [unfold dkeys; rewrite map_map; reflexivity|].
    split; [rewrite (dget_mapv _ _ _ (scale mult r) d km), Dm; reflexivity|]. split; [reflexivity|]. unfold scale. cbn [m_need].
    split; [apply dget_dset_same|]. intros q Nq. apply dget_dset_other. congruence.
  - intros m x H. assert (Rx : n + 2 <= x < sink).
    { destruct H as [H|H]; [apply Pre in H|apply Post in H]; destruct H as (j & Ej & ->); pose proof (ass_range p n k order coin (a_lists B) Ord Hk j m Ej); unfold sink; lia. }
    eexists. split; [exact (Help x Rx)|]. unfold helper_mode. cbn [m_duration m_need]. split; [reflexivity|]. split.
    + rewrite (dget_table _ (fun q => if String.eqb q r then 1%Z else 0%Z)) by (apply dkeys_dset; auto). rewrite String.eqb_refl. reflexivity.
    + intros q Iq Nq. rewrite (dget_table _ (fun q => if String.eqb q r then 1%Z else 0%Z)) by (apply dkeys_dset; auto). rewrite (proj2 (String.eqb_neq _ _) Nq). reflexivity.
Qed.

(** Every assisted activity, and no other, has its two helpers; the precedences other than those to the sink are the original ones, helper before, helper
    after and the drawn ones between helpers; the sink comes after everything. *)
Theorem C144_precedences : exists g, generate p r mult k assistants dur order coin ancestors = Ok g /\
  dkeys (g_pre g) = firstn k order /\ dkeys (g_post g) = firstn k order /\
  (forall m m' x, dget (g_pre g) m = Some x -> n + 2 <= x < n + 2 + 2 * k /\ dget (g_post g) m' <> Some x /\ (dget (g_pre g) m' = Some x -> m = m')) /\
  (forall m m' x, dget (g_post g) m = Some x -> n + 2 <= x < n + 2 + 2 * k /\ (dget (g_post g) m' = Some x -> m = m')) /\
  (forall a b, b <> n + 2 + 2 * k -> (edge (p_succ (g_model g)) a b <-> (edge (p_succ p) a b /\ b <> n + 2) \/ dget (g_pre g) b = Some a \/ dget (g_post g) a = Some b \/
     exists m1 m2, dget (g_post g) m1 = Some a /\ dget (g_pre g) m2 = Some b /\ m1 < m2 /\ coin m1 m2 = true)) /\
  (forall b, ~ edge (p_succ (g_model g)) (n + 2 + 2 * k) b) /\
  forall a, 1 <= a < n + 2 + 2 * k -> leads (p_succ (g_model g)) a (n + 2 + 2 * k).
Proof.
  destruct gen_ok as (ms & s & pre & post & E & _ & Pre & Post & D1 & D2 & _ & _ & Ed & Si & Le & _). eexists. split; [exact E|]. cbn [g_model g_pre g_post p_succ].
  split; [exact D1|]. split; [exact D2|]. split; [|split; [|split; [exact Ed|split; [exact Si|exact Le]]]].
  - intros m m' x H. apply Pre in H. destruct H as (j & Ej & ->). pose proof (ass_range p n k order coin (a_lists B) Ord Hk j m Ej) as R. split; [lia|]. split.
    + intros H. apply Post in H. destruct H as (j' & Ej' & X). lia.
    + intros H. apply Pre in H. destruct H as (j' & Ej' & X). replace j' with j in Ej' by lia. congruence.
  - intros m m' x H. apply Post in H. destruct H as (j & Ej & ->). pose proof (ass_range p n k order coin (a_lists B) Ord Hk j m Ej) as R. split; [lia|].
    intros H. apply Post in H. destruct H as (j' & Ej' & X). replace j' with j in Ej' by lia. congruence.
Qed.

(** When the tasks are numbered along the precedences the new problem has no cycle. *)
Theorem C144_acyclic : (forall a b, edge (p_succ p) a b -> a < b) -> exists g, generate p r mult k assistants dur order coin ancestors = Ok g /\
  exists rank : nat -> nat, forall a b, edge (p_succ (g_model g)) a b -> rank a < rank b.
Proof.
  intros Up. destruct gen_ok as (ms & s & pre & post & E & _ & Pre & Post & _ & _ & Ky & _ & Ed & Si & _). eexists. split; [exact E|]. cbn [g_model p_succ].
  assert (Rng : forall j m, nth_error ass j = Some m -> j < k /\ 2 <= m <= n + 1) by (intros j m; apply (ass_range p n k order coin (a_lists B) Ord Hk)).
  assert (La : length ass = k) by (apply (ass_length p n k order coin (a_lists B) Ord Hk)).
  set (rank := fun x => if x <=? n + 1 then 3 * x else if x <? n + 2 + k then 3 * nth (x - (n + 2)) ass 0 - 1 else
    if x <? sink then 3 * nth (x - (n + 2 + k)) ass 0 + 1 else 3 * n + 10).
  assert (Rpre : forall j m, nth_error ass j = Some m -> rank (n + 2 + j) = 3 * m - 1).
  { intros j m Ej. destruct (Rng _ _ Ej). unfold rank. replace (n + 2 + j <=? n + 1) with false by lia. replace (n + 2 + j <? n + 2 + k) with true by lia.
    replace (n + 2 + j - (n + 2)) with j by lia. rewrite (nth_error_nth _ _ 0 Ej). reflexivity. }
  assert (Rpost : forall j m, nth_error ass j = Some m -> rank (n + 2 + k + j) = 3 * m + 1).
  { intros j m Ej. destruct (Rng _ _ Ej). unfold rank. replace (n + 2 + k + j <=? n + 1) with false by lia. replace (n + 2 + k + j <? n + 2 + k) with false by lia.
    replace (n + 2 + k + j <? sink) with true by (unfold sink; lia). replace (n + 2 + k + j - (n + 2 + k)) with j by lia. rewrite (nth_error_nth _ _ 0 Ej). reflexivity. }
  assert (Rmain : forall m, m <= n + 1 -> rank m = 3 * m) by (intros m Hm; unfold rank; replace (m <=? n + 1) with true by lia; reflexivity).
  assert (Rmax : forall x, 1 <= x < sink -> rank x < 3 * n + 10).
  { intros x Hx. destruct (le_lt_dec x (n + 1)) as [L|L]; [rewrite Rmain by exact L; lia|]. destruct (le_lt_dec (n + 2 + k) x) as [L2|L2].
    - destruct (nth_error ass (x - (n + 2 + k))) as [m|] eqn:Ej; [|apply nth_error_None in Ej; unfold sink in Hx; lia].
      replace x with (n + 2 + k + (x - (n + 2 + k))) by lia. rewrite (Rpost _ _ Ej). pose proof (Rng _ _ Ej). lia.
    - destruct (nth_error ass (x - (n + 2))) as [m|] eqn:Ej; [|apply nth_error_None in Ej; lia].
      replace x with (n + 2 + (x - (n + 2))) by lia. rewrite (Rpre _ _ Ej). pose proof (Rng _ _ Ej). lia. }
  exists rank. intros a b H. destruct (Nat.eq_dec b sink) as [->|Nb].
  - assert (Ra : 1 <= a <= sink) by (destruct H as (l & D & _); apply Ky; apply dget_In in D; apply in_map_iff; exists (a, l); auto).
    assert (a <> sink) by (intros ->; exact (Si _ H)). assert (rank sink = 3 * n + 10).
    { unfold rank. replace (sink <=? n + 1) with false by (unfold sink; lia). replace (sink <? n + 2 + k) with false by (unfold sink; lia). replace (sink <? sink) with false by lia. reflexivity. }
    pose proof (Rmax a ltac:(lia)). lia.
  - apply (Ed a b Nb) in H. destruct H as [[H Nb']|[H|[H|(m1 & m2 & H1 & H2 & L & _)]]].
    + pose proof (Up a b H). destruct H as (l & D & I). pose proof (proj2 (a_lists B a l D) b I). rewrite !Rmain by lia. lia.
    + apply Pre in H. destruct H as (j & Ej & ->). pose proof (Rng _ _ Ej). rewrite (Rpre _ _ Ej), Rmain by lia. lia.
    + apply Post in H. destruct H as (j & Ej & ->). pose proof (Rng _ _ Ej). rewrite (Rpost _ _ Ej), Rmain by lia. lia.
    + apply Post in H1. apply Pre in H2. destruct H1 as (i & Ei & ->). destruct H2 as (j & Ej & ->). rewrite (Rpost _ _ Ei), (Rpre _ _ Ej). lia.
Qed.

(** A schedule of the new problem gives one of the original tasks, the sink renumbered, that respects the original precedences. *)
Theorem C144_restrict : exists g, generate p r mult k assistants dur order coin ancestors = Ok g /\
  forall sch : schedule, (forall a, 1 <= a <= n + 2 + 2 * k -> exists s e, In (a, (s, e)) sch) -> (forall a s e, In (a, (s, e)) sch -> (s <= e)%Z) ->
  (forall a b sa ea sb eb, edge (p_succ (g_model g)) a b -> In (a, (sa, ea)) sch -> In (b, (sb, eb)) sch -> (ea <= sb)%Z) ->
  forall a b sa ea sb eb, edge (p_succ p) a b -> In (renumber a, (sa, ea)) sch -> In (renumber b, (sb, eb)) sch -> (ea <= sb)%Z.
Proof.
  destruct gen_ok as (ms & s & pre & post & E & _ & _ & _ & _ & _ & Ky & _ & Ed & Si & Le & _). eexists. split; [exact E|]. cbn [g_model p_succ].
  intros sch Al Pos Pr a b sa ea sb eb H Ia Ib.
  assert (Lp : forall x y, leads s x y -> 1 <= y <= sink -> forall sx ex sy ey, In (x, (sx, ex)) sch -> In (y, (sy, ey)) sch -> (ex <= sy)%Z).
  { intros x y Lx. induction Lx as [x y Ex|x y z Ex Lz IH]; intros Ry sx ex sy ey Ix Iy; [exact (Pr _ _ _ _ _ _ Ex Ix Iy)|].
    assert (Rm : 1 <= y <= sink) by (apply Ky; destruct Lz as [u v (l & D & _)|u v w (l & D & _) _]; apply dget_In in D; apply in_map_iff; exists (u, l); auto).
    destruct (Al y Rm) as (su & eu & Iu). pose proof (Pr _ _ _ _ _ _ Ex Ix Iu). pose proof (IH Ry _ _ _ _ Iu Iy). pose proof (Pos _ _ _ Iu). lia. }
  assert (Ra : 1 <= a <= n + 1).
  { destruct H as (l & D & I). assert (Ia' : In a (dkeys (p_succ p))) by (apply dget_In in D; apply in_map_iff; exists (a, l); auto).
    apply (Permutation_in _ (a_succ B)) in Ia'. apply in_seq in Ia'. assert (a <> n + 2) by (intros ->; rewrite (a_sink B) in D; injection D as <-; contradiction). lia. }
  unfold renumber in Ia, Ib. replace (a =? n + 2) with false in Ia by lia. destruct (Nat.eqb_spec b (n + 2)) as [->|Nb].
  - apply (Lp a sink) with (sx := sa) (ey := eb); auto; [apply Le; unfold sink; lia|unfold sink; lia].
  - apply (Pr a b) with (sa := sa) (eb := eb); auto. destruct H as (l & D & I). pose proof (proj2 (a_lists B a l D) b I). apply Ed; [unfold sink; lia|]. left. split; [exists l; auto|exact Nb].
Qed.

(** When networkx finds every node that leads to the sink, the precedences to the sink are those before the last pass and one for every task
    that did not lead to the sink. *)
Theorem C144_sink : exists g, generate p r mult k assistants dur order coin ancestors = Ok g /\
  let before := joined (g_pre g) (g_post g) in
  (forall s x, (forall a b, edge s a b <-> before a b) -> path before x (n + 2 + 2 * k) -> x <> n + 2 + 2 * k -> In x (ancestors s (n + 2 + 2 * k))) ->
  forall a, edge (p_succ (g_model g)) a (n + 2 + 2 * k) <->
    before a (n + 2 + 2 * k) \/ (1 <= a < n + 2 + 2 * k /\ ~ path before a (n + 2 + 2 * k)).
Proof.
  destruct gen_ok as (ms & s & pre & post & E & _ & _ & _ & _ & _ & _ & _ & _ & _ & _ & s1 & J & Sk). eexists. split; [exact E|]. cbv zeta. cbn [g_model p_succ g_pre g_post]. fold sink.
  intros Full a. rewrite Sk. destruct (Anc s1 sink) as [Na Sa].
  assert (Lp : forall x y, leads s1 x y -> path (joined pre post) x y).
  { intros x y Lx. induction Lx as [x y Ex|x y z Ex _ IH]; [apply path_one|eapply path_more; [|exact IH]]; apply J; exact Ex. }
  split.
  - intros [H|(_ & R & N)]; [auto|]. right. split; [exact R|]. intros P. apply N. apply Full; [exact J|exact P|lia].
  - intros [H|(R & N)]; [auto|]. right. split; [|split; [exact R|intros I; apply N, Lp, Sa; exact I]].
    intros El. apply N, Lp. apply Sa. refine (@NoDup_length_incl nat _ (seq 1 (n + 2 * k + 1)) Na _ _ a _); [rewrite seq_length; lia| |apply in_seq; unfold sink in R; lia].
    intros x Ix. apply Sa in Ix. destruct Ix as [Nx Lx]. apply Lp in Lx. apply in_seq.
    assert (Ix : 1 <= x <= sink); [|unfold sink in *; lia].
    destruct gen_ok as (ms' & s' & pre' & post' & E' & _ & _ & _ & _ & _ & Ky & _ & Ed & _ & _ & s1' & J' & Sk'). rewrite E in E'. injection E' as <- <- <- <-.
    assert (Q : forall y, joined pre post x y -> 1 <= x <= sink); [|destruct Lx as [u v H|u v w H _]; exact (Q _ H)].
    intros y H. assert (Es : edge s x y).
    { destruct (Nat.eq_dec y sink) as [->|Ny]; [apply Sk; auto|]. apply Ed; [exact Ny|]. unfold joined in H. fold sink in H. tauto. }
    apply Ky. destruct Es as (l & D & _). apply dget_In in D. apply in_map_iff. exists (x, l). auto.
Qed.
End Gen.

(** The direct predecessors: a function that only returns nodes that lead to the one given *)
Definition preds (s : succs) (t : nat) : list nat :=
  filter (fun x => negb (x =? t) && match dget s x with Some l => pymem t l | None => false end) (nodup Nat.eq_dec (dkeys s)).
Lemma preds_sound : forall s t, NoDup (preds s t) /\ forall x, In x (preds s t) -> x <> t /\ leads s x t.
Proof.
  intros s t. split; [apply NoDup_filter, NoDup_nodup|]. intros x I. apply filter_In in I. destruct I as [_ I]. apply andb_true_iff in I. destruct I as [Ne I].
  split; [lia|]. apply leads_edge. destruct (dget s x) as [l|] eqn:D; [|discriminate]. exists l. split; [exact D|]. apply pymem_true in I. exact I.
Qed.

(** Predecessors up to a depth *)
Fixpoint up (fuel : nat) (s : succs) (t : nat) : list nat :=
  match fuel with O => [] | S fuel => preds s t ++ flat_map (up fuel s) (preds s t) end.
Definition ups (fuel : nat) (s : succs) (t : nat) : list nat := filter (fun x => negb (x =? t)) (nodup Nat.eq_dec (up fuel s t)).
Lemma leads_snoc : forall s a b c, leads s a b -> leads s b c -> leads s a c.
Proof. intros s a b c H. induction H as [a b E|a b d E _ IH]; intros L; [exact (leads_step _ _ _ _ E L)|exact (leads_step _ _ _ _ E (IH L))]. Qed.
Lemma ups_sound : forall fuel s t, NoDup (ups fuel s t) /\ forall x, In x (ups fuel s t) -> x <> t /\ leads s x t.
Proof.
  intros fuel s t. split; [apply NoDup_filter, NoDup_nodup|]. intros x I. apply filter_In in I. destruct I as [I Ne]. split; [lia|]. apply nodup_In in I. clear Ne.
  revert t x I. induction fuel as [|fuel IH]; intros t x I; [contradiction|]. cbn [up] in I. apply in_app_or in I. destruct I as [I|I]; [apply preds_sound; exact I|].
  apply in_flat_map in I. destruct I as (y & Iy & Ix). apply leads_snoc with y; [apply IH; exact Ix|apply preds_sound; exact Iy].
Qed.
Lemma preds_In : forall s x t, edge s x t -> x <> t -> In x (preds s t).
Proof.
  intros s x t (l & D & I) Ne. apply filter_In. split; [apply nodup_In; apply dget_In in D; apply in_map_iff; exists (x, l); auto|].
  rewrite D. rewrite (proj2 (pymem_true _ _) I). rewrite (proj2 (Nat.eqb_neq _ _) Ne). reflexivity.
Qed.

Local Open Scope string_scope.
Definition gx_mode (d : nat) (q : Z) : list (nat * mode) := [(1, Mode d [("R1", q)])].
Definition gx (s : succs) : rcpsp :=
  Rcpsp (Constant [("R1", 2%Z)]) [] [(1, gx_mode 0 0); (2, gx_mode 2 1); (3, gx_mode 3 2); (4, gx_mode 1 1); (5, gx_mode 0 0)] s 20 1.
Definition gx_succ : succs := [(1, [2; 3]); (2, [4]); (3, [5]); (4, [5]); (5, [])].
Definition gx_back : succs := [(1, [3; 4]); (2, [5]); (3, [2]); (4, [5]); (5, [])].
Lemma gx_base : forall s, s = gx_succ \/ s = gx_back -> base (gx s) 3 [("R1", 2%Z)].
Proof.
  intros s H. split; [reflexivity|reflexivity|destruct H; subst s; reflexivity| |destruct H; subst s; reflexivity].
  intros a l D. apply dget_In in D. destruct H; subst s; cbn [gx p_succ] in D; repeat (destruct D as [D|D];
    [injection D as <- <-; split; [repeat constructor; cbn; intuition lia|cbn; intuition lia]|]); contradiction.
Qed.
Definition gx_order : list nat := [4; 2; 3].
Lemma gx_perm : Permutation gx_order (seq 2 3).
Proof. unfold gx_order. cbn [seq]. change [2; 3; 4] with ([2; 3] ++ [4])%list. change [4; 2; 3] with ([4] ++ [2; 3])%list. apply Permutation_app_comm. Qed.
Definition gx_run (s : succs) : res generated := generate (gx s) "R2" 10 2 3 4 gx_order (fun _ _ => true) preds.

Example C144_ex : base (gx gx_succ) 3 [("R1", 2%Z)] /\ Permutation gx_order (seq 2 3) /\ (forall a b, edge gx_succ a b -> a < b) /\
  exists g, gx_run gx_succ = Ok g /\ p_res (g_model g) = Constant [("R1", 2%Z); ("R2", 3%Z)] /\
    g_pre g = [(4, 5); (2, 6)] /\ g_post g = [(4, 7); (2, 8)] /\ p_sink (g_model g) = 9 /\
    p_succ (g_model g) = [(1, [2; 3; 9]); (2, [4; 8; 9]); (3, [9]); (4, [7; 9]); (9, []); (5, [4; 9]); (7, [9]); (6, [2; 9]); (8, [5; 9])] /\
    dget (p_modes (g_model g)) 3 = Some [(1, Mode 30 [("R1", 2%Z); ("R2", 0%Z)])] /\ dget (p_modes (g_model g)) 7 = Some [(1, Mode 4 [("R1", 0%Z); ("R2", 1%Z)])].
Proof.
  split; [apply gx_base; auto|]. split; [exact gx_perm|]. split.
  - intros a b (l & D & I). apply dget_In in D. cbn in D. repeat (destruct D as [D|D]; [injection D as <- <-; cbn in I; lia|]). contradiction.
  - eexists. split; [vm_compute; reflexivity|]. repeat (split; [vm_compute; reflexivity|]). vm_compute; reflexivity.
Qed.

(** With the predecessors up to depth 7 the hypothesis on the ancestors holds and no precedence to the sink is added. *)
Example C144_sink_ex : exists g, generate (gx gx_succ) "R2" 10 2 3 4 gx_order (fun _ _ => true) (ups 7) = Ok g /\
  p_succ (g_model g) = [(1, [2; 3]); (2, [4; 8]); (3, [9]); (4, [7]); (9, []); (5, [4]); (7, [9]); (6, [2]); (8, [5])] /\
  let before := joined (gx gx_succ) 3 2 (fun _ _ => true) (g_pre g) (g_post g) in
  forall s x, (forall a b, edge s a b <-> before a b) -> path before x 9 -> x <> 9 -> In x (ups 7 s 9).
Proof.
  eexists. split; [vm_compute; reflexivity|]. split; [reflexivity|]. cbv zeta. cbn [g_pre g_post]. intros s x Es P Nx.
  apply filter_In. split; [|rewrite (proj2 (Nat.eqb_neq _ _) Nx); reflexivity]. apply nodup_In.
  assert (Hop : forall f a b, edge s a b -> a <> b -> forall c, In c (up f s a) -> In c (up (S f) s b)).
  { intros f a b E Ne c0 I. cbn [up]. apply in_or_app. right. apply in_flat_map. exists a. split; [apply preds_In; auto|exact I]. }
  assert (One : forall f a b, edge s a b -> a <> b -> In a (up (S f) s b)) by (intros f a b E Ne; cbn [up]; apply in_or_app; left; apply preds_In; auto).
  assert (Orig : forall a b l, dget gx_succ a = Some l -> In b l -> b <> 5 -> edge s a b) by (intros a b l D I Ne; apply Es; left; split; [exists l; auto|exact Ne]).
  assert (E12 : edge s 1 2) by (apply (Orig 1 2 [2; 3]); [reflexivity|now left|discriminate]).
  assert (E24 : edge s 2 4) by (apply (Orig 2 4 [4]); [reflexivity|now left|discriminate]).
  assert (E47 : edge s 4 7) by (apply Es; right; right; left; reflexivity).
  assert (E54 : edge s 5 4) by (apply Es; right; left; reflexivity).
  assert (E62 : edge s 6 2) by (apply Es; right; left; reflexivity).
  assert (E85 : edge s 8 5) by (apply Es; do 3 right; left; exists 2, 4; split; [reflexivity|split; [reflexivity|split; [lia|reflexivity]]]).
  assert (E79 : edge s 7 9) by (apply Es; do 4 right; split; [reflexivity|]; right; exists 4; split; [reflexivity|]; exists [5]; split; [reflexivity|now left]).
  assert (E39 : edge s 3 9) by (apply Es; do 4 right; split; [reflexivity|]; left; split; [exists [5]; split; [reflexivity|now left]|reflexivity]).
  assert (R : In x [1; 2; 3; 4; 5; 6; 7; 8]).
  { assert (forall y, joined (gx gx_succ) 3 2 (fun _ _ => true) [(4, 5); (2, 6)] [(4, 7); (2, 8)] x y -> In x [1; 2; 3; 4; 5; 6; 7; 8]) as Q;
      [|destruct P as [u v H|u v w H _]; exact (Q _ H)].
    assert (Qe : forall y, edge gx_succ x y -> In x [1; 2; 3; 4; 5; 6; 7; 8]).
    { intros y (l & D & I). apply dget_In in D. cbn in D. repeat (destruct D as [D|D]; [injection D as <- <-; cbn; tauto|]). contradiction. }
    intros y [[H _]|[H|[H|[(m1 & m2 & H & _)|[_ [[H _]|(m & H & _)]]]]]]; try exact (Qe _ H); apply dget_In in H; cbn in H;
      repeat (destruct H as [H|H]; [injection H; intros; subst; cbn; tauto|]); contradiction. }
  assert (I7 : forall f, In 7 (up (S f) s 9)) by (intros f; apply One; [exact E79|discriminate]).
  assert (H4 : forall f a, In a (up f s 4) -> In a (up (S (S f)) s 9)) by (intros f a I; apply (Hop _ 7 9 E79); [discriminate|]; apply (Hop _ 4 7 E47); [discriminate|exact I]).
  repeat (destruct R as [<-|R]; [|]); [| | | | | | | |contradiction].
  - apply H4. apply (Hop _ 2 4 E24); [discriminate|]. apply One; [exact E12|discriminate].
  - apply H4. apply One; [exact E24|discriminate].
  - apply One; [exact E39|discriminate].
  - apply (Hop _ 7 9 E79); [discriminate|]. apply One; [exact E47|discriminate].
  - apply H4. apply One; [exact E54|discriminate].
  - apply H4. apply (Hop _ 2 4 E24); [discriminate|]. apply One; [exact E62|discriminate].
  - apply I7.
  - apply H4. apply (Hop _ 5 4 E54); [discriminate|]. apply One; [exact E85|discriminate].
Qed.

(** The problem given as argument is not left as it was: its resources gain the assistants, while its tasks know nothing of them. *)
Theorem C144_argument_refuted : exists p n c r order g, base p n c /\ Permutation order (seq 2 n) /\
  generate p r 10 2 3 4 order (fun _ _ => true) preds = Ok g /\ p_res p = Constant c /\ g_argument g = Constant (c ++ [(r, 3%Z)])%list /\ dget c r = None.
Proof.
  exists (gx gx_succ), 3, [("R1", 2%Z)], "R2", gx_order. eexists. split; [apply gx_base; auto|]. split; [exact gx_perm|].
  split; [vm_compute; reflexivity|]. repeat split.
Qed.

(** When the numbers of the tasks do not follow the precedences, the drawn precedences between helpers can close a cycle: the problem generated from one without a cycle has no schedule. *)
Theorem C144_cycle_refuted : exists p n c r order g, base p n c /\ Permutation order (seq 2 n) /\ (exists rank : nat -> nat, forall a b, edge (p_succ p) a b -> rank a < rank b) /\
  generate p r 10 2 3 4 order (fun _ _ => true) preds = Ok g /\ exists a, leads (p_succ (g_model g)) a a.
Proof.
  exists (gx gx_back), 3, [("R1", 2%Z)], "R2", [2; 3; 4]. eexists. split; [apply gx_base; auto|]. split; [reflexivity|]. split.
  - exists (fun x => nth x [0; 1; 3; 2; 3; 9] 0). intros a b (l & D & I). apply dget_In in D. cbn in D.
    repeat (destruct D as [D|D]; [injection D as <- <-; cbn in I; repeat (destruct I as [<-|I]; [cbn; lia|]); contradiction|]). contradiction.
  - split; [vm_compute; reflexivity|]. exists 2. cbn [g_model p_succ].
    apply leads_step with 7; [eexists; split; [reflexivity|cbn; auto 10]|]. apply leads_step with 6; [eexists; split; [reflexivity|cbn; auto 10]|].
    apply leads_step with 3; [eexists; split; [reflexivity|cbn; auto 10]|]. apply leads_edge. eexists. split; [reflexivity|cbn; auto 10].
Qed.

(** Asking for more assisted activities than there are is an exception. *)
Example C144_too_many_ex : generate (gx gx_succ) "R2" 10 4 3 4 gx_order (fun _ _ => true) preds = Err IndexError.
Proof. vm_compute. reflexivity. Qed.

Print Assumptions C144_tasks.
Print Assumptions C144_precedences.
Print Assumptions C144_sink.
Print Assumptions C144_acyclic.
Print Assumptions C144_restrict.
Print Assumptions C144_argument_refuted.
Print Assumptions C144_cycle_refuted.
