(** Proofs about HgenModel.v. *)
From Coq Require Import String.
From Coq Require Import List Bool Arith ZArith Lia Permutation.
From Coq Require Import ZifyBool ZifyNat.
From Verif Require Import Py PyList PyMore SgsModel BindProps SatProps HgenModel.
Import ListNotations.
Local Open Scope nat_scope.

(** [b] is listed among the successors of [a]. *)
Definition edge (s : succs) (a b : nat) : Prop := exists l, dget s a = Some l /\ In b l.
Inductive leads (s : succs) : nat -> nat -> Prop :=
  | leads_edge : forall a b, edge s a b -> leads s a b
  | leads_step : forall a b c, edge s a b -> leads s b c -> leads s a c.

Lemma remove_first_In : forall x l, NoDup l -> NoDup (remove_first x l) /\ forall b, In b (remove_first x l) <-> In b l /\ b <> x.
Proof.
  intros x l N. induction N as [|y l Ny N [IH1 IH2]]; cbn; [split; [constructor|tauto]|]. destruct (Nat.eqb_spec y x) as [->|Ne].
  - split; [exact N|]. intros b. split; [intros I; split; [auto|intros ->; contradiction]|intros [[<-|I] H]; [congruence|exact I]].
  - split; [constructor; [rewrite IH2; tauto|exact IH1]|]. intros b. cbn. rewrite IH2. split; [intros [<-|[I H]]; auto|intros [[<-|I] H]; auto].
Qed.

Lemma pairs_In : forall l a b, In (a, b) (pairs l) -> In a l /\ In b l.
Proof.
  induction l as [|x l IH]; intros a b I; [contradiction|]. cbn [pairs] in I. apply in_app_or in I. destruct I as [I|I].
  - apply in_map_iff in I. destruct I as (y & X & Iy). injection X as <- <-. cbn. auto.
  - destruct (IH _ _ I). cbn. auto.
Qed.

Lemma pairs_lt : forall l, Sorted.StronglySorted lt l -> forall a b, In (a, b) (pairs l) <-> In a l /\ In b l /\ a < b.
Proof.
  intros l S. induction S as [|x l S IH Hx]; intros a b; [cbn; tauto|]. cbn [pairs]. rewrite in_app_iff, IH, in_map_iff.
  rewrite Forall_forall in Hx. split.
  - intros [(y & X & Iy)|(I1 & I2 & L)]; [injection X as <- <-; specialize (Hx _ Iy); cbn; auto|cbn; auto].
  - intros ([<-|Ia] & [<-|Ib] & L); [lia|left; exists b; auto|specialize (Hx _ Ia); lia|right; auto].
Qed.

(** The lists of [s] are those of [s0] with the additions [R]. *)
Definition extended (s0 : succs) (R : nat -> nat -> Prop) (s : succs) : Prop :=
  dkeys s = dkeys s0 /\ forall x l, dget s0 x = Some l -> exists l', dget s x = Some l' /\ forall b, In b l' <-> In b l \/ R x b.

Lemma extended_refl : forall s, extended s (fun _ _ => False) s.
Proof. intros s. split; [reflexivity|]. intros x l D. exists l. split; [exact D|]. tauto. Qed.

Lemma extended_step : forall s0 R s q h l, extended s0 R s -> dget s q = Some l ->
  extended s0 (fun x b => R x b \/ (x = q /\ b = h)) (dset s q (l ++ [h])).
Proof.
  intros s0 R s q h l [K H] D. split.
  - rewrite dset_keys_present; [exact K|]. apply dget_In in D. apply in_map_iff. exists (q, l). auto.
  - intros x lx Dx. destruct (H x lx Dx) as (l' & D' & B). destruct (Nat.eq_dec x q) as [->|Ne].
    + exists (l ++ [h]). split; [apply dget_dset_same|]. intros b. rewrite D in D'. injection D' as <-. rewrite in_app_iff, B. cbn. intuition congruence.
    + exists l'. split; [rewrite dget_dset_other by congruence; exact D'|]. intros b. rewrite B. intuition congruence.
Qed.

Lemma extended_weaken : forall s0 R R' s, extended s0 R s -> (forall x b, R x b <-> R' x b) -> extended s0 R' s.
Proof.
  intros s0 R R' s [K H] E. split; [exact K|]. intros x l D. destruct (H x l D) as (l' & D' & B). exists l'. split; [exact D'|]. intros b. rewrite B, E. reflexivity.
Qed.

Section Gen.
Variables (p : rcpsp) (n k : nat) (order : list nat) (coin : nat -> nat -> bool).
Let old := n + 2.
Let new := n + 2 + 2 * k.
Let ass := firstn k order.
Hypothesis Ks : Permutation (dkeys (p_succ p)) (seq 1 (n + 2)).
Hypothesis Cl : forall a l, dget (p_succ p) a = Some l -> NoDup l /\ forall b, In b l -> 1 <= b <= n + 2.
Hypothesis Ord : Permutation order (seq 2 n).
Hypothesis Hk : k <= n.

Lemma ks_nodup : NoDup (dkeys (p_succ p)).
Proof. apply (Permutation_NoDup (Permutation_sym Ks)). apply seq_NoDup. Qed.

Lemma succ_of : forall a, 1 <= a <= n + 2 -> exists l, dget (p_succ p) a = Some l.
Proof.
  intros a Ha. destruct (dget (p_succ p) a) as [l|] eqn:D; [eauto|]. exfalso. apply dget_None in D. apply D.
  apply (Permutation_in _ (Permutation_sym Ks)). apply in_seq. lia.
Qed.

Lemma ass_length : length ass = k.
Proof. unfold ass. rewrite firstn_length, (Permutation_length Ord), seq_length. lia. Qed.
Lemma ass_range : forall j m, nth_error ass j = Some m -> j < k /\ 2 <= m <= n + 1.
Proof.
  intros j m E. split; [rewrite <- ass_length; apply nth_error_Some; congruence|].
  assert (I : In m order).
  { apply nth_error_In in E. unfold ass in E. rewrite <- (firstn_skipn k order). apply in_or_app. left. exact E. }
  apply (Permutation_in _ Ord) in I. apply in_seq in I. lia.
Qed.
Lemma ass_nodup : NoDup ass.
Proof.
  assert (N : NoDup order) by (apply (Permutation_NoDup (Permutation_sym Ord)); apply seq_NoDup). rewrite <- (firstn_skipn k order) in N.
  clear -N. unfold ass. induction (firstn k order) as [|x l IH]; [constructor|]. cbn in N. apply NoDup_cons_iff in N. destruct N as [Nx N].
  constructor; [intros X; apply Nx; apply in_or_app; now left|auto].
Qed.
Lemma ass_inj : forall i j m, nth_error ass i = Some m -> nth_error ass j = Some m -> i = j.
Proof.
  intros i j m E1 E2. apply (proj1 (NoDup_nth_error ass) ass_nodup); [rewrite ass_length; apply (ass_range _ _ E1)|congruence].
Qed.

Lemma rename_In : forall a l, dget (p_succ p) a = Some l -> NoDup (rename old new l) /\
  (forall b, In b (rename old new l) <-> (In b l /\ b <> old) \/ (b = new /\ In old l)) /\
  forall b, In b (rename old new l) -> b < old \/ b = new.
Proof.
  intros a l D. destruct (Cl a l D) as [N B]. unfold rename. destruct (remove_first_In old l N) as [R1 R2]. destruct (pymem old l) eqn:M.
  - apply pymem_true in M. split; [|split].
    + apply NoDup_snoc; [exact R1|]. rewrite R2. intros [X Y]. specialize (B _ X). unfold old, new in *. lia.
    + intros b. rewrite in_app_iff, R2. cbn. intuition.
    + intros b. rewrite in_app_iff, R2. intros [[X Y]|[<-|[]]]; [specialize (B _ X); unfold old in *; lia|auto].
  - apply pymem_false in M. split; [exact N|]. split.
    + intros b. split; [intros X; left; split; [exact X|intros ->; contradiction]|intros [[X _]|[_ X]]; [exact X|contradiction]].
    + intros b X. specialize (B _ X). assert (b <> old) by (intros ->; contradiction). unfold old in *. lia.
Qed.

Lemma renamed : exists s, rename_sink old new (p_succ p) = Ok s /\ NoDup (dkeys s) /\
  (forall a l, 1 <= a <= n + 1 -> dget (p_succ p) a = Some l -> dget s a = Some (rename old new l)) /\ dget s new = Some [] /\
  (forall x, In x (dkeys s) <-> 1 <= x <= n + 1 \/ x = new).
Proof.
  unfold rename_sink. set (s0 := map _ (p_succ p)).
  assert (Get : forall a, dget s0 a = option_map (rename old new) (dget (p_succ p) a)) by (intros a; apply dget_mapv).
  assert (K0 : dkeys s0 = dkeys (p_succ p)) by (unfold s0, dkeys; rewrite map_map; reflexivity).
  assert (N0 : NoDup (dkeys s0)) by (rewrite K0; apply ks_nodup).
  destruct (succ_of old) as (lo & Do); [unfold old; lia|]. unfold dgetE. rewrite Get, Do. cbn [option_map bind].
  eexists. split; [reflexivity|]. split; [apply NoDup_dset, NoDup_ddel; exact N0|]. split; [|split; [apply dget_dset_same|]].
  - intros a l Ha D. rewrite dget_dset_other by (unfold new, old in *; lia). rewrite dget_ddel_other by (unfold old; lia). rewrite Get, D. reflexivity.
  - intros x. rewrite dkeys_dset, dkeys_ddel by exact N0. rewrite K0. split.
    + intros [->|[Ne I]]; [auto|]. left. apply (Permutation_in _ Ks) in I. apply in_seq in I. unfold old in Ne. lia.
    + intros [H| ->]; [right|auto]. split; [unfold old; lia|]. apply (Permutation_in _ (Permutation_sym Ks)). apply in_seq. lia.
Qed.

Record linked (i : nat) (st : succs * (list (nat * nat) * list (nat * nat))) : Prop := {
  b_nodup : NoDup (dkeys (fst st));
  b_plain : forall a l, 1 <= a <= n + 1 -> (forall j, nth_error ass j = Some a -> i <= j) -> dget (p_succ p) a = Some l -> dget (fst st) a = Some (rename old new l);
  b_main : forall j a l, nth_error ass j = Some a -> j < i -> dget (p_succ p) a = Some l ->
    exists l', dget (fst st) a = Some l' /\ forall b, In b l' <-> (In b l /\ b <> old) \/ b = old + k + j;
  b_pre : forall j m, nth_error ass j = Some m -> j < i -> dget (fst st) (old + j) = Some [m];
  b_post : forall j m l, nth_error ass j = Some m -> j < i -> dget (p_succ p) m = Some l -> dget (fst st) (old + k + j) = Some (if pymem old l then [new] else []);
  b_sink : dget (fst st) new = Some [];
  b_keys : forall x, In x (dkeys (fst st)) <-> 1 <= x <= n + 1 \/ x = new \/ old <= x < old + i \/ old + k <= x < old + k + i;
  b_dicts : dkeys (fst (snd st)) = firstn i ass /\ dkeys (snd (snd st)) = firstn i ass;
  b_helpers : forall j m, nth_error ass j = Some m -> j < i -> dget (fst (snd st)) m = Some (old + j) /\ dget (snd (snd st)) m = Some (old + k + j)
}.

Lemma firstn_snoc : forall (l : list nat) i x, nth_error l i = Some x -> firstn (S i) l = firstn i l ++ [x].
Proof. induction l as [|y l IH]; intros [|i] x H; try discriminate; [injection H as ->; reflexivity|]. cbn in H |- *. f_equal. apply IH. exact H. Qed.

Lemma assist_ok : forall i st, i < k -> linked i st -> exists st', assist old new k ass st i = Ok st' /\ linked (S i) st'.
Proof.
  intros i [s [pre post]] Li L. destruct L as [Nd Pl Mn Pr Po Si Ky [Dk1 Dk2] He]. cbn [fst snd] in *.
  destruct (nth_error ass i) as [m|] eqn:Em; [|apply nth_error_None in Em; rewrite ass_length in Em; lia].
  destruct (ass_range i m Em) as [_ Rm]. destruct (succ_of m ltac:(lia)) as (l & Dl). destruct (rename_In m l Dl) as (Rn & Ri & Rb). destruct (Cl m l Dl) as [Nl Bl].
  assert (Dm : dget s m = Some (rename old new l)).
  { apply Pl; [lia| |exact Dl]. intros j Ej. rewrite (ass_inj _ _ _ Em Ej). lia. }
  unfold assist. unfold lget. rewrite Em. cbn [bind]. unfold dgetE at 1. rewrite dget_dset_other by (unfold old; lia). rewrite Dm. cbn [bind].
  unfold dgetE at 1. rewrite dget_dset_other by (unfold old; lia). rewrite dget_dset_same. cbn [bind].
  set (r := rename old new l ++ [old + k + i]).
  assert (Nr : NoDup r) by (apply NoDup_snoc; [exact Rn|]; intros X; apply Rb in X; unfold old, new in X; lia).
  assert (Pm : pymem new r = pymem old l).
  { apply eq_true_iff_eq. rewrite !pymem_true. unfold r. rewrite in_app_iff, Ri. cbn. split.
    - intros [[[X Y]|[_ X]]|[X|[]]]; [specialize (Bl _ X); unfold old, new in *; lia|exact X|unfold old, new in X; lia].
    - intros X. left. right. auto. }
  rewrite Pm. eexists. split; [reflexivity|].
  set (s3 := dset (dset (dset s (old + i) [m]) m r) (old + k + i) []).
  set (s4 := if pymem old l then dset (dset s3 m (remove_first new r)) (old + k + i) [new] else s3).
  set (l' := if pymem old l then remove_first new r else r).
  assert (Get : forall x, dget s4 x = if x =? old + k + i then Some (if pymem old l then [new] else []) else if x =? m then Some l' else
     if x =? old + i then Some [m] else dget s x).
  { intros x. unfold s4, s3, l'. destruct (Nat.eqb_spec x (old + k + i)) as [->|N1].
    - destruct (pymem old l); rewrite dget_dset_same; reflexivity.
    - destruct (Nat.eqb_spec x m) as [->|N2].
      + destruct (pymem old l); rewrite dget_dset_other by lia; rewrite dget_dset_same; reflexivity.
      + destruct (Nat.eqb_spec x (old + i)) as [->|N3].
        * destruct (pymem old l); rewrite ?(dget_dset_other (old + k + i)) by lia; repeat rewrite dget_dset_other by lia; rewrite dget_dset_same; reflexivity.
        * destruct (pymem old l); repeat rewrite dget_dset_other by lia; reflexivity. }
  assert (Nd4 : NoDup (dkeys s4)) by (unfold s4, s3; destruct (pymem old l); repeat apply NoDup_dset; exact Nd).
  assert (Il' : forall b, In b l' <-> (In b l /\ b <> old) \/ b = old + k + i).
  { intros b. unfold l'. destruct (pymem old l) eqn:M.
    - rewrite (proj2 (remove_first_In new r Nr)). unfold r. rewrite in_app_iff, Ri. cbn. split.
      + intros [[[X|[X _]]|[X|[]]] Y]; [auto|congruence|auto].
      + intros [X|X]; [split; [auto|destruct X as [X X']; specialize (Bl _ X); unfold old, new in *; lia]|split; [auto|unfold old, new in *; lia]].
    - unfold r. rewrite in_app_iff, Ri. apply pymem_false in M. cbn. intuition. }
  constructor; cbn [fst snd].
  - exact Nd4.
  - intros a la Ha Na Da. rewrite Get. assert (a <> m) by (intros ->; specialize (Na i Em); lia).
    replace (a =? old + k + i) with false by (unfold old; lia). replace (a =? m) with false by lia. replace (a =? old + i) with false by (unfold old; lia).
    apply Pl; [exact Ha|intros j Ej; specialize (Na j Ej); lia|exact Da].
  - intros j a la Ej Lj Da. destruct (ass_range j a Ej) as [_ Ra]. rewrite Get. replace (a =? old + k + i) with false by (unfold old; lia). destruct (Nat.eqb_spec a m) as [->|Ne].
    + rewrite Dl in Da. injection Da as <-. exists l'. split; [reflexivity|]. rewrite (ass_inj _ _ _ Ej Em). exact Il'.
    + replace (a =? old + i) with false by (unfold old; lia). apply (Mn j a la Ej); [|exact Da]. destruct (Nat.eq_dec j i) as [->|]; [congruence|lia].
  - intros j m' Ej Lj. rewrite Get. destruct (ass_range j m' Ej) as [Lk _]. replace (old + j =? old + k + i) with false by lia. replace (old + j =? m) with false by (unfold old; lia).
    destruct (Nat.eqb_spec (old + j) (old + i)) as [E|Ne]; [replace j with i in Ej by lia; congruence|]. apply Pr; [exact Ej|lia].
  - intros j m' lm Ej Lj Dm'. rewrite Get. destruct (Nat.eqb_spec (old + k + j) (old + k + i)) as [E|Ne].
    + replace j with i in Ej by lia. rewrite Em in Ej. injection Ej as <-. rewrite Dl in Dm'. injection Dm' as <-. reflexivity.
    + replace (old + k + j =? m) with false by (unfold old; lia). replace (old + k + j =? old + i) with false by lia. apply (Po j m' lm Ej); [lia|exact Dm'].
  - rewrite Get. replace (new =? old + k + i) with false by (unfold old, new; lia). replace (new =? m) with false by (unfold old, new; lia).
    replace (new =? old + i) with false by (unfold old, new; lia). exact Si.
  - intros x. assert (Q : In x (dkeys s4) <-> dget s4 x <> None) by (rewrite dget_None; destruct (in_dec Nat.eq_dec x (dkeys s4)); tauto). rewrite Q, Get.
    assert (Q' : In x (dkeys s) <-> dget s x <> None) by (rewrite dget_None; destruct (in_dec Nat.eq_dec x (dkeys s)); tauto). rewrite Ky in Q'.
    destruct (Nat.eqb_spec x (old + k + i)) as [->|N1]; [split; [lia|discriminate]|]. destruct (Nat.eqb_spec x m) as [->|N2]; [split; [lia|discriminate]|].
    destruct (Nat.eqb_spec x (old + i)) as [->|N3]; [split; [lia|discriminate]|]. rewrite <- Q'. lia.
  - rewrite (firstn_snoc _ _ _ Em). split; rewrite dset_keys_absent; rewrite ?Dk1, ?Dk2; auto; intros X; apply In_nth_error in X; destruct X as (j & Ej);
      assert (Lj : j < i) by (apply Nat.lt_le_trans with (length (firstn i ass)); [apply nth_error_Some; congruence|rewrite firstn_length; lia]);
      rewrite <- (firstn_skipn i ass) in Em; pose proof (ass_inj j i m) as Inj; rewrite <- (firstn_skipn i ass) in Inj;
      rewrite nth_error_app1 in Inj by (apply nth_error_Some; congruence); specialize (Inj Ej Em); lia.
  - intros j m' Ej Lj. destruct (Nat.eq_dec m' m) as [->|Ne].
    + rewrite (ass_inj _ _ _ Ej Em), !dget_dset_same. auto.
    + rewrite !dget_dset_other by congruence. apply He; [exact Ej|]. destruct (Nat.eq_dec j i) as [->|]; [congruence|lia].
Qed.

Lemma links_ok : exists s0 st, rename_sink old new (p_succ p) = Ok s0 /\ foldM (assist old new k ass) (s0, ([], [])) (seq 0 k) = Ok st /\ linked k st.
Proof.
  destruct renamed as (s0 & E0 & Nd & Pl & Si & Ky). exists s0.
  destruct (foldM_total (assist old new k ass) (fun l st => linked (length l) st) (l := seq 0 k) (s0, ([], []))) as (st & E & L).
  - constructor; cbn [fst snd length]; [exact Nd| | | | |exact Si| |auto|]; try (intros; lia).
    + intros a l Ha _ D. apply Pl; assumption.
    + intros x. rewrite Ky. lia.
  - intros l0 i l1 st El L. assert (Hi : i = length l0 /\ i < k).
    { assert (Nn : nth_error (seq 0 k) (length l0) = Some i) by (rewrite El, nth_error_app2, Nat.sub_diag by lia; reflexivity).
      assert (Lt : length l0 < k) by (rewrite <- (seq_length k 0), El, app_length; cbn; lia). rewrite nth_error_seq in Nn by exact Lt. injection Nn as <-. lia. }
    destruct Hi as [-> Hi]. rewrite app_length. cbn [length]. rewrite Nat.add_1_r. apply assist_ok; assumption.
  - exists st. rewrite seq_length in L. auto.
Qed.

Lemma cross_ok : forall st, linked k st -> exists s, foldM (cross (fst (snd st)) (snd (snd st)) coin) (fst st) (pairs (ssort Nat.leb ass)) = Ok s /\
  extended (fst st) (fun x b => exists i j m1 m2, nth_error ass i = Some m1 /\ nth_error ass j = Some m2 /\ m1 < m2 /\ coin m1 m2 = true /\ x = old + k + i /\ b = old + j) s.
Proof.
  intros st L. pose proof (ssort_perm Nat.leb ass) as Ps.
  assert (So : Sorted.StronglySorted lt (ssort Nat.leb ass)).
  { assert (S : Sorted.StronglySorted (fun a b => (a <=? b) = true) (ssort Nat.leb ass)).
    { apply Sorted.Sorted_StronglySorted; [intros a b c0; lia|]. apply ssort_sorted. intros a b. lia. }
    assert (N : NoDup (ssort Nat.leb ass)) by (apply (Permutation_NoDup Ps); exact ass_nodup).
    clear -S N. revert N. induction S as [|x l S IH Hx]; intros N; [constructor|]. apply NoDup_cons_iff in N. destruct N as [Nx N]. constructor; [auto|].
    rewrite Forall_forall in Hx |- *. intros y Iy. specialize (Hx _ Iy). assert (x <> y) by (intros ->; contradiction). lia. }
  destruct (foldM_total (cross (fst (snd st)) (snd (snd st)) coin)
    (fun l s => extended (fst st) (fun x b => exists i j m1 m2, nth_error ass i = Some m1 /\ nth_error ass j = Some m2 /\ In (m1, m2) l /\ coin m1 m2 = true /\ x = old + k + i /\ b = old + j) s)
    (l := pairs (ssort Nat.leb ass)) (fst st)) as (s & E & X).
  - apply (extended_weaken _ _ _ _ (extended_refl _)). intros x b. split; [contradiction|]. intros (i & j & m1 & m2 & _ & _ & [] & _).
  - intros l0 [m1 m2] l1 s El X. assert (Ip : In (m1, m2) (pairs (ssort Nat.leb ass))) by (rewrite El; apply in_or_app; right; now left).
    apply pairs_In in Ip. destruct Ip as [I1 I2]. apply (Permutation_in _ (Permutation_sym Ps)) in I1. apply (Permutation_in _ (Permutation_sym Ps)) in I2.
    apply In_nth_error in I1. apply In_nth_error in I2. destruct I1 as (i & Ei). destruct I2 as (j & Ej).
    destruct (ass_range _ _ Ei) as [Li Ri]. destruct (ass_range _ _ Ej) as [Lj Rj].
    unfold cross. cbn [fst snd]. destruct (coin m1 m2) eqn:Ec.
    + unfold dgetE at 1 2. rewrite (proj2 (b_helpers _ _ L _ _ Ei Li)), (proj1 (b_helpers _ _ L _ _ Ej Lj)). cbn [bind].
      destruct (succ_of m1 ltac:(lia)) as (lm & Dm). destruct (proj2 X _ _ (b_post _ _ L _ _ _ Ei Li Dm)) as (l & D & _).
      unfold dgetE. rewrite D. cbn [bind]. eexists. split; [reflexivity|]. eapply extended_weaken; [apply (extended_step _ _ _ _ _ _ X D)|].
      intros x b. split.
      * intros [(i' & j' & a & b' & H1 & H2 & H3 & H4)|[-> ->]].
        -- exists i', j', a, b'. split; [exact H1|]. split; [exact H2|]. split; [apply in_or_app; now left|exact H4].
        -- exists i, j, m1, m2. split; [exact Ei|]. split; [exact Ej|]. split; [apply in_or_app; right; now left|auto].
      * intros (i' & j' & a & b' & H1 & H2 & H3 & H4 & H5 & H6). apply in_app_or in H3. destruct H3 as [H3|[H3|[]]].
        -- left. exists i', j', a, b'. auto 10.
        -- injection H3 as <- <-. right. rewrite (ass_inj _ _ _ Ei H1), (ass_inj _ _ _ Ej H2). auto.
    + exists s. split; [reflexivity|]. apply (extended_weaken _ _ _ _ X). intros x b. split.
      * intros (i' & j' & a & b' & H1 & H2 & H3 & H4). exists i', j', a, b'. split; [exact H1|]. split; [exact H2|]. split; [apply in_or_app; now left|exact H4].
      * intros (i' & j' & a & b' & H1 & H2 & H3 & H4). apply in_app_or in H3. destruct H3 as [H3|[H3|[]]]; [exists i', j', a, b'; auto|].
        injection H3 as <- <-. destruct H4 as [H4 _]. congruence.
  - exists s. split; [exact E|]. apply (extended_weaken _ _ _ _ X). intros x b.
    assert (Q : forall i j m1 m2, nth_error ass i = Some m1 -> nth_error ass j = Some m2 -> (In (m1, m2) (pairs (ssort Nat.leb ass)) <-> m1 < m2)).
    { intros i j m1 m2 E1 E2. rewrite (pairs_lt _ So). apply nth_error_In in E1. apply nth_error_In in E2.
      apply (Permutation_in _ Ps) in E1. apply (Permutation_in _ Ps) in E2. tauto. }
    split; intros (i & j & m1 & m2 & H1 & H2 & H3 & H4); exists i, j, m1, m2; (split; [exact H1|]); (split; [exact H2|]); (split; [|exact H4]);
      apply (Q _ _ _ _ H1 H2); exact H3.
Qed.

Lemma close_ok : forall anc s, (forall x, In x (dkeys s) <-> 1 <= x <= new) -> exists s', close anc new (n + 2 * k) s = Ok s' /\
  extended s (fun x b => length anc <> n + 2 * k + 1 /\ 1 <= x < new /\ ~ In x anc /\ b = new) s'.
Proof.
  intros anc s Ky. unfold close. destruct (Nat.eqb_spec (length anc) (n + 2 * k + 1)) as [E|Ne].
  - exists s. split; [reflexivity|]. apply (extended_weaken _ _ _ _ (extended_refl _)). intros x b. split; [contradiction|]. tauto.
  - destruct (foldM_total (fun s m => let* l := dgetE s m in Ok (dset s m (l ++ [new]))) (fun l0 s1 => extended s (fun x b => In x l0 /\ b = new) s1)
      (l := filter (fun i => negb (pymem i anc)) (seq 1 (n + 2 * k + 1))) s) as (s' & E & X).
    + apply (extended_weaken _ _ _ _ (extended_refl _)). intros x b. split; [contradiction|]. intros [[] _].
    + intros l0 m l1 s1 El X. assert (Im : In m (filter (fun i => negb (pymem i anc)) (seq 1 (n + 2 * k + 1)))) by (rewrite El; apply in_or_app; right; now left).
      apply filter_In in Im. destruct Im as [Im _]. apply in_seq in Im.
      assert (exists l, dget s m = Some l) as (l & D).
      { destruct (dget s m) as [l|] eqn:D; [eauto|]. exfalso. apply dget_None in D. apply D. apply Ky. unfold new. lia. }
      destruct (proj2 X m l D) as (l' & D' & _). unfold dgetE. rewrite D'. cbn [bind]. eexists. split; [reflexivity|].
      eapply extended_weaken; [apply (extended_step _ _ _ _ _ _ X D')|]. intros x b. rewrite in_app_iff. cbn. intuition.
    + exists s'. split; [exact E|]. apply (extended_weaken _ _ _ _ X). intros x b. rewrite filter_In, in_seq, negb_true_iff, pymem_false. unfold new. intuition lia.
Qed.
End Gen.
