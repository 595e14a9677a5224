(** Lemmas about the serial generation scheme (SgsModel): what a search and a booking do to the
    availability table, and the invariant of the main loop. *)
From Coq Require Import String.
From Coq Require Import List Bool Arith ZArith Lia Permutation.
From Coq Require Import ZifyBool ZifyNat.
From Verif Require Import Py PyList SgsModel TspProofs.
Import ListNotations.

Lemma dgetE_ok : forall K V {E : PyEq K} (d : list (K * V)) k v, dgetE d k = Ok v <-> dget d k = Some v.
Proof. intros. unfold dgetE. destruct (dget d k); split; congruence. Qed.

(** * The table *)
Definition cell (av : list (string * list Z)) (r : string) (t : nat) : option Z :=
  match dget av r with Some row => nth_error row t | None => None end.

Definition amount (m : mode) (r : string) : Z := match dget (m_need m) r with Some n => n | None => 0%Z end.

Definition shift (av av' : list (string * list Z)) (f : string -> nat -> Z) : Prop :=
  dkeys av' = dkeys av /\
  forall r t, cell av' r t = match cell av r t with Some x => Some (x - f r t)%Z | None => None end.

Lemma shift_refl : forall av, shift av av (fun _ _ => 0%Z).
Proof. intros. split; auto. intros. destruct (cell av r t); auto. f_equal. lia. Qed.

Lemma shift_trans : forall a b c f g, shift a b f -> shift b c g -> shift a c (fun r t => f r t + g r t)%Z.
Proof.
  intros a b c f g [K1 H1] [K2 H2]. split; [congruence|]. intros. rewrite H2, H1.
  destruct (cell a r t); auto. f_equal. lia.
Qed.

Lemma shift_ext : forall a b f g, shift a b f -> (forall r t, f r t = g r t) -> shift a b g.
Proof. intros a b f g [K H] E. split; auto. intros. rewrite H. destruct (cell a r t); auto. now rewrite E. Qed.

Lemma cell_key : forall av r t x, cell av r t = Some x -> In r (dkeys av).
Proof.
  intros av r t x H. unfold cell in H. destruct (dget av r) eqn:E; [|discriminate].
  apply dmem_true. unfold dmem. now rewrite E.
Qed.

Definition at_cell (r : string) (t : nat) (r' : string) (t' : nat) : bool := pyeqb r r' && (t =? t').

Lemma deduct_ok : forall av m r t d, deduct av m r t = Ok d ->
  exists x n, cell av r t = Some x /\ dget (m_need m) r = Some n /\ snd d = (x - n)%Z /\
  cell (fst d) r t = Some (x - n)%Z /\
  shift av (fst d) (fun r' t' => if at_cell r t r' t' then n else 0%Z).
Proof.
  intros av m r t d H. unfold deduct in H.
  apply bind_ok in H as [row [H1 H]]. apply bind_ok in H as [x [H2 H]]. apply bind_ok in H as [n [H3 H]].
  apply dgetE_ok in H1. apply lget_ok in H2. apply dgetE_ok in H3. injection H as <-. cbn [fst snd].
  assert (L : t < length row) by (apply nth_error_Some; congruence).
  exists x, n. assert (C : cell av r t = Some x) by (unfold cell; now rewrite H1).
  split; [exact C|]. split; [exact H3|]. split; [reflexivity|].
  assert (S : forall r' t', cell (dset av r (lset row t (x - n)%Z)) r' t' =
    if at_cell r t r' t' then Some (x - n)%Z else cell av r' t').
  { intros. unfold cell at 1, at_cell. rewrite dget_dset. destruct (pyeqb_spec r r'); cbn [andb].
    - subst r'. rewrite lset_nth_error. destruct (Nat.eqb_spec t t').
      + destruct (Nat.ltb_spec t (length row)); [reflexivity|lia].
      + unfold cell. now rewrite H1.
    - reflexivity. }
  split.
  - rewrite S. unfold at_cell. now rewrite pyeqb_refl, Nat.eqb_refl.
  - split.
    + apply dset_keys_present. eapply cell_key; eauto.
    + intros r' t'. rewrite S. unfold at_cell. destruct (pyeqb_spec r r'); cbn [andb].
      * subst r'. destruct (Nat.eqb_spec t t').
        -- subst t'. now rewrite C.
        -- destruct (cell av r t'); auto. f_equal. lia.
      * destruct (cell av r' t'); auto. f_equal. lia.
Qed.

(** * Booking *)
Lemma book_later_ok : forall m r s l s', foldM (book_later m r) s l = Ok s' -> NoDup l ->
  shift (fst s) (fst s') (fun r' t' => if pyeqb r r' && pymem t' l then amount m r else 0%Z) /\
  (snd s' = false -> snd s = false /\ forall t x, In t l -> cell (fst s') r t = Some x -> (0 <= x)%Z).
Proof.
  intros m r s l s' H N.
  apply (@foldM_inv _ _ (book_later m r) (fun l0 s' => NoDup l0 ->
    shift (fst s) (fst s') (fun r' t' => if pyeqb r r' && pymem t' l0 then amount m r else 0%Z) /\
    (snd s' = false -> snd s = false /\ forall t x, In t l0 -> cell (fst s') r t = Some x -> (0 <= x)%Z)) l s s' H); auto.
  - intros _. split.
    + eapply shift_ext; [apply shift_refl|]. intros. cbn. now rewrite andb_false_r.
    + intros E. split; auto. intros t x [].
  - clear H s'. intros l0 t l1 s1 s2 E IH H N0. assert (N1 : NoDup l0 /\ ~ In t l0).
    { apply NoDup_remove in N0. rewrite app_nil_r in N0. exact N0. }
    destruct N1 as [N1 NI]. destruct (IH N1) as [S1 B1]. clear IH.
    unfold book_later in H. apply bind_ok in H as [d [D H]]. injection H as <-. cbn [fst snd].
    apply deduct_ok in D as (x & n & C & NE & V & C' & SH).
    split.
    + eapply shift_ext; [eapply shift_trans; [exact S1|exact SH]|]. intros r' t'. unfold at_cell.
      unfold amount. rewrite NE. unfold pymem. rewrite existsb_app. cbn [existsb].
      destruct (pyeqb_spec r r'); cbn [andb]; [|lia]. fold (pymem t' l0).
      destruct (pymem t' l0) eqn:P; cbn [orb].
      * apply pymem_true in P. destruct (Nat.eqb_spec t t'); [congruence|lia].
      * cbn [pyeqb PyEq_nat]. rewrite (Nat.eqb_sym t' t). destruct (t =? t'); cbn [orb]; lia.
    + rewrite orb_false_iff, V. intros [E1 E2]. destruct (B1 E1) as [B2 B3]. split; auto.
      intros t' x' I C2. apply in_app_or in I as [I|[<-|[]]].
      * destruct SH as [_ SH]. rewrite SH in C2. unfold at_cell in C2.
        destruct (Nat.eqb_spec t t'); [congruence|]. rewrite andb_false_r in C2.
        destruct (cell (fst s1) r t') eqn:C3; [|discriminate]. injection C2 as <-.
        specialize (B3 _ _ I C3). lia.
      * rewrite C' in C2. injection C2 as <-. lia.
Qed.

Definition later (p : rcpsp) (m : mode) (c : nat) (r : string) (t : nat) : bool :=
  pymem r (p_nonren p) && (t + 1 =? c + m_duration m).

Lemma book_cell_ok : forall p m c t s r s', book_cell p m c t s r = Ok s' ->
  (exists n, dget (m_need m) r = Some n) /\
  shift (fst s) (fst s') (fun r' t' => if pyeqb r r' && ((t =? t') ||
     (later p m c r t && (t <? t') && (t' <? new_horizon p))) then amount m r else 0%Z) /\
  (snd s' = false -> snd s = false /\
     (later p m c r t = true -> forall t' x, t < t' < new_horizon p -> cell (fst s') r t' = Some x -> (0 <= x)%Z)).
Proof.
  intros p m c t s r s' H. unfold book_cell in H. apply bind_ok in H as [d [D H]].
  apply deduct_ok in D as (x & n & C & NE & V & C' & SH).
  split; [eauto|]. unfold later in *.
  destruct (pymem r (p_nonren p) && (t + 1 =? c + m_duration m)) eqn:L.
  - apply book_later_ok in H as [S1 B1]; [|apply seq_NoDup]. cbn [fst snd] in *. split.
    + eapply shift_ext; [eapply shift_trans; [exact SH|exact S1]|]. intros r' t'. unfold at_cell, amount. rewrite NE.
      destruct (pyeqb_spec r r'); cbn [andb]; [|lia].
      assert (P : pymem t' (seq (t + 1) (new_horizon p - (t + 1))) = (t <? t') && (t' <? new_horizon p)).
      { apply eq_true_iff_eq. rewrite pymem_true, in_seq. lia. }
      rewrite P. destruct (Nat.eqb_spec t t'); cbn [orb].
      * subst. replace (t' <? t') with false by lia. cbn [andb]. lia.
      * lia.
    + intros E. destruct (B1 E) as [B2 B3]. split; auto. intros _ t' x' I. apply B3. apply in_seq. lia.
  - injection H as <-. cbn [fst snd]. split.
    + eapply shift_ext; [exact SH|]. intros r' t'. unfold at_cell, amount. rewrite NE. cbn [andb]. now rewrite orb_false_r.
    + intros E. split; auto. discriminate.
Qed.

(** What one time step of a booking takes from a cell. *)
Definition taken (p : rcpsp) (m : mode) (c t : nat) (r' : string) (t' : nat) : Z :=
  if (t =? t') || (later p m c r' t && (t <? t') && (t' <? new_horizon p)) then amount m r' else 0%Z.

Lemma book_time_ok : forall p m c s t s', book_time p m c s t = Ok s' -> NoDup (dkeys (fst s)) ->
  (forall r, In r (dkeys (fst s)) -> exists n, dget (m_need m) r = Some n) /\
  shift (fst s) (fst s') (taken p m c t) /\
  (snd s' = false -> snd s = false /\
     (forall r t' x, later p m c r t = true -> t < t' < new_horizon p -> cell (fst s') r t' = Some x -> (0 <= x)%Z)).
Proof.
  intros p m c s t s' H N. unfold book_time in H.
  assert (P : (forall r, In r (dkeys (fst s)) -> exists n, dget (m_need m) r = Some n) /\
    shift (fst s) (fst s') (fun r' t' => if pymem r' (dkeys (fst s)) then taken p m c t r' t' else 0%Z) /\
    (snd s' = false -> snd s = false /\
     (forall r t' x, In r (dkeys (fst s)) -> later p m c r t = true -> t < t' < new_horizon p -> cell (fst s') r t' = Some x -> (0 <= x)%Z))).
  { apply (@foldM_inv _ _ (book_cell p m c t) (fun l0 s' => NoDup l0 ->
      (forall r, In r l0 -> exists n, dget (m_need m) r = Some n) /\
      shift (fst s) (fst s') (fun r' t' => if pymem r' l0 then taken p m c t r' t' else 0%Z) /\
      (snd s' = false -> snd s = false /\
       (forall r t' x, In r l0 -> later p m c r t = true -> t < t' < new_horizon p -> cell (fst s') r t' = Some x -> (0 <= x)%Z)))
      _ s s' H); auto.
    - intros _. split; [intros r []|]. split.
      + eapply shift_ext; [apply shift_refl|]. reflexivity.
      + intros E. split; auto. intros r t' x [].
    - clear H s'. intros l0 r l1 s1 s2 E IH H N0. assert (N1 : NoDup l0 /\ ~ In r l0).
      { apply NoDup_remove in N0. rewrite app_nil_r in N0. exact N0. }
      destruct N1 as [N1 NI]. destruct (IH N1) as [A1 [S1 B1]]. clear IH.
      apply book_cell_ok in H as [A2 [S2 B2]]. split; [|split].
      + intros r' I. apply in_app_or in I as [I|[<-|[]]]; auto.
      + eapply shift_ext; [eapply shift_trans; [exact S1|exact S2]|]. intros r' t'. cbn beta. unfold pymem.
        rewrite existsb_app. cbn [existsb]. fold (pymem r' l0). destruct (pymem r' l0) eqn:P; cbn [orb].
        * apply pymem_true in P. destruct (pyeqb_spec r r'); [congruence|]. cbn [andb]. lia.
        * unfold taken. destruct (pyeqb_spec r r').
          -- subst r'. rewrite pyeqb_refl. cbn [orb andb]. lia.
          -- destruct (pyeqb_spec r' r); [congruence|]. cbn [orb andb]. lia.
      + intros E2. destruct (B2 E2) as [B3 B4]. destruct (B1 B3) as [B5 B6]. split; auto.
        intros r' t' x I L Ht C. apply in_app_or in I as [I|[<-|[]]].
        * destruct S2 as [_ S2]. rewrite S2 in C. destruct (pyeqb_spec r r'); [congruence|]. cbn [andb] in C.
          destruct (cell (fst s1) r' t') eqn:C3; [|discriminate]. injection C as <-.
          specialize (B6 _ _ _ I L Ht C3). lia.
        * eapply B4; eauto. }
  destruct P as [P1 [P2 P3]]. split; auto. split.
  - destruct P2 as [K P2]. split; auto. intros r' t'. rewrite P2. destruct (cell (fst s) r' t') eqn:C; auto.
    f_equal. apply cell_key in C. now rewrite (proj2 (pymem_true r' _) C).
  - intros E. destruct (P3 E) as [B C]. split; auto. intros r t' x L Ht CC. eapply C; eauto.
    destruct P2 as [K _]. rewrite <- K. eapply cell_key; eauto.
Qed.

(** What a task booked on [c, c + duration) takes from a cell. *)
Definition uses (p : rcpsp) (m : mode) (c : nat) (r : string) (t : nat) : bool :=
  (c <=? t) && ((t <? c + m_duration m) ||
     (pymem r (p_nonren p) && (0 <? m_duration m) && (t <? new_horizon p))).

Lemma book_ok : forall p m c av s, book p av m c = Ok s -> NoDup (dkeys av) ->
  (0 < m_duration m -> forall r, In r (dkeys av) -> exists n, dget (m_need m) r = Some n) /\
  shift av (fst s) (fun r t => if uses p m c r t then amount m r else 0%Z) /\
  (snd s = false -> forall r t x, pymem r (p_nonren p) = true -> 0 < m_duration m ->
      c + m_duration m <= t < new_horizon p -> cell (fst s) r t = Some x -> (0 <= x)%Z).
Proof.
  intros p m c av s H N. unfold book in H.
  set (Q := fun (l0 : list nat) (s : list (string * list Z) * bool) =>
    (0 < length l0 -> forall r, In r (dkeys av) -> exists n, dget (m_need m) r = Some n) /\
    shift av (fst s) (fun r t =>
      if (c <=? t) && ((t <? c + length l0) || (pymem r (p_nonren p) && (0 <? length l0) &&
           (length l0 =? m_duration m) && (t <? new_horizon p))) then amount m r else 0%Z) /\
    (snd s = false -> forall r t x, pymem r (p_nonren p) = true -> 0 < length l0 -> length l0 = m_duration m ->
      c + m_duration m <= t < new_horizon p -> cell (fst s) r t = Some x -> (0 <= x)%Z)).
  assert (Q (seq c (m_duration m)) s).
  { apply (@foldM_inv _ _ (book_time p m c) Q _ (av, false) s H).
    - unfold Q. cbn [length fst snd]. split; [lia|]. split; [|intros _ r t x _ Z0; lia].
      eapply shift_ext; [apply shift_refl|]. intros. cbn beta. rewrite andb_false_r. cbn [andb].
      destruct (Nat.leb_spec c t), (Nat.ltb_spec t (c + 0)); cbn [andb orb]; auto; lia.
    - unfold Q. intros l0 t l1 s1 s2 E [A1 [S1 B1]] H1. apply seq_split in E as [Et Lt].
      assert (N1 : NoDup (dkeys (fst s1))) by (destruct S1 as [K _]; now rewrite K).
      apply book_time_ok in H1 as [A2 [S2 B2]]; auto. rewrite app_length. cbn [length].
      replace (length l0 + 1) with (S (length l0)) by lia. subst t. split; [|split].
      + intros _ r I. apply A2. destruct S1 as [K _]. now rewrite K.
      + eapply shift_ext; [eapply shift_trans; [exact S1|exact S2]|]. intros r t. cbn beta.
        unfold taken, later. replace (c + length l0 + 1 =? c + m_duration m) with (S (length l0) =? m_duration m)
          by (apply eq_true_iff_eq; lia).
        replace (length l0 =? m_duration m) with false by lia.
        rewrite andb_false_r. cbn [andb]. rewrite orb_false_r. replace (0 <? S (length l0)) with true by lia.
        rewrite andb_true_r.
        destruct (pymem r (p_nonren p)), (S (length l0) =? m_duration m), (Nat.ltb_spec t (new_horizon p)),
          (Nat.leb_spec c t), (Nat.ltb_spec t (c + length l0)), (Nat.ltb_spec t (c + S (length l0))),
          (Nat.eqb_spec (c + length l0) t), (Nat.ltb_spec (c + length l0) t); cbn [andb orb]; try lia.
      + intros E r t x NR _ LD Ht C. destruct (B2 E) as [B3 B4]. apply (B4 r t x); auto.
        * unfold later. rewrite NR. cbn [andb]. lia.
        * lia. }
  unfold Q in H0. rewrite seq_length in H0. destruct H0 as [A [S B]]. split; auto. split.
  - eapply shift_ext; [exact S|]. intros. cbn beta. unfold uses. rewrite Nat.eqb_refl, andb_true_r. reflexivity.
  - intros E r t x NR D. apply B; auto.
Qed.

(** * Searching *)
(** At [(r, t)] the task does not fit. *)
Definition blocked (p : rcpsp) (av : list (string * list Z)) (m : mode) (c : nat) : Prop :=
  exists r t x n, c <= t < c + m_duration m /\ t < new_horizon p /\ cell av r t = Some x /\
    dget (m_need m) r = Some n /\ (x < n)%Z.
Definition fits (p : rcpsp) (av : list (string * list Z)) (m : mode) (c : nat) : Prop :=
  forall r t, In r (dkeys av) -> c <= t < c + m_duration m ->
    t < new_horizon p /\ exists x n, cell av r t = Some x /\ dget (m_need m) r = Some n /\ (n <= x)%Z.

Lemma scan_ok : forall p av m bad c vb, scan p av m bad c = Ok vb ->
  (fst vb = false -> blocked p av m c) /\
  (snd vb = false -> bad = false) /\
  (fst vb = true -> snd vb = false -> fits p av m c) /\
  (snd vb = false -> forall r t, In r (dkeys av) -> c <= t < c + m_duration m -> t < new_horizon p).
Proof.
  intros p av m bad c vb H. unfold scan in H.
  assert (Q : (fst vb = false -> blocked p av m c) /\ (snd vb = false -> bad = false) /\
    (snd vb = false -> forall r t, In r (dkeys av) -> In t (seq c (m_duration m)) -> t < new_horizon p) /\
    (fst vb = true -> snd vb = false -> forall r t, In r (dkeys av) -> In t (seq c (m_duration m)) ->
       t < new_horizon p /\ exists x n, cell av r t = Some x /\ dget (m_need m) r = Some n /\ (n <= x)%Z)).
  { apply (@foldM_inv _ _ (scan_time p av m) (fun l0 vb => (fst vb = false -> blocked p av m c) /\ (snd vb = false -> bad = false) /\
      (snd vb = false -> forall r t, In r (dkeys av) -> In t l0 -> t < new_horizon p) /\
      (fst vb = true -> snd vb = false -> forall r t, In r (dkeys av) -> In t l0 ->
       t < new_horizon p /\ exists x n, cell av r t = Some x /\ dget (m_need m) r = Some n /\ (n <= x)%Z)) _ _ _ H).
    - cbn [fst snd]. split; [discriminate|]. split; auto. split; intros; contradiction.
    - intros l0 t l1 s1 s2 E (I1 & I2 & I3 & I4) H1. apply seq_split in E as [Et Lt].
      unfold scan_time in H1.
      assert (R : (fst s2 = false -> blocked p av m c) /\ (snd s2 = false -> snd s1 = false) /\
         (snd s2 = false -> forall r, In r (dkeys av) -> t < new_horizon p) /\
         (fst s2 = true -> fst s1 = true) /\
         (fst s2 = true -> snd s2 = false -> forall r, In r (dkeys av) -> t < new_horizon p /\
           exists x n, cell av r t = Some x /\ dget (m_need m) r = Some n /\ (n <= x)%Z)).
      { apply (@foldM_inv _ _ (scan_cell p av m t) (fun k0 s2 => (fst s2 = false -> blocked p av m c) /\ (snd s2 = false -> snd s1 = false) /\
         (snd s2 = false -> forall r, In r k0 -> t < new_horizon p) /\
         (fst s2 = true -> fst s1 = true) /\
         (fst s2 = true -> snd s2 = false -> forall r, In r k0 -> t < new_horizon p /\
           exists x n, cell av r t = Some x /\ dget (m_need m) r = Some n /\ (n <= x)%Z)) _ _ _ H1).
        - split; auto. split; auto. split; [intros; contradiction|]. split; auto. intros; contradiction.
        - intros k0 r k1 u1 u2 Ek (J1 & J2 & J3 & J4 & J5) H2. unfold scan_cell in H2.
          destruct (Nat.ltb_spec t (new_horizon p)) as [Lh|Lh].
          + apply bind_ok in H2 as [row [R1 H2]]. apply bind_ok in H2 as [x [R2 H2]]. apply bind_ok in H2 as [n [R3 H2]].
            apply dgetE_ok in R1. apply lget_ok in R2. apply dgetE_ok in R3.
            assert (C : cell av r t = Some x) by (unfold cell; now rewrite R1).
            destruct (Z.ltb_spec x n); injection H2 as <-; cbn [fst snd].
            * split; [intros _; exists r, t, x, n; repeat split; auto; lia|]. split; auto.
              split; [intros; auto|]. split; [discriminate|]. discriminate.
            * split; auto. split; auto. split; [intros; auto|]. split; auto.
              intros V B r' I. split; [lia|]. apply in_app_or in I as [I|[<-|[]]].
              -- now apply J5.
              -- eauto.
          + injection H2 as <-. cbn [fst snd]. split; auto. split; [discriminate|]. split; [discriminate|]. split; [auto|]. discriminate. }
      destruct R as (J1 & J2 & J3 & J4 & J5). split; auto. split; auto. split.
      + intros B r t' I It. apply in_app_or in It as [It|[<-|[]]]; [eapply I3; eauto|eapply J3; eauto].
      + intros V B r t' I It. apply in_app_or in It as [It|[<-|[]]]; [apply I4; auto|apply J5; auto]. }
  destruct Q as (Q1 & Q2 & Q3 & Q4). split; auto. split; auto. split.
  - intros V B r t I Ht. apply Q4; auto. apply in_seq. lia.
  - intros B r t I Ht. eapply Q3; eauto. apply in_seq. lia.
Qed.

Lemma search_ok : forall fuel p av m bad c cb, search fuel p av m bad c = Ok cb -> snd cb = false ->
  c <= fst cb /\ bad = false /\ fits p av m (fst cb) /\ (forall c', c <= c' < fst cb -> blocked p av m c').
Proof.
  induction fuel as [|fuel IH]; intros p av m bad c cb H B; [discriminate|]. cbn [search] in H.
  apply bind_ok in H as [vb [S H]]. apply scan_ok in S as (S1 & S2 & S3 & S4).
  destruct (fst vb) eqn:V.
  - injection H as <-. cbn [fst snd] in *. split; [lia|]. split; auto. split; auto. intros; lia.
  - apply IH in H as (L & B1 & F & BL); auto. split; [lia|]. split; auto. split; auto.
    intros c' Hc. destruct (Nat.eq_dec c' c); [subst; auto|]. apply BL. lia.
Qed.

(** * The main loop *)
Section Loop.
  Variables (p : rcpsp) (me : list nat) (pe : list nat) (mins0 : list (nat * nat)).

  Definition use_of (ae : nat * nat) (r : string) (t : nat) : Z :=
    match mode_of p me (fst ae) with
    | Ok m => if uses p m (snd ae - m_duration m) r t then amount m r else 0%Z
    | Err _ => 0%Z
    end.
  Definition total (ends : list (nat * nat)) (r : string) (t : nat) : Z :=
    sumZ (map (fun ae => use_of ae r t) ends).
  Definition others (a : nat) (ends : list (nat * nat)) : list (nat * nat) :=
    filter (fun ae => negb (fst ae =? a)) ends.

  Definition nonneg_caps : Prop := forall r t x, cell (avail_init p) r t = Some x -> (0 <= x)%Z.
  Definition nonneg_needs : Prop := forall a m r n, mode_of p me a = Ok m -> dget (m_need m) r = Some n -> (0 <= n)%Z.

  Record inv (g : sgs_state) : Prop := {
    i_perm : NoDup (g_perm g);
    i_ends : NoDup (dkeys (g_ends g));
    i_all : forall a, In a pe <-> In a (g_perm g) \/ In a (dkeys (g_ends g));
    i_disj : forall a, In a (g_perm g) -> ~ In a (dkeys (g_ends g));
    i_act : g_bad g = false -> forall a, g_act g = Some a -> ~ In a (g_perm g);
    i_placed : forall a e, In (a, e) (g_ends g) ->
      exists m, mode_of p me a = Ok m /\ m_duration m <= e /\
        (forall x, dget mins0 a = Some x -> x <= e - m_duration m) /\
        (forall b l, dget (p_succ p) b = Some l -> In a l -> ~ In b (g_perm g) /\
           forall eb, In (b, eb) (g_ends g) -> eb <= e - m_duration m);
    i_horizon : forall a e m r, In (a, e) (g_ends g) -> mode_of p me a = Ok m -> 0 < m_duration m ->
      In r (res_names p) -> e <= new_horizon p;
    i_keys : dkeys (g_min g) = dkeys mins0;
    i_min : forall s x, dget (g_min g) s = Some x ->
      (forall x0, dget mins0 s = Some x0 -> x0 <= x) /\
      (forall b l eb, dget (p_succ p) b = Some l -> In s l -> In (b, eb) (g_ends g) -> eb <= x);
    i_min_le : forall s x, dget (g_min g) s = Some x ->
      dget mins0 s = Some x \/
      exists b l, dget (p_succ p) b = Some l /\ In s l /\ In (b, x) (g_ends g);
    i_avail : shift (avail_init p) (g_avail g) (total (g_ends g));
    i_cap : nonneg_caps -> g_bad g = false -> forall r t x, cell (g_avail g) r t = Some x -> (0 <= x)%Z;
    i_early : nonneg_needs -> forall a e m c', In (a, e) (g_ends g) -> mode_of p me a = Ok m ->
      (forall x, dget mins0 a = Some x -> x <= c') ->
      (forall b l eb, dget (p_succ p) b = Some l -> In a l -> In (b, eb) (g_ends g) -> eb <= c') ->
      c' < e - m_duration m ->
      exists r t x, c' <= t < c' + m_duration m /\ t < new_horizon p /\ cell (avail_init p) r t = Some x /\
        (x < total (others a (g_ends g)) r t + amount m r)%Z
  }.

  Lemma foldM_raise_min : forall e l mins mins', foldM (raise_min e) mins l = Ok mins' ->
    dkeys mins' = dkeys mins /\ (forall s, In s l -> In s (dkeys mins)) /\
    forall s, dget mins' s = match dget mins s with
                             | Some x => Some (if pymem s l then Nat.max x e else x)
                             | None => None end.
  Proof.
    intros e l mins mins' H.
    apply (@foldM_inv _ _ (raise_min e) (fun l0 mins' => dkeys mins' = dkeys mins /\ (forall s, In s l0 -> In s (dkeys mins)) /\
      forall s, dget mins' s = match dget mins s with
                             | Some x => Some (if pymem s l0 then Nat.max x e else x)
                             | None => None end) _ _ _ H).
    - split; auto. split; [intros s []|]. intros. cbn. destruct (dget mins s); auto.
    - intros l0 s l1 m1 m2 _ (K & P & D) H1. unfold raise_min in H1. apply bind_ok in H1 as [x [G H1]].
      apply dgetE_ok in G. injection H1 as <-.
      assert (Ks : In s (dkeys m1)) by (apply dmem_true; unfold dmem; now rewrite G).
      split; [rewrite dset_keys_present; auto|]. split.
      + intros s' I. apply in_app_or in I as [I|[<-|[]]]; auto. now rewrite <- K.
      + intros s'. rewrite dget_dset. unfold pymem. rewrite existsb_app. cbn [existsb]. fold (pymem s' l0).
        destruct (pyeqb_spec s s').
        * subst s'. rewrite D in G. destruct (dget mins s); [|discriminate]. injection G as <-.
          rewrite pyeqb_refl. rewrite orb_true_r. destruct (pymem s l0); f_equal; lia.
        * rewrite D. destruct (dget mins s'); auto. destruct (pyeqb_spec s' s); [congruence|].
          rewrite !orb_false_r. reflexivity.
  Qed.

  Lemma total_snoc : forall ends ae r t, total (ends ++ [ae]) r t = (total ends r t + use_of ae r t)%Z.
  Proof. intros. unfold total. rewrite map_app, sumZ_app. cbn [map]. rewrite sumZ_one. lia. Qed.

  Lemma use_nonneg : nonneg_needs -> forall ae r t, (0 <= use_of ae r t)%Z.
  Proof.
    intros NN ae r t. unfold use_of. destruct (mode_of p me (fst ae)) eqn:M; [|lia].
    destruct (uses p a (snd ae - m_duration a) r t); [|lia]. unfold amount.
    destruct (dget (m_need a) r) eqn:D; [|lia]. eapply NN; eauto.
  Qed.

  Lemma others_absent : forall a ends, ~ In a (dkeys ends) -> others a ends = ends.
  Proof.
    intros a ends H. unfold others. induction ends as [|[b e] ends IH]; cbn [filter fst]; auto.
    destruct (Nat.eqb_spec b a).
    - subst. elim H. now left.
    - cbn [negb]. f_equal. apply IH. intros I. apply H. now right.
  Qed.

  Lemma others_snoc : forall a ends ae, others a (ends ++ [ae]) = others a ends ++ (if fst ae =? a then [] else [ae]).
  Proof. intros. unfold others. rewrite filter_app. cbn [filter]. now destruct (fst ae =? a). Qed.

  Lemma ready_spec : forall perm a, ready (p_succ p) perm a = true ->
    forall b l, dget (p_succ p) b = Some l -> In a l -> ~ In b perm.
  Proof.
    intros perm a H b l D I B. unfold ready in H. apply negb_true_iff in H.
    assert (existsb (fun kv : nat * list nat => pymem a (snd kv) && pymem (fst kv) perm) (p_succ p) = true).
    { apply existsb_exists. exists (b, l). split; [now apply dget_In|]. cbn [fst snd].
      rewrite (proj2 (pymem_true a l) I), (proj2 (pymem_true b perm) B). reflexivity. }
    congruence.
  Qed.

  Lemma In_key : forall (d : list (nat * nat)) a e, In (a, e) d -> In a (dkeys d).
  Proof. intros d a e H. apply in_map_iff. exists (a, e). auto. Qed.

  Hypothesis succ_keys : dkeys mins0 = dkeys (p_succ p).
  Hypothesis av_keys : NoDup (res_names p).

  Lemma avail_keys : dkeys (avail_init p) = res_names p.
  Proof.
    unfold avail_init, res_names, dkeys. destruct (p_res p); rewrite map_map; cbn [fst]; reflexivity.
  Qed.

  Lemma step_inv : forall g g', inv g -> g_bad g = false -> sgs_step p me g = Ok g' -> inv g' /\
    (g_bad g' = false -> length (g_perm g') < length (g_perm g)) /\
    (length (g_perm g') <= length (g_perm g)).
  Proof.
    intros g g' I B H. unfold sgs_step in H.
    assert (Act : exists a, match next_act p (g_perm g) with Some a => Some a | None => g_act g end = Some a).
    { destruct (match next_act p (g_perm g) with Some a => Some a | None => g_act g end); [eauto|discriminate]. }
    destruct Act as [a Act]. rewrite Act in H.
    apply bind_ok in H as [c0 [C0 H]]. apply bind_ok in H as [m [M H]]. apply bind_ok in H as [cb [CB H]].
    apply dgetE_ok in C0. destruct (snd cb) eqn:Bad.
    { injection H as <-. split; [|cbn; split; [discriminate|lia]]. destruct I. constructor; cbn; auto; discriminate. }
    apply bind_ok in H as [ab [AB H]]. destruct (pymem a (g_perm g)) eqn:Pa; [|discriminate].
    apply pymem_true in Pa. apply bind_ok in H as [succs [SU H]]. apply bind_ok in H as [mins [MI H]].
    injection H as <-. apply dgetE_ok in SU.
    assert (Rd : ready (p_succ p) (g_perm g) a = true).
    { destruct (next_act p (g_perm g)) eqn:NA.
      - injection Act as ->. apply find_some in NA. tauto.
      - exfalso. eapply i_act; eauto. }
    apply search_ok in CB as (Lc & _ & F & BL); auto.
    assert (Na : ~ In a (dkeys (g_ends g))) by (eapply i_disj; eauto).
    assert (Nk : NoDup (dkeys (g_avail g))).
    { destruct (i_avail _ I) as [K _]. now rewrite K, avail_keys. }
    apply book_ok in AB as (_ & SH & BB); auto.
    apply foldM_raise_min in MI as (MK & MS & MD).
    rewrite (@dset_absent nat) by auto.
    set (c := fst cb) in *. set (e := c + m_duration m).
    assert (Ue : forall r t, use_of (a, e) r t = if uses p m c r t then amount m r else 0%Z).
    { intros. unfold use_of. cbn [fst snd]. rewrite M. unfold e. now rewrite Nat.add_sub. }
    assert (Preds : forall b l eb, dget (p_succ p) b = Some l -> In a l -> In (b, eb) (g_ends g) -> eb <= c0).
    { intros b l eb D Ia Ib. eapply (proj2 (i_min _ I a c0 C0)); eauto. }
    split; [|cbn [g_perm]; split].
    2:{ intros _. clear -Pa. induction (g_perm g) as [|x l IH]; [destruct Pa|]. cbn [pyremove].
        destruct (pyeqb_spec a x); cbn [length]; [lia|]. destruct Pa as [E|Pa]; [congruence|]. specialize (IH Pa). lia. }
    2:{ clear. induction (g_perm g) as [|x l IH]; cbn [pyremove length]; [lia|]. destruct (pyeqb a x); cbn [length]; lia. }
    assert (SA : shift (avail_init p) (fst ab) (total (g_ends g ++ [(a, e)]))).
    { eapply shift_ext; [eapply shift_trans; [exact (i_avail _ I)|exact SH]|]. intros. cbn beta. now rewrite total_snoc, Ue. }
    constructor; cbn [g_avail g_min g_perm g_ends g_act g_bad].
    - apply pyremove_NoDup, i_perm, I.
    - unfold dkeys. rewrite map_app. apply NoDup_snoc; [apply i_ends, I|exact Na].
    - intros x. rewrite (i_all _ I x). unfold dkeys. rewrite map_app, in_app_iff. cbn [map fst In].
      rewrite pyremove_In by (apply i_perm, I). destruct (Nat.eq_dec x a); [subst x; tauto|intuition congruence].
    - intros x Ix. rewrite pyremove_In in Ix by (apply i_perm, I). destruct Ix as [Nx Ix].
      unfold dkeys. rewrite map_app, in_app_iff. cbn [map fst In]. intros [K|[K|[]]]; [|congruence].
      eapply i_disj; eauto.
    - intros _ x [= <-]. rewrite pyremove_In by (apply i_perm, I). tauto.
    - intros x ex Ix. apply in_app_or in Ix as [Ix|[[= <- <-]|[]]].
      + destruct (i_placed _ I x ex Ix) as (mx & M1 & M2 & M3 & M4). exists mx. split; auto. split; auto. split; auto.
        intros b l D Il. destruct (M4 b l D Il) as [N1 N2]. split.
        * intros K. apply pyremove_incl in K. auto.
        * intros eb Ib. apply in_app_or in Ib as [Ib|[[= <- <-]|[]]]; auto. contradiction.
      + exists m. split; auto. split; [unfold e; lia|]. replace (e - m_duration m) with c by (unfold e; lia). split.
        * intros x D. pose proof (proj1 (i_min _ I a c0 C0) x D). lia.
        * intros b l D Il. split.
          -- intros K. apply pyremove_incl in K. eapply ready_spec; eauto.
          -- intros eb Ib. apply in_app_or in Ib as [Ib|[[= <- _]|[]]].
             ++ specialize (Preds b l eb D Il Ib). lia.
             ++ exfalso. eapply ready_spec; eauto.
    - intros x ex mx r Ix Mx Dx Ir. apply in_app_or in Ix as [Ix|[[= <- <-]|[]]].
      + eapply i_horizon; eauto.
      + rewrite M in Mx. injection Mx as <-.
        assert (Ir' : In r (dkeys (g_avail g))) by (rewrite (proj1 (i_avail _ I)), avail_keys; exact Ir).
        destruct (F r (c + m_duration m - 1) Ir') as [L _]; [lia|]. unfold e. lia.
    - rewrite MK. apply i_keys, I.
    - intros s x G. rewrite MD in G. destruct (dget (g_min g) s) as [y|] eqn:Gy; [|discriminate].
      injection G as <-. destruct (i_min _ I s y Gy) as [J1 J2]. split.
      + intros x0 D. specialize (J1 _ D). destruct (pymem s succs); lia.
      + intros b l eb D Il Ib. apply in_app_or in Ib as [Ib|[[= <- <-]|[]]].
        * specialize (J2 _ _ _ D Il Ib). destruct (pymem s succs); lia.
        * rewrite SU in D. injection D as <-. rewrite (proj2 (pymem_true s succs) Il). fold e. lia.
    - intros s x G. rewrite MD in G. destruct (dget (g_min g) s) as [y|] eqn:Gy; [|discriminate].
      injection G as <-. destruct (pymem s succs) eqn:Ps.
      + apply pymem_true in Ps. fold e. destruct (Nat.max_spec y e) as [[_ ->]|[_ ->]].
        * right. exists a, succs. split; auto. split; auto. apply in_or_app. right. now left.
        * destruct (i_min_le _ I s y Gy) as [|(b & l & D & Il & Ib)]; auto. right. exists b, l. split; auto. split; auto.
          apply in_or_app. auto.
      + destruct (i_min_le _ I s y Gy) as [|(b & l & D & Il & Ib)]; auto. right. exists b, l. split; auto. split; auto.
        apply in_or_app. auto.
    - exact SA.
    - intros NC Bb r t x C. destruct SH as [KK SH]. rewrite SH in C.
      destruct (cell (g_avail g) r t) as [y|] eqn:Cy; [|discriminate]. injection C as <-.
      pose proof (i_cap _ I NC B r t y Cy) as Py.
      destruct (uses p m c r t) eqn:U; [|lia].
      unfold uses in U. apply andb_prop in U as [U1 U2]. apply Nat.leb_le in U1.
      destruct (Nat.ltb_spec t (c + m_duration m)) as [L|L].
      + destruct (F r t (cell_key _ _ _ _ Cy) (conj U1 L)) as (_ & x & n & Cx & Dn & Le).
        rewrite Cy in Cx. injection Cx as <-. unfold amount. rewrite Dn. lia.
      + cbn [orb] in U2. apply andb_prop in U2 as [U2 U3]. apply andb_prop in U2 as [U2 U4].
        apply Nat.ltb_lt in U3, U4.
        apply (BB Bb r t); auto. rewrite SH, Cy. unfold uses. rewrite U2.
        replace (c <=? t) with true by lia. replace (0 <? m_duration m) with true by lia.
        replace (t <? new_horizon p) with true by lia. cbn [andb]. rewrite orb_true_r. reflexivity.
    - intros NN x ex mx c' Ix Mx Lb Pb Lt. apply in_app_or in Ix as [Ix|[[= <- <-]|[]]].
      + destruct (i_early _ I NN x ex mx c' Ix Mx Lb) as (r & t & y & T1 & T2 & T3 & T4).
        * intros b l eb D Il Ib. eapply Pb; eauto. apply in_or_app; auto.
        * exact Lt.
        * exists r, t, y. split; auto. split; auto. split; auto. rewrite others_snoc. cbn [fst].
          destruct (Nat.eqb_spec a x); [now rewrite app_nil_r|]. rewrite total_snoc.
          pose proof (use_nonneg NN (a, e) r t). lia.
      + rewrite M in Mx. injection Mx as <-. replace (e - m_duration m) with c in Lt by (unfold e; lia).
        assert (Lc0 : c0 <= c').
        { destruct (i_min_le _ I a c0 C0) as [D|(b & l & D & Il & Ib)]; [now apply Lb|].
          eapply Pb; eauto. apply in_or_app; auto. }
        destruct (BL c' (conj Lc0 Lt)) as (r & t & x & n & T1 & T2 & T3 & T4 & T5).
        destruct (i_avail _ I) as [_ SI]. rewrite SI in T3.
        destruct (cell (avail_init p) r t) as [y|] eqn:Cy; [|discriminate]. injection T3 as <-.
        exists r, t, y. split; auto. split; auto. split; auto. rewrite others_snoc. cbn [fst].
        rewrite Nat.eqb_refl, app_nil_r, others_absent by auto. unfold amount. rewrite T4. lia.
  Qed.

  Lemma loop_inv : forall fuel g g', inv g -> sgs_loop fuel p me g = Ok g' ->
    inv g' /\ (g_bad g' = false -> g_perm g' = []).
  Proof.
    induction fuel as [|fuel IH]; intros g g' I H; cbn [sgs_loop] in H.
    - destruct (g_perm g) eqn:P; [injection H as <-; auto|].
      destruct (g_bad g) eqn:B; [injection H as <-|discriminate]. split; auto. congruence.
    - destruct (g_perm g) eqn:P; [injection H as <-; auto|].
      destruct (g_bad g) eqn:B; [injection H as <-; split; auto; congruence|].
      apply bind_ok in H as [g1 [S H]]. eapply IH; [|exact H]. eapply step_inv; eauto.
  Qed.

  Lemma start_inv : NoDup pe -> inv (Sgs (avail_init p) mins0 pe [] None false).
  Proof.
    intros N. constructor; cbn; auto; try (intros; contradiction); try discriminate.
    - constructor.
    - tauto.
    - intros s x G. split; [intros x0 D; rewrite G in D; injection D as <-; lia|]. intros; contradiction.
    - eapply shift_ext; [apply shift_refl|]. reflexivity.
  Qed.
End Loop.
