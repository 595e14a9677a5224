(** C18 (MasterMind) and C19 (rock-paper-scissors). *)
From Coq Require Import String List Bool Arith ZArith QArith Lia Lqa FinFun.
From Verif Require Import Py GamesModel.
Import ListNotations.
Open Scope nat_scope.

(** ** C18 *)
(** Specification of the score: exact matches, and for the colours, the common part of the two
    multisets of pegs minus the exact matches. *)
Definition cnt (c : nat) (l : row) : nat := count_occ Nat.eq_dec l c.
Fixpoint exact (l l' : row) : nat :=
  match l, l' with x :: r, y :: r' => (if x =? y then 1 else 0) + exact r r' | _, _ => 0 end.
Definition common (n_colours : nat) (l l' : row) : nat :=
  list_sum (map (fun c => Nat.min (cnt c l) (cnt c l')) (seq 0 n_colours)).
Definition code (n_colours n_positions : nat) (l : row) : Prop :=
  length l = n_positions /\ forall c, In c l -> c < n_colours.

(** *** lemmas *)
Definition nonbull (g s : row) : list (nat * nat) := filter (fun p => negb (fst p =? snd p)) (combine g s).

Lemma bulls_of_ok : forall g s, length g = length s ->
  bulls_of g s = Ok (map (fun p => fst p =? snd p) (combine g s)).
Proof.
  induction g as [|x g IH]; intros [|y s] L; simpl in *; try lia; auto.
  rewrite IH by lia. reflexivity.
Qed.

Lemma count_exact : forall g s, length g = length s ->
  count_true (map (fun p => fst p =? snd p) (combine g s)) = exact g s.
Proof.
  induction g as [|x g IH]; intros [|y s] L; simpl in *; try lia; auto.
  unfold count_true in *. simpl. destruct (x =? y); simpl; rewrite IH; lia.
Qed.

(** number of pegs of colour [c] that are neither bulls nor marked *)
Fixpoint freec (c : nat) (sol : row) (bulls cows : list bool) : nat :=
  match sol, bulls, cows with
  | s :: ss, b :: bs, k :: ks => (if (c =? s) && negb b && negb k then 1 else 0) + freec c ss bs ks
  | _, _, _ => 0
  end.

Lemma mark_length : forall g sol bulls cows, length (mark g sol bulls cows) = length cows.
Proof.
  induction sol as [|s sol IH]; intros [|b bulls] [|k cows]; simpl; auto.
  destruct ((g =? s) && negb b && negb k); simpl; auto.
Qed.

Lemma mark_spec : forall g sol bulls cows, length sol = length bulls -> length sol = length cows ->
  count_true (mark g sol bulls cows) = count_true cows + Nat.min 1 (freec g sol bulls cows) /\
  (forall c, freec c sol bulls (mark g sol bulls cows) = freec c sol bulls cows - (if c =? g then 1 else 0)).
Proof.
  induction sol as [|s sol IH]; intros [|b bulls] [|k cows] L1 L2; simpl in *; try lia.
  - split; auto. 
  - destruct (IH bulls cows) as [H1 H2]; try lia.
    destruct ((g =? s) && negb b && negb k) eqn:E.
    + apply andb_true_iff in E. destruct E as [E E3]. apply andb_true_iff in E. destruct E as [E1 E2].
      apply Nat.eqb_eq in E1. subst s. apply negb_true_iff in E2, E3. subst b k. split.
      * unfold count_true. simpl. lia.
      * intros c. simpl. rewrite andb_true_r, andb_false_r. destruct (c =? g); simpl; lia.
    + split.
      * unfold count_true in *. simpl. destruct k; simpl; rewrite H1; lia.
      * intros c. simpl. rewrite H2. destruct (c =? g) eqn:Ec; [|lia].
        apply Nat.eqb_eq in Ec. subst c. rewrite E. lia.
Qed.

(** per-colour effect of the whole loop *)
Lemma loop_spec : forall guess gb sol bulls cows,
  length guess = length gb -> length sol = length bulls -> length sol = length cows ->
  let nb := map fst (filter (fun p => negb (snd p)) (combine guess gb)) in
  forall K, (forall c, In c nb -> c < K) ->
  count_true (cows_loop guess gb sol bulls cows) =
    count_true cows + list_sum (map (fun c => Nat.min (cnt c nb) (freec c sol bulls cows)) (seq 0 K)).
Proof.
  assert (Z : forall (f : nat -> nat) l, (forall c, In c l -> f c = 0) -> list_sum (map f l) = 0).
  { intros f l. induction l as [|x l IH]; intros H; simpl; auto. rewrite (H x) by now left.
    rewrite IH; auto. intros c I. apply H. now right. }
  assert (Upd : forall (f f' : nat -> nat) g d l, NoDup l -> In g l -> (forall c, c <> g -> f c = f' c) -> f g = d + f' g ->
     list_sum (map f l) = d + list_sum (map f' l)).
  { intros f f' g d l. induction l as [|x l IH]; intros ND I H1 H2; [destruct I|].
    inversion ND as [|? ? N1 N2]; subst. simpl. destruct I as [ -> |I].
    - rewrite H2. assert (E : list_sum (map f l) = list_sum (map f' l)); [|lia].
      f_equal. apply map_ext_in. intros c Ic. apply H1. intros ->. contradiction.
    - rewrite (H1 x) by (intros ->; contradiction). rewrite IH; auto. lia. }
  induction guess as [|g guess IH]; intros [|b gb] sol bulls cows L1 L2 L3 nb K HK; simpl in L1; try lia.
  - simpl. subst nb. simpl. rewrite Z; auto; lia.
  - cbn [cows_loop]. destruct b.
    + subst nb. simpl in *. apply IH; auto.
    + subst nb. cbn [combine filter snd negb map fst] in *.
      set (nb := map fst (filter (fun p => negb (snd p)) (combine guess gb))) in *.
      destruct (mark_spec g sol bulls cows L2 L3) as [M1 M2].
      rewrite (IH gb sol bulls (mark g sol bulls cows)) with (K := K).
      * rewrite M1. fold nb.
        rewrite <- Nat.add_assoc. f_equal. symmetry. apply Upd with (g := g).
        -- apply seq_NoDup.
        -- apply in_seq. assert (g < K) by (apply HK; now left). lia.
        -- intros c N. rewrite M2. assert (E : (c =? g) = false) by now apply Nat.eqb_neq.
           rewrite E, Nat.sub_0_r. unfold cnt. rewrite count_occ_cons_neq; auto.
        -- rewrite M2, Nat.eqb_refl. unfold cnt. rewrite count_occ_cons_eq; auto. lia.
      * lia.
      * auto.
      * rewrite mark_length. auto.
      * intros c I. apply HK. now right.
Qed.

Lemma freec_init : forall c g s, length g = length s ->
  freec c s (map (fun p => fst p =? snd p) (combine g s)) (map (fun _ => false) g) = cnt c (map snd (nonbull g s)).
Proof.
  intros c. induction g as [|x g IH]; intros [|y s] L; simpl in *; try lia; auto.
  unfold nonbull in *. simpl. rewrite IH by lia. destruct (Nat.eqb_spec x y) as [ -> |N]; simpl.
  - rewrite andb_false_r. reflexivity.
  - rewrite !andb_true_r. destruct (Nat.eqb_spec c y) as [ -> |N'].
    + unfold cnt. simpl. destruct (Nat.eq_dec y y); congruence.
    + unfold cnt. simpl. destruct (Nat.eq_dec y c); congruence.
Qed.

Lemma nb_fst : forall g s, length g = length s ->
  map fst (filter (fun p => negb (snd p)) (combine g (map (fun p => fst p =? snd p) (combine g s)))) = map fst (nonbull g s).
Proof.
  induction g as [|x g IH]; intros [|y s] L; simpl in *; try lia; auto.
  unfold nonbull in *. simpl. destruct (x =? y); simpl; rewrite IH by lia; auto.
Qed.

(** number of bulls of colour [c] *)
Fixpoint bullc (c : nat) (g s : row) : nat :=
  match g, s with x :: r, y :: r' => (if (x =? y) && (x =? c) then 1 else 0) + bullc c r r' | _, _ => 0 end.

Lemma cnt_split : forall c g s, length g = length s ->
  cnt c g = bullc c g s + cnt c (map fst (nonbull g s)) /\ cnt c s = bullc c g s + cnt c (map snd (nonbull g s)).
Proof.
  intros c. induction g as [|x g IH]; intros [|y s] L; simpl in *; try lia; auto.
  destruct (IH s) as [H1 H2]; [lia|]. unfold nonbull, cnt in *. simpl.
  destruct (Nat.eqb_spec x y) as [ -> |N]; simpl.
  - destruct (Nat.eq_dec y c) as [ -> |N']; [rewrite Nat.eqb_refl|destruct (Nat.eqb_spec y c); [contradiction|]]; lia.
  - destruct (Nat.eq_dec x c), (Nat.eq_dec y c); lia.
Qed.

Lemma sum_bullc : forall K g s, length g = length s -> (forall c, In c g -> c < K) ->
  list_sum (map (fun c => bullc c g s) (seq 0 K)) = exact g s.
Proof.
  intros K. induction g as [|x g IH]; intros [|y s] L H; simpl in L; try lia.
  - simpl. induction (seq 0 K); simpl; auto.
  - simpl. assert (E : list_sum (map (fun c => (if (x =? y) && (x =? c) then 1 else 0) + bullc c g s) (seq 0 K)) =
       list_sum (map (fun c => if (x =? y) && (x =? c) then 1 else 0) (seq 0 K)) + list_sum (map (fun c => bullc c g s) (seq 0 K))).
    { clear IH. induction (seq 0 K) as [|k l IHl]; simpl; auto. rewrite IHl. lia. }
    rewrite E, IH by (simpl in *; auto; lia). f_equal.
    destruct (x =? y); simpl; [|clear; induction (seq 0 K); simpl; auto].
    assert (Hx : x < K) by (apply H; now left).
    assert (O : forall l, NoDup l -> list_sum (map (fun c => if x =? c then 1 else 0) l) = if in_dec Nat.eq_dec x l then 1 else 0).
    { induction l as [|k l IHl]; intros ND; [reflexivity|]. inversion ND as [|? ? N1 N2]; subst. cbn [map list_sum fold_right].
      change (fold_right Nat.add 0 (map (fun c => if x =? c then 1 else 0) l)) with (list_sum (map (fun c => if x =? c then 1 else 0) l)).
      rewrite (IHl N2). destruct (Nat.eqb_spec x k) as [ -> |N].
      - destruct (in_dec Nat.eq_dec k l); [contradiction|]. destruct (in_dec Nat.eq_dec k (k :: l)) as [|X]; [lia|]. exfalso. apply X. now left.
      - destruct (in_dec Nat.eq_dec x l) as [I|I]; destruct (in_dec Nat.eq_dec x (k :: l)) as [J|J]; auto.
        + exfalso. apply J. now right.
        + destruct J as [J|J]; [congruence|contradiction]. }
    rewrite O by apply seq_NoDup. destruct (in_dec Nat.eq_dec x (seq 0 K)) as [|N]; auto.
    exfalso. apply N. apply in_seq. lia.
Qed.

Lemma calc_score_nonbull : forall K sol guess, length guess = length sol -> (forall c, In c guess -> c < K) ->
  calc_score sol guess = Ok {| total_bulls := exact guess sol;
    total_cows := list_sum (map (fun c => Nat.min (cnt c (map fst (nonbull guess sol))) (cnt c (map snd (nonbull guess sol)))) (seq 0 K)) |}.
Proof.
  intros K sol guess L H. unfold calc_score. rewrite bulls_of_ok by auto. cbn [bind]. do 2 f_equal.
  - now apply count_exact.
  - rewrite loop_spec with (K := K).
    + rewrite nb_fst by auto.
      assert (C0 : forall A (l : list A), count_true (map (fun _ => false) l) = 0)
        by (induction l; simpl; auto).
      rewrite C0. simpl. f_equal. apply map_ext. intros c. now rewrite freec_init.
    + rewrite map_length, combine_length. lia.
    + rewrite map_length, combine_length. lia.
    + rewrite map_length. auto.
    + rewrite nb_fst by auto. intros c I. apply H. apply in_map_iff in I. destruct I as ([x y] & <- & I).
      apply filter_In in I. destruct I as [I _]. apply in_combine_l in I. exact I.
Qed.

(** The score is the one of the rules of the game. *)
Theorem C18_score : forall n_colours n_positions sol guess,
  code n_colours n_positions sol -> code n_colours n_positions guess ->
  exists sc, calc_score sol guess = Ok sc /\
    total_bulls sc = exact guess sol /\ total_bulls sc + total_cows sc = common n_colours guess sol.
Proof.
  intros K n sol guess [L1 B1] [L2 B2]. assert (L : length guess = length sol) by lia.
  rewrite (calc_score_nonbull K sol guess L B2). eexists. split; [reflexivity|]. cbn [total_bulls total_cows]. split; auto.
  rewrite <- (sum_bullc K guess sol L B2). unfold common.
  induction (seq 0 K) as [|c l IH]; simpl; auto.
  destruct (cnt_split c guess sol L) as [E1 E2]. rewrite E1, E2. rewrite Nat.add_min_distr_l. lia.
Qed.

Lemma exact_sym : forall a b, exact a b = exact b a.
Proof. induction a as [|x a IH]; intros [|y b]; simpl; auto. rewrite IH, Nat.eqb_sym. reflexivity. Qed.

Lemma exact_le : forall a b, exact a b <= length a.
Proof. induction a as [|x a IH]; intros [|y b]; simpl; try lia. specialize (IH b). destruct (x =? y); lia. Qed.

Lemma exact_full : forall a b, length a = length b -> (exact a b = length a <-> a = b).
Proof.
  induction a as [|x a IH]; intros [|y b] L; simpl in *; try lia; [tauto|].
  destruct (Nat.eqb_spec x y) as [ -> |N].
  - split.
    + intros E. f_equal. apply IH; lia.
    + intros E. injection E as ->. simpl. f_equal. now apply IH.
  - split; [|congruence]. pose proof (exact_le a b). lia.
Qed.

Theorem C18_symmetric : forall n_colours n_positions a b,
  code n_colours n_positions a -> code n_colours n_positions b -> calc_score a b = calc_score b a.
Proof.
  intros K n a b Ha Hb.
  destruct (C18_score K n a b Ha Hb) as ([b1 c1] & E1 & X1 & Y1).
  destruct (C18_score K n b a Hb Ha) as ([b2 c2] & E2 & X2 & Y2). cbn in *.
  rewrite E1, E2. assert (b1 = b2) by (rewrite X1, X2; apply exact_sym).
  assert (common K a b = common K b a) by (unfold common; f_equal; apply map_ext; intros; apply Nat.min_comm).
  assert (c1 = c2) by lia. congruence.
Qed.

Lemma sum_cnt : forall K l, (forall c, In c l -> c < K) -> list_sum (map (fun c => cnt c l) (seq 0 K)) = length l.
Proof.
  intros K l H. transitivity (exact l l).
  - rewrite <- (sum_bullc K l l eq_refl H). f_equal. apply map_ext. intros c.
    destruct (cnt_split c l l eq_refl) as [E _]. rewrite E.
    assert (N : nonbull l l = []) by (unfold nonbull; clear; induction l as [|x l IH]; simpl; auto; rewrite Nat.eqb_refl; auto).
    rewrite N. simpl. unfold cnt. simpl. lia.
  - apply exact_full; auto.
Qed.

Theorem C18_bounds : forall n_colours n_positions sol guess sc,
  code n_colours n_positions sol -> code n_colours n_positions guess -> calc_score sol guess = Ok sc ->
  total_bulls sc + total_cows sc <= n_positions /\
  (total_bulls sc = n_positions <-> guess = sol) /\
  (* all pegs right but one: the last one cannot be a cow *)
  (total_bulls sc + 1 = n_positions -> total_cows sc = 0) /\
  (* the goal observation is reached exactly by the right guess *)
  (mm_is_goal n_positions sc = true <-> guess = sol).
Proof.
  intros K n sol guess sc Hs Hg E. pose proof Hs as [L1 B1]. pose proof Hg as [L2 B2].
  destruct (C18_score K n sol guess Hs Hg) as (sc' & E' & X & Y). rewrite E in E'. injection E' as <-.
  assert (L : length guess = length sol) by lia.
  assert (S1 : common K guess sol <= n).
  { rewrite <- L2, <- (sum_cnt K guess B2). unfold common. clear.
    induction (seq 0 K) as [|c l IH]; simpl; auto. lia. }
  assert (EQ : total_bulls sc = n <-> guess = sol) by (rewrite X, <- L2; now apply exact_full).
  split; [lia|]. split; [exact EQ|]. split.
  - intros H1. rewrite (calc_score_nonbull K sol guess L B2) in E. injection E as <-. cbn [total_bulls total_cows] in *.
    assert (Len : length (nonbull guess sol) + exact guess sol = length guess).
    { clear - L. revert sol L. induction guess as [|x g IH]; intros [|y s] L; simpl in *; try lia.
      unfold nonbull in *. simpl. specialize (IH s ltac:(lia)). destruct (x =? y); simpl; lia. }
    destruct (nonbull guess sol) as [|[x y] [|? ?]] eqn:N; simpl in Len; try lia.
    assert (I : In (x, y) (nonbull guess sol)) by (rewrite N; now left).
    apply filter_In in I. destruct I as [_ I]. simpl in I. apply negb_true_iff, Nat.eqb_neq in I.
    simpl. clear - I. induction (seq 0 K) as [|c l IH]; simpl; auto. rewrite IH.
    unfold cnt. simpl. destruct (Nat.eq_dec x c), (Nat.eq_dec y c); simpl; subst; try congruence; lia.
  - unfold mm_is_goal. rewrite andb_true_iff, !Nat.eqb_eq, EQ. split; [tauto|]. intros ->. split; auto.
    assert (total_bulls sc = n) by now apply EQ. lia.
Qed.

(** The hidden solutions are exactly the codes, each listed once. *)
Theorem C18_hidden_solutions : forall n_colours n_positions,
  NoDup (hidden_solutions n_colours n_positions) /\
  (forall l, In l (hidden_solutions n_colours n_positions) <-> code n_colours n_positions l) /\
  length (hidden_solutions n_colours n_positions) = n_colours ^ n_positions.
Proof.
  intros K n. induction n as [|n (IH1 & IH2 & IH3)]; simpl.
  - split; [repeat constructor; auto|]. split; auto. intros l. unfold code. split.
    + intros [ <- |[]]. split; auto. intros c [].
    + intros [L _]. destruct l; [now left|discriminate].
  - split; [|split].
    + clear IH2 IH3. induction (hidden_solutions K n) as [|s l IHl]; simpl; [constructor|].
      inversion IH1 as [|? ? N1 N2]; subst.
      assert (NA : forall (l1 l2 : list row), NoDup l1 -> NoDup l2 -> (forall z, In z l1 -> ~ In z l2) -> NoDup (l1 ++ l2)).
      { induction l1 as [|z l1 IHz]; intros l2 Q1 Q2 Q3; simpl; auto. inversion Q1; subst. constructor.
        - rewrite in_app_iff. intros [Z|Z]; [auto|]. eapply Q3; eauto. now left.
        - apply IHz; auto. intros z' Z. apply Q3. now right. }
      apply NA; auto.
      * apply Injective_map_NoDup; [|apply seq_NoDup]. intros a b E. apply app_inj_tail in E. tauto.
      * intros z Z1 Z2. apply in_map_iff in Z1. destruct Z1 as (c & <- & _). apply in_flat_map in Z2.
        destruct Z2 as (s' & I' & Z2). apply in_map_iff in Z2. destruct Z2 as (c' & E & _).
        apply app_inj_tail in E. destruct E as [ -> _]. contradiction.
    + intros l. rewrite in_flat_map. unfold code in *. split.
      * intros (s & Is & Z). apply in_map_iff in Z. destruct Z as (c & <- & Ic). apply in_seq in Ic.
        apply IH2 in Is. destruct Is as [Is1 Is2]. split; [rewrite app_length; simpl; lia|].
        intros d I. apply in_app_iff in I. destruct I as [I|[ <- |[]]]; auto. lia.
      * intros [L H]. destruct (exists_last (l := l)) as (s & c & ->); [destruct l; discriminate|].
        exists s. rewrite app_length in L. simpl in L. split.
        -- apply IH2. split; [lia|]. intros d I. apply H. apply in_app_iff. auto.
        -- apply in_map_iff. exists c. split; auto. apply in_seq.
           assert (c < K) by (apply H; apply in_app_iff; right; now left). lia.
    + rewrite <- IH3. clear. generalize (hidden_solutions K n). unfold row. intros l.
      induction l as [|s l IHl]; simpl; [lia|].
      rewrite app_length, map_length, seq_length, IHl. simpl. lia.
Qed.

(** The initial distribution is uniform over the codes and has total weight one. *)
Theorem C18_initial_distribution : forall n_colours n_positions, 0 < n_colours ->
  (fold_right (fun p t => snd p + t)%Q 0%Q (mm_initial n_colours n_positions) == 1)%Q /\
  (forall st w, In (st, w) (mm_initial n_colours n_positions) -> (0 < w)%Q /\ code n_colours n_positions (solution st)) /\
  (forall l, code n_colours n_positions l -> exists w, In ({| solution := l; m_score := {| total_bulls := 0; total_cows := 0 |} |}, w) (mm_initial n_colours n_positions)).
Proof.
  intros K n HK. destruct (C18_hidden_solutions K n) as (_ & H2 & H3). unfold mm_initial.
  set (h := hidden_solutions K n) in *. set (m := length h) in *.
  assert (Hm : 0 < m).
  { rewrite H3. clear - HK. induction n as [|n IH]; simpl; [lia|]. nia. }
  assert (Hq : (0 < inject_Z (Z.of_nat m))%Q) by (unfold Qlt; simpl; lia).
  split; [|split].
  - assert (G : forall l : list row, (fold_right (fun p t => snd p + t) 0
       (map (fun s => ({| solution := s; m_score := {| total_bulls := 0; total_cows := 0 |} |}, 1 / inject_Z (Z.of_nat m))) l)
       == inject_Z (Z.of_nat (length l)) * (1 / inject_Z (Z.of_nat m)))%Q).
    { induction l as [|s l IH]; [reflexivity|]. cbn [map fold_right length snd]. rewrite IH, Nat2Z.inj_succ.
      unfold Z.succ. rewrite inject_Z_plus. change (inject_Z 1) with 1%Q. ring. }
    rewrite G. fold m. field. intros X. rewrite X in Hq. discriminate.
  - intros st w I. apply in_map_iff in I. destruct I as (s & E & I). injection E as <- <-. split.
    + unfold Qdiv. rewrite Qmult_1_l. now apply Qinv_lt_0_compat.
    + now apply H2.
  - intros l Hl. eexists. apply in_map_iff. exists l. split; [reflexivity|]. now apply H2.
Qed.

(** Playing: the hidden code never changes, the observation is the score stored in the new state, and
    the state becomes terminal exactly when the code is guessed. *)
Theorem C18_step : forall n_colours n_positions st guess,
  code n_colours n_positions (solution st) -> code n_colours n_positions guess ->
  exists st', mm_next st (Some guess) = Ok st' /\ solution st' = solution st /\
    mm_observation st' (Some guess) = Ok (m_score st') /\
    (mm_is_terminal n_positions st' = true <-> guess = solution st).
Proof.
  intros K n st guess Hs Hg. destruct (C18_score K n _ _ Hs Hg) as (sc & E & _).
  unfold mm_next, mm_observation. rewrite E. eexists. split; [reflexivity|]. cbn [solution m_score].
  split; auto. split; auto. unfold mm_is_terminal. cbn [m_score]. eapply C18_bounds; eauto.
Qed.

Example C18_example : code 3 4 [0; 1; 1; 2] /\ code 3 4 [1; 1; 0; 0] /\
  calc_score [0; 1; 1; 2] [1; 1; 0; 0] = Ok {| total_bulls := 1; total_cows := 2 |} /\
  common 3 [1; 1; 0; 0] [0; 1; 1; 2] = 3.
Proof.
  split; [|split; [|split; reflexivity]]; (split; [reflexivity|simpl; intros c; lia]).
Qed.

(** Finding: the declared observation space [MultiDiscrete([n, n])] misses observations that do occur:
    the winning one for every game, and "all colours right at wrong positions". *)
Theorem C18_observation_space_refuted :
  (forall n_colours n_positions sol st, code n_colours n_positions sol -> solution st = sol ->
     exists sc, mm_observation st (Some sol) = Ok sc /\ mm_in_observation_space n_positions sc = false) /\
  (exists st guess sc, code 2 2 (solution st) /\ code 2 2 guess /\ guess <> solution st /\
     mm_observation st (Some guess) = Ok sc /\ mm_in_observation_space 2 sc = false).
Proof.
  split.
  - intros K n sol st Hs Est. destruct (C18_score K n sol sol Hs Hs) as (sc & E & _). exists sc.
    unfold mm_observation. rewrite Est. split; auto.
    assert (total_bulls sc = n) by (eapply C18_bounds; eauto). unfold mm_in_observation_space.
    rewrite H, Nat.ltb_irrefl. reflexivity.
  - exists {| solution := [0; 1]; m_score := {| total_bulls := 0; total_cows := 0 |} |}, [1; 0]. eexists.
    split; [split; [reflexivity|simpl; intros c; lia]|]. split; [split; [reflexivity|simpl; intros c; lia]|].
    split; [discriminate|]. split; reflexivity.
Qed.

(** ** C19 *)
Open Scope string_scope.
Definition beats (a b : move) : Prop :=
  match a, b with rock, scissors | paper, rock | scissors, paper => True | _, _ => False end.

(** Zero sum, the cyclic rule, and each player observes the move of the opponent. *)
Theorem C19_round : forall max_moves mem m1 m2 extra,
  let action := ("player1", m1) :: ("player2", m2) :: extra in
  exists o r1 r2, rps_step max_moves mem action = Ok o /\
    o_value o = [("player1", r1); ("player2", r2)] /\ (r1 + r2 = 0)%Z /\
    (r1 = 1%Z <-> beats m1 m2) /\ (r2 = 1%Z <-> beats m2 m1) /\ (r1 = 0%Z <-> m1 = m2) /\
    o_num_move o = (mem + 1)%Z /\
    rps_observation (Some action) = Ok [("player1", m2); ("player2", m1)].
Proof.
  intros max_moves mem m1 m2 extra action.
  unfold rps_step, rps_observation, action. simpl. destruct m1, m2; simpl;
    (do 3 eexists; split; [reflexivity|]; cbn; repeat (split; [try reflexivity; try lia; try (split; (discriminate || tauto || reflexivity))|]); reflexivity).
Qed.

(** An episode of enough joint moves lasts exactly [max_moves] rounds (one when [max_moves <= 1]). *)
Definition joint (a : list (string * move)) : Prop :=
  exists m1 m2, dget a "player1" = Some m1 /\ dget a "player2" = Some m2.

Lemma step_joint : forall max_moves mem a, joint a ->
  exists o, rps_step max_moves mem a = Ok o /\ o_num_move o = (mem + 1)%Z /\
            o_termination o = (max_moves <=? mem + 1)%Z.
Proof.
  intros max_moves mem a (m1 & m2 & E1 & E2). unfold rps_step, dgetE. rewrite E1, E2. cbn [bind].
  destruct (rewards m1 m2) as [r1 r2]. eexists. split; [reflexivity|]. auto.
Qed.

Theorem C19_length : forall actions max_moves mem, Forall joint actions -> (0 <= mem)%Z ->
  exists os, rps_play max_moves mem actions = Ok os /\
    List.length os = Nat.min (List.length actions) (Z.to_nat (Z.max 1 (max_moves - mem))) /\
    (forall i o, nth_error os i = Some o -> o_num_move o = (mem + Z.of_nat i + 1)%Z /\
        (o_termination o = true <-> (max_moves <= mem + Z.of_nat i + 1)%Z)).
Proof.
  induction actions as [|a actions IH]; intros max_moves mem F Hm; cbn [rps_play].
  - exists []. split; auto. split; [reflexivity|]. intros [|i] o E; discriminate.
  - inversion F as [|? ? F1 F2]; subst. destruct (step_joint max_moves mem a F1) as (o & E & N & T).
    rewrite E. cbn [bind]. destruct (o_termination o) eqn:B.
    + exists [o]. split; auto. symmetry in T. apply Z.leb_le in T. split.
      * cbn [List.length]. rewrite Z.max_l by lia. change (Z.to_nat 1) with 1. lia.
      * intros [|[|i]] o' E'; try discriminate. simpl in E'. injection E' as <-.
        split; [rewrite N; lia|]. rewrite B. split; auto. lia.
    + symmetry in T. apply Z.leb_gt in T. destruct (IH max_moves (mem + 1)%Z F2 ltac:(lia)) as (os & P1 & P2 & P3).
      rewrite N, P1. cbn [bind]. exists (o :: os). split; auto. split.
      * cbn [List.length]. rewrite P2. lia.
      * intros [|i] o' E'.
        -- simpl in E'. injection E' as <-. split; [rewrite N; lia|]. rewrite B. split; [discriminate|lia].
        -- simpl in E'. destruct (P3 i o' E') as [Q1 Q2]. split; [lia|]. rewrite Q2. lia.
Qed.

(** Starting from reset (no move made): exactly [max_moves] rounds for [max_moves >= 1], and only the
    last one is terminal. *)
Theorem C19_ends_on_time : forall n actions, Forall joint actions -> S n <= List.length actions ->
  exists os, rps_play (Z.of_nat (S n)) 0 actions = Ok os /\ List.length os = S n /\
    forall i o, nth_error os i = Some o -> (o_termination o = true <-> i = n).
Proof.
  intros n actions F L. destruct (C19_length actions (Z.of_nat (S n)) 0 F ltac:(lia)) as (os & P1 & P2 & P3).
  exists os. split; auto. assert (Len : List.length os = S n) by lia. split; auto.
  intros i o E. destruct (P3 i o E) as [_ Q]. rewrite Q.
  assert (i < List.length os) by (apply nth_error_Some; congruence). lia.
Qed.

(** Over a whole game the rewards of the two players cancel. *)
Definition reward_of (pl : string) (o : rps_outcome) : Z := match dget (o_value o) pl with Some r => r | None => 0%Z end.
Theorem C19_game_zero_sum : forall actions max_moves mem os, rps_play max_moves mem actions = Ok os ->
  (sumZ (map (reward_of "player1") os) + sumZ (map (reward_of "player2") os) = 0)%Z.
Proof.
  assert (R : forall max_moves mem a o, rps_step max_moves mem a = Ok o -> (reward_of "player1" o + reward_of "player2" o = 0)%Z).
  { intros max_moves mem a o E. unfold rps_step, dgetE in E. destruct (dget a "player1") as [m1|]; [|discriminate].
    destruct (dget a "player2") as [m2|]; [|discriminate]. cbn [bind] in E.
    destruct (rewards m1 m2) as [r1 r2] eqn:Er. injection E as <-. unfold reward_of. simpl.
    destruct m1, m2; injection Er as <- <-; reflexivity. }
  induction actions as [|a actions IH]; intros max_moves mem os E; cbn [rps_play] in E.
  - injection E as <-. reflexivity.
  - destruct (rps_step max_moves mem a) as [o|e] eqn:Es; [|discriminate]. cbn [bind] in E. pose proof (R _ _ _ _ Es).
    destruct (o_termination o).
    + injection E as <-. simpl. lia.
    + destruct (rps_play max_moves (o_num_move o) actions) as [os'|e] eqn:Ep; [|discriminate]. injection E as <-.
      specialize (IH _ _ _ Ep). simpl. lia.
Qed.

Example C19_example : let a m1 m2 := [("player1", m1); ("player2", m2)] in
  Forall joint [a rock paper; a paper paper; a scissors paper; a rock rock] /\
  exists os, rps_play 3 0 [a rock paper; a paper paper; a scissors paper; a rock rock] = Ok os /\
    map o_termination os = [false; false; true] /\ map (reward_of "player1") os = [-1; 0; 1]%Z.
Proof.
  cbv zeta. split.
  - repeat constructor; unfold joint; simpl; eauto.
  - eexists. split; [reflexivity|]. split; reflexivity.
Qed.

Print Assumptions C18_score.
Print Assumptions C18_symmetric.
Print Assumptions C18_bounds.
Print Assumptions C18_hidden_solutions.
Print Assumptions C18_initial_distribution.
Print Assumptions C18_step.
Print Assumptions C18_observation_space_refuted.
Print Assumptions C19_round.
Print Assumptions C19_length.
Print Assumptions C19_ends_on_time.
Print Assumptions C19_game_zero_sum.
