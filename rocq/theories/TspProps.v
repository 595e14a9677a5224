(** C33, C34: tours, their encodings and lengths, and the incremental evaluation of moves. *)
From Coq Require Import List Bool Arith ZArith Lia Permutation.
From Verif Require Import Py PyList PermModel PermProps TspModel TspProofs.
Import ListNotations.

Section TspProps.
Context {P : Type}.
Variable len : P -> P -> Z.
Hypothesis sym : forall p q, len p q = len q p.
(** Used only to read points at positions that exist. *)
Variable p0 : P.
Implicit Types t : tsp (P:=P).

(** * Vocabulary *)

(** The start and end are nodes, and every node has a point. *)
Definition fits t : Prop := t_n t <= length (t_pts t) /\ t_start t < t_n t /\ t_end t < t_n t.
(** Every node other than the start and the end, once. *)
Definition visits t (p : list nat) : Prop :=
  NoDup p /\ forall i, In i p <-> i < t_n t /\ i <> t_start t /\ i <> t_end t.
(** The whole tour of a solution, and its length: the sum of its legs ([legs], in TspProofs). *)
Definition tour (s : sol) : list nat := s_start s :: s_perm s ++ [s_end s].
Definition legs_of t (p : list nat) : list Z := legs (between len p0 t) p.
Definition tour_length t (p : list nat) : Z := sumZ (legs_of t p).
Definition valid t (s : sol) : Prop := visits t (s_perm s) /\ s_start s = t_start t /\ s_end s = t_end t.
(** The lengths stored in the solution are those of its tour. *)
Definition exact t (s : sol) : Prop :=
  s_lengths s = Some (legs_of t (tour s)) /\ s_length s = Some (Fin (tour_length t (tour s))).
(** The 2-opt neighbour: positions [i..j] of the vector in reverse order. *)
Definition neighbour (p : list nat) (i j : nat) : list nat :=
  firstn i p ++ rev (firstn (S j - i) (skipn i p)) ++ skipn (S j) p.

Lemma visits_perm : forall t p, visits t p -> Permutation p (ind_in_permutation t).
Proof.
  intros t p [N H]. apply NoDup_Permutation; auto; [apply ind_NoDup|]. intros i. rewrite ind_In. apply H.
Qed.

Lemma visits_length : forall t p, visits t p -> length p = length_permutation t.
Proof. intros t p H. apply visits_perm in H. now apply Permutation_length in H. Qed.

Lemma perm_visits : forall t p q, visits t p -> Permutation q p -> visits t q.
Proof.
  intros t p q [N H] Q. split.
  - eapply Permutation_NoDup; [apply Permutation_sym; exact Q|exact N].
  - intros i. rewrite <- H. split; apply Permutation_in; [exact Q|now apply Permutation_sym].
Qed.

Lemma visits_pts : forall t p, fits t -> visits t p -> in_pts t p.
Proof. intros t p [F _] [_ H] x I. apply H in I. lia. Qed.

(** * C33 *)

(** The two encodings of a tour convert into one another, in both directions, for every vector of
    positions and every vector of intermediate nodes. *)
Theorem C33_from_positions : forall t f, (forall x, In x f -> x < length_permutation t) ->
  exists p, convert_from0 t f = Ok p /\ convert_to0 t p = Ok f /\ (Permutation f (seq 0 (length_permutation t)) -> visits t p).
Proof.
  intros t f H.
  destruct (shuffle_perm (ind_in_permutation t) (seq 0 (length_permutation t))) as [q [Eq Pq]]; [reflexivity|].
  assert (T : exists p, convert_from0 t f = Ok p).
  { unfold convert_from0. eexists. apply (mapM_total _ (fun x => nth x (ind_in_permutation t) 0)). intros x I.
    apply lget_nth'. apply H. exact I. }
  destruct T as [p E]. exists p. split; auto. split; [now apply convert_inv|]. intros Pf.
  unfold convert_from0 in E. destruct (shuffle_perm (ind_in_permutation t) f Pf) as [p' [E' P']].
  assert (p' = p).
  { enough (Ok p' = Ok p) by congruence. rewrite <- E'. exact E. }
  subst p'. split.
  - eapply Permutation_NoDup; [apply Permutation_sym; exact P'|apply ind_NoDup].
  - intros i. rewrite <- ind_In. split; apply Permutation_in; [exact P'|now apply Permutation_sym].
Qed.

Lemma convert_to0_total : forall t p, (forall i, In i p -> i < t_n t /\ i <> t_start t /\ i <> t_end t) ->
  exists f, convert_to0 t p = Ok f.
Proof.
  intros t. induction p as [|i p IH]; intros H; [exists []; reflexivity|].
  destruct IH as [f E]; [intros; apply H; simpl; auto|].
  assert (I : In i (ind_in_permutation t)) by (apply ind_In, H; simpl; auto).
  apply In_nth_error in I. destruct I as [c I]. apply dict_get in I.
  exists (c :: f). unfold convert_to0 in *. cbn [mapM]. rewrite I. cbn [bind]. rewrite E. reflexivity.
Qed.

Theorem C33_from_nodes : forall t p, (forall i, In i p -> i < t_n t /\ i <> t_start t /\ i <> t_end t) ->
  exists f, convert_to0 t p = Ok f /\ convert_from0 t f = Ok p /\ (visits t p -> Permutation f (seq 0 (length_permutation t))).
Proof.
  intros t p H. destruct (convert_to0_total t p H) as [f E]. exists f. split; auto.
  split; [now apply convert_inv|]. intros V.
  pose proof E as E1. unfold convert_to0 in E1. apply mapM_length in E1. rewrite (visits_length t p V) in E1.
  assert (B : forall x, In x f -> x < length_permutation t).
  { intros x I. apply In_nth_error in I. destruct I as [k K]. destruct (mapM_nth _ _ _ E K) as [y [_ Y]].
    apply dict_get in Y. apply nth_error_Some. congruence. }
  apply NoDup_Permutation_bis; [|rewrite seq_length; lia|intros x I; apply in_seq; apply B in I; lia].
  apply (NoDup_nth_error f). intros a b La Eab.
  destruct (nth_error f a) as [x|] eqn:A; [|apply nth_error_None in A; lia]. symmetry in Eab.
  destruct (mapM_nth _ _ _ E A) as [y [Ya Y]]. destruct (mapM_nth _ _ _ E Eab) as [z [Zb Z]].
  apply dict_get in Y. apply dict_get in Z. assert (y = z) by congruence. subst z.
  destruct V as [ND _]. apply (proj1 (NoDup_nth_error p) ND); [apply nth_error_Some; congruence|congruence].
Qed.

Lemma evaluate_ok : forall t s, fits t -> visits t (s_perm s) -> s_perm s <> [] ->
  s_start s = t_start t -> s_end s = t_end t ->
  exists ls, evaluate len t s = Ok (mkSol (s_start s) (s_end s) (s_perm s) (s_from0 s) (Some ls)
                                          (Some (Fin (tour_length t (tour s)))), tour_length t (tour s)) /\
    (t_numba t = false -> ls = legs_of t (tour s)).
Proof.
  intros t s F V N Ss Se. pose proof F as [F1 [F2 F3]]. unfold evaluate, tour_length, legs_of, tour. rewrite Ss, Se.
  destruct (t_numba t).
  - destruct (compute_length_np_ok len sym p0 t (s_perm s)) as [ls E];
      [now apply visits_pts|lia|lia|now apply visits_length|exact N|].
    rewrite E. cbn [bind fst snd]. exists ls. split; [reflexivity|discriminate].
  - rewrite (compute_length_ok len sym p0 t (s_perm s));
      [|now apply visits_pts|lia|lia|now apply visits_length|exact N].
    cbn [bind fst snd]. eexists. split; reflexivity.
Qed.

(** [evaluate] reports the length of the closed walk start, permutation, end; with the plain evaluation
    it also stores its legs. *)
Theorem C33_evaluate : forall t s, fits t -> valid t s -> s_perm s <> [] ->
  exists s', evaluate len t s = Ok (s', tour_length t (tour s)) /\ tour s' = tour s /\ s_from0 s' = s_from0 s /\
    s_length s' = Some (Fin (tour_length t (tour s))) /\ (t_numba t = false -> exact t s').
Proof.
  intros t s F [V [Ss Se]] N. destruct (evaluate_ok t s F V N Ss Se) as [ls [E L]].
  eexists. split; [exact E|]. split; [reflexivity|]. split; [reflexivity|]. split; [reflexivity|].
  intros U. split; [cbn; now rewrite (L U)|reflexivity].
Qed.

(** A solution built from either encoding holds both encodings of the same tour, and its length. *)
Theorem C33_build : forall t p f, fits t -> visits t p -> p <> [] -> convert_from0 t f = Ok p ->
  forall given_perm given_from0 s, (given_perm = Some p \/ given_perm = None /\ given_from0 = Some f) ->
  (given_from0 = Some f \/ given_from0 = None) ->
  new_solution len t None None given_perm None None given_from0 = Ok s ->
  valid t s /\ s_perm s = p /\ s_from0 s = f /\ s_length s = Some (Fin (tour_length t (tour s))).
Proof.
  intros t p f F V N C gp gf s G1 G2 H.
  assert (R : forall s0, s0 = mkSol (t_start t) (t_end t) p f None None ->
    (let* r := evaluate len t s0 in Ok (fst r)) = Ok s ->
    valid t s /\ s_perm s = p /\ s_from0 s = f /\ s_length s = Some (Fin (tour_length t (tour s)))).
  { intros s0 E0 H0. destruct (evaluate_ok t s0) as [ls [E _]]; try (subst s0; auto; fail).
    rewrite E in H0. injection H0 as <-. subst s0. split; [split; [exact V|split; reflexivity]|]. split; [reflexivity|]. split; reflexivity. }
  pose proof (proj1 (convert_inv t f p) C) as C'.
  destruct gp as [p'|]; destruct gf as [f'|]; cbn [new_solution] in H.
  - destruct G1 as [G1|[G1 _]]; [|discriminate]. destruct G2 as [G2|G2]; [|discriminate].
    injection G1 as ->. injection G2 as ->. eapply R; [reflexivity|]. exact H.
  - destruct G1 as [G1|[G1 _]]; [|discriminate]. injection G1 as ->. cbn [bind] in H. rewrite C' in H. cbn [bind] in H.
    eapply R; [reflexivity|]. exact H.
  - destruct G2 as [G2|G2]; [|discriminate]. injection G2 as ->. rewrite C in H. cbn [bind] in H.
    eapply R; [reflexivity|]. exact H.
  - discriminate.
Qed.

(** It always succeeds. *)
Theorem C33_build_total : forall t p f, fits t -> visits t p -> p <> [] -> convert_from0 t f = Ok p ->
  exists s s', new_solution len t None None (Some p) None None None = Ok s /\
    new_solution len t None None None None None (Some f) = Ok s' /\ s = s'.
Proof.
  intros t p f F V N C. cbn [new_solution bind]. rewrite (proj1 (convert_inv t f p) C), C. cbn [bind].
  destruct (evaluate_ok t (mkSol (t_start t) (t_end t) p f None None) F V N eq_refl eq_refl) as [ls [E _]].
  rewrite E. cbn [bind fst]. eauto.
Qed.

(** Evaluating an encoding gives the length of the tour it encodes. *)
Theorem C33_encoding : forall t f, fits t -> f <> [] -> Permutation f (seq 0 (length_permutation t)) ->
  exists p, convert_from0 t f = Ok p /\ visits t p /\
    evaluate_from_encoding len t f true = Ok (tour_length t (t_start t :: p ++ [t_end t])) /\
    evaluate_from_encoding len t p false = Ok (tour_length t (t_start t :: p ++ [t_end t])).
Proof.
  intros t f F N Pf.
  destruct (C33_from_positions t f) as [p [E1 [E2 V]]].
  { intros x I. apply (Permutation_in _ Pf) in I. apply in_seq in I. lia. }
  specialize (V Pf). exists p. split; auto. split; auto.
  assert (Np : p <> []).
  { intros ->. unfold convert_from0 in E1. apply mapM_length in E1. destruct f; [congruence|discriminate]. }
  unfold evaluate_from_encoding. rewrite E1. cbn [bind new_solution]. rewrite E2. cbn [bind].
  destruct (evaluate_ok t (mkSol (t_start t) (t_end t) p f None None) F V Np eq_refl eq_refl) as [ls [E _]].
  rewrite E. cbn [bind fst].
  match goal with |- context [evaluate len t ?s] => destruct (evaluate_ok t s F V Np eq_refl eq_refl) as [ls' [E' _]] end.
  rewrite E'. split; reflexivity.
Qed.

(** The dummy solution is a tour. *)
Theorem C33_dummy : forall t, fits t -> length_permutation t <> 0 ->
  exists s, dummy len t = Ok s /\ valid t s /\ s_length s = Some (Fin (tour_length t (tour s))) /\
    (t_numba t = false -> exact t s).
Proof.
  intros t F N. assert (V : visits t (ind_in_permutation t)) by (split; [apply ind_NoDup|intros; apply ind_In]).
  assert (Ni : ind_in_permutation t <> []) by (unfold length_permutation in N; destruct (ind_in_permutation t); [cbn in N; congruence|discriminate]).
  destruct (C33_from_nodes t (ind_in_permutation t)) as [f [E1 _]]; [intros; now apply ind_In|].
  unfold dummy. cbn [new_solution bind]. rewrite E1. cbn [bind].
  destruct (evaluate_ok t (mkSol (t_start t) (t_end t) (ind_in_permutation t) f None None) F V Ni eq_refl eq_refl) as [ls [E _]].
  rewrite E. cbn [bind fst].
  match goal with |- context [evaluate len t ?s] => destruct (evaluate_ok t s F V Ni eq_refl eq_refl) as [ls' [E' L']] end.
  rewrite E'. cbn [bind fst]. eexists. split; [reflexivity|]. split; [split; [exact V|split; reflexivity]|]. split; [reflexivity|].
  intros U. split; [cbn; rewrite (L' U); reflexivity|reflexivity].
Qed.

(** Finding: [satisfy] is never true, and is false for every tour (the vector leaves out the start). *)
Theorem C33_satisfy_never : forall t s,
  satisfy t s <> Ok (Some true) /\ (valid t s -> s_perm s <> [] -> satisfy t s = Ok (Some false)).
Proof.
  intros t s. unfold satisfy. split.
  - intros H. apply bind_ok in H. destruct H as [a [_ H]]. destruct (a =? t_start t); [|discriminate].
    apply bind_ok in H. destruct H as [b [_ H]]. destruct (b =? t_end t); discriminate.
  - intros [[_ V] _] N. destruct (s_perm s) as [|a l]; [congruence|]. cbn [lget nth_error bind].
    destruct (Nat.eqb_spec a (t_start t)); auto. destruct (proj1 (V a)) as [_ [Q _]]; [simpl; auto|]. congruence.
Qed.

(** * C34 *)

(** The part of a tour around two positions. *)
Lemma tour_split : forall t s i j, i < j -> j < length (s_perm s) -> length (s_perm s) = length_permutation t ->
  exists A ib x m y ja C,
    tour s = A ++ ib :: x :: m ++ y :: ja :: C /\ length A = i /\ length m = j - i - 1 /\
    s_start s :: neighbour (s_perm s) i j ++ [s_end s] = A ++ ib :: y :: rev m ++ x :: ja :: C /\
    points_index t i j s = Ok (ib, x, y, ja).
Proof.
  intros t s i j Hij Hj L. set (p := s_perm s) in *.
  destruct (nth_error p i) as [x|] eqn:X; [|apply nth_error_None in X; lia].
  destruct (nth_error p j) as [y|] eqn:Y; [|apply nth_error_None in Y; lia].
  destruct (nth_error_split p i X) as [a [r [Ep La]]].
  assert (Yr : nth_error r (j - i - 1) = Some y).
  { rewrite Ep, nth_error_app2 in Y by lia. rewrite La in Y. replace (j - i) with (S (j - i - 1)) in Y by lia. exact Y. }
  destruct (nth_error_split r _ Yr) as [m [c [Er Lm]]]. subst r.
  assert (NN : s_start s :: a <> []) by discriminate.
  destruct (exists_last NN) as [A [ib EA]].
  assert (LA : length A = i).
  { apply (f_equal (@length _)) in EA. rewrite app_length in EA. cbn in EA. lia. }
  assert (Tc : exists ja C, c ++ [s_end s] = ja :: C) by (destruct c; cbn; eauto).
  destruct Tc as [ja [C EC]].
  assert (ET : tour s = A ++ ib :: x :: m ++ y :: ja :: C).
  { unfold tour. fold p. rewrite Ep, <- !app_assoc. cbn [app]. rewrite <- app_assoc. cbn [app]. rewrite EC.
    change (s_start s :: a ++ x :: m ++ y :: ja :: C) with ((s_start s :: a) ++ x :: m ++ y :: ja :: C).
    rewrite EA, <- app_assoc. reflexivity. }
  exists A, ib, x, m, y, ja, C. split; auto. split; auto. split; auto. split.
  - unfold neighbour. change (firstn i p ++ rev (firstn (S j - i) (skipn i p)) ++ skipn (S j) p) with (reverse_part p (i, j)).
    replace p with (a ++ (x :: m ++ [y]) ++ c) by (rewrite Ep; cbn [app]; rewrite <- app_assoc; reflexivity).
    rewrite reverse_part_split; [|exact La|cbn [length]; rewrite app_length; cbn [length]; lia].
    cbn [rev]. rewrite rev_app_distr. cbn [rev app]. rewrite <- !app_assoc. cbn [app]. rewrite <- !app_assoc. cbn [app].
    rewrite EC.
    change (s_start s :: a ++ y :: rev m ++ x :: ja :: C) with ((s_start s :: a) ++ y :: rev m ++ x :: ja :: C).
    rewrite EA, <- app_assoc. reflexivity.
  - unfold points_index. fold p. unfold lget. rewrite X, Y. cbn [bind].
    assert (Tn : forall k, k < length p -> nth_error p k = nth_error (tour s) (S k)).
    { intros k K. unfold tour. fold p. cbn [nth_error]. now rewrite nth_error_app1. }
    assert (IB : (if i =? 0 then Ok (s_start s) else match nth_error p (i - 1) with Some x => Ok x | None => Err IndexError end) = Ok ib).
    { destruct (Nat.eqb_spec i 0) as [E0|N0].
      - destruct A; [|cbn in LA; lia]. unfold tour in ET. cbn in ET. congruence.
      - rewrite Tn by lia. rewrite ET. replace (S (i - 1)) with (length A) by lia.
        rewrite nth_error_app2, Nat.sub_diag by lia. reflexivity. }
    rewrite IB. cbn [bind].
    assert (JA : (if S j =? length_permutation t then Ok (s_end s) else match nth_error p (j + 1) with Some x => Ok x | None => Err IndexError end) = Ok ja).
    { assert (J2 : nth_error (tour s) (S (j + 1)) = Some ja).
      { rewrite ET. rewrite nth_error_app2 by lia. replace (S (j + 1) - length A) with (S (S (length m + 1))) by lia.
        cbn [nth_error]. rewrite nth_error_app2 by lia. replace (length m + 1 - length m) with 1 by lia. reflexivity. }
      destruct (Nat.eqb_spec (S j) (length_permutation t)) as [E0|N0].
      - unfold tour in J2. fold p in J2. cbn [nth_error] in J2. rewrite nth_error_app2 in J2 by lia.
        replace (j + 1 - length p) with 0 in J2 by lia. cbn in J2. congruence.
      - rewrite Tn, J2 by lia. reflexivity. }
    rewrite JA. reflexivity.
Qed.

Notation d t := (between len p0 t).

Lemma dsym : forall t a b, d t a b = d t b a.
Proof. intros. apply between_sym. exact sym. Qed.

Lemma tour_pts : forall t s, fits t -> valid t s -> in_pts t (tour s).
Proof.
  intros t s F [V [Ss Se]] x I. pose proof F as [F1 [F2 F3]]. unfold tour in I. destruct I as [ <- |I]; [lia|].
  apply in_app_or in I. destruct I as [I|[ <- |[]]]; [|lia]. now apply (visits_pts t _ F V).
Qed.

Lemma reverse_ok : forall t s i j ls, fits t -> valid t s -> i < j < length_permutation t ->
  s_lengths s = Some ls -> ls = legs_of t (tour s) ->
  change_of len t s i j = Ok (tour_length t (s_start s :: neighbour (s_perm s) i j ++ [s_end s]) - tour_length t (tour s))%Z /\
  reversed len t s i j = Ok (neighbour (s_perm s) i j, legs_of t (s_start s :: neighbour (s_perm s) i j ++ [s_end s])) /\
  (exists ls', reversed_cut len t s i j = Ok (neighbour (s_perm s) i j, ls')) /\
  visits t (neighbour (s_perm s) i j).
Proof.
  intros t s i j ls F Vs [Hij Hj] Els Eq. pose proof Vs as [V _].
  pose proof (visits_length t _ V) as L.
  destruct (tour_split t s i j) as [A [ib [x [m [y [ja [C [ET [LA [Lm [EN PI]]]]]]]]]]]; [lia|lia|exact L|].
  pose proof (tour_pts t s F Vs) as TP.
  assert (Pib : ib < length (t_pts t)) by (apply TP; rewrite ET; apply in_or_app; simpl; auto).
  assert (Px : x < length (t_pts t)) by (apply TP; rewrite ET; apply in_or_app; simpl; auto).
  assert (Py : y < length (t_pts t)) by (apply TP; rewrite ET; apply in_or_app; right; simpl; right; right; apply in_or_app; simpl; auto).
  assert (Pja : ja < length (t_pts t)) by (apply TP; rewrite ET; apply in_or_app; right; simpl; right; right; apply in_or_app; simpl; auto).
  assert (E1 : legs_of t (tour s) = legs (d t) (A ++ [ib]) ++ d t ib x :: legs (d t) (x :: m ++ [y]) ++ d t y ja :: legs (d t) (ja :: C)).
  { unfold legs_of. rewrite ET. rewrite legs_app2. do 2 f_equal.
    change (x :: m ++ y :: ja :: C) with ((x :: m) ++ y :: ja :: C). rewrite legs_app2. reflexivity. }
  assert (E2 : legs_of t (s_start s :: neighbour (s_perm s) i j ++ [s_end s]) =
               legs (d t) (A ++ [ib]) ++ d t ib y :: rev (legs (d t) (x :: m ++ [y])) ++ d t x ja :: legs (d t) (ja :: C)).
  { unfold legs_of. rewrite EN. rewrite legs_app2. do 2 f_equal.
    change (y :: rev m ++ x :: ja :: C) with ((y :: rev m) ++ x :: ja :: C). rewrite legs_app2. f_equal.
    rewrite <- (legs_rev (d t) (dsym t)). cbn [rev]. rewrite rev_app_distr. reflexivity. }
  assert (LL1 : length (legs (d t) (A ++ [ib])) = i) by (rewrite legs_length, app_length; cbn; lia).
  assert (LL2 : length (legs (d t) (x :: m ++ [y])) = j - i) by (rewrite legs_length; cbn [length]; rewrite app_length; cbn; lia).
  assert (S1 : firstn i ls = legs (d t) (A ++ [ib])).
  { rewrite Eq, E1, firstn_app, firstn_all2 by lia. replace (i - length (legs (d t) (A ++ [ib]))) with 0 by lia. now rewrite app_nil_r. }
  assert (SK : skipn (S i) ls = legs (d t) (x :: m ++ [y]) ++ d t y ja :: legs (d t) (ja :: C)).
  { rewrite Eq, E1, skipn_app, skipn_all2 by lia. replace (S i - length (legs (d t) (A ++ [ib]))) with 1 by lia. reflexivity. }
  assert (S2 : firstn (j - i) (skipn (S i) ls) = legs (d t) (x :: m ++ [y])).
  { rewrite SK, firstn_app, firstn_all2 by lia. replace (j - i - length (legs (d t) (x :: m ++ [y]))) with 0 by lia. now rewrite app_nil_r. }
  assert (S3 : skipn (j + 2) ls = legs (d t) (ja :: C)).
  { replace (j + 2) with (S i + (S (j - i))) by lia. rewrite <- skipn_add, SK, skipn_app, skipn_all2 by lia.
    replace (S (j - i) - length (legs (d t) (x :: m ++ [y]))) with 1 by lia. reflexivity. }
  split.
  { unfold change_of. rewrite PI. cbn [bind]. rewrite !(dist_ok len p0) by assumption. cbn [bind]. f_equal.
    unfold tour_length. rewrite E1, E2, !sumZ_app, !sumZ_cons, !sumZ_app, !sumZ_cons, sumZ_rev. lia. }
  split.
  { unfold reversed. rewrite PI, Els. cbn [bind]. rewrite !(dist_ok len p0) by assumption. cbn [bind]. fold (neighbour (s_perm s) i j).
    rewrite E2, S1, S2, S3. f_equal. f_equal. cbn [app].
    replace (if 0 <? i then legs (d t) (A ++ [ib]) else []) with (legs (d t) (A ++ [ib])).
    2:{ destruct (Nat.ltb_spec 0 i); auto. destruct (legs (d t) (A ++ [ib])); [auto|cbn in LL1; lia]. }
    do 4 f_equal. destruct (Nat.ltb_spec (S j) (length_permutation t)); auto.
    assert (LT : length (tour s) = length_permutation t + 2) by (unfold tour; cbn [length]; rewrite app_length; cbn; lia).
    rewrite ET, app_length in LT. cbn [length] in LT. rewrite app_length in LT. cbn [length] in LT.
    destruct C; [reflexivity|cbn [length] in LT; lia]. }
  split.
  { unfold reversed_cut. rewrite PI, Els. cbn [bind]. rewrite !(dist_ok len p0) by assumption. cbn [bind]. eauto. }
  eapply perm_visits; [exact V|]. unfold neighbour.
  change (firstn i (s_perm s) ++ rev (firstn (S j - i) (skipn i (s_perm s))) ++ skipn (S j) (s_perm s)) with (reverse_part (s_perm s) (i, j)).
  apply reverse_part_perm. lia.
Qed.

(** The search for the best pair. *)
Section Search.
Variables (t : tsp (P:=P)) (s : sol) (it0 jt0 : nat).
Hypothesis F : fits t.
Hypothesis Vs : valid t s.
Hypothesis Xs : exact t s.

Let delta (i j : nat) : Z :=
  (tour_length t (s_start s :: neighbour (s_perm s) i j ++ [s_end s]) - tour_length t (tour s))%Z.

Let Inv (T : list (nat * nat)) (b : nat * nat * num) : Prop :=
  (T = [] /\ b = (it0, jt0, Inf)) \/
  exists i j, b = (i, j, Fin (delta i j)) /\ In (i, j) T /\ forall i' j', In (i', j') T -> (delta i j <= delta i' j')%Z.

Lemma try_pair_inv : forall T b i j, Inv T b -> i < j < length_permutation t ->
  exists b', try_pair len t s i b j = Ok b' /\ Inv (T ++ [(i, j)]) b'.
Proof.
  intros T b i j I H. destruct Xs as [X1 X2].
  destruct (reverse_ok t s i j _ F Vs H X1 eq_refl) as [C _]. fold (delta i j) in C.
  unfold try_pair. rewrite C. cbn [bind].
  destruct I as [[ -> -> ]|[i1 [j1 [ -> [I1 I2]]]]]; cbn [snd num_lt].
  - eexists. split; [reflexivity|]. right. exists i, j. split; auto. split; [simpl; auto|].
    intros i' j' [E|[]]. injection E as <- <-. lia.
  - destruct (Z.ltb_spec (delta i j) (delta i1 j1)).
    + eexists. split; [reflexivity|]. right. exists i, j. split; auto. split; [apply in_or_app; simpl; auto|].
      intros i' j' I'. apply in_app_or in I'. destruct I' as [I'|[E|[]]]; [apply I2 in I'; lia|]. injection E as <- <-. lia.
    + eexists. split; [reflexivity|]. right. exists i1, j1. split; auto. split; [apply in_or_app; auto|].
      intros i' j' I'. apply in_app_or in I'. destruct I' as [I'|[E|[]]]; [now apply I2|]. injection E as <- <-. lia.
Qed.

Lemma try_row_inv : forall js T b i, Inv T b -> (forall j, In j js -> i < j < length_permutation t) ->
  exists b', foldM (try_pair len t s i) b js = Ok b' /\ Inv (T ++ map (pair i) js) b'.
Proof.
  induction js as [|j js IH]; intros T b i I H; [exists b; rewrite app_nil_r; auto|].
  destruct (try_pair_inv T b i j I) as [b1 [E1 I1]]; [apply H; simpl; auto|].
  destruct (IH _ b1 i I1) as [b2 [E2 I2]]; [intros; apply H; simpl; auto|].
  exists b2. cbn [foldM]. rewrite E1. split; [exact E2|]. rewrite <- app_assoc in I2. exact I2.
Qed.

Lemma search_inv : forall jts its T b, Inv T b ->
  (forall i j, In i its -> In j (jts i) -> i < j < length_permutation t) ->
  exists b', foldM (try_row len t s jts) b its = Ok b' /\ Inv (T ++ flat_map (fun i => map (pair i) (jts i)) its) b'.
Proof.
  intros jts. induction its as [|i its IH]; intros T b I H; [exists b; rewrite app_nil_r; auto|].
  destruct (try_row_inv (jts i) T b i I) as [b1 [E1 I1]]; [intros j J; apply H; simpl; auto|].
  destruct (IH _ b1 I1) as [b2 [E2 I2]]; [intros; apply H; simpl; auto|].
  exists b2. cbn [foldM flat_map]. unfold try_row at 1.
  replace (if S i =? length_permutation t then [] else jts i) with (jts i).
  2:{ destruct (Nat.eqb_spec (S i) (length_permutation t)) as [E|]; auto.
      destruct (jts i) as [|j r] eqn:J; auto. specialize (H i j). rewrite J in H. cbn in H. lia. }
  rewrite E1. split; [exact E2|]. now rewrite <- app_assoc in I2.
Qed.

Lemma pairs_inv : forall ps T b, Inv T b -> (forall i j, In (i, j) ps -> i < j < length_permutation t) ->
  exists b', foldM (try_intersection len t s) b ps = Ok b' /\ Inv (T ++ ps) b'.
Proof.
  induction ps as [|[i j] ps IH]; intros T b I H; [exists b; rewrite app_nil_r; auto|].
  destruct (try_pair_inv T b i j I) as [b1 [E1 I1]]; [apply H; simpl; auto|].
  destruct (IH _ b1 I1) as [b2 [E2 I2]]; [intros; apply H; simpl; auto|].
  exists b2. cbn [foldM]. unfold try_intersection at 1. cbn [fst snd]. rewrite E1. split; [exact E2|]. now rewrite <- app_assoc in I2.
Qed.

Lemma search_start : Inv [] (it0, jt0, Inf).
Proof. left. auto. Qed.

Lemma search_end : forall T b, Inv T b -> T <> [] ->
  exists i j, b = (i, j, Fin (delta i j)) /\ In (i, j) T /\ forall i' j', In (i', j') T -> (delta i j <= delta i' j')%Z.
Proof. intros T b [[H _]|H] N; [congruence|exact H]. Qed.

End Search.

(** 2-opt, whatever is drawn, provided one pair at least is tried: the result is a tour, the lengths stored
    and reported are those of that tour, it is not longer than any neighbour tried, and not longer than the
    original when only improvements are asked for. *)
Theorem C34_two_opt : forall t only s it0 jt0 its jts, fits t -> valid t s -> exact t s ->
  it0 < jt0 < length_permutation t ->
  (forall i j, In i its -> In j (jts i) -> i < j < length_permutation t) ->
  (exists i j, In i its /\ In j (jts i)) ->
  exists v, two_opt len t only s it0 jt0 its jts = Ok (v, Fin (tour_length t (tour v))) /\
    valid t v /\ exact t v /\ (v = s \/ convert_to0 t (s_perm v) = Ok (s_from0 v)) /\
    (only = true -> (tour_length t (tour v) <= tour_length t (tour s))%Z) /\
    forall i j, In i its -> In j (jts i) ->
      (tour_length t (tour v) <= tour_length t (s_start s :: neighbour (s_perm s) i j ++ [s_end s]))%Z.
Proof.
  intros t only s it0 jt0 its jts F Vs Xs H0 Hd [i1 [j1 [J1 J2]]].
  pose proof Vs as [V [Ss Se]]. pose proof Xs as [X1 X2].
  destruct (tour_split t s it0 jt0) as [A0 [ib0 [x0 [m0 [y0 [ja0 [C0 [_ [_ [_ [_ PI]]]]]]]]]]];
    [lia|rewrite (visits_length t _ V); lia|now apply visits_length|].
  destruct (search_inv t s it0 jt0 F Vs Xs jts its _ _ (search_start t s it0 jt0) Hd) as [b [Eb Ib]]. cbn [app] in Ib.
  assert (TT : forall i j, In i its -> In j (jts i) -> In (i, j) (flat_map (fun i => map (pair i) (jts i)) its)).
  { intros i j A B. apply in_flat_map. exists i. split; auto. apply in_map_iff. eauto. }
  destruct (search_end t s it0 jt0 _ _ Ib) as [it [jt [ -> [I1 I2]]]].
  { intros E. specialize (TT i1 j1 J1 J2). rewrite E in TT. destruct TT. }
  assert (HI : it < jt < length_permutation t).
  { apply in_flat_map in I1. destruct I1 as [i [A B]]. apply in_map_iff in B. destruct B as [j [B1 B2]]. injection B1 as <- <-. eauto. }
  destruct (reverse_ok t s it jt _ F Vs HI X1 eq_refl) as [_ [R [_ VN]]].
  unfold two_opt. rewrite PI. cbn [bind]. rewrite Eb. cbn [bind]. unfold length_of. rewrite X2. cbn [bind num_add]. rewrite R. cbn [bind fst snd].
  replace (tour_length t (tour s) + (tour_length t (s_start s :: neighbour (s_perm s) it jt ++ [s_end s]) - tour_length t (tour s)))%Z
    with (tour_length t (s_start s :: neighbour (s_perm s) it jt ++ [s_end s])) by lia.
  cbn [num_lt]. destruct (Z.ltb_spec (tour_length t (s_start s :: neighbour (s_perm s) it jt ++ [s_end s]) - tour_length t (tour s)) 0) as [LT|GE].
  - cbn [orb]. destruct (convert_to0_total t (neighbour (s_perm s) it jt)) as [f Ef]; [apply VN|].
    cbn [new_solution bind]. rewrite Ef. cbn [bind].
    exists (mkSol (s_start s) (s_end s) (neighbour (s_perm s) it jt) f (Some (legs_of t (s_start s :: neighbour (s_perm s) it jt ++ [s_end s]))) (Some (Fin (tour_length t (s_start s :: neighbour (s_perm s) it jt ++ [s_end s]))))). split; [reflexivity|]. split; [split; [exact VN|split; [exact Ss|exact Se]]|]. split; [split; reflexivity|].
    split; [right; exact Ef|]. split; [intros _; unfold tour at 1; cbn [s_start s_perm s_end]; lia|].
    intros i j A B. specialize (I2 i j (TT i j A B)). unfold tour at 1. cbn [s_start s_perm s_end]. lia.
  - destruct only; cbn [orb negb].
    + exists s. split; [reflexivity|]. split; auto. split; auto. split; auto. split; [lia|].
      intros i j A B. specialize (I2 i j (TT i j A B)). lia.
    + destruct (convert_to0_total t (neighbour (s_perm s) it jt)) as [f Ef]; [apply VN|].
      cbn [new_solution bind]. rewrite Ef. cbn [bind].
      exists (mkSol (s_start s) (s_end s) (neighbour (s_perm s) it jt) f (Some (legs_of t (s_start s :: neighbour (s_perm s) it jt ++ [s_end s]))) (Some (Fin (tour_length t (s_start s :: neighbour (s_perm s) it jt ++ [s_end s]))))). split; [reflexivity|]. split; [split; [exact VN|split; [exact Ss|exact Se]]|]. split; [split; reflexivity|].
      split; [right; exact Ef|]. split; [discriminate|].
      intros i j A B. specialize (I2 i j (TT i j A B)). unfold tour at 1. cbn [s_start s_perm s_end]. lia.
Qed.

(** Testing all pairs: no longer than any 2-opt neighbour. *)
Theorem C34_two_opt_all : forall t only s it0 jt0, fits t -> valid t s -> exact t s ->
  it0 < jt0 < length_permutation t ->
  exists v, two_opt len t only s it0 jt0 (all_its t) (all_jts t) = Ok (v, Fin (tour_length t (tour v))) /\
    valid t v /\ exact t v /\
    forall i j, i < j < length_permutation t ->
      (tour_length t (tour v) <= tour_length t (s_start s :: neighbour (s_perm s) i j ++ [s_end s]))%Z.
Proof.
  intros t only s it0 jt0 F Vs Xs H0.
  assert (D : forall i j, In i (all_its t) -> In j (all_jts t i) -> i < j < length_permutation t).
  { intros i j A B. unfold all_its, all_jts in *. apply in_seq in A. apply in_seq in B. lia. }
  assert (E : forall i j, i < j < length_permutation t -> In i (all_its t) /\ In j (all_jts t i)).
  { intros i j H. unfold all_its, all_jts. rewrite !in_seq. lia. }
  destruct (C34_two_opt t only s it0 jt0 (all_its t) (all_jts t) F Vs Xs H0 D) as [v [E1 [E2 [E3 [_ [_ E4]]]]]].
  { exists it0, jt0. now apply E. }
  exists v. split; auto. split; auto. split; auto. intros i j H. apply E in H. apply E4; apply H.
Qed.

(** The variant on intersecting legs: the tour and its total length are right (the list of legs is not:
    see C34_intersection_refuted). *)
Theorem C34_intersection : forall t only s pairs, fits t -> valid t s -> exact t s ->
  (forall i j, In (i, j) pairs -> i < j < length_permutation t) ->
  exists v, two_opt_intersection len t only s pairs = Ok (v, Fin (tour_length t (tour v))) /\ valid t v /\
    s_length v = Some (Fin (tour_length t (tour v))) /\
    (only = true -> (tour_length t (tour v) <= tour_length t (tour s))%Z).
Proof.
  intros t only s pairs F Vs Xs Hd. pose proof Vs as [V [Ss Se]]. pose proof Xs as [X1 X2].
  unfold two_opt_intersection. unfold length_of. rewrite X2. cbn [bind].
  destruct pairs as [|[i0 j0] r]; [exists s; split; [reflexivity|]; split; [exact Vs|]; split; [exact X2|]; lia|].
  remember ((i0, j0) :: r) as ps eqn:Eps.
  destruct (pairs_inv t s i0 j0 F Vs Xs ps _ _ (search_start t s i0 j0) Hd) as [b [Eb Ib]]. cbn [app] in Ib.
  destruct (search_end t s i0 j0 _ _ Ib) as [it [jt [ -> [I1 I2]]]]; [rewrite Eps; discriminate|].
  rewrite Eb. cbn [bind num_add]. pose proof (Hd it jt I1) as HI.
  destruct (reverse_ok t s it jt _ F Vs HI X1 eq_refl) as [_ [_ [[ls' R] VN]]]. rewrite R. cbn [bind fst snd].
  replace (tour_length t (tour s) + (tour_length t (s_start s :: neighbour (s_perm s) it jt ++ [s_end s]) - tour_length t (tour s)))%Z
    with (tour_length t (s_start s :: neighbour (s_perm s) it jt ++ [s_end s])) by lia.
  destruct (convert_to0_total t (neighbour (s_perm s) it jt)) as [f Ef]; [apply VN|].
  cbn [num_lt]. destruct (Z.ltb_spec (tour_length t (s_start s :: neighbour (s_perm s) it jt ++ [s_end s]) - tour_length t (tour s)) 0) as [LT|GE].
  - cbn [orb new_solution bind]. rewrite Ef. cbn [bind]. exists (mkSol (s_start s) (s_end s) (neighbour (s_perm s) it jt) f (Some ls') (Some (Fin (tour_length t (s_start s :: neighbour (s_perm s) it jt ++ [s_end s]))))). split; [reflexivity|].
    split; [split; [exact VN|split; [exact Ss|exact Se]]|]. split; [reflexivity|]. intros _. unfold tour at 1. cbn [s_start s_perm s_end]. lia.
  - destruct only; cbn [orb negb].
    + exists s. split; [reflexivity|]. split; [exact Vs|]. split; [exact X2|]. lia.
    + cbn [new_solution bind]. rewrite Ef. cbn [bind]. exists (mkSol (s_start s) (s_end s) (neighbour (s_perm s) it jt) f (Some ls') (Some (Fin (tour_length t (s_start s :: neighbour (s_perm s) it jt ++ [s_end s]))))). split; [reflexivity|].
      split; [split; [exact VN|split; [exact Ss|exact Se]]|]. split; [reflexivity|]. discriminate.
Qed.

Lemma lput_lset : forall B (l : list B) i v, i < length l -> lput l i v = Ok (lset l i v).
Proof. intros B l i v H. unfold lput. destruct (Nat.ltb_spec i (length l)); [auto|lia]. Qed.

(** The swap move: the stored legs and length are those of the new tour, and the same move applied again
    (which is what backtracking does) gives back the original solution. *)
Theorem C34_swap : forall t s i j, fits t -> valid t s -> exact t s -> i < j < length_permutation t ->
  exists s' x y, nth_error (s_perm s) i = Some x /\ nth_error (s_perm s) j = Some y /\
    swap_move len t i j s = Ok s' /\ s_perm s' = lset (lset (s_perm s) i y) j x /\
    valid t s' /\ exact t s' /\ swap_move len t i j s' = Ok s.
Proof.
  assert (G : forall t s i j, fits t -> valid t s -> exact t s -> i < j < length_permutation t ->
    exists s' x y, nth_error (s_perm s) i = Some x /\ nth_error (s_perm s) j = Some y /\
    swap_move len t i j s = Ok s' /\ s_perm s' = lset (lset (s_perm s) i y) j x /\ s_from0 s' = s_from0 s /\
    valid t s' /\ exact t s').
  { intros t s i j F Vs Xs [Hij Hj]. pose proof Vs as [V [Ss Se]]. pose proof Xs as [X1 X2].
    pose proof (visits_length t _ V) as L.
    destruct (nth_error (s_perm s) i) as [x|] eqn:X; [|apply nth_error_None in X; lia].
    destruct (nth_error (s_perm s) j) as [y|] eqn:Y; [|apply nth_error_None in Y; lia].
    set (c := lset (lset (s_perm s) i y) j x).
    set (s1 := mkSol (s_start s) (s_end s) c (s_from0 s) (s_lengths s) (s_length s)).
    assert (Lc : length c = length_permutation t) by (unfold c; rewrite !lset_length; exact L).
    assert (V1 : visits t c) by (eapply perm_visits; [exact V|now apply swap1_perm]).
    assert (Vs1 : valid t s1) by (split; auto).
    destruct (tour_split t s1 i j) as [A [ib [u [m [w [ja [C [ET [LA [Lm [_ PI]]]]]]]]]]]; [lia|cbn; lia|exact Lc|].
    pose proof (tour_pts t s1 F Vs1) as TP1.
    (* positions of the two tours *)
    set (T := tour s). set (T1 := tour s1).
    assert (LT : length T = length_permutation t + 2) by (unfold T, tour; cbn [length]; rewrite app_length; cbn; lia).
    assert (LT1 : length T1 = length_permutation t + 2) by (unfold T1, tour; cbn [length s_perm s1]; rewrite app_length; cbn; lia).
    assert (ET1 : T1 = lset (lset T (S i) y) (S j) x).
    { unfold T1, T, tour. cbn [s_start s_perm s_end s1 lset]. f_equal. unfold c.
      rewrite lset_app1 by lia. rewrite lset_app1 by (rewrite lset_length; lia). reflexivity. }
    assert (Tn : forall k, k < length_permutation t + 2 -> nth_error T k = Some (nth k T 0)) by (intros; apply nth_error_nth'; lia).
    assert (T1n : forall k, k < length_permutation t + 2 -> nth_error T1 k = Some (nth k T1 0)) by (intros; apply nth_error_nth'; lia).
    assert (Txy : nth (S i) T 0 = x /\ nth (S j) T 0 = y).
    { split; apply nth_error_nth; unfold T, tour; cbn [nth_error]; rewrite nth_error_app1 by lia; assumption. }
    assert (T1e : forall k, nth k T1 0 = if k =? S j then x else if k =? S i then y else nth k T 0).
    { intros k. rewrite ET1, !lset_nth, !lset_length, !(Nat.eqb_sym k).
      destruct (Nat.eqb_spec (S j) k); [destruct (Nat.ltb_spec (S j) (length T)); [auto|lia]|].
      destruct (Nat.eqb_spec (S i) k); [destruct (Nat.ltb_spec (S i) (length T)); [auto|lia]|]. reflexivity. }
    assert (cT : forall k, k < length_permutation t -> nth_error c k = Some (nth (S k) T1 0)).
    { intros k K. rewrite <- T1n by lia. unfold T1, tour. cbn [s_start s_perm s_end s1 nth_error]. now rewrite nth_error_app1 by lia. }
    assert (Eib : ib = nth i T1 0).
    { unfold T1. rewrite ET. rewrite app_nth2 by lia. replace (i - length A) with 0 by lia. reflexivity. }
    assert (Eja : ja = nth (j + 2) T1 0).
    { unfold T1. rewrite ET. rewrite app_nth2 by lia. replace (j + 2 - length A) with (S (S (length m + 1))) by lia.
      cbn [nth]. rewrite app_nth2 by lia. replace (length m + 1 - length m) with 1 by lia. reflexivity. }
    set (D := fun k => between len p0 t (nth k T 0) (nth (S k) T 0)).
    set (D1 := fun k => between len p0 t (nth k T1 0) (nth (S k) T1 0)).
    assert (Ln : forall k, k < length_permutation t + 1 -> nth_error (legs_of t T) k = Some (D k)).
    { intros k K. apply legs_nth; apply Tn; lia. }
    assert (L1n : forall k, k < length_permutation t + 1 -> nth_error (legs_of t T1) k = Some (D1 k)).
    { intros k K. apply legs_nth; apply T1n; lia. }
    assert (LL : length (legs_of t T) = length_permutation t + 1) by (unfold legs_of; rewrite legs_length; lia).
    assert (LL1 : length (legs_of t T1) = length_permutation t + 1) by (unfold legs_of; rewrite legs_length; lia).
    assert (ptsT1 : forall k, k < length_permutation t + 2 -> nth k T1 0 < length (t_pts t)).
    { intros k K. apply TP1. apply nth_In. fold T1. lia. }
    exists (mkSol (s_start s) (s_end s) c (s_from0 s) (Some (legs_of t T1)) (Some (Fin (tour_length t T1)))), x, y.
    split; auto. split; auto.
    assert (EL : lset (lset (lset (lset (legs_of t T) i (D1 i)) (i + 1) (D1 (i + 1))) j (D1 j)) (j + 1) (D1 (j + 1)) = legs_of t T1).
    { apply nth_error_ext. intros k. destruct (Nat.lt_ge_cases k (length_permutation t + 1)) as [K|K].
      - rewrite (L1n k K), !lset_nth_error, !lset_length, LL, (Ln k K).
        destruct (Nat.eqb_spec (j + 1) k); [subst k; destruct (Nat.ltb_spec (j + 1) (length_permutation t + 1)); [auto|lia]|].
        destruct (Nat.eqb_spec j k); [subst k; destruct (Nat.ltb_spec j (length_permutation t + 1)); [auto|lia]|].
        destruct (Nat.eqb_spec (i + 1) k); [subst k; destruct (Nat.ltb_spec (i + 1) (length_permutation t + 1)); [auto|lia]|].
        destruct (Nat.eqb_spec i k); [subst k; destruct (Nat.ltb_spec i (length_permutation t + 1)); [auto|lia]|].
        f_equal. unfold D, D1. rewrite !T1e.
        destruct (Nat.eqb_spec k (S j)); [lia|]. destruct (Nat.eqb_spec k (S i)); [lia|].
        destruct (Nat.eqb_spec (S k) (S j)); [lia|]. destruct (Nat.eqb_spec (S k) (S i)); [lia|]. reflexivity.
      - rewrite (proj2 (nth_error_None (legs_of t T1) k)) by lia. apply nth_error_None. rewrite !lset_length. lia. }
    assert (NE : forall k, k < length_permutation t + 1 -> lget (legs_of t T1) k = Ok (D1 k)) by (intros k K; apply lget_ok; auto).
    assert (OE : forall k, k < length_permutation t + 1 -> lget (legs_of t T) k = Ok (D k)) by (intros k K; apply lget_ok; auto).
    assert (CE : forall k, k < length_permutation t -> lget c k = Ok (nth (S k) T1 0)) by (intros k K; apply lget_ok; auto).
    split.
    { unfold swap_move. rewrite (proj2 (lget_ok _ i x) X), (proj2 (lget_ok _ j y) Y). cbn [bind].
      rewrite lput_lset by lia. cbn [bind]. rewrite lput_lset by (rewrite lset_length; lia). cbn [bind]. fold c. fold s1.
      rewrite PI. cbn [bind]. rewrite X1. fold T.
      rewrite (OE i), (OE (i + 1)), (OE j), (OE (j + 1)) by lia. cbn [bind].
      rewrite (CE i), (CE (i + 1)), (CE (j - 1)), (CE j) by lia. cbn [bind].
      rewrite (dist_ok len p0) by (try rewrite Eib; apply ptsT1; lia). cbn [bind]. rewrite lput_lset by lia. cbn [bind].
      rewrite (dist_ok len p0) by (apply ptsT1; lia). cbn [bind]. rewrite lput_lset by (rewrite !lset_length; lia). cbn [bind].
      rewrite (dist_ok len p0) by (apply ptsT1; lia). cbn [bind]. rewrite lput_lset by (rewrite !lset_length; lia). cbn [bind].
      rewrite (dist_ok len p0) by (try rewrite Eja; apply ptsT1; lia). cbn [bind]. rewrite lput_lset by (rewrite !lset_length; lia). cbn [bind].
      replace (between len p0 t ib (nth (S i) T1 0)) with (D1 i) by (unfold D1; now rewrite Eib).
      replace (between len p0 t (nth (S i) T1 0) (nth (S (i + 1)) T1 0)) with (D1 (i + 1)) by (unfold D1; now rewrite Nat.add_1_r).
      replace (between len p0 t (nth (S (j - 1)) T1 0) (nth (S j) T1 0)) with (D1 j) by (unfold D1; do 2 f_equal; lia).
      replace (between len p0 t (nth (S j) T1 0) ja) with (D1 (j + 1)) by (unfold D1; rewrite Eja; do 2 f_equal; lia).
      rewrite EL. rewrite !NE by lia. cbn [bind]. unfold length_of. rewrite X2. cbn [bind num_add].
      do 3 f_equal. f_equal. f_equal.
      (* the sum *)
      assert (ES : sumZ (legs_of t T1) = (sumZ (legs_of t T) + (D1 i + D1 (i + 1)%nat + D1 j + D1 (j + 1)%nat - (D i + D (i + 1)%nat + D j + D (j + 1)%nat)))%Z).
      { rewrite <- EL. destruct (Nat.eq_dec j (i + 1)) as [Ej|Nj].
        - assert (DM : D1 j = D j).
          { unfold D1, D. rewrite !T1e. rewrite Nat.eqb_refl.
            destruct (Nat.eqb_spec j (S j)); [lia|]. destruct (Nat.eqb_spec j (S i)); [|lia].
            destruct Txy as [<- <-]. rewrite (dsym t). do 2 f_equal. lia. }
          rewrite <- Ej. rewrite lset_lset.
          rewrite (sumZ_lset _ _ _ (D (j + 1))) by (rewrite !lset_nth_error; destruct (Nat.eqb_spec j (j + 1)); [lia|]; destruct (Nat.eqb_spec i (j + 1)); [lia|]; apply Ln; lia).
          rewrite (sumZ_lset _ _ _ (D j)) by (rewrite !lset_nth_error; destruct (Nat.eqb_spec i j); [lia|]; apply Ln; lia).
          rewrite (sumZ_lset _ _ _ (D i)) by (apply Ln; lia). lia.
        - rewrite (sumZ_lset _ _ _ (D (j + 1))) by (rewrite !lset_nth_error; destruct (Nat.eqb_spec j (j + 1)); [lia|]; destruct (Nat.eqb_spec (i + 1) (j + 1)); [lia|]; destruct (Nat.eqb_spec i (j + 1)); [lia|]; apply Ln; lia).
          rewrite (sumZ_lset _ _ _ (D j)) by (rewrite !lset_nth_error; destruct (Nat.eqb_spec (i + 1) j); [lia|]; destruct (Nat.eqb_spec i j); [lia|]; apply Ln; lia).
          rewrite (sumZ_lset _ _ _ (D (i + 1))) by (rewrite !lset_nth_error; destruct (Nat.eqb_spec i (i + 1)); [lia|]; apply Ln; lia).
          rewrite (sumZ_lset _ _ _ (D i)) by (apply Ln; lia). lia. }
      unfold tour_length. fold T. rewrite ES. lia. }
    split; [reflexivity|]. split; [reflexivity|]. split; [exact Vs1|]. split; reflexivity. }
  intros t s i j F Vs Xs H. destruct (G t s i j F Vs Xs H) as [s' [x [y [X [Y [E [Ep [Ef [V' X']]]]]]]]].
  exists s', x, y. repeat match goal with |- _ /\ _ => split end; auto.
  destruct (G t s' i j F V' X' H) as [s2 [x2 [y2 [A [B [E2 [Ep2 [Ef2 [V2 X2]]]]]]]]]. rewrite E2. f_equal.
  assert (Pp : s_perm s2 = s_perm s).
  { assert (Q : swap1 (s_perm s) (i, j) = Ok (s_perm s')) by (rewrite Ep; now apply swap1_spec).
    assert (Q2 : swap1 (s_perm s') (i, j) = Ok (s_perm s2)) by (rewrite Ep2; now apply swap1_spec).
    apply swap1_undo in Q. congruence. }
  destruct Vs as [_ [S1 S2]], V' as [_ [S1' S2']], V2 as [_ [S12 S22]], Xs as [L1 L2], X2 as [L12 L22].
  destruct s as [a b p f l1 l2], s2 as [a2 b2 p2 f2 l12 l22]. cbn in *. unfold tour in *. cbn in *. subst. congruence.
Qed.

(** The steps the generators can produce. *)
Definition possible_step t (c : step) : Prop :=
  match c with
  | Swap i j => i < j < length_permutation t
  | TwoOpt _ it0 jt0 its jts => it0 < jt0 < length_permutation t /\
      (forall i j, In i its -> In j (jts i) -> i < j < length_permutation t) /\ exists i j, In i its /\ In j (jts i)
  end.

(** After any run of moves the length kept in the solution is the length of its tour; in particular it is
    what a fresh evaluation reports. *)
Theorem C34_run : forall t cs s, fits t -> valid t s -> exact t s -> Forall (possible_step t) cs ->
  exists s', run_steps len t s cs = Ok s' /\ valid t s' /\ exact t s' /\
    (s_perm s' <> [] -> exists s2, evaluate len t s' = Ok (s2, tour_length t (tour s')) /\
                       s_length s' = Some (Fin (tour_length t (tour s')))).
Proof.
  intros t cs s F Vs Xs H. unfold run_steps.
  assert (G : exists s', foldM (do_step len t) s cs = Ok s' /\ valid t s' /\ exact t s').
  { revert s Vs Xs. induction H as [|c cs Hc H IH]; intros s Vs Xs; [exists s; auto|].
    assert (S1 : exists s1, do_step len t s c = Ok s1 /\ valid t s1 /\ exact t s1).
    { destruct c as [i j|only it0 jt0 its jts]; cbn [do_step possible_step] in *.
      - destruct (C34_swap t s i j F Vs Xs Hc) as [s1 [x [y [_ [_ [E [_ [V1 [X1 _]]]]]]]]]. eauto.
      - destruct Hc as [H1 [H2 H3]]. destruct (C34_two_opt t only s it0 jt0 its jts F Vs Xs H1 H2 H3) as [v [E [V1 [X1 _]]]].
        rewrite E. cbn [bind fst]. eauto. }
    destruct S1 as [s1 [E1 [V1 X1]]]. cbn [foldM]. rewrite E1. cbn [bind]. apply IH; auto. }
  destruct G as [s' [E [V' X']]]. exists s'. split; auto. split; auto. split; auto.
  intros N. destruct (C33_evaluate t s' F V' N) as [s2 [E2 _]]. exists s2. split; auto. apply X'.
Qed.

End TspProps.

(** * Examples and findings *)

(** Points on a line. *)
Definition ex_len (a b : Z) : Z := Z.abs (a - b).
Lemma ex_sym : forall a b, ex_len a b = ex_len b a.
Proof. intros. unfold ex_len. lia. Qed.
Definition ex_t (numba : bool) : tsp := mkTsp [0; 7; 3; 12; 5]%Z 5 0 4 numba.
Definition ex_s : sol :=
  mkSol 0 4 [1; 2; 3] [0; 1; 2] (Some [7; 4; 9; 7]%Z) (Some (Fin 27)).

Example ex_ok : fits (ex_t false) /\ valid (ex_t false) ex_s /\ exact ex_len 0%Z (ex_t false) ex_s /\
  tour_length ex_len 0%Z (ex_t false) (tour ex_s) = 27%Z /\ dummy ex_len (ex_t false) = Ok ex_s.
Proof.
  split; [unfold fits; cbn; lia|]. split; [|repeat split; vm_compute; reflexivity].
  split; [|split; reflexivity]. split; [repeat constructor; cbn; lia|]. intros i. cbn. lia.
Qed.

Example C33_ex : convert_from0 (ex_t false) [2; 0; 1] = Ok [3; 1; 2] /\ convert_to0 (ex_t false) [3; 1; 2] = Ok [2; 0; 1] /\
  Permutation [2; 0; 1] (seq 0 (length_permutation (ex_t false))) /\
  evaluate_from_encoding ex_len (ex_t true) [2; 0; 1] true = Ok 23%Z /\
  evaluate_from_encoding ex_len (ex_t false) [2; 0; 1] true = Ok 23%Z.
Proof. repeat split; try (vm_compute; reflexivity). permt. Qed.

Example C34_ex : let cs := [Swap 0 1; TwoOpt true 0 1 [2; 0] (fun i => if i =? 0 then [2] else []); Swap 1 2; TwoOpt false 1 2 [1] (fun _ => [2])] in
  Forall (possible_step (ex_t false)) cs /\
  exists s, run_steps ex_len (ex_t false) ex_s cs = Ok s /\ s_perm s <> s_perm ex_s /\ s_length s <> s_length ex_s.
Proof.
  cbv zeta. split.
  - apply Forall_cons; [cbn; lia|]. apply Forall_cons.
    { cbn. split; [lia|]. split; [|exists 0, 2; cbn; auto]. intros i j [ <- |[ <- |[]]]; cbn; lia. }
    apply Forall_cons; [cbn; lia|]. apply Forall_cons; [|apply Forall_nil].
    cbn. split; [lia|]. split; [|exists 1, 2; cbn; auto]. intros i j [ <- |[]]; cbn; lia.
  - eexists. split; [vm_compute; reflexivity|]. split; vm_compute; discriminate.
Qed.

(** The compiled evaluation, which is the default, stores wrong legs: their sum is not the length. *)
Theorem C33_numba_legs_refuted : exists (t : tsp) s s' l ls, fits t /\ valid t s /\
  evaluate ex_len t s = Ok (s', l) /\ s_lengths s' = Some ls /\ sumZ ls <> l.
Proof.
  exists (ex_t true), ex_s. do 3 eexists. destruct ex_ok as [F [V _]]. split; [exact F|]. split; [exact V|].
  split; [vm_compute; reflexivity|]. split; [reflexivity|]. vm_compute. discriminate.
Qed.

(** Hence a swap on a freshly evaluated solution then reports a wrong length. *)
Theorem C34_swap_numba_refuted : exists (t : tsp) s s' s2 l2, fits t /\ dummy ex_len t = Ok s /\
  swap_move ex_len t 0 1 s = Ok s' /\ evaluate ex_len t s' = Ok (s2, l2) /\ s_length s' <> Some (Fin l2).
Proof.
  exists (ex_t true). do 4 eexists. split; [apply (proj1 ex_ok)|]. split; [vm_compute; reflexivity|].
  split; [vm_compute; reflexivity|]. split; [vm_compute; reflexivity|]. vm_compute. discriminate.
Qed.

(** Changing the first registered attribute, which the generic mutations use by default, does not change the
    tour that is evaluated. *)
Theorem C33_from0_ignored_refuted : exists (t : tsp) s f p, fits t /\ valid t s /\ Permutation f (s_from0 s) /\
  convert_from0 t f = Ok p /\ p <> s_perm s /\
  rmap snd (evaluate ex_len t (mkSol (s_start s) (s_end s) (s_perm s) f (s_lengths s) (s_length s))) = rmap snd (evaluate ex_len t s) /\
  rmap snd (evaluate ex_len t s) <> evaluate_from_encoding ex_len t f true.
Proof.
  exists (ex_t false), ex_s, [2; 0; 1], [3; 1; 2]. destruct ex_ok as [F [V _]]. split; [exact F|]. split; [exact V|].
  split; [permt|]. split; [reflexivity|]. split; [discriminate|]. split; [vm_compute; reflexivity|]. vm_compute. discriminate.
Qed.

(** The swap move leaves the other encoding as it was. *)
Theorem C34_swap_stale_refuted : exists (t : tsp) s s', fits t /\ valid t s /\ exact ex_len 0%Z t s /\
  convert_to0 t (s_perm s) = Ok (s_from0 s) /\ swap_move ex_len t 0 1 s = Ok s' /\
  convert_to0 t (s_perm s') <> Ok (s_from0 s').
Proof.
  exists (ex_t false), ex_s. eexists. destruct ex_ok as [F [V [X _]]]. split; [exact F|]. split; [exact V|]. split; [exact X|].
  split; [reflexivity|]. split; [vm_compute; reflexivity|]. vm_compute. discriminate.
Qed.

(** When only the last position is drawn no pair is tried: the vector is changed all the same and its length
    is reported infinite. *)
Theorem C34_no_pair_refuted : exists (t : tsp) s v, fits t /\ valid t s /\ exact ex_len 0%Z t s /\
  two_opt ex_len t false s 0 1 [2] (fun _ => []) = Ok (v, Inf) /\ s_perm v <> s_perm s /\ s_length v = Some Inf.
Proof.
  exists (ex_t false), ex_s. eexists. destruct ex_ok as [F [V [X _]]]. split; [exact F|]. split; [exact V|]. split; [exact X|].
  split; [vm_compute; reflexivity|]. split; [discriminate|reflexivity].
Qed.

(** The mutation cannot be built with its default number of tests. *)
Theorem C34_default_tests_fails : forall P (t : tsp (P:=P)), nb_test_of t None = Err TypeError.
Proof. reflexivity. Qed.
(** The mutation cannot be built with its default number of tests. *)
Theorem C34_default_tests_refuted : exists t : tsp (P:=Z), fits t /\ nb_test_of (P:=Z) t None = Err TypeError.
Proof. exists (ex_t false). split; [apply ex_ok|reflexivity]. Qed.
(** Finding: [satisfy] is never true, and is false for every tour (the vector leaves out the start). *)
Theorem C33_satisfy_refuted : exists (t : tsp (P:=Z)) s, fits t /\ valid t s /\ satisfy (P:=Z) t s = Ok (Some false).
Proof. exists (ex_t false), ex_s. split; [apply ex_ok|]. split; [apply ex_ok|reflexivity]. Qed.

(** The variant on intersections loses the legs after the reversed part. *)
Theorem C34_intersection_refuted : exists (t : tsp) s v l, fits t /\ valid t s /\ exact ex_len 0%Z t s /\
  two_opt_intersection ex_len t false s [(0, 1)] = Ok (v, l) /\ s_lengths v <> Some (legs_of ex_len 0%Z t (tour v)).
Proof.
  exists (ex_t false), ex_s. do 2 eexists. destruct ex_ok as [F [V [X _]]]. split; [exact F|]. split; [exact V|]. split; [exact X|].
  split; [vm_compute; reflexivity|]. vm_compute. discriminate.
Qed.

Print Assumptions C33_from_positions.
Print Assumptions C33_from_nodes.
Print Assumptions C33_evaluate.
Print Assumptions C33_build.
Print Assumptions C33_build_total.
Print Assumptions C33_encoding.
Print Assumptions C33_dummy.
Print Assumptions C34_two_opt.
Print Assumptions C34_two_opt_all.
Print Assumptions C34_intersection.
Print Assumptions C34_swap.
Print Assumptions C34_run.
