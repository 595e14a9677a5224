(** C137: generic mutations. *)
From Coq Require Import String List ZArith QArith Bool Arith Lia Lqa Permutation.
From Verif Require Import Py PyList KnapModel KnapProofs SgsModel RobustModel GmutModel GmutSpec GmutProofs.
Import ListNotations.
Local Open Scope nat_scope.

Lemma hit_dec : forall p draws i, hit p draws i \/ ~ hit p draws i.
Proof.
  intros p draws i. unfold hit. destruct (nth_error draws i) as [u|] eqn:E.
  - destruct (Qlt_le_dec p u) as [H|H]; [right|left; eauto]. intros [v [V W]]. injection V as <-. lra.
  - right. intros [v [V _]]. discriminate.
Qed.

(** A bit flip inverts exactly the bits whose number is at most the probability, and undoing the move
    gives the old list back. *)
Theorem C137_flip : forall p draws l, (forall i, hit p draws i -> i < length l) ->
  exists l' idx, bit_mutate p draws l = Ok (l', idx) /\ inverted (hit p draws) l l' /\ flip_back idx l' = Ok l.
Proof.
  intros p draws l B. unfold bit_mutate. set (idx := where_le p draws).
  assert (Bi : forall i, In i idx -> i < length l) by (intros i I; apply B; now apply where_In).
  destruct (flip_all_spec idx l (where_NoDup _ _) Bi) as (l' & F & V). pose proof V as [L _].
  destruct (flip_all_spec idx l' (where_NoDup _ _)) as (l2 & F2 & V2); [intros i I; rewrite L; auto|].
  assert (Eq : l2 = l).
  { apply (inverted_twice (fun i => In i idx) l l' l2); auto.
    intros i. destruct (hit_dec p draws i) as [H|H]; [left|right; intros I; apply H]; now apply where_In. }
  exists l', idx. rewrite F. cbn [bind]. split; auto. split.
  - split; auto. destruct V as [_ V]. intros i x E. destruct (V i x E) as [A C]. split; intros H.
    + apply A. now apply where_In.
    + apply C. intros I. apply H. now apply where_In.
  - unfold flip_back. rewrite F2. now f_equal.
Qed.

(** Bits stay bits. *)
Theorem C137_bits : forall p draws l l' idx, bit_mutate p draws l = Ok (l', idx) ->
  (forall x, In x l -> x = 0%Z \/ x = 1%Z) -> forall x, In x l' -> x = 0%Z \/ x = 1%Z.
Proof.
  intros p draws l l' idx H B.
  assert (R : forall i, hit p draws i -> i < length l).
  { intros i Hi. destruct (Nat.lt_ge_cases i (length l)) as [|G]; auto. exfalso. unfold bit_mutate in H.
    rewrite (flip_err _ _ i) in H; [discriminate|now apply where_In|auto]. }
  destruct (C137_flip p draws l R) as (l2 & idx2 & E & [L V] & _). rewrite H in E. injection E as <- <-.
  intros x I. apply In_nth_error in I as [i E]. destruct (nth_error l i) as [y|] eqn:Y.
  - destruct (V i y Y) as [A C]. assert (Iy : y = 0%Z \/ y = 1%Z) by (apply B; eapply nth_error_In; eauto).
    destruct (hit_dec p draws i) as [Hi|Hi]; [assert (x = 1 - y)%Z by (specialize (A Hi); congruence)|assert (x = y) by (specialize (C Hi); congruence)]; lia.
  - apply nth_error_None in Y. assert (length l' <= i) by lia. apply nth_error_None in H0. congruence.
Qed.

(** A list shorter than the register says is an error as soon as a missing bit is hit. *)
Theorem C137_flip_short : forall p draws l i, hit p draws i -> length l <= i ->
  bit_mutate p draws l = Err IndexError.
Proof.
  intros p draws l i H L. unfold bit_mutate. rewrite (flip_err _ _ i); auto. now apply where_In.
Qed.

Example C137_flip_ex : hit (1#10) [1#20; 1#2; 1#10] 2 /\ ~ hit (1#10) [1#20; 1#2; 1#10] 1 /\
  bit_mutate (1#10) [1#20; 1#2; 1#10] [0; 1; 1]%Z = Ok ([1; 1; 0]%Z, [0; 2]) /\
  flip_back [0; 2] [1; 1; 0]%Z = Ok [0; 1; 1]%Z /\
  bit_mutate (1#10) [1#20; 1#2; 1#10] [0; 1]%Z = Err IndexError.
Proof.
  split; [exists (1#10)%Q; split; [reflexivity|lra]|]. split; [|now split].
  intros [u [E H]]. injection E as <-. lra.
Qed.

(** Without a named attribute, the first attribute declared as a list of booleans is taken, with the
    length declared; without one there is a KeyError. *)
Theorem C137_bit_attribute : forall r, NoDup (dkeys r) ->
  (forall a n, bit_init r None = Ok (a, n) <->
     exists pre e post, r = pre ++ (a, e) :: post /\ In LIST_BOOLEAN (e_types e) /\ e_n e = Some n /\
       forall k e', In (k, e') pre -> ~ In LIST_BOOLEAN (e_types e')) /\
  ((forall k e, In (k, e) r -> ~ In LIST_BOOLEAN (e_types e)) -> bit_init r None = Err KeyError).
Proof.
  intros r N. pose proof (for_type_first r LIST_BOOLEAN) as F. unfold bit_init.
  assert (G : forall pre k e post, r = pre ++ (k, e) :: post -> dgetE r k = Ok e).
  { intros pre k e post ->. unfold dgetE. assert (D : dget (pre ++ (k, e) :: post) k = Some e) by (apply In_dget; auto; apply in_or_app; right; now left). now rewrite D. }
  destruct (for_type r LIST_BOOLEAN) as [|[k e] l].
  - split; [|auto]. intros a n. split; [discriminate|]. intros (pre & e & post & -> & I & _).
    exfalso. apply (F a e); auto. apply in_or_app. right. now left.
  - destruct F as (pre & post & E & I & B). cbn [fst snd] in *. rewrite (G _ _ _ _ E). cbn [bind]. split.
    + intros a n. split.
      * intros H. destruct (e_n e) as [n'|] eqn:En; [|discriminate]. injection H as -> ->. exists pre, e, post. auto.
      * intros (pre' & e' & post' & E' & I' & En & B').
        assert (X : pre' = pre /\ (a, e') = (k, e)).
        { clear - E E' I I' B B'. rewrite E in E'. clear E. revert pre' E' B'. induction pre as [|x pre IH]; intros [|x' pre'] E' B'; cbn in E'.
          - injection E' as -> ->. auto.
          - injection E' as <- _. exfalso. eapply B'; [now left|]; auto.
          - injection E' as -> _. exfalso. eapply B; [now left|]; auto.
          - injection E' as <- E'. destruct (IH (fun k e J => B k e (or_intror J)) pre' E' (fun k e J => B' k e (or_intror J))) as [-> X]. auto. }
        destruct X as [_ X]. injection X as -> ->. now rewrite En.
    + intros H. exfalso. apply (H k e); auto. rewrite E. apply in_or_app. right. now left.
Qed.

Example C137_bit_attribute_ex :
  let knap := [("list_taken", Entry "list_taken" [LIST_BOOLEAN; LIST_BOOLEAN_KNAP] (Some 3) None)]%string in
  bit_init knap None = Ok ("list_taken"%string, 3) /\ bit_init [] None = Err KeyError.
Proof. now split. Qed.

(** Without a named attribute, the first attribute declared as integers of given arities is taken, by
    its name, with the values from one to each arity; without one there is an IndexError. *)
Theorem C137_int_attribute : forall r given,
  (forall a ranges, int_init r None given = Ok (a, ranges) <->
     exists pre k e post ar, r = pre ++ (k, e) :: post /\ In LIST_INTEGER_SPECIFIC_ARRITY (e_types e) /\
       (forall k' e', In (k', e') pre -> ~ In LIST_INTEGER_SPECIFIC_ARRITY (e_types e')) /\
       e_name e = a /\ e_arities e = Some ar /\
       Forall2 (fun n range => NoDup range /\ forall x, In x range <-> 1 <= x <= n) ar ranges /\
       ranges = map (fun n => seq 1 n) ar) /\
  ((forall k e, In (k, e) r -> ~ In LIST_INTEGER_SPECIFIC_ARRITY (e_types e)) -> int_init r None given = Err IndexError).
Proof.
  intros r given. pose proof (for_type_first r LIST_INTEGER_SPECIFIC_ARRITY) as F. unfold int_init.
  assert (G : forall ar, Forall2 (fun n range => NoDup range /\ forall x, In x range <-> 1 <= x <= n) ar (map (fun n => seq 1 n) ar)).
  { induction ar as [|n ar IH]; constructor; auto. split; [apply seq_NoDup|]. intros x. rewrite in_seq. lia. }
  destruct (for_type r LIST_INTEGER_SPECIFIC_ARRITY) as [|[k e] l].
  - cbn [bind]. split; [|auto]. intros a ranges. split; [discriminate|]. intros (pre & k & e & post & ar & -> & I & _).
    exfalso. apply (F k e); auto. apply in_or_app. right. now left.
  - destruct F as (pre & post & E & I & B). cbn [fst snd] in *. split.
    + intros a ranges. split.
      * intros H. destruct (e_arities e) as [ar|] eqn:Ea; [|discriminate]. cbn [bind fst snd] in H. injection H as <- <-.
        exists pre, k, e, post, ar. repeat split; auto.
      * intros (pre' & k' & e' & post' & ar & E' & I' & B' & Nm & Ea & _ & R).
        assert (X : e' = e).
        { clear - E E' I I' B B'. rewrite E in E'. clear E. revert pre' E' B'. induction pre as [|x pre IH]; intros [|x' pre'] E' B'; cbn in E'.
          - now injection E' as -> ->.
          - injection E' as <- _. exfalso. eapply B'; [now left|]; auto.
          - injection E' as -> _. exfalso. eapply B; [now left|]; auto.
          - injection E' as <- E'. exact (IH (fun k e J => B k e (or_intror J)) pre' E' (fun k e J => B' k e (or_intror J))). }
        subst e' ranges. rewrite Ea, Nm. reflexivity.
    + intros H. exfalso. apply (H k e); auto. rewrite E. apply in_or_app. right. now left.
Qed.

(** The integer mutation: the entries whose number is at most the probability get a new value between
    one and their arity (any of them, depending on the generator), the others stay. *)
Theorem C137_integer : forall p draws picks r a ar ranges v,
  int_init r (Some a) (Some ar) = Ok (a, ranges) -> (forall n, In n ar -> 0 < n) -> length ar <= length v ->
  exists v', int_vector p draws picks ranges v = Ok v' /\ length v' = length v /\
    forall k x, nth_error v k = Some x ->
      ((draws k <= p)%Q -> forall n, nth_error ar k = Some n ->
         exists y, nth_error v' k = Some y /\ 1 <= y <= n) /\
      (~ (draws k <= p)%Q \/ length ar <= k -> nth_error v' k = Some x).
Proof.
  intros p draws picks r a ar ranges v H P L. unfold int_init in H. cbn [bind fst snd] in H. injection H as <-.
  unfold int_vector. destruct (int_spec p draws picks ar 0 v) as (v' & F & L' & V); [lia|auto|].
  exists v'. split; auto. split; auto. intros k x E. specialize (V _ _ E). cbn [Nat.leb] in V. rewrite Nat.sub_0_r in V. split.
  - intros D n N. rewrite N in V. apply Qle_bool_iff in D. rewrite D in V.
    assert (0 < n) by (apply P; eapply nth_error_In; eauto).
    pose proof (Nat.mod_upper_bound (picks k) n). eexists. split; [exact V|]. lia.
  - intros [D|D].
    + destruct (Qle_bool (draws k) p) eqn:Q; [apply Qle_bool_iff in Q; contradiction|]. rewrite V. now destruct (nth_error ar k).
    + apply nth_error_None in D. now rewrite D in V.
Qed.

(** Every value of the range can come. *)
Theorem C137_integer_any : forall p draws k v ar n y, nth_error ar k = Some n -> 1 <= y <= n ->
  (forall n, In n ar -> 0 < n) -> length ar <= length v -> (draws k <= p)%Q ->
  exists picks v', int_vector p draws picks (map (fun n => seq 1 n) ar) v = Ok v' /\ nth_error v' k = Some y.
Proof.
  intros p draws k v ar n y N Y P L D. exists (fun _ => y - 1).
  unfold int_vector. destruct (int_spec p draws (fun _ => y - 1) ar 0 v) as (v' & F & L' & V); [lia|auto|].
  exists v'. split; auto.
  assert (Lk : k < length ar) by (apply nth_error_Some; congruence).
  destruct (nth_error v k) as [x|] eqn:E; [|apply nth_error_None in E; lia].
  specialize (V _ _ E). cbn [Nat.leb] in V. rewrite Nat.sub_0_r, N in V. apply Qle_bool_iff in D. rewrite D in V.
  rewrite V. f_equal. rewrite Nat.mod_small; lia.
Qed.

(** On a scheduling solution: a new solution with the same permutation and the old schedule; undoing
    the move gives the old solution. *)
Theorem C137_modes : forall p draws picks ar s sch, s_sched s = Some sch -> length ar <= length (s_modes s) ->
  (forall n, In n ar -> 0 < n) ->
  exists s' mv v, int_mutate p draws picks (map (fun n => seq 1 n) ar) s = Ok (s', mv) /\
    int_vector p draws picks (map (fun n => seq 1 n) ar) (s_modes s) = Ok v /\
    s_modes s' = v /\ s_perm s' = s_perm s /\ s_problem s' = s_problem s /\ s_sched s' = Some sch /\
    default_back mv s' = s /\ default_apply mv s = s'.
Proof.
  intros p draws picks ar s sch S L P. unfold int_mutate, copy_sol, new_sol. rewrite S. cbn [bind s_modes].
  destruct (int_spec p draws picks ar 0 (s_modes s)) as (v & F & _ & _); [lia|auto|].
  unfold int_vector. rewrite F. cbn [bind]. do 3 eexists. repeat split.
Qed.

Example C137_integer_ex :
  int_init [("rcpsp_modes_arrity_fix", Entry "rcpsp_modes" [LIST_INTEGER_SPECIFIC_ARRITY] (Some 3) (Some [2; 1; 3]))]%string None None
    = Ok ("rcpsp_modes"%string, [[1; 2]; [1]; [1; 2; 3]]) /\
  int_vector (1#2) (fun k => if k =? 1 then 1 else 0)%Q (fun k => 5 * k + 1) [[1; 2]; [1]; [1; 2; 3]] [1; 1; 1] = Ok [2; 1; 3] /\
  int_init [] None None = Err IndexError /\ int_init [] (Some "rcpsp_modes"%string) None = Err TypeError.
Proof. now repeat split. Qed.

(** * Portfolios *)

Lemma upto_all : forall w, upto w (length w) = sumQ w.
Proof. induction w as [|x w IH]; cbn; auto. rewrite IH. reflexivity. Qed.

(** A portfolio delegates to the mutation whose share of the weights holds the number drawn: each
    mutation is chosen with a probability in proportion to its weight, and one is always chosen. *)
Theorem C137_portfolio : forall S R (ms : list (S -> res R)) w u, length w = length ms ->
  (forall x, In x w -> 0 <= x)%Q -> (0 < sumQ w)%Q -> (0 <= u)%Q -> (u < 1)%Q ->
  (exists i, i < length ms /\ (upto w i <= u * sumQ w)%Q /\ (u * sumQ w < upto w (1 + i))%Q) /\
  forall i m s, nth_error ms i = Some m ->
    (upto w i <= u * sumQ w)%Q -> (u * sumQ w < upto w (1 + i))%Q -> portfolio ms w u s = m s.
Proof.
  intros S R ms w u L P Sp U0 U1. split.
  - destruct (place_exists w (u * sumQ w)%Q) as (i & Li & A & B); auto.
    + apply Qmult_le_0_compat; lra.
    + setoid_replace (sumQ w) with (1 * sumQ w)%Q at 2 by ring. apply Qmult_lt_compat_r; auto.
    + exists i. rewrite <- L. auto.
  - intros i m s N A B. assert (Li : i < length w) by (rewrite L; apply nth_error_Some; congruence).
    unfold portfolio, normalise. destruct (Qeq_bool (sumQ w) 0) eqn:E; [apply Qeq_bool_iff in E; lra|].
    assert (Nz : ~ (sumQ w == 0)%Q) by lra.
    unfold np_choice. destruct (Nat.eqb_spec (length ms) 0); [lia|]. rewrite map_length, L, Nat.eqb_refl. cbn [negb].
    assert (Dv : forall a, (a / sumQ w * sumQ w == a)%Q) by (intros a; field; auto).
    destruct (existsb _ _) eqn:X.
    { exfalso. apply existsb_exists in X as [y [I Y]]. apply in_map_iff in I as [x [<- I]].
      apply P in I. assert (0 <= x / sumQ w)%Q by (apply Qle_shift_div_l; auto; lra).
      apply Qle_bool_iff in H. rewrite H in Y. discriminate. }
    rewrite (count_place _ 0 u i).
    + cbn [bind]. unfold lget. rewrite N. reflexivity.
    + intros y I. apply in_map_iff in I as [x [<- I]]. apply P in I. apply Qle_shift_div_l; auto. lra.
    + now rewrite map_length.
    + rewrite upto_div by auto. setoid_replace (0 + upto w i / sumQ w)%Q with (upto w i / sumQ w)%Q by ring.
      apply Qle_shift_div_r; auto.
    + rewrite upto_div by auto. setoid_replace (0 + upto w (1 + i) / sumQ w)%Q with (upto w (1 + i) / sumQ w)%Q by ring.
      apply Qlt_shift_div_l; auto.
Qed.

(** Otherwise numpy complains: weights that sum to zero, of another number, or of both signs. *)
Theorem C137_portfolio_errors : forall S R (ms : list (S -> res R)) w u s,
  (sumQ w == 0)%Q \/ length w <> length ms \/
    (0 < sumQ w)%Q /\ (exists x, In x w /\ (x < 0)%Q) ->
  portfolio ms w u s = Err ValueError.
Proof.
  intros S R ms w u s H. unfold portfolio, np_choice, normalise.
  destruct (Nat.eqb_spec (length ms) 0); [reflexivity|].
  destruct (Qeq_bool (sumQ w) 0) eqn:E; [reflexivity|].
  assert (Nz : ~ (sumQ w == 0)%Q) by (intros C; apply Qeq_bool_iff in C; congruence).
  rewrite map_length. destruct (Nat.eqb_spec (length w) (length ms)); [|reflexivity]. cbn [negb].
  destruct H as [H|[H|[Sp [x [I X]]]]]; [contradiction..|].
  destruct (existsb _ _) eqn:B; [reflexivity|]. exfalso.
  assert (T : existsb (fun x => negb (Qle_bool 0 x)) (map (fun x => x / sumQ w)%Q w) = true); [|congruence].
  apply existsb_exists. exists (x / sumQ w)%Q. split; [now apply (in_map (fun x => x / sumQ w)%Q)|].
  destruct (Qle_bool 0 (x / sumQ w)) eqn:Q; auto. exfalso. apply Qle_bool_iff in Q.
  assert (x / sumQ w < 0)%Q by (apply Qlt_shift_div_r; auto; lra). lra.
Qed.

Example C137_portfolio_ex :
  let ms := [(fun x : nat => Ok (x, "a"%string)); (fun x => Ok (x, "b"%string)); (fun x => Ok (x, "c"%string))] in
  portfolio ms [1; 0; 3]%Q (1#5) 7 = Ok (7, "a"%string) /\ portfolio ms [1; 0; 3]%Q (1#4) 7 = Ok (7, "c"%string) /\
  portfolio ms [1; 2]%Q (1#4) 7 = Err ValueError.
Proof. now repeat split. Qed.

(** * The catalogue *)

(** Whatever the order of the set of types, the mutations offered are those catalogued for a type that
    some attribute declares, none twice. *)
Theorem C137_catalogue : forall r present, NoDup present -> (forall t, In t present <-> In t (get_types r)) ->
  NoDup (snd (available present)) /\
  forall name, In name (snd (available present)) <->
    exists k e t names, In (k, e) r /\ In t (e_types e) /\ In (t, names) catalog /\ In name names.
Proof.
  intros r present N E.
  assert (Tq : forall x y, ttype_eqb x y = true <-> x = y) by (intros x y; destruct x, y; cbn; split; congruence).
  assert (In_c : forall t l, in_catalog t = Some l <-> In (t, l) catalog).
  { intros t l. destruct t; cbn; split; intros H; try discriminate; try (injection H as <-; tauto);
      repeat (destruct H as [H|H]; [try discriminate; now injection H as <-|]); try destruct H. }
  assert (Uniq : forall t l t' l' x, In (t, l) catalog -> In (t', l') catalog -> In x l -> In x l' -> t = t').
  { intros t l t' l' x A B.
    cbn in A, B; repeat (destruct A as [A|A]; [injection A as <- <-|]); try destruct A;
    repeat (destruct B as [B|B]; [injection B as <- <-|]); try destruct B; auto;
    cbn; intuition congruence. }
  assert (Nc : forall t l, In (t, l) catalog -> NoDup l).
  { intros t l A. cbn in A; repeat (destruct A as [A|A]; [injection A as <- <-; repeat constructor; cbn; intuition congruence|]); destruct A. }
  assert (G : forall present acc, NoDup present -> NoDup (snd acc) ->
      (forall x, In x (snd acc) -> forall t l, In t present -> In (t, l) catalog -> ~ In x l) ->
      let out := fold_left (fun acc t => match in_catalog t with Some l => (fst acc ++ [(t, l)], snd acc ++ l) | None => acc end) present acc in
      NoDup (snd out) /\ forall x, In x (snd out) <-> In x (snd acc) \/ exists t l, In t present /\ In (t, l) catalog /\ In x l).
  { clear - In_c Uniq Nc. induction present as [|t present IH]; intros acc Np Na D; cbn [fold_left].
    - split; auto. intros x. split; auto. intros [H|(t & l & [] & _)]. exact H.
    - inversion Np as [|? ? Nt Np']; subst. destruct (in_catalog t) as [l|] eqn:C.
      + apply In_c in C. destruct (IH (fst acc ++ [(t, l)], snd acc ++ l)) as [A B]; auto.
        * cbn [snd]. revert Na D. induction (snd acc) as [|y q IHq]; intros Na D; cbn; [eapply Nc; eauto|].
          inversion Na; subst. constructor.
          -- intros I. apply in_app_or in I as [I|I]; [contradiction|]. eapply D; eauto; now left.
          -- apply IHq; auto. intros x I. apply D. now right.
        * cbn [snd]. intros x I t' l' It Ic Ix. apply in_app_or in I as [I|I].
          -- eapply D; eauto. now right.
          -- assert (t = t') by eauto. subst. contradiction.
        * split; auto. intros x. rewrite (B x). cbn [snd]. rewrite in_app_iff. split.
          -- intros [[H|H]|(t' & l' & H1 & H2 & H3)]; auto; right; [exists t, l; repeat split; auto; now left|exists t', l'; repeat split; auto; now right].
          -- intros [H|(t' & l' & [<-|H1] & H2 & H3)]; auto.
             ++ left. right. apply In_c in C. apply In_c in H2. congruence.
             ++ right. eauto.
      + destruct (IH acc) as [A B]; auto.
        * intros x I t' l' It. apply D; auto. now right.
        * split; auto. intros x. rewrite (B x). split.
          -- intros [H|(t' & l' & H1 & H2)]; auto. right. exists t', l'. split; auto. now right.
          -- intros [H|(t' & l' & [<-|H1] & H2 & H3)]; auto.
             ++ apply In_c in H2. congruence.
             ++ right. eauto. }
  destruct (G present ([], [])) as [A B]; [exact N|cbn [snd]; constructor|intros x []|]. split; [exact A|].
  intros name. unfold available. rewrite (B name). cbn [snd]. split.
  - intros [[]|(t & l & I & C & X)]. apply E in I. unfold get_types in I. apply in_flat_map in I as [[k e] [I J]].
    exists k, e, t, l. auto.
  - intros (k & e & t & l & I & J & C & X). right. exists t, l. split; auto. apply E. apply in_flat_map. exists (k, e). auto.
Qed.

Example C137_catalogue_ex :
  let knap := [("list_taken", Entry "list_taken" [LIST_BOOLEAN; LIST_BOOLEAN_KNAP] (Some 3) None)]%string in
  get_types knap = [LIST_BOOLEAN; LIST_BOOLEAN_KNAP] /\
  snd (available [LIST_BOOLEAN_KNAP; LIST_BOOLEAN]) = ["bitflip-kp"; "singlebitflip-kp"; "bitflip"]%string.
Proof. now split. Qed.

(** * Objectives *)

(** The bit flip of a knapsack reports the objectives of the mutated selection, when the solution was
    never evaluated or the problem recomputes values. *)
Theorem C137_knapsack_objective : forall m p draws s s' idx f,
  k_value s = None \/ m_force m = true -> length (m_items m) <= length (k_taken s) ->
  bit_mutate_obj_knap m p draws s = Ok (s', idx, f) ->
  inverted (hit p draws) (k_taken s) (k_taken s') /\
  f = (total it_value (m_items m) (k_taken s'),
       Z.max 0 (total it_weight (m_items m) (k_taken s') - m_cap m)).
Proof.
  intros m p draws s s' idx f C L H. unfold bit_mutate_obj_knap, bit_mutate_knap in H.
  apply bind_ok in H as [[s1 i1] [H1 H]]. apply bind_ok in H1 as [[l' i2] [H1 E]]. injection E as <- <-.
  cbn [fst snd] in H.
  assert (R : forall i, hit p draws i -> i < length (k_taken s)).
  { intros i Hi. destruct (Nat.lt_ge_cases i (length (k_taken s))) as [|G]; auto. exfalso.
    rewrite (C137_flip_short _ _ _ _ Hi G) in H1. discriminate. }
  destruct (C137_flip _ _ _ R) as (l2 & i3 & E & V & _). rewrite H1 in E. injection E as <- <-.
  pose proof V as [L' _].
  rewrite evaluate_fresh in H; [|cbn [k_taken]; lia|cbn [k_value]; auto].
  cbn [bind fst snd k_taken] in H. injection H as <- <- <-. auto.
Qed.

Example C137_knapsack_objective_ex :
  let m := mkModel [mkItem 0 10 5; mkItem 1 40 4; mkItem 2 30 6] 10 false in
  bit_mutate_obj_knap m (1#10) [0; 1; 0]%Q (mkSol None None [1; 1; 0]%Z)
    = Ok (mkSol (Some 70) (Some 10) [0; 1; 1], [0; 2]%nat, (70, 0))%Z.
Proof. reflexivity. Qed.

(** "The bit flip reports the objectives of the solution it returns": not for a knapsack solution
    already evaluated, whose stored value and weight are kept. *)
Theorem C137_bitflip_value_refuted : exists m p draws s s' idx f,
  coherent m s /\ bit_mutate_obj_knap m p draws s = Ok (s', idx, f) /\
  f <> (total it_value (m_items m) (k_taken s'), Z.max 0 (total it_weight (m_items m) (k_taken s') - m_cap m)) /\
  f = (50, 0)%Z /\ total it_value (m_items m) (k_taken s') = 80%Z /\ total it_weight (m_items m) (k_taken s') = 15%Z.
Proof.
  exists (mkModel [mkItem 0 10 5; mkItem 1 40 4; mkItem 2 30 6] 10 false), (1#10)%Q, [1; 1; 0]%Q, (mkSol (Some 50) (Some 9) [1; 1; 0])%Z.
  do 3 eexists. split; [now repeat split|]. split; [reflexivity|]. split; [discriminate|]. now repeat split.
Qed.

(** A shuffled permutation is a rearrangement of the old one, and the objectives reported are those of
    the new permutation with the same modes. *)
Theorem C137_shuffle : forall reserve order s p sch s' mv f, Permutation order (seq 0 (length (s_perm s))) ->
  s_problem s = Some p -> s_sched s = Some sch ->
  with_obj reserve (shuffle_mutate order s) = Ok (s', mv, f) ->
  Permutation (s_perm s') (s_perm s) /\ worth reserve p (s_perm s') (s_modes s) f /\ mv = (s_perm s', s_perm s).
Proof.
  intros reserve order s p sch s' mv f O P S H. unfold with_obj, shuffle_mutate in H.
  apply bind_ok in H as [[s1 mv1] [H1 H]]. apply bind_ok in H1 as [new [Mn H1]].
  unfold lazy_copy, new_sol in H1. rewrite S, P in H1. cbn [bind] in H1. injection H1 as <- <-.
  apply bind_ok in H as [[f' s2] [E H]]. cbn [fst snd] in *. injection H as <- <- <-.
  destruct (stale_worth reserve (set_perm (Rsol (Some p) (s_perm s) (s_modes s) (Some sch) false (s_feas s)) new) p f' s2 eq_refl eq_refl E) as [W Sp]. cbn [set_perm s_perm s_modes] in W, Sp. rewrite Sp.
  split; [|split; auto].
  assert (Ml : new = map (fun i => nth i (s_perm s) 0) order).
  { apply mapM_ok in Mn. clear - Mn. induction Mn as [|i x l l' H M IH]; cbn; auto.
    apply lget_ok in H. apply (nth_error_nth _ _ 0) in H. rewrite H. now f_equal. }
  rewrite Ml. transitivity (map (fun i => nth i (s_perm s) 0) (seq 0 (length (s_perm s)))).
  - now apply Permutation_map.
  - clear. assert (E : map (fun i => nth i (s_perm s) 0) (seq 0 (length (s_perm s))) = s_perm s); [|now rewrite E].
    induction (s_perm s) as [|x l IH]; auto. cbn [length seq map nth]. f_equal. rewrite <- seq_shift, map_map. exact IH.
Qed.

(** The mode mutation of scheduling, then an evaluation: right, when the schedule it started from has
    the first task and another one. *)
Theorem C137_modes_then_evaluate : forall reserve p draws picks ranges s pb sch s' mv f s2,
  s_problem s = Some pb -> s_sched s = Some sch ->
  In 1 (dkeys sch) -> (exists a, In a (dkeys sch) /\ a <> 1) ->
  wrap (int_mutate p draws picks ranges s) = Ok (s', mv) ->
  rcpsp_evaluate reserve s' = Ok (f, s2) ->
  s_perm s' = s_perm s /\ worth reserve pb (s_perm s) (s_modes s') f.
Proof.
  intros reserve p draws picks ranges s pb sch s' mv f s2 P S I1 [a [Ia Na]] H E. unfold wrap, int_mutate in H.
  apply bind_ok in H as [[s1 mv1] [H1 H]]. apply bind_ok in H1 as [c [Hc H1]].
  unfold copy_sol, new_sol in Hc. rewrite S, P in Hc. injection Hc as <-.
  apply bind_ok in H1 as [v [Hv H1]]. injection H1 as <- <-. cbn [fst snd] in H. unfold gen_perm in H. cbn [set_modes s_sched] in H.
  destruct (pymem 1 (dkeys sch)) eqn:M; [|apply pymem_false in M; contradiction].
  destruct (filter (fun a => negb (a =? 1)) (dkeys sch)) eqn:F.
  { exfalso. assert (J : In a (filter (fun a => negb (a =? 1)) (dkeys sch))).
    { apply filter_In. split; auto. apply Nat.eqb_neq in Na. now rewrite Na. }
    rewrite F in J. destruct J. }
  injection H as <- <-. split; [reflexivity|].
  exact (proj1 (stale_worth reserve (mark (set_modes (Rsol (Some pb) (s_perm s) (s_modes s) (Some sch) false (s_feas s)) v)) pb f s2 eq_refl eq_refl E)).
Qed.

(** One task with two modes, of 5 and 2 steps. *)
Definition two_modes := Rcpsp (Constant [("r"%string, 1%Z)]) []
  [(1, [(1, Mode 0 [("r"%string, 0%Z)])]);
   (2, [(1, Mode 5 [("r"%string, 1%Z)]); (2, Mode 2 [("r"%string, 1%Z)])]);
   (3, [(1, Mode 0 [("r"%string, 0%Z)])])]
  [(1, [2]); (2, [3]); (3, [])] 20 1.
Definition no_reserve : option rcpsp -> list nat -> schedule -> option bool -> res Q := fun _ _ _ _ => Ok 0%Q.
Definition slow : rsol :=
  Rsol (Some two_modes) [0] [1] (Some [(1, (0, 0)%Z); (2, (0, 5)%Z); (3, (5, 5)%Z)]) false (Some true).

Example C137_modes_ex : new_sol (Some two_modes) [0] [1] None None = Ok slow /\
  exists s' mv s2, wrap (int_mutate 1 (fun _ => 0%Q) (fun _ => 1) [[1; 2]] slow) = Ok (s', mv) /\
    rcpsp_evaluate no_reserve s' = Ok ([("makespan", 2%Q); ("mean_resource_reserve", 0%Q)]%string, s2) /\
    default_back mv s' = slow.
Proof. split; [vm_compute; reflexivity|]. do 3 eexists. now repeat split. Qed.

Example C137_shuffle_ex : exists s' mv,
  with_obj no_reserve (shuffle_mutate [0] slow) = Ok (s', mv, [("makespan", 5%Q); ("mean_resource_reserve", 0%Q)]%string).
Proof. do 2 eexists. reflexivity. Qed.

(** "The integer mutation reports the objectives of the modes it returns": it evaluates the old
    schedule. *)
Theorem C137_random_flip_refuted : exists reserve p draws picks s s' mv f pb,
  s_problem s = Some pb /\ s_stale s = false /\ new_sol (Some pb) (s_perm s) (s_modes s) None None = Ok s /\
  with_obj reserve (int_mutate p draws picks [[1; 2]] s) = Ok (s', mv, f) /\
  s_modes s' = [2] /\ ~ worth reserve pb (s_perm s') (s_modes s') f /\
  rcpsp_evaluate reserve s' = Ok (f, s').
Proof.
  exists no_reserve, 1%Q, (fun _ => 0%Q), (fun _ => 1), slow. do 4 eexists.
  split; [reflexivity|]. split; [reflexivity|]. split; [vm_compute; reflexivity|]. split; [reflexivity|]. split; [reflexivity|].
  split; [|reflexivity]. intros (m' & sch & flag & last & a & e & r & H & D & M & _ & F).
  vm_compute in H. injection H as <- <- <-. cbn [slow s_sched dget] in F. injection F as F _.
  assert (last = 3).
  { assert (last = 1 \/ last = 2 \/ last = 3) as [-> |[-> | ->]]; auto.
    - apply dget_In in D. cbn in D. intuition congruence.
    - specialize (M 3). cbn in M. lia.
    - specialize (M 3). cbn in M. lia. }
  subst last. vm_compute in D. injection D as <- <-. discriminate.
Qed.

(** "The mutation of modes reports the objectives of the modes it returns": the value reported is that
    of the old schedule; the mark comes after. *)
Theorem C137_mode_objective_refuted : exists reserve p draws picks s s' mv f f' s2,
  new_sol (s_problem s) (s_perm s) (s_modes s) None None = Ok s /\
  wrap_obj reserve (int_mutate p draws picks [[1; 2]] s) = Ok (s', mv, f) /\
  rcpsp_evaluate reserve s' = Ok (f', s2) /\ s_modes s2 = s_modes s' /\ f <> f'.
Proof.
  exists no_reserve, 1%Q, (fun _ => 0%Q), (fun _ => 1), slow. do 5 eexists.
  split; [vm_compute; reflexivity|]. split; [reflexivity|]. split; [reflexivity|]. split; [reflexivity|]. discriminate.
Qed.

(** "A copy has the objectives of the original": the copy of a solution whose schedule is due for
    recomputation takes the old schedule for good. *)
Theorem C137_copy_refuted : exists reserve s mv0 c f f' s1 c1,
  wrap (int_mutate 1 (fun _ => 0%Q) (fun _ => 1) [[1; 2]] slow) = Ok (s, mv0) /\
  copy_sol s = Ok c /\ rcpsp_evaluate reserve s = Ok (f, s1) /\ rcpsp_evaluate reserve c = Ok (f', c1) /\ f <> f'.
Proof.
  exists no_reserve. do 7 eexists. split; [reflexivity|]. split; [reflexivity|]. split; [reflexivity|]. split; [reflexivity|]. discriminate.
Qed.

Print Assumptions C137_flip.
Print Assumptions C137_bits.
Print Assumptions C137_flip_short.
Print Assumptions C137_bit_attribute.
Print Assumptions C137_int_attribute.
Print Assumptions C137_integer.
Print Assumptions C137_integer_any.
Print Assumptions C137_modes.
Print Assumptions C137_portfolio.
Print Assumptions C137_portfolio_errors.
Print Assumptions C137_catalogue.
Print Assumptions C137_knapsack_objective.
Print Assumptions C137_bitflip_value_refuted.
Print Assumptions C137_shuffle.
Print Assumptions C137_modes_then_evaluate.
Print Assumptions C137_random_flip_refuted.
Print Assumptions C137_mode_objective_refuted.
Print Assumptions C137_copy_refuted.
