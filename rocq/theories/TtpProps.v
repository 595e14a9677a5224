(** C133: what the evaluation of a travelling-thief solution says. *)
From Coq Require Import String.
From Coq Require Import List Bool Arith ZArith QArith Permutation Lia Lqa.
From Verif Require Import Py PyList TtpModel TtpSpec TtpProofs.
Import ListNotations.
Open Scope nat_scope.

(** The evaluation of a round trip writes in the solution the profit and the weight of the items taken
    along it, its length, its duration under the load carried on each leg, and the room left; the
    objective is the profit minus the rent for the duration, and is what the call returns. *)
Theorem C133_value : forall root p s d s',
  round_trip (s_tour s) -> inside p (s_tour s) (s_packing s) -> evaluate root p s = Ok (d, s') ->
  d = [("obj"%string, s_objective s')] /\
  s_tour s' = s_tour s /\ s_packing s' = s_packing s /\
  s_profit s' = taken p it_profit (s_packing s) (s_tour s) /\
  s_weight_used s' = taken p it_weight (s_packing s) (s_tour s) /\
  (s_weight_end s' == t_capacity p - inject_Z (taken p it_weight (s_packing s) (s_tour s)))%Q /\
  (s_distance s' == length_of root p (s_tour s))%Q /\
  (s_time s' == duration root p (s_packing s) (s_tour s))%Q /\
  (s_objective s' == inject_Z (taken p it_profit (s_packing s) (s_tour s))
                     - t_rent p * duration root p (s_packing s) (s_tour s))%Q.
Proof.
  intros root p s d s' R I E. unfold evaluate in E. apply bind_ok in E as (o & F & E).
  destruct o as [st|]; [|discriminate]. injection E as <- <-.
  destruct (function_ok root p _ _ I R st F) as (A & B & C & D).
  cbn [s_tour s_packing s_profit s_weight_used s_weight_end s_distance s_time s_objective].
  unfold objective, weight_end. rewrite A, B. repeat split; auto; try reflexivity. rewrite D. ring.
Qed.

(** A round trip through known cities, with positive speeds, no negative weight and room for what is
    taken, is always evaluated. *)
Theorem C133_total : forall root p s,
  round_trip (s_tour s) -> inside p (s_tour s) (s_packing s) -> sensible p (s_packing s) (s_tour s) ->
  exists d s', evaluate root p s = Ok (d, s').
Proof.
  intros root p s R I S. destruct (sensible_total root p _ _ I R S) as (st & E).
  unfold evaluate. rewrite E. cbn [bind]. eauto.
Qed.

(** Its duration lies between the one at full speed and the one at the lowest speed. *)
Theorem C133_bounds : forall root p s d s', (forall x, (0 <= root x)%Q) ->
  round_trip (s_tour s) -> inside p (s_tour s) (s_packing s) -> sensible p (s_packing s) (s_tour s) ->
  evaluate root p s = Ok (d, s') ->
  (s_distance s' / t_max_speed p <= s_time s' <= s_distance s' / t_min_speed p)%Q /\ (0 <= s_weight_end s')%Q.
Proof.
  intros root p s d s' Rt R I S E. destruct (C133_value root p s d s' R I E) as (_ & _ & _ & _ & _ & We & Di & Ti & _).
  destruct (duration_range root p _ _ S Rt) as (L & U). rewrite Di, Ti, We. repeat split; auto.
  destruct S as (_ & _ & _ & _ & S). lra.
Qed.

(** Taking more items on the same tour never shortens the trip nor lightens the knapsack. *)
Theorem C133_more_items : forall root p s1 s2 d1 s1' d2 s2', (forall x, (0 <= root x)%Q) ->
  round_trip (s_tour s1) -> s_tour s2 = s_tour s1 ->
  inside p (s_tour s1) (s_packing s1) -> inside p (s_tour s1) (s_packing s2) ->
  sensible p (s_packing s2) (s_tour s1) ->
  Forall2 (fun a b => a = b \/ ~ In a (map Z.of_nat (s_tour s1))) (s_packing s1) (s_packing s2) ->
  evaluate root p s1 = Ok (d1, s1') -> evaluate root p s2 = Ok (d2, s2') ->
  (s_distance s1' == s_distance s2')%Q /\ (s_time s1' <= s_time s2')%Q /\ (s_weight_used s1' <= s_weight_used s2')%Z /\
  ((forall it, In it (t_items p) -> (0 <= it_profit it)%Z) -> (s_profit s1' <= s_profit s2')%Z) /\
  ((0 <= t_rent p)%Q -> (s_objective s2' - s_objective s1' <= inject_Z (s_profit s2') - inject_Z (s_profit s1'))%Q).
Proof.
  intros root p s1 s2 d1 s1' d2 s2' Rt R T I1 I2 S M E1 E2.
  destruct (C133_value root p s1 d1 s1' R I1 E1) as (_ & _ & _ & Pr1 & We1 & _ & Di1 & Ti1 & Ob1).
  rewrite <- T in R, I2.
  destruct (C133_value root p s2 d2 s2' R I2 E2) as (_ & _ & _ & Pr2 & We2 & _ & Di2 & Ti2 & Ob2).
  rewrite T in *.
  assert (W : forall it, In it (t_items p) -> (0 <= it_weight it)%Z) by apply S.
  assert (L : forall i, (load p (s_packing s1) (s_tour s1) i <= load p (s_packing s2) (s_tour s1) i)%Z).
  { intros i. unfold load. apply (taken_more root p it_weight _ _ _ (s_tour s1)); auto. apply firstn_incl. }
  pose proof (duration_more root p (s_packing s1) (s_packing s2) (s_tour s1) S Rt L) as Du.
  split; [rewrite Di1, Di2; reflexivity|]. split; [rewrite Ti1, Ti2; exact Du|]. split.
  { rewrite We1, We2. apply (taken_more root p it_weight _ _ _ (s_tour s1)); auto. apply incl_refl. }
  split.
  { intros N. rewrite Pr1, Pr2. apply (taken_more root p it_profit _ _ _ (s_tour s1)); auto. apply incl_refl. }
  intros Re. rewrite Ob1, Ob2, Pr1, Pr2. nra.
Qed.

(** Without any item the thief goes at full speed. *)
Theorem C133_no_item : forall root p s d s',
  round_trip (s_tour s) -> inside p (s_tour s) (s_packing s) ->
  (forall x, In x (s_packing s) -> ~ In x (map Z.of_nat (s_tour s))) ->
  evaluate root p s = Ok (d, s') ->
  s_profit s' = 0%Z /\ s_weight_used s' = 0%Z /\
  (s_time s' == s_distance s' / t_max_speed p)%Q /\
  (s_objective s' == - (t_rent p * (s_distance s' / t_max_speed p)))%Q.
Proof.
  intros root p s d s' R I N E. destruct (C133_value root p s d s' R I E) as (_ & _ & _ & Pr & We & _ & Di & Ti & Ob).
  assert (Z0 : forall f cs, incl cs (s_tour s) -> taken p f (s_packing s) cs = 0%Z).
  { intros f cs Inc. unfold taken. rewrite (sumZ_map_ext _ (fun _ => 0%Z)).
    - induction (combine _ _); cbn; auto.
    - intros [x it] J. cbn [fst snd]. destruct (existsb _ cs) eqn:X; [|easy].
      apply existsb_exists in X as (c & K & X). apply Z.eqb_eq in X. exfalso. apply (N x (in_combine_l _ _ _ _ J)).
      rewrite <- X. apply in_map. auto. }
  rewrite Z0 in * by apply incl_refl.
  assert (D : (duration root p (s_packing s) (s_tour s) == length_of root p (s_tour s) / t_max_speed p)%Q).
  { unfold duration, length_of, Qdiv. rewrite <- total_scale. apply total_ext. intros i _. unfold load.
    rewrite Z0 by apply firstn_incl. unfold pace. change (inject_Z 0) with 0%Q.
    setoid_replace (t_max_speed p - 0 * (t_max_speed p - t_min_speed p) / t_capacity p)%Q with (t_max_speed p); [reflexivity|].
    unfold Qdiv. ring. }
  split; [easy|]. split; [easy|]. rewrite Ob, Ti, D, Di. split; [reflexivity|]. change (inject_Z 0) with 0%Q. ring.
Qed.

(** The detailed evaluation gives the same values, and the load with which each city is left. *)
Theorem C133_details : forall root p s v s',
  round_trip (s_tour s) -> inside p (s_tour s) (s_packing s) ->
  evaluate_details root p s = Ok (v, s') ->
  v = s_objective s' /\
  (exists d s0, evaluate root p s = Ok (d, s0) /\ d = [("obj"%string, v)] /\
     s_tour s' = s_tour s0 /\ s_packing s' = s_packing s0 /\ s_time s' = s_time s0 /\ s_distance s' = s_distance s0 /\
     s_profit s' = s_profit s0 /\ s_weight_used s' = s_weight_used s0 /\ s_weight_end s' = s_weight_end s0 /\
     s_objective s' = s_objective s0) /\
  length (s_weight_array s') = legs (s_tour s) /\
  forall k, k < legs (s_tour s) -> nth_error (s_weight_array s') k = Some (load p (s_packing s) (s_tour s) k).
Proof.
  intros root p s v s' R I E. unfold evaluate_details in E. apply bind_ok in E as (o & F & E).
  destruct o as [[st ws]|]; [|discriminate]. injection E as <- <-. split; [easy|].
  destruct (trip_shape _ R) as (c & t & T & La).
  unfold evaluate_function_details in F. rewrite T in F. rewrite <- T in F. rewrite La, Nat.eqb_refl in F. cbn [negb] in F.
  apply bind_ok in F as ([st1 ws1] & F & F'). injection F' as -> ->.
  apply details_fold in F as (ex & -> & F & L & K). cbn [app].
  assert (G : evaluate_function root p (s_tour s) (s_packing s) = Ok (Some st)).
  { unfold evaluate_function. rewrite T, <- T, La, Nat.eqb_refl. cbn [negb]. now rewrite F. }
  split.
  - unfold evaluate. rewrite G. cbn [bind]. eexists _, _. split; [reflexivity|]. easy.
  - cbn [s_weight_array]. rewrite legs_length in L. split; [easy|]. intros k Lk.
    destruct (K k) as (s1 & F1 & N1); [rewrite legs_length; auto|]. rewrite N1.
    destruct (prefix_ok root p _ _ I R (S k) s1 ltac:(lia) F1) as (Wc & _). now rewrite Wc.
  Unshelve. all: auto.
Qed.

(** A tour that does not end where it starts is refused with an exception ... *)
Theorem C133_open_tour : forall root p s c t, s_tour s = c :: t -> last (s_tour s) c <> c ->
  evaluate root p s = Err TypeError.
Proof.
  intros root p s c t T La. unfold evaluate, evaluate_function. rewrite T in *.
  destruct (c =? last (c :: t) c) eqn:X; [apply Nat.eqb_eq in X; congruence|]. easy.
Qed.

(** ... so every tour of the form that the problem declares (a permutation of the row numbers of two
    cities or more) is refused: random solutions, shuffles and the generic solvers all produce these. *)
Theorem C133_declared_tours : forall root p s,
  2 <= fst (register p) -> Permutation (s_tour s) (snd (register p)) -> evaluate root p s = Err TypeError.
Proof.
  intros root p s L P. cbn [register fst snd] in *. pose proof (Permutation_length P) as Le. rewrite seq_length in Le.
  assert (ND : NoDup (s_tour s)) by (eapply Permutation_NoDup; [symmetry; exact P|apply seq_NoDup]).
  destruct (s_tour s) as [|c t] eqn:T; [cbn in Le; lia|].
  apply (C133_open_tour root p s c t T). rewrite T. destruct t as [|b t]; [cbn in Le; lia|].
  apply NoDup_cons_iff in ND as (N & _). intros X. apply N. rewrite <- X.
  change (last (c :: b :: t) c) with (last (b :: t) c).
  destruct (exists_last (l := b :: t)) as (l & a & Ea); [discriminate|]. rewrite Ea, last_last. apply in_or_app. right. now left.
Qed.

(** ** A case: three cities on a line, two items. *)
Definition rt (x : Z) : Q := inject_Z (Z.sqrt x).
Definition thief : ttp :=
  Ttp [(0, 0); (3, 0); (3, 4)]%Z [Item 100 2 1; Item 40 2 2] 4 (1 # 2) 2 10.
Definition trip : tsol := fresh [0; 2; 1; 0] [1; -1]%Z.

Example C133_ex :
  (forall x, (0 <= rt x)%Q) /\ round_trip (s_tour trip) /\ inside thief (s_tour trip) (s_packing trip) /\
  sensible thief (s_packing trip) (s_tour trip) /\ sensible thief [1; 2]%Z (s_tour trip) /\
  taken thief it_profit (s_packing trip) (s_tour trip) = 100%Z /\
  (match evaluate rt thief trip with Ok (_, s') => s_distance s' == 12 /\ s_time s' == 69 # 10 /\ s_objective s' == 31 | _ => False end)%Q /\
  (match evaluate_details rt thief trip with Ok (_, s') => s_weight_array s' = [0; 0; 2]%Z | _ => False end) /\
  evaluate rt thief (fresh [0; 2; 1] [1; -1]%Z) = Err TypeError.
Proof.
  assert (S : forall z, Z.leb (taken thief it_weight z [0; 2; 1; 0]) 4 = true -> sensible thief z [0; 2; 1; 0]).
  { intros z L. unfold sensible. cbn [thief t_min_speed t_max_speed t_capacity t_items]. split; [reflexivity|]. split; [unfold Qle; cbn; lia|].
    split; [reflexivity|]. split; [intros it [<-|[<-|[]]]; cbn; lia|]. apply Z.leb_le in L. change 4%Q with (inject_Z 4). now rewrite <- Zle_Qle. }
  split; [intros x; unfold rt; change 0%Q with (inject_Z 0); rewrite <- Zle_Qle; apply Z.sqrt_nonneg|].
  split; [exists 0, [2; 1]; split; [easy|]; repeat constructor; cbn; intuition lia|].
  split; [split; [intros c J; cbn in *; intuition lia|cbn; lia]|].
  split; [apply S; reflexivity|]. split; [apply S; reflexivity|]. repeat split; reflexivity.
Qed.

(** A solution that is said satisfactory may hold more than the knapsack can: beyond the capacity the
    speed turns negative, so does the duration, and the objective exceeds the profit. *)
Theorem C133_satisfy_refuted : exists root p s d s',
  (forall x, (0 <= root x)%Q) /\ round_trip (s_tour s) /\ inside p (s_tour s) (s_packing s) /\
  (0 < t_rent p)%Q /\ satisfy s = true /\ satisfy s' = true /\
  evaluate root p s = Ok (d, s') /\ (s_weight_end s' < 0)%Q /\ (s_time s' < 0)%Q /\
  (inject_Z (s_profit s') < s_objective s')%Q.
Proof.
  exists rt, (Ttp [(0, 0); (3, 0)]%Z [Item 7 9 0] 4 1 2 10), (fresh [0; 1; 0] [0%Z]).
  eexists _, _. split; [apply C133_ex|].
  split; [exists 0, [1]; split; [easy|]; repeat constructor; cbn; intuition lia|].
  split; [split; [intros c J; cbn in *; intuition lia|cbn; lia]|].
  split; [reflexivity|]. split; [reflexivity|]. split; [|split; [vm_compute; reflexivity|]]; [reflexivity|]. repeat split; reflexivity.
Qed.

(** Or the load stops the thief altogether, and the evaluation divides by zero. *)
Theorem C133_overload_refuted : exists root p s,
  (forall x, (0 <= root x)%Q) /\ round_trip (s_tour s) /\ inside p (s_tour s) (s_packing s) /\
  (0 < t_min_speed p < t_max_speed p)%Q /\ satisfy s = true /\
  evaluate root p s = Err ZeroDivisionError.
Proof.
  exists rt, (Ttp [(0, 0); (3, 0)]%Z [Item 7 8 0] 4 1 2 10), (fresh [0; 1; 0] [0%Z]).
  split; [apply C133_ex|].
  split; [exists 0, [1]; split; [easy|]; repeat constructor; cbn; intuition lia|].
  split; [split; [intros c J; cbn in *; intuition lia|cbn; lia]|]. repeat split; reflexivity.
Qed.

(** An item may be taken in a city where it is not: it is paid for all the same. *)
Theorem C133_elsewhere_refuted : exists root p s d s',
  round_trip (s_tour s) /\ inside p (s_tour s) (s_packing s) /\ sensible p (s_packing s) (s_tour s) /\
  satisfy s = true /\ evaluate root p s = Ok (d, s') /\
  exists it, nth_error (t_items p) 0 = Some it /\ nth_error (s_packing s) 0 = Some 2%Z /\ it_city it = 1 /\
  s_profit s' = it_profit it /\ it_profit it = 100%Z.
Proof.
  exists rt, thief, (fresh [0; 1; 2; 0] [2; -1]%Z). eexists _, _.
  split; [exists 0, [1; 2]; split; [easy|]; repeat constructor; cbn; intuition lia|].
  split; [split; [intros c J; cbn in *; intuition lia|cbn; lia]|].
  split.
  { unfold sensible. cbn [thief t_min_speed t_max_speed t_capacity t_items]. split; [reflexivity|]. split; [unfold Qle; cbn; lia|].
    split; [reflexivity|]. split; [intros it [<-|[<-|[]]]; cbn; lia|]. unfold Qle; vm_compute; discriminate. }
  split; [reflexivity|]. split; [vm_compute; reflexivity|]. eexists. repeat split; reflexivity.
Qed.

(** A closed tour that meets a city twice earns the items of that city twice. *)
Theorem C133_twice_refuted : exists root p s d s',
  inside p (s_tour s) (s_packing s) /\ last (s_tour s) 0 = hd 0 (s_tour s) /\
  satisfy s = true /\ evaluate root p s = Ok (d, s') /\
  s_profit s' = (2 * taken p it_profit (s_packing s) (s_tour s))%Z /\ s_profit s' = 200%Z.
Proof.
  exists rt, thief, (fresh [0; 1; 2; 1; 0] [1; -1]%Z). eexists _, _.
  split; [split; [intros c J; cbn in *; intuition lia|cbn; lia]|].
  split; [reflexivity|]. split; [reflexivity|]. split; [vm_compute; reflexivity|]. repeat split; reflexivity.
Qed.

Print Assumptions C133_value.
Print Assumptions C133_total.
Print Assumptions C133_bounds.
Print Assumptions C133_more_items.
Print Assumptions C133_no_item.
Print Assumptions C133_details.
Print Assumptions C133_open_tour.
Print Assumptions C133_declared_tours.
Print Assumptions C133_satisfy_refuted.
Print Assumptions C133_overload_refuted.
Print Assumptions C133_elsewhere_refuted.
Print Assumptions C133_twice_refuted.
