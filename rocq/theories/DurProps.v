(** C80: task durations; C81: membership questions; C82: cached spaces; C83: time windows and lags. *)
From Coq Require Import List Bool Arith ZArith QArith Lia Lqa.
From Verif Require Import Py PyMore DistModel DistProps DurModel.
Import ListNotations.
Open Scope Z_scope.

(** * C80 *)

Lemma dgetE_some : forall (K V : Type) (EK : PyEq K) (d : list (K * V)) k v, dgetE d k = Ok v -> dget d k = Some v.
Proof. intros K V EK d k v. unfold dgetE. destruct (dget d k); congruence. Qed.

Definition key_of (c : call) : nat * nat * Z := match c with Sample t m p | Latest t m p => (t, m, p) end.

Lemma memo_get_set : forall m t md p v t' md' p', memo_get (memo_set m t md p v) t' md' p' =
  if Nat.eqb t t' && Nat.eqb md md' && Z.eqb p p' then Some v else memo_get m t' md' p'.
Proof.
  intros m t md p v t' md' p'. unfold memo_get, memo_set. rewrite dget_dset.
  destruct (pyeqb_spec t t') as [E|N].
  - subst t'. rewrite Nat.eqb_refl. cbn [andb]. rewrite dget_dset. destruct (pyeqb_spec md md') as [E|N].
    + subst md'. rewrite Nat.eqb_refl. cbn [andb]. rewrite dget_dset. destruct (pyeqb_spec p p') as [E|N].
      * subst p'. now rewrite Z.eqb_refl.
      * rewrite (proj2 (Z.eqb_neq _ _) N). destruct (dget m t) as [d|]; [|reflexivity].
        now destruct (dget d md).
    + rewrite (proj2 (Nat.eqb_neq _ _) N). cbn [andb]. now destruct (dget m t).
  - now rewrite (proj2 (Nat.eqb_neq _ _) N).
Qed.

Lemma call_simulated : forall us m c u m' v, do_call Simulated us m c u = Ok (m', v) ->
  let '(t, md, p) := key_of c in
  memo_get m' t md p = Some v /\
  (memo_get m t md p = None -> v = u_sample us t md p u) /\
  (forall t1 md1 p1 w, memo_get m t1 md1 p1 = Some w -> memo_get m' t1 md1 p1 = Some w) /\
  (forall t1 md1 p1, (t1, md1, p1) <> (t, md, p) -> memo_get m' t1 md1 p1 = memo_get m t1 md1 p1).
Proof.
  intros us m c u m' v H.
  assert (G : exists t md p, key_of c = (t, md, p) /\ sample_duration Simulated us m t md p u = Ok (m', v)).
  { destruct c as [t md p|t md p]; exists t, md, p; (split; [reflexivity|]); cbn [do_call] in H; auto.
    unfold latest_duration in H. unfold sample_duration. destruct (memo_get m t md p) eqn:E; auto.
    unfold sample_duration in H. rewrite E in H. exact H. }
  destruct G as [t [md [p [-> G]]]]. unfold sample_duration in G. destruct (memo_get m t md p) as [w|] eqn:E.
  - injection G as <- <-. split; auto. split; [discriminate|]. split; auto.
  - cbn in G. injection G as <- <-. rewrite memo_get_set, !Nat.eqb_refl, Z.eqb_refl. cbn [andb].
    split; auto. split; auto. split.
    + intros t1 md1 p1 w W. rewrite memo_get_set.
      destruct (Nat.eqb_spec t t1); destruct (Nat.eqb_spec md md1); destruct (Z.eqb_spec p p1); cbn [andb]; auto.
      subst. congruence.
    + intros t1 md1 p1 N. rewrite memo_get_set.
      destruct (Nat.eqb_spec t t1); destruct (Nat.eqb_spec md md1); destruct (Z.eqb_spec p p1); cbn [andb]; auto.
      subst. congruence.
Qed.

Lemma calls_memo : forall us l m m' vs, calls Simulated us m l = Ok (m', vs) ->
  forall t md p w, memo_get m t md p = Some w -> forall i c u v, nth_error l i = Some (c, u) -> key_of c = (t, md, p) ->
  nth_error vs i = Some v -> v = w.
Proof.
  induction l as [|[c0 u0] l IH]; intros m m' vs H t md p w W i c u v I K V; [destruct i; discriminate|].
  cbn [calls] in H. apply bind_ok in H. destruct H as [[m1 v1] [D H]]. apply bind_ok in H. destruct H as [[m2 vs2] [R H]].
  cbn [fst snd] in *. injection H as <- <-. pose proof (call_simulated _ _ _ _ _ _ D) as C.
  destruct (key_of c0) as [[t0 md0] p0] eqn:K0. destruct C as [C1 [C2 [C3 C4]]].
  destruct i as [|i]; cbn in I, V.
  - injection I as <- <-. injection V as <-. rewrite K0 in K. injection K as -> -> ->.
    specialize (C3 _ _ _ _ W). congruence.
  - eapply IH; eauto.
Qed.

(** A simulated duration is sampled once: all answers for the same task, mode and progress, by either
    function, are the value the user's sampler gave at the first of those calls. *)
Theorem C80_sampled_once : forall us l m vs, calls Simulated us [] l = Ok (m, vs) ->
  forall i c u v, nth_error l i = Some (c, u) -> nth_error vs i = Some v ->
  exists i0 c0 u0 t md p, (i0 <= i)%nat /\ nth_error l i0 = Some (c0, u0) /\ key_of c0 = key_of c /\ key_of c = (t, md, p) /\
    (forall k ck uk, (k < i0)%nat -> nth_error l k = Some (ck, uk) -> key_of ck <> key_of c) /\
    v = u_sample us t md p u0.
Proof.
  intros us l. assert (G : forall m0 m vs, calls Simulated us m0 l = Ok (m, vs) ->
    forall i c u v t md p, nth_error l i = Some (c, u) -> nth_error vs i = Some v -> key_of c = (t, md, p) ->
    memo_get m0 t md p = None ->
    exists i0 c0 u0, (i0 <= i)%nat /\ nth_error l i0 = Some (c0, u0) /\ key_of c0 = (t, md, p) /\
      (forall k ck uk, (k < i0)%nat -> nth_error l k = Some (ck, uk) -> key_of ck <> (t, md, p)) /\ v = u_sample us t md p u0).
  { induction l as [|[c0 u0] l IH]; intros m0 m vs H i c u v t md p I V K N; [destruct i; discriminate|].
    cbn [calls] in H. apply bind_ok in H. destruct H as [[m1 v1] [D H]]. apply bind_ok in H. destruct H as [[m2 vs2] [R H]].
    cbn [fst snd] in *. injection H as <- <-. pose proof (call_simulated _ _ _ _ _ _ D) as C.
    destruct (key_of c0) as [[t0 md0] p0] eqn:K0. destruct C as [C1 [C2 [C3 C4]]].
    assert (DK : {(t0, md0, p0) = (t, md, p)} + {(t0, md0, p0) <> (t, md, p)}) by (repeat decide equality).
    destruct DK as [E|NE].
    - injection E as -> -> ->. exists 0%nat, c0, u0. split; [lia|]. split; auto. split; auto.
      split; [intros; lia|]. rewrite <- C2 by auto.
      destruct i as [|i]; cbn in I, V; [congruence|]. eapply calls_memo; eauto.
    - destruct i as [|i]; cbn in I, V; [injection I as <- <-; congruence|].
      destruct (IH m1 m2 vs2 R i c u v t md p I V K) as [i0 [c1 [u1 [A1 [A2 [A3 [A4 A5]]]]]]].
      { rewrite C4 by congruence. exact N. }
      exists (S i0), c1, u1. split; [lia|]. split; auto. split; auto. split; auto.
      intros k ck uk LT NK. destruct k as [|k]; cbn in NK; [injection NK as <- <-; congruence|]. eapply A4; eauto. lia. }
  intros m vs H i c u v I V. destruct (key_of c) as [[t md] p] eqn:K.
  destruct (G [] m vs H i c u v t md p I V K eq_refl) as [i0 [c0 [u0 [A1 [A2 [A3 [A4 A5]]]]]]].
  exists i0, c0, u0, t, md, p. repeat (split; auto).
Qed.

Definition us_ex : user := {|
  u_sample := fun t m p u => if Qle_bool u (1 # 2) then 3 else 7;
  u_dist := fun t m p => DiscreteDistribution [(4 + p, 1%Q); (6 + p, 1%Q); (5 + p, 2%Q)];
  u_lower := fun t m p => 2; u_upper := fun t m p => 4; u_duration := fun t m p => 5 - p |}.
Example C80_sampled_once_ex : exists m, calls Simulated us_ex [] [(Sample 1 1 0, (3 # 4)%Q); (Sample 2 1 0, (1 # 4)%Q);
  (Latest 1 1 0, (1 # 4)%Q); (Sample 1 2 0, (1 # 4)%Q)] = Ok (m, [7; 3; 7; 3]).
Proof. eexists. vm_compute. reflexivity. Qed.

(** The uniform distribution over the bounds. *)
Lemma zrange_In : forall n lb x, In x (zrange lb n) <-> lb <= x < lb + Z.of_nat n.
Proof. induction n as [|n IH]; intros lb x; cbn [zrange In]; [lia|]. rewrite IH. lia. Qed.
Lemma zrange_NoDup : forall n lb, NoDup (zrange lb n).
Proof. induction n as [|n IH]; intros lb; cbn; constructor; auto. rewrite zrange_In. lia. Qed.
Lemma zrange_length : forall n lb, length (zrange lb n) = n.
Proof. induction n; intros; cbn; auto. Qed.

Theorem C80_uniform : forall us t m p, u_lower us t m 0 <= u_upper us t m 0 ->
  exists values, distribution Uniform us t m p = Ok (Discrete values) /\ NoDup (map fst values) /\
    (forall x w, In (x, w) values <-> u_lower us t m 0 <= x <= u_upper us t m 0 /\
                              w = (1 / inject_Z (u_upper us t m 0 - u_lower us t m 0 + 1))%Q) /\
    (fold_right Qplus 0 (map snd values) == 1)%Q.
Proof.
  intros us t m p LE. cbn [distribution]. set (lb := u_lower us t m 0) in *. set (ub := u_upper us t m 0) in *.
  destruct (Z.eqb_spec (ub - lb + 1) 0) as [E|N]; [lia|]. set (w := (1 / inject_Z (ub - lb + 1))%Q).
  set (values := map (fun x : Z => (x, w)) (zrange lb (Z.to_nat (ub - lb + 1)))).
  assert (MF : map fst values = zrange lb (Z.to_nat (ub - lb + 1))).
  { unfold values. rewrite map_map. cbn [fst]. apply map_id. }
  exists values. split.
  - unfold DiscreteDistribution. destruct values as [|v0 r] eqn:V; [|reflexivity].
    exfalso. apply (f_equal (@length Z)) in MF. rewrite zrange_length in MF. cbn in MF. lia.
  - split; [rewrite MF; apply zrange_NoDup|]. split.
    + intros x v. unfold values. rewrite in_map_iff. split.
      * intros [y [E I]]. injection E as <- <-. apply zrange_In in I. split; [lia|reflexivity].
      * intros [B ->]. exists x. split; [reflexivity|]. apply zrange_In. lia.
    + unfold values. rewrite map_map. cbn [snd].
      assert (G : forall l : list Z, (fold_right Qplus 0 (map (fun _ => w) l) == inject_Z (Z.of_nat (length l)) * w)%Q).
      { induction l as [|x l IH]; [reflexivity|]. cbn [map fold_right length]. rewrite IH.
        rewrite Nat2Z.inj_succ. unfold Z.succ. rewrite inject_Z_plus. ring. }
      rewrite G, zrange_length, Z2Nat.id by lia. unfold w. field. intros X. unfold Qeq in X. cbn in X. lia.
Qed.

Lemma fold_max : forall r x, In (fold_left Z.max r x) (x :: r) /\ forall y, In y (x :: r) -> y <= fold_left Z.max r x.
Proof.
  induction r as [|z r IH]; intros x; cbn [fold_left].
  - split; [simpl; auto|]. intros y [<-|[]]. lia.
  - destruct (IH (Z.max x z)) as [I M]. split.
    + destruct I as [E|I]; [|simpl; auto]. rewrite <- E. destruct (Z.max_spec x z) as [[_ ->]|[_ ->]]; simpl; auto.
    + intros y Y. assert (MX : Z.max x z <= fold_left Z.max r (Z.max x z)) by (apply M; simpl; auto).
      destruct Y as [<-|[<-|Y]]; [lia|lia|]. apply M. simpl. auto.
Qed.
Lemma fold_min : forall r x, In (fold_left Z.min r x) (x :: r) /\ forall y, In y (x :: r) -> fold_left Z.min r x <= y.
Proof.
  induction r as [|z r IH]; intros x; cbn [fold_left].
  - split; [simpl; auto|]. intros y [<-|[]]. lia.
  - destruct (IH (Z.min x z)) as [I M]. split.
    + destruct I as [E|I]; [|simpl; auto]. rewrite <- E. destruct (Z.min_spec x z) as [[_ ->]|[_ ->]]; simpl; auto.
    + intros y Y. assert (MX : fold_left Z.min r (Z.min x z) <= Z.min x z) by (apply M; simpl; auto).
      destruct Y as [<-|[<-|Y]]; [lia|lia|]. apply M. simpl. auto.
Qed.

(** The bounds of an enumerable duration are possible values and bound all of them. *)
Theorem C80_enumerable_bounds : forall us t m p d lo hi, u_dist us t m 0 = Ok d ->
  lower_bound Enumerable us t m p = Ok lo -> upper_bound Enumerable us t m p = Ok hi ->
  (exists w, In (lo, w) (dist_get_values d)) /\ (exists w, In (hi, w) (dist_get_values d)) /\
  forall x w, In (x, w) (dist_get_values d) -> lo <= x <= hi.
Proof.
  intros us t m p d lo hi D L U. cbn [lower_bound upper_bound distribution] in L, U. rewrite D in L, U. cbn [bind] in L, U.
  unfold pymin, pymax in L, U. destruct (map fst (dist_get_values d)) as [|x r] eqn:M; [discriminate|].
  injection L as <-. injection U as <-. destruct (fold_max r x) as [I1 B1]. destruct (fold_min r x) as [I2 B2].
  rewrite <- M in I1, I2, B1, B2. split; [|split].
  - apply in_map_iff in I2. destruct I2 as [[y w] [E I]]. cbn in E. subst. eauto.
  - apply in_map_iff in I1. destruct I1 as [[y w] [E I]]. cbn in E. subst. eauto.
  - intros y w I. assert (J : In y (map fst (dist_get_values d))) by (apply in_map_iff; exists (y, w); auto). split; auto.
Qed.

(** A sampled duration lies within the bounds (default progress). *)
Theorem C80_within_bounds : forall k us mm t m u mm' v lo hi, In k [Uniform; Enumerable; Deterministic] ->
  sample_duration k us mm t m 0 u = Ok (mm', v) -> lower_bound k us t m 0 = Ok lo -> upper_bound k us t m 0 = Ok hi ->
  lo <= v <= hi.
Proof.
  intros k us mm t m u mm' v lo hi K S L U. simpl in K. destruct K as [<-|[<-|[<-|[]]]];
    unfold sample_duration in S; apply bind_ok in S; destruct S as [w [S E]]; injection E as <- ->.
  - unfold sample_ in S. apply bind_ok in S. destruct S as [d [D S]]. cbn [lower_bound upper_bound] in L, U.
    injection L as <-. injection U as <-. cbn [distribution] in D.
    destruct (Z.eqb_spec (u_upper us t m 0 - u_lower us t m 0 + 1) 0); [discriminate|].
    destruct (C03_sample_in_values _ _ _ _ S) as [w I].
    assert (E : dist_get_values d = map (fun x => (x, (1 / inject_Z (u_upper us t m 0 - u_lower us t m 0 + 1))%Q))
       (zrange (u_lower us t m 0) (Z.to_nat (u_upper us t m 0 - u_lower us t m 0 + 1)))).
    { unfold DiscreteDistribution in D. destruct (map _ _); [discriminate|]. injection D as <-. reflexivity. }
    rewrite E in I. apply in_map_iff in I. destruct I as [y [EY I]]. injection EY as <- <-. apply zrange_In in I. lia.
  - unfold sample_ in S. apply bind_ok in S. destruct S as [d [D S]]. destruct (C03_sample_in_values _ _ _ _ S) as [w I].
    destruct (C80_enumerable_bounds us t m 0 d lo hi D L U) as [_ [_ B]]. eauto.
  - cbn in S, L, U. injection S as <-. injection L as <-. injection U as <-. lia.
Qed.
Example C80_within_bounds_ex :
  map (fun k => (rmap snd (sample_duration k us_ex [] 1 1 0 (1 # 2)%Q), lower_bound k us_ex 1 1 0, upper_bound k us_ex 1 1 0))
    [Uniform; Enumerable; Deterministic] = [(Ok 3, Ok 2, Ok 4); (Ok 5, Ok 4, Ok 6); (Ok 5, Ok 5, Ok 5)].
Proof. vm_compute. reflexivity. Qed.

(** The uncertain kinds never look at the progress. *)
Theorem C80_progress_ignored : forall k us mm t m p u, In k [Multivariate; Univariate; Bounded; Uniform; Enumerable] ->
  sample_duration k us mm t m p u = sample_duration k us mm t m 0 u.
Proof. intros k us mm t m p u K. simpl in K. repeat (destruct K as [<-|K]; [reflexivity|]). destruct K. Qed.

(** So a duration can be drawn that the distribution for that progress excludes; *)
Theorem C80_progress_refuted : exists us t m p u d v, distribution Enumerable us t m p = Ok d /\
  rmap snd (sample_duration Enumerable us [] t m p u) = Ok v /\ forall w, ~ In (v, w) (dist_get_values d).
Proof.
  exists us_ex, 1%nat, 1%nat, 10, (1 # 2)%Q. eexists. exists 5. split; [vm_compute; reflexivity|].
  split; [vm_compute; reflexivity|]. intros w I. simpl in I. intuition congruence.
Qed.

(** a deterministic duration after some progress need not lie within the bounds; *)
Theorem C80_deterministic_bounds_refuted : exists us t m p u v lo, sample_duration Deterministic us [] t m p u = Ok ([], v) /\
  lower_bound Deterministic us t m p = Ok lo /\ v < lo.
Proof. exists us_ex, 1%nat, 1%nat, 3, 0%Q. do 2 eexists. split; [reflexivity|]. split; [reflexivity|]. cbn. lia. Qed.

(** and the latest sampled duration of an uncertain kind is a new draw. *)
Theorem C80_latest_refuted : exists us t m u1 u2 v1 v2,
  calls Uniform us [] [(Sample t m 0, u1); (Latest t m 0, u2)] = Ok ([], [v1; v2]) /\ v1 <> v2.
Proof.
  exists us_ex, 1%nat, 1%nat, 0%Q, (9 # 10)%Q, 2, 4. split; [vm_compute; reflexivity|lia].
Qed.

(** Bounds that exclude every duration: an error instead of a distribution. *)
Theorem C80_uniform_empty : forall us t m p, u_upper us t m 0 < u_lower us t m 0 ->
  distribution Uniform us t m p = Err ZeroDivisionError \/ distribution Uniform us t m p = Err IndexError.
Proof.
  intros us t m p LT. cbn [distribution]. destruct (Z.eqb_spec (u_upper us t m 0 - u_lower us t m 0 + 1) 0); auto.
  right. replace (Z.to_nat (u_upper us t m 0 - u_lower us t m 0 + 1)) with 0%nat by lia. reflexivity.
Qed.

(** * C81 *)

(** A single agent's value is asked to the space; several agents' values are all asked, each to the
    space of its agent. *)
Theorem C81_member : forall (A : Type) (sp : agents (@space A)) (x : agents A),
  member sp x = Ok true <->
  match sp, x with
  | One s, One v => s v = Ok true
  | Many d, Many e => forall k v, In (k, v) e -> exists s, dget d k = Some s /\ s v = Ok true
  | _, _ => False
  end.
Proof.
  intros A [s|d] [v|e]; cbn [member]; try tauto; try (split; [discriminate|tauto]).
  induction e as [|[k v] e IH]; cbn [all_in].
  - split; auto. intros _ k v [].
  - split.
    + intros H. apply bind_ok in H. destruct H as [s [S H]]. apply bind_ok in H. destruct H as [b [B H]].
      apply dgetE_some in S. destruct b; [|discriminate]. intros k' v' [E|I]; [injection E as <- <-; eauto|].
      apply (proj1 IH H k' v' I).
    + intros H. destruct (H k v) as [s [S B]]; [simpl; auto|]. unfold dgetE. rewrite S. cbn [bind]. rewrite B. cbn [bind].
      apply (proj2 IH). intros k' v' I. apply H. simpl. auto.
Qed.

Theorem C81_not_member : forall (A : Type) d (e : list (nat * A)), member (Many d) (Many e) = Ok false ->
  exists k v s, In (k, v) e /\ dget d k = Some s /\ s v = Ok false.
Proof.
  intros A d e. cbn [member]. induction e as [|[k v] e IH]; cbn [all_in]; intros H; [discriminate|].
  apply bind_ok in H. destruct H as [s [S H]]. apply bind_ok in H. destruct H as [b [B H]]. apply dgetE_some in S.
  destruct b.
  - destruct (IH H) as [k' [v' [s' [I X]]]]. exists k', v', s'. simpl. tauto.
  - exists k, v, s. simpl. auto.
Qed.

Definition at_least (n : nat) : @space nat := fun x => Ok (n <=? x)%nat.
Example C81_ex : member (Many [(1%nat, at_least 3); (2%nat, at_least 5)]) (Many [(2%nat, 6%nat); (1%nat, 3%nat)]) = Ok true /\
  member (Many [(1%nat, at_least 3); (2%nat, at_least 5)]) (Many [(1%nat, 3%nat); (2%nat, 4%nat)]) = Ok false.
Proof. split; reflexivity. Qed.

(** With several agents, an observation that lacks an agent is a goal although that agent is not at
    one. *)
Theorem C81_missing_agent_refuted : exists (d : list (nat * @space nat)) e e' k v, incl e e' /\
  In (k, v) e' /\ ~ In k (dkeys e) /\ member (Many d) (Many e) = Ok true /\ member (Many d) (Many e') = Ok false.
Proof.
  exists [(1%nat, at_least 3); (2%nat, at_least 5)], [(1%nat, 4%nat)], [(1%nat, 4%nat); (2%nat, 0%nat)], 2%nat, 0%nat.
  split; [intros x [<-|[]]; simpl; auto|]. split; [simpl; auto|]. split; [simpl; intuition lia|]. split; reflexivity.
Qed.
(** A domain without exogenous events does not answer whether an event is enabled. *)
Theorem C81_enabled_refuted : exists e : nat, actions_is_enabled e <> Ok false /\ actions_is_enabled e <> Ok true.
Proof. exists 0%nat. split; discriminate. Qed.

(** * C82 *)

Section Cache.
Context {V : Type}.
Variable maxsize : nat.
Hypothesis MS : (0 < maxsize)%nat.
Variable f : nat -> nat -> V.

(** The entry of [d] is there, and everything more recent was asked since. *)
Definition recent (c : @cache V) (d : nat) (v : V) (since : list nat) : Prop :=
  NoDup (dkeys (c_entries c)) /\ (length (c_entries c) <= maxsize)%nat /\
  exists pre post, c_entries c = pre ++ (d, v) :: post /\ forall k, In k (dkeys post) -> In k since.

Lemma ddel_app_notin : forall (l1 l2 : list (nat * V)) k, ~ In k (dkeys l1) -> ddel (l1 ++ l2) k = l1 ++ ddel l2 k.
Proof.
  induction l1 as [|[x y] l1 IH]; intros l2 k N; [reflexivity|]. cbn [app ddel]. destruct (pyeqb_spec k x) as [E|NE].
  - exfalso. apply N. simpl. auto.
  - f_equal. apply IH. intros I. apply N. simpl. auto.
Qed.
Lemma ddel_app_in : forall (l1 l2 : list (nat * V)) k, In k (dkeys l1) -> ddel (l1 ++ l2) k = ddel l1 k ++ l2.
Proof.
  induction l1 as [|[x y] l1 IH]; intros l2 k I; [destruct I|]. cbn [app ddel]. destruct (pyeqb_spec k x) as [E|NE]; auto.
  cbn [app]. f_equal. apply IH. destruct I as [I|I]; [cbn in I; congruence|auto].
Qed.
Lemma ddel_length : forall (l : list (nat * V)) k, (length (ddel l k) <= length l)%nat.
Proof. induction l as [|[x y] l IH]; intros k; cbn [ddel length]; auto. destruct (pyeqb k x); cbn [length]; auto. specialize (IH k). lia. Qed.
Lemma ddel_length_in : forall (l : list (nat * V)) k v, dget l k = Some v -> length l = S (length (ddel l k)).
Proof.
  induction l as [|[x y] l IH]; intros k v H; [discriminate|]. cbn [dget ddel length] in *. destruct (pyeqb k x); auto. cbn [length]. f_equal. eauto.
Qed.
Lemma dkeys_app : forall (l1 l2 : list (nat * V)), dkeys (l1 ++ l2) = dkeys l1 ++ dkeys l2.
Proof. intros. unfold dkeys. apply map_app. Qed.
Lemma ddel_sub : forall (l : list (nat * V)) k x, In x (dkeys (ddel l k)) -> In x (dkeys l).
Proof.
  induction l as [|[a b] l IH]; intros k x I; [exact I|]. cbn [ddel] in I. destruct (pyeqb k a); [right; exact I|].
  destruct I as [I|I]; [left; auto|right]. now apply (IH k).
Qed.

Definition cache_ok (c : @cache V) : Prop := NoDup (dkeys (c_entries c)) /\ (length (c_entries c) <= maxsize)%nat.

Lemma lru_ok : forall c e c' w, cache_ok c -> lru_call maxsize f c e = (c', w) ->
  cache_ok c' /\ exists pre, c_entries c' = pre ++ [(e, w)].
Proof.
  intros c e c' w [ND L] H. unfold lru_call in H. destruct (dget (c_entries c) e) as [x|] eqn:E; injection H as <- <-; cbn [c_entries].
  - split; [|eauto]. split; cbn [c_entries].
    + rewrite dkeys_app. cbn. apply NoDup_app_disjoint; [now apply NoDup_ddel|repeat constructor; simpl; tauto|].
      intros k I [<-|[]]. apply dkeys_ddel in I; auto. tauto.
    + rewrite app_length. cbn. pose proof (ddel_length_in _ _ _ E). lia.
  - split; [|eauto]. assert (N : ~ In e (dkeys (c_entries c))) by now apply dget_None. split; cbn [c_entries].
    + rewrite dkeys_app. cbn. destruct (maxsize <=? length (c_entries c))%nat.
      * apply NoDup_app_disjoint; [|repeat constructor; simpl; tauto|].
        -- destruct (c_entries c); [constructor|]. now inversion ND.
        -- intros k I [<-|[]]. apply N. destruct (c_entries c); [destruct I|]. simpl. auto.
      * apply NoDup_app_disjoint; auto; [repeat constructor; simpl; tauto|]. intros k I [<-|[]]. auto.
    + rewrite app_length. cbn. destruct (Nat.leb_spec maxsize (length (c_entries c))) as [LE|LT].
      * destruct (c_entries c); cbn in *; lia.
      * lia.
Qed.

Lemma recent_call : forall c d v since e c' w, recent c d v since -> e <> d ->
  (length (nodup Nat.eq_dec (e :: since)) < maxsize)%nat -> lru_call maxsize f c e = (c', w) ->
  recent c' d v (e :: since).
Proof.
  intros c d v since e c' w [ND [L [pre [post [E P]]]]] NE LT H.
  destruct (lru_ok c e c' w (conj ND L) H) as [[ND' L'] _]. split; auto. split; auto.
  unfold lru_call in H. destruct (dget (c_entries c) e) as [x|] eqn:G; injection H as <- <-; cbn [c_entries].
  - destruct (in_dec Nat.eq_dec e (dkeys pre)) as [I|N].
    + exists (ddel pre e), (post ++ [(e, x)]). split.
      * rewrite E, ddel_app_in by auto. now rewrite <- app_assoc.
      * intros k K. rewrite dkeys_app, in_app_iff in K. destruct K as [K|[<-|[]]]; simpl; auto.
    + exists pre, (ddel post e ++ [(e, x)]). split.
      * rewrite E, ddel_app_notin by auto. cbn [ddel]. destruct (pyeqb_spec e d) as [X|_]; [congruence|]. now rewrite <- app_assoc.
      * intros k K. rewrite dkeys_app, in_app_iff in K. destruct K as [K|[<-|[]]]; simpl; auto. right. apply P.
        now apply ddel_sub in K.
  - destruct (Nat.leb_spec maxsize (length (c_entries c))) as [LE|GT].
    + destruct pre as [|x pre].
      * exfalso. cbn [app] in E. rewrite E in LE, G, ND. cbn [length] in LE.
        assert (N : ~ In e (dkeys post)). { intros I. apply dget_None in G. apply G. simpl. auto. }
        cbn in ND. inversion ND as [|? ? _ NP]; subst.
        assert (LN : (S (length post) <= length (nodup Nat.eq_dec (e :: since)))%nat).
        { replace (S (length post)) with (length (e :: dkeys post)) by (cbn; unfold dkeys; now rewrite map_length).
          apply NoDup_incl_length; [now constructor|]. intros k [<-|K]; apply nodup_In; simpl; auto. }
        lia.
      * exists pre, (post ++ [(e, f e (c_calls c))]). split; [rewrite E; cbn; now rewrite <- app_assoc|].
        intros k K. rewrite dkeys_app, in_app_iff in K. destruct K as [K|[<-|[]]]; simpl; auto.
    + exists pre, (post ++ [(e, f e (c_calls c))]). split; [rewrite E; now rewrite <- app_assoc|].
      intros k K. rewrite dkeys_app, in_app_iff in K. destruct K as [K|[<-|[]]]; simpl; auto.
Qed.

Lemma recent_get : forall c d v since, recent c d v since -> dget (c_entries c) d = Some v.
Proof.
  intros c d v since [ND [_ [pre [post [E _]]]]]. apply In_dget; auto. rewrite E. apply in_app_iff. simpl. auto.
Qed.

Lemma recent_again : forall c d v since c' w, recent c d v since -> lru_call maxsize f c d = (c', w) ->
  w = v /\ recent c' d v [] /\ c_calls c' = c_calls c.
Proof.
  intros c d v since c' w R H. pose proof (recent_get _ _ _ _ R) as G. destruct R as [ND [L _]].
  destruct (lru_ok c d c' w (conj ND L) H) as [[ND' L'] [pre E]]. unfold lru_call in H. rewrite G in H. injection H as <- <-.
  split; [reflexivity|]. split; [|reflexivity]. split; [exact ND'|]. split; [exact L'|]. exists pre, []. split; [exact E|]. intros k [].
Qed.

Lemma calls_recent : forall ds c d v since c' vs, recent c d v since ->
  (length (nodup Nat.eq_dec (ds ++ since)) < maxsize)%nat -> lru_calls maxsize f c ds = (c', vs) ->
  exists since', recent c' d v since' /\ incl since' (ds ++ since) /\
    forall i w, nth_error ds i = Some d -> nth_error vs i = Some w -> w = v.
Proof.
  induction ds as [|e ds IH]; intros c d v since c' vs R LT H; cbn [lru_calls] in H.
  - injection H as <- <-. exists since. split; auto. split; [apply incl_refl|]. intros i w I. destruct i; discriminate.
  - destruct (lru_call maxsize f c e) as [c1 w1] eqn:C. destruct (lru_calls maxsize f c1 ds) as [c2 vs2] eqn:D.
    injection H as <- <-.
    assert (SUB : forall l l', incl l l' -> (length (nodup Nat.eq_dec l) <= length (nodup Nat.eq_dec l'))%nat).
    { intros l l' I. apply NoDup_incl_length; [apply NoDup_nodup|]. intros x X. apply nodup_In in X. apply nodup_In. auto. }
    destruct (Nat.eq_dec e d) as [->|NE].
    + destruct (recent_again _ _ _ _ _ _ R C) as [-> [R1 _]].
      destruct (IH c1 d v [] c2 vs2 R1) as [s' [R2 [I2 V2]]]; auto.
      { rewrite app_nil_r. pose proof (SUB ds ((d :: ds) ++ since)) as X. assert (Y : incl ds ((d :: ds) ++ since)).
        { intros x X1. right. apply in_app_iff. auto. } specialize (X Y). lia. }
      exists s'. split; auto. split; [intros x X; apply I2 in X; rewrite app_nil_r in X; right; apply in_app_iff; auto|].
      intros [|i] w I W; cbn in I, W; [congruence|eauto].
    + assert (R1 : recent c1 d v (e :: since)).
      { eapply recent_call; eauto. pose proof (SUB (e :: since) ((e :: ds) ++ since)) as X.
        assert (Y : incl (e :: since) ((e :: ds) ++ since)).
        { intros x [<-|X1]; [left; auto|right; apply in_app_iff; auto]. } specialize (X Y). lia. }
      destruct (IH c1 d v (e :: since) c2 vs2 R1) as [s' [R2 [I2 V2]]]; auto.
      { pose proof (SUB (ds ++ e :: since) ((e :: ds) ++ since)) as X. assert (Y : incl (ds ++ e :: since) ((e :: ds) ++ since)).
        { intros x X1. apply in_app_iff in X1. destruct X1 as [X1|[<-|X1]]; [right; apply in_app_iff; auto|left; auto|].
          right. apply in_app_iff. auto. } specialize (X Y). lia. }
      exists s'. split; auto. split.
      * intros x X. apply I2, in_app_iff in X. destruct X as [X|[<-|X]]; [right; apply in_app_iff; auto|left; auto|].
        right. apply in_app_iff. auto.
      * intros [|i] w I W; cbn in I, W; [congruence|eauto].
Qed.

Lemma calls_ok : forall ds c c' vs, cache_ok c -> lru_calls maxsize f c ds = (c', vs) -> cache_ok c'.
Proof.
  induction ds as [|d ds IH]; intros c c' vs O H; cbn [lru_calls] in H; [injection H as <- <-; auto|].
  destruct (lru_call maxsize f c d) as [c1 w1] eqn:C. destruct (lru_calls maxsize f c1 ds) as [c2 vs2] eqn:D.
  injection H as <- <-. eapply IH; [|exact D]. eapply lru_ok; eauto.
Qed.
Lemma lru_calls_app : forall ds1 ds2 c, lru_calls maxsize f c (ds1 ++ ds2) =
  let (c1, v1) := lru_calls maxsize f c ds1 in let (c2, v2) := lru_calls maxsize f c1 ds2 in (c2, v1 ++ v2).
Proof.
  induction ds1 as [|d ds1 IH]; intros ds2 c; cbn [app lru_calls].
  - destruct (lru_calls maxsize f c ds2); reflexivity.
  - destruct (lru_call maxsize f c d) as [c1 w1]. rewrite IH. destruct (lru_calls maxsize f c1 ds1) as [c2 v2].
    destruct (lru_calls maxsize f c2 ds2). reflexivity.
Qed.
Lemma lru_calls_length : forall ds c c' vs, lru_calls maxsize f c ds = (c', vs) -> length vs = length ds.
Proof.
  induction ds as [|d ds IH]; intros c c' vs H; cbn [lru_calls] in H; [injection H as <- <-; auto|].
  destruct (lru_call maxsize f c d) as [c1 w1] eqn:C. destruct (lru_calls maxsize f c1 ds) as [c2 vs2] eqn:D.
  injection H as <- <-. cbn. f_equal. eauto.
Qed.
End Cache.

(** Two successive questions about a domain get the same space when fewer than 128 other domains ask in
    between, whatever was asked before. *)
Theorem C82_same_space : forall (V : Type) (f : nat -> nat -> V) before between d c' vs,
  (length (nodup Nat.eq_dec between) < 128)%nat ->
  lru_calls 128 f lru_empty (before ++ d :: between ++ [d]) = (c', vs) ->
  exists v, nth_error vs (length before) = Some v /\ nth_error vs (length before + S (length between)) = Some v.
Proof.
  intros V f before between d c' vs LT H.
  assert (MS : (0 < 128)%nat) by (apply Nat.ltb_lt; reflexivity).
  assert (O0 : cache_ok 128 (@lru_empty V)) by (split; [constructor|apply Nat.le_0_l]).
  remember 128%nat as ms. clear Heqms.
  rewrite lru_calls_app in H. destruct (lru_calls ms f lru_empty before) as [c1 v1] eqn:B.
  pose proof (calls_ok ms MS f _ _ _ _ O0 B) as O1. pose proof (lru_calls_length ms f _ _ _ _ B) as L1.
  cbn [lru_calls] in H. destruct (lru_call ms f c1 d) as [c2 v] eqn:C. rewrite lru_calls_app in H.
  destruct (lru_calls ms f c2 between) as [c3 v3] eqn:D. cbn [lru_calls] in H.
  destruct (lru_call ms f c3 d) as [c4 w] eqn:E. injection H as <- <-.
  destruct (lru_ok ms MS f c1 d c2 v O1 C) as [[ND2 L2] [pre P2]].
  assert (R2 : recent ms c2 d v []).
  { split; [exact ND2|]. split; [exact L2|]. exists pre, []. split; [exact P2|]. intros k []. }
  destruct (calls_recent ms MS f between c2 d v [] c3 v3 R2) as [s' [R3 _]]; auto.
  { now rewrite app_nil_r. }
  destruct (recent_again ms MS f c3 d v s' c4 w R3 E) as [-> _].
  exists v. rewrite <- L1. split.
  - rewrite nth_error_app2 by lia. now rewrite Nat.sub_diag.
  - rewrite nth_error_app2 by lia. replace (length v1 + S (length between) - length v1)%nat with (S (length between)) by lia.
    cbn. rewrite <- (lru_calls_length ms f _ _ _ _ D). rewrite nth_error_app2 by lia. now rewrite Nat.sub_diag.
Qed.
Example C82_ex : snd (lru_calls 128 (fun d n => (d, n)) lru_empty ([7; 8] ++ 3 :: [8; 9; 8] ++ [3])%nat) =
  [(7, 0); (8, 1); (3, 2); (8, 1); (9, 3); (8, 1); (3, 2)]%nat /\ (length (nodup Nat.eq_dec [8; 9; 8]) < 128)%nat.
Proof. split; [vm_compute; reflexivity|apply Nat.ltb_lt; reflexivity]. Qed.

(** With 128 other domains in between the space is computed again. *)
Theorem C82_many_domains_refuted : exists (f : nat -> nat -> nat) between d c' vs v v',
  ~ In d between /\ lru_calls 128 f lru_empty (d :: between ++ [d]) = (c', vs) /\
  nth_error vs 0 = Some v /\ nth_error vs (S (length between)) = Some v' /\ v <> v'.
Proof.
  exists (fun d n => n), (seq 1 128), 0%nat. do 2 eexists. exists 0%nat, 129%nat.
  split; [rewrite in_seq; lia|]. split; [vm_compute; reflexivity|]. repeat split; try reflexivity. discriminate.
Qed.

(** * C83 *)

(** What a window asks of a task. *)
Definition respects (w : window) (s e : Z) : Prop := w_es w <= s <= w_ls w /\ w_ee w <= e <= w_le w.

(** Each kind of window constrains a task that runs within the horizon by exactly the dates it is
    given. *)
Theorem C83_windows : forall h s e, 0 <= s <= e -> e <= h -> forall es ls ee le,
  (respects (TimeWindow es ls ee le h) s e <-> es <= s /\ s <= ls /\ ee <= e /\ e <= le) /\
  (respects (ClassicTimeWindow es le h) s e <-> es <= s /\ e <= le) /\
  (respects (StartFromOnly es h) s e <-> es <= s) /\ (respects (StartBeforeOnly ls h) s e <-> s <= ls) /\
  (respects (EndFromOnly ee h) s e <-> ee <= e) /\ (respects (EndBeforeOnly le h) s e <-> e <= le) /\
  (respects (StartTimeWindow es ls h) s e <-> es <= s <= ls) /\ (respects (EndTimeWindow ee le h) s e <-> ee <= e <= le) /\
  respects (EmptyTimeWindow h) s e.
Proof. intros. unfold respects. cbn. repeat split; try lia. Qed.
(** Without windows, every task has one and it excludes nothing. *)
Theorem C83_without_windows : forall ids h i s e, 0 <= s <= e -> e <= h -> In i ids ->
  exists w, dget (no_windows ids h) i = Some w /\ respects w s e.
Proof.
  intros ids h i s e B1 B2 I. exists (EmptyTimeWindow h). split.
  - unfold no_windows.
    assert (G : forall l d, dget d i = Some (EmptyTimeWindow h) \/ In i l ->
      dget (fold_left (fun d i => dset d i (EmptyTimeWindow h)) l d) i = Some (EmptyTimeWindow h)).
    { induction l as [|x l IH]; intros d [D|D]; cbn [fold_left]; auto; [destruct D| |].
      - apply IH. left. rewrite dget_dset. destruct (pyeqb x i); auto.
      - apply IH. destruct D as [->|D]; auto. left. apply dget_dset_same. }
    apply G. auto.
  - unfold respects. cbn. lia.
Qed.
(** A minimum-only time lag cannot be built. *)
Theorem C83_minimum_lag_fails : forall mi, MinimumOnlyTimeLag mi = Err AttributeError.
Proof. reflexivity. Qed.
Theorem C83_minimum_lag_refuted : exists mi h, 0 <= mi /\ mi <= h /\ TimeLag mi h = Ok {| l_min := mi; l_max := h |} /\
  forall l, MinimumOnlyTimeLag mi <> Ok l.
Proof. exists 1, 10. repeat split; try lia; discriminate. Qed.
Example C83_ex : respects (ClassicTimeWindow 2 8 20) 3 7 /\ ~ respects (ClassicTimeWindow 2 8 20) 1 7 /\
  ~ respects (StartTimeWindow 2 4 20) 5 9.
Proof. unfold respects. cbn. lia. Qed.

Print Assumptions C80_sampled_once.
Print Assumptions C80_uniform.
Print Assumptions C80_enumerable_bounds.
Print Assumptions C80_within_bounds.
Print Assumptions C80_progress_ignored.
Print Assumptions C80_progress_refuted.
Print Assumptions C80_deterministic_bounds_refuted.
Print Assumptions C80_latest_refuted.
Print Assumptions C80_uniform_empty.
Print Assumptions C81_member.
Print Assumptions C81_not_member.
Print Assumptions C81_missing_agent_refuted.
Print Assumptions C81_enabled_refuted.
Print Assumptions C82_same_space.
Print Assumptions C82_many_domains_refuted.
Print Assumptions C83_windows.
Print Assumptions C83_without_windows.
Print Assumptions C83_minimum_lag_fails.
Print Assumptions C83_minimum_lag_refuted.
