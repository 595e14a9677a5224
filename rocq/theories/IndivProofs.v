(** Proofs about IndivModel.v. *)
From Coq Require Import String.
From Coq Require Import List Bool Arith ZArith Lia Permutation Sorted.
From Coq Require Import ZifyBool ZifyNat.
From Verif Require Import Py PyList SgsModel SgsProps SatProps IndivModel.
Import ListNotations.
Local Open Scope nat_scope.

Definition covers (t : Z) (b : box) : bool := (b_start b <=? t)%Z && (t <? b_end b)%Z.
Definition apart (b b' : box) : Prop := b_unit b = b_unit b' -> (b_end b <= b_start b')%Z \/ (b_end b' <= b_start b)%Z.
Definition worked (l : list box) (i : nat) : Z :=
  sumZ (map (fun b => b_end b - b_start b)%Z (filter (fun b => b_unit b =? i) l)).

Lemma worked_app : forall l1 l2 i, worked (l1 ++ l2) i = (worked l1 i + worked l2 i)%Z.
Proof. intros. unfold worked. rewrite filter_app, map_app, sumZ_app. reflexivity. Qed.

Lemma paint_length : forall si ei a row, length (paint si ei a row) = length row.
Proof. intros. unfold paint. rewrite map_length, combine_length, seq_length. lia. Qed.

Lemma nth_error_combine : forall A B (l : list A) (m : list B) i x y, nth_error l i = Some x -> nth_error m i = Some y ->
  nth_error (combine l m) i = Some (x, y).
Proof.
  induction l as [|a l IH]; intros [|b m] [|i] x y H1 H2; cbn in *; try discriminate; [congruence|]. auto.
Qed.

Lemma paint_nth : forall si ei a row j x, nth_error row j = Some x ->
  nth_error (paint si ei a row) j = Some (if (si <=? j) && (j <? ei) then a else x).
Proof.
  intros si ei a row j x H. assert (L : j < length row) by (apply nth_error_Some; congruence).
  unfold paint. erewrite map_nth_error; [|apply nth_error_combine; [apply nth_error_seq; exact L|exact H]]. reflexivity.
Qed.

Lemma least_spec : forall u l i0, In (least u i0 l) (i0 :: l) /\ forall i, In i (i0 :: l) -> (load u (least u i0 l) <= load u i)%Z.
Proof.
  intros u. induction l as [|x l IH]; intros i0; cbn [least fold_left].
  - split; [now left|]. intros i [->|[]]. cbn. lia.
  - fold (least u (if (load u x <? load u i0)%Z then x else i0) l).
    destruct (IH (if (load u x <? load u i0)%Z then x else i0)) as [A B]. split.
    + destruct (load u x <? load u i0)%Z; cbn in A |- *; intuition.
    + intros i Hi. pose proof (B _ (or_introl eq_refl)) as B0.
      destruct (load u x <? load u i0)%Z eqn:E; destruct Hi as [<-|[<-|Hi]]; try lia; apply B; cbn; auto.
Qed.

Lemma filter_tag : forall A (g : A -> bool) l, map fst (filter snd (map (fun i => (i, g i)) l)) = filter g l.
Proof. induction l as [|i l IH]; [reflexivity|]. cbn. destruct (g i); cbn; congruence. Qed.

Lemma filter_both : forall A (g : A -> bool) l, length (filter g l) + length (filter (fun i => negb (g i)) l) = length l.
Proof. induction l as [|i l IH]; [reflexivity|]. cbn. destruct (g i); cbn; lia. Qed.

Section One.
Variables (lo hi : Z) (K : nat) (W : Z -> nat).
Definition T := Z.to_nat (hi - lo + 1).

Record okU (u : usage) : Prop := {
  o_rows : length (u_rows u) = K;
  o_row : forall i row, nth_error (u_rows u) i = Some row -> length row = T;
  o_total : length (u_total u) = K;
  o_box : forall b, In b (u_boxes u) -> b_unit b < K /\ b_unit b < W (b_start b) /\ (lo <= b_start b < b_end b)%Z /\ (b_end b <= hi)%Z /\ b_task b <> 0;
  o_free : forall i row j b, nth_error (u_rows u) i = Some row -> nth_error row j = Some 0 -> In b (u_boxes u) -> b_unit b = i ->
    covers (lo + Z.of_nat j) b = false;
  o_busy : forall i row j x, nth_error (u_rows u) i = Some row -> nth_error row j = Some x -> x <> 0 ->
    exists b, In b (u_boxes u) /\ b_unit b = i /\ covers (lo + Z.of_nat j) b = true /\ b_task b = x;
  o_apart : ForallOrdPairs apart (u_boxes u);
  o_load : forall i x, nth_error (u_total u) i = Some x -> x = worked (u_boxes u) i;
  o_fair : forall l0 b l1, u_boxes u = l0 ++ b :: l1 -> forall i, i < W (b_start b) ->
    (forall b', In b' l0 -> b_unit b' = i -> covers (b_start b) b' = false) -> (worked l0 (b_unit b) <= worked l0 i)%Z }.

Lemma FOP_snoc : forall A (R : A -> A -> Prop) l x, ForallOrdPairs R l -> (forall y, In y l -> R y x) -> ForallOrdPairs R (l ++ [x]).
Proof.
  intros A R l x H. induction H as [|y l Hy H IH]; intros Hx; cbn; [repeat constructor|].
  constructor; [|apply IH; intros z Iz; apply Hx; now right].
  rewrite Forall_forall in *. intros z Iz. apply in_app_or in Iz. destruct Iz as [Iz|[<-|[]]]; [auto|]. apply Hx. now left.
Qed.

Lemma snoc_split : forall A (l : list A) x l0 y l1, l ++ [x] = l0 ++ y :: l1 ->
  (l1 = [] /\ l0 = l /\ y = x) \/ exists l1', l1 = l1' ++ [x] /\ l = l0 ++ y :: l1'.
Proof.
  intros A l x l0 y l1 H. destruct l1 as [|z l1 _] using rev_ind.
  - apply app_inj_tail in H. destruct H as [<- <-]. auto.
  - right. exists l1. change (y :: l1 ++ [z]) with ((y :: l1) ++ [z]) in H. rewrite app_assoc in H.
    apply app_inj_tail in H. destruct H as [<- <-]. auto.
Qed.

Lemma index_ok : forall t, (lo <= t <= hi)%Z -> time_index lo hi t = Ok (Z.to_nat (t - lo)).
Proof. intros t H. unfold time_index. replace ((lo <=? t) && (t <=? hi))%Z with true by lia. reflexivity. Qed.

Variables (a : nat) (s e : Z).
Hypothesis a0 : a <> 0.
Hypothesis se : (lo <= s < e)%Z.
Hypothesis eh : (e <= hi)%Z.
Hypothesis WK : W s <= K.
Local Notation si := (Z.to_nat (s - lo)).
Local Notation ei := (Z.to_nat (e - lo)).

Lemma give_ok : forall u i row, okU u -> (forall b, In b (u_boxes u) -> (b_start b <= s)%Z) ->
  nth_error (u_rows u) i = Some row -> nth_error row si = Some 0 -> i < W s ->
  (forall i', i' < W s -> (forall b', In b' (u_boxes u) -> b_unit b' = i' -> covers s b' = false) -> (worked (u_boxes u) i <= worked (u_boxes u) i')%Z) ->
  exists u', give u i si ei a s e = Ok u' /\ okU u' /\ u_boxes u' = u_boxes u ++ [Box i s e a].
Proof.
  intros u i row O St Er Ec Lw Fa. pose proof O as [R1 R2 R3 R4 R5 R6 R7 R8 R9].
  assert (Li : i < K) by (rewrite <- R1; apply nth_error_Some; congruence).
  destruct (nth_error (u_total u) i) as [x|] eqn:Ex; [|apply nth_error_None in Ex; lia].
  unfold give. rewrite (proj2 (lget_ok _ _ _) Er), (proj2 (lget_ok _ _ _) Ex). cbn [bind].
  eexists. split; [reflexivity|]. split; [|reflexivity].
  assert (Cs : forall b, In b (u_boxes u) -> b_unit b = i -> (b_end b <= s)%Z).
  { intros b Ib Eb. pose proof (R5 _ _ _ _ Er Ec Ib Eb) as F. unfold covers in F. specialize (St _ Ib). lia. }
  constructor; cbn [u_rows u_total u_boxes].
  - rewrite lset_length. exact R1.
  - intros i' row' E'. rewrite lset_nth_error in E'. destruct (i =? i') eqn:Ei.
    + destruct (i <? length (u_rows u)); [|discriminate]. injection E' as <-. rewrite paint_length. eauto.
    + eauto.
  - rewrite lset_length. exact R3.
  - intros b Ib. apply in_app_or in Ib. destruct Ib as [Ib|[<-|[]]]; [auto|]. cbn. repeat split; auto; lia.
  - intros i' row' j b E' Ej Ib Eb. rewrite lset_nth_error in E'. destruct (i =? i') eqn:Ei.
    + destruct (i <? length (u_rows u)); [|discriminate]. injection E' as <-. apply Nat.eqb_eq in Ei. subst i'.
      assert (Lj : j < length row) by (rewrite <- (paint_length si ei a row); apply nth_error_Some; congruence).
      destruct (nth_error row j) as [y|] eqn:Ey; [|apply nth_error_None in Ey; lia].
      rewrite (paint_nth _ _ _ _ _ _ Ey) in Ej. destruct ((si <=? j) && (j <? ei)) eqn:Ew; injection Ej as Ej; [congruence|]. subst y.
      apply in_app_or in Ib. destruct Ib as [Ib|[<-|[]]]; [eauto|]. unfold covers. cbn. lia.
    + apply in_app_or in Ib. destruct Ib as [Ib|[<-|[]]]; [eauto|]. cbn in Eb. apply Nat.eqb_neq in Ei. congruence.
  - intros i' row' j y E' Ej Ny. rewrite lset_nth_error in E'. destruct (i =? i') eqn:Ei.
    + destruct (i <? length (u_rows u)); [|discriminate]. injection E' as <-. apply Nat.eqb_eq in Ei. subst i'.
      assert (Lj : j < length row) by (rewrite <- (paint_length si ei a row); apply nth_error_Some; congruence).
      destruct (nth_error row j) as [z|] eqn:Ez; [|apply nth_error_None in Ez; lia].
      rewrite (paint_nth _ _ _ _ _ _ Ez) in Ej. destruct ((si <=? j) && (j <? ei)) eqn:Ew; injection Ej as <-.
      * exists (Box i s e a). split; [apply in_or_app; right; now left|]. split; [reflexivity|]. split; [|reflexivity]. unfold covers. cbn. lia.
      * destruct (R6 _ _ _ _ Er Ez Ny) as (b & Ib & Q). exists b. split; [apply in_or_app; now left|exact Q].
    + destruct (R6 _ _ _ _ E' Ej Ny) as (b & Ib & Q). exists b. split; [apply in_or_app; now left|exact Q].
  - apply FOP_snoc; [exact R7|]. intros b Ib Eb. cbn in Eb. left. cbn. now apply Cs.
  - intros i' y E'. rewrite lset_nth_error in E'. rewrite worked_app. unfold worked at 2. cbn [filter b_unit]. destruct (i =? i') eqn:Ei.
    + destruct (i <? length (u_total u)); [|discriminate]. injection E' as <-. apply Nat.eqb_eq in Ei. subst i'.
      rewrite <- (R8 _ _ Ex). cbn. lia.
    + rewrite <- (R8 _ _ E'). cbn. lia.
  - intros l0 b l1 E' i' Li' Hf. apply snoc_split in E'. destruct E' as [(-> & -> & ->)|(l1' & -> & E')].
    + cbn in *. apply Fa; assumption.
    + eapply R9; eauto.
Qed.

Lemma cell_at : forall u i, okU u -> i < K -> exists row x, nth_error (u_rows u) i = Some row /\ nth_error row si = Some x.
Proof.
  intros u i [R1 R2 _ _ _ _ _ _ _] L. destruct (nth_error (u_rows u) i) as [row|] eqn:E; [|apply nth_error_None in E; lia].
  destruct (nth_error row si) as [x|] eqn:Ex; [eauto|]. apply nth_error_None in Ex. rewrite (R2 _ _ E) in Ex. unfold T in Ex. lia.
Qed.

Lemma free_units_ok : forall u, okU u -> exists l, free_units u si (seq 0 (W s)) = Ok l /\
  (forall i, In i l <-> i < W s /\ exists row, nth_error (u_rows u) i = Some row /\ nth_error row si = Some 0) /\
  W s <= length l + length (filter (covers s) (u_boxes u)).
Proof.
  intros u O.
  set (g := fun i => match nth_error (u_rows u) i with Some row => match nth_error row si with Some x => x =? 0 | None => false end | None => false end).
  assert (E : mapM (fun i => let* b := is_free u si i in Ok (i, b)) (seq 0 (W s)) = Ok (map (fun i => (i, g i)) (seq 0 (W s)))).
  { apply mapM_total. intros i Ii. apply in_seq in Ii. destruct (cell_at u i O) as (row & x & E1 & E2); [lia|].
    unfold is_free, g. rewrite (proj2 (lget_ok _ _ _) E1). cbn [bind]. rewrite (proj2 (lget_ok _ _ _) E2). cbn [bind]. now rewrite E1, E2. }
  unfold free_units. rewrite E. cbn [bind]. eexists. split; [reflexivity|].
  assert (F : map fst (filter snd (map (fun i => (i, g i)) (seq 0 (W s)))) = filter g (seq 0 (W s))).
  { apply filter_tag. }
  rewrite F. split.
  - intros i. rewrite filter_In, in_seq. split.
    + intros [L G]. split; [lia|]. unfold g in G. destruct (nth_error (u_rows u) i) as [row|]; [|discriminate]. exists row. split; [reflexivity|].
      destruct (nth_error row si) as [x|]; [|discriminate]. apply Nat.eqb_eq in G. now subst.
    + intros (L & row & E1 & E2). split; [lia|]. unfold g. now rewrite E1, E2.
  - assert (C : length (filter g (seq 0 (W s))) + length (filter (fun i => negb (g i)) (seq 0 (W s))) = W s).
    { rewrite filter_both. apply seq_length. }
    enough (length (filter (fun i => negb (g i)) (seq 0 (W s))) <= length (filter (covers s) (u_boxes u))) by lia.
    rewrite <- (map_length b_unit). apply NoDup_incl_length; [apply NoDup_filter, seq_NoDup|].
    intros i Ii. apply filter_In in Ii. destruct Ii as [L G]. apply in_seq in L.
    destruct (cell_at u i O) as (row & x & E1 & E2); [lia|]. unfold g in G. rewrite E1, E2 in G.
    destruct (o_busy u O _ _ _ _ E1 E2) as (b & Ib & Eb & Cb & _); [lia|]. rewrite Z2Nat.id in Cb by lia.
    replace (lo + (s - lo))%Z with s in Cb by lia. apply in_map_iff. exists b. split; [exact Eb|]. apply filter_In. auto.
Qed.

Lemma serve_ok : forall needed u, okU u -> (forall b, In b (u_boxes u) -> (b_start b <= s)%Z) ->
  needed + length (filter (covers s) (u_boxes u)) <= W s ->
  exists u' us, serve lo hi (seq 0 (W s)) a s e needed u = Ok u' /\ okU u' /\ length us = needed /\
    u_boxes u' = u_boxes u ++ map (fun i => Box i s e a) us.
Proof.
  induction needed as [|needed IH]; intros u O St L; cbn [serve].
  { exists u, []. cbn. rewrite app_nil_r. auto. }
  rewrite index_ok by lia. cbn [bind]. destruct (free_units_ok u O) as (l & E & In_l & Cn). rewrite E. cbn [bind].
  destruct l as [|i0 l]; [cbn in Cn; lia|]. rewrite index_ok by lia. cbn [bind].
  destruct (least_spec u l i0) as [Il Ml]. destruct (proj1 (In_l _) Il) as (Lw & row & E1 & E2).
  assert (Ld : forall i, i < K -> load u i = worked (u_boxes u) i).
  { intros i Li. unfold load. destruct (nth_error (u_total u) i) as [x|] eqn:Ex.
    - rewrite (nth_error_nth _ _ _ Ex). now apply (o_load u O).
    - apply nth_error_None in Ex. rewrite (o_total u O) in Ex. lia. }
  destruct (give_ok u (least u i0 l) row O St E1 E2 Lw) as (u1 & G & O1 & B1).
  { intros i' Li' Hf. rewrite <- !Ld by lia. apply Ml. apply In_l. split; [exact Li'|].
    destruct (cell_at u i' O) as (row' & x & E1' & E2'); [lia|]. exists row'. split; [exact E1'|].
    destruct (Nat.eq_dec x 0) as [->|Nx]; [exact E2'|]. destruct (o_busy u O _ _ _ _ E1' E2' Nx) as (b & Ib & Eb & Cb & _).
    rewrite Z2Nat.id in Cb by lia. replace (lo + (s - lo))%Z with s in Cb by lia. rewrite (Hf _ Ib Eb) in Cb. discriminate. }
  rewrite G. cbn [bind]. destruct (IH u1 O1) as (u' & us & S1 & O' & Lu & Bu).
  - rewrite B1. intros b Ib. apply in_app_or in Ib. destruct Ib as [Ib|[<-|[]]]; [auto|]. cbn. lia.
  - rewrite B1, filter_app, app_length. cbn [filter]. unfold covers at 2. cbn [b_start b_end].
    replace ((s <=? s) && (s <? e))%Z with true by lia. cbn [length]. lia.
  - exists u', (least u i0 l :: us). split; [exact S1|]. split; [exact O'|]. split; [cbn; lia|].
    rewrite Bu, B1, <- app_assoc. reflexivity.
Qed.
End One.

(** *** All the resources, all the tasks *)
Lemma dset_new : forall V (d : list (string * V)) k v, ~ In k (dkeys d) -> dset d k v = d ++ [(k, v)].
Proof.
  induction d as [|[k' w] d IH]; intros k v NI; cbn [dset]; auto. destruct (pyeqb_spec k k') as [ -> |NE].
  - exfalso. apply NI. cbn. auto.
  - cbn. f_equal. apply IH. intros X. apply NI. cbn. auto.
Qed.

Lemma fold_dset : forall V (f : string -> res V) (g : string -> V) rs, NoDup rs -> (forall r, In r rs -> f r = Ok (g r)) ->
  foldM (fun d r => let* v := f r in Ok (dset d r v)) [] rs = Ok (map (fun r => (r, g r)) rs).
Proof.
  intros V f g rs N H.
  destruct (foldM_total (fun (d : list (string * V)) r => let* v := f r in Ok (dset d r v)) (fun l d => d = map (fun r => (r, g r)) l) (l := rs) [])
    as (d & E & ->); [reflexivity| |exact E].
  intros l0 r l1 d -> ->. rewrite H by (apply in_or_app; right; now left). cbn [bind]. eexists. split; [reflexivity|].
  rewrite map_app. cbn [map]. apply dset_new. unfold dkeys. rewrite map_map. cbn. rewrite map_id.
  apply NoDup_remove_2 in N. intros X. apply N. apply in_or_app. now left.
Qed.

Section All.
Variables (p : rcpsp) (modes : list nat) (n : nat) (sch : schedule) (rs : list string) (lo hi : Z) (K : string -> nat) (W : string -> Z -> nat).
Hypothesis Tk : tasks p modes n.
Hypothesis F : Permutation (map fst sch) (seq 1 (n + 2)).
Hypothesis St : forall a s e, In (a, (s, e)) sch -> (lo <= s <= e)%Z /\ (e <= hi)%Z.
Hypothesis Nd : NoDup rs.
Hypothesis Known : incl rs (res_names p).
Hypothesis Dem : forall a r, (0 <= demand p modes a r)%Z.
Hypothesis HK : forall r, In r rs -> nb_units p r = Ok (K r).
Hypothesis HW : forall r a s e u, In r rs -> In (a, (s, e)) sch -> (s < e)%Z -> length (u_rows u) = K r ->
  units_at p lo hi r u s = Ok (seq 0 (W r s)) /\ W r s <= K r /\ (running p modes sch r s <= Z.of_nat (W r s))%Z.

Definition of_task (a : nat) (b : box) : bool := b_task b =? a.

Record fits (seen : schedule) (r : string) (u : usage) : Prop := {
  f_ok : okU lo hi (K r) (W r) u;
  f_from : forall b, In b (u_boxes u) -> In (b_task b, (b_start b, b_end b)) seen;
  f_count : forall a s e, In (a, (s, e)) seen -> (s < e)%Z -> Z.of_nat (length (filter (of_task a) (u_boxes u))) = demand p modes a r;
  f_running : forall t, Z.of_nat (length (filter (covers t) (u_boxes u))) = running p modes seen r t }.

Definition table (f : string -> schedule) (tb : list (string * usage)) : Prop :=
  dkeys tb = rs /\ forall r, In r rs -> exists u, dget tb r = Some u /\ fits (f r) r u.

Lemma running_app : forall l1 l2 r t, running p modes (l1 ++ l2) r t = (running p modes l1 r t + running p modes l2 r t)%Z.
Proof. intros. unfold running. now rewrite map_app, sumZ_app. Qed.

Lemma running_nonneg : forall l r t, (0 <= running p modes l r t)%Z.
Proof. intros. unfold running. apply sumZ_map_nonneg. intros [a [s e]] _. specialize (Dem a r). destruct (_ && _); lia. Qed.

Lemma mode_ok : forall a s e, In (a, (s, e)) sch -> exists i k, a = S i /\ lget (1 :: modes ++ [1]) i = Ok k /\
  forall r, In r rs -> need_of p a k r = Ok (demand p modes a r).
Proof.
  intros a s e I. assert (R : 1 <= a <= n + 2).
  { assert (X : In a (seq 1 (n + 2))) by (eapply Permutation_in; [exact F|]; apply in_map_iff; exists (a, (s, e)); auto). apply in_seq in X. lia. }
  destruct a as [|i]; [lia|].
  pose proof (k_exist _ _ _ Tk _ R) as Ch. pose proof (k_sink _ _ _ Tk) as Sk. pose proof (k_modes _ _ _ Tk) as Lm.
  assert (E : exists k, lget (1 :: modes ++ [1]) i = Ok k /\ (if (S i =? 1) || (S i =? p_sink p) then Some 1 else nth_error modes (S i - 2)) = Some k).
  { destruct i as [|i].
    - exists 1. split; reflexivity.
    - destruct (S (S i) =? p_sink p) eqn:Es.
      + exists 1. split; [|reflexivity]. apply lget_ok. cbn [nth_error]. rewrite nth_error_app2 by lia.
        replace (i - length modes) with 0 by lia. reflexivity.
      + destruct (nth_error modes i) as [k|] eqn:Ek; [|apply nth_error_None in Ek; lia]. exists k. split.
        * apply lget_ok. cbn [nth_error]. rewrite nth_error_app1 by lia. exact Ek.
        * cbn [orb Nat.eqb]. cbn. rewrite Nat.sub_0_r. exact Ek. }
  destruct E as (k & E1 & E2). exists i, k. split; [reflexivity|]. split; [exact E1|].
  intros r Ir. unfold need_of, demand. unfold chosen in *. rewrite E2 in *.
  destruct (dget (p_modes p) (S i)) as [d|] eqn:Ed; [|congruence]. unfold dgetE. rewrite Ed. cbn [bind].
  destruct (dget d k) as [m|] eqn:Em; [|congruence]. cbn [bind].
  destruct (in_need _ (k_instance _ _ _ Tk) _ _ _ _ r Ed Em (Known _ Ir)) as (x & Ex). rewrite Ex. reflexivity.
Qed.

Lemma task_ok : forall seen a s e rest tb, Permutation sch (seen ++ (a, (s, e)) :: rest) ->
  (forall a' s' e', In (a', (s', e')) seen -> (s' <= s)%Z) -> table (fun _ => seen) tb ->
  exists tb', serve_task p modes rs lo hi tb (a, (s, e)) = Ok tb' /\ table (fun _ => seen ++ [(a, (s, e))]) tb'.
Proof.
  intros seen a s e rest tb P So [Ke Ta].
  assert (I : In (a, (s, e)) sch) by (eapply Permutation_in; [apply Permutation_sym; exact P|]; apply in_or_app; right; now left).
  assert (Na : forall s' e', ~ In (a, (s', e')) seen).
  { intros s' e' X. assert (N : NoDup (map fst (seen ++ (a, (s, e)) :: rest))).
    { eapply Permutation_NoDup; [apply Permutation_map; exact P|]. eapply Permutation_NoDup; [apply Permutation_sym; exact F|apply seq_NoDup]. }
    rewrite map_app in N. cbn [map fst] in N. apply NoDup_remove_2 in N. apply N. apply in_or_app. left. apply in_map_iff. exists (a, (s', e')). auto. }
  destruct (mode_ok a s e I) as (i & k & -> & El & En). destruct (St _ _ _ I) as [S1 S2].
  unfold serve_task. rewrite El. cbn [bind]. destruct (e =? s)%Z eqn:Es.
  { exists tb. split; [reflexivity|]. split; [exact Ke|]. intros r Ir. destruct (Ta r Ir) as (u & Eu & [O A B C]). exists u. split; [exact Eu|].
    constructor; [exact O| | |].
    - intros b Ib. apply in_or_app. left. auto.
    - intros a' s' e' X L. apply in_app_or in X. destruct X as [X|[X|[]]]; [eauto|]. injection X as <- <- <-. lia.
    - intros t. rewrite running_app, <- C. unfold running. cbn. destruct ((s <=? t) && (t <? e))%Z eqn:X; lia. }
  rewrite (fold_dset Z (need_of p (S i) k) (demand p modes (S i)) rs Nd En). cbn [bind].
  set (needs := map (fun r => (r, demand p modes (S i) r)) rs).
  destruct (foldM_total (serve_resource p lo hi (S i) s e)
     (fun l tb' => table (fun r => if pymem r (map fst l) then seen ++ [(S i, (s, e))] else seen) tb') (l := needs) tb) as (tb' & E & T').
  - split; [exact Ke|]. intros r Ir. cbn. auto.
  - intros l0 [r d] l1 tb1 El1 [K1 T1]. unfold serve_resource. cbn [fst snd].
    assert (Fst : map fst needs = rs) by (unfold needs; rewrite map_map; cbn; apply map_id).
    assert (Ird : In (r, d) needs) by (rewrite El1; apply in_or_app; right; now left).
    assert (Ir : In r rs) by (rewrite <- Fst; apply in_map_iff; exists (r, d); auto).
    assert (Ed : d = demand p modes (S i) r) by (unfold needs in Ird; apply in_map_iff in Ird; destruct Ird as (r' & X & _); injection X as -> <-; reflexivity).
    subst d. assert (Nr : ~ In r (map fst l0)).
    { pose proof Nd as N. rewrite <- Fst, El1, map_app in N. cbn [map fst] in N. apply NoDup_remove_2 in N. intros X. apply N. apply in_or_app. now left. }
    destruct (T1 r Ir) as (u & Eu & Fu). replace (pymem r (map fst l0)) with false in Fu by (symmetry; apply pymem_false; exact Nr).
    rewrite Eu. destruct Fu as [O A B C].
    destruct (HW r (S i) s e u Ir I ltac:(lia) (o_rows _ _ _ _ _ O)) as (Eu1 & WK & Cap). rewrite Eu1. cbn [bind].
    assert (Run : (demand p modes (S i) r + running p modes seen r s <= running p modes sch r s)%Z).
    { assert (X : running p modes sch r s = running p modes (seen ++ (S i, (s, e)) :: rest) r s) by (unfold running; apply sumZ_map_perm; exact P).
      rewrite X, running_app. change ((S i, (s, e)) :: rest) with ([(S i, (s, e))] ++ rest). rewrite running_app.
      pose proof (running_nonneg rest r s). unfold running at 3. cbn [map]. replace ((s <=? s) && (s <? e))%Z with true by lia. cbn. lia. }
    destruct (serve_ok lo hi (K r) (W r) (S i) s e ltac:(lia) ltac:(lia) S2 WK (Z.to_nat (demand p modes (S i) r)) u O) as (u' & us & Es' & O' & Lu & Bu).
    + intros b Ib. eapply So. apply A. exact Ib.
    + specialize (Dem (S i) r). specialize (C s). lia.
    + rewrite Es'. cbn [bind]. eexists. split; [reflexivity|]. split; [rewrite dset_keys_present; [exact K1|rewrite K1; exact Ir]|].
      intros r' Ir'. rewrite map_app. cbn [map fst]. destruct (string_dec r' r) as [->|Ne].
      * exists u'. split; [apply dget_dset_same|]. replace (pymem r (map fst l0 ++ [r])) with true
          by (symmetry; apply pymem_true; apply in_or_app; right; now left).
        constructor; [exact O'| | |].
        -- intros b Ib. rewrite Bu in Ib. apply in_or_app. apply in_app_or in Ib. destruct Ib as [Ib|Ib]; [left; auto|right].
           apply in_map_iff in Ib. destruct Ib as (q & <- & _). now left.
        -- intros a' s' e' X L. rewrite Bu, filter_app, app_length, Nat2Z.inj_add. apply in_app_or in X. destruct X as [X|[X|[]]].
           ++ assert (Ne : a' <> S i) by (intros ->; exact (Na _ _ X)).
              rewrite (B _ _ _ X L). replace (filter (of_task a') (map (fun q => Box q s e (S i)) us)) with (@nil box); [cbn; lia|].
              symmetry. clear -Ne. induction us as [|q us IH]; [reflexivity|]. cbn [map filter]. unfold of_task at 1. cbn [b_task].
              destruct (Nat.eqb_spec (S i) a'); [congruence|exact IH].
           ++ injection X as <- <- <-. replace (filter (of_task (S i)) (u_boxes u)) with (@nil box).
              ** replace (filter (of_task (S i)) (map (fun q => Box q s e (S i)) us)) with (map (fun q => Box q s e (S i)) us).
                 --- cbn [length]. rewrite map_length. specialize (Dem (S i) r). lia.
                 --- symmetry. clear. induction us as [|q us IH]; [reflexivity|]. cbn [map filter]. unfold of_task at 1. cbn [b_task].
                     rewrite Nat.eqb_refl. now rewrite IH.
              ** symmetry. clear -A Na. induction (u_boxes u) as [|b bs IH]; [reflexivity|]. cbn [filter]. unfold of_task at 1.
                 destruct (Nat.eqb_spec (b_task b) (S i)) as [X|X]; [|apply IH; intros; apply A; now right].
                 exfalso. apply (Na (b_start b) (b_end b)). rewrite <- X. apply A. now left.
        -- intros t. rewrite Bu, filter_app, app_length, Nat2Z.inj_add, running_app, C. f_equal.
           unfold running. cbn [map]. change (sumZ [?x]) with (x + 0)%Z.
           replace (filter (covers t) (map (fun q => Box q s e (S i)) us)) with
             (if ((s <=? t) && (t <? e))%Z then map (fun q => Box q s e (S i)) us else []).
           ++ specialize (Dem (S i) r). destruct ((s <=? t) && (t <? e))%Z; cbn; [rewrite map_length|]; lia.
           ++ clear. induction us as [|q us IH]; [now destruct ((s <=? t) && (t <? e))%Z|]. cbn [map filter]. unfold covers at 1. cbn [b_start b_end].
              destruct ((s <=? t) && (t <? e))%Z; [now rewrite <- IH|exact IH].
      * destruct (T1 r' Ir') as (u2 & Eu2 & Fu2). exists u2. split; [rewrite dget_dset_other; auto|].
        replace (pymem r' (map fst l0 ++ [r])) with (pymem r' (map fst l0)); [exact Fu2|].
        destruct (pymem r' (map fst l0)) eqn:X; symmetry.
        -- apply pymem_true. apply in_or_app. left. apply pymem_true in X. exact X.
        -- apply pymem_false. intros Y. apply in_app_or in Y. destruct Y as [Y|[Y|[]]]; [|congruence].
           apply pymem_false in X. exact (X Y).
  - exists tb'. split; [exact E|]. destruct T' as [K' T']. split; [exact K'|]. intros r Ir. specialize (T' r Ir).
    assert (Fst : map fst needs = rs) by (unfold needs; rewrite map_map; cbn; apply map_id). rewrite Fst in T'.
    replace (pymem r rs) with true in T' by (symmetry; apply pymem_true; exact Ir). exact T'.
Qed.

Lemma init_ok : (lo <= hi)%Z -> exists tb, foldM (init_usage p lo hi) [] rs = Ok tb /\ table (fun _ => []) tb.
Proof.
  intros Lh. exists (map (fun r => (r, Usage (repeat (repeat 0 (Z.to_nat (hi - lo + 1))) (K r)) (repeat 0%Z (K r)) [])) rs). split.
  - rewrite <- (fold_dset usage (fun r => let* k := nb_units p r in
       Ok (Usage (repeat (repeat 0 (Z.to_nat (hi - lo + 1))) k) (repeat 0%Z k) [])) (fun r => Usage (repeat (repeat 0 (Z.to_nat (hi - lo + 1))) (K r)) (repeat 0%Z (K r)) []) rs Nd).
    + assert (G : forall l acc, foldM (init_usage p lo hi) acc l = foldM (fun d r => let* v := (let* k := nb_units p r in
        Ok (Usage (repeat (repeat 0 (Z.to_nat (hi - lo + 1))) k) (repeat 0%Z k) [])) in Ok (dset d r v)) acc l).
      { induction l as [|r l IH]; intros acc; [reflexivity|]. cbn [foldM]. unfold init_usage at 1.
        replace (hi - lo + 1 <? 0)%Z with false by lia. destruct (nb_units p r); cbn [bind]; [apply IH|reflexivity]. }
      apply G.
    + intros r Ir. now rewrite (HK r Ir).
  - split; [unfold dkeys; rewrite map_map; cbn; apply map_id|]. intros r Ir. eexists. split.
    + apply In_dget; [unfold dkeys; rewrite map_map; cbn; rewrite map_id; exact Nd|]. apply in_map_iff. exists r. split; [reflexivity|exact Ir].
    + constructor.
      * constructor; cbn [u_rows u_total u_boxes]; try apply repeat_length; try contradiction.
        -- intros i row E. apply nth_error_In in E. apply repeat_spec in E. subst row. apply repeat_length.
        -- intros i row j x E Ex Nx. apply nth_error_In in E. apply repeat_spec in E. subst row. apply nth_error_In in Ex. apply repeat_spec in Ex. contradiction.
        -- constructor.
        -- intros i x E. apply nth_error_In in E. apply repeat_spec in E. now subst.
        -- intros l0 b l1 E. destruct l0; discriminate.
      * cbn. contradiction.
      * cbn. contradiction.
      * reflexivity.
Qed.

Lemma all_ok : (lo <= hi)%Z -> window sch = Ok (lo, hi) -> (forall x y, In x (map fst sch) -> In y (map fst sch) -> (Z.of_nat x - Z.of_nat y < 100000)%Z) ->
  exists tb, per_individual p modes sch rs = Ok tb /\ table (fun _ => by_start sch) tb.
Proof.
  intros Lh Ew Sm. unfold per_individual. rewrite Ew. cbn [bind fst snd]. destruct (init_ok Lh) as (tb0 & E0 & T0). rewrite E0. cbn [bind].
  assert (Pb : Permutation sch (by_start sch)) by apply ssort_perm.
  assert (So : StronglySorted (fun x y : nat * (Z * Z) => (fst (snd x) <= fst (snd y))%Z) (by_start sch)).
  { assert (G : StronglySorted (fun x y : nat * (Z * Z) => (date_key (fst (snd x)) (fst x) <=? date_key (fst (snd y)) (fst y))%Z = true) (by_start sch)).
    { apply Sorted_StronglySorted; [intros x y z X Y; lia|]. unfold by_start. apply ssort_sorted. intros x y X. lia. }
    assert (Inc : forall x, In x (by_start sch) -> In (fst x) (map fst sch)).
    { intros x Ix. apply in_map. eapply Permutation_in; [apply Permutation_sym; exact Pb|exact Ix]. }
    clear -G Inc Sm. induction G as [|x l G IH H]; constructor.
    - apply IH. intros y Iy. apply Inc. now right.
    - rewrite Forall_forall in *. intros y Iy. specialize (H y Iy). unfold date_key in H.
      specialize (Sm (fst y) (fst x) (Inc _ (or_intror Iy)) (Inc _ (or_introl eq_refl))). lia. }
  destruct (foldM_total (serve_task p modes rs lo hi) (fun l tb => table (fun _ => l) tb) (l := by_start sch) tb0) as (tb & E & T1).
  - exact T0.
  - intros l0 [a [s e]] l1 tb1 El T1. apply task_ok with (rest := l1); [rewrite Pb, El; reflexivity| |exact T1].
    intros a' s' e' I'. rewrite El in So. clear -So I'. induction l0 as [|x l0 IH]; [contradiction|]. cbn in So.
    apply StronglySorted_inv in So. destruct So as [So H]. destruct I' as [->|I']; [|apply IH; assumption].
    rewrite Forall_forall in H. apply (H (a, (s, e))). apply in_or_app. right. now left.
  - exists tb. auto.
Qed.
End All.
