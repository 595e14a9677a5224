(** C141: the tasks of a schedule given to the individual units of the resources. *)
From Coq Require Import String.
From Coq Require Import List Bool Arith ZArith Lia Permutation Sorted.
From Coq Require Import ZifyBool ZifyNat.
From Verif Require Import Py PyList SgsModel SgsProps SatProps IndivModel IndivProofs.
Import ListNotations.
Local Open Scope nat_scope.

(** * Specification vocabulary.
    [covers t b]: the box is drawn over time [t]; [apart b b']: when on the same unit, not at the same time;
    [worked l i]: the time of unit [i] over the boxes [l] (IndivProofs.v). *)
Record staffed (p : rcpsp) (modes : list nat) (sch : schedule) (r : string) (u : usage) : Prop := {
  (** a box is a task of the schedule on an existing unit *)
  st_box : forall b, In b (u_boxes u) -> In (b_task b, (b_start b, b_end b)) sch /\ (b_start b < b_end b)%Z /\
    exists cap, capacity_of p r (Z.to_nat (b_start b)) = Some cap /\ (Z.of_nat (b_unit b) < cap)%Z;
  (** every task has as many units as it needs *)
  st_count : forall a s e, In (a, (s, e)) sch -> (s < e)%Z -> Z.of_nat (length (filter (of_task a) (u_boxes u))) = demand p modes a r;
  (** no unit does two things at a time *)
  st_apart : ForallOrdPairs apart (u_boxes u);
  st_busy : forall t, Z.of_nat (length (filter (covers t) (u_boxes u))) = running p modes sch r t;
  (** the table says the same *)
  st_cell : forall i row t x, nth_error (u_rows u) i = Some row -> nth_error row t = Some x ->
    (x = 0 /\ forall b, In b (u_boxes u) -> b_unit b = i -> covers (Z.of_nat t) b = false) \/
    (x <> 0 /\ exists b, In b (u_boxes u) /\ b_unit b = i /\ b_task b = x /\ covers (Z.of_nat t) b = true);
  st_shape : forall b, In b (u_boxes u) -> exists row, nth_error (u_rows u) (b_unit b) = Some row /\ (b_end b <= Z.of_nat (length row))%Z;
  st_load : length (u_total u) = length (u_rows u) /\ forall i x, nth_error (u_total u) i = Some x -> x = worked (u_boxes u) i;
  (** each box went to a unit that had worked the least among those free and present at its start *)
  st_fair : forall l0 b l1, u_boxes u = l0 ++ b :: l1 -> forall i cap, capacity_of p r (Z.to_nat (b_start b)) = Some cap -> (Z.of_nat i < cap)%Z ->
    (forall b', In b' l0 -> b_unit b' = i -> covers (b_start b) b' = false) -> (worked l0 (b_unit b) <= worked l0 i)%Z }.

Lemma last_sorted : forall A (R : A -> A -> Prop) l (x : A), StronglySorted R (x :: l) -> (forall y, R y y) ->
  In (last l x) (x :: l) /\ forall y, In y (x :: l) -> R y (last l x).
Proof.
  intros A R l x S Rf. destruct (@exists_last A (x :: l)) as (l' & m & E); [discriminate|].
  assert (L : last l x = m).
  { transitivity (last (x :: l) x); [destruct l; reflexivity|]. rewrite E. apply last_last. }
  rewrite L, E in *. split; [apply in_or_app; right; now left|]. intros y Iy. apply in_app_or in Iy. destruct Iy as [Iy|[<-|[]]]; [|apply Rf].
  clear -S Iy. induction l' as [|z l' IH]; [contradiction|]. cbn in S. apply StronglySorted_inv in S. destruct S as [S H].
  destruct Iy as [<-|Iy]; [|now apply IH]. rewrite Forall_forall in H. apply H. apply in_or_app. right. now left.
Qed.

Lemma window_ok : forall sch, In (1, (0, 0)%Z) sch -> (forall a s e, In (a, (s, e)) sch -> a <> 0 /\ (Z.of_nat a < 100000)%Z /\ (0 <= s <= e)%Z) ->
  exists hi, window sch = Ok (0%Z, hi) /\ (0 <= hi)%Z /\ forall a s e, In (a, (s, e)) sch -> (e <= hi)%Z.
Proof.
  intros sch I1 H. unfold window. assert (P : Permutation sch (by_end sch)) by apply ssort_perm.
  assert (So : StronglySorted (fun x y : nat * (Z * Z) => (date_key (snd (snd x)) (fst x) <=? date_key (snd (snd y)) (fst y))%Z = true) (by_end sch)).
  { apply Sorted_StronglySorted; [intros x y z X Y; lia|]. unfold by_end. apply ssort_sorted. intros x y X. lia. }
  destruct (by_end sch) as [|[a0 [s0 e0]] l] eqn:E; [apply Permutation_sym, Permutation_nil in P; subst; contradiction|].
  destruct (last_sorted _ _ _ _ So) as [Il Ml]; [intros; lia|]. cbn [fst snd].
  assert (I0 : In (a0, (s0, e0)) sch) by (eapply Permutation_in; [apply Permutation_sym; exact P|now left]).
  assert (Z0 : s0 = 0%Z).
  { assert (D : (date_key e0 a0 <= date_key 0 1)%Z).
    { assert (X : In (1, (0, 0)%Z) ((a0, (s0, e0)) :: l)) by (eapply Permutation_in; [exact P|exact I1]).
      destruct X as [X|X]; [injection X as -> -> ->; lia|]. apply StronglySorted_inv in So. destruct So as [_ So]. rewrite Forall_forall in So.
      specialize (So _ X). cbn [fst snd] in So. lia. }
    unfold date_key in D. destruct (H _ _ _ I0). lia. }
  subst s0. destruct (last l (a0, (0%Z, e0))) as [al [sl el]] eqn:El. cbn [fst snd]. exists el.
  assert (Is : In (al, (sl, el)) sch) by (eapply Permutation_in; [apply Permutation_sym; exact P|exact Il]).
  split; [reflexivity|]. split; [destruct (H _ _ _ Is); lia|]. intros a s e I.
  assert (X : In (a, (s, e)) ((a0, (0%Z, e0)) :: l)) by (eapply Permutation_in; [exact P|exact I]).
  specialize (Ml _ X). cbn [fst snd] in Ml. unfold date_key in Ml. destruct (H _ _ _ I) as (? & ? & ?). destruct (H _ _ _ Is) as (? & ? & ?). lia.
Qed.

Lemma max_list : forall l x, (x <= fold_left Z.max l x)%Z /\ forall y, In y l -> (y <= fold_left Z.max l x)%Z.
Proof.
  induction l as [|z l IH]; intros x; cbn; [split; [lia|contradiction]|]. destruct (IH (Z.max x z)) as [A B]. split; [lia|].
  intros y [<-|Iy]; [lia|auto].
Qed.

Definition cap_at (p : rcpsp) (r : string) (s : Z) : nat :=
  Z.to_nat match capacity_of p r (Z.to_nat s) with Some c => c | None => 0%Z end.
Definition columns (p : rcpsp) (r : string) : nat :=
  match p_res p with
  | Constant c => Z.to_nat match dget c r with Some x => x | None => 0%Z end
  | Calendar c => match dget c r with Some (x :: l) => Z.to_nat (fold_left Z.max l x) | _ => 0 end
  end.

Section Units.
Variables (p : rcpsp) (modes : list nat) (n : nat) (sch : schedule) (rs : list string).
(** A schedule of all the tasks, with the source at time 0, for which the capacities at the start of each task suffice.
    (The order of the tasks is wrong beyond task 100000.) *)
Hypothesis Tk : tasks p modes n.
Hypothesis Sa : sane p.
Hypothesis F : Permutation (map fst sch) (seq 1 (n + 2)).
Hypothesis Small : (Z.of_nat n + 2 < 100000)%Z.
Hypothesis St : forall a s e, In (a, (s, e)) sch -> (0 <= s <= e)%Z.
Hypothesis Source : In (1, (0, 0)%Z) sch.
Hypothesis Dem : forall a r, (0 <= demand p modes a r)%Z.
Hypothesis Nd : NoDup rs.
Hypothesis Open : forall r, In r rs -> capacity_of p r 0 <> None.
Hypothesis Enough : forall r a s e, In r rs -> In (a, (s, e)) sch -> (s < e)%Z ->
  exists cap, capacity_of p r (Z.to_nat s) = Some cap /\ (running p modes sch r s <= cap)%Z.

Lemma cap_max : forall r t cap, capacity_of p r t = Some cap -> Z.to_nat cap <= columns p r.
Proof.
  intros r t cap E. unfold capacity_of in E. unfold columns. destruct (p_res p) as [c|c].
  - rewrite E. lia.
  - destruct (dget c r) as [[|x l]|]; [destruct t; discriminate| |discriminate]. destruct (max_list l x) as [A B].
    destruct t as [|t]; cbn in E; [injection E as ->; lia|]. apply nth_error_In in E. specialize (B _ E). lia.
Qed.

(** Each task gets the units it needs, no unit does two things at a time, and the least loaded free unit is taken. *)
Theorem C141_units : exists tb, per_individual p modes sch rs = Ok tb /\ dkeys tb = rs /\
  forall r u, dget tb r = Some u -> staffed p modes sch r u.
Proof.
  assert (Hn : forall a s e, In (a, (s, e)) sch -> a <> 0 /\ (Z.of_nat a < 100000)%Z /\ (0 <= s <= e)%Z).
  { intros a s e I. assert (X : In a (seq 1 (n + 2))) by (eapply Permutation_in; [exact F|]; apply in_map_iff; exists (a, (s, e)); auto).
    apply in_seq in X. specialize (St _ _ _ I). lia. }
  destruct (window_ok sch Source Hn) as (hi & Ew & Lh & Hh).
  destruct (all_ok p modes n sch rs 0 hi (columns p) (cap_at p) Tk F) as (tb & E & [Ke Ta]); auto.
  - intros a s e I. split; [eauto|]. eauto.
  - intros r Ir. specialize (Open r Ir). unfold capacity_of in Open. unfold res_names. destruct (p_res p) as [c|c].
    + destruct (dget c r) as [x|] eqn:D; [|congruence]. apply dget_In in D. apply in_map_iff. exists (r, x). auto.
    + destruct (dget c r) as [x|] eqn:D; [|congruence]. apply dget_In in D. apply in_map_iff. exists (r, x). auto.
  - intros r Ir. specialize (Open r Ir). pose proof (s_caps _ Sa r) as Cp. unfold nb_units, columns, dgetE. unfold capacity_of in Open, Cp.
    destruct (p_res p) as [c|c].
    + destruct (dget c r) as [x|]; [|congruence]. cbn [bind]. specialize (Cp 0 x eq_refl). replace (x <? 0)%Z with false by lia. reflexivity.
    + destruct (dget c r) as [[|x l]|]; [cbn in Open; congruence| |congruence]. cbn [bind]. specialize (Cp 0 x eq_refl).
      destruct (max_list l x) as [A _]. replace (fold_left Z.max l x <? 0)%Z with false by lia. reflexivity.
  - intros r a s e u Ir I L Lu. destruct (Enough r a s e Ir I L) as (cap & Ec & Rc). unfold cap_at. rewrite Ec.
    split; [|split; [exact (cap_max _ _ _ Ec)|pose proof (s_caps _ Sa _ _ _ Ec); lia]].
    pose proof (cap_max _ _ _ Ec) as Cm. unfold units_at, columns in *. unfold capacity_of in Ec. destruct (p_res p) as [c|c].
    + rewrite Ec in Lu. rewrite Lu. reflexivity.
    + unfold dgetE. destruct (dget c r) as [row|]; [|discriminate]. cbn [bind]. specialize (St _ _ _ I). specialize (Hh _ _ _ I).
      rewrite (index_ok 0 hi (fun _ => 0) s) by (split; [apply St|etransitivity; [apply St|exact Hh]]). cbn [bind]. rewrite Z.sub_0_r, (proj2 (lget_ok _ _ _) Ec). reflexivity.
  - intros x y Ix Iy. apply in_map_iff in Ix, Iy. destruct Ix as ([x' [sx ex]] & <- & Ix). destruct Iy as ([y' [sy ey]] & <- & Iy).
    destruct (Hn _ _ _ Ix) as (? & ? & _). destruct (Hn _ _ _ Iy) as (? & ? & _). cbn [fst]. lia.
  - exists tb. split; [exact E|]. split; [exact Ke|]. intros r u Du.
    assert (Ir : In r rs) by (rewrite <- Ke; apply dget_In in Du; apply in_map_iff; exists (r, u); auto).
    destruct (Ta r Ir) as (u' & Du' & [[R1 R2 R3 R4 R5 R6 R7 R8 R9] A B C]). rewrite Du in Du'. injection Du' as <-.
    assert (P : Permutation sch (by_start sch)) by apply ssort_perm.
    assert (Inb : forall x, In x (by_start sch) -> In x sch) by (intros x Ix; eapply Permutation_in; [apply Permutation_sym; exact P|exact Ix]).
    assert (Cw : forall b, In b (u_boxes u) -> exists cap, capacity_of p r (Z.to_nat (b_start b)) = Some cap /\ (Z.of_nat (b_unit b) < cap)%Z).
    { intros b Ib. destruct (R4 _ Ib) as (_ & Lw & _). unfold cap_at in Lw. destruct (capacity_of p r (Z.to_nat (b_start b))) as [cap|]; [|cbn in Lw; lia].
      exists cap. split; [reflexivity|]. lia. }
    constructor.
    + intros b Ib. split; [apply Inb, A, Ib|]. split; [apply R4 in Ib; lia|auto].
    + intros a s e I L. eapply B; [eapply Permutation_in; [exact P|exact I]|exact L].
    + exact R7.
    + intros t. rewrite C. unfold running. apply sumZ_map_perm, Permutation_sym, P.
    + intros i row t x Er Ex. destruct (Nat.eq_dec x 0) as [->|Nx]; [left|right]; (split; [auto|]).
      * intros b Ib Eb. rewrite <- (Z.add_0_l (Z.of_nat t)). eapply R5; eauto.
      * destruct (R6 _ _ _ _ Er Ex Nx) as (b & Ib & Eb & Cb & Tb). exists b. auto.
    + intros b Ib. destruct (R4 _ Ib) as (Lk & _ & L1 & L2 & _). destruct (nth_error (u_rows u) (b_unit b)) as [row|] eqn:Er; [|apply nth_error_None in Er; lia].
      exists row. split; [reflexivity|]. rewrite (R2 _ _ Er). unfold T. lia.
    + split; [lia|exact R8].
    + intros l0 b l1 Eb i cap Ec Li Hf. eapply R9; eauto. unfold cap_at. rewrite Ec. lia.
Qed.
End Units.

(** The units of a task are different ones. *)
Theorem C141_distinct : forall p modes sch r u a, staffed p modes sch r u -> NoDup (map fst sch) ->
  NoDup (map b_unit (filter (of_task a) (u_boxes u))).
Proof.
  intros p modes sch r u a S N.
  assert (G : forall l, incl l (u_boxes u) -> ForallOrdPairs apart l -> NoDup (map b_unit (filter (of_task a) l))).
  { induction l as [|b l IH]; intros Hi H; [constructor|]. inversion H as [|x y Hb Hl]; subst. cbn [filter].
    assert (Il : incl l (u_boxes u)) by (intros z Iz; apply Hi; now right). specialize (IH Il Hl).
    destruct (of_task a b) eqn:Ea; [|exact IH]. cbn [map]. constructor; [|exact IH]. intros X. apply in_map_iff in X. destruct X as (b' & Eu & Ib').
    apply filter_In in Ib'. destruct Ib' as [Ib' Ea']. unfold of_task in *. apply Nat.eqb_eq in Ea, Ea'.
    rewrite Forall_forall in Hb. specialize (Hb _ Ib' (eq_sym Eu)).
    destruct (st_box _ _ _ _ _ S b (Hi _ (or_introl eq_refl))) as (I1 & L1 & _). destruct (st_box _ _ _ _ _ S b' (Il _ Ib')) as (I2 & L2 & _).
    rewrite Ea in I1. rewrite Ea' in I2. pose proof (In_dget _ _ _ N I1) as D1. pose proof (In_dget _ _ _ N I2) as D2. rewrite D1 in D2.
    injection D2 as E1 E2. lia. }
  apply G; [apply incl_refl|]. apply (st_apart _ _ _ _ _ S).
Qed.

Lemma count_split : forall (bs : list box) names, NoDup names -> (forall b, In b bs -> In (b_task b) names) ->
  Z.of_nat (length bs) = sumZ (map (fun a => Z.of_nat (length (filter (of_task a) bs))) names).
Proof.
  induction bs as [|b bs IH]; intros names N H.
  - cbn [length filter]. assert (G : forall l : list nat, sumZ (map (fun _ => Z.of_nat 0) l) = 0%Z) by (induction l as [|x l IHl]; [reflexivity|exact IHl]).
    now rewrite G.
  - rewrite (sumZ_map_ext _ (fun a => (if (b_task b =? a)%nat then 1 else 0) + Z.of_nat (length (filter (of_task a) bs)))%Z).
    + rewrite sumZ_map_plus, <- IH; [|exact N|intros; apply H; now right].
      assert (G : sumZ (map (fun a => if (b_task b =? a)%nat then 1 else 0)%Z names) = 1%Z); [|rewrite G; cbn [length]; lia].
      assert (I : In (b_task b) names) by (apply H; now left). clear -N I. generalize dependent (b_task b). intros a I.
      assert (G0 : forall l, ~ In a l -> sumZ (map (fun x => if (a =? x)%nat then 1 else 0)%Z l) = 0%Z).
      { induction l as [|x l IHl]; intros Nl; [reflexivity|]. cbn [map]. change (sumZ (?y :: ?m)) with (y + sumZ m)%Z. rewrite IHl by (intros X; apply Nl; now right).
        destruct (Nat.eqb_spec a x); [exfalso; apply Nl; now left|lia]. }
      induction N as [|x l Nx N IH]; [contradiction|]. cbn [map]. change (sumZ (?y :: ?m)) with (y + sumZ m)%Z.
      destruct I as [->|I]; [rewrite Nat.eqb_refl, G0 by exact Nx; reflexivity|]. rewrite (IH I).
      destruct (Nat.eqb_spec a x); [congruence|lia].
    + intros a _. cbn [filter]. unfold of_task at 1. destruct (b_task b =? a); cbn [length]; lia.
Qed.

Lemma worked_nonneg : forall l i, (forall b, In b l -> (b_start b < b_end b)%Z) -> (0 <= worked l i)%Z /\ (In i (map b_unit l) -> (0 < worked l i)%Z).
Proof.
  induction l as [|b l IH]; intros i H; [split; [unfold worked; cbn; lia|contradiction]|].
  destruct (IH i) as [A B]; [intros; apply H; now right|]. change (b :: l) with ([b] ++ l). rewrite worked_app, map_app.
  pose proof (H b (or_introl eq_refl)) as Hb. unfold worked at 1 3. cbn [filter]. destruct (Nat.eqb_spec (b_unit b) i) as [E|E]; cbn [map sumZ fold_right].
  - split; [|intros _]; change (sumZ [?x]) with (x + 0)%Z; lia.
  - change (sumZ []) with 0%Z. split; [lia|]. intros X. apply in_app_or in X. destruct X as [[X|[]]|X]; [contradiction|]. specialize (B X). lia.
Qed.

(** A resource that is not consumed beyond its capacity never gives the same unit twice: the units of a non-renewable
    resource are spent once. *)
Theorem C141_non_renewable : forall p modes sch r u x, staffed p modes sch r u -> NoDup (map fst sch) ->
  (forall t, capacity_of p r t = Some x) -> (consumed_all p modes sch r <= x)%Z -> NoDup (map b_unit (u_boxes u)).
Proof.
  intros p modes sch r u x S N Cap Le. destruct S as [A B _ _ _ _ _ Fair].
  assert (Len : Z.of_nat (length (u_boxes u)) = consumed_all p modes sch r).
  { rewrite (count_split (u_boxes u) (map fst sch) N).
    - rewrite map_map. unfold consumed_all. apply sumZ_map_ext. intros [a [s e]] I. cbn [fst]. destruct (s <? e)%Z eqn:L; [apply (B a s e I); lia|].
      replace (filter (of_task a) (u_boxes u)) with (@nil box); [reflexivity|]. symmetry.
      assert (G : forall l, incl l (u_boxes u) -> filter (of_task a) l = []).
      { induction l as [|b l IH]; intros Hi; [reflexivity|]. cbn [filter]. unfold of_task at 1.
        destruct (Nat.eqb_spec (b_task b) a) as [E|E]; [|apply IH; intros z Iz; apply Hi; now right].
        destruct (A b (Hi _ (or_introl eq_refl))) as (I2 & L2 & _). rewrite E in I2.
        pose proof (In_dget _ _ _ N I) as D1. pose proof (In_dget _ _ _ N I2) as D2. rewrite D1 in D2. injection D2 as E1 E2. lia. }
      apply G, incl_refl.
    - intros b Ib. apply in_map_iff. eexists. split; [|apply A; exact Ib]. reflexivity. }
  assert (G : forall l0 b l1, u_boxes u = l0 ++ b :: l1 -> ~ In (b_unit b) (map b_unit l0)).
  { intros l0 b l1 E X. assert (Hl : forall b', In b' l0 -> (b_start b' < b_end b')%Z).
    { intros b' Ib'. apply A. rewrite E. apply in_or_app. now left. }
    destruct (worked_nonneg l0 (b_unit b) Hl) as [_ Pos]. specialize (Pos X).
    assert (Fr : exists i, i < S (length l0) /\ ~ In i (map b_unit l0)).
    { assert (D : forall l : list nat, (exists i, In i l /\ ~ In i (map b_unit l0)) \/ incl l (map b_unit l0)).
      { induction l as [|i l IH]; [right; intros z []|]. destruct (in_dec Nat.eq_dec i (map b_unit l0)) as [Ii|Ni]; [|left; exists i; split; [now left|exact Ni]].
        destruct IH as [(j & Ij & Nj)|IH]; [left; exists j; split; [now right|exact Nj]|right]. intros z [<-|Iz]; auto. }
      destruct (D (seq 0 (S (length l0)))) as [(i & Ii & Ni)|Inc]; [exists i; apply in_seq in Ii; split; [lia|exact Ni]|].
      exfalso. apply NoDup_incl_length in Inc; [|apply seq_NoDup]. rewrite seq_length, map_length in Inc. lia. }
    destruct Fr as (i & Li & Ni). rewrite E, app_length in Len. cbn [length] in Len.
    assert (Fi : (worked l0 (b_unit b) <= worked l0 i)%Z).
    { apply (Fair l0 b l1 E i x (Cap _)); [lia|]. intros b' Ib' Eb'. exfalso. apply Ni. apply in_map_iff. exists b'. auto. }
    assert (W0 : worked l0 i = 0%Z).
    { unfold worked. replace (filter (fun b' => b_unit b' =? i) l0) with (@nil box); [reflexivity|]. symmetry. clear -Ni.
      induction l0 as [|b' l IH]; [reflexivity|]. cbn [filter]. destruct (Nat.eqb_spec (b_unit b') i) as [Eq|Ne].
      - exfalso. apply Ni. left. exact Eq.
      - apply IH. intros X. apply Ni. now right. }
    lia. }
  clear -G. induction (u_boxes u) as [|b l IH] using rev_ind; [constructor|]. rewrite map_app. cbn [map]. apply NoDup_snoc.
  - apply IH. intros l0 b' l1 E. apply (G l0 b' (l1 ++ [b])). rewrite E, <- app_assoc. reflexivity.
  - apply (G l b []). reflexivity.
Qed.

(** The schedules that are generated, with constant capacities *)
Theorem C141_generated : forall p perm modes modes' sch n c,
  sane p -> Permutation perm (seq 0 n) -> length modes = n -> serial_sgs p perm modes = Ok (modes', (sch, true)) ->
  tasks p modes' n -> (Z.of_nat n + 2 < 100000)%Z -> In (1, (0, 0)%Z) sch -> (forall a r, (0 <= demand p modes' a r)%Z) -> p_res p = Constant c ->
  exists tb, per_individual p modes' sch (dkeys c) = Ok tb /\ dkeys tb = dkeys c /\
    (forall r u, dget tb r = Some u -> staffed p modes' sch r u) /\
    forall r u, dget tb r = Some u -> In r (p_nonren p) -> NoDup (map b_unit (u_boxes u)).
Proof.
  intros p perm modes modes' sch n c Sa P L G T Small So De Cc.
  destruct (C38_feasible p perm modes modes' sch n Sa (k_sink _ _ _ T) P L G) as [Ti Wi]. destruct Ti as [Ta Le _].
  assert (Nd : NoDup (dkeys c)) by (pose proof (in_names _ (k_instance _ _ _ T)) as N; unfold res_names in N; rewrite Cc in N; exact N).
  assert (N : NoDup (map fst sch)) by (eapply Permutation_NoDup; [apply Permutation_sym; exact Ta|apply seq_NoDup]).
  assert (Dg : forall r, In r (dkeys c) -> exists x, dget c r = Some x).
  { intros r Ir. unfold dkeys in Ir. apply in_map_iff in Ir. destruct Ir as ([r' x] & <- & I). exists x. now apply In_dget. }
  destruct (C141_units p modes' n sch (dkeys c) T Sa Ta Small) as (tb & E & Ke & S); auto.
  - intros a s e I. destruct (Le _ _ _ I) as (m & _ & S0 & ->). lia.
  - intros r Ir. destruct (Dg r Ir) as (x & D). unfold capacity_of. rewrite Cc, D. discriminate.
  - intros r a s e Ir I Lt. destruct (Dg r Ir) as (x & D). exists x. split; [unfold capacity_of; rewrite Cc; exact D|].
    assert (S0 : (0 <= s)%Z) by (destruct (Le _ _ _ I) as (m & _ & S0 & _); lia).
    destruct (in_dec string_dec r (p_nonren p)) as [Inr|Nr].
    + transitivity (consumed_all p modes' sch r); [|eapply r_total; eauto].
      unfold running, consumed_all. apply sumZ_map_le. intros [a' [s' e']] Ia. specialize (De a' r).
      destruct ((s' <=? s)%Z && (s <? e')%Z) eqn:B1; destruct (s' <? e')%Z eqn:B2; lia.
    + rewrite <- (Z2Nat.id s S0). eapply r_running; eauto. unfold capacity_of. rewrite Cc. exact D.
  - exists tb. split; [exact E|]. split; [exact Ke|]. split; [exact S|]. intros r u Du Inr.
    assert (Ir : In r (dkeys c)) by (rewrite <- Ke; apply dget_In in Du; apply in_map_iff; exists (r, u); auto).
    destruct (Dg r Ir) as (x & D). eapply C141_non_renewable; [apply S; exact Du|exact N| |].
    + intros t. unfold capacity_of. rewrite Cc. exact D.
    + eapply r_total; eauto.
Qed.

(** * Concrete cases *)
Local Open Scope string_scope.
Lemma ex_demand : forall a r, (0 <= demand ex_p [1; 2; 1]%nat a r)%Z.
Proof.
  intros a r. unfold demand. destruct (chosen ex_p [1; 2; 1]%nat a) as [m|] eqn:E; [|lia].
  destruct (dget (m_need m) r) as [x|] eqn:D; [|lia]. unfold chosen in E.
  do 6 (destruct a as [|a]; [cbn in E; try discriminate; try (injection E as <-); apply dget_In in D; cbn in D; intuition (try congruence); repeat match goal with J : (_, _) = (_, _) |- _ => injection J as <- <- end; lia|]).
  cbn in E. discriminate.
Qed.

Lemma ex_perm : Permutation [2; 1; 0] (seq 0 3).
Proof. apply Permutation_sym. exact (Permutation_rev [0; 1; 2]). Qed.

Example C141_ex : sane ex_p /\ tasks ex_p [1; 2; 1] 3 /\ serial_sgs ex_p [2; 1; 0] [1; 2; 1] = Ok ([1; 2; 1], (ex_sch, true)) /\
  In (1, (0, 0)%Z) ex_sch /\ (forall a r, (0 <= demand ex_p [1; 2; 1]%nat a r)%Z) /\
  exists tb u, per_individual ex_p [1; 2; 1] ex_sch ["R"; "N"] = Ok tb /\ dget tb "R" = Some u /\ staffed ex_p [1; 2; 1] ex_sch "R" u /\
    u_rows u = [[3; 3; 3; 2; 2; 0; 0; 0]; [0; 0; 0; 2; 2; 4; 4; 0]] /\
    exists u', dget tb "N" = Some u' /\ map b_unit (u_boxes u') = [0; 1; 2].
Proof.
  destruct C38_ex as (G & _). split; [exact ex_sane|]. split; [exact ex_tasks|]. split; [exact G|]. split; [now left|]. split; [exact ex_demand|].
  destruct (C141_generated ex_p [2; 1; 0] [1; 2; 1] [1; 2; 1] ex_sch 3 [("R", 2%Z); ("N", 3%Z)] ex_sane ex_perm eq_refl G ex_tasks ltac:(lia)
     (or_introl eq_refl) ex_demand eq_refl) as (tb & E & _ & S & _).
  assert (E' := E). vm_compute in E'. injection E' as <-. eexists _, _. split; [exact E|]. split; [vm_compute; reflexivity|].
  split; [apply S; vm_compute; reflexivity|]. split; [reflexivity|]. eexists. split; vm_compute; reflexivity.
Qed.

Definition clash : schedule := [(1, (0, 0)%Z); (3, (0, 3)%Z); (2, (1, 3)%Z); (4, (5, 7)%Z); (5, (7, 7)%Z)].
(** A schedule that asks for more than there is raises no exception: a task goes without some of its units. *)
Theorem C141_short_refuted : exists p modes n sch tb u a s e,
  tasks p modes n /\ Permutation (map fst sch) (seq 1 (n + 2)) /\ per_individual p modes sch ["R"] = Ok tb /\ dget tb "R" = Some u /\
  In (a, (s, e)) sch /\ (s < e)%Z /\ length (filter (of_task a) (u_boxes u)) = 1 /\ demand p modes a "R" = 2%Z.
Proof.
  exists ex_p, [1; 2; 1], 3, clash. eexists _, _, 2, 1%Z, 3%Z. split; [exact ex_tasks|].
  split; [cbn; constructor; apply perm_swap|]. split; [vm_compute; reflexivity|]. split; [vm_compute; reflexivity|].
  split; [cbn; auto|]. split; [lia|]. split; reflexivity.
Qed.

Definition shrinking : rcpsp :=
  Rcpsp (Calendar [("R", [1; 1; 1; 2; 2; 2; 1; 1]%Z); ("N", [3; 3; 3; 3; 3; 3; 3; 3]%Z)]) [] (p_modes ex_p) (p_succ ex_p) 7 1.
Lemma ex_shrinking : tasks shrinking [1; 2; 1] 3 /\ sane shrinking.
Proof.
  destruct ex_tasks as [[A1 A2 A3 A4 A5 A6 A7 A8] B C D E F]. split.
  - constructor; auto.
    + constructor; auto. intros r row [X|[X|[]]]; injection X as <- <-; cbn; lia.
    + intros r [].
  - split; [exact A1|]. intros r t c H. unfold capacity_of, shrinking, p_res in H.
    destruct (dget [("R", [1; 1; 1; 2; 2; 2; 1; 1]%Z); ("N", [3; 3; 3; 3; 3; 3; 3; 3]%Z)] r) as [row|] eqn:Dr; [|discriminate].
    apply dget_In in Dr. apply nth_error_In in H. destruct Dr as [X|[X|[]]]; injection X as <- <-; cbn in H; intuition lia.
Qed.

(** With a calendar, a task that runs while the capacity goes down may stay on a unit that is no longer there, although
    the schedule respects the capacities. *)
Theorem C141_absent_refuted : exists p modes n sch tb u b t cap,
  tasks p modes n /\ sane p /\ Permutation (map fst sch) (seq 1 (n + 2)) /\
  (forall t' c', capacity_of p "R" t' = Some c' -> (running p modes sch "R" (Z.of_nat t') <= c')%Z) /\
  per_individual p modes sch ["R"] = Ok tb /\ dget tb "R" = Some u /\ staffed p modes sch "R" u /\
  In b (u_boxes u) /\ covers (Z.of_nat t) b = true /\ capacity_of p "R" t = Some cap /\ (cap <= Z.of_nat (b_unit b))%Z.
Proof.
  assert (Cap : forall t' c', capacity_of shrinking "R" t' = Some c' -> (running shrinking [1; 2; 1]%nat ex_sch "R" (Z.of_nat t') <= c')%Z).
  { intros t' c' H. do 8 (destruct t' as [|t']; [vm_compute in H; injection H as <-; vm_compute; discriminate|]). destruct t'; discriminate. }
  destruct ex_shrinking as [Tk Sa].
  assert (P : Permutation (map fst ex_sch) (seq 1 (3 + 2))) by (cbn; constructor; apply perm_swap).
  destruct (C141_units shrinking [1; 2; 1] 3 ex_sch ["R"] Tk Sa P ltac:(lia)) as (tb & E & _ & S).
  - intros a s e I. cbn in I. repeat (destruct I as [I|I]; [injection I as <- <- <-; lia|]). contradiction.
  - now left.
  - exact ex_demand.
  - repeat constructor. intros [].
  - intros r [<-|[]]. discriminate.
  - intros r a s e [<-|[]] I L. cbn in I.
    destruct I as [I|[I|[I|[I|[I|[]]]]]]; injection I as <- <- <-; try lia; eexists; (split; [vm_compute; reflexivity|vm_compute; discriminate]).
  - assert (E' := E). vm_compute in E'. injection E' as <-.
    eexists shrinking, [1; 2; 1], 3, ex_sch, _, _, (Box 1 5 7 4), 6, 1%Z. split; [exact Tk|]. split; [exact Sa|]. split; [exact P|]. split; [exact Cap|].
    split; [exact E|]. split; [vm_compute; reflexivity|]. split; [apply S; vm_compute; reflexivity|]. split; [cbn; auto 10|].
    split; [reflexivity|]. split; [reflexivity|]. cbn. lia.
Qed.

Definition later : schedule := [(1, (2, 2)%Z); (3, (0, 3)%Z); (2, (3, 5)%Z); (4, (5, 7)%Z); (5, (7, 7)%Z)].
(** The time axis starts with the task that ends first: when another one starts before it, a schedule within the
    capacities raises an exception. *)
Theorem C141_axis_refuted : exists p modes n sch,
  tasks p modes n /\ Permutation (map fst sch) (seq 1 (n + 2)) /\ (forall a s e, In (a, (s, e)) sch -> (0 <= s <= e)%Z) /\
  (forall t, (running p modes sch "R" t <= 2)%Z /\ capacity_of p "R" (Z.to_nat t) = Some 2%Z) /\
  per_individual p modes sch ["R"] = Err KeyError.
Proof.
  exists ex_p, [1; 2; 1], 3, later. split; [exact ex_tasks|]. split; [cbn; constructor; apply perm_swap|].
  split; [intros a s e I; cbn in I; repeat (destruct I as [I|I]; [injection I as <- <- <-; lia|]); contradiction|].
  split; [|vm_compute; reflexivity]. intros t. split; [|reflexivity]. unfold running, later. cbn [map].
  change (demand ex_p [1; 2; 1] 1 "R") with 0%Z. change (demand ex_p [1; 2; 1] 3 "R") with 1%Z. change (demand ex_p [1; 2; 1] 2 "R") with 2%Z.
  change (demand ex_p [1; 2; 1] 4 "R") with 1%Z. change (demand ex_p [1; 2; 1] 5 "R") with 0%Z.
  unfold sumZ. cbn [fold_right]. repeat match goal with |- context [if ?b then _ else _] => destruct b eqn:? end; lia.
Qed.

Print Assumptions C141_units.
Print Assumptions C141_distinct.
Print Assumptions C141_non_renewable.
Print Assumptions C141_generated.
Print Assumptions C141_short_refuted.
Print Assumptions C141_absent_refuted.
Print Assumptions C141_axis_refuted.
