(** Properties of vehicle routing: C42. *)
From Coq Require Import List Bool Arith ZArith Lia Permutation Sorting.
From Coq Require Import ZifyBool ZifyNat.
From Verif Require Import Py PyList PyMore TspProofs VrpModel.
Import ListNotations.

(** * Specification vocabulary *)
Definition demand (p : vrp) (c : nat) : Z := nth c (w_demands p) 0%Z.
Definition capacity (p : vrp) (v : nat) : Z := nth v (w_caps p) 0%Z.
(** Every vehicle has a capacity and depots, and every customer has a demand. *)
Record well_formed (p : vrp) : Prop := {
  wf_caps : w_vehicles p <= length (w_caps p);
  wf_starts : w_vehicles p <= length (w_starts p);
  wf_ends : w_vehicles p <= length (w_ends p);
  wf_start : forall v s, v < w_vehicles p -> nth_error (w_starts p) v = Some s -> s < length (w_demands p);
  wf_end : forall v e, v < w_vehicles p -> nth_error (w_ends p) v = Some e -> e < length (w_demands p);
  wf_count : w_count p <= length (w_demands p)
}.
Definition is_depot (p : vrp) (c : nat) : Prop :=
  exists v, v < w_vehicles p /\ (nth_error (w_starts p) v = Some c \/ nth_error (w_ends p) v = Some c).
(** What a vehicle carries: the depots, once if they are the same, and the customers of its path. *)
Definition carried (p : vrp) (s e : nat) (path : list nat) : Z :=
  (demand p s + (if (e =? s)%nat then 0 else demand p e) + sumZ (map (demand p) path))%Z.
Definition start_of (p : vrp) (v : nat) : nat := nth v (w_starts p) 0.
Definition end_of (p : vrp) (v : nat) : nat := nth v (w_ends p) 0.
Definition load (p : vrp) (paths : list (list nat)) (v : nat) : Z := carried p (start_of p v) (end_of p v) (nth v paths []).
(** The length of a route. *)
Fixpoint route (dist : nat -> nat -> Z) (l : list nat) : Z :=
  match l with x :: ((y :: _) as l') => dist x y + route dist l' | _ => 0 end%Z.

(** * Lemmas *)
Section V.
Variable p : vrp.
Hypothesis WF : well_formed p.

Lemma demand_get : forall c, c < length (w_demands p) -> lget (w_demands p) c = Ok (demand p c).
Proof. intros c L. unfold demand. now apply lget_nth'. Qed.

Lemma start_lt : forall v, v < w_vehicles p -> start_of p v < length (w_demands p) /\ lget (w_starts p) v = Ok (start_of p v).
Proof.
  intros v L. pose proof (wf_starts _ WF). assert (L' : v < length (w_starts p)) by lia. pose proof (lget_nth' _ (w_starts p) v 0 L') as E.
  split; auto. apply (wf_start _ WF v); auto. now apply lget_ok.
Qed.
Lemma end_lt : forall v, v < w_vehicles p -> end_of p v < length (w_demands p) /\ lget (w_ends p) v = Ok (end_of p v).
Proof.
  intros v L. pose proof (wf_ends _ WF). assert (L' : v < length (w_ends p)) by lia. pose proof (lget_nth' _ (w_ends p) v 0 L') as E.
  split; auto. apply (wf_end _ WF v); auto. now apply lget_ok.
Qed.

Definition depot_load (v : nat) : Z := (demand p (start_of p v) + (if (end_of p v =? start_of p v)%nat then 0 else demand p (end_of p v)))%Z.

Lemma is_depot_iff : forall c, is_depot p c <-> exists v, v < w_vehicles p /\ (c = start_of p v \/ c = end_of p v).
Proof.
  intros c. split.
  - intros (v & L & H). exists v. split; auto. destruct (start_lt v L) as [_ A]. destruct (end_lt v L) as [_ B].
    apply lget_ok in A, B. destruct H; [left|right]; congruence.
  - intros (v & L & H). exists v. split; auto. destruct (start_lt v L) as [_ A]. destruct (end_lt v L) as [_ B].
    apply lget_ok in A, B. destruct H; [left|right]; congruence.
Qed.

Lemma depots_ok : exists room rem, depots p = Ok (room, rem) /\ length room = w_vehicles p /\
  (forall v, v < w_vehicles p -> nth_error room v = Some (capacity p v - depot_load v)%Z) /\
  NoDup rem /\ forall c, In c rem <-> c < w_count p /\ ~ is_depot p c.
Proof.
  unfold depots.
  assert (M : mapM (lget (w_caps p)) (seq 0 (w_vehicles p)) = Ok (map (capacity p) (seq 0 (w_vehicles p)))).
  { apply mapM_total. intros v Iv. apply in_seq in Iv. pose proof (wf_caps _ WF). unfold capacity. apply lget_nth'. lia. }
  rewrite M. cbn [bind]. set (n := w_vehicles p) in *.
  pose (P := fun (l : list nat) (st : list Z * list nat) => length (fst st) = n /\
    (forall v, v < n -> nth_error (fst st) v = Some (capacity p v - if (v <? length l)%nat then depot_load v else 0)%Z) /\
    NoDup (snd st) /\ forall c, In c (snd st) <-> c < w_count p /\ ~ exists v, v < length l /\ (c = start_of p v \/ c = end_of p v)).
  destruct (@foldM_total _ _ (depot_step p) P (seq 0 n) (map (capacity p) (seq 0 n), seq 0 (w_count p))) as ([room rem] & E & V).
  - split; [cbn; now rewrite map_length, seq_length|]. split; [|split].
    + intros v L. cbn. rewrite nth_error_map, nth_error_seq by auto. cbn. f_equal. lia.
    + apply seq_NoDup.
    + intros c. cbn. rewrite in_seq. split; [intros H; split; [lia|intros (v & L & _); lia]|intros [H _]; lia].
  - intros l0 x l1 [room rem] E (V1 & V2 & V3 & V4). apply seq_split in E as [-> L]. cbn [plus fst snd] in *. set (k := length l0) in *.
    unfold depot_step. destruct (start_lt k L) as [Ls As]. destruct (end_lt k L) as [Le Ae]. rewrite As, Ae. cbn [bind].
    rewrite (demand_get _ Ls). cbn [bind fst snd]. rewrite (proj2 (lget_ok room k _) (V2 k L)). cbn [bind].
    rewrite (proj2 (lput_ok room k _ _) (conj (eq_ind_r (fun z => k < z) L V1) eq_refl)). cbn [bind].
    set (r0 := (capacity p k - (if (k <? k)%nat then depot_load k else 0))%Z) in *.
    assert (R0 : r0 = capacity p k) by (unfold r0; rewrite Nat.ltb_irrefl; lia).
    assert (exists room', (if end_of p k =? start_of p k then Ok (lset room k (r0 - demand p (start_of p k))%Z)
       else let* de := lget (w_demands p) (end_of p k) in let* r := lget (lset room k (r0 - demand p (start_of p k))%Z) k in
            lput (lset room k (r0 - demand p (start_of p k))%Z) k (r - de)%Z) = Ok room' /\
       room' = lset room k (capacity p k - depot_load k)%Z) as (room' & Er & ->).
    { unfold depot_load. destruct (end_of p k =? start_of p k).
      - eexists. split; [reflexivity|]. f_equal. lia.
      - rewrite (demand_get _ Le). cbn [bind].
        assert (Q : nth_error (lset room k (r0 - demand p (start_of p k))%Z) k = Some (r0 - demand p (start_of p k))%Z).
        { rewrite lset_nth_error, Nat.eqb_refl. destruct (Nat.ltb_spec k (length room)); [auto|lia]. }
        rewrite (proj2 (lget_ok _ k _) Q). cbn [bind]. eexists. split.
        + apply lput_ok. split; [rewrite lset_length; lia|reflexivity].
        + rewrite lset_lset. f_equal. lia. }
    rewrite Er. cbn [bind]. eexists. split; [reflexivity|]. unfold P. cbn [fst snd]. rewrite lset_length, app_length. cbn [length].
    fold k. split; auto. split; [|split].
    + intros v Lv. rewrite lset_nth_error. destruct (Nat.eqb_spec k v) as [<-|N].
      * destruct (Nat.ltb_spec k (length room)); [|lia]. destruct (Nat.ltb_spec k (k + 1)); [auto|lia].
      * rewrite (V2 v Lv). f_equal. destruct (Nat.ltb_spec v k), (Nat.ltb_spec v (k + 1)); auto; lia.
    + now apply pyremove_NoDup, pyremove_NoDup.
    + intros c. rewrite pyremove_In by now apply pyremove_NoDup. rewrite pyremove_In by auto. rewrite V4. split.
      * intros (H1 & H2 & H3 & H4). split; auto. intros (v & Lv & Hv). destruct (Nat.eq_dec v k) as [->|N]; [destruct Hv; congruence|].
        apply H4. exists v. split; auto. lia.
      * intros (H1 & H2). split; [|split; [|split; auto]].
        -- intros ->. apply H2. exists k. split; [lia|auto].
        -- intros ->. apply H2. exists k. split; [lia|auto].
        -- intros (v & Lv & Hv). apply H2. exists v. split; [lia|auto].
  - exists room, rem. destruct V as (V1 & V2 & V3 & V4). cbn [fst snd] in *. rewrite seq_length in *. repeat (split; auto).
    + intros v L. rewrite (V2 v L). destruct (Nat.ltb_spec v n); [auto|lia].
    + apply V4 in H. tauto.
    + rewrite is_depot_iff. apply V4 in H. tauto.
    + rewrite is_depot_iff. intros H. apply V4. auto.
Qed.

(** The customers taken in one pass. *)
Definition small (l : list nat) : Prop := forall c, In c l -> c < length (w_demands p).

Lemma take_ok : forall order room, small order -> NoDup order ->
  exists room' added, foldM (take_step p) (room, []) order = Ok (room', added) /\
    incl added order /\ NoDup added /\ room' = (room - sumZ (map (demand p) added))%Z /\ (added <> [] -> (0 <= room')%Z) /\
    ((exists c, In c order /\ (demand p c <= room)%Z) -> added <> []) /\
    ((forall c, In c order -> (0 <= demand p c)%Z) -> forall c, In c order -> ~ In c added -> (room' < demand p c)%Z) /\
    forall R, StronglySorted R order -> StronglySorted R added.
Proof.
  intros order room Sm Nd.
  pose (P := fun (l : list nat) (st : Z * list nat) => let room' := fst st in let added := snd st in
    incl added l /\ NoDup added /\ room' = (room - sumZ (map (demand p) added))%Z /\ (added <> [] -> (0 <= room')%Z) /\
    ((exists c, In c l /\ (demand p c <= room)%Z) -> added <> []) /\
    ((forall c, In c l -> (0 <= demand p c)%Z) -> forall c, In c l -> ~ In c added -> (room' < demand p c)%Z) /\
    forall R, StronglySorted R l -> StronglySorted R added).
  assert (Snoc : forall R (l : list nat) x, StronglySorted R (l ++ [x]) -> StronglySorted R l /\ forall y, In y l -> R y x).
  { clear. induction l as [|y l IH]; intros x H; cbn in *; [split; [constructor|intros z []]|].
    inversion H as [|? ? H1 H2]; subst. destruct (IH x H1) as [I1 I2]. rewrite Forall_app in H2. destruct H2 as [H2 H3].
    split; [constructor; auto|]. intros z [<-|Iz]; auto. inversion H3; auto. }
  assert (Snoc' : forall R (l : list nat) x, StronglySorted R l -> (forall y, In y l -> R y x) -> StronglySorted R (l ++ [x])).
  { clear. induction l as [|y l IH]; intros x H1 H2; cbn; [repeat constructor|]. inversion H1; subst.
    constructor; [apply IH; auto; intros; apply H2; now right|]. apply Forall_app. split; auto. constructor; auto. apply H2. now left. }
  destruct (@foldM_total _ _ (take_step p) P order (room, [])) as ([room' added] & E & V).
  - unfold P. cbn. split; [intros c []|]. split; [constructor|]. split; [lia|]. split; [tauto|]. split; [|split].
    + intros (c & [] & _).
    + intros _ c [].
    + intros R _. constructor.
  - intros l0 x l1 [r added] E (V1 & V2 & V3 & V4 & V5 & V6 & V7). cbn [fst snd] in *. subst order.
    unfold take_step. rewrite demand_get by (apply Sm; apply in_app_iff; right; now left). cbn [bind fst snd].
    assert (Nx : ~ In x l0).
    { apply NoDup_remove_2 in Nd. intros I. apply Nd. apply in_app_iff. auto. }
    destruct (Z.leb_spec (demand p x) r); eexists; (split; [reflexivity|]); unfold P; cbn [fst snd].
    + split; [intros c I; apply in_app_iff in I as [I|[<-|[]]]; apply in_app_iff; [left; auto|right; now left]|].
      split; [apply NoDup_snoc; auto|]. split; [rewrite map_app, sumZ_app; cbn [map]; rewrite sumZ_one; lia|].
      split; [lia|]. split; [intros _ Q; destruct added; discriminate|]. split.
      * intros Nn c I N. apply in_app_iff in I as [I|[<-|[]]].
        -- assert (r < demand p c)%Z; [|assert (0 <= demand p x)%Z by (apply Nn; apply in_app_iff; right; now left); lia].
           apply V6; auto; [intros y Iy; apply Nn; apply in_app_iff; auto|]. intros Q. apply N. apply in_app_iff. auto.
        -- exfalso. apply N. apply in_app_iff. right. now left.
      * intros R SR. apply Snoc in SR as [S1 S2]. apply Snoc'; auto.
    + split; [intros c I; apply in_app_iff; auto|]. split; auto. split; auto. split; auto. split; [|split].
      * intros (c & I & D). apply in_app_iff in I as [I|[<-|[]]]; [apply V5; eauto|]. intros ->. cbn in V3. lia.
      * intros Nn c I N. apply in_app_iff in I as [I|[<-|[]]]; auto. apply V6; auto. intros y Iy. apply Nn. apply in_app_iff. auto.
      * intros R SR. apply Snoc in SR as [S1 S2]. auto.
  - exists room', added. split; auto.
Qed.

Lemma order_ok : forall rem, small rem -> exists order, order_of p rem = Ok order /\ Permutation rem order /\
  StronglySorted (fun a b => (- demand p a * Z.of_nat (w_count p) + Z.of_nat a <= - demand p b * Z.of_nat (w_count p) + Z.of_nat b)%Z) order.
Proof.
  intros rem Sm. unfold order_of. set (key := fun x => (- demand p x * Z.of_nat (w_count p) + Z.of_nat x)%Z).
  rewrite (@mapM_total _ _ _ (fun x => (key x, x)) rem).
  2: { intros x I. rewrite demand_get by auto. reflexivity. }
  cbn [bind]. eexists. split; [reflexivity|]. set (ks := map (fun x => (key x, x)) rem).
  pose proof (ssort_perm (fun a b : Z * nat => (fst a <=? fst b)%Z) ks) as P.
  assert (Sr : StronglySorted (fun a b : Z * nat => (fst a <=? fst b)%Z = true) (ssort (fun a b => (fst a <=? fst b)%Z) ks)).
  { apply Sorted_StronglySorted; [intros a b c; lia|]. apply ssort_sorted. intros; lia. }
  assert (Pair : forall x, In x (ssort (fun a b : Z * nat => (fst a <=? fst b)%Z) ks) -> fst x = key (snd x)).
  { intros x I. apply (Permutation_in _ (Permutation_sym P)) in I. apply in_map_iff in I as (c & <- & _). reflexivity. }
  split.
  - apply (Permutation_map snd) in P. unfold ks in P at 1. rewrite map_map in P. cbn in P. now rewrite map_id in P.
  - revert Sr Pair. generalize (ssort (fun a b : Z * nat => (fst a <=? fst b)%Z) ks). clear. intros l Sr Pair.
    induction Sr as [|x l Sr IH F]; [constructor|]. cbn [map]. constructor; [apply IH; intros; apply Pair; now right|].
    rewrite Forall_forall in F. apply Forall_forall. intros y Iy. apply in_map_iff in Iy as (z & <- & Iz). specialize (F z Iz).
    rewrite (Pair x (or_introl eq_refl)), (Pair z (or_intror Iz)) in F. fold (key (snd x)) (key (snd z)). lia.
Qed.

Definition nonneg (l : list nat) : Prop := forall c, In c l -> (0 <= demand p c)%Z.
Definition by_size (a b : nat) : Prop := (demand p b < demand p a)%Z \/ demand p a = demand p b /\ a < b.

Lemma partition : forall (rem added : list nat), NoDup rem -> NoDup added -> incl added rem ->
  Permutation rem (added ++ filter (fun c => negb (pymem c added)) rem).
Proof.
  intros rem added N1 N2 I. apply NoDup_Permutation; auto.
  - apply NoDup_app_disjoint; auto; [now apply NoDup_filter|]. intros x I1 I2. apply filter_In in I2 as [_ I2].
    apply negb_true_iff in I2. now apply (proj1 (pymem_false x added) I2).
  - intros x. rewrite in_app_iff, filter_In, negb_true_iff. destruct (pymem x added) eqn:M.
    + apply pymem_true in M. split; [auto|]. intros _. auto.
    + split; [auto|]. intros [Q|Q]; [auto|tauto].
Qed.

Lemma fill_ok : forall fuel room rem tour, small rem -> NoDup rem -> length rem <= fuel ->
  exists room' added rem', fill_vehicle fuel p room tour rem = Ok (room', tour ++ added, rem') /\
    Permutation rem (added ++ rem') /\ room' = (room - sumZ (map (demand p) added))%Z /\ (added <> [] -> (0 <= room')%Z) /\
    (forall c, In c rem' -> (room' < demand p c)%Z) /\
    (nonneg rem -> (forall c, In c rem -> c < w_count p) -> StronglySorted by_size added).
Proof.
  induction fuel as [|fuel IH]; intros room rem tour Sm Nd L.
  - destruct rem; [|cbn in L; lia]. exists room, [], []. cbn. rewrite app_nil_r. repeat split; auto; try tauto; try lia. constructor.
  - cbn [fill_vehicle]. rewrite (@mapM_total _ _ _ (fun c => (demand p c <=? room)%Z) rem).
    2: { intros x I. rewrite demand_get by auto. reflexivity. }
    cbn [bind]. destruct (existsb (fun b => b) (map (fun c => (demand p c <=? room)%Z) rem)) eqn:Ex.
    + apply existsb_exists in Ex as (b & Ib & ->). apply in_map_iff in Ib as (c & Hc & Ic).
      destruct (order_ok rem Sm) as (order & Eo & Po & So). rewrite Eo. cbn [bind].
      assert (Smo : small order) by (intros x I; apply Sm; eapply Permutation_in; [symmetry; exact Po|exact I]).
      assert (Ndo : NoDup order) by (eapply Permutation_NoDup; eauto).
      destruct (take_ok order room Smo Ndo) as (room1 & added & Et & T1 & T2 & T3 & T4 & T5 & T6 & T7). rewrite Et. cbn [bind fst snd].
      assert (Inc : incl added rem) by (intros x I; eapply Permutation_in; [symmetry; exact Po|auto]).
      assert (Ne : added <> []). { apply T5. exists c. split; [eapply Permutation_in; [exact Po|exact Ic]|lia]. }
      set (rem1 := filter (fun c => negb (pymem c added)) rem) in *.
      pose proof (partition rem added Nd T2 Inc) as Pa. fold rem1 in Pa.
      assert (Sm1 : small rem1) by (intros x I; apply filter_In in I as [I _]; auto).
      assert (Nd1 : NoDup rem1) by now apply NoDup_filter.
      assert (L1 : length rem1 <= fuel).
      { apply Permutation_length in Pa. rewrite app_length in Pa. destruct added; [congruence|]. cbn in Pa. lia. }
      destruct (IH room1 rem1 (tour ++ added) Sm1 Nd1 L1) as (room' & added' & rem' & E & P1 & P2 & P3 & P4 & P5).
      exists room', (added ++ added'), rem'. split; [rewrite E; now rewrite app_assoc|]. split; [|split; [|split; [|split]]].
      * rewrite Pa, P1. now rewrite app_assoc.
      * rewrite map_app, sumZ_app. lia.
      * intros _. destruct added' as [|y l]; [|apply P3; discriminate]. cbn in P2. specialize (T4 Ne). lia.
      * exact P4.
      * intros Nn Sc. assert (added' = []) as ->.
        { destruct added' as [|y l]; auto. exfalso.
          assert (Iy : In y rem1) by (eapply Permutation_in; [symmetry; exact P1|]; now left).
          assert (Q : exists z, In z rem1 /\ (demand p z <= room1)%Z).
          { specialize (P3 ltac:(discriminate)). exists y. split; auto.
            cbn [map] in P2. rewrite sumZ_cons in P2.
            assert (0 <= sumZ (map (demand p) l))%Z.
            { apply sumZ_map_nonneg. intros z Iz. apply Nn. apply filter_In with (f := fun c => negb (pymem c added)).
              fold rem1. eapply Permutation_in; [symmetry; exact P1|]. right. apply in_app_iff. auto. }
            lia. }
          destruct Q as (z & Iz & Hz). assert (Iz' := Iz). apply filter_In in Iz' as [I1 I2]. apply negb_true_iff in I2.
          assert (room1 < demand p z)%Z; [|lia]. apply T6.
          - intros w Iw. apply Nn. eapply Permutation_in; [symmetry; exact Po|exact Iw].
          - eapply Permutation_in; [exact Po|exact I1].
          - exact (proj1 (pymem_false z added) I2). }
        rewrite app_nil_r. apply T7. clear -So Ndo Po Sc.
        assert (Sc' : forall c, In c order -> c < w_count p) by (intros; apply Sc; eapply Permutation_in; [symmetry; exact Po|auto]).
        clear Sc Po. induction So as [|x l So IH F]; [constructor|]. inversion Ndo; subst.
        constructor; [apply IH; auto; intros; apply Sc'; now right|]. rewrite Forall_forall in F. apply Forall_forall. intros y Iy. specialize (F y Iy).
        assert (x < w_count p) by (apply Sc'; now left). assert (y < w_count p) by (apply Sc'; now right).
        assert (x <> y) by congruence. unfold by_size. clear - F H H0 H3. cbv beta in F.
        destruct (Z.lt_trichotomy (demand p x) (demand p y)) as [T|[T|T]]; [exfalso; nia|right; split; auto; rewrite T in F; lia|left; auto].
    + exists room, [], rem. rewrite app_nil_r. split; [reflexivity|]. split; [auto|]. split; [cbn; lia|]. split; [tauto|]. split; [|constructor].
      intros c I. destruct (Z.leb_spec (demand p c) room) as [Q|Q]; auto. exfalso.
      assert (existsb (fun b => b) (map (fun c => (demand p c <=? room)%Z) rem) = true); [|congruence].
      apply existsb_exists. exists true. split; auto. apply in_map_iff. exists c. split; auto. lia.
Qed.

Record vinv (rem0 : list nat) (k : nat) (st : list Z * list (list nat) * list nat) : Prop := {
  i_room : length (fst (fst st)) = w_vehicles p;
  i_tours : length (snd (fst st)) = k;
  i_perm : Permutation rem0 (concat (snd (fst st)) ++ snd st);
  i_done : forall v t r, v < k -> nth_error (snd (fst st)) v = Some t -> nth_error (fst (fst st)) v = Some r ->
    (r = capacity p v - depot_load v - sumZ (map (demand p) t))%Z /\ (t <> [] -> (0 <= r)%Z) /\
    (forall c, In c (snd st) -> (r < demand p c)%Z) /\
    (nonneg rem0 -> StronglySorted by_size t);
  i_todo : forall v, k <= v -> v < w_vehicles p -> nth_error (fst (fst st)) v = Some (capacity p v - depot_load v)%Z
}.

Lemma vehicle_ok : forall rem0 k st, small rem0 -> NoDup rem0 -> (forall c, In c rem0 -> c < w_count p) ->
  vinv rem0 k st -> k < w_vehicles p -> exists st', vehicle_step p st k = Ok st' /\ vinv rem0 (S k) st'.
Proof.
  intros rem0 k [[room tours] rem] Sm Nd Sc [V1 V2 V3 V4 V5] L. cbn [fst snd] in *. unfold vehicle_step.
  rewrite (proj2 (lget_ok room k _) (V5 k (le_n k) L)). cbn [bind].
  assert (Inc : forall c, In c rem -> In c rem0) by (intros c I; eapply Permutation_in; [symmetry; exact V3|]; apply in_app_iff; auto).
  assert (Nd1 : NoDup (concat tours ++ rem)) by (eapply Permutation_NoDup; eauto).
  assert (Ndr : NoDup rem). { clear -Nd1. induction (concat tours) as [|x l IH]; auto. cbn in Nd1. inversion Nd1; auto. }
  destruct (fill_ok (length rem) (capacity p k - depot_load k)%Z rem [] (fun c I => Sm c (Inc c I)) Ndr (le_n _))
    as (room' & added & rem' & E & P & F2 & F3 & F4 & F5). rewrite E. cbn [bind app].
  assert (Lr : k < length room) by lia.
  rewrite (proj2 (lput_ok room k room' _) (conj Lr eq_refl)). cbn [bind]. eexists. split; [reflexivity|].
  constructor; cbn [fst snd].
  - now rewrite lset_length.
  - rewrite app_length. cbn. lia.
  - rewrite V3, P, concat_app. cbn [concat]. rewrite app_nil_r, <- app_assoc. reflexivity.
  - intros v t r Lv T R. rewrite lset_nth_error in R. destruct (Nat.eqb_spec k v) as [<-|N].
    + destruct (Nat.ltb_spec k (length room)); [|lia]. injection R as <-. rewrite nth_error_app2, V2, Nat.sub_diag in T by lia.
      cbn in T. injection T as <-. split; [lia|]. split; auto. split; auto. intros Nn. apply F5; [intros c I; auto|auto].
    + rewrite nth_error_app1 in T by lia. destruct (V4 v t r ltac:(lia) T R) as (A & B & C & D). repeat (split; auto).
      intros c I. apply C. eapply Permutation_in; [symmetry; exact P|]. apply in_app_iff. auto.
  - intros v L1 L2. rewrite lset_nth_error. destruct (Nat.eqb_spec k v); [lia|]. apply V5; lia.
Qed.

Lemma trivial_ok : exists rem0 room tours rem, trivial_solution p = Ok (VSolution (w_starts p) (w_ends p) tours None) /\
  NoDup rem0 /\ (forall c, In c rem0 <-> c < w_count p /\ ~ is_depot p c) /\ vinv rem0 (w_vehicles p) (room, tours, rem).
Proof.
  destruct depots_ok as (room0 & rem0 & E & D1 & D2 & D3 & D4). unfold trivial_solution. rewrite E. cbn [bind fst snd].
  assert (Sc : forall c, In c rem0 -> c < w_count p) by (intros c I; now apply D4 in I).
  assert (Sm : small rem0) by (intros c I; pose proof (wf_count _ WF); specialize (Sc c I); lia).
  destruct (@foldM_total _ _ (vehicle_step p) (fun l st => vinv rem0 (length l) st) (seq 0 (w_vehicles p)) (room0, [], rem0))
    as ([[room tours] rem] & F & V).
  - constructor; cbn [fst snd length concat app]; auto. intros; lia.
  - intros l0 x l1 s1 Eq V. apply seq_split in Eq as [-> L]. destruct (vehicle_ok rem0 (length l0) s1 Sm D3 Sc V L) as (s2 & E2 & V2).
    exists s2. split; auto. rewrite app_length. cbn [length]. now rewrite Nat.add_1_r.
  - rewrite seq_length in V. rewrite F. cbn [bind fst snd]. exists rem0, room, tours, rem. auto.
Qed.
End V.

(** * Evaluation *)
Section Eval.
Variable dist : nat -> nat -> Z.
Variable p : vrp.

(** The route as measured by the code: the last leg is taken from the end depot. *)
Definition measured (s e : nat) (path : list nat) : Z :=
  match path with [] => dist s e | _ => (route dist (s :: path) + dist e (last path 0%nat))%Z end.

Lemma route_cons : forall a b l, route dist (a :: b :: l) = (dist a b + route dist (b :: l))%Z.
Proof. reflexivity. Qed.
Lemma route_snoc : forall l x y, route dist (l ++ [x; y]) = (route dist (l ++ [x]) + dist x y)%Z.
Proof.
  induction l as [|a l IH]; intros x y; [cbn; lia|]. destruct l as [|b l]; [cbn; lia|].
  specialize (IH x y). cbn [app] in *. rewrite !route_cons, IH. lia.
Qed.

Lemma compute_ok : forall s e path, s < length (w_demands p) -> e < length (w_demands p) ->
  (forall c, In c path -> c < length (w_demands p)) ->
  exists ls, compute_length dist s e path (w_demands p) = Ok (ls, measured s e path, carried p s e path) /\
    sumZ ls = measured s e path /\ length ls = length path + 1.
Proof.
  intros s e path Ls Le Sm. unfold compute_length. destruct path as [|x l].
  - rewrite (demand_get p s Ls), (demand_get p e Le). cbn [bind]. unfold carried. cbn [map sumZ fold_right].
    destruct (e =? s); cbn [bind]; eexists; (split; [apply f_equal; apply f_equal2; [reflexivity|lia]|]); cbn; split; auto; lia.
  - assert (Lx : x < length (w_demands p)) by (apply Sm; now left).
    rewrite (demand_get p s Ls), (demand_get p x Lx). cbn [bind]. set (path := x :: l) in *.
    pose (P := fun (q : list nat) (st : list Z * Z * Z) => let k := length q in
      let '(ls, obj, cap) := st in length ls = k + 1 /\ sumZ ls = obj /\ obj = route dist (s :: firstn (k + 1) path) /\
      cap = (demand p s + sumZ (map (demand p) (firstn (k + 1) path)))%Z).
    destruct (@foldM_total _ _ (fun st index =>
                   let '(lengths, obj, cap) := st in
                   let* a := lget path index in
                   let* b := lget path (index + 1) in
                   let ll := dist a b in
                   let* c := lget (w_demands p) b in
                   Ok (lengths ++ [ll], (obj + ll)%Z, (cap + c)%Z)) P (seq 0 (length path - 1))
                 ([dist s x], dist s x, (demand p s + demand p x)%Z)) as ([[ls obj] cap] & E & V).
    + unfold P. cbn. repeat split; lia.
    + intros l0 y l1 [[ls obj] cap] E (V1 & V2 & V3 & V4). apply seq_split in E as [-> L]. cbn [plus] in *. set (k := length l0) in *.
      assert (L1 : k < length path) by lia. assert (L2 : k + 1 < length path) by lia.
      destruct (lget_lt path L1) as [a A]. destruct (lget_lt path L2) as [b B]. rewrite A, B. cbn [bind].
      rewrite (demand_get p b) by (apply Sm; eapply lget_In; eauto). cbn [bind]. eexists. split; [reflexivity|].
      unfold P. rewrite !app_length. cbn [length]. fold k. apply lget_ok in A, B.
      assert (F1 : firstn (k + 1) path = firstn k path ++ [a]) by (rewrite Nat.add_1_r; now apply firstn_snoc).
      assert (F2 : firstn (k + 1 + 1) path = firstn k path ++ [a; b]).
      { rewrite (Nat.add_1_r (k + 1)). rewrite (firstn_snoc path (k + 1) B), F1, <- app_assoc. reflexivity. }
      split; [lia|]. split; [rewrite sumZ_app, sumZ_one; lia|]. split.
      * rewrite V3, F1, F2. pose proof (route_snoc (s :: firstn k path) a b) as Q. cbn [app] in Q. lia.
      * rewrite V4, F1, F2, !map_app, !sumZ_app. cbn. lia.
    + cbv zeta in E |- *. fold path. rewrite E. cbn [bind]. destruct V as (V1 & V2 & V3 & V4). rewrite seq_length in *.
      replace (length path - 1 + 1) with (length path) in * by (cbn; lia). rewrite firstn_all in *.
      assert (Q : exists cap', (if e =? s then Ok cap else let* ee := lget (w_demands p) e in Ok (cap + ee)%Z) = Ok cap' /\ cap' = carried p s e path).
      { unfold carried. rewrite (demand_get p e Le). destruct (e =? s); cbn [bind]; eexists; (split; [reflexivity|]); lia. }
      destruct Q as (cap' & -> & ->). cbn [bind]. eexists. split; [|split].
      * unfold measured. cbn [path]. rewrite V3. reflexivity.
      * rewrite sumZ_app, sumZ_one, V2, V3. reflexivity.
      * rewrite app_length. cbn [length]. lia.
Qed.

(** A solution whose indices are customers. *)
Record in_range (x : vsolution) : Prop := {
  r_paths : forall path c, In path (x_paths x) -> In c path -> c < length (w_demands p);
  r_starts : forall i, i < length (x_paths x) -> exists s, nth_error (x_starts x) i = Some s /\ s < length (w_demands p);
  r_ends : forall i, i < length (x_paths x) -> exists e, nth_error (x_ends x) i = Some e /\ e < length (w_demands p);
  r_vehicles : w_vehicles p <= length (x_paths x);
  r_caps : w_vehicles p <= length (w_caps p)
}.
Definition xload (x : vsolution) (i : nat) : Z := carried p (nth i (x_starts x) 0) (nth i (x_ends x) 0) (nth i (x_paths x) []).
Definition xroute (x : vsolution) (i : nat) : Z := measured (nth i (x_starts x) 0) (nth i (x_ends x) 0) (nth i (x_paths x) []).

Lemma evaluate_ok : forall x, in_range x -> x_cache x = None ->
  exists x' obj v, evaluate dist p x = Ok (x', (obj, v)) /\
    obj = sumZ (map (xroute x) (seq 0 (length (x_paths x)))) /\
    v = sumZ (map (fun i => Z.max (xload x i - capacity p i) 0) (seq 0 (w_vehicles p))).
Proof.
  intros x IR C. unfold evaluate, sequential_computing. rewrite C.
  pose (P := fun (q : list nat) (st : list (list Z) * Z * list Z) => let '(ls, obj, caps) := st in
    obj = sumZ (map (xroute x) q) /\ caps = map (xload x) q).
  destruct (@foldM_total _ _ (fun st i =>
    let '(lengths_list, sum_obj, capacity_list) := st in
    let* s := lget (x_starts x) i in
    let* e := lget (x_ends x) i in
    let* path := lget (x_paths x) i in
    let* r := compute_length dist s e path (w_demands p) in
    let '(lengths, obj, capacity) := r in
    Ok (lengths_list ++ [lengths], (sum_obj + obj)%Z, capacity_list ++ [capacity])) P (seq 0 (length (x_paths x))) ([], 0%Z, []))
    as ([[ls obj] caps] & E & V).
  - unfold P. cbn. auto.
  - intros l0 i l1 [[ls obj] caps] E [V1 V2]. apply seq_split in E as [-> L]. cbn [plus]. set (k := length l0) in *.
    destruct (r_starts _ IR k L) as (s & Es & Ls). destruct (r_ends _ IR k L) as (e & Ee & Le).
    rewrite (proj2 (lget_ok _ k s) Es), (proj2 (lget_ok _ k e) Ee). cbn [bind].
    pose proof (lget_nth' _ (x_paths x) k [] L) as Ep. rewrite Ep. cbn [bind].
    destruct (compute_ok s e (nth k (x_paths x) []) Ls Le) as (lens & Ec & _).
    { intros c Ic. apply (r_paths _ IR (nth k (x_paths x) [])); auto. now apply nth_In. }
    rewrite Ec. cbn [bind]. eexists. split; [reflexivity|]. unfold P. rewrite !map_app, sumZ_app. cbn [map]. rewrite sumZ_one.
    unfold xroute at 2, xload at 2. rewrite (nth_error_nth _ _ 0 Es), (nth_error_nth _ _ 0 Ee). subst. auto.
  - rewrite E. cbn [bind]. destruct V as [-> ->].
    pose (Q := fun (q : list nat) (v : Z) => v = sumZ (map (fun i => Z.max (xload x i - capacity p i) 0) q)).
    destruct (@foldM_total _ _ (fun v i => let* c := lget (map (xload x) (seq 0 (length (x_paths x)))) i in
       let* k := lget (w_caps p) i in Ok (v + Z.max (c - k) 0)%Z) Q (seq 0 (w_vehicles p)) 0%Z) as (v & F & V).
    + reflexivity.
    + intros l0 i l1 s1 E1 V. apply seq_split in E1 as [-> L]. cbn [plus]. pose proof (r_vehicles _ IR). pose proof (r_caps _ IR).
      rewrite (proj2 (lget_ok _ (length l0) (xload x (length l0)))).
      2: { rewrite nth_error_map, nth_error_seq by lia. reflexivity. }
      cbn [bind]. rewrite (lget_nth' _ (w_caps p) (length l0) 0%Z) by lia. cbn [bind]. eexists. split; [reflexivity|].
      unfold Q. rewrite map_app, sumZ_app. cbn [map]. rewrite sumZ_one. unfold Q in V. rewrite <- V. reflexivity.
    + rewrite F. cbn [bind]. do 3 eexists. split; [reflexivity|]. split; [reflexivity|exact V].
Qed.

End Eval.

Lemma sumZ_max_zero : forall (f : nat -> Z) l, sumZ (map (fun i => Z.max (f i) 0) l) = 0%Z <-> forall i, In i l -> (f i <= 0)%Z.
Proof.
  intros f. induction l as [|x l IH]; cbn [map]; [split; [intros _ i []|reflexivity]|]. rewrite sumZ_cons.
  assert (0 <= sumZ (map (fun i => Z.max (f i) 0) l))%Z by (apply sumZ_map_nonneg; intros; lia). split.
  - intros E i [<-|I]; [lia|]. apply IH; auto. lia.
  - intros A. rewrite (proj2 IH) by (intros; apply A; now right). specialize (A x (or_introl eq_refl)). lia.
Qed.

(** * C42 *)
(** The trivial solution: tours for all vehicles, of customers that are not depots, nobody twice; no used vehicle is
    overloaded; whoever is left out fits in no vehicle; and, for non-negative demands, every tour goes from large to small. *)
Theorem C42_trivial : forall p, well_formed p -> exists tours,
  trivial_solution p = Ok (VSolution (w_starts p) (w_ends p) tours None) /\
  length tours = w_vehicles p /\ NoDup (concat tours) /\
  (forall c, In c (concat tours) -> c < w_count p /\ ~ is_depot p c) /\
  (forall v, v < w_vehicles p -> nth v tours [] <> [] -> (load p tours v <= capacity p v)%Z) /\
  (forall c, c < w_count p -> ~ is_depot p c -> ~ In c (concat tours) ->
    forall v, v < w_vehicles p -> (capacity p v < load p tours v + demand p c)%Z) /\
  ((forall c, c < w_count p -> (0 <= demand p c)%Z) -> forall t i j a b, In t tours -> i < j ->
    nth_error t i = Some a -> nth_error t j = Some b -> (demand p b < demand p a)%Z \/ demand p a = demand p b /\ a < b).
Proof.
  intros p WF. destruct (trivial_ok p WF) as (rem0 & room & tours & rem & E & Nd & Cs & V). destruct V as [V1 V2 V3 V4 _].
  cbn [fst snd] in *. exists tours. split; auto. split; auto.
  assert (N : NoDup (concat tours ++ rem)) by (eapply Permutation_NoDup; eauto).
  assert (Each : forall v, v < w_vehicles p -> exists r, nth_error room v = Some r /\ r = (capacity p v - load p tours v)%Z /\
     (nth v tours [] <> [] -> (0 <= r)%Z) /\ (forall c, In c rem -> (r < demand p c)%Z) /\ (nonneg p rem0 -> StronglySorted (by_size p) (nth v tours []))).
  { intros v L. destruct (nth_error room v) as [r|] eqn:R; [|apply nth_error_None in R; lia].
    assert (T : nth_error tours v = Some (nth v tours [])) by (apply nth_error_nth'; lia).
    destruct (V4 v _ r L T R) as (A & B & C & D). exists r. repeat (split; auto). rewrite A. unfold load, carried, depot_load. lia. }
  split; [|split; [|split; [|split]]].
  - clear -N. revert N. generalize (concat tours). induction l as [|x l IH]; intros N; [constructor|]. cbn in N. inversion N; subst.
    constructor; auto. intros I. apply H1. apply in_app_iff. auto.
  - intros c I. apply Cs. eapply Permutation_in; [symmetry; exact V3|]. apply in_app_iff. auto.
  - intros v L Ne. destruct (Each v L) as (r & _ & -> & B & _). specialize (B Ne). lia.
  - intros c Lc Dc Nc v L. destruct (Each v L) as (r & _ & -> & _ & C & _).
    assert (I : In c rem). { assert (I : In c rem0) by now apply Cs. apply (Permutation_in _ V3) in I. apply in_app_iff in I. tauto. }
    specialize (C c I). lia.
  - intros Nn t i j a b It Lij Ai Bj. apply In_nth with (d := []) in It as (v & Lv & <-). rewrite V2 in Lv.
    destruct (Each v Lv) as (r & _ & _ & _ & _ & D). assert (Srt : StronglySorted (by_size p) (nth v tours [])).
    { apply D. intros c I. apply Cs in I as [I _]. auto. }
    clear -Srt Lij Ai Bj. revert i j Lij Ai Bj. induction Srt as [|x l Srt IH F]; intros i j L A B; [destruct i; discriminate|].
    destruct j as [|j]; [lia|]. destruct i as [|i].
    + cbn in A, B. injection A as ->. rewrite Forall_forall in F. apply (F b). eapply nth_error_In; eauto.
    + apply (IH i j); auto. lia.
Qed.

(** The evaluation, for symmetric distances: the lengths of the routes from depot to depot, and the overloads. *)
Theorem C42_evaluate : forall dist p x, (forall a b, dist a b = dist b a) -> in_range p x -> x_cache x = None ->
  exists x', evaluate dist p x = Ok (x',
    (sumZ (map (fun i => route dist (nth i (x_starts x) 0 :: nth i (x_paths x) [] ++ [nth i (x_ends x) 0])) (seq 0 (length (x_paths x)))),
     sumZ (map (fun i => Z.max (carried p (nth i (x_starts x) 0) (nth i (x_ends x) 0) (nth i (x_paths x) []) - capacity p i) 0) (seq 0 (w_vehicles p))))).
Proof.
  intros dist p x Sym IR C. destruct (evaluate_ok dist p x IR C) as (x' & obj & v & E & -> & ->). exists x'. rewrite E.
  do 4 f_equal. apply map_ext. intros i. unfold xroute, measured. set (s := nth i (x_starts x) 0). set (e := nth i (x_ends x) 0).
  destruct (nth i (x_paths x) []) as [|y l _] using rev_ind; [cbn; lia|].
  destruct (l ++ [y]) eqn:Q; [destruct l; discriminate|]. rewrite <- Q. rewrite last_last. clear Q.
  pose proof (route_snoc dist (s :: l) y e) as R. cbn [app] in *. rewrite <- app_assoc. cbn [app]. rewrite R. rewrite (Sym e y). reflexivity.
Qed.

(** The check is exact for the capacities. *)
Theorem C42_satisfy : forall dist p x, in_range p x -> x_cache x = None -> exists b, satisfy dist p x = Ok b /\
  (b = true <-> forall i, i < w_vehicles p -> (carried p (nth i (x_starts x) 0%nat) (nth i (x_ends x) 0%nat) (nth i (x_paths x) []) <= capacity p i)%Z).
Proof.
  intros dist p x IR C. destruct (evaluate_ok dist p x IR C) as (x' & obj & v & E & _ & ->). unfold satisfy. rewrite E. cbn [bind snd].
  eexists. split; [reflexivity|]. rewrite Z.eqb_eq.
  rewrite (sumZ_max_zero (fun i => xload p x i - capacity p i)%Z). unfold xload. split.
  - intros H i L. specialize (H i). cbv beta in H. rewrite in_seq in H. specialize (H ltac:(lia)). lia.
  - intros H i I. apply in_seq in I. specialize (H i ltac:(lia)). lia.
Qed.

(** The trivial solution is accepted when the depots alone fit in every vehicle. *)
Theorem C42_trivial_accepted : forall dist p, well_formed p ->
  (forall v, v < w_vehicles p -> (carried p (start_of p v) (end_of p v) [] <= capacity p v)%Z) ->
  exists x, trivial_solution p = Ok x /\ satisfy dist p x = Ok true.
Proof.
  intros dist p WF Dep. destruct (C42_trivial p WF) as (tours & E & L & _ & Cs & Cap & _). eexists. split; [exact E|].
  destruct (C42_satisfy dist p (VSolution (w_starts p) (w_ends p) tours None)) as (b & S & B); auto.
  - constructor; cbn [x_starts x_ends x_paths].
    + intros path c Ip Ic. assert (I : In c (concat tours)) by (apply in_concat; eauto). apply Cs in I as [I _]. pose proof (wf_count _ WF). lia.
    + intros i Li. rewrite L in Li. destruct (start_lt p WF i Li) as [A B]. apply lget_ok in B. eauto.
    + intros i Li. rewrite L in Li. destruct (end_lt p WF i Li) as [A B]. apply lget_ok in B. eauto.
    + lia.
    + apply (wf_caps _ WF).
  - rewrite S. f_equal. apply B. cbn [x_starts x_ends x_paths]. intros i Li. destruct (nth i tours []) eqn:T.
    + apply Dep; auto.
    + rewrite <- T. apply Cap; auto. congruence.
Qed.

(** The "stupid" solution puts every customer that is not a depot on the first vehicle, in order. *)
Theorem C42_stupid : forall p, well_formed p -> 0 < w_vehicles p -> exists tour,
  stupid_solution p = Ok (VSolution (w_starts p) (w_ends p) (tour :: repeat [] (w_vehicles p - 1)) None) /\
  StronglySorted le tour /\ NoDup tour /\ forall c, In c tour <-> c < w_count p /\ ~ is_depot p c.
Proof.
  intros p WF Pos. destruct (depots_ok p WF) as (room & rem & E & _ & _ & Nd & Cs). unfold stupid_solution. rewrite E. cbn [bind snd].
  exists (ssort Nat.leb rem). split; [|split; [|split]].
  - destruct (w_vehicles p) as [|n]; [lia|]. cbn. now rewrite Nat.sub_0_r.
  - assert (Q : StronglySorted (fun a b => Nat.leb a b = true) (ssort Nat.leb rem)).
    { apply Sorted_StronglySorted; [intros a b c; lia|]. apply ssort_sorted. intros; lia. }
    induction Q as [|x l Q IH F]; constructor; auto. eapply Forall_impl; [|exact F]. cbn. intros; lia.
  - eapply Permutation_NoDup; [apply ssort_perm|auto].
  - intros c. rewrite <- Cs. split; intros I; eapply Permutation_in; try exact I; [symmetry|]; apply ssort_perm.
Qed.

(** * Concrete cases *)
(** Two vehicles with capacities 10 and 7, the depot 0, five customers; the distance is the difference of the indices. *)
Definition ex_dist (a b : nat) : Z := Z.abs (Z.of_nat a - Z.of_nat b).
Definition ex_vp : vrp := Vrp 2 [10; 7]%Z 6 [0; 4; 6; 3; 5; 3]%Z [0; 0] [0; 0].
Lemma ex_wf : well_formed ex_vp.
Proof.
  constructor; cbn; try lia.
  - intros v s L H. destruct v as [|[|v]]; [injection H as <-; lia|injection H as <-; lia|lia].
  - intros v s L H. destruct v as [|[|v]]; [injection H as <-; lia|injection H as <-; lia|lia].
Qed.
Example C42_ex : trivial_solution ex_vp = Ok (VSolution [0; 0] [0; 0] [[2; 1]; [4]] None) /\
  in_range ex_vp (VSolution [0; 0] [0; 0] [[2; 1]; [4]] None) /\
  rmap snd (evaluate ex_dist ex_vp (VSolution [0; 0] [0; 0] [[2; 1]; [4]] None)) = Ok (12, 0)%Z /\
  rmap snd (evaluate ex_dist ex_vp (VSolution [0; 0] [0; 0] [[2; 4]; [1; 3; 5]] None)) = Ok (18, 4)%Z.
Proof.
  split; [vm_compute; reflexivity|]. split; [|split; vm_compute; reflexivity].
  constructor; cbn; try lia.
  - intros path c [<-|[<-|[]]] I; cbn in I; intuition lia.
  - intros i L. destruct i as [|[|i]]; [exists 0|exists 0|lia]; cbn; split; auto; lia.
  - intros i L. destruct i as [|[|i]]; [exists 0|exists 0|lia]; cbn; split; auto; lia.
Qed.

(** * Findings *)
(** [satisfy] looks only at the capacities: a solution that serves nobody is accepted. *)
Theorem C42_satisfy_refuted : exists dist p x, well_formed p /\ in_range p x /\ satisfy dist p x = Ok true /\
  exists c, c < w_count p /\ ~ is_depot p c /\ ~ In c (concat (x_paths x)).
Proof.
  exists ex_dist, ex_vp, (VSolution [0; 0] [0; 0] [[]; []] None). split; [exact ex_wf|]. split; [|split; [vm_compute; reflexivity|]].
  - constructor; cbn; try lia.
    + intros path c [<-|[<-|[]]] [].
    + intros i L. destruct i as [|[|i]]; [exists 0|exists 0|lia]; cbn; split; auto; lia.
    + intros i L. destruct i as [|[|i]]; [exists 0|exists 0|lia]; cbn; split; auto; lia.
  - exists 1. cbn. split; [lia|]. split; [|tauto]. intros (v & L & H). cbn in L, H. destruct v as [|[|v]]; cbn in H; [intuition congruence|intuition congruence|lia].
Qed.

(** The trivial solution may leave customers unserved although all of them can be served. *)
Theorem C42_trivial_refuted : exists p tours paths, well_formed p /\
  trivial_solution p = Ok (VSolution (w_starts p) (w_ends p) tours None) /\
  (exists c, c < w_count p /\ ~ is_depot p c /\ ~ In c (concat tours)) /\
  (forall c, c < w_count p -> ~ is_depot p c -> In c (concat paths)) /\
  forall v, v < w_vehicles p -> (load p paths v <= capacity p v)%Z.
Proof.
  exists (Vrp 2 [10; 10]%Z 7 [0; 5; 4; 4; 3; 2; 2]%Z [0; 0] [0; 0]), [[1; 2]; [3; 4; 5]], [[1; 4; 5]; [2; 3; 6]].
  assert (D : forall c, is_depot (Vrp 2 [10; 10]%Z 7 [0; 5; 4; 4; 3; 2; 2]%Z [0; 0] [0; 0]) c -> c = 0).
  { intros c (v & L & H). cbn in L, H. destruct v as [|[|v]]; cbn in H; [intuition congruence|intuition congruence|lia]. }
  split; [|split; [vm_compute; reflexivity|split; [|split]]].
  - constructor; cbn; try lia.
    + intros v s L H. destruct v as [|[|v]]; [injection H as <-; lia|injection H as <-; lia|lia].
    + intros v s L H. destruct v as [|[|v]]; [injection H as <-; lia|injection H as <-; lia|lia].
  - exists 6. split; [cbn; lia|]. split; [intros H; apply D in H; lia|]. cbn. lia.
  - intros c L N. cbn in L |- *. assert (c <> 0).
    { intros ->. apply N. exists 0. split; [cbn; lia|]. left. reflexivity. }
    lia.
  - intros v L. cbn in L. destruct v as [|[|v]]; [vm_compute; discriminate|vm_compute; discriminate|lia].
Qed.

(** The last leg is measured from the end depot: with directed distances the length of the route is wrong. *)
Theorem C42_directed_refuted : exists dist p x x' v obj, in_range p x /\ x_cache x = None /\ evaluate dist p x = Ok (x', (obj, v)) /\
  x_paths x = [[1]] /\ x_starts x = [0] /\ x_ends x = [0] /\ obj <> route dist [0; 1; 0].
Proof.
  exists (fun a b => Z.of_nat (2 * b + a)), (Vrp 1 [5%Z] 2 [0; 1]%Z [0] [0]), (VSolution [0] [0] [[1]] None). do 3 eexists.
  split; [|split; [reflexivity|split; [vm_compute; reflexivity|repeat (split; [reflexivity|]); vm_compute; discriminate]]].
  constructor; cbn; try lia.
  - intros path c [<-|[]] [<-|[]]. lia.
  - intros i L. destruct i; [exists 0; split; auto|lia].
  - intros i L. destruct i; [exists 0; split; auto|lia].
Qed.

(** The cached loads survive a change of the paths: an overloaded solution is accepted. *)
Theorem C42_stale_refuted : exists dist p x x' r paths, evaluate dist p x = Ok (x', r) /\
  satisfy dist p (VSolution (x_starts x') (x_ends x') paths (x_cache x')) = Ok true /\
  (capacity p 0 < load p paths 0)%Z.
Proof.
  exists ex_dist, ex_vp, (VSolution [0; 0] [0; 0] [[2; 1]; [4]] None). do 2 eexists. exists [[2; 1; 3]; [4]].
  split; [vm_compute; reflexivity|]. split; vm_compute; reflexivity.
Qed.

Print Assumptions C42_trivial.
Print Assumptions C42_evaluate.
Print Assumptions C42_satisfy.
Print Assumptions C42_trivial_accepted.
Print Assumptions C42_stupid.
Print Assumptions C42_satisfy_refuted.
Print Assumptions C42_trivial_refuted.
Print Assumptions C42_directed_refuted.
Print Assumptions C42_stale_refuted.
