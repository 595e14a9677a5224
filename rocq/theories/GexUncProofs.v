(** Proofs about the exploration under uncertainty and about merging. *)
From Coq Require Import List Bool Arith QArith Lia.
From Verif Require Import Py PyList PyMore AoProofs PevalSpec GexModel GexSpec GexProofs GexMoreProofs.
Import ListNotations.
Open Scope nat_scope.

Section Unc.
Context {St A : Type} {ES : PyEq St} {EA : PyEq A}.
Variable d : udom St A.
Variable s0 : St.
Definition halts (s : St) : bool := u_goal d s || u_term d s.
Notation ureach := (ureach d s0 halts).

(** The row of an action exists and every outcome has been seen. *)
Definition row (m : umap (St := St) (A := A)) (s : St) (a : A) : Prop := look2 m s a <> None.
Definition closed (z : ust (St := St) (A := A)) (s : St) (a : A) : Prop :=
  (u_dist d s a <> [] -> row (us_map z) s a) /\ forall t pr, In (t, pr) (u_dist d s a) -> ~ (pr == 0)%Q -> In t (us_result z).

Record uinv (cur : St -> Prop) (z : ust (St := St) (A := A)) : Prop := {
  v_reach : forall s, In s (us_result z) -> ureach s;
  v_stack : forall s, In s (us_stack z) -> In s (us_result z);
  v_nd : NoDup (us_stack z);
  v_ndr : NoDup (us_result z);
  v_term : forall s, dget (us_term z) s = if pymem s (us_result z) then Some (u_term d s) else None;
  v_goal : forall s, dget (us_goal z) s = if pymem s (us_result z) then Some (u_goal d s) else None;
  v_rows : forall s a, row (us_map z) s a -> ureach s /\ halts s = false /\ In a (u_apps d s);
  v_entry : forall s a t x, look3 (us_map z) s a t = Some x -> In (t, fst x) (u_dist d s a) /\ ~ (fst x == 0)%Q /\ snd x = u_cost d s a t /\ In t (us_result z) /\ t <> s0;
  v_some : forall t, In t (us_result z) -> t <> s0 -> exists s a x, look3 (us_map z) s a t = Some x;
  v_one : forall s a x s' a' x' t, look3 (us_map z) s a t = Some x -> look3 (us_map z) s' a' t = Some x' -> s = s' /\ a = a';
  v_done : forall s, In s (us_result z) -> In s (us_stack z) \/ halts s = true \/ (forall a, In a (u_apps d s) -> closed z s a) \/ cur s;
  v_count : S (us_edges z) = length (us_result z);
  v_start : In s0 (us_result z);
  v_keys : NoDup (dkeys (us_goal z)) }.

Lemma look3_absent : forall (m : umap (St := St) (A := A)) s a t, look2 m s a = None -> look3 m s a t = None.
Proof. intros m s a t H. unfold look3. now rewrite H. Qed.
Lemma look3_row : forall (m : umap (St := St) (A := A)) s a t x, look3 m s a t = Some x -> row m s a.
Proof. intros m s a t x H C. rewrite look3_absent in H by exact C. discriminate. Qed.

(** Creating the row of an action. *)
Definition with_row (m : umap (St := St) (A := A)) (s : St) (a : A) : res (umap (St := St) (A := A)) :=
  let m0 := if dmem m s then m else dset m s [] in
  let* i0 := dgetE m0 s in Ok (if dmem i0 a then m0 else dset m0 s (dset i0 a [])).
Lemma with_row_ok : forall m s a, exists m1 i1 e, with_row m s a = Ok m1 /\ dget m1 s = Some i1 /\ dget i1 a = Some e /\
  (forall x b t, look3 m1 x b t = look3 m x b t) /\ (forall x b, row m1 x b <-> row m x b \/ (x = s /\ b = a)) /\ (forall t, dget e t = look3 m s a t).
Proof.
  intros m s a. unfold with_row. set (m0 := if dmem m s then m else dset m s []).
  assert (L : forall x b, look2 m0 x b = look2 m x b).
  { intros x b. unfold m0. destruct (dmem m s) eqn:Z; [reflexivity|]. rewrite look2_dset. destruct (pyeqb_spec s x) as [EQ|NE]; [|reflexivity]. subst x. cbn. unfold look2. unfold dmem in Z. destruct (dget m s); [discriminate|reflexivity]. }
  assert (M : dmem m0 s = true). { unfold m0. destruct (dmem m s) eqn:Z; [exact Z|]. rewrite dmem_dset, pyeqb_refl. reflexivity. }
  destruct (proj1 (dmem_get _ _ _ _) M) as [i0 G]. unfold dgetE. rewrite G. cbn [bind].
  assert (LS : forall b, dget i0 b = look2 m s b) by (intros b; rewrite <- L; unfold look2; now rewrite G).
  destruct (dmem i0 a) eqn:Z.
  - destruct (proj1 (dmem_get _ _ _ _) Z) as [e GE]. exists m0, i0, e. split; [reflexivity|]. split; [exact G|]. split; [exact GE|]. split; [|split].
    + intros x b t. unfold look3. now rewrite L.
    + intros x b. unfold row. rewrite L. split; [auto|]. intros [H|[-> ->]]; [auto|]. rewrite <- LS, GE. discriminate.
    + intros t. unfold look3. rewrite <- LS, GE. reflexivity.
  - assert (N : look2 m s a = None). { rewrite <- LS. unfold dmem in Z. destruct (dget i0 a); [discriminate|reflexivity]. }
    exists (dset m0 s (dset i0 a [])), (dset i0 a []), []. split; [reflexivity|]. split; [now rewrite dget_dset, pyeqb_refl|]. split; [now rewrite dget_dset, pyeqb_refl|].
    assert (L2 : forall x b, look2 (dset m0 s (dset i0 a [])) x b = if pyeqb s x && pyeqb a b then Some [] else look2 m x b).
    { intros x b. rewrite look2_dset, dget_dset. destruct (pyeqb_spec s x) as [EQ|NE]; [subst x|now rewrite L]. destruct (pyeqb a b); cbn [andb]; [reflexivity|apply LS]. }
    split; [|split].
    + intros x b t. unfold look3. rewrite L2. destruct (pyeqb_spec s x) as [EQ|NE]; [|reflexivity]. subst x. destruct (pyeqb_spec a b) as [EQ|NE]; [|reflexivity]. subst b. cbn [andb]. now rewrite N.
    + intros x b. unfold row. rewrite L2. destruct (pyeqb_spec s x) as [EQ|NE].
      * subst x. destruct (pyeqb_spec a b) as [EQ|NE]; cbn [andb]; [subst b; split; [auto|discriminate]|]. split; [auto|]. intros [H|[_ H]]; [auto|congruence].
      * cbn [andb]. split; [auto|]. intros [H|[H _]]; [auto|congruence].
    + intros t. unfold look3. rewrite N. reflexivity.
Qed.

Definition grows (z z' : ust (St := St) (A := A)) : Prop := (forall x, In x (us_result z) -> In x (us_result z')) /\ (forall x b, row (us_map z) x b -> row (us_map z') x b).
Lemma closed_grows : forall z z' s a, grows z z' -> closed z s a -> closed z' s a.
Proof. intros z z' s a [G1 G2] [C1 C2]. split; [intros N; apply G2, C1, N|]. intros t pr I N. eapply G1, C2; eauto. Qed.

Lemma u_outcome_ok : forall s a z t pr, uinv (fun x => x = s) z -> ureach s -> halts s = false -> In a (u_apps d s) -> In (t, pr) (u_dist d s a) ->
  exists z', u_outcome d s a z (t, pr) = Ok z' /\ uinv (fun x => x = s) z' /\ grows z z' /\ row (us_map z') s a /\ (~ (pr == 0)%Q -> In t (us_result z')) /\
  (forall U, (forall x, ureach x -> In x U) -> length (us_stack z') + remaining U (us_result z') <= length (us_stack z) + remaining U (us_result z)).
Proof.
  intros s a z t pr [V1 V2 V3 V4 V5 V6 V7 V8 V9 V10 V11 V12 V13 V14] US HS IA IT. unfold u_outcome.
  destruct (with_row_ok (us_map z) s a) as (m1 & i1 & e & W & G1 & GE & L3 & RW & LE). unfold with_row in W.
  set (m0 := if dmem (us_map z) s then us_map z else dset (us_map z) s []) in *. destruct (dgetE m0 s) as [i0|er]; [|discriminate]. cbn [bind] in *. assert (WM : (if dmem i0 a then m0 else dset m0 s (dset i0 a [])) = m1) by congruence. rewrite WM. clear W WM.
  destruct (negb (Qeq_bool pr 0) && negb (pymem t (us_result z))) eqn:C.
  - apply andb_true_iff in C. destruct C as [C1 C2]. apply negb_true_iff in C1, C2. assert (NZ : ~ (pr == 0)%Q) by (intros Z; apply Qeq_bool_iff in Z; congruence).
    assert (NT : ~ In t (us_result z)) by (rewrite <- pymem_true, C2; discriminate).
    assert (UT : ureach t) by (apply (ureach_step d s0 halts s a t pr); auto).
    unfold dgetE. rewrite G1. cbn [bind]. rewrite GE. cbn [bind]. eexists. split; [reflexivity|].
    set (x0 := (pr, u_cost d s a t)).
    assert (L2 : forall x b, look2 (dset m1 s (dset i1 a (dset e t x0))) x b = if pyeqb s x && pyeqb a b then Some (dset e t x0) else look2 m1 x b).
    { intros x b. rewrite look2_dset, dget_dset. destruct (pyeqb_spec s x) as [EQ|NE]; [subst x|reflexivity]. destruct (pyeqb a b); cbn [andb]; [reflexivity|]. unfold look2. now rewrite G1. }
    assert (N3 : forall x b, look3 (us_map z) x b t = None).
    { intros x b. destruct (look3 (us_map z) x b t) eqn:Z; [|reflexivity]. exfalso. apply NT. eapply V8; eauto. }
    assert (L4 : forall x b u y, look3 (dset m1 s (dset i1 a (dset e t x0))) x b u = Some y <-> (x = s /\ b = a /\ u = t /\ y = x0) \/ look3 (us_map z) x b u = Some y).
    { intros x b u y. unfold look3 at 1. rewrite L2. destruct (pyeqb_spec s x) as [EQ|NE].
      - subst x. destruct (pyeqb_spec a b) as [EQ|NE]; cbn [andb].
        + subst b. rewrite dget_dset, LE. destruct (pyeqb_spec t u) as [EQ|NE].
          * subst u. rewrite N3. split; [intros E; injection E as <-; auto|]. intros [(_ & _ & _ & ->)|E]; [auto|discriminate].
          * split; [auto|]. intros [(_ & _ & E & _)|E]; [congruence|auto].
        + fold (look3 m1 s b u). rewrite L3. split; [auto|]. intros [(_ & E & _)|E]; [congruence|auto].
      - cbn [andb]. fold (look3 m1 x b u). rewrite L3. split; [auto|]. intros [(E & _)|E]; [congruence|auto]. }
    assert (RW2 : forall x b, row (dset m1 s (dset i1 a (dset e t x0))) x b <-> row (us_map z) x b \/ (x = s /\ b = a)).
    { intros x b. unfold row at 1. rewrite L2. destruct (pyeqb_spec s x) as [EQ|NE].
      - subst x. destruct (pyeqb_spec a b) as [EQ|NE]; cbn [andb]; [subst b; split; [auto|discriminate]|apply RW].
      - cbn [andb]. apply RW. }
    assert (PM : forall x, pymem x (pyadd (us_result z) t) = pyeqb x t || pymem x (us_result z)) by (intros; apply pymem_pyadd).
    assert (TN : t <> s0) by (intros ->; apply NT, V13).
    assert (GR : grows z {| us_map := dset m1 s (dset i1 a (dset e t x0)); us_term := dset (us_term z) t (u_term d t); us_goal := dset (us_goal z) t (u_goal d t); us_result := pyadd (us_result z) t; us_edges := S (us_edges z); us_stack := t :: us_stack z |}).
    { split; cbn [us_result us_map]; [intros x I; apply pyadd_In; auto|]. intros x b R. apply RW2. auto. }
    split; [|split; [exact GR|split; [cbn [us_map]; apply RW2; auto|split; [intros _; cbn [us_result]; apply pyadd_In; auto|]]]].
    + constructor; cbn [us_map us_term us_goal us_result us_edges us_stack].
      * intros x I. apply pyadd_In in I. destruct I as [->|I]; auto.
      * intros x [<-|I]; apply pyadd_In; auto.
      * constructor; [intros I; apply NT, V2, I|exact V3].
      * now apply pyadd_NoDup.
      * intros x. rewrite dget_dset, PM. destruct (pyeqb_spec t x) as [EQ|NE]; [subst x; rewrite pyeqb_refl; reflexivity|]. destruct (pyeqb_spec x t); [congruence|]. apply V5.
      * intros x. rewrite dget_dset, PM. destruct (pyeqb_spec t x) as [EQ|NE]; [subst x; rewrite pyeqb_refl; reflexivity|]. destruct (pyeqb_spec x t); [congruence|]. apply V6.
      * intros x b R. apply RW2 in R. destruct R as [R|[-> ->]]; auto.
      * intros x b u y E. apply L4 in E. destruct E as [(-> & -> & -> & ->)|E].
        -- cbn. split; [auto|]. split; [auto|]. split; [auto|]. split; [apply pyadd_In; auto|auto].
        -- destruct (V8 _ _ _ _ E) as (? & ? & ? & ? & ?). rewrite pyadd_In. auto 10.
      * intros u I NU. apply pyadd_In in I. destruct I as [->|I].
        -- exists s, a, x0. apply L4. auto.
        -- destruct (V9 u I NU) as (x & b & y & E). exists x, b, y. apply L4. auto.
      * intros x b y x' b' y' u E E'. apply L4 in E, E'. destruct E as [(-> & -> & -> & ->)|E]; destruct E' as [(E1 & E2 & E3 & E4)|E'].
        -- auto.
        -- rewrite N3 in E'. discriminate.
        -- subst u. rewrite N3 in E. discriminate.
        -- eapply V10; eauto.
      * intros x I. apply pyadd_In in I. destruct I as [->|I]; [left; now left|]. destruct (V11 x I) as [H|[H|[H|H]]]; auto; [left; now right|]. right; right; left. intros b IB. eapply closed_grows; [exact GR|auto].
      * unfold pyadd. rewrite C2. rewrite app_length. cbn [length]. lia.
      * apply pyadd_In. auto.
      * now apply NoDup_dset.
    + cbn [us_stack us_result length]. intros U HU. assert (remaining U (pyadd (us_result z) t) < remaining U (us_result z)); [|lia]. unfold remaining. apply filter_length_strict with t.
      * intros x _ H. rewrite PM in H. destruct (pymem x (us_result z)); [now rewrite orb_true_r in H|auto].
      * auto.
      * now rewrite C2.
      * now rewrite PM, pyeqb_refl.
  - eexists. split; [reflexivity|]. set (z' := {| us_map := m1; us_term := us_term z; us_goal := us_goal z; us_result := us_result z; us_edges := us_edges z; us_stack := us_stack z |}).
    assert (GR : grows z z'). { split; cbn [us_result us_map z']; [auto|]. intros x b R. apply RW. auto. }
    split; [|split; [exact GR|split; [cbn [us_map z']; apply RW; auto|split; [|intros; cbn [us_stack us_result z']; lia]]]].
    + constructor; cbn [us_map us_term us_goal us_result us_edges us_stack z']; auto.
      * intros x b R. apply RW in R. destruct R as [R|[-> ->]]; auto.
      * intros x b u y. rewrite L3. apply V8.
      * intros u I NU. destruct (V9 u I NU) as (x & b & y & E). exists x, b, y. now rewrite L3.
      * intros x b y x' b' y' u. rewrite !L3. apply V10.
      * intros x I. destruct (V11 x I) as [H|[H|[H|H]]]; auto. right; right; left. intros b IB. eapply closed_grows; [exact GR|auto].
    + intros NZ. cbn [us_result z']. apply andb_false_iff in C. destruct C as [C|C]; apply negb_false_iff in C; [apply Qeq_bool_iff in C; contradiction|]. apply pymem_true in C. exact C.
Qed.

Definition step_ok (s : St) (z z' : ust (St := St) (A := A)) : Prop :=
  uinv (fun x => x = s) z' /\ grows z z' /\ forall U, (forall x, ureach x -> In x U) -> length (us_stack z') + remaining U (us_result z') <= length (us_stack z) + remaining U (us_result z).
Lemma grows_refl : forall z, grows z z.
Proof. split; auto. Qed.
Lemma grows_trans : forall z1 z2 z3, grows z1 z2 -> grows z2 z3 -> grows z1 z3.
Proof. intros z1 z2 z3 [A1 A2] [B1 B2]. split; auto. Qed.

Lemma u_outcomes_ok : forall s a os z, uinv (fun x => x = s) z -> ureach s -> halts s = false -> In a (u_apps d s) -> (forall o, In o os -> In o (u_dist d s a)) ->
  exists z', foldM (u_outcome d s a) z os = Ok z' /\ step_ok s z z' /\ (os <> [] -> row (us_map z') s a) /\ (forall t pr, In (t, pr) os -> ~ (pr == 0)%Q -> In t (us_result z')).
Proof.
  intros s a. induction os as [|[t pr] os IH]; intros z I US HS IA HO.
  - exists z. split; [reflexivity|]. split; [split; [exact I|split; [apply grows_refl|intros; lia]]|]. split; [congruence|intros t pr []].
  - destruct (u_outcome_ok s a z t pr I US HS IA (HO _ (or_introl eq_refl))) as (z1 & R & I1 & G1 & W1 & T1 & U1). destruct (IH z1 I1 US HS IA) as (z2 & R2 & (I2 & G2 & U2) & W2 & T2); [intros; apply HO; now right|].
    exists z2. split; [cbn [foldM]; rewrite R; exact R2|]. split; [split; [exact I2|split; [eapply grows_trans; eauto|]]|].
    + intros U HU. specialize (U1 U HU). specialize (U2 U HU). lia.
    + split; [intros _; apply G2, W1|]. intros x p [E|J] N; [injection E as <- <-; apply G2, T1, N|eauto].
Qed.
Lemma u_actions_ok : forall s l z, uinv (fun x => x = s) z -> ureach s -> halts s = false -> (forall a, In a l -> In a (u_apps d s)) ->
  exists z', foldM (fun z a => foldM (u_outcome d s a) z (u_dist d s a)) z l = Ok z' /\ step_ok s z z' /\ (forall a, In a l -> closed z' s a).
Proof.
  intros s. induction l as [|a l IH]; intros z I US HS HA.
  - exists z. split; [reflexivity|]. split; [split; [exact I|split; [apply grows_refl|intros; lia]]|]. intros a [].
  - destruct (u_outcomes_ok s a (u_dist d s a) z I US HS (HA _ (or_introl eq_refl)) ltac:(auto)) as (z1 & R & (I1 & G1 & U1) & W1 & T1). destruct (IH z1 I1 US HS) as (z2 & R2 & (I2 & G2 & U2) & C2); [intros; apply HA; now right|].
    exists z2. split; [cbn [foldM]; rewrite R; exact R2|]. split; [split; [exact I2|split; [eapply grows_trans; eauto|]]|].
    + intros U HU. specialize (U1 U HU). specialize (U2 U HU). lia.
    + intros b [<-|J]; [|auto]. eapply closed_grows; [exact G2|]. split; [exact W1|exact T1].
Qed.

Definition drop (z : ust (St := St) (A := A)) (s : St) : ust := USt (us_map z) (us_term z) (us_goal z) (us_result z) (us_edges z) (pyremove s (us_stack z)).
Lemma drop_inv : forall z s, uinv (fun _ => False) z -> uinv (fun x => x = s) (drop z s).
Proof.
  intros z s [V1 V2 V3 V4 V5 V6 V7 V8 V9 V10 V11 V12 V13 V14]. constructor; cbn [drop us_map us_term us_goal us_result us_edges us_stack]; auto.
  - intros x I. apply pyremove_incl in I. auto.
  - now apply pyremove_NoDup.
  - intros x I. destruct (pyeqb_spec x s) as [EQ|NE]; [auto|]. destruct (V11 x I) as [H|[H|[H|[]]]]; auto. left. apply pyremove_In; auto.
Qed.
Lemma pyremove_length : forall (s : St) l, In s l -> S (length (pyremove s l)) = length l.
Proof. intros s. induction l as [|x l IH]; intros I; [destruct I|]. cbn [pyremove]. destruct (pyeqb_spec s x) as [EQ|NE]; [reflexivity|]. cbn [length]. f_equal. apply IH. destruct I as [->|I]; [congruence|auto]. Qed.

Lemma u_turn : forall z s, uinv (fun _ => False) z -> In s (us_stack z) -> halts s = false ->
  exists z', foldM (fun z a => foldM (u_outcome d s a) z (u_dist d s a)) (drop z s) (u_apps d s) = Ok z' /\ uinv (fun _ => False) z' /\
  (forall U, (forall x, ureach x -> In x U) -> length (us_stack z') + remaining U (us_result z') < length (us_stack z) + remaining U (us_result z)).
Proof.
  intros z s I IS HS. assert (US : ureach s) by (apply (v_reach _ _ I), (v_stack _ _ I), IS).
  destruct (u_actions_ok s (u_apps d s) (drop z s) (drop_inv z s I) US HS ltac:(auto)) as (z' & R & ([V1 V2 V3 V4 V5 V6 V7 V8 V9 V10 V11 V12 V13 V14] & G & UU) & C). exists z'. split; [exact R|]. split.
  - constructor; auto. intros x J. destruct (V11 x J) as [H|[H|[H|H]]]; auto. subst x. auto.
  - intros U HU. specialize (UU U HU). cbn [drop us_stack us_result] in UU. pose proof (pyremove_length s _ IS). lia.
Qed.
Lemma u_skip : forall z s, uinv (fun _ => False) z -> halts s = true -> uinv (fun _ => False) (drop z s).
Proof.
  intros z s I H. destruct (drop_inv z s I) as [V1 V2 V3 V4 V5 V6 V7 V8 V9 V10 V11 V12 V13 V14]. constructor; auto. intros x J. destruct (V11 x J) as [K|[K|[K|K]]]; auto. subst x. auto.
Qed.

Lemma u_loop_S : forall fuel pick l z, us_stack z <> [] -> u_loop (S fuel) pick d l z =
  (let s := pick (us_stack z) in if halts s then u_loop fuel pick d l (drop z s)
   else let* z' := foldM (fun z a => foldM (u_outcome d s a) z (u_dist d s a)) (drop z s) (u_apps d s) in
        let* b := gtN (length (us_result z')) (l_nodes l) in
        if b then Ok z' else let* c := gtN (us_edges z') (l_edges l) in if c then Ok z' else u_loop fuel pick d l z').
Proof. intros fuel pick l z N. cbn [u_loop]. destruct (us_stack z) eqn:E; [congruence|]. cbn zeta. unfold drop, halts. rewrite E. reflexivity. Qed.

Lemma u_loop_ok : forall pick l, picks pick -> forall fuel z z', uinv (fun _ => False) z -> u_loop fuel pick d l z = Ok z' ->
  uinv (fun _ => False) z' /\ (within_u l (length (us_result z')) -> us_stack z' = []).
Proof.
  intros pick l PK. induction fuel as [|fuel IH]; intros z z' I E.
  - cbn [u_loop] in E. destruct (us_stack z) eqn:S; [|discriminate]. injection E as <-. auto.
  - destruct (us_stack z) as [|s1 rest] eqn:ST; [cbn [u_loop] in E; rewrite ST in E; injection E as <-; auto|]. assert (NE : us_stack z <> []) by (rewrite ST; discriminate). rewrite u_loop_S in E by exact NE. cbn zeta in E. pose proof (PK _ NE) as PI. set (s := pick (us_stack z)) in *.
    destruct (halts s) eqn:H; [apply IH with (drop z s); [now apply u_skip|exact E]|]. destruct (u_turn z s I PI H) as (z1 & R & I1 & _). rewrite R in E. cbn [bind] in E.
    destruct (gtN (length (us_result z1)) (l_nodes l)) as [b|er] eqn:B; [|discriminate]. cbn [bind] in E. destruct b.
    + injection E as <-. split; [exact I1|]. intros (e & k & p & -> & L1 & L2). cbn in B. injection B as B. apply Nat.ltb_lt in B. lia.
    + destruct (gtN (us_edges z1) (l_edges l)) as [c|er] eqn:C; [|discriminate]. cbn [bind] in E. destruct c.
      * injection E as <-. split; [exact I1|]. intros (e & k & p & -> & L1 & L2). cbn in C. injection C as C. apply Nat.ltb_lt in C. pose proof (v_count _ _ I1). lia.
      * apply IH with z1; auto.
Qed.
Lemma u_loop_total : forall U pick e k p, picks pick -> (forall s, ureach s -> In s U) -> forall fuel z, uinv (fun _ => False) z -> length (us_stack z) + remaining U (us_result z) <= fuel ->
  exists z', u_loop fuel pick d {| l_edges := Some e; l_nodes := Some k; l_path := p |} z = Ok z'.
Proof.
  intros U pick e k p PK HU. induction fuel as [|fuel IH]; intros z I L.
  - cbn [u_loop]. destruct (us_stack z); [eauto|cbn in L; lia].
  - destruct (us_stack z) as [|s1 rest] eqn:ST; [cbn [u_loop]; rewrite ST; eauto|]. assert (NE : us_stack z <> []) by (rewrite ST; discriminate). rewrite <- ST in L. rewrite u_loop_S by exact NE. cbn zeta. pose proof (PK _ NE) as PI. set (s := pick (us_stack z)) in *.
    destruct (halts s) eqn:H; [apply IH; [now apply u_skip|]; cbn [drop us_stack us_result]; pose proof (pyremove_length s _ PI); lia|]. destruct (u_turn z s I PI H) as (z1 & R & I1 & D). rewrite R. cbn [bind]. specialize (D U HU).
    cbn [gtN l_nodes l_edges bind]. destruct (k <? length (us_result z1)); [eauto|]. destruct (e <? us_edges z1); [eauto|]. apply IH; [exact I1|lia].
Qed.
Lemma u_start : uinv (fun _ => False) (USt [] [(s0, u_term d s0)] [(s0, u_goal d s0)] [s0] 0 [s0]).
Proof.
  assert (L3 : forall x b t, look3 (St := St) (A := A) (V := Q * Q) [] x b t = None) by reflexivity.
  constructor; cbn [us_map us_term us_goal us_result us_edges us_stack]; auto.
  - intros s [<-|[]]. constructor.
  - constructor; [intros []|constructor].
  - constructor; [intros []|constructor].
  - intros s. cbn. destruct (pyeqb_spec s s0) as [EQ|NE]; [subst s; reflexivity|reflexivity].
  - intros s. cbn. destruct (pyeqb_spec s s0) as [EQ|NE]; [subst s; reflexivity|reflexivity].
  - intros s a R. exfalso. apply R. reflexivity.
  - intros s a t x E. rewrite L3 in E. discriminate.
  - intros t [<-|[]] N. congruence.
  - intros s a x s' a' x' t E. rewrite L3 in E. discriminate.
  - now left.
  - cbn. constructor; [intros []|constructor].
Qed.
Lemma u_complete : forall z, uinv (fun _ => False) z -> us_stack z = [] -> forall s, ureach s -> In s (us_result z) /\ (halts s = false -> forall a, In a (u_apps d s) -> closed z s a).
Proof.
  intros z I ST s H. assert (D : forall s, In s (us_result z) -> halts s = false -> forall a, In a (u_apps d s) -> closed z s a).
  { intros x J HX. destruct (v_done _ _ I x J) as [K|[K|[K|[]]]]; [rewrite ST in K; destruct K|congruence|exact K]. }
  assert (J : In s (us_result z)); [|auto]. induction H as [|s a t pr H IH HS IA IT N]; [apply (v_start _ _ I)|]. eapply (proj2 (D s IH HS a IA)); eauto.
Qed.
End Unc.

(** *** Merging *)
Section Merge.
Context {St A X : Type} {ES : PyEq St} {EA : PyEq A}.

Lemma merge_actions_ok : forall (h : store (A := A) (X := X)) mine theirs inner other, mine <> theirs -> dget h mine = Some inner -> dget h theirs = Some other ->
  exists h', merge_actions h mine theirs = Ok h' /\ (forall r, r <> mine -> dget h' r = dget h r) /\
  exists inner', dget h' mine = Some inner' /\ forall a, dget inner' a = match dget inner a with Some x => Some x | None => dget other a end.
Proof.
  intros h mine theirs inner other N GM GT. unfold merge_actions. unfold dgetE at 1. rewrite GT. cbn [bind].
  assert (K : forall ks h inner, (forall k, In k ks -> In k (dkeys other)) -> dget h mine = Some inner -> dget h theirs = Some other ->
    exists h', foldM (fun h a => let* inner := dgetE h mine in if dmem inner a then Ok h else let* o := dgetE h theirs in let* x := dgetE o a in Ok (dset h mine (dset inner a x))) h ks = Ok h' /\
    (forall r, r <> mine -> dget h' r = dget h r) /\ exists inner', dget h' mine = Some inner' /\ forall a, dget inner' a = match dget inner a with Some x => Some x | None => if pymem a ks then dget other a else None end).
  { induction ks as [|k ks IH]; intros h1 inner1 KS G1 G2.
    - exists h1. split; [reflexivity|]. split; [auto|]. exists inner1. split; [auto|]. intros a. cbn. destruct (dget inner1 a); reflexivity.
    - cbn [foldM]. unfold dgetE at 1. rewrite G1. cbn [bind]. destruct (dmem inner1 k) eqn:M.
      + cbn [bind]. destruct (IH h1 inner1) as (h' & F & H1 & inner' & G' & H2); auto. { intros; apply KS; now right. }
        exists h'. split; [exact F|]. split; [exact H1|]. exists inner'. split; [exact G'|]. intros a. rewrite H2. destruct (dget inner1 a) eqn:Z; [reflexivity|]. cbn [pymem existsb]. destruct (pyeqb_spec a k) as [EQ|NE]; [|reflexivity]. subst a. unfold dmem in M. rewrite Z in M. discriminate.
      + unfold dgetE at 1. rewrite G2. cbn [bind]. destruct (proj1 (dget_keys _ _ other k) (KS k (or_introl eq_refl))) as [x GX]. unfold dgetE at 1. rewrite GX. cbn [bind].
        destruct (IH (dset h1 mine (dset inner1 k x)) (dset inner1 k x)) as (h' & F & H1 & inner' & G' & H2).
        * intros; apply KS; now right.
        * now rewrite dget_dset, pyeqb_refl.
        * rewrite dget_dset. destruct (pyeqb_spec mine theirs); [contradiction|exact G2].
        * exists h'. split; [exact F|]. split.
          -- intros r NR. rewrite H1 by exact NR. rewrite dget_dset. destruct (pyeqb_spec mine r); [congruence|reflexivity].
          -- exists inner'. split; [exact G'|]. intros a. rewrite H2, dget_dset. cbn [pymem existsb]. destruct (pyeqb_spec k a) as [EQ|NE].
             ++ subst a. rewrite pyeqb_refl. unfold dmem in M. destruct (dget inner1 k); [discriminate|]. cbn. auto.
             ++ destruct (pyeqb_spec a k); [congruence|]. reflexivity. }
  destruct (K (dkeys other) h inner ltac:(auto) GM GT) as (h' & F & H1 & inner' & G' & H2). exists h'. split; [exact F|]. split; [exact H1|]. exists inner'. split; [exact G'|].
  intros a. rewrite H2. destruct (dget inner a); [reflexivity|]. destruct (pymem a (dkeys other)) eqn:P; [reflexivity|]. destruct (dget other a) eqn:Z; [|reflexivity]. exfalso.
  assert (I : In a (dkeys other)) by (rewrite dget_keys; eauto). assert (pymem a (dkeys other) = true) by (rewrite pymem_true; exact I). congruence.
Qed.

Definition valid (h : store (A := A) (X := X)) (m : refs (St := St)) : Prop := forall s r, dget m s = Some r -> exists inner, dget h r = Some inner.
Definition separate (m m' : refs (St := St)) : Prop := forall s s' r, dget m s = Some r -> dget m' s' = Some r -> False.
Definition injective (m : refs (St := St)) : Prop := forall s s' r, dget m s = Some r -> dget m s' = Some r -> s = s'.

Lemma merge_ok : forall (h : store (A := A) (X := X)) (mine theirs : refs (St := St)), valid h mine -> valid h theirs -> separate mine theirs -> injective mine -> NoDup (dkeys theirs) ->
  exists h' m', merge h mine theirs = Ok (h', m') /\
  (forall s a, look h' m' s a = match look h mine s a with Some x => Some x | None => look h theirs s a end) /\
  (forall s a, look h' theirs s a = look h theirs s a) /\
  (forall s, dmem m' s = dmem mine s || dmem theirs s).
Proof.
  intros h mine theirs VM VT SP IJ ND. unfold merge.
  assert (K : forall ks, (forall k, In k ks -> In k (dkeys theirs)) -> NoDup ks -> exists h' m', foldM (fun hm k =>
    let '(h, m) := hm in let* r' := dgetE theirs k in
    match dget m k with None => Ok (h, dset m k r') | Some r => let* h' := merge_actions h r r' in Ok (h', m) end) (h, mine) ks = Ok (h', m') /\
    (forall s, dget m' s = match dget mine s with Some r => Some r | None => if pymem s ks then dget theirs s else None end) /\
    (forall s r, dget theirs s = Some r -> dget h' r = dget h r) /\
    (forall s r, dget mine s = Some r -> pymem s ks = false -> dget h' r = dget h r) /\
    (forall s r, dget mine s = Some r -> pymem s ks = true -> exists inner', dget h' r = Some inner' /\ forall a, dget inner' a = match look h mine s a with Some x => Some x | None => look h theirs s a end)).
  { intros ks. induction ks as [|k ks IH] using rev_ind; intros KS NK.
    - exists h, mine. split; [reflexivity|]. split; [intros s; cbn; destruct (dget mine s); reflexivity|]. split; [auto|]. split; [auto|]. intros s r _ C. discriminate.
    - destruct IH as (h1 & m1 & F & P1 & P2 & P3 & P4); [intros; apply KS; rewrite in_app_iff; auto|now apply NoDup_remove_1 in NK; rewrite app_nil_r in NK|].
      assert (NI : ~ In k ks) by (apply NoDup_remove_2 in NK; rewrite app_nil_r in NK; exact NK). assert (NP : pymem k ks = false) by (apply not_true_iff_false; rewrite pymem_true; exact NI).
      assert (PA : forall s, pymem s (ks ++ [k]) = pymem s ks || pyeqb s k). { intros s. apply eq_true_iff_eq. rewrite orb_true_iff, !pymem_true, in_app_iff. cbn. destruct (pyeqb_spec s k); intuition congruence. }
      rewrite foldM_app, F. cbn [bind foldM]. destruct (proj1 (dget_keys _ _ theirs k) (KS k ltac:(rewrite in_app_iff; right; now left))) as [r' GR]. unfold dgetE at 1. rewrite GR. cbn [bind].
      rewrite P1, NP. destruct (dget mine k) as [r|] eqn:GM.
      + assert (NR : r <> r') by (intros ->; eapply SP; eauto). destruct (VM _ _ GM) as [inner GI]. destruct (VT _ _ GR) as [other GO].
        destruct (merge_actions_ok h1 r r' inner other NR) as (h2 & F2 & H1 & inner' & G' & H2); [rewrite (P3 k r GM NP); exact GI|rewrite (P2 k r' GR); exact GO|].
        rewrite F2. cbn [bind]. exists h2, m1. split; [reflexivity|]. split; [|split; [|split]].
        * intros s. rewrite P1, PA. destruct (dget mine s) eqn:Z; [reflexivity|]. destruct (pyeqb_spec s k); [congruence|]. now rewrite orb_false_r.
        * intros s q G. rewrite H1; [eapply P2; eauto|]. intros ->. eapply SP; eauto.
        * intros s q G. rewrite PA. intros Z. apply orb_false_iff in Z. destruct Z as [Z1 Z2]. rewrite H1; [eapply P3; eauto|]. intros ->. rewrite (IJ s k r G GM), pyeqb_refl in Z2. discriminate.
        * intros s q G. rewrite PA. intros Z. destruct (pyeqb_spec s k) as [EQ|NE].
          -- subst s. assert (q = r) by congruence. subst q. exists inner'. split; [exact G'|]. intros a. rewrite H2. unfold look. rewrite GM, GI, GR, GO. reflexivity.
          -- rewrite orb_false_r in Z. destruct (P4 s q G Z) as (i & Gi & Hi). exists i. split; [|exact Hi]. rewrite H1; [exact Gi|]. intros ->. apply NE. eapply IJ; eauto.
      + exists h1, (dset m1 k r'). split; [reflexivity|]. split; [|split; [exact P2|split]].
        * intros s. rewrite dget_dset, PA. destruct (pyeqb_spec k s) as [EQ|NE]; [subst s; rewrite GM, pyeqb_refl, orb_true_r; auto|]. destruct (pyeqb_spec s k); [congruence|]. rewrite orb_false_r. apply P1.
        * intros s q G. rewrite PA. intros Z. apply orb_false_iff in Z. eapply P3; [exact G|tauto].
        * intros s q G. rewrite PA. intros Z. destruct (pyeqb_spec s k) as [EQ|NE]; [congruence|]. rewrite orb_false_r in Z. eapply P4; eauto. }
  destruct (K (dkeys theirs) ltac:(auto) ND) as (h' & m' & F & P1 & P2 & P3 & P4). exists h', m'. split; [exact F|].
  assert (PT : forall s, pymem s (dkeys theirs) = dmem theirs s). { intros s. apply eq_true_iff_eq. rewrite pymem_true, dget_keys, dmem_get. reflexivity. }
  split; [|split].
  - intros s a. unfold look at 1. rewrite P1, PT. destruct (dget mine s) as [r|] eqn:GM.
    + destruct (dmem theirs s) eqn:D.
      * destruct (P4 s r GM ltac:(rewrite PT; exact D)) as (i & Gi & Hi). rewrite Gi. apply Hi.
      * rewrite (P3 s r GM ltac:(rewrite PT; exact D)). unfold look. rewrite GM. unfold dmem in D. destruct (dget theirs s); [discriminate|]. destruct (dget h r) as [i|]; [destruct (dget i a); reflexivity|reflexivity].
    + unfold look. rewrite GM. unfold dmem. destruct (dget theirs s) as [q|] eqn:GT; [|reflexivity]. rewrite (P2 s q GT). reflexivity.
  - intros s a. unfold look. destruct (dget theirs s) as [q|] eqn:GT; [|reflexivity]. rewrite (P2 s q GT). reflexivity.
  - intros s. unfold dmem at 1. rewrite P1, PT. unfold dmem. destruct (dget mine s); [reflexivity|]. destruct (dget theirs s); reflexivity.
Qed.
End Merge.
