(** Lemmas about the LRTA* solver (LrtaModel.v). *)
From Coq Require Import List Bool Arith ZArith Lia.
From Verif Require Import Py PyList PyMore CppAstarModel CppAstarProofs LrtaModel.
Import ListNotations.
Open Scope nat_scope.

Section Lrta.
Context {St A : Type} {ES : PyEq St}.
Notation problem := (@problem St A).
Variable p : problem.

(** The value the table stands for. *)
Definition val (vals : values) (s : St) : option Z := match dget vals s with Some v => v | None => Some (heur p s) end.

(** States and actions along an execution, with its last state and its cost. *)
Inductive walk : St -> list (St * A) -> St -> Z -> Prop :=
| w_nil : forall s, walk s [] s 0%Z
| w_cons : forall s a l z c, In a (apps p s) -> walk (next p s a) l z c ->
    walk s ((s, a) :: l) z (cost p s a (next p s a) + c)%Z.

Lemma walk_exec : forall s l z c, walk s l z c -> exec p s (map snd l) z c.
Proof. induction 1; cbn; constructor; auto. Qed.

Lemma walk_head : forall s l z c, walk s l z c -> exists r, map fst l ++ [z] = s :: r.
Proof. intros s l z c [|]; cbn; eauto. Qed.

Lemma val_set : forall vals x v s, val (dset vals x v) s = if pyeqb s x then v else val vals s.
Proof.
  intros vals x v s. unfold val. destruct (pyeqb_spec s x) as [ -> |N].
  - now rewrite dget_dset_same.
  - now rewrite dget_dset_other by congruence.
Qed.

(** *** One state *)

Definition choice (vals : values) (roll : list St) (x : St) (done : list A) (best : option (St * A * Z)) : Prop :=
  match best with
  | None => forall a, In a done -> In (next p x a) roll \/ val vals (next p x a) = None
  | Some (y, a, e) =>
      In a done /\ y = next p x a /\ ~ In y roll /\
      (exists v, val vals y = Some v /\ e = (cost p x a y + v)%Z) /\
      forall a' v', In a' done -> ~ In (next p x a') roll -> val vals (next p x a') = Some v' ->
        (e <= cost p x a' (next p x a') + v')%Z
  end.

Lemma choice_ext : forall vals vals' roll x done best, (forall s, val vals' s = val vals s) ->
  choice vals roll x done best -> choice vals' roll x done best.
Proof.
  intros vals vals' roll x done [[[y a] e]|] E; cbn.
  - intros (H1 & H2 & H3 & (v & H4 & H5) & H6). repeat split; auto. { exists v. now rewrite E. }
    intros a' v'. rewrite E. apply H6.
  - intros H a I. rewrite E. auto.
Qed.

Lemma scan_step : forall roll x done vals best a vals' best',
  choice vals roll x done best -> (forall y b e, best = Some (y, b, e) -> dmem vals y = true) ->
  scan p roll x (vals, best) a = (vals', best') ->
  choice vals' roll x (done ++ [a]) best' /\ (forall y b e, best' = Some (y, b, e) -> dmem vals' y = true) /\
  (forall s, val vals' s = val vals s) /\ (forall s, dmem vals s = true -> dmem vals' s = true).
Proof.
  intros roll x done vals best a vals' best' C Kn. unfold scan. set (y := next p x a).
  destruct (pymem y roll) eqn:R.
  - apply pymem_true in R. intros E. injection E as <- <-. repeat split; auto.
    destruct best as [[[y0 a0] e0]|]; cbn in *.
    + destruct C as (H1 & H2 & H3 & H4 & H5). repeat split; auto; [apply in_or_app; auto|].
      intros a' v' I N. apply in_app_or in I as [I|[ <- |[]]]; auto. contradiction.
    + intros a' I. apply in_app_or in I as [I|[ <- |[]]]; auto.
  - assert (Ny : ~ In y roll) by exact (proj1 (pymem_false y roll) R).
    set (vals1 := if dmem vals y then vals else dset vals y (Some (heur p y))).
    assert (V : forall s, val vals1 s = val vals s).
    { intros s. unfold vals1. destruct (dmem vals y) eqn:M; auto. rewrite val_set.
      destruct (pyeqb_spec s y) as [ -> |]; auto. unfold val. unfold dmem in M. destruct (dget vals y); [discriminate|reflexivity]. }
    assert (Mo : forall s, dmem vals s = true -> dmem vals1 s = true).
    { intros s. unfold vals1. destruct (dmem vals y); auto. unfold dmem. destruct (pyeqb_spec y s) as [ <- |Ns].
      - now rewrite dget_dset_same.
      - now rewrite dget_dset_other. }
    assert (Ky : dmem vals1 y = true).
    { unfold vals1. destruct (dmem vals y) eqn:M; auto. unfold dmem. now rewrite dget_dset_same. }
    assert (Vy : exists v, dget vals1 y = Some v /\ val vals1 y = v).
    { unfold dmem in Ky. unfold val. destruct (dget vals1 y); [eauto|discriminate]. }
    assert (C1 : choice vals1 roll x done best) by (eapply choice_ext; eauto).
    destruct Vy as (v & Dv & Vv). rewrite Dv.
    assert (Keep : forall q, v = Some q -> (match best with None => true | Some (_, _, b) => (cost p x a y + q <? b)%Z end) = false ->
      choice vals1 roll x (done ++ [a]) best).
    { intros q Eq. destruct best as [[[y0 a0] e0]|]; [|discriminate]. intros L. apply Z.ltb_ge in L.
      cbn in C1 |- *. destruct C1 as (H1 & H2 & H3 & H4 & H5). repeat split; auto; [apply in_or_app; auto|].
      intros a' v' I N W. apply in_app_or in I as [I|[ <- |[]]]; auto. fold y in W |- *. rewrite Vv, Eq in W. injection W as <-. auto. }
    destruct v as [v|].
    + destruct (match best with None => true | Some (_, _, b) => (cost p x a y + v <? b)%Z end) eqn:B.
      * intros E. injection E as <- <-. split; [|split; [|split; auto]].
        -- cbn. split; [apply in_or_app; right; now left|]. split; [reflexivity|]. split; auto. split; [eauto|].
           intros a' v' I N W. apply in_app_or in I as [I|[ <- |[]]].
           2: { fold y in W |- *. rewrite Vv in W. injection W as <-. lia. }
           destruct best as [[[y0 a0] e0]|].
           ++ apply Z.ltb_lt in B. cbn in C1. destruct C1 as (_ & _ & _ & _ & H5). specialize (H5 _ _ I N W). lia.
           ++ destruct (C1 a' I) as [X|X]; [contradiction|congruence].
        -- intros ? ? ? E. injection E as <- _ _. exact Ky.
      * intros E. injection E as <- <-. split; [eapply Keep; eauto|]. split; [|split; auto]. intros; eauto.
    + intros E. injection E as <- <-. split; [|split; [|split; auto]]; [|intros; eauto].
      destruct best as [[[y0 a0] e0]|]; cbn in *.
      * destruct C1 as (H1 & H2 & H3 & H4 & H5). repeat split; auto; [apply in_or_app; auto|].
        intros a' v' I N W. apply in_app_or in I as [I|[ <- |[]]]; auto. fold y in W. congruence.
      * intros a' I. apply in_app_or in I as [I|[ <- |[]]]; auto.
Qed.

Lemma scan_spec : forall roll x vals vals1 best, fold_left (scan p roll x) (apps p x) (vals, None) = (vals1, best) ->
  choice vals1 roll x (apps p x) best /\ (forall y b e, best = Some (y, b, e) -> dmem vals1 y = true) /\
  (forall s, val vals1 s = val vals s) /\ (forall s, dmem vals s = true -> dmem vals1 s = true).
Proof.
  intros roll x vals vals1 best.
  assert (G : forall l done v b, choice v roll x done b -> (forall y c e, b = Some (y, c, e) -> dmem v y = true) ->
    fold_left (scan p roll x) l (v, b) = (vals1, best) ->
    choice vals1 roll x (done ++ l) best /\ (forall y c e, best = Some (y, c, e) -> dmem vals1 y = true) /\
    (forall s, val vals1 s = val v s) /\ (forall s, dmem v s = true -> dmem vals1 s = true)).
  { induction l as [|a l IH]; intros done v b C K E; cbn [fold_left] in E.
    - injection E as <- <-. rewrite app_nil_r. auto.
    - destruct (scan p roll x (v, b) a) as [v' b'] eqn:S1.
      destruct (scan_step _ _ _ _ _ _ _ _ C K S1) as (C' & K' & V' & M').
      destruct (IH _ _ _ C' K' E) as (C2 & K2 & V2 & M2). rewrite <- app_assoc in C2. cbn [app] in C2.
      repeat split; auto. intros s. rewrite V2. auto. }
  intros E. apply (G (apps p x) [] vals None); auto; [intros ? []|discriminate].
Qed.

(** *** One trial *)

Definition visited (l : list (St * A)) (z : St) : list St := map fst l ++ [z].
Definition listed (l : list (St * A)) (z : St) : list (St * option A) := map (fun sa => (fst sa, Some (snd sa))) l ++ [(z, None)].

Record tspec (depth : nat) (x : St) (roll : list St) (cum : Z) (path : list (St * option A)) (vals : values) (changed : bool)
  (t : trial_result) (l : list (St * A)) (z : St) (c : Z) : Prop := {
  ts_walk : walk x l z c;
  ts_roll : t_roll t = path ++ listed l z;
  ts_fresh : NoDup (roll ++ tl (visited l z));
  ts_finite : forall u, In u (tl (visited l z)) -> val vals u <> None;
  ts_nongoal : forall u, In u (map fst l) -> goal p u = false;
  ts_steps : forall u, In u (map fst l) -> val (t_vals t) u <> None;
  ts_same : forall u, ~ In u (visited l z) -> val (t_vals t) u = val vals u;
  ts_end : if t_dead t
           then val (t_vals t) z = None /\ goal p z = false /\ t_changed t = true /\ t_cost t = None /\
                forall a, In a (apps p z) -> In (next p z a) (roll ++ tl (visited l z)) \/ val vals (next p z a) = None
           else val (t_vals t) z = val vals z /\ (goal p z = true \/ length l = depth) /\
                exists v, val vals z = Some v /\ t_cost t = Some (cum + (c + v))%Z;
  ts_changed : t_changed t = false -> changed = false /\ (forall u, val (t_vals t) u = val vals u) /\
               exists v, val vals z = Some v /\ val vals x = Some (c + v)%Z }.

Lemma trial_spec : forall depth x roll cum path vals changed, In x roll -> NoDup roll ->
  (depth = 0 \/ goal p x = true -> dmem vals x = true /\ val vals x <> None) ->
  exists t l z c, trial depth p x roll cum path vals changed = Ok t /\ tspec depth x roll cum path vals changed t l z c.
Proof.
  assert (Stop : forall depth x roll cum path vals changed, NoDup roll -> depth = 0 \/ goal p x = true ->
    dmem vals x = true -> val vals x <> None ->
    exists t l z c, finish x false cum path vals changed = Ok t /\ tspec depth x roll cum path vals changed t l z c).
  { intros depth x roll cum path vals changed ND D M V. unfold finish, dgetE. unfold dmem in M.
    destruct (dget vals x) as [v|] eqn:Dv; [|discriminate].
    assert (Ev : val vals x = v) by (unfold val; now rewrite Dv). destruct v as [v|]; [|congruence].
    cbn [bind]. eexists. exists [], x, 0%Z. split; [reflexivity|]. constructor; cbn; auto; try (intros ? []; fail).
    - constructor.
    - now rewrite app_nil_r.
    - split; auto. split; [intuition|]. exists v. split; auto. f_equal. lia.
    - intros Ec. split; auto. split; auto. exists v. split; auto. }
  induction depth as [|depth IH]; intros x roll cum path vals changed Ix ND K.
  { cbn [trial]. destruct (K (or_introl eq_refl)). apply Stop; auto. }
  cbn [trial]. destruct (goal p x) eqn:G.
  { destruct (K (or_intror eq_refl)). apply Stop; auto. }
  match goal with |- context [fold_left ?f ?l ?i] => destruct (fold_left f l i) as [vals1 best] eqn:F end.
  destruct (scan_spec _ _ _ _ _ F) as (C & Kn & V & Mo). destruct best as [[[y a] e]|].
  - cbn [choice] in C. destruct C as (Ia & Ey & Ny & (vy & Vy & Ee) & Mn).
    cbv beta iota zeta. set (same := match dget vals1 x with Some (Some v) => (v =? e)%Z | _ => false end).
    set (vals2 := if same then vals1 else dset vals1 x (Some e)).
    assert (Nyx : y <> x) by (intros ->; contradiction).
    assert (Vx : val vals2 x = Some e).
    { unfold vals2. destruct same eqn:Sm; [|now rewrite val_set, pyeqb_refl].
      unfold same in Sm. unfold val. destruct (dget vals1 x) as [[v|]|]; try discriminate. apply Z.eqb_eq in Sm. congruence. }
    assert (Vo : forall u, u <> x -> val vals2 u = val vals u).
    { intros u N. rewrite <- V. unfold vals2. destruct same; auto. rewrite val_set. destruct (pyeqb_spec u x); congruence. }
    assert (My : dmem vals2 y = true).
    { specialize (Kn _ _ _ eq_refl). unfold vals2. destruct same; auto. unfold dmem in *. now rewrite dget_dset_other by congruence. }
    assert (Vy2 : dget vals2 y = Some (Some vy)).
    { pose proof (Vo y Nyx) as Q. rewrite <- V, Vy in Q. unfold dmem in My. unfold val in Q.
      destruct (dget vals2 y); [congruence|discriminate]. }
    rewrite Vy2. cbn [bind].
    assert (Eh : (e - vy = cost p x a y)%Z) by lia. rewrite Eh.
    destruct (IH y (roll ++ [y]) (cum + cost p x a y)%Z (path ++ [(x, Some a)]) vals2 (changed || negb same))
      as (t & l & z & c & Et & T).
    { apply in_or_app. right. now left. }
    { apply NoDup_app_disjoint; auto; [constructor; [intros []|constructor]|]. intros u I1 [ <- |[]]. contradiction. }
    { intros _. split; auto. unfold val. rewrite Vy2. discriminate. }
    exists t, ((x, a) :: l), z, (cost p x a y + c)%Z. split; [exact Et|].
    destruct T as [T1 T2 T3 T4 Tg T5 T6 T7 T8].
    destruct (walk_head _ _ _ _ T1) as (r & Er). unfold visited in *. rewrite Er in T3, T4. cbn [tl] in T3, T4.
    assert (Nxr : ~ In x (y :: r)).
    { rewrite <- app_assoc in T3. intros I.
      pose proof (in_split _ _ Ix) as (r1 & r2 & ->). rewrite <- !app_assoc in T3. apply NoDup_remove_2 in T3.
      apply T3. apply in_or_app. right. apply in_or_app. right. exact I. }
    assert (Vr : forall u, In u (y :: r) -> val vals2 u = val vals u).
    { intros u I. apply Vo. intros ->. contradiction. }
    assert (Iz : In z (y :: r)). { rewrite <- Er. apply in_or_app. right. now left. }
    assert (Xsame : val (t_vals t) x = Some e).
    { rewrite T6; auto. rewrite Er. exact Nxr. }
    constructor.
    + rewrite Ey in *. constructor; auto.
    + rewrite T2. unfold listed. cbn. now rewrite <- app_assoc.
    + unfold visited. cbn [map fst app tl]. rewrite Er. rewrite <- app_assoc in T3. exact T3.
    + unfold visited. cbn [map fst app tl]. rewrite Er. intros u [ <- |I].
      * rewrite <- V, Vy. discriminate.
      * rewrite <- Vr; [|now right]. apply T4. exact I.
    + intros u [ <- |I]; auto.
    + intros u [ <- |I]; [cbn; congruence|apply T5; exact I].
    + unfold visited. intros u N. rewrite T6. { apply Vo. intros ->. apply N. left. reflexivity. } intros I. apply N. right. exact I.
    + unfold visited in *. cbn [map fst app tl]. rewrite Er in *. destruct (t_dead t).
      * destruct T7 as (E1 & E2 & E3 & E4 & E5). repeat split; auto. intros b Ib. destruct (E5 b Ib) as [I|E].
        { left. rewrite <- app_assoc in I. exact I. }
        { destruct (pyeqb_spec (next p z b) x) as [Q|Q]; [left; rewrite Q; apply in_or_app; now left|].
          right. rewrite <- Vo; auto. }
      * destruct T7 as (E1 & E2 & v & E3 & E4). split; [rewrite E1; auto|]. split.
        { destruct E2; auto. right. cbn. congruence. }
        exists v. split; [rewrite <- Vr; auto|]. rewrite E4. f_equal. lia.
    + intros Ec. destruct (T8 Ec) as (E1 & E2 & v & E3 & E4). apply orb_false_iff in E1 as [E0 E1].
      apply negb_false_iff in E1. split; auto.
      assert (V2 : forall u, val vals2 u = val vals u). { intros u. unfold vals2. rewrite E1. apply V. }
      split; [intros u; rewrite E2; apply V2|]. exists v. split; [rewrite <- V2; auto|].
      rewrite <- V2, Vx, Ee. f_equal. unfold val in E4. rewrite Vy2 in E4. injection E4 as ->. lia.
  - unfold finish, dgetE. rewrite dget_dset_same. cbn [bind fadd].
    assert (Nx : val (dset vals1 x None) x = None) by now rewrite val_set, pyeqb_refl.
    eexists. exists [], x, 0%Z. split; [reflexivity|]. constructor; cbn; auto; try (intros ? []; fail).
    + constructor.
    + now rewrite app_nil_r.
    + intros u N. rewrite val_set. destruct (pyeqb_spec u x) as [ -> |]; [exfalso; auto|]. apply V.
    + repeat split; auto. intros b Ib. rewrite app_nil_r. destruct (C b Ib) as [I|E]; auto. right. now rewrite <- V.
    + discriminate.
Qed.
End Lrta.
