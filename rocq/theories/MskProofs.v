(** Lemmas about the multi-skill generation scheme (C95): the search for a start, the choice of the
    team, and the invariant of the main loop. *)
From Coq Require Import String.
From Coq Require Import List Bool Arith ZArith Lia Permutation.
From Coq Require Import ZifyBool ZifyNat.
From Verif Require Import Py PyList PyMore SgsModel MskModel TspProofs SgsProofs SgsTotalProofs SgsProps MskSpec MskSatProofs.
Import ListNotations.

(** * The search *)
Lemma mscan_res_ok : forall p av m t rs, mscan_res p av m t rs = Ok (true, false) ->
  forall r, In r rs -> t < new_horizon p /\ exists x n, cell av r t = Some x /\ dget (m_need m) r = Some n /\ (n <= x)%Z.
Proof.
  intros p av m t rs. induction rs as [|r rs IH]; intros H r' Ir; [destruct Ir|]. cbn [mscan_res] in H.
  destruct (Nat.ltb_spec t (new_horizon p)) as [L|L]; [|discriminate].
  apply bind_ok in H as [row [R H]]. apply bind_ok in H as [v [V H]]. apply bind_ok in H as [n [N H]].
  apply dgetE_ok in R, N. apply lget_ok in V. destruct (Z.ltb_spec v n); [discriminate|].
  destruct Ir as [<-|Ir]; [|auto]. split; auto. exists v, n. unfold cell. rewrite R. auto.
Qed.

Lemma mscan_res_shape : forall p av m t rs vb, mscan_res p av m t rs = Ok vb -> fst vb = true -> vb = (true, false).
Proof.
  intros p av m t rs. induction rs as [|r rs IH]; intros vb H V; cbn [mscan_res] in H; [now injection H as <-|].
  destruct (t <? new_horizon p); [|injection H as <-; discriminate].
  apply bind_ok in H as [row [R H]]. apply bind_ok in H as [v [_ H]]. apply bind_ok in H as [n [N H]].
  destruct (v <? n)%Z; [injection H as <-; discriminate|]. auto.
Qed.

Lemma mscan_ok : forall p av m ts vb, mscan p av m ts = Ok vb -> fst vb = true ->
  vb = (true, false) /\ forall r t, In r (dkeys av) -> In t ts ->
    t < new_horizon p /\ exists x n, cell av r t = Some x /\ dget (m_need m) r = Some n /\ (n <= x)%Z.
Proof.
  intros p av m ts. induction ts as [|t ts IH]; intros vb H V; cbn [mscan] in H.
  - injection H as <-. split; auto. intros r t _ [].
  - apply bind_ok in H as [vb1 [H1 H]]. destruct (fst vb1) eqn:V1; [|injection H as <-; congruence].
    pose proof (mscan_res_shape _ _ _ _ _ _ H1 V1) as E1. subst vb1.
    destruct (IH _ H V) as [E2 A]. split; auto. intros r t' Ir [<-|It]; [|auto]. eapply mscan_res_ok; eauto.
Qed.

Lemma msearch_ok : forall fuel x av wav m bad c c' ws, msearch fuel x av wav m bad c = Ok (Start c' false ws) ->
  bad = false /\ c <= c' /\ c' + m_duration m < p_horizon (ms_base x) /\ fits (ms_base x) av m c' /\
  team x wav m (seq c' (m_duration m)) = Ok (true, ws).
Proof.
  induction fuel as [|fuel IH]; intros x av wav m bad c c' ws H; [discriminate|]. cbn [msearch] in H.
  destruct (Nat.leb_spec (p_horizon (ms_base x)) (c + m_duration m)) as [L|L]; [discriminate|].
  apply bind_ok in H as [vb [SC H]]. apply bind_ok in H as [vw [TE H]].
  destruct (new_horizon (ms_base x) <? (if fst vw then c else c + 1)); [discriminate|].
  destruct (fst vw) eqn:V.
  - injection H as <- B <-. apply orb_false_iff in B as [B1 B2].
    destruct (fst vb) eqn:Vb; [|injection TE as <-; discriminate].
    destruct (mscan_ok _ _ _ _ _ SC Vb) as [_ A].
    split; auto. split; [lia|]. split; [lia|]. split.
    + intros r t Ir Ht. apply A; auto. apply in_seq. lia.
    + rewrite TE. destruct vw as [v w]. cbn [fst snd] in *. now subst v.
  - apply IH in H as (B & Lc & Hz & F & T). apply orb_false_iff in B as [B _]. split; [exact B|]. split; [lia|]. auto.
Qed.

(** * The team *)
Definition free (wav : list (nat * list bool)) (w : nat) (t : nat) : Prop :=
  exists row, dget wav w = Some row /\ nth_error row t = Some true.

Lemma free_workers_ok : forall ts wav ws, free_workers ts wav = Ok ws -> NoDup (dkeys wav) ->
  NoDup ws /\ forall w, In w ws -> In w (dkeys wav) /\ forall t, In t ts -> free wav w t.
Proof.
  intros ts wav. induction wav as [|[w row] wav IH]; intros ws H N; cbn [free_workers] in H.
  - injection H as <-. split; [constructor|]. intros w [].
  - apply bind_ok in H as [b [B H]]. apply bind_ok in H as [ws1 [W1 H]]. cbn [dkeys map fst] in N.
    inversion N as [|? ? NI N1]; subst. destruct (IH _ W1 N1) as [Nd A].
    assert (Old : forall w', In w' ws1 -> In w' (dkeys ((w, row) :: wav)) /\ forall t, In t ts -> free ((w, row) :: wav) w' t).
    { intros w' Iw. destruct (A w' Iw) as [K F]. split; [now right|]. intros t It. destruct (F t It) as [r [D T]].
      exists r. split; auto. cbn [dget]. destruct (pyeqb_spec w' w) as [E|E]; auto. subst. contradiction. }
    injection H as <-. destruct b; auto. split.
    + constructor; auto. intros I. destruct (A w I) as [K _]. contradiction.
    + intros w' [<-|Iw]; auto. split; [now left|]. intros t It. rewrite allM_iff in B. specialize (B t It).
      apply lget_ok in B. exists row. split; auto. cbn [dget]. now rewrite pyeqb_refl.
Qed.

Lemma first_capable_ok : forall x req ws w, first_capable x req ws = Ok (Some w) ->
  In w ws /\ exists e, dget (ms_emps x) w = Some e /\ capable e req = true.
Proof.
  intros x req ws w. induction ws as [|w0 ws IH]; intros H; cbn [first_capable] in H; [discriminate|].
  apply bind_ok in H as [e [E H]]. apply dgetE_ok in E. destruct (capable e req) eqn:C.
  - injection H as <-. split; [now left|eauto].
  - apply IH in H as [I X]. split; [now right|auto].
Qed.

Lemma level_ok : forall x ws s v, level x ws s = Ok v -> v = sumZ (map (fun w => skill_value x w s) ws).
Proof.
  intros x ws s v. unfold level.
  assert (G : forall l z v, foldM (fun z w => let* e := dgetE (ms_emps x) w in
      Ok (match dget (e_skill e) s with Some v => z + v | None => z end)%Z) z l = Ok v ->
      v = (z + sumZ (map (fun w => skill_value x w s) l))%Z).
  { induction l as [|w l IH]; intros z v0 H; cbn [foldM map] in *.
    - injection H as <-. unfold sumZ. cbn. lia.
    - apply bind_ok in H as [z1 [H1 H]]. apply bind_ok in H1 as [e [E H1]]. apply dgetE_ok in E. injection H1 as <-.
      apply IH in H. rewrite sumZ_cons. unfold skill_value at 1. rewrite E. destruct (dget (e_skill e) s); lia. }
  intros H. apply G in H. exact H.
Qed.

(** The chosen workers: each is free on the whole task; together (or alone) they have the skills. *)
Lemma team_ok : forall x wav m ts ws, team x wav m ts = Ok (true, ws) -> NoDup (dkeys wav) ->
  (required x m = [] /\ ws = None) \/
  (required x m <> [] /\ exists l, ws = Some l /\ NoDup l /\
     (forall w, In w l -> In w (dkeys wav) /\ forall t, In t ts -> free wav w t) /\
     (forall s n, In (s, n) (required x m) -> (n <= sumZ (map (fun w => skill_value x w s) l))%Z) /\
     (ms_one x = true -> exists w, l = [w])).
Proof.
  intros x wav m ts ws H N. unfold team in H. destruct (required x m) as [|q qs] eqn:R.
  - injection H as <-. auto.
  - right. split; [discriminate|]. apply bind_ok in H as [l [L H]]. destruct (free_workers_ok _ _ _ L N) as [Nd A].
    destruct (ms_one x).
    + apply bind_ok in H as [f [F H]]. destruct f as [w|]; [|discriminate]. injection H as <-.
      apply first_capable_ok in F as (Iw & e & E & C). exists [w]. split; auto.
      split; [constructor; [intros []|constructor]|]. split; [intros w' [<-|[]]; auto|]. split; [|eauto].
      intros s n Is. unfold capable in C. rewrite forallb_forall in C. specialize (C _ Is). cbn [fst snd] in C.
      cbn [map]. rewrite sumZ_cons. unfold sumZ. cbn [fold_right fold_left]. unfold skill_value. rewrite E.
      destruct (dget (e_skill e) s); [lia|discriminate].
    + apply bind_ok in H as [b [B H]]. injection H as -> <-. exists l. split; auto. split; auto. split; auto.
      split; [|discriminate]. intros s n Is. rewrite allM_iff in B. specialize (B _ Is). cbn [fst snd] in B.
      apply bind_ok in B as [v [V B]]. injection B as B. apply level_ok in V. lia.
Qed.

(** * Adding the skills of a worker *)
Definition brings (x : ms) (u : list (nat * list string)) (s : string) : Z :=
  sumZ (map (fun wl : nat * list string => if pymem s (snd wl) then skill_value x (fst wl) s else 0%Z) u).

Lemma dset_last : forall V (l : list (nat * V)) w v v', ~ In w (dkeys l) -> dset (l ++ [(w, v)]) w v' = l ++ [(w, v')].
Proof.
  intros V l w v v'. induction l as [|[k u] l IH]; intros NI.
  - cbn. now rewrite Nat.eqb_refl.
  - cbn [app dset]. destruct (pyeqb_spec w k) as [E|E]; [subst; elim NI; now left|]. f_equal. apply IH.
    intros I. apply NI. now right.
Qed.

Lemma dget_last : forall V (l : list (nat * V)) w v, ~ In w (dkeys l) -> dget (l ++ [(w, v)]) w = Some v.
Proof.
  intros V l w v. induction l as [|[k u] l IH]; intros NI.
  - cbn. now rewrite Nat.eqb_refl.
  - cbn [app dget]. destruct (pyeqb_spec w k) as [E|E]; [subst; elim NI; now left|]. apply IH.
    intros I. apply NI. now right.
Qed.

Lemma add_skills_ok : forall w (cur : list (string * Z)) (use : list (nat * list string)) sk,
  NoDup (dkeys sk) -> ~ In w (dkeys use) ->
  let cu := fold_left (add_skill w) sk (cur, use) in
  dkeys (fst cu) = dkeys cur /\
  (forall s v, dget cur s = Some v -> dget (fst cu) s = Some (v + match dget sk s with Some z => z | None => 0 end)%Z) /\
  ((snd cu = use /\ forall s, In s (dkeys sk) -> ~ In s (dkeys cur)) \/
   exists l, snd cu = use ++ [(w, l)] /\ forall s, In s l <-> In s (dkeys sk) /\ In s (dkeys cur)).
Proof.
  intros w cur use sk N NI.
  assert (G : forall sk2 sk1 c u, NoDup (dkeys (sk1 ++ sk2)) ->
    dkeys c = dkeys cur ->
    (forall s v, dget cur s = Some v -> dget c s = Some (v + match dget sk1 s with Some z => z | None => 0 end)%Z) ->
    ((u = use /\ forall s, In s (dkeys sk1) -> ~ In s (dkeys cur)) \/
     exists l, u = use ++ [(w, l)] /\ forall s, In s l <-> In s (dkeys sk1) /\ In s (dkeys cur)) ->
    let cu := fold_left (add_skill w) sk2 (c, u) in
    dkeys (fst cu) = dkeys cur /\
    (forall s v, dget cur s = Some v -> dget (fst cu) s = Some (v + match dget (sk1 ++ sk2) s with Some z => z | None => 0 end)%Z) /\
    ((snd cu = use /\ forall s, In s (dkeys (sk1 ++ sk2)) -> ~ In s (dkeys cur)) \/
     exists l, snd cu = use ++ [(w, l)] /\ forall s, In s l <-> In s (dkeys (sk1 ++ sk2)) /\ In s (dkeys cur))).
  { induction sk2 as [|[s z] sk2 IH]; intros sk1 c u Nd K C U; cbn [fold_left].
    - rewrite app_nil_r. auto.
    - assert (Nd' : NoDup (dkeys ((sk1 ++ [(s, z)]) ++ sk2))) by (now rewrite <- app_assoc).
      assert (Ns : ~ In s (dkeys sk1)).
      { unfold dkeys in Nd. rewrite map_app in Nd. cbn [map fst] in Nd. apply NoDup_remove_2 in Nd.
        intros I. apply Nd. apply in_or_app. now left. }
      assert (Gs : forall s', dget (sk1 ++ [(s, z)]) s' = match dget sk1 s' with Some v => Some v | None => if pyeqb s' s then Some z else None end).
      { intros s'. clear. induction sk1 as [|[k v] sk1 IH]; cbn [app dget]; auto. destruct (pyeqb s' k); auto. }
      assert (D1 : dget sk1 s = None) by (now apply dget_None).
      replace (sk1 ++ (s, z) :: sk2) with ((sk1 ++ [(s, z)]) ++ sk2) by (now rewrite <- app_assoc).
      assert (Ks : forall s', In s' (dkeys (sk1 ++ [(s, z)])) <-> In s' (dkeys sk1) \/ s' = s).
      { intros s'. unfold dkeys. rewrite map_app, in_app_iff. cbn [map fst In]. intuition. }
      remember (add_skill w (c, u) (s, z)) as st eqn:St. unfold add_skill in St. cbn [fst snd] in St.
      destruct (dget c s) as [v|] eqn:Dc.
      + assert (Sk : In s (dkeys cur)). { rewrite <- K. rewrite dget_keys. eauto. }
        assert (Hold : exists lo, (match dget u w with Some l => l | None => [] end) = lo /\
           (forall y, In y lo <-> In y (dkeys sk1) /\ In y (dkeys cur)) /\ forall l', dset u w l' = use ++ [(w, l')]).
        { destruct U as [[-> NU]|[l [-> Ll]]].
          - exists []. split; [now rewrite (proj2 (dget_None use w) NI)|]. split.
            + intros y. split; [intros []|]. intros [Y1 Y2]. elim (NU y Y1 Y2).
            + intros l'. now apply dset_new.
          - exists l. split; [now rewrite dget_last|]. split; auto. intros l'. now apply dset_last. }
        destruct Hold as (lo & Elo & Llo & Dlo). rewrite Elo, Dlo in St. rewrite St. apply IH.
        * exact Nd'.
        * rewrite dset_keys_present; auto. now rewrite K.
        * intros s' v' D'. rewrite Gs. destruct (pyeqb_spec s' s) as [E|E].
          -- subst s'. rewrite dget_dset_same, D1. specialize (C s v' D'). rewrite D1 in C. rewrite Dc in C.
             injection C as ->. f_equal. lia.
          -- rewrite dget_dset_other by congruence. rewrite (C s' v' D'). destruct (dget sk1 s'); auto.
        * right. exists (pyadd lo s). split; auto. intros y. rewrite pyadd_In, Llo, Ks. intuition (subst; auto).
      + assert (Sk : ~ In s (dkeys cur)). { rewrite <- K. now apply dget_None. }
        rewrite St. apply IH; auto.
        * intros s' v' D'. rewrite Gs. rewrite (C s' v' D'). destruct (dget sk1 s') eqn:D2; auto.
          destruct (pyeqb_spec s' s) as [E|E]; auto. subst s'. elim Sk. rewrite dget_keys. eauto.
        * destruct U as [[-> NU]|[l [-> Ll]]].
          -- left. split; auto. intros y Iy. apply Ks in Iy as [Iy|Iy]; [apply NU; exact Iy|subst y; exact Sk].
          -- right. exists l. split; auto. intros y. rewrite Ll, Ks. intuition (subst; tauto). }
  apply (G sk [] cur use); auto.
  intros s v D. cbn [dget]. rewrite D. f_equal. lia.
Qed.

Lemma add_skills_brings : forall x w e (cur : list (string * Z)) use s, dget (ms_emps x) w = Some e ->
  NoDup (dkeys (e_skill e)) -> ~ In w (dkeys use) -> In s (dkeys cur) ->
  brings x (snd (fold_left (add_skill w) (e_skill e) (cur, use))) s = (brings x use s + skill_value x w s)%Z.
Proof.
  intros x w e cur use s E N NI Is.
  assert (Sv : skill_value x w s = match dget (e_skill e) s with Some z => z | None => 0%Z end) by (unfold skill_value; now rewrite E).
  destruct (add_skills_ok w cur use (e_skill e) N NI) as (K & C & [[U NU]|[l [U Ll]]]); rewrite U.
  - rewrite Sv. destruct (dget (e_skill e) s) eqn:D; [|lia]. elim (NU s); auto. rewrite dget_keys. eauto.
  - unfold brings. rewrite map_app, sumZ_app. cbn [map fst snd]. rewrite sumZ_one. f_equal.
    destruct (pymem s l) eqn:P; auto. rewrite Sv. destruct (dget (e_skill e) s) eqn:D; auto.
    apply (proj1 (pymem_false _ _)) in P. elim P. apply Ll. split; auto. rewrite dget_keys. eauto.
Qed.

(** * Taking the workers *)
Lemma take_worker_ok : forall wav w ts wav', take_worker wav w ts = Ok wav' ->
  dkeys wav' = dkeys wav /\ (forall w' t, free wav' w' t -> free wav w' t /\ (w' = w -> ~ In t ts)).
Proof.
  intros wav w ts wav' H. unfold take_worker in H. apply bind_ok in H as [row [R H]]. apply bind_ok in H as [row' [P H]].
  apply dgetE_ok in R. injection H as <-. split.
  - apply dset_keys_present. rewrite dget_keys. eauto.
  - assert (Q : length row' = length row /\ forall t, nth_error row' t = Some true -> nth_error row t = Some true /\ ~ In t ts).
    { apply (@foldM_inv _ _ (fun row t => lput row t false) (fun done r => length r = length row /\
        forall t, nth_error r t = Some true -> nth_error row t = Some true /\ ~ In t done) _ _ _ P).
      - split; auto.
      - intros l0 t l1 s1 s2 _ [L1 I1] H1. unfold lput in H1. destruct (t <? length s1); [|discriminate]. injection H1 as <-.
        split; [now rewrite lset_length|]. intros t' T'. rewrite lset_nth_error in T'.
        destruct (Nat.eqb_spec t t') as [E|E].
        + destruct (t <? length s1); discriminate.
        + destruct (I1 t' T') as [J1 J2]. split; auto. intros I. apply in_app_or in I as [I|[I|[]]]; [auto|congruence]. }
    destruct Q as [_ Q]. intros w' t [r [D T]]. rewrite dget_dset in D. destruct (pyeqb_spec w w') as [E|E].
    + injection D as <-. subst w'. destruct (Q t T) as [Q1 Q2]. split; [exists row; auto|auto].
    + split; [exists r; auto|]. congruence.
Qed.

Section Assign.
  Variables (x : ms) (req : list (string * Z)) (ws ts : list nat) (wav0 : list (nat * list bool)).
  Hypothesis Esk : forall w e, dget (ms_emps x) w = Some e -> NoDup (dkeys (e_skill e)).
  Hypothesis Nreq : NoDup (dkeys req).

  Record team_inv (done : list nat) (cur : list (string * Z)) (use : list (nat * list string))
    (wav : list (nat * list bool)) : Prop := {
    t_cur : dkeys cur = dkeys req;
    t_sum : forall s v, dget cur s = Some v -> v = brings x use s;
    t_done : forall s, In s (dkeys req) ->
      brings x use s = sumZ (map (fun w => skill_value x w s) (filter (fun w => pymem w ws) done));
    t_nodup : NoDup (dkeys use);
    t_users : forall w l, In (w, l) use -> In w ws /\ In w done /\
      exists e, dget (ms_emps x) w = Some e /\ forall s, In s l -> exists v, dget (e_skill e) s = Some v;
    t_wkeys : dkeys wav = dkeys wav0;
    t_free : forall w t, free wav w t -> free wav0 w t /\ (In w (dkeys use) -> ~ In t ts)
  }.

  Lemma team_step : forall done w cur use wav e wav', team_inv done cur use wav -> ~ In w done -> In w ws ->
    dget (ms_emps x) w = Some e -> take_worker wav w ts = Ok wav' ->
    team_inv (done ++ [w]) (fst (fold_left (add_skill w) (e_skill e) (cur, use)))
      (snd (fold_left (add_skill w) (e_skill e) (cur, use))) wav'.
  Proof.
    intros done w cur use wav e wav' I Nd Iw E TW.
    assert (NI : ~ In w (dkeys use)).
    { intros K. apply in_map_iff in K as [[w' l] [Ek K]]. cbn [fst] in Ek. subst w'.
      destruct (t_users _ _ _ _ I w l K) as (_ & D & _). contradiction. }
    pose proof (add_skills_ok w cur use (e_skill e) (Esk w e E) NI) as (K & C & U).
    set (cu := fold_left (add_skill w) (e_skill e) (cur, use)) in *.
    assert (Br : forall s, In s (dkeys req) -> brings x (snd cu) s = (brings x use s + skill_value x w s)%Z).
    { intros s Is. apply add_skills_brings; auto. - apply (Esk w e E). - now rewrite (t_cur _ _ _ _ I). }
    apply take_worker_ok in TW as [TK TF].
    assert (Un : dkeys (snd cu) = dkeys use \/ dkeys (snd cu) = dkeys use ++ [w]).
    { destruct U as [[U _]|[l [U _]]]; rewrite U; auto. right. unfold dkeys. now rewrite map_app. }
    constructor.
    - rewrite K. apply (t_cur _ _ _ _ I).
    - intros s v D. assert (Is : In s (dkeys cur)). { rewrite <- K. rewrite dget_keys. eauto. }
      assert (Is' := Is). rewrite dget_keys in Is'. destruct Is' as [v0 D0]. rewrite (C s v0 D0) in D. injection D as <-.
      rewrite (t_cur _ _ _ _ I) in Is. rewrite (Br s Is), <- (t_sum _ _ _ _ I s v0 D0). f_equal.
      unfold skill_value. now rewrite E.
    - intros s Is. rewrite (Br s Is), (t_done _ _ _ _ I s Is), filter_app. cbn [filter].
      rewrite (proj2 (pymem_true w ws) Iw), map_app, sumZ_app. cbn [map]. now rewrite sumZ_one.
    - destruct Un as [-> | ->]; [apply (t_nodup _ _ _ _ I)|]. apply NoDup_snoc; [apply (t_nodup _ _ _ _ I)|auto].
    - assert (Old : forall w' l, In (w', l) use -> In w' ws /\ In w' (done ++ [w]) /\
        exists e, dget (ms_emps x) w' = Some e /\ forall s, In s l -> exists v, dget (e_skill e) s = Some v).
      { intros w' l Iu. destruct (t_users _ _ _ _ I w' l Iu) as (A & B & D). split; auto. split; auto. apply in_or_app. auto. }
      intros w' l Iu. destruct U as [[U _]|[l0 [U Ll]]]; rewrite U in Iu; auto.
      apply in_app_or in Iu as [Iu|[Iu|[]]]; auto. injection Iu as <- <-. split; auto. split; [apply in_or_app; right; now left|].
      exists e. split; auto. intros s Is. apply Ll in Is as [Is _]. rewrite dget_keys in Is. exact Is.
    - rewrite TK. apply (t_wkeys _ _ _ _ I).
    - intros w' t F. destruct (TF w' t F) as [F1 F2]. destruct (t_free _ _ _ _ I w' t F1) as [F3 F4]. split; auto.
      intros Iu. destruct Un as [Eu|Eu]; rewrite Eu in Iu; auto. apply in_app_or in Iu as [Iu|[Iu|[]]]; auto.
  Qed.

  Lemma team_skip : forall done w cur use wav, team_inv done cur use wav -> ~ In w ws -> team_inv (done ++ [w]) cur use wav.
  Proof.
    intros done w cur use wav I Nw. destruct I as [I1 I2 I3 I4 I5 I6 I7]. constructor; auto.
    - intros s Is. rewrite (I3 s Is), filter_app. cbn [filter]. rewrite (proj2 (pymem_false w ws) Nw). now rewrite app_nil_r.
    - intros w' l Iu. destruct (I5 w' l Iu) as (A & B & D). split; auto. split; auto. apply in_or_app. auto.
  Qed.

  Lemma met_ok : forall cur, dkeys cur = dkeys req -> exists b, met req cur = Ok b /\
    (b = true -> forall s n v, In (s, n) req -> dget cur s = Some v -> (n <= v)%Z).
  Proof.
    intros cur K. unfold met. destruct (allM (fun kv : string * Z => let* v := dgetE cur (fst kv) in Ok (snd kv <=? v)%Z) req) as [b|er] eqn:A.
    - exists b. split; auto. intros -> s n v Is D. rewrite allM_iff in A. specialize (A _ Is). cbn [fst snd] in A.
      unfold dgetE in A. rewrite D in A. cbn [bind] in A. injection A as A. lia.
    - exfalso. revert A.
      assert (G : forall l, incl l req -> exists b, allM (fun kv : string * Z => let* v := dgetE cur (fst kv) in Ok (snd kv <=? v)%Z) l = Ok b).
      { induction l as [|[s n] l IH]; intros IN; cbn [allM]; [eauto|]. cbn [fst snd].
        assert (Ks : In s (dkeys cur)). { rewrite K. apply in_map_iff. exists (s, n). split; auto. apply IN. now left. }
        rewrite dget_keys in Ks. destruct Ks as [v D]. unfold dgetE at 1. rewrite D. cbn [bind].
        destruct (n <=? v)%Z; eauto. apply IH. intros y Iy. apply IN. now right. }
      intros A. destruct (G req (incl_refl _)) as [b B]. congruence.
  Qed.

  Lemma assign_ok : forall prio done cur use wav use' wav', assign x req ws ts prio cur use wav = Ok (use', wav') ->
    NoDup (done ++ prio) -> team_inv done cur use wav ->
    exists done' cur', team_inv done' cur' use' wav' /\ incl done' (done ++ prio) /\
      ((forall s n, In (s, n) req -> (n <= brings x use' s)%Z) \/ done' = done ++ prio).
  Proof.
    induction prio as [|w prio IH]; intros done cur use wav use' wav' H Nd I; cbn [assign] in H.
    - injection H as <- <-. exists done, cur. rewrite app_nil_r. split; auto. split; [apply incl_refl|]. now right.
    - apply bind_ok in H as [[[cur1 use1] wav1] [S1 H]].
      assert (Nw : ~ In w done). { apply NoDup_remove_2 in Nd. intros K. apply Nd. apply in_or_app. auto. }
      assert (I1 : team_inv (done ++ [w]) cur1 use1 wav1).
      { destruct (pymem w ws) eqn:Pw.
        - apply bind_ok in S1 as [e [E S1]]. apply bind_ok in S1 as [wav2 [T S1]]. apply dgetE_ok in E.
          injection S1 as <- <- <-. eapply team_step; eauto. exact (proj1 (pymem_true w ws) Pw).
        - injection S1 as <- <- <-. apply team_skip; auto. exact (proj1 (pymem_false _ _) Pw). }
      apply bind_ok in H as [b [B H]]. destruct (met_ok cur1 (t_cur _ _ _ _ I1)) as [b' [B' Met]]. rewrite B in B'. injection B' as <-.
      destruct b.
      + injection H as <- <-. exists (done ++ [w]), cur1. split; auto. split.
        * intros y Iy. apply in_app_or in Iy as [Iy|[<-|[]]]; apply in_or_app; [now left|right; now left].
        * left. intros s n Is. assert (Ks : In s (dkeys cur1)). { rewrite (t_cur _ _ _ _ I1). apply in_map_iff. exists (s, n). auto. }
          rewrite dget_keys in Ks. destruct Ks as [v D]. rewrite <- (t_sum _ _ _ _ I1 s v D). eapply Met; eauto.
      + apply IH with (done := done ++ [w]) in H; auto.
        * rewrite <- app_assoc in H. exact H.
        * now rewrite <- app_assoc.
  Qed.
End Assign.

Lemma filter_perm : forall (f : nat -> bool) l1 l2, Permutation l1 l2 -> Permutation (filter f l1) (filter f l2).
Proof.
  intros f l1 l2 P. induction P; cbn [filter]; auto.
  - destruct (f x); auto.
  - destruct (f x), (f y); auto. constructor.
  - etransitivity; eauto.
Qed.

(** What the staffing of one task gives. *)
Lemma staff_ok : forall x prios a m c l eu wav eu' wav',
  (forall w e, dget (ms_emps x) w = Some e -> NoDup (dkeys (e_skill e))) ->
  NoDup (dkeys (ms_emps x)) -> (forall pr, In pr prios -> Permutation pr (dkeys (ms_emps x))) ->
  NoDup (dkeys (m_need m)) -> dget eu a = None -> required x m <> [] ->
  NoDup l -> (forall w, In w l -> In w (dkeys (ms_emps x))) ->
  (forall s n, In (s, n) (required x m) -> (n <= sumZ (map (fun w => skill_value x w s) l))%Z) ->
  staff x prios a m c (Some l) eu wav = Ok (eu', wav') ->
  exists u, eu' = dset eu a u /\ NoDup (dkeys u) /\ u <> [] /\
    (forall s n, In (s, n) (required x m) -> (n <= brings x u s)%Z) /\
    (forall w ls, In (w, ls) u -> In w l /\ exists e, dget (ms_emps x) w = Some e /\
       forall s, In s ls -> exists v, dget (e_skill e) s = Some v) /\
    dkeys wav' = dkeys wav /\
    (forall w t, free wav' w t -> free wav w t /\ (In w (dkeys u) -> ~ In t (seq c (m_duration m)))).
Proof.
  intros x prios a m c l eu wav eu' wav' Esk Nemp Pr Nm Da Rq Nl Il Suf H. unfold staff in H. rewrite Da in H.
  apply bind_ok in H as [prio [Z0 H]]. apply bind_ok in H as [[u wv] [A H]]. cbn [fst snd] in H.
  pose proof (Pr prio (zget_In _ _ Z0)) as Pp.
  assert (Nreq : NoDup (dkeys (required x m))).
  { unfold required, dkeys. revert Nm. clear. unfold dkeys. induction (m_need m) as [|[s n] q IH]; cbn [filter map fst]; auto.
    intros N. inversion N; subst. destruct (pymem _ _ && _)%bool; auto. cbn [map fst]. constructor; auto.
    intros I. apply in_map_iff in I as [[s' n'] [E I]]. cbn [fst] in E. subst s'. apply filter_In in I as [I _].
    apply H1. apply in_map_iff. exists (s, n'). auto. }
  assert (I0 : team_inv x (required x m) l (seq c (m_duration m)) wav [] (map (fun kv => (fst kv, 0%Z)) (required x m)) [] wav).
  { constructor; auto.
    - unfold dkeys. rewrite map_map. reflexivity.
    - intros s v D. apply dget_In in D. apply in_map_iff in D as [kv [E _]]. injection E as _ <-. reflexivity.
    - constructor.
    - intros w ls []. }
  destruct (assign_ok x (required x m) l (seq c (m_duration m)) wav Esk prio [] _ _ _ _ _ A) as (done & cur & I & IN & Q); auto.
  { cbn [app]. apply (Permutation_NoDup (Permutation_sym Pp)). exact Nemp. }
  assert (Met : forall s n, In (s, n) (required x m) -> (n <= brings x u s)%Z).
  { destruct Q as [Q|Q]; auto. intros s n Is. cbn [app] in Q. subst done.
    rewrite (t_done _ _ _ _ _ _ _ _ _ I s) by (apply in_map_iff; exists (s, n); auto).
    specialize (Suf s n Is). etransitivity; [exact Suf|]. apply Z.eq_le_incl.
    apply sumZ_map_perm. apply NoDup_Permutation; auto.
    - apply NoDup_filter. apply (Permutation_NoDup (Permutation_sym Pp)). exact Nemp.
    - intros w. rewrite filter_In, pymem_true. split; [|tauto]. intros Iw. split; auto.
      apply (Permutation_in _ (Permutation_sym Pp)). auto. }
  assert (Une : u <> []).
  { intros ->. destruct (required x m) as [|[s n] q] eqn:R; [congruence|]. specialize (Met s n (or_introl eq_refl)).
    assert (P : (0 < n)%Z).
    { assert (In (s, n) (required x m)) by (rewrite R; now left). unfold required in H0. apply filter_In in H0 as [_ P].
      cbn [fst snd] in P. lia. }
    unfold brings, sumZ in Met. cbn in Met. lia. }
  exists u. destruct u as [|u0 u]; [congruence|]. injection H as <- <-. split; auto.
  split; [apply (t_nodup _ _ _ _ _ _ _ _ _ I)|]. split; auto. split; auto. split.
  - intros w ls Iw. destruct (t_users _ _ _ _ _ _ _ _ _ I w ls Iw) as (X1 & _ & X2). auto.
  - split; [apply (t_wkeys _ _ _ _ _ _ _ _ _ I)|]. intros w t F. apply (t_free _ _ _ _ _ _ _ _ _ I w t F).
Qed.
