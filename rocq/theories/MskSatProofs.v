(** Lemmas about the checker of multi-skill schedules (C94). *)
From Coq Require Import String.
From Coq Require Import List Bool Arith ZArith Lia Permutation.
From Coq Require Import ZifyBool ZifyNat.
From Verif Require Import Py PyList PyMore SgsModel MskModel TspProofs SgsProofs SgsProps MskSpec.
Import ListNotations.

Lemma allM_iff : forall A (f : A -> res bool) l, allM f l = Ok true <-> forall x, In x l -> f x = Ok true.
Proof.
  intros A f l. induction l as [|x l IH]; cbn [allM].
  - split; [intros _ x []|auto].
  - split.
    + intros H. apply bind_ok in H as [b [B H]]. destruct b; [|discriminate].
      intros y [<-|Iy]; auto. now apply (proj1 IH).
    + intros H. rewrite (H x (or_introl eq_refl)). cbn [bind]. apply IH. intros. apply H. now right.
Qed.

Lemma zget_ok : forall A (l : list A) t x, (0 <= t)%Z -> (zget l t = Ok x <-> nth_error l (Z.to_nat t) = Some x).
Proof. intros. rewrite zget_pos by auto. split; apply lget_ok. Qed.

Lemma in_zrange : forall s e t, In t (zrange s e) <-> (s <= t < e)%Z.
Proof.
  intros s e t. unfold zrange. rewrite in_map_iff. split.
  - intros [i [<- Ii]]. apply in_seq in Ii. lia.
  - intros H. exists (Z.to_nat (t - s)). split; [lia|]. apply in_seq. lia.
Qed.

Lemma tasks_in : forall x a, In a (ms_tasks x) <-> In a (tasks_of x).
Proof.
  intros x a. unfold ms_tasks, tasks_of. pose proof (ssort_perm Nat.leb (dkeys (p_modes (ms_base x)))) as P.
  split; intros H; [eapply Permutation_in; [symmetry; exact P|exact H]|eapply Permutation_in; eauto].
Qed.

Section Sat.
  Variables (x : ms) (sol : msol).
  Hypothesis W : ms_wf x sol.

  Lemma time_some : forall a, In a (tasks_of x) -> exists s e, time_of sol a = Some (s, e).
  Proof.
    intros a Ia. apply (Permutation_in _ (Permutation_sym (w_times _ _ W))) in Ia.
    unfold time_of. rewrite dget_keys in Ia. destruct Ia as [[s e] D]. eauto.
  Qed.

  Lemma mode_at_ok : forall a m, mode_in x sol a = Some m -> mode_at x sol a = Ok m.
  Proof.
    intros a m M. unfold mode_in in M. unfold mode_at, dgetE. destruct (dget (s_modes sol) a); [|discriminate].
    destruct (dget (p_modes (ms_base x)) a); [|discriminate]. cbn [bind]. now rewrite M.
  Qed.

  Lemma need_ok : forall a k m r n, In a (tasks_of x) -> dget (s_modes sol) a = Some k -> mode_in x sol a = Some m ->
    dget (m_need m) r = Some n -> need_of (ms_base x) a k r = Ok n /\ need_in x sol a r = n.
  Proof.
    intros a k m r n Ia K M D. unfold need_in. rewrite M, D. split; auto. unfold mode_in in M. rewrite K in M.
    unfold need_of, dgetE. destruct (dget (p_modes (ms_base x)) a); [|discriminate]. cbn [bind]. rewrite M. cbn [bind].
    now rewrite D.
  Qed.

  Lemma key_mode : forall a, In a (tasks_of x) -> exists k m, dget (s_modes sol) a = Some k /\ mode_in x sol a = Some m.
  Proof.
    intros a Ia. destruct (w_mode _ _ W a Ia) as [m M]. pose proof M as M'. unfold mode_in in M'.
    destruct (dget (s_modes sol) a); [eauto|discriminate].
  Qed.

  Lemma used_level_ok : forall a u s, In a (tasks_of x) -> dget (s_use sol) a = Some u ->
    used_level x u s = Ok (team_level x sol a s).
  Proof.
    intros a u s Ia D. unfold team_level. rewrite D. unfold used_level.
    assert (G : forall l z, incl l u -> foldM (fun z (es : nat * list string) =>
      if pymem s (snd es) then let* e := dgetE (ms_emps x) (fst es) in let* v := dgetE (e_skill e) s in Ok (z + v)%Z
      else Ok z) z l = Ok (z + sumZ (map (fun wl : nat * list string =>
                if pymem s (snd wl) then skill_value x (fst wl) s else 0%Z) l))%Z).
    { induction l as [|[w l0] l IH]; intros z IN; cbn [foldM map].
      - unfold sumZ. cbn [fold_right fold_left]. f_equal. lia.
      - rewrite sumZ_cons. cbn [fst snd]. destruct (pymem s l0) eqn:P.
        + destruct (w_users _ _ W a u w l0 Ia D) as (e & E & V & _); [apply IN; now left|].
          apply pymem_true in P. destruct (V s P) as [v Dv]. assert (Sv : skill_value x w s = v) by (unfold skill_value; now rewrite E, Dv). rewrite Sv. unfold dgetE at 1. rewrite E. cbn [bind]. unfold dgetE at 1.
          rewrite Dv. cbn [bind]. rewrite IH; [f_equal; lia|]. intros y Iy. apply IN. now right.
        + cbn [bind]. rewrite IH; [f_equal; lia|]. intros y Iy. apply IN. now right. }
    rewrite G by apply incl_refl. reflexivity.
  Qed.

  Lemma in_required : forall a m s n, In a (tasks_of x) -> mode_in x sol a = Some m ->
    (In (s, n) (required x m) <-> In s (ms_skills x) /\ need_in x sol a s = n /\ (0 < n)%Z).
  Proof.
    intros a m s n Ia M. unfold required. rewrite filter_In. cbn [fst snd]. rewrite andb_true_iff, pymem_true, Z.ltb_lt.
    unfold need_in. rewrite M. split.
    - intros [In1 [S P]]. rewrite (In_dget _ _ _ (w_keys _ _ W a m Ia M) In1). auto.
    - intros [S [N P]]. destruct (dget (m_need m) s) eqn:D; [|lia]. subst z. apply dget_In in D. auto.
  Qed.

  Lemma check_task_ok : forall a, In a (tasks_of x) -> (check_task x sol a = Ok true <->
    (forall s n, In s (ms_skills x) -> need_in x sol a s = n -> (0 < n)%Z -> (n <= team_level x sol a s)%Z) /\
    (forall w s e t, works sol a w -> time_of sol a = Some (s, e) -> (s <= Z.of_nat t < e)%Z -> at_work x w t)).
  Proof.
    intros a Ia. destruct (w_mode _ _ W a Ia) as [m M]. unfold check_task. rewrite (mode_at_ok _ _ M). cbn [bind].
    set (F := fun kv : string * Z => let* u := dgetE (s_use sol) a in let* v := used_level x u (fst kv) in Ok (snd kv <=? v)%Z).
    assert (Sk : allM F (required x m) = Ok true <->
      (forall s n, In s (ms_skills x) -> need_in x sol a s = n -> (0 < n)%Z -> (n <= team_level x sol a s)%Z)).
    { rewrite allM_iff. split.
      - intros H s n Is N P. pose proof (proj2 (in_required a m s n Ia M) (conj Is (conj N P))) as J. specialize (H _ J).
        unfold F in H. apply bind_ok in H as [u [U H]]. apply dgetE_ok in U. cbn [fst snd] in H.
        rewrite (used_level_ok a u s Ia U) in H. cbn [bind] in H. injection H as H. lia.
      - intros H [s n] J. apply (in_required a m s n Ia M) in J as (Is & N & P). specialize (H s n Is N P).
        unfold F. cbn [fst snd]. unfold team_level in H. unfold dgetE. destruct (dget (s_use sol) a) as [u|] eqn:U; [|lia].
        cbn [bind]. rewrite (used_level_ok a u s Ia U). cbn [bind]. unfold team_level. rewrite U. f_equal. lia. }
    assert (Ca : match dget (s_use sol) a with
      | None => Ok true
      | Some u => allM (fun es : nat * list string =>
          let* e := dgetE (ms_emps x) (fst es) in
          let* se := dgetE (s_sch sol) a in
          let ts := zrange (fst se) (snd se) in
          let* b := allM (zget (e_cal e)) ts in
          if b then Ok true else let* _ := mapM (zget (e_cal e)) ts in Ok false) u
      end = Ok true <->
      (forall w s e t, works sol a w -> time_of sol a = Some (s, e) -> (s <= Z.of_nat t < e)%Z -> at_work x w t)).
    { destruct (time_some a Ia) as (s0 & e0 & T). pose proof (w_start _ _ W a s0 e0 T) as S0.
      destruct (dget (s_use sol) a) as [u|] eqn:U.
      - rewrite allM_iff. split.
        + intros H w s e t [u' [U' Iw]] T' L. rewrite U in U'. injection U' as <-. rewrite T in T'. injection T' as <- <-.
          apply in_map_iff in Iw as [[w' l] [E Iw]]. cbn [fst] in E. subst w'.
          destruct (w_users _ _ W a u w l Ia U Iw) as (em & Em & _). specialize (H _ Iw). cbn [fst] in H.
          unfold dgetE in H. rewrite Em in H. cbn [bind] in H. unfold time_of in T. rewrite T in H. cbn [bind fst snd] in H.
          apply bind_ok in H as [b [B H]].
          destruct b; [|apply bind_ok in H as [? [_ H]]; discriminate].
          rewrite allM_iff in B. specialize (B (Z.of_nat t)). exists em. split; auto.
          assert (Z0 : zget (e_cal em) (Z.of_nat t) = Ok true) by (apply B, in_zrange; lia).
          rewrite zget_nat in Z0. now apply lget_ok in Z0.
        + intros H [w l] Iw. cbn [fst]. destruct (w_users _ _ W a u w l Ia U Iw) as (em & Em & _).
          unfold dgetE. rewrite Em. cbn [bind]. pose proof T as T'. unfold time_of in T'. rewrite T'. cbn [bind fst snd].
          assert (B : allM (zget (e_cal em)) (zrange s0 e0) = Ok true).
          { apply allM_iff. intros t It. apply in_zrange in It. destruct (H w s0 e0 (Z.to_nat t)) as (em' & Em' & N); auto.
            - exists u. split; auto. apply in_map_iff. exists (w, l). auto.
            - lia.
            - rewrite Em in Em'. injection Em' as <-. apply zget_ok; [lia|]. exact N. }
          rewrite B. reflexivity.
      - split; auto. intros _ w s e t [u [U' _]]. congruence. }
    rewrite <- Sk, <- Ca. clear Sk Ca. split.
    - intros H. apply bind_ok in H as [b [B H]]. destruct b; [|discriminate]. split; [exact B|]. exact H.
    - intros [H1 H2]. rewrite H1. cbn [bind]. exact H2.
  Qed.

  Lemma users_works : forall a w, In w (users sol a) <-> works sol a w.
  Proof.
    intros a w. unfold users, works. destruct (dget (s_use sol) a) as [u|].
    - split; [eauto|]. intros [u' [E I]]. now injection E as <-.
    - split; [intros []|]. intros [u' [E _]]. discriminate.
  Qed.

  Lemma share_ok : forall a b, share sol (a, b) = true <-> exists w, works sol a w /\ works sol b w.
  Proof.
    intros a b. unfold share. rewrite existsb_exists. cbn [fst snd]. split.
    - intros [w [I P]]. apply pymem_true in P. exists w. split; now apply users_works.
    - intros [w [A B]]. exists w. split; [now apply users_works|]. apply pymem_true. now apply users_works.
  Qed.

  Lemma overlaps_ok : check_overlaps x sol = Ok true <->
    forall a b w sa ea sb eb, In a (tasks_of x) -> In b (tasks_of x) -> a <> b ->
    works sol a w -> works sol b w -> time_of sol a = Some (sa, ea) -> time_of sol b = Some (sb, eb) ->
    (ea <= sb \/ eb <= sa)%Z.
  Proof.
    unfold check_overlaps. set (pairs := list_prod (ms_tasks x) (ms_tasks x)).
    assert (Tot : exists os, mapM (overlap sol) pairs = Ok os).
    { assert (G : forall l, incl l pairs -> exists os, mapM (overlap sol) l = Ok os).
      { induction l as [|[a b] l IH]; intros IN; cbn [mapM]; [eauto|].
        destruct IH as [os Os]; [intros y Iy; apply IN; now right|].
        assert (Iab : In (a, b) pairs) by (apply IN; now left). apply in_prod_iff in Iab as [Ia Ib].
        apply tasks_in in Ia, Ib. destruct (time_some a Ia) as (sa & ea & Ta). destruct (time_some b Ib) as (sb & eb & Tb).
        unfold time_of in *. unfold overlap at 1, dgetE. cbn [fst snd]. rewrite Ta, Tb. cbn [bind].
        destruct (a <? b); cbn [bind]; rewrite Os; cbn [bind]; eauto. }
      apply G, incl_refl. }
    destruct Tot as [os Os]. rewrite Os. cbn [bind].
    assert (F2 : forall ab o, In (ab, o) (combine pairs os) -> overlap sol ab = Ok o).
    { clear -Os. revert os Os. generalize pairs. induction pairs0 as [|y l IH]; intros os H ab o Ic; cbn [mapM] in H.
      - injection H as <-. destruct Ic.
      - apply bind_ok in H as [o1 [H1 H]]. apply bind_ok in H as [os1 [H2 H]]. injection H as <-.
        destruct Ic as [E|Ic]; [injection E as <- <-; auto|]. eapply IH; eauto. }
    assert (Cv : forall ab, In ab pairs -> exists o, In (ab, o) (combine pairs os)).
    { clear -Os. revert os Os. generalize pairs. induction pairs0 as [|y l IH]; intros os H ab Ic; [destruct Ic|].
      cbn [mapM] in H. apply bind_ok in H as [o1 [H1 H]]. apply bind_ok in H as [os1 [H2 H]]. injection H as <-.
      destruct Ic as [<-|Ic]; [exists o1; now left|]. destruct (IH _ H2 _ Ic) as [o Io]. exists o. now right. }
    assert (Lt : forall a b w sa ea sb eb,
       forallb (fun bo : (nat * nat) * bool => negb (snd bo && share sol (fst bo))) (combine pairs os) = true ->
       a < b -> In a (tasks_of x) -> In b (tasks_of x) -> works sol a w -> works sol b w ->
       time_of sol a = Some (sa, ea) -> time_of sol b = Some (sb, eb) -> (ea <= sb \/ eb <= sa)%Z).
    { intros a b w sa ea sb eb H L Ia Ib Wa Wb Ta Tb. rewrite forallb_forall in H.
      destruct (Cv (a, b)) as [o Io]; [apply in_prod_iff; split; now apply tasks_in|].
      specialize (H _ Io). cbn [fst snd] in H. apply negb_true_iff in H.
      assert (Sh : share sol (a, b) = true) by (apply share_ok; eauto). rewrite Sh, andb_true_r in H. subst o.
      apply F2 in Io. unfold overlap in Io. cbn [fst snd] in Io. replace (a <? b) with true in Io by lia.
      unfold time_of in Ta, Tb. unfold dgetE in Io. rewrite Ta, Tb in Io. cbn [bind] in Io. injection Io as Io.
      unfold intersect in Io. cbn [fst snd] in Io.
      destruct (Z.leb_spec ea sb), (Z.leb_spec eb sa); cbn [orb] in Io; auto. discriminate. }
    split.
    - intros H. injection H as H. intros a b w sa ea sb eb Ia Ib Ne Wa Wb Ta Tb.
      destruct (lt_eq_lt_dec a b) as [[L|L]|L]; [eapply (Lt a b); eauto|contradiction|].
      destruct (Lt b a w sb eb sa ea H L Ib Ia Wb Wa Tb Ta); auto.
    - intros H. f_equal. apply forallb_forall. intros [[a b] o] Io. cbn [fst snd].
      destruct o; auto. cbn [andb]. apply negb_true_iff. destruct (share sol (a, b)) eqn:Sh; auto. exfalso.
      apply share_ok in Sh as [w [Wa Wb]]. pose proof (F2 _ _ Io) as O. unfold overlap in O. cbn [fst snd] in O.
      destruct (Nat.ltb_spec a b) as [L|L]; [|discriminate].
      apply in_combine_l in Io. apply in_prod_iff in Io as [Ia Ib]. apply tasks_in in Ia, Ib.
      destruct (time_some a Ia) as (sa & ea & Ta). destruct (time_some b Ib) as (sb & eb & Tb).
      assert (Ne : a <> b) by lia. pose proof (H a b w sa ea sb eb Ia Ib Ne Wa Wb Ta Tb) as D.
      unfold time_of in Ta, Tb. unfold dgetE in O. rewrite Ta, Tb in O. cbn [bind] in O. injection O as O.
      unfold intersect in O. cbn [fst snd] in O.
      destruct (Z.leb_spec ea sb), (Z.leb_spec eb sa); cbn [orb] in O; try discriminate; lia.
  Qed.

  (** The table of the resources in use at a time step. *)
  Lemma use_row : forall a t (u : list (string * Z)), In a (tasks_of x) -> dkeys u = res_names (ms_base x) ->
    exists u', ms_add_usage x sol t u a = Ok u' /\ dkeys u' = res_names (ms_base x) /\
      forall r z, dget u r = Some z -> dget u' r = Some (z + match time_of sol a with
                      | Some (s, e) => if (s <=? t)%Z && (t <? e)%Z then need_in x sol a r else 0%Z
                      | None => 0%Z end)%Z.
  Proof.
    intros a t u Ia Ku. destruct (time_some a Ia) as (s & e & T). destruct (key_mode a Ia) as (k & m & K & M).
    rewrite T. unfold time_of in T. unfold ms_add_usage, dgetE at 1. rewrite T. cbn [bind]. unfold dgetE at 1. rewrite K. cbn [bind fst snd].
    destruct ((s <=? t)%Z && (t <? e)%Z).
    2:{ exists u. split; auto. split; auto. intros r z D. rewrite D. f_equal. lia. }
    set (f := fun u r => let* z := dgetE u r in let* n := need_of (ms_base x) a k r in Ok (dset u r (z + n)%Z)).
    assert (G : forall l1 u, NoDup l1 -> incl l1 (res_names (ms_base x)) -> dkeys u = res_names (ms_base x) ->
      exists u', foldM f u l1 = Ok u' /\ dkeys u' = res_names (ms_base x) /\
        forall r z, dget u r = Some z -> dget u' r = Some (z + if pymem r l1 then need_in x sol a r else 0)%Z).
    { clear u Ku. induction l1 as [|r l1 IH]; intros u N IN Ku; cbn [foldM].
      - exists u. split; auto. split; auto. intros r z D. rewrite D. cbn. f_equal. lia.
      - inversion N as [|? ? NI N1]; subst. assert (Ir : In r (res_names (ms_base x))) by (apply IN; now left).
        destruct (w_need _ _ W a m r Ia M Ir) as [n Dn]. destruct (need_ok a k m r n Ia K M Dn) as [Q1 Q2].
        unfold f at 1. unfold dgetE. destruct (dget u r) as [z|] eqn:Dz.
        2:{ apply dget_None in Dz. rewrite Ku in Dz. contradiction. }
        cbn [bind]. rewrite Q1. cbn [bind].
        destruct (IH (dset u r (z + n)%Z)) as (u' & F & K' & V); auto.
        + intros y Iy. apply IN. now right.
        + rewrite dset_keys_present; auto. now rewrite Ku.
        + exists u'. split; [exact F|]. split; auto. intros r' z' D. cbn [pymem existsb]. fold (pymem r' l1).
          destruct (pyeqb_spec r' r) as [Er|Er].
          * subst r'. cbn [orb]. assert (Ez : z' = z) by congruence. subst z'.
            rewrite (V r (z + n)%Z) by apply dget_dset_same.
            rewrite (proj2 (pymem_false r l1) NI). f_equal. lia.
          * cbn [orb]. apply V. rewrite dget_dset_other; auto. }
    destruct (G (res_names (ms_base x)) u (w_res _ _ W) (incl_refl _) Ku) as (u' & F & K' & V).
    exists u'. split; [exact F|]. split; auto. intros r z D. rewrite (V r z D).
    assert (Ir : In r (res_names (ms_base x))). { rewrite <- Ku. rewrite dget_keys. exists z. exact D. }
    now rewrite (proj2 (pymem_true r _) Ir).
  Qed.

  Lemma use_table : forall t l (u : list (string * Z)), incl l (tasks_of x) -> dkeys u = res_names (ms_base x) ->
    exists u', foldM (ms_add_usage x sol t) u l = Ok u' /\ dkeys u' = res_names (ms_base x) /\
      forall r z, dget u r = Some z -> dget u' r = Some (z + sumZ (map (fun a => match time_of sol a with
                      | Some (s, e) => if (s <=? t)%Z && (t <? e)%Z then need_in x sol a r else 0%Z
                      | None => 0%Z end) l))%Z.
  Proof.
    intros t l. induction l as [|a l IH]; intros u IN Ku; cbn [foldM map].
    - exists u. split; auto. split; auto. intros r z D. rewrite D. unfold sumZ. cbn. f_equal. lia.
    - destruct (use_row a t u) as (u1 & F1 & K1 & V1); auto; [apply IN; now left|]. rewrite F1. cbn [bind].
      destruct (IH u1) as (u2 & F2 & K2 & V2); auto; [intros y Iy; apply IN; now right|].
      exists u2. split; auto. split; auto. intros r z D. rewrite (V2 _ _ (V1 _ _ D)). rewrite sumZ_cons. f_equal. lia.
  Qed.

  Lemma cap_at : forall r t, capacity_at (ms_base x) r t =
    match capacity_of (ms_base x) r t with Some c => Ok c | None => capacity_at (ms_base x) r t end.
  Proof.
    intros r t. unfold capacity_of, capacity_at, dgetE, lget. destruct (p_res (ms_base x)) as [c|c].
    - destruct (dget c r); auto.
    - destruct (dget c r) as [row|]; auto. cbn [bind]. destruct (nth_error row t); auto.
  Qed.

  Lemma tasks_perm : Permutation (ms_tasks x) (tasks_of x).
  Proof. symmetry. apply ssort_perm. Qed.

  Lemma check_time_ok : forall t, (exists se ee, time_of sol (ms_sink x) = Some (se, ee) /\ (Z.of_nat t < ee)%Z) ->
    (ms_check_time x sol t = Ok true <-> forall r c, capacity_of (ms_base x) r t = Some c ->
       (running_use x sol r (Z.of_nat t) <= c)%Z).
  Proof.
    intros t Ht. unfold ms_check_time.
    destruct (use_table (Z.of_nat t) (ms_tasks x) (map (fun r => (r, 0%Z)) (res_names (ms_base x)))) as (u & F & K & V).
    - intros a Ia. now apply tasks_in.
    - unfold dkeys. rewrite map_map. cbn [fst]. apply map_id.
    - rewrite F. cbn [bind]. rewrite allM_iff.
      assert (Z0 : forall r, In r (res_names (ms_base x)) -> dget (map (fun r => (r, 0%Z)) (res_names (ms_base x))) r = Some 0%Z).
      { intros r. clear. induction (res_names (ms_base x)) as [|y l IH]; intros H; [destruct H|]. cbn [map dget].
        destruct (pyeqb_spec r y); auto. apply IH. destruct H; [congruence|auto]. }
      assert (U : forall r, In r (res_names (ms_base x)) -> dget u r = Some (running_use x sol r (Z.of_nat t))).
      { intros r Ir. rewrite (V _ _ (Z0 r Ir)). f_equal. unfold running_use. rewrite Z.add_0_l.
        apply sumZ_map_perm, tasks_perm. }
      split.
      + intros H r c C. pose proof (capacity_name _ _ _ _ C) as Ir. specialize (H r Ir). unfold dgetE in H.
        rewrite (U r Ir) in H. cbn [bind] in H. rewrite cap_at, C in H. cbn [bind] in H. injection H as H. lia.
      + intros H r Ir. unfold dgetE. rewrite (U r Ir). cbn [bind].
        destruct (w_cap _ _ W r t Ir (or_intror Ht)) as [c C]. rewrite cap_at, C. cbn [bind]. f_equal.
        specialize (H r c C). lia.
  Qed.

  Lemma check_nonren_ok : forall r, In r (p_nonren (ms_base x)) -> (ms_check_nonren x sol r = Ok true <->
    forall c, capacity_of (ms_base x) r 0 = Some c -> (total_use x sol r <= c)%Z).
  Proof.
    intros r Ir. unfold ms_check_nonren.
    assert (G : forall l z, incl l (tasks_of x) -> foldM (fun u a => let* k := dgetE (s_modes sol) a in
       let* n := need_of (ms_base x) a k r in Ok (u + n)%Z) z l = Ok (z + sumZ (map (fun a => need_in x sol a r) l))%Z).
    { induction l as [|a l IH]; intros z IN; cbn [foldM map].
      - unfold sumZ. cbn. f_equal. lia.
      - assert (Ia : In a (tasks_of x)) by (apply IN; now left). destruct (key_mode a Ia) as (k & m & K & M).
        destruct (w_need _ _ W a m r Ia M (w_nonren _ _ W r Ir)) as [n Dn]. destruct (need_ok a k m r n Ia K M Dn) as [Q1 Q2].
        unfold dgetE. rewrite K. cbn [bind]. rewrite Q1. cbn [bind]. fold (@dgetE nat nat _).
        rewrite sumZ_cons. change (fun (u : Z) (a0 : nat) => _) with (fun (u : Z) (a0 : nat) =>
          let* k0 := dgetE (s_modes sol) a0 in let* n0 := need_of (ms_base x) a0 k0 r in Ok (u + n0)%Z).
        rewrite IH; [f_equal; lia|]. intros y Iy. apply IN. now right. }
    rewrite G by (intros a Ia; now apply tasks_in). cbn [bind].
    destruct (w_cap _ _ W r 0 (w_nonren _ _ W r Ir) (or_introl eq_refl)) as [c C]. rewrite cap_at, C. cbn [bind].
    assert (E : (0 + sumZ (map (fun a => need_in x sol a r) (ms_tasks x)))%Z = total_use x sol r).
    { rewrite Z.add_0_l. unfold total_use. apply sumZ_map_perm, tasks_perm. }
    rewrite E. split.
    - intros H c' C'. injection C' as <-. injection H as H. lia.
    - intros H. specialize (H c eq_refl). f_equal. lia.
  Qed.

  Lemma prec_ok : allM (check_prec (ms_base x) (s_sch sol)) (p_succ (ms_base x)) = Ok true <->
    forall a b l sa ea sb eb, dget (p_succ (ms_base x)) a = Some l -> In b l ->
    time_of sol a = Some (sa, ea) -> time_of sol b = Some (sb, eb) -> (ea <= sb)%Z.
  Proof.
    rewrite allM_iff. split.
    - intros H a b l sa ea sb eb D Ib Ta Tb. apply dget_In in D. specialize (H _ D). unfold check_prec in H.
      cbn [fst snd] in H. rewrite allM_iff in H. specialize (H b Ib). unfold time_of in *. unfold dgetE in H.
      rewrite Ta, Tb in H. cbn [bind fst snd] in H. injection H as H. lia.
    - intros H [a l] Ia. pose proof (In_dget _ _ _ (w_succ _ _ W) Ia) as D. unfold check_prec. cbn [fst snd].
      apply allM_iff. intros b Ib. destruct (w_closed _ _ W a l D) as [Ka Kl].
      destruct (time_some a Ka) as (sa & ea & Ta). destruct (time_some b (Kl b Ib)) as (sb & eb & Tb).
      specialize (H a b l sa ea sb eb D Ib Ta Tb). unfold time_of in *. unfold dgetE. rewrite Ta, Tb. cbn [bind fst snd].
      f_equal. lia.
  Qed.

  Lemma satisfy_ok : ms_satisfy x sol = Ok true <-> ms_ok x sol.
  Proof.
    unfold ms_satisfy.
    assert (L : length (s_sch sol) = length (p_modes (ms_base x))).
    { pose proof (Permutation_length (w_times _ _ W)) as E. unfold dkeys, tasks_of, dkeys in E. rewrite !map_length in E. exact E. }
    rewrite L, Nat.eqb_refl. cbn [negb].
    destruct (time_some _ (w_sink _ _ W)) as (se & ee & Ts). pose proof Ts as Ts'. unfold time_of in Ts'.
    split.
    - intros H. apply bind_ok in H as [b1 [H1 H]]. destruct b1; cbn [negb] in H; [|discriminate].
      apply bind_ok in H as [b2 [H2 H]]. destruct b2; cbn [negb] in H; [|discriminate].
      unfold dgetE in H. rewrite Ts' in H. cbn [bind snd] in H.
      apply bind_ok in H as [b3 [H3 H]]. destruct b3; cbn [negb] in H; [|discriminate].
      apply bind_ok in H as [b4 [H4 H5]]. destruct b4; cbn [negb] in H5; [|discriminate].
      rewrite allM_iff in H1, H3, H4. rewrite overlaps_ok in H2. rewrite prec_ok in H5. constructor; auto.
      + intros a s n Ia. apply (proj1 (check_task_ok a Ia) (H1 a (proj2 (tasks_in x a) Ia))).
      + intros a w s e t Ia. apply (proj1 (check_task_ok a Ia) (H1 a (proj2 (tasks_in x a) Ia))).
      + intros r t c se' ee' T Lt C. rewrite Ts in T. injection T as <- <-.
        apply (proj1 (check_time_ok t ltac:(eauto))); auto. apply H3. apply in_seq. lia.
      + intros r c Ir. apply (proj1 (check_nonren_ok r Ir)). auto.
    - intros [K1 K2 K3 K4 K5 K6].
      assert (H1 : allM (check_task x sol) (ms_tasks x) = Ok true).
      { apply allM_iff. intros a Ia. apply tasks_in in Ia. apply check_task_ok; auto. split; [intros; eapply K1; eauto|].
        intros. eapply K2; eauto. }
      rewrite H1. cbn [bind negb]. rewrite (proj2 overlaps_ok) by exact K3. cbn [bind negb].
      unfold dgetE. rewrite Ts'. cbn [bind snd].
      assert (H3 : allM (ms_check_time x sol) (seq 0 (Z.to_nat ee)) = Ok true).
      { apply allM_iff. intros t It. apply in_seq in It. apply check_time_ok; [exists se, ee; split; auto; lia|].
        intros r c C. eapply K4; eauto. lia. }
      rewrite H3. cbn [bind negb].
      assert (H4 : allM (ms_check_nonren x sol) (p_nonren (ms_base x)) = Ok true).
      { apply allM_iff. intros r Ir. apply check_nonren_ok; auto. }
      rewrite H4. cbn [bind negb]. now apply prec_ok.
  Qed.
End Sat.
