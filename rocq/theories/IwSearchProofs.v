(** The search of IwModel.v at one width, and the plan it records. *)
From Coq Require Import List Bool Arith ZArith Lia Permutation Sorted.
From Verif Require Import Py PyList PyMore CppAstarModel CppHeapProofs IwModel IwSpec IwTupleProofs IwProofs.
Import ListNotations.
Open Scope nat_scope.

(** The sum of [f] over the elements of [L] that are not in a list. *)
Lemma weight_close : forall {S K} {EK : PyEq K} (k : S -> K) (f : S -> nat) L closed x, NoDup (map k L) -> In x L -> ~ In (k x) closed ->
  list_sum (map (fun t => if pymem (k t) (k x :: closed) then 0 else f t) L) + f x =
  list_sum (map (fun t => if pymem (k t) closed then 0 else f t) L).
Proof.
  intros S K EK k f L closed x ND Ix Nx. induction L as [|t L IH]; [destruct Ix|].
  inversion ND; subst. cbn [map list_sum fold_right].
  change (pymem (k t) (k x :: closed)) with (pyeqb (k t) (k x) || pymem (k t) closed).
  destruct Ix as [ -> |Ix].
  - rewrite pyeqb_refl. cbn [orb]. rewrite (proj2 (pymem_false (k x) closed) Nx).
    assert (E : map (fun t => if pymem (k t) (k x :: closed) then 0 else f t) L =
                map (fun t => if pymem (k t) closed then 0 else f t) L).
    { apply map_ext_in. intros t It. change (pymem (k t) (k x :: closed)) with (pyeqb (k t) (k x) || pymem (k t) closed).
      destruct (pyeqb_spec (k t) (k x)) as [E|]; [|reflexivity]. exfalso. apply H1. rewrite <- E. now apply in_map. }
    rewrite E. unfold list_sum. lia.
  - destruct (pyeqb_spec (k t) (k x)) as [E|Ntx].
    + exfalso. apply H1. rewrite E. now apply in_map.
    + cbn [orb]. specialize (IH H2 Ix). unfold list_sum in *. lia.
Qed.

Section Search.
Context {St A V K : Type} {EV : PyEq V} {EK : PyEq K}.
Variable p : @problem St A V K.
Variable o : ordering.
Variable s0 : St.
Notation graph := (@graph St A K).
Notation r := (key p s0).
Hypothesis KI : forall s t, key p s = key p t -> s = t.
Hypothesis NN : forall s a, In a (apps p s) -> (0 <= cost p s a (next p s a))%Z.
Notation good := (good p s0).
Notation chain := (chain p s0).
Notation reach := (reach p s0).
Notation relax := (relax p).

Lemma emplace_at : forall (g : graph) y g1 new, good g -> emplace p g y = (g1, new) ->
  dmem g1 (key p y) = true /\ state (at_ g1 (key p y)) = Some y.
Proof.
  intros g y g1 new G E. unfold emplace in E. destruct (dmem g (key p y)) eqn:M; injection E as <- <-.
  - split; auto. destruct (g_state _ _ _ G _ M) as (s & Es & Ek). apply KI in Ek. now subst.
  - split; [rewrite dmem_dset, pyeqb_refl; reflexivity|]. rewrite at_dset, pyeqb_refl. reflexivity.
Qed.

Lemma expand_ok : forall width (w : @search St A V K) sx a seen, good (s_graph w) -> table width (s_tuples w) seen ->
  exists w' nov, expand p o width (key p sx) sx w a = Ok w' /\
    similar (relax (key p sx) sx (s_graph w) a) (s_graph w') /\
    table width (s_tuples w') (features p (next p sx a) :: seen) /\
    is_novelty width (features p (next p sx a)) seen nov /\
    ((width < nov /\ s_queue w' = s_queue w /\ s_pruned w' = true) \/
     (nov <= width /\ Permutation (s_queue w') (key p (next p sx a) :: s_queue w) /\ s_pruned w' = s_pruned w)).
Proof.
  intros width w sx a seen G T. unfold expand, relax. set (y := next p sx a).
  destruct (emplace p (s_graph w) y) as [g1 new] eqn:E1. destruct (emplace_at _ _ _ _ G E1) as [M1 S1].
  rewrite S1. set (c := cost p sx a y). set (t := fadd (gscore (at_ g1 (key p sx))) c).
  set (n1 := at_ g1 (key p y)) in *. set (n2 := if new || flt t (gscore n1) then set_score n1 t (key p sx, a, c) else n1).
  set (n3 := if new || dlt _ _ then set_depth n2 _ else n2).
  destruct (novelty_ok width (s_tuples w) seen (features p y) T) as (nov & tuples & En & T' & N). rewrite En. cbn [bind].
  assert (V3 : vw n3 = vw n2) by (unfold n3; destruct (new || dlt _ _); reflexivity).
  assert (Sim : forall n4, vw n4 = vw n2 ->
    similar (if new || flt t (gscore n1) then dset g1 (key p y) (set_score n1 t (key p sx, a, c)) else g1) (dset g1 (key p y) n4)).
  { intros n4 E4. unfold n2 in E4. destruct (new || flt t (gscore n1)).
    - intros k. rewrite !dmem_dset, !at_dset. destruct (pyeqb (key p y) k); auto.
    - apply similar_set; auto. }
  destruct (width <? nov) eqn:W.
  - apply Nat.ltb_lt in W. eexists _, nov. split; [reflexivity|]. cbn [s_graph s_queue s_tuples s_pruned]. split.
    + apply Sim. rewrite <- V3. reflexivity.
    + split; [exact T'|]. split; [exact N|]. left. auto.
  - apply Nat.ltb_ge in W. eexists _, nov. split; [reflexivity|]. cbn [s_graph s_queue s_tuples s_pruned]. split.
    + apply Sim. rewrite <- V3. reflexivity.
    + split; [exact T'|]. split; [exact N|]. right. split; auto. split; auto. apply heap_push_perm.
Qed.

(** The features tell the reachable states apart, and the width is their number. *)
Definition full (width : nat) : Prop :=
  (forall s t, reach s -> reach t -> features p s = features p t -> s = t) /\
  (forall s, reach s -> length (features p s) = width) /\ 1 <= width.

Lemma not_novel : forall width (f : list V) seen nov, 1 <= width -> length f = width -> is_novelty width f seen nov -> width < nov ->
  Forall (fun f' => length f' = width) seen -> In f seen.
Proof.
  intros width f seen nov W L [[E N]|[[H1 H2] _]] Lt F; [|lia].
  destruct (in_dec (list_eq_dec py_dec) f seen) as [I|NI]; auto. exfalso. apply (N width ltac:(lia)).
  exists (seq 0 width). split.
  - split; [apply seq_length|]. split.
    + clear. generalize 0. induction width as [|n IH]; intros m; cbn [seq]; constructor; auto.
      apply Forall_forall. intros x I. apply in_seq in I. lia.
    + apply Forall_forall. intros x I. apply in_seq in I. lia.
  - intros f' If Ag. apply NI. replace f with f'; auto. apply nth_error_ext. intros i.
    assert (Lf : length f' = width) by exact (proj1 (Forall_forall _ _) F f' If).
    destruct (le_lt_dec width i) as [Li|Li].
    + rewrite (proj2 (nth_error_None f' i)), (proj2 (nth_error_None f i)) by lia. reflexivity.
    + symmetry. apply Ag. apply in_seq. lia.
Qed.

(** The states generated so far at this width are [gen]. *)
Record inv (width : nat) (g : graph) (queue : list K) (tuples : list (list (@tuple V))) (pr : bool) (closed : list K)
    (gen : list St) : Prop := {
  i_good : good g;
  i_stale : stale g;
  i_queue : forall k, In k queue -> dmem g k = true;
  i_gen : forall s, In s gen -> reach s /\ dmem g (key p s) = true;
  i_root : In s0 gen;
  i_closed : forall k, In k closed -> exists s, key p s = k /\ is_goal p s = false /\
     (is_terminal p s = false -> forall a, In a (apps p s) -> In (next p s a) gen);
  i_table : table width tuples (map (features p) gen);
  i_cover : pr = false \/ full width -> forall s, In s gen -> In (key p s) queue \/ In (key p s) closed }.

Lemma state_reach : forall g s, good g -> dmem g (key p s) = true -> reach s.
Proof.
  intros g s G M. destruct (g_chain _ _ _ G _ M) as (l & c & Ch). exists (map snd l), c.
  eapply chain_exec; eauto.
Qed.

(** The expansion of [sx], being closed. *)
Lemma fold_inv : forall width closed sx acts w gen,
  good (s_graph w) -> stale (s_graph w) ->
  (forall k, In k (s_queue w) -> dmem (s_graph w) k = true) ->
  (forall s, In s gen -> reach s /\ dmem (s_graph w) (key p s) = true) ->
  table width (s_tuples w) (map (features p) gen) ->
  (s_pruned w = false \/ full width -> forall s, In s gen -> In (key p s) (s_queue w) \/ In (key p s) closed) ->
  dmem (s_graph w) (key p sx) = true -> is_terminal p sx = false -> incl acts (apps p sx) ->
  exists w' gen', foldM (expand p o width (key p sx) sx) w acts = Ok w' /\
    good (s_graph w') /\ stale (s_graph w') /\
    (forall k, In k (s_queue w') -> dmem (s_graph w') k = true) /\
    (forall s, In s gen' -> reach s /\ dmem (s_graph w') (key p s) = true) /\
    table width (s_tuples w') (map (features p) gen') /\
    (s_pruned w' = false \/ full width -> forall s, In s gen' -> In (key p s) (s_queue w') \/ In (key p s) closed) /\
    incl gen gen' /\ (forall a, In a acts -> In (next p sx a) gen') /\
    length (s_queue w') <= length (s_queue w) + length acts /\
    (forall k, In k (s_queue w') -> In k (s_queue w) \/ exists a, In a acts /\ k = key p (next p sx a)).
Proof.
  intros width closed sx. induction acts as [|a acts IH]; intros w gen G Sg Q Gn T C Mx Tx Ia.
  - exists w, gen. split; [reflexivity|]. repeat (split; [assumption|]). split; [apply incl_refl|]. split; [intros ? []|].
    split; [cbn; lia|]. auto.
  - assert (Iaa : In a (apps p sx)) by (apply Ia; now left).
    destruct (relax_good p s0 KI NN (s_graph w) sx a G Sg Mx Tx Iaa) as (G1 & S1 & Mm & My).
    destruct (expand_ok width w sx a _ G T) as (w1 & nov & E & Sim & T1 & N & Cases). cbn [foldM]. rewrite E. cbn [bind].
    assert (G2 : good (s_graph w1)) by (eapply good_similar; eauto).
    assert (S2 : stale (s_graph w1)).
    { intros k. destruct (Sim k) as [_ Ev]. unfold vw in Ev. destruct (S1 k). split; congruence. }
    assert (Mm2 : forall k, dmem (s_graph w) k = true -> dmem (s_graph w1) k = true).
    { intros k M. rewrite (proj1 (Sim k)). auto. }
    assert (My2 : dmem (s_graph w1) (key p (next p sx a)) = true) by (rewrite (proj1 (Sim _)); exact My).
    assert (Ry : reach (next p sx a)) by (eapply state_reach; eauto).
    destruct (IH w1 (next p sx a :: gen)) as (w' & gen' & E' & H1 & H2 & H3 & H4 & H5 & H6 & H7 & H8 & H9 & H10); auto.
    + intros k I. destruct Cases as [(_ & Eq & _)|(_ & Pm & _)]; [rewrite Eq in I; auto|].
      apply (Permutation_in _ Pm) in I as [ <- |I]; auto.
    + intros s [ <- |I]; [auto|]. destruct (Gn s I). auto.
    + intros Cond s [ <- |I]; destruct Cases as [(Lt & Eq & Ep)|(Le & Pm & Ep)].
      * destruct Cond as [Cond|Fw]; [congruence|]. rewrite Eq.
        assert (In (features p (next p sx a)) (map (features p) gen)).
        { eapply (not_novel width); eauto; [apply Fw|apply Fw; auto|].
          apply Forall_forall. intros f If. apply in_map_iff in If as (s & <- & Is). apply Fw. apply Gn. exact Is. }
        apply in_map_iff in H as (s & Ef & Is). assert (s = next p sx a) by (apply Fw; auto; apply Gn; exact Is). subst s.
        apply C; auto.
      * left. apply (Permutation_in _ (Permutation_sym Pm)). now left.
      * destruct Cond as [Cond|Fw]; [congruence|]. rewrite Eq. apply C; auto.
      * rewrite Ep in Cond. destruct (C Cond s I) as [X|X]; [|now right]. left.
        apply (Permutation_in _ (Permutation_sym Pm)). now right.
    + intros b Ib. apply Ia. now right.
    + exists w', gen'. split; [exact E'|]. repeat (split; [assumption|]). split; [|split; [|split]].
      * intros s I. apply H7. now right.
      * intros b [ <- |Ib]; auto. apply H7. now left.
      * destruct Cases as [(_ & Eq & _)|(_ & Pm & _)]; [rewrite Eq in H9; cbn; lia|].
        apply Permutation_length in Pm. cbn in *. lia.
      * intros k I. destruct (H10 k I) as [I1|(b & Ib & ->)]; [|right; exists b; split; [now right|auto]].
        destruct Cases as [(_ & Eq & _)|(_ & Pm & _)]; [rewrite Eq in I1; auto|].
        apply (Permutation_in _ Pm) in I1 as [ <- |I1]; auto. right. exists a. split; [now left|auto].
Qed.

(** *** writing the solution *)
Definition hd_st (l : list (St * A)) (d : St) : St := match l with [] => d | (s, _) :: _ => s end.

Lemma chain_hd : forall g k l c, chain g k l c -> forall s, key p s = k -> hd_st l s = s0.
Proof.
  induction 1 as [M|cur sp a l c Ch IH N M B T Ia E]; intros s Es; [apply KI; auto|].
  destruct l as [|[t b] l]; [exact (IH sp eq_refl)|]. exact (IH sp eq_refl).
Qed.

Definition marked (g : graph) (s child : St) (v : Z) : Prop :=
  exists n, dget g (key p s) = Some n /\ solved n = true /\ best_action n = Some (key p child) /\ fscore n = Some v.

Lemma path_cost_spec : forall cur l c g fuel acc, chain g cur l c -> length l <= fuel ->
  path_cost fuel r cur g acc = Ok (acc + c)%Z.
Proof.
  intros cur l c g fuel acc Ch. revert fuel acc. induction Ch as [M|cur sp a l c Ch IH N M B T Ia E]; intros fuel acc L.
  - destruct fuel; cbn [path_cost]; rewrite pyeqb_refl; f_equal; lia.
  - rewrite app_length in L. cbn in L. destruct fuel as [|fuel]; [lia|]. cbn [path_cost].
    destruct (pyeqb_spec cur r) as [X|_]; [contradiction|]. rewrite B. rewrite IH by lia. f_equal. lia.
Qed.

Lemma chain_parents : forall (g g' : graph) k l c, (forall t, best_parent (at_ g' t) = best_parent (at_ g t)) ->
  (forall t, dmem g t = true -> dmem g' t = true) -> chain g k l c -> chain g' k l c.
Proof.
  intros g g' k l c H Hm Ch. induction Ch as [M|cur sp a l c Ch IH N M B T Ia E]; [constructor; auto|].
  constructor; auto. now rewrite H.
Qed.

Lemma backtrack_spec : forall l cur s c g fuel f, key p s = cur -> chain g cur l c -> length l <= fuel -> fscore (at_ g cur) = Some f ->
  exists g', backtrack fuel r cur g = Ok g' /\
    (forall k, ~ In k (keys p l) -> dget g' k = dget g k) /\
    (forall k, dmem g' k = dmem g k) /\
    (forall k, best_parent (at_ g' k) = best_parent (at_ g k)) /\
    forall l1 t a l2, l = l1 ++ (t, a) :: l2 -> exists v, marked g' t (hd_st l2 s) (f + v)%Z /\
       best_parent (at_ g (key p (hd_st l2 s))) = Some (key p t, a, cost p t a (next p t a)) /\
       next p t a = hd_st l2 s /\
       exec p t (a :: map snd l2) s v.
Proof.
  induction l as [|[sp a] l IH] using rev_ind; intros cur s c g fuel f Es Ch Lf F.
  - assert (Er : cur = r) by (inversion Ch; auto; destruct l; discriminate).
    exists g. destruct fuel; cbn [backtrack]; rewrite Er, pyeqb_refl; (repeat (split; [reflexivity|]); intros [|? ?]; discriminate).
  - inversion Ch as [E1 E2 E3|cur' sp' a' l' c' Ch' N M B T Ia E E1 E2 E3].
    { destruct l; discriminate. }
    apply app_inj_tail in E2 as [-> E2]. injection E2 as -> ->. subst cur'.
    rewrite app_length in Lf. cbn in Lf. destruct fuel as [|fuel]; [lia|].
    cbn [backtrack]. destruct (pyeqb_spec cur r) as [X|_]; [contradiction|]. rewrite B, F. cbn [fadd].
    set (n := at_ g (key p sp)). set (g1 := dset g (key p sp) _).
    assert (BP : forall k, best_parent (at_ g1 k) = best_parent (at_ g k)).
    { intros k. unfold g1. rewrite at_dset. destruct (pyeqb_spec (key p sp) k) as [ <- |]; reflexivity. }
    assert (Msp : dmem g (key p sp) = true) by (eapply chain_mem; eauto).
    assert (DM : forall k, dmem g1 k = dmem g k).
    { intros k. unfold g1. rewrite dmem_dset. destruct (pyeqb_spec (key p sp) k) as [ <- |]; auto. }
    assert (Ch1 : chain g1 (key p sp) l c').
    { eapply chain_parents; [exact BP| |exact Ch']. intros t Mt. now rewrite DM. }
    destruct (IH (key p sp) sp c' g1 fuel (f + cost p sp a (next p sp a))%Z eq_refl Ch1) as (g' & R1 & R2 & R2b & R3 & R4).
    { lia. }
    { unfold g1. rewrite at_dset, pyeqb_refl. reflexivity. }
    exists g'. split; auto. split; [|split; [|split]].
    + intros k NI. unfold keys in NI. rewrite map_app in NI. rewrite R2.
      * unfold g1. apply dget_dset_other. intros Ek. apply NI. apply in_app_iff. right. left. exact Ek.
      * intros I. apply NI. apply in_app_iff. now left.
    + intros k. now rewrite R2b, DM.
    + intros k. now rewrite R3, BP.
    + assert (Ecur : next p sp a = s) by (apply KI; congruence).
      intros l1 t b l2 El. destruct l2 as [|[u d] l2 _] using rev_ind.
      * apply app_inj_tail in El as [-> El]. injection El as <- <-. exists (cost p sp a (next p sp a) + 0)%Z.
        cbn [hd_st map]. rewrite Es. split; [|split; [|split]].
        -- exists (set_best n cur (Some (f + cost p sp a (next p sp a))%Z)).
           rewrite R2.
           ++ unfold g1. rewrite dget_dset_same. cbn. rewrite Es. repeat split; auto. f_equal. lia.
           ++ exact (chain_fresh p s0 KI _ _ _ _ Ch').
        -- exact B.
        -- exact Ecur.
        -- rewrite <- Ecur at 1. constructor; auto. rewrite Ecur. constructor.
      * rewrite app_comm_cons, app_assoc in El. apply app_inj_tail in El as [-> El]. injection El as <- <-.
        destruct (R4 l1 t b l2 eq_refl) as (v & Mk & Bp & Nx & Ex).
        assert (H1 : hd_st (l2 ++ [(sp, a)]) s = hd_st l2 sp) by (destruct l2 as [|[? ?] ?]; reflexivity).
        rewrite H1. exists (v + cost p sp a (next p sp a))%Z. split; [|split; [|split]].
        -- replace (f + (v + cost p sp a (next p sp a)))%Z with (f + cost p sp a (next p sp a) + v)%Z by lia. auto.
        -- rewrite <- BP. auto.
        -- exact Nx.
        -- rewrite map_app. cbn [map]. rewrite app_comm_cons. rewrite <- Ecur at 1. cbn [snd]. apply exec_snoc; auto.
Qed.

(** The plan recorded in [g]: from the root, the pairs of [l] (a state and the action answered there) to [x]. *)
Definition plan_in (g : graph) (l : list (St * A)) (x : St) (c : Z) : Prop :=
  exec p s0 (map snd l) x c /\ hd_st l x = s0 /\ get_best_value p g x = Ok (Some 0%Z) /\
  forall l1 t a l2, l = l1 ++ (t, a) :: l2 -> exists c2,
    exec p t (a :: map snd l2) x c2 /\ get_best_value p g t = Ok (Some c2) /\ get_best_action p g t = Ok a /\
    is_solution_defined_for p g t = true /\ next p t a = hd_st l2 x.

Lemma record_first : forall g x, good g -> stale g -> dmem g (key p x) = true ->
  exists g' l c, record_plan r (key p x) false g = Ok g' /\ plan_in g' l x c /\ fscore (at_ g' r) = Some c.
Proof.
  intros g x G Sg Mx. destruct (g_chain _ _ _ G _ Mx) as (l & c & Ch).
  pose proof (chain_length p s0 KI _ _ _ _ Ch) as Len.
  unfold record_plan. rewrite (path_cost_spec _ _ _ _ _ 0%Z Ch Len). cbn [bind negb orb].
  set (g1 := dset g (key p x) (set_goal (at_ g (key p x)))).
  assert (L1 : length g1 = length g) by (apply dset_length_in; auto).
  assert (BP : forall k, best_parent (at_ g1 k) = best_parent (at_ g k)).
  { intros k. unfold g1. rewrite at_dset. destruct (pyeqb_spec (key p x) k) as [ <- |]; reflexivity. }
  assert (DM : forall k, dmem g k = true -> dmem g1 k = true).
  { intros k M. unfold g1. rewrite dmem_dset, M, orb_true_r. reflexivity. }
  assert (Ch1 : chain g1 (key p x) l c) by (eapply chain_parents; eauto).
  assert (F1 : fscore (at_ g1 (key p x)) = Some 0%Z).
  { unfold g1. rewrite at_dset, pyeqb_refl. cbn. rewrite (proj2 (Sg _)). reflexivity. }
  rewrite L1. destruct (backtrack_spec l _ x c g1 (length g) 0%Z eq_refl Ch1 Len F1) as (g' & R1 & R2 & R2b & R3 & R4).
  exists g', l, c. split; [exact R1|]. split.
  - split; [eapply chain_exec; eauto|]. split; [eapply chain_hd; eauto|]. split.
    + unfold get_best_value. rewrite R2 by exact (chain_fresh p s0 KI _ _ _ _ Ch).
      rewrite (proj1 (dmem_get g1 (key p x)) (DM _ Mx)). now rewrite F1.
    + intros l1 t a l2 El. destruct (R4 _ _ _ _ El) as (v & (n & N1 & N2 & N3 & N4) & B & Nx & Ex).
      exists v. split; auto. unfold get_best_value, get_best_action, is_solution_defined_for.
      rewrite N1, N3, N4, R3, B. repeat split; auto.
  - destruct l as [|[t a] l].
    + assert (c = 0%Z /\ key p x = r) as [-> E].
      { inversion Ch; auto. destruct l; discriminate. }
      rewrite <- E. assert (dget g' (key p x) = dget g1 (key p x)) by (apply R2; intros []).
      unfold at_ in *. rewrite H. exact F1.
    + pose proof (chain_hd _ _ _ _ Ch x eq_refl) as Hd. cbn in Hd. subst t.
      destruct (R4 [] s0 a l eq_refl) as (v & (n & N1 & N2 & N3 & N4) & _ & _ & Ex).
      unfold at_. rewrite N1, N4. f_equal.
      pose proof (chain_exec p s0 KI _ _ _ _ Ch x eq_refl) as Ex'. cbn [map snd] in Ex'.
      destruct (exec_cost p _ _ _ _ _ _ Ex Ex') as [_ ->]. lia.
Qed.

Lemma closed_all : forall width g tuples pr closed gen, inv width g [] tuples pr closed gen -> pr = false \/ full width ->
  forall s, reach s -> is_goal p s = false.
Proof.
  intros width g tuples pr closed gen I C s (l & c & Ex).
  assert (All : forall t, In t gen -> is_goal p t = false /\
    (is_terminal p t = false -> forall a, In a (apps p t) -> In (next p t a) gen)).
  { intros t It. destruct (i_cover _ _ _ _ _ _ _ I C t It) as [[]|Ic].
    destruct (i_closed _ _ _ _ _ _ _ I _ Ic) as (t' & Ek & H1 & H2). apply KI in Ek. subst t'. auto. }
  assert (Gen : forall u l t c, exec p u l t c -> In u gen -> In t gen).
  { induction 1 as [u|u a l' u' c' T Ia E IH]; intros Iu; auto. apply IH. apply All; auto. }
  apply All. eapply Gen; [exact Ex|]. apply I.
Qed.

Variable clock : nat -> nat.
Variable budget : nat.

(** How a search at one width ends when no time is left once a plan is found. *)
Definition ended (width : nat) (ok pr : bool) (h : @shared St A K) : Prop :=
  (ok = false /\ h_found h = false /\ h_scores h = [] /\ stale (h_graph h) /\ (pr = true -> good (h_graph h)) /\
   (pr = false \/ full width -> forall s, reach s -> is_goal p s = false)) \/
  (ok = true /\ h_found h = true /\ exists x l c, is_goal p x = true /\ plan_in (h_graph h) l x c /\
     exists time, h_scores h = [(time, width, Some c)]).

Definition closed_under (L : list St) : Prop :=
  In s0 L /\ NoDup L /\ forall t a, In t L -> In a (apps p t) -> In (next p t a) L.

Definition weight (L : list St) (closed : list K) : nat :=
  list_sum (map (fun t => if pymem (key p t) closed then 0 else length (apps p t)) L).

Lemma pop_in : forall (g : graph) queue x queue1, heap_pop (after o g) queue = Some (x, queue1) -> Permutation queue (x :: queue1).
Proof. intros g queue x queue1 E. pose proof (heap_pop_perm (after o g) queue) as P. rewrite E in P. apply P. Qed.

Lemma loop_run : (forall n, budget <= clock n) -> forall width fuel h queue tuples pr closed gen,
  inv width (h_graph h) queue tuples pr closed gen -> h_found h = false -> h_scores h = [] ->
  (exists ok pr' h', loop fuel p o clock budget width r h queue tuples pr closed = Ok (ok, pr', h') /\ ended width ok pr' h') \/
  (loop fuel p o clock budget width r h queue tuples pr closed = Err OutOfFuel /\
   forall L, closed_under L -> incl queue (map (key p) L) -> fuel <= length queue + weight L closed).
Proof.
  intros Late width. induction fuel as [|fuel IH]; intros h queue tuples pr closed gen I Nf Ns.
  { right. split; [reflexivity|]. intros; lia. }
  cbn [loop]. destruct (heap_pop (after o (h_graph h)) queue) as [[x queue1]|] eqn:Hp.
  2:{ left. rewrite Nf. exists false, pr, h. split; [reflexivity|]. left. split; auto. split; auto. split; auto. split; [apply I|].
      split; [intros _; apply I|]. assert (queue = []).
      { pose proof (heap_pop_perm (after o (h_graph h)) queue) as P. rewrite Hp in P. exact P. }
      subst queue. eapply closed_all; eauto. }
  apply pop_in in Hp as P. pose proof (Permutation_length P) as PL. cbn in PL.
  assert (Iq1 : forall k, In k queue1 -> In k queue).
  { intros k Ik. apply (Permutation_in _ (Permutation_sym P)). now right. }
  assert (Ix : In x queue) by (apply (Permutation_in _ (Permutation_sym P)); now left).
  assert (Mx : dmem (h_graph h) x = true) by (apply (i_queue _ _ _ _ _ _ _ I); exact Ix).
  destruct (pymem x closed) eqn:Ex.
  - apply pymem_true in Ex.
    assert (I1 : inv width (h_graph h) queue1 tuples pr closed gen).
    { destruct I. constructor; auto. intros C s Is. destruct (i_cover0 C s Is) as [H|H]; auto.
      apply (Permutation_in _ P) in H as [ <- |H]; auto. }
    destruct (IH h queue1 tuples pr closed gen I1 Nf Ns) as [H|[H1 H2]]; [left; exact H|right].
    split; auto. intros L HL Iq. specialize (H2 L HL (fun k Ik => Iq k (Iq1 k Ik))). lia.
  - assert (Nx : ~ In x closed) by exact (proj1 (pymem_false x closed) Ex).
    destruct (g_state _ _ _ (i_good _ _ _ _ _ _ _ I) x Mx) as (sx & Es & Ek). rewrite Es. subst x.
    rewrite (proj2 (i_stale _ _ _ _ _ _ _ I (key p sx))), orb_false_r.
    destruct (is_goal p sx) eqn:Gx.
    + left. destruct (record_first _ sx (i_good _ _ _ _ _ _ _ I) (i_stale _ _ _ _ _ _ _ I) Mx) as (g' & l & c & R1 & R2 & R3).
      rewrite Nf, R1. cbn [bind]. destruct (Nat.ltb_spec (clock (h_ticks h)) budget) as [X|_]; [specialize (Late (h_ticks h)); lia|].
      eexists true, pr, _. split; [reflexivity|]. right. cbn [h_found h_graph h_scores]. split; auto. split; auto.
      exists sx, l, c. split; auto. split; auto. rewrite Ns, R3. cbn. eauto.
    + assert (Iclosed : forall gen', incl gen gen' ->
        (is_terminal p sx = false -> forall a, In a (apps p sx) -> In (next p sx a) gen') ->
        forall k, In k (key p sx :: closed) -> exists s, key p s = k /\ is_goal p s = false /\
         (is_terminal p s = false -> forall a, In a (apps p s) -> In (next p s a) gen')).
      { intros gen' Ig Hn k [ <- |Ik]; [exists sx; auto|].
        destruct (i_closed _ _ _ _ _ _ _ I k Ik) as (s & H1 & H2 & H3). exists s. auto 8. }
      assert (Wt : forall L, closed_under L -> In (key p sx) (map (key p) L) ->
        In sx L /\ weight L (key p sx :: closed) + length (apps p sx) = weight L closed).
      { intros L (H1 & H2 & H3) IL. apply in_map_iff in IL as (t & Et & It). apply KI in Et. subst t. split; auto.
        unfold weight. apply (weight_close (key p) (fun t => length (apps p t))); auto.
        apply FinFun.Injective_map_NoDup; auto. }
      destruct (is_terminal p sx) eqn:Tx.
      * assert (I1 : inv width (h_graph h) queue1 tuples pr (key p sx :: closed) gen).
        { pose proof (Iclosed gen (incl_refl _)) as Ic. destruct I. constructor; auto.
          - apply Ic. congruence.
          - intros C s Is. destruct (i_cover0 C s Is) as [H|H]; [|right; now right].
            apply (Permutation_in _ P) in H as [H|H]; auto. right. now left. }
        destruct (IH h queue1 tuples pr (key p sx :: closed) gen I1 Nf Ns) as [H|[H1 H2]]; [left; exact H|right].
        split; auto. intros L HL Iq. specialize (H2 L HL (fun k Ik => Iq k (Iq1 k Ik))).
        destruct (Wt L HL (Iq _ Ix)) as [_ W]. lia.
      * destruct (fold_inv width (key p sx :: closed) sx (apps p sx)
          {| s_graph := h_graph h; s_queue := queue1; s_tuples := tuples; s_pruned := pr |} gen)
          as (w & gen' & E & H1 & H2 & H3 & H4 & H5 & H6 & H7 & H8 & H9 & H10); cbn [s_graph s_queue s_tuples s_pruned]; auto.
        -- apply I.
        -- apply I.
        -- intros k Ik. apply (i_queue _ _ _ _ _ _ _ I). auto.
        -- intros s Is. apply (i_gen _ _ _ _ _ _ _ I). exact Is.
        -- apply I.
        -- intros C s Is. destruct (i_cover _ _ _ _ _ _ _ I C s Is) as [H|H]; [|right; now right].
           apply (Permutation_in _ P) in H as [H|H]; auto. right. now left.
        -- apply incl_refl.
        -- rewrite E. cbn [bind]. cbn [s_graph s_queue s_tuples s_pruned] in *.
           assert (I1 : inv width (s_graph w) (s_queue w) (s_tuples w) (s_pruned w) (key p sx :: closed) gen').
           { constructor; auto. apply H7. apply I. }
           destruct (IH {| h_graph := s_graph w; h_found := h_found h; h_scores := h_scores h; h_ticks := h_ticks h |}
                      (s_queue w) (s_tuples w) (s_pruned w) (key p sx :: closed) gen' I1 Nf Ns) as [H|[F1 F2]]; [left; exact H|right].
           split; [exact F1|]. intros L HL Iq. destruct (Wt L HL (Iq _ Ix)) as [IL W].
           assert (fuel <= length (s_queue w) + weight L (key p sx :: closed)); [|lia].
           apply F2; auto. intros k Ik. destruct (H10 k Ik) as [Ik1|(a & Ia & ->)]; [auto|].
           apply in_map. apply HL; auto.
Qed.

(** *** one width *)
Definition before (h : @shared St A K) : Prop :=
  h_found h = false /\ h_scores h = [] /\ (h_graph h = [] \/ (good (h_graph h) /\ stale (h_graph h))).

Lemma start_good : forall h g1 new, before h -> emplace p (h_graph h) s0 = (g1, new) ->
  let g2 := dset g1 r (set_root (at_ g1 r)) in good g2 /\ stale g2 /\ stale g1.
Proof.
  intros h g1 new (_ & _ & B) E. destruct B as [B|[G Sg]].
  - rewrite B in E. unfold emplace in E. cbn [dmem dget] in E. injection E as <- <-. cbn [dset].
    assert (A0 : forall (n : @node St A K) k, at_ [(r, n)] k = if pyeqb k r then n else new_node None).
    { intros n k. unfold at_. cbn [dget]. now destruct (pyeqb k r). }
    assert (D0 : forall (n : @node St A K) k, dmem [(r, n)] k = pyeqb k r).
    { intros n k. unfold dmem. cbn [dget]. now destruct (pyeqb k r). }
    rewrite A0, !pyeqb_refl. cbn [set_root new_node]. set (n := set_root _).
    assert (Sn : forall k, best_action (at_ [(r, n)] k) = None /\ solved (at_ [(r, n)] k) = false).
    { intros k. rewrite A0. destruct (pyeqb k r); auto. }
    assert (Kr : forall k, dmem [(r, n)] k = true -> k = r).
    { intros k M. rewrite D0 in M. destruct (pyeqb_spec k r); congruence. }
    assert (Ar : at_ [(r, n)] r = n) by (rewrite A0, pyeqb_refl; reflexivity).
    assert (Mr : dmem [(r, n)] r = true) by (rewrite D0; apply pyeqb_refl).
    split; [|split; [exact Sn|]].
    + constructor.
      * intros k M. rewrite (Kr k M), Ar. exists s0. auto.
      * exact Mr.
      * rewrite Ar. reflexivity.
      * intros k M. rewrite (Kr k M). exists [], 0%Z. constructor. exact Mr.
      * intros k M. rewrite (Kr k M). exists 0%Z. rewrite Ar. split; [reflexivity|]. split; [lia|]. congruence.
    + intros k. rewrite A0. destruct (pyeqb k r); auto.
  - unfold emplace in E. rewrite (g_root _ _ _ G) in E. injection E as <- <-.
    assert (Sim : similar (h_graph h) (dset (h_graph h) r (set_root (at_ (h_graph h) r)))).
    { apply similar_set; [apply G|]. unfold vw. cbn. now rewrite (g_zero _ _ _ G). }
    split; [eapply good_similar; eauto|]. split; [|exact Sg].
    intros k. destruct (Sim k) as [_ Ev]. unfold vw in Ev. destruct (Sg k). split; congruence.
Qed.

Lemma width_run : (forall n, budget <= clock n) -> is_goal p s0 = false -> forall width fuel h, before h ->
  (exists ok pr h', width_solve fuel p o clock budget width s0 h = Ok (ok, pr, h') /\ ended width ok pr h') \/
  (width_solve fuel p o clock budget width s0 h = Err OutOfFuel /\
   forall L, closed_under L -> fuel <= 1 + list_sum (map (fun t => length (apps p t)) L)).
Proof.
  intros Late G0 width fuel h B. unfold width_solve. destruct (emplace p (h_graph h) s0) as [g1 new] eqn:E1.
  destruct (start_good h g1 new B E1) as (G2 & S2 & S1). cbv zeta.
  rewrite (proj2 (S1 r)), G0. cbn [orb].
  set (g2 := dset g1 r (set_root (at_ g1 r))) in *.
  destruct (is_terminal p s0) eqn:T0.
  - left. eexists false, false, _. split; [reflexivity|]. left. cbn [h_found h_graph h_scores]. split; auto. split; [apply B|].
    split; [apply B|]. split; [exact S1|]. split; [discriminate|]. intros _ s (l & c & Ex).
    inversion Ex; subst; [exact G0|congruence].
  - assert (M2 : dmem g2 r = true) by apply G2.
    destruct (g_state _ _ _ G2 r M2) as (s' & Es & Ek). apply KI in Ek. subst s'. rewrite Es.
    destruct (novelty_ok width (repeat [] width) [] (features p s0) (table_start width)) as (nov & tuples & En & Tb & _).
    rewrite En. cbn [bind]. set (g3 := dset g2 r _).
    assert (Sim : similar g2 g3) by (apply similar_set; auto).
    assert (G3 : good g3) by (eapply good_similar; eauto).
    assert (S3 : stale g3).
    { intros k. destruct (Sim k) as [_ Ev]. unfold vw in Ev. destruct (S2 k). split; congruence. }
    assert (Q : heap_push (after o g2) [] r = [r]) by reflexivity. rewrite Q.
    assert (M3 : dmem g3 r = true) by apply G3.
    assert (I : inv width g3 [r] tuples false [] [s0]).
    { constructor; auto.
      - intros k [ <- |[]]. exact M3.
      - intros s [ <- |[]]. split; [exists [], 0%Z; constructor|exact M3].
      - now left.
      - intros k [].
      - intros _ s [ <- |[]]. left. now left. }
    destruct (loop_run Late width fuel
       {| h_graph := g3; h_found := h_found h; h_scores := h_scores h; h_ticks := h_ticks h |} [r] tuples false [] [s0] I)
       as [H|[F1 F2]]; [apply B|apply B|left; exact H|right].
    split; [exact F1|]. intros L HL. specialize (F2 L HL). unfold weight in F2. cbn [pymem existsb length] in F2.
    apply F2. intros k [ <- |[]]. apply in_map. apply HL.
Qed.

(** *** the widths in turn *)
Lemma widths_run : (forall n, budget <= clock n) -> is_goal p s0 = false -> forall fuel ws h, before h ->
  (exists ok h', widths fuel p o clock budget s0 h ws = Ok (ok, h') /\
    ((ok = true /\ exists x l c, is_goal p x = true /\ plan_in (h_graph h') l x c /\
        exists time width, In width ws /\ h_scores h' = [(time, width, Some c)]) \/
     (ok = false /\ stale (h_graph h') /\
        ((exists width, In width ws /\ full width) -> forall s, reach s -> is_goal p s = false)))) \/
  (widths fuel p o clock budget s0 h ws = Err OutOfFuel /\
   forall L, closed_under L -> fuel <= 1 + list_sum (map (fun t => length (apps p t)) L)).
Proof.
  intros Late G0 fuel. induction ws as [|w ws IH]; intros h B.
  - left. exists false, h. split; [reflexivity|]. right. split; auto. split.
    + destruct B as (_ & _ & [E|[_ E]]); [|exact E]. rewrite E. intros k. split; reflexivity.
    + intros (w & [] & _).
  - cbn [widths]. destruct (width_run Late G0 w fuel h B) as [(ok & pr & h1 & E & D)|[E F]].
    2:{ right. rewrite E. split; [reflexivity|exact F]. }
    rewrite E. cbn [bind]. destruct D as [(-> & D1 & D2 & D3 & D4 & D5)|(-> & D1 & x & l & c & D2 & D3 & time & D4)].
    + rewrite D1. destruct pr; cbn [negb].
      * destruct (IH h1) as [(ok & h' & E' & H)|[E' F]]; [split; auto|left|right; auto].
        exists ok, h'. split; [exact E'|]. destruct H as [(-> & x & l & c & H1 & H2 & t & w' & H3 & H4)|(-> & H1 & H2)].
        -- left. split; auto. exists x, l, c. split; auto. split; auto. exists t, w'. split; [now right|auto].
        -- right. split; auto. split; auto. intros (w' & [ <- |Iw] & Fw); [apply D5; now right|apply H2; eauto].
      * left. exists false, h1. split; [reflexivity|]. right. split; auto.
    + destruct (Nat.ltb_spec (clock (h_ticks h1)) budget) as [X|_]; [specialize (Late (h_ticks h1)); lia|].
      left. eexists true, _. split; [reflexivity|]. left. split; auto. cbn [h_graph h_scores]. exists x, l, c. split; auto. split; auto.
      exists time, w. split; [now left|auto].
Qed.

Lemma solve_run : (forall n, budget <= clock n) -> is_goal p s0 = false -> forall fuel,
  (exists ok g scores, solve fuel p o clock budget [] s0 = Ok (ok, g, scores) /\
    ((ok = true /\ exists x l c, is_goal p x = true /\ plan_in g l x c /\
        exists time width, 1 <= width <= length (features p s0) /\ scores = [(time, width, Some c)]) \/
     (ok = false /\ stale g /\
        (full (length (features p s0)) -> forall s, reach s -> is_goal p s = false)))) \/
  (solve fuel p o clock budget [] s0 = Err OutOfFuel /\
   forall L, closed_under L -> fuel <= 1 + list_sum (map (fun t => length (apps p t)) L)).
Proof.
  intros Late G0 fuel. unfold solve.
  destruct (widths_run Late G0 fuel (seq 1 (length (features p s0)))
     {| h_graph := []; h_found := false; h_scores := []; h_ticks := 0 |}) as [(ok & h' & E & H)|[E F]].
  - split; [reflexivity|]. split; [reflexivity|]. now left.
  - left. rewrite E. cbn [bind]. exists ok, (h_graph h'), (h_scores h'). split; [reflexivity|].
    destruct H as [(-> & x & l & c & H1 & H2 & t & w' & H3 & H4)|(-> & H1 & H2)].
    + left. split; auto. exists x, l, c. split; auto. split; auto. exists t, w'. split; auto. apply in_seq in H3. lia.
    + right. split; auto. split; auto. intros Fl. apply H2. exists (length (features p s0)). split; auto.
      apply in_seq. destruct Fl as (_ & _ & ?). lia.
  - right. rewrite E. split; [reflexivity|exact F].
Qed.
End Search.
