(** Invariants of the Best First Width Search of BfwsModel.v. *)
From Coq Require Import List Bool Arith ZArith Lia Permutation.
From Verif Require Import Py PyList PyMore CppAstarModel CppHeapProofs BfwsModel BfwsSpec.
From Verif Require IwSearchProofs.
Import ListNotations.
Open Scope nat_scope.

(** *** novelty *)
Section Novelty.
Context {V : Type} {EV : PyEq V}.

Lemma insert_pairs_spec : forall (f : list V) i pairs pairs' n, insert_pairs i f pairs = (pairs', n) ->
  exists places, n = length places /\ NoDup places /\
    (forall j, In j places <-> exists v, i <= j /\ nth_error f (j - i) = Some v /\ ~ In (j, v) pairs) /\
    (forall j v, In (j, v) pairs' <-> In (j, v) pairs \/ (i <= j /\ nth_error f (j - i) = Some v)).
Proof.
  induction f as [|v f IH]; intros i pairs pairs' n E; cbn [insert_pairs] in E.
  - injection E as <- <-. exists []. split; auto. split; [constructor|]. split.
    + intros j. split; [intros []|]. intros (v & _ & N & _). destruct (j - i); discriminate.
    + intros j v. split; auto. intros [H|[_ H]]; auto. destruct (j - i); discriminate.
  - assert (Sh : forall j (P : V -> Prop), (exists u, i <= j /\ nth_error (v :: f) (j - i) = Some u /\ P u) <->
       (j = i /\ P v) \/ (exists u, S i <= j /\ nth_error f (j - S i) = Some u /\ P u)).
    { intros j P. split.
      - intros (u & L & N & H). destruct (Nat.eq_dec j i) as [ -> |Nj].
        + rewrite Nat.sub_diag in N. cbn in N. injection N as ->. auto.
        + right. exists u. split; [lia|]. split; auto. replace (j - i) with (S (j - S i)) in N by lia. exact N.
      - intros [[ -> H]|(u & L & N & H)].
        + exists v. rewrite Nat.sub_diag. auto.
        + exists u. split; [lia|]. split; auto. replace (j - i) with (S (j - S i)) by lia. exact N. }
    assert (Shu : forall j u, (i <= j /\ nth_error (v :: f) (j - i) = Some u) <->
       (j = i /\ u = v) \/ (S i <= j /\ nth_error f (j - S i) = Some u)).
    { intros j u. pose proof (Sh j (fun w => w = u)) as X. split.
      - intros [L N]. destruct (proj1 X) as [[ -> H]|(w & L' & N' & <- )]; [exists u; auto|left; auto|right; auto].
      - intros H. destruct (proj2 X) as (w & L & N & <- ); [|auto]. destruct H as [[ -> -> ]|[L N]]; [left; auto|right; exists u; auto]. }
    destruct (pymem (i, v) pairs) eqn:M.
    + apply pymem_true in M. destruct (IH _ _ _ _ E) as (places & P1 & P2 & P3 & P4). exists places.
      split; auto. split; auto. split.
      * intros j. rewrite P3, (Sh j (fun w => ~ In (j, w) pairs)). split; auto. intros [[ -> H]|H]; [contradiction|auto].
      * intros j u. rewrite P4, Shu. split; [tauto|]. intros [H|[[ -> -> ]|H]]; auto.
    + assert (M' : ~ In (i, v) pairs) by exact (proj1 (pymem_false _ _) M).
      destruct (insert_pairs (S i) f (pairs ++ [(i, v)])) as [pairs1 n1] eqn:E1. injection E as <- <-.
      destruct (IH _ _ _ _ E1) as (places & P1 & P2 & P3 & P4). exists (i :: places).
      assert (Ap : forall j u, S i <= j -> In (j, u) (pairs ++ [(i, v)]) <-> In (j, u) pairs).
      { intros j u L. rewrite in_app_iff. split; auto. intros [H|[H|[]]]; auto. injection H as -> _. lia. }
      split; [cbn; congruence|]. split; [|split].
      * constructor; auto. intros I. apply P3 in I as (u & L & _). lia.
      * intros j. cbn [In]. rewrite P3, (Sh j (fun w => ~ In (j, w) pairs)). split.
        -- intros [ <- |(u & L & N & H)]; [left; auto|right]. exists u. split; auto. split; auto. rewrite <- Ap; auto.
        -- intros [[ -> _]|(u & L & N & H)]; [now left|right]. exists u. split; auto. split; auto. rewrite Ap; auto.
      * intros j u. rewrite P4, Shu, in_app_iff. cbn [In]. split.
        -- intros [[H|[H|[]]]|H]; auto. injection H as <- <-. auto.
        -- intros [H|[[ -> -> ]|H]]; auto.
Qed.

(** The map after the vectors of [seen]. *)
Definition mapped (m : list (Z * list (nat * V))) (seen : list (Z * list V)) : Prop :=
  (forall h, dget m h = None -> forall f', ~ In (h, f') seen) /\
  (forall h pairs, dget m h = Some pairs -> (exists f', In (h, f') seen) /\
     forall j v, In (j, v) pairs <-> exists f', In (h, f') seen /\ nth_error f' j = Some v).

Lemma mapped_nil : mapped [] [].
Proof. split; [intros h _ f' []|]. intros h pairs E. discriminate. Qed.

Lemma novelty_ok : forall m seen h (f : list V) nov m', mapped m seen -> novelty m h f = (nov, m') ->
  is_rank h f seen nov /\ mapped m' ((h, f) :: seen).
Proof.
  intros m seen h f nov m' [M1 M2] E. unfold novelty in E.
  assert (Keep : forall pairs', (forall j v, In (j, v) pairs' <-> exists f', In (h, f') ((h, f) :: seen) /\ nth_error f' j = Some v) ->
    mapped (dset m h pairs') ((h, f) :: seen)).
  { intros pairs' Hp. split.
    - intros h' D f' I. rewrite dget_dset in D. destruct (pyeqb_spec h h') as [Eh|Nh]; [discriminate|].
      destruct I as [I|I]; [congruence|]. exact (M1 _ D _ I).
    - intros h' q D. rewrite dget_dset in D. destruct (pyeqb_spec h h') as [Eh|Nh].
      + subst h'. injection D as <-. split; [exists f; now left|]. exact Hp.
      + destruct (M2 _ _ D) as [(f' & I) Hq]. split; [exists f'; now right|]. intros j v. rewrite Hq. split.
        * intros (g & I' & N). exists g. split; auto. now right.
        * intros (g & [I'|I'] & N); [congruence|eauto]. }
  destruct (dget m h) as [pairs|] eqn:D.
  - destruct (insert_pairs 0 f pairs) as [pairs' n] eqn:Ei. injection E as <- <-.
    destruct (insert_pairs_spec _ _ _ _ _ Ei) as (places & P1 & P2 & P3 & P4).
    destruct (M2 _ _ D) as [Ex Hp].
    assert (NP : forall i, In i places <-> new_place h f seen i).
    { intros i. rewrite P3. unfold new_place. split.
      - intros (v & _ & N & H). rewrite Nat.sub_0_r in N. split; [apply nth_error_Some; congruence|].
        intros f' I' X. apply H. apply Hp. exists f'. split; auto. congruence.
      - intros [L H]. destruct (nth_error f i) as [v|] eqn:N; [|apply nth_error_None in N; lia].
        exists v. rewrite Nat.sub_0_r. split; [lia|]. split; auto. rewrite Hp. intros (f' & I' & N'). exact (H f' I' N'). }
    split.
    + right. subst n. destruct places as [|i places]; [left|right]; cbn [length Nat.eqb].
      * split; auto. split; auto. intros i H. now apply NP in H.
      * split; auto. exists (i :: places). split; [discriminate|]. auto.
    + apply Keep. intros j v. rewrite P4, Hp, Nat.sub_0_r. split.
      * intros [(f' & I' & N)|[_ N]]; [exists f'; split; auto; now right|exists f; split; auto; now left].
      * intros (f' & [I'|I'] & N); [|left; eauto]. injection I' as <-. right. split; [lia|auto].
  - injection E as <- <-. split; [left; split; auto; exact (M1 _ D)|].
    apply Keep. destruct (insert_pairs 0 f []) as [pairs' n] eqn:Ei.
    destruct (insert_pairs_spec _ _ _ _ _ Ei) as (places & _ & _ & _ & P4). cbn [fst].
    intros j v. rewrite P4, Nat.sub_0_r. split.
    + intros [[]|[_ N]]. exists f. split; auto. now left.
    + intros (f' & [I'|I'] & N); [|destruct (M1 _ D _ I')]. injection I' as <-. right. split; [lia|auto].
Qed.
End Novelty.

Section Basics.
Context {St A K : Type} {EK : PyEq K}.
Notation graph := (@graph St A K).

Lemma at_get : forall (g : graph) k n, dget g k = Some n -> at_ g k = n.
Proof. intros g k n E. unfold at_. now rewrite E. Qed.
Lemma at_dset : forall (g : graph) k n t, at_ (dset g k n) t = if pyeqb k t then n else at_ g t.
Proof. intros. unfold at_. rewrite dget_dset. now destruct (pyeqb k t). Qed.
Lemma dmem_dset : forall (g : graph) k n t, dmem (dset g k n) t = pyeqb k t || dmem g t.
Proof. intros. unfold dmem. rewrite dget_dset. now destruct (pyeqb k t). Qed.
Lemma dmem_get : forall (g : graph) k, dmem g k = true <-> dget g k = Some (at_ g k).
Proof. intros. unfold dmem, at_. destruct (dget g k); split; congruence. Qed.
Lemma dset_length_in : forall (g : graph) x n, dmem g x = true -> length (dset g x n) = length g.
Proof.
  induction g as [|[k w] g IH]; intros x n M; [discriminate|]. cbn. unfold dmem in M. cbn in M.
  destruct (pyeqb x k); cbn; auto.
Qed.
End Basics.

Section Proofs.
Context {St A V K : Type} {EV : PyEq V} {EK : PyEq K}.
Variable p : @problem St A V K.
Variable s0 : St.
Notation graph := (@graph St A K).
Notation r := (key p s0).

Lemma exec_app : forall s l1 m c1, exec p s l1 m c1 -> forall l2 g c2, exec p m l2 g c2 ->
  exec p s (l1 ++ l2) g (c1 + c2)%Z.
Proof.
  induction 1 as [s|s a l s' c I E IH]; intros l2 g c2 E2; [exact E2|].
  cbn [app]. rewrite <- Z.add_assoc. constructor; auto.
Qed.
Lemma exec_snoc : forall s l m c a, exec p s l m c -> In a (apps p m) ->
  exec p s (l ++ [a]) (next p m a) (c + cost p m a (next p m a))%Z.
Proof.
  intros s l m c a E I. eapply exec_app; eauto.
  replace (cost p m a (next p m a)) with (cost p m a (next p m a) + 0)%Z by lia. constructor; auto. constructor.
Qed.
Lemma exec_cost : forall acts s t c t' c', exec p s acts t c -> exec p s acts t' c' -> t' = t /\ c' = c.
Proof.
  induction acts as [|a acts IH]; intros s t c t' c' E E'.
  - inversion E; inversion E'; subst; auto.
  - inversion E as [|? ? ? ? c1 _ X]; inversion E' as [|? ? ? ? c2 _ Y]; subst.
    destruct (IH _ _ _ _ _ X Y) as [-> ->]. auto.
Qed.

Definition reach (s : St) : Prop := exists l c, exec p s0 l s c.

Hypothesis KI : forall s t, key p s = key p t -> s = t.

(** *** the tree of parents *)
Inductive chain (g : graph) : K -> list (St * A) -> Z -> Prop :=
| ch_root : dmem g r = true -> chain g r [] 0%Z
| ch_step : forall cur sp a l c, chain g (key p sp) l c -> cur <> r -> dmem g cur = true ->
    best_parent (at_ g cur) = Some (key p sp, a, cost p sp a (next p sp a)) ->
    In a (apps p sp) -> key p (next p sp a) = cur ->
    chain g cur (l ++ [(sp, a)]) (c + cost p sp a (next p sp a))%Z.

Definition keys (l : list (St * A)) : list K := map (fun e => key p (fst e)) l.

Lemma chain_mem : forall g k l c, chain g k l c -> dmem g k = true /\ Forall (fun t => dmem g t = true) (keys l).
Proof.
  induction 1 as [M|cur sp a l c Ch [IH1 IH2] N M B Ia E]; [split; [auto|constructor]|].
  split; auto. unfold keys in *. rewrite map_app. apply Forall_app. split; auto. constructor; [exact IH1|constructor].
Qed.

Lemma chain_fun : forall g k l c, chain g k l c -> forall l' c', chain g k l' c' -> l' = l /\ c' = c.
Proof.
  induction 1 as [M|cur sp a l c Ch IH N M B Ia E]; intros l' c' Ch'.
  - inversion Ch'; subst; auto. congruence.
  - inversion Ch' as [M'|cur' sp' a' l1 c1 Ch1 N' M' B' Ia' E']; subst; [congruence|].
    rewrite B in B'. injection B' as B1 B2 B3. apply KI in B1. subst sp' a'.
    destruct (IH _ _ Ch1) as [-> ->]. auto.
Qed.

Lemma chain_prefix : forall g cur l c, chain g cur l c -> forall l1 s a l2, l = l1 ++ (s, a) :: l2 ->
  exists c1, chain g (key p s) l1 c1.
Proof.
  induction 1 as [M|cur sp b l c Ch IH N M B Ia E]; intros l1 s a l2 El; [destruct l1; discriminate|].
  destruct l2 as [|e l2 _] using rev_ind.
  - apply app_inj_tail in El as [-> El]. injection El as -> ->. eauto.
  - rewrite app_comm_cons, app_assoc in El. apply app_inj_tail in El as [-> _]. eauto.
Qed.

Lemma chain_fresh : forall g k l c, chain g k l c -> ~ In k (keys l).
Proof.
  intros g k l c Ch I. apply in_map_iff in I as ((s & a) & E & I). cbn in E.
  apply in_split in I as (l1 & l2 & ->). destruct (chain_prefix _ _ _ _ Ch _ _ _ _ eq_refl) as (c1 & Ch1).
  rewrite E in Ch1. destruct (chain_fun _ _ _ _ Ch _ _ Ch1) as [E1 _].
  apply (f_equal (@length _)) in E1. rewrite app_length in E1. cbn in E1. lia.
Qed.

Lemma chain_NoDup : forall g k l c, chain g k l c -> NoDup (keys l).
Proof.
  induction 1 as [M|cur sp a l c Ch IH N M B Ia E]; [constructor|].
  unfold keys in *. rewrite map_app. apply NoDup_snoc; auto. cbn. exact (chain_fresh _ _ _ _ Ch).
Qed.

Lemma chain_length : forall (g : graph) k l c, chain g k l c -> length l <= length g.
Proof.
  intros g k l c Ch. unfold keys. rewrite <- (map_length (fun e => key p (fst e)) l), <- (map_length fst g).
  apply NoDup_incl_length; [exact (chain_NoDup _ _ _ _ Ch)|].
  destruct (chain_mem _ _ _ _ Ch) as [_ F]. intros t I. apply dmem_true.
  exact (proj1 (Forall_forall _ _) F t I).
Qed.

Lemma chain_exec : forall g k l c, chain g k l c -> forall s, key p s = k -> exec p s0 (map snd l) s c.
Proof.
  induction 1 as [M|cur sp a l c Ch IH N M B Ia E]; intros s Es.
  - apply KI in Es. subst. constructor.
  - rewrite map_app. cbn [map snd]. rewrite <- E in Es. apply KI in Es. subst s. apply exec_snoc; auto.
Qed.

(** Chains through unchanged nodes stay. *)
Lemma chain_stable : forall (g g' : graph) closed, (forall k, dmem g k = true -> dmem g' k = true) ->
  (forall t, In t closed -> best_parent (at_ g' t) = best_parent (at_ g t)) ->
  forall k l c, chain g k l c -> incl (keys l) closed -> best_parent (at_ g' k) = best_parent (at_ g k) -> chain g' k l c.
Proof.
  intros g g' closed Hm Hb k l c Ch. induction Ch as [M|cur sp a l c Ch IH N M B Ia E]; intros Il Bk; [constructor; auto|].
  unfold keys in Il. rewrite map_app in Il. constructor; auto; [|congruence].
  apply IH; [intros t It; apply Il; apply in_app_iff; now left|]. apply Hb. apply Il. apply in_app_iff. right. now left.
Qed.

(** *** the search *)
Definition stale (g : graph) : Prop := forall k, best_action (at_ g k) = None /\ solved (at_ g k) = false.

Record core (g : graph) (queue closed : list K) : Prop := {
  c_state : forall k, dmem g k = true -> exists s, state (at_ g k) = Some s /\ key p s = k /\ reach s;
  c_stale : stale g;
  c_root : dmem g r = true;
  c_chain : forall k, dmem g k = true -> exists l c, chain g k l c /\ incl (keys l) closed;
  c_mem : forall k, In k closed -> dmem g k = true;
  c_queue : forall k, In k queue -> dmem g k = true;
  c_open : forall k, dmem g k = true -> ~ In k closed -> In k queue }.

Lemma state_at : forall g queue closed y, core g queue closed -> dmem g (key p y) = true -> state (at_ g (key p y)) = Some y.
Proof. intros g queue closed y C M. destruct (c_state _ _ _ C _ M) as (s & E & Ek & _). apply KI in Ek. now subst. Qed.

Lemma expand_core : forall closed sx a (w : @search St A V K),
  core (s_graph w) (s_queue w) closed -> In (key p sx) closed -> In r closed -> In a (apps p sx) ->
  exists w', expand p closed (key p sx) sx w a = Ok w' /\ core (s_graph w') (s_queue w') closed /\
    (forall k, dmem (s_graph w) k = true -> dmem (s_graph w') k = true) /\
    dmem (s_graph w') (key p (next p sx a)) = true /\
    length (s_queue w') <= S (length (s_queue w)) /\
    (forall k, In k (s_queue w') -> In k (s_queue w) \/ k = key p (next p sx a)).
Proof.
  intros closed sx a w C Ix Ir Ia. unfold expand. cbv zeta. set (y := next p sx a). set (ky := key p y).
  set (g := s_graph w) in *. unfold emplace. fold ky.
  destruct (pymem ky closed) eqn:Pc.
  - apply pymem_true in Pc. rewrite (c_mem _ _ _ C _ Pc). eexists. split; [reflexivity|]. cbn.
    split; [exact C|]. split; auto. split; [apply (c_mem _ _ _ C _ Pc)|]. split; auto.
  - assert (Ny : ~ In ky closed) by exact (proj1 (pymem_false ky closed) Pc).
    assert (Nr : ky <> r) by (intros E; apply Ny; now rewrite E).
    assert (Nx : ky <> key p sx) by (intros E; apply Ny; now rewrite E).
    assert (Mx : dmem g (key p sx) = true) by (apply (c_mem _ _ _ C); auto).
    destruct (c_state _ _ _ C _ Mx) as (sx' & _ & Ekx & Rx). apply KI in Ekx. subst sx'.
    assert (Ry : reach y). { destruct Rx as (l & c & Ex). eexists (l ++ [a]), _. apply exec_snoc; eauto. }
    (* the graph with the neighbour, and what it says *)
    assert (H : exists g1 new, (if dmem g ky then (g, false) else (dset g ky (new_node (Some y)), true)) = (g1, new) /\
      (forall k, k <> ky -> at_ g1 k = at_ g k) /\ (forall k, k <> ky -> dmem g1 k = dmem g k) /\ dmem g1 ky = true /\
      state (at_ g1 ky) = Some y /\ best_action (at_ g1 ky) = None /\ solved (at_ g1 ky) = false /\
      (new = false -> g1 = g)).
    { destruct (dmem g ky) eqn:My.
      - exists g, false. split; auto. split; auto. split; auto. split; auto. split; [eapply state_at; eauto|].
        split; [apply (c_stale _ _ _ C)|]. split; [apply (c_stale _ _ _ C)|]. auto.
      - exists (dset g ky (new_node (Some y))), true. split; auto.
        assert (Ay : at_ (dset g ky (@new_node St A K (Some y))) ky = new_node (Some y)) by (rewrite at_dset, pyeqb_refl; reflexivity).
        split; [intros k Nk; rewrite at_dset; destruct (pyeqb_spec ky k); congruence|].
        split; [intros k Nk; rewrite dmem_dset; destruct (pyeqb_spec ky k); [congruence|reflexivity]|].
        split; [rewrite dmem_dset, pyeqb_refl; reflexivity|]. rewrite Ay. repeat split. discriminate. }
    destruct H as (g1 & new & -> & O1 & D1 & M1 & S1 & B1 & V1 & Same). rewrite S1.
    set (c := cost p sx a y). set (upd := new || _).
    set (n2 := if upd then _ else _). destruct (novelty (s_map w) (heur p y) (features p y)) as [nov m] eqn:En.
    set (g2 := dset g1 ky (set_rank n2 (heur p y) nov)).
    eexists. split; [reflexivity|]. cbn [s_graph s_queue].
    assert (N2 : state n2 = Some y /\ best_action n2 = None /\ solved n2 = false).
    { unfold n2. destruct upd; auto. }
    assert (Ay : at_ g2 ky = set_rank n2 (heur p y) nov) by (unfold g2; rewrite at_dset, pyeqb_refl; reflexivity).
    assert (Oa : forall k, k <> ky -> at_ g2 k = at_ g k).
    { intros k Nk. unfold g2. rewrite at_dset. destruct (pyeqb_spec ky k); [congruence|auto]. }
    assert (Od : forall k, k <> ky -> dmem g2 k = dmem g k).
    { intros k Nk. unfold g2. rewrite dmem_dset. destruct (pyeqb_spec ky k); [congruence|]. cbn. auto. }
    assert (Dy : dmem g2 ky = true) by (unfold g2; rewrite dmem_dset, pyeqb_refl; reflexivity).
    assert (Mono : forall k, dmem g k = true -> dmem g2 k = true).
    { intros k M. destruct (py_dec k ky) as [E|Nk]; [now rewrite E|]. now rewrite Od. }
    assert (Bc : forall t, In t closed -> best_parent (at_ g2 t) = best_parent (at_ g t)).
    { intros t It. rewrite Oa; auto. intros E. apply Ny. now rewrite <- E. }
    pose proof (heap_push_perm (after g2) (s_queue w) ky) as P.
    split; [|split; [exact Mono|split; [exact Dy|split]]].
    + constructor.
      * intros k M. destruct (py_dec k ky) as [E|Nk].
        -- rewrite E, Ay. exists y. split; [apply N2|]. split; auto.
        -- rewrite Oa by auto. apply (c_state _ _ _ C). now rewrite <- Od.
      * intros k. destruct (py_dec k ky) as [E|Nk]; [rewrite E, Ay; apply N2|]. rewrite Oa by auto. apply C.
      * apply Mono. apply C.
      * intros k M. destruct (py_dec k ky) as [E|Nk].
        -- rewrite E. assert (Keep : best_parent (at_ g2 ky) = best_parent (at_ g ky) -> dmem g ky = true ->
              exists l c0, chain g2 ky l c0 /\ incl (keys l) closed).
           { intros Eb My. destruct (c_chain _ _ _ C ky My) as (l & c0 & Ch & Il). exists l, c0. split; auto.
             apply (chain_stable g g2 closed Mono Bc _ _ _ Ch Il Eb). }
           destruct upd eqn:U.
           ++ destruct (c_chain _ _ _ C _ Mx) as (l & c0 & Ch & Il). exists (l ++ [(sx, a)]), (c0 + c)%Z. split.
              ** constructor; auto.
                 --- apply (chain_stable g g2 closed Mono Bc _ _ _ Ch Il). auto.
                 --- rewrite Ay. unfold n2. reflexivity.
              ** unfold keys. rewrite map_app. intros t It. apply in_app_iff in It as [It|[ <- |[]]]; auto.
           ++ assert (Ng : new = false) by (unfold upd in U; apply orb_false_elim in U; apply U).
              specialize (Same Ng). subst g1. apply Keep; [|exact M1]. rewrite Ay. unfold n2. reflexivity.
        -- rewrite Od in M by auto. destruct (c_chain _ _ _ C k M) as (l & c0 & Ch & Il). exists l, c0. split; auto.
           apply (chain_stable g g2 closed Mono Bc _ _ _ Ch Il). now rewrite Oa.
      * intros k Ik. apply Mono. apply (c_mem _ _ _ C); auto.
      * intros k Ik. apply (Permutation_in _ P) in Ik as [ <- |Ik]; auto. apply Mono. apply (c_queue _ _ _ C); auto.
      * intros k M Nk. apply (Permutation_in _ (Permutation_sym P)). destruct (py_dec k ky) as [E|Ne]; [left; auto|].
        right. rewrite Od in M by auto. apply (c_open _ _ _ C); auto.
    + rewrite (Permutation_length P). auto.
    + intros k Ik. apply (Permutation_in _ P) in Ik as [ <- |Ik]; auto.
Qed.

Lemma fold_core : forall closed sx acts (w : @search St A V K),
  core (s_graph w) (s_queue w) closed -> In (key p sx) closed -> In r closed -> incl acts (apps p sx) ->
  exists w', foldM (expand p closed (key p sx) sx) w acts = Ok w' /\ core (s_graph w') (s_queue w') closed /\
    (forall k, dmem (s_graph w) k = true -> dmem (s_graph w') k = true) /\
    (forall a, In a acts -> dmem (s_graph w') (key p (next p sx a)) = true) /\
    length (s_queue w') <= length acts + length (s_queue w) /\
    (forall k, In k (s_queue w') -> In k (s_queue w) \/ exists a, In a acts /\ k = key p (next p sx a)).
Proof.
  intros closed sx. induction acts as [|a acts IH]; intros w C Ix Ir Ia; cbn [foldM].
  - exists w. split; [reflexivity|]. split; [exact C|]. split; [auto|]. split; [intros ? []|]. split; auto.
  - destruct (expand_core closed sx a w C Ix Ir (Ia a (or_introl eq_refl))) as (w1 & E1 & C1 & M1 & D1 & L1 & Q1).
    rewrite E1. cbn [bind].
    destruct (IH w1 C1 Ix Ir (fun b I => Ia b (or_intror I))) as (w2 & E2 & C2 & M2 & D2 & L2 & Q2).
    exists w2. split; auto. split; auto. split; auto. split; [intros b [ <- |Ib]; auto|]. split; [cbn; lia|].
    intros k Ik. destruct (Q2 k Ik) as [I1|(b & Ib & ->)]; [|right; exists b; split; auto; now right].
    destruct (Q1 k I1) as [I0| ->]; auto. right. exists a. split; auto. now left.
Qed.

Record inv (g : graph) (queue closed : list K) : Prop := {
  i_core : core g queue closed;
  i_covered : forall s, In (key p s) closed -> is_goal p s = false /\
     forall a, In a (apps p s) -> dmem g (key p (next p s a)) = true;
  i_first : In r closed \/ (closed = [] /\ forall k, dmem g k = true -> k = r) }.

(** An exhausted queue: nothing reachable is a goal. *)
Lemma exhausted : forall g closed, inv g [] closed -> forall s, reach s -> is_goal p s = false.
Proof.
  intros g closed I s (l & c & Ex).
  assert (In_ : forall k, dmem g k = true -> In k closed).
  { intros k M. destruct (pymem k closed) eqn:E; [now apply pymem_true in E|].
    destruct (c_open _ _ _ (i_core _ _ _ I) k M (proj1 (pymem_false k closed) E)). }
  assert (G : forall u l t c, exec p u l t c -> dmem g (key p u) = true -> dmem g (key p t) = true).
  { induction 1 as [u|u a l' u' c' Ia E IH]; intros Mu; auto. apply IH. apply (i_covered _ _ _ I); auto. }
  apply (i_covered _ _ _ I). apply In_. apply (G _ _ _ _ Ex). apply (i_core _ _ _ I).
Qed.

(** *** writing the plan *)
Definition hd_st (l : list (St * A)) (d : St) : St := match l with [] => d | (s, _) :: _ => s end.

Lemma chain_hd : forall g k l c, chain g k l c -> forall s, key p s = k -> hd_st l s = s0.
Proof.
  induction 1 as [M|cur sp a l c Ch IH N M B Ia E]; intros s Es; [apply KI; auto|].
  destruct l as [|[t b] l]; [exact (IH sp eq_refl)|]. exact (IH sp eq_refl).
Qed.

Definition marked (g : graph) (s child : St) (v : Z) : Prop :=
  exists n, dget g (key p s) = Some n /\ solved n = true /\ best_action n = Some (key p child) /\ fscore n = Some v.

Lemma chain_parents : forall (g g' : graph) k l c, (forall t, best_parent (at_ g' t) = best_parent (at_ g t)) ->
  (forall t, dmem g t = true -> dmem g' t = true) -> chain g k l c -> chain g' k l c.
Proof.
  intros g g' k l c H Hm Ch. induction Ch as [M|cur sp a l c Ch IH N M B Ia E]; [constructor; auto|].
  constructor; auto. now rewrite H.
Qed.

Lemma backtrack_spec : forall l cur s c g fuel f, key p s = cur -> chain g cur l c -> length l <= fuel -> fscore (at_ g cur) = Some f ->
  exists g', backtrack fuel r cur g = Ok g' /\
    (forall k, ~ In k (keys l) -> dget g' k = dget g k) /\
    (forall k, dmem g' k = dmem g k) /\
    (forall k, best_parent (at_ g' k) = best_parent (at_ g k)) /\
    forall l1 t a l2, l = l1 ++ (t, a) :: l2 -> exists v, marked g' t (hd_st l2 s) (f + v)%Z /\
       best_parent (at_ g (key p (hd_st l2 s))) = Some (key p t, a, cost p t a (next p t a)) /\
       next p t a = hd_st l2 s /\
       exec p t (a :: map snd l2) s v.
Proof.
  induction l as [|[sp a] l IH] using rev_ind; intros cur s c g fuel f Es Ch Lf F.
  - assert (Er : cur = r) by (inversion Ch; auto; destruct l; discriminate).
    exists g. destruct fuel; cbn [backtrack]; rewrite Er, pyeqb_refl; (repeat (split; [reflexivity|]); intros [|? ?]; discriminate).
  - inversion Ch as [E1 E2 E3|cur' sp' a' l' c' Ch' N M B Ia E E1 E2 E3].
    { destruct l; discriminate. }
    apply app_inj_tail in E2 as [-> E2]. injection E2 as -> ->. subst cur'.
    rewrite app_length in Lf. cbn in Lf. destruct fuel as [|fuel]; [lia|].
    cbn [backtrack]. destruct (pyeqb_spec cur r) as [X|_]; [contradiction|]. rewrite B, F. cbn [fadd].
    set (n := at_ g (key p sp)). set (g1 := dset g (key p sp) _).
    assert (BP : forall k, best_parent (at_ g1 k) = best_parent (at_ g k)).
    { intros k. unfold g1. rewrite at_dset. destruct (pyeqb_spec (key p sp) k) as [ <- |]; reflexivity. }
    assert (Msp : dmem g (key p sp) = true) by (eapply chain_mem; eauto).
    assert (DM : forall k, dmem g1 k = dmem g k).
    { intros k. unfold g1. rewrite dmem_dset. destruct (pyeqb_spec (key p sp) k) as [ <- |]; auto. }
    assert (Ch1 : chain g1 (key p sp) l c').
    { eapply chain_parents; [exact BP| |exact Ch']. intros t Mt. now rewrite DM. }
    destruct (IH (key p sp) sp c' g1 fuel (f + cost p sp a (next p sp a))%Z eq_refl Ch1) as (g' & R1 & R2 & R2b & R3 & R4).
    { lia. }
    { unfold g1. rewrite at_dset, pyeqb_refl. reflexivity. }
    exists g'. split; auto. split; [|split; [|split]].
    + intros k NI. unfold keys in NI. rewrite map_app in NI. rewrite R2.
      * unfold g1. apply dget_dset_other. intros Ek. apply NI. apply in_app_iff. right. left. exact Ek.
      * intros I. apply NI. apply in_app_iff. now left.
    + intros k. now rewrite R2b, DM.
    + intros k. now rewrite R3, BP.
    + assert (Ecur : next p sp a = s) by (apply KI; congruence).
      intros l1 t b l2 El. destruct l2 as [|[u d] l2 _] using rev_ind.
      * apply app_inj_tail in El as [-> El]. injection El as <- <-. exists (cost p sp a (next p sp a) + 0)%Z.
        cbn [hd_st map]. rewrite Es. split; [|split; [|split]].
        -- exists (set_best n cur (Some (f + cost p sp a (next p sp a))%Z)).
           rewrite R2.
           ++ unfold g1. rewrite dget_dset_same. cbn. rewrite Es. repeat split; auto. f_equal. lia.
           ++ exact (chain_fresh _ _ _ _ Ch').
        -- exact B.
        -- exact Ecur.
        -- rewrite <- Ecur at 1. constructor; auto. rewrite Ecur. constructor.
      * rewrite app_comm_cons, app_assoc in El. apply app_inj_tail in El as [-> El]. injection El as <- <-.
        destruct (R4 l1 t b l2 eq_refl) as (v & Mk & Bp & Nx & Ex).
        assert (H1 : hd_st (l2 ++ [(sp, a)]) s = hd_st l2 sp) by (destruct l2 as [|[? ?] ?]; reflexivity).
        rewrite H1. exists (v + cost p sp a (next p sp a))%Z. split; [|split; [|split]].
        -- replace (f + (v + cost p sp a (next p sp a)))%Z with (f + cost p sp a (next p sp a) + v)%Z by lia. auto.
        -- rewrite <- BP. auto.
        -- exact Nx.
        -- rewrite map_app. cbn [map]. rewrite app_comm_cons. rewrite <- Ecur at 1. cbn [snd]. apply exec_snoc; auto.
Qed.

(** The plan recorded in [g]: from the root, the pairs of [l] (a state and the action answered there) to [x]. *)
Definition plan_in (g : graph) (l : list (St * A)) (x : St) (c : Z) : Prop :=
  exec p s0 (map snd l) x c /\ hd_st l x = s0 /\ get_best_value p g x = Ok (Some 0%Z) /\
  forall l1 t a l2, l = l1 ++ (t, a) :: l2 -> exists c2,
    exec p t (a :: map snd l2) x c2 /\ get_best_value p g t = Ok (Some c2) /\ get_best_action p g t = Ok a /\
    is_solution_defined_for p g t = true /\ next p t a = hd_st l2 x.

Lemma plan_written : forall g queue closed x, core g queue closed -> dmem g (key p x) = true ->
  let g1 := dset g (key p x) (set_fscore (at_ g (key p x)) (Some 0%Z)) in
  exists g' l c, backtrack (length g1) r (key p x) g1 = Ok g' /\ plan_in g' l x c.
Proof.
  intros g queue closed x C Mx g1. destruct (c_chain _ _ _ C _ Mx) as (l & c & Ch & _).
  pose proof (chain_length _ _ _ _ Ch) as Len.
  assert (L1 : length g1 = length g) by (apply dset_length_in; auto).
  assert (BP : forall k, best_parent (at_ g1 k) = best_parent (at_ g k)).
  { intros k. unfold g1. rewrite at_dset. destruct (pyeqb_spec (key p x) k) as [ <- |]; reflexivity. }
  assert (DM : forall k, dmem g k = true -> dmem g1 k = true).
  { intros k M. unfold g1. rewrite dmem_dset, M, orb_true_r. reflexivity. }
  assert (Ch1 : chain g1 (key p x) l c) by (eapply chain_parents; eauto).
  assert (F1 : fscore (at_ g1 (key p x)) = Some 0%Z).
  { unfold g1. rewrite at_dset, pyeqb_refl. reflexivity. }
  rewrite L1. destruct (backtrack_spec l _ x c g1 (length g) 0%Z eq_refl Ch1 Len F1) as (g' & R1 & R2 & R2b & R3 & R4).
  exists g', l, c. split; [exact R1|].
  split; [eapply chain_exec; eauto|]. split; [eapply chain_hd; eauto|]. split.
  - unfold get_best_value. rewrite R2 by exact (chain_fresh _ _ _ _ Ch).
    rewrite (proj1 (dmem_get g1 (key p x)) (DM _ Mx)). now rewrite F1.
  - intros l1 t a l2 El. destruct (R4 _ _ _ _ El) as (v & (n & N1 & N2 & N3 & N4) & B & Nx & Ex).
    exists v. split; auto. unfold get_best_value, get_best_action, is_solution_defined_for.
    rewrite N1, N3, N4, R3, B. repeat split; auto.
Qed.

(** *** the loop *)
Definition closed_under (L : list St) : Prop :=
  In s0 L /\ NoDup L /\ forall t a, In t L -> In a (apps p t) -> In (next p t a) L.
Definition weight (L : list St) (closed : list K) : nat :=
  list_sum (map (fun t => if pymem (key p t) closed then 0 else length (apps p t)) L).

Definition result (g : graph) : Prop :=
  (exists x l c, is_goal p x = true /\ plan_in g l x c) \/
  (stale g /\ forall s, reach s -> is_goal p s = false).

Lemma weight_step : forall L closed x, NoDup (map (key p) L) -> In x L -> ~ In (key p x) closed ->
  weight L (key p x :: closed) + length (apps p x) = weight L closed.
Proof. intros L closed x. apply (IwSearchProofs.weight_close (key p) (fun t => length (apps p t))). Qed.

Lemma loop_run : forall fuel w closed, inv (s_graph w) (s_queue w) closed ->
  (exists g', loop fuel p r w closed = Ok g' /\ result g') \/
  (loop fuel p r w closed = Err OutOfFuel /\
   forall L, closed_under L -> incl (s_queue w) (map (key p) L) -> fuel <= length (s_queue w) + weight L closed).
Proof.
  induction fuel as [|fuel IH]; intros w closed I.
  { right. split; [reflexivity|]. intros; lia. }
  cbn [loop]. pose proof (heap_pop_perm (after (s_graph w)) (s_queue w)) as P.
  destruct (heap_pop (after (s_graph w)) (s_queue w)) as [[x queue1]|] eqn:Hp.
  2:{ left. exists (s_graph w). split; [reflexivity|]. right. rewrite P in I. split; [apply I|]. eapply exhausted; eauto. }
  destruct P as [P _]. pose proof (Permutation_length P) as PL. cbn in PL.
  assert (Iq1 : forall k, In k queue1 -> In k (s_queue w)).
  { intros k Ik. apply (Permutation_in _ (Permutation_sym P)). now right. }
  assert (Ix : In x (s_queue w)) by (apply (Permutation_in _ (Permutation_sym P)); now left).
  destruct I as [C Cv Fi]. assert (Mx : dmem (s_graph w) x = true) by (apply (c_queue _ _ _ C); exact Ix).
  destruct (pymem x closed) eqn:Ex.
  - apply pymem_true in Ex.
    assert (I1 : inv (s_graph w) queue1 closed).
    { constructor; auto. destruct C. constructor; auto. intros k M N. specialize (c_open0 k M N).
      apply (Permutation_in _ P) in c_open0 as [ <- |H]; auto. contradiction. }
    destruct (IH {| s_graph := s_graph w; s_queue := queue1; s_map := s_map w |} closed I1) as [H|[H1 H2]]; [left; exact H|right].
    split; auto. intros L HL Iq. specialize (H2 L HL (fun k Ik => Iq k (Iq1 k Ik))). cbn [s_queue] in H2. lia.
  - assert (Nx : ~ In x closed) by exact (proj1 (pymem_false x closed) Ex).
    destruct (c_state _ _ _ C x Mx) as (sx & Es & Ek & _). rewrite Es. subst x.
    rewrite (proj2 (c_stale _ _ _ C (key p sx))), orb_false_r.
    destruct (is_goal p sx) eqn:Gx.
    + left. destruct (plan_written _ _ _ sx C Mx) as (g' & l & c & R1 & R2). exists g'. split; [exact R1|]. left. eauto.
    + assert (R' : In r (key p sx :: closed)).
      { destruct Fi as [Fi|[-> Fi]]; [now right|]. left. now apply Fi. }
      assert (C' : core (s_graph w) queue1 (key p sx :: closed)).
      { destruct C. constructor; auto.
        - intros k M. destruct (c_chain0 k M) as (l & c & Ch & Il). exists l, c. split; auto. intros t It. right. auto.
        - intros k [ <- |Ik]; auto.
        - intros k M N. assert (Iq : In k (s_queue w)) by (apply c_open0; auto; intros J; apply N; now right).
          apply (Permutation_in _ P) in Iq as [ <- |Iq]; auto. exfalso. apply N. now left. }
      destruct (fold_core (key p sx :: closed) sx (apps p sx) {| s_graph := s_graph w; s_queue := queue1; s_map := s_map w |} C'
          (or_introl eq_refl) R' (incl_refl _)) as (w2 & E2 & C2 & M2 & D2 & L2 & Q2).
      rewrite E2. cbn [bind]. cbn [s_graph s_queue] in *.
      assert (I2 : inv (s_graph w2) (s_queue w2) (key p sx :: closed)).
      { constructor; auto. intros s [Ek|Is].
        - apply KI in Ek. subst s. auto.
        - destruct (Cv s Is) as [H1 H2]. auto. }
      destruct (IH w2 _ I2) as [H|[H1 H2]]; [left; exact H|right]. split; auto.
      intros L HL Iq. assert (IL : In sx L).
      { pose proof (Iq _ Ix) as J. apply in_map_iff in J as (t & Et & It). apply KI in Et. now subst. }
      assert (W : weight L (key p sx :: closed) + length (apps p sx) = weight L closed).
      { apply weight_step; auto. apply FinFun.Injective_map_NoDup; [exact KI|apply HL]. }
      assert (fuel <= length (s_queue w2) + weight L (key p sx :: closed)); [|lia].
      apply H2; auto. intros k Ik. destruct (Q2 k Ik) as [I1|(a & Ia & ->)]; [auto|]. apply in_map. apply HL; auto.
Qed.
Lemma solve_run : forall fuel, is_goal p s0 = false ->
  (exists g', solve fuel p [] s0 = Ok g' /\ result g') \/
  (solve fuel p [] s0 = Err OutOfFuel /\
   forall L, closed_under L -> fuel <= 1 + list_sum (map (fun t => length (apps p t)) L)).
Proof.
  intros fuel G0. unfold solve, emplace. cbn [dmem dget dset].
  assert (A0 : forall (n : @node St A K) k, at_ [(r, n)] k = if pyeqb k r then n else new_node None).
  { intros n k. unfold at_. cbn [dget]. now destruct (pyeqb k r). }
  assert (D0 : forall (n : @node St A K) k, dmem [(r, n)] k = pyeqb k r).
  { intros n k. unfold dmem. cbn [dget]. now destruct (pyeqb k r). }
  rewrite !A0, !pyeqb_refl. cbn [solved new_node state]. rewrite G0. cbn [orb].
  destruct (novelty [] (heur p s0) (features p s0)) as [nov m].
  set (n := set_rank _ _ _). cbv zeta. set (g := [(r, n)]).
  assert (Kr : forall k, dmem g k = true -> k = r).
  { intros k M. unfold g in M. rewrite D0 in M. destruct (pyeqb_spec k r); congruence. }
  assert (Ar : at_ g r = n) by (unfold g; rewrite A0, pyeqb_refl; reflexivity).
  assert (Mr : dmem g r = true) by (unfold g; rewrite D0; apply pyeqb_refl).
  assert (Q : heap_push (after g) [] r = [r]) by reflexivity. rewrite Q.
  assert (I : inv g [r] []).
  { constructor.
    - constructor.
      + intros k M. rewrite (Kr k M), Ar. exists s0. split; auto. split; auto. exists [], 0%Z. constructor.
      + intros k. unfold g. rewrite A0. destruct (pyeqb k r); split; reflexivity.
      + exact Mr.
      + intros k M. rewrite (Kr k M). exists [], 0%Z. split; [constructor; exact Mr|intros ? []].
      + intros k [].
      + intros k [ <- |[]]. exact Mr.
      + intros k M _. left. symmetry. auto.
    - intros s [].
    - right. auto. }
  destruct (loop_run fuel {| s_graph := g; s_queue := [r]; s_map := m |} [] I) as [H|[H1 H2]]; [left; exact H|right].
  split; [exact H1|]. intros L HL. specialize (H2 L HL). unfold weight in H2. cbn [pymem existsb length s_queue] in H2.
  apply H2. intros k [ <- |[]]. apply in_map. apply HL.
Qed.
End Proofs.
