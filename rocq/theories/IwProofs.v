(** Invariants of the search of IwModel.v from one root. *)
From Coq Require Import List Bool Arith ZArith Lia Permutation Sorted.
From Verif Require Import Py PyList PyMore CppAstarModel CppHeapProofs IwModel IwSpec IwTupleProofs.
Import ListNotations.
Open Scope nat_scope.

Section Basics.
Context {St A V K : Type} {EV : PyEq V} {EK : PyEq K}.
Notation graph := (@graph St A K).
Notation node := (@node St A K).

Lemma at_get : forall (g : graph) k n, dget g k = Some n -> at_ g k = n.
Proof. intros g k n E. unfold at_. now rewrite E. Qed.

Lemma at_dset : forall (g : graph) k n t, at_ (dset g k n) t = if pyeqb k t then n else at_ g t.
Proof. intros. unfold at_. rewrite dget_dset. now destruct (pyeqb k t). Qed.

Lemma dmem_dset : forall (g : graph) k n t, dmem (dset g k n) t = pyeqb k t || dmem g t.
Proof. intros. unfold dmem. rewrite dget_dset. now destruct (pyeqb k t). Qed.

Lemma dmem_get : forall (g : graph) k, dmem g k = true <-> dget g k = Some (at_ g k).
Proof. intros. unfold dmem, at_. destruct (dget g k); split; congruence. Qed.

Lemma dset_length_in : forall (g : graph) x n, dmem g x = true -> length (dset g x n) = length g.
Proof.
  induction g as [|[k w] g IH]; intros x n M; [discriminate|]. cbn. unfold dmem in M. cbn in M.
  destruct (pyeqb x k); cbn; auto.
Qed.

(** The part of a node that plans depend on. *)
Definition vw (n : node) := (state n, best_parent n, gscore n, fscore n, best_action n, solved n).

Definition similar (g g' : graph) : Prop := forall k, dmem g' k = dmem g k /\ vw (at_ g' k) = vw (at_ g k).

Lemma similar_refl : forall g, similar g g.
Proof. intros g k. auto. Qed.

Lemma similar_trans : forall a b c, similar a b -> similar b c -> similar a c.
Proof. intros a b c H1 H2 k. destruct (H1 k), (H2 k). split; congruence. Qed.

Lemma similar_set : forall g k n, dmem g k = true -> vw n = vw (at_ g k) -> similar g (dset g k n).
Proof.
  intros g k n M E t. rewrite dmem_dset, at_dset. destruct (pyeqb_spec k t) as [ -> |]; [|auto]. now rewrite M.
Qed.
End Basics.

Section Proofs.
Context {St A V K : Type} {EV : PyEq V} {EK : PyEq K}.
Variable p : @problem St A V K.
Variable s0 : St.
Notation graph := (@graph St A K).
Notation r := (key p s0).

Lemma exec_app : forall s l1 m c1, exec p s l1 m c1 -> forall l2 g c2, exec p m l2 g c2 ->
  exec p s (l1 ++ l2) g (c1 + c2)%Z.
Proof.
  induction 1 as [s|s a l s' c T I E IH]; intros l2 g c2 E2; [exact E2|].
  cbn [app]. rewrite <- Z.add_assoc. constructor; auto.
Qed.

Lemma exec_snoc : forall s l m c a, exec p s l m c -> is_terminal p m = false -> In a (apps p m) ->
  exec p s (l ++ [a]) (next p m a) (c + cost p m a (next p m a))%Z.
Proof.
  intros s l m c a E T I. eapply exec_app; eauto.
  replace (cost p m a (next p m a)) with (cost p m a (next p m a) + 0)%Z by lia. constructor; auto. constructor.
Qed.

Lemma exec_cost : forall acts s t c t' c', exec p s acts t c -> exec p s acts t' c' -> t' = t /\ c' = c.
Proof.
  induction acts as [|a acts IH]; intros s t c t' c' E E'.
  - inversion E; inversion E'; subst; auto.
  - inversion E as [|? ? ? ? c1 _ _ X]; inversion E' as [|? ? ? ? c2 _ _ Y]; subst.
    destruct (IH _ _ _ _ _ X Y) as [-> ->]. auto.
Qed.

Definition reach (s : St) : Prop := exists l c, exec p s0 l s c.

Hypothesis KI : forall s t, key p s = key p t -> s = t.

(** *** the tree of parents *)
Inductive chain (g : graph) : K -> list (St * A) -> Z -> Prop :=
| ch_root : dmem g r = true -> chain g r [] 0%Z
| ch_step : forall cur sp a l c, chain g (key p sp) l c -> cur <> r -> dmem g cur = true ->
    best_parent (at_ g cur) = Some (key p sp, a, cost p sp a (next p sp a)) ->
    is_terminal p sp = false -> In a (apps p sp) -> key p (next p sp a) = cur ->
    chain g cur (l ++ [(sp, a)]) (c + cost p sp a (next p sp a))%Z.

Definition keys (l : list (St * A)) : list K := map (fun e => key p (fst e)) l.

Lemma chain_mem : forall g k l c, chain g k l c -> dmem g k = true /\ Forall (fun t => dmem g t = true) (keys l).
Proof.
  induction 1 as [M|cur sp a l c Ch [IH1 IH2] N M B T Ia E]; [split; [auto|constructor]|].
  split; auto. unfold keys in *. rewrite map_app. apply Forall_app. split; auto. constructor; [exact IH1|constructor].
Qed.

Lemma chain_fun : forall g k l c, chain g k l c -> forall l' c', chain g k l' c' -> l' = l /\ c' = c.
Proof.
  induction 1 as [M|cur sp a l c Ch IH N M B T Ia E]; intros l' c' Ch'.
  - inversion Ch'; subst; auto. congruence.
  - inversion Ch' as [M'|cur' sp' a' l1 c1 Ch1 N' M' B' T' Ia' E']; subst; [congruence|].
    rewrite B in B'. injection B' as B1 B2 B3. apply KI in B1. subst sp' a'.
    destruct (IH _ _ Ch1) as [-> ->]. auto.
Qed.

Lemma chain_prefix : forall g cur l c, chain g cur l c -> forall l1 s a l2, l = l1 ++ (s, a) :: l2 ->
  exists c1, chain g (key p s) l1 c1.
Proof.
  induction 1 as [M|cur sp b l c Ch IH N M B T Ia E]; intros l1 s a l2 El; [destruct l1; discriminate|].
  destruct l2 as [|e l2 _] using rev_ind.
  - apply app_inj_tail in El as [-> El]. injection El as -> ->. eauto.
  - rewrite app_comm_cons, app_assoc in El. apply app_inj_tail in El as [-> _]. eauto.
Qed.

Lemma chain_fresh : forall g k l c, chain g k l c -> ~ In k (keys l).
Proof.
  intros g k l c Ch I. apply in_map_iff in I as ((s & a) & E & I). cbn in E.
  apply in_split in I as (l1 & l2 & ->). destruct (chain_prefix _ _ _ _ Ch _ _ _ _ eq_refl) as (c1 & Ch1).
  rewrite E in Ch1. destruct (chain_fun _ _ _ _ Ch _ _ Ch1) as [E1 _].
  apply (f_equal (@length _)) in E1. rewrite app_length in E1. cbn in E1. lia.
Qed.

Lemma chain_NoDup : forall g k l c, chain g k l c -> NoDup (keys l).
Proof.
  induction 1 as [M|cur sp a l c Ch IH N M B T Ia E]; [constructor|].
  unfold keys in *. rewrite map_app. apply NoDup_snoc; auto. cbn. exact (chain_fresh _ _ _ _ Ch).
Qed.

Lemma chain_length : forall (g : graph) k l c, chain g k l c -> length l <= length g.
Proof.
  intros g k l c Ch. unfold keys. rewrite <- (map_length (fun e => key p (fst e)) l), <- (map_length fst g).
  apply NoDup_incl_length; [exact (chain_NoDup _ _ _ _ Ch)|].
  destruct (chain_mem _ _ _ _ Ch) as [_ F]. intros t I. apply dmem_true.
  exact (proj1 (Forall_forall _ _) F t I).
Qed.

Lemma chain_exec : forall g k l c, chain g k l c -> forall s, key p s = k -> exec p s0 (map snd l) s c.
Proof.
  induction 1 as [M|cur sp a l c Ch IH N M B T Ia E]; intros s Es.
  - apply KI in Es. subst. constructor.
  - rewrite map_app. cbn [map snd]. rewrite <- E in Es. apply KI in Es. subst s. apply exec_snoc; auto.
Qed.

Lemma chain_similar : forall g g' k l c, similar g g' -> chain g k l c -> chain g' k l c.
Proof.
  intros g g' k l c S Ch. induction Ch as [M|cur sp a l c Ch IH N M B T Ia E].
  - constructor. rewrite (proj1 (S _)). exact M.
  - destruct (S cur) as [S1 S2]. unfold vw in S2. constructor; auto; [congruence|].
    rewrite <- B. congruence.
Qed.

(** *** the graph invariant *)
Definition scored (g : graph) (k : K) : Prop :=
  exists v, gscore (at_ g k) = Some v /\ (0 <= v)%Z /\
    (k <> r -> exists pr a c gp, best_parent (at_ g k) = Some (pr, a, c) /\ gscore (at_ g pr) = Some gp /\ (0 <= c)%Z /\ (gp + c <= v)%Z).

Record good (g : graph) : Prop := {
  g_state : forall k, dmem g k = true -> exists s, state (at_ g k) = Some s /\ key p s = k;
  g_root : dmem g r = true;
  g_zero : gscore (at_ g r) = Some 0%Z;
  g_chain : forall k, dmem g k = true -> exists l c, chain g k l c;
  g_score : forall k, dmem g k = true -> scored g k }.

Lemma good_similar : forall g g', similar g g' -> good g -> good g'.
Proof.
  intros g g' S G. constructor.
  - intros k M. destruct (S k) as [S1 S2]. rewrite S1 in M. destruct (g_state _ G k M) as (s & E & H). exists s.
    split; auto. unfold vw in S2. congruence.
  - rewrite (proj1 (S _)). apply G.
  - destruct (S r) as [_ S2]. unfold vw in S2. pose proof (g_zero _ G). congruence.
  - intros k M. destruct (S k) as [S1 S2]. rewrite S1 in M. destruct (g_chain _ G k M) as (l & c & Ch).
    exists l, c. eapply chain_similar; eauto.
  - intros k M. destruct (S k) as [S1 S2]. rewrite S1 in M. destruct (g_score _ G k M) as (v & E & P & L).
    exists v. unfold vw in S2. split; [congruence|]. split; auto. intros N.
    destruct (L N) as (pr & a & c & gp & B & E2 & Pc & Le). exists pr, a, c, gp. split; [congruence|].
    destruct (S pr) as [_ S3]. unfold vw in S3. split; [congruence|]. auto.
Qed.

(** Scores grow along the parents. *)
Lemma chain_score : forall g k l c, good g -> chain g k l c -> forall v, gscore (at_ g k) = Some v ->
  forall t, In t (keys l) -> exists u, gscore (at_ g t) = Some u /\ (u <= v)%Z.
Proof.
  intros g k l c G Ch. induction Ch as [M|cur sp a l c Ch IH N M B T Ia E]; intros v Ev t It; [destruct It|].
  destruct (g_score _ G cur M) as (v' & Ev' & _ & L). rewrite Ev in Ev'. injection Ev' as <-.
  destruct (L N) as (pr & b & d & gp & B' & Eg & Pc & Le). rewrite B in B'. injection B' as <- <- <-.
  unfold keys in It. rewrite map_app in It. apply in_app_iff in It as [It|[ <- |[]]].
  - destruct (IH _ Eg t It) as (u & Eu & Lu). exists u. split; auto. lia.
  - exists gp. split; auto. lia.
Qed.

(** Changing the parent of a node that is not above the new parent keeps all the chains. *)
Section Reparent.
Variables (g g' : graph) (ky : K) (sx : St) (a : A).
Hypothesis Gm : forall k, dmem g k = true -> dmem g' k = true.
Hypothesis My : dmem g' ky = true.
Hypothesis Nr : ky <> r.
Hypothesis Other : forall k, k <> ky -> best_parent (at_ g' k) = best_parent (at_ g k).
Hypothesis Par : best_parent (at_ g' ky) = Some (key p sx, a, cost p sx a (next p sx a)).
Hypothesis Tx : is_terminal p sx = false.
Hypothesis Ia : In a (apps p sx).
Hypothesis Ey : key p (next p sx a) = ky.

Lemma chain_avoid : forall k l c, chain g k l c -> k <> ky -> ~ In ky (keys l) -> chain g' k l c.
Proof using Gm Other.
  induction 1 as [M|cur sp b l c Ch IH N M B T Ib E]; intros N1 NI; [constructor; auto|].
  unfold keys in NI. rewrite map_app in NI. constructor; auto.
  - apply IH.
    + intros E1. apply NI. apply in_app_iff. right. left. exact E1.
    + intros I. apply NI. apply in_app_iff. now left.
  - rewrite Other; auto.
Qed.

Lemma rechain : forall lx cx, chain g (key p sx) lx cx -> key p sx <> ky -> ~ In ky (keys lx) ->
  forall k l c, chain g k l c -> exists l' c', chain g' k l' c'.
Proof using Gm Other My Par Tx Ia Ey Nr.
  intros lx cx Chx Nx NIx k l c Ch. pose proof (chain_avoid _ _ _ Chx Nx NIx) as Chx'.
  induction Ch as [M|cur sp b l c Ch IH N M B T Ib E].
  - exists [], 0%Z. constructor; auto.
  - destruct (py_dec cur ky) as [ -> |Nc].
    + eexists _, _. eapply ch_step; eauto.
    + destruct IH as (l' & c' & Ch'). eexists _, _. eapply ch_step; eauto. rewrite Other; auto.
Qed.
End Reparent.

Hypothesis NN : forall s a, In a (apps p s) -> (0 <= cost p s a (next p s a))%Z.

(** *** one relaxation *)
Definition relax (x : K) (sx : St) (g : graph) (a : A) : graph :=
  let y := next p sx a in
  let ky := key p y in
  let '(g1, new) := emplace p g y in
  let c := cost p sx a y in
  let t := fadd (gscore (at_ g1 x)) c in
  if new || flt t (gscore (at_ g1 ky)) then dset g1 ky (set_score (at_ g1 ky) t (x, a, c)) else g1.

(** Nothing has been recorded yet. *)
Definition stale (g : graph) : Prop := forall k, best_action (at_ g k) = None /\ solved (at_ g k) = false.

Lemma relax_good : forall g sx a, good g -> stale g -> dmem g (key p sx) = true -> is_terminal p sx = false -> In a (apps p sx) ->
  let g' := relax (key p sx) sx g a in
  good g' /\ stale g' /\ (forall k, dmem g k = true -> dmem g' k = true) /\ dmem g' (key p (next p sx a)) = true.
Proof.
  intros g sx a G Sg Mx T Ia g'. unfold g', relax, emplace. clear g'.
  set (y := next p sx a). set (ky := key p y). set (c := cost p sx a y).
  assert (Pc : (0 <= c)%Z) by (apply NN; auto).
  destruct (g_score _ G _ Mx) as (vx & Ex & Px & _).
  destruct (dmem g ky) eqn:My.
  - cbn [orb]. rewrite Ex. cbn [fadd]. destruct (flt (Some (vx + c)%Z) (gscore (at_ g ky))) eqn:Imp; [|auto].
    destruct (g_score _ G _ My) as (vy & Ev & Py & Ly).
    unfold flt in Imp. rewrite Ev in Imp. cbn in Imp. apply Z.ltb_lt in Imp.
    assert (Nr : ky <> r). { intros E. rewrite E, (g_zero _ G) in Ev. injection Ev as <-. lia. }
    assert (Nx : key p sx <> ky). { intros E. rewrite E, Ev in Ex. injection Ex as <-. lia. }
    set (n' := set_score (at_ g ky) (Some (vx + c)%Z) (key p sx, a, c)).
    assert (At : forall k, k <> ky -> at_ (dset g ky n') k = at_ g k).
    { intros k N. rewrite at_dset. destruct (pyeqb_spec ky k); congruence. }
    assert (Aty : at_ (dset g ky n') ky = n') by (rewrite at_dset, pyeqb_refl; reflexivity).
    assert (Mm : forall k, dmem g k = true -> dmem (dset g ky n') k = true).
    { intros k M. rewrite dmem_dset, M, orb_true_r. reflexivity. }
    assert (Mi : forall k, dmem (dset g ky n') k = true -> dmem g k = true).
    { intros k. rewrite dmem_dset. destruct (pyeqb_spec ky k) as [ <- |]; auto. }
    destruct (g_chain _ G _ Mx) as (lx & cx & Chx).
    assert (NIx : ~ In ky (keys lx)).
    { intros I. destruct (chain_score _ _ _ _ G Chx _ Ex _ I) as (u & Eu & Lu). rewrite Ev in Eu. injection Eu as <-. lia. }
    split; [|split; [|split; [exact Mm|apply Mm; exact My]]].
    + constructor.
      * intros k M. destruct (py_dec k ky) as [ -> |N]; [|rewrite At by auto; apply G; auto].
        rewrite Aty. cbn. apply G. exact My.
      * apply Mm, G.
      * rewrite At by auto. apply G.
      * intros k M. destruct (g_chain _ G k (Mi k M)) as (l & d & Ch).
        eapply (rechain g (dset g ky n') ky sx a); eauto.
        -- intros k' N'. now rewrite At.
        -- rewrite Aty. reflexivity.
      * intros k M. destruct (py_dec k ky) as [ -> |N].
        -- exists (vx + c)%Z. rewrite Aty. split; [reflexivity|]. split; [lia|]. intros _.
           exists (key p sx), a, c, vx. split; [reflexivity|]. rewrite At by auto. split; auto. split; auto. lia.
        -- destruct (g_score _ G k (Mi k M)) as (v & E & P & L). exists v. rewrite At by auto. split; auto. split; auto.
           intros Nk. destruct (L Nk) as (pr & b & d & gp & B & Eg & Pd & Le).
           destruct (py_dec pr ky) as [ -> |Np].
           ++ exists ky, b, d, (vx + c)%Z. split; auto. rewrite Aty. split; [reflexivity|]. split; auto.
              rewrite Ev in Eg. injection Eg as <-. lia.
           ++ exists pr, b, d, gp. rewrite At by auto. auto.
    + intros k. destruct (py_dec k ky) as [ -> |N]; [|rewrite At by auto; apply Sg]. rewrite Aty. cbn. apply Sg.
  - cbn [orb].
    assert (Nr : ky <> r) by (intros E; rewrite E, (g_root _ G) in My; discriminate).
    assert (Nx : key p sx <> ky) by (intros E; rewrite <- E, Mx in My; discriminate).
    set (g1 := dset g ky (new_node (Some y))).
    assert (A1x : at_ g1 (key p sx) = at_ g (key p sx)).
    { unfold g1. rewrite at_dset. destruct (pyeqb_spec ky (key p sx)); congruence. }
    rewrite A1x, Ex. cbn [fadd].
    assert (A1y : at_ g1 ky = new_node (Some y)) by (unfold g1; rewrite at_dset, pyeqb_refl; reflexivity).
    rewrite A1y. set (n' := set_score (new_node (Some y)) (Some (vx + c)%Z) (key p sx, a, c)).
    assert (At : forall k, k <> ky -> at_ (dset g1 ky n') k = at_ g k).
    { intros k N. unfold g1. rewrite !at_dset. destruct (pyeqb_spec ky k); congruence. }
    assert (Aty : at_ (dset g1 ky n') ky = n') by (rewrite at_dset, pyeqb_refl; reflexivity).
    assert (Mm : forall k, dmem g k = true -> dmem (dset g1 ky n') k = true).
    { intros k M. unfold g1. rewrite !dmem_dset, M, !orb_true_r. reflexivity. }
    assert (Mi : forall k, dmem (dset g1 ky n') k = true -> k = ky \/ dmem g k = true).
    { intros k. unfold g1. rewrite !dmem_dset. destruct (pyeqb_spec ky k) as [ <- |]; auto. }
    assert (Myy : dmem (dset g1 ky n') ky = true) by (rewrite dmem_dset, pyeqb_refl; reflexivity).
    destruct (g_chain _ G _ Mx) as (lx & cx & Chx).
    assert (NIn : forall k l d, chain g k l d -> ~ In ky (keys l)).
    { intros k l d Ch I. destruct (chain_mem _ _ _ _ Ch) as [_ F]. apply (proj1 (Forall_forall _ _) F) in I. congruence. }
    split; [|split; [|split; [exact Mm|exact Myy]]].
    + constructor.
      * intros k M. destruct (py_dec k ky) as [ -> |N]; [rewrite Aty; exists y; auto|].
        rewrite At by auto. apply G. destruct (Mi k M); congruence.
      * apply Mm, G.
      * rewrite At by auto. apply G.
      * assert (Keep : forall k l d, chain g k l d -> chain (dset g1 ky n') k l d).
        { intros k l d Ch. eapply (chain_avoid g (dset g1 ky n') ky); eauto.
          - intros k' N'. now rewrite At.
          - intros ->. destruct (chain_mem _ _ _ _ Ch). congruence. }
        intros k M. destruct (py_dec k ky) as [ -> |N].
        -- eexists _, _. eapply ch_step; [apply Keep; exact Chx|exact Nr|exact Myy|rewrite Aty; reflexivity|exact T|exact Ia|reflexivity].
        -- destruct (Mi k M) as [|M']; [congruence|]. destruct (g_chain _ G k M') as (l & d & Ch). eauto.
      * intros k M. destruct (py_dec k ky) as [ -> |N].
        -- exists (vx + c)%Z. rewrite Aty. split; [reflexivity|]. split; [lia|]. intros _.
           exists (key p sx), a, c, vx. split; [reflexivity|]. rewrite At by auto. split; auto. split; auto. lia.
        -- destruct (Mi k M) as [|M']; [congruence|].
           destruct (g_score _ G k M') as (v & E & P & L). exists v. rewrite At by auto. split; auto. split; auto.
           intros Nk. destruct (L Nk) as (pr & b & d & gp & B & Eg & Pd & Le). exists pr, b, d, gp.
           split; auto. split; auto. rewrite At; auto. intros ->.
           assert (E0 : at_ g ky = new_node None).
           { unfold at_. unfold dmem in My. destruct (dget g ky); [discriminate|reflexivity]. }
           rewrite E0 in Eg. discriminate.
    + intros k. destruct (py_dec k ky) as [ -> |N]; [|rewrite At by auto; apply Sg]. rewrite Aty. cbn. auto.
Qed.
End Proofs.
