(** C54, C55: the LRTA* solver.

    Specification vocabulary: [exec p s l t c] (CppAstarProofs.v): the action list [l] can be executed from
    [s], ends in [t] and costs [c]; and [follows], below: asking for the next action again and again
    executes the list and then returns nothing. *)
From Coq Require Import List Bool Arith ZArith Lia.
From Verif Require Import Py PyList PyMore CppAstarModel CppAstarProofs LrtaModel LrtaProofs.
Import ListNotations.
Open Scope nat_scope.

Lemma NoDup_app_right : forall X (l1 l2 : list X), NoDup (l1 ++ l2) -> NoDup l2.
Proof. induction l1; cbn; auto. intros l2 H. inversion H; auto. Qed.

Section Props.
Context {St A : Type} {ES : PyEq St}.
Notation problem := (@problem St A).

(** The solver answers with exactly the actions of [acts], one after the other, when they are executed
    from [s], and with no action after the last one. *)
Fixpoint follows (p : problem) (sv : solver) (s : St) (acts : list A) : Prop :=
  match acts with
  | [] => lrta_next_action sv s = None
  | a :: acts => lrta_next_action sv s = Some a /\ follows p sv (next p s a) acts
  end.

Lemma store_get : forall (roll : list (St * option A)) pol s a, NoDup (map fst roll) -> In (s, a) roll ->
  dget (store pol roll) s = Some a.
Proof.
  unfold store. induction roll as [|[u b] roll IH]; intros pol s a ND I; [destruct I|].
  inversion ND; subst. cbn [fold_left fst snd]. destruct I as [E|I]; [|now apply IH]. injection E as -> ->.
  clear IH ND H2. cbn in H1. assert (K : dget (dset pol s a) s = Some a) by apply dget_dset_same. revert K.
  generalize (dset pol s a) as q. induction roll as [|[u b] roll IH]; intros q K; [exact K|].
  cbn [fold_left fst snd]. apply IH; [intros X; apply H1; now right|].
  rewrite dget_dset_other; auto. intros ->. apply H1. now left.
Qed.

Lemma listed_fst : forall l (z : St), map fst (@listed St A l z) = visited l z.
Proof. intros l z. unfold listed, visited. rewrite map_app, map_map. cbn. f_equal. Qed.

Lemma replay : forall p pol l z s c vals ch, walk p s l z c -> NoDup (visited l z) ->
  follows p (mkSolver vals (store pol (listed l z)) ch) s (map snd l).
Proof.
  intros p pol l z s c vals ch W ND. set (sv := mkSolver _ _ _).
  assert (G : forall s l' c, walk p s l' z c -> incl l' l -> follows p sv s (map snd l')).
  { induction 1 as [s0|s0 a l' z c0 Ia W' IH]; intros I.
    - cbn. unfold lrta_next_action. cbn [sv_policy sv]. rewrite (store_get _ _ s0 None); auto.
      + now rewrite listed_fst.
      + apply in_or_app. right. now left.
    - cbn [map snd follows]. split; [|apply IH; auto; intros x Ix; apply I; now right].
      unfold lrta_next_action. cbn [sv_policy sv]. rewrite (store_get _ _ s0 (Some a)); auto.
      + now rewrite listed_fst.
      + apply in_or_app. left. apply (in_map (fun sa => (fst sa, Some (snd sa))) l (s0, a)). apply I. now left. }
  apply (G s l c W). apply incl_refl.
Qed.

(** The trial from the start. *)
Lemma do_trial_spec : forall (p : problem) md s vals, goal p s = false -> 0 < md ->
  exists t l z c, do_trial md p s vals = Ok t /\ tspec p md s [s] 0 [] vals false t l z c /\ NoDup (visited l z) /\
    t_roll t = listed l z.
Proof.
  intros p md s vals G L.
  destruct (trial_spec p md s [s] 0%Z [] vals false) as (t & l & z & c & E & T).
  - now left.
  - constructor; [intros []|constructor].
  - intros [X|X]; [lia|congruence].
  - exists t, l, z, c. split; auto. split; auto. split; [|apply T].
    destruct (walk_head p _ _ _ _ (ts_walk _ _ _ _ _ _ _ _ _ _ _ _ T)) as (r & Er).
    pose proof (ts_fresh _ _ _ _ _ _ _ _ _ _ _ _ T) as F. unfold visited in *. rewrite Er in *. exact F.
Qed.

(** What the policy holds once a trial has been accepted with cost [best]. *)
Definition held (p : problem) (md : nat) (s : St) (best : option Z) (pol : policy) : Prop :=
  exists l z c v, walk p s l z c /\ (goal p z = true \/ length l = md) /\ (length l <= md) /\ NoDup (visited l z) /\ best = Some (c + v)%Z /\
    (goal p z = true -> v = heur p z) /\ forall vals ch, follows p (mkSolver vals pol ch) s (map snd l).

(** Goal states keep the value given by the heuristic. *)
Definition goals_kept (p : problem) (vals : values) : Prop := forall u, goal p u = true -> val p vals u = Some (heur p u).

Lemma trial_goals : forall (p : problem) md s vals t l z c, tspec p md s [s] 0 [] vals false t l z c ->
  goals_kept p vals -> goals_kept p (t_vals t).
Proof.
  intros p md s vals t l z c T K u Gu.
  assert (Nl : ~ In u (map fst l)). { intros I. pose proof (ts_nongoal _ _ _ _ _ _ _ _ _ _ _ _ T u I). congruence. }
  destruct (pyeqb_spec u z) as [ -> |N].
  - pose proof (ts_end _ _ _ _ _ _ _ _ _ _ _ _ T) as E. destruct (t_dead t); [destruct E as (_ & X & _); congruence|].
    destruct E as (E & _). rewrite E. auto.
  - rewrite (ts_same _ _ _ _ _ _ _ _ _ _ _ _ T); auto. unfold visited. intros I. apply in_app_or in I as [I|[I|[]]]; auto.
Qed.

Lemma trial_len : forall depth (p : problem) x roll cum path vals ch t, trial depth p x roll cum path vals ch = Ok t ->
  length (t_roll t) <= length path + depth + 1.
Proof.
  induction depth as [|d IH]; intros p x roll cum path vals ch t; cbn [trial].
  - unfold finish. intros E. apply bind_ok in E as (v & _ & E). injection E as <-. cbn. rewrite app_length. cbn. lia.
  - destruct (goal p x).
    { unfold finish. intros E. apply bind_ok in E as (v & _ & E). injection E as <-. cbn. rewrite app_length. cbn. lia. }
    match goal with |- context [fold_left ?f ?l ?i] => destruct (fold_left f l i) as [vals1 [[[y a] e]|]] end.
    + intros E. apply bind_ok in E as (h & _ & E). apply IH in E. rewrite app_length in E. cbn in E. lia.
    + unfold finish. intros E. apply bind_ok in E as (v & _ & E). injection E as <-. cbn. rewrite app_length. cbn. lia.
Qed.

Lemma accept_held : forall (p : problem) md s vals t l z c pol, do_trial md p s vals = Ok t ->
  tspec p md s [s] 0 [] vals false t l z c -> NoDup (visited l z) -> t_roll t = listed l z ->
  goals_kept p vals -> t_dead t = false -> held p md s (t_cost t) (store pol (t_roll t)).
Proof.
  intros p md s vals t l z c pol E T ND R K D.
  pose proof (ts_end _ _ _ _ _ _ _ _ _ _ _ _ T) as X. rewrite D in X. destruct X as (_ & Hz & v & V & Ct).
  exists l, z, c, v. split; [apply T|]. split; auto. split.
  { apply trial_len in E. rewrite R in E. unfold listed in E. rewrite app_length, map_length in E. cbn in E. lia. }
  split; auto. split; [rewrite Ct; reflexivity|].
  split; [intros Gz; rewrite (K z Gz) in V; congruence|]. intros vs ch. rewrite R. eapply replay; eauto. apply T.
Qed.

(** The policy at the end: what it was, or an accepted trial. *)
Lemma trials_held : forall more md (p : problem) s best pol vals, goal p s = false -> 0 < md -> goals_kept p vals ->
  exists sv, trials more md p s best pol vals = Ok sv /\
    (held p md s best pol -> exists b, held p md s b (sv_policy sv)) /\
    (sv_policy sv = pol \/ exists b, held p md s b (sv_policy sv)).
Proof.
  induction more as [|more IH]; intros md p s best pol vals G L K;
    destruct (do_trial_spec p md s vals G L) as (t & l & z & c & E & T & ND & R); cbn [trials]; rewrite E; cbn [bind];
    pose proof (trial_goals _ _ _ _ _ _ _ _ T K) as K'.
  - set (acc := negb (t_dead t) && flt (t_cost t) best).
    assert (X : forall sv, sv = mkSolver (t_vals t) (if acc then store pol (t_roll t) else pol) (t_changed t) ->
      (held p md s best pol -> exists b, held p md s b (sv_policy sv)) /\
      (sv_policy sv = pol \/ exists b, held p md s b (sv_policy sv))).
    { intros sv ->. cbn [sv_policy]. destruct acc eqn:Ac; [|split; eauto].
      apply andb_true_iff in Ac as [D _]. apply negb_true_iff in D.
      pose proof (accept_held _ _ _ _ _ _ _ _ pol E T ND R K D). split; eauto. }
    destruct (t_changed t) eqn:Ch; cbn [negb]; eexists; (split; [reflexivity|]); apply X; reflexivity.
  - set (acc := negb (t_dead t) && flt (t_cost t) best).
    assert (Acc : acc = true -> held p md s (t_cost t) (store pol (t_roll t))).
    { intros Ac. apply andb_true_iff in Ac as [D _]. apply negb_true_iff in D. eapply accept_held; eauto. }
    destruct (t_changed t) eqn:Ch; cbn [negb].
    + destruct (IH md p s (if acc then t_cost t else best) (if acc then store pol (t_roll t) else pol) (t_vals t) G L K')
        as (sv & Es & H1 & H2). exists sv. split; auto. destruct acc eqn:Ac; [|auto].
      specialize (H1 (Acc eq_refl)). auto.
    + eexists. split; [reflexivity|]. cbn [sv_policy]. destruct acc eqn:Ac; [|split; eauto].
      specialize (Acc eq_refl). split; eauto.
Qed.

Lemma start_goals : forall p : problem, goals_kept p [].
Proof. intros p u _. reflexivity. Qed.

Lemma walk_split : forall (p : problem) l1 s l z c l2, walk p s l z c -> map snd l = l1 ++ l2 ->
  forall u c1, exec p s l1 u c1 -> exists la lb c2, l = la ++ lb /\ length la = length l1 /\ walk p u lb z c2 /\ map snd lb = l2.
Proof.
  induction l1 as [|a l1 IH]; intros s l z c l2 W E u c1 X.
  - inversion X; subst. exists [], l, c. auto.
  - inversion X as [|? ? ? ? c' Ia X']; subst. inversion W as [|? b l' ? c0 Ib W']; subst; [discriminate|].
    cbn in E. injection E as -> E. destruct (IH _ _ _ _ _ W' E _ _ X') as (la & lb & c2 & -> & E2 & W2 & E3).
    exists ((s, a) :: la), lb, c2. cbn. auto.
Qed.

Lemma loop_free : forall (p : problem) s l z c, walk p s l z c -> NoDup (visited l z) ->
  forall l1 l2 l3 u c1 c2, map snd l = l1 ++ l2 ++ l3 -> exec p s l1 u c1 -> exec p u l2 u c2 -> l2 = [].
Proof.
  intros p s l z c W ND l1 l2 l3 u c1 c2 E X1 X2.
  destruct (walk_split p l1 s l z c _ W E u c1 X1) as (la & lb & c3 & -> & _ & W2 & E2).
  destruct (walk_split p l2 u lb z c3 _ W2 E2 u c2 X2) as (lc & ld & c4 & -> & Ln & W3 & _).
  destruct l2 as [|a l2]; auto. exfalso. destruct lc as [|[u' a'] lc]; [discriminate|].
  cbn [app] in W2. inversion W2; subst. destruct (walk_head p _ _ _ _ W3) as (r & Er).
  unfold visited in ND. rewrite !map_app, <- !app_assoc in ND. cbn [map fst app] in ND.
  apply NoDup_app_right in ND. inversion ND as [|? ? N _]; subst. apply N. rewrite Er.
  apply in_or_app. right. now left.
Qed.

(** C54 (plan): after [solve] from a state that is not a goal, the policy is either as before, or asking
    for the next action from the start executes a loop-free list of applicable actions of at most [max_depth]
    steps, which leads to a goal unless it has exactly [max_depth] steps. *)
Theorem C54_plan : forall max_iter max_depth (p : problem) pol s, goal p s = false -> 0 < max_depth ->
  exists sv, lrta_solve max_iter max_depth p pol s = Ok sv /\
  (sv_policy sv = pol \/
   exists acts t c, exec p s acts t c /\ follows p sv s acts /\ length acts <= max_depth /\
     (goal p t = true \/ length acts = max_depth) /\
     (forall l1 l2 l3 u c1 c2, acts = l1 ++ l2 ++ l3 -> exec p s l1 u c1 -> exec p u l2 u c2 -> l2 = [])).
Proof.
  intros mi md p pol s G L. destruct (trials_held mi md p s None pol [] G L (start_goals p)) as (sv & E & _ & H).
  exists sv. split; auto. destruct H as [H|(b & l & z & c & v & W & Hz & Len & ND & _ & _ & F)]; auto.
  right. exists (map snd l), z, c. split; [now apply walk_exec|]. rewrite map_length. destruct sv as [vs po ch]. cbn in *.
  split; [apply F|]. split; auto. split; auto. eapply loop_free; eauto.
Qed.

(** *** Completeness *)

(** A goal can be reached through states of finite value. *)
Inductive live (p : problem) (vals : values) : St -> Prop :=
| live_goal : forall g, goal p g = true -> val p vals g <> None -> live p vals g
| live_step : forall u a, val p vals u <> None -> In a (apps p u) -> live p vals (next p u a) -> live p vals u.

Lemma live_finite : forall (p : problem) vals u, live p vals u -> val p vals u <> None.
Proof. intros p vals u [|]; auto. Qed.

Lemma live_back : forall (p : problem) vals s l z c w, walk p s l z c ->
  (forall u, In u (map fst l) -> val p vals u <> None) -> In w (map fst l) -> live p vals w -> live p vals s.
Proof.
  intros p vals s l z c w W. induction W as [s0|s0 a l z c Ia W IH]; intros F I Lw; [destruct I|].
  destruct I as [E|I]; [cbn in E; now subst|].
  apply live_step with a; auto; [apply F; now left|]. apply IH; auto. intros u Iu. apply F. now right.
Qed.

(** A dead end does not cut the start off. *)
Lemma live_dead : forall (p : problem) md s vals t l z c, tspec p md s [s] 0 [] vals false t l z c -> t_dead t = true ->
  NoDup (visited l z) -> live p vals s -> live p (t_vals t) s /\ val p vals z <> None.
Proof.
  intros p md s vals t l z c T D ND Ls.
  pose proof (ts_end _ _ _ _ _ _ _ _ _ _ _ _ T) as X. rewrite D in X. destruct X as (Vz & Gz & _ & _ & Nx).
  pose proof (ts_walk _ _ _ _ _ _ _ _ _ _ _ _ T) as W. destruct (walk_head p _ _ _ _ W) as (r & Er).
  assert (Vis : [s] ++ tl (visited l z) = visited l z). { unfold visited. rewrite Er. reflexivity. }
  rewrite Vis in Nx.
  pose proof (ts_steps _ _ _ _ _ _ _ _ _ _ _ _ T) as Fs. pose proof (ts_same _ _ _ _ _ _ _ _ _ _ _ _ T) as Sm.
  assert (Keep : forall u, u <> z -> val p vals u <> None -> val p (t_vals t) u <> None).
  { intros u N F. destruct (pymem u (map fst l)) eqn:I; [apply Fs; exact (proj1 (pymem_true _ _) I)|]. apply (proj1 (pymem_false _ _)) in I.
    rewrite Sm; auto. unfold visited. intros J. apply in_app_or in J as [J|[J|[]]]; auto. }
  split.
  - assert (M : live p (t_vals t) s \/ exists w, In w (map fst l) /\ live p (t_vals t) w).
    { clear -Vz Gz Nx Fs Sm Keep Ls. induction Ls as [g Gg Fg|u a Fu Ia Lu IH].
      - left. apply live_goal; auto. apply Keep; auto. intros ->. congruence.
      - destruct IH as [IH|IH]; [|now right]. destruct (pyeqb_spec u z) as [ -> |N].
        + right. exists (next p z a). split; auto. destruct (Nx a Ia) as [I|E].
          * unfold visited in I. apply in_app_or in I as [I|[I|[]]]; auto. exfalso.
            apply (live_finite _ _ _ IH). rewrite <- I. exact Vz.
          * exfalso. apply (live_finite _ _ _ Lu E).
        + left. apply live_step with a; auto. }
    destruct M as [M|(w & Iw & Lw)]; auto. eapply live_back; eauto.
  - assert (Iz : In z (visited l z)) by (apply in_or_app; right; now left).
    unfold visited in Iz. rewrite Er in Iz. destruct Iz as [ <- |I]; [now apply live_finite|].
    apply (ts_finite _ _ _ _ _ _ _ _ _ _ _ _ T). unfold visited. rewrite Er. exact I.
Qed.

(** States of [L] with infinite value. *)
Definition dead_count (p : problem) (L : list St) (vals : values) : nat :=
  length (filter (fun u => match val p vals u with None => true | Some _ => false end) L).

Lemma count_more : forall {X} (f g : X -> bool) (L : list X) z, In z L -> f z = false -> g z = true ->
  (forall u, f u = true -> g u = true) -> length (filter f L) < length (filter g L).
Proof.
  intros X f g L z I Fz Gz Mo. induction L as [|x L IH]; [destruct I|].
  assert (Le : forall L', length (filter f L') <= length (filter g L')).
  { induction L' as [|y L' IL]; auto. cbn. destruct (f y) eqn:Fy; [rewrite (Mo y Fy); cbn; lia|]. destruct (g y); cbn; lia. }
  cbn. destruct I as [ -> |I].
  - rewrite Fz, Gz. cbn. specialize (Le L). lia.
  - specialize (IH I). destruct (f x) eqn:Fx; [rewrite (Mo x Fx); cbn; lia|]. destruct (g x); cbn; lia.
Qed.

Lemma count_less : forall {X} (f : X -> bool) (L : list X) z, In z L -> f z = false -> length (filter f L) < length L.
Proof.
  intros X f L z I Fz. induction L as [|x L IH]; [destruct I|]. cbn. destruct I as [ -> |I].
  - rewrite Fz. assert (H : length (filter f L) <= length L) by (clear; induction L as [|x L IH]; cbn; auto; destruct (f x); cbn; lia). lia.
  - specialize (IH I). destruct (f x); cbn; lia.
Qed.

Lemma trials_complete : forall more md (p : problem) s pol vals L, goal p s = false -> 0 < md -> goals_kept p vals ->
  (forall l u c, exec p s l u c -> In u L) -> live p vals s -> length L <= dead_count p L vals + more + 1 ->
  exists sv b, trials more md p s None pol vals = Ok sv /\ held p md s b (sv_policy sv).
Proof.
  induction more as [|more IH]; intros md p s pol vals L G Lm K Cl Ls Cnt;
    destruct (do_trial_spec p md s vals G Lm) as (t & l & z & c & E & T & ND & R);
    pose proof (trial_goals _ _ _ _ _ _ _ _ T K) as K'.
  all: cbn [trials]; rewrite E; cbn [bind].
  all: destruct (t_dead t) eqn:D; cbn [negb andb].
  all: try (pose proof (ts_end _ _ _ _ _ _ _ _ _ _ _ _ T) as X; rewrite D in X).
  2, 4: destruct X as (_ & _ & v & _ & Ct).
  2, 3: pose proof (accept_held _ _ _ _ _ _ _ _ pol E T ND R K D) as Hd.
  2, 3: assert (Fl : flt (t_cost t) None = true) by (rewrite Ct; reflexivity); rewrite Fl.
  2: destruct (t_changed t); cbn [negb]; eexists; eexists; (split; [reflexivity|exact Hd]).
  2: { destruct (t_changed t); cbn [negb]; [|eexists; eexists; (split; [reflexivity|exact Hd])].
       destruct (trials_held more md p s (t_cost t) (store pol (t_roll t)) (t_vals t) G Lm K') as (sv & Es & H1 & _).
       destruct (H1 Hd) as (b & Hb'). exists sv, b. split; [exact Es|exact Hb']. }
  all: destruct X as (Vz & Gz & Ch & _ & _); rewrite Ch; cbn [negb].
  all: destruct (live_dead _ _ _ _ _ _ _ _ T D ND Ls) as (Ls' & Fz).
  all: assert (Iz : In z L) by (apply (Cl (map snd l) z c); apply walk_exec; apply T).
  all: assert (More : dead_count p L vals < dead_count p L (t_vals t)).
  1, 3: unfold dead_count; apply count_more with z; auto; [destruct (val p vals z); congruence|now rewrite Vz|].
  1, 2: intros u; destruct (val p vals u) eqn:Vu; [discriminate|intros _].
  1, 2: destruct (pyeqb_spec u z) as [ -> |N]; [now rewrite Vz|].
  1, 2: rewrite (ts_same _ _ _ _ _ _ _ _ _ _ _ _ T); [now rewrite Vu|].
  1, 2: intros I; destruct (walk_head p _ _ _ _ (ts_walk _ _ _ _ _ _ _ _ _ _ _ _ T)) as (r & Er); unfold visited in I; rewrite Er in I;
    destruct I as [ <- |I]; [apply (live_finite _ _ _ Ls Vu)|];
    apply (ts_finite _ _ _ _ _ _ _ _ _ _ _ _ T u); auto; unfold visited; rewrite Er; exact I.
  - exfalso. assert (Is : In s L) by (apply (Cl [] s 0%Z); constructor).
    assert (dead_count p L (t_vals t) < length L).
    { apply count_less with s; auto. pose proof (live_finite _ _ _ Ls'). destruct (val p (t_vals t) s); congruence. }
    lia.
  - apply (IH md p s pol (t_vals t) L); auto; lia.
Qed.

Lemma exec_live : forall (p : problem) s l t c, exec p s l t c -> goal p t = true -> live p [] s.
Proof.
  induction 1 as [s|s a l t c Ia X IH]; intros Gt.
  - apply live_goal; auto. discriminate.
  - apply live_step with a; auto. discriminate.
Qed.

Lemma held_goal : forall (p : problem) md s b sv L, held p md s b (sv_policy sv) -> (forall l u c, exec p s l u c -> In u L) ->
  length L <= md -> exists acts t c, exec p s acts t c /\ goal p t = true /\ follows p sv s acts.
Proof.
  intros p md s b sv L (l & z & c & v & W & Hz & _ & ND & _ & _ & F) Cl Lm.
  exists (map snd l), z, c. split; [now apply walk_exec|]. destruct sv as [vs po ch]. split; [|apply F].
  destruct Hz as [Hz|Hz]; auto. exfalso.
  assert (I : incl (visited l z) L).
  { clear -W Cl. intros u Iu. assert (X : exists l1 c1, exec p s l1 u c1).
    { clear Cl. induction W as [s|s a l z c Ia W IH]; cbn in Iu.
      - destruct Iu as [ <- |[]]. exists [], 0%Z. constructor.
      - destruct Iu as [ <- |Iu]; [exists [], 0%Z; constructor|]. destruct (IH Iu) as (l1 & c1 & X).
        exists (a :: l1). eexists. constructor; eauto. }
    destruct X as (l1 & c1 & X). eapply Cl; eauto. }
  pose proof (NoDup_incl_length ND I) as Q. unfold visited in Q. rewrite app_length, map_length in Q. cbn in Q. lia.
Qed.

(** C54 (completeness): if the states that can be reached from the start are among those of the finite list
    [L], and [max_depth] and [max_iter] are not smaller than its length, then [solve] produces a policy that
    leads from the start to a goal if and only if a goal can be reached.  The costs and the heuristic are
    arbitrary. *)
Theorem C54_complete : forall max_iter max_depth (p : problem) pol s L, goal p s = false ->
  (forall l u c, exec p s l u c -> In u L) -> length L <= max_depth -> length L <= max_iter + 1 ->
  exists sv, lrta_solve max_iter max_depth p pol s = Ok sv /\
  ((exists l t c, exec p s l t c /\ goal p t = true) ->
   exists acts t c, exec p s acts t c /\ goal p t = true /\ follows p sv s acts) /\
  ((forall l t c, exec p s l t c -> goal p t = false) -> sv_policy sv = pol).
Proof.
  intros mi md p pol s L G Cl Lm Li.
  assert (P : 0 < md).
  { assert (Is : In s L) by (apply (Cl [] s 0%Z); constructor). destruct L; [destruct Is|cbn in Lm; lia]. }
  destruct (trials_held mi md p s None pol [] G P (start_goals p)) as (sv & E & _ & H).
  exists sv. split; auto. split.
  - intros (l & t & c & X & Gt).
    destruct (trials_complete mi md p s pol [] L G P (start_goals p) Cl) as (sv' & b & E' & Hd); auto.
    + eapply exec_live; eauto.
    + lia.
    + rewrite E in E'. injection E' as <-. eapply held_goal; eauto.
  - intros N. destruct H as [H|(b & Hd)]; auto. exfalso.
    destruct (held_goal _ _ _ _ sv L Hd Cl Lm) as (acts & t & c & X & Gt & _). rewrite (N _ _ _ X) in Gt. discriminate.
Qed.

(** *** Optimality *)

(** The values of the states reached from the start do not exceed the cost to any goal. *)
Definition admissible_for (p : problem) (s : St) (vals : values) : Prop := forall l0 u c0 l t c,
  exec p s l0 u c0 -> exec p u l t c -> goal p t = true -> exists v, val p vals u = Some v /\ (v <= c)%Z.

Lemma trial_admissible : forall (p : problem) s, (forall l0 u c0 l c, exec p s l0 u c0 -> exec p u l u c -> l = []) ->
  forall depth x roll cum path vals ch t l0 c0, exec p s l0 x c0 -> (forall r, In r roll -> exists l c, exec p r l x c) ->
  admissible_for p s vals -> trial depth p x roll cum path vals ch = Ok t -> admissible_for p s (t_vals t).
Proof.
  intros p s Acy. induction depth as [|d IH]; intros x roll cum path vals ch t l0 c0 Rx Rr Ad; cbn [trial].
  { unfold finish. intros E. apply bind_ok in E as (v & _ & E). injection E as <-. exact Ad. }
  destruct (goal p x) eqn:Gx.
  { unfold finish. intros E. apply bind_ok in E as (v & _ & E). injection E as <-. exact Ad. }
  match goal with |- context [fold_left ?f ?l ?i] => destruct (fold_left f l i) as [vals1 best] eqn:F end.
  destruct (scan_spec p _ _ _ _ _ F) as (C & _ & V & _).
  assert (Out : forall a, In a (apps p x) -> ~ In (next p x a) roll).
  { intros a Ia I. destruct (Rr _ I) as (l & c & X).
    assert (Y : exec p x (a :: l) x (cost p x a (next p x a) + c)) by (constructor; auto).
    specialize (Acy _ _ _ _ _ Rx Y). discriminate. }
  destruct best as [[[y a] e]|].
  - cbn [choice] in C. destruct C as (Ia & Ey & Ny & (vy & Vy & Ee) & Mn).
    intros E. apply bind_ok in E as (h & _ & E). subst y.
    refine (IH _ _ _ _ _ _ _ (l0 ++ [a]) _ (exec_snoc p _ _ _ _ _ Rx Ia) _ _ E).
    + intros r Ir. apply in_app_or in Ir as [Ir|[ <- |[]]].
      * destruct (Rr r Ir) as (l & c & X). exists (l ++ [a]). eexists. apply exec_snoc; eauto.
      * exists [], 0%Z. constructor.
    + intros l1 u c1 l t' c X1 X2 Gt'. destruct (pyeqb_spec u x) as [ -> |N].
      * exists e. split.
        { destruct (match dget vals1 x with Some (Some v) => (v =? e)%Z | _ => false end) eqn:Sm.
          - unfold val. destruct (dget vals1 x) as [[v|]|]; try discriminate. apply Z.eqb_eq in Sm. congruence.
          - rewrite val_set, pyeqb_refl. reflexivity. }
        inversion X2 as [|? b l' ? c' Ib X']; subst; [congruence|].
        destruct (Ad _ _ _ _ _ _ (exec_snoc p _ _ _ _ _ X1 Ib) X' Gt') as (v & Vv & Lv). rewrite <- V in Vv.
        specialize (Mn b v Ib (Out b Ib) Vv). lia.
      * destruct (Ad _ _ _ _ _ _ X1 X2 Gt') as (v & Vv & Lv). exists v. split; auto.
        destruct (match dget vals1 x with Some (Some v) => (v =? e)%Z | _ => false end); [now rewrite V|].
        rewrite val_set. destruct (pyeqb_spec u x); [congruence|]. now rewrite V.
  - unfold finish. intros E. apply bind_ok in E as (v & _ & E). injection E as <-. cbn [t_vals].
    intros l1 u c1 l t' c X1 X2 Gt'. destruct (pyeqb_spec u x) as [ -> |N].
    + exfalso. inversion X2 as [|? b l' ? c' Ib X']; subst; [congruence|].
      destruct (Ad _ _ _ _ _ _ (exec_snoc p _ _ _ _ _ X1 Ib) X' Gt') as (w & Vw & _). rewrite <- V in Vw.
      destruct (C b Ib) as [I|Q]; [apply (Out b Ib I)|congruence].
    + destruct (Ad _ _ _ _ _ _ X1 X2 Gt') as (w & Vw & Lw). exists w. split; auto.
      rewrite val_set. destruct (pyeqb_spec u x); [congruence|]. now rewrite V.
Qed.

Lemma trials_optimal : forall more md (p : problem) s best pol vals sv, goal p s = false -> 0 < md -> goals_kept p vals ->
  (forall u, goal p u = true -> heur p u = 0%Z) ->
  (forall l t c, exec p s l t c -> length l < md) ->
  (forall l0 u c0 l c, exec p s l0 u c0 -> exec p u l u c -> l = []) ->
  admissible_for p s vals -> (best = None \/ held p md s best pol) ->
  trials more md p s best pol vals = Ok sv -> sv_changed sv = false ->
  exists acts t c, exec p s acts t c /\ goal p t = true /\ follows p sv s acts /\ val p (sv_values sv) s = Some c /\
    forall l t' c', exec p s l t' c' -> goal p t' = true -> (c <= c')%Z.
Proof.
  induction more as [|more IH]; intros md p s best pol vals sv G Lm K Hg Bd Acy Ad Hb;
    destruct (do_trial_spec p md s vals G Lm) as (t & l & z & c & E & T & ND & R);
    pose proof (trial_goals _ _ _ _ _ _ _ _ T K) as K'; cbn [trials]; rewrite E; cbn [bind].
  all: assert (Ad' : admissible_for p s (t_vals t)).
  1, 3: unfold do_trial in E; refine (trial_admissible p s Acy md s [s] _ _ _ _ t [] 0%Z _ _ Ad E); [constructor|];
        intros r [ <- |[]]; exists [], 0%Z; constructor.
  all: set (acc := negb (t_dead t) && flt (t_cost t) best).
  all: assert (Fin : t_changed t = false -> forall sv, sv = mkSolver (t_vals t) (if acc then store pol (t_roll t) else pol) false ->
    exists acts u c, exec p s acts u c /\ goal p u = true /\ follows p sv s acts /\ val p (sv_values sv) s = Some c /\
    forall l t' c', exec p s l t' c' -> goal p t' = true -> (c <= c')%Z).
  1, 3: intros Ch sv0 ->; destruct (ts_changed _ _ _ _ _ _ _ _ _ _ _ _ T Ch) as (_ & Vs & v & Vz & Vx);
    pose proof (ts_walk _ _ _ _ _ _ _ _ _ _ _ _ T) as W; pose proof (walk_exec p _ _ _ _ W) as X;
    pose proof (ts_end _ _ _ _ _ _ _ _ _ _ _ _ T) as En;
    destruct (t_dead t) eqn:D; [destruct En as (_ & _ & Q & _); congruence|];
    destruct En as (_ & [Gz|Ln] & v' & Vz' & Ct);
    [|exfalso; specialize (Bd _ _ _ X); rewrite map_length in Bd; lia];
    rewrite (K z Gz) in Vz, Vz'; injection Vz as <-; injection Vz' as <-; rewrite (Hg z Gz) in *;
    assert (Low : forall l t' c', exec p s l t' c' -> goal p t' = true -> (c <= c')%Z)
      by (intros l1 t1 c1 X1 G1; destruct (Ad [] s 0%Z l1 t1 c1) as (w & Vw & Lw); auto; [constructor|]; rewrite Vx in Vw; injection Vw as <-; lia);
    cbn [sv_values];
    assert (Vs' : val p (t_vals t) s = Some c) by (rewrite Vs, Vx; f_equal; lia);
    destruct acc eqn:Ac;
    [ exists (map snd l), z, c; repeat split; auto; rewrite R; eapply replay; eauto
    | destruct Hb as [ -> |(l2 & z2 & c2 & v2 & W2 & Hz2 & _ & ND2 & Eb & Ev & F2)];
      [ unfold acc in Ac; rewrite Ct in Ac; discriminate |];
      pose proof (walk_exec p _ _ _ _ W2) as X2;
      destruct Hz2 as [Gz2|Ln2]; [|exfalso; specialize (Bd _ _ _ X2); rewrite map_length in Bd; lia];
      specialize (Ev Gz2); rewrite (Hg z2 Gz2) in Ev; subst v2;
      unfold acc in Ac; rewrite Ct, Eb in Ac; cbn [negb andb flt fgt] in Ac; unfold flt, fgt in Ac; apply Z.ltb_ge in Ac;
      pose proof (Low _ _ _ X2 Gz2) as L2;
      exists (map snd l2), z2, c2; repeat split; auto; [rewrite Vs'; f_equal; lia|];
      intros l3 t3 c3 X3 G3; specialize (Low _ _ _ X3 G3); lia ].
  all: destruct (t_changed t) eqn:Ch; cbn [negb].
  - intros Es Cs. injection Es as <-. discriminate.
  - intros Es Cs. injection Es as <-. apply Fin; auto.
  - intros Es Cs. apply (IH md p s _ _ (t_vals t) sv G Lm K' Hg Bd Acy Ad') in Es; auto.
    destruct acc eqn:Ac; auto. right. apply andb_true_iff in Ac as [D _]. apply negb_true_iff in D. eapply accept_held; eauto.
  - intros Es Cs. injection Es as <-. apply Fin; auto.
Qed.

(** C55: if the heuristic never overestimates and is zero on goals, every execution from the start is shorter
    than [max_depth] (so there are no cycles), and the search stopped because no value changed any more, then
    the policy executes a cheapest plan, and the utility of the start is its cost. *)
Theorem C55_optimal : forall max_iter max_depth (p : problem) pol s sv, goal p s = false ->
  (forall u l t c, exec p u l t c -> goal p t = true -> (heur p u <= c)%Z) ->
  (forall u, goal p u = true -> heur p u = 0%Z) ->
  (forall l t c, exec p s l t c -> length l < max_depth) ->
  lrta_solve max_iter max_depth p pol s = Ok sv -> sv_changed sv = false ->
  exists acts t c, exec p s acts t c /\ goal p t = true /\ follows p sv s acts /\ lrta_utility p sv s = Some c /\
    forall l t' c', exec p s l t' c' -> goal p t' = true -> (c <= c')%Z.
Proof.
  intros mi md p pol s sv G Ad Hg Bd E Ch.
  assert (Acy : forall l0 u c0 l c, exec p s l0 u c0 -> exec p u l u c -> l = []).
  { intros l0 u c0 l c X1 X2. destruct l as [|a l]; auto. exfalso.
    assert (P : forall n, exists ln cn, exec p s ln u cn /\ n <= length ln).
    { induction n as [|n (ln & cn & X & Ln)]; [exists l0, c0; split; auto; lia|].
      exists (ln ++ a :: l). eexists. split; [eapply exec_app; eauto|]. rewrite app_length. cbn. lia. }
    destruct (P md) as (ln & cn & X & Ln). specialize (Bd _ _ _ X). lia. }
  apply (trials_optimal mi md p s None pol [] sv G); auto.
  - specialize (Bd [] s 0%Z (ex_nil p s)). cbn in Bd. lia.
  - apply start_goals.
  - intros l0 u c0 l t c _ X Gt. exists (heur p u). split; [reflexivity|eauto].
Qed.
End Props.

(** * Concrete cases *)

(** A graph with costs, the actions being the next states; no heuristic. *)
Definition net (edges : nat -> list (nat * Z)) (goals : list nat) (h : nat -> Z) : @problem nat nat := {|
  apps := fun s => map fst (edges s);
  next := fun _ a => a;
  cost := fun s a _ => match dget (edges s) a with Some c => c | None => 0%Z end;
  goal := fun s => pymem s goals;
  heur := h |}.

(** 0 leads to 1 and 2, both to 3, 2 also back to 1, 3 to the goal 4; 5 is a trap next to 0. *)
Definition trap_edges (s : nat) : list (nat * Z) :=
  match s with
  | 0 => [(5, 1%Z); (1, 2%Z); (2, 6%Z)]
  | 1 => [(3, 7%Z)]
  | 2 => [(3, 2%Z); (1, 1%Z)]
  | 3 => [(4, 1%Z)]
  | _ => []
  end.
Definition trap : @problem nat nat := net trap_edges [4] (fun _ => 0%Z).

Lemma trap_reach : forall s l u c, exec trap s l u c -> s < 6 -> u < 6.
Proof.
  induction 1 as [|s a l u c Ia X IH]; auto. intros L. apply IH. clear -Ia L.
  destruct s as [|[|[|[|s]]]]; cbn in Ia |- *; intuition lia.
Qed.

Example C54_ex : exists sv, lrta_solve 10 10 trap [] 0 = Ok sv /\ follows trap sv 0 [2; 3; 4] /\
  lrta_utility trap sv 0 = Some 9%Z /\ sv_changed sv = false /\
  (forall l u c, exec trap 0 l u c -> In u (seq 0 6)) /\ length (seq 0 6) <= 10 /\ exec trap 0 [2; 3; 4] 4 9.
Proof.
  destruct (lrta_solve 10 10 trap [] 0) as [sv|e] eqn:E; [|vm_compute in E; discriminate].
  exists sv. split; [reflexivity|]. vm_compute in E. injection E as <-.
  split; [vm_compute; repeat split|]. split; [reflexivity|]. split; [reflexivity|].
  split; [|split; [cbn; lia|]].
  - intros l u c X. apply in_seq. pose proof (trap_reach _ _ _ _ X). lia.
  - change 9%Z with (6 + (2 + (1 + 0)))%Z. apply (ex_cons trap 0 2); [cbn; auto|]. apply (ex_cons trap 2 3); [cbn; auto|].
    apply (ex_cons trap 3 4); [cbn; auto|]. constructor.
Qed.

Lemma trap_len : forall l u c, exec trap 0 l u c -> length l < 10.
Proof.
  assert (G : forall s l u c, exec trap s l u c ->
    length l <= match s with 0 => 4 | 2 => 3 | 1 => 2 | 3 => 1 | _ => 0 end).
  { induction 1 as [|s a l u c Ia X IH]; [apply Nat.le_0_l|]. cbn [length]. clear X.
    destruct s as [|[|[|[|s]]]]; cbn in Ia; intuition (subst; cbn in IH |- *; lia). }
  intros l u c X. specialize (G _ _ _ _ X). cbn in G. lia.
Qed.

Example C55_ex : forall l t c, exec trap 0 l t c -> goal trap t = true -> (9 <= c)%Z.
Proof.
  intros l t c X Gt. destruct (lrta_solve 10 10 trap [] 0) as [sv|e] eqn:E; [|vm_compute in E; discriminate].
  destruct (C55_optimal 10 10 trap [] 0 sv) as (acts & t' & c' & _ & _ & _ & U & Min); auto.
  - intros u l' t' c' X'. intros _. clear -X'. cbn. induction X' as [|s a l u c Ia X IH]; [lia|].
    assert (0 <= cost trap s a (next trap s a))%Z; [|lia]. clear -Ia.
    destruct s as [|[|[|[|s]]]]; cbn in Ia; intuition (subst; cbn; lia).
  - exact trap_len.
  - vm_compute in E. injection E as <-. reflexivity.
  - specialize (Min _ _ _ X Gt). vm_compute in E. injection E as <-. vm_compute in U. injection U as <-. exact Min.
Qed.

(** * Findings *)

(** With cycles the search may settle on a plan that is not the cheapest, even without heuristic and with
    positive costs: a state all of whose successors are on the current roll is given an infinite value. *)
Definition ring_edges (s : nat) : list (nat * Z) :=
  match s with
  | 0 => [(1, 1%Z); (2, 2%Z)]
  | 1 => [(3, 10%Z)]
  | 2 => [(3, 1%Z)]
  | 3 => [(2, 1%Z); (4, 20%Z)]
  | _ => []
  end.
Definition ring : @problem nat nat := net ring_edges [4] (fun _ => 0%Z).

Theorem C55_optimal_refuted : exists (p : @problem nat nat) s sv,
  goal p s = false /\ (forall u a, In a (apps p u) -> (1 <= cost p u a (next p u a))%Z) /\ (forall u, heur p u = 0%Z) /\
  lrta_solve 100 100 p [] s = Ok sv /\ sv_changed sv = false /\
  follows p sv s [1; 3; 4] /\ exec p s [1; 3; 4] 4 31 /\ lrta_utility p sv s = Some 31%Z /\
  exec p s [2; 3; 4] 4 23 /\ goal p 4 = true.
Proof.
  destruct (lrta_solve 100 100 ring [] 0) as [sv|e] eqn:E; [|vm_compute in E; discriminate].
  exists ring, 0, sv. split; [reflexivity|]. split; [|split; [reflexivity|split; [exact E|]]].
  - intros s a I. destruct s as [|[|[|[|s]]]]; cbn in I; intuition (subst; cbn; lia).
  - vm_compute in E. injection E as <-. split; [reflexivity|]. split; [vm_compute; repeat split|].
    split; [|split; [reflexivity|split; [|reflexivity]]].
    + change 31%Z with (1 + (10 + (20 + 0)))%Z. apply (ex_cons ring 0 1); [cbn; auto|]. apply (ex_cons ring 1 3); [cbn; auto|].
      apply (ex_cons ring 3 4); [cbn; auto|]. constructor.
    + change 23%Z with (2 + (1 + (20 + 0)))%Z. apply (ex_cons ring 0 2); [cbn; auto|]. apply (ex_cons ring 2 3); [cbn; auto|].
      apply (ex_cons ring 3 4); [cbn; auto|]. constructor.
Qed.

(** Starting in a goal raises KeyError. *)
Theorem C54_goal_start_refuted : exists (p : @problem nat nat) s, goal p s = true /\
  forall max_iter max_depth pol, lrta_solve max_iter max_depth p pol s = Err KeyError.
Proof.
  exists trap, 4. split; [reflexivity|]. intros mi md pol. unfold lrta_solve.
  destruct mi; cbn [trials]; unfold do_trial; destruct md; reflexivity.
Qed.

(** [is_policy_defined_for] is false even on the states for which the policy has an action. *)
Theorem C54_defined_refuted : exists (p : @problem nat nat) s sv a, lrta_solve 10 10 p [] s = Ok sv /\
  lrta_next_action sv s = Some a /\ lrta_policy_defined sv s = false.
Proof.
  destruct (lrta_solve 10 10 trap [] 0) as [sv|e] eqn:E; [|vm_compute in E; discriminate].
  exists trap, 0, sv, 2. vm_compute in E. injection E as <-. repeat split.
Qed.

(** A plan cut by [max_depth] is stored although it does not reach a goal, and no better one is looked for
    once the values settle. *)
Theorem C54_depth_refuted : exists (p : @problem nat nat) s sv t, goal p s = false /\
  lrta_solve 100 1 p [] s = Ok sv /\ sv_changed sv = false /\ follows p sv s [t] /\ exec p s [t] t 0 /\ goal p t = false /\
  exec p s [4] 4 5 /\ goal p 4 = true.
Proof.
  set (q := net (fun s => match s with 0 => [(1, 0%Z); (4, 5%Z)] | 1 => [(1, 0%Z)] | _ => [] end) [4] (fun _ => 0%Z)).
  destruct (lrta_solve 100 1 q [] 0) as [sv|e] eqn:E; [|vm_compute in E; discriminate].
  exists q, 0, sv, 1. split; [reflexivity|]. split; [exact E|]. vm_compute in E. injection E as <-.
  split; [reflexivity|]. split; [vm_compute; repeat split|]. split; [|split; [reflexivity|split; [|reflexivity]]].
  - change 0%Z with (0 + 0)%Z. apply (ex_cons q 0 1); [cbn; auto|]. constructor.
  - change 5%Z with (5 + 0)%Z. apply (ex_cons q 0 4); [cbn; auto|]. constructor.
Qed.

(** Solving again for a domain without solution leaves the old policy in place: it answers with actions
    that are not applicable. *)
Theorem C54_second_solve_refuted : exists (p1 p2 : @problem nat nat) s sv1 sv2 a,
  goal p1 s = false /\ goal p2 s = false /\ lrta_solve 10 10 p1 [] s = Ok sv1 /\
  lrta_solve 10 10 p2 (sv_policy sv1) s = Ok sv2 /\ lrta_next_action sv2 s = Some a /\ ~ In a (apps p2 s).
Proof.
  set (q := net (fun s => match s with 0 => [(1, 1%Z)] | _ => [] end) [4] (fun _ => 0%Z)).
  destruct (lrta_solve 10 10 trap [] 0) as [sv1|e] eqn:E1; [|vm_compute in E1; discriminate].
  destruct (lrta_solve 10 10 q (sv_policy sv1) 0) as [sv2|e] eqn:E2;
    [|vm_compute in E1; injection E1 as <-; vm_compute in E2; discriminate].
  exists trap, q, 0, sv1, sv2, 2. split; [reflexivity|]. split; [reflexivity|]. split; [exact E1|]. split; [exact E2|].
  vm_compute in E1. injection E1 as <-. vm_compute in E2. injection E2 as <-. split; [reflexivity|]. cbn. intuition lia.
Qed.

Print Assumptions C54_plan.
Print Assumptions C54_complete.
Print Assumptions C55_optimal.
Print Assumptions C55_optimal_refuted.
Print Assumptions C54_goal_start_refuted.
Print Assumptions C54_defined_refuted.
Print Assumptions C54_depth_refuted.
Print Assumptions C54_second_solve_refuted.
