(** C52, C53: the A* solver of the C++ hub.

    Specification vocabulary: [exec p s l g c] (top of CppAstarProofs.v) says that the action list [l]
    can be executed from state [s], every action being applicable where it is taken, that it ends in [g],
    and that its transition costs add up to [c].  It mentions only the domain. *)
From Coq Require Import List Bool Arith ZArith Lia Permutation.
From Verif Require Import Py PyList PyMore CppAstarModel CppHeapProofs CppAstarProofs.
Import ListNotations.
Open Scope nat_scope.

(** The sum of [f] over the elements of [L] that are not in a list. *)
Lemma weight_close : forall {K} {EK : PyEq K} (f : K -> nat) L closed x, NoDup L -> In x L -> ~ In x closed ->
  list_sum (map (fun t => if pymem t (x :: closed) then 0 else f t) L) + f x =
  list_sum (map (fun t => if pymem t closed then 0 else f t) L).
Proof.
  intros K EK f L closed x ND Ix Nx. induction L as [|t L IH]; [destruct Ix|].
  inversion ND; subst. cbn [map list_sum fold_right].
  change (pymem t (x :: closed)) with (pyeqb t x || pymem t closed).
  destruct (pyeqb_spec t x) as [ -> |Ntx].
  - cbn [orb]. rewrite (proj2 (pymem_false x closed) Nx).
    assert (E : map (fun t => if pymem t (x :: closed) then 0 else f t) L =
                map (fun t => if pymem t closed then 0 else f t) L).
    { apply map_ext_in. intros t It. change (pymem t (x :: closed)) with (pyeqb t x || pymem t closed).
      destruct (pyeqb_spec t x); [congruence|reflexivity]. }
    rewrite E. unfold list_sum. lia.
  - cbn [orb]. destruct Ix as [E|Ix]; [congruence|]. specialize (IH H2 Ix). unfold list_sum in *. lia.
Qed.

Lemma heap_single : forall X (gt : X -> X -> bool) x, heap gt [x].
Proof. intros X gt x [|[|i]] a b N Ea Eb; [congruence|discriminate|destruct i; discriminate]. Qed.

Section Props.
Context {St A : Type} {ES : PyEq St}.
Notation problem := (@problem St A).
Notation graph := (@graph St A).

Definition start (p : problem) (s : St) : graph :=
  [(s, {| gscore := Some 0%Z; fscore := Some (heur p s); best_parent := None; best_action := None; solved := false |})].

Lemma solve_start : forall fuel (p : problem) s, goal p s = false ->
  solve fuel p [] s = loop fuel p s (start p s) [s] [].
Proof.
  intros fuel p s G. unfold solve, emplace. cbn [dmem dget dset].
  unfold at_. cbn [dget]. rewrite pyeqb_refl. cbn [solved new_node orb]. rewrite G. cbn [dset]. rewrite ?pyeqb_refl.
  reflexivity.
Qed.

Lemma start_inv : forall (p : problem) s, inv p s (start p s) [s] [].
Proof.
  intros p s.
  assert (M : forall t, dmem (start p s) t = true -> t = s).
  { intros t. unfold dmem, start. cbn [dget]. destruct (pyeqb_spec t s); auto. discriminate. }
  assert (Ms : dmem (start p s) s = true) by (unfold dmem, start; cbn [dget]; now rewrite pyeqb_refl).
  assert (Es : at_ (start p s) s = {| gscore := Some 0%Z; fscore := Some (heur p s); best_parent := None;
                                      best_action := None; solved := false |})
    by (unfold at_, start; cbn [dget]; now rewrite pyeqb_refl).
  split; [|split; [intros ? ? []|right; auto]]. constructor.
  - intros t Mt. rewrite (M t Mt), Es. split; reflexivity.
  - rewrite Es. auto.
  - intros t Mt N. apply M in Mt. contradiction.
  - intros ? [].
  - intros [|? ?]; discriminate.
  - intros t [ <- |[]]. exact Ms.
  - intros t Mt _. left. symmetry. auto.
Qed.

(** The two ways a first search can end. *)
Lemma solve_ends : forall fuel (p : problem) s g, goal p s = false -> solve fuel p [] s = Ok g ->
  ends_with p s (fun _ _ _ _ => True) g.
Proof.
  intros fuel p s g G E. rewrite solve_start in E by auto.
  eapply loop_ends; [| |apply start_inv|exact I|exact E]; auto.
Qed.

(** When a goal has been popped, the solution graph holds a path to it. *)
Lemma found : forall (p : problem) s (g : graph) queue closed x g', goal p s = false -> inv p s g queue closed ->
  dmem g x = true -> ~ In x closed -> goal p x = true ->
  backtrack (length g) s x (set_fscore g x (Some 0%Z)) = Ok g' ->
  exists l c, l <> [] /\ exec p s (map snd l) x c /\ gscore (at_ g x) = Some c /\
    hd_st l x = s /\ get_best_value g' x = Ok (Some 0%Z) /\
    forall l1 t a l2, l = l1 ++ (t, a) :: l2 -> exists c2,
      exec p t (a :: map snd l2) x c2 /\ get_best_value g' t = Ok (Some c2) /\ get_best_action g' t = Ok a /\
      is_solution_defined_for g' t = true /\ next p t a = hd_st l2 x.
Proof.
  intros p s g queue closed x g' G (C & K & R) Mx Nx Gx E.
  assert (Nxs : x <> s) by (intros ->; congruence).
  assert (Rc : In s closed).
  { destruct R as [R|[ -> R]]; auto. exfalso. apply Nxs. auto. }
  destruct (open_chain p s _ _ _ x C Rc Mx Nx) as (l & c & Ch & Ll & Gl & Incl).
  assert (Chs : chain p s (set_fscore g x (Some 0%Z)) x l c).
  { eapply chain_ext; [|exact Ch]. intros t. unfold set_fscore. rewrite at_dset.
    destruct (pyeqb_spec x t) as [ <- |]; reflexivity. }
  assert (Len : length l <= length g).
  { transitivity (length closed); auto. rewrite <- (map_length fst g).
    apply NoDup_incl_length.
    - clear -C. assert (H : forall l1 t l2, closed = l1 ++ t :: l2 -> ~ In t l2) by (intros; eapply C; eauto). clear C.
      induction closed as [|t closed IH]; constructor.
      + apply (H [] t closed eq_refl).
      + apply IH. intros l1 u l2 E'. apply (H (t :: l1) u l2). now rewrite E'.
    - intros t It. apply dmem_true. apply C. auto. }
  assert (F0 : fscore (at_ (set_fscore g x (Some 0%Z)) x) = Some 0%Z).
  { unfold set_fscore. rewrite at_dset, pyeqb_refl. reflexivity. }
  destruct (backtrack_spec p s x l c _ (length g) 0%Z Chs Len F0) as (g1 & E1 & E2 & E3 & E4).
  rewrite E in E1. injection E1 as <-.
  exists l, c. split; [|split; [|split; [|split; [|split]]]]; auto.
  - intros ->. inversion Ch; subst; [congruence|]. destruct l; discriminate.
  - eapply chain_exec; eauto.
  - eapply chain_fst; eauto.
  - unfold get_best_value. rewrite E2.
    + unfold set_fscore. rewrite dget_dset_same. reflexivity.
    + intros I. apply Nx. auto.
  - intros l1 t a l2 El. destruct (E4 _ _ _ _ El) as (v & (n & N1 & N2 & N3 & N4) & B & Ex).
    exists v. split; auto. unfold get_best_value, get_best_action, is_solution_defined_for. rewrite N1, N3, N4, E3, B.
    repeat split; auto. clear -Ch El. revert x c l2 El Ch. induction l as [|[q b] l IH] using rev_ind; intros x c l2 El Ch.
    + destruct l1; discriminate.
    + inversion Ch as [|cur pr a' l' c' Ch' N B Ia En NI E1' E2' E3']; [destruct l; discriminate|].
      apply app_inj_tail in E2' as [ -> E2']. injection E2' as -> ->.
      destruct l2 as [|[u d] l2 _] using rev_ind.
      * apply app_inj_tail in El as [ -> El]. injection El as <- <-. cbn. congruence.
      * rewrite app_comm_cons, app_assoc in El. apply app_inj_tail in El as [ -> El]. injection El as <- <-.
        rewrite (IH q c' l2 eq_refl Ch'). destruct l2 as [|[? ?] ?]; reflexivity.
Qed.

(** C52.  After a first solve from a non-goal state, when a solution is defined for it, the solver answers
    it with the first action of an executable sequence to a goal, and each state on the way with the
    next one; it reports a solution for all of them, and the value of each is the cost of the rest. *)
Theorem C52_plan : forall fuel (p : problem) s g, goal p s = false -> solve fuel p [] s = Ok g ->
  is_solution_defined_for g s = true ->
  exists acts goal_state total,
    goal p goal_state = true /\ acts <> [] /\ exec p s acts goal_state total /\
    forall done todo, acts = done ++ todo -> exists t c1 c2,
      exec p s done t c1 /\ exec p t todo goal_state c2 /\ (c1 + c2 = total)%Z /\
      get_best_value g t = Ok (Some c2) /\
      match todo with
      | [] => t = goal_state
      | a :: _ => is_solution_defined_for g t = true /\ get_best_action g t = Ok a /\
                  forall fuel', get_next_action fuel' p g t = Ok (a, g)
      end.
Proof.
  intros fuel p s g G E D. destruct (solve_ends _ _ _ _ G E) as [(closed & I)|(n & g0 & queue & q1 & closed & x & I & _ & Hp & Nx & Gx & B)].
  - exfalso. unfold is_solution_defined_for in D. destruct (dget g s) as [n|] eqn:Es; [|discriminate].
    assert (M : dmem g s = true) by (unfold dmem; now rewrite Es).
    destruct (c_fresh _ _ _ _ _ (proj1 I) s M) as [F1 F2]. rewrite (at_get _ _ _ Es) in F1. rewrite F1 in D. discriminate.
  - assert (Mx : dmem g0 x = true).
    { pose proof (heap_pop_perm (after g0) queue) as P. rewrite Hp in P. destruct P as [P _].
      apply (c_queue _ _ _ _ _ (proj1 I)). apply (Permutation_in _ (Permutation_sym P)). now left. }
    destruct (found _ _ _ _ _ _ _ G I Mx Nx Gx B) as (l & c & NE & Ex & _ & Hd & V0 & H).
    exists (map snd l), x, c. split; auto. split; [destruct l; [congruence|discriminate]|]. split; auto.
    assert (Pre : forall l1 l2, l = l1 ++ l2 -> exists c1 c2, exec p s (map snd l1) (hd_st l2 x) c1 /\
              exec p (hd_st l2 x) (map snd l2) x c2 /\ (c1 + c2 = c)%Z /\ get_best_value g (hd_st l2 x) = Ok (Some c2)).
    { assert (Post : forall l2 l1, l = l1 ++ l2 -> exists c2, exec p (hd_st l2 x) (map snd l2) x c2 /\
                       get_best_value g (hd_st l2 x) = Ok (Some c2)).
      { intros [|[t a] l2] l1 El.
        - exists 0%Z. cbn. split; [constructor|exact V0].
        - destruct (H _ _ _ _ El) as (c2 & X1 & X2 & _). exists c2. auto. }
      intros l1. induction l1 as [|[t a] l1 IH] using rev_ind; intros l2 El.
      - destruct (Post l2 [] El) as (c2 & X1 & X2). exists 0%Z, c. cbn in El. subst l2. rewrite Hd in *.
        split; [constructor|]. split; auto. split; [lia|].
        rewrite X2. do 2 f_equal. clear -X1 Ex. revert s c2 X1 c Ex. generalize (map snd l). intros acts.
        induction acts as [|b acts IH]; intros s c2 X1 c Ex; inversion X1; inversion Ex; subst; auto.
        f_equal. eauto.
      - rewrite <- app_assoc in El. cbn [app] in El. destruct (IH _ El) as (c1 & c2 & X1 & X2 & X3 & X4).
        destruct (H _ _ _ _ El) as (_ & _ & _ & _ & _ & Nx').
        destruct (Post l2 (l1 ++ [(t, a)])) as (c3 & Y1 & Y2); [now rewrite <- app_assoc|].
        cbn [hd_st map snd] in X1, X2. inversion X2 as [|? ? ? ? c4 Ia X5]; subst.
        rewrite Nx' in X5. assert (c4 = c3).
        { clear -X5 Y1. revert X5 Y1. generalize (hd_st l2 x), (map snd l2). intros u acts. revert u c3 c4.
          induction acts as [|b acts IH]; intros u c3 c4 X5 Y1; inversion X5; inversion Y1; subst; auto. f_equal. eauto. }
        subst c4. exists (c1 + cost p t a (next p t a))%Z, c3. rewrite map_app. cbn [map snd].
        split; [|split; [|split]]; auto; [|lia]. rewrite <- Nx'. now apply exec_snoc. }
    intros done todo Es.
    assert (Sp : exists l1 l2, l = l1 ++ l2 /\ map snd l1 = done /\ map snd l2 = todo).
    { clear -Es. revert l Es. induction done as [|a done IH]; intros l Es; [exists [], l; auto|].
      destruct l as [|[t b] l]; [discriminate|]. injection Es as -> Es. destruct (IH _ Es) as (l1 & l2 & -> & <- & <-).
      exists ((t, a) :: l1), l2. auto. }
    destruct Sp as (l1 & l2 & El & <- & <-). destruct (Pre _ _ El) as (c1 & c2 & X1 & X2 & X3 & X4).
    exists (hd_st l2 x), c1, c2. repeat (split; [assumption|]).
    destruct l2 as [|[t a] l2]; [reflexivity|]. destruct (H _ _ _ _ El) as (_ & _ & _ & Y1 & Y2 & _).
    cbn [hd_st map snd]. repeat split; auto. intros fuel'. unfold get_next_action. rewrite Y2. cbn [bind].
    rewrite Y1. reflexivity.
Qed.

(** C52.  A first solve that ends reports a solution exactly when some goal can be reached. *)
Theorem C52_complete : forall fuel (p : problem) s g, goal p s = false -> solve fuel p [] s = Ok g ->
  (is_solution_defined_for g s = true <-> exists l t c, exec p s l t c /\ goal p t = true).
Proof.
  intros fuel p s g G E. split.
  - intros D. destruct (C52_plan _ _ _ _ G E D) as (acts & t & c & H1 & _ & H2 & _). eauto.
  - intros (l & t & c & Ex & Gt).
    destruct (solve_ends _ _ _ _ G E) as [(closed & C & K & R)|(n & g0 & queue & q1 & closed & x & I & _ & Hp & Nx & Gx & B)].
    + exfalso. assert (All : forall u, dmem g u = true -> In u closed).
      { intros u M. destruct (pymem u closed) eqn:Pu; [now apply pymem_true in Pu|].
        destruct (c_open _ _ _ _ _ C u M (proj1 (pymem_false u closed) Pu)). }
      assert (Rc : forall u l' u' c', exec p u l' u' c' -> In u closed -> In u' closed).
      { induction 1 as [u|u a l' u' c' Ia Ex' IH]; intros Iu; auto. apply IH. apply All. apply K; auto. }
      assert (It : In t closed). { apply (Rc _ _ _ _ Ex). apply All. apply C. }
      destruct (c_closed _ _ _ _ _ C t It). congruence.
    + assert (Mx : dmem g0 x = true).
      { pose proof (heap_pop_perm (after g0) queue) as P. rewrite Hp in P. destruct P as [P _].
        apply (c_queue _ _ _ _ _ (proj1 I)). apply (Permutation_in _ (Permutation_sym P)). now left. }
      destruct (found _ _ _ _ _ _ _ G I Mx Nx Gx B) as (l' & c' & NE & _ & _ & Hd & _ & H).
      destruct l' as [|[u a] l']; [congruence|]. cbn in Hd. subst u.
      destruct (H [] s a l' eq_refl) as (_ & _ & _ & _ & D & _). exact D.
Qed.

(** C52.  With finitely many reachable states (all in [L]) the solve ends: the number of turns needed is
    bounded by the number of transitions. *)
Theorem C52_terminates : forall (p : problem) s L, In s L -> (forall t a, In t L -> In a (apps p t) -> In (next p t a) L) ->
  NoDup L ->
  forall fuel, 1 + list_sum (map (fun t => length (apps p t)) L) < fuel ->
  exists g, solve fuel p [] s = Ok g.
Proof.
  intros p s L Is Cl ND fuel F. destruct (goal p s) eqn:G.
  { unfold solve. destruct (emplace [] s) as [g1 b]. rewrite G, orb_true_r. eauto. }
  rewrite solve_start by auto.
  set (w := fun closed => list_sum (map (fun t => if pymem t closed then 0 else length (apps p t)) L)).
  assert (W : forall closed x, In x L -> ~ In x closed -> w (x :: closed) + length (apps p x) = w closed).
  { intros closed x Ix Nx. apply (weight_close (fun t => length (apps p t))); auto. }
  assert (T : forall fuel g queue closed, inv p s g queue closed -> incl queue L -> length queue + w closed < fuel ->
    exists g', loop fuel p s g queue closed = Ok g').
  { clear fuel F. induction fuel as [|fuel IH]; intros g queue closed I Iq F; [lia|].
    cbn [loop]. pose proof (heap_pop_perm (after g) queue) as Pm.
    destruct (heap_pop (after g) queue) as [[x queue1]|] eqn:Ep; [|eauto].
    destruct Pm as [Pm _]. pose proof (Permutation_length Pm) as PL. cbn [length] in PL.
    assert (Ix : In x L). { apply Iq. apply (Permutation_in _ (Permutation_sym Pm)). now left. }
    assert (Iq1 : incl queue1 L). { intros t It. apply Iq. apply (Permutation_in _ (Permutation_sym Pm)). now right. }
    destruct (pymem x closed) eqn:Ex.
    - apply pymem_true in Ex. apply IH; auto; [eapply skip_inv; eauto|lia].
    - assert (Nx : ~ In x closed) by exact (proj1 (pymem_false x closed) Ex).
      assert (Mx : dmem g x = true).
      { apply (c_queue _ _ _ _ _ (proj1 I)). apply (Permutation_in _ (Permutation_sym Pm)). now left. }
      pose proof (not_solved _ _ _ _ _ _ (proj1 I) Mx) as NS. rewrite NS, orb_false_r.
      destruct (goal p x) eqn:Gx.
      + destruct I as (C & K & R). assert (Nxs : x <> s) by (intros ->; congruence).
        assert (Rc : In s closed). { destruct R as [R|[ -> R]]; auto. exfalso. apply Nxs. auto. }
        destruct (open_chain p s _ _ _ x C Rc Mx Nx) as (l & c & Ch & Ll & Gl & Incl).
        assert (Chs : chain p s (set_fscore g x (Some 0%Z)) x l c).
        { eapply chain_ext; [|exact Ch]. intros t. unfold set_fscore. rewrite at_dset.
          destruct (pyeqb_spec x t) as [ <- |]; reflexivity. }
        assert (Len : length l <= length (set_fscore g x (Some 0%Z))).
        { rewrite set_length by auto. transitivity (length closed); auto. rewrite <- (map_length fst g).
          apply NoDup_incl_length.
          - clear -C. assert (H : forall l1 t l2, closed = l1 ++ t :: l2 -> ~ In t l2) by (intros; eapply C; eauto). clear C.
            induction closed as [|t closed IH]; constructor.
            + apply (H [] t closed eq_refl).
            + apply IH. intros l1 u l2 E'. apply (H (t :: l1) u l2). now rewrite E'.
          - intros t It. apply dmem_true. apply C. auto. }
        assert (F0 : fscore (at_ (set_fscore g x (Some 0%Z)) x) = Some 0%Z).
        { unfold set_fscore. rewrite at_dset, pyeqb_refl. reflexivity. }
        destruct (backtrack_spec p s x l c _ _ 0%Z Chs Len F0) as (g1 & E1 & _). eauto.
      + destruct (fold_left _ _ _) as [g2 queue2] eqn:Ef.
        destruct (step_inv _ _ _ _ _ _ _ _ _ I Pm Nx Gx Ef) as (I2 & _ & L2 & _).
        apply IH; auto.
        * intros t It. assert (Q : forall l g0 q0 g3 q3, incl l (apps p x) -> incl q0 L ->
            fold_left (expand p (x :: closed) x) l (g0, q0) = (g3, q3) -> incl q3 L).
          { clear -Cl Ix. induction l as [|a l IH]; intros g0 q0 g3 q3 Il I0 E; [injection E as <- <-; auto|].
            cbn [fold_left] in E. destruct (expand p (x :: closed) x (g0, q0) a) as [g4 q4] eqn:E4.
            apply (IH g4 q4 g3 q3); auto; [intros b Ib; apply Il; now right|].
            assert (Iy : In (next p x a) L) by (apply Cl; auto; apply Il; now left).
            unfold expand in E4. cbv zeta in E4. destruct (emplace g0 (next p x a)) as [g5 b5].
            destruct (pymem (next p x a) (x :: closed)); [injection E4 as <- <-; auto|].
            destruct (_ || _); injection E4 as <- <-; auto.
            intros u Iu. apply (Permutation_in _ (heap_push_perm _ _ _)) in Iu as [ <- |Iu]; auto. }
          eapply (Q (apps p x)); eauto. apply incl_refl.
        * specialize (W closed x Ix Nx). lia. }
  apply T.
  - apply start_inv.
  - intros t [ <- |[]]. auto.
  - cbn [length]. unfold w. cbn [pymem]. exact F.
Qed.

Lemma popped_least : forall (p : problem) s g queue x queue1, (exists closed, inv p s g queue closed) ->
  heap (after g) queue -> heap_pop (after g) queue = Some (x, queue1) ->
  forall y vx vy, In y queue -> gscore (at_ g x) = Some vx -> gscore (at_ g y) = Some vy ->
  (vx + heur p x <= vy + heur p y)%Z.
Proof.
  intros p s g queue x queue1 I' H E y vx vy Iy Gx Gy.
  destruct I' as (closed & C & _ & _).
  destruct (heap_pop_heap (after g) (fun u v => fgt_asym _ _) (fun u v w => fgt_trans _ _ _) queue x queue1 H E) as [_ L].
  specialize (L y Iy). unfold after in L.
  assert (Ix : In x queue).
  { pose proof (heap_pop_perm (after g) queue) as P. rewrite E in P. apply (Permutation_in _ (Permutation_sym (proj1 P))). now left. }
  destruct (gscore_known p s _ _ _ x C (c_queue _ _ _ _ _ C x Ix)) as (v1 & V1 & F1).
  destruct (gscore_known p s _ _ _ y C (c_queue _ _ _ _ _ C y Iy)) as (v2 & V2 & F2).
  rewrite F1, F2 in L. cbn in L. rewrite Gx in V1. rewrite Gy in V2. injection V1 as <-. injection V2 as <-. lia.
Qed.

(** *** optimality *)
Section Optimal.
Variable p : problem.
Variable s : St.
Hypothesis Gs : goal p s = false.
Hypothesis CS : forall t a, In a (apps p t) -> (heur p t <= cost p t a (next p t a) + heur p (next p t a))%Z.

Lemma consistent_exec : forall t l u c, exec p t l u c -> (heur p t <= c + heur p u)%Z.
Proof. induction 1 as [t|t a l u c Ia Ex IH]; [lia|]. specialize (CS t a Ia). lia. Qed.

Definition best (g : graph) (closed : list St) : Prop :=
  forall t l c, In t closed -> exec p s l t c -> exists v, gscore (at_ g t) = Some v /\ (v <= c)%Z.

(** A path out of the closed nodes leaves them through a queued node whose score is at most the cost so far. *)
Lemma exit : forall g queue closed, inv p s g queue closed -> best g closed -> In s closed ->
  forall l t c, exec p s l t c -> ~ In t closed ->
  exists y v c2, In y queue /\ ~ In y closed /\ dmem g y = true /\ gscore (at_ g y) = Some v /\
    (exists l2, exec p y l2 t c2) /\ (v + c2 <= c)%Z.
Proof.
  intros g queue closed (C & K & R) Bst Ic l t c Ex Nt.
  assert (X : forall u l' t' c', exec p u l' t' c' -> forall l0 c0, exec p s l0 u c0 -> In u closed -> ~ In t' closed ->
    exists y v c2, In y queue /\ ~ In y closed /\ dmem g y = true /\ gscore (at_ g y) = Some v /\
      (exists l2, exec p y l2 t' c2) /\ (v + c2 <= c0 + c')%Z).
  { induction 1 as [u|u a l' t' c' Ia Ex' IH]; intros l0 c0 E0 Iu Nt'; [contradiction|].
    destruct (pymem (next p u a) closed) eqn:Pn.
    - apply pymem_true in Pn. destruct (IH _ _ (exec_snoc p _ _ _ _ _ E0 Ia) Pn Nt') as (y & v & c2 & Y1 & Y2 & Y3 & Y4 & Y5 & Y6).
      exists y, v, c2. repeat (split; [assumption|]). lia.
    - assert (Nn : ~ In (next p u a) closed) by exact (proj1 (pymem_false _ _) Pn).
      destruct (K u a Iu Ia) as [M [I|(gs & gn & G1 & G2 & Le)]]; [contradiction|].
      destruct (Bst u l0 c0 Iu E0) as (v & V & Lv). rewrite G1 in V. injection V as ->.
      exists (next p u a), gn, c'. split; [apply (c_open _ _ _ _ _ C); auto|].
      repeat (split; [assumption|]). split; [eauto|]. lia. }
  destruct (X _ _ _ _ Ex [] 0%Z (ex_nil p s) Ic Nt) as (y & v & c2 & Y1 & Y2 & Y3 & Y4 & Y5 & Y6).
  exists y, v, c2. repeat (split; [assumption|]). lia.
Qed.

Definition good (n : nat) (g : graph) (queue closed : list St) : Prop :=
  stable p n g queue closed /\ heap (after g) queue /\ best g closed.

Lemma best_step : forall g queue closed x queue1, inv p s g queue closed -> heap (after g) queue -> best g closed ->
  heap_pop (after g) queue = Some (x, queue1) -> ~ In x closed ->
  forall l c, exec p s l x c -> exists v, gscore (at_ g x) = Some v /\ (v <= c)%Z.
Proof.
  intros g queue closed x queue1 I H Bst Hp Nx l c Ex.
  assert (Ix : In x queue).
  { pose proof (heap_pop_perm (after g) queue) as P. rewrite Hp in P. apply (Permutation_in _ (Permutation_sym (proj1 P))). now left. }
  assert (Mx : dmem g x = true) by (apply (c_queue _ _ _ _ _ (proj1 I)); auto).
  destruct (gscore_known p s _ _ _ x (proj1 I) Mx) as (v & V & F). exists v. split; auto.
  destruct (proj2 (proj2 I)) as [Rc|[Ec R]].
  - destruct (exit _ _ _ I Bst Rc _ _ _ Ex Nx) as (y & vy & c2 & Y1 & Y2 & Y3 & Y4 & (l2 & Y5) & Y6).
    pose proof (popped_least p s _ _ _ _ (ex_intro _ closed I) H Hp y v vy Y1 V Y4).
    pose proof (consistent_exec _ _ _ _ Y5). lia.
  - assert (x = s) by auto. subst x. destruct (c_root _ _ _ _ _ (proj1 I)) as (_ & G0 & _).
    rewrite G0 in V. injection V as <-. pose proof (consistent_exec _ _ _ _ Ex). lia.
Qed.

(** When no queued node is ever reached more cheaply, the plan found is a cheapest one. *)
Lemma optimal : (forall t, goal p t = true -> heur p t = 0%Z) ->
  forall fuel g, stable p fuel (start p s) [s] [] -> solve fuel p [] s = Ok g ->
  forall l t c, exec p s l t c -> goal p t = true ->
  exists v, get_best_value g s = Ok (Some v) /\ (v <= c)%Z.
Proof.
  intros HG fuel g Sb E l t c Ex Gt.
  pose proof (proj2 (C52_complete _ _ _ _ Gs E) (ex_intro _ l (ex_intro _ t (ex_intro _ c (conj Ex Gt))))) as D.
  rewrite solve_start in E by auto.
  assert (EW : ends_with p s good g).
  { eapply loop_ends; [| |apply start_inv| |exact E].
    - intros n g0 queue closed x queue1 I (S1 & S2 & S3) Hp Ix. cbn [stable] in S1. rewrite Hp in S1.
      rewrite (proj2 (pymem_true x closed) Ix) in S1. split; auto. split; auto.
      eapply heap_pop_heap; [| |exact S2|exact Hp]; [intros ? ?; apply fgt_asym|intros ? ? ?; apply fgt_trans].
    - intros n g0 queue closed x queue1 g2 queue2 I (S1 & S2 & S3) Hp Nx Gx Sx Ef I2. cbn [stable] in S1. rewrite Hp in S1.
      rewrite (proj2 (pymem_false x closed) Nx), Gx, Sx in S1. cbn [orb] in S1. rewrite Ef in S1. destruct S1 as [S0 S1].
      pose proof (heap_pop_perm (after g0) queue) as P. rewrite Hp in P. destruct P as [P _].
      destruct (step_inv _ _ _ _ _ _ _ _ _ I P Nx Gx Ef) as (_ & V & _ & _ & _ & Hh & _).
      assert (Bx := best_step _ _ _ _ _ I S2 S3 Hp Nx).
      split; auto. split.
      + apply Hh; auto. eapply heap_pop_heap; [| |exact S2|exact Hp]; [intros ? ?; apply fgt_asym|intros ? ? ?; apply fgt_trans].
      + intros u lu cu Iu Eu. rewrite (at_ext g2 g0 u) by (apply V; auto).
        destruct Iu as [ <- |Iu]; eauto.
    - split; [exact Sb|]. split; [apply heap_single|intros ? ? ? []]. }
  destruct EW as [(closed & C & K & R)|(n & g0 & queue & q1 & closed & x & I & (S1 & S2 & S3) & Hp & Nx & Gx & B)].
  - exfalso. unfold is_solution_defined_for in D. destruct (dget g s) as [n|] eqn:Es; [|discriminate].
    assert (M : dmem g s = true) by (unfold dmem; now rewrite Es).
    destruct (c_fresh _ _ _ _ _ C s M) as [F1 F2]. rewrite (at_get _ _ _ Es) in F1. rewrite F1 in D. discriminate.
  - pose proof (heap_pop_perm (after g0) queue) as P. rewrite Hp in P. destruct P as [P _].
    assert (Ix : In x queue) by (apply (Permutation_in _ (Permutation_sym P)); now left).
    assert (Mx : dmem g0 x = true) by (apply (c_queue _ _ _ _ _ (proj1 I)); auto).
    destruct (found _ _ _ _ _ _ _ Gs I Mx Nx Gx B) as (l' & c' & NE & Ex' & Gc & Hd & _ & H).
    destruct l' as [|[u a] l']; [congruence|]. cbn in Hd. subst u.
    destruct (H [] s a l' eq_refl) as (c2 & X1 & X2 & _). exists c2. split; auto.
    assert (c2 = c').
    { clear -X1 Ex'. revert X1 Ex'. cbn [map snd]. generalize (a :: map snd l'). intros acts. revert c2 c'. generalize s.
      induction acts as [|b acts IH]; intros u c2 c' X5 Y1; inversion X5; inversion Y1; subst; auto. f_equal. eauto. }
    subst c2. assert (Nt : ~ In t closed).
    { intros It. destruct (c_closed _ _ _ _ _ (proj1 I) t It). congruence. }
    assert (Rc : In s closed).
    { destruct (proj2 (proj2 I)) as [Rc|[ -> R]]; auto. exfalso. assert (x = s) by auto. subst x. congruence. }
    destruct (exit _ _ _ I S3 Rc _ _ _ Ex Nt) as (y & vy & c2 & Y1 & Y2 & Y3 & Y4 & (l2 & Y5) & Y6).
    pose proof (popped_least p s _ _ _ _ (ex_intro _ closed I) S2 Hp y c' vy Y1 Gc Y4).
    pose proof (consistent_exec _ _ _ _ Y5). rewrite (HG t Gt) in *. rewrite (HG x Gx) in *. lia.
Qed.
End Optimal.

(** Distinct transitions lead to distinct states. *)
Lemma tree_steady : forall (p : problem) s closed x,
  (forall t a t' a', In a (apps p t) -> In a' (apps p t') -> next p t a = next p t' a' -> t = t' /\ a = a') ->
  In x closed -> In s closed ->
  forall l g queue, core p s g queue closed -> incl l (apps p x) -> steady p closed x l (g, queue).
Proof.
  intros p s closed x Inj Ix Is. induction l as [|a l IH]; intros g queue C Il; [exact I|].
  cbn [steady fst]. assert (Ia : In a (apps p x)) by (apply Il; now left). split.
  - unfold improves. destruct (dmem g (next p x a)) eqn:M; auto. cbn [andb].
    destruct (pymem (next p x a) closed) eqn:Pn; auto. cbn [negb andb].
    assert (Nn : ~ In (next p x a) closed) by exact (proj1 (pymem_false _ _) Pn).
    assert (N : next p x a <> s) by congruence.
    destruct (c_link _ _ _ _ _ C _ M N) as (pr & b & gp & Ip & Ib & Nx & _ & Gp & Gn & _).
    destruct (Inj _ _ _ _ Ib Ia Nx) as [ -> -> ]. rewrite Gp, Gn. cbn. lia.
  - destruct (expand p closed x (g, queue) a) as [g1 q1] eqn:E1.
    destruct (expand_core _ _ _ _ _ _ _ _ _ C Ix Is Ia E1) as (C1 & _). apply IH; auto.
    intros b Ib. apply Il. now right.
Qed.

Lemma tree_stable : forall (p : problem) s,
  (forall t a t' a', In a (apps p t) -> In a' (apps p t') -> next p t a = next p t' a' -> t = t' /\ a = a') ->
  forall fuel g queue closed, inv p s g queue closed -> stable p fuel g queue closed.
Proof.
  intros p s Inj. induction fuel as [|fuel IH]; intros g queue closed I; [exact Logic.I|].
  cbn [stable]. pose proof (heap_pop_perm (after g) queue) as Pm.
  destruct (heap_pop (after g) queue) as [[x queue1]|] eqn:Ep; auto. destruct Pm as [Pm _].
  destruct (pymem x closed) eqn:Ex.
  - apply pymem_true in Ex. apply IH. eapply skip_inv; eauto.
  - assert (Nx : ~ In x closed) by exact (proj1 (pymem_false x closed) Ex).
    destruct (goal p x || solved (at_ g x)) eqn:Gx; auto. apply orb_false_iff in Gx as [Gx _].
    destruct (fold_left _ _ _) as [g2 queue2] eqn:Ef.
    destruct (step_inv _ _ _ _ _ _ _ _ _ I Pm Nx Gx Ef) as (I2 & _ & _ & C' & R' & _).
    split; auto. apply (tree_steady p s); auto; [now left|apply incl_refl].
Qed.

(** C53.  When distinct transitions lead to distinct states and the heuristic is consistent and zero on goals,
    no execution from the start to a goal is cheaper than the value of the start. *)
Theorem C53_optimal_tree : forall fuel (p : problem) s g, goal p s = false ->
  (forall t a, In a (apps p t) -> (heur p t <= cost p t a (next p t a) + heur p (next p t a))%Z) ->
  (forall t, goal p t = true -> heur p t = 0%Z) ->
  (forall t a t' a', In a (apps p t) -> In a' (apps p t') -> next p t a = next p t' a' -> t = t' /\ a = a') ->
  solve fuel p [] s = Ok g ->
  forall l t c, exec p s l t c -> goal p t = true ->
  exists v, get_best_value g s = Ok (Some v) /\ (v <= c)%Z.
Proof.
  intros fuel p s g G CS HG Inj E l t c Ex Gt. eapply optimal; eauto. eapply tree_stable; eauto. apply start_inv.
Qed.

(** Every transition costs the same and the heuristic is zero (the default): breadth-first search. *)
Lemma uniform_stable : forall (p : problem) s k, (0 <= k)%Z ->
  (forall t a, In a (apps p t) -> cost p t a (next p t a) = k) -> (forall t, heur p t = 0%Z) ->
  forall fuel g queue closed m, inv p s g queue closed -> heap (after g) queue ->
  (forall t v, In t closed -> gscore (at_ g t) = Some v -> (v <= m)%Z) ->
  (forall t v, In t queue -> ~ In t closed -> gscore (at_ g t) = Some v -> (m <= v)%Z) ->
  stable p fuel g queue closed.
Proof.
  intros p s k Hk U H0. induction fuel as [|fuel IH]; intros g queue closed m I Hh Lo Hi; [exact Logic.I|].
  cbn [stable]. pose proof (heap_pop_perm (after g) queue) as Pm.
  destruct (heap_pop (after g) queue) as [[x queue1]|] eqn:Ep; auto. destruct Pm as [Pm _].
  assert (Hh1 : heap (after g) queue1).
  { eapply heap_pop_heap; [| |exact Hh|exact Ep]; [intros ? ?; apply fgt_asym|intros ? ? ?; apply fgt_trans]. }
  assert (Ixq : In x queue) by (apply (Permutation_in _ (Permutation_sym Pm)); now left).
  destruct (pymem x closed) eqn:Ex.
  - apply pymem_true in Ex. apply (IH g queue1 closed m); auto; [eapply skip_inv; eauto|].
    intros t v It. apply Hi. apply (Permutation_in _ (Permutation_sym Pm)). now right.
  - assert (Nx : ~ In x closed) by exact (proj1 (pymem_false x closed) Ex).
    destruct (goal p x || solved (at_ g x)) eqn:Gx; auto. apply orb_false_iff in Gx as [Gx _].
    destruct (fold_left _ _ _) as [g2 queue2] eqn:Ef.
    destruct (step_inv _ _ _ _ _ _ _ _ _ I Pm Nx Gx Ef) as (I2 & V2 & _ & C' & R' & Hh2 & O2 & W2).
    assert (Mx : dmem g x = true) by (apply (c_queue _ _ _ _ _ (proj1 I)); auto).
    destruct (gscore_known p s _ _ _ x (proj1 I) Mx) as (vx & Vx & _).
    pose proof (Hi x vx Ixq Nx Vx) as Lx.
    assert (Lo' : forall t v, In t (x :: closed) -> gscore (at_ g t) = Some v -> (v <= vx)%Z).
    { intros t v [ <- |It] Gt; [rewrite Vx in Gt; injection Gt as <-; lia|]. specialize (Lo t v It Gt). lia. }
    assert (Sd : steady p (x :: closed) x (apps p x) (g, queue1)).
    { assert (X : forall l g0 q0, core p s g0 q0 (x :: closed) -> incl l (apps p x) -> gscore (at_ g0 x) = Some vx ->
         (forall t v, In t (x :: closed) -> gscore (at_ g0 t) = Some v -> (v <= vx)%Z) -> steady p (x :: closed) x l (g0, q0)).
      { induction l as [|a l IHl]; intros g0 q0 C Il G0 B0; [exact Logic.I|].
        cbn [steady fst]. assert (Ia : In a (apps p x)) by (apply Il; now left). split.
        - unfold improves. destruct (dmem g0 (next p x a)) eqn:M; auto. cbn [andb].
          destruct (pymem (next p x a) (x :: closed)) eqn:Pn; auto. cbn [negb andb].
          assert (Nn : ~ In (next p x a) (x :: closed)) by exact (proj1 (pymem_false _ _) Pn).
          assert (N : next p x a <> s) by congruence.
          destruct (c_link _ _ _ _ _ C _ M N) as (pr & b & gp & Ip & Ib & Nxt & _ & Gp & Gn & _).
          rewrite G0, Gn. cbn [fadd flt fgt]. rewrite <- Nxt at 2. rewrite U by auto. rewrite U by auto.
          specialize (B0 pr gp Ip Gp). lia.
        - destruct (expand p (x :: closed) x (g0, q0) a) as [g1 q1] eqn:E1.
          destruct (expand_core _ _ _ _ _ _ _ _ _ C (or_introl eq_refl) R' Ia E1) as (C1 & V1 & _).
          apply IHl; auto.
          + intros b Ib. apply Il. now right.
          + rewrite (at_ext g1 g0 x); auto. apply V1. now left.
          + intros t v It. rewrite (at_ext g1 g0 t) by (apply V1; auto). exact (B0 t v It). }
      apply X; auto. apply incl_refl. }
    split; auto. apply (IH g2 queue2 (x :: closed) vx); auto.
    + intros t v It. rewrite (at_ext g2 g t) by (apply V2; auto). exact (Lo' t v It).
    + intros t v It Nt Gt. destruct (dmem g t) eqn:Mt.
      * rewrite (at_ext g2 g t) in Gt by auto.
        assert (Nt' : ~ In t closed) by (intros X; apply Nt; now right).
        assert (Itq : In t queue) by (apply (c_open _ _ _ _ _ (proj1 I)); auto).
        pose proof (popped_least p s _ _ _ _ (ex_intro _ closed I) Hh Ep t vx v Itq Vx Gt) as X.
        rewrite !H0 in X. lia.
      * assert (Mt2 : dmem g2 t = true) by (apply (c_queue _ _ _ _ _ (proj1 I2)); auto).
        destruct (W2 Sd t Mt2 Mt) as (a & Ia & -> & Gn). rewrite Gn, Vx in Gt. cbn in Gt. injection Gt as <-.
        rewrite U by auto. lia.
Qed.

(** C53.  When every transition costs the same and no heuristic is given, the plan found is a shortest one. *)
Theorem C53_optimal_uniform : forall fuel (p : problem) s g k, goal p s = false -> (0 <= k)%Z ->
  (forall t a, In a (apps p t) -> cost p t a (next p t a) = k) -> (forall t, heur p t = 0%Z) ->
  solve fuel p [] s = Ok g ->
  forall l t c, exec p s l t c -> goal p t = true ->
  exists v, get_best_value g s = Ok (Some v) /\ (v <= c)%Z.
Proof.
  intros fuel p s g k G Hk U H0 E l t c Ex Gt. eapply optimal; eauto.
  - intros u a Ia. rewrite !H0, U by auto. lia.
  - apply (uniform_stable p s k Hk U H0 fuel (start p s) [s] [] 0%Z).
    + apply start_inv.
    + apply heap_single.
    + intros ? ? [].
    + intros u v [ <- |[]] _. unfold at_, start. cbn [dget]. rewrite pyeqb_refl. cbn. intros X. injection X as <-. lia.
Qed.
End Props.

(** *** A family of concrete problems: a weighted graph on numbers; an action is the state it leads to. *)
Definition web (edges : nat -> list (nat * Z)) (goals : list nat) : @problem nat nat := {|
  apps := fun s => map fst (edges s);
  next := fun _ a => a;
  cost := fun s a _ => match dget (edges s) a with Some c => c | None => 0%Z end;
  goal := fun s => pymem s goals;
  heur := fun _ => 0%Z |}.

(** Every transition costs at least one. *)
Definition positive (p : @problem nat nat) : Prop := forall s a, In a (apps p s) -> (1 <= cost p s a (next p s a))%Z.

(** A detour: the direct edge to the goal 5 costs 15, the way 2, 3, 1, 5 costs 10. *)
Definition detour_edges (s : nat) : list (nat * Z) :=
  match s with
  | 0 => [(2, 1%Z); (5, 15%Z); (3, 18%Z)]
  | 1 => [(5, 4%Z)]
  | 2 => [(1, 14%Z); (3, 4%Z)]
  | 3 => [(1, 1%Z)]
  | _ => []
  end.
Definition detour : @problem nat nat := web detour_edges [5].

(** Finding: with positive costs and the default (zero) heuristic the plan may be far from cheapest: the
    score of a node is lowered while it lies in the priority queue, whose order is not restored. *)
Theorem C53_optimal_refuted : exists (p : @problem nat nat) s g acts t,
  goal p s = false /\ positive p /\ (forall u, heur p u = 0%Z) /\ solve 100 p [] s = Ok g /\
  get_best_value g s = Ok (Some 15%Z) /\ exec p s acts t 10%Z /\ goal p t = true.
Proof.
  destruct (solve 100 detour [] 0) as [g|e] eqn:E; [|vm_compute in E; discriminate].
  exists detour, 0, g, [2; 3; 1; 5], 5. split; [reflexivity|]. split; [|split; [reflexivity|split; [exact E|split; [|split]]]].
  - intros s a I. destruct s as [|[|[|[|s]]]]; cbn in I |- *; try tauto;
      repeat (destruct I as [ <- |I]; [cbn; lia|]); destruct I.
  - vm_compute in E. injection E as <-. reflexivity.
  - change 10%Z with (1 + (4 + (1 + (4 + 0))))%Z.
    apply (ex_cons detour 0 2); [cbn; auto|]. apply (ex_cons detour 2 3); [cbn; auto|].
    apply (ex_cons detour 3 1); [cbn; auto|]. apply (ex_cons detour 1 5); [cbn; auto|]. constructor.
  - reflexivity.
Qed.

(** The hypotheses of C52_plan, C52_complete and C52_terminates are met, and the plan can be read off. *)
Example C52_ex : exists g, solve 100 detour [] 0 = Ok g /\ is_solution_defined_for g 0 = true /\
  get_best_action g 0 = Ok 5 /\ is_solution_defined_for g 2 = false.
Proof.
  destruct (solve 100 detour [] 0) as [g|e] eqn:E; [|vm_compute in E; discriminate].
  exists g. split; auto. vm_compute in E. injection E as <-. repeat split.
Qed.

Example C52_terminates_ex : exists g, solve 9 detour [] 0 = Ok g.
Proof.
  refine (C52_terminates detour 0 [0; 1; 2; 3; 5] _ _ _ 9 _).
  - cbn; auto.
  - intros t a It Ia. cbn in It. repeat (destruct It as [ <- |It]; [cbn in Ia; cbn; tauto|]). destruct It.
  - repeat constructor; cbn; intuition discriminate.
  - vm_compute. lia.
Qed.

(** A square with unit costs: two ways of two steps, one of three. *)
Definition square_edges (s : nat) : list (nat * Z) :=
  match s with
  | 0 => [(1, 1%Z); (2, 1%Z); (4, 1%Z)]
  | 1 => [(3, 1%Z)]
  | 2 => [(3, 1%Z)]
  | 3 => [(5, 1%Z)]
  | 4 => [(5, 1%Z); (0, 1%Z)]
  | _ => []
  end.
Definition square : @problem nat nat := web square_edges [5].

Example C53_uniform_ex : exists g, solve 100 square [] 0 = Ok g /\ get_best_value g 0 = Ok (Some 2%Z) /\
  get_best_action g 0 = Ok 4 /\
  forall l t c, exec square 0 l t c -> goal square t = true -> (2 <= c)%Z.
Proof.
  destruct (solve 100 square [] 0) as [g|e] eqn:E; [|vm_compute in E; discriminate].
  exists g. split; auto. assert (V : get_best_value g 0 = Ok (Some 2%Z)) by (vm_compute in E; injection E as <-; reflexivity).
  split; auto. split; [vm_compute in E; injection E as <-; reflexivity|]. intros l t c Ex Gt.
  destruct (C53_optimal_uniform 100 square 0 g 1 eq_refl) with (l := l) (t := t) (c := c) as (v & Ev & Lv); auto; try lia.
  - intros s a I. destruct s as [|[|[|[|[|s]]]]]; cbn in I |- *; try tauto;
      repeat (destruct I as [ <- |I]; [reflexivity|]); destruct I.
  - rewrite V in Ev. injection Ev as <-. exact Lv.
Qed.

(** A tree with two goals at different costs. *)
Definition fork_edges (s : nat) : list (nat * Z) :=
  match s with
  | 0 => [(1, 1%Z); (2, 4%Z)]
  | 1 => [(3, 9%Z)]
  | 2 => [(4, 5%Z)]
  | _ => []
  end.
Definition fork : @problem nat nat := web fork_edges [3; 4].

Example C53_tree_ex : exists g, solve 100 fork [] 0 = Ok g /\ get_best_value g 0 = Ok (Some 9%Z) /\
  forall l t c, exec fork 0 l t c -> goal fork t = true -> (9 <= c)%Z.
Proof.
  destruct (solve 100 fork [] 0) as [g|e] eqn:E; [|vm_compute in E; discriminate].
  exists g. split; auto. assert (V : get_best_value g 0 = Ok (Some 9%Z)) by (vm_compute in E; injection E as <-; reflexivity).
  split; auto. intros l t c Ex Gt.
  destruct (C53_optimal_tree 100 fork 0 g eq_refl) with (l := l) (t := t) (c := c) as (v & Ev & Lv); auto.
  - intros s a I. destruct s as [|[|[|s]]]; cbn in I |- *; try tauto;
      repeat (destruct I as [ <- |I]; [cbn; lia|]); destruct I.
  - intros s a s' a' I I' Eq. destruct s as [|[|[|s]]], s' as [|[|[|s']]]; cbn in I, I', Eq; intuition (try congruence; try lia).
  - rewrite V in Ev. injection Ev as <-. exact Lv.
Qed.

(** Finding: solving from a goal state leaves an infinite value and no action. *)
Theorem C52_goal_start_refuted : exists (p : @problem nat nat) s g,
  goal p s = true /\ solve 100 p [] s = Ok g /\ get_best_value g s = Ok None /\
  forall fuel, get_next_action fuel p g s = Err ValueError.
Proof.
  exists square, 5. eexists. split; [reflexivity|]. split; [reflexivity|]. split; reflexivity.
Qed.

(** Finding: the value of a state that was generated but is not on the plan is not its cost to a goal. *)
Definition side_edges (s : nat) : list (nat * Z) :=
  match s with
  | 0 => [(9, 1%Z); (1, 1%Z)]
  | 1 => [(8, 5%Z)]
  | 2 => [(1, 5%Z)]
  | 7 => [(9, 3%Z)]
  | 6 => [(7, 1%Z)]
  | 3 => [(7, 5%Z)]
  | _ => []
  end.
Definition side : @problem nat nat := web side_edges [8; 9].

Theorem C52_unsolved_value_refuted : exists (p : @problem nat nat) s g t v,
  goal p s = false /\ positive p /\ solve 100 p [] s = Ok g /\ get_best_value g t = Ok (Some v) /\
  forall l u c, exec p t l u c -> goal p u = true -> (v < c)%Z.
Proof.
  destruct (solve 100 side [] 0) as [g|e] eqn:E; [|vm_compute in E; discriminate].
  exists side, 0, g, 1, 1%Z. split; [reflexivity|]. split; [|split; [exact E|split]].
  - intros s a I. destruct s as [|[|[|[|[|[|[|[|s]]]]]]]]; cbn in I |- *; try tauto;
      repeat (destruct I as [ <- |I]; [cbn; lia|]); destruct I.
  - vm_compute in E. injection E as <-. reflexivity.
  - intros l u c Ex Gu. inversion Ex as [|? a l' ? c' Ia Ex']; subst; [discriminate|].
    cbn in Ia. destruct Ia as [ <- |[]]. cbn in Ex' |- *. inversion Ex' as [|? b l'' ? c'' Ib _]; subst; [lia|destruct Ib].
Qed.

(** Finding: a second solve on the same solver may miss a goal: the scores of the first search are kept, so a
    state it had reached more cheaply is never queued again. *)
Theorem C52_second_solve_refuted : exists (p : @problem nat nat) s1 s2 g1 g2,
  goal p s2 = false /\ positive p /\ solve 100 p [] s1 = Ok g1 /\ solve 100 p g1 s2 = Ok g2 /\
  is_solution_defined_for g2 s2 = false /\ exists l t c, exec p s2 l t c /\ goal p t = true.
Proof.
  destruct (solve 100 side [] 0) as [g1|e] eqn:E1; [|vm_compute in E1; discriminate].
  destruct (solve 100 side g1 2) as [g2|e] eqn:E2; [|vm_compute in E1; injection E1 as <-; vm_compute in E2; discriminate].
  exists side, 0, 2, g1, g2. split; [reflexivity|]. split; [|split; [exact E1|split; [exact E2|split]]].
  - intros s a I. destruct s as [|[|[|[|[|[|[|[|s]]]]]]]]; cbn in I |- *; try tauto;
      repeat (destruct I as [ <- |I]; [cbn; lia|]); destruct I.
  - vm_compute in E1. injection E1 as <-. vm_compute in E2. injection E2 as <-. reflexivity.
  - exists [1; 8], 8, (5 + (5 + 0))%Z. split; [|reflexivity].
    apply (ex_cons side 2 1); [cbn; auto|]. apply (ex_cons side 1 8); [cbn; auto|]. constructor.
Qed.

(** Finding: a second solve may replace the action of a state solved before by an action of another state:
    the action is kept as a pointer into the child node, which the second search overwrites. *)
Definition lane_edges (s : nat) : list (nat * (nat * Z)) :=
  match s with
  | 0 => [(10, (1, 5%Z))]
  | 1 => [(11, (2, 1%Z))]
  | 3 => [(12, (1, 1%Z))]
  | _ => []
  end.
Definition lane : @problem nat nat := {|
  apps := fun s => map fst (lane_edges s);
  next := fun s a => match dget (lane_edges s) a with Some (t, _) => t | None => s end;
  cost := fun s a _ => match dget (lane_edges s) a with Some (_, c) => c | None => 0%Z end;
  goal := fun s => s =? 2;
  heur := fun _ => 0%Z |}.

Theorem C52_second_solve_action_refuted : exists (p : @problem nat nat) s1 s2 g1 g2 a b,
  goal p s1 = false /\ goal p s2 = false /\ positive p /\ solve 100 p [] s1 = Ok g1 /\ solve 100 p g1 s2 = Ok g2 /\
  get_next_action 100 p g1 s1 = Ok (a, g1) /\ In a (apps p s1) /\
  get_next_action 100 p g2 s1 = Ok (b, g2) /\ ~ In b (apps p s1).
Proof.
  destruct (solve 100 lane [] 0) as [g1|e] eqn:E1; [|vm_compute in E1; discriminate].
  destruct (solve 100 lane g1 3) as [g2|e] eqn:E2; [|vm_compute in E1; injection E1 as <-; vm_compute in E2; discriminate].
  exists lane, 0, 3, g1, g2, 10, 12.
  split; [reflexivity|]. split; [reflexivity|]. split; [|split; [exact E1|split; [exact E2|]]].
  - intros s a I. destruct s as [|[|[|[|s]]]]; cbn in I |- *; try tauto;
      repeat (destruct I as [ <- |I]; [cbn; lia|]); destruct I.
  - vm_compute in E1. injection E1 as <-. vm_compute in E2. injection E2 as <-.
    split; [reflexivity|]. split; [cbn; auto|]. split; [reflexivity|]. cbn. intuition discriminate.
Qed.

Print Assumptions C52_plan.
Print Assumptions C52_complete.
Print Assumptions C52_terminates.
Print Assumptions C53_optimal_tree.
Print Assumptions C53_optimal_uniform.
Print Assumptions C53_optimal_refuted.
Print Assumptions C52_goal_start_refuted.
Print Assumptions C52_unsolved_value_refuted.
Print Assumptions C52_second_solve_refuted.
Print Assumptions C52_second_solve_action_refuted.
