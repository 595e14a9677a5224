(** Properties C114-C116: decisions, statistics and belief of the partially observable Monte Carlo planner
    (/repo/skdecide/hub/solver/pomcp/pomcp.py). *)
From Coq Require Import List Bool Arith ZArith QArith Lia Lqa.
Import ListNotations.
From Verif Require Import Py PyList PyMore PomcpModel PomcpSpec PomcpProofs PomcpRunProofs.
Set Implicit Arguments.
Open Scope nat_scope.

Section Theorems.
  Variables St Act Obs : Type.
  Context {EA : PyEq Act} {EO : PyEq Obs}.
  Variable w : world St Act Obs.
  Variable iterations max_depth : nat.
  Notation start := (reset Act Obs).
  Notation run := (run w max_depth iterations).
  Notation decide := (get_next_action w iterations max_depth).

  (** C114.  On a lawful domain a decision never fails an assertion or misses a node, at any point of any episode: it
      answers an action of the action space or [None], or it raises [ValueError]; the latter exactly when none
      of the hundred observations drawn for any particle, from its state before the last action took effect,
      equals the observation received. *)
  Theorem C114_decision init d os answers x o :
    lawful w max_depth -> init <> [] -> run (start init d) os = Ok (answers, x) ->
    match decide x o with
    | Ok (a, x') => (forall b, a = Some b -> In b (w_actions w)) /\
        exists i s j, nth_error (s_belief x) i = Some s /\ j < 100 /\
          w_obs w (m_draws (s_mem x) + 100 * i + j) s (last (None :: answers) None) = o
    | Err e => e = ValueError /\ forall i s j, nth_error (s_belief x) i = Some s -> j < 100 ->
          w_obs w (m_draws (s_mem x) + 100 * i + j) s (last (None :: answers) None) <> o
    end.
  Proof.
    intros LAW NI R. destruct (run_good iterations LAW NI os (good_reset w max_depth init d) eq_refl R) as (G & L & _).
    pose proof (decide_ok iterations LAW o NI G) as D. rewrite L in D.
    destruct (decide x o) as [[a x']|e].
    - destruct D as (SE & G' & Ea & _). split; [|exact SE]. intros b ->. apply (g_acts G'). rewrite Ea.
      apply in_app_iff. right. left. reflexivity.
    - destruct D as (-> & NS). split; [reflexivity|]. intros i s j E J O. apply NS. exists i, s, j. auto.
  Qed.

  (** In particular it answers whenever one particle certainly makes the observation received. *)
  Theorem C114_answers init d os answers x o s :
    lawful w max_depth -> init <> [] -> run (start init d) os = Ok (answers, x) ->
    In s (s_belief x) -> (forall e, w_obs w e s (last (None :: answers) None) = o) ->
    exists a x', decide x o = Ok (a, x').
  Proof.
    intros LAW NI R Is O. pose proof (C114_decision _ _ o LAW NI R) as D.
    destruct (decide x o) as [[a x']|e]; [eauto|exfalso]. destruct D as (_ & N).
    apply In_nth_error in Is as (i & E). apply (N i s 0 E); [lia|apply O].
  Qed.

  (** C115.  At every point of every episode: a history that ends with an observation counts one visit for its
      creation and one for each visit of its actions; a history that ends with an action counts its
      simulations, and its value is the average of their costs, all of which lie between zero and the very
      large value. *)
  Theorem C115_statistics init d os answers x ha ho :
    lawful w max_depth -> init <> [] -> run (start init d) os = Ok (answers, x) -> length ha = length ho ->
    let t := m_tree (s_mem x) in let log := m_log (s_mem x) in
    (forall n, dget t (ha, ho) = Some n ->
       n_visits n = 1 + list_sum (map (fun a => visits t (ha ++ [Some a], ho)) (w_actions w))) /\
    (forall a n, dget t (ha ++ [Some a], ho) = Some n ->
       In a (w_actions w) /\ n_visits n = length (costs_of log (ha ++ [Some a], ho)) /\
       (n_value n == mean (costs_of log (ha ++ [Some a], ho)))%Q) /\
    (forall k c, In (k, c) log -> (0 <= c)%Q /\ (c <= vlv max_depth)%Q).
  Proof.
    intros LAW NI R L t log. destruct (run_good iterations LAW NI os (good_reset w max_depth init d) eq_refl R) as (G & _).
    pose proof (g_inv G) as I. split; [|split].
    - intros n D. exact (proj2 (i_node I ha ho L D)).
    - intros a n D. destruct (i_child I ha ho a L D) as (_ & Ia & _ & _ & Nn & Nt & Nz). unfold kid in *.
      split; [exact Ia|]. split; [exact Nn|]. unfold mean. fold log in Nn, Nt. rewrite <- Nn.
      destruct (n_visits n) as [|v] eqn:Z.
      + rewrite (Nz eq_refl). symmetry in Nn. apply length_zero_iff_nil in Nn. rewrite Nn. reflexivity.
      + rewrite <- Nt. field. intros E. unfold Qeq in E. simpl in E. lia.
    - intros k c J. exact (proj2 (i_log I _ _ J)).
  Qed.

  (** The answer is the first action of the action space with the least average cost, among those known for
      the current history; [None] when no known action has an average below the very large value. *)
  Theorem C115_answer init d os answers x o a x' :
    lawful w max_depth -> init <> [] -> run (start init d) os = Ok (answers, x) -> decide x o = Ok (a, x') ->
    let h b := ((None :: answers) ++ [Some b], os ++ [o]) in
    let t := m_tree (s_mem x') in let average b := mean (costs_of (m_log (s_mem x')) (h b)) in
    match a with
    | Some b => known t (h b) /\ (average b < vlv max_depth)%Q /\ exists before after,
        w_actions w = before ++ b :: after /\
        (forall c, In c before -> known t (h c) -> (average b < average c)%Q) /\
        (forall c, In c after -> known t (h c) -> (average b <= average c)%Q)
    | None => forall b, known t (h b) -> (vlv max_depth <= average b)%Q
    end.
  Proof.
    intros LAW NI R D h t average.
    destruct (run_good iterations LAW NI os (good_reset w max_depth init d) eq_refl R) as (G & La & Le).
    assert (run (start init d) (os ++ [o]) = Ok (answers ++ [a], x')) as R2.
    { clear - R D. revert R. generalize (start init d). revert answers. induction os as [|o' os IH]; intros answers y R.
      - cbn in R. inversion R; subst. cbn [app PomcpSpec.run]. rewrite D. reflexivity.
      - cbn [app PomcpSpec.run] in *. apply bind_ok in R as ([a1 y1] & E1 & R). apply bind_ok in R as ([as2 z] & E2 & R).
        inversion R; subst. rewrite E1. cbn [bind]. rewrite (IH _ _ E2). reflexivity. }
    pose proof (decide_ok iterations LAW o NI G) as DO. rewrite D in DO. destruct DO as (_ & G' & _ & BA & _).
    assert (s_acts x = None :: answers) as EA1.
    { destruct (g_act G) as (l & E). pose proof La as L2. rewrite E, last_last in L2. rewrite E. cbn [app].
      rewrite L2. clear - Le. cbn [app].
      assert (forall (l : list (option Act)) (r : list Obs) z, length l = length r ->
                map fst (combine (z :: l) r) ++ [last (z :: l) None] = z :: l) as K.
      { induction l as [|y l IH]; intros [|q r] z E; try discriminate; [reflexivity|].
        cbn [combine map fst app]. f_equal. cbn [length] in E. specialize (IH r y ltac:(lia)). exact IH. }
      apply K. exact Le. }
    assert (s_obs x = os) as EO1.
    { rewrite (g_obs G). cbn [app]. clear - Le.
      assert (forall (r : list Obs) (l : list (option Act)) z, length l = length r -> map snd (combine (z :: l) r) = r) as K.
      { induction r as [|q r IH]; intros [|y l] z E; try discriminate; [reflexivity|].
        cbn [combine map snd]. f_equal. cbn [length] in E. exact (IH l y ltac:(lia)). }
      apply K. exact Le. }
    rewrite EA1, EO1 in BA.
    assert (length (None :: answers) = length (os ++ [o])) as LL by (rewrite app_length; simpl; lia).
    destruct (C115_statistics _ _ _ _ LAW NI R2 LL) as (_ & ST & _). fold t in ST.
    unfold best_action in BA. cbn [bind] in BA. assert (fst (fold_left (better w max_depth t None (None :: answers) (os ++ [o])) (w_actions w) (None, vlv max_depth)) = a) as BC by (injection BA as BC; exact BC). clear BA. apply best_choice in BC.
    destruct a as [b|].
    - destruct BC as (l1 & l2 & n & Sp & Dn & Lt & Min & Fst). cbn [score] in *. fold t in Dn, Min, Fst.
      destruct (ST b n Dn) as (_ & _ & En). fold (h b) in *. fold (average b) in En.
            split; [exists n; exact Dn|]. split; [rewrite <- En; exact Lt|]. exists l1, l2. split; [exact Sp|]. split.
      + intros c Ic [m Dm]. destruct (ST c m Dm) as (_ & _ & Em). fold (h c) in *. fold (average c) in Em.
        rewrite <- En, <- Em. exact (Fst c m Ic Dm).
      + intros c Ic [m Dm]. destruct (ST c m Dm) as (_ & _ & Em). fold (h c) in *. fold (average c) in Em.
        rewrite <- En, <- Em. apply (Min c m); [|exact Dm]. rewrite Sp. apply in_app_iff. right. right. exact Ic.
    - intros b [n Dn]. destruct (ST b n Dn) as (Ib & _ & En). fold (h b) in *. fold (average b) in En.
      rewrite <- En. exact (BC b n Ib Dn).
  Qed.

  (** With more iterations than actions, and an exploration term below the very large value, the first decision
      of an episode is taken after every known action has been simulated. *)
  Theorem C115_all_tried init d o a x' b :
    lawful w max_depth -> init <> [] ->
    (forall N n, N <= length (w_actions w) -> 1 <= n -> (w_bonus w N n < vlv max_depth)%Q) ->
    length (w_actions w) < iterations ->
    decide (start init d) o = Ok (a, x') -> known (m_tree (s_mem x')) ([None; Some b], [o]) ->
    costs_of (m_log (s_mem x')) ([None; Some b], [o]) <> [].
  Proof.
    intros LAW NI BON IT D Kb. pose proof (good_reset w max_depth init d) as G.
    pose proof (decide_ok iterations LAW o NI G) as DO. rewrite D in DO.
    destruct DO as (_ & G' & _ & _ & bel & dr & SO & NB). cbn [s_mem s_acts s_obs start m_tree m_log app] in SO.
    destruct iterations as [|it]; [lia|]. cbn [search] in SO.
    destruct (choice_ok LAW dr NB) as (s & E & _). cbn [m_draws] in SO. rewrite E in SO. clear E. cbn [bind] in SO.
    destruct (@tree_search_ok _ _ _ _ _ w max_depth LAW (max_depth + 1) s [None] [o] (drawn 1 (Memory [] dr [])) (inv_empty w max_depth) eq_refl)
      as (c & m1 & E & _ & _ & I1 & _ & _ & _ & K & T). rewrite E in SO. clear E. cbn [bind snd] in SO.
    specialize (K ltac:(lia)). specialize (T ltac:(lia)). cbn [dget drawn m_tree] in T. destruct T as (V0 & _).
    assert (sum_visits (m_tree m1) [None] [o] (w_actions w) = 0) as S0.
    { unfold sum_visits. clear - V0. induction (w_actions w) as [|y l IH]; [reflexivity|]. cbn [map list_sum fold_right]. rewrite V0. exact IH. }
    destruct (@search_fair _ _ _ _ _ w max_depth LAW BON it bel [None] [o] NB eq_refl m1 0 I1 K S0) with (m' := s_mem x')
      as (S1 & U). { intros _ q. rewrite V0. lia. } { exact SO. }
    destruct Kb as [n Dn].
    destruct (i_child (g_inv G') [None] [o] b eq_refl Dn) as (_ & Ib & _ & _ & Nn & _).
    intros Z. change ([None; Some b], [o]) with (kid [None] [o] b) in Z. rewrite Z in Nn. cbn [length] in Nn.
    assert (visits (m_tree (s_mem x')) (kid [None] [o] b) = 0) as V by (unfold visits, kid; cbn [app]; rewrite Dn; exact Nn).
    assert (untried (m_tree (s_mem x')) [None] [o]) as UN by (exists b; split; [exists n; exact Dn|exact V]).
    specialize (U UN). assert (sum_visits (m_tree (s_mem x')) [None] [o] (w_actions w) < length (w_actions w)) by (eapply sum_small; eauto). lia.
  Qed.

  (** C116.  The belief keeps its size during the episode, and each particle can be reached from an initial
      particle along the history of actions and observations, where each observation is one the state can
      give before the last action takes effect. *)
  Theorem C116_belief init d os answers x :
    lawful w max_depth -> init <> [] -> run (start init d) os = Ok (answers, x) ->
    length answers = length os /\ length (s_belief x) = length init /\
    forall s, In s (s_belief x) -> compatible w init (combine (None :: answers) os) s.
  Proof.
    intros LAW NI R. destruct (run_good iterations LAW NI os (good_reset w max_depth init d) eq_refl R) as (G & _ & L).
    split; [exact L|]. split; [exact (g_size G)|]. exact (g_belief G).
  Qed.
End Theorems.

(** ** Concrete cases *)

(** A domain with states 0 .. 3 (3 is the goal), actions 0 (stay), 1 (one step) and 2 (two steps, dearer); the
    observation is the state.  [None] moves nothing. *)
Definition line_next (_ : nat) (s : nat) (a : option nat) : res nat :=
  Ok (match a with None => s | Some a => Nat.min 3 (s + a) end).
Definition line : world nat nat nat := {|
  w_next := line_next;
  w_obs _ s _ := s;
  w_cost _ a _ := if a =? 2 then 3 # 2 else 1%Q;
  w_goal o := o =? 3;
  w_applicable _ := [0; 1; 2];
  w_actions := [0; 1; 2];
  w_pick d _ := Ok (d mod 3);
  w_choice d n := d mod n;
  w_weighted d ws := match nth_error (filter (fun i => negb (nth i ws 0 =? 0)) (seq 0 (length ws))) 0 with
                     | Some i => i | None => 0 end;
  w_bonus N n := (inject_Z (Z.of_nat N) / inject_Z (Z.of_nat n))%Q |}.

Lemma first_weighted (d : nat) ws : 0 < list_sum ws ->
  exists v, nth_error ws (match nth_error (filter (fun i => negb (nth i ws 0 =? 0)) (seq 0 (length ws))) 0 with
                     | Some i => i | None => 0 end) = Some (S v).
Proof.
  intros H. apply list_sum_pos in H as (i & v & E & V).
  assert (In i (filter (fun i => negb (nth i ws 0 =? 0)) (seq 0 (length ws)))) as I.
  { apply filter_In. assert (i < length ws) by (apply nth_error_Some; congruence). split; [apply in_seq; lia|].
    rewrite (nth_error_nth _ _ _ E). apply negb_true_iff, Nat.eqb_neq. lia. }
  destruct (filter _ _) as [|k r] eqn:F; [destruct I|]. cbn [nth_error].
  assert (In k (filter (fun i => negb (nth i ws 0 =? 0)) (seq 0 (length ws)))) as K by (rewrite F; left; reflexivity).
  apply filter_In in K as [K1 K2]. apply in_seq in K1. apply negb_true_iff, Nat.eqb_neq in K2.
  destruct (nth_error ws k) as [x|] eqn:N; [|apply nth_error_None in N; lia].
  rewrite (nth_error_nth _ _ _ N) in K2. destruct x; [congruence|eauto].
Qed.

Lemma ratio_pos N n : 2 <= N -> 1 <= n -> (0 < inject_Z (Z.of_nat N) / inject_Z (Z.of_nat n))%Q.
Proof.
  intros HN Hn. apply Qlt_shift_div_l; [replace 0%Q with (inject_Z 0) by reflexivity; rewrite <- Zlt_Qlt; lia|].
  rewrite Qmult_0_l. replace 0%Q with (inject_Z 0) by reflexivity. rewrite <- Zlt_Qlt. lia.
Qed.

Lemma line_lawful : lawful line 5.
Proof.
  split.
  - intros. eexists. reflexivity.
  - intros s a s'. cbn. unfold vlv. destruct a as [|[|[|a]]]; cbn; split; unfold Qle; cbn; lia.
  - discriminate.
  - intros s a H. exact H.
  - repeat constructor; cbn; intuition lia.
  - intros d s. eexists. split; [reflexivity|]. cbn [w_applicable line].
    assert (d mod 3 < 3) by (apply Nat.mod_upper_bound; lia).
    destruct (d mod 3) as [|[|[|k]]]; cbn; auto; lia.
  - intros d n H. apply Nat.mod_upper_bound. lia.
  - exact first_weighted.
  - exact ratio_pos.
  - lia.
Qed.

(** Three particles, one decision after forty simulations; observation 1 leaves the particles in state 1. *)
Example C114_decision_example :
  lawful line 5 /\
  exists a x, run line 5 40 (reset nat nat [0; 1; 1] 0) [1] = Ok ([Some a], x) /\ s_belief x = [1; 1; 1] /\
    (exists b y, get_next_action line 40 5 x 1 = Ok (b, y)) /\
    get_next_action line 40 5 x 2 = Err ValueError.
Proof.
  split; [exact line_lawful|]. eexists _, _. split; [vm_compute; reflexivity|]. split; [reflexivity|].
  split; [do 2 eexists; vm_compute; reflexivity|vm_compute; reflexivity].
Qed.

Example C115_answer_example :
  exists x, get_next_action line 40 5 (reset nat nat [0; 1; 1] 0) 1 = Ok (Some 2, x) /\
    visits (m_tree (s_mem x)) ([None], [1]) = 40 /\
    (mean (costs_of (m_log (s_mem x)) ([None; Some 2], [1])%nat) <
       mean (costs_of (m_log (s_mem x)) ([None; Some 1], [1])%nat))%Q /\
    (forall N n, N <= length (w_actions line) -> 1 <= n -> (w_bonus line N n < vlv 5)%Q).
Proof.
  eexists. split; [vm_compute; reflexivity|]. split; [vm_compute; reflexivity|]. split; [vm_compute; reflexivity|].
  intros N n HN Hn. cbn [w_actions line length] in HN. cbn [w_bonus line].
  apply Qlt_shift_div_r; [replace 0%Q with (inject_Z 0) by reflexivity; rewrite <- Zlt_Qlt; lia|].
  unfold vlv. rewrite <- inject_Z_mult, <- Zlt_Qlt. lia.
Qed.

(** ** What does not hold *)

Definition with_cost (f : nat -> nat -> nat -> Q) (w : world nat nat nat) : world nat nat nat :=
  World (w_next w) (w_obs w) f (w_goal w) (w_applicable w) (w_actions w) (w_pick w) (w_choice w) (w_weighted w) (w_bonus w).
Definition with_next (f : nat -> nat -> option nat -> res nat) (w : world nat nat nat) : world nat nat nat :=
  World f (w_obs w) (w_cost w) (w_goal w) (w_applicable w) (w_actions w) (w_pick w) (w_choice w) (w_weighted w) (w_bonus w).
Definition with_goal (f : nat -> bool) (w : world nat nat nat) : world nat nat nat :=
  World (w_next w) (w_obs w) (w_cost w) f (w_applicable w) (w_actions w) (w_pick w) (w_choice w) (w_weighted w) (w_bonus w).

(** A domain whose costs exceed twice the depth bound makes a decision fail an assertion. *)
Theorem C114_large_cost_refuted :
  exists (w : world nat nat nat) max_depth iterations init o,
    1 <= max_depth /\ (forall s a s', (0 <= w_cost w s a s')%Q) /\
    (forall d s a, exists s', w_next w d s a = Ok s') /\ (forall d s a, In s init -> w_obs w d s a = o) /\ init <> [] /\
    get_next_action w iterations max_depth (reset nat nat init 0) o = Err AssertionError.
Proof.
  exists (with_cost (fun _ _ _ => 100%Q) (with_goal (fun _ => true) line)), 2, 10, [3], 3.
  split; [lia|]. split; [intros; cbn; lra|]. split; [intros; eexists; reflexivity|].
  split; [intros d s a [<- | []]; reflexivity|]. split; [discriminate|]. vm_compute. reflexivity.
Qed.

(** With no more iterations than actions the planner answers an action it never simulated, because such an
    action has average zero, although the action it did simulate is cheaper. *)
Theorem C115_untried_refuted :
  exists (w : world nat nat nat) max_depth iterations init o b c x,
    lawful w max_depth /\ 2 <= iterations /\ get_next_action w iterations max_depth (reset nat nat init 0) o = Ok (Some b, x) /\
    costs_of (m_log (s_mem x)) ([None; Some b], [o]) = [] /\
    costs_of (m_log (s_mem x)) ([None; Some c], [o]) <> [] /\
    (forall s s', w_cost w s c s' < w_cost w s b s')%Q /\ (forall s, w_goal w s = true).
Proof.
  set (w := with_cost (fun _ a _ => if a =? 0 then 1%Q else 5%Q) (with_goal (fun _ => true) line)).
  assert (lawful w 5) as LW.
  { destruct line_lawful. split; auto. intros s a s'. cbn. destruct a; cbn; split; unfold Qle; cbn; lia. }
  exists w, 5, 2, [0], 0, 1, 0. eexists. split; [exact LW|]. split; [lia|]. split; [vm_compute; reflexivity|].
  split; [vm_compute; reflexivity|]. split; [vm_compute; discriminate|]. split; [intros; cbn; lra|reflexivity].
Qed.

(** The planner may answer [None], when every simulation runs into the depth bound. *)
Theorem C115_none_refuted :
  exists (w : world nat nat nat) max_depth iterations init o x,
    lawful w max_depth /\ length (w_actions w) < iterations /\
    get_next_action w iterations max_depth (reset nat nat init 0) o = Ok (None, x).
Proof.
  set (w := with_goal (fun _ => false) line).
  assert (lawful w 5) as LW by (destruct line_lawful; split; auto).
  exists w, 5, 10, [0], 0. eexists. split; [exact LW|]. split; [cbn; lia|]. vm_compute; reflexivity.
Qed.

(** The simulations observe the state before the action, so that an action that leads to the goal, with an
    observation that reveals it, is never seen to end the episode: its average exceeds its cost. *)
Theorem C115_goal_one_step_late_refuted :
  exists (w : world nat nat nat) max_depth iterations init o b x,
    lawful w max_depth /\ length (w_actions w) < iterations /\
    get_next_action w iterations max_depth (reset nat nat init 0) o = Ok (Some b, x) /\
    (forall d d' s s', In s init -> w_next w d s (Some b) = Ok s' ->
       w_goal w (w_obs w d' s' (Some b)) = true /\
       (w_cost w s b s' + (1 # 2) < mean (costs_of (m_log (s_mem x)) ([None; Some b], [o])))%Q).
Proof.
  exists line, 5, 40, [2], 2, 1. eexists. split; [exact line_lawful|]. split; [cbn; lia|].
  split; [vm_compute; reflexivity|]. intros d d' s s' [<- | []] E. inversion E; subst. split; [reflexivity|].
  vm_compute. reflexivity.
Qed.

(** In the environment it is the state after the action that is observed.  On a domain whose observation is
    the state, the true state is the only particle, and still the second decision raises [ValueError]. *)
Theorem C116_next_state_observed_refuted :
  exists (w : world nat nat nat) max_depth iterations s0 o0 a s1 o1 x,
    lawful w max_depth /\ lived w s0 [(None, o0); (Some a, o1)] s1 /\
    run w max_depth iterations (reset nat nat [s0] 0) [o0] = Ok ([Some a], x) /\
    get_next_action w iterations max_depth x o1 = Err ValueError.
Proof.
  exists line, 5, 40, 1, 1, 2, 3, 3. eexists. split; [exact line_lawful|]. split.
  - apply (@lived_step _ _ _ line 1 [(None, 1)] 1 2 3 3 0 0); [|reflexivity|reflexivity].
    apply (@lived_start _ _ _ line 1 1 0). reflexivity.
  - split; [vm_compute; reflexivity|]. vm_compute. reflexivity.
Qed.

(** The first decision asks the domain for the outcome of the action [None]; a domain that rejects it makes
    the decision raise. *)
Theorem C116_no_first_action_refuted :
  exists (w : world nat nat nat) max_depth iterations init o,
    (forall d s a, exists s', w_next w d s (Some a) = Ok s') /\
    (forall s, In s init -> forall d a, w_obs w d s a = o) /\ init <> [] /\
    get_next_action w iterations max_depth (reset nat nat init 0) o = Err TypeError.
Proof.
  exists (with_next (fun d s a => match a with None => Err TypeError | Some _ => line_next d s a end) line), 5, 40, [0], 0.
  split; [intros; eexists; reflexivity|]. split; [intros s [<- | []]; reflexivity|]. split; [discriminate|].
  vm_compute. reflexivity.
Qed.

Print Assumptions C114_decision.
Print Assumptions C114_answers.
Print Assumptions C114_large_cost_refuted.
Print Assumptions C115_statistics.
Print Assumptions C115_answer.
Print Assumptions C115_all_tried.
Print Assumptions C115_untried_refuted.
Print Assumptions C115_none_refuted.
Print Assumptions C115_goal_one_step_late_refuted.
Print Assumptions C116_belief.
Print Assumptions C116_next_state_observed_refuted.
Print Assumptions C116_no_first_action_refuted.
