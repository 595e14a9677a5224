(** C92-C93: the Best First Width Search solver of the C++ hub.

    Specification vocabulary: BfwsSpec.v ([new_place], [is_rank], [exec]). *)
From Coq Require Import List Bool Arith ZArith Lia Permutation.
From Verif Require Import Py PyList PyMore CppAstarModel CppHeapProofs BfwsModel BfwsSpec BfwsProofs.
Import ListNotations.
Open Scope nat_scope.

(** ** C92: novelty *)
Section Novelty.
Context {V : Type} {EV : PyEq V}.

(** The map after the states with the heuristic values and feature vectors of [l] were evaluated, in this order. *)
Definition map_after (l : list (Z * list V)) : list (Z * list (nat * V)) :=
  fold_left (fun m e => snd (novelty m (fst e) (snd e))) l [].

(** C92.  Whatever was evaluated before, the novelty of a state is zero when it is the first one with its heuristic
    value; otherwise it is the number of its features whose value is new among the states with this heuristic value,
    and one more than the number of features when none is. *)
Theorem C92_novelty : forall l h (f : list V), is_rank h f l (fst (novelty (map_after l) h f)).
Proof.
  intros l h f.
  assert (M : mapped (map_after l) (rev l)).
  { unfold map_after. rewrite <- (rev_involutive l) at 1. generalize (rev l). clear. intros l.
    rewrite <- fold_left_rev_right. rewrite rev_involutive. induction l as [|[h f] l IH]; [apply mapped_nil|].
    cbn [fold_right fst snd]. set (m := fold_right _ _ l) in *. destruct (novelty m h f) as [nov m'] eqn:E.
    exact (proj2 (novelty_ok _ _ _ _ _ _ IH E)). }
  destruct (novelty (map_after l) h f) as [nov m'] eqn:E. cbn [fst].
  destruct (novelty_ok _ _ _ _ _ _ M E) as [R _].
  assert (I : forall x, In x (rev l) <-> In x l) by (intros; symmetry; apply in_rev).
  assert (N : forall i, new_place h f (rev l) i <-> new_place h f l i).
  { intros i. unfold new_place. split; intros [L H]; (split; [exact L|]); intros f' If; apply H; now apply I. }
  destruct R as [[H1 H2]|[((f' & H1) & H2 & H3)|((f' & H1) & pl & H2 & H3 & H4 & H5)]].
  - left. split; auto. intros f'. rewrite <- I. auto.
  - right. left. split; [exists f'; now apply I|]. split; auto. intros i. rewrite <- N. auto.
  - right. right. split; [exists f'; now apply I|]. exists pl. split; auto. split; auto. split; auto.
    intros i. rewrite <- N. auto.
Qed.

(** C92.  A state with no new value at all ranks behind every state with a new one, for the same heuristic value. *)
Theorem C92_nothing_new_last : forall l h (f f' : list V), length f = length f' ->
  (exists f0, In (h, f0) l) -> (forall i, ~ new_place h f l i) -> (exists i, new_place h f' l i) ->
  fst (novelty (map_after l) h f') < fst (novelty (map_after l) h f).
Proof.
  intros l h f f' Len (f0 & If) N (i & P).
  destruct (C92_novelty l h f) as [[H _]|[(_ & _ & H)|(_ & pl & H1 & _ & H3 & _)]].
  - destruct (H f0 If).
  - destruct (C92_novelty l h f') as [[X _]|[(_ & X & _)|(_ & pl & H1 & H2 & H3 & H4)]].
    + destruct (X f0 If).
    + destruct (X i P).
    + rewrite H, H4. assert (length pl <= length (seq 0 (length f'))); [|rewrite seq_length in *; lia].
      apply NoDup_incl_length; auto. intros j Ij. apply H3 in Ij. apply in_seq. split; [lia|]. apply Ij.
  - destruct pl as [|j pl]; [congruence|]. destruct (N j). apply H3. now left.
Qed.

End Novelty.

(** The novelty is not one for a state with new values, as the comment of the code (and the paper it cites) says:
    the more new values a state has, the later it comes. *)
Theorem C92_novelty_one_refuted : exists (l : list (Z * list nat)) h f1 f2 n1 n2,
  fst (novelty (map_after l) h f1) = n1 /\ fst (novelty (map_after l) h f2) = n2 /\ n1 < n2 /\
  (forall i, new_place h f1 l i -> new_place h f2 l i) /\ exists i, new_place h f2 l i /\ ~ new_place h f1 l i.
Proof.
  exists [(0%Z, [0; 0])], 0%Z, [1; 0], [1; 1], 1, 2. split; [reflexivity|]. split; [reflexivity|]. split; [lia|]. split.
  - intros i [L H]. split; [exact L|]. intros f' [I|[]]. injection I as <-. destruct i as [|[|i]]; [cbn; discriminate|cbn; discriminate|cbn in L; lia].
  - exists 1. split.
    + split; [cbn; lia|]. intros f' [I|[]]. injection I as <-. cbn. discriminate.
    + intros [_ H]. apply (H [0; 0]); [now left|reflexivity].
Qed.

Example C92_case : map (fun e => fst (novelty (map_after [(2%Z, [0; 0; 5]); (1%Z, [7; 7; 7])]) (fst e) (snd e)))
  [(2%Z, [0; 1; 6]); (2%Z, [0; 0; 5]); (3%Z, [0; 0; 5])] = [2; 4; 0].
Proof. reflexivity. Qed.

(** ** C93: the plan *)
Section Plan.
Context {St A V K : Type} {EV : PyEq V} {EK : PyEq K}.
Notation problem := (@problem St A V K).

Lemma plan_answers : forall (p : problem) s (g : @graph St A K) l x c, plan_in p s g l x c ->
  forall done todo, map snd l = done ++ todo -> exists t c1 c2,
    exec p s done t c1 /\ exec p t todo x c2 /\ (c1 + c2 = c)%Z /\ get_best_value p g t = Ok (Some c2) /\
    match todo with
    | [] => t = x
    | a :: _ => is_solution_defined_for p g t = true /\ get_best_action p g t = Ok a
    end.
Proof.
  intros p s g l x c (Ex & Hd & V0 & H).
  assert (Post : forall l2 l1, l = l1 ++ l2 -> exists c2, exec p (hd_st l2 x) (map snd l2) x c2 /\
     get_best_value p g (hd_st l2 x) = Ok (Some c2)).
  { intros [|[t a] l2] l1 El.
    - exists 0%Z. split; [constructor|exact V0].
    - destruct (H _ _ _ _ El) as (c2 & X1 & X2 & _). eauto. }
  assert (Pre : forall l1 l2, l = l1 ++ l2 -> exists c1, exec p s (map snd l1) (hd_st l2 x) c1).
  { induction l1 as [|[t a] l1 IH] using rev_ind; intros l2 El.
    - cbn in El. subst l2. rewrite Hd. exists 0%Z. constructor.
    - rewrite <- app_assoc in El. cbn [app] in El. destruct (IH _ El) as (c1 & X). cbn [hd_st] in X.
      destruct (H _ _ _ _ El) as (c2 & Y & _ & _ & _ & Nx). inversion Y; subst.
      eexists. rewrite map_app. cbn [map snd]. rewrite <- Nx. apply exec_snoc; eauto. }
  intros done todo Es.
  assert (Sp : exists l1 l2, l = l1 ++ l2 /\ map snd l1 = done /\ map snd l2 = todo).
  { clear -Es. revert l Es. induction done as [|a done IH]; intros l Es; [exists [], l; auto|].
    destruct l as [|[t b] l]; [discriminate|]. injection Es as -> Es. destruct (IH _ Es) as (l1 & l2 & -> & <- & <-).
    exists ((t, a) :: l1), l2. auto. }
  destruct Sp as (l1 & l2 & El & <- & <-). destruct (Pre _ _ El) as (c1 & X1). destruct (Post _ _ El) as (c2 & X2 & X3).
  exists (hd_st l2 x), c1, c2. split; [exact X1|]. split; [exact X2|]. split.
  - pose proof (exec_app p _ _ _ _ X1 _ _ _ X2) as X. rewrite El, map_app in Ex.
    destruct (exec_cost p _ _ _ _ _ _ Ex X). auto.
  - split; [exact X3|]. destruct l2 as [|[t a] l2]; [reflexivity|].
    destruct (H _ _ _ _ El) as (_ & _ & _ & Y1 & Y2 & _). split; [exact Y2|exact Y1].
Qed.

(** C93.  After a first solve from a non-goal state, with different keys for different states, and whatever the
    heuristic, the features and the (possibly negative) costs: when a solution is defined for the state, the solver
    answers it with the first action of an executable sequence to a goal, and each state on the way with the next
    one; the value of each is the cost of the rest. *)
Theorem C93_plan : forall fuel (p : problem) s g,
  (forall t u, key p t = key p u -> t = u) -> is_goal p s = false ->
  solve fuel p [] s = Ok g -> is_solution_defined_for p g s = true ->
  exists acts goal_state total,
    is_goal p goal_state = true /\ acts <> [] /\ exec p s acts goal_state total /\
    forall done todo, acts = done ++ todo -> exists t c1 c2,
      exec p s done t c1 /\ exec p t todo goal_state c2 /\ (c1 + c2 = total)%Z /\
      get_best_value p g t = Ok (Some c2) /\
      match todo with
      | [] => t = goal_state
      | a :: _ => is_solution_defined_for p g t = true /\ get_best_action p g t = Ok a /\
                  forall fuel', get_next_action fuel' p g t = Ok (a, g)
      end.
Proof.
  intros fuel p s g KI G0 E D.
  destruct (solve_run p s KI fuel G0) as [(g' & E' & H)|[E' _]]; [|congruence].
  rewrite E in E'. injection E' as <-. destruct H as [(x & l & c & Gx & Pl)|[Sg _]].
  - exists (map snd l), x, c. split; auto. split.
    { intros El. destruct Pl as (Ex & _). rewrite El in Ex. inversion Ex; subst. congruence. }
    split; [apply Pl|]. intros done todo El.
    destruct (plan_answers p s g l x c Pl done todo El) as (t & c1 & c2 & H1 & H2 & H3 & H4 & H5).
    exists t, c1, c2. repeat (split; [assumption|]). destruct todo as [|a todo]; auto. destruct H5 as [H5 H6].
    split; auto. split; auto. intros fuel'. unfold get_next_action. rewrite H5. cbn [bind]. rewrite H6. reflexivity.
  - exfalso. unfold is_solution_defined_for in D. destruct (dget g (key p s)) as [n|] eqn:En; [|discriminate].
    destruct (Sg (key p s)) as [B _]. rewrite (at_get _ _ _ En) in B. rewrite B in D. discriminate.
Qed.

(** C93.  The solver finds a plan exactly when a goal can be reached: the novelty orders the search and prunes
    nothing. *)
Theorem C93_complete : forall fuel (p : problem) s g,
  (forall t u, key p t = key p u -> t = u) -> is_goal p s = false ->
  solve fuel p [] s = Ok g ->
  (is_solution_defined_for p g s = true <-> exists l t c, exec p s l t c /\ is_goal p t = true).
Proof.
  intros fuel p s g KI G0 E. split.
  - intros D. destruct (C93_plan _ _ _ _ KI G0 E D) as (acts & t & c & H1 & _ & H2 & _). eauto.
  - intros (l & t & c & Ex & Gt).
    destruct (solve_run p s KI fuel G0) as [(g' & E' & H)|[E' _]]; [|congruence].
    rewrite E in E'. injection E' as <-. destruct H as [(x & l' & c' & Gx & (Px & Hd & _ & Pl))|[_ H]].
    + destruct l' as [|[u a] l']; [cbn in Hd; congruence|]. cbn in Hd. subst u.
      destruct (Pl [] s a l' eq_refl) as (c2 & _ & _ & _ & D & _). exact D.
    + exfalso. rewrite (H t) in Gt; [discriminate|]. exists l, c. exact Ex.
Qed.

(** C93.  With finitely many reachable states (all in [L]) the solve ends. *)
Theorem C93_terminates : forall (p : problem) s L,
  (forall t u, key p t = key p u -> t = u) ->
  In s L -> NoDup L -> (forall t a, In t L -> In a (apps p t) -> In (next p t a) L) ->
  forall fuel, 1 + list_sum (map (fun t => length (apps p t)) L) < fuel ->
  exists g, solve fuel p [] s = Ok g.
Proof.
  intros p s L KI Is ND Cl fuel F. destruct (is_goal p s) eqn:G0.
  - unfold solve. destruct (emplace p [] s) as [g1 b]. rewrite G0, orb_true_r. eauto.
  - destruct (solve_run p s KI fuel G0) as [(g & E & _)|[_ H]]; [eauto|].
    specialize (H L (conj Is (conj ND Cl))). lia.
Qed.
End Plan.

(** *** Examples: problems over numbers; a state has one feature, itself *)
Definition edges (e : nat -> list (nat * Z)) (goal : nat) (h : nat -> Z) : @problem nat nat nat nat :=
  {| apps := fun s => seq 0 (length (e s));
     next := fun s a => fst (nth a (e s) (s, 0%Z));
     cost := fun s a _ => snd (nth a (e s) (s, 0%Z));
     is_goal := fun s => s =? goal; features := fun s => [s]; heur := h; key := fun s => s |}.

Definition graph_of {X} (r : res (list X)) : list X := match r with Ok g => g | Err _ => [] end.

(** A cycle of negative cost on the way. *)
Definition loopy : @problem nat nat nat nat :=
  edges (fun s => match s with 0 => [(1, 1%Z); (4, 1%Z)] | 1 => [(2, 1%Z)] | 2 => [(1, (-5)%Z); (3, 2%Z)] | _ => [] end) 3
        (fun s => Z.of_nat (3 - s)).

Example C93_loopy : let g := graph_of (solve 20 loopy [] 0) in
  solve 20 loopy [] 0 = Ok g /\ is_solution_defined_for loopy g 0 = true /\
  map (get_best_action loopy g) [0; 1; 2] = [Ok 0; Ok 0; Ok 1] /\
  map (get_best_value loopy g) [0; 1; 2; 3] = [Ok (Some 4%Z); Ok (Some 3%Z); Ok (Some 2%Z); Ok (Some 0%Z)].
Proof. vm_compute. repeat split. Qed.

(** From a goal there is no plan: asking for an action is an error. *)
Theorem C93_goal_start_refuted : exists (p : @problem nat nat nat nat) s g,
  is_goal p s = true /\ solve 20 p [] s = Ok g /\ is_solution_defined_for p g s = false /\
  get_next_action 20 p g s = Err ValueError.
Proof. exists loopy, 3, (graph_of (solve 20 loopy [] 3)). vm_compute. repeat split. Qed.

(** The plan is not the cheapest one, even when the heuristic is the exact remaining cost and no two states share a
    feature: the cost of reaching a state is not taken into account. *)
Theorem C93_optimal_refuted : exists (p : @problem nat nat nat nat) s g v l t c,
  (forall t a, In a (apps p t) -> (0 <= cost p t a (next p t a))%Z) /\
  solve 20 p [] s = Ok g /\ get_best_value p g s = Ok (Some v) /\
  exec p s l t c /\ is_goal p t = true /\ (c < v)%Z.
Proof.
  set (p := edges (fun s => match s with 0 => [(1, 9%Z); (2, 1%Z)] | 1 => [(3, 1%Z)] | 2 => [(3, 2%Z)] | _ => [] end) 3
              (fun s => match s with 0 => 3%Z | 1 => 1%Z | 2 => 2%Z | _ => 0%Z end)).
  exists p, 0, (graph_of (solve 20 p [] 0)), 10%Z, [1; 0], 3, 3%Z.
  split; [|split; [vm_compute; reflexivity|split; [vm_compute; reflexivity|split; [|split; [reflexivity|lia]]]]].
  - intros [|[|[|t]]] a I; cbn in I; repeat match goal with H : _ \/ _ |- _ => destruct H as [<-|H] | H : False |- _ => destruct H end; cbn; lia.
  - apply (ex_cons p 0 1 [0] 3 2%Z); [right; now left|]. apply (ex_cons p 2 0 [] 3 0%Z); [now left|]. constructor.
Qed.

(** Solving from a second state keeps the scores and parents of the first search: the walk back from a goal
    misses the second root and follows a null pointer. *)
Theorem C93_second_solve_refuted : exists (p : @problem nat nat nat nat) s1 s2 g1,
  (forall t a, In a (apps p t) -> (0 <= cost p t a (next p t a))%Z) /\
  solve 20 p [] s1 = Ok g1 /\ (exists l t c, exec p s2 l t c /\ is_goal p t = true) /\
  solve 20 p g1 s2 = Err AttributeError.
Proof.
  set (p := edges (fun s => match s with 0 => [(2, 1%Z)] | 1 => [(2, 5%Z)] | 2 => [(3, 1%Z)] | _ => [] end) 3 (fun _ => 0%Z)).
  exists p, 0, 1, (graph_of (solve 20 p [] 0)).
  split; [|split; [vm_compute; reflexivity|split; [|vm_compute; reflexivity]]].
  - intros [|[|[|t]]] a I; cbn in I; try (destruct I as [<-|[]]; cbn; lia). destruct I.
  - exists [0; 0], 3, 6%Z. split; [|reflexivity].
    apply (ex_cons p 1 0 [0] 3 1%Z); [now left|]. apply (ex_cons p 2 0 [] 3 0%Z); [now left|]. constructor.
Qed.

(** Solving from a second state that reaches a node of the first plan more cheaply overwrites the action the first
    plan answers: it is still said to be defined, and starts with an action of the other state. *)
Theorem C93_first_plan_lost_refuted : exists (p : @problem nat nat nat nat) s1 s2 g1 g2 a b,
  solve 20 p [] s1 = Ok g1 /\ get_best_action p g1 s1 = Ok a /\ In a (apps p s1) /\
  solve 20 p g1 s2 = Ok g2 /\ is_solution_defined_for p g2 s1 = true /\ get_best_action p g2 s1 = Ok b /\
  ~ In b (apps p s1).
Proof.
  set (p := edges (fun s => match s with 0 => [(2, 5%Z)] | 1 => [(4, 1%Z); (2, 1%Z)] | 2 => [(3, 1%Z)] | _ => [] end) 3 (fun _ => 0%Z)).
  exists p, 0, 1, (graph_of (solve 20 p [] 0)), (graph_of (solve 20 p (graph_of (solve 20 p [] 0)) 1)), 0, 1.
  split; [vm_compute; reflexivity|]. split; [vm_compute; reflexivity|]. split; [now left|].
  split; [vm_compute; reflexivity|]. split; [vm_compute; reflexivity|]. split; [vm_compute; reflexivity|].
  cbn. intuition discriminate.
Qed.

(** Nodes hashed by their features: two states with the same features share a node, and the recorded plan takes the
    transition of one and goes on from the other. *)
Theorem C93_feature_hash_refuted : exists (p : @problem nat nat nat (nat * nat)) s g a b t1 t2,
  (forall t, key p t = (hd 0 (features p t), 0)) /\
  solve 20 p [] s = Ok g /\ is_solution_defined_for p g s = true /\
  get_best_action p g s = Ok a /\ In a (apps p s) /\ t1 = next p s a /\
  is_solution_defined_for p g t1 = true /\ get_best_action p g t1 = Ok b /\ t2 = next p t1 b /\
  is_goal p t2 = false /\ is_solution_defined_for p g t2 = false /\ apps p t2 = [].
Proof.
  set (e := fun s => match s with 0 => [(1, 5%Z); (2, 1%Z)] | 1 => [(3, 1%Z)] | 2 => [(4, 1%Z)] | _ => [] end).
  set (f := fun s => match s with 2 => 1 | _ => s end).
  set (p := {| apps := fun s => seq 0 (length (e s)); next := fun s a => fst (nth a (e s) (s, 0%Z));
               cost := fun s a _ => snd (nth a (e s) (s, 0%Z)); is_goal := fun s => s =? 3;
               features := fun s => [f s]; heur := fun _ => 0%Z; key := fun s => (f s, 0) |} : @problem nat nat nat (nat * nat)).
  exists p, 0, (graph_of (solve 20 p [] 0)), 1, 0, 2, 4.
  split; [reflexivity|]. vm_compute. repeat split. right. now left.
Qed.

Print Assumptions C92_novelty.
Print Assumptions C92_nothing_new_last.
Print Assumptions C92_novelty_one_refuted.
Print Assumptions C93_plan.
Print Assumptions C93_complete.
Print Assumptions C93_terminates.
Print Assumptions C93_goal_start_refuted.
Print Assumptions C93_optimal_refuted.
Print Assumptions C93_second_solve_refuted.
Print Assumptions C93_first_plan_lost_refuted.
Print Assumptions C93_feature_hash_refuted.
