(** C89-C91: the Iterated Width solver of the C++ hub.

    Specification vocabulary: IwSpec.v ([choice], [agree], [fresh], [is_novelty], [exec]). *)
From Coq Require Import List Bool Arith ZArith Lia Permutation Sorted.
From Verif Require Import Py PyList PyMore CppAstarModel CppHeapProofs IwModel IwSpec IwTupleProofs IwProofs IwSearchProofs IwFlagProofs.
Import ListNotations.
Open Scope nat_scope.

(** ** C89: novelty *)

(** The combinations are enumerated completely and without repetition. *)
Theorem C89_tuples : forall k n, k <= n -> exists L, generate_tuples k n = Ok L /\ NoDup L /\
  forall idx, In idx L <-> choice k n idx.
Proof.
  intros k n H. exists (combs k 0 (n - k)). split; [now apply generate_ok|]. split; [apply combs_NoDup|].
  intros idx. now apply combs_choice.
Qed.

Example C89_tuples_2_4 : generate_tuples 2 4 = Ok [[0; 1]; [0; 2]; [0; 3]; [1; 2]; [1; 3]; [2; 3]].
Proof. reflexivity. Qed.

Section Novelty.
Context {V : Type} {EV : PyEq V}.

(** The tables after the novelty of the feature vectors [fs] has been computed, one after the other. *)
Definition tables_after (width : nat) (fs : list (list V)) : res (list (list (@tuple V))) :=
  foldM (fun sets f => let* r := novelty width sets f in Ok (snd r)) (repeat [] width) fs.

(** The number computed for a feature vector is the size of its smallest combination of values that none of the
    vectors evaluated before has. *)
Theorem C89_novelty : forall width fs f, exists sets nov sets',
  tables_after width fs = Ok sets /\ novelty width sets f = Ok (nov, sets') /\ is_novelty width f fs nov.
Proof.
  intros width fs f.
  assert (T : exists sets, tables_after width fs = Ok sets /\ table width sets (rev fs)).
  { unfold tables_after.
    destruct (@foldM_total _ _ (fun sets f => let* r := novelty width sets f in Ok (snd r))
                (fun l sets => table width sets (rev l)) fs (repeat [] width)) as (sets & E & T).
    - apply table_start.
    - intros l0 x l1 sets _ T. destruct (novelty_ok width sets _ x T) as (nov & sets' & E & T' & _).
      exists sets'. rewrite E. cbn. split; [reflexivity|]. rewrite rev_app_distr. exact T'.
    - eauto. }
  destruct T as (sets & E & T). destruct (novelty_ok width sets _ f T) as (nov & sets' & E' & _ & N).
  exists sets, nov, sets'. split; auto. split; auto.
  assert (F : forall k, fresh k f (rev fs) <-> fresh k f fs).
  { intros k. split; intros (idx & C & H); exists idx; (split; [exact C|]); intros f' I; apply H.
    - now apply -> in_rev.
    - now apply in_rev. }
  destruct N as [[N1 N2]|(N1 & N2 & N3)]; [left|right].
  - split; auto. intros k Hk. rewrite <- F. auto.
  - split; auto. split; [now apply F|]. intros k Hk. rewrite <- F. auto.
Qed.

(** A vector evaluated before has nothing new: it is above every width it can be searched at. *)
Theorem C89_repeated : forall width (fs : list (list V)) f nov, In f fs -> is_novelty width f fs nov -> nov = S (length f).
Proof.
  intros width fs f nov I [[E _]|(_ & (idx & _ & H) & _)]; auto. exfalso. apply (H f I). intros i _. reflexivity.
Qed.

(** The first vector has novelty one. *)
Theorem C89_first : forall width (f : list V) nov, f <> [] -> 1 <= width -> is_novelty width f [] nov -> nov = 1.
Proof.
  intros width f nov NE W N. assert (F : fresh 1 f []).
  { exists [0]. split; [|intros ? []]. split; [reflexivity|]. split; [repeat constructor|].
    constructor; [|constructor]. destruct f; [congruence|cbn; lia]. }
  destruct N as [[_ H]|((H1 & H2) & H3 & H4)]; [exfalso; apply (H 1); auto; lia|].
  destruct (Nat.eq_dec nov 1) as [|N1]; auto. exfalso. apply (H4 1); auto. lia.
Qed.
End Novelty.

(** After [1 0] and [0 1], the vector [1 1] has no new value but a new pair. *)
Example C89_novelty_2 : exists sets sets', tables_after 2 [[1; 0]; [0; 1]] = Ok sets /\ novelty 2 sets [1; 1] = Ok (2, sets').
Proof. eexists _, _. split; vm_compute; reflexivity. Qed.

(** ** C90: the plan *)
Section Plan.
Context {St A V K : Type} {EV : PyEq V} {EK : PyEq K}.
Notation problem := (@problem St A V K).

Lemma plan_answers : forall (p : problem) s (g : @graph St A K) l x c, plan_in p s g l x c ->
  forall done todo, map snd l = done ++ todo -> exists t c1 c2,
    exec p s done t c1 /\ exec p t todo x c2 /\ (c1 + c2 = c)%Z /\ get_best_value p g t = Ok (Some c2) /\
    match todo with
    | [] => t = x
    | a :: _ => is_solution_defined_for p g t = true /\ get_best_action p g t = Ok a
    end.
Proof.
  intros p s g l x c (Ex & Hd & V0 & H).
  assert (Post : forall l2 l1, l = l1 ++ l2 -> exists c2, exec p (hd_st l2 x) (map snd l2) x c2 /\
     get_best_value p g (hd_st l2 x) = Ok (Some c2)).
  { intros [|[t a] l2] l1 El.
    - exists 0%Z. split; [constructor|exact V0].
    - destruct (H _ _ _ _ El) as (c2 & X1 & X2 & _). eauto. }
  assert (Pre : forall l1 l2, l = l1 ++ l2 -> exists c1, exec p s (map snd l1) (hd_st l2 x) c1).
  { induction l1 as [|[t a] l1 IH] using rev_ind; intros l2 El.
    - cbn in El. subst l2. rewrite Hd. exists 0%Z. constructor.
    - rewrite <- app_assoc in El. cbn [app] in El. destruct (IH _ El) as (c1 & X). cbn [hd_st] in X.
      destruct (H _ _ _ _ El) as (c2 & Y & _ & _ & _ & Nx). inversion Y; subst.
      eexists. rewrite map_app. cbn [map snd]. rewrite <- Nx. apply exec_snoc; eauto. }
  intros done todo Es.
  assert (Sp : exists l1 l2, l = l1 ++ l2 /\ map snd l1 = done /\ map snd l2 = todo).
  { clear -Es. revert l Es. induction done as [|a done IH]; intros l Es; [exists [], l; auto|].
    destruct l as [|[t b] l]; [discriminate|]. injection Es as -> Es. destruct (IH _ Es) as (l1 & l2 & -> & <- & <-).
    exists ((t, a) :: l1), l2. auto. }
  destruct Sp as (l1 & l2 & El & <- & <-). destruct (Pre _ _ El) as (c1 & X1). destruct (Post _ _ El) as (c2 & X2 & X3).
  exists (hd_st l2 x), c1, c2. split; [exact X1|]. split; [exact X2|]. split.
  - pose proof (exec_app p _ _ _ _ X1 _ _ _ X2) as X. rewrite El, map_app in Ex.
    destruct (exec_cost p _ _ _ _ _ _ Ex X). auto.
  - split; [exact X3|]. destruct l2 as [|[t a] l2]; [reflexivity|].
    destruct (H _ _ _ _ El) as (_ & _ & _ & Y1 & Y2 & _). split; [exact Y2|exact Y1].
Qed.

(** C90.  After a first solve from a non-goal state, with costs that are not negative, different keys for
    different states and no time left once a plan is known: when a solution is defined for the state, the solver
    answers it with the first action of an executable sequence to a goal, and each state on the way with the
    next one; the value of each is the cost of the rest; the one intermediate score is the cost of the plan. *)
Theorem C90_plan : forall fuel (p : problem) o clock budget s ok g scores,
  (forall t u, key p t = key p u -> t = u) -> (forall t a, In a (apps p t) -> (0 <= cost p t a (next p t a))%Z) ->
  (forall n, budget <= clock n) -> is_goal p s = false ->
  solve fuel p o clock budget [] s = Ok (ok, g, scores) -> is_solution_defined_for p g s = true ->
  ok = true /\ exists acts goal_state total time width,
    is_goal p goal_state = true /\ acts <> [] /\ exec p s acts goal_state total /\
    1 <= width <= length (features p s) /\ scores = [(time, width, Some total)] /\
    forall done todo, acts = done ++ todo -> exists t c1 c2,
      exec p s done t c1 /\ exec p t todo goal_state c2 /\ (c1 + c2 = total)%Z /\
      get_best_value p g t = Ok (Some c2) /\
      match todo with
      | [] => t = goal_state
      | a :: _ => is_solution_defined_for p g t = true /\ get_best_action p g t = Ok a /\
                  forall fuel', get_next_action fuel' p o clock budget g t = Ok (a, g)
      end.
Proof.
  intros fuel p o clock budget s ok g scores KI NN Late G0 E D.
  destruct (solve_run p o s KI NN clock budget Late G0 fuel) as [(ok' & g' & sc & E' & H)|[E' _]]; [|congruence].
  rewrite E in E'. injection E' as <- <- <-.
  destruct H as [(-> & x & l & c & Gx & Pl & time & width & W & Sc)|(_ & Sg & _)].
  - split; auto. exists (map snd l), x, c, time, width. split; auto. split.
    { intros El. destruct Pl as (Ex & _). rewrite El in Ex. inversion Ex; subst. congruence. }
    split; [apply Pl|]. split; auto. split; auto. intros done todo El.
    destruct (plan_answers p s g l x c Pl done todo El) as (t & c1 & c2 & H1 & H2 & H3 & H4 & H5).
    exists t, c1, c2. repeat (split; [assumption|]). destruct todo as [|a todo]; auto. destruct H5 as [H5 H6].
    split; auto. split; auto. intros fuel'. unfold get_next_action. rewrite H5. cbn [bind]. rewrite H6. reflexivity.
  - exfalso. unfold is_solution_defined_for in D. destruct (dget g (key p s)) as [n|] eqn:En; [|discriminate].
    destruct (Sg (key p s)) as [B _]. rewrite (at_get _ _ _ En) in B. rewrite B in D. discriminate.
Qed.

(** C90.  When moreover the features tell the reachable states apart and all of them have the same number of
    features, the solver finds a plan exactly when a goal can be reached. *)
Theorem C90_complete : forall fuel (p : problem) o clock budget s ok g scores,
  (forall t u, key p t = key p u -> t = u) -> (forall t a, In a (apps p t) -> (0 <= cost p t a (next p t a))%Z) ->
  (forall n, budget <= clock n) -> is_goal p s = false ->
  features p s <> [] ->
  (forall l t c, exec p s l t c -> length (features p t) = length (features p s)) ->
  (forall l t c l' t' c', exec p s l t c -> exec p s l' t' c' -> features p t = features p t' -> t = t') ->
  solve fuel p o clock budget [] s = Ok (ok, g, scores) ->
  (is_solution_defined_for p g s = true <-> exists l t c, exec p s l t c /\ is_goal p t = true).
Proof.
  intros fuel p o clock budget s ok g scores KI NN Late G0 NE Len Inj E. split.
  - intros D. destruct (C90_plan _ _ _ _ _ _ _ _ _ KI NN Late G0 E D) as (_ & acts & t & c & _ & _ & H1 & _ & H2 & _). eauto.
  - intros (l & t & c & Ex & Gt).
    destruct (solve_run p o s KI NN clock budget Late G0 fuel) as [(ok' & g' & sc & E' & H)|[E' _]]; [|congruence].
    rewrite E in E'. injection E' as <- <- <-.
    destruct H as [(_ & x & l' & c' & Gx & (Px & Hd & _ & Pl) & _)|(_ & _ & H)].
    + destruct l' as [|[u a] l']; [cbn in Hd; congruence|]. cbn in Hd. subst u.
      destruct (Pl [] s a l' eq_refl) as (c2 & _ & _ & _ & D & _). exact D.
    + exfalso. rewrite (H) in Gt; [discriminate| |exists l, c; exact Ex]. split; [|split].
      * intros t1 t2 (l1 & c1 & X1) (l2 & c2 & X2). eauto.
      * intros t1 (l1 & c1 & X1). eauto.
      * destruct (features p s); [congruence|cbn; lia].
Qed.

(** C90.  With finitely many reachable states (all in [L]) the solve ends, whatever the features. *)
Theorem C90_terminates : forall (p : problem) o clock budget s L,
  (forall t u, key p t = key p u -> t = u) -> (forall t a, In a (apps p t) -> (0 <= cost p t a (next p t a))%Z) ->
  (forall n, budget <= clock n) ->
  In s L -> NoDup L -> (forall t a, In t L -> In a (apps p t) -> In (next p t a) L) ->
  forall fuel, 1 + list_sum (map (fun t => length (apps p t)) L) < fuel ->
  exists r, solve fuel p o clock budget [] s = Ok r.
Proof.
  intros p o clock budget s L KI NN Late Is ND Cl fuel F. destruct (is_goal p s) eqn:G0.
  - unfold solve. set (h0 := {| h_graph := _ |}). clearbody h0.
    assert (W : forall ws h, exists r, widths fuel p o clock budget s h ws = Ok r).
    { induction ws as [|w ws IH]; intros h; cbn [widths]; [eauto|].
      unfold width_solve. destruct (emplace p (h_graph h) s) as [g1 b]. rewrite G0, orb_true_r. cbn [bind].
      destruct (_ <? _); eauto. }
    destruct (W (seq 1 (length (features p s))) h0) as ([ok h1] & E). rewrite E. cbn. eauto.
  - destruct (solve_run p o s KI NN clock budget Late G0 fuel) as [(ok & g & sc & E & _)|[_ H]]; [eauto|].
    specialize (H L (conj Is (conj ND Cl))). lia.
Qed.
End Plan.

(** *** Examples: problems over numbers, whose only feature is the state itself *)
Definition edges (e : nat -> list (nat * Z)) (goal : nat) : @problem nat nat nat nat :=
  {| apps := fun s => seq 0 (length (e s));
     next := fun s a => fst (nth a (e s) (s, 0%Z));
     cost := fun s a _ => snd (nth a (e s) (s, 0%Z));
     is_goal := fun s => s =? goal; is_terminal := fun _ => false;
     features := fun s => [s]; key := fun s => s |}.

Definition no_clock (n : nat) : nat := 0.
Definition graph_of {X Y} (r : res (bool * list X * list Y)) : list X := match r with Ok (_, g, _) => g | Err _ => [] end.
Definition scores_of {X Y} (r : res (bool * list X * list Y)) : list Y := match r with Ok (_, _, sc) => sc | Err _ => [] end.

(** Two ways from 0 to 3: directly for 5, or through 1 and 2 for 4. *)
Definition detour : @problem nat nat nat nat :=
  edges (fun s => match s with 0 => [(3, 5%Z); (1, 1%Z)] | 1 => [(2, 1%Z); (0, 0%Z)] | 2 => [(3, 2%Z)] | _ => [] end) 3.

Example C90_detour : let r := solve 20 detour default_ordering no_clock 0 [] 0 in let g := graph_of r in
  is_goal detour 0 = false /\ is_solution_defined_for detour g 0 = true /\ scores_of r = [(0, 1, Some 4%Z)] /\
  map (get_best_action detour g) [0; 1; 2] = [Ok 1; Ok 0; Ok 0] /\ map (get_best_value detour g) [0; 3] = [Ok (Some 4%Z); Ok (Some 0%Z)].
Proof. vm_compute. repeat split. Qed.

(** With two features, a goal that only a pair distinguishes is found at width 2. *)
Definition pairs : @problem (nat * nat) nat nat (nat * nat) :=
  {| apps := fun s => if fst s + snd s <? 2 then [0; 1] else [];
     next := fun s a => if a =? 0 then (1, snd s) else (fst s, 1);
     cost := fun _ _ _ => 1%Z;
     is_goal := fun s => (fst s =? 1) && (snd s =? 1); is_terminal := fun _ => false;
     features := fun s => [fst s; snd s]; key := fun s => s |}.

Example C90_pairs : let r := solve 20 pairs default_ordering no_clock 0 [] (0, 0) in
  scores_of r = [(0, 2, Some 2%Z)] /\ is_solution_defined_for pairs (graph_of r) (0, 0) = true.
Proof. vm_compute. repeat split. Qed.

(** From a goal there is no plan: the solver reports no solution, and asking for an action is an error. *)
Theorem C90_goal_start_refuted : exists (p : @problem nat nat nat nat) s g,
  is_goal p s = true /\ solve 20 p default_ordering no_clock 0 [] s = Ok (true, g, []) /\
  is_solution_defined_for p g s = false /\ get_next_action 20 p default_ordering no_clock 0 g s = Err ValueError.
Proof.
  exists detour, 3, (graph_of (solve 20 detour default_ordering no_clock 0 [] 3)). vm_compute. repeat split.
Qed.

(** Solving from a second state keeps the scores and parents of the first search: the walk back from a state
    solved before misses the second root and follows a null pointer. *)
Theorem C90_second_solve_refuted : exists (p : @problem nat nat nat nat) s1 s2 g1 scores,
  (forall t a, In a (apps p t) -> (0 <= cost p t a (next p t a))%Z) /\
  solve 20 p default_ordering no_clock 0 [] s1 = Ok (true, g1, scores) /\
  (exists l t c, exec p s2 l t c /\ is_goal p t = true) /\
  solve 20 p default_ordering no_clock 0 g1 s2 = Err AttributeError.
Proof.
  set (p := edges (fun s => match s with 0 => [(2, 1%Z)] | 1 => [(2, 5%Z)] | 2 => [(3, 1%Z)] | _ => [] end) 3).
  exists p, 0, 1, (graph_of (solve 20 p default_ordering no_clock 0 [] 0)), (scores_of (solve 20 p default_ordering no_clock 0 [] 0)).
  split; [|split; [vm_compute; reflexivity|split; [|vm_compute; reflexivity]]].
  - intros [|[|[|t]]] a I; cbn in I; try (destruct I as [<-|[]]; cbn; lia). destruct I.
  - exists [0; 0], 3, 6%Z. split; [|reflexivity].
    apply (ex_cons p 1 0 [0] 3 1%Z); [reflexivity|now left|]. apply (ex_cons p 2 0 [] 3 0%Z); [reflexivity|now left|]. constructor.
Qed.

(** Nodes hashed by their features: two states with the same features share a node, and the recorded plan takes
    the transition of one and goes on from the other. *)
Theorem C90_feature_hash_refuted : exists (p : @problem nat nat nat (nat * nat)) s g scores a b t1 t2,
  (forall t, key p t = (hd 0 (features p t), 0)) /\
  solve 20 p default_ordering no_clock 0 [] s = Ok (true, g, scores) /\ is_solution_defined_for p g s = true /\
  get_best_action p g s = Ok a /\ In a (apps p s) /\ t1 = next p s a /\
  is_solution_defined_for p g t1 = true /\ get_best_action p g t1 = Ok b /\ t2 = next p t1 b /\
  is_goal p t2 = false /\ is_solution_defined_for p g t2 = false /\ apps p t2 = [].
Proof.
  set (e := fun s => match s with 0 => [(1, 5%Z); (2, 1%Z)] | 1 => [(3, 1%Z)] | 2 => [(4, 1%Z)] | _ => [] end).
  set (f := fun s => match s with 2 => 1 | _ => s end).
  set (p := {| apps := fun s => seq 0 (length (e s)); next := fun s a => fst (nth a (e s) (s, 0%Z));
               cost := fun s a _ => snd (nth a (e s) (s, 0%Z)); is_goal := fun s => s =? 3; is_terminal := fun _ => false;
               features := fun s => [f s]; key := fun s => (f s, 0) |} : @problem nat nat nat (nat * nat)).
  exists p, 0, (graph_of (solve 20 p default_ordering no_clock 0 [] 0)), (scores_of (solve 20 p default_ordering no_clock 0 [] 0)), 1, 0, 2, 4.
  split; [reflexivity|]. vm_compute. repeat split. right. now left.
Qed.

(** A cycle of negative cost: the parents form a cycle, and the walk back from the goal never ends. *)
Theorem C90_negative_cost_refuted : exists (p : @problem nat nat nat nat) s,
  (exists l t c, exec p s l t c /\ is_goal p t = true) /\
  forall fuel, solve fuel p default_ordering no_clock 0 [] s = Err OutOfFuel.
Proof.
  set (p := edges (fun s => match s with 0 => [(1, 0%Z)] | 1 => [(2, 0%Z)] | 2 => [(1, (-1)%Z); (3, 0%Z)] | _ => [] end) 3).
  exists p, 0. split.
  - exists [0; 0; 1], 3, 0%Z. split; [|reflexivity].
    apply (ex_cons p 0 0 [0; 1] 3 0%Z); [reflexivity|now left|]. apply (ex_cons p 1 0 [1] 3 0%Z); [reflexivity|now left|].
    apply (ex_cons p 2 1 [] 3 0%Z); [reflexivity|right; now left|]. constructor.
  - intros fuel. do 6 (destruct fuel as [|fuel]; [vm_compute; reflexivity|]). vm_compute. reflexivity.
Qed.

(** ** C91: time budget, widths and counts *)
Section Widths.
Context {St A V K : Type} {EV : PyEq V} {EK : PyEq K}.
Notation problem := (@problem St A V K).

(** C91.  Whatever the time budget and whatever was solved before, all the plans found during one solve are found
    at one width: once there is a plan, no larger width is searched. *)
Theorem C91_one_width : forall fuel (p : problem) o clock budget g0 s ok g scores,
  solve fuel p o clock budget g0 s = Ok (ok, g, scores) ->
  forall t1 w1 v1 t2 w2 v2, In (t1, w1, v1) scores -> In (t2, w2, v2) scores -> w1 = w2.
Proof.
  intros fuel p o clock budget g0 s ok g scores E t1 w1 v1 t2 w2 v2 I1 I2. unfold solve in E.
  apply bind_ok in E as ([ok' h'] & E & Eq). injection Eq as <- <- <-.
  destruct (widths_one p o clock budget fuel s _ {| h_graph := g0; h_found := false; h_scores := []; h_ticks := 0 |} _ _ eq_refl eq_refl E) as [w F]. rewrite Forall_forall in F.
  pose proof (F _ I1) as X1. pose proof (F _ I2) as X2. cbn in X1, X2. congruence.
Qed.

(** C91.  A first solve that fails without having pruned any state is conclusive, even when the features do not
    tell the states apart: no goal can be reached. *)
Theorem C91_no_pruning : forall fuel (p : problem) o clock budget s g scores,
  (forall t u, key p t = key p u -> t = u) -> (forall t a, In a (apps p t) -> (0 <= cost p t a (next p t a))%Z) ->
  (forall n, budget <= clock n) -> is_goal p s = false -> features p s <> [] ->
  solve fuel p o clock budget [] s = Ok (false, g, scores) -> get_nb_of_pruned_states g = 0 ->
  forall l t c, exec p s l t c -> is_goal p t = false.
Proof.
  intros fuel p o clock budget s g scores KI NN Late G0 NE E P l t c Ex.
  apply (no_pruning p o clock budget s KI NN Late G0 NE fuel g scores E P). exists l, c. exact Ex.
Qed.
End Widths.

(** Two plans are found at width 1 with time left: the second is cheaper. *)
Definition anytime : @problem nat nat nat nat :=
  let q := edges (fun s => match s with 0 => [(1, 1%Z); (2, 3%Z)] | 1 => [(3, 9%Z)] | 2 => [(4, 1%Z)] | _ => [] end) 3 in
  {| apps := apps q; next := next q; cost := cost q; is_goal := fun s => 3 <=? s; is_terminal := is_terminal q;
     features := features q; key := key q |}.

Example C91_anytime : let deepest_first : ordering := fun _ _ da _ _ db => dlt da db in
  scores_of (solve 20 anytime deepest_first no_clock 10 [] 0) = [(0, 1, Some 10%Z); (0, 1, Some 4%Z)].
Proof. vm_compute. reflexivity. Qed.

(** A dead end after two steps, nothing pruned. *)
Definition dead_end : @problem nat nat nat nat :=
  edges (fun s => match s with 0 => [(1, 1%Z); (2, 1%Z)] | 1 => [(3, 1%Z)] | _ => [] end) 9.

Example C91_dead_end : let r := solve 20 dead_end default_ordering no_clock 0 [] 0 in
  exists g, r = Ok (false, g, []) /\ get_nb_of_pruned_states g = 0 /\ get_nb_of_explored_states g = 4.
Proof. exists (graph_of (solve 20 dead_end default_ordering no_clock 0 [] 0)). vm_compute. repeat split. Qed.

(** With time left after a first plan the search goes on, and a cheaper way to a node of the plan overwrites the
    action its predecessor was given: the plan then starts with an action that is not applicable. *)
Theorem C91_anytime_refuted : exists (p : @problem nat nat nat nat) s g scores a,
  (forall t a, In a (apps p t) -> (0 <= cost p t a (next p t a))%Z) /\
  solve 20 p default_ordering no_clock 10 [] s = Ok (false, g, scores) /\
  is_solution_defined_for p g s = true /\ get_best_action p g s = Ok a /\ ~ In a (apps p s) /\
  exists g' scores' a', solve 20 p default_ordering no_clock 0 [] s = Ok (true, g', scores') /\
    get_best_action p g' s = Ok a' /\ In a' (apps p s) /\ is_goal p (next p s a') = true.
Proof.
  set (e := fun s => match s with 0 => [(0, 1, 10%Z); (1, 2, 8%Z); (2, 3, 0%Z)] | 3 => [(0, 1, 1%Z)] | 1 => [(5, 2, 1%Z)] | _ => [] end).
  set (look := fun s a => nth 0 (filter (fun x => fst (fst x) =? a) (e s)) (a, s, 0%Z)).
  set (p := {| apps := fun s => map (fun x => fst (fst x)) (e s); next := fun s a => snd (fst (look s a));
               cost := fun s a _ => snd (look s a); is_goal := fun s => s =? 2; is_terminal := fun _ => false;
               features := fun s => [s]; key := fun s => s |} : @problem nat nat nat nat).
  exists p, 0, (graph_of (solve 20 p default_ordering no_clock 10 [] 0)), (scores_of (solve 20 p default_ordering no_clock 10 [] 0)), 5.
  split; [|split; [vm_compute; reflexivity|split; [vm_compute; reflexivity|split; [vm_compute; reflexivity|split]]]].
  - intros [|[|[|[|t]]]] a I; cbn in I;
      repeat match goal with H : _ \/ _ |- _ => destruct H as [<-|H] | H : False |- _ => destruct H end; cbn; lia.
  - cbn. intuition discriminate.
  - exists (graph_of (solve 20 p default_ordering no_clock 0 [] 0)), (scores_of (solve 20 p default_ordering no_clock 0 [] 0)), 1.
    vm_compute. repeat split. right. now left.
Qed.

(** A state counts as pruned although it was expanded, and even when it starts the plan: coming back to it is
    enough. *)
Theorem C91_pruned_count_refuted : exists (p : @problem nat nat nat nat) s g scores,
  solve 20 p default_ordering no_clock 0 [] s = Ok (true, g, scores) /\ is_solution_defined_for p g s = true /\
  get_nb_of_pruned_states g = 1 /\ pruned (at_ g (key p s)) = true.
Proof.
  set (p := edges (fun s => match s with 0 => [(1, 1%Z)] | 1 => [(0, 1%Z); (2, 1%Z)] | _ => [] end) 2).
  exists p, 0, (graph_of (solve 20 p default_ordering no_clock 0 [] 0)), (scores_of (solve 20 p default_ordering no_clock 0 [] 0)).
  vm_compute. repeat split.
Qed.

(** Without features no width is tried, and no plan is found. *)
Theorem C91_no_features_refuted : exists (p : @problem nat nat nat nat) s,
  is_goal p (next p s 0) = true /\ In 0 (apps p s) /\ is_terminal p s = false /\
  forall fuel o clock budget, solve fuel p o clock budget [] s = Ok (false, [], []).
Proof.
  exists {| apps := fun _ => [0]; next := fun s _ => S s; cost := fun _ _ _ => 1%Z; is_goal := fun s => s =? 1;
            is_terminal := fun _ => false; features := fun _ => []; key := fun s => s |}, 0.
  split; [reflexivity|]. split; [now left|]. split; reflexivity.
Qed.

Print Assumptions C89_tuples.
Print Assumptions C89_novelty.
Print Assumptions C89_repeated.
Print Assumptions C89_first.
Print Assumptions C90_plan.
Print Assumptions C90_complete.
Print Assumptions C90_terminates.
Print Assumptions C90_goal_start_refuted.
Print Assumptions C90_second_solve_refuted.
Print Assumptions C90_feature_hash_refuted.
Print Assumptions C90_negative_cost_refuted.
Print Assumptions C91_one_width.
Print Assumptions C91_no_pruning.
Print Assumptions C91_anytime_refuted.
Print Assumptions C91_pruned_count_refuted.
Print Assumptions C91_no_features_refuted.
