(** C139: the Rollout Iterated Width solver. *)
From Coq Require Import List Bool Arith ZArith QArith Lia.
From Verif Require Import Py PyList RiwModel RiwSpec RiwProofs RiwTreeProofs RiwNovProofs.
From Verif Require Import IwSpec.
Import ListNotations.
Local Open Scope nat_scope.

Section Theorems.
Context {St A V : Type} {ES : PyEq St} {EV : PyEq V}.
Variables (p : @problem St A V) (c : params).

Section Simulation.
Hypothesis sim : use_simulation_domain c = true.
Hypothesis keep_nodes : online_node_garbage c = false.

Lemma used_sound : forall w, used p c w -> sound p w.
Proof.
  intros w H. induction H as [|w _ _|w clock draw order fuel s b w' Ho _ IH H|w order s a w' Ho _ IH H].
  - intros s n E. discriminate E.
  - intros s n E. discriminate E.
  - pose proof (solve_safe p c clock draw order (fun _ => True) sim Ho I I fuel w s IH) as S0. rewrite H in S0. apply S0.
  - unfold get_best_action in H. destruct (dget (w_graph w) s) as [n|] eqn:E; [|discriminate].
    destruct (n_best n) as [i|] eqn:Eb; [|discriminate].
    destruct (proj1 (proj2 (IH _ _ E)) _ Eb) as (a0 & r & y & En).
    pose proof (best_action_safe p c (fun _ => 0) (fun _ => 0) order (fun _ => True) sim Ho keep_nodes w s n i a0 r y IH E Eb En) as S0.
    unfold get_best_action in S0. rewrite E, Eb in S0. rewrite H in S0. apply S0.
Qed.

(** Whatever was done before with the solver, a state for which a solution is declared is a state for which the best
    action is given, and it is an applicable one; for the other states there is an exception of that name. *)
Theorem C139_defined : forall w s order, used p c w -> (forall l x, In x (order l) <-> In x l) ->
  if is_solution_defined_for w s
  then exists a w', get_best_action p c order w s = Ok (a, w') /\ In a (apps p s) /\ used p c w'
  else get_best_action p c order w s = Err ValueError.
Proof.
  intros w s order U Ho. pose proof (used_sound w U) as O. unfold is_solution_defined_for.
  destruct (dget (w_graph w) s) as [n|] eqn:E; [|unfold get_best_action; now rewrite E].
  destruct (n_best n) as [i|] eqn:Eb; [|unfold get_best_action; now rewrite E, Eb].
  destruct (O _ _ E) as (Hc & Hb & _). destruct (Hb _ Eb) as (a & r & y & En).
  pose proof (best_action_safe p c (fun _ => 0) (fun _ => 0) order (fun _ => False) sim Ho keep_nodes w s n i a r y O E Eb En) as S0.
  destruct (get_best_action p c order w s) as [[a' w']|e] eqn:G; [|contradiction].
  destruct S0 as [Ea _]. cbn in Ea. subst a'. exists a, w'. split; [reflexivity|].
  split; [apply nth_error_In in En; exact (proj1 (Hc _ _ _ En))|]. eapply used_ask; eauto.
Qed.

(** The policy lists, with its value, the action that is given for the state. *)
Theorem C139_policy : forall w s a v order, used p c w -> (forall l x, In x (order l) <-> In x l) ->
  In (s, (a, v)) (policy w) ->
  In a (apps p s) /\ get_best_value w s = Ok v /\ exists w', get_best_action p c order w s = Ok (a, w').
Proof.
  intros w s a v order U Ho H. pose proof (used_sound w U) as O. unfold policy in H. apply in_flat_map in H.
  destruct H as (k & _ & H). destruct (dget (w_graph w) k) as [n|] eqn:E; [|contradiction].
  destruct (n_best n) as [i|] eqn:Eb; [|contradiction].
  destruct (nth_error (n_children n) i) as [[[a0 r0] ch]|] eqn:En; [|contradiction].
  destruct H as [H|[]]. injection H as -> -> <-.
  destruct (O _ _ E) as (Hc & Hb & _). destruct (Hb _ Eb) as (a1 & r & y & En1). rewrite En in En1. injection En1 as <- -> ->.
  split; [apply nth_error_In in En; exact (proj1 (Hc _ _ _ En))|].
  split; [unfold get_best_value; now rewrite E|].
  pose proof (best_action_safe p c (fun _ => 0) (fun _ => 0) order (fun _ => False) sim Ho keep_nodes w s n i a r y O E Eb En) as S0.
  destruct (get_best_action p c order w s) as [[a' w']|e]; [|contradiction].
  destruct S0 as [Ea _]. cbn in Ea. subst a'. now exists w'.
Qed.

(** Every state that has an action is listed. *)
Theorem C139_policy_complete : forall w s, used p c w -> is_solution_defined_for w s = true -> exists a v, In (s, (a, v)) (policy w).
Proof.
  intros w s U D. pose proof (used_sound w U) as O. unfold is_solution_defined_for in D.
  destruct (dget (w_graph w) s) as [n|] eqn:E; [|discriminate]. destruct (n_best n) as [i|] eqn:Eb; [|discriminate].
  destruct (proj1 (proj2 (O _ _ E)) _ Eb) as (a & r & y & En). exists a, (n_value n). unfold policy. apply in_flat_map.
  exists s. split.
  - apply dget_In in E. unfold dkeys. apply in_map_iff. exists (s, n). auto.
  - rewrite E, Eb, En. left. reflexivity.
Qed.

(** A search ends with a result, or lasts (no result within the given number of steps), or meets a state from which
    nothing can be drawn: it never follows the pointer of a node that is gone.  The number of rollouts that it reports
    is within the budget, and is not zero when an action was drawn. *)
Theorem C139_budget : forall w s clock draw order fuel, used p c w -> (forall l x, In x (order l) <-> In x l) ->
  match solve p c clock draw order fuel w s with
  | Ok (_, w') => get_nb_rollouts w' <= rollout_budget c /\ (w_draws w' <> w_draws w -> 0 < get_nb_rollouts w')
  | Err e => e = OutOfFuel \/ e = RuntimeError
  end.
Proof.
  intros w s clock draw order fuel U Ho. pose proof (used_sound w U) as O.
  pose proof (solve_safe p c clock draw order (fun e => e = OutOfFuel \/ e = RuntimeError) sim Ho
    (or_introl eq_refl) (or_intror eq_refl) fuel w s O) as S0.
  destruct (solve p c clock draw order fuel w s) as [[b w']|e]; [apply S0|exact S0].
Qed.

(** The action of the Python solver: an applicable action, or a random one when there is no best action. *)
Theorem C139_next_action : forall w s clock draw order fuel continuous, used p c w -> (forall l x, In x (order l) <-> In x l) ->
  match get_next_action p c clock draw order fuel continuous w s with
  | Ok (Some a, w') => In a (apps p s) /\ used p c w'
  | Ok (None, w') => used p c w'
  | Err e => e = OutOfFuel \/ e = RuntimeError
  end.
Proof.
  intros w s clock draw order fuel continuous U Ho. unfold get_next_action.
  set (b := continuous || negb (is_solution_defined_for w s)).
  assert (R : match (if b then let* r := solve p c clock draw order fuel w s in Ok (snd r) else Ok w) with
              | Ok w1 => used p c w1
              | Err e => e = OutOfFuel \/ e = RuntimeError
              end).
  { destruct b; [|exact U]. pose proof (C139_budget w s clock draw order fuel U Ho) as B.
    destruct (solve p c clock draw order fuel w s) as [[b1 w1]|e] eqn:E; cbn; [|exact B]. eapply used_solve; eauto. }
  destruct (if b then _ else _) as [w1|e]; cbn [bind]; [|exact R].
  pose proof (C139_defined w1 s order R Ho) as D. destruct (is_solution_defined_for w1 s).
  - destruct D as (a & w' & -> & Ia & U'). auto.
  - rewrite D. exact R.
Qed.
End Simulation.

(** A domain whose reachable states form a finite tree, shallower than [max_depth]: when the search ends before its
    budgets and reports no pruned state, the value of the state it was called on is the best discounted sum of rewards
    over the complete executions, and the action it gives starts a best execution.  (Not so when two actions lead to the
    same state: C139_value_refuted.) *)
Theorem C139_tree : forall clock draw order fuel s0 b w,
  use_simulation_domain c = true -> online_node_garbage c = false -> (forall l x, In x (order l) <-> In x l) ->
  is_terminal p s0 = false -> features p s0 <> [] ->
  (forall l l' t, walk p s0 l t -> walk p s0 l' t -> l = l') -> (forall s, NoDup (apps p s)) ->
  (forall l t, walk p s0 l t -> is_terminal p t = false -> (Z.of_nat (length l) < max_depth c)%Z) ->
  (max_depth c < 2 ^ 64)%Z -> (0 <= discount c)%Q ->
  (forall l t e, walk p s0 l t -> complete p t e -> (- dbl_max < gain p (discount c) t e)%Q) ->
  solve p c clock draw order fuel (start p) s0 = Ok (b, w) ->
  (forall t, clock t < time_budget c) -> get_nb_rollouts w < rollout_budget c -> get_nb_of_pruned_states w = 0 ->
  exists v a w' v', get_best_value w s0 = Ok v /\ optimal p (discount c) s0 v /\
    get_best_action p c order w s0 = Ok (a, w') /\ In a (apps p s0) /\
    optimal p (discount c) (next p s0 a) v' /\ (reward p s0 a + discount c * v' == v)%Q.
Proof.
  intros clock draw order fuel s0 b w sim keep_nodes Ho L0 Hf Ht Hd Hh Hs Hg Hb H Tm Bu Pr.
  destruct (solve_fine p c clock draw order s0 sim Ho L0 Ht Hd Hh Hs Hg Hb fuel b w Hf H Tm)
    as ((O & T & Va) & n & E & [Sn|Bad]); [|unfold get_nb_rollouts in Bu; lia].
  destruct (Va (nopr_count w Pr) _ _ E Sn) as [Ov On]. destruct (On L0) as (i & a & r & y & v' & Eb & En & Oy & Ev).
  destruct (O _ _ E) as (Hc & _ & _). pose proof (nth_error_In _ _ En) as Ia. destruct (Hc _ _ _ Ia) as [Ap Hy].
  destruct (Hy _ eq_refl) as (-> & -> & _).
  pose proof (best_action_safe p c (fun _ => 0) (fun _ => 0) order (fun _ => False) sim Ho keep_nodes w s0 n i a _ _ O E Eb En) as S0.
  destruct (get_best_action p c order w s0) as [[a' w']|e] eqn:G; [|contradiction].
  destruct S0 as [Ea _]. cbn in Ea. subst a'. exists (n_value n), a, w', v'.
  split; [unfold get_best_value; now rewrite E|]. auto.
Qed.
End Theorems.

(** * Novelty *)

(** The tables after the evaluation of some nodes, given as their features, their depth and whether they are new *)
Definition tables {V} {EV : PyEq V} (width : nat) (calls : list (list V * Z * bool)) :=
  foldM (fun tbls e => let* r := novelty_of width tbls (fst (fst e)) (snd (fst e)) (snd e) in Ok (snd r)) (repeat [] width) calls.

(** A new node is kept when some combination of at most [width] of its features has never been seen at its depth or
    above.  A known node is kept when, for some combination, nothing like it has been seen above it: either it was
    never seen or the least depth where it was seen is that of the node.  The novelty is that of IW. *)
Theorem C139_novelty : forall V (EV : PyEq V) width (calls : list (list V * Z * bool)) f d nn,
  exists tbls nov novel tbls', tables width calls = Ok tbls /\ novelty_of width tbls f d nn = Ok (nov, novel, tbls') /\
  is_novelty width f (map (fun e => fst (fst e)) calls) nov /\
  (novel = true <-> exists k idx, 1 <= k <= width /\ choice k (length f) idx /\
     if nn then forall f' d' b, In (f', d', b) calls -> agree f f' idx -> (d < d')%Z
     else (forall f' d' b, In (f', d', b) calls -> ~ agree f f' idx) \/
          ((exists f' b, In (f', d, b) calls /\ agree f f' idx) /\
           forall f' d' b, In (f', d', b) calls -> agree f f' idx -> (d <= d')%Z)).
Proof.
  intros V EV width calls f d nn.
  assert (G : forall calls tbls0 seen, tabs width tbls0 seen -> exists tbls,
    foldM (fun tbls e => let* r := novelty_of width tbls (fst (fst e)) (snd (fst e)) (snd e) in Ok (snd r)) tbls0 calls = Ok tbls /\
    tabs width tbls (seen ++ map fst calls)).
  { clear. induction calls as [|[[f d] nn] calls IH]; intros tbls0 seen T; [exists tbls0; rewrite app_nil_r; auto|].
    destruct (novelty_all width tbls0 seen f d nn T) as (nov & novel & tbls' & E & T' & _).
    cbn [foldM fst snd]. rewrite E. cbn [bind snd]. destruct (IH _ _ T') as (tbls & E2 & T2).
    exists tbls. split; [exact E2|]. rewrite <- app_assoc in T2. exact T2. }
  destruct (G calls _ _ (tabs_start width)) as (tbls & E & T). cbn [app] in T.
  destruct (novelty_all width tbls _ f d nn T) as (nov & novel & tbls' & E2 & _ & N & H).
  exists tbls, nov, novel, tbls'. split; [exact E|]. split; [exact E2|]. split; [now rewrite map_map in N|].
  assert (In1 : forall f' d' b, In (f', d', b) calls -> In (f', d') (map fst calls)).
  { intros f' d' b I. apply in_map_iff. exists (f', d', b). auto. }
  assert (In2 : forall f' d', In (f', d') (map fst calls) -> exists b, In (f', d', b) calls).
  { intros f' d' I. apply in_map_iff in I. destruct I as ([[g e] b] & Eq & I). cbn in Eq. injection Eq as -> ->. eauto. }
  rewrite H. split; intros (k & idx & K & C & R); exists k, idx; (split; [exact K|]); (split; [exact C|]); destruct nn.
  - intros f' d' b I Ag. destruct R as [R|R]; [exfalso; exact (R _ _ (In1 _ _ _ I) Ag)|exact (R _ _ (In1 _ _ _ I) Ag)].
  - destruct R as [R|[(f' & I & Ag) R]].
    + left. intros f' d' b I. exact (R _ _ (In1 _ _ _ I)).
    + right. split; [destruct (In2 _ _ I) as [b Ib]; eauto|]. intros g e b I' Ag'. exact (R _ _ (In1 _ _ _ I') Ag').
  - right. intros f' d' I Ag. destruct (In2 _ _ I) as [b Ib]. exact (R _ _ _ Ib Ag).
  - destruct R as [R|[(f' & b & I & Ag) R]].
    + left. intros f' d' I. destruct (In2 _ _ I) as [b Ib]. exact (R _ _ _ Ib).
    + right. split; [exists f'; split; [exact (In1 _ _ _ I)|exact Ag]|]. intros g e I' Ag'. destruct (In2 _ _ I') as [b' Ib]. exact (R _ _ _ Ib Ag').
Qed.

(** Width one, two features, [1;2] seen at depth 3: [1;2] is kept at depth 2 and not at depth 4 when it is new, kept at
    depth 3 when it is known; [1;5] is kept at any depth. *)
Example C139_novelty_ex : let verdict f d nn :=
    match tables 1 [([1; 2], 3%Z, true)] with
    | Ok t => match novelty_of 1 t f d nn with Ok (nov, novel, _) => Some (nov, novel) | Err _ => None end
    | Err _ => None
    end in
  verdict [1; 2] 2%Z true = Some (3, true) /\ verdict [1; 2] 4%Z true = Some (3, false) /\
  verdict [1; 2] 3%Z false = Some (3, true) /\ verdict [1; 2] 4%Z false = Some (3, false) /\
  verdict [1; 5] 4%Z true = Some (1, true).
Proof. vm_compute. auto 8. Qed.

(** * Instances *)

Definition cfg (garbage sim : bool) : params :=
  {| time_budget := 1; rollout_budget := 50; max_depth := 10; discount := 1; online_node_garbage := garbage;
     use_simulation_domain := sim |}.
Definition run {St A V} {ES : PyEq St} {EV : PyEq V} (p : @problem St A V) c fuel w s :=
  solve p c (fun _ => 0) (fun _ => 0) (fun l => l) fuel w s.
Definition ask {St A V} {ES : PyEq St} (p : @problem St A V) c w s := get_best_action p c (fun l => l) w s.
Definition after {B W} (r : res (B * W)) (w : W) : W := match r with Ok (_, w') => w' | Err _ => w end.

(** A binary tree of depth two: the state is the list of the choices made; choosing [true] after [true] brings 4. *)
Definition twig : @problem (list bool) bool (list bool) :=
  {| apps := fun _ => [false; true];
     next := fun s a => s ++ [a];
     reward := fun s a => if a then (match s with [true] => 4 | _ => -(1) end)%Q else 1%Q;
     is_terminal := fun s => 2 <=? length s;
     features := fun s => [s];
     initial := [] |}.

Example C139_tree_ex : let w := after (run twig (cfg false true) 20 (start twig) []) (start twig) in
  run twig (cfg false true) 20 (start twig) [] = Ok (true, w) /\ get_nb_rollouts w = 4 /\ get_nb_of_pruned_states w = 0 /\
  match get_best_value w [] with Ok v => (v == 3)%Q | Err _ => False end /\
  match ask twig (cfg false true) w [] with Ok (a, _) => a = true | Err _ => False end.
Proof. vm_compute. repeat split. Qed.

Lemma twig_walk : forall s l t, walk twig s l t -> t = s ++ l.
Proof. intros s l t H. induction H as [|l t a H IH _ _]; [now rewrite app_nil_r|]. cbn. now rewrite IH, app_assoc. Qed.

Lemma twig_gain : forall l s, (- inject_Z (Z.of_nat (length l)) <= gain twig 1 s l)%Q.
Proof.
  induction l as [|a l IH]; intros s; [cbn; discriminate|]. cbn [gain]. specialize (IH (next twig s a)).
  assert (R : (-(1) <= reward twig s a)%Q) by (cbn; destruct a; [destruct s as [|[] []]|]; cbn; discriminate).
  cbn [length]. rewrite Nat2Z.inj_succ. unfold Z.succ. rewrite inject_Z_plus, Qmult_1_l.
  setoid_replace (- (inject_Z (Z.of_nat (length l)) + inject_Z 1))%Q with (-(1) + - inject_Z (Z.of_nat (length l)))%Q by (unfold inject_Z; ring).
  now apply Qplus_le_compat.
Qed.

Lemma twig_complete : forall l s, complete twig s l -> length l <= 2.
Proof.
  assert (G : forall l s, complete twig s l -> length l <= 2 - length s).
  { induction l as [|a l IH]; intros s H; [cbn; lia|]. destruct H as (T & _ & H).
    change (is_terminal twig s) with (2 <=? length s) in T. apply Nat.leb_gt in T.
    specialize (IH _ H). change (next twig s a) with (s ++ [a]) in IH. rewrite app_length in IH. cbn [length] in *. lia. }
  intros l s H. specialize (G l s H). lia.
Qed.

(** The hypotheses of C139_tree, on that tree *)
Example C139_tree_meets :
  (forall l l' t, walk twig [] l t -> walk twig [] l' t -> l = l') /\ (forall s, NoDup (apps twig s)) /\
  (forall l t, walk twig [] l t -> is_terminal twig t = false -> (Z.of_nat (length l) < max_depth (cfg false true))%Z) /\
  (forall l t e, walk twig [] l t -> complete twig t e -> (- dbl_max < gain twig (discount (cfg false true)) t e)%Q).
Proof.
  split; [|split; [|split]].
  - intros l l' t H H'. apply twig_walk in H, H'. cbn in H, H'. congruence.
  - intros s. cbn. repeat constructor; cbn; intuition discriminate.
  - intros l t H T. apply twig_walk in H. cbn [app] in H. subst t.
    change (is_terminal twig l) with (2 <=? length l) in T. apply Nat.leb_gt in T. cbn [max_depth cfg]. lia.
  - intros l t e _ H. pose proof (twig_complete _ _ H) as L. eapply Qlt_le_trans; [|apply twig_gain].
    apply Qlt_le_trans with (- inject_Z 2)%Q; [vm_compute; reflexivity|]. apply Qopp_le_compat. rewrite <- Zle_Qle. lia.
Qed.

Example C139_used_ex : let w := after (run twig (cfg false true) 20 (start twig) []) (start twig) in
  used twig (cfg false true) w /\ is_solution_defined_for w [true] = true /\ is_solution_defined_for w [true; true] = false /\
  map (fun e => (fst e, fst (snd e))) (policy w) = [([], true); ([false], false); ([true], true)].
Proof.
  intros w. split; [|vm_compute; auto].
  apply (used_solve twig (cfg false true) (start twig) (fun _ => 0) (fun _ => 0) (fun l => l) 20 [] true);
    [tauto|apply used_start|]. vm_compute. reflexivity.
Qed.

(** * What does not hold *)

(** Two ways to the state 1, from where 10 is earned: 0 leads to 1, to 2 (from where 1 is reached) and to 4, a terminal
    state, for 5. *)
Definition diamond : @problem nat nat nat :=
  {| apps := fun s => match s with 0 => [0; 1; 2] | _ => [0] end;
     next := fun s a => match s, a with 0, 0 => 1 | 0, 1 => 2 | 0, _ => 4 | 1, _ => 3 | _, _ => 1 end;
     reward := fun s a => match s, a with 1, _ => 10%Q | 0, 2 => 5%Q | _, _ => 0%Q end;
     is_terminal := fun s => 3 <=? s;
     features := fun s => [s];
     initial := 0 |}.

(** The search ends before its budgets, reports no pruned state, and gives a value that is not the best one (5 instead of
    10) and an action that does not start a best execution: a state already solved that is reached again by another path
    gets the value 0. *)
Theorem C139_value_refuted : exists w v a w',
  run diamond (cfg false true) 20 (start diamond) 0 = Ok (true, w) /\ get_nb_rollouts w < 50 /\ get_nb_of_pruned_states w = 0 /\
  get_best_value w 0 = Ok v /\ ~ optimal diamond 1 0 v /\ ask diamond (cfg false true) w 0 = Ok (a, w') /\
  (forall l, complete diamond 0 (a :: l) -> (gain diamond 1 0%nat (a :: l) == 5)%Q) /\
  complete diamond 0 [0; 0] /\ (gain diamond 1 0%nat [0%nat; 0%nat] == 10)%Q.
Proof.
  set (w := after (run diamond (cfg false true) 20 (start diamond) 0) (start diamond)).
  exists w. exists 5%Q. exists 2.
  exists (after (ask diamond (cfg false true) w 0) w).
  split; [vm_compute; reflexivity|]. split; [vm_compute; lia|]. split; [vm_compute; reflexivity|].
  split; [vm_compute; reflexivity|]. split.
  { intros [_ H]. specialize (H [0; 0]). assert (C0 : complete diamond 0 [0; 0]) by (cbn; intuition).
    specialize (H C0). vm_compute in H. apply H. reflexivity. }
  split; [vm_compute; reflexivity|]. split.
  { intros l (_ & _ & H). destruct l as [|b l]; [vm_compute; reflexivity|]. cbn in H. destruct H; discriminate. }
  split; [cbn; intuition|vm_compute; reflexivity].
Qed.

(** A state without applicable action that is not terminal: nothing can be drawn. *)
Definition hole : @problem nat nat nat :=
  {| apps := fun s => match s with 0 => [0] | _ => [] end; next := fun s _ => S s; reward := fun _ _ => 1%Q;
     is_terminal := fun s => 3 <=? s; features := fun s => [s]; initial := 0 |}.
Theorem C139_dead_end_refuted : exists (p : @problem nat nat nat), (forall s, is_terminal p s = (3 <=? s)) /\
  forall fuel, run p (cfg false true) (2 + fuel) (start p) 0 = Err RuntimeError.
Proof. exists hole. split; [reflexivity|]. intros fuel. vm_compute. reflexivity. Qed.

(** Two states, one leading to the other and back. *)
Definition loop : @problem nat nat nat :=
  {| apps := fun _ => [0]; next := fun s _ => 1 - s; reward := fun _ _ => 1%Q;
     is_terminal := fun s => 2 <=? s; features := fun s => [s]; initial := 0 |}.


(** The solver on that loop when both states are known *)
Definition there (depth : Z) (par : nat) : @node nat nat :=
  {| n_children := [(0, 1%Q, Some par)]; n_parents := [par]; n_value := (- dbl_max)%Q; n_depth := depth;
     n_novelty := Some 2; n_best := None; n_terminal := false; n_pruned := false; n_solved := false |}.
Definition going (t d : nat) : @world nat nat nat :=
  {| w_graph := [(0, there 0 1); (1, there 1 0)]; w_tuples := [[([(0, 0)], 0%Z); ([(0, 1)], 1%Z)]];
     w_min := 1%Q; w_changed := true; w_rollouts := 1; w_pruned := false; w_end := false; w_env := 0; w_prefix := [];
     w_ticks := t; w_draws := d |}.

Lemma going_step : forall fuel t d,
  rollout_loop loop (cfg false true) (fun _ => 0) (fun _ => 0) (fun l => l) (S (S fuel)) 1 (going t d) 0 =
  rollout_loop loop (cfg false true) (fun _ => 0) (fun _ => 0) (fun l => l) fuel 1 (going (S (S t)) (S (S d))) 0.
Proof. intros fuel t d. reflexivity. Qed.

Lemma going_on : forall n fuel t d, fuel <= n ->
  rollout_loop loop (cfg false true) (fun _ => 0) (fun _ => 0) (fun l => l) fuel 1 (going t d) 0 = Err OutOfFuel.
Proof.
  induction n as [|n IH]; intros fuel t d L; destruct fuel as [|[|fuel]]; try reflexivity; try lia.
  rewrite going_step. apply IH. lia.
Qed.

Definition setting_off : @world nat nat nat :=
  {| w_graph := [(0, {| n_children := []; n_parents := []; n_value := (- dbl_max)%Q; n_depth := 0; n_novelty := Some 1;
                        n_best := None; n_terminal := false; n_pruned := false; n_solved := false |})];
     w_tuples := [[([(0, 0)], 0%Z)]]; w_min := dbl_max; w_changed := false; w_rollouts := 0; w_pruned := false;
     w_end := false; w_env := 0; w_prefix := []; w_ticks := 0; w_draws := 0 |}.

Lemma going_first : forall fuel, rollout loop (cfg false true) (fun _ => 0) (fun _ => 0) (fun l => l) fuel 1
  (with_oracles setting_off 1 0) 0 = Err OutOfFuel.
Proof.
  intros [|[|[|[|fuel]]]]; try reflexivity.
  transitivity (rollout_loop loop (cfg false true) (fun _ => 0) (fun _ => 0) (fun l => l) fuel 1 (going 5 4) 0);
    [reflexivity|]. now apply going_on with fuel.
Qed.

(** As long as the clock does not stop it, the search does not end: neither the bound on the depth nor the bound on
    the number of rollouts stops a rollout that goes round known states. *)
Theorem C139_ends_refuted : exists (p : @problem nat nat nat), max_depth (cfg false true) = 10%Z /\ rollout_budget (cfg false true) = 50 /\
  forall fuel, run p (cfg false true) fuel (start p) 0 = Err OutOfFuel.
Proof.
  exists loop. split; [reflexivity|]. split; [reflexivity|]. intros fuel.
  assert (R : rollouts loop (cfg false true) (fun _ => 0) (fun _ => 0) (fun l => l) 51 fuel 1 setting_off 0 = Err OutOfFuel).
  { transitivity (let* w2 := rollout loop (cfg false true) (fun _ => 0) (fun _ => 0) (fun l => l) fuel 1 (with_oracles setting_off 1 0) 0 in
      rollouts loop (cfg false true) (fun _ => 0) (fun _ => 0) (fun l => l) 50 fuel 1 w2 0); [reflexivity|].
    rewrite going_first. reflexivity. }
  transitivity (let* r := (let* w2 := rollouts loop (cfg false true) (fun _ => 0) (fun _ => 0) (fun l => l) 51 fuel 1 setting_off 0 in
    let '(time, w3) := read_clock (fun _ => 0) w2 in
    Ok (negb ((time <? 1) && (w_rollouts w3 <? 50) && negb (w_end w3) && w_pruned w3), w3)) in
    if fst r then Ok r else Ok (false, snd r)); [reflexivity|].
  rewrite R. reflexivity.
Qed.

(** Two steps to the end, worth 1 then 5 *)
Definition road : @problem nat nat nat :=
  {| apps := fun _ => [0]; next := fun s _ => S s; reward := fun s _ => match s with 0 => 1%Q | _ => 5%Q end;
     is_terminal := fun s => 2 <=? s; features := fun s => [s]; initial := 0 |}.

(** With environment rollouts, clearing the solver keeps the actions already given: the rollouts of the next search do not
    start where the search starts, and the value it gives is not that of any execution.  Asking again for the
    action of the same state records it again. *)
Theorem C139_prefix_refuted : exists w1 w2 w3 w4 w5,
  run road (cfg false false) 20 (start road) 0 = Ok (true, w1) /\ get_best_value w1 0 = Ok 6%Q /\
  ask road (cfg false false) w1 0 = Ok (0, w2) /\
  run road (cfg false false) 20 (clear w2) 0 = Ok (true, w3) /\ get_best_value w3 0 = Ok 5%Q /\
  (forall l, complete road 0 l -> (gain road 1 0%nat l == 6)%Q) /\
  ask road (cfg false false) w1 0 = Ok (0, w4) /\ ask road (cfg false false) w4 0 = Ok (0, w5) /\
  action_prefix (cfg false false) w5 = [0; 0].
Proof.
  set (w1 := after (run road (cfg false false) 20 (start road) 0) (start road)).
  set (w2 := after (ask road (cfg false false) w1 0) w1).
  set (w3 := after (run road (cfg false false) 20 (clear w2) 0) w2).
  set (w5 := after (ask road (cfg false false) w2 0) w2).
  exists w1, w2, w3, w2, w5.
  split; [vm_compute; reflexivity|]. split; [vm_compute; reflexivity|]. split; [vm_compute; reflexivity|].
  split; [vm_compute; reflexivity|]. split; [vm_compute; reflexivity|]. split.
  { intros [|a [|b [|d l]]] H; cbn in H; intuition (try discriminate). vm_compute. reflexivity. }
  split; [vm_compute; reflexivity|]. split; vm_compute; reflexivity.
Qed.

(** Removing the nodes that are out of reach after an action, then searching again from an earlier state: the pointer of
    a node that is gone is followed. *)
Theorem C139_garbage_refuted : exists w1 w2 a,
  run twig (cfg true true) 20 (start twig) [] = Ok (true, w1) /\ ask twig (cfg true true) w1 [true] = Ok (a, w2) /\
  run twig (cfg true true) 20 w2 [] = Err AttributeError.
Proof.
  set (w1 := after (run twig (cfg true true) 20 (start twig) []) (start twig)).
  exists w1, (after (ask twig (cfg true true) w1 [true]) w1), true.
  split; [vm_compute; reflexivity|]. split; vm_compute; reflexivity.
Qed.

(** States that look alike: all of them but the first are pruned *)
Definition flat : @problem nat nat nat :=
  {| apps := fun _ => [0]; next := fun s _ => S s; reward := fun s _ => 1%Q;
     is_terminal := fun s => 5 <=? s; features := fun s => [0]; initial := 0 |}.

(** Asking for the best action changes the value of the state, each time. *)
Theorem C139_ask_refuted : exists w1 w2 w3,
  run flat (cfg false true) 20 (start flat) 0 = Ok (false, w1) /\ ask flat (cfg false true) w1 0 = Ok (0, w2) /\
  ask flat (cfg false true) w2 0 = Ok (0, w3) /\
  get_best_value w1 0 = Ok 10%Q /\ get_best_value w2 0 = Ok 11%Q /\ get_best_value w3 0 = Ok 12%Q.
Proof.
  set (w1 := after (run flat (cfg false true) 20 (start flat) 0) (start flat)).
  set (w2 := after (ask flat (cfg false true) w1 0) w1).
  exists w1, w2, (after (ask flat (cfg false true) w2 0) w2).
  split; [vm_compute; reflexivity|]. split; [vm_compute; reflexivity|]. split; [vm_compute; reflexivity|].
  split; [vm_compute; reflexivity|]. split; vm_compute; reflexivity.
Qed.

Print Assumptions C139_defined.
Print Assumptions C139_policy.
Print Assumptions C139_policy_complete.
Print Assumptions C139_budget.
Print Assumptions C139_next_action.
Print Assumptions C139_tree.
Print Assumptions C139_novelty.
Print Assumptions C139_value_refuted.
Print Assumptions C139_dead_end_refuted.
Print Assumptions C139_ends_refuted.
Print Assumptions C139_prefix_refuted.
Print Assumptions C139_garbage_refuted.
Print Assumptions C139_ask_refuted.
