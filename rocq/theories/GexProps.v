(** C68-C71: exploring a domain into a graph, and merging graphs. *)
From Coq Require Import String List Bool Arith QArith Lia.
From Verif Require Import Py PyList PyMore PevalSpec GexModel GexSpec GexProofs GexMoreProofs GexUncProofs.
Import ListNotations.
Open Scope nat_scope.

(** The state from which an exploration starts. *)
Definition origin {St} (dflt : St) (init : option St) : St := match init with None => dflt | Some s => s end.

(** *** C68: DFSExploration *)
Section C68.
Context {St A X : Type} {ES : PyEq St} {EA : PyEq A}.
Variable d : xdom St A.
Variable ext : St -> A -> St -> X.

Lemma g_next_look : forall (g : gdomain St A X) s a t, g_next g s a = Ok t <-> look2 (g_map g) s a = Some t.
Proof. intros g s a t. unfold g_next, look2, dgetE. destruct (dget (g_map g) s) as [i|]; cbn [bind]; [|split; discriminate]. destruct (dget i a); split; congruence. Qed.
Lemma g_apps_mem : forall (g : gdomain St A X) s, (exists l, g_apps g s = Ok l) <-> dmem (g_map g) s = true.
Proof. intros g s. unfold g_apps, dmem, dgetE. destruct (dget (g_map g) s) as [i|]; cbn [bind]; (split; [intros [l E]; try reflexivity; discriminate E|intros E]); [eauto|discriminate E]. Qed.
Lemma g_apps_In : forall (g : gdomain St A X) s l a, g_apps g s = Ok l -> (In a l <-> exists t, g_next g s a = Ok t).
Proof.
  intros g s l a. unfold g_apps, g_next, dgetE. destruct (dget (g_map g) s) as [i|]; cbn [bind]; [|discriminate]. intros E. assert (l = dkeys i) by congruence. subst l. rewrite (dget_keys A St i a).
  destruct (dget i a) as [t|]; split; intros [v F]; try discriminate F; exists t; reflexivity.
Qed.

(** The graph only has transitions of the domain, between states that can be reached without leaving a goal; each
    transition is that of the domain, and has the attributes that the extractor gives. *)
Theorem C68_sound : forall fuel l init g, dfs_build fuel d ext l init = Ok g -> let s0 := origin (x_init d) init in
  (forall s acts, g_apps g s = Ok acts -> xreach d s0 s /\ forall a, In a acts -> In a (x_apps d s) /\ expandable d s0 s) /\
  (forall s a t, g_next g s a = Ok t -> t = x_next d s a /\ look2 (g_att g) s a = Some (ext s a t) /\ (exists acts, g_apps g s = Ok acts /\ In a acts) /\ (exists acts, g_apps g t = Ok acts)) /\
  (forall s a, look2 (g_att g) s a <> None -> exists t, g_next g s a = Ok t).
Proof.
  intros fuel l init g E s0. unfold dfs_build in E. fold (origin (x_init d) init) in E. fold s0 in E. destruct (dfs_loop fuel d ext l (XSt [(s0, [])] [(s0, [])] 1 0 0 [s0])) as [z|e] eqn:R; [|discriminate]. cbn [bind] in E.
  assert (g = mk_gdomain (xs_map z) (xs_att z) None) by congruence. subst g. clear E. destruct (dfs_loop_ok d ext s0 l fuel _ z (start_inv d ext s0) R) as [[K1 K2 K3 K4 K5 K6 K7 K8 K9 K10] _].
  split; [|split].
  - intros s acts G. assert (M : dmem (xs_map z) s = true) by (apply (g_apps_mem (mk_gdomain (xs_map z) (xs_att z) None)); eauto). split; [auto|]. intros a I. apply (g_apps_In _ _ _ a G) in I. destruct I as [t I]. apply g_next_look in I. destruct (K2 _ _ _ I) as (? & ? & ?). auto.
  - intros s a t G. pose proof G as G'. apply g_next_look in G. cbn [g_map mk_gdomain] in G. destruct (K2 _ _ _ G) as (H1 & H2 & H3 & H4). split; [exact H3|]. split; [cbn [g_att mk_gdomain]; rewrite K6, G; reflexivity|]. split; [|apply g_apps_mem; exact H4].
    assert (M : exists acts, g_apps (mk_gdomain (xs_map z) (xs_att z) None) s = Ok acts). { apply g_apps_mem. cbn [g_map mk_gdomain]. unfold look2 in G. unfold dmem. destruct (dget (xs_map z) s); [reflexivity|discriminate]. }
    destruct M as [acts M]. exists acts. split; [exact M|]. apply (g_apps_In _ _ _ a M). eauto.
  - cbn [g_att mk_gdomain]. intros s a. rewrite K6. destruct (look2 (xs_map z) s a) as [t|] eqn:L; [|congruence]. intros _. exists t. apply g_next_look. exact L.
Qed.

(** If the numbers of states, of transitions and of transitions into goals are not past the limits then the graph has
    every state that can be reached without leaving a goal, with all its applicable actions. *)
Theorem C68_complete : forall fuel l init g, dfs_build fuel d ext l init = Ok g -> within d l (g_map g) -> let s0 := origin (x_init d) init in
  forall s, xreach d s0 s -> (exists acts, g_apps g s = Ok acts) /\ (expandable d s0 s -> forall a, In a (x_apps d s) -> g_next g s a = Ok (x_next d s a)).
Proof.
  intros fuel l init g E W s0 s H. unfold dfs_build in E. fold (origin (x_init d) init) in E. fold s0 in E. destruct (dfs_loop fuel d ext l (XSt [(s0, [])] [(s0, [])] 1 0 0 [s0])) as [z|e] eqn:R; [|discriminate]. cbn [bind] in E.
  assert (g = mk_gdomain (xs_map z) (xs_att z) None) by congruence. subst g. clear E. destruct (dfs_loop_ok d ext s0 l fuel _ z (start_inv d ext s0) R) as [I ST]. specialize (ST W).
  destruct (xinv_complete d ext s0 z I ST s H) as [M D]. split; [apply g_apps_mem; exact M|]. intros EX a IA. apply g_next_look. exact (D EX a IA).
Qed.

(** With the limits set and finitely many states within reach, the exploration ends. *)
Theorem C68_returns : forall U e n p init, (forall s, xreach d (origin (x_init d) init) s -> In s U) ->
  exists fuel g, dfs_build fuel d ext {| l_edges := Some e; l_nodes := Some n; l_path := Some p |} init = Ok g.
Proof.
  intros U e n p init HU. set (s0 := origin (x_init d) init) in *. set (z0 := XSt (A := A) (X := X) [(s0, [])] [(s0, [])] 1 0 0 [s0]).
  destruct (dfs_loop_total d ext s0 U {| l_edges := Some e; l_nodes := Some n; l_path := Some p |}) with (fuel := length (xs_stack z0) + unseen U (xs_map z0)) (z := z0) as [z E]; [exists e, n, p; reflexivity|exact HU|apply start_inv|apply le_n|].
  exists (length (xs_stack z0) + unseen U (xs_map z0)), (mk_gdomain (xs_map z) (xs_att z) None). unfold dfs_build. fold (origin (x_init d) init). fold s0. fold z0. rewrite E. reflexivity.
Qed.

(** Without limits - the default - the exploration always fails. *)
Theorem C68_default_fails : forall fuel init g, dfs_build fuel d ext {| l_edges := None; l_nodes := None; l_path := None |} init <> Ok g.
Proof.
  intros [|fuel] init g; unfold dfs_build; cbn [dfs_loop xs_stack bind]; [discriminate|]. match goal with |- context [foldM ?f ?z ?l] => destruct (foldM f z l) as [z'|e] end; cbn [bind past gtN l_path]; discriminate.
Qed.

(** The graph has no goals, whatever the goals of the domain. *)
Theorem C68_no_goals : forall fuel l init g s, dfs_build fuel d ext l init = Ok g -> g_goal g s = false.
Proof. intros fuel l init g s E. unfold dfs_build in E. destruct (dfs_loop _ _ _ _ _) as [z|e]; [|discriminate]. assert (g = mk_gdomain (xs_map z) (xs_att z) None) by (cbn in E; congruence). subst g. reflexivity. Qed.
End C68.

(** No transition of the graph has a cost: asking for it fails. *)
Theorem C68_no_cost : forall St A (ES : PyEq St) (EA : PyEq A) (d : xdom St A) ext fuel l init g s a c, dfs_build fuel d ext l init = Ok g -> g_cost g s a <> Ok c.
Proof.
  intros St A ES EA d ext fuel l init g s a c E. unfold dfs_build in E. destruct (dfs_loop _ _ _ _ _) as [z|e]; [|discriminate]. assert (g = mk_gdomain (xs_map z) (xs_att z) None) by (cbn in E; congruence). subst g.
  unfold g_cost. destruct (dgetE _ s); cbn [bind]; [|discriminate]. destruct (dgetE _ a); cbn [bind]; discriminate.
Qed.

(** A ring of five states 0 → 1 → … → 4 → 0 with jumps over one state; 4 is a goal. *)
Definition ring : xdom nat bool := {| x_init := 0; x_apps := fun _ => [true; false]; x_next := fun s b => if b then (s + 1) mod 5 else (s + 2) mod 5; x_goal := fun s => s =? 4 |}.
Definition wide : limits := {| l_edges := Some 20; l_nodes := Some 20; l_path := Some 20 |}.
Example C68_ex : exists g, dfs_build 10 ring (cost_of (fun _ _ _ => 1%Q)) wide None = Ok g /\ within ring wide (g_map g) /\
  g_map g = [(0, [(true, 1); (false, 2)]); (1, [(true, 2); (false, 3)]); (2, [(true, 3); (false, 4)]); (3, [(true, 4); (false, 0)]); (4, [])] /\ length (g_att g) = 5.
Proof. eexists. split; [vm_compute; reflexivity|]. split; [exists 20, 20, 20; split; [reflexivity|]; vm_compute; lia|]. split; reflexivity. Qed.
(** A small limit cuts the exploration: one path to the goal suffices to stop. *)
Example C68_cut_ex : exists g, dfs_build 10 ring (cost_of (fun _ _ _ => 1%Q)) {| l_edges := Some 1; l_nodes := Some 1; l_path := Some 20 |} None = Ok g /\ g_next g 1 true = Err KeyError /\ g_next g 2 false = Ok 4.
Proof. eexists. split; [vm_compute; reflexivity|]. split; reflexivity. Qed.
(** So, of the domain, the graph loses the goals and the costs. *)
Theorem C68_goals_refuted : exists (d : xdom nat bool) g s a, dfs_build 10 d (cost_of (fun _ _ _ => 1%Q)) wide None = Ok g /\ within d wide (g_map g) /\
  xreach d (x_init d) s /\ x_goal d s = true /\ g_goal g s = false /\ In a (x_apps d (x_init d)) /\ g_next g (x_init d) a = Ok (x_next d (x_init d) a) /\ g_cost g (x_init d) a = Err KeyError.
Proof.
  exists ring. eexists. exists 4, true. split; [vm_compute; reflexivity|]. split; [exists 20, 20, 20; split; [reflexivity|]; vm_compute; lia|]. split; [|repeat split; try reflexivity; now left].
  apply (xreach_step ring 0 2 false); [apply (xreach_step ring 0 0 false); [constructor|now left|right; now left]|right; reflexivity|right; now left].
Qed.
(** And the default limits never give a graph, even for a domain of five states. *)
Theorem C68_default_refuted : exists d : xdom nat bool, (forall s, xreach d (x_init d) s -> In s [0; 1; 2; 3; 4]) /\
  forall fuel, ~ exists g, dfs_build fuel d (cost_of (fun _ _ _ => 1%Q)) {| l_edges := None; l_nodes := None; l_path := None |} None = Ok g.
Proof.
  exists ring. split; [|intros fuel [g E]; exact (C68_default_fails ring _ fuel None g E)]. intros s H. cbn [x_init ring] in H.
  assert (K : forall n, n < 5 -> In n [0; 1; 2; 3; 4]) by (intros n L; cbn; lia). destruct H as [|s a _ _ _]; [now left|]. apply K. cbn [x_next ring]. destruct a; apply Nat.mod_upper_bound; lia.
Qed.

(** *** C69: FullSpaceExploration *)
Section C69.
Context {St A X : Type} {ES : PyEq St} {EA : PyEq A}.
Variable d : xdom St A.
Variable ext : St -> A -> St -> X.

(** The graph has exactly the transitions of the initial state. *)
Theorem C69_shallow : forall fuel l init g, full_build fuel d ext l init = Ok g -> let s0 := origin (x_init d) init in
  (forall s, (exists acts, g_apps g s = Ok acts) <-> s = s0 \/ exists a, In a (x_apps d s0) /\ s = x_next d s0 a) /\
  (forall s a t, g_next g s a = Ok t <-> s = s0 /\ In a (x_apps d s0) /\ t = x_next d s0 a).
Proof.
  intros [|fuel] l init g E s0; [discriminate|]. unfold full_build in E. fold (origin (x_init d) init) in E. fold s0 in E. destruct (full_loop (S fuel) d ext l (XSt [(s0, [])] [(s0, [])] 1 0 0 [s0])) as [z|e] eqn:R; [|discriminate]. cbn [bind] in E.
  assert (g = mk_gdomain (xs_map z) (xs_att z) None) by congruence. subst g. clear E. destruct (full_loop_ok d ext s0 fuel l z R) as (_ & _ & _ & K1 & K2). split.
  - intros s. rewrite g_apps_mem. apply K1.
  - intros s a t. rewrite g_next_look. apply K2.
Qed.
End C69.

(** So it is not the full space: a state two steps away is not in the graph. *)
Theorem C69_full_refuted : exists (d : xdom nat bool) g s, full_build 10 d (cost_of (fun _ _ _ => 1%Q)) wide None = Ok g /\ within d wide (g_map g) /\
  xreach d (x_init d) s /\ expandable d (x_init d) s /\ x_apps d s <> [] /\ g_apps g s = Err KeyError.
Proof.
  exists ring. eexists. exists 3. split; [vm_compute; reflexivity|]. split; [exists 20, 20, 20; split; [reflexivity|]; vm_compute; lia|]. split; [|split; [right; reflexivity|split; [discriminate|reflexivity]]].
  apply (xreach_step ring 0 1 false); [apply (xreach_step ring 0 0 true); [constructor|now left|now left]|right; reflexivity|right; now left].
Qed.
Example C69_ex : exists g, full_build 10 ring (cost_of (fun _ _ _ => 1%Q)) wide None = Ok g /\ g_apps g 0 = Ok [true; false] /\ g_apps g 1 = Ok [].
Proof. eexists. split; [vm_compute; reflexivity|]. split; reflexivity. Qed.

(** [reachable_states] gives the states that can be met without leaving a terminal state, each once. *)
Theorem C69_reachable : forall St A (ES : PyEq St) (d : udom St A) fuel s0 r, reachable_states fuel d s0 = Ok r ->
  (forall s, In s r <-> ureach d s0 (u_term d) s) /\ NoDup r.
Proof.
  intros St A ES d fuel s0 r E. pose proof (reachable_inv d s0 fuel [s0] [s0] r (rinv_start d s0) E) as I. split; [apply rinv_done; exact I|]. apply I.
Qed.
Theorem C69_reachable_returns : forall St A (ES : PyEq St) (d : udom St A) s0 U, (forall s, ureach d s0 (u_term d) s -> In s U) -> exists fuel r, reachable_states fuel d s0 = Ok r.
Proof. intros St A ES d s0 U HU. eexists. destruct (reachable_total d s0 U HU _ [s0] [s0] (rinv_start d s0) (le_n _)) as [r E]. exists r. exact E. Qed.

(** Walking on a line from 1: a step may stay, or go down or up; 0 and 3 are terminal, 3 is a goal. *)
Definition walk : udom nat bool := {| u_init := 1; u_apps := fun _ => [true; false];
  u_dist := fun s b => if b then [(S s, (1#2)%Q); (s, (1#2)%Q)] else [(pred s, (1#3)%Q); (S s, (2#3)%Q); (7, 0%Q)];
  u_goal := fun s => s =? 3; u_term := fun s => (s =? 0) || (s =? 3); u_cost := fun s _ _ => inject_Z (Z.of_nat (S s)) |}.
Example C69_reachable_ex : reachable_states 10 walk 1 = Ok [1; 2; 0; 3].
Proof. reflexivity. Qed.

(** *** C70: exploring an uncertain domain *)
Section C70.
Context {St A : Type} {ES : PyEq St} {EA : PyEq A}.
Variable d : udom St A.
Variable pick : list St -> St.
Hypothesis PK : picks pick.
Definition stops (s : St) : bool := u_goal d s || u_term d s.

Lemma u_build_inv : forall fuel l init m tm gm, u_build fuel pick d l init = Ok (m, tm, gm) -> let s0 := origin (u_init d) init in
  exists z, m = us_map z /\ tm = us_term z /\ gm = us_goal z /\ uinv d s0 (fun _ => False) z /\ (within_u l (length (us_result z)) -> us_stack z = []).
Proof.
  intros fuel l init m tm gm E s0. unfold u_build in E. fold (origin (u_init d) init) in E. fold s0 in E. destruct (u_loop fuel pick d l _) as [z|e] eqn:R; [|discriminate]. cbn [bind] in E. exists z.
  destruct (u_loop_ok d s0 pick l PK fuel _ z (u_start d s0) R) as [I W]. injection E as <- <- <-. auto 10.
Qed.
Lemma uinv_count : forall s0 z, uinv d s0 (fun _ => False) z -> length (us_goal z) = length (us_result z).
Proof.
  intros s0 z I. pose proof (v_keys _ _ _ _ I) as ND. assert (EQ : forall s, In s (dkeys (us_goal z)) <-> In s (us_result z)).
  { intros s. rewrite dget_keys, (v_goal _ _ _ _ I). destruct (pymem s (us_result z)) eqn:P; [apply pymem_true in P; split; eauto|]. split; [intros [v E]; discriminate|]. intros H. assert (pymem s (us_result z) = true) by (rewrite pymem_true; exact H). congruence. }
  replace (length (us_goal z)) with (length (dkeys (us_goal z))) by apply map_length. apply Nat.le_antisymm; apply NoDup_incl_length; [exact ND|intros x; apply EQ|apply (v_ndr _ _ _ _ I)|intros x; apply EQ].
Qed.

(** What the graph says of a state is right: only states that can be met without leaving a goal or a terminal state are
    in it, with their own flags, and each entry is an outcome of an applicable action, with its probability and cost. *)
Theorem C70_sound : forall fuel l init m tm gm, u_build fuel pick d l init = Ok (m, tm, gm) -> let s0 := origin (u_init d) init in
  (forall s b, dget tm s = Some b -> ureach d s0 stops s /\ b = u_term d s) /\
  (forall s b, dget gm s = Some b -> ureach d s0 stops s /\ b = u_goal d s) /\
  (forall s, dmem tm s = dmem gm s) /\
  (forall s a, look2 m s a <> None -> ureach d s0 stops s /\ stops s = false /\ In a (u_apps d s)) /\
  (forall s a t pr c, look3 m s a t = Some (pr, c) -> In (t, pr) (u_dist d s a) /\ ~ (pr == 0)%Q /\ c = u_cost d s a t /\ dmem gm t = true).
Proof.
  intros fuel l init m tm gm E s0. destruct (u_build_inv fuel l init m tm gm E) as (z & -> & -> & -> & I & _). fold s0 in I. destruct I as [V1 V2 V3 V4 V5 V6 V7 V8 V9 V10 V11 V12 V13 V14].
  assert (PM : forall s, pymem s (us_result z) = true -> In s (us_result z)) by (intros s H; apply pymem_true in H; exact H).
  split; [|split; [|split; [|split]]].
  - intros s b. rewrite V5. destruct (pymem s (us_result z)) eqn:P; [|discriminate]. intros H. split; [apply V1; auto|congruence].
  - intros s b. rewrite V6. destruct (pymem s (us_result z)) eqn:P; [|discriminate]. intros H. split; [apply V1; auto|congruence].
  - intros s. unfold dmem. rewrite V5, V6. destruct (pymem s (us_result z)); reflexivity.
  - exact V7.
  - intros s a t pr c H. destruct (V8 _ _ _ _ H) as (H1 & H2 & H3 & H4 & _). cbn in H1, H2, H3. unfold dmem. rewrite V6. assert (P : pymem t (us_result z) = true) by (rewrite pymem_true; exact H4). rewrite P. auto.
Qed.

(** If the number of states is not past the limits then all those states are in the graph, and every applicable action of
    those that are left. *)
Theorem C70_complete : forall fuel l init m tm gm, u_build fuel pick d l init = Ok (m, tm, gm) -> let s0 := origin (u_init d) init in
  within_u l (length gm) ->
  (forall s, ureach d s0 stops s -> dget tm s = Some (u_term d s) /\ dget gm s = Some (u_goal d s)) /\
  (forall s a, ureach d s0 stops s -> stops s = false -> In a (u_apps d s) -> u_dist d s a <> [] -> look2 m s a <> None).
Proof.
  intros fuel l init m tm gm E s0 W. destruct (u_build_inv fuel l init m tm gm E) as (z & -> & -> & -> & I & S0). fold s0 in I. assert (ST : us_stack z = []).
  { apply S0. rewrite <- (uinv_count s0 z I). exact W. }
  split.
  - intros s H. destruct (u_complete d s0 z I ST s H) as [J _]. assert (P : pymem s (us_result z) = true) by (rewrite pymem_true; exact J). rewrite (v_goal _ _ _ _ I), (v_term _ _ _ _ I), P. auto.
  - intros s a H HS IA ND. destruct (u_complete d s0 z I ST s H) as [_ J]. exact (proj1 (J HS a IA) ND).
Qed.

(** But only the first way in which a state is met is kept: the entries form a tree. *)
Theorem C70_tree : forall fuel l init m tm gm, u_build fuel pick d l init = Ok (m, tm, gm) -> let s0 := origin (u_init d) init in
  (forall s a, look3 m s a s0 = None) /\
  (forall t, t <> s0 -> dmem gm t = true -> exists s a, look3 m s a t <> None /\ forall s' a', look3 m s' a' t <> None -> s' = s /\ a' = a).
Proof.
  intros fuel l init m tm gm E s0. destruct (u_build_inv fuel l init m tm gm E) as (z & -> & -> & -> & I & _). fold s0 in I. destruct I as [V1 V2 V3 V4 V5 V6 V7 V8 V9 V10 V11 V12 V13 V14]. split.
  - intros s a. destruct (look3 (us_map z) s a s0) eqn:L; [|reflexivity]. exfalso. destruct (V8 _ _ _ _ L) as (_ & _ & _ & _ & N). congruence.
  - intros t NT M. unfold dmem in M. rewrite V6 in M. destruct (pymem t (us_result z)) eqn:P; [|discriminate]. apply pymem_true in P. destruct (V9 t P NT) as (s & a & x & L). exists s, a. split; [rewrite L; discriminate|].
    intros s' a' L'. destruct (look3 (us_map z) s' a' t) eqn:Z; [|congruence]. eapply V10; eauto.
Qed.

(** With the limits set and finitely many states within reach, the exploration ends. *)
Theorem C70_returns : forall U e n p init, (forall s, ureach d (origin (u_init d) init) stops s -> In s U) ->
  exists fuel r, u_build fuel pick d {| l_edges := Some e; l_nodes := Some n; l_path := p |} init = Ok r.
Proof.
  intros U e n p init HU. set (s0 := origin (u_init d) init) in *. eexists. destruct (u_loop_total d s0 U pick e n p PK HU _ _ (u_start d s0) (le_n _)) as [z E]. eexists. unfold u_build. fold (origin (u_init d) init). fold s0. rewrite E. reflexivity.
Qed.
End C70.

(** So the outcomes of an action in the graph are not its outcomes in the domain: their probabilities do not sum to one. *)
Definition top (l : list nat) : nat := hd 0 l.
Lemma top_picks : picks top.
Proof. intros l N. destruct l as [|x l]; [congruence|]. now left. Qed.
Theorem C70_distribution_refuted : exists (d : udom nat bool) m tm gm, u_build 10 top d wide None = Ok (m, tm, gm) /\
  (forall s a, In a (u_apps d s) -> (fold_right (fun o q => snd o + q) 0 (u_dist d s a) == 1)%Q) /\
  look3 m 1 true 2 = Some ((1#2)%Q, 2%Q) /\ look3 m 1 true 1 = None /\ look2 m 2 false = Some [] /\ u_dist d 2 false = [(1, (1#3)%Q); (3, (2#3)%Q); (7, 0%Q)].
Proof. exists walk. do 3 eexists. split; [vm_compute; reflexivity|]. split; [intros s a _; destruct a; reflexivity|]. repeat split; reflexivity. Qed.
Example C70_ex : exists m tm gm, u_build 10 top walk wide None = Ok (m, tm, gm) /\ within_u wide (length gm) /\
  tm = [(1, false); (2, false); (0, true); (3, true)] /\ gm = [(1, false); (2, false); (0, false); (3, true)].
Proof. do 3 eexists. split; [vm_compute; reflexivity|]. split; [exists 20, 20, (Some 20); split; [reflexivity|]; cbn; lia|]. split; reflexivity. Qed.

(** *** C71: merging *)
Section C71.
Context {St A X : Type} {ES : PyEq St} {EA : PyEq A}.

(** Merging two graphs that share no inner dict gives the transitions of both, those of the first where both have one;
    the other graph is not changed. *)
Theorem C71_merge : forall (h : store (A := A) (X := X)) (mine theirs : refs (St := St)), valid h mine -> valid h theirs -> separate mine theirs -> injective mine -> NoDup (dkeys theirs) ->
  exists h' m', merge h mine theirs = Ok (h', m') /\
  (forall s a, look h' m' s a = match look h mine s a with Some x => Some x | None => look h theirs s a end) /\
  (forall s a, look h' theirs s a = look h theirs s a) /\
  (forall s, dmem m' s = dmem mine s || dmem theirs s).
Proof. exact merge_ok. Qed.
End C71.

(** Three graphs: 0 → 1 by [false]; 2 → 3 by [false]; 2 → 4 by [true]. *)
Definition heap3 : store (A := bool) (X := nat) := [(10, [(false, 1)]); (20, [(false, 3)]); (30, [(true, 4)])].
Definition ga : refs (St := nat) := [(0, 10)].
Definition gb : refs (St := nat) := [(2, 20)].
Definition gc : refs (St := nat) := [(2, 30)].
Example C71_ex : valid heap3 gb /\ valid heap3 gc /\ separate gb gc /\ injective gb /\ NoDup (dkeys gc) /\
  exists h' m', merge heap3 gb gc = Ok (h', m') /\ look h' m' 2 false = Some 3 /\ look h' m' 2 true = Some 4 /\ look h' gc 2 false = None.
Proof.
  assert (G : forall r0 s r : nat, dget [(2, r0)] s = Some r -> s = 2 /\ r = r0). { intros r0 s r. cbn [dget]. destruct (pyeqb_spec s 2); [|discriminate]. intros E. injection E as <-. auto. }
  split; [intros s r H; destruct (G _ _ _ H) as [_ ->]; eexists; reflexivity|]. split; [intros s r H; destruct (G _ _ _ H) as [_ ->]; eexists; reflexivity|].
  split; [intros s s' r H H'; destruct (G _ _ _ H) as [_ ->]; destruct (G _ _ _ H') as [_ E]; discriminate|]. split; [intros s s' r H H'; destruct (G _ _ _ H) as [-> _]; destruct (G _ _ _ H') as [-> _]; reflexivity|].
  split; [constructor; [intros []|constructor]|]. do 2 eexists. split; [vm_compute; reflexivity|]. repeat split; reflexivity.
Qed.
(** The merged graph shares dicts with the other graph: merging a third graph into it changes the other one. *)
Theorem C71_alias_refuted : exists (h h1 h2 : store (A := bool) (X := nat)) (m1 m2 : refs (St := nat)),
  merge h ga gb = Ok (h1, m1) /\ merge h1 m1 gc = Ok (h2, m2) /\ look h1 gb 2 true = None /\ look h2 gb 2 true = Some 4.
Proof. exists heap3. do 4 eexists. split; [vm_compute; reflexivity|]. split; [vm_compute; reflexivity|]. split; reflexivity. Qed.

Print Assumptions C68_sound.
Print Assumptions C68_complete.
Print Assumptions C68_returns.
Print Assumptions C68_default_fails.
Print Assumptions C68_no_goals.
Print Assumptions C68_no_cost.
Print Assumptions C68_goals_refuted.
Print Assumptions C68_default_refuted.
Print Assumptions C69_shallow.
Print Assumptions C69_full_refuted.
Print Assumptions C69_reachable.
Print Assumptions C69_reachable_returns.
Print Assumptions C70_sound.
Print Assumptions C70_complete.
Print Assumptions C70_tree.
Print Assumptions C70_returns.
Print Assumptions C70_distribution_refuted.
Print Assumptions C71_merge.
Print Assumptions C71_alias_refuted.
