(** Properties C59 and C60: the AO* solver. *)
From Coq Require Import List Bool Arith QArith Lia Lqa Permutation.
From Verif Require Import Py PyList CppAstarModel AoModel AoSpec AoProofs AoSolveProofs.
Import ListNotations.
Open Scope nat_scope.

(** *** C59: what the solver answers *)

(** Wherever a solution is announced, following the actions that the solver answers leads to a goal
    whatever the outcomes, and the value it reports is the expected cost of doing so. *)
Theorem C59_policy : forall St A {ES : PyEq St} (p : mdp St A) cf g s, acyclic p -> fair cf -> c_max_tips cf <> 0 ->
  session p cf g -> ao_defined g s = true ->
  exists v, ao_best_value g s = Ok (Some v) /\ policy_cost p (c_discount cf) (answers g) s v.
Proof.
  intros St A ES p cf g s (rk & RK) FA TP SE DF. pose proof (session_settled p cf rk RK FA g TP SE) as SG.
  assert (M : dmem g s = true /\ sn_solved (nd g s) = true).
  { unfold ao_defined in DF. unfold dmem, nd. destruct (dget g s) as [n|]; [|discriminate]. destruct (sn_best n); [auto|discriminate]. }
  destruct M as [M SO]. exists (val g s). split.
  - destruct SG as (_ & _ & V). specialize (V s M). unfold ao_best_value, val in *. unfold nd, dmem in *. destruct (dget g s) as [n|]; [|discriminate].
    destruct (sn_value n); congruence.
  - apply (solved_policy p cf rk RK g SG (S (rk s))); auto.
Qed.

(** With an admissible heuristic that cost is the smallest one: no plan does better. *)
Theorem C59_optimal : forall St A {ES : PyEq St} (p : mdp St A) cf g s v, acyclic p -> fair cf -> c_max_tips cf <> 0 ->
  (0 <= c_discount cf)%Q -> weights p -> admissible p (c_discount cf) -> session p cf g ->
  ao_best_value g s = Ok (Some v) -> forall w, plan_cost p (c_discount cf) s w -> (v <= w)%Q.
Proof.
  intros St A ES p cf g s v (rk & RK) FA TP GP WT AD SE BV w PC. pose proof (session_settled p cf rk RK FA g TP SE) as SG.
  assert (M : dmem g s = true /\ val g s = v).
  { unfold ao_best_value in BV. unfold dmem, val, nd. destruct (dget g s) as [n|]; [|discriminate]. injection BV as ->. auto. }
  destruct M as [M <-]. apply (value_below p cf rk RK g SG GP WT AD (S (rk s))); auto.
Qed.

(** An example: in state 0, action 0 (cost 1) leads to 1 or 2 with the same chance, action 1 (cost 5) to
    the goal 3; from 1 (cost 2) and 2 (cost 4) action 0 leads to the goal. *)
Definition fork : mdp nat nat := {|
  m_apps := fun s => match s with 0 => [1; 0] | 1 | 2 => [0] | _ => [] end;
  m_dist := fun s a => match s, a with 0, 0 => [(1, 1 # 2); (2, 1 # 2)] | _, _ => [(3, 1%Q)] end;
  m_cost := fun s a _ => match s, a with 0, 0 => 1%Q | 0, _ => 5%Q | 1, _ => 2%Q | _, _ => 4%Q end;
  m_goal := fun s => s =? 3;
  m_heur := fun _ => 0%Q |}.
Definition plain : config nat := {| c_discount := 1%Q; c_max_tips := 1; c_detect := false; c_order := fun l => l |}.

Lemma fork_acyclic : acyclic fork.
Proof.
  exists (fun s => match s with 0 => 2 | 1 | 2 => 1 | _ => 0 end). intros [|[|[|s]]] a y pr G I J; cbn in I, J.
  - destruct I as [<-|[<-|[]]]; cbn in J; repeat (destruct J as [J|J]; [injection J as <- <-; lia|]); destruct J.
  - destruct J as [J|[]]. injection J as <- <-. lia.
  - destruct J as [J|[]]. injection J as <- <-. lia.
  - destruct I.
Qed.
Lemma fork_weights : weights fork.
Proof.
  intros [|[|[|s]]] a y pr I J; cbn in I, J; try (destruct J as [J|[]]; injection J as <- <-; discriminate).
  destruct I as [<-|[<-|[]]]; cbn in J; repeat (destruct J as [J|J]; [injection J as <- <-; discriminate|]); destruct J.
Qed.
Lemma forall2_expected : forall (p : mdp nat nat) (g : Q) s a os ws, (0 <= g)%Q -> (forall y pr, In (y, pr) os -> 0 <= pr /\ 0 <= m_cost p s a y)%Q ->
  Forall (fun w => 0 <= w)%Q ws -> (0 <= expected p g s a os ws)%Q.
Proof.
  intros p g s a. induction os as [|[y pr] os IH]; intros ws G H F; destruct ws as [|w ws]; cbn [expected]; try lra.
  inversion F; subst. destruct (H y pr (or_introl eq_refl)). assert (0 <= expected p g s a os ws)%Q by (apply IH; auto; intros; eapply H; right; eauto).
  assert (0 <= g * w)%Q by (now apply Qmult_le_0_compat). assert (0 <= pr * (m_cost p s a y + g * w))%Q by (apply Qmult_le_0_compat; lra). lra.
Qed.
Lemma zero_admissible : forall p : mdp nat nat, acyclic p -> weights p -> (forall s a y, 0 <= m_cost p s a y)%Q -> (forall s, m_heur p s == 0)%Q ->
  admissible p 1.
Proof.
  intros p (rk & RK) WT CO H s v PC. rewrite H. revert v PC. remember (S (rk s)) as n. assert (L : rk s < n) by lia. clear Heqn.
  revert s L. induction n as [|n IH]; intros s L v PC; [lia|].
  inversion PC as [s0 v0 G E|s0 a ws v0 G AP F E]; subst; [lra|]. rewrite E. apply forall2_expected; [lra| |].
  - intros y pr I. split; auto. now apply (WT s a y pr).
  - assert (K : forall y pr, In (y, pr) (m_dist p s a) -> rk y < n) by (intros y pr I; pose proof (RK s a y pr G AP I); lia).
    clear E. induction F as [|[y pr] w l ws PY F IHF]; constructor; cbn [fst] in *.
    + apply (IH y); auto. apply (K y pr). now left.
    + apply IHF. intros; eapply K; right; eauto.
Qed.

Example C59_ex : exists g, session fork plain g /\ fair plain /\ acyclic fork /\ weights fork /\ admissible fork 1 /\
  ao_defined g 0 = true /\ answers g 0 = Some 0 /\ exists v, ao_best_value g 0 = Ok (Some v) /\ (v == 4)%Q.
Proof.
  eexists. split.
  { apply (session_solve fork plain [] 20 0); [constructor|reflexivity|]. vm_compute. reflexivity. }
  split; [intros l; apply Permutation_refl|]. split; [apply fork_acyclic|]. split; [apply fork_weights|].
  split; [apply (zero_admissible fork fork_acyclic fork_weights)|].
  { intros [|[|[|s]]] [|a] y; discriminate. } { reflexivity. }
  split; [reflexivity|]. split; [reflexivity|]. eexists. split; [reflexivity|]. reflexivity.
Qed.

(** The restriction to calls that do not start from a goal state matters: such a call leaves a node that is
    neither solved nor given a value, and later answers can miss the best action. *)
Definition two_goals : mdp nat nat := {|
  m_apps := fun s => match s with 0 => [0; 1] | _ => [] end;
  m_dist := fun s a => match a with 0 => [(1, 1%Q)] | _ => [(2, 1%Q)] end;
  m_cost := fun s a _ => match a with 0 => 1%Q | _ => 9%Q end;
  m_goal := fun s => negb (s =? 0);
  m_heur := fun _ => 0%Q |}.
Theorem C59_goal_start_refuted : exists g1 g2 v, m_goal two_goals 1 = true /\
  ao_solve 20 two_goals plain [] 1 = Ok g1 /\ ao_solve 20 two_goals plain g1 0 = Ok g2 /\
  ao_defined g2 0 = true /\ answers g2 0 = Some 1 /\ ao_best_value g2 0 = Ok (Some v) /\ (v == 9)%Q /\ plan_cost two_goals 1 0 1.
Proof.
  eexists. eexists. eexists. split; [reflexivity|]. split; [vm_compute; reflexivity|]. split; [vm_compute; reflexivity|].
  split; [reflexivity|]. split; [reflexivity|]. split; [reflexivity|]. split; [reflexivity|].
  apply (plan_act two_goals 1 0 0 [0%Q]).
  - reflexivity.
  - now left.
  - constructor; [|constructor]. apply plan_goal; reflexivity.
  - reflexivity.
Qed.

(** *** C60: whether it answers *)

(** Without cycles and without dead ends, [solve] returns, and a solution is then announced. *)
Theorem C60_solves : forall St A {ES : PyEq St} (p : mdp St A) cf g s, acyclic p -> fair cf -> c_max_tips cf <> 0 -> c_detect cf = false ->
  session p cf g -> m_goal p s = false -> no_dead_end p s ->
  exists n, forall fuel, n <= fuel -> exists g', ao_solve fuel p cf g s = Ok g' /\ ao_defined g' s = true.
Proof.
  intros St A ES p cf g s (rk & RK) FA TP ND SE G LV. pose proof (session_settled p cf rk RK FA g TP SE) as SG.
  destruct (solve_total p cf rk RK FA g s TP ND SG G LV) as (n & H). exists n. intros fuel L. destruct (H fuel L) as (g' & E).
  exists g'. split; auto. now apply (solve_any p cf rk RK FA fuel g s g').
Qed.

(** The action it answers with is applicable. *)
Theorem C60_next_action : forall St A {ES : PyEq St} (p : mdp St A) cf g s, acyclic p -> fair cf -> c_max_tips cf <> 0 -> c_detect cf = false ->
  session p cf g -> m_goal p s = false -> no_dead_end p s ->
  exists n, forall fuel, n <= fuel -> exists a g', ao_next_action fuel p cf g s = Ok (a, g') /\ In a (m_apps p s).
Proof.
  intros St A ES p cf g s AC FA TP ND SE G LV. destruct (C60_solves St A p cf g s AC FA TP ND SE G LV) as (n & H).
  exists n. intros fuel L. unfold ao_next_action.
  assert (K : forall g', session p cf g' -> ao_defined g' s = true -> exists a, ao_best_action g' s = Ok a /\ In a (m_apps p s)).
  { intros g' SE' DF. destruct (C59_policy St A p cf g' s AC FA TP SE' DF) as (v & _ & PC).
    inversion PC as [s0 v0 G0 _|s0 a ws v0 _ AN AP _ _]; subst; [congruence|]. exists a. split; auto.
    unfold answers in AN. destruct (ao_best_action g' s); congruence. }
  destruct (ao_defined g s) eqn:DF; cbn [bind].
  - destruct (K g SE DF) as (a & E & I). rewrite E. cbn [bind]. eauto.
  - destruct (H fuel L) as (g' & E & DF'). rewrite E. cbn [bind].
    destruct (K g') as (a & EA & I); auto; [eapply session_solve; eauto|]. rewrite EA. cbn [bind]. eauto.
Qed.

Example C60_ex : no_dead_end fork 0 /\ exists g', ao_solve 20 fork plain [] 0 = Ok g' /\ ao_defined g' 0 = true.
Proof.
  split.
  - intros y R. assert (K : y <= 3).
    { induction R as [|x a y pr R IH G I J]; [lia|]. destruct x as [|[|[|x]]]; cbn in I, J.
      - destruct I as [<-|[<-|[]]]; cbn in J; repeat (destruct J as [J|J]; [injection J as <- <-; lia|]); destruct J.
      - destruct J as [J|[]]. injection J as <- <-. lia.
      - destruct J as [J|[]]. injection J as <- <-. lia.
      - destruct I. }
    destruct y as [|[|[|[|y]]]]; cbn; try discriminate. lia.
  - eexists. split; vm_compute; reflexivity.
Qed.

(** A cheap-looking dead end makes [solve] follow a null pointer, although a plan exists. *)
Definition trap : mdp nat nat := {|
  m_apps := fun s => match s with 0 => [0; 1] | _ => [] end;
  m_dist := fun s a => match a with 0 => [(1, 1%Q)] | _ => [(2, 1%Q)] end;
  m_cost := fun s a _ => match a with 0 => 3%Q | _ => 1%Q end;
  m_goal := fun s => s =? 1;
  m_heur := fun _ => 0%Q |}.
Theorem C60_dead_end_refuted : plan_cost trap 1 0 3 /\ acyclic trap /\ forall fuel, 3 <= fuel -> ao_solve fuel trap plain [] 0 = Err AttributeError.
Proof.
  split; [|split].
  - apply (plan_act trap 1 0 0 [0%Q]); [reflexivity|now left| |reflexivity]. constructor; [|constructor]. apply plan_goal; reflexivity.
  - exists (fun s => match s with 0 => 1 | _ => 0 end). intros [|s] a y pr G I J; [|destruct I].
    cbn in J. destruct a; destruct J as [J|[]]; injection J as <- <-; lia.
  - intros fuel L. destruct fuel as [|[|[|fuel]]]; try lia. vm_compute. reflexivity.
Qed.

(** On a cyclic domain [solve] never returns. *)
Definition retry : mdp nat nat := {|
  m_apps := fun s => match s with 0 | 1 => [0] | _ => [] end;
  m_dist := fun s a => match s with 0 => [(1, 1%Q)] | _ => [(0, 1 # 2); (2, 1 # 2)] end;
  m_cost := fun s a _ => 1%Q;
  m_goal := fun s => s =? 2;
  m_heur := fun _ => 0%Q |}.
Lemma retry_loops : forall n ex (b0 b1 : option (anode nat nat)) v0 v1 s0 s1,
  (let g := [(0, SNode [ANode 0 [(1%Q, 1%Q, 1)]] b0 (Some v0) s0 [1]);
             (1, SNode [ANode 0 [(1 # 2, 1%Q, 0); (1 # 2, 1%Q, 2)]] b1 (Some v1) s1 [0]);
             (2, SNode [] None (Some 0%Q) true [1])]
   in propagate n plain ex [0] g = Err OutOfFuel /\ propagate n plain ex [1] g = Err OutOfFuel).
Proof.
  induction n as [|n IH]; intros ex b0 b1 v0 v1 s0 s1; [split; reflexivity|].
  split; cbn -[Qplus Qmult propagate].
  - rewrite propagate_S by discriminate. cbn -[Qplus Qmult propagate]. apply IH.
  - rewrite propagate_S by discriminate. cbn -[Qplus Qmult propagate]. apply IH.
Qed.
Theorem C60_cycles_refuted : no_dead_end retry 0 /\ forall fuel, ao_solve fuel retry plain [] 0 = Err OutOfFuel.
Proof.
  split.
  - intros y R. assert (K : y <= 2).
    { induction R as [|x a y pr R IH G I J]; [lia|]. destruct x as [|[|x]]; cbn in I, J; [| |destruct I];
        repeat (destruct J as [J|J]; [injection J as <- <-; lia|]); destruct J. }
    destruct y as [|[|[|y]]]; cbn; try discriminate. lia.
  - intros fuel. destruct fuel as [|[|fuel]]; [reflexivity|reflexivity|].
    cbn -[Qplus Qmult propagate]. rewrite propagate_S by discriminate. cbn -[Qplus Qmult propagate].
    assert (PN : forall n ex (g : sgraph nat nat), propagate n plain ex [] g = Ok g) by (intros [|n]; reflexivity).
    assert (FN : forall n (g : sgraph nat nat) q, find_tips n plain g [] q = Ok q) by (intros [|n]; reflexivity).
    rewrite PN. cbn -[Qplus Qmult propagate]. rewrite FN. cbn -[Qplus Qmult propagate].
    match goal with |- context [propagate ?n plain ?ex [1] ?g] => 
      destruct (retry_loops n ex (Some (ANode 0 [(1%Q, 1%Q, 1)])) None (0 + 1 * (1 + 1 * 0))%Q 0%Q false false) as [_ E] end.
    cbv zeta in E. cbn -[Qplus Qmult propagate] in E. rewrite E. reflexivity.
Qed.

(** With the detection of cycles, a domain without cycles can be refused. *)
Definition shortcut : mdp nat nat := {|
  m_apps := fun s => match s with 0 => [0; 1] | 1 | 2 => [0] | _ => [] end;
  m_dist := fun s a => match s, a with 0, 0 => [(1, 1%Q)] | 0, _ => [(2, 1%Q)] | 1, _ => [(2, 1%Q)] | _, _ => [(3, 1%Q)] end;
  m_cost := fun s a _ => match s, a with 0, 1 => 3%Q | _, _ => 1%Q end;
  m_goal := fun s => s =? 3;
  m_heur := fun _ => 0%Q |}.
Theorem C60_detection_refuted : acyclic shortcut /\
  forall fuel, 5 <= fuel -> ao_solve fuel shortcut {| c_discount := 1%Q; c_max_tips := 1; c_detect := true; c_order := fun l => l |} [] 0 = Err ValueError.
Proof.
  split.
  - exists (fun s => 3 - s). intros [|[|[|s]]] a y pr G I J; cbn in I, J; [| | |destruct I].
    + destruct I as [<-|[<-|[]]]; cbn in J; destruct J as [J|[]]; injection J as <- <-; lia.
    + destruct J as [J|[]]. injection J as <- <-. lia.
    + destruct J as [J|[]]. injection J as <- <-. lia.
  - intros fuel L. destruct fuel as [|[|[|[|[|fuel]]]]]; try lia. vm_compute. reflexivity.
Qed.

(** With [max_tip_expansions = 0] the main loop does not end. *)
Theorem C60_no_expansion_refuted : forall fuel,
  ao_solve fuel fork {| c_discount := 1%Q; c_max_tips := 0; c_detect := false; c_order := fun l => l |} [] 0 = Err OutOfFuel.
Proof.
  assert (K : forall cf fuel inner, c_max_tips cf = 0 -> (forall l, c_order cf l = l) ->
     ao_loop fuel inner fork cf 0 [(0, new_snode)] [0] = Err OutOfFuel).
  { intros cf. induction fuel as [|fuel IH]; intros inner M O; [reflexivity|]. cbn -[find_tips]. rewrite M. cbn -[find_tips].
    destruct inner as [|inner]; cbn -[find_tips]; [reflexivity|]. rewrite find_tips_S by discriminate. rewrite O. cbn -[find_tips ao_loop].
    destruct inner; cbn [find_tips bind]; now apply IH. }
  intros fuel. apply K; reflexivity.
Qed.

Print Assumptions C59_policy.
Print Assumptions C59_optimal.
Print Assumptions C59_goal_start_refuted.
Print Assumptions C60_solves.
Print Assumptions C60_next_action.
Print Assumptions C60_dead_end_refuted.
Print Assumptions C60_cycles_refuted.
Print Assumptions C60_detection_refuted.
Print Assumptions C60_no_expansion_refuted.
