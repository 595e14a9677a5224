(** C109-C111: deterministic gym domains. *)
From Coq Require Import List Bool Arith ZArith Lia.
Import ListNotations.
From Verif Require Import Py GymDomModel GymDomSpec GymDomProofs GymInitProofs.

(** A state with the right observation, the right terminal status and the right transition value. *)
Definition state_of {E Obs Act Info Snap} (env_reset : E -> E * Obs)
    (env_step : E -> Act -> E * (Obs * Z * bool * Info)) (e : E) (path : list Act)
    (m : proxy Obs Act Info Snap) : Prop :=
  p_state m = seen _ _ _ _ env_reset env_step e path /\
  is_terminal m = finished _ _ _ _ env_reset env_step e path /\
  forall m' a', transition_value m' a' (Some m) =
    match rewarded _ _ _ _ env_reset env_step e path with Some r => Ok r | None => Err AttributeError end.

Lemma says_state_of : forall E Obs Act Info Snap env_reset env_step e path (m : proxy Obs Act Info Snap),
  says E Obs Act Info Snap env_reset env_step e path m -> state_of env_reset env_step e path m.
Proof.
  intros E Obs Act Info Snap env_reset env_step e path m [S1 S2]. split; [exact S1|].
  unfold is_terminal, transition_value, finished, rewarded. rewrite S2.
  destruct (answer _ _ _ _ env_reset env_step e path) as [[[[o r] d] i]|]; split; auto.
Qed.

(** Whatever the order in which the states received from the domain are expanded, every state is the
    one a fresh environment reaches with the same actions: observation, terminal status and reward of
    the last transition - whether environments are copied or one environment is shared through
    lawful [set_state] and [get_state] functions. *)
Theorem C109_tree : forall E Obs Act Info Snap (env_reset : E -> E * Obs)
    (env_step : E -> Act -> E * (Obs * Z * bool * Info))
    (set_state : option (E -> Snap -> E)) (get_state : option (E -> Snap)) snap_neq,
  lawful _ _ _ _ _ env_step set_state get_state snap_neq ->
  forall h a e script, nth_error h a = Some e -> in_range _ 1 script ->
  exists d0 m0 d ms,
    initial_state Act Info env_reset set_state get_state (mk_dom h a) = Ok (d0, m0) /\
    explore _ _ _ _ _ env_step set_state get_state snap_neq d0 [m0] script = Ok (d, ms) /\
    Forall2 (state_of env_reset env_step e) (paths _ [[]] script) ms.
Proof.
  intros E Obs Act Info Snap env_reset env_step set_state get_state snap_neq LAW h a e script H R.
  destruct (initial_ok E Obs Act Info Snap env_reset env_step set_state get_state e h a H) as (d0 & m0 & E0 & L0 & _).
  destruct (explore_ok E Obs Act Info Snap env_reset env_step set_state get_state snap_neq LAW e
              script d0 a [[]] [m0]) as (d & ms & E1 & F); [constructor; [exact L0|constructor]|exact R|].
  exists d0, m0, d, ms. split; [exact E0|]. split; [exact E1|].
  eapply Forall2_imp; [|exact F]. intros p m [S1 _]. apply says_state_of. exact S1.
Qed.

(** A counter with a clock: the position is observed, the episode ends at the second tick. *)
Definition clock_reset (e : Z * nat) : (Z * nat) * Z := ((0%Z, 0), 0%Z).
Definition clock_step (e : Z * nat) (a : Z) : (Z * nat) * (Z * Z * bool * unit) :=
  let z := (fst e + a)%Z in ((z, S (snd e)), (z, a, 2 <=? S (snd e), tt)).
Definition full_neq (s s' : Z * nat) : res bool :=
  Ok (negb ((fst s =? fst s')%Z && (snd s =? snd s'))).

Example C109_tree_ex :
  lawful (Z * nat) Z Z unit (Z * nat) clock_step (Some (fun _ s => s)) (Some (fun e => e)) full_neq /\
  in_range Z 1 [(0, 5%Z); (1, 2%Z); (0, 3%Z)] /\
  paths Z [[]] [(0, 5%Z); (1, 2%Z); (0, 3%Z)] = [[]; [5]; [5; 2]; [3]]%Z /\
  map (seen _ _ _ _ clock_reset clock_step (7%Z, 9)) [[]; [5]; [5; 2]; [3]]%Z = [0; 5; 7; 3]%Z /\
  map (finished _ _ _ _ clock_reset clock_step (7%Z, 9)) [[]; [5]; [5; 2]; [3]]%Z = [false; false; true; false].
Proof.
  split; [|repeat split; simpl; auto].
  split; [reflexivity|]. split; [intros e e' a <-; auto|].
  intros [z n] [z' n']. eexists. split; [reflexivity|]. cbn [fst snd].
  destruct (Z.eqb_spec z z'), (Nat.eqb_spec n n'); cbn; intros; congruence.
Qed.
Print Assumptions C109_tree.

(** With a [get_state] that leaves out part of the environment (here the clock), expanding the same
    state twice with the same action gives two different results. *)
Theorem C109_incomplete_snapshot_refuted : exists E (env_reset : E -> E * Z)
    (env_step : E -> Z -> E * (Z * Z * bool * unit)) (set : E -> Z -> E) (get : E -> Z) neq,
  (forall e s, get (set e s) = s) /\
  exists h m0 d0 d ms s1 s2,
    initial_state Z unit env_reset (Some set) (Some get) (mk_dom h 0) = Ok (d0, m0) /\
    explore _ _ _ _ _ env_step (Some set) (Some get) neq d0 [m0] [(0, 1%Z); (0, 1%Z)] = Ok (d, ms) /\
    nth_error ms 1 = Some s1 /\ nth_error ms 2 = Some s2 /\
    p_state s1 = p_state s2 /\ is_terminal s1 <> is_terminal s2.
Proof.
  exists (Z * nat)%type, clock_reset, clock_step, (fun e s => (s, snd e)), fst,
    (fun s s' => Ok (negb (s =? s')%Z)). split; [reflexivity|].
  exists [(0%Z, 0)]. repeat eexists; try reflexivity. vm_compute. discriminate.
Qed.
Print Assumptions C109_incomplete_snapshot_refuted.

(** Snapshots that are numpy arrays of several cells (as in examples/gym_line_control.py): the test
    whether the environment has to be set back raises ValueError, so nothing can be expanded. *)
Definition array_neq (s s' : list Z) : res bool :=
  match s, s' with
  | [x], [y] => Ok (negb (x =? y)%Z)
  | _, _ => Err ValueError
  end.
Theorem C109_array_snapshot_refuted : exists E (env_reset : E -> E * Z)
    (env_step : E -> Z -> E * (Z * Z * bool * unit)) (set : E -> list Z -> E) (get : E -> list Z),
  (forall e e', get (set e (get e')) = get e') /\
  forall h a d m act,
    initial_state Z unit env_reset (Some set) (Some get) (mk_dom h a) = Ok (d, m) ->
    next_state env_step (Some set) (Some get) array_neq d m act = Err ValueError.
Proof.
  exists (Z * Z)%type, (fun e => (0, 0, 0)%Z), (fun e a => (e, (a, a, false, tt))),
    (fun _ s => (nth 0 s 0, nth 1 s 0)%Z), (fun e => [fst e; snd e]).
  split; [reflexivity|]. intros h a d m act E. unfold initial_state in E.
  destruct (nth_error h a) as [e|] eqn:H; cbn [d_heap d_env] in E.
  - rewrite (deref_ok _ _ _ _ H) in E. cbn [bind fst snd] in E. injection E as <- <-.
    unfold next_state. cbn [snapshots p_env p_snap d_heap snap_of fst snd].
    rewrite (deref_ok _ _ _ ((0, 0)%Z)).
    + reflexivity.
    + apply assign_same. apply nth_error_Some. congruence.
  - unfold deref in E. rewrite H in E. discriminate.
Qed.
Print Assumptions C109_array_snapshot_refuted.

(** The transition value ignores the state and the action it is asked for: given any other successor it
    returns that successor's reward. *)
Theorem C109_value_pair_refuted : exists h d0 m0 d ms s,
  initial_state Z unit clock_reset None None (mk_dom h 0) = Ok (d0, m0) /\
  explore _ _ _ _ unit clock_step None None (fun _ _ => Ok true) d0 [m0] [(0, 5%Z); (1, 2%Z)] = Ok (d, ms) /\
  nth_error ms 2 = Some s /\
  transition_value m0 5%Z (Some s) = Ok 2%Z /\
  rewarded _ _ _ _ clock_reset clock_step (0%Z, 0) [5%Z] = Some 5%Z.
Proof. exists [(0%Z, 0)]. repeat eexists; reflexivity. Qed.
Print Assumptions C109_value_pair_refuted.

(** ** GymPlanningDomain *)

(** The planning domain gives the same tree of states; a state is a goal exactly when the number of
    actions leading to it reaches the maximum depth, or the environment reported the end of the
    episode and termination is declared to be a goal. *)
Theorem C110_goals : forall E Obs Act Info Snap (env_reset : E -> E * Obs)
    (env_step : E -> Act -> E * (Obs * Z * bool * Info))
    (set_state : option (E -> Snap -> E)) (get_state : option (E -> Snap)) snap_neq same looks tig max_depth,
  lawful _ _ _ _ _ env_step set_state get_state snap_neq ->
  forall h a e script, nth_error h a = Some e -> in_range _ 1 script ->
  (forall o, same o (snd (env_reset e)) = Ok (looks o)) ->
  exists d0 m0 d ms,
    p_initial_state env_reset set_state get_state (pinit Obs Act Info Snap h a) = Ok (d0, m0) /\
    pexplore _ _ _ _ _ env_step set_state get_state snap_neq same d0 [m0] script = Ok (d, ms) /\
    Forall2 (fun path m => state_of env_reset env_step e path m /\
       is_goal tig max_depth m =
         Ok ((max_depth <=? Z.of_nat (length path))%Z || (tig && finished _ _ _ _ env_reset env_step e path)))
      (paths _ [[]] script) ms.
Proof.
  intros E Obs Act Info Snap env_reset env_step set_state get_state snap_neq same looks tig max_depth LAW
    h a e script H R SAME.
  unfold p_initial_state. cbn [pd_dom pinit].
  destruct (initial_ok E Obs Act Info Snap env_reset env_step set_state get_state e h a H)
    as (d0 & m0 & E0 & L0 & S0 & X0 & _). rewrite E0. cbn [bind fst snd pd_restarting pd_resets].
  eexists _, _.
  destruct (pexplore_ok E Obs Act Info Snap env_reset env_step set_state get_state snap_neq LAW e same looks SAME
              script (mk_pdom d0 (Some (with_extra m0 (0, 0)%Z)) 0 false 0) a [[]] [with_extra m0 (0, 0)%Z]
              (with_extra m0 (0, 0)%Z)) as (d & ms & E1 & F & _).
  - constructor; [|constructor]. split; [exact L0|reflexivity].
  - exact R.
  - reflexivity.
  - exact (proj1 S0).
  - exists d, ms. split; [reflexivity|]. split; [exact E1|].
    eapply Forall2_imp; [|exact F]. intros p m [[S1 _] EX]. apply says_state_of in S1. split; [exact S1|].
    unfold is_goal. rewrite EX. rewrite (proj1 (proj2 S1)). reflexivity.
Qed.
Print Assumptions C110_goals.

(** The features of a width-based domain are reset once for every maximal series of consecutive
    expansions of states that look like the initial one. *)
Theorem C110_resets : forall E Obs Act Info Snap (env_reset : E -> E * Obs)
    (env_step : E -> Act -> E * (Obs * Z * bool * Info))
    (set_state : option (E -> Snap -> E)) (get_state : option (E -> Snap)) snap_neq same looks,
  lawful _ _ _ _ _ env_step set_state get_state snap_neq ->
  forall h a e script, nth_error h a = Some e -> in_range _ 1 script ->
  (forall o, same o (snd (env_reset e)) = Ok (looks o)) ->
  exists d0 m0 d ms,
    p_initial_state env_reset set_state get_state (pinit Obs Act Info Snap h a) = Ok (d0, m0) /\
    pexplore _ _ _ _ _ env_step set_state get_state snap_neq same d0 [m0] script = Ok (d, ms) /\
    pd_resets d = runs false (map (fun p => looks (seen _ _ _ _ env_reset env_step e p)) (expanded _ [[]] script)).
Proof.
  intros E Obs Act Info Snap env_reset env_step set_state get_state snap_neq same looks LAW
    h a e script H R SAME.
  unfold p_initial_state. cbn [pd_dom pinit].
  destruct (initial_ok E Obs Act Info Snap env_reset env_step set_state get_state e h a H)
    as (d0 & m0 & E0 & L0 & S0 & X0 & _). rewrite E0. cbn [bind fst snd pd_restarting pd_resets].
  eexists _, _.
  destruct (pexplore_ok E Obs Act Info Snap env_reset env_step set_state get_state snap_neq LAW e same looks SAME
              script (mk_pdom d0 (Some (with_extra m0 (0, 0)%Z)) 0 false 0) a [[]] [with_extra m0 (0, 0)%Z]
              (with_extra m0 (0, 0)%Z)) as (d & ms & E1 & F & RS).
  - constructor; [|constructor]. split; [exact L0|reflexivity].
  - exact R.
  - reflexivity.
  - exact (proj1 S0).
  - exists d, ms. split; [reflexivity|]. split; [exact E1|exact RS].
Qed.
Example C110_ex : (* expanding the root twice, a child, and the root again: two resets *)
  exists d0 m0 d ms,
    p_initial_state clock_reset None None (pinit Z Z unit unit [(7%Z, 9)] 0) = Ok (d0, m0) /\
    pexplore _ _ _ _ _ clock_step None None (fun _ _ => Ok true) (fun o o' => Ok (o =? o')%Z) d0 [m0]
      [(0, 5%Z); (0, 3%Z); (1, 2%Z); (0, 1%Z)] = Ok (d, ms) /\
    pd_resets d = 2 /\ map (is_goal true 2) ms = [Ok false; Ok false; Ok false; Ok true; Ok false] /\
    runs false [true; true; false; true] = 2.
Proof.
  do 4 eexists. split; [vm_compute; reflexivity|]. split; [vm_compute; reflexivity|].
  split; [reflexivity|]. split; reflexivity.
Qed.
Print Assumptions C110_resets.

(** The reward accumulated in a state lacks the reward of the transition leading to it. *)
Theorem C110_accumulated_refuted : exists h d0 m0 d ms s,
  p_initial_state clock_reset None None (pinit Z Z unit unit h 0) = Ok (d0, m0) /\
  pexplore _ _ _ _ _ clock_step None None (fun _ _ => Ok true) (fun o o' => Ok (o =? o')%Z) d0 [m0]
    [(0, 5%Z); (1, 2%Z)] = Ok (d, ms) /\
  nth_error ms 2 = Some s /\
  p_extra s = Some (2, 5)%Z /\ total _ _ _ _ clock_step (0%Z, 0) [5; 2]%Z = 7%Z.
Proof.
  exists [(0%Z, 0)]. do 5 eexists. split; [vm_compute; reflexivity|]. split; [vm_compute; reflexivity|].
  split; [reflexivity|]. split; reflexivity.
Qed.
Print Assumptions C110_accumulated_refuted.

(** Being a goal is not a property of the state a planner can rely on: two states that compare equal,
    reached with different numbers of actions, differ on it. *)
Theorem C110_goal_of_equal_states_refuted : exists h d0 m0 d ms s1 s2,
  p_initial_state clock_reset None None (pinit Z Z unit unit h 0) = Ok (d0, m0) /\
  pexplore _ _ _ _ _ clock_step None None (fun _ _ => Ok true) (fun o o' => Ok (o =? o')%Z) d0 [m0]
    [(0, 5%Z); (0, 3%Z); (2, 2%Z)] = Ok (d, ms) /\
  nth_error ms 1 = Some s1 /\ nth_error ms 3 = Some s2 /\
  p_state s1 = p_state s2 /\
  is_goal false 2 s1 = Ok false /\ is_goal false 2 s2 = Ok true.
Proof.
  exists [(0%Z, 0)]. do 6 eexists. split; [vm_compute; reflexivity|]. split; [vm_compute; reflexivity|].
  split; [reflexivity|]. split; [reflexivity|]. split; [reflexivity|]. split; reflexivity.
Qed.
Print Assumptions C110_goal_of_equal_states_refuted.

(** ** DeterministicInitializedGymDomain *)

(** After a first reset, any sequence of resets, steps and memory settings gets exactly the replies of
    fresh episodes of the environment: a reset returns the same state again and starts the same
    episode again, for ever; setting the memory to any state received before starts the episode
    again too. *)
Theorem C111_episodes : forall E Obs Act Info Snap (env_reset : E -> E * Obs)
    (env_step : E -> Act -> E * (Obs * Z * bool * Info))
    (set_state : option (E -> Snap -> E)) (get_state : option (E -> Snap)) snap_neq,
  lawful _ _ _ _ _ env_step set_state get_state snap_neq ->
  forall h a e calls, nth_error h a = Some e -> known _ 1 calls ->
  drive _ _ _ _ _ env_reset env_step set_state get_state (iinit Obs Snap h a) [] (CReset :: calls) =
  Ok (RState (snd (env_reset e)) ::
      replies _ _ _ _ env_reset env_step e [] (snd (env_reset e)) [snd (env_reset e)] calls).
Proof.
  intros E Obs Act Info Snap env_reset env_step set_state get_state snap_neq LAW h a e calls H K.
  cbn [drive].
  destruct (start_ok E Obs Act Info Snap env_reset env_step set_state get_state snap_neq LAW e h a H)
    as (c & d & s & -> & SO & IN). cbn [bind fst snd app].
  rewrite (drive_ok E Obs Act Info Snap env_reset env_step set_state get_state snap_neq LAW e calls c d
             [] (snd (env_reset e)) [s] IN K).
  cbn [bind map]. rewrite SO. reflexivity.
Qed.
Example C111_episodes_ex :
  drive _ _ _ _ unit clock_reset clock_step None None (iinit Z unit [(7%Z, 9)] 0) []
    [CReset; CStep 5%Z; CStep 2%Z; CReset; CStep 5%Z] =
  Ok [RState 0%Z; RStep 5%Z 5%Z false tt; RStep 7%Z 2%Z true tt; RState 0%Z; RStep 5%Z 5%Z false tt].
Proof. reflexivity. Qed.
Print Assumptions C111_episodes.

(** In particular [set_memory] does not put the domain into the state it is given: the next step is
    one from the initial state, and the next reset returns the state given although the environment
    is in its initial state. *)
Theorem C111_set_memory_refuted : exists h o1 o2 o3,
  drive _ _ _ _ unit clock_reset clock_step None None (iinit Z unit h 0) []
    [CReset; CStep 5%Z; CSet 1; CStep 2%Z; CReset; CStep 2%Z] =
  Ok [RState 0%Z; RStep o1 5%Z false tt; RNone; RStep o2 2%Z false tt; RState o1; RStep o3 2%Z false tt] /\
  o1 = 5%Z /\ o2 = 2%Z /\ o3 = 2%Z /\
  seen _ _ _ _ clock_reset clock_step (0%Z, 0) [5; 2]%Z = 7%Z.
Proof.
  exists [(0%Z, 0)], 5%Z, 2%Z, 2%Z. split; [vm_compute; reflexivity|]. repeat split; reflexivity.
Qed.
Print Assumptions C111_set_memory_refuted.
