(** Properties of rollouts (C09). *)
From Coq Require Import List Bool Arith Lia.
From Verif Require Import Py EnvModel RolloutModel.
Import ListNotations.

Section Spec.
Context {St A O V I W Sv : Type}.
Notation dom := (domain St A O V I W).
Notation slv := (@solver A O W Sv).

(** Specification: the runs of a domain under a policy.  [budget] is the number of steps still
    allowed (None: unlimited); the run stops exactly when the budget is exhausted or at the first
    outcome that signals termination. *)
Inductive episode (d : dom) (sv : slv) (rnd : nat -> W)
  : option nat -> nat -> env St -> Sv -> O -> list (A * outcome O V I) -> env St -> Sv -> Prop :=
| ep_budget : forall k e z obs, episode d sv rnd (Some 0) k e z obs [] e z
| ep_last : forall b k e z obs a z' e' out,
    b <> Some 0 -> s_sample sv z obs (rnd k) = (a, z') -> EnvModel.step d e a (rnd k) = Ok (e', out) ->
    o_termination out = true ->
    episode d sv rnd b k e z obs [(a, out)] e' z'
| ep_next : forall b k e z obs a z' e' out l e2 z2,
    b <> Some 0 -> s_sample sv z obs (rnd k) = (a, z') -> EnvModel.step d e a (rnd k) = Ok (e', out) ->
    o_termination out = false ->
    episode d sv rnd (option_map pred b) (S k) e' z' (o_observation out) l e2 z2 ->
    episode d sv rnd b k e z obs ((a, out) :: l) e2 z2.

Definition budget (max_steps : option nat) (step : nat) : option nat :=
  match max_steps with None => None | Some m => Some (S m - step) end.

Lemma go_on_budget : forall ms step, go_on ms step = true <-> budget ms step <> Some 0.
Proof.
  intros [m|] step; unfold go_on, budget; [|split; intros; congruence].
  rewrite Nat.leb_le. split; [intros H X; assert (S m - step = 0) by congruence; lia|].
  intros H. destruct (le_lt_dec step m); auto. exfalso. apply H. f_equal. lia.
Qed.

Lemma budget_S : forall ms step, budget ms (S step) = option_map pred (budget ms step).
Proof. intros [m|] step; unfold budget, option_map; [f_equal; lia|reflexivity]. Qed.

Lemma loop_episode : forall fuel (d : dom) (sv : slv) ms rnd step e z obs acc e' z' l,
  loop fuel d sv ms rnd step e z obs acc = Ok (e', z', l) ->
  exists l', l = rev acc ++ l' /\ episode d sv rnd (budget ms step) step e z obs l' e' z'.
Proof.
  induction fuel as [|fuel IH]; intros d sv ms rnd step e z obs acc e' z' l E; [discriminate|].
  cbn [loop] in E. destruct (go_on ms step) eqn:G.
  - apply go_on_budget in G. destruct (s_sample sv z obs (rnd step)) as [a z1] eqn:Sa.
    destruct (EnvModel.step d e a (rnd step)) as [[e1 out]|] eqn:St1; [|discriminate]. cbn [bind] in E.
    destruct (o_termination out) eqn:T.
    + injection E as <- <- <-. exists [(a, out)]. split; [reflexivity|]. eapply ep_last; eauto.
    + destruct (IH _ _ _ _ _ _ _ _ _ _ _ _ E) as (l' & -> & Ep). exists ((a, out) :: l').
      split; [simpl; now rewrite <- app_assoc|]. eapply ep_next; eauto. now rewrite <- budget_S.
  - injection E as <- <- <-. exists []. split; [now rewrite app_nil_r|].
    assert (B : budget ms step = Some 0).
    { destruct (budget ms step) as [[|n]|] eqn:B; auto; exfalso;
        (rewrite (proj2 (go_on_budget ms step)) in G; [discriminate|rewrite B; discriminate]). }
    rewrite B. constructor.
Qed.

Lemma episode_loop : forall (d : dom) (sv : slv) rnd b k e z obs l e' z',
  episode d sv rnd b k e z obs l e' z' -> forall ms acc fuel, b = budget ms k -> length l < fuel ->
  loop fuel d sv ms rnd k e z obs acc = Ok (e', z', rev acc ++ l).
Proof.
  induction 1 as [k e z obs|b k e z obs a z' e' out B Sa St1 T|b k e z obs a z' e' out l e2 z2 B Sa St1 T Ep IH];
    intros ms acc [|fuel] Eb F; simpl in F; try lia; cbn [loop].
  - destruct (go_on ms k) eqn:G; [apply go_on_budget in G; congruence|]. now rewrite app_nil_r.
  - rewrite (proj2 (go_on_budget ms k)) by congruence. rewrite Sa, St1. cbn [bind]. now rewrite T.
  - rewrite (proj2 (go_on_budget ms k)) by congruence. rewrite Sa, St1. cbn [bind]. rewrite T.
    rewrite (IH ms ((a, out) :: acc) fuel); [simpl; now rewrite <- app_assoc| |lia].
    rewrite budget_S. now f_equal.
Qed.

Lemma loop_fuel : forall m (d : dom) (sv : slv) rnd fuel step e z obs acc,
  S m - step < fuel -> loop fuel d sv (Some m) rnd step e z obs acc <> Err OutOfFuel \/
  exists e1 a w, EnvModel.step d e1 a w = Err OutOfFuel.
Proof.
  intros m d sv rnd. induction fuel as [|fuel IH]; intros step e z obs acc F; [lia|].
  cbn [loop]. destruct (go_on (Some m) step) eqn:G; [|left; discriminate].
  simpl in G. apply Nat.leb_le in G.
  destruct (s_sample sv z obs (rnd step)) as [a z1].
  destruct (EnvModel.step d e a (rnd step)) as [[e1 out]|x] eqn:St1; cbn [bind].
  - destruct (o_termination out); [left; discriminate|]. apply IH. lia.
  - destruct x; try (left; discriminate). right. eauto.
Qed.

(** Consequences of being an [episode], in plain terms. *)
Lemma episode_length : forall (d : dom) (sv : slv) rnd b k e z obs l e' z',
  episode d sv rnd b k e z obs l e' z' ->
  (forall m, b = Some m -> length l <= m) /\
  ((forall i a out, nth_error l i = Some (a, out) -> o_termination out = true -> S i = length l) /\
   ((exists a out, nth_error l (length l - 1) = Some (a, out) /\ o_termination out = true) \/ b = Some (length l))).
Proof.
  induction 1 as [k e z obs|b k e z obs a z' e' out B Sa St1 T|b k e z obs a z' e' out l e2 z2 B Sa St1 T Ep IH].
  - simpl. split; [intros; lia|]. split; [intros [|i] ? ? X; discriminate|auto].
  - simpl. split; [intros [|m] ->; [congruence|lia]|]. split.
    + intros [|[|i]] ? ? X; try discriminate; auto.
    + left. eauto.
  - destruct IH as [L [F D]]. simpl length. split; [|split].
    + intros [|m] ->; [congruence|]. specialize (L m eq_refl). lia.
    + intros [|i] a0 o0 X Y.
      * simpl in X. congruence.
      * simpl in X. f_equal. eapply F; eauto.
    + destruct D as [(a0 & o0 & X & Y)|D].
      * left. exists a0, o0. split; auto. simpl. rewrite Nat.sub_0_r.
        destruct (length l) eqn:Ll; [destruct l; discriminate|].
        simpl in *. now rewrite Nat.sub_0_r in X.
      * right. destruct b as [[|m]|]; simpl in D; try congruence.
Qed.

(** Where an episode of [rollout] starts. *)
Definition starts_at (d : dom) (from_memory : option (mem St)) (from_action : option A) (w : W)
           (e e1 : env St) (obs : O) : Prop :=
  match from_memory with
  | None => (e1, obs) = EnvModel.reset d e w
  | Some (MState s) => (d_kind d = Markovian \/ d_kind d = Memoryless) /\
                       e1 = set_memory e (MState s) /\ obs = d_observe d s from_action w
  | Some (MRef r) => d_kind d <> Markovian /\ d_kind d <> Memoryless /\ e1 = set_memory e (MRef r) /\
                     exists m l s, nth_error (heap e) r = Some (m, l ++ [s]) /\
                                   obs = d_observe d s from_action w
  | Some MNone => False
  end.

Lemma start_spec : forall (d : dom) fm fa w e e1 obs,
  start d fm fa w e = Ok (e1, obs) -> starts_at d fm fa w e e1 obs.
Proof.
  intros d [m|] fa w e e1 obs E; unfold start in E; cbn zeta in E.
  - unfold starts_at. destruct (last_state (d_kind d) (heap (set_memory e m)) m) as [s|] eqn:L; [|discriminate].
    cbn [bind] in E. injection E as <- <-.
    destruct m as [|s'|r]; destruct (d_kind d) eqn:K; simpl in L; try discriminate.
    + injection L as ->. auto.
    + injection L as ->. auto.
    + destruct (nth_error (heap e) r) as [[mx l]|] eqn:N; [|discriminate].
      destruct (rev l) as [|x y] eqn:R; [discriminate|]. injection L as <-.
      repeat (split; [congruence|]). exists mx, (rev y), x. split; auto. f_equal. f_equal.
      rewrite <- (rev_involutive l), R. reflexivity.
    + destruct (nth_error (heap e) r) as [[mx l]|] eqn:N; [|discriminate].
      destruct (rev l) as [|x y] eqn:R; [discriminate|]. injection L as <-.
      repeat (split; [congruence|]). exists mx, (rev y), x. split; auto. f_equal. f_equal.
      rewrite <- (rev_involutive l), R. reflexivity.
  - unfold starts_at. congruence.
Qed.

(** A sequence of episodes, each starting where prescribed and being a genuine run. *)
Inductive episodes (d : dom) (sv : slv) fm fa ms (rnd : nat -> nat -> W)
  : nat -> env St -> Sv -> list (O * list (A * outcome O V I)) -> env St -> Sv -> Prop :=
| eps_nil : forall e z, episodes d sv fm fa ms rnd 0 e z [] e z
| eps_cons : forall n e z e1 obs l e2 z2 ls e3 z3,
    starts_at d fm fa (rnd n 0) e e1 obs ->
    episode d sv (rnd n) ms 1 e1 (s_reset sv z) obs l e2 z2 ->
    episodes d sv fm fa ms rnd n e2 z2 ls e3 z3 ->
    episodes d sv fm fa ms rnd (S n) e z ((obs, l) :: ls) e3 z3.

Lemma budget_1 : forall ms, budget ms 1 = ms.
Proof. intros [m|]; simpl; [f_equal; lia|reflexivity]. Qed.

(** C09: [rollout] runs [num_episodes] episodes; each one starts with a reset (or the given
    memory), every action is the solver's answer to the current observation, every outcome is the
    domain's answer to that action in its current memory, and it is cut at the right place. *)
Theorem C09_rollout_genuine : forall n fuel (d : dom) (sv : slv) fm fa ms rnd e z e' z' ls,
  rollout fuel d sv fm fa ms false n rnd e z = Ok (e', z', ls) ->
  episodes d sv fm fa ms rnd n e z ls e' z'.
Proof.
  induction n as [|n IH]; intros fuel d sv fm fa ms rnd e z e' z' ls E; simpl in E.
  - injection E as <- <- <-. constructor.
  - destruct (start d fm fa (rnd n 0) e) as [[e1 obs]|] eqn:S1; [|discriminate]. cbn [bind fst snd] in E.
    destruct (loop fuel d sv ms (rnd n) 1 e1 (s_reset sv z) obs []) as [[[e2 z2] l]|] eqn:L; [|discriminate].
    cbn [bind] in E.
    destruct (rollout fuel d sv fm fa ms false n rnd e2 z2) as [[[e3 z3] ls']|] eqn:R; [|discriminate].
    cbn [bind] in E. injection E as <- <- <-.
    apply loop_episode in L. destruct L as (l' & -> & Ep). simpl. rewrite budget_1 in Ep.
    econstructor; eauto. now apply start_spec.
Qed.

(** C09: the length of each episode: at most [max_steps], termination only at the last step, and
    an episode without termination has exactly [max_steps] steps. *)
Theorem C09_rollout_cut : forall n (d : dom) (sv : slv) fm fa ms rnd e z ls e' z',
  episodes d sv fm fa ms rnd n e z ls e' z' ->
  length ls = n /\
  Forall (fun ol =>
    (forall m, ms = Some m -> length (snd ol) <= m) /\
    (forall i a out, nth_error (snd ol) i = Some (a, out) -> o_termination out = true -> S i = length (snd ol)) /\
    ((exists a out, nth_error (snd ol) (length (snd ol) - 1) = Some (a, out) /\ o_termination out = true)
     \/ ms = Some (length (snd ol)))) ls.
Proof.
  intros n d sv fm fa ms rnd e z ls e' z' H. induction H as [|n e z e1 obs l e2 z2 ls e3 z3 S1 Ep Eps [IH1 IH2]].
  - split; [reflexivity|constructor].
  - split; [simpl; congruence|]. constructor; auto. cbn [snd].
    destruct (episode_length _ _ _ _ _ _ _ _ _ _ _ Ep) as (X & Y & Z). auto.
Qed.

(** C09: with a step limit, the loop always finishes within [max_steps + 1] iterations. *)
Theorem C09_rollout_bounded : forall m (d : dom) (sv : slv) rnd e z obs,
  (forall e1 a w, EnvModel.step d e1 a w <> Err OutOfFuel) ->
  loop (S (S m)) d sv (Some m) rnd 1 e z obs [] <> Err OutOfFuel.
Proof.
  intros m d sv rnd e z obs H. destruct (loop_fuel m d sv rnd (S (S m)) 1 e z obs []) as [X|(e1 & a & w & X)]; auto.
  - lia.
  - exfalso. eapply H; eauto.
Qed.

(** C09 finding: asking [rollout] to save its results silently runs a single episode. *)
Theorem C09_saving_runs_one_episode : forall n fuel (d : dom) (sv : slv) fm fa ms rnd e z e' z' ls,
  rollout fuel d sv fm fa ms true (S n) rnd e z = Ok (e', z', ls) -> length ls = 1.
Proof.
  intros n fuel d sv fm fa ms rnd e z e' z' ls E. simpl in E.
  destruct (start d fm fa (rnd n 0) e) as [[e1 obs]|]; [|discriminate]. cbn [bind fst snd] in E.
  destruct (loop fuel d sv ms (rnd n) 1 e1 (s_reset sv z) obs []) as [[[e2 z2] l]|]; [|discriminate].
  cbn [bind] in E. injection E as <- <- <-. reflexivity.
Qed.

(** C09 finding: [rollout_episode] without a starting memory always fails. *)
Theorem C09_episode_needs_memory : forall fuel (d : dom) (sv : slv) asm fa n ms rnd e z,
  rollout_episode asm fuel d sv None fa (S n) ms rnd e z = Err UnboundLocalError.
Proof. reflexivity. Qed.

End Spec.

(** *** rollout_episode on a fully observable Markovian domain: observations are the states. *)
Section Episode.
Context {St A V I W Sv : Type}.
Notation dom := (domain St A St V I W).
Notation slv := (@solver A St W Sv).

Definition fully_observable (d : dom) : Prop := forall s a w, d_observe d s a w = s.

(** Specification of the returned triple, position by position.  [zs] are the successive internal
    states of the solver. *)
Definition genuine (d : dom) (sv : slv) (rnd : nat -> W) (ms : option nat) (s0 : St) (z0 : Sv)
           (observations : list St) (actions : list A) (values : list V) : Prop :=
  length observations = S (length actions) /\ length values = length actions /\
  nth_error observations 0 = Some s0 /\
  (exists zs terms,
     nth_error zs 0 = Some z0 /\
     (forall k a, nth_error actions k = Some a ->
        exists s s' v z z' t i,
          nth_error observations k = Some s /\ nth_error observations (S k) = Some s' /\
          nth_error values k = Some v /\ nth_error zs k = Some z /\ nth_error zs (S k) = Some z' /\
          nth_error terms k = Some t /\
          s_sample sv z s (rnd (S k)) = (a, z') /\
          d_state_sample d (VState s) a (rnd (S k)) = Ok (s', v, t, i)) /\
     length terms = length actions /\
     (forall k, nth_error terms k = Some true -> S k = length actions) /\
     (nth_error terms (length actions - 1) = Some true \/ ms = Some (length actions))).

Lemma step_markov : forall (d : dom) e s a w e' out, d_kind d = Markovian ->
  EnvModel.step d (set_memory e (MState s)) a w = Ok (e', out) ->
  exists next i, d_state_sample d (VState s) a w = Ok (next, o_value out, o_termination out, i) /\
                 o_observation out = d_observe d next (Some a) w.
Proof.
  intros d e s a w e' out K E. unfold EnvModel.step in E. cbn [set_memory heap memory view bind] in E.
  destruct (d_state_sample d (VState s) a w) as [[[[next v] t] i]|]; [|discriminate].
  cbn [bind] in E. rewrite K in E. simpl in E. injection E as <- <-. eauto.
Qed.

Lemma last_snoc : forall X (l : list X) x y, last (l ++ [x]) y = x.
Proof. intros. apply last_last. Qed.

Lemma nth_error_snoc : forall X (l : list X) x k,
  nth_error (l ++ [x]) k = if k =? length l then Some x else nth_error l k.
Proof.
  intros X l x k. destruct (Nat.eqb_spec k (length l)) as [ -> |N].
  - rewrite nth_error_app2, Nat.sub_diag by lia. reflexivity.
  - destruct (Nat.lt_ge_cases k (length l)).
    + now rewrite nth_error_app1.
    + rewrite nth_error_app2 by lia. destruct (k - length l) as [|[|j]] eqn:D; simpl;
        [lia| |]; symmetry; apply nth_error_None; lia.
Qed.

(** Invariant of the loop: what has been recorded so far is genuine, without termination. *)
Definition inv (d : dom) (sv : slv) rnd (s0 : St) (z0 : Sv) (step : nat) (z : Sv) (obs : St)
           (O : list St) (Ac : list A) (Va : list V) (zs : list Sv) (terms : list bool) : Prop :=
  step = S (length Ac) /\ length O = S (length Ac) /\ length Va = length Ac /\
  length zs = S (length Ac) /\ length terms = length Ac /\
  nth_error O 0 = Some s0 /\ nth_error zs 0 = Some z0 /\
  nth_error O (length Ac) = Some obs /\ nth_error zs (length Ac) = Some z /\
  (forall k, nth_error terms k = Some true -> False) /\
  (forall k a, nth_error Ac k = Some a ->
        exists s s' v z z' t i,
          nth_error O k = Some s /\ nth_error O (S k) = Some s' /\
          nth_error Va k = Some v /\ nth_error zs k = Some z /\ nth_error zs (S k) = Some z' /\
          nth_error terms k = Some t /\
          s_sample sv z s (rnd (S k)) = (a, z') /\
          d_state_sample d (VState s) a (rnd (S k)) = Ok (s', v, t, i)).

Lemma nth_error_ext_app : forall X (l : list X) x k y, nth_error l k = Some y -> nth_error (l ++ [x]) k = Some y.
Proof. intros X l x k y E. rewrite nth_error_app1; auto. apply nth_error_Some. congruence. Qed.

Lemma chain_extend : forall (d : dom) (sv : slv) rnd s0 z0 step z obs O Ac Va zs terms a z' s' v t i,
  inv d sv rnd s0 z0 step z obs O Ac Va zs terms ->
  s_sample sv z obs (rnd step) = (a, z') ->
  d_state_sample d (VState obs) a (rnd step) = Ok (s', v, t, i) ->
  forall k b, nth_error (Ac ++ [a]) k = Some b ->
        exists s1 s2 v1 y y' t1 i1,
          nth_error (O ++ [s']) k = Some s1 /\ nth_error (O ++ [s']) (S k) = Some s2 /\
          nth_error (Va ++ [v]) k = Some v1 /\ nth_error (zs ++ [z']) k = Some y /\
          nth_error (zs ++ [z']) (S k) = Some y' /\ nth_error (terms ++ [t]) k = Some t1 /\
          s_sample sv y s1 (rnd (S k)) = (b, y') /\
          d_state_sample d (VState s1) b (rnd (S k)) = Ok (s2, v1, t1, i1).
Proof.
  intros d sv rnd s0 z0 step z obs O Ac Va zs terms a z' s' v t i
         (E1 & E2 & E3 & E4 & E5 & E6 & E7 & E8 & E9 & E10 & E11) Sa Ds k b Hk.
  rewrite nth_error_snoc in Hk. destruct (Nat.eqb_spec k (length Ac)) as [ -> |N].
  - injection Hk as <-. exists obs, s', v, z, z', t, i.
    rewrite !nth_error_snoc, E2, E3, E4, E5, !Nat.eqb_refl.
    destruct (Nat.eqb_spec (length Ac) (S (length Ac))); [lia|].
    rewrite <- E1. repeat split; auto.
  - destruct (E11 _ _ Hk) as (s1 & s2 & v1 & y & y' & t1 & i1 & F1 & F2 & F3 & F4 & F5 & F6 & F7 & F8).
    exists s1, s2, v1, y, y', t1, i1. repeat split; auto; now apply nth_error_ext_app.
Qed.

Lemma ep_loop_genuine : forall fuel (d : dom) (sv : slv) ms rnd s0 z0 step e z obs O Ac Va zs terms Or Ar Vr,
  d_kind d = Markovian -> fully_observable d ->
  inv d sv rnd s0 z0 step z obs O Ac Va zs terms ->
  (forall m, ms = Some m -> length Ac <= m) ->
  ep_loop MState fuel d sv ms rnd step e z obs O Ac Va = Ok (Or, Ar, Vr) ->
  genuine d sv rnd ms s0 z0 Or Ar Vr.
Proof.
  induction fuel as [|fuel IH]; intros d sv ms rnd s0 z0 step e z obs O Ac Va zs terms Or Ar Vr K FO Inv B E;
    [discriminate|].
  cbn [ep_loop] in E. destruct (go_on ms step) eqn:G.
  - destruct (s_sample sv z obs (rnd step)) as [a z1] eqn:Sa.
    pose proof Inv as (E1 & E2 & E3 & E4 & E5 & E6 & E7 & E8 & E9 & E10 & E11).
    assert (La : last O obs = obs).
    { destruct O as [|x O'] using rev_ind; [discriminate|]. rewrite app_length in E2. simpl in E2.
      rewrite last_snoc. rewrite nth_error_snoc in E8.
      destruct (Nat.eqb_spec (length Ac) (length O')); [congruence|lia]. }
    rewrite La in E.
    destruct (EnvModel.step d (set_memory e (MState obs)) a (rnd step)) as [[e1 out]|] eqn:St1; [|discriminate].
    cbn [bind] in E. destruct (step_markov _ _ _ _ _ _ _ K St1) as (next & i & Ds & Ob). rewrite FO in Ob.
    subst next. pose proof (chain_extend _ _ _ _ _ _ _ _ _ _ _ _ _ _ _ _ _ _ _ Inv Sa Ds) as Ch.
    destruct (o_termination out) eqn:T.
    + injection E as <- <- <-. unfold genuine. rewrite !app_length. cbn [length].
      split; [lia|]. split; [lia|]. split; [now apply nth_error_ext_app|].
      exists (zs ++ [z1]), (terms ++ [true]). split; [now apply nth_error_ext_app|]. split; [exact Ch|].
      rewrite app_length. cbn [length]. split; [lia|]. split.
      * intros k Hk. rewrite nth_error_snoc in Hk. destruct (Nat.eqb_spec k (length terms)); [lia|].
        exfalso. eapply E10; eauto.
      * left. rewrite nth_error_snoc. destruct (Nat.eqb_spec (length Ac + 1 - 1) (length terms)); [auto|lia].
    + apply (IH d sv ms rnd s0 z0 _ _ _ _ _ _ _ (zs ++ [z1]) (terms ++ [false])) in E; auto.
      * unfold inv. rewrite !app_length, !nth_error_snoc. cbn [length].
        repeat split; try lia.
        -- destruct (Nat.eqb_spec 0 (length O)); [lia|auto].
        -- destruct (Nat.eqb_spec 0 (length zs)); [lia|auto].
        -- destruct (Nat.eqb_spec (length Ac + 1) (length O)); [auto|lia].
        -- destruct (Nat.eqb_spec (length Ac + 1) (length zs)); [auto|lia].
        -- intros k Hk. rewrite nth_error_snoc in Hk.
           destruct (Nat.eqb_spec k (length terms)); [discriminate|]. eapply E10; eauto.
        -- exact Ch.
      * intros m ->. rewrite app_length. simpl in *. apply Nat.leb_le in G. lia.
  - injection E as <- <- <-.
    destruct Inv as (E1 & E2 & E3 & E4 & E5 & E6 & E7 & E8 & E9 & E10 & E11).
    unfold genuine. repeat split; auto. exists zs, terms. repeat split; auto.
    + intros k Hk. exfalso. eapply E10; eauto.
    + right. destruct ms as [m|]; [|discriminate]. simpl in G. apply Nat.leb_gt in G.
      specialize (B m eq_refl). f_equal. lia.
Qed.

(** C09: what [rollout_episode] returns for a fully observable Markovian domain started from a
    state is a genuine run, cut at the right place. *)
Theorem C09_episode_genuine : forall fuel (d : dom) (sv : slv) s0 fa n ms rnd e z O Ac Va,
  d_kind d = Markovian -> fully_observable d ->
  rollout_episode MState fuel d sv (Some (MState s0)) fa n ms rnd e z = Ok (Some (O, Ac, Va)) ->
  genuine d sv rnd ms s0 (s_reset sv z) O Ac Va.
Proof.
  intros fuel d sv s0 fa [|n] ms rnd e z O Ac Va K FO E; [discriminate|].
  unfold rollout_episode in E. cbn zeta in E. rewrite K in E. cbn [last_state bind] in E.
  destruct (ep_loop MState fuel d sv ms rnd 1 (set_memory e (MState s0)) (s_reset sv z)
              (d_observe d s0 fa (rnd 0)) [d_observe d s0 fa (rnd 0)] [] []) as [r|] eqn:L; [|discriminate].
  cbn [bind] in E. injection E as ->. rewrite FO in L.
  eapply (ep_loop_genuine fuel d sv ms rnd s0 (s_reset sv z) _ _ _ _ _ _ _ [s_reset sv z] []) in L; eauto.
  - unfold inv. simpl. repeat split; auto; try (intros [|k]; discriminate).
  - intros m _. simpl. lia.
Qed.

(** C09: with a step limit [rollout_episode] always finishes. *)
Theorem C09_episode_bounded : forall m (d : dom) (sv : slv) rnd,
  (forall e1 a w, EnvModel.step d e1 a w <> Err OutOfFuel) ->
  forall fuel step e z obs O Ac Va, S m - step < fuel ->
  ep_loop MState fuel d sv (Some m) rnd step e z obs O Ac Va <> Err OutOfFuel.
Proof.
  intros m d sv rnd H. induction fuel as [|fuel IH]; intros step e z obs O Ac Va F; [lia|].
  cbn [ep_loop]. destruct (go_on (Some m) step) eqn:G; [|discriminate].
  simpl in G. apply Nat.leb_le in G.
  destruct (s_sample sv z obs (rnd step)) as [a z1].
  destruct (EnvModel.step d _ a (rnd step)) as [[e1 out]|x] eqn:St1; cbn [bind].
  - destruct (o_termination out); [discriminate|]. apply IH. lia.
  - intros X. injection X as ->. eapply H; eauto.
Qed.

End Episode.

(** Concrete domain: a counter from which action [a] adds [a]; it terminates at 5 or more.  The
    observation of [hidden] forgets the parity of the state. *)
Definition count_dom (k : mkind) (hidden : bool) : domain nat nat nat nat unit unit :=
  {| d_kind := k; d_state_reset := fun _ => 0;
     d_state_sample := fun m a _ =>
        match m with
        | VSeq l => Ok (last l 0 + a, a, Nat.leb 5 (last l 0 + a), tt)
        | VState s => Ok (s + a, a, Nat.leb 5 (s + a), tt)
        | VNone => Ok (a, a, false, tt)
        end;
     d_observe := fun s _ _ => if hidden then 2 * (s / 2) else s |}.
(** A policy that alternates between 1 and 2. *)
Definition alt_solver : @solver nat nat unit nat :=
  {| s_reset := fun _ => 1; s_sample := fun z _ _ => (z, 3 - z) |}.
Definition e_init : env nat := {| heap := []; memory := MNone |}.

Example C09_episode_ex :
  rollout_episode MState 10 (count_dom Markovian false) alt_solver (Some (MState 1)) None 1 None (fun _ => tt) e_init 0
  = Ok (Some ([1; 2; 4; 5], [1; 2; 1], [1; 2; 1])).
Proof. reflexivity. Qed.
Example C09_episode_ex_limit :
  rollout_episode MState 10 (count_dom Markovian false) alt_solver (Some (MState 1)) None 1 (Some 2) (fun _ => tt) e_init 0
  = Ok (Some ([1; 2; 4], [1; 2], [1; 2])).
Proof. reflexivity. Qed.
Example C09_rollout_ex : exists e' z' l1 l2,
  rollout 10 (count_dom Markovian false) alt_solver None None (Some 3) false 2 (fun _ _ => tt) e_init 0
  = Ok (e', z', [(0, l1); (0, l2)]) /\ length l1 = 3 /\ map fst l2 = [1; 2; 1].
Proof. do 4 eexists. split; [reflexivity|]. split; reflexivity. Qed.

(** C09 finding: asking [rollout] to save its results silently runs a single episode. *)
Theorem C09_saving_runs_one_episode_refuted : exists (d : domain nat nat nat nat unit unit) (sv : @solver nat nat unit nat) e' z' ls,
  rollout 10 d sv None None (Some 3) true 2 (fun _ _ => tt) e_init 0 = Ok (e', z', ls) /\ length ls = 1.
Proof. exists (count_dom Markovian false), alt_solver. do 3 eexists. split; reflexivity. Qed.
(** C09 finding: [rollout_episode] without a starting memory always fails. *)
Theorem C09_episode_needs_memory_refuted : exists (d : domain nat nat nat nat unit unit) (sv : @solver nat nat unit nat),
  rollout_episode MState 10 d sv None None 1 None (fun _ => tt) e_init 0 = Err UnboundLocalError.
Proof. exists (count_dom Markovian false), alt_solver. reflexivity. Qed.

(** C09 finding: on a partially observable domain [rollout_episode] does not follow the domain:
    it resets the hidden state to the observation before every step.  Here the domain stepped with
    the same actions from the same state terminates, the recorded episode never does. *)
Theorem C09_episode_partially_observable_refuted : exists O Ac Va e1 o1 e2 o2,
  let d := count_dom Markovian true in
  let always1 := {| s_reset := fun z : unit => z; s_sample := fun z (_ : nat) (_ : unit) => (1, z) |} in
  rollout_episode MState 10 d always1 (Some (MState 3)) None 1 (Some 7) (fun _ => tt) e_init tt
    = Ok (Some (O, Ac, Va)) /\
  length Ac = 7 /\ firstn 2 Ac = [1; 1] /\
  EnvModel.step d (set_memory e_init (MState 3)) 1 tt = Ok (e1, o1) /\
  EnvModel.step d e1 1 tt = Ok (e2, o2) /\ o_termination o2 = true.
Proof. do 7 eexists. repeat split; reflexivity. Qed.

(** C09 finding: with a Memory as starting point the second episode of [rollout] does not start
    where the first one did, because the first one has modified the caller's Memory. *)
Theorem C09_second_episode_start_refuted : exists e z l1 l2 o1 o2,
  rollout 10 (count_dom (Finite 2) false) alt_solver (Some (MRef 0)) None (Some 2) false 2 (fun _ _ => tt)
          {| heap := [(Some 2, [0; 1])]; memory := MNone |} 0 = Ok (e, z, [(o1, l1); (o2, l2)]) /\
  o1 = 1 /\ o2 = 4.
Proof. do 6 eexists. repeat split; reflexivity. Qed.

Print Assumptions C09_rollout_genuine.
Print Assumptions C09_rollout_cut.
Print Assumptions C09_rollout_bounded.
Print Assumptions C09_saving_runs_one_episode.
Print Assumptions C09_saving_runs_one_episode_refuted.
Print Assumptions C09_episode_needs_memory.
Print Assumptions C09_episode_needs_memory_refuted.
Print Assumptions C09_episode_genuine.
Print Assumptions C09_episode_bounded.
Print Assumptions C09_episode_partially_observable_refuted.
Print Assumptions C09_second_episode_start_refuted.
