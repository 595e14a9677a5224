(** C100-C104: Monte Carlo tree search. *)
From Coq Require Import List Bool Arith QArith Lia Lqa Permutation.
From Verif Require Import Py PyList PyMore MctsModel MctsSpec MctsProofs MctsTreeProofs MctsRunProofs MctsGcProofs.
Import ListNotations.
Local Open Scope nat_scope.

(** What is given to the solver: a domain, options, chance. *)
Record world (St Act : Type) := World {
  applicable : St -> list Act;
  next : St -> Act -> list (St * Q);
  reward : St -> Act -> St -> Q;
  terminal : St -> bool;
  heuristic : St -> Q * nat;
  bonus : nat -> nat -> Q;
  discount : Q;
  max_depth : nat;
  draw : nat -> list Q -> nat;
  policy : nat -> St -> res Act;
  sample : nat -> St -> Act -> St * Q * bool;
  shuf : forall X : Type, nat -> list X -> list X }.
Arguments applicable {St Act}. Arguments next {St Act}. Arguments reward {St Act}. Arguments terminal {St Act}.
Arguments heuristic {St Act}. Arguments bonus {St Act}. Arguments discount {St Act}. Arguments max_depth {St Act}.
Arguments draw {St Act}. Arguments policy {St Act}. Arguments sample {St Act}. Arguments shuf {St Act}.

Section Props.
Context {St Act : Type} {ES : PyEq St} {EA : PyEq Act}.
Notation solver := (@solver St Act).
Implicit Types (w : world St Act) (x : solver).

Definition wsolve w (late : nat -> bool) (budget : nat) x (s : St) : res solver :=
  solve (applicable w) (next w) (reward w) (terminal w) (heuristic w) (bonus w) (discount w) (max_depth w) (draw w) (policy w) (sample w) (shuf w)
    late budget x s.
Definition wnext_action w (late : nat -> bool) (budget : nat) (continuous garbage : bool) x (s : St) : res (solver * Act) :=
  next_action (applicable w) (next w) (reward w) (terminal w) (heuristic w) (bonus w) (discount w) (max_depth w) (draw w) (policy w) (sample w) (shuf w)
    late budget continuous garbage x s.
(** A call of solve: the clock, the number of rollouts allowed, the state. *)
Notation call := ((nat -> bool) * nat * St)%type.
Definition history w (calls : list call) : res solver :=
  foldM (fun x c => wsolve w (fst (fst c)) (snd (fst c)) x (snd c)) fresh_solver calls.

(** Draws and iteration orders are legal; next states are distributions with positive probabilities. *)
Record legal w : Prop := {
  f_draw : forall t ws, ws <> [] -> draw w t ws < length ws;
  f_shuf : forall X t l, Permutation (shuf w X t l) l;
  f_pos : forall s a k q, In a (applicable w s) -> In (k, q) (next w s a) -> (0 < q)%Q;
  f_next : forall s a, In a (applicable w s) -> next w s a <> [] }.
(** Moreover the rollout policy has an action for every state. *)
Definition fair w : Prop := legal w /\ forall t s, exists a, policy w t s = Ok a.

(** A set of values that one step of the domain and averaging do not leave. *)
Record closed w (P : Q -> Prop) : Prop := {
  c_ext : forall v u : Q, (v == u)%Q -> P v -> P u;
  c_zero : P 0%Q;
  c_avg : forall n v u, (0 < n -> P v) -> P u -> P (average n v u);
  c_step : forall s a s' q v, In a (applicable w s) -> In (s', q) (next w s a) -> P v -> P (reward w s a s' + discount w * v)%Q;
  c_sample : forall t s a s' r b v, sample w t s a = (s', r, b) -> P v -> P (r + discount w * v)%Q;
  c_heur : forall k, 0 < snd (heuristic w k) -> P (fst (heuristic w k)) }.

Notation good w P := (MctsRunProofs.good (applicable w) (next w) (reward w) (terminal w) P).
Notation sound w := (MctsSpec.sound (applicable w) (next w) (next w) (reward w) (terminal w)).

Lemma closed_true : forall w, closed w (fun _ => True).
Proof. intros w. constructor; auto. Qed.

Lemma linked_root : forall (g : list (St * snode)) roots s, linked roots g -> linked (roots ++ [s]) (if dmem g s then g else g ++ [(s, new_node)]).
Proof.
  intros g roots s L. destruct (dmem g s) eqn:D.
  - intros k Dk. eapply greach_incl; [|apply L, Dk]. intros y I. apply in_or_app. auto.
  - assert (G : forall k, greach g roots k -> greach (g ++ [(s, new_node)]) (roots ++ [s]) k).
    { intros k R. induction R as [k I|p b an k R IH (n & N & Da) I]; [apply G_root, in_or_app; auto|]. eapply G_step; [exact IH| |exact I]. exists n. split; [|exact Da].
      unfold node in *. rewrite dget_snoc; auto. destruct (pyeqb_spec s p) as [E|]; [|exact N]. subst p. exfalso.
      assert (dmem g s = true) by (apply dmem_get; eauto). congruence. }
    intros k Dk. apply dmem_get in Dk as [n N]. rewrite dget_snoc in N; auto. destruct (pyeqb_spec s k) as [E|Ne].
    + subst k. apply G_root, in_or_app. right. left. reflexivity.
    + apply G, L, dmem_get. eauto.
Qed.

Lemma wsolve_ok : forall w P late budget x s roots, fair w -> closed w P -> good w P roots (graph x) -> linked roots (graph x) ->
  exists x1, wsolve w late budget x s = Ok x1 /\ good w P (roots ++ [s]) (graph x1) /\ linked (roots ++ [s]) (graph x1) /\
    dmem (graph x1) s = true /\ current x1 = current x /\ prefix x1 = prefix x /\ nb_rollouts x1 <= budget /\ (forall j, j < nb_rollouts x1 -> late j = false) /\
    (nb_rollouts x1 = budget \/ late (nb_rollouts x1) = true) /\
    (forall k, dmem (graph x) k = true -> dmem (graph x1) k = true) /\
    (0 < nb_rollouts x1 -> 0 < max_depth w -> terminal w s = false -> applicable w s <> [] -> exists a, tried (graph x1) s a).
Proof.
  intros w P late budget x s roots F C G L. unfold wsolve, solve. set (g := if dmem (graph x) s then graph x else graph x ++ [(s, new_node)]).
  pose proof (root_good _ _ _ _ _ _ _ s G) as G1. pose proof (linked_root _ _ s L) as L1. fold g in G1, L1.
  assert (Dg : dmem g s = true) by (apply (o_roots _ _ _ _ _ _ _ (g_sound _ _ _ _ _ _ _ G1)), in_or_app; right; left; reflexivity).
  destruct F as [[F1 F2 F3 F4] F5], C as [C1 C2 C3 C4 C5 C6].
  destruct (rollouts_ok (applicable w) (next w) (reward w) (terminal w) (heuristic w) (bonus w) (discount w) (max_depth w) (draw w) (policy w) (sample w) (shuf w)
    late P F1 F2 F3 F4 F5 C6 C1 C2 C3 C4 C5 (roots ++ [s]) budget (MC g (tick x) (current x) (prefix x) 0) s G1 Dg) as (x1 & E & G2 & L2 & Cu & Pr & B & Q1 & W & T).
  cbn [graph current prefix nb_rollouts] in *. exists x1. split; [exact E|]. split; auto. split; [eapply linked_later; eauto|]. split; [eapply dmem_later; eauto|].
  split; auto. split; auto. split; [lia|]. split; [intros; apply Q1; lia|]. split; [exact W|]. split.
  - intros k Dk. eapply dmem_later; [exact L2|]. unfold g. destruct (dmem (graph x) s) eqn:Ds; auto. apply dmem_get in Dk as [n N]. apply dmem_get. rewrite dget_snoc; auto.
    destruct (pyeqb s k); eauto.
  - intros Nb Md Ts Ap. apply T; auto. intros n N. destruct (o_term _ _ _ _ _ _ _ (g_sound _ _ _ _ _ _ _ G1) s n N) as [E1|[E1 _]]; congruence.
Qed.

Lemma history_good : forall w P calls, fair w -> closed w P -> exists x, history w calls = Ok x /\ good w P (map snd calls) (graph x) /\ linked (map snd calls) (graph x).
Proof.
  intros w P calls F C. unfold history.
  destruct (@foldM_total _ _ (fun x (c : call) => wsolve w (fst (fst c)) (snd (fst c)) x (snd c))
    (fun done x => good w P (map snd done) (graph x) /\ linked (map snd done) (graph x)) calls fresh_solver) as (x & E & H).
  - split; [apply empty_good|]. intros k D. discriminate.
  - intros l0 c l1 x _ [G L]. destruct (wsolve_ok w P (fst (fst c)) (snd (fst c)) x (snd c) _ F C G L) as (x1 & E & G1 & L1 & _). exists x1. split; [exact E|].
    rewrite map_app. auto.
  - exists x. tauto.
Qed.
Lemma history_inv : forall w P calls x, fair w -> closed w P -> history w calls = Ok x -> good w P (map snd calls) (graph x) /\ linked (map snd calls) (graph x).
Proof. intros w P calls x F C E. destruct (history_good w P calls F C) as (x' & E' & H). rewrite E in E'. injection E' as <-. exact H. Qed.

(** * C100: the search graph *)
(** After any calls of solve the search graph describes the domain: the states explored are reachable from the states asked for, through recorded outcomes;
    the actions of a state are its applicable actions; the outcomes of an action are its next states with their probabilities and rewards;
    parents are exact; an action has outcomes exactly when it has been visited. *)
Theorem C100_graph : forall w calls x, fair w -> history w calls = Ok x ->
  sound w (map snd calls) (graph x) /\ linked (map snd calls) (graph x) /\
  forall s a an, anode_of (graph x) s a an -> (0 < a_n an <-> a_out an <> []).
Proof.
  intros w calls x F E. destruct (history_inv w _ calls x F (closed_true w) E) as [[So Vo Va _] L]. split; auto. split; auto. intros s a an K. split; eauto.
Qed.

(** * C101: termination of solve *)
(** [solve] always returns; it makes all the rollouts it may make unless the clock stops it, and stops at the first rollout for which the clock says so. *)
Theorem C101_total : forall w calls late budget s, fair w -> exists x x1, history w calls = Ok x /\ wsolve w late budget x s = Ok x1 /\
  nb_rollouts x1 <= budget /\ (forall j, j < nb_rollouts x1 -> late j = false) /\ (nb_rollouts x1 = budget \/ late (nb_rollouts x1) = true).
Proof.
  intros w calls late budget s F. destruct (history_good w _ calls F (closed_true w)) as (x & E & G & L).
  destruct (wsolve_ok w _ late budget x s _ F (closed_true w) G L) as (x1 & E1 & _ & _ & _ & _ & _ & B & Q1 & W & _). exists x, x1. auto.
Qed.
(** States once explored stay in the graph. *)
Theorem C101_kept : forall w calls late budget s x x1 k, fair w -> history w calls = Ok x -> wsolve w late budget x s = Ok x1 ->
  dmem (graph x) k = true -> dmem (graph x1) k = true.
Proof.
  intros w calls late budget s x x1 k F E E1 D. destruct (history_inv w _ calls x F (closed_true w) E) as [G L].
  destruct (wsolve_ok w _ late budget x s _ F (closed_true w) G L) as (x1' & E1' & H). rewrite E1 in E1'. injection E1' as <-. apply H. exact D.
Qed.

(** * C102: the answer *)
Lemma best_ok : forall w P roots x s, fair w -> good w P roots (graph x) ->
  match best (shuf w) x s with
  | None => forall a, ~ tried (graph x) s a
  | Some (a, an) => anode_of (graph x) s a an /\ 0 < a_n an /\ forall b bn, anode_of (graph x) s b bn -> 0 < a_n bn -> (a_val bn <= a_val an)%Q
  end.
Proof.
  intros w P roots x s F [So _ _ _]. unfold best. destruct (dget (graph x) s) as [n|] eqn:N.
  - pose proof (acts_nodup _ _ _ _ _ _ _ _ So N) as Nd. pose proof (select_ok a_val (shuf w _ (tick x) (s_acts n))) as Sel.
    assert (In0 : forall b bn, In (b, bn) (shuf w _ (tick x) (s_acts n)) <-> dget (s_acts n) b = Some bn).
    { intros b bn. split; intros I.
      - apply In_dget; auto. eapply Permutation_in; [apply (f_shuf w (proj1 F))|exact I].
      - eapply Permutation_in; [apply Permutation_sym, (f_shuf w (proj1 F))|]. now apply dget_In. }
    destruct (select a_val (shuf w _ (tick x) (s_acts n))) as [[a an]|].
    + destruct Sel as (I & L & M). cbn [snd] in *. split; [exists n; split; [exact N|now apply In0]|]. split; auto. intros b bn (n' & N' & D) Lb.
      unfold node in N'. rewrite N in N'. injection N' as <-. apply (M (b, bn)); auto. now apply In0.
    + intros a (an & (n' & N' & D) & L). unfold node in N'. rewrite N in N'. injection N' as <-. pose proof (Sel (a, an)) as H. cbn in H. rewrite H in L; [lia|]. now apply In0.
  - intros a (an & (n' & N' & D) & L). unfold node in N'. congruence.
Qed.

(** After a call of solve from a state that is not terminal and has applicable actions, with at least one rollout and a positive depth,
    the solution is defined for that state; the action answered is applicable, has been tried, and no tried action has a larger average; its average is the value answered. *)
Theorem C102_answer : forall w calls late budget s x x1, fair w -> history w calls = Ok x -> wsolve w late budget x s = Ok x1 ->
  0 < nb_rollouts x1 -> 0 < max_depth w -> terminal w s = false -> applicable w s <> [] ->
  is_solution_defined_for (shuf w) x1 s = true /\
  exists x2 a an, get_best_action (shuf w) false x1 s = Ok (x2, a) /\ graph x2 = graph x1 /\ prefix x2 = prefix x1 ++ [a] /\ current x2 = Some s /\
    In a (applicable w s) /\ anode_of (graph x1) s a an /\ 0 < a_n an /\ get_best_value (shuf w) x1 s = Some (a_val an) /\
    forall b bn, anode_of (graph x1) s b bn -> 0 < a_n bn -> (a_val bn <= a_val an)%Q.
Proof.
  intros w calls late budget s x x1 F E E1 Nb Md Ts Ap. destruct (history_inv w _ calls x F (closed_true w) E) as [G L].
  destruct (wsolve_ok w _ late budget x s _ F (closed_true w) G L) as (x1' & E1' & G1 & L1 & _ & _ & _ & _ & _ & _ & _ & T). rewrite E1 in E1'. injection E1' as <-.
  pose proof (best_ok w _ _ x1 s F G1) as B. destruct (T Nb Md Ts Ap) as [b Tb]. unfold is_solution_defined_for, get_best_action, get_best_value.
  destruct (best (shuf w) x1 s) as [[a an]|]; [|destruct (B b Tb)]. destruct B as (K & La & M). split; [reflexivity|].
  exists (MC (graph x1) (tick x1) (Some s) (prefix x1 ++ [a]) (nb_rollouts x1)), a, an. split; [reflexivity|]. cbn [graph prefix current]. split; auto. split; auto. split; auto.
  split; [eapply act_applicable; [exact (g_sound _ _ _ _ _ _ _ G1)|exact K]|]. auto.
Qed.
(** The policy lists each explored state with a tried action, once, with an applicable action of largest average. *)
Theorem C102_policy : forall w calls x, fair w -> history w calls = Ok x ->
  NoDup (map fst (get_policy (shuf w) x)) /\
  (forall s, In s (map fst (get_policy (shuf w) x)) <-> exists a an, anode_of (graph x) s a an /\ 0 < a_n an) /\
  (forall s a v, In (s, (a, v)) (get_policy (shuf w) x) -> In a (applicable w s) /\ get_best_value (shuf w) x s = Some v /\
     forall b bn, anode_of (graph x) s b bn -> 0 < a_n bn -> (a_val bn <= v)%Q).
Proof.
  intros w calls x F E. destruct (history_inv w _ calls x F (closed_true w) E) as [G L]. pose proof (fun s => best_ok w _ (map snd calls) x s F G) as B. unfold get_policy.
  pose proof (o_nodup _ _ _ _ _ _ _ (g_sound _ _ _ _ _ _ _ G)) as Nd.
  set (row := fun p : St * snode => match best (shuf w) x (fst p) with Some (a, an) => [(fst p, (a, a_val an))] | None => [] end).
  assert (Row : forall l s, In s (map fst (flat_map row l)) <-> In s (map fst l) /\ best (shuf w) x s <> None).
  { intros l s. induction l as [|[k n] l IH]; [cbn; tauto|]. cbn [flat_map map]. rewrite map_app, in_app_iff, IH. unfold row at 1. cbn [fst].
    destruct (best (shuf w) x k) as [[a an]|] eqn:Ek; cbn [map In fst].
    - split; [intros [[<-|[]]|H]; [split; [auto|congruence]|tauto]|]. intros [[<-|H] Hb]; auto.
    - split; [intros [[]|H]; tauto|]. intros [[<-|H] Hb]; [contradiction|auto]. }
  split; [|split].
  - clear - Nd Row. unfold dkeys in Nd. induction (graph x) as [|[k n] l IH]; [constructor|]. cbn [flat_map map fst] in *. inversion_clear Nd as [|? ? N1 N2].
    rewrite map_app. unfold row at 1. cbn [fst]. destruct (best (shuf w) x k) as [[a an]|]; cbn [map app fst]; [|auto].
    constructor; [|auto]. intros I. apply Row in I. tauto.
  - intros s. rewrite Row. specialize (B s). destruct (best (shuf w) x s) as [[a an]|] eqn:Eb.
    + destruct B as (K & La & _). split; [intros _; eauto|]. intros _. split; [|congruence]. destruct K as (n & N & _). apply dmem_true, dmem_get. exists n. exact N.
    + split; [tauto|]. intros (a & an & K & La). exfalso. apply (B a). exists an. auto.
  - intros s a v I. apply in_flat_map in I as ([k n] & _ & I). unfold row in I. cbn [fst] in I. specialize (B k). destruct (best (shuf w) x k) as [[a' an]|] eqn:Eb; [|destruct I].
    destruct I as [I|[]]. injection I as -> <- <-. destruct B as (K & La & M). split; [eapply act_applicable; [exact (g_sound _ _ _ _ _ _ _ G)|exact K]|].
    unfold get_best_value. rewrite Eb. auto.
Qed.

(** In a fully expanded state the tree policy goes on with a next state of an action of largest upper confidence bound. *)
Theorem C102_descent : forall w calls x s n k, fair w -> history w calls = Ok x -> node (graph x) s n -> s_exp n = true -> s_term n = false -> applicable w s <> [] ->
  exists a an s', anode_of (graph x) s a an /\ In s' (map fst (next w s a)) /\
    (forall b bn, anode_of (graph x) s b bn -> (a_val bn + bonus w (s_n n) (a_n bn) <= a_val an + bonus w (s_n n) (a_n an))%Q) /\
    descend (applicable w) (next w) (reward w) (terminal w) (heuristic w) (bonus w) (draw w) (shuf w) (S k) (graph x) (tick x) s =
    descend (applicable w) (next w) (reward w) (terminal w) (heuristic w) (bonus w) (draw w) (shuf w) k (graph x) (S (tick x)) s'.
Proof.
  intros w calls x s n k F E N X T Ap. destruct (history_inv w _ calls x F (closed_true w) E) as [[So Vo Va _] L]. cbn [descend]. unfold expander.
  rewrite (proj2 (dgetE_ok (graph x) s n) N). cbn [bind]. rewrite T, X. cbn [bind]. rewrite (proj2 (dgetE_ok (graph x) s n) N). cbn [bind].
  pose proof (acts_nodup _ _ _ _ _ _ _ _ So N) as Nd. pose proof (select_ok (ucb (bonus w) n) (shuf w _ (tick x) (s_acts n))) as Sel.
  assert (In0 : forall b bn, In (b, bn) (shuf w _ (tick x) (s_acts n)) <-> dget (s_acts n) b = Some bn).
  { intros b bn. split; intros I.
    - apply In_dget; auto. eapply Permutation_in; [apply (f_shuf w (proj1 F))|exact I].
    - eapply Permutation_in; [apply Permutation_sym, (f_shuf w (proj1 F))|]. now apply dget_In. }
  assert (Vis : forall b bn, dget (s_acts n) b = Some bn -> 0 < a_n bn).
  { intros b bn D. apply (Va s b bn); [exists n; auto|]. exact (o_exp _ _ _ _ _ _ _ So s n b bn N X D). }
  destruct (select (ucb (bonus w) n) (shuf w _ (tick x) (s_acts n))) as [[a an]|].
  - destruct Sel as (I & La & M). cbn [snd] in *. apply In0 in I. assert (K : anode_of (graph x) s a an) by (exists n; auto).
    pose proof (Vo s a an K La) as O. destruct (pick_ok (bonus w) (draw w) (shuf w) (f_draw w (proj1 F)) (f_shuf w (proj1 F)) _ (tick x) (weights an) (map fst (a_out an))) as (s' & Ps & Is).
    { unfold weights. now rewrite !map_length. } { intros Z. apply map_eq_nil in Z. contradiction. }
    exists a, an, s'. split; auto. split.
    + destruct (o_out _ _ _ _ _ _ _ So s a an K) as [Z|(_ & C & _)]; [contradiction|]. apply C. exact Is.
    + split; [|rewrite Ps; reflexivity]. intros b bn (n' & N' & D). unfold node in *. assert (n' = n) by congruence. subst n'. apply (M (b, bn)); [now apply In0|cbn; eauto].
  - exfalso. destruct (s_acts n) as [|[b bn] l] eqn:Ea; [apply Ap; exact (o_expg _ _ _ _ _ _ _ So s n N X Ea)|].
    pose proof (Vis b bn) as Vb. pose proof (Sel (b, bn)) as Sb. cbn [snd] in Sb. rewrite Sb in Vb; [|apply In0]; cbn [dget] in *; rewrite pyeqb_refl in *; [|reflexivity].
    specialize (Vb eq_refl). lia.
Qed.

(** * C103: bounds *)
(** A simulated execution: at most [k] steps of the rollout policy; it ends early only where the domain says so. *)
Inductive episode w : nat -> nat -> St -> list Q -> Prop :=
| Ep_depth t s : episode w 0 t s []
| Ep_end k t s a s' r : policy w t s = Ok a -> sample w (S t) s a = (s', r, true) -> episode w (S k) t s [r]
| Ep_step k t s a s' r l : policy w t s = Ok a -> sample w (S t) s a = (s', r, false) -> episode w k (S (S t)) s' l -> episode w (S k) t s (r :: l).
(** The discounted sum of rewards. *)
Fixpoint return_of (gamma : Q) (l : list Q) : Q := match l with [] => 0%Q | r :: l => (r + gamma * return_of gamma l)%Q end.
(** The value of a simulation is the discounted return of an execution of the rollout policy, within the depth that remains. *)
Theorem C103_simulation : forall w k t s t' v, rollout (discount w) (policy w) (sample w) k t s 1%Q 0%Q = Ok (t', v) ->
  exists l, episode w k t s l /\ t' = t + 2 * length l /\ (v == return_of (discount w) l)%Q.
Proof.
  intros w k t s t' v H.
  assert (G : forall k t s gamma acc t' v, rollout (discount w) (policy w) (sample w) k t s gamma acc = Ok (t', v) ->
    exists l, episode w k t s l /\ t' = t + 2 * length l /\ (v == acc + gamma * return_of (discount w) l)%Q).
  { clear. induction k as [|k IH]; intros t s gamma acc t' v H; cbn [rollout] in H.
    - injection H as <- <-. exists []. split; [constructor|]. split; [cbn; lia|]. cbn. ring.
    - destruct (policy w t s) as [a|e] eqn:Ep; [|discriminate]. cbn [bind] in H. destruct (sample w (S t) s a) as [[s' r] stop] eqn:Es. destruct stop.
      + injection H as <- <-. exists [r]. split; [eapply Ep_end; eauto|]. split; [cbn; lia|]. cbn. ring.
      + apply IH in H as (l & El & -> & V). exists (r :: l). split; [eapply Ep_step; eauto|]. split; [cbn [length]; lia|]. cbn [return_of]. rewrite V. ring. }
  apply G in H as (l & El & Et & V). exists l. split; auto. split; auto. rewrite V. ring.
Qed.

Lemma average_spec : forall n v (x : Q), (average n v x * inject_Z (Z.of_nat (S n)) == inject_Z (Z.of_nat n) * v + x)%Q.
Proof.
  intros n v x. unfold average. field. intros Z. assert (H : (inject_Z (Z.of_nat (S n)) == inject_Z 0)%Q) by (rewrite Z; reflexivity).
  unfold Qeq in H. cbn in H. lia.
Qed.
Lemma nat_Q : forall n, (0 <= inject_Z (Z.of_nat n))%Q /\ (inject_Z (Z.of_nat (S n)) == inject_Z (Z.of_nat n) + 1)%Q.
Proof.
  intros n. split.
  - unfold Qle. cbn. lia.
  - rewrite Nat2Z.inj_succ. unfold Z.succ. rewrite inject_Z_plus. reflexivity.
Qed.
Lemma average_le : forall n v (x : Q) B, (0 < n -> (v <= B)%Q) -> (x <= B)%Q -> (average n v x <= B)%Q.
Proof.
  intros n v x B V X. pose proof (average_spec n v x) as S1. destruct (nat_Q n) as [N0 N1]. rewrite N1 in S1. set (m := inject_Z (Z.of_nat n)) in *.
  assert (M : (m * v <= m * B)%Q).
  { destruct n as [|n]; [unfold m; change (inject_Z (Z.of_nat 0)) with 0%Q; lra|]. apply Qmult_le_l; [unfold m, Qlt; cbn; lia|]. apply V. lia. }
  apply Qmult_le_r with (z := (m + 1)%Q); [lra|]. rewrite S1. lra.
Qed.
Lemma average_ge : forall n v (x : Q) B, (0 < n -> (B <= v)%Q) -> (B <= x)%Q -> (B <= average n v x)%Q.
Proof.
  intros n v x B V X. pose proof (average_spec n v x) as S1. destruct (nat_Q n) as [N0 N1]. rewrite N1 in S1. set (m := inject_Z (Z.of_nat n)) in *.
  assert (M : (m * B <= m * v)%Q).
  { destruct n as [|n]; [unfold m; change (inject_Z (Z.of_nat 0)) with 0%Q; lra|]. apply Qmult_le_l; [unfold m, Qlt; cbn; lia|]. apply V. lia. }
  apply Qmult_le_r with (z := (m + 1)%Q); [lra|]. rewrite S1. lra.
Qed.

(** When no reward, on a transition or drawn during a simulation, can lift a future worth [B] above [B], every value of the search, and every value answered, is at most [B]. *)
Theorem C103_upper : forall w B calls x, fair w -> (0 <= discount w)%Q -> (0 <= B)%Q ->
  (forall s a s' q, In a (applicable w s) -> In (s', q) (next w s a) -> (reward w s a s' + discount w * B <= B)%Q) ->
  (forall t s a s' r b, sample w t s a = (s', r, b) -> (r + discount w * B <= B)%Q) ->
  (forall k, 0 < snd (heuristic w k) -> (fst (heuristic w k) <= B)%Q) -> history w calls = Ok x ->
  (forall s n, node (graph x) s n -> 0 < s_n n -> (s_val n <= B)%Q) /\
  (forall s a an, anode_of (graph x) s a an -> 0 < a_n an -> (a_val an <= B)%Q) /\
  (forall s v, get_best_value (shuf w) x s = Some v -> (v <= B)%Q).
Proof.
  intros w B calls x F D0 B0 R1 R2 H E. assert (C : closed w (fun v => (v <= B)%Q)).
  { assert (Dm : forall v, (v <= B)%Q -> (discount w * v <= discount w * B)%Q) by (intros v V; rewrite !(Qmult_comm (discount w)); apply Qmult_le_compat_r; auto).
    constructor; auto.
    - intros y z Ey V. now rewrite <- Ey.
    - intros n v y. apply average_le.
    - intros s a s' q v I1 I2 V. pose proof (R1 s a s' q I1 I2). pose proof (Dm v V). lra.
    - intros t s a s' r b v Es V. pose proof (R2 t s a s' r b Es). pose proof (Dm v V). lra. }
  destruct (history_inv w _ calls x F C E) as [G L]. destruct (g_bound _ _ _ _ _ _ _ G) as [B1 B2]. split; auto. split; [exact B2|].
  intros s v V. pose proof (best_ok w _ _ x s F G) as Bo. unfold get_best_value in V. destruct (best (shuf w) x s) as [[a an]|]; [|discriminate].
  cbn in V. injection V as <-. destruct Bo as (K & La & _). eapply B2; eauto.
Qed.
(** The same from below. *)
Theorem C103_lower : forall w B calls x, fair w -> (0 <= discount w)%Q -> (B <= 0)%Q ->
  (forall s a s' q, In a (applicable w s) -> In (s', q) (next w s a) -> (B <= reward w s a s' + discount w * B)%Q) ->
  (forall t s a s' r b, sample w t s a = (s', r, b) -> (B <= r + discount w * B)%Q) ->
  (forall k, 0 < snd (heuristic w k) -> (B <= fst (heuristic w k))%Q) -> history w calls = Ok x ->
  (forall s n, node (graph x) s n -> 0 < s_n n -> (B <= s_val n)%Q) /\
  (forall s a an, anode_of (graph x) s a an -> 0 < a_n an -> (B <= a_val an)%Q) /\
  (forall s v, get_best_value (shuf w) x s = Some v -> (B <= v)%Q).
Proof.
  intros w B calls x F D0 B0 R1 R2 H E. assert (C : closed w (fun v => (B <= v)%Q)).
  { assert (Dm : forall v, (B <= v)%Q -> (discount w * B <= discount w * v)%Q) by (intros v V; rewrite !(Qmult_comm (discount w)); apply Qmult_le_compat_r; auto).
    constructor; auto.
    - intros y z Ey V. now rewrite <- Ey.
    - intros n v y. apply average_ge.
    - intros s a s' q v I1 I2 V. pose proof (R1 s a s' q I1 I2). pose proof (Dm v V). lra.
    - intros t s a s' r b v Es V. pose proof (R2 t s a s' r b Es). pose proof (Dm v V). lra. }
  destruct (history_inv w _ calls x F C E) as [G L]. destruct (g_bound _ _ _ _ _ _ _ G) as [B1 B2]. split; auto. split; [exact B2|].
  intros s v V. pose proof (best_ok w _ _ x s F G) as Bo. unfold get_best_value in V. destruct (best (shuf w) x s) as [[a an]|]; [|discriminate].
  cbn in V. injection V as <-. destruct Bo as (K & La & _). eapply B2; eauto.
Qed.

(** * C104: planning online *)
(** The loop of a rollout: in each state met the solver is asked for an action. *)
Notation turn := ((nat -> bool) * nat * bool * St)%type.
Definition online w (garbage : bool) (turns : list turn) : res (solver * list Act) :=
  foldM (fun acc (c : turn) => let '(late, budget, continuous, s) := c in
           let* xa := wnext_action w late budget continuous garbage (fst acc) s in Ok (fst xa, snd acc ++ [snd xa])) (fresh_solver, []) turns.

(** What holds between two questions. *)
Definition ready w (P : Q -> Prop) (done : list St) x : Prop :=
  match rev done with
  | [] => graph x = [] /\ current x = None
  | c :: _ => current x = Some c /\ dmem (graph x) c = true /\ good w P [c] (graph x) /\ linked [c] (graph x)
  end.

Lemma ask_ok : forall w P late budget continuous done x s, fair w -> closed w P -> ready w P done x -> (forall c, In c done -> terminal w c = false) ->
  0 < budget -> late 0 = false -> 0 < max_depth w -> terminal w s = false -> applicable w s <> [] ->
  exists x1 a, wnext_action w late budget continuous true x s = Ok (x1, a) /\ In a (applicable w s) /\ ready w P (done ++ [s]) x1 /\ prefix x1 = prefix x ++ [a].
Proof.
  intros w P late budget continuous done x s F C Rd Td Bu La Md Ts Ap. unfold wnext_action, next_action.
  set (roots := match rev done with [] => [] | c :: _ => [c] end).
  assert (Start : good w P roots (graph x) /\ linked roots (graph x)).
  { unfold ready in Rd. unfold roots. destruct (rev done) as [|c l]; [|tauto]. destruct Rd as [-> _]. split; [apply empty_good|]. intros k D. discriminate. }
  destruct Start as [G L].
  assert (Mid : exists x1, (if continuous || negb (is_solution_defined_for (shuf w) x s) then wsolve w late budget x s else Ok x) = Ok x1 /\
    good w P (roots ++ [s]) (graph x1) /\ linked (roots ++ [s]) (graph x1) /\ dmem (graph x1) s = true /\ current x1 = current x /\ prefix x1 = prefix x /\
    (forall k, dmem (graph x) k = true -> dmem (graph x1) k = true) /\ exists a, tried (graph x1) s a).
  { destruct (continuous || negb (is_solution_defined_for (shuf w) x s)) eqn:Cn.
    - destruct (wsolve_ok w P late budget x s roots F C G L) as (x1 & E1 & G1 & L1 & D1 & Cu & Pr & B & Q1 & W & Kp & T). exists x1. split; [exact E1|].
      split; auto. split; auto. split; auto. split; auto. split; auto. split; auto. apply T; auto. destruct W as [W|W]; [lia|]. destruct (nb_rollouts x1) eqn:Nb; [|lia].
      congruence.
    - apply orb_false_iff in Cn as [_ Cn]. apply negb_false_iff in Cn. exists x. split; [reflexivity|]. unfold is_solution_defined_for in Cn.
      pose proof (best_ok w _ _ x s F G) as Bo. destruct (best (shuf w) x s) as [[a an]|]; [|discriminate]. destruct Bo as (K & Lan & _).
      assert (Ds : dmem (graph x) s = true) by (destruct K as (n & N & _); apply dmem_get; exists n; exact N).
      pose proof (root_good _ _ _ _ _ _ _ s G) as G1. pose proof (linked_root _ _ s L) as L1. rewrite Ds in G1, L1. split; auto. split; auto. split; auto. split; auto.
      split; auto. split; auto. exists a, an. auto. }
  destruct Mid as (x1 & E1 & G1 & L1 & D1 & Cu & Pr & Kp & b & Tb). unfold wsolve in E1. rewrite E1. cbn [bind]. unfold get_best_action.
  pose proof (best_ok w _ _ x1 s F G1) as Bo. destruct (best (shuf w) x1 s) as [[a an]|]; [|destruct (Bo b Tb)]. destruct Bo as (K & Lan & _).
  assert (Ha : In a (applicable w s)) by (eapply act_applicable; [exact (g_sound _ _ _ _ _ _ _ G1)|exact K]).
  rewrite Cu. unfold ready in Rd. destruct (rev done) as [|c dl] eqn:Er.
  - destruct Rd as [Eg ->]. cbn [bind]. eexists _, a. split; [reflexivity|]. split; auto. split; [|cbn; congruence]. unfold ready. rewrite rev_unit. cbn [current graph].
    split; auto.
  - destruct Rd as (-> & Dc & _). pose proof (g_sound _ _ _ _ _ _ _ G1) as So1.
    assert (Nd : forall k n, node (graph x1) k n -> NoDup (dkeys (s_acts n))) by (intros k n N; eapply acts_nodup; eauto).
    pose proof (o_closed _ _ _ _ _ _ _ So1) as Cl.
    destruct (subgraph_ok (graph x1) Nd Cl c (Kp c Dc)) as (r & Er1 & Hr). destruct (subgraph_ok (graph x1) Nd Cl s D1) as (k & Ek & Hk).
    rewrite Er1. cbn [bind]. rewrite Ek. cbn [bind]. eexists _, a. split; [reflexivity|]. split; auto. split; [|cbn; congruence].
    assert (Tr : forall y, In y (roots ++ [s]) -> terminal w y = false).
    { intros y Iy. apply in_app_or in Iy as [Iy|[<-|[]]]; auto. unfold roots in Iy. destruct Iy as [<-|[]]. apply Td. apply in_rev. rewrite Er. left. reflexivity. }
    destruct (collect_ok _ _ _ _ P (roots ++ [s]) (graph x1) c s r k G1 L1 D1 Tr Hr Hk) as (G2 & L2 & Dm & _).
    unfold ready. rewrite rev_unit. cbn [current graph]. split; auto. split; [apply Dm, G_root; left; reflexivity|]. auto.
Qed.

(** Asked in states that are not terminal and have actions, with garbage collection, the solver always answers with an applicable action, whatever the states;
    after each answer the graph holds exactly what is connected to the last state, and still describes the domain. *)
Theorem C104_online : forall w turns, fair w -> 0 < max_depth w ->
  (forall late budget continuous s, In (late, budget, continuous, s) turns -> 0 < budget /\ late 0 = false /\ terminal w s = false /\ applicable w s <> []) ->
  exists x acts, online w true turns = Ok (x, acts) /\ Forall2 (fun (c : turn) a => In a (applicable w (snd c))) turns acts /\ prefix x = acts /\
    forall s, last (map (fun c => Some (snd c)) turns) None = Some s -> current x = Some s /\ sound w [s] (graph x) /\ linked [s] (graph x).
Proof.
  intros w turns F Md Ht. unfold online.
  destruct (@foldM_total _ _ (fun acc (c : turn) => let '(late, budget, continuous, s) := c in
           let* xa := wnext_action w late budget continuous true (fst acc) s in Ok (fst xa, snd acc ++ [snd xa]))
    (fun done acc => ready w (fun _ => True) (map snd done) (fst acc) /\ Forall2 (fun (c : turn) a => In a (applicable w (snd c))) done (snd acc) /\ prefix (fst acc) = snd acc)
    turns (fresh_solver, [])) as ([x acts] & E & Rd & Fa & Pr).
  - split; [split; reflexivity|]. split; [constructor|reflexivity].
  - intros l0 [[[late budget] continuous] s] l1 [x acts] El (Rd & Fa & Pr). cbn [fst snd] in *.
    destruct (Ht late budget continuous s) as (Bu & La & Ts & Ap); [rewrite El; apply in_or_app; right; left; reflexivity|].
    destruct (ask_ok w _ late budget continuous (map snd l0) x s F (closed_true w) Rd) as (x1 & a & E1 & Ha & Rd1 & Pr1); auto.
    { intros c Ic. apply in_map_iff in Ic as ([[[lt bu] co] c'] & <- & Ic). cbn. apply (Ht lt bu co c'). rewrite El. apply in_or_app. auto. }
    exists (x1, acts ++ [a]). rewrite E1. split; [reflexivity|]. cbn [fst snd]. rewrite map_app. split; auto. split; [apply Forall2_app; auto|congruence].
  - exists x, acts. split; auto. cbn [fst snd] in *. split; auto. split; auto. intros s Ls.
    destruct (exists_last (l := turns)) as (l0 & c & El). { intros Z. rewrite Z in Ls. discriminate. }
    rewrite El, map_app in Ls. cbn [map] in Ls. rewrite last_last in Ls. injection Ls as <-. rewrite El, map_app in Rd. cbn [map] in Rd. unfold ready in Rd. rewrite rev_unit in Rd. destruct Rd as (Cu & _ & G & L).
    split; auto. split; auto. exact (g_sound _ _ _ _ _ _ _ G).
Qed.
End Props.

(** * Examples *)
(** A domain given by a list of next states. *)
Definition small (nx : nat -> nat -> list (nat * Q)) (rew : nat -> nat -> nat -> Q) (term : nat -> bool) (pol : nat -> nat -> res nat) (depth : nat) : world nat nat :=
  World nat nat (fun s => filter (fun a => match nx s a with [] => false | _ => true end) [0; 1]) nx rew term (fun _ => (0%Q, 0)) (fun n m => inject_Z (Z.of_nat n) / inject_Z (Z.of_nat m))%Q
    (1 # 2) depth (fun t ws => t mod length ws) pol (fun _ s a => match nx s a with (s', _) :: _ => (s', rew s a s', term s') | [] => (s, 0%Q, true) end) (fun _ _ l => l).
Lemma small_legal : forall nx rew term pol depth, (forall s a k q, In (k, q) (nx s a) -> (0 < q)%Q) -> legal (small nx rew term pol depth).
Proof.
  intros nx rew term pol depth Pq. constructor; cbn [small draw shuf applicable next].
  - intros t ws N. apply Nat.mod_upper_bound. destruct ws; [congruence|discriminate].
  - intros X t l. apply Permutation_refl.
  - intros s a k q _ I. eauto.
  - intros s a I. apply filter_In in I as [_ I]. destruct (nx s a); [discriminate|congruence].
Qed.

(** From 0, action 0 leads to 1 or 2, action 1 to 2; 1 goes back to 0; 2 is terminal. *)
Definition next_ex (s a : nat) : list (nat * Q) :=
  match s, a with
  | 0, 0 => [(1, (1 # 4)%Q); (2, (1 # 2)%Q); (1, (1 # 4)%Q)]
  | 0, 1 => [(2, 1%Q)]
  | 1, 0 => [(0, 1%Q)]
  | 2, 0 => [(2, 1%Q)]
  | _, _ => []
  end.
Definition reward_ex (s a s' : nat) : Q := match s, a, s' with 0, 0, 2 => 1%Q | 0, 1, _ => (1 # 2)%Q | _, _, _ => 0%Q end.
Definition world_ex : world nat nat := small next_ex reward_ex (Nat.eqb 2) (fun _ _ => Ok 0) 3.
Lemma next_ex_pos : forall s a k q, In (k, q) (next_ex s a) -> (0 < q)%Q.
Proof.
  intros s a k q I. destruct s as [|[|[|s]]], a as [|[|a]]; cbn in I; repeat (destruct I as [I|I]; [injection I as <- <-; reflexivity|]); contradiction.
Qed.
Lemma fair_ex : fair world_ex.
Proof. split; [apply small_legal, next_ex_pos|]. intros t s. exists 0. reflexivity. Qed.
Definition never (j : nat) : bool := false.
Definition x_ex : @solver nat nat := match history world_ex [(never, 5, 0)] with Ok x => x | Err _ => fresh_solver end.

Example C100_graph_ex : history world_ex [(never, 5, 0)] = Ok x_ex /\ dkeys (graph x_ex) = [0; 1; 2] /\
  exists an, anode_of (graph x_ex) 0 0 an /\ map fst (a_out an) = [1; 2] /\ map (fun o => Qred (snd (snd o))) (a_out an) = [(1 # 2)%Q; (1 # 2)%Q].
Proof.
  split; [vm_compute; reflexivity|]. split; [vm_compute; reflexivity|]. eexists. split; [|split].
  - eexists. split; [vm_compute; reflexivity|vm_compute; reflexivity].
  - vm_compute. reflexivity.
  - vm_compute. reflexivity.
Qed.
Example C101_total_ex : nb_rollouts x_ex = 5 /\
  exists x1, wsolve world_ex (fun j => 2 <=? j) 5 fresh_solver 0 = Ok x1 /\ nb_rollouts x1 = 2.
Proof. split; [vm_compute; reflexivity|]. eexists. split; vm_compute; reflexivity. Qed.
Example C102_answer_ex : 0 < nb_rollouts x_ex /\ 0 < max_depth world_ex /\ terminal world_ex 0 = false /\ applicable world_ex 0 = [0; 1] /\
  is_solution_defined_for (shuf world_ex) x_ex 0 = true /\ option_map (fun v => Qred v) (get_best_value (shuf world_ex) x_ex 0) = Some (4 # 5)%Q /\
  map fst (get_policy (shuf world_ex) x_ex) = [0].
Proof. repeat (split; [vm_compute; solve [reflexivity|lia]|]). vm_compute. reflexivity. Qed.
Example C102_descent_ex : exists n, node (graph x_ex) 0 n /\ s_exp n = true /\ s_term n = false /\ applicable world_ex 0 <> [].
Proof. eexists. split; [unfold node; vm_compute; reflexivity|]. split; [reflexivity|]. split; [reflexivity|discriminate]. Qed.
Example C103_simulation_ex : exists t v, rollout (discount world_ex) (policy world_ex) (sample world_ex) 3 0 0 1%Q 0%Q = Ok (t, v) /\ t = 6.
Proof. do 2 eexists. split; vm_compute; reflexivity. Qed.
Example C103_upper_ex : (0 <= discount world_ex)%Q /\
  (forall s a s' q, In a (applicable world_ex s) -> In (s', q) (next world_ex s a) -> (reward world_ex s a s' + discount world_ex * 2 <= 2)%Q) /\
  (forall t s a s' r b, sample world_ex t s a = (s', r, b) -> (r + discount world_ex * 2 <= 2)%Q).
Proof.
  assert (R : forall s a s', (reward_ex s a s' <= 1)%Q).
  { intros s a s'. unfold reward_ex. destruct s as [|s]; [|discriminate]. destruct a as [|[|a]]; [|discriminate|discriminate]. destruct s' as [|[|[|s']]]; discriminate. }
  split; [discriminate|]. split.
  - intros s a s' q _ _. cbn [world_ex small reward discount]. pose proof (R s a s'). lra.
  - intros t s a s' r b E. cbn [world_ex small sample discount] in *. destruct (next_ex s a) as [|[k q] l]; injection E as <- <- <-; [lra|]. pose proof (R s a k). lra.
Qed.
Example C104_online_ex : exists x, online world_ex true [(never, 5, true, 0); (never, 1, false, 1); (never, 4, false, 0)] = Ok (x, [0; 0; 0]) /\ dkeys (graph x) = [0; 1; 2].
Proof. eexists. split; vm_compute; reflexivity. Qed.

(** * What does not hold *)
(** The terminal flag is only set on states met as outcomes: a search that starts in a terminal state expands it. *)
Theorem C100_terminal_root_refuted : exists (w : world nat nat) s x n a an, fair w /\ terminal w s = true /\ history w [(never, 1, s)] = Ok x /\
  node (graph x) s n /\ s_term n = false /\ anode_of (graph x) s a an /\ a_out an <> [].
Proof.
  destruct (history world_ex [(never, 1, 2)]) as [x|] eqn:E; [|vm_compute in E; discriminate]. vm_compute in E. injection E as <-.
  eexists world_ex, 2, _, _, 0, _. split; [apply fair_ex|]. split; [reflexivity|]. split; [vm_compute; reflexivity|].
  split; [unfold node; vm_compute; reflexivity|]. split; [reflexivity|]. split; [eexists; split; [unfold node; vm_compute; reflexivity|vm_compute; reflexivity]|discriminate].
Qed.

Definition next_end (s a : nat) : list (nat * Q) := match s, a with 0, 0 => [(1, 1%Q)] | _, _ => [] end.
Definition world_end : world nat nat := small next_end (fun _ _ _ => 1%Q) (Nat.leb 1) (fun _ s => match s with 0 => Ok 0 | _ => Err ValueError end) 2.
(** A simulation that starts in a terminal leaf asks the rollout policy for an action there:
    when terminal states have no applicable action, and the policy therefore fails in them only, solve fails. *)
Theorem C101_terminal_leaf_refuted : exists (w : world nat nat) s, legal w /\ (forall t k, terminal w k = false -> exists a, policy w t k = Ok a /\ In a (applicable w k)) /\
  terminal w s = false /\ wsolve w never 1 fresh_solver s = Err ValueError.
Proof.
  exists world_end, 0. split; [|split; [|split; [reflexivity|vm_compute; reflexivity]]].
  - apply small_legal. intros s a k q I. destruct s as [|s], a as [|a]; cbn in I; try contradiction. destruct I as [I|[]]. injection I as <- <-. reflexivity.
  - intros t k T. destruct k as [|k]; [|discriminate]. exists 0. split; [reflexivity|]. cbn. auto.
Qed.

(** Visits are not counted per simulation: back-propagation updates every recorded parent of a leaf, also the actions that were not taken.
    Here the root and its actions are visited more often than there were simulations. *)
Theorem C102_visits_refuted : exists (w : world nat nat) s x n a b an bn, fair w /\ history w [(never, 5, s)] = Ok x /\ nb_rollouts x = 5 /\ node (graph x) s n /\ s_n n = 8 /\
  a <> b /\ anode_of (graph x) s a an /\ anode_of (graph x) s b bn /\ a_n an + a_n bn = 8.
Proof.
  eexists world_ex, 0, x_ex, _, 0, 1, _, _. split; [apply fair_ex|]. split; [vm_compute; reflexivity|]. split; [vm_compute; reflexivity|].
  split; [unfold node; vm_compute; reflexivity|]. split; [reflexivity|]. split; [discriminate|].
  split; [eexists; split; [unfold node; vm_compute; reflexivity|vm_compute; reflexivity]|].
  split; [eexists; split; [unfold node; vm_compute; reflexivity|vm_compute; reflexivity]|]. reflexivity.
Qed.

Definition next_loop (s a : nat) : list (nat * Q) := match s, a with 0, 0 => [(1, 1%Q)] | S _, 0 => [(s, 1%Q)] | _, _ => [] end.
Definition world_loop : world nat nat := small next_loop (fun s _ _ => match s with 0 => 0%Q | _ => 1%Q end) (Nat.leb 1) (fun _ _ => Ok 0) 2.
(** The value of a state is not that of the executions of the domain: rewards collected after a terminal state count.
    Here every reward before termination is zero, and the value answered is positive. *)
Theorem C103_after_end_refuted : exists (w : world nat nat) s x v, fair w /\ terminal w s = false /\
  (forall k a k' q, terminal w k = false -> In a (applicable w k) -> In (k', q) (next w k a) -> (reward w k a k' == 0)%Q) /\
  (forall t k a k' r b, terminal w k = false -> sample w t k a = (k', r, b) -> (r == 0)%Q) /\
  history w [(never, 1, s)] = Ok x /\ get_best_value (shuf w) x s = Some v /\ (0 < v)%Q.
Proof.
  eexists world_loop, 0, _, _. split; [split|].
  - apply small_legal. intros s a k q I. destruct s as [|s], a as [|a]; cbn in I; try contradiction; destruct I as [I|[]]; injection I as <- <-; reflexivity.
  - intros t s. exists 0. reflexivity.
  - split; [reflexivity|]. split; [|split].
    + intros k a k' q T _ _. destruct k as [|k]; [reflexivity|discriminate].
    + intros t k a k' r b T E. destruct k as [|k]; [|discriminate]. destruct a as [|a]; cbn in E; injection E as <- <- <-; reflexivity.
    + split; [vm_compute; reflexivity|]. split; [vm_compute; reflexivity|reflexivity].
Qed.

Definition next_join (s a : nat) : list (nat * Q) := match s, a with 1, 0 | 2, 0 | 3, 0 => [(3, 1%Q)] | 4, 0 => [(4, 1%Q)] | _, _ => [] end.
Definition world_join : world nat nat := small next_join (fun _ _ _ => 1%Q) (Nat.eqb 3) (fun _ _ => Ok 0) 2.
Lemma fair_join : fair world_join.
Proof.
  split; [apply small_legal|intros t s; exists 0; reflexivity]. intros s a k q I. destruct s as [|[|[|[|[|s]]]]], a as [|a]; cbn in I; try contradiction;
    destruct I as [I|[]]; injection I as <- <-; reflexivity.
Qed.
(** Garbage collection forgets only one previous state: when two searches share states, answering for a third state removes states
    that the graph still refers to, and the next search follows them. *)
Theorem C104_two_searches_refuted : exists (w : world nat nat) s1 s2 s3 x x1 x2 a b, fair w /\
  terminal w s1 = false /\ terminal w s2 = false /\ terminal w s3 = false /\
  history w [(never, 1, s1); (never, 1, s2); (never, 1, s3)] = Ok x /\
  get_best_action (shuf w) true x s1 = Ok (x1, a) /\ get_best_action (shuf w) true x1 s3 = Ok (x2, b) /\ wsolve w never 1 x2 s2 = Err KeyError.
Proof.
  eexists world_join, 1, 2, 4, _, _, _, _, _. split; [apply fair_join|]. split; [reflexivity|]. split; [reflexivity|]. split; [reflexivity|].
  split; [vm_compute; reflexivity|]. split; [vm_compute; reflexivity|]. split; vm_compute; reflexivity.
Qed.

(** Resetting the solver between two episodes keeps the state last asked for, which is no longer in the graph,
    and the actions of the previous episode: the first answer of the next episode follows a dangling pointer. *)
Theorem C104_reset_refuted : exists (w : world nat nat) s1 s2 x x1 x2 a, fair w /\ terminal w s1 = false /\ terminal w s2 = false /\
  history w [(never, 1, s1)] = Ok x /\ get_best_action (shuf w) true x s1 = Ok (x1, a) /\
  prefix (clear x1) = [a] /\ wsolve w never 1 (clear x1) s2 = Ok x2 /\ get_best_action (shuf w) true x2 s2 = Err KeyError.
Proof.
  eexists world_join, 1, 4, _, _, _, _. split; [apply fair_join|]. split; [reflexivity|]. split; [reflexivity|].
  split; [vm_compute; reflexivity|]. split; [vm_compute; reflexivity|]. split; [reflexivity|]. split; vm_compute; reflexivity.
Qed.

Print Assumptions C100_graph.
Print Assumptions C100_terminal_root_refuted.
Print Assumptions C101_total.
Print Assumptions C101_kept.
Print Assumptions C101_terminal_leaf_refuted.
Print Assumptions C102_answer.
Print Assumptions C102_policy.
Print Assumptions C102_descent.
Print Assumptions C102_visits_refuted.
Print Assumptions C103_simulation.
Print Assumptions C103_upper.
Print Assumptions C103_lower.
Print Assumptions C103_after_end_refuted.
Print Assumptions C104_online.
Print Assumptions C104_two_searches_refuted.
Print Assumptions C104_reset_refuted.
