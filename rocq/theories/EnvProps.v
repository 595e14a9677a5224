(** Properties of the stateful environment (C06-C08).  The reference semantics ([lastn],
    [ref_op], [ref_run]) and the legality of calls ([op_ok], [ops_ok]) are in EnvProofs.v. *)
From Coq Require Import List Bool Arith Lia.
From Verif Require Import Py EnvModel EnvProofs.
Import ListNotations.


Section Props.
Context {St A O V I W : Type}.

(** C06: for a domain of order [n >= 2], whatever legal calls are made after a reset, every answer
    is that of the reference machine which records the whole episode, and the memory holds exactly
    the last [n] states of the current episode, oldest first. *)
Theorem C06_memory_is_last_n_states : forall (d : domain St A O V I W) n e0 w ops,
  d_kind d = Finite n -> 2 <= n -> heap_ok (heap e0) ->
  let e := fst (reset d e0 w) in
  let seen0 := [d_state_reset d w] in
  ops_ok d n e ops ->
  let e' := fst (run d e ops) in
  let seen := fst (ref_run d n e seen0 ops) in
  snd (run d e ops) = snd (ref_run d n e seen0 ops) /\
  view (heap e') (memory e') = Ok (VSeq (lastn n seen)).
Proof.
  intros d n e0 w ops K N2 HO e seen0 OK e' seen.
  destruct (run_related K N2 (reset_related d e0 w K N2 HO) OK) as [E [_ (r & Em & Er)]].
  split; [exact E|]. unfold e', seen, e, seen0. rewrite Em. simpl. rewrite Er. reflexivity.
Qed.


(** C06: for a Markovian domain the memory is exactly the last state: the initial state after a
    reset, the given state after set_memory, the state reached after a step. *)
Theorem C06_markovian_memory : forall (d : domain St A O V I W) e,
  d_kind d = Markovian ->
  (forall w, memory (fst (reset d e w)) = MState (d_state_reset d w)) /\
  (forall s, memory (set_memory e (MState s)) = MState s) /\
  (forall s a w next v t i, memory e = MState s -> d_state_sample d (VState s) a w = Ok (next, v, t, i) ->
     exists e', step d e a w = Ok (e', {| o_observation := d_observe d next (Some a) w; o_value := v;
                                          o_termination := t; o_info := i |}) /\
                memory e' = MState next /\ heap e' = heap e).
Proof.
  intros d e K. split; [|split].
  - intros w. unfold reset. rewrite K. reflexivity.
  - reflexivity.
  - intros s a w next v t i Em E. unfold step. rewrite Em. simpl. rewrite E. simpl. rewrite K. simpl.
    eexists. split; [reflexivity|]. auto.
Qed.

(** C06: a memoryless domain never holds a memory. *)
Theorem C06_memoryless_memory : forall (d : domain St A O V I W), d_kind d = Memoryless ->
  forall ops e, memory e = MNone -> (forall m, ~ In (OSetMemory m) ops) ->
  memory (fst (run d e ops)) = MNone.
Proof.
  intros d K. induction ops as [|o r IH]; intros e Em N; [exact Em|].
  assert (N' : forall m, ~ In (OSetMemory m) r) by (intros m X; apply (N m); right; auto).
  simpl. destruct (do_op d e o) as [e1 a1] eqn:E.
  assert (E1 : memory e1 = MNone).
  { destruct o as [w|a w|m a w|m|l m]; simpl in E.
    - unfold reset in E. rewrite K in E. simpl in E. injection E as <- <-. reflexivity.
    - destruct (step d e a w) as [[e2 out]|x] eqn:S; injection E as <- <-; auto.
      unfold step in S. rewrite Em in S. simpl in S.
      destruct (d_state_sample d VNone a w) as [[[[? ?] ?] ?]|]; simpl in S; [|discriminate].
      rewrite K in S. simpl in S. injection S as <- _. auto.
    - injection E as <- <-. auto.
    - exfalso. apply (N m). now left.
    - injection E as <- <-. auto. }
  specialize (IH e1 E1 N'). destruct (run d e1 r) as [e2 l2]. exact IH.
Qed.

(** C07: removing all the calls to sample from any sequence of calls changes neither the final
    environment nor the answer to any other call. *)
Definition is_sample (o : op St A W) : bool := match o with OSample _ _ _ => true | _ => false end.

Fixpoint others (ops : list (op St A W)) (l : list (@answer O V I)) : list answer :=
  match ops, l with
  | o :: r, x :: l' => if is_sample o then others r l' else x :: others r l'
  | _, _ => []
  end.

Theorem C07_samples_do_not_interfere : forall (d : domain St A O V I W) ops e,
  fst (run d e ops) = fst (run d e (filter (fun o => negb (is_sample o)) ops)) /\
  others ops (snd (run d e ops)) = snd (run d e (filter (fun o => negb (is_sample o)) ops)).
Proof.
  intros d. induction ops as [|o r IH]; intros e; [auto|].
  simpl. destruct (is_sample o) eqn:S; simpl.
  - destruct o; try discriminate. simpl. specialize (IH e). destruct (run d e r) as [e2 l2].
    simpl in *. exact IH.
  - destruct (do_op d e o) as [e1 a1]. specialize (IH e1). destruct (run d e1 r) as [e2 l2].
    destruct (run d e1 (filter _ r)) as [e3 l3]. simpl in *. destruct IH as [-> <-]. auto.
Qed.

(** C07: sampling from the current memory answers what a step would answer. *)
Theorem C07_sample_agrees_with_step : forall (d : domain St A O V I W) e a w e' out,
  step d e a w = Ok (e', out) -> snd (sample d e (memory e) a w) = Ok out.
Proof.
  intros d e a w e' out E. unfold step in E. unfold sample. cbn [snd].
  destruct (view (heap e) (memory e)) as [mv|]; [|discriminate]. cbn [bind] in *.
  destruct (d_state_sample d mv a w) as [[[[next v] t] i]|]; [|discriminate]. cbn [bind] in *.
  destruct (maxlen (d_kind d)) as [[|[|n]]|]; try discriminate; try (injection E as _ <-; reflexivity).
  simpl in E. destruct (memory e) as [| |r]; try discriminate.
  destruct (nth_error (heap e) r); [|discriminate]. injection E as _ <-. reflexivity.
Qed.

(** C07: what sample answers is determined by the memory passed to it, not by the memory the domain
    holds: it is what a step would answer in a domain whose memory had been set to that argument. *)
Theorem C07_sample_uses_its_argument : forall (d : domain St A O V I W) e m a w e' out,
  step d (set_memory e m) a w = Ok (e', out) ->
  forall m', snd (sample d (set_memory e m') m a w) = Ok out.
Proof.
  intros d e m a w e' out E m'. apply C07_sample_agrees_with_step in E. exact E.
Qed.

(** C08, what does hold: after a reset the memory of a full-history domain is the initial state,
    and with an order at least as long as the episode no state is forgotten. *)
Theorem C08_reset_history_partial : forall (d : domain St A O V I W) e w, d_kind d = History ->
  let e' := fst (reset d e w) in
  view (heap e') (memory e') = Ok (VSeq [d_state_reset d w]).
Proof.
  intros d e w K. unfold reset. rewrite K. simpl. rewrite nth_error_app2 by lia.
  rewrite Nat.sub_diag. reflexivity.
Qed.

Theorem C08_long_enough_order_remembers_all_partial : forall (d : domain St A O V I W) n e0 w ops,
  d_kind d = Finite n -> 2 <= n -> heap_ok (heap e0) ->
  let e := fst (reset d e0 w) in
  ops_ok d n e ops ->
  let e' := fst (run d e ops) in
  let seen := fst (ref_run d n e [d_state_reset d w] ops) in
  length seen <= n -> view (heap e') (memory e') = Ok (VSeq seen).
Proof.
  intros d n e0 w ops K N2 HO e OK e' seen L.
  destruct (C06_memory_is_last_n_states d n e0 w ops K N2 HO OK) as [_ E].
  unfold e', seen, e in *. rewrite E, lastn_all; auto.
Qed.

(** C08 is refuted: in EVERY full-history domain the first step after a reset raises TypeError
    (the length limit [None] is compared with 1), although the dynamics itself succeeded. *)
Theorem C08_history_step_fails : forall (d : domain St A O V I W) e w a w' r,
  d_kind d = History ->
  d_state_sample d (VSeq [d_state_reset d w]) a w' = Ok r ->
  step d (fst (reset d e w)) a w' = Err TypeError.
Proof.
  intros d e w a w' [[[next v] t] i] K E.
  pose proof (C08_reset_history_partial d e w K) as R. unfold step. cbn zeta in R. rewrite R.
  cbn [bind]. rewrite E. cbn [bind]. rewrite K. reflexivity.
Qed.

End Props.

(** A concrete domain: the state counts, the transition adds the action to the oldest state it is
    shown. *)
Definition counter (k : mkind) : domain nat nat nat nat unit unit :=
  {| d_kind := k; d_state_reset := fun _ => 10;
     d_state_sample := fun m a _ =>
        match m with
        | VSeq l => Ok (hd 0 l + a, a, false, tt)
        | VState s => Ok (s + a, a, false, tt)
        | VNone => Ok (a, a, false, tt)
        end;
     d_observe := fun s _ _ => s |}.

Definition e_start : env nat := {| heap := []; memory := MNone |}.
Definition calls : list (op nat nat unit) :=
  [OStep 1 tt; OStep 2 tt; OSample (MRef 0) 5 tt; OStep 3 tt;
   ONew [7; 8] (Some 2); OSetMemory (MRef 1); OStep 1 tt].

Example C06_ex : ops_ok (counter (Finite 2)) 2 (fst (reset (counter (Finite 2)) e_start tt)) calls /\
  let e' := fst (run (counter (Finite 2)) (fst (reset (counter (Finite 2)) e_start tt)) calls) in
  view (heap e') (memory e') = Ok (VSeq [8; 8]) /\
  fst (ref_run (counter (Finite 2)) 2 (fst (reset (counter (Finite 2)) e_start tt)) [10] calls) = [7; 8; 8].
Proof.
  split; [|vm_compute; auto].
  repeat (constructor; [first [exact Logic.I | solve [eexists; reflexivity]]|]). constructor.
Qed.

(** C08 is refuted: in every full-history domain the first step after a reset raises TypeError
    (the length limit [None] is compared with 1), although the dynamics itself succeeded. *)
Theorem C08_history_step_refuted : exists (d : domain nat nat nat nat unit unit) e a r, d_kind d = History /\
  d_state_sample d (VSeq [d_state_reset d tt]) a tt = Ok r /\ step d (fst (reset d e tt)) a tt = Err TypeError.
Proof. exists (counter History), e_start, 1. eexists. repeat split; reflexivity. Qed.

(** C06 fails for a FiniteHistory domain of order one which is not declared Markovian: after the
    first step the memory is no longer a Memory but a bare state. *)
Theorem C06_order_one_history_refuted : exists (d : domain nat nat nat nat unit unit) e a w e' out s,
  d_kind d = Finite 1 /\ e = fst (reset d e_start tt) /\
  view (heap e) (memory e) = Ok (VSeq [10]) /\
  step d e a w = Ok (e', out) /\ view (heap e') (memory e') = Ok (VState s).
Proof.
  exists (counter (Finite 1)), (fst (reset (counter (Finite 1)) e_start tt)), 1, tt.
  do 3 eexists. repeat split; reflexivity.
Qed.

(** C06 also fails as soon as the caller keeps using the Memory passed to set_memory: it is not
    copied, so stepping the domain changes the caller's object. *)
Theorem C06_set_memory_aliases_refuted : exists (d : domain nat nat nat nat unit unit) e r a w e' out,
  d_kind d = Finite 2 /\ step d (set_memory e (MRef r)) a w = Ok (e', out) /\
  nth_error (heap e) r = Some (Some 2, [7; 8]) /\ nth_error (heap e') r = Some (Some 2, [8; 8]).
Proof.
  exists (counter (Finite 2)), {| heap := [(Some 2, [7; 8])]; memory := MNone |}, 0, 1, tt.
  do 2 eexists. repeat split; reflexivity.
Qed.

Example C07_ex : fst (run (counter Markovian) e_start [OReset tt; OStep 1 tt; OSample (MState 4) 2 tt; OStep 3 tt])
  = {| heap := []; memory := MState 14 |}.
Proof. reflexivity. Qed.

Example C07_argument_ex :
  let e := fst (reset (counter Markovian) e_start tt) in
  exists e' out, step (counter Markovian) (set_memory e (MState 4)) 2 tt = Ok (e', out) /\
    snd (sample (counter Markovian) (set_memory e (MState 9)) (MState 4) 2 tt) = Ok out /\
    snd (sample (counter Markovian) (set_memory e (MState 4)) (MState 9) 2 tt) <> Ok out.
Proof. do 2 eexists. split; [reflexivity|]. split; [reflexivity|]. discriminate. Qed.

Example C08_ex : step (counter History) (fst (reset (counter History) e_start tt)) 1 tt = Err TypeError.
Proof. reflexivity. Qed.

Example C08_long_ex :
  let e := fst (reset (counter (Finite 5)) e_start tt) in
  let ops := [OStep 1 tt; OStep 2 tt; OStep 3 tt] in
  ops_ok (counter (Finite 5)) 5 e ops /\
  length (fst (ref_run (counter (Finite 5)) 5 e [10] ops)) <= 5 /\
  view (heap (fst (run (counter (Finite 5)) e ops))) (memory (fst (run (counter (Finite 5)) e ops)))
    = Ok (VSeq [10; 11; 12; 13]).
Proof. split; [|vm_compute; auto]. repeat (constructor; [exact Logic.I|]). constructor. Qed.

Print Assumptions C06_memory_is_last_n_states.
Print Assumptions C06_markovian_memory.
Print Assumptions C06_memoryless_memory.
Print Assumptions C07_samples_do_not_interfere.
Print Assumptions C07_sample_agrees_with_step.
Print Assumptions C07_sample_uses_its_argument.
Print Assumptions C08_long_enough_order_remembers_all_partial.
Print Assumptions C08_history_step_fails.
Print Assumptions C08_history_step_refuted.
