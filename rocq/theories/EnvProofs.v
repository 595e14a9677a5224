(** Reference semantics and lemmas for the stateful environment (C06-C08). *)
From Coq Require Import List Bool Arith Lia.
From Verif Require Import Py EnvModel.
Import ListNotations.
Set Implicit Arguments.

Section Spec.
Context {St A O V I W : Type}.

(** Reference semantics: the whole sequence [seen] of states of the current episode is recorded
    (oldest first), starting with the initial state or with the memory given by the user; the
    dynamics is shown the last [n] of them. *)
Definition lastn (n : nat) (l : list St) : list St := skipn (length l - n) l.

Definition ref_step (d : domain St A O V I W) (n : nat) (seen : list St) (a : A) (w : W)
  : res (list St * outcome O V I) :=
  match d_state_sample d (VSeq (lastn n seen)) a w with
  | Err e => Err e
  | Ok (next, v, term, inf) =>
      Ok (seen ++ [next], {| o_observation := d_observe d next (Some a) w; o_value := v;
                             o_termination := term; o_info := inf |})
  end.

(** The effect of one call on the record of the episode, with its answer; for [sample] the answer
    is what the dynamics says about the memory passed as argument.  [h] gives the content of the
    deques known to the user. *)
Definition ref_op (d : domain St A O V I W) (n : nat) (h : list deque) (seen : list St) (o : op St A W)
  : list St * answer :=
  match o with
  | OReset w => ([d_state_reset d w], AObs (d_observe d (d_state_reset d w) None w))
  | OStep a w => match ref_step d n seen a w with
                 | Ok (seen', out) => (seen', AOut out)
                 | Err e => (seen, AErr e)
                 end
  | OSample m a w => (seen, ans (snd (sample d {| heap := h; memory := m |} m a w)))
  | OSetMemory m => (match view h m with Ok (VSeq l) => l | _ => [] end, AUnit)
  | ONew _ _ => (seen, AUnit)
  end.

(** The user passes to set_memory a Memory of the declared order. *)
Definition op_ok (n : nat) (h : list (@deque St)) (o : op St A W) : Prop :=
  match o with
  | OSetMemory (MRef r) => exists l, nth_error h r = Some (Some n, l)
  | OSetMemory _ => False
  | _ => True
  end.

(** A legal sequence of calls from [e] on. *)
Inductive ops_ok (d : domain St A O V I W) (n : nat) : env St -> list (op St A W) -> Prop :=
| ops_nil : forall e, ops_ok d n e []
| ops_cons : forall e o r, op_ok n (heap e) o -> ops_ok d n (fst (do_op d e o)) r -> ops_ok d n e (o :: r).

Fixpoint ref_run (d : domain St A O V I W) (n : nat) (e : env St) (seen : list St) (ops : list (op St A W))
  : list St * list answer :=
  match ops with
  | [] => (seen, [])
  | o :: r => let (seen', a) := ref_op d n (heap e) seen o in
              let (seen'', l) := ref_run d n (fst (do_op d e o)) seen' r in (seen'', a :: l)
  end.

Lemma lastn_all : forall n l, length l <= n -> lastn n l = l.
Proof. intros n l H. unfold lastn. replace (length l - n) with 0 by lia. reflexivity. Qed.

Lemma lastn_length : forall n l, length (lastn n l) <= n.
Proof. intros n l. unfold lastn. rewrite skipn_length. lia. Qed.

Lemma lastn_app : forall n a b, n <= length b -> lastn n (a ++ b) = lastn n b.
Proof.
  intros n a b H. unfold lastn. rewrite app_length, skipn_app.
  rewrite skipn_all2 by lia. simpl. f_equal. lia.
Qed.

Lemma lastn_snoc : forall n l x, lastn n (lastn n l ++ [x]) = lastn n (l ++ [x]).
Proof.
  intros n l x. destruct (le_lt_dec (length l) n) as [H|H].
  - now rewrite (lastn_all l H).
  - rewrite <- (firstn_skipn (length l - n) l) at 2. rewrite <- app_assoc.
    rewrite (lastn_app (n := n) (firstn (length l - n) l)); [reflexivity|].
    rewrite app_length, skipn_length. simpl. lia.
Qed.

(** Every deque respects its own bound. *)
Definition heap_ok (h : list (@deque St)) : Prop :=
  forall r m l, nth_error h r = Some (Some m, l) -> length l <= m.

Definition related (n : nat) (e : env St) (seen : list St) : Prop :=
  heap_ok (heap e) /\
  exists r, memory e = MRef r /\ nth_error (heap e) r = Some (Some n, lastn n seen).

Lemma heap_ok_app : forall h q, heap_ok h -> (forall m, fst q = Some m -> length (snd q) <= m) -> heap_ok (h ++ [q]).
Proof.
  intros h q H Q r m l E. destruct (Nat.lt_ge_cases r (length h)) as [L|G].
  - rewrite nth_error_app1 in E by auto. eapply H; eauto.
  - rewrite nth_error_app2 in E by auto. destruct (r - length h) as [|k]; simpl in E.
    + injection E as ->. apply (Q m). reflexivity.
    + destruct k; discriminate.
Qed.

Lemma truncate_length : forall m (l : list St), length (truncate (Some m) l) <= m.
Proof. intros m l. simpl. rewrite skipn_length. lia. Qed.

Lemma heap_ok_new : forall (h : list (@deque St)) l m, heap_ok h -> heap_ok (h ++ [new_deque l m]).
Proof.
  intros h l m H. apply heap_ok_app; auto. intros k E. simpl in E. subst m. apply truncate_length.
Qed.

Lemma do_op_related : forall d n e seen o, d_kind d = Finite n -> 2 <= n ->
  related n e seen -> op_ok n (heap e) o ->
  related n (fst (do_op d e o)) (fst (ref_op d n (heap e) seen o)) /\
  snd (do_op d e o) = snd (ref_op d n (heap e) seen o).
Proof.
  intros d n e seen o K N2 [HO (r & Em & Er)] OK. destruct o as [w|a w|m a w|m|l m].
  - simpl. unfold reset. rewrite K. simpl. split; [|reflexivity]. split; [now apply heap_ok_new|].
    exists (length (heap e)). split; [reflexivity|]. simpl.
    rewrite nth_error_app2 by lia. rewrite Nat.sub_diag. reflexivity.
  - simpl. unfold step, ref_step. rewrite Em. simpl. rewrite Er. cbn [bind snd].
    destruct (d_state_sample d (VSeq (lastn n seen)) a w) as [[[[next v] term] inf]|x].
    2:{ simpl. split; [|reflexivity]. split; auto. exists r; auto. }
    cbn [bind]. rewrite K. simpl maxlen.
    destruct n as [|[|n]]; [lia|lia|]. destruct (Nat.ltb_spec 1 (S (S n))) as [_|G]; [|lia].
    cbn [fst snd]. split; [|reflexivity].
    assert (R : r < length (heap e)) by (apply nth_error_Some; congruence).
    set (q := append (Some (S (S n)), lastn (S (S n)) seen) next).
    assert (Q : q = (Some (S (S n)), lastn (S (S n)) (seen ++ [next]))).
    { unfold q, append. simpl fst. f_equal. cbn [truncate snd]. apply lastn_snoc. }
    split.
    + intros r0 m0 l0 E. simpl in E. rewrite lset_nth_error in E.
      destruct (Nat.eqb r r0) eqn:B.
      * destruct (Nat.ltb r (length (heap e))) eqn:L; [|discriminate].
        rewrite Q in E. injection E as <- <-. apply lastn_length.
      * eapply HO; eauto.
    + exists r. split; [reflexivity|]. simpl. rewrite lset_nth_error, Nat.eqb_refl.
      destruct (Nat.ltb_spec r (length (heap e))); [|lia]. now rewrite Q.
  - simpl. split; [|reflexivity]. split; auto. exists r. auto.
  - simpl. split; [|reflexivity]. destruct m as [| |r']; try (destruct OK; fail).
    destruct OK as (l & E). split; [exact HO|]. exists r'. split; [reflexivity|]. simpl. rewrite E. cbn [snd].
    rewrite lastn_all; auto. eapply HO; eauto.
  - simpl. split; [|reflexivity]. split; [now apply heap_ok_new|].
    exists r. split; [exact Em|]. simpl. rewrite nth_error_app1; auto. apply nth_error_Some. congruence.
Qed.

Lemma reset_related : forall (d : domain St A O V I W) n e0 w,
  d_kind d = Finite n -> 2 <= n -> heap_ok (heap e0) ->
  related n (fst (reset d e0 w)) [d_state_reset d w].
Proof.
  intros d n e0 w K N2 HO. unfold reset. rewrite K. simpl. split; [now apply heap_ok_new|].
  exists (length (heap e0)). split; [reflexivity|]. simpl.
  rewrite nth_error_app2 by lia. rewrite Nat.sub_diag. simpl. unfold new_deque, truncate.
  rewrite lastn_all by (simpl; lia). destruct n; [lia|]. reflexivity.
Qed.

Lemma run_related : forall (d : domain St A O V I W) n, d_kind d = Finite n -> 2 <= n ->
  forall ops e seen, related n e seen -> ops_ok d n e ops ->
  snd (run d e ops) = snd (ref_run d n e seen ops) /\
  related n (fst (run d e ops)) (fst (ref_run d n e seen ops)).
Proof.
  intros d n K N2. induction ops as [|o r IH]; intros e seen R OK; [auto|].
  inversion OK as [|? ? ? O1 O2]; subst.
  destruct (do_op_related d o K N2 R O1) as [R1 A1].
  simpl. destruct (do_op d e o) as [e1 a1]. destruct (ref_op d n (heap e) seen o) as [s1 b1].
  simpl in *. specialize (IH e1 s1 R1 O2). destruct (run d e1 r) as [e2 l2].
  destruct (ref_run d n e1 s1 r) as [s2 m2]. simpl in *. destruct IH as [-> IH]. subst b1. auto.
Qed.

End Spec.
