(** C134: jobs sent to parallel domains through pipes. *)
From Coq Require Import String.
From Coq Require Import List Bool Arith Lia.
From Verif Require Import Py PyList ParModel ParSpec ParProofs.
Import ListNotations.
Open Scope nat_scope.

Section Any.
Variables (A V D : Type) (none : V).
Variable meth : D -> string -> list A -> D * outcome V.
Variable lams : list (D -> list A -> D * outcome V).
Variables (n : nat) (ipc : bool) (may : nat -> nat -> Prop) (d0 : nat -> D).

Notation exec := (exec none meth lams n ipc may).
Notation run := (run meth lams).

Lemma run_perform : forall d b, run d b = perform meth lams d b.
Proof.
  intros d [[name|k] args]; cbn; [reflexivity|]. unfold ParModel.run. cbn. clear. revert k.
  induction lams as [|f l IH]; intros [|k]; cbn; auto.
Qed.

Lemma answers_ext : forall f g : D -> job A -> D * outcome V, (forall d b, f d b = g d b) ->
  forall js d, answers none f d js = answers none g d js.
Proof. intros f g H js. induction js as [|b js IH]; intros d; cbn; [auto|]. now rewrite H, IH. Qed.

(** As long as no domain is used by two threads, each domain behaves like a sequential one, in whatever
    order threads and workers take their turns: the values returned for it are those of its jobs, in the
    order of launching, at most one job being under way. *)
Theorem C134_results : exclusive may -> forall tr s, exec (init none d0) tr s -> forall i, i < n ->
  exists rest, answers none (perform meth lams) (d0 i) (launched i tr) = returned i tr ++ rest /\ length rest <= 1.
Proof.
  intros Hex tr s E i Li. rewrite <- (answers_ext _ _ run_perform). destruct (inv_exec Hex E) as (_ & _ & _ & Ph). destruct (Ph i Li) as (g & _ & P).
  inversion P; subst.
  - exists []. rewrite app_nil_r. auto.
  - exists [value none (snd (run (after run (d0 i) L0) b))]. rewrite H, H0, answers_snoc. auto.
  - exists [value none (snd (run (after run (d0 i) L0) b))]. rewrite H, H0, answers_snoc. auto.
Qed.

(** Without notifications, a thread that asks for a result gets it: the worker and the thread together
    can always come to the end of the call. *)
Theorem C134_progress : exclusive may -> ipc = false -> forall tr s t i, exec (init none d0) tr s ->
  s_pc s t = CWait i -> exists s' v, exec s [EReturn t i v] s'.
Proof. intros Hex Ip tr s t i E W. eapply progress; eauto. Qed.

(** A domain is marked active only while it is being used, or after a job could not be sent to it. *)
Theorem C134_available : exclusive may -> forall tr s i, exec (init none d0) tr s -> i < n ->
  length (launched i tr) = length (returned i tr) ->
  (forall t b, s_pc s t <> CSend i b) -> (forall t, ~ In (EFail t i) tr) ->
  s_flag s i = false.
Proof.
  intros Hex tr s i E Li L NS NF. destruct (s_flag s i) eqn:F; [|easy]. exfalso.
  destruct (inv_exec Hex E) as (_ & _ & _ & Ph). destruct (Ph i Li) as (g & G & P).
  assert (Q : s_pend s i = false /\ g = None).
  { inversion P; subst; auto; exfalso; rewrite H, H0, app_length, answers_length in L; cbn in L; lia. }
  destruct Q as (Pe & ->). destruct (flag_inv E i F) as [(t & I)|[I|(t & I)]]; [eapply NF; eauto|congruence|].
  cbn in G. specialize (G t). unfold holds in I. destruct (s_pc s t) eqn:C; try discriminate;
    apply Nat.eqb_eq in I; subst; cbn in G; rewrite ?Nat.eqb_refl in G; try discriminate. eapply NS; eauto.
Qed.

(** With notifications, a job that raises is only reported to the notification socket: a thread that asks
    for its result waits for ever. *)
Theorem C134_waits_for_ever : exclusive may -> forall tr s t i, exec (init none d0) tr s ->
  s_pc s t = CWait i -> s_work s i = WRecv -> s_jobs s i = [] -> s_notes s i = [] ->
  forall tr' s', exec s tr' s' -> s_pc s' t = CWait i /\ forall v, ~ In (EReturn t i v) tr'.
Proof.
  intros Hex tr s t i E W Wk J N tr' s' E'. split; [eapply blocked; eauto|].
  intros v I. induction E' as [s|s tr' s1 ev s2 E' IH St]; [destruct I|].
  apply in_app_iff in I as [I|I]; [auto|].
  assert (W1 : s_pc s1 t = CWait i) by (eapply blocked; eauto). inversion St; subst; cbn in I; try tauto.
  - destruct I as [I|[]]; discriminate.
  - destruct I as [I|[]]; discriminate.
  - destruct I as [I|[]]. injection I as <- <- <-. congruence.
Qed.
End Any.

(** ** A case: two counters; the method "fail" raises. *)
Definition cmeth (d : nat) (name : string) (args : list nat) : nat * outcome nat :=
  if String.eqb name "fail" then (d, Exn "boom"%string) else (d + hd 1 args, Val (d + hd 1 args)).
Definition dbl (d : nat) (args : list nat) : nat * outcome nat := (2 * d, Val (2 * d)).
Definition own (t i : nat) : Prop := t = i.
Definition counters : nat -> nat := fun i => 10 * i.
Notation cstep ipc may := (@step nat nat nat 0 cmeth [dbl] 2 ipc may).
Notation cexec ipc may := (@ParModel.exec nat nat nat 0 cmeth [dbl] 2 ipc may).
Notation start := (@init nat nat nat 0 counters).

Definition add (k : nat) : job nat := (Method "add", [k]).
Definition bad : job nat := (Method "fail", []).

(** One more step, known by its rule and what it is about. *)
Ltac more E rule :=
  match type of E with ParModel.exec ?a ?b ?c ?d ?e ?f ?s0 ?tr ?s =>
    let H := fresh "H" in let F := fresh "F" in
    eassert (H : step a b c d e f s _ _);
    [eapply rule; first [reflexivity | exact I | (cbv; lia)]
    |pose proof (E_step E H) as F; clear E H; rename F into E; cbn [app] in E]
  end.

Example C134_ex : exclusive own /\
  (exists s, cexec false own start [ELaunch 0 0 (add 3); ELaunch 1 1 (Lambda 0, []); EReturn 1 1 20; EReturn 0 0 3] s) /\
  answers 0 (perform cmeth [dbl]) 10 [(Lambda 0, []); bad; add 4] = [20; 0; 24] /\
  (exists s, cexec false own start [ELaunch 0 0 (add 3)] s /\ s_pc s 0 = CWait 0).
Proof.
  split; [intros t t' i -> ->; easy|]. split; [|split; [reflexivity|]].
  - assert (E : cexec false own start [] start) by constructor.
    more E (fun s => @S_on _ _ _ 0 cmeth [dbl] 2 false own s 0 0 (add 3)).
    more E (fun s => @S_mark _ _ _ 0 cmeth [dbl] 2 false own s 0 0 (add 3)).
    more E (fun s => @S_send _ _ _ 0 cmeth [dbl] 2 false own s 0 0 (add 3)).
    more E (fun s => @S_on _ _ _ 0 cmeth [dbl] 2 false own s 1 1 (Lambda 0, [])).
    more E (fun s => @S_mark _ _ _ 0 cmeth [dbl] 2 false own s 1 1 (Lambda 0, [])).
    more E (fun s => @S_send _ _ _ 0 cmeth [dbl] 2 false own s 1 1 (Lambda 0, [])).
    more E (fun s => @W_recv _ _ _ 0 cmeth [dbl] 2 false own s 0 (add 3) []).
    more E (fun s => @W_recv _ _ _ 0 cmeth [dbl] 2 false own s 1 (Lambda 0, []) []).
    more E (fun s => @W_reset _ _ _ 0 cmeth [dbl] 2 false own s 1 (Lambda 0, [])).
    more E (fun s => @W_run _ _ _ 0 cmeth [dbl] 2 false own s 1 (Lambda 0, []) 20 20).
    more E (fun s => @W_store _ _ _ 0 cmeth [dbl] 2 false own s 1 20).
    more E (fun s => @W_send _ _ _ 0 cmeth [dbl] 2 false own s 1).
    more E (fun s => @S_get _ _ _ 0 cmeth [dbl] 2 false own s 1 1).
    more E (fun s => @S_recv _ _ _ 0 cmeth [dbl] 2 false own s 1 1 "0"%string []).
    more E (fun s => @S_read _ _ _ 0 cmeth [dbl] 2 false own s 1 1).
    more E (fun s => @S_clear _ _ _ 0 cmeth [dbl] 2 false own s 1 1 20).
    more E (fun s => @S_free _ _ _ 0 cmeth [dbl] 2 false own s 1 1 20).
    more E (fun s => @W_reset _ _ _ 0 cmeth [dbl] 2 false own s 0 (add 3)).
    more E (fun s => @W_run _ _ _ 0 cmeth [dbl] 2 false own s 0 (add 3) 3 3).
    more E (fun s => @W_store _ _ _ 0 cmeth [dbl] 2 false own s 0 3).
    more E (fun s => @W_send _ _ _ 0 cmeth [dbl] 2 false own s 0).
    more E (fun s => @S_get _ _ _ 0 cmeth [dbl] 2 false own s 0 0).
    more E (fun s => @S_recv _ _ _ 0 cmeth [dbl] 2 false own s 0 0 "0"%string []).
    more E (fun s => @S_read _ _ _ 0 cmeth [dbl] 2 false own s 0 0).
    more E (fun s => @S_clear _ _ _ 0 cmeth [dbl] 2 false own s 0 0 3).
    more E (fun s => @S_free _ _ _ 0 cmeth [dbl] 2 false own s 0 0 3).
    eexists. exact E.
  - assert (E : cexec false own start [] start) by constructor.
    more E (fun s => @S_on _ _ _ 0 cmeth [dbl] 2 false own s 0 0 (add 3)).
    more E (fun s => @S_mark _ _ _ 0 cmeth [dbl] 2 false own s 0 0 (add 3)).
    more E (fun s => @S_send _ _ _ 0 cmeth [dbl] 2 false own s 0 0 (add 3)).
    more E (fun s => @S_get _ _ _ 0 cmeth [dbl] 2 false own s 0 0).
    eexists. split; [exact E|reflexivity].
Qed.

(** A job that raises is answered with [None], like a job that returns [None]: the client is not told. *)
Theorem C134_exception_refuted : exists s tr, cexec false own start tr s /\
  launched 0 tr = [bad] /\ snd (perform cmeth [dbl] (counters 0) bad) = Exn "boom"%string /\ returned 0 tr = [0].
Proof.
  assert (E : cexec false own start [] start) by constructor.
  more E (fun s => @S_on _ _ _ 0 cmeth [dbl] 2 false own s 0 0 bad).
  more E (fun s => @S_mark _ _ _ 0 cmeth [dbl] 2 false own s 0 0 bad).
  more E (fun s => @S_send _ _ _ 0 cmeth [dbl] 2 false own s 0 0 bad).
  more E (fun s => @W_recv _ _ _ 0 cmeth [dbl] 2 false own s 0 bad []).
  more E (fun s => @W_reset _ _ _ 0 cmeth [dbl] 2 false own s 0 bad).
  more E (fun s => @W_raise _ _ _ 0 cmeth [dbl] 2 false own s 0 bad 0 "boom"%string).
  more E (fun s => @W_fail _ _ _ 0 cmeth [dbl] 2 false own s 0 "boom"%string).
  more E (fun s => @S_get _ _ _ 0 cmeth [dbl] 2 false own s 0 0).
  more E (fun s => @S_recv _ _ _ 0 cmeth [dbl] 2 false own s 0 0 "boom"%string []).
  more E (fun s => @S_read _ _ _ 0 cmeth [dbl] 2 false own s 0 0).
  more E (fun s => @S_clear _ _ _ 0 cmeth [dbl] 2 false own s 0 0 0).
  more E (fun s => @S_free _ _ _ 0 cmeth [dbl] 2 false own s 0 0 0).
  eexists _, _. split; [exact E|]. repeat split; reflexivity.
Qed.

(** With notifications, asking for the result of a job that raised never ends. *)
Theorem C134_notify_refuted : exists s tr, cexec true own start tr s /\
  launched 0 tr = [bad] /\ s_pc s 0 = CWait 0 /\
  forall tr' s', cexec true own s tr' s' -> s_pc s' 0 = CWait 0.
Proof.
  assert (E : cexec true own start [] start) by constructor.
  more E (fun s => @S_on _ _ _ 0 cmeth [dbl] 2 true own s 0 0 bad).
  more E (fun s => @S_mark _ _ _ 0 cmeth [dbl] 2 true own s 0 0 bad).
  more E (fun s => @S_send _ _ _ 0 cmeth [dbl] 2 true own s 0 0 bad).
  more E (fun s => @W_recv _ _ _ 0 cmeth [dbl] 2 true own s 0 bad []).
  more E (fun s => @W_reset _ _ _ 0 cmeth [dbl] 2 true own s 0 bad).
  more E (fun s => @W_raise _ _ _ 0 cmeth [dbl] 2 true own s 0 bad 0 "boom"%string).
  more E (fun s => @W_fail _ _ _ 0 cmeth [dbl] 2 true own s 0 "boom"%string).
  more E (fun s => @S_get _ _ _ 0 cmeth [dbl] 2 true own s 0 0).
  eexists _, _. split; [exact E|]. split; [reflexivity|]. split; [reflexivity|].
  intros tr' s' E'. refine (proj1 (C134_waits_for_ever _ _ _ _ _ _ _ _ _ counters _ _ _ _ _ E _ _ _ _ _ _ E')); try reflexivity.
  intros t t' i -> ->; easy.
Qed.

(** A job that cannot be sent leaves its domain marked active: with every thread idle, every pipe empty
    and nothing under way, the domain is never offered again. *)
Theorem C134_unsent_refuted : exists s tr, cexec false own start tr s /\
  launched 0 tr = [] /\ (forall t, s_pc s t = CIdle) /\ (forall i, s_jobs s i = [] /\ s_notes s i = [] /\ s_pend s i = false) /\
  s_flag s 0 = true.
Proof.
  assert (E : cexec false own start [] start) by constructor.
  more E (fun s => @S_on _ _ _ 0 cmeth [dbl] 2 false own s 0 0 bad).
  more E (fun s => @S_mark _ _ _ 0 cmeth [dbl] 2 false own s 0 0 bad).
  more E (fun s => @S_unsent _ _ _ 0 cmeth [dbl] 2 false own s 0 0 bad).
  eexists _, _. split; [exact E|]. split; [reflexivity|]. split; [|split; [|reflexivity]].
  - intros t. cbn. unfold upd. now destruct (t =? 0).
  - intros i. easy.
Qed.

(** Two threads that ask for any free domain may be given the same one (looking at a flag and setting it
    are two steps), although another is free; one of them then gets [None] for a job that is worth 3. *)
Theorem C134_two_threads_refuted : exists s tr, cexec false (fun _ _ => True) start tr s /\
  launched 0 tr = [add 3; add 4] /\ launched 1 tr = [] /\ returned 0 tr = [0] /\
  answers 0 (perform cmeth [dbl]) (counters 0) (launched 0 tr) = [3; 7].
Proof.
  assert (E : cexec false (fun _ _ => True) start [] start) by constructor.
  more E (fun s => @S_scan _ _ _ 0 cmeth [dbl] 2 false (fun _ _ => True) s 0 (add 3)).
  more E (fun s => @S_scan _ _ _ 0 cmeth [dbl] 2 false (fun _ _ => True) s 1 (add 4)).
  more E (fun s => @S_found _ _ _ 0 cmeth [dbl] 2 false (fun _ _ => True) s 0 0 (add 3)).
  more E (fun s => @S_found _ _ _ 0 cmeth [dbl] 2 false (fun _ _ => True) s 1 0 (add 4)).
  more E (fun s => @S_mark _ _ _ 0 cmeth [dbl] 2 false (fun _ _ => True) s 0 0 (add 3)).
  more E (fun s => @S_mark _ _ _ 0 cmeth [dbl] 2 false (fun _ _ => True) s 1 0 (add 4)).
  more E (fun s => @S_send _ _ _ 0 cmeth [dbl] 2 false (fun _ _ => True) s 0 0 (add 3)).
  more E (fun s => @S_send _ _ _ 0 cmeth [dbl] 2 false (fun _ _ => True) s 1 0 (add 4)).
  more E (fun s => @W_recv _ _ _ 0 cmeth [dbl] 2 false (fun _ _ => True) s 0 (add 3) [add 4]).
  more E (fun s => @W_reset _ _ _ 0 cmeth [dbl] 2 false (fun _ _ => True) s 0 (add 3)).
  more E (fun s => @W_run _ _ _ 0 cmeth [dbl] 2 false (fun _ _ => True) s 0 (add 3) 3 3).
  more E (fun s => @W_store _ _ _ 0 cmeth [dbl] 2 false (fun _ _ => True) s 0 3).
  more E (fun s => @W_send _ _ _ 0 cmeth [dbl] 2 false (fun _ _ => True) s 0).
  more E (fun s => @W_recv _ _ _ 0 cmeth [dbl] 2 false (fun _ _ => True) s 0 (add 4) []).
  more E (fun s => @W_reset _ _ _ 0 cmeth [dbl] 2 false (fun _ _ => True) s 0 (add 4)).
  more E (fun s => @S_get _ _ _ 0 cmeth [dbl] 2 false (fun _ _ => True) s 0 0).
  more E (fun s => @S_recv _ _ _ 0 cmeth [dbl] 2 false (fun _ _ => True) s 0 0 "0"%string []).
  more E (fun s => @S_read _ _ _ 0 cmeth [dbl] 2 false (fun _ _ => True) s 0 0).
  more E (fun s => @S_clear _ _ _ 0 cmeth [dbl] 2 false (fun _ _ => True) s 0 0 0).
  more E (fun s => @S_free _ _ _ 0 cmeth [dbl] 2 false (fun _ _ => True) s 0 0 0).
  eexists _, _. split; [exact E|]. repeat split; reflexivity.
Qed.

Print Assumptions C134_results.
Print Assumptions C134_progress.
Print Assumptions C134_available.
Print Assumptions C134_waits_for_ever.
Print Assumptions C134_exception_refuted.
Print Assumptions C134_notify_refuted.
Print Assumptions C134_unsent_refuted.
Print Assumptions C134_two_threads_refuted.
