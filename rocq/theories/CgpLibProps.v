(** * C87: the numbers of Cartesian genetic programming stay within -1 and 1. *)
From Coq Require Import List Reals Arith Lra Lia QArith.
From Verif Require Import Py PyList CgpModel CgpSpec CgpLibModel CgpLibProofs CgpProps.
Import ListNotations.
Local Open Scope R_scope.

(** Every function of the default library maps numbers between -1 and 1 to such a number. *)
Theorem C87_library : forall f, In f default_library -> forall args, length args = max_arity default_library ->
  Forall (fun x => -1 <= x <= 1) args -> -1 <= fn f args <= 1.
Proof. intros f I args L F. rewrite default_arity in L. exact (library_range f I args L F). Qed.
Example C87_args : length [1 / 2; -1] = max_arity default_library /\ Forall (fun x => -1 <= x <= 1) [1 / 2; -1].
Proof. split; [reflexivity|]. repeat constructor; lra. Qed.

Lemma all_some_In : forall A (l : list (option A)) vs v, all_some l = Some vs -> In v vs -> In (Some v) l.
Proof.
  intros A. induction l as [|[x|] l IH]; intros vs v H I; cbn in H.
  - injection H as <-. destruct I.
  - destruct (all_some l) as [s|]; [|discriminate]. injection H as <-. destruct I as [->|I]; [left; auto|right; eapply IH; eauto].
  - discriminate.
Qed.
Lemma all_some_length : forall A (l : list (option A)) vs, all_some l = Some vs -> length vs = length l.
Proof.
  intros A. induction l as [|[x|] l IH]; intros vs H; cbn in H.
  - injection H as <-. reflexivity.
  - destruct (all_some l) as [s|]; [|discriminate]. injection H as <-. cbn. f_equal. now apply IH.
  - discriminate.
Qed.

Lemma signal_range : forall ni ns h, Forall (fun n => length (n_args n) = max_arity default_library) ns ->
  Forall (Forall unit_range) h -> forall g v, signal 0 ni default_library ns h g = Some v -> unit_range v.
Proof.
  intros ni ns h FA. induction h as [|x h IH]; intros FH g v H; cbn [signal] in H.
  - destruct (g <? ni)%nat; [discriminate|]. injection H as <-. unfold unit_range. lra.
  - inversion FH as [|? ? F1 F2]; subst. destruct (g <? ni)%nat.
    + rewrite Forall_forall in F1. apply F1. eapply nth_error_In; eauto.
    + unfold fire in H. destruct (nth_error ns (g - ni)) as [n|] eqn:En; [|discriminate].
      destruct (nth_error default_library (n_fun n)) as [f|] eqn:Ef; [|discriminate].
      destruct (all_some _) as [vs|] eqn:Ev; [|discriminate]. injection H as <-.
      apply library_range.
      * eapply nth_error_In; eauto.
      * rewrite (all_some_length _ _ _ Ev), map_length, <- default_arity. rewrite Forall_forall in FA. apply FA. eapply nth_error_In; eauto.
      * apply Forall_forall. intros w W. pose proof (all_some_In _ _ _ _ Ev W) as A. apply in_map_iff in A. destruct A as (a & A & _).
        destruct (a <? ni)%nat; [|now apply (IH F2 a)]. rewrite Forall_forall in F1. apply F1. eapply nth_error_In; eauto.
Qed.

(** Hence every output of every run of every valid genome over this library, on inputs between -1 and 1,
    is between -1 and 1 (what the conversion to actions expects). *)
Theorem C87_outputs : forall c xs c' os, valid c -> c_graph c = None -> c_library c = default_library ->
  Forall (fun x => (c_inputs c <= length x)%nat /\ Forall (fun v => -1 <= v <= 1) x) xs ->
  runs 0 c xs = Ok (c', os) -> Forall (Forall (fun v => -1 <= v <= 1)) os.
Proof.
  intros c xs c' os VA GN LIB F RU.
  assert (F1 : Forall (fun x => (c_inputs c <= length x)%nat) xs) by (eapply Forall_impl; [|exact F]; cbn; tauto).
  assert (F2 : Forall (Forall unit_range) xs) by (eapply Forall_impl; [|exact F]; cbn; tauto).
  destruct (C84_run _ 0 c xs VA GN F1) as (ns & outs & c2 & os2 & _ & _ & _ & FA & R2 & _ & H).
  assert (E : Ok (c', os) = Ok (c2, os2)) by congruence. injection E as -> ->. rewrite LIB in *.
  apply Forall_forall. intros o O. apply In_nth_error in O. destruct O as [t T]. specialize (H t o T).
  apply Forall_forall. intros v I. apply (in_map Some) in I. rewrite H in I. apply in_map_iff in I. destruct I as (g & G & _).
  apply (signal_range (c_inputs c) ns (rev (firstn (S t) xs)) FA) with (g := g); auto.
  apply Forall_rev. rewrite <- (firstn_skipn (S t) xs) in F2. now apply Forall_app in F2.
Qed.
(** Hypotheses met: a random genome over the library with 2 inputs, 3 columns and 1 output. *)
Example C87_some : exists c, random_cgp 2 1 3 1 default_library 1%Q (fun i => i) = Ok c /\ valid c /\ c_graph c = None /\ c_library c = default_library.
Proof.
  destruct (CgpGenomeProofs.random_ok _ 2 1 3 1 default_library 1%Q (fun i => i)) as (c & E & VA & _ & _ & _ & _ & L & _ & G); [cbn; lia|lia|].
  exists c. auto.
Qed.

(** The library with an argument out of the range leaves it (arguments of acos and asin outside are even
    refused): the range of the inputs matters. *)
Theorem C87_range_needed : exists f args, In f default_library /\ length args = max_arity default_library /\ ~ (-1 <= fn f args <= 1).
Proof.
  exists {| fn := with2 f_mult; arity := 2 |}, [2; 2]. split; [cbn; auto|]. split; [reflexivity|]. cbn. unfold f_mult. lra.
Qed.

Print Assumptions C87_library.
Print Assumptions C87_outputs.
Print Assumptions C87_range_needed.
