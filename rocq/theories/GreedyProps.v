(** Properties of SimpleGreedy: C45. *)
From Coq Require Import List Bool Arith ZArith QArith Lia.
From Verif Require Import Py PyList GreedyModel.
Import ListNotations.
Local Close Scope Q_scope.

(** * Specification vocabulary *)
(** The expected immediate reward of an action. *)
Definition sumQ (l : list Q) : Q := fold_right Qplus 0%Q l.
Definition worth {S A : Type} (d : gdomain S A) (s : S) (a : A) : Q :=
  if depends_on_next d then sumQ (map (fun sp => Qmult (snd sp) (reward_next d s a (fst sp))) (next_distribution d s a))
  else reward_now d s a.

(** * Lemmas *)
Lemma fold_plus : forall A (f : A -> Q) l acc, Qeq (fold_left (fun acc x => Qplus acc (f x)) l acc) (Qplus acc (sumQ (map f l))).
Proof.
  induction l as [|x l IH]; intros acc; cbn; [now rewrite Qplus_0_r|]. rewrite IH. now rewrite Qplus_assoc.
Qed.

Lemma argmax_spec : forall l best b i, best < i ->
  let k := argmax_from best b i l in
  (k = best /\ (forall j x, nth_error l j = Some x -> Qle x b)) \/
  (exists j x, k = i + j /\ nth_error l j = Some x /\ Qlt b x /\ (forall j' y, nth_error l j' = Some y -> Qle y x) /\
    forall j' y, j' < j -> nth_error l j' = Some y -> Qlt y x).
Proof.
  induction l as [|x l IH]; intros best b i L; cbv zeta; cbn [argmax_from].
  - left. split; auto. intros [|j] x H; discriminate.
  - destruct (Qle_bool x b) eqn:Q.
    + apply Qle_bool_iff in Q. destruct (IH best b (Datatypes.S i)) as [[E M]|(j & y & E & N & Lt & M & F)]; [lia| |].
      * left. split; auto. intros [|j] y H; cbn in H; [injection H as <-; auto|eauto].
      * right. exists (Datatypes.S j), y. split; [cbv zeta in E; lia|]. split; auto. split; auto. split.
        -- intros [|j'] z H; cbn in H; [injection H as <-|eauto]. apply Qlt_le_weak. eapply Qle_lt_trans; eauto.
        -- intros [|j'] z H1 H2; cbn in H2; [injection H2 as <-; eapply Qle_lt_trans; eauto|]. apply (F j'); auto. lia.
    + assert (Lt : Qlt b x). { destruct (Qlt_le_dec b x) as [|C]; auto. apply Qle_bool_iff in C. congruence. }
      destruct (IH i x (Datatypes.S i)) as [[E M]|(j & y & E & N & Lt2 & M & F)]; [lia| |].
      * right. exists 0, x. split; [cbv zeta in E; lia|]. split; auto. split; auto. split.
        -- intros [|j'] z H; cbn in H; [injection H as <-; apply Qle_refl|eauto].
        -- intros j' z H. lia.
      * right. exists (Datatypes.S j), y. split; [cbv zeta in E; lia|]. split; auto. split; [eapply Qlt_trans; eauto|]. split.
        -- intros [|j'] z H; cbn in H; [injection H as <-; now apply Qlt_le_weak|eauto].
        -- intros [|j'] z H1 H2; cbn in H2; [injection H2 as <-; auto|]. apply (F j'); auto. lia.
Qed.

Lemma argmax_ok : forall l, l <> [] -> exists k x, argmax l = Ok k /\ nth_error l k = Some x /\
  (forall j y, nth_error l j = Some y -> Qle y x) /\ forall j y, j < k -> nth_error l j = Some y -> Qlt y x.
Proof.
  intros [|b l] N; [congruence|]. cbn [argmax]. destruct (argmax_spec l 0 b 1 (le_n 1)) as [[E M]|(j & x & E & Nx & Lt & M & F)]; cbv zeta in E; rewrite E.
  - exists 0, b. split; auto. split; auto. split.
    + intros [|j] y H; cbn in H; [injection H as <-; apply Qle_refl|eauto].
    + intros j y H. lia.
  - exists (1 + j), x. split; auto. split; auto. split.
    + intros [|j'] y H; cbn in H; [injection H as <-; now apply Qlt_le_weak|eauto].
    + intros [|j'] y H1 H2; cbn in H2; [injection H2 as <-; auto|]. apply (F j'); auto. lia.
Qed.

(** * C45 *)
(** The action is applicable, its expected immediate reward is maximal, and it is the first such action. *)
Theorem C45_greedy : forall (S A : Type) (d : gdomain S A) s,
  elements (applicable d s) <> [] -> depends_on_next d = true \/ iterable (applicable d s) = true ->
  exists k a, next_action d s = Ok [a] /\ nth_error (elements (applicable d s)) k = Some a /\
    (forall b, In b (elements (applicable d s)) -> Qle (worth d s b) (worth d s a)) /\
    forall j b, j < k -> nth_error (elements (applicable d s)) j = Some b -> Qlt (worth d s b) (worth d s a).
Proof.
  intros S A d s N H. set (es := elements (applicable d s)) in *.
  assert (V : exists f, values d s = Ok (map f es) /\ forall a, Qeq (f a) (worth d s a)).
  { unfold values, worth. fold es. destruct (depends_on_next d).
    - eexists. split; [reflexivity|]. intros a. unfold expected. rewrite (fold_plus _ (fun sp => Qmult (snd sp) (reward_next d s a (fst sp)))). apply Qplus_0_l.
    - destruct H as [H|H]; [discriminate|]. rewrite H. eexists. split; [reflexivity|]. intros a. apply Qeq_refl. }
  destruct V as (f & V & W). unfold next_action. rewrite V. cbn [bind].
  destruct (argmax_ok (map f es)) as (k & x & E & X & M & F); [destruct es; [congruence|discriminate]|].
  rewrite E. cbn [bind]. fold es. rewrite nth_error_map in X. destruct (nth_error es k) as [a|] eqn:Ak; [|discriminate]. injection X as <-.
  rewrite (proj2 (lget_ok es k a) Ak). cbn [bind]. exists k, a. split; auto. split; auto. split.
  - intros b Ib. apply In_nth_error in Ib as [j Ib]. rewrite <- !W. apply (M j). now rewrite nth_error_map, Ib.
  - intros j b L Bj. rewrite <- !W. apply (F j); auto. now rewrite nth_error_map, Bj.
Qed.

(** * Concrete cases *)
(** Three actions with two outcomes each; the second and the third are worth the same. *)
Definition ex_d (dep it : bool) : gdomain nat nat :=
  GDomain (fun _ => Space [0; 1; 2] it) dep (fun _ _ => [(0, (1 # 3)%Q); (1, (2 # 3)%Q)])
    (fun _ a s => inject_Z (Z.of_nat (match a with 0 => 3 | _ => 6 * s end))) (fun _ a => inject_Z (Z.of_nat (match a with 0 => 3 | _ => 4 end))).
Example C45_ex : next_action (ex_d true false) 0 = Ok [1] /\ next_action (ex_d false true) 0 = Ok [1] /\
  Qeq (worth (ex_d true false) 0 1) 4 /\ Qeq (worth (ex_d true false) 0 0) 3.
Proof. repeat split; vm_compute; reflexivity. Qed.

(** * Findings *)
(** When the value does not depend on the next state, the solver iterates over the space object itself: no space of
    the library allows it, so every call fails. *)
Theorem C45_iterate_fails : forall (S A : Type) (d : gdomain S A) s, depends_on_next d = false -> iterable (applicable d s) = false ->
  next_action d s = Err TypeError.
Proof. intros S A d s H1 H2. unfold next_action, values. now rewrite H1, H2. Qed.
(** When the value does not depend on the next state, the solver iterates over the space object itself: no space of
    the library allows it, so every call fails. *)
Theorem C45_iterate_refuted : exists (d : gdomain nat nat) s, elements (applicable d s) <> [] /\ depends_on_next d = false /\ next_action d s = Err TypeError.
Proof. exists (ex_d false false), 0. split; [discriminate|]. split; reflexivity. Qed.
Example C45_iterate_ex : next_action (ex_d false false) 0 = Err TypeError.
Proof. reflexivity. Qed.

(** In a dead end (no applicable action) it fails too. *)
Theorem C45_dead_end_refuted : exists (d : gdomain nat nat) s, elements (applicable d s) = [] /\ next_action d s = Err ValueError.
Proof. exists (GDomain (fun _ => Space [] true) true (fun _ _ => []) (fun _ _ _ => 0%Q) (fun _ _ => 0%Q)), 0. split; reflexivity. Qed.

Print Assumptions C45_greedy.
Print Assumptions C45_iterate_fails.
Print Assumptions C45_iterate_refuted.
Print Assumptions C45_dead_end_refuted.
