(** The flags of IwModel.v: solved and pruned nodes stay so, and what this says about the widths. *)
From Coq Require Import List Bool Arith ZArith Lia Permutation Sorted.
From Verif Require Import Py PyList PyMore CppAstarModel CppHeapProofs IwModel IwSpec IwTupleProofs IwProofs IwSearchProofs.
Import ListNotations.
Open Scope nat_scope.

Section Flags.
Context {St A V K : Type} {EV : PyEq V} {EK : PyEq K}.
Variable p : @problem St A V K.
Variable o : ordering.
Notation graph := (@graph St A K).
Notation node := (@node St A K).

Definition keeps1 (n n' : node) : Prop := (pruned n = true -> pruned n' = true) /\ (solved n = true -> solved n' = true).
Definition keeps (g g' : graph) : Prop := forall k, keeps1 (at_ g k) (at_ g' k).
Definition some_pruned (g : graph) : Prop := exists k, pruned (at_ g k) = true.

Lemma keeps_refl : forall g, keeps g g.
Proof. intros g k. split; auto. Qed.
Lemma keeps_trans : forall g1 g2 g3, keeps g1 g2 -> keeps g2 g3 -> keeps g1 g3.
Proof. intros g1 g2 g3 H1 H2 k. destruct (H1 k), (H2 k). split; auto. Qed.
Lemma keeps_dset : forall (g : graph) k n, keeps1 (at_ g k) n -> keeps g (dset g k n).
Proof.
  intros g k n H t. rewrite at_dset. destruct (pyeqb_spec k t) as [E|]; [now rewrite <- E|split; auto].
Qed.
Lemma keeps_emplace : forall (g : graph) s, keeps g (fst (emplace p g s)).
Proof.
  intros g s. unfold emplace. destruct (dmem g (key p s)) eqn:M; [apply keeps_refl|]. cbn [fst]. apply keeps_dset.
  unfold at_, dmem in *. destruct (dget g (key p s)); [discriminate|]. split; discriminate.
Qed.
Lemma keeps_some : forall g g', keeps g g' -> some_pruned g -> some_pruned g'.
Proof. intros g g' H [k E]. exists k. now apply H. Qed.

Lemma expand_keeps : forall width x sx w a w', expand p o width x sx w a = Ok w' ->
  keeps (s_graph w) (s_graph w') /\ (s_pruned w' = true -> s_pruned w = true \/ some_pruned (s_graph w')).
Proof.
  intros width x sx w a w' E. unfold expand in E. pose proof (keeps_emplace (s_graph w) (next p sx a)) as Ke.
  destruct (emplace p (s_graph w) (next p sx a)) as [g1 new]. cbn [fst] in Ke.
  destruct (state _) as [sy|]; [|discriminate]. apply bind_ok in E as ([nov tuples] & _ & E).
  set (ky := key p (next p sx a)) in *.
  set (n3 := if new || _ then _ else _) in *.
  assert (F : pruned n3 = pruned (at_ g1 ky) /\ solved n3 = solved (at_ g1 ky)).
  { unfold n3. repeat match goal with |- context [if ?b then _ else _] => destruct b end; split; reflexivity. }
  clearbody n3. destruct F as [F1 F2].
  destruct (width <? nov); injection E as <-; cbn [s_graph s_pruned].
  - split; [|right; exists ky; now rewrite at_dset, pyeqb_refl].
    eapply keeps_trans; [exact Ke|]. apply keeps_dset. split; cbn [pruned solved set_pruned set_novelty]; intros; congruence.
  - split; [|auto]. eapply keeps_trans; [exact Ke|]. apply keeps_dset. split; cbn [pruned solved set_pruned set_novelty]; intros; congruence.
Qed.

Lemma fold_keeps : forall width x sx acts w w', foldM (expand p o width x sx) w acts = Ok w' ->
  keeps (s_graph w) (s_graph w') /\ (s_pruned w' = true -> s_pruned w = true \/ some_pruned (s_graph w')).
Proof.
  induction acts as [|a acts IH]; intros w w' E; cbn [foldM] in E.
  - injection E as <-. split; [apply keeps_refl|auto].
  - apply bind_ok in E as (w1 & E1 & E). destruct (expand_keeps _ _ _ _ _ _ E1) as [H1 H2]. destruct (IH _ _ E) as [H3 H4].
    split; [eapply keeps_trans; eauto|]. intros P. destruct (H4 P) as [P1|]; auto. destruct (H2 P1); auto.
    right. eapply keeps_some; eauto.
Qed.

Lemma backtrack_keeps : forall fuel root cur (g : graph) g', backtrack fuel root cur g = Ok g' ->
  keeps g g' /\ (solved (at_ g cur) = true -> solved (at_ g' root) = true).
Proof.
  induction fuel as [|fuel IH]; intros root cur g g' E; cbn [backtrack] in E;
    destruct (pyeqb_spec cur root) as [Ec|Nc]; try discriminate;
    try (injection E as <-; subst; split; [apply keeps_refl|auto]; fail).
  destruct (best_parent (at_ g cur)) as [[[par a] c]|]; [|discriminate].
  destruct (IH _ _ _ _ E) as [H1 H2]. split.
  - eapply keeps_trans; [|exact H1]. apply keeps_dset. split; cbn; auto.
  - intros _. apply H2. rewrite at_dset, pyeqb_refl. reflexivity.
Qed.

Lemma record_keeps : forall root x found (g : graph) g', record_plan root x found g = Ok g' ->
  keeps g g' /\ (found = false -> solved (at_ g' root) = true).
Proof.
  intros root x found g g' E. unfold record_plan in E. apply bind_ok in E as (t & _ & E).
  destruct (negb found || _) eqn:B.
  - destruct (backtrack_keeps _ _ _ _ _ E) as [H1 H2]. split.
    + eapply keeps_trans; [|exact H1]. apply keeps_dset. split; cbn; auto.
    + intros _. apply H2. rewrite at_dset, pyeqb_refl. reflexivity.
  - injection E as <-. split; [apply keeps_refl|]. intros ->. discriminate.
Qed.

Variable clock : nat -> nat.
Variable budget : nat.

Lemma loop_keeps : forall width root fuel h queue tuples pr closed ok pr' h',
  loop fuel p o clock budget width root h queue tuples pr closed = Ok (ok, pr', h') ->
  keeps (h_graph h) (h_graph h') /\ (pr' = true -> pr = true \/ some_pruned (h_graph h')) /\ ok = h_found h' /\
  (h_found h' = true -> h_found h = true \/ solved (at_ (h_graph h') root) = true) /\
  exists sc, h_scores h' = h_scores h ++ sc /\ Forall (fun x : score => snd (fst x) = width) sc /\ (h_found h' = false -> sc = []) /\
    (h_found h' = false -> h_found h = false).
Proof.
  intros width root. induction fuel as [|fuel IH]; intros h queue tuples pr closed ok pr' h' E; [discriminate|].
  cbn [loop] in E. destruct (heap_pop (after o (h_graph h)) queue) as [[x queue1]|].
  2:{ injection E as <- <- <-. split; [apply keeps_refl|]. split; auto. split; auto. split; auto. exists []. rewrite app_nil_r. auto. }
  destruct (pymem x closed); [eauto|]. destruct (state (at_ (h_graph h) x)) as [sx|]; [|discriminate].
  destruct (is_goal p sx || solved (at_ (h_graph h) x)).
  - apply bind_ok in E as (g1 & R & E). destruct (record_keeps _ _ _ _ _ R) as [H1 H2].
    destruct (clock (h_ticks h) <? budget).
    + destruct (IH _ _ _ _ _ _ _ _ E) as (K1 & K2 & K3 & K4 & sc & K5 & K6 & K7 & K8). cbn [h_graph h_found h_scores] in *.
      split; [eapply keeps_trans; eauto|]. split; auto. split; auto. split.
      * intros F. destruct (h_found h); auto. right. apply K1. auto.
      * eexists. rewrite K5, <- app_assoc. split; [reflexivity|]. split; [constructor; auto|].
        split; intros F; specialize (K8 F); discriminate.
    + injection E as <- <- <-. cbn [h_graph h_found h_scores]. split; auto. split; auto. split; auto. split.
      * intros _. destruct (h_found h); auto.
      * eexists. split; [reflexivity|]. split; [repeat constructor|]. split; discriminate.
  - destruct (is_terminal p sx); [eauto|]. apply bind_ok in E as (w & F & E). destruct (fold_keeps _ _ _ _ _ _ F) as [H1 H2].
    destruct (IH _ _ _ _ _ _ _ _ E) as (K1 & K2 & K3 & K4 & K5). cbn [h_graph h_found h_scores s_graph s_pruned] in *.
    split; [eapply keeps_trans; eauto|]. split; [|auto]. intros P. destruct (K2 P) as [P1|]; auto. destruct (H2 P1); auto.
    right. eapply keeps_some; eauto.
Qed.

Lemma width_keeps : forall fuel width s h ok pr h', width_solve fuel p o clock budget width s h = Ok (ok, pr, h') ->
  keeps (h_graph h) (h_graph h') /\ (pr = true -> some_pruned (h_graph h')) /\
  (h_found h' = true -> h_found h = true \/ solved (at_ (h_graph h') (key p s)) = true) /\
  exists sc, h_scores h' = h_scores h ++ sc /\ Forall (fun x : score => snd (fst x) = width) sc /\ (h_found h' = false -> sc = []).
Proof.
  intros fuel width s h ok pr h' E. unfold width_solve in E. pose proof (keeps_emplace (h_graph h) s) as Ke.
  destruct (emplace p (h_graph h) s) as [g1 new]. cbn [fst] in Ke.
  destruct (solved _ || _).
  { injection E as <- <- <-. cbn. split; auto. split; [discriminate|]. split; auto. exists []. rewrite app_nil_r. auto. }
  destruct (is_terminal p s).
  { injection E as <- <- <-. cbn. split; auto. split; [discriminate|]. split; auto. exists []. rewrite app_nil_r. auto. }
  set (g2 := dset g1 _ _) in *. destruct (state _) as [st|]; [|discriminate]. apply bind_ok in E as ([nov tuples] & _ & E).
  destruct (loop_keeps _ _ _ _ _ _ _ _ _ _ _ E) as (K1 & K2 & K3 & K4 & sc & K5 & K6 & K7 & _). cbn [h_graph h_found h_scores] in *.
  split.
  - eapply keeps_trans; [exact Ke|]. eapply keeps_trans; [|exact K1]. apply (keeps_trans _ g2); apply keeps_dset; split; cbn; auto.
  - split; [intros P; destruct (K2 P); [discriminate|auto]|]. split; [auto|]. exists sc. auto.
Qed.

Lemma widths_keeps : forall fuel s ws h ok h', widths fuel p o clock budget s h ws = Ok (ok, h') ->
  keeps (h_graph h) (h_graph h') /\ (solved (at_ (h_graph h) (key p s)) = true -> h_scores h' = h_scores h).
Proof.
  intros fuel s. induction ws as [|w ws IH]; intros h ok h' E; cbn [widths] in E.
  - injection E as <- <-. split; [apply keeps_refl|auto].
  - apply bind_ok in E as ([[ok1 pr] h1] & E1 & E). destruct (width_keeps _ _ _ _ _ _ _ E1) as (W1 & _).
    assert (Q : solved (at_ (h_graph h) (key p s)) = true -> h_scores h1 = h_scores h).
    { intros So. unfold width_solve in E1. pose proof (keeps_emplace (h_graph h) s) as Ke.
      destruct (emplace p (h_graph h) s) as [g1 new]. cbn [fst] in Ke. rewrite (proj2 (Ke (key p s)) So) in E1. cbn [orb] in E1.
      injection E1 as <- <- <-. reflexivity. }
    assert (So1 : solved (at_ (h_graph h) (key p s)) = true -> solved (at_ (h_graph h1) (key p s)) = true) by (apply W1).
    destruct ok1.
    + destruct (clock (h_ticks h1) <? budget).
      * destruct (IH _ _ _ E) as [H1 H2]. cbn [h_graph h_scores] in *. split; [eapply keeps_trans; eauto|].
        intros So. rewrite H2; auto.
      * injection E as <- <-. cbn. auto.
    + destruct (h_found h1); [injection E as <- <-; auto|]. destruct pr; cbn [negb] in E; [|injection E as <- <-; auto].
      destruct (IH _ _ _ E) as [H1 H2]. split; [eapply keeps_trans; eauto|]. intros So. rewrite H2; auto.
Qed.

Lemma widths_one : forall fuel s ws h ok h', h_found h = false -> h_scores h = [] ->
  widths fuel p o clock budget s h ws = Ok (ok, h') ->
  exists w, Forall (fun x : score => snd (fst x) = w) (h_scores h').
Proof.
  intros fuel s. induction ws as [|w ws IH]; intros h ok h' Nf Ns E; cbn [widths] in E.
  - injection E as <- <-. exists 0. rewrite Ns. constructor.
  - apply bind_ok in E as ([[ok1 pr] h1] & E1 & E). destruct (width_keeps _ _ _ _ _ _ _ E1) as (W1 & W2 & W3 & sc & W4 & W5 & W6).
    rewrite Ns in W4. cbn [app] in W4. rewrite <- W4 in *. clear sc W4.
    assert (D : (h_found h1 = false /\ h_scores h1 = []) \/ solved (at_ (h_graph h1) (key p s)) = true).
    { destruct (h_found h1); [right; destruct (W3 eq_refl); [congruence|auto]|left; auto]. }
    destruct ok1.
    + destruct (clock (h_ticks h1) <? budget).
      * destruct D as [[D1 D2]|D]; [eapply IH; [| |exact E]; auto|].
        destruct (widths_keeps _ _ _ _ _ _ E) as [_ H]. cbn [h_scores h_graph] in H. rewrite H by exact D. eauto.
      * injection E as <- <-. cbn. eauto.
    + destruct (h_found h1) eqn:F1; [injection E as <- <-; eauto|]. destruct pr; cbn [negb] in E; [|injection E as <- <-; eauto].
      destruct D as [[_ D2]|D]; [eapply IH; [| |exact E]; auto|].
      destruct (widths_keeps _ _ _ _ _ _ E) as [_ H]. rewrite H by exact D. eauto.
Qed.

Lemma pruned_count : forall g : graph, some_pruned g -> 0 < get_nb_of_pruned_states g.
Proof.
  intros g [k E]. unfold at_ in E. destruct (dget g k) as [n|] eqn:D; [|discriminate].
  unfold get_nb_of_pruned_states. assert (I : In (k, n) (filter (fun e => pruned (snd e)) g)).
  { apply filter_In. split; [|exact E]. clear E. induction g as [|[k' n'] g IH]; cbn [dget] in D; [discriminate|].
    destruct (pyeqb_spec k k') as [ <- |]; [injection D as <-; now left|right; auto]. }
  destruct (filter _ g); [destruct I|cbn; lia].
Qed.

Lemma no_pruning : forall s, (forall s t, key p s = key p t -> s = t) -> (forall s a, In a (apps p s) -> (0 <= cost p s a (next p s a))%Z) ->
  (forall n, budget <= clock n) -> is_goal p s = false -> features p s <> [] -> forall fuel g scores,
  solve fuel p o clock budget [] s = Ok (false, g, scores) -> get_nb_of_pruned_states g = 0 ->
  forall t, reach p s t -> is_goal p t = false.
Proof.
  intros s KI NN Late G0 NE fuel g scores E P. unfold solve in E. apply bind_ok in E as ([ok h'] & E & Eq). injection Eq as -> <- <-.
  set (h := {| h_graph := [] |}) in *. destruct (features p s) as [|f fs]; [congruence|]. cbn [length seq widths] in E.
  assert (B : before p s h) by (split; [reflexivity|]; split; [reflexivity|]; now left).
  destruct (width_run p o s KI NN clock budget Late G0 1 fuel h B) as [(ok & pr & h1 & E1 & D)|[E1 _]]; rewrite E1 in E; [|discriminate].
  cbn [bind] in E. destruct (width_keeps _ _ _ _ _ _ _ E1) as (W1 & W2 & W3 & _).
  destruct D as [(-> & D1 & D2 & D3 & D4 & D5)|(-> & D1 & _)].
  - rewrite D1 in E. destruct pr; cbn [negb] in E; [|apply D5; now left].
    destruct (widths_keeps _ _ _ _ _ _ E) as [H _]. pose proof (pruned_count _ (keeps_some _ _ H (W2 eq_refl))). lia.
  - destruct (Nat.ltb_spec (clock (h_ticks h1)) budget) as [X|_]; [specialize (Late (h_ticks h1)); lia|]. discriminate.
Qed.
End Flags.
