(** C27-C30: knapsack. *)
From Coq Require Import List Bool Arith ZArith QArith Lia Permutation Sorted.
From Coq Require Import ZifyBool ZifyNat.
From Verif Require Import Py PyList KnapModel KnapProofs.
Import ListNotations.
Open Scope nat_scope.
Open Scope Z_scope.

(** Three items, capacity 10. *)
Definition km1 : kmodel := mkModel [mkItem 0 10 5; mkItem 1 40 4; mkItem 2 30 6] 10 false.

(** * C27: evaluation *)

(** A fresh solution: the value is the total value of the taken items, the violation is the weight in
    excess; both totals are cached.  With [force_recompute_values] the same holds for every solution. *)
Theorem C27_evaluate : forall m s, (length (m_items m) <= length (k_taken s))%nat ->
  k_value s = None \/ m_force m = true ->
  let v := total it_value (m_items m) (k_taken s) in
  let w := total it_weight (m_items m) (k_taken s) in
  evaluate m s = Ok ((v, Z.max 0 (w - m_cap m)), mkSol (Some v) (Some w) (k_taken s)).
Proof. exact evaluate_fresh. Qed.

Example C27_evaluate_ex : evaluate km1 (mkSol None None [1; 0; 1]) = Ok ((40, 1), mkSol (Some 40) (Some 11) [1; 0; 1]).
Proof. reflexivity. Qed.

(** Evaluating again changes nothing. *)
Theorem C27_evaluate_again : forall m s, coherent m s ->
  evaluate m s = Ok ((total it_value (m_items m) (k_taken s),
                      Z.max 0 (total it_weight (m_items m) (k_taken s) - m_cap m)), s).
Proof. exact evaluate_coherent. Qed.

Theorem C27_satisfy : forall m s, length (k_taken s) = length (m_items m) -> k_value s = None \/ coherent m s ->
  exists b s', satisfy m s = Ok (b, s') /\ coherent m s' /\ k_taken s' = k_taken s /\
    (b = true <-> total it_weight (m_items m) (k_taken s) <= m_cap m).
Proof.
  intros m s L [N|C].
  - unfold satisfy. rewrite N, evaluate_fresh by (auto; lia). cbn [bind snd k_weight].
    eexists. eexists. split; [reflexivity|]. split; [repeat split; auto|]. split; auto. apply Z.leb_le.
  - unfold satisfy. pose proof C as [_ [E1 E2]]. rewrite E1. cbn [bind]. rewrite E2.
    eexists. eexists. split; [reflexivity|]. split; auto. split; auto. apply Z.leb_le.
Qed.

Example C27_satisfy_ex : (exists s, satisfy km1 (mkSol None None [1; 0; 1]) = Ok (false, s)) /\
  (exists s, satisfy km1 (mkSol None None [1; 1; 0]) = Ok (true, s)).
Proof. split; eexists; reflexivity. Qed.

(** A vector shorter than the list of items is an error, not a value. *)
Theorem C27_short : forall m s, (length (k_taken s) < length (m_items m))%nat -> k_value s = None ->
  exists e, evaluate m s = Err e.
Proof.
  intros m s L N. unfold evaluate, evaluate_value. rewrite N.
  assert (X : forall f, exists e, weighted f m s = Err e).
  { intros f. unfold weighted. destruct (mapM _ _) as [l|e] eqn:E; [|cbn [bind]; eauto].
    exfalso. apply mapM_ok in E. unfold nb_items in E.
    assert (I : In (length (k_taken s)) (seq 0 (length (m_items m)))) by (apply in_seq; lia).
    clear - E I. induction E as [|x y l l' H E IH]; [destruct I|]. destruct I as [-> |I]; [|auto].
    apply bind_ok in H. destruct H as [a [H _]]. apply lget_ok in H.
    assert (length (k_taken s) < length (k_taken s))%nat by (apply nth_error_Some; congruence). lia. }
  destruct (X it_value) as [e ->]. simpl. eauto.
Qed.

(** The dummy solution takes no item: worth nothing, weighing nothing, and feasible. *)
Theorem C27_dummy : forall m, 0 <= m_cap m ->
  exists s, dummy m = Ok s /\ length (k_taken s) = length (m_items m) /\ (forall t, In t (k_taken s) -> t = 0) /\
    k_value s = Some 0 /\ k_weight s = Some 0 /\ satisfy m s = Ok (true, s).
Proof.
  intros m C. unfold dummy, nb_items.
  rewrite evaluate_fresh by (cbn; rewrite ?repeat_length; auto). cbn [bind snd k_taken].
  assert (Z0 : forall f, total f (m_items m) (repeat 0 (length (m_items m))) = 0).
  { intros f. induction (m_items m) as [|it l IH]; auto. }
  eexists. split; [reflexivity|]. cbn [k_taken k_value k_weight]. rewrite !Z0, repeat_length. split; auto.
  split; [intros t I; now apply repeat_spec in I|]. repeat split.
  unfold satisfy. cbn [k_value k_weight bind]. now rewrite (proj2 (Z.leb_le _ _) C).
Qed.

Example C27_dummy_ex : dummy km1 = Ok (mkSol (Some 0) (Some 0) [0; 0; 0]).
Proof. reflexivity. Qed.

(** The multi-objective variant adds the largest weight among the taken items and the total weight. *)
Theorem C27_mobj : forall m s, selection (m_items m) (k_taken s) -> k_value s = None \/ coherent m s ->
  exists s' h, evaluate_mobj m s =
    Ok ((total it_value (m_items m) (k_taken s), Z.max 0 (total it_weight (m_items m) (k_taken s) - m_cap m)),
        (h, total it_weight (m_items m) (k_taken s)), s') /\ coherent m s' /\
    (forall i it, nth_error (k_taken s) i = Some 1 -> nth_error (m_items m) i = Some it -> it_weight it <= h) /\
    (h = 0 \/ exists i it, nth_error (k_taken s) i = Some 1 /\ nth_error (m_items m) i = Some it /\ h = it_weight it).
Proof.
  intros m s [L F] H.
  assert (EV : exists s', evaluate m s = Ok ((total it_value (m_items m) (k_taken s),
             Z.max 0 (total it_weight (m_items m) (k_taken s) - m_cap m)), s') /\ coherent m s' /\ k_taken s' = k_taken s).
  { destruct H as [N|C].
    - rewrite evaluate_fresh by (auto; lia). eexists. split; [reflexivity|]. repeat split; auto.
    - exists s. split; [now apply evaluate_coherent|]. auto. }
  destruct EV as [s' [E [C T]]]. unfold evaluate_mobj. rewrite E. cbn [bind fst snd]. rewrite T.
  unfold nb_items.
  edestruct (@foldM_total _ _ (fun hw i => let* t := lget (k_taken s) i in
                 if t =? 1 then let* it := lget (m_items m) i in
                                Ok (Z.max (fst hw) (it_weight it), snd hw + it_weight it)
                 else Ok hw)
    (fun l0 hw => let k := length l0 in
       snd hw = total it_weight (firstn k (m_items m)) (firstn k (k_taken s)) /\
       (forall i it, (i < k)%nat -> nth_error (k_taken s) i = Some 1 -> nth_error (m_items m) i = Some it -> it_weight it <= fst hw) /\
       (fst hw = 0 \/ exists i it, nth_error (k_taken s) i = Some 1 /\ nth_error (m_items m) i = Some it /\ fst hw = it_weight it))
    (seq 0 (length (m_items m))) (0, 0)) as [hw [E1 [E2 [E3 E4]]]].
  - cbn. split; [reflexivity|]. split; [lia|auto].
  - intros l0 x l1 hw EL [P1 [P2 P3]].
    assert (X : x = length l0 /\ (x < length (m_items m))%nat).
    { assert (nth_error (seq 0 (length (m_items m))) (length l0) = Some x).
      { rewrite EL, nth_error_app2 by lia. now rewrite Nat.sub_diag. }
      assert (length l0 < length (m_items m))%nat.
      { rewrite <- (seq_length (length (m_items m)) 0). apply nth_error_Some. congruence. }
      rewrite nth_error_seq in H0 by lia. injection H0 as <-. split; lia. }
    destruct X as [-> X]. rewrite app_length. cbn [length].
    destruct (nth_error (m_items m) (length l0)) as [it|] eqn:N1; [|apply nth_error_None in N1; lia].
    destruct (nth_error (k_taken s) (length l0)) as [t|] eqn:N2; [|apply nth_error_None in N2; lia].
    unfold lget. rewrite N2. cbn [bind]. replace (length l0 + 1)%nat with (S (length l0)) by lia.
    rewrite (firstn_snoc _ _ N1), (firstn_snoc _ _ N2), total_snoc by (rewrite !firstn_length; lia).
    assert (T01 : t = 0 \/ t = 1) by (rewrite Forall_forall in F; apply F; eapply nth_error_In; eauto).
    destruct (Z.eqb_spec t 1) as [-> |NE].
    + rewrite N1. cbn [bind]. eexists. split; [reflexivity|]. cbn [fst snd]. split; [lia|]. split.
      * intros i it0 LT A B. destruct (Nat.eq_dec i (length l0)) as [-> |D].
        -- rewrite N1 in B. injection B as <-. lia.
        -- assert (it_weight it0 <= fst hw) by (apply (P2 i); auto; lia). lia.
      * destruct (Z.max_spec (fst hw) (it_weight it)) as [[_ ->]|[_ ->]]; [right; eauto|exact P3].
    + destruct T01 as [-> |]; [|contradiction]. eexists. split; [reflexivity|]. split; [lia|]. split; auto.
      intros i it0 LT A B. destruct (Nat.eq_dec i (length l0)) as [-> |D]; [congruence|]. apply (P2 i); auto; lia.
  - rewrite E1. cbn [bind]. rewrite seq_length in *. rewrite firstn_all in E2. rewrite <- L, firstn_all in E2.
    exists s', (fst hw). destruct hw as [a b]. cbn [fst snd] in *. subst b. split; [reflexivity|]. split; auto.
    split; auto. intros i it A B. apply (E3 i); auto. rewrite <- L. apply nth_error_Some. congruence.
Qed.

Example C27_mobj_ex : exists s, evaluate_mobj km1 (mkSol None None [1; 0; 1]) = Ok ((40, 1), (6, 11), s).
Proof. eexists. reflexivity. Qed.

(** Findings: the cached totals are not invalidated when the vector is changed; [satisfy] looks at them
    even when [force_recompute_values] is set; a solution with a value but no weight cannot be evaluated. *)
Theorem C27_stale_cache_refuted : exists m s s1 t, snd s1 = mkSol (Some 50) (Some 9) [1; 1; 0] /\
  evaluate m s = Ok s1 /\ t = mkSol (k_value (snd s1)) (k_weight (snd s1)) [1; 1; 1] /\
  evaluate m t = Ok ((50, 0), t) /\ total it_value (m_items m) (k_taken t) = 80 /\
  total it_weight (m_items m) (k_taken t) = 15.
Proof.
  exists km1, (mkSol None None [1; 1; 0]). eexists. eexists.
  split; [|split; [reflexivity|split; [reflexivity|]]]; cbn; auto.
Qed.

Theorem C27_force_satisfy_refuted : exists m s, m_force m = true /\ satisfy m s = Ok (true, s) /\
  m_cap m < total it_weight (m_items m) (k_taken s).
Proof.
  exists (mkModel (m_items km1) 10 true), (mkSol (Some 50) (Some 9) [1; 1; 1]).
  split; [reflexivity|]. split; reflexivity.
Qed.

Theorem C27_value_only_fails : forall m v t, m_force m = false ->
  evaluate m (mkSol (Some v) None t) = Err TypeError /\ satisfy m (mkSol (Some v) None t) = Err TypeError.
Proof. intros m v t F. unfold evaluate, satisfy. cbn. rewrite F. auto. Qed.
(** A solution with a value but no weight can be neither evaluated nor checked. *)
Theorem C27_value_only_refuted : exists m s, m_force m = false /\ evaluate m s = Err TypeError /\ satisfy m s = Err TypeError.
Proof. exists km1, (mkSol (Some 5) None [1; 0; 0]). split; [reflexivity|]. split; reflexivity. Qed.

(** * C28: dynamic programming *)

(** The number of items considered, given the options. *)
Definition considered (m : kmodel) (max_items stop : option nat) : nat :=
  let mi := match max_items with Some k => Nat.min (length (m_items m)) (k - 1) | None => length (m_items m) end in
  match stop with Some k => Nat.min mi k | None => mi end.

Lemma dp_labelled : forall m mi stop, labelled m -> 0 <= m_cap m ->
  (forall it, In it (m_items m) -> 0 <= it_weight it) ->
  let n := considered m mi stop in
  exists s, dp m false mi stop = Ok s /\ coherent m s /\ selection (m_items m) (k_taken s) /\
    total it_weight (m_items m) (k_taken s) <= m_cap m /\
    best (firstn n (m_items m)) (m_cap m) (total it_value (m_items m) (k_taken s)) /\
    (forall i, (n <= i < length (m_items m))%nat -> nth_error (k_taken s) i = Some 0).
Proof.
  intros m mi stop L C W n. unfold dp. destruct (Z.ltb_spec (m_cap m) 0); [lia|].
  unfold promising. cbn [bind].
  set (turns := match stop with Some k => _ | None => _ end).
  assert (TN : turns = n).
  { unfold turns, n, considered, nb_items. destruct mi, stop; lia. }
  clearbody turns. subst turns.
  assert (LE : (n <= length (m_items m))%nat) by (unfold n, considered; destruct mi, stop; lia).
  assert (ND : NoDup (m_items m)).
  { pose proof (labels_nodup m L) as X. revert X. apply NoDup_map_inv. }
  destruct (dp_on m (m_items m) n L (incl_refl _) ND C W LE) as [t [v [w [E [S [V [WE [F [B Z0]]]]]]]]].
  destruct (foldM _ _ _) as [rc|e]; [|discriminate]. cbn [bind] in E |- *. rewrite E. cbn [bind].
  eexists. split; [reflexivity|]. cbn [k_taken]. subst v w.
  split; [split; [apply S|split; reflexivity]|]. split; auto. split; auto. split; auto.
  intros i HI. apply Z0; [|lia]. intros I. apply in_map_iff in I. destruct I as [it [EI I]].
  apply In_nth_error in I. destruct I as [j J].
  assert (j < n)%nat.
  { assert (j < length (firstn n (m_items m)))%nat by (apply nth_error_Some; congruence).
    rewrite firstn_length in H0. lia. }
  rewrite nth_error_firstn in J by assumption. rewrite (L j it J) in EI. lia.
Qed.

(** The selection returned with the default options fits, its reported value and weight are true, and no
    selection that fits is worth more. *)
Theorem C28_optimal : forall m, labelled m -> 0 <= m_cap m ->
  (forall it, In it (m_items m) -> 0 <= it_weight it) ->
  exists s, dp m false None None = Ok s /\ coherent m s /\ selection (m_items m) (k_taken s) /\
    total it_weight (m_items m) (k_taken s) <= m_cap m /\
    forall sel, selection (m_items m) sel -> total it_weight (m_items m) sel <= m_cap m ->
      total it_value (m_items m) sel <= total it_value (m_items m) (k_taken s).
Proof.
  intros m L C W. destruct (dp_labelled m None None L C W) as [s [E [CO [S [F [B _]]]]]].
  exists s. repeat (split; [assumption|]). unfold considered in B. rewrite firstn_all in B. apply B.
Qed.

(** With a limit on the number of items or on time: optimal among the selections of the items considered. *)
Theorem C28_limited : forall m mi stop, labelled m -> 0 <= m_cap m ->
  (forall it, In it (m_items m) -> 0 <= it_weight it) ->
  let n := considered m mi stop in
  exists s, dp m false mi stop = Ok s /\ coherent m s /\ selection (m_items m) (k_taken s) /\
    total it_weight (m_items m) (k_taken s) <= m_cap m /\
    (forall i, (n <= i < length (m_items m))%nat -> nth_error (k_taken s) i = Some 0) /\
    forall sel, selection (m_items m) sel -> (forall i, (n <= i < length (m_items m))%nat -> nth_error sel i = Some 0) ->
      total it_weight (m_items m) sel <= m_cap m ->
      total it_value (m_items m) sel <= total it_value (m_items m) (k_taken s).
Proof.
  intros m mi stop L C W n. destruct (dp_labelled m mi stop L C W) as [s [E [CO [S [F [B Z0]]]]]].
  fold n in B, Z0. exists s. repeat (split; [assumption|]). intros sel [SL SF] SZ SW.
  assert (LE : (n <= length (m_items m))%nat) by (unfold n, considered; destruct mi, stop; lia).
  assert (X : forall f, total f (m_items m) sel = total f (firstn n (m_items m)) (firstn n sel)).
  { intros f. rewrite <- (firstn_skipn n (m_items m)) at 1. rewrite <- (firstn_skipn n sel) at 1.
    rewrite total_app by (rewrite !firstn_length; lia).
    replace (skipn n sel) with (repeat 0 (length (skipn n sel))); [rewrite total_zero; lia|].
    apply nth_error_ext. intros i. destruct (lt_dec i (length (skipn n sel))) as [D|D].
    - rewrite nth_error_repeat by assumption. rewrite nth_error_skipn. rewrite skipn_length in D.
      symmetry. apply SZ. lia.
    - replace (nth_error (skipn n sel) i) with (@None Z) by (symmetry; apply nth_error_None; lia).
      apply nth_error_None. rewrite repeat_length. lia. }
  rewrite X. apply B; [|now rewrite <- X]. split; [rewrite !firstn_length; lia|].
  apply Forall_forall. intros x I. rewrite Forall_forall in SF. apply SF.
  rewrite <- (firstn_skipn n sel). apply in_or_app; auto.
Qed.

(** Sorting by a key that is defined for every item, when every item fits alone. *)
Lemma by_key_perm : forall key m, (forall it, In it (m_items m) -> it_weight it <= m_cap m) ->
  (forall it, In it (m_items m) -> exists k, key it = Ok k) ->
  exists ks, by_key key m = Ok (map snd ks) /\ Permutation (map snd ks) (m_items m) /\
    Sorted (fun a b => Qle_bool (fst b) (fst a) = true) ks /\ Forall (fun p => key (snd p) = Ok (fst p)) ks.
Proof.
  intros key m FI K. unfold by_key.
  replace (filter _ (m_items m)) with (m_items m).
  2:{ clear K. induction (m_items m) as [|x l IH]; auto. cbn [filter].
      destruct (Z.leb_spec (it_weight x) (m_cap m)) as [H|H].
      - f_equal. apply IH. intros; apply FI; simpl; auto.
      - exfalso. assert (it_weight x <= m_cap m) by (apply FI; simpl; auto). lia. }
  assert (X : exists ks, mapM (fun it => let* k := key it in Ok (k, it)) (m_items m) = Ok ks /\
            map snd ks = m_items m /\ Forall (fun p => key (snd p) = Ok (fst p)) ks).
  { clear FI. induction (m_items m) as [|x l IH]; [exists []; auto|].
    destruct (K x) as [k E]; [simpl; auto|].
    destruct IH as [ks [E1 [E2 E3]]]; [intros; apply K; simpl; auto|].
    exists ((k, x) :: ks). cbn [mapM]. rewrite E. cbn [bind]. rewrite E1. cbn [bind].
    split; auto. split; [simpl; congruence|]. constructor; auto. }
  destruct X as [ks [E1 [E2 E3]]]. rewrite E1. cbn [bind].
  set (le := fun a b : Q * item => Qle_bool (fst b) (fst a)).
  pose proof (ssort_perm le ks) as P.
  exists (ssort le ks). split; [reflexivity|]. split.
  - rewrite <- E2. apply Permutation_map. now apply Permutation_sym.
  - split.
    + apply ssort_sorted. unfold le. intros a b H.
      destruct (Qle_bool (fst a) (fst b)) eqn:Q0; auto. exfalso.
      assert (~ (fst b <= fst a)%Q) by (intros Y; apply Qle_bool_iff in Y; congruence).
      assert (~ (fst a <= fst b)%Q) by (intros Y; apply Qle_bool_iff in Y; congruence).
      destruct (Qlt_le_dec (fst a) (fst b)) as [Y|Y]; [apply Qlt_le_weak in Y|]; contradiction.
    + apply Forall_forall. intros p I. rewrite Forall_forall in E3. apply E3.
      eapply Permutation_in; [|exact I]. now apply Permutation_sym.
Qed.

Lemma density_ok : forall it, 0 < it_weight it -> exists k, density it = Ok k.
Proof. intros it H. unfold density. destruct (Z.eqb_spec (it_weight it) 0); [lia|eauto]. Qed.

Theorem C28_greedy_start : forall m, labelled m -> 0 <= m_cap m ->
  (forall it, In it (m_items m) -> 0 < it_weight it <= m_cap m) ->
  exists s, dp m true None None = Ok s /\ coherent m s /\ selection (m_items m) (k_taken s) /\
    total it_weight (m_items m) (k_taken s) <= m_cap m /\
    forall sel, selection (m_items m) sel -> total it_weight (m_items m) sel <= m_cap m ->
      total it_value (m_items m) sel <= total it_value (m_items m) (k_taken s).
Proof.
  intros m L C W.
  destruct (by_key_perm density m) as [ks [E [P _]]].
  { intros it I. apply W in I. lia. }
  { intros it I. apply density_ok. apply W in I. lia. }
  unfold dp, promising. destruct (Z.ltb_spec (m_cap m) 0); [lia|]. rewrite E. cbn [bind].
  set (sq := map snd ks) in *.
  assert (ND : NoDup sq).
  { eapply Permutation_NoDup; [apply Permutation_sym; exact P|].
    pose proof (labels_nodup m L) as X. revert X. apply NoDup_map_inv. }
  assert (IN : incl sq (m_items m)) by (intros x I; eapply Permutation_in; eauto).
  replace (nb_items m + 1 - 1)%nat with (length sq)
    by (unfold nb_items; rewrite (Permutation_length P); lia).
  destruct (dp_on m sq (length sq) L IN ND C) as [t [v [w [E0 [S [V [WE [F [B _]]]]]]]]]; auto.
  { intros it I. apply W in I. lia. }
  destruct (foldM _ _ _) as [rc|e]; [|discriminate]. cbn [bind] in E0 |- *. rewrite E0. cbn [bind].
  eexists. split; [reflexivity|]. cbn [k_taken]. subst v w.
  split; [split; [apply S|split; reflexivity]|]. split; auto. split; auto.
  intros sel SS SW. rewrite firstn_all in B. destruct B as [_ B].
  destruct (selection_perm _ sq _ (Permutation_sym P) SS) as [sel' [S' T']].
  rewrite <- (T' it_value). apply B; auto. now rewrite T'.
Qed.

Lemma km1_labelled : labelled km1.
Proof. intros [|[|[|i]]] it H; cbn in H; try (injection H as <-; reflexivity). destruct i; discriminate. Qed.

Example C28_ex : labelled km1 /\ dp km1 false None None = Ok (mkSol (Some 70) (Some 10) [0; 1; 1]) /\
  dp km1 true None None = Ok (mkSol (Some 70) (Some 10) [0; 1; 1]) /\
  dp km1 false (Some 3%nat) None = Ok (mkSol (Some 50) (Some 9) [1; 1; 0]) /\
  dp km1 false None (Some 1%nat) = Ok (mkSol (Some 10) (Some 5) [1; 0; 0]).
Proof. split; [apply km1_labelled|]. repeat split; reflexivity. Qed.

(** Findings. With [greedy_start] one item that does not fit alone is enough for IndexError. *)
Theorem C28_greedy_start_refuted : exists m, labelled m /\ 0 <= m_cap m /\
  (forall it, In it (m_items m) -> 0 < it_weight it) /\ dp m true None None = Err IndexError.
Proof.
  exists (mkModel [mkItem 0 10 5; mkItem 1 40 12] 10 false). split.
  { intros [|[|i]] it H; cbn in H; try (injection H as <-; reflexivity). destruct i; discriminate. }
  split; [cbn; lia|]. split; [|reflexivity]. intros it [<-|[<-|[]]]; cbn; lia.
Qed.

(** [solve_np] returns selections that do not fit. *)
Theorem C28_solve_np_refuted : exists m s, labelled m /\ 0 <= m_cap m /\
  (forall it, In it (m_items m) -> 0 < it_weight it <= m_cap m) /\
  dp_np m = Ok s /\ m_cap m < total it_weight (m_items m) (k_taken s).
Proof.
  exists (mkModel [mkItem 0 10 5; mkItem 1 40 4; mkItem 2 30 6] 6 false). eexists. split; [apply km1_labelled|].
  split; [cbn; lia|]. split; [|split; [reflexivity|cbn; lia]].
  intros it [<-|[<-|[<-|[]]]]; cbn; lia.
Qed.

(** When labels are not positions, the vector returned marks other items than those chosen: it may be
    overweight while the cached weight says otherwise. *)
Theorem C28_labels_refuted : exists m s, NoDup (map it_index (m_items m)) /\ 0 <= m_cap m /\
  (forall it, In it (m_items m) -> 0 <= it_weight it) /\ dp m false None None = Ok s /\
  satisfy m s = Ok (true, s) /\ m_cap m < total it_weight (m_items m) (k_taken s).
Proof.
  exists (mkModel [mkItem 1 1 9; mkItem 0 5 1] 5 false). eexists.
  split; [repeat constructor; cbn; intuition lia|]. split; [cbn; lia|].
  split; [intros it [<-|[<-|[]]]; cbn; lia|]. split; [reflexivity|]. split; reflexivity.
Qed.

(** * C29: greedy *)

Lemma total_nonneg : forall f items sel, selection items sel -> (forall it, In it items -> 0 <= f it) ->
  0 <= total f items sel.
Proof.
  intros f items sel [L F] H. unfold total. apply sumZ_map_nonneg. intros [x y] I. simpl.
  pose proof (in_combine_l _ _ _ _ I) as I1. pose proof (in_combine_r _ _ _ _ I) as I2.
  rewrite Forall_forall in F. specialize (F _ I1). specialize (H _ I2). nia.
Qed.

Lemma greedy_on : forall m queue q, labelled m -> 0 <= m_cap m ->
  (forall it, In it (m_items m) -> 0 <= it_weight it) ->
  queue m = Ok q -> Permutation q (m_items m) ->
  exists s, greedy m queue = Ok s /\ coherent m s /\ selection (m_items m) (k_taken s) /\
    total it_weight (m_items m) (k_taken s) <= m_cap m /\
    (forall i it, nth_error (m_items m) i = Some it -> nth_error (k_taken s) i = Some 0 ->
       m_cap m < total it_weight (m_items m) (k_taken s) + it_weight it) /\
    ((forall it, In it (m_items m) -> 0 <= it_value it) ->
       (total it_value (m_items m) (k_taken s) = sumZ (map it_value q) \/
        exists j it, nth_error q j = Some it /\ m_cap m < sumZ (map it_weight (firstn j q)) + it_weight it /\
           sumZ (map it_value (firstn j q)) <= total it_value (m_items m) (k_taken s))).
Proof.
  intros m queue q L C W EQ P. unfold greedy. rewrite EQ. cbn [bind].
  assert (IN : incl q (m_items m)) by (intros x I; eapply Permutation_in; eauto).
  assert (ND : NoDup q).
  { eapply Permutation_NoDup; [apply Permutation_sym; exact P|].
    pose proof (labels_nodup m L) as X. revert X. apply NoDup_map_inv. }
  assert (LQ : length q = nb_items m) by (apply Permutation_length; exact P).
  edestruct (@foldM_total _ _ (greedy_turn m q)
    (fun l0 st => let '(t, v, w) := st in let k := length l0 in
       selection (m_items m) t /\ v = total it_value (m_items m) t /\ w = total it_weight (m_items m) t /\ w <= m_cap m /\
       (forall it, In it (skipn k q) -> nth_error t (it_index it) = Some 0) /\
       (forall it, In it (firstn k q) -> nth_error t (it_index it) = Some 0 -> m_cap m < w + it_weight it) /\
       ((forall it, In it (m_items m) -> 0 <= it_value it) ->
        ((v = sumZ (map it_value (firstn k q)) /\ w = sumZ (map it_weight (firstn k q))) \/
          exists j it, nth_error q j = Some it /\ m_cap m < sumZ (map it_weight (firstn j q)) + it_weight it /\
           sumZ (map it_value (firstn j q)) <= v)))
    (seq 0 (nb_items m)) (repeat 0 (nb_items m), 0, 0)) as [[[t v] w] [E [S [V [WW [F [SK [FI BO]]]]]]]].
  - split; [apply selection_repeat|]. unfold nb_items. rewrite !total_zero. cbn [length skipn firstn].
    split; [reflexivity|]. split; [reflexivity|]. split; [lia|]. split; [|split; [intros it []|auto]].
    intros it I. apply nth_error_repeat. apply nth_error_Some. rewrite (label_nth m it L); [discriminate|auto].
  - intros l0 x l1 [[t v] w] EL [S [V [WW [F [SK [FI BO]]]]]].
    destruct (seq_split _ _ _ _ _ EL) as [-> LT]. rewrite app_length. cbn [length plus].
    replace (length l0 + 1)%nat with (Datatypes.S (length l0)) by lia. set (k := length l0) in *.
    destruct (nth_error q k) as [it|] eqn:N; [|apply nth_error_None in N; lia].
    assert (IT : In it (m_items m)) by (apply IN; eapply nth_error_In; eauto).
    pose proof (label_nth m it L IT) as LN.
    assert (SKE : skipn k q = it :: skipn (Datatypes.S k) q).
    { now apply skipn_nth. }
    assert (T0 : nth_error t (it_index it) = Some 0) by (apply SK; rewrite SKE; simpl; auto).
    unfold greedy_turn, lget. rewrite N. cbn [bind].
    rewrite (firstn_snoc _ _ N).
    destruct (Z.leb_spec (it_weight it + w) (m_cap m)) as [K|K].
    + unfold lput. assert (LTT : (it_index it < length t)%nat) by (apply nth_error_Some; congruence).
      destruct (Nat.ltb_spec (it_index it) (length t)); [|lia]. cbn [bind].
      eexists. split; [reflexivity|]. destruct S as [S1 S2]. cbv beta iota.
      rewrite !(total_lset _ _ _ _ 0 it) by auto.
      split; [split; [now rewrite lset_length|]|].
      { apply Forall_forall. intros y Hy. apply In_lset in Hy. rewrite Forall_forall in S2. destruct Hy; auto. }
      split; [lia|]. split; [lia|]. split; [lia|].
      pose proof (W it IT) as WI.
      assert (NK : NoDup (firstn k q ++ it :: skipn (Datatypes.S k) q)) by (rewrite <- SKE, firstn_skipn; exact ND).
      split; [|split].
      * intros it0 I. rewrite lset_nth_error.
        destruct (Nat.eqb_spec (it_index it) (it_index it0)) as [EI|EI]; [|apply SK; rewrite SKE; simpl; auto].
        exfalso. assert (I0 : In it0 (m_items m)).
        { apply IN. rewrite <- (firstn_skipn (Datatypes.S k) q). apply in_or_app; auto. }
        pose proof (label_nth m it0 L I0). assert (it0 = it) by congruence. subst it0.
        apply NoDup_remove_2 in NK. apply NK. apply in_or_app; auto.
      * intros it0 I Z0. rewrite lset_nth_error in Z0.
        destruct (Nat.eqb_spec (it_index it) (it_index it0)) as [EI|EI].
        { destruct (Nat.ltb (it_index it) (length t)); discriminate. }
        apply in_app_iff in I. destruct I as [I|[<-|[]]]; [|congruence].
        specialize (FI it0 I Z0). lia.
      * intros VN. rewrite !map_app, !sumZ_app. cbn [map sumZ fold_right].
        destruct (BO VN) as [[B1 B2]|[j [itj [B1 [B2 B3]]]]]; [left; lia|].
        right. exists j, itj. split; auto. split; auto. pose proof (VN it IT). lia.
    + eexists. split; [reflexivity|]. cbv beta iota. split; auto. split; auto. split; auto. split; auto.
      split; [intros it0 I; apply SK; rewrite SKE; simpl; auto|]. split.
      * intros it0 I Z0. apply in_app_iff in I. destruct I as [I|[<-|[]]]; [auto|lia].
      * intros VN. right. destruct (BO VN) as [[B1 B2]|B]; auto. exists k, it. split; auto. split; lia.
  - rewrite E. cbn [bind]. eexists. split; [reflexivity|]. cbn [k_taken]. rewrite seq_length in *.
    rewrite <- LQ in FI, BO. rewrite firstn_all in FI, BO. subst v w.
    split; [split; [apply S|split; reflexivity]|]. split; auto. split; auto. split.
    + intros i it N Z0. apply FI.
      * eapply Permutation_in; [apply Permutation_sym; exact P|]. eapply nth_error_In; eauto.
      * now rewrite (L i it N).
    + intros VN. destruct (BO VN) as [[B _]|B]; auto.
Qed.

(** Whatever the order of the queue, as long as it holds every item once: the selection fits, the reported
    value and weight are true, and no item left out would still fit. *)
Theorem C29_greedy : forall m queue q, labelled m -> 0 <= m_cap m ->
  (forall it, In it (m_items m) -> 0 <= it_weight it) ->
  queue m = Ok q -> Permutation q (m_items m) ->
  exists s, greedy m queue = Ok s /\ coherent m s /\ selection (m_items m) (k_taken s) /\
    total it_weight (m_items m) (k_taken s) <= m_cap m /\
    (forall i it, nth_error (m_items m) i = Some it -> nth_error (k_taken s) i = Some 0 ->
       m_cap m < total it_weight (m_items m) (k_taken s) + it_weight it).
Proof.
  intros m queue q L C W E P. destruct (greedy_on m queue q L C W E P) as [s [A1 [A2 [A3 [A4 [A5 _]]]]]].
  exists s. auto.
Qed.

(** Fractional bound. *)
Lemma frac_bound : forall q1 it q2 s1 x s2 c, length s1 = length q1 ->
  selection (q1 ++ it :: q2) (s1 ++ x :: s2) -> 0 < it_weight it -> 0 <= it_value it ->
  (forall a, In a q1 -> it_value it * it_weight a <= it_value a * it_weight it) ->
  (forall a, In a q2 -> it_value a * it_weight it <= it_value it * it_weight a) ->
  total it_weight (q1 ++ it :: q2) (s1 ++ x :: s2) <= c -> c < sumZ (map it_weight q1) + it_weight it ->
  total it_value (q1 ++ it :: q2) (s1 ++ x :: s2) <= sumZ (map it_value q1) + it_value it.
Proof.
  intros q1 it q2 s1 x s2 c L [LL F] WP VP H1 H2 TW TC.
  rewrite total_app in * by assumption.
  assert (A : forall f, total f (it :: q2) (x :: s2) = x * f it + total f q2 s2) by (intros; reflexivity).
  rewrite A in *. clear A.
  apply Forall_app in F. destruct F as [F1 F2].
  assert (B1 : it_weight it * total it_value q1 s1 <=
          it_weight it * sumZ (map it_value q1) - it_value it * sumZ (map it_weight q1) + it_value it * total it_weight q1 s1).
  { clear - L F1 H1 WP. revert s1 L F1. unfold total.
    induction q1 as [|a q1 IH]; intros s1 L F1; destruct s1 as [|y s1]; try discriminate; [cbn; lia|].
    inversion F1; subst. cbn [combine map fst snd sumZ fold_right].
    assert (E : it_value it * it_weight a <= it_value a * it_weight it) by (apply H1; simpl; auto).
    specialize (IH (fun b I => H1 b (or_intror I)) s1 (f_equal pred L) H3).
    fold (sumZ (map (fun p : Z * item => fst p * it_value (snd p)) (combine s1 q1))) in *.
    fold (sumZ (map (fun p : Z * item => fst p * it_weight (snd p)) (combine s1 q1))) in *.
    fold (sumZ (map it_value q1)) in *. fold (sumZ (map it_weight q1)) in *. 
    destruct H2 as [-> | ->]; nia. }
  assert (B2 : it_weight it * total it_value q2 s2 <= it_value it * total it_weight q2 s2).
  { inversion F2 as [|? ? X F3]; subst. clear - F3 H2. unfold total. revert s2 F3.
    induction q2 as [|a q2 IH]; intros s2 F3; destruct s2 as [|y s2]; try (cbn; lia).
    inversion F3; subst. cbn [combine map fst snd sumZ fold_right].
    assert (E : it_value a * it_weight it <= it_value it * it_weight a) by (apply H2; simpl; auto).
    specialize (IH (fun b I => H2 b (or_intror I)) s2 H3).
    fold (sumZ (map (fun p : Z * item => fst p * it_value (snd p)) (combine s2 q2))) in *.
    fold (sumZ (map (fun p : Z * item => fst p * it_weight (snd p)) (combine s2 q2))) in *.
    destruct H1 as [-> | ->]; nia. }
  set (TV1 := total it_value q1 s1) in *. set (TV2 := total it_value q2 s2) in *.
  set (TW1 := total it_weight q1 s1) in *. set (TW2 := total it_weight q2 s2) in *.
  set (V1 := sumZ (map it_value q1)) in *. set (W1 := sumZ (map it_weight q1)) in *.
  assert (it_weight it * (TV1 + (x * it_value it + TV2)) <= it_weight it * (V1 + it_value it)) by nia.
  nia.
Qed.

Lemma all_ones : forall f items sel, selection items sel -> (forall it, In it items -> 0 <= f it) ->
  total f items sel <= sumZ (map f items).
Proof.
  unfold total. induction items as [|a items IH]; intros sel [L F] H; destruct sel as [|x sel]; try discriminate L; [cbn; lia|].
  cbn. inversion F; subst. assert (0 <= f a) by (apply H; simpl; auto).
  assert (sumZ (map (fun p => fst p * f (snd p)) (combine sel items)) <= sumZ (map f items)).
  { apply IH; [split; auto|]. intros; apply H; simpl; auto. }
  unfold sumZ in *. destruct H2 as [-> | ->]; lia.
Qed.

(** By decreasing density, with non-negative values: at most the value of one item is lost with respect to
    any selection that fits. *)
Theorem C29_density_bound : forall m, labelled m -> 0 <= m_cap m ->
  (forall it, In it (m_items m) -> 0 < it_weight it <= m_cap m /\ 0 <= it_value it) ->
  exists s, greedy m (by_key density) = Ok s /\ coherent m s /\ selection (m_items m) (k_taken s) /\
    total it_weight (m_items m) (k_taken s) <= m_cap m /\
    forall sel mx, selection (m_items m) sel -> total it_weight (m_items m) sel <= m_cap m ->
      (forall it, In it (m_items m) -> it_value it <= mx) -> 0 <= mx ->
      total it_value (m_items m) sel <= total it_value (m_items m) (k_taken s) + mx.
Proof.
  intros m L C H.
  destruct (by_key_perm density m) as [ks [E [P [SO KS]]]].
  { intros it I. apply H in I. lia. }
  { intros it I. apply density_ok. apply H in I. lia. }
  destruct (greedy_on m (by_key density) (map snd ks) L C) as [s [A1 [A2 [A3 [A4 [A5 A6]]]]]]; auto.
  { intros it I. apply H in I. lia. }
  exists s. split; auto. split; auto. split; auto. split; auto. intros sel mx SS SW MX M0.
  assert (IN : incl (map snd ks) (m_items m)) by (intros x I; eapply Permutation_in; eauto).
  destruct (selection_perm _ (map snd ks) _ (Permutation_sym P) SS) as [sel' [S' T']].
  rewrite <- (T' it_value). rewrite <- (T' it_weight) in SW.
  destruct A6 as [A6|[j [it [N [J1 J2]]]]].
  { intros it I. apply H in I. lia. }
  - rewrite A6. pose proof (all_ones it_value (map snd ks) sel' S').
    assert (total it_value (map snd ks) sel' <= sumZ (map it_value (map snd ks))); [|lia].
    apply H0. intros it I. apply IN, H in I. lia.
  - assert (SST : StronglySorted (fun a b => it_value b * it_weight a <= it_value a * it_weight b) (map snd ks)).
    { assert (POS : forall p, In p ks -> 0 < it_weight (snd p)) by (intros p I; apply (H (snd p)), IN, in_map; auto).
      assert (SS2 : StronglySorted (fun a b : Q * item => Qle_bool (fst b) (fst a) = true) ks).
      { apply Sorted_StronglySorted; auto. intros a b c X Y. apply Qle_bool_iff in X. apply Qle_bool_iff in Y.
        apply Qle_bool_iff. eapply Qle_trans; eauto. }
      clear - SS2 KS POS. induction SS2 as [|p l S1 IH F]; simpl; constructor.
      - apply IH; [now inversion KS|]. intros; apply POS; simpl; auto.
      - apply Forall_forall. intros b I. apply in_map_iff in I. destruct I as [p2 [<- I]].
        rewrite Forall_forall in F, KS. specialize (F p2 I). apply Qle_bool_iff in F.
        assert (K1 : density (snd p) = Ok (fst p)) by (apply KS; simpl; auto).
        assert (K2 : density (snd p2) = Ok (fst p2)) by (apply KS; simpl; auto).
        assert (P1 : 0 < it_weight (snd p)) by (apply POS; simpl; auto).
        assert (P2 : 0 < it_weight (snd p2)) by (apply POS; simpl; auto).
        unfold density in K1, K2.
        destruct (Z.eqb_spec (it_weight (snd p)) 0); [lia|]. destruct (Z.eqb_spec (it_weight (snd p2)) 0); [lia|].
        injection K1 as K1. injection K2 as K2. rewrite <- K1, <- K2 in F.
        clear - F P1 P2. destruct (it_weight (snd p)) as [|w1|w1]; try lia. destruct (it_weight (snd p2)) as [|w2|w2]; try lia.
        unfold Qdiv, Qinv, inject_Z in F. cbn in F. unfold Qle in F. cbn in F. lia. }
    assert (EQ : map snd ks = firstn j (map snd ks) ++ it :: skipn (Datatypes.S j) (map snd ks)).
    { rewrite <- (skipn_nth _ _ N). symmetry. apply firstn_skipn. }
    set (q1 := firstn j (map snd ks)) in *. set (q2 := skipn (Datatypes.S j) (map snd ks)) in *.
    pose proof S' as [SL SF].
    assert (ES : exists s1 x s2, sel' = s1 ++ x :: s2 /\ length s1 = length q1).
    { rewrite EQ, app_length in SL. cbn [length] in SL. exists (firstn (length q1) sel').
      destruct (skipn (length q1) sel') as [|x s2] eqn:D.
      - exfalso. apply (f_equal (@length Z)) in D. rewrite skipn_length in D. cbn in D. lia.
      - exists x, s2. split; [rewrite <- D; symmetry; apply firstn_skipn|]. rewrite firstn_length. lia. }
    destruct ES as [s1 [x [s2 [-> LS]]]].
    assert (ITI : In it (m_items m)) by (apply IN; eapply nth_error_In; eauto).
    pose proof (H it ITI) as HI. pose proof (MX it ITI) as MI.
    rewrite EQ in S', SW, SST |- *.
    assert (total it_value (q1 ++ it :: q2) (s1 ++ x :: s2) <= sumZ (map it_value q1) + it_value it); [|lia].
    assert (R : (forall a, In a q1 -> it_value it * it_weight a <= it_value a * it_weight it) /\
                (forall a, In a q2 -> it_value a * it_weight it <= it_value it * it_weight a)).
    { clear - SST. revert SST. generalize q1. intros l1. induction l1 as [|a l1 IH]; intros S0; inversion S0; subst.
      - split; [intros a []|]. rewrite Forall_forall in H2. auto.
      - destruct (IH H1) as [I1 I2]. split; auto. rewrite Forall_forall in H2.
        intros b [<-|B]; [|auto]. apply H2. apply in_or_app; simpl; auto. }
    destruct R as [R1 R2]. apply (frac_bound q1 it q2 s1 x s2 (m_cap m)); auto; lia.
Qed.

(** The solver keeps the better of the two greedy selections; both fit. *)
Theorem C29_best_of_greedy : forall m, labelled m -> 0 <= m_cap m ->
  (forall it, In it (m_items m) -> 0 < it_weight it <= m_cap m) ->
  exists s s1, best_of_greedy m = Ok s /\ coherent m s /\ selection (m_items m) (k_taken s) /\
    total it_weight (m_items m) (k_taken s) <= m_cap m /\ greedy m (by_key density) = Ok s1 /\
    total it_value (m_items m) (k_taken s1) <= total it_value (m_items m) (k_taken s).
Proof.
  intros m L C H.
  assert (G : forall key, (forall it, 0 < it_weight it -> exists k, key it = Ok k) ->
    exists s, greedy m (by_key key) = Ok s /\ coherent m s /\ selection (m_items m) (k_taken s) /\
    total it_weight (m_items m) (k_taken s) <= m_cap m).
  { intros key K. destruct (by_key_perm key m) as [ks [E [P _]]].
    { intros it I. apply H in I. lia. }
    { intros it I. apply K. apply H in I. lia. }
    destruct (greedy_on m (by_key key) (map snd ks) L C) as [s [A1 [A2 [A3 [A4 _]]]]]; auto.
    { intros it I. apply H in I. lia. }
    exists s. auto. }
  destruct (G density density_ok) as [s1 [A1 [A2 [A3 A4]]]].
  destruct (G density_pen) as [s2 [B1 [B2 [B3 B4]]]].
  { intros it I. unfold density_pen. destruct (density_ok it I) as [k ->]. simpl. eauto. }
  unfold best_of_greedy. rewrite A1, B1. cbn [bind]. pose proof A2 as [_ [A5 _]]. pose proof B2 as [_ [B5 _]].
  rewrite A5, B5. eexists. exists s1. split; [reflexivity|].
  destruct (Z.ltb_spec (total it_value (m_items m) (k_taken s2)) (total it_value (m_items m) (k_taken s1)));
    repeat match goal with |- _ /\ _ => split end; auto; try apply A2; try apply A3; try apply B2; try apply B3; lia.
Qed.

Example C29_ex : greedy km1 (by_key density) = Ok (mkSol (Some 70) (Some 10) [0; 1; 1]) /\
  best_of_greedy km1 = Ok (mkSol (Some 70) (Some 10) [0; 1; 1]) /\
  forall it, In it (m_items km1) -> 0 < it_weight it <= m_cap km1 /\ 0 <= it_value it.
Proof. split; [reflexivity|]. split; [reflexivity|]. intros it [<-|[<-|[<-|[]]]]; cbn; lia. Qed.

(** Finding: one item too heavy for the knapsack makes the greedy solver raise IndexError. *)
Theorem C29_heavy_item_refuted : exists m, labelled m /\ 0 <= m_cap m /\
  (forall it, In it (m_items m) -> 0 < it_weight it) /\
  greedy m (by_key density) = Err IndexError /\ best_of_greedy m = Err IndexError.
Proof.
  exists (mkModel [mkItem 0 10 5; mkItem 1 40 12] 10 false). split.
  { intros [|[|i]] it H; cbn in H; try (injection H as <-; reflexivity). destruct i; discriminate. }
  split; [cbn; lia|]. split; [|split; reflexivity]. intros it [<-|[<-|[]]]; cbn; lia.
Qed.

(** * C30: moves *)

Definition binary (l : list Z) : Prop := Forall (fun x => x = 0 \/ x = 1) l.

Lemma flips_fold : forall m idx l, length l = length (m_items m) -> binary l ->
  (forall i, In i idx -> (i < length (m_items m))%nat) ->
  exists l', foldM (flips_turn m) (l, total it_weight (m_items m) l, total it_value (m_items m) l) idx =
    Ok (l', total it_weight (m_items m) l', total it_value (m_items m) l') /\
    length l' = length (m_items m) /\ binary l' /\
    (forall i x, nth_error l i = Some x ->
       nth_error l' i = Some (if Nat.even (count_occ Nat.eq_dec idx i) then x else 1 - x)).
Proof.
  intros m. induction idx as [|i idx IH]; intros l L B H.
  - exists l. split; [reflexivity|]. split; auto.
  - assert (LI : (i < length (m_items m))%nat) by (apply H; simpl; auto).
    destruct (nth_error l i) as [x|] eqn:N; [|apply nth_error_None in N; lia].
    destruct (nth_error (m_items m) i) as [it|] eqn:NI; [|apply nth_error_None in NI; lia].
    assert (X : x = 0 \/ x = 1).
    { unfold binary in B. rewrite Forall_forall in B. apply B. eapply nth_error_In; eauto. }
    assert (E : flips_turn m (l, total it_weight (m_items m) l, total it_value (m_items m) l) i =
              Ok (lset l i (1 - x), total it_weight (m_items m) (lset l i (1 - x)), total it_value (m_items m) (lset l i (1 - x)))).
    { unfold flips_turn, lget, lput. rewrite N. cbn [bind].
      destruct (Nat.ltb_spec i (length l)); [|lia]. cbn [bind].
      rewrite lset_nth_error, Nat.eqb_refl. destruct (Nat.ltb_spec i (length l)); [|lia]. cbn [bind].
      rewrite NI. cbn [bind]. rewrite !(total_lset _ _ _ _ x it) by auto.
      destruct X as [-> | ->]; cbn [Z.eqb Z.sub Z.add Z.opp Z.pos_sub]; do 3 f_equal; lia. }
    cbn [foldM]. rewrite E. cbn [bind].
    destruct (IH (lset l i (1 - x))) as [l' [E1 [E2 [E3 E4]]]].
    + now rewrite lset_length.
    + apply Forall_forall. intros y Hy. apply In_lset in Hy. destruct Hy as [-> |Hy]; [lia|].
      unfold binary in B. rewrite Forall_forall in B. auto.
    + intros j J. apply H. simpl; auto.
    + exists l'. split; auto. split; auto. split; auto. intros j y J.
      cbn [count_occ]. specialize (E4 j). rewrite lset_nth_error in E4.
      destruct (Nat.eq_dec i j) as [-> |NE].
      * rewrite Nat.eqb_refl in E4. destruct (Nat.ltb_spec j (length l)); [|lia].
        rewrite N in J. injection J as <-. rewrite (E4 _ eq_refl). rewrite Nat.even_succ, <- Nat.negb_even.
        destruct (Nat.even _); cbn [negb]; f_equal; lia.
      * destruct (Nat.eqb_spec i j); [congruence|]. now apply E4.
Qed.

Lemma flips_ok : forall m idx s, length (k_taken s) = length (m_items m) -> binary (k_taken s) ->
  coherent m s \/ (k_weight s = None /\ k_value s = None) ->
  (forall i, In i idx -> (i < length (m_items m))%nat) ->
  exists s', flips m idx s = Ok s' /\ coherent m s' /\ binary (k_taken s') /\
    (forall i x, nth_error (k_taken s) i = Some x ->
       nth_error (k_taken s') i = Some (if Nat.even (count_occ Nat.eq_dec idx i) then x else 1 - x)).
Proof.
  intros m idx s L B C H.
  destruct (flips_fold m idx (k_taken s) L B H) as [l' [E1 [E2 [E3 E4]]]].
  exists (mkSol (Some (total it_value (m_items m) l')) (Some (total it_weight (m_items m) l')) l').
  split; [|split; [split; [|split]|]; auto].
  unfold flips. destruct C as [C|[C1 C2]].
  - pose proof C as [_ [V W]]. rewrite W. cbn [bind]. rewrite W, V, E1. reflexivity.
  - rewrite C1, evaluate_fresh by (auto; lia). cbn [bind snd k_weight k_value k_taken]. rewrite E1. reflexivity.
Qed.

(** Any sequence of flip moves keeps the cached value and weight equal to the recomputed ones. *)
Theorem C30_flips_coherent : forall m moves s, length (k_taken s) = length (m_items m) -> binary (k_taken s) ->
  coherent m s \/ (k_weight s = None /\ k_value s = None) -> moves <> [] ->
  (forall mv i, In mv moves -> In i mv -> (i < length (m_items m))%nat) ->
  exists s', foldM (fun s mv => flips m mv s) s moves = Ok s' /\ coherent m s' /\ binary (k_taken s').
Proof.
  intros m moves. induction moves as [|mv moves IH]; intros s L B C N H; [congruence|].
  destruct (flips_ok m mv s L B C) as [s1 [E1 [E2 [E3 _]]]]; [intros i I; apply (H mv i); simpl; auto|].
  cbn [foldM]. rewrite E1. cbn [bind].
  destruct moves as [|mv2 moves]; [exists s1; auto|].
  apply IH; auto; [apply E2|discriminate|]. intros mv0 i I J. apply (H mv0 i); simpl; auto.
Qed.

(** Undoing a move restores the vector, the value and the weight. *)
Theorem C30_undo : forall m idx s, coherent m s -> binary (k_taken s) ->
  (forall i, In i idx -> (i < length (m_items m))%nat) ->
  exists s', flips m idx s = Ok s' /\ flips m idx s' = Ok s.
Proof.
  intros m idx s C B H. pose proof C as [L _].
  destruct (flips_ok m idx s L B (or_introl C) H) as [s1 [E1 [C1 [B1 N1]]]].
  pose proof C1 as [L1 _].
  destruct (flips_ok m idx s1 L1 B1 (or_introl C1) H) as [s2 [E2 [C2 [B2 N2]]]].
  exists s1. split; auto. rewrite E2. f_equal.
  assert (T : k_taken s2 = k_taken s).
  { apply nth_error_ext. intros i. destruct (nth_error (k_taken s) i) as [x|] eqn:N.
    - specialize (N1 i x N). specialize (N2 i _ N1). rewrite N2. f_equal.
      destruct (Nat.even _); lia.
    - apply nth_error_None in N. apply nth_error_None. destruct C2 as [L2 _]. lia. }
  rewrite (coherent_eta m s C), (coherent_eta m s2 C2), T. reflexivity.
Qed.

(** The single-flip move: undone by itself, the vector only. *)
Theorem C30_single_flip_undo : forall i s, binary (k_taken s) -> (i < length (k_taken s))%nat ->
  exists s1 s2, flip1 i s = Ok s1 /\ flip1 i s1 = Ok s2 /\ k_taken s2 = k_taken s /\ binary (k_taken s1).
Proof.
  intros i s B H. destruct (nth_error (k_taken s) i) as [x|] eqn:N; [|apply nth_error_None in N; lia].
  assert (X : x = 0 \/ x = 1).
  { unfold binary in B. rewrite Forall_forall in B. apply B. eapply nth_error_In; eauto. }
  assert (E1 : flip1 i s = Ok (mkSol None None (lset (k_taken s) i (1 - x)))).
  { unfold flip1, lget, lput. rewrite N. cbn [bind]. destruct (Nat.ltb_spec i (length (k_taken s))); [|lia].
    cbn [bind]. do 3 f_equal. lia. }
  assert (E2 : flip1 i (mkSol None None (lset (k_taken s) i (1 - x))) = Ok (mkSol None None (lset (lset (k_taken s) i (1 - x)) i x))).
  { unfold flip1, lget, lput. cbn [k_taken]. rewrite lset_nth_error, Nat.eqb_refl, lset_length.
    destruct (Nat.ltb_spec i (length (k_taken s))); [|lia].
    cbn [bind]. do 3 f_equal. lia. }
  rewrite E1. eexists. eexists. split; [reflexivity|]. split; [exact E2|]. cbn [k_taken]. split.
  - rewrite lset_lset. now apply lset_same.
  - apply Forall_forall. intros y Hy. apply In_lset in Hy. destruct Hy as [-> |Hy]; [lia|].
    unfold binary in B. rewrite Forall_forall in B. auto.
Qed.

(** The objectives reported with a single-flip mutation of an evaluated solution are those of the new one. *)
Theorem C30_single_flip_objective : forall m i s, coherent m s -> binary (k_taken s) -> (i < length (m_items m))%nat ->
  exists n o s', mutate1 m i s = Ok (n, o, s') /\ s' = s /\ exists n', evaluate m n = Ok (o, n').
Proof.
  intros m i s C B H. pose proof C as [L [V W]].
  destruct (nth_error (k_taken s) i) as [x|] eqn:N; [|apply nth_error_None in N; lia].
  destruct (nth_error (m_items m) i) as [it|] eqn:NI; [|apply nth_error_None in NI; lia].
  assert (X : x = 0 \/ x = 1).
  { unfold binary in B. rewrite Forall_forall in B. apply B. eapply nth_error_In; eauto. }
  unfold mutate1, flip1, lget, lput. rewrite N. cbn [bind]. destruct (Nat.ltb_spec i (length (k_taken s))); [|lia].
  cbn [bind k_taken]. rewrite W, V. rewrite lset_nth_error, Nat.eqb_refl.
  destruct (Nat.ltb_spec i (length (k_taken s))); [|lia]. cbn [bind]. rewrite NI. cbn [bind].
  eexists. eexists. eexists. split; [reflexivity|]. split; [reflexivity|]. eexists.
  rewrite evaluate_fresh; [|cbn [k_taken]; rewrite lset_length; lia|auto]. cbn [k_taken]. cbv zeta.
  rewrite !(total_lset _ _ _ _ x it) by auto.
  apply (f_equal Ok). apply (f_equal2 pair); [|reflexivity].
  destruct X as [-> | ->]; cbn [Z.abs Z.sub Z.add Z.opp Z.pos_sub Z.eqb]; f_equal; lia.
Qed.

(** Switching items on or off keeps a selection that fits within the capacity, keeps the cached totals
    true, and reports the true objectives. *)
Theorem C30_mutate_feasible : forall m on pick s, (forall l, l <> [] -> In (pick l) l) ->
  coherent m s \/ (k_weight s = None /\ k_value s = None) -> selection (m_items m) (k_taken s) ->
  (forall it, In it (m_items m) -> 0 <= it_weight it) ->
  total it_weight (m_items m) (k_taken s) <= m_cap m ->
  exists s' idx o, mutate m on pick s = Ok (s', idx, o) /\ coherent m s' /\ selection (m_items m) (k_taken s') /\
    total it_weight (m_items m) (k_taken s') <= m_cap m /\ evaluate m s' = Ok (o, s') /\
    (k_taken s' = k_taken s <-> idx = []).
Proof.
  intros m on pick s PK C S W F.
  assert (X : exists s1, (match k_weight s with None => let* r := evaluate m s in Ok (snd r) | Some _ => Ok s end) = Ok s1 /\
            coherent m s1 /\ k_taken s1 = k_taken s).
  { destruct C as [C|[C1 C2]].
    - pose proof C as [_ [_ E]]. rewrite E. eauto.
    - rewrite C1. destruct S as [L _]. rewrite evaluate_fresh by (auto; lia). cbn [bind snd].
      eexists. split; [reflexivity|]. repeat split; auto. }
  destruct X as [s1 [E [C1 T]]]. unfold mutate. rewrite E. cbn [bind]. clear E C.
  rewrite <- T in *. clear T. pose proof S as [L B]. pose proof C1 as [_ [V1 W1]].
  assert (NU : exists nu, not_used m s1 = Ok nu /\ forall i, In i nu -> exists it, nth_error (m_items m) i = Some it /\
            nth_error (k_taken s1) i = Some 0 /\ total it_weight (m_items m) (k_taken s1) + it_weight it <= m_cap m).
  { unfold not_used, nb_items.
    set (g := fun i => (i, match nth_error (k_taken s1) i, nth_error (m_items m) i with
             | Some t, Some it => if t =? 0 then total it_weight (m_items m) (k_taken s1) + it_weight it <=? m_cap m else false
             | _, _ => false end)).
    rewrite (mapM_total _ g).
    - cbn [bind]. eexists. split; [reflexivity|]. intros i I. apply in_map_iff in I. destruct I as [[j b] [<- I]].
      apply filter_In in I. destruct I as [I Q]. cbn [fst snd] in *. subst b. apply in_map_iff in I. destruct I as [k [E I]].
      unfold g in E. injection E as <- E. destruct (nth_error (k_taken s1) k) as [t|]; [|discriminate].
      destruct (nth_error (m_items m) k) as [it|]; [|discriminate]. exists it. split; auto.
      destruct (Z.eqb_spec t 0); [subst; split; auto; lia|discriminate].
    - intros i I. apply in_seq in I. unfold g, lget.
      destruct (nth_error (k_taken s1) i) as [t|] eqn:N; [|apply nth_error_None in N; lia].
      destruct (nth_error (m_items m) i) as [it|] eqn:NI; [|apply nth_error_None in NI; lia].
      cbn [bind]. destruct (t =? 0); auto. rewrite W1. reflexivity. }
  assert (US : exists us, used m s1 = Ok us /\ forall i, In i us -> nth_error (k_taken s1) i = Some 1).
  { unfold used, nb_items.
    set (g := fun i => (i, match nth_error (k_taken s1) i with Some t => t =? 1 | _ => false end)).
    rewrite (mapM_total _ g).
    - cbn [bind]. eexists. split; [reflexivity|]. intros i I. apply in_map_iff in I. destruct I as [[j b] [<- I]].
      apply filter_In in I. destruct I as [I Q]. cbn [fst snd] in *. subst b. apply in_map_iff in I. destruct I as [k [E I]].
      unfold g in E. injection E as <- E. destruct (nth_error (k_taken s1) k) as [t|]; [|discriminate].
      f_equal. lia.
    - intros i I. apply in_seq in I. unfold g, lget.
      destruct (nth_error (k_taken s1) i) as [t|] eqn:N; [|apply nth_error_None in N; lia]. reflexivity. }
  assert (SW : forall i x it, nth_error (k_taken s1) i = Some x -> nth_error (m_items m) i = Some it ->
            total it_weight (m_items m) (k_taken s1) + (1 - 2 * x) * it_weight it <= m_cap m ->
            exists s' o, switched m s1 i = Ok (s', [i], o) /\ coherent m s' /\ selection (m_items m) (k_taken s') /\
              total it_weight (m_items m) (k_taken s') <= m_cap m /\ evaluate m s' = Ok (o, s') /\ k_taken s' <> k_taken s1).
  { intros i x it N NI Q.
    assert (LT : (i < length (m_items m))%nat) by (apply nth_error_Some; congruence).
    destruct (flips_ok m [i] s1 L B (or_introl C1)) as [s' [E1 [E2 [E3 E4]]]].
    { intros j [<-|[]]. exact LT. }
    assert (TT : k_taken s' = lset (k_taken s1) i (1 - x)).
    { apply nth_error_ext. intros j. rewrite lset_nth_error. destruct (nth_error (k_taken s1) j) as [y|] eqn:NJ.
      - rewrite (E4 j y NJ). cbn [count_occ]. destruct (Nat.eq_dec i j) as [-> |NE].
        + rewrite Nat.eqb_refl. destruct (Nat.ltb_spec j (length (k_taken s1))); [|lia]. rewrite N in NJ. injection NJ as <-. reflexivity.
        + destruct (Nat.eqb_spec i j); [congruence|]. reflexivity.
      - apply nth_error_None in NJ. destruct E2 as [E2 _].
        replace (nth_error (k_taken s') j) with (@None Z) by (symmetry; apply nth_error_None; lia).
        destruct (Nat.eqb_spec i j); auto. lia. }
    unfold switched. rewrite E1. cbn [bind]. unfold cached_obj. pose proof E2 as [L2 [V2 W2]]. rewrite V2, W2. cbn [bind].
    eexists. eexists. split; [reflexivity|]. split; auto. split; [split; auto|]. split.
    - rewrite TT, (total_lset _ _ _ _ x it) by auto. lia.
    - split; [now apply evaluate_coherent|]. intros EQ. rewrite EQ in TT.
      assert (nth_error (k_taken s1) i = Some (1 - x)).
      { rewrite TT at 1. rewrite lset_nth_error, Nat.eqb_refl. destruct (Nat.ltb_spec i (length (k_taken s1))); auto. lia. }
      assert (x = 1 - x) by congruence. lia. }
  assert (UC : exists o, unchanged m s1 = Ok (s1, [], o) /\ evaluate m s1 = Ok (o, s1)).
  { unfold unchanged, cached_obj. rewrite V1, W1. cbn [bind]. eexists. split; [reflexivity|].
    now apply evaluate_coherent. }
  destruct NU as [nu [NE NU]]. destruct US as [us [UE US]]. destruct UC as [o0 [UC1 UC2]].
  assert (ON : nu <> [] -> exists s' idx o, switched m s1 (pick nu) = Ok (s', idx, o) /\ coherent m s' /\ selection (m_items m) (k_taken s') /\
    total it_weight (m_items m) (k_taken s') <= m_cap m /\ evaluate m s' = Ok (o, s') /\ (k_taken s' = k_taken s1 <-> idx = [])).
  { intros NN. destruct (NU _ (PK nu NN)) as [it [N1 [N2 N3]]].
    destruct (SW (pick nu) 0 it N2 N1) as [s' [o [Q1 [Q2 [Q3 [Q4 [Q5 Q6]]]]]]]; [lia|].
    exists s', [pick nu], o. repeat (split; [assumption|]). split; [contradiction|discriminate]. }
  assert (OFF : us <> [] -> exists s' idx o, switched m s1 (pick us) = Ok (s', idx, o) /\ coherent m s' /\ selection (m_items m) (k_taken s') /\
    total it_weight (m_items m) (k_taken s') <= m_cap m /\ evaluate m s' = Ok (o, s') /\ (k_taken s' = k_taken s1 <-> idx = [])).
  { intros NN. pose proof (US _ (PK us NN)) as N1.
    assert (LT : (pick us < length (k_taken s1))%nat) by (apply nth_error_Some; congruence).
    destruct (nth_error (m_items m) (pick us)) as [it|] eqn:NI; [|apply nth_error_None in NI; lia].
    assert (0 <= it_weight it) by (apply W; eapply nth_error_In; eauto).
    destruct (SW (pick us) 1 it N1 NI) as [s' [o [Q1 [Q2 [Q3 [Q4 [Q5 Q6]]]]]]]; [lia|].
    exists s', [pick us], o. repeat (split; [assumption|]). split; [contradiction|discriminate]. }
  destruct on; [unfold mutate_on; rewrite NE|unfold mutate_off; rewrite UE]; cbn [bind].
  - destruct nu as [|a nu]; [|apply ON; discriminate]. rewrite UE. cbn [bind].
    destruct us as [|b us]; [|apply OFF; discriminate].
    exists s1, [], o0. repeat (split; [assumption|]). tauto.
  - destruct us as [|b us]; [|apply OFF; discriminate]. rewrite NE. cbn [bind].
    destruct nu as [|a nu]; [|apply ON; discriminate].
    exists s1, [], o0. repeat (split; [assumption|]). tauto.
Qed.

Example C30_ex : let s := mkSol (Some 50) (Some 9) [1; 1; 0] in coherent km1 s /\ binary (k_taken s) /\
  flips km1 [0; 2; 0; 1]%nat s = Ok (mkSol (Some 40) (Some 11) [1; 0; 1]) /\
  mutate km1 true (fun l => hd 0%nat l) (mkSol None None [1; 0; 0]) = Ok (mkSol (Some 50) (Some 9) [1; 1; 0], [1]%nat, (50, 0)) /\
  mutate km1 true (fun l => hd 0%nat l) s = Ok (mkSol (Some 40) (Some 4) [0; 1; 0], [0]%nat, (40, 0)).
Proof.
  cbv zeta. split; [repeat split|]. split; [repeat (apply Forall_cons; [lia|]); apply Forall_nil|]. repeat split; reflexivity.
Qed.

(** Finding: for a solution that was not evaluated before, the single-flip mutation reports the
    objectives of the old solution. *)
Theorem C30_single_flip_fresh_refuted : exists m i s n o s' o' n', k_weight s = None /\ k_value s = None /\
  mutate1 m i s = Ok (n, o, s') /\ evaluate m n = Ok (o', n') /\ o <> o'.
Proof.
  exists km1, 1%nat, (mkSol None None [1; 0; 0]). eexists. eexists. eexists. eexists. eexists.
  split; [reflexivity|]. split; [reflexivity|]. split; [reflexivity|]. split; [reflexivity|]. cbn. discriminate.
Qed.

Print Assumptions C27_evaluate.
Print Assumptions C27_satisfy.
Print Assumptions C27_mobj.
Print Assumptions C27_dummy.
Print Assumptions C28_optimal.
Print Assumptions C28_limited.
Print Assumptions C28_greedy_start.
Print Assumptions C29_greedy.
Print Assumptions C29_density_bound.
Print Assumptions C29_best_of_greedy.
Print Assumptions C30_flips_coherent.
Print Assumptions C30_undo.
Print Assumptions C30_mutate_feasible.
