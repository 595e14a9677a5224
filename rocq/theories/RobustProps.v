(** Properties of robust problems: C129, C130, C131, C132. *)
From Coq Require Import String.
From Coq Require Import List Bool Arith ZArith QArith Qround Lia Lqa Permutation.
From Coq Require Import ZifyBool ZifyNat.
From Verif Require Import Py PyList SchedProofs SgsModel SgsProofs SgsTotalProofs SgsProps RobustModel RobustProofs RobustPlanProofs.
Import ListNotations.
Open Scope nat_scope.

(** * C129: the value of a solution over several scenarios *)
(** [one_by_one ps s fits]: what the scenarios say, one after the other. *)
Definition one_by_one {S} (ps : list (problem S)) (s : S) (fits : list (list (string * Q))) : Prop :=
  Forall2 (fun p fit => evaluate p s = Ok fit) ps fits.
(** The numbers the scenarios give to one objective. *)
Definition column (k : string) (fits : list (list (string * Q))) (vals : list Q) : Prop :=
  Forall2 (fun fit x => dget fit k = Some x) fits vals.

(** The objectives are those of the first scenario, each the aggregate of what all scenarios say. *)
Theorem C129_evaluate : forall S (ps : list (problem S)) m s d, robust_evaluate ps m s = Ok d ->
  exists f fits, one_by_one ps s (f :: fits) /\ dkeys d = dkeys f /\
    forall k v, dget d k = Some v -> exists vals, column k (f :: fits) vals /\ aggregate m vals = Ok v.
Proof.
  intros S ps m s d H. unfold robust_evaluate in H. apply bind_ok in H as [fs [F H]]. apply mapM_ok in F.
  destruct fs as [|f fits]; [discriminate|]. exists f, fits. split; [exact F|]. unfold aggregate_fits in H. remember (f :: fits) as all eqn:Ea. clear F Ea. unfold dkeys in *. revert H. generalize (map fst f). intros ks. revert d.
  induction ks as [|k ks IH]; intros d H; cbn in H.
  - injection H as <-. split; [reflexivity|]. intros; discriminate.
  - apply bind_ok in H as [kv [K H]]. apply bind_ok in H as [r [R H]]. injection H as <-.
    apply bind_ok in K as [vals [V K]]. apply bind_ok in K as [v [A K]]. injection K as <-.
    destruct (IH _ R) as [I1 I2]. split; [cbn; now rewrite I1|].
    intros k' v' G. cbn [dget] in G. destruct (pyeqb_spec k' k) as [->|N]; [|auto]. injection G as <-. exists vals. split; auto.
    apply mapM_ok in V. clear -V. unfold column. induction V; constructor; auto. now apply dgetE_ok.
Qed.

(** It succeeds when there is a scenario, every scenario succeeds and knows the objectives of the first,
    and the numbers can be aggregated. *)
Theorem C129_total : forall S (ps : list (problem S)) m s f fits, one_by_one ps s (f :: fits) ->
  (forall k fit, In k (dkeys f) -> In fit fits -> dmem fit k = true) ->
  match m with
  | Percentile p => (0 <= p)%Q /\ (p <= 100)%Q
  | Ponderation w => exists l, w = Some l /\ length l = length ps
  | _ => True
  end ->
  exists d, robust_evaluate ps m s = Ok d.
Proof.
  intros S ps m s f fits O K M. unfold robust_evaluate.
  assert (E : mapM (fun p => evaluate p s) ps = Ok (f :: fits)) by now apply mapM_ok.
  rewrite E. cbn [bind]. unfold aggregate_fits. pose proof (mapM_length _ _ E) as L.
  assert (A : forall vals, length vals = length (f :: fits) -> exists v, aggregate m vals = Ok v).
  { intros [|x vals] Lv; [discriminate|]. unfold aggregate. destruct m as [| |p|w| |]; eauto.
    - apply median_total. discriminate.
    - apply percentile_total; [discriminate|apply M|apply M].
    - destruct M as [l [-> Ll]]. cbn [dot]. rewrite Ll, <- L, <- Lv, Nat.eqb_refl. eauto. }
  assert (Kf : forall k, In k (dkeys f) -> forall fit, In fit (f :: fits) -> exists x, dgetE fit k = Ok x).
  { intros k I fit [<-|J].
    - destruct (dget f k) as [x|] eqn:G; [exists x; unfold dgetE; now rewrite G|]. exfalso.
      clear -I G. unfold dkeys in I. induction f as [|[k' x] f IH]; [destruct I|]. cbn [dget] in G. cbn [map fst In] in I. destruct (pyeqb_spec k k') as [->|N]; [discriminate|].
      destruct I; [congruence|auto].
    - specialize (K k fit I J). unfold dmem in K. unfold dgetE. destruct (dget fit k); [eauto|discriminate]. }
  revert Kf. generalize (dkeys f). intros ks Kf. clear K M.
  clear E O L. remember (f :: fits) as all eqn:Ea. clear Ea.
  induction ks as [|k ks IH]; [cbn; eauto|]. destruct IH as [d D]; [intros; apply (Kf k0); auto; now right|].
  assert (V : exists vals, mapM (fun fit => dgetE fit k) all = Ok vals).
  { specialize (Kf k (or_introl eq_refl)). clear -Kf. induction all as [|x l IH]; [cbn; eauto|].
    destruct (Kf x (or_introl eq_refl)) as [y Y]. destruct IH as [ys Ys]; [intros; apply Kf; now right|]. cbn [mapM]. rewrite Y, Ys. cbn. eauto. }
  destruct V as [vals V]. destruct (A vals (mapM_length _ _ V)) as [v Av]. cbn [mapM].
  rewrite V. cbn [bind]. rewrite Av. cbn [bind]. rewrite D. cbn. eauto.
Qed.

(** No aggregate leaves the range of the scenarios (a weighted sum may: its weights are free). *)
Theorem C129_bounds : forall m l v lo hi, plain m -> aggregate m l = Ok v ->
  (forall x, In x l -> (lo <= x <= hi)%Q) -> (lo <= v <= hi)%Q.
Proof. exact aggregate_bounds. Qed.

(** What each method computes: the smallest, the largest, the number whose multiple is the sum, a number
    with half of the values on either side, and the extremes at 0 and 100 percent. *)
Theorem C129_methods : forall l v,
  (aggregate Min l = Ok v -> In v l /\ forall x, In x l -> (v <= x)%Q) /\
  (aggregate Max l = Ok v -> In v l /\ forall x, In x l -> (x <= v)%Q) /\
  (aggregate Mean l = Ok v -> v * inject_Z (Z.of_nat (length l)) == fold_right Qplus 0 l)%Q /\
  (aggregate Median l = Ok v -> length l <= 2 * length (filter (fun x => Qle_bool x v) l) /\
                                length l <= 2 * length (filter (fun x => Qle_bool v x) l)) /\
  (aggregate (Percentile 0) l = Ok v -> forall x, In x l -> (v <= x)%Q) /\
  (aggregate (Percentile 100) l = Ok v -> forall x, In x l -> (x <= v)%Q).
Proof.
  intros l v. split; [apply aggregate_bottom|]. split; [apply aggregate_top|]. destruct l as [|x r]; [repeat split; discriminate|].
  repeat split.
  - intros A. injection A as <-. unfold mean. fold (qlen (x :: r)). pose proof (qlen_pos x r). change (fold_right Qplus 0%Q (x :: r)) with (qsum (x :: r)).
    field. intros E. rewrite E in H. lra.
  - apply median_halves in H. apply H.
  - apply median_halves in H. apply H.
  - intros A. apply percentile_ends; [discriminate|exact A].
  - intros A. apply percentile_ends; [discriminate|exact A].
Qed.

(** Percentiles grow with the percentage, and the fiftieth is the median. *)
Theorem C129_percentiles : forall l p q v w, (p <= q)%Q -> aggregate (Percentile p) l = Ok v -> aggregate (Percentile q) l = Ok w ->
  (v <= w)%Q.
Proof. intros [|x r] p q v w PQ A B; [discriminate|]. eapply percentile_le; eauto. Qed.
Theorem C129_median : forall l v, aggregate Median l = Ok v -> exists w, aggregate (Percentile 50) l = Ok w /\ v == w.
Proof. intros [|x r] v A; [discriminate|]. now apply median_is_50. Qed.

(** A solution no worse in every scenario is no worse altogether. *)
Theorem C129_monotone : forall m l l' v v', weighted m -> Forall2 Qle l l' ->
  aggregate m l = Ok v -> aggregate m l' = Ok v' -> (v <= v')%Q.
Proof. exact aggregate_mono. Qed.

(** The order of the scenarios does not matter (except to the weights). *)
Theorem C129_order : forall m l l' v, plain m -> Permutation l l' -> aggregate m l = Ok v ->
  exists v', aggregate m l' = Ok v' /\ v == v'.
Proof. exact aggregate_perm. Qed.

Example C129_ex :
  aggregate Mean [3; 1; 2]%Q = Ok (mean [3; 1; 2]%Q) /\ (mean [3; 1; 2] == 2)%Q /\
  aggregate Median [3; 1; 2]%Q = Ok 2%Q /\ aggregate Min [3; 1; 2]%Q = Ok 1%Q /\ aggregate Max [3; 1; 2]%Q = Ok 3%Q /\
  (exists v, aggregate (Percentile 75) [3; 1; 2]%Q = Ok v /\ v == 5 # 2) /\
  (exists v, aggregate (Ponderation (Some [1; 2; 3]%Q)) [3; 1; 2]%Q = Ok v /\ v == 11) /\
  (exists d, robust_evaluate [Problem (fun n : nat => Ok [("cost"%string, inject_Z (Z.of_nat n))]) (fun _ => Ok true);
                              Problem (fun n : nat => Ok [("cost"%string, inject_Z (Z.of_nat (n + 4)))]) (fun _ => Ok true)] Max 3 = Ok d /\
             d = [("cost"%string, 7%Q)]).
Proof. repeat split; try reflexivity; eexists; split; reflexivity. Qed.

(** Asking whether a solution is acceptable asks the first scenario only: a solution may be accepted although
    it is not acceptable in another scenario. *)
Theorem C129_satisfy_refuted : exists (ps : list (problem nat)) (s : nat) p,
  robust_satisfy ps s = Ok true /\ In p ps /\ is_satisfied p s = Ok false.
Proof.
  set (p := fun cap => Problem (fun n : nat => Ok [("cost"%string, inject_Z (Z.of_nat n))]) (fun n => Ok (n <=? cap))).
  exists [p 5; p 2], 4, (p 2). repeat split. right. now left.
Qed.

(** With its default weights the weighted sum never gives a value. *)
Theorem C129_default_weights : forall S (ps : list (problem S)) s d, robust_evaluate ps (Ponderation None) s = Ok d -> d = [].
Proof.
  intros S ps s d H. apply C129_evaluate in H as [f [fits [_ [_ H]]]]. destruct d as [|[k v] d]; [reflexivity|]. exfalso.
  destruct (H k v) as [vals [_ A]]; [cbn [dget]; destruct (pyeqb_spec k k); congruence|]. destruct vals; discriminate.
Qed.

(** * C130: scheduling scenarios *)
(** The modes of the solution exist in the scenario. *)
Definition known (p : rcpsp) (modes : list nat) (n : nat) : Prop :=
  p_sink p = n + 2 /\ length modes = n /\
  forall i k, nth_error modes i = Some k -> exists d, dget (p_modes p) (i + 2) = Some d /\ dmem d k = true.
(** The makespan of the schedule that the serial scheme builds for a scenario: the end of its last task. *)
Definition makespan_in (p : rcpsp) (perm modes : list nat) (mk : Z) : Prop :=
  exists sch flag last s, serial_sgs p perm modes = Ok (modes, (sch, flag)) /\
    dget sch last = Some (s, mk) /\ forall b, In b (dkeys sch) -> b <= last.

Lemma known_same : forall p perm modes n modes' r, known p modes n -> serial_sgs p perm modes = Ok (modes', r) -> modes' = modes.
Proof.
  intros p perm modes n modes' r [S [L V]] H. destruct (C38_modes _ _ _ _ _ n S L H) as [L' Q]. apply nth_error_ext. intros i.
  destruct (nth_error modes i) as [k|] eqn:N.
  - destruct (Q _ _ N) as [d [D ->]]. destruct (V _ _ N) as [d' [D' M]]. rewrite D in D'. injection D' as <-. now rewrite M.
  - apply nth_error_None in N. apply nth_error_None. lia.
Qed.
Lemma max_key_ok : forall l x, max_key l = Ok x -> In x l /\ forall b, In b l -> b <= x.
Proof.
  intros [|y l] x H; [discriminate|]. injection H as <-. revert y. induction l as [|z l IH]; intros y; cbn [fold_left].
  - split; [now left|]. intros b [<-|[]]; lia.
  - destruct (IH (Nat.max y z)) as [I H]. split.
    + destruct I as [E|I]; [|right; now right]. rewrite <- E. destruct (Nat.max_spec y z) as [[_ ->]|[_ ->]]; cbn; auto.
    + intros b [<-|[<-|J]]; [|  |apply H; now right]; specialize (H _ (or_introl eq_refl)); lia.
Qed.

Section Evaluate.
Variable reserve : option rcpsp -> list nat -> schedule -> option bool -> res Q.

Lemma turn_ok : forall v p n modes fits st, known p modes n -> (s_problem v = None \/ s_sched v <> None) ->
  aggreg_turn reserve v (modes, fits) p = Ok st ->
  fst st = modes /\ exists mk r, makespan_in p (s_perm v) modes mk /\
    snd st = fits ++ [[("makespan"%string, inject_Z mk); ("mean_resource_reserve"%string, r)]].
Proof.
  intros v p n modes fits st K C H. unfold aggreg_turn in H. apply bind_ok in H as [var [V H]].
  assert (E : s_perm var = s_perm v /\ s_modes var = modes).
  { unfold lazy_copy, new_sol, set_modes in V. cbn [s_problem s_perm s_modes s_sched s_stale s_feas fst] in V.
    destruct (s_sched v), (s_problem v); try (injection V as <-; auto). destruct C; congruence. }
  destruct E as [E1 E2]. rewrite E1, E2 in H. apply bind_ok in H as [r [R H]]. injection H as <-.
  unfold rcpsp_evaluate in R. cbn [s_stale] in R. apply bind_ok in R as [s [G R]]. unfold generate in G. cbn [s_problem s_perm s_modes] in G.
  apply bind_ok in G as [[modes' [sch flag]] [Sg G]]. injection G as <-. cbn [s_sched fst snd s_problem s_modes s_feas] in R.
  pose proof (known_same _ _ _ _ _ _ K Sg) as ->.
  apply bind_ok in R as [last [La R]]. apply bind_ok in R as [[s e] [Se R]]. apply bind_ok in R as [q [_ R]]. injection R as <-.
  cbn [fst snd s_modes]. split; [reflexivity|]. exists e, q. split; [|reflexivity].
  exists sch, flag, last, s. apply dgetE_ok in Se. apply max_key_ok in La as [_ La]. auto.
Qed.

(** The makespan of the aggregate is the aggregate of the makespans of fresh schedules, one per scenario, whatever
    schedule the solution carries; and the solution is left as it was. *)
Theorem C130_evaluate : forall ps m v n d v', (forall p, In p ps -> known p (s_modes v) n) ->
  (s_problem v = None \/ s_sched v <> None) ->
  aggreg_evaluate reserve ps m v = Ok (d, v') ->
  v' = v /\ exists mks x, Forall2 (fun p mk => makespan_in p (s_perm v) (s_modes v) mk) ps mks /\
    dget d "makespan"%string = Some x /\ aggregate m (map inject_Z mks) = Ok x.
Proof.
  intros ps m v n d v' K C H. unfold aggreg_evaluate in H. apply bind_ok in H as [st [F H]]. apply bind_ok in H as [d' [A H]]. injection H as -> <-.
  pose (P := fun (done : list rcpsp) (st : list nat * list (list (string * Q))) => fst st = s_modes v /\ exists mks,
    Forall2 (fun p mk => makespan_in p (s_perm v) (s_modes v) mk) done mks /\
    Forall2 (fun mk fit => exists r, fit = [("makespan"%string, inject_Z mk); ("mean_resource_reserve"%string, r)]) mks (snd st)).
  assert (Pe : P ps st).
  { apply (@foldM_inv _ _ (aggreg_turn reserve v) P ps (s_modes v, []) st F).
    - split; [reflexivity|]. exists []. split; constructor.
    - intros l0 p l1 [ms fits] s2 E [E1 [mks [M1 M2]]] T. cbn [fst snd] in *. subst ms.
      destruct (turn_ok v p n (s_modes v) fits s2) as [T1 [mk [r [T2 T3]]]]; auto.
      { apply K. rewrite E. apply in_or_app. right. now left. }
      split; [exact T1|]. exists (mks ++ [mk]). split.
      + apply Forall2_app; auto.
      + rewrite T3. apply Forall2_app; auto. constructor; [eauto|constructor]. }
  destruct Pe as [E [mks [M1 M2]]]. split.
  { rewrite E. destruct v. reflexivity. }
  exists mks. destruct (snd st) as [|f fits]; [discriminate|]. unfold aggregate_fits in A.
  assert (Ef : dkeys f = ["makespan"%string; "mean_resource_reserve"%string]) by (inversion M2 as [|mk0 f0 mks0 fits0 [r0 Hf] M2' E1 E2]; subst; reflexivity).
  rewrite Ef in A. remember (f :: fits) as all eqn:Ea. clear Ea. cbn [mapM] in A.
  apply bind_ok in A as [kv [Kv A]]. apply bind_ok in A as [rest [_ A]]. injection A as <-.
  apply bind_ok in Kv as [vals [Va Kv]]. apply bind_ok in Kv as [x [Ax Kv]]. injection Kv as <-.
  exists x. split; [auto|]. split; [reflexivity|]. rewrite <- Ax. f_equal.
  clear -Va M2. apply mapM_ok in Va. revert mks M2. induction Va as [|fit val l vs G V IH]; intros mks M2; inversion M2 as [|mk f' ms fs [r Hr] M2']; subst; [reflexivity|].
  cbn [map]. rewrite <- (IH _ M2'). f_equal. cbn in G. now injection G as <-.
Qed.

(** It always works on complete scenarios and permutations of the tasks. *)
Theorem C130_total : forall ps m v n, ps <> [] -> (forall p, In p ps -> instance p /\ sane p /\ known p (s_modes v) n) ->
  Permutation (s_perm v) (seq 0 n) -> (s_problem v = None \/ s_sched v <> None) ->
  (forall p modes sch f, exists q, reserve p modes sch f = Ok q) ->
  (forall l, length l = length ps -> exists x, aggregate m l = Ok x) ->
  exists d, aggreg_evaluate reserve ps m v = Ok (d, v).
Proof.
  intros ps m v n Ne K Pm C R Ag. unfold aggreg_evaluate.
  pose (P := fun (done : list rcpsp) (st : list nat * list (list (string * Q))) => fst st = s_modes v /\ length (snd st) = length done /\
     forall fit, In fit (snd st) -> exists x y, fit = [("makespan"%string, x); ("mean_resource_reserve"%string, y)]).
  destruct (@foldM_total _ _ (aggreg_turn reserve v) P ps (s_modes v, [])) as [st [F [P1 [P2 P3]]]].
  - split; [reflexivity|]. split; [reflexivity|]. intros fit [].
  - intros l0 p l1 [ms fits] E [E1 [E2 E3]]. cbn [fst snd] in *. subst ms.
    assert (Ip : In p ps) by (rewrite E; apply in_or_app; right; now left). destruct (K p Ip) as [In [Sa Kn]]. pose proof Kn as [Si [Le Mo]].
    destruct (C38_total p (s_perm v) (s_modes v) n In Si Pm Le) as [modes' [sch [flag Sg]]].
    pose proof (known_same _ _ _ _ _ _ Kn Sg) as ->.
    assert (Nn : dkeys sch <> []).
    { destruct flag.
      - pose proof (C38_feasible _ _ _ _ _ n Sa Si Pm Le Sg) as [[T _ _] _]. unfold dkeys. intros Em. rewrite Em in T.
        apply Permutation_nil in T. destruct n; discriminate.
      - unfold serial_sgs in Sg. apply bind_ok in Sg as [me [_ Sg]]. apply bind_ok in Sg as [g [_ Sg]]. apply bind_ok in Sg as [s0 [_ Sg]].
        apply bind_ok in Sg as [r [Fi Sg]]. injection Sg as _ ->. unfold finish in Fi. destruct (g_bad g); [|discriminate].
        destruct (rev (dkeys (p_succ p))) as [|la _l]; [discriminate|]. injection Fi as Es. intros Em. subst sch.
        destruct (dmem s0 la) eqn:M.
        + destruct s0; discriminate.
        + destruct s0 as [|[k0 x0] s1]; [discriminate|]. cbn in Em. destruct (la =? k0) in Em; discriminate. }
    destruct (max_key (dkeys sch)) as [last|] eqn:La; [|destruct (dkeys sch); [congruence|discriminate]].
    apply max_key_ok in La as La'. destruct La' as [Il _].
    destruct (dget sch last) as [se|] eqn:Se.
    2:{ exfalso. clear -Il Se. unfold dkeys in Il. induction sch as [|[k x] sch IH]; [destruct Il|].
        cbn in *. destruct (last =? k) eqn:B; [discriminate|]. destruct Il; [subst; rewrite Nat.eqb_refl in B; discriminate|auto]. }
    destruct (R (Some p) (s_modes v) sch (Some flag)) as [q Q].
    exists (s_modes v, fits ++ [[("makespan"%string, inject_Z (snd se)); ("mean_resource_reserve"%string, q)]]). split.
    + unfold aggreg_turn. cbn [fst snd].
      assert (L : exists var, lazy_copy (set_modes v (s_modes v)) = Ok var /\ s_perm var = s_perm v /\ s_modes var = s_modes v).
      { unfold lazy_copy, new_sol, set_modes. cbn [s_problem s_perm s_modes s_sched s_stale s_feas]. destruct (s_sched v), (s_problem v); eauto.
        destruct C; congruence. }
      destruct L as [var [-> [L1 L2]]]. cbn [bind]. rewrite L1, L2. unfold rcpsp_evaluate. cbn [s_stale]. unfold generate. cbn [s_problem s_perm s_modes]. rewrite Sg.
      cbn [bind fst snd s_sched]. rewrite La. cbn [bind]. unfold dgetE. rewrite Se. cbn [bind s_problem s_modes s_feas]. rewrite Q. reflexivity.
    + split; [reflexivity|]. split; [cbn [snd]; rewrite !app_length; cbn [length]; lia|]. cbn [snd]. intros fit I. apply in_app_iff in I as [I|[<-|[]]]; eauto.
  - rewrite F. cbn [bind]. rewrite P1. assert (V : set_modes v (s_modes v) = v) by (destruct v; reflexivity). rewrite V.
    destruct (snd st) as [|f fits] eqn:Fs; [destruct ps; [congruence|discriminate]|].
    assert (D : exists d, aggregate_fits m (f :: fits) = Ok d).
    { unfold aggregate_fits. destruct (P3 f (or_introl eq_refl)) as [x [y ->]]. cbn [dkeys map fst mapM].
      assert (X : forall k, k = "makespan"%string \/ k = "mean_resource_reserve"%string ->
        exists vals, mapM (fun fit => dgetE fit k) ([("makespan"%string, x); ("mean_resource_reserve"%string, y)] :: fits) = Ok vals /\ length vals = length ps).
      { intros k Hk. revert P3 P2. generalize ([("makespan"%string, x); ("mean_resource_reserve"%string, y)] :: fits). intros l P3 P2. rewrite <- P2. clear -Hk P3.
        induction l as [|z l IH]; [exists []; auto|]. destruct IH as [vals [V L]]; [intros; apply P3; now right|].
        destruct (P3 z (or_introl eq_refl)) as [a [b ->]]. cbn [mapM]. rewrite V.
        destruct Hk as [-> | ->]; cbn; eexists; (split; [reflexivity|cbn; lia]). }
      destruct (X _ (or_introl eq_refl)) as [v1 [V1 L1]]. destruct (X _ (or_intror eq_refl)) as [v2 [V2 L2]].
      destruct (Ag v1 L1) as [a1 A1]. destruct (Ag v2 L2) as [a2 A2].
      cbn [mapM] in V1, V2. rewrite V1. cbn [bind]. rewrite A1. cbn [bind]. rewrite V2. cbn [bind]. rewrite A2. cbn. eauto. }
    destruct D as [d ->]. cbn. eauto.
Qed.

(** Assigning a permutation has the schedule rebuilt at the next evaluation. *)
Theorem C130_new_permutation : forall p n v perm d v', s_problem v = Some p -> known p (s_modes v) n ->
  rcpsp_evaluate reserve (set_perm v perm) = Ok (d, v') ->
  exists mk, makespan_in p perm (s_modes v) mk /\ dget d "makespan"%string = Some (inject_Z mk).
Proof.
  intros p n v perm d v' Pv K H. unfold rcpsp_evaluate in H. cbn [s_stale set_perm] in H. apply bind_ok in H as [s [G H]].
  unfold generate in G. cbn [s_problem set_perm s_perm s_modes] in G. rewrite Pv in G. apply bind_ok in G as [[modes' [sch flag]] [Sg G]]. injection G as <-.
  cbn [s_sched fst snd] in H. pose proof (known_same _ _ _ _ _ _ K Sg) as ->. apply bind_ok in H as [last [La H]].
  apply bind_ok in H as [[a e] [Se H]]. apply bind_ok in H as [q [_ H]]. injection H as <- _. exists e. split; [|reflexivity].
  exists sch, flag, last, a. apply dgetE_ok in Se. apply max_key_ok in La as [_ La]. auto.
Qed.
End Evaluate.

(** Scenarios for the examples: source 1, tasks 2 and 3 that share one unit of "r", sink 4. *)
Definition site (d2 d3 : nat) : rcpsp :=
  Rcpsp (Constant [("r"%string, 1%Z)]) []
    [(1, [(1, Mode 0 [("r"%string, 0%Z)])]); (2, [(1, Mode d2 [("r"%string, 1%Z)])]);
     (3, [(1, Mode d3 [("r"%string, 1%Z)])]); (4, [(1, Mode 0 [("r"%string, 0%Z)])])]
    [(1, [2; 3]); (2, [4]); (3, [4]); (4, [])] 20 1.
Definition no_reserve (_ : option rcpsp) (_ : list nat) (_ : schedule) (_ : option bool) : res Q := Ok 0%Q.

Lemma site_known : forall a b, known (site a b) [1; 1] 2.
Proof.
  intros a b. split; [reflexivity|]. split; [reflexivity|].
  intros [|[|i]] k N; cbn in N; try (injection N as <-; eexists; split; reflexivity). destruct i; discriminate.
Qed.

(** Two scenarios, of makespan 5 and 9, whatever the schedule carried along. *)
Example C130_ex : let v := Rsol None [1; 0] [1; 1] None true None in
  (forall p, In p [site 2 3; site 4 5] -> known p (s_modes v) 2) /\
  aggreg_evaluate no_reserve [site 2 3; site 4 5] Mean v =
    Ok ([("makespan"%string, mean [5; 9]%Q); ("mean_resource_reserve"%string, mean [0; 0]%Q)], v) /\
  (mean [5; 9] == 7)%Q /\
  aggreg_evaluate no_reserve [site 2 3; site 4 5] Max (Rsol (Some (site 1 1)) [1; 0] [1; 1] (Some [(4, (1, 1)%Z)]) false (Some true)) =
    Ok ([("makespan"%string, 9%Q); ("mean_resource_reserve"%string, 0%Q)],
        Rsol (Some (site 1 1)) [1; 0] [1; 1] (Some [(4, (1, 1)%Z)]) false (Some true)).
Proof.
  split; [intros p [<-|[<-|[]]]; apply site_known|]. repeat split; vm_compute; reflexivity.
Qed.

(** Through the base class for robust problems a solution that carries a schedule gets the makespan of that
    schedule from every scenario, whatever the scenarios are. *)
Theorem C130_plain_refuted : exists ps v d v' mks x,
  plain_evaluate no_reserve ps Max v = Ok (d, v') /\ dget d "makespan"%string = Some x /\
  Forall2 (fun p mk => makespan_in p (s_perm v) (s_modes v) mk) ps mks /\
  aggregate Max (map inject_Z mks) = Ok 9%Q /\ x == 5.
Proof.
  exists [site 2 3; site 4 5].
  pose (v := match new_sol (Some (site 2 3)) [0; 1] [1; 1] None None with Ok v => v | Err _ => Rsol None [] [] None true None end).
  vm_compute in v. exists v. eexists. eexists. exists [5; 9]%Z. eexists. split; [vm_compute; reflexivity|]. split; [reflexivity|].
  split; [|split; [vm_compute; reflexivity|reflexivity]].
  constructor; [|constructor; [|constructor]].
  - exists [(1, (0, 0)%Z); (2, (0, 2)%Z); (3, (2, 5)%Z); (4, (5, 5)%Z)], true, 4, 5%Z. split; [vm_compute; reflexivity|]. split; [reflexivity|].
    cbn. intros b H. lia.
  - exists [(1, (0, 0)%Z); (2, (0, 4)%Z); (3, (4, 9)%Z); (4, (9, 9)%Z)], true, 4, 9%Z. split; [vm_compute; reflexivity|]. split; [reflexivity|].
    cbn. intros b H. lia.
Qed.

(** Assigning modes, unlike assigning a permutation, leaves the old schedule in place: the makespan reported is
    not that of the modes the solution has. *)
Definition two_ways : rcpsp :=
  Rcpsp (Constant [("r"%string, 1%Z)]) []
    [(1, [(1, Mode 0 [("r"%string, 0%Z)])]); (2, [(1, Mode 2 [("r"%string, 1%Z)]); (2, Mode 6 [("r"%string, 1%Z)])]);
     (3, [(1, Mode 0 [("r"%string, 0%Z)])])]
    [(1, [2]); (2, [3]); (3, [])] 20 1.
Theorem C130_new_modes_refuted : exists p v modes d v' mk x, s_problem v = Some p /\ known p modes 1 /\
  rcpsp_evaluate no_reserve (set_modes v modes) = Ok (d, v') /\ dget d "makespan"%string = Some x /\
  makespan_in p (s_perm v) modes mk /\ x == 2 /\ mk = 6%Z.
Proof.
  exists two_ways.
  pose (v := match new_sol (Some two_ways) [0] [1] None None with Ok v => v | Err _ => Rsol None [] [] None true None end).
  vm_compute in v. exists v, [2]. eexists. eexists. exists 6%Z. eexists. split; [reflexivity|]. split.
  { split; [reflexivity|]. split; [reflexivity|]. intros [|i] k N; cbn in N; [|destruct i; discriminate]. injection N as <-. eexists. split; reflexivity. }
  split; [vm_compute; reflexivity|]. split; [reflexivity|]. split; [|split; reflexivity].
  exists [(1, (0, 0)%Z); (2, (0, 6)%Z); (3, (6, 6)%Z)], true, 3, 6%Z. split; [vm_compute; reflexivity|]. split; [reflexivity|]. cbn. intros b H. lia.
Qed.

(** A scenario without one of the modes of the solution rewrites the modes of the caller's solution, so that the value
    also depends on the order of the scenarios. *)
Theorem C130_modes_refuted : exists p q v d v' d' v'',
  aggreg_evaluate no_reserve [p; q] Max v = Ok (d, v') /\ aggreg_evaluate no_reserve [q; p] Max v = Ok (d', v'') /\
  s_modes v' <> s_modes v /\ dget d "makespan"%string = Some 2%Q /\ dget d' "makespan"%string = Some 6%Q.
Proof.
  exists (Rcpsp (Constant [("r"%string, 1%Z)]) []
    [(1, [(1, Mode 0 [("r"%string, 0%Z)])]); (2, [(1, Mode 2 [("r"%string, 1%Z)])]); (3, [(1, Mode 0 [("r"%string, 0%Z)])])]
    [(1, [2]); (2, [3]); (3, [])] 20 1), two_ways, (Rsol None [0] [2] None true None).
  do 4 eexists. split; [vm_compute; reflexivity|]. split; [vm_compute; reflexivity|]. split; [discriminate|]. split; reflexivity.
Qed.

(** A solution made for the aggregated problem carries no schedule: asking whether it is acceptable fails. *)
Theorem C130_satisfy_refuted : exists ps v, new_sol None [1; 0] [1; 1] None None = Ok v /\
  (forall p, In p ps -> known p (s_modes v) 2) /\ aggreg_satisfy ps v = Err AttributeError.
Proof.
  exists [site 2 3; site 4 5], (Rsol None [1; 0] [1; 1] None true None). split; [reflexivity|]. split; [|reflexivity].
  intros p [<-|[<-|[]]]; apply site_known.
Qed.

(** * C131: one problem instead of many scenarios *)
(** Every length and need of the single problem lies between the smallest and the largest of the scenarios. *)
Theorem C131_between : forall ps m u a k e, plain m -> unique_model ps m = Ok u -> entry u a k = Some e ->
  (forall p, In p ps -> entry p a k <> None) /\
  (forall lo hi, (forall p x, In p ps -> entry p a k = Some x -> lo <= m_duration x <= hi) -> lo <= m_duration e <= hi) /\
  (forall r lo hi, dget (m_need e) r <> None -> (forall p x, In p ps -> entry p a k = Some x -> (lo <= needs x r <= hi)%Z) -> (lo <= needs e r <= hi)%Z).
Proof.
  intros ps m u a k e P U E. destruct (unique_entry _ _ _ _ _ _ U E) as [es [d [L [Ep [Ee [D [Du N]]]]]]]. split; [|split].
  - intros p I. destruct (Ep p I) as [x [_ X]]. congruence.
  - intros lo hi H. assert (B : forall x, In x (map (fun x => inject_Z (Z.of_nat (m_duration x))) es) -> (inject_Z (Z.of_nat lo) <= x <= inject_Z (Z.of_nat hi))%Q).
    { intros x I. apply in_map_iff in I as [y [<- I]]. destruct (Ee y I) as [p [Ip Y]]. destruct (H p y Ip Y). split; apply inj_le; lia. }
    pose proof (aggregate_bounds _ _ _ _ _ P D B) as X. apply trunc_between in X. lia.
  - intros r lo hi W H. destruct (dget (m_need e) r) as [w|] eqn:Wr; [|congruence]. destruct (N _ _ Wr) as [_ [v [A Ew]]].
    assert (B : forall x, In x (map (fun e => inject_Z (needs e r)) es) -> (inject_Z lo <= x <= inject_Z hi)%Q).
    { intros x I. apply in_map_iff in I as [y [<- I]]. destruct (Ee y I) as [p [Ip Y]]. destruct (H p y Ip Y). split; apply inj_le; lia. }
    pose proof (aggregate_bounds _ _ _ _ _ P A B) as X. apply trunc_between in X. unfold needs at 1 2. rewrite Wr, Ew. exact X.
Qed.

(** A plan for the worst case can be carried out in every scenario. *)
Theorem C131_worst_case : forall ps u p choice start, unique_model ps Max = Ok u -> In p ps ->
  (forall q, In q ps -> alike p q) -> no_giving p ->
  feasible u choice start -> feasible p choice start.
Proof.
  intros ps u p choice start U I K G F. apply (lighter_feasible p u); auto.
  - eapply unique_alike; eauto.
  - eapply max_heavier; eauto.
Qed.
(** The plans of every scenario are plans for the best case, which never lasts longer: the best makespan of the best
    case is a lower bound for all the scenarios. *)
Theorem C131_best_case : forall ps u p choice start, unique_model ps Min = Ok u -> In p ps ->
  (forall q, In q ps -> alike p q) -> (forall q, In q ps -> no_giving q) ->
  feasible p choice start ->
  feasible u choice start /\ forall a, (start a + lasts u choice a <= start a + lasts p choice a)%Z.
Proof.
  intros ps u p choice start U I K G F. pose proof (unique_alike _ _ _ _ U K) as A. pose proof (min_lighter _ _ _ U I K) as L. split.
  - apply (lighter_feasible u p); auto; [now apply alike_sym|]. now apply (unique_no_giving ps Min).
  - intros a. unfold lasts. destruct (entry u a (choice a)) as [e|] eqn:E.
    + destruct (entry p a (choice a)) as [e'|] eqn:E'; [|apply (k_modes _ _ A) in E'; congruence]. destruct (L _ _ _ _ E E'). lia.
    + apply (k_modes _ _ A) in E. rewrite E. lia.
Qed.
(** The single problem exists when all scenarios have the same tasks, modes and names. *)
Theorem C131_total : forall ps m, ps <> [] -> plain m ->
  (forall l, length l = length ps -> exists x, aggregate m l = Ok x) ->
  (forall p q, In p ps -> In q ps -> alike p q) -> (forall p, In p ps -> NoDup (dkeys (p_modes p)) /\ forall a d, dget (p_modes p) a = Some d -> NoDup (dkeys d)) ->
  (forall p a k e, In p ps -> entry p a k = Some e -> NoDup (dkeys (m_need e))) ->
  exists u, unique_model ps m = Ok u.
Proof.
  intros [|p0 ps] m Ne P Ag K Nd Nn; [congruence|]. unfold unique_model. set (all := p0 :: ps) in *.
  assert (U : forall a k e, entry p0 a k = Some e -> exists e', unique_mode all m a k e = Ok e').
  { intros a k e E. unfold unique_mode.
    assert (Es : exists es, mapM (fun p => mode_entry p a k) all = Ok es /\ forall x, In x es -> forall r, dget (m_need e) r = None <-> dget (m_need x) r = None).
    { assert (X : forall p, In p all -> exists x, entry p a k = Some x /\ forall r, dget (m_need e) r = None <-> dget (m_need x) r = None).
      { intros p I. pose proof (K p0 p (or_introl eq_refl) I) as A. destruct (entry p a k) as [x|] eqn:X; [|apply (k_modes _ _ A) in X; congruence].
        exists x. split; auto. intros r. apply (k_names _ _ A _ _ _ _ r E X). }
      clear -X. induction all as [|p l IH]; [exists []; split; [reflexivity|intros x []]|].
      destruct IH as [es [Es H]]; [intros; apply X; now right|]. destruct (X p (or_introl eq_refl)) as [x [Ex Hx]].
      exists (x :: es). cbn. apply mode_entry_ok in Ex. rewrite Ex, Es. cbn. split; [reflexivity|]. intros y [<-|I]; auto. }
    destruct Es as [es [Es H]]. rewrite Es. cbn [bind]. pose proof (mapM_length _ _ Es) as L.
    destruct (Ag (map (fun x => inject_Z (Z.of_nat (m_duration x))) es)) as [d D]; [now rewrite map_length|]. rewrite D. cbn [bind].
    assert (D0 : (0 <= trunc d)%Z).
    { destruct es as [|x0 es0]; [discriminate|]. set (es := x0 :: es0) in *. set (hi := fold_right Nat.max 0 (map m_duration es)).
      assert (B : forall x, In x (map (fun x => inject_Z (Z.of_nat (m_duration x))) es) -> (inject_Z 0 <= x <= inject_Z (Z.of_nat hi))%Q).
      { intros x I. apply in_map_iff in I as [y [<- I]]. split; apply inj_le; [lia|]. unfold hi. clear -I. induction es as [|z l IH]; [destruct I|].
        cbn. destruct I as [->|I]; [lia|]. specialize (IH I). lia. }
      pose proof (aggregate_bounds _ _ _ _ _ P D B) as X. apply trunc_between in X. lia. }
    unfold as_nat. destruct (trunc d <? 0)%Z eqn:T; [lia|]. cbn [bind].
    assert (Ne' : exists need, mapM (fun rv : string * Z => let* vals := mapM (fun x => dgetE (m_need x) (fst rv)) es in
                 let* v := aggregate m (map inject_Z vals) in Ok (fst rv, trunc v)) (m_need e) = Ok need).
    { assert (Y : forall rv, In rv (m_need e) -> dget (m_need e) (fst rv) <> None).
      { intros [r v] I. specialize (Nn p0 a k e (or_introl eq_refl) E). rewrite (In_dget _ _ _ Nn I). discriminate. }
      revert Y. generalize (m_need e) at 1 3. intros l Y. induction l as [|rv l IH]; [cbn; eauto|].
      destruct IH as [need N]; [intros; apply Y; now right|]. cbn [mapM]. rewrite N.
      assert (V : exists vals, mapM (fun x => dgetE (m_need x) (fst rv)) es = Ok vals).
      { specialize (Y rv (or_introl eq_refl)). clear -H Y. induction es as [|x es IH]; [cbn; eauto|].
        destruct IH as [vals V]; [intros; apply H; now right|]. cbn. unfold dgetE at 1. destruct (dget (m_need x) (fst rv)) as [z|] eqn:Z.
        - rewrite V. cbn. eauto.
        - apply H in Z; [congruence|now left]. }
      destruct V as [vals V]. rewrite V. cbn [bind]. destruct (Ag (map inject_Z vals)) as [w W]; [rewrite map_length, <- L; eapply mapM_length; eauto|].
      rewrite W. cbn. eauto. }
    destruct Ne' as [need ->]. cbn. eauto. }
  destruct (Nd p0 (or_introl eq_refl)) as [N1 N2].
  assert (M : exists ms, map_modes (unique_mode all m) (p_modes p0) = Ok ms).
  { unfold map_modes. assert (Y : forall ad, In ad (p_modes p0) -> dget (p_modes p0) (fst ad) = Some (snd ad)) by (intros [a d] I; now apply In_dget).
    revert Y. generalize (p_modes p0) at 1 3. intros l Y. induction l as [|[a d] l IH]; [cbn; eauto|].
    destruct IH as [ms M]; [intros; apply Y; now right|]. cbn [mapM fst snd]. rewrite M.
    assert (X : exists d', mapM (fun ke : nat * mode => let* e := unique_mode all m a (fst ke) (snd ke) in Ok (fst ke, e)) d = Ok d').
    { specialize (Y _ (or_introl eq_refl)). cbn [fst snd] in Y. pose proof (N2 _ _ Y) as Nd'.
      assert (Z : forall ke, In ke d -> entry p0 a (fst ke) = Some (snd ke)) by (intros [k e] I; unfold entry; rewrite Y; now apply In_dget).
      clear -U Z. induction d as [|[k e] d IH]; [cbn; eauto|]. destruct IH as [d' D]; [intros; apply Z; now right|].
      destruct (U a k e (Z _ (or_introl eq_refl))) as [e' E']. cbn [mapM fst snd]. rewrite E', D. cbn. eauto. }
    destruct X as [d' ->]. cbn. eauto. }
  destruct M as [ms ->]. cbn. eauto.
Qed.

(** A plan of two tasks in a row, for scenarios of lengths (2, 3) and (4, 1). *)
Lemma site_alike : forall a b c d, alike (site a b) (site c d).
Proof.
  intros. constructor; try reflexivity.
  - intros x k. unfold entry. cbn. destruct (x =? 1); [reflexivity|]. destruct (x =? 2); [cbn; destruct (k =? 1); split; congruence|].
    destruct (x =? 3); [cbn; destruct (k =? 1); split; congruence|]. reflexivity.
  - intros x k e e' r. unfold entry. cbn. destruct (x =? 1).
    { cbn. destruct (k =? 1); [|discriminate]. intros [= <-] [= <-]. reflexivity. }
    destruct (x =? 2). { cbn. destruct (k =? 1); [|discriminate]. intros [= <-] [= <-]. cbn. destruct (pyeqb r "r"%string); split; congruence. }
    destruct (x =? 3). { cbn. destruct (k =? 1); [|discriminate]. intros [= <-] [= <-]. cbn. destruct (pyeqb r "r"%string); split; congruence. }
    destruct (x =? 4); [|discriminate]. cbn. destruct (k =? 1); [|discriminate]. intros [= <-] [= <-]. reflexivity.
Qed.
Lemma site_giving : forall a b, no_giving (site a b).
Proof.
  intros a b x k e r. unfold entry, needs. cbn. destruct (x =? 1), (x =? 2), (x =? 3), (x =? 4); cbn; try discriminate;
  destruct (k =? 1); try discriminate; intros [= <-]; cbn; destruct (String.eqb r "r"); lia.
Qed.
Definition row (s2 s3 s4 : Z) (a : nat) : Z := match a with 2 => s2 | 3 => s3 | 4 => s4 | _ => 0%Z end.
Lemma site_plan : forall a b, feasible (site a b) (fun _ => 1) (row 0 (Z.of_nat a) (Z.of_nat (a + b))).
Proof.
  intros a b. constructor.
  - cbn. intros x [<-|[<-|[<-|[<-|[]]]]]; discriminate.
  - cbn. intros x [<-|[<-|[<-|[<-|[]]]]]; cbn; lia.
  - intros x l y. cbn [p_succ site dget].
    destruct (pyeqb_spec x 1) as [->|_]; [intros [= <-] [<-|[<-|[]]]; cbn; lia|].
    destruct (pyeqb_spec x 2) as [->|_]; [intros [= <-] [<-|[]]; cbn; lia|].
    destruct (pyeqb_spec x 3) as [->|_]; [intros [= <-] [<-|[]]; cbn; lia|].
    destruct (pyeqb_spec x 4) as [->|_]; [intros [= <-] []|]. discriminate.
  - intros r t c _. unfold capacity_of. cbn [p_res site dget]. destruct (pyeqb_spec r "r"%string) as [->|_]; [|discriminate]. intros [= <-].
    unfold busy. cbn [p_modes site dkeys map fst]. unfold lasts, takes, entry. cbn.
    repeat match goal with |- context [if ?b then _ else _] => destruct b eqn:? end; lia.
  - intros r c []. 
Qed.
Example C131_ex : exists u w, unique_model [site 2 3; site 4 1] Max = Ok u /\ u = site 4 3 /\
  unique_model [site 2 3; site 4 1] Min = Ok w /\ w = site 2 1 /\
  (forall q, In q [site 2 3; site 4 1] -> alike (site 2 3) q) /\ no_giving (site 2 3) /\
  feasible u (fun _ => 1) (row 0 4 7) /\ feasible (site 2 3) (fun _ => 1) (row 0 2 5).
Proof.
  exists (site 4 3), (site 2 1). split; [vm_compute; reflexivity|]. split; [reflexivity|]. split; [vm_compute; reflexivity|]. split; [reflexivity|].
  split; [intros q [<-|[<-|[]]]; apply site_alike|].
  split; [apply site_giving|]. split; [exact (site_plan 4 3)|exact (site_plan 2 3)].
Qed.

(** The mean is rounded down: a plan for the mean problem may fail in every scenario. *)
Theorem C131_mean_refuted : exists ps u choice start, unique_model ps Mean = Ok u /\
  (forall p q, In p ps -> In q ps -> alike p q) /\ feasible u choice start /\ forall p, In p ps -> ~ feasible p choice start.
Proof.
  exists [site 2 1; site 1 2], (site 1 1), (fun _ => 1), (row 0 1 2). split; [vm_compute; reflexivity|].
  split; [intros p q [<-|[<-|[]]] [<-|[<-|[]]]; apply site_alike|]. split; [exact (site_plan 1 1)|].
  intros p [<-|[<-|[]]] [_ _ A F _].
  - specialize (F "r"%string 1 1%Z (fun x => x) eq_refl). revert F. vm_compute. auto.
  - specialize (A 3 [4] 4 eq_refl (or_introl eq_refl)). unfold lasts in A. cbn in A. lia.
Qed.

(** The capacities come from the first scenario: a plan for the worst case may need more than a scenario has. *)
Theorem C131_capacities_refuted : exists ps u p choice start, unique_model ps Max = Ok u /\ In p ps /\
  (forall q, In q ps -> p_succ q = p_succ p /\ p_modes q = p_modes p) /\ no_giving p /\
  feasible u choice start /\ ~ feasible p choice start.
Proof.
  set (big := Rcpsp (Constant [("r"%string, 2%Z)]) [] (p_modes (site 2 2)) (p_succ (site 2 2)) 20 1).
  exists [big; site 2 2], big, (site 2 2), (fun _ => 1), (row 0 0 2). split; [vm_compute; reflexivity|]. split; [right; now left|].
  split; [intros q [<-|[<-|[]]]; split; reflexivity|]. split; [apply site_giving|]. split.
  - constructor.
    + cbn. intros x [<-|[<-|[<-|[<-|[]]]]]; discriminate.
    + cbn. intros x [<-|[<-|[<-|[<-|[]]]]]; cbn; lia.
    + intros x l y. cbn [p_succ big site dget].
      destruct (pyeqb_spec x 1) as [->|_]; [intros [= <-] [<-|[<-|[]]]; cbn; lia|].
      destruct (pyeqb_spec x 2) as [->|_]; [intros [= <-] [<-|[]]; cbn; lia|].
      destruct (pyeqb_spec x 3) as [->|_]; [intros [= <-] [<-|[]]; cbn; lia|].
      destruct (pyeqb_spec x 4) as [->|_]; [intros [= <-] []|]. discriminate.
    + intros r t c _. unfold capacity_of. cbn [p_res big dget]. destruct (pyeqb_spec r "r"%string) as [->|_]; [|discriminate]. intros [= <-].
      unfold busy. cbn [p_modes big site dkeys map fst]. unfold lasts, takes, entry. cbn.
    repeat match goal with |- context [if ?b then _ else _] => destruct b eqn:? end; lia.
    + intros r c [].
  - intros [_ _ _ F _]. specialize (F "r"%string 0 1%Z (fun x => x) eq_refl). revert F. vm_compute. auto.
Qed.

(** * C132: the uncertain project *)
(** The laws contain the nominal value. *)
Theorem C132_laws : forall p range a, (0 <= range)%Z ->
  (forall d, (0 <= d)%Z -> let '(lo, mid, hi) := law_duration p range a d in
     mid = d /\ (0 <= lo)%Z /\ (d <= hi)%Z /\ ((1 <= d)%Z \/ a = 1 \/ a = p_sink p -> (lo <= d)%Z)) /\
  (forall r v lo mid hi, (0 <= v)%Z -> law_resource p range a (r, v) = Ok (Some (lo, mid, hi)) ->
     mid = v /\ (0 <= lo <= v)%Z /\ (capacity_of p r 0 = None \/ (exists c, capacity_of p r 0 = Some c /\ (v <= c -> v <= hi <= c)%Z))).
Proof.
  intros p range a R. split.
  - intros d D. unfold law_duration. destruct ((a =? 1) || (a =? p_sink p)) eqn:B; lia.
  - intros r v lo mid hi V H. unfold law_resource in H. destruct (pymem r (p_nonren p)); [discriminate|].
    destruct ((a =? 1) || (a =? p_sink p)) eqn:B.
    + injection H as <- <- <-. split; [reflexivity|]. split; [lia|]. destruct (capacity_of p r 0) as [c|]; [right; exists c; split; auto; lia|auto].
    + unfold capacity_of. destruct (p_res p) as [c|c]; [|apply bind_ok in H as [? [_ H]]; discriminate].
      apply bind_ok in H as [x [X H]]. injection H as <- <- <-. apply dgetE_ok in X. split; [reflexivity|]. split; [lia|]. right. exists x. split; auto. lia.
Qed.

Section Uncertain.
Variable pmf : Z * Z * Z -> Z -> Q.
Hypothesis pmf_nonneg : forall l v, (0 <= pmf l v)%Q.

Lemma laws_lo : forall p r1 r2 b1 b2 a e l r x, create_laws p r1 r2 b1 b2 a e = Ok l -> ~ (a = 1 \/ a = p_sink p) ->
  dget (l_need l) r = Some x -> (0 <= fst (fst x))%Z.
Proof.
  intros p r1 r2 b1 b2 a e l r x H N G. unfold create_laws in H. apply bind_ok in H as [need [Ne H]]. injection H as <-. cbn [l_need] in G.
  apply dget_In in G. unfold somes in G. apply in_concat in G as [y [Iy G]]. apply in_map_iff in Iy as [o [<- Io]]. destruct o as [z|]; [|destruct G].
  destruct G as [->|[]]. destruct b1; [|injection Ne as <-; destruct Io]. destruct (mapM_In_r _ _ _ _ _ _ Ne Io) as [rv [_ F]].
  apply bind_ok in F as [o [Lo F]]. injection F as F. destruct o as [z|]; [|discriminate]. injection F as _ ->. destruct rv as [r' v].
  unfold law_resource in Lo. destruct (pymem r' (p_nonren p)); [discriminate|]. destruct ((a =? 1) || (a =? p_sink p)) eqn:B; [lia|].
  destruct (p_res p); apply bind_ok in Lo as [c [_ Lo]]; [|discriminate]. injection Lo as <-. cbn. lia.
Qed.
Lemma uncertain_no_giving : forall p r1 r2 b1 b2 how u, ranged how -> no_giving p ->
  uncertain_model pmf p r1 r2 b1 b2 how = Ok u -> no_giving u.
Proof.
  intros p r1 r2 b1 b2 how u R G H a k e' r E'. apply uncertain_ok in H as [_ [_ [_ [_ [K1 K2]]]]].
  destruct (entry p a k) as [e|] eqn:E; [|apply K1 in E; congruence]. specialize (K2 _ _ _ _ E E').
  apply uncertain_mode_ok in K2 as [[_ Ee]|[N [l [L [_ A]]]]]; [rewrite Ee; exact (G a k e r E)|]. destruct (A r) as [A1 A2]. unfold needs.
  destruct (dget (m_need e') r) as [v'|] eqn:V'; [|lia]. destruct (dget (m_need e) r) as [v|] eqn:V; [|discriminate (proj1 A1 eq_refl)].
  specialize (A2 _ _ eq_refl eq_refl). destruct (dget (l_need l) r) as [x|] eqn:X.
  - pose proof (draw_range pmf pmf_nonneg _ _ _ _ _ _ R A2). pose proof (laws_lo _ _ _ _ _ _ _ _ _ _ L N X). lia.
  - subst v'. specialize (G a k e r E). unfold needs in G. now rewrite V in G.
Qed.

(** A plan for the worst case can be carried out whatever is drawn; and every plan of a drawn project is a plan for the
    best case. *)
Theorem C132_worst_case : forall p r1 r2 b1 b2 how u w choice start, ranged how -> no_giving p ->
  uncertain_model pmf p r1 r2 b1 b2 how = Ok u -> uncertain_model pmf p r1 r2 b1 b2 WorstCase = Ok w ->
  feasible w choice start -> feasible u choice start.
Proof.
  intros p r1 r2 b1 b2 how u w choice start R G U W F. apply (lighter_feasible u w); auto.
  - eapply uncertain_alike; eauto.
  - eapply uncertain_lighter; eauto. intros l a k name v v' V V'. apply draw_ends in V'. apply (draw_range pmf pmf_nonneg) in V; auto. lia.
  - eapply uncertain_no_giving; eauto.
Qed.
Theorem C132_best_case : forall p r1 r2 b1 b2 how u w choice start, ranged how -> no_giving p ->
  uncertain_model pmf p r1 r2 b1 b2 how = Ok u -> uncertain_model pmf p r1 r2 b1 b2 BestCase = Ok w ->
  feasible u choice start -> feasible w choice start.
Proof.
  intros p r1 r2 b1 b2 how u w choice start R G U W F. apply (lighter_feasible w u); auto.
  - eapply uncertain_alike; eauto.
  - eapply uncertain_lighter; eauto. intros l a k name v v' V V'. apply draw_ends in V. apply (draw_range pmf pmf_nonneg) in V'; auto. lia.
  - apply (uncertain_no_giving p r1 r2 b1 b2 BestCase); auto. exact I.
Qed.

(** Source and sink, and what has no law, are never changed; the other entries stay in the range of their law. *)
Theorem C132_entries : forall p r1 r2 b1 b2 how u a k e e', uncertain_model pmf p r1 r2 b1 b2 how = Ok u -> ranged how ->
  entry p a k = Some e -> entry u a k = Some e' ->
  (a = 1 \/ a = p_sink p -> e' = e) /\
  (~ (a = 1 \/ a = p_sink p) ->
    (if b2 then Z.max 1 (Z.of_nat (m_duration e) - r2) <= Z.of_nat (m_duration e') <= Z.of_nat (m_duration e) + r2
     else m_duration e' = m_duration e)%Z /\
    (forall r, In r (p_nonren p) \/ b1 = false -> needs e' r = needs e r)).
Proof.
  intros p r1 r2 b1 b2 how u a k e e' U R E E'. apply uncertain_ok in U as [_ [_ [_ [_ [_ K]]]]]. specialize (K _ _ _ _ E E').
  apply uncertain_mode_ok in K as [[I ->]|[N [l [L [D A]]]]]; [split; [auto|contradiction]|]. split; [contradiction|]. intros _. split.
  - unfold create_laws in L. apply bind_ok in L as [need [_ L]]. injection L as <-. cbn [l_duration] in D. destruct b2; [|exact D].
    destruct D as [v [V [_ <-]]]. apply (draw_range pmf pmf_nonneg) in V; auto. unfold law_duration in V.
    destruct ((a =? 1) || (a =? p_sink p)) eqn:B; [lia|]. exact V.
  - intros r Hr. destruct (A r) as [A1 A2]. unfold needs.
    destruct (dget (m_need e) r) as [v|] eqn:V; [|destruct A1 as [A1 _]; now rewrite (A1 eq_refl)].
    destruct (dget (m_need e') r) as [v'|] eqn:V'; [|discriminate (proj2 A1 eq_refl)]. specialize (A2 _ _ eq_refl eq_refl).
    destruct (dget (l_need l) r) as [x|] eqn:X; [|auto]. exfalso. unfold create_laws in L. apply bind_ok in L as [need [Ne L]]. injection L as <-.
    cbn [l_need] in X. apply dget_In in X. unfold somes in X. apply in_concat in X as [y [Iy X]]. apply in_map_iff in Iy as [o [<- Io]].
    destruct o as [z|]; [|destruct X]. destruct X as [->|[]]. destruct b1; [|injection Ne as <-; destruct Io].
    destruct Hr as [Hr|Hr]; [|discriminate]. destruct (mapM_In_r _ _ _ _ _ _ Ne Io) as [[r' v0] [_ F]].
    apply bind_ok in F as [o [Lo F]]. injection F as F. destruct o as [z|]; [|discriminate]. injection F as F1 F2. cbn in F1. subst r'.
    unfold law_resource in Lo. destruct (pymem r (p_nonren p)) eqn:M; [discriminate|]. apply pymem_false in M. contradiction.
Qed.

Lemma laws_at : forall p r1 r2 b2 a e l r v c, create_laws p r1 r2 true b2 a e = Ok l -> ~ (a = 1 \/ a = p_sink p) ->
  ~ In r (p_nonren p) -> p_res p = Constant c -> dget (m_need e) r = Some v ->
  exists x, dget c r = Some x /\ dget (l_need l) r = Some (Z.max 0 (v - r1), v, Z.min (v + r1) x)%Z.
Proof.
  clear pmf_nonneg. intros p r1 r2 b2 a e l r v c H N Nr Pc G. unfold create_laws in H. apply bind_ok in H as [need [Ne H]]. injection H as <-. cbn [l_need].
  revert need Ne G. induction (m_need e) as [|[r' v'] m IH]; intros need Ne G; [discriminate|]. cbn [mapM] in Ne.
  apply bind_ok in Ne as [o [O Ne]]. apply bind_ok in Ne as [rest [Re Ne]]. injection Ne as <-. apply bind_ok in O as [lw [Lw O]]. injection O as <-. cbn [fst].
  cbn [dget] in G. destruct (pyeqb_spec r r') as [<-|D].
  - injection G as ->. unfold law_resource in Lw. destruct (pymem r (p_nonren p)) eqn:M; [apply pymem_true in M; contradiction|].
    destruct ((a =? 1) || (a =? p_sink p)) eqn:B; [lia|]. rewrite Pc in Lw. apply bind_ok in Lw as [x [X Lw]]. injection Lw as <-. apply dgetE_ok in X.
    exists x. split; [exact X|]. unfold somes. cbn [map concat app dget]. destruct (pyeqb_spec r r); congruence.
  - destruct (IH _ Re G) as [x [X1 X2]]. exists x. split; auto. destruct lw as [y|]; [|exact X2].
    unfold somes in *. cbn [map concat app dget]. destruct (pyeqb_spec r r'); [congruence|exact X2].
Qed.

(** The extreme cases are the ends of the ranges. *)
Theorem C132_extremes : forall p r1 r2 u w a k e eu ew, entry p a k = Some e -> ~ (a = 1 \/ a = p_sink p) ->
  uncertain_model pmf p r1 r2 true true BestCase = Ok u -> uncertain_model pmf p r1 r2 true true WorstCase = Ok w ->
  entry u a k = Some eu -> entry w a k = Some ew ->
  Z.of_nat (m_duration eu) = Z.max 1 (Z.of_nat (m_duration e) - r2) /\ Z.of_nat (m_duration ew) = (Z.of_nat (m_duration e) + r2)%Z /\
  forall r v c, p_res p = Constant c -> ~ In r (p_nonren p) -> dget (m_need e) r = Some v ->
    exists x, dget c r = Some x /\ needs eu r = Z.max 0 (v - r1) /\ needs ew r = Z.min (v + r1) x.
Proof.
  clear pmf_nonneg. intros p r1 r2 u w a k e eu ew E N U W Eu Ew. apply uncertain_ok in U as [_ [_ [_ [_ [_ U]]]]]. apply uncertain_ok in W as [_ [_ [_ [_ [_ W]]]]].
  specialize (U _ _ _ _ E Eu). specialize (W _ _ _ _ E Ew). apply uncertain_mode_ok in U as [[I _]|[_ [l [L [D1 A1]]]]]; [contradiction|].
  apply uncertain_mode_ok in W as [[I _]|[_ [l' [L' [D2 A2]]]]]; [contradiction|]. rewrite L in L'. injection L' as <-.
  assert (Dl : l_duration l = Some (law_duration p r2 a (Z.of_nat (m_duration e)))).
  { unfold create_laws in L. apply bind_ok in L as [need [_ L]]. injection L as <-. reflexivity. }
  rewrite Dl in D1, D2. destruct D1 as [v1 [V1 [_ ->]]]. destruct D2 as [v2 [V2 [_ ->]]].
  apply draw_ends in V1, V2. unfold law_duration in V1, V2. destruct ((a =? 1) || (a =? p_sink p)) eqn:B; [lia|]. cbn in V1, V2.
  split; [exact V1|]. split; [exact V2|]. intros r v c Pc Nr V. destruct (laws_at _ _ _ _ _ _ _ _ _ _ L N Nr Pc V) as [x [X1 X2]].
  exists x. split; [exact X1|]. destruct (A1 r) as [K1 H1]. destruct (A2 r) as [K2 H2]. unfold needs. rewrite V in *.
  destruct (dget (m_need eu) r) as [z1|] eqn:Z1; [|discriminate (proj2 K1 eq_refl)]. destruct (dget (m_need ew) r) as [z2|] eqn:Z2; [|discriminate (proj2 K2 eq_refl)].
  specialize (H1 _ _ eq_refl eq_refl). specialize (H2 _ _ eq_refl eq_refl). rewrite X2 in H1, H2. apply draw_ends in H1, H2. auto.
Qed.
End Uncertain.

(** Two tasks of lengths 4 and 2: the worst case, the average and a draw. *)
Example C132_ex : exists w s, uncertain_model uniform (site 4 2) 0 3 true true WorstCase = Ok w /\ w = site 7 5 /\
  uncertain_model uniform (site 4 2) 0 3 true true (Sample (fun a _ name => if String.eqb name "duration" then a else 0)) = Ok s /\ s = site 3 4 /\
  uncertain_model uniform (site 4 2) 0 3 true true Average = Ok (site 4 3) /\
  uncertain_model uniform (site 4 2) 0 3 true true BestCase = Ok (site 1 1) /\
  no_giving (site 4 2) /\ feasible w (fun _ => 1) (row 0 7 12) /\ (forall l v, 0 <= uniform l v)%Q.
Proof.
  exists (site 7 5), (site 3 4). repeat split; try (vm_compute; reflexivity).
  - apply site_giving.
  - apply (site_plan 7 5).
  - apply (site_plan 7 5).
  - apply (site_plan 7 5).
  - apply (site_plan 7 5).
  - apply (site_plan 7 5).
  - intros [[lo mid] hi] v. unfold uniform. destruct ((lo <=? v)%Z && (v <=? hi)%Z) eqn:B; [|apply Qle_refl].
    apply Qle_shift_div_l; [unfold Qlt; cbn; lia|]. change (0 * inject_Z (hi + 1 - lo))%Q with (0%Q * inject_Z (hi + 1 - lo))%Q. lra.
Qed.

(** A percentile is raised to 1 even for a need whose law is reduced to 0: the project of a percentile may need more than
    the worst case does, and have no room for plans that the worst case allows. *)
Theorem C132_percentile_refuted : exists p u w a k e e' r,
  uncertain_model uniform p 0 0 true true (Quantile 50) = Ok u /\ uncertain_model uniform p 0 0 true true WorstCase = Ok w /\
  entry u a k = Some e /\ entry w a k = Some e' /\ (needs e' r < needs e r)%Z /\
  exists choice start, feasible w choice start /\ ~ feasible u choice start.
Proof.
  set (p := Rcpsp (Constant [("r"%string, 0%Z)]) []
    [(1, [(1, Mode 0 [("r"%string, 0%Z)])]); (2, [(1, Mode 2 [("r"%string, 0%Z)])]); (3, [(1, Mode 0 [("r"%string, 0%Z)])])]
    [(1, [2]); (2, [3]); (3, [])] 20 1).
  exists p. eexists. eexists. exists 2, 1. eexists. eexists. exists "r"%string. split; [vm_compute; reflexivity|]. split; [vm_compute; reflexivity|].
  split; [reflexivity|]. split; [reflexivity|]. split; [reflexivity|].
  exists (fun _ => 1), (row 0 2 0). split.
  - constructor.
    + cbn. intros x [<-|[<-|[<-|[]]]]; discriminate.
    + cbn. intros x [<-|[<-|[<-|[]]]]; cbn; lia.
    + intros x l y. cbn [p_succ dget].
      destruct (pyeqb_spec x 1) as [->|_]; [intros [= <-] [<-|[]]; cbn; lia|].
      destruct (pyeqb_spec x 2) as [->|_]; [intros [= <-] [<-|[]]; cbn; lia|].
      destruct (pyeqb_spec x 3) as [->|_]; [intros [= <-] []|]. discriminate.
    + intros r t c _. unfold capacity_of. cbn [p_res dget]. destruct (pyeqb_spec r "r"%string) as [->|_]; [|discriminate]. intros [= <-].
      unfold busy. cbn [p_modes dkeys map fst]. unfold lasts, takes, entry. cbn.
    repeat match goal with |- context [if ?b then _ else _] => destruct b eqn:? end; lia.
    + intros r c [].
  - intros [_ _ _ F _]. specialize (F "r"%string 0 0%Z (fun x => x) eq_refl). revert F. vm_compute. auto.
Qed.

(** A task of length 0 gets at least 1 in every case: even the best case is longer than the nominal project; and with a range
    of 0 no case can be built. *)
Theorem C132_milestone_refuted : exists p w e e', uncertain_model uniform p 0 1 true true BestCase = Ok w /\
  entry p 2 1 = Some e /\ entry w 2 1 = Some e' /\ m_duration e < m_duration e' /\
  uncertain_model uniform p 0 0 true true BestCase = Err ValueError.
Proof.
  exists (site 0 2). do 3 eexists. split; [vm_compute; reflexivity|]. split; [reflexivity|]. split; [reflexivity|]. split; [cbn; lia|].
  vm_compute. reflexivity.
Qed.

Print Assumptions C129_evaluate.
Print Assumptions C129_total.
Print Assumptions C129_bounds.
Print Assumptions C129_methods.
Print Assumptions C129_percentiles.
Print Assumptions C129_median.
Print Assumptions C129_monotone.
Print Assumptions C129_order.
Print Assumptions C129_satisfy_refuted.
Print Assumptions C129_default_weights.
Print Assumptions C130_evaluate.
Print Assumptions C130_total.
Print Assumptions C130_new_permutation.
Print Assumptions C130_plain_refuted.
Print Assumptions C130_new_modes_refuted.
Print Assumptions C130_modes_refuted.
Print Assumptions C130_satisfy_refuted.
Print Assumptions C131_between.
Print Assumptions C131_worst_case.
Print Assumptions C131_best_case.
Print Assumptions C131_total.
Print Assumptions C131_mean_refuted.
Print Assumptions C131_capacities_refuted.
Print Assumptions C132_laws.
Print Assumptions C132_worst_case.
Print Assumptions C132_best_case.
Print Assumptions C132_entries.
Print Assumptions C132_extremes.
Print Assumptions C132_percentile_refuted.
Print Assumptions C132_milestone_refuted.
