(** Proofs about the estimation of policies by rollouts. *)
From Coq Require Import List Bool Arith QArith Lia Lqa.
From Verif Require Import Py PyList PyMore AoProofs PevalModel PevalSpec PevalProofs.
Import ListNotations.
Open Scope nat_scope.

Section Roll.
Context {St A : Type} {ES : PyEq St}.
Variable d : pdom St A.
Variable pol : St -> A.

Record event := Ev { v_prev : option St; v_state : St; v_next : St; v_togo : Q; v_act : A }.
Definition next (path : list (St * Q)) (z : St) : St := match path with [] => z | x :: _ => fst x end.
Fixpoint events (prev : option St) (path : list (St * Q)) (z : St) : list event :=
  match path with
  | [] => []
  | x :: rest => Ev prev (fst x) (next rest z) (total path) (pol (fst x)) :: events (Some (fst x)) rest z
  end.
Definition at_state (s : St) (evs : list event) : list event := filter (fun e => pyeqb (v_state e) s) evs.

Definition est_ok (e : estimate (St := St) (A := A)) (evs : list event) : Prop :=
  (forall s, dget (e_visits e) s = match at_state s evs with [] => None | l => Some (length l) end) /\
  (forall s, match dget (e_sum e) s with None => at_state s evs = [] | Some u => at_state s evs <> [] /\ (u == qsum (map v_togo (at_state s evs)))%Q end) /\
  (forall s a, dget (e_pol e) s = Some a <-> at_state s evs <> [] /\ a = pol s) /\
  (forall s, dmem (e_preds e) s = true <-> at_state s evs <> []) /\
  (forall s t, In t (pget (e_preds e) s) <-> exists v, In v evs /\ v_state v = s /\ v_prev v = Some t) /\
  (forall s, dmem (e_succs e) s = true <-> at_state s evs <> []) /\
  (forall s t, In t (pget (e_succs e) s) <-> exists v, In v evs /\ v_state v = s /\ v_next v = t).

Lemma at_app : forall s l m, at_state s (l ++ m) = at_state s l ++ at_state s m.
Proof. intros. apply filter_app. Qed.
Lemma qsum_app : forall l m, (qsum (l ++ m) == qsum l + qsum m)%Q.
Proof. induction l as [|x l IH]; intros m; cbn; [ring|]. rewrite IH. ring. Qed.
Lemma mem_dget : forall V (m : list (St * V)) s, dmem m s = true -> exists v, dget m s = Some v.
Proof. intros V m s. apply mem_get. Qed.

Lemma est_start : est_ok no_estimate [].
Proof.
  split; [reflexivity|]. split; [reflexivity|]. split; [cbn; split; [discriminate|intros [H _]; congruence]|]. split; [cbn; split; [discriminate|congruence]|]. split; [|split; [cbn; split; [discriminate|congruence]|]].
  - intros s t. cbn. split; [intros []|intros (v & [] & _)].
  - intros s t. cbn. split; [intros []|intros (v & [] & _)].
Qed.

Definition new_key (e : estimate (St := St) (A := A)) (s : St) : estimate :=
  if dmem (e_visits e) s then e
  else Est (dset (e_visits e) s 0) (dset (e_sum e) s 0%Q) (dset (e_pol e) s (pol s)) (dset (e_preds e) s []) (dset (e_succs e) s []).

Lemma visit_ok : forall states actions sums e evs j k s c t p, est_ok e evs ->
  lget states j = Ok s -> lget actions j = Ok (pol s) -> lget sums k = Ok c -> lget states (S j) = Ok t ->
  (match j with 0 => p = None | S i => exists y, lget states i = Ok y /\ p = Some y end) ->
  forall c', (c == c')%Q -> exists e', visit states actions sums e (j, k) = Ok e' /\ est_ok e' (evs ++ [Ev p s t c' (pol s)]).
Proof.
  intros states actions sums e evs j k s c t p (H1 & H2 & H3 & H4 & H5 & H6 & H7) LS LA LC LT LP c' CC.
  assert (VM : dmem (e_visits e) s = true <-> at_state s evs <> []).
  { unfold dmem. rewrite H1. destruct (at_state s evs); split; congruence. }
  assert (exists e1, (if dmem (e_visits e) s then Ok e
              else let* a := lget actions j in
                   Ok (Est (dset (e_visits e) s 0) (dset (e_sum e) s 0%Q) (dset (e_pol e) s a) (dset (e_preds e) s []) (dset (e_succs e) s []))) = Ok e1 /\
     dget (e_visits e1) s = Some (length (at_state s evs)) /\
     (forall x, x <> s -> dget (e_visits e1) x = dget (e_visits e) x) /\
     (exists u, dget (e_sum e1) s = Some u /\ (u == qsum (map v_togo (at_state s evs)))%Q) /\
     (forall x, x <> s -> dget (e_sum e1) x = dget (e_sum e) x) /\
     dget (e_pol e1) s = Some (pol s) /\
     (forall x, x <> s -> dget (e_pol e1) x = dget (e_pol e) x) /\
     dget (e_preds e1) s = Some (pget (e_preds e) s) /\
     (forall x, x <> s -> dget (e_preds e1) x = dget (e_preds e) x) /\
     dget (e_succs e1) s = Some (pget (e_succs e) s) /\
     (forall x, x <> s -> dget (e_succs e1) x = dget (e_succs e) x)) as (e1 & EQ & V1 & V2 & (u & S1 & SU) & S2 & P1 & P2 & R1 & R2 & C1 & C2).
  { destruct (dmem (e_visits e) s) eqn:M.
    - exists e. assert (NE := proj1 VM eq_refl). split; [reflexivity|]. split; [rewrite H1; destruct (at_state s evs); congruence|]. split; [auto|].
      split; [specialize (H2 s); destruct (dget (e_sum e) s) as [u|]; [exists u; tauto|congruence]|]. split; [auto|]. split; [apply H3; auto|]. split; [auto|].
      split. { unfold pget. apply H4 in NE. apply mem_dget in NE. destruct NE as [l ->]. reflexivity. } split; [auto|].
      split. { unfold pget. apply H6 in NE. apply mem_dget in NE. destruct NE as [l ->]. reflexivity. } auto.
    - assert (E : at_state s evs = []). { destruct (at_state s evs); [auto|]. exfalso. assert (false = true) by (apply VM; discriminate). discriminate. }
      rewrite LA. cbn [bind]. eexists. split; [reflexivity|]. cbn [e_visits e_sum e_pol e_preds e_succs].
      assert (NW : forall V (m : list (St * V)) v x, x <> s -> dget (dset m s v) x = dget m x). { intros V m v x N. rewrite dget_dset. destruct (pyeqb_spec s x); congruence. }
      assert (SM : forall V (m : list (St * V)) v, dget (dset m s v) s = Some v). { intros V m v. now rewrite dget_dset, pyeqb_refl. }
      split; [rewrite SM, E; reflexivity|]. split; [auto|]. split; [exists 0%Q; rewrite SM, E; split; [auto|reflexivity]|]. split; [auto|]. split; [auto|]. split; [auto|].
      split. { rewrite SM. f_equal. unfold pget. destruct (dget (e_preds e) s) eqn:Z; [|auto]. exfalso. apply (proj1 (H4 s)); [|exact E]. unfold dmem. now rewrite Z. } split; [auto|].
      split; [|auto]. rewrite SM. f_equal. unfold pget. destruct (dget (e_succs e) s) eqn:Z; [|auto]. exfalso. apply (proj1 (H6 s)); [|exact E]. unfold dmem. now rewrite Z. }
  assert (exists ps, (match j with
              | 0 => Ok (e_preds e1)
              | S i => let* l := dgetE (e_preds e1) s in
                       let* t := lget states i in
                       Ok (dset (e_preds e1) s (pyadd l t))
              end) = Ok ps /\ (forall x, dmem ps x = true <-> x = s \/ dmem (e_preds e) x = true) /\
       (forall x y, In y (pget ps x) <-> In y (pget (e_preds e) x) \/ (x = s /\ p = Some y))) as (ps & PQ & PM & PI).
  { destruct j as [|i].
    - exists (e_preds e1). split; [reflexivity|]. split.
      + intros x. destruct (pyeqb_spec x s) as [EE|N]; [subst x; unfold dmem; rewrite R1; tauto|]. unfold dmem. rewrite (R2 x N). tauto.
      + intros x y. unfold pget at 1. destruct (pyeqb_spec x s) as [EE|N]; [subst x; rewrite R1; subst p; split; [auto|intros [Z|[_ Z]]; [auto|discriminate]]|]. rewrite (R2 x N). split; [auto|]. intros [Z|[Z _]]; [auto|contradiction].
    - destruct LP as (y0 & LY & ->). unfold dgetE. rewrite R1. cbn [bind]. rewrite LY. cbn [bind]. eexists. split; [reflexivity|]. split.
      + intros x. rewrite mem_set. destruct (pyeqb_spec s x) as [EE|N]; [subst x; tauto|]. unfold dmem. rewrite (R2 x) by congruence. cbn [orb]. split; [auto|]. intros [Z|Z]; [congruence|auto].
      + intros x y. unfold pget at 1. rewrite dget_dset. destruct (pyeqb_spec s x) as [EE|N].
        * subst x. rewrite pyadd_In. split; [intros [->|Z]; auto|intros [Z|[_ Z]]; [auto|left; congruence]].
        * rewrite (R2 x) by congruence. split; [auto|]. intros [Z|[Z _]]; [auto|congruence]. }
  unfold visit. rewrite LS. cbn [bind]. rewrite EQ. cbn [bind]. unfold dgetE at 1. rewrite S1. cbn [bind]. rewrite LC. cbn [bind]. unfold dgetE at 1. rewrite V1. cbn [bind]. rewrite PQ. cbn [bind]. unfold dgetE at 1. rewrite C1. cbn [bind]. rewrite LT. cbn [bind].
  eexists. split; [reflexivity|]. unfold est_ok. cbn [e_visits e_sum e_pol e_preds e_succs].
  assert (AT : forall x, at_state x (evs ++ [Ev p s t c' (pol s)]) = if pyeqb s x then at_state x evs ++ [Ev p s t c' (pol s)] else at_state x evs).
  { intros x. rewrite at_app. cbn [at_state filter v_state]. destruct (pyeqb s x); [reflexivity|now rewrite app_nil_r]. }
  split; [|split; [|split; [|split; [|split; [|split]]]]].
  - intros x. rewrite dget_dset, AT. destruct (pyeqb_spec s x) as [EE|N].
    + subst x. destruct (at_state s evs) as [|v l]; [reflexivity|]. cbn [app length]. rewrite app_length. cbn [length]. f_equal. lia.
    + rewrite V2 by congruence. apply H1.
  - intros x. rewrite dget_dset, AT. destruct (pyeqb_spec s x) as [EE|N].
    + subst x. split; [destruct (at_state s evs); discriminate|]. rewrite map_app, qsum_app. cbn. rewrite SU, CC. ring.
    + rewrite S2 by congruence. apply H2.
  - intros x a. rewrite AT. destruct (pyeqb_spec s x) as [EE|N].
    + subst x. rewrite P1. split; [intros Z; split; [destruct (at_state s evs); discriminate|congruence]|intros [_ ->]; reflexivity].
    + rewrite P2 by congruence. apply H3.
  - intros x. rewrite PM, AT, H4. destruct (pyeqb_spec s x) as [EE|N].
    + subst x. split; [destruct (at_state s evs); discriminate|auto].
    + split; [intros [Z|Z]; [congruence|auto]|auto].
  - intros x y. rewrite PI, H5. split.
    + intros [(v & I & Z1 & Z2)|[-> ->]]; [exists v; rewrite in_app_iff; auto|]. eexists. rewrite in_app_iff. split; [right; now left|auto].
    + intros (v & I & Z1 & Z2). apply in_app_iff in I. destruct I as [I|[<-|[]]]; [left; eauto|]. right. cbn in *. auto.
  - intros x. rewrite mem_set, AT. destruct (pyeqb_spec s x) as [EE|N].
    + subst x. split; [destruct (at_state s evs); discriminate|auto].
    + cbn [orb]. unfold dmem. rewrite C2 by congruence. apply H6.
  - intros x y. unfold pget at 1. rewrite dget_dset. destruct (pyeqb_spec s x) as [EE|N].
    + subst x. rewrite pyadd_In, H7. split.
      * intros [->|(v & I & Z1 & Z2)]; [|exists v; rewrite in_app_iff; auto]. eexists. rewrite in_app_iff. split; [right; now left|auto].
      * intros (v & I & Z1 & Z2). apply in_app_iff in I. destruct I as [I|[<-|[]]]; [right; eauto|]. cbn in *. auto.
    + rewrite C2 by congruence. fold (pget (e_succs e) x). rewrite H7. split.
      * intros (v & I & Z1 & Z2). exists v. rewrite in_app_iff. auto.
      * intros (v & I & Z1 & Z2). apply in_app_iff in I. destruct I as [I|[<-|[]]]; [eauto|]. cbn in *. congruence.
Qed.

Lemma lget_app2 : forall X (l m : list X) i, lget (l ++ m) (length l + i) = lget m i.
Proof. intros X l m i. unfold lget. rewrite nth_error_app2 by lia. replace (length l + i - length l) with i by lia. reflexivity. Qed.

Lemma visits_ok : forall sums z path pre acts e evs prev, est_ok e evs ->
  (forall l1 l2, path = l1 ++ l2 -> l2 <> [] -> exists c, lget sums (length l2 - 1) = Ok c /\ (c == total l2)%Q) ->
  length acts = length pre ->
  prev = match rev pre with [] => None | y :: _ => Some y end ->
  exists e', foldM (visit (pre ++ map fst path ++ [z]) (acts ++ map (fun x => pol (fst x)) path) sums) e
     (map (fun k => (length pre + length path - 1 - k, k)) (seq 0 (length path))) = Ok e' /\ est_ok e' (evs ++ rev (events prev path z)).
Proof.
  intros sums z. induction path as [|[x c] rest IH]; intros pre acts e evs prev EO SM LA PV.
  - cbn. exists e. rewrite app_nil_r. auto.
  - cbn [length]. rewrite seq_S, map_app, foldM_app. cbn [Nat.add map fst].
    destruct (IH (pre ++ [x]) (acts ++ [pol x]) e evs (Some x)) as (e1 & F & EO1); [exact EO| | | |].
    + intros l1 l2 E N. apply (SM ((x, c) :: l1) l2); [cbn; congruence|auto].
    + rewrite !app_length, LA. reflexivity.
    + rewrite rev_app_distr. reflexivity.
    + assert (ML : map (fun k => (length pre + S (length rest) - 1 - k, k)) (seq 0 (length rest)) = map (fun k => (length (pre ++ [x]) + length rest - 1 - k, k)) (seq 0 (length rest))).
      { apply map_ext. intros k. rewrite app_length. cbn [length]. f_equal. lia. }
      rewrite ML. replace (pre ++ (x :: map fst rest) ++ [z]) with ((pre ++ [x]) ++ map fst rest ++ [z]) by (rewrite <- app_assoc; reflexivity).
      replace (acts ++ pol x :: map (fun x => pol (fst x)) rest) with ((acts ++ [pol x]) ++ map (fun x => pol (fst x)) rest) by (rewrite <- app_assoc; reflexivity).
      rewrite F. cbn [bind foldM]. replace (length pre + S (length rest) - 1 - length rest) with (length pre) by lia.
      destruct (SM [] ((x, c) :: rest) eq_refl ltac:(discriminate)) as (cc & LC & CC). cbn [length] in LC. replace (S (length rest) - 1) with (length rest) in LC by lia.
      assert (LT : lget ((pre ++ [x]) ++ map fst rest ++ [z]) (S (length pre)) = Ok (next rest z)).
      { rewrite <- app_assoc. replace (S (length pre)) with (length pre + 1) by lia. rewrite lget_app2. destruct rest as [|[y ?] rest]; reflexivity. }
      assert (LS : lget ((pre ++ [x]) ++ map fst rest ++ [z]) (length pre) = Ok x).
      { rewrite <- app_assoc. replace (length pre) with (length pre + 0) by lia. rewrite lget_app2. reflexivity. }
      assert (LAC : lget ((acts ++ [pol x]) ++ map (fun x => pol (fst x)) rest) (length pre) = Ok (pol x)).
      { rewrite <- app_assoc. replace (length pre) with (length acts + 0) by lia. rewrite lget_app2. reflexivity. }
      assert (LP : match length pre with 0 => prev = None | S i => exists y, lget ((pre ++ [x]) ++ map fst rest ++ [z]) i = Ok y /\ prev = Some y end).
      { destruct pre as [|y0 pre0 _] using rev_ind; [cbn; auto|]. rewrite rev_app_distr in PV. cbn in PV. rewrite app_length. cbn [length]. replace (length pre0 + 1) with (S (length pre0)) by lia.
        exists y0. split; [|auto]. rewrite <- !app_assoc. replace (length pre0) with (length pre0 + 0) by lia. rewrite lget_app2. reflexivity. }
      destruct (visit_ok _ _ _ _ _ _ _ _ _ _ prev EO1 LS LAC LC LT LP _ CC) as (e2 & V & EO2). rewrite V. cbn [bind].
      exists e2. split; [reflexivity|]. cbn [events rev fst]. rewrite app_assoc. exact EO2.
Qed.

Lemma cumsum_get : forall l m u, l <> [] -> exists c, lget (cumsum u (l ++ m)) (length l - 1) = Ok c /\ (c == u + qsum l)%Q.
Proof.
  induction l as [|x l IH]; intros m u N; [congruence|]. destruct l as [|y l].
  - cbn. eexists. split; [reflexivity|]. ring.
  - destruct (IH m (u + x)%Q ltac:(discriminate)) as (c & L & E). exists c. split.
    + change (length (x :: y :: l) - 1) with (S (length l)). change ((x :: y :: l) ++ m) with (x :: (y :: l) ++ m). cbn [cumsum].
      change (length (y :: l) - 1) with (length l - 0) in L. rewrite Nat.sub_0_r in L. exact L.
    + rewrite E. change (qsum (x :: y :: l)) with (x + qsum (y :: l))%Q. ring.
Qed.
Lemma qsum_rev : forall l, (qsum (rev l) == qsum l)%Q.
Proof. induction l as [|x l IH]; cbn; [reflexivity|]. rewrite qsum_app, IH. cbn. ring. Qed.
Lemma total_qsum : forall (p : list (St * Q)), (total p == qsum (map snd p))%Q.
Proof. induction p as [|x p IH]; cbn; [reflexivity|]. now rewrite IH. Qed.

Lemma steps_trip : forall draw fuel n s states values actions m, steps fuel draw d pol n s = Ok (states, values, actions, m) ->
  exists path z, states = map fst path ++ [z] /\ values = map snd path /\ actions = map (fun x => pol (fst x)) path /\ trip d pol draw n s path z m.
Proof.
  intros draw. induction fuel as [|fuel IH]; intros n s states values actions m E; [discriminate|]. cbn [steps] in E. set (t := draw n s (pol s)) in *.
  destruct (d_goal d t || d_term d t) eqn:T.
  - injection E as <- <- <- <-. exists [(s, d_cost d s (pol s) t)], t. split; [reflexivity|]. split; [reflexivity|]. split; [reflexivity|]. constructor; [reflexivity|]. now apply orb_true_iff.
  - destruct (steps fuel draw d pol (S n) t) as [[[[st va] ac] m']|er] eqn:X; [|discriminate]. cbn [bind] in E. injection E as <- <- <- <-.
    destruct (IH _ _ _ _ _ _ X) as (path & z & -> & -> & -> & TR). exists ((s, d_cost d s (pol s) t) :: path), z. split; [reflexivity|]. split; [reflexivity|]. split; [reflexivity|].
    apply (trip_more d pol draw n s t); [reflexivity| |exact TR]. intros [G|G]; apply orb_false_iff in T; destruct T; congruence.
Qed.
Lemma trip_steps : forall draw n s path z m, trip d pol draw n s path z m -> forall fuel, length path <= fuel ->
  steps fuel draw d pol n s = Ok (map fst path ++ [z], map snd path, map (fun x => pol (fst x)) path, m).
Proof.
  intros draw n s path z m T. induction T as [n s t -> E|n s t path z m -> E T IH]; intros fuel L; (destruct fuel as [|fuel]; [cbn in L; lia|]); cbn [steps].
  - unfold ends in E. rewrite (proj2 (orb_true_iff _ _) E). reflexivity.
  - destruct (d_goal d (draw n s (pol s)) || d_term d (draw n s (pol s))) eqn:X; [exfalso; apply E; now apply orb_true_iff|]. cbn [length] in L. rewrite IH by lia. reflexivity.
Qed.
Lemma trip_path : forall draw n s path z m, trip d pol draw n s path z m -> path <> [].
Proof. intros draw n s path z m T. destruct T; discriminate. Qed.

Definition all_events (es : list (list (St * Q) * St)) : list event := flat_map (fun e => rev (events None (fst e) (snd e))) es.
Lemma one_rollout_ok : forall draw fuel e n path z m evs, steps fuel draw d pol n (d_init d) = Ok (map fst path ++ [z], map snd path, map (fun x => pol (fst x)) path, m) ->
  est_ok e evs -> exists e', one_rollout fuel draw d pol (e, n) = Ok (e', m) /\ est_ok e' (evs ++ rev (events None path z)).
Proof.
  intros draw fuel e n path z m evs E EO. unfold one_rollout. cbn [snd fst]. rewrite E. cbn [bind]. rewrite app_length, map_length. cbn [length]. replace (length path + 1 - 1) with (length path) by lia.
  destruct (visits_ok (cumsum 0%Q (rev (map snd path))) z path [] [] e evs None EO) as (e' & F & EO'); [|reflexivity|reflexivity|].
  - intros l1 l2 -> N. rewrite map_app, rev_app_distr. destruct (cumsum_get (rev (map snd l2)) (rev (map snd l1)) 0%Q) as (c & L & C).
    { intros Z. apply N. apply (f_equal (@length Q)) in Z. rewrite rev_length, map_length in Z. destruct l2; [auto|discriminate]. }
    exists c. rewrite rev_length, map_length in L. split; [exact L|]. rewrite C, qsum_rev, total_qsum. ring.
  - cbn [app length Nat.add] in F. exists e'. split; [|exact EO']. rewrite F. reflexivity.
Qed.

Lemma rollouts_ok : forall draw fuel nb en, foldM (fun en (_ : nat) => one_rollout fuel draw d pol en) (no_estimate, 0) (seq 0 nb) = Ok en ->
  exists es, length es = nb /\ trips d pol draw 0 es (snd en) /\ est_ok (fst en) (all_events es).
Proof.
  intros draw fuel. induction nb as [|nb IH]; intros en E.
  - cbn in E. injection E as <-. exists []. split; [reflexivity|]. split; [constructor|apply est_start].
  - rewrite seq_S, foldM_app in E. destruct (foldM _ _ (seq 0 nb)) as [[e n]|er] eqn:X; [|discriminate]. cbn [bind foldM] in E. destruct (one_rollout fuel draw d pol (e, n)) as [[e' n']|er] eqn:Y; [|discriminate]. cbn [bind] in E. injection E as <-.
    destruct (IH (e, n) eq_refl) as (es & L & T & EO). cbn [fst snd] in *. assert (Y' := Y). unfold one_rollout in Y'. cbn [snd fst] in Y'. destruct (steps fuel draw d pol n (d_init d)) as [[[[st va] ac] m]|er] eqn:SE; [|discriminate].
    destruct (steps_trip _ _ _ _ _ _ _ _ SE) as (path & z & -> & -> & -> & TR). destruct (one_rollout_ok draw fuel e n path z m _ SE EO) as (e2 & Y2 & EO2). rewrite Y2 in Y. injection Y as <- <-.
    exists (es ++ [(path, z)]). split; [rewrite app_length, L; cbn; lia|]. split; [apply trips_one with n; auto|]. unfold all_events. rewrite flat_map_app. cbn [flat_map fst snd]. rewrite app_nil_r. exact EO2.
Qed.
Lemma rollouts_total : forall draw es n, trips d pol draw 0 es n -> exists N, forall fuel, N <= fuel -> exists en, foldM (fun en (_ : nat) => one_rollout fuel draw d pol en) (no_estimate, 0) (seq 0 (length es)) = Ok en /\ snd en = n /\ est_ok (fst en) (all_events es).
Proof.
  intros draw es n T. remember 0 as z0 eqn:Z0. induction T as [n|n m l es k T IH TR].
  - subst n. exists 0. intros fuel _. exists (no_estimate, 0). split; [reflexivity|]. split; [reflexivity|apply est_start].
  - destruct (IH Z0) as (N & H). exists (Nat.max N (length (fst l))). intros fuel LE. destruct (H fuel ltac:(lia)) as ([e n1] & F & E1 & EO). cbn [fst snd] in *. subst n1.
    destruct (one_rollout_ok draw fuel e m (fst l) (snd l) k _ (trip_steps _ _ _ _ _ _ TR fuel ltac:(lia)) EO) as (e' & Y & EO').
    exists (e', k). rewrite app_length. cbn [length]. rewrite Nat.add_1_r, seq_S, foldM_app, F. cbn [bind foldM]. rewrite Y. cbn [bind fst snd]. split; [reflexivity|]. split; [reflexivity|].
    unfold all_events. rewrite flat_map_app. cbn [flat_map]. rewrite app_nil_r. exact EO'.
Qed.

(** From the events back to the executions. *)
Lemma at_rev : forall s l, at_state s (rev l) = rev (at_state s l).
Proof. intros s. induction l as [|e l IH]; [reflexivity|]. cbn [rev]. rewrite at_app, IH. cbn [at_state filter]. destruct (pyeqb (v_state e) s); [reflexivity|apply app_nil_r]. Qed.
Lemma events_to_go : forall s path z prev, map v_togo (at_state s (events prev path z)) = to_go s path.
Proof. intros s. induction path as [|[x c] path IH]; intros z prev; [reflexivity|]. cbn [events at_state filter v_state to_go fst]. destruct (pyeqb x s); cbn [map v_togo app]; [f_equal|]; apply IH. Qed.
Lemma all_events_to_go : forall s es, (qsum (map v_togo (at_state s (all_events es))) == qsum (all_to_go s es))%Q /\ length (at_state s (all_events es)) = length (all_to_go s es).
Proof.
  intros s. induction es as [|[path z] es [IH1 IH2]]; [split; reflexivity|]. unfold all_events, all_to_go in *. cbn [flat_map fst snd]. rewrite at_app, map_app, qsum_app, qsum_app, IH1, !app_length, IH2, at_rev, rev_length. split.
  - rewrite map_rev, qsum_rev, events_to_go. reflexivity.
  - f_equal. rewrite <- (events_to_go s path z None), map_length. reflexivity.
Qed.
Lemma events_next : forall path z prev s t, (exists v, In v (events prev path z) /\ v_state v = s /\ v_next v = t) <-> consec (map fst path ++ [z]) s t.
Proof.
  induction path as [|[x c] path IH]; intros z prev s t; cbn [events map app].
  - split; [intros (v & [] & _)|]. intros (l1 & l2 & E). apply (f_equal (@length St)) in E. rewrite app_length in E. cbn in E. lia.
  - split.
    + intros (v & [<-|I] & E1 & E2).
      * cbn in E1, E2. subst. destruct path as [|[y c'] path]; [exists [], []; reflexivity|exists [], (map fst path ++ [z]); reflexivity].
      * destruct (proj1 (IH z (Some x) s t)) as (l1 & l2 & E); [eauto|]. exists (x :: l1), l2. cbn [fst]. rewrite E. reflexivity.
    + intros (l1 & l2 & E). destruct l1 as [|y l1]; cbn in E; injection E as E1 E2.
      * eexists. split; [now left|]. cbn. split; [exact E1|]. destruct path as [|[y c'] path]; cbn in E2 |- *; congruence.
      * destruct (proj2 (IH z (Some x) s t)) as (v & I & E3 & E4); [exists l1, l2; exact E2|]. exists v. split; [now right|auto].
Qed.
Lemma events_prev : forall path z prev s t, (exists v, In v (events prev path z) /\ v_state v = s /\ v_prev v = Some t) <->
  consec (map fst path) t s \/ (prev = Some t /\ exists rest, map fst path = s :: rest).
Proof.
  induction path as [|[x c] path IH]; intros z prev s t; cbn [events map].
  - split; [intros (v & [] & _)|]. intros [(l1 & l2 & E)|(_ & r & E)]; [|discriminate]. apply (f_equal (@length St)) in E. rewrite app_length in E. cbn in E. lia.
  - split.
    + intros (v & [<-|I] & E1 & E2).
      * cbn in E1, E2. subst. right. split; [auto|]. eauto.
      * left. destruct (proj1 (IH z (Some x) s t)) as [(l1 & l2 & E)|(E & rest & E')]; [eauto| |].
        -- exists (x :: l1), l2. cbn [fst]. rewrite E. reflexivity.
        -- injection E as <-. exists [], rest. cbn [fst]. rewrite E'. reflexivity.
    + intros [(l1 & l2 & E)|(-> & rest & E)].
      * destruct l1 as [|y l1]; cbn in E; injection E as E1 E2.
        -- destruct (proj2 (IH z (Some x) s t)) as (v & I & E3 & E4); [right; split; [congruence|eauto]|]. exists v. split; [now right|auto].
        -- destruct (proj2 (IH z (Some x) s t)) as (v & I & E3 & E4); [left; exists l1, l2; exact E2|]. exists v. split; [now right|auto].
      * cbn in E. injection E as -> _. eexists. split; [now left|]. auto.
Qed.


Lemma final_map : forall (vis : list (St * nat)) l, (forall s u, In (s, u) l -> exists v, dget vis s = Some v) ->
  exists fv, mapM (fun su : St * Q => let* v := dgetE vis (fst su) in Ok (fst su, (snd su / inject_Z (Z.of_nat v))%Q)) l = Ok fv /\
  forall s, dget fv s = match dget l s, dget vis s with Some u, Some v => Some (u / inject_Z (Z.of_nat v))%Q | _, _ => None end.
Proof.
  intros vis. induction l as [|[s u] l IH]; intros H.
  - exists []. split; reflexivity.
  - destruct IH as (fv & F & G). { intros; eapply H; right; eauto. } destruct (H s u (or_introl eq_refl)) as [v V].
    exists ((s, (u / inject_Z (Z.of_nat v))%Q) :: fv). split.
    + cbn [mapM fst snd]. unfold dgetE at 1. rewrite V. cbn [bind]. rewrite F. reflexivity.
    + intros x. cbn [dget]. destruct (pyeqb_spec x s) as [EQ|N]; [|apply G]. subst x. now rewrite V.
Qed.
Lemma In_dkeys_some : forall V (m : list (St * V)) s u, In (s, u) m -> exists v, dget m s = Some v.
Proof.
  intros V m s u I. apply dget_keys. apply in_map_iff. exists (s, u). auto.
Qed.
Lemma final_value_ok : forall e evs, est_ok e evs -> exists fv, final_value e = Ok fv /\
  forall s, match dget fv s with
            | None => at_state s evs = []
            | Some v => at_state s evs <> [] /\ (v == qsum (map v_togo (at_state s evs)) / inject_Z (Z.of_nat (length (at_state s evs))))%Q
            end.
Proof.
  intros e evs (H1 & H2 & _). unfold final_value. destruct (final_map (e_visits e) (e_sum e)) as (fv & F & G).
  { intros s u I. destruct (In_dkeys_some _ _ _ _ I) as [v V]. specialize (H2 s). rewrite V in H2. destruct H2 as [N _]. rewrite H1. destruct (at_state s evs); [congruence|eauto]. }
  exists fv. split; [exact F|]. intros s. rewrite G. specialize (H2 s). specialize (H1 s). destruct (dget (e_sum e) s) as [u|]; [|exact H2]. destruct H2 as [N E]. rewrite H1. destruct (at_state s evs) as [|x l]; [congruence|]. split; [discriminate|]. rewrite E. reflexivity.
Qed.
End Roll.
