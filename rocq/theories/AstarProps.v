(** C13, C14, C15: LazyAstar.

    Specification vocabulary: [exec p s l g c] (top of AstarProofs.v) says that the action list [l] can
    be executed from state [s], every action being applicable where it is taken, that it ends in [g],
    and that its transition costs add up to [c].  It mentions only the domain. *)
From Coq Require Import List Bool Arith QArith Lia Lqa.
From Verif Require Import Py AstarModel AstarProofs.
Import ListNotations.
Open Scope nat_scope.

Section Props.
Context {St A : Type} {ES : PyEq St}.
Notation problem := (@problem St A).

(** Following the answers of the solver for as long as it gives an action, at most [n] times. *)
Fixpoint follow (n : nat) (p : problem) (sol : @solution St A) (s : St) : list A * St :=
  match n with
  | 0 => ([], s)
  | S n' => match get_next_action sol s with
            | Ok (Some a) => let '(l, s') := follow n' p sol (next p s a) in (a :: l, s')
            | _ => ([], s)
            end
  end.

(** *** splitting the path *)
Lemma linked_app : forall (p : problem) l1 l2 g, linked p (l1 ++ l2) g ->
  linked p l1 (first l2 g) /\ linked p l2 g.
Proof.
  intros p. induction l1 as [|[n a] l1 IH]; intros l2 g L; [simpl; auto|]. simpl in L.
  destruct L as (L1 & L2 & L3). destruct (IH _ _ L3) as [X Y]. split; auto. simpl. split; auto. split; auto.
  rewrite L2. destruct l1 as [|[m b] l1]; reflexivity.
Qed.

Lemma first_app : forall (l1 l2 : list (St * A)) g, first (l1 ++ l2) g = first l1 (first l2 g).
Proof. intros [|[n a] l1] l2 g; reflexivity. Qed.

Lemma tele_app : forall (p : problem) V l1 l2 g, tele p V (l1 ++ l2) g -> tele p V l1 (first l2 g) /\ tele p V l2 g.
Proof.
  intros p V. induction l1 as [|[n a] l1 IH]; intros l2 g T; [simpl; auto|]. simpl in T.
  destruct T as (T1 & T2). destruct (IH _ _ T2) as [X Y]. split; auto. simpl. rewrite <- first_app. auto.
Qed.

Lemma map_split : forall (l : list (St * A)) p1 p2, map snd l = p1 ++ p2 ->
  exists l1 l2, l = l1 ++ l2 /\ map snd l1 = p1 /\ map snd l2 = p2.
Proof.
  intros l p1. revert l. induction p1 as [|a p1 IH]; intros l p2 E.
  - exists [], l. auto.
  - destruct l as [|[n b] l]; [discriminate|]. simpl in E. injection E as -> E.
    destruct (IH _ _ E) as (l1 & l2 & -> & <- & <-). exists ((n, a) :: l1), l2. auto.
Qed.

(** What [solve] returns, in terms of the path found. *)
Lemma solve_found : forall fuel (p : problem) s0 v0 pl0 sol, goal p s0 = false ->
  solve fuel p s0 v0 pl0 = Ok sol ->
  (policy sol = [] /\ plan sol = pl0 /\ values sol = v0 /\
   exists total enq', search fuel p [{| e_f := (weight p * heur p s0)%Q; e_cnt := 0; e_node := s0; e_dist := 0%Q;
                       e_parent := None; e_label := None |}] 1 [(s0, (0%Q, (weight p * heur p s0)%Q))] [] 0%Q
                      = Ok ([], total, enq')) \/
  exists enq l g total, found p s0 enq l g total /\ plan sol = pl0 ++ map snd l /\
    (forall n a, In (n, a) l -> dget (policy sol) n = Some (Some a)) /\ dget (policy sol) g = Some None /\
    (forall n, In n (map fst l ++ [g]) -> exists v, dget (values sol) n = Some v /\ (v == total - D enq n)%Q) /\
    search fuel p [{| e_f := (weight p * heur p s0)%Q; e_cnt := 0; e_node := s0; e_dist := 0%Q;
                      e_parent := None; e_label := None |}] 1 [(s0, (0%Q, (weight p * heur p s0)%Q))] [] 0%Q
                      = Ok (map mkstep l ++ [(Some g, None)], total, enq).
Proof.
  intros fuel p s0 v0 pl0 sol G E. unfold solve in E.
  destruct (search _ _ _ _ _ _ _) as [[[path total] enq']|e] eqn:Se; [|discriminate]. cbn [bind] in E.
  destruct (search_found p s0 _ _ _ _ _ _ _ _ _ G (inv_init p s0) Se) as [ -> |(l & g & -> & F)].
  - cbn [store] in E. injection E as <-. left. repeat split; auto. eauto.
  - right. exists enq', l, g, total. split; auto.
    destruct (store_spec enq' total l g {| policy := []; values := v0; plan := pl0 |}) as (sol' & S1 & S2 & S3 & S4 & S5 & _).
    + apply F.
    + apply F.
    + rewrite S1 in E. injection E as <-. repeat split; auto.
Qed.

(** C13.  A successful solve from a non-goal state either leaves an empty policy, or appends to the
    plan an executable action sequence leading to a goal; the policy answers each state of that
    path with the next action of the plan (and the goal with "no action"), and the utility of each
    state of the path is the cost still to be paid plus the weighted heuristic of the goal. *)
Theorem C13_plan_valid : forall fuel (p : problem) s0 v0 pl0 sol,
  goal p s0 = false -> solve fuel p s0 v0 pl0 = Ok sol -> policy sol <> [] ->
  exists acts g total,
    plan sol = pl0 ++ acts /\ acts <> [] /\ goal p g = true /\ exec p s0 acts g total /\
    (forall p1 p2, acts = p1 ++ p2 -> exists s c1 c2,
       exec p s0 p1 s c1 /\ exec p s p2 g c2 /\
       (get_utility p sol s == c2 + weight p * heur p g)%Q /\
       get_next_action sol s = Ok (hd_error p2)) /\
    follow (length acts) p sol s0 = (acts, g).
Proof.
  intros fuel p s0 v0 pl0 sol G E NP.
  destruct (solve_found _ _ _ _ _ _ G E) as [[X _]|(enq & l & g & total & F & Pl & Pol & Pg & Val & _)]; [contradiction|].
  destruct F as (Gg & L & Fs & ND & NE & T & D0 & Tot & _).
  destruct (tele_exec p (D enq) l g L T) as (c & Ex & Qc). rewrite Fs in Ex, Qc.
  exists (map snd l), g, c. split; auto. split; [destruct l; [congruence|discriminate]|]. split; auto. split; auto.
  split.
  - intros p1 p2 Es. destruct (map_split _ _ _ Es) as (l1 & l2 & -> & <- & <-).
    destruct (linked_app p _ _ _ L) as [L1 L2]. destruct (tele_app p _ _ _ _ T) as [T1 T2].
    rewrite first_app in Fs.
    destruct (tele_exec p (D enq) l1 _ L1 T1) as (c1 & E1 & Q1). rewrite Fs in E1.
    destruct (tele_exec p (D enq) l2 _ L2 T2) as (c2 & E2 & Q2).
    exists (first l2 g), c1, c2. split; auto. split; auto. split.
    + assert (I : In (first l2 g) (map fst (l1 ++ l2) ++ [g])).
      { rewrite map_app, <- app_assoc. apply in_app_iff. right. destruct l2 as [|[n a] l2]; simpl; auto. }
      destruct (Val _ I) as (v & Ev & Qv). unfold get_utility. rewrite Ev. lra.
    + unfold get_next_action, dgetE. destruct l2 as [|[n a] l2]; simpl.
      * now rewrite Pg.
      * rewrite (Pol n a); auto. apply in_app_iff. right. now left.
  - rewrite <- Fs. clear - L Pol. revert L Pol. induction l as [|[n a] l IH]; intros L Pol; [reflexivity|].
    simpl in L. destruct L as (L1 & L2 & L3). cbn [map length follow first].
    unfold get_next_action, dgetE. rewrite (Pol n a) by now left. fold (first l g) in L2. rewrite L2.
    rewrite IH; auto. intros m b I. apply Pol. now right.
Qed.

Lemma store_values : forall path tot enq (sol sol' : @solution St A) s, store path tot enq sol = Ok sol' ->
  ~ In (Some s) (map fst path) -> dget (values sol') s = dget (values sol) s.
Proof.
  induction path as [|[[n|] lab] path IH]; intros tot enq sol sol' s E N; cbn [store] in E.
  - injection E as <-. reflexivity.
  - apply bind_ok in E as (qh & _ & E). apply IH with (s := s) in E; [|intros X; apply N; now right].
    rewrite E. cbn [values]. apply dget_dset_other. intros ->. apply N. now left.
  - discriminate.
Qed.

(** Off the plan the utility is the heuristic. *)
Theorem C13_utility_off_plan : forall fuel (p : problem) s0 pl0 sol acts,
  goal p s0 = false -> solve fuel p s0 [] pl0 = Ok sol -> plan sol = pl0 ++ acts ->
  forall s, (forall p1 p2 c, acts = p1 ++ p2 -> ~ exec p s0 p1 s c) -> get_utility p sol s = heur p s.
Proof.
  intros fuel p s0 pl0 sol acts G E Pa s N.
  destruct (solve_found _ _ _ _ _ _ G E) as [(_ & _ & V & _)|(enq & l & g & total & F & Pl & Pol & Pg & Val & Se)].
  { unfold get_utility. rewrite V. reflexivity. }
  rewrite Pa in Pl. apply app_inv_head in Pl. subst acts.
  unfold solve in E. rewrite Se in E. cbn [bind] in E.
  destruct F as (Gg & L & Fs & ND & NE & T & D0 & Tot & _).
  unfold get_utility. rewrite (store_values _ _ _ _ _ s E); [reflexivity|]. intros I.
  assert (X : In s (map fst l ++ [g])).
  { rewrite map_app in I. apply in_app_or in I as [I|[I|[]]]; apply in_or_app.
    - left. rewrite map_map in I. apply in_map_iff in I as ([n a] & E1 & E2). cbn in E1. injection E1 as ->.
      apply in_map_iff. exists (s, a). auto.
    - right. left. cbn in I. congruence. }
  assert (Y : exists l1 l2, l = l1 ++ l2 /\ first l2 g = s).
  { apply in_app_or in X as [X|[ <- |[]]].
    - apply in_map_iff in X as ([n a] & E1 & E2). cbn in E1. subst n. apply in_split in E2 as (l1 & l2 & ->).
      exists l1, ((s, a) :: l2). auto.
    - exists l, []. rewrite app_nil_r. auto. }
  destruct Y as (l1 & l2 & -> & Fl). destruct (linked_app p _ _ _ L) as [L1 L2]. destruct (tele_app p _ _ _ _ T) as [T1 T2].
  rewrite first_app in Fs. destruct (tele_exec p (D enq) l1 _ L1 T1) as (c1 & E1 & Q1). rewrite Fs, Fl in E1.
  apply (N (map snd l1) (map snd l2) c1); auto. apply map_app.
Qed.

(** C14.  Weight 1, non-negative costs, a consistent heuristic that is zero on goals: no execution
    from the start to a goal is cheaper than the returned plan. *)
Theorem C14_optimal : forall fuel (p : problem) s0 v0 pl0 sol,
  goal p s0 = false -> weight p = 1%Q ->
  (forall s a, In a (apps p s) -> (0 <= cost p s a (next p s a))%Q) ->
  (forall s a, In a (apps p s) -> (heur p s <= cost p s a (next p s a) + heur p (next p s a))%Q) ->
  (forall s, goal p s = true -> (heur p s == 0)%Q) ->
  solve fuel p s0 v0 pl0 = Ok sol -> policy sol <> [] ->
  exists acts g total,
    plan sol = pl0 ++ acts /\ goal p g = true /\ exec p s0 acts g total /\
    (get_utility p sol s0 == total)%Q /\
    forall l g' c, exec p s0 l g' c -> goal p g' = true -> (total <= c)%Q.
Proof.
  intros fuel p s0 v0 pl0 sol G W CN CS HG E NP.
  destruct (solve_found _ _ _ _ _ _ G E) as [[X _]|(enq & l & g & total & F & Pl & Pol & Pg & Val & Se)]; [contradiction|].
  destruct F as (Gg & L & Fs & ND & NE & T & D0 & Tot & _).
  destruct (tele_exec p (D enq) l g L T) as (c & Ex & Qc). rewrite Fs in Ex, Qc.
  exists (map snd l), g, c. split; auto. split; auto. split; auto. split.
  - assert (I : In s0 (map fst l ++ [g])).
    { rewrite <- Fs. destruct l as [|[n a] l]; simpl; auto. }
    destruct (Val _ I) as (v & Ev & Qv). unfold get_utility. rewrite Ev.
    pose proof (HG g Gg) as H0. rewrite W in Tot. lra.
  - intros l' g' c' E' G'.
    assert (O : opt p s0 [(s0, (0%Q, (weight p * heur p s0)%Q))] []) by (intros ? ? ? []).
    assert (NE' : map mkstep l ++ [(Some g, None)] <> []) by (destruct l; discriminate).
    pose proof (search_optimal p s0 W CN CS _ _ _ _ _ _ _ _ _ G (inv_init p s0) O Se NE' _ _ _ E' G') as B.
    pose proof (HG g Gg) as H0. pose proof (HG g' G') as H1. rewrite W in Tot. lra.
Qed.

(** C15.  If the states reachable from the start lie in a finite set [univ] closed under transitions,
    two iterations plus one per transition suffice: the search returns, with a plan if and only if
    some goal can be reached (the policy stays empty otherwise). *)
Theorem C15_complete : forall (p : problem) s0 v0 pl0 univ fuel,
  goal p s0 = false -> NoDup univ -> In s0 univ ->
  (forall s a, In s univ -> In a (apps p s) -> In (next p s a) univ) ->
  2 + list_sum (map (fun s => length (apps p s)) univ) <= fuel ->
  exists sol, solve fuel p s0 v0 pl0 = Ok sol /\
    (policy sol <> [] <-> exists l g c, exec p s0 l g c /\ goal p g = true).
Proof.
  intros p s0 v0 pl0 univ fuel G ND I0 Cl Fu.
  assert (T : forall u, todo p u [] = list_sum (map (fun s => length (apps p s)) u))
    by (induction u as [|s u IH]; simpl; auto).
  destruct (search_terminates p s0 univ ND I0 Cl fuel
     [{| e_f := (weight p * heur p s0)%Q; e_cnt := 0; e_node := s0; e_dist := 0%Q; e_parent := None; e_label := None |}]
     1 [(s0, (0%Q, (weight p * heur p s0)%Q))] [] 0%Q G (inv_init p s0)) as (path & total & enq & Se & Em).
  { split; [|intros ? []]. intros x [ <- |[]]. exact I0. }
  { rewrite T. simpl length. lia. }
  assert (Sol : exists sol, solve fuel p s0 v0 pl0 = Ok sol).
  { unfold solve. rewrite Se. cbn [bind].
    destruct (search_found p s0 _ _ _ _ _ _ _ _ _ G (inv_init p s0) Se) as [ -> |(l & g & -> & F)].
    - eexists. reflexivity.
    - destruct (store_spec enq total l g {| policy := []; values := v0; plan := pl0 |}) as (sol' & S1 & _); [apply F|apply F|].
      eauto. }
  destruct Sol as (sol & E). exists sol. split; auto. split.
  - intros NP. destruct (C13_plan_valid _ _ _ _ _ _ G E NP) as (acts & g & c & _ & _ & Gg & Ex & _). eauto.
  - intros (l & g & c & Ex & Gg) NP.
    destruct (solve_found _ _ _ _ _ _ G E) as [(_ & _ & _ & tot & e' & Se')|(enq2 & l2 & g2 & tot2 & F & _ & _ & Pg & _)].
    + rewrite Se in Se'. injection Se' as -> _ _. specialize (Em eq_refl _ _ _ Ex). congruence.
    + rewrite NP in Pg. discriminate.
Qed.

End Props.

(** *** Concrete instances *)
(** Six states; two routes 0-1-3-5 (cost 1+4+1) and 0-2-3-5 (2+1+1), a dead end 4, goal 5. *)
Definition ex_p : @problem nat nat := {|
  apps s := match s with 0 => [1; 2; 4] | 1 => [3; 0] | 2 => [3] | 3 => [5] | _ => [] end;
  next _ a := a;
  cost s a _ := match s, a with 1, 3 => 4%Q | 0, 4 => 3%Q | 0, 2 => 2%Q | _, _ => 1%Q end;
  goal s := s =? 5;
  heur s := match s with 0 => 3%Q | 1 => 3%Q | 2 => 2%Q | 3 => 1%Q | _ => 0%Q end;
  weight := 1%Q |}.

Example C13_example : exists sol, solve 20 ex_p 0 [] [] = Ok sol /\ goal ex_p 0 = false /\
  policy sol = [(0, Some 2); (2, Some 3); (3, Some 5); (5, None)] /\ plan sol = [2; 3; 5] /\
  follow 3 ex_p sol 0 = ([2; 3; 5], 5).
Proof. eexists. split; [vm_compute; reflexivity|]. repeat split; reflexivity. Qed.

Example C14_example : weight ex_p = 1%Q /\
  (forall s a, In a (apps ex_p s) -> (0 <= cost ex_p s a (next ex_p s a))%Q) /\
  (forall s a, In a (apps ex_p s) -> (heur ex_p s <= cost ex_p s a (next ex_p s a) + heur ex_p (next ex_p s a))%Q) /\
  (forall s, goal ex_p s = true -> (heur ex_p s == 0)%Q).
Proof.
  split; [reflexivity|]. split; [|split].
  - intros s a I. destruct s as [|[|[|[|s]]]]; simpl in I;
      repeat (destruct I as [ <- |I]; [vm_compute; discriminate|]); destruct I.
  - intros s a I. destruct s as [|[|[|[|s]]]]; simpl in I;
      repeat (destruct I as [ <- |I]; [vm_compute; discriminate|]); destruct I.
  - intros s G. apply Nat.eqb_eq in G. subst. reflexivity.
Qed.

Example C15_example : let univ := [0; 1; 2; 3; 4; 5] in
  NoDup univ /\ In 0 univ /\ (forall s a, In s univ -> In a (apps ex_p s) -> In (next ex_p s a) univ) /\
  2 + list_sum (map (fun s => length (apps ex_p s)) univ) <= 20.
Proof.
  cbv zeta. split; [repeat constructor; simpl; intuition lia|]. split; [now left|]. split; [|vm_compute; lia].
  intros s a Hs Ha. simpl in Hs.
  assert (X : a <= 5) by (destruct s as [|[|[|[|s]]]]; simpl in Ha; lia).
  simpl. lia.
Qed.

(** *** Findings *)
(** The start state is already a goal: solving raises KeyError ([None] is looked up in [enqueued]),
    whatever the domain. *)
Theorem C13_goal_start_fails : forall (p : @problem nat nat) s0 v0 pl0 fuel,
  goal p s0 = true -> solve (S fuel) p s0 v0 pl0 = Err KeyError.
Proof. intros p s0 v0 pl0 fuel G. unfold solve. cbn [search pop_min]. cbn [e_node]. rewrite G. reflexivity. Qed.

Example C13_goal_start_example : solve 10 ex_p 5 [] [] = Err KeyError.
Proof. reflexivity. Qed.

(** The start state is already a goal: solving raises KeyError ([None] is looked up in [enqueued]),
    whatever the domain. *)
Theorem C13_goal_start_refuted : exists (p : @problem nat nat) s0, goal p s0 = true /\ solve 10 p s0 [] [] = Err KeyError.
Proof. exists ex_p, 5. split; reflexivity. Qed.

(** Solving twice with the same solver object: the kept plan is the concatenation of both plans and
    is not executable. *)
Theorem C13_second_solve_refuted : exists (p : @problem nat nat) s0 sol1 sol2,
  solve 20 p s0 [] [] = Ok sol1 /\ solve 20 p s0 (values sol1) (plan sol1) = Ok sol2 /\
  ~ exists g c, exec p s0 (plan sol2) g c.
Proof.
  exists ex_p, 0. do 2 eexists. split; [vm_compute; reflexivity|]. split; [vm_compute; reflexivity|].
  intros (g & c & E). simpl in E.
  repeat match goal with H : exec _ _ (_ :: _) _ _ |- _ => inversion H; clear H; subst end.
  simpl in *. contradiction.
Qed.

(** A heuristic that never overestimates is not enough: closed states are not re-opened, so an
    admissible but inconsistent heuristic can yield a plan that is not optimal. *)
Definition inc_p : @problem nat nat := {|
  apps s := match s with 0 => [1; 2] | 1 => [2] | 2 => [3] | _ => [] end;
  next _ a := a;
  cost s a _ := match s, a with 0, 2 => 3%Q | 2, 3 => 10%Q | _, _ => 1%Q end;
  goal s := s =? 3;
  heur s := match s with 1 => 6%Q | _ => 0%Q end;
  weight := 1%Q |}.

Theorem C14_admissible_refuted : exists (p : @problem nat nat) s0 sol l g c l' g' c',
  (forall s l g c, exec p s l g c -> goal p g = true -> (heur p s <= c)%Q) /\
  solve 20 p s0 [] [] = Ok sol /\ plan sol = l /\ exec p s0 l g c /\ goal p g = true /\
  exec p s0 l' g' c' /\ goal p g' = true /\ (c' < c)%Q.
Proof.
  exists inc_p, 0. eexists. exists [2; 3], 3. eexists. exists [1; 2; 3], 3. eexists.
  split.
  { assert (NN : forall s l g c, exec inc_p s l g c -> (0 <= c)%Q).
    { induction 1 as [s|s a l s' c I E IH]; [lra|].
      assert (0 <= cost inc_p s a (next inc_p s a))%Q; [|lra].
      simpl. destruct s as [|[|[|s]]]; destruct a as [|[|[|[|a]]]]; lra. }
    intros s l g c E G. destruct s as [|[|s]]; [eapply NN; eauto| |eapply NN; eauto].
    inversion E as [|? a ? ? c1 I E1]; subst; [discriminate|]. simpl in I. destruct I as [ <- |[]].
    inversion E1 as [|? b ? ? c2 I2 E2]; subst; [discriminate|]. simpl in I2. destruct I2 as [ <- |[]].
    apply NN in E2. simpl. lra. }
  split; [vm_compute; reflexivity|]. split; [reflexivity|].
  split; [econstructor; [simpl; auto|]; econstructor; [simpl; auto|]; constructor|]. split; [reflexivity|].
  split; [econstructor; [simpl; auto|]; econstructor; [simpl; auto|]; econstructor; [simpl; auto|]; constructor|].
  split; [reflexivity|]. simpl. lra.
Qed.

Print Assumptions C13_plan_valid.
Print Assumptions C13_utility_off_plan.
Print Assumptions C14_optimal.
Print Assumptions C15_complete.
Print Assumptions C13_goal_start_fails.
Print Assumptions C13_goal_start_refuted.
Print Assumptions C13_second_solve_refuted.
Print Assumptions C14_admissible_refuted.
