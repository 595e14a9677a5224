(** Proofs about the LRTDP solver: graphs, updates, labels. *)
From Coq Require Import List Bool Arith QArith Qabs Lia Lqa.
From Verif Require Import Py PyList PyMore AoModel AoSpec AoProofs LrtdpModel LrtdpSpec.
Import ListNotations.
Open Scope nat_scope.

Section L.
Context {St A : Type} {ES : PyEq St}.
Variable p : mdp St A.
Variable cf : lconfig.
Notation gamma := (lc_discount cf).
Notation eps := (lc_epsilon cf).
Notation lgraph := (lgraph St A).
Notation lstate := (lstate St A).

(** The graph seen as total functions of the states. *)
Definition lv (g : lgraph) (x : St) : Q :=
  match dget g x with Some n => l_value n | None => if m_goal p x then 0%Q else m_heur p x end.
Definition lsol (g : lgraph) (x : St) : bool := match dget g x with Some n => l_solved n | None => m_goal p x end.
Definition lb (g : lgraph) (x : St) : option (anode St A) := match dget g x with Some n => l_best n | None => None end.
Definition acts (x : St) : list (anode St A) := map (fun a => ANode a (outcomes p x a)) (m_apps p x).

Lemma acts_in : forall x an, In an (acts x) -> In (an_action an) (m_apps p x) /\ an_out an = outcomes p x (an_action an).
Proof. intros x an I. apply in_map_iff in I. destruct I as (a & <- & I). auto. Qed.

Lemma ln_dset : forall (g : lgraph) s n t, ln (dset g s n) t = if pyeqb s t then n else ln g t.
Proof. intros. unfold ln. rewrite dget_dset. destruct (pyeqb s t); auto. Qed.
Lemma lmem_dset : forall (g : lgraph) s n t, dmem (dset g s n) t = pyeqb s t || dmem g t.
Proof. intros. unfold dmem. rewrite dget_dset. destruct (pyeqb s t); auto. Qed.
Lemma ln_dget : forall (g : lgraph) x, dmem g x = true -> dget g x = Some (ln g x).
Proof. intros g x M. unfold dmem in M. unfold ln. destruct (dget g x); auto; discriminate. Qed.

Record wf (g : lgraph) : Prop := {
  wf_acts : forall x, dmem g x = true -> l_actions (ln g x) = [] \/ l_actions (ln g x) = acts x;
  wf_out : forall x an o, dmem g x = true -> In an (l_actions (ln g x)) -> In o (an_out an) -> dmem g (snd o) = true;
  wf_goal : forall x, dmem g x = true -> m_goal p x = true ->
    l_value (ln g x) = 0%Q /\ l_solved (ln g x) = true /\ l_goal (ln g x) = true;
  wf_best : forall x an, dmem g x = true -> l_best (ln g x) = Some an -> m_goal p x = false /\ In an (acts x);
  wf_nodup : NoDup (dkeys g) }.

Definition same_view (g g' : lgraph) : Prop :=
  (forall x, dmem g x = true -> dmem g' x = true) /\ (forall x, lv g' x = lv g x) /\ (forall x, lsol g' x = lsol g x) /\ (forall x, lb g' x = lb g x).

Lemma dset_nodup : forall (g : lgraph) k v, NoDup (dkeys g) -> NoDup (dkeys (dset g k v)).
Proof.
  intros g k v N. destruct (in_dec (fun a b => reflect_dec _ _ (pyeqb_spec a b)) k (dkeys g)) as [I|I].
  - now rewrite dset_keys_present.
  - rewrite dset_keys_absent by auto. apply NoDup_app_disjoint; auto.
    + constructor; [intros []|constructor].
    + intros x J [<-|[]]. auto.
Qed.

Lemma lv_dset : forall (g : lgraph) s n t, lv (dset g s n) t = if pyeqb s t then l_value n else lv g t.
Proof. intros. unfold lv. rewrite dget_dset. destruct (pyeqb s t); auto. Qed.
Lemma lsol_dset : forall (g : lgraph) s n t, lsol (dset g s n) t = if pyeqb s t then l_solved n else lsol g t.
Proof. intros. unfold lsol. rewrite dget_dset. destruct (pyeqb s t); auto. Qed.
Lemma lb_dset : forall (g : lgraph) s n t, lb (dset g s n) t = if pyeqb s t then l_best n else lb g t.
Proof. intros. unfold lb. rewrite dget_dset. destruct (pyeqb s t); auto. Qed.
Lemma lv_ln : forall (g : lgraph) x, dmem g x = true -> lv g x = l_value (ln g x).
Proof. intros g x M. unfold lv. now rewrite (ln_dget g x M). Qed.
Lemma lsol_ln : forall (g : lgraph) x, dmem g x = true -> lsol g x = l_solved (ln g x).
Proof. intros g x M. unfold lsol. now rewrite (ln_dget g x M). Qed.
Lemma lb_ln : forall (g : lgraph) x, dmem g x = true -> lb g x = l_best (ln g x).
Proof. intros g x M. unfold lb. now rewrite (ln_dget g x M). Qed.

Lemma same_view_refl : forall g, same_view g g.
Proof. intros g. repeat split; auto. Qed.
Lemma same_view_trans : forall g1 g2 g3, same_view g1 g2 -> same_view g2 g3 -> same_view g1 g3.
Proof. intros g1 g2 g3 (A1 & A2 & A3 & A4) (B1 & B2 & B3 & B4). repeat split; intros; auto; congruence. Qed.

(** *** Expansion *)
Definition grows (g g' : lgraph) : Prop :=
  (forall x, dmem g x = true -> dget g' x = dget g x) /\
  (forall x, dmem g x = false -> dmem g' x = true ->
     ln g' x = if m_goal p x then LNode [] None 0%Q true true else LNode [] None (m_heur p x) false false) /\
  (NoDup (dkeys g) -> NoDup (dkeys g')).
Lemma reach_grows : forall o g, grows g (reach_lnode p g o) /\ dmem (reach_lnode p g o) (fst o) = true.
Proof.
  intros o g. unfold reach_lnode. destruct (dmem g (fst o)) eqn:M.
  - split; auto. repeat split; auto. congruence.
  - split; [|rewrite lmem_dset, pyeqb_refl; auto]. repeat split.
    + intros x D. rewrite dget_dset. destruct (pyeqb_spec (fst o) x) as [EQ|]; auto. subst x. congruence.
    + intros x D D'. rewrite ln_dset. rewrite lmem_dset in D'. destruct (pyeqb_spec (fst o) x) as [EQ|]; [now subst x|]. cbn in D'. congruence.
    + apply dset_nodup.
Qed.
Lemma grows_trans : forall g1 g2 g3, grows g1 g2 -> grows g2 g3 -> grows g1 g3.
Proof.
  intros g1 g2 g3 (A1 & A2 & A3) (B1 & B2 & B3). repeat split; auto.
  - intros x D. rewrite <- (A1 x D). apply B1. unfold dmem. rewrite (A1 x D). unfold dmem in D. auto.
  - intros x D D'. destruct (dmem g2 x) eqn:D2.
    + rewrite <- (A2 x D D2). unfold ln. now rewrite (B1 x D2).
    + now apply B2.
Qed.
Lemma grows_refl : forall g, grows g g.
Proof. intros g. repeat split; auto. congruence. Qed.
Lemma grows_mem : forall g g' x, grows g g' -> dmem g x = true -> dmem g' x = true.
Proof. intros g g' x (H & _) D. unfold dmem. rewrite (H x D). exact D. Qed.
Lemma reach_fold_grows : forall os g, grows g (fold_left (reach_lnode p) os g) /\
  forall y pr, In (y, pr) os -> dmem (fold_left (reach_lnode p) os g) y = true.
Proof.
  induction os as [|o os IH]; intros g; cbn [fold_left]; [split; [apply grows_refl|intros y pr []]|].
  destruct (IH (reach_lnode p g o)) as [H1 H2]. destruct (reach_grows o g) as [R1 R2]. split.
  - eapply grows_trans; eauto.
  - intros y pr [->|I]; [|eauto]. eapply grows_mem; eauto.
Qed.

(** [g'] is [g] with the actions [l] added to [x]. *)
Definition added (g : lgraph) (x : St) (l : list A) (g' : lgraph) : Prop :=
  (forall y, dmem g y = true -> y <> x -> dget g' y = dget g y) /\
  (forall y, dmem g y = false -> dmem g' y = true ->
     ln g' y = if m_goal p y then LNode [] None 0%Q true true else LNode [] None (m_heur p y) false false) /\
  dget g' x = Some (LNode (l_actions (ln g x) ++ map (fun a => ANode a (outcomes p x a)) l) (l_best (ln g x)) (l_value (ln g x)) (l_goal (ln g x)) (l_solved (ln g x))) /\
  (forall a y pr, In a l -> In (y, pr) (m_dist p x a) -> dmem g' y = true) /\
  (NoDup (dkeys g) -> NoDup (dkeys g')).

Lemma added_mem : forall g x l g' y, added g x l g' -> dmem g y = true -> dmem g' y = true.
Proof.
  intros g x l g' y (A1 & _ & A3 & _) D. destruct (pyeqb_spec y x) as [EQ|N]; [subst y; unfold dmem; now rewrite A3|].
  unfold dmem. rewrite (A1 y D N). exact D.
Qed.
Lemma expand_action_added : forall g x a, dmem g x = true -> added g x [a] (expand_laction p x g a).
Proof.
  intros g x a M. unfold expand_laction. destruct (reach_fold_grows (m_dist p x a) g) as [(G1 & G2 & G3) D]. set (g1 := fold_left (reach_lnode p) (m_dist p x a) g) in *.
  assert (LX : ln g1 x = ln g x) by (unfold ln; now rewrite G1).
  repeat split.
  - intros y DY N. rewrite dget_dset. destruct (pyeqb_spec x y) as [EQ|]; [congruence|]. auto.
  - intros y DY DY'. rewrite ln_dset. rewrite lmem_dset in DY'. destruct (pyeqb_spec x y) as [EQ|]; [subst y; congruence|]. apply G2; auto.
  - rewrite dget_dset, pyeqb_refl, LX. reflexivity.
  - intros b y pr [<-|[]] I. rewrite lmem_dset, (D y pr I). apply orb_true_r.
  - intros N. apply dset_nodup; auto.
Qed.
Lemma added_trans : forall g1 x l1 g2 l2 g3, dmem g1 x = true -> added g1 x l1 g2 -> added g2 x l2 g3 -> added g1 x (l1 ++ l2) g3.
Proof.
  intros g1 x l1 g2 l2 g3 M AA BB. pose proof AA as (A1 & A2 & A3 & A4 & A5). pose proof BB as (B1 & B2 & B3 & B4 & B5).
  assert (LX : ln g2 x = LNode (l_actions (ln g1 x) ++ map (fun a => ANode a (outcomes p x a)) l1) (l_best (ln g1 x)) (l_value (ln g1 x)) (l_goal (ln g1 x)) (l_solved (ln g1 x)))
    by (unfold ln at 1; now rewrite A3).
  repeat split; auto.
  - intros y D N. rewrite <- (A1 y D N). apply B1; auto. apply (added_mem g1 x l1 g2); auto.
  - intros y D D'. destruct (dmem g2 y) eqn:D2.
    + rewrite <- (A2 y D D2). unfold ln. rewrite B1; auto. intros ->. congruence.
    + now apply B2.
  - rewrite B3, LX. cbn. now rewrite map_app, app_assoc.
  - intros a y pr I J. apply in_app_iff in I. destruct I as [I|I]; [|eauto]. apply (added_mem g2 x l2 g3); eauto.
Qed.
Lemma lexpand_added : forall l g x, dmem g x = true -> added g x l (fold_left (expand_laction p x) l g).
Proof.
  induction l as [|a l IH]; intros g x M; cbn [fold_left].
  - repeat split; auto.
    + intros y D D'. congruence.
    + rewrite (ln_dget g x M). cbn [map]. rewrite app_nil_r. now destruct (ln g x).
  - pose proof (expand_action_added g x a M) as H. change (a :: l) with ([a] ++ l). eapply added_trans; eauto.
    apply IH. apply (added_mem g x [a]); auto.
Qed.

Lemma ready_spec : forall g x, wf g -> dmem g x = true -> m_goal p x = false ->
  wf (ready p x g) /\ same_view g (ready p x g) /\ l_actions (ln (ready p x g) x) = acts x /\
  forall an o, In an (acts x) -> In o (an_out an) -> dmem (ready p x g) (snd o) = true.
Proof.
  intros g x W M G. unfold ready. destruct (wf_acts g W x M) as [E|E].
  2:{ assert (R : match l_actions (ln g x) with [] => lexpand p x g | _ => g end = match acts x with [] => lexpand p x g | _ => g end) by now rewrite E.
      rewrite R. destruct (acts x) as [|an0 l0] eqn:EA.
      - assert (m_apps p x = []) as EP by (unfold acts in EA; destruct (m_apps p x); auto; discriminate).
        unfold lexpand. rewrite EP. cbn [fold_left]. split; [exact W|]. split; [apply same_view_refl|]. split; [exact E|]. intros an o [].
      - split; [exact W|]. split; [apply same_view_refl|]. split; [exact E|]. intros an o I J. rewrite <- E in I. apply (wf_out g W x an o); auto. }
  rewrite E. unfold lexpand. pose proof (lexpand_added (m_apps p x) g x M) as AD. set (g' := fold_left (expand_laction p x) (m_apps p x) g) in *.
  pose proof AD as (A1 & A2 & A3 & A4 & A5). rewrite E in A3. cbn [app] in A3. change (map (fun a => ANode a (outcomes p x a)) (m_apps p x)) with (acts x) in A3.
  assert (LX : ln g' x = LNode (acts x) (l_best (ln g x)) (l_value (ln g x)) (l_goal (ln g x)) (l_solved (ln g x))) by (unfold ln at 1; now rewrite A3).
  assert (LO : forall y, dmem g y = true -> y <> x -> ln g' y = ln g y) by (intros y D N; unfold ln; now rewrite A1).
  assert (OUT : forall an o, In an (acts x) -> In o (an_out an) -> dmem g' (snd o) = true).
  { intros an o I J. destruct (acts_in x an I) as [IA OE]. rewrite OE in J. apply in_outcomes in J. destruct J as (y & pr & J & ->). cbn. eauto. }
  assert (MX : dmem g' x = true) by now apply (added_mem g x (m_apps p x)).
  split; [|split; [|split]]; auto.
  - constructor.
    + intros y D. destruct (pyeqb_spec y x) as [EQ|N]; [subst y; right; now rewrite LX|]. destruct (dmem g y) eqn:DY.
      * rewrite LO by auto. now apply wf_acts.
      * rewrite (A2 y DY D). destruct (m_goal p y); now left.
    + intros y an o D I J. destruct (pyeqb_spec y x) as [EQ|N].
      * subst y. rewrite LX in I. cbn in I. now apply (OUT an o).
      * destruct (dmem g y) eqn:DY.
        -- rewrite LO in I by auto. apply (added_mem g x (m_apps p x)); auto. now apply (wf_out g W y an o).
        -- rewrite (A2 y DY D) in I. destruct (m_goal p y); destruct I.
    + intros y D GY. assert (N : y <> x) by congruence. destruct (dmem g y) eqn:DY.
      * rewrite LO by auto. now apply wf_goal.
      * rewrite (A2 y DY D), GY. cbn. auto.
    + intros y an D B. destruct (pyeqb_spec y x) as [EQ|N].
      * subst y. rewrite LX in B. cbn in B. now apply (wf_best g W).
      * destruct (dmem g y) eqn:DY.
        -- rewrite LO in B by auto. now apply (wf_best g W).
        -- rewrite (A2 y DY D) in B. destruct (m_goal p y); discriminate.
    + apply A5, W.
  - split; [intros y D; now apply (added_mem g x (m_apps p x))|].
    assert (K : forall y, y = x \/ (dmem g y = true /\ y <> x) \/ (dmem g y = false /\ dmem g' y = true) \/ (dmem g y = false /\ dmem g' y = false)).
    { intros y. destruct (pyeqb_spec y x); auto. destruct (dmem g y), (dmem g' y); auto. }
    assert (NG : forall y, dmem g y = false -> dget g y = None) by (intros y D; unfold dmem in D; destruct (dget g y); auto; discriminate).
    assert (NG' : forall y, dmem g' y = false -> dget g' y = None) by (intros y D; unfold dmem in D; destruct (dget g' y); auto; discriminate).
    repeat split; intros y; destruct (K y) as [->|[[D N]|[[D D']|[D D']]]].
    + rewrite !lv_ln by auto. now rewrite LX.
    + unfold lv. now rewrite A1.
    + rewrite (lv_ln g' y D'), (A2 y D D'). unfold lv. rewrite (NG y D). now destruct (m_goal p y).
    + unfold lv. now rewrite (NG y D), (NG' y D').
    + rewrite !lsol_ln by auto. now rewrite LX.
    + unfold lsol. now rewrite A1.
    + rewrite (lsol_ln g' y D'), (A2 y D D'). unfold lsol. rewrite (NG y D). now destruct (m_goal p y).
    + unfold lsol. now rewrite (NG y D), (NG' y D').
    + rewrite !lb_ln by auto. now rewrite LX.
    + unfold lb. now rewrite A1.
    + rewrite (lb_ln g' y D'), (A2 y D D'). unfold lb. rewrite (NG y D). now destruct (m_goal p y).
    + unfold lb. now rewrite (NG y D), (NG' y D').
  - now rewrite LX.
Qed.

(** *** The greedy action *)
Definition qv (V : St -> Q) (an : anode St A) : Q :=
  fold_left (fun u o => (u + fst (fst o) * (snd (fst o) + gamma * V (snd o)))%Q) (an_out an) 0%Q.
Definition best (f : anode St A -> Q) (l : list (anode St A)) : option (anode St A * Q) :=
  fold_left (fun b an => match b with None => Some (an, f an) | Some (_, u) => if Qle_bool u (f an) then b else Some (an, f an) end) l None.

Lemma qv_ext : forall V V' an, (forall o, In o (an_out an) -> V (snd o) = V' (snd o)) -> qv V an = qv V' an.
Proof.
  intros V V' an. unfold qv. generalize 0%Q. induction (an_out an) as [|o os IH]; intros u H; cbn; auto.
  rewrite IH by (intros; apply H; now right). now rewrite (H o) by now left.
Qed.
Lemma best_ext : forall f f' l, (forall an, In an l -> f an = f' an) -> best f l = best f' l.
Proof.
  intros f f' l. unfold best. generalize (@None (anode St A * Q)). induction l as [|an l IH]; intros b H; cbn; auto.
  rewrite (H an) by now left. apply IH. intros; apply H; now right.
Qed.
Lemma best_spec : forall f l, match best f l with
  | None => l = []
  | Some (an, v) => In an l /\ v = f an /\ forall an', In an' l -> (v <= f an')%Q
  end.
Proof.
  intros f l. unfold best.
  assert (K : forall l b, match b with None => True | Some (an, v) => v = f an end ->
    match fold_left (fun b an => match b with None => Some (an, f an) | Some (_, u) => if Qle_bool u (f an) then b else Some (an, f an) end) l b with
    | None => l = [] /\ b = None
    | Some (an, v) => (In an l \/ b = Some (an, v)) /\ v = f an /\ (forall an', In an' l -> (v <= f an')%Q) /\ match b with None => True | Some (_, u) => (v <= u)%Q end
    end).
  { clear l. induction l as [|a l IH]; intros b B; cbn [fold_left].
    - destruct b as [[an v]|]; auto. repeat split; auto; [intros an' []|apply Qle_refl].
    - set (b' := match b with None => _ | Some _ => _ end).
      assert (B' : match b' with None => True | Some (an, v) => v = f an end) by (subst b'; destruct b as [[an v]|]; [destruct (Qle_bool v (f a))|]; auto).
      specialize (IH b' B'). destruct (fold_left _ l b') as [[an v]|].
      + destruct IH as ([I|I] & E & ALL & LE).
        * split; [left; now right|]. split; auto. subst b'. destruct b as [[an0 u]|].
          -- destruct (Qle_bool u (f a)) eqn:Q.
             ++ apply Qle_bool_iff in Q. split; [|auto]. intros an' [<-|J]; [eapply Qle_trans; eauto|auto].
             ++ assert (~ (u <= f a)%Q) by (intros Z; apply Qle_bool_iff in Z; congruence). split; [|lra]. intros an' [<-|J]; auto.
          -- split; auto. intros an' [<-|J]; auto.
        * subst b'. destruct b as [[an0 u]|].
          -- destruct (Qle_bool u (f a)) eqn:Q.
             ++ injection I as <- <-. apply Qle_bool_iff in Q. split; [now right|]. split; auto. split; [|auto].
                intros an' [<-|J]; auto.
             ++ injection I as <- <-. assert (~ (u <= f a)%Q) by (intros Z; apply Qle_bool_iff in Z; congruence).
                split; [left; now left|]. split; auto. split; [|lra]. intros an' [<-|J]; [apply Qle_refl|auto].
          -- injection I as <- <-. split; [left; now left|]. split; auto. split; [|auto]. intros an' [<-|J]; [apply Qle_refl|auto].
      + destruct IH as [-> I]. subst b'. destruct b as [[an0 u]|]; [destruct (Qle_bool u (f a))|]; discriminate. }
  specialize (K l None Logic.I). destruct (fold_left _ l None) as [[an v]|]; [|tauto].
  destruct K as ([I|I] & E & ALL & _); [auto|discriminate].
Qed.

(** The value that an update gives. *)
Definition bell (V : St -> Q) (x : St) : option (anode St A * Q) := best (qv V) (acts x).

Lemma bell_ext : forall V V' x, (forall y, V y = V' y) -> bell V x = bell V' x.
Proof. intros V V' x H. apply best_ext. intros an _. apply qv_ext. auto. Qed.
Lemma bell_none : forall V x, bell V x = None -> m_apps p x = [].
Proof. intros V x E. unfold bell in E. pose proof (best_spec (qv V) (acts x)) as B. rewrite E in B. unfold acts in B. destruct (m_apps p x); auto; discriminate. Qed.

Lemma greedy_bell : forall g x, wf g -> dmem g x = true -> m_goal p x = false ->
  lgreedy gamma (ready p x g) (l_actions (ln (ready p x g) x)) = bell (lv g) x.
Proof.
  intros g x W M G. destruct (ready_spec g x W M G) as (W' & (S1 & S2 & S3 & S4) & EA & OUT). rewrite EA.
  change (lgreedy gamma (ready p x g) (acts x)) with (best (lq gamma (ready p x g)) (acts x)). apply best_ext. intros an I.
  unfold lq, qv. assert (K : forall o, In o (an_out an) -> l_value (ln (ready p x g) (snd o)) = lv g (snd o)).
  { intros o J. rewrite <- lv_ln by eauto. apply S2. }
  revert K. generalize 0%Q. induction (an_out an) as [|o os IH]; intros u K; cbn [fold_left]; auto.
  rewrite (K o) by now left. apply IH. intros; apply K; now right.
Qed.

(** What an update does to the graph. *)
Definition set_view (g g' : lgraph) (x : St) (v : Q) (an : anode St A) : Prop :=
  (forall y, dmem g y = true -> dmem g' y = true) /\ (forall y, lv g' y = if pyeqb x y then v else lv g y) /\
  (forall y, lsol g' y = lsol g y) /\ (forall y, lb g' y = if pyeqb x y then Some an else lb g y) /\
  (forall o, In o (an_out an) -> dmem g' (snd o) = true).

Lemma set_node : forall g x an v, wf g -> dmem g x = true -> m_goal p x = false -> In an (acts x) ->
  let g1 := ready p x g in let n := ln g1 x in
  let g' := dset g1 x (LNode (l_actions n) (Some an) v (l_goal n) (l_solved n)) in wf g' /\ set_view g g' x v an.
Proof.
  intros g x an v W M G I g1 n g'. destruct (ready_spec g x W M G) as (W' & (S1 & S2 & S3 & S4) & EA & OUT). fold g1 in W', S1, S2, S3, S4, EA, OUT.
  assert (MX : dmem g1 x = true) by auto.
  assert (DM : forall y, dmem g' y = dmem g1 y).
  { intros y. subst g'. rewrite lmem_dset. destruct (pyeqb_spec x y) as [EQ|]; [subst y; now rewrite MX|reflexivity]. }
  split.
  - constructor.
    + intros y D. rewrite DM in D. subst g'. rewrite ln_dset. destruct (pyeqb_spec x y) as [EQ|]; [subst y; cbn; now right|]. now apply wf_acts.
    + intros y an' o D J O. rewrite DM in D |- *. subst g'. rewrite ln_dset in J. destruct (pyeqb_spec x y) as [EQ|].
      * subst y. cbn in J. now apply (wf_out g1 W' x an' o).
      * now apply (wf_out g1 W' y an' o).
    + intros y D GY. rewrite DM in D. subst g'. rewrite ln_dset. destruct (pyeqb_spec x y) as [EQ|]; [congruence|]. now apply wf_goal.
    + intros y an' D B. rewrite DM in D. subst g'. rewrite ln_dset in B. destruct (pyeqb_spec x y) as [EQ|].
      * subst y. cbn in B. injection B as <-. auto.
      * now apply (wf_best g1 W').
    + apply dset_nodup, W'.
  - split; [intros y D; rewrite DM; auto|]. split; [|split; [|split]].
    + intros y. subst g'. rewrite lv_dset. destruct (pyeqb x y); auto.
    + intros y. subst g'. rewrite lsol_dset. destruct (pyeqb_spec x y) as [EQ|]; auto. subst y. cbn. subst n. rewrite <- lsol_ln by auto. auto.
    + intros y. subst g'. rewrite lb_dset. destruct (pyeqb x y); auto.
    + intros o J. rewrite DM. eauto.
Qed.

Lemma lupdate_spec : forall x (st : lstate), wf (ls_graph st) -> dmem (ls_graph st) x = true -> m_goal p x = false ->
  match bell (lv (ls_graph st)) x with
  | None => lupdate p cf x st = Err AttributeError
  | Some (an, v) => exists g', lupdate p cf x st = Ok (LState g' (ls_ticks st) (ls_draws st), an) /\ wf g' /\ In an (acts x) /\
                      set_view (ls_graph st) g' x v an
  end.
Proof.
  intros x st W M G. unfold lupdate. rewrite (greedy_bell (ls_graph st) x W M G). pose proof (best_spec (qv (lv (ls_graph st))) (acts x)) as BS.
  unfold bell in *. destruct (best (qv (lv (ls_graph st))) (acts x)) as [[an v]|]; auto. destruct BS as [I _].
  eexists. split; [reflexivity|]. destruct (set_node (ls_graph st) x an v W M G I). auto.
Qed.

Lemma lresidual_spec : forall x (st : lstate), wf (ls_graph st) -> dmem (ls_graph st) x = true -> m_goal p x = false ->
  match bell (lv (ls_graph st)) x with
  | None => lresidual p cf x st = Err AttributeError
  | Some (an, v) => exists g', lresidual p cf x st = Ok (LState g' (ls_ticks st) (ls_draws st), an, Qabs (lv (ls_graph st) x - v)) /\ wf g' /\ In an (acts x) /\
                      set_view (ls_graph st) g' x (lv (ls_graph st) x) an
  end.
Proof.
  intros x st W M G. unfold lresidual. rewrite (greedy_bell (ls_graph st) x W M G). pose proof (best_spec (qv (lv (ls_graph st))) (acts x)) as BS.
  unfold bell in *. destruct (best (qv (lv (ls_graph st))) (acts x)) as [[an v]|]; auto. destruct BS as [I _].
  destruct (ready_spec (ls_graph st) x W M G) as (W' & (S1 & S2 & S3 & S4) & EA & OUT).
  assert (EV : l_value (ln (ready p x (ls_graph st)) x) = lv (ls_graph st) x) by (rewrite <- lv_ln by auto; auto).
  rewrite EV. eexists. split; [reflexivity|]. destruct (set_node (ls_graph st) x an (lv (ls_graph st) x) W M G I). auto.
Qed.
End L.
