(** Proofs about the LRTDP solver: labels, trials. *)
From Coq Require Import List Bool Arith QArith Qabs Lia Lqa.
From Verif Require Import Py PyList PyMore AoModel AoSpec AoProofs LrtdpModel LrtdpSpec LrtdpProofs.
Import ListNotations.
Open Scope nat_scope.

Section L.
Context {St A : Type} {ES : PyEq St}.
Variable p : mdp St A.
Variable cf : lconfig.
Notation gamma := (lc_discount cf).
Notation eps := (lc_epsilon cf).
Notation lgraph := (lgraph St A).
Notation lstate := (lstate St A).
Notation lv := (lv p).
Notation lsol := (lsol p).
Notation bell := (bell p cf).
Notation qv := (@qv St A cf).
Notation acts := (acts p).
Variable P : St -> Prop.
Hypothesis PS : forall x a y pr, P x -> m_goal p x = false -> In a (m_apps p x) -> In (y, pr) (m_dist p x a) -> P y.

(** Solved states are consistent. *)
Definition lab (g : lgraph) : Prop := forall x, lsol g x = true -> m_goal p x = false ->
  dmem g x = true /\ exists an, lb g x = Some an /\ In an (acts x) /\ (Qabs (lv g x - qv (lv g) an) <= eps)%Q /\
  forall o, In o (an_out an) -> lsol g (snd o) = true /\ dmem g (snd o) = true.
Definition good (g : lgraph) : Prop := wf p g /\ lab g.

Lemma goal_sol : forall g x, wf p g -> m_goal p x = true -> lsol g x = true.
Proof.
  intros g x W G. destruct (dmem g x) eqn:M.
  - rewrite lsol_ln by auto. now apply (wf_goal p g W).
  - unfold LrtdpProofs.lsol. unfold dmem in M. destruct (dget g x); [discriminate|auto].
Qed.
Lemma goal_lv : forall g x, wf p g -> m_goal p x = true -> lv g x = 0%Q.
Proof.
  intros g x W G. destruct (dmem g x) eqn:M.
  - rewrite lv_ln by auto. now apply (wf_goal p g W).
  - unfold LrtdpProofs.lv. unfold dmem in M. destruct (dget g x); [discriminate|]. now rewrite G.
Qed.

Definition node_ok (g : lgraph) (x : St) : Prop := dmem g x = true /\ lsol g x = false /\ P x.
Lemma node_goal : forall g x, wf p g -> node_ok g x -> m_goal p x = false.
Proof. intros g x W (_ & S & _). destruct (m_goal p x) eqn:G; auto. rewrite (goal_sol g x W G) in S. discriminate. Qed.

Lemma out_P : forall x an o, P x -> m_goal p x = false -> In an (acts x) -> In o (an_out an) -> P (snd o).
Proof.
  intros x an o PX G I J. destruct (acts_in p x an I) as [IA OE]. rewrite OE in J. apply in_outcomes in J. destruct J as (y & pr & J & ->). cbn. eauto.
Qed.

Lemma set_good : forall g g' x v an, good g -> lsol g x = false -> wf p g' -> set_view p g g' x v an -> good g'.
Proof.
  intros g g' x v an (W & L) S W' (V1 & V2 & V3 & V4 & V5). split; auto. intros z SZ GZ. rewrite V3 in SZ.
  destruct (L z SZ GZ) as (D & an' & B & I & R & O). assert (N : x <> z) by (intros ->; congruence).
  split; auto. exists an'. rewrite V4, V2. destruct (pyeqb_spec x z) as [|_]; [contradiction|]. repeat split; auto.
  - rewrite (qv_ext cf (lv g') (lv g)); auto. intros o J. rewrite V2. destruct (O o J) as [SO _].
    destruct (pyeqb_spec x (snd o)) as [EQ|]; auto. rewrite <- EQ in SO. congruence.
  - rewrite V3. now apply O.
  - apply V1. now apply O.
Qed.

(** Values after a number of updates of states that [P] allows. *)
Inductive ups (V : St -> Q) : (St -> Q) -> Prop :=
| ups_refl : forall V', (forall y, V' y = V y) -> ups V V'
| ups_step : forall V1 V2 x an v, ups V V1 -> P x -> m_goal p x = false -> bell V1 x = Some (an, v) ->
    (forall y, V2 y = if pyeqb x y then v else V1 y) -> ups V V2.
Lemma ups_trans : forall V1 V2 V3, ups V1 V2 -> ups V2 V3 -> ups V1 V3.
Proof.
  intros V1 V2 V3 H1 H2. induction H2 as [V' E|V V' x an v H IH PX G B E].
  - destruct H1 as [V2 E1|V V2 x an v H PX G B E1].
    + apply ups_refl. intros y. now rewrite E, E1.
    + eapply ups_step; eauto. intros y. now rewrite E, E1.
  - eapply ups_step; eauto.
Qed.

Definition evolves (g g' : lgraph) : Prop :=
  good g' /\ (forall x, dmem g x = true -> dmem g' x = true) /\ ups (lv g) (lv g') /\ (forall x, lsol g x = true -> lsol g' x = true).
Definition kept (g g' : lgraph) : Prop :=
  good g' /\ (forall x, dmem g x = true -> dmem g' x = true) /\ (forall x, lv g' x = lv g x) /\ (forall x, lsol g' x = lsol g x).
Lemma evolves_trans : forall g1 g2 g3, evolves g1 g2 -> evolves g2 g3 -> evolves g1 g3.
Proof. intros g1 g2 g3 (A1 & A2 & A3 & A4) (B1 & B2 & B3 & B4). split; [exact B1|]. split; [auto|]. split; [eapply ups_trans; eauto|auto]. Qed.
Lemma evolves_refl : forall g, good g -> evolves g g.
Proof. intros g G. split; [exact G|]. split; auto. split; auto. now apply ups_refl. Qed.
Lemma kept_refl : forall g, good g -> kept g g.
Proof. intros g G. split; [exact G|]. auto. Qed.
Lemma kept_evolves : forall g g', kept g g' -> evolves g g'.
Proof. intros g g' (A1 & A2 & A3 & A4). split; [exact A1|]. split; auto. split; [now apply ups_refl|]. intros x S. now rewrite A4. Qed.
Lemma kept_trans : forall g1 g2 g3, kept g1 g2 -> kept g2 g3 -> kept g1 g3.
Proof. intros g1 g2 g3 (A1 & A2 & A3 & A4) (B1 & B2 & B3 & B4). split; [exact B1|]. split; [auto|]. split; intros; congruence. Qed.
Lemma kept_node : forall g g' x, kept g g' -> node_ok g x -> node_ok g' x.
Proof. intros g g' x (_ & D & _ & S) (N1 & N2 & N3). repeat split; auto. now rewrite S. Qed.

(** *** [check_solved]: the loop *)
Lemma push_fold : forall (f : St -> bool) os (l : list St),
  fold_left (fun l (o : Q * Q * St) => if f (snd o) then l else snd o :: l) os l = rev (filter (fun y => negb (f y)) (map snd os)) ++ l.
Proof.
  intros f. induction os as [|o os IH]; intros l; cbn [fold_left map filter]; auto. destruct (f (snd o)); cbn [negb]; rewrite IH; auto.
  cbn [rev]. now rewrite <- app_assoc.
Qed.

Definition pushes (g : lgraph) (visited : list St) (an : anode St A) : list St :=
  rev (filter (fun y => negb (l_solved (ln g y) || pymem y visited)) (map snd (an_out an))).
Lemma pushes_in : forall g visited an y, (forall o, In o (an_out an) -> dmem g (snd o) = true) ->
  In y (pushes g visited an) <-> In y (map snd (an_out an)) /\ lsol g y = false /\ ~ In y visited.
Proof.
  intros g visited an y D. unfold pushes. rewrite <- in_rev, filter_In, negb_true_iff, orb_false_iff, pymem_false.
  assert (K : In y (map snd (an_out an)) -> l_solved (ln g y) = lsol g y).
  { intros I. apply in_map_iff in I. destruct I as (o & <- & I). now rewrite lsol_ln by auto. }
  split; intros (H1 & H2 & H3); repeat split; auto; rewrite <- H2; [symmetry|]; auto.
Qed.

(** One turn of the loop. *)
Lemma check_step : forall d w st rv cs rest closed visited, wf p (ls_graph st) -> dmem (ls_graph st) cs = true -> m_goal p cs = false ->
  late w (ls_ticks st) = false ->
  match bell (lv (ls_graph st)) cs with
  | None => check_loop (S d) p cf w st rv (cs :: rest) closed visited = Err AttributeError
  | Some (an, v) => exists st', wf p (ls_graph st') /\ In an (acts cs) /\ set_view p (ls_graph st) (ls_graph st') cs (lv (ls_graph st) cs) an /\
      ls_ticks st' = S (ls_ticks st) /\
      check_loop (S d) p cf w st rv (cs :: rest) closed visited =
        if Qle_bool (Qabs (lv (ls_graph st) cs - v)) eps
        then check_loop d p cf w st' rv (pushes (ls_graph st') (pyadd visited cs) an ++ rest) (cs :: closed) (pyadd visited cs)
        else check_loop d p cf w st' false rest (cs :: closed) (pyadd visited cs)
  end.
Proof.
  intros d w st rv cs rest closed visited W M G LT. cbn [check_loop]. unfold clock. rewrite LT.
  pose proof (lresidual_spec p cf cs (LState (ls_graph st) (S (ls_ticks st)) (ls_draws st)) W M G) as R. cbn [ls_graph ls_ticks ls_draws] in R.
  destruct (bell (lv (ls_graph st)) cs) as [[an v]|].
  - destruct R as (g' & R & W' & I & SV). rewrite R. cbn [bind]. exists (LState g' (S (ls_ticks st)) (ls_draws st)). split; [exact W'|]. split; [exact I|]. split; [exact SV|]. split; [reflexivity|].
    cbn [ls_graph]. rewrite (push_fold (fun y => l_solved (ln g' y) || pymem y (pyadd visited cs))). reflexivity.
  - now rewrite R.
Qed.

Lemma set_kept : forall g g' x an, good g -> lsol g x = false -> wf p g' -> set_view p g g' x (lv g x) an -> kept g g'.
Proof.
  intros g g' x an G S W SV. split; [eapply set_good; eauto|]. destruct SV as (V1 & V2 & V3 & V4 & V5). split; auto. split; auto.
  intros y. rewrite V2. destruct (pyeqb_spec x y) as [EQ|]; congruence.
Qed.

(** What every run of the loop keeps; a failed check shows a state whose value is to be revised. *)
Definition revised (V : St -> Q) (x : St) : Prop := exists an v, bell V x = Some (an, v) /\ (eps < Qabs (V x - v))%Q.
Lemma check_loop_any : forall w d st rv open closed visited r, good (ls_graph st) -> (forall x, In x open -> node_ok (ls_graph st) x) ->
  (forall x, In x closed -> node_ok (ls_graph st) x) -> check_loop d p cf w st rv open closed visited = Ok r ->
  let '(st', rv', open', closed') := r in
  kept (ls_graph st) (ls_graph st') /\ (forall x, In x closed' -> node_ok (ls_graph st') x) /\ (forall x, In x closed -> In x closed') /\
  (forall x, In x open -> In x closed' \/ In x open') /\
  (rv' = true -> rv = true) /\ (rv = true -> rv' = false -> exists x, In x closed' /\ revised (lv (ls_graph st)) x).
Proof.
  induction d as [|d IH]; intros st rv open closed visited r GD NO NC E; destruct open as [|cs rest].
  - cbn in E. injection E as <-. split; [now apply kept_refl|]. repeat split; auto; try (now apply NC). congruence.
  - cbn in E. assert (E' : r = (snd (clock w st), rv, cs :: rest, closed)) by (unfold clock; cbn; destruct (late w (ls_ticks st)); congruence). subst r.
    unfold clock. cbn [snd ls_graph]. split; [now apply kept_refl|]. repeat split; auto; try (now apply NC). congruence.
  - cbn in E. injection E as <-. split; [now apply kept_refl|]. repeat split; auto; try (now apply NC). congruence.
  - destruct (late w (ls_ticks st)) eqn:LT.
    + cbn [check_loop] in E. unfold clock in E. rewrite LT in E. injection E as <-. cbn [ls_graph]. split; [now apply kept_refl|].
      repeat split; auto; try (now apply NC). congruence.
    + pose proof GD as [W L]. pose proof (NO cs (or_introl eq_refl)) as NCS. pose proof (node_goal _ _ W NCS) as G.
      pose proof (check_step d w st rv cs rest closed visited W (proj1 NCS) G LT) as CS.
      destruct (bell (lv (ls_graph st)) cs) as [[an v]|] eqn:BE; [|congruence]. destruct CS as (st' & W' & IA & SV & TK & EQ). rewrite EQ in E.
      assert (KP : kept (ls_graph st) (ls_graph st')) by (apply (set_kept _ _ cs an); auto; apply NCS). pose proof (proj1 KP) as GD'.
      assert (NC' : forall x, In x (cs :: closed) -> node_ok (ls_graph st') x).
      { intros x [<-|I]; eapply kept_node; eauto. }
      assert (NR : forall x, In x rest -> node_ok (ls_graph st') x) by (intros x I; eapply kept_node; eauto; apply NO; now right).
      assert (OM : forall o, In o (an_out an) -> dmem (ls_graph st') (snd o) = true) by apply SV.
      destruct (Qle_bool (Qabs (lv (ls_graph st) cs - v)) eps) eqn:QE.
      * apply IH in E; auto.
        2:{ intros x I. apply in_app_iff in I. destruct I as [I|I]; auto. apply pushes_in in I; auto. destruct I as (I1 & I2 & I3).
            apply in_map_iff in I1. destruct I1 as (o & <- & I1). split; [now apply OM|]. split; auto. eapply out_P; eauto. apply NCS. }
        destruct r as [[[st2 rv2] open2] closed2]. destruct E as (E1 & E2 & E3 & E4 & E5 & E6).
        split; [eapply kept_trans; eauto|]. split; [exact E2|]. split; [intros; apply E3; now right|]. split; [|split; [exact E5|]].
        -- intros x [<-|I]; [left; apply E3; now left|]. apply E4. apply in_app_iff. now right.
        -- intros R1 R2. destruct (E6 R1 R2) as (x & I & an0 & v0 & B0 & Q0). exists x. split; auto. exists an0, v0.
           destruct KP as (_ & _ & KV & _). rewrite (bell_ext p cf _ (lv (ls_graph st)) x KV), KV in *. auto.
      * apply IH in E; auto. destruct r as [[[st2 rv2] open2] closed2]. destruct E as (E1 & E2 & E3 & E4 & E5 & E6).
        split; [eapply kept_trans; eauto|]. split; [exact E2|]. split; [intros; apply E3; now right|]. split; [|split].
        -- intros x [<-|I]; [left; apply E3; now left|]. now apply E4.
        -- intros R. apply E5 in R. discriminate.
        -- intros _ _. exists cs. split; [apply E3; now left|]. exists an, v. split; auto.
           apply Qnot_le_lt. intros Z. apply Qle_bool_iff in Z. congruence.
Qed.

(** Without dead ends it does not fail. *)
Lemma check_loop_total : (forall x, P x -> m_goal p x = false -> m_apps p x <> []) ->
  forall w d st rv open closed visited, good (ls_graph st) -> (forall x, In x open -> node_ok (ls_graph st) x) ->
  exists r, check_loop d p cf w st rv open closed visited = Ok r.
Proof.
  intros ND w. induction d as [|d IH]; intros st rv open closed visited GD NO; destruct open as [|cs rest].
  - cbn. eauto.
  - cbn. destruct (late w (ls_ticks st)); eauto.
  - cbn. eauto.
  - destruct (late w (ls_ticks st)) eqn:LT.
    + cbn [check_loop]. unfold clock. rewrite LT. eauto.
    + pose proof GD as [W L]. pose proof (NO cs (or_introl eq_refl)) as NCS. pose proof (node_goal _ _ W NCS) as G.
      pose proof (check_step d w st rv cs rest closed visited W (proj1 NCS) G LT) as CS.
      destruct (bell (lv (ls_graph st)) cs) as [[an v]|] eqn:BE.
      2:{ apply bell_none in BE. destruct (ND cs); auto. apply NCS. }
      destruct CS as (st' & W' & IA & SV & TK & EQ). rewrite EQ.
      assert (KP : kept (ls_graph st) (ls_graph st')) by (apply (set_kept _ _ cs an); auto; apply NCS). pose proof (proj1 KP) as GD'.
      assert (NR : forall x, In x rest -> node_ok (ls_graph st') x) by (intros x I; eapply kept_node; eauto; apply NO; now right).
      assert (OM : forall o, In o (an_out an) -> dmem (ls_graph st') (snd o) = true) by apply SV.
      destruct (Qle_bool (Qabs (lv (ls_graph st) cs - v)) eps); [|now apply IH]. apply IH; auto.
      intros x I. apply in_app_iff in I. destruct I as [I|I]; auto. apply pushes_in in I; auto. destruct I as (I1 & I2 & I3).
      apply in_map_iff in I1. destruct I1 as (o & <- & I1). split; [now apply OM|]. split; auto. eapply out_P; eauto. apply NCS.
Qed.

(** *** [check_solved]: with enough depth, the loop sees everything it should *)
Section Depth.
Variable U : list St.
Hypothesis PU : forall x, P x -> In x U.

Definition todo (closed : list St) (l : list St) : nat := list_sum (map (branches p) (filter (fun u => negb (pymem u closed)) l)).
Lemma todo_mono : forall closed cs l, todo (cs :: closed) l <= todo closed l.
Proof.
  intros closed cs. unfold todo. induction l as [|u l IH]; cbn [filter]; auto.
  destruct (pymem u closed) eqn:M1, (pymem u (cs :: closed)) eqn:M2; cbn [negb map]; auto.
  - apply pymem_true in M1. apply pymem_false in M2. destruct M2. now right.
  - unfold list_sum in *. cbn [fold_right]. lia.
  - unfold list_sum in *. cbn [fold_right]. lia.
Qed.
Lemma todo_drop : forall closed cs l, In cs l -> ~ In cs closed -> todo (cs :: closed) l + branches p cs <= todo closed l.
Proof.
  intros closed cs l I N. induction l as [|u l IH]; [destruct I|]. unfold todo in *. cbn [filter].
  pose proof (todo_mono closed cs l) as TM. unfold todo in TM.
  destruct (pyeqb_spec u cs) as [EQ|NE].
  - subst u. assert (M1 : pymem cs closed = false) by now apply pymem_false.
    assert (M2 : pymem cs (cs :: closed) = true) by (apply pymem_true; now left). rewrite M1, M2. cbn [negb map].
    unfold list_sum in *. cbn [fold_right]. lia.
  - destruct I as [|I]; [congruence|]. specialize (IH I).
    assert (M : pymem u (cs :: closed) = pymem u closed).
    { destruct (pymem u closed) eqn:M1; [apply pymem_true in M1; apply pymem_true; now right|]. apply pymem_false in M1. apply pymem_false.
      intros [|Z]; auto. }
    rewrite M. destruct (pymem u closed); cbn [negb map]; auto. unfold list_sum in *. cbn [fold_right]. lia.
Qed.
Lemma pushes_length : forall g visited an x, In an (acts x) -> length (pushes g visited an) <= branches p x.
Proof.
  intros g visited an x I. unfold pushes. rewrite rev_length.
  assert (L : forall f (l : list St), length (filter f l) <= length l) by (intros f; induction l as [|y l IH]; cbn; auto; destruct (f y); cbn; lia).
  eapply Nat.le_trans; [apply L|]. rewrite map_length. destruct (acts_in p x an I) as [IA ->]. unfold outcomes. rewrite map_length.
  unfold branches. revert IA. induction (m_apps p x) as [|a l IH]; intros J; [destruct J|]. unfold list_sum in *. cbn [map fold_right].
  destruct J as [->|J]; [lia|]. specialize (IH J). lia.
Qed.

Definition seen (g : lgraph) (closed open : list St) (x : St) : Prop :=
  exists an v, bell (lv g) x = Some (an, v) /\ lb g x = Some an /\ In an (acts x) /\ (Qabs (lv g x - v) <= eps)%Q /\
  forall o, In o (an_out an) -> dmem g (snd o) = true /\ (lsol g (snd o) = true \/ In (snd o) closed \/ In (snd o) open).
Definition lifo (g : lgraph) (closed open : list St) : Prop :=
  forall l1 x l2, open = l1 ++ x :: l2 -> In x closed -> forall an v o, bell (lv g) x = Some (an, v) -> In o (an_out an) ->
  lsol g (snd o) = false -> In (snd o) closed \/ In (snd o) l1.

Lemma app_split : forall X (l1 l2 m1 m2 : list X) x, l1 ++ l2 = m1 ++ x :: m2 ->
  (exists k, l1 = m1 ++ x :: k) \/ exists k, m1 = l1 ++ k /\ l2 = k ++ x :: m2.
Proof.
  induction l1 as [|y l1 IH]; intros l2 m1 m2 x E.
  - right. exists m1. auto.
  - destruct m1 as [|z m1]; cbn in E; injection E as -> E.
    + left. exists l1. reflexivity.
    + apply IH in E. destruct E as [(k & ->)|(k & -> & ->)]; [left|right]; exists k; auto.
Qed.

Lemma seen_keep : forall g g' closed closed' open open' x, kept g g' -> (forall y, lb g' y = lb g y \/ exists an v, bell (lv g) y = Some (an, v) /\ lb g' y = Some an) ->
  (forall y, In y closed \/ In y open -> In y closed' \/ In y open') -> seen g closed open x -> seen g' closed' open' x.
Proof.
  intros g g' closed closed' open open' x (K1 & K2 & K3 & K4) B C (an & v & S1 & S2 & S3 & S4 & S5). exists an, v.
  rewrite (bell_ext p cf _ (lv g) x K3), K3. split; auto. split.
  { destruct (B x) as [->|(an' & v' & E1 & ->)]; congruence. }
  split; auto. split; auto. intros o I. destruct (S5 o I) as [S6 S7]. split; auto. rewrite K4. destruct S7; auto.
Qed.

Lemma check_loop_done : forall w, onward w -> forall d st open closed visited r,
  good (ls_graph st) -> (forall x, In x open -> node_ok (ls_graph st) x) -> (forall x, In x closed -> node_ok (ls_graph st) x) ->
  (forall x, In x visited <-> In x closed) -> (forall x, In x closed -> seen (ls_graph st) closed open x) -> lifo (ls_graph st) closed open ->
  length open + todo closed U <= d -> check_loop d p cf w st true open closed visited = Ok r ->
  let '(st', rv', open', closed') := r in
  rv' = true -> (open' = [] \/ late w (ls_ticks st') = true) /\ (forall x, In x closed' -> seen (ls_graph st') closed' open' x).
Proof.
  intros w OW. induction d as [|d IH]; intros st open closed visited r GD NO NC VI SE LI MU E; destruct open as [|cs rest].
  - cbn in E. injection E as <-. auto.
  - cbn in MU. lia.
  - cbn in E. injection E as <-. auto.
  - destruct (late w (ls_ticks st)) eqn:LT.
    + cbn [check_loop] in E. unfold clock in E. rewrite LT in E. injection E as <-. cbn [ls_graph ls_ticks]. intros _. split; auto.
    + pose proof GD as [W L]. pose proof (NO cs (or_introl eq_refl)) as NCS. pose proof (node_goal _ _ W NCS) as G.
      pose proof (check_step d w st true cs rest closed visited W (proj1 NCS) G LT) as CS.
      destruct (bell (lv (ls_graph st)) cs) as [[an v]|] eqn:BE; [|congruence]. destruct CS as (st' & W' & IA & SV & TK & EQ). rewrite EQ in E.
      assert (KP : kept (ls_graph st) (ls_graph st')) by (apply (set_kept _ _ cs an); auto; apply NCS). pose proof KP as (GD' & KM & KV & KS).
      assert (NC' : forall x, In x (cs :: closed) -> node_ok (ls_graph st') x).
      { intros x [<-|I]; eapply kept_node; eauto. }
      assert (NR : forall x, In x rest -> node_ok (ls_graph st') x) by (intros x I; eapply kept_node; eauto; apply NO; now right).
      assert (OM : forall o, In o (an_out an) -> dmem (ls_graph st') (snd o) = true) by apply SV.
      assert (LB : forall y, lb (ls_graph st') y = lb (ls_graph st) y \/ exists an v, bell (lv (ls_graph st)) y = Some (an, v) /\ lb (ls_graph st') y = Some an).
      { intros y. destruct SV as (_ & _ & _ & V4 & _). rewrite V4. destruct (pyeqb_spec cs y) as [EY|]; [|now left]. subst y. right. eauto. }
      assert (BX : forall x, bell (lv (ls_graph st')) x = bell (lv (ls_graph st)) x) by (intros x; apply bell_ext; auto).
      destruct (Qle_bool (Qabs (lv (ls_graph st) cs - v)) eps) eqn:QE.
      * assert (VI' : forall x, In x (pyadd visited cs) <-> In x (cs :: closed)).
        { intros x. rewrite pyadd_In, VI. cbn. intuition. }
        set (ps := pushes (ls_graph st') (pyadd visited cs) an) in *.
        assert (PI : forall y, In y ps <-> In y (map snd (an_out an)) /\ lsol (ls_graph st') y = false /\ ~ In y (cs :: closed)).
        { intros y. unfold ps. rewrite pushes_in by auto. now rewrite VI'. }
        apply IH in E; auto.
        -- intros x I. apply in_app_iff in I. destruct I as [I|I]; auto. apply PI in I. destruct I as (I1 & I2 & I3).
           apply in_map_iff in I1. destruct I1 as (o & <- & I1). split; [now apply OM|]. split; auto. eapply out_P; eauto. apply NCS.
        -- intros x [<-|I].
           ++ exists an, v. rewrite BX, KV. split; auto. split.
              { destruct SV as (_ & _ & _ & V4 & _). now rewrite V4, pyeqb_refl. }
              split; auto. split; [now apply Qle_bool_iff|]. intros o J. split; auto.
              destruct (lsol (ls_graph st') (snd o)) eqn:SO; auto. right.
              destruct (in_dec (fun a b => reflect_dec _ _ (pyeqb_spec a b)) (snd o) (cs :: closed)) as [K|K]; auto. right. apply in_app_iff. left.
              apply PI. split; auto. now apply in_map.
           ++ apply (seen_keep (ls_graph st) (ls_graph st') closed (cs :: closed) (cs :: rest) (ps ++ rest)); auto.
              intros y [K|[<-|K]]; [left; now right|left; now left|right; apply in_app_iff; now right].
        -- intros l1 x l2 EO IX an0 v0 o B0 J SO. rewrite BX in B0. rewrite KS in SO. apply app_split in EO. destruct EO as [(k & EK)|(k & -> & ER)].
           ++ exfalso. assert (IP : In x ps) by (rewrite EK; apply in_app_iff; right; now left). apply PI in IP. tauto.
           ++ destruct (pyeqb_spec x cs) as [EX|NX].
              ** subst x. assert (EE : an0 = an /\ v0 = v) by (rewrite BE in B0; now injection B0). destruct EE as [-> ->].
                 destruct (in_dec (fun a b => reflect_dec _ _ (pyeqb_spec a b)) (snd o) (cs :: closed)) as [K|K]; auto. right. apply in_app_iff. left.
                 apply PI. split; [now apply in_map|]. split; auto. now rewrite KS.
              ** destruct IX as [|IX]; [congruence|]. 
                 destruct (LI (cs :: k) x l2) with (an := an0) (v := v0) (o := o) as [K|[K|K]]; auto.
                 { cbn. now rewrite ER. } { left. now right. } { left. now left. } { right. apply in_app_iff. now right. }
        -- rewrite app_length. cbn [length] in MU.
           destruct (in_dec (fun a b => reflect_dec _ _ (pyeqb_spec a b)) cs closed) as [K|K].
           ++ assert (PN : ps = []).
              { destruct ps as [|y ps']; auto. exfalso. destruct (proj1 (PI y) (or_introl eq_refl)) as (I1 & I2 & I3).
                apply in_map_iff in I1. destruct I1 as (o & <- & I1). rewrite KS in I2.
                destruct (LI [] cs rest eq_refl K an v o BE I1 I2) as [Z|[]]. apply I3. now right. }
              rewrite PN. cbn [length]. pose proof (todo_mono closed cs U). lia.
           ++ pose proof (pushes_length (ls_graph st') (pyadd visited cs) an cs IA) as PL. fold ps in PL.
              pose proof (todo_drop closed cs U (PU cs (proj2 (proj2 NCS))) K). lia.
      * pose proof (check_loop_any w d st' false rest (cs :: closed) (pyadd visited cs) r GD' NR NC' E) as AN.
        destruct r as [[[st2 rv2] open2] closed2]. destruct AN as (_ & _ & _ & _ & RV & _). intros R. apply RV in R. discriminate.
Qed.

(** *** Marks and updates of the closed states *)
Lemma mark_fold : forall closed g, wf p g -> (forall x, In x closed -> dmem g x = true /\ m_goal p x = false) ->
  let g' := fold_left mark closed g in
  wf p g' /\ (forall x, dmem g' x = dmem g x) /\ (forall x, lv g' x = lv g x) /\ (forall x, lb g' x = lb g x) /\
  (forall x, lsol g' x = lsol g x || pymem x closed).
Proof.
  induction closed as [|c closed IH]; intros g W H; cbn [fold_left].
  - split; [exact W|]. repeat split; auto. intros. cbn. now rewrite orb_false_r.
  - destruct (H c (or_introl eq_refl)) as [MC GC]. set (g1 := mark g c).
    assert (DM : forall x, dmem g1 x = dmem g x).
    { intros x. unfold g1, mark. rewrite lmem_dset. destruct (pyeqb_spec c x) as [EQ|]; [subst x; now rewrite MC|auto]. }
    assert (W1 : wf p g1).
    { constructor.
      - intros x D. rewrite DM in D. unfold g1, mark. rewrite ln_dset. destruct (pyeqb_spec c x) as [EQ|]; [subst x; cbn|]; now apply (wf_acts p g W).
      - intros x an o D J O. rewrite DM in D |- *. unfold g1, mark in J. rewrite ln_dset in J. destruct (pyeqb_spec c x) as [EQ|]; [subst x; cbn in J|]; eapply (wf_out p g W); eauto.
      - intros x D G. rewrite DM in D. unfold g1, mark. rewrite ln_dset. destruct (pyeqb_spec c x) as [EQ|]; [subst x; congruence|]. now apply (wf_goal p g W).
      - intros x an D B. rewrite DM in D. unfold g1, mark in B. rewrite ln_dset in B. destruct (pyeqb_spec c x) as [EQ|]; [subst x; cbn in B|]; now apply (wf_best p g W).
      - apply dset_nodup, W. }
    destruct (IH g1 W1) as (I1 & I2 & I3 & I4 & I5).
    { intros x J. rewrite DM. apply H. now right. }
    split; [exact I1|]. split; [intros x; now rewrite I2, DM|]. split; [|split].
    + intros x. rewrite I3. unfold g1, mark. rewrite lv_dset. destruct (pyeqb_spec c x) as [EQ|]; auto. subst x. cbn. now rewrite <- (lv_ln p) by auto.
    + intros x. rewrite I4. unfold g1, mark. rewrite lb_dset. destruct (pyeqb_spec c x) as [EQ|]; auto. subst x. cbn. now rewrite <- lb_ln by auto.
    + intros x. rewrite I5. unfold g1, mark. rewrite lsol_dset. 
      assert (E : pymem x (c :: closed) = pyeqb c x || pymem x closed).
      { destruct (pyeqb_spec c x) as [EQ|N].
        - subst x. cbn [orb]. apply pymem_true. now left.
        - cbn [orb]. destruct (pymem x closed) eqn:M; [apply pymem_true in M; apply pymem_true; now right|].
          apply pymem_false in M. apply pymem_false. intros [|]; auto. }
      rewrite E. destruct (pyeqb c x); cbn [l_solved orb]; auto. now rewrite orb_true_r.
Qed.

Inductive upl : list St -> (St -> Q) -> (St -> Q) -> Prop :=
| upl_nil : forall V V', (forall y, V' y = V y) -> upl [] V V'
| upl_cons : forall x l V V' an v, P x -> m_goal p x = false -> bell V x = Some (an, v) ->
    upl l (fun y => if pyeqb x y then v else V y) V' -> upl (x :: l) V V'.
Lemma upl_ext : forall l V V1 V', (forall y, V1 y = V y) -> upl l V V' -> upl l V1 V'.
Proof.
  intros l V V1 V' H U1. revert V1 H. induction U1 as [V V' E|x l V V' an v PX G B U1 IH]; intros V1 H.
  - apply upl_nil. intros y. now rewrite E, H.
  - apply (upl_cons x l V1 V' an v); auto.
    + now rewrite (bell_ext p cf V1 V x H).
    + apply IH. intros y. destruct (pyeqb x y); auto.
Qed.

Lemma update_closed_any : forall w closed st st', good (ls_graph st) -> (forall x, In x closed -> node_ok (ls_graph st) x) ->
  update_closed p cf w st closed = Ok st' ->
  evolves (ls_graph st) (ls_graph st') /\ (forall x, lsol (ls_graph st') x = lsol (ls_graph st) x) /\
  (timely w -> upl closed (lv (ls_graph st)) (lv (ls_graph st'))).
Proof.
  intros w. induction closed as [|x closed IH]; intros st st' GD NC E; cbn [update_closed] in E.
  - injection E as <-. split; [now apply evolves_refl|]. split; auto. intros _. now apply upl_nil.
  - unfold clock in E. destruct (late w (ls_ticks st)) eqn:LT.
    + injection E as <-. split; [now apply evolves_refl|]. split; auto. intros T. rewrite (T (ls_ticks st)) in LT. discriminate.
    + pose proof (NC x (or_introl eq_refl)) as NX. pose proof (node_goal _ _ (proj1 GD) NX) as G.
      pose proof (lupdate_spec p cf x (LState (ls_graph st) (S (ls_ticks st)) (ls_draws st)) (proj1 GD) (proj1 NX) G) as US. cbn [ls_graph ls_ticks ls_draws] in US.
      destruct (bell (lv (ls_graph st)) x) as [[an v]|] eqn:BE; [|rewrite US in E; discriminate].
      destruct US as (g' & US & W' & IA & SV). rewrite US in E. cbn [bind fst] in E.
      assert (GD' : good g') by (eapply set_good; eauto; apply NX).
      pose proof SV as (V1 & V2 & V3 & V4 & V5).
      apply IH in E; cbn [ls_graph] in *; auto.
      2:{ intros y I. destruct (NC y (or_intror I)) as (N1 & N2 & N3). repeat split; auto. now rewrite V3. }
      destruct E as (E1 & E2 & E3). split; [|split].
      * eapply evolves_trans; [|exact E1]. split; [exact GD'|]. split; auto. split; [|intros y S; now rewrite V3].
        eapply ups_step; [apply ups_refl; reflexivity| |exact G|exact BE|exact V2]. apply NX.
      * intros y. now rewrite E2, V3.
      * intros T. apply (upl_cons x closed _ _ an v); auto; [apply NX|]. eapply upl_ext; [|apply E3; auto]. intros y. now rewrite V2.
Qed.
Lemma update_closed_total : (forall x, P x -> m_goal p x = false -> m_apps p x <> []) ->
  forall w closed st, good (ls_graph st) -> (forall x, In x closed -> node_ok (ls_graph st) x) -> exists st', update_closed p cf w st closed = Ok st'.
Proof.
  intros ND w. induction closed as [|x closed IH]; intros st GD NC; cbn [update_closed]; eauto.
  unfold clock. destruct (late w (ls_ticks st)); eauto.
  pose proof (NC x (or_introl eq_refl)) as NX. pose proof (node_goal _ _ (proj1 GD) NX) as G.
  pose proof (lupdate_spec p cf x (LState (ls_graph st) (S (ls_ticks st)) (ls_draws st)) (proj1 GD) (proj1 NX) G) as US. cbn [ls_graph ls_ticks ls_draws] in US.
  destruct (bell (lv (ls_graph st)) x) as [[an v]|] eqn:BE.
  2:{ apply bell_none in BE. destruct (ND x); auto. apply NX. }
  destruct US as (g' & US & W' & IA & SV). rewrite US. cbn [bind fst].
  assert (GD' : good g') by (eapply set_good; eauto; apply NX). pose proof SV as (V1 & V2 & V3 & V4 & V5).
  apply IH; cbn [ls_graph]; auto. intros y I. destruct (NC y (or_intror I)) as (N1 & N2 & N3). repeat split; auto. now rewrite V3.
Qed.

(** *** [check_solved] *)
Hypothesis RM : list_sum (map (branches p) U) < lc_depth cf.

Lemma start_visited : forall d w st rv s closed, check_loop d p cf w st rv [s] closed [s] = check_loop d p cf w st rv [s] closed [].
Proof.
  intros d w st rv s closed. destruct d; cbn [check_loop]; auto. unfold pyadd. cbn [pymem existsb]. rewrite pyeqb_refl. reflexivity.
Qed.

(** The updates of a list with a state whose value is to be revised. *)
Definition improves (V V' : St -> Q) : Prop := exists l x, upl l V V' /\ In x l /\ revised V x.

Lemma check_solved_any : forall w s st r, onward w -> good (ls_graph st) -> dmem (ls_graph st) s = true -> P s ->
  check_solved p cf w s st = Ok r ->
  evolves (ls_graph st) (ls_graph (fst r)) /\ (snd r = true -> lsol (ls_graph (fst r)) s = true) /\
  (snd r = false -> timely w -> improves (lv (ls_graph st)) (lv (ls_graph (fst r)))).
Proof.
  intros w s st r OW GD M PX E. unfold check_solved in E. rewrite <- (lsol_ln p _ s M) in E.
  set (start := if lsol (ls_graph st) s then [] else [s]) in *.
  assert (NS : forall x, In x start -> node_ok (ls_graph st) x).
  { intros x I. subst start. destruct (lsol (ls_graph st) s) eqn:SO; [destruct I|]. destruct I as [<-|[]]. repeat split; auto. }
  assert (EL : check_loop (lc_depth cf) p cf w st true start [] start = check_loop (lc_depth cf) p cf w st true start [] []).
  { subst start. destruct (lsol (ls_graph st) s); auto. apply start_visited. }
  rewrite EL in E. destruct (check_loop (lc_depth cf) p cf w st true start [] []) as [q|] eqn:CL; [|discriminate]. cbn [bind] in E.
  pose proof (check_loop_any w (lc_depth cf) st true start [] [] q GD NS) as AN. specialize (AN (fun x (F : In x []) => match F with end) CL).
  pose proof (check_loop_done w OW (lc_depth cf) st start [] [] q GD NS) as DN.
  specialize (DN (fun x (F : In x []) => match F with end) (fun x => conj (fun H => H) (fun H => H)) (fun x (F : In x []) => match F with end)).
  specialize (DN (fun l1 x l2 _ (F : In x []) => match F with end)).
  assert (MU : length start + todo [] U <= lc_depth cf).
  { unfold todo. rewrite filter_all by auto. subst start. destruct (lsol (ls_graph st) s); cbn [length]; lia. }
  specialize (DN MU CL). destruct q as [[[st1 rv] open] closed]. cbn [fst snd] in *.
  destruct AN as (K & NC & _ & OC & _ & FAIL). unfold clock in E. cbn [ls_graph] in E. pose proof K as (GD1 & KM & KV & KS).
  destruct (rv && (negb (late w (ls_ticks st1)) || match open with [] => true | _ :: _ => false end)) eqn:RV.
  - injection E as <-. apply andb_true_iff in RV. destruct RV as [R1 R2]. subst rv. destruct (DN eq_refl) as [OP SE].
    assert (OE : open = []).
    { destruct OP as [|LT]; auto. rewrite LT in R2. cbn in R2. destruct open; auto; discriminate. }
    subst open. cbn [fst snd on_graph ls_graph].
    destruct (mark_fold closed (ls_graph st1) (proj1 GD1)) as (M1 & M2 & M3 & M4 & M5).
    { intros x I. split; [apply (NC x I)|]. apply (node_goal (ls_graph st1)); [apply GD1|auto]. }
    set (g' := fold_left mark closed (ls_graph st1)) in *.
    assert (GD' : good g').
    { split; auto. intros x SX GX. rewrite M5 in SX. rewrite M2.
      assert (QE : forall an, qv (lv g') an = qv (lv (ls_graph st1)) an) by (intros an; apply qv_ext; auto).
      destruct (lsol (ls_graph st1) x) eqn:SX1.
      - destruct (proj2 GD1 x SX1 GX) as (D & an & B & I & R & O). split; auto. exists an. rewrite M4, M3, QE. repeat split; auto.
        + rewrite M5. destruct (O o H) as [-> _]. reflexivity.
        + rewrite M2. now apply O.
      - cbn [orb] in SX. apply pymem_true in SX. split; [apply (NC x SX)|]. destruct (SE x SX) as (an & v & B & LB & I & R & O).
        assert (EV : v = qv (lv (ls_graph st1)) an).
        { unfold LrtdpProofs.bell in B. pose proof (best_spec (qv (lv (ls_graph st1))) (acts x)) as BS. rewrite B in BS. apply BS. }
        exists an. rewrite M4, M3, QE, <- EV. repeat split; auto.
        + rewrite M5. destruct (O o H) as [_ [->|[IC|[]]]]; auto. apply orb_true_iff. right. now apply pymem_true.
        + rewrite M2. now apply O. }
    split; [|split; [|discriminate]].
    + split; [exact GD'|]. split; [intros x D; rewrite M2; auto|]. split; [apply ups_refl; intros y; now rewrite M3|].
      intros x S. rewrite M5, KS, S. reflexivity.
    + intros _. rewrite M5, KS. subst start. destruct (lsol (ls_graph st) s) eqn:SO; auto. cbn [orb]. apply pymem_true.
      destruct (OC s (or_introl eq_refl)) as [|[]]; auto.
  - match type of E with bind (update_closed p cf w ?x closed) _ = _ => set (st2 := x) in * end.
    destruct (update_closed p cf w st2 closed) as [st3|] eqn:UC; [|discriminate]. cbn [bind] in E. injection E as <-. cbn [fst snd].
    destruct (update_closed_any w closed st2 st3 GD1 NC UC) as (U1 & U2 & U3). cbn [st2 ls_graph] in *.
    split; [eapply evolves_trans; [apply kept_evolves; exact K|exact U1]|]. split; [discriminate|]. intros _ T.
    rewrite (T (ls_ticks st1)) in RV. cbn [negb orb] in RV. rewrite andb_true_r in RV. destruct (FAIL eq_refl RV) as (x & I & RX).
    exists closed, x. split; [|split; auto]. eapply upl_ext; [|apply U3; auto]. intros y. now rewrite KV.
Qed.

Lemma check_solved_total : (forall x, P x -> m_goal p x = false -> m_apps p x <> []) ->
  forall w s st, good (ls_graph st) -> dmem (ls_graph st) s = true -> P s -> exists r, check_solved p cf w s st = Ok r.
Proof.
  intros ND w s st GD M PX. unfold check_solved. rewrite <- (lsol_ln p _ s M).
  set (start := if lsol (ls_graph st) s then [] else [s]) in *.
  assert (NS : forall x, In x start -> node_ok (ls_graph st) x).
  { intros x I. subst start. destruct (lsol (ls_graph st) s) eqn:SO; [destruct I|]. destruct I as [<-|[]]. repeat split; auto. }
  destruct (check_loop_total ND w (lc_depth cf) st true start [] start GD NS) as (q & CL). rewrite CL. cbn [bind].
  pose proof (check_loop_any w (lc_depth cf) st true start [] start q GD NS (fun x (F : In x []) => match F with end) CL) as AN.
  destruct q as [[[st1 rv] open] closed]. destruct AN as (K & NC & _). unfold clock. 
  destruct (rv && _); eauto. match goal with |- context [update_closed p cf w ?x closed] => set (st2 := x) end.
  destruct (update_closed_total ND w closed st2) as (st3 & UC); [apply K|exact NC|]. rewrite UC. cbn [bind]. eauto.
Qed.

(** *** Trials *)
Hypothesis LB : lc_labels cf = true.

Lemma walk_any : forall w d st visited cs found r, good (ls_graph st) -> dmem (ls_graph st) cs = true -> P cs ->
  (forall x, In x visited -> node_ok (ls_graph st) x) -> walk d p cf w st visited cs found = Ok r ->
  evolves (ls_graph st) (ls_graph (fst r)) /\ (forall x, lsol (ls_graph (fst r)) x = lsol (ls_graph st) x) /\
  (forall x, In x (snd r) -> node_ok (ls_graph (fst r)) x) /\ (visited <> [] -> snd r <> []) /\
  (timely w -> d <> 0 -> found = false -> lsol (ls_graph st) cs = false -> snd r <> []).
Proof.
  intros w. induction d as [|d IH]; intros st visited cs found r GD M PX NV E; cbn [walk] in E; rewrite LB in E; cbn [negb orb] in E;
    rewrite <- (lsol_ln p _ cs M) in E; destruct (negb (lsol (ls_graph st) cs) && negb found) eqn:GO.
  - unfold clock in E. assert (E' : r = (LState (ls_graph st) (S (ls_ticks st)) (ls_draws st), visited)) by (destruct (late w (ls_ticks st)); congruence).
    subst r. cbn [fst snd ls_graph]. split; [now apply evolves_refl|]. repeat split; auto; try (now apply NV).
  - injection E as <-. cbn [fst snd]. split; [now apply evolves_refl|]. repeat split; auto; try (now apply NV).
  - unfold clock in E. apply andb_true_iff in GO. destruct GO as [SO FO]. apply negb_true_iff in SO. destruct (late w (ls_ticks st)) eqn:LT.
    + injection E as <-. cbn [fst snd ls_graph]. split; [now apply evolves_refl|]. repeat split; auto; try (now apply NV).
      intros T. rewrite (T (ls_ticks st)) in LT. discriminate.
    + assert (NX : node_ok (ls_graph st) cs) by (repeat split; auto). pose proof (node_goal _ _ (proj1 GD) NX) as G.
      pose proof (lupdate_spec p cf cs (LState (ls_graph st) (S (ls_ticks st)) (ls_draws st)) (proj1 GD) (proj1 NX) G) as US. cbn [ls_graph ls_ticks ls_draws] in US.
      destruct (bell (lv (ls_graph st)) cs) as [[an v]|] eqn:BE; [|rewrite US in E; discriminate].
      destruct US as (g' & US & W' & IA & SV). rewrite US in E. cbn [bind fst snd] in E.
      assert (GD' : good g') by (eapply set_good; eauto). pose proof SV as (V1 & V2 & V3 & V4 & V5).
      unfold pick in E. cbn [ls_graph ls_draws ls_ticks] in E.
      destruct (nth_error (an_out an) (draw w (ls_draws st) (an_out an))) as [o|] eqn:NE; [|discriminate]. cbn [bind fst snd] in E. apply nth_error_In in NE.
      apply IH in E; cbn [ls_graph] in *; auto.
      * destruct E as (E1 & E2 & E3 & E4 & E5). split; [|split; [|split; [|split]]]; auto.
        -- eapply evolves_trans; [|exact E1]. split; [exact GD'|]. split; auto. split; [|intros y S; now rewrite V3].
           eapply ups_step; [apply ups_refl; reflexivity| |exact G|exact BE|exact V2]. auto.
        -- intros x. now rewrite E2, V3.
        -- intros _. apply E4. discriminate.
        -- intros _ _ _ _. apply E4. discriminate.
      * apply (out_P cs an); auto.
      * intros x [<-|I]; [repeat split; auto; now rewrite V3|]. destruct (NV x I) as (N1 & N2 & N3). repeat split; auto. now rewrite V3.
  - injection E as <-. cbn [fst snd]. split; [now apply evolves_refl|]. repeat split; auto; try (now apply NV).
    intros _ _ F S. rewrite F, S in GO. discriminate.
Qed.

Lemma walk_total : (forall x, P x -> m_goal p x = false -> m_apps p x <> []) -> 
  (forall x a, P x -> m_goal p x = false -> In a (m_apps p x) -> m_dist p x a <> []) ->
  forall w, drawn w -> forall d st visited cs found, good (ls_graph st) -> dmem (ls_graph st) cs = true -> P cs ->
  exists r, walk d p cf w st visited cs found = Ok r.
Proof.
  intros ND NE w DR. induction d as [|d IH]; intros st visited cs found GD M PX; cbn [walk]; rewrite LB; cbn [negb orb];
    rewrite <- (lsol_ln p _ cs M); destruct (negb (lsol (ls_graph st) cs) && negb found) eqn:GO; eauto.
  - unfold clock. destruct (late w (ls_ticks st)); eauto.
  - unfold clock. apply andb_true_iff in GO. destruct GO as [SO FO]. apply negb_true_iff in SO. destruct (late w (ls_ticks st)); eauto.
    assert (NX : node_ok (ls_graph st) cs) by (repeat split; auto). pose proof (node_goal _ _ (proj1 GD) NX) as G.
    pose proof (lupdate_spec p cf cs (LState (ls_graph st) (S (ls_ticks st)) (ls_draws st)) (proj1 GD) (proj1 NX) G) as US. cbn [ls_graph ls_ticks ls_draws] in US.
    destruct (bell (lv (ls_graph st)) cs) as [[an v]|] eqn:BE.
    2:{ apply bell_none in BE. destruct (ND cs); auto. }
    destruct US as (g' & US & W' & IA & SV). rewrite US. cbn [bind fst snd].
    assert (GD' : good g') by (eapply set_good; eauto). pose proof SV as (V1 & V2 & V3 & V4 & V5).
    unfold pick. cbn [ls_graph ls_draws ls_ticks].
    assert (ON : an_out an <> []).
    { destruct (acts_in p cs an IA) as [IP ->]. specialize (NE cs (an_action an) PX G IP). unfold outcomes. destruct (m_dist p cs (an_action an)); auto; discriminate. }
    pose proof (DR (ls_draws st) (an_out an) ON) as LT. apply nth_error_Some in LT.
    destruct (nth_error (an_out an) (draw w (ls_draws st) (an_out an))) as [o|] eqn:NO; [|contradiction]. cbn [bind fst snd]. apply nth_error_In in NO.
    apply IH; cbn [ls_graph]; auto. apply (out_P cs an); auto.
Qed.

Lemma label_any : forall w visited st st', onward w -> good (ls_graph st) -> (forall x, In x visited -> dmem (ls_graph st) x = true /\ P x) ->
  label p cf w st visited = Ok st' ->
  evolves (ls_graph st) (ls_graph st') /\
  (timely w -> forall x l, visited = x :: l -> lsol (ls_graph st) x = false ->
     lsol (ls_graph st') x = true \/ improves (lv (ls_graph st)) (lv (ls_graph st'))).
Proof.
  intros w. induction visited as [|x visited IH]; intros st st' OW GD NV E; cbn [label] in E.
  - injection E as <-. split; [now apply evolves_refl|]. discriminate.
  - unfold clock in E. destruct (late w (ls_ticks st)) eqn:LT.
    + injection E as <-. split; [now apply evolves_refl|]. intros T. rewrite (T (ls_ticks st)) in LT. discriminate.
    + match type of E with bind (check_solved p cf w x ?a) _ = _ => set (st1 := a) in * end.
      destruct (check_solved p cf w x st1) as [r|] eqn:CS; [|discriminate]. cbn [bind] in E.
      destruct (NV x (or_introl eq_refl)) as [DX PX].
      destruct (check_solved_any w x st1 r OW GD DX PX CS) as (C1 & C2 & C3). cbn [st1 ls_graph] in *.
      destruct (snd r) eqn:SR.
      * apply IH in E; auto; [|apply C1|].
        -- destruct E as [E1 E2]. split; [eapply evolves_trans; eauto|]. intros T y l EQ SY. injection EQ as <- <-. left. apply E1. auto.
        -- intros y I. destruct (NV y (or_intror I)) as [DY PY]. split; auto. now apply C1.
      * injection E as <-. split; [exact C1|]. intros T y l EQ SY. right. auto.
Qed.
Lemma label_total : (forall x, P x -> m_goal p x = false -> m_apps p x <> []) ->
  forall w visited st, onward w -> good (ls_graph st) -> (forall x, In x visited -> dmem (ls_graph st) x = true /\ P x) ->
  exists st', label p cf w st visited = Ok st'.
Proof.
  intros ND w. induction visited as [|x visited IH]; intros st OW GD NV; cbn [label]; eauto.
  unfold clock. destruct (late w (ls_ticks st)); eauto.
  match goal with |- context [check_solved p cf w x ?a] => set (st1 := a) end.
  destruct (NV x (or_introl eq_refl)) as [DX PX].
  destruct (check_solved_total ND w x st1 GD DX PX) as (r & CS). rewrite CS. cbn [bind].
  destruct (check_solved_any w x st1 r OW GD DX PX CS) as (C1 & C2 & C3). cbn [st1 ls_graph] in *.
  destruct (snd r); eauto. apply IH; auto; [apply C1|]. intros y I. destruct (NV y (or_intror I)) as [DY PY]. split; auto. now apply C1.
Qed.

(** A state gets solved, or values improve. *)
Definition progress (g g' : lgraph) : Prop := exists g1, evolves g g1 /\ 
  ((exists x, P x /\ lsol g1 x = false /\ lsol g' x = true /\ ups (lv g1) (lv g')) \/ improves (lv g1) (lv g')).

Lemma trial_any : forall w s st st', onward w -> good (ls_graph st) -> dmem (ls_graph st) s = true -> P s ->
  ltrial p cf w s st = Ok st' ->
  evolves (ls_graph st) (ls_graph st') /\ (timely w -> lsol (ls_graph st) s = false -> progress (ls_graph st) (ls_graph st')).
Proof.
  intros w s st st' OW GD M PX E. unfold ltrial in E. destruct (walk (lc_depth cf) p cf w st [] s false) as [[st1 vis]|] eqn:WK; [|discriminate].
  cbn [bind fst snd] in E. rewrite LB in E.
  destruct (walk_any w (lc_depth cf) st [] s false _ GD M PX (fun x (F : In x []) => match F with end) WK) as (W1 & W2 & W3 & _ & W5). cbn [fst snd] in *.
  destruct (label_any w vis st1 st' OW (proj1 W1)) as (L1 & L2); auto.
  { intros x I. destruct (W3 x I) as (N1 & N2 & N3). auto. }
  split; [eapply evolves_trans; eauto|]. intros T S. exists (ls_graph st1). split; auto.
  assert (NV : vis <> []) by (apply W5; auto; lia). destruct vis as [|x l]; [contradiction|].
  destruct (W3 x (or_introl eq_refl)) as (N1 & N2 & N3).
  destruct (L2 T x l eq_refl N2) as [K|K]; [left; exists x|now right]. repeat split; auto. apply L1.
Qed.
Lemma trial_total : (forall x, P x -> m_goal p x = false -> m_apps p x <> []) ->
  (forall x a, P x -> m_goal p x = false -> In a (m_apps p x) -> m_dist p x a <> []) ->
  forall w s st, onward w -> drawn w -> good (ls_graph st) -> dmem (ls_graph st) s = true -> P s -> exists st', ltrial p cf w s st = Ok st'.
Proof.
  intros ND NE w s st OW DR GD M PX. unfold ltrial. destruct (walk_total ND NE w DR (lc_depth cf) st [] s false GD M PX) as (r & WK). rewrite WK. cbn [bind]. rewrite LB.
  destruct (walk_any w (lc_depth cf) st [] s false _ GD M PX (fun x (F : In x []) => match F with end) WK) as (W1 & W2 & W3 & _).
  apply label_total; auto; [apply W1|]. intros x I. destruct (W3 x I) as (N1 & N2 & N3). auto.
Qed.

Lemma trials_any : forall w s n st r, onward w -> good (ls_graph st) -> dmem (ls_graph st) s = true -> P s ->
  ltrials n p cf w s st = Ok r ->
  evolves (ls_graph st) (ls_graph (fst r)) /\ (timely w -> snd r <> 0 -> lsol (ls_graph (fst r)) s = true).
Proof.
  intros w s. induction n as [|n IH]; intros st r OW GD M PX E; cbn [ltrials] in E; rewrite LB in E; cbn [negb orb] in E;
    rewrite <- (lsol_ln p _ s M) in E; destruct (lsol (ls_graph st) s) eqn:SO; cbn [negb] in E.
  - injection E as <-. split; [now apply evolves_refl|]. auto.
  - unfold clock in E. assert (E' : r = (LState (ls_graph st) (S (ls_ticks st)) (ls_draws st), 0)) by (destruct (late w (ls_ticks st)); congruence).
    subst r. cbn [fst snd ls_graph]. split; [now apply evolves_refl|]. contradiction.
  - injection E as <-. split; [now apply evolves_refl|]. auto.
  - unfold clock in E. destruct (late w (ls_ticks st)) eqn:LT.
    + injection E as <-. split; [now apply evolves_refl|]. intros T. rewrite (T (ls_ticks st)) in LT. discriminate.
    + match type of E with bind (ltrial p cf w s ?a) _ = _ => set (st1 := a) in * end.
      destruct (ltrial p cf w s st1) as [st2|] eqn:TR; [|discriminate]. cbn [bind] in E.
      destruct (trial_any w s st1 st2 OW GD M PX TR) as [T1 T2]. cbn [st1 ls_graph] in *.
      apply IH in E; auto; [|apply T1|now apply T1]. destruct E as [E1 E2]. split; auto. eapply evolves_trans; eauto.
Qed.
Lemma trials_total : (forall x, P x -> m_goal p x = false -> m_apps p x <> []) ->
  (forall x a, P x -> m_goal p x = false -> In a (m_apps p x) -> m_dist p x a <> []) ->
  forall w s, onward w -> drawn w -> forall n st, good (ls_graph st) -> dmem (ls_graph st) s = true -> P s ->
  exists r, ltrials n p cf w s st = Ok r.
Proof.
  intros ND NE w s OW DR. induction n as [|n IH]; intros st GD M PX; cbn [ltrials]; rewrite LB; cbn [negb orb];
    rewrite <- (lsol_ln p _ s M); destruct (lsol (ls_graph st) s) eqn:SO; cbn [negb]; eauto.
  - unfold clock. destruct (late w (ls_ticks st)); eauto.
  - unfold clock. destruct (late w (ls_ticks st)) eqn:LT; eauto.
    match goal with |- context [ltrial p cf w s ?a] => set (st1 := a) end.
    destruct (trial_total ND NE w s st1 OW DR GD M PX) as (st2 & TR). rewrite TR. cbn [bind].
    destruct (trial_any w s st1 st2 OW GD M PX TR) as [T1 T2]. cbn [st1 ls_graph] in *. apply IH; auto; [apply T1|now apply T1].
Qed.

(** With a number that every progress lowers and nothing raises, few trials are needed. *)
Variable size : lgraph -> nat.
Hypothesis size_evolves : forall g g', good g -> evolves g g' -> size g' <= size g.
Hypothesis size_progress : forall g g', good g -> evolves g g' -> progress g g' -> size g' < size g.
Lemma trials_bound : forall w s, onward w -> timely w -> forall n st r, good (ls_graph st) -> dmem (ls_graph st) s = true -> P s ->
  size (ls_graph st) < n -> ltrials n p cf w s st = Ok r -> n - snd r <= size (ls_graph st) /\ snd r <> 0.
Proof.
  intros w s OW T. induction n as [|n IH]; intros st r GD M PX SZ E; [lia|]. cbn [ltrials] in E; rewrite LB in E; cbn [negb orb] in E;
    rewrite <- (lsol_ln p _ s M) in E; destruct (lsol (ls_graph st) s) eqn:SO; cbn [negb] in E.
  - injection E as <-. cbn [snd]. lia.
  - unfold clock in E. rewrite (T (ls_ticks st)) in E.
    match type of E with bind (ltrial p cf w s ?a) _ = _ => set (st1 := a) in * end.
    destruct (ltrial p cf w s st1) as [st2|] eqn:TR; [|discriminate]. cbn [bind] in E.
    destruct (trial_any w s st1 st2 OW GD M PX TR) as [T1 T2]. cbn [st1 ls_graph] in *.
    pose proof (size_progress _ _ GD T1 (T2 T SO)) as SP.
    apply IH in E; auto; [|apply T1|now apply T1|lia]. lia.
Qed.
End Depth.
End L.
