(** Proofs about the exploration of deterministic domains. *)
From Coq Require Import List Bool Arith QArith Lia.
From Verif Require Import Py PyList PyMore AoProofs GexModel GexSpec.
Import ListNotations.
Open Scope nat_scope.

Section Gex.
Context {St A X : Type} {ES : PyEq St} {EA : PyEq A}.

Lemma look2_dset : forall T (m : list (St * list (A * T))) v inner s b, look2 (dset m v inner) s b = if pyeqb v s then dget inner b else look2 m s b.
Proof. intros T m v inner s b. unfold look2. rewrite dget_dset. now destruct (pyeqb v s). Qed.
Lemma dmem_dset : forall K V {EK : PyEq K} (m : list (K * V)) k v x, dmem (dset m k v) x = pyeqb k x || dmem m x.
Proof. intros. unfold dmem. rewrite dget_dset. now destruct (pyeqb k x). Qed.
Lemma dmem_get : forall K V {EK : PyEq K} (m : list (K * V)) k, dmem m k = true <-> exists v, dget m k = Some v.
Proof. intros K V EK m k. unfold dmem. destruct (dget m k); split; intros H; eauto; try discriminate. destruct H as [v H]. discriminate. Qed.

Lemma sum_dset : forall K V {EK : PyEq K} (f : V -> nat) (m : list (K * V)) k v old, dget m k = Some old ->
  list_sum (map (fun x => f (snd x)) (dset m k v)) + f old = list_sum (map (fun x => f (snd x)) m) + f v.
Proof.
  intros K V EK f. induction m as [|[k' v'] m IH]; intros k v old G; [discriminate|]. cbn [dget dset] in *. destruct (pyeqb k k').
  - injection G as ->. change (list_sum (map ?h (?x :: ?l))) with (h x + list_sum (map h l)). cbn [snd]. lia.
  - change (list_sum (map ?h (?x :: ?l))) with (h x + list_sum (map h l)). cbn beta. specialize (IH k v old G). lia.
Qed.
Lemma sum_dset_new : forall K V {EK : PyEq K} (f : V -> nat) (m : list (K * V)) k v, dmem m k = false ->
  list_sum (map (fun x => f (snd x)) (dset m k v)) = list_sum (map (fun x => f (snd x)) m) + f v.
Proof.
  intros K V EK f. induction m as [|[k' v'] m IH]; intros k v G; [cbn; lia|]. unfold dmem in G. cbn [dget dset] in *. destruct (pyeqb k k'); [discriminate|].
  change (list_sum (map ?h (?x :: ?l))) with (h x + list_sum (map h l)). cbn beta. rewrite (IH k v); [lia|exact G].
Qed.
Lemma length_dset_old : forall K V {EK : PyEq K} (m : list (K * V)) k v, dmem m k = true -> length (dset m k v) = length m.
Proof. intros K V EK. induction m as [|[k' v'] m IH]; intros k v G; [discriminate|]. unfold dmem in G. cbn [dget dset] in *. destruct (pyeqb k k'); [reflexivity|]. cbn [length]. f_equal. apply IH. exact G. Qed.
Lemma length_dset_new : forall K V {EK : PyEq K} (m : list (K * V)) k v, dmem m k = false -> length (dset m k v) = S (length m).
Proof. intros K V EK. induction m as [|[k' v'] m IH]; intros k v G; [reflexivity|]. unfold dmem in G. cbn [dget dset] in *. destruct (pyeqb k k'); [discriminate|]. cbn [length]. f_equal. apply IH. exact G. Qed.
Lemma filter_dset_new : forall K V {EK : PyEq K} (f : V -> bool) (m : list (K * V)) k v, dmem m k = false ->
  length (filter (fun e => f (snd e)) (dset m k v)) = length (filter (fun e => f (snd e)) m) + (if f v then 1 else 0).
Proof.
  intros K V EK f. induction m as [|[k' v'] m IH]; intros k v G; [cbn; destruct (f v); reflexivity|]. unfold dmem in G. cbn [dget dset] in *. destruct (pyeqb k k'); [discriminate|]. cbn [filter snd]. destruct (f v'); cbn [length]; rewrite (IH k v G); lia.
Qed.

Variable d : xdom St A.
Variable ext : St -> A -> St -> X.
Variable s0 : St.
Notation xreach := (xreach d s0).
Notation expandable := (expandable d s0).

Definition done (m : nmap) (s : St) : Prop := forall a, In a (x_apps d s) -> look2 m s a = Some (x_next d s a).

Record xinv (cur : St -> Prop) (z : xst (St := St) (A := A) (X := X)) : Prop := {
  i_keys : forall s, dmem (xs_map z) s = true -> xreach s;
  i_edges : forall s a t, look2 (xs_map z) s a = Some t -> expandable s /\ In a (x_apps d s) /\ t = x_next d s a /\ dmem (xs_map z) t = true;
  i_stack : forall s, In s (xs_stack z) -> dmem (xs_map z) s = true /\ expandable s;
  i_done : forall s, dmem (xs_map z) s = true -> In s (xs_stack z) \/ done (xs_map z) s \/ ~ expandable s \/ cur s;
  i_att : forall s, dmem (xs_att z) s = dmem (xs_map z) s;
  i_atts : forall s a, look2 (xs_att z) s a = match look2 (xs_map z) s a with Some t => Some (ext s a t) | None => None end;
  i_n : xs_nodes z = node_count (xs_map z);
  i_e : xs_edges z = edge_count (xs_map z);
  i_p : xs_paths z = goal_count d (xs_map z);
  i_start : dmem (xs_map z) s0 = true }.

Definition unseen (U : list St) (m : nmap (St := St) (A := A)) : nat := length (filter (fun x => negb (dmem m x)) U).

Lemma exp_dec : forall s, expandable s \/ ~ expandable s.
Proof. intros s. unfold GexSpec.expandable. destruct (x_goal d s) eqn:G; [|auto]. destruct (pyeqb_spec s s0); [auto|]. right. intros [C|C]; [contradiction|discriminate]. Qed.

Lemma dfs_action_ok : forall v z a, xinv (fun s => s = v) z -> dmem (xs_map z) v = true -> expandable v -> In a (x_apps d v) ->
  exists z', dfs_action d ext v z a = Ok z' /\ xinv (fun s => s = v) z' /\ look2 (xs_map z') v a = Some (x_next d v a) /\
  (forall s b t, look2 (xs_map z) s b = Some t -> look2 (xs_map z') s b = Some t) /\ dmem (xs_map z') v = true /\
  (forall U, (forall s, xreach s -> In s U) -> length (xs_stack z') + unseen U (xs_map z') <= length (xs_stack z) + unseen U (xs_map z)).
Proof.
  intros v z a [K1 K2 K3 K4 K5 K5' N1 N2 N3 K0] MV EV IA. unfold dfs_action. destruct (proj1 (dmem_get _ _ _ _) MV) as [inner GI]. unfold dgetE at 1. rewrite GI. cbn [bind].
  assert (LV : forall b, look2 (xs_map z) v b = dget inner b) by (intros b; unfold look2; now rewrite GI).
  destruct (dmem inner a) eqn:MA.
  - exists z. split; [reflexivity|]. split; [constructor; auto|]. split; [|auto]. apply dmem_get in MA. destruct MA as [t G]. rewrite <- LV in G. rewrite G. destruct (K2 _ _ _ G) as (_ & _ & -> & _). reflexivity.
  - set (n := x_next d v a). assert (MT : dmem (xs_att z) v = true) by now rewrite K5. destruct (proj1 (dmem_get _ _ _ _) MT) as [iatt GT]. unfold dgetE at 1. rewrite GT. cbn [bind].
    assert (LT : forall b, look2 (xs_att z) v b = dget iatt b) by (intros b; unfold look2; now rewrite GT).
    set (m1 := dset (xs_map z) v (dset inner a n)). set (t1 := dset (xs_att z) v (dset iatt a (ext v a n))).
    assert (XN : xreach n) by (apply xreach_step; auto).
    assert (L1 : forall s b, look2 m1 s b = if pyeqb v s && pyeqb a b then Some n else look2 (xs_map z) s b).
    { intros s b. unfold m1. rewrite look2_dset, dget_dset. destruct (pyeqb_spec v s) as [EQ|NE]; [subst s|reflexivity]. destruct (pyeqb a b); cbn [andb]; [reflexivity|now rewrite LV]. }
    assert (L1t : forall s b, look2 t1 s b = if pyeqb v s && pyeqb a b then Some (ext v a n) else look2 (xs_att z) s b).
    { intros s b. unfold t1. rewrite look2_dset, dget_dset. destruct (pyeqb_spec v s) as [EQ|NE]; [subst s|reflexivity]. destruct (pyeqb a b); cbn [andb]; [reflexivity|now rewrite LT]. }
    assert (M1 : forall s, dmem m1 s = dmem (xs_map z) s). { intros s. unfold m1. rewrite dmem_dset. destruct (pyeqb_spec v s) as [EQ|NE]; [subst s; now rewrite MV|reflexivity]. }
    assert (M1t : forall s, dmem t1 s = dmem (xs_att z) s). { intros s. unfold t1. rewrite dmem_dset. destruct (pyeqb_spec v s) as [EQ|NE]; [subst s; now rewrite MT|reflexivity]. }
    assert (C1 : node_count m1 = node_count (xs_map z)) by (unfold node_count, m1; now rewrite length_dset_old).
    assert (C2 : edge_count m1 = S (edge_count (xs_map z))).
    { unfold edge_count, m1. pose proof (sum_dset _ _ (fun l : list (A * St) => length l) (xs_map z) v (dset inner a n) inner GI) as H. cbn beta in H. rewrite (length_dset_new _ _ inner a n MA) in H. lia. }
    assert (C3 : goal_count d m1 = goal_count d (xs_map z) + if x_goal d n then 1 else 0).
    { unfold goal_count, m1. pose proof (sum_dset _ _ (fun l : list (A * St) => length (filter (fun e => x_goal d (snd e)) l)) (xs_map z) v (dset inner a n) inner GI) as H. cbn beta in H. rewrite (filter_dset_new _ _ (x_goal d) inner a n MA) in H. lia. }
    assert (DN : forall s, done (xs_map z) s -> done m1 s).
    { intros s D b I. rewrite L1. destruct (pyeqb_spec v s) as [EQ|NE]; [|cbn; auto]. subst s. destruct (pyeqb_spec a b) as [EQ|NE]; [subst b; reflexivity|cbn; auto]. }
    assert (LA : look2 m1 v a = Some n) by (rewrite L1, !pyeqb_refl; reflexivity).
    assert (ED : forall s b t, look2 m1 s b = Some t -> expandable s /\ In b (x_apps d s) /\ t = x_next d s b /\ (t = n \/ dmem (xs_map z) t = true)).
    { intros s b t. rewrite L1. destruct (pyeqb_spec v s) as [EQ|NE].
      - subst s. destruct (pyeqb_spec a b) as [EQ|NE]; cbn [andb].
        + subst b. intros E. injection E as <-. auto.
        + intros E. destruct (K2 _ _ _ E) as (? & ? & ? & ?). auto.
      - cbn [andb]. intros E. destruct (K2 _ _ _ E) as (? & ? & ? & ?). auto. }
    assert (MO : forall s b t, look2 (xs_map z) s b = Some t -> look2 m1 s b = Some t).
    { intros s b t E. rewrite L1. destruct (pyeqb_spec v s) as [EQ|NE]; [|exact E]. subst s. destruct (pyeqb_spec a b) as [EQ|NE]; [|exact E]. subst b. cbn [andb]. destruct (K2 _ _ _ E) as (_ & _ & -> & _). reflexivity. }
    cbn zeta. destruct (dmem m1 n) eqn:MN.
    + rewrite M1 in MN. eexists. split; [reflexivity|]. cbn [xs_map xs_att xs_nodes xs_edges xs_paths xs_stack].
      replace (if x_goal d n then xs_stack z else xs_stack z) with (xs_stack z) by (destruct (x_goal d n); reflexivity).
      split; [|split; [exact LA|split; [exact MO|split; [now rewrite M1|]]]].
      * constructor; cbn [xs_map xs_att xs_nodes xs_edges xs_paths xs_stack].
        -- intros s H. rewrite M1 in H. auto.
        -- intros s b t E. destruct (ED _ _ _ E) as (H1 & H2 & H3 & H4). rewrite M1. split; [auto|]. split; [auto|]. split; [auto|]. destruct H4 as [->|H4]; auto.
        -- intros s H. rewrite M1. auto.
        -- intros s H. rewrite M1 in H. destruct (K4 s H) as [H'|[H'|H']]; auto.
        -- intros s. rewrite M1t, M1. auto.
        -- intros s b. rewrite L1t, L1. destruct (pyeqb_spec v s) as [EQ|NE]; [|cbn; apply K5']. subst s. destruct (pyeqb_spec a b) as [EQ|NE]; cbn [andb]; [subst b; reflexivity|apply K5'].
        -- rewrite C1. auto.
        -- rewrite C2. auto.
        -- rewrite C3, N3. destruct (x_goal d n); lia.
        -- rewrite M1. auto.
      * intros U HU. assert (UE : unseen U m1 = unseen U (xs_map z)) by (unfold unseen; f_equal; apply filter_ext; intros s; now rewrite M1). lia.
    + assert (MN' := MN). rewrite M1 in MN'. eexists. split; [reflexivity|]. cbn [xs_map xs_att xs_nodes xs_edges xs_paths xs_stack].
      assert (NV : v <> n) by (intros E; rewrite <- E, MV in MN'; discriminate).
      assert (NN : forall b, look2 (xs_map z) n b = None). { intros b. unfold look2. destruct (dget (xs_map z) n) eqn:Z; [|auto]. unfold dmem in MN'. rewrite Z in MN'. discriminate. }
      assert (L2 : forall s b, look2 (dset m1 n []) s b = look2 m1 s b).
      { intros s b. rewrite look2_dset. destruct (pyeqb_spec n s) as [EQ|NE]; [|reflexivity]. subst s. cbn. rewrite L1. destruct (pyeqb_spec v n); [contradiction|]. cbn. now rewrite NN. }
      assert (NNt : forall b, look2 (xs_att z) n b = None) by (intros b; now rewrite K5', NN).
      assert (L2t : forall s b, look2 (dset t1 n []) s b = look2 t1 s b).
      { intros s b. rewrite look2_dset. destruct (pyeqb_spec n s) as [EQ|NE]; [|reflexivity]. subst s. cbn. rewrite L1t. destruct (pyeqb_spec v n); [contradiction|]. cbn. now rewrite NNt. }
      assert (M2 : forall s, dmem (dset m1 n []) s = pyeqb n s || dmem (xs_map z) s) by (intros s; rewrite dmem_dset, M1; reflexivity).
      split; [|split; [rewrite L2; exact LA|split; [intros s b t E; rewrite L2; auto|split; [rewrite M2, MV; apply orb_true_r|]]]].
      * constructor; cbn [xs_map xs_att xs_nodes xs_edges xs_paths xs_stack].
        -- intros s H. rewrite M2 in H. destruct (pyeqb_spec n s) as [EQ|NE]; [subst s; auto|auto].
        -- intros s b t. rewrite L2. intros E. destruct (ED _ _ _ E) as (H1 & H2 & H3 & H4). rewrite M2. split; [auto|]. split; [auto|]. split; [auto|]. destruct H4 as [->|H4]; [now rewrite pyeqb_refl|rewrite H4; apply orb_true_r].
        -- intros s H. rewrite M2. destruct (x_goal d n) eqn:G; [destruct (K3 s H) as [H1 H2]; rewrite H1, orb_true_r; auto|]. destruct H as [<-|H]; [rewrite pyeqb_refl; split; [auto|right; exact G]|destruct (K3 s H) as [H1 H2]; rewrite H1, orb_true_r; auto].
        -- intros s H. rewrite M2 in H. destruct (pyeqb_spec n s) as [EQ|NE].
           ++ subst s. destruct (x_goal d n) eqn:G; [|left; now left]. right; right; left. intros [C|C]; [|congruence]. rewrite C, K0 in MN'. discriminate.
           ++ cbn [orb] in H. destruct (K4 s H) as [H'|[H'|[H'|H']]]; [|right; left; intros b I; rewrite L2; apply DN; auto|auto|auto]. left. destruct (x_goal d n); [auto|now right].
        -- intros s. rewrite M2, dmem_dset, M1t, K5. reflexivity.
        -- intros s b. rewrite L2, L2t, L1t, L1. destruct (pyeqb_spec v s) as [EQ|NE]; [|cbn; apply K5']. subst s. destruct (pyeqb_spec a b) as [EQ|NE]; cbn [andb]; [subst b; reflexivity|apply K5'].
        -- unfold node_count in *. rewrite length_dset_new by exact MN. rewrite C1. congruence.
        -- unfold edge_count in *. rewrite (sum_dset_new _ _ (fun l : list (A * St) => length l) m1 n [] MN). cbn [length]. rewrite C2. lia.
        -- unfold goal_count in *. rewrite (sum_dset_new _ _ (fun l : list (A * St) => length (filter (fun e => x_goal d (snd e)) l)) m1 n [] MN). cbn [filter length]. rewrite C3, N3. destruct (x_goal d n); lia.
        -- rewrite M2, K0. apply orb_true_r.
      * intros U HU. assert (US : unseen U (dset m1 n []) < unseen U (xs_map z)).
        { unfold unseen. apply filter_length_strict with n.
          - intros s _ H. rewrite M2 in H. destruct (dmem (xs_map z) s); [now rewrite orb_true_r in H|auto].
          - auto.
          - now rewrite MN'.
          - now rewrite M2, pyeqb_refl. }
        destruct (x_goal d n); cbn [length]; lia.
Qed.

Lemma dfs_actions_ok : forall v l z, xinv (fun s => s = v) z -> dmem (xs_map z) v = true -> expandable v -> (forall a, In a l -> In a (x_apps d v)) ->
  exists z', foldM (dfs_action d ext v) z l = Ok z' /\ xinv (fun s => s = v) z' /\ (forall a, In a l -> look2 (xs_map z') v a = Some (x_next d v a)) /\
  (forall s b t, look2 (xs_map z) s b = Some t -> look2 (xs_map z') s b = Some t) /\
  (forall U, (forall s, xreach s -> In s U) -> length (xs_stack z') + unseen U (xs_map z') <= length (xs_stack z) + unseen U (xs_map z)).
Proof.
  intros v l. induction l as [|a l IH]; intros z I M E AP.
  - exists z. split; [reflexivity|]. split; [exact I|]. split; [intros a []|]. split; [auto|]. intros; lia.
  - destruct (dfs_action_ok v z a I M E (AP a (or_introl eq_refl))) as (z1 & R & I1 & L1 & MO & M1 & U1). destruct (IH z1 I1 M1 E) as (z2 & R2 & I2 & L2 & MO2 & U2); [intros; apply AP; now right|].
    exists z2. split; [cbn [foldM]; rewrite R; exact R2|]. split; [exact I2|]. split; [|split; [auto|]].
    + intros b [<-|H]; auto.
    + intros U HU. specialize (U1 U HU). specialize (U2 U HU). lia.
Qed.

Lemma dfs_turn_ok : forall v rest m t n e p, xinv (fun _ => False) (XSt m t n e p (v :: rest)) ->
  exists z', foldM (dfs_action d ext v) (XSt m t n e p rest) (x_apps d v) = Ok z' /\ xinv (fun _ => False) z' /\
  (forall U, (forall s, xreach s -> In s U) -> length (xs_stack z') + unseen U (xs_map z') < length (v :: rest) + unseen U m).
Proof.
  intros v rest m t n e p [K1 K2 K3 K4 K5 K5' N1 N2 N3 K0]. cbn [xs_map xs_att xs_nodes xs_edges xs_paths xs_stack] in *.
  destruct (K3 v (or_introl eq_refl)) as [MV EV].
  destruct (dfs_actions_ok v (x_apps d v) (XSt m t n e p rest)) as (z' & R & I & L & MO & U); [|exact MV|exact EV|auto|].
  - constructor; cbn [xs_map xs_att xs_nodes xs_edges xs_paths xs_stack]; auto.
    + intros s H. apply K3. now right.
    + intros s H. destruct (K4 s H) as [[<-|H']|[H'|[H'|[]]]]; auto.
  - exists z'. split; [exact R|]. split.
    + destruct I as [J1 J2 J3 J4 J5 J5' P1 P2 P3 J0]. constructor; auto. intros s H. destruct (J4 s H) as [H'|[H'|[H'|H']]]; auto. subst s. right; left. exact L.
    + intros V HV. specialize (U V HV). cbn [xs_stack xs_map] in U. cbn [length]. lia.
Qed.

Lemma past_within : forall l z b, xinv (fun _ => False) z -> past l (xs_nodes z) (xs_edges z) (xs_paths z) = Ok b -> b = true -> ~ within d l (xs_map z).
Proof.
  intros l z b I P -> (e & n & p & -> & HE & HN & HP). destruct I as [_ _ _ _ _ _ N1 N2 N3 _]. unfold past, gtN in P. cbn [l_path l_nodes l_edges bind] in P. rewrite N1, N2, N3 in P.
  destruct (p <? goal_count d (xs_map z)) eqn:Z1; [apply Nat.ltb_lt in Z1; lia|]. cbn [bind] in P. destruct (n <? node_count (xs_map z)) eqn:Z2; [apply Nat.ltb_lt in Z2; lia|]. cbn [bind andb] in P.
  destruct (e <? edge_count (xs_map z)) eqn:Z3; [apply Nat.ltb_lt in Z3; lia|]. discriminate.
Qed.

Lemma dfs_loop_ok : forall l fuel z z', xinv (fun _ => False) z -> dfs_loop fuel d ext l z = Ok z' -> xinv (fun _ => False) z' /\ (within d l (xs_map z') -> xs_stack z' = []).
Proof.
  intros l. induction fuel as [|fuel IH]; intros [m t n e p [|v rest]] z' I E; cbn [dfs_loop xs_stack] in E.
  - injection E as <-. auto.
  - discriminate.
  - injection E as <-. auto.
  - cbn [xs_map xs_att xs_nodes xs_edges xs_paths] in E. destruct (dfs_turn_ok v rest m t n e p I) as (z1 & R & I1 & _). rewrite R in E. cbn [bind] in E.
    destruct (past l (xs_nodes z1) (xs_edges z1) (xs_paths z1)) as [b|er] eqn:P; [|discriminate]. cbn [bind] in E. destruct b.
    + injection E as <-. split; [exact I1|]. intros W. exfalso. eapply past_within; eauto.
    + apply IH with z1; auto.
Qed.

Definition set_limits (l : limits) : Prop := exists e n p, l = {| l_edges := Some e; l_nodes := Some n; l_path := Some p |}.
Lemma dfs_loop_total : forall U l, set_limits l -> (forall s, xreach s -> In s U) -> forall fuel z, xinv (fun _ => False) z -> length (xs_stack z) + unseen U (xs_map z) <= fuel ->
  exists z', dfs_loop fuel d ext l z = Ok z'.
Proof.
  intros U l (le & ln & lp & ->) HU. induction fuel as [|fuel IH]; intros [m t n e p [|v rest]] I L; cbn [xs_stack xs_map] in L; cbn [dfs_loop xs_stack]; eauto; [cbn in L; lia|].
  cbn [xs_map xs_att xs_nodes xs_edges xs_paths]. destruct (dfs_turn_ok v rest m t n e p I) as (z1 & R & I1 & D). rewrite R. cbn [bind]. specialize (D U HU).
  assert (exists b, past {| l_edges := Some le; l_nodes := Some ln; l_path := Some lp |} (xs_nodes z1) (xs_edges z1) (xs_paths z1) = Ok b) as [b ->].
  { unfold past, gtN. cbn [l_path l_nodes l_edges bind]. destruct (lp <? _); [eauto|]. cbn [bind]. destruct ((ln <? _) && _); [eauto|]. eauto. }
  cbn [bind]. destruct b; [eauto|]. apply IH; [exact I1|]. lia.
Qed.

Lemma start_inv : xinv (fun _ => False) (XSt [(s0, [])] [(s0, [])] 1 0 0 [s0]).
Proof.
  assert (L : forall T s b, look2 (T := T) (St := St) (A := A) [(s0, [])] s b = None) by (intros T s b; unfold look2; cbn; destruct (pyeqb s s0); reflexivity).
  assert (M : forall T (x : T) s, dmem [(s0, x)] s = true -> s = s0) by (intros T x s; unfold dmem; cbn; destruct (pyeqb_spec s s0); [auto|discriminate]).
  constructor; cbn [xs_map xs_att xs_nodes xs_edges xs_paths xs_stack]; auto.
  - intros s H. apply M in H. subst s. constructor.
  - intros s a t. rewrite L. discriminate.
  - intros s [<-|[]]. split; [unfold dmem; cbn; now rewrite pyeqb_refl|now left].
  - intros s H. apply M in H. subst s. left. now left.
  - intros s. unfold dmem. cbn. destruct (pyeqb s s0); reflexivity.
  - intros s a. now rewrite !L.
  - unfold dmem. cbn. now rewrite pyeqb_refl.
Qed.

Lemma xinv_complete : forall z, xinv (fun _ => False) z -> xs_stack z = [] -> forall s, xreach s -> dmem (xs_map z) s = true /\ (expandable s -> done (xs_map z) s).
Proof.
  intros z [K1 K2 K3 K4 K5 K5' N1 N2 N3 K0] ST s XR. rewrite ST in K4. assert (D : forall s, dmem (xs_map z) s = true -> expandable s -> done (xs_map z) s).
  { intros x M E. destruct (K4 x M) as [[]|[H|[H|[]]]]; [exact H|contradiction]. }
  assert (M : dmem (xs_map z) s = true); [|auto]. induction XR as [|s a XR IH E I]; [exact K0|]. pose proof (D s IH E a I) as L. apply K2 in L. apply L.
Qed.
End Gex.
