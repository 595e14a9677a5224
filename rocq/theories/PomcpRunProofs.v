From Coq Require Import List Bool Arith ZArith QArith Lia Lqa.
Import ListNotations.
From Verif Require Import Py PyList PyMore PomcpModel PomcpSpec PomcpProofs.
Set Implicit Arguments.
Open Scope nat_scope.

Section Run.
  Variables St Act Obs : Type.
  Context {EA : PyEq Act} {EO : PyEq Obs}.
  Variable w : world St Act Obs.
  Variable iterations max_depth : nat.
  Notation solver := (solver St Act Obs).
  Notation run := (run w max_depth iterations).
  Notation decide := (get_next_action w iterations max_depth).
  Variable LAW : lawful w max_depth.

  (** An observation that comes out of one of the hundred draws made for each particle. *)
  Definition seen (belief : list St) (a : option Act) (o : Obs) (d : nat) : Prop :=
    exists i s j, nth_error belief i = Some s /\ j < 100 /\ w_obs w (d + 100 * i + j) s a = o.

  Lemma weight_pos s a o d : 0 < weight w s a o d <-> exists j, j < 100 /\ w_obs w (d + j) s a = o.
  Proof.
    unfold weight. split.
    - intros H. destruct (filter _ _) as [|j r] eqn:E; [simpl in H; lia|].
      assert (In j (filter (fun i => pyeqb (w_obs w (d + i) s a) o) (seq 0 100))) as I by (rewrite E; left; reflexivity).
      apply filter_In in I as [I P]. apply in_seq in I. exists j. split; [lia|].
      destruct (pyeqb_spec (w_obs w (d + j) s a) o); [assumption|discriminate].
    - intros (j & J & E). assert (In j (filter (fun i => pyeqb (w_obs w (d + i) s a) o) (seq 0 100))) as I.
      { apply filter_In. split; [apply in_seq; lia|]. rewrite E. apply pyeqb_refl. }
      destruct (filter _ _); [destruct I|simpl; lia].
  Qed.

  Definition weights (belief : list St) a o d :=
    map (fun p => weight w (snd p) a o (d + 100 * fst p)) (combine (seq 0 (length belief)) belief).

  Lemma nth_combine_seq A (l : list A) : forall b i x, nth_error (combine (seq b (length l)) l) i = Some x <->
    exists y, nth_error l i = Some y /\ x = (b + i, y).
  Proof.
    induction l as [|y l IH]; intros b i x; cbn [length seq combine].
    - destruct i; cbn; split; try discriminate; intros (? & E & _); discriminate.
    - destruct i; cbn [nth_error].
      + rewrite Nat.add_0_r. split; [intros E; inversion E; eauto|]. intros (z & E & ->). inversion E; reflexivity.
      + rewrite IH. replace (S b + i) with (b + S i) by lia. reflexivity.
  Qed.

  Lemma weights_nth belief a o d i v : nth_error (weights belief a o d) i = Some v <->
    exists s, nth_error belief i = Some s /\ v = weight w s a o (d + 100 * i).
  Proof.
    unfold weights. split.
    - intros H. apply nth_error_In in H as I. 
      destruct (nth_error (combine (seq 0 (length belief)) belief) i) as [p|] eqn:E.
      + apply map_nth_error with (f := fun p => weight w (snd p) a o (d + 100 * fst p)) in E as F.
        rewrite F in H. inversion H; subst v. apply nth_combine_seq in E as (s & E & ->). exists s. auto.
      + exfalso. apply nth_error_None in E. assert (nth_error (map (fun p => weight w (snd p) a o (d + 100 * fst p)) (combine (seq 0 (length belief)) belief)) i <> None) as N by congruence.
        apply nth_error_Some in N. rewrite map_length in N. lia.
    - intros (s & E & ->).
      apply (map_nth_error (fun p => weight w (snd p) a o (d + 100 * fst p)) i (combine (seq 0 (length belief)) belief)
               (d := (i, s))).
      apply nth_combine_seq. exists s. auto.
  Qed.

  Lemma list_sum_pos l : 0 < list_sum l <-> exists i v, nth_error l i = Some v /\ 0 < v.
  Proof.
    induction l as [|x l IH]; simpl.
    - split; [lia|]. intros (i & v & E & _). destruct i; discriminate.
    - split.
      + intros H. destruct x as [|x]; [|exists 0, (S x); split; [reflexivity|lia]].
        apply (proj1 IH) in H as (i & v & E & V). exists (S i), v. auto.
      + intros ([|i] & v & E & V); cbn in E.
        * inversion E; subst. lia.
        * assert (0 < list_sum l); [|lia]. apply (proj2 IH). eauto.
  Qed.

  Lemma weights_seen belief a o d : 0 < list_sum (weights belief a o d) <-> seen belief a o d.
  Proof.
    rewrite list_sum_pos. unfold seen. split.
    - intros (i & v & E & V). apply weights_nth in E as (s & E & ->). apply weight_pos in V as (j & J & O).
      exists i, s, j. auto.
    - intros (i & s & j & E & J & O). exists i, (weight w s a o (d + 100 * i)). split; [apply weights_nth; eauto|].
      apply weight_pos. eauto.
  Qed.

  Lemma mapM_ex A B (f : A -> res B) l : (forall x, In x l -> exists y, f x = Ok y) -> exists l', mapM f l = Ok l'.
  Proof.
    induction l as [|x l IH]; intros H; cbn [mapM]; [eauto|].
    destruct (H x (or_introl eq_refl)) as (y & ->). destruct IH as (l' & ->); [intros z I; apply H; right; exact I|].
    cbn [bind]. eauto.
  Qed.

  Lemma filter_ok belief a o d : belief <> [] ->
    match filter_belief w belief a o d with
    | Ok (b, d') => seen belief a o d /\ length b = length belief /\
        forall s, In s b -> In s belief /\ exists e, w_obs w e s a = o
    | Err e => e = ValueError /\ ~ seen belief a o d
    end.
  Proof.
    intros NB. unfold filter_belief. fold (weights belief a o d).
    assert (length belief =? 0 = false) as ->.
    { apply Nat.eqb_neq. destruct belief; [congruence|simpl; lia]. }
    destruct (list_sum (weights belief a o d) =? 0) eqn:Z.
    - apply Nat.eqb_eq in Z. split; [reflexivity|]. rewrite <- weights_seen. lia.
    - apply Nat.eqb_neq in Z.
      assert (forall i, exists s, lget belief (w_weighted w (d + 100 * length belief + i) (weights belief a o d)) = Ok s /\
                 In s belief /\ exists e, w_obs w e s a = o) as G.
      { intros i. destruct (l_weighted LAW (d + 100 * length belief + i) (weights belief a o d)) as (v & E); [lia|].
        apply weights_nth in E as (s & E & V). exists s. split; [apply (proj2 (lget_ok _ _ _)); exact E|].
        split; [eapply nth_error_In; eauto|]. assert (0 < weight w s a o (d + 100 * w_weighted w (d + 100 * length belief + i) (weights belief a o d))) as P by lia.
        apply weight_pos in P as (j & _ & O). eexists. exact O. }
      destruct (@mapM_ex _ _ (fun i => lget belief (w_weighted w (d + 100 * length belief + i) (weights belief a o d))) (seq 0 (length belief)))
        as (b & B). { intros i _. destruct (G i) as (s & E & _). eauto. }
      rewrite B. cbn [bind]. split; [apply weights_seen; lia|]. split.
      + apply mapM_length in B. rewrite seq_length in B. exact B.
      + intros s Is. apply mapM_ok in B. clear - B Is G.
        induction B as [|i x l l' E F IH]; [destruct Is|]. destruct Is as [<- | Is]; [|auto].
        destruct (G i) as (s & E' & P). rewrite E in E'. inversion E'; subst. exact P.
  Qed.

  Lemma update_ok belief a : (forall b, a = Some b -> In b (w_actions w)) -> forall d,
    exists b, update_belief w belief a d = Ok b /\ length b = length belief /\
      forall s', In s' b -> exists s e, In s belief /\ w_next w e s a = Ok s'.
  Proof.
    intros IA. induction belief as [|s r IH]; intros d; cbn [update_belief].
    - exists []. split; [reflexivity|]. split; [reflexivity|]. intros ? [].
    - destruct (l_next LAW d s IA) as (s' & E). rewrite E. cbn [bind].
      destruct (IH (d + 1)) as (b & -> & Lb & Hb). cbn [bind]. eexists. split; [reflexivity|].
      split; [simpl; lia|]. intros x [<- | Ix].
      + exists s, d. split; [left; reflexivity|exact E].
      + destruct (Hb x Ix) as (y & e & Iy & Ey). exists y, e. split; [right; exact Iy|exact Ey].
  Qed.

  (** ** Planners during an episode *)

  Record good (init : list St) (h : list (option Act * Obs)) (x : solver) : Prop := Good {
    g_inv : inv w max_depth (m_tree (s_mem x)) (m_log (s_mem x));
    g_size : length (s_belief x) = length init;
    g_len : length (s_acts x) = S (length (s_obs x));
    g_obs : s_obs x = map snd h;
    g_act : exists l, s_acts x = map fst h ++ [l];
    g_acts : forall b, In (Some b) (s_acts x) -> In b (w_actions w);
    g_belief : forall s, In s (s_belief x) -> compatible w init h s
  }.

  Lemma good_reset init d : good init [] (reset Act Obs init d).
  Proof.
    split; cbn; auto.
    - apply inv_empty.
    - exists None. reflexivity.
    - intros b [E|[]]. discriminate.
    - intros s I. constructor. exact I.
  Qed.

  Lemma last_in A (l : list A) d : l <> [] -> In (last l d) l.
  Proof.
    induction l as [|x l IH]; [congruence|]. intros _. destruct l as [|y l]; [left; reflexivity|].
    right. apply IH. discriminate.
  Qed.

  Lemma decide_ok init h x o : init <> [] -> good init h x ->
    let l := last (s_acts x) None in
    match decide x o with
    | Ok (a, x') => seen (s_belief x) l o (m_draws (s_mem x)) /\ good init (h ++ [(l, o)]) x' /\ s_acts x' = s_acts x ++ [a] /\
        best_action w max_depth false (m_tree (s_mem x')) (s_acts x) (s_obs x ++ [o]) = Ok a /\
        exists b m, search w max_depth iterations b (s_acts x) (s_obs x ++ [o])
            (Memory (m_tree (s_mem x)) m (m_log (s_mem x))) = Ok (s_mem x') /\ b <> []
    | Err e => e = ValueError /\ ~ seen (s_belief x) l o (m_draws (s_mem x))
    end.
  Proof.
    intros NI G l.
    assert (forall b, l = Some b -> In b (w_actions w)) as IL.
    { intros b E. apply (g_acts G). rewrite <- E. apply last_in. pose proof (g_len G) as Q. intros Z. rewrite Z in Q. discriminate. }
    assert (s_belief x <> []) as NB. { pose proof (g_size G) as Z. intros E. rewrite E in Z. destruct init; [congruence|discriminate]. }
    unfold get_next_action. fold l.
    pose proof (filter_ok l o (m_draws (s_mem x)) NB) as F.
    destruct (filter_belief w (s_belief x) l o (m_draws (s_mem x))) as [[b d]|e]; cbn [bind fst snd]; [|exact F].
    destruct F as (SE & Lb & Hb). destruct (update_ok b IL d) as (b' & -> & Lb' & Hb'). cbn [bind].
    assert (b' <> []) as NB'.
    { intros Z. subst b'. simpl in Lb'. rewrite <- Lb' in Lb. destruct (s_belief x); [congruence|discriminate]. }
    assert (length (s_acts x) = length (s_obs x ++ [o])) as LL by (rewrite app_length, (g_len G); simpl; lia).
    destruct (@search_ok _ _ _ _ _ w max_depth LAW iterations b' (s_acts x) (s_obs x ++ [o]) NB' LL
                (Memory (m_tree (s_mem x)) (d + length b') (m_log (s_mem x))) (g_inv G)) as (m' & SO & I' & _).
    rewrite SO. cbn [bind]. unfold best_action at 1. cbn [bind].
    split; [exact SE|]. cbn [s_acts s_mem]. split; [|split; [reflexivity|split]].
    - split; cbn [s_mem s_belief s_acts s_obs].
      + exact I'.
      + rewrite Lb', Lb. apply (g_size G).
      + rewrite !app_length, (g_len G). simpl. lia.
      + rewrite map_app, (g_obs G). reflexivity.
      + destruct (g_act G) as (l' & E). eexists. rewrite map_app. cbn [map fst].
        assert (l = l') as -> by (unfold l; rewrite E; apply last_last). rewrite E. reflexivity.
      + intros a Ia. apply in_app_iff in Ia as [Ia|[Ia|[]]]; [exact (g_acts G _ Ia)|].
        apply best_choice in Ia. destruct Ia as (l1 & l2 & n & Sp & _). rewrite Sp. apply in_elt.
      + intros s' Is'. destruct (Hb' s' Is') as (s & e & Is & En). destruct (Hb s Is) as (Is2 & e2 & Eo).
        eapply compatible_step; eauto. exact (g_belief G _ Is2).
    - reflexivity.
    - eexists b', _. split; [exact SO|exact NB'].
  Qed.

  Lemma run_good init : init <> [] -> forall os h x l as' x', good init h x -> last (s_acts x) None = l ->
    run x os = Ok (as', x') ->
    good init (h ++ combine (l :: as') os) x' /\ last (s_acts x') None = last (l :: as') None /\ length as' = length os.
  Proof.
    intros NI. induction os as [|o os IH]; intros h x l as' x' G El H; cbn [PomcpSpec.run] in H.
    - inversion H; subst. rewrite combine_nil, app_nil_r. auto.
    - apply bind_ok in H as ([a y] & D & H). apply bind_ok in H as ([as2 z] & R & H). inversion H; subst as' x'. cbn [fst snd] in *.
      pose proof (decide_ok o NI G) as DO. rewrite D in DO. destruct DO as (_ & G' & Ea & _).
      destruct (IH _ _ a _ _ G' ltac:(rewrite Ea; apply last_last) R) as (G2 & L2 & Le). 
      split; [|split; [exact L2|simpl; lia]]. cbn [combine]. rewrite <- app_assoc in G2. cbn [app] in G2.
      rewrite El in G2. exact G2.
  Qed.
End Run.
