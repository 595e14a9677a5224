(** Property C121: stochastic versions of RCPSP domains and the instances drawn from them
    (skdecide/hub/domain/rcpsp/rcpsp_sk.py:183-285). *)
From Coq Require Import String List Bool Arith ZArith QArith Lia Lqa Permutation.
From Verif Require Import Py PyList PyMore SgsModel SgsProps BindModel BindProps NoiseModel.
Import ListNotations.
Open Scope string_scope.
Open Scope list_scope.
Open Scope nat_scope.

(** ** Vocabulary *)

Fixpoint sumQ (l : list Q) : Q := match l with [] => 0%Q | x :: l => (x + sumQ l)%Q end.
Definition mean (v : list (Z * Q)) : Q := sumQ (map (fun x => inject_Z (fst x) * snd x)%Q v).

(** The distribution of the duration of a task in a mode. *)
Definition dist_of (s : stoch) (a q : nat) : option (list (Z * Q)) :=
  match dget (t_dist s) a with Some d => dget d q | None => None end.

Definition use_in (k : sk_domain) (a q : nat) : option consumption :=
  match dget (k_modes k) a with Some d => dget d q | None => None end.

(** A domain whose dictionaries describe the same tasks, with constant consumption and known durations and
    amounts. *)
Record plain (k : sk_domain) : Prop := {
  n_names : NoDup (k_names k) /\ ~ In "duration" (k_names k);
  n_tasks : NoDup (dkeys (k_modes k)) /\ forall a, In a (k_ids k) <-> In a (dkeys (k_modes k));
  n_modes : forall a d, dget (k_modes k) a = Some d -> NoDup (dkeys d);
  n_use : forall a q c, use_in k a q = Some c ->
    exists u, c = ConstantUse u /\ NoDup (dkeys u) /\ forall r l, In (r, l) u -> l <> [];
  n_duration : forall a q c, use_in k a q = Some c -> exists x, k_duration k a q = Ok x;
  n_amount : forall r, In r (k_names k) -> exists x, k_original k r = Ok x;
  n_succ : NoDup (dkeys (k_succ k))
}.

(** What a noisy duration can be. *)
Definition near (x y : Z) : Prop := (1 <= y /\ x - 10 <= y <= x + 10)%Z.

(** ** The distributions *)

Lemma noise_total d : (sumQ (map snd (noise d)) == 1)%Q.
Proof. unfold noise. rewrite map_map. vm_compute. reflexivity. Qed.

Lemma noise_in d y p : In (y, p) (noise d) -> p = (1 # 21)%Q /\ exists i, i < 21 /\ y = Z.max 1 (d + (Z.of_nat i - 10)).
Proof.
  unfold noise. intros I. apply in_map_iff in I as (i & E & I). apply in_seq in I. injection E as <- <-.
  split; [reflexivity|]. exists i. split; [lia|reflexivity].
Qed.

Lemma noise_support d y : (0 < d)%Z -> (exists p, In (y, p) (noise d)) <-> near d y.
Proof.
  intros Pos. split.
  - intros (p & I). apply noise_in in I as (_ & i & L & ->). unfold near. lia.
  - intros N. unfold near in N. exists (1 # 21)%Q. unfold noise. apply in_map_iff. exists (Z.to_nat (y - d + 10)).
    split; [f_equal; lia|]. apply in_seq. lia.
Qed.

Lemma sumQ_le A (f g : A -> Q) l : (forall x, In x l -> (f x <= g x)%Q) -> (sumQ (map f l) <= sumQ (map g l))%Q.
Proof.
  induction l as [|x l IH]; intros H; cbn; [apply Qle_refl|]. apply Qplus_le_compat; [apply H; left; reflexivity|].
  apply IH. intros y I. apply H. right. exact I.
Qed.

Definition flat (d : Z) : Q := sumQ (map (fun i => inject_Z (d + (Z.of_nat i - 10)) * (1 # 21))%Q (seq 0 21)).

Lemma flat_mean d : (flat d == inject_Z d)%Q.
Proof.
  unfold flat. cbn [seq map sumQ]. unfold Z.sub. rewrite !inject_Z_plus. 
  repeat match goal with |- context [inject_Z (Z.of_nat ?n)] => 
    let v := eval cbv in (Z.of_nat n) in change (Z.of_nat n) with v end.
  change (inject_Z (- (10))) with (- (10 # 1))%Q.
  unfold inject_Z at 2 4 6 8 10 12 14 16 18 20 22 24 26 28 30 32 34 36 38 40 42. 
  set (x := inject_Z d). lra.
Qed.

Lemma mean_noise d : mean (noise d) = sumQ (map (fun i => inject_Z (Z.max 1 (d + (Z.of_nat i - 10))) * (1 # 21))%Q (seq 0 21)).
Proof. unfold mean, noise. rewrite map_map. reflexivity. Qed.

Lemma noise_mean_le d : (inject_Z d <= mean (noise d))%Q.
Proof.
  rewrite <- flat_mean, mean_noise. unfold flat. apply sumQ_le. intros i _.
  apply Qmult_le_compat_r; [|discriminate]. rewrite <- Zle_Qle. lia.
Qed.

Lemma noise_mean d : (11 <= d)%Z -> (mean (noise d) == inject_Z d)%Q.
Proof.
  intros L. rewrite <- flat_mean, mean_noise. unfold flat.
  rewrite (map_ext_in _ (fun i => inject_Z (d + (Z.of_nat i - 10)) * (1 # 21))%Q); [reflexivity|].
  intros i I. do 2 f_equal. lia.
Qed.

Lemma dget_tabn V (f : nat -> V) l a : dget (map (fun x => (x, f x)) l) a = if pymem a l then Some (f a) else None.
Proof.
  induction l as [|x l IH]; [reflexivity|]. cbn [map dget pymem existsb]. destruct (pyeqb_spec a x) as [->|N]; [reflexivity|].
  exact IH.
Qed.

Section Stoch.
  Variables (k : sk_domain) (tn : option (list nat)).
  Hypothesis P : plain k.
  Let noisy := match tn with Some l => l | None => k_ids k end.

  Definition dur (a q : nat) : Z := match k_duration k a q with Ok x => x | Err _ => 0%Z end.
  Definition row (a : nat) : list (nat * list (Z * Q)) :=
    map (fun mc : nat * consumption => (fst mc, distribution (fun t => pymem t noisy) a (dur a (fst mc))))
      (match dget (k_modes k) a with Some d => d | None => [] end).
  Definition made : stoch :=
    Stoch (k_names k) (k_ids k) (k_modes k) (map (fun a => (a, row a)) (k_ids k))
      (graph_successors (k_ids k) (k_succ k)) (k_horizon k * 2) (k_original k) (k_renewable k).

  Lemma made_ok : build_stochastic k tn = Ok made.
  Proof.
    unfold build_stochastic, made. rewrite mapM_total with (g := fun a => (a, row a)); [reflexivity|].
    intros a I. apply (proj2 (n_tasks k P)) in I. apply (proj1 (dget_keys _ _ (k_modes k) a)) in I as (d & D).
    unfold dgetE. rewrite D. cbn [bind]. unfold row. rewrite D.
    rewrite mapM_total with (g := fun mc : nat * consumption => (fst mc, distribution (fun t => pymem t noisy) a (dur a (fst mc)))); [reflexivity|].
    intros [q c] J. cbn [fst]. assert (use_in k a q = Some c) as E.
    { unfold use_in. rewrite D. apply In_dget; [apply (n_modes k P a d D)|exact J]. }
    destruct (n_duration k P a q c E) as (x & X). unfold dur. rewrite X. reflexivity.
  Qed.

  Lemma dist_made a q c : use_in k a q = Some c ->
    dist_of made a q = Some (distribution (fun t => pymem t noisy) a (dur a q)) /\ k_duration k a q = Ok (dur a q).
  Proof.
    intros E. destruct (n_duration k P a q c E) as (x & X). split; [|unfold dur; rewrite X; reflexivity].
    unfold dist_of, made. cbn [t_dist]. rewrite dget_tabn. unfold use_in in E.
    destruct (dget (k_modes k) a) as [d|] eqn:D; [|discriminate].
    assert (In a (k_ids k)) as I by (apply (proj2 (n_tasks k P)); apply (proj2 (dget_keys _ _ (k_modes k) a)); eauto).
    rewrite (proj2 (pymem_true a _) I). unfold row. rewrite D.
    rewrite (dget_mapk _ _ _ (fun q (_ : consumption) => distribution (fun t => pymem t noisy) a (dur a q))), E. reflexivity.
  Qed.
End Stoch.

(** C121.  The stochastic version exists; every duration has a probability distribution; tasks that are not to be
    noised and tasks without duration keep their duration; the others take the values within 10 of it, at least
    1, on average not less than it. *)
Theorem C121_distributions k tn : plain k -> exists s, build_stochastic k tn = Ok s /\
  t_names s = k_names k /\ t_ids s = k_ids k /\ t_modes s = k_modes k /\ t_horizon s = 2 * k_horizon k /\
  (forall a b, follows (t_succ s) a b <-> follows (k_succ k) a b) /\
  forall a q c x, use_in k a q = Some c -> k_duration k a q = Ok x ->
    exists v, dist_of s a q = Some v /\ (sumQ (map snd v) == 1)%Q /\ (forall y p, In (y, p) v -> (0 < p)%Q) /\
      ((x = 0%Z \/ match tn with Some l => ~ In a l | None => False end) -> v = [(x, 1%Q)]) /\
      ((0 < x)%Z -> match tn with Some l => In a l | None => True end ->
         (forall y, (exists p, In (y, p) v) <-> near x y) /\ (inject_Z x <= mean v)%Q /\
         ((11 <= x)%Z -> (mean v == inject_Z x)%Q)).
Proof.
  intros P. exists (made k tn). split; [apply (made_ok k tn P)|]. split; [reflexivity|]. split; [reflexivity|].
  split; [reflexivity|]. split; [cbn; lia|]. split.
  { intros a b. cbn [made t_succ]. apply (graph_spec (k_ids k) (k_succ k) (n_succ k P)). }
  intros a q c x E X. destruct (dist_made k tn P a q c E) as [D Du]. eexists. split; [exact D|].
  rewrite X in Du. injection Du as Du. rewrite <- Du. clear Du D. unfold distribution.
  assert (forall l, pymem a l = true <-> In a l) as PM by (intros; apply pymem_true).
  destruct (Z.eqb_spec x 0) as [->|Nz]; cbn [orb].
  - split; [reflexivity|]. split; [intros y p [Y|[]]; injection Y as <- <-; reflexivity|]. split; [auto|]. lia.
  - destruct (pymem a (match tn with Some l => l | None => k_ids k end)) eqn:M; cbn [negb].
    + apply PM in M. split; [apply noise_total|]. split.
      * intros y p I. apply noise_in in I as [-> _]. reflexivity.
      * split; [intros [H|H]; [contradiction|]; destruct tn; [contradiction|destruct H]|].
        intros Pos _. split; [intros y; apply noise_support; exact Pos|]. split; [apply noise_mean_le|apply noise_mean].
    + split; [reflexivity|]. split; [intros y p [Y|[]]; injection Y as <- <-; reflexivity|]. split; [auto|].
      intros _ H. exfalso. assert (pymem a (match tn with Some l => l | None => k_ids k end) = true) as T.
      { apply PM. destruct tn; [exact H|]. apply (proj2 (n_tasks k P)). unfold use_in in E.
        apply (proj2 (dget_keys _ _ (k_modes k) a)). destruct (dget (k_modes k) a); [eauto|discriminate]. }
      congruence.
Qed.

(** ** Instances *)

Lemma renewable_all s r b : NoDup (t_names s) -> In (r, b) (t_renewable s) <-> In r (t_names s) /\ b = true.
Proof.
  unfold t_renewable. assert (forall (l : list string) (d : list (string * bool)), (forall r b, In (r, b) d -> b = true) -> NoDup (dkeys d) -> forall r b,
    In (r, b) (fold_left (fun d r => dset d r true) l d) <-> (In r l \/ In r (dkeys d)) /\ b = true) as H.
  { induction l as [|x l IH]; intros d T N r0 b0; cbn [fold_left].
    - split.
      + intros I. split; [right; change r0 with (fst (r0, b0)); apply in_map; exact I|apply (T r0 b0 I)].
      + intros [[[]|I] ->]. apply in_map_iff in I as ([r1 b1] & <- & I). rewrite (T r1 b1 I) in I. exact I.
    - rewrite IH.
      + rewrite dkeys_dset. cbn. intuition.
      + intros r1 b1 I. apply In_dget in I; [|apply NoDup_dset; exact N]. destruct (string_dec x r1) as [->|Nx].
        * rewrite dget_dset_same in I. congruence.
        * rewrite dget_dset_other in I by congruence. apply dget_In in I. apply (T r1 b1 I).
      + apply NoDup_dset. exact N. }
  intros N. rewrite (H (t_names s) []); [cbn; tauto|intros ? ? []|constructor].
Qed.

Section Instance.
  Variables (k : sk_domain) (tn : option (list nat)) (draw : nat -> nat -> nat).
  Hypothesis P : plain k.
  Hypothesis Dr : forall a q v, dist_of (made k tn) a q = Some v -> draw a q < length v.

  Definition drawn (a q : nat) : Z := match sample_duration (made k tn) a q (draw a q) with Ok x => x | Err _ => 0%Z end.
  Definition inst_entry (a q : nat) (c : consumption) : needs :=
    dset (map (fun r => (r, val 0%Z (use_at c r 0))) (use_names c)) "duration" (drawn a q).
  Definition inst_details : details :=
    map (fun tm => (fst tm, map (fun mc : nat * consumption => (fst mc, inst_entry (fst tm) (fst mc) (snd mc))) (snd tm))) (k_modes k).

  Lemma drawn_ok a q c : use_in k a q = Some c -> sample_duration (made k tn) a q (draw a q) = Ok (drawn a q) /\
    exists v p, dist_of (made k tn) a q = Some v /\ In (drawn a q, p) v.
  Proof.
    intros E. destruct (dist_made k tn P a q c E) as [D _]. pose proof (Dr a q _ D) as L.
    unfold drawn, sample_duration, dgetE. unfold dist_of in D |- *. destruct (dget (t_dist (made k tn)) a) as [d|]; [|discriminate].
    cbn [bind]. rewrite D. cbn [bind]. destruct (lget_lt _ L) as ([y p] & Y). rewrite Y. cbn [rmap fst].
    split; [reflexivity|]. exists (distribution (fun t => pymem t (match tn with Some l => l | None => k_ids k end)) a (dur k a q)), p.
    split; [reflexivity|]. apply (lget_In _ _ Y).
  Qed.

  Lemma use_known a q c r : use_in k a q = Some c -> exists x, forall t, use_at c r t = Ok x.
  Proof.
    intros E. destruct (n_use k P a q c E) as (u & -> & N & Ne). cbn [use_at]. destruct (dget u r) as [l|] eqn:L.
    - destruct l as [|x l]; [exfalso; exact (Ne r [] (dget_In _ _ L) eq_refl)|]. exists x. reflexivity.
    - exists 0%Z. reflexivity.
  Qed.

  Lemma inst_in a d q c : In (a, d) (k_modes k) -> In (q, c) d -> use_in k a q = Some c.
  Proof.
    intros I J. unfold use_in. pose proof (In_dget _ _ _ (proj1 (n_tasks k P)) I) as D. rewrite D.
    apply In_dget; [apply (n_modes k P a d D)|exact J].
  Qed.

  Lemma inst_ok : mapM (fun tm : nat * list (nat * consumption) =>
      let* d := mapM (fun mc : nat * consumption =>
                let* e := instance_entry (made k tn) draw (fst tm) (fst mc) (snd mc) in Ok (fst mc, e)) (snd tm) in
      Ok (fst tm, d)) (k_modes k) = Ok inst_details.
  Proof.
    apply mapM_total with (g := fun tm : nat * list (nat * consumption) =>
      (fst tm, map (fun mc : nat * consumption => (fst mc, inst_entry (fst tm) (fst mc) (snd mc))) (snd tm))).
    intros [a d] I. cbn [fst snd].
    rewrite mapM_total with (g := fun mc : nat * consumption => (fst mc, inst_entry a (fst mc) (snd mc))); [reflexivity|].
    intros [q c] J. cbn [fst snd]. pose proof (inst_in a d q c I J) as E. unfold instance_entry.
    rewrite mapM_total with (g := fun r => (r, val 0%Z (use_at c r 0))).
    - cbn [bind]. destruct (drawn_ok a q c E) as [-> _]. reflexivity.
    - intros r _. destruct (use_known a q c r E) as (x & X). rewrite X. reflexivity.
  Qed.

  Lemma inst_get a q : match dget inst_details a with Some d => dget d q | None => None end =
    option_map (inst_entry a q) (use_in k a q).
  Proof.
    unfold inst_details, use_in.
    rewrite (dget_mapk _ _ _ (fun a => map (fun mc : nat * consumption => (fst mc, inst_entry a (fst mc) (snd mc))))).
    destruct (dget (k_modes k) a) as [d|]; cbn [option_map]; [|reflexivity]. apply (dget_mapk _ _ _ (inst_entry a)).
  Qed.

  (** The details as an optimisation problem, to reuse the lemmas on reading them. *)
  Definition inst_do : do_model := Do false (Constant (map (fun r => (r, val 0%Z (k_original k r))) (k_names k))) [] inst_details
    (k_succ k) 0 1.
  Lemma inst_regular : regular inst_do.
  Proof.
    constructor; cbn [inst_do d_details d_succ].
    - unfold inst_details. 
      rewrite (map_ext _ (fun kv => (fst kv, snd (fst kv, map (fun mc : nat * consumption => (fst mc, inst_entry (fst kv) (fst mc) (snd mc))) (snd kv)))))
        by reflexivity.
      unfold dkeys. rewrite map_map. cbn. apply (proj1 (n_tasks k P)).
    - intros a d E. unfold inst_details in E.
      rewrite (dget_mapk _ _ _ (fun a => map (fun mc : nat * consumption => (fst mc, inst_entry a (fst mc) (snd mc))))) in E.
      destruct (dget (k_modes k) a) as [d0|] eqn:D; [|discriminate]. injection E as <-. unfold dkeys. rewrite map_map. cbn.
      apply (n_modes k P a d0 D).
    - intros a q e E. unfold entry in E. cbn [inst_do d_details] in E. rewrite inst_get in E.
      destruct (use_in k a q) as [c|] eqn:U; [|discriminate]. injection E as <-. unfold inst_entry. apply NoDup_dset.
      unfold dkeys. rewrite map_map, map_id. destruct (n_use k P a q c U) as (u & -> & N & _). exact N.
    - intros a q e E. unfold entry in E. cbn [inst_do d_details] in E. rewrite inst_get in E.
      destruct (use_in k a q) as [c|] eqn:U; [|discriminate]. injection E as <-. unfold inst_entry. rewrite dget_dset_same. discriminate.
    - unfold names_of. cbn. unfold dkeys. rewrite map_map, map_id. apply (n_names k P).
    - apply (n_succ k P).
  Qed.

  Definition the_instance : sk_domain :=
    Sk KMulti (k_names k) (k_ids k) (only_modes (read inst_do (k_names k))) (duration_in (read inst_do (k_names k)))
       (fun r => dgetE (map (fun r => (r, val 0%Z (k_original k r))) (k_names k)) r)
       (fun r _ => dgetE (map (fun r => (r, val 0%Z (k_original k r))) (k_names k)) r)
       (t_renewable (made k tn)) (graph_successors (k_ids k) (graph_successors (k_ids k) (k_succ k))) (k_horizon k * 2).

  Lemma instance_ok : build_instance (made k tn) draw = Ok the_instance.
  Proof.
    unfold build_instance. cbn [made t_modes]. change (Stoch (k_names k) _ _ _ _ _ _ _) with (made k tn).
    rewrite inst_ok. cbn [bind]. cbn [made t_avail t_names]. rewrite (make_dict_ok _ _ (fun r => val 0%Z (k_original k r))).
    - cbn [bind]. rewrite (read_ok inst_do inst_regular (k_names k) : read_details (k_names k) inst_details = _). reflexivity.
    - apply (n_names k P).
    - intros r I. destruct (n_amount k P r I) as (x & ->). reflexivity.
  Qed.

  Lemma instance_use a q : use_in the_instance a q = option_map (fun c => as_use (k_names k) (inst_entry a q c)) (use_in k a q).
  Proof.
    unfold use_in at 1. cbn [the_instance k_modes]. rewrite modes_of.
    rewrite (dget_mapv _ _ _ (fun d => map (fun me : nat * needs => (fst me, as_use (k_names k) (snd me))) d)).
    pose proof (inst_get a q) as G. cbn [inst_do d_details]. destruct (dget inst_details a) as [d|]; cbn [option_map].
    - rewrite (dget_mapv _ _ _ (fun e => as_use (k_names k) e)), G. destruct (use_in k a q); reflexivity.
    - destruct (use_in k a q); [discriminate|reflexivity].
  Qed.

  Lemma instance_need a q c r t : use_in k a q = Some c -> In r (k_names k) ->
    use_at (as_use (k_names k) (inst_entry a q c)) r t = use_at c r t.
  Proof.
    intros E I. assert (r <> "duration") as Nr by (intros ->; apply (n_names k P); exact I).
    unfold as_use. cbn [use_at]. rewrite (dget_mapv _ _ _ (fun x : Z => [x])), (dget_filterk _ _ (fun r => pymem r (k_names k))).
    rewrite (proj2 (pymem_true r _) I). unfold inst_entry. rewrite dget_dset_other by congruence. rewrite dget_tab.
    destruct (use_known a q c r E) as (x & X). rewrite !X. destruct (n_use k P a q c E) as (u & -> & N & Ne). cbn [use_names].
    destruct (pymem r (dkeys u)) eqn:M; [reflexivity|]. cbn. specialize (X 0). cbn [use_at] in X.
    assert (~ In r (dkeys u)) as NI by (intros J; apply (proj2 (pymem_true r _)) in J; congruence).
    rewrite (proj2 (dget_None u r) NI) in X. exact X.
  Qed.
End Instance.

(** Every instance drawn from the stochastic version describes the same problem, apart from the durations, which
    are drawn from their distributions, the horizon, which is doubled, and the resources, all of which are
    renewable. *)
Theorem C121_instances k tn s draw : plain k -> build_stochastic k tn = Ok s ->
  (forall a q v, dist_of s a q = Some v -> draw a q < length v) ->
  exists k', build_instance s draw = Ok k' /\
    k_names k' = k_names k /\ k_ids k' = k_ids k /\ k_horizon k' = 2 * k_horizon k /\
    (forall a b, follows (k_succ k') a b <-> follows (k_succ k) a b) /\
    (forall r t, In r (k_names k) -> k_original k' r = k_original k r /\ k_quantity k' r t = k_original k r) /\
    (forall a q, use_in k' a q = None <-> use_in k a q = None) /\
    (forall a q c, use_in k a q = Some c -> exists c', use_in k' a q = Some c' /\
       forall r t, In r (k_names k) -> use_at c' r t = use_at c r t) /\
    (forall a q c, use_in k a q = Some c -> exists y v p, k_duration k' a q = Ok y /\ dist_of s a q = Some v /\ In (y, p) v) /\
    (forall r b, In (r, b) (k_renewable k') <-> In r (k_names k) /\ b = true).
Proof.
  intros P B Dr. rewrite (made_ok k tn P) in B. injection B as <-.
  exists (the_instance k tn draw). split; [apply (instance_ok k tn draw P Dr)|]. split; [reflexivity|]. split; [reflexivity|].
  split; [cbn; lia|]. split; [|split; [|split; [|split; [|split]]]].
  - intros a b. cbn [the_instance k_succ].
    destruct (graph_spec (k_ids k) (k_succ k) (n_succ k P)) as (G1 & _ & G3). destruct (graph_spec (k_ids k) _ G1) as (_ & _ & G4).
    rewrite G4. apply G3.
  - intros r t I. cbn [the_instance k_original k_quantity]. unfold dgetE. rewrite dget_tab, (proj2 (pymem_true r _) I).
    destruct (n_amount k P r I) as (x & ->). auto.
  - intros a q. rewrite (instance_use k tn draw a q). destruct (use_in k a q); cbn; split; congruence.
  - intros a q c E. rewrite (instance_use k tn draw a q), E. eexists. split; [reflexivity|].
    intros r t I. apply (instance_need k tn draw P a q c r t E I).
  - intros a q c E. destruct (drawn_ok k tn draw P Dr a q c E) as (_ & v & p & D & I).
    exists (drawn k tn draw a q), v, p. split; [|auto]. cbn [the_instance k_duration].
    pose proof (inst_get k tn draw a q) as G. rewrite E in G. cbn [option_map] in G.
    destruct (dget (inst_details k tn draw) a) as [d|] eqn:Dd; [|discriminate].
    rewrite (duration_ok (inst_do k tn draw) (inst_regular k tn draw P) (k_names k) a d q (inst_entry k tn draw a q c)).
    + unfold duration_in_entry, inst_entry. rewrite dget_dset_same. reflexivity.
    + apply dget_In. exact Dd.
    + apply dget_In. exact G.
  - intros r b. cbn [the_instance k_renewable]. rewrite renewable_all; [reflexivity|apply (n_names k P)].
Qed.

Lemma use_of_in k n modes a r t : use_of k n modes a r t =
  match number (n + 2) modes a with
  | Some q => match use_in k a q with Some c => val 0%Z (use_at c r t) | None => 0%Z end
  | None => 0%Z
  end.
Proof. unfold use_of, use_in. destruct (number (n + 2) modes a), (dget (k_modes k) a); reflexivity. Qed.

(** When the original resources are all renewable, an instance has the same feasible schedules as the original,
    durations apart. *)
Theorem C121_feasible k tn s draw k' : plain k -> build_stochastic k tn = Ok s ->
  (forall a q v, dist_of s a q = Some v -> draw a q < length v) -> build_instance s draw = Ok k' ->
  (forall r, ~ In (r, false) (k_renewable k)) -> (forall r t, In r (k_names k) -> k_quantity k r t = k_original k r) ->
  forall n modes sch e, feasible k' n modes sch e <-> feasible k n modes sch e.
Proof.
  intros P B Dr B' NR Q n modes sch e.
  destruct (C121_instances k tn s draw P B Dr) as (k2 & B2 & H1 & _ & _ & H2 & H3 & H4 & H5 & _ & H6).
  rewrite B' in B2. injection B2 as <-.
  assert (forall a r t, In r (k_names k) -> use_of k' n modes a r t = use_of k n modes a r t) as U.
  { intros a r t I. rewrite !use_of_in. destruct (number (n + 2) modes a) as [q|]; [|reflexivity].
    destruct (use_in k a q) as [c|] eqn:E.
    - destruct (H5 a q c E) as (c' & -> & F). rewrite (F r t I). reflexivity.
    - rewrite (proj2 (H4 a q) E). reflexivity. }
  assert (forall r t, In r (k_names k) -> load k' n modes sch r t = load k n modes sch r t) as L.
  { intros r t I. unfold load. f_equal. apply map_ext. intros [a [s0 e0]].
    destruct ((s0 <=? t)%Z && (t <? e0)%Z); [apply U; exact I|reflexivity]. }
  split; intros [F1 F2 F3]; constructor.
  - intros a b l sa ea sb eb E I. destruct (proj2 (H2 a b) (ex_intro _ l (conj E I))) as (l0 & E0 & I0). apply (F1 a b l0 sa ea sb eb E0 I0).
  - intros r x I. exfalso. exact (NR r I).
  - intros r t x I Lt X. rewrite <- (L r _ I). apply (F3 r t x); [rewrite H1; exact I|exact Lt|].
    rewrite (proj2 (H3 r t I)), <- (Q r t I). exact X.
  - intros a b l sa ea sb eb E I. destruct (proj1 (H2 a b) (ex_intro _ l (conj E I))) as (l0 & E0 & I0). apply (F1 a b l0 sa ea sb eb E0 I0).
  - intros r x I. apply H6 in I as [_ I]. discriminate.
  - rewrite H1. intros r t x I Lt X. rewrite (L r _ I). apply (F3 r t x I Lt). rewrite (Q r t I), <- (proj2 (H3 r t I)). exact X.
Qed.

(** [nb_instance] instances are built, one for each list of draws. *)
Theorem C121_count k tn s draws : plain k -> build_stochastic k tn = Ok s ->
  (forall draw, In draw draws -> forall a q v, dist_of s a q = Some v -> draw a q < length v) ->
  exists l, build_instances s draws = Ok l /\ length l = length draws /\
    forall i draw k', nth_error draws i = Some draw -> nth_error l i = Some k' -> build_instance s draw = Ok k'.
Proof.
  intros P B Dr. unfold build_instances. revert Dr. induction draws as [|d draws IH]; intros Dr.
  - exists []. split; [reflexivity|]. split; [reflexivity|]. intros [|i]; discriminate.
  - destruct IH as (l & E & L & F); [intros; eapply Dr; [right|]; eassumption|].
    destruct (C121_instances k tn s d P B (Dr d (or_introl eq_refl))) as (k' & K & _).
    exists (k' :: l). cbn [mapM]. rewrite K. cbn [bind]. rewrite E. cbn [bind]. split; [reflexivity|].
    split; [cbn; lia|]. intros [|i] draw k2 D1 D2; cbn in D1, D2; [congruence|]. apply (F i draw k2 D1 D2).
Qed.

(** ** Examples and findings *)

Lemma ex_plain : plain (ex_sk KMulti (fun r _ => ex_amount r)).
Proof.
  constructor.
  - cbn. split; [repeat constructor; cbn; intuition congruence|intuition congruence].
  - cbn. split; [repeat constructor; cbn; intuition lia|intros a; tauto].
  - intros a d E. cbn in E. repeat (destruct a as [|a]; cbn in E; try discriminate); injection E as <-; cbn;
      repeat constructor; cbn; intuition lia.
  - intros a p c F. unfold use_in in F. cbn in F. repeat (destruct a as [|a]; cbn in F; try discriminate);
      repeat (destruct p as [|p]; cbn in F; try discriminate); injection F as <-;
      (eexists; split; [reflexivity|]; split; [cbn; repeat constructor; cbn; intuition congruence|];
       intros r l [I|[I|[]]]; injection I as <- <-; discriminate).
  - intros a p c F. unfold use_in in F. cbn in F. repeat (destruct a as [|a]; cbn in F; try discriminate);
      repeat (destruct p as [|p]; cbn in F; try discriminate); cbn; eauto.
  - intros r [<-|[<-|[]]]; cbn; eauto.
  - cbn. repeat constructor; cbn; intuition lia.
Qed.

Example C121_ex : exists s k', plain (ex_sk KMulti (fun r _ => ex_amount r)) /\
  build_stochastic (ex_sk KMulti (fun r _ => ex_amount r)) (Some [2; 3]) = Ok s /\
  dist_of s 4 1 = Some [(2%Z, 1%Q)] /\ dist_of s 1 1 = Some [(0%Z, 1%Q)] /\
  (exists v, dist_of s 2 1 = Some v /\ length v = 21 /\ In (12%Z, 1 # 21) v /\ In (1%Z, 1 # 21) v) /\
  build_instance s (fun a q => if (a =? 2) || (a =? 3) then 20 else 0) = Ok k' /\
  k_duration k' 2 1 = Ok 12%Z /\ k_duration k' 3 2 = Ok 13%Z /\ k_duration k' 4 1 = Ok 2%Z.
Proof.
  eexists. eexists. split; [exact ex_plain|]. split; [reflexivity|]. split; [reflexivity|]. split; [reflexivity|].
  split; [eexists; split; [reflexivity|]; cbn; split; [reflexivity|]; split; tauto|].
  split; [vm_compute; reflexivity|]. split; [reflexivity|]. split; reflexivity.
Qed.

(** The resources that are not renewable become renewable, although the stochastic version is given which are:
    an instance accepts schedules that use more of such a resource than there is. *)
Theorem C121_renewability_refuted : exists k s k' n modes sch e, plain k /\ build_stochastic k None = Ok s /\
  t_stored s = k_renewable k /\ build_instance s (fun a q => if (a =? 1) || (a =? n + 2) then 0 else 10) = Ok k' /\
  Permutation (map fst sch) (seq 1 (n + 2)) /\ feasible k' n modes sch e /\ ~ feasible k n modes sch e.
Proof.
  exists (ex_sk KMulti (fun r _ => ex_amount r)). eexists. eexists.
  exists 3, [1; 1; 1], [(1, (0, 0)%Z); (3, (0, 1)%Z); (2, (1, 3)%Z); (4, (3, 5)%Z); (5, (5, 5)%Z)], 5%Z.
  split; [exact ex_plain|]. split; [reflexivity|]. split; [reflexivity|]. split; [vm_compute; reflexivity|].
  split; [cbn; apply perm_skip, perm_swap|]. split.
  - constructor.
    + intros a b l sa ea sb eb L B I J. cbn in L.
      assert (forall x sx ex, In (x, (sx, ex)) [(1, (0, 0)%Z); (3, (0, 1)%Z); (2, (1, 3)%Z); (4, (3, 5)%Z); (5, (5, 5)%Z)] ->
        (x = 1%nat /\ sx = 0 /\ ex = 0)%Z \/ (x = 3%nat /\ sx = 0 /\ ex = 1)%Z \/ (x = 2%nat /\ sx = 1 /\ ex = 3)%Z \/ (x = 4%nat /\ sx = 3 /\ ex = 5)%Z \/
        (x = 5%nat /\ sx = 5 /\ ex = 5)%Z) as C.
      { intros x sx ex0 [X|[X|[X|[X|[X|[]]]]]]; injection X as <- <- <-; auto 10. }
      apply C in I, J. repeat (destruct a as [|a]; cbn in L; try discriminate); injection L as <-; cbn in B; lia.
    + cbn. intros r x [I|[I|[]]]; discriminate.
    + intros r t x I Lt X. assert (t < 5) as L5 by lia. cbn in I.
      destruct I as [<-|[<-|[]]]; cbn in X; injection X as <-; do 5 (destruct t as [|t]; [vm_compute; discriminate|]); lia.
  - intros F. pose proof (f_total _ _ _ _ _ F "N" 3%Z (or_intror (or_introl eq_refl)) eq_refl) as X. vm_compute in X. congruence.
Qed.

(** Doubling the horizon is not enough: a task that fits the original horizon can take longer than the new
    one. *)
Theorem C121_horizon_refuted : exists k s draw k' a q x y, plain k /\ build_stochastic k None = Ok s /\
  (forall a q v, dist_of s a q = Some v -> draw a q < length v) /\ build_instance s draw = Ok k' /\
  k_duration k a q = Ok x /\ (x <= Z.of_nat (k_horizon k))%Z /\ k_duration k' a q = Ok y /\ (Z.of_nat (k_horizon k') < y)%Z.
Proof.
  exists (Sk KMulti [] [1] [(1, [(1, ConstantUse [])])] (fun _ _ => Ok 2%Z) (fun _ => Ok 0%Z) (fun _ _ => Ok 0%Z) [] [] 2).
  eexists. exists (fun _ _ => 20). eexists. exists 1, 1, 2%Z, 12%Z. split; [|split; [reflexivity|split; [|split; [vm_compute; reflexivity|]]]].
  - constructor; cbn.
    + split; [constructor|tauto].
    + split; [repeat constructor; cbn; tauto|tauto].
    + intros a d E. repeat (destruct a as [|a]; cbn in E; try discriminate). injection E as <-. cbn. repeat constructor; cbn; tauto.
    + intros a q c E. unfold use_in in E. cbn in E. repeat (destruct a as [|a]; cbn in E; try discriminate).
      repeat (destruct q as [|q]; cbn in E; try discriminate). injection E as <-. exists []. split; [reflexivity|].
      split; [constructor|intros ? ? []].
    + eauto.
    + intros r [].
    + constructor.
  - intros a q v E. unfold dist_of in E. cbn [t_dist] in E. 
    destruct a as [|[|a]]; cbn in E; try discriminate. destruct q as [|[|q]]; cbn in E; try discriminate.
    injection E as <-. cbn. lia.
  - cbn. split; [reflexivity|]. split; [lia|]. split; [reflexivity|lia].
Qed.

(** Durations below 11 are longer on average than the original. *)
Theorem C121_mean_refuted : exists k s a q x v, plain k /\ build_stochastic k None = Ok s /\ k_duration k a q = Ok x /\
  dist_of s a q = Some v /\ ~ (mean v == inject_Z x)%Q /\ (2 * inject_Z x < mean v)%Q.
Proof.
  exists (ex_sk KMulti (fun r _ => ex_amount r)). eexists. exists 3, 1, 1%Z. eexists. split; [exact ex_plain|].
  split; [reflexivity|]. split; [reflexivity|]. split; [reflexivity|]. split; [intros E; vm_compute in E; discriminate|vm_compute; reflexivity].
Qed.

Print Assumptions C121_distributions.
Print Assumptions C121_instances.
Print Assumptions C121_feasible.
Print Assumptions C121_count.
