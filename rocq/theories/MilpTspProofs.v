(** The program of MilpTspModel: what it says, and the cycles of its solutions. *)
From Coq Require Import List Bool Arith ZArith Lia Permutation Relations.
From Verif Require Import Py PyList PyMore TspModel TspProofs MilpModel MilpProofs MilpTspModel.
Import ListNotations.
Open Scope nat_scope.

(** * Vocabulary *)

(** The consecutive pairs of a path. *)
Definition hops (p : list nat) : list edge := combine p (tl p).
(** The graph of a problem with [n] nodes: edges between nodes; every node can be entered and left. *)
Definition graph_ok (n : nat) (g : graph) : Prop :=
  NoDup (dkeys g) /\ (forall a b, In (a, b) (dkeys g) -> a < n /\ b < n) /\
  forall v, v < n -> (exists a, In (a, v) (dkeys g)) /\ exists b, In (v, b) (dkeys g).
(** The graph of every enumeration of a set contains the set. *)
Definition rearranges (order : list edge -> list edge) : Prop := forall l, Permutation (order l) l.

Lemma hops_cons : forall a b p, hops (a :: b :: p) = (a, b) :: hops (b :: p).
Proof. reflexivity. Qed.
Lemma hops_app : forall p a q, hops (p ++ a :: q) = hops (p ++ [a]) ++ hops (a :: q).
Proof.
  induction p as [|x p IH]; intros a q; [reflexivity|]. destruct p as [|y p]; [reflexivity|].
  cbn [app] in *. rewrite !hops_cons. cbn [app]. rewrite IH. reflexivity.
Qed.
Lemma hops_snoc : forall p a b, hops ((p ++ [a]) ++ [b]) = hops (p ++ [a]) ++ [(a, b)].
Proof. intros. rewrite <- app_assoc. cbn [app]. rewrite hops_app. reflexivity. Qed.
Lemma hops_nth : forall p k a b, nth_error p k = Some a -> nth_error p (S k) = Some b -> In (a, b) (hops p).
Proof.
  induction p as [|x p IH]; intros k a b A B; [destruct k; discriminate|]. destruct p as [|y p]; [destruct k as [|[|k]]; discriminate|].
  rewrite hops_cons. destruct k; cbn in A, B; [left; congruence|]. right. eapply IH; eauto.
Qed.
Lemma hops_In : forall p a b, In (a, b) (hops p) -> exists p1 p2, p = p1 ++ a :: b :: p2.
Proof.
  induction p as [|x p IH]; intros a b I; [destruct I|]. destruct p as [|y p]; [destruct I|]. rewrite hops_cons in I.
  destruct I as [E|I]; [injection E as <- <-; exists [], p; reflexivity|].
  destruct (IH a b I) as (p1 & p2 & ->). exists (x :: p1), p2. reflexivity.
Qed.
Lemma hops_mid : forall p1 a b p2, In (a, b) (hops (p1 ++ a :: b :: p2)).
Proof. intros. rewrite hops_app, hops_cons. apply in_or_app. right. now left. Qed.
Lemma hops_members : forall p a b, In (a, b) (hops p) -> In a p /\ In b p.
Proof.
  intros p a b I. apply hops_In in I. destruct I as (p1 & p2 & ->). split; apply in_or_app; right; [now left|right; now left].
Qed.
Lemma hops_fst : forall p a, map fst (hops (p ++ [a])) = p.
Proof.
  induction p as [|x p IH]; intros a; [reflexivity|]. destruct p as [|y p]; [reflexivity|].
  cbn [app] in *. rewrite hops_cons. cbn [map fst]. f_equal. apply IH.
Qed.
Lemma hops_snd : forall p a, map snd (hops (a :: p)) = p.
Proof.
  induction p as [|x p IH]; intros a; [reflexivity|]. rewrite hops_cons. cbn [map snd]. f_equal. apply IH.
Qed.
Lemma NoDup_map_inv' : forall A B (f : A -> B) l, NoDup (map f l) -> NoDup l.
Proof. intros. eapply NoDup_map_inv; eauto. Qed.

(** A dictionary filled from a list whose keys are unique. *)
Lemma dict_of : forall (f : edge -> nat) l (d : list (nat * edge)),
  (forall e e', In e l -> In e' l -> f e = f e' -> e = e') ->
  (forall k e, dget (fold_left (fun d e => dset d (f e) e) l d) k = Some e <->
     (In e l /\ f e = k) \/ ((forall e', In e' l -> f e' <> k) /\ dget d k = Some e)).
Proof.
  induction l as [|x l IH]; intros d U k e; cbn [fold_left].
  - split; [intros H; right; split; [intros ? []|exact H]|intros [[[] _]|[_ H]]; exact H].
  - rewrite IH; [|intros; apply U; auto; now right]. split.
    + intros [[I E]|[N H]]; [left; split; [now right|exact E]|]. destruct (Nat.eq_dec (f x) k) as [E|E].
      * rewrite E, dget_dset_same in H. injection H as ->. left. split; [now left|exact E].
      * rewrite dget_dset_other in H by exact E. right. split; [|exact H]. intros e' [<-|I]; [exact E|now apply N].
    + intros [[[->|I] E]|[N H]].
      * destruct (in_dec Nat.eq_dec k (map f l)) as [K|K].
        -- left. apply in_map_iff in K. destruct K as (e' & E' & I'). assert (e' = e); [|subst; auto].
           apply U; [now right|now left|congruence].
        -- right. split; [intros e' I' E'; apply K, in_map_iff; eauto|]. rewrite E. apply dget_dset_same.
      * left. auto.
      * right. split; [intros; apply N; now right|]. rewrite dget_dset_other; [exact H|]. apply N. now left.
Qed.
Lemma dict_of_nil : forall (f : edge -> nat) l k e,
  (forall e e', In e l -> In e' l -> f e = f e' -> e = e') ->
  (dget (fold_left (fun d e => dset d (f e) e) l []) k = Some e <-> In e l /\ f e = k).
Proof.
  intros f l k e U. rewrite dict_of by exact U. split; [intros [H|[_ H]]; [exact H|discriminate]|intros H; now left].
Qed.

(** * The flows *)
Section Flow.
Variable side : edge -> nat.

Lemma add_to_fold : forall es d, (forall e, In e es -> forall k s, dget d k = Some s -> ~ In e s) -> NoDup es ->
  forall k, dget (fold_left (fun d e => add_to d (side e) e) es d) k =
    match dget d k, filter (fun e => side e =? k) es with
    | None, [] => None
    | None, l => Some l
    | Some s, l => Some (s ++ l)
    end.
Proof.
  induction es as [|e es IH]; intros d A N k; cbn [fold_left filter].
  - destruct (dget d k); [now rewrite app_nil_r|reflexivity].
  - inversion N as [|? ? Ne Nd]; subst. rewrite IH; [|intros e' I' k' s|exact Nd].
    + unfold add_to. destruct (Nat.eqb_spec (side e) k) as [E|E].
      * rewrite E, dget_dset_same. destruct (dget d k) as [s|] eqn:D; cbn [app].
        -- unfold pyadd. destruct (pymem e s) eqn:M; [apply pymem_true in M; exfalso; eapply A; eauto; now left|].
           now rewrite <- app_assoc.
        -- reflexivity.
      * rewrite dget_dset_other by exact E. reflexivity.
    + unfold add_to. intros D. destruct (Nat.eq_dec (side e) k') as [E|E].
      * rewrite E, dget_dset_same in D. injection D as <-. rewrite pyadd_In. intros [->|I]; [contradiction|].
        destruct (dget d k') as [s|] eqn:D; [|destruct I]. eapply A; eauto. now right.
      * rewrite dget_dset_other in D by exact E. eapply A; eauto. now right.
Qed.
Lemma add_to_nil : forall es, NoDup es -> forall k,
  dget (fold_left (fun d e => add_to d (side e) e) es []) k =
    match filter (fun e => side e =? k) es with [] => None | l => Some l end.
Proof. intros es N k. rewrite add_to_fold; auto. intros e _ k' s H. discriminate. Qed.
Lemma add_to_keys : forall es, NoDup es -> forall k,
  In k (dkeys (fold_left (fun d e => add_to d (side e) e) es [])) <-> exists e, In e es /\ side e = k.
Proof.
  intros es N k. rewrite dget_keys. setoid_rewrite (add_to_nil es N k). split.
  - intros [v H]. destruct (filter (fun e => side e =? k) es) as [|e l] eqn:F; [discriminate|].
    assert (I : In e (filter (fun e => side e =? k) es)) by (rewrite F; now left).
    apply filter_In in I. destruct I as [I E]. apply Nat.eqb_eq in E. eauto.
  - intros (e & I & E). destruct (filter (fun e => side e =? k) es) as [|e' l] eqn:F; [|eauto].
    assert (J : In e []); [|destruct J]. rewrite <- F. apply filter_In. split; [exact I|now apply Nat.eqb_eq].
Qed.
Lemma add_to_get : forall es, NoDup es -> forall k, (exists e, In e es /\ side e = k) ->
  dgetE (fold_left (fun d e => add_to d (side e) e) es []) k = Ok (filter (fun e => side e =? k) es).
Proof.
  intros es N k (e & I & E). unfold dgetE. rewrite add_to_nil by exact N.
  destruct (filter (fun e => side e =? k) es) as [|e' l] eqn:F; [|reflexivity].
  assert (J : In e []); [|destruct J]. rewrite <- F. apply filter_In. split; [exact I|now apply Nat.eqb_eq].
Qed.
End Flow.

(** * What the program says *)
Section Says.
Variable order : list edge -> list edge.
Hypothesis Hord : rearranges order.
Variable n start end_ : nat.
Hypothesis Hs : start < n.
Hypothesis He : end_ < n.
Variable g : graph.
Hypothesis Hg : graph_ok n g.

Let es := edges_of order g.

Lemma es_In : forall e, In e es <-> In e (dkeys g).
Proof.
  intros e. unfold es, edges_of. split; apply Permutation_in; [apply Hord|apply Permutation_sym, Hord].
Qed.
Lemma es_NoDup : NoDup es.
Proof. eapply Permutation_NoDup; [apply Permutation_sym, Hord|apply Hg]. Qed.
Lemma es_range : forall e, In e es -> fst e < n /\ snd e < n.
Proof. intros [a b] I. apply es_In in I. apply Hg. exact I. Qed.

Definition into (a : edge -> Z) (v : nat) : Z := sumZ (map a (filter (fun e => snd e =? v) es)).
Definition outof (a : edge -> Z) (v : nat) : Z := sumZ (map a (filter (fun e => fst e =? v) es)).

Lemma eval_total : forall (a : edge -> Z) (l : list edge), eval a (total l) = sumZ (map a l).
Proof. intros a l. unfold total. rewrite eval_sum_map. apply sumZ_map_ext. intros. apply eval_var. Qed.
Lemma eval_diff : forall (a : edge -> Z) (l1 l2 : list edge), eval a (esum (map evar l1 ++ map (fun e => escale (-1)%Z (evar e)) l2)) =
  (sumZ (map a l1) - sumZ (map a l2))%Z.
Proof.
  intros a l1 l2. rewrite eval_sum, map_app, sumZ_app, !map_map.
  rewrite (sumZ_map_ext (fun x => eval a (evar x)) a) by (intros; apply eval_var).
  rewrite (sumZ_map_ext (fun x => eval a (escale (-1)%Z (evar x))) (fun x => (-1) * a x)%Z)
    by (intros; rewrite eval_scale, eval_var; reflexivity).
  rewrite sumZ_map_scale. lia.
Qed.

(** The conditions posted for the nodes. *)
Definition flows (a : edge -> Z) : Prop := forall v, v < n ->
  (v <> start -> into a v = 1%Z) /\ (v <> end_ -> outof a v = 1%Z) /\
  (start = end_ -> into a v = 1%Z /\ outof a v = 1%Z) /\
  (start <> end_ -> (v = start -> into a v = 0%Z) /\ (v = end_ -> outof a v = 0%Z)).

Lemma node_constrs : forall v, v < n -> exists cs, flow_constrs start end_ (flow_in es) (flow_out es) v = Ok cs /\
  forall a, (forall c, In c cs -> holds a c) <->
   ((v <> start -> into a v = 1%Z) /\ (v <> end_ -> outof a v = 1%Z) /\
    (start = end_ -> into a v = 1%Z /\ outof a v = 1%Z) /\
    (start <> end_ -> (v = start -> into a v = 0%Z) /\ (v = end_ -> outof a v = 0%Z))).
Proof.
  intros v V. destruct Hg as (_ & _ & Hd). destruct (Hd v V) as [[p Ip] [q Iq]].
  assert (Gi : dgetE (flow_in es) v = Ok (filter (fun e => snd e =? v) es)).
  { apply (add_to_get snd); [apply es_NoDup|]. exists (p, v). split; [now apply es_In|reflexivity]. }
  assert (Go : dgetE (flow_out es) v = Ok (filter (fun e => fst e =? v) es)).
  { apply (add_to_get fst); [apply es_NoDup|]. exists (v, q). split; [now apply es_In|reflexivity]. }
  unfold flow_constrs. rewrite Gi, Go. cbn [bind].
  destruct (Nat.eqb_spec v start) as [Es|Es]; destruct (Nat.eqb_spec v end_) as [Ee|Ee]; cbn [negb andb bind app];
    eexists; (split; [reflexivity|]); intros a;
    (split; [intros H; pose proof (fun c I => H c I) as H'|intros H c I]).
  - assert (H1 := H' _ (or_introl eq_refl)). assert (H2 := H' _ (or_intror (or_introl eq_refl))).
    unfold holds, equals in H1, H2. cbn [c_sense c_left c_right] in H1, H2. rewrite eval_total, eval_const in H1. rewrite eval_total, eval_const in H2.
    fold (outof a v) in H1. fold (into a v) in H2. repeat split; intros; try congruence; auto.
  - assert (S : start = end_) by congruence. destruct (proj1 (proj2 (proj2 H)) S) as [A B].
    destruct I as [<-|[<-|[]]]; unfold holds, equals; cbn [c_sense c_left c_right]; rewrite eval_total, eval_const; [exact B|exact A].
  - assert (H1 := H' _ (or_introl eq_refl)). assert (H2 := H' _ (or_intror (or_introl eq_refl))).
    unfold holds, equals in H1, H2. cbn [c_sense c_left c_right] in H1, H2. rewrite eval_total, eval_const in H1. rewrite eval_total, eval_const in H2.
    fold (outof a v) in H1. fold (into a v) in H2. repeat split; intros; try congruence; auto.
  - assert (S : start <> end_) by congruence. destruct H as (_ & B & _ & C). destruct (C S) as [C1 _].
    destruct I as [<-|[<-|[]]]; unfold holds, equals; cbn [c_sense c_left c_right]; rewrite eval_total, eval_const; [now apply B|now apply C1].
  - assert (H1 := H' _ (or_introl eq_refl)). assert (H2 := H' _ (or_intror (or_intror (or_introl eq_refl)))).
    unfold holds, equals in H1, H2. cbn [c_sense c_left c_right] in H1, H2. rewrite eval_total, eval_const in H1. rewrite eval_total, eval_const in H2.
    fold (into a v) in H1. fold (outof a v) in H2. repeat split; intros; try congruence; auto.
  - assert (S : start <> end_) by congruence. destruct H as (A & _ & _ & C). destruct (C S) as [_ C2].
    destruct I as [<-|[<-|[<-|[]]]]; unfold holds, equals; cbn [c_sense c_left c_right]; rewrite eval_total, eval_const; [now apply A|now apply A|now apply C2].
  - assert (H1 := H' _ (or_introl eq_refl)). assert (H2 := H' _ (or_intror (or_introl eq_refl))).
    unfold holds, equals in H1, H2. cbn [c_sense c_left c_right] in H1, H2. rewrite eval_diff, eval_const in H1. rewrite eval_total, eval_const in H2.
    fold (into a v) in H1, H2. fold (outof a v) in H1. repeat split; intros; try congruence; auto; lia.
  - destruct H as (A & B & _). specialize (A Es). specialize (B Ee).
    destruct I as [<-|[<-|[]]]; unfold holds, equals; cbn [c_sense c_left c_right]; rewrite ?eval_total, ?eval_diff, eval_const; [|exact A].
    fold (into a v). fold (outof a v). lia.
Qed.

Lemma flow_nodes : forall v, In v (dkeys (flow_in es)) <-> v < n.
Proof.
  intros v. unfold flow_in. rewrite (add_to_keys snd _ es_NoDup). split.
  - intros (e & I & <-). now apply es_range.
  - intros V. destruct Hg as (_ & _ & Hd). destruct (Hd v V) as [[p Ip] _]. exists (p, v). split; [now apply es_In|reflexivity].
Qed.

Definition weight (e : edge) : Z := match dget g e with Some w => w | None => 0%Z end.

Lemma master_says : exists m, master order start end_ g = Ok m /\ p_max m = false /\ p_vars m = map binary_var es /\
  (forall a, eval a (p_obj m) = sumZ (map (fun e => weight e * a e)%Z es)) /\
  forall a, (forall c, In c (p_constrs m) -> holds a c) <->
    ((forall e, In e es -> In (flip e) es -> (a e + a (flip e) <= 1)%Z) /\ flows a).
Proof.
  unfold master. fold es.
  assert (C : exists css, mapM (flow_constrs start end_ (flow_in es) (flow_out es)) (dkeys (flow_in es)) = Ok css).
  { pose proof (fun v => proj1 (flow_nodes v)) as F. induction (dkeys (flow_in es)) as [|v l IH]; [eexists; reflexivity|].
    destruct (node_constrs v) as (cs & E & _); [apply F; now left|]. destruct IH as [css Ec]; [intros; apply F; now right|].
    cbn [mapM]. rewrite E. cbn [bind]. rewrite Ec. eexists; reflexivity. }
  destruct C as [css Ec]. rewrite Ec. cbn [bind].
  assert (W : mapM (fun e => let* w := dgetE g e in Ok (escale w (evar e))) es = Ok (map (fun e => escale (weight e) (evar e)) es)).
  { apply mapM_total. intros e I. apply es_In in I. destruct (proj1 (dget_keys _ _ g e) I) as [w D].
    unfold dgetE, weight. rewrite D. reflexivity. }
  rewrite W. cbn [bind]. eexists. split; [reflexivity|]. cbn [p_max p_vars p_obj p_constrs]. split; [reflexivity|]. split; [reflexivity|]. split.
  - intros a. rewrite eval_sum_map. apply sumZ_map_ext. intros e _. now rewrite eval_scale, eval_var.
  - intros a. split.
    + intros H. split.
      * intros e I1 I2. assert (K : holds a (Constr (eadd (evar e) (evar (flip e))) SLe (econst 1%Z))).
        { apply H, in_or_app. left. unfold two_cycles. apply in_flat_map. exists e. split; [exact I1|].
          rewrite (proj2 (pymem_true _ _) I2). now left. }
        unfold holds in K. cbn [c_sense c_left c_right] in K. rewrite eval_add, !eval_var, eval_const in K. exact K.
      * intros v V. destruct (node_constrs v V) as (cs & E & K). apply K. intros c I. apply H, in_or_app. right.
        apply in_concat. exists cs. split; [|exact I]. apply mapM_ok in Ec. apply flow_nodes in V. clear -Ec V E.
        induction Ec as [|x y l l' Exy F IH]; [destruct V|]. destruct V as [->|V]; [left; congruence|right; auto].
    + intros [T F] c I. apply in_app_or in I. destruct I as [I|I].
      * unfold two_cycles in I. apply in_flat_map in I. destruct I as (e & Ie & I).
        destruct (pymem (flip e) es) eqn:M; [|destruct I]. destruct I as [<-|[]]. apply pymem_true in M.
        unfold holds. cbn [c_sense c_left c_right]. rewrite eval_add, !eval_var, eval_const. now apply T.
      * apply in_concat in I. destruct I as (cs & Ics & I). apply mapM_ok in Ec.
        assert (X : exists v, In v (dkeys (flow_in es)) /\ flow_constrs start end_ (flow_in es) (flow_out es) v = Ok cs).
        { clear -Ec Ics. induction Ec as [|x y l l' Exy F IH]; [destruct Ics|]. destruct Ics as [->|J]; [exists x; split; [now left|exact Exy]|].
          destruct (IH J) as (v & A & B). exists v. split; [now right|exact B]. }
        destruct X as (v & Iv & Ev). apply flow_nodes in Iv. destruct (node_constrs v Iv) as (cs' & E & K).
        assert (cs' = cs) by congruence. subst cs'. apply K; [|exact I]. now apply F.
Qed.
End Says.
