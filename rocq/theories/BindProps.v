(** Properties C118 and C119: translating problems between scheduling domains and discrete optimisation
    (skdecide/hub/solver/do_solver/sk_to_do_binding.py). *)
From Coq Require Import String List Bool Arith ZArith Lia Permutation.
From Verif Require Import Py PyList PyMore SgsModel SgsProofs SgsTotalProofs SgsProps SatProps BindModel.
Import ListNotations.
Open Scope nat_scope.
Open Scope string_scope.
Open Scope list_scope.
Open Scope nat_scope.

(** ** Vocabulary *)

(** The entry of a task in a mode. *)
Definition entry (m : do_model) (a k : nat) : option needs :=
  match dget (d_details m) a with Some d => dget d k | None => None end.

Definition names_of (m : do_model) : list string :=
  match d_res m with Constant c => dkeys c | Calendar c => dkeys c end.

(** A problem made of dictionaries, in which every mode has a duration. *)
Record regular (m : do_model) : Prop := {
  g_tasks : NoDup (dkeys (d_details m));
  g_modes : forall a d, dget (d_details m) a = Some d -> NoDup (dkeys d);
  g_needs : forall a k e, entry m a k = Some e -> NoDup (dkeys e);
  g_durations : forall a k e, entry m a k = Some e -> dget e "duration" <> None;
  g_names : NoDup (names_of m);
  g_succ : NoDup (dkeys (d_succ m))
}.

(** [b] is a direct successor of [a]. *)
Definition follows (succ : list (nat * list nat)) (a b : nat) : Prop := exists l, dget succ a = Some l /\ In b l.

(** The same problem, capacities apart: tasks, modes, durations, needs of the declared resources, successors,
    horizon, and which of the declared resources are not renewable. *)
Record same_problem (m m' : do_model) : Prop := {
  sp_names : names_of m' = names_of m;
  sp_succ : forall a b, follows (d_succ m') a b <-> follows (d_succ m) a b;
  sp_keys : NoDup (dkeys (d_succ m')) /\ forall a, In a (dkeys (d_succ m')) <->
    In a (dkeys (d_details m)) \/ exists b, follows (d_succ m) a b \/ follows (d_succ m) b a;
  sp_horizon : d_horizon m' = d_horizon m;
  sp_tasks : dkeys (d_details m') = dkeys (d_details m);
  sp_modes : forall a, option_map dkeys (dget (d_details m') a) = option_map dkeys (dget (d_details m) a);
  sp_entry : forall a k e, entry m a k = Some e -> exists e', entry m' a k = Some e' /\
    dget e' "duration" = dget e "duration" /\
    (forall r, In r (names_of m) -> dget e' r = dget e r) /\
    (forall r, In r (dkeys e') -> r = "duration" \/ In r (names_of m));
  sp_nonren : forall r, In r (d_nonren m') <-> In r (d_nonren m) /\ In r (names_of m)
}.

(** The problem as the schedule generation and the feasibility check read it (SgsModel.v). *)
Definition duration_in_entry (e : needs) : Z := match dget e "duration" with Some d => d | None => 0%Z end.
Definition view (m : do_model) : rcpsp :=
  Rcpsp (d_res m) (d_nonren m)
    (map (fun tm => (fst tm, map (fun me : nat * needs =>
       (fst me, Mode (Z.to_nat (duration_in_entry (snd me))) (filter (fun rn => negb (String.eqb (fst rn) "duration")) (snd me))))
       (snd tm))) (d_details m))
    (d_succ m) (d_horizon m) (d_mult m).

(** ** Dictionaries *)

Lemma dget_mapv K V W {EK : PyEq K} (f : V -> W) (d : list (K * V)) k :
  dget (map (fun kv => (fst kv, f (snd kv))) d) k = option_map f (dget d k).
Proof. induction d as [|[k' v] d IH]; [reflexivity|]. cbn. destruct (pyeqb k k'); auto. Qed.

Lemma dget_mapk K V W {EK : PyEq K} (f : K -> V -> W) (d : list (K * V)) k :
  dget (map (fun kv => (fst kv, f (fst kv) (snd kv))) d) k = option_map (f k) (dget d k).
Proof.
  induction d as [|[k' v] d IH]; [reflexivity|]. cbn.
  destruct (pyeqb_spec k k') as [->|]; auto.
Qed.

Lemma dkeys_mapv K V W (f : V -> W) (d : list (K * V)) : dkeys (map (fun kv => (fst kv, f (snd kv))) d) = dkeys d.
Proof. unfold dkeys. rewrite map_map. reflexivity. Qed.

Lemma dget_filterk K V {EK : PyEq K} (p : K -> bool) (d : list (K * V)) k :
  dget (filter (fun kv => p (fst kv)) d) k = if p k then dget d k else None.
Proof.
  induction d as [|[k' v] d IH]; cbn; [destruct (p k); reflexivity|].
  destruct (pyeqb_spec k k') as [->|N].
  - destruct (p k') eqn:P; cbn; [rewrite pyeqb_refl; reflexivity|exact IH].
  - destruct (p k') eqn:P; cbn; [|exact IH]. destruct (pyeqb_spec k k'); [congruence|]. exact IH.
Qed.

Lemma NoDup_filterk K V (p : K * V -> bool) (d : list (K * V)) : NoDup (dkeys d) -> NoDup (dkeys (filter p d)).
Proof.
  induction d as [|[k v] d IH]; cbn; intros N; [exact N|]. inversion N; subst.
  destruct (p (k, v)); cbn; [|auto]. constructor; [|auto].
  intros I. apply H1. unfold dkeys in I. apply in_map_iff in I as ([k' v'] & <- & I). apply filter_In in I as [I _].
  apply in_map_iff. exists (k', v'). auto.
Qed.

Lemma make_dict_ok V (f : string -> res V) (g : string -> V) l :
  NoDup l -> (forall r, In r l -> f r = Ok (g r)) -> make_dict f l = Ok (map (fun r => (r, g r)) l).
Proof.
  unfold make_dict. intros N F.
  assert (forall l0 d, NoDup (dkeys d ++ l0) -> (forall r, In r l0 -> f r = Ok (g r)) ->
            foldM (fun d r => let* v := f r in Ok (dset d r v)) d l0 = Ok (d ++ map (fun r => (r, g r)) l0)) as G.
  { induction l0 as [|r l0 IH]; intros d ND FF; cbn [foldM]; [cbn; rewrite app_nil_r; reflexivity|].
    rewrite (FF r (or_introl eq_refl)). cbn [bind].
    assert (~ In r (dkeys d)) as NI.
    { intros I. apply NoDup_remove_2 in ND. apply ND. apply in_or_app. auto. }
    rewrite (dset_new _ _ d r (g r) NI), IH.
    - cbn. rewrite <- app_assoc. reflexivity.
    - unfold dkeys in *. rewrite map_app, <- app_assoc. exact ND.
    - intros; apply FF; right; assumption. }
  apply (G l []); auto.
Qed.

Lemma map_get K V {EK : PyEq K} (d : list (K * V)) (g : K -> V) : NoDup (dkeys d) ->
  (forall k v, dget d k = Some v -> g k = v) -> map (fun k => (k, g k)) (dkeys d) = d.
Proof.
  intros N G. unfold dkeys. rewrite map_map. rewrite <- (map_id d) at 2. apply map_ext_in. intros [k v] I. cbn.
  rewrite (G k v); [reflexivity|]. apply In_dget; assumption.
Qed.

(** ** The round trip *)

Definition cut (names : list string) (e : needs) : needs :=
  dset (filter (fun rn => pymem (fst rn) names) e) "duration" (duration_in_entry e).
Definition cut_details (names : list string) (ds : details) : details :=
  map (fun tm => (fst tm, map (fun me => (fst me, cut names (snd me))) (snd tm))) ds.

(** What the graph of a domain keeps. *)
Lemma add_node_spec g n : NoDup (dkeys g) -> NoDup (dkeys (add_node g n)) /\
  (forall a, In a (dkeys (add_node g n)) <-> In a (dkeys g) \/ a = n) /\
  (forall a b, follows (add_node g n) a b <-> follows g a b).
Proof.
  intros N. unfold add_node. destruct (dmem g n) eqn:E.
  - apply dmem_true in E. split; [exact N|]. split; [|tauto]. intros a. split; [auto|]. intros [I| ->]; auto.
  - assert (~ In n (dkeys g)) as NI by (intros I; apply dmem_true in I; congruence).
    rewrite (dset_new _ _ g n [] NI). split; [|split].
    + unfold dkeys in *. rewrite map_app. cbn. apply NoDup_snoc; assumption.
    + intros a. unfold dkeys. rewrite map_app, in_app_iff. cbn. intuition.
    + intros a b. unfold follows. rewrite <- (dset_new _ _ g n [] NI). destruct (Nat.eq_dec a n) as [->|Na].
      * rewrite dget_dset_same. split; intros (l & E1 & I); [injection E1 as <-; destruct I|].
        exfalso. apply NI. apply (proj2 (dget_keys _ _ g n)). eauto.
      * rewrite dget_dset_other by congruence. tauto.
Qed.

Lemma add_edge_spec g u v : NoDup (dkeys g) -> NoDup (dkeys (add_edge g u v)) /\
  (forall a, In a (dkeys (add_edge g u v)) <-> In a (dkeys g) \/ a = u \/ a = v) /\
  (forall a b, follows (add_edge g u v) a b <-> follows g a b \/ (a = u /\ b = v)).
Proof.
  intros N. destruct (add_node_spec g u N) as (N1 & K1 & F1). destruct (add_node_spec (add_node g u) v N1) as (N2 & K2 & F2).
  unfold add_edge. set (h := add_node (add_node g u) v) in *.
  assert (In u (dkeys h)) as Iu by (apply K2; left; apply K1; auto).
  destruct (proj1 (dget_keys _ _ h u) Iu) as (l & L). rewrite L.
  split; [apply NoDup_dset; exact N2|]. split.
  - intros a. rewrite dkeys_dset, K2, K1. intuition.
  - intros a b. unfold follows at 1. destruct (Nat.eq_dec a u) as [->|Na].
    + rewrite dget_dset_same. rewrite <- (F1 u b), <- (F2 u b). unfold follows. rewrite L. split.
      * intros (l' & E & I). injection E as <-. apply pyadd_In in I as [->|I]; [right; auto|left; eauto].
      * intros [(l' & E & I)|[_ ->]]; eexists; (split; [reflexivity|]); apply pyadd_In; [injection E as <-|]; auto.
    + rewrite dget_dset_other by congruence. rewrite <- (F1 a b), <- (F2 a b). unfold follows. intuition.
Qed.

Lemma graph_spec ids succ : NoDup (dkeys succ) -> NoDup (dkeys (graph_successors ids succ)) /\
  (forall a, In a (dkeys (graph_successors ids succ)) <-> In a ids \/ exists b, follows succ a b \/ follows succ b a) /\
  (forall a b, follows (graph_successors ids succ) a b <-> follows succ a b).
Proof.
  intros N. unfold graph_successors.
  assert (forall l g, NoDup (dkeys g) -> NoDup (dkeys (fold_left add_node l g)) /\
    (forall a, In a (dkeys (fold_left add_node l g)) <-> In a (dkeys g) \/ In a l) /\
    (forall a b, follows (fold_left add_node l g) a b <-> follows g a b)) as Nodes.
  { induction l as [|n l IH]; intros g Ng; cbn [fold_left]; [split; [exact Ng|]; split; [cbn; tauto|tauto]|].
    destruct (add_node_spec g n Ng) as (N1 & K1 & F1). destruct (IH _ N1) as (N2 & K2 & F2).
    split; [exact N2|]. split; [intros a; rewrite K2, K1; cbn; intuition|intros a b; rewrite F2, F1; tauto]. }
  assert (forall u l g, NoDup (dkeys g) -> let g' := fold_left (fun g v => add_edge g u v) l g in NoDup (dkeys g') /\
    (forall a, In a (dkeys g') <-> In a (dkeys g) \/ exists b, In b l /\ (a = u \/ a = b)) /\
    (forall a b, follows g' a b <-> follows g a b \/ (a = u /\ In b l))) as Edges.
  { intros u. induction l as [|v l IH]; intros g Ng; cbn [fold_left].
    - split; [exact Ng|]. split; [intros a; split; [auto|intros [I|(b & [] & _)]; exact I]|cbn; intuition].
    - destruct (add_edge_spec g u v Ng) as (N1 & K1 & F1). destruct (IH _ N1) as (N2 & K2 & F2).
      split; [exact N2|]. split.
      + intros a. rewrite K2, K1. split.
        * intros [[I|[->| ->]]|(b & I & E)]; [auto|right; exists v; cbn; auto|right; exists v; cbn; auto|right; exists b; cbn; auto].
        * intros [I|(b & [<-|I] & E)]; [auto|left; right; exact E|right; exists b; auto].
      + intros a b. rewrite F2, F1. cbn. intuition. }
  assert (forall l g, NoDup (dkeys g) -> let g' := fold_left (fun g nl => fold_left (fun g v => add_edge g (fst nl) v) (snd nl) g) l g in
    NoDup (dkeys g') /\
    (forall a, In a (dkeys g') <-> In a (dkeys g) \/ exists u x b, In (u, x) l /\ In b x /\ (a = u \/ a = b)) /\
    (forall a b, follows g' a b <-> follows g a b \/ exists x, In (a, x) l /\ In b x)) as All.
  { induction l as [|[u x] l IH]; intros g Ng; cbn [fold_left fst snd].
    - split; [exact Ng|]. split; [intros a; split; [auto|intros [I|(? & ? & ? & [] & _)]; exact I]|].
      intros a b. split; [auto|intros [I|(? & [] & _)]; exact I].
    - destruct (Edges u x g Ng) as (N1 & K1 & F1). destruct (IH _ N1) as (N2 & K2 & F2). split; [exact N2|]. split.
      + intros a. rewrite K2, K1. split.
        * intros [[I|(b & I & E)]|(u' & x' & b & I & J & E)]; [auto|right; exists u, x, b; cbn; auto|right; exists u', x', b; cbn; auto].
        * intros [I|(u' & x' & b & [I|I] & J & E)]; [auto| |right; exists u', x', b; auto].
          injection I as <- <-. left. right. exists b. auto.
      + intros a b. rewrite F2, F1. split.
        * intros [[I|[-> I]]|(x' & I & J)]; [auto|right; exists x; cbn; auto|right; exists x'; cbn; auto].
        * intros [I|(x' & [I|I] & J)]; [auto| |right; exists x'; auto]. injection I as <- <-. left. right. auto. }
  destruct (Nodes ids [] (NoDup_nil _)) as (N1 & K1 & F1). destruct (All succ _ N1) as (N2 & K2 & F2).
  assert (forall a b, follows succ a b <-> exists x, In (a, x) succ /\ In b x) as FF.
  { intros a b. split; intros (x & E & I); exists x; (split; [|exact I]); [apply dget_In; exact E|apply In_dget; assumption]. }
  split; [exact N2|]. split.
  - intros a. rewrite K2, K1. cbn. split.
    + intros [[[]|I]|(u & x & b & I & J & [->| ->])]; [auto| |].
      * right. exists b. left. apply FF. eauto.
      * right. exists u. right. apply FF. eauto.
    + intros [I|(b & [F|F])]; [auto| |]; apply FF in F as (x & I & J); right; [exists a, x, b|exists b, x, a]; auto.
  - intros a b. rewrite F2, F1, FF. split; [|auto]. intros [(l & E & _)|E]; [discriminate|exact E].
Qed.

Lemma sorted_ids_in ds a : In a (sorted_ids ds) <-> In a (dkeys ds).
Proof. unfold sorted_ids. split; apply Permutation_in; [apply Permutation_sym|]; apply ssort_perm. Qed.

Section Round.
  Variable m : do_model.
  Hypothesis G : regular m.

  Definition as_use (names : list string) (e : needs) : consumption :=
    ConstantUse (map (fun rn : string * Z => (fst rn, [snd rn])) (filter (fun rn => pymem (fst rn) names) e)).
  Definition read (names : list string) : list (nat * list (nat * (consumption * Z))) :=
    map (fun tm => (fst tm, map (fun me : nat * needs => (fst me, (as_use names (snd me), duration_in_entry (snd me))))
                              (snd tm))) (d_details m).

  Lemma in_entry a d k e : In (a, d) (d_details m) -> In (k, e) d -> entry m a k = Some e /\ NoDup (dkeys d).
  Proof.
    intros I J. pose proof (In_dget _ _ _ (g_tasks m G) I) as D. pose proof (g_modes m G a d D) as N.
    unfold entry. rewrite D. split; [apply In_dget; assumption|exact N].
  Qed.

  Lemma read_ok names : read_details names (d_details m) = Ok (read names).
  Proof.
    unfold read_details. apply mapM_total with (g := (fun tm : nat * list (nat * needs) => (fst tm, map (fun me : nat * needs => (fst me, (as_use names (snd me), duration_in_entry (snd me)))) (snd tm)))).
    intros [a d] I. cbn [fst snd].
    rewrite mapM_total with (g := (fun me : nat * needs => (fst me, (as_use names (snd me), duration_in_entry (snd me))))); [reflexivity|].
    intros [k e] J. cbn [fst snd]. destruct (in_entry a d k e I J) as [E _]. unfold read_entry, dgetE, duration_in_entry.
    destruct (dget e "duration") as [x|] eqn:D; [reflexivity|]. exfalso. exact (g_durations m G _ _ _ E D).
  Qed.

  Lemma modes_of names : only_modes (read names) =
    map (fun tm => (fst tm, map (fun me : nat * needs => (fst me, as_use names (snd me))) (snd tm))) (d_details m).
  Proof.
    unfold only_modes, read. rewrite map_map. apply map_ext. intros [a d]. cbn. rewrite map_map. reflexivity.
  Qed.

  Lemma duration_ok names a d k e : In (a, d) (d_details m) -> In (k, e) d ->
    duration_in (read names) a k = Ok (duration_in_entry e).
  Proof.
    intros I J. unfold duration_in, read, dgetE. rewrite dget_mapv.
    rewrite (In_dget _ _ _ (g_tasks m G) I). cbn [option_map bind].
    rewrite (dget_mapv _ _ _ (fun e => (as_use names e, duration_in_entry e)) d k).
    rewrite (In_dget d k e); [reflexivity|apply (in_entry a d k e I J)|exact J].
  Qed.

  Lemma use_ok names e r n : NoDup (dkeys e) -> In (r, n) e -> pymem r names = true -> use_at (as_use names e) r 0 = Ok n.
  Proof.
    intros N I P. unfold as_use, use_at. rewrite (dget_mapv _ _ _ (fun x : Z => [x])).
    rewrite (dget_filterk _ _ (fun r => pymem r names) e r), P, (In_dget e r n N I). reflexivity.
  Qed.

  Lemma details_ok names k : k_modes k = only_modes (read names) -> k_duration k = duration_in (read names) ->
    make_details k = Ok (cut_details names (d_details m)).
  Proof.
    intros KM KD. unfold make_details. rewrite KM, modes_of. unfold cut_details.
    assert (forall l, incl l (d_details m) ->
      mapM (fun tm : nat * list (nat * consumption) =>
        let* d := mapM (fun mc : nat * consumption =>
                      let* e := make_entry k (fst tm) (fst mc) (snd mc) in Ok (fst mc, e)) (snd tm) in
        Ok (fst tm, d)) (map (fun tm => (fst tm, map (fun me : nat * needs => (fst me, as_use names (snd me))) (snd tm))) l) =
      Ok (map (fun tm => (fst tm, map (fun me => (fst me, cut names (snd me))) (snd tm))) l)) as H.
    { induction l as [|[a d] l IH]; intros In_l; [reflexivity|]. cbn [map mapM fst snd].
      assert (In (a, d) (d_details m)) as Ia by (apply In_l; left; reflexivity).
      assert (forall l', incl l' d -> mapM (fun mc : nat * consumption =>
                      let* e := make_entry k a (fst mc) (snd mc) in Ok (fst mc, e))
                  (map (fun me : nat * needs => (fst me, as_use names (snd me))) l') =
                Ok (map (fun me => (fst me, cut names (snd me))) l')) as H'.
      { induction l' as [|[q e] l' IH']; intros In_l'; [reflexivity|]. cbn [map mapM fst snd].
        assert (In (q, e) d) as Iq by (apply In_l'; left; reflexivity).
        destruct (in_entry a d q e Ia Iq) as [E Nd].
        assert (make_entry k a q (as_use names e) = Ok (cut names e)) as ->.
        { unfold make_entry. rewrite KD, (duration_ok names a d q e Ia Iq).
        assert (use_names (as_use names e) = dkeys (filter (fun rn => pymem (fst rn) names) e)) as ->.
        { unfold use_names, as_use. apply (dkeys_mapv _ _ _ (fun x : Z => [x])). }
        assert (mapM (fun r => let* n := use_at (as_use names e) r 0 in Ok (r, n)) (dkeys (filter (fun rn => pymem (fst rn) names) e))
                  = Ok (filter (fun rn => pymem (fst rn) names) e)) as ->.
        { assert (forall l0, incl l0 e -> (forall x, In x l0 -> pymem (fst x) names = true) ->
            mapM (fun r => let* n := use_at (as_use names e) r 0 in Ok (r, n)) (dkeys l0) = Ok l0) as H0.
          { induction l0 as [|[r n] l0 IH0]; intros I0 P0; [reflexivity|]. cbn [dkeys map mapM fst].
            rewrite (use_ok names e r n); [|apply (g_needs m G a q e E)|apply I0; left; reflexivity|apply (P0 (r, n)); left; reflexivity].
            cbn [bind]. change (map fst l0) with (dkeys l0).
            rewrite IH0; [reflexivity|intros x Ix; apply I0; right; exact Ix|intros x Ix; apply P0; right; exact Ix]. }
          apply H0; intros x Ix; apply filter_In in Ix; tauto. }
        reflexivity. }
        cbn [bind]. rewrite IH'; [reflexivity|]. intros x Ix. apply In_l'. right. exact Ix. }
      rewrite (H' d (incl_refl d)). cbn [bind]. rewrite IH; [reflexivity|]. intros x Ix. apply In_l. right. exact Ix. }
    apply H. apply incl_refl.
  Qed.

  Lemma nonren_ok names r : In r (map fst (filter (fun rb : string * bool => negb (snd rb)) (renewability m names))) <->
    In r (d_nonren m) /\ In r names.
  Proof.
    unfold renewability. rewrite in_map_iff. split.
    - intros ([r' b] & <- & I). apply filter_In in I as [I B]. apply in_map_iff in I as (x & E & I). inversion E; subst.
      cbn in B. rewrite negb_involutive in B. apply pymem_true in B. split; assumption.
    - intros [I J]. exists (r, false). split; [reflexivity|]. apply filter_In. split; [|reflexivity].
      apply in_map_iff. exists r. split; [|exact J]. rewrite (proj2 (pymem_true r _) I). reflexivity.
  Qed.

  Lemma cut_spec names e : dget (cut names e) "duration" = Some (duration_in_entry e) /\
    (forall r, In r names -> r <> "duration" -> dget (cut names e) r = dget e r) /\
    (forall r, In r (dkeys (cut names e)) -> r = "duration" \/ In r names).
  Proof.
    unfold cut. split; [apply dget_dset_same|]. split.
    - intros r I N. rewrite dget_dset_other by congruence. rewrite (dget_filterk _ _ (fun r => pymem r names)).
      rewrite (proj2 (pymem_true r names) I). reflexivity.
    - intros r I. apply dkeys_dset in I as [->|I]; [left; reflexivity|]. right.
      unfold dkeys in I. apply in_map_iff in I as ([r' n] & <- & I). apply filter_In in I as [_ P].
      apply pymem_true in P. exact P.
  Qed.

  Lemma entry_cut m' a k : d_details m' = cut_details (names_of m) (d_details m) ->
    entry m' a k = option_map (cut (names_of m)) (entry m a k).
  Proof.
    intros E. unfold entry. rewrite E. unfold cut_details. rewrite dget_mapv.
    destruct (dget (d_details m) a) as [d|]; cbn [option_map]; [|reflexivity]. apply dget_mapv.
  Qed.

  Lemma same_ok m' : names_of m' = names_of m -> d_succ m' = new_successors m -> d_horizon m' = d_horizon m ->
    d_details m' = cut_details (names_of m) (d_details m) ->
    d_nonren m' = map fst (filter (fun rb : string * bool => negb (snd rb)) (renewability m (names_of m))) ->
    same_problem m m'.
  Proof.
    intros N S H D R. destruct (graph_spec (sorted_ids (d_details m)) (d_succ m) (g_succ m G)) as (G1 & G2 & G3). constructor; auto.
    - intros a b. rewrite S. apply G3.
    - rewrite S. split; [exact G1|]. intros a. unfold new_successors. rewrite G2, sorted_ids_in. tauto.
    - rewrite D. apply dkeys_mapv.
    - intros a. rewrite D. unfold cut_details. rewrite dget_mapv. destruct (dget (d_details m) a); cbn; [|reflexivity].
      f_equal. apply dkeys_mapv.
    - intros a k e E. exists (cut (names_of m) e). split; [rewrite (entry_cut m' a k D), E; reflexivity|].
      pose proof (g_durations m G a k e E) as Du. destruct (cut_spec (names_of m) e) as (C1 & C2 & C3).
      assert (Some (duration_in_entry e) = dget e "duration") as DD.
      { unfold duration_in_entry. destruct (dget e "duration"); [reflexivity|congruence]. }
      split; [congruence|]. split; [|exact C3].
      intros r I. destruct (string_dec r "duration") as [->|Nr]; [congruence|auto].
    - intros r. rewrite R. apply nonren_ok.
  Qed.

  Lemma max_rows (c : list (string * list Z)) : (forall r row, In (r, row) c -> row <> []) ->
    exists top, mapM (fun rl : string * list Z => let* x := maxz (snd rl) in Ok (fst rl, x)) c = Ok top /\
      dkeys top = dkeys c /\ forall r row, In (r, row) c -> exists x, In (r, x) top /\ maxz row = Ok x.
  Proof.
    induction c as [|[r row] c IH]; intros NE; [exists []; split; [reflexivity|split; [reflexivity|intros ? ? []]]|].
    destruct IH as (top & E & K & F); [intros; eapply NE; right; eassumption|].
    assert (exists x, maxz row = Ok x) as (x & X).
    { destruct row as [|z row]; [exfalso; eapply (NE r []); [left; reflexivity|reflexivity]|]. eexists; reflexivity. }
    exists ((r, x) :: top). cbn [mapM snd fst]. rewrite X. cbn [bind]. rewrite E. cbn [bind]. split; [reflexivity|].
    split; [unfold dkeys in *; cbn [map fst]; congruence|]. intros r' row' [J|J].
    - injection J as <- <-. exists x. split; [left; reflexivity|exact X].
    - destruct (F r' row' J) as (y & Y1 & Y2). exists y. split; [right; exact Y1|exact Y2].
  Qed.
End Round.

Lemma maxz_spec l x : maxz l = Ok x -> In x l /\ forall y, In y l -> (y <= x)%Z.
Proof.
  destruct l as [|z l]; [discriminate|]. cbn. intros E. injection E as <-. revert z.
  induction l as [|w l IH]; intros z; cbn [fold_left].
  - split; [left; reflexivity|intros y [<-|[]]; lia].
  - destruct (IH (Z.max z w)) as [I M]. split.
    + destruct I as [I|I]; [|right; right; exact I]. rewrite <- I. destruct (Z.max_spec z w) as [[_ ->]|[_ ->]]; [right; left|left]; reflexivity.
    + intros y [<-|[<-|J]].
      * specialize (M _ (or_introl eq_refl)). lia.
      * specialize (M _ (or_introl eq_refl)). lia.
      * apply M. right. exact J.
Qed.

(** C118.  Translating a problem with constant resources into a scheduling domain and back always works and
    gives the same problem, with the same capacities; the horizon multiplier becomes 1 and the class that of
    multi-mode problems. *)
Theorem C118_constant v m c : regular m -> d_res m = Constant c ->
  (d_single m = true -> forall a, In a (dkeys (d_details m)) -> exists e, entry m a 1 = Some e) ->
  exists k m', build_sk v m = Ok k /\ build_do k = Ok (Some m') /\
    same_problem m m' /\ d_res m' = d_res m /\ d_mult m' = 1 /\ d_single m' = false.
Proof.
  intros G C Si.
  assert (names_of m = dkeys c) as NM by (unfold names_of; rewrite C; reflexivity).
  assert (exists k, build_sk v m = Ok k /\ mrcpsp (dkeys c) m c = Ok k) as (k & B & K).
  { unfold build_sk. rewrite C. unfold rcpsp_single, mrcpsp. rewrite (read_ok m G). cbn [bind].
    destruct (d_single m); [|eauto]. eexists. split; [|reflexivity].
    rewrite mapM_total with (g := (fun tm : nat * list (nat * consumption) =>
      match dget (snd tm) 1 with Some x => x | None => ConstantUse [] end)); [reflexivity|].
    cbn [k_modes]. rewrite modes_of. intros [a d] I. apply in_map_iff in I as ([a' d'] & E & I). inversion E; subst. cbn [fst snd].
    destruct (Si eq_refl a) as (e & Ee); [change a with (fst (a, d')); apply in_map; exact I|].
    unfold entry in Ee. rewrite (In_dget _ _ _ (g_tasks m G) I) in Ee. unfold dgetE. rewrite dget_mapv, Ee. reflexivity. }
  unfold mrcpsp in K. rewrite (read_ok m G) in K. cbn [bind] in K. injection K as <-.
  eexists. exists (Do false (Constant c) (map fst (filter (fun rb : string * bool => negb (snd rb)) (renewability m (dkeys c))))
    (cut_details (dkeys c) (d_details m)) (new_successors m) (d_horizon m) 1).
  split; [exact B|]. split.
  - unfold build_do. cbn [k_kind]. rewrite (details_ok m G (dkeys c)) by reflexivity. cbn [bind k_names k_original].
    pose proof (g_names m G) as N. rewrite NM in N.
    rewrite (make_dict_ok _ _ (fun r => match dget c r with Some x => x | None => 0%Z end)).
    + cbn [bind]. rewrite (map_get _ _ c) by (auto; intros k v0 ->; reflexivity). reflexivity.
    + exact N.
    + intros r I. unfold dgetE. apply (proj1 (dget_keys _ _ c r)) in I as (x & ->). reflexivity.
  - split; [|cbn; auto]. apply (same_ok m G); cbn; auto; rewrite ?NM; reflexivity.
Qed.

(** With calendars kept, the calendars are the same up to the horizon. *)
Theorem C118_calendar m c : regular m -> d_res m = Calendar c ->
  (forall r row, In (r, row) c -> row <> [] /\ d_horizon m <= length row) ->
  exists k m' c', build_sk true m = Ok k /\ build_do k = Ok (Some m') /\
    same_problem m m' /\ d_res m' = Calendar c' /\ d_mult m' = 1 /\
    forall r row, dget c r = Some row -> exists row', dget c' r = Some row' /\ length row' = d_horizon m /\
      forall t, t < d_horizon m -> nth_error row' t = nth_error row t.
Proof.
  intros G C Rows.
  assert (names_of m = dkeys c) as NM by (unfold names_of; rewrite C; reflexivity).
  destruct (max_rows c) as (top & T & _ & _); [intros; eapply Rows; eassumption|].
  eexists. exists (Do false (Calendar (map (fun rl => (fst rl, firstn (d_horizon m) (snd rl))) c))
    (map fst (filter (fun rb : string * bool => negb (snd rb)) (renewability m (dkeys c))))
    (cut_details (dkeys c) (d_details m)) (new_successors m) (d_horizon m) 1). eexists.
  split. { unfold build_sk. rewrite C. unfold mrcpsp_calendar. rewrite (read_ok m G). cbn [bind]. rewrite T. cbn [bind]. reflexivity. }
  pose proof (g_names m G) as N. rewrite NM in N.
  split; [|split; [apply (same_ok m G); cbn; auto; unfold names_of; cbn; rewrite ?C; try reflexivity; apply dkeys_mapv|]].
  - unfold build_do. cbn [k_kind]. rewrite (details_ok m G (dkeys c)) by reflexivity. cbn [bind k_names k_quantity k_horizon].
    rewrite (make_dict_ok _ _ (fun r => firstn (d_horizon m) (match dget c r with Some x => x | None => [] end))).
    + cbn [bind]. unfold make_nonren, dkeys. cbn [k_renewable k_succ]. rewrite map_map. do 4 f_equal.
      apply map_ext_in. intros [r row] I. cbn. rewrite (In_dget c r row N I). reflexivity.
    + exact N.
    + intros r I. apply (proj1 (dget_keys _ _ c r)) in I as (row & R). rewrite R. unfold dgetE. rewrite R. cbn [bind].
      destruct (Rows r row) as [_ L]; [apply dget_In; exact R|].
      clear - L. revert L. generalize (d_horizon m). intros h L.
      assert (forall q b, b + q <= length row -> mapM (fun t => lget row t) (seq b q) = Ok (firstn q (skipn b row))) as H.
      { induction q as [|q IH]; intros b Le; [reflexivity|]. cbn [seq mapM].
        destruct (nth_error row b) as [x|] eqn:X; [|apply nth_error_None in X; lia].
        rewrite (proj2 (lget_ok row b x) X). cbn [bind]. rewrite IH by lia. cbn [bind].
        rewrite (skipn_nth row b X). reflexivity. }
      apply (H h 0). lia.
  - split; [reflexivity|]. split; [reflexivity|]. intros r row R.
    exists (firstn (d_horizon m) row). split; [rewrite dget_mapv, R; reflexivity|].
    destruct (Rows r row) as [_ L]; [apply dget_In; exact R|]. split; [rewrite firstn_length; lia|].
    intros t Lt. apply nth_error_firstn. exact Lt.
Qed.

(** With calendars dropped, each resource is available all the time at its maximum. *)
Theorem C118_no_calendar m c : regular m -> d_res m = Calendar c -> (forall r row, In (r, row) c -> row <> []) ->
  exists k m' c', build_sk false m = Ok k /\ build_do k = Ok (Some m') /\
    same_problem m m' /\ d_res m' = Constant c' /\ d_mult m' = 1 /\
    forall r row, dget c r = Some row -> exists x, dget c' r = Some x /\ In x row /\ forall y, In y row -> (y <= x)%Z.
Proof.
  intros G C Rows.
  assert (names_of m = dkeys c) as NM by (unfold names_of; rewrite C; reflexivity).
  destruct (max_rows c Rows) as (top & T & KT & FT).
  pose proof (g_names m G) as N. rewrite NM in N.
  eexists. exists (Do false (Constant top) (map fst (filter (fun rb : string * bool => negb (snd rb)) (renewability m (dkeys c))))
    (cut_details (dkeys c) (d_details m)) (new_successors m) (d_horizon m) 1). exists top.
  split. { unfold build_sk. rewrite C, T. cbn [bind]. unfold mrcpsp. rewrite (read_ok m G). cbn [bind]. reflexivity. }
  split; [|split; [apply (same_ok m G); cbn; auto; unfold names_of; cbn; rewrite ?C; auto|]].
  - unfold build_do. cbn [k_kind]. rewrite (details_ok m G (dkeys c)) by reflexivity. cbn [bind k_names k_original].
    rewrite <- KT in *.
    rewrite (make_dict_ok _ _ (fun r => match dget top r with Some x => x | None => 0%Z end)).
    + cbn [bind]. rewrite (map_get _ _ top) by (auto; intros k v0 ->; reflexivity). reflexivity.
    + exact N.
    + intros r I. unfold dgetE. apply (proj1 (dget_keys _ _ top r)) in I as (x & ->). reflexivity.
  - split; [reflexivity|]. split; [reflexivity|]. intros r row R.
    destruct (FT r row) as (x & X & Mx); [apply dget_In; exact R|]. exists x.
    split; [apply In_dget; [rewrite KT; exact N|exact X]|]. apply maxz_spec. exact Mx.
Qed.

(** ** Feasibility of schedules *)

Definition to_mode (e : needs) : mode :=
  Mode (Z.to_nat (duration_in_entry e)) (filter (fun rn => negb (String.eqb (fst rn) "duration")) e).

Lemma view_modes m a : dget (p_modes (view m)) a = option_map (map (fun me : nat * needs => (fst me, to_mode (snd me)))) (dget (d_details m) a).
Proof. cbn. apply (dget_mapv _ _ _ (map (fun me : nat * needs => (fst me, to_mode (snd me))))). Qed.

Lemma view_entry m a k d : dget (p_modes (view m)) a = Some d -> dget d k = option_map to_mode (entry m a k).
Proof.
  rewrite view_modes. unfold entry. destruct (dget (d_details m) a) as [d0|]; [|discriminate].
  intros E. injection E as <-. apply (dget_mapv _ _ _ to_mode).
Qed.

Definition number (n : nat) (modes : list nat) (a : nat) : option nat :=
  if (a =? 1) || (a =? n) then Some 1 else nth_error modes (a - 2).

Lemma chosen_view m modes a : chosen (view m) modes a =
  match number (length (d_details m)) modes a with Some k => option_map to_mode (entry m a k) | None => None end.
Proof.
  unfold chosen, number, p_sink. cbn [p_modes]. cbn [view p_modes]. rewrite map_length.
  destruct (if (a =? 1) || (a =? length (d_details m)) then Some 1 else nth_error modes (a - 2)) as [k|]; [|reflexivity].
  pose proof (view_modes m a) as V. cbn [view p_modes] in V. rewrite V. unfold entry.
  destruct (dget (d_details m) a) as [d|]; cbn [option_map]; [|reflexivity]. apply (dget_mapv _ _ _ to_mode).
Qed.

Lemma need_view e r : r <> "duration" -> dget (m_need (to_mode e)) r = dget e r.
Proof.
  intros N. cbn. rewrite (dget_filterk _ _ (fun r => negb (String.eqb r "duration"))).
  rewrite (proj2 (String.eqb_neq r "duration") N). reflexivity.
Qed.

Section Same.
  Variables m m' : do_model.
  Hypothesis S : same_problem m m'.
  Hypothesis D : ~ In "duration" (names_of m).

  Lemma same_length : length (d_details m') = length (d_details m).
  Proof. pose proof (f_equal (@length _) (sp_tasks m m' S)) as E. unfold dkeys in E. rewrite !map_length in E. exact E. Qed.

  Lemma entry_none a k : entry m a k = None -> entry m' a k = None.
  Proof.
    intros E. pose proof (sp_modes m m' S a) as M. unfold entry in *.
    destruct (dget (d_details m) a) as [d|], (dget (d_details m') a) as [d'|]; try discriminate; try reflexivity.
    cbn in M. injection M as M. apply dget_None. apply (proj1 (dget_None d k)) in E. rewrite M. exact E.
  Qed.

  Lemma entry_back a k e' : entry m' a k = Some e' -> exists e, entry m a k = Some e /\
    dget e' "duration" = dget e "duration" /\ (forall r, In r (names_of m) -> dget e' r = dget e r).
  Proof.
    intros E. destruct (entry m a k) as [e|] eqn:F; [|rewrite (entry_none a k F) in E; discriminate].
    destruct (sp_entry m m' S a k e F) as (e2 & E2 & H1 & H2 & _). rewrite E2 in E. injection E as <-. eauto.
  Qed.

  Lemma demand_same modes a r : In r (names_of m) -> demand (view m') modes a r = demand (view m) modes a r.
  Proof.
    intros I. assert (r <> "duration") as Nr by (intros ->; contradiction).
    unfold demand. rewrite !chosen_view, same_length. destruct (number _ modes a) as [k|]; [|reflexivity].
    destruct (entry m a k) as [e|] eqn:E.
    - destruct (sp_entry m m' S a k e E) as (e' & E' & _ & H & _). rewrite E'. cbn [option_map].
      rewrite !(need_view _ r Nr), (H r I). reflexivity.
    - rewrite (entry_none a k E). reflexivity.
  Qed.

  Lemma names_view x : res_names (view x) = names_of x.
  Proof. reflexivity. Qed.

  Lemma tasks_same modes n : tasks (view m) modes n ->
    match d_res m' with Constant _ => True | Calendar c => forall r row, In (r, row) c -> d_horizon m' * d_mult m' <= length row end ->
    tasks (view m') modes n.
  Proof.
    intros T Rows. destruct T as [I Sk Mo Ex Ke No]. destruct I as [I1 I2 I3 I4 I5 I6 I7 I8].
    assert (p_sink (view m') = n + 2) as Sk'.
    { rewrite <- Sk. unfold p_sink. cbn [view p_modes]. rewrite !map_length. apply same_length. }
    constructor.
    - constructor.
      + rewrite names_view, (sp_names m m' S). exact I1.
      + cbn [view p_res new_horizon]. unfold new_horizon. cbn [view p_horizon p_mult]. exact Rows.
      + intros a Ha. rewrite Sk', <- Sk in Ha. destruct (I3 a Ha) as (d & mo & Dd & Dm).
        rewrite (view_entry m a 1 d Dd) in Dm. destruct (entry m a 1) as [e|] eqn:E; [|discriminate].
        destruct (sp_entry m m' S a 1 e E) as (e' & E' & _).
        assert (exists d', dget (d_details m') a = Some d' /\ dget d' 1 = Some e') as (d' & D1 & D2).
        { unfold entry in E'. destruct (dget (d_details m') a) as [d'|]; [eauto|discriminate]. }
        do 2 eexists. split; [rewrite view_modes, D1; reflexivity|].
        rewrite (dget_mapv _ _ _ to_mode), D2. reflexivity.
      + intros a d k mo r Dd Dm I. rewrite (view_entry m' a k d Dd) in Dm.
        destruct (entry m' a k) as [e'|] eqn:E'; [|discriminate]. injection Dm as <-.
        destruct (entry_back a k e' E') as (e & E & _ & H). rewrite names_view, (sp_names m m' S) in I.
        assert (r <> "duration") as Nr by (intros ->; contradiction).
        rewrite (need_view e' r Nr), (H r I), <- (need_view e r Nr).
        assert (exists d0, dget (p_modes (view m)) a = Some d0) as (d0 & D0).
        { rewrite view_modes. unfold entry in E. destruct (dget (d_details m) a); [eexists; reflexivity|discriminate]. }
        apply (I4 a d0 k (to_mode e) r D0); [|rewrite names_view; exact I].
        rewrite (view_entry m a k d0 D0), E. reflexivity.
      + intros a Ha. rewrite Sk', <- Sk in Ha. cbn [view p_succ]. apply (proj1 (dget_keys _ _ (d_succ m') a)).
        apply (proj2 (sp_keys m m' S)). left. destruct (I3 a Ha) as (d & mo & Dd & _). rewrite view_modes in Dd.
        apply (proj2 (dget_keys _ _ (d_details m) a)). destruct (dget (d_details m) a); [eauto|discriminate].
      + cbn [view p_succ]. intros a l b L B. apply (proj2 (sp_keys m m' S)). right. exists a. right.
        apply (sp_succ m m' S). exists l. auto.
      + destruct I7 as (rank & I7). exists rank. cbn [view p_succ] in *. intros a l b L B.
        destruct (proj1 (sp_succ m m' S a b) (ex_intro _ l (conj L B))) as (l0 & L0 & B0). apply (I7 a l0 b L0 B0).
      + cbn [view p_succ]. apply (proj1 (sp_keys m m' S)).
    - exact Sk'.
    - exact Mo.
    - intros a Ha. specialize (Ex a Ha). rewrite chosen_view in *. rewrite same_length.
      destruct (number _ modes a) as [k|]; [|exact Ex]. destruct (entry m a k) as [e|] eqn:E; [|contradiction].
      destruct (sp_entry m m' S a k e E) as (e' & -> & _). discriminate.
    - cbn [view p_succ] in *. intros a I. apply (proj2 (sp_keys m m' S)) in I as [I|(b & [(l & L & B)|(l & L & B)])].
      + assert (incl (dkeys (d_details m)) (seq 1 (n + 2))) as Inc.
        { apply NoDup_length_incl.
          - apply seq_NoDup.
          - rewrite seq_length. unfold p_sink in Sk. cbn [view p_modes] in Sk.
            rewrite map_length in Sk. unfold dkeys. rewrite map_length. lia.
          - intros x Ix. apply in_seq in Ix.
            destruct (I3 x) as (d & mo & E & _); [lia|].
            rewrite view_modes in E. apply (proj2 (dget_keys _ _ (d_details m) x)).
            destruct (dget (d_details m) x); [eauto|discriminate]. }
        apply Inc, in_seq in I. lia.
      + apply Ke. apply (proj2 (dget_keys _ _ (d_succ m) a)). eauto.
      + apply Ke. apply (I6 b l a L B).
    - intros r I. rewrite names_view, (sp_names m m' S). apply (sp_nonren m m' S) in I. tauto.
  Qed.

  Lemma running_same modes sch r t : In r (names_of m) -> running (view m') modes sch r t = running (view m) modes sch r t.
  Proof.
    intros I. unfold running. f_equal. apply map_ext. intros [a [s e]]. rewrite (demand_same modes a r I). reflexivity.
  Qed.

  Lemma total_same modes r : In r (names_of m) -> total_demand (view m') modes r = total_demand (view m) modes r.
  Proof.
    intros I. unfold total_demand, p_sink. cbn [view p_modes]. rewrite !map_length, same_length. f_equal.
    apply map_ext. intros a. apply (demand_same modes a r I).
  Qed.

  (** The check of a schedule by both problems, when the capacities are as in [R]. *)
  Lemma checked_same (R : option Z -> option Z -> Prop) modes n sch flag e (LE : forall x y, R (Some x) (Some y) -> (x <= y)%Z) :
    tasks (view m) modes n -> Permutation (map fst sch) (seq 1 (n + 2)) -> makespan (view m) sch e -> (0 < e)%Z ->
    match d_res m' with Constant _ => True | Calendar c => forall r row, In (r, row) c -> d_horizon m' * d_mult m' <= length row end ->
    (forall r t, In r (names_of m) -> (Z.of_nat t < e)%Z ->
      capacity_of (view m) r t <> None /\ capacity_of (view m') r t <> None /\
      R (capacity_of (view m) r t) (capacity_of (view m') r t)) ->
    exists b b', satisfy (view m) modes sch flag = Ok b /\ satisfy (view m') modes sch flag = Ok b' /\ (b = true -> b' = true) /\
      ((forall x y, R (Some x) (Some y) -> (y <= x)%Z) -> b' = b).
  Proof.
    intros T P Mk Pos Rows Cap. pose proof (tasks_same modes n T Rows) as T'.
    assert (makespan (view m') sch e) as Mk'.
    { destruct Mk as [s Mk]. exists s. unfold p_sink in *. cbn [view p_modes] in *. rewrite map_length in *. rewrite same_length. exact Mk. }
    destruct (C39_decides (view m) modes n sch flag e T P Mk) as (b & B & BB).
    { intros r t I [Lt| ->]; apply Cap; auto. }
    { auto. }
    destruct (C39_decides (view m') modes n sch flag e T' P Mk') as (b' & B' & BB').
    { intros r t I [Lt| ->]; rewrite names_view, (sp_names m m' S) in I; apply Cap; auto. }
    { auto. }
    exists b, b'. split; [exact B|]. split; [exact B'|].
    assert (forall r t, capacity_of (view m) r t <> None -> In r (names_of m)) as Nm.
    { intros r t. unfold capacity_of, names_of. cbn [view p_res]. destruct (d_res m) as [c|c]; intros X.
      - destruct (dget c r) as [y|] eqn:Y; [|congruence]. apply (proj2 (dget_keys _ _ c r)). eauto.
      - destruct (dget c r) as [y|] eqn:Y; [|congruence]. apply (proj2 (dget_keys _ _ c r)). eauto. }
    assert (forall r t, capacity_of (view m') r t <> None -> In r (names_of m)) as Nm'.
    { rewrite <- (sp_names m m' S). intros r t. unfold capacity_of, names_of. cbn [view p_res]. destruct (d_res m') as [c|c]; intros X.
      - destruct (dget c r) as [y|] eqn:Y; [|congruence]. apply (proj2 (dget_keys _ _ c r)). eauto.
      - destruct (dget c r) as [y|] eqn:Y; [|congruence]. apply (proj2 (dget_keys _ _ c r)). eauto. }
    assert (b = true -> b' = true) as F.
    { intros Hb. apply BB in Hb as (H1 & H2 & H3 & H4). apply BB'. split; [exact H1|].
      split; [intros x y l sx ex sy ey L Iy; cbn [view p_succ] in *;
        destruct (proj1 (sp_succ m m' S x y) (ex_intro _ l (conj L Iy))) as (l0 & L0 & I0); apply (H2 x y l0 sx ex sy ey L0 I0)|]. split.
      - intros r c I Hc. cbn [view p_nonren] in I. apply (sp_nonren m m' S) in I as [I J]. rewrite (total_same modes r J).
        destruct (Cap r 0 J Pos) as (C1 & _ & C3). rewrite Hc in C3.
        destruct (capacity_of (view m) r 0) as [x|] eqn:X; [|congruence].
        specialize (H3 r x I X). specialize (LE _ _ C3). lia.
      - intros r t c Lt Hc. assert (In r (names_of m)) as J by (apply (Nm' r t); congruence).
        rewrite (running_same modes sch r _ J). destruct (Cap r t J Lt) as (C1 & _ & C3). rewrite Hc in C3.
        destruct (capacity_of (view m) r t) as [x|] eqn:X; [|congruence].
        specialize (H4 r t x Lt X). specialize (LE _ _ C3). lia. }
    split; [exact F|]. intros GE.
    destruct b; [apply F; reflexivity|]. destruct b'; [|reflexivity]. symmetry. apply BB.
    destruct (proj1 BB' eq_refl) as (H1 & H2 & H3 & H4). split; [exact H1|].
    split; [intros x y l sx ex sy ey L Iy; cbn [view p_succ] in *;
        destruct (proj2 (sp_succ m m' S x y) (ex_intro _ l (conj L Iy))) as (l0 & L0 & I0); apply (H2 x y l0 sx ex sy ey L0 I0)|]. split.
    - intros r c I Hc. cbn [view p_nonren] in I.
      assert (In r (names_of m)) as J by (apply (Nm r 0); congruence).
      rewrite <- (total_same modes r J).
      destruct (Cap r 0 J Pos) as (_ & C2 & C3). rewrite Hc in C3.
      destruct (capacity_of (view m') r 0) as [x|] eqn:X; [|congruence].
      assert (In r (p_nonren (view m'))) as I' by (cbn [view p_nonren]; apply (sp_nonren m m' S); auto).
      specialize (H3 r x I' X). specialize (GE _ _ C3). lia.
    - intros r t c Lt Hc. assert (In r (names_of m)) as J by (apply (Nm r t); congruence).
      rewrite <- (running_same modes sch r _ J). destruct (Cap r t J Lt) as (_ & C2 & C3). rewrite Hc in C3.
      destruct (capacity_of (view m') r t) as [x|] eqn:X; [|congruence].
      specialize (H4 r t x Lt X). specialize (GE _ _ C3). lia.
  Qed.
End Same.

(** A schedule is accepted by the problem obtained after the round trip exactly when the original accepts it,
    with constant resources or with calendars kept and the schedule within the horizon. *)
Theorem C118_same_verdict v m modes n sch flag e : regular m -> ~ In "duration" (names_of m) ->
  match d_res m with
  | Constant _ => True
  | Calendar c => v = true /\ (e <= Z.of_nat (d_horizon m))%Z /\ forall r row, In (r, row) c -> d_horizon m <= length row
  end ->
  tasks (view m) modes n -> Permutation (map fst sch) (seq 1 (n + 2)) -> makespan (view m) sch e -> (0 < e)%Z ->
  exists k m' b, build_sk v m = Ok k /\ build_do k = Ok (Some m') /\
    satisfy (view m) modes sch flag = Ok b /\ satisfy (view m') modes sch flag = Ok b.
Proof.
  intros G ND K T P Mk Pos. destruct (d_res m) as [c|c] eqn:C.
  - destruct (C118_constant v m c G C) as (k & m' & B1 & B2 & S & R & _).
    { intros _ a I. assert (incl (dkeys (d_details m)) (seq 1 (n + 2))) as Inc.
      { apply NoDup_length_incl.
        - apply seq_NoDup.
        - rewrite seq_length. pose proof (k_sink _ _ _ T) as E. unfold p_sink in E. cbn [view p_modes] in E.
          rewrite map_length in E. unfold dkeys. rewrite map_length. lia.
        - intros x Ix. apply in_seq in Ix.
          destruct (in_task _ (k_instance _ _ _ T) x) as (d & mo & E & _); [rewrite (k_sink _ _ _ T); lia|].
          rewrite view_modes in E. apply (proj2 (dget_keys _ _ (d_details m) x)).
          destruct (dget (d_details m) x); [eauto|discriminate]. }
      apply Inc, in_seq in I.
      destruct (in_task _ (k_instance _ _ _ T) a) as (d & mo & E & F); [rewrite (k_sink _ _ _ T); lia|].
      rewrite (view_entry m a 1 d E) in F. destruct (entry m a 1); [eauto|discriminate]. }
    destruct (checked_same m m' S ND (fun x y => x = y) modes n sch flag e) as (b & b' & H1 & H2 & _ & H4); auto.
    + intros x y E. injection E as ->. lia.
    + rewrite R, C. exact I.
    + intros r t I _. assert (capacity_of (view m') r t = capacity_of (view m) r t) as ->.
      { unfold capacity_of. cbn [view p_res]. rewrite R. reflexivity. }
      unfold capacity_of. cbn [view p_res]. rewrite C. unfold names_of in I. rewrite C in I.
      apply (proj1 (dget_keys _ _ c r)) in I as (x & ->). repeat split; discriminate.
    + exists k, m', b. rewrite <- H4 at 2; [auto|]. intros x y E. injection E as ->. lia.
  - destruct K as (-> & He & Rows).
    destruct (C118_calendar m c G C) as (k & m' & c' & B1 & B2 & S & R & Mu & F).
    { intros r row I. specialize (Rows r row I). split; [|exact Rows]. intros ->. cbn in Rows. lia. }
    assert (NoDup (dkeys c)) as Nc by (pose proof (g_names m G) as N; unfold names_of in N; rewrite C in N; exact N).
    assert (dkeys c' = dkeys c) as Kc.
    { pose proof (sp_names m m' S) as E. unfold names_of in E. rewrite R, C in E. exact E. }
    destruct (checked_same m m' S ND (fun x y => x = y) modes n sch flag e) as (b & b' & H1 & H2 & _ & H4); auto.
    + intros x y E. injection E as ->. lia.
    + rewrite R. intros r row I. assert (dget c' r = Some row) as Dr by (apply In_dget; [rewrite Kc; exact Nc|exact I]).
      assert (In r (dkeys c)) as Ir by (rewrite <- Kc; apply (proj2 (dget_keys _ _ c' r)); eauto).
      apply (proj1 (dget_keys _ _ c r)) in Ir as (row0 & R0). destruct (F r row0 R0) as (row' & E & L & _).
      rewrite Dr in E. injection E as <-. rewrite L, Mu, (sp_horizon m m' S). lia.
    + intros r t I Lt. unfold capacity_of. cbn [view p_res]. rewrite C, R. unfold names_of in I. rewrite C in I.
      apply (proj1 (dget_keys _ _ c r)) in I as (row & Rr). destruct (F r row Rr) as (row' & E & L & Q). rewrite Rr, E.
      rewrite (Q t) by lia. pose proof (Rows r row (dget_In _ _ Rr)) as Lr.
      destruct (nth_error row t) eqn:X; [repeat split; discriminate|]. apply nth_error_None in X. lia.
    + exists k, m', b. rewrite <- H4 at 2; [auto|]. intros x y E. injection E as ->. lia.
Qed.

(** Dropping the calendars relaxes the problem: what the original accepts stays accepted. *)
Theorem C118_relaxed m c modes n sch flag e : regular m -> ~ In "duration" (names_of m) -> d_res m = Calendar c ->
  (forall r row, In (r, row) c -> (e <= Z.of_nat (length row))%Z) ->
  tasks (view m) modes n -> Permutation (map fst sch) (seq 1 (n + 2)) -> makespan (view m) sch e -> (0 < e)%Z ->
  exists k m', build_sk false m = Ok k /\ build_do k = Ok (Some m') /\
    (satisfy (view m) modes sch flag = Ok true -> satisfy (view m') modes sch flag = Ok true).
Proof.
  intros G ND C Rows T P Mk Pos.
  destruct (C118_no_calendar m c G C) as (k & m' & c' & B1 & B2 & S & R & Mu & F).
  { intros r row I. specialize (Rows r row I). destruct row; [cbn in Rows; lia|discriminate]. }
  destruct (checked_same m m' S ND (fun x y => match x, y with Some x, Some y => (x <= y)%Z | _, _ => False end) modes n sch flag e)
    as (b & b' & H1 & H2 & H3 & _); auto.
  - rewrite R. exact I.
  - intros r t I Lt. unfold capacity_of. cbn [view p_res]. rewrite C, R. unfold names_of in I. rewrite C in I.
    apply (proj1 (dget_keys _ _ c r)) in I as (row & Rr). destruct (F r row Rr) as (x & E & _ & Q). rewrite Rr, E.
    pose proof (Rows r row (dget_In _ _ Rr)) as Lr.
    destruct (nth_error row t) eqn:X; [|apply nth_error_None in X; lia].
    split; [discriminate|]. split; [discriminate|]. apply Q. apply (nth_error_In _ _ X).
  - exists k, m'. split; [exact B1|]. split; [exact B2|]. rewrite H1, H2. intros E. injection E as ->. rewrite H3; reflexivity.
Qed.

(** ** From scheduling domains *)

(** What the domain says a task uses, [elapsed] time steps after its start, in the mode it is given; the modes
    of the tasks 2 to [n + 1] are listed, the dummy tasks are in mode 1. *)
Definition use_of (k : sk_domain) (n : nat) (modes : list nat) (a : nat) (r : string) (elapsed : nat) : Z :=
  match number (n + 2) modes a, dget (k_modes k) a with
  | Some q, Some d => match dget d q with
                      | Some c => match use_at c r elapsed with Ok x => x | Err _ => 0%Z end
                      | None => 0%Z
                      end
  | _, _ => 0%Z
  end.

(** What the running tasks use at time [t], and what all tasks use. *)
Definition load (k : sk_domain) (n : nat) (modes : list nat) (sch : schedule) (r : string) (t : Z) : Z :=
  sumZ (map (fun x : nat * (Z * Z) => let '(a, (s, e)) := x in
    if (s <=? t)%Z && (t <? e)%Z then use_of k n modes a r (Z.to_nat (t - s)) else 0%Z) sch).
Definition use_of_all (k : sk_domain) (n : nat) (modes : list nat) (r : string) : Z :=
  sumZ (map (fun a => use_of k n modes a r 0) (seq 1 (n + 2))).

(** A feasible schedule, in the terms of the domain. *)
Record feasible (k : sk_domain) (n : nat) (modes : list nat) (sch : schedule) (e : Z) : Prop := {
  f_order : forall a b l sa ea sb eb, dget (k_succ k) a = Some l -> In b l ->
    In (a, (sa, ea)) sch -> In (b, (sb, eb)) sch -> (ea <= sb)%Z;
  f_total : forall r x, In (r, false) (k_renewable k) -> k_quantity k r 0 = Ok x -> (use_of_all k n modes r <= x)%Z;
  f_load : forall r t x, In r (k_names k) -> (Z.of_nat t < e)%Z -> k_quantity k r t = Ok x ->
    (load k n modes sch r (Z.of_nat t) <= x)%Z
}.

(** A domain with tasks 1 to [n + 2], constant consumption given for every resource, and one of the supported
    families. *)
Record supported (k : sk_domain) (n : nat) (modes : list nat) : Prop := {
  u_kind : k_kind k <> KOther;
  u_names : NoDup (k_names k) /\ ~ In "duration" (k_names k);
  u_tasks : Permutation (dkeys (k_modes k)) (seq 1 (n + 2));
  u_modes : forall a d, dget (k_modes k) a = Some d -> NoDup (dkeys d) /\ dmem d 1 = true;
  u_use : forall a d q c, dget (k_modes k) a = Some d -> dget d q = Some c ->
    exists u, c = ConstantUse u /\ NoDup (dkeys u) /\ (forall r l, In (r, l) u -> l <> []) /\ incl (k_names k) (dkeys u);
  u_duration : forall a d q c, dget (k_modes k) a = Some d -> dget d q = Some c -> exists x, k_duration k a q = Ok x;
  u_chosen : length modes = n /\ forall a q d, number (n + 2) modes a = Some q -> dget (k_modes k) a = Some d -> dmem d q = true;
  u_quantity : forall r, In r (k_names k) ->
    match k_kind k with
    | KCalendar => forall t, t < k_horizon k -> exists x, k_quantity k r t = Ok x
    | _ => exists x, k_original k r = Ok x /\ forall t, k_quantity k r t = Ok x
    end;
  u_renewable : NoDup (dkeys (k_renewable k)) /\ incl (dkeys (k_renewable k)) (k_names k);
  u_succ : NoDup (dkeys (k_succ k)) /\ Permutation (dkeys (k_succ k)) (seq 1 (n + 2)) /\
    (forall a l b, dget (k_succ k) a = Some l -> In b l -> 1 <= b <= n + 2) /\
    exists rank : nat -> nat, forall a l b, dget (k_succ k) a = Some l -> In b l -> rank a < rank b
}.

Lemma dget_tab V (f : string -> V) l r : dget (map (fun x => (x, f x)) l) r = if pymem r l then Some (f r) else None.
Proof.
  induction l as [|x l IH]; [reflexivity|]. cbn [map dget pymem existsb]. destruct (pyeqb_spec r x) as [->|N]; [reflexivity|].
  exact IH.
Qed.

Section Domain.
  Variables (k : sk_domain) (n : nat) (modes : list nat).
  Hypothesis U : supported k n modes.

  Definition val {A} (d : A) (r : res A) : A := match r with Ok x => x | Err _ => d end.
  Definition out_entry (a q : nat) (c : consumption) : needs :=
    dset (map (fun r => (r, val 0%Z (use_at c r 0))) (use_names c)) "duration" (val 0%Z (k_duration k a q)).
  Definition out_details : details :=
    map (fun tm => (fst tm, map (fun mc : nat * consumption => (fst mc, out_entry (fst tm) (fst mc) (snd mc))) (snd tm))) (k_modes k).

  Lemma keys_nodup : NoDup (dkeys (k_modes k)).
  Proof. eapply Permutation_NoDup; [apply Permutation_sym, (u_tasks _ _ _ U)|apply seq_NoDup]. Qed.

  Lemma use_listed a d q c r : dget (k_modes k) a = Some d -> dget d q = Some c -> In r (use_names c) ->
    exists x, forall t, use_at c r t = Ok x.
  Proof.
    intros A Q I. destruct (u_use _ _ _ U a d q c A Q) as (u & -> & N & Ne & _). cbn in I.
    apply (proj1 (dget_keys _ _ u r)) in I as (l & L). cbn [use_at]. rewrite L.
    destruct l as [|x l]; [exfalso; exact (Ne r [] (dget_In _ _ L) eq_refl)|]. exists x. reflexivity.
  Qed.

  Lemma out_ok : make_details k = Ok out_details.
  Proof.
    unfold make_details, out_details. apply mapM_total with
      (g := fun tm : nat * list (nat * consumption) => (fst tm, map (fun mc : nat * consumption => (fst mc, out_entry (fst tm) (fst mc) (snd mc))) (snd tm))).
    intros [a d] I. cbn [fst snd]. pose proof (In_dget _ _ _ keys_nodup I) as A.
    rewrite mapM_total with (g := fun mc : nat * consumption => (fst mc, out_entry a (fst mc) (snd mc))); [reflexivity|].
    intros [q c] J. cbn [fst snd].
    pose proof (In_dget _ _ _ (proj1 (u_modes _ _ _ U a d A)) J) as Q. unfold make_entry, out_entry.
    rewrite mapM_total with (g := fun r => (r, val 0%Z (use_at c r 0))).
    - cbn [bind]. destruct (u_duration _ _ _ U a d q c A Q) as (x & ->). reflexivity.
    - intros r Ir. destruct (use_listed a d q c r A Q Ir) as (x & X). rewrite X. reflexivity.
  Qed.

  Lemma out_entry_get a q c r : r <> "duration" -> dget (out_entry a q c) r =
    if pymem r (use_names c) then Some (val 0%Z (use_at c r 0)) else None.
  Proof. intros N. unfold out_entry. rewrite dget_dset_other by congruence. apply dget_tab. Qed.

  Variable m : do_model.
  Hypothesis MD : d_details m = out_details.
  Hypothesis MS : d_succ m = k_succ k.
  Hypothesis MN : names_of m = k_names k.
  Hypothesis MR : d_nonren m = make_nonren k.

  Lemma out_get a q : entry m a q = match dget (k_modes k) a with Some d => option_map (out_entry a q) (dget d q) | None => None end.
  Proof.
    unfold entry. rewrite MD. unfold out_details.
    rewrite (dget_mapk _ _ _ (fun a => map (fun mc : nat * consumption => (fst mc, out_entry a (fst mc) (snd mc))))).
    destruct (dget (k_modes k) a) as [d|]; cbn [option_map]; [|reflexivity]. apply (dget_mapk _ _ _ (out_entry a)).
  Qed.

  Lemma out_length : length (d_details m) = n + 2.
  Proof.
    rewrite MD. unfold out_details. rewrite map_length.
    pose proof (Permutation_length (u_tasks _ _ _ U)) as L. unfold dkeys in L. rewrite map_length, seq_length in L. exact L.
  Qed.

  Lemma known a : 1 <= a <= n + 2 -> exists d, dget (k_modes k) a = Some d.
  Proof.
    intros H. apply (proj1 (dget_keys _ _ (k_modes k) a)).
    apply (Permutation_in _ (Permutation_sym (u_tasks _ _ _ U))). apply in_seq. lia.
  Qed.

  Lemma out_tasks : match d_res m with Constant _ => True | Calendar c => forall r row, In (r, row) c -> d_horizon m * d_mult m <= length row end ->
    tasks (view m) modes n.
  Proof.
    intros Rows. destruct (u_succ _ _ _ U) as (S1 & S2 & S3 & S4). destruct (u_names _ _ _ U) as [N1 N2].
    assert (p_sink (view m) = n + 2) as Sk.
    { unfold p_sink. cbn [view p_modes]. rewrite map_length. apply out_length. }
    constructor; auto.
    - constructor.
      + rewrite names_view, MN. exact N1.
      + exact Rows.
      + rewrite Sk. intros a Ha. destruct (known a Ha) as (d & A). destruct (u_modes _ _ _ U a d A) as [_ M1].
        apply dmem_true in M1. apply (proj1 (dget_keys _ _ d 1)) in M1 as (c & C).
        pose proof (out_get a 1) as E. rewrite A, C in E. cbn [option_map] in E.
        assert (exists d', dget (p_modes (view m)) a = Some d') as (d' & D').
        { rewrite view_modes. unfold entry in E. destruct (dget (d_details m) a); [eexists; reflexivity|discriminate]. }
        exists d', (to_mode (out_entry a 1 c)). split; [exact D'|]. rewrite (view_entry m a 1 d' D'), E. reflexivity.
      + intros a d' q mo r D' Q I. rewrite (view_entry m a q d' D'), out_get in Q.
        destruct (dget (k_modes k) a) as [d|] eqn:A; [|discriminate]. destruct (dget d q) as [c|] eqn:C; [|discriminate].
        injection Q as <-. rewrite names_view, MN in I.
        assert (r <> "duration") as Nr by (intros ->; contradiction).
        rewrite (need_view _ r Nr), (out_entry_get a q c r Nr).
        destruct (u_use _ _ _ U a d q c A C) as (u & -> & _ & _ & Inc). cbn [use_names].
        rewrite (proj2 (pymem_true r (dkeys u)) (Inc r I)). eauto.
      + rewrite Sk. intros a Ha. cbn [view p_succ]. rewrite MS. apply (proj1 (dget_keys _ _ (k_succ k) a)).
        apply (Permutation_in _ (Permutation_sym S2)). apply in_seq. lia.
      + cbn [view p_succ]. rewrite MS. intros a l b L B. apply (Permutation_in _ (Permutation_sym S2)). apply in_seq.
        specialize (S3 a l b L B). lia.
      + cbn [view p_succ]. rewrite MS. exact S4.
      + cbn [view p_succ]. rewrite MS. exact S1.
    - apply (u_chosen _ _ _ U).
    - intros a Ha. rewrite chosen_view, out_length. destruct (known a Ha) as (d & A).
      destruct (number (n + 2) modes a) as [q|] eqn:Q.
      + destruct (u_chosen _ _ _ U) as [_ Ch]. specialize (Ch a q d Q A). apply dmem_true in Ch.
        apply (proj1 (dget_keys _ _ d q)) in Ch as (c & C). rewrite out_get, A, C. discriminate.
      + exfalso. unfold number in Q. destruct ((a =? 1) || (a =? n + 2)) eqn:O; [discriminate|].
        apply nth_error_None in Q. rewrite (proj1 (u_chosen _ _ _ U)) in Q.
        apply orb_false_iff in O as [O1 O2]. apply Nat.eqb_neq in O1, O2. lia.
    - cbn [view p_succ]. rewrite MS. intros a I. apply (Permutation_in _ S2) in I. apply in_seq in I. lia.
    - intros r I. rewrite names_view, MN. cbn [view p_nonren] in I. rewrite MR in I. unfold make_nonren in I.
      apply in_map_iff in I as ([r' b] & <- & I). apply filter_In in I as [I _].
      apply (proj2 (u_renewable _ _ _ U)). change r' with (fst (r', b)). apply in_map. exact I.
  Qed.

  Lemma out_demand a r t : In r (k_names k) -> demand (view m) modes a r = use_of k n modes a r t.
  Proof.
    intros I. assert (r <> "duration") as Nr by (intros ->; apply (u_names _ _ _ U); exact I).
    unfold demand, use_of. rewrite chosen_view, out_length. destruct (number (n + 2) modes a) as [q|]; [|reflexivity].
    rewrite out_get. destruct (dget (k_modes k) a) as [d|] eqn:A; [|reflexivity].
    destruct (dget d q) as [c|] eqn:C; [|reflexivity]. cbn [option_map].
    rewrite (need_view _ r Nr), (out_entry_get a q c r Nr).
    destruct (u_use _ _ _ U a d q c A C) as (u & E & _ & _ & Inc).
    assert (In r (use_names c)) as Ir by (subst c; apply Inc; exact I).
    rewrite (proj2 (pymem_true r _) Ir).
    destruct (use_listed a d q c r A C Ir) as (x & X). rewrite !X. reflexivity.
  Qed.

  Lemma out_running sch r t : In r (k_names k) -> running (view m) modes sch r t = load k n modes sch r t.
  Proof.
    intros I. unfold running, load. f_equal. apply map_ext. intros [a [s e]].
    destruct ((s <=? t)%Z && (t <? e)%Z); [|reflexivity]. apply out_demand. exact I.
  Qed.

  Lemma out_total r : In r (k_names k) -> total_demand (view m) modes r = use_of_all k n modes r.
  Proof.
    intros I. unfold total_demand, use_of_all, p_sink. cbn [view p_modes]. rewrite map_length, out_length. f_equal.
    apply map_ext. intros a. apply out_demand. exact I.
  Qed.

  Lemma nonren_in r : In r (d_nonren m) <-> In (r, false) (k_renewable k).
  Proof.
    rewrite MR. unfold make_nonren. rewrite in_map_iff. split.
    - intros ([r' b] & <- & I). apply filter_In in I as [I B]. cbn in *. destruct b; [discriminate|exact I].
    - intros I. exists (r, false). split; [reflexivity|]. apply filter_In. auto.
  Qed.

  Lemma out_checked sch flag e : Permutation (map fst sch) (seq 1 (n + 2)) -> (exists s, In (n + 2, (s, e)) sch) -> (0 < e)%Z ->
    match d_res m with Constant _ => True | Calendar c => forall r row, In (r, row) c -> d_horizon m * d_mult m <= length row end ->
    (forall r t, In r (k_names k) -> (Z.of_nat t < e)%Z -> exists x, capacity_of (view m) r t = Some x /\ k_quantity k r t = Ok x) ->
    exists b, satisfy (view m) modes sch flag = Ok b /\ (b = true <-> flag <> Some false /\ feasible k n modes sch e).
  Proof.
    intros P Mk Pos Rows Cap. pose proof (out_tasks Rows) as T.
    assert (makespan (view m) sch e) as Mk'.
    { destruct Mk as [s Mk]. exists s. rewrite (k_sink _ _ _ T). exact Mk. }
    destruct (C39_decides (view m) modes n sch flag e T P Mk') as (b & B & BB).
    { rewrite names_view, MN. intros r t I [Lt| ->]; [destruct (Cap r t I Lt) as (x & -> & _)|destruct (Cap r 0 I Pos) as (x & -> & _)]; discriminate. }
    { auto. }
    exists b. split; [exact B|]. rewrite BB. clear BB B.
    assert (forall r t c, capacity_of (view m) r t = Some c -> In r (k_names k)) as Nm.
    { rewrite <- MN. intros r t c0. unfold capacity_of, names_of. cbn [view p_res]. destruct (d_res m) as [c|c]; intros X.
      - apply (proj2 (dget_keys _ _ c r)). eauto.
      - destruct (dget c r) as [y|] eqn:Y; [|congruence]. apply (proj2 (dget_keys _ _ c r)). eauto. }
    split.
    - intros (H1 & H2 & H3 & H4). split; [exact H1|]. constructor.
      + intros a b0 l sa ea sb eb L. apply (H2 a b0 l sa ea sb eb). cbn [view p_succ]. rewrite MS. exact L.
      + intros r x I X. assert (In r (k_names k)) as J by (apply (proj2 (u_renewable _ _ _ U)); change r with (fst (r, false)); apply in_map; exact I).
        rewrite <- (out_total r J). destruct (Cap r 0 J Pos) as (y & Y & Y2). apply (H3 r x); [cbn [view p_nonren]; apply nonren_in; exact I|congruence].
      + intros r t x J Lt X. rewrite <- (out_running sch r _ J). destruct (Cap r t J Lt) as (y & Y & Y2). apply (H4 r t x Lt). congruence.
    - intros (H1 & [H2 H3 H4]). split; [exact H1|]. split.
      + intros a b0 l sa ea sb eb L. cbn [view p_succ] in L. rewrite MS in L. apply (H2 a b0 l sa ea sb eb L).
      + split.
        * intros r c I Hc. pose proof (Nm r 0 c Hc) as J. rewrite (out_total r J). cbn [view p_nonren] in I. apply nonren_in in I.
          destruct (Cap r 0 J Pos) as (y & Y & Y2). apply (H3 r c I). congruence.
        * intros r t c Lt Hc. pose proof (Nm r t c Hc) as J. rewrite (out_running sch r _ J).
          destruct (Cap r t J Lt) as (y & Y & Y2). apply (H4 r t c J Lt). congruence.
  Qed.
End Domain.

(** C119.  The optimisation problem built from a supported domain accepts a complete schedule exactly when the
    schedule is feasible in the terms of the domain (for calendars: a schedule within the horizon). *)
Theorem C119_feasible k n modes : supported k n modes -> exists m, build_do k = Ok (Some m) /\
  forall sch flag e, Permutation (map fst sch) (seq 1 (n + 2)) -> (exists s, In (n + 2, (s, e)) sch) -> (0 < e)%Z ->
    (k_kind k = KCalendar -> (e <= Z.of_nat (k_horizon k))%Z) ->
    exists b, satisfy (view m) modes sch flag = Ok b /\ (b = true <-> flag <> Some false /\ feasible k n modes sch e).
Proof.
  intros U. destruct (u_names _ _ _ U) as [N _]. pose proof (u_quantity _ _ _ U) as Q.
  assert (forall g, k_kind k <> KCalendar -> forall m, d_details m = out_details k -> d_succ m = k_succ k ->
    d_nonren m = make_nonren k -> d_res m = Constant (map (fun r => (r, val 0%Z (k_original k r))) (k_names k)) ->
    (forall r, In r (k_names k) -> exists x, k_original k r = Ok x /\ forall t, k_quantity k r t = Ok x) ->
    forall sch flag e, Permutation (map fst sch) (seq 1 (n + 2)) -> (exists s, In (n + 2, (s, e)) sch) -> (0 < e)%Z ->
    (k_kind k = KCalendar -> (e <= Z.of_nat (k_horizon k))%Z) -> g = tt ->
    exists b, satisfy (view m) modes sch flag = Ok b /\ (b = true <-> flag <> Some false /\ feasible k n modes sch e)) as Flat.
  { intros g NC m MD MS MR MC Qc sch flag e P Mk Pos _ _. apply (out_checked k n modes U m MD MS); auto.
    - unfold names_of. rewrite MC. unfold dkeys. rewrite map_map. apply map_id.
    - rewrite MC. exact I.
    - intros r t J _. destruct (Qc r J) as (x & X & Y). exists x. split; [|apply Y].
      unfold capacity_of. cbn [view p_res]. rewrite MC, dget_tab, (proj2 (pymem_true r _) J), X. reflexivity. }
  assert (k_kind k <> KCalendar -> make_dict (k_original k) (k_names k) = Ok (map (fun r => (r, val 0%Z (k_original k r))) (k_names k))) as Dict.
  { intros NC. apply make_dict_ok; [exact N|]. intros r I. specialize (Q r I).
    destruct (k_kind k); try contradiction; destruct Q as (x & -> & _); reflexivity. }
  unfold build_do. rewrite (out_ok k n modes U). pose proof (u_kind _ _ _ U) as Nk.
  destruct (k_kind k) eqn:Kd; try contradiction; cbn [bind].
  1-3: rewrite Dict by discriminate; cbn [bind]; eexists; split; [reflexivity|]; intros sch flag e P Mk Pos Hc;
       apply (Flat tt); auto; discriminate.
  rewrite (make_dict_ok _ _ (fun r => map (fun t => val 0%Z (k_quantity k r t)) (seq 0 (k_horizon k)))); [|exact N|].
  - cbn [bind]. eexists. split; [reflexivity|]. intros sch flag e P Mk Pos Hc. specialize (Hc eq_refl).
    apply (out_checked k n modes U); auto.
    + cbn. unfold names_of. cbn [d_res]. unfold dkeys. rewrite map_map. apply map_id.
    + cbn [d_res d_horizon d_mult]. intros r row I. apply in_map_iff in I as (r' & E & _). injection E as <- <-.
      rewrite map_length, seq_length. lia.
    + intros r t J Lt. unfold capacity_of. cbn [view p_res d_res]. rewrite dget_tab, (proj2 (pymem_true r _) J).
      destruct (Q r J t) as (x & X); [lia|]. exists x. split; [|exact X].
      rewrite nth_error_map, (nth_error_seq 0) by lia. cbn. rewrite X. reflexivity.
  - intros r I. apply mapM_total. intros t It. apply in_seq in It. destruct (Q r I t) as (x & ->); [lia|]. reflexivity.
Qed.

(** ** Examples *)

Definition ex_need (d r n : Z) : needs := [("R", r); ("N", n); ("duration", d)].
Definition ex_details : details :=
  [(1, [(1, ex_need 0 0 0)]); (2, [(1, ex_need 2 2 1)]); (3, [(1, ex_need 1 1 2); (2, ex_need 3 1 1)]);
   (4, [(1, ex_need 2 1 1)]); (5, [(1, ex_need 0 0 0)])].
Definition ex_do (c : capacities) (h mult : nat) : do_model := Do false c ["N"] ex_details (p_succ ex_p) h mult.
Definition ex_const : capacities := Constant [("R", 2%Z); ("N", 3%Z)].
(** The resource "R" has two units at times 3 and 4 only. *)
Definition ex_rows : list (string * list Z) :=
  [("R", [1; 1; 1; 2; 2; 1; 1; 0; 0; 0]%Z); ("N", repeat 3%Z 10)].

Lemma ex_regular c h mult : NoDup (match c with Constant d => dkeys d | Calendar d => dkeys d end) -> regular (ex_do c h mult).
Proof.
  intros N. constructor; [| | | |exact N|cbn; repeat constructor; cbn; intuition lia].
  - cbn. repeat constructor; cbn; intuition lia.
  - intros a d E. cbn in E. repeat (destruct a as [|a]; cbn in E; try discriminate); injection E as <-; cbn; repeat constructor; cbn; intuition lia.
  - intros a q e E. unfold entry in E. cbn in E. repeat (destruct a as [|a]; cbn in E; try discriminate);
      repeat (destruct q as [|q]; cbn in E; try discriminate); injection E as <-; cbn; repeat constructor; cbn; intuition congruence.
  - intros a q e E. unfold entry in E. cbn in E. repeat (destruct a as [|a]; cbn in E; try discriminate);
      repeat (destruct q as [|q]; cbn in E; try discriminate); injection E as <-; cbn; discriminate.
Qed.

Lemma ex_view_tasks : tasks (view (ex_do ex_const 10 1)) [1; 2; 1] 3.
Proof. exact ex_tasks. Qed.

Lemma ex_cal_tasks : tasks (view (ex_do (Calendar ex_rows) 10 1)) [1; 2; 1] 3.
Proof.
  destruct ex_tasks as [[A1 A2 A3 A4 A5 A6 A7 A8] B C D E F]. constructor; try assumption. constructor; try assumption.
  intros r row [I|[I|[]]]; injection I as <- <-; cbn; lia.
Qed.

Ltac ex_perm := cbn; apply perm_skip, perm_swap.

Example C118_ex :
  (exists k m', build_sk true (ex_do ex_const 10 1) = Ok k /\ build_do k = Ok (Some m') /\ k_names k = ["R"; "N"] /\
    satisfy (view m') [1; 2; 1] ex_sch None = Ok true /\ satisfy (view m') [1; 1; 1] ex_sch None = Ok false) /\
  (exists k m' b, build_sk true (ex_do (Calendar ex_rows) 10 1) = Ok k /\ build_do k = Ok (Some m') /\
    satisfy (view (ex_do (Calendar ex_rows) 10 1)) [1; 2; 1] ex_sch None = Ok b /\ satisfy (view m') [1; 2; 1] ex_sch None = Ok b) /\
  (exists k m', build_sk false (ex_do (Calendar ex_rows) 10 1) = Ok k /\ build_do k = Ok (Some m') /\
    satisfy (view m') [1; 2; 1] ex_sch None = Ok true).
Proof.
  split; [|split].
  - eexists. eexists. split; [reflexivity|]. split; [reflexivity|]. split; [reflexivity|]. split; vm_compute; reflexivity.
  - apply (C118_same_verdict true _ [1; 2; 1] 3 ex_sch None 7).
    + apply ex_regular. cbn. repeat constructor; cbn; intuition congruence.
    + cbn. intuition congruence.
    + cbn [ex_do d_res d_horizon]. split; [reflexivity|]. split; [lia|]. intros r row [I|[I|[]]]; injection I as <- <-; cbn; lia.
    + exact ex_cal_tasks.
    + ex_perm.
    + exists 7%Z. cbn. tauto.
    + lia.
  - destruct (C118_relaxed (ex_do (Calendar ex_rows) 10 1) ex_rows [1; 2; 1] 3 ex_sch None 7) as (k & m' & H1 & H2 & H3); auto.
    + apply ex_regular. cbn. repeat constructor; cbn; intuition congruence.
    + cbn. intuition congruence.
    + intros r row [I|[I|[]]]; injection I as <- <-; cbn; lia.
    + exact ex_cal_tasks.
    + ex_perm.
    + exists 7%Z. cbn. tauto.
    + lia.
    + exists k, m'. split; [exact H1|]. split; [exact H2|]. apply H3. vm_compute. reflexivity.
Qed.

(** A domain with the tasks of the example, written with the classes of the scheduling API. *)
Definition ex_use (r n : Z) : consumption := ConstantUse [("R", [r]); ("N", [n])].
Definition ex_durations (a q : nat) : res Z :=
  match a, q with
  | 1, 1 | 5, 1 => Ok 0%Z
  | 2, 1 | 4, 1 => Ok 2%Z
  | 3, 1 => Ok 1%Z
  | 3, 2 => Ok 3%Z
  | _, _ => Err KeyError
  end.
Definition ex_amount (r : string) : res Z := dgetE [("R", 2%Z); ("N", 3%Z)] r.
Definition ex_sk (kind : sk_kind) (quantity : string -> nat -> res Z) : sk_domain :=
  Sk kind ["R"; "N"] [1; 2; 3; 4; 5]
    [(1, [(1, ex_use 0 0)]); (2, [(1, ex_use 2 1)]); (3, [(1, ex_use 1 2); (2, ex_use 1 1)]);
     (4, [(1, ex_use 1 1)]); (5, [(1, ex_use 0 0)])]
    ex_durations ex_amount quantity [("R", true); ("N", false)] (p_succ ex_p) 10.

Lemma ex_supported kind q : kind <> KOther ->
  match kind with KCalendar => q = (fun r t => let* l := dgetE ex_rows r in lget l t) | _ => q = (fun r _ => ex_amount r) end ->
  supported (ex_sk kind q) 3 [1; 2; 1].
Proof.
  intros Nk Q. constructor.
  - exact Nk.
  - cbn. split; [repeat constructor; cbn; intuition congruence|intuition congruence].
  - apply Permutation_refl.
  - intros a d E. cbn in E. repeat (destruct a as [|a]; cbn in E; try discriminate); injection E as <-; cbn; (split; [|reflexivity]);
      repeat constructor; cbn; intuition lia.
  - intros a d p c E F. cbn in E. repeat (destruct a as [|a]; cbn in E; try discriminate); injection E as <-; cbn in F;
      repeat (destruct p as [|p]; cbn in F; try discriminate); injection F as <-;
      (eexists; split; [reflexivity|]; split; [cbn; repeat constructor; cbn; intuition congruence|];
       split; [intros r l [I|[I|[]]]; injection I as <- <-; discriminate|intros r I; exact I]).
  - intros a d p c E F. cbn in E. repeat (destruct a as [|a]; cbn in E; try discriminate); injection E as <-; cbn in F;
      repeat (destruct p as [|p]; cbn in F; try discriminate); cbn; eauto.
  - split; [reflexivity|]. intros a p d E F. cbn in F.
    repeat (destruct a as [|a]; cbn in F; try discriminate); injection F as <-; cbn in E; injection E as <-; reflexivity.
  - intros r [<-|[<-|[]]]; cbn [ex_sk k_kind k_original k_quantity k_horizon]; destruct kind; try contradiction; rewrite Q; cbn;
      try (eexists; split; [reflexivity|intros; reflexivity]);
      intros t Ht; do 10 (destruct t as [|t]; [cbn; eauto|]); lia.
  - cbn. split; [repeat constructor; cbn; intuition congruence|intros r I; exact I].
  - split; [cbn; repeat constructor; cbn; intuition lia|]. split; [apply Permutation_refl|]. split.
    + intros a l b E I. cbn in E. repeat (destruct a as [|a]; cbn in E; try discriminate); injection E as <-; cbn in I; lia.
    + exists (fun a => a). intros a l b E I. cbn in E.
      repeat (destruct a as [|a]; cbn in E; try discriminate); injection E as <-; cbn in I; lia.
Qed.

Example C119_ex : supported (ex_sk KMulti (fun r _ => ex_amount r)) 3 [1; 2; 1] /\
  supported (ex_sk KCalendar (fun r t => let* l := dgetE ex_rows r in lget l t)) 3 [1; 2; 1] /\
  feasible (ex_sk KCalendar (fun r t => let* l := dgetE ex_rows r in lget l t)) 3 [1; 2; 1] ex_sch 7 /\
  ~ feasible (ex_sk KCalendar (fun r t => let* l := dgetE ex_rows r in lget l t)) 3 [1; 2; 1] (dset ex_sch 2 (2, 4)%Z) 7.
Proof.
  assert (supported (ex_sk KCalendar (fun r t => let* l := dgetE ex_rows r in lget l t)) 3 [1; 2; 1]) as U
    by (apply ex_supported; [discriminate|reflexivity]).
  split; [apply ex_supported; [discriminate|reflexivity]|]. split; [exact U|].
  destruct (C119_feasible _ _ _ U) as (m & B & H). split.
  - destruct (H ex_sch None 7%Z) as (b & S & E).
    + ex_perm.
    + exists 7%Z. cbn. tauto.
    + lia.
    + cbn. lia.
    + apply E. assert (Some m = Some m) as X by reflexivity. vm_compute in B. injection B as <-. vm_compute in S. congruence.
  - destruct (H (dset ex_sch 2 (2, 4)%Z) None 7%Z) as (b & S & E).
    + ex_perm.
    + exists 7%Z. cbn. tauto.
    + lia.
    + cbn. lia.
    + intros F. assert (b = true) as -> by (apply E; split; [discriminate|exact F]).
      vm_compute in B. injection B as <-. vm_compute in S. discriminate.
Qed.

(** ** Findings *)

(** The multiplier of the horizon is lost: the schedule generation gives up on instances it could solve. *)
Theorem C118_multiplier_refuted : exists m k m' perm modes sch sch', regular m /\ build_sk true m = Ok k /\ build_do k = Ok (Some m') /\
  serial_sgs (view m) perm modes = Ok (modes, (sch, true)) /\ serial_sgs (view m') perm modes = Ok (modes, (sch', false)).
Proof.
  exists (ex_do ex_const 5 3). eexists. eexists. exists [2; 1; 0], [1; 2; 1]. eexists. eexists.
  split; [apply ex_regular; cbn; repeat constructor; cbn; intuition congruence|]. split; [reflexivity|].
  split; [reflexivity|]. split; vm_compute; reflexivity.
Qed.

(** A calendar shorter than the horizon cannot be translated back. *)
Theorem C118_short_calendar_refuted : exists m k, regular m /\ build_sk true m = Ok k /\ build_do k = Err IndexError.
Proof.
  exists (ex_do (Calendar ex_rows) 11 1). eexists. split; [apply ex_regular; cbn; repeat constructor; cbn; intuition congruence|].
  split; reflexivity.
Qed.

(** Without the calendars, schedules that use an absent resource are accepted. *)
Theorem C118_calendar_dropped_refuted : exists m k m' modes sch, regular m /\ build_sk false m = Ok k /\ build_do k = Ok (Some m') /\
  satisfy (view m) modes sch None = Ok false /\ satisfy (view m') modes sch None = Ok true.
Proof.
  exists (ex_do (Calendar [("R", [1; 1; 1; 2; 0; 1; 1; 0; 0; 0]%Z); ("N", repeat 3%Z 10)]) 10 1). eexists. eexists.
  exists [1; 2; 1], ex_sch. split; [apply ex_regular; cbn; repeat constructor; cbn; intuition congruence|].
  split; [reflexivity|]. split; [reflexivity|]. split; vm_compute; reflexivity.
Qed.

(** A single-mode problem whose mode is not numbered 1 is refused. *)
Theorem C118_first_mode_refuted : exists m, regular m /\ d_single m = true /\
  (forall a d, dget (d_details m) a = Some d -> length d = 1) /\ build_sk true m = Err KeyError.
Proof.
  exists (Do true ex_const [] [(1, [(2, ex_need 1 1 1)])] [] 5 1). split.
  - constructor.
    + cbn. repeat constructor; cbn; intuition lia.
    + intros a d E. cbn in E. repeat (destruct a as [|a]; cbn in E; try discriminate); injection E as <-; cbn; repeat constructor; cbn; intuition lia.
    + intros a q e E. unfold entry in E. cbn in E. repeat (destruct a as [|a]; cbn in E; try discriminate);
      repeat (destruct q as [|q]; cbn in E; try discriminate); injection E as <-; cbn; repeat constructor; cbn; intuition congruence.
    + intros a q e E. unfold entry in E. cbn in E. repeat (destruct a as [|a]; cbn in E; try discriminate);
      repeat (destruct q as [|q]; cbn in E; try discriminate); injection E as <-; cbn; discriminate.
    + cbn. repeat constructor; cbn; intuition congruence.
    + cbn. constructor.
  - split; [reflexivity|]. split; [|reflexivity].
    intros a d E. cbn in E. repeat (destruct a as [|a]; cbn in E; try discriminate); injection E as <-; reflexivity.
Qed.

(** A single-mode problem comes back as a multi-mode one. *)
Theorem C118_single_refuted : exists m k m', regular m /\ d_single m = true /\ build_sk true m = Ok k /\ build_do k = Ok (Some m') /\
  d_single m' = false.
Proof.
  exists (Do true ex_const ["N"] ex_details (p_succ ex_p) 10 1). eexists. eexists.
  split; [exact (ltac:(destruct (ex_regular ex_const 10 1) as [A B C D E F];
    [cbn; repeat constructor; cbn; intuition congruence|constructor; assumption]))|].
  split; [reflexivity|]. split; [reflexivity|]. split; reflexivity.
Qed.

(** A consumption that varies is read at time 0 only: a schedule that overloads a resource is accepted. *)
Theorem C119_varying_refuted : exists k m n modes sch e, build_do k = Ok (Some m) /\ k_kind k = KMulti /\
  Permutation (map fst sch) (seq 1 (n + 2)) /\ In (n + 2, (e, e)) sch /\
  satisfy (view m) modes sch None = Ok true /\ ~ feasible k n modes sch e.
Proof.
  exists (Sk KMulti ["R"] [1; 2; 3]
    [(1, [(1, ConstantUse [("R", [0%Z])])]); (2, [(1, VaryingUse [("R", [1; 5]%Z)])]); (3, [(1, ConstantUse [("R", [0%Z])])])]
    (fun a _ => Ok (if a =? 2 then 2%Z else 0%Z)) (fun _ => Ok 2%Z) (fun _ _ => Ok 2%Z) [("R", true)] [(1, [2]); (2, [3]); (3, [])] 10).
  eexists. exists 1, [1], [(1, (0, 0)%Z); (2, (0, 2)%Z); (3, (2, 2)%Z)], 2%Z.
  split; [reflexivity|]. split; [reflexivity|]. split; [apply Permutation_refl|]. split; [cbn; tauto|]. split; [vm_compute; reflexivity|].
  intros F. pose proof (f_load _ _ _ _ _ F "R" 1 2%Z (or_introl eq_refl) ltac:(lia) eq_refl) as X. vm_compute in X. congruence.
Qed.

(** A mode that leaves out the resources it does not use makes the check fail. *)
Theorem C119_sparse_refuted : exists k m n modes sch e, build_do k = Ok (Some m) /\ k_kind k = KMulti /\
  Permutation (map fst sch) (seq 1 (n + 2)) /\ In (n + 2, (e, e)) sch /\ feasible k n modes sch e /\
  satisfy (view m) modes sch None = Err KeyError.
Proof.
  exists (Sk KMulti ["R"] [1; 2; 3]
    [(1, [(1, ConstantUse [])]); (2, [(1, ConstantUse [])]); (3, [(1, ConstantUse [])])]
    (fun a _ => Ok (if a =? 2 then 2%Z else 0%Z)) (fun _ => Ok 2%Z) (fun _ _ => Ok 2%Z) [("R", true)] [(1, [2]); (2, [3]); (3, [])] 10).
  eexists. exists 1, [1], [(1, (0, 0)%Z); (2, (0, 2)%Z); (3, (2, 2)%Z)], 2%Z.
  split; [reflexivity|]. split; [reflexivity|]. split; [apply Permutation_refl|]. split; [cbn; tauto|]. split; [|vm_compute; reflexivity].
  constructor.
  - intros a b l sa ea sb eb L B I J. cbn in L, I, J.
    repeat (destruct a as [|a]; cbn in L; try discriminate); injection L as <-; cbn in B; try tauto; destruct B as [<-|[]];
      repeat match goal with H : _ \/ _ |- _ => destruct H | H : False |- _ => destruct H end; try congruence;
      repeat match goal with H : (_, _) = (_, _) |- _ => injection H as ?; subst end; lia.
  - intros r x [I|[]]. discriminate.
  - intros r t x [<-|[]] Lt X. injection X as <-. assert (t = 0 \/ t = 1) as [->| ->] by lia; vm_compute; discriminate.
Qed.

(** The multi-mode domains with uncertain durations are not translated at all. *)
Theorem C119_unsupported_refuted : exists k : sk_domain, k_kind k = KOther /\ build_do k = Ok None.
Proof. exists (ex_sk KOther (fun r _ => ex_amount r)). split; reflexivity. Qed.

(** The need of a resource called "duration" is replaced by the duration. *)
Theorem C119_duration_name_refuted : exists k m n modes sch e, build_do k = Ok (Some m) /\ k_kind k = KMulti /\
  Permutation (map fst sch) (seq 1 (n + 2)) /\ In (n + 2, (e, e)) sch /\ ~ feasible k n modes sch e /\
  (exists x, entry m 2 1 = Some x /\ dget x "duration" = Some 1%Z) /\ use_of k n modes 2 "duration" 0 = 5%Z.
Proof.
  exists (Sk KMulti ["duration"] [1; 2; 3]
    [(1, [(1, ConstantUse [("duration", [0%Z])])]); (2, [(1, ConstantUse [("duration", [5%Z])])]); (3, [(1, ConstantUse [("duration", [0%Z])])])]
    (fun a _ => Ok (if a =? 2 then 1%Z else 0%Z)) (fun _ => Ok 2%Z) (fun _ _ => Ok 2%Z) [("duration", true)] [(1, [2]); (2, [3]); (3, [])] 10).
  eexists. exists 1, [1], [(1, (0, 0)%Z); (2, (0, 1)%Z); (3, (1, 1)%Z)], 1%Z.
  split; [reflexivity|]. split; [reflexivity|]. split; [apply Permutation_refl|]. split; [cbn; tauto|].
  split; [|split; [eexists; split; reflexivity|reflexivity]].
  intros F. pose proof (f_load _ _ _ _ _ F "duration" 0 2%Z (or_introl eq_refl) ltac:(lia) eq_refl) as X. vm_compute in X. congruence.
Qed.

Print Assumptions C118_constant.
Print Assumptions C118_calendar.
Print Assumptions C118_no_calendar.
Print Assumptions C118_same_verdict.
Print Assumptions C118_relaxed.
Print Assumptions C119_feasible.
