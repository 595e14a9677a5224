(** C112-C113: hashable gym observations, domains as gym environments. *)
From Coq Require Import String.
From Coq Require Import List Bool Arith ZArith Lia.
Import ListNotations.
From Verif Require Import Py PyList GymFeatModel GymFeatSpec GymFeatProofs GymBitsProofs SpaceModel GymProxyModel.
Open Scope nat_scope.

(** No NaN anywhere in an observation. *)
Definition nan_free (e : gelem num) : Prop := ~ In NaN (cells e).

(** Keys of dictionaries are distinct; [multi_discrete]-free spaces. *)
Fixpoint distinct_keys (sp : gspace) : Prop :=
  match sp with
  | GTuple l => (fix all (l : list gspace) : Prop :=
                   match l with [] => True | s :: r => distinct_keys s /\ all r end) l
  | GDict l => NoDup (map fst l) /\
               (fix all (l : list (string * gspace)) : Prop :=
                   match l with [] => True | (_, s) :: r => distinct_keys s /\ all r end) l
  | _ => True
  end.
Fixpoint no_multi_discrete (sp : gspace) : Prop :=
  match sp with
  | GMultiDiscrete _ => False
  | GTuple l => (fix all (l : list gspace) : Prop :=
                   match l with [] => True | s :: r => no_multi_discrete s /\ all r end) l
  | GDict l => (fix all (l : list (string * gspace)) : Prop :=
                   match l with [] => True | (_, s) :: r => no_multi_discrete s /\ all r end) l
  | _ => True
  end.

(** ** Proofs *)

Section Ind.
  Variable P : gspace -> Prop.
  Hypothesis HT : forall l, Forall P l -> P (GTuple l).
  Hypothesis HK : forall l, Forall (fun p => P (snd p)) l -> P (GDict l).
  Hypothesis HO : forall sp, (forall l, sp <> GTuple l) -> (forall l, sp <> GDict l) -> P sp.
  Fixpoint gspace_ind2 (sp : gspace) : P sp :=
    match sp with
    | GTuple l => HT l ((fix go l : Forall P l :=
        match l with [] => Forall_nil P | s :: r => Forall_cons s (gspace_ind2 s) (go r) end) l)
    | GDict l => HK l ((fix go l : Forall (fun p => P (snd p)) l :=
        match l with
        | [] => Forall_nil _
        | s :: r => @Forall_cons _ (fun p => P (snd p)) s r (gspace_ind2 (snd s)) (go r)
        end) l)
    | sp' => HO sp' ltac:(intros; discriminate) ltac:(intros; discriminate)
    end.
End Ind.

Lemma list_eq_true : forall l l', list_eq l l' = true <-> l = l' /\ ~ In NaN l.
Proof.
  induction l as [|x l IH]; intros [|y l']; simpl; split; try discriminate; auto.
  - intros [H _]. discriminate.
  - intros [H _]. discriminate.
  - intros H. apply andb_prop in H. destruct H as [H1 H2]. apply IH in H2. destruct H2 as [-> H2].
    destruct x as [x|], y as [y|]; try discriminate. apply Z.eqb_eq in H1. subst y.
    split; auto. intros [K|K]; [discriminate|auto].
  - intros [H1 H2]. injection H1 as <- <-. destruct x as [x|]; [|exfalso; apply H2; auto].
    cbn. rewrite Z.eqb_refl. apply IH. split; auto.
Qed.

Lemma flatten_nan : forall sp e, fits sp e -> (In NaN (flatten e) <-> In NaN (cells e)).
Proof.
  intros sp. induction sp as [l IH|l IH|sp N1 N2] using gspace_ind2; intros e F.
  - destruct e as [| | |es|]; try contradiction F. cbn [flatten cells]. revert es F.
    induction IH as [|s r H1 IHr IHs]; intros [|x t] F; try contradiction F; [reflexivity|].
    destruct F as [F1 F2]. cbn [flat_map]. rewrite !in_app_iff, (H1 x F1), (IHs t F2). reflexivity.
  - destruct e as [| | | |es]; try contradiction F. cbn [flatten cells]. revert es F.
    induction IH as [|[k s] r H1 IHr IHs]; intros [|[k' x] t] F; try contradiction F; [reflexivity|].
    destruct F as (_ & F1 & F2). cbn [flat_map snd]. rewrite !in_app_iff, (H1 x F1), (IHs t F2). reflexivity.
  - destruct sp; try contradiction F; destruct e; try contradiction F; cbn [flatten GymFeatSpec.cells]; try reflexivity.
    + split; [intros [K|[]]; discriminate|intros []].
    + split; [|intros []]. intros K. apply in_map_iff in K. destruct K as (? & K & _). discriminate.
    + split; [|intros []]. intros K. apply in_map_iff in K. destruct K as (? & K & _). discriminate.
    + exfalso. eapply N1. reflexivity.
    + exfalso. eapply N2. reflexivity.
Qed.

Lemma flatten_len : forall sp e e', fits sp e -> fits sp e' -> length (flatten e) = length (flatten e').
Proof.
  intros sp. induction sp as [l IH|l IH|sp N1 N2] using gspace_ind2; intros e e' F F'.
  - destruct e as [| | |es|]; try contradiction F. destruct e' as [| | |es'|]; try contradiction F'.
    cbn [flatten]. revert es es' F F'.
    induction IH as [|s r H1 IHr IHs]; intros [|x t] [|y t'] F F'; try contradiction F; try contradiction F'; auto.
    destruct F as [F1 F2], F' as [F1' F2']. cbn [flat_map]. rewrite !app_length.
    rewrite (H1 x y F1 F1'), (IHs t t' F2 F2'). reflexivity.
  - destruct e as [| | | |es]; try contradiction F. destruct e' as [| | | |es']; try contradiction F'.
    cbn [flatten]. revert es es' F F'.
    induction IH as [|[k s] r H1 IHr IHs]; intros [|[k1 x] t] [|[k2 y] t'] F F'; try contradiction F; try contradiction F'; auto.
    destruct F as (_ & F1 & F2), F' as (_ & F1' & F2'). cbn [flat_map snd]. rewrite !app_length.
    rewrite (H1 x y F1 F1'), (IHs t t' F2 F2'). reflexivity.
  - assert (FL : forall (nvec l : list Z), Forall2 (fun n z => (0 <= z < n)%Z) nvec l -> length nvec = length l)
      by (clear; intros nvec l F; induction F; simpl; auto).
    destruct sp; try contradiction F; destruct e; try contradiction F; destruct e'; try contradiction F';
      cbn [flatten fits] in *; rewrite ?map_length; try (simpl; congruence).
    + rewrite <- (FL _ _ F), <- (FL _ _ F'). reflexivity.
    + destruct F, F'. congruence.
    + exfalso. eapply N1. reflexivity.
    + exfalso. eapply N2. reflexivity.
Qed.

Lemma flatten_inj : forall sp e e', fits sp e -> fits sp e' -> flatten e = flatten e' -> e = e'.
Proof.
  intros sp. induction sp as [l IH|l IH|sp N1 N2] using gspace_ind2; intros e e' F F'.
  - destruct e as [| | |es|]; try contradiction F. destruct e' as [| | |es'|]; try contradiction F'.
    cbn [flatten]. intros E. f_equal. revert es es' F F' E.
    induction IH as [|s r H1 IHr IHs]; intros [|x t] [|y t'] F F' E; try contradiction F; try contradiction F'; auto.
    destruct F as [F1 F2], F' as [F1' F2']. cbn [flat_map] in E.
    apply app_inj_len in E; [|eapply flatten_len; eauto]. destruct E as [E1 E2].
    f_equal; [apply H1|apply IHs]; auto.
  - destruct e as [| | | |es]; try contradiction F. destruct e' as [| | | |es']; try contradiction F'.
    cbn [flatten]. intros E. f_equal. revert es es' F F' E.
    induction IH as [|[k s] r H1 IHr IHs]; intros [|[k1 x] t] [|[k2 y] t'] F F' E; try contradiction F; try contradiction F'; auto.
    destruct F as (<- & F1 & F2), F' as (<- & F1' & F2'). cbn [flat_map snd] in E.
    apply app_inj_len in E; [|eapply flatten_len; eauto]. destruct E as [E1 E2].
    f_equal; [f_equal; apply H1|apply IHs]; auto.
  - assert (MI : forall l l', map Num l = map Num l' -> l = l').
    { clear. induction l as [|x l IH]; intros [|y l'] E; try discriminate; auto. injection E as -> E. f_equal. auto. }
    destruct sp; try contradiction F; destruct e; try contradiction F; destruct e'; try contradiction F';
      cbn [flatten] in *; intros E.
    + congruence.
    + congruence.
    + f_equal. apply MI. exact E.
    + f_equal. apply MI. exact E.
    + exfalso. eapply N1. reflexivity.
    + exfalso. eapply N2. reflexivity.
Qed.

Lemma fits_array : forall sp e, fits sp e -> (exists n, sp = GBox n) \/ (exists n, sp = GMultiBinary n) ->
  array_of e = Some (flatten e).
Proof.
  intros sp e F [[n ->]|[n ->]]; destruct e; try contradiction F; reflexivity.
Qed.

Lemma set_same_refl : forall l, set_same l l = true.
Proof.
  intros l. unfold set_same. assert (H : forallb (fun k => pymem k l) l = true).
  { apply forallb_forall. intros x I. apply pymem_true. exact I. }
  rewrite H. reflexivity.
Qed.

Lemma dict_fits : forall (kvs : list (string * gspace)) (es : list (string * gelem num)),
  fits (GDict kvs) (EDict es) -> map fst es = map fst kvs.
Proof.
  induction kvs as [|[k s] r IH]; intros [|[k' x] t] F; try contradiction F; auto.
  destruct F as (<- & _ & F). simpl. f_equal. apply IH. exact F.
Qed.

Lemma are_same_ok : forall sp e1 e2, no_multi_discrete sp -> distinct_keys sp -> fits sp e1 -> fits sp e2 ->
  are_same sp e1 e2 = Ok (list_eq (flatten e1) (flatten e2)).
Proof.
  assert (LA : forall a b c d, length a = length c -> list_eq (a ++ b) (c ++ d) = list_eq a c && list_eq b d).
  { induction a as [|x a IH]; intros b [|y c] d L; try discriminate; auto.
    cbn [app list_eq]. rewrite IH by (simpl in L; lia). apply andb_assoc. }
  intros sp. induction sp as [l IH|l IH|sp N1 N2] using gspace_ind2; intros e e' M DK F F'.
  - destruct e as [| | |es|]; try contradiction F. destruct e' as [| | |es'|]; try contradiction F'.
    assert (LN : forall (sps : list gspace) (es : list (gelem num)), fits (GTuple sps) (ETuple es) -> length es = length sps).
    { clear. induction sps as [|s r IH]; intros [|x t] F; try contradiction F; auto.
      destruct F as [_ F]. simpl. f_equal. apply IH. exact F. }
    cbn [are_same flatten]. rewrite (LN _ _ F), (LN _ _ F'), !Nat.eqb_refl. cbn [andb].
    clear LN. revert es es' M DK F F'.
    induction IH as [|s r H1 IHr IHs]; intros [|x t] [|y t'] M DK F F'; try contradiction F; try contradiction F'; auto.
    destruct F as [F1 F2], F' as [F1' F2'], M as [M1 M2], DK as [D1 D2]. cbn [flat_map].
    rewrite LA by (eapply flatten_len; eauto). rewrite (H1 x y M1 D1 F1 F1'). cbn [bind].
    destruct (list_eq (flatten x) (flatten y)); [|reflexivity]. apply IHs; auto.
  - destruct e as [| | | |es]; try contradiction F. destruct e' as [| | | |es']; try contradiction F'.
    cbn [are_same flatten]. rewrite (dict_fits _ _ F), (dict_fits _ _ F'), !set_same_refl. cbn [andb].
    destruct DK as [ND DK].
    assert (G : forall l es es' pre pre', Forall (fun p => forall e e', no_multi_discrete (snd p) -> distinct_keys (snd p) ->
                  fits (snd p) e -> fits (snd p) e' -> are_same (snd p) e e' = Ok (list_eq (flatten e) (flatten e'))) l ->
                no_multi_discrete (GDict l) ->
                (fix all (l : list (string * gspace)) : Prop :=
                   match l with [] => True | (_, s) :: r => distinct_keys s /\ all r end) l ->
                NoDup (map fst l) ->
                (forall k, In k (map fst l) -> ~ In k (map fst pre) /\ ~ In k (map fst pre')) ->
                fits (GDict l) (EDict es) -> fits (GDict l) (EDict es') ->
                (fix go (kvs : list (string * gspace)) : res bool :=
                   match kvs with
                   | [] => Ok true
                   | (k, s) :: r =>
                       let* x := dgetE (pre ++ es) k in
                       let* y := dgetE (pre' ++ es') k in
                       let* b := are_same s x y in if b then go r else Ok false
                   end) l =
                Ok (list_eq (flat_map (fun p => flatten (snd p)) es) (flat_map (fun p => flatten (snd p)) es'))).
    { clear - LA. induction l as [|[k s] r IH]; intros [|[k1 x] t] [|[k2 y] t'] pre pre' H M DK ND FR F F';
        try contradiction F; try contradiction F'; auto.
      destruct F as (<- & F1 & F2), F' as (<- & F1' & F2'), M as [M1 M2], DK as [D1 D2].
      inversion H as [|? ? H1 H2]; subst. inversion ND as [|? ? N1 N2]; subst. cbn [snd] in H1.
      assert (DG : forall (p : list (string * gelem num)) x t, ~ In k (map fst p) -> dgetE (p ++ (k, x) :: t) k = Ok x).
      { clear. induction p as [|[k' v] p IH]; intros x t N; unfold dgetE in *; cbn [app dget] in *.
        - rewrite pyeqb_refl. reflexivity.
        - cbn [map fst] in N. destruct (pyeqb_spec k k') as [->|]; [exfalso; apply N; left; reflexivity|]. apply IH. simpl in N. tauto. }
      destruct (FR k (or_introl eq_refl)) as [FR1 FR2]. rewrite (DG pre x t FR1), (DG pre' y t' FR2). cbn [bind].
      cbn [flat_map snd]. rewrite LA by (eapply flatten_len; eauto). rewrite (H1 x y M1 D1 F1 F1'). cbn [bind].
      destruct (list_eq (flatten x) (flatten y)); [|reflexivity]. cbn [andb].
      specialize (IH t t' (pre ++ [(k, x)]) (pre' ++ [(k, y)]) H2 M2 D2 N2). rewrite <- !app_assoc in IH. apply IH; auto.
      intros k' I. rewrite !map_app, !in_app_iff. destruct (FR k' (or_intror I)) as [A B]. cbn.
      split; intros [K|[K|[]]]; auto; subst k'; contradiction. }
    apply (G l es es' [] []); auto.
  - destruct sp; try contradiction F; try contradiction M.
    + cbn [are_same]. rewrite (fits_array _ _ F), (fits_array _ _ F') by eauto.
      unfold arrays_same. rewrite (flatten_len _ _ _ F F'), Nat.eqb_refl. reflexivity.
    + destruct e; try contradiction F. destruct e'; try contradiction F'. cbn. rewrite andb_true_r. reflexivity.
    + cbn [are_same]. rewrite (fits_array _ _ F), (fits_array _ _ F') by eauto.
      unfold arrays_same. rewrite (flatten_len _ _ _ F F'), Nat.eqb_refl. reflexivity.
    + exfalso. eapply N1. reflexivity.
    + exfalso. eapply N2. reflexivity.
Qed.

(** ** C112 *)

(** Two NaN-free observations of one space compare equal exactly when they are equal. *)
Theorem C112_equal : forall sp a b, fits sp a -> fits sp b -> nan_free a ->
  exists r, proxy_eq a (Some b) = Ok r /\ (r = true <-> a = b).
Proof.
  intros sp a b Fa Fb NA. eexists. split; [reflexivity|]. rewrite list_eq_true. split.
  - intros [E _]. eapply flatten_inj; eauto.
  - intros <-. split; auto. intros K. apply NA. apply (proj1 (flatten_nan _ _ Fa)). exact K.
Qed.
Example C112_equal_ex :
  let sp := GTuple [GBox 2; GDict [("a"%string, GDiscrete 3)]] in
  let a := ETuple [EArr [Num 1; Num 2]; EDict [("a"%string, EInt 2)]]%Z in
  let b := ETuple [EArr [Num 1; Num 2]; EDict [("a"%string, EInt 1)]]%Z in
  fits sp a /\ fits sp b /\ nan_free a /\ proxy_eq a (Some a) = Ok true /\ proxy_eq a (Some b) = Ok false.
Proof.
  cbn. repeat split; auto; try lia. intros [K|[K|[]]]; discriminate.
Qed.
Print Assumptions C112_equal.

(** On any observations, equality is symmetric and transitive, and equal observations have equal hashes. *)
Theorem C112_hash : forall hash_tuple a b c,
  (proxy_eq a (Some b) = proxy_eq b (Some a)) /\
  (proxy_eq a (Some b) = Ok true -> proxy_eq b (Some c) = Ok true -> proxy_eq a (Some c) = Ok true) /\
  (proxy_eq a (Some b) = Ok true -> proxy_hash hash_tuple a = proxy_hash hash_tuple b).
Proof.
  assert (SY : forall l l', list_eq l l' = list_eq l' l).
  { induction l as [|x l IH]; intros [|y l']; auto. cbn. rewrite IH. f_equal.
    destruct x, y; auto. apply Z.eqb_sym. }
  intros hash_tuple a b c. unfold proxy_eq, proxy_hash. split; [f_equal; apply SY|]. split.
  - intros A B. injection A as A. injection B as B. apply list_eq_true in A. apply list_eq_true in B.
    f_equal. apply list_eq_true. destruct A as [E1 A], B as [E2 _]. split; [congruence|exact A].
  - intros A. injection A as A. apply list_eq_true in A. destruct A as [-> _]. reflexivity.
Qed.
Example C112_hash_ex :
  proxy_eq (ETuple [EInt 1; EInts [2; 3]])%Z (Some (ETuple [EInt 1; EInts [2; 3]])%Z) = Ok true.
Proof. reflexivity. Qed.
Print Assumptions C112_hash.

(** The comparison of the planning domain with its initial observation agrees with this equality on
    spaces without MultiDiscrete components. *)
Theorem C112_same : forall sp a b, no_multi_discrete sp -> distinct_keys sp -> fits sp a -> fits sp b -> nan_free a ->
  exists r, are_same sp a b = Ok r /\ (r = true <-> a = b).
Proof.
  intros sp a b M DK Fa Fb NA. rewrite (are_same_ok sp a b M DK Fa Fb).
  destruct (C112_equal sp a b Fa Fb NA) as (r & E & R). injection E as <-. eexists. split; [reflexivity|exact R].
Qed.
Example C112_same_ex :
  let sp := GTuple [GBox 2; GDict [("a"%string, GDiscrete 3)]] in
  no_multi_discrete sp /\ distinct_keys sp /\
  are_same sp (ETuple [EArr [Num 1; Num 2]; EDict [("a"%string, EInt 2)]])%Z
              (ETuple [EArr [Num 1; Num 2]; EDict [("a"%string, EInt 1)]])%Z = Ok false.
Proof. cbn. repeat split; auto. constructor; [intros []|constructor]. Qed.
Print Assumptions C112_same.

(** On MultiDiscrete observations that comparison raises RuntimeError, so the planning domain cannot
    expand any state. *)
Theorem C112_multi_discrete_refuted : exists sp a, fits sp a /\ are_same sp a a = Err RuntimeError.
Proof.
  exists (GMultiDiscrete [2; 2]%Z), (EInts [0; 1]%Z). split; [|reflexivity].
  cbn. repeat constructor; lia.
Qed.
Print Assumptions C112_multi_discrete_refuted.

(** A state with a NaN is not equal to itself. *)
Theorem C112_nan_refuted : exists sp a, fits sp a /\ proxy_eq a (Some a) = Ok false.
Proof. exists (GBox 1), (EArr [NaN]). split; reflexivity. Qed.
Print Assumptions C112_nan_refuted.

(** The nesting is forgotten: states of different shapes compare equal; and dictionaries are compared
    in insertion order without their keys: equal dictionaries built in another order compare
    different. *)
Theorem C112_structure_refuted : exists a b d d' x y,
  a <> b /\ proxy_eq a (Some b) = Ok true /\
  d = EDict [("u"%string, x); ("v"%string, y)] /\ d' = EDict [("v"%string, y); ("u"%string, x)] /\
  proxy_eq d (Some d') = Ok false.
Proof.
  exists (ETuple [ETuple [EInt 1; EInt 2]; EInt 3])%Z, (ETuple [EInt 1; ETuple [EInt 2; EInt 3]])%Z,
    (EDict [("u"%string, EInt 1%Z); ("v"%string, EInt 2%Z)]), (EDict [("v"%string, EInt 2%Z); ("u"%string, EInt 1%Z)]),
    (EInt 1%Z), (EInt 2%Z).
  split; [discriminate|]. repeat split; reflexivity.
Qed.
Print Assumptions C112_structure_refuted.

(** Comparing a state with anything that is not a state raises instead of answering no. *)
Theorem C112_other_object_refuted : exists a, proxy_eq a None = Err AttributeError.
Proof. exists (EInt 0%Z). reflexivity. Qed.
Print Assumptions C112_other_object_refuted.

(** ** C113 *)

(** What a client of a gym environment observes. *)
Inductive gop (A : Type) := GReset | GStep (a : A).
Arguments GReset {A}.
Arguments GStep {A} a.
Inductive seen_by (O Info : Type) := SeenReset (o : O) | SeenStep (o : O) (r : Z) (done : bool) (i : Info).
Arguments SeenReset {O Info} o.
Arguments SeenStep {O Info} o r done i.

Section Client.
  Variables (S A O Info : Type) (step : S -> A -> res (S * (O * Z * bool * Info))) (reset : S -> S * O).
  Fixpoint client (s : S) (l : list (gop A)) : res (list (seen_by O Info)) :=
    match l with
    | [] => Ok []
    | GReset :: r => let* t := client (fst (reset s)) r in Ok (SeenReset (snd (reset s)) :: t)
    | GStep a :: r =>
        let* x := step s a in
        let '(o, rew, d, i) := snd x in
        let* t := client (fst x) r in Ok (SeenStep o rew d i :: t)
    end.
End Client.

(** A gym environment wrapped as a domain and back is indistinguishable from itself, whatever the
    sequence of calls, except that a missing info becomes the empty one. *)
Theorem C113_round_trip : forall E A O Info (env_step : E -> A -> E * (O * Z * bool * option Info))
    (env_reset : E -> E * O) (no_info : Info) e l,
  client _ _ _ _ (as_step (gymdom_step env_step) gs_id gs_id no_info) (as_reset (gymdom_reset env_reset)) e l =
  client _ _ _ _ (fun e a => let '(e', (o, r, d, i)) := env_step e a in
                             Ok (e', (o, r, d, match i with Some x => x | None => no_info end))) env_reset e l.
Proof.
  intros E A O Info env_step env_reset no_info e l. revert e.
  induction l as [|[|a] l IH]; intros e; cbn [client]; [reflexivity| |].
  - rewrite IH. reflexivity.
  - unfold as_step, gymdom_step, gs_id. cbn [bind].
    destruct (env_step e a) as [e' [[[o r] d] i]]. cbn [bind fst snd]. rewrite IH. reflexivity.
Qed.
Print Assumptions C113_round_trip.

(** With list spaces (elements encoded by their position), a step with the code of an action performs
    that action and returns the code of the observation. *)
Theorem C113_list_spaces : forall S A O Info {EA : PyEq A} {EO : PyEq O}
    (dom_step : S -> A -> S * (O * Z * bool * option Info)) (no_info : Info) acts obs s k a,
  nth_error acts k = Some a -> In (fst (fst (fst (snd (dom_step s a))))) obs ->
  exists s' j o r d i,
    as_step dom_step (ls_from acts) (ls_to obs) no_info s (Z.of_nat k) =
      Ok (s', (j, r, d, match i with Some x => x | None => no_info end)) /\
    dom_step s a = (s', (o, r, d, i)) /\
    nth_error obs j = Some o /\ forall j', j' < j -> nth_error obs j' <> Some o.
Proof.
  intros S A O Info EA EO dom_step no_info acts obs s k a K ALL.
  destruct (dom_step s a) as [s' [[[o r] d] i]] eqn:ST.
  assert (IX : exists j, list_index obs o = Ok j /\ nth_error obs j = Some o /\ forall j', j' < j -> nth_error obs j' <> Some o).
  { cbn in ALL. revert ALL. clear. induction obs as [|x l IH]; intros I; [destruct I|]. cbn [list_index].
    destruct (pyeqb_spec o x) as [->|N].
    - exists 0. split; [reflexivity|]. split; [reflexivity|]. intros; lia.
    - destruct I as [I|I]; [congruence|]. destruct (IH I) as (j & -> & J1 & J2). exists (Datatypes.S j).
      split; [reflexivity|]. split; [exact J1|]. intros [|j'] L; cbn; [congruence|]. apply J2. lia. }
  destruct IX as (j & IX & J1 & J2). exists s', j, o, r, d, i.
  split; [|auto]. unfold as_step, ls_from, ls_to, zget, zpos.
  assert (L : k < length acts) by (apply nth_error_Some; congruence).
  destruct (Z.ltb_spec (Z.of_nat k) 0); [lia|].
  destruct (Z.ltb_spec (Z.of_nat k) 0); [lia|]. destruct (Z.leb_spec (Z.of_nat (length acts)) (Z.of_nat k)); [lia|].
  cbn [orb]. rewrite Nat2Z.id. unfold lget. rewrite K. cbn [bind]. rewrite ST. cbn [bind]. rewrite IX. reflexivity.
Qed.
Example C113_list_spaces_ex :
  as_step (fun (s : nat) (a : bool) => (s, (negb a, 1%Z, false, None))) (ls_from [true; false]) (ls_to [true; false])
    tt 0 1%Z = Ok (0, (0, 1%Z, false, tt)).
Proof. reflexivity. Qed.
Print Assumptions C113_list_spaces.

(** But [reset] forgets to encode: with a list space of observations, the first observation is the
    raw element, not the code that [step] would return for the same observation. *)
Theorem C113_reset_refuted : exists (dom_step : bool -> bool -> bool * (string * Z * bool * option unit))
    (dom_reset : bool -> bool * string) obs s,
  (forall x a, In (fst (fst (fst (snd (dom_step x a))))) obs) /\ In (snd (dom_reset s)) obs /\
  as_reset dom_reset s = (true, "left"%string) /\
  as_step dom_step (ls_from [true; false]) (ls_to obs) tt true 0%Z = Ok (true, (0, 0%Z, false, tt)) /\
  snd (dom_step true true) = ("left"%string, 0%Z, false, None).
Proof.
  exists (fun x a => (x, ("left"%string, 0%Z, false, None))), (fun _ => (true, "left"%string)),
    ["left"%string; "right"%string], true.
  repeat split; cbn; auto.
Qed.
Print Assumptions C113_reset_refuted.
