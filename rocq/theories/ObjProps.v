(** C46: aggregated objectives. *)
From Coq Require Import String List Bool Arith ZArith Lia Permutation Sorted.
From Verif Require Import Py PyList ObjModel.
Import ListNotations.
Open Scope string_scope.

(** * Specification vocabulary *)

(** [v o] is the value of objective [o]. *)
Definition values (d : list (string * Z)) (v : string -> Z) (l : list string) : Prop :=
  forall o, In o l -> dget d o = Some (v o).
(** weight times value, objective by objective *)
Definition weighted (v : string -> Z) (l : list (string * Z)) : list Z := map (fun p => snd p * v (fst p))%Z l.

Lemma term_ok : forall p d v i o w, values d v (objectives p) -> nth_error (objectives p) i = Some o -> nth_error (weights p) i = Some w ->
  term p d i = Ok (w * v o)%Z /\ term' p d i = Ok (w * v o)%Z.
Proof.
  intros p d v i o w V O W. unfold term, term'. rewrite (proj2 (lget_ok _ _ _) O), (proj2 (lget_ok _ _ _) W). cbn.
  unfold dgetE. rewrite (V o) by (eapply nth_error_In; eassumption). cbn. split; f_equal; lia.
Qed.

Lemma terms_ok : forall (t : nat -> res Z) (g : string * Z -> Z) objs ws,
  (forall i o w, nth_error objs i = Some o -> nth_error ws i = Some w -> t i = Ok (g (o, w))) -> length ws = length objs ->
  mapM t (seq 0 (length objs)) = Ok (map g (combine objs ws)).
Proof.
  intros t g objs ws H L.
  assert (G : forall k objs ws, (forall i o w, nth_error objs i = Some o -> nth_error ws i = Some w -> t (k + i) = Ok (g (o, w))) ->
    length ws = length objs -> mapM t (seq k (length objs)) = Ok (map g (combine objs ws))).
  { clear. intros k objs. revert k. induction objs as [|o objs IH]; intros k [|w ws] H L; try discriminate; [reflexivity|]. cbn.
    assert (H0 := H 0 o w eq_refl eq_refl). rewrite Nat.add_0_r in H0. rewrite H0. cbn. rewrite (IH (S k) ws); [reflexivity| |now injection L].
    intros i o' w' O W. replace (S k + i) with (k + S i) by lia. now apply H. }
  now apply (G 0).
Qed.

(** With aggregated handling the fitness of a solution is the sum over the objectives of weight times value, the
    same from the solution and from its values. *)
Theorem C46_aggregate : forall Sol (evaluate : Sol -> res (list (string * Z))) s d v objs ws,
  evaluate s = Ok d -> values d v objs -> length ws = length objs ->
  eval_sol Sol evaluate (mkParams Aggregate objs ws) s = Ok (Scalar (sumZ (weighted v (combine objs ws)))) /\
  eval_dict (mkParams Aggregate objs ws) d = Ok (Scalar (sumZ (weighted v (combine objs ws)))).
Proof.
  intros Sol ev s d v objs ws E V L. unfold eval_sol. rewrite E. cbn [bind].
  assert (H : eval_dict (mkParams Aggregate objs ws) d = Ok (Scalar (sumZ (weighted v (combine objs ws))))); [|now split].
  unfold eval_dict. cbn [p_handling objectives weights].
  rewrite (terms_ok _ (fun p => snd p * v (fst p))%Z objs ws); [cbn [bind]; now rewrite Z.mul_1_l| |exact L].
  intros i o w O W. now apply (term_ok (mkParams Aggregate objs ws) d v i o w V O W).
Qed.

(** With multi-objective handling it is the vector of the weighted values. *)
Theorem C46_multi : forall Sol (evaluate : Sol -> res (list (string * Z))) s d v objs ws,
  evaluate s = Ok d -> values d v objs -> length ws = length objs ->
  eval_sol Sol evaluate (mkParams MultiObj objs ws) s = Ok (Vector (weighted v (combine objs ws))) /\
  eval_dict (mkParams MultiObj objs ws) d = Ok (Vector (weighted v (combine objs ws))).
Proof.
  intros Sol ev s d v objs ws E V L. unfold eval_sol. rewrite E. cbn [bind].
  assert (H : eval_dict (mkParams MultiObj objs ws) d = Ok (Vector (weighted v (combine objs ws)))); [|now split].
  unfold eval_dict. cbn [p_handling objectives weights].
  rewrite (terms_ok _ (fun p => snd p * v (fst p))%Z objs ws); [| |exact L].
  - cbn [bind]. do 2 f_equal. rewrite map_map. apply map_ext. intros. apply Z.mul_1_l.
  - intros i o w O W. now apply (term_ok (mkParams MultiObj objs ws) d v i o w V O W).
Qed.

(** With single handling only the first objective counts. *)
Theorem C46_single : forall Sol (evaluate : Sol -> res (list (string * Z))) s d o x w objs ws,
  evaluate s = Ok d -> dget d o = Some x ->
  eval_sol Sol evaluate (mkParams Single (o :: objs) (w :: ws)) s = Ok (Scalar (w * x)) /\
  eval_dict (mkParams Single (o :: objs) (w :: ws)) d = Ok (Scalar (w * x)).
Proof.
  intros Sol ev s d o x w objs ws E V. unfold eval_sol. rewrite E. cbn [bind].
  assert (H : eval_dict (mkParams Single (o :: objs) (w :: ws)) d = Ok (Scalar (w * x))); [|now split].
  unfold eval_dict, term, dgetE. cbn -[Z.mul]. rewrite V. cbn -[Z.mul]. do 2 f_equal. lia.
Qed.

(** The default parameters give the sum of default weight times value over the register. *)
Theorem C46_default : forall Sol (evaluate : Sol -> res (list (string * Z))) s d v r,
  r_handling r = Aggregate -> evaluate s = Ok d -> values d v (map fst (r_objectives r)) ->
  eval_sol Sol evaluate (default_setup r) s = Ok (Scalar (sumZ (weighted v (r_objectives r)))).
Proof.
  intros Sol ev s d v r HR E V. unfold default_setup. rewrite HR.
  destruct (C46_aggregate Sol ev s d v (map fst (r_objectives r)) (map snd (r_objectives r)) E V) as [H _]; [now rewrite !map_length|].
  rewrite H. repeat f_equal. clear. induction (r_objectives r) as [|[a b] l IH]; [reflexivity|]. cbn. now rewrite IH.
Qed.

(** Aggregation is linear in the weights: the order of the objectives does not matter. *)
Theorem C46_order : forall d v l l' h, Permutation l l' -> values d v (map fst l) ->
  eval_dict (default_setup (mkRegister Aggregate l)) d = Ok (Scalar h) ->
  eval_dict (default_setup (mkRegister Aggregate l')) d = Ok (Scalar h).
Proof.
  intros d v l l' h P V H.
  assert (V' : values d v (map fst l')) by (intros o O; apply V; revert O; apply Permutation_in, Permutation_map; now symmetry).
  assert (A := C46_default unit (fun _ => Ok d) tt d v (mkRegister Aggregate l) eq_refl eq_refl V).
  assert (A' := C46_default unit (fun _ => Ok d) tt d v (mkRegister Aggregate l') eq_refl eq_refl V').
  unfold eval_sol in A, A'. cbn [bind] in A, A'. rewrite A'. rewrite H in A. injection A as ->. cbn [r_objectives]. do 2 f_equal.
  symmetry. apply (sumZ_map_perm (fun p => snd p * v (fst p))%Z P).
Qed.

(** A missing objective is an error, never a silent zero. *)
Theorem C46_missing : forall d objs ws i o, nth_error objs i = Some o -> dget d o = None ->
  forall h, h <> Single -> exists e, eval_dict (mkParams h objs ws) d = Err e.
Proof.
  intros d objs ws i o O D h NS.
  assert (G : forall t, (exists e, t i = Err e) -> exists e, @mapM nat Z t (seq 0 (length objs)) = Err e).
  { intros t [e T]. destruct (mapM t (seq 0 (length objs))) as [l|e'] eqn:E; [|eauto]. exfalso.
    apply mapM_ok in E. assert (L : i < length objs) by (apply nth_error_Some; congruence).
    assert (I : In i (seq 0 (length objs))) by (apply in_seq; lia). clear -E T I. induction E; [easy|].
    destruct I as [ -> |I]; [congruence|auto]. }
  unfold eval_dict. cbn [p_handling objectives weights]. destruct h; [easy| |].
  - assert (T : exists e, term (mkParams Aggregate objs ws) d i = Err e).
    { unfold term, dgetE. cbn. rewrite (proj2 (lget_ok _ _ _) O). cbn. rewrite D. cbn. eauto. }
    destruct (G _ T) as [e ->]. cbn. eauto.
  - assert (T : exists e, term' (mkParams MultiObj objs ws) d i = Err e).
    { unfold term', dgetE. cbn. rewrite (proj2 (lget_ok _ _ _) O). cbn. rewrite D. cbn. destruct (lget ws i); cbn; eauto. }
    destruct (G _ T) as [e ->]. cbn. eauto.
Qed.

(** The default multi-objective evaluation: the values in alphabetic order of the names, for any order of the
    dictionary. *)
Theorem C46_mobj : forall Sol (evaluate : Sol -> res (list (string * Z))) s d v r,
  evaluate s = Ok d -> values d v (map fst (r_objectives r)) ->
  exists names, Permutation (map fst (r_objectives r)) names /\ Sorted (fun a b => String.leb a b = true) names /\
    mobj Sol evaluate r s = Ok (map v names).
Proof.
  intros Sol ev s d v r E V. exists (ssort String.leb (map fst (r_objectives r))). split; [apply ssort_perm|]. split.
  - apply ssort_sorted. intros x y. unfold String.leb. rewrite String.compare_antisym. destruct (y ?= x); cbn; congruence.
  - unfold mobj. rewrite E. cbn [bind]. unfold mobj_dict. apply mapM_total. intros o O. unfold dgetE. rewrite (V o); [reflexivity|].
    revert O. apply Permutation_in. symmetry. apply ssort_perm.
Qed.

(** Unlike multi-objective handling it drops the weights: minimised and maximised objectives are no longer told
    apart. *)
Theorem C46_mobj_refuted : exists r d w u, eval_dict (default_setup r) d = Ok (Vector w) /\ mobj_dict r d = Ok u /\ r_handling r = MultiObj /\
  ~ Permutation u w /\ exists i x, nth_error u i = Some x /\ nth_error w i = Some (- x)%Z /\ x <> 0%Z.
Proof.
  exists (mkRegister MultiObj [("length", -1); ("profit", 1)]%Z), [("length", 7); ("profit", 3)]%Z, [-7; 3]%Z, [7; 3]%Z.
  split; [vm_compute; reflexivity|]. split; [vm_compute; reflexivity|]. split; [reflexivity|]. split.
  - intros P. apply (Permutation_in 7%Z) in P; [|now left]. cbn in P. destruct P as [P|[P|[]]]; discriminate.
  - exists 0, 7%Z. now split.
Qed.

(** * Robust problems *)

Lemma robust_fold : forall m (fits : list (list (string * Z))) ks agg out,
  foldM (fun agg k => let* vals := mapM (fun fit => dgetE fit k) fits in
                      let* a := aggregate m vals in Ok (dset agg k a)) agg ks = Ok out ->
  (forall k, In k (dkeys out) <-> In k (dkeys agg) \/ In k ks) /\
  (forall k x, dget out k = Some x -> In k ks -> exists vals, Forall2 (fun fit v => dget fit k = Some v) fits vals /\ aggregate m vals = Ok x) /\
  (forall k, ~ In k ks -> dget out k = dget agg k).
Proof.
  intros m fits ks. induction ks as [|k ks IH]; intros agg out H; cbn in H.
  - injection H as <-. split; [intros k; cbn; tauto|]. split; [easy|reflexivity].
  - apply bind_ok in H as (agg' & H1 & H2). apply bind_ok in H1 as (vals & V & H1). apply bind_ok in H1 as (a & A & H1). injection H1 as <-.
    destruct (IH _ _ H2) as (I1 & I2 & I3). split; [|split].
    + intros k0. rewrite I1, dkeys_dset. cbn. split; intros; intuition.
    + intros k0 x X KI. destruct (in_dec string_dec k0 ks) as [I|NI]; [now apply I2|]. destruct KI as [ -> |KI]; [|easy].
      rewrite (I3 _ NI), dget_dset_same in X. injection X as <-. exists vals. split; [|exact A].
      apply mapM_ok in V. clear -V. induction V; constructor; [|assumption]. unfold dgetE in H. destruct (dget x k0); [now injection H as ->|discriminate].
    + intros k0 N. cbn in N. rewrite I3 by tauto. apply dget_dset_other. intros ->. tauto.
Qed.

(** The robust value of an objective is, for MIN, a value of one of the problems and below all of them; for MAX
    the same above; for PONDERATION the weighted sum over the problems. *)
Theorem C46_robust : forall m fits out k x, robust m fits = Ok out -> dget out k = Some x ->
  exists vals, Forall2 (fun fit v => dget fit k = Some v) fits vals /\
    match m with
    | Min => In x vals /\ forall y, In y vals -> (x <= y)%Z
    | Max => In x vals /\ forall y, In y vals -> (y <= x)%Z
    | Ponderation p => length p = length fits /\ x = sumZ (map (fun q => fst q * snd q)%Z (combine vals p))
    end.
Proof.
  intros m fits out k x H X. unfold robust in H. apply bind_ok in H as (f0 & F0 & H).
  destruct (robust_fold _ _ _ _ _ H) as (R1 & R2 & _).
  assert (K : In k (dkeys f0)). { assert (K : In k (dkeys out)) by (apply dget_In in X; apply (in_map fst _ _ X)). apply R1 in K as [[]|K]. exact K. }
  destruct (R2 k x X K) as (vals & V & A). exists vals. split; [exact V|]. destruct m; cbn in A.
  - destruct vals as [|a r]; [discriminate|]. injection A as <-. clear. revert a. induction r as [|b r IH]; intros a; cbn [fold_left].
    + split; [now left|]. intros y [ <- |[]]. lia.
    + destruct (IH (Z.min a b)) as [I J]. split.
      * destruct I as [I|I]; [|right; now right]. rewrite <- I. destruct (Z.min_spec a b) as [[_ ->]|[_ ->]]; [now left|right; now left].
      * intros y Y. destruct Y as [ <- |[ <- |Y]]; [| |apply J; now right]; (apply Z.le_trans with (Z.min a b); [apply J; now left|lia]).
  - destruct vals as [|a r]; [discriminate|]. injection A as <-. clear. revert a. induction r as [|b r IH]; intros a; cbn [fold_left].
    + split; [now left|]. intros y [ <- |[]]. lia.
    + destruct (IH (Z.max a b)) as [I J]. split.
      * destruct I as [I|I]; [|right; now right]. rewrite <- I. destruct (Z.max_spec a b) as [[_ ->]|[_ ->]]; [right; now left|now left].
      * intros y Y. destruct Y as [ <- |[ <- |Y]]; [| |apply J; now right]; (apply Z.le_trans with (Z.max a b); [lia|apply J; now left]).
  - destruct (Nat.eqb_spec (length vals) (length p)) as [L|L]; [|discriminate]. injection A as <-. split; [|reflexivity].
    rewrite <- L. clear -V. induction V; cbn; congruence.
Qed.

(** A value for every objective of the first problem. *)
Theorem C46_robust_keys : forall m fits out f0, robust m (f0 :: fits) = Ok out -> forall k, In k (dkeys out) <-> In k (dkeys f0).
Proof. intros m fits out f0 H k. unfold robust in H. cbn [lget nth_error bind] in H. apply robust_fold in H as (R & _). rewrite R. cbn. tauto. Qed.

Example C46_ex : eval_dict (mkParams Aggregate ["len"; "cost"] [2; -3]%Z) [("cost", 5); ("other", 9); ("len", 7)]%Z = Ok (Scalar (-1)) /\
  values [("cost", 5); ("other", 9); ("len", 7)]%Z (fun o => if string_dec o "cost" then 5 else 7)%Z ["len"; "cost"] /\
  eval_dict (mkParams MultiObj ["len"; "cost"] [2; -3]%Z) [("cost", 5); ("len", 7)]%Z = Ok (Vector [14; -15]%Z) /\
  robust Max [[("a", 1); ("b", 2)]; [("b", 7); ("a", 0)]]%Z = Ok [("a", 1); ("b", 7)]%Z.
Proof.
  split; [reflexivity|]. split; [intros o [ <- |[ <- |[]]]; reflexivity|]. split; reflexivity.
Qed.

Print Assumptions C46_aggregate.
Print Assumptions C46_multi.
Print Assumptions C46_single.
Print Assumptions C46_default.
Print Assumptions C46_order.
Print Assumptions C46_missing.
Print Assumptions C46_mobj.
Print Assumptions C46_mobj_refuted.
Print Assumptions C46_robust.
Print Assumptions C46_robust_keys.
