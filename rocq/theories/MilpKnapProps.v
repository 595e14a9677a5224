(** Properties of the integer programs of the knapsack solvers: C122. *)
From Coq Require Import List Bool Arith ZArith Lia Permutation Sorted.
From Coq Require Import ZifyBool ZifyNat.
From Verif Require Import Py PyList PyMore TspProofs KnapModel KnapProofs MilpModel MilpProofs MilpKnapModel.
Import ListNotations.
Open Scope nat_scope.
Open Scope Z_scope.

(** * Specification vocabulary *)
(** The labels of the items increase along the list (the file parser numbers the items by position). *)
Definition increasing (m : kmodel) : Prop := StronglySorted lt (map it_index (m_items m)).
(** A choice of items (1 = taken) that the knapsack can hold. *)
Definition choice (m : kmodel) (sel : list Z) : Prop :=
  selection (m_items m) sel /\ total it_weight (m_items m) sel <= m_cap m.
(** The best value of a choice. *)
Definition best_choice (m : kmodel) (sel : list Z) : Prop :=
  choice m sel /\ forall sel', choice m sel' -> total it_value (m_items m) sel' <= total it_value (m_items m) sel.

(** * Links *)
Lemma increasing_nodup : forall m, increasing m -> NoDup (map it_index (m_items m)).
Proof.
  intros m. unfold increasing. generalize (map it_index (m_items m)). induction l as [|x l IH]; intros S; [constructor|].
  inversion S; subst. constructor; auto. intros I. rewrite Forall_forall in H2. specialize (H2 _ I). lia.
Qed.

Lemma labelled_increasing : forall m, labelled m -> increasing m.
Proof.
  intros m L. unfold increasing. assert (E : map it_index (m_items m) = seq 0 (length (m_items m))).
  { unfold labelled in L. revert L. generalize (m_items m). intros items. 
    assert (G : forall l k, (forall i it, nth_error l i = Some it -> it_index it = (k + i)%nat) -> map it_index l = seq k (length l)).
    { induction l as [|x l IH]; intros k H; auto. cbn [map length seq]. f_equal.
      - rewrite (H 0%nat x eq_refl). lia.
      - apply IH. intros i it N. rewrite (H (S i) it N). lia. }
    intros L. apply G. intros. apply L in H. lia. }
  rewrite E. clear. assert (G : forall n k, StronglySorted lt (seq k n)).
  { induction n as [|n IH]; intros k; cbn [seq]; constructor; auto. apply Forall_forall. intros x I. apply in_seq in I. lia. }
  apply G.
Qed.

Lemma dict_build : forall V (f : item -> V) items d, NoDup (map it_index items) ->
  (forall x, In x (map it_index items) -> ~ In x (dkeys d)) ->
  fold_left (fun d it => dset d (it_index it) (f it)) items d = d ++ map (fun it => (it_index it, f it)) items.
Proof.
  induction items as [|it items IH]; intros d N D; cbn [fold_left map]; [now rewrite app_nil_r|].
  cbn [map] in N. inversion N; subst. rewrite dset_new by (apply D; now left). rewrite IH; auto.
  - rewrite <- app_assoc. reflexivity.
  - intros x I K. unfold dkeys in K. rewrite map_app, in_app_iff in K. destruct K as [K|[<-|[]]]; [|auto].
    apply (D x); [now right|exact K].
Qed.

Lemma vars_ok : forall m, NoDup (map it_index (m_items m)) ->
  kp_vars m = (map it_value (m_items m), combine (map it_index (m_items m)) (seq 0 (length (m_items m))),
               map (fun it => (it_index it, it_weight it)) (m_items m)).
Proof.
  intros m N. unfold kp_vars.
  assert (G : forall items o x w, NoDup (map it_index items) ->
    (forall k, In k (map it_index items) -> ~ In k (dkeys x)) -> (forall k, In k (map it_index items) -> ~ In k (dkeys w)) ->
    fold_left kp_turn items (o, x, w) = (o ++ map it_value items, x ++ combine (map it_index items) (seq (length o) (length items)),
                                         w ++ map (fun it => (it_index it, it_weight it)) items)).
  { induction items as [|it items IH]; intros o x w Nd Dx Dw; cbn [fold_left map length seq combine]; [now rewrite !app_nil_r|].
    cbn [map] in Nd. inversion Nd; subst. cbn [kp_turn]. rewrite (dset_new _ _ x), (dset_new _ _ w) by (first [apply Dx|apply Dw]; now left).
    rewrite IH; auto.
    - rewrite app_length. cbn [length]. rewrite <- !app_assoc. cbn [app]. rewrite Nat.add_1_r. reflexivity.
    - intros k I K. unfold dkeys in K. rewrite map_app, in_app_iff in K. destruct K as [K|[<-|[]]]; [|auto]. apply (Dx k); [now right|exact K].
    - intros k I K. unfold dkeys in K. rewrite map_app, in_app_iff in K. destruct K as [K|[<-|[]]]; [|auto]. apply (Dw k); [now right|exact K]. }
  rewrite (G (m_items m) [] [] []); auto.
Qed.

Lemma dget_map_items : forall V (f : item -> V) items it, NoDup (map it_index items) -> In it items ->
  dget (map (fun i => (it_index i, f i)) items) (it_index it) = Some (f it).
Proof.
  intros V f items it N I. apply In_dget.
  - unfold dkeys. rewrite map_map. cbn [fst]. exact N.
  - apply in_map_iff. exists it. auto.
Qed.

Lemma ok3 : forall A (x y : A) (w w' v v' : Z), x = y -> w = w' -> v = v' -> @Ok (A * Z * Z) (x, w, v) = Ok (y, w', v').
Proof. intros. now subst. Qed.

(** The dictionary of variables, read together with the items. *)
Lemma mapM_x : forall B (g : nat -> nat -> res B) (h : item -> nat -> B) items k,
  (forall it v, In it items -> g (it_index it) v = Ok (h it v)) ->
  mapM (fun iv => g (fst iv) (snd iv)) (combine (map it_index items) (seq k (length items))) =
  Ok (map (fun p => h (fst p) (snd p)) (combine items (seq k (length items)))).
Proof.
  induction items as [|it items IH]; intros k H; [reflexivity|]. cbn [map length seq combine mapM fst snd].
  rewrite H by now left. cbn [bind]. rewrite IH; [reflexivity|]. intros; apply H; now right.
Qed.

Definition readback (a : nat -> Z) (items : list item) (k : nat) : list Z :=
  map (fun v => if a v <=? 0 then 0 else 1) (seq k (length items)).

Lemma binary_readback : forall a items k sel, (forall v, In v (seq k (length items)) -> 0 <= a v <= 1) ->
  sel = readback a items k -> forall f, sumZ (map (fun p => f (fst p) * a (snd p)) (combine items (seq k (length items)))) = total f items sel.
Proof.
  intros a items k sel B -> f. unfold total, readback. revert k B.
  induction items as [|it items IH]; intros k B; [reflexivity|]. cbn [length seq combine map]. rewrite !sumZ_cons.
  rewrite IH; [|intros v I; apply B; cbn [length seq]; now right]. cbn [fst snd].
  assert (0 <= a k <= 1) by (apply B; now left). f_equal.
  assert (K : a k = 0 \/ a k = 1) by lia. destruct K as [-> | ->]; cbn [Z.leb Z.compare]; lia.
Qed.

Lemma by_label_ok : forall items vals, StronglySorted lt (map it_index items) -> length vals = length items ->
  by_label (combine (map it_index items) vals) = Ok vals.
Proof.
  intros items vals S L. unfold by_label.
  assert (K : dkeys (combine (map it_index items) vals) = map it_index items).
  { unfold dkeys. clear S. revert vals L. induction items as [|it items IH]; intros [|v vals] L; try discriminate; auto.
    cbn [map combine fst]. f_equal. apply IH. now injection L. }
  assert (Srt : ssort Nat.leb (map it_index items) = map it_index items).
  { clear -S. induction S as [|x l S IH F]; auto. cbn [ssort fold_right]. unfold ssort in IH. rewrite IH. destruct l as [|y l]; auto.
    cbn [sinsert]. inversion F; subst. destruct (Nat.leb_spec x y); auto. lia. }
  rewrite K, Srt. 
  assert (N : NoDup (map it_index items)).
  { clear -S. induction S as [|x l S IH F]; constructor; auto. intros I. rewrite Forall_forall in F. specialize (F _ I). lia. }
  assert (G : forall ks vs (d : list (nat * Z)), length vs = length ks -> (forall k v, In (k, v) (combine ks vs) -> dget d k = Some v) ->
    mapM (fun e => dgetE d e) ks = Ok vs).
  { induction ks as [|k ks IH]; intros [|v vs] d Ln H; try discriminate; auto. cbn [mapM]. unfold dgetE at 1.
    rewrite (H k v) by (now left). cbn [bind]. rewrite (IH vs); auto. intros; apply H; now right. }
  apply G; [now rewrite map_length|]. intros k v I. apply In_dget; auto. now rewrite K.
Qed.

Lemma read_ok : forall m a, NoDup (map it_index (m_items m)) ->
  foldM (kp_read m a) ([], 0, 0) (combine (map it_index (m_items m)) (seq 0 (length (m_items m)))) =
  Ok (combine (map it_index (m_items m)) (readback a (m_items m) 0),
      total it_weight (m_items m) (readback a (m_items m) 0), total it_value (m_items m) (readback a (m_items m) 0)).
Proof.
  intros m a N. set (items := m_items m) in *.
  assert (G : forall l k xs w v, incl l items -> NoDup (map it_index l) -> (forall x, In x (map it_index l) -> ~ In x (dkeys xs)) ->
    foldM (kp_read m a) (xs, w, v) (combine (map it_index l) (seq k (length l))) =
    Ok (xs ++ combine (map it_index l) (readback a l k), w + total it_weight l (readback a l k), v + total it_value l (readback a l k))).
  { induction l as [|it l IH]; intros k xs w v Inc Nd D; cbn [map length seq combine foldM].
    - rewrite app_nil_r. unfold total, readback. cbn. now rewrite !Z.add_0_r.
    - cbn [map] in Nd. inversion Nd; subst. unfold kp_read at 1. cbn [fst snd].
      assert (It : dget (index_to_item m) (it_index it) = Some it).
      { unfold index_to_item. fold items. rewrite (dict_build _ (fun i => i)); auto. cbn [app].
        apply (dget_map_items _ (fun i => i)); auto. apply Inc. now left. }
      assert (D' : forall z x, In x (map it_index l) -> ~ In x (dkeys (dset xs (it_index it) z))).
      { intros z x I K. rewrite dset_new in K by (apply D; now left). unfold dkeys in K. rewrite map_app, in_app_iff in K.
        destruct K as [K|[<-|[]]]; [|auto]. apply (D x); [now right|exact K]. }
      unfold readback, total. cbn [length seq map combine]. rewrite !sumZ_cons. cbn [fst snd]. unfold readback, total in IH.
      destruct (a k <=? 0) eqn:E.
      + cbn [bind]. rewrite IH; auto; [|intros x I; apply Inc; now right]. rewrite dset_new by (apply D; now left).
        rewrite <- app_assoc. cbn [app]. apply ok3; [reflexivity|lia|lia].
      + unfold dgetE at 1. rewrite It. cbn [bind]. rewrite IH; auto; [|intros x I; apply Inc; now right].
        rewrite dset_new by (apply D; now left). rewrite <- app_assoc. cbn [app]. apply ok3; [reflexivity|lia|lia]. }
  rewrite (G items 0%nat [] 0 0); auto using incl_refl.
Qed.

Lemma milp_ok : forall m, NoDup (map it_index (m_items m)) ->
  kp_milp m = Ok (Milp (map binary_var (seq 0 (length (m_items m))))
    [Constr (esum (map (fun p => escale (it_weight (fst p)) (evar (snd p))) (combine (m_items m) (seq 0 (length (m_items m)))))) SLe
            (econst (m_cap m))]
    (esum (map (fun p => escale (it_value (fst p)) (evar (snd p))) (combine (m_items m) (seq 0 (length (m_items m)))))) true).
Proof.
  intros m N. unfold kp_milp. rewrite vars_ok by auto. unfold kp_capacity.
  rewrite (mapM_x _ (fun i v => let* k := dgetE _ i in Ok (escale k (evar v))) (fun it v => escale (it_weight it) (evar v))).
  - cbn [bind]. rewrite map_length. repeat f_equal.
    clear. generalize 0%nat as k. induction (m_items m) as [|it l IH]; intros k; auto. cbn [map length seq combine fst snd]. f_equal. apply IH.
  - intros it v I. unfold dgetE. rewrite (dget_map_items _ it_weight); auto.
Qed.

Lemma eval_items : forall a (f : item -> Z) l, eval a (esum (map (fun p : item * nat => escale (f (fst p)) (evar (snd p))) l)) =
  sumZ (map (fun p => f (fst p) * a (snd p)) l).
Proof. intros. rewrite eval_sum_map. f_equal. apply map_ext. intros [it v]. now rewrite eval_scale, eval_var. Qed.

(** * The theorems *)
(** Every solution of the program is read back as a choice of items the knapsack can hold, with its value and
    weight, and the value is what the program maximises. *)
Theorem C122_sound : forall m p a, increasing m -> kp_milp m = Ok p -> admissible p a ->
  exists s, kp_retrieve m a = Ok s /\ choice m (k_taken s) /\ coherent m s /\ k_value s = Some (eval a (p_obj p)).
Proof.
  intros m p a I E A. pose proof (increasing_nodup m I) as N. rewrite milp_ok in E by auto. injection E as <-.
  unfold kp_retrieve. rewrite vars_ok by auto. rewrite read_ok by auto. cbn [bind].
  rewrite by_label_ok; auto; [|unfold readback; now rewrite map_length, seq_length]. cbn [bind].
  eexists. split; [reflexivity|]. cbn [k_taken].
  assert (B : forall v, In v (seq 0 (length (m_items m))) -> 0 <= a v <= 1).
  { intros v Iv. destruct (ad_bounds _ _ A (binary_var v)) as [B0 B1]; [apply in_map, Iv|]. cbn in B0, B1. lia. }
  assert (Len : length (readback a (m_items m) 0) = length (m_items m)) by (unfold readback; now rewrite map_length, seq_length).
  split; [split; [split|]|split].
  - exact Len.
  - apply Forall_forall. intros x Ix. apply in_map_iff in Ix as [v [<- _]]. destruct (a v <=? 0); auto.
  - pose proof (ad_constrs _ _ A _ (or_introl eq_refl)) as C. unfold holds in C. cbn [c_sense c_left c_right] in C.
    rewrite eval_items, eval_const in C. now rewrite (binary_readback a _ _ _ B eq_refl it_weight) in C.
  - split; [exact Len|]. split; reflexivity.
  - cbn [k_value p_obj]. rewrite eval_items. now rewrite (binary_readback a _ _ _ B eq_refl it_value).
Qed.

(** Every choice of items is read back from some solution of the program. *)
Theorem C122_complete : forall m sel, increasing m -> choice m sel -> exists p a s, kp_milp m = Ok p /\ admissible p a /\
  kp_retrieve m a = Ok s /\ k_taken s = sel.
Proof.
  intros m sel I [[L F] W]. pose proof (increasing_nodup m I) as N.
  set (a := fun v => nth v sel 0). assert (R : readback a (m_items m) 0 = sel).
  { unfold readback, a. rewrite <- L. clear -F. assert (G : forall l k pre, Forall (fun x => x = 0 \/ x = 1) l -> length pre = k ->
      map (fun v => if nth v (pre ++ l) 0 <=? 0 then 0 else 1) (seq k (length l)) = l).
    { induction l as [|x l IH]; intros k pre Fl Lp; auto. cbn [length seq map]. inversion Fl; subst. f_equal.
      - rewrite app_nth2 by lia. rewrite Nat.sub_diag. cbn [nth]. destruct H1; subst; reflexivity.
      - specialize (IH (S (length pre)) (pre ++ [x]) H2). rewrite <- app_assoc in IH. cbn [app] in IH. apply IH.
        rewrite app_length. cbn. lia. }
    apply (G sel 0%nat []); auto. }
  assert (B : forall v, In v (seq 0 (length (m_items m))) -> 0 <= a v <= 1).
  { intros v Iv. apply in_seq in Iv. unfold a. rewrite Forall_forall in F. destruct (F (nth v sel 0)); [apply nth_In; lia|lia|lia]. }
  eexists _, a, _. split; [apply milp_ok; auto|]. split; [|split].
  - split; cbn [p_vars p_constrs].
    + intros v Iv. apply in_map_iff in Iv as [x [<- Ix]]. apply B in Ix. split; cbn; lia.
    + intros c [<-|[]]. unfold holds. cbn [c_sense c_left c_right]. rewrite eval_items, eval_const.
      rewrite (binary_readback a _ _ sel B (eq_sym R) it_weight). exact W.
  - unfold kp_retrieve. rewrite vars_ok by auto. rewrite read_ok by auto. cbn [bind]. rewrite R.
    rewrite by_label_ok; auto. cbn [bind]. reflexivity.
  - reflexivity.
Qed.

(** An optimal solution of the program is read back as a best choice. *)
Theorem C122_optimal : forall m p a, increasing m -> kp_milp m = Ok p -> optimal p a ->
  exists s, kp_retrieve m a = Ok s /\ best_choice m (k_taken s) /\ coherent m s.
Proof.
  intros m p a I E [A O]. destruct (C122_sound m p a I E A) as (s & R & C & Co & V).
  exists s. split; auto. split; auto. split; auto. intros sel' C'.
  destruct (C122_complete m sel' I C') as (p' & a' & s' & E' & A' & R' & T'). rewrite E in E'. injection E' as <-.
  destruct (C122_sound m p a' I E A') as (s1 & R1 & _ & Co1 & V1). rewrite R' in R1. injection R1 as <-.
  specialize (O a' A'). unfold better_or_equal in O.
  assert (Mx : p_max p = true) by (rewrite milp_ok in E by (now apply increasing_nodup); injection E as <-; reflexivity).
  rewrite Mx in O. destruct Co as (_ & Cv & _), Co1 as (_ & Cv1 & _). rewrite T' in Cv1. 
  assert (eval a (p_obj p) = total it_value (m_items m) (k_taken s)) by congruence.
  assert (eval a' (p_obj p) = total it_value (m_items m) sel') by congruence. lia.
Qed.

(** The program exists whatever the labels; a best choice exists unless the capacity is negative. *)
Theorem C122_total : forall m, exists p, kp_milp m = Ok p.
Proof.
  intros m. unfold kp_milp, kp_vars.
  assert (G : forall items o x w, (forall k, In k (dkeys x) -> In k (dkeys w)) ->
    let '(_, x', w') := fold_left kp_turn items (o, x, w) in forall k, In k (dkeys x') -> In k (dkeys w')).
  { induction items as [|it items IH]; intros o x w H; cbn [fold_left]; auto. cbn [kp_turn]. apply IH. intros k.
    intros K. apply (proj1 (dget_keys _ _ _ k)) in K as [v V]. apply (proj2 (dget_keys _ _ _ k)).
    destruct (py_dec k (it_index it)) as [->|Ne].
    - exists (it_weight it). apply dget_dset_same.
    - rewrite dget_dset_other in V by congruence. destruct (proj1 (dget_keys _ _ w k)) as [z Z0].
      + apply H. apply (proj2 (dget_keys _ _ x k)). eauto.
      + exists z. rewrite dget_dset_other; auto. }
  specialize (G (m_items m) [] [] [] (fun k K => K)). destruct (fold_left kp_turn (m_items m) ([], [], [])) as [[o x] w].
  unfold kp_capacity. assert (M : forall l, incl l x -> exists r, mapM (fun iv : nat * nat => let* k := dgetE w (fst iv) in Ok (escale k (evar (snd iv)))) l = Ok r).
  { induction l as [|[i v] l IH]; intros Inc; cbn [mapM]; eauto. 
    destruct (proj1 (dget_keys _ _ w i)) as [k K]; [apply G; apply in_map_iff; exists (i, v); split; auto; apply Inc; now left|].
    cbn [fst snd]. unfold dgetE. rewrite K. cbn [bind]. destruct IH as [r R]; [intros y Iy; apply Inc; now right|].
    unfold dgetE in R. rewrite R. cbn [bind]. eauto. }
  destruct (M x (incl_refl x)) as [r ->]. cbn [bind]. eauto.
Qed.

(** The variant for or-tools' linear solver states the same program, and the variants for or-tools and gurobi,
    which copy the objective value, return the same solution. *)
Theorem C122_cbc : forall m p, increasing m -> kp_milp m = Ok p -> exists p', kp_milp_cbc m = Ok p' /\
  p_vars p' = p_vars p /\ p_constrs p' = p_constrs p /\ p_max p' = p_max p /\
  (forall a, eval a (p_obj p') = eval a (p_obj p)) /\
  (forall a, admissible p a -> kp_retrieve_obj m a (eval a (p_obj p)) = kp_retrieve m a).
Proof.
  intros m p I E. pose proof (increasing_nodup m I) as N.
  pose proof (fun a => C122_sound m p a I E) as Snd.
  unfold kp_milp in E. unfold kp_milp_cbc. rewrite vars_ok in * by auto.
  destruct (kp_capacity _ _ _) as [c|] eqn:C; [|discriminate]. cbn [bind] in *.
  rewrite (dict_build _ it_value); auto. cbn [app].
  rewrite (mapM_x _ (fun i v => let* k := dgetE _ i in Ok (escale k (evar v))) (fun it v => escale (it_value it) (evar v))).
  - cbn [bind]. eexists. split; [reflexivity|]. injection E as <-. cbn [p_vars p_constrs p_max p_obj] in *.
    split; auto. split; auto. split; auto. split.
    + intros a. rewrite map_length. rewrite !eval_sum_map. f_equal.
      clear. generalize 0%nat as k. induction (m_items m) as [|it l IH]; intros k; auto. cbn [map length seq combine fst snd]. f_equal. apply IH.
    + intros a A. unfold kp_retrieve_obj. destruct (Snd a A) as (s & R & _ & _ & V). rewrite R. cbn [bind].
      rewrite <- V. now destruct s.
  - intros it v Iv. unfold dgetE. rewrite (dget_map_items _ it_value); auto.
Qed.

(** The branch-and-bound variant: the items the external solver says are in the knapsack. *)
Theorem C122_ortools : forall m contains, increasing m ->
  exists s, ort_solve m contains = Ok s /\ coherent m s /\ selection (m_items m) (k_taken s) /\
    k_taken s = map (fun i => if contains i then 1 else 0) (seq 0 (length (m_items m))).
Proof.
  intros m contains I. pose proof (increasing_nodup m I) as N. unfold ort_solve.
  set (sel := fun (l : list item) k => map (fun i => if contains i then 1 else 0) (seq k (length l))).
  assert (G : forall l k pre xs w v, m_items m = pre ++ l -> length pre = k -> NoDup (map it_index l) ->
    (forall x, In x (map it_index l) -> ~ In x (dkeys xs)) ->
    foldM (ort_turn m contains) (xs, w, v) (seq k (length l)) =
    Ok (xs ++ combine (map it_index l) (sel l k), w + total it_weight l (sel l k), v + total it_value l (sel l k))).
  { induction l as [|it l IH]; intros k pre xs w v E Lp Nd D; cbn [map length seq foldM].
    - cbn. rewrite app_nil_r. unfold total. cbn. now rewrite !Z.add_0_r.
    - cbn [map] in Nd. inversion Nd; subst. unfold ort_turn at 1. rewrite E.
      rewrite lget_app_mid. cbn [bind].
      assert (D' : forall z x, In x (map it_index l) -> ~ In x (dkeys (dset xs (it_index it) z))).
      { intros z x Ix K. rewrite dset_new in K by (apply D; now left). unfold dkeys in K. rewrite map_app, in_app_iff in K.
        destruct K as [K|[<-|[]]]; [|auto]. apply (D x); [now right|exact K]. }
      specialize (IH (S (length pre)) (pre ++ [it])). rewrite <- app_assoc, app_length in IH. cbn [app length] in IH.
      unfold sel, total. cbn [length seq map combine]. rewrite !sumZ_cons. cbn [fst snd]. unfold sel, total in IH.
      destruct (contains (length pre)) eqn:Ec; cbn [bind]; (rewrite IH; [|auto|lia|auto|auto]); rewrite dset_new by (apply D; now left);
        rewrite <- app_assoc; cbn [app]; apply ok3; try reflexivity; lia. }
  unfold nb_items. rewrite (G (m_items m) 0%nat [] [] 0 0); auto. cbn [bind app]. rewrite by_label_ok; auto.
  - cbn [bind]. eexists. split; [reflexivity|]. unfold coherent, selection, sel. cbn [k_taken k_value k_weight].
    rewrite !map_length, !seq_length. split; [auto|]. split; auto. split; auto. apply Forall_forall. intros x Ix.
    apply in_map_iff in Ix as [v [<- _]]. destruct (contains v); auto.
  - unfold sel. now rewrite map_length, seq_length.
Qed.

(** * Examples *)
Definition ex_kp : kmodel := mkModel [mkItem 1 10 5; mkItem 4 40 4; mkItem 7 30 6] 10 false.
Lemma ex_inc : increasing ex_kp.
Proof. repeat constructor. Qed.
Example C122_ex : increasing ex_kp /\ exists p s, kp_milp ex_kp = Ok p /\
  let a := fun v => if (1 <=? v)%nat then 1 else 0 in
  admissible p a /\ kp_retrieve ex_kp a = Ok s /\ s = mkSol (Some 70) (Some 10) [0; 1; 1] /\ choice ex_kp [0; 1; 1].
Proof.
  split; [exact ex_inc|]. eexists _, _. split; [reflexivity|]. cbv zeta. split; [|split; [reflexivity|split; [reflexivity|]]].
  - split; cbn [p_vars p_constrs].
    + intros v [<-|[<-|[<-|[]]]]; split; cbn; lia.
    + intros c [<-|[]]. vm_compute. discriminate.
  - split; [split; [reflexivity|]|vm_compute; discriminate].
    apply Forall_forall. intros x [<-|[<-|[<-|[]]]]; auto.
Qed.

(** * Refutations *)
(** Labels that do not increase: the choice comes back in the order of the labels, so that the solution, read by
    position as [KnapsackModel] does, no longer fits. *)
Theorem C122_labels_refuted : exists m p a s, NoDup (map it_index (m_items m)) /\ kp_milp m = Ok p /\ optimal p a /\
  kp_retrieve m a = Ok s /\ m_cap m < total it_weight (m_items m) (k_taken s) /\ satisfy m s = Ok (true, s).
Proof.
  set (m := mkModel [mkItem 2 5 1; mkItem 1 3 9] 5 false).
  exists m. eexists. exists (fun v => if (v =? 0)%nat then 1 else 0). eexists.
  split; [repeat constructor; cbn; intuition discriminate|]. split; [vm_compute; reflexivity|]. split; [split|].
  - split; cbn [p_vars p_constrs].
    + intros v [<-|[<-|[]]]; split; cbn; lia.
    + intros c [<-|[]]. vm_compute. discriminate.
  - intros b B. unfold better_or_equal. cbn [p_max].
    pose proof (ad_bounds _ _ B _ (or_introl eq_refl)) as B0. pose proof (ad_bounds _ _ B _ (or_intror (or_introl eq_refl))) as B1.
    pose proof (ad_constrs _ _ B _ (or_introl eq_refl)) as C. unfold holds, in_bounds in *.
    cbn [c_sense c_left c_right p_obj v_lo v_hi v_id] in *. unfold eval in *. cbn [map fst snd Nat.eqb] in *.
    rewrite ?sumZ_cons in *. change (sumZ []) with 0 in *. lia.
  - split; [reflexivity|]. split; [vm_compute; reflexivity|]. reflexivity.
Qed.

(** Two items with the same label: the first has a variable that no constraint mentions, and the vector is too
    short, so that evaluating it with recomputation raises. *)
Theorem C122_same_label_refuted : exists m p a s, kp_milp m = Ok p /\ optimal p a /\ kp_retrieve m a = Ok s /\
  (length (k_taken s) < length (m_items m))%nat /\ eval a (p_obj p) <> 0 /\ k_value s = Some 0 /\
  evaluate m s = Err IndexError.
Proof.
  set (m := mkModel [mkItem 1 5 9; mkItem 1 3 9] 5 true).
  exists m. eexists. exists (fun v => if (v =? 0)%nat then 1 else 0). eexists. split; [vm_compute; reflexivity|]. split; [split|].
  - split; cbn [p_vars p_constrs].
    + intros v [<-|[<-|[]]]; split; cbn; lia.
    + intros c [<-|[]]. vm_compute. discriminate.
  - intros b B. unfold better_or_equal. cbn [p_max].
    pose proof (ad_bounds _ _ B _ (or_introl eq_refl)) as B0. pose proof (ad_bounds _ _ B _ (or_intror (or_introl eq_refl))) as B1.
    pose proof (ad_constrs _ _ B _ (or_introl eq_refl)) as C. unfold holds, in_bounds in *.
    cbn [c_sense c_left c_right p_obj v_lo v_hi v_id] in *. unfold eval in *. cbn [map fst snd Nat.eqb] in *.
    rewrite ?sumZ_cons in *. change (sumZ []) with 0 in *. lia.
  - split; [reflexivity|]. cbn [k_taken m_items m length]. split; [cbn; lia|]. split; [vm_compute; discriminate|].
    split; reflexivity.
Qed.

Print Assumptions C122_sound.
Print Assumptions C122_complete.
Print Assumptions C122_optimal.
Print Assumptions C122_total.
Print Assumptions C122_cbc.
Print Assumptions C122_ortools.
Print Assumptions C122_labels_refuted.
Print Assumptions C122_same_label_refuted.
