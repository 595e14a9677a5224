(** Properties of the integer program of the colouring solvers: C124. *)
From Coq Require Import String.
From Coq Require Import List Bool Arith ZArith Lia Permutation Sorted.
From Coq Require Import ZifyBool ZifyNat.
From Verif Require Import Py PyList PyMore TspProofs GraphModel GraphProps MilpModel MilpProofs MilpColModel.
Import ListNotations.
Open Scope nat_scope.

(** * Specification vocabulary *)
Section Vocabulary.
Context {N V : Type} {EN : PyEq N}.
(** The nodes are named by the numbers 0, 1, …, one number for each. *)
Definition numbered (int : nat -> N) (nodes : list N) : Prop :=
  (forall i j, int i = int j -> i = j) /\ forall i, i < length nodes -> In (int i) nodes.
(** A colouring: no edge has both ends of the same colour. *)
Definition proper (edges : list (N * N * attrs V)) (c : N -> Z) : Prop :=
  forall n m d, In (n, m, d) edges -> c n <> c m.
Definition adjacent (edges : list (N * N * attrs V)) (n m : N) : Prop :=
  exists d, In (n, m, d) edges \/ In (m, n, d) edges.
(** The edges of the networkx copy: those of the graph, in one direction or the other. *)
Definition lists_edges (edges : list (N * N * attrs V)) (es : list (N * N)) : Prop :=
  (forall n m, In (n, m) es -> adjacent edges n m) /\ forall n m, adjacent edges n m -> In (n, m) es \/ In (m, n) es.
(** What networkx gives as cliques: nodes that are adjacent two by two. *)
Definition all_cliques (nodes : list N) (edges : list (N * N * attrs V)) (cliques : option (list (list N))) : Prop :=
  forall cs q, cliques = Some cs -> In q cs -> NoDup q /\ incl q nodes /\
    forall n m, In n q -> In m q -> n <> m -> adjacent edges n m.
End Vocabulary.

(** * Sums of distinct numbers *)
Lemma big_one : forall l : list Z, NoDup l -> (forall x, In x l -> (0 <= x)%Z) -> l <> [] ->
  exists x, In x l /\ (Z.of_nat (length l) <= x + 1)%Z.
Proof.
  intros l N P Ne. destruct (existsb (fun x => Z.of_nat (length l) <=? x + 1)%Z l) eqn:E.
  - apply existsb_exists in E as (x & I & H). exists x. split; auto. lia.
  - exfalso. assert (A : forall x, In x l -> (0 <= x < Z.of_nat (length l) - 1)%Z).
    { intros x I. split; auto. destruct (Z.leb_spec (Z.of_nat (length l)) (x + 1)) as [H|H]; [|lia].
      assert (existsb (fun x => Z.of_nat (length l) <=? x + 1)%Z l = true) by (apply existsb_exists; exists x; split; auto; lia). congruence. }
    assert (incl l (map Z.of_nat (seq 0 (length l - 1)))).
    { intros x I. specialize (A x I). apply in_map_iff. exists (Z.to_nat x). split; [lia|]. apply in_seq. lia. }
    pose proof (NoDup_incl_length N H) as L. rewrite map_length, seq_length in L. destruct l; [congruence|cbn [length] in L; lia].
Qed.
Lemma distinct_sum : forall k (l : list Z), length l = k -> NoDup l -> (forall x, In x l -> (0 <= x)%Z) ->
  (sumZ (map (fun i => (Z.of_nat i + 1)%Z) (seq 0 k)) <= sumZ (map (fun x => x + 1) l))%Z.
Proof.
  induction k as [|k IH]; intros l L N P.
  - destruct l; [cbn; lia|discriminate].
  - destruct (big_one l N P) as (x & I & H); [intros ->; discriminate|].
    apply in_split in I as (l1 & l2 & ->). rewrite seq_S, map_app, sumZ_app. cbn [map]. rewrite sumZ_cons, Nat.add_0_l.
    change (sumZ []) with 0%Z. rewrite map_app, sumZ_app. cbn [map]. rewrite sumZ_cons.
    rewrite app_length in L, H. cbn [length] in L, H.
    assert ((sumZ (map (fun i => (Z.of_nat i + 1)%Z) (seq 0 k)) <= sumZ (map (fun x => x + 1) (l1 ++ l2)))%Z).
    { apply IH; [rewrite app_length; lia|now apply NoDup_remove_1 in N|]. intros y Iy. apply P. apply in_app_iff in Iy. apply in_app_iff. cbn. intuition. }
    rewrite map_app, sumZ_app in H0. lia.
Qed.

(** * What the program says *)
Section Sol.
Context {N V : Type} {EN : PyEq N}.
Variable int : nat -> N.
Variable g : graph N V.
Variable k : nat.
Hypothesis nd : NoDup (g_names g).
Hypothesis num : numbered int (g_names g).

Lemma numbers : forall n, In n (g_names g) -> exists i, i < length (g_names g) /\ n = int i.
Proof.
  destruct num as [Inj All]. intros n I.
  assert (incl (g_names g) (map int (seq 0 (length (g_names g))))).
  { apply NoDup_length_incl.
    - apply FinFun.Injective_map_NoDup; [intros i j; apply Inj|apply seq_NoDup].
    - now rewrite map_length, seq_length.
    - intros x Ix. apply in_map_iff in Ix as (i & <- & Ii). apply All. apply in_seq in Ii. lia. }
  specialize (H n I). apply in_map_iff in H as (i & E & Ii). exists i. apply in_seq in Ii. split; [lia|auto].
Qed.

Lemma x_ok : forall n c, In n (g_names g) -> c < k -> col_x g k n c = Ok (evar (CX n c)).
Proof.
  intros n c I H. unfold col_x. rewrite (proj2 (pymem_true n (g_names g)) I). cbn [andb].
  destruct (Nat.ltb_spec c k); [reflexivity|lia].
Qed.
Lemma one_ok : forall i, i < length (g_names g) ->
  col_one int g k i = Ok (Constr (esum (map (fun c => evar (CX (int i) c)) (seq 0 k))) SEq (econst 1)).
Proof.
  intros i H. unfold col_one. rewrite (mapM_total _ (fun c => evar (CX (int i) c))); [reflexivity|].
  intros c I. apply in_seq in I. apply x_ok; [now apply num|lia].
Qed.
Lemma opt_ok : forall i, i < length (g_names g) ->
  col_opt int g k i = Ok (Constr (esum (map (fun c => escale (Z.of_nat c + 1) (evar (CX (int i) c))) (seq 0 k))) SLe (evar COpt)).
Proof.
  intros i H. unfold col_opt. rewrite (mapM_total _ (fun c => escale (Z.of_nat c + 1) (evar (CX (int i) c)))); [reflexivity|].
  intros c I. apply in_seq in I. rewrite x_ok; [reflexivity|now apply num|lia].
Qed.
Lemma pairs_in : forall (l : list N) (n : N) (c : nat), In (n, c) (col_pairs l k) <-> In n l /\ c < k.
Proof.
  intros l n c. unfold col_pairs. rewrite in_flat_map. split.
  - intros (m & I & H). apply in_map_iff in H as (d & E & H). injection E as -> ->. apply in_seq in H. split; [auto|lia].
  - intros [I H]. exists n. split; auto. apply in_map, in_seq. lia.
Qed.
Definition clique_constrs (q : list N) : list (constr (cvar N)) :=
  [Constr (esum (map (fun e => escale (Z.of_nat (snd e) + 1) (evar (CX (fst e) (snd e)))) (col_pairs q k))) SGe
     (econst (sumZ (map (fun i => (Z.of_nat i + 1)%Z) (seq 0 (length q)))));
   Constr (esum (map (fun e => evar (CX (fst e) (snd e))) (col_pairs q k))) SLe (evar COpt)].
Lemma clique_ok : forall q, incl q (g_names g) -> col_clique g k q = Ok (clique_constrs q).
Proof.
  intros q I. unfold col_clique.
  rewrite (mapM_total _ (fun e => escale (Z.of_nat (snd e) + 1) (evar (CX (fst e) (snd e))))).
  - cbn [bind]. rewrite (mapM_total _ (fun e => evar (CX (fst e) (snd e)))); [reflexivity|].
    intros [n c] H. apply (proj1 (pairs_in _ _ _)) in H as [H1 H2]. cbn [fst snd]. apply x_ok; auto.
  - intros [n c] H. apply (proj1 (pairs_in _ _ _)) in H as [H1 H2]. cbn [fst snd]. rewrite x_ok; auto.
Qed.

(** The admissible assignments. *)
Record meaning (es : list (N * N)) (cliques : list (list N)) (a : cvar N -> Z) : Prop := {
  me_binary : forall n c, In n (g_names g) -> c < k -> (0 <= a (CX n c) <= 1)%Z;
  me_opt : (0 <= a COpt <= Z.of_nat k)%Z;
  me_one : forall n, In n (g_names g) -> sumZ (map (fun c => a (CX n c)) (seq 0 k)) = 1%Z;
  me_clique : forall q, In q cliques -> (sumZ (map (fun i => (Z.of_nat i + 1)%Z) (seq 0 (length q))) <=
      sumZ (map (fun e => ((Z.of_nat (snd e) + 1) * a (CX (fst e) (snd e)))%Z) (col_pairs q k)))%Z /\
      (sumZ (map (fun e => a (CX (fst e) (snd e))) (col_pairs q k)) <= a COpt)%Z;
  me_edge : forall n m c, In (n, m) es -> c < k -> (a (CX n c) + a (CX m c) <= 1)%Z;
  me_max : forall n, In n (g_names g) -> (sumZ (map (fun c => (Z.of_nat c + 1) * a (CX n c)) (seq 0 k)) <= a COpt)%Z
}.
Definition used_cliques (cliques : option (list (list N))) : list (list N) :=
  match cliques with Some cs => firstn 100 (ssort (fun x y => length y <=? length x) cs) | None => [] end.

Lemma firstn_incl : forall A n (l : list A), incl (firstn n l) l.
Proof. intros A n l x I. rewrite <- (firstn_skipn n l). apply in_app_iff. now left. Qed.
Lemma used_in : forall cs q, In q (used_cliques (Some cs)) -> In q cs.
Proof. intros cs q I. apply firstn_incl in I. eapply Permutation_in; [symmetry; apply ssort_perm|exact I]. Qed.

Lemma col_says : forall start es cliques, c_nb start = Some (Z.of_nat k) ->
  (forall n m, In (n, m) es -> In n (g_names g) /\ In m (g_names g)) ->
  (forall q, In q (used_cliques cliques) -> incl q (g_names g)) ->
  exists P, col_milp int g start es cliques = Ok P /\ p_max P = false /\ (forall a, eval a (p_obj P) = a COpt) /\
    forall a, admissible P a <-> meaning es (used_cliques cliques) a.
Proof.
  intros start es cliques S We Wc. unfold col_milp. rewrite S, Nat2Z.id.
  rewrite (mapM_total _ (fun i => Constr (esum (map (fun c => evar (CX (int i) c)) (seq 0 k))) SEq (econst 1)))
    by (intros i Ii; apply in_seq in Ii; apply one_ok; lia). cbn [bind].
  replace (match cliques with None => Ok [] | Some cs => mapM (col_clique g k) (firstn 100 (ssort (fun x y => length y <=? length x) cs)) end)
    with (Ok (map clique_constrs (used_cliques cliques))).
  2: { destruct cliques as [cs|]; [|reflexivity]. symmetry. apply mapM_total. intros q Iq. apply clique_ok, Wc, Iq. }
  cbn [bind].
  rewrite (mapM_total _ (fun ec => Constr (eadd (evar (CX (fst (fst ec)) (snd ec))) (evar (CX (snd (fst ec)) (snd ec)))) SLe (econst 1))).
  2: { intros [[n m] c] I. apply in_flat_map in I as ([n' m'] & I & I'). apply in_map_iff in I' as (d & E & Id).
       injection E as -> -> ->. apply in_seq in Id. destruct (We n m I). unfold col_edge. cbn [fst snd].
       rewrite !x_ok by (auto; lia). reflexivity. }
  cbn [bind].
  rewrite (mapM_total _ (fun i => Constr (esum (map (fun c => escale (Z.of_nat c + 1) (evar (CX (int i) c))) (seq 0 k))) SLe (evar COpt)))
    by (intros i Ii; apply in_seq in Ii; apply opt_ok; lia). cbn [bind].
  eexists. split; [reflexivity|]. split; [reflexivity|]. split; [intros a; apply eval_var|]. intros a. split.
  - intros [Bo Co]. cbn [p_vars p_constrs] in *. split.
    + intros n c I H. specialize (Bo (binary_var (CX n c))). unfold in_bounds, binary_var in Bo. cbn in Bo. apply Bo.
      apply in_app_iff. left. apply in_map_iff. exists (n, c). split; auto. now apply pairs_in.
    + specialize (Bo (Var COpt 0 (Some (Z.of_nat k)))). unfold in_bounds in Bo. cbn in Bo. apply Bo. apply in_app_iff. right. now left.
    + intros n I. destruct (numbers n I) as (i & Hi & ->).
      specialize (Co (Constr (esum (map (fun c => evar (CX (int i) c)) (seq 0 k))) SEq (econst 1))).
      unfold holds in Co. cbn [c_sense c_left c_right] in Co. rewrite eval_sum_map, eval_const in Co.
      rewrite <- Co; [f_equal; apply map_ext; intros; now rewrite eval_var|].
      apply in_app_iff. left. apply in_map_iff. exists i. split; auto. apply in_seq. lia.
    + intros q Iq. assert (H : forall cn, In cn (clique_constrs q) -> holds a cn).
      { intros cn Ic. apply Co. apply in_app_iff. right. apply in_app_iff. left. apply in_concat. exists (clique_constrs q). split; auto. now apply in_map. }
      pose proof (H _ (or_introl eq_refl)) as H1. pose proof (H _ (or_intror (or_introl eq_refl))) as H2.
      unfold holds in H1, H2. cbn [c_sense c_left c_right] in H1, H2. rewrite eval_sum_map, eval_const in H1. rewrite eval_sum_map, eval_var in H2.
      rewrite (map_ext _ (fun e => ((Z.of_nat (snd e) + 1) * a (CX (fst e) (snd e)))%Z)) in H1 by (intros; now rewrite eval_scale, eval_var).
      rewrite (map_ext _ (fun e => a (CX (fst e) (snd e)))) in H2 by (intros; now rewrite eval_var). split; [apply Z.ge_le; exact H1|exact H2].
    + intros n m c I H. specialize (Co (Constr (eadd (evar (CX n c)) (evar (CX m c))) SLe (econst 1))).
      unfold holds in Co. cbn [c_sense c_left c_right] in Co. rewrite eval_add, !eval_var, eval_const in Co. apply Co.
      apply in_app_iff. right. apply in_app_iff. right. apply in_app_iff. left. apply in_map_iff. exists (n, m, c). split; auto.
      apply in_flat_map. exists (n, m). split; auto. apply in_map, in_seq. lia.
    + intros n I. destruct (numbers n I) as (i & Hi & ->).
      specialize (Co (Constr (esum (map (fun c => escale (Z.of_nat c + 1) (evar (CX (int i) c))) (seq 0 k))) SLe (evar COpt))).
      unfold holds in Co. cbn [c_sense c_left c_right] in Co. rewrite eval_sum_map, eval_var in Co.
      rewrite (map_ext _ (fun c => ((Z.of_nat c + 1) * a (CX (int i) c))%Z)) in Co by (intros; now rewrite eval_scale, eval_var).
      apply Co. apply in_app_iff. right. apply in_app_iff. right. apply in_app_iff. right.
      apply in_map_iff. exists i. split; auto. apply in_seq. lia.
  - intros M. split; cbn [p_vars p_constrs].
    + intros v I. apply in_app_iff in I as [I|[<-|[]]].
      * apply in_map_iff in I as ([n c] & <- & I). apply (proj1 (pairs_in _ _ _)) in I as [I1 I2]. apply (me_binary _ _ _ M); auto.
      * apply (me_opt _ _ _ M).
    + intros cn I. apply in_app_iff in I as [I|I]; [|apply in_app_iff in I as [I|I]; [|apply in_app_iff in I as [I|I]]].
      * apply in_map_iff in I as (i & <- & I). apply in_seq in I. unfold holds. cbn [c_sense c_left c_right].
        rewrite eval_sum_map, eval_const. rewrite <- (me_one _ _ _ M (int i)) by (apply num; lia).
        f_equal. apply map_ext. intros. apply eval_var.
      * apply in_concat in I as (l & Il & I). apply in_map_iff in Il as (q & <- & Iq). destruct (me_clique _ _ _ M q Iq) as [M1 M2].
        destruct I as [<-|[<-|[]]]; unfold holds; cbn [c_sense c_left c_right]; rewrite eval_sum_map, ?eval_const, ?eval_var.
        -- rewrite (map_ext _ (fun e => ((Z.of_nat (snd e) + 1) * a (CX (fst e) (snd e)))%Z)) by (intros; now rewrite eval_scale, eval_var). apply Z.le_ge. exact M1.
        -- rewrite (map_ext _ (fun e => a (CX (fst e) (snd e)))) by (intros; now rewrite eval_var). exact M2.
      * apply in_map_iff in I as ([[n m] c] & <- & I). apply in_flat_map in I as ([n' m'] & I & I').
        apply in_map_iff in I' as (d & E & Id). injection E as -> -> ->. apply in_seq in Id.
        unfold holds. cbn [c_sense c_left c_right fst snd]. rewrite eval_add, !eval_var, eval_const. apply (me_edge _ _ _ M); auto. lia.
      * apply in_map_iff in I as (i & <- & I). apply in_seq in I. unfold holds. cbn [c_sense c_left c_right].
        rewrite eval_sum_map, eval_var.
        rewrite (map_ext _ (fun c => ((Z.of_nat c + 1) * a (CX (int i) c))%Z)) by (intros; now rewrite eval_scale, eval_var).
        apply (me_max _ _ _ M). apply num. lia.
Qed.

(** * Reading back *)
Definition is_colour (a : cvar N -> Z) (n : N) (c : nat) : Prop :=
  c < k /\ forall c', c' < k -> a (CX n c') = if Nat.eqb c' c then 1%Z else 0%Z.

Lemma read_colours : forall a l sol, (forall n c, In (n, c) l -> In n (g_names g)) -> length sol = length (g_names g) ->
  exists sol', foldM (col_read g a) sol l = Ok sol' /\ length sol' = length (g_names g) /\
    forall i n v, nth_error (g_names g) i = Some n -> (forall c, In (n, c) l -> (1 <= a (CX n c))%Z -> c = v) ->
      nth_error sol i = Some (Z.of_nat v) \/ (In (n, v) l /\ (1 <= a (CX n v))%Z) -> nth_error sol' i = Some (Z.of_nat v).
Proof.
  intros a. induction l as [|[n c] l IH]; intros sol W L; cbn [foldM].
  - exists sol. split; auto. split; auto. intros i n v _ _ [H|[[] _]]. exact H.
  - assert (In n (g_names g)) as I by (apply (W n c); now left). apply In_nth_error in I as [j Hj].
    assert (Lj : j < length (g_names g)) by (apply nth_error_Some; congruence).
    unfold col_read at 1. cbn [fst snd]. destruct (Z.leb_spec 1 (a (CX n c))) as [On|Off].
    + unfold dgetE. rewrite (index_nodes_get (fun _ _ => true) g j n nd Hj). cbn [bind].
      rewrite (proj2 (lput_ok sol j (Z.of_nat c) (lset sol j (Z.of_nat c)))) by (split; [lia|reflexivity]). cbn [bind].
      destruct (IH (lset sol j (Z.of_nat c))) as (sol' & E & L' & G); [intros; eapply W; right; eauto|rewrite lset_length; auto|].
      exists sol'. split; auto. split; auto. intros i m v Hi U H. apply (G i m v Hi); [intros; apply U; auto; now right|].
      rewrite lset_nth_error. destruct (Nat.eqb_spec j i) as [Eji|Ne].
      * subst i. assert (m = n) by congruence. subst m. rewrite (U c (or_introl eq_refl) On).
        destruct (Nat.ltb_spec j (length sol)); [|lia]. auto.
      * destruct H as [H|[[E'|H] Hv]]; auto. injection E' as <- <-. exfalso. apply Ne. eapply NoDup_nth_error; eauto. congruence.
    + cbn [bind]. destruct (IH sol) as (sol' & E & L' & G); [intros; eapply W; right; eauto|auto|].
      exists sol'. split; auto. split; auto. intros i m v Hi U H. apply (G i m v Hi); [intros; apply U; auto; now right|].
      destruct H as [H|[[E'|H] Hv]]; auto. injection E' as <- <-. lia.
Qed.

Lemma retrieved : forall start a (c : N -> nat), c_nb start = Some (Z.of_nat k) ->
  (forall n, In n (g_names g) -> is_colour a n (c n)) ->
  col_retrieve g start a = Ok (mkCsol (map (fun n => Z.of_nat (c n)) (g_names g)) None None).
Proof.
  intros start a c S H. unfold col_retrieve. rewrite S, Nat2Z.id.
  destruct (read_colours a (col_pairs (g_names g) k) (repeat 0%Z (length (g_names g)))) as (sol & E & L & G).
  - intros n d I. apply (proj1 (pairs_in _ _ _)) in I. tauto.
  - apply repeat_length.
  - rewrite E. cbn [bind]. do 2 f_equal. apply nth_error_ext. intros i. rewrite nth_error_map.
    destruct (nth_error (g_names g) i) as [n|] eqn:Hi.
    + cbn [option_map]. destruct (H n (nth_error_In _ _ Hi)) as [Hc U]. apply (G i n (c n) Hi).
      * intros d I On. apply (proj1 (pairs_in _ _ _)) in I as [_ Hd]. rewrite (U d Hd) in On. destruct (Nat.eqb_spec d (c n)); [auto|lia].
      * right. split; [apply pairs_in; split; auto; eapply nth_error_In; eauto|]. rewrite (U _ Hc), Nat.eqb_refl. lia.
    + cbn [option_map]. apply nth_error_None. apply nth_error_None in Hi. lia.
Qed.

(** The colour a solution gives to a node. *)
Definition colour_in (a : cvar N -> Z) (n : N) : nat := match find (fun c => (1 <=? a (CX n c))%Z) (seq 0 k) with Some c => c | None => 0 end.
Lemma colour_is : forall es cl a n, meaning es cl a -> In n (g_names g) -> is_colour a n (colour_in a n).
Proof.
  intros es cl a n M I. destruct (sum_one _ (fun c => a (CX n c)) (seq 0 k)) as (c & Ic & E & U).
  - intros c Ic. apply in_seq in Ic. apply (me_binary _ _ _ M); auto. lia.
  - apply seq_NoDup.
  - apply (me_one _ _ _ M); auto.
  - apply in_seq in Ic. assert (colour_in a n = c) as ->.
    { unfold colour_in. destruct (find (fun c => (1 <=? a (CX n c))%Z) (seq 0 k)) as [d|] eqn:F.
      - apply find_some in F as [F1 F2]. destruct (Nat.eq_dec d c) as [|Ne]; auto. rewrite (U d F1 Ne) in F2. lia.
      - exfalso. pose proof (find_none _ _ F c ltac:(apply in_seq; lia)). cbn in H. lia. }
    split; [lia|]. intros d Hd. destruct (Nat.eqb_spec d c) as [->|Ne]; auto. apply U; auto. apply in_seq. lia.
Qed.
Lemma weighted : forall a n c (w : nat -> Z), is_colour a n c -> sumZ (map (fun d => (w d * a (CX n d))%Z) (seq 0 k)) = w c.
Proof.
  intros a n c w [H U]. rewrite (sum_indicator _ _ _ c); [|apply seq_NoDup|apply in_seq; lia|].
  - rewrite U, Nat.eqb_refl by auto. lia.
  - intros d Id Ne. apply in_seq in Id. rewrite U by lia. destruct (Nat.eqb_spec d c); [congruence|lia].
Qed.
Lemma weighted_pairs : forall a (c : N -> nat) (w : nat -> Z) q, (forall n, In n q -> is_colour a n (c n)) ->
  sumZ (map (fun e => (w (snd e) * a (CX (fst e) (snd e)))%Z) (col_pairs q k)) = sumZ (map (fun n => w (c n)) q).
Proof.
  intros a c w. induction q as [|n q IH]; intros H; [reflexivity|]. unfold col_pairs in *. cbn [flat_map map].
  rewrite map_app, sumZ_app, sumZ_cons, IH, map_map by (intros; apply H; now right). cbn [fst snd].
  rewrite (weighted a n (c n) w); [reflexivity|]. apply H. now left.
Qed.

(** The assignment made from a colouring with [m] colours. *)
Definition colours (c : N -> nat) (m : Z) (v : cvar N) : Z :=
  match v with CX n d => if Nat.eqb d (c n) then 1%Z else 0%Z | COpt => m end.
Lemma colours_is : forall c m n, c n < k -> is_colour (colours c m) n (c n).
Proof. intros c m n H. split; auto. Qed.
End Sol.

(** * The theorems *)
Section Theorems.
Context {N V : Type} {EN : PyEq N} (le : N -> N -> bool).
Implicit Types (nodes : list (N * attrs V)) (edges : list (N * N * attrs V)).

Lemma edges_named : forall nodes edges u es, well_formed nodes edges -> lists_edges edges es ->
  forall n m, In (n, m) es -> In n (g_names (make_graph le nodes edges u)) /\ In m (g_names (make_graph le nodes edges u)).
Proof.
  intros nodes edges u es W [L _] n m I. destruct (names_spec le nodes edges u) as [_ Nm].
  destruct (L n m I) as (d & [D|D]); destruct (W _ _ _ D); split; apply Nm; auto.
Qed.
Lemma cliques_named : forall nodes edges u cliques, all_cliques (get_nodes (make_graph le nodes edges u)) edges cliques ->
  forall q, In q (used_cliques cliques) -> incl q (g_names (make_graph le nodes edges u)).
Proof.
  intros nodes edges u cliques A q I. destruct cliques as [cs|]; [|destruct I]. apply used_in in I. apply (A cs q eq_refl I).
Qed.

(** Every solution of the program is read back as a colouring that uses fewer colours than the start solution,
    and no colour number beyond the objective. *)
Theorem C124_sound : forall int nodes edges u start nb es cliques P a, let g := make_graph le nodes edges u in
  well_formed nodes edges -> numbered int (get_nodes g) -> lists_edges edges es -> all_cliques (get_nodes g) edges cliques ->
  c_nb start = Some nb -> (0 <= nb)%Z -> col_milp int g start es cliques = Ok P -> admissible P a ->
  exists c, col_retrieve g start a = Ok (mkCsol (map c (get_nodes g)) None None) /\ proper edges c /\
    (eval a (p_obj P) <= nb)%Z /\ forall n, In n (get_nodes g) -> (0 <= c n < eval a (p_obj P))%Z.
Proof.
  intros int nodes edges u start nb es cliques P a g W Nu Le Cl S Hnb E A. rewrite <- (Z2Nat.id nb Hnb) in S.
  destruct (names_spec le nodes edges u) as [Nd Nm]. fold g in Nd, Nm.
  destruct (col_says int g (Z.to_nat nb) Nu start es cliques S (edges_named nodes edges u es W Le) (cliques_named nodes edges u cliques Cl))
    as (P' & E' & _ & Ob & Ad). rewrite E in E'. injection E' as <-. apply (proj1 (Ad a)) in A.
  assert (Is : forall n, In n (g_names g) -> is_colour (Z.to_nat nb) a n (colour_in (Z.to_nat nb) a n))
    by (intros n I; exact (colour_is g (Z.to_nat nb) _ _ a n A I)).
  exists (fun n => Z.of_nat (colour_in (Z.to_nat nb) a n)). split; [apply (retrieved g (Z.to_nat nb) Nd); auto|]. rewrite Ob. split; [|split].
  - intros n m d I. destruct (W n m d I) as [In1 In2]. apply Nm in In1, In2.
    destruct (Is n In1) as [H1 U1], (Is m In2) as [H2 U2]. intros Eq. apply Nat2Z.inj in Eq.
    set (c := colour_in (Z.to_nat nb) a n) in *. rewrite <- Eq in U2.
    pose proof (U1 c H1) as V1. pose proof (U2 c H1) as V2. rewrite Nat.eqb_refl in V1, V2.
    destruct (proj2 Le n m) as [Ie|Ie]; [exists d; auto| |]; pose proof (me_edge _ _ _ _ _ A _ _ c Ie H1); lia.
  - pose proof (me_opt _ _ _ _ _ A). lia.
  - intros n I. split; [lia|]. pose proof (me_max _ _ _ _ _ A n I) as H.
    rewrite (weighted _ a n (colour_in (Z.to_nat nb) a n) (fun d => (Z.of_nat d + 1)%Z)) in H by auto. lia.
Qed.

(** Every colouring by the colours 0, 1, …, m-1 is read back from a solution with objective m, the constraints on
    cliques included. *)
Theorem C124_complete : forall int nodes edges u start nb es cliques c m, let g := make_graph le nodes edges u in
  well_formed nodes edges -> numbered int (get_nodes g) -> lists_edges edges es -> all_cliques (get_nodes g) edges cliques ->
  c_nb start = Some nb -> proper edges c -> (forall n, In n (get_nodes g) -> (0 <= c n < m)%Z) -> (0 <= m <= nb)%Z ->
  exists P a, col_milp int g start es cliques = Ok P /\ admissible P a /\ eval a (p_obj P) = m /\
    col_retrieve g start a = Ok (mkCsol (map c (get_nodes g)) None None).
Proof.
  intros int nodes edges u start nb es cliques c m g W Nu Le Cl S Pr Rg Hm. rewrite <- (Z2Nat.id nb) in S by lia.
  destruct (names_spec le nodes edges u) as [Nd Nm]. fold g in Nd, Nm.
  destruct (col_says int g (Z.to_nat nb) Nu start es cliques S (edges_named nodes edges u es W Le) (cliques_named nodes edges u cliques Cl))
    as (P & E & _ & Ob & Ad). set (cn := fun n => Z.to_nat (c n)). set (a := colours cn m).
  assert (Is : forall n, In n (g_names g) -> is_colour (Z.to_nat nb) a n (cn n)).
  { intros n I. apply colours_is. specialize (Rg n I). unfold cn. lia. }
  exists P, a. split; auto. split; [|split; [apply Ob|]].
  - apply (proj2 (Ad a)). split.
    + intros n d I H. cbn [a colours]. destruct (Nat.eqb d (cn n)); lia.
    + cbn [a colours]. lia.
    + intros n I. rewrite <- (weighted _ a n (cn n) (fun _ => 1%Z) (Is n I)). f_equal. apply map_ext. intros. lia.
    + intros q Iq. destruct cliques as [cs|]; [|destruct Iq]. apply used_in in Iq. destruct (Cl cs q eq_refl Iq) as (Nq & Sq & Aq).
      assert (Nc : NoDup (map c q)).
      { clear - Nq Sq Aq Pr. assert (H : forall n m, In n q -> In m q -> c n = c m -> n = m).
        { intros n m In1 In2 Ec. destruct (py_dec n m) as [|Ne]; auto. destruct (Aq n m In1 In2 Ne) as (d & [D|D]); apply Pr in D; congruence. }
        clear - Nq H. induction Nq as [|x l Nx Nl IH]; [constructor|]. cbn [map]. constructor.
        - intros I. apply in_map_iff in I as (y & Ey & Iy). apply Nx. rewrite (H x y); auto; [now left|now right].
        - apply IH. intros n m I1 I2. apply H; now right. }
      split.
      * rewrite (weighted_pairs _ a cn (fun d => (Z.of_nat d + 1)%Z)) by (intros; apply Is, Sq; auto).
        rewrite (map_ext_in _ (fun n => (c n + 1)%Z)) by (intros n I; pose proof (Rg n (Sq n I)); unfold cn; lia).
        replace (map (fun n => (c n + 1)%Z) q) with (map (fun x => (x + 1)%Z) (map c q)) by (rewrite map_map; reflexivity).
        apply distinct_sum; auto; [apply map_length|]. intros x I. apply in_map_iff in I as (n & <- & I). apply Rg, Sq, I.
      * rewrite (map_ext _ (fun e => (1 * a (CX (fst e) (snd e)))%Z)) by (intros; lia).
        rewrite (weighted_pairs _ a cn (fun _ => 1%Z)) by (intros; apply Is, Sq; auto).
        assert (L : length q <= Z.to_nat m).
        { rewrite <- (map_length c q). replace (Z.to_nat m) with (length (map Z.of_nat (seq 0 (Z.to_nat m)))) by (rewrite map_length; apply seq_length).
          apply NoDup_incl_length; auto. intros x I. apply in_map_iff in I as (n & <- & I). pose proof (Rg n (Sq n I)).
          apply in_map_iff. exists (Z.to_nat (c n)). split; [lia|]. apply in_seq. lia. }
        cbn [a colours]. assert (sumZ (map (fun _ : N => 1%Z) q) = Z.of_nat (length q)); [|lia].
        clear. induction q as [|n q IH]; [reflexivity|]. cbn [map length]. rewrite sumZ_cons. lia.
    + intros n n' d I H. destruct (edges_named nodes edges u es W Le n n' I) as [I1 I2]. fold g in I1, I2.
      pose proof (Rg n I1). pose proof (Rg n' I2). assert (c n <> c n') by (destruct (proj1 Le n n' I) as (x & [D|D]); apply Pr in D; congruence).
      cbn [a colours]. unfold cn. destruct (Nat.eqb_spec d (Z.to_nat (c n))), (Nat.eqb_spec d (Z.to_nat (c n'))); lia.
    + intros n I. rewrite (weighted _ a n (cn n) (fun d => (Z.of_nat d + 1)%Z) (Is n I)). specialize (Rg n I). cbn [a colours]. unfold cn. lia.
  - rewrite (retrieved g (Z.to_nat nb) Nd start a cn); auto. do 2 f_equal. apply map_ext_in. intros n I. specialize (Rg n I). unfold cn. lia.
Qed.

Lemma renumbered : forall nodes edges u c k, let g := make_graph le nodes edges u in well_formed nodes edges -> proper edges c ->
  distinct (map c (get_nodes g)) k -> exists c', proper edges c' /\ forall n, In n (get_nodes g) -> (0 <= c' n < k)%Z.
Proof.
  intros nodes edges u c k g W Pr D. destruct (C31_normalise (map c (get_nodes g))) as (L & _ & Same & Rg).
  set (r := value_precede (map c (get_nodes g))) in *. rewrite map_length in L.
  destruct (C31_every_vector le nodes edges u r L) as [c' Er]. fold g in Er. exists c'. split.
  - intros n m d I Eq. destruct (W n m d I) as [I1 I2]. destruct (names_spec le nodes edges u) as [_ Nm]. fold g in Nm.
    apply Nm in I1, I2. apply In_nth_error in I1 as [i Hi]. apply In_nth_error in I2 as [j Hj].
    apply (Pr n m d I). apply (Same i j (c n) (c m) (c' n) (c' m)); auto.
    + rewrite nth_error_map. unfold get_nodes. now rewrite Hi.
    + rewrite nth_error_map. unfold get_nodes. now rewrite Hj.
    + rewrite Er, nth_error_map. unfold get_nodes. now rewrite Hi.
    + rewrite Er, nth_error_map. unfold get_nodes. now rewrite Hj.
  - intros n I. apply (Rg k D). rewrite Er. now apply in_map.
Qed.
Lemma distinct_below : forall l k m, distinct l k -> (0 <= m)%Z -> (forall x, In x l -> (0 <= x < m)%Z) -> (k <= m)%Z.
Proof.
  intros l k m (s & Ns & Is & ->) Hm Rg. assert (L : length s <= length (map Z.of_nat (seq 0 (Z.to_nat m)))).
  { apply NoDup_incl_length; auto. intros x I. apply (proj1 (Is x)) in I. specialize (Rg x I).
    apply in_map_iff. exists (Z.to_nat x). split; [lia|]. apply in_seq. lia. }
  rewrite map_length, seq_length in L. lia.
Qed.

(** An optimal solution is read back as a colouring that is accepted by the problem and uses as few colours as any
    colouring does. *)
Theorem C124_optimal : forall int nodes edges u start nb es cliques P a, let g := make_graph le nodes edges u in
  well_formed nodes edges -> numbered int (get_nodes g) -> lists_edges edges es -> all_cliques (get_nodes g) edges cliques ->
  c_nb start = Some nb -> (0 <= nb)%Z -> col_milp int g start es cliques = Ok P -> optimal P a ->
  exists c, col_retrieve g start a = Ok (mkCsol (map c (get_nodes g)) None None) /\
    satisfy g (mkCsol (map c (get_nodes g)) None None) = Ok true /\
    forall k, distinct (map c (get_nodes g)) k -> (k <= nb)%Z /\
      forall c' k', proper edges c' -> distinct (map c' (get_nodes g)) k' -> (k <= k')%Z.
Proof.
  intros int nodes edges u start nb es cliques P a g W Nu Le Cl S Hnb E [A O].
  destruct (C124_sound int nodes edges u start nb es cliques P a W Nu Le Cl S Hnb E A) as (c & R & Pr & Ob & Rg). fold g in R, Rg.
  exists c. split; auto. split.
  - destruct (C31_satisfy le nodes edges u c None None W) as (b & Eb & Hb). fold g in Eb. rewrite Eb. f_equal. apply Hb. exact Pr.
  - intros k D.
    assert (Hob : (0 <= eval a (p_obj P))%Z).
    { rewrite <- (Z2Nat.id nb Hnb) in S.
      destruct (col_says int g (Z.to_nat nb) Nu start es cliques S (edges_named nodes edges u es W Le) (cliques_named nodes edges u cliques Cl))
        as (P' & E' & _ & Ob' & Ad). rewrite E in E'. injection E' as <-. apply (proj1 (Ad a)) in A. rewrite Ob'. apply (me_opt _ _ _ _ _ A). }
    assert (K : (k <= eval a (p_obj P))%Z).
    { apply (distinct_below _ _ _ D Hob). intros x I. apply in_map_iff in I as (n & <- & I). auto. }
    split; [lia|]. intros c' k' Pr' D'. destruct (Z.le_gt_cases k' nb) as [H|H]; [|lia].
    assert (0 <= k')%Z by (destruct D' as (s & _ & _ & ->); lia).
    destruct (renumbered nodes edges u c' k' W Pr' D') as (c2 & Pr2 & Rg2). fold g in Rg2.
    destruct (C124_complete int nodes edges u start nb es cliques c2 k' W Nu Le Cl S Pr2 Rg2) as (P2 & b & E2 & B & Ob2 & _); [lia|].
    fold g in E2. rewrite E in E2. injection E2 as <-. specialize (O b B). unfold better_or_equal in O.
    rewrite <- (Z2Nat.id nb Hnb) in S.
    destruct (col_says int g (Z.to_nat nb) Nu start es cliques S (edges_named nodes edges u es W Le) (cliques_named nodes edges u cliques Cl))
      as (P' & E' & Mx & _). rewrite E in E'. injection E' as <-. rewrite Mx in O. lia.
Qed.

(** The program of a start solution that is a colouring with the number of colours it claims has a solution: so the
    answer of the exact solver is never worse than the start. *)
Theorem C124_feasible : forall int nodes edges u start nb es cliques c k, let g := make_graph le nodes edges u in
  well_formed nodes edges -> numbered int (get_nodes g) -> lists_edges edges es -> all_cliques (get_nodes g) edges cliques ->
  c_nb start = Some nb -> c_colors start = map c (get_nodes g) -> satisfy g start = Ok true ->
  distinct (c_colors start) k -> (k <= nb)%Z -> exists P a, col_milp int g start es cliques = Ok P /\ admissible P a.
Proof.
  intros int nodes edges u start nb es cliques c k g W Nu Le Cl S Ec Sa D Hk. rewrite Ec in D.
  assert (Pr : proper edges c).
  { destruct (C31_satisfy le nodes edges u c (c_nb start) (c_viol start) W) as (b & Eb & Hb). fold g in Eb.
    rewrite <- Ec in Eb. destruct start as [cs n v]. cbn [c_colors c_nb c_viol] in Eb. rewrite Eb in Sa. injection Sa as ->. exact (proj1 Hb eq_refl). }
  destruct (renumbered nodes edges u c k W Pr D) as (c2 & Pr2 & Rg2). fold g in Rg2.
  destruct (C124_complete int nodes edges u start nb es cliques c2 k W Nu Le Cl S Pr2 Rg2) as (P & a & E & A & _).
  - destruct D as (s & _ & _ & ->). lia.
  - exists P, a. auto.
Qed.
End Theorems.

(** * Example *)
Lemma ex_named : forall u, get_nodes (ex_g u) = [0; 1; 2].
Proof. intros []; reflexivity. Qed.
Definition ex_start : csol := mkCsol [0; 1; 2]%Z (Some 3%Z) (Some 0%Z).
Definition ex_cliques : option (list (list nat)) := Some [[2; 1]; [0; 1]].
Example C124_ex : well_formed ex_nodes ex_edges /\ numbered (fun i => i) (get_nodes (ex_g true)) /\
  lists_edges ex_edges [(0, 1); (1, 2)] /\ all_cliques (get_nodes (ex_g true)) ex_edges ex_cliques /\
  dummy (ex_g true) = Ok ex_start /\
  exists P, col_milp (fun i => i) (ex_g true) ex_start [(0, 1); (1, 2)] ex_cliques = Ok P /\
    length (p_vars P) = 10 /\ length (p_constrs P) = 16 /\
    let a := colours (fun n => if n =? 1 then 1 else 0) 2 in
    admissible P a /\ eval a (p_obj P) = 2%Z /\ col_retrieve (ex_g true) ex_start a = Ok (mkCsol [0; 1; 0]%Z None None).
Proof.
  split; [exact (proj1 C31_ex)|]. split; [split; [auto|]; rewrite ex_named; cbn [length]; intros i H; destruct i as [|[|[|i]]]; cbn; lia|].
  split; [|split; [|split; [reflexivity|]]].
  - split.
    + intros n m [E|[E|[]]]; injection E as <- <-; eexists; left; cbn; eauto.
    + intros n m (d & [D|D]); cbn in D; destruct D as [D|[D|[D|[]]]]; injection D as <- <- <-; cbn; auto.
  - intros cs q E I. injection E as <-. rewrite ex_named. destruct I as [<-|[<-|[]]].
    + split; [repeat constructor; cbn; intuition congruence|]. split; [intros x; cbn; intuition|].
      intros n m [<-|[<-|[]]] [<-|[<-|[]]] Ne; try congruence; eexists; [right|left]; cbn; auto.
    + split; [repeat constructor; cbn; intuition congruence|]. split; [intros x; cbn; intuition|].
      intros n m [<-|[<-|[]]] [<-|[<-|[]]] Ne; try congruence; eexists; [left|right]; cbn; auto.
  - eexists. split; [vm_compute; reflexivity|]. split; [reflexivity|]. split; [reflexivity|]. cbv zeta. split; [|split; reflexivity].
    split; cbn [p_vars p_constrs]; intros k I;
      repeat (destruct I as [<-|I]; [vm_compute; try (split; discriminate); try discriminate; reflexivity|]); destruct I.
Qed.

(** * Where the statements stop *)
(** Nodes that are not named by numbers from 0: the constraints look the nodes up by their position and the
    program cannot be built. *)
Theorem C124_names_refuted : exists (nodes : list (nat * attrs Z)) edges start es c, let g := make_graph Nat.leb nodes edges true in
  well_formed nodes edges /\ proper edges c /\ lists_edges edges es /\ dummy g = Ok start /\
  col_milp (fun i => i) g start es None = Err KeyError.
Proof.
  exists [(1, []); (2, [])], [(1, 2, [])], (mkCsol [0; 1]%Z (Some 2%Z) (Some 0%Z)), [(1, 2)], Z.of_nat. cbv zeta. split; [|split; [|split; [|split; reflexivity]]].
  - intros a b d [E|[]]. injection E as <- <- <-. cbn. auto.
  - intros a b d [E|[]]. injection E as <- <- <-. discriminate.
  - split.
    + intros n m [E|[]]. injection E as <- <-. exists []. left. now left.
    + intros n m (d & [[E|[]]|[E|[]]]); injection E as <- <- <-; cbn; auto.
Qed.

Print Assumptions C124_sound.
Print Assumptions C124_complete.
Print Assumptions C124_optimal.
Print Assumptions C124_feasible.
Print Assumptions C124_names_refuted.
