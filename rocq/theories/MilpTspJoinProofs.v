(** [rebuild_tsp_routine] of MilpTspModel joins the cycles of a solution into one tour. *)
From Coq Require Import List Bool Arith ZArith Lia Permutation Relations.
From Verif Require Import Py PyList PyMore TspModel TspProofs TspProps MilpModel MilpProofs MilpTspModel MilpTspProofs MilpTspCycleProofs.
Import ListNotations.
Open Scope nat_scope.

(** * Tables *)
Lemma number_one : forall (p : list nat) (i : nat) d v,
  dget (fold_left (fun d x => dset d x i) p d) v = if pymem v p then Some i else dget d v.
Proof.
  induction p as [|x p IH]; intros i d v; cbn [fold_left]; [reflexivity|]. rewrite IH.
  change (pymem v (x :: p)) with (pyeqb v x || pymem v p). destruct (pymem v p); [now rewrite orb_true_r|]. rewrite orb_false_r.
  destruct (py_dec v x) as [<-|D]; [rewrite pyeqb_refl; apply dget_dset_same|].
  rewrite (proj2 (pyeqb_false v x) D). apply dget_dset_other. congruence.
Qed.
Lemma number_nodes_get : forall paths, (forall i j p q v, nth_error paths i = Some p -> nth_error paths j = Some q -> In v p -> In v q -> i = j) ->
  forall v i, dget (number_nodes paths) v = Some i <-> exists p, nth_error paths i = Some p /\ In v p.
Proof.
  intros paths D v i. unfold number_nodes.
  assert (K : forall l s d, (forall i j p q v, nth_error l i = Some p -> nth_error l j = Some q -> In v p -> In v q -> i = j) ->
    dget (fold_left (fun d ip => fold_left (fun d p => dset d p (fst ip)) (snd ip) d) (combine (seq s (length l)) l) d) v = Some i <->
    ((exists p, nth_error l (i - s) = Some p /\ s <= i /\ In v p) \/ ((forall p, In p l -> ~ In v p) /\ dget d v = Some i))).
  { induction l as [|p l IH]; intros s d U; cbn [length seq combine fold_left].
    - split; [intros H; right; split; [intros ? []|exact H]|]. intros [(p & H & _)|[_ H]]; [destruct (i - s); discriminate|exact H].
    - rewrite IH; [|intros x y a b w A B IA IB; assert (S x = S y) by (apply (U (S x) (S y) a b w); auto); lia].
      cbn [fst snd]. rewrite number_one. split.
      + intros [(q & H & L & I)|[N H]].
        * left. exists q. replace (i - s) with (S (i - S s)) by lia. repeat split; auto; lia.
        * destruct (pymem v p) eqn:M.
          -- injection H as <-. left. exists p. rewrite Nat.sub_diag. apply pymem_true in M. auto.
          -- right. split; [|exact H]. apply pymem_false in M. intros q [<-|J]; auto.
      + intros [(q & H & L & I)|[N H]].
        * destruct (Nat.eq_dec i s) as [->|Ne].
          -- right. rewrite Nat.sub_diag in H. injection H as ->. split.
             ++ intros q' J J'. apply In_nth_error in J. destruct J as [k J]. assert (0 = S k) by (apply (U 0 (S k) q q' v); auto). discriminate.
             ++ now rewrite (proj2 (pymem_true v q) I).
          -- left. exists q. replace (i - s) with (S (i - S s)) in H by lia. repeat split; auto. lia.
        * right. split; [intros; apply N; now right|]. rewrite (proj2 (pymem_false v p)); [exact H|]. apply N. now left. }
  rewrite (K paths 0 [] D). rewrite Nat.sub_0_r. split.
  - intros [(p & H & _ & I)|[_ H]]; [eauto|discriminate].
  - intros (p & H & I). left. exists p. repeat split; auto. lia.
Qed.

Lemma index_path_get : forall path v, In v path -> exists k, dget (index_path path) v = Some k /\ nth_error path k = Some v.
Proof.
  intros path v I. unfold index_path.
  assert (K : forall l s d, (In v l -> exists k, dget (fold_left (fun d (p : nat * nat) => dset d (fst p) (snd p)) (combine l (seq s (length l))) d) v = Some (s + k) /\ nth_error l k = Some v) /\
    (~ In v l -> dget (fold_left (fun d (p : nat * nat) => dset d (fst p) (snd p)) (combine l (seq s (length l))) d) v = dget d v)).
  { induction l as [|x l IH]; intros s d; cbn [length seq combine fold_left fst snd]; [split; [intros []|reflexivity]|].
    destruct (IH (S s) (dset d x s)) as [A B]. split.
    - intros J. destruct (in_dec Nat.eq_dec v l) as [Y|Y].
      + destruct (A Y) as (k & K1 & K2). exists (S k). split; [rewrite K1; f_equal; lia|exact K2].
      + destruct J as [->|J]; [|contradiction]. exists 0. rewrite (B Y), dget_dset_same. split; [f_equal; lia|reflexivity].
    - intros N. rewrite B; [|intros J; apply N; now right]. apply dget_dset_other. intros ->. apply N. now left. }
  destruct (K path 0 []) as [A _]. destruct (A I) as (k & K1 & K2). eauto.
Qed.

(** * A cycle walked backwards *)
Lemma unroll_ok : forall pc k, k < length pc -> unroll pc k = Ok (rev (firstn (S k) pc) ++ rev (skipn (S k) pc)).
Proof.
  intros pc k L. unfold unroll.
  set (pos := fun i => Z.to_nat ((Z.of_nat k - Z.of_nat i) mod Z.of_nat (length pc))).
  assert (Ps : forall i, i < length pc -> pos i = if i <=? k then k - i else length pc + k - i).
  { intros i Li. unfold pos. destruct (Nat.leb_spec i k) as [H|H].
    - rewrite Z.mod_small by lia. lia.
    - replace (Z.of_nat k - Z.of_nat i)%Z with ((Z.of_nat (length pc) + Z.of_nat k - Z.of_nat i) + (-1) * Z.of_nat (length pc))%Z by lia.
      rewrite Z.mod_add by lia. rewrite Z.mod_small by lia. lia. }
  assert (Hf : forall j, j < S k -> nth j (firstn (S k) pc) 0 = nth j pc 0).
  { intros j Lj. rewrite <- (firstn_skipn (S k) pc) at 2. rewrite app_nth1; [reflexivity|]. rewrite firstn_length. lia. }
  assert (Hk : forall j, nth j (skipn (S k) pc) 0 = nth (S k + j) pc 0).
  { intros j. rewrite <- (firstn_skipn (S k) pc) at 2. rewrite app_nth2 by (rewrite firstn_length; lia).
    f_equal. rewrite firstn_length. lia. }
  rewrite (mapM_total _ (fun i => nth (pos i) pc 0)).
  - f_equal. apply (nth_ext _ _ 0 0).
    + rewrite map_length, seq_length, app_length, !rev_length, firstn_length, skipn_length. lia.
    + rewrite map_length, seq_length. intros i Li.
      rewrite (nth_indep _ 0 (nth (pos 0) pc 0)) by (rewrite map_length, seq_length; exact Li).
      rewrite (map_nth (fun i => nth (pos i) pc 0)), seq_nth by exact Li. cbn [plus]. rewrite (Ps i Li).
      destruct (Nat.leb_spec i k) as [H|H].
      * rewrite app_nth1 by (rewrite rev_length, firstn_length; lia). rewrite rev_nth by (rewrite firstn_length; lia).
        rewrite firstn_length. replace (Nat.min (S k) (length pc) - S i) with (k - i) by lia.
        symmetry. apply Hf. lia.
      * rewrite app_nth2 by (rewrite rev_length, firstn_length; lia). rewrite rev_length, firstn_length.
        rewrite rev_nth by (rewrite skipn_length; lia). rewrite skipn_length.
        rewrite Hk. f_equal. lia.
  - intros i I. apply in_seq in I. fold (pos i). unfold lget.
    rewrite (nth_error_nth' pc 0); [reflexivity|]. rewrite (Ps i) by lia. destruct (Nat.leb_spec i k); lia.
Qed.
Lemma unroll_perm : forall (pc : list nat) k, Permutation (rev (firstn (S k) pc) ++ rev (skipn (S k) pc)) pc.
Proof.
  intros pc k. rewrite <- (firstn_skipn (S k) pc) at 3.
  apply Permutation_app; apply Permutation_sym, Permutation_rev.
Qed.
Lemma unroll_first : forall (pc : list nat) k x, nth_error pc k = Some x -> exists m, rev (firstn (S k) pc) ++ rev (skipn (S k) pc) = x :: m.
Proof.
  intros pc k x H. rewrite (firstn_snoc _ _ H), rev_app_distr. cbn [rev app]. eauto.
Qed.
Lemma unroll_last : forall (pc : list nat) k x, k < length pc -> nth_error pc (if length pc <=? k + 1 then 0 else k + 1) = Some x ->
  exists m, rev (firstn (S k) pc) ++ rev (skipn (S k) pc) = m ++ [x].
Proof.
  intros pc k x L H. destruct (Nat.leb_spec (length pc) (k + 1)) as [G|G].
  - rewrite (skipn_all2 pc) by lia. rewrite firstn_all2 by lia. cbn [rev]. rewrite app_nil_r.
    destruct pc as [|y pc]; [discriminate|]. injection H as ->. cbn [rev]. eauto.
  - replace (k + 1) with (S k) in H by lia. rewrite (skipn_nth _ _ H). cbn [rev]. rewrite app_assoc. eauto.
Qed.

(** * Joining *)
Lemma cross : forall (f : nat -> bool) p a v, f a = true -> In v p -> f v = false ->
  exists x y, In (x, y) (hops (a :: p)) /\ f x = true /\ f y = false.
Proof.
  intros f. induction p as [|b p IH]; intros a v A I V; [destruct I|]. rewrite hops_cons.
  destruct (f b) eqn:B.
  - destruct I as [->|I]; [congruence|]. destruct (IH b v B I V) as (x & y & J & X). exists x, y. split; [now right|exact X].
  - exists a, b. split; [now left|auto].
Qed.
Lemma cross_both : forall (f : nat -> bool) p x y, In x p -> In y p -> f x <> f y ->
  exists a b, In (a, b) (hops p) /\ f a <> f b.
Proof.
  intros f p x y Ix Iy D. destruct p as [|a p]; [destruct Ix|].
  assert (Z : exists z, In z p /\ f z <> f a).
  { destruct (bool_dec (f x) (f a)) as [E|E].
    - exists y. split; [|congruence]. destruct Iy as [<-|Iy]; [congruence|exact Iy].
    - exists x. split; [|congruence]. destruct Ix as [<-|Ix]; [congruence|exact Ix]. }
  destruct Z as (z & Iz & Dz). destruct (f a) eqn:Fa.
  - destruct (cross f p a z Fa Iz) as (u & v & I & U & V); [destruct (f z); congruence|]. exists u, v. split; auto. congruence.
  - destruct (cross (fun w => negb (f w)) p a z) as (u & v & I & U & V); [now rewrite Fa|exact Iz|destruct (f z); [reflexivity|congruence]|].
    exists u, v. split; auto. destruct (f u), (f v); cbn in *; congruence.
Qed.
Lemma hops_sub : forall l1 l l2 a b, In (a, b) (hops l) -> In (a, b) (hops (l1 ++ l ++ l2)).
Proof.
  intros l1 l l2 a b I. apply hops_In in I. destruct I as (p1 & p2 & ->).
  replace (l1 ++ (p1 ++ a :: b :: p2) ++ l2) with ((l1 ++ p1) ++ a :: b :: (p2 ++ l2)) by (rewrite <- !app_assoc; reflexivity). apply hops_mid.
Qed.

Section Join.
Variable order : list edge -> list edge.
Hypothesis Hord : rearranges order.
Context {P : Type}.
Variable len : P -> P -> Z.
Hypothesis sym : forall p q, len p q = len q p.
Variable p0 : P.
Variable t : tsp (P:=P).
Hypothesis Ht : fits t.
Hypothesis Hi : length_permutation t <> 0.
Let n := t_n t.
Let s := t_start t.
Let e_ := t_end t.
Variable es : list edge.
Hypothesis Hes : forall a b, In (a, b) es -> a < n /\ b < n.
Variable comps : list (list nat).
Hypothesis Hdis : forall i j c d v, nth_error comps i = Some c -> nth_error comps j = Some d -> In v c -> In v d -> i = j.
Hypothesis Hall : forall v, v < n -> exists i c, nth_error comps i = Some c /\ In v c.
Hypothesis Hrange : forall c v, In c comps -> In v c -> v < n.
Hypothesis Hne : forall c, In c comps -> c <> [].
Hypothesis Hends : forall c, In c comps -> (In s c <-> In e_ c).
Variables (paths : list (list nat)) (indexes : list (list (nat * nat))) (ntc : list (nat * nat)).
Hypothesis Hntc : forall v i, dget ntc v = Some i <-> exists c, nth_error comps i = Some c /\ In v c.
Hypothesis Hcyc : forall i c, nth_error comps i = Some c -> exists path ixs, nth_error paths i = Some path /\ nth_error indexes i = Some ixs /\
  (forall h, In h (hops path) -> In h es) /\ (forall v, In v path <-> In v c) /\
  (forall v, In v c -> exists k, dget ixs v = Some k /\ nth_error path k = Some v) /\
  (In s c -> exists q, path = s :: q ++ [e_] /\ NoDup (s :: q) /\ ~ In e_ q) /\
  (~ In s c -> NoDup path).
(** Every two nodes are joined by an edge; no edge goes from a node to itself. *)
(** Edges in both directions, none from a node to itself, and some tour among them. *)
Definition full : Prop := (forall a b, In (a, b) es -> In (b, a) es) /\ (forall a, ~ In (a, a) es) /\
  exists q, visits t q /\ forall h, In h (hops (s :: q ++ [e_])) -> In h es.

Let nb := length comps.

Lemma n_start : s < n. Proof. apply Ht. Qed.
Lemma n_end : e_ < n. Proof. apply Ht. Qed.

Definition start_component (cs : nat) : Prop := exists c, nth_error comps cs = Some c /\ In s c.
Lemma start_exists : exists cs, start_component cs.
Proof. destruct (Hall s n_start) as (i & c & H & I). exists i, c. auto. Qed.

Record joined_ok (cs : nat) (g : graph) (path : list nat) (joined : list nat) : Prop := {
  j_nodup : NoDup joined;
  j_range : forall i, In i joined -> i < nb;
  j_start : In cs joined;
  j_shape : exists q, path = s :: q ++ [e_] /\ NoDup (s :: q) /\ ~ In e_ q /\ (full -> s = e_ -> q <> []);
  j_members : forall v, In v path <-> exists i c, In i joined /\ nth_error comps i = Some c /\ In v c;
  j_hops : forall h, In h (hops path) -> In h (dkeys g);
  j_graph : incl es (dkeys g)
}.

(** A way of inserting a component that fits the path. *)
Definition suits (path : list nat) (x : nat * edge * edge * nat) : Prop :=
  let '(c, out, ein, i) := x in
  In out es /\ nth_error path i = Some (fst out) /\ ~ In (snd out) path /\ nth_error path (i + 1) = Some (snd ein) /\
  exists comp pc ixs k, nth_error comps c = Some comp /\ In (snd out) comp /\ nth_error paths c = Some pc /\
    nth_error indexes c = Some ixs /\ dget ixs (snd out) = Some k /\ nth_error pc k = Some (snd out) /\
    nth_error pc (if length pc <=? k + 1 then 0 else k + 1) = Some (fst ein).
Definition suits1 (path : list nat) (b : choice) : Prop :=
  match b with None => True | Some (_, x) => suits path x /\ In (snd (fst x)) es end.
Definition suits2 (path : list nat) (b : choice) : Prop :=
  match b with None => True | Some (_, x) => suits path x end.
Definition skipped (path : list nat) (e : edge) : Prop := dget (index_path path) (fst e) = Some (length path - 1).

Lemma look_ok : forall cs g path joined b e, start_component cs -> joined_ok cs g path joined ->
  In e es -> In (fst e) path -> ~ In (snd e) path -> suits1 path (fst b) -> suits2 path (snd b) ->
  exists b', look paths indexes ntc g path (index_path path)
     (filter (fun e => negb (pymem (fst e) path) && pymem (snd e) path) es) cs nb (length joined) b e = Ok b' /\
   suits1 path (fst b') /\ suits2 path (snd b') /\ (b <> (None, None) -> b' <> (None, None)) /\
   (~ skipped path e -> b' <> (None, None)).
Proof.
  intros cs g path joined b [x y] SC J Ie If Is B1 B2. cbn [fst snd] in If, Is. unfold look. cbn [fst snd].
  destruct (index_path_get path x If) as (k & Dk & Nk). unfold dgetE at 1. rewrite Dk. cbn [bind].
  destruct (Nat.eqb_spec k (length path - 1)) as [El|Nl].
  { exists b. split; [reflexivity|]. split; [exact B1|]. split; [exact B2|]. split; [auto|]. intros Sk. exfalso. apply Sk.
    unfold skipped. cbn [fst]. now rewrite Dk, El. }
  assert (Lk : k < length path) by (apply nth_error_Some; congruence).
  destruct (nth_error path (k + 1)) as [z|] eqn:Nz; [|apply nth_error_None in Nz; lia].
  unfold lget at 1. rewrite Nz. cbn [bind].
  destruct (Hes x y Ie) as [_ Yn]. destruct (Hall y Yn) as (c & comp & Hc & Iy).
  unfold dgetE at 1. rewrite (proj2 (Hntc y c)) by eauto. cbn [bind].
  assert (Nc : c <> cs).
  { intros ->. apply Is. apply (j_members _ _ _ _ J). exists cs, comp. split; [apply J|auto]. }
  destruct (Nat.eqb_spec c cs) as [|_]; [contradiction|]. cbn [andb].
  destruct (Hcyc c comp Hc) as (pc & ixs & Hp & Hx & _ & _ & Pos & _ & _).
  destruct (Pos y Iy) as (m & Dm & Nm).
  unfold lget at 1. rewrite Hx. cbn [bind]. unfold dgetE at 1. rewrite Dm. cbn [bind].
  unfold lget at 1. rewrite Hp. cbn [bind].
  assert (Lm : m < length pc) by (apply nth_error_Some; congruence).
  destruct (nth_error pc (if length pc <=? m + 1 then 0 else m + 1)) as [u|] eqn:Nu.
  2:{ apply nth_error_None in Nu. destruct (Nat.leb_spec (length pc) (m + 1)); lia. }
  unfold lget at 1. rewrite Nu. cbn [bind].
  destruct (proj1 (dget_keys _ _ g (x, y)) (j_graph _ _ _ _ J _ Ie)) as [w1 W1]. unfold dgetE at 1. rewrite W1. cbn [bind].
  assert (Su : suits path (c, (x, y), (u, z), k)).
  { unfold suits. cbn [fst snd]. repeat split; auto. exists comp, pc, ixs, m. repeat split; auto. }
  destruct (pymem (u, z) (filter (fun e => negb (pymem (fst e) path) && pymem (snd e) path) es)) eqn:M.
  - apply pymem_true in M. apply filter_In in M. destruct M as [Mes _].
    destruct (proj1 (dget_keys _ _ g (u, z)) (j_graph _ _ _ _ J _ Mes)) as [w2 W2]. unfold dgetE at 1. rewrite W2. cbn [bind].
    assert (Hz : In (x, z) (dkeys g)).
    { apply (j_hops _ _ _ _ J). eapply hops_nth; [exact Nk|]. now rewrite <- (Nat.add_1_r k). }
    destruct (proj1 (dget_keys _ _ g (x, z)) Hz) as [w3 W3]. unfold dgetE at 1. rewrite W3. cbn [bind].
    eexists. split; [reflexivity|]. cbn [fst snd]. split.
    + destruct (cheaper _ (fst b)); [split; [exact Su|exact Mes]|exact B1].
    + split; [exact B2|]. assert (Hn : ((if cheaper (w1 + w2 - w3) (fst b) then Some ((w1 + w2 - w3)%Z, (c, (x, y), (u, z), k)) else fst b, snd b) : choice * choice) <> (None, None)).
      { destruct b as [[[m1 x1]|] b2]; cbn [fst snd cheaper]; [destruct (Z.ltb _ m1); discriminate|discriminate]. }
      split; intros _; exact Hn.
  - eexists. split; [reflexivity|]. cbn [fst snd]. split; [exact B1|]. split.
    + destruct (cheaper _ (snd b)); [exact Su|exact B2].
    + assert (Hn : ((fst b, if cheaper w1 (snd b) then Some (w1, (c, (x, y), (u, z), k)) else snd b) : choice * choice) <> (None, None)).
      { destruct b as [b1 [[m1 x1]|]]; cbn [fst snd cheaper]; [destruct (Z.ltb _ m1); intros X; injection X; discriminate|intros X; injection X; discriminate]. }
      split; intros _; exact Hn.
Qed.

Lemma looks_ok : forall cs g path joined l b, start_component cs -> joined_ok cs g path joined ->
  (forall e, In e l -> In e es /\ In (fst e) path /\ ~ In (snd e) path) -> suits1 path (fst b) -> suits2 path (snd b) ->
  exists b', foldM (look paths indexes ntc g path (index_path path)
     (filter (fun e => negb (pymem (fst e) path) && pymem (snd e) path) es) cs nb (length joined)) b l = Ok b' /\
   suits1 path (fst b') /\ suits2 path (snd b') /\ (b <> (None, None) -> b' <> (None, None)) /\
   ((exists e, In e l /\ ~ skipped path e) -> b' <> (None, None)).
Proof.
  intros cs g path joined. induction l as [|e l IH]; intros b SC J L B1 B2; cbn [foldM].
  - exists b. repeat split; auto. intros (e & [] & _).
  - destruct (L e (or_introl eq_refl)) as (E1 & E2 & E3).
    destruct (look_ok cs g path joined b e SC J E1 E2 E3 B1 B2) as (b1 & K & C1 & C2 & C3 & C4). rewrite K. cbn [bind].
    destruct (IH b1 SC J) as (b' & K' & D1 & D2 & D3 & D4); auto; [intros; apply L; now right|].
    exists b'. repeat split; auto. intros (e' & [<-|I] & Sk); [auto|]. apply D4. eauto.
Qed.

Lemma add_missing_ok : forall l g, (forall a b, In (a, b) l -> a < n /\ b < n) ->
  exists g', foldM (add_missing len t) g l = Ok g' /\ incl (dkeys g) (dkeys g') /\ incl l (dkeys g').
Proof.
  induction l as [|[a b] l IH]; intros g R; cbn [foldM]; [exists g; repeat split; [intros x; auto|intros x []]|].
  assert (Hd : exists w, dist len t a b = Ok w).
  { destruct (R a b (or_introl eq_refl)) as [A B]. destruct Ht as [Hp _]. unfold n in A, B. rewrite (dist_ok len p0) by lia. eauto. }
  destruct Hd as [w Hd].
  assert (K : exists g1, add_missing len t g (a, b) = Ok g1 /\ incl (dkeys g) (dkeys g1) /\ In (a, b) (dkeys g1)).
  { unfold add_missing. destruct (dmem g (a, b)) eqn:M.
    - apply dmem_true in M. exists g. repeat split; auto. intros x; auto.
    - cbn [fst snd]. rewrite Hd. cbn [bind]. eexists. split; [reflexivity|]. split; [intros x I|]; apply dkeys_dset; auto. }
  destruct K as (g1 & -> & G1 & G2). cbn [bind].
  destruct (IH g1) as (g' & -> & G3 & G4); [intros; apply R; now right|]. exists g'. split; [reflexivity|]. split.
  - intros x I. apply G3, G1, I.
  - intros x [<-|I]; [apply G3, G2|apply G4, I].
Qed.

Lemma split_at : forall (path : list nat) i x y, nth_error path i = Some x -> nth_error path (i + 1) = Some y ->
  exists A B, firstn (i + 1) path = A ++ [x] /\ skipn (i + 1) path = y :: B /\ path = A ++ x :: y :: B /\ length A = i.
Proof.
  intros path i x y Hx Hy. exists (firstn i path), (skipn (S (i + 1)) path).
  assert (F : firstn (i + 1) path = firstn i path ++ [x]) by (rewrite Nat.add_1_r; now apply firstn_snoc).
  assert (G : skipn (i + 1) path = y :: skipn (S (i + 1)) path) by now apply skipn_nth.
  split; [exact F|]. split; [exact G|]. split.
  - rewrite <- (firstn_skipn (i + 1) path) at 1. rewrite F, G, <- app_assoc. reflexivity.
  - rewrite firstn_length. assert (i < length path) by (apply nth_error_Some; congruence). lia.
Qed.

Lemma path_range : forall cs g path joined v, joined_ok cs g path joined -> In v path -> v < n.
Proof.
  intros cs g path joined v J I. apply (j_members _ _ _ _ J) in I. destruct I as (i & c & _ & H & I).
  eapply Hrange; [eapply nth_error_In; eauto|exact I].
Qed.

(** Some edge leads out of the path, when there are more components. *)
Lemma full_way_out : forall cs g path joined, full -> start_component cs -> joined_ok cs g path joined -> length joined < nb ->
  exists e, In e es /\ In (fst e) path /\ ~ In (snd e) path /\ ~ skipped path e.
Proof.
  intros cs g path joined Fu SC J L. pose proof Fu as (Fu1 & Fu2 & q' & V & Fu3).
  assert (X : exists i, i < nb /\ ~ In i joined).
  { destruct (Exists_dec (fun i => ~ In i joined) (seq 0 nb)) as [Y|Y].
    - intros i. destruct (in_dec Nat.eq_dec i joined); [right; tauto|now left].
    - apply Exists_exists in Y. destruct Y as (i & I & N). apply in_seq in I. exists i. split; [lia|exact N].
    - exfalso. assert (Inc : incl (seq 0 nb) joined).
      { intros i I. destruct (in_dec Nat.eq_dec i joined) as [Z|Z]; [exact Z|]. exfalso. apply Y, Exists_exists. eauto. }
      pose proof (NoDup_incl_length (seq_NoDup nb 0) Inc) as K. rewrite seq_length in K. lia. }
  destruct X as (i & Li & Ni). destruct (nth_error comps i) as [c|] eqn:Hc; [|apply nth_error_None in Hc; unfold nb in Li; lia].
  assert (Y : exists y, In y c).
  { pose proof (Hne c (nth_error_In _ _ Hc)). destruct c as [|y c']; [congruence|]. exists y. now left. }
  destruct Y as [y Iy].
  assert (Ny : ~ In y path).
  { intros K. apply (j_members _ _ _ _ J) in K. destruct K as (i' & c' & I' & H' & K). apply Ni.
    rewrite (Hdis i i' c c' y); auto. }
  destruct (j_shape _ _ _ _ J) as (q & Ep & Nq & Eq & Nz).
  assert (Ly : y < n) by (eapply Hrange; [eapply nth_error_In; eauto|exact Iy]).
  assert (Is : In s path) by (rewrite Ep; now left).
  assert (Ie : In e_ path) by (rewrite Ep; right; apply in_or_app; right; now left).
  assert (Sk : forall x z, In x path -> x <> e_ -> ~ skipped path (x, z)).
  { intros x z Ix D K. unfold skipped in K. cbn [fst] in K. destruct (index_path_get path x Ix) as (k & K1 & K2).
    rewrite K1 in K. injection K as ->.
    assert (Lst : nth_error path (length path - 1) = Some e_).
    { rewrite Ep. change (s :: q ++ [e_]) with ((s :: q) ++ [e_]). rewrite app_length. cbn [length].
      rewrite nth_error_app2 by (cbn [length]; lia). replace (_ - _) with 0 by (cbn [length]; lia). reflexivity. }
    rewrite Lst in K2. injection K2 as K2. auto. }
  assert (Iy' : In y q').
  { apply V. fold n s e_. split; [exact Ly|]. split; intros ->; contradiction. }
  destruct (Nat.eq_dec s e_) as [D|D].
  - assert (X0 : exists x, In x q) by (pose proof (Nz Fu D); destruct q as [|x q1]; [congruence|exists x; now left]).
    destruct X0 as (x & Ix). assert (Ixp : In x path) by (rewrite Ep; right; apply in_or_app; now left).
    assert (Ix' : In x q').
    { apply V. fold n s e_. split; [eapply path_range; eauto|]. assert (x <> e_) by (intros ->; contradiction). split; congruence. }
    destruct (cross_both (fun v => pymem v path) q' x y Ix' Iy') as (a & b & Iab & Dab).
    { rewrite (proj2 (pymem_true x path) Ixp), (proj2 (pymem_false y path) Ny). discriminate. }
    pose proof (hops_members _ _ _ Iab) as [Ia Ib]. apply V in Ia, Ib. fold n s e_ in Ia, Ib.
    assert (Iab' : In (a, b) es) by (apply Fu3; exact (hops_sub [s] q' [e_] a b Iab)).
    destruct (pymem a path) eqn:Ma; destruct (pymem b path) eqn:Mb; try congruence.
    + apply pymem_true in Ma. apply pymem_false in Mb. exists (a, b). cbn [fst snd]. repeat split; auto. apply Sk; tauto.
    + apply pymem_false in Ma. apply pymem_true in Mb. exists (b, a). cbn [fst snd]. repeat split; auto. apply Sk; tauto.
  - destruct (cross (fun v => pymem v path) (q' ++ [e_]) s y) as (a & b & Iab & Fa & Fb).
    { now apply pymem_true. } { apply in_or_app. now left. } { now apply pymem_false. }
    apply pymem_true in Fa. apply pymem_false in Fb. exists (a, b). cbn [fst snd]. repeat split; auto.
    apply Sk; auto. apply (in_map fst) in Iab. cbn [fst] in Iab. change (s :: q' ++ [e_]) with ((s :: q') ++ [e_]) in Iab. rewrite hops_fst in Iab.
    destruct Iab as [<-|Iab]; [exact D|]. apply V in Iab. fold e_ in Iab. tauto.
Qed.

Lemma join_ok : forall cs g path joined, start_component cs -> joined_ok cs g path joined -> length joined < nb ->
  (~ full /\ join order len t es paths indexes ntc cs nb g path joined = Err TypeError) \/
  exists g' path' joined', join order len t es paths indexes ntc cs nb g path joined = Ok (g', path', joined') /\
    joined_ok cs g' path' joined' /\ length joined' = S (length joined).
Proof.
  intros cs g path joined SC J L. unfold join. cbv zeta.
  set (eo := order (filter (fun e => pymem (fst e) path && negb (pymem (snd e) path)) es)).
  assert (Ieo : forall e, In e eo <-> In e es /\ In (fst e) path /\ ~ In (snd e) path).
  { intros e. unfold eo. transitivity (In e (filter (fun e => pymem (fst e) path && negb (pymem (snd e) path)) es)).
    - split; apply Permutation_in; [apply Hord|apply Permutation_sym, Hord].
    - rewrite filter_In, andb_true_iff, negb_true_iff, pymem_true, pymem_false. tauto. }
  destruct (looks_ok cs g path joined eo (None, None) SC J) as (b & K & B1 & B2 & _ & B4); [intros e I; now apply Ieo|exact I|exact I|].
  rewrite K. cbn [bind].
  assert (St : (b = (None, None)) \/ exists g1 c out ein i, settle len t g b = Ok (g1, (c, out, ein, i)) /\ suits path (c, out, ein, i) /\
    incl (dkeys g) (dkeys g1) /\ In ein (dkeys g1)).
  { destruct b as [[[m1 [[[c out] ein] i]]|] b2]; cbn [fst snd] in B1, B2.
    - right. exists g, c, out, ein, i. destruct B1 as [B1 B1']. cbn [fst snd] in B1'. split; [reflexivity|]. split; [exact B1|].
      split; [intros x; auto|]. now apply (j_graph _ _ _ _ J).
    - destruct b2 as [[m2 [[[c out] [u z]] i]]|]; [|now left]. right. cbn [suits2] in B2.
      assert (Rz : u < n /\ z < n).
      { destruct B2 as (_ & _ & _ & Hz & comp & pc & ixs & k & Hc & _ & Hp & _ & _ & _ & Hu). cbn [fst snd] in *. split.
        - destruct (Hcyc c comp Hc) as (pc' & ixs' & Hp' & _ & _ & Mem & _). assert (pc' = pc) by congruence. subst pc'.
          eapply Hrange; [eapply nth_error_In; exact Hc|]. apply Mem. eapply nth_error_In; exact Hu.
        - eapply path_range; [exact J|]. eapply nth_error_In; exact Hz. }
      destruct Ht as [Hp _]. unfold n in Rz. cbn [settle fst snd]. rewrite (dist_ok len p0) by lia. cbn [bind].
      rewrite (dist_ok len p0) by lia. cbn [bind]. do 5 eexists. split; [reflexivity|]. split; [exact B2|]. split.
      + intros x I. apply dkeys_dset. right. apply dkeys_dset. now right.
      + apply dkeys_dset. right. apply dkeys_dset. now left. }
  destruct St as [->|(g1 & c & out & ein & i & St & Su & G1 & G2)].
  { left. split; [|reflexivity]. intros Fu. destruct (full_way_out cs g path joined Fu SC J L) as (e & E1 & E2 & E3 & E4).
    apply B4; [|reflexivity]. exists e. split; [apply Ieo; auto|exact E4]. }
  right. rewrite St. cbn [bind].
  destruct Su as (Io & Hx & Hy & Hz & comp & pc & ixs & k & Hc & Ic & Hp & Hix & Dk & Nk & Nu).
  unfold lget at 1. rewrite Hp. cbn [bind]. unfold lget at 1. rewrite Hix. cbn [bind]. unfold dgetE at 1. rewrite Dk. cbn [bind].
  assert (Lk : k < length pc) by (apply nth_error_Some; congruence).
  rewrite (unroll_ok pc k Lk). cbn [bind].
  set (new := rev (firstn (S k) pc) ++ rev (skipn (S k) pc)) in *.
  assert (Pn : Permutation new pc) by apply unroll_perm.
  destruct (unroll_first pc k _ Nk) as [m1 M1]. destruct (unroll_last pc k _ Lk Nu) as [m2 M2]. fold new in M1, M2.
  destruct (Hcyc c comp Hc) as (pc' & ixs' & Hp' & _ & _ & Mem & _ & _ & Nd). assert (pc' = pc) by congruence. subst pc'.
  assert (Njc : ~ In c joined).
  { intros K'. apply Hy. apply (j_members _ _ _ _ J). eauto. }
  assert (Nsc : ~ In s comp).
  { intros K'. destruct SC as (c0 & Hc0 & S0). apply Njc. rewrite (Hdis c cs comp c0 s); auto. apply J. }
  assert (Imem : forall v, In v new <-> In v comp).
  { intros v. rewrite <- Mem. split; apply Permutation_in; [exact Pn|now apply Permutation_sym]. }
  assert (Disj : forall v, In v new -> ~ In v path).
  { intros v I K'. apply Imem in I. apply (j_members _ _ _ _ J) in K'. destruct K' as (i' & c' & I' & H' & K').
    apply Njc. rewrite (Hdis c i' comp c' v); auto. }
  assert (Nnew : NoDup new) by (eapply Permutation_NoDup; [apply Permutation_sym, Pn|now apply Nd]).
  change (combine new (tl new)) with (hops new).
  destruct (add_missing_ok (hops new) g1) as (g' & -> & G3 & G4).
  { intros a b' I. apply hops_members in I. destruct I as [I1 I2]. apply Imem in I1, I2.
    split; eapply Hrange; try (eapply nth_error_In; exact Hc); eauto. }
  cbn [bind]. eexists _, _, _. split; [reflexivity|].
  destruct (split_at path i _ _ Hx Hz) as (A & B & FA & SB & EA & LA). rewrite FA, SB.
  assert (Pj : pyadd joined c = joined ++ [c]) by (unfold pyadd; now rewrite (proj2 (pymem_false c joined) Njc)). rewrite Pj.
  split; [|rewrite app_length; cbn; lia].
  constructor.
  - apply NoDup_snoc; [apply J|exact Njc].
  - intros j I. apply in_app_or in I. destruct I as [I|[<-|[]]]; [now apply (j_range _ _ _ _ J)|]. apply nth_error_Some. congruence.
  - apply in_or_app. left. apply J.
  - destruct (j_shape _ _ _ _ J) as (q & Ep & Nq & Eq & Nz).
    assert (XA : exists A', A ++ [fst out] = s :: A').
    { destruct A as [|a A']; cbn [app] in *; [rewrite Ep in EA; injection EA as -> _; eauto|]. rewrite Ep in EA. injection EA as -> _. eauto. }
    destruct XA as [A' EA'].
    assert (XB : exists B', snd ein :: B = B' ++ [e_]).
    { destruct (exists_last (l := snd ein :: B)) as (B' & w & EB); [discriminate|]. exists B'. rewrite EB. f_equal. f_equal.
      assert (X : (s :: q) ++ [e_] = (A ++ fst out :: B') ++ [w]).
      { transitivity path; [symmetry; exact Ep|]. rewrite EA, <- app_assoc. cbn [app]. now rewrite EB. }
      apply app_inj_tail in X. symmetry. apply X. }
    destruct XB as [B' EB'].
    assert (Eqq : q = A' ++ B').
    { assert (X : s :: q ++ [e_] = s :: (A' ++ B') ++ [e_]).
      { rewrite <- Ep, EA. replace (A ++ fst out :: snd ein :: B) with ((A ++ [fst out]) ++ snd ein :: B) by (rewrite <- app_assoc; reflexivity).
        rewrite EA', EB'. cbn [app]. now rewrite <- app_assoc. }
      injection X as X. apply app_inj_tail in X. apply X. }
    exists (A' ++ new ++ B'). split; [|split; [|split]].
    + rewrite EA', EB'. cbn [app]. rewrite <- !app_assoc. reflexivity.
    + assert (Pq : Permutation (s :: A' ++ new ++ B') (new ++ s :: q)).
      { rewrite Eqq. apply Permutation_sym. transitivity (s :: new ++ A' ++ B'); [apply Permutation_sym, Permutation_middle|].
        constructor. rewrite !app_assoc. apply Permutation_app_tail, Permutation_app_comm. }
      eapply Permutation_NoDup; [apply Permutation_sym, Pq|]. apply NoDup_app_disjoint; auto.
      intros v I I'. apply (Disj v I). rewrite Ep. change (s :: q ++ [e_]) with ((s :: q) ++ [e_]). apply in_or_app. now left.
    + intros I. rewrite Eqq in Eq. apply in_app_or in I. destruct I as [I|I]; [apply Eq, in_or_app; now left|].
      apply in_app_or in I. destruct I as [I|I]; [|apply Eq, in_or_app; now right].
      apply (Disj e_ I). rewrite Ep. right. apply in_or_app. right. now left.
    + intros _ _ X. apply app_eq_nil in X. destruct X as [_ X]. apply app_eq_nil in X. destruct X as [X _]. rewrite X in M1. discriminate.
  - intros v. split.
    + intros I. assert (X : In v path \/ In v new).
      { rewrite EA. apply in_app_or in I. destruct I as [I|I].
        - left. apply in_app_or in I. apply in_or_app. destruct I as [I|[<-|[]]]; [now left|right; now left].
        - apply in_app_or in I. destruct I as [I|I]; [now right|]. left. apply in_or_app. right. now right. }
      destruct X as [X|X].
      * apply (j_members _ _ _ _ J) in X. destruct X as (i' & c' & I' & X). exists i', c'. split; [apply in_or_app; now left|exact X].
      * exists c, comp. split; [apply in_or_app; right; now left|]. split; [exact Hc|now apply Imem].
    + intros (i' & c' & I' & H' & X). apply in_app_or in I'. destruct I' as [I'|[<-|[]]].
      * assert (Y : In v path) by (apply (j_members _ _ _ _ J); eauto). rewrite EA in Y.
        apply in_app_or in Y. apply in_or_app. destruct Y as [Y|[<-|Y]].
        -- left. apply in_or_app. now left.
        -- left. apply in_or_app. right. now left.
        -- right. apply in_or_app. now right.
      * assert (c' = comp) by congruence. subst c'. apply in_or_app. right. apply in_or_app. left. now apply Imem.
  - assert (Old : forall h, In h (hops path) -> In h (dkeys g')) by (intros; apply G3, G1, (j_hops _ _ _ _ J); auto).
    rewrite EA in Old. rewrite hops_app in Old. rewrite hops_cons in Old.
    intros h I.
    replace ((A ++ [fst out]) ++ new ++ snd ein :: B) with (A ++ fst out :: new ++ snd ein :: B) in I by (rewrite <- app_assoc; reflexivity).
    rewrite hops_app in I. apply in_app_or in I. destruct I as [I|I]; [apply Old, in_or_app; now left|].
    rewrite M1 in I. cbn [app] in I. rewrite hops_cons in I. destruct I as [<-|I].
    { apply G3, G1, (j_graph _ _ _ _ J). destruct out; exact Io. }
    replace (snd out :: m1 ++ snd ein :: B) with (new ++ snd ein :: B) in I by (rewrite M1; reflexivity).
    rewrite M2, <- app_assoc in I. cbn [app] in I. rewrite hops_app in I. apply in_app_or in I. destruct I as [I|I].
    { apply G4. now rewrite M2. }
    rewrite hops_cons in I. destruct I as [<-|I]; [apply G3; destruct ein; exact G2|]. apply Old, in_or_app. right. now right.
  - intros x I. apply G3, G1, (j_graph _ _ _ _ J), I.
Qed.

Lemma joins_ok : forall fuel cs g path joined, start_component cs -> joined_ok cs g path joined -> length joined <= nb ->
  nb - length joined <= fuel ->
  (~ full /\ joins order len t es paths indexes ntc fuel cs nb g path joined = Err TypeError) \/
  exists g' path' joined', joins order len t es paths indexes ntc fuel cs nb g path joined = Ok (g', path') /\
    joined_ok cs g' path' joined' /\ length joined' = nb /\ (length joined = nb -> path' = path).
Proof.
  induction fuel as [|fuel IH]; intros cs g path joined SC J L F.
  - right. assert (length joined = nb) by lia. cbn [joins]. rewrite (proj2 (Nat.ltb_ge _ _)) by lia. exists g, path, joined. auto.
  - cbn [joins]. destruct (Nat.ltb_spec (length joined) nb) as [Lt|Ge].
    2:{ right. exists g, path, joined. split; [reflexivity|]. split; [exact J|]. split; [lia|auto]. }
    assert (Ds : dgetE ntc (t_start t) = Ok cs) by (unfold dgetE; fold s; rewrite (proj2 (Hntc s cs)); [reflexivity|exact SC]).
    assert (De : dgetE ntc (t_end t) = Ok cs).
    { unfold dgetE. fold e_. rewrite (proj2 (Hntc e_ cs)); [reflexivity|]. destruct SC as (c & Hc & I). exists c. split; [exact Hc|].
      apply Hends; [eapply nth_error_In; eauto|exact I]. }
    rewrite Ds, De. cbn [bind]. rewrite (Nat.eqb_refl cs). cbn [negb]. rewrite andb_false_r.
    destruct (join_ok cs g path joined SC J Lt) as [[NF E]|(g1 & path1 & joined1 & E & J1 & L1)].
    + left. split; [exact NF|]. now rewrite E.
    + rewrite E. cbn [bind]. destruct (IH cs g1 path1 joined1 SC J1) as [[NF E1]|(g' & path' & joined' & E1 & J' & L' & _)]; [lia|lia| |].
      * left. auto.
      * right. exists g', path', joined'. split; [exact E1|]. split; [exact J'|]. split; [exact L'|lia].
Qed.

(** The rebuilt path is a tour, and its length is evaluated. *)
Lemma rebuild_ok : forall g, incl es (dkeys g) ->
  (~ full /\ rebuild order len t es paths indexes ntc g nb = Err TypeError) \/
  exists g' q, rebuild order len t es paths indexes ntc g nb = Ok (g', s :: q ++ [e_], tour_length len p0 t (s :: q ++ [e_])) /\
    visits t q /\ incl es (dkeys g') /\
    (nb = 1 -> exists cs, nth_error paths cs = Some (s :: q ++ [e_])).
Proof.
  intros g Gi. destruct start_exists as [cs SC]. unfold rebuild.
  assert (Ds : dgetE ntc (t_start t) = Ok cs) by (unfold dgetE; fold s; rewrite (proj2 (Hntc s cs)); [reflexivity|exact SC]).
  assert (De : dgetE ntc (t_end t) = Ok cs).
  { unfold dgetE. fold e_. rewrite (proj2 (Hntc e_ cs)); [reflexivity|]. destruct SC as (c & Hc & I). exists c. split; [exact Hc|].
    apply Hends; [eapply nth_error_In; eauto|exact I]. }
  rewrite Ds, De. cbn [bind]. pose proof SC as (c & Hc & Is).
  destruct (Hcyc cs c Hc) as (path & ixs & Hp & Hx & Hh & Mem & Pos & Shape & _). destruct (Shape Is) as (q0 & Ep & Nq & Eq).
  assert (Lp : lget paths cs = Ok path) by (unfold lget; now rewrite Hp). rewrite Lp. cbn [bind].
  assert (Lcs : cs < nb) by (apply nth_error_Some; congruence).
  assert (J : joined_ok cs g path [cs]).
  { constructor.
    - constructor; [intros []|constructor].
    - intros i [<-|[]]. exact Lcs.
    - now left.
    - exists q0. repeat split; auto. intros (_ & Fu & _) D ->. apply (Fu s). apply Hh. rewrite Ep. cbn [app]. rewrite <- D. now left.
    - intros v. rewrite Mem. split; [intros I; exists cs, c; split; [now left|auto]|].
      intros (i & c' & [<-|[]] & H' & I). assert (c' = c) by congruence. now subst.
    - intros h I. apply Gi, Hh, I.
    - exact Gi. }
  destruct (joins_ok nb cs g path [cs] SC J) as [[NF E]|(g' & path' & joined' & E & J' & L' & Same)]; [cbn; lia|cbn; lia| |].
  - left. split; [exact NF|]. now rewrite E.
  - right. rewrite E. cbn [bind fst snd].
    destruct (j_shape _ _ _ _ J') as (q & Ep' & Nq' & Eq' & _).
    assert (Mid : middle path' = q).
    { rewrite Ep'. unfold middle. cbn [tl]. apply removelast_last. }
    assert (Full : forall i, i < nb -> In i joined').
    { intros i Li. destruct (in_dec Nat.eq_dec i joined') as [X|X]; [exact X|exfalso].
      assert (N : NoDup (i :: joined')) by (constructor; [exact X|apply J']).
      assert (Inc : incl (i :: joined') (seq 0 nb)).
      { intros j [<-|I]; apply in_seq; [lia|]. apply (j_range _ _ _ _ J') in I. lia. }
      pose proof (NoDup_incl_length N Inc) as K. rewrite seq_length in K. cbn [length] in K. lia. }
    assert (V : visits t q).
    { inversion Nq' as [|? ? Ns Nq'']; subst. split; [exact Nq''|]. intros v. split.
      - intros I. repeat split.
        + apply (path_range cs g' (s :: q ++ [e_]) joined' v J'). right. apply in_or_app. now left.
        + intros ->. contradiction.
        + intros ->. contradiction.
      - intros (Lv & D1 & D2). destruct (Hall v Lv) as (i & c' & H' & I).
        assert (K : In v (s :: q ++ [e_])).
        { apply (j_members _ _ _ _ J'). exists i, c'. split; [|auto]. apply Full. apply nth_error_Some. congruence. }
        destruct K as [K|K]; [exfalso; apply D1; auto|]. apply in_app_or in K. destruct K as [K|[K|[]]]; [exact K|]. exfalso. apply D2. auto. }
    assert (Nn : q <> []).
    { intros ->. apply visits_length in V. cbn in V. congruence. }
    rewrite Mid. destruct (C33_from_nodes len sym p0 t q) as (f & Ef & _); [apply V|].
    cbn [new_solution bind]. rewrite Ef. cbn [bind].
    destruct (evaluate_ok len sym p0 t (mkSol (t_start t) (t_end t) q f None None) Ht V Nn eq_refl eq_refl) as [ls [Ev _]].
    rewrite Ev. cbn [bind fst].
    match goal with |- context [evaluate len t ?s] => destruct (evaluate_ok len sym p0 t s Ht V Nn eq_refl eq_refl) as [ls' [Ev' _]] end.
    rewrite Ev'. cbn [bind snd]. exists g', q. split; [|split; [exact V|split]].
    + rewrite Ep'. reflexivity.
    + apply J'.
    + intros N1. exists cs. rewrite Hp. f_equal. rewrite <- Ep'. symmetry. apply Same. cbn. lia.
Qed.
End Join.
