(** Proofs about CgpModel: the genomes that [random] and the mutations give, the evolution strategy. *)
From Coq Require Import List Bool Arith ZArith QArith Lia.
From Verif Require Import Py PyList PyMore CgpModel CgpSpec CgpProofs.
Import ListNotations.
Local Open Scope nat_scope.

Lemma pos_div : forall p ma j, j <= ma -> (p * (ma + 1) + j) / (ma + 1) = p.
Proof. intros. symmetry. apply Nat.div_unique with j; lia. Qed.
Lemma pos_mod : forall p ma j, j <= ma -> (p * (ma + 1) + j) mod (ma + 1) = j.
Proof. intros. symmetry. apply Nat.mod_unique with p; lia. Qed.

Lemma column_le : forall p rows, p / rows * rows <= p.
Proof. intros p rows. destruct rows; [lia|]. pose proof (Nat.div_mod p (S rows)). nia. Qed.

Lemma valid_network : forall ni no cols rows ma nlib g, valid_genome ni no cols rows ma nlib g ->
  exists ns outs, g = flat ns ++ outs /\ length ns = cols * rows /\ length outs = no /\
    network ni ma nlib ns outs /\
    (forall q n, nth_error ns q = Some n -> Forall (fun a => a < ni + q / rows * rows) (n_args n)).
Proof.
  intros ni no cols rows ma nlib g [L H].
  destruct (genome_shape ma (cols * rows) no g L) as (ns & outs & E1 & E2 & E3 & E4).
  pose proof (flat_length _ _ E4) as FL.
  assert (CF : forall q n, nth_error ns q = Some n -> Forall (fun a => a < ni + q / rows * rows) (n_args n)).
  { intros q n N. assert (Q : q < length ns) by (apply nth_error_Some; congruence).
    apply Forall_forall. intros a A. apply In_nth_error in A. destruct A as [j J].
    assert (LA : length (n_args n) = ma) by (rewrite Forall_forall in E4; apply E4; eapply nth_error_In; eauto).
    assert (JL : j < ma) by (rewrite <- LA; apply nth_error_Some; congruence).
    specialize (H (q * (ma + 1) + 1 + j) a). rewrite E1, nth_error_app1 in H by nia.
    rewrite (flat_nth_arg ma ns q n j E4 N JL) in H. specialize (H J). unfold limit in H.
    rewrite (proj2 (Nat.ltb_lt _ _)) in H by nia. rewrite <- Nat.add_assoc in H.
    rewrite pos_mod, pos_div in H by lia. exact H. }
  exists ns, outs. split; [exact E1|]. split; [exact E2|]. split; [exact E3|]. split; [|exact CF].
  constructor.
  - exact E4.
  - intros q n N. eapply Forall_impl; [|apply (CF q n N)]. cbn. intros a A. pose proof (column_le q rows). lia.
  - apply Forall_forall. intros n N. apply In_nth_error in N. destruct N as [q N].
    assert (Q : q < length ns) by (apply nth_error_Some; congruence).
    specialize (H (q * (ma + 1)) (n_fun n)). rewrite E1, nth_error_app1 in H by nia.
    rewrite (flat_nth_fun ma ns q n E4 N) in H. specialize (H eq_refl). unfold limit in H.
    rewrite (proj2 (Nat.ltb_lt _ _)) in H by nia.
    replace (q * (ma + 1)) with (q * (ma + 1) + 0) in H by lia. rewrite pos_mod in H by lia. exact H.
  - apply Forall_forall. intros o O. apply In_nth_error in O. destruct O as [j O].
    specialize (H (length (flat ns) + j) o). rewrite E1, nth_error_app2 in H by lia.
    replace (length (flat ns) + j - length (flat ns)) with j in H by lia. specialize (H O). unfold limit in H.
    destruct (Nat.ltb_spec (length (flat ns) + j) (cols * rows * (ma + 1))); [nia|]. lia.
Qed.

(** * Draws *)

Lemma randint_ok : forall b d, (0 <= b)%Z -> exists v, randint 0 b d = Ok v /\ (Z.of_nat v <= b)%Z.
Proof.
  intros b d B. unfold randint. destruct (Z.ltb_spec b 0); [lia|]. eexists. split; [reflexivity|].
  pose proof (Z.mod_pos_bound (Z.of_nat d) (b - 0 + 1)). rewrite Z2Nat.id by lia. lia.
Qed.

Lemma randint_le : forall b d v, randint 0 b d = Ok v -> (Z.of_nat v <= b)%Z.
Proof.
  intros b d v H. unfold randint in H. destruct (Z.ltb_spec b 0); [discriminate|]. injection H as <-.
  pose proof (Z.mod_pos_bound (Z.of_nat d) (b - 0 + 1)). rewrite Z2Nat.id by lia. lia.
Qed.

Lemma randint_self : forall b v, (Z.of_nat v <= b)%Z -> randint 0 b v = Ok v.
Proof.
  intros b v H. unfold randint. destruct (Z.ltb_spec b 0); [lia|].
  rewrite Z.mod_small by lia. f_equal. lia.
Qed.

(** * random *)

Lemma concat_nth_len : forall A k (ls : list (list A)) p j l, Forall (fun l => length l = k) ls ->
  nth_error ls p = Some l -> j < k -> nth_error (concat ls) (p * k + j) = nth_error l j.
Proof.
  intros A k. induction ls as [|m ls IH]; intros p j l F N J; [destruct p; discriminate|].
  inversion F as [|? ? F1 F2]; subst. destruct p as [|p]; cbn [nth_error] in N.
  - injection N as ->. cbn [concat Nat.mul Nat.add]. apply nth_error_app1. lia.
  - cbn [concat]. rewrite nth_error_app2 by (cbn; lia).
    replace (S p * length m + j - length m) with (p * length m + j) by (cbn; lia). now apply IH.
Qed.

Lemma concat_length_len : forall A k (ls : list (list A)), Forall (fun l => length l = k) ls -> length (concat ls) = length ls * k.
Proof.
  intros A k. induction ls as [|m ls IH]; intros F; auto. inversion F; subst. cbn [concat length]. rewrite app_length, IH by auto. lia.
Qed.

Lemma random_node_ok : forall ni rows ma nlib draw p, 0 < nlib -> 0 < ni ->
  exists l, random_node ni rows ma nlib draw p = Ok l /\ length l = ma + 1 /\
    (forall v, nth_error l 0 = Some v -> v < nlib) /\
    (forall j v, 0 < j -> nth_error l j = Some v -> v < ni + p / rows * rows).
Proof.
  intros ni rows ma nlib draw p NL NI. unfold random_node.
  destruct (randint_ok (Z.of_nat nlib - 1) (draw (p * (ma + 1)))) as (f & Ef & Bf); [lia|]. rewrite Ef. cbn [bind].
  assert (M : exists args, mapM (fun a => randint 0 (Z.of_nat ni + Z.of_nat (p / rows) * Z.of_nat rows - 1) (draw (p * (ma + 1) + a + 1))) (seq 0 ma) = Ok args).
  { generalize (seq 0 ma) as l. induction l as [|a l IH]; [exists []; reflexivity|]. cbn [mapM].
    destruct (randint_ok (Z.of_nat ni + Z.of_nat (p / rows) * Z.of_nat rows - 1) (draw (p * (ma + 1) + a + 1))) as (v & Ev & _); [pose proof (Z.mul_nonneg_nonneg (Z.of_nat (p / rows)) (Z.of_nat rows) (Nat2Z.is_nonneg _) (Nat2Z.is_nonneg _)); lia|].
    rewrite Ev. cbn [bind]. destruct IH as [r ->]. cbn. eauto. }
  destruct M as [args M]. rewrite M. cbn [bind]. eexists. split; [reflexivity|].
  pose proof (mapM_length _ _ M) as ML. rewrite seq_length in ML. split; [cbn; lia|]. split.
  - intros v [= <-]. lia.
  - intros [|j] v J N; [lia|]. cbn [nth_error] in N. destruct (mapM_nth _ _ _ M N) as (a & _ & R).
    apply randint_le in R. lia.
Qed.

Lemma random_ok : forall V ni no cols rows (lib : list (cgpfunc V)) rd draw, 0 < length lib -> 0 < ni ->
  exists c, random_cgp ni no cols rows lib rd draw = Ok c /\ valid c /\
    c_inputs c = ni /\ c_outputs c = no /\ c_cols c = cols /\ c_rows c = rows /\ c_library c = lib /\ c_recurrency c = rd /\ c_graph c = None.
Proof.
  intros V ni no cols rows lib rd draw NL NI. unfold random_cgp.
  set (ma := max_arity lib).
  assert (M : forall s k, exists ls, mapM (random_node ni rows ma (length lib) draw) (seq s k) = Ok ls).
  { intros s k. generalize (seq s k) as l. induction l as [|p l IH]; [exists []; reflexivity|]. cbn [mapM].
    destruct (random_node_ok ni rows ma (length lib) draw p NL NI) as (v & Ev & _). rewrite Ev. cbn [bind].
    destruct IH as [r ->]. cbn. eauto. }
  destruct (M 0 (cols * rows)) as [ls Els]. rewrite Els. cbn [bind].
  assert (O : exists outs, mapM (fun o => randint 0 (Z.of_nat ni + Z.of_nat cols * Z.of_nat rows - 1) (draw (cols * rows * (ma + 1) + o))) (seq 0 no) = Ok outs).
  { generalize (seq 0 no) as l. induction l as [|o l IH]; [exists []; reflexivity|]. cbn [mapM].
    destruct (randint_ok (Z.of_nat ni + Z.of_nat cols * Z.of_nat rows - 1) (draw (cols * rows * (ma + 1) + o))) as (v & Ev & _); [pose proof (Z.mul_nonneg_nonneg (Z.of_nat cols) (Z.of_nat rows) (Nat2Z.is_nonneg _) (Nat2Z.is_nonneg _)); lia|].
    rewrite Ev. cbn [bind]. destruct IH as [r ->]. cbn. eauto. }
  destruct O as [outs Eo]. rewrite Eo. cbn [bind]. eexists. split; [reflexivity|]. split.
  2: { cbn. auto 10. }
  pose proof (mapM_length _ _ Els) as L1. rewrite seq_length in L1.
  pose proof (mapM_length _ _ Eo) as L2. rewrite seq_length in L2.
  assert (NTH : forall p l, nth_error ls p = Some l -> random_node ni rows ma (length lib) draw p = Ok l).
  { intros p l N. destruct (mapM_nth _ _ _ Els N) as (q & Q & R).
    assert (PL : p < cols * rows) by (rewrite <- L1; apply nth_error_Some; congruence).
    pose proof (nth_error_nth _ _ 0 Q) as Q'. rewrite seq_nth in Q' by exact PL. cbn in Q'. congruence. }
  assert (FL : Forall (fun l => length l = ma + 1) ls).
  { apply Forall_forall. intros l I. apply In_nth_error in I. destruct I as [p P]. specialize (NTH _ _ P).
    destruct (random_node_ok ni rows ma (length lib) draw p NL NI) as (l' & E & EL & _). congruence. }
  unfold valid, new_cgp. cbn [c_inputs c_outputs c_cols c_rows c_library c_genome]. fold ma. split.
  - rewrite app_length, (concat_length_len _ _ _ FL), L1, L2. reflexivity.
  - intros i v N. unfold limit. destruct (Nat.ltb_spec i (cols * rows * (ma + 1))) as [C|C].
    + rewrite nth_error_app1 in N by (rewrite (concat_length_len _ _ _ FL), L1; exact C).
      pose proof (Nat.div_mod i (ma + 1)) as DM.
      assert (MB : i mod (ma + 1) < ma + 1) by (apply Nat.mod_upper_bound; lia).
      set (p := i / (ma + 1)) in *. set (j := i mod (ma + 1)) in *.
      replace i with (p * (ma + 1) + j) in N by lia.
      assert (PL : p < length ls) by nia.
      destruct (nth_error ls p) as [l|] eqn:El; [|apply nth_error_None in El; lia].
      rewrite (concat_nth_len _ _ _ _ _ _ FL El MB) in N.
      destruct (random_node_ok ni rows ma (length lib) draw p NL NI) as (l' & E & EL & B0 & B1).
      rewrite (NTH _ _ El) in E. injection E as <-.
      destruct (Nat.eqb_spec j 0) as [->|J]; [now apply B0|]. apply B1 with j; [lia|exact N].
    + rewrite nth_error_app2 in N by (rewrite (concat_length_len _ _ _ FL), L1; exact C).
      destruct (mapM_nth _ _ _ Eo N) as (o & _ & R). apply randint_le in R. lia.
Qed.

(** Every genome of the valid ones is drawn by some draws. *)
Lemma random_all : forall V ni no cols rows (lib : list (cgpfunc V)) rd g,
  valid_genome ni no cols rows (max_arity lib) (length lib) g ->
  random_cgp ni no cols rows lib rd (fun i => nth i g 0) = Ok (new_cgp g ni no cols rows lib rd).
Proof.
  intros V ni no cols rows lib rd g H.
  destruct (valid_network _ _ _ _ _ _ _ H) as (ns & outs & E1 & E2 & E3 & NW & CF).
  pose proof (flat_length _ _ (nw_arity _ _ _ _ _ NW)) as FL.
  unfold random_cgp. set (ma := max_arity lib) in *. set (draw := fun i => nth i g 0).
  assert (M : mapM (random_node ni rows ma (length lib) draw) (seq 0 (cols * rows)) = Ok (map (fun n => n_fun n :: n_args n) ns)).
  { apply mapM_ok. rewrite <- E2.
    assert (K : forall l s, (forall j n, nth_error l j = Some n -> nth_error ns (s + j) = Some n) ->
      Forall2 (fun x y => random_node ni rows ma (length lib) draw x = Ok y) (seq s (length l)) (map (fun n => n_fun n :: n_args n) l)).
    { induction l as [|n l IH]; intros s N; cbn [length seq map]; constructor.
      - pose proof (N 0 n eq_refl) as Nn. rewrite Nat.add_0_r in Nn.
        assert (SL : s < length ns) by (apply nth_error_Some; congruence).
        assert (LA : length (n_args n) = ma).
        { pose proof (nw_arity _ _ _ _ _ NW) as F. rewrite Forall_forall in F. apply F. eapply nth_error_In; eauto. }
        unfold random_node.
        assert (D0 : draw (s * (ma + 1)) = n_fun n).
        { unfold draw. rewrite E1. apply nth_error_nth. rewrite nth_error_app1 by nia. now apply flat_nth_fun with (ma := ma); [apply NW|]. }
        rewrite D0, randint_self.
        2: { pose proof (nw_funs _ _ _ _ _ NW) as F. rewrite Forall_forall in F. specialize (F n (nth_error_In _ _ Nn)). lia. }
        cbn [bind].
        assert (A : mapM (fun a => randint 0 (Z.of_nat ni + Z.of_nat (s / rows) * Z.of_nat rows - 1) (draw (s * (ma + 1) + a + 1))) (seq 0 ma) = Ok (n_args n)).
        { pose proof (mapM_lget_seq _ (n_args n) [] []) as ML. cbn [app length Nat.add] in ML. rewrite app_nil_r, LA in ML.
          rewrite <- ML. apply cg_mapM_ext. intros a Ia. apply in_seq in Ia.
          assert (DA : draw (s * (ma + 1) + a + 1) = nth a (n_args n) 0).
          { unfold draw. rewrite E1. rewrite app_nth1 by nia.
            replace (s * (ma + 1) + a + 1) with (s * (ma + 1) + 1 + a) by lia.
            destruct (nth_error (n_args n) a) as [v|] eqn:Ev; [|apply nth_error_None in Ev; lia].
            pose proof (flat_nth_arg ma ns s n a (nw_arity _ _ _ _ _ NW) Nn ltac:(lia)) as FA. rewrite Ev in FA.
            rewrite (nth_error_nth _ _ 0 FA), (nth_error_nth _ _ 0 Ev). reflexivity. }
          rewrite DA. destruct (nth_error (n_args n) a) as [v|] eqn:Ev; [|apply nth_error_None in Ev; lia].
          rewrite (nth_error_nth _ _ 0 Ev). unfold lget. rewrite Ev. apply randint_self.
          pose proof (CF s n Nn) as F. rewrite Forall_forall in F. specialize (F v (nth_error_In _ _ Ev)). lia. }
        rewrite A. reflexivity.
      - apply IH. intros j m J. specialize (N (S j) m J). rewrite <- N. f_equal. lia. }
    apply (K ns 0). auto. }
  rewrite M. cbn [bind].
  assert (O : mapM (fun o => randint 0 (Z.of_nat ni + Z.of_nat cols * Z.of_nat rows - 1) (draw (cols * rows * (ma + 1) + o))) (seq 0 no) = Ok outs).
  { pose proof (mapM_lget_seq _ outs [] []) as ML. cbn [app length Nat.add] in ML. rewrite app_nil_r, E3 in ML.
    rewrite <- ML. apply cg_mapM_ext. intros o Io. apply in_seq in Io.
    destruct (nth_error outs o) as [v|] eqn:Ev; [|apply nth_error_None in Ev; lia].
    assert (DO : draw (cols * rows * (ma + 1) + o) = v).
    { unfold draw. rewrite E1. rewrite app_nth2 by nia. rewrite FL, E2.
      replace (cols * rows * (ma + 1) + o - cols * rows * (ma + 1)) with o by lia. now apply nth_error_nth. }
    rewrite DO. unfold lget. rewrite Ev. apply randint_self.
    pose proof (nw_outs _ _ _ _ _ NW) as F. rewrite Forall_forall in F. specialize (F v (nth_error_In _ _ Ev)). lia. }
  unfold draw in O. rewrite O. cbn [bind]. rewrite E1. reflexivity.
Qed.

(** * Mutations with one row *)

Lemma limit_one_row : forall ni cols ma nlib i, limit ni cols 1 ma nlib i =
  if i <? cols * (ma + 1) then if i mod (ma + 1) =? 0 then nlib else ni + i / (ma + 1) else ni + cols.
Proof. intros. unfold limit. rewrite !Nat.mul_1_r, Nat.div_1_r. reflexivity. Qed.

Lemma lset_valid : forall ni no cols rows ma nlib g i v, valid_genome ni no cols rows ma nlib g ->
  v < limit ni cols rows ma nlib i -> valid_genome ni no cols rows ma nlib (lset g i v).
Proof.
  intros ni no cols rows ma nlib g i v [L H] B. split; [rewrite lset_length; exact L|].
  intros j w N. rewrite lset_nth_error in N. destruct (Nat.eqb_spec i j) as [<-|NE]; [|now apply H].
  destruct (i <? length g); [injection N as <-; exact B|discriminate].
Qed.

Lemma mutate_one_ok : forall V (c : cgp V) d, valid c -> c_rows c = 1 -> 0 < length (c_library c) -> 0 < c_inputs c -> c_genome c <> [] ->
  exists c', mutate_one c d = Ok c' /\ valid c' /\ same_shape c c' /\ c_genome c' <> [].
Proof.
  intros V c d VA R1 NL NI NE. unfold mutate_one.
  assert (LG : 0 < length (c_genome c)) by (destruct (c_genome c); [congruence|cbn; lia]).
  destruct (randint_ok (Z.of_nat (length (c_genome c)) - 1) (fst d)) as (i & Ei & Bi); [lia|]. rewrite Ei. cbn [bind].
  assert (VV : exists v, (if i <? c_cols c * c_rows c * (arity_of c + 1) then
              if i mod (arity_of c + 1) =? 0 then randint 0 (fun_bound c) (snd d)
              else randint 0 (conn_bound c i) (snd d)
            else randint 0 (out_bound c) (snd d)) = Ok v /\
     v < limit (c_inputs c) (c_cols c) (c_rows c) (max_arity (c_library c)) (length (c_library c)) i).
  { unfold limit. fold (arity_of c). rewrite R1, Nat.mul_1_r. unfold fun_bound, conn_bound, out_bound. rewrite R1.
    destruct (Nat.ltb_spec i (c_cols c * (arity_of c + 1))).
    - destruct (Nat.eqb_spec (i mod (arity_of c + 1)) 0).
      + destruct (randint_ok (Z.of_nat (length (c_library c)) - 1) (snd d)) as (v & Ev & Bv); [lia|].
        exists v. split; [exact Ev|lia].
      + rewrite Nat.mul_1_r, Nat.div_1_r. generalize (i / (arity_of c + 1)) as q. intros q.
        destruct (randint_ok (Z.of_nat (c_inputs c) + (Z.of_nat q - 1) * Z.of_nat 1) (snd d)) as (v & Ev & Bv); [lia|].
        exists v. split; [exact Ev|lia].
    - destruct (randint_ok (Z.of_nat (c_inputs c) + Z.of_nat (c_cols c) * Z.of_nat 1 - 1) (snd d)) as (v & Ev & Bv); [lia|].
      exists v. split; [exact Ev|lia]. }
  destruct VV as (v & Ev & Bv). rewrite Ev. cbn [bind].
  unfold lput. rewrite (proj2 (Nat.ltb_lt _ _)) by lia. cbn [bind]. eexists. split; [reflexivity|].
  split; [|split; [unfold same_shape; cbn; auto 10|]].
  - unfold valid, with_genome. cbn [c_inputs c_outputs c_cols c_rows c_library c_genome]. apply lset_valid; auto.
  - cbn. intros E. apply (f_equal (@length nat)) in E. rewrite lset_length in E. cbn in E. lia.
Qed.

Lemma mutate_ok : forall V ds (c : cgp V), valid c -> c_rows c = 1 -> 0 < length (c_library c) -> 0 < c_inputs c -> c_genome c <> [] ->
  exists c', mutate c ds = Ok c' /\ valid c' /\ same_shape c c'.
Proof.
  intros V. unfold mutate. induction ds as [|d ds IH]; intros c VA R1 NL NI NE; cbn [foldM].
  - exists c. unfold same_shape. auto 10.
  - destruct (mutate_one_ok V c d VA R1 NL NI NE) as (c1 & E & V1 & (S1 & S2 & S3 & S4 & S5) & N1). rewrite E. cbn [bind].
    destruct (IH c1 V1 (eq_trans S4 R1)) as (c2 & E2 & V2 & (T1 & T2 & T3 & T4 & T5)).
    { rewrite S5. exact NL. } { lia. } { exact N1. }
    exists c2. split; [exact E2|]. split; [exact V2|]. unfold same_shape. repeat split; congruence.
Qed.

Lemma Qred_int : forall z, Qred (inject_Z z) = inject_Z z.
Proof. intros z. unfold inject_Z, Qred. pose proof (Z.ggcd_gcd z 1) as G. pose proof (Z.ggcd_correct_divisors z 1) as D.
  destruct (Z.ggcd z 1) as [g [a b]]. cbn in G. rewrite Z.gcd_1_r in G. subst g. destruct D as [D1 D2]. cbn [snd].
  assert (Ea : a = z) by lia. assert (Eb : b = 1%Z) by lia. rewrite Ea, Eb. reflexivity. Qed.

Lemma rec_bound_one : forall V (c : cgp V) i, (c_recurrency c == 1)%Q ->
  rec_bound c i = Ok (Z.min (Z.of_nat (graph_length c) + Z.of_nat (c_inputs c) - 1) (conn_bound c i)).
Proof.
  intros V c i R. unfold rec_bound.
  assert (E : (inject_Z (conn_bound c i) * c_recurrency c == inject_Z (conn_bound c i))%Q) by (rewrite R; ring).
  assert (QR : Qred (inject_Z (conn_bound c i) * c_recurrency c) = inject_Z (conn_bound c i)).
  { rewrite (Qred_complete _ _ E). apply Qred_int. }
  destruct (Qle_bool _ _) eqn:C.
  - apply Qle_bool_iff in C. rewrite E in C. rewrite <- Zle_Qle in C. f_equal. lia.
  - rewrite QR. cbn [inject_Z Qnum Qden]. rewrite Z.div_1_r, Z.mul_1_r, Z.eqb_refl. cbn [andb Pos.eqb].
    f_equal. assert (N : ~ (Z.of_nat (graph_length c) + Z.of_nat (c_inputs c) - 1 <= conn_bound c i)%Z).
    { intros L. rewrite Zle_Qle in L. rewrite <- E in L. apply Qle_bool_iff in L. congruence. }
    lia.
Qed.

Lemma mutate_gene_ok : forall V flip draw (c : cgp V) i, valid c -> c_rows c = 1 -> (c_recurrency c == 1)%Q ->
  0 < length (c_library c) -> 0 < c_inputs c -> i < length (c_genome c) ->
  exists c', mutate_gene flip draw c i = Ok c' /\ valid c' /\ same_shape c c' /\ c_recurrency c' = c_recurrency c /\
    length (c_genome c') = length (c_genome c) /\ c_graph c' = c_graph c /\
    forall j, j <> i \/ flip i = false -> nth_error (c_genome c') j = nth_error (c_genome c) j.
Proof.
  intros V flip draw c i VA R1 RD NL NI IL. unfold mutate_gene. destruct (flip i) eqn:FL.
  2: { exists c. unfold same_shape. auto 15. }
  rewrite (rec_bound_one _ c i RD).
  assert (VV : exists v, (if i <? c_cols c * c_rows c * (arity_of c + 1) then
              if i mod (arity_of c + 1) =? 0 then randint 0 (fun_bound c) (draw i)
              else let* b := Ok (Z.min (Z.of_nat (graph_length c) + Z.of_nat (c_inputs c) - 1) (conn_bound c i)) in randint 0 b (draw i)
            else randint 0 (out_bound c) (draw i)) = Ok v /\
     v < limit (c_inputs c) (c_cols c) (c_rows c) (max_arity (c_library c)) (length (c_library c)) i).
  { cbn [bind]. unfold limit. fold (arity_of c). rewrite R1, Nat.mul_1_r. unfold fun_bound, conn_bound, out_bound, graph_length. rewrite R1.
    destruct (Nat.ltb_spec i (c_cols c * (arity_of c + 1))).
    - destruct (Nat.eqb_spec (i mod (arity_of c + 1)) 0).
      + destruct (randint_ok (Z.of_nat (length (c_library c)) - 1) (draw i)) as (v & Ev & Bv); [lia|].
        exists v. split; [exact Ev|lia].
      + rewrite Nat.mul_1_r, Nat.div_1_r. generalize (i / (arity_of c + 1)) as q. intros q.
        destruct (randint_ok (Z.min (Z.of_nat (c_cols c * 1) + Z.of_nat (c_inputs c) - 1) (Z.of_nat (c_inputs c) + (Z.of_nat q - 1) * Z.of_nat 1)) (draw i)) as (v & Ev & Bv); [lia|].
        exists v. split; [rewrite Nat.mul_1_r in Ev; exact Ev|lia].
    - destruct (randint_ok (Z.of_nat (c_inputs c) + Z.of_nat (c_cols c) * Z.of_nat 1 - 1) (draw i)) as (v & Ev & Bv); [lia|].
      exists v. split; [exact Ev|lia]. }
  destruct VV as (v & Ev & Bv). rewrite Ev. cbn [bind].
  unfold lput. rewrite (proj2 (Nat.ltb_lt _ _)) by lia. cbn [bind]. eexists. split; [reflexivity|].
  split; [unfold valid, with_genome; cbn [c_inputs c_outputs c_cols c_rows c_library c_genome]; apply lset_valid; auto|]. split; [unfold same_shape; cbn; auto 10|].
  cbn. rewrite lset_length. split; [reflexivity|]. split; [reflexivity|]. split; [reflexivity|].
  intros j [J|J]; [|congruence]. rewrite lset_nth_error. destruct (Nat.eqb_spec i j); [congruence|]. reflexivity.
Qed.

Lemma mutate_per_gene_ok : forall V flip draw (c : cgp V), valid c -> c_rows c = 1 -> (c_recurrency c == 1)%Q ->
  0 < length (c_library c) -> 0 < c_inputs c ->
  exists c', mutate_per_gene flip draw c = Ok c' /\ valid c' /\ same_shape c c' /\ c_recurrency c' = c_recurrency c /\
    c_graph c' = c_graph c /\
    forall j, flip j = false -> nth_error (c_genome c') j = nth_error (c_genome c) j.
Proof.
  intros V flip draw c VA R1 RD NL NI. unfold mutate_per_gene.
  destruct (@foldM_total _ _ (mutate_gene flip draw)
    (fun l s => valid s /\ same_shape c s /\ c_recurrency s = c_recurrency c /\ c_graph s = c_graph c /\
       length (c_genome s) = length (c_genome c) /\
       forall j, flip j = false -> nth_error (c_genome s) j = nth_error (c_genome c) j)
    (seq 0 (length (c_genome c))) c) as (s & E & V1 & S1 & C1 & G1 & _ & H1).
  - unfold same_shape. auto 15.
  - intros l0 i l1 s1 E (V1 & (S1 & S2 & S3 & S4 & S5) & C1 & G1 & L1 & H1).
    assert (IL : i < length (c_genome c)).
    { assert (I : In i (seq 0 (length (c_genome c)))) by (rewrite E; apply in_elt). apply in_seq in I. lia. }
    destruct (mutate_gene_ok V flip draw s1 i) as (s2 & E2 & V2 & (T1 & T2 & T3 & T4 & T5) & C2 & L2 & G2 & H2).
    { exact V1. } { congruence. } { now rewrite C1. } { now rewrite S5. } { lia. } { lia. }
    exists s2. split; [exact E2|]. split; [exact V2|]. split; [unfold same_shape; repeat split; congruence|].
    split; [congruence|]. split; [congruence|]. split; [congruence|].
    intros j J. rewrite <- (H1 j J). apply H2. destruct (Nat.eq_dec j i) as [->|]; auto.
  - exists s. auto 15.
Qed.

(** * Evolution strategy *)

Lemma argmax_from_spec : forall l i best bv seen, length seen = i -> nth_error seen best = Some bv -> best < i ->
  (forall j x, nth_error seen j = Some x -> (x <= bv)%Z) ->
  (forall j x, j < best -> nth_error seen j = Some x -> (x < bv)%Z) ->
  exists v, nth_error (seen ++ l) (argmax_from i best bv l) = Some v /\
    (forall j x, nth_error (seen ++ l) j = Some x -> (x <= v)%Z) /\
    (forall j x, j < argmax_from i best bv l -> nth_error (seen ++ l) j = Some x -> (x < v)%Z).
Proof.
  induction l as [|y l IH]; intros i best bv seen LS NB BI ALL FIRST; cbn [argmax_from].
  - exists bv. rewrite app_nil_r. auto.
  - assert (E : seen ++ y :: l = (seen ++ [y]) ++ l) by (rewrite <- app_assoc; reflexivity). rewrite E.
    assert (LS' : length (seen ++ [y]) = S i) by (rewrite app_length; cbn; lia).
    assert (NTH : forall j x, nth_error (seen ++ [y]) j = Some x -> nth_error seen j = Some x \/ (j = i /\ x = y)).
    { intros j x N. destruct (Nat.lt_ge_cases j i).
      - rewrite nth_error_app1 in N by lia. auto.
      - rewrite nth_error_app2 in N by lia. right. assert (j = i).
        { destruct (j - length seen) eqn:D; [lia|]. destruct n; discriminate. }
        subst. rewrite Nat.sub_diag in N. cbn in N. split; congruence. }
    destruct (Z.ltb_spec bv y) as [C|C].
    + apply IH; auto.
      * rewrite nth_error_app2, LS, Nat.sub_diag by lia. reflexivity.
      * intros j x N. destruct (NTH _ _ N) as [N'|[_ ->]]; [apply ALL in N'; lia|lia].
      * intros j x J N. destruct (NTH _ _ N) as [N'|[-> _]]; [apply ALL in N'; lia|lia].
    + apply IH; auto.
      * rewrite nth_error_app1 by lia. exact NB.
      * intros j x N. destruct (NTH _ _ N) as [N'|[_ ->]]; [now apply ALL in N'|lia].
      * intros j x J N. destruct (NTH _ _ N) as [N'|[-> _]]; [now apply (FIRST j)|lia].
Qed.

Lemma argmax_spec : forall l b, argmax l = Ok b -> exists v, nth_error l b = Some v /\
    (forall j x, nth_error l j = Some x -> (x <= v)%Z) /\ (forall j x, j < b -> nth_error l j = Some x -> (x < v)%Z).
Proof.
  intros [|x l] b H; [discriminate|]. cbn [argmax] in H. injection H as <-.
  apply (argmax_from_spec l 1 0 x [x]); auto.
  - intros [|[|j]] y N; cbn in N; try discriminate. injection N as <-. lia.
  - intros j y J. lia.
Qed.

Lemma combine_seq_nth : forall A B (f : nat -> A -> B) (l : list A) s k, length l = k ->
  forall j, nth_error (map (fun ic => f (fst ic) (snd ic)) (combine (seq s k) l)) j = option_map (f (s + j)) (nth_error l j).
Proof.
  intros A B f. induction l as [|x l IH]; intros s k <- j; cbn [length seq combine map].
  - destruct j; reflexivity.
  - destruct j as [|j]; cbn [nth_error fst snd option_map].
    + now rewrite Nat.add_0_r.
    + rewrite (IH (S s) (length l) eq_refl). rewrite Nat.add_succ_comm. reflexivity.
Qed.

Lemma es_step_spec : forall V (ev : nat -> nat -> cgp V -> Z) dr nb father fit it c v,
  es_step ev dr nb (father, fit) it = Ok (c, v) ->
  exists offs b o, length offs = nb /\
    (forall i, i < nb -> exists x, nth_error offs i = Some x /\ offspring dr father it i = Ok x) /\
    nth_error offs b = Some o /\ b < nb /\
    (forall i x, nth_error offs i = Some x -> (ev it i x <= ev it b o)%Z) /\
    (forall i x, i < b -> nth_error offs i = Some x -> (ev it i x < ev it b o)%Z) /\
    ((fit <= ev it b o)%Z /\ c = o /\ v = ev it b o \/ (ev it b o < fit)%Z /\ c = father /\ v = fit).
Proof.
  intros V ev dr nb father fit it c v H. unfold es_step in H.
  apply bind_ok in H. destruct H as (offs & M & H). cbv zeta in H.
  set (fits := map (fun ic => ev it (fst ic) (snd ic)) (combine (seq 0 nb) offs)) in *.
  pose proof (mapM_length _ _ M) as LO. rewrite seq_length in LO.
  assert (FN : forall j, nth_error fits j = option_map (ev it j) (nth_error offs j)).
  { intros j. unfold fits. rewrite (combine_seq_nth _ _ (ev it) offs 0 nb LO). reflexivity. }
  apply bind_ok in H. destruct H as (b & AM & H). destruct (argmax_spec _ _ AM) as (bv & B1 & B2 & B3).
  apply bind_ok in H. destruct H as (bf & BF & H). apply lget_ok in BF. assert (bv = bf) by congruence. subst bf. clear BF.
  rewrite FN in B1. destruct (nth_error offs b) as [o|] eqn:No; [|discriminate]. cbn in B1. injection B1 as B1.
  assert (BN : b < nb) by (rewrite <- LO; apply nth_error_Some; congruence).
  exists offs, b, o. split; [exact LO|]. split.
  { intros i I. destruct (nth_error offs i) as [x|] eqn:Nx; [|apply nth_error_None in Nx; lia].
    exists x. split; [reflexivity|]. destruct (mapM_nth _ _ _ M Nx) as (q & Q & E).
    pose proof (nth_error_nth _ _ 0 Q) as Q'. rewrite seq_nth in Q' by exact I. cbn in Q'. congruence. }
  split; [exact No|]. split; [exact BN|]. split.
  { intros i x N. rewrite B1. apply (B2 i). rewrite FN, N. reflexivity. }
  split.
  { intros i x I N. rewrite B1. apply (B3 i); auto. rewrite FN, N. reflexivity. }
  destruct (Z.leb_spec fit bv) as [C|C].
  - unfold lget in H. rewrite No in H. cbn [bind] in H. injection H as <- <-. left. rewrite B1. auto.
  - injection H as <- <-. right. rewrite B1. auto.
Qed.

Lemma es_run_S : forall V (ev : nat -> nat -> cgp V -> Z) dr nb father k,
  es_run ev dr nb father (S k) = let* s := es_run ev dr nb father k in es_step ev dr nb s (S k).
Proof.
  intros. unfold es_run. rewrite seq_S, foldM_app. cbn [Nat.add]. destruct (foldM _ _ _); cbn [bind foldM]; auto.
  destruct (es_step ev dr nb a (S k)); reflexivity.
Qed.

Definition shape_of {V} (father c : cgp V) : Prop := valid c /\ same_shape father c.

Lemma es_run_total : forall V (ev : nat -> nat -> cgp V -> Z) dr nb father, 0 < nb -> valid father -> c_rows father = 1 ->
  0 < length (c_library father) -> 0 < c_inputs father ->
  forall k, exists c v, es_run ev dr nb father k = Ok (c, v) /\ shape_of father c.
Proof.
  intros V ev dr nb father NB VA R1 NL NI. induction k as [|k (c & v & E & VC & S1 & S2 & S3 & S4 & S5)].
  - eexists. eexists. split; [reflexivity|]. split; [exact VA|]. unfold same_shape. auto 10.
  - rewrite es_run_S, E. cbn [bind]. unfold es_step.
    assert (OFF : forall i, exists o, offspring dr c (S k) i = Ok o /\ shape_of father o).
    { intros i. unfold offspring.
      destruct (mutate_per_gene_ok V (d_flip dr (S k) i) (d_draw dr (S k) i) (clone c)) as (o & E1 & V1 & (T1 & T2 & T3 & T4 & T5) & _).
      { exact VC. } { cbn. congruence. } { reflexivity. } { cbn. rewrite S5. exact NL. } { cbn. lia. }
      exists o. split; [exact E1|]. split; [exact V1|]. cbn in *. unfold same_shape. repeat split; congruence. }
    assert (M : exists offs, mapM (offspring dr c (S k)) (seq 0 nb) = Ok offs /\ Forall (shape_of father) offs).
    { generalize (seq 0 nb) as l. induction l as [|i l IH]; [exists []; auto|]. cbn [mapM].
      destruct (OFF i) as (o & Eo & So). rewrite Eo. cbn [bind]. destruct IH as (r & -> & Fr). cbn [bind]. eauto. }
    destruct M as (offs & M & FO). rewrite M. cbn [bind]. cbv zeta.
    pose proof (mapM_length _ _ M) as LO. rewrite seq_length in LO.
    set (fits := map (fun ic => ev (S k) (fst ic) (snd ic)) (combine (seq 0 nb) offs)) in *.
    assert (LF : length fits = nb) by (unfold fits; rewrite map_length, combine_length, seq_length; lia).
    destruct (argmax fits) as [b|e] eqn:AM; [|destruct fits; [cbn in LF; lia|discriminate]].
    cbn [bind]. destruct (argmax_spec _ _ AM) as (bv & B1 & _). unfold lget at 1. rewrite B1. cbn [bind].
    destruct (v <=? bv)%Z.
    + assert (BL : b < length offs) by (rewrite LO, <- LF; apply nth_error_Some; congruence).
      destruct (lget_lt offs BL) as [o Eo]. rewrite Eo. cbn [bind]. exists o, bv. split; [reflexivity|].
      rewrite Forall_forall in FO. apply FO. eapply lget_In; eauto.
    + exists c, v. split; [reflexivity|]. split; [exact VC|]. unfold same_shape. auto 10.
Qed.
