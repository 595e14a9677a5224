(** Fidelity one of the BEE encoders, and the binary features. *)
From Coq Require Import String.
From Coq Require Import List Bool Arith ZArith Lia.
Import ListNotations.
From Verif Require Import Py PyList GymFeatModel GymFeatSpec GymBee1Proofs GymBee2Proofs GymFeatProofs.
Open Scope nat_scope.

(** ** BEE1 at fidelity one *)

Lemma rank_mono : forall rs u v, (u <= v)%Z -> rank rs u <= rank rs v.
Proof.
  unfold rank. induction rs as [|r rs IH]; intros u v L; simpl; auto.
  specialize (IH u v L). destruct (Z.ltb_spec r u), (Z.ltb_spec r v); simpl; try lia.
Qed.

Lemma rank_app : forall a b v, rank (a ++ b) v = rank a v + rank b v.
Proof. intros. unfold rank. rewrite filter_app, app_length. reflexivity. Qed.

Lemma rank_records_later : forall h' h v, (v <= peak 0 (records 0 h))%Z ->
  rank (records 0 (h ++ h')) v = rank (records 0 h) v.
Proof.
  induction h' as [|x h' IH]; intros h v L; [rewrite app_nil_r; auto|].
  change (h ++ x :: h') with (h ++ [x] ++ h'). rewrite app_assoc.
  assert (E : rank (records 0 (h ++ [x])) v = rank (records 0 h) v /\ (v <= peak 0 (records 0 (h ++ [x])))%Z).
  { rewrite records_app. destruct (Z.ltb_spec (peak 0 (records 0 h)) x).
    - rewrite rank_app. unfold rank at 2. simpl. destruct (Z.ltb_spec x v); [lia|]. split; [simpl; lia|].
      unfold peak. rewrite last_last. lia.
    - rewrite app_nil_r. auto. }
  destruct E as [E P]. rewrite IH; auto.
Qed.

Lemma rank_records_stable : forall h v h', rank (records 0 (h ++ v :: h')) v = rank (records 0 h) v.
Proof.
  intros h v h'. change (h ++ v :: h') with (h ++ [v] ++ h'). rewrite app_assoc.
  rewrite rank_records_later; rewrite records_app; destruct (Z.ltb_spec (peak 0 (records 0 h)) v).
  - rewrite rank_app. unfold rank at 2. simpl. rewrite Z.ltb_irrefl. simpl. lia.
  - rewrite app_nil_r. reflexivity.
  - unfold peak. rewrite last_last. lia.
  - rewrite app_nil_r. lia.
Qed.

(** the feature of a value once everything [h] has been seen *)
Definition grade (x0 : Z) (h : list Z) (x : Z) : Z :=
  if (x0 <? x)%Z then Z.of_nat (S (rank (records 0 (above x0 h)) (x - x0)))
  else if (x <? x0)%Z then (- Z.of_nat (S (rank (records 0 (below x0 h)) (x0 - x))))%Z
  else 0%Z.

Lemma grade_mono : forall x0 h x y, (x <= y)%Z -> (grade x0 h x <= grade x0 h y)%Z.
Proof.
  intros x0 h x y L. unfold grade.
  destruct (Z.ltb_spec x0 x), (Z.ltb_spec x0 y), (Z.ltb_spec x x0), (Z.ltb_spec y x0); try lia.
  - pose proof (rank_mono (records 0 (above x0 h)) (x - x0) (y - x0) ltac:(lia)). lia.
  - pose proof (rank_mono (records 0 (below x0 h)) (x0 - y) (x0 - x) ltac:(lia)). lia.
Qed.

Lemma above_app' : forall x0 a b, above x0 (a ++ b) = above x0 a ++ above x0 b.
Proof. intros. unfold above. rewrite map_app, filter_app. reflexivity. Qed.
Lemma below_app' : forall x0 a b, below x0 (a ++ b) = below x0 a ++ below x0 b.
Proof. intros. unfold below. rewrite map_app, filter_app. reflexivity. Qed.

Lemma grade_stable : forall x0 h x h', bee1_spec 1 x0 h x = [grade x0 (h ++ x :: h') x].
Proof.
  intros x0 h x h'. unfold bee1_spec, grade. rewrite above_app', below_app'.
  destruct (Z.ltb_spec x0 x) as [A|A].
  - cbn [code1]. f_equal.
    + replace (above x0 (x :: h')) with ((x - x0)%Z :: above x0 h').
      * rewrite rank_records_stable. reflexivity.
      * unfold above. simpl. destruct (Z.ltb_spec 0 (x - x0)); [reflexivity|lia].
    + destruct (forallb _ _); reflexivity.
  - destruct (Z.ltb_spec x x0) as [B|B]; [|reflexivity].
    cbn [code1 map]. f_equal.
    + replace (below x0 (x :: h')) with ((x0 - x)%Z :: below x0 h').
      * rewrite rank_records_stable. reflexivity.
      * unfold below. simpl. destruct (Z.ltb_spec 0 (x0 - x)); [reflexivity|lia].
    + destruct (forallb _ _); reflexivity.
Qed.

(** ** BEE2 at fidelity one *)

Lemma bands_app : forall x0 l x, exists b, bands ((x0 :: l) ++ [x]) = bands (x0 :: l) ++ b /\
  (x < lows l x0 -> b = [(x, lows l x0)])%Z /\ (highs l x0 < x -> b = [(highs l x0, x)])%Z /\
  (lows l x0 <= x <= highs l x0 -> b = [])%Z.
Proof.
  intros x0 l x. cbn [app bands]. rewrite bands_from_app by lia.
  pose proof (lows_le l x0). pose proof (highs_ge l x0).
  eexists. split; [apply app_comm_cons|].
  destruct (Z.ltb_spec x (lows l x0)), (Z.ltb_spec (highs l x0) x); repeat split; intros; auto; lia.
Qed.

Lemma bands_prefix : forall h' h, exists b, bands (h ++ h') = bands h ++ b.
Proof.
  induction h' as [|x h' IH]; intros h; [exists []; rewrite !app_nil_r; auto|].
  change (h ++ x :: h') with (h ++ [x] ++ h'). rewrite app_assoc.
  destruct (IH (h ++ [x])) as (b & ->). destruct h as [|x0 l].
  - simpl. eauto.
  - destruct (bands_app x0 l x) as (c & -> & _). exists (c ++ b). rewrite app_assoc. reflexivity.
Qed.

(** every band lies in the range seen *)
Lemma bands_range : forall l x0 a b, In (a, b) (bands (x0 :: l)) -> (lows l x0 <= a /\ b <= highs l x0)%Z.
Proof.
  intros l. induction l as [|x l IH] using rev_ind; intros x0 a b I.
  - simpl in I. destruct I as [I|[]]. injection I as <- <-. unfold lows, highs. simpl. lia.
  - change (x0 :: l ++ [x]) with ((x0 :: l) ++ [x]) in I.
    destruct (bands_app x0 l x) as (c & E & C1 & C2 & C3). rewrite E in I.
    rewrite lows_app, highs_app. pose proof (lows_le l x0). pose proof (highs_ge l x0).
    apply in_app_or in I. destruct I as [I|I].
    + destruct (IH _ _ _ I). lia.
    + destruct (Z.lt_ge_cases x (lows l x0)) as [A|A].
      * rewrite (C1 A) in I. destruct I as [I|[]]. injection I as <- <-. lia.
      * destruct (Z.lt_ge_cases (highs l x0) x) as [B|B].
        -- rewrite (C2 B) in I. destruct I as [I|[]]. injection I as <- <-. lia.
        -- rewrite C3 in I by lia. destruct I.
Qed.

Lemma band_of_none : forall bs x, (forall a b, In (a, b) bs -> x < a \/ b < x)%Z -> band_of bs x = length bs.
Proof.
  induction bs as [|[a b] bs IH]; intros x H; simpl; auto.
  destruct (H a b (or_introl eq_refl)) as [L|L].
  - destruct (Z.leb_spec a x); [lia|]. simpl. rewrite IH; auto. intros. apply H. right. auto.
  - destruct (Z.leb_spec x b); [lia|]. rewrite andb_false_r. rewrite IH; auto. intros. apply H. right. auto.
Qed.

Lemma band_of_out : forall x0 l x, (x < lows l x0 \/ highs l x0 < x)%Z ->
  band_of (bands (x0 :: l)) x = length (bands (x0 :: l)).
Proof.
  intros x0 l x H. apply band_of_none. intros a b I. apply bands_range in I. lia.
Qed.

Lemma band_stable : forall x0 l x h',
  code2 0 (x0 :: l) x = [Z.of_nat (band_of (bands ((x0 :: l) ++ x :: h')) x)].
Proof.
  intros x0 l x h'. cbn [code2]. rewrite lows_forallb, highs_forallb.
  change ((x0 :: l) ++ x :: h') with ((x0 :: l) ++ [x] ++ h'). rewrite app_assoc.
  destruct (bands_prefix h' ((x0 :: l) ++ [x])) as (b & ->).
  destruct (bands_app x0 l x) as (c & -> & C1 & C2 & C3).
  pose proof (lows_le l x0). pose proof (highs_ge l x0).
  rewrite <- app_assoc, band_of_app.
  destruct (Z.ltb_spec x (lows l x0)) as [A|A]; cbn [orb].
  - rewrite (C1 A). rewrite band_of_out by lia. rewrite Nat.ltb_irrefl. cbn [app band_of].
    destruct (Z.leb_spec x x); [|lia]. destruct (Z.leb_spec x (lows l x0)); [|lia]. simpl.
    rewrite Nat.add_0_r. reflexivity.
  - destruct (Z.ltb_spec (highs l x0) x) as [B|B].
    + rewrite (C2 B). rewrite band_of_out by lia. rewrite Nat.ltb_irrefl. cbn [app band_of].
      destruct (Z.leb_spec x x); [|lia]. destruct (Z.leb_spec (highs l x0) x); [|lia]. simpl.
      rewrite Nat.add_0_r. reflexivity.
    + pose proof (bands_cover' x0 l x ltac:(lia)) as C.
      destruct (Nat.ltb_spec (band_of (bands (x0 :: l)) x) (length (bands (x0 :: l)))); [|lia].
      reflexivity.
Qed.

Lemma band_convex : forall l x0 x y z, (x <= z <= y)%Z ->
  band_of (bands (x0 :: l)) x = band_of (bands (x0 :: l)) y ->
  band_of (bands (x0 :: l)) x < length (bands (x0 :: l)) ->
  band_of (bands (x0 :: l)) z = band_of (bands (x0 :: l)) x.
Proof.
  intros l. induction l as [|w l IH] using rev_ind; intros x0 x y z L E K.
  - simpl in *. destruct (Z.leb_spec x0 x), (Z.leb_spec x x0), (Z.leb_spec x0 y), (Z.leb_spec y x0);
      simpl in *; try lia. destruct (Z.leb_spec x0 z), (Z.leb_spec z x0); simpl; lia.
  - change (x0 :: l ++ [w]) with ((x0 :: l) ++ [w]) in *.
    destruct (bands_app x0 l w) as (c & R & C1 & C2 & C3). rewrite R in *.
    pose proof (lows_le l x0). pose proof (highs_ge l x0).
    rewrite band_of_app in *. rewrite (band_of_app _ _ y) in E. rewrite (band_of_app _ _ x) in *.
    rewrite app_length in K.
    destruct (Nat.ltb_spec (band_of (bands (x0 :: l)) x) (length (bands (x0 :: l)))) as [X|X].
    + destruct (Nat.ltb_spec (band_of (bands (x0 :: l)) y) (length (bands (x0 :: l)))) as [Y|Y]; [|lia].
      pose proof (IH x0 x y z L E X) as Z. rewrite Z.
      destruct (Nat.ltb_spec (band_of (bands (x0 :: l)) x) (length (bands (x0 :: l)))); lia.
    + destruct (Nat.ltb_spec (band_of (bands (x0 :: l)) y) (length (bands (x0 :: l)))) as [Y|Y]; [lia|].
      assert (XO : (x < lows l x0 \/ highs l x0 < x)%Z).
      { destruct (Z.lt_ge_cases x (lows l x0)); auto. destruct (Z.lt_ge_cases (highs l x0) x); auto.
        pose proof (bands_cover' x0 l x ltac:(lia)). lia. }
      assert (YO : (y < lows l x0 \/ highs l x0 < y)%Z).
      { destruct (Z.lt_ge_cases y (lows l x0)); auto. destruct (Z.lt_ge_cases (highs l x0) y); auto.
        pose proof (bands_cover' x0 l y ltac:(lia)). lia. }
      destruct (Z.lt_ge_cases w (lows l x0)) as [A|A].
      * rewrite (C1 A) in *. cbn [band_of length] in *.
        destruct (Z.leb_spec w x), (Z.leb_spec x (lows l x0)); cbn [andb] in *; try lia.
        destruct (Z.leb_spec w y), (Z.leb_spec y (lows l x0)); cbn [andb] in *; try lia.
        rewrite (band_of_out x0 l z) by lia. rewrite Nat.ltb_irrefl.
        destruct (Z.leb_spec w z), (Z.leb_spec z (lows l x0)); cbn [andb]; lia.
      * destruct (Z.lt_ge_cases (highs l x0) w) as [B|B].
        -- rewrite (C2 B) in *. cbn [band_of length] in *.
           destruct (Z.leb_spec (highs l x0) x), (Z.leb_spec x w); cbn [andb] in *; try lia.
           destruct (Z.leb_spec (highs l x0) y), (Z.leb_spec y w); cbn [andb] in *; try lia.
           rewrite (band_of_out x0 l z) by lia. rewrite Nat.ltb_irrefl.
           destruct (Z.leb_spec (highs l x0) z), (Z.leb_spec z w); cbn [andb]; lia.
        -- rewrite C3 in * by lia. cbn [band_of length] in *. lia.
Qed.

(** ** Binary features *)

(** the number written by a list of binary digits *)
Definition bits_val (l : list bool) : Z :=
  fold_left (fun a (b : bool) => 2 * a + (if b then 1 else 0))%Z l 0%Z.

Lemma bits_val_snoc : forall l b, bits_val (l ++ [b]) = (2 * bits_val l + (if b then 1 else 0))%Z.
Proof. intros. unfold bits_val. rewrite fold_left_app. reflexivity. Qed.

Lemma pos_bits_val : forall p, bits_val (pos_bits p) = Zpos p.
Proof. induction p; cbn [pos_bits]; try rewrite bits_val_snoc; try rewrite IHp; try reflexivity; lia. Qed.

Lemma bits_val_pad : forall w l, bits_val (zpad w l) = bits_val l.
Proof.
  intros w l. unfold zpad, bits_val. rewrite fold_left_app. f_equal.
  induction (w - length l) as [|k IH]; simpl; auto.
Qed.

Lemma bin_digits_val : forall z, (0 <= z)%Z -> bits_val (bin_digits z) = z.
Proof. intros [|p|p] H; try reflexivity; [apply pos_bits_val|lia]. Qed.

Lemma pos_bits_length : forall p, Z.of_nat (length (pos_bits p)) = (Z.log2 (Zpos p) + 1)%Z.
Proof.
  induction p; cbn [pos_bits]; try rewrite app_length; try reflexivity;
    rewrite Nat2Z.inj_add, IHp; simpl Z.of_nat.
  - rewrite (Pos2Z.inj_xI p), Z.log2_succ_double by lia. lia.
  - rewrite (Pos2Z.inj_xO p), Z.log2_double by lia. lia.
Qed.

Lemma bin_digits_length : forall z, (0 <= z)%Z -> length (bin_digits z) = Z.to_nat (Z.log2 z) + 1.
Proof.
  intros [|p|p] H; try reflexivity; [|lia]. cbn [bin_digits]. pose proof (pos_bits_length p). pose proof (Z.log2_nonneg (Zpos p)). lia.
Qed.

Lemma zpad_length : forall w l, length l <= w -> length (zpad w l) = w.
Proof. intros. unfold zpad. rewrite app_length, repeat_length. lia. Qed.

Lemma int_bits_length : forall n e, (0 <= e < n)%Z -> length (int_bits n e) = Z.to_nat (Z.log2 (n - 1)) + 1.
Proof.
  intros n e H. unfold int_bits. rewrite zpad_length.
  - apply bin_digits_length. lia.
  - rewrite !bin_digits_length by lia. pose proof (Z.log2_le_mono e (n - 1) ltac:(lia)).
    pose proof (Z.log2_nonneg e). lia.
Qed.

Lemma int_bits_inj : forall n e e', (0 <= e)%Z -> (0 <= e')%Z -> int_bits n e = int_bits n e' -> e = e'.
Proof.
  intros n e e' H H' E. apply (f_equal bits_val) in E. unfold int_bits in E.
  rewrite !bits_val_pad, !bin_digits_val in E by auto. exact E.
Qed.

Lemma box_bits_length : forall p, (- 2 ^ 31 < p < 2 ^ 31)%Z -> length (box_bits p) = 32.
Proof.
  intros p H. unfold box_bits. cbn [length]. f_equal. rewrite zpad_length; [reflexivity|].
  rewrite bin_digits_length by lia. change maxlen with 31.
  destruct (Z.eq_dec p 0) as [->|N]; [simpl; lia|].
  assert (Z.log2 (Z.abs p) < 31)%Z by (apply Z.log2_lt_pow2; lia). lia.
Qed.

Lemma box_bits_inj : forall p q, box_bits p = box_bits q -> p = q.
Proof.
  intros p q E. unfold box_bits in E. injection E as E1 E2.
  apply (f_equal bits_val) in E2. rewrite !bits_val_pad, !bin_digits_val in E2 by lia.
  destruct (Z.ltb_spec p 0), (Z.ltb_spec q 0); try discriminate; lia.
Qed.

Lemma app_inj_len : forall A (a b c d : list A), length a = length c -> a ++ b = c ++ d -> a = c /\ b = d.
Proof.
  intros A a. induction a as [|x a IH]; intros b [|y c] d L E; try discriminate; auto.
  simpl in *. injection E as -> E. destruct (IH b c d ltac:(lia) E) as [-> ->]. auto.
Qed.

(** the number of binary features of a space *)
Fixpoint width (sp : gspace) : nat :=
  match sp with
  | GBox n => 32 * n
  | GDiscrete n => Z.to_nat (Z.log2 (n - 1)) + 1
  | GMultiDiscrete v => list_sum (map (fun n => Z.to_nat (Z.log2 (n - 1)) + 1) v)
  | GMultiBinary n => n
  | GTuple l => (fix go (l : list gspace) : nat := match l with [] => 0 | s :: r => width s + go r end) l
  | _ => 0
  end.

(** no cell is the bit pattern of minus zero *)
Definition patterns (e : gelem Z) : Prop := Forall (fun p => - 2 ^ 31 < p < 2 ^ 31)%Z (cells e).

Lemma flat_bits_length : forall cs, Forall (fun p => - 2 ^ 31 < p < 2 ^ 31)%Z cs ->
  length (flat_map box_bits cs) = 32 * length cs.
Proof.
  induction cs as [|c cs IH]; intros H; [reflexivity|]. inversion H; subst.
  cbn [flat_map]. rewrite app_length, box_bits_length, IH by auto. simpl. lia.
Qed.

Lemma flat_bits_inj : forall cs ds, Forall (fun p => - 2 ^ 31 < p < 2 ^ 31)%Z cs ->
  Forall (fun p => - 2 ^ 31 < p < 2 ^ 31)%Z ds -> length cs = length ds ->
  flat_map box_bits cs = flat_map box_bits ds -> cs = ds.
Proof.
  induction cs as [|c cs IH]; intros [|d ds] H K L E; try discriminate; auto.
  inversion H; inversion K; subst. cbn [flat_map] in E.
  apply app_inj_len in E; [|rewrite !box_bits_length by auto; auto].
  destruct E as [E1 E2]. apply box_bits_inj in E1. f_equal; auto.
Qed.

Lemma ints_bits_ok : forall v l, Forall2 (fun n z => (0 <= z < n)%Z) v l ->
  exists b, ints_bits v l = Ok b /\ length b = list_sum (map (fun n => Z.to_nat (Z.log2 (n - 1)) + 1) v).
Proof.
  intros v l H. induction H as [|n z v l Hz H (b & E & L)]; [exists []; auto|].
  cbn [ints_bits]. rewrite E. cbn [bind]. eexists. split; [reflexivity|].
  rewrite app_length, int_bits_length, L by auto. reflexivity.
Qed.

Lemma ints_bits_inj : forall v l m, Forall2 (fun n z => (0 <= z < n)%Z) v l ->
  Forall2 (fun n z => (0 <= z < n)%Z) v m -> ints_bits v l = ints_bits v m -> l = m.
Proof.
  intros v l m H. revert m. induction H as [|n z v l Hz H IH]; intros m K E; inversion K; subst; auto.
  cbn [ints_bits] in E.
  destruct (ints_bits_ok _ _ H) as (b & B & _). destruct (ints_bits_ok v l' ltac:(auto)) as (c & C & _).
  rewrite B, C in E. cbn [bind] in E. injection E as E.
  apply app_inj_len in E; [|rewrite !int_bits_length by auto; auto].
  destruct E as [E1 E2]. apply int_bits_inj in E1; try lia. f_equal; auto.
  apply IH; auto. rewrite B, C, E2. reflexivity.
Qed.

Lemma bools_inj : forall l m, Forall (fun z => z = 0 \/ z = 1)%Z l -> Forall (fun z => z = 0 \/ z = 1)%Z m ->
  map (fun b => negb (b =? 0)%Z) l = map (fun b => negb (b =? 0)%Z) m -> l = m.
Proof.
  induction l as [|a l IH]; intros [|b m] H K E; try discriminate; auto.
  inversion H; inversion K; subst. cbn [map] in E. injection E as E1 E2. f_equal; auto.
  destruct (Z.eqb_spec a 0), (Z.eqb_spec b 0); try discriminate; lia.
Qed.

Lemma binary_ok : forall sp e, no_dict sp -> fits sp e -> patterns e ->
  exists b, binary_feats sp e = Ok b /\ length b = width sp.
Proof.
  intros sp. induction sp as [n|n|v|n|l IH|l|] using gspace_rect'; intros e D F P; try destruct D.
  - destruct e as [cs| | | |]; try destruct F. eexists. split; [reflexivity|]. apply flat_bits_length. exact P.
  - destruct e as [|z| | |]; try destruct F. eexists. split; [reflexivity|]. apply int_bits_length. auto.
  - destruct e as [| |m| |]; try contradiction. apply ints_bits_ok. exact F.
  - destruct e as [| |m| |]; try contradiction. eexists. split; [reflexivity|]. rewrite map_length. exact (proj1 F).
  - destruct e as [| | |es|]; try destruct F. cbn [binary_feats width].
    assert (G : forall l pre ts, Forall (fun sp => forall e, no_dict sp -> fits sp e -> patterns e ->
                    exists b, binary_feats sp e = Ok b /\ length b = width sp) l ->
        no_dict (GTuple l) -> @fits Z (GTuple l) (ETuple ts) -> patterns (ETuple ts) ->
        exists b, (fix go (sps : list gspace) (i : nat) {struct sps} : res (list bool) :=
           match sps with
           | [] => Ok []
           | s :: r => let* x := elem_at (ETuple (pre ++ ts)) i in
                       let* l := binary_feats s x in
                       let* t := go r (i + 1) in Ok (l ++ t)
           end) l (length pre) = Ok b /\ length b = width (GTuple l)).
    { clear. induction l as [|sp l IHl]; intros pre ts IH D F P.
      - exists []. auto.
      - destruct ts as [|t ts]; [destruct F|]. destruct D as [D1 D2]. destruct F as [F1 F2].
        inversion IH as [|? ? I1 I2]; subst. cbn [elem_at].
        unfold patterns in P. cbn [cells flat_map] in P. apply Forall_app in P. destruct P as [P1 P2].
        assert (L : lget (pre ++ t :: ts) (length pre) = Ok t)
          by (apply lget_ok; rewrite nth_error_app2, Nat.sub_diag by lia; reflexivity).
        rewrite L. cbn [bind]. destruct (I1 t D1 F1 P1) as (b & B & BL). rewrite B. cbn [bind].
        destruct (IHl (pre ++ [t]) ts I2 D2 F2 P2) as (c & C & CL).
        rewrite <- app_assoc in C. cbn [app] in C. rewrite app_length in C. cbn [length] in C.
        cbn [elem_at] in C. rewrite C. cbn [bind]. eexists. split; [reflexivity|].
        rewrite app_length, BL, CL. reflexivity. }
    apply (G l [] es); auto.
  - destruct F.
Qed.

Lemma binary_inj : forall sp e f b, no_dict sp -> fits sp e -> fits sp f -> patterns e -> patterns f ->
  binary_feats sp e = Ok b -> binary_feats sp f = Ok b -> e = f.
Proof.
  intros sp. induction sp as [n|n|v|n|l IH|l|] using gspace_rect';
    intros e f b D F K P Q X Y; try destruct D.
  - destruct e as [cs| | | |]; try contradiction. destruct f as [ds| | | |]; try contradiction.
    f_equal. cbn [binary_feats fits] in *. apply flat_bits_inj; auto; congruence.
  - destruct e as [|z| | |]; try contradiction. destruct f as [|z'| | |]; try contradiction.
    f_equal. cbn [binary_feats fits] in *. apply (int_bits_inj n); try lia; congruence.
  - destruct e as [| |m| |]; try contradiction. destruct f as [| |m'| |]; try contradiction.
    f_equal. cbn [binary_feats fits] in *. apply (ints_bits_inj v); auto; congruence.
  - destruct e as [| |m| |]; try contradiction. destruct f as [| |m'| |]; try contradiction.
    f_equal. destruct F, K. cbn [binary_feats] in *. apply bools_inj; auto; congruence.
  - destruct e as [| | |es|]; try destruct F. destruct f as [| | |fs|]; try destruct K.
    cbn [binary_feats] in X, Y.
    assert (G : forall l pre pre' ts us b, Forall (fun sp => forall e f b, no_dict sp -> fits sp e -> fits sp f ->
                    patterns e -> patterns f -> binary_feats sp e = Ok b -> binary_feats sp f = Ok b -> e = f) l ->
        no_dict (GTuple l) -> @fits Z (GTuple l) (ETuple ts) -> @fits Z (GTuple l) (ETuple us) ->
        patterns (ETuple ts) -> patterns (ETuple us) -> length pre = length pre' ->
        (fix go (sps : list gspace) (i : nat) {struct sps} : res (list bool) :=
           match sps with
           | [] => Ok []
           | s :: r => let* x := elem_at (ETuple (pre ++ ts)) i in
                       let* l := binary_feats s x in
                       let* t := go r (i + 1) in Ok (l ++ t)
           end) l (length pre) = Ok b ->
        (fix go (sps : list gspace) (i : nat) {struct sps} : res (list bool) :=
           match sps with
           | [] => Ok []
           | s :: r => let* x := elem_at (ETuple (pre' ++ us)) i in
                       let* l := binary_feats s x in
                       let* t := go r (i + 1) in Ok (l ++ t)
           end) l (length pre') = Ok b -> ts = us).
    { clear. induction l as [|sp l IHl]; intros pre pre' ts us b IH D F K P Q LP X Y.
      - destruct ts; [|destruct F]. destruct us; [auto|destruct K].
      - destruct ts as [|t ts]; [destruct F|]. destruct us as [|u us]; [destruct K|].
        destruct D as [D1 D2]. destruct F as [F1 F2]. destruct K as [K1 K2].
        inversion IH as [|? ? I1 I2]; subst. cbn [elem_at] in X, Y.
        unfold patterns in P, Q. cbn [cells flat_map] in P, Q.
        apply Forall_app in P. destruct P as [P1 P2]. apply Forall_app in Q. destruct Q as [Q1 Q2].
        assert (L : lget (pre ++ t :: ts) (length pre) = Ok t)
          by (apply lget_ok; rewrite nth_error_app2, Nat.sub_diag by lia; reflexivity).
        assert (L' : lget (pre' ++ u :: us) (length pre') = Ok u)
          by (apply lget_ok; rewrite nth_error_app2, Nat.sub_diag by lia; reflexivity).
        rewrite L in X. rewrite L' in Y. cbn [bind] in X, Y.
        destruct (binary_ok sp t D1 F1 P1) as (b1 & B1 & BL1).
        destruct (binary_ok sp u D1 K1 Q1) as (b2 & B2 & BL2).
        rewrite B1 in X. rewrite B2 in Y. cbn [bind] in X, Y.
        apply bind_ok in X. destruct X as (c1 & X1 & X). injection X as X.
        apply bind_ok in Y. destruct Y as (c2 & Y1 & Y). injection Y as Y.
        rewrite <- Y in X. apply app_inj_len in X; [|congruence]. destruct X as [-> ->].
        f_equal.
        + exact (I1 t u b2 D1 F1 K1 P1 Q1 B1 B2).
        + apply (IHl (pre ++ [t]) (pre' ++ [u]) ts us c2 I2 D2 F2 K2 P2 Q2).
          * rewrite !app_length, LP. reflexivity.
          * rewrite <- app_assoc, app_length. exact X1.
          * rewrite <- app_assoc, app_length. exact Y1. }
    f_equal. apply (G l [] [] es fs b); auto.
  - destruct F.
Qed.
