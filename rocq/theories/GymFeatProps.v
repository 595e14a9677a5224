(** C105-C107: the feature encoders of gym observations. *)
From Coq Require Import String.
From Coq Require Import List Bool Arith ZArith Lia.
Import ListNotations.
From Verif Require Import Py PyList GymFeatModel GymFeatSpec GymBee1Proofs GymBee2Proofs GymFeatProofs GymBitsProofs.
Open Scope nat_scope.

(** What a planner observes: the results of successive calls, from freshly reset tables. *)
Definition bee1_run (fidelity : Z) (sp : gspace) (ops : list op) : list (res (list Z)) :=
  play empty_tables (bee1_features fidelity sp) ops empty_tables.
Definition bee2_run (fidelity : Z) (sp : gspace) (ops : list op) : list (res (list Z)) :=
  play empty_tables (bee2_features fidelity sp) ops empty_tables.

(** The number of variables (cells) of the states of a space. *)
Definition has_variables (sp : gspace) (n : nat) : Prop :=
  forall e : gelem num, fits sp e -> length (cells e) = n.

(** An observation with two Boxes in nested tuples. *)
Definition pair_space : gspace := GTuple [GBox 1; GTuple [GBox 2]].
Definition pair_state (a b c : Z) : gelem num :=
  ETuple [EArr [Num a]; ETuple [EArr [Num b; Num c]]].
Definition pair_ops : list op :=
  [Eval (pair_state 0 5 7); Eval (pair_state 4 5 3); Eval (pair_state 2 9 3); Reset;
   Eval (pair_state 2 5 7); Eval (pair_state 1 5 8)].

Lemma pair_ops_ok : boxes pair_space /\ states_of pair_space pair_ops.
Proof.
  split; [simpl; auto|]. intros e I. unfold pair_ops in I.
  repeat (destruct I as [I|I];
    [first [discriminate I | injection I as <-; split; [cbn; tauto|intros [K|[K|[K|[]]]]; discriminate]]|]).
  destruct I.
Qed.

(** ** C105: BEE2 *)

(** On a space made of Boxes and nested tuples of Boxes, for every fidelity and every sequence of NaN
    free states and resets, every call succeeds, and its result is, variable by variable, the number of
    the first band of the range seen so far that contains the value - a value leaving the range opens
    a new band - refined in the same way by the values met inside that band. *)
Theorem C105_history : forall fidelity sp ops, boxes sp -> states_of sp ops ->
  bee2_run fidelity sp ops =
  expected (fun x0 h x => code2 (Z.to_nat (fidelity - 1)) (x0 :: h) x) [] ops.
Proof.
  intros fid sp ops B S. unfold bee2_run, bee2_features.
  apply (@play_ok node2 init_cell2 (cell_feats2 fid)
           (fun x0 h x => code2 (Z.to_nat (fid - 1)) (x0 :: h) x) (inv2 (Z.to_nat (fid - 1)))); auto.
  - exact (inv2_ext (Z.to_nat (fid - 1))).
  - exact (inv2_init (Z.to_nat (fid - 1))).
  - intros x0s H t I. exact (inv2_empty _ _ _ _ I).
  - exact (inv2_nil (Z.to_nat (fid - 1))).
  - exact (inv2_cell fid).
  - reflexivity.
Qed.

Example C105_history_ex :
  boxes pair_space /\ states_of pair_space pair_ops /\
  bee2_run 2 pair_space pair_ops =
  [Ok [0; 0; 0; 0; 0; 0]; Ok [1; -1; 0; 0; 1; -1]; Ok [1; 0; 1; -1; 1; 0];
   Ok [0; 0; 0; 0; 0; 0]; Ok [1; -1; 0; 0; 1; -1]]%Z.
Proof. split; [apply pair_ops_ok|]. split; [apply pair_ops_ok|]. vm_compute. reflexivity. Qed.
Print Assumptions C105_history.

Lemma code2_length : forall l h x, length (code2 l h x) = S l.
Proof.
  induction l as [|l IH]; intros h x; simpl.
  - destruct (_ || _); reflexivity.
  - destruct (_ || _); simpl; [rewrite repeat_length; auto|]. rewrite IH. reflexivity.
Qed.

Lemma flat_map_length : forall A B (g : A -> list B) n l, (forall x, length (g x) = n) ->
  length (flat_map g l) = length l * n.
Proof.
  intros A B g n l H. induction l as [|x l IH]; simpl; auto. rewrite app_length, H, IH. reflexivity.
Qed.

Lemma expected_In : forall one hs ops r, In r (expected one hs ops) ->
  exists hs' e, In (Eval e) ops /\ r = Ok (state_spec one hs' (vals e)).
Proof.
  intros one hs ops. revert hs. induction ops as [|[|e] ops IH]; intros hs r I; simpl in I; [destruct I| |].
  - destruct (IH _ _ I) as (hs' & e & K & ->). exists hs', e. split; [right|]; auto.
  - destruct I as [<-|I].
    + exists hs, e. split; [left|]; auto.
    + destruct (IH _ _ I) as (hs' & e' & K & ->). exists hs', e'. split; [right|]; auto.
Qed.

(** Every call returns exactly [fidelity] features per variable: the feature vectors compared by the
    width-based planners all have the same length. *)
Theorem C105_length : forall fidelity sp n ops r, (1 <= fidelity)%Z -> boxes sp -> states_of sp ops ->
  has_variables sp n -> In r (bee2_run fidelity sp ops) ->
  exists fs, r = Ok fs /\ length fs = n * Z.to_nat fidelity.
Proof.
  intros fid sp n ops r L B S V I. rewrite C105_history in I by auto.
  apply expected_In in I. destruct I as (hs & e & I & ->). eexists. split; [reflexivity|].
  unfold state_spec. rewrite (flat_map_length _ _ _ (Z.to_nat fid)).
  - rewrite seq_length. unfold vals. rewrite map_length. rewrite (V e); auto. apply (S e I).
  - intros i. rewrite code2_length. lia.
Qed.
Example C105_length_ex : has_variables pair_space 3 /\ length (bee2_run 2 pair_space pair_ops) = 5.
Proof.
  split; [|vm_compute; reflexivity]. intros e F.
  exact (cells_size _ pair_space e (proj1 pair_ops_ok) F).
Qed.
Print Assumptions C105_length.

Lemma expected_nth : forall one es hs i e,
  nth_error es i = Some e ->
  nth_error (expected one hs (map Eval es)) i =
    Some (Ok (state_spec one (hs ++ map vals (firstn i es)) (vals e))).
Proof.
  intros one es. induction es as [|x es IH]; intros hs [|i] e H; try discriminate.
  - injection H as ->. simpl. rewrite app_nil_r. reflexivity.
  - cbn [map expected nth_error firstn]. cbn in H. rewrite (IH _ _ _ H). rewrite <- app_assoc. reflexivity.
Qed.

Lemma flat_map_single : forall A (g : nat -> list A) (v : nat -> A) n k d, k < n ->
  (forall i, i < n -> g i = [v i]) -> nth k (flat_map g (seq 0 n)) d = v k.
Proof.
  intros A g v n k d K H.
  assert (E : flat_map g (seq 0 n) = map v (seq 0 n)).
  { rewrite flat_map_concat_map. transitivity (concat (map (fun i => [v i]) (seq 0 n))).
    - f_equal. apply map_ext_in. intros i I. apply in_seq in I. apply H. lia.
    - clear. induction (seq 0 n) as [|x l IH]; simpl; auto. rewrite IH. reflexivity. }
  rewrite E. rewrite (nth_indep _ d (v 0)) by (rewrite map_length, seq_length; auto).
  rewrite map_nth. rewrite seq_nth by auto. reflexivity.
Qed.

Lemma states_of_map : forall sp es, states_of sp (map Eval es) <->
  (forall e, In e es -> fits sp e /\ ~ In NaN (cells e)).
Proof.
  intros sp es. split; intros H e I.
  - apply H. apply in_map. exact I.
  - apply in_map_iff in I. destruct I as (x & E & I). injection E as ->. auto.
Qed.

Lemma nth_split_first : forall A (l : list A) i x, nth_error l i = Some x ->
  l = firstn i l ++ x :: skipn (S i) l.
Proof.
  intros A l. induction l as [|y l IH]; intros [|i] x H; try discriminate.
  - injection H as ->. reflexivity.
  - cbn [firstn app]. change (skipn (S (S i)) (y :: l)) with (skipn (S i) l). f_equal. apply IH. exact H.
Qed.

(** At fidelity one the features are stable and convex: between two resets, the feature of a variable
    is always the same function [g] of its value, whenever the state is evaluated; and a value lying
    between two seen values with the same feature has that feature too. *)
Theorem C105_fidelity_one : forall sp n es k, boxes sp -> states_of sp (map Eval es) ->
  has_variables sp n -> k < n ->
  exists g : Z -> Z,
    (forall i e fs, nth_error es i = Some e -> nth_error (bee2_run 1 sp (map Eval es)) i = Some (Ok fs) ->
       nth k fs 0%Z = g (nth k (vals e) 0%Z)) /\
    (forall x y z, In x (column k (map vals es)) -> In y (column k (map vals es)) ->
       (x <= z <= y)%Z -> g x = g y -> g z = g x).
Proof.
  intros sp n es k B S V K. destruct es as [|e0 es0] eqn:ES.
  { exists (fun _ => 0%Z). split; [intros [|i] e fs H; discriminate|intros x y z []]. }
  rewrite <- ES in *. set (x0 := nth k (vals e0) 0%Z).
  set (all := x0 :: column k (map vals es)).
  exists (fun x => Z.of_nat (band_of (bands all) x)). split.
  - intros i e fs H R. rewrite C105_history in R by auto.
    rewrite (expected_nth _ _ _ _ _ H) in R. injection R as <-. cbn [app].
    change (Z.to_nat (1 - 1)) with 0. unfold state_spec.
    assert (Hin : In e es) by (eapply nth_error_In; eauto).
    assert (LE : length (vals e) = n).
    { unfold vals. rewrite map_length. apply V. exact (proj1 (proj1 (states_of_map sp es) S e Hin)). }
    assert (E0 : In e0 es) by (rewrite ES; left; auto).
    rewrite LE.
    rewrite (flat_map_single _ _
        (fun i0 => Z.of_nat (band_of (bands ((nth i0 (vals e0) 0%Z :: column i0 (map vals (firstn i es))) ++
              nth i0 (vals e) 0%Z :: column i0 (map vals (skipn (Datatypes.S i) es)))) (nth i0 (vals e) 0%Z)))
        n k 0%Z K).
    + unfold all. rewrite (nth_split_first _ es i e H) at 3. unfold column.
      rewrite !map_app. cbn [map app]. reflexivity.
    + intros i0 I0. rewrite <- band_stable. f_equal. f_equal.
      destruct i as [|i].
      * rewrite ES in H. injection H as ->. reflexivity.
      * rewrite ES. reflexivity.
  - intros x y z X Y L G. apply Nat2Z.inj in G. f_equal.
    unfold all in *. apply band_convex with (y := y); auto.
    apply bands_cover'.
    assert (R : forall l a c w, In w l -> (lows l a <= w <= highs l c)%Z).
    { clear. intros l. induction l as [|b l IH]; intros a c w I; [destruct I|].
      unfold lows, highs in *. cbn [fold_left]. destruct I as [<-|I]; [|apply IH; auto].
      pose proof (lows_le l (Z.min a b)). pose proof (highs_ge l (Z.max c b)).
      unfold lows, highs in *. lia. }
    apply R. exact X.
Qed.

Example C105_fidelity_one_ex :
  bee2_run 1 (GBox 1) (map (fun z => Eval (EArr [Num z])) [0; 5; -3; 2; 5; 9; 4; -3]%Z) =
  map (fun k => Ok [k]) [0; 1; 2; 1; 1; 3; 1; 2]%Z.
Proof. vm_compute. reflexivity. Qed.
Print Assumptions C105_fidelity_one.

(** From fidelity two on, evaluating the very same state twice in a row gives two different feature
    vectors: the planner sees a new combination of features although nothing changed. *)
Theorem C105_repeat_refuted : exists s0 s,
  bee2_run 2 (GBox 1) [Eval s0; Eval s; Eval s] = [Ok [0; 0]%Z; Ok [1; -1]%Z; Ok [1; 0]%Z].
Proof. exists (EArr [Num 0]), (EArr [Num 5]). vm_compute. reflexivity. Qed.
Print Assumptions C105_repeat_refuted.

(** One NaN in an observation, once a value has been seen, makes the encoder raise RuntimeError. *)
Theorem C105_nan_refuted : exists s, nth_error (bee2_run 1 (GBox 1) [Eval s; Eval (EArr [NaN])]) 1 = Some (Err RuntimeError).
Proof. exists (EArr [Num 0]). vm_compute. reflexivity. Qed.
Print Assumptions C105_nan_refuted.

(** An observation space with a Discrete component is rejected by the initialisation although the
    encoder handles it: the first call raises RuntimeError; when the Boxes come first the second call
    on the same state succeeds, otherwise no call ever does. *)
Theorem C105_discrete_refuted : exists a b (s t : gelem num), fits a s /\ fits b t /\
  bee2_run 1 a [Eval s; Eval s] = [Err RuntimeError; Ok [0; 3]%Z] /\
  bee2_run 1 b [Eval t; Eval t; Eval t] = [Err RuntimeError; Err RuntimeError; Err RuntimeError].
Proof.
  exists (GTuple [GBox 1; GDiscrete 5]), (GTuple [GDiscrete 5; GBox 1]),
    (ETuple [EArr [Num 2]; EInt 3]), (ETuple [EInt 3; EArr [Num 2]]).
  split; [simpl; lia|]. split; [simpl; lia|]. split; vm_compute; reflexivity.
Qed.
Print Assumptions C105_discrete_refuted.

(** ** C106: BEE1 *)

(** Likewise for BEE1: every call succeeds, and the features of a variable are the signed number of
    the band between successive records of its distance to the initial value, then the same inside
    the band, measured from its start. *)
Theorem C106_history : forall fidelity sp ops, boxes sp -> states_of sp ops ->
  bee1_run fidelity sp ops = expected (bee1_spec (Z.to_nat fidelity)) [] ops.
Proof.
  intros fid sp ops B S. unfold bee1_run, bee1_features.
  apply (@play_ok node1 init_cell1 (cell_feats1 fid) (bee1_spec (Z.to_nat fid)) (inv1 (Z.to_nat fid))); auto.
  - exact (inv1_ext (Z.to_nat fid)).
  - exact (inv1_init (Z.to_nat fid)).
  - intros x0s H t I. exact (inv1_empty _ _ _ _ I).
  - exact (inv1_nil (Z.to_nat fid)).
  - exact (inv1_cell fid).
  - reflexivity.
Qed.
Example C106_history_ex :
  bee1_run 2 pair_space pair_ops =
  [Ok [0; 0; 0; 0; 0; 0]; Ok [1; 0; 0; 0; -1; 0]; Ok [1; 1; 1; 0; -1; -1];
   Ok [0; 0; 0; 0; 0; 0]; Ok [-1; 0; 0; 0; 1; 0]]%Z.
Proof. vm_compute. reflexivity. Qed.
Print Assumptions C106_history.

Lemma code1_length : forall f h v, length (code1 f h v) = f.
Proof.
  induction f as [|f IH]; intros h v; simpl; auto.
  destruct (forallb _ _); [rewrite repeat_length|rewrite IH]; reflexivity.
Qed.

(** Every call returns exactly [fidelity] features per variable. *)
Theorem C106_length : forall fidelity sp n ops r, boxes sp -> states_of sp ops ->
  has_variables sp n -> In r (bee1_run fidelity sp ops) ->
  exists fs, r = Ok fs /\ length fs = n * Z.to_nat fidelity.
Proof.
  intros fid sp n ops r B S V I. rewrite C106_history in I by auto.
  apply expected_In in I. destruct I as (hs & e & I & ->). eexists. split; [reflexivity|].
  unfold state_spec. rewrite (flat_map_length _ _ _ (Z.to_nat fid)).
  - rewrite seq_length. unfold vals. rewrite map_length. rewrite (V e); auto. apply (S e I).
  - intros i. unfold bee1_spec.
    destruct (_ <? _)%Z; [apply code1_length|]. destruct (_ <? _)%Z; [|apply repeat_length].
    rewrite map_length. apply code1_length.
Qed.
Example C106_length_ex : has_variables pair_space 3 /\ length (bee1_run 2 pair_space pair_ops) = 5.
Proof.
  split; [|vm_compute; reflexivity]. intros e F.
  exact (cells_size _ pair_space e (proj1 pair_ops_ok) F).
Qed.
Print Assumptions C106_length.

(** At fidelity one, between two resets, the feature of a variable is a monotone function of its
    value that never changes: a larger value never has a smaller feature, at whatever moments the two
    states are evaluated; and the initial value has feature 0. *)
Theorem C106_fidelity_one : forall sp n es k, boxes sp -> states_of sp (map Eval es) ->
  has_variables sp n -> k < n ->
  exists g : Z -> Z,
    (forall x y, (x <= y)%Z -> (g x <= g y)%Z) /\
    (forall i e fs, nth_error es i = Some e -> nth_error (bee1_run 1 sp (map Eval es)) i = Some (Ok fs) ->
       nth k fs 0%Z = g (nth k (vals e) 0%Z)) /\
    (forall e, nth_error es 0 = Some e -> g (nth k (vals e) 0%Z) = 0%Z).
Proof.
  intros sp n es k B S V K. destruct es as [|e0 es0] eqn:ES.
  { exists (fun _ => 0%Z). split; [intros; lia|]. split; [intros [|i] e fs H; discriminate|intros e H; discriminate]. }
  rewrite <- ES in *. set (x0 := nth k (vals e0) 0%Z).
  exists (grade x0 (column k (map vals es))). split; [apply grade_mono|]. split.
  - intros i e fs H R. rewrite C106_history in R by auto.
    rewrite (expected_nth _ _ _ _ _ H) in R. injection R as <-. cbn [app].
    change (Z.to_nat 1) with 1. unfold state_spec.
    assert (Hin : In e es) by (eapply nth_error_In; eauto).
    assert (LE : length (vals e) = n).
    { unfold vals. rewrite map_length. apply V. exact (proj1 (proj1 (states_of_map sp es) S e Hin)). }
    rewrite LE.
    rewrite (flat_map_single _ _
        (fun i0 => grade (nth i0 (vals e0) 0%Z)
            (column i0 (map vals (firstn i es)) ++
              nth i0 (vals e) 0%Z :: column i0 (map vals (skipn (Datatypes.S i) es))) (nth i0 (vals e) 0%Z))
        n k 0%Z K).
    + rewrite (nth_split_first _ es i e H) at 3. unfold column.
      rewrite !map_app. cbn [map app]. reflexivity.
    + intros i0 I0. rewrite <- grade_stable. f_equal.
      destruct i as [|i].
      * rewrite ES in H. injection H as ->. reflexivity.
      * rewrite ES. reflexivity.
  - intros e H. rewrite ES in H. injection H as <-. fold x0. unfold grade. rewrite Z.ltb_irrefl. reflexivity.
Qed.
Example C106_fidelity_one_ex :
  bee1_run 1 (GBox 1) (map (fun z => Eval (EArr [Num z])) [0; 5; -3; 2; 5; 9; 7; -4]%Z) =
  map (fun k => Ok [k]) [0; 1; -1; 1; 1; 2; 2; -2]%Z.
Proof. vm_compute. reflexivity. Qed.
Print Assumptions C106_fidelity_one.

(** From fidelity two on this fails twice over: the same state gets two different feature vectors, and
    the vectors are not ordered like the values - here 3 < 5 but [1; 0] precedes [1; 1]. *)
Theorem C106_repeat_refuted : exists s0 s t,
  bee1_run 2 (GBox 1) [Eval s0; Eval s; Eval t; Eval s] =
    [Ok [0; 0]%Z; Ok [1; 0]%Z; Ok [1; 1]%Z; Ok [1; 2]%Z] /\
  vals s = [5%Z] /\ vals t = [3%Z].
Proof.
  exists (EArr [Num 0]), (EArr [Num 5]), (EArr [Num 3]). split; [vm_compute; reflexivity|]. auto.
Qed.
Print Assumptions C106_repeat_refuted.

(** A dictionary observation is rejected by the initialisation, which iterates over the keys as if they
    were pairs; the encoder itself handles dictionaries. *)
Theorem C106_dict_refuted : exists sp (s : gelem num) t fs, fits sp s /\
  bee1_run 1 sp [Eval s; Eval s] = [Err ValueError; Err ValueError] /\
  snd (feats (cell_feats1 1) sp s 0 t) = Ok fs /\ length (snd fs) = 2.
Proof.
  exists (GDict [("position"%string, GBox 1); ("speed"%string, GBox 1)]),
    (EDict [("position"%string, EArr [Num 2]); ("speed"%string, EArr [Num 3])]),
    (Tables [Num 0; Num 0] [new1 (Num 0); new1 (Num 0); new1 (Num 0); new1 (Num 0)]), (2, [1; 1]%Z).
  split; [simpl; auto|]. split; [vm_compute; reflexivity|]. split; vm_compute; reflexivity.
Qed.
Print Assumptions C106_dict_refuted.

(** ** C107: binary features *)

(** Boxes are given here by the bit patterns of their cells; this excludes minus zero (and only it). *)
Definition no_minus_zero (e : gelem Z) : Prop := Forall (fun p => - 2 ^ 31 < p < 2 ^ 31)%Z (cells e).

(** The number of bits [binary_features] must use for a space. *)
Fixpoint bits (sp : gspace) : nat :=
  match sp with
  | GBox n => 32 * n
  | GDiscrete n => Z.to_nat (Z.log2 (n - 1)) + 1
  | GMultiDiscrete v => list_sum (map (fun n => Z.to_nat (Z.log2 (n - 1)) + 1) v)
  | GMultiBinary n => n
  | GTuple l => (fix go (l : list gspace) : nat := match l with [] => 0 | s :: r => bits s + go r end) l
  | _ => 0
  end.

Definition mix : gspace := GTuple [GDiscrete 5; GBox 2; GMultiDiscrete [2; 8]%Z; GTuple [GMultiBinary 3]].
Definition mix_state (d p q m1 m2 b1 b2 b3 : Z) : gelem Z :=
  ETuple [EInt d; EArr [p; q]; EInts [m1; m2]; ETuple [EInts [b1; b2; b3]]].

(** For every space without dictionaries and every element of it with no minus zero, the encoding
    succeeds and its length only depends on the space. *)
Theorem C107_width : forall sp e, no_dict sp -> fits sp e -> no_minus_zero e ->
  exists b, binary_feats sp e = Ok b /\ length b = bits sp.
Proof.
  exact binary_ok.
Qed.
Example C107_width_ex :
  no_dict mix /\ fits mix (mix_state 4 (-1) 1065353216 1 6 0 1 1) /\
  no_minus_zero (mix_state 4 (-1) 1065353216 1 6 0 1 1) /\ bits mix = 74 /\
  binary_feats (GTuple [GDiscrete 5; GMultiDiscrete [2; 8]%Z]) (ETuple [EInt 3; EInts [1; 6]%Z]) =
    Ok [false; true; true; true; true; true; false].
Proof.
  refine (conj _ (conj _ (conj _ (conj _ _)))).
  - simpl. tauto.
  - simpl. repeat split; try lia; repeat constructor; lia.
  - unfold no_minus_zero. cbn. repeat constructor; lia.
  - vm_compute. reflexivity.
  - vm_compute. reflexivity.
Qed.
Print Assumptions C107_width.

(** ... and the encoding is injective: two elements with the same features are equal. *)
Theorem C107_injective : forall sp e f b, no_dict sp -> fits sp e -> fits sp f ->
  no_minus_zero e -> no_minus_zero f ->
  binary_feats sp e = Ok b -> binary_feats sp f = Ok b -> e = f.
Proof. exact binary_inj. Qed.
Example C107_injective_ex :
  binary_feats mix (mix_state 4 (-1) 1065353216 1 6 0 1 1) <>
  binary_feats mix (mix_state 4 (-1) 1065353217 1 6 0 1 1).
Proof. vm_compute. discriminate. Qed.
Print Assumptions C107_injective.

(** Minus zero (bit pattern 0x80000000) gets one feature more than every other value. *)
Theorem C107_minus_zero_refuted : exists p, (- 2 ^ 31 <= p < 2 ^ 31)%Z /\
  exists b c, binary_feats (GBox 1) (EArr [p]) = Ok b /\ binary_feats (GBox 1) (EArr [0%Z]) = Ok c /\
  length b = 33 /\ length c = 32.
Proof. exists (- 2 ^ 31)%Z. split; [lia|]. eexists _, _.
  split; [vm_compute; reflexivity|]. split; [vm_compute; reflexivity|]. split; vm_compute; reflexivity. Qed.
Print Assumptions C107_minus_zero_refuted.

(** Observations with a dictionary have no binary features: the keys are iterated as if they were pairs. *)
Theorem C107_dict_refuted : exists sp e, fits sp e /\ binary_feats sp e = Err ValueError.
Proof.
  exists (GDict [("position"%string, GDiscrete 2)]), (EDict [("position"%string, EInt 1)]).
  split; [simpl; repeat split; auto; lia|]. reflexivity.
Qed.
Print Assumptions C107_dict_refuted.
