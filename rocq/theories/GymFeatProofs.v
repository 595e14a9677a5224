(** From one variable to whole observations, and to sequences of calls. *)
From Coq Require Import String.
From Coq Require Import List Bool Arith ZArith Lia.
Import ListNotations.
From Verif Require Import Py PyList GymFeatModel GymFeatSpec GymBee1Proofs GymBee2Proofs.
Open Scope nat_scope.

(** Induction over spaces. *)
Section SpaceInd.
  Variable P : gspace -> Prop.
  Hypothesis HB : forall n, P (GBox n).
  Hypothesis HD : forall n, P (GDiscrete n).
  Hypothesis HM : forall v, P (GMultiDiscrete v).
  Hypothesis HMB : forall n, P (GMultiBinary n).
  Hypothesis HT : forall l, Forall P l -> P (GTuple l).
  Hypothesis HK : forall l, P (GDict l).
  Hypothesis HO : P GOther.
  Fixpoint gspace_rect' (sp : gspace) : P sp :=
    match sp with
    | GBox n => HB n
    | GDiscrete n => HD n
    | GMultiDiscrete v => HM v
    | GMultiBinary n => HMB n
    | GTuple l => HT l ((fix go l : Forall P l :=
                           match l with [] => Forall_nil P | s :: r => Forall_cons s (gspace_rect' s) (go r) end) l)
    | GDict l => HK l
    | GOther => HO
    end.
End SpaceInd.

(** ** Traversals *)

Section Traverse.
  Context {S C : Type}.
  Variable ic : C -> SM S unit.
  Variable cf : nat -> C -> SM S (list Z).

  Lemma init_cells_app : forall a b s,
    init_cells ic (a ++ b) s = sbind (init_cells ic a) (fun _ => init_cells ic b) s.
  Proof.
    induction a as [|x a IH]; intros b s; [reflexivity|].
    cbn [app init_cells]. unfold sbind in *. destruct (ic x s) as [s' [u|e]]; auto.
  Qed.

  Lemma cells_feats_acc : forall cs i acc s,
    cells_feats cf cs i acc s =
    (fst (cells_feats cf cs i [] s),
     rmap (fun p => (fst p, acc ++ snd p)) (snd (cells_feats cf cs i [] s))).
  Proof.
    induction cs as [|c cs IH]; intros i acc s.
    - simpl. rewrite app_nil_r. reflexivity.
    - cbn [cells_feats]. unfold sbind. destruct (cf i c s) as [s' [l|e]]; [|reflexivity].
      rewrite IH. rewrite (IH _ ([] ++ l)). simpl.
      destruct (snd (cells_feats cf cs (i + 1) [] s')) as [p|e]; simpl; auto.
      rewrite app_assoc. reflexivity.
  Qed.

  Lemma cells_feats_app : forall a b i acc s,
    cells_feats cf (a ++ b) i acc s =
    sbind (cells_feats cf a i acc) (fun p => cells_feats cf b (fst p) (snd p)) s.
  Proof.
    induction a as [|x a IH]; intros b i acc s; [reflexivity|].
    cbn [app cells_feats]. unfold sbind in *. destruct (cf i x s) as [s' [u|e]]; auto.
  Qed.

  Lemma init_feats_flat : forall sp e s, boxes sp -> fits sp e ->
    init_feats ic sp e s = init_cells ic (cells e) s.
  Proof.
    intros sp. induction sp as [n|n|v|n|l IH|l|] using gspace_rect'; intros e s B F; try destruct B.
    - destruct e; try destruct F. reflexivity.
    - destruct e as [| | |es|]; try destruct F. cbn [init_feats cells].
      assert (G : forall l pre ts s, Forall (fun sp => forall e s, boxes sp -> fits sp e ->
                    init_feats ic sp e s = init_cells ic (cells e) s) l ->
        boxes (GTuple l) -> @fits C (GTuple l) (ETuple ts) ->
        (fix go (sps : list gspace) (i : nat) {struct sps} : SM S unit :=
           match sps with
           | [] => ret tt
           | s :: r => let! x := lift (elem_at (ETuple (pre ++ ts)) i) in
                       let! _ := init_feats ic s x in go r (i + 1)
           end) l (length pre) s = init_cells ic (flat_map cells ts) s).
      { clear. induction l as [|sp l IHl]; intros pre ts s IH B F.
        - destruct ts; [reflexivity|destruct F].
        - destruct ts as [|t ts]; [destruct F|]. destruct B as [B1 B2]. destruct F as [F1 F2].
          inversion IH as [|? ? I1 I2]; subst. cbn [flat_map]. rewrite init_cells_app.
          unfold sbind, lift. cbn [elem_at].
          assert (L : lget (pre ++ t :: ts) (length pre) = Ok t)
            by (apply lget_ok; rewrite nth_error_app2, Nat.sub_diag by lia; reflexivity).
          rewrite L. rewrite (I1 t s B1 F1).
          destruct (init_cells ic (cells t) s) as [s' [u|e]]; auto.
          specialize (IHl (pre ++ [t]) ts s' I2 B2 F2).
          rewrite <- app_assoc in IHl. cbn [app] in IHl. rewrite app_length in IHl. exact IHl. }
      apply (G l [] es s); auto.
  Qed.

  Lemma feats_flat : forall sp e i s, boxes sp -> fits sp e ->
    feats cf sp e i s = cells_feats cf (cells e) i [] s.
  Proof.
    intros sp. induction sp as [n|n|v|n|l IH|l|] using gspace_rect'; intros e i s B F; try destruct B.
    - destruct e; try destruct F. reflexivity.
    - destruct e as [| | |es|]; try destruct F. cbn [feats cells].
      assert (G : forall l pre ts i acc s, Forall (fun sp => forall e i s, boxes sp -> fits sp e ->
                    feats cf sp e i s = cells_feats cf (cells e) i [] s) l ->
        boxes (GTuple l) -> @fits C (GTuple l) (ETuple ts) ->
        (fix go (sps : list gspace) (i index : nat) (acc : list Z) {struct sps} : SM S (nat * list Z) :=
           match sps with
           | [] => ret (index, acc)
           | s :: r => let! x := lift (elem_at (ETuple (pre ++ ts)) i) in
                       let! p := feats cf s x index in go r (i + 1) (fst p) (acc ++ snd p)
           end) l (length pre) i acc s = cells_feats cf (flat_map cells ts) i acc s).
      { clear. induction l as [|sp l IHl]; intros pre ts i acc s IH B F.
        - destruct ts; [reflexivity|destruct F].
        - destruct ts as [|t ts]; [destruct F|]. destruct B as [B1 B2]. destruct F as [F1 F2].
          inversion IH as [|? ? I1 I2]; subst. cbn [flat_map]. rewrite cells_feats_app.
          unfold sbind, lift. cbn [elem_at].
          assert (L : lget (pre ++ t :: ts) (length pre) = Ok t)
            by (apply lget_ok; rewrite nth_error_app2, Nat.sub_diag by lia; reflexivity).
          rewrite L. rewrite (I1 t i s B1 F1).
          rewrite (cells_feats_acc (cells t) i acc s).
          destruct (cells_feats cf (cells t) i [] s) as [s' [p|e]]; cbn [fst snd rmap]; auto.
          specialize (IHl (pre ++ [t]) ts (fst p) (acc ++ snd p) s' I2 B2 F2).
          rewrite <- app_assoc in IHl. cbn [app] in IHl. rewrite app_length in IHl. exact IHl. }
      apply (G l [] es i [] s); auto.
  Qed.
End Traverse.

(** The number of cells of the elements of a space of Boxes. *)
Fixpoint size (sp : gspace) : nat :=
  match sp with
  | GBox n => n
  | GTuple l => (fix go (l : list gspace) : nat := match l with [] => 0 | s :: r => size s + go r end) l
  | _ => 0
  end.

Lemma cells_size : forall C sp (e : gelem C), boxes sp -> fits sp e -> length (cells e) = size sp.
Proof.
  intros C sp. induction sp as [n|n|v|n|l IH|l|] using gspace_rect'; intros e B F; try destruct B.
  - destruct e; try destruct F. reflexivity.
  - destruct e as [| | |es|]; try destruct F. cbn [cells size].
    revert es B F. induction l as [|sp l IHl]; intros es B F.
    + destruct es; [reflexivity|destruct F].
    + destruct es as [|t ts]; [destruct F|]. destruct B as [B1 B2]. destruct F as [F1 F2].
      inversion IH as [|? ? I1 I2]; subst. cbn [flat_map]. rewrite app_length, I1 by auto.
      f_equal. apply (IHl I2 ts B2 F2).
Qed.

(** ** Sequences of calls *)

Definition push (H : nat -> list Z) (i : nat) (c : Z) : nat -> list Z :=
  fun k => if k =? i then H k ++ [c] else H k.

Section Calls.
  Context {N : Type}.
  Variable ic : num -> SM (tables N) unit.
  Variable cf : nat -> num -> SM (tables N) (list Z).
  Variable one : Z -> list Z -> Z -> list Z.
  (** [inv x0s H t]: the tables represent the histories [H] of the variables, of initial values [x0s] *)
  Variable inv : list Z -> (nat -> list Z) -> tables N -> Prop.
  Hypothesis inv_ext : forall x0s H H' t, (forall i, i < length x0s -> H i = H' i) ->
    inv x0s H t -> inv x0s H' t.
  Hypothesis inv_init : forall x0s, exists t,
    init_cells ic (map Num x0s) empty_tables = (t, Ok tt) /\ inv x0s (fun _ => []) t.
  Hypothesis inv_empty : forall x0s H t, inv x0s H t -> (length (t_incs t) = 0 <-> x0s = []).
  Hypothesis inv_nil : forall H t, inv [] H t -> t = empty_tables.
  Hypothesis cell_ok : forall x0s H t i c, inv x0s H t -> i < length x0s ->
    exists t', cf i (Num c) t = (t', Ok (one (nth i x0s 0%Z) (H i) c)) /\ inv x0s (push H i c) t'.

  Lemma cells_ok : forall cs x0s H t i acc, inv x0s H t -> i + length cs <= length x0s ->
    exists t',
      cells_feats cf (map Num cs) i acc t =
        (t', Ok (i + length cs,
                 acc ++ flat_map (fun k => one (nth k x0s 0%Z) (H k) (nth (k - i) cs 0%Z)) (seq i (length cs)))) /\
      inv x0s (fun k => if (i <=? k) && (k <? i + length cs) then H k ++ [nth (k - i) cs 0%Z] else H k) t'.
  Proof.
    induction cs as [|c cs IH]; intros x0s H t i acc I L.
    - exists t. split; [simpl; rewrite app_nil_r, Nat.add_0_r; reflexivity|].
      eapply inv_ext; [|exact I]. intros k K. simpl.
      destruct (Nat.leb_spec i k), (Nat.ltb_spec k (i + 0)); simpl; auto; lia.
    - cbn [length] in L. destruct (cell_ok _ _ _ i c I ltac:(lia)) as (t1 & E1 & I1).
      destruct (IH x0s _ t1 (i + 1) (acc ++ one (nth i x0s 0%Z) (H i) c) I1 ltac:(lia)) as (t2 & E2 & I2).
      exists t2. split.
      + cbn [map cells_feats]. unfold sbind. rewrite E1, E2.
        cbn [length seq flat_map]. rewrite Nat.sub_diag. cbn [nth]. rewrite <- app_assoc.
        f_equal. f_equal. f_equal; [lia|]. f_equal. f_equal.
        replace (i + 1) with (S i) by lia.
        rewrite !flat_map_concat_map. f_equal. apply map_ext_in. intros k K. apply in_seq in K.
        unfold push. destruct (Nat.eqb_spec k i); [lia|].
        replace (k - i) with (S (k - S i)) by lia. reflexivity.
      + eapply inv_ext; [|exact I2]. intros k K. cbn [length]. unfold push.
        destruct (Nat.eqb_spec k i) as [->|D].
        * destruct (Nat.leb_spec (i + 1) i); [lia|]. simpl.
          destruct (Nat.leb_spec i i); [|lia]. destruct (Nat.ltb_spec i (i + S (length cs))); [|lia].
          simpl. rewrite Nat.sub_diag. reflexivity.
        * destruct (Nat.leb_spec (i + 1) k), (Nat.leb_spec i k); try lia; simpl; auto.
          destruct (Nat.ltb_spec k (i + 1 + length cs)), (Nat.ltb_spec k (i + S (length cs))); try lia; auto.
          replace (k - i) with (S (k - (i + 1))) by lia. reflexivity.
  Qed.

  Definition features (sp : gspace) (e : gelem num) : SM (tables N) (list Z) :=
    let! _ := (fun t => if length (t_incs t) =? 0 then init_feats ic sp e t else (t, Ok tt)) in
    let! p := feats cf sp e 0 in
    ret (snd p).

  (** the tables after the states [hs] *)
  Definition after (hs : list (list Z)) (t : tables N) : Prop :=
    match hs with
    | [] => t = empty_tables
    | x0s :: _ => inv x0s (fun i => column i hs) t
    end.

  Lemma cells_vals : forall e, ~ In NaN (cells e) -> cells e = map Num (vals e).
  Proof.
    intros e H. unfold vals. rewrite map_map. rewrite <- (map_id (cells e)) at 1.
    apply map_ext_in. intros c I. destruct c; auto. contradiction.
  Qed.

  Lemma features_ok : forall sp e hs t, boxes sp -> fits sp e -> ~ In NaN (cells e) ->
    Forall (fun s => length s = size sp) hs -> after hs t ->
    exists t', features sp e t = (t', Ok (state_spec one hs (vals e))) /\ after (hs ++ [vals e]) t'.
  Proof.
    intros sp e hs t B F NN HL A.
    assert (SZ : length (vals e) = size sp)
      by (unfold vals; rewrite map_length; apply cells_size; auto).
    pose proof (cells_vals e NN) as CV.
    assert (P : exists t0, (if length (t_incs t) =? 0 then init_feats ic sp e t else (t, Ok tt)) = (t0, Ok tt) /\
                 inv (hd (vals e) hs) (fun i => column i hs) t0 /\ length (hd (vals e) hs) = size sp).
    { destruct hs as [|x0s hs].
      - simpl in A. subst t. cbn [empty_tables t_incs length Nat.eqb].
        rewrite init_feats_flat by auto. rewrite CV.
        destruct (inv_init (vals e)) as (t & E & I). exists t. auto.
      - cbn [after] in A. inversion HL; subst. cbn [hd].
        destruct (Nat.eqb_spec (length (t_incs t)) 0) as [Z|Z].
        + apply (inv_empty _ _ _ A) in Z. subst x0s.
          assert (vals e = []) as V by (destruct (vals e); [auto|simpl in *; congruence]).
          rewrite init_feats_flat by auto. rewrite CV, V. simpl. exists t. auto.
        + exists t. auto. }
    destruct P as (t0 & E0 & I0 & L0).
    destruct (cells_ok (vals e) _ _ t0 0 [] I0) as (t1 & E1 & I1); [simpl; lia|].
    exists t1. unfold features, sbind. rewrite E0. rewrite feats_flat by auto.
    rewrite CV at 1. rewrite E1. cbn [ret snd app]. split.
    - unfold ret. f_equal. f_equal. unfold state_spec. rewrite !flat_map_concat_map. f_equal.
      apply map_ext. intros k. rewrite Nat.sub_0_r. reflexivity.
    - assert (D : after (hs ++ [vals e]) t1 <->
                  inv (hd (vals e) hs) (fun i => column i (hs ++ [vals e])) t1)
        by (destruct hs; reflexivity).
      apply D. eapply inv_ext; [|exact I1]. intros i I. simpl.
      destruct (Nat.ltb_spec i (length (vals e))); [|lia]. rewrite Nat.sub_0_r.
      unfold column. rewrite map_app. reflexivity.
  Qed.

  Theorem play_ok : forall sp ops hs t, boxes sp -> states_of sp ops ->
    Forall (fun s => length s = size sp) hs -> after hs t ->
    play empty_tables (features sp) ops t = expected one hs ops.
  Proof.
    intros sp ops. induction ops as [|[|e] ops IH]; intros hs t B S HL A; auto.
    - apply IH; auto.
      + intros e I. apply S. right. auto.
      + reflexivity.
    - destruct (S e (or_introl eq_refl)) as [F NN].
      destruct (features_ok sp e hs t B F NN HL A) as (t' & E & A').
      cbn [play expected]. rewrite E. cbn [fst snd]. f_equal. apply IH; auto.
      + intros e' I. apply S. right. auto.
      + apply Forall_app. split; auto. constructor; auto.
        unfold vals. rewrite map_length. apply cells_size; auto.
  Qed.
End Calls.

(** ** BEE1 *)

Definition inv1 (f : nat) (x0s : list Z) (H : nat -> list Z) (t : tables node1) : Prop :=
  t_vars t = map Num x0s /\ length (t_incs t) = 2 * length x0s /\
  forall i x0, nth_error x0s i = Some x0 ->
    exists p n, nth_error (t_incs t) (2 * i) = Some p /\ nth_error (t_incs t) (2 * i + 1) = Some n /\
      repr1 f 1 x0 p (above x0 (H i)) /\ repr1 f (-1) x0 n (below x0 (H i)).

Lemma inv1_ext : forall f x0s H H' t, (forall i, i < length x0s -> H i = H' i) ->
  inv1 f x0s H t -> inv1 f x0s H' t.
Proof.
  intros f x0s H H' t E (A & B & C). split; auto. split; auto. intros i x0 K.
  destruct (C i x0 K) as (p & n & P). exists p, n. rewrite <- E; auto.
  apply nth_error_Some. congruence.
Qed.

Lemma inv1_init : forall f x0s, exists t,
  init_cells init_cell1 (map Num x0s) empty_tables = (t, Ok tt) /\ inv1 f x0s (fun _ => []) t.
Proof.
  intros f x0s.
  assert (G : forall xs pre t, inv1 f pre (fun _ => []) t ->
    exists t', init_cells init_cell1 (map Num xs) t = (t', Ok tt) /\ inv1 f (pre ++ xs) (fun _ => []) t').
  { induction xs as [|x xs IH]; intros pre t I.
    - exists t. rewrite app_nil_r. auto.
    - cbn [map init_cells]. unfold sbind, init_cell1 at 1.
      destruct (IH (pre ++ [x]) (Tables (t_vars t ++ [Num x]) (t_incs t ++ [new1 (Num x)] ++ [new1 (Num x)])))
        as (t' & E & I').
      + destruct I as (A & B & C). split; [|split].
        * cbn. rewrite A, map_app. reflexivity.
        * cbn [t_incs]. rewrite !app_length. simpl. lia.
        * intros i x0 K. cbn [t_incs]. destruct (Nat.lt_ge_cases i (length pre)) as [L|L].
          -- rewrite nth_error_app1 in K by auto. destruct (C i x0 K) as (p & n & P1 & P2 & P3).
             exists p, n. rewrite !nth_error_app1 by lia. auto.
          -- rewrite nth_error_app2 in K by auto. destruct (i - length pre) as [|m] eqn:D; [|destruct m; discriminate].
             injection K as <-. exists (new1 (Num x)), (new1 (Num x)).
             split; [rewrite nth_error_app2 by lia;
                     replace (2 * i - length (t_incs t)) with 0 by lia; reflexivity|].
             split; [rewrite nth_error_app2 by lia;
                     replace (2 * i + 1 - length (t_incs t)) with 1 by lia; reflexivity|].
             split; apply repr1_new.
      + exists t'. rewrite <- app_assoc in I'. auto. }
  destruct (G x0s [] empty_tables) as (t & E & I).
  - split; [reflexivity|]. split; [reflexivity|]. intros [|i] x0 K; discriminate.
  - exists t. auto.
Qed.

Lemma inv1_empty : forall f x0s H t, inv1 f x0s H t -> (length (t_incs t) = 0 <-> x0s = []).
Proof.
  intros f x0s H t (A & B & C). rewrite B. destruct x0s; simpl; split; intros; auto; try lia; discriminate.
Qed.

Lemma above_app : forall x0 h c, above x0 (h ++ [c]) = above x0 h ++ (if (x0 <? c)%Z then [(c - x0)%Z] else []).
Proof.
  intros. unfold above. rewrite map_app, filter_app. simpl. f_equal.
  destruct (Z.ltb_spec x0 c), (Z.ltb_spec 0 (c - x0)); auto; lia.
Qed.
Lemma below_app : forall x0 h c, below x0 (h ++ [c]) = below x0 h ++ (if (c <? x0)%Z then [(x0 - c)%Z] else []).
Proof.
  intros. unfold below. rewrite map_app, filter_app. simpl. f_equal.
  destruct (Z.ltb_spec c x0), (Z.ltb_spec 0 (x0 - c)); auto; lia.
Qed.
Lemma above_pos : forall x0 h, Forall (fun d => 0 < d)%Z (above x0 h).
Proof. intros. apply Forall_forall. intros d I. apply filter_In in I. apply Z.ltb_lt, (proj2 I). Qed.
Lemma below_pos : forall x0 h, Forall (fun d => 0 < d)%Z (below x0 h).
Proof. intros. apply Forall_forall. intros d I. apply filter_In in I. apply Z.ltb_lt, (proj2 I). Qed.

Lemma inv1_cell : forall fid x0s H t i c, inv1 (Z.to_nat fid) x0s H t -> i < length x0s ->
  exists t', cell_feats1 fid i (Num c) t = (t', Ok (bee1_spec (Z.to_nat fid) (nth i x0s 0%Z) (H i) c)) /\
             inv1 (Z.to_nat fid) x0s (push H i c) t'.
Proof.
  intros fid x0s H t i c (A & B & C) L. set (f := Z.to_nat fid) in *.
  destruct (nth_error x0s i) as [x0|] eqn:X; [|apply nth_error_None in X; lia].
  rewrite (nth_error_nth x0s i 0%Z X).
  destruct (C i x0 X) as (p & n & P1 & P2 & P3 & P4).
  unfold cell_feats1. fold f. rewrite A.
  assert (G : lget (map Num x0s) i = Ok (Num x0)) by (apply lget_ok; rewrite nth_error_map, X; reflexivity).
  rewrite G. cbn [bind ngt nlt]. unfold bee1_spec.
  (* what is common to the three cases: writing one slot *)
  assert (W : forall slot m, slot = 2 * i \/ slot = 2 * i + 1 ->
     (slot = 2 * i -> repr1 f 1 x0 m (above x0 (H i ++ [c])) /\ repr1 f (-1) x0 n (below x0 (H i ++ [c]))) ->
     (slot = 2 * i + 1 -> repr1 f (-1) x0 m (below x0 (H i ++ [c])) /\ repr1 f 1 x0 p (above x0 (H i ++ [c]))) ->
     inv1 f x0s (push H i c) (Tables (map Num x0s) (lset (t_incs t) slot m))).
  { intros slot m SL R1 R2. split; [auto|]. split; [cbn; rewrite length_lset; auto|].
    intros k y K. cbn [t_incs]. unfold push. destruct (Nat.eqb_spec k i) as [->|D].
    - assert (y = x0) as -> by congruence. rewrite !nth_error_lset, P1, P2.
      destruct SL as [-> | ->].
      + destruct (R1 eq_refl). exists m, n. rewrite Nat.eqb_refl.
        destruct (Nat.eqb_spec (2 * i) (2 * i + 1)); [lia|]. auto.
      + destruct (R2 eq_refl). exists p, m. rewrite Nat.eqb_refl.
        destruct (Nat.eqb_spec (2 * i + 1) (2 * i)); [lia|]. auto.
    - destruct (C k y K) as (p' & n' & Q). exists p', n'. rewrite !nth_error_lset.
      destruct (Nat.eqb_spec slot (2 * k)); [lia|]. destruct (Nat.eqb_spec slot (2 * k + 1)); [lia|]. auto. }
  assert (LN : 2 * i + 1 < length (t_incs t)) by lia.
  destruct (Z.ltb_spec x0 c) as [U|U].
  - assert (G1 : lget (t_incs t) (2 * i) = Ok p) by (apply lget_ok; auto). rewrite G1. cbn [bind].
    destruct (walk1_ok f 1%Z x0 p _ c (or_introl eq_refl) P3 (above_pos _ _) ltac:(lia)) as (m & E & R).
    rewrite E. cbn [bind fst snd]. unfold lput.
    destruct (Nat.ltb_spec (2 * i) (length (t_incs t))); [|lia]. cbn [bind].
    replace (1 * (c - x0))%Z with (c - x0)%Z in * by lia.
    eexists. split.
    + f_equal. f_equal. rewrite <- (map_id (code1 f (above x0 (H i)) (c - x0))) at 2.
      apply map_ext. intros z. lia.
    + apply W; auto; [|intros; lia]. intros _. rewrite above_app, below_app.
      destruct (Z.ltb_spec x0 c); [|lia]. destruct (Z.ltb_spec c x0); [lia|]. rewrite app_nil_r. auto.
  - assert (G1 : lget (t_incs t) (2 * i + 1) = Ok n) by (apply lget_ok; auto). rewrite G1. cbn [bind].
    destruct (Z.ltb_spec c x0) as [V|V].
    + destruct (walk1_ok f (-1)%Z x0 n _ c (or_intror eq_refl) P4 (below_pos _ _) ltac:(lia)) as (m & E & R).
      rewrite E. cbn [bind fst snd]. unfold lput.
      destruct (Nat.ltb_spec (2 * i + 1) (length (t_incs t))); [|lia]. cbn [bind].
      replace (-1 * (c - x0))%Z with (x0 - c)%Z in * by lia.
      eexists. split.
      * do 2 f_equal; try (apply map_ext; intros z; lia).
      * apply W; auto; [intros; lia|]. intros _. rewrite above_app, below_app.
        destruct (Z.ltb_spec x0 c); [lia|]. destruct (Z.ltb_spec c x0); [|lia]. rewrite app_nil_r. auto.
    + assert (c = x0) as -> by lia. rewrite (walk1_zero f (-1)%Z x0 n _ P4).
      cbn [bind fst snd]. unfold lput.
      destruct (Nat.ltb_spec (2 * i + 1) (length (t_incs t))); [|lia]. cbn [bind].
      eexists. split; [reflexivity|]. apply W; auto; [intros; lia|]. intros _. rewrite above_app, below_app.
      rewrite Z.ltb_irrefl, !app_nil_r. auto.
Qed.

Lemma inv1_nil : forall f H t, inv1 f [] H t -> t = empty_tables.
Proof.
  intros f H [v n] (A & B & _). cbn in A, B. subst v. destruct n; [reflexivity|discriminate].
Qed.

(** ** BEE2 *)

Definition inv2 (level : nat) (x0s : list Z) (H : nat -> list Z) (t : tables node2) : Prop :=
  length (t_incs t) = length x0s /\ (x0s = [] -> t_vars t = []) /\
  forall i x0, nth_error x0s i = Some x0 ->
    exists n, nth_error (t_incs t) i = Some n /\ repr2 level n (x0 :: H i).

Lemma inv2_ext : forall f x0s H H' t, (forall i, i < length x0s -> H i = H' i) ->
  inv2 f x0s H t -> inv2 f x0s H' t.
Proof.
  intros f x0s H H' t E (A & B & C). split; auto. split; auto. intros i x0 K.
  destruct (C i x0 K) as (n & P). exists n. rewrite <- E; auto.
  apply nth_error_Some. congruence.
Qed.

Lemma repr2_first : forall level x, repr2 level (Node2 [(Num x, Num x)] (Num x) (Num x) [new2]) [x].
Proof.
  intros level x. destruct level as [|l]; cbn; repeat split; auto.
  intros [|[|k]] c E; [injection E as <-; apply repr2_new|discriminate|discriminate].
Qed.

Lemma inv2_init : forall f x0s, exists t,
  init_cells init_cell2 (map Num x0s) empty_tables = (t, Ok tt) /\ inv2 f x0s (fun _ => []) t.
Proof.
  intros f x0s.
  assert (G : forall xs pre t, inv2 f pre (fun _ => []) t ->
    exists t', init_cells init_cell2 (map Num xs) t = (t', Ok tt) /\ inv2 f (pre ++ xs) (fun _ => []) t').
  { induction xs as [|x xs IH]; intros pre t I.
    - exists t. rewrite app_nil_r. auto.
    - cbn [map init_cells]. unfold sbind, init_cell2 at 1. cbn [eval2 new2 length Nat.eqb].
      match goal with |- context [init_cells init_cell2 (map Num xs) ?t0] =>
        destruct (IH (pre ++ [x]) t0) as (t' & E & I') end.
      + destruct I as (A & B & C). split; [|split].
        * cbn. rewrite !app_length, A. reflexivity.
        * intros E. destruct pre; discriminate.
        * intros i x0 K. cbn [t_incs]. destruct (Nat.lt_ge_cases i (length pre)) as [L|L].
          -- rewrite nth_error_app1 in K by auto. destruct (C i x0 K) as (n & P1 & P2).
             exists n. rewrite nth_error_app1 by lia. auto.
          -- rewrite nth_error_app2 in K by auto. destruct (i - length pre) as [|m] eqn:D; [|destruct m; discriminate].
             injection K as <-. eexists.
             rewrite nth_error_app2 by lia.
             replace (i - length (t_incs t)) with 0 by lia.
             split; [reflexivity|]. apply repr2_first.
      + exists t'. rewrite <- app_assoc in I'. auto. }
  destruct (G x0s [] empty_tables) as (t & E & I).
  - split; [reflexivity|]. split; [reflexivity|]. intros [|i] x0 K; discriminate.
  - exists t. auto.
Qed.

Lemma inv2_empty : forall f x0s H t, inv2 f x0s H t -> (length (t_incs t) = 0 <-> x0s = []).
Proof.
  intros f x0s H t (A & B & C). rewrite A. destruct x0s; simpl; split; intros; auto; try lia; discriminate.
Qed.

Lemma inv2_nil : forall f H t, inv2 f [] H t -> t = empty_tables.
Proof.
  intros f H [v n] (A & B & _). cbn in A, B. rewrite B by auto. destruct n; [reflexivity|discriminate].
Qed.

Lemma inv2_cell : forall fid x0s H t i c, inv2 (Z.to_nat (fid - 1)) x0s H t -> i < length x0s ->
  exists t', cell_feats2 fid i (Num c) t =
               (t', Ok (code2 (Z.to_nat (fid - 1)) (nth i x0s 0%Z :: H i) c)) /\
             inv2 (Z.to_nat (fid - 1)) x0s (push H i c) t'.
Proof.
  intros fid x0s H t i c (A & B & C) L. set (f := Z.to_nat (fid - 1)) in *.
  destruct (nth_error x0s i) as [x0|] eqn:X; [|apply nth_error_None in X; lia].
  rewrite (nth_error_nth x0s i 0%Z X).
  destruct (C i x0 X) as (n & P1 & P2).
  unfold cell_feats2. fold f.
  assert (G : lget (t_incs t) i = Ok n) by (apply lget_ok; auto).
  rewrite G. cbn [bind].
  destruct (eval2_ok f n _ c P2) as (m & E & R). rewrite E. cbn [bind fst snd]. unfold lput.
  destruct (Nat.ltb_spec i (length (t_incs t))); [|lia]. cbn [bind].
  eexists. split; [reflexivity|]. split; [cbn; rewrite length_lset; auto|]. split; [auto|].
  intros k y K. cbn [t_incs]. unfold push. rewrite nth_error_lset.
  destruct (Nat.eqb_spec i k) as [<-|D].
  - assert (y = x0) as -> by congruence. rewrite P1, Nat.eqb_refl. exists m. auto.
  - destruct (Nat.eqb_spec k i); [congruence|]. apply C. exact K.
Qed.
