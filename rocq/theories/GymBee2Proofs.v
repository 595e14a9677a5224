(** BEE2: the interval trees represent the values seen before. *)
From Coq Require Import String.
From Coq Require Import List Bool Arith ZArith Lia.
Import ListNotations.
From Verif Require Import Py PyList GymFeatModel GymFeatSpec GymBee1Proofs.
Open Scope Z_scope.

Definition lows (l : list Z) (lo : Z) : Z := fold_left Z.min l lo.
Definition highs (l : list Z) (hi : Z) : Z := fold_left Z.max l hi.

Lemma lows_le : forall l lo, lows l lo <= lo.
Proof.
  unfold lows. induction l as [|x l IH]; intros lo; simpl; [lia|]. specialize (IH (Z.min lo x)). lia.
Qed.
Lemma highs_ge : forall l hi, hi <= highs l hi.
Proof.
  unfold highs. induction l as [|x l IH]; intros hi; simpl; [lia|]. specialize (IH (Z.max hi x)). lia.
Qed.

Lemma lows_forallb : forall l lo x,
  forallb (fun w => x <? w) (lo :: l) = (x <? lows l lo).
Proof.
  unfold lows. induction l as [|y l IH]; intros lo x.
  - simpl. rewrite andb_true_r. reflexivity.
  - cbn [fold_left]. rewrite <- IH. cbn [forallb].
    destruct (Z.ltb_spec x lo), (Z.ltb_spec x y), (Z.ltb_spec x (Z.min lo y)); simpl; auto; lia.
Qed.
Lemma highs_forallb : forall l hi x,
  forallb (fun w => w <? x) (hi :: l) = (highs l hi <? x).
Proof.
  unfold highs. induction l as [|y l IH]; intros hi x.
  - simpl. rewrite andb_true_r. reflexivity.
  - cbn [fold_left]. rewrite <- IH. cbn [forallb].
    destruct (Z.ltb_spec hi x), (Z.ltb_spec y x), (Z.ltb_spec (Z.max hi y) x); simpl; auto; lia.
Qed.

(** ** Bands *)

Lemma bands_from_app : forall l lo hi x, lo <= hi ->
  bands_from lo hi (l ++ [x]) =
  bands_from lo hi l ++ (if x <? lows l lo then [(x, lows l lo)]
                         else if highs l hi <? x then [(highs l hi, x)] else []).
Proof.
  unfold lows, highs. induction l as [|y l IH]; intros lo hi x L; simpl.
  - destruct (x <? lo), (hi <? x); reflexivity.
  - destruct (Z.ltb_spec y lo) as [A|A].
    + rewrite IH by lia. simpl. replace (Z.min lo y) with y by lia. replace (Z.max hi y) with hi by lia.
      reflexivity.
    + destruct (Z.ltb_spec hi y) as [B|B]; rewrite IH by lia; simpl.
      * replace (Z.min lo y) with lo by lia. replace (Z.max hi y) with y by lia. reflexivity.
      * replace (Z.min lo y) with lo by lia. replace (Z.max hi y) with hi by lia. reflexivity.
Qed.

Lemma within_from_app : forall l lo hi x, lo <= hi ->
  within_from lo hi (l ++ [x]) =
  within_from lo hi l ++ (if x <? lows l lo then []
                          else if highs l hi <? x then [] else [x]).
Proof.
  unfold lows, highs. induction l as [|y l IH]; intros lo hi x L; simpl.
  - destruct (x <? lo), (hi <? x); reflexivity.
  - destruct (Z.ltb_spec y lo) as [A|A].
    + rewrite IH by lia. replace (Z.min lo y) with y by lia. replace (Z.max hi y) with hi by lia.
      reflexivity.
    + destruct (Z.ltb_spec hi y) as [B|B]; rewrite IH by lia; simpl.
      * replace (Z.min lo y) with lo by lia. replace (Z.max hi y) with y by lia. reflexivity.
      * replace (Z.min lo y) with lo by lia. replace (Z.max hi y) with hi by lia. reflexivity.
Qed.

Lemma within_from_range : forall l lo hi w, lo <= hi -> In w (within_from lo hi l) ->
  lows l lo <= w <= highs l hi.
Proof.
  induction l as [|y l IH]; intros lo hi w L I; simpl in *; [destruct I|].
  unfold lows, highs in *. cbn [fold_left].
  destruct (Z.ltb_spec y lo) as [A|A].
  - replace (Z.min lo y) with y by lia. replace (Z.max hi y) with hi by lia. apply IH; [lia|exact I].
  - replace (Z.min lo y) with lo by lia. destruct (Z.ltb_spec hi y) as [B|B].
    + replace (Z.max hi y) with y by lia. apply IH; [lia|exact I].
    + replace (Z.max hi y) with hi by lia. destruct I as [<-|I]; [|apply IH; [lia|exact I]].
      pose proof (lows_le l lo). pose proof (highs_ge l hi). unfold lows, highs in *. lia.
Qed.

Lemma band_of_app : forall bs cs x,
  band_of (bs ++ cs) x =
  if (band_of bs x <? length bs)%nat then band_of bs x else (length bs + band_of cs x)%nat.
Proof.
  induction bs as [|[a b] bs IH]; intros cs x; [reflexivity|]. cbn [band_of app length].
  destruct ((a <=? x) && (x <=? b)); [reflexivity|]. rewrite IH.
  change (S (band_of bs x) <? S (length bs))%nat with (band_of bs x <? length bs)%nat.
  destruct (band_of bs x <? length bs)%nat; reflexivity.
Qed.

Lemma band_of_le : forall bs x, (band_of bs x <= length bs)%nat.
Proof.
  induction bs as [|[a b] bs IH]; intros x; simpl; auto.
  destruct ((a <=? x) && (x <=? b)); [lia|]. specialize (IH x). lia.
Qed.

(** The bands cover the whole range seen. *)
Lemma bands_cover : forall l lo hi x, lo <= hi -> lows l lo <= x <= highs l hi ->
  lo <= x <= hi \/ (band_of (bands_from lo hi l) x < length (bands_from lo hi l))%nat.
Proof.
  induction l as [|y l IH]; intros lo hi x L H; [left; exact H|].
  unfold lows, highs in H. cbn [fold_left] in H. cbn [bands_from].
  destruct (Z.ltb_spec y lo) as [A|A].
  - replace (Z.min lo y) with y in H by lia. replace (Z.max hi y) with hi in H by lia.
    cbn [band_of length]. destruct (IH y hi x ltac:(lia) H) as [K|K].
    + destruct (Z.le_gt_cases lo x); [left; lia|]. right.
      destruct (Z.leb_spec y x); [|lia]. destruct (Z.leb_spec x lo); [|lia]. simpl. lia.
    + right. destruct ((y <=? x) && (x <=? lo)); lia.
  - replace (Z.min lo y) with lo in H by lia. destruct (Z.ltb_spec hi y) as [B|B].
    + replace (Z.max hi y) with y in H by lia.
      cbn [band_of length]. destruct (IH lo y x ltac:(lia) H) as [K|K].
      * destruct (Z.le_gt_cases x hi); [left; lia|]. right.
        destruct (Z.leb_spec hi x); [|lia]. destruct (Z.leb_spec x y); [|lia]. simpl. lia.
      * right. destruct ((hi <=? x) && (x <=? y)); lia.
    + replace (Z.max hi y) with hi in H by lia. apply IH; auto.
Qed.

Lemma bands_cover' : forall x0 l x, lows l x0 <= x <= highs l x0 ->
  (band_of (bands (x0 :: l)) x < length (bands (x0 :: l)))%nat.
Proof.
  intros x0 l x H. cbn [bands band_of length].
  destruct ((x0 <=? x) && (x <=? x0)) eqn:E; [lia|].
  destruct (bands_cover l x0 x0 x ltac:(lia) H) as [K|K]; [|lia].
  apply andb_false_iff in E. destruct E as [E|E]; apply Z.leb_gt in E; lia.
Qed.

Definition npair (p : Z * Z) : num * num := (Num (fst p), Num (snd p)).

Lemma find_band : forall bs x k,
  find_interval (map npair bs) (Num x) k =
  if (band_of bs x <? length bs)%nat then Some (k + band_of bs x)%nat else None.
Proof.
  induction bs as [|[a b] bs IH]; intros x k; [reflexivity|].
  cbn [map npair fst snd find_interval nle band_of length].
  destruct ((a <=? x) && (x <=? b)).
  - rewrite Nat.add_0_r. reflexivity.
  - rewrite IH. change (S (band_of bs x) <? S (length bs))%nat with (band_of bs x <? length bs)%nat.
    destruct (band_of bs x <? length bs)%nat; auto. f_equal. lia.
Qed.

(** ** The trees *)

Definition inner (h : list Z) (k : nat) : list Z :=
  filter (fun w => (band_of (bands h) w =? k)%nat) (within h).

Fixpoint repr2 (level : nat) (n : node2) (h : list Z) : Prop :=
  match h with
  | [] => n = new2
  | x0 :: l =>
      match n with
      | Node2 iv llb gub ch =>
          iv = map npair (bands (x0 :: l)) /\ llb = Num (lows l x0) /\ gub = Num (highs l x0) /\
          length ch = length (bands (x0 :: l)) /\
          match level with
          | O => True
          | S level' => forall k c, nth_error ch k = Some c -> repr2 level' c (inner (x0 :: l) k)
          end
      end
  end.

Lemma repr2_new : forall level, repr2 level new2 [].
Proof. intros [|l]; reflexivity. Qed.

Lemma inner_record : forall x0 l x k, (x < lows l x0 \/ highs l x0 < x) ->
  inner (x0 :: l ++ [x]) k =
  if (k <? length (bands (x0 :: l)))%nat then inner (x0 :: l) k else [].
Proof.
  intros x0 l x k H. unfold inner. cbn [within]. rewrite within_from_app by lia.
  assert (E : within_from x0 x0 (l ++ [x]) = within_from x0 x0 l).
  { rewrite within_from_app by lia. destruct (Z.ltb_spec x (lows l x0)); [apply app_nil_r|].
    destruct (Z.ltb_spec (highs l x0) x); [apply app_nil_r|lia]. }
  rewrite within_from_app in E by lia. rewrite E.
  assert (B : forall w, In w (within_from x0 x0 l) ->
     band_of (bands (x0 :: l ++ [x])) w = band_of (bands (x0 :: l)) w /\
     (band_of (bands (x0 :: l)) w < length (bands (x0 :: l)))%nat).
  { intros w I. assert (R := within_from_range l x0 x0 w ltac:(lia) I).
    pose proof (bands_cover' x0 l w R) as C. split; auto.
    cbn [bands]. rewrite bands_from_app by lia. rewrite app_comm_cons. rewrite band_of_app.
    change ((x0, x0) :: bands_from x0 x0 l) with (bands (x0 :: l)).
    destruct (Nat.ltb_spec (band_of (bands (x0 :: l)) w) (length (bands (x0 :: l)))); auto. lia. }
  destruct (Nat.ltb_spec k (length (bands (x0 :: l)))) as [K|K].
  - apply filter_ext_in. intros w I. destruct (B w I) as [-> _]. reflexivity.
  - induction (within_from x0 x0 l) as [|w ws IH]; [reflexivity|]. cbn [filter].
    destruct (B w (or_introl eq_refl)) as [-> W].
    destruct (Nat.eqb_spec (band_of (bands (x0 :: l)) w) k); [lia|].
    clear E. apply IH; [|intros; apply B; right; auto].
    destruct (Z.ltb_spec x (lows l x0)); [apply app_nil_r|].
    destruct (Z.ltb_spec (highs l x0) x); [apply app_nil_r|lia].
Qed.

Lemma inner_other : forall x0 l x k, lows l x0 <= x <= highs l x0 ->
  inner (x0 :: l ++ [x]) k =
  inner (x0 :: l) k ++ (if (band_of (bands (x0 :: l)) x =? k)%nat then [x] else []).
Proof.
  intros x0 l x k H. unfold inner. cbn [within bands].
  rewrite within_from_app, bands_from_app by lia.
  destruct (Z.ltb_spec x (lows l x0)); [lia|].
  destruct (Z.ltb_spec (highs l x0) x); [lia|]. rewrite app_nil_r.
  rewrite filter_app. cbn [filter]. reflexivity.
Qed.

Lemma lows_app : forall l x0 x, lows (l ++ [x]) x0 = Z.min (lows l x0) x.
Proof. intros. unfold lows. rewrite fold_left_app. reflexivity. Qed.
Lemma highs_app : forall l x0 x, highs (l ++ [x]) x0 = Z.max (highs l x0) x.
Proof. intros. unfold highs. rewrite fold_left_app. reflexivity. Qed.

Lemma eval2_ok : forall level n h x, repr2 level n h ->
  exists n', eval2 level n (Num x) = Ok (n', code2 level h x) /\ repr2 level n' (h ++ [x]).
Proof.
  induction level as [|level IH]; intros n h x H.
  all: destruct h as [|x0 l].
  1,3: simpl in H; subst n; eexists; split; [reflexivity|]; cbn [app repr2];
    repeat (split; [reflexivity|]).
  1: exact Logic.I.
  1: intros [|[|k]] c E; [injection E as <-; apply repr2_new|discriminate|discriminate].
  all: destruct n as [iv llb gub ch]; destruct H as (-> & -> & -> & L & K).
  all: cbn [eval2 code2]; rewrite lows_forallb, highs_forallb.
  all: replace (length (map npair (bands (x0 :: l))) =? 0)%nat with false by reflexivity.
  all: cbn [nlt ngt].
  all: pose proof (lows_le l x0) as LO; pose proof (highs_ge l x0) as HI.
  all: assert (BA := bands_from_app l x0 x0 x ltac:(lia)).
  all: destruct (Z.ltb_spec x (lows l x0)) as [A|A]; cbn [orb].
  1,3: eexists; split;
      [rewrite app_length, map_length; cbn [length Nat.add];
       replace (Z.of_nat (length (bands (x0 :: l)) + 1) - 1) with (Z.of_nat (length (bands (x0 :: l)))) by lia;
       reflexivity|].
  3,4: destruct (Z.ltb_spec (highs l x0) x) as [B|B].
  3,5: eexists; split;
      [rewrite app_length, map_length; cbn [length Nat.add];
       replace (Z.of_nat (length (bands (x0 :: l)) + 1) - 1) with (Z.of_nat (length (bands (x0 :: l)))) by lia;
       reflexivity|].
  1-4: cbn [app repr2];
    (split; [cbn [bands]; rewrite BA; cbn [map]; rewrite map_app; reflexivity|]);
    (split; [f_equal; rewrite lows_app; lia|]);
    (split; [f_equal; rewrite highs_app; lia|]);
    (split; [rewrite app_length; cbn [bands]; rewrite BA; cbn [length] in *; rewrite L; cbn [bands];
             rewrite app_length; simpl; lia|]); auto.
  1,2: intros k c E; rewrite inner_record by lia;
    destruct (Nat.ltb_spec k (length (bands (x0 :: l)))) as [Q|Q];
    [rewrite nth_error_app1 in E by lia; apply K; exact E|];
    rewrite nth_error_app2 in E by lia;
    destruct (k - length ch)%nat as [|m]; [injection E as <-; apply repr2_new|destruct m; discriminate].
  all: pose proof (bands_cover' x0 l x ltac:(lia)) as C.
  all: rewrite find_band; destruct (Nat.ltb_spec (band_of (bands (x0 :: l)) x) (length (bands (x0 :: l))));
       [|lia]; cbn [Nat.add].
  - eexists; split; [reflexivity|]. cbn [app repr2].
    split; [cbn [bands]; rewrite BA; rewrite app_nil_r; reflexivity|].
    split; [f_equal; rewrite lows_app; lia|]. split; [f_equal; rewrite highs_app; lia|].
    split; auto. rewrite L. cbn [bands]. rewrite BA, app_nil_r. reflexivity.
  - destruct (nth_error ch (band_of (bands (x0 :: l)) x)) as [c|] eqn:E;
      [|apply nth_error_None in E; lia].
    assert (G : lget ch (band_of (bands (x0 :: l)) x) = Ok c) by (apply lget_ok; auto).
    rewrite G. cbn [bind]. destruct (IH c _ x (K _ _ E)) as (c' & W & R). rewrite W. cbn [bind fst snd].
    unfold lput. destruct (Nat.ltb_spec (band_of (bands (x0 :: l)) x) (length ch)); [|lia]. cbn [bind].
    eexists; split; [reflexivity|]. cbn [app repr2].
    split; [cbn [bands]; rewrite BA; rewrite app_nil_r; reflexivity|].
    split; [f_equal; rewrite lows_app; lia|]. split; [f_equal; rewrite highs_app; lia|].
    split; [rewrite length_lset, L; cbn [bands]; rewrite BA, app_nil_r; reflexivity|].
    intros k d N. rewrite nth_error_lset in N. rewrite inner_other by lia.
    destruct (Nat.eqb_spec (band_of (bands (x0 :: l)) x) k) as [<-|D].
    + rewrite E in N. injection N as <-. exact R.
    + rewrite app_nil_r. apply K. exact N.
Qed.
