(** BEE1: the increment trees represent the values seen before. *)
From Coq Require Import String.
From Coq Require Import List Bool Arith ZArith Lia.
Import ListNotations.
From Verif Require Import Py PyList GymFeatModel GymFeatSpec.
Open Scope Z_scope.

(** ** Records and bands *)

(** [records top h] is strictly increasing, above [top]. *)
Fixpoint incr (top : Z) (l : list Z) : Prop :=
  match l with [] => True | x :: r => top < x /\ incr x r end.

Lemma records_incr : forall h top, incr top (records top h).
Proof.
  induction h as [|x r IH]; intros top; simpl; auto.
  destruct (Z.ltb_spec top x); simpl; auto.
Qed.

Lemma incr_above : forall l top r, incr top l -> In r l -> top < r.
Proof.
  induction l as [|x l IH]; intros top r H I; [destruct I|]. destruct H as [H1 H2].
  destruct I as [<-|I]; auto. specialize (IH _ _ H2 I). lia.
Qed.

(** The last of [top :: l]. *)
Definition peak (top : Z) (l : list Z) : Z := last l top.

Lemma peak_cons : forall top x l, peak top (x :: l) = peak x l.
Proof.
  intros. unfold peak. revert top x. induction l as [|y l IH]; intros; [reflexivity|].
  change (last (x :: y :: l) top) with (last (y :: l) top).
  rewrite (IH top y). change (last (y :: l) x) with (last (y :: l) x). rewrite (IH x y). reflexivity.
Qed.

Lemma incr_peak : forall l top, incr top l -> top <= peak top l.
Proof.
  induction l as [|x l IH]; intros top H; [unfold peak; simpl; lia|].
  destruct H. rewrite peak_cons. specialize (IH _ H0). lia.
Qed.

Lemma incr_le_peak : forall l top r, incr top l -> In r l -> r <= peak top l.
Proof.
  induction l as [|x l IH]; intros top r H I; [destruct I|]. destruct H as [H1 H2].
  rewrite peak_cons. destruct I as [<-|I]; [apply incr_peak; auto|]. apply IH; auto.
Qed.

Lemma peak_In : forall l top, l <> [] -> In (peak top l) l.
Proof.
  intros l top H. unfold peak. destruct (exists_last H) as [r [a ->]].
  rewrite last_last. apply in_or_app. right. left. reflexivity.
Qed.

Lemma forallb_peak : forall l top v, incr top l -> top < v ->
  forallb (fun r => r <? v) l = (peak top l <? v).
Proof.
  intros l top v H L. destruct (forallb (fun r => r <? v) l) eqn:E; symmetry.
  - apply Z.ltb_lt. destruct l as [|a l]; [unfold peak; simpl; lia|].
    rewrite forallb_forall in E. specialize (E (peak top (a :: l))).
    apply Z.ltb_lt, E, peak_In. discriminate.
  - apply Z.ltb_ge. destruct (Z.ltb_spec (peak top l) v) as [K|K]; auto.
    exfalso. assert (forallb (fun r => r <? v) l = true).
    { apply forallb_forall. intros r I. apply Z.ltb_lt.
      pose proof (incr_le_peak _ _ _ H I). lia. }
    congruence.
Qed.

Lemma records_app : forall h top v,
  records top (h ++ [v]) =
  records top h ++ (if peak top (records top h) <? v then [v] else []).
Proof.
  induction h as [|x r IH]; intros top v; simpl.
  - unfold peak. simpl. destruct (top <? v); reflexivity.
  - destruct (top <? x); rewrite IH; [|reflexivity]. simpl. rewrite <- (peak_cons top x). reflexivity.
Qed.

Lemma others_app : forall h top v,
  others top (h ++ [v]) =
  others top h ++ (if peak top (records top h) <? v then [] else [v]).
Proof.
  induction h as [|x r IH]; intros top v; simpl.
  - unfold peak. simpl. destruct (top <? v); reflexivity.
  - destruct (top <? x); rewrite IH; [|reflexivity]. rewrite <- (peak_cons top x). reflexivity.
Qed.

Lemma others_le : forall h top w, In w (others top h) -> w <= peak top (records top h).
Proof.
  induction h as [|x r IH]; intros top w I; simpl in *; [destruct I|].
  destruct (Z.ltb_spec top x) as [L|L].
  - rewrite peak_cons. auto.
  - destruct I as [<-|I]; auto.
    pose proof (incr_peak _ _ (records_incr r top)). lia.
Qed.

Lemma others_incl : forall h top w, In w (others top h) -> In w h.
Proof.
  induction h as [|x r IH]; intros top w I; simpl in *; [destruct I|].
  destruct (top <? x).
  - right. exact (IH _ _ I).
  - destruct I as [I|I]; [left; exact I|right; exact (IH _ _ I)].
Qed.

(** ** Rank and base in a sorted list of records *)

Definition bnd (rs : list Z) (j : nat) : Z := nth j (0 :: rs) 0.

Lemma filter_incr_none : forall l top v, incr top l -> v <= top -> filter (fun r => r <? v) l = [].
Proof.
  induction l as [|x l IH]; intros top v H L; simpl; auto. destruct H as [H1 H2].
  destruct (Z.ltb_spec x v); [lia|]. apply (IH x); [assumption|lia].
Qed.

Lemma bisect_rank : forall l top v, incr top l ->
  bisect_left (map Num l) (Num v) = rank l v.
Proof.
  unfold rank. induction l as [|x l IH]; intros top v H; simpl; auto. destruct H as [H1 H2].
  destruct (Z.ltb_spec x v); simpl.
  - f_equal. eauto.
  - rewrite (filter_incr_none _ x); auto.
Qed.

Lemma rank_le : forall l v, (rank l v <= length l)%nat.
Proof.
  unfold rank. induction l as [|x l IH]; intros v; simpl; auto.
  destruct (x <? v); simpl; specialize (IH v); lia.
Qed.

Lemma rank_full : forall l v, (rank l v = length l)%nat <-> forallb (fun r => r <? v) l = true.
Proof.
  unfold rank. induction l as [|x l IH]; intros v; simpl; [tauto|].
  specialize (IH v). pose proof (rank_le l v) as R. unfold rank in R.
  destruct (x <? v); simpl.
  - rewrite <- IH. lia.
  - split; intros K; [lia|discriminate].
Qed.

(** [base rs v] is the record just below [v]. *)
Lemma fold_max_top : forall l top, 0 <= top -> incr top l ->
  fold_right Z.max 0 l = match l with [] => 0 | _ => peak top l end.
Proof.
  induction l as [|x l IH]; intros top L H; [reflexivity|]. destruct H as [H1 H2]. cbn [fold_right].
  rewrite (IH x) by (auto; lia). rewrite peak_cons. destruct l as [|y l].
  - unfold peak. simpl. lia.
  - pose proof (incr_peak _ _ H2). lia.
Qed.

Lemma filter_incr : forall l top v, incr top l -> incr top (filter (fun r => r <? v) l).
Proof.
  induction l as [|x l IH]; intros top v H; simpl; auto. destruct H as [H1 H2].
  destruct (Z.ltb_spec x v); simpl; auto.
  rewrite (filter_incr_none _ x); simpl; auto.
Qed.

Lemma base_bnd : forall rs v, incr 0 rs -> base rs v = bnd rs (rank rs v).
Proof.
  intros rs v H. unfold base, rank, bnd.
  rewrite (fold_max_top _ 0) by (try apply filter_incr; auto; lia).
  assert (G : forall l top d, incr top l ->
     peak top (filter (fun r => r <? v) l) = nth (length (filter (fun r => r <? v) l)) (top :: l) d).
  { induction l as [|x l IH]; intros top d K; [reflexivity|]. destruct K as [K1 K2].
    cbn [filter]. destruct (Z.ltb_spec x v) as [L|L].
    - rewrite peak_cons. rewrite (IH x d K2). reflexivity.
    - rewrite (filter_incr_none _ x) by (auto; lia). reflexivity. }
  rewrite <- (G rs 0 0 H).
  destruct (filter (fun r => r <? v) rs); reflexivity.
Qed.

Lemma base_lt : forall rs v, 0 < v -> base rs v < v.
Proof.
  intros rs v H. unfold base. induction rs as [|x rs IH]; simpl; [lia|].
  destruct (Z.ltb_spec x v); simpl; lia.
Qed.

Lemma base_nonneg : forall rs v, 0 <= base rs v.
Proof.
  intros. unfold base. induction rs as [|x rs IH]; simpl; [lia|].
  destruct (x <? v); simpl; lia.
Qed.

Lemma base_app : forall rs v w, w <= v -> base (rs ++ [v]) w = base rs w.
Proof.
  intros. unfold base. rewrite filter_app. simpl.
  destruct (Z.ltb_spec v w); [lia|]. rewrite app_nil_r. reflexivity.
Qed.

Lemma bnd_app : forall rs v j, (j <= length rs)%nat -> bnd (rs ++ [v]) j = bnd rs j.
Proof.
  intros. unfold bnd. rewrite app_comm_cons. apply app_nth1. simpl. lia.
Qed.

Lemma bnd_inj : forall rs j k, incr 0 rs -> (j <= length rs)%nat -> (k <= length rs)%nat ->
  bnd rs j = bnd rs k -> j = k.
Proof.
  intros rs j k H J K E.
  assert (G : forall l top i, incr top l -> (0 < i <= length l)%nat -> top < nth i (top :: l) 0).
  { induction l as [|x l IH]; intros top i L I; [simpl in I; lia|]. destruct L as [L1 L2].
    destruct i as [|i]; [lia|]. destruct i as [|i]; [simpl; auto|].
    specialize (IH x (S i) L2). simpl in I. specialize (IH ltac:(lia)). simpl in IH |- *. lia. }
  assert (D : forall l top i m, incr top l -> (i < m <= length l)%nat ->
              nth i (top :: l) 0 < nth m (top :: l) 0).
  { induction l as [|x l IH]; intros top i m L I; [simpl in I; lia|]. destruct L as [L1 L2].
    destruct m as [|m]; [lia|]. destruct i as [|i].
    - apply (G (x :: l) top (S m)); [split; auto|simpl in *; lia].
    - change (nth i (x :: l) 0 < nth m (x :: l) 0). apply (IH x); auto. simpl in I. lia. }
  unfold bnd in E.
  destruct (Nat.lt_trichotomy j k) as [L|[L|L]]; auto.
  - specialize (D rs 0 j k H ltac:(lia)). lia.
  - specialize (D rs 0 k j H ltac:(lia)). lia.
Qed.

Lemma peak_bnd : forall rs, peak 0 rs = bnd rs (length rs).
Proof.
  intros rs. unfold bnd.
  assert (G : forall l t d, peak t l = nth (length l) (t :: l) d).
  { induction l as [|x l IH]; intros t d; [reflexivity|]. rewrite peak_cons, (IH x d). reflexivity. }
  apply G.
Qed.

(** ** What the values inside a band are *)

Lemma inside_pos : forall h b, Forall (fun d => 0 < d) h -> Forall (fun d => 0 < d) (inside b h).
Proof.
  intros h b P. unfold inside. apply Forall_forall. intros d I.
  apply in_map_iff in I. destruct I as (w & <- & I). apply filter_In in I. destruct I as [I E].
  apply others_incl in I. rewrite Forall_forall in P. specialize (P _ I).
  apply Z.eqb_eq in E. pose proof (base_lt (records 0 h) w P). lia.
Qed.

Lemma inside_record : forall h v j, Forall (fun d => 0 < d) h ->
  peak 0 (records 0 h) < v -> (j < length (records 0 h))%nat ->
  inside (bnd (records 0 (h ++ [v])) j) (h ++ [v]) = inside (bnd (records 0 h) j) h.
Proof.
  intros h v j P L J. unfold inside. rewrite records_app, others_app.
  destruct (Z.ltb_spec (peak 0 (records 0 h)) v); [|lia]. rewrite app_nil_r.
  rewrite bnd_app by lia. f_equal. apply filter_ext_in. intros w I.
  rewrite base_app; auto. pose proof (others_le _ _ _ I). lia.
Qed.

Lemma inside_record_new : forall h v, Forall (fun d => 0 < d) h ->
  peak 0 (records 0 h) < v ->
  inside (bnd (records 0 (h ++ [v])) (length (records 0 h))) (h ++ [v]) = [].
Proof.
  intros h v P L. unfold inside. rewrite records_app, others_app.
  destruct (Z.ltb_spec (peak 0 (records 0 h)) v); [|lia]. rewrite app_nil_r.
  rewrite bnd_app by lia. rewrite <- peak_bnd.
  assert (E : filter (fun w => base (records 0 h ++ [v]) w =? peak 0 (records 0 h)) (others 0 h) = []).
  { assert (A : forall w, In w (others 0 h) -> (base (records 0 h ++ [v]) w =? peak 0 (records 0 h)) = false).
    { intros w I. apply Z.eqb_neq. pose proof (others_le _ _ _ I).
      rewrite base_app by lia. apply others_incl in I.
      rewrite Forall_forall in P. pose proof (base_lt (records 0 h) w (P _ I)). lia. }
    clear -A. induction (others 0 h) as [|w l IH]; simpl; auto.
    rewrite A by (left; auto). apply IH. intros u I. apply A. right. auto. }
  rewrite E. reflexivity.
Qed.

Lemma inside_other : forall h v j, v <= peak 0 (records 0 h) -> (j < length (records 0 h))%nat ->
  inside (bnd (records 0 (h ++ [v])) j) (h ++ [v]) =
  inside (bnd (records 0 h) j) h ++
  (if base (records 0 h) v =? bnd (records 0 h) j then [v - bnd (records 0 h) j] else []).
Proof.
  intros h v j L J. unfold inside. rewrite records_app, others_app.
  destruct (Z.ltb_spec (peak 0 (records 0 h)) v); [lia|]. rewrite app_nil_r.
  rewrite filter_app, map_app. f_equal. simpl.
  destruct (base (records 0 h) v =? bnd (records 0 h) j); reflexivity.
Qed.

(** ** The trees *)

(** The node [n] represents the distances [h] to depth [f]; [r] is its reference. *)
Fixpoint repr1 (f : nat) (sign r : Z) (n : node1) (h : list Z) : Prop :=
  match f with
  | O => True
  | S f' =>
      match n with
      | Node1 ref incs ch =>
          ref = Num r /\ incs = map Num (0 :: records 0 h) /\
          length ch = length (records 0 h) /\
          forall j c, nth_error ch j = Some c ->
            repr1 f' sign (r + sign * bnd (records 0 h) j) c (inside (bnd (records 0 h) j) h)
      end
  end.

Lemma repr1_new : forall f sign r, repr1 f sign r (new1 (Num r)) [].
Proof.
  intros [|f] sign r; simpl; auto. repeat split; auto. intros [|j] c H; discriminate.
Qed.

Lemma nth_error_lset : forall A (l : list A) i v j,
  nth_error (lset l i v) j =
  if (i =? j)%nat then match nth_error l j with Some _ => Some v | None => None end
  else nth_error l j.
Proof.
  intros A l. induction l as [|x l IH]; intros i v j.
  - destruct i, j; simpl; try destruct (i =? j)%nat; reflexivity.
  - destruct i, j; simpl; auto.
Qed.

Lemma length_lset : forall A (l : list A) i v, length (lset l i v) = length l.
Proof. intros A l. induction l as [|x l IH]; intros [|i] v; simpl; auto. Qed.

(** A zero distance: nothing is stored. *)
Lemma walk1_zero : forall f sign r n h, repr1 f sign r n h ->
  walk1 f sign n (Num r) = Ok (n, repeat 0 f).
Proof.
  induction f as [|f IH]; intros sign r n h H; [reflexivity|]. destruct n as [ref incs ch].
  assert (H' := H). destruct H as (-> & -> & L & K). cbn [walk1 nsub nscale].
  replace (sign * (r - r)) with 0 by lia.
  cbn [map bisect_left nlt]. rewrite Z.ltb_irrefl.
  cbn [length Nat.leb Nat.ltb]. rewrite (IH _ _ _ h).
  - simpl. replace (sign * 0) with 0 by lia. reflexivity.
  - destruct f; [exact Logic.I|]. simpl in H'. destruct H' as (_ & _ & L' & K').
    simpl. repeat split; auto. intros j c E. specialize (K' j c E).
    clear - K'. revert K'. generalize (r + sign * bnd (records 0 h) j). generalize (inside (bnd (records 0 h) j) h).
    intros hh rr. revert c hh rr. induction f as [|f IH]; intros c hh rr K; [exact Logic.I|].
    destruct c as [a b d]. destruct K as (A & B & C & D). simpl. repeat split; auto.
    intros jj cc E. apply IH. apply D. exact E.
Qed.

(** NaN: nothing is stored either. *)
Lemma walk1_nan : forall f sign r n h, repr1 f sign r n h ->
  walk1 f sign n NaN = Ok (n, repeat 0 f).
Proof.
  induction f as [|f IH]; intros sign r n h H; [reflexivity|]. destruct n as [ref incs ch].
  assert (H' := H). destruct H as (-> & -> & L & K). cbn [walk1 nsub nscale].
  cbn [map bisect_left nlt length Nat.leb Nat.ltb].
  rewrite (IH sign r _ h).
  - simpl. replace (sign * 0) with 0 by lia. reflexivity.
  - destruct f; [exact Logic.I|]. simpl in H'. destruct H' as (_ & _ & L' & K').
    simpl. repeat split; auto. intros j c E. specialize (K' j c E).
    clear - K'. revert K'. generalize (r + sign * bnd (records 0 h) j). generalize (inside (bnd (records 0 h) j) h).
    intros hh rr. revert c hh rr. induction f as [|f IH]; intros c hh rr K; [exact Logic.I|].
    destruct c as [a b d]. destruct K as (A & B & C & D). simpl. repeat split; auto.
    intros jj cc E. apply IH. apply D. exact E.
Qed.

Lemma walk1_ok : forall f sign r n h x, sign = 1 \/ sign = -1 -> repr1 f sign r n h ->
  Forall (fun d => 0 < d) h -> 0 < sign * (x - r) ->
  exists n', walk1 f sign n (Num x) = Ok (n', map (fun z => sign * z) (code1 f h (sign * (x - r)))) /\
             repr1 f sign r n' (h ++ [sign * (x - r)]).
Proof.
  induction f as [|f IH]; intros sign r n h x SG H P V; [exists n; split; [reflexivity|exact Logic.I]|].
  destruct n as [ref incs ch]. destruct H as (-> & -> & L & K).
  cbn [walk1 nsub nscale code1]. set (v := sign * (x - r)) in *. set (rs := records 0 h) in *.
  assert (I0 : incr 0 rs) by apply records_incr.
  cbn [map bisect_left nlt]. destruct (Z.ltb_spec 0 v) as [_|]; [|lia].
  rewrite (bisect_rank rs 0 v I0). cbn [length]. rewrite map_length.
  rewrite (forallb_peak rs 0 v I0 V).
  pose proof (rank_le rs v) as RL. pose proof (rank_full rs v) as RF.
  rewrite (forallb_peak rs 0 v I0 V) in RF.
  destruct (Z.ltb_spec (peak 0 rs) v) as [R|R].
  - assert (E : rank rs v = length rs) by (apply RF; reflexivity).
    rewrite E. rewrite Nat.leb_refl.
    assert (G : lget ((Num 0 :: map Num rs) ++ [Num v]) (length rs) = Ok (Num (peak 0 rs))).
    { apply lget_ok. rewrite nth_error_app1 by (simpl; rewrite map_length; lia).
      rewrite peak_bnd. unfold bnd. change (Num 0 :: map Num rs) with (map Num (0 :: rs)).
      rewrite nth_error_map. rewrite (nth_error_nth' (0 :: rs) 0) by (simpl; lia). reflexivity. }
    rewrite G. cbn [bind nadd nscale].
    eexists. split.
    + cbn [map]. f_equal. f_equal. f_equal.
      clear. induction f as [|f IHf]; simpl; [reflexivity|]. rewrite <- IHf.
      replace (sign * 0) with 0 by lia. reflexivity.
    + cbn [repr1]. rewrite records_app. fold rs.
      destruct (Z.ltb_spec (peak 0 rs) v); [|lia].
      split; [reflexivity|]. split; [cbn [map]; rewrite map_app; reflexivity|].
      rewrite !app_length. split; [simpl; lia|].
      intros j c N. destruct (Nat.lt_ge_cases j (length ch)) as [J|J].
      * rewrite nth_error_app1 in N by lia.
        pose proof (inside_record h v j P) as T. fold rs in T. specialize (T R ltac:(lia)).
        rewrite records_app in T. fold rs in T. destruct (Z.ltb_spec (peak 0 rs) v); [|lia].
        rewrite T. rewrite bnd_app by lia. apply K. exact N.
      * rewrite nth_error_app2 in N by lia.
        destruct (j - length ch)%nat as [|m] eqn:D; [|destruct m; discriminate].
        injection N as <-. assert (j = length rs) as -> by lia.
        pose proof (inside_record_new h v P) as T. fold rs in T. specialize (T R).
        rewrite records_app in T. fold rs in T. destruct (Z.ltb_spec (peak 0 rs) v); [|lia].
        rewrite T. rewrite bnd_app by lia. rewrite <- peak_bnd. apply repr1_new.
  - assert (E : (rank rs v < length rs)%nat).
    { destruct (Nat.eq_dec (rank rs v) (length rs)) as [D|D]; [|lia].
      apply RF in D. discriminate. }
    destruct (Nat.leb_spec (S (length rs)) (S (rank rs v))); [lia|].
    cbn [Nat.ltb Nat.leb]. replace (S (rank rs v) - 1)%nat with (rank rs v) by lia.
    destruct (nth_error ch (rank rs v)) as [c|] eqn:C; [|apply nth_error_None in C; lia].
    assert (G : lget ch (rank rs v) = Ok c) by (apply lget_ok; auto). rewrite G. cbn [bind].
    specialize (K _ _ C) as KC. rewrite <- base_bnd in KC by auto.
    pose proof (base_lt rs v V) as BL.
    assert (VV : sign * (x - (r + sign * base rs v)) = v - base rs v)
      by (unfold v; destruct SG as [-> | ->]; lia).
    destruct (IH sign _ c _ x SG KC (inside_pos _ _ P)) as (c' & W & R'); [rewrite VV; lia|].
    rewrite VV in W, R'. rewrite W. cbn [bind fst snd].
    unfold lput. destruct (Nat.ltb_spec (rank rs v) (length ch)); [|lia]. cbn [bind].
    eexists. split; [reflexivity|].
    cbn [repr1]. rewrite records_app. fold rs.
    destruct (Z.ltb_spec (peak 0 rs) v); [lia|]. rewrite app_nil_r.
    split; [reflexivity|]. split; [reflexivity|]. rewrite length_lset. split; [auto|].
    intros j d N. rewrite nth_error_lset in N.
    pose proof (inside_other h v j R) as T. fold rs in T.
    rewrite records_app in T. fold rs in T. destruct (Z.ltb_spec (peak 0 rs) v); [lia|].
    rewrite app_nil_r in T.
    destruct (Nat.eqb_spec (rank rs v) j) as [<-|J].
    + rewrite C in N. injection N as <-. rewrite T by lia. rewrite <- base_bnd by auto.
      rewrite Z.eqb_refl. exact R'.
    + assert (JL : (j < length ch)%nat) by (apply nth_error_Some; congruence).
      rewrite T by lia. rewrite (base_bnd rs v I0).
      destruct (Z.eqb_spec (bnd rs (rank rs v)) (bnd rs j)) as [Q|Q].
      * exfalso. apply J. apply (bnd_inj rs); auto; lia.
      * rewrite app_nil_r. apply K. exact N.
Qed.
