(** C143: moving the helper activities close to the activities they serve. *)
From Coq Require Import String.
From Coq Require Import List Bool Arith ZArith Lia Permutation Sorted.
From Coq Require Import ZifyBool ZifyNat.
From Verif Require Import Py PyList SgsModel SgsProps SatProps ReserveModel ReserveProofs ConsModel ConsProps HelperModel.
Import ListNotations.
Local Open Scope nat_scope.

(** * Lists and sums *)
Lemma lset_map : forall f N i v, i < N -> lset (map f (seq 0 N)) i v = map (fun j => if j =? i then v else f j : Z) (seq 0 N).
Proof.
  intros f N i v L. assert (G : forall a b : list Z, (forall j, nth_error a j = nth_error b j) -> a = b).
  { induction a as [|x a IH]; intros [|y b] H; [reflexivity|specialize (H 0); discriminate|specialize (H 0); discriminate|].
    pose proof (H 0) as H0. injection H0 as <-. f_equal. apply IH. intros j. exact (H (S j)). }
  apply G. intros j. rewrite lset_nth_error, map_length, seq_length. destruct (le_lt_dec N j) as [Lj|Lj].
  - replace (i =? j) with false by lia. rewrite !(proj2 (nth_error_None _ _)); rewrite ?map_length, ?seq_length; auto.
  - assert (At : forall g : nat -> Z, nth_error (map g (seq 0 N)) j = Some (g j)) by (intros g; apply map_nth_error; apply nth_error_seq; lia).
    rewrite !At.
    destruct (Nat.eqb_spec i j) as [->|Ne]; [rewrite Nat.eqb_refl; replace (j <? N) with true by lia; reflexivity|].
    replace (j =? i) with false by lia. reflexivity.
Qed.

Lemma without_absent : forall a sch, ~ In a (map fst sch) -> without a sch = sch.
Proof.
  intros a sch H. unfold without. induction sch as [|[b se] sch IH]; [reflexivity|]. cbn [filter fst] in *. destruct (Nat.eqb_spec b a) as [->|Ne].
  - exfalso. apply H. now left.
  - cbn [negb]. f_equal. apply IH. intros X. apply H. now right.
Qed.

(** Any sum over a schedule splits into one task and the others. *)
Lemma sum_without : forall (h : nat * (Z * Z) -> Z) sch a v, NoDup (map fst sch) -> In (a, v) sch ->
  sumZ (map h sch) = (sumZ (map h (without a sch)) + h (a, v))%Z.
Proof.
  intros h sch a v N I. induction sch as [|[b w] sch IH]; [contradiction|]. cbn [map fst] in N. apply NoDup_cons_iff in N. destruct N as [Nb N].
  unfold without. cbn [filter fst]. fold (without a sch). destruct I as [I|I].
  - injection I as -> ->. rewrite Nat.eqb_refl. cbn [negb map]. rewrite without_absent by exact Nb. change (sumZ (?x :: ?l)) with (x + sumZ l)%Z. lia.
  - assert (Ne : b <> a) by (intros ->; apply Nb; apply in_map_iff; exists (a, v); auto).
    replace (b =? a) with false by lia. cbn [negb map]. change (sumZ (?x :: ?l)) with (x + sumZ l)%Z. rewrite IH by assumption. lia.
Qed.

Lemma without_dset : forall sch a v, without a (dset sch a v) = without a sch.
Proof.
  intros sch a v. unfold without. induction sch as [|[b w] sch IH]; cbn [dset].
  - cbn. rewrite Nat.eqb_refl. reflexivity.
  - destruct (pyeqb_spec a b) as [->|Ne]; cbn [filter fst]; [rewrite Nat.eqb_refl; reflexivity|].
    replace (b =? a) with false by lia. cbn [negb]. f_equal. exact IH.
Qed.

Lemma least_Z : forall l m, leastZ l = Ok m -> In m l /\ forall x, In x l -> (m <= x)%Z.
Proof.
  intros [|x l] m H; [discriminate|]. injection H as <-. revert x. induction l as [|y l IH]; intros x; cbn.
  - split; [auto|]. intros z [<-|[]]. lia.
  - destruct (IH (Z.min x y)) as [A B]. split.
    + destruct A as [A|A]; [|auto]. destruct (Z.min_dec x y) as [E|E]; rewrite <- A, E; auto.
    + intros z Iz. pose proof (B _ (or_introl eq_refl)). destruct Iz as [<-|[<-|Iz]]; [lia|lia|]. apply B. now right.
Qed.

Section Helpers.
Variables (p : rcpsp) (n : nat) (c : list (string * Z)) (mk : Z).
Let modes := repeat 1 n.
(** A problem with one mode per task, numbers as capacities and needs that are not negative *)
Hypothesis Tk : tasks p modes n.
Hypothesis Cc : p_res p = Constant c.
Hypothesis Dem : forall a r, (0 <= demand p modes a r)%Z.

(** A feasible schedule of all the tasks in which the sink ends last *)
Record feasible (sch : schedule) : Prop := {
  f_timed : timed p modes (seq 1 (n + 2)) sch;
  f_within : within p modes sch;
  f_span : makespan p sch mk;
  f_last : forall a s e, In (a, (s, e)) sch -> (e <= mk)%Z
}.

(** The capacities leave room for task [a] from [u] on for [d], the others being as in [sch]. *)
Definition roomy (sch : schedule) (a : nat) (u d : Z) : Prop :=
  forall t r cap, (u <= t < u + d)%Z -> dget c r = Some cap -> (running p modes (without a sch) r t + demand p modes a r <= cap)%Z.

Lemma f_nodup : forall sch, feasible sch -> NoDup (map fst sch).
Proof. intros sch F. apply (sch_nodup n). apply (t_tasks _ _ _ _ (f_timed _ F)). Qed.

Lemma f_start : forall sch a s e, feasible sch -> In (a, (s, e)) sch -> (0 <= s <= e)%Z.
Proof. intros sch a s e F I. destruct (t_length _ _ _ _ (f_timed _ F) _ _ _ I) as (m & _ & L & E). lia. Qed.

Lemma need_one : forall sch a s e r, feasible sch -> In (a, (s, e)) sch -> In r (dkeys c) -> need_of p a 1 r = Ok (demand p modes a r).
Proof.
  intros sch a s e r F I Ir.
  destruct (mode_need p modes n sch (res_names p) Tk (t_tasks _ _ _ _ (f_timed _ F)) (fun a s e => f_start sch a s e F) (incl_refl _) a s e I) as (i & k & -> & Ek & En).
  assert (k = 1); [|subst k; apply En; unfold res_names; rewrite Cc; exact Ir].
  apply lget_ok in Ek. apply nth_error_In in Ek. destruct Ek as [<-|Ek]; [reflexivity|]. apply in_app_or in Ek.
  destruct Ek as [Ek|[<-|[]]]; [|reflexivity]. apply repeat_spec in Ek. exact Ek.
Qed.

Lemma running_split : forall sch a s e r t, NoDup (map fst sch) -> In (a, (s, e)) sch ->
  running p modes sch r t = (running p modes (without a sch) r t + (if (s <=? t)%Z && (t <? e)%Z then demand p modes a r else 0))%Z.
Proof. intros sch a s e r t N I. unfold running. rewrite (sum_without _ _ _ _ N I). reflexivity. Qed.

Lemma fits : forall sch r cap t, feasible sch -> dget c r = Some cap -> (0 <= t)%Z -> (running p modes sch r t <= cap)%Z.
Proof.
  intros sch r cap t F D Ht. destruct (in_dec string_dec r (p_nonren p)) as [In|Ni].
  - pose proof (r_total _ _ _ (f_within _ F) _ _ _ Cc In D) as H. unfold consumed_all in H. unfold running.
    enough (sumZ (map (fun x : nat * (Z * Z) => let '(a, (s, e)) := x in if (s <=? t)%Z && (t <? e)%Z then demand p modes a r else 0%Z) sch) <=
      sumZ (map (fun x : nat * (Z * Z) => let '(a, (s, e)) := x in if (s <? e)%Z then demand p modes a r else 0%Z) sch))%Z by lia.
    apply sumZ_map_le. intros [a [s e]] _. pose proof (Dem a r). destruct ((s <=? t)%Z && (t <? e)%Z) eqn:B1; destruct (s <? e)%Z eqn:B2; lia.
  - replace t with (Z.of_nat (Z.to_nat t)) by lia. apply (r_running _ _ _ (f_within _ F)); [exact Ni|]. unfold capacity_of. rewrite Cc. exact D.
Qed.

Local Notation N := (Z.to_nat (mk + 1)).
Definition row_of (sch : schedule) (r : string) : list Z := map (fun j => running p modes sch r (Z.of_nat j - 1)) (seq 0 N).

Lemma at_col : forall (f : nat -> Z) t, (-1 <= t < mk)%Z -> at_index (map f (seq 0 N)) (t + 1) = Ok (Z.to_nat (t + 1)) /\
  lget (map f (seq 0 N)) (Z.to_nat (t + 1)) = Ok (f (Z.to_nat (t + 1))).
Proof.
  intros f t H. unfold at_index. rewrite map_length, seq_length. replace (t + 1 <? 0)%Z with false by lia.
  replace ((0 <=? t + 1)%Z && (t + 1 <? Z.of_nat N)%Z) with true by lia. split; [reflexivity|].
  apply lget_ok. apply map_nth_error. apply nth_error_seq. lia.
Qed.

Lemma take_out_ok : forall sch a s e r, feasible sch -> In (a, (s, e)) sch -> In r (dkeys c) ->
  take_out p a s e (r, row_of sch r) = Ok (row_of (without a sch) r).
Proof.
  intros sch a s e r F I Ir. pose proof (f_start _ _ _ _ F I) as St. pose proof (f_last _ F _ _ _ I) as La. unfold take_out. cbn [fst snd].
  destruct (foldM_total (fun row t => let* i := at_index row (t + 1) in let* x := lget row i in let* n := need_of p a 1 r in Ok (lset row i (x - n)%Z))
    (fun l row => row = map (fun j => running p modes sch r (Z.of_nat j - 1) - (if existsb (Z.eqb (Z.of_nat j - 1)) l then demand p modes a r else 0))%Z (seq 0 N))
    (l := zrange s e) (row_of sch r)) as (row & E & R).
  - unfold row_of. apply map_ext. intros j. cbn. lia.
  - intros l0 t l1 row El ->. assert (It : In t (zrange s e)) by (rewrite El; apply in_or_app; right; now left). apply zrange_In in It.
    destruct (at_col (fun j => running p modes sch r (Z.of_nat j - 1) - (if existsb (Z.eqb (Z.of_nat j - 1)) l0 then demand p modes a r else 0))%Z t ltac:(lia)) as [E1 E2].
    rewrite E1. cbn [bind]. rewrite E2. cbn [bind]. rewrite (need_one _ _ _ _ _ F I Ir). cbn [bind]. eexists. split; [reflexivity|].
    rewrite lset_map by lia. apply map_ext. intros j. rewrite existsb_app. cbn [existsb].
    destruct (Nat.eqb_spec j (Z.to_nat (t + 1))) as [->|Ne].
    + replace (Z.of_nat (Z.to_nat (t + 1)) - 1)%Z with t by lia. rewrite Z.eqb_refl, orb_true_r.
      replace (existsb (Z.eqb t) l0) with false; [lia|]. symmetry. apply not_true_iff_false. intros X. apply existsb_exists in X.
      destruct X as (y & Iy & Ey). pose proof (zrange_NoDup s e) as Nd. rewrite El in Nd. apply NoDup_remove_2 in Nd. apply Nd. apply in_or_app. left.
      replace t with y by lia. exact Iy.
    + replace (Z.of_nat j - 1 =? t)%Z with false by lia. rewrite !orb_false_r. reflexivity.
  - rewrite E. f_equal. rewrite R. unfold row_of. apply map_ext. intros j. rewrite (running_split sch a s e r _ (f_nodup _ F) I).
    replace (existsb (Z.eqb (Z.of_nat j - 1)) (zrange s e)) with ((s <=? Z.of_nat j - 1)%Z && (Z.of_nat j - 1 <? e)%Z); [lia|].
    apply eq_true_iff_eq. rewrite existsb_exists. split.
    + intros B. exists (Z.of_nat j - 1)%Z. split; [apply zrange_In; lia|apply Z.eqb_refl].
    + intros (y & Iy & Ey). apply zrange_In in Iy. lia.
Qed.

Section One.
Variables (sch : schedule) (a : nat) (s e : Z).
Hypothesis F : feasible sch.
Hypothesis I : In (a, (s, e)) sch.
Let rows := map (fun r => (r, row_of (without a sch) r)) (dkeys c).

Lemma cap_ok : forall r, In r (dkeys c) -> exists cap, dget c r = Some cap.
Proof. intros r Ir. destruct (dget c r) as [cap|] eqn:D; [eauto|]. exfalso. exact (proj1 (dget_None _ _) D Ir). Qed.

Lemma all_room_ok : forall u d, (-1 <= u)%Z -> (u + d <= mk)%Z -> exists b, all_room p a rows u d = Ok b /\ (b = true <-> roomy sch a u d).
Proof.
  intros u d Hu Hd. unfold all_room.
  destruct (foldM_total (fun good t => let* b := allM (room p a t) rows in Ok (good && b))
    (fun l b => b = true <-> forall t r cap, In t l -> dget c r = Some cap -> (running p modes (without a sch) r t + demand p modes a r <= cap)%Z)
    (l := zrange u (u + d)) true) as (b & E & B).
  - split; [|reflexivity]. intros _ t r cap [].
  - intros l0 t l1 good El G. assert (It : In t (zrange u (u + d))) by (rewrite El; apply in_or_app; right; now left). apply zrange_In in It.
    destruct (allM_spec _ (room p a t) (fun rr => forall cap, dget c (fst rr) = Some cap -> (running p modes (without a sch) (fst rr) t + demand p modes a (fst rr) <= cap)%Z) rows)
      as (b & E & B).
    { intros [r row] Ir. apply in_map_iff in Ir. destruct Ir as (r' & X & Ir). injection X as -> <-. unfold room. cbn [fst snd].
      destruct (at_col (fun j => running p modes (without a sch) r (Z.of_nat j - 1)) t ltac:(lia)) as [E1 E2]. unfold row_of. rewrite E1. cbn [bind]. rewrite E2. cbn [bind].
      rewrite (need_one _ _ _ _ _ F I Ir). cbn [bind]. destruct (cap_ok r Ir) as (cap & D). unfold cap_number, dgetE. rewrite Cc, D. cbn [bind].
      eexists. split; [reflexivity|]. replace (Z.of_nat (Z.to_nat (t + 1)) - 1)%Z with t by lia. rewrite Z.leb_le. split.
      - intros L cap' D'. injection D' as <-. exact L.
      - intros H. apply H. reflexivity. }
    rewrite E. cbn [bind]. eexists. split; [reflexivity|]. rewrite andb_true_iff, G, B. split.
    + intros [H1 H2] t' r cap It' D. apply in_app_or in It'. destruct It' as [It'|[<-|[]]]; [eapply H1; eauto|].
      apply (H2 (r, row_of (without a sch) r)); [|exact D]. unfold rows. apply in_map_iff. exists r. split; [reflexivity|].
      apply dget_In in D. apply in_map_iff. exists (r, cap). auto.
    + intros H. split; [intros; eapply H; eauto; apply in_or_app; now left|]. intros rr _ cap D. apply H; [|exact D]. apply in_or_app. right. now left.
  - exists b. split; [exact E|]. rewrite B. split.
    + intros H t r cap It. apply H. apply zrange_In. exact It.
    + intros H t r cap It. apply H. apply zrange_In. exact It.
Qed.

Lemma seek_ok : forall fuel d u s0, (0 <= s0)%Z -> roomy sch a s0 d -> (s0 <= u)%Z -> (u + d <= mk)%Z -> (u - s0 < Z.of_nat fuel)%Z ->
  exists st, seek fuel p a rows d u = Ok st /\ (s0 <= st <= u)%Z /\ roomy sch a st d /\ forall v, (st < v <= u)%Z -> ~ roomy sch a v d.
Proof.
  induction fuel as [|fuel IH]; intros d u s0 Hs R0 Hu Hd Hf; [lia|]. cbn [seek].
  destruct (all_room_ok u d ltac:(lia) Hd) as (b & E & B). rewrite E. cbn [bind]. destruct b.
  - exists u. split; [reflexivity|]. split; [lia|]. split; [apply B; reflexivity|]. intros v Hv. lia.
  - assert (Nr : ~ roomy sch a u d) by (intros X; apply B in X; discriminate).
    assert (u <> s0) by (intros ->; contradiction).
    destruct (IH d (u - 1)%Z s0) as (st & E' & B' & R & Mx); [assumption|assumption|lia|lia|lia|].
    exists st. split; [exact E'|]. split; [lia|]. split; [exact R|]. intros v Hv. destruct (Z.eq_dec v u) as [->|Ne]; [exact Nr|]. apply Mx. lia.
Qed.

Lemma old_room : roomy sch a s (e - s).
Proof.
  intros t r cap Ht D. pose proof (f_start _ _ _ _ F I) as St. pose proof (fits sch r cap t F D ltac:(lia)) as H.
  rewrite (running_split sch a s e r t (f_nodup _ F) I) in H. replace ((s <=? t)%Z && (t <? e)%Z) with true in H by lia. exact H.
Qed.

Lemma shift_ok : forall l, dget (p_succ p) a = Some l -> l <> [] -> exists st le,
  shift p modes sch a = Ok (dset sch a (st, st + (e - s)))%Z /\ (s <= st)%Z /\ (st + (e - s) <= le)%Z /\
  (exists b eb, In b l /\ In (b, (le, eb)) sch) /\ (forall b sb eb, In b l -> In (b, (sb, eb)) sch -> (le <= sb)%Z) /\ roomy sch a st (e - s) /\
  forall v, (st < v)%Z -> (v + (e - s) <= le)%Z -> ~ roomy sch a v (e - s).
Proof.
  intros l Dl Ne. pose proof (f_nodup _ F) as Nd. pose proof (t_tasks _ _ _ _ (f_timed _ F)) as Pm. pose proof (f_start _ _ _ _ F I) as St.
  assert (Get : forall b, In b l -> exists sb eb, In (b, (sb, eb)) sch).
  { intros b Ib. assert (Hb : 1 <= b <= n + 2) by (eapply (k_keys _ _ _ Tk), in_closed; eauto using k_instance).
    destruct (sch_get n sch Pm b Hb) as (sb & eb & _ & J). eauto. }
  unfold shift. unfold dgetE at 1. rewrite Dl. cbn [bind].
  rewrite mapM_total with (g := fun b => match dget sch b with Some se => fst se | None => 0%Z end).
  2:{ intros b Ib. destruct (Get b Ib) as (sb & eb & J). unfold dgetE. rewrite (In_dget _ _ _ Nd J). reflexivity. }
  cbn [bind]. destruct (leastZ _) as [le|er] eqn:El; [|destruct l; [congruence|discriminate]]. cbn [bind].
  apply least_Z in El. destruct El as [L1 L2]. apply in_map_iff in L1. destruct L1 as (b0 & E0 & I0). destruct (Get b0 I0) as (s0 & e0 & J0).
  rewrite (In_dget _ _ _ Nd J0) in E0. cbn [fst] in E0. subst s0.
  unfold dgetE at 1. rewrite (In_dget _ _ _ Nd I). cbn [bind fst snd].
  assert (St' : forall a s e, In (a, (s, e)) sch -> (0 <= s <= e)%Z) by (intros a' s' e' I'; exact (f_start _ _ _ _ F I')).
  rewrite (C142_consumption p modes n sch (res_names p) Tk Pm St' (incl_refl _) mk (f_span _ F) true). cbn [bind fst snd].
  replace (res_names p) with (dkeys c) by (unfold res_names; rewrite Cc; reflexivity). rewrite combine_self.
  rewrite mapM_total with (g := fun rr : string * list Z => row_of (without a sch) (fst rr)).
  2:{ intros [r row] Ir. apply in_map_iff in Ir. destruct Ir as (r' & X & Ir). injection X as -> <-. cbn [fst].
      replace (map (at_date p modes sch true r) (dates mk)) with (row_of sch r); [apply take_out_ok; assumption|].
      unfold row_of, dates, at_date. rewrite map_map. reflexivity. }
  cbn [bind]. rewrite map_map. cbn [fst]. rewrite combine_self. fold rows.
  pose proof (t_precedence _ _ _ _ (f_timed _ F) _ _ _ _ _ _ _ Dl I0 I J0) as Pr. pose proof (f_start _ _ _ _ F J0) as St0. pose proof (f_last _ F _ _ _ J0) as La0.
  destruct (seek_ok (Z.to_nat (le - (e - s) + Z.of_nat (length (dates mk)) + 3)) (e - s) (le - (e - s)) s) as (st & E & B & R & Mx);
    [lia|exact old_room|lia|lia|lia|]. rewrite E. cbn [bind]. exists st, le. split; [reflexivity|]. split; [lia|]. split; [lia|].
  split; [eauto|]. split; [|split; [exact R|intros v H1 H2; apply Mx; lia]].
  intros b sb eb Ib J. apply L2. apply in_map_iff. exists b. rewrite (In_dget _ _ _ Nd J). auto.
Qed.

(** Moving one task later into room that is free keeps the schedule feasible. *)
Lemma moved : forall l st, dget (p_succ p) a = Some l -> l <> [] -> (s <= st)%Z ->
  (forall b sb eb, In b l -> In (b, (sb, eb)) sch -> (st + (e - s) <= sb)%Z) -> roomy sch a st (e - s) ->
  feasible (dset sch a (st, st + (e - s)))%Z.
Proof.
  intros l st Dl Ne Ls Hb R. pose proof (f_nodup _ F) as Nd. pose proof (t_tasks _ _ _ _ (f_timed _ F)) as Pm. pose proof (f_start _ _ _ _ F I) as St.
  set (v := (st, st + (e - s))%Z). pose proof (In_dget _ _ _ Nd I) as Da.
  assert (Ks : map fst (dset sch a v) = map fst sch) by (exact (dkeys_same _ _ _ _ _ v _ Da)).
  assert (Nd' : NoDup (map fst (dset sch a v))) by (rewrite Ks; exact Nd).
  assert (Mem : forall b w, In (b, w) (dset sch a v) -> (b = a /\ w = v) \/ (b <> a /\ In (b, w) sch)).
  { intros b w J. apply (In_dget _ _ _ Nd') in J. destruct (Nat.eq_dec b a) as [->|Nb].
    - left. rewrite dget_dset_same in J. injection J as <-. auto.
    - right. split; [exact Nb|]. rewrite dget_dset_other in J by congruence. apply dget_In. exact J. }
  assert (Iv : In (a, v) (dset sch a v)) by (apply dget_In; apply dget_dset_same).
  assert (Self : ~ In a l).
  { intros X. destruct (in_acyclic _ (k_instance _ _ _ Tk)) as (rank & Rk). specialize (Rk _ _ _ Dl X). lia. }
  assert (Some0 : exists b sb eb, In b l /\ In (b, (sb, eb)) sch).
  { destruct l as [|b l']; [congruence|]. assert (Hb' : 1 <= b <= n + 2) by (eapply (k_keys _ _ _ Tk), in_closed; eauto using k_instance; now left).
    destruct (sch_get n sch Pm b Hb') as (sb & eb & _ & J). exists b, sb, eb. split; [now left|exact J]. }
  assert (Lv : (st + (e - s) <= mk)%Z).
  { destruct Some0 as (b & sb & eb & Ib & J). specialize (Hb _ _ _ Ib J). pose proof (f_start _ _ _ _ F J). pose proof (f_last _ F _ _ _ J). lia. }
  assert (Tot : forall r, consumed_all p modes (dset sch a v) r = consumed_all p modes sch r).
  { intros r. unfold consumed_all. rewrite (sum_without _ _ _ _ Nd' Iv), (sum_without _ _ _ _ Nd I), without_dset. cbn.
    replace (st <? st + (e - s))%Z with (s <? e)%Z by lia. reflexivity. }
  assert (Tl : forall r x, In r (p_nonren p) -> dget c r = Some x -> (consumed_all p modes (dset sch a v) r <= x)%Z).
  { intros r x Ir D. rewrite Tot. exact (r_total _ _ _ (f_within _ F) _ _ _ Cc Ir D). }
  constructor.
  - constructor.
    + rewrite Ks. exact Pm.
    + intros b sb eb J. apply Mem in J. destruct J as [[-> J]|[_ J]]; [|exact (t_length _ _ _ _ (f_timed _ F) _ _ _ J)].
      injection J as -> ->. destruct (t_length _ _ _ _ (f_timed _ F) _ _ _ I) as (m & Cm & Q1 & Q2). exists m. split; [exact Cm|]. lia.
    + intros b1 b2 l' s1 e1 s2 e2 D' I' J1 J2. apply Mem in J1. apply Mem in J2.
      destruct J1 as [[-> J1]|[N1 J1]]; destruct J2 as [[-> J2]|[N2 J2]].
      * rewrite Dl in D'. injection D' as <-. contradiction.
      * injection J1 as -> ->. rewrite Dl in D'. injection D' as <-. exact (Hb _ _ _ I' J2).
      * injection J2 as -> ->. pose proof (t_precedence _ _ _ _ (f_timed _ F) _ _ _ _ _ _ _ D' I' J1 I). lia.
      * exact (t_precedence _ _ _ _ (f_timed _ F) _ _ _ _ _ _ _ D' I' J1 J2).
  - constructor.
    + intros r t cap _ Cp. unfold capacity_of in Cp. rewrite Cc in Cp. rewrite (running_split _ _ _ _ r _ Nd' Iv), without_dset.
      destruct ((st <=? Z.of_nat t)%Z && (Z.of_nat t <? st + (e - s))%Z) eqn:B.
      * apply R; [lia|exact Cp].
      * pose proof (fits sch r cap (Z.of_nat t) F Cp ltac:(lia)) as H. rewrite (running_split sch a s e r _ Nd I) in H. pose proof (Dem a r).
        destruct ((s <=? Z.of_nat t)%Z && (Z.of_nat t <? e)%Z); lia.
    + intros r t cap Ir _ Cp. unfold capacity_of in Cp. rewrite Cc in Cp. specialize (Tl _ _ Ir Cp). unfold consumed. unfold consumed_all in Tl.
      enough (sumZ (map (fun x : nat * (Z * Z) => let '(a, (s, e)) := x in if (s <=? Z.of_nat t)%Z && (s <? e)%Z then demand p modes a r else 0%Z) (dset sch a v)) <=
        sumZ (map (fun x : nat * (Z * Z) => let '(a, (s, e)) := x in if (s <? e)%Z then demand p modes a r else 0%Z) (dset sch a v)))%Z by lia.
      apply sumZ_map_le. intros [a' [s' e']] _. pose proof (Dem a' r). destruct ((s' <=? Z.of_nat t)%Z && (s' <? e')%Z) eqn:B1; destruct (s' <? e')%Z eqn:B2; lia.
    + intros c' r x C' Ir D. rewrite Cc in C'. injection C' as <-. exact (Tl _ _ Ir D).
  - destruct (f_span _ F) as (s0 & J). destruct (Nat.eq_dec (p_sink p) a) as [Ea|Na].
    + exists st. rewrite Ea in J. pose proof (In_dget _ _ _ Nd J) as D. rewrite Da in D. injection D as -> ->. rewrite Ea.
      replace mk with (st + (mk - s0))%Z at 1 by lia. exact Iv.
    + exists s0. apply dget_In. rewrite dget_dset_other by congruence. apply In_dget; assumption.
  - intros b sb eb J. apply Mem in J. destruct J as [[-> J]|[_ J]]; [injection J as -> ->; exact Lv|exact (f_last _ F _ _ _ J)].
Qed.
End One.

(** One helper: it moves to the latest start that its successors and the capacities allow, and the schedule stays feasible. *)
Theorem C143_step : forall sch a s e l, feasible sch -> In (a, (s, e)) sch -> dget (p_succ p) a = Some l -> l <> [] -> exists st sch',
  shift p modes sch a = Ok sch' /\ dkeys sch' = dkeys sch /\ dget sch' a = Some (st, st + (e - s))%Z /\ (forall b, b <> a -> dget sch' b = dget sch b) /\
  (s <= st)%Z /\ feasible sch' /\
  forall v, (st < v)%Z -> (forall b sb eb, In b l -> In (b, (sb, eb)) sch -> (v + (e - s) <= sb)%Z) ->
    exists t r cap, (v <= t < v + (e - s))%Z /\ dget c r = Some cap /\ (cap < running p modes (without a sch) r t + demand p modes a r)%Z.
Proof.
  intros sch a s e l F I Dl Ne. destruct (shift_ok sch a s e F I l Dl Ne) as (st & le & E & L1 & L2 & (b0 & e0 & Ib & Jb) & L3 & R & Mx).
  exists st. eexists. split; [exact E|]. split; [exact (dkeys_same _ _ _ _ _ _ _ (In_dget _ _ _ (f_nodup _ F) I))|].
  split; [apply dget_dset_same|]. split; [intros b Nb; apply dget_dset_other; congruence|]. split; [exact L1|].
  split; [apply (moved sch a s e F I l st Dl Ne L1); [intros b sb eb X Y; specialize (L3 _ _ _ X Y); lia|exact R]|].
  intros v Hv Hs. specialize (Hs _ _ _ Ib Jb). specialize (Mx v Hv Hs).
  (* the negation of a bounded statement *)
  assert (G : forall ts, (exists t r cap, In t ts /\ dget c r = Some cap /\ (cap < running p modes (without a sch) r t + demand p modes a r)%Z) \/
    forall t r cap, In t ts -> dget c r = Some cap -> (running p modes (without a sch) r t + demand p modes a r <= cap)%Z).
  { induction ts as [|t ts [IH|IH]].
    - right. intros t r cap [].
    - left. destruct IH as (t' & r & cap & It & H). exists t', r, cap. split; [now right|exact H].
    - assert (K : forall rs, (exists r cap, In r rs /\ dget c r = Some cap /\ (cap < running p modes (without a sch) r t + demand p modes a r)%Z) \/
        forall r cap, In r rs -> dget c r = Some cap -> (running p modes (without a sch) r t + demand p modes a r <= cap)%Z).
      { induction rs as [|r rs [IHr|IHr]].
        - right. intros r cap [].
        - left. destruct IHr as (r' & cap & Ir & H). exists r', cap. split; [now right|exact H].
        - destruct (dget c r) as [cap|] eqn:D.
          + destruct (Z_le_gt_dec (running p modes (without a sch) r t + demand p modes a r) cap) as [L|G].
            * right. intros r' cap' [<-|Ir] D'; [rewrite D in D'; injection D' as <-; exact L|eauto].
            * left. exists r, cap. split; [now left|]. split; [exact D|lia].
          + right. intros r' cap' [<-|Ir] D'; [congruence|eauto]. }
      destruct (K (dkeys c)) as [(r & cap & _ & H)|K'].
      + left. exists t, r, cap. split; [now left|exact H].
      + right. intros t' r cap [<-|It] D; [|eauto]. eapply K'; [|exact D]. apply dget_In in D. apply in_map_iff. exists (r, cap). auto. }
  destruct (G (zrange v (v + (e - s)))) as [(t & r & cap & It & H)|H].
  - exists t, r, cap. apply zrange_In in It. split; [exact It|exact H].
  - exfalso. apply Mx. intros t r cap Ht. apply H. apply zrange_In. exact Ht.
Qed.

(** [a] sits in [sch'] as late as its successors and the capacities allow with the others as in [sch], and only [a] moved. *)
Definition latest (sch : schedule) (a : nat) (sch' : schedule) : Prop := exists s e st l,
  dget sch a = Some (s, e) /\ dget (p_succ p) a = Some l /\ dget sch' a = Some (st, st + (e - s))%Z /\ (forall b, b <> a -> dget sch' b = dget sch b) /\
  forall v, (st < v)%Z -> (forall b sb eb, In b l -> In (b, (sb, eb)) sch -> (v + (e - s) <= sb)%Z) ->
    exists t r cap, (v <= t < v + (e - s))%Z /\ dget c r = Some cap /\ (cap < running p modes (without a sch) r t + demand p modes a r)%Z.
Inductive one_by_one : schedule -> list nat -> schedule -> Prop :=
  | obo_nil : forall sch, one_by_one sch [] sch
  | obo_snoc : forall sch l sch1 a sch2, one_by_one sch l sch1 -> latest sch1 a sch2 -> one_by_one sch (l ++ [a]) sch2.
(** By decreasing start, equal starts by decreasing number *)
Definition before (sch : schedule) (h1 h2 : nat) : Prop := forall s1 e1 s2 e2, dget sch h1 = Some (s1, e1) -> dget sch h2 = Some (s2, e2) ->
  (s2 < s1)%Z \/ s2 = s1 /\ h2 <= h1.

(** The helpers are placed one after the other, the one that starts last first. *)
Theorem C143_order : forall sch pre, feasible sch ->
  (forall h, In h (map snd pre) -> exists l, dget (p_succ p) h = Some l /\ l <> []) ->
  (forall h, In h (map snd pre) -> 1 <= h <= n + 2) -> exists sch' order,
  correction p modes sch pre = Ok sch' /\ Permutation order (map snd pre) /\ Sorted (before sch) order /\ one_by_one sch order sch'.
Proof.
  intros sch pre F Su Rg. pose proof (t_tasks _ _ _ _ (f_timed _ F)) as Pm. unfold correction.
  set (key := fun mh : nat * nat => (match dget sch (snd mh) with Some se => fst se | None => 0%Z end, snd mh)).
  rewrite mapM_total with (g := key).
  2:{ intros [m h] Im. unfold key. cbn [snd]. destruct (sch_get n sch Pm h) as (sh & eh & D & _); [apply Rg; apply in_map_iff; exists (m, h); auto|].
      unfold dgetE. rewrite D. reflexivity. }
  cbn [bind]. set (ids := map snd _).
  assert (Pi : Permutation ids (map snd pre)).
  { unfold ids. rewrite <- (ssort_perm later_first). rewrite map_map. unfold key. cbn [snd]. reflexivity. }
  destruct (foldM_total (shift p modes) (fun l0 sch1 => feasible sch1 /\ one_by_one sch l0 sch1) (l := ids) sch) as (sch' & E & _ & O).
  - split; [exact F|constructor].
  - intros l0 a l1 sch1 El (F1 & O). assert (Ia : In a (map snd pre)) by (apply (Permutation_in _ Pi); rewrite El; apply in_or_app; right; now left).
    destruct (Su a Ia) as (l & Dl & Ne). destruct (sch_get n sch1 (t_tasks _ _ _ _ (f_timed _ F1)) a (Rg a Ia)) as (s1 & e1 & D1 & J1).
    destruct (C143_step sch1 a s1 e1 l F1 J1 Dl Ne) as (st & sch2 & E2 & _ & D2 & O2 & L2 & F2 & Mx).
    exists sch2. split; [exact E2|]. split; [exact F2|]. econstructor; [exact O|]. exists s1, e1, st, l. repeat (split; [assumption|]). exact Mx.
  - exists sch', ids. split; [exact E|]. split; [exact Pi|]. split; [|exact O].
    assert (K : forall x, In x (ssort later_first (map key pre)) -> exists mh, x = key mh).
    { intros x Ix. apply (Permutation_in _ (Permutation_sym (ssort_perm later_first _))) in Ix. apply in_map_iff in Ix. destruct Ix as (mh & <- & _). eauto. }
    assert (So : Sorted (fun x y => later_first x y = true) (ssort later_first (map key pre))).
    { apply ssort_sorted. intros x y. unfold later_first. lia. }
    unfold ids. clear -K So. induction So as [|x l So IH Hd]; [constructor|]. cbn [map]. constructor; [apply IH; intros y Iy; apply K; now right|].
    destruct Hd as [|y l Lf]; [constructor|]. cbn [map]. constructor. intros s1 e1 s2 e2 D1 D2.
    destruct (K x (or_introl eq_refl)) as (mx & ->). destruct (K y (or_intror (or_introl eq_refl))) as (my & ->). unfold key in *. cbn [snd fst] in *.
    rewrite D1 in Lf. rewrite D2 in Lf. unfold later_first in Lf. cbn [fst snd] in Lf. lia.
Qed.

(** All the helpers: only helpers move, only to later starts, and the schedule stays feasible with the same makespan. *)
Theorem C143_correction : forall sch pre, feasible sch ->
  (forall h, In h (map snd pre) -> exists l, dget (p_succ p) h = Some l /\ l <> []) ->
  (forall h, In h (map snd pre) -> 1 <= h <= n + 2) -> exists sch',
  correction p modes sch pre = Ok sch' /\ feasible sch' /\ (forall b, ~ In b (map snd pre) -> dget sch' b = dget sch b) /\
  forall b s e, dget sch b = Some (s, e) -> exists s', dget sch' b = Some (s', s' + (e - s))%Z /\ (s <= s')%Z.
Proof.
  intros sch pre F Su Rg. pose proof (t_tasks _ _ _ _ (f_timed _ F)) as Pm. unfold correction.
  rewrite mapM_total with (g := fun mh : nat * nat => (match dget sch (snd mh) with Some se => fst se | None => 0%Z end, snd mh)).
  2:{ intros [m h] Im. cbn [snd]. destruct (sch_get n sch Pm h) as (sh & eh & D & _); [apply Rg; apply in_map_iff; exists (m, h); auto|].
      unfold dgetE. rewrite D. reflexivity. }
  cbn [bind]. set (ids := map snd _).
  assert (Ids : forall h, In h ids -> In h (map snd pre)).
  { intros h Ih. unfold ids in Ih. apply in_map_iff in Ih. destruct Ih as ([x h'] & X & Ih). cbn in X. subst h'.
    apply (Permutation_in _ (Permutation_sym (ssort_perm later_first _))) in Ih. apply in_map_iff in Ih. destruct Ih as (mh & X & Im). injection X as _ <-.
    apply in_map. exact Im. }
  destruct (foldM_total (shift p modes) (fun l0 sch1 => feasible sch1 /\ (forall b, ~ In b l0 -> dget sch1 b = dget sch b) /\
    forall b s e, dget sch b = Some (s, e) -> exists s', dget sch1 b = Some (s', s' + (e - s))%Z /\ (s <= s')%Z) (l := ids) sch) as (sch' & E & F' & O & H).
  - split; [exact F|]. split; [reflexivity|]. intros b s e D. exists s. split; [rewrite D; do 2 f_equal; lia|lia].
  - intros l0 a l1 sch1 El (F1 & O & H). assert (Ia : In a (map snd pre)) by (apply Ids; rewrite El; apply in_or_app; right; now left).
    destruct (Su a Ia) as (l & Dl & Ne). destruct (sch_get n sch1 (t_tasks _ _ _ _ (f_timed _ F1)) a (Rg a Ia)) as (s1 & e1 & D1 & J1).
    destruct (C143_step sch1 a s1 e1 l F1 J1 Dl Ne) as (st & sch2 & E2 & _ & D2 & O2 & L2 & F2 & _).
    exists sch2. split; [exact E2|]. split; [exact F2|]. split.
    + intros b Nb. rewrite O2 by (intros ->; apply Nb; apply in_or_app; right; now left). apply O. intros X. apply Nb. apply in_or_app. now left.
    + intros b s e D. destruct (H b s e D) as (s' & D' & L). destruct (Nat.eq_dec b a) as [->|Nb]; [|exists s'; rewrite O2 by exact Nb; auto].
      rewrite D1 in D'. injection D' as -> ->. exists st. rewrite D2. split; [do 2 f_equal; lia|lia].
  - exists sch'. split; [exact E|]. split; [exact F'|]. split; [|exact H]. intros b Nb. apply O. intros X. apply Nb. apply Ids. exact X.
Qed.

(** Helpers that precede and follow their main activity, which are not moved themselves: the total gap is not negative and the
    correction does not increase it. *)
Theorem C143_gap : forall sch pre post, feasible sch ->
  (forall m h, In (m, h) pre -> exists l q l', dget (p_succ p) h = Some l /\ In m l /\ dget post m = Some q /\ dget (p_succ p) m = Some l' /\ In q l' /\
     ~ In m (map snd pre) /\ ~ In q (map snd pre)) ->
  (forall h, In h (map snd pre) -> 1 <= h <= n + 2) -> exists sch' g g',
  correction p modes sch pre = Ok sch' /\ gap sch pre post = Ok g /\ gap sch' pre post = Ok g' /\ (0 <= g' <= g)%Z.
Proof.
  intros sch pre post F Hp Rg.
  destruct (C143_correction sch pre F) as (sch' & E & F' & O & H); [|exact Rg|].
  { intros h Ih. apply in_map_iff in Ih. destruct Ih as ([m h'] & X & Im). cbn in X. subst h'. destruct (Hp _ _ Im) as (l & q & l' & D & Il & _).
    exists l. split; [exact D|]. intros ->. contradiction. }
  exists sch'.
  assert (G : forall l, incl l pre -> forall g0 g0', (0 <= g0' <= g0)%Z -> exists g g',
    foldM (fun g mh => let* m := dgetE sch (fst mh) in let* h := dgetE sch (snd mh) in let* q := dgetE post (fst mh) in let* k := dgetE sch q in
      Ok (g + ((fst m - snd h) + (fst k - snd m)))%Z) g0 l = Ok g /\
    foldM (fun g mh => let* m := dgetE sch' (fst mh) in let* h := dgetE sch' (snd mh) in let* q := dgetE post (fst mh) in let* k := dgetE sch' q in
      Ok (g + ((fst m - snd h) + (fst k - snd m)))%Z) g0' l = Ok g' /\ (0 <= g' <= g)%Z).
  { induction l as [|[m h] l IH]; intros Hi g0 g0' Hg; [exists g0, g0'; cbn [foldM]; auto|].
    pose proof (Hi _ (or_introl eq_refl)) as Im. destruct (Hp _ _ Im) as (lh & q & lm & Dh & Il & Dq & Dm & Iq & Nm & Nq).
    assert (Rh : 1 <= h <= n + 2) by (apply Rg; apply in_map_iff; exists (m, h); auto).
    assert (Rm : 1 <= m <= n + 2) by (eapply (k_keys _ _ _ Tk), in_closed; [apply (k_instance _ _ _ Tk)|exact Dh|exact Il]).
    assert (Rq : 1 <= q <= n + 2) by (eapply (k_keys _ _ _ Tk), in_closed; [apply (k_instance _ _ _ Tk)|exact Dm|exact Iq]).
    pose proof (t_tasks _ _ _ _ (f_timed _ F)) as Pm.
    destruct (sch_get n sch Pm h Rh) as (sh & eh & Gh & Jh). destruct (sch_get n sch Pm m Rm) as (sm & em & Gm & Jm). destruct (sch_get n sch Pm q Rq) as (sq & eq & Gq & Jq).
    destruct (H _ _ _ Gh) as (sh' & Gh' & Lh). pose proof (O m Nm) as Gm'. pose proof (O q Nq) as Gq'. rewrite Gm in Gm'. rewrite Gq in Gq'.
    pose proof (t_precedence _ _ _ _ (f_timed _ F') _ _ _ _ _ _ _ Dh Il (dget_In _ _ Gh') (dget_In _ _ Gm')) as P1.
    pose proof (t_precedence _ _ _ _ (f_timed _ F') _ _ _ _ _ _ _ Dm Iq (dget_In _ _ Gm') (dget_In _ _ Gq')) as P2.
    cbn [foldM fst snd]. unfold dgetE. rewrite Gm, Gh, Dq, Gm', Gh'. cbn [bind]. rewrite Gq, Gq'. cbn [bind fst snd].
    unfold dgetE in IH. apply IH; [intros x Ix; apply Hi; now right|]. lia. }
  destruct (G pre (incl_refl _) 0%Z 0%Z ltac:(lia)) as (g & g' & E1 & E2 & B). exists g, g'. auto.
Qed.
End Helpers.

(** The gap is the total waiting time after the helpers before and in front of the helpers after. *)
Theorem C143_gap_value : forall sch pre post (start finish : nat -> Z) (next : nat -> nat),
  (forall m h, In (m, h) pre -> dget sch m = Some (start m, finish m) /\ dget sch h = Some (start h, finish h) /\
     dget post m = Some (next m) /\ dget sch (next m) = Some (start (next m), finish (next m))) ->
  gap sch pre post = Ok (sumZ (map (fun mh => start (fst mh) - finish (snd mh)) pre) + sumZ (map (fun mh => start (next (fst mh)) - finish (fst mh)) pre))%Z.
Proof.
  intros sch pre post start finish next H. unfold gap.
  assert (G : forall l, incl l pre -> forall g0, foldM (fun g mh => let* m := dgetE sch (fst mh) in let* h := dgetE sch (snd mh) in
      let* q := dgetE post (fst mh) in let* k := dgetE sch q in Ok (g + ((fst m - snd h) + (fst k - snd m)))%Z) g0 l =
    Ok (g0 + sumZ (map (fun mh => start (fst mh) - finish (snd mh)) l) + sumZ (map (fun mh => start (next (fst mh)) - finish (fst mh)) l))%Z).
  { induction l as [|[m h] l IH]; intros Hi g0; [cbn; f_equal; lia|]. destruct (H m h (Hi _ (or_introl eq_refl))) as (E1 & E2 & E3 & E4).
    cbn [foldM fst snd map]. unfold dgetE at 1 2 3 4. rewrite E1, E2, E3. cbn [bind]. rewrite E4. cbn [bind fst snd].
    rewrite IH by (intros x Ix; apply Hi; now right). change (sumZ (?x :: ?l)) with (x + sumZ l)%Z. f_equal. lia. }
  rewrite (G pre (incl_refl _)). f_equal.
Qed.

(** * Concrete cases *)
Local Open Scope string_scope.
Definition hx_mode (d : nat) (r : Z) : list (nat * mode) := [(1, Mode d [("R", r)])].
(** Tasks 2 and 3 are the helpers of 5 and 6; task 4 competes with them. *)
Definition hx_p : rcpsp := Rcpsp (Constant [("R", 2%Z)]) []
  [(1, hx_mode 0 0); (2, hx_mode 1 1); (3, hx_mode 3 1); (4, hx_mode 1 1); (5, hx_mode 1 0); (6, hx_mode 1 0); (7, hx_mode 0 0)]
  [(1, [2; 3; 4]); (2, [5]); (3, [6]); (4, [7]); (5, [7]); (6, [7]); (7, [])] 20 1.
Definition hx_sch : schedule := [(1, (0, 0)%Z); (3, (0, 3)%Z); (2, (1, 2)%Z); (4, (2, 3)%Z); (5, (3, 4)%Z); (6, (6, 7)%Z); (7, (7, 7)%Z)].
Definition hx_pre : list (nat * nat) := [(5, 2); (6, 3)].
Definition hx_post : list (nat * nat) := [(5, 7); (6, 7)].

Ltac seven a H := destruct a as [|[|[|[|[|[|[|[|a]]]]]]]]; [exfalso; lia| | | | | | | |exfalso; cbn in H; lia].
Lemma hx_tasks : tasks hx_p (repeat 1 5) 5.
Proof.
  constructor; [constructor| | | | |].
  - cbn. repeat constructor; cbn; tauto.
  - exact Logic.I.
  - intros a Ha. seven a Ha; eexists; eexists; split; reflexivity.
  - intros a d k m r D K Ir. cbn in D. cbn in Ir.
    repeat (destruct a as [|a]; cbn in D; try discriminate); injection D as <-;
    repeat (destruct k as [|k]; cbn in K; try discriminate); injection K as <-; destruct Ir as [<-|[]]; cbn; eauto.
  - intros a Ha. seven a Ha; cbn; eauto.
  - intros a l b D Ib. cbn in D. cbn [hx_p p_succ dkeys map fst].
    repeat (destruct a as [|a]; cbn in D; try discriminate); injection D as <-; cbn in Ib |- *; intuition lia.
  - exists (fun a => a). intros a l b D Ib. cbn in D.
    repeat (destruct a as [|a]; cbn in D; try discriminate); injection D as <-; cbn in Ib; intuition lia.
  - cbn. repeat constructor; cbn; intuition congruence.
  - reflexivity.
  - reflexivity.
  - intros a Ha. seven a Ha; cbn; congruence.
  - cbn. intuition lia.
  - intros r [].
Qed.

Lemma hx_demand : forall a r, (0 <= demand hx_p (repeat 1%nat 5%nat) a r)%Z.
Proof.
  intros a r. unfold demand. destruct (chosen hx_p (repeat 1 5) a) as [m|] eqn:E; [|lia].
  destruct (dget (m_need m) r) as [x|] eqn:D; [|lia]. unfold chosen in E.
  do 8 (destruct a as [|a]; [cbn in E; try discriminate; try (injection E as <-); apply dget_In in D; cbn in D; destruct D as [D|[]]; injection D as <- <-; lia|]).
  destruct a; discriminate.
Qed.

Lemma hx_timed : forall sch, Permutation (map fst sch) (seq 1 7) ->
  forallb (fun x : nat * (Z * Z) => let '(a, (s, e)) := x in match chosen hx_p (repeat 1 5) a with
     Some m => (0 <=? s)%Z && (e =? s + Z.of_nat (m_duration m))%Z | None => false end) sch = true ->
  forallb (fun kl : nat * list nat => forallb (fun b => forallb (fun x : nat * (Z * Z) => forallb (fun y : nat * (Z * Z) =>
     negb ((fst x =? fst kl)%nat && (fst y =? b)%nat) || (snd (snd x) <=? fst (snd y))%Z) sch) sch) (snd kl)) (p_succ hx_p) = true ->
  timed hx_p (repeat 1 5) (seq 1 7) sch.
Proof.
  intros sch P H1 H2. rewrite forallb_forall in H1. rewrite forallb_forall in H2. constructor.
  - exact P.
  - intros a s e I. specialize (H1 _ I). cbn beta iota in H1. destruct (chosen hx_p (repeat 1 5) a) as [m|]; [|discriminate]. exists m. split; [reflexivity|]. lia.
  - intros a b l sa ea sb eb D Ib Ia Ib'. apply dget_In in D. specialize (H2 _ D). rewrite forallb_forall in H2. specialize (H2 _ Ib).
    rewrite forallb_forall in H2. specialize (H2 _ Ia). rewrite forallb_forall in H2. specialize (H2 _ Ib'). cbn [fst snd] in H2.
    rewrite !Nat.eqb_refl in H2. cbn in H2. lia.
Qed.

Lemma hx_perm : Permutation (map fst hx_sch) (seq 1 7).
Proof. cbn. constructor. apply perm_swap. Qed.

Lemma hx_feasible : feasible hx_p 5 7 hx_sch.
Proof.
  constructor.
  - apply hx_timed; [exact hx_perm|vm_compute; reflexivity|vm_compute; reflexivity].
  - constructor; [|intros r t x []|intros c' r x _ []]. intros r t x _ Cp. unfold capacity_of, hx_p, p_res in Cp. apply dget_In in Cp.
    destruct Cp as [Cp|[]]. injection Cp as <- <-. unfold running, hx_sch. cbn [map].
    change (demand hx_p (repeat 1 5) 1 "R") with 0%Z. change (demand hx_p (repeat 1 5) 2 "R") with 1%Z. change (demand hx_p (repeat 1 5) 3 "R") with 1%Z.
    change (demand hx_p (repeat 1 5) 4 "R") with 1%Z. change (demand hx_p (repeat 1 5) 5 "R") with 0%Z. change (demand hx_p (repeat 1 5) 6 "R") with 0%Z.
    change (demand hx_p (repeat 1 5) 7 "R") with 0%Z.
    unfold sumZ. cbn [fold_right]. repeat match goal with |- context [if ?b then _ else _] => destruct b eqn:? end; lia.
  - exists 7%Z. cbn. auto 10.
  - intros a s e I. cbn in I. repeat (destruct I as [I|I]; [injection I as <- <- <-; lia|]). contradiction.
Qed.

Lemma hx_helpers : (forall h, In h (map snd hx_pre) -> exists l, dget (p_succ hx_p) h = Some l /\ l <> []) /\
  (forall h, In h (map snd hx_pre) -> 1 <= h <= 5 + 2).
Proof.
  split; intros h Ih; cbn in Ih; destruct Ih as [<-|[<-|[]]]; try lia; eexists; (split; [reflexivity|discriminate]).
Qed.

Definition hx_moved : schedule := [(1, (0, 0)%Z); (3, (3, 6)%Z); (2, (1, 2)%Z); (4, (2, 3)%Z); (5, (3, 4)%Z); (6, (6, 7)%Z); (7, (7, 7)%Z)].
(** The hypotheses hold: the helper 3 moves from 0 to 3 and the gap shrinks from 7 to 4. *)
Example C143_ex : tasks hx_p (repeat 1 5) 5 /\ feasible hx_p 5 7 hx_sch /\ (forall a r, (0 <= demand hx_p (repeat 1%nat 5%nat) a r)%Z) /\
  correction hx_p (repeat 1 5) hx_sch hx_pre = Ok hx_moved /\ feasible hx_p 5 7 hx_moved /\
  gap hx_sch hx_pre hx_post = Ok 7%Z /\ gap hx_moved hx_pre hx_post = Ok 4%Z.
Proof.
  assert (E : correction hx_p (repeat 1 5) hx_sch hx_pre = Ok hx_moved) by (vm_compute; reflexivity).
  destruct (C143_correction hx_p 5 _ 7 hx_tasks eq_refl hx_demand hx_sch hx_pre hx_feasible (proj1 hx_helpers) (proj2 hx_helpers)) as (sch' & E' & F' & _).
  rewrite E in E'. injection E' as <-.
  split; [exact hx_tasks|]. split; [exact hx_feasible|]. split; [exact hx_demand|]. split; [exact E|]. split; [exact F'|]. split; reflexivity.
Qed.
Example C143_gap_ex : forall m h, In (m, h) hx_pre -> exists l q l', dget (p_succ hx_p) h = Some l /\ In m l /\ dget hx_post m = Some q /\
  dget (p_succ hx_p) m = Some l' /\ In q l' /\ ~ In m (map snd hx_pre) /\ ~ In q (map snd hx_pre).
Proof.
  intros m h Im. cbn in Im. destruct Im as [Im|[Im|[]]]; injection Im as <- <-; do 3 eexists;
    (split; [reflexivity|]); (split; [now left|]); (split; [reflexivity|]); (split; [reflexivity|]); (split; [now left|]); cbn; split; intuition discriminate.
Qed.

(** The helpers do not end up as late as possible: a helper placed first may be blocked by one that leaves afterwards, so a
    feasible schedule with a smaller gap exists in which only a helper starts later. *)
Theorem C143_latest_refuted : exists p n c sch pre post sch' h s e g g',
  tasks p (repeat 1 n) n /\ p_res p = Constant c /\ feasible p n 7 sch /\ correction p (repeat 1 n) sch pre = Ok sch' /\
  In h (map snd pre) /\ dget sch' h = Some (s, e) /\ feasible p n 7 (dset sch' h (s + 1, e + 1)%Z) /\
  gap sch' pre post = Ok g /\ gap (dset sch' h (s + 1, e + 1)%Z) pre post = Ok g' /\ (g' < g)%Z.
Proof.
  destruct C143_ex as (_ & _ & _ & E & F' & _).
  exists hx_p, 5, [("R", 2%Z)], hx_sch, hx_pre, hx_post, hx_moved, 2, 1%Z, 2%Z, 4%Z, 3%Z.
  split; [exact hx_tasks|]. split; [reflexivity|]. split; [exact hx_feasible|]. split; [exact E|]. split; [now left|]. split; [reflexivity|].
  split; [|split; [reflexivity|split; [reflexivity|lia]]].
  apply (moved hx_p 5 [("R", 2%Z)] 7 hx_tasks eq_refl hx_demand hx_moved 2 1 2 F' ltac:(cbn; auto 10) [5] 2 eq_refl ltac:(discriminate) ltac:(lia)).
  - intros b sb eb [<-|[]] J. cbn in J. repeat (destruct J as [J|J]; [try discriminate; injection J as <- <-; lia|]). contradiction.
  - intros t r cap Ht D. assert (t = 2%Z) by lia. subst t. apply dget_In in D. destruct D as [D|[]]. injection D as <- <-. vm_compute. discriminate.
Qed.

Definition hx_over : schedule := [(1, (0, 0)%Z); (2, (0, 1)%Z); (3, (0, 3)%Z); (4, (0, 1)%Z); (5, (1, 2)%Z); (6, (3, 4)%Z); (7, (4, 4)%Z)].
(** From a schedule over the capacities a helper may be moved to a start before time 0, without an exception. *)
Theorem C143_negative_refuted : exists p n sch pre sch' h s e,
  tasks p (repeat 1 n) n /\ timed p (repeat 1 n) (seq 1 (n + 2)) sch /\ In h (map snd pre) /\
  correction p (repeat 1 n) sch pre = Ok sch' /\ dget sch' h = Some (s, e) /\ (s < 0)%Z.
Proof.
  exists hx_p, 5, hx_over, [(5, 2)]. eexists. exists 2, (-1)%Z, 0%Z. split; [exact hx_tasks|].
  split; [apply hx_timed; [cbn; reflexivity|vm_compute; reflexivity|vm_compute; reflexivity]|].
  split; [now left|]. split; [vm_compute; reflexivity|]. split; [reflexivity|lia].
Qed.

Print Assumptions C143_step.
Print Assumptions C143_order.
Print Assumptions C143_correction.
Print Assumptions C143_gap.
Print Assumptions C143_gap_value.
Print Assumptions C143_latest_refuted.
Print Assumptions C143_negative_refuted.
