(** C142: the resource views of a schedule. *)
From Coq Require Import String.
From Coq Require Import List Bool Arith ZArith Lia Permutation.
From Coq Require Import ZifyBool ZifyNat.
From Verif Require Import Py PyList SgsModel SgsProps SatProps ReserveProofs ConsModel.
Import ListNotations.
Local Open Scope nat_scope.

Lemma combine_self : forall A B (g : A -> B) l, combine l (map g l) = map (fun x => (x, g x)) l.
Proof. induction l as [|x l IH]; [reflexivity|]. cbn. now rewrite IH. Qed.

Lemma add_slice_map : forall a b x f N, (0 <= a)%Z -> (0 <= b)%Z ->
  add_slice a b x (map f (seq 0 N)) = map (fun t => if (a <=? Z.of_nat t)%Z && (Z.of_nat t <? b)%Z then (f t + x)%Z else f t) (seq 0 N).
Proof.
  intros a b x f N Ha Hb. unfold add_slice. rewrite map_length, seq_length, combine_self, map_map. apply map_ext_in.
  intros t It. apply in_seq in It. cbn [fst snd]. unfold clip. replace (a <? 0)%Z with false by lia. replace (b <? 0)%Z with false by lia.
  destruct ((Nat.min (Z.to_nat a) N <=? t) && (t <? Nat.min (Z.to_nat b) N)) eqn:E1; destruct ((a <=? Z.of_nat t)%Z && (Z.of_nat t <? b)%Z) eqn:E2; lia.
Qed.

Section Views.
Variables (p : rcpsp) (modes : list nat) (n : nat) (sch : schedule) (rs : list string).
(** A schedule of all the tasks from time 0 on *)
Hypothesis Tk : tasks p modes n.
Hypothesis F : Permutation (map fst sch) (seq 1 (n + 2)).
Hypothesis St : forall a s e, In (a, (s, e)) sch -> (0 <= s <= e)%Z.
Hypothesis Known : incl rs (res_names p).

Lemma mode_need : forall a s e, In (a, (s, e)) sch -> exists i k, a = S i /\ lget (1 :: modes ++ [1]) i = Ok k /\
  forall r, In r rs -> need_of p a k r = Ok (demand p modes a r).
Proof.
  intros a s e I. assert (R : 1 <= a <= n + 2).
  { assert (X : In a (seq 1 (n + 2))) by (eapply Permutation_in; [exact F|]; apply in_map_iff; exists (a, (s, e)); auto). apply in_seq in X. lia. }
  destruct a as [|i]; [lia|].
  pose proof (k_exist _ _ _ Tk _ R) as Ch. pose proof (k_sink _ _ _ Tk) as Sk. pose proof (k_modes _ _ _ Tk) as Lm.
  assert (E : exists k, lget (1 :: modes ++ [1]) i = Ok k /\ (if (S i =? 1) || (S i =? p_sink p) then Some 1 else nth_error modes (S i - 2)) = Some k).
  { destruct i as [|i].
    - exists 1. split; reflexivity.
    - destruct (S (S i) =? p_sink p) eqn:Es.
      + exists 1. split; [|reflexivity]. apply lget_ok. cbn [nth_error]. rewrite nth_error_app2 by lia.
        replace (i - length modes) with 0 by lia. reflexivity.
      + destruct (nth_error modes i) as [k|] eqn:Ek; [|apply nth_error_None in Ek; lia]. exists k. split.
        * apply lget_ok. cbn [nth_error]. rewrite nth_error_app1 by lia. exact Ek.
        * cbn [orb Nat.eqb]. cbn. rewrite Nat.sub_0_r. exact Ek. }
  destruct E as (k & E1 & E2). exists i, k. split; [reflexivity|]. split; [exact E1|].
  intros r Ir. unfold need_of, demand. unfold chosen in *. rewrite E2 in *.
  destruct (dget (p_modes p) (S i)) as [d|] eqn:Ed; [|congruence]. unfold dgetE. rewrite Ed. cbn [bind].
  destruct (dget d k) as [m|] eqn:Em; [|congruence]. cbn [bind].
  destruct (in_need _ (k_instance _ _ _ Tk) _ _ _ _ r Ed Em (Known _ Ir)) as (x & Ex). rewrite Ex. reflexivity.
Qed.

Variable mk : Z.
Hypothesis Span : makespan p sch mk.

(** The value drawn at date [t]: what the tasks that run just before [t] use (future view), or just after *)
Definition at_date (future : bool) (r : string) (t : Z) : Z := running p modes sch r (if future then t - 1 else t).
Definition dates : list Z := map Z.of_nat (seq 0 (Z.to_nat (mk + 1))).

Lemma mk_pos : (0 <= mk)%Z.
Proof. destruct Span as (s & I). specialize (St _ _ _ I). lia. Qed.

(** The matrix holds what the running tasks use. *)
Theorem C142_consumption : forall future,
  consumption p modes sch rs future = Ok (map (fun r => map (at_date future r) dates) rs, dates).
Proof.
  intros future. unfold consumption. unfold dkeys at 1. rewrite (perm_max _ (n + 2) F) by lia. cbn [bind].
  destruct Span as (s0 & Sp). rewrite (k_sink _ _ _ Tk) in Sp. unfold dgetE. rewrite (In_dget _ _ _ (sch_nodup n sch F) Sp). cbn [bind snd].
  pose proof mk_pos as Mp. replace (mk + 1 <? 0)%Z with false by lia.
  set (N := Z.to_nat (mk + 1)). set (sh := fun t : nat => if future then (Z.of_nat t - 1)%Z else Z.of_nat t).
  destruct (foldM_total (add_task p modes rs future)
    (fun l rows => rows = map (fun r => map (fun t => running p modes l r (sh t)) (seq 0 N)) rs) (l := sch) (repeat (repeat 0%Z N) (length rs))) as (rows & E & R).
  - assert (Z0 : repeat 0%Z N = map (fun t => running p modes [] EmptyString (sh t)) (seq 0 N)).
    { unfold running. cbn [map]. generalize N. intros N'. generalize 0 as b. induction N' as [|k IH]; intros b; [reflexivity|]. cbn [repeat seq map]. f_equal. apply IH. }
    rewrite Z0. clear. induction rs as [|r l IH]; [reflexivity|]. cbn [length repeat map]. rewrite IH. reflexivity.
  - intros l0 [a [s e]] l1 rows El ->. unfold add_task.
    assert (I : In (a, (s, e)) sch) by (rewrite El; apply in_or_app; right; now left).
    destruct (mode_need a s e I) as (i & k & -> & Ek & En). specialize (St _ _ _ I).
    destruct rs as [|r0 rs'] eqn:Ers; [exists []; auto|]. rewrite <- Ers in *. rewrite Ek. cbn [bind].
    rewrite combine_self. eexists. split; [|reflexivity].
    rewrite mapM_total with (g := fun rr : string * list Z => if future then add_slice (s + 1) (e + 1) (demand p modes (S i) (fst rr)) (snd rr)
       else add_slice s e (demand p modes (S i) (fst rr)) (snd rr)).
    + rewrite map_map. f_equal. apply map_ext. intros r. cbn [fst snd].
      destruct future; rewrite add_slice_map by lia; apply map_ext; intros t; unfold sh, running; rewrite map_app, sumZ_app; cbn [map];
        change (sumZ [?x]) with (x + 0)%Z; repeat match goal with |- context [if ?b then _ else _] => destruct b eqn:? end; lia.
    + intros [r row] Ir. apply in_map_iff in Ir. destruct Ir as (r' & X & Ir). injection X as <- _. unfold add_use. cbn [fst snd].
      rewrite (En _ Ir). reflexivity.
  - rewrite E. cbn [bind]. unfold dates. fold N. rewrite R. do 2 f_equal. apply map_ext. intros r. rewrite map_map. apply map_ext. intros t.
    unfold at_date, sh. destruct future; reflexivity.
Qed.

(** The staircase: at each date the use before and the use after *)
Theorem C142_nice : nice p modes sch rs = Ok (map (fun r =>
  (flat_map (fun t => [t; t]) dates, flat_map (fun t => [running p modes sch r (t - 1); running p modes sch r t]) dates)) rs).
Proof.
  unfold nice. rewrite !C142_consumption. cbn [bind fst snd].
  assert (G : forall l pre, rs = pre ++ l -> mapM (fun i => let* rf := lget (map (fun r => map (at_date true r) dates) rs) i in
     let* rq := lget (map (fun r => map (at_date false r) dates) rs) i in merge_row dates rf rq) (seq (length pre) (length l)) =
     Ok (map (fun r => (flat_map (fun t => [t; t]) dates, flat_map (fun t => [running p modes sch r (t - 1); running p modes sch r t]) dates)) l)).
  { induction l as [|r l IH]; intros pre Ers; [reflexivity|]. cbn [length seq mapM].
    assert (En : forall B (f : string -> B), lget (map f rs) (length pre) = Ok (f r)).
    { intros B f. apply lget_ok. apply map_nth_error. rewrite Ers, nth_error_app2, Nat.sub_diag by lia. reflexivity. }
    rewrite !En. cbn [bind].
    replace (merge_row dates (map (at_date true r) dates) (map (at_date false r) dates)) with
      (Ok (flat_map (fun t => [t; t]) dates, flat_map (fun t => [running p modes sch r (t - 1); running p modes sch r t]) dates)).
    - cbn [bind]. specialize (IH (pre ++ [r])). rewrite app_length in IH. cbn [length] in IH. rewrite Nat.add_1_r in IH. rewrite IH; [reflexivity|].
      rewrite Ers, <- app_assoc. reflexivity.
    - symmetry. unfold merge_row. unfold dates. rewrite map_length, seq_length, combine_self.
      rewrite mapM_total with (g := fun it : nat * Z => ([snd it; snd it], [running p modes sch r (snd it - 1); running p modes sch r (snd it)])).
      + cbn [bind]. rewrite !map_map. cbn [fst snd]. rewrite !flat_map_concat_map, !map_map. reflexivity.
      + intros [i t] Ii. apply in_map_iff in Ii. destruct Ii as (i' & X & Ii). injection X as <- <-. apply in_seq in Ii. cbn [fst snd].
        assert (Ed : forall f : Z -> Z, lget (map f (map Z.of_nat (seq 0 (Z.to_nat (mk + 1))))) i' = Ok (f (Z.of_nat i'))).
        { intros f. apply lget_ok. do 2 apply map_nth_error. apply nth_error_seq. lia. }
        rewrite !Ed. cbn [bind]. reflexivity. }
  exact (G rs [] eq_refl).
Qed.

(** A schedule that respects the capacities stays under them in the view, and the area is the work asked for. *)
Theorem C142_peak : forall future rows times k r row x c, within p modes sch -> consumption p modes sch rs future = Ok (rows, times) ->
  nth_error rs k = Some r -> nth_error rows k = Some row -> In x row -> p_res p = Constant c -> ~ In r (p_nonren p) -> (forall y, In (r, y) c -> (0 <= y)%Z) ->
  exists cap, dget c r = Some cap /\ (x <= cap)%Z.
Proof.
  intros future rows times k r row x c Wi E Er Ew Ix Cc Nr Pos. rewrite C142_consumption in E. injection E as <- <-.
  rewrite (map_nth_error _ _ _ Er) in Ew. injection Ew as <-. apply in_map_iff in Ix. destruct Ix as (t & <- & It).
  unfold dates in It. apply in_map_iff in It. destruct It as (j & <- & Ij).
  assert (Ir : In r (dkeys c)) by (apply nth_error_In in Er; apply Known in Er; unfold res_names in Er; rewrite Cc in Er; exact Er).
  destruct (dget c r) as [cap|] eqn:D; [|exfalso; exact (proj1 (dget_None _ _) D Ir)]. exists cap. split; [reflexivity|].
  assert (Cp : forall q, capacity_of p r q = Some cap) by (intros q; unfold capacity_of; rewrite Cc; exact D).
  unfold at_date. destruct future; [|eapply r_running; eauto]. destruct j as [|j].
  - replace (running p modes sch r (Z.of_nat 0 - 1)) with 0%Z; [apply (Pos cap); apply dget_In in D; exact D|].
    unfold running. symmetry. assert (G : forall l, incl l sch -> sumZ (map (fun x : nat * (Z * Z) => let '(a, (s, e)) := x in
      if (s <=? Z.of_nat 0 - 1)%Z && (Z.of_nat 0 - 1 <? e)%Z then demand p modes a r else 0%Z) l) = 0%Z).
    { induction l as [|[a [s e]] l IH]; intros Hi; [reflexivity|]. cbn [map]. change (sumZ (?y :: ?m)) with (y + sumZ m)%Z.
      rewrite IH by (intros z Iz; apply Hi; now right). specialize (St _ _ _ (Hi _ (or_introl eq_refl))).
      destruct ((s <=? Z.of_nat 0 - 1)%Z && (Z.of_nat 0 - 1 <? e)%Z) eqn:B; lia. }
    apply G, incl_refl.
  - replace (Z.of_nat (S j) - 1)%Z with (Z.of_nat j) by lia. eapply r_running; eauto.
Qed.

Theorem C142_area : forall future rows times k r row, (forall a s e, In (a, (s, e)) sch -> (e <= mk)%Z) ->
  consumption p modes sch rs future = Ok (rows, times) -> nth_error rs k = Some r -> nth_error rows k = Some row ->
  sumZ row = sumZ (map (fun x : nat * (Z * Z) => let '(a, (s, e)) := x in ((e - s) * demand p modes a r)%Z) sch).
Proof.
  intros future rows times k r row En E Er Ew. rewrite C142_consumption in E. injection E as <- <-.
  rewrite (map_nth_error _ _ _ Er) in Ew. injection Ew as <-. unfold dates. rewrite map_map. pose proof mk_pos as Mp.
  unfold at_date, running.
  rewrite (sum_swap _ _ (fun (x : nat * (Z * Z)) (t : nat) => let '(a, (s, e)) := x in
    if (s <=? (if future then Z.of_nat t - 1 else Z.of_nat t))%Z && ((if future then Z.of_nat t - 1 else Z.of_nat t) <? e)%Z then demand p modes a r else 0%Z) sch).
  apply sumZ_map_ext. intros [a [s e]] I. specialize (St _ _ _ I). specialize (En _ _ _ I). destruct future.
  - replace ((e - s) * demand p modes a r)%Z with ((e + 1 - (s + 1)) * demand p modes a r)%Z by (f_equal; lia).
    rewrite <- (sum_window (s + 1) (e + 1) (demand p modes a r) (Z.to_nat (mk + 1))) by lia. apply sumZ_map_ext. intros t _.
    destruct ((s <=? Z.of_nat t - 1)%Z && (Z.of_nat t - 1 <? e)%Z) eqn:B1; destruct ((s + 1 <=? Z.of_nat t)%Z && (Z.of_nat t <? e + 1)%Z) eqn:B2; lia.
  - apply sum_window; lia.
Qed.
End Views.

(** The differences of start times, for the tasks of the first schedule *)
Theorem C142_diff : forall sch1 sch2, NoDup (map fst sch1) ->
  match all_diff sch1 sch2 with
  | Ok d => dkeys d = dkeys sch1 /\ forall a s1 e1, In (a, (s1, e1)) sch1 -> exists s2 e2, dget sch2 a = Some (s2, e2) /\ dget d a = Some (s1 - s2)%Z
  | Err e => e = KeyError /\ exists a, In a (dkeys sch1) /\ dget sch2 a = None
  end.
Proof.
  intros sch1 sch2 N. unfold all_diff.
  assert (G : forall l pre d, dkeys sch1 = pre ++ l -> dkeys d = pre ->
    (forall a s1 e1, In a pre -> In (a, (s1, e1)) sch1 -> exists s2 e2, dget sch2 a = Some (s2, e2) /\ dget d a = Some (s1 - s2)%Z) ->
    match foldM (fun d a => let* x := dgetE sch1 a in let* y := dgetE sch2 a in Ok (dset d a (fst x - fst y)%Z)) d l with
    | Ok d => dkeys d = dkeys sch1 /\ forall a s1 e1, In (a, (s1, e1)) sch1 -> exists s2 e2, dget sch2 a = Some (s2, e2) /\ dget d a = Some (s1 - s2)%Z
    | Err e => e = KeyError /\ exists a, In a (dkeys sch1) /\ dget sch2 a = None
    end).
  { induction l as [|a l IH]; intros pre d Ek Ed H; cbn [foldM].
    - rewrite app_nil_r in Ek. split; [congruence|]. intros a s1 e1 I. apply (H a s1 e1); [|exact I]. rewrite <- Ek. apply in_map_iff. exists (a, (s1, e1)). auto.
    - assert (Ia : In a (dkeys sch1)) by (rewrite Ek; apply in_or_app; right; now left).
      pose proof Ia as Ia'. apply in_map_iff in Ia'. destruct Ia' as ([a' [s1 e1]] & X & I1). cbn in X. subst a'.
      unfold dgetE. rewrite (In_dget _ _ _ N I1). cbn [bind]. destruct (dget sch2 a) as [[s2 e2]|] eqn:D2; cbn [bind]; [|split; [reflexivity|eauto]].
      assert (Na : ~ In a (dkeys d)).
      { rewrite Ed. intros X. change (map fst sch1) with (dkeys sch1) in N. rewrite Ek in N. apply NoDup_remove_2 in N. apply N. apply in_or_app. now left. }
      unfold dgetE in IH. apply (IH (pre ++ [a])).
      + rewrite <- app_assoc. exact Ek.
      + rewrite <- Ed. clear -Na. induction d as [|[k v] d IHd]; [reflexivity|]. cbn [dset]. destruct (pyeqb_spec a k) as [->|Ne]; [exfalso; apply Na; now left|].
        cbn. f_equal. apply IHd. intros X. apply Na. now right.
      + intros b sb eb Ib J. cbn [fst]. apply in_app_or in Ib. destruct (Nat.eq_dec b a) as [->|Ne].
        * pose proof (In_dget _ _ _ N I1) as Q1. pose proof (In_dget _ _ _ N J) as Q2. rewrite Q1 in Q2. injection Q2 as -> ->.
          exists s2, e2. split; [exact D2|]. apply dget_dset_same.
        * destruct Ib as [Ib|[Ib|[]]]; [|congruence]. destruct (H b sb eb Ib J) as (u & v & Q1 & Q2). exists u, v. split; [exact Q1|].
          rewrite dget_dset_other; [exact Q2|congruence]. }
  apply (G (dkeys sch1) [] []); [reflexivity|reflexivity|]. intros a s1 e1 [].
Qed.

(** * The graph *)
Lemma least_ok : forall l m, least_of l = Ok m -> In m l /\ forall x, In x l -> m <= x.
Proof.
  intros [|x l] m H; [discriminate|]. injection H as <-. revert x. induction l as [|y l IH]; intros x; cbn.
  - split; [auto|]. intros z [<-|[]]. lia.
  - destruct (IH (Nat.min x y)) as [A B]. split.
    + destruct A as [A|A]; [|auto]. rewrite <- A at 1 2. destruct (Nat.min_dec x y) as [E|E]; rewrite <- A, E; auto.
    + intros z Iz. pose proof (B _ (or_introl eq_refl)). destruct Iz as [<-|[<-|Iz]]; [lia|lia|]. apply B. now right.
Qed.

Lemma most_ok : forall l m, most_of l = Ok m -> In m l /\ forall x, In x l -> x <= m.
Proof.
  intros [|x l] m H; [discriminate|]. injection H as <-. revert x. induction l as [|y l IH]; intros x; cbn.
  - split; [auto|]. intros z [<-|[]]. lia.
  - destruct (IH (Nat.max x y)) as [A B]. split.
    + destruct A as [A|A]; [|auto]. destruct (Nat.max_dec x y) as [E|E]; rewrite <- A, E; auto.
    + intros z Iz. pose proof (B _ (or_introl eq_refl)). destruct Iz as [<-|[<-|Iz]]; [lia|lia|]. apply B. now right.
Qed.

(** One edge per precedence, with the least and the greatest duration of the first task *)
Theorem C142_edges : forall p es, NoDup (dkeys (p_succ p)) -> graph_edges p = Ok es -> forall a b lo hi,
  In (a, b, (lo, hi)) es <-> exists l d, dget (p_succ p) a = Some l /\ In b l /\ dget (p_modes p) a = Some d /\
    (exists k m, In (k, m) d /\ m_duration m = lo) /\ (exists k m, In (k, m) d /\ m_duration m = hi) /\
    forall k m, In (k, m) d -> lo <= m_duration m <= hi.
Proof.
  intros p es N E a b lo hi. unfold graph_edges in E. apply bind_ok in E. destruct E as (ll & E & X). injection X as <-.
  apply mapM_ok in E.
  assert (One : forall (a' b' : nat) (e : nat * nat * (nat * nat)), (let* d := dgetE (p_modes p) a' in
              let* lo := least_of (map (fun km => m_duration (snd km)) d) in
              let* hi := most_of (map (fun km => m_duration (snd km)) d) in Ok (a', b', (lo, hi))) = Ok e ->
    forall lo hi, e = (a', b', (lo, hi)) <-> exists d, dget (p_modes p) a' = Some d /\
      (exists k m, In (k, m) d /\ m_duration m = lo) /\ (exists k m, In (k, m) d /\ m_duration m = hi) /\
      forall k m, In (k, m) d -> lo <= m_duration m <= hi).
  { intros a' b' e H lo' hi'. unfold dgetE in H. destruct (dget (p_modes p) a') as [d|] eqn:D; [|discriminate]. cbn [bind] in H.
    apply bind_ok in H. destruct H as (x & Hx & H). apply bind_ok in H. destruct H as (y & Hy & H). injection H as <-.
    apply least_ok in Hx. apply most_ok in Hy. destruct Hx as [X1 X2]. destruct Hy as [Y1 Y2].
    assert (Im : forall k m, In (k, m) d -> In (m_duration m) (map (fun km : nat * mode => m_duration (snd km)) d)).
    { intros k m I. apply in_map_iff. exists (k, m). auto. }
    apply in_map_iff in X1. destruct X1 as ([kx mx] & Ex & Ix). apply in_map_iff in Y1. destruct Y1 as ([ky my] & Ey & Iy). cbn in Ex, Ey.
    split.
    - intros Q. injection Q as <- <-. exists d. split; [reflexivity|]. split; [eauto|]. split; [eauto|]. intros k m I. split; [apply X2|apply Y2]; eauto.
    - intros (d' & Q & (k1 & m1 & I1 & E1) & (k2 & m2 & I2 & E2) & Bd). injection Q as <-.
      pose proof (X2 _ (Im _ _ I1)). pose proof (Y2 _ (Im _ _ I2)). pose proof (Bd _ _ Ix). pose proof (Bd _ _ Iy). do 2 f_equal; lia. }
  rewrite in_concat. split.
  - intros (l' & Il' & Ie). apply In_nth_error in Il'. destruct Il' as (i & Ei).
    destruct (mapM_nth _ _ _ (proj2 (mapM_ok _ _ _) E) Ei) as ([a' l] & Ea & El). cbn [fst snd] in El.
    apply In_nth_error in Ie. destruct Ie as (j & Ej). destruct (mapM_nth _ _ _ El Ej) as (b' & Eb & Hb).
    pose proof (One _ _ _ Hb lo hi) as Q. assert (Hab : a' = a /\ b' = b).
    { unfold dgetE in Hb. destruct (dget (p_modes p) a') as [d|]; [|discriminate]. cbn [bind] in Hb. apply bind_ok in Hb. destruct Hb as (x & _ & Hb).
      apply bind_ok in Hb. destruct Hb as (y & _ & Hb). injection Hb as -> -> _ _. auto. }
    destruct Hab as [-> ->]. destruct (proj1 Q eq_refl) as (d & D). exists l, d. split; [|split; [apply nth_error_In in Eb; exact Eb|exact D]].
    apply In_dget; [exact N|]. apply nth_error_In in Ea. exact Ea.
  - intros (l & d & Dl & Ib & D). apply dget_In in Dl. apply In_nth_error in Dl. destruct Dl as (i & Ei).
    assert (exists l', nth_error ll i = Some l' /\ Forall2 (fun b e => (let* d := dgetE (p_modes p) a in
              let* lo := least_of (map (fun km => m_duration (snd km)) d) in
              let* hi := most_of (map (fun km => m_duration (snd km)) d) in Ok (a, b, (lo, hi))) = Ok e) l l') as (l' & Ei' & Fl).
    { clear -E Ei. revert i Ei. induction E as [|al l' sl ll' H E IH]; intros [|i] Ei; try discriminate.
      - cbn in Ei. injection Ei as ->. exists l'. split; [reflexivity|]. apply mapM_ok in H. exact H.
      - cbn in Ei |- *. apply IH. exact Ei. }
    exists l'. split; [apply nth_error_In in Ei'; exact Ei'|]. clear -Fl Ib One D. induction Fl as [|b' e l l' H Fl IH]; [contradiction|].
    destruct Ib as [->|Ib]; [left|right; apply IH; exact Ib]. apply (One _ _ _ H). exists d. exact D.
Qed.

Inductive path (es : list (nat * nat * (nat * nat))) : nat -> nat -> nat -> Prop :=
  | path_nil : forall a, path es a a 0
  | path_step : forall a b c lo hi w, In (a, b, (lo, hi)) es -> path es b c w -> path es a c (lo + w).

(** The lengths of the paths bound every feasible schedule from below. *)
Theorem C142_bound : forall p modes tasks sch es, NoDup (dkeys (p_succ p)) -> graph_edges p = Ok es -> timed p modes tasks sch ->
  (forall a l b, dget (p_succ p) a = Some l -> In b l -> In b (map fst sch)) ->
  forall a c w, path es a c w -> forall sa ea sc ec, In (a, (sa, ea)) sch -> In (c, (sc, ec)) sch -> NoDup (map fst sch) -> (sa + Z.of_nat w <= sc)%Z.
Proof.
  intros p modes tasks sch es N E [_ Tl Tp] Cl a c w P. induction P as [a|a b c lo hi w I P IH]; intros sa ea sc ec Ia Ic Ns.
  - pose proof (In_dget _ _ _ Ns Ia) as D1. pose proof (In_dget _ _ _ Ns Ic) as D2. rewrite D1 in D2. injection D2 as -> ->. lia.
  - apply (C142_edges p es N E) in I. destruct I as (l & d & Dl & Ib & Dd & _ & _ & Bd).
    pose proof (Cl _ _ _ Dl Ib) as Kb. apply in_map_iff in Kb. destruct Kb as ([b' [sb eb]] & X & Jb). cbn in X. subst b'.
    pose proof (IH _ _ _ _ Jb Ic Ns) as H1. pose proof (Tp _ _ _ _ _ _ _ Dl Ib Ia Jb) as H2. destruct (Tl _ _ _ Ia) as (m & Cm & _ & Ee).
    assert (Lm : lo <= m_duration m).
    { unfold chosen in Cm. rewrite Dd in Cm. destruct (if (a =? 1) || (a =? p_sink p) then Some 1 else nth_error modes (a - 2)) as [k|]; [|discriminate].
      apply dget_In in Cm. apply (Bd _ _ Cm). }
    lia.
Qed.

(** Where every task with successors has a mode the graph is built. *)
Theorem C142_built : forall p, (forall a l, In (a, l) (p_succ p) -> l <> [] -> exists d, dget (p_modes p) a = Some d /\ d <> []) ->
  exists es, graph_edges p = Ok es.
Proof.
  intros p H. unfold graph_edges.
  assert (G : forall sl, incl sl (p_succ p) -> exists ll, mapM (fun al => mapM (fun b =>
              let* d := dgetE (p_modes p) (fst al) in
              let* lo := least_of (map (fun km => m_duration (snd km)) d) in
              let* hi := most_of (map (fun km => m_duration (snd km)) d) in
              Ok (fst al, b, (lo, hi))) (snd al)) sl = Ok ll).
  { induction sl as [|[a l] sl IH]; intros I; [exists []; reflexivity|]. cbn [mapM fst snd].
    destruct IH as (ll & E); [intros z Iz; apply I; now right|]. rewrite E. destruct l as [|b l]; [cbn [mapM bind]; eauto|].
    destruct (H a (b :: l) (I _ (or_introl eq_refl)) ltac:(discriminate)) as ([|[k m] d] & D & Nd); [congruence|].
    unfold dgetE. rewrite D. cbn [bind]. cbn [map least_of most_of bind fst snd].
    erewrite mapM_total; [cbn [bind]; eauto|]. intros x _. cbn. reflexivity. }
  destruct (G _ (incl_refl _)) as (ll & E). rewrite E. cbn [bind]. eauto.
Qed.

(** The hypotheses hold on the example of C38, whose resource R is full from 3 to 5. *)
Example C142_ex : exists rows, consumption ex_p [1; 2; 1] ex_sch ["R"; "N"]%string true = Ok (rows, dates 7) /\
  rows = [[0; 1; 1; 1; 2; 2; 1; 1]; [0; 1; 1; 1; 1; 1; 1; 1]]%Z /\ makespan ex_p ex_sch 7 /\ incl ["R"; "N"]%string (res_names ex_p) /\
  tasks ex_p [1; 2; 1] 3 /\ Permutation (map fst ex_sch) (seq 1 (3 + 2)) /\ (forall a s e, In (a, (s, e)) ex_sch -> (0 <= s <= e /\ e <= 7)%Z) /\
  (forall x, In x [0; 1; 1; 1; 2; 2; 1; 1]%Z -> (x <= 2)%Z).
Proof.
  assert (P : Permutation (map fst ex_sch) (seq 1 (3 + 2))) by (cbn; constructor; apply perm_swap).
  assert (S : forall a s e, In (a, (s, e)) ex_sch -> (0 <= s <= e /\ e <= 7)%Z).
  { intros a s e I. cbn in I. repeat (destruct I as [I|I]; [injection I as <- <- <-; lia|]). contradiction. }
  assert (S' : forall a s e, In (a, (s, e)) ex_sch -> (0 <= s <= e)%Z) by (intros a s e I; specialize (S a s e I); lia).
  assert (K : incl ["R"; "N"]%string (res_names ex_p)) by (intros r Ir; exact Ir).
  assert (M : makespan ex_p ex_sch 7) by (exists 7%Z; cbn; auto 10).
  pose proof (C142_consumption ex_p [1; 2; 1] 3 ex_sch _ ex_tasks P S' K 7 M true) as E.
  eexists. split; [exact E|]. split; [vm_compute; reflexivity|]. split; [exact M|]. split; [exact K|]. split; [exact ex_tasks|].
  split; [exact P|]. split; [exact S|]. intros x Ix.
  destruct C38_ex as (_ & _ & Wi & _).
  destruct (C142_peak ex_p [1; 2; 1] 3 ex_sch _ ex_tasks P S' K 7 M true _ _ 0 "R"%string [0; 1; 1; 1; 2; 2; 1; 1]%Z x [("R", 2%Z); ("N", 3%Z)]%string Wi E eq_refl) as (c & D & L).
  - vm_compute. reflexivity.
  - exact Ix.
  - reflexivity.
  - cbn. intros [X|[]]; discriminate.
  - intros y I. cbn in I. destruct I as [I|[I|[]]]; injection I as <-; lia.
  - vm_compute in D. injection D as <-. exact L.
Qed.

Example C142_graph_ex : exists es, graph_edges ex_p = Ok es /\ In (3, 5, (1, 3)) es /\ path es 1 5 4 /\
  timed ex_p [1; 2; 1] (seq 1 5) ex_sch /\ (0 + Z.of_nat 4 <= 7)%Z.
Proof.
  assert (E : exists es, graph_edges ex_p = Ok es) by (vm_compute; eauto). destruct E as (es & E). exists es. split; [exact E|].
  assert (E' := E). vm_compute in E'. injection E' as <-. split; [cbn; auto 20|].
  assert (P : path [(1, 2, (0, 0)); (1, 3, (0, 0)); (1, 4, (0, 0)); (2, 4, (2, 2)); (2, 5, (2, 2)); (3, 5, (1, 3)); (4, 5, (2, 2))] 1 5 4).
  { refine (path_step _ 1 2 5 0 0 4 _ (path_step _ 2 4 5 2 2 2 _ (path_step _ 4 5 5 2 2 0 _ (path_nil _ 5)))); cbn; auto 20. }
  split; [exact P|]. destruct C38_ex as (_ & T & _). split; [exact T|].
  apply (C142_bound ex_p [1; 2; 1] (seq 1 5) ex_sch _ ltac:(repeat constructor; cbn; intuition discriminate) E T) with (a := 1) (c := 5) (ea := 0%Z) (ec := 7%Z); auto.
  - intros a l b D Ib. apply dget_In in D. cbn in D.
    repeat (destruct D as [D|D]; [injection D as <- <-; cbn in Ib |- *; intuition|]). contradiction.
  - cbn; auto.
  - cbn; auto 10.
  - repeat constructor; cbn; intuition discriminate.
Qed.

(** A schedule whose second task is missing elsewhere *)
Example C142_diff_ex : NoDup (map fst ex_sch) /\ all_diff ex_sch [(1, (0, 0)%Z)] = Err KeyError /\
  all_diff [(1, (0, 0)%Z); (3, (4, 7)%Z)] ex_sch = Ok [(1, 0%Z); (3, 4%Z)].
Proof. split; [repeat constructor; cbn; intuition discriminate|split; reflexivity]. Qed.

Print Assumptions C142_consumption.
Print Assumptions C142_nice.
Print Assumptions C142_peak.
Print Assumptions C142_area.
Print Assumptions C142_diff.
Print Assumptions C142_edges.
Print Assumptions C142_built.
Print Assumptions C142_bound.
