(** Properties of the feasibility check of schedules: C39. *)
From Coq Require Import String.
From Coq Require Import List Bool Arith ZArith Lia Permutation.
From Coq Require Import ZifyBool ZifyNat.
From Verif Require Import Py PyList SgsModel TspProofs SgsProofs SgsTotalProofs SgsProps.
Import ListNotations.

(** * Specification vocabulary *)
(** An instance whose tasks are numbered 1 to [n + 2], all of them with existing modes. *)
Record tasks (p : rcpsp) (modes : list nat) (n : nat) : Prop := {
  k_instance : instance p;
  k_sink : p_sink p = n + 2;
  k_modes : length modes = n;
  k_exist : forall a, 1 <= a <= n + 2 -> chosen p modes a <> None;
  k_keys : forall a, In a (dkeys (p_succ p)) -> 1 <= a <= n + 2;
  k_nonren : incl (p_nonren p) (res_names p)
}.
(** What all the tasks together need. *)
Definition total_demand (p : rcpsp) (modes : list nat) (r : string) : Z :=
  sumZ (map (fun a => demand p modes a r) (seq 1 (p_sink p))).
(** The end of the task with the largest number. *)
Definition makespan (p : rcpsp) (sch : schedule) (e : Z) : Prop := exists s, In (p_sink p, (s, e)) sch.

Definition ordered (p : rcpsp) (sch : schedule) : Prop :=
  forall a b l sa ea sb eb, dget (p_succ p) a = Some l -> In b l ->
    In (a, (sa, ea)) sch -> In (b, (sb, eb)) sch -> (ea <= sb)%Z.
Definition non_renewables_fit (p : rcpsp) (modes : list nat) : Prop :=
  forall r c, In r (p_nonren p) -> capacity_of p r 0 = Some c -> (total_demand p modes r <= c)%Z.

(** * Links *)
Lemma allM_spec : forall A (f : A -> res bool) (P : A -> Prop) l,
  (forall x, In x l -> exists b, f x = Ok b /\ (b = true <-> P x)) ->
  exists b, allM f l = Ok b /\ (b = true <-> forall x, In x l -> P x).
Proof.
  intros A f P l. induction l as [|x l IH]; intros H; cbn [allM].
  - exists true. split; auto. split; auto. intros _ x [].
  - destruct (H x (or_introl eq_refl)) as [b [E B]]. rewrite E. cbn [bind]. destruct b.
    + destruct IH as [b' [E' B']]; [intros; apply H; now right|]. exists b'. split; auto. rewrite B'. split.
      * intros K y [<-|Iy]; auto. now apply B.
      * intros K y Iy. apply K. now right.
    + exists false. split; auto. split; [discriminate|]. intros K. apply B. apply K. now left.
Qed.

Lemma perm_max : forall l n, Permutation l (seq 1 n) -> 0 < n -> max_key l = Ok n.
Proof.
  assert (B : forall l x, (forall y, In y (x :: l) -> y <= fold_left Nat.max l x) /\ In (fold_left Nat.max l x) (x :: l)).
  { induction l as [|z l IH]; intros x; cbn [fold_left].
    - split; [intros y [<-|[]]; auto|now left].
    - destruct (IH (Nat.max x z)) as [U I]. split.
      + intros y [<-|[<-|Iy]].
        * specialize (U _ (or_introl eq_refl)). lia.
        * specialize (U _ (or_introl eq_refl)). lia.
        * apply U. now right.
      + destruct I as [I|I]; [|now right; right].
        destruct (Nat.max_spec x z) as [[_ E]|[_ E]]; rewrite E in *; [right; left|left]; auto. }
  intros l n P H. destruct l as [|x l]; [apply Permutation_length in P; rewrite seq_length in P; cbn in P; lia|].
  cbn [max_key]. f_equal. destruct (B l x) as [U I]. apply Nat.le_antisymm.
  - apply (Permutation_in _ P) in I. apply in_seq in I. lia.
  - apply U. apply (Permutation_in _ (Permutation_sym P)). apply in_seq. lia.
Qed.

Section Check.
Variables (p : rcpsp) (modes : list nat) (n : nat) (sch : schedule).
Hypothesis T : tasks p modes n.
Hypothesis F : Permutation (map fst sch) (seq 1 (n + 2)).
Let me := extend_modes modes.

Lemma succ_perm : Permutation (dkeys (p_succ p)) (seq 1 (n + 2)).
Proof.
  apply NoDup_Permutation; [apply T|apply seq_NoDup|]. intros a. rewrite in_seq. split.
  - intros I. apply (k_keys _ _ _ T) in I. lia.
  - intros I. destruct (in_succ p (k_instance _ _ _ T) a) as [l D]; [rewrite (k_sink _ _ _ T); lia|].
    apply dget_In in D. eapply in_map in D. exact D.
Qed.

Lemma sch_nodup : NoDup (map fst sch).
Proof. eapply Permutation_NoDup; [symmetry; exact F|apply seq_NoDup]. Qed.

Lemma sch_get : forall a, 1 <= a <= n + 2 -> exists s e, dget sch a = Some (s, e) /\ In (a, (s, e)) sch.
Proof.
  intros a Ha. assert (I : In a (map fst sch)).
  { apply (Permutation_in _ (Permutation_sym F)). apply in_seq. lia. }
  apply in_map_iff in I as [[a' [s e]] [<- I]]. exists s, e. split; auto. apply In_dget; auto. apply sch_nodup.
Qed.

Lemma need_ok : forall a, 1 <= a <= n + 2 ->
  exists k, act_mode me a = Ok k /\ forall r, In r (res_names p) -> need_of p a k r = Ok (demand p modes a r).
Proof.
  intros a Ha. pose proof (k_exist _ _ _ T a Ha) as C. unfold demand. destruct (chosen p modes a) as [m|] eqn:E; [|congruence].
  unfold chosen in E. rewrite (k_sink _ _ _ T) in E.
  assert (K : exists k, (if (a =? 1) || (a =? n + 2) then Some 1 else nth_error modes (a - 2)) = Some k /\ act_mode me a = Ok k).
  { destruct (if (a =? 1) || (a =? n + 2) then Some 1 else nth_error modes (a - 2)) as [k|] eqn:K; [|discriminate].
    exists k. split; auto. destruct a as [|a]; [lia|]. unfold act_mode. apply lget_ok. unfold me, extend_modes.
    destruct a as [|a]; [cbn in K |- *; exact K|]. cbn [nth_error].
    destruct (Nat.eqb_spec (S (S a)) (n + 2)) as [En|En].
    - rewrite orb_true_r in K. injection K as <-. rewrite nth_error_app2 by (rewrite (k_modes _ _ _ T); lia).
      replace (a - length modes) with 0 by (rewrite (k_modes _ _ _ T); lia). reflexivity.
    - cbn [Nat.eqb orb] in K. replace (S (S a) - 2) with a in K by lia. rewrite nth_error_app1; auto.
      rewrite (k_modes _ _ _ T); lia. }
  destruct K as (k & K & A). exists k. split; auto. intros r Ir. rewrite K in E.
  unfold need_of. destruct (dget (p_modes p) a) as [d|] eqn:D; [|discriminate].
  unfold dgetE. rewrite D. cbn [bind]. rewrite E. cbn [bind].
  destruct (in_need p (k_instance _ _ _ T) a d k m r D E Ir) as [x X]. rewrite X. reflexivity.
Qed.

(** What one task adds to the use at time [t]. *)
Definition part (t : Z) (r : string) (a : nat) : Z :=
  match dget sch a with
  | Some (s, e) => if (s <=? t)%Z && (t <? e)%Z then demand p modes a r else 0%Z
  | None => 0%Z
  end.

Lemma usage_ok : forall t, exists u, usage_at p me sch t = Ok u /\
  forall r, In r (res_names p) -> dget u r = Some (sumZ (map (part t r) (dkeys (p_succ p)))).
Proof.
  intros t. unfold usage_at. assert (R : forall a, In a (dkeys (p_succ p)) -> 1 <= a <= n + 2) by apply T.
  pose proof (in_names _ (k_instance _ _ _ T)) as N.
  assert (G : forall l u (f : string -> Z), (forall a, In a l -> 1 <= a <= n + 2) ->
    (forall r, In r (res_names p) -> dget u r = Some (f r)) ->
    exists u', foldM (add_usage p me sch t) u l = Ok u' /\
      forall r, In r (res_names p) -> dget u' r = Some (f r + sumZ (map (part t r) l))%Z).
  { induction l as [|a l IH]; intros u f Rl U; cbn [foldM].
    - exists u. split; auto. intros r Ir. cbn. rewrite (U r Ir). f_equal. lia.
    - destruct (sch_get a (Rl a (or_introl eq_refl))) as (s & e & G & _).
      destruct (need_ok a (Rl a (or_introl eq_refl))) as (k & A & Nk).
      assert (S : exists u1, add_usage p me sch t u a = Ok u1 /\
        forall r, In r (res_names p) -> dget u1 r = Some (f r + part t r a)%Z).
      { unfold add_usage, dgetE at 1. rewrite G. cbn [bind fst snd]. rewrite A. cbn [bind]. unfold part. rewrite G.
        destruct ((s <=? t)%Z && (t <? e)%Z).
        - assert (Q : forall rs u0, NoDup rs -> incl rs (res_names p) ->
            (forall r, In r (res_names p) -> dget u0 r = Some (f r + if pymem r rs then 0 else demand p modes a r)%Z) ->
            exists u1, foldM (fun u r => let* x := dgetE u r in let* nn := need_of p a k r in Ok (dset u r (x + nn)%Z)) u0 rs = Ok u1 /\
              forall r, In r (res_names p) -> dget u1 r = Some (f r + demand p modes a r)%Z).
          { induction rs as [|r rs IHr]; intros u0 Nr Inc U0; cbn [foldM].
            - exists u0. split; auto.
            - inversion Nr; subst. assert (Ir : In r (res_names p)) by (apply Inc; now left).
              unfold dgetE at 1. rewrite (U0 r Ir).
              replace (pymem r (r :: rs)) with true by (symmetry; apply pymem_true; now left). cbn [bind]. rewrite (Nk r Ir). cbn [bind]. apply IHr; auto.
              + intros y Iy. apply Inc. now right.
              + intros r' Ir'. rewrite dget_dset. destruct (pyeqb_spec r r') as [->|Ne].
                * replace (pymem r' rs) with false by (symmetry; now apply pymem_false). f_equal. lia.
                * rewrite (U0 r' Ir'). unfold pymem. cbn [existsb]. destruct (pyeqb_spec r' r); [congruence|]. reflexivity. }
          apply Q; auto; [apply incl_refl|]. intros r Ir. replace (pymem r (res_names p)) with true by (symmetry; now apply pymem_true).
          rewrite (U r Ir). f_equal. lia.
        - exists u. split.
          + clear. induction (res_names p) as [|r rs IHr]; cbn [foldM bind]; auto.
          + intros r Ir. rewrite (U r Ir). f_equal. lia. }
      destruct S as (u1 & -> & U1). cbn [bind].
      destruct (IH u1 (fun r => f r + part t r a)%Z) as (u' & E & U'); auto.
      { intros x Ix. apply Rl. now right. }
      exists u'. split; auto. intros r Ir. rewrite (U' r Ir). f_equal. cbn [map]. rewrite sumZ_cons. lia. }
  destruct (G (dkeys (p_succ p)) (map (fun r => (r, 0%Z)) (res_names p)) (fun _ => 0%Z)) as (u & E & U); [auto| |eauto].
  intros r Ir. clear -Ir. induction (res_names p) as [|x l IH]; [destruct Ir|]. cbn [map dget].
  destruct (pyeqb_spec r x); auto. destruct Ir; [congruence|auto].
Qed.

Lemma part_sum : forall t r, sumZ (map (part t r) (dkeys (p_succ p))) = running p modes sch r t.
Proof.
  intros t r. assert (P : Permutation (dkeys (p_succ p)) (map fst sch)) by (rewrite succ_perm; now symmetry).
  rewrite (sumZ_map_perm _ P). rewrite map_map. unfold running. apply sumZ_map_ext.
  intros [a [s e]] I. cbn [fst]. unfold part. rewrite (In_dget _ _ _ sch_nodup I). reflexivity.
Qed.

Lemma capacity_at_of : forall r t, capacity_at p r t = match capacity_of p r t with Some c => Ok c | None => capacity_at p r t end.
Proof.
  intros r t. unfold capacity_at, capacity_of, dgetE. destruct (p_res p).
  - destruct (dget r0 r); auto.
  - destruct (dget r0 r); auto. cbn [bind]. unfold lget. destruct (nth_error l t); auto.
Qed.

Lemma time_ok : forall t, (forall r, In r (res_names p) -> capacity_of p r t <> None) ->
  exists b, check_time p me sch t = Ok b /\
    (b = true <-> forall r c, In r (res_names p) -> capacity_of p r t = Some c -> (running p modes sch r (Z.of_nat t) <= c)%Z).
Proof.
  intros t C. unfold check_time. destruct (usage_ok (Z.of_nat t)) as (u & -> & U). cbn [bind].
  destruct (allM_spec _ (fun r => let* x := dgetE u r in let* c := capacity_at p r t in Ok (x <=? c)%Z)
    (fun r => forall c, capacity_of p r t = Some c -> (running p modes sch r (Z.of_nat t) <= c)%Z) (res_names p)) as (b & E & B).
  - intros r Ir. unfold dgetE. rewrite (U r Ir). cbn [bind]. rewrite capacity_at_of.
    destruct (capacity_of p r t) as [c|] eqn:Cc; [|now apply C in Cc]. cbn [bind]. rewrite part_sum. eexists. split; [reflexivity|].
    rewrite Z.leb_le. split; [intros H c' Ec; injection Ec as <-; auto|auto].
  - exists b. split; auto. rewrite B. split; eauto.
Qed.

Lemma nonren_sum : forall r, In r (res_names p) ->
  foldM (fun u a => let* k := act_mode me a in let* x := need_of p a k r in Ok (u + x)%Z) 0%Z (dkeys (p_succ p)) = Ok (total_demand p modes r).
Proof.
  intros r Ir. unfold total_demand. rewrite (k_sink _ _ _ T). rewrite <- (sumZ_map_perm _ succ_perm).
  assert (R : forall a, In a (dkeys (p_succ p)) -> 1 <= a <= n + 2) by apply T.
  assert (G : forall l u, (forall a, In a l -> 1 <= a <= n + 2) ->
    foldM (fun u a => let* k := act_mode me a in let* x := need_of p a k r in Ok (u + x)%Z) u l = Ok (u + sumZ (map (fun a => demand p modes a r) l))%Z).
  { induction l as [|a l IH]; intros u Rl; cbn [foldM].
    - f_equal. cbn. lia.
    - destruct (need_ok a (Rl a (or_introl eq_refl))) as (k & A & Nk). rewrite A. cbn [bind]. rewrite (Nk r Ir). cbn [bind].
      rewrite IH by (intros; apply Rl; now right). f_equal. cbn [map]. rewrite sumZ_cons. lia. }
  rewrite G; auto.
Qed.

Lemma prec_ok : exists b, allM (check_prec p sch) (p_succ p) = Ok b /\ (b = true <-> ordered p sch).
Proof.
  pose proof (in_dict _ (k_instance _ _ _ T)) as N.
  destruct (allM_spec _ (check_prec p sch) (fun kv => forall b sa ea sb eb, In b (snd kv) ->
     In (fst kv, (sa, ea)) sch -> In (b, (sb, eb)) sch -> (ea <= sb)%Z) (p_succ p)) as (b & E & B).
  - intros [a l] I. cbn [fst snd]. unfold check_prec. cbn [fst snd].
    pose proof (In_dget _ _ _ N I) as D.
    assert (Ha : 1 <= a <= n + 2). { apply (k_keys _ _ _ T). apply (in_map fst) in I. exact I. }
    destruct (sch_get a Ha) as (sa & ea & Ga & Ia).
    destruct (allM_spec _ (fun b => let* sb := dgetE sch b in let* sa := dgetE sch a in Ok (snd sa <=? fst sb)%Z)
      (fun b => forall sb eb, In (b, (sb, eb)) sch -> (ea <= sb)%Z) l) as (b & E & B).
    + intros b Ib. pose proof (in_closed _ (k_instance _ _ _ T) a l b D Ib) as Kb.
      destruct (sch_get b (k_keys _ _ _ T _ Kb)) as (sb & eb & Gb & Jb).
      unfold dgetE. rewrite Gb, Ga. cbn [bind fst snd]. eexists. split; [reflexivity|]. rewrite Z.leb_le. split; [|eauto].
      intros H sb' eb' J. apply (In_dget _ _ _ sch_nodup) in J. congruence.
    + exists b. split; auto. rewrite B. split.
      * intros H x sa' ea' sb eb Ix Ja Jx. apply (In_dget _ _ _ sch_nodup) in Ja.
        assert (ea' = ea) as -> by congruence. eapply H; eauto.
      * intros H x Ix sb eb Jx. eapply H; eauto.
  - exists b. split; auto. rewrite B. split.
    + intros H a x l sa ea sb eb D Ix Ja Jx. apply dget_In in D. apply (H (a, l) D x sa ea sb eb); auto.
    + intros H [a l] I x sa ea sb eb Ix Ja Jx. cbn [fst snd] in *. apply (In_dget _ _ _ N) in I. eapply H; eauto.
Qed.
End Check.

(** * C39 *)
(** On a complete schedule the check accepts exactly the schedules not flagged infeasible that respect
    the precedences, every capacity before the end of the last task, and the non-renewable totals.
    When the last task ends at 0 the check is only known to return if the totals fit. *)
Theorem C39_decides : forall p modes n sch flag e, tasks p modes n ->
  Permutation (map fst sch) (seq 1 (n + 2)) -> makespan p sch e ->
  (forall r t, In r (res_names p) -> (Z.of_nat t < e)%Z \/ t = 0 -> capacity_of p r t <> None) ->
  (0 < e)%Z \/ non_renewables_fit p modes ->
  exists b, satisfy p modes sch flag = Ok b /\
    (b = true <-> flag <> Some false /\ ordered p sch /\ non_renewables_fit p modes /\
      forall r t c, (Z.of_nat t < e)%Z -> capacity_of p r t = Some c -> (running p modes sch r (Z.of_nat t) <= c)%Z).
Proof.
  intros p modes n sch flag e T F [s0 Mk] Cap Pos.
  destruct (option_map negb flag) as [[]|] eqn:Fl.
  { destruct flag as [[]|]; try discriminate. exists false. split; auto. split; [discriminate|]. intros [K _]. congruence. }
  all: assert (Nf : flag <> Some false) by (destruct flag as [[]|]; cbn in Fl; congruence).
  all: assert (Q : exists b, (let me := extend_modes modes in
      let* last := max_key (dkeys sch) in let* se := dgetE sch last in
      let* ok1 := allM (check_time p me sch) (seq 0 (Z.to_nat (snd se))) in
      if ok1 then let* ok2 := allM (check_nonren p me (snd se)) (p_nonren p) in
        if ok2 then allM (check_prec p sch) (p_succ p) else Ok false
      else Ok false) = Ok b /\ (b = true <-> flag <> Some false /\ ordered p sch /\ non_renewables_fit p modes /\
      forall r t c, (Z.of_nat t < e)%Z -> capacity_of p r t = Some c -> (running p modes sch r (Z.of_nat t) <= c)%Z));
    [|destruct flag as [[]|]; [exact Q|congruence|exact Q]].
  all: cbv zeta; unfold dkeys at 1; rewrite (perm_max _ _ F) by lia; cbn [bind].
  all: rewrite (k_sink _ _ _ T) in Mk; pose proof (In_dget _ _ _ (sch_nodup n sch F) Mk) as G; unfold dgetE; rewrite G; cbn [bind snd].
  all: destruct (allM_spec _ (check_time p (extend_modes modes) sch) (fun t => forall r c, In r (res_names p) -> capacity_of p r t = Some c -> (running p modes sch r (Z.of_nat t) <= c)%Z)
      (seq 0 (Z.to_nat e))) as (b1 & -> & B1);
      [intros t It; apply in_seq in It; apply time_ok with (n := n); auto; intros r Ir; apply Cap; auto; lia|].
  all: assert (B1' : b1 = true <-> forall r t c, (Z.of_nat t < e)%Z -> capacity_of p r t = Some c -> (running p modes sch r (Z.of_nat t) <= c)%Z);
      [rewrite B1; split;
        [intros H r t c Lt C; apply (H t); [apply in_seq; lia|eapply capacity_name; eauto|auto]
        |intros H t It r c _ C; apply in_seq in It; apply H; auto; lia]|].
  all: clear B1; cbn [bind]; destruct b1;
       [|exists false; split; auto; split; [discriminate|]; intros (_ & _ & _ & K); apply B1'; auto].
  all: destruct (allM_spec _ (check_nonren p (extend_modes modes) e) (fun r => forall c, capacity_of p r 0 = Some c -> (total_demand p modes r <= c)%Z) (p_nonren p)) as (b2 & -> & B2);
      [intros r Ir; pose proof (k_nonren _ _ _ T r Ir) as Ir'; unfold check_nonren; rewrite (nonren_sum p modes n T r Ir'); cbn [bind];
       rewrite capacity_at_of; destruct (capacity_of p r 0) as [c|] eqn:C; [|exfalso; revert C; apply Cap; auto];
       cbn [bind]; destruct (Z.leb_spec (total_demand p modes r) c);
       [exists true; split; auto; split; auto; intros _ c' E; injection E as <-; auto
       |destruct (Z.leb_spec e 0);
         [exfalso; destruct Pos as [Pos|Pos]; [lia|]; specialize (Pos r c Ir C); lia
         |replace (pymem r (res_names p)) with true by (symmetry; now apply pymem_true);
          exists false; split; auto; split; [discriminate|]; intros K; specialize (K c eq_refl); lia]]|].
  all: assert (B2' : b2 = true <-> non_renewables_fit p modes) by (rewrite B2; unfold non_renewables_fit; split; eauto).
  all: cbn [bind]; destruct b2; [|exists false; split; auto; split; [discriminate|]; intros (_ & _ & K & _); apply B2'; auto].
  all: destruct (prec_ok p modes n sch T F) as (b3 & -> & B3); exists b3; split; auto; rewrite B3.
  all: split; [intros O; repeat split; auto; [now apply B2'|now apply B1']|intros (_ & O & _); auto].
Qed.

(** When every task but the last has a successor and no task ends before it starts, respected
    precedences put every task before the last one. *)
Lemma before_sink : forall p modes n sch e, tasks p modes n -> Permutation (map fst sch) (seq 1 (n + 2)) -> makespan p sch e ->
  ordered p sch -> (forall a s x, In (a, (s, x)) sch -> (s <= x)%Z) ->
  (forall a, 1 <= a < n + 2 -> exists l b, dget (p_succ p) a = Some l /\ In b l) ->
  forall a s x, In (a, (s, x)) sch -> (x <= e)%Z.
Proof.
  intros p modes n sch e T F [s0 Mk] O D Con. rewrite (k_sink _ _ _ T) in Mk.
  destruct (in_acyclic _ (k_instance _ _ _ T)) as [rank R].
  assert (Bd : exists m, forall a, 1 <= a <= n + 2 -> rank a <= m).
  { exists (list_max (map rank (seq 1 (n + 2)))). intros a Ha.
    assert (X : Forall (fun k => k <= list_max (map rank (seq 1 (n + 2)))) (map rank (seq 1 (n + 2)))) by (apply list_max_le; auto).
    rewrite Forall_forall in X. apply X, in_map, in_seq. lia. }
  destruct Bd as [m Bd].
  assert (G : forall k a, m - rank a <= k -> 1 <= a <= n + 2 -> forall s x, In (a, (s, x)) sch -> (x <= e)%Z).
  { induction k as [|k IH]; intros a Hk Ha s x I;
      (destruct (Nat.eq_dec a (n + 2)) as [->|Ne];
        [apply (In_dget _ _ _ (sch_nodup n sch F)) in I, Mk; assert (x = e) by congruence; lia|]);
      destruct (Con a) as (l & b & Dl & Ib); [lia| |lia|];
      pose proof (R _ _ _ Dl Ib) as Lt;
      assert (Hb : 1 <= b <= n + 2) by (eapply (k_keys _ _ _ T), in_closed; eauto using k_instance).
    - pose proof (Bd b Hb). lia.
    - destruct (sch_get n sch F b Hb) as (sb & eb & _ & Jb).
      pose proof (O a b l s x sb eb Dl Ib I Jb). pose proof (D _ _ _ Jb).
      assert (eb <= e)%Z; [|lia]. eapply (IH b); eauto. pose proof (Bd b Hb). lia. }
  intros a s x I. apply (G (m - rank a) a) with (s := s); auto.
  assert (In a (map fst sch)) by (apply in_map_iff; exists (a, (s, x)); auto).
  apply (Permutation_in _ F) in H. apply in_seq in H. lia.
Qed.

(** So, for such schedules, the check decides feasibility at all times. *)
Theorem C39_feasibility : forall p modes n sch flag e, tasks p modes n -> sane p ->
  Permutation (map fst sch) (seq 1 (n + 2)) -> makespan p sch e -> (0 < e)%Z ->
  (forall r t, In r (res_names p) -> (Z.of_nat t < e)%Z -> capacity_of p r t <> None) ->
  (forall a s x, In (a, (s, x)) sch -> (0 <= s <= x)%Z) ->
  (forall a, 1 <= a < n + 2 -> exists l b, dget (p_succ p) a = Some l /\ In b l) ->
  exists b, satisfy p modes sch flag = Ok b /\
    (b = true <-> flag <> Some false /\ ordered p sch /\ non_renewables_fit p modes /\
      forall r t c, capacity_of p r (Z.to_nat t) = Some c -> (running p modes sch r t <= c)%Z).
Proof.
  intros p modes n sch flag e T Sa F Mk Pos Cap D Con.
  destruct (C39_decides p modes n sch flag e T F Mk) as (b & E & B).
  - intros r t Ir [Lt| ->]; apply Cap; auto.
  - auto.
  - exists b. split; auto. rewrite B. split; intros (N & O & NR & K); repeat split; auto.
    + intros r t c C. destruct (Z_lt_le_dec t 0) as [Ng|Ng].
      * replace (running p modes sch r t) with 0%Z.
        { eapply s_caps; eauto. }
        unfold running. symmetry. rewrite (sumZ_map_ext _ (fun _ => 0%Z)).
        -- clear. induction sch; auto.
        -- intros [a [s x]] I. specialize (D _ _ _ I). destruct (Z.leb_spec s t); [lia|]. reflexivity.
      * destruct (Z_lt_le_dec t e) as [Lt|Ge].
        -- specialize (K r (Z.to_nat t) c). rewrite Z2Nat.id in K by lia. auto.
        -- replace (running p modes sch r t) with 0%Z.
           { eapply s_caps; eauto. }
           unfold running. symmetry. rewrite (sumZ_map_ext _ (fun _ => 0%Z)).
           ++ clear. induction sch; auto.
           ++ intros [a [s x]] I.
              pose proof (before_sink p modes n sch e T F Mk O (fun a s x I => proj2 (D a s x I)) Con a s x I).
              destruct (Z.ltb_spec t x); [lia|]. now rewrite andb_false_r.
    + intros r t c Lt C. apply K. now rewrite Nat2Z.id.
Qed.

(** An accepted schedule in which the last task ends after 0 contains every task. *)
Theorem C39_complete : forall p modes sch flag a s e,
  In (a, (s, e)) sch -> NoDup (map fst sch) -> (forall b, In b (map fst sch) -> b <= a) -> (0 < e)%Z ->
  satisfy p modes sch flag = Ok true -> incl (dkeys (p_succ p)) (map fst sch).
Proof.
  intros p modes sch flag a s e I N Mx Pos H.
  assert (Q : exists last se, max_key (dkeys sch) = Ok last /\ dgetE sch last = Ok se /\
    allM (check_time p (extend_modes modes) sch) (seq 0 (Z.to_nat (snd se))) = Ok true).
  { unfold satisfy in H. destruct flag as [[]|]; try discriminate;
      apply bind_ok in H as [last [L H]]; apply bind_ok in H as [se [S H]]; apply bind_ok in H as [b [B H]];
      destruct b; try discriminate; eauto. }
  destruct Q as (last & se & L & S & A).
  assert (last = a) as ->.
  { assert (In last (dkeys sch) /\ forall x, In x (dkeys sch) -> x <= last) as [Il Ml].
    { unfold max_key in L. destruct (dkeys sch) as [|x l]; [discriminate|]. injection L as <-. clear.
      revert x. induction l as [|z l IH]; intros x; cbn [fold_left].
      - split; [now left|]. intros y [<-|[]]; auto.
      - destruct (IH (Nat.max x z)) as [I M]. split.
        + destruct I as [I|I]; [|now right; right]. destruct (Nat.max_spec x z) as [[_ E]|[_ E]]; rewrite E in *; [right; left|left]; auto.
        + intros y [<-|[<-|Iy]]; [| |apply M; now right]; specialize (M _ (or_introl eq_refl)); lia. }
    apply Nat.le_antisymm; [apply Mx; exact Il|]. apply Ml. apply (in_map fst) in I. exact I. }
  unfold dgetE in S. rewrite (In_dget _ _ _ N I) in S. injection S as <-. cbn [snd] in A.
  destruct (Z.to_nat e) as [|k] eqn:K; [lia|]. cbn [seq allM] in A. apply bind_ok in A as [b [B _]].
  unfold check_time in B. apply bind_ok in B as [u [U _]]. unfold usage_at in U.
  revert U. generalize (map (fun r : string => (r, 0%Z)) (res_names p)). generalize (dkeys (p_succ p)).
  induction l as [|x l IH]; intros u0 U y Iy; [destruct Iy|]. cbn [foldM] in U. apply bind_ok in U as [u1 [U1 U]].
  destruct Iy as [<-|Iy]; [|eapply IH; eauto].
  unfold add_usage in U1. apply bind_ok in U1 as [se [S _]]. unfold dgetE in S. destruct (dget sch x) eqn:D; [|discriminate].
  apply dget_In in D. apply (in_map fst) in D. exact D.
Qed.

(** The schedules marked feasible by the generation scheme are accepted, provided that tasks of
    length zero need no non-renewable resource. *)
Theorem C39_sgs : forall p perm modes modes' sch n c, instance p -> sane p -> p_res p = Constant c ->
  p_sink p = n + 2 -> Permutation perm (seq 0 n) -> length modes = n -> incl (p_nonren p) (res_names p) ->
  (forall a, In a (dkeys (p_succ p)) -> 1 <= a <= n + 2) ->
  (forall a r, 0 <= demand p modes' a r)%Z ->
  (forall a m r, chosen p modes' a = Some m -> m_duration m = 0 -> In r (p_nonren p) -> demand p modes' a r = 0%Z) ->
  serial_sgs p perm modes = Ok (modes', (sch, true)) -> satisfy p modes' sch (Some true) = Ok true.
Proof.
  intros p perm modes modes' sch n c I Sa Co S P L NR Ks Nn Z0 H.
  destruct (C38_feasible p perm modes modes' sch n Sa S P L H) as [T W].
  destruct (C38_modes p perm modes modes' _ n S L H) as [L' _].
  assert (Tk : tasks p modes' n).
  { constructor; auto. intros a Ha.
    assert (Ia : In a (map fst sch)) by (apply (Permutation_in _ (Permutation_sym (t_tasks _ _ _ _ T))), in_seq; lia).
    apply in_map_iff in Ia as [[a' [s e]] [E Ia]]. cbn in E. subst a'.
    destruct (t_length _ _ _ _ T a s e Ia) as (m & Cm & _). congruence. }
  assert (Tot : forall r, In r (p_nonren p) -> total_demand p modes' r = consumed_all p modes' sch r).
  { intros r Ir. unfold total_demand, consumed_all. rewrite S, <- (sumZ_map_perm _ (t_tasks _ _ _ _ T)), map_map.
    apply sumZ_map_ext. intros [a [s e]] Ia. cbn [fst]. destruct (t_length _ _ _ _ T a s e Ia) as (m & Cm & _ & ->).
    destruct (Z.ltb_spec s (s + Z.of_nat (m_duration m))); auto. eapply Z0; eauto; lia. }
  assert (Fit : non_renewables_fit p modes').
  { intros r x Ir C. rewrite (Tot r Ir). unfold capacity_of in C. rewrite Co in C. eapply r_total; eauto. }
  destruct (sch_get n sch (t_tasks _ _ _ _ T) (n + 2)) as (s & e & _ & Ie); [lia|].
  destruct (C39_decides p modes' n sch (Some true) e Tk (t_tasks _ _ _ _ T)) as (b & E & B).
  - exists s. now rewrite S.
  - intros r t Ir _. unfold capacity_of. rewrite Co. unfold res_names in Ir. rewrite Co in Ir.
    intros K. apply dget_None in K. contradiction.
  - auto.
  - rewrite E. f_equal. apply B. split; [congruence|]. split; [exact (t_precedence _ _ _ _ T)|]. split; auto.
    intros r t x _ C. destruct (in_dec string_dec r (p_nonren p)) as [Ir|Ir].
    + assert (C' : capacity_of p r 0 = Some x) by (unfold capacity_of in *; rewrite Co in *; auto).
      specialize (Fit r x Ir C'). rewrite (Tot r Ir) in Fit.
      assert (running p modes' sch r (Z.of_nat t) <= consumed_all p modes' sch r)%Z; [|lia].
      apply sumZ_map_le. intros [a [s' e']] _. pose proof (Nn a r).
      destruct (Z.leb_spec s' (Z.of_nat t)), (Z.ltb_spec (Z.of_nat t) e'), (Z.ltb_spec s' e'); cbn [andb]; lia.
    + eapply r_running; eauto.
Qed.

(** * Concrete cases *)
Local Open Scope string_scope.
Lemma ex_tasks : tasks ex_p [1; 2; 1] 3.
Proof.
  constructor; auto.
  - apply ex_instance.
  - intros a Ha. five a Ha; cbn; congruence.
  - cbn. intuition lia.
  - intros r [<-|[]]. cbn. auto.
Qed.
Example C39_ex : tasks ex_p [1; 2; 1] 3 /\ Permutation (map fst ex_sch) (seq 1 5) /\ makespan ex_p ex_sch 7 /\
  (forall a, 1 <= a < 5 -> exists l b, dget (p_succ ex_p) a = Some l /\ In b l) /\
  satisfy ex_p [1; 2; 1] ex_sch None = Ok true /\
  satisfy ex_p [1; 2; 1] (dset ex_sch 2 (2, 4)%Z) None = Ok false /\
  satisfy ex_p [1; 1; 1] ex_sch None = Ok false.
Proof.
  split; [exact ex_tasks|]. split.
  { cbn. apply perm_skip, perm_swap. }
  split; [exists 7%Z; cbn; tauto|]. split; [|repeat split; vm_compute; reflexivity].
  intros a Ha. destruct a as [|[|[|[|[|a]]]]]; try (exfalso; lia); cbn; eexists; eexists; (split; [reflexivity|now left]).
Qed.

(** * Findings *)
(** A task may be given less time than its mode takes. *)
Theorem C39_duration_refuted : exists p modes n sch a s e m, tasks p modes n /\
  Permutation (map fst sch) (seq 1 (n + 2)) /\ satisfy p modes sch None = Ok true /\
  In (a, (s, e)) sch /\ chosen p modes a = Some m /\ (e - s < Z.of_nat (m_duration m))%Z.
Proof.
  exists ex_p, [1; 2; 1], 3, (dset ex_sch 3 (0, 1)%Z), 3, 0%Z, 1%Z. eexists. split; [exact ex_tasks|].
  split; [cbn; apply perm_skip, perm_swap|]. split; [vm_compute; reflexivity|]. split; [cbn; tauto|].
  split; [reflexivity|]. cbn. lia.
Qed.

(** Before time 0 nothing is checked. *)
Theorem C39_negative_refuted : exists p modes n sch r c, tasks p modes n /\
  Permutation (map fst sch) (seq 1 (n + 2)) /\ satisfy p modes sch None = Ok true /\
  capacity_of p r 0 = Some c /\ (c < running p modes sch r (-1))%Z.
Proof.
  exists ex_p, [1; 2; 1], 3, [(1, (-3, -3)%Z); (2, (-2, 0)%Z); (3, (-3, 0)%Z); (4, (0, 2)%Z); (5, (2, 2)%Z)], "R", 2%Z.
  split; [exact ex_tasks|]. split; [cbn; apply Permutation_refl|]. split; [vm_compute; reflexivity|].
  split; [reflexivity|]. vm_compute. reflexivity.
Qed.

(** Nor after the end of the task with the largest number, which need not be the last to end. *)
Theorem C39_last_task_refuted : exists p modes n sch r t c, tasks p modes n /\
  Permutation (map fst sch) (seq 1 (n + 2)) /\ satisfy p modes sch None = Ok true /\
  capacity_of p r t = Some c /\ (c < running p modes sch r (Z.of_nat t))%Z.
Proof.
  exists (Rcpsp (p_res ex_p) (p_nonren ex_p) (p_modes ex_p) [(1, [2; 3; 4]); (2, []); (3, []); (4, []); (5, [])] 10 1), [1; 2; 1], 3,
    [(1, (0, 0)%Z); (2, (2, 4)%Z); (3, (2, 5)%Z); (4, (0, 2)%Z); (5, (2, 2)%Z)].
  exists "R", 3, 2%Z. split; [|split; [cbn; apply Permutation_refl|]].
  - destruct ex_tasks as [K1 K2 K3 K4 K5 K6]. constructor; auto.
    + destruct K1. constructor; auto.
      * intros a Ha. five a Ha; cbn; eauto.
      * intros a l b D Ib. cbn in D |- *. repeat (destruct a as [|a]; cbn in D; try discriminate); injection D as <-; cbn in Ib; intuition lia.
      * exists (fun a => a). intros a l b D Ib. cbn in D. repeat (destruct a as [|a]; cbn in D; try discriminate); injection D as <-; cbn in Ib; intuition lia.
  - split; [vm_compute; reflexivity|]. split; [reflexivity|]. vm_compute. reflexivity.
Qed.

(** When the last task ends at 0 the check may raise instead of answering, and may accept a schedule
    that misses a task. *)
Theorem C39_empty_refuted :
  (exists p modes n sch, tasks p modes n /\ Permutation (map fst sch) (seq 1 (n + 2)) /\ satisfy p modes sch None = Err UnboundLocalError) /\
  (exists p modes n sch a, tasks p modes n /\ satisfy p modes sch None = Ok true /\ 1 <= a <= n + 2 /\ ~ In a (map fst sch)).
Proof.
  split.
  - exists ex_p, [1; 1; 1], 3, [(1, (0, 0)%Z); (2, (0, 0)%Z); (3, (0, 0)%Z); (4, (0, 0)%Z); (5, (0, 0)%Z)].
    split; [|split; [apply Permutation_refl|vm_compute; reflexivity]].
    destruct ex_tasks. constructor; auto. intros a Ha. five a Ha; cbn; congruence.
  - exists (Rcpsp (p_res ex_p) (p_nonren ex_p) (p_modes ex_p) [(1, [2]); (2, [5]); (3, []); (4, [5]); (5, [])] 10 1), [1; 2; 1], 3,
      [(1, (0, 0)%Z); (2, (0, 0)%Z); (4, (0, 0)%Z); (5, (0, 0)%Z)], 3.
    split; [|split; [vm_compute; reflexivity|split; [lia|cbn; intuition lia]]].
    destruct ex_tasks as [K1 K2 K3 K4 K5 K6]. constructor; auto. destruct K1. constructor; auto.
    + intros a Ha. five a Ha; cbn; eauto.
    + intros a l b D Ib. cbn in D |- *. repeat (destruct a as [|a]; cbn in D; try discriminate); injection D as <-; cbn in Ib; intuition lia.
    + exists (fun a => a). intros a l b D Ib. cbn in D. repeat (destruct a as [|a]; cbn in D; try discriminate); injection D as <-; cbn in Ib; intuition lia.
Qed.

Print Assumptions C39_decides.
Print Assumptions C39_feasibility.
Print Assumptions C39_complete.
Print Assumptions C39_sgs.
Print Assumptions C39_duration_refuted.
Print Assumptions C39_negative_refuted.
Print Assumptions C39_last_task_refuted.
Print Assumptions C39_empty_refuted.
