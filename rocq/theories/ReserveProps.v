(** C140: the mean resource reserve of a schedule. *)
From Coq Require Import String.
From Coq Require Import List Bool Arith ZArith QArith Qfield Lia Permutation.
From Coq Require Import ZifyBool ZifyNat.
From Verif Require Import Py PyList SgsModel SgsProps SatProps ReserveModel ReserveProofs.
Import ListNotations.
Local Open Scope nat_scope.

(** * Specification vocabulary *)
Definition total {B} (f : B -> Q) (l : list B) : Q := fold_right (fun x s => (f x + s)%Q) 0%Q l.
Definition average {B} (f : B -> Q) (l : list B) : Q := (total f l / inject_Z (Z.of_nat (length l)))%Q.
(** The work that the tasks ask of a resource: amount by duration *)
Definition work (p : rcpsp) (modes : list nat) (sch : schedule) (r : string) : Z :=
  sumZ (map (fun x : nat * (Z * Z) => let '(a, (s, e)) := x in ((e - s) * demand p modes a r)%Z) sch).

(** A schedule of all the tasks, each of the length of its mode, over before the sink ends at the positive time [mk]; the
    source and the sink have no length; constant capacities, none of them zero. *)
Record measurable (p : rcpsp) (modes : list nat) (n : nat) (sch : schedule) (mk : Z) (c : list (string * Z)) : Prop := {
  me_tasks : tasks p modes n;
  me_all : Permutation (map fst sch) (seq 1 (n + 2));
  me_start : forall a s e, In (a, (s, e)) sch -> (0 <= s <= e)%Z;
  me_end : forall a s e, In (a, (s, e)) sch -> (e <= mk)%Z;
  me_span : makespan p sch mk;
  me_positive : (0 < mk)%Z;
  me_outer : forall a s e, a = 1 \/ a = n + 2 -> In (a, (s, e)) sch -> (e <= s)%Z;
  me_caps : p_res p = Constant c;
  me_some : c <> [];
  me_nonzero : forall r x, In (r, x) c -> x <> 0%Z }.

Lemma total_ext : forall B (f g : B -> Q) l, (forall x, In x l -> (f x == g x)%Q) -> (total f l == total g l)%Q.
Proof. induction l as [|x l IH]; intros H; [reflexivity|]. cbn. rewrite (H x (or_introl eq_refl)), IH; [reflexivity|]. intros; apply H; now right. Qed.

Lemma average_ext : forall B (f g : B -> Q) l, (forall x, In x l -> (f x == g x)%Q) -> (average f l == average g l)%Q.
Proof. intros B f g l H. unfold average. now rewrite (total_ext _ f g l H). Qed.

Lemma total_Z : forall B (f : B -> Z) l, (total (fun x => inject_Z (f x)) l == inject_Z (sumZ (map f l)))%Q.
Proof.
  induction l as [|x l IH]; [reflexivity|]. cbn [total fold_right]. fold (total (fun x => inject_Z (f x)) l). rewrite IH, <- inject_Z_plus.
  reflexivity.
Qed.

Lemma sumQ_total : forall B (f : B -> Q) l, sumQ (map f l) = total f l.
Proof. induction l as [|x l IH]; [reflexivity|]. cbn. unfold sumQ in IH. now rewrite IH. Qed.

Lemma mean_average : forall B (f : B -> Q) l, l <> [] -> mean (map f l) = Ok (average f l).
Proof.
  intros B f [|x l] H; [congruence|]. unfold mean, average. cbn [map]. change (f x :: map f l) with (map f (x :: l)).
  rewrite sumQ_total, map_length. reflexivity.
Qed.

Section Value.
Variables (p : rcpsp) (modes : list nat) (n : nat) (sch : schedule) (mk : Z) (c : list (string * Z)).
Hypothesis H : measurable p modes n sch mk c.

(** The reserve is the average, over the resources, of the average over time of the free part of the capacity. *)
Theorem C140_value : exists v, mean_reserve p modes sch true = Ok v /\
  (v == average (fun rx => average (fun t => inject_Z (snd rx - running p modes sch (fst rx) (Z.of_nat t))) (seq 0 (Z.to_nat mk))
                           / inject_Z (snd rx)) c)%Q.
Proof.
  destruct H as [T F St En (s0 & Sp) Po Ou Cc Ne Nz]. unfold mean_reserve. cbn [negb].
  unfold dkeys at 1. rewrite (perm_max _ (n + 2) F) by lia. cbn [bind].
  rewrite (k_sink _ _ _ T) in Sp. unfold dgetE. rewrite (In_dget _ _ _ (sch_nodup n sch F) Sp). cbn [bind snd].
  unfold reserve_init. replace (mk <? 0)%Z with false by lia. rewrite Cc. cbn [bind].
  pose proof (names_nodup p modes n c T Cc) as Nd.
  destruct (table_ok p modes n (Z.to_nat mk) sch c T F Cc) with (mk := mk)
    (av := map (fun kv : string * Z => (fst kv, repeat (snd kv) (Z.to_nat mk))) c) as (av & E & [_ Hv]).
  - intros a s e I. specialize (St _ _ _ I). specialize (En _ _ _ I). lia.
  - exact Ou.
  - split; [unfold dkeys; rewrite map_map; reflexivity|]. intros r Ir. apply in_map_iff in Ir. destruct Ir as ([r' x] & Er & I).
    cbn in Er. subst r'. exists (repeat x (Z.to_nat mk)). split; [|split; [apply repeat_length|]].
    + apply In_dget; [unfold dkeys; rewrite map_map; exact Nd|]. apply in_map_iff. exists (r, x). auto.
    + intros t Lt. rewrite (In_dget _ _ _ Nd I). rewrite (nth_error_nth' _ 0%Z) by (rewrite repeat_length; exact Lt).
      f_equal. rewrite (nth_indep _ 0%Z x) by (rewrite repeat_length; exact Lt). apply nth_repeat.
  - rewrite E. cbn [bind]. unfold ratios. rewrite Cc.
    rewrite mapM_map with (g := fun rx : string * Z => (average (fun t => inject_Z (snd rx - running p modes sch (fst rx) (Z.of_nat t)))
       (seq 0 (Z.to_nat mk)) / inject_Z (snd rx))%Q).
    + cbn [bind]. rewrite mean_average by exact Ne. eexists. split; reflexivity.
    + intros [r x] I. cbn [fst snd]. destruct (Hv r) as (row & D & L & V); [apply in_map_iff; exists (r, x); auto|].
      unfold dgetE. rewrite D. cbn [bind]. rewrite (In_dget _ _ _ Nd I) in V. rewrite (nth_error_all row _ _ L V), map_map.
      rewrite mean_average by (destruct (Z.to_nat mk) eqn:Em; [lia|discriminate]). cbn [bind]. unfold divide.
      replace (Qeq_bool (inject_Z x) 0) with false; [reflexivity|]. symmetry. apply not_true_iff_false. intros X. apply Qeq_bool_eq in X.
      unfold Qeq in X. cbn in X. apply (Nz _ _ I). lia.
Qed.

Lemma free_sum : forall r x, sumZ (map (fun t => x - running p modes sch r (Z.of_nat t))%Z (seq 0 (Z.to_nat mk))) =
  (mk * x - work p modes sch r)%Z.
Proof.
  intros r x. destruct H as [T F St En _ Po _ _ _ _].
  assert (W : sumZ (map (fun t => running p modes sch r (Z.of_nat t)) (seq 0 (Z.to_nat mk))) = work p modes sch r).
  { unfold running, work. rewrite (sum_swap _ _ (fun (e : nat * (Z * Z)) t => let '(a, (s, f)) := e in
      if (s <=? Z.of_nat t)%Z && (Z.of_nat t <? f)%Z then demand p modes a r else 0%Z) sch (seq 0 (Z.to_nat mk))).
    apply sumZ_map_ext. intros [a [s e]] I. specialize (St _ _ _ I). specialize (En _ _ _ I). apply sum_window; lia. }
  rewrite <- W. rewrite (sumZ_map_ext (fun t => x - running p modes sch r (Z.of_nat t))%Z (fun t => x + (-1) * running p modes sch r (Z.of_nat t))%Z) by (intros; lia).
  rewrite sumZ_map_plus, sumZ_map_scale.
  assert (R : forall k, sumZ (map (fun _ : nat => x) (seq 0 k)) = (Z.of_nat k * x)%Z).
  { induction k as [|k IH]; [reflexivity|]. rewrite seq_S, map_app, sumZ_app, IH. cbn [map]. change (sumZ [x]) with (x + 0)%Z. lia. }
  rewrite R, Z2Nat.id by lia. lia.
Qed.

Lemma free_average : forall r x, x <> 0%Z ->
  (average (fun t => inject_Z (x - running p modes sch r (Z.of_nat t))) (seq 0 (Z.to_nat mk)) / inject_Z x ==
   1 - inject_Z (work p modes sch r) / inject_Z (mk * x))%Q.
Proof.
  intros r x Nx. unfold average. rewrite total_Z, free_sum, seq_length, Z2Nat.id by (destruct H; lia).
  unfold Z.sub. rewrite inject_Z_plus, inject_Z_opp, !inject_Z_mult.
  assert (inject_Z mk == 0 -> False)%Q by (destruct H as [_ _ _ _ _ Po _ _ _ _]; unfold Qeq; cbn; lia).
  assert (inject_Z x == 0 -> False)%Q by (unfold Qeq; cbn; lia).
  field. split; auto.
Qed.

(** It does not depend on when the tasks run, but only on the work they ask for and on the makespan. *)
Theorem C140_work : exists v, mean_reserve p modes sch true = Ok v /\
  (v == average (fun rx => 1 - inject_Z (work p modes sch (fst rx)) / inject_Z (mk * snd rx)) c)%Q.
Proof.
  destruct C140_value as (v & E & V). exists v. split; [exact E|]. rewrite V. apply average_ext. intros [r x] I. cbn [fst snd].
  apply free_average. destruct H as [_ _ _ _ _ _ _ _ _ Nz]. eapply Nz; eauto.
Qed.
End Value.

Lemma total_range : forall B (f : B -> Q) l, (forall x, In x l -> 0 <= f x <= 1)%Q ->
  (0 <= total f l)%Q /\ (total f l <= inject_Z (Z.of_nat (length l)))%Q.
Proof.
  induction l as [|x l IH]; intros R; [split; discriminate|]. destruct IH as [A B0]; [intros; apply R; now right|].
  destruct (R x (or_introl eq_refl)) as [C D]. cbn [total fold_right length]. fold (total f l). split.
  - setoid_replace 0%Q with (0 + 0)%Q by reflexivity. now apply Qplus_le_compat.
  - rewrite Nat2Z.inj_succ. unfold Z.succ. rewrite inject_Z_plus, Qplus_comm. apply Qplus_le_compat; assumption.
Qed.

Lemma average_range : forall B (f : B -> Q) l, l <> [] -> (forall x, In x l -> 0 <= f x <= 1)%Q -> (0 <= average f l <= 1)%Q.
Proof.
  intros B f l Ne R. destruct (total_range B f l R) as [A C]. unfold average.
  assert (P : (0 < inject_Z (Z.of_nat (length l)))%Q) by (destruct l; [congruence|]; unfold Qlt; cbn; lia).
  split.
  - apply Qle_shift_div_l; [exact P|]. now rewrite Qmult_0_l.
  - apply Qle_shift_div_r; [exact P|]. now rewrite Qmult_1_l.
Qed.

Lemma work_nonneg : forall p modes sch r, (forall a s e, In (a, (s, e)) sch -> (0 <= s <= e)%Z) -> (forall a, (0 <= demand p modes a r)%Z) ->
  (0 <= work p modes sch r)%Z.
Proof.
  intros p modes sch r St D. unfold work. apply sumZ_map_nonneg. intros [a [s e]] I. specialize (St _ _ _ I). specialize (D a). nia.
Qed.

(** A schedule that respects the capacities has a reserve between 0 and 1. *)
Theorem C140_range : forall p modes n sch mk c, measurable p modes n sch mk c -> sane p -> within p modes sch ->
  (forall a r, (0 <= demand p modes a r)%Z) ->
  exists v, mean_reserve p modes sch true = Ok v /\ (0 <= v <= 1)%Q.
Proof.
  intros p modes n sch mk c H Sa Wi De. destruct (C140_work p modes n sch mk c H) as (v & E & V). exists v. split; [exact E|].
  assert (G : (0 <= average (fun rx : string * Z => 1 - inject_Z (work p modes sch (fst rx)) / inject_Z (mk * snd rx)) c <= 1)%Q).
  { pose proof H as [T F St En Sp Po Ou Cc Ne Nz]. apply average_range; [exact Ne|]. intros [r x] I. cbn [fst snd].
    pose proof (names_nodup p modes n c T Cc) as Nd.
    assert (Cap : forall t, capacity_of p r t = Some x) by (intros t; unfold capacity_of; rewrite Cc; now apply In_dget).
    assert (X : (0 < x)%Z) by (pose proof (s_caps _ Sa _ _ _ (Cap 0)); specialize (Nz _ _ I); lia).
    assert (W0 : (0 <= work p modes sch r)%Z) by (apply work_nonneg; auto).
    assert (W1 : (work p modes sch r <= mk * x)%Z).
    { assert (S0 : (0 <= sumZ (map (fun t => x - running p modes sch r (Z.of_nat t))%Z (seq 0 (Z.to_nat mk))))%Z).
      { apply sumZ_map_nonneg. intros t _. assert (running p modes sch r (Z.of_nat t) <= x)%Z; [|lia].
        destruct (in_dec string_dec r (p_nonren p)) as [Inr|Nr]; [|eapply r_running; eauto].
        transitivity (consumed_all p modes sch r); [|eapply r_total; eauto; now apply In_dget].
        unfold running, consumed_all. apply sumZ_map_le. intros [a [s e]] Ia. specialize (De a r).
        destruct ((s <=? Z.of_nat t)%Z && (Z.of_nat t <? e)%Z) eqn:B1; destruct (s <? e)%Z eqn:B2; lia. }
      rewrite (free_sum p modes n sch mk c H) in S0. lia. }
    assert (P : (0 < inject_Z (mk * x))%Q) by (change 0%Q with (inject_Z 0); rewrite <- Zlt_Qlt; nia).
    assert (R : (0 <= inject_Z (work p modes sch r) / inject_Z (mk * x) <= 1)%Q).
    { split.
      - apply Qle_shift_div_l; [exact P|]. rewrite Qmult_0_l. change 0%Q with (inject_Z 0). now rewrite <- Zle_Qle.
      - apply Qle_shift_div_r; [exact P|]. rewrite Qmult_1_l. now rewrite <- Zle_Qle. }
    destruct R as [R1 R2]. split.
    - apply (Qplus_le_l _ _ (inject_Z (work p modes sch r) / inject_Z (mk * x))%Q).
      setoid_replace (1 - inject_Z (work p modes sch r) / inject_Z (mk * x) + inject_Z (work p modes sch r) / inject_Z (mk * x))%Q with 1%Q by ring.
      now rewrite Qplus_0_l.
    - setoid_replace 1%Q with (1 - 0)%Q at 2 by reflexivity. unfold Qminus. apply Qplus_le_compat; [apply Qle_refl|]. now apply Qopp_le_compat. }
  rewrite V. exact G.
Qed.

(** The schedules that are generated, when every task must be over for the sink to start *)
Theorem C140_generated : forall p perm modes modes' sch n mk c,
  sane p -> Permutation perm (seq 0 n) -> length modes = n -> serial_sgs p perm modes = Ok (modes', (sch, true)) ->
  tasks p modes' n -> makespan p sch mk -> (forall a s e, In (a, (s, e)) sch -> (e <= mk)%Z) -> (0 < mk)%Z ->
  (forall a m, a = 1 \/ a = n + 2 -> chosen p modes' a = Some m -> m_duration m = 0) ->
  p_res p = Constant c -> c <> [] -> (forall r x, In (r, x) c -> x <> 0%Z) -> (forall a r, (0 <= demand p modes' a r)%Z) ->
  exists v, mean_reserve p modes' sch true = Ok v /\ (0 <= v <= 1)%Q /\
    (v == average (fun rx => 1 - inject_Z (work p modes' sch (fst rx)) / inject_Z (mk * snd rx)) c)%Q.
Proof.
  intros p perm modes modes' sch n mk c Sa P L G T Sp En Po Ou Cc Ne Nz De.
  destruct (C38_feasible p perm modes modes' sch n Sa (k_sink _ _ _ T) P L G) as [Ti Wi]. destruct Ti as [Ta Le _].
  assert (M : measurable p modes' n sch mk c).
  { constructor; auto.
    - intros a s e I. destruct (Le _ _ _ I) as (m & _ & S0 & ->). lia.
    - intros a s e Ha I. destruct (Le _ _ _ I) as (m & Cm & S0 & ->). rewrite (Ou a m Ha Cm). lia. }
  destruct (C140_range p modes' n sch mk c M Sa Wi De) as (v & E & R). destruct (C140_work p modes' n sch mk c M) as (v' & E' & V').
  rewrite E in E'. injection E' as <-. exists v. auto.
Qed.

(** A schedule that is not feasible has no reserve. *)
Theorem C140_infeasible : forall p modes sch, mean_reserve p modes sch false = Ok 0%Q.
Proof. reflexivity. Qed.

(** * Concrete cases *)
Local Open Scope string_scope.
Lemma ex_measurable : measurable ex_p [1; 2; 1] 3 ex_sch 7 [("R", 2%Z); ("N", 3%Z)].
Proof.
  constructor; try (exact ex_tasks || reflexivity || discriminate).
  - destruct C38_ex as (_ & [Ta _ _] & _). exact Ta.
  - intros a s e I. cbn in I. repeat (destruct I as [I|I]; [injection I as <- <- <-; lia|]). contradiction.
  - intros a s e I. cbn in I. repeat (destruct I as [I|I]; [injection I as <- <- <-; lia|]). contradiction.
  - exists 7%Z. cbn. auto 10.
  - intros a s e Ha I. cbn in I. repeat (destruct I as [I|I]; [injection I as <- <- <-; lia|]). contradiction.
  - intros r x I. cbn in I. repeat (destruct I as [I|I]; [injection I as <- <-; lia|]). contradiction.
Qed.

Lemma ex_demand : forall a r, (0 <= demand ex_p [1; 2; 1]%nat a r)%Z.
Proof.
  intros a r. unfold demand. destruct (chosen ex_p [1; 2; 1]%nat a) as [m|] eqn:E; [|lia].
  destruct (dget (m_need m) r) as [x|] eqn:D; [|lia]. unfold chosen in E.
  do 6 (destruct a as [|a]; [cbn in E; try discriminate; try (injection E as <-); apply dget_In in D; cbn in D; intuition (try congruence); repeat match goal with J : (_, _) = (_, _) |- _ => injection J as <- <- end; lia|]).
  cbn in E. discriminate.
Qed.

Example C140_ex : measurable ex_p [1; 2; 1] 3 ex_sch 7 [("R", 2%Z); ("N", 3%Z)] /\ sane ex_p /\ within ex_p [1; 2; 1] ex_sch /\
  serial_sgs ex_p [2; 1; 0] [1; 2; 1] = Ok ([1; 2; 1], (ex_sch, true)) /\
  (exists v, mean_reserve ex_p [1; 2; 1] ex_sch true = Ok v /\ (v == 43 # 84)%Q /\ (0 <= v <= 1)%Q) /\
  work ex_p [1; 2; 1] ex_sch "R" = 9%Z /\ work ex_p [1; 2; 1] ex_sch "N" = 7%Z.
Proof.
  destruct C38_ex as (G & _ & Wi & _).
  split; [exact ex_measurable|]. split; [exact ex_sane|]. split; [exact Wi|]. split; [exact G|].
  split; [|split; reflexivity].
  destruct (C140_generated ex_p [2; 1; 0] [1; 2; 1] [1; 2; 1] ex_sch 3 7 [("R", 2%Z); ("N", 3%Z)]) as (v & E & R & V).
  - exact ex_sane.
  - apply Permutation_sym. exact (Permutation_rev [0; 1; 2]).
  - reflexivity.
  - exact G.
  - exact ex_tasks.
  - exact (me_span _ _ _ _ _ _ ex_measurable).
  - exact (me_end _ _ _ _ _ _ ex_measurable).
  - reflexivity.
  - intros a m [-> | ->] C; cbn in C; injection C as <-; reflexivity.
  - reflexivity.
  - discriminate.
  - exact (me_nonzero _ _ _ _ _ _ ex_measurable).
  - exact ex_demand.
  - exists v. split; [exact E|]. split; [rewrite V; reflexivity|exact R].
Qed.

(** What a task takes of a non-renewable resource is given back when the task ends: of a resource that is all spent in
    the end, two thirds are said to be in reserve. *)
Theorem C140_spent_refuted : exists p modes n sch mk c v,
  measurable p modes n sch mk c /\ sane p /\ within p modes sch /\ mean_reserve p modes sch true = Ok v /\
  In ("N", 3%Z) c /\ In "N" (p_nonren p) /\ consumed p modes sch "N" mk = 3%Z /\
  (average (fun t => inject_Z (3 - running p modes sch "N" (Z.of_nat t))) (seq 0 (Z.to_nat mk)) / 3 == 2 # 3)%Q /\
  ~ (v == average (fun rx => average (fun t => inject_Z (snd rx -
            if pymem (fst rx) (p_nonren p) then consumed p modes sch (fst rx) (Z.of_nat t) else running p modes sch (fst rx) (Z.of_nat t)))
            (seq 0 (Z.to_nat mk)) / inject_Z (snd rx)) c)%Q.
Proof.
  exists ex_p, [1; 2; 1], 3, ex_sch, 7%Z, [("R", 2%Z); ("N", 3%Z)]. eexists.
  split; [exact ex_measurable|]. split; [exact ex_sane|]. split; [apply C38_ex|]. split; [vm_compute; reflexivity|].
  split; [cbn; auto|]. split; [cbn; auto|]. split; [reflexivity|]. split; [reflexivity|]. intros X. vm_compute in X. discriminate.
Qed.

Definition nothing : rcpsp := Rcpsp (Constant [("R", 2%Z)]) []
  [(1, [(1, ex_task 0 0 0)]); (2, [(1, ex_task 0 2 0)]); (3, [(1, ex_task 0 0 0)])] [(1, [2; 3]); (2, [3]); (3, [])] 10 1.
(** A feasible schedule of tasks without duration has no number for its reserve. *)
Theorem C140_no_time_refuted : exists p perm modes modes' sch,
  serial_sgs p perm modes = Ok (modes', (sch, true)) /\ mean_reserve p modes' sch true = Err ZeroDivisionError.
Proof. exists nothing, [0], [1]. eexists _, _. split; [vm_compute; reflexivity|]. reflexivity. Qed.

Definition absent : rcpsp := Rcpsp (Constant [("R", 2%Z); ("N", 3%Z); ("E", 0%Z)]) ["N"]
  (map (fun am => (fst am, map (fun km => (fst km, Mode (m_duration (snd km)) (m_need (snd km) ++ [("E", 0%Z)]))) (snd am))) (p_modes ex_p))
  (p_succ ex_p) 10 1.
(** Nor has a feasible schedule when a resource that no task needs has capacity zero. *)
Theorem C140_no_capacity_refuted : exists p perm modes modes' sch,
  serial_sgs p perm modes = Ok (modes', (sch, true)) /\ mean_reserve p modes' sch true = Err ZeroDivisionError /\
  (exists mk, makespan p sch mk /\ (0 < mk)%Z) /\ forall a, demand p modes' a "E" = 0%Z.
Proof.
  exists absent, [2; 1; 0], [1; 2; 1]. eexists _, _. split; [vm_compute; reflexivity|]. split; [reflexivity|].
  split; [exists 7%Z; split; [exists 7%Z; cbn; auto 10|lia]|].
  intros a. do 6 (destruct a as [|a]; [reflexivity|]). reflexivity.
Qed.

Definition early : rcpsp := Rcpsp (p_res ex_p) ["N"] (p_modes ex_p) [(1, [2; 3; 4; 5]); (2, [4]); (3, []); (4, []); (5, [])] 10 1.
(** When the sink does not come after all the tasks, the table is too short and a feasible schedule raises an exception. *)
Theorem C140_late_refuted : exists p perm modes modes' sch,
  serial_sgs p perm modes = Ok (modes', (sch, true)) /\ timed p modes' (seq 1 (p_sink p)) sch /\ within p modes' sch /\
  mean_reserve p modes' sch true = Err IndexError.
Proof.
  exists early, [2; 1; 0], [1; 2; 1]. eexists _, _.
  assert (E : serial_sgs early [2; 1; 0] [1; 2; 1] =
    Ok ([1; 2; 1], ([(1, (0, 0)%Z); (3, (0, 3)%Z); (2, (3, 5)%Z); (4, (5, 7)%Z); (5, (0, 0)%Z)], true))) by (vm_compute; reflexivity).
  split; [exact E|].
  edestruct (fun a b c d => C38_feasible early [2; 1; 0] [1; 2; 1] _ _ 3 a b c d E) as [T W].
  - split; [apply ex_sane|]. intros r t c H. exact (s_caps _ ex_sane r t c H).
  - reflexivity.
  - apply Permutation_sym. exact (Permutation_rev [0; 1; 2]).
  - reflexivity.
  - split; [exact T|]. split; [exact W|]. reflexivity.
Qed.

Print Assumptions C140_value.
Print Assumptions C140_work.
Print Assumptions C140_range.
Print Assumptions C140_generated.
Print Assumptions C140_infeasible.
Print Assumptions C140_spent_refuted.
Print Assumptions C140_no_time_refuted.
Print Assumptions C140_no_capacity_refuted.
Print Assumptions C140_late_refuted.
