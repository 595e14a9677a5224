(** C138: comparing results. *)
From Coq Require Import String List ZArith QArith Bool Arith Lia.
From Verif Require Import Py PyList StoreModel StoreProps KnapModel KnapProofs SgsModel RobustModel GmutSpec GmutProofs CompaModel.
Import ListNotations.
Local Open Scope nat_scope.

(** * Re-evaluation *)

Section Honest.
Variables Sol Pb E : Type.
Variable change : Sol -> Pb -> res Sol.
Variable evaluate : Pb -> Sol -> res (list (string * Q) * Sol).
Variable enc : Sol -> E.
Variable good : Sol -> Prop.
Variable value : Pb -> E -> string -> Q -> Prop.
Variable scs : list Pb.
Variable objs : list string.

(** A class of solutions on which evaluation after a change of problem depends on the encoding of the
    solution only, and does not alter it. *)
Definition honest : Prop := forall s sc, good s -> In sc scs ->
  exists s1 fs s2, change s sc = Ok s1 /\ evaluate sc s1 = Ok (fs, s2) /\ enc s2 = enc s /\ good s2 /\
    forall obj, In obj objs -> exists v, dget fs obj = Some v /\ value sc (enc s) obj v.

Definition same_enc (h h' : list Sol) : Prop :=
  forall l s, nth_error h l = Some s -> good s -> exists s', nth_error h' l = Some s' /\ enc s' = enc s /\ good s'.

Lemma same_enc_set : forall h0 h l s0 s2, same_enc h0 h -> nth_error h0 l = Some s0 -> enc s2 = enc s0 -> good s2 ->
  l < length h -> same_enc h0 (lset h l s2).
Proof.
  intros h0 h l s0 s2 S N Q G L k s K Gk. rewrite nth_lset by auto. destruct (Nat.eqb_spec k l) as [-> |D].
  - rewrite N in K. injection K as <-. eauto.
  - now apply S.
Qed.

Lemma scenarios_ok : honest -> forall r obj loc s0 h0, In obj objs -> best_of r = Ok (Some loc) ->
  nth_error h0 loc = Some s0 -> good s0 ->
  forall l h acc, incl l scs -> same_enc h0 h ->
  exists h' vals, foldM (re_scenario _ _ change evaluate r obj) (h, acc) l = Ok (h', acc ++ vals) /\ same_enc h0 h' /\
    Forall2 (fun sc v => value sc (enc s0) obj v) l vals.
Proof.
  intros H r obj loc s0 h0 Io B N G. induction l as [|sc l IH]; intros h acc I S.
  - exists h, []. cbn [foldM]. rewrite app_nil_r. auto.
  - destruct (S _ _ N G) as (s & Ns & Es & Gs).
    destruct (H s sc Gs (I sc (or_introl eq_refl))) as (s1 & fs & s2 & C & Ev & E2 & G2 & V).
    destruct (V obj Io) as (v & Dv & Vv).
    assert (L : loc < length h) by (apply nth_error_Some; congruence).
    destruct (IH (lset h loc s2) (acc ++ [v])) as (h' & vals & F & S' & R).
    + intros x X. apply I. now right.
    + eapply same_enc_set; eauto. congruence.
    + exists h', (v :: vals). cbn [foldM]. unfold re_scenario at 1. rewrite B. cbn [bind fst snd]. unfold lget. rewrite Ns. cbn [bind].
      rewrite C. cbn [bind]. rewrite Ev. cbn [bind fst snd]. unfold dgetE. rewrite Dv. cbn [bind]. unfold lput.
      destruct (Nat.ltb_spec loc (length h)); [|lia]. cbn [bind]. rewrite F. split; [now rewrite <- app_assoc|]. split; auto.
      constructor; auto. now rewrite <- Es.
Qed.

Lemma objectives_ok : honest -> forall r loc s0 h0 h, best_of r = Ok (Some loc) ->
  nth_error h0 loc = Some s0 -> good s0 -> same_enc h0 h ->
  exists h' row, foldM (re_objective _ _ change evaluate r scs) (h, []) objs = Ok (h', row) /\ same_enc h0 h' /\
    forall obj, In obj objs -> exists vals, dget row obj = Some vals /\ Forall2 (fun sc v => value sc (enc s0) obj v) scs vals.
Proof.
  intros H r loc s0 h0 h B N G S.
  destruct (@foldM_total _ _ (re_objective _ _ change evaluate r scs) (fun dn (st : list Sol * list (string * list Q)) =>
     same_enc h0 (fst st) /\ forall obj, In obj dn -> exists vals, dget (snd st) obj = Some vals /\
        Forall2 (fun sc v => value sc (enc s0) obj v) scs vals) objs (h, [])) as ([h' row] & F & P).
  - split; auto. intros obj [].
  - intros l0 obj l1 [h1 d1] E1 [P1 P2]. cbn [fst snd] in *.
    destruct (scenarios_ok H r obj loc s0 h0) with (l := scs) (h := h1) (acc := @nil Q) as (h2 & vals & F & S2 & V); auto.
    { rewrite E1. apply in_or_app. right. now left. }
    { apply incl_refl. }
    unfold re_objective at 1. cbn [fst snd]. rewrite F. cbn [bind fst snd app]. eexists. split; [reflexivity|]. cbn [fst snd].
    split; auto. intros o I. destruct (string_dec o obj) as [-> |D].
    + exists vals. split; auto. apply dget_dset_same.
    + apply in_app_or in I as [I|[I|[]]]; [|congruence]. destruct (P2 o I) as (w & Dw & Vw). exists w. split; auto.
      rewrite dget_dset_other; auto.
  - exists h', row. split; auto.
Qed.

Lemma index_ok : forall (l : list (storage nat)) i r, NoDup (map r_id l) -> nth_error l i = Some r -> index_of l (r_id r) = Ok i.
Proof.
  induction l as [|x l IH]; intros [|i] r N H; cbn in H; try discriminate; cbn [index_of].
  - injection H as ->. now rewrite Nat.eqb_refl.
  - cbn in N. inversion N as [|? ? Nx Nl]; subst. destruct (Nat.eqb_spec (r_id x) (r_id r)) as [C|C].
    + exfalso. apply Nx. rewrite C. apply in_map. eapply nth_error_In; eauto.
    + rewrite (IH i r) by auto. reflexivity.
Qed.

Lemma best_ok : forall (r : storage nat) d, r_fits r <> [] -> same_size d (r_fits r) ->
  exists loc f, best_of r = Ok (Some loc) /\ In (loc, f) (r_fits r) /\
    forall q, In q (r_fits r) -> ~ dominates (r_max r) (snd q) f.
Proof.
  intros r d Ne S. unfold best_of. destruct (r_fits r) as [|x l] eqn:F; [easy|].
  destruct (p_best_fit _) as [[loc f]|e] eqn:B.
  - pose proof B as B'. apply C35_best_fit with (d := d) in B as [I U]; auto. cbn [p_fits p_max snd] in *.
    exists loc, f. cbn [bind fst]. auto.
  - unfold p_best_fit, pick in B. cbn [p_fits] in B. discriminate.
Qed.

(** The table: for every storage and objective, the value of the storage's best solution in every
    scenario, in order. *)
Theorem C138_reevaluate : forall (all : list (storage nat)) h d, honest -> NoDup (map r_id all) -> Forall good h ->
  (forall r, In r all -> r_fits r <> [] /\ same_size d (r_fits r) /\ forall p, In p (r_fits r) -> fst p < length h) ->
  exists h' t, reevaluate _ _ change evaluate all objs scs h = Ok (h', t) /\
    forall i r, nth_error all i = Some r -> exists loc f s row,
      In (loc, f) (r_fits r) /\ (forall q, In q (r_fits r) -> ~ dominates (r_max r) (snd q) f) /\
      nth_error h loc = Some s /\ dget t i = Some row /\
      forall obj, In obj objs -> exists vals, dget row obj = Some vals /\
        Forall2 (fun sc v => value sc (enc s) obj v) scs vals.
Proof.
  intros all h d H N G W. unfold reevaluate.
  destruct (@foldM_total _ _ (re_storage _ _ change evaluate all objs scs)
     (fun dn (st : list Sol * list (nat * list (string * list Q))) => same_enc h (fst st) /\
       forall i r, nth_error dn i = Some r -> exists loc f s row,
      In (loc, f) (r_fits r) /\ (forall q, In q (r_fits r) -> ~ dominates (r_max r) (snd q) f) /\
      nth_error h loc = Some s /\ dget (snd st) i = Some row /\
      forall obj, In obj objs -> exists vals, dget row obj = Some vals /\
        Forall2 (fun sc v => value sc (enc s) obj v) scs vals) all (h, [])) as ([h' t] & F & _ & P).
  - split; [intros l s Hs Gs; eauto|]. intros [|i] r X; discriminate.
  - intros l0 r l1 [h1 t1] E1 [P1 P2]. cbn [fst snd] in *.
    assert (Ir : In r all) by (rewrite E1; apply in_or_app; right; now left).
    destruct (W r Ir) as (Ne & Sz & Lo). destruct (best_ok r d Ne Sz) as (loc & f & B & Il & U).
    specialize (Lo _ Il). cbn [fst] in Lo.
    destruct (nth_error h loc) as [s|] eqn:Es; [|apply nth_error_None in Es; lia].
    assert (Gs : good s) by (eapply Forall_forall; eauto; eapply nth_error_In; eauto).
    destruct (objectives_ok H r loc s h h1 B Es Gs P1) as (h2 & row & F & S2 & V).
    assert (Ni : nth_error all (length l0) = Some r).
    { rewrite E1, nth_error_app2, Nat.sub_diag by lia. reflexivity. }
    unfold re_storage at 1. rewrite (index_ok all _ r N Ni). cbn [bind fst snd]. rewrite F. cbn [bind fst snd].
    eexists. split; [reflexivity|]. cbn [fst snd]. split; auto. intros i r' X.
    destruct (Nat.lt_ge_cases i (length l0)) as [Li|Li].
    + rewrite nth_error_app1 in X by lia. destruct (P2 i r' X) as (lo & fo & so & ro & A1 & A2 & A3 & A4 & A5).
      exists lo, fo, so, ro. repeat split; auto. rewrite dget_dset_other; auto. lia.
    + rewrite nth_error_app2 in X by lia. destruct (i - length l0) as [|k] eqn:K; [|destruct k; discriminate].
      assert (i = length l0) by lia. subst i. injection X as <-. exists loc, f, s, row. repeat split; auto. apply dget_dset_same.
  - exists h', t. split; auto.
Qed.
End Honest.
Arguments honest {Sol Pb E}.

(** Scheduling solutions whose modes exist in every scenario are re-evaluated honestly: the values are
    the objectives of the schedule made in the scenario from the permutation and the modes. *)
Theorem C138_scheduling : forall reserve scs objs,
  (forall o, In o objs -> o = "makespan"%string \/ o = "mean_resource_reserve"%string) ->
  honest change_sched (fun _ => rcpsp_evaluate reserve) (fun s => (s_perm s, s_modes s))
    (fun s => forall sc, In sc scs -> exists sch flag r, serial_sgs sc (s_perm s) (s_modes s) = Ok (s_modes s, (sch, flag)) /\
        sch <> [] /\ reserve (Some sc) (s_modes s) sch (Some flag) = Ok r)
    (fun sc pm obj v => exists f, worth reserve sc (fst pm) (snd pm) f /\ dget f obj = Some v) scs objs.
Proof.
  intros reserve scs objs O s sc G I. destruct (G sc I) as (sch & flag & r & S & Ne & R).
  unfold change_sched, new_sol, generate. cbn [s_problem s_perm s_modes]. rewrite S. cbn [bind fst snd].
  destruct (max_key (dkeys sch)) as [last|e] eqn:M; [|unfold max_key in M; destruct sch; [easy|discriminate]].
  assert (Il : In last (dkeys sch)).
  { unfold max_key in M. destruct (dkeys sch) as [|x l]; [discriminate|]. injection M as <-.
    clear. revert x. induction l as [|y l IH]; intros x; cbn; [now left|]. destruct (IH (Nat.max x y)) as [E|E]; [|tauto].
    rewrite <- E. destruct (Nat.max_spec x y) as [[_ ->]|[_ ->]]; auto. }
  destruct (dget sch last) as [[a e]|] eqn:D; [|exfalso; apply dget_None in D; contradiction].
  eexists. eexists. eexists. split; [reflexivity|]. unfold rcpsp_evaluate. cbn [s_stale bind s_sched].
  rewrite M. cbn [bind]. unfold dgetE. rewrite D. cbn [bind s_problem s_modes s_feas]. rewrite R. cbn [bind snd].
  split; [reflexivity|]. split; [reflexivity|]. split; [exact G|]. intros obj Io.
  assert (Wo : worth reserve sc (s_perm s) (s_modes s) [("makespan"%string, inject_Z e); ("mean_resource_reserve"%string, r)]).
  { exists (s_modes s), sch, flag, last, a, e, r. repeat split; auto. intros b Ib. eapply max_key_le; eauto. }
  destruct (O obj Io) as [-> | ->]; eexists; (split; [reflexivity|]); eexists; (split; [exact Wo|reflexivity]).
Qed.

Definition one_task (d1 d2 : nat) := Rcpsp (Constant [("r"%string, 1%Z)]) []
  [(1, [(1, Mode 0 [("r"%string, 0%Z)])]);
   (2, (1, Mode d1 [("r"%string, 1%Z)]) :: match d2 with 0 => [] | _ => [(2, Mode d2 [("r"%string, 1%Z)])] end);
   (3, [(1, Mode 0 [("r"%string, 0%Z)])])]
  [(1, [2]); (2, [3]); (3, [])] 20 1.
Definition zero_reserve : option rcpsp -> list nat -> schedule -> option bool -> res Q := fun _ _ _ _ => Ok 0%Q.
Definition planned (d1 d2 m : nat) : rsol :=
  let d := Z.of_nat (if m =? 1 then d1 else d2) in
  Rsol (Some (one_task d1 d2)) [0] [m] (Some [(1, (0, 0)%Z); (2, (0%Z, d)); (3, (d, d))]) false (Some true).

Example C138_reevaluate_ex :
  let h := [planned 5 2 1; planned 5 2 2] in
  let all := [Storage 0 true [(0, [-5]%Z)]; Storage 1 true [(0, [-5]%Z); (1, [-2]%Z)]] in
  exists h', reevaluate _ _ change_sched (fun _ => rcpsp_evaluate zero_reserve) all ["makespan"%string] [one_task 4 3; one_task 6 1] h
    = Ok (h', [(0, [("makespan"%string, [4; 6]%Q)]); (1, [("makespan"%string, [3; 1]%Q)])]).
Proof. eexists. reflexivity. Qed.

Example C138_scheduling_ex : Forall (fun s => forall sc, In sc [one_task 4 3; one_task 6 1] ->
    exists sch flag r, serial_sgs sc (s_perm s) (s_modes s) = Ok (s_modes s, (sch, flag)) /\
        sch <> [] /\ zero_reserve (Some sc) (s_modes s) sch (Some flag) = Ok r) [planned 5 2 1; planned 5 2 2].
Proof.
  repeat constructor; (intros sc [<-|[<-|[]]]; do 3 eexists; (split; [vm_compute; reflexivity|]; split; [easy|reflexivity])).
Qed.

(** "Knapsack solutions are re-evaluated in the scenarios": the values stored in the solution are kept
    by the change of problem. *)
Theorem C138_knapsack_refuted : exists h all sc h' t,
  reevaluate _ _ change_knap eval_knap all ["value"%string] [sc] h = Ok (h', t) /\
  all = [Storage 0 true [(0, [50]%Z)]] /\ nth_error h 0 = Some (mkSol (Some 50) (Some 9) [1; 1])%Z /\
  total it_value (m_items sc) [1; 1]%Z = 70%Z /\ t = [(0, [("value"%string, [50]%Q)])].
Proof.
  exists [mkSol (Some 50) (Some 9) [1; 1]]%Z, [Storage 0 true [(0, [50]%Z)]], (mkModel [mkItem 0 30 5; mkItem 1 40 4] 10 false)%Z.
  do 2 eexists. split; [reflexivity|]. now repeat split.
Qed.

(** "Re-evaluation leaves the results as they were": the best solutions now belong to the last
    scenario, and their problem evaluates them to something else than the fitness stored. *)
Theorem C138_untouched_refuted : exists h all scs h' t s s' f f' s2 s2',
  reevaluate _ _ change_sched (fun _ => rcpsp_evaluate zero_reserve) all ["makespan"%string] scs h = Ok (h', t) /\
  nth_error h 0 = Some s /\ nth_error h' 0 = Some s' /\
  rcpsp_evaluate zero_reserve s = Ok (f, s2) /\ rcpsp_evaluate zero_reserve s' = Ok (f', s2') /\ f <> f'.
Proof.
  exists [planned 5 2 1], [Storage 0 true [(0, [-5]%Z)]], [one_task 4 3]. do 8 eexists.
  split; [reflexivity|]. split; [reflexivity|]. split; [reflexivity|]. split; [reflexivity|]. split; [reflexivity|]. discriminate.
Qed.

(** "The values do not depend on the scenarios before": a scenario without the mode chosen replaces it,
    for the following scenarios too. *)
Theorem C138_modes_refuted : exists h h1 h2 t1 t2 sc1 sc2,
  let go scs := reevaluate _ _ change_sched (fun _ => rcpsp_evaluate zero_reserve) [Storage 0 true [(0, [-2]%Z)]] ["makespan"%string] scs h in
  go [sc1; sc2] = Ok (h1, [(0, [("makespan"%string, t1)])]) /\ go [sc2] = Ok (h2, [(0, [("makespan"%string, t2)])]) /\
  t1 = [7; 6]%Q /\ t2 = [1]%Q.
Proof.
  exists [planned 5 2 2]. do 4 eexists. exists (one_task 7 0), (one_task 6 1). cbn zeta.
  split; [reflexivity|]. split; [reflexivity|]. now split.
Qed.

(** "Every storage listed has its row": a storage listed twice has one row only. *)
Theorem C138_twice_refuted : exists h r h' t,
  reevaluate _ _ change_sched (fun _ => rcpsp_evaluate zero_reserve) [r; r] ["makespan"%string] [one_task 4 3] h = Ok (h', t) /\
  dget t 1 = None.
Proof. exists [planned 5 2 1], (Storage 0 true [(0, [-5]%Z)]). do 2 eexists. split; reflexivity. Qed.

(** * Best by objective *)

Lemma index_str_ok : forall l k x, NoDup l -> nth_error l k = Some x -> index_str l x = Ok k.
Proof.
  induction l as [|y l IH]; intros [|k] x N H; cbn in H; try discriminate; cbn [index_str]; inversion N as [|? ? Ny Nl]; subst.
  - injection H as ->. now rewrite String.eqb_refl.
  - destruct (String.eqb_spec y x) as [-> |D]; [exfalso; apply Ny; eapply nth_error_In; eauto|]. now rewrite (IH k x).
Qed.

Lemma index_Z_ok : forall l x, In x l -> exists i, index_Z l x = Ok i /\ nth_error l i = Some x /\
  forall j, j < i -> nth_error l j <> Some x.
Proof.
  induction l as [|y l IH]; intros x I; [destruct I|]. cbn [index_Z]. destruct (Z.eqb_spec y x) as [-> |D].
  - exists 0. repeat split; auto. intros j Hj. lia.
  - destruct I as [I|I]; [contradiction|]. destruct (IH x I) as (i & E & N & B). rewrite E. cbn [bind]. exists (1 + i).
    repeat split; auto. intros [|j] Hj; cbn; [congruence|]. apply B. lia.
Qed.

Lemma py_extreme_ok : forall mx l, l <> [] -> exists x, py_extreme mx l = Ok x /\ In x l /\
  forall y, In y l -> if mx then (y <= x)%Z else (x <= y)%Z.
Proof.
  intros mx [|x l] Ne; [easy|]. unfold py_extreme. eexists. split; [reflexivity|].
  revert x Ne. induction l as [|y l IH]; intros x _; cbn [fold_left].
  - split; [now left|]. intros y [<-|[]]. destruct mx; lia.
  - destruct (IH ((if mx then Z.max else Z.min) x y) ltac:(easy)) as [I B]. set (r := fold_left _ l _) in *. split.
    + destruct I as [I|I]; [|cbn; tauto]. rewrite <- I. destruct mx; [destruct (Z.max_spec x y) as [[_ ->]|[_ ->]]|destruct (Z.min_spec x y) as [[_ ->]|[_ ->]]]; cbn; auto.
    + intros z [<-|[<-|Z]]; [| |apply B; now right]; specialize (B _ (or_introl eq_refl)); destruct mx; lia.
Qed.

(** For an objective, under the name of each storage, the first of its pairs with the best value of
    that objective. *)
Theorem C138_best_by_objective : forall S objs names (all : list (storage S)) obj k,
  NoDup objs -> nth_error objs k = Some obj -> NoDup names -> length names = length all ->
  (forall r, In r all -> r_fits r <> [] /\ forall p, In p (r_fits r) -> k < length (snd p)) ->
  exists val, best_by_objective objs names all obj = Ok val /\
    forall i r name, nth_error all i = Some r -> nth_error names i = Some name ->
      exists p x j, dget val name = Some p /\ nth_error (r_fits r) j = Some p /\ nth_error (snd p) k = Some x /\
        (forall q y, In q (r_fits r) -> nth_error (snd q) k = Some y -> if r_max r then (y <= x)%Z else (x <= y)%Z) /\
        (forall j' q, j' < j -> nth_error (r_fits r) j' = Some q -> nth_error (snd q) k <> Some x).
Proof.
  intros S objs names all obj k No Ko Nn Ln W. unfold best_by_objective. rewrite (index_str_ok objs k obj No Ko). cbn [bind].
  assert (BE : forall r, In r all -> exists p x j, best_entry k r = Ok p /\ nth_error (r_fits r) j = Some p /\ nth_error (snd p) k = Some x /\
        (forall q y, In q (r_fits r) -> nth_error (snd q) k = Some y -> if r_max r then (y <= x)%Z else (x <= y)%Z) /\
        (forall j' q, j' < j -> nth_error (r_fits r) j' = Some q -> nth_error (snd q) k <> Some x)).
  { intros r Ir. destruct (W r Ir) as [Ne Lk]. unfold best_entry.
    assert (A : exists arr, mapM (fun p : S * list Z => lget (snd p) k) (r_fits r) = Ok arr).
    { clear - Lk. induction (r_fits r) as [|p l IH]; [now exists []|]. destruct (@lget_lt _ (snd p) k (Lk p (or_introl eq_refl))) as [y Y].
      destruct IH as [arr A]; [intros q Q; apply Lk; now right|]. exists (y :: arr). cbn [mapM]. rewrite Y. cbn [bind]. now rewrite A. }
    destruct A as [arr A].
    rewrite A. cbn [bind]. pose proof (mapM_length _ _ A) as La.
    assert (At : forall j p y, nth_error (r_fits r) j = Some p -> nth_error arr j = Some y -> nth_error (snd p) k = Some y).
    { intros j p y Hp Hy. destruct (mapM_nth _ _ j A Hy) as (p' & Hp' & E). rewrite Hp in Hp'. injection Hp' as <-. now apply lget_ok in E. }
    destruct (py_extreme_ok (r_max r) arr) as (x & E & Ix & Bx). { destruct arr; [destruct (r_fits r); [easy|discriminate]|easy]. }
    rewrite E. cbn [bind]. destruct (index_Z_ok arr x Ix) as (j & Ej & Nj & Fj). rewrite Ej. cbn [bind].
    destruct (nth_error (r_fits r) j) as [p|] eqn:P; [|apply nth_error_None in P; assert (j < length arr) by (apply nth_error_Some; congruence); lia].
    exists p, x, j. unfold lget. rewrite P. split; [reflexivity|]. split; [reflexivity|]. split; [eauto|]. split.
    - intros q y Iq Y. apply In_nth_error in Iq as [m Q]. destruct (nth_error arr m) as [z|] eqn:Zm.
      + pose proof (At _ _ _ Q Zm) as C. assert (z = y) by congruence. subst. apply Bx. eapply nth_error_In; eauto.
      + apply nth_error_None in Zm. assert (m < length (r_fits r)) by (apply nth_error_Some; congruence). lia.
    - intros j' q Lj Q C. destruct (nth_error arr j') as [z|] eqn:Zm.
      + pose proof (At _ _ _ Q Zm) as C'. apply (Fj j' Lj). congruence.
      + apply nth_error_None in Zm. assert (j' < length (r_fits r)) by (apply nth_error_Some; congruence). lia. }
  assert (G : forall l n acc, (forall i r, nth_error l i = Some r -> In r all) -> n + length l <= length names ->
     exists val, foldM (fun val ir => let* b := best_entry k (snd ir) in let* name := lget names (fst ir) in Ok (dset val name b))
        acc (combine (seq n (length l)) l) = Ok val /\
       (forall i r name, nth_error l i = Some r -> nth_error names (n + i) = Some name -> exists p, best_entry k r = Ok p /\ dget val name = Some p) /\
       (forall m name, m < n -> nth_error names m = Some name -> dget val name = dget acc name)).
  { induction l as [|r l IH]; intros n acc Il Lg; cbn [length seq combine foldM].
    - exists acc. split; auto. split; auto. intros [|i] r name X; discriminate.
    - cbn [length] in Lg. destruct (BE r (Il 0 r eq_refl)) as (p & _ & _ & Ep & _). cbn [fst snd]. rewrite Ep. cbn [bind].
      destruct (nth_error names n) as [nm|] eqn:Nm; [|apply nth_error_None in Nm; lia].
      unfold lget at 1. rewrite Nm. cbn [bind].
      destruct (IH (1 + n) (dset acc nm p)) as (val & F & V & O); [intros i r' X; apply (Il (1 + i) r' X)|lia|].
      exists val. split; [exact F|]. split.
      + intros [|i] r' name X Y; cbn in X.
        * injection X as <-. rewrite Nat.add_0_r in Y. assert (name = nm) by congruence. subst. exists p. split; auto.
          rewrite (O n nm) by (auto; lia). apply dget_dset_same.
        * apply (V i r' name X). replace (1 + n + i) with (n + Datatypes.S i) by lia. exact Y.
      + intros m name Lm Y. rewrite (O m name) by (auto; lia). apply dget_dset_other. intros C. subst.
        assert (m = n); [|lia]. apply (proj1 (NoDup_nth_error names) Nn); [apply nth_error_Some; congruence|congruence]. }
  destruct (G all 0 []) as (val & F & V & _); [intros i r X; eapply nth_error_In; eauto|lia|].
  exists val. split; [exact F|]. intros i r name Hr Hn. destruct (V i r name Hr Hn) as (p & Ep & Dp).
  destruct (BE r (nth_error_In _ _ Hr)) as (p' & x & j & Ep' & R). rewrite Ep in Ep'. injection Ep' as <-. exists p, x, j. tauto.
Qed.

Example C138_best_by_objective_ex :
  best_by_objective ["makespan"; "reserve"]%string ["A"; "B"]%string
    [Storage 0 true [(7, [1; 5]%Z); (8, [3; 2]%Z); (9, [3; 9]%Z)]; Storage 1 false [(4, [2; 2]%Z); (5, [6; 0]%Z)]] "makespan"%string
  = Ok [("A"%string, (8, [3; 2]%Z)); ("B"%string, (4, [2; 2]%Z))].
Proof. reflexivity. Qed.

(** * The common front *)

(** Of storages that maximise, the common front is made of the pairs that no pair of any storage
    dominates, and every pair of every storage is in it or dominated by one in it. *)
Theorem C138_super_pareto : forall S (ES : PyEq S) (all : list (storage S)) d,
  (exists r p, In r all /\ In p (r_fits r)) ->
  (forall r, In r all -> same_size d (r_fits r)) ->
  (forall r r' s f g, In r all -> In r' all -> In (s, f) (r_fits r) -> In (s, g) (r_fits r') -> f = g) ->
  exists front, super_pareto all = Ok front /\
    (forall p, In p front <-> (exists r, In r all /\ In p (r_fits r)) /\
       forall r q, In r all -> In q (r_fits r) -> ~ dominates true (snd q) (snd p)) /\
    (forall r q, In r all -> In q (r_fits r) -> exists p, In p front /\ (p = q \/ dominates true (snd p) (snd q))).
Proof.
  intros S ES all d [r0 [p0 [Ir0 Ip0]]] Sz Co. unfold super_pareto.
  assert (Fm : forall p, In p (flat_map r_fits all) <-> exists r, In r all /\ In p (r_fits r)).
  { intros p. rewrite in_flat_map. tauto. }
  destruct (C35_front (flat_map r_fits all) [] true d) as (pf0 & pf & E0 & E & A & B & _).
  - intros C. assert (I : In p0 (flat_map r_fits all)) by (apply Fm; eauto). rewrite C in I. destruct I.
  - rewrite app_nil_r. intros p I. apply Fm in I as [r [Ir Ip]]. now apply (Sz r).
  - rewrite app_nil_r. intros s f g I J. apply Fm in I as [r [Ir Ip]]. apply Fm in J as [r' [Ir' Ip']]. eapply Co; [exact Ir|exact Ir'|eauto..].
  - rewrite E0. cbn [bind]. unfold p_adds in E. cbn [foldM] in E. injection E as <-. rewrite app_nil_r in A, B.
    eexists. split; [reflexivity|]. split.
    + intros p. rewrite (A p), Fm. split.
      * intros [H1 H2]. split; auto. intros r q Ir Iq. apply H2. apply Fm. eauto.
      * intros [H1 H2]. split; auto. intros q Iq. apply Fm in Iq as [r [Ir Iq]]. eauto.
    + intros r q Ir Iq. apply B. apply Fm. eauto.
Qed.

Example C138_super_pareto_ex :
  super_pareto [Storage 0 true [(7, [1; 5]%Z); (8, [3; 2]%Z)]; Storage 1 true [(4, [2; 2]%Z); (5, [6; 0]%Z)]]
  = Ok [(7, [1; 5]%Z); (8, [3; 2]%Z); (5, [6; 0]%Z)].
Proof. reflexivity. Qed.

(** "The common front is the front of all the results": for storages that minimise it is the front of
    the opposite sense. *)
Theorem C138_minimise_refuted : exists (all : list (storage nat)) front p q,
  (forall r, In r all -> r_max r = false) /\ super_pareto all = Ok front /\
  In p front /\ (exists r, In r all /\ In q (r_fits r)) /\ dominates false (snd q) (snd p) /\ ~ In q front.
Proof.
  exists [Storage 0 false [(0, [1; 1]%Z)]; Storage 1 false [(1, [2; 3]%Z)]], [(1, [2; 3]%Z)], (1, [2; 3]%Z), (0, [1; 1]%Z).
  split; [intros r [<-|[<-|[]]]; reflexivity|]. split; [reflexivity|]. split; [now left|].
  split; [exists (Storage 0 false [(0, [1; 1]%Z)]); split; now left|]. split.
  - split.
    + intros [|[|[|i]]] x y X Y; cbn in X, Y; try discriminate; injection X as <-; injection Y as <-; lia.
    + exists 0, 1%Z, 2%Z. split; [reflexivity|]. split; [reflexivity|]. lia.
  - intros [C|[]]. discriminate.
Qed.

Print Assumptions C138_reevaluate.
Print Assumptions C138_scheduling.
Print Assumptions C138_knapsack_refuted.
Print Assumptions C138_untouched_refuted.
Print Assumptions C138_modes_refuted.
Print Assumptions C138_twice_refuted.
Print Assumptions C138_best_by_objective.
Print Assumptions C138_super_pareto.
Print Assumptions C138_minimise_refuted.
