(** Properties of the integer programs of project scheduling: C125 (several modes), C126 (one mode). *)
From Coq Require Import String.
From Coq Require Import List Bool Arith ZArith Lia Permutation.
From Coq Require Import ZifyBool ZifyNat.
From Verif Require Import Py PyList TspProofs SgsModel SgsProofs SgsTotalProofs SgsProps SatProps BindSolProps MilpModel MilpProofs
  MilpFacProps MilpRcpspModel.
Import ListNotations.
Open Scope nat_scope.

(** * Specification vocabulary *)
(** A complete instance with tasks 1 to [n + 2]: source and sink have mode 1 only, the sink takes no time, and every
    other task precedes some task. *)
Record lp_instance (p : rcpsp) (n : nat) : Prop := {
  l_instance : instance p;
  l_tasks : Permutation (dkeys (p_modes p)) (seq 1 (n + 2));
  l_modes : forall a d, dget (p_modes p) a = Some d -> NoDup (dkeys d);
  l_ends : forall a d, a = 1 \/ a = n + 2 -> dget (p_modes p) a = Some d -> dkeys d = [1];
  l_sink : forall d m, dget (p_modes p) (n + 2) = Some d -> dget d 1 = Some m -> m_duration m = 0;
  l_succ : forall a, In a (dkeys (p_succ p)) -> 1 <= a <= n + 2;
  l_nonren : incl (p_nonren p) (res_names p);
  l_next : forall a, 1 <= a < n + 2 -> exists l b, dget (p_succ p) a = Some l /\ In b l
}.
(** Every resource has a capacity at the times before [h]. *)
Definition covered (p : rcpsp) (h : nat) : Prop := forall r t, In r (res_names p) -> t < h -> capacity_of p r t <> None.
(** A feasible schedule: all tasks, each for the length of its mode and after its predecessors, ending at [e], within
    the renewable capacities until then and within the non-renewable totals. *)
Record feasible (p : rcpsp) (n : nat) (modes : list nat) (sch : schedule) (e : Z) : Prop := {
  f_timed : timed p modes (seq 1 (n + 2)) sch;
  f_end : makespan p sch e;
  f_total : non_renewables_fit p modes;
  f_running : forall r t c, ~ In r (p_nonren p) -> (Z.of_nat t < e)%Z -> capacity_of p r t = Some c ->
    (running p modes sch r (Z.of_nat t) <= c)%Z
}.
(** The wishes of a partial solution: start times, and orders in which tasks start. *)
Definition chains (ps : partial_solution) : list (list nat) := given (ps_permutation ps) :: given (ps_orders ps).
Record honours (ps : partial_solution) (sch : schedule) : Prop := {
  h_starts : forall a t, In (a, t) (given (ps_start_times ps)) -> exists e, In (a, (Z.of_nat t, e)) sch;
  h_orders : forall l i j a b sa ea sb eb, In l (chains ps) -> i < j -> nth_error l i = Some a -> nth_error l j = Some b ->
    In (a, (sa, ea)) sch -> In (b, (sb, eb)) sch -> (sa <= sb)%Z
}.
Definition honoured (ps : option partial_solution) (sch : schedule) : Prop :=
  match ps with None => True | Some ps => honours ps sch end.
(** It only speaks about the tasks of the problem. *)
Definition known (n : nat) (ps : option partial_solution) : Prop :=
  match ps with
  | None => True
  | Some ps => (forall a t, In (a, t) (given (ps_start_times ps)) -> 1 <= a <= n + 2) /\
               (forall l a, In l (chains ps) -> In a l -> 1 <= a <= n + 2)
  end.

(** * The program in terms of modes and starts *)
Definition mdf (p : rcpsp) (a m : nat) : mode := match mode_at p a m with Ok x => x | Err _ => Mode 0 [] end.
Definition needf (p : rcpsp) (a m : nat) (r : string) : Z := match dget (m_need (mdf p a m)) r with Some x => x | None => 0%Z end.
Definition modesf (p : rcpsp) (a : nat) : list nat := match dget (p_modes p) a with Some d => dkeys d | None => [] end.
Definition keysf (p : rcpsp) (T : list nat) (a : nat) : list key := flat_map (fun m => map (fun t => (a, m, t)) T) (modesf p a).

Section Rp.
Variables (p : rcpsp) (n h : nat).
Hypothesis L : lp_instance p n.
Hypothesis Hh : 0 < h.
Hypothesis Cov : covered p h.
Let T := seq 0 h.
Let N := n + 2.
Let J := seq 1 N.
Let xs := flat_map (keysf p T) J.

Lemma tasks_seq : rp_tasks p = J.
Proof. apply sort_seq, L. Qed.
Lemma sink_is : p_sink p = N.
Proof. pose proof (Permutation_length (l_tasks _ _ L)) as E. unfold dkeys in E. rewrite map_length, seq_length in E. exact E. Qed.
Lemma in_J : forall a, In a J <-> 1 <= a <= N.
Proof. intros a. unfold J. rewrite in_seq. lia. Qed.
Lemma task_dict : forall a, In a J -> exists d, dget (p_modes p) a = Some d /\ modesf p a = dkeys d.
Proof.
  intros a I. apply in_J in I. destruct (in_task _ (l_instance _ _ L) a) as (d & m & D & _); [rewrite sink_is; lia|].
  exists d. split; auto. unfold modesf. now rewrite D.
Qed.
Lemma in_keys : forall a x m t, In (x, m, t) (keysf p T a) <-> x = a /\ In m (modesf p a) /\ t < h.
Proof.
  intros a x m t. unfold keysf. rewrite in_flat_map. split.
  - intros (m' & I & K). apply in_map_iff in K as (t' & E & K). injection E as <- <- <-. apply in_seq in K. split; [auto|split; [auto|lia]].
  - intros (-> & I & Lt). exists m. split; auto. apply in_map_iff. exists t. split; auto. apply in_seq. lia.
Qed.
Lemma nodup_keys : forall a, In a J -> NoDup (keysf p T a).
Proof.
  intros a I. destruct (task_dict a I) as (d & D & E). unfold keysf. rewrite E. pose proof (l_modes _ _ L a d D) as Nd.
  clear D E I. induction Nd as [|m l Nm Nd IH]; [constructor|]. cbn [flat_map]. apply PyMore.NoDup_app_disjoint; auto.
  - apply FinFun.Injective_map_NoDup; [intros x y H; congruence|apply seq_NoDup].
  - intros k I1 I2. apply in_map_iff in I1 as (t & <- & _). apply in_flat_map in I2 as (m' & I2 & I3).
    apply in_map_iff in I3 as (t' & E' & _). injection E' as -> ->. contradiction.
Qed.
Lemma mode_ok : forall a m, In a J -> In m (modesf p a) -> mode_at p a m = Ok (mdf p a m) /\
  exists d, dget (p_modes p) a = Some d /\ dget d m = Some (mdf p a m).
Proof.
  intros a m I M. destruct (task_dict a I) as (d & D & E). rewrite E in M.
  assert (X : exists x, dget d m = Some x).
  { destruct (dget d m) eqn:G; eauto. exfalso. apply (proj1 (dget_None d m)) in G. auto. }
  destruct X as [x X]. assert (Y : mode_at p a m = Ok x) by (unfold mode_at, dgetE; rewrite D; cbn [bind]; now rewrite X).
  unfold mdf. rewrite Y. split; auto. exists d. auto.
Qed.
Lemma need_got : forall a m r, In a J -> In m (modesf p a) -> In r (res_names p) -> dgetE (m_need (mdf p a m)) r = Ok (needf p a m r).
Proof.
  intros a m r I M R. destruct (mode_ok a m I M) as (_ & d & D & G).
  destruct (in_need _ (l_instance _ _ L) a d m _ r D G R) as [x X]. unfold needf, dgetE. now rewrite X.
Qed.
Lemma in_xs : forall a m t, In (a, m, t) xs <-> In a J /\ In m (modesf p a) /\ t < h.
Proof.
  intros a m t. unfold xs. rewrite in_flat_map. split.
  - intros (b & I & K). apply in_keys in K as (-> & M & Lt). auto.
  - intros (I & M & Lt). exists a. split; auto. apply in_keys. auto.
Qed.

Lemma vpt_ok : mapM (keys_of p T) (rp_tasks p) = Ok (map (fun a => (a, keysf p T a)) J).
Proof.
  rewrite tasks_seq. apply mapM_total. intros a I. destruct (task_dict a I) as (d & D & E).
  unfold keys_of, dgetE, keysf. rewrite D, E. reflexivity.
Qed.
Lemma xs_ok : concat (map snd (map (fun a => (a, keysf p T a)) J)) = xs.
Proof. rewrite map_map. cbn [snd]. unfold xs. now rewrite flat_map_concat_map. Qed.
Lemma vpt_get : forall a, In a J -> dgetE (map (fun a => (a, keysf p T a)) J) a = Ok (keysf p T a).
Proof.
  intros a. unfold dgetE. induction J as [|b l IH]; intros I; [destruct I|]. cbn [map dget].
  destruct (py_dec a b) as [<-|Ne].
  - now rewrite pyeqb_refl.
  - destruct (pyeqb_spec a b); [contradiction|]. apply IH. destruct I; [congruence|auto].
Qed.

(** Capacities used by the program. *)
Definition capf (r : string) (t : nat) : Z := match capacity_of p r t with Some c => c | None => 0%Z end.
Lemma cap_ok : forall r t, In r (res_names p) -> t < h -> capacity_of p r t = Some (capf r t) /\ quantity p r t = Ok (capf r t).
Proof.
  intros r t R Lt. specialize (Cov r t R Lt). unfold capf. destruct (capacity_of p r t) as [c|] eqn:E; [|congruence]. split; auto.
  unfold capacity_of in E. unfold quantity, dgetE, lget. destruct (p_res p) as [d|d]; destruct (dget d r); try discriminate; cbn [bind]; [congruence|].
  now rewrite E.
Qed.
Definition active (t : nat) (k : key) : bool := let '(a, m, s) := k in (s <=? t) && (t <? s + m_duration (mdf p a m)).
Definition use (r : string) (k : key) : Z := let '(a, m, s) := k in needf p a m r.
Definition lasts (k : key) : Z := let '(a, m, s) := k in Z.of_nat (m_duration (mdf p a m)).
Definition begins (k : key) : Z := let '(a, m, s) := k in Z.of_nat s.
Lemma concat_filter : forall A B (b : A -> bool) (f : A -> B) l, concat (map (fun x => if b x then [f x] else []) l) = map f (filter b l).
Proof. induction l as [|x l IH]; [reflexivity|]. cbn [map concat filter]. rewrite IH. destruct (b x); reflexivity. Qed.
Lemma running_ok : forall r t, In r (res_names p) -> t < h ->
  rp_running p xs r t = Ok (Constr (esum (map (fun k => escale (use r k) (key_x k)) (filter (active t) xs))) SLe (econst (capf r t))).
Proof.
  intros r t R Lt. unfold rp_running.
  rewrite (mapM_total _ (fun k => if active t k then [escale (use r k) (key_x k)] else [])).
  - cbn [bind]. destruct (cap_ok r t R Lt) as [_ ->]. cbn [bind]. now rewrite concat_filter.
  - intros [[a m] s] I. apply in_xs in I as (Ia & M & _). destruct (mode_ok a m Ia M) as [-> _]. cbn [bind active use].
    destruct ((s <=? t) && (t <? s + m_duration (mdf p a m))); auto. rewrite need_got by auto. reflexivity.
Qed.
Lemma total_ok : forall r, In r (res_names p) ->
  rp_total p T xs r = Ok (Constr (esum (map (fun k => escale (use r k) (key_x k)) xs)) SLe (econst (capf r 0))).
Proof.
  intros r R. unfold rp_total. rewrite (mapM_total _ (fun k => escale (use r k) (key_x k))).
  - cbn [bind]. destruct (cap_ok r 0 R Hh) as [_ ->]. cbn [bind]. destruct (p_res p); auto.
    unfold T. destruct h; [lia|]. reflexivity.
  - intros [[a m] s] I. apply in_xs in I as (Ia & M & _). destruct (mode_ok a m Ia M) as [-> _]. cbn [bind].
    rewrite need_got by auto. reflexivity.
Qed.
Lemma duration_ok : forall a, In a J ->
  rp_duration p (a, keysf p T a) = Ok (Constr (esum (map (fun k => escale (lasts k) (key_x k)) (keysf p T a))) SEq (evar (RD a))).
Proof.
  intros a I. unfold rp_duration. cbn [fst snd]. rewrite (mapM_total _ (fun k => escale (lasts k) (key_x k))); [reflexivity|].
  intros [[b m] s] K. apply in_keys in K as (-> & M & _). destruct (mode_ok a m I M) as [-> _]. reflexivity.
Qed.
Definition succf (a : nat) : list nat := match dget (p_succ p) a with Some l => l | None => [] end.
Lemma succ_ok : forall a, In a J -> dget (p_succ p) a = Some (succf a) /\ forall b, In b (succf a) -> In b J.
Proof.
  intros a I. apply in_J in I. destruct (in_succ _ (l_instance _ _ L) a) as [l E]; [rewrite sink_is; lia|].
  unfold succf. rewrite E. split; auto. intros b Ib. apply in_J. eapply (l_succ _ _ L), in_closed; eauto using l_instance.
Qed.
Lemma after_ok : forall a, In a J -> rp_after p (map (fun a => (a, keysf p T a)) J) a =
  Ok (map (fun b => Constr (esum (time_terms 1 (keysf p T b) ++ time_terms (-1) (keysf p T a))) SGe (evar (RD a))) (succf a)).
Proof.
  intros a I. destruct (succ_ok a I) as [E S]. unfold rp_after. unfold dgetE at 1. rewrite E. cbn [bind]. apply mapM_total.
  intros b Ib. rewrite !vpt_get by auto. reflexivity.
Qed.

Definition renew : list string := filter (fun r => negb (pymem r (p_nonren p))) (res_names p).
Definition the_milp : milp rvar :=
  Milp (map (fun k : key => let '(a, m, t) := k in binary_var (RX a m t)) xs ++ map (fun a => Var (RD a) 0 None) J)
    (map (fun a => Constr (esum (map key_x (keysf p T a))) SEq (econst 1)) J ++
     map (fun rt : string * nat => Constr (esum (map (fun k => escale (use (fst rt) k) (key_x k)) (filter (active (snd rt)) xs))) SLe
            (econst (capf (fst rt) (snd rt)))) (flat_map (fun r => map (pair r) T) renew) ++
     map (fun r => Constr (esum (map (fun k => escale (use r k) (key_x k)) xs)) SLe (econst (capf r 0))) (p_nonren p) ++
     map (fun a => Constr (esum (map (fun k => escale (lasts k) (key_x k)) (keysf p T a))) SEq (evar (RD a))) J ++
     concat (map (fun a => map (fun b => Constr (esum (time_terms 1 (keysf p T b) ++ time_terms (-1) (keysf p T a))) SGe (evar (RD a))) (succf a)) J))
    (esum (time_terms 1 (keysf p T N))) false.
Lemma mapM_map : forall A B C (f : A -> B) (g : B -> res C) l, mapM g (map f l) = mapM (fun x => g (f x)) l.
Proof. induction l as [|x l IH]; [reflexivity|]. cbn [map mapM]. now rewrite IH. Qed.
Lemma milp_ok : rp_milp p T = Ok the_milp.
Proof.
  unfold rp_milp. rewrite vpt_ok. cbn [bind]. rewrite xs_ok.
  rewrite (mapM_total _ (fun r => r)) by (intros r I; unfold rp_known; apply (l_nonren _ _ L) in I; apply (proj2 (pymem_true r _)) in I; now rewrite I).
  cbn [bind]. rewrite (perm_max _ _ (l_tasks _ _ L)) by lia. cbn [bind]. rewrite vpt_get by (apply in_J; unfold N; lia). cbn [bind].
  fold renew.
  rewrite (mapM_total _ (fun rt : string * nat => Constr (esum (map (fun k => escale (use (fst rt) k) (key_x k)) (filter (active (snd rt)) xs))) SLe
            (econst (capf (fst rt) (snd rt))))).
  2:{ intros [r t] I. apply in_flat_map in I as (r' & Ir & K). apply in_map_iff in K as (t' & E & K). injection E as -> ->.
      apply in_seq in K. apply filter_In in Ir as [Ir _]. cbn [fst snd]. apply running_ok; auto. lia. }
  cbn [bind]. rewrite map_id.
  rewrite (mapM_total _ (fun r => Constr (esum (map (fun k => escale (use r k) (key_x k)) xs)) SLe (econst (capf r 0)))).
  2:{ intros r I. apply total_ok. now apply (l_nonren _ _ L). }
  cbn [bind]. rewrite mapM_map.
  rewrite (mapM_total _ (fun a => Constr (esum (map (fun k => escale (lasts k) (key_x k)) (keysf p T a))) SEq (evar (RD a)))) by (intros; now apply duration_ok).
  cbn [bind]. rewrite tasks_seq.
  rewrite (mapM_total _ _ _ after_ok). cbn [bind]. rewrite !map_map. reflexivity.
Qed.

(** An assignment that chooses one mode and one start for each task. *)
Definition is_plan (a : rvar -> Z) (mo st : nat -> nat) : Prop :=
  forall x, In x J -> In (mo x) (modesf p x) /\ st x < h /\
    forall m t, In m (modesf p x) -> t < h -> a (RX x m t) = if (m =? mo x) && (t =? st x) then 1%Z else 0%Z.
Lemma key_eval : forall a k, eval a (key_x k) = let '(x, m, t) := k in a (RX x m t).
Proof. intros a [[x m] t]. apply eval_var. Qed.
(** A weighted sum over the keys of a task is the weight of the chosen key. *)
Lemma plan_sum : forall a mo st x (w : key -> Z), is_plan a mo st -> In x J ->
  sumZ (map (fun k => (w k * eval a (key_x k))%Z) (keysf p T x)) = w (x, mo x, st x).
Proof.
  intros a mo st x w Pl I. destruct (Pl x I) as (M & S & U).
  rewrite (sum_indicator _ _ _ (x, mo x, st x)).
  - rewrite key_eval, U by auto. rewrite !Nat.eqb_refl. cbn [andb]. lia.
  - now apply nodup_keys.
  - apply in_keys. auto.
  - intros [[y m] t] K Ne. apply in_keys in K as (-> & M' & S'). rewrite key_eval, U by auto.
    destruct (Nat.eqb_spec m (mo x)), (Nat.eqb_spec t (st x)); cbn [andb]; try lia. subst. congruence.
Qed.
Lemma sumZ_flat : forall A (g : A -> Z) B (f : B -> list A) l, sumZ (map g (flat_map f l)) = sumZ (map (fun b => sumZ (map g (f b))) l).
Proof. induction l as [|x l IH]; [reflexivity|]. cbn [flat_map map]. rewrite map_app, sumZ_app, sumZ_cons, IH. reflexivity. Qed.
Lemma plan_all : forall a mo st (w : key -> Z), is_plan a mo st ->
  sumZ (map (fun k => (w k * eval a (key_x k))%Z) xs) = sumZ (map (fun x => w (x, mo x, st x)) J).
Proof.
  intros a mo st w Pl. unfold xs. rewrite sumZ_flat. apply sum_ext. intros x I. apply plan_sum; auto.
Qed.
Lemma scaled : forall a (w : key -> Z) l, eval a (esum (map (fun k => escale (w k) (key_x k)) l)) = sumZ (map (fun k => (w k * eval a (key_x k))%Z) l).
Proof. intros a w l. rewrite eval_sum_map. apply sum_ext. intros k _. apply eval_scale. Qed.
Lemma plan_times : forall a mo st x z, is_plan a mo st -> In x J ->
  sumZ (map (eval a) (time_terms z (keysf p T x))) = (z * Z.of_nat (st x))%Z.
Proof.
  intros a mo st x z Pl I. unfold time_terms. rewrite map_map.
  etransitivity; [|exact (plan_sum a mo st x (fun k => z * begins k)%Z Pl I)]. apply sum_ext. intros [[y m] t] _. now rewrite eval_scale.
Qed.

(** What the constraints say about modes and starts. *)
Definition dur (mo : nat -> nat) (x : nat) : nat := m_duration (mdf p x (mo x)).
Record says (mo st : nat -> nat) : Prop := {
  y_running : forall r t, In r renew -> t < h ->
    (sumZ (map (fun x => if ((st x <=? t) && (t <? st x + dur mo x))%nat then needf p x (mo x) r else 0%Z) J) <= capf r t)%Z;
  y_total : forall r, In r (p_nonren p) -> (sumZ (map (fun x => needf p x (mo x) r) J) <= capf r 0)%Z;
  y_after : forall x b, In x J -> In b (succf x) -> st x + dur mo x <= st b
}.
Lemma plan_says : forall a mo st, is_plan a mo st -> (forall x, In x J -> a (RD x) = Z.of_nat (dur mo x)) ->
  (admissible the_milp a <-> says mo st).
Proof.
  intros a mo st Pl Du. split.
  - intros [_ A]. cbn [the_milp p_constrs] in A. constructor.
    + intros r t R Lt. specialize (A (Constr (esum (map (fun k => escale (use r k) (key_x k)) (filter (active t) xs))) SLe (econst (capf r t)))).
      unfold holds in A. cbn [c_left c_sense c_right] in A. rewrite eval_const, scaled, sum_filter in A.
      rewrite (sum_ext _ _ (fun k => ((if active t k then use r k else 0) * eval a (key_x k))%Z)) in A by (intros k _; destruct (active t k); lia).
      rewrite (plan_all a mo st _ Pl) in A. apply A. apply in_or_app. right. apply in_or_app. left.
      apply in_map_iff. exists (r, t). split; auto. apply in_flat_map. exists r. split; auto. apply in_map, in_seq. lia.
    + intros r R. specialize (A (Constr (esum (map (fun k => escale (use r k) (key_x k)) xs)) SLe (econst (capf r 0)))).
      unfold holds in A. cbn [c_left c_sense c_right] in A. rewrite eval_const, scaled, (plan_all a mo st _ Pl) in A. apply A.
      do 2 (apply in_or_app; right). apply in_or_app. left. apply in_map_iff. eauto.
    + intros x b I Ib. specialize (A (Constr (esum (time_terms 1 (keysf p T b) ++ time_terms (-1) (keysf p T x))) SGe (evar (RD x)))).
      unfold holds in A. cbn [c_left c_sense c_right] in A. rewrite eval_var, eval_sum, map_app, sumZ_app in A.
      rewrite (plan_times a mo st b 1 Pl), (plan_times a mo st x (-1) Pl), Du in A by (auto; now apply (succ_ok x)).
      assert (Z.of_nat (st b) * 1 - Z.of_nat (st x) >= Z.of_nat (dur mo x))%Z; [|lia].
      rewrite Z.mul_comm in A. replace (-1 * Z.of_nat (st x))%Z with (- Z.of_nat (st x))%Z in A by lia. apply A.
      do 4 (apply in_or_app; right). apply in_concat. eexists. split; [apply in_map_iff; exists x; split; [reflexivity|auto]|].
      apply in_map_iff. exists b. auto.
  - intros Y. constructor.
    + intros v I. cbn [the_milp p_vars] in I. apply in_app_or in I as [I|I]; apply in_map_iff in I.
      * destruct I as ([[x m] t] & <- & I). apply in_xs in I as (Ix & M & Lt). destruct (Pl x Ix) as (_ & _ & U).
        unfold in_bounds, binary_var. cbn [v_lo v_hi v_id]. rewrite U by auto. destruct ((m =? mo x) && (t =? st x)); lia.
      * destruct I as (x & <- & Ix). unfold in_bounds. cbn [v_lo v_hi v_id]. rewrite Du by auto. lia.
    + intros c I. cbn [the_milp p_constrs] in I. apply in_app_or in I as [I|I]; [|apply in_app_or in I as [I|I]; [|apply in_app_or in I as [I|I]; [|apply in_app_or in I as [I|I]]]].
      * apply in_map_iff in I as (x & <- & Ix). unfold holds. cbn [c_left c_sense c_right]. rewrite eval_const, eval_sum_map.
        rewrite (sum_ext _ _ (fun k => (1 * eval a (key_x k))%Z)) by (intros; lia). now rewrite (plan_sum a mo st x (fun _ => 1%Z) Pl Ix).
      * apply in_map_iff in I as ([r t] & <- & I). apply in_flat_map in I as (r' & R & K). apply in_map_iff in K as (t' & E & K). injection E as -> ->.
        apply in_seq in K. unfold holds. cbn [c_left c_sense c_right fst snd]. rewrite eval_const, scaled, sum_filter.
        rewrite (sum_ext _ _ (fun k => ((if active t k then use r k else 0) * eval a (key_x k))%Z)) by (intros k _; destruct (active t k); lia).
        rewrite (plan_all a mo st _ Pl). apply (y_running _ _ Y r t R). lia.
      * apply in_map_iff in I as (r & <- & R). unfold holds. cbn [c_left c_sense c_right]. rewrite eval_const, scaled, (plan_all a mo st _ Pl).
        apply (y_total _ _ Y r R).
      * apply in_map_iff in I as (x & <- & Ix). unfold holds. cbn [c_left c_sense c_right]. rewrite eval_var, scaled, (plan_sum a mo st x _ Pl Ix), Du by auto. reflexivity.
      * apply in_concat in I as (l & I1 & I2). apply in_map_iff in I1 as (x & <- & Ix). apply in_map_iff in I2 as (b & <- & Ib).
        unfold holds. cbn [c_left c_sense c_right]. rewrite eval_var, eval_sum, map_app, sumZ_app.
        rewrite (plan_times a mo st b 1 Pl), (plan_times a mo st x (-1) Pl), Du by (auto; now apply (succ_ok x)).
        pose proof (y_after _ _ Y x b Ix Ib). lia.
Qed.
(** Every admissible assignment chooses modes and starts. *)
Lemma admissible_plan : forall a, admissible the_milp a -> exists mo st, is_plan a mo st /\ (forall x, In x J -> a (RD x) = Z.of_nat (dur mo x)).
Proof.
  intros a [Bd A]. cbn [the_milp p_vars p_constrs] in Bd, A.
  assert (Ch : forall x, In x J -> exists m t, In m (modesf p x) /\ t < h /\
    forall m' t', In m' (modesf p x) -> t' < h -> a (RX x m' t') = if (m' =? m) && (t' =? t) then 1%Z else 0%Z).
  { intros x I. specialize (A (Constr (esum (map key_x (keysf p T x))) SEq (econst 1))).
    unfold holds in A. cbn [c_left c_sense c_right] in A. rewrite eval_const, eval_sum_map in A.
    destruct (sum_one _ (fun k => eval a (key_x k)) (keysf p T x)) as ([[y m] t] & Ik & V & O).
    - intros [[y m] t] K. apply in_keys in K as (-> & M & Lt). rewrite key_eval.
      specialize (Bd (binary_var (RX x m t))). unfold in_bounds, binary_var in Bd. cbn [v_lo v_hi v_id] in Bd. apply Bd.
      apply in_or_app. left. apply in_map_iff. exists (x, m, t). split; auto. apply in_xs. auto.
    - now apply nodup_keys.
    - apply A. apply in_or_app. left. apply in_map_iff. eauto.
    - apply in_keys in Ik as (-> & M & Lt). exists m, t. split; auto. split; auto. intros m' t' M' Lt'.
      destruct (Nat.eqb_spec m' m) as [Em|Em], (Nat.eqb_spec t' t) as [Et|Et]; cbn [andb]; subst;
        [rewrite <- V; now rewrite key_eval| | |];
        (specialize (O (x, m', t')) || specialize (O (x, m, t')) || specialize (O (x, m', t)));
        rewrite key_eval in O; apply O; try (apply in_keys; auto); congruence. }
  set (pick := fun x => find (fun k : key => (1 <=? eval a (key_x k))%Z) (keysf p T x)).
  exists (fun x => match pick x with Some (_, m, _) => m | None => 0 end), (fun x => match pick x with Some (_, _, t) => t | None => 0 end).
  assert (Pl : is_plan a (fun x => match pick x with Some (_, m, _) => m | None => 0 end) (fun x => match pick x with Some (_, _, t) => t | None => 0 end)).
  { intros x I. destruct (Ch x I) as (m & t & M & Lt & U).
    assert (E : pick x = Some (x, m, t)).
    { unfold pick. destruct (find (fun k => (1 <=? eval a (key_x k))%Z) (keysf p T x)) as [[[y m'] t']|] eqn:E.
      - apply find_some in E as [K V]. apply in_keys in K as (-> & M' & Lt'). rewrite key_eval, U in V by auto.
        destruct (Nat.eqb_spec m' m), (Nat.eqb_spec t' t); cbn [andb] in V; try discriminate. now subst.
      - exfalso. apply find_none with (x := (x, m, t)) in E; [|apply in_keys; auto]. rewrite key_eval, U in E by auto. rewrite !Nat.eqb_refl in E. discriminate. }
    rewrite E. auto. }
  split; auto. intros x I. specialize (A (Constr (esum (map (fun k => escale (lasts k) (key_x k)) (keysf p T x))) SEq (evar (RD x)))).
  unfold holds in A. cbn [c_left c_sense c_right] in A. rewrite eval_var, scaled, (plan_sum a _ _ x _ Pl I) in A. symmetry. apply A.
  do 3 (apply in_or_app; right). apply in_or_app. left. apply in_map_iff. eauto.
Qed.

(** * Reading back *)
Definition entry (mo st : nat -> nat) (x : nat) : nat * (Z * Z) := (x, (Z.of_nat (st x), (Z.of_nat (st x) + Z.of_nat (dur mo x))%Z)).
Definition the_sched (mo st : nat -> nat) : schedule := map (entry mo st) J.
Definition the_modes (mo : nat -> nat) : list nat := map mo (seq 2 n).

Lemma read_skip : forall a l s, (forall x m t, In (x, m, t) l -> a (RX x m t) = 0%Z) -> foldM (rp_read p a) s l = Ok s.
Proof.
  induction l as [|[[x m] t] l IH]; intros s Z0; [reflexivity|]. cbn [foldM rp_read]. rewrite (Z0 x m t) by now left. cbn [Z.leb Z.compare].
  cbn [bind]. apply IH. intros; apply Z0; now right.
Qed.
Lemma read_task : forall a mo st x s, is_plan a mo st -> In x J ->
  foldM (rp_read p a) s (keysf p T x) = Ok (dset (fst s) x (snd (entry mo st x)), dset (snd s) x (mo x)).
Proof.
  intros a mo st x s Pl I. destruct (Pl x I) as (M & Lt & U). pose proof (nodup_keys x I) as Nd.
  assert (K : In (x, mo x, st x) (keysf p T x)) by (apply in_keys; auto).
  assert (A : forall y m t, In (y, m, t) (keysf p T x) -> (y, m, t) <> (x, mo x, st x) -> a (RX y m t) = 0%Z).
  { intros y m t Ik Ne. apply in_keys in Ik as (-> & M' & Lt'). rewrite U by auto.
    destruct (Nat.eqb_spec m (mo x)), (Nat.eqb_spec t (st x)); cbn [andb]; auto. subst. congruence. }
  apply in_split in K as (l1 & l2 & E). rewrite E in *. apply NoDup_remove_2 in Nd.
  rewrite foldM_app, read_skip. 2:{ intros y m t Ik. apply A; [apply in_or_app; auto|]. intros Eq. apply Nd. rewrite <- Eq. apply in_or_app. auto. }
  cbn [bind foldM rp_read]. rewrite U by auto. rewrite !Nat.eqb_refl. cbn [andb Z.leb Z.compare].
  destruct (mode_ok x (mo x) I M) as [-> _]. cbn [bind]. apply read_skip.
  intros y m t Ik. apply A; [apply in_or_app; right; now right|]. intros Eq. apply Nd. rewrite <- Eq. apply in_or_app. auto.
Qed.
Lemma read_all : forall a mo st, is_plan a mo st -> foldM (rp_read p a) ([], []) xs = Ok (the_sched mo st, map (fun x => (x, mo x)) J).
Proof.
  intros a mo st Pl. unfold xs, the_sched.
  assert (G : forall l s m, NoDup l -> incl l J -> (forall x, In x l -> ~ In x (dkeys s) /\ ~ In x (dkeys m)) ->
    foldM (rp_read p a) (s, m) (flat_map (keysf p T) l) = Ok (s ++ map (entry mo st) l, m ++ map (fun x => (x, mo x)) l)).
  { induction l as [|x l IH]; intros s m Nd Ic Fr; [cbn; now rewrite !app_nil_r|]. inversion Nd; subst. cbn [flat_map].
    rewrite foldM_app, (read_task a mo st x) by (auto; apply Ic; now left). cbn [bind fst snd].
    destruct (Fr x (or_introl eq_refl)) as [F1 F2]. rewrite !PyMore.dset_new by auto. rewrite IH; auto.
    - cbn [map]. now rewrite <- !app_assoc.
    - intros y Iy. apply Ic. now right.
    - intros y Iy. destruct (Fr y (or_intror Iy)) as [G1 G2]. unfold dkeys in *. rewrite !map_app. cbn [map fst].
      split; rewrite in_app_iff; intros [K|[->|[]]]; auto. }
  apply (G J [] []); [apply seq_NoDup|apply incl_refl|]. intros x _. split; intros [].
Qed.
Lemma ssort_seq : forall m k, ssort Nat.leb (seq k m) = seq k m.
Proof.
  induction m as [|m IH]; intros k; [reflexivity|]. cbn [seq]. unfold ssort in *. cbn [fold_right]. rewrite IH.
  destruct m; [reflexivity|]. cbn [seq sinsert]. replace (k <=? S k) with true by (symmetry; apply Nat.leb_le; lia). reflexivity.
Qed.
Lemma dget_tabn : forall V (f : nat -> V) l x, In x l -> dget (map (fun x => (x, f x)) l) x = Some (f x).
Proof.
  induction l as [|y l IH]; intros x I; [destruct I|]. cbn [map dget]. destruct (pyeqb_spec x y) as [->|Ne]; [reflexivity|].
  apply IH. destruct I; [congruence|auto].
Qed.
Lemma retrieve_ok : forall a mo st, is_plan a mo st -> rp_retrieve p T a = Ok (the_modes mo, the_sched mo st).
Proof.
  intros a mo st Pl. unfold rp_retrieve. rewrite vpt_ok. cbn [bind]. rewrite xs_ok, (read_all a mo st Pl). cbn [bind fst snd].
  unfold dgetE at 1. rewrite (dget_tabn _ mo) by (apply in_J; unfold N; lia). cbn [bind].
  assert (E : ddel (map (fun x => (x, mo x)) J) 1 = map (fun x => (x, mo x)) (seq 2 (n + 1))).
  { unfold J, N. replace (n + 2) with (S (n + 1)) by lia. reflexivity. }
  rewrite E, sink_is. unfold dgetE at 1. rewrite (dget_tabn _ mo) by (apply in_seq; unfold N; lia). cbn [bind].
  assert (E2 : ddel (map (fun x => (x, mo x)) (seq 2 (n + 1))) N = map (fun x => (x, mo x)) (seq 2 n)).
  { unfold N. clear. replace (n + 2) with (2 + n) by lia. generalize 2. induction n as [|m IH]; intros k.
    - rewrite Nat.add_0_r. cbn. now rewrite Nat.eqb_refl.
    - cbn [seq map ddel Nat.add]. destruct (pyeqb_spec (k + S m) k); [lia|]. f_equal. replace (k + S m) with (S k + m) by lia. apply IH. }
  rewrite E2.
  assert (E3 : dkeys (map (fun x => (x, mo x)) (seq 2 n)) = seq 2 n).
  { unfold dkeys. rewrite map_map. cbn [fst]. apply map_id. }
  rewrite E3, ssort_seq. rewrite (mapM_total _ mo).
  - reflexivity.
  - intros x I. unfold dgetE. now rewrite (dget_tabn _ mo).
Qed.

(** * Modes and starts as schedules *)
Definition valid (mo : nat -> nat) : Prop := forall x, In x J -> In (mo x) (modesf p x).
Lemma ends_one : forall mo x, valid mo -> x = 1 \/ x = N -> mo x = 1.
Proof.
  intros mo x V Ex. assert (I : In x J) by (apply in_J; unfold N in *; lia). pose proof (V x I) as M.
  destruct (task_dict x I) as (d & D & E). rewrite E, (l_ends _ _ L x d Ex D) in M. destruct M as [M|[]]; auto.
Qed.
Lemma chosen_is : forall mo x, valid mo -> In x J -> chosen p (the_modes mo) x = Some (mdf p x (mo x)).
Proof.
  intros mo x V I. destruct (mode_ok x (mo x) I (V x I)) as (_ & d & D & G). unfold chosen. rewrite D, sink_is.
  destruct (Nat.eqb_spec x 1) as [E1|E1]; cbn [orb]; [|destruct (Nat.eqb_spec x N) as [E2|E2]].
  - pose proof (ends_one mo x V (or_introl E1)) as Em. now rewrite Em in G |- *.
  - pose proof (ends_one mo x V (or_intror E2)) as Em. now rewrite Em in G |- *.
  - unfold the_modes. rewrite nth_error_map. apply in_J in I. unfold N in *. rewrite nth_error_seq by lia.
    replace (2 + (x - 2)) with x by lia. cbn [option_map]. exact G.
Qed.
Lemma demand_is : forall mo x r, valid mo -> In x J -> demand p (the_modes mo) x r = needf p x (mo x) r.
Proof. intros mo x r V I. unfold demand. now rewrite chosen_is. Qed.
Lemma running_is : forall mo st r t, valid mo -> running p (the_modes mo) (the_sched mo st) r (Z.of_nat t) =
  sumZ (map (fun x => if ((st x <=? t) && (t <? st x + dur mo x))%nat then needf p x (mo x) r else 0%Z) J).
Proof.
  intros mo st r t V. unfold running, the_sched. rewrite map_map. apply sum_ext. intros x I. unfold entry. rewrite demand_is by auto.
  replace ((Z.of_nat (st x) <=? Z.of_nat t)%Z && (Z.of_nat t <? Z.of_nat (st x) + Z.of_nat (dur mo x))%Z) with ((st x <=? t) && (t <? st x + dur mo x)); [reflexivity|].
  destruct (Nat.leb_spec (st x) t), (Z.leb_spec (Z.of_nat (st x)) (Z.of_nat t)), (Nat.ltb_spec t (st x + dur mo x)),
    (Z.ltb_spec (Z.of_nat t) (Z.of_nat (st x) + Z.of_nat (dur mo x))); try reflexivity; lia.
Qed.
Lemma total_is : forall mo r, valid mo -> total_demand p (the_modes mo) r = sumZ (map (fun x => needf p x (mo x) r) J).
Proof. intros mo r V. unfold total_demand. rewrite sink_is. apply sum_ext. intros x I. now apply demand_is. Qed.
Lemma tasks_is : forall mo, valid mo -> tasks p (the_modes mo) n.
Proof.
  intros mo V. constructor; try apply L.
  - apply sink_is.
  - unfold the_modes. now rewrite map_length, seq_length.
  - intros a Ha. rewrite chosen_is by (auto; apply in_J; unfold N; lia). discriminate.
Qed.
Lemma in_sched : forall mo st x s e, In (x, (s, e)) (the_sched mo st) <-> In x J /\ s = Z.of_nat (st x) /\ e = (Z.of_nat (st x) + Z.of_nat (dur mo x))%Z.
Proof.
  intros mo st x s e. unfold the_sched. rewrite in_map_iff. split.
  - intros (y & E & I). unfold entry in E. injection E as -> <- <-. auto.
  - intros (I & -> & ->). exists x. auto.
Qed.
Lemma sink_dur : forall mo, valid mo -> dur mo N = 0.
Proof.
  intros mo V. assert (I : In N J) by (apply in_J; unfold N; lia). destruct (mode_ok N (mo N) I (V N I)) as (_ & d & D & G).
  rewrite (ends_one mo N V (or_intror eq_refl)) in G. unfold dur. rewrite (ends_one mo N V (or_intror eq_refl)). exact (l_sink _ _ L d _ D G).
Qed.
Lemma feasible_iff : forall mo st, valid mo -> st N < h ->
  (says mo st -> feasible p n (the_modes mo) (the_sched mo st) (Z.of_nat (st N))) /\
  ((forall r t c, capacity_of p r t = Some c -> (0 <= c)%Z) ->
   feasible p n (the_modes mo) (the_sched mo st) (Z.of_nat (st N)) -> says mo st).
Proof.
  intros mo st V Sn. assert (IN : In N J) by (apply in_J; unfold N; lia).
  assert (PF : Permutation (map fst (the_sched mo st)) (seq 1 (n + 2))).
  { unfold the_sched. rewrite map_map. unfold entry. cbn [fst]. rewrite map_id. reflexivity. }
  assert (MK : makespan p (the_sched mo st) (Z.of_nat (st N))).
  { exists (Z.of_nat (st N)). rewrite sink_is. apply in_sched. rewrite (sink_dur mo V). split; auto. split; auto. lia. }
  apply and_comm. split.
  - intros Sa [Ti _ To Ru].
    assert (Be : forall x, In x J -> st x + dur mo x <= st N).
    { intros x I. assert (Q : (Z.of_nat (st x) + Z.of_nat (dur mo x) <= Z.of_nat (st N))%Z); [|lia].
      apply (before_sink p (the_modes mo) n (the_sched mo st) _ (tasks_is mo V) PF MK (t_precedence _ _ _ _ Ti)) with (a := x) (s := Z.of_nat (st x)).
      - intros a s e J0. apply in_sched in J0 as (_ & -> & ->). lia.
      - apply L.
      - apply in_sched. auto. }
    constructor.
    + intros r t R Lt. unfold renew in R. apply filter_In in R as [R Nr]. destruct (cap_ok r t R Lt) as [C _].
      assert (Nr' : ~ In r (p_nonren p)) by (intros K; apply (proj2 (pymem_true r _)) in K; rewrite K in Nr; discriminate).
      destruct (Nat.lt_ge_cases t (st N)) as [Q|Q].
      * rewrite <- running_is by auto. apply Ru; auto. lia.
      * rewrite sumZ_map_zero; [now apply (Sa r t)|]. intros x I. specialize (Be x I).
        destruct (Nat.ltb_spec t (st x + dur mo x)); [lia|]. now rewrite andb_false_r.
    + intros r R. rewrite <- total_is by auto. destruct (cap_ok r 0 (l_nonren _ _ L r R) Hh) as [C _]. apply (To r); auto.
    + intros x b I Ib. destruct (succ_ok x I) as [E S].
      assert (Q : (Z.of_nat (st x) + Z.of_nat (dur mo x) <= Z.of_nat (st b))%Z); [|lia].
      eapply (t_precedence _ _ _ _ Ti x b _ _ _ _ _ E Ib); apply in_sched; split; auto.
  - intros Y. constructor; auto.
    + constructor; auto.
      * intros a s e I. apply in_sched in I as (I & -> & ->). exists (mdf p a (mo a)). split; [now apply chosen_is|]. split; [lia|reflexivity].
      * intros a b l sa ea sb eb E Ib Ia Jb. apply in_sched in Ia as (I & -> & ->). apply in_sched in Jb as (J0 & -> & ->).
        destruct (succ_ok a I) as [E' _]. rewrite E in E'. injection E' as ->. pose proof (y_after _ _ Y a b I Ib). lia.
    + intros r c R C. rewrite total_is by auto. destruct (cap_ok r 0 (l_nonren _ _ L r R) Hh) as [C' _]. rewrite C in C'. injection C' as ->. apply (y_total _ _ Y r R).
    + intros r t c Nr Lt C. rewrite running_is by auto. assert (R : In r (res_names p)) by (eapply capacity_name; eauto).
      destruct (cap_ok r t R) as [C' _]; [lia|]. rewrite C in C'. injection C' as ->. apply (y_running _ _ Y r t); [|lia].
      unfold renew. apply filter_In. split; auto. destruct (pymem r (p_nonren p)) eqn:K; auto. apply (proj1 (pymem_true _ _)) in K. contradiction.
Qed.

(** * Partial solutions *)
Record wishes (ps : partial_solution) (st : nat -> nat) : Prop := {
  w_starts : forall x t, In (x, t) (given (ps_start_times ps)) -> st x = t;
  w_orders : forall l x y, In l (chains ps) -> In (x, y) (consecutive l) -> st x <= st y
}.
Lemma consecutive_in : forall l x y, In (x, y) (consecutive l) -> In x l /\ In y l.
Proof.
  unfold consecutive. intros l x y I. split.
  - apply in_combine_l in I. destruct l; [destruct I|]. rewrite (app_removelast_last (l := n0 :: l) 0) by discriminate. apply in_or_app. auto.
  - apply in_combine_r in I. destruct l; [destruct I|]. now right.
Qed.
Lemma partial_says : forall ps, known n (Some ps) -> exists cs, rp_partial p T ps = Ok cs /\
  forall a mo st, is_plan a mo st -> ((forall c, In c cs -> holds a c) <-> wishes ps st).
Proof.
  intros ps [K1 K2]. unfold rp_partial. rewrite vpt_ok. cbn [bind].
  set (fixed := fun xt : nat * nat => Constr (esum (map key_x (filter (fun k : key => let '(_, _, t) := k in t =? snd xt) (keysf p T (fst xt))))) SEq (econst 1)).
  set (notaft := fun xy : nat * nat => Constr (esum (time_terms 1 (keysf p T (fst xy)) ++ time_terms (-1) (keysf p T (snd xy)))) SLe (econst 0)).
  assert (G : forall l, (forall x y, In (x, y) l -> In x J /\ In y J) -> mapM (rp_not_after (map (fun a => (a, keysf p T a)) J)) l = Ok (map notaft l)).
  { intros l Hl. apply mapM_total. intros [x y] I. unfold rp_not_after. cbn [fst snd]. destruct (Hl x y I). rewrite !vpt_get by auto. reflexivity. }
  rewrite (mapM_total _ fixed).
  2:{ intros [x t] I. unfold rp_fixed. cbn [fst snd]. rewrite vpt_get by (apply in_J; unfold N; eauto). reflexivity. }
  cbn [bind].
  assert (H2 : forall x y, In (x, y) (consecutive (given (ps_permutation ps))) -> In x J /\ In y J).
  { intros x y I. apply consecutive_in in I as [I1 I2]. split; apply in_J; eapply K2; eauto; now left. }
  assert (H3 : forall x y, In (x, y) (flat_map consecutive (given (ps_orders ps))) -> In x J /\ In y J).
  { intros x y I. apply in_flat_map in I as (l & Il & I). apply consecutive_in in I as [I1 I2]. split; apply in_J; eapply (K2 l); auto; now right. }
  rewrite (G _ H2). cbn [bind]. rewrite (G _ H3). cbn [bind].
  eexists. split; [reflexivity|]. intros a mo st Pl.
  assert (F : forall x t, In x J -> (holds a (fixed (x, t)) <-> st x = t)).
  { intros x t I. unfold holds, fixed. cbn [c_left c_sense c_right fst snd]. rewrite eval_const, eval_sum_map, sum_filter.
    rewrite (sum_ext _ _ (fun k : key => ((let '(_, _, s) := k in if Nat.eqb s t then 1 else 0) * eval a (key_x k))%Z)).
    - rewrite (plan_sum a mo st x _ Pl I). destruct (Nat.eqb_spec (st x) t); lia.
    - intros [[y m] s] _. destruct (s =? t); lia. }
  assert (O : forall x y, In x J -> In y J -> (holds a (notaft (x, y)) <-> st x <= st y)).
  { intros x y I1 I2. unfold holds, notaft. cbn [c_left c_sense c_right fst snd]. rewrite eval_const, eval_sum, map_app, sumZ_app.
    rewrite (plan_times a mo st x 1 Pl I1), (plan_times a mo st y (-1) Pl I2). lia. }
  split.
  - intros A. constructor.
    + intros x t I. apply F; [apply in_J; unfold N; eauto|]. apply A. apply in_or_app. left. apply in_map_iff. eauto.
    + intros l x y [<-|Il] I.
      * destruct (H2 x y I). apply O; auto. apply A. apply in_or_app. right. apply in_or_app. left. apply in_map_iff. eauto.
      * assert (I' : In (x, y) (flat_map consecutive (given (ps_orders ps)))) by (apply in_flat_map; eauto). destruct (H3 x y I').
        apply O; auto. apply A. apply in_or_app. right. apply in_or_app. right. apply in_map_iff. eauto.
  - intros [W1 W2] c I. apply in_app_or in I as [I|I]; [|apply in_app_or in I as [I|I]]; apply in_map_iff in I as ([x y] & <- & I).
    + apply F; [apply in_J; unfold N; eauto|auto].
    + destruct (H2 x y I). apply O; auto. eapply W2; eauto. now left.
    + destruct (H3 x y I). apply O; auto. apply in_flat_map in I as (l & Il & I). eapply W2; eauto. now right.
Qed.
Lemma consecutive_nth : forall l i x y, nth_error l i = Some x -> nth_error l (S i) = Some y -> In (x, y) (consecutive l).
Proof.
  unfold consecutive. induction l as [|z l IH]; intros i x y E1 E2; [destruct i; discriminate|].
  destruct l as [|w l]; [destruct i; discriminate|]. change (removelast (z :: w :: l)) with (z :: removelast (w :: l)). cbn [tl combine].
  destruct i as [|i]; cbn in E1, E2; [injection E1 as ->; injection E2 as ->; now left|]. right. exact (IH i x y E1 E2).
Qed.
Lemma nth_consecutive : forall l x y, In (x, y) (consecutive l) -> exists i, nth_error l i = Some x /\ nth_error l (S i) = Some y.
Proof.
  unfold consecutive. induction l as [|z l IH]; intros x y I; [destruct I|].
  destruct l as [|w l]; [destruct I|]. change (removelast (z :: w :: l)) with (z :: removelast (w :: l)) in I. cbn [tl combine] in I.
  destruct I as [E|I]; [injection E as -> ->; exists 0; auto|]. destruct (IH x y I) as (i & E1 & E2). exists (S i). auto.
Qed.
Lemma wishes_iff : forall ps mo st, known n (Some ps) -> (honours ps (the_sched mo st) <-> wishes ps st).
Proof.
  intros ps mo st [K1 K2]. split; intros [W1 W2]; constructor.
  - intros x t I. destruct (W1 x t I) as [e Q]. apply in_sched in Q as (_ & Q & _). lia.
  - intros l x y Il I. destruct (nth_consecutive l x y I) as (i & E1 & E2).
    assert (Q : (Z.of_nat (st x) <= Z.of_nat (st y))%Z); [|lia].
    eapply (W2 l i (S i) x y); eauto; apply in_sched; (split; [|split; reflexivity]); apply in_J; eapply K2; eauto using nth_error_In.
  - intros x t I. exists (Z.of_nat (st x) + Z.of_nat (dur mo x))%Z. apply in_sched. split; [apply in_J; unfold N; eauto|]. split; auto.
    rewrite (W1 x t I). reflexivity.
  - intros l i j a b sa ea sb eb Il Lt E1 E2 Ia Ib. apply in_sched in Ia as (_ & -> & _). apply in_sched in Ib as (_ & -> & _).
    assert (Q : st a <= st b); [|lia]. revert b E2. induction Lt as [|j Lt IH]; intros b E2.
    + eapply W2; eauto using consecutive_nth.
    + destruct (nth_error l j) as [c|] eqn:Ec.
      * specialize (IH c eq_refl). pose proof (W2 l c b Il (consecutive_nth l j c b Ec E2)). lia.
      * apply nth_error_None in Ec. assert (nth_error l (S j) <> None) by congruence. apply nth_error_Some in H. lia.
Qed.
End Rp.

(** * The whole program *)
Definition wished (ps : option partial_solution) (st : nat -> nat) : Prop := match ps with None => True | Some ps => wishes ps st end.
Lemma program_ok : forall p n h ps, lp_instance p n -> 0 < h -> covered p h -> known n ps ->
  exists P, rp_milp_partial p (seq 0 h) ps = Ok P /\ p_max P = false /\
    (forall a mo st, is_plan p n h a mo st -> eval a (p_obj P) = Z.of_nat (st (n + 2))) /\
    (forall a, admissible P a -> admissible (the_milp p n h) a) /\
    (forall a mo st, is_plan p n h a mo st -> (forall x, In x (seq 1 (n + 2)) -> a (RD x) = Z.of_nat (dur p mo x)) ->
      (admissible P a <-> says p n h mo st /\ wished ps st)).
Proof.
  intros p n h ps L Hh Cov K. unfold rp_milp_partial. rewrite (milp_ok p n h L Hh Cov). cbn [bind].
  assert (Ob : forall a mo st, is_plan p n h a mo st -> eval a (p_obj (the_milp p n h)) = Z.of_nat (st (n + 2))).
  { intros a mo st Pl. unfold the_milp. cbn [p_obj]. rewrite eval_sum, (plan_times p n h L Hh a mo st (n + 2) 1 Pl); [lia|]. apply in_seq. lia. }
  destruct ps as [ps|].
  - destruct (partial_says p n h L Hh ps K) as (cs & -> & C). cbn [bind]. eexists. split; [reflexivity|]. split; [reflexivity|].
    cbn [p_obj]. split; [exact Ob|]. split.
    + intros a [A1 A2]. constructor; [exact A1|]. intros c I. apply A2. cbn [p_constrs]. apply in_or_app. auto.
    + intros a mo st Pl Du. cbn [wished]. rewrite <- (plan_says p n h L Hh a mo st Pl Du), <- (C a mo st Pl). split.
      * intros [A1 A2]. cbn [p_constrs p_vars] in A1, A2. split; [constructor; [exact A1|]|]; intros c I; apply A2; apply in_or_app; auto.
      * intros [[A1 A2] A3]. constructor; [exact A1|]. intros c I. cbn [p_constrs] in I. apply in_app_or in I as [I|I]; auto.
  - eexists. split; [reflexivity|]. split; [reflexivity|]. split; [exact Ob|]. split; [auto|]. intros a mo st Pl Du.
    rewrite (plan_says p n h L Hh a mo st Pl Du). cbn [wished]. tauto.
Qed.
Lemma plan_valid : forall p n h a mo st, is_plan p n h a mo st -> valid p n mo.
Proof. intros p n h a mo st Pl x I. apply (Pl x I). Qed.

(** C125.  Every solution of the program is read back as a feasible schedule that honours the partial solution; its
    makespan is the objective and lies before the last start time. *)
Theorem C125_sound : forall p n h ps P a, lp_instance p n -> 0 < h -> covered p h -> known n ps ->
  rp_milp_partial p (seq 0 h) ps = Ok P -> admissible P a ->
  exists modes sch, rp_retrieve p (seq 0 h) a = Ok (modes, sch) /\ tasks p modes n /\
    feasible p n modes sch (eval a (p_obj P)) /\ honoured ps sch /\ (eval a (p_obj P) < Z.of_nat h)%Z.
Proof.
  intros p n h ps P a L Hh Cov K E A. destruct (program_ok p n h ps L Hh Cov K) as (P' & E' & _ & Ob & In1 & Ad).
  rewrite E in E'. injection E' as <-. destruct (admissible_plan p n h L Hh a (In1 a A)) as (mo & st & Pl & Du).
  apply (proj1 (Ad a mo st Pl Du)) in A as [Y W]. pose proof (plan_valid _ _ _ _ _ _ Pl) as V.
  assert (Sn : st (n + 2) < h) by (apply (Pl (n + 2)); apply in_seq; lia).
  exists (the_modes n mo), (the_sched p n mo st). rewrite (Ob a mo st Pl). split; [now apply retrieve_ok|]. split; [exact (tasks_is p n h L Hh mo V)|].
  split; [now apply (feasible_iff p n h L Hh Cov mo st V Sn)|]. split; [|lia].
  destruct ps as [ps|]; [|exact I]. apply (wishes_iff p n h Hh ps mo st K). exact W.
Qed.

Lemma schedule_plan : forall p n h modes sch e, lp_instance p n -> sane p -> 0 < h -> covered p h ->
  tasks p modes n -> feasible p n modes sch e -> (e < Z.of_nat h)%Z ->
  exists mo st, valid p n mo /\ the_modes n mo = modes /\ Permutation (the_sched p n mo st) sch /\
    (forall x, In x (seq 1 (n + 2)) -> st x < h) /\ Z.of_nat (st (n + 2)) = e /\ says p n h mo st.
Proof.
  intros p n h modes sch e L Sa Hh Cov Tk F He.
  pose proof (t_tasks _ _ _ _ (f_timed _ _ _ _ _ F)) as PF.
  pose proof (sch_nodup n sch PF) as Nd.
  set (mo := fun x => if (x =? 1) || (x =? n + 2) then 1 else nth (x - 2) modes 0).
  set (st := fun x => match dget sch x with Some (s, _) => Z.to_nat s | None => 0 end).
  assert (Ch : forall x, In x (seq 1 (n + 2)) -> exists d, dget (p_modes p) x = Some d /\ chosen p modes x = dget d (mo x) /\ chosen p modes x <> None).
  { intros x I. apply in_seq in I. pose proof (k_exist _ _ _ Tk x) as C. destruct (task_dict p n h L Hh x) as (d & D & _); [apply in_seq; lia|].
    exists d. split; auto. split; [|apply C; lia]. unfold chosen. rewrite D, (sink_is p n L). unfold mo.
    destruct ((x =? 1) || (x =? n + 2)) eqn:B; auto. apply orb_false_iff in B as [B1 B2]. apply Nat.eqb_neq in B1, B2.
    rewrite (nth_error_nth' modes 0) by (rewrite (k_modes _ _ _ Tk); lia). reflexivity. }
  assert (V : valid p n mo).
  { intros x I. destruct (Ch x I) as (d & D & C1 & C2). unfold modesf. rewrite D.
    destruct (dget d (mo x)) as [m|] eqn:G; [|congruence]. apply dget_In in G. apply (in_map fst) in G. exact G. }
  assert (MS : the_modes n mo = modes).
  { unfold the_modes. apply nth_error_ext. intros i. rewrite nth_error_map. destruct (Nat.lt_ge_cases i n) as [Q|Q].
    - rewrite nth_error_seq by auto. cbn [option_map]. unfold mo. destruct (Nat.eqb_spec (2 + i) 1); [lia|]. destruct (Nat.eqb_spec (2 + i) (n + 2)); [lia|].
      cbn [orb]. replace (2 + i - 2) with i by lia. symmetry. apply nth_error_nth'. rewrite (k_modes _ _ _ Tk). exact Q.
    - rewrite (proj2 (nth_error_None (seq 2 n) i)) by (now rewrite seq_length). symmetry. apply nth_error_None. now rewrite (k_modes _ _ _ Tk). }
  assert (En : forall x s f, In (x, (s, f)) sch <-> In (x, (s, f)) (the_sched p n mo st)).
  { assert (Fw : forall x s f, In (x, (s, f)) sch -> In (x, (s, f)) (the_sched p n mo st)).
    { intros x s f I. destruct (t_length _ _ _ _ (f_timed _ _ _ _ _ F) x s f I) as (m & C & Hs & ->).
      assert (Ix : In x (seq 1 (n + 2))) by (apply (Permutation_in _ PF); apply (in_map fst) in I; exact I).
      apply in_sched. split; auto. unfold st. rewrite (In_dget _ _ _ Nd I). rewrite Z2Nat.id by auto. split; auto.
      rewrite <- MS, (chosen_is p n h L Hh mo x V Ix) in C. injection C as <-. reflexivity. }
    intros x s f. split; [apply Fw|]. intros I. pose proof I as I2. apply in_sched in I2 as (Ix & Es & Ef).
    destruct (sch_get n sch PF x) as (s' & f' & _ & Is); [apply in_seq in Ix; lia|]. pose proof (Fw _ _ _ Is) as I3.
    apply in_sched in I3 as (_ & Es' & Ef'). congruence. }
  assert (NdS : NoDup (the_sched p n mo st)).
  { apply (NoDup_map_inv fst). unfold the_sched. rewrite map_map. cbn [entry fst]. rewrite map_id. apply seq_NoDup. }
  assert (PS : Permutation (the_sched p n mo st) sch).
  { apply NoDup_Permutation; auto; [now apply (NoDup_map_inv fst)|]. intros [x [s f]]. symmetry. apply En. }
  assert (Be : forall x s f, In (x, (s, f)) sch -> (f <= e)%Z).
  { apply (before_sink p modes n sch e Tk PF (f_end _ _ _ _ _ F) (t_precedence _ _ _ _ (f_timed _ _ _ _ _ F))).
    - intros x s f I. destruct (t_length _ _ _ _ (f_timed _ _ _ _ _ F) x s f I) as (m & _ & Hs & ->). lia.
    - apply L. }
  assert (St : forall x, In x (seq 1 (n + 2)) -> (Z.of_nat (st x) + Z.of_nat (dur p mo x) <= e)%Z).
  { intros x I. apply (Be x (Z.of_nat (st x))). apply En. apply in_sched. auto. }
  assert (Se : Z.of_nat (st (n + 2)) = e).
  { destruct (f_end _ _ _ _ _ F) as [s Is]. rewrite (sink_is p n L) in Is. apply En in Is. apply in_sched in Is as (_ & _ & ->).
    rewrite (sink_dur p n h L Hh mo V). lia. }
  assert (F' : feasible p n (the_modes n mo) (the_sched p n mo st) (Z.of_nat (st (n + 2)))).
  { rewrite MS, Se. destruct F as [Ti Mk To Ru]. constructor.
    - constructor.
      + eapply Permutation_trans; [apply Permutation_map; exact PS|exact PF].
      + intros x s f I. apply En in I. exact (t_length _ _ _ _ Ti x s f I).
      + intros x b l sa ea sb eb D Ib Ia Jb. apply En in Ia, Jb. exact (t_precedence _ _ _ _ Ti x b l sa ea sb eb D Ib Ia Jb).
    - destruct Mk as [s Is]. exists s. now apply En.
    - exact To.
    - intros r t c Nr Lt C. unfold running. rewrite (sumZ_map_perm _ PS). exact (Ru r t c Nr Lt C). }
  exists mo, st. split; auto. split; auto. split; auto. split; [intros x I; specialize (St x I); lia|]. split; auto.
  apply (feasible_iff p n h L Hh Cov mo st V); auto; [lia|]. intros r t c C. exact (s_caps _ Sa r t c C).
Qed.

(** Every feasible schedule that ends before the last start time and honours the partial solution is read back from a
    solution whose objective is its makespan. *)
Theorem C125_complete : forall p n h ps modes sch e, lp_instance p n -> sane p -> 0 < h -> covered p h -> known n ps ->
  tasks p modes n -> feasible p n modes sch e -> honoured ps sch -> (e < Z.of_nat h)%Z ->
  exists P a sch', rp_milp_partial p (seq 0 h) ps = Ok P /\ admissible P a /\ eval a (p_obj P) = e /\
    rp_retrieve p (seq 0 h) a = Ok (modes, sch') /\ Permutation sch' sch.
Proof.
  intros p n h ps modes sch e L Sa Hh Cov K Tk F Hon He.
  destruct (program_ok p n h ps L Hh Cov K) as (P & E & _ & Ob & _ & Ad).
  destruct (schedule_plan p n h modes sch e L Sa Hh Cov Tk F He) as (mo & st & V & MS & PS & St & Se & Y).
  set (a := fun v => match v with RX x m t => if (m =? mo x) && (t =? st x) then 1%Z else 0%Z | RD x => Z.of_nat (dur p mo x) end).
  assert (Pl : is_plan p n h a mo st).
  { intros x I. split; [now apply V|]. split; [now apply St|]. intros m t _ _. reflexivity. }
  exists P, a, (the_sched p n mo st). split; auto. split; [|split; [|split; auto]].
  - apply (Ad a mo st Pl); [reflexivity|]. split; auto.
    destruct ps as [ps|]; [|exact I]. apply (wishes_iff p n h Hh ps mo st K). destruct Hon as [H1 H2]. constructor.
    + intros x t I. destruct (H1 x t I) as [f If]. exists f. apply (Permutation_in _ (Permutation_sym PS)). exact If.
    + intros l i j x b sa ea sb eb Il Lt E1 E2 Ia Ib. apply (Permutation_in _ PS) in Ia, Ib. eauto.
  - rewrite (Ob a mo st Pl). exact Se.
  - rewrite <- MS. now apply retrieve_ok.
Qed.

(** An optimal solution is read back as a schedule of least makespan among all feasible ones that honour the partial
    solution, however late they end. *)
Theorem C125_optimal : forall p n h ps P a, lp_instance p n -> sane p -> 0 < h -> covered p h -> known n ps ->
  rp_milp_partial p (seq 0 h) ps = Ok P -> optimal P a ->
  exists modes sch e, rp_retrieve p (seq 0 h) a = Ok (modes, sch) /\ feasible p n modes sch e /\ honoured ps sch /\
    forall modes' sch' e', tasks p modes' n -> feasible p n modes' sch' e' -> honoured ps sch' -> (e <= e')%Z.
Proof.
  intros p n h ps P a L Sa Hh Cov K E [A O]. destruct (C125_sound p n h ps P a L Hh Cov K E A) as (modes & sch & R & Tk & F & Hon & Lt).
  exists modes, sch, (eval a (p_obj P)). split; auto. split; auto. split; auto. intros modes' sch' e' Tk' F' Hon'.
  destruct (Z.lt_ge_cases e' (Z.of_nat h)) as [Q|Q]; [|lia].
  destruct (C125_complete p n h ps modes' sch' e' L Sa Hh Cov K Tk' F' Hon' Q) as (P' & b & s & E' & B & Ob & _).
  rewrite E in E'. injection E' as <-. specialize (O b B). unfold better_or_equal in O.
  destruct (program_ok p n h ps L Hh Cov K) as (P' & E' & Mx & _). rewrite E in E'. injection E' as <-. rewrite Mx in O. lia.
Qed.

(** With the start times chosen from a feasible start schedule the program has a solution, so its answer is never later. *)
Theorem C125_start : forall p n modes sch mk T, lp_instance p n -> sane p -> covered p (mk + 1) -> tasks p modes n ->
  feasible p n modes sch (Z.of_nat mk) -> rp_times p true mk None = Ok T ->
  exists P a, rp_milp p T = Ok P /\ admissible P a.
Proof.
  intros p n modes sch mk T L Sa Cov Tk F E. unfold rp_times in E. apply bind_ok in E as (ps & _ & E). injection E as <-.
  destruct (C125_complete p n (mk + 1) None modes sch (Z.of_nat mk) L Sa ltac:(lia) Cov I Tk F I ltac:(lia)) as (P & a & s & E & A & _).
  unfold rp_milp_partial in E. apply bind_ok in E as (P' & E & E'). injection E' as ->. eauto.
Qed.

(** Feasibility as checked by [satisfy], when non-renewable capacities do not vary and non-renewable needs are not negative. *)
Theorem C125_satisfy : forall p n modes sch e, lp_instance p n -> tasks p modes n -> timed p modes (seq 1 (n + 2)) sch -> makespan p sch e ->
  (0 < e)%Z -> (forall r t, In r (res_names p) -> (Z.of_nat t < e)%Z -> capacity_of p r t <> None) ->
  (forall r t, In r (p_nonren p) -> (Z.of_nat t < e)%Z -> capacity_of p r t = capacity_of p r 0) ->
  (forall a r, In r (p_nonren p) -> (0 <= demand p modes a r)%Z) ->
  (satisfy p modes sch None = Ok true <-> feasible p n modes sch e).
Proof.
  intros p n modes sch e L Tk Ti Mk Pos Cap Cst Nn.
  destruct (C39_decides p modes n sch None e Tk (t_tasks _ _ _ _ Ti) Mk) as (b & -> & B); [|auto|].
  { intros r t R [Q|Q]; apply Cap; auto. lia. }
  split.
  - intros Q. injection Q as ->. destruct (proj1 B eq_refl) as (_ & _ & To & Ru). constructor; auto.
  - intros [_ _ To Ru]. f_equal. apply B. split; [discriminate|]. split; [exact (t_precedence _ _ _ _ Ti)|]. split; auto.
    intros r t c Lt C. destruct (pymem r (p_nonren p)) eqn:R.
    + apply (proj1 (pymem_true _ _)) in R. rewrite (Cst r t R Lt) in C. specialize (To r c R C). unfold total_demand in To. rewrite (sink_is p n L) in To.
      assert (running p modes sch r (Z.of_nat t) <= sumZ (map (fun a => demand p modes a r) (seq 1 (n + 2))))%Z; [|lia].
      rewrite <- (sumZ_map_perm _ (t_tasks _ _ _ _ Ti)), map_map. unfold running. apply sum_le. intros [x [s f]] _. cbn [fst].
      specialize (Nn x r R). destruct ((s <=? Z.of_nat t)%Z && (Z.of_nat t <? f)%Z); lia.
    + apply Ru; auto. intros K. apply (proj2 (pymem_true _ _)) in K. congruence.
Qed.

(** * One mode *)
Lemma says_ext : forall p n h mo mo' st, (forall x, In x (seq 1 (n + 2)) -> mo x = mo' x) -> says p n h mo st -> says p n h mo' st.
Proof.
  intros p n h mo mo' st E [Y1 Y2 Y3]. assert (D : forall x, In x (seq 1 (n + 2)) -> dur p mo' x = dur p mo x) by (intros x I; unfold dur; now rewrite (E x I)).
  constructor.
  - intros r t R Lt. etransitivity; [|exact (Y1 r t R Lt)]. apply Z.eq_le_incl. apply sum_ext. intros x I. now rewrite (D x I), (E x I).
  - intros r R. etransitivity; [|exact (Y2 r R)]. apply Z.eq_le_incl. apply sum_ext. intros x I. now rewrite (E x I).
  - intros x b I Ib. rewrite (D x I). auto.
Qed.
Section One.
Variables (p : rcpsp) (n mk : nat) (c : list (string * Z)).
Hypothesis L : lp_instance p n.
Hypothesis Cst : p_res p = Constant c.
Hypothesis Ren : p_nonren p = [].
Let h := mk + 1.
Let Hh : 0 < h.
Proof. unfold h. lia. Qed.
Let one := fun _ : nat => 1.
Let N := n + 2.
Let data := map (fun x => (m_duration (mdf p x 1), map (needf p x 1) (res_names p))) (seq 1 N).
Definition name (r : nat) : string := nth r (res_names p) EmptyString.

Lemma one_valid : valid p n one.
Proof.
  intros x I. apply in_seq in I. destruct (in_task _ (l_instance _ _ L) x) as (d & m & D & G); [rewrite (sink_is p n L); lia|].
  unfold modesf. rewrite D. apply dget_In in G. apply (in_map fst) in G. exact G.
Qed.
Lemma data_ok : mapM (sm_task p) (rp_tasks p) = Ok data.
Proof.
  rewrite (tasks_seq p n L). apply mapM_total. intros x I. unfold sm_task.
  destruct (mode_ok p n h L Hh x 1 I (one_valid x I)) as [-> _]. cbn [bind].
  rewrite (mapM_total _ (needf p x 1)); [reflexivity|]. intros r R. apply (need_got p n h L Hh x 1 r I (one_valid x I) R).
Qed.
Lemma data_length : length data = N.
Proof. unfold data. now rewrite map_length, seq_length. Qed.
Lemma data_get : forall x, In x (seq 1 N) -> lget data (x - 1) = Ok (m_duration (mdf p x 1), map (needf p x 1) (res_names p)).
Proof.
  intros x I. apply in_seq in I. apply lget_ok. unfold data. rewrite nth_error_map, nth_error_seq by lia.
  replace (1 + (x - 1)) with x by lia. reflexivity.
Qed.
Lemma data_combine : combine (seq 0 (length data)) data = map (fun x => (x - 1, (m_duration (mdf p x 1), map (needf p x 1) (res_names p)))) (seq 1 N).
Proof.
  rewrite data_length. unfold data. clear.
  rewrite <- seq_shift, !map_map. induction (seq 0 N) as [|i l IH]; [reflexivity|]. cbn [map combine]. rewrite IH. replace (S i - 1) with i by lia. reflexivity.
Qed.
Lemma name_get : forall r (f : string -> Z), r < length (res_names p) -> lget (map f (res_names p)) r = Ok (f (name r)).
Proof. intros r f Lt. apply lget_ok. rewrite nth_error_map, (nth_error_nth' _ EmptyString) by auto. reflexivity. Qed.
Lemma name_cap : forall r t, r < length (res_names p) -> sm_capacity p r = Ok (capf p (name r) t).
Proof.
  intros r t Lt. pose proof (in_names _ (l_instance _ _ L)) as Nd. unfold sm_capacity, capf, capacity_of, name. unfold res_names in *. rewrite Cst in *.
  clear -Lt Nd. apply lget_ok. revert r Lt. induction c as [|[k v] d IH]; intros r Lt; [cbn in Lt; lia|]. inversion Nd as [|? ? N1 N2]; subst.
  destruct r as [|r]; cbn [map nth_error dkeys nth fst snd dget].
  - now rewrite pyeqb_refl.
  - cbn in Lt. assert (Q : r < length (dkeys d)) by (unfold dkeys; lia). rewrite (IH N2 r Q).
    destruct (pyeqb_spec (nth r (map fst d) EmptyString) k) as [E|E]; [|reflexivity].
    exfalso. apply N1. rewrite <- E. apply nth_In. exact Q.
Qed.
Definition span (x t : nat) : list nat := seq (t + 1 - m_duration (mdf p x 1)) (t + 1 - (t + 1 - m_duration (mdf p x 1))).
Definition sm_cap (r t : nat) : constr rvar :=
  Constr (esum (concat (map (fun x => map (fun t2 => escale (needf p x 1 (name r)) (evar (RX (x - 1 + 1) 1 t2))) (span x t)) (seq 1 N)))) SLe
    (econst (capf p (name r) t)).
Lemma sm_running_ok : forall r t, r < length (res_names p) -> sm_running p data r t = Ok (sm_cap r t).
Proof.
  intros r t Lt. unfold sm_running. rewrite data_combine, mapM_map.
  rewrite (mapM_total _ (fun x => map (fun t2 => escale (needf p x 1 (name r)) (evar (RX (x - 1 + 1) 1 t2))) (span x t))).
  - cbn [bind]. rewrite (name_cap r t Lt). reflexivity.
  - intros x I. apply mapM_total. intros t2 _. cbn [fst snd]. rewrite (name_get r (needf p x 1) Lt). reflexivity.
Qed.
Definition sm_prec (x b : nat) : constr rvar :=
  Constr (esum (map (fun t => eadd (escale (Z.of_nat t) (evar (RX (b - 1 + 1) 1 t))) (escale (- Z.of_nat t) (evar (RX (x - 1 + 1) 1 t)))) (seq 0 h))) SGe
    (econst (Z.of_nat (m_duration (mdf p x 1)))).
Lemma sm_after_ok : forall x, In x (seq 1 N) -> sm_after p data (seq 0 h) x = Ok (map (sm_prec x) (succf p x)).
Proof.
  intros x I. destruct (succ_ok p n h L Hh x I) as [E S]. unfold sm_after. unfold dgetE. rewrite E. cbn [bind]. apply mapM_total.
  intros b Ib. pose proof (S b Ib) as Jb. rewrite data_length, (data_get x I).
  assert (X : forall y t, In y (seq 1 N) -> sm_x N (y - 1) t = Ok (evar (RX (y - 1 + 1) 1 t))).
  { intros y t Iy. apply in_seq in Iy. unfold sm_x. destruct (Nat.ltb_spec (y - 1) N); [reflexivity|lia]. }
  rewrite (mapM_total _ (fun t => eadd (escale (Z.of_nat t) (evar (RX (b - 1 + 1) 1 t))) (escale (- Z.of_nat t) (evar (RX (x - 1 + 1) 1 t))))); [reflexivity|].
  intros t _. rewrite !X by auto. reflexivity.
Qed.
Definition sm_one (j : nat) : constr rvar := Constr (esum (map (fun t => evar (RX (j + 1) 1 t)) (seq 0 h))) SEq (econst 1).
Definition the_sm : milp rvar :=
  Milp (flat_map (fun j => map (fun t => binary_var (RX (j + 1) 1 t)) (seq 0 h)) (seq 0 N))
       (map sm_one (seq 0 N) ++
        map (fun rt => sm_cap (fst rt) (snd rt)) (flat_map (fun r => map (pair r) (seq 0 h)) (seq 0 (length (res_names p)))) ++
        concat (map (fun x => map (sm_prec x) (succf p x)) (seq 1 N)))
       (esum (map (fun t => escale (Z.of_nat t) (evar (RX (N - 1 + 1) 1 t))) (seq 0 h))) false.
Lemma sm_ok : sm_milp p mk None = Ok the_sm.
Proof.
  unfold sm_milp. fold h. rewrite data_ok. cbn [bind].
  rewrite (mapM_total _ (fun rt => sm_cap (fst rt) (snd rt))).
  2:{ intros [r t] I. apply in_flat_map in I as (r' & Ir & K). apply in_map_iff in K as (t' & E & _). injection E as -> ->. apply in_seq in Ir.
      cbn [fst snd]. apply sm_running_ok. lia. }
  cbn [bind]. rewrite (tasks_seq p n L). fold N. fold h. rewrite (mapM_total _ _ _ sm_after_ok). cbn [bind]. rewrite data_length. reflexivity.
Qed.

Definition is_start (a : rvar -> Z) (st : nat -> nat) : Prop :=
  forall x, In x (seq 1 N) -> st x < h /\ forall t, t < h -> a (RX x 1 t) = if t =? st x then 1%Z else 0%Z.
Lemma start_sum : forall a st x (w : nat -> Z) lo len, is_start a st -> In x (seq 1 N) -> lo + len <= h ->
  sumZ (map (fun t => (w t * a (RX (x - 1 + 1) 1 t))%Z) (seq lo len)) = if (lo <=? st x) && (st x <? lo + len) then w (st x) else 0%Z.
Proof.
  intros a st x w lo len Is I Le. destruct (Is x I) as [Lt U]. apply in_seq in I. replace (x - 1 + 1) with x by lia.
  destruct ((lo <=? st x) && (st x <? lo + len)) eqn:B.
  - apply andb_true_iff in B as [B1 B2]. apply Nat.leb_le in B1. apply Nat.ltb_lt in B2.
    rewrite (sum_indicator _ _ _ (st x)).
    + rewrite U, Nat.eqb_refl by auto. lia.
    + apply seq_NoDup.
    + apply in_seq. lia.
    + intros t It Ne. apply in_seq in It. rewrite U by lia. destruct (Nat.eqb_spec t (st x)); [contradiction|lia].
  - apply sumZ_map_zero. intros t It. apply in_seq in It. rewrite U by lia. destruct (Nat.eqb_spec t (st x)) as [Et|Et]; [|lia].
    subst t. apply andb_false_iff in B as [B|B]; [apply Nat.leb_gt in B|apply Nat.ltb_ge in B]; lia.
Qed.
Lemma cap_holds : forall a st r t, is_start a st -> t < h -> (holds a (sm_cap r t) <->
  (sumZ (map (fun x => if ((st x <=? t) && (t <? st x + dur p one x))%nat then needf p x 1 (name r) else 0%Z) (seq 1 N)) <= capf p (name r) t)%Z).
Proof.
  intros a st r t Is Lt. unfold holds, sm_cap. cbn [c_left c_sense c_right]. rewrite eval_const, <- flat_map_concat_map, eval_sum, sumZ_flat.
  rewrite (sum_ext _ _ (fun x => if ((st x <=? t) && (t <? st x + dur p one x))%nat then needf p x 1 (name r) else 0%Z)); [reflexivity|].
  intros x I. rewrite map_map. rewrite (sum_ext _ _ (fun t2 => (needf p x 1 (name r) * a (RX (x - 1 + 1) 1 t2))%Z)) by (intros; rewrite eval_scale, eval_var; reflexivity).
  unfold span. rewrite (start_sum a st x (fun _ => needf p x 1 (name r)) _ _ Is I) by lia. unfold dur, one.
  set (d := m_duration (mdf p x 1)).
  destruct (Nat.leb_spec (t + 1 - d) (st x)), (Nat.ltb_spec (st x) (t + 1 - d + (t + 1 - (t + 1 - d)))), (Nat.leb_spec (st x) t), (Nat.ltb_spec t (st x + d)); try reflexivity; lia.
Qed.
Lemma prec_holds : forall a st x b, is_start a st -> In x (seq 1 N) -> In b (seq 1 N) -> (holds a (sm_prec x b) <-> st x + dur p one x <= st b).
Proof.
  intros a st x b Is I Ib. unfold holds, sm_prec. cbn [c_left c_sense c_right]. rewrite eval_const, eval_sum_map.
  rewrite (sum_ext _ _ (fun t => (Z.of_nat t * a (RX (b - 1 + 1) 1 t) + (- Z.of_nat t) * a (RX (x - 1 + 1) 1 t))%Z))
    by (intros; rewrite eval_add, !eval_scale, !eval_var; reflexivity).
  rewrite sumZ_map_plus. rewrite (start_sum a st b Z.of_nat 0 h Is Ib), (start_sum a st x (fun t => - Z.of_nat t)%Z 0 h Is I) by lia.
  destruct (Is x I) as [Lx _], (Is b Ib) as [Lb _].
  replace (st b <? 0 + h) with true by (symmetry; apply Nat.ltb_lt; lia). replace (st x <? 0 + h) with true by (symmetry; apply Nat.ltb_lt; lia).
  cbn [Nat.leb andb]. unfold dur, one. lia.
Qed.
Lemma one_holds : forall a st j, is_start a st -> j < N -> holds a (sm_one j).
Proof.
  intros a st j Is Lt. assert (I : In (j + 1) (seq 1 N)) by (apply in_seq; lia). unfold holds, sm_one. cbn [c_left c_sense c_right].
  rewrite eval_const, eval_sum_map. rewrite (sum_ext _ _ (fun t => (1 * a (RX (j + 1 - 1 + 1) 1 t))%Z)) by (intros; rewrite eval_var; replace (j + 1 - 1 + 1) with (j + 1) by lia; lia).
  rewrite (start_sum a st (j + 1) (fun _ => 1%Z) 0 h Is I) by lia. destruct (Is (j + 1) I) as [Lx _].
  replace (st (j + 1) <? 0 + h) with true by (symmetry; apply Nat.ltb_lt; lia). reflexivity.
Qed.
Lemma renew_name : forall r, In r (renew p) <-> exists i, i < length (res_names p) /\ r = name i.
Proof.
  intros r. unfold renew. rewrite Ren, PyMore.filter_all by reflexivity. split.
  - intros I. apply (In_nth _ _ EmptyString) in I as (i & Lt & E). exists i. auto.
  - intros (i & Lt & ->). now apply nth_In.
Qed.
Lemma sm_says : forall a st, is_start a st -> (admissible the_sm a <-> says p n h one st).
Proof.
  intros a st Is. split.
  - intros [_ A]. cbn [the_sm p_constrs] in A. constructor.
    + intros r t R Lt. apply renew_name in R as (i & Li & ->). apply (cap_holds a st i t Is Lt). apply A.
      apply in_or_app. right. apply in_or_app. left. apply in_map_iff. exists (i, t). split; auto. apply in_flat_map. exists i. split; [apply in_seq; lia|].
      apply in_map, in_seq. lia.
    + rewrite Ren. intros r [].
    + intros x b I Ib. apply (prec_holds a st x b Is I); [now apply (succ_ok p n h L Hh x)|]. apply A.
      do 2 (apply in_or_app; right). apply in_concat. eexists. split; [apply in_map_iff; exists x; split; [reflexivity|exact I]|]. now apply in_map.
  - intros Y. constructor.
    + intros v I. cbn [the_sm p_vars] in I. apply in_flat_map in I as (j & Ij & I). apply in_map_iff in I as (t & <- & It). apply in_seq in Ij, It.
      unfold in_bounds, binary_var. cbn [v_lo v_hi v_id]. destruct (Is (j + 1)) as [_ U]; [apply in_seq; lia|]. rewrite U by lia. destruct (t =? st (j + 1)); lia.
    + intros k I. cbn [the_sm p_constrs] in I. apply in_app_or in I as [I|I]; [|apply in_app_or in I as [I|I]].
      * apply in_map_iff in I as (j & <- & Ij). apply in_seq in Ij. apply (one_holds a st j Is). lia.
      * apply in_map_iff in I as ([r t] & <- & I). apply in_flat_map in I as (r' & Ir & K). apply in_map_iff in K as (t' & E & K). injection E as -> ->.
        apply in_seq in Ir, K. cbn [fst snd]. apply (cap_holds a st r t Is); [lia|]. apply (y_running _ _ _ _ _ Y (name r) t); [|lia].
        apply renew_name. exists r. split; [lia|auto].
      * apply in_concat in I as (l & I1 & I2). apply in_map_iff in I1 as (x & <- & Ix). apply in_map_iff in I2 as (b & <- & Ib).
        apply (prec_holds a st x b Is Ix); [now apply (succ_ok p n h L Hh x)|]. exact (y_after _ _ _ _ _ Y x b Ix Ib).
Qed.
Lemma sm_start : forall a, admissible the_sm a -> exists st, is_start a st.
Proof.
  intros a [Bd A]. cbn [the_sm p_vars p_constrs] in Bd, A.
  exists (fun x => match find (fun t => (1 <=? a (RX x 1 t))%Z) (seq 0 h) with Some t => t | None => 0 end).
  intros x I. apply in_seq in I. specialize (A (sm_one (x - 1))). unfold holds, sm_one in A. cbn [c_left c_sense c_right] in A.
  replace (x - 1 + 1) with x in A by lia. rewrite eval_const, eval_sum_map in A.
  destruct (sum_one _ (fun t => eval a (evar (RX x 1 t))) (seq 0 h)) as (t & It & V & O).
  - intros t It. rewrite eval_var. specialize (Bd (binary_var (RX x 1 t))). unfold in_bounds, binary_var in Bd. cbn [v_lo v_hi v_id] in Bd. apply Bd.
    apply in_flat_map. exists (x - 1). split; [apply in_seq; lia|]. apply in_map_iff. exists t. split; auto. now replace (x - 1 + 1) with x by lia.
  - apply seq_NoDup.
  - apply A. apply in_or_app. left. apply in_map_iff. exists (x - 1). split; [unfold sm_one; now replace (x - 1 + 1) with x by lia|]. apply in_seq. lia.
  - rewrite eval_var in V. assert (E : find (fun t => (1 <=? a (RX x 1 t))%Z) (seq 0 h) = Some t).
    { destruct (find (fun t => (1 <=? a (RX x 1 t))%Z) (seq 0 h)) as [t'|] eqn:E.
      - apply find_some in E as [It' V']. destruct (Nat.eq_dec t' t) as [->|Ne]; auto. specialize (O t' It' Ne). rewrite eval_var in O. lia.
      - exfalso. apply find_none with (x := t) in E; auto. lia. }
    rewrite E. apply in_seq in It. split; [lia|]. intros t' Lt'. destruct (Nat.eqb_spec t' t) as [->|Ne]; auto.
    specialize (O t'). rewrite eval_var in O. apply O; auto. apply in_seq. lia.
Qed.
Lemma sm_obj : forall a st, is_start a st -> eval a (p_obj the_sm) = Z.of_nat (st N).
Proof.
  intros a st Is. assert (I : In N (seq 1 N)) by (apply in_seq; unfold N; lia). cbn [the_sm p_obj]. rewrite eval_sum_map.
  rewrite (sum_ext _ _ (fun t => (Z.of_nat t * a (RX (N - 1 + 1) 1 t))%Z)) by (intros; rewrite eval_scale, eval_var; reflexivity).
  rewrite (start_sum a st N Z.of_nat 0 h Is I) by lia. destruct (Is N I) as [Lx _].
  replace (st N <? 0 + h) with true by (symmetry; apply Nat.ltb_lt; lia). reflexivity.
Qed.
Lemma sm_read_task : forall a st x sch, is_start a st -> In x (seq 1 N) ->
  foldM (sm_read p a) sch (map (pair (x - 1)) (seq 0 h)) = Ok (dset sch x (snd (entry p one st x))).
Proof.
  intros a st x sch Is I. destruct (Is x I) as [Lt U].
  assert (Sk : forall l s, (forall t, In t l -> t < h /\ t <> st x) -> foldM (sm_read p a) s (map (pair (x - 1)) l) = Ok s).
  { induction l as [|t l IH]; intros s Hl; [reflexivity|]. cbn [map foldM sm_read]. apply in_seq in I as I'. replace (x - 1 + 1) with x by lia.
    destruct (Hl t (or_introl eq_refl)) as [Ht Ne]. rewrite U by auto. destruct (Nat.eqb_spec t (st x)); [contradiction|]. cbn [Z.leb Z.compare bind].
    apply IH. intros; apply Hl; now right. }
  assert (K : In (st x) (seq 0 h)) by (apply in_seq; lia). pose proof (seq_NoDup h 0) as Nd.
  assert (B : forall t, In t (seq 0 h) -> t < h) by (intros t It; apply in_seq in It; lia).
  apply in_split in K as (l1 & l2 & E). rewrite E in *. apply NoDup_remove_2 in Nd. rewrite map_app. cbn [map]. rewrite foldM_app.
  rewrite Sk by (intros t It; split; [apply B; apply in_or_app; auto|intros ->; apply Nd; apply in_or_app; auto]).
  cbn [bind foldM sm_read]. apply in_seq in I as I'. replace (x - 1 + 1) with x by lia. rewrite U, Nat.eqb_refl by auto. cbn [Z.leb Z.compare].
  destruct (mode_ok p n h L Hh x 1 I (one_valid x I)) as [-> _]. cbn [bind].
  apply Sk. intros t It. split; [apply B; apply in_or_app; right; now right|intros ->; apply Nd; apply in_or_app; auto].
Qed.
Lemma sm_retrieved : forall a st, is_start a st -> sm_retrieve p mk a = Ok (the_sched p n one st).
Proof.
  intros a st Is. unfold sm_retrieve. fold h. change (length (p_modes p)) with (p_sink p). rewrite (sink_is p n L). fold N.
  assert (G : forall l s, NoDup l -> incl l (seq 1 N) -> (forall x, In x l -> ~ In x (dkeys s)) ->
    foldM (sm_read p a) s (flat_map (fun x => map (pair (x - 1)) (seq 0 h)) l) = Ok (s ++ map (entry p one st) l)).
  { induction l as [|x l IH]; intros s Nd Ic Fr; [cbn; now rewrite app_nil_r|]. inversion Nd; subst. cbn [flat_map].
    rewrite foldM_app, (sm_read_task a st x) by (auto; apply Ic; now left). cbn [bind].
    rewrite PyMore.dset_new by (apply Fr; now left). rewrite IH; auto.
    - cbn [map]. now rewrite <- app_assoc.
    - intros y Iy. apply Ic. now right.
    - intros y Iy. unfold dkeys. rewrite map_app, in_app_iff. cbn [map fst]. intros [K|[->|[]]]; [apply (Fr y (or_intror Iy)); exact K|contradiction]. }
  replace (flat_map (fun j => map (pair j) (seq 0 h)) (seq 0 N)) with (flat_map (fun x => map (pair (x - 1)) (seq 0 h)) (seq 1 N)).
  - apply (G (seq 1 N) []); [apply seq_NoDup|apply incl_refl|intros x _ []].
  - rewrite <- seq_shift. clear. induction (seq 0 N) as [|i l IH]; [reflexivity|]. cbn [map flat_map]. rewrite IH. now replace (S i - 1) with i by lia.
Qed.
Lemma modes_one : the_modes n one = repeat 1 n.
Proof. unfold the_modes, one. generalize 2. clear. induction n as [|m IH]; intros k; [reflexivity|]. cbn [seq map repeat]. now rewrite IH. Qed.
Lemma covered_const : covered p h.
Proof.
  intros r t R _. unfold capacity_of. unfold res_names in R. rewrite Cst in *. intros K. apply (proj1 (dget_None _ _)) in K. contradiction.
Qed.
End One.

(** C126.  Without non-renewable resources and with constant capacities: solutions of the single-mode program are
    read back as feasible schedules (all tasks in mode 1) with the objective as makespan, not later than the start. *)
Theorem C126_sound : forall p n mk c P a, lp_instance p n -> p_res p = Constant c -> p_nonren p = [] ->
  sm_milp p mk None = Ok P -> admissible P a ->
  exists sch, sm_retrieve p mk a = Ok sch /\ feasible p n (repeat 1 n) sch (eval a (p_obj P)) /\ (eval a (p_obj P) <= Z.of_nat mk)%Z.
Proof.
  intros p n mk c P a L Cst Ren E A. rewrite (sm_ok p n mk c L Cst) in E. injection E as <-.
  assert (Hh : 0 < mk + 1) by lia. destruct (sm_start p n mk a A) as [st Is]. apply (proj1 (sm_says p n mk L Ren a st Is)) in A.
  exists (the_sched p n (fun _ => 1) st). split; [now apply sm_retrieved|]. rewrite (sm_obj p n mk a st Is).
  destruct (Is (n + 2)) as [Ls _]; [apply in_seq; lia|]. split; [|lia]. rewrite <- modes_one.
  apply (feasible_iff p n (mk + 1) L Hh (covered_const p mk c Cst) (fun _ => 1) st (one_valid p n mk L) Ls). exact A.
Qed.
Theorem C126_complete : forall p n mk c sch e, lp_instance p n -> sane p -> p_res p = Constant c -> p_nonren p = [] ->
  tasks p (repeat 1 n) n -> feasible p n (repeat 1 n) sch e -> (e <= Z.of_nat mk)%Z ->
  exists P a sch', sm_milp p mk None = Ok P /\ admissible P a /\ eval a (p_obj P) = e /\ sm_retrieve p mk a = Ok sch' /\ Permutation sch' sch.
Proof.
  intros p n mk c sch e L Sa Cst Ren Tk F He. assert (Hh : 0 < mk + 1) by lia.
  destruct (schedule_plan p n (mk + 1) (repeat 1 n) sch e L Sa Hh (covered_const p mk c Cst) Tk F) as (mo & st & V & MS & PS & St & Se & Y); [lia|].
  assert (M1 : forall x, In x (seq 1 (n + 2)) -> mo x = 1).
  { intros x I. apply in_seq in I. destruct (Nat.eq_dec x 1) as [E1|E1]; [apply (ends_one p n (mk + 1) L Hh mo x V); auto|].
    destruct (Nat.eq_dec x (n + 2)) as [E2|E2]; [apply (ends_one p n (mk + 1) L Hh mo x V); auto|].
    assert (E : nth_error (the_modes n mo) (x - 2) = Some (mo x)).
    { unfold the_modes. rewrite nth_error_map, nth_error_seq by lia. replace (2 + (x - 2)) with x by lia. reflexivity. }
    rewrite MS in E. apply nth_error_In, repeat_spec in E. exact E. }
  set (a := fun v => match v with RX x m t => if t =? st x then 1%Z else 0%Z | RD x => 0%Z end).
  assert (Is : is_start n mk a st). { intros x I. split; [now apply St|]. reflexivity. }
  exists (the_sm p n mk), a, (the_sched p n (fun _ => 1) st). split; [exact (sm_ok p n mk c L Cst)|]. split; [|split; [|split]].
  - apply (sm_says p n mk L Ren a st Is). apply (says_ext p n (mk + 1) mo); auto.
  - rewrite (sm_obj p n mk a st Is). exact Se.
  - now apply sm_retrieved.
  - eapply Permutation_trans; [|exact PS]. apply Permutation_refl'. unfold the_sched. apply map_ext_in. intros x I. unfold entry, dur. now rewrite (M1 x I).
Qed.
Theorem C126_optimal : forall p n mk c P a, lp_instance p n -> sane p -> p_res p = Constant c -> p_nonren p = [] ->
  sm_milp p mk None = Ok P -> optimal P a ->
  exists sch e, sm_retrieve p mk a = Ok sch /\ feasible p n (repeat 1 n) sch e /\
    forall sch' e', tasks p (repeat 1 n) n -> feasible p n (repeat 1 n) sch' e' -> (e <= e')%Z.
Proof.
  intros p n mk c P a L Sa Cst Ren E [A O]. destruct (C126_sound p n mk c P a L Cst Ren E A) as (sch & R & F & Le).
  exists sch, (eval a (p_obj P)). split; auto. split; auto. intros sch' e' Tk' F'. destruct (Z.le_gt_cases e' (Z.of_nat mk)) as [Q|Q]; [|lia].
  destruct (C126_complete p n mk c sch' e' L Sa Cst Ren Tk' F' Q) as (P' & b & s & E' & B & Ob & _). rewrite E in E'. injection E' as <-.
  specialize (O b B). rewrite (sm_ok p n mk c L Cst) in E. injection E as <-. unfold better_or_equal in O. cbn [the_sm p_max] in O. lia.
Qed.

(** * Concrete cases *)
Local Open Scope string_scope.
Definition hold_b (a : rvar -> Z) (c : constr rvar) : bool :=
  match c_sense c with
  | SLe => (eval a (c_left c) <=? eval a (c_right c))%Z
  | SGe => (eval a (c_right c) <=? eval a (c_left c))%Z
  | SEq => (eval a (c_left c) =? eval a (c_right c))%Z
  end.
Definition bound_b (a : rvar -> Z) (v : var rvar) : bool :=
  (v_lo v <=? a (v_id v))%Z && match v_hi v with Some u => (a (v_id v) <=? u)%Z | None => true end.
Lemma check_admissible : forall P a, forallb (bound_b a) (p_vars P) && forallb (hold_b a) (p_constrs P) = true -> admissible P a.
Proof.
  intros P a H. apply andb_true_iff in H as [H1 H2]. rewrite forallb_forall in H1, H2. constructor.
  - intros v I. specialize (H1 v I). unfold bound_b in H1. apply andb_true_iff in H1 as [H3 H4]. unfold in_bounds. split; [lia|]. destruct (v_hi v); auto. lia.
  - intros c I. specialize (H2 c I). unfold hold_b in H2. unfold holds. destruct (c_sense c); lia.
Qed.
Ltac small_keys D := cbn in D; repeat match type of D with context[Nat.eqb ?a ?b] => destruct (Nat.eqb_spec a b) end; try discriminate D; subst.

Lemma ex_lp : lp_instance ex_p 3.
Proof.
  constructor; try apply ex_tasks.
  - reflexivity.
  - intros a d D. small_keys D; injection D as <-; cbn; repeat constructor; cbn; intuition lia.
  - intros a d [-> | ->] D; cbn in D; injection D as <-; reflexivity.
  - intros d m D G. cbn in D. injection D as <-. cbn in G. injection G as <-. reflexivity.
  - intros a Ha. destruct a as [|[|[|[|[|a]]]]]; try (exfalso; lia); cbn; eexists; eexists; (split; [reflexivity|now left]).
Qed.
Lemma ex_feasible : feasible ex_p 3 [1; 2; 1] ex_sch 7.
Proof.
  destruct C38_ex as (_ & Ti & Wi & _). constructor; auto.
  - exists 7%Z. cbn. tauto.
  - intros r c [<-|[]] C. vm_compute in C. injection C as <-. vm_compute. discriminate.
  - intros r t c Nr _ C. exact (r_running _ _ _ Wi r t c Nr C).
Qed.
(** Start task 2 at 3; let 3 start not after 2, and 2 not after 4. *)
Definition ex_ps : partial_solution := PSolution None (Some [(2, 3)]) None (Some [3; 2]) (Some [[1; 2; 4]]).
Example C125_ex : lp_instance ex_p 3 /\ sane ex_p /\ covered ex_p 8 /\ known 3 (Some ex_ps) /\ tasks ex_p [1; 2; 1] 3 /\
  feasible ex_p 3 [1; 2; 1] ex_sch 7 /\ honoured (Some ex_ps) ex_sch /\
  exists P a sch, rp_milp_partial ex_p (seq 0 8) (Some ex_ps) = Ok P /\ admissible P a /\ rp_retrieve ex_p (seq 0 8) a = Ok ([1; 2; 1], sch) /\
    dget sch 4 = Some (5, 7)%Z.
Proof.
  assert (Cv : covered ex_p 8).
  { intros r t R _. cbn in R. destruct R as [<-|[<-|[]]]; discriminate. }
  assert (Kn : known 3 (Some ex_ps)).
  { split; cbn; intros; intuition (subst; cbn in *; try congruence; try (injection H0 as <- <-; lia); intuition lia). }
  assert (Ho : honoured (Some ex_ps) ex_sch).
  { constructor.
    - intros a t [E|[]]. injection E as <- <-. exists 5%Z. cbn. tauto.
    - intros l i j a b sa ea sb eb Il Lt Ei Ej Ia Ib. cbn in Il.
      destruct Il as [<-|[<-|[]]]; destruct i as [|[|[|i]]]; cbn in Ei; try discriminate; destruct j as [|[|[|j]]]; cbn in Ej; try discriminate; try (destruct j; discriminate); try lia;
        injection Ei as <-; injection Ej as <-; cbn in Ia, Ib;
        repeat match goal with H : _ \/ _ |- _ => destruct H end; try contradiction; try discriminate; congruence || (injection H as <- <-; injection H0 as <- <-; lia) || idtac. }
  split; [exact ex_lp|]. split; [exact ex_sane|]. split; [exact Cv|]. split; [exact Kn|]. split; [exact ex_tasks|]. split; [exact ex_feasible|]. split; [exact Ho|].
  destruct (C125_complete ex_p 3 8 (Some ex_ps) [1; 2; 1] ex_sch 7 ex_lp ex_sane ltac:(lia) Cv Kn ex_tasks ex_feasible Ho ltac:(lia))
    as (P & a & sch & E & A & _ & R & Pm). exists P, a, sch. split; auto. split; auto. split; auto.
  apply In_dget.
  - eapply Permutation_NoDup; [apply Permutation_map, Permutation_sym; exact Pm|]. repeat constructor; cbn; intuition lia.
  - apply (Permutation_in _ (Permutation_sym Pm)). cbn. tauto.
Qed.

(** Two tasks in a row; mode 1 of the first needs more of N than there is. *)
Definition ex_q : rcpsp := Rcpsp (Constant [("R", 1%Z); ("N", 1%Z)]) ["N"]
  [(1, [(1, ex_task 0 0 0)]); (2, [(1, ex_task 1 1 2); (2, ex_task 2 1 0)]); (3, [(1, ex_task 1 1 0)]); (4, [(1, ex_task 0 0 0)])]
  [(1, [2]); (2, [3]); (3, [4]); (4, [])] 10 1.
Ltac solve_instance :=
  constructor;
  [ repeat constructor; cbn; intuition congruence
  | exact I
  | let a := fresh "a" in let Ha := fresh "Ha" in intros a Ha; cbn in Ha;
    destruct a as [|[|[|[|[|a]]]]]; try (exfalso; lia); eexists; eexists; split; reflexivity
  | let D := fresh "D" in let K := fresh "K" in intros ? ? ? ? ? D K; small_keys D; injection D as <-; small_keys K; injection K as <-; cbn; intuition (subst; eexists; reflexivity)
  | let a := fresh "a" in let Ha := fresh "Ha" in intros a Ha; cbn in Ha;
    destruct a as [|[|[|[|[|a]]]]]; try (exfalso; lia); cbn; eexists; reflexivity
  | let D := fresh "D" in intros ? ? ? D; small_keys D; injection D as <-; cbn; intuition (subst; auto)
  | exists (fun a => a); let D := fresh "D" in intros ? ? ? D; small_keys D; injection D as <-; cbn; intuition lia
  | cbn; repeat constructor; cbn; intuition congruence ].
Ltac solve_lp :=
  constructor;
  [ solve_instance
  | reflexivity
  | let D := fresh "D" in intros ? ? D; small_keys D; injection D as <-; cbn; repeat constructor; cbn; intuition lia
  | let D := fresh "D" in intros ? ? [-> | ->] D; cbn in D; injection D as <-; reflexivity
  | let D := fresh "D" in let G := fresh "G" in intros ? ? D G; cbn in D; injection D as <-; cbn in G; injection G as <-; reflexivity
  | cbn; intuition lia
  | let r := fresh "r" in intros r; cbn; intuition (subst; auto)
  | let a := fresh "a" in let Ha := fresh "Ha" in intros a Ha;
    destruct a as [|[|[|[|[|a]]]]]; try (exfalso; lia); cbn; eexists; eexists; (split; [reflexivity|now left]) ].
Lemma q_lp : lp_instance ex_q 2.
Proof. solve_lp. Qed.
Lemma q_sane : sane ex_q.
Proof.
  constructor; [apply q_lp|]. intros r t c H. unfold capacity_of, ex_q, p_res in H. cbn in H.
  destruct (String.eqb r "R"); [injection H as <-; lia|]. destruct (String.eqb r "N"); [injection H as <-; lia|discriminate].
Qed.
Lemma q_covered : forall h, covered ex_q h.
Proof. intros h r t R _. cbn in R. destruct R as [<-|[<-|[]]]; discriminate. Qed.
Definition q_sch : schedule := [(1, (0, 0)%Z); (2, (0, 2)%Z); (3, (2, 3)%Z); (4, (3, 3)%Z)].
Lemma q_tasks : tasks ex_q [2; 1] 2.
Proof.
  constructor; try apply q_lp; auto. intros a Ha. destruct a as [|[|[|[|[|a]]]]]; try (exfalso; lia); cbn; discriminate.
Qed.
Ltac list_cases := repeat match goal with H : In _ (_ :: _) |- _ => destruct H as [H|H] | H : In _ [] |- _ => destruct H end.
Lemma q_feasible : feasible ex_q 2 [2; 1] q_sch 3.
Proof.
  constructor.
  - constructor.
    + reflexivity.
    + intros a s e Ia. unfold q_sch in Ia. list_cases; injection Ia as <- <- <-; eexists; (split; [reflexivity|split; [lia|reflexivity]]).
    + intros a b l sa ea sb eb D Ib Ia Jb. small_keys D; injection D as <-; unfold q_sch in Ia, Jb; list_cases; subst; try discriminate;
        repeat match goal with H : (_, _) = (_, _) |- _ => injection H as ? ? end; subst; try discriminate; lia.
  - exists 3%Z. cbn. tauto.
  - intros r c [<-|[]] C. vm_compute in C. injection C as <-. vm_compute. discriminate.
  - intros r t c Nr Lt C. unfold capacity_of, ex_q, p_res in C. cbn in C. destruct (String.eqb_spec r "R") as [->|Ne].
    + injection C as <-. assert (T : t = 0 \/ t = 1 \/ t = 2) by lia. destruct T as [-> |[-> | ->]]; vm_compute; discriminate.
    + destruct (String.eqb_spec r "N") as [->|]; [|discriminate]. exfalso. apply Nr. now left.
Qed.
(** No schedule of this instance ends before 3. *)
Lemma q_bound : forall h a, 0 < h -> admissible (the_milp ex_q 2 h) a -> exists mo st, is_plan ex_q 2 h a mo st /\ 3 <= st 4.
Proof.
  intros h a Hh A. destruct (admissible_plan ex_q 2 h q_lp Hh a A) as (mo & st & Pl & Du). exists mo, st. split; auto.
  apply (proj1 (plan_says ex_q 2 h q_lp Hh a mo st Pl Du)) in A. pose proof (plan_valid _ _ _ _ _ _ Pl) as V.
  assert (M3 : mo 3 = 1). { specialize (V 3). cbn in V. intuition congruence. }
  assert (M2 : mo 2 = 2).
  { pose proof (V 2) as V2. cbn in V2. destruct V2 as [V2|[V2|[]]]; auto. exfalso.
    assert (M1 : mo 1 = 1) by (specialize (V 1); cbn in V; intuition congruence). assert (M4 : mo 4 = 1) by (specialize (V 4); cbn in V; intuition congruence).
    pose proof (y_total _ _ _ _ _ A "N" (or_introl eq_refl)) as Y. cbn [seq map Nat.add] in Y. rewrite M1, <- V2, M3, M4 in Y. vm_compute in Y. congruence. }
  pose proof (y_after _ _ _ _ _ A 2 3) as Y1. pose proof (y_after _ _ _ _ _ A 3 4) as Y2. unfold dur in Y1, Y2. rewrite M2 in Y1. rewrite M3 in Y2.
  cbn in Y1, Y2. intuition lia.
Qed.
Example C125_optimal_ex : exists P a, rp_milp_partial ex_q (seq 0 5) None = Ok P /\ optimal P a /\ eval a (p_obj P) = 3%Z.
Proof.
  destruct (C125_complete ex_q 2 5 None [2; 1] q_sch 3 q_lp q_sane ltac:(lia) (q_covered 5) I q_tasks q_feasible I ltac:(lia)) as (P & a & s & E & A & Ob & _).
  exists P, a. split; auto. split; auto. split; auto. intros b B.
  destruct (program_ok ex_q 2 5 None q_lp ltac:(lia) (q_covered 5) I) as (P' & E' & Mx & Ob' & In1 & _). rewrite E in E'. injection E' as <-.
  destruct (q_bound 5 b ltac:(lia) (In1 b B)) as (mo & st & Pl & H3). unfold better_or_equal. rewrite Mx, Ob, (Ob' b mo st Pl). cbn [Nat.add]. lia.
Qed.
Example C125_start_ex : feasible ex_q 2 [2; 1] q_sch (Z.of_nat 3) /\ rp_times ex_q true 3 None = Ok [0; 1; 2; 3] /\
  satisfy ex_q [2; 1] q_sch None = Ok true.
Proof. split; [exact q_feasible|]. split; reflexivity. Qed.

(** * Findings *)
(** When the start schedule is not feasible the start times end one before the sum of the longest durations, although
    the sink may have to start at that sum: the program has no solution for an instance that has a feasible schedule. *)
Theorem C125_horizon_refuted : exists p n perm modes sch0 T modes' sch e P, lp_instance p n /\ sane p /\
  serial_sgs p perm (repeat 1 n) = Ok (modes, (sch0, false)) /\ (forall mk, rp_times p false mk None = Ok T) /\
  tasks p modes' n /\ feasible p n modes' sch e /\ rp_milp p T = Ok P /\ forall a, ~ admissible P a.
Proof.
  assert (S : exists modes sch0, serial_sgs ex_q [0; 1] (repeat 1 2) = Ok (modes, (sch0, false))) by (vm_compute; eexists; eexists; reflexivity).
  destruct S as (m0 & s0 & S0).
  destruct (program_ok ex_q 2 3 None q_lp ltac:(lia) (q_covered 3) I) as (P & E & _ & _ & In1 & _).
  exists ex_q, 2, [0; 1], m0, s0, [0; 1; 2], [2; 1], q_sch, 3%Z, P.
  split; [exact q_lp|]. split; [exact q_sane|]. split; [exact S0|]. split; [reflexivity|]. split; [exact q_tasks|]. split; [exact q_feasible|]. split.
  - cbn [rp_milp_partial] in E. apply bind_ok in E as (P' & E & E'). injection E' as <-. exact E.
  - intros a A. destruct (q_bound 3 a ltac:(lia) (In1 a A)) as (mo & st & Pl & H3). destruct (Pl 4) as (_ & Lt & _); [cbn; tauto|]. lia.
Qed.
(** The modes and the end times of a partial solution are not looked at. *)
Theorem C125_ignored_refuted : exists p n h ps P a modes sch, lp_instance p n /\ sane p /\ covered p h /\ known n (Some ps) /\
  rp_milp_partial p (seq 0 h) (Some ps) = Ok P /\ admissible P a /\ rp_retrieve p (seq 0 h) a = Ok (modes, sch) /\
  (exists x m, In (x, m) (given (ps_task_mode ps)) /\ nth_error modes (x - 2) <> Some m) /\
  (exists x t s e, In (x, t) (given (ps_end_times ps)) /\ In (x, (s, e)) sch /\ e <> Z.of_nat t).
Proof.
  set (ps := PSolution (Some [(2, 1)]) None (Some [(4, 4)]) None None).
  assert (K : known 2 (Some ps)) by (split; [intros a t []|intros l a [<-|[]] []]).
  assert (Ho : honoured (Some ps) q_sch) by (constructor; [intros a t []|intros l i j a b sa ea sb eb [<-|[]] _ Ei; destruct i; discriminate]).
  destruct (C125_complete ex_q 2 5 (Some ps) [2; 1] q_sch 3 q_lp q_sane ltac:(lia) (q_covered 5) K q_tasks q_feasible Ho ltac:(lia)) as (P & a & s & E & A & _ & R & Pm).
  exists ex_q, 2, 5, ps, P, a, [2; 1], s. split; [exact q_lp|]. split; [exact q_sane|]. split; [exact (q_covered 5)|]. split; [exact K|]. split; auto. split; auto. split; auto.
  split; [exists 2, 1; split; [now left|discriminate]|]. exists 4, 4, 3%Z, 3%Z. split; [now left|]. split; [|lia].
  apply (Permutation_in _ (Permutation_sym Pm)). cbn. tauto.
Qed.

(** Two tasks that cannot run together. *)
Definition ex_s (nonren : list string) : rcpsp := Rcpsp (Constant [("R", 2%Z); ("N", 3%Z)]) nonren
  [(1, [(1, ex_task 0 0 0)]); (2, [(1, ex_task 1 1 2)]); (3, [(1, ex_task 1 1 2)]); (4, [(1, ex_task 0 0 0)])]
  [(1, [2; 3]); (2, [4]); (3, [4]); (4, [])] 10 1.
Lemma s_lp : lp_instance (ex_s []) 2.
Proof. solve_lp. Qed.
Lemma sn_lp : lp_instance (ex_s ["N"]) 2.
Proof. solve_lp. Qed.
Lemma s_sane : forall l, sane (ex_s l).
Proof.
  intros l. constructor; [repeat constructor; cbn; intuition congruence|]. intros r t c H. unfold capacity_of, ex_s, p_res in H. cbn in H.
  destruct (String.eqb r "R"); [injection H as <-; lia|]. destruct (String.eqb r "N"); [injection H as <-; lia|discriminate].
Qed.
Definition s_val (v : rvar) : Z :=
  match v with RX 1 _ 0 | RX 2 _ 0 | RX 3 _ 1 | RX 4 _ 2 => 1%Z | _ => 0%Z end.
Definition s_sch : schedule := [(1, (0, 0)%Z); (2, (0, 1)%Z); (3, (1, 2)%Z); (4, (2, 2)%Z)].
Example C126_ex : lp_instance (ex_s []) 2 /\ sane (ex_s []) /\ tasks (ex_s []) (repeat 1 2) 2 /\
  exists P, sm_milp (ex_s []) 3 None = Ok P /\ optimal P s_val /\ eval s_val (p_obj P) = 2%Z /\ sm_retrieve (ex_s []) 3 s_val = Ok s_sch.
Proof.
  assert (Tk : tasks (ex_s []) (repeat 1 2) 2).
  { constructor; try apply s_lp; auto. intros a Ha. destruct a as [|[|[|[|[|a]]]]]; try (exfalso; lia); cbn; discriminate. }
  split; [exact s_lp|]. split; [apply s_sane|]. split; [exact Tk|].
  exists (the_sm (ex_s []) 2 3). split; [exact (sm_ok (ex_s []) 2 3 _ s_lp eq_refl)|].
  split; [|split; vm_compute; reflexivity]. split; [apply check_admissible; vm_compute; reflexivity|].
  intros b B. destruct (sm_start _ _ _ b B) as [st Is]. pose proof (proj1 (sm_says _ 2 3 s_lp eq_refl b st Is) B) as Y.
  unfold better_or_equal. cbn [the_sm p_max]. rewrite (sm_obj _ _ _ b st Is).
  replace (eval s_val (p_obj (the_sm (ex_s []) 2 3))) with 2%Z by (vm_compute; reflexivity). cbn [Nat.add].
  pose proof (y_after _ _ _ _ _ Y 2 4) as Y1. pose proof (y_after _ _ _ _ _ Y 3 4) as Y2. unfold dur in Y1, Y2. cbn in Y1, Y2.
  destruct (Is 2) as [L2 _]; [cbn; tauto|]. pose proof (y_running _ _ _ _ _ Y "N" (st 2)) as Y3.
  assert (st 2 <> st 3).
  { intros Eq. specialize (Y3 ltac:(cbn; tauto) L2). cbn [seq map Nat.add] in Y3. unfold dur in Y3. rewrite <- Eq in Y3.
    cbn [sumZ fold_right] in Y3. 
    replace (m_duration (mdf (ex_s []) 1 1)) with 0 in Y3 by reflexivity. replace (m_duration (mdf (ex_s []) 2 1)) with 1 in Y3 by reflexivity.
    replace (m_duration (mdf (ex_s []) 3 1)) with 1 in Y3 by reflexivity. replace (m_duration (mdf (ex_s []) 4 1)) with 0 in Y3 by reflexivity.
    replace (needf (ex_s []) 1 1 "N") with 0%Z in Y3 by reflexivity. replace (needf (ex_s []) 2 1 "N") with 2%Z in Y3 by reflexivity.
    replace (needf (ex_s []) 3 1 "N") with 2%Z in Y3 by reflexivity. replace (needf (ex_s []) 4 1 "N") with 0%Z in Y3 by reflexivity.
    replace (capf (ex_s []) "N" (st 2)) with 3%Z in Y3 by reflexivity.
    rewrite Nat.leb_refl in Y3. replace (st 2 <? st 2 + 1)%nat with true in Y3 by (symmetry; apply Nat.ltb_lt; lia).
    unfold sumZ in Y3. cbn [fold_left fold_right andb] in Y3.
    destruct ((st 1 <=? st 2) && (st 2 <? st 1 + 0))%nat, ((st 4 <=? st 2) && (st 2 <? st 4 + 0))%nat; lia. }
  intuition lia.
Qed.
(** The single-mode program takes non-renewable resources for renewable ones: an optimal solution can be read back as
    a schedule that the problem rejects, although it is returned as feasible. *)
Theorem C126_non_renewable_refuted : exists p n mk P a sch, lp_instance p n /\ sane p /\ sm_milp p mk None = Ok P /\ admissible P a /\
  sm_retrieve p mk a = Ok sch /\ timed p (repeat 1 n) (seq 1 (n + 2)) sch /\ satisfy p (repeat 1 n) sch (Some true) = Ok false.
Proof.
  exists (ex_s ["N"]), 2, 3, (the_sm (ex_s ["N"]) 2 3), s_val, s_sch.
  split; [exact sn_lp|]. split; [apply s_sane|]. split; [exact (sm_ok (ex_s ["N"]) 2 3 _ sn_lp eq_refl)|].
  split; [apply check_admissible; vm_compute; reflexivity|]. split; [vm_compute; reflexivity|]. split; [|vm_compute; reflexivity].
  constructor.
  - reflexivity.
  - intros a s e Ia. unfold s_sch in Ia. list_cases; injection Ia as <- <- <-; eexists; (split; [reflexivity|split; [lia|reflexivity]]).
  - intros a b l sa ea sb eb D Ib Ia Jb. small_keys D; injection D as <-; unfold s_sch in Ia, Jb; list_cases; subst; try discriminate;
      repeat match goal with H : (_, _) = (_, _) |- _ => injection H as ? ? end; subst; try discriminate; lia.
Qed.
(** A partial solution, even one that asks for nothing, makes the single-mode program builder raise. *)
Theorem C126_wishes_refuted : exists p n mk ps, lp_instance p n /\ (exists P, sm_milp p mk None = Ok P) /\
  (ps_task_mode ps = None /\ ps_start_times ps = None /\ ps_end_times ps = None /\ ps_permutation ps = None /\ ps_orders ps = None) /\
  sm_milp p mk (Some ps) = Err AttributeError.
Proof.
  exists (ex_s []), 2, 3, (PSolution None None None None None). split; [exact s_lp|]. split; [eexists; exact (sm_ok (ex_s []) 2 3 _ s_lp eq_refl)|].
  split; [auto|]. vm_compute. reflexivity.
Qed.

Print Assumptions C125_sound.
Print Assumptions C125_complete.
Print Assumptions C125_optimal.
Print Assumptions C125_start.
Print Assumptions C125_satisfy.
Print Assumptions C125_horizon_refuted.
Print Assumptions C125_ignored_refuted.
Print Assumptions C126_sound.
Print Assumptions C126_complete.
Print Assumptions C126_optimal.
Print Assumptions C126_non_renewable_refuted.
Print Assumptions C126_wishes_refuted.
