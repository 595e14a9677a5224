(** Invariant of the pipe protocol. *)
From Coq Require Import String.
From Coq Require Import List Bool Arith Lia.
From Verif Require Import Py PyList ParModel ParSpec.
Import ListNotations.
Open Scope nat_scope.
Set Implicit Arguments.

Section P.
Variables A V D : Type.
Variable none : V.
Variable meth : D -> string -> list A -> D * outcome V.
Variable lams : list (D -> list A -> D * outcome V).
Variable n : nat.
Variable ipc : bool.
Variable may : nat -> nat -> Prop.
Variable d0 : nat -> D.
Hypothesis Hex : exclusive may.

Notation job := (job A).
Notation state := (state A V D).
Notation run := (run meth lams).
Notation step := (step none meth lams n ipc may).
Notation exec := (exec none meth lams n ipc may).
Notation answers := (answers none run).
Notation after := (after run).
Notation value := (value none).

Lemma answers_snoc : forall js d b, answers d (js ++ [b]) = answers d js ++ [value (snd (run (after d js) b))].
Proof. induction js as [|a js IH]; intros; cbn; [easy|]. now rewrite IH. Qed.
Lemma after_snoc : forall js d b, after d (js ++ [b]) = fst (run (after d js) b).
Proof. intros. unfold ParSpec.after. now rewrite fold_left_app. Qed.
Lemma answers_length : forall js d, length (answers d js) = length js.
Proof. induction js; intros; cbn; auto. Qed.

Lemma launched_app : forall i (t1 t2 : list (event A V)), launched i (t1 ++ t2) = launched i t1 ++ launched i t2.
Proof. intros. unfold launched. apply flat_map_app. Qed.
Lemma returned_app : forall i (t1 t2 : list (event A V)), returned i (t1 ++ t2) = returned i t1 ++ returned i t2.
Proof. intros. unfold returned. apply flat_map_app. Qed.

(** ** Engagement of a domain in a get_result *)
Inductive stage := GWait | GGot | GRead (v : V) | GClear (v : V).
Definition eng (c : cpc A V) (i : nat) : option stage :=
  match c with
  | CWait k => if k =? i then Some GWait else None
  | CGot k => if k =? i then Some GGot else None
  | CRead k v => if k =? i then Some (GRead v) else None
  | CClear k v => if k =? i then Some (GClear v) else None
  | _ => None
  end.
Definition marks (c : cpc A V) (i : nat) : bool :=
  match c with CMark k _ | CSend k _ => k =? i | _ => false end.
Definition engaged (s : state) (i : nat) (g : option stage) : Prop :=
  match g with None => forall t, eng (s_pc s t) i = None | Some _ => exists t, eng (s_pc s t) i = g end.

(** A job under way: after the jobs [L0], the job [b]. *)
Definition under_way (d : D) (L0 : list job) (b : job) (jobs : list job) (notes : list string) (cell : V) (w : wpc A V) (dom : D) : Prop :=
  let o := snd (run (after d L0) b) in
  match w with
  | WRecv => (jobs = [b] /\ notes = [] /\ dom = after d L0)
             \/ (jobs = [] /\ dom = after d (L0 ++ [b]) /\ cell = value o /\
                 ((exists m, notes = [m]) \/ (ipc = true /\ notes = [] /\ exists e, o = Exn e)))
  | WGot b' => b' = b /\ jobs = [] /\ notes = [] /\ dom = after d L0
  | WRun b' => b' = b /\ jobs = [] /\ notes = [] /\ dom = after d L0 /\ cell = none
  | WStore v => jobs = [] /\ notes = [] /\ dom = after d (L0 ++ [b]) /\ o = Val v
  | WPush | WSend => jobs = [] /\ notes = [] /\ dom = after d (L0 ++ [b]) /\ cell = value o
  | WFail e => jobs = [] /\ notes = [] /\ dom = after d (L0 ++ [b]) /\ o = Exn e /\ cell = none
  end.

Inductive phase (d : D) (L : list job) (R : list V) (fl pend : bool) (jobs : list job) (notes : list string)
                (cell : V) (w : wpc A V) (dom : D) (g : option stage) : Prop :=
| P_quiet : R = answers d L -> dom = after d L -> pend = false -> jobs = [] -> notes = [] -> w = WRecv -> g = None ->
    phase d L R fl pend jobs notes cell w dom g
| P_busy : forall L0 b, L = L0 ++ [b] -> R = answers d L0 -> fl = true ->
    (pend = true /\ g = None) \/ (pend = false /\ g = Some GWait) ->
    under_way d L0 b jobs notes cell w dom -> phase d L R fl pend jobs notes cell w dom g
| P_read : forall L0 b, L = L0 ++ [b] -> R = answers d L0 -> fl = true -> pend = false ->
    jobs = [] -> notes = [] -> w = WRecv -> dom = after d L ->
    (g = Some GGot /\ cell = value (snd (run (after d L0) b)))
    \/ g = Some (GRead (value (snd (run (after d L0) b))))
    \/ g = Some (GClear (value (snd (run (after d L0) b)))) ->
    phase d L R fl pend jobs notes cell w dom g.

Definition inv (tr : list (event A V)) (s : state) : Prop :=
  (forall t i, eng (s_pc s t) i <> None \/ marks (s_pc s t) i = true -> may t i /\ i < n) /\
  (forall t i, marks (s_pc s t) i = true -> s_pend s i = false) /\
  (forall t i b, s_pc s t = CSend i b -> s_flag s i = true) /\
  (forall i, i < n -> exists g, engaged s i g /\
     phase (d0 i) (launched i tr) (returned i tr) (s_flag s i) (s_pend s i) (s_jobs s i) (s_notes s i)
           (s_cell s i) (s_work s i) (s_dom s i) g).

Lemma inv_init : inv [] (init none d0).
Proof.
  split; [|split; [|split]]; cbn; try discriminate.
  - intros t i [H|H]; [congruence|discriminate].
  - intros i _. exists None. split; [now cbn|]. now apply P_quiet.
Qed.

Lemma upd_same : forall X (f : nat -> X) i x, upd f i x i = x.
Proof. intros. unfold upd. now rewrite Nat.eqb_refl. Qed.
Lemma upd_other : forall X (f : nat -> X) i x k, k <> i -> upd f i x k = f k.
Proof. intros. unfold upd. apply Nat.eqb_neq in H. now rewrite H. Qed.

Lemma engaged_same : forall s s' i g, (forall t, eng (s_pc s' t) i = eng (s_pc s t) i) -> engaged s i g -> engaged s' i g.
Proof.
  intros s s' i g E H. destruct g as [g|]; cbn in *.
  - destruct H as (t & H). exists t. now rewrite E.
  - intros t. now rewrite E.
Qed.

Lemma eng_upd : forall (f : nat -> cpc A V) t c i, eng (f t) i = eng c i -> forall t', eng (upd f t c t') i = eng (f t') i.
Proof. intros f t c i E t'. unfold upd. destruct (t' =? t) eqn:X; [apply Nat.eqb_eq in X; subst; now symmetry|easy]. Qed.

(** The stage of a domain is unique: only its owner can be engaged with it. *)
Lemma engaged_at : forall tr s t i g c, inv tr s -> engaged s i g -> eng (s_pc s t) i = Some c -> g = Some c.
Proof.
  intros tr s t i g c (O & _) H E. destruct g as [g|]; cbn in H.
  - destruct H as (t' & H). destruct (O t i) as (M & _); [left; congruence|]. destruct (O t' i) as (M' & _); [left; congruence|].
    rewrite (Hex M' M) in H. congruence.
  - now rewrite H in E.
Qed.

Lemma engaged_none : forall tr s t i g, inv tr s -> may t i -> engaged s i g -> eng (s_pc s t) i = None -> g = None.
Proof.
  intros tr s t i g (O & _) M H E. destruct g as [g|]; [|easy]. cbn in H.
  destruct H as (t' & H). destruct (O t' i) as (M' & _); [left; congruence|]. rewrite (Hex M' M) in H. congruence.
Qed.

Lemma engaged_leave : forall tr s t i c (s' : state), inv tr s -> may t i -> s_pc s' = upd (s_pc s) t c -> eng c i = None -> engaged s' i None.
Proof.
  intros tr s t i c s' (O & _) M E C. cbn. intros t'. rewrite E. unfold upd. destruct (t' =? t) eqn:X; [easy|].
  destruct (eng (s_pc s t') i) eqn:Y; [|easy]. destruct (O t' i) as (M' & _); [left; congruence|].
  apply Nat.eqb_neq in X. exfalso. apply X. eapply Hex; eauto.
Qed.

Lemma engaged_enter : forall (s' : state) f t i c g, s_pc s' = upd f t c -> eng c i = Some g -> engaged s' i (Some g).
Proof. intros. cbn. exists t. rewrite H, upd_same. auto. Qed.

(** ** Preservation *)
Ltac sel := cbn [s_flag s_jobs s_notes s_ipc s_cell s_work s_dom s_pc s_pend
                 set_flag set_jobs set_notes set_ipc set_cell set_work set_dom set_pc set_pend].
Ltac seli H := cbn [s_flag s_jobs s_notes s_ipc s_cell s_work s_dom s_pc s_pend
                 set_flag set_jobs set_notes set_ipc set_cell set_work set_dom set_pc set_pend] in H.

(** A step of a thread from [c0] to [c] that changes nothing else. *)
Lemma inv_pc : forall tr s t c, inv tr s ->
  (forall i, eng c i = eng (s_pc s t) i) ->
  (forall i, marks c i = true -> may t i /\ i < n /\ s_pend s i = false) ->
  (forall i b, c = CSend i b -> s_flag s i = true) ->
  inv tr (set_pc s t c).
Proof.
  intros tr s t c (O & Mk & Sn & Ph) E M F. split; [|split; [|split]]; sel.
  - intros t' i. unfold upd. destruct (t' =? t) eqn:X; [|apply O]. apply Nat.eqb_eq in X. subst t'.
    intros [H|H]; [apply O; left; now rewrite <- E|]. destruct (M i H) as (a & b & _). auto.
  - intros t' i. unfold upd. destruct (t' =? t) eqn:X; [|apply Mk]. intros H. now destruct (M i H) as (_ & _ & ?).
  - intros t' i b. unfold upd. destruct (t' =? t) eqn:X; [|apply Sn]. intros H. now apply (F i b).
  - intros i Li. destruct (Ph i Li) as (g & G & P). exists g. split; auto.
    eapply engaged_same; [|exact G]. sel. apply eng_upd. now rewrite E.
Qed.

(** A step of thread [t] about domain [k]. *)
Lemma inv_thread : forall tr s t k c ev (s' : state), inv tr s -> may t k -> k < n ->
  s_pc s' = upd (s_pc s) t c ->
  (forall i, i <> k -> eng (s_pc s t) i = None /\ eng c i = None /\ marks c i = false) ->
  (forall i, i <> k -> s_flag s' i = s_flag s i /\ s_pend s' i = s_pend s i /\ s_jobs s' i = s_jobs s i /\
     s_notes s' i = s_notes s i /\ s_cell s' i = s_cell s i /\ s_work s' i = s_work s i /\ s_dom s' i = s_dom s i /\
     launched i (tr ++ ev) = launched i tr /\ returned i (tr ++ ev) = returned i tr) ->
  (marks c k = true -> s_pend s' k = false) ->
  (forall b, c = CSend k b -> s_flag s' k = true) ->
  (exists g, engaged s' k g /\
     phase (d0 k) (launched k (tr ++ ev)) (returned k (tr ++ ev)) (s_flag s' k) (s_pend s' k) (s_jobs s' k) (s_notes s' k)
           (s_cell s' k) (s_work s' k) (s_dom s' k) g) ->
  inv (tr ++ ev) s'.
Proof.
  intros tr s t k c ev s' (O & Mk & Sn & Ph) My Lk Pc Eo Fo Mm Ff G. split; [|split; [|split]].
  - intros t' i. rewrite Pc. unfold upd. destruct (t' =? t) eqn:X; [|apply O]. apply Nat.eqb_eq in X. subst t'.
    destruct (Nat.eq_dec i k) as [->|N]; [auto|]. destruct (Eo i N) as (_ & E1 & E2). intros [H|H]; congruence.
  - intros t' i. rewrite Pc. unfold upd. destruct (t' =? t) eqn:X.
    + destruct (Nat.eq_dec i k) as [->|N]; [auto|]. destruct (Eo i N) as (_ & _ & E2). congruence.
    + intros H. destruct (Nat.eq_dec i k) as [->|N].
      * exfalso. apply Nat.eqb_neq in X. apply X. apply (Hex (proj1 (O t' k (or_intror H))) My).
      * destruct (Fo i N) as (_ & -> & _). eapply Mk; eauto.
  - intros t' i b. rewrite Pc. unfold upd. destruct (t' =? t) eqn:X.
    + intros H. destruct (Nat.eq_dec i k) as [->|N]; [eapply Ff; eauto|].
      destruct (Eo i N) as (_ & _ & E2). rewrite H in E2. cbn in E2. now rewrite Nat.eqb_refl in E2.
    + intros H. destruct (Nat.eq_dec i k) as [->|N].
      * exfalso. apply Nat.eqb_neq in X. apply X. refine (Hex (proj1 (O t' k (or_intror _))) My). rewrite H. cbn. apply Nat.eqb_refl.
      * destruct (Fo i N) as (-> & _). eapply Sn; eauto.
  - intros i Li. destruct (Nat.eq_dec i k) as [->|N]; [exact G|].
    destruct (Ph i Li) as (g & Eg & P). exists g. destruct (Fo i N) as (-> & -> & -> & -> & -> & -> & -> & -> & ->). split; auto.
    eapply engaged_same; [|exact Eg]. rewrite Pc. apply eng_upd. destruct (Eo i N) as (-> & -> & _). easy.
Qed.

(** A step of the worker of domain [k]. *)
Lemma inv_worker : forall tr s k (s' : state), inv tr s -> k < n ->
  s_pc s' = s_pc s -> s_flag s' = s_flag s -> s_pend s' = s_pend s ->
  (forall i, i <> k -> s_jobs s' i = s_jobs s i /\
     s_notes s' i = s_notes s i /\ s_cell s' i = s_cell s i /\ s_work s' i = s_work s i /\ s_dom s' i = s_dom s i) ->
  (forall g, engaged s k g -> phase (d0 k) (launched k tr) (returned k tr) (s_flag s k) (s_pend s k) (s_jobs s k) (s_notes s k)
           (s_cell s k) (s_work s k) (s_dom s k) g ->
     phase (d0 k) (launched k tr) (returned k tr) (s_flag s k) (s_pend s k) (s_jobs s' k) (s_notes s' k)
           (s_cell s' k) (s_work s' k) (s_dom s' k) g) ->
  inv (tr ++ []) s'.
Proof.
  intros tr s k s' (O & Mk & Sn & Ph) Lk Pc Fl Pe Fo G. rewrite app_nil_r. unfold inv, engaged. rewrite Pc, Fl, Pe.
  split; [auto|split; [auto|split; [auto|]]]. intros i Li. destruct (Ph i Li) as (g & Eg & P). exists g. split; auto.
  destruct (Nat.eq_dec i k) as [->|N]; [apply G; auto|]. now destruct (Fo i N) as (-> & -> & -> & -> & ->).
Qed.

Ltac other := let q := fresh "q" in let Ne := fresh "Ne" in intros q Ne; sel; rewrite ?upd_other by auto; rewrite ?launched_app, ?returned_app; cbn;
  repeat match goal with |- context [?a =? q] => destruct (Nat.eqb_spec a q); [congruence|] end; rewrite ?app_nil_r; repeat split; auto.

Lemma inv_step : forall tr s ev s', inv tr s -> step s ev s' -> inv (tr ++ ev) s'.
Proof.
  intros tr s ev s' I St. pose proof I as (O & Mk & Sn & Ph). destruct St.
  - (* scan *) rewrite app_nil_r. apply inv_pc; auto; cbn; try discriminate. now rewrite H.
  - (* busy *) rewrite app_nil_r. apply inv_pc; auto; cbn; try discriminate. now rewrite H.
  - (* again *) rewrite app_nil_r. apply inv_pc; auto; cbn; try discriminate. now rewrite H.
  - (* found *) rewrite app_nil_r. apply inv_pc; auto; cbn; try discriminate; [now rewrite H|].
    intros i E. apply Nat.eqb_eq in E. subst i. repeat split; auto. destruct (Ph j H0) as (g & G & P). inversion P; subst; congruence.
  - (* on *) rewrite app_nil_r. apply inv_pc; auto; cbn; try discriminate; [now rewrite H|].
    intros k E. apply Nat.eqb_eq in E. subst k. auto.
  - (* mark *)
    destruct (O t i) as (My & Li); [right; rewrite H; cbn; apply Nat.eqb_refl|].
    assert (Pn : s_pend s i = false) by (apply (Mk t); rewrite H; cbn; apply Nat.eqb_refl).
    destruct (Ph i Li) as (g & G & P).
    assert (g = None) as -> by (eapply engaged_none; eauto; now rewrite H).
    eapply inv_thread with (t := t) (k := i) (c := CSend i b); auto; try exact I; sel; auto.
    + intros k Ne. rewrite H. cbn. apply Nat.eqb_neq in Ne. rewrite Nat.eqb_sym in Ne. now rewrite Ne.
    + other.
    + intros _ _. apply upd_same.
    + exists None. split; [refine (@engaged_leave tr s t i (CSend i b) _ I My _ _); reflexivity|]. rewrite app_nil_r, upd_same.
      inversion P; subst; [now apply P_quiet| |].
      * destruct H3 as [(X & _)|(_ & X)]; congruence.
      * destruct H8 as [(X & _)|[X|X]]; discriminate.
  - (* send *)
    destruct (O t i) as (My & Li); [right; rewrite H; cbn; apply Nat.eqb_refl|].
    assert (Pn : s_pend s i = false) by (apply (Mk t); rewrite H; cbn; apply Nat.eqb_refl).
    assert (Fl : s_flag s i = true) by (eapply Sn; eauto).
    destruct (Ph i Li) as (g & G & P).
    assert (g = None) as -> by (eapply engaged_none; eauto; now rewrite H).
    eapply inv_thread with (t := t) (k := i) (c := CIdle); auto; try exact I; sel; auto; try discriminate.
    + intros k Ne. now rewrite H.
    + other.
    + exists None. split; [refine (@engaged_leave tr s t i CIdle _ I My _ _); reflexivity|].
      rewrite launched_app, returned_app. cbn. rewrite !upd_same, Nat.eqb_refl, !app_nil_r.
      inversion P; subst.
      * eapply P_busy; eauto. rewrite H3, H4, H5. cbn. left. auto.
      * destruct H3 as [(X & _)|(_ & X)]; congruence.
      * destruct H8 as [(X & _)|[X|X]]; discriminate.
  - (* unsent *)
    assert (E : inv tr (set_pc s t CIdle)) by (apply inv_pc; auto; cbn; try discriminate; now rewrite H).
    destruct E as (a & b' & c & d). split; [auto|split; [auto|split; [auto|]]]. intros k Lk. destruct (d k Lk) as (g & G & P).
    exists g. split; auto. rewrite launched_app, returned_app. cbn. now rewrite !app_nil_r.
  - (* get *)
    destruct (Ph i H0) as (g & G & P).
    assert (g = None) as -> by (eapply engaged_none; eauto; now rewrite H).
    eapply inv_thread with (t := t) (k := i) (c := CWait i); auto; try exact I; sel; auto; try discriminate.
    + intros k Ne. rewrite H. cbn. apply Nat.eqb_neq in Ne. rewrite Nat.eqb_sym in Ne. now rewrite Ne.
    + other.
    + exists (Some GWait). split; [eapply engaged_enter; [sel; reflexivity|cbn; now rewrite Nat.eqb_refl]|].
      rewrite app_nil_r, upd_same. inversion P; subst; try congruence. eapply P_busy; eauto.
  - (* recv *)
    assert (E : eng (s_pc s t) i = Some GWait) by (rewrite H; cbn; now rewrite Nat.eqb_refl).
    destruct (O t i) as (My & Li); [left; congruence|].
    destruct (Ph i Li) as (g & G & P).
    assert (g = Some GWait) as -> by (eapply engaged_at; eauto).
    eapply inv_thread with (t := t) (k := i) (c := CGot i); auto; try exact I; sel; auto; try discriminate.
    + intros k Ne. rewrite H. cbn. apply Nat.eqb_neq in Ne. rewrite Nat.eqb_sym in Ne. now rewrite Ne.
    + other.
    + exists (Some GGot). split; [eapply engaged_enter; [sel; reflexivity|cbn; now rewrite Nat.eqb_refl]|].
      rewrite app_nil_r, upd_same. inversion P; subst; try congruence.
      * destruct H4 as [(_ & X)|(Pe & _)]; [discriminate|].
        unfold under_way in H5. rewrite H0 in H5. destruct (s_work s i) eqn:W;
          try (destruct H5 as (? & ? & ? & ?); congruence); try (destruct H5 as (? & ? & ?); congruence).
        destruct H5 as [(_ & X & _)|(Jo & Do & Ce & [(m' & X)|(_ & X & _)])]; try discriminate.
        injection X as -> ->. eapply P_read; eauto. now rewrite H1.
  - (* read *)
    assert (E : eng (s_pc s t) i = Some GGot) by (rewrite H; cbn; now rewrite Nat.eqb_refl).
    destruct (O t i) as (My & Li); [left; congruence|].
    destruct (Ph i Li) as (g & G & P).
    assert (g = Some GGot) as -> by (eapply engaged_at; eauto).
    eapply inv_thread with (t := t) (k := i) (c := CRead i (s_cell s i)); auto; try exact I; sel; auto; try discriminate.
    + intros k Ne. rewrite H. cbn. apply Nat.eqb_neq in Ne. rewrite Nat.eqb_sym in Ne. now rewrite Ne.
    + other.
    + exists (Some (GRead (s_cell s i))). split; [eapply engaged_enter; [sel; reflexivity|cbn; now rewrite Nat.eqb_refl]|].
      rewrite app_nil_r. inversion P; subst; try congruence.
      * destruct H3 as [(_ & X)|(_ & X)]; discriminate.
      * eapply P_read; eauto. destruct H8 as [(_ & X)|[X|X]]; try discriminate. right. left. now rewrite X.
  - (* clear *)
    assert (E : eng (s_pc s t) i = Some (GRead v)) by (rewrite H; cbn; now rewrite Nat.eqb_refl).
    destruct (O t i) as (My & Li); [left; congruence|].
    destruct (Ph i Li) as (g & G & P).
    assert (g = Some (GRead v)) as -> by (eapply engaged_at; eauto).
    eapply inv_thread with (t := t) (k := i) (c := CClear i v); auto; try exact I; sel; auto; try discriminate.
    + intros k Ne. rewrite H. cbn. apply Nat.eqb_neq in Ne. rewrite Nat.eqb_sym in Ne. now rewrite Ne.
    + other.
    + exists (Some (GClear v)). split; [eapply engaged_enter; [sel; reflexivity|cbn; now rewrite Nat.eqb_refl]|].
      rewrite app_nil_r. inversion P; subst; try congruence.
      * destruct H3 as [(_ & X)|(_ & X)]; discriminate.
      * eapply P_read; eauto. destruct H8 as [(X & _)|[X|X]]; try discriminate. right. right. injection X as ->. easy.
  - (* free *)
    assert (E : eng (s_pc s t) i = Some (GClear v)) by (rewrite H; cbn; now rewrite Nat.eqb_refl).
    destruct (O t i) as (My & Li); [left; congruence|].
    destruct (Ph i Li) as (g & G & P).
    assert (g = Some (GClear v)) as -> by (eapply engaged_at; eauto).
    eapply inv_thread with (t := t) (k := i) (c := CIdle); auto; try exact I; sel; auto; try discriminate.
    + intros k Ne. rewrite H. cbn. apply Nat.eqb_neq in Ne. rewrite Nat.eqb_sym in Ne. now rewrite Ne.
    + other.
    + exists None. split; [refine (@engaged_leave tr s t i CIdle _ I My _ _); reflexivity|].
      rewrite launched_app, returned_app. cbn. rewrite Nat.eqb_refl, app_nil_r.
      inversion P; subst; try congruence.
      * destruct H3 as [(_ & X)|(_ & X)]; discriminate.
      * apply P_quiet; auto. destruct H8 as [(X & _)|[X|X]]; try discriminate. injection X as ->.
        rewrite H0, H1. now rewrite answers_snoc.
  - (* worker: recv *)
    apply inv_worker with (k := i) (s := s); sel; auto; [other|]. intros g G P. rewrite !upd_same.
    inversion P; subst; try congruence. eapply P_busy; eauto. unfold under_way in *. rewrite H0 in H6.
    destruct H6 as [(X & Y & Z)|(X & _)]; [|congruence]. rewrite H1 in X. injection X as -> ->. auto.
  - (* worker: reset *)
    apply inv_worker with (k := i) (s := s); sel; auto; [other|]. intros g G P. rewrite !upd_same.
    inversion P; subst; try congruence. eapply P_busy; eauto. unfold under_way in *. rewrite H0 in H5.
    destruct H5 as (-> & X & Y & Z). auto.
  - (* worker: run *)
    apply inv_worker with (k := i) (s := s); sel; auto; [other|]. intros g G P. rewrite !upd_same.
    inversion P; subst; try congruence. eapply P_busy; eauto. unfold under_way in *. rewrite H0 in H6.
    destruct H6 as (-> & X & Y & Z & T). rewrite Z in H1. rewrite after_snoc, H1. auto.
  - (* worker: raise *)
    apply inv_worker with (k := i) (s := s); sel; auto; [other|]. intros g G P. rewrite !upd_same.
    inversion P; subst; try congruence. eapply P_busy; eauto. unfold under_way in *. rewrite H0 in H6.
    destruct H6 as (-> & X & Y & Z & T). rewrite Z in H1. rewrite after_snoc, H1. auto.
  - (* worker: store *)
    apply inv_worker with (k := i) (s := s); sel; auto; [other|]. intros g G P. rewrite !upd_same.
    inversion P; subst; try congruence. eapply P_busy; eauto. unfold under_way in *. rewrite H0 in H5.
    destruct H5 as (X & Y & Z & T). rewrite T. destruct ipc; auto.
  - (* worker: push *)
    apply inv_worker with (k := i) (s := s); sel; auto; [other|]. intros g G P. rewrite !upd_same.
    inversion P; subst; try congruence. eapply P_busy; eauto. unfold under_way in *. rewrite H0 in H5. auto.
  - (* worker: send *)
    apply inv_worker with (k := i) (s := s); sel; auto; [other|]. intros g G P. rewrite !upd_same.
    inversion P; subst; try congruence. eapply P_busy; eauto. unfold under_way in *. rewrite H0 in H5.
    destruct H5 as (X & Y & Z & T). right. rewrite Y. repeat split; auto. left. now exists "0"%string.
  - (* worker: fail *)
    apply inv_worker with (k := i) (s := s); sel; auto; try (destruct ipc; easy).
    { destruct ipc; other. }
    intros g G P. rewrite !upd_same.
    inversion P; subst; try congruence. eapply P_busy; eauto. unfold under_way in *. rewrite H0 in H5.
    destruct H5 as (X & Y & Z & T & U). right. destruct ipc eqn:Ip; sel; rewrite ?upd_same, ?T, ?Y.
    + repeat split; auto. right. eauto.
    + repeat split; auto. left. now exists e.
Qed.

Lemma inv_exec : forall tr s, exec (init none d0) tr s -> inv tr s.
Proof.
  intros tr s E. remember (init none d0) as s0 eqn:X. induction E; subst; [apply inv_init|]. eapply inv_step; eauto.
Qed.

Lemma exec_app : forall s t1 s1 t2 s2, exec s t1 s1 -> exec s1 t2 s2 -> exec s (t1 ++ t2) s2.
Proof. intros s t1 s1 t2 s2 E F. induction F; [now rewrite app_nil_r|]. rewrite app_assoc. econstructor; eauto. Qed.

Lemma exec_one : forall s ev s', step s ev s' -> exec s ev s'.
Proof. intros. change ev with ([] ++ ev). econstructor; [constructor|auto]. Qed.

(** ** A job that was answered is handed over *)
Lemma finish_got : forall s t i, s_pc s t = CGot i -> exists s' v, exec s [EReturn t i v] s'.
Proof.
  intros s t i E. eexists _, _.
  eapply (@exec_app _ [] _ [EReturn t i _]). { apply exec_one. eapply S_read. exact E. }
  eapply (@exec_app _ [] _ [EReturn t i _]). { apply exec_one. eapply S_clear. sel. apply upd_same. }
  apply exec_one. eapply S_free. sel. apply upd_same.
Qed.

Lemma finish_note : forall s t i m r, s_pc s t = CWait i -> s_notes s i = m :: r -> exists s' v, exec s [EReturn t i v] s'.
Proof.
  intros s t i m r E N. destruct (finish_got (set_pc (set_notes s i r) t (CGot i)) t (i := i)) as (s' & v & X); [sel; apply upd_same|].
  exists s', v. eapply (@exec_app _ [] _ [EReturn t i v]); [|exact X]. apply exec_one. eapply S_recv; eauto.
Qed.

Lemma finish_send : forall s t i, i < n -> s_pc s t = CWait i -> s_work s i = WSend -> s_notes s i = [] -> exists s' v, exec s [EReturn t i v] s'.
Proof.
  intros s t i L E W N. destruct (@finish_note (set_work (set_notes s i (s_notes s i ++ ["0"%string])) i WRecv) t i "0"%string []) as (s' & v & X); sel; auto.
  { now rewrite upd_same, N. }
  exists s', v. eapply (@exec_app _ [] _ [EReturn t i v]); [|exact X]. apply exec_one. now apply W_send.
Qed.

Lemma finish_push : forall s t i, i < n -> s_pc s t = CWait i -> s_work s i = WPush -> s_notes s i = [] -> exists s' v, exec s [EReturn t i v] s'.
Proof.
  intros s t i L E W N. destruct (@finish_send (set_work (set_ipc s i (s_ipc s i ++ ["0"%string])) i WSend) t i) as (s' & v & X); sel; auto.
  { now rewrite upd_same. }
  exists s', v. eapply (@exec_app _ [] _ [EReturn t i v]); [|exact X]. apply exec_one. now apply W_push.
Qed.

Lemma finish_store : forall s t i u, i < n -> s_pc s t = CWait i -> s_work s i = WStore u -> s_notes s i = [] -> exists s' v, exec s [EReturn t i v] s'.
Proof.
  intros s t i u L E W N.
  assert (G : exists s' v, exec (set_work (set_cell s i u) i (if ipc then WPush else WSend)) [EReturn t i v] s').
  { assert (Hc : (if ipc then @WPush A V else WSend) = WPush \/ (if ipc then @WPush A V else WSend) = WSend) by (destruct ipc; auto).
    destruct Hc as [Hc|Hc]; rewrite Hc; [apply finish_push|apply finish_send]; sel; auto; now rewrite upd_same. }
  destruct G as (s' & v & X). exists s', v. eapply (@exec_app _ [] _ [EReturn t i v]); [|exact X]. apply exec_one. now apply W_store.
Qed.

(** A worker that reports failures on the pipe, or whose job does not fail. *)
Definition reports (s : state) (i : nat) (b : job) : Prop := ipc = false \/ forall e, snd (run (s_dom s i) b) <> Exn e.

Lemma finish_run : forall s t i b, i < n -> s_pc s t = CWait i -> s_work s i = WRun b -> s_notes s i = [] -> reports s i b ->
  exists s' v, exec s [EReturn t i v] s'.
Proof.
  intros s t i b L E W N Rp. destruct (run (s_dom s i) b) as [d [v|e]] eqn:X.
  - destruct (@finish_store (set_work (set_dom s i d) i (WStore v)) t i v) as (s' & v' & Y); sel; auto; [apply upd_same|].
    exists s', v'. eapply (@exec_app _ [] _ [EReturn t i v']); [|exact Y]. apply exec_one. eapply W_run; eauto.
  - destruct Rp as [Ip|F]; [|rewrite X in F; cbn in F; now destruct (F e)].
    destruct (@finish_note (set_work (set_notes (set_work (set_dom s i d) i (WFail e)) i ([] ++ [e])) i WRecv) t i e []) as (s' & v & Y); sel; auto.
    { apply upd_same. }
    exists s', v. eapply (@exec_app _ [] _ [EReturn t i v]). { apply exec_one. eapply W_raise; eauto. }
    eapply (@exec_app _ [] _ [EReturn t i v]); [|exact Y]. replace ([] ++ [e]) with (s_notes s i ++ [e]) by now rewrite N.
    pose proof (@W_fail _ _ _ none meth lams n ipc may (set_work (set_dom s i d) i (WFail e)) i e L) as Z. rewrite Ip in Z. seli Z.
    apply exec_one. rewrite Ip. apply Z. apply upd_same.
Qed.

Lemma finish_take : forall s t i b, i < n -> s_pc s t = CWait i -> s_work s i = WGot b -> s_notes s i = [] -> reports s i b ->
  exists s' v, exec s [EReturn t i v] s'.
Proof.
  intros s t i b L E W N Rp. destruct (@finish_run (set_work (set_cell s i none) i (WRun b)) t i b) as (s' & v & X); sel; auto; [apply upd_same|].
  exists s', v. eapply (@exec_app _ [] _ [EReturn t i v]); [|exact X]. apply exec_one. now apply W_reset.
Qed.

Lemma finish_first : forall s t i b, i < n -> s_pc s t = CWait i -> s_work s i = WRecv -> s_jobs s i = [b] -> s_notes s i = [] -> reports s i b ->
  exists s' v, exec s [EReturn t i v] s'.
Proof.
  intros s t i b L E W J N Rp. destruct (@finish_take (set_work (set_jobs s i []) i (WGot b)) t i b) as (s' & v & X); sel; auto; [apply upd_same|].
  exists s', v. eapply (@exec_app _ [] _ [EReturn t i v]); [|exact X]. apply exec_one. now apply W_recv.
Qed.

Lemma progress : forall tr s t i, ipc = false -> exec (init none d0) tr s -> s_pc s t = CWait i -> exists s' v, exec s [EReturn t i v] s'.
Proof.
  intros tr s t i Ip E W. pose proof (inv_exec E) as I. pose proof I as (O & _ & _ & Ph).
  assert (En : eng (s_pc s t) i = Some GWait) by (rewrite W; cbn; now rewrite Nat.eqb_refl).
  destruct (O t i) as (My & Li); [left; congruence|]. destruct (Ph i Li) as (g & G & P).
  assert (g = Some GWait) as -> by (eapply engaged_at; eauto).
  inversion P; subst; try congruence.
  - unfold under_way in H3. assert (Rp : forall b, reports s i b) by (left; auto). destruct (s_work s i) eqn:Wk.
    + destruct H3 as [(J & N & _)|(_ & _ & _ & [(m & N)|(X & _)])]; [eapply finish_first; eauto|eapply finish_note; eauto|congruence].
    + destruct H3 as (-> & _ & N & _). eapply finish_take; eauto.
    + destruct H3 as (-> & _ & N & _). eapply finish_run; eauto.
    + destruct H3 as (_ & N & _). eapply finish_store; eauto.
    + destruct H3 as (_ & N & _). eapply finish_push; eauto.
    + destruct H3 as (_ & N & _). eapply finish_send; eauto.
    + destruct H3 as (_ & N & _).
      destruct (@finish_note (set_work (set_notes s i ([] ++ [e])) i WRecv) t i e []) as (s' & v & Y); sel; auto.
      { apply upd_same. }
      exists s', v. eapply (@exec_app _ [] _ [EReturn t i v]); [|exact Y]. replace ([] ++ [e]) with (s_notes s i ++ [e]) by now rewrite N.
      pose proof (@W_fail _ _ _ none meth lams n ipc may s i e Li Wk) as Z. rewrite Ip in Z. apply exec_one. rewrite Ip. exact Z.
  - destruct H7 as [(X & _)|[X|X]]; discriminate.
Qed.

(** ** A worker that has nothing to say *)
Lemma blocked : forall tr s t i, exec (init none d0) tr s -> s_pc s t = CWait i ->
  s_work s i = WRecv -> s_jobs s i = [] -> s_notes s i = [] ->
  forall tr' s', exec s tr' s' -> s_pc s' t = CWait i /\ s_work s' i = WRecv /\ s_jobs s' i = [] /\ s_notes s' i = [].
Proof.
  intros tr s t i E0 W Wk J N tr' s' E. induction E as [s|s tr' s1 ev s2 E IH St]; [auto|].
  destruct (IH E0 W Wk J N) as (W1 & Wk1 & J1 & N1). clear IH W Wk J N.
  pose proof (inv_exec (exec_app E0 E)) as (O & _).
  assert (My : may t i) by (apply O; left; rewrite W1; cbn; rewrite Nat.eqb_refl; discriminate).
  assert (Al : forall t' k, t' <> t -> eng (s_pc s1 t') k <> None \/ marks (s_pc s1 t') k = true -> k <> i).
  { intros t' k Ne H ->. apply Ne. eapply Hex; [|exact My]. now apply O. }
  destruct St; sel;
    try (match goal with H : s_pc ?s ?t' = _ |- _ => destruct (Nat.eq_dec t' t) as [->|Ne]; [congruence|] end;
         rewrite (@upd_other _ (s_pc _)) by congruence);
    try (match goal with H : s_work ?s ?k = _ |- _ => destruct (Nat.eq_dec k i) as [->|Nk]; [congruence|] end;
         rewrite ?upd_other by congruence; auto; fail);
    auto.
  - assert (i0 <> i) by (apply (Al t0); auto; right; rewrite H; cbn; apply Nat.eqb_refl). rewrite upd_other; auto.
  - assert (i0 <> i) by (apply (Al t0); auto; left; rewrite H; cbn; rewrite Nat.eqb_refl; discriminate). rewrite upd_other; auto.
  - destruct (Nat.eq_dec i0 i) as [->|Nk]; [congruence|]. destruct ipc; sel; rewrite ?upd_other by congruence; auto.
Qed.

(** ** Flags *)
Definition holds (c : cpc A V) (k : nat) : bool :=
  match c with CSend i _ | CWait i | CGot i | CRead i _ | CClear i _ => i =? k | _ => false end.

Lemma flag_inv : forall tr s, exec (init none d0) tr s -> forall i, s_flag s i = true ->
  (exists t, In (EFail t i) tr) \/ s_pend s i = true \/ exists t, holds (s_pc s t) i = true.
Proof.
  intros tr s E. remember (init none d0) as s0 eqn:X. induction E as [s|s tr s1 ev s2 E IH St]; intros k F; subst; [discriminate|].
  specialize (IH eq_refl k).
  assert (Keep : forall t c, (holds (s_pc s1 t) k = true -> holds c k = true) ->
     (exists t0, holds (s_pc s1 t0) k = true) -> exists t0, holds (upd (s_pc s1) t c t0) k = true).
  { intros t c K (t0 & H). exists t0. unfold upd. destruct (t0 =? t) eqn:Y; auto. apply Nat.eqb_eq in Y. subst. auto. }
  assert (Step : forall t c, (s_flag s1 k = true) -> (holds (s_pc s1 t) k = true -> holds c k = true) ->
     (exists t0, In (EFail t0 k) (tr ++ ev)) \/ s_pend s1 k = true \/ exists t0, holds (upd (s_pc s1) t c t0) k = true).
  { intros t c H K. destruct (IH H) as [(t0 & I)|[P|Q]]; [left; exists t0; apply in_or_app; auto|auto|right; right; now apply Keep]. }
  assert (New : forall t c, holds c k = true -> exists t0, holds (upd (s_pc s1) t c t0) k = true).
  { intros t c H. exists t. now rewrite upd_same. }
  assert (Same : s_flag s1 k = true ->
     (exists t0, In (EFail t0 k) (tr ++ ev)) \/ s_pend s1 k = true \/ exists t0, holds (s_pc s1 t0) k = true).
  { intros H. destruct (IH H) as [(t0 & I)|R]; [left; exists t0; apply in_or_app; auto|auto]. }
  destruct St; sel; seli F; auto;
    try (apply Step; [exact F|rewrite H; cbn; auto; discriminate]; fail).
  - (* mark *) destruct (Nat.eq_dec k i) as [->|Ne].
    + right. right. apply New. cbn. apply Nat.eqb_refl.
    + rewrite upd_other in F by auto. apply Step; auto. rewrite H. discriminate.
  - (* send *) destruct (Nat.eq_dec k i) as [->|Ne].
    + right. left. apply upd_same.
    + rewrite (@upd_other _ (s_pend s)) by auto. apply Step; auto. rewrite H. cbn. intros Y. apply Nat.eqb_eq in Y. congruence.
  - (* unsent *) destruct (Nat.eq_dec k i) as [->|Ne].
    + left. exists t. apply in_or_app. right. now left.
    + apply Step; auto. rewrite H. cbn. intros Y. apply Nat.eqb_eq in Y. congruence.
  - (* get *) destruct (Nat.eq_dec k i) as [->|Ne].
    + right. right. apply New. cbn. apply Nat.eqb_refl.
    + rewrite (@upd_other _ (s_pend s)) by auto. apply Step; auto. rewrite H. discriminate.
  - (* free *) destruct (Nat.eq_dec k i) as [->|Ne].
    + rewrite upd_same in F. discriminate.
    + rewrite upd_other in F by auto. apply Step; auto. rewrite H. cbn. intros Y. apply Nat.eqb_eq in Y. congruence.
  - (* fail *) destruct ipc; seli F; sel; auto.
Qed.
End P.
