(** Invariants of the deterministic gym domains. *)
From Coq Require Import List Bool Arith ZArith Lia.
Import ListNotations.
From Verif Require Import Py GymDomModel GymDomSpec.

Lemma Forall2_snoc : forall A B (R : A -> B -> Prop) l l' x y, Forall2 R l l' -> R x y ->
  Forall2 R (l ++ [x]) (l' ++ [y]).
Proof. intros. apply Forall2_app; auto. Qed.
Lemma Forall2_len : forall A B (R : A -> B -> Prop) l l', Forall2 R l l' -> length l = length l'.
Proof. intros A B R l l' F. induction F; simpl; auto. Qed.
Lemma Forall2_imp : forall A B (R Q : A -> B -> Prop) l l', (forall x y, R x y -> Q x y) ->
  Forall2 R l l' -> Forall2 Q l l'.
Proof. intros A B R Q l l' H F. induction F; auto. Qed.
Lemma Forall2_get : forall A B (R : A -> B -> Prop) l l' i d, Forall2 R l l' -> i < length l ->
  exists y, nth_error l' i = Some y /\ R (nth i l d) y.
Proof.
  intros A B R l l' i d F. revert i. induction F as [|x y l l' H F IH]; intros i L; simpl in L; [lia|].
  destruct i; simpl; [eauto|]. apply IH. lia.
Qed.

Section Heap.
  Variable E : Type.
  Implicit Types h : heap E.
  Lemma assign_same : forall h a e, a < length h -> nth_error (assign h a e) a = Some e.
  Proof. induction h as [|x h IH]; intros [|a] e L; simpl in *; auto; try lia. apply IH. lia. Qed.
  Lemma assign_other : forall h a b e, a <> b -> nth_error (assign h a e) b = nth_error h b.
  Proof. induction h; intros [|a'] [|b] e L; simpl; auto; try congruence. Qed.
  Lemma assign_length : forall h a e, length (assign h a e) = length h.
  Proof. induction h; intros [|a'] e; simpl; auto. Qed.
  Lemma deref_ok : forall h a e, nth_error h a = Some e -> deref h a = Ok e.
  Proof. intros h a e H. unfold deref. rewrite H. reflexivity. Qed.
End Heap.

Section Proofs.
  Variables E Obs Act Info Snap : Type.
  Variable env_reset : E -> E * Obs.
  Variable env_step : E -> Act -> E * (Obs * Z * bool * Info).
  Variable set_state : option (E -> Snap -> E).
  Variable get_state : option (E -> Snap).
  Variable snap_neq : Snap -> Snap -> res bool.
  Hypothesis LAW : lawful _ _ _ _ _ env_step set_state get_state snap_neq.
  Notation after := (after _ _ _ _ env_reset env_step).
  Notation answer := (answer _ _ _ _ env_reset env_step).
  Notation seen := (seen _ _ _ _ env_reset env_step).
  Notation proxy := (proxy Obs Act Info Snap).
  Notation next := (next_state env_step set_state get_state snap_neq).
  Notation snapshots := (snapshots set_state get_state).

  Lemma after_snoc : forall e p a, after e (p ++ [a]) = fst (env_step (after e p) a).
  Proof. intros. unfold GymDomSpec.after. rewrite fold_left_app. reflexivity. Qed.
  Lemma answer_snoc : forall e p a, answer e (p ++ [a]) = Some (snd (env_step (after e p) a)).
  Proof. intros. unfold GymDomSpec.answer. rewrite rev_unit, rev_involutive. reflexivity. Qed.

  (** What a proxy says about a path. *)
  Definition says (e : E) (p : list Act) (m : proxy) : Prop :=
    p_state m = seen e p /\
    p_outcome m = match answer e p with
                  | None => None
                  | Some (o, r, d, i) => Some (mk_outcome o r d i)
                  end.

  Variable e0 : E.

  (** The invariant linking one proxy to the heap. *)
  Definition linked (h : heap E) (env : nat) (p : list Act) (m : proxy) : Prop :=
    says e0 p m /\
    match snapshots with
    | None => nth_error h (p_env m) = Some (after e0 p)
    | Some (_, get) => p_env m = env /\ env < length h /\ p_snap m = Some (get (after e0 p))
    end.

  Lemma initial_ok : forall h a, nth_error h a = Some e0 ->
    exists d m, initial_state Act Info env_reset set_state get_state (mk_dom h a) = Ok (d, m) /\
      linked (d_heap d) a [] m /\ says e0 [] m /\ p_extra m = None /\
      nth_error (d_heap d) a = Some (fst (env_reset e0)).
  Proof.
    intros h a H. unfold initial_state. cbn [d_heap d_env]. rewrite (deref_ok _ _ _ _ H). cbn [bind].
    assert (L : a < length h) by (apply nth_error_Some; congruence).
    eexists _, _. split; [reflexivity|]. cbn [d_heap].
    assert (S0 : says e0 [] (mk_proxy (snd (env_reset e0)) a None None None
              (snap_of set_state get_state (fst (env_reset e0))) None)) by (split; reflexivity).
    split; [|split; [exact S0|split; [reflexivity|apply assign_same; auto]]].
    split; [exact S0|]. unfold snap_of. destruct snapshots as [[set get]|]; cbn [p_env p_snap].
    - rewrite assign_length. auto.
    - rewrite assign_same by auto. reflexivity.
  Qed.

  Lemma next_ok : forall d env p m a, linked (d_heap d) env p m ->
    exists d' s, next d m a = Ok (d', s) /\ linked (d_heap d') env (p ++ [a]) s /\ p_extra s = None /\
      (forall q x, linked (d_heap d) env q x -> linked (d_heap d') env q x).
  Proof.
    intros d env p m a [SA LI]. unfold next_state. unfold linked.
    unfold lawful in LAW. unfold GymDomModel.snapshots, snap_of in *. unfold GymDomModel.snapshots in *.
    destruct set_state as [set|], get_state as [get|].
    1: { destruct LAW as (L1 & L2 & L3). destruct LI as (EV & LT & SN).
         destruct (nth_error (d_heap d) env) as [e|] eqn:HE; [|apply nth_error_None in HE; lia].
         rewrite EV, (deref_ok _ _ _ _ HE), SN. cbn [bind].
         destruct (L3 (after e0 p) e) as (b & -> & B). cbn [bind].
         assert (G : exists h e1, (if b then Ok (assign (d_heap d) env (set e (get (after e0 p))), env)
                                   else Ok (d_heap d, env)) = Ok (h, env) /\
                     nth_error h env = Some e1 /\ get e1 = get (after e0 p) /\ length h = length (d_heap d)).
         { destruct b.
           - eexists _, _. split; [reflexivity|]. split; [apply assign_same; auto|].
             split; [apply L1|apply assign_length].
           - eexists _, _. split; [reflexivity|]. split; [exact HE|]. split; auto. symmetry. auto. }
         destruct G as (h & e1 & -> & H1 & GE & LH). cbn [bind fst snd].
         rewrite (deref_ok _ _ _ _ H1). cbn [bind].
         destruct (L2 _ _ a GE) as (A1 & A2). pose proof (after_snoc e0 p a) as AS.
         pose proof (answer_snoc e0 p a) as AN. rewrite <- A1 in AN.
         destruct (snd (env_step e1 a)) as [[[o r] dn] i]. eexists _, _. split; [reflexivity|].
         cbn [d_heap p_env p_snap p_extra]. split; [|split; auto].
         - split.
           + unfold says, GymDomSpec.seen. rewrite AN. split; reflexivity.
           + rewrite assign_length. split; auto. split; [lia|]. rewrite AS, A2. reflexivity.
         - intros q x [SX (X1 & X2 & X3)]. split; auto. rewrite assign_length. repeat split; auto. lia. }
    all: unfold deepcopy; rewrite (deref_ok _ _ _ _ LI); cbn [bind fst snd];
      assert (HN : nth_error (d_heap d ++ [after e0 p]) (length (d_heap d)) = Some (after e0 p))
        by (rewrite nth_error_app2, Nat.sub_diag by lia; reflexivity);
      rewrite (deref_ok _ _ _ _ HN); cbn [bind];
      pose proof (after_snoc e0 p a) as AS; pose proof (answer_snoc e0 p a) as AN;
      destruct (env_step (after e0 p) a) as [e' [[[o r] dn] i]]; cbn [fst snd] in *;
      eexists _, _; (split; [reflexivity|]); cbn [d_heap p_env p_snap p_extra];
      (split; [|split; auto]).
    all: try (intros q x [SX X]; split; auto; rewrite assign_other;
              [rewrite nth_error_app1; auto; apply nth_error_Some; congruence
              |intros K; rewrite <- K in X; rewrite (proj2 (nth_error_None _ _)) in X; [discriminate|lia]]).
    all: split; [unfold says, GymDomSpec.seen; rewrite AN; split; reflexivity|].
    all: rewrite assign_same; [rewrite AS; reflexivity|rewrite app_length; simpl; lia].
  Qed.

  (** ** Scripts *)

  (** A client expanding the states it has received, by number. *)
  Fixpoint explore (d : dom E) (known : list proxy) (script : list (nat * Act))
    : res (dom E * list proxy) :=
    match script with
    | [] => Ok (d, known)
    | (i, a) :: r =>
        match nth_error known i with
        | None => Err IndexError
        | Some m => let* x := next d m a in explore (fst x) (known ++ [snd x]) r
        end
    end.

  Lemma explore_ok : forall script d env ps ms,
    Forall2 (linked (d_heap d) env) ps ms -> in_range _ (length ps) script ->
    exists d' ms', explore d ms script = Ok (d', ms') /\
      Forall2 (linked (d_heap d') env) (paths _ ps script) ms'.
  Proof.
    induction script as [|[i a] r IH]; intros d env ps ms F V; simpl.
    - eauto.
    - destruct V as [V1 V2].
      destruct (Forall2_get _ _ _ _ _ i [] F V1) as (m & M & LI). rewrite M.
      destruct (next_ok d env (nth i ps []) m a LI) as (d' & s & -> & LS & _ & KEEP).
      cbn [bind fst snd]. apply IH.
      + apply Forall2_snoc; auto. eapply Forall2_imp; [|exact F]. exact KEEP.
      + rewrite app_length, Nat.add_1_r. exact V2.
  Qed.

  (** ** The planning domain *)
  Variable same : Obs -> Obs -> res bool.
  Variable looks : Obs -> bool.
  Hypothesis SAME : forall o, same o (snd (env_reset e0)) = Ok (looks o).
  Notation pnext := (p_next_state env_step set_state get_state snap_neq same).
  Notation total := (total _ _ _ _ env_step).

  Fixpoint pexplore (d : pdom E Obs Act Info Snap) (known : list proxy) (script : list (nat * Act))
    : res (pdom E Obs Act Info Snap * list proxy) :=
    match script with
    | [] => Ok (d, known)
    | (i, a) :: r =>
        match nth_error known i with
        | None => Err IndexError
        | Some m => let* x := pnext d m a in pexplore (fst x) (known ++ [snd x]) r
        end
    end.

  Definition plinked (h : heap E) (env : nat) (p : list Act) (m : proxy) : Prop :=
    linked h env p m /\
    p_extra m = Some (Z.of_nat (length p), total (fst (env_reset e0)) (removelast p)).

  Lemma total_snoc : forall e p a, total e (p ++ [a]) =
    (total e p + snd (fst (fst (snd (env_step (fold_left (fun e a => fst (env_step e a)) p e) a)))))%Z.
  Proof.
    intros e p a. revert e. induction p as [|b p IH]; intros e; simpl.
    - destruct (env_step e a) as [e' [[[o r] d] i]]. simpl. lia.
    - destruct (env_step e b) as [e' [[[o r] d] i]]. rewrite IH. simpl. lia.
  Qed.

  Lemma linked_extra : forall h env p m x, linked h env p m -> linked h env p (with_extra m x).
  Proof. intros h env p m x H. exact H. Qed.

  Lemma pnext_ok : forall d env p m a i, plinked (d_heap (pd_dom d)) env p m ->
    pd_initial d = Some i -> p_state i = snd (env_reset e0) ->
    exists d' s, pnext d m a = Ok (d', s) /\ plinked (d_heap (pd_dom d')) env (p ++ [a]) s /\
      pd_initial d' = Some i /\
      (forall q x, linked (d_heap (pd_dom d)) env q x -> linked (d_heap (pd_dom d')) env q x) /\
      pd_restarting d' = looks (seen e0 p) /\
      pd_resets d' = pd_resets d + (if looks (seen e0 p) && negb (pd_restarting d) then 1 else 0).
  Proof.
    intros d env p m a i [LI EX] PI PS. unfold p_next_state. rewrite PI.
    assert (SO : p_state m = seen e0 p) by exact (proj1 (proj1 LI)).
    assert (OC : p_outcome m = match answer e0 p with None => None | Some (o, r, d, i) => Some (mk_outcome o r d i) end)
      by exact (proj2 (proj1 LI)).
    rewrite PS, SAME. cbn [bind]. rewrite <- SO.
    match goal with |- context [next_state _ _ _ _ (pd_dom ?D) _ _] => set (d1 := D) end.
    assert (D1 : pd_dom d1 = pd_dom d /\ pd_initial d1 = Some i /\ pd_restarting d1 = looks (p_state m) /\
       pd_resets d1 = pd_resets d + (if looks (p_state m) && negb (pd_restarting d) then 1 else 0)).
    { unfold d1, restart. destruct (looks (p_state m)); cbn.
      - destruct (pd_restarting d) eqn:R; cbn; rewrite ?R; repeat split; lia.
      - repeat split; lia. }
    destruct D1 as (D1 & D2 & D3 & D4). rewrite D1.
    destruct (next_ok (pd_dom d) env p m a LI) as (d' & s & -> & LS & _ & KEEP). cbn [bind fst snd].
    rewrite EX. eexists _, _. split; [reflexivity|]. cbn [pd_dom pd_initial pd_restarting pd_resets].
    split; [|auto]. split; [apply linked_extra; exact LS|]. cbn [p_extra with_extra]. f_equal. f_equal.
    - rewrite app_length. simpl length. lia.
    - rewrite removelast_last. rewrite OC. destruct p as [|b p _] using rev_ind; [reflexivity|].
      rewrite answer_snoc, removelast_last, total_snoc.
      change (fold_left (fun e a => fst (env_step e a)) p (fst (env_reset e0))) with (after e0 p).
      destruct (snd (env_step (after e0 p) b)) as [[[o r] dn] ii]. reflexivity.
  Qed.

  Lemma pexplore_ok : forall script d env ps ms i,
    Forall2 (plinked (d_heap (pd_dom d)) env) ps ms -> in_range _ (length ps) script ->
    pd_initial d = Some i -> p_state i = snd (env_reset e0) ->
    exists d' ms', pexplore d ms script = Ok (d', ms') /\
      Forall2 (plinked (d_heap (pd_dom d')) env) (paths _ ps script) ms' /\
      pd_resets d' = pd_resets d + runs (pd_restarting d) (map (fun p => looks (seen e0 p)) (expanded _ ps script)).
  Proof.
    induction script as [|[k a] r IH]; intros d env ps ms i F V PI PS; simpl.
    - eexists _, _. split; [reflexivity|]. split; auto.
    - destruct V as [V1 V2].
      destruct (Forall2_get _ _ _ _ _ k [] F V1) as (m & M & LI). rewrite M.
      destruct (pnext_ok d env (nth k ps []) m a i LI PI PS) as (d' & s & -> & LS & PI' & KEEP & RS & RC).
      cbn [bind fst snd].
      destruct (IH d' env (ps ++ [nth k ps [] ++ [a]]) (ms ++ [s]) i) as (d2 & ms2 & E2 & F2 & R2); auto.
      + apply Forall2_snoc; auto. eapply Forall2_imp; [|exact F]. intros q x [X Y]. split; auto.
      + rewrite app_length, Nat.add_1_r. exact V2.
      + exists d2, ms2. split; [exact E2|]. split; [exact F2|]. rewrite R2, RC, RS. lia.
  Qed.
End Proofs.
