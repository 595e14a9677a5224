(** Invariant of the environment-like gym domain. *)
From Coq Require Import List Bool Arith ZArith Lia.
Import ListNotations.
From Verif Require Import Py GymDomModel GymDomSpec GymDomProofs.

Section Proofs.
  Variables E Obs Act Info Snap : Type.
  Variable env_reset : E -> E * Obs.
  Variable env_step : E -> Act -> E * (Obs * Z * bool * Info).
  Variable set_state : option (E -> Snap -> E).
  Variable get_state : option (E -> Snap).
  Variable snap_neq : Snap -> Snap -> res bool.
  Hypothesis LAW : lawful _ _ _ _ _ env_step set_state get_state snap_neq.
  Notation after := (after _ _ _ _ env_reset env_step).
  Notation idom := (idom E Obs Snap).
  Notation istate := (istate Obs Snap).
  Notation snapshots := (snapshots set_state get_state).
  Variable e0 : E.

  (** A client of the domain. *)
  Fixpoint drive (d : idom) (got : list istate) (l : list (call Act)) : res (list (reply Obs Info)) :=
    match l with
    | [] => Ok []
    | CReset :: r =>
        let* x := i_reset env_reset set_state get_state d in
        let* t := drive (fst x) (got ++ [snd x]) r in Ok (RState (s_obs (snd x)) :: t)
    | CStep a :: r =>
        let* x := i_step env_step set_state get_state d a in
        let '(s, rew, dn, i) := snd x in
        let* t := drive (fst x) (got ++ [s]) r in Ok (RStep (s_obs s) rew dn i :: t)
    | CSet k :: r =>
        match nth_error got k with
        | None => Err IndexError
        | Some s => let* d' := set_memory set_state get_state d s in
                    let* t := drive d' got r in Ok (RNone :: t)
        end
    end.

  (** [c] is the address of the copy made at the first reset. *)
  Definition ctx_ok (c : nat) (x : context Snap) : Prop :=
    match snapshots with
    | None => x = CEnv Snap c
    | Some (_, get) => x = CSnap (get (fst (env_reset e0)))
    end.

  Definition inv (c : nat) (d : idom) (path : list Act) (first : Obs) (got : list istate) : Prop :=
    (exists s, i_initial d = Some s /\ s_obs s = first /\ ctx_ok c (s_ctx s)) /\
    Forall (fun s => ctx_ok c (s_ctx s)) got /\
    match snapshots with
    | None => i_init_env d = Some c /\ nth_error (i_heap d) c = Some (fst (env_reset e0)) /\
              i_env d <> c /\ nth_error (i_heap d) (i_env d) = Some (after e0 path)
    | Some (_, get) => i_init_snap d = Some (get (fst (env_reset e0))) /\
              exists e, nth_error (i_heap d) (i_env d) = Some e /\ get e = get (after e0 path)
    end.

  Lemma copy_ok : forall (h : heap E) c e, nth_error h c = Some e ->
    deepcopy h c = Ok (h ++ [e], length h) /\ length h <> c /\
    nth_error (h ++ [e]) c = Some e /\ nth_error (h ++ [e]) (length h) = Some e.
  Proof.
    intros h c e H. assert (L : c < length h) by (apply nth_error_Some; congruence).
    split; [unfold deepcopy; rewrite (deref_ok _ _ _ _ H); reflexivity|]. split; [lia|].
    split; [rewrite nth_error_app1; auto|]. rewrite nth_error_app2, Nat.sub_diag by lia. reflexivity.
  Qed.

  Lemma drive_ok : forall l c d path first got,
    inv c d path first got -> known _ (length got) l ->
    drive d got l = Ok (replies _ _ _ _ env_reset env_step e0 path first (map (@s_obs Obs Snap) got) l).
  Proof.
    induction l as [|[|a|k] l IH]; intros c d path first got (I1 & I2 & I3) K; cbn [drive replies known] in *.
    - reflexivity.
    - destruct I1 as (s & S1 & S2 & S3).
      assert (G : exists d', i_reset env_reset set_state get_state d = Ok (d', s) /\ inv c d' [] first (got ++ [s])).
      { unfold i_reset. rewrite S1. unfold inv, ctx_ok in *. unfold lawful in LAW.
        unfold GymDomModel.snapshots in *. destruct set_state as [set|], get_state as [get|].
        1: { destruct I3 as (J1 & e & J2 & J3). rewrite J1. unfold put_back. rewrite (deref_ok _ _ _ _ J2).
             cbn [bind]. eexists. split; [reflexivity|]. cbn [i_initial i_init_snap i_heap i_env].
             split; [exists s; auto|]. split; [apply Forall_app; auto|]. split; auto.
             eexists. split; [apply assign_same; apply nth_error_Some; congruence|].
             exact (proj1 LAW e (fst (env_reset e0))). }
        all: destruct I3 as (J1 & J2 & J3 & J4); rewrite J1;
             destruct (copy_ok _ _ _ J2) as (-> & N & C1 & C2); cbn [bind fst snd];
             eexists; (split; [reflexivity|]); cbn [i_initial i_init_env i_heap i_env];
             (split; [exists s; auto|]); (split; [apply Forall_app; auto|]); auto. }
      destruct G as (d' & -> & IN). cbn [bind fst snd]. rewrite S2.
      rewrite (IH c d' [] first (got ++ [s])); auto.
      + cbn [bind]. rewrite map_app. cbn [map]. rewrite S2. reflexivity.
      + rewrite app_length, Nat.add_1_r. exact K.
    - assert (G : exists d' s, i_step env_step set_state get_state d a =
                    Ok (d', (let '(o, r, dn, i) := snd (env_step (after e0 path) a) in (mk_istate o s, r, dn, i))) /\
                  ctx_ok c s /\
                  i_initial d' = i_initial d /\
                  match snapshots with
                  | None => i_init_env d' = Some c /\ nth_error (i_heap d') c = Some (fst (env_reset e0)) /\
                            i_env d' <> c /\ nth_error (i_heap d') (i_env d') = Some (after e0 (path ++ [a]))
                  | Some (_, get) => i_init_snap d' = Some (get (fst (env_reset e0))) /\
                            exists e, nth_error (i_heap d') (i_env d') = Some e /\ get e = get (after e0 (path ++ [a]))
                  end).
      { rewrite (after_snoc _ _ _ _ env_reset env_step e0 path a).
        unfold i_step, inv, ctx_ok in *. unfold lawful in LAW.
        unfold GymDomModel.snapshots in *. destruct set_state as [set|], get_state as [get|].
        1: { destruct I3 as (J1 & e & J2 & J3). rewrite (deref_ok _ _ _ _ J2), J1. cbn [bind].
             destruct (proj1 (proj2 LAW) _ _ a J3) as (A1 & A2). rewrite <- A1.
             destruct (snd (env_step e a)) as [[[o r] dn] i]. eexists _, _. split; [reflexivity|].
             split; [reflexivity|]. split; [reflexivity|]. split; [first [exact J1|reflexivity]|]. cbn [i_heap i_env].
             eexists. split; [apply assign_same; apply nth_error_Some; congruence|]. exact A2. }
        all: destruct I3 as (J1 & J2 & J3 & J4); rewrite (deref_ok _ _ _ _ J4), J1; cbn [bind];
             destruct (env_step (after e0 path) a) as [e' [[[o r] dn] i]]; cbn [fst snd];
             eexists _, _; (split; [reflexivity|]); (split; [reflexivity|]); (split; [reflexivity|]);
             cbn [i_heap i_env i_init_env]; (split; [first [exact J1|reflexivity]|]);
             (split; [rewrite assign_other; auto|]); (split; [exact J3|]);
             apply assign_same; apply nth_error_Some; congruence. }
      destruct G as (d' & s & -> & CO & IE & I3'). cbn [bind fst snd].
      destruct (snd (env_step (after e0 path) a)) as [[[o r] dn] i]. cbn [s_obs].
      rewrite (IH c d' (path ++ [a]) first (got ++ [mk_istate o s])).
      + cbn [bind]. rewrite map_app. reflexivity.
      + split; [rewrite IE; exact I1|]. split; [apply Forall_app; auto|exact I3'].
      + rewrite app_length, Nat.add_1_r. exact K.
    - destruct K as [K1 K2].
      destruct (nth_error got k) as [s|] eqn:N; [|apply nth_error_None in N; lia].
      assert (CO : ctx_ok c (s_ctx s)) by (rewrite Forall_forall in I2; apply I2; eapply nth_error_In; eauto).
      assert (NO : nth k (map (@s_obs Obs Snap) got) first = s_obs s).
      { apply nth_error_nth. rewrite nth_error_map, N. reflexivity. }
      assert (G : exists d', set_memory set_state get_state d s = Ok d' /\ inv c d' [] (s_obs s) got).
      { unfold set_memory, inv. unfold ctx_ok in *. unfold lawful in LAW.
        unfold GymDomModel.snapshots in *. destruct set_state as [set|], get_state as [get|].
        1: { destruct I3 as (J1 & e & J2 & J3). rewrite CO. unfold put_back. rewrite (deref_ok _ _ _ _ J2).
             cbn [bind]. eexists. split; [reflexivity|]. cbn [i_initial i_init_snap i_heap i_env].
             split; [exists s; auto|]. split; auto. split; auto.
             eexists. split; [apply assign_same; apply nth_error_Some; congruence|].
             exact (proj1 LAW e (fst (env_reset e0))). }
        all: destruct I3 as (J1 & J2 & J3 & J4); rewrite CO;
             destruct (copy_ok _ _ _ J2) as (-> & NE & C1 & C2); cbn [bind fst snd];
             eexists; (split; [reflexivity|]); cbn [i_initial i_init_env i_heap i_env];
             (split; [exists s; auto|]); (split; [auto|]); auto. }
      destruct G as (d' & -> & IN). cbn [bind]. rewrite NO, (IH c d' [] (s_obs s) got); auto.
  Qed.

  Lemma start_ok : forall h a, nth_error h a = Some e0 ->
    exists c d s, i_reset env_reset set_state get_state (iinit Obs Snap h a) = Ok (d, s) /\
      s_obs s = snd (env_reset e0) /\ inv c d [] (snd (env_reset e0)) [s].
  Proof.
    intros h a H. assert (L : a < length h) by (apply nth_error_Some; congruence).
    unfold i_reset, iinit. cbn [i_initial i_heap i_env i_init_env i_init_snap].
    rewrite (deref_ok _ _ _ _ H). cbn [bind]. unfold inv, ctx_ok. unfold GymDomModel.snapshots.
    pose proof (assign_same _ h a (fst (env_reset e0)) L) as AS.
    destruct set_state as [set|], get_state as [get|].
    1: { exists 0. eexists _, _. split; [reflexivity|]. split; [reflexivity|].
         cbn [i_initial i_heap i_env i_init_env i_init_snap s_obs s_ctx].
         split; [eexists; split; [reflexivity|]; split; reflexivity|]. split; [constructor; [reflexivity|constructor]|].
         split; [reflexivity|]. eexists. split; [exact AS|reflexivity]. }
    all: destruct (copy_ok _ _ _ AS) as (-> & NE & C1 & C2); cbn [bind fst snd];
         exists (length (assign h a (fst (env_reset e0)))); eexists _, _; (split; [reflexivity|]);
         (split; [reflexivity|]); cbn [i_initial i_heap i_env i_init_env i_init_snap s_obs s_ctx];
         (split; [eexists; split; [reflexivity|]; split; reflexivity|]);
         (split; [constructor; [reflexivity|constructor]|]); (split; [reflexivity|]); (split; [exact C2|]);
         split; [congruence|exact C1].
  Qed.
End Proofs.
