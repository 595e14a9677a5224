(** A computable check that a concrete instance is a project, and the answers networkx gives on it:
    used by the examples only. *)
From Coq Require Import String.
From Coq Require Import List Bool Arith ZArith Lia.
From Verif Require Import Py PyList PyMore SgsModel CpmModel CpmSpec CpmProofs.
Import ListNotations.

Definition succs (p : rcpsp) (a : nat) : list nat := match dget (p_succ p) a with Some l => l | None => [] end.
Fixpoint reachb (k : nat) (p : rcpsp) (a b : nat) : bool :=
  match k with 0 => false | S k => existsb (fun c => (c =? b) || reachb k p c b) (succs p a) end.
Definition ids (p : rcpsp) : list nat := seq 1 (length (p_modes p)).
Definition nx_of (p : rcpsp) : nxg :=
  let n := length (p_modes p) in
  Nxg (ids p) (fun a => filter (fun b => pymem b (succs p a)) (ids p))
      (fun b => filter (fun a => pymem b (succs p a)) (ids p))
      (fun a => filter (fun b => reachb n p a b) (ids p)) (fun b => filter (fun a => reachb n p a b) (ids p)).

Definition numbered (p : rcpsp) : bool :=
  forallb (fun kv : nat * list nat => forallb (fun b => (1 <=? fst kv) && (fst kv <? b) && (b <=? length (p_modes p))) (snd kv)) (p_succ p).
Definition is_project (p : rcpsp) : bool :=
  numbered p && (1 <=? length (p_modes p)) &&
  forallb (fun a => pymem a (ids p)) (dkeys (p_modes p)) && forallb (fun a => pymem a (dkeys (p_modes p))) (ids p) &&
  forallb (fun a => match dget (p_modes p) a with Some (_ :: _) => true | _ => false end) (ids p) &&
  forallb (fun a => (a =? 1) || reachb (length (p_modes p)) p 1 a) (ids p) &&
  forallb (fun a => (a =? length (p_modes p)) || reachb (length (p_modes p)) p a (length (p_modes p))) (ids p).

Lemma in_ids : forall p a, In a (ids p) <-> task p a.
Proof. intros p a. unfold ids. rewrite in_seq. unfold task. lia. Qed.

Section Check.
Context (p : rcpsp) (NB : numbered p = true).
Let n := length (p_modes p).

Lemma edge_succs : forall a b, edge p a b <-> In b (succs p a).
Proof.
  intros a b. unfold edge, succs. split.
  - intros [l [-> H]]. exact H.
  - destruct (dget (p_succ p) a) as [l|]; [eauto|intros []].
Qed.
Lemma edge_up : forall a b, edge p a b -> 1 <= a /\ a < b /\ b <= n.
Proof.
  intros a b [l [H I]]. apply dget_In in H. unfold numbered in NB. rewrite forallb_forall in NB.
  specialize (NB _ H). cbn [fst snd] in NB. rewrite forallb_forall in NB. specialize (NB _ I).
  rewrite !andb_true_iff, !Nat.leb_le, Nat.ltb_lt in NB. unfold n. tauto.
Qed.
Lemma path_up : forall a b, path p a b -> 1 <= a /\ a < b /\ b <= n.
Proof. intros a b H. induction H; [now apply edge_up|]. apply edge_up in H. lia. Qed.
Lemma reachb_path : forall k a b, reachb k p a b = true -> path p a b.
Proof.
  induction k as [|k IH]; intros a b H; [discriminate|]. cbn [reachb] in H. apply existsb_exists in H.
  destruct H as [c [H1 H2]]. apply edge_succs in H1. apply orb_true_iff in H2. destruct H2 as [H2|H2].
  - apply Nat.eqb_eq in H2. subst c. now apply path_one.
  - eapply path_step; eauto.
Qed.
Lemma path_reachb : forall a b, path p a b -> forall k, b - a <= k -> reachb k p a b = true.
Proof.
  intros a b H. induction H as [a b H|a b c H1 H2 IH]; intros k K.
  - pose proof (edge_up _ _ H). destruct k; [lia|]. cbn [reachb]. apply existsb_exists. exists b. split; [now apply edge_succs|].
    now rewrite Nat.eqb_refl.
  - pose proof (edge_up _ _ H1). pose proof (path_up _ _ H2). destruct k; [lia|]. cbn [reachb]. apply existsb_exists. exists b.
    split; [now apply edge_succs|]. rewrite IH by lia. apply orb_true_r.
Qed.
Lemma reachb_iff : forall a b, reachb n p a b = true <-> path p a b.
Proof. intros a b. split; [apply reachb_path|]. intros H. pose proof (path_up _ _ H). apply path_reachb; auto. lia. Qed.

Lemma nx_of_ok : networkx p (nx_of p).
Proof.
  constructor; cbn [nx_of n_nodes n_succ n_pred n_desc n_anc]; intros;
    try (apply NoDup_filter, seq_NoDup); try apply seq_NoDup.
  - rewrite in_ids. split; [auto|]. intros [H|[b [H|H]]]; auto; apply edge_up in H; unfold task; fold n; lia.
  - rewrite filter_In, in_ids, mem_in, <- edge_succs. split; [tauto|]. intros H. split; auto. apply edge_up in H. unfold task. fold n. lia.
  - rewrite filter_In, in_ids, mem_in, <- edge_succs. split; [tauto|]. intros H. split; auto. apply edge_up in H. unfold task. fold n. lia.
  - rewrite filter_In, in_ids. fold n. rewrite reachb_iff. split.
    + intros [_ H]. split; auto. apply path_up in H. lia.
    + intros [H _]. split; auto. apply path_up in H. unfold task. fold n. lia.
  - rewrite filter_In, in_ids. fold n. rewrite reachb_iff. split.
    + intros [_ H]. split; auto. apply path_up in H. lia.
    + intros [H _]. split; auto. apply path_up in H. unfold task. fold n. lia.
Qed.
End Check.

Lemma check_project : forall p, is_project p = true -> project p /\ networkx p (nx_of p).
Proof.
  intros p H. unfold is_project in H. rewrite !andb_true_iff in H. destruct H as [[[[[[H1 H2] H3] H4] H5] H6] H7].
  split; [|now apply nx_of_ok]. rewrite !forallb_forall in H3, H4, H5, H6, H7. apply Nat.leb_le in H2. constructor; auto.
  - intros a. rewrite <- in_ids. split; intros I.
    + specialize (H3 a I). now apply mem_in in H3.
    + specialize (H4 a I). now apply mem_in in H4.
  - intros a T. apply in_ids in T. specialize (H5 a T). destruct (dget (p_modes p) a) as [[|[k m] d]|] eqn:Q; try discriminate.
    exists m, ((k, m) :: d), k. split; auto. now left.
  - intros a b H. apply (edge_up p H1) in H. unfold task. lia.
  - intros a H. apply (path_up p H1) in H. lia.
  - intros a T NE. apply in_ids in T. specialize (H6 a T). apply orb_true_iff in H6. destruct H6 as [H6|H6]; [apply Nat.eqb_eq in H6; lia|].
    now apply reachb_iff in H6.
  - intros a T NE. apply in_ids in T. specialize (H7 a T). apply orb_true_iff in H7. destruct H7 as [H7|H7]; [apply Nat.eqb_eq in H7; lia|].
    now apply reachb_iff in H7.
Qed.
