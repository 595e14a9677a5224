(** More generic lemmas on dictionaries and lists. *)
From Coq Require Import List Bool Arith ZArith Lia Permutation.
From Verif Require Import Py PyList.
Import ListNotations.

Lemma dset_new : forall K V {EK : PyEq K} (d : list (K * V)) k v, ~ In k (dkeys d) -> dset d k v = d ++ [(k, v)].
Proof.
  induction d as [|[k' w] d IH]; intros k v NI; cbn [dset]; auto. destruct (pyeqb_spec k k') as [ -> |NE].
  - exfalso. apply NI. cbn. auto.
  - cbn [app]. f_equal. apply IH. intros X. apply NI. cbn. auto.
Qed.

Lemma dset_keys_absent : forall K V {EK : PyEq K} (d : list (K * V)) k v, ~ In k (dkeys d) -> dkeys (dset d k v) = dkeys d ++ [k].
Proof. intros. rewrite dset_new by auto. unfold dkeys. now rewrite map_app. Qed.

Lemma filter_none : forall A (f : A -> bool) l, (forall x, In x l -> f x = false) -> filter f l = [].
Proof. induction l as [|x l IH]; cbn; intros H; auto. rewrite (H x) by auto. apply IH. auto. Qed.

Lemma filter_all : forall A (f : A -> bool) l, (forall x, In x l -> f x = true) -> filter f l = l.
Proof. induction l as [|x l IH]; cbn; intros H; auto. rewrite (H x) by auto. f_equal. apply IH. auto. Qed.

Lemma dget_keys : forall K V {EK : PyEq K} (d : list (K * V)) k, In k (dkeys d) <-> exists v, dget d k = Some v.
Proof.
  intros. rewrite <- dmem_true. unfold dmem. destruct (dget d k); split; eauto; try discriminate. intros [v H]. discriminate.
Qed.

Lemma NoDup_app_disjoint : forall A (l1 l2 : list A), NoDup l1 -> NoDup l2 -> (forall x, In x l1 -> In x l2 -> False) -> NoDup (l1 ++ l2).
Proof.
  induction l1 as [|x l1 IH]; intros l2 N1 N2 D; auto. cbn. inversion N1; subst. constructor.
  - rewrite in_app_iff. intros [I|I]; auto. apply (D x); auto. now left.
  - apply IH; auto. intros y I1 I2. apply (D y); auto. now right.
Qed.
