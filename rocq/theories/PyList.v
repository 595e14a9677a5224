(** Base library, second part: Python lists with checked indices, stable sorting, loops whose body may
    raise.  Nothing here is specific to scikit-decide. *)
From Coq Require Import List Bool Arith ZArith Lia Permutation Sorted.
From Coq Require Import ZifyBool ZifyNat.
From Verif Require Import Py.
Import ListNotations.
Set Implicit Arguments.

(** [l[i]] with a non-negative index. *)
Definition lget {A} (l : list A) (i : nat) : res A :=
  match nth_error l i with Some x => Ok x | None => Err IndexError end.

(** [l[i] = v] with a non-negative index. *)
Definition lput {A} (l : list A) (i : nat) (v : A) : res (list A) :=
  if Nat.ltb i (length l) then Ok (lset l i v) else Err IndexError.

(** The position an integer index denotes: Python counts negative indices from the end. *)
Definition zpos (n : nat) (i : Z) : option nat :=
  (let j := if i <? 0 then i + Z.of_nat n else i in
   if (j <? 0) || (Z.of_nat n <=? j) then None else Some (Z.to_nat j))%Z.
Definition zget {A} (l : list A) (i : Z) : res A :=
  match zpos (length l) i with Some j => lget l j | None => Err IndexError end.
Definition zput {A} (l : list A) (i : Z) (v : A) : res (list A) :=
  match zpos (length l) i with Some j => lput l j v | None => Err IndexError end.

(** [for x in l: s = f(s, x)] *)
Fixpoint foldM {A S} (f : S -> A -> res S) (s : S) (l : list A) : res S :=
  match l with
  | [] => Ok s
  | x :: r => let* s' := f s x in foldM f s' r
  end.

(** [sorted(l, key=...)]: [le x y] is [key(x) <= key(y)]; stable. *)
Section Sort.
  Context {A : Type} (le : A -> A -> bool).
  Fixpoint sinsert (x : A) (l : list A) : list A :=
    match l with
    | [] => [x]
    | y :: r => if le x y then x :: y :: r else y :: sinsert x r
    end.
  Definition ssort (l : list A) : list A := fold_right sinsert [] l.
End Sort.

(** * Lemmas *)

Lemma lget_ok : forall A (l : list A) i x, lget l i = Ok x <-> nth_error l i = Some x.
Proof. intros. unfold lget. destruct (nth_error l i); split; intros H; congruence. Qed.

Lemma lget_In : forall A (l : list A) i x, lget l i = Ok x -> In x l.
Proof. intros A l i x H. apply lget_ok in H. eapply nth_error_In; eauto. Qed.

Lemma lget_lt : forall A (l : list A) i, i < length l -> exists x, lget l i = Ok x.
Proof.
  intros A l i H. unfold lget. destruct (nth_error l i) eqn:E; eauto.
  apply nth_error_None in E. lia.
Qed.

Lemma lput_ok : forall A (l : list A) i v l', lput l i v = Ok l' <-> i < length l /\ l' = lset l i v.
Proof.
  intros. unfold lput. destruct (Nat.ltb_spec i (length l)); split; intros H0.
  - injection H0 as <-. auto.
  - destruct H0; congruence.
  - discriminate.
  - lia.
Qed.

Lemma zget_nat : forall A (l : list A) i, zget l (Z.of_nat i) = lget l i.
Proof.
  intros. unfold zget, zpos, lget. destruct (Z.ltb_spec (Z.of_nat i) 0); [lia|].
  destruct (Z.ltb_spec (Z.of_nat i) 0); [lia|]. cbn [orb].
  destruct (Z.leb_spec (Z.of_nat (length l)) (Z.of_nat i)).
  - replace (nth_error l i) with (@None A); auto. symmetry. apply nth_error_None. lia.
  - now rewrite Nat2Z.id.
Qed.

Lemma zget_pos : forall A (l : list A) i, (0 <= i)%Z -> zget l i = lget l (Z.to_nat i).
Proof. intros. rewrite <- zget_nat. now rewrite Z2Nat.id. Qed.

Lemma zget_In : forall A (l : list A) i x, zget l i = Ok x -> In x l.
Proof.
  intros A l i x H. unfold zget in H. destruct (zpos (length l) i); [|discriminate].
  eapply lget_In; eauto.
Qed.

Lemma foldM_app : forall A S (f : S -> A -> res S) l1 l2 s,
  foldM f s (l1 ++ l2) = let* s' := foldM f s l1 in foldM f s' l2.
Proof.
  induction l1 as [|x l1 IH]; intros l2 s; simpl; auto.
  destruct (f s x); simpl; auto.
Qed.

Lemma foldM_inv : forall A S (f : S -> A -> res S) (P : list A -> S -> Prop) l s s',
  foldM f s l = Ok s' -> P [] s ->
  (forall l0 x l1 s1 s2, l = l0 ++ x :: l1 -> P l0 s1 -> f s1 x = Ok s2 -> P (l0 ++ [x]) s2) -> P l s'.
Proof.
  intros A S f P l s s' H P0 St.
  assert (G : forall l1 l0 s1, l = l0 ++ l1 -> P l0 s1 -> foldM f s1 l1 = Ok s' -> P l s').
  { induction l1 as [|x l1 IH]; intros l0 s1 E P1 F; simpl in F.
    - injection F as <-. rewrite app_nil_r in E. now subst.
    - apply bind_ok in F. destruct F as [s2 [F1 F2]].
      apply (IH (l0 ++ [x]) s2); auto.
      + rewrite <- app_assoc. exact E.
      + eapply St; eauto. }
  apply (G l [] s); auto.
Qed.

Lemma foldM_total : forall A S (f : S -> A -> res S) (P : list A -> S -> Prop) l s, P [] s ->
  (forall l0 x l1 s1, l = l0 ++ x :: l1 -> P l0 s1 -> exists s2, f s1 x = Ok s2 /\ P (l0 ++ [x]) s2) ->
  exists s', foldM f s l = Ok s' /\ P l s'.
Proof.
  intros A S f P l s P0 St.
  assert (G : forall l1 l0 s1, l = l0 ++ l1 -> P l0 s1 -> exists s', foldM f s1 l1 = Ok s' /\ P l s').
  { induction l1 as [|x l1 IH]; intros l0 s1 E P1; simpl.
    - rewrite app_nil_r in E. subst. eauto.
    - destruct (St _ _ _ _ E P1) as [s2 [F P2]]. rewrite F. simpl.
      apply (IH (l0 ++ [x])); auto. rewrite <- app_assoc. exact E. }
  apply (G l [] s); auto.
Qed.

Lemma mapM_ok : forall A B (f : A -> res B) l l', mapM f l = Ok l' <-> Forall2 (fun x y => f x = Ok y) l l'.
Proof.
  induction l as [|x l IH]; intros l'; simpl.
  - split; intros H; [injection H as <-; constructor|inversion H; auto].
  - split; intros H.
    + apply bind_ok in H. destruct H as [y [E H]]. apply bind_ok in H. destruct H as [ys [E2 H]].
      injection H as <-. constructor; auto. now apply IH.
    + inversion H as [|? y ? ys E F]; subst. rewrite E. simpl. apply IH in F. now rewrite F.
Qed.

Lemma mapM_length : forall A B (f : A -> res B) l l', mapM f l = Ok l' -> length l' = length l.
Proof. intros A B f l l' H. apply mapM_ok in H. induction H; simpl; congruence. Qed.

Lemma mapM_nth : forall A B (f : A -> res B) l l' i y, mapM f l = Ok l' -> nth_error l' i = Some y ->
  exists x, nth_error l i = Some x /\ f x = Ok y.
Proof.
  intros A B f l l' i y H. apply mapM_ok in H. revert i.
  induction H as [|x y' l l' E F IH]; intros [|i] N; simpl in *; try discriminate; eauto.
  injection N as <-. eauto.
Qed.

Lemma mapM_total : forall A B (f : A -> res B) (g : A -> B) l, (forall x, In x l -> f x = Ok (g x)) ->
  mapM f l = Ok (map g l).
Proof.
  induction l as [|x l IH]; intros H; simpl; auto.
  rewrite H by (simpl; auto). simpl. rewrite IH; auto. intros; apply H; simpl; auto.
Qed.

Lemma sinsert_perm : forall A le (x : A) l, Permutation (x :: l) (sinsert le x l).
Proof.
  induction l as [|y l IH]; simpl; auto. destruct (le x y); auto.
  rewrite perm_swap. now constructor.
Qed.

Lemma ssort_perm : forall A le (l : list A), Permutation l (ssort le l).
Proof. induction l as [|x l IH]; simpl; auto. rewrite IH at 1. apply sinsert_perm. Qed.

Lemma sinsert_sorted : forall A (le : A -> A -> bool) x l,
  (forall a b, le a b = false -> le b a = true) ->
  Sorted (fun a b => le a b = true) l -> Sorted (fun a b => le a b = true) (sinsert le x l).
Proof.
  intros A le x l T H. induction H as [|y l H IH R]; simpl.
  - repeat constructor.
  - destruct (le x y) eqn:E.
    + constructor; [constructor; auto|constructor; auto].
    + constructor; auto. destruct l as [|z l]; simpl; [constructor; auto|].
      destruct (le x z); constructor; auto. now inversion R.
Qed.

Lemma ssort_sorted : forall A (le : A -> A -> bool) l,
  (forall a b, le a b = false -> le b a = true) -> Sorted (fun a b => le a b = true) (ssort le l).
Proof. intros. induction l; simpl; [constructor|now apply sinsert_sorted]. Qed.

Lemma ssort_length : forall A le (l : list A), length (ssort le l) = length l.
Proof. intros. symmetry. apply Permutation_length, ssort_perm. Qed.

Lemma nth_error_ext : forall A (l1 l2 : list A), (forall i, nth_error l1 i = nth_error l2 i) -> l1 = l2.
Proof.
  induction l1 as [|x l1 IH]; intros [|y l2] H; auto.
  - specialize (H 0). discriminate.
  - specialize (H 0). discriminate.
  - f_equal; [specialize (H 0); simpl in H; congruence|]. apply IH. intros i. apply (H (S i)).
Qed.

Lemma lset_lset : forall A (l : list A) i v w, lset (lset l i v) i w = lset l i w.
Proof. induction l; destruct i; simpl; intros; f_equal; auto. Qed.

Lemma lset_same : forall A (l : list A) i v, nth_error l i = Some v -> lset l i v = l.
Proof. induction l; destruct i; simpl; intros v H; try discriminate; f_equal; auto; congruence. Qed.

Lemma lset_comm : forall A (l : list A) i j v w, i <> j -> lset (lset l i v) j w = lset (lset l j w) i v.
Proof.
  induction l; destruct i, j; simpl; intros v w H; auto; try congruence. f_equal. apply IHl. congruence.
Qed.

Lemma In_lset : forall A (l : list A) i v x, In x (lset l i v) -> x = v \/ In x l.
Proof.
  induction l; destruct i; simpl; intros v x H; auto; destruct H; auto.
  destruct (IHl _ _ _ H); auto.
Qed.

Lemma lset_app1 : forall A (l1 l2 : list A) i v, i < length l1 -> lset (l1 ++ l2) i v = lset l1 i v ++ l2.
Proof.
  induction l1; simpl; intros l2 i v H; [lia|]. destruct i; simpl; auto. f_equal. apply IHl1. lia.
Qed.

Lemma lset_app_mid : forall A (l1 l2 : list A) x v, lset (l1 ++ x :: l2) (length l1) v = l1 ++ v :: l2.
Proof. induction l1; simpl; intros; f_equal; auto. Qed.

Lemma nth_error_seq : forall n s i, i < n -> nth_error (seq s n) i = Some (s + i).
Proof.
  induction n; intros s i H; [lia|]. destruct i; simpl; [f_equal; lia|].
  rewrite IHn by lia. f_equal. lia.
Qed.

Lemma combine_app : forall A B (l1 l2 : list A) (m1 m2 : list B), length l1 = length m1 ->
  combine (l1 ++ l2) (m1 ++ m2) = combine l1 m1 ++ combine l2 m2.
Proof. induction l1; destruct m1; simpl; intros; try discriminate; auto. f_equal. auto. Qed.

Lemma combine_map_fst : forall A B (l : list A) (m : list B), length l = length m -> map fst (combine l m) = l.
Proof. induction l; destruct m; simpl; intros; try discriminate; auto. f_equal. auto. Qed.

Lemma combine_map_snd : forall A B (l : list A) (m : list B), length l = length m -> map snd (combine l m) = m.
Proof. induction l; destruct m; simpl; intros; try discriminate; auto. f_equal. auto. Qed.

Lemma sumZ_map_perm : forall A (f : A -> Z) l1 l2, Permutation l1 l2 -> sumZ (map f l1) = sumZ (map f l2).
Proof. induction 1; simpl; lia. Qed.

Lemma sumZ_map_le : forall A (f g : A -> Z) l, (forall x, In x l -> (f x <= g x)%Z) ->
  (sumZ (map f l) <= sumZ (map g l))%Z.
Proof.
  induction l as [|x l IH]; simpl; intros H; [lia|].
  pose proof (H x (or_introl eq_refl)). assert (sumZ (map f l) <= sumZ (map g l))%Z by (apply IH; auto). lia.
Qed.

Lemma sumZ_map_ext : forall A (f g : A -> Z) l, (forall x, In x l -> f x = g x) -> sumZ (map f l) = sumZ (map g l).
Proof. intros. f_equal. now apply map_ext_in. Qed.

Lemma sumZ_map_nonneg : forall A (f : A -> Z) l, (forall x, In x l -> (0 <= f x)%Z) -> (0 <= sumZ (map f l))%Z.
Proof.
  induction l as [|x l IH]; simpl; intros H; [lia|].
  pose proof (H x (or_introl eq_refl)). assert (0 <= sumZ (map f l))%Z by (apply IH; auto). lia.
Qed.

Lemma sumZ_map_plus : forall A (f g : A -> Z) l, sumZ (map (fun x => f x + g x)%Z l) = (sumZ (map f l) + sumZ (map g l))%Z.
Proof. induction l; simpl; lia. Qed.

Lemma sumZ_map_scale : forall A (f : A -> Z) c l, sumZ (map (fun x => c * f x)%Z l) = (c * sumZ (map f l))%Z.
Proof. induction l; simpl; lia. Qed.

Lemma nth_error_skipn : forall A n (l : list A) i, nth_error (skipn n l) i = nth_error l (n + i).
Proof. induction n; intros [|x l] i; simpl; auto. now destruct i. Qed.

Lemma nth_error_firstn : forall A n (l : list A) i, i < n -> nth_error (firstn n l) i = nth_error l i.
Proof. induction n; intros [|x l] i H; simpl; auto; try lia. destruct i; simpl; auto. apply IHn. lia. Qed.

Lemma firstn_snoc : forall A (l : list A) k x, nth_error l k = Some x -> firstn (S k) l = firstn k l ++ [x].
Proof.
  induction l as [|y l IH]; intros [|k] x H; simpl in *; try discriminate.
  - congruence.
  - f_equal. now apply IH.
Qed.

Lemma skipn_nth : forall A (l : list A) k x, nth_error l k = Some x -> skipn k l = x :: skipn (S k) l.
Proof.
  induction l as [|y l IH]; intros k x N; destruct k; try discriminate; [injection N as ->; reflexivity|].
  cbn [skipn]. now apply IH.
Qed.

Lemma seq_split : forall n s l0 x l1, seq s n = l0 ++ x :: l1 -> x = s + length l0 /\ length l0 < n.
Proof.
  intros n s l0 x l1 E.
  assert (nth_error (seq s n) (length l0) = Some x).
  { rewrite E, nth_error_app2 by lia. now rewrite Nat.sub_diag. }
  assert (length l0 < n).
  { rewrite <- (seq_length n s). apply nth_error_Some. congruence. }
  rewrite nth_error_seq in H by lia. injection H as <-. auto.
Qed.

(** [s.add(x)] and [set(l)]; the order of the list is the order of insertion. *)
Definition pyadd {K} {EK : PyEq K} (s : list K) (x : K) : list K := if pymem x s then s else s ++ [x].
Definition pyset {K} {EK : PyEq K} (l : list K) : list K := fold_left pyadd l [].

Lemma pyadd_In : forall K {EK : PyEq K} (s : list K) x y, In y (pyadd s x) <-> y = x \/ In y s.
Proof.
  intros. unfold pyadd. destruct (pymem x s) eqn:E.
  - apply pymem_true in E. split; [auto|]. intros [ -> |]; auto.
  - rewrite in_app_iff. simpl. intuition.
Qed.

Lemma NoDup_snoc : forall A (l : list A) x, NoDup l -> ~ In x l -> NoDup (l ++ [x]).
Proof.
  intros A l x N H. apply (Permutation_NoDup (Permutation_cons_append l x)). now constructor.
Qed.

Lemma pyadd_NoDup : forall K {EK : PyEq K} (s : list K) x, NoDup s -> NoDup (pyadd s x).
Proof.
  intros. unfold pyadd. destruct (pymem x s) eqn:E; auto. apply NoDup_snoc; auto. exact (proj1 (pymem_false x s) E).
Qed.

Lemma pyset_aux : forall K {EK : PyEq K} (l s : list K), NoDup s ->
  NoDup (fold_left pyadd l s) /\ forall x, In x (fold_left pyadd l s) <-> In x s \/ In x l.
Proof.
  induction l as [|y l IH]; intros s N; simpl; [split; auto; intuition|].
  destruct (IH (pyadd s y) (pyadd_NoDup y N)) as [H1 H2]. split; auto.
  intros x. rewrite H2, pyadd_In. intuition.
Qed.

Lemma pyset_In : forall K {EK : PyEq K} (l : list K) x, In x (pyset l) <-> In x l.
Proof. intros. unfold pyset. destruct (pyset_aux l (NoDup_nil K)) as [_ H]. rewrite H. simpl. intuition. Qed.

Lemma pyset_NoDup : forall K {EK : PyEq K} (l : list K), NoDup (pyset l).
Proof. intros. apply pyset_aux. constructor. Qed.

(** A list has one sorted rearrangement when the order is antisymmetric and transitive. *)
Lemma sorted_unique : forall A (le : A -> A -> bool) l1 l2,
  (forall x y, le x y = true -> le y x = true -> x = y) ->
  (forall x y z, le x y = true -> le y z = true -> le x z = true) ->
  Sorted (fun x y => le x y = true) l1 -> Sorted (fun x y => le x y = true) l2 -> Permutation l1 l2 -> l1 = l2.
Proof.
  intros A le l1 l2 AS TR S1 S2.
  apply Sorted_StronglySorted in S1; [|intros x y z; apply TR].
  apply Sorted_StronglySorted in S2; [|intros x y z; apply TR].
  revert l2 S2. induction S1 as [|x l1 S1 IH F1]; intros l2 S2 P.
  - now apply Permutation_nil in P.
  - destruct S2 as [|y l2 S2 F2]; [apply Permutation_sym, Permutation_nil in P; discriminate|].
    rewrite Forall_forall in F1, F2.
    assert (x = y).
    { assert (I1 : In x (y :: l2)) by (eapply Permutation_in; [exact P|simpl; auto]).
      assert (I2 : In y (x :: l1)) by (eapply Permutation_in; [apply Permutation_sym; exact P|simpl; auto]).
      destruct I1 as [|I1]; [congruence|]. destruct I2 as [|I2]; [congruence|]. apply AS; auto. }
    subst y. f_equal. apply IH; auto. now apply Permutation_cons_inv in P.
Qed.

Lemma dset_length_new : forall K V {EK : PyEq K} (d : list (K * V)) k v, ~ In k (dkeys d) ->
  length (dset d k v) = S (length d).
Proof.
  induction d as [|[k' w] d IH]; intros k v NI; cbn [dset]; auto. destruct (pyeqb_spec k k') as [ -> |NE].
  - exfalso. apply NI. cbn. auto.
  - cbn [length]. f_equal. apply IH. intros X. apply NI. cbn. auto.
Qed.
