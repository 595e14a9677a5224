(** Base library: Python exceptions as values, Python dictionaries as insertion-ordered
    association lists, and a few list facts used everywhere.  Nothing here is specific to
    scikit-decide; it models the Python language constructs the code uses. *)
From Coq Require Import String.
From Coq Require Import List Bool Arith ZArith Lia.
From Coq Require Import ZifyBool ZifyNat.
Import ListNotations.
Set Implicit Arguments.

(** The Python exceptions that occur in the modelled code.  [OutOfFuel] is not a Python
    exception: it is the explicit "loop not finished within the given number of turns" outcome. *)
Inductive py_err :=
| TypeError | KeyError | IndexError | AttributeError | ValueError | AssertionError
| NotImplementedError | UnboundLocalError | ZeroDivisionError | StopIteration | RuntimeError | OutOfFuel.

Inductive res (A : Type) :=
| Ok (a : A)
| Err (e : py_err).
Arguments Ok {A} a.
Arguments Err {A} e.

Definition bind {A B} (r : res A) (f : A -> res B) : res B :=
  match r with Ok a => f a | Err e => Err e end.
Notation "'let*' x ':=' r 'in' k" := (bind r (fun x => k))
  (at level 200, x name, r at level 100, k at level 200, right associativity).

Definition rmap {A B} (f : A -> B) (r : res A) : res B :=
  match r with Ok a => Ok (f a) | Err e => Err e end.

(** [mapM f l]: a list comprehension whose body may raise. *)
Fixpoint mapM {A B} (f : A -> res B) (l : list A) : res (list B) :=
  match l with
  | [] => Ok []
  | x :: r => let* y := f x in let* ys := mapM f r in Ok (y :: ys)
  end.

Lemma bind_ok : forall A B (r : res A) (f : A -> res B) b,
  bind r f = Ok b -> exists a, r = Ok a /\ f a = Ok b.
Proof. intros A B [a|e] f b H; simpl in H; [eauto|discriminate]. Qed.

(** Decidable equality used by Python's [==] on keys. *)
Class PyEq (K : Type) := {
  pyeqb : K -> K -> bool;
  pyeqb_spec : forall a b, reflect (a = b) (pyeqb a b)
}.

#[export] Instance PyEq_nat : PyEq nat := {| pyeqb := Nat.eqb; pyeqb_spec := Nat.eqb_spec |}.
#[export] Instance PyEq_Z : PyEq Z := {| pyeqb := Z.eqb; pyeqb_spec := Z.eqb_spec |}.
#[export] Instance PyEq_string : PyEq string := {| pyeqb := String.eqb; pyeqb_spec := String.eqb_spec |}.
#[export] Instance PyEq_bool : PyEq bool := {| pyeqb := Bool.eqb; pyeqb_spec := Bool.eqb_spec |}.
#[export] Instance PyEq_prod A B (EA : PyEq A) (EB : PyEq B) : PyEq (A * B).
Proof.
  refine {| pyeqb := fun p q => pyeqb (fst p) (fst q) && pyeqb (snd p) (snd q) |}.
  intros [a b] [c d]; simpl.
  destruct (pyeqb_spec a c), (pyeqb_spec b d); simpl; constructor; congruence.
Defined.

Section Dict.
  Context {K V : Type} {EK : PyEq K}.

  (** [d.get(k)] *)
  Fixpoint dget (d : list (K * V)) (k : K) : option V :=
    match d with
    | [] => None
    | (k', v) :: r => if pyeqb k k' then Some v else dget r k
    end.

  (** [k in d] *)
  Definition dmem (d : list (K * V)) (k : K) : bool :=
    match dget d k with Some _ => true | None => false end.

  (** [d[k]] (raises KeyError when absent) *)
  Definition dgetE (d : list (K * V)) (k : K) : res V :=
    match dget d k with Some v => Ok v | None => Err KeyError end.

  (** [d[k] = v]: overwrite in place, or append *)
  Fixpoint dset (d : list (K * V)) (k : K) (v : V) : list (K * V) :=
    match d with
    | [] => [(k, v)]
    | (k', v') :: r => if pyeqb k k' then (k, v) :: r else (k', v') :: dset r k v
    end.

  (** [d.pop(k)] on a present key / no-op otherwise *)
  Fixpoint ddel (d : list (K * V)) (k : K) : list (K * V) :=
    match d with
    | [] => []
    | (k', v') :: r => if pyeqb k k' then r else (k', v') :: ddel r k
    end.

  Definition dkeys (d : list (K * V)) : list K := map fst d.

  Lemma pyeqb_refl : forall a : K, pyeqb a a = true.
  Proof. intro a; destruct (pyeqb_spec a a); congruence. Qed.

  Lemma pyeqb_true : forall a b : K, pyeqb a b = true <-> a = b.
  Proof. intros a b; destruct (pyeqb_spec a b); split; congruence. Qed.

  Lemma pyeqb_false : forall a b : K, pyeqb a b = false <-> a <> b.
  Proof. intros a b; destruct (pyeqb_spec a b); split; congruence. Qed.

  Lemma py_dec : forall a b : K, {a = b} + {a <> b}.
  Proof. intros a b; destruct (pyeqb_spec a b); auto. Qed.

  Lemma dget_dset_same : forall d k v, dget (dset d k v) k = Some v.
  Proof.
    induction d as [|[k' v'] d IH]; intros k v; simpl.
    - now rewrite pyeqb_refl.
    - destruct (pyeqb_spec k k'); simpl.
      + now rewrite pyeqb_refl.
      + destruct (pyeqb_spec k k'); [congruence|apply IH].
  Qed.

  Lemma dget_dset_other : forall d k k2 v, k <> k2 -> dget (dset d k v) k2 = dget d k2.
  Proof.
    induction d as [|[k' v'] d IH]; intros k k2 v N; simpl.
    - destruct (pyeqb_spec k2 k); congruence.
    - destruct (pyeqb_spec k k'); simpl.
      + destruct (pyeqb_spec k2 k), (pyeqb_spec k2 k'); congruence.
      + destruct (pyeqb_spec k2 k'); auto.
  Qed.

  Lemma dget_dset : forall d k k2 v,
    dget (dset d k v) k2 = if pyeqb k k2 then Some v else dget d k2.
  Proof.
    intros d k k2 v. destruct (pyeqb_spec k k2).
    - subst. apply dget_dset_same.
    - now apply dget_dset_other.
  Qed.

  Lemma dget_In : forall d k v, dget d k = Some v -> In (k, v) d.
  Proof.
    induction d as [|[k' v'] d IH]; simpl; intros k v H; [discriminate|].
    destruct (pyeqb_spec k k'); [left; congruence|right; auto].
  Qed.

  Lemma dget_None : forall d k, dget d k = None <-> ~ In k (dkeys d).
  Proof.
    induction d as [|[k' v'] d IH]; simpl; intros k; [tauto|].
    destruct (pyeqb_spec k k').
    - split; [discriminate|]. intros H. exfalso. apply H. auto.
    - rewrite IH. split; intros H; [intros [E|E]; [congruence|auto]|auto].
  Qed.

  Lemma dmem_true : forall d k, dmem d k = true <-> In k (dkeys d).
  Proof.
    intros d k. unfold dmem. destruct (dget d k) eqn:E.
    - split; auto. intros _. apply dget_In in E. apply in_map_iff. exists (k, v); auto.
    - split; [discriminate|]. intros H. apply dget_None in E. contradiction.
  Qed.

  Lemma dmem_false : forall d k, dmem d k = false <-> ~ In k (dkeys d).
  Proof.
    intros d k. rewrite <- dmem_true. destruct (dmem d k); split; congruence.
  Qed.

  Lemma In_dget : forall d k v, NoDup (dkeys d) -> In (k, v) d -> dget d k = Some v.
  Proof.
    induction d as [|[k' v'] d IH]; simpl; intros k v N I; [contradiction|].
    inversion N; subst. destruct I as [E|I].
    - inversion E; subst. now rewrite pyeqb_refl.
    - destruct (pyeqb_spec k k'); auto.
      subst. exfalso. apply H1. apply in_map_iff. exists (k', v); auto.
  Qed.

  Lemma dkeys_dset : forall d k v x, In x (dkeys (dset d k v)) <-> x = k \/ In x (dkeys d).
  Proof.
    induction d as [|[k' v'] d IH]; simpl; intros k v x.
    - intuition.
    - destruct (pyeqb_spec k k'); simpl.
      + subst. intuition.
      + rewrite IH. intuition.
  Qed.

  Lemma NoDup_dset : forall d k v, NoDup (dkeys d) -> NoDup (dkeys (dset d k v)).
  Proof.
    induction d as [|[k' v'] d IH]; simpl; intros k v N.
    - constructor; auto.
    - inversion N; subst. destruct (pyeqb_spec k k'); simpl.
      + subst. constructor; auto.
      + constructor; auto. fold (dkeys (dset d k v)). rewrite dkeys_dset. intros [E|E]; [congruence|auto].
  Qed.

  Lemma dset_keys_present : forall d k v, In k (dkeys d) -> dkeys (dset d k v) = dkeys d.
  Proof.
    induction d as [|[k' v'] d IH]; simpl; intros k v I; [contradiction|].
    destruct (pyeqb_spec k k'); simpl; [congruence|].
    f_equal. apply IH. destruct I; [congruence|auto].
  Qed.

  Lemma dkeys_ddel : forall d k x, NoDup (dkeys d) ->
    (In x (dkeys (ddel d k)) <-> x <> k /\ In x (dkeys d)).
  Proof.
    induction d as [|[k' v'] d IH]; simpl; intros k x N; [tauto|].
    inversion N; subst. destruct (pyeqb_spec k k'); simpl.
    - subst. split; [intros H|intros [H [E|E]]; [congruence|auto]].
      split; [|auto]. intros ->. contradiction.
    - fold (dkeys (ddel d k)). rewrite IH by auto. split.
      + intros [E|[E1 E2]]; [split; [congruence|auto]|auto].
      + intros [E1 [E2|E2]]; auto.
  Qed.

  Lemma NoDup_ddel : forall d k, NoDup (dkeys d) -> NoDup (dkeys (ddel d k)).
  Proof.
    induction d as [|[k' v'] d IH]; simpl; intros k N; auto.
    inversion N; subst. destruct (pyeqb_spec k k'); simpl; auto.
    constructor; auto. fold (dkeys (ddel d k)). rewrite dkeys_ddel by auto. tauto.
  Qed.

  Lemma dget_ddel_other : forall d k k2, k <> k2 -> dget (ddel d k) k2 = dget d k2.
  Proof.
    induction d as [|[k' v'] d IH]; simpl; intros k k2 N; auto.
    destruct (pyeqb_spec k k'); simpl.
    - destruct (pyeqb_spec k2 k'); congruence.
    - destruct (pyeqb_spec k2 k'); auto.
  Qed.

  Lemma dget_ddel_same : forall d k, NoDup (dkeys d) -> dget (ddel d k) k = None.
  Proof.
    intros d k N. apply dget_None. rewrite dkeys_ddel by auto. tauto.
  Qed.
End Dict.

(** Membership in a Python list/set with Boolean result. *)
Definition pymem {K} {EK : PyEq K} (k : K) (l : list K) : bool := existsb (pyeqb k) l.

Lemma pymem_true : forall K {EK : PyEq K} (k : K) l, pymem k l = true <-> In k l.
Proof.
  intros K EK k l. unfold pymem. rewrite existsb_exists. split.
  - intros [x [I E]]. destruct (pyeqb_spec k x); [now subst|discriminate].
  - intros I. exists k. split; auto. apply pyeqb_refl.
Qed.

Lemma pymem_false : forall K {EK : PyEq K} (k : K) l, pymem k l = false <-> ~ In k l.
Proof.
  intros K EK k l. generalize (pymem_true k l). destruct (pymem k l); intros [H1 H2]; split.
  - discriminate.
  - intros N. elim N. auto.
  - intros _ I. specialize (H2 I). discriminate.
  - auto.
Qed.

(** [l.remove(k)] of a list: first occurrence. *)
Fixpoint pyremove {K} {EK : PyEq K} (k : K) (l : list K) : list K :=
  match l with
  | [] => []
  | x :: r => if pyeqb k x then r else x :: pyremove k r
  end.

Lemma pyremove_In : forall K {EK : PyEq K} (k : K) l x,
  NoDup l -> (In x (pyremove k l) <-> x <> k /\ In x l).
Proof.
  induction l as [|y l IH]; simpl; intros x N; [tauto|].
  inversion N; subst. destruct (pyeqb_spec k y); simpl.
  - subst. split; [intros H; split; auto; intros ->; contradiction|].
    intros [H [E|E]]; [congruence|auto].
  - rewrite IH by auto. split; [intros [E|[E1 E2]]; [split; [congruence|auto]|auto]|].
    intros [E1 [E2|E2]]; auto.
Qed.

Lemma pyremove_NoDup : forall K {EK : PyEq K} (k : K) l, NoDup l -> NoDup (pyremove k l).
Proof.
  induction l as [|y l IH]; simpl; intros N; auto.
  inversion N; subst. destruct (pyeqb_spec k y); auto.
  constructor; auto. rewrite pyremove_In by auto. tauto.
Qed.

Lemma pyremove_incl : forall K {EK : PyEq K} (k : K) l x, In x (pyremove k l) -> In x l.
Proof.
  induction l as [|y l IH]; simpl; intros x H; auto.
  destruct (pyeqb_spec k y); simpl in *; auto. destruct H; auto.
Qed.

(** [l[i] = v] for a list. *)
Fixpoint lset {A} (l : list A) (i : nat) (v : A) : list A :=
  match l, i with
  | [], _ => []
  | _ :: r, 0 => v :: r
  | x :: r, S i => x :: lset r i v
  end.

Lemma lset_length : forall A (l : list A) i v, length (lset l i v) = length l.
Proof. induction l; destruct i; simpl; auto. Qed.

Lemma lset_nth : forall A (l : list A) i j v d,
  nth j (lset l i v) d = if Nat.eqb i j then (if Nat.ltb i (length l) then v else d) else nth j l d.
Proof.
  induction l as [|x l IH]; intros i j v d.
  - simpl. destruct (Nat.eqb i j), i, j; auto.
  - destruct i, j; simpl; auto. rewrite IH. reflexivity.
Qed.

Lemma lset_nth_error : forall A (l : list A) i j v,
  nth_error (lset l i v) j =
  if Nat.eqb i j then (if Nat.ltb i (length l) then Some v else None) else nth_error l j.
Proof.
  induction l as [|x l IH]; intros i j v.
  - simpl. destruct (Nat.eqb_spec i j); destruct j; auto.
  - destruct i, j; simpl; auto. rewrite IH. reflexivity.
Qed.

Definition sumZ (l : list Z) : Z := fold_right Z.add 0%Z l.

Lemma sumZ_app : forall l1 l2, sumZ (l1 ++ l2) = (sumZ l1 + sumZ l2)%Z.
Proof. induction l1; simpl; intros; auto. rewrite IHl1. lia. Qed.

Lemma sumZ_nonneg : forall l, Forall (fun x => (0 <= x)%Z) l -> (0 <= sumZ l)%Z.
Proof. induction 1; simpl; lia. Qed.
