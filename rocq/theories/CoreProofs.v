(** Lemmas about CoreModel. *)
From Coq Require Import String.
From Coq Require Import List Bool Arith ZArith Lia.
From Verif Require Import Py CoreModel.
Import ListNotations.
Set Implicit Arguments.

Lemma tv_consistent : forall V (vzero : V) vneg,
  (forall x, vneg (vneg x) = x) -> vneg vzero = vzero ->
  forall r c, let v := TransitionValue vzero vneg r c in
    tv_cost v = vneg (tv_reward v) /\ tv_reward v = vneg (tv_cost v).
Proof.
  intros V z n Hn Hz [r|] [c|]; simpl; unfold reward_to_cost, cost_to_reward;
    split; rewrite ?Hn, ?Hz; reflexivity.
Qed.

Lemma match_loop_filter : forall D S (chk : S -> D -> bool) d l acc,
  fold_left (fun ms s => if chk s d then ms ++ [s] else ms) l acc
  = acc ++ filter (fun s => chk s d) l.
Proof.
  induction l as [|s l IH]; simpl; intros acc.
  - now rewrite app_nil_r.
  - destruct (chk s d).
    + rewrite IH, <- app_assoc. reflexivity.
    + apply IH.
Qed.
