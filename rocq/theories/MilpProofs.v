(** Lemmas about linear expressions. *)
From Coq Require Import List Bool ZArith Lia Permutation.
From Verif Require Import Py PyList TspProofs MilpModel.
Import ListNotations.
Open Scope Z_scope.

Section Milp.
Context {X : Type}.
Implicit Types (a : X -> Z) (e : expr X).

Lemma eval_const : forall a k, eval a (econst k) = k.
Proof. intros. reflexivity. Qed.
Lemma eval_var : forall a x, eval a (evar x) = a x.
Proof. intros. unfold eval, evar. cbn [fst snd map]. rewrite sumZ_cons. cbn [fst snd]. change (sumZ []) with 0. lia. Qed.
Lemma eval_scale : forall a k e, eval a (escale k e) = k * eval a e.
Proof.
  intros a k [ts c]. unfold eval, escale. cbn [fst snd]. rewrite Z.mul_add_distr_l. f_equal.
  induction ts as [|[w x] ts IH]; cbn [map]; [cbn; lia|]. rewrite !sumZ_cons, IH. cbn [fst snd]. lia.
Qed.
Lemma eval_add : forall a e1 e2, eval a (eadd e1 e2) = eval a e1 + eval a e2.
Proof. intros a [t1 c1] [t2 c2]. unfold eval, eadd. cbn [fst snd]. rewrite map_app, sumZ_app. lia. Qed.
Lemma eval_sum : forall a l, eval a (esum l) = sumZ (map (eval a) l).
Proof.
  intros a l. induction l as [|e l IH]; [reflexivity|]. cbn [esum fold_right map]. rewrite sumZ_cons, <- IH. apply eval_add.
Qed.
Lemma eval_sum_map : forall B a (f : B -> expr X) l, eval a (esum (map f l)) = sumZ (map (fun b => eval a (f b)) l).
Proof. intros. rewrite eval_sum, map_map. reflexivity. Qed.
End Milp.

Lemma sumZ_map_zero : forall B (f : B -> Z) l, (forall b, In b l -> f b = 0) -> sumZ (map f l) = 0.
Proof.
  induction l as [|b l IH]; intros H; [reflexivity|]. cbn [map]. rewrite sumZ_cons, IH, (H b); [lia|now left|].
  intros. apply H. now right.
Qed.
(** A sum of numbers that are not negative and is 1 has exactly one term, which is 1. *)
Lemma sum_one : forall B (f : B -> Z) l, (forall b, In b l -> 0 <= f b) -> NoDup l ->
  sumZ (map f l) = 1 -> exists b, In b l /\ f b = 1 /\ forall c, In c l -> c <> b -> f c = 0.
Proof.
  induction l as [|b l IH]; intros P N H; [discriminate|]. cbn [map] in H. rewrite sumZ_cons in H.
  assert (S : 0 <= sumZ (map f l)).
  { clear -P. induction l as [|c l IH]; [cbn; lia|]. cbn [map]. rewrite sumZ_cons.
    assert (0 <= f c) by (apply P; right; now left).
    assert (0 <= sumZ (map f l)); [|lia]. apply IH. intros x [<-|I]; apply P; [now left|right; now right]. }
  pose proof (P b (or_introl eq_refl)) as Pb. inversion N; subst.
  destruct (Z.eq_dec (f b) 0) as [E0|E0].
  - destruct IH as (c & Ic & Fc & U); auto; [intros; apply P; now right|lia|]. exists c.
    split; [now right|]. split; auto. intros d [<-|Id] Ne; auto.
  - exists b. split; [now left|]. split; [lia|]. assert (Z0 : sumZ (map f l) = 0) by lia.
    intros c [<-|Ic] Ne; [congruence|]. clear -Z0 P Ic.
    induction l as [|d l IH]; [destruct Ic|]. cbn [map] in Z0. rewrite sumZ_cons in Z0.
    assert (S : 0 <= sumZ (map f l)).
    { clear -P. induction l as [|c l IH]; [cbn; lia|]. cbn [map]. rewrite sumZ_cons.
      assert (0 <= f c) by (apply P; right; right; now left).
      assert (0 <= sumZ (map f l)); [|lia]. apply IH. intros x [<-|[<-|I]]; apply P; [now left|right; now left|right; right; now right]. }
    assert (0 <= f d) by (apply P; right; now left).
    destruct Ic as [<-|Ic]; [lia|]. apply IH; auto; [|lia]. intros x [<-|I]; apply P; [now left|right; now right].
Qed.
(** The sum of an indicator. *)
Lemma sum_indicator : forall B (f : B -> Z) l b, NoDup l -> In b l -> (forall c, In c l -> c <> b -> f c = 0) ->
  sumZ (map f l) = f b.
Proof.
  induction l as [|c l IH]; intros b N I U; [destruct I|]. cbn [map]. rewrite sumZ_cons. inversion N; subst.
  destruct I as [->|I].
  - rewrite sumZ_map_zero; [lia|]. intros d Id. apply U; [now right|]. intros ->. contradiction.
  - rewrite (IH b); auto; [|intros; apply U; auto; now right]. rewrite (U c); [lia|now left|]. intros ->. contradiction.
Qed.
