(** Proofs about ReserveModel.v. *)
From Coq Require Import String.
From Coq Require Import List Bool Arith ZArith QArith Lia Permutation.
From Coq Require Import ZifyBool ZifyNat.
From Verif Require Import Py PyList SgsModel SgsProps SatProps ReserveModel.
Import ListNotations.
Local Open Scope nat_scope.

Lemma zrange_In : forall a b t, In t (zrange a b) <-> (a <= t < b)%Z.
Proof.
  intros a b t. unfold zrange. rewrite in_map_iff. split.
  - intros (i & <- & I). apply in_seq in I. lia.
  - intros H. exists (Z.to_nat (t - a)). split; [lia|]. apply in_seq. lia.
Qed.

Lemma zrange_NoDup : forall a b, NoDup (zrange a b).
Proof.
  intros a b. unfold zrange. apply FinFun.Injective_map_NoDup; [intros x y H; lia|apply seq_NoDup].
Qed.

Lemma dkeys_same : forall K V (E : PyEq K) (d : list (K * V)) k v x, dget d k = Some x -> dkeys (dset d k v) = dkeys d.
Proof.
  intros K V E d k v x. induction d as [|[k0 v0] d IH]; cbn; [discriminate|].
  destruct (pyeqb k k0) eqn:B; cbn; [destruct (pyeqb_spec k k0); congruence|]. intros H. f_equal. apply IH. exact H.
Qed.

Section Table.
Variables (p : rcpsp) (modes : list nat) (n M : nat) (sch : schedule) (c : list (string * Z)).
Hypothesis T : tasks p modes n.
Hypothesis F : Permutation (map fst sch) (seq 1 (n + 2)).
Hypothesis Cc : p_res p = Constant c.

Local Notation names := (dkeys c).

(** The table holds [f r t] for every resource and every time before [M]. *)
Definition holds (av : list (string * list Z)) (f : string -> nat -> Z) : Prop :=
  dkeys av = names /\
  forall r, In r names -> exists row, dget av r = Some row /\ length row = M /\ forall t, t < M -> nth_error row t = Some (f r t).

Lemma holds_ext : forall av f g, holds av f -> (forall r t, In r names -> t < M -> f r t = g r t) -> holds av g.
Proof.
  intros av f g [K H] E. split; [exact K|]. intros r Ir. destruct (H r Ir) as (row & D & L & V). exists row.
  split; [exact D|]. split; [exact L|]. intros t Lt. rewrite (V t Lt). now rewrite E.
Qed.

Lemma take_ok : forall av f a k r t x, holds av f -> In r names -> (0 <= t < Z.of_nat M)%Z -> need_of p a k r = Ok x ->
  exists av', take p a k r av t = Ok av' /\
    holds av' (fun r' t' => if pyeqb r r' && (Z.of_nat t' =? t)%Z then (f r' t' - x)%Z else f r' t').
Proof.
  intros av f a k r t x [K H] Ir Ht N. destruct (H r Ir) as (row & D & L & V). unfold take, dgetE. rewrite D. cbn [bind].
  unfold at_index. replace (t <? 0)%Z with false by lia. rewrite L.
  replace ((0 <=? t)%Z && (t <? Z.of_nat M)%Z) with true by lia. cbn [bind].
  assert (Lt : Z.to_nat t < M) by lia. unfold lget. rewrite (V _ Lt). cbn [bind]. rewrite N. cbn [bind].
  eexists. split; [reflexivity|]. split.
  - rewrite <- K. eapply dkeys_same. exact D.
  - intros r' Ir'. destruct (pyeqb_spec r r') as [<-|Ne].
    + rewrite dget_dset_same. eexists. split; [reflexivity|]. split; [now rewrite lset_length|]. intros t' Lt'.
      rewrite lset_nth_error. cbn [andb]. destruct (Nat.eqb_spec (Z.to_nat t) t') as [<-|Nt].
      * rewrite L. replace (Z.to_nat t <? M) with true by lia. replace (Z.of_nat (Z.to_nat t) =? t)%Z with true by lia. reflexivity.
      * replace (Z.of_nat t' =? t)%Z with false by lia. apply V. exact Lt'.
    + rewrite (dget_dset_other _ _ Ne). cbn [andb]. apply H. exact Ir'.
Qed.

Lemma names_ok : res_names p = names.
Proof. unfold res_names. now rewrite Cc. Qed.

Lemma names_nodup : NoDup names.
Proof. rewrite <- names_ok. apply (in_names _ (k_instance _ _ _ T)). Qed.

Lemma cells_ok : forall a k e mk t (x : string -> Z), (forall r, In r names -> need_of p a k r = Ok (x r)) ->
  (0 <= t < Z.of_nat M)%Z -> (t < e)%Z -> forall rs av f, NoDup rs -> incl rs names -> holds av f ->
  exists av', foldM (reserve_cell p a k e mk t) av rs = Ok av' /\
    holds av' (fun r' t' => if pymem r' rs && (Z.of_nat t' =? t)%Z then (f r' t' - x r')%Z else f r' t').
Proof.
  intros a k e mk t x N Ht He. induction rs as [|r rs IH]; intros av f Nd Inc H.
  - exists av. split; [reflexivity|]. exact H.
  - inversion Nd as [|? ? Nr Nd']; subst. cbn [foldM]. assert (Ir : In r names) by (apply Inc; now left).
    destruct (take_ok av f a k r t (x r) H Ir Ht (N r Ir)) as (av1 & E1 & H1).
    unfold reserve_cell at 1. rewrite E1. cbn [bind]. replace (t =? e)%Z with false by lia. rewrite andb_false_r. cbn [bind].
    destruct (IH av1 _ Nd' (fun y I => Inc y (or_intror I)) H1) as (av' & E' & H').
    exists av'. split; [exact E'|]. eapply holds_ext; [exact H'|]. intros r' t' Ir' Lt'. cbv beta.
    unfold pymem at 2. cbn [existsb]. fold (pymem r' rs). destruct (pyeqb_spec r' r) as [->|Ne].
    + replace (pymem r rs) with false by (symmetry; now apply pymem_false). cbn [andb orb].
      destruct (pyeqb_spec r r); [reflexivity|congruence].
    + cbn [orb]. destruct (pyeqb_spec r r'); [congruence|]. reflexivity.
Qed.

Lemma times_ok : forall a k e mk (x : string -> Z), (forall r, In r names -> need_of p a k r = Ok (x r)) ->
  forall ts av f, NoDup ts -> (forall t, In t ts -> (0 <= t < Z.of_nat M)%Z /\ (t < e)%Z) -> holds av f ->
  exists av', foldM (fun av t => foldM (reserve_cell p a k e mk t) av (dkeys av)) av ts = Ok av' /\
    holds av' (fun r' t' => if existsb (Z.eqb (Z.of_nat t')) ts then (f r' t' - x r')%Z else f r' t').
Proof.
  intros a k e mk x N. induction ts as [|t ts IH]; intros av f Nd R H.
  - exists av. split; [reflexivity|exact H].
  - inversion Nd as [|? ? Nt Nd']; subst. cbn [foldM]. destruct (R t (or_introl eq_refl)) as [R1 R2].
    pose proof (proj1 H) as K. rewrite K.
    destruct (cells_ok a k e mk t x N R1 R2 names av f names_nodup (incl_refl _) H) as (av1 & E1 & H1).
    rewrite E1. cbn [bind].
    destruct (IH av1 _ Nd' (fun y I => R y (or_intror I)) H1) as (av' & E' & H').
    exists av'. split; [exact E'|]. eapply holds_ext; [exact H'|]. intros r' t' Ir' Lt'. cbv beta. cbn [existsb].
    replace (pymem r' names) with true by (symmetry; now apply pymem_true). cbn [andb].
    destruct (Z.eqb_spec (Z.of_nat t') t) as [<-|Ne]; cbn [orb]; [|reflexivity].
    replace (existsb (Z.eqb (Z.of_nat t')) ts) with false; [reflexivity|].
    symmetry. apply not_true_iff_false. intros X. apply existsb_exists in X. destruct X as (y & I & Ey). apply Z.eqb_eq in Ey. subst. contradiction.
Qed.

Hypothesis inside : forall a s e, In (a, (s, e)) sch -> (0 <= s)%Z /\ (e <= Z.of_nat M)%Z.
Hypothesis ends : forall a s e, a = 1 \/ a = n + 2 -> In (a, (s, e)) sch -> (e <= s)%Z.

Lemma task_ok : forall mk a av f, 1 <= a <= n + 2 -> holds av f ->
  exists av', reserve_task p modes sch mk av a = Ok av' /\ holds av' (fun r t => (f r t - part p modes sch (Z.of_nat t) r a)%Z).
Proof.
  intros mk a av f Ha H. unfold reserve_task. destruct (sch_get n sch F a Ha) as (s & e & D & I).
  rewrite (k_sink _ _ _ T). destruct ((a =? 1) || (a =? n + 2)) eqn:B.
  - exists av. split; [reflexivity|]. eapply holds_ext; [exact H|]. intros r t _ _. unfold part. rewrite D.
    assert (e <= s)%Z by (eapply ends; [|exact I]; lia).
    replace ((s <=? Z.of_nat t)%Z && (Z.of_nat t <? e)%Z) with false by lia. lia.
  - unfold dgetE. rewrite D. cbn [bind fst snd]. destruct (need_ok p modes n T a Ha) as (k & A & Nk).
    assert (Lk : lget modes (a - 2) = Ok k).
    { destruct a as [|[|a]]; [lia|lia|]. cbn [act_mode] in A. apply lget_ok in A. apply lget_ok. unfold extend_modes in A. cbn [nth_error] in A.
      rewrite nth_error_app1 in A by (rewrite (k_modes _ _ _ T); lia). replace (S (S a) - 2) with a by lia. exact A. }
    destruct a as [|a]; [lia|]. rewrite Lk. cbn [bind].
    destruct (times_ok (S a) k e mk (demand p modes (S a)) (fun r Ir => Nk r (eq_ind_r (fun l => In r l) Ir names_ok))
      (zrange s e) av f (zrange_NoDup s e)) as (av' & E & H').
    { intros t It. apply zrange_In in It. destruct (inside _ _ _ I). lia. }
    { exact H. }
    exists av'. split; [exact E|]. eapply holds_ext; [exact H'|]. intros r t _ _. cbv beta. unfold part. rewrite D.
    destruct ((s <=? Z.of_nat t)%Z && (Z.of_nat t <? e)%Z) eqn:R.
    + replace (existsb (Z.eqb (Z.of_nat t)) (zrange s e)) with true; [reflexivity|]. symmetry. apply existsb_exists.
      exists (Z.of_nat t). split; [apply zrange_In; lia|apply Z.eqb_refl].
    + replace (existsb (Z.eqb (Z.of_nat t)) (zrange s e)) with false; [lia|]. symmetry. apply not_true_iff_false. intros X.
      apply existsb_exists in X. destruct X as (y & It & Ey). apply zrange_In in It. lia.
Qed.

Lemma tasks_ok : forall mk l av f, (forall a, In a l -> 1 <= a <= n + 2) -> holds av f ->
  exists av', foldM (reserve_task p modes sch mk) av l = Ok av' /\
    holds av' (fun r t => (f r t - sumZ (map (part p modes sch (Z.of_nat t) r) l))%Z).
Proof.
  intros mk. induction l as [|a l IH]; intros av f R H.
  - exists av. split; [reflexivity|]. eapply holds_ext; [exact H|]. intros. cbn. lia.
  - cbn [foldM]. destruct (task_ok mk a av f (R a (or_introl eq_refl)) H) as (av1 & E1 & H1). rewrite E1. cbn [bind].
    destruct (IH av1 _ (fun y I => R y (or_intror I)) H1) as (av' & E' & H').
    exists av'. split; [exact E'|]. eapply holds_ext; [exact H'|]. intros r t _ _. cbn [map sumZ fold_right]. fold (sumZ (map (part p modes sch (Z.of_nat t) r) l)). lia.
Qed.

Lemma modes_perm : Permutation (dkeys (p_modes p)) (map fst sch).
Proof.
  symmetry. etransitivity; [exact F|]. apply NoDup_Permutation_bis; [apply seq_NoDup| |].
  - rewrite seq_length. unfold dkeys. rewrite map_length. pose proof (k_sink _ _ _ T) as S0. unfold p_sink in S0. lia.
  - intros a I. apply in_seq in I. destruct (in_task p (k_instance _ _ _ T) a) as (d & m & D & _); [rewrite (k_sink _ _ _ T); lia|].
    apply dget_In in D. apply in_map_iff. exists (a, d). auto.
Qed.

Lemma table_ok : forall mk av, holds av (fun r _ => match dget c r with Some x => x | None => 0%Z end) ->
  exists av', foldM (reserve_task p modes sch mk) av (dkeys (p_modes p)) = Ok av' /\
    holds av' (fun r t => (match dget c r with Some x => x | None => 0%Z end - running p modes sch r (Z.of_nat t))%Z).
Proof.
  intros mk av H. destruct (tasks_ok mk (dkeys (p_modes p)) av (fun r _ => match dget c r with Some x => x | None => 0%Z end)) as (av' & E & H'); [|exact H|].
  - intros a I. apply (Permutation_in _ modes_perm) in I. apply (Permutation_in _ F) in I. apply in_seq in I. lia.
  - exists av'. split; [exact E|]. eapply holds_ext; [exact H'|]. intros r t _ _. cbv beta. f_equal.
    rewrite (sumZ_map_perm _ modes_perm), map_map. unfold running. apply sumZ_map_ext. intros [a [s e]] I. cbn [fst]. unfold part.
    rewrite (In_dget _ _ _ (sch_nodup n sch F) I). reflexivity.
Qed.
End Table.

Lemma nth_error_all : forall (row : list Z) (g : nat -> Z) M, length row = M -> (forall t, t < M -> nth_error row t = Some (g t)) ->
  row = map g (seq 0 M).
Proof.
  intros row g M L H. apply (nth_ext _ _ 0%Z 0%Z); [now rewrite map_length, seq_length|]. intros t Lt. rewrite L in Lt.
  pose proof (H t Lt) as E. apply (nth_error_nth _ _ 0%Z) in E. rewrite E.
  rewrite (nth_indep _ 0%Z (g 0)) by (rewrite map_length, seq_length; lia). rewrite map_nth, seq_nth by lia. reflexivity.
Qed.

Lemma mapM_map : forall A B (f : A -> res B) (g : A -> B) l, (forall x, In x l -> f x = Ok (g x)) -> mapM f l = Ok (map g l).
Proof.
  intros A B f g. induction l as [|x l IH]; intros H; [reflexivity|]. cbn [mapM map]. rewrite H by now left. cbn [bind].
  rewrite IH by (intros; apply H; now right). reflexivity.
Qed.

Lemma sum_swap : forall A B (h : A -> B -> Z) la lb,
  sumZ (map (fun b => sumZ (map (fun a => h a b) la)) lb) = sumZ (map (fun a => sumZ (map (h a) lb)) la).
Proof.
  intros A B h la lb. induction la as [|a la IH].
  - cbn. induction lb as [|b lb IHb]; [reflexivity|]. cbn. exact IHb.
  - cbn [map]. change (sumZ (sumZ (map (h a) lb) :: map (fun a => sumZ (map (h a) lb)) la)) with
      (sumZ (map (h a) lb) + sumZ (map (fun a => sumZ (map (h a) lb)) la))%Z. rewrite <- IH, <- sumZ_map_plus. reflexivity.
Qed.

Lemma sum_window : forall s e d M, (0 <= s <= e)%Z -> (e <= Z.of_nat M)%Z ->
  sumZ (map (fun t => if (s <=? Z.of_nat t)%Z && (Z.of_nat t <? e)%Z then d else 0%Z) (seq 0 M)) = ((e - s) * d)%Z.
Proof.
  intros s e d M Hs He.
  assert (G : forall N, sumZ (map (fun t => if (s <=? Z.of_nat t)%Z && (Z.of_nat t <? e)%Z then d else 0%Z) (seq 0 N)) =
    (Z.max 0 (Z.min e (Z.of_nat N) - s) * d)%Z).
  { induction N as [|N IH]; [cbn [seq map]; cbn; replace (Z.max 0 (Z.min e 0 - s))%Z with 0%Z by lia; lia|].
    rewrite seq_S, map_app, sumZ_app, IH. cbn [map Nat.add].
    match goal with |- context [sumZ [?x]] => change (sumZ [x]) with (x + 0)%Z end.
    destruct ((s <=? Z.of_nat N)%Z && (Z.of_nat N <? e)%Z) eqn:B.
    - replace (Z.max 0 (Z.min e (Z.of_nat (S N)) - s))%Z with (Z.max 0 (Z.min e (Z.of_nat N) - s) + 1)%Z by lia. ring.
    - replace (Z.max 0 (Z.min e (Z.of_nat (S N)) - s))%Z with (Z.max 0 (Z.min e (Z.of_nat N) - s))%Z by lia. ring. }
  rewrite G. f_equal. lia.
Qed.

Lemma sumQ_Z : forall (l : list Z), (sumQ (map inject_Z l) == inject_Z (sumZ l))%Q.
Proof. induction l as [|x l IH]; [reflexivity|]. cbn [map sumQ fold_right]. fold (sumQ (map inject_Z l)). rewrite IH, <- inject_Z_plus. reflexivity. Qed.
