(** Facts about tours used for C33 and C34. *)
From Coq Require Import List Bool Arith ZArith Lia Permutation.
From Verif Require Import Py PyList TspModel.
Import ListNotations.

(** * Legs of a path *)
Section Legs.
Variable d : nat -> nat -> Z.

(** The lengths of the legs of a path. *)
Fixpoint legs (p : list nat) : list Z :=
  match p with
  | a :: (b :: _) as r => d a b :: legs r
  | _ => []
  end.

Lemma legs_cons : forall a b r, legs (a :: b :: r) = d a b :: legs (b :: r).
Proof. reflexivity. Qed.

Lemma legs_length : forall p, length (legs p) = length p - 1.
Proof. induction p as [|a [|b r] IH]; auto. rewrite legs_cons. cbn [length] in *. lia. Qed.

Lemma legs_app : forall l1 a l2, legs (l1 ++ a :: l2) = legs (l1 ++ [a]) ++ legs (a :: l2).
Proof.
  induction l1 as [|x l1 IH]; intros a l2; [reflexivity|].
  destruct l1 as [|y l1]; [reflexivity|]. cbn [app] in *. rewrite !legs_cons. cbn [app]. f_equal. apply IH.
Qed.

Lemma legs_app2 : forall l1 a b l2, legs (l1 ++ a :: b :: l2) = legs (l1 ++ [a]) ++ d a b :: legs (b :: l2).
Proof. intros. rewrite legs_app. reflexivity. Qed.

Lemma legs_nth : forall p k x y, nth_error p k = Some x -> nth_error p (S k) = Some y -> nth_error (legs p) k = Some (d x y).
Proof.
  induction p as [|a p IH]; intros k x y X Y; [destruct k; discriminate|].
  destruct p as [|b r]; [destruct k; [discriminate|destruct k; discriminate]|].
  rewrite legs_cons. destruct k as [|k]; cbn [nth_error] in *.
  - congruence.
  - apply (IH k); auto.
Qed.

Lemma legs_nth_none : forall p k, length p <= S k -> nth_error (legs p) k = None.
Proof. intros p k H. apply nth_error_None. rewrite legs_length. lia. Qed.

Hypothesis sym : forall a b, d a b = d b a.

Lemma legs_rev : forall p, legs (rev p) = rev (legs p).
Proof.
  induction p as [|a [|b r] IH]; auto. rewrite legs_cons.
  change (rev (a :: b :: r)) with ((rev r ++ [b]) ++ [a]).
  rewrite <- app_assoc. cbn [app]. rewrite legs_app2. cbn [rev] in *. rewrite IH.
  cbn [legs]. now rewrite sym.
Qed.

End Legs.

Lemma sumZ_cons : forall a l, sumZ (a :: l) = (a + sumZ l)%Z.
Proof. reflexivity. Qed.
Lemma sumZ_one : forall a, sumZ [a] = a.
Proof. intros. rewrite sumZ_cons. apply Z.add_0_r. Qed.

Lemma sumZ_rev : forall l, sumZ (rev l) = sumZ l.
Proof. induction l as [|a l IH]; auto. cbn [rev]. rewrite sumZ_app, IH, sumZ_one, sumZ_cons. lia. Qed.

Lemma sumZ_lset : forall l i v x, nth_error l i = Some x -> sumZ (lset l i v) = (sumZ l - x + v)%Z.
Proof.
  induction l as [|a l IH]; intros [|i] v x H; cbn [lset nth_error] in *; try discriminate.
  - injection H as ->. rewrite !sumZ_cons. lia.
  - rewrite !sumZ_cons, (IH i v x H). lia.
Qed.

Lemma lget_nth' : forall B (l : list B) i d, i < length l -> lget l i = Ok (nth i l d).
Proof. intros B l i d H. apply lget_ok. now apply nth_error_nth'. Qed.

Lemma last_of_snoc : forall B (l : list B) x, last_of (l ++ [x]) = Ok x.
Proof. intros. unfold last_of. rewrite rev_app_distr. reflexivity. Qed.

Lemma dset_absent : forall V (m : list (nat * V)) k v, ~ In k (dkeys m) -> dset m k v = m ++ [(k, v)].
Proof.
  induction m as [|[k' v'] m IH]; intros k v H; auto. cbn in *.
  destruct (Nat.eqb_spec k k'); [subst; tauto|]. f_equal. apply IH. tauto.
Qed.

(** * The index tables *)
Section Tables.
Context {P : Type}.
Implicit Types t : tsp (P:=P).

Lemma inner_iff : forall t i, inner t i = true <-> i <> t_start t /\ i <> t_end t.
Proof.
  intros t i. unfold inner. rewrite andb_true_iff, !negb_true_iff, !Nat.eqb_neq. tauto.
Qed.

Lemma ind_In : forall t i, In i (ind_in_permutation t) <-> i < t_n t /\ i <> t_start t /\ i <> t_end t.
Proof.
  intros t i. unfold ind_in_permutation. rewrite filter_In, inner_iff, in_seq. intuition lia.
Qed.

Lemma ind_NoDup : forall t, NoDup (ind_in_permutation t).
Proof. intros. apply NoDup_filter, seq_NoDup. Qed.

Lemma dict_fold : forall t xs l, NoDup (l ++ xs) ->
  fold_left (indices_turn t) xs (combine l (seq 0 (length l)), length l) =
  (combine (l ++ filter (inner t) xs) (seq 0 (length (l ++ filter (inner t) xs))), length (l ++ filter (inner t) xs)).
Proof.
  intros t. induction xs as [|x xs IH]; intros l N; cbn [fold_left filter]; [now rewrite app_nil_r|].
  unfold indices_turn at 2. destruct (inner t x); cbn [fst snd].
  - rewrite dset_absent.
    2:{ unfold dkeys. rewrite combine_map_fst by now rewrite seq_length. intros I. apply NoDup_remove_2 in N.
        apply N. apply in_or_app; auto. }
    replace (combine l (seq 0 (length l)) ++ [(x, length l)]) with (combine (l ++ [x]) (seq 0 (length (l ++ [x])))).
    2:{ rewrite app_length. cbn [length]. rewrite Nat.add_1_r, seq_S, combine_app by now rewrite seq_length. reflexivity. }
    replace (S (length l)) with (length (l ++ [x])) by (rewrite app_length; cbn; lia).
    rewrite IH by (rewrite <- app_assoc; exact N). rewrite <- app_assoc. reflexivity.
  - apply IH. now apply NoDup_remove_1 in N.
Qed.

Lemma dict_eq : forall t, indices_dict t = combine (ind_in_permutation t) (seq 0 (length_permutation t)).
Proof.
  intros t. unfold indices_dict. change ([] : list (nat * nat), 0) with (combine ([] : list nat) (seq 0 (length ([] : list nat))), length ([] : list nat)).
  rewrite dict_fold by apply seq_NoDup. reflexivity.
Qed.

Lemma dget_combine : forall (l : list nat) s k c, NoDup l ->
  (dget (combine l (seq s (length l))) k = Some (s + c) <-> nth_error l c = Some k).
Proof.
  induction l as [|x l IH]; intros s k c N; cbn [combine length seq dget].
  - destruct c; cbn; split; discriminate.
  - inversion N; subst. unfold pyeqb, PyEq_nat. destruct (Nat.eqb_spec k x) as [ -> |NE].
    + destruct c as [|c]; cbn [nth_error].
      * rewrite Nat.add_0_r. split; auto.
      * split; [intros E; injection E; lia|]. intros E. apply nth_error_In in E. contradiction.
    + destruct c as [|c]; cbn [nth_error].
      * split; [|congruence]. intros E. exfalso. rewrite Nat.add_0_r in E.
        assert (F : forall (l : list nat) s0, dget (combine l (seq s0 (length l))) k = Some s -> s0 <= s).
        { clear. induction l as [|y l IH]; intros s0 E; cbn in E; [discriminate|].
          destruct (k =? y); [injection E; lia|]. apply IH in E. lia. }
        apply F in E. lia.
      * replace (s + S c) with (S s + c) by lia. apply IH. exact H2.
Qed.

Lemma dict_get : forall t k c, dgetE (indices_dict t) k = Ok c <-> nth_error (ind_in_permutation t) c = Some k.
Proof.
  intros t k c. rewrite dict_eq. unfold dgetE, length_permutation.
  rewrite <- (dget_combine _ 0 k c (ind_NoDup t)). cbn [plus].
  destruct (dget _ k) as [v|]; split; congruence.
Qed.

Lemma convert_inv : forall t f p, convert_from0 t f = Ok p <-> convert_to0 t p = Ok f.
Proof.
  intros t f p. unfold convert_from0, convert_to0. rewrite !mapM_ok.
  assert (G : forall f p, Forall2 (fun x y => lget (ind_in_permutation t) x = Ok y) f p <->
              Forall2 (fun x y => dgetE (indices_dict t) x = Ok y) p f).
  { clear f p. induction f as [|x f IH]; intros [|y p]; split; intros H; try constructor; inversion H; subst.
    - apply dict_get. now apply lget_ok.
    - now apply IH.
    - apply lget_ok. now apply dict_get.
    - now apply IH. }
  apply G.
Qed.

End Tables.

(** * Evaluation *)
Section Eval.
Context {P : Type}.
Variable len : P -> P -> Z.
Hypothesis sym : forall p q, len p q = len q p.
Variable p0 : P.
Implicit Types t : tsp (P:=P).

(** The distance between two nodes. *)
Definition between t (a b : nat) : Z := len (nth a (t_pts t) p0) (nth b (t_pts t) p0).

Lemma between_sym : forall t a b, between t a b = between t b a.
Proof. intros. apply sym. Qed.

Lemma dist_ok : forall t a b, a < length (t_pts t) -> b < length (t_pts t) -> dist len t a b = Ok (between t a b).
Proof.
  intros t a b A B. unfold dist. rewrite (lget_nth' _ _ a p0), (lget_nth' _ _ b p0) by assumption. reflexivity.
Qed.

Definition in_pts t (l : list nat) : Prop := forall x, In x l -> x < length (t_pts t).

Lemma fold_lengths : forall t l, in_pts t l -> t_start t < length (t_pts t) ->
  forall b, nth_error l 0 = Some b ->
  forall k, k < length l ->
  foldM (length_turn len t l) ([between t (t_start t) b], between t (t_start t) b) (seq 0 k) =
  Ok (legs (between t) (t_start t :: firstn (S k) l), sumZ (legs (between t) (t_start t :: firstn (S k) l))).
Proof.
  intros t l I Is b B. induction k as [|k IH]; intros H.
  - destruct l as [|c l]; [discriminate|]. injection B as ->. cbn [firstn legs]. rewrite sumZ_one. reflexivity.
  - rewrite seq_S, foldM_app, IH by lia. cbn [bind foldM plus].
    destruct (nth_error l k) as [x|] eqn:X; [|apply nth_error_None in X; lia].
    destruct (nth_error l (S k)) as [y|] eqn:Y; [|apply nth_error_None in Y; lia].
    unfold length_turn. unfold lget. rewrite X, Nat.add_1_r, Y. cbn [bind].
    rewrite dist_ok by (apply I; eapply nth_error_In; eauto). cbn [bind fst snd].
    rewrite (firstn_snoc _ _ Y). rewrite (firstn_snoc l _ X). rewrite <- app_assoc. cbn [app].
    change (t_start t :: firstn k l ++ [x; y]) with ((t_start t :: firstn k l) ++ x :: y :: []).
    rewrite legs_app2. cbn [legs]. rewrite sumZ_app. rewrite sumZ_one. reflexivity.
Qed.

Lemma compute_length_ok : forall t l, in_pts t l -> t_start t < length (t_pts t) -> t_end t < length (t_pts t) ->
  length l = length_permutation t -> l <> [] ->
  compute_length len t l = Ok (legs (between t) (t_start t :: l ++ [t_end t]),
                               sumZ (legs (between t) (t_start t :: l ++ [t_end t]))).
Proof.
  intros t l I Is Ie L N. unfold compute_length. rewrite <- L.
  destruct (nth_error l 0) as [b|] eqn:B; [|apply nth_error_None in B; destruct l; [congruence|cbn in B; lia]].
  unfold lget at 1. rewrite B. cbn [bind]. rewrite dist_ok by (auto; apply I; eapply nth_error_In; eauto). cbn [bind].
  assert (0 < length l) by (destruct l; [congruence|cbn; lia]).
  rewrite (fold_lengths t l I Is b B) by lia. cbn [bind fst snd].
  replace (S (length l - 1)) with (length l) by lia. rewrite firstn_all.
  destruct (exists_last N) as [l1 [z E]]. rewrite E. rewrite last_of_snoc. cbn [bind].
  rewrite dist_ok by (auto; apply I; rewrite E; apply in_or_app; simpl; auto). cbn [bind].
  rewrite between_sym. rewrite <- app_assoc. cbn [app].
  change (t_start t :: l1 ++ [z; t_end t]) with ((t_start t :: l1) ++ z :: t_end t :: []).
  rewrite legs_app2. cbn [legs app]. rewrite sumZ_app. rewrite sumZ_one. reflexivity.
Qed.

Lemma fold_lengths_np : forall t l, in_pts t l -> t_start t < length (t_pts t) ->
  forall b ls, nth_error l 0 = Some b -> length ls = t_n t ->
  forall k, k < length l -> k <= t_n t ->
  exists ls', foldM (length_np_turn len t l) (ls, between t (t_start t) b) (seq 0 k) =
  Ok (ls', sumZ (legs (between t) (t_start t :: firstn (S k) l))) /\ length ls' = t_n t.
Proof.
  intros t l I Is b ls B Ln. induction k as [|k IH]; intros H Hk.
  - destruct l as [|c l]; [discriminate|]. injection B as ->. exists ls. split; auto. cbn [firstn legs]. rewrite sumZ_one. reflexivity.
  - destruct IH as [ls1 [E1 L1]]; [lia|lia|]. rewrite seq_S, foldM_app, E1. cbn [bind foldM plus].
    destruct (nth_error l k) as [x|] eqn:X; [|apply nth_error_None in X; lia].
    destruct (nth_error l (S k)) as [y|] eqn:Y; [|apply nth_error_None in Y; lia].
    unfold length_np_turn. unfold lget. rewrite X, Nat.add_1_r, Y. cbn [bind].
    rewrite dist_ok by (apply I; eapply nth_error_In; eauto). cbn [bind fst snd].
    unfold lput. destruct (Nat.ltb_spec k (length ls1)); [|lia]. cbn [bind].
    eexists. split; [|rewrite lset_length; exact L1].
    rewrite (firstn_snoc _ _ Y). rewrite (firstn_snoc l _ X). rewrite <- app_assoc. cbn [app].
    change (t_start t :: firstn k l ++ [x; y]) with ((t_start t :: firstn k l) ++ x :: y :: []).
    rewrite legs_app2. cbn [legs]. rewrite sumZ_app. rewrite sumZ_one. reflexivity.
Qed.

Lemma length_permutation_le : forall t, length_permutation t <= t_n t.
Proof.
  intros t. unfold length_permutation, ind_in_permutation. rewrite <- (seq_length (t_n t) 0) at 2.
  generalize (seq 0 (t_n t)). induction l as [|x l IH]; cbn; auto. destruct (inner t x); cbn; lia.
Qed.

Lemma compute_length_np_ok : forall t l, in_pts t l -> t_start t < length (t_pts t) -> t_end t < length (t_pts t) ->
  length l = length_permutation t -> l <> [] ->
  exists ls, compute_length_np len t l = Ok (ls, sumZ (legs (between t) (t_start t :: l ++ [t_end t]))).
Proof.
  intros t l I Is Ie L N. unfold compute_length_np. rewrite <- L.
  pose proof (length_permutation_le t) as Ln.
  destruct (nth_error l 0) as [b|] eqn:B; [|apply nth_error_None in B; destruct l; [congruence|cbn in B; lia]].
  unfold lget at 1. rewrite B. cbn [bind]. rewrite dist_ok by (auto; apply I; eapply nth_error_In; eauto). cbn [bind].
  assert (0 < length l) by (destruct l; [congruence|cbn; lia]).
  unfold lput at 1. rewrite repeat_length. destruct (Nat.ltb_spec 0 (t_n t)); [|lia]. cbn [bind].
  destruct (fold_lengths_np t l I Is b (lset (repeat 0%Z (t_n t)) 0 (between t (t_start t) b)) B) with (k := length l - 1)
    as [ls [E Ll]]; [now rewrite lset_length, repeat_length|lia|lia|].
  rewrite E. cbn [bind fst snd].
  replace (S (length l - 1)) with (length l) by lia. rewrite firstn_all.
  destruct (exists_last N) as [l1 [z E1]]. rewrite E1. rewrite last_of_snoc. cbn [bind].
  rewrite dist_ok by (auto; apply I; rewrite E1; apply in_or_app; simpl; auto). cbn [bind].
  unfold lput. destruct (Nat.ltb_spec (t_n t - 1) (length ls)); [|lia]. cbn [bind].
  eexists. rewrite between_sym. rewrite <- app_assoc. cbn [app].
  change (t_start t :: l1 ++ [z; t_end t]) with ((t_start t :: l1) ++ z :: t_end t :: []).
  rewrite legs_app2. cbn [legs app]. rewrite sumZ_app. rewrite sumZ_one. reflexivity.
Qed.

End Eval.
