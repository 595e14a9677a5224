From Coq Require Import String.
From Coq Require Import List Bool Arith ZArith QArith Lia.
From Verif Require Import Py CastModel.
Import ListNotations.
Set Implicit Arguments.
Open Scope nat_scope.

(** [wraps ty]: the three container levels above the plain one. *)
Definition wraps (t : ty) : Prop := t = TMemory \/ t = TStrDict \/ t = TList.
Definition unary (t : ty) : Prop := t = TUnion \/ t = TOptional \/ t = TDist \/ wraps t.

(** [up s d]: the two hints are the same written at two levels, [d] being at least as general:
    plain positions ([Union]) may become Memory / StrDict / List. *)
Inductive up : tree -> tree -> Prop :=
| up_other : forall n sub, up (Tree (TOther n) sub) (Tree (TOther n) sub)
| up_same : forall t s d, unary t -> up s d -> up (Tree t [s]) (Tree t [d])
| up_wrap : forall t s d, wraps t -> up s d -> up (Tree TUnion [s]) (Tree t [d])
| up_outcome : forall a b o v i o' v' i', (a = TUnion \/ a = TStrDict) -> (b = a \/ b = TStrDict) ->
    up o o' -> up v v' -> up i i' -> (b = TStrDict \/ o = o') ->
    up (Tree TOutcome [Tree a [o]; Tree a [v]; Tree a [i]])
       (Tree TOutcome [Tree b [o']; Tree b [v']; Tree b [i']]).

Definition castable (v : pv) : bool :=
  match v with PDiscrete _ | PSingle _ | POutcome _ _ _ _ => true | _ => false end.

(** [typed h v]: the value [v] has the shape announced by the hint [h]; memories unbounded. *)
Inductive typed : tree -> pv -> Prop :=
| ty_other : forall n sub v, castable v = false -> typed (Tree (TOther n) sub) v
| ty_union : forall s v, typed s v -> typed (Tree TUnion [s]) v
| ty_opt_none : forall s, typed (Tree TOptional [s]) PNone
| ty_opt : forall s v, typed s v -> typed (Tree TOptional [s]) v
| ty_mem : forall s l, Forall (typed s) l -> typed (Tree TMemory [s]) (PMem None l)
| ty_dict : forall s l, Forall (fun kv => typed s (snd kv)) l -> typed (Tree TStrDict [s]) (PDict l)
| ty_list : forall s l, Forall (typed s) l -> typed (Tree TList [s]) (PList l)
| ty_discrete : forall s l, l <> [] -> Forall (fun ep => typed s (fst ep)) l ->
    typed (Tree TDist [s]) (PDiscrete l)
| ty_single : forall s v, typed s v -> typed (Tree TDist [s]) (PSingle v)
| ty_outcome : forall a o v i po pval t pi,
    typed (Tree a [o]) po -> typed (Tree a [v]) pval -> typed (Tree a [i]) pi ->
    pval <> PNone -> (pi = PNone -> forall l, po <> PDict l) ->   (* as built by the constructor *)
    typed (Tree TOutcome [Tree a [o]; Tree a [v]; Tree a [i]]) (POutcome po pval t pi).

(** [lifted s d v w]: [w] is the value [v] of the hint [s], written for the hint [d].  A value that
    stands alone becomes a memory of one state, the dictionary of the single agent called "agent",
    or a list of one element; everything else is done element by element. *)
Inductive lifted : tree -> tree -> pv -> pv -> Prop :=
| li_same : forall t v, lifted t t v v
| li_mem1 : forall s d v w, lifted s d v w -> lifted (Tree TUnion [s]) (Tree TMemory [d]) v (PMem None [w])
| li_dict1 : forall s d v w, lifted s d v w ->
    lifted (Tree TUnion [s]) (Tree TStrDict [d]) v (PDict [("agent"%string, w)])
| li_list1 : forall s d v w, lifted s d v w -> lifted (Tree TUnion [s]) (Tree TList [d]) v (PList [w])
| li_union : forall s d v w, lifted s d v w -> lifted (Tree TUnion [s]) (Tree TUnion [d]) v w
| li_none : forall s d, lifted (Tree TOptional [s]) (Tree TOptional [d]) PNone PNone
| li_opt : forall s d v w, lifted s d v w -> lifted (Tree TOptional [s]) (Tree TOptional [d]) v w
| li_mem : forall s d l l', Forall2 (lifted s d) l l' ->
    lifted (Tree TMemory [s]) (Tree TMemory [d]) (PMem None l) (PMem None l')
| li_dict : forall s d l l', Forall2 (fun x y => fst x = fst y /\ lifted s d (snd x) (snd y)) l l' ->
    lifted (Tree TStrDict [s]) (Tree TStrDict [d]) (PDict l) (PDict l')
| li_list : forall s d l l', Forall2 (lifted s d) l l' ->
    lifted (Tree TList [s]) (Tree TList [d]) (PList l) (PList l')
| li_discrete : forall s d l l', Forall2 (fun x y => snd x = snd y /\ lifted s d (fst x) (fst y)) l l' ->
    lifted (Tree TDist [s]) (Tree TDist [d]) (PDiscrete l) (PDiscrete l')
| li_single : forall s d v w, lifted s d v w -> lifted (Tree TDist [s]) (Tree TDist [d]) (PSingle v) (PSingle w)
| li_outcome : forall so sv si do_ dv di o v t i o' v' i',
    lifted so do_ o o' -> lifted sv dv v v' -> lifted si di i i' ->
    lifted (Tree TOutcome [so; sv; si]) (Tree TOutcome [do_; dv; di]) (POutcome o v t i) (POutcome o' v' t i').

Lemma ty_eqb_refl : forall t, ty_eqb t t = true.
Proof. destruct t; simpl; auto. apply Nat.eqb_refl. Qed.

Section TreeInd.
  Variable P : tree -> Prop.
  Hypothesis H : forall t sub, Forall P sub -> P (Tree t sub).
  Fixpoint tree_ind2 (x : tree) : P x :=
    match x with
    | Tree t sub =>
        H t ((fix go (l : list tree) : Forall P l :=
                match l with [] => Forall_nil _ | y :: r => Forall_cons _ (tree_ind2 y) (go r) end) sub)
    end.
End TreeInd.

Lemma needed_refl : forall t, cast_needed t t = Ok false.
Proof.
  induction t as [t sub IH] using tree_ind2. simpl. rewrite ty_eqb_refl. simpl.
  induction IH as [|x l Hx Hl IHl]; simpl; auto.
  rewrite Hx. simpl. apply IHl.
Qed.

Lemma cast_refl : forall t v, cast t t v = Ok v.
Proof.
  intros [t sub] v. generalize (needed_refl (Tree t sub)). intros H.
  simpl in H. simpl. rewrite H. reflexivity.
Qed.

Lemma needed_unary : forall t s d,
  cast_needed (Tree t [s]) (Tree t [d]) = cast_needed s d.
Proof.
  intros t s d. simpl. rewrite ty_eqb_refl. simpl.
  destruct (cast_needed s d) as [[|]|]; reflexivity.
Qed.

Lemma needed_wrap : forall t s d, wraps t ->
  cast_needed (Tree TUnion [s]) (Tree t [d]) = Ok true /\
  cast_needed (Tree t [d]) (Tree TUnion [s]) = Ok true.
Proof. intros t s d [ -> | [ -> | -> ]]; split; reflexivity. Qed.

(** Under [up], casting is needed in one direction iff in the other, never fails, and is not
    needed only for equal hints. *)
Lemma up_needed : forall s d, up s d ->
  (s = d) \/ (cast_needed s d = Ok true /\ cast_needed d s = Ok true).
Proof.
  induction 1 as [n sub|t s d U H IH|t s d W H IH|a b o v i o' v' i' Ha Hb Uo IHo Uv IHv Ui IHi D].
  - auto.
  - destruct IH as [ -> |[E1 E2]]; auto. right. rewrite !needed_unary. auto.
  - right. now apply needed_wrap.
  - assert (B : b = a \/ a = TUnion /\ b = TStrDict)
      by (destruct Hb as [ -> | -> ]; auto; destruct Ha as [ -> | -> ]; auto).
    clear Ha Hb D. destruct B as [ -> |[ -> -> ]]; [|right; auto].
    destruct IHo as [ -> |[Eo1 Eo2]].
    + destruct IHv as [ -> |[Ev1 Ev2]].
      * destruct IHi as [ -> |[Ei1 Ei2]]; auto.
        right. cbn [cast_needed ty_eqb negb andb]. rewrite !ty_eqb_refl. cbn [negb andb].
        rewrite !needed_refl, Ei1, Ei2. auto.
      * right. cbn [cast_needed ty_eqb negb andb]. rewrite !ty_eqb_refl. cbn [negb andb].
        rewrite !needed_refl, Ev1, Ev2. auto.
    + right. cbn [cast_needed ty_eqb negb andb]. rewrite !ty_eqb_refl. cbn [negb andb].
      rewrite Eo1, Eo2. auto.
Qed.

(** One step of [cast] once it is known to be needed, for unary hints. *)
Lemma mapM_roundtrip : forall A (f g : A -> res A) (P Q : A -> Prop) (R : A -> A -> Prop) l,
  Forall P l ->
  (forall x, P x -> exists y, f x = Ok y /\ Q y /\ g y = Ok x /\ R x y) ->
  exists l', mapM f l = Ok l' /\ Forall Q l' /\ mapM g l' = Ok l /\ length l' = length l /\ Forall2 R l l'.
Proof.
  intros A f g P Q R l HF HS. induction HF as [|x l Hx Hl IH].
  - exists []. simpl. auto.
  - destruct (HS x Hx) as (y & E1 & E2 & E3 & E4). destruct IH as (l' & F1 & F2 & F3 & F4 & F5).
    exists (y :: l'). simpl. rewrite E1. simpl. rewrite F1. simpl. rewrite E3. simpl. rewrite F3.
    simpl. repeat split; auto.
Qed.

Lemma mk_outcome_dict : forall l1 v t l2, v <> PNone ->
  mk_POutcome (PDict l1) v t (PDict l2) = POutcome (PDict l1) v t (PDict l2).
Proof. intros l1 v t l2 N. unfold mk_POutcome. destruct v; auto; congruence. Qed.

Lemma roundtrip_union : forall s d a b po, (a = TUnion \/ a = TStrDict) -> (b = a \/ b = TStrDict) ->
  (forall obj, typed s obj -> exists obj', cast s d obj = Ok obj' /\ typed d obj' /\ cast d s obj' = Ok obj /\
               (obj' = PNone -> obj = PNone) /\ lifted s d obj obj') ->
  (s = d \/ (cast_needed s d = Ok true /\ cast_needed d s = Ok true)) ->
  typed (Tree a [s]) po ->
  exists po', cast (Tree a [s]) (Tree b [d]) po = Ok po' /\ typed (Tree b [d]) po' /\
              cast (Tree b [d]) (Tree a [s]) po' = Ok po /\ (po' = PNone -> po = PNone) /\
              lifted (Tree a [s]) (Tree b [d]) po po' /\
              (b = TStrDict -> exists l, po' = PDict l) /\ (a = TStrDict -> exists l, po = PDict l).
Proof.
  intros s d a b po Ha Hb IH N T.
  assert (B : b = a \/ a = TUnion /\ b = TStrDict)
    by (destruct Hb as [ -> | -> ]; auto; destruct Ha as [ -> | -> ]; auto).
  destruct B as [ -> |[ -> -> ]].
  - destruct N as [ -> |[N1 N2]].
    { exists po. rewrite cast_refl. repeat split; auto; [constructor|intros ->; inversion T; eauto..]. }
    assert (N1' : cast_needed (Tree a [s]) (Tree a [d]) = Ok true) by (rewrite needed_unary; auto).
    assert (N2' : cast_needed (Tree a [d]) (Tree a [s]) = Ok true) by (rewrite needed_unary; auto).
    destruct Ha as [ -> | -> ]; inversion T as [|s0 v0 T1| | | |s0 l T1| | | |]; subst;
      cbn [cast]; rewrite N1', N2'; cbn [bind negb].
    + destruct (IH _ T1) as (y & E1 & E2 & E3 & E4 & E5). exists y.
      repeat split; auto; try discriminate; [now constructor|now apply li_union].
    + destruct (@mapM_roundtrip _ (fun kv : string * pv => let* y := cast s d (snd kv) in Ok (fst kv, y))
               (fun kv : string * pv => let* y := cast d s (snd kv) in Ok (fst kv, y))
               (fun kv => typed s (snd kv)) (fun kv => typed d (snd kv))
               (fun x y => fst x = fst y /\ lifted s d (snd x) (snd y)) l T1) as (l' & E1 & E2 & E3 & E4 & E5).
      { intros [k x] Hx. cbn [fst snd] in *. destruct (IH _ Hx) as (y & F1 & F2 & F3 & _ & F5).
        exists (k, y). rewrite F1. cbn [bind fst snd]. rewrite F3. auto. }
      rewrite E1. cbn [bind]. exists (PDict l'). rewrite E3. cbn [bind].
      repeat split; auto; try discriminate; eauto; [now constructor|now apply li_dict].
  - inversion T as [|s0 v0 T1| | | | | | | |]; subst. destruct (IH _ T1) as (y & E1 & E2 & E3 & E4 & E5).
    simpl. rewrite E1. simpl. eexists; split; [reflexivity|]. simpl. rewrite E3.
    split; [constructor; repeat constructor; auto|]. repeat split; try discriminate; eauto. now apply li_dict1.
Qed.

Lemma cast_outcome : forall a b c a' b' c' o v t i,
  cast_needed (Tree TOutcome [a; b; c]) (Tree TOutcome [a'; b'; c']) = Ok true ->
  cast (Tree TOutcome [a; b; c]) (Tree TOutcome [a'; b'; c']) (POutcome o v t i) =
  let* o' := cast a a' o in let* v' := cast b b' v in let* i' := cast c c' i in Ok (mk_POutcome o' v' t i').
Proof. intros a b c a' b' c' o v t i N. cbn [cast]. rewrite N. reflexivity. Qed.

Theorem roundtrip : forall s d, up s d -> forall obj, typed s obj ->
  exists obj', cast s d obj = Ok obj' /\ typed d obj' /\ cast d s obj' = Ok obj /\
               (obj' = PNone -> obj = PNone) /\ lifted s d obj obj'.
Proof.
  induction 1 as [n sub|t s d U H IH|t s d W H IH|a b o v i o' v' i' Ha Hb Uo IHo Uv IHv Ui IHi D]; intros obj T.
  - exists obj. rewrite cast_refl. repeat split; auto. constructor.
  - destruct (up_needed H) as [E|[N1 N2]].
    { subst d. exists obj. rewrite !cast_refl. repeat split; auto. constructor. }
    assert (N1' : cast_needed (Tree t [s]) (Tree t [d]) = Ok true) by (rewrite needed_unary; auto).
    assert (N2' : cast_needed (Tree t [d]) (Tree t [s]) = Ok true) by (rewrite needed_unary; auto).
    clear N1 N2 H.
    inversion T as [|s0 v0 T1|s0|s0 v0 T1|s0 l T1|s0 l T1|s0 l T1|s0 l NE T1|s0 v0 T1|]; subst;
      try (exfalso; destruct U as [U|[U|[U|[U|[U|U]]]]]; discriminate);
      cbn [cast]; rewrite N1', N2'; cbn [bind negb].
    + destruct (IH _ T1) as (y & E1 & E2 & E3 & E4 & E5). exists y. repeat split; auto; [now constructor|].
      now apply li_union.
    + exists PNone. repeat split; auto; constructor.
    + destruct (IH _ T1) as (y & E1 & E2 & E3 & E4 & E5).
      destruct obj as [| | | | | | | |];
        try (exists y; (split; [exact E1|]); (split; [now constructor|]); split; [|split; [exact E4|now apply li_opt]];
             destruct y; auto; (specialize (E4 eq_refl); discriminate)).
      exists PNone. repeat split; auto; constructor.
    + destruct (@mapM_roundtrip _ (fun x => cast s d x) (fun x => cast d s x) (typed s) (typed d) (lifted s d) l T1)
        as (l' & E1 & E2 & E3 & E4 & E5).
      { intros x Hx. destruct (IH _ Hx) as (y & F1 & F2 & F3 & _ & F5). eauto 6. }
      rewrite E1. cbn [bind]. exists (PMem None l'). rewrite E3. cbn [bind].
      repeat split; auto; [now constructor|discriminate|now apply li_mem].
    + destruct (@mapM_roundtrip _ (fun kv : string * pv => let* y := cast s d (snd kv) in Ok (fst kv, y))
               (fun kv : string * pv => let* y := cast d s (snd kv) in Ok (fst kv, y))
               (fun kv => typed s (snd kv)) (fun kv => typed d (snd kv))
               (fun x y => fst x = fst y /\ lifted s d (snd x) (snd y)) l T1) as (l' & E1 & E2 & E3 & E4 & E5).
      { intros [k x] Hx. cbn [fst snd] in *. destruct (IH _ Hx) as (y & F1 & F2 & F3 & _ & F5).
        exists (k, y). rewrite F1. cbn [bind fst snd]. rewrite F3. auto. }
      rewrite E1. cbn [bind]. exists (PDict l'). rewrite E3. cbn [bind].
      repeat split; auto; [now constructor|discriminate|now apply li_dict].
    + destruct (@mapM_roundtrip _ (fun x => cast s d x) (fun x => cast d s x) (typed s) (typed d) (lifted s d) l T1)
        as (l' & E1 & E2 & E3 & E4 & E5).
      { intros x Hx. destruct (IH _ Hx) as (y & F1 & F2 & F3 & _ & F5). eauto 6. }
      rewrite E1. cbn [bind]. exists (PList l'). rewrite E3. cbn [bind].
      repeat split; auto; [now constructor|discriminate|now apply li_list].
    + destruct (@mapM_roundtrip _ (fun ep : pv * Q => let* y := cast s d (fst ep) in Ok (y, snd ep))
               (fun ep : pv * Q => let* y := cast d s (fst ep) in Ok (y, snd ep))
               (fun ep => typed s (fst ep)) (fun ep => typed d (fst ep))
               (fun x y => snd x = snd y /\ lifted s d (fst x) (fst y)) l T1) as (l' & E1 & E2 & E3 & E4 & E5).
      { intros [x w] Hx. cbn [fst snd] in *. destruct (IH _ Hx) as (y & F1 & F2 & F3 & _ & F5).
        exists (y, w). rewrite F1. cbn [bind fst snd]. rewrite F3. auto. }
      rewrite E1. cbn [bind]. destruct l' as [|p l']; [destruct l; [congruence|discriminate]|].
      exists (PDiscrete (p :: l')). repeat split; auto; [constructor; [discriminate|auto]| |discriminate|now apply li_discrete].
      rewrite E3. cbn [bind]. destruct l; [congruence|reflexivity].
    + destruct (IH _ T1) as (y & E1 & E2 & E3 & E4 & E5). rewrite E1. cbn [bind].
      exists (PSingle y). rewrite E3. repeat split; auto; [now constructor|discriminate|now apply li_single].
  - inversion T as [|s0 v0 T1| | | | | | | |]; subst. destruct (IH _ T1) as (y & E1 & E2 & E3 & E4 & E5).
    destruct W as [ -> |[ -> | -> ]]; simpl; rewrite E1; simpl;
      eexists; (split; [reflexivity|]); simpl; rewrite ?E3;
      (split; [constructor; repeat constructor; auto|]);
      (split; [auto|]); (split; [discriminate|]); constructor; auto.
  - destruct (up_needed (up_outcome Ha Hb Uo Uv Ui D)) as [E|[N1 N2]].
    { rewrite <- E. exists obj. rewrite !cast_refl. repeat split; auto. constructor. }
    inversion T as [| | | | | | | | |a0 o0 v0 i0 po pval t0 pi T1 T2 T3 Hv Hi]; subst.
    destruct (roundtrip_union Ha Hb IHo (up_needed Uo) T1) as (po' & O1 & O2 & O3 & O4 & O5 & O6 & O7).
    destruct (roundtrip_union Ha Hb IHv (up_needed Uv) T2) as (pv' & V1 & V2 & V3 & V4 & V5 & V6 & V7).
    destruct (roundtrip_union Ha Hb IHi (up_needed Ui) T3) as (pi' & I1 & I2 & I3 & I4 & I5 & I6 & I7).
    assert (Hv' : pv' <> PNone) by (intros X; apply Hv, V4, X).
    assert (Hi' : pi' = PNone -> forall l, po' <> PDict l).
    { intros X l Y. destruct Hb as [Hb|Hb].
      - subst b. destruct Ha as [Ha|Ha].
        + subst a. destruct D as [D|D]; [discriminate|]. subst o'. rewrite cast_refl in O1.
          injection O1 as <-. eapply Hi; [apply I4, X|exact Y].
        + destruct (I6 Ha) as (l' & Z). congruence.
      - destruct (I6 Hb) as (l' & Z). congruence. }
    assert (Hmk : forall o v t i, v <> PNone -> (i = PNone -> forall l, o <> PDict l) ->
                  mk_POutcome o v t i = POutcome o v t i).
    { intros o1 v1 t1 i1 A1 A2. unfold mk_POutcome.
      destruct v1; try congruence; destruct i1; auto; destruct o1; auto; exfalso; eapply A2; reflexivity. }
    exists (POutcome po' pv' t0 pi').
    split; [|split; [|split; [|split]]].
    + rewrite cast_outcome, O1 by auto. cbn [bind]. rewrite V1. cbn [bind]. rewrite I1. cbn [bind]. f_equal. auto.
    + constructor; auto.
    + rewrite cast_outcome, O3 by auto. cbn [bind]. rewrite V3. cbn [bind]. rewrite I3. cbn [bind]. f_equal. auto.
    + discriminate.
    + now apply li_outcome.
Qed.

(** ** parse_hint *)

(** Specification: how a tree of hints is written. *)
Fixpoint print (t : htree) : list tok :=
  match t with
  | HT o n sub =>
      Name o n ::
      match sub with
      | [] => []
      | x :: r =>
          LB :: print x ++
          (fix join (r : list htree) : list tok :=
             match r with [] => [RB] | y :: r' => COMMA :: print y ++ join r' end) r
      end
  end.

Fixpoint join (r : list htree) : list tok :=
  match r with [] => [] | y :: r' => COMMA :: print y ++ join r' end.

Lemma print_HT : forall o n x r, print (HT o n (x :: r)) = Name o n :: LB :: (print x ++ join r) ++ [RB].
Proof.
  intros o n x r. cbn [print]. do 2 f_equal. rewrite <- app_assoc. f_equal.
  induction r as [|y r IH]; [reflexivity|]. cbn [join app]. f_equal. rewrite <- app_assoc. f_equal. exact IH.
Qed.

Section HInd.
  Variable P : htree -> Prop.
  Hypothesis H : forall o n sub, Forall P sub -> P (HT o n sub).
  Fixpoint htree_ind2 (x : htree) : P x :=
    match x with
    | HT o n sub =>
        H o n ((fix go (l : list htree) : Forall P l :=
                match l with [] => Forall_nil _ | y :: r => Forall_cons _ (htree_ind2 y) (go r) end) sub)
    end.
End HInd.

(** [flat]: at most one parameter everywhere.  [simple]: a type with several parameters has only
    flat parameters. *)
Inductive flat : htree -> Prop :=
| flat_leaf : forall o n, flat (HT o n [])
| flat_one : forall o n x, flat x -> flat (HT o n [x]).
Inductive simple : htree -> Prop :=
| simple_leaf : forall o n, simple (HT o n [])
| simple_one : forall o n x, simple x -> simple (HT o n [x])
| simple_many : forall o n sub, Forall flat sub -> simple (HT o n sub).

Definition cl (l : list tok) := length (filter is_lb l).
Definition cr (l : list tok) := length (filter is_rb l).

Lemma cl_app : forall a b, cl (a ++ b) = cl a + cl b.
Proof. intros a b. unfold cl. now rewrite filter_app, app_length. Qed.
Lemma cr_app : forall a b, cr (a ++ b) = cr a + cr b.
Proof. intros a b. unfold cr. now rewrite filter_app, app_length. Qed.

Definition dyck (l : list tok) : Prop := cl l = cr l /\ forall p q, l = p ++ q -> cr p <= cl p.

Lemma app_split : forall A (a b p q : list A), a ++ b = p ++ q ->
  (exists q', a = p ++ q' /\ q = q' ++ b) \/ (exists p', p = a ++ p' /\ b = p' ++ q).
Proof.
  induction a as [|x a IH]; intros b p q E.
  - right. exists p. auto.
  - destruct p as [|y p].
    + left. exists (x :: a). simpl in *. auto.
    + simpl in E. injection E as -> E. destruct (IH b p q E) as [(q' & E1 & E2)|(p' & E1 & E2)].
      * left. exists q'. simpl. now rewrite E1.
      * right. exists p'. simpl. now rewrite E1.
Qed.

Lemma dyck_app : forall a b, dyck a -> dyck b -> dyck (a ++ b).
Proof.
  intros a b [A1 A2] [B1 B2]. split; [rewrite cl_app, cr_app; lia|].
  intros p q E. destruct (app_split _ _ _ _ E) as [(q' & -> & _)|(p' & -> & ->)].
  - eapply A2; reflexivity.
  - rewrite cl_app, cr_app. specialize (B2 p' q eq_refl). lia.
Qed.

Lemma dyck_nil : dyck [].
Proof. split; auto. intros p q E. destruct p; [auto|discriminate]. Qed.

Lemma dyck_cons : forall t l, (t <> LB) -> t <> RB -> dyck l -> dyck (t :: l).
Proof.
  intros t l N1 N2 D. change (t :: l) with ([t] ++ l). apply dyck_app; auto. split.
  - destruct t; auto; congruence.
  - intros p q E. destruct p as [|x p]; [auto|]. injection E as -> E. destruct p; [|discriminate].
    destruct x; cbv; auto; congruence.
Qed.

Lemma dyck_bracket : forall l, dyck l -> dyck (LB :: l ++ [RB]).
Proof.
  intros l [D1 D2]. split.
  - change (LB :: l ++ [RB]) with ([LB] ++ l ++ [RB]). rewrite !cl_app, !cr_app. cbn. lia.
  - intros p q E. destruct p as [|x p]; [auto|]. injection E as <- E.
    change (LB :: p) with ([LB] ++ p). rewrite cl_app, cr_app.
    replace (cl [LB]) with 1 by reflexivity. replace (cr [LB]) with 0 by reflexivity.
    destruct (app_split _ _ _ _ E) as [(q' & -> & _)|(p' & -> & E2)].
    + specialize (D2 p q' eq_refl). lia.
    + rewrite cl_app, cr_app. specialize (D2 l [] (eq_sym (app_nil_r l))).
      destruct p' as [|y p']; [change (cl []) with 0; change (cr []) with 0; lia|].
      injection E2 as <- E2. destruct p'; [|discriminate].
      replace (cl [RB]) with 0 by reflexivity. replace (cr [RB]) with 1 by reflexivity. lia.
Qed.

Lemma dyck_print : forall t, dyck (print t).
Proof.
  induction t as [o n sub IH] using htree_ind2. destruct sub as [|x r].
  - simpl. apply dyck_cons; try discriminate. apply dyck_nil.
  - rewrite print_HT. apply dyck_cons; try discriminate. apply dyck_bracket.
    inversion IH as [|? ? Hx Hr]; subst. apply dyck_app; auto. clear Hx IH.
    induction Hr as [|y r Hy Hr IH']; [apply dyck_nil|]. cbn [join].
    apply dyck_cons; try discriminate. now apply dyck_app.
Qed.

Lemma dyck_join : forall r, dyck (join r).
Proof.
  induction r as [|y r IH]; [apply dyck_nil|]. cbn [join].
  apply dyck_cons; try discriminate. apply dyck_app; auto. apply dyck_print.
Qed.

(** A comma inside a printed hint is always inside a bracket. *)
Lemma comma_deep : forall t p q, print t = p ++ COMMA :: q -> cr p < cl p.
Proof.
  intros [o n [|x r]] p q E.
  - destruct p as [|? [|? p]]; discriminate.
  - rewrite print_HT in E. destruct p as [|a [|b p]]; try discriminate. injection E as <- <- E.
    change (Name o n :: LB :: p) with ([Name o n; LB] ++ p). rewrite cl_app, cr_app.
    replace (cl [Name o n; LB]) with 1 by reflexivity. replace (cr [Name o n; LB]) with 0 by reflexivity.
    destruct (app_split _ _ _ _ E) as [(q' & E1 & _)|(p' & -> & E2)].
    + destruct (dyck_app (dyck_print x) (dyck_join r)) as [_ D]. specialize (D _ _ E1). lia.
    + destruct p' as [|? [|? ?]]; discriminate.
Qed.

Lemma print_cons : forall t, exists o n l, print t = Name o n :: l.
Proof. intros [o n sub]. simpl. eauto. Qed.

Definition no_comma (l : list tok) : Prop := ~ In COMMA l.

Lemma split_no_comma : forall l, no_comma l -> split_comma l = [l].
Proof.
  induction l as [|t l IH]; intros N; [reflexivity|].
  assert (N' : no_comma l) by (intros X; apply N; right; auto).
  simpl. rewrite (IH N'). destruct t; auto. exfalso. apply N. now left.
Qed.

Lemma split_app : forall a b, no_comma a -> split_comma (a ++ COMMA :: b) = a :: split_comma b.
Proof.
  induction a as [|t a IH]; intros b N; [reflexivity|].
  assert (N' : no_comma a) by (intros X; apply N; right; auto).
  simpl. rewrite (IH _ N'). destruct t; auto. exfalso. apply N. now left.
Qed.

Lemma flat_no_comma : forall t, flat t -> no_comma (print t).
Proof.
  induction 1 as [o n|o n x F IH].
  - intros [X|[]]; discriminate.
  - rewrite print_HT. cbn [join]. rewrite app_nil_r. unfold no_comma in *. cbn [In].
    rewrite in_app_iff. intros [X|[X|[X|[X|[]]]]]; try discriminate. auto.
Qed.

Lemma split_join : forall r x, flat x -> Forall flat r ->
  split_comma (print x ++ join r) = print x :: map print r.
Proof.
  induction r as [|y r IH]; intros x Fx Fr.
  - cbn [join map]. rewrite app_nil_r. apply split_no_comma. now apply flat_no_comma.
  - cbn [join map]. rewrite split_app by now apply flat_no_comma. inversion Fr; subst.
    f_equal. now apply IH.
Qed.

Lemma balanced_print : forall t, balanced (print t) = true.
Proof. intros t. unfold balanced. apply Nat.eqb_eq. apply (dyck_print t). Qed.

Lemma first_comma : forall l, no_comma l \/ exists p q, l = p ++ COMMA :: q /\ no_comma p.
Proof.
  induction l as [|t l IH]; [left; intros []|].
  destruct IH as [N|(p & q & -> & N)].
  - destruct t; try (left; intros [X|X]; [discriminate|auto]).
    right. exists [], l. split; auto. intros [].
  - destruct t; try (right; eexists (_ :: p), q; split; [reflexivity|]; intros [X|X]; [discriminate|auto]).
    right. exists [], (p ++ COMMA :: q). split; auto. intros [].
Qed.

Fixpoint hdepth (t : htree) : nat :=
  match t with HT _ _ sub => S ((fix mx (l : list htree) := match l with [] => 0 | y :: r => Nat.max (hdepth y) (mx r) end) sub) end.

Lemma hdepth_sub : forall o n sub x, In x sub -> hdepth x < hdepth (HT o n sub).
Proof.
  intros o n sub x I. cbn [hdepth]. induction sub as [|y r IH]; [destruct I|].
  destruct I as [ -> |I]; [lia|]. specialize (IH I). lia.
Qed.

Lemma mapM_parse : forall fuel l, Forall (fun t => parse_hint fuel (print t) = Ok t) l ->
  mapM (parse_hint fuel) (map print l) = Ok l.
Proof.
  intros fuel l F. induction F as [|t l E F IH]; [reflexivity|]. simpl. rewrite E. simpl. now rewrite IH.
Qed.

Lemma parse_step : forall fuel o n x r,
  parse_hint (S fuel) (print (HT o n (x :: r))) =
  let generics := print x ++ join r in
  let pieces := split_comma generics in
  let* sub := (if forallb balanced pieces then mapM (parse_hint fuel) pieces
               else mapM (parse_hint fuel) [generics]) in
  Ok (HT o n sub).
Proof.
  intros fuel o n x r. rewrite print_HT. cbn [parse_hint].
  rewrite removelast_last, last_last.
  destruct (print_cons x) as (o1 & n1 & l & ->). reflexivity.
Qed.

Lemma parse_flat : forall t, flat t -> forall fuel, hdepth t <= fuel -> parse_hint fuel (print t) = Ok t.
Proof.
  induction 1 as [o n|o n x F IH]; intros [|fuel] Hf; try (cbn [hdepth] in Hf; lia).
  - reflexivity.
  - rewrite parse_step. cbn zeta. rewrite split_join by auto. cbn [map forallb].
    rewrite balanced_print. cbn [andb mapM].
    pose proof (hdepth_sub o n [x] x (or_introl eq_refl)). rewrite IH by lia. reflexivity.
Qed.

Theorem parse_print : forall t, simple t -> forall fuel, hdepth t <= fuel -> parse_hint fuel (print t) = Ok t.
Proof.
  induction 1 as [o n|o n x F IH|o n sub F]; intros [|fuel] Hf; try (cbn [hdepth] in Hf; lia).
  - reflexivity.
  - rewrite parse_step. cbn zeta. cbn [join]. rewrite app_nil_r.
    pose proof (hdepth_sub o n [x] x (or_introl eq_refl)).
    assert (IHx : parse_hint fuel (print x) = Ok x) by (apply IH; lia).
    destruct (first_comma (print x)) as [N|(p & q & E & N)].
    + rewrite split_no_comma by auto. cbn [forallb]. rewrite balanced_print. cbn [andb mapM].
      rewrite IHx. reflexivity.
    + assert (U : forallb balanced (split_comma (print x)) = false).
      { rewrite E, split_app by auto. cbn [forallb].
        pose proof (comma_deep _ _ _ E) as D. unfold balanced. fold (cl p) (cr p).
        destruct (Nat.eqb_spec (cl p) (cr p)); [lia|reflexivity]. }
      rewrite U. cbn [mapM]. rewrite IHx. reflexivity.
  - destruct sub as [|x r]; [reflexivity|].
    rewrite parse_step. cbn zeta. inversion F as [|? ? Fx Fr]; subst. rewrite split_join by auto.
    assert (B : forallb balanced (print x :: map print r) = true).
    { change (print x :: map print r) with (map print (x :: r)). apply forallb_forall.
      intros l I. apply in_map_iff in I. destruct I as (t & <- & _). apply balanced_print. }
    rewrite B. change (print x :: map print r) with (map print (x :: r)). rewrite mapM_parse; [reflexivity|].
    apply Forall_forall. intros t I. apply parse_flat.
    + eapply Forall_forall in F; eauto.
    + pose proof (hdepth_sub o n (x :: r) t I). lia.
Qed.

(** ** autocast *)
Lemma cast_not_needed : forall s d obj, cast_needed s d = Ok false -> cast s d obj = Ok obj.
Proof. intros [ts ss] d obj E. destruct d as [td sd]. cbn [cast]. rewrite E. reflexivity. Qed.

Lemma cast_if_needed : forall s d obj b, cast_needed s d = Ok b ->
  (if b then cast s d obj else Ok obj) = cast s d obj.
Proof. intros s d obj [|] E; [reflexivity|]. symmetry. now apply cast_not_needed. Qed.

Lemma up_needed_ok : forall s d, up s d -> exists b, cast_needed s d = Ok b /\ cast_needed d s = Ok b.
Proof.
  intros s d U. destruct (up_needed U) as [ -> |[E1 E2]]; [|eauto].
  exists false. rewrite needed_refl. auto.
Qed.
