(** Property C117: the C++ solvers' hash tables of Python states and actions
    (/repo/cpp/src/utils/python_hash_eq.hh, /repo/cpp/src/utils/python_container_adapter.hh). *)
From Coq Require Import String List Bool Arith ZArith QArith Lia Qreduction.
From Coq Require Qcanon.
Import ListNotations.
From Verif Require Import Py PyList PyKeyModel.
Set Implicit Arguments.
Open Scope nat_scope.

(** ** Vocabulary *)

(** What a value means to Python: numbers by value, instances by their fields or by identity. *)
Inductive meaning :=
  | MNone | MNum (q : Q) | MStr (s : string) | MTup (l : list meaning)
  | MFields (name fields : string) | MObject (name : string) (id : nat) | MOther.

Section Vocabulary.
  Variable K : string -> cls.

  Fixpoint mean (o : obj) : meaning :=
    match o with
    | ONone => MNone
    | OBool b => MNum (if b then 1%Q else 0%Q)
    | OInt z => MNum (inject_Z z)
    | OFloat q => MNum (Qred q)
    | OStr s => MStr s
    | OTup l => MTup (map mean l)
    | OList _ | ODict _ => MOther
    | OInst c i f => if k_eq (K c) then MFields c f else MObject c i
    end.

  (** Classes that follow Python's rule on [__eq__] and [__hash__]. *)
  Definition sound_class (c : string) : Prop :=
    match k_eq (K c), k_hash (K c) with true, HashFields | false, HashIdentity => True | _, _ => False end.

  (** Hashable values: numbers, texts, instances of sound classes, and tuples of those. *)
  Fixpoint hashable (o : obj) : Prop :=
    match o with
    | ONone | OBool _ | OInt _ | OFloat _ | OStr _ => True
    | OTup l => (fix all (l : list obj) : Prop := match l with [] => True | x :: r => hashable x /\ all r end) l
    | OList _ | ODict _ => False
    | OInst c _ _ => sound_class c
    end.

  (** An instance compared by identity must not print its fields. *)
  Definition usable (o : obj) : Prop :=
    hashable o /\ match o with OInst c _ _ => k_eq (K c) = true \/ k_repr (K c) = false | _ => True end.
End Vocabulary.

Definition is_int (o : obj) : bool := match o with OBool _ | OInt _ => true | _ => false end.
Definition is_float (o : obj) : bool := match o with OFloat _ => true | _ => false end.

(** Lists, and anything made of integers, texts, tuples and lists. *)
Fixpoint uniform (o : obj) : Prop :=
  match o with
  | ONone | OInt _ | OStr _ => True
  | OTup l | OList l => (fix all (l : list obj) : Prop := match l with [] => True | x :: r => uniform x /\ all r end) l
  | _ => False
  end.

(** Hash functions that respect the equality of numbers. *)
Definition sane (H : hashes) : Prop :=
  (forall p q, p == q -> h_num H p = h_num H q)%Q /\ (forall d p q, p == q -> h_prim H d p = h_prim H d q)%Q.

(** Arrays stored row after row, without gaps. *)
Fixpoint row_major (shape : list nat) (strides : list Z) : Prop :=
  match shape, strides with
  | [], [] => True
  | n :: r, s :: t => s = Z.of_nat (fold_right Nat.mul 1 r) /\ row_major r t
  | _, _ => False
  end.

(** The hash of a list of numbers. *)
Definition digest (H : hashes) (d : dtype) (l : list Q) : Z :=
  fold_left (fun seed x => h_combine H seed (h_prim H d x)) l 0%Z.

(** ** Proofs *)

Lemma obj_nested (P : obj -> Prop) :
  P ONone -> (forall b, P (OBool b)) -> (forall z, P (OInt z)) -> (forall q, P (OFloat q)) -> (forall s, P (OStr s)) ->
  (forall l, Forall P l -> P (OTup l)) -> (forall l, Forall P l -> P (OList l)) -> (forall l, P (ODict l)) ->
  (forall c i f, P (OInst c i f)) -> forall o, P o.
Proof.
  intros N B I F S T L D C. fix IH 1. intros [| b | z | q | s | l | l | l | c i f].
  - exact N.
  - apply B.
  - apply I.
  - apply F.
  - apply S.
  - apply T. induction l as [|x l IL]; constructor; [apply IH|exact IL].
  - apply L. induction l as [|x l IL]; constructor; [apply IH|exact IL].
  - apply D.
  - apply C.
Qed.

Section Proofs.
  Variable K : string -> cls.

  Lemma inject_red z : Qred (inject_Z z) = inject_Z z.
  Proof. unfold inject_Z. apply Qcanon.Qred_identity. cbn. apply Z.gcd_1_r. Qed.

  Lemma num_mean x p : num x = Some p -> mean K x = MNum (Qred p).
  Proof.
    destruct x; try discriminate; intros E; injection E as <-; cbn [mean].
    - destruct b; reflexivity.
    - rewrite inject_red. reflexivity.
    - reflexivity.
  Qed.
  Lemma num_none_mean x : num x = None -> forall q, mean K x <> MNum q.
  Proof. destruct x; cbn; try discriminate; intros _ q; try discriminate. destruct (k_eq (K name)); discriminate. Qed.

  Lemma red_eq p q : Qeq_bool p q = true <-> Qred p = Qred q.
  Proof.
    rewrite Qeq_bool_iff. split; [apply Qred_complete|]. intros E.
    rewrite <- (Qred_correct p), <- (Qred_correct q), E. reflexivity.
  Qed.

  Lemma pyop_mean x : forall y, hashable K x -> hashable K y -> pyop K x y = true <-> mean K x = mean K y.
  Proof.
    induction x as [| b | z | q | s | l IH | l IH | l | c i f] using obj_nested; intros y Hx Hy;
      try (destruct Hx; fail).
    all: destruct (num y) as [p|] eqn:Ny.
    all: try (cbn [pyop num]; rewrite Ny; rewrite (num_mean y Ny); first [rewrite red_eq|idtac];
      try rewrite (@num_mean (OBool b) _ eq_refl); try rewrite (@num_mean (OInt z) _ eq_refl);
      try rewrite (@num_mean (OFloat q) _ eq_refl); cbn [mean];
      try (destruct (k_eq (K c))); split; intros Z; congruence).
    - destruct y; cbn in *; try discriminate; try tauto; try (split; discriminate).
      destruct (k_eq (K name)); split; discriminate.
    - cbn [pyop num]. rewrite Ny. split; [discriminate|]. intros Z. exfalso. exact (num_none_mean y Ny (eq_sym Z)).
    - cbn [pyop num]. rewrite Ny. split; [discriminate|]. intros Z. exfalso. exact (num_none_mean y Ny (eq_sym Z)).
    - cbn [pyop num]. rewrite Ny. split; [discriminate|]. intros Z. exfalso. exact (num_none_mean y Ny (eq_sym Z)).
    - destruct y; cbn in *; try discriminate; try tauto; try (split; discriminate).
      + rewrite String.eqb_eq. split; congruence.
      + destruct (k_eq (K name)); split; discriminate.
    - destruct y as [| | | | |l'| | |]; cbn in *; try discriminate; try tauto; try (split; discriminate).
      2:{ destruct (k_eq (K name)); split; discriminate. }
      clear Ny. revert l' Hy. induction l as [|a l IL]; intros [|b l'] Hy; cbn; try (split; discriminate); [tauto|].
      inversion IH as [|? ? Ia Il]; subst. destruct Hx as [Ha Hl], Hy as [Hb Hl'].
      rewrite andb_true_iff, (Ia b Ha Hb), (IL Il Hl l' Hl').
      split; [intros [E F]; inversion F; congruence|]. intros E. inversion E. split; congruence.
    - destruct y; cbn in *; try discriminate; try tauto; try (split; [discriminate|destruct (k_eq (K c)); discriminate]).
      unfold inst_eq. rewrite andb_true_iff, String.eqb_eq. split.
      + intros [<- E]. destruct (k_eq (K c)); [apply String.eqb_eq in E|apply Nat.eqb_eq in E]; congruence.
      + destruct (k_eq (K c)) eqn:E1, (k_eq (K name)) eqn:E2; intros E; inversion E; subst.
        * split; [reflexivity|apply String.eqb_refl].
        * split; [reflexivity|apply Nat.eqb_refl].
  Qed.

  Variable H : hashes.
  Variable SANE : sane H.

  Definition go_hash := fix go (l : list obj) : res (list Z) :=
    match l with
    | [] => Ok []
    | x :: r => let* h := hash_method K H x in
                match h with
                | None => Err TypeError
                | Some z => let* t := go r in Ok (z :: t)
                end
    end.

  Lemma num_hash x p : num x = Some p -> hash_method K H x = Ok (Some (h_num H p)).
  Proof. destruct x; try discriminate; intros E; injection E as <-; reflexivity. Qed.

  Lemma hash_total x : hashable K x -> exists h, hash_method K H x = Ok (Some h).
  Proof.
    induction x as [| b | z | q | s | l IH | l IH | l | c i f] using obj_nested; intros Hx;
      try (destruct Hx; fail); try (eexists; reflexivity).
    - assert (exists t, go_hash l = Ok t) as (t & G).
      { induction l as [|a l IL]; [eexists; reflexivity|]. inversion IH as [|? ? Ia Il]; subst. destruct Hx as [Ha Hl].
        destruct (Ia Ha) as (h & E). destruct (IL Il Hl) as (t & F). cbn. rewrite E. cbn. fold go_hash. rewrite F. cbn. eauto. }
      exists (h_tuple H t). cbn [hash_method]. fold go_hash. rewrite G. reflexivity.
    - cbn in *. unfold sound_class in Hx. destruct (k_eq (K c)), (k_hash (K c)); try contradiction; eauto.
  Qed.

  Lemma mean_num_inv x q : mean K x = MNum q -> exists p, num x = Some p /\ q = Qred p.
  Proof.
    intros E. destruct (num x) as [p|] eqn:N.
    - rewrite (num_mean x N) in E. inversion E. eauto.
    - exfalso. exact (num_none_mean x N E).
  Qed.

  Lemma hash_mean x : forall y, hashable K x -> hashable K y -> mean K x = mean K y -> hash_method K H x = hash_method K H y.
  Proof.
    induction x as [| b | z | q | s | l IH | l IH | l | c i f] using obj_nested; intros y Hx Hy E;
      try (destruct Hx; fail).
    2,3,4: match goal with |- hash_method K H ?x = _ => destruct (num x) as [p|] eqn:Nx; [|discriminate];
             rewrite (num_mean x Nx) in E; symmetry in E; apply mean_num_inv in E as (p' & Ny & E);
             rewrite (num_hash x Nx), (num_hash y Ny); do 2 f_equal; apply (proj1 SANE);
             rewrite <- (Qred_correct p), <- (Qred_correct p'), E; reflexivity end.
    - destruct y; cbn in *; try discriminate; try contradiction; try reflexivity. destruct (k_eq (K name)); discriminate.
    - destruct y; cbn in *; try discriminate; try contradiction; [congruence|]. destruct (k_eq (K name)); discriminate.
    - destruct y as [| | | | |l'| | |]; cbn in Hy, E; try discriminate; try contradiction.
      2:{ destruct (k_eq (K name)); discriminate. }
      assert (go_hash l = go_hash l') as G.
      { revert l' Hy E. induction l as [|a l IL]; intros [|b l'] Hy E; try discriminate; [reflexivity|].
        inversion IH as [|? ? Ia Il]; subst. destruct Hx as [Ha Hl], Hy as [Hb Hl']. cbn in E. injection E as E1 E2.
        cbn. fold go_hash. rewrite (Ia b Ha Hb E1). rewrite (IL Il Hl l' Hl'); [reflexivity|]. cbn. congruence. }
      cbn [hash_method]. fold go_hash. rewrite G. reflexivity.
    - destruct y as [| | | | | | | |d j g]; cbn in Hy, E; try contradiction;
        try (destruct (k_eq (K c)); discriminate).
      cbn in Hx |- *. unfold sound_class in *.
      destruct (k_eq (K c)) eqn:E1, (k_eq (K d)) eqn:E2; inversion E; subst;
        destruct (k_hash (K d)); try contradiction; reflexivity.
  Qed.

  (** Comparing usable values. *)
  Lemma equal_mean x y : usable K x -> usable K y ->
    exists b, py_equal K (VObj x) (VObj y) = Ok b /\ (b = true -> mean K x = mean K y) /\
      (mean K x = mean K y -> b = true \/ (is_int x = true /\ is_float y = true)).
  Proof.
    intros [Hx Ux] [Hy Uy]. eexists. split; [reflexivity|].
    destruct (eq_method K x y) as [b|] eqn:E.
    - assert (b = pyop K x y) as ->.
      { destruct x, y; cbn [eq_method] in E; try discriminate; try (inversion E; reflexivity).
        cbn. unfold inst_eq. destruct (k_eq (K name)) eqn:E1.
        - destruct (String.eqb name name0); inversion E; reflexivity.
        - destruct (String.eqb name name0 && (id =? id0)) eqn:Z; inversion E. reflexivity. }
      rewrite (pyop_mean _ _ Hx Hy). tauto.
    - destruct x, y; cbn [eq_method] in E; try discriminate; cbn in Hx, Hy; try contradiction;
        try (split; [discriminate|]; cbn; intros Z; try discriminate; auto; fail);
        try (split; [cbn; destruct (k_repr (K name)); discriminate|];
             cbn; intros Z; exfalso; destruct (k_eq (K name)); discriminate).
      cbn in *. destruct (k_eq (K name)) eqn:E1.
      + destruct (String.eqb_spec name name0); [discriminate|]. split.
        * destruct (k_repr (K name)), (k_repr (K name0)); cbn; try discriminate;
            rewrite (proj2 (String.eqb_neq _ _) n); discriminate.
        * destruct (k_eq (K name0)); intros Z; inversion Z; congruence.
      + destruct Ux as [Ux|Ux]; [discriminate|]. rewrite Ux. split.
        * destruct (k_repr (K name0)); cbn; [discriminate|]. intros Z.
          destruct (String.eqb name name0 && (id =? id0)); discriminate.
        * destruct (k_eq (K name0)); intros Z; inversion Z; subst.
          rewrite String.eqb_refl, Nat.eqb_refl in E. discriminate.
  Qed.

  Lemma uniform_eq x : forall y, uniform x -> uniform y -> pyop K x y = true -> x = y.
  Proof.
    assert (forall l, Forall (fun x => forall y, uniform x -> uniform y -> pyop K x y = true -> x = y) l -> forall l',
      (fix all (l : list obj) : Prop := match l with [] => True | x :: r => uniform x /\ all r end) l ->
      (fix all (l : list obj) : Prop := match l with [] => True | x :: r => uniform x /\ all r end) l' ->
      (fix seq (l l' : list obj) : bool :=
        match l, l' with [], [] => true | a :: r, b :: t => pyop K a b && seq r t | _, _ => false end) l l' = true -> l = l') as G.
    { induction l as [|a l IL]; intros FA [|b l'] Ul Ul' E; try discriminate; [reflexivity|].
      inversion FA as [|? ? Fa Fl]; subst. apply andb_true_iff in E as [E1 E2].
      rewrite (Fa b (proj1 Ul) (proj1 Ul') E1). f_equal. apply (IL Fl l' (proj2 Ul) (proj2 Ul') E2). }
    induction x as [| b | z | q | s | l IH | l IH | l | c i f] using obj_nested; intros y Ux Uy E;
      try (destruct Ux; fail); destruct y; cbn in Uy, E; try contradiction; try discriminate.
    - reflexivity.
    - apply Qeq_bool_iff in E. unfold Qeq in E. cbn in E. f_equal. lia.
    - apply String.eqb_eq in E. congruence.
    - f_equal. apply (G l IH l0 Ux Uy E).
    - f_equal. apply (G l IH l0 Ux Uy E).
  Qed.

  Lemma uniform_refl x : uniform x -> pyop K x x = true.
  Proof.
    induction x as [| b | z | q | s | l IH | l IH | l | c i f] using obj_nested; intros Ux; try (destruct Ux; fail).
    - reflexivity.
    - cbn. apply Qeq_bool_iff. reflexivity.
    - cbn. apply String.eqb_refl.
    - cbn in *. induction l as [|a l IL]; [reflexivity|]. inversion IH; subst. destruct Ux. rewrite H2 by assumption. auto.
    - cbn in *. induction l as [|a l IL]; [reflexivity|]. inversion IH; subst. destruct Ux. rewrite H2 by assumption. auto.
  Qed.

  Lemma elements_flat shape : forall strides offset mem, row_major shape strides ->
    elements shape strides offset mem = map (fun i => mem (offset + Z.of_nat i)%Z) (List.seq 0 (fold_right Nat.mul 1 shape)).
  Proof.
    induction shape as [|n r IH]; intros [|s t] offset mem RM; cbn in RM; try contradiction.
    - cbn. rewrite Z.add_0_r. reflexivity.
    - destruct RM as [-> RM]. cbn [elements fold_right]. set (m := fold_right Nat.mul 1 r).
      assert (forall k b, flat_map (fun i => elements r t (offset + Z.of_nat i * Z.of_nat m)%Z mem) (List.seq b k) =
                map (fun i => mem (offset + Z.of_nat i)%Z) (List.seq (b * m) (k * m))) as G.
      { induction k as [|k IK]; intros b; [reflexivity|]. cbn [List.seq flat_map Nat.mul]. rewrite seq_app, map_app.
        f_equal.
        - rewrite (IH t _ mem RM). fold m. replace (b * m) with (b * m + 0) by lia.
          generalize 0 at 1 2. intros a. 
          assert (forall q a, map (fun i => mem (offset + Z.of_nat b * Z.of_nat m + Z.of_nat i)%Z) (List.seq a q) =
                    map (fun i => mem (offset + Z.of_nat i)%Z) (List.seq (b * m + a) q)) as GG.
          { induction q as [|q IQ]; intros a'; [reflexivity|]. cbn [List.seq map]. f_equal; [f_equal; lia|].
            rewrite IQ. do 2 f_equal. lia. }
          apply GG.
        - rewrite IK. do 2 f_equal. lia. }
      specialize (G n 0). exact G.
  Qed.

  Lemma digest_eq d : forall l l' seed, all_equal l l' = true ->
    fold_left (fun seed x => h_combine H seed (h_prim H d x)) l seed =
    fold_left (fun seed x => h_combine H seed (h_prim H d x)) l' seed.
  Proof.
    induction l as [|x l IH]; intros [|y l'] seed E; try discriminate; [reflexivity|].
    cbn [all_equal] in E. apply andb_true_iff in E as [E1 E2]. apply Qeq_bool_iff in E1. cbn [fold_left].
    rewrite (proj2 SANE d _ _ E1). apply IH. exact E2.
  Qed.

  Lemma fold_left_map A B C (f : A -> B -> A) (g : C -> B) l : forall a,
    fold_left f (map g l) a = fold_left (fun a c => f a (g c)) l a.
  Proof. induction l; intros; cbn; auto. Qed.

  Lemma array_hash_flat a : handled (a_dtype a) = true -> row_major (a_shape a) (a_strides a) ->
    array_hash H a = Ok (digest H (a_dtype a) (elems a)).
  Proof.
    intros Ha RM. unfold array_hash, digest, elems, size. rewrite Ha, (elements_flat _ _ _ _ RM), fold_left_map. reflexivity.
  Qed.
End Proofs.

(** ** Theorems *)

Section Theorems.
  Variable K : string -> cls.
  Variable H : hashes.

  (** C117.  Hashable Python values: the comparison answers, and answers "equal" exactly for values that mean the
      same to Python, except that an integer on the left is not recognised in a float on the right; values
      that mean the same have the same hash, which never raises. *)
  Theorem C117_hashable x y : sane H -> usable K x -> usable K y ->
    exists b h, py_equal K (VObj x) (VObj y) = Ok b /\ py_hash K H (VObj x) = Ok h /\
      (b = true -> mean K x = mean K y) /\
      (mean K x = mean K y -> b = true \/ (is_int x = true /\ is_float y = true)) /\
      (mean K x = mean K y -> py_hash K H (VObj y) = Ok h).
  Proof.
    intros SA Ux Uy. destruct (equal_mean Ux Uy) as (b & E & E1 & E2).
    destruct (hash_total K H x (proj1 Ux)) as (h & Eh). exists b, (shifted h). split; [exact E|].
    split; [unfold py_hash; rewrite Eh; reflexivity|]. split; [exact E1|]. split; [exact E2|].
    intros M. unfold py_hash. rewrite <- (hash_mean K SA _ _ (proj1 Ux) (proj1 Uy) M), Eh. reflexivity.
  Qed.

  (** Lists, and tuples and lists of integers and texts, are recognised exactly. *)
  Theorem C117_lists x y : uniform x -> uniform y -> py_equal K (VObj x) (VObj y) = Ok true <-> x = y.
  Proof.
    intros Ux Uy. cbn [py_equal]. split.
    - intros E. assert (match eq_method K x y with Some b => b | None => text_eqb (repr K x) (repr K y) end = true) as B by congruence.
      clear E. destruct (eq_method K x y) as [b|] eqn:M.
      + subst b. apply (@uniform_eq K); auto.
        destruct x, y; cbn in Ux, Uy; try contradiction; cbn [eq_method] in M; try discriminate; try congruence. reflexivity.
      + destruct x, y; cbn in Ux, Uy; try contradiction; cbn [eq_method] in M; discriminate.
    - intros <-. pose proof (uniform_refl K x Ux) as R.
      destruct x; cbn in Ux; try contradiction; cbn [eq_method]; try rewrite R; reflexivity.
  Qed.

  Theorem C117_lists_hash l : exists h, py_hash K H (VObj (OList l)) = Ok h.
  Proof. eexists. reflexivity. Qed.

  (** numpy arrays of the same handled element type, stored without gaps: the hash is a function of their
      elements, and arrays that compare equal have the same hash. *)
  Theorem C117_arrays a b : sane H -> handled (a_dtype a) = true -> a_dtype a = a_dtype b ->
    row_major (a_shape a) (a_strides a) -> row_major (a_shape b) (a_strides b) ->
    py_hash K H (VArr a) = Ok (digest H (a_dtype a) (elems a)) /\
    (py_equal K (VArr a) (VArr b) = Ok true <-> a_shape a = a_shape b /\ all_equal (elems a) (elems b) = true) /\
    (py_equal K (VArr a) (VArr b) = Ok true -> py_hash K H (VArr a) = py_hash K H (VArr b)).
  Proof.
    intros SA Ha D Ra Rb. cbn [py_hash py_equal].
    rewrite (array_hash_flat H a Ha Ra). rewrite (array_hash_flat H b ltac:(congruence) Rb).
    split; [reflexivity|]. unfold array_equal. split.
    - destruct (list_eq_dec Nat.eq_dec (a_shape a) (a_shape b)); cbn; split; try intuition congruence.
    - intros E. assert (all_equal (elems a) (elems b) = true) as AE.
      { destruct (list_eq_dec Nat.eq_dec (a_shape a) (a_shape b)); cbn in E; congruence. }
      rewrite <- D. unfold digest. rewrite (digest_eq SA _ _ _ _ AE). reflexivity.
  Qed.
End Theorems.

(** ** Concrete cases *)

Definition classes (n : string) : cls :=
  if String.eqb n "Point" then Cls true HashFields true          (* a frozen dataclass *)
  else if String.eqb n "Printed" then Cls false HashIdentity true (* only [__repr__] *)
  else Cls false HashIdentity false.                               (* a plain class *)

Definition some_hashes : hashes :=
  Hashes 3 (fun q => Qnum (Qred q)) (fun s => Z.of_nat (String.length s)) (fun l => fold_left (fun a b => 31 * a + b)%Z l 7%Z)
    (fun s t => Z.of_nat (String.length t)) Z.of_nat (fun _ => 0%Z) (fun _ q => Qnum (Qred q)) (fun a b => 31 * a + b)%Z.

Lemma some_sane : sane some_hashes.
Proof. split; cbn; intros; f_equal; apply Qred_complete; assumption. Qed.

Open Scope string_scope.

Definition state1 := OTup [OInt 1; OStr "a"; OInst "Point" 4 "x=1"].
Definition state2 := OTup [OFloat 1; OStr "a"; OInst "Point" 9 "x=1"].

Example C117_hashable_example :
  usable classes state1 /\ usable classes state2 /\ mean classes state1 = mean classes state2 /\
  py_equal classes (VObj state1) (VObj state2) = Ok true /\
  py_hash classes some_hashes (VObj state1) = py_hash classes some_hashes (VObj state2) /\
  py_equal classes (VObj state1) (VObj (OTup [OInt 2; OStr "a"; OInst "Point" 4 "x=1"])) = Ok false /\
  usable classes (OInst "Other" 3 "f") /\
  py_equal classes (VObj (OInst "Other" 3 "f")) (VObj (OInst "Other" 5 "f")) = Ok false.
Proof. repeat split; cbn; auto. Qed.

Example C117_lists_example :
  uniform (OList [OInt 1; OTup [OStr "b"; OInt 2]]) /\
  py_equal classes (VObj (OList [OInt 1; OTup [OStr "b"; OInt 2]])) (VObj (OList [OInt 1; OTup [OStr "b"; OInt 2]])) = Ok true.
Proof. repeat split. Qed.

Definition cells (z : Z) : Q := inject_Z z.
(** Two by three, row after row; and every second number of the same memory. *)
Definition block := Array Int64 [2; 3] [3; 1]%Z 10 cells.
Definition copy := Array Int64 [2; 3] [3; 1]%Z 0 (fun z => inject_Z (z + 10)).
Example C117_arrays_example :
  row_major (a_shape block) (a_strides block) /\ row_major (a_shape copy) (a_strides copy) /\
  elems block = map inject_Z [10; 11; 12; 13; 14; 15]%Z /\
  py_equal classes (VArr block) (VArr copy) = Ok true.
Proof. repeat split. Qed.

(** ** What does not hold *)

(** An integer and the float of the same value: the answer depends on which one comes first. *)
Theorem C117_number_types_refuted : exists K x y, usable K x /\ usable K y /\ mean K x = mean K y /\
  py_equal K (VObj x) (VObj y) = Ok false /\ py_equal K (VObj y) (VObj x) = Ok true.
Proof. exists classes, (OInt 1), (OFloat 1). repeat split. Qed.

(** Equal dictionaries filled in a different order are hashed as different texts. *)
Theorem C117_dictionary_order_refuted : exists K x y t1 t2,
  py_equal K (VObj x) (VObj y) = Ok true /\ py_equal K (VObj y) (VObj x) = Ok true /\ t1 <> t2 /\
  forall H, py_hash K H (VObj x) = Ok (shifted (h_text H t1)) /\ py_hash K H (VObj y) = Ok (shifted (h_text H t2)).
Proof.
  exists classes, (ODict [(OStr "a", OInt 1); (OStr "b", OInt 2)]), (ODict [(OStr "b", OInt 2); (OStr "a", OInt 1)]).
  do 2 eexists. do 3 (split; [shelve|]). split; reflexivity.
  Unshelve. all: cbn; try reflexivity. discriminate.
Qed.

(** Equal lists that mix integers and floats are hashed as different texts. *)
Theorem C117_list_numbers_refuted : exists K x y t1 t2,
  py_equal K (VObj x) (VObj y) = Ok true /\ py_equal K (VObj y) (VObj x) = Ok true /\ t1 <> t2 /\
  forall H, py_hash K H (VObj x) = Ok (shifted (h_text H t1)) /\ py_hash K H (VObj y) = Ok (shifted (h_text H t2)).
Proof.
  exists classes, (OList [OInt 1]), (OList [OFloat 1]).
  do 2 eexists. do 3 (split; [shelve|]). split; reflexivity.
  Unshelve. all: cbn; try reflexivity. discriminate.
Qed.

(** Instances of a class that only defines [__repr__] are equal when they print alike, but hashed by identity. *)
Theorem C117_repr_only_refuted : exists K x y i j, hashable K x /\ hashable K y /\ i <> j /\
  py_equal K (VObj x) (VObj y) = Ok true /\
  forall H, py_hash K H (VObj x) = Ok (shifted (h_id H i)) /\ py_hash K H (VObj y) = Ok (shifted (h_id H j)).
Proof.
  exists classes, (OInst "Printed" 1 "f"), (OInst "Printed" 2 "f"), 1, 2.
  repeat split; cbn; auto.
Qed.

(** A tuple that contains a list has no hash, although it can be compared and the list alone can be hashed. *)
Theorem C117_tuple_of_list_refuted : exists K x, uniform x /\ py_equal K (VObj x) (VObj x) = Ok true /\
  forall H, py_hash K H (VObj x) = Err TypeError.
Proof. exists classes, (OTup [OList [OInt 1]]). repeat split. Qed.

(** Boolean arrays have no hash. *)
Theorem C117_boolean_array_refuted : exists K a, a_dtype a = DBool /\ row_major (a_shape a) (a_strides a) /\
  py_equal K (VArr a) (VArr a) = Ok true /\ forall H, py_hash K H (VArr a) = Err ValueError.
Proof. exists classes, (Array DBool [1] [1]%Z 0 (fun _ => 1%Q)). repeat split. Qed.

(** A view with gaps is hashed by numbers that are not its elements, so that equal arrays get the hashes of
    different lists of numbers. *)
Theorem C117_view_refuted : exists K a b l l', a_dtype a = a_dtype b /\ py_equal K (VArr a) (VArr b) = Ok true /\ l <> l' /\
  forall H, py_hash K H (VArr a) = Ok (digest H (a_dtype a) l) /\ py_hash K H (VArr b) = Ok (digest H (a_dtype b) l').
Proof.
  exists classes, (Array Int64 [2] [2]%Z 0 cells), (Array Int64 [2] [1]%Z 0 (fun z => inject_Z (2 * z))),
    [0%Q; 1%Q], [0%Q; 2%Q].
  split; [reflexivity|]. split; [reflexivity|]. split; [discriminate|]. intros H. split; reflexivity.
Qed.

Print Assumptions C117_hashable.
Print Assumptions C117_lists.
Print Assumptions C117_lists_hash.
Print Assumptions C117_arrays.
Print Assumptions C117_number_types_refuted.
Print Assumptions C117_dictionary_order_refuted.
Print Assumptions C117_list_numbers_refuted.
Print Assumptions C117_repr_only_refuted.
Print Assumptions C117_tuple_of_list_refuted.
Print Assumptions C117_boolean_array_refuted.
Print Assumptions C117_view_refuted.
