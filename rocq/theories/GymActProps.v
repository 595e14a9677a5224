(** C108: the discretised actions of a gym domain. *)
From Coq Require Import String.
From Coq Require Import List Bool Arith ZArith QArith Lia Lqa.
Import ListNotations.
From Verif Require Import Py PyList GymActModel.
Open Scope nat_scope.

(** The elements of a discrete action space, as (nested) lists. *)
Fixpoint member (sp : aspace) (a : act) {struct sp} : Prop :=
  match sp with
  | ADiscrete n => match a with AInt z => (0 <= z < n)%Z | _ => False end
  | AMultiDiscrete nvec =>
      exists zs, a = AList (map AInt zs) /\ Forall2 (fun n z => (0 <= z < n)%Z) nvec zs
  | ATuple sps =>
      match a with
      | AList l =>
          (fix all (sps : list aspace) (l : list act) : Prop :=
             match sps, l with
             | [], [] => True
             | s :: r, x :: t => member s x /\ all r t
             | _, _ => False
             end) sps l
      | _ => False
      end
  | _ => False
  end.

(** Discrete and MultiDiscrete spaces, and tuples of discrete spaces; none of them empty. *)
Fixpoint discrete (sp : aspace) : Prop :=
  match sp with
  | ADiscrete _ => True
  | AMultiDiscrete nvec => nvec <> []
  | ATuple sps => sps <> [] /\
      (fix all (l : list aspace) : Prop := match l with [] => True | s :: r => discrete s /\ all r end) sps
  | _ => False
  end.

(** ** Proofs *)

Lemma zrange_In : forall n z, In z (zrange n) <-> (0 <= z < n)%Z.
Proof.
  intros n z. unfold zrange. rewrite in_map_iff. split.
  - intros (k & <- & I). apply in_seq in I. lia.
  - intros H. exists (Z.to_nat z). split; [lia|]. apply in_seq. lia.
Qed.
Lemma zrange_NoDup : forall n, NoDup (zrange n).
Proof.
  intros n. unfold zrange. apply FinFun.Injective_map_NoDup; [|apply seq_NoDup].
  intros a b. apply Nat2Z.inj.
Qed.
Lemma zrange_nil : forall n, (n <= 0)%Z -> zrange n = [].
Proof. intros n H. unfold zrange. replace (Z.to_nat n) with 0 by lia. reflexivity. Qed.

Lemma NoDup_map_inj : forall A B (f : A -> B) l, (forall x y, In x l -> In y l -> f x = f y -> x = y) ->
  NoDup l -> NoDup (map f l).
Proof.
  intros A B f l H N. induction N as [|x l I N IH]; simpl; constructor.
  - intros K. apply in_map_iff in K. destruct K as (y & E & K). apply I.
    rewrite <- (H y x); auto; [right; auto|left; auto].
  - apply IH. intros. apply H; auto; right; auto.
Qed.

Lemma NoDup_product : forall A B C (f : A -> B -> C) l (g : list B),
  (forall a b a' b', In b g -> In b' g -> f a b = f a' b' -> a = a' /\ b = b') ->
  NoDup l -> NoDup g -> NoDup (flat_map (fun a => map (f a) g) l).
Proof.
  intros A B C f l g H L G. induction L as [|a l I L IH]; simpl; [constructor|].
  assert (A1 : NoDup (map (f a) g)).
  { apply NoDup_map_inj; auto. intros x y X Y E. exact (proj2 (H _ _ _ _ X Y E)). }
  assert (D : forall x, In x (map (f a) g) -> ~ In x (flat_map (fun a => map (f a) g) l)).
  { intros x X Y. apply in_map_iff in X. destruct X as (b & <- & B1). apply in_flat_map in Y.
    destruct Y as (a' & A2 & Y). apply in_map_iff in Y. destruct Y as (b' & E & B2).
    destruct (H _ _ _ _ B2 B1 E) as [-> _]. contradiction. }
  clear -A1 D IH. induction (map (f a) g) as [|x m IHm]; simpl; auto.
  inversion A1; subst. constructor.
  - intros K. apply in_app_or in K. destruct K; [contradiction|]. apply (D x); [left; auto|auto].
  - apply IHm; auto. intros y Y. apply D. right. auto.
Qed.

Definition is_list (a : act) : Prop := exists l, a = AList l.

Lemma mapM_cons : forall A (es : list A) (f : A -> act) (g : list act), Forall is_list g ->
  mapM (fun p => match p with (e, AList l) => Ok (AList (f e :: l)) | _ => Err TypeError end)
       (flat_map (fun e => map (fun a => (e, a)) g) es) =
  Ok (flat_map (fun e => map (fun a => match a with AList l => AList (f e :: l) | _ => a end) g) es).
Proof.
  intros A es f g H. rewrite (mapM_total _ (fun p => match snd p with AList l => AList (f (fst p) :: l) | a => a end)).
  - f_equal. induction es as [|e es IH]; simpl; auto. rewrite map_app, IH. f_equal.
    rewrite map_map. apply map_ext. intros [ | | ]; reflexivity.
  - intros [e a] I. apply in_flat_map in I. destruct I as (e' & _ & I). apply in_map_iff in I.
    destruct I as (b & E & I). injection E as -> ->. rewrite Forall_forall in H.
    destruct (H _ I) as (l & ->). reflexivity.
Qed.

Lemma multi_ok : forall nvec, nvec <> [] ->
  exists l, multi nvec = Ok l /\ NoDup l /\ forall a, In a l <-> member (AMultiDiscrete nvec) a.
Proof.
  induction nvec as [|n r IH]; intros H; [congruence|]. destruct r as [|n' r].
  - eexists. split; [reflexivity|]. split.
    + apply NoDup_map_inj; [|apply zrange_NoDup]. intros x y _ _ E. congruence.
    + intros a. rewrite in_map_iff. split.
      * intros (z & <- & I). apply zrange_In in I. exists [z]. split; auto.
      * intros (zs & -> & F). inversion F as [|? z ? t Z T]; subst. inversion T; subst.
        exists z. split; auto. apply zrange_In. auto.
  - destruct (IH ltac:(discriminate)) as (g & G & ND & M). clear IH.
    cbn [multi]. cbn [multi] in G. destruct (Z.leb_spec n 0) as [L|L].
    + cbn [bind]. rewrite zrange_nil by auto. exists []. split; [reflexivity|]. split; [constructor|].
      intros a. split; [intros []|]. intros (zs & _ & F). inversion F; subst. lia.
    + rewrite G. cbn [bind].
      assert (GL : Forall is_list g).
      { apply Forall_forall. intros a I. apply M in I. destruct I as (zs & -> & _). eexists. reflexivity. }
      rewrite (mapM_cons _ _ AInt g GL). eexists. split; [reflexivity|]. split.
      * apply NoDup_product with (f := fun e a => match a with AList l => AList (AInt e :: l) | _ => a end).
        -- intros a b a' b' B B' E. rewrite Forall_forall in GL.
           destruct (GL _ B) as (x & ->), (GL _ B') as (y & ->). injection E as -> ->. auto.
        -- apply zrange_NoDup.
        -- exact ND.
      * intros a. rewrite in_flat_map. split.
        -- intros (z & Z & I). apply in_map_iff in I. destruct I as (b & <- & B).
           apply M in B. destruct B as (zs & -> & F). exists (z :: zs). split; auto.
           constructor; auto. apply zrange_In. exact Z.
        -- intros (zs & -> & F). inversion F as [|? z ? t Z T]; subst. exists z.
           split; [apply zrange_In; auto|]. apply in_map_iff. exists (AList (map AInt t)). split; auto.
           apply M. exists t. auto.
Qed.

Section Ind.
  Variable P : aspace -> Prop.
  Hypothesis HT : forall l, Forall P l -> P (ATuple l).
  Hypothesis HO : forall sp, (forall l, sp <> ATuple l) -> P sp.
  Fixpoint aspace_rect' (sp : aspace) : P sp :=
    match sp with
    | ATuple l => HT l ((fix go l : Forall P l :=
                           match l with [] => Forall_nil P | s :: r => Forall_cons s (aspace_rect' s) (go r) end) l)
    | sp' => HO sp' ltac:(intros; discriminate)
    end.
End Ind.

Section D.
  Variable draw : nat -> Q.
  Variable D : nat.

  Lemma discretize_ok : forall sp, discrete sp ->
    exists l, (forall c, discretize draw D sp c = Ok (Some l, c)) /\ NoDup l /\ forall a, In a l <-> member sp a.
  Proof.
    intros sp. induction sp as [sps IH|sp NT] using aspace_rect'; intros DI.
    - destruct DI as [NE DI].
      assert (G : exists l,
        (forall c, (fix generate (sps : list aspace) : RM (list act) :=
           match sps with
           | [] => rfail IndexError
           | s :: r =>
               let? o := discretize draw D s in
               match o with
               | None => rfail AttributeError
               | Some es =>
                   match r with
                   | [] => rret (map (fun e => AList [e]) es)
                   | _ :: _ =>
                       (fix each (es : list act) : RM (list act) :=
                          match es with
                          | [] => rret []
                          | e :: t => let? g := generate r in
                                      let? l := (fun c => let* l := mapM (cons_act e) g in Ok (l, c)) in
                                      let? m := each t in rret (l ++ m)
                          end) es
                   end
               end
           end) sps c = Ok (l, c)) /\ NoDup l /\ forall a, In a l <-> member (ATuple sps) a).
      { induction sps as [|s r IHr]; [congruence|]. destruct DI as [D1 D2].
        inversion IH as [|? ? I1 I2]; subst. destruct (I1 D1) as (es & E & ND & M).
        destruct r as [|s' r].
        - exists (map (fun e => AList [e]) es). split; [intros c; unfold rbind; rewrite E; reflexivity|]. split.
          + apply NoDup_map_inj; auto. intros x y _ _ X. congruence.
          + intros a. rewrite in_map_iff. split.
            * intros (e & <- & I). simpl. split; auto. apply M. auto.
            * intros K. destruct a as [|l|]; try destruct K. destruct l as [|x [|y l]]; try contradiction.
              -- destruct K as [K _]. exists x. split; auto. apply M. auto.
              -- destruct K as [_ []].
        - destruct (IHr I2 ltac:(discriminate) D2) as (g & G & GD & GM).
          assert (GL : Forall is_list g).
          { apply Forall_forall. intros a I. apply GM in I. destruct a; try destruct I. eexists. reflexivity. }
          exists (flat_map (fun e => map (fun a => match a with AList l => AList (e :: l) | _ => a end) g) es).
          split; [|split].
          + intros c. unfold rbind at 1. rewrite E. clear E ND M. revert c.
            induction es as [|e es IHe]; intros c; [reflexivity|].
            unfold rbind at 1. rewrite G. unfold rbind at 1.
            rewrite (mapM_total _ (fun a => match a with AList l => AList (e :: l) | _ => a end)).
            * cbn [bind]. unfold rbind at 1. rewrite IHe. reflexivity.
            * intros a I. rewrite Forall_forall in GL. destruct (GL _ I) as (l & ->). reflexivity.
          + apply NoDup_product with (f := fun e a => match a with AList l => AList (e :: l) | _ => a end); auto.
            intros a b a' b' B B' X. rewrite Forall_forall in GL.
            destruct (GL _ B) as (x & ->), (GL _ B') as (y & ->). injection X as -> ->. auto.
          + intros a. rewrite in_flat_map. split.
            * intros (e & I & K). apply in_map_iff in K. destruct K as (b & <- & B).
              rewrite Forall_forall in GL. destruct (GL _ B) as (l & ->).
              apply GM in B. split; [apply M; auto|exact B].
            * intros K. destruct a as [|l|]; try destruct K. destruct l as [|x l]; [destruct K|].
              destruct K as [K1 K2]. exists x. split; [apply M; auto|]. apply in_map_iff.
              exists (AList l). split; auto. apply GM. exact K2. }
      destruct G as (l & G & ND & M). exists l. split; [|split; auto].
      intros c. cbn [discretize]. unfold rbind at 1. rewrite G. reflexivity.
    - destruct sp; cbn [discrete] in DI; try contradiction.
      + eexists. split; [intros c; reflexivity|]. split.
        * apply NoDup_map_inj; [|apply zrange_NoDup]. intros x y _ _ E. congruence.
        * intros a. rewrite in_map_iff. split.
          -- intros (z & <- & I). apply zrange_In in I. exact I.
          -- intros K. destruct a; try destruct K. eexists. split; [reflexivity|]. apply zrange_In. simpl in *. lia.
      + destruct (multi_ok nvec DI) as (l & E & ND & M). exists l. split; [|split; auto].
        intros c. cbn [discretize]. rewrite E. reflexivity.
      + exfalso. apply (NT l). reflexivity.
  Qed.
End D.

(** ** Theorems *)

(** For a discrete action space (Discrete, MultiDiscrete, nested non-empty tuples of them) and no
    branching factor, the applicable actions are exactly the elements of the space, each once. *)
Theorem C108_discrete : forall draw D sample sp, discrete sp ->
  exists l, applicable_actions draw D sample sp None = Ok (Some l) /\ NoDup l /\
            forall a, In a l <-> member sp a.
Proof.
  intros draw D sample sp H. destruct (discretize_ok draw D sp H) as (l & E & ND & M).
  exists l. split; auto. unfold applicable_actions. rewrite E. reflexivity.
Qed.
Example C108_discrete_ex :
  discrete (ATuple [ADiscrete 2; AMultiDiscrete [2; 1]%Z]) /\
  applicable_actions (fun _ => 0%Q) 10 (fun l k => firstn k l) (ATuple [ADiscrete 2; AMultiDiscrete [2; 1]%Z]) None =
  Ok (Some [AList [AInt 0; AList [AInt 0; AInt 0]]; AList [AInt 0; AList [AInt 1; AInt 0]];
            AList [AInt 1; AList [AInt 0; AInt 0]]; AList [AInt 1; AList [AInt 1; AInt 0]]]).
Proof. split; [simpl; repeat split; discriminate|vm_compute; reflexivity]. Qed.
Print Assumptions C108_discrete.

(** For a Box with one bounded cell and a factor of at least two: as many actions as the factor, evenly
    spaced from the lower to the upper bound, both included. *)
Theorem C108_box_grid : forall draw D sample l h, 2 <= D -> (l <= h)%Q ->
  exists qs, applicable_actions draw D sample (ABox [1] [(Fin l, Fin h)]) None =
               Ok (Some (map (fun q => AArr [CV q]) qs)) /\
    length qs = D /\
    (nth 0 qs 0 == l)%Q /\ (nth (D - 1)%nat qs 0 == h)%Q /\
    (forall i, i + 1 < D -> (nth (i + 1)%nat qs 0 - nth i qs 0 == (h - l) / inject_Z (Z.of_nat (D - 1)%nat))%Q) /\
    (forall q, In q qs -> l <= q <= h)%Q.
Proof.
  intros draw D sample l h HD LH.
  set (d := ((h - l) / inject_Z (Z.of_nat (D - 1)))%Q).
  set (f := fun i => (l + (h - l) / inject_Z (Z.of_nat D - 1) * inject_Z (Z.of_nat i))%Q).
  assert (F : forall i, (f i == l + d * inject_Z (Z.of_nat i))%Q).
  { intros i. unfold f, d. replace (Z.of_nat (D - 1)) with (Z.of_nat D - 1)%Z by lia. reflexivity. }
  assert (DP : (0 < inject_Z (Z.of_nat (D - 1)))%Q).
  { change 0%Q with (inject_Z 0). rewrite <- Zlt_Qlt. lia. }
  assert (d0 : (0 <= d)%Q).
  { unfold d. apply Qle_shift_div_l; auto. lra. }
  assert (dD : (d * inject_Z (Z.of_nat (D - 1)) == h - l)%Q).
  { unfold d. field. lra. }
  assert (NF : forall i, i < D -> nth i (map f (seq 0 D)) 0%Q = f i).
  { intros i I. rewrite (nth_indep _ 0%Q (f 0)) by (rewrite map_length, seq_length; auto).
    rewrite map_nth, seq_nth by auto. reflexivity. }
  exists (map f (seq 0 D)). split.
  - unfold applicable_actions. cbn [discretize length Nat.eqb cells_values cell_values].
    unfold rbind, rret. destruct (Nat.eqb_spec D 1); [lia|]. cbn [combos].
    fold f. change (seq 0 D) with (seq 0 D).
    assert (G : forall l0, (fix go (vs : list cellv) : res (list act) :=
        match vs with
        | [] => Ok []
        | v :: t => let* l1 := (let* a := box_action [1] ([] ++ [v]) in Ok [a]) in
                    let* m := go t in Ok (l1 ++ m)
        end) (map (fun i => CV (f i)) l0) = Ok (map (fun i => AArr [CV (f i)]) l0)).
    { induction l0 as [|i l0 IH]; [reflexivity|]. cbn [map]. cbn [app box_action bind].
      cbn [app box_action bind] in IH. rewrite IH. reflexivity. }
    cbn [bind fst]. rewrite G. cbn [bind fst]. rewrite map_map. reflexivity.
  - split; [rewrite map_length, seq_length; reflexivity|].
    split; [rewrite NF by lia; rewrite F; change (inject_Z (Z.of_nat 0)) with 0%Q; lra|].
    split; [rewrite NF by lia; rewrite F, dD; lra|].
    split.
    + intros i I. rewrite !NF by lia. rewrite !F. fold d.
      replace (Z.of_nat (i + 1)) with (Z.of_nat i + 1)%Z by lia. rewrite inject_Z_plus.
      change (inject_Z 1) with 1%Q. lra.
    + intros q I. apply in_map_iff in I. destruct I as (i & <- & I). apply in_seq in I. rewrite F.
      assert (I0 : (0 <= inject_Z (Z.of_nat i))%Q) by (change 0%Q with (inject_Z 0); rewrite <- Zle_Qle; lia).
      assert (I1 : (inject_Z (Z.of_nat i) <= inject_Z (Z.of_nat (D - 1)))%Q) by (rewrite <- Zle_Qle; lia).
      split.
      * assert (0 <= d * inject_Z (Z.of_nat i))%Q by (apply Qmult_le_0_compat; auto). lra.
      * assert (d * inject_Z (Z.of_nat i) <= d * inject_Z (Z.of_nat (D - 1)))%Q.
        { rewrite (Qmult_comm d), (Qmult_comm d). apply Qmult_le_compat_r; auto. }
        lra.
Qed.
Example C108_box_grid_ex :
  exists qs, applicable_actions (fun _ => 0%Q) 3 (fun l k => firstn k l) (ABox [1] [(Fin (-1), Fin 1)]) None =
  Ok (Some (map (fun q => AArr [CV q]) qs)) /\ map Qred qs = [-1; 0; 1]%Q.
Proof.
  destruct (C108_box_grid (fun _ => 0%Q) 3 (fun l k => firstn k l) (-1)%Q 1%Q) as (qs & E & _);
    [lia|lra|]. exists qs. split; [exact E|]. vm_compute in E. injection E as E.
  destruct qs as [|a [|b [|c [|x qs]]]]; try discriminate. injection E as <- <- <-. vm_compute. reflexivity.
Qed.
Print Assumptions C108_box_grid.

(** A branching factor keeps at most that many of them: when the discretisation has more actions, the
    applicable ones are exactly that many, at distinct positions; otherwise they are all kept. *)
Definition picks (sample : list act -> nat -> list act) : Prop :=
  forall l k, k <= length l ->
    exists ps, NoDup ps /\ length ps = k /\
               Forall2 (fun p a => nth_error l p = Some a) ps (sample l k).

Theorem C108_branching : forall draw D sample sp b l, picks sample -> (0 <= b)%Z ->
  applicable_actions draw D sample sp None = Ok (Some l) ->
  exists m, applicable_actions draw D sample sp (Some b) = Ok (Some m) /\
    Z.of_nat (length m) = Z.min b (Z.of_nat (length l)) /\
    (forall a, In a m -> In a l) /\ (NoDup l -> NoDup m).
Proof.
  intros draw D sample sp b l P B E. unfold applicable_actions in *.
  destruct (discretize draw D sp 0) as [[o c]|] eqn:X; [|discriminate]. cbn [bind fst] in *.
  injection E as ->. destruct (Z.ltb_spec b (Z.of_nat (length l))) as [L|L].
  - destruct (Z.ltb_spec b 0) as [?|_]; [lia|]. eexists. split; [reflexivity|].
    destruct (P l (Z.to_nat b) ltac:(lia)) as (ps & ND & LP & F).
    assert (LM : forall (ps : list nat) m, Forall2 (fun p a => nth_error l p = Some a) ps m -> length ps = length m)
      by (clear; intros ps m F; induction F; simpl; auto).
    rewrite <- (LM _ _ F), LP. split; [lia|]. split.
    + clear LP ND. intros a I. induction F as [|p x ps m H F IH]; [destruct I|]. destruct I as [<-|I]; auto.
      eapply nth_error_In; eauto.
    + intros NL. clear LP LM. induction F as [|p x ps m H F IH]; constructor.
      * intros K. inversion ND as [|? ? N1 N2]; subst. apply N1.
        clear - F K H NL. induction F as [|q y ps m H1 F IH]; [destruct K|]. destruct K as [->|K]; [|right; auto].
        left. apply (proj1 (NoDup_nth_error l) NL); [apply nth_error_Some; congruence|congruence].
      * apply IH. inversion ND; auto.
  - exists l. split; [reflexivity|]. split; [lia|]. auto.
Qed.
Lemma firstn_picks : picks (fun l k => firstn k l).
Proof.
  intros l k H. exists (seq 0 k). split; [apply seq_NoDup|]. split; [apply seq_length|].
  assert (G : forall k (l pre : list act), k <= length l ->
    Forall2 (fun p a => nth_error (pre ++ l) p = Some a) (seq (length pre) k) (firstn k l)).
  { clear. induction k as [|k IH]; intros l pre H; [constructor|]. destruct l as [|x l]; [simpl in H; lia|].
    cbn [seq firstn]. constructor.
    - rewrite nth_error_app2, Nat.sub_diag by lia. reflexivity.
    - specialize (IH l (pre ++ [x])). rewrite <- app_assoc, app_length, Nat.add_1_r in IH.
      apply IH. simpl in H. lia. }
  apply (G k l []). exact H.
Qed.
Example C108_branching_ex :
  picks (fun l k => firstn k l) /\
  applicable_actions (fun _ => 0%Q) 10 (fun l k => firstn k l) (ADiscrete 5) (Some 2%Z) = Ok (Some [AInt 0; AInt 1]).
Proof. split; [apply firstn_picks|reflexivity]. Qed.
Print Assumptions C108_branching.

(** For a one-dimensional Box with several cells, only the first cell of an action is assigned: the
    others keep whatever the freshly allocated memory contained, in every action. *)
Theorem C108_box_vector_unset : forall draw D sample m bounds l a,
  applicable_actions draw D sample (ABox [S m] bounds) None = Ok (Some l) -> In a l ->
  exists c, a = AArr (c :: repeat CGarbage m).
Proof.
  intros draw D sample m bounds l a E I. unfold applicable_actions in E. cbn [discretize] in E.
  destruct (length bounds =? 0); [discriminate|]. unfold rbind in E.
  destruct (cells_values draw D bounds 0) as [[vs c]|]; [|discriminate]. cbn [bind fst] in E.
  destruct (combos vs [S m] []) as [x|] eqn:C; [|discriminate]. cbn [bind fst] in E. injection E as ->.
  assert (G : forall vs al l, combos vs [S m] al = Ok l -> forall a, In a l ->
              exists c, a = AArr (c :: repeat CGarbage m)).
  { clear. induction vs as [|v vs IH]; intros al l C a I.
    - cbn [combos box_action] in C. destruct al as [|x al]; [discriminate|]. injection C as <-.
      destruct I as [<-|[]]. eexists. reflexivity.
    - cbn [combos] in C. revert l C I. induction v as [|x v IHv]; intros l C I.
      + injection C as <-. destruct I.
      + apply bind_ok in C. destruct C as (l1 & C1 & C). apply bind_ok in C.
        destruct C as (l2 & C2 & C). injection C as <-. apply in_app_or in I. destruct I as [I|I].
        * exact (IH _ _ C1 _ I).
        * exact (IHv _ C2 I). }
  exact (G _ _ _ C _ I).
Qed.
Print Assumptions C108_box_vector_unset.

(** So the discretisation of a bounded two-dimensional action space contains no element of that space
    whatever the factor: the actions handed to the planner are not even in the Box. *)
Theorem C108_box_vector_refuted : exists bounds l, length bounds = 2 /\
  applicable_actions (fun _ => 0%Q) 2 (fun l k => firstn k l) (ABox [2] bounds) None = Ok (Some l) /\
  length l = 4 /\ Forall (fun a => exists c, a = AArr [c; CGarbage]) l.
Proof.
  exists [(Fin 0, Fin 1); (Fin 0, Fin 1)].
  destruct (applicable_actions (fun _ => 0%Q) 2 (fun l k => firstn k l) (ABox [2] [(Fin 0, Fin 1); (Fin 0, Fin 1)]) None)
    as [[l|]|] eqn:E; try (vm_compute in E; discriminate).
  exists l. split; [reflexivity|]. split; [reflexivity|].
  split; [vm_compute in E; injection E as <-; reflexivity|].
  apply Forall_forall. intros a I. exact (C108_box_vector_unset _ _ _ 1 _ _ _ E I).
Qed.
Print Assumptions C108_box_vector_refuted.

(** Boxes whose shape is not one-dimensional, MultiBinary spaces and dictionaries are not discretised:
    the first two raise TypeError, a dictionary gives None instead of a space - and AttributeError as
    soon as it is nested in a tuple or a branching factor is given. *)
Theorem C108_other_spaces_refuted : exists box bin dict,
  applicable_actions (fun _ => 0%Q) 2 (fun l k => firstn k l) box None = Err TypeError /\
  applicable_actions (fun _ => 0%Q) 2 (fun l k => firstn k l) bin None = Err TypeError /\
  applicable_actions (fun _ => 0%Q) 2 (fun l k => firstn k l) dict None = Ok None /\
  applicable_actions (fun _ => 0%Q) 2 (fun l k => firstn k l) dict (Some 3%Z) = Err AttributeError /\
  applicable_actions (fun _ => 0%Q) 2 (fun l k => firstn k l) (ATuple [dict]) None = Err AttributeError.
Proof.
  exists (ABox [1; 1] [(Fin 0, Fin 1)]), (AMultiBinary 3), (ADict [("a"%string, ADiscrete 2)]).
  repeat split; vm_compute; reflexivity.
Qed.
Print Assumptions C108_other_spaces_refuted.

(** A discretisation factor of one gives NaN instead of a bound. *)
Theorem C108_factor_one_refuted : exists l h, (l < h)%Q /\
  applicable_actions (fun _ => 0%Q) 1 (fun l k => firstn k l) (ABox [1] [(Fin l, Fin h)]) None = Ok (Some [AArr [CNaN]]).
Proof. exists 0%Q, 1%Q. split; [lra|]. vm_compute. reflexivity. Qed.
Print Assumptions C108_factor_one_refuted.
