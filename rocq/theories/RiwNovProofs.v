(** Proofs about the novelty of RiwModel.v: the tables hold, for every combination of values, the least depth at which it
    was seen. *)
From Coq Require Import List Bool Arith ZArith Lia Sorted.
From Verif Require Import Py PyList PyMore IwSpec IwTupleProofs RiwModel.
From Verif Require IwModel.
Import ListNotations.
Open Scope nat_scope.

Section Nov.
Context {V : Type} {EV : PyEq V}.
Local Notation tuple := (list (nat * V)).
Local Notation table := (list (tuple * Z)).

Section Step.
Variables (f : list V) (d : Z) (nn : bool).

Definition test (o : option Z) : Prop :=
  match o with None => True | Some d0 => (nn = true /\ (d < d0)%Z) \/ (nn = false /\ d0 = d) end.
Definition low (o : option Z) : Z := match o with None => d | Some d0 => Z.min d0 d end.

Lemma step_tuple : forall k nov novel (tbl : table) cv t, tup f cv = Ok t ->
  exists novel', novelty_tuple f d nn k (nov, novel, tbl) cv =
    Ok (match dget tbl t with None => Nat.min nov k | Some _ => nov end, novel', dset tbl t (low (dget tbl t))) /\
  (novel' = true <-> novel = true \/ test (dget tbl t)).
Proof.
  intros k nov novel tbl cv t E. unfold novelty_tuple. unfold tup in E. rewrite E. cbn [bind].
  destruct (dget tbl t) as [d0|]; cbn [low test].
  - eexists. split; [reflexivity|]. destruct novel, nn; cbn; rewrite ?orb_false_r, ?orb_true_r; cbn.
    + split; [auto|reflexivity].
    + split; [auto|reflexivity].
    + rewrite Z.ltb_lt. split; [intros L; right; left; auto|intros [X|[[_ L]|[X _]]]; [discriminate|exact L|discriminate]].
    + rewrite Z.eqb_eq. split; [intros L; right; right; auto|intros [X|[[X _]|[_ L]]]; [discriminate|discriminate|exact L]].
  - exists true. split; [reflexivity|]. split; auto.
Qed.

Definition seen_in (tbl : table) cv : Prop := forall t, tup f cv = Ok t -> dget tbl t <> None.

Lemma fold_tuples : forall k cvs nov novel (tbl : table), NoDup cvs -> (forall cv, In cv cvs -> exists t, tup f cv = Ok t) ->
  exists nov' novel' tbl', foldM (novelty_tuple f d nn k) (nov, novel, tbl) cvs = Ok (nov', novel', tbl') /\
    (forall cv t, In cv cvs -> tup f cv = Ok t -> dget tbl' t = Some (low (dget tbl t))) /\
    (forall t, (forall cv, In cv cvs -> tup f cv <> Ok t) -> dget tbl' t = dget tbl t) /\
    (novel' = true <-> novel = true \/ exists cv t, In cv cvs /\ tup f cv = Ok t /\ test (dget tbl t)) /\
    ((nov' = Nat.min nov k /\ exists cv t, In cv cvs /\ tup f cv = Ok t /\ dget tbl t = None) \/
     (nov' = nov /\ forall cv, In cv cvs -> seen_in tbl cv)).
Proof.
  intros k. induction cvs as [|cv cvs IH]; intros nov novel tbl N T.
  - exists nov, novel, tbl. split; [reflexivity|]. split; [intros cv t []|]. split; [reflexivity|]. split.
    + split; [auto|]. intros [H|(cv & t & [] & _)]; exact H.
    + right. split; [reflexivity|intros cv []].
  - inversion N as [|? ? Nc N']; subst. destruct (T cv (or_introl eq_refl)) as (t & Et).
    destruct (step_tuple k nov novel tbl cv t Et) as (nv & E & Hn).
    cbn [foldM]. rewrite E. cbn [bind].
    destruct (IH (match dget tbl t with None => Nat.min nov k | Some _ => nov end) nv (dset tbl t (low (dget tbl t))) N'
      (fun c I => T c (or_intror I))) as (nov' & novel' & tbl' & E' & H1 & H2 & H3 & H4).
    assert (Other : forall cv' t', In cv' cvs -> tup f cv' = Ok t' -> dget (dset tbl t (low (dget tbl t))) t' = dget tbl t').
    { intros cv' t' I Et'. rewrite dget_dset_other; [reflexivity|]. intros <-. destruct (tup_same f f cv cv' t Et Et') as (-> & _). contradiction. }
    exists nov', novel', tbl'. split; [exact E'|]. split; [|split; [|split]].
    + intros cv' t' [<-|I] Et'.
      * rewrite Et in Et'. injection Et' as <-. rewrite H2; [apply dget_dset_same|].
        intros cv' I Et'. destruct (tup_same f f cv cv' t Et Et') as (-> & _). contradiction.
      * rewrite (H1 _ _ I Et'). rewrite (Other _ _ I Et'). reflexivity.
    + intros t' Hno. rewrite H2 by (intros c I; apply Hno; now right).
      rewrite dget_dset_other; [reflexivity|]. intros <-. exact (Hno cv (or_introl eq_refl) Et).
    + rewrite H3, Hn. split.
      * intros [[A|A]|(c & t' & I & Et' & A)]; [auto| |].
        -- right. exists cv, t. split; [now left|auto].
        -- right. exists c, t'. rewrite (Other _ _ I Et') in A. split; [now right|auto].
      * intros [A|(c & t' & [<-|I] & Et' & A)]; [auto| |].
        -- rewrite Et in Et'. injection Et' as <-. auto.
        -- right. exists c, t'. rewrite (Other _ _ I Et'). auto.
    + destruct (dget tbl t) as [d0|] eqn:Ed.
      * destruct H4 as [(H4 & c & t' & I & Et' & A)|(H4 & H5)].
        -- left. split; [exact H4|]. exists c, t'. rewrite (Other _ _ I Et') in A. split; [now right|auto].
        -- right. split; [exact H4|]. intros c [<-|I] t' Et'; [rewrite Et in Et'; injection Et' as <-; congruence|].
           specialize (H5 _ I _ Et'). now rewrite (Other _ _ I Et') in H5.
      * left. split; [destruct H4 as [(-> & _)|(-> & _)]; lia|]. exists cv, t. split; [now left|auto].
Qed.

(** One table, for the combinations of size [k] *)
Definition upd (k : nat) (tbl tbl' : table) : Prop :=
  (forall cv t, choice k (length f) cv -> tup f cv = Ok t -> dget tbl' t = Some (low (dget tbl t))) /\
  (forall t, (forall cv, choice k (length f) cv -> tup f cv <> Ok t) -> dget tbl' t = dget tbl t).
Definition hit (k : nat) (tbl : table) : Prop := exists cv t, choice k (length f) cv /\ tup f cv = Ok t /\ test (dget tbl t).
Definition first (k : nat) (tbl : table) : Prop := exists cv t, choice k (length f) cv /\ tup f cv = Ok t /\ dget tbl t = None.

Lemma step_size : forall k nov novel (tbls : list table), 1 <= k <= length f -> k <= length tbls ->
  exists nov' novel' tbl', novelty_size f d nn (nov, novel, tbls) k = Ok (nov', novel', lset tbls (k - 1) tbl') /\
    upd k (nth (k - 1) tbls []) tbl' /\ (novel' = true <-> novel = true \/ hit k (nth (k - 1) tbls [])) /\
    ((nov' = Nat.min nov k /\ first k (nth (k - 1) tbls [])) \/ (nov' = nov /\ ~ first k (nth (k - 1) tbls []))).
Proof.
  intros k nov novel tbls Hk Hl. unfold novelty_size.
  assert (L : k - 1 < length tbls) by lia.
  assert (E0 : lget tbls (k - 1) = Ok (nth (k - 1) tbls [])).
  { unfold lget. rewrite (nth_error_nth' tbls [] L). reflexivity. }
  rewrite E0. cbn [bind]. rewrite generate_ok by lia. cbn [bind].
  assert (C : forall cv, In cv (combs k 0 (length f - k)) <-> choice k (length f) cv) by (intros cv; apply combs_choice; lia).
  destruct (fold_tuples k (combs k 0 (length f - k)) nov novel (nth (k - 1) tbls []) (combs_NoDup _ _ _))
    as (nov' & novel' & tbl' & E & H1 & H2 & H3 & H4).
  { intros cv I. apply tup_total. exact (proj2 (proj2 (proj1 (C cv) I))). }
  rewrite E. cbn [bind]. unfold lput. rewrite (proj2 (Nat.ltb_lt _ _) L). cbn [bind].
  exists nov', novel', tbl'. split; [reflexivity|]. split; [split|split].
  - intros cv t Hc Et. apply (H1 cv t); [exact (proj2 (C cv) Hc)|exact Et].
  - intros t Hno. apply H2. intros cv I. apply Hno. exact (proj1 (C cv) I).
  - rewrite H3. split; (intros [A|(cv & t & I & R)]; [auto|]; right; exists cv, t; split; [|exact R]).
    + exact (proj1 (C cv) I).
    + exact (proj2 (C cv) I).
  - destruct H4 as [(H4 & cv & t & I & R)|(H4 & H5)].
    + left. split; [exact H4|]. exists cv, t. split; [exact (proj1 (C cv) I)|exact R].
    + right. split; [exact H4|]. intros (cv & t & Hc & Et & Nn). exact (H5 cv (proj2 (C cv) Hc) t Et Nn).
Qed.

Lemma fold_sizes : forall n b nov novel (tbls : list table), 1 <= b -> b + n <= S (length f) -> b + n <= S (length tbls) ->
  exists nov' novel' tbls', foldM (novelty_size f d nn) (nov, novel, tbls) (seq b n) = Ok (nov', novel', tbls') /\
    length tbls' = length tbls /\
    (forall k, b <= k < b + n -> upd k (nth (k - 1) tbls []) (nth (k - 1) tbls' [])) /\
    (forall k, 1 <= k -> (k < b \/ b + n <= k) -> nth (k - 1) tbls' [] = nth (k - 1) tbls []) /\
    (novel' = true <-> novel = true \/ exists k, b <= k < b + n /\ hit k (nth (k - 1) tbls [])) /\
    ((exists k, b <= k < b + n /\ first k (nth (k - 1) tbls []) /\ nov' = Nat.min nov k /\
        forall k', b <= k' < k -> ~ first k' (nth (k' - 1) tbls [])) \/
     (nov' = nov /\ forall k, b <= k < b + n -> ~ first k (nth (k - 1) tbls []))).
Proof.
  induction n as [|n IH]; intros b nov novel tbls Hb Hf Ht.
  - exists nov, novel, tbls. split; [reflexivity|]. split; [reflexivity|]. split; [intros; lia|]. split; [reflexivity|]. split.
    + split; [auto|]. intros [A|(k & K & _)]; [exact A|lia].
    + right. split; [reflexivity|intros; lia].
  - cbn [seq foldM].
    destruct (step_size b nov novel tbls) as (nov1 & novel1 & tbl1 & E & U & Hn & Hv); [lia|lia|].
    rewrite E. cbn [bind].
    assert (Other : forall k, k <> b -> 1 <= k -> nth (k - 1) (lset tbls (b - 1) tbl1) [] = nth (k - 1) tbls []).
    { intros k N K. assert (Ne : k - 1 <> b - 1) by lia. clear - Ne. revert Ne. generalize (k - 1), (b - 1). intros i j. revert i j.
      induction tbls as [|x l IHl]; intros [|i] [|j] Ne; cbn; auto; try congruence. }
    assert (Here : nth (b - 1) (lset tbls (b - 1) tbl1) [] = tbl1).
    { assert (L : b - 1 < length tbls) by lia. clear - L. revert L. generalize (b - 1). intros i. revert i.
      induction tbls as [|x l IHl]; intros [|i] L; cbn in *; try lia; auto. apply IHl. lia. }
    destruct (IH (S b) nov1 novel1 (lset tbls (b - 1) tbl1)) as (nov' & novel' & tbls' & E' & L' & H1 & H2 & H3 & H4);
      [lia|lia|rewrite lset_length; lia|].
    exists nov', novel', tbls'. split; [exact E'|]. split; [now rewrite L', lset_length|]. split; [|split; [|split]].
    + intros k K. destruct (Nat.eq_dec k b) as [->|N].
      * rewrite (H2 b) by lia. rewrite Here. exact U.
      * rewrite <- (Other k) by lia. apply H1. lia.
    + intros k K1 K2. rewrite (H2 k) by lia. apply Other; lia.
    + rewrite H3, Hn. split.
      * intros [[A|A]|(k & K & A)]; [auto| |].
        -- right. exists b. split; [lia|exact A].
        -- right. exists k. rewrite Other in A by lia. split; [lia|exact A].
      * intros [A|(k & K & A)]; [auto|]. destruct (Nat.eq_dec k b) as [->|N]; [auto|].
        right. exists k. rewrite Other by lia. split; [lia|exact A].
    + destruct Hv as [(Ev & Fb)|(Ev & Fb)].
      * left. exists b. split; [lia|]. split; [exact Fb|]. split; [|intros; lia].
        destruct H4 as [(k & K & _ & -> & _)|(-> & _)]; lia.
      * subst nov1. destruct H4 as [(k & K & Fk & Ek & Lk)|(Ek & Lk)].
        -- left. exists k. rewrite Other in Fk by lia. split; [lia|]. split; [exact Fk|]. split; [exact Ek|].
           intros k' K'. destruct (Nat.eq_dec k' b) as [->|N]; [exact Fb|]. specialize (Lk k'). rewrite Other in Lk by lia. apply Lk. lia.
        -- right. split; [exact Ek|]. intros k K. destruct (Nat.eq_dec k b) as [->|N]; [exact Fb|].
           specialize (Lk k). rewrite Other in Lk by lia. apply Lk. lia.
Qed.
End Step.

(** The table of size [k] holds the least depth of every combination of values seen so far. *)
Definition tab (k : nat) (tbl : table) (seen : list (list V * Z)) : Prop := forall t,
  match dget tbl t with
  | None => forall f d cv, In (f, d) seen -> choice k (length f) cv -> tup f cv <> Ok t
  | Some d0 => (exists f cv, In (f, d0) seen /\ choice k (length f) cv /\ tup f cv = Ok t) /\
      forall f d cv, In (f, d) seen -> choice k (length f) cv -> tup f cv = Ok t -> (d0 <= d)%Z
  end.

Lemma tab_upd : forall f d k tbl tbl' seen, tab k tbl seen -> upd f d k tbl tbl' -> tab k tbl' (seen ++ [(f, d)]).
Proof.
  intros f d k tbl tbl' seen T (U1 & U2) t. specialize (T t).
  assert (D : (exists cv, choice k (length f) cv /\ tup f cv = Ok t) \/ forall cv, choice k (length f) cv -> tup f cv <> Ok t).
  { destruct (le_lt_dec k (length f)) as [Lk|Lk].
    - assert (G : forall l, (exists cv, In cv l /\ tup f cv = Ok t) \/ forall cv, In cv l -> tup f cv <> Ok t).
      { induction l as [|cv l [(c & I & E)|H]]; [right; intros ? []|left; exists c; split; [now right|exact E]|].
        destruct (tup f cv) as [u|e] eqn:E.
        - destruct (pyeqb_spec u t) as [->|N]; [left; exists cv; split; [now left|exact E]|].
          right. intros c [<-|I]; [congruence|auto].
        - right. intros c [<-|I]; [congruence|auto]. }
      destruct (G (combs k 0 (length f - k))) as [(cv & I & E)|H].
      + left. exists cv. split; [exact (proj1 (combs_choice _ _ _ Lk) I)|exact E].
      + right. intros cv C. apply H. exact (proj2 (combs_choice _ _ _ Lk) C).
    - right. intros cv C. apply choice_le in C. lia. }
  destruct D as [(cv & C & E)|No].
  - rewrite (U1 _ _ C E). destruct (dget tbl t) as [d0|]; cbn [low].
    + destruct T as [(f0 & cv0 & I0 & C0 & E0) Lo]. split.
      * destruct (Z.min_spec d0 d) as [[_ ->]|[_ ->]].
        -- exists f0, cv0. split; [apply in_or_app; now left|auto].
        -- exists f, cv. split; [apply in_or_app; right; now left|auto].
      * intros f1 d1 cv1 I C1 E1. apply in_app_or in I. destruct I as [I|[I|[]]].
        -- specialize (Lo _ _ _ I C1 E1). lia.
        -- injection I as <- <-. lia.
    + split; [exists f, cv; split; [apply in_or_app; right; now left|auto]|].
      intros f1 d1 cv1 I C1 E1. apply in_app_or in I. destruct I as [I|[I|[]]]; [exfalso; eapply T; eauto|]. injection I as <- <-. lia.
  - rewrite (U2 _ No). destruct (dget tbl t) as [d0|].
    + destruct T as [(f0 & cv0 & I0 & C0 & E0) Lo]. split; [exists f0, cv0; split; [apply in_or_app; now left|auto]|].
      intros f1 d1 cv1 I C1 E1. apply in_app_or in I. destruct I as [I|[I|[]]]; [eapply Lo; eauto|]. injection I as <- <-. exfalso. eapply No; eauto.
    + intros f1 d1 cv1 I C1 E1. apply in_app_or in I. destruct I as [I|[I|[]]]; [eapply T; eauto|]. injection I as <- <-. eapply No; eauto.
Qed.

Definition tabs (width : nat) (tbls : list table) (seen : list (list V * Z)) : Prop :=
  length tbls = width /\ forall k, 1 <= k <= width -> tab k (nth (k - 1) tbls []) seen.

Lemma tabs_start : forall width, tabs width (repeat [] width) [].
Proof.
  intros width. split; [apply repeat_length|]. intros k K t.
  assert (E : nth (k - 1) (repeat ([] : table) width) [] = []) by apply nth_repeat. rewrite E. cbn. intros f d cv [].
Qed.

Lemma table_agree : forall k tbl seen f cv t, tab k tbl seen -> choice k (length f) cv -> tup f cv = Ok t ->
  match dget tbl t with
  | None => forall f' d', In (f', d') seen -> ~ agree f f' cv
  | Some d0 => (exists f', In (f', d0) seen /\ agree f f' cv) /\ forall f' d', In (f', d') seen -> agree f f' cv -> (d0 <= d')%Z
  end.
Proof.
  intros k tbl seen f cv t T C E. specialize (T t).
  assert (Ch : forall f', agree f f' cv -> choice k (length f') cv /\ tup f' cv = Ok t).
  { intros f' Ag. pose proof (tup_agree f f' cv t E Ag) as E'. destruct (tup_same f f' cv cv t E E') as (_ & _ & F).
    split; [|exact E']. destruct C as (C1 & C2 & _). split; [exact C1|]. split; [exact C2|exact F]. }
  destruct (dget tbl t) as [d0|].
  - destruct T as [(f0 & cv0 & I0 & C0 & E0) Lo]. destruct (tup_same f f0 cv cv0 t E E0) as (-> & Ag & _). split; [eauto|].
    intros f' d' I Ag'. destruct (Ch f' Ag') as [C' E']. eapply Lo; eauto.
  - intros f' d' I Ag'. destruct (Ch f' Ag') as [C' E']. eapply T; eauto.
Qed.

Lemma novelty_all : forall width tbls seen f d nn, tabs width tbls seen -> exists nov novel tbls',
  novelty_of width tbls f d nn = Ok (nov, novel, tbls') /\ tabs width tbls' (seen ++ [(f, d)]) /\
  is_novelty width f (map fst seen) nov /\
  (novel = true <-> exists k idx, 1 <= k <= width /\ choice k (length f) idx /\
     ((forall f' d', In (f', d') seen -> ~ agree f f' idx) \/
      (if nn then forall f' d', In (f', d') seen -> agree f f' idx -> (d < d')%Z
       else (exists f', In (f', d) seen /\ agree f f' idx) /\
            forall f' d', In (f', d') seen -> agree f f' idx -> (d <= d')%Z))).
Proof.
  intros width tbls seen f d nn (L & T). unfold novelty_of.
  destruct (fold_sizes f d nn (Nat.min width (length f)) 1 (S (length f)) false tbls)
    as (nov & novel & tbls' & E & L' & H1 & H2 & H3 & H4); [lia|lia|lia|].
  exists nov, novel, tbls'. split; [exact E|].
  assert (Fresh : forall k, 1 <= k <= width -> first f k (nth (k - 1) tbls []) <-> fresh k f (map fst seen)).
  { intros k K. split.
    - intros (cv & t & C & Et & Nn). exists cv. split; [exact C|]. intros f' I. apply in_map_iff in I. destruct I as ([g e] & <- & I).
      pose proof (table_agree k _ _ f cv t (T k K) C Et) as A. rewrite Nn in A. exact (A g e I).
    - intros (cv & C & No). destruct (tup_total f cv (proj2 (proj2 C))) as (t & Et). exists cv, t. split; [exact C|]. split; [exact Et|].
      pose proof (table_agree k _ _ f cv t (T k K) C Et) as A. destruct (dget (nth (k - 1) tbls []) t) as [d0|]; [|reflexivity].
      destruct A as [(f' & I & Ag) _]. exfalso. apply (No f'); [apply in_map_iff; exists (f', d0); auto|exact Ag]. }
  split; [|split].
  - split; [lia|]. intros k K. destruct (le_lt_dec k (length f)) as [Lk|Lk].
    + eapply tab_upd; [apply T; exact K|]. apply H1. lia.
    + rewrite H2 by lia. eapply tab_upd; [apply T; exact K|]. split; [|reflexivity].
      intros cv t C. apply choice_le in C. lia.
  - destruct H4 as [(k & K & Fk & -> & Lk)|(-> & No)].
    + right. rewrite Nat.min_r by lia. split; [lia|]. split; [apply Fresh; [lia|exact Fk]|].
      intros k' K' F'. apply (Lk k'); [lia|]. apply Fresh; [lia|exact F'].
    + left. split; [reflexivity|]. intros k K F. pose proof F as (cv & C & _). apply choice_le in C. apply (No k); [lia|]. apply Fresh; [exact K|exact F].
  - rewrite H3. split.
    + intros [X|(k & K & cv & t & C & Et & Te)]; [discriminate|]. exists k, cv. split; [lia|]. split; [exact C|].
      assert (K' : 1 <= k <= width) by lia.
      pose proof (table_agree k _ _ f cv t (T k K') C Et) as A. destruct (dget (nth (k - 1) tbls []) t) as [d0|]; [|left; exact A].
      right. destruct A as [(f' & I & Ag) Lo]. cbn [test] in Te. destruct Te as [[-> Lt]|[-> <-]].
      * intros g e Ig Ga. specialize (Lo _ _ Ig Ga). lia.
      * split; [eauto|exact Lo].
    + intros (k & cv & K & C & H). right. exists k. pose proof (choice_le _ _ _ C) as Lk. split; [lia|].
      destruct (tup_total f cv (proj2 (proj2 C))) as (t & Et). exists cv, t. split; [exact C|]. split; [exact Et|].
      pose proof (table_agree k _ _ f cv t (T k K) C Et) as A. destruct (dget (nth (k - 1) tbls []) t) as [d0|]; [|exact I]. cbn [test].
      destruct A as [(f' & I0 & Ag) Lo]. destruct H as [H|H]; [exfalso; exact (H _ _ I0 Ag)|]. destruct nn.
      * left. split; [reflexivity|]. eapply H; eauto.
      * right. split; [reflexivity|]. destruct H as [(g & Ig & Ga) H]. specialize (H _ _ I0 Ag). specialize (Lo _ _ Ig Ga). lia.
Qed.
End Nov.
