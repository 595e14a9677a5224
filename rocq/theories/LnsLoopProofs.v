(** The rounds of large neighbourhood search. *)
From Coq Require Import List Bool Arith ZArith Lia.
From Verif Require Import Py PyList StoreModel StoreProps LnsModel LnsSpec LnsProofs.
Import ListNotations.

Section P.
Context {Sol : Type} {ES : PyEq Sol}.
Notation store := (@store Sol).

Lemma best_fit_top : forall mx (r : store) p, maximize r = mx -> best_fit r = Ok p -> In p (fits r) /\ top mx (fits r) (snd p).
Proof.
  intros mx r p M E. unfold best_fit in E. rewrite M in E. apply pick_optimal in E as [I O]. split; auto. split; [eauto|].
  intros [s f] Iq. specialize (O s f Iq). destruct mx; cbn; lia.
Qed.
Lemma best_fit_some : forall (r : store), fits r <> [] -> exists p, best_fit r = Ok p.
Proof. intros r N. apply pick_total, N. Qed.
Lemma best_fit_none : forall (r : store), fits r = [] -> best_fit r = Err ValueError.
Proof. intros r E. unfold best_fit. rewrite E. reflexivity. Qed.

Lemma top_snoc_nil : forall mx base (ls : list (list (Sol * Z))) o, top mx (hist base ls) o -> top mx (hist base (ls ++ [[]])) o.
Proof. intros mx base ls o T. rewrite hist_snoc, app_nil_r. exact T. Qed.
Lemma quiet_nil : forall mx base (ls : list (list (Sol * Z))) o q, top mx (hist base ls) o -> quiet mx base ls q -> quiet mx base (ls ++ [[]]) (S q).
Proof.
  intros mx base ls o q T Q. apply quiet_more; auto. intros R. apply (record_snoc _ _ _ _ _ T) in R as (p & [] & _).
Qed.
Lemma quiet_take : forall mx base (ls : list (list (Sol * Z))) l o f q, top mx (hist base ls) o -> top mx l f -> quiet mx base ls q ->
  quiet mx base (ls ++ [l]) (if better mx f o then 0 else S q).
Proof.
  intros mx base ls l o f q T Tl Q. destruct (better mx f o) eqn:E.
  - apply beats_better in E. apply quiet_record, (record_snoc _ _ _ _ _ T). destruct Tl as ((p & Ip & <-) & _). eauto.
  - apply quiet_more; auto. intros R. apply (record_snoc _ _ _ _ _ T) in R as (p & Ip & B).
    assert (N : ~ beats mx f o) by (intros H; apply beats_better in H; congruence). apply N.
    destruct Tl as (_ & A). specialize (A p Ip). destruct (beats_cases mx (snd p) f) as [K|[K|K]]; [tauto|congruence|].
    eapply beats_trans; eauto.
Qed.

Section CP.
Variables (mx skip : bool) (nb limit : nat).
Variable handler : nat -> option store -> res unit.
Variable solve : nat -> option store -> res store.
Variable post : nat -> store -> res store.
Variable satisfy : Sol -> res bool.
Variable late : nat -> bool.
Hypothesis Sense : forall it r r', post it r = Ok r' -> maximize r' = mx.
Hypothesis Sat : forall s, exists b, satisfy s = Ok b.
Notation find := (found solve post).

Record inv (base : list (Sol * Z)) (past : list (list (Sol * Z))) (g : lns) (st : store) : Prop := {
  i_store : l_store g = Some st;
  i_ready : ready mx st;
  i_best : exists s o, l_best g = Some (s, o) /\ top mx (hist base past) o;
  i_quiet : quiet mx base past (l_quiet g) }.

Lemma failed_inv : forall base past g st, inv base past g st ->
  inv base (past ++ [[]]) (Lns (l_store g) (l_best g) (S (l_quiet g))) st.
Proof.
  intros base past g st [I1 I2 (s & o & E & T) I4]. constructor; cbn [l_store l_best l_quiet]; auto.
  - exists s, o. split; auto. now apply top_snoc_nil.
  - eapply quiet_nil; eauto.
Qed.

Lemma take_inv : forall base past g st st1 r p, inv base past g st -> ready mx st1 -> maximize r = mx -> best_fit r = Ok p ->
  inv base (past ++ [fits r]) (Lns (Some st1) (l_best (take mx p g)) (l_quiet (take mx p g))) st1.
Proof.
  intros base past g st st1 r p [I1 I2 (s & o & E & T) I4] R1 M B. destruct (best_fit_top mx r p M B) as [Ip Tp].
  pose proof (top_app _ _ _ _ _ T Tp) as Tn. rewrite <- hist_snoc in Tn. pose proof (quiet_take _ _ _ _ _ _ _ T Tp I4) as Qn.
  unfold take. rewrite E. destruct p as [sp fp]. cbn [snd] in *.
  constructor; cbn [l_store l_best l_quiet]; auto.
  - destruct (better mx fp o); [cbn; eauto|]. destruct (Z.eqb_spec fp o) as [->|N]; cbn; eauto.
  - destruct (better mx fp o); [cbn; eauto|]. destruct (Z.eqb_spec fp o) as [->|N]; cbn; eauto.
Qed.

Lemma attempt_inv : forall it base past g st, skip && (it =? 0) = false -> inv base past g st ->
  exists gb st1, attempt mx skip solve post satisfy it g = Ok gb /\
    inv base (past ++ [find it (Some st)])
        (if snd gb then fst gb else Lns (l_store (fst gb)) (l_best (fst gb)) (S (l_quiet (fst gb)))) st1 /\
    fits st1 = merge (fits st) (find it (Some st)).
Proof.
  intros it base past g st Sk I. pose proof (i_store _ _ _ _ I) as Es. unfold attempt, found. rewrite Es.
  destruct (solve it (Some st)) as [r|e] eqn:So; [|exists (g, false), st; cbn [fst snd merge]; split; [reflexivity|split; [now apply failed_inv|reflexivity]]].
  destruct (fits r) as [|q l] eqn:Fr.
  - exists (Lns (Some st) (l_best g) (S (l_quiet g)), true), st. cbn [fst snd merge]. split; [reflexivity|]. split; [|reflexivity].
    rewrite <- Es. now apply failed_inv.
  - destruct (post it r) as [r'|e] eqn:Po; [|exists (g, false), st; cbn [fst snd merge]; split; [reflexivity|split; [now apply failed_inv|reflexivity]]].
    pose proof (Sense _ _ _ Po) as M. destruct (best_fit r') as [p|e] eqn:B.
    + assert (Nf : fits r' <> []) by (intros Z0; rewrite (best_fit_none _ Z0) in B; discriminate).
      destruct (add_all_ready mx (fits r') st (i_ready _ _ _ _ I)) as (st1 & A & R1 & F1).
      exists (Lns (Some st1) (l_best (take mx p g)) (l_quiet (take mx p g)), true), st1. cbn [fst snd]. split; [|split; [|exact F1]].
      * unfold enter. rewrite Sk. assert (Et : l_store (take mx p g) = Some st).
        { unfold take. destruct (l_best g) as [[s o]|]; [|exact Es]. destruct (better mx _ o); [exact Es|]. destruct (_ =? _)%Z; exact Es. }
        rewrite Et. destruct (fits r') as [|q' l'] eqn:Fr'; [congruence|]. rewrite A. cbn [bind snd fst].
        pose proof (take_inv base past g st st1 r' p I R1 M B) as It. rewrite Fr' in It. destruct (i_best _ _ _ _ It) as (s & o & Eb & _).
        cbn [l_best] in *. rewrite Eb. destruct (Sat s) as [b ->]. reflexivity.
      * now apply (take_inv base past g st).
    + assert (Z0 : fits r' = []).
      { destruct (fits r') eqn:F; auto. destruct (best_fit_some r') as [p1 P1]; [rewrite F; discriminate|congruence]. }
      exists (g, false), st. cbn [fst snd]. rewrite Z0. cbn [merge]. split; [reflexivity|split; [now apply failed_inv|reflexivity]].
Qed.

Definition stops_from (past : list (list (Sol * Z))) (n it : nat) (base : list (Sol * Z)) (ls : list (list (Sol * Z))) : Prop :=
  length ls <= n /\
  (forall k, 0 < k < length ls -> late (it + k - 1) = false /\ exists q, quiet mx base (past ++ firstn k ls) q /\ q <= limit) /\
  (length ls = n \/ 0 < length ls /\
     (late (it + length ls - 1) = true \/ exists q, quiet mx base (past ++ ls) q /\ limit < q)).

Lemma rounds_inv : forall n it base past g st, 0 < it \/ skip = false -> inv base past g st ->
  (forall g', lns_rounds mx skip limit handler solve post satisfy late n it g = Ok g' ->
     exists ls st', l_store g' = Some st' /\ ready mx st' /\ search find it st ls st' /\ stops_from past n it base ls) /\
  ((forall k st, handler k (Some st) = Ok tt) -> exists g', lns_rounds mx skip limit handler solve post satisfy late n it g = Ok g').
Proof.
  intros n. induction n as [|n IH]; intros it base past g st Pos I.
  - split; [|intros _; eexists; reflexivity]. intros g' H. injection H as <-. exists [], st. split; [apply (i_store _ _ _ _ I)|].
    split; [apply (i_ready _ _ _ _ I)|]. split; [constructor|]. unfold stops_from. cbn. split; auto. split; [intros; lia|auto].
  - cbn [lns_rounds]. unfold lns_round.
    assert (Sk : skip && (it =? 0) = false).
    { destruct Pos as [P| ->]; [|reflexivity]. destruct it; [lia|]. apply andb_false_r. }
    rewrite Sk, (i_store _ _ _ _ I).
    destruct (attempt_inv it base past g st Sk I) as (gb & st1 & A & I1 & F1). rewrite A.
    destruct (handler it (Some st)) as [[]|e] eqn:Hd; cbn [bind].
    2:{ split; [intros g' H; discriminate|]. intros Hh. rewrite Hh in Hd. discriminate. }
    set (g1 := if snd gb then _ else _) in *. destruct (IH (S it) base _ g1 st1 (or_introl (Nat.lt_0_succ it)) I1) as [IH1 IH2].
    set (l := find it (Some st)) in *.
    assert (One : forall g', Ok g1 = Ok g' -> late it = true \/ limit < l_quiet g1 -> exists ls st', l_store g' = Some st' /\ ready mx st' /\
      search find it st ls st' /\ stops_from past (S n) it base ls).
    { intros g' H Why. injection H as <-. exists [l], st1. split; [apply (i_store _ _ _ _ I1)|]. split; [apply (i_ready _ _ _ _ I1)|].
      split; [apply Search_round with st1; [exact F1|constructor]|]. unfold stops_from. cbn [length]. split; [lia|].
      split; [intros; lia|]. right. split; [lia|]. replace (it + 1 - 1) with it by lia. destruct Why as [W|W]; [auto|].
      right. exists (l_quiet g1). split; [apply (i_quiet _ _ _ _ I1)|exact W]. }
    destruct (late it) eqn:Lt; [split; [intros g' H; apply One; auto|intros _; eexists; reflexivity]|].
    destruct (limit <? l_quiet g1) eqn:Lq; [apply Nat.ltb_lt in Lq; split; [intros g' H; apply One; auto|intros _; eexists; reflexivity]|].
    apply Nat.ltb_ge in Lq. split; [|exact IH2]. intros g' H. destruct (IH1 g' H) as (ls & st' & E' & R' & S' & (T1 & T2 & T3)).
    exists (l :: ls), st'. split; auto. split; auto. split; [apply Search_round with st1; auto|]. unfold stops_from. cbn [length].
    split; [lia|]. split.
    + intros k Lk. destruct k as [|[|k]]; [lia| |].
      * replace (it + 1 - 1) with it by lia. split; auto. exists (l_quiet g1). cbn [firstn]. split; [apply (i_quiet _ _ _ _ I1)|exact Lq].
      * destruct (T2 (S k)) as (U1 & q & U2 & U3); [lia|]. replace (it + S (S k) - 1) with (S it + S k - 1) by lia. split; auto.
        exists q. split; auto. change (firstn (S (S k)) (l :: ls)) with ([l] ++ firstn (S k) ls). now rewrite app_assoc.
    + destruct T3 as [T3|(Ln & T3)]; [left; lia|]. right. split; [lia|]. replace (it + S (length ls) - 1) with (S it + length ls - 1) by lia.
      destruct T3 as [T3|(q & U2 & U3)]; [auto|]. right. exists q. split; auto. change (l :: ls) with ([l] ++ ls). now rewrite app_assoc.
Qed.

(** Nothing found in the first round although there is no initial solution. *)
Lemma no_store : forall n it g g', 0 < it -> l_store g = None ->
  lns_rounds mx skip limit handler solve post satisfy late n it g = Ok g' -> l_store g' = None.
Proof.
  clear - ES. intros n. induction n as [|n IH]; intros it g g' P E H; cbn [lns_rounds] in H; [congruence|].
  apply bind_ok in H as (g1 & H1 & H). unfold lns_round in H1. apply bind_ok in H1 as (u & _ & H1). apply bind_ok in H1 as (gb & Ha & H1).
  injection H1 as <-.
  assert (E1 : l_store (fst gb) = None).
  { unfold attempt in Ha. destruct (solve it (l_store g)) as [r|]; [|injection Ha as <-; exact E].
    destruct (fits r); [injection Ha as <-; exact E|]. destruct (post it r) as [r'|]; [|injection Ha as <-; exact E].
    destruct (best_fit r') as [q|] eqn:B; [|injection Ha as <-; exact E].
    assert (Et : l_store (take mx q g) = None).
    { unfold take. destruct (l_best g) as [[s o]|]; [|exact E]. destruct (better mx _ o); [exact E|]. destruct (_ =? _)%Z; exact E. }
    unfold enter in Ha. assert (Sk : skip && (it =? 0) = false) by (destruct it; [lia|apply andb_false_r]). rewrite Sk, Et in Ha.
    destruct (fits r') eqn:F; [rewrite (best_fit_none _ F) in B; discriminate|]. cbn [bind snd] in Ha. injection Ha as <-. exact Et. }
  assert (E2 : l_store (if snd gb then fst gb else Lns (l_store (fst gb)) (l_best (fst gb)) (S (l_quiet (fst gb)))) = None) by (destruct (snd gb); exact E1).
  destruct (late it); [congruence|]. destruct (limit <? _); [congruence|].
  exact (IH (S it) _ g' (Nat.lt_0_succ it) E2 H).
Qed.
End CP.

(** * The MILP version *)
Lemma tie_app : forall mx base (ls k : list (list (Sol * Z))) i, i < length ls -> tie mx base ls i -> tie mx base (ls ++ k) i.
Proof.
  intros mx base ls k i L (l & p & q & E & Ip & Eq & Q & B1 & B2 & B3). exists l, p, q. rewrite nth_error_app1 by lia.
  split; auto. split; auto. split; auto. split.
  - destruct Q as [Q|(j & l' & Lj & Ej & Iq)]; [auto|right]. exists j, l'. rewrite nth_error_app1 by lia. auto.
  - split; auto. split; auto. intros j l' q' Lj Ej Iq. rewrite nth_error_app1 in Ej by lia. exact (B3 j l' q' Lj Ej Iq).
Qed.
Lemma tie_snoc : forall mx base (ls : list (list (Sol * Z))) l o, top mx (hist base ls) o -> top mx l o -> tie mx base (ls ++ [l]) (length ls).
Proof.
  intros mx base ls l o ((q & Iq & Eq) & A) ((p & Ip & Ep) & B). exists l, p, q. rewrite nth_error_app2, Nat.sub_diag by lia.
  split; auto. split; auto. split; [congruence|]. rewrite Eq. split.
  - apply in_hist in Iq as [Iq|(j & l' & Ej & Iq)]; [auto|right]. assert (j < length ls) by (apply nth_error_Some; congruence).
    exists j, l'. rewrite nth_error_app1 by lia. auto.
  - split; [intros q' Iq'; apply A, in_hist; auto|]. split; [exact B|].
    intros j l' q' Lj Ej Iq'. rewrite nth_error_app1 in Ej by lia. apply A, in_hist. eauto.
Qed.

Lemma tie_app_inv : forall mx base (ls k : list (list (Sol * Z))) i, i < length ls -> tie mx base (ls ++ k) i -> tie mx base ls i.
Proof.
  intros mx base ls k i L (l & p & q & E & Ip & Eq & Q & B1 & B2 & B3). rewrite nth_error_app1 in E by lia. exists l, p, q.
  split; auto. split; auto. split; auto. split.
  - destruct Q as [Q|(j & l' & Lj & Ej & Iq)]; [auto|right]. exists j, l'. rewrite nth_error_app1 in Ej by lia. auto.
  - split; auto. split; auto. intros j l' q' Lj Ej Iq. apply (B3 j l' q' Lj); auto. rewrite nth_error_app1 by lia. exact Ej.
Qed.
Lemma tie_last : forall mx base (ls : list (list (Sol * Z))) l o f, top mx (hist base ls) o -> top mx l f -> tie mx base (ls ++ [l]) (length ls) -> f = o.
Proof.
  intros mx base ls l o f ((q0 & Iq0 & Eq0) & A) ((p0 & Ip0 & Ep0) & B) (l' & p & q & E & Ip & Eq & Q & B1 & B2 & B3).
  rewrite nth_error_app2, Nat.sub_diag in E by lia. injection E as <-.
  assert (Qh : In q (hist base ls)).
  { apply in_hist. destruct Q as [Q|(j & l' & Lj & Ej & Iq)]; [auto|right]. rewrite nth_error_app1 in Ej by lia. eauto. }
  assert (Qo : snd q = o).
  { destruct (beats_cases mx (snd q) o) as [K|[K|K]]; auto; exfalso; [exact (A q Qh K)|]. rewrite <- Eq0 in K.
    apply in_hist in Iq0 as [I0|(j & l' & Ej & I0)]; [exact (B1 q0 I0 K)|]. assert (j < length ls) by (apply nth_error_Some; congruence).
    apply (B3 j l' q0); auto. rewrite nth_error_app1 by lia. exact Ej. }
  destruct (beats_cases mx f o) as [K|[K|K]]; auto; exfalso.
  - apply (B2 p0 Ip0). congruence.
  - apply (B p Ip). congruence.
Qed.
Lemma ties_none : forall mx base, ties mx base ([] : list (list (Sol * Z))) 0.
Proof. intros. exists []. split; [constructor|]. split; auto. intros i. cbn. split; [tauto|]. intros (L & _). lia. Qed.
Lemma ties_take : forall mx base (ls : list (list (Sol * Z))) l o f n, top mx (hist base ls) o -> top mx l f -> ties mx base ls n ->
  ties mx base (ls ++ [l]) (if better mx f o then 0 else if (f =? o)%Z then S n else n).
Proof.
  intros mx base ls l o f n T Tl (idx & Nd & Len & H). pose proof (record_snoc _ _ _ l _ T) as Rs.
  assert (Step : better mx f o = false -> forall i, i < length ls ->
    (In i idx <-> i < length (ls ++ [l]) /\ tie mx base (ls ++ [l]) i /\ forall j, i <= j < length (ls ++ [l]) -> ~ record mx base (ls ++ [l]) j)).
  { intros Nb i Li. rewrite H, app_length. cbn [length].
    assert (Nr : ~ record mx base (ls ++ [l]) (length ls)).
    { intros R. apply Rs in R as (p & Ip & Bp). assert (better mx f o = true); [|congruence]. apply beats_better.
      destruct Tl as (_ & A). specialize (A p Ip). destruct (beats_cases mx (snd p) f) as [K|[K|K]]; [tauto|congruence|]. eapply beats_trans; eauto. }
    split.
    - intros (_ & Ti & Q). split; [lia|]. split; [now apply tie_app|]. intros j Lj. destruct (Nat.eq_dec j (length ls)) as [->|N]; auto.
      rewrite record_app by lia. apply Q. lia.
    - intros (_ & Ti & Q). split; [lia|]. split; [eapply tie_app_inv; eauto|]. intros j Lj R. apply (Q j); [lia|]. apply record_app; auto; lia. }
  destruct (better mx f o) eqn:Bt; [|destruct (Z.eqb_spec f o) as [->|N]].
  - exists []. split; [constructor|]. split; auto. intros i. split; [intros []|]. intros (Li & _ & Q). rewrite app_length in *. cbn [length] in *. exfalso.
    apply (Q (length ls)); [lia|]. apply Rs. destruct Tl as ((p & Ip & <-) & _). exists p. split; auto. now apply beats_better.
  - exists (length ls :: idx). split; [constructor; auto; intros I; apply H in I; lia|]. split; [cbn; lia|]. intros i.
    destruct (Nat.lt_trichotomy i (length ls)) as [L|[->|L]].
    + rewrite <- (Step eq_refl i L). cbn [In]. split; [intros [E|I]; [lia|exact I]|auto].
    + split; [|left; reflexivity]. intros _. rewrite app_length. cbn [length]. split; [lia|]. split; [eapply tie_snoc; eauto|].
      intros j Lj. replace j with (length ls) by lia. intros R. apply Rs in R as (p & Ip & Bp). destruct Tl as (_ & A). exact (A p Ip Bp).
    + split; [intros [E|I]; [lia|apply H in I; lia]|]. rewrite app_length. cbn [length]. intros (Q & _). lia.
  - exists idx. split; auto. split; auto. intros i. destruct (Nat.lt_trichotomy i (length ls)) as [L|[->|L]].
    + exact (Step eq_refl i L).
    + split; [intros I; apply H in I; lia|]. intros (_ & Ti & _). exfalso. exact (N (tie_last _ _ _ _ _ _ T Tl Ti)).
    + split; [intros I; apply H in I; lia|]. rewrite app_length. cbn [length]. intros (Q & _). lia.
Qed.

Section MILP.
Context {C : Type}.
Variables (mx skip : bool) (nb limit : nat).
Variable adding : nat -> store -> res C.
Variable removing : nat -> option C -> res unit.
Variable solve : nat -> option C -> res store.
Variable post : nat -> store -> res store.
Variable late : nat -> bool.
Hypothesis Sense : forall it r r', post it r = Ok r' -> maximize r' = mx.

(** [counted]: a best fitness is known. *)
Record minv (counted : bool) (base : list (Sol * Z)) (past : list (list (Sol * Z))) (g : lns) (st : store) : Prop := {
  n_store : l_store g = Some st;
  n_ready : ready mx st;
  n_best : if counted then exists s o, l_best g = Some (s, o) /\ top mx (hist base past) o
           else l_best g = None /\ mx = true /\ l_quiet g = 0;
  n_ties : if counted then ties mx base past (l_quiet g) else True }.

Lemma milp_take_inv : forall counted base past g st st1 r p, minv counted base past g st -> ready mx st1 -> maximize r = mx -> best_fit r = Ok p ->
  minv counted base (past ++ [fits r]) (Lns (Some st1) (l_best (take_milp mx p g)) (l_quiet (take_milp mx p g))) st1.
Proof.
  intros counted base past g st st1 r p [I1 I2 I3 I4] R1 M B. destruct (best_fit_top mx r p M B) as [Ip Tp].
  destruct counted.
  - destruct I3 as (s & o & E & To). pose proof (top_app _ _ _ _ _ To Tp) as Tn. rewrite <- hist_snoc in Tn.
    pose proof (ties_take _ _ _ _ _ _ _ To Tp I4) as Tt.
    unfold take_milp. rewrite E. destruct p as [sp fp]. cbn [snd] in *.
    destruct (better mx fp o) eqn:Bt; [|destruct (Z.eqb_spec fp o) as [->|N]]; constructor; cbn [l_store l_best l_quiet]; eauto.
  - destruct I3 as (E & M1 & Q0). assert (Eg : take_milp mx p g = g) by (unfold take_milp; rewrite E, M1; reflexivity).
    rewrite Eg. constructor; cbn [l_store l_best l_quiet]; auto.
Qed.

Definition milp_stops (counted : bool) (n it : nat) (base : list (Sol * Z)) (past ls : list (list (Sol * Z))) : Prop :=
  length ls <= n /\
  (forall k, 0 < k < length ls -> late (it + k - 1) = false /\
     (counted = true -> exists q, ties mx base (past ++ firstn k ls) q /\ q <= limit)) /\
  (length ls = n \/ 0 < length ls /\ (late (it + length ls - 1) = true \/
     counted = true /\ exists q, ties mx base (past ++ ls) q /\ limit < q)).

Lemma milp_round_inv : forall counted it base past g st c gc, skip && (it =? 0) = false -> minv counted base past g st ->
  milp_round mx skip adding removing solve post it g c = Ok gc ->
  exists r r' c' st1, solve it c = Ok r /\ post it r = Ok r' /\ fits r' <> [] /\ adding (S it) r' = Ok c' /\ snd gc = Some c' /\
    fits st1 = merge (fits st) (fits r') /\ minv counted base (past ++ [fits r']) (fst gc) st1.
Proof.
  intros counted it base past g st c gc Sk I H. unfold milp_round in H.
  apply bind_ok in H as (r & So & H). apply bind_ok in H as (p0 & _ & H). apply bind_ok in H as (r' & Po & H).
  apply bind_ok in H as (p & B & H). apply bind_ok in H as (gr & En & H). apply bind_ok in H as (u & _ & H).
  apply bind_ok in H as (c' & Ad & H). injection H as <-.
  pose proof (Sense _ _ _ Po) as M. assert (Nf : fits r' <> []) by (intros Z0; rewrite (best_fit_none _ Z0) in B; discriminate).
  destruct (add_all_ready mx (fits r') st (n_ready _ _ _ _ _ I)) as (st1 & A & R1 & F1).
  assert (Et : l_store (take_milp mx p g) = Some st).
  { pose proof (n_store _ _ _ _ _ I) as Es. unfold take_milp. destruct (l_best g) as [[s o]|]; [|destruct mx; exact Es].
    destruct (better mx _ o); [exact Es|]. destruct (_ =? _)%Z; exact Es. }
  unfold enter_milp in En. rewrite Sk, Et in En. destruct (fits r') as [|q l] eqn:Fr; [congruence|]. rewrite A in En. injection En as <-.
  cbn [fst snd] in *. exists r, r', c', st1. rewrite Fr. split; auto. split; auto. split; [discriminate|]. split; auto. split; auto. split; auto.
  rewrite <- Fr. eapply milp_take_inv; eauto.
Qed.

Lemma milp_rounds_inv : forall n counted it base past g st c g', 0 < it \/ skip = false -> minv counted base past g st ->
  milp_rounds mx skip limit adding removing solve post late n it g c = Ok g' ->
  exists ls st', l_store g' = Some st' /\ ready mx st' /\ search_milp solve post adding it st c ls st' /\
    milp_stops counted n it base past ls.
Proof.
  intros n. induction n as [|n IH]; intros counted it base past g st c g' Pos I H.
  - injection H as <-. exists [], st. split; [apply (n_store _ _ _ _ _ I)|]. split; [apply (n_ready _ _ _ _ _ I)|].
    split; [constructor|]. unfold milp_stops. cbn. split; auto. split; [intros; lia|auto].
  - cbn [milp_rounds] in H. apply bind_ok in H as (gc & R & H).
    assert (Sk : skip && (it =? 0) = false).
    { destruct Pos as [P| ->]; [|reflexivity]. destruct it; [lia|]. apply andb_false_r. }
    destruct (milp_round_inv counted it base past g st c gc Sk I R) as (r & r' & c' & st1 & So & Po & Nf & Ad & Ec & F1 & I1).
    assert (One : g' = fst gc -> late it = true \/ limit < l_quiet (fst gc) -> exists ls st', l_store g' = Some st' /\ ready mx st' /\
      search_milp solve post adding it st c ls st' /\ milp_stops counted (S n) it base past ls).
    { intros -> Why. exists [fits r'], st1. split; [apply (n_store _ _ _ _ _ I1)|]. split; [apply (n_ready _ _ _ _ _ I1)|].
      split; [eapply Milp_round; eauto; constructor|]. unfold milp_stops. cbn [length]. split; [lia|].
      split; [intros; lia|]. right. split; [lia|]. replace (it + 1 - 1) with it by lia. destruct Why as [W|W]; [auto|]. right.
      destruct counted.
      - split; auto. exists (l_quiet (fst gc)). split; auto. exact (n_ties _ _ _ _ _ I1).
      - destruct (n_best _ _ _ _ _ I1) as (_ & _ & Q0). lia. }
    destruct (late it) eqn:Lt; [injection H as <-; apply One; auto|].
    destruct (limit <? l_quiet (fst gc)) eqn:Lq; [apply Nat.ltb_lt in Lq; injection H as <-; apply One; auto|].
    rewrite Ec in H. destruct (IH counted (S it) base _ _ st1 (Some c') g' (or_introl (Nat.lt_0_succ it)) I1 H) as (ls & st' & E' & R' & S' & (T1 & T2 & T3)).
    exists (fits r' :: ls), st'. split; auto. split; auto. split; [eapply Milp_round; eauto|]. unfold milp_stops. cbn [length].
    split; [lia|]. split.
    + intros k Lk. destruct k as [|[|k]]; [lia| |].
      * replace (it + 1 - 1) with it by lia. split; auto. intros ->. cbn [firstn]. exists (l_quiet (fst gc)).
        split; [exact (n_ties _ _ _ _ _ I1)|]. apply Nat.ltb_ge in Lq. exact Lq.
      * replace (it + S (S k) - 1) with (S it + S k - 1) by lia. destruct (T2 (S k)) as [Ta Tb]; [lia|]. split; auto. intros Ct.
        destruct (Tb Ct) as (q & Tq & Lk'). exists q. rewrite <- app_assoc in Tq. auto.
    + destruct T3 as [T3|(Ln & T3)]; [left; lia|]. right. split; [lia|]. replace (it + S (length ls) - 1) with (S it + length ls - 1) by lia.
      destruct T3 as [T3|(Ct & q & Tq & Li)]; [auto|]. right. split; auto. exists q. rewrite <- app_assoc in Tq. auto.
Qed.

(** Solvers that always find something. *)
Lemma milp_rounds_total : forall n it base past counted g st c, 0 < it \/ skip = false -> minv counted base past g st ->
  (forall k c, exists r, solve k c = Ok r /\ fits r <> []) ->
  (forall k r, fits r <> [] -> exists r', post k r = Ok r' /\ fits r' <> []) ->
  (forall k r, exists c, adding k r = Ok c) -> (forall k c, removing k c = Ok tt) ->
  exists g', milp_rounds mx skip limit adding removing solve post late n it g c = Ok g'.
Proof.
  intros n. induction n as [|n IH]; intros it base past counted g st c Pos I HS HP HA HR; [eexists; reflexivity|].
  assert (Sk : skip && (it =? 0) = false).
  { destruct Pos as [P| ->]; [|reflexivity]. destruct it; [lia|]. apply andb_false_r. }
  assert (Rd : exists gc, milp_round mx skip adding removing solve post it g c = Ok gc).
  { unfold milp_round. destruct (HS it c) as (r & -> & Nr). cbn [bind]. destruct (best_fit_some r Nr) as [p0 ->]. cbn [bind].
    destruct (HP it r Nr) as (r' & -> & Nr'). cbn [bind]. destruct (best_fit_some r' Nr') as [p ->]. cbn [bind].
    destruct (add_all_ready mx (fits r') st (n_ready _ _ _ _ _ I)) as (st1 & A & R1 & F1).
    assert (Et : l_store (take_milp mx p g) = Some st).
    { pose proof (n_store _ _ _ _ _ I) as Es. unfold take_milp. destruct (l_best g) as [[s o]|]; [|destruct mx; exact Es].
      destruct (better mx _ o); [exact Es|]. destruct (_ =? _)%Z; exact Es. }
    unfold enter_milp. rewrite Sk, Et. destruct (fits r') as [|q l] eqn:Fr; [congruence|]. rewrite A. cbn [bind]. rewrite HR. cbn [bind snd].
    destruct (HA (S it) r') as [c' ->]. eexists. reflexivity. }
  destruct Rd as [gc Rd]. cbn [milp_rounds]. rewrite Rd. cbn [bind]. destruct (late it); [eauto|]. destruct (limit <? _); [eauto|].
  destruct (milp_round_inv counted it base past g st c gc Sk I Rd) as (r & r' & c' & st1 & _ & _ & _ & _ & _ & _ & I1).
  eapply (IH (S it)); eauto. left. lia.
Qed.
End MILP.
End P.
