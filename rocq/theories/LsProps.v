(** C37: local search keeps its best solution. *)
From Coq Require Import List Bool Arith ZArith Lia.
From Verif Require Import Py PyList StoreModel StoreProps LsModel.
Import ListNotations.

Section LsP.
Variable C : Type.
Variable value : C -> Z.
Variable mutate : nat -> memory C -> nat -> res (memory C * nat * Z).
Variable undo : nat -> memory C -> nat -> nat -> res (memory C * nat).
Variables (mx and_evaluate store_solution annealing : bool).
Variable accept_worse : nat -> Z -> Z -> bool.

(** * Specification vocabulary *)

(** A mutation that builds a new object and leaves every existing one alone, whose move gives the previous object
    back (what LocalMoveDefault asks for), and which announces the objective of what it builds. *)
Definition creating : Prop := forall k m a c, nth_error m a = Some c -> exists new nv c',
  mutate k m a = Ok (m ++ new, nv, value c') /\ length m <= nv /\ nth_error (m ++ new) nv = Some c' /\
  undo k (m ++ new) nv a = Ok (m ++ new, a).
(** A mutation that may work in place, as long as its move restores the contents. *)
Definition restoring : Prop := forall k m a c, nth_error m a = Some c -> exists m' nv c' m'' a',
  mutate k m a = Ok (m', nv, value c') /\ nth_error m' nv = Some c' /\ (nv = a \/ length m <= nv) /\
  undo k m' nv a = Ok (m'', a') /\ nth_error m'' a' = Some c /\ (a' = a \/ length m <= a') /\
  length m <= length m' /\ length m <= length m'' /\
  (forall b, b < length m -> b <> a -> nth_error m' b = nth_error m b /\ nth_error m'' b = nth_error m b).
(** The handler may restart only from a solution with the contents of the initial one. *)
Definition handler_for (m : memory C) (init_var : nat) (h : handler) : Prop :=
  h_limit h <> None -> exists a, h_best h = Some a /\ nth_error m a = nth_error m init_var.
(** [f] is the best objective met. *)
Definition best_met (f : Z) (s : state C) : Prop := (exists c, In (c, f) (met s)) /\ optimal mx f (met s).

Local Notation step := (step C value mutate undo mx and_evaluate store_solution annealing accept_worse).
Local Notation loop := (loop C value mutate undo mx and_evaluate store_solution annealing accept_worse).
Local Notation solve := (solve C value mutate undo mx and_evaluate store_solution annealing accept_worse).
Local Notation start := (start C value store_solution).

(** * Proof *)
Definition loose : bool := annealing && negb store_solution.
Hypothesis moves_ok : if loose then restoring else creating.

Lemma copy_ok : forall (m : memory C) a c, nth_error m a = Some c -> copy C m a = Ok (m ++ [c], length m).
Proof. intros m a c H. unfold copy. rewrite (proj2 (lget_ok m a c) H). reflexivity. Qed.
Lemma nth_app_old : forall (m k : memory C) b c, nth_error m b = Some c -> nth_error (m ++ k) b = Some c.
Proof. intros m k b c H. rewrite nth_error_app1; [exact H|]. apply nth_error_Some. congruence. Qed.
Lemma nth_app_new : forall (m : memory C) c, nth_error (m ++ [c]) (length m) = Some c.
Proof. intros. rewrite nth_error_app2 by lia. now rewrite Nat.sub_diag. Qed.
Lemma nth_lt : forall (m : memory C) b c, nth_error m b = Some c -> b < length m.
Proof. intros. apply nth_error_Some. congruence. Qed.

Lemma move_stage : forall k m a c accept, nth_error m a = Some c -> exists m1 nv c1 m2 cv,
  mutate k m a = Ok (m1, nv, value c1) /\ lget m1 nv = Ok c1 /\
  (if accept : bool then Ok (m1, nv) else undo k m1 nv a) = Ok (m2, cv) /\
  nth_error m2 cv = Some (if accept then c1 else c) /\ (accept = true -> cv = nv) /\ length m <= length m2 /\
  (forall b d, (loose = true -> b <> a) -> nth_error m b = Some d -> nth_error m2 b = Some d /\ (loose = true -> b <> cv)) /\
  (loose = false -> nth_error m2 nv = Some c1 /\ length m <= nv).
Proof.
  intros k m a c accept H. destruct loose eqn:L.
  - destruct (moves_ok k m a c H) as (m' & nv & c' & m'' & a' & A1 & A2 & A3 & A4 & A5 & A6 & A7 & A8 & A9).
    exists m', nv, c', (if accept then m' else m''), (if accept then nv else a').
    split; [exact A1|]. split; [now apply lget_ok|]. split; [now destruct accept|]. split; [now destruct accept|].
    split; [intros ->; reflexivity|]. split; [destruct accept; lia|]. split; [|easy]. intros b d B D. specialize (B eq_refl).
    assert (BL := nth_lt _ _ _ D). destruct (A9 b BL B) as [X Y]. destruct accept.
    + rewrite X. split; [exact D|]. intros _. destruct A3; lia.
    + rewrite Y. split; [exact D|]. intros _. destruct A6; lia.
  - destruct (moves_ok k m a c H) as (new & nv & c' & A1 & A2 & A3 & A4).
    exists (m ++ new), nv, c', (m ++ new), (if accept then nv else a).
    split; [exact A1|]. split; [now apply lget_ok|]. split; [now destruct accept|].
    split; [destruct accept; [exact A3|now apply nth_app_old]|]. split; [intros ->; reflexivity|].
    split; [rewrite app_length; lia|]. split; [|intros _; now split]. intros b d _ D. split; [now apply nth_app_old|easy].
Qed.

Definition holds (m : memory C) (b : nat) (f : Z) : Prop := exists c, nth_error m b = Some c /\ value c = f.
Definition apart (b cv : nat) : Prop := loose = true -> b <> cv.
(** [m2] keeps the objects of [m] other than the current one, which stay different from the new current one. *)
Definition keeps (m : memory C) (a : nat) (m2 : memory C) (cv : nat) : Prop :=
  forall b d, apart b a -> nth_error m b = Some d -> nth_error m2 b = Some d /\ apart b cv.

Definition sInv (m : memory C) (cv : nat) (hist : list (nat * Z)) (st : store nat) (mt : list (C * Z)) : Prop :=
  good hist st /\ maximize st = true /\ NoDup (map fst hist) /\
  (forall b f, In (b, f) hist -> apart b cv /\ exists c, nth_error m b = Some c /\ value c = f /\ In (c, f) mt) /\
  (exists b f, best st = Some b /\ apart b cv /\ holds m b f /\ optimal true f hist /\ In f (map snd hist)).
Definition hInv (m : memory C) (cv : nat) (h : handler) (bobj : Z) : Prop :=
  h_best_fit h = bobj /\ (h_limit h <> None -> exists a, h_best h = Some a /\ apart a cv /\ holds m a bobj).

Lemma sInv_keeps : forall m a m2 cv hist st mt mt', keeps m a m2 cv -> (forall x, In x mt -> In x mt') ->
  sInv m a hist st mt -> sInv m2 cv hist st mt'.
Proof.
  intros m a m2 cv hist st mt mt' K I (S1 & S2 & S3 & S4 & b & f & S5 & S6 & (c & S7 & S8) & S9 & S10).
  split; [exact S1|]. split; [exact S2|]. split; [exact S3|]. split.
  - intros b0 f0 B. destruct (S4 b0 f0 B) as (A & c0 & N & V & M). destruct (K b0 c0 A N). split; [assumption|].
    exists c0. auto.
  - exists b, f. destruct (K b c S6 S7). split; [exact S5|]. split; [assumption|]. split; [now exists c|]. now split.
Qed.
Lemma hInv_keeps : forall m a m2 cv h bobj, keeps m a m2 cv -> hInv m a h bobj -> hInv m2 cv h bobj.
Proof.
  intros m a m2 cv h bobj K [A B]. split; [exact A|]. intros L. destruct (B L) as (b & X & Y & c & N & V).
  exists b. destruct (K b c Y N). split; [exact X|]. split; [assumption|]. now exists c.
Qed.
Lemma keeps_app : forall m cv k, keeps m cv (m ++ k) cv.
Proof. intros m cv k b d A N. split; [now apply nth_app_old|exact A]. Qed.
Lemma keeps_trans : forall m a m1 b m2 c, keeps m a m1 b -> keeps m1 b m2 c -> keeps m a m2 c.
Proof. intros m a m1 b m2 c K1 K2 x d A N. destruct (K1 x d A N) as [N1 A1]. now apply K2. Qed.

Lemma coherent_nodup : forall (h : list (nat * Z)), NoDup (map fst h) -> coherent h.
Proof.
  induction h as [|[s f] h IH]; intros N s0 f0 g0 X Y; [easy|]. cbn in N. apply NoDup_cons_iff in N as [N1 N2].
  assert (Q : forall t, In (s, t) h -> False) by (intros t T; apply N1, (in_map fst _ _ T)).
  destruct X as [X|X], Y as [Y|Y].
  - congruence.
  - injection X as -> ->. now apply Q in Y.
  - injection Y as -> ->. now apply Q in X.
  - now apply (IH N2 s0).
Qed.

Lemma sInv_add : forall m cv hist st mt a c f, sInv m cv hist st mt -> nth_error m a = Some c -> value c = f -> In (c, f) mt ->
  (forall b g, In (b, g) hist -> b < a) -> apart a cv ->
  exists st', add st a f = Ok st' /\ sInv m cv (hist ++ [(a, f)]) st' mt.
Proof.
  intros m cv hist st mt a c f (S1 & S2 & S3 & S4 & b & g & S5 & S6 & S7 & S8 & S9) N V I FR AP.
  assert (ND : NoDup (map fst (hist ++ [(a, f)]))).
  { rewrite map_app. cbn. apply NoDup_snoc; [exact S3|]. intros X. apply in_map_iff in X as ([b0 g0] & E & X). cbn in E. subst b0.
    specialize (FR _ _ X). lia. }
  destruct (add_good hist st a f S1 (coherent_nodup _ ND)) as (st' & E & G & M & _ & _ & _ & B1 & B2). exists st'. split; [exact E|].
  split; [exact G|]. split; [congruence|]. split; [exact ND|]. split.
  - intros b0 f0 X. apply in_app_or in X as [X|[X|[]]]; [now apply S4|]. injection X as <- <-. split; [exact AP|]. eauto.
  - destruct (Z_lt_le_dec g f) as [L|L].
    + exists a, f. split. { apply B1. intros g0 X. rewrite S2. cbn. apply Z.ltb_lt. apply in_map_iff in X as ([b0 g1] & E0 & X). cbn in E0. subst g1.
        specialize (S8 _ _ X). cbn in S8. lia. }
      split; [exact AP|]. split; [exists c; now split|]. split.
      * intros s0 g0 X. apply in_app_or in X as [X|[X|[]]]; [|injection X as <- <-; lia]. specialize (S8 _ _ X). cbn in S8. lia.
      * rewrite map_app. apply in_or_app. right. now left.
    + exists b, g. split. { rewrite <- S5. apply B2. exists g. split; [exact S9|]. rewrite S2. cbn. apply Z.ltb_ge. lia. }
      split; [exact S6|]. split; [exact S7|]. split.
      * intros s0 g0 X. apply in_app_or in X as [X|[X|[]]]; [|injection X as <- <-; lia]. specialize (S8 _ _ X). cbn in S8. lia.
      * rewrite map_app. apply in_or_app. now left.
Qed.

(** The invariant of the loop. *)
Definition Inv (s : state C) : Prop := exists hist c,
  nth_error (mem s) (cur s) = Some c /\ value c = cur_obj s /\ better mx (cur_obj s) (best_obj s) = false /\
  sInv (mem s) (cur s) hist (st_store s) (met s) /\ hInv (mem s) (cur s) (hd s) (best_obj s) /\
  best_met (best_obj s) s /\ (forall c f, In (c, f) (met s) -> f = value c) /\
  (exists b, In (b, best_obj s) hist) /\
  (store_solution = true -> forall c f, In (c, f) (met s) -> exists b, In (b, f) hist /\ nth_error (mem s) b = Some c).

Lemma hist_lt : forall m cv hist st mt, sInv m cv hist st mt -> forall b g, In (b, g) hist -> b < length m.
Proof. intros m cv hist st mt (_ & _ & _ & S4 & _) b g X. destruct (S4 b g X) as (_ & c & N & _). now apply nth_lt in N. Qed.

Lemma stored_ok : forall m a c, nth_error m a = Some c -> exists k a', stored C annealing m a = Ok (m ++ k, a') /\
  nth_error (m ++ k) a' = Some c /\ (a' = a \/ length m <= a') /\ (annealing = true -> length m <= a').
Proof.
  intros m a c H. unfold stored. destruct annealing.
  - rewrite (copy_ok m a c H). exists [c], (length m). split; [reflexivity|]. split; [apply nth_app_new|]. split; [now right|lia].
  - exists [], a. rewrite app_nil_r. split; [reflexivity|]. split; [exact H|]. split; [now left|easy].
Qed.

Ltac nlia := repeat match goal with H : ?T |- _ =>
  lazymatch T with (_ <= _)%nat => fail | (_ < _)%nat => fail | @eq nat _ _ => fail | _ => clear H end end; lia.
Ltac zlia := repeat match goal with H : ?T |- _ =>
  lazymatch T with (_ <= _)%Z => fail | (_ < _)%Z => fail | @eq Z _ _ => fail | _ => clear H end end; lia.

Lemma step_inv : forall k s, Inv s -> exists s', step k s = Ok s' /\ Inv s' /\
  (exists x, met s' = met s ++ [x]) /\ (annealing = false -> better mx (cur_obj s) (cur_obj s') = false) /\
  better mx (best_obj s) (best_obj s') = false.
Proof.
  intros k s (hist & c & I1 & I2 & I3 & I4 & I5 & (I6 & I6') & I7 & (b0 & I8) & I9). unfold LsModel.step.
  destruct (move_stage k (mem s) (cur s) c true I1) as (m1 & nv & c1 & _ & _ & Q1 & Q2 & _).
  set (obj := value c1).
  set (loc := better mx obj (cur_obj s)). set (glob := loc && better mx obj (best_obj s)).
  set (accept := loc || (annealing && accept_worse k obj (cur_obj s))).
  destruct (move_stage k (mem s) (cur s) c accept I1) as (m1' & nv' & c1' & m2 & cv & R1 & R2 & R3 & R4 & R5 & R6 & R7 & R8).
  assert (EQ : m1' = m1 /\ nv' = nv) by (rewrite Q1 in R1; injection R1 as -> -> _; auto). destruct EQ as [-> ->].
  assert (EQ : c1' = c1) by congruence. subst c1'. clear R1 R2.
  rewrite Q1. cbn [bind]. rewrite Q2. cbn [bind].
  assert (OB : (if and_evaluate then value c1 else value c1) = obj) by now destruct and_evaluate. rewrite OB.
  fold loc. fold glob. fold accept. rewrite R3. cbn [bind].
  set (mt := met s ++ [(c1, obj)]).
  assert (KP : keeps (mem s) (cur s) m2 cv) by (intros b d A N; now apply R7).
  assert (S2 : sInv m2 cv hist (st_store s) mt) by (apply (sInv_keeps (mem s) (cur s) m2 cv hist _ (met s)); [exact KP|intros x X; apply in_or_app; now left|exact I4]).
  assert (H2 := hInv_keeps _ _ _ _ _ _ KP I5).
  assert (HL := hist_lt _ _ _ _ _ I4).
  assert (GA : glob = true -> accept = true) by (unfold glob, accept; destruct loc; easy).
  set (bobj := if glob then obj else best_obj s).
  (* first storage stage *)
  assert (ST1 : exists m3 hist3 st3,
    (if store_solution then let* r := stored C annealing m2 nv in (let '(m, a) := r in let* st := add (st_store s) a obj in Ok (m, st))
     else Ok (m2, st_store s)) = Ok (m3, st3) /\ keeps m2 cv m3 cv /\ (forall b d, nth_error m2 b = Some d -> nth_error m3 b = Some d) /\
     length m2 <= length m3 /\ sInv m3 cv hist3 st3 mt /\ (forall x, In x hist -> In x hist3) /\
     (store_solution = true -> exists b, In (b, obj) hist3 /\ nth_error m3 b = Some c1) /\ (store_solution = false -> hist3 = hist)).
  { destruct store_solution eqn:SS.
    - assert (L : loose = false) by (unfold loose; rewrite SS; now rewrite andb_false_r).
      destruct (R8 L) as [R9 R10]. destruct (stored_ok m2 nv c1 R9) as (kk & a & A1 & A2 & A3 & A4). rewrite A1. cbn [bind].
      destruct (sInv_add (m2 ++ kk) cv hist (st_store s) mt a c1 obj) as (st' & E & SI).
      + apply (sInv_keeps m2 cv _ _ _ _ mt); [apply keeps_app|auto|exact S2].
      + exact A2.
      + reflexivity.
      + apply in_or_app. right. now left.
      + intros b g X. specialize (HL b g X). destruct A3; nlia.
      + intros LL. rewrite L in LL. discriminate.
      + rewrite E. cbn [bind]. exists (m2 ++ kk), (hist ++ [(a, obj)]), st'. split; [reflexivity|]. split; [apply keeps_app|].
        split; [intros b d; apply nth_app_old|]. split; [rewrite app_length; nlia|]. split; [exact SI|].
        split; [intros x X; apply in_or_app; now left|]. split; [|discriminate]. intros _. exists a. split; [apply in_or_app; right; now left|exact A2].
    - exists m2, hist, (st_store s). split; [reflexivity|]. split; [intros b d A N; now split|]. split; [auto|]. split; [nlia|].
      split; [exact S2|]. split; [auto|]. split; [discriminate|reflexivity]. }
  destruct ST1 as (m3 & hist3 & st3 & E3 & K3 & K3' & L3 & S3 & HI3 & T3 & T3'). rewrite E3. cbn [bind].
  (* second storage stage *)
  assert (ST2 : exists m4 hist4 st4 bv,
    (if glob then let* r := copy C m3 cv in (let '(m, b) := r in
       if store_solution then Ok (m, obj, b, st3)
       else let* r := stored C annealing m cv in (let '(m, a) := r in let* st := add st3 a obj in Ok (m, obj, b, st)))
     else Ok (m3, best_obj s, best_var s, st3)) = Ok (m4, bobj, bv, st4) /\ keeps m3 cv m4 cv /\
     (forall b d, nth_error m3 b = Some d -> nth_error m4 b = Some d) /\ sInv m4 cv hist4 st4 mt /\ (forall x, In x hist3 -> In x hist4) /\
     (exists b, In (b, bobj) hist4)).
  { unfold bobj. destruct glob eqn:G.
    - specialize (GA eq_refl). specialize (R5 GA). rewrite GA in R4. subst cv.
      rewrite (copy_ok m3 nv c1 (K3' _ _ R4)). cbn [bind]. destruct store_solution eqn:SS.
      + exists (m3 ++ [c1]), hist3, st3, (length m3). split; [reflexivity|]. split; [apply keeps_app|]. split; [intros b d; apply nth_app_old|].
        split; [apply (sInv_keeps m3 nv _ _ _ _ mt); [apply keeps_app|auto|exact S3]|]. split; [auto|].
        destruct (T3 eq_refl) as (b & B & _). eauto.
      + rewrite (T3' eq_refl) in *.
        assert (N4 : nth_error (m3 ++ [c1]) nv = Some c1) by (apply nth_app_old; now apply K3').
        destruct (stored_ok (m3 ++ [c1]) nv c1 N4) as (kk & a & A1 & A2 & A3 & A4). rewrite A1. cbn [bind].
        destruct (sInv_add ((m3 ++ [c1]) ++ kk) nv hist st3 mt a c1 obj) as (st' & E & SI).
        * apply (sInv_keeps m3 nv _ _ _ _ mt); [|auto|exact S3]. apply (keeps_trans _ _ (m3 ++ [c1]) nv); apply keeps_app.
        * exact A2.
        * reflexivity.
        * apply in_or_app. right. now left.
        * intros b g X. specialize (HL b g X). rewrite app_length in A3, A4. destruct annealing eqn:AN; [specialize (A4 eq_refl); nlia|].
          destruct A3 as [ -> |A3]; [|nlia]. assert (LL : loose = false) by (unfold loose; now rewrite AN). destruct (R8 LL). nlia.
        * intros LL. unfold loose in LL. apply andb_true_iff in LL as [LL _]. specialize (A4 LL).
          apply nth_lt in N4. nlia.
        * rewrite E. cbn [bind]. exists ((m3 ++ [c1]) ++ kk), (hist ++ [(a, obj)]), st', (length m3).
          split; [reflexivity|]. split; [apply (keeps_trans _ _ (m3 ++ [c1]) nv); apply keeps_app|].
          split; [intros b d X; now apply nth_app_old, nth_app_old|]. split; [exact SI|].
          split; [intros x X; apply in_or_app; now left|]. exists a. apply in_or_app. right. now left.
    - exists m3, hist3, st3, (best_var s). split; [reflexivity|]. split; [intros b d A N; now split|]. split; [auto|]. split; [exact S3|].
      split; [auto|]. exists b0. now apply HI3. }
  destruct ST2 as (m4 & hist4 & st4 & bv & E4 & K4 & K4' & S4 & HI4 & B4). rewrite E4. cbn [bind].
  assert (N4 : nth_error m4 cv = Some (if accept then c1 else c)) by (apply K4', K3'; exact R4).
  assert (H4 : hInv m4 cv (hd s) (best_obj s)) by (apply (hInv_keeps m3 cv); [exact K4|]; apply (hInv_keeps m2 cv); assumption).
  set (cobj := if accept then obj else cur_obj s).
  assert (V4 : value (if accept then c1 else c) = cobj) by (unfold cobj; now destruct accept).
  (* handler *)
  assert (UP : exists m5 h5, h_update C m4 (hd s) nv obj glob loc = Ok (m5, h5) /\ keeps m4 cv m5 cv /\
     (forall b d, nth_error m4 b = Some d -> nth_error m5 b = Some d) /\ hInv m5 cv h5 bobj).
  { unfold h_update, bobj. destruct glob eqn:G.
    - specialize (GA eq_refl). specialize (R5 GA). rewrite GA in N4. subst cv. rewrite (copy_ok m4 nv c1 N4). cbn [bind].
      eexists; eexists. split; [reflexivity|]. split; [apply keeps_app|]. split; [intros b d; apply nth_app_old|].
      split; [reflexivity|]. intros _. exists (length m4). split; [reflexivity|]. split; [intros _; apply nth_lt in N4; nlia|].
      exists c1. split; [apply nth_app_new|reflexivity].
    - eexists; eexists. split; [reflexivity|]. split; [intros b d A N; now split|]. split; [auto|].
      destruct H4 as [X Y]. split; [exact X|exact Y]. }
  destruct UP as (m5 & h5 & E5 & K5 & K5' & H5). rewrite E5. cbn [bind].
  assert (BB : better mx cobj bobj = false).
  { unfold cobj, bobj, glob, accept. destruct loc eqn:LL; cbn [orb andb].
    - destruct (better mx obj (best_obj s)) eqn:E; [apply better_irr|exact E].
    - unfold loc in LL. destruct (annealing && accept_worse k obj (cur_obj s)); [|exact I3].
      destruct mx; cbn in *; rewrite Z.ltb_ge in *; zlia. }
  assert (BM : (exists c, In (c, bobj) mt) /\ optimal mx bobj mt).
  { assert (NB : better mx obj bobj = false).
    { unfold bobj, glob. destruct loc eqn:LL; cbn [andb]; [destruct (better mx obj (best_obj s)) eqn:E; [apply better_irr|exact E]|].
      unfold loc in LL. destruct mx; cbn in *; rewrite Z.ltb_ge in *; zlia. }
    assert (BI : better mx (best_obj s) bobj = false).
    { unfold bobj, glob. destruct loc; cbn [andb]; [|apply better_irr]. destruct (better mx obj (best_obj s)) eqn:E; [|apply better_irr].
      destruct mx; cbn in *; rewrite ?Z.ltb_ge, ?Z.ltb_lt in *; zlia. }
    split.
    - unfold bobj. destruct glob; [exists c1; apply in_or_app; right; now left|]. destruct I6 as [cc I6]. exists cc. apply in_or_app. now left.
    - intros cc g X. apply in_app_or in X as [X|[X|[]]].
      + specialize (I6' _ _ X). destruct mx; cbn in BI; apply Z.ltb_ge in BI; zlia.
      + injection X as <- <-. destruct mx; cbn in NB; apply Z.ltb_ge in NB; zlia. }
  assert (CM : annealing = false -> better mx (cur_obj s) cobj = false).
  { intros AN. unfold cobj, accept. rewrite AN. cbn [andb]. rewrite orb_false_r. destruct loc eqn:LL; [|apply better_irr].
    unfold loc in LL. destruct mx; cbn in *; rewrite ?Z.ltb_ge, ?Z.ltb_lt in *; zlia. }
  assert (BMO : better mx (best_obj s) bobj = false).
  { destruct I6 as [cc I6]. destruct BM as [_ BM]. assert (X := BM cc (best_obj s) (in_or_app _ _ _ (or_introl I6))).
    destruct mx; cbn; apply Z.ltb_ge; zlia. }
  (* restart *)
  assert (RS : exists m6 h6 cv6 cobj6 c6, h_restart C m5 h5 cv cobj = Ok (m6, h6, cv6, cobj6) /\ keeps m5 cv m6 cv6 /\
     (forall b d, nth_error m5 b = Some d -> nth_error m6 b = Some d) /\ hInv m6 cv6 h6 bobj /\
     nth_error m6 cv6 = Some c6 /\ value c6 = cobj6 /\ better mx cobj6 bobj = false /\ (cobj6 = cobj \/ cobj6 = bobj)).
  { unfold h_restart. destruct H5 as [H5 H5']. assert (N5 := K5' _ _ N4).
    destruct (h_limit h5) as [n|] eqn:LIM.
    - destruct H5' as (a & HA & AP & c6 & N6 & V6); [discriminate|].
      destruct ((n <? h_no_global h5) || (n <? h_no_local h5)).
      + rewrite HA, (copy_ok m5 a c6 N6). cbn [bind]. eexists; eexists; eexists; eexists; exists c6. split; [reflexivity|].
        split; [intros b d A N; split; [now apply nth_app_old|intros _; apply nth_lt in N; nlia]|].
        split; [intros b d; apply nth_app_old|]. split.
        { split; [exact H5|]. intros _. exists a. split; [reflexivity|]. split; [intros _; apply nth_lt in N6; nlia|].
          exists c6. split; [now apply nth_app_old|exact V6]. }
        split; [apply nth_app_new|]. rewrite H5. split; [exact V6|]. split; [apply better_irr|now right].
      + eexists; eexists; eexists; eexists; eexists. split; [reflexivity|]. split; [intros b d A N; now split|]. split; [auto|].
        split; [split; [exact H5|intros _; exists a; split; [exact HA|split; [exact AP|now exists c6]]]|].
        split; [exact N5|]. split; [exact V4|]. split; [exact BB|now left].
    - eexists; eexists; eexists; eexists; eexists. split; [reflexivity|]. split; [intros b d A N; now split|]. split; [auto|].
      split; [split; [exact H5|rewrite LIM; easy]|]. split; [exact N5|]. split; [exact V4|]. split; [exact BB|now left]. }
  destruct RS as (m6 & h6 & cv6 & cobj6 & c6 & E6 & K6 & K6' & H6 & N6 & V6 & B6 & D6). rewrite E6. cbn [bind].
  eexists. split; [reflexivity|].
  assert (S6 : sInv m6 cv6 hist4 st4 mt).
  { apply (sInv_keeps m5 cv _ _ _ _ mt); [exact K6|auto|]. apply (sInv_keeps m4 cv _ _ _ _ mt); [exact K5|auto|exact S4]. }
  split.
  - exists hist4, c6. cbn. split; [exact N6|]. split; [exact V6|]. split; [exact B6|]. split; [exact S6|]. split; [exact H6|].
    split; [exact BM|]. split.
    { intros cc f X. apply in_app_or in X as [X|[X|[]]]; [now apply I7|]. injection X as <- <-. reflexivity. }
    split; [exact B4|]. intros SS cc f X. apply in_app_or in X as [X|[X|[]]].
    + destruct (I9 SS cc f X) as (b & B & N). exists b. split; [now apply HI4, HI3|].
      assert (L : loose = false) by (unfold loose; rewrite SS; apply andb_false_r).
      apply K6', K5', K4', K3'. apply R7; [rewrite L; discriminate|exact N].
    + injection X as <- <-. destruct (T3 SS) as (b & B & N). exists b. split; [now apply HI4|]. now apply K6', K5', K4'.
  - cbn. split; [now exists (c1, obj)|]. split; [|exact BMO]. intros AN. destruct D6 as [ -> | -> ]; [now apply CM|].
    specialize (CM AN). clear -CM BB. destruct mx; cbn in *; rewrite Z.ltb_ge in *; zlia.
Qed.

Lemma start_inv : forall m iv h c, nth_error m iv = Some c -> handler_for m iv h -> exists s, start m iv h = Ok s /\ Inv s /\
  met s = [(c, value c)] /\ best_obj s = value c /\ cur_obj s = value c.
Proof.
  intros m iv h c N H. unfold LsModel.start. rewrite (proj2 (lget_ok m iv c) N). cbn [bind]. rewrite (copy_ok m iv c N). cbn [bind].
  assert (N1 : nth_error (m ++ [c]) iv = Some c) by now apply nth_app_old. rewrite (copy_ok _ iv c N1). cbn [bind].
  assert (CO : coherent [(iv, value c)]) by (apply coherent_nodup; cbn; constructor; [easy|constructor]).
  set (nb := if store_solution then 1000 else 1).
  assert (NB : 0 < nb) by (unfold nb; destruct store_solution; lia).
  destruct (init_good [(iv, value c)] (Some (length (m ++ [c]))) true true nb) as (st & E & G & F & M & _ & _ & _ & B); [easy|now intros _|exact CO|].
  rewrite E. cbn [bind]. assert (N2 : nth_error ((m ++ [c]) ++ [c]) iv = Some c) by now apply nth_app_old.
  rewrite (copy_ok _ iv c N2). cbn [bind]. eexists. split; [reflexivity|]. split; [|cbn; auto].
  assert (LI := nth_lt _ _ _ N).
  exists [(iv, value c)], c. cbn. split; [apply nth_app_old, nth_app_old, nth_app_new|]. split; [reflexivity|]. split; [apply better_irr|].
  split; [|split; [|split; [|split; [|split]]]].
  - split; [exact G|]. split; [exact M|]. split; [cbn; constructor; [easy|constructor]|]. split.
    + intros b f [X|[]]. injection X as <- <-. split; [intros _; lia|]. exists c. split; [now apply nth_app_old|]. split; [reflexivity|now left].
    + exists (length (m ++ [c])), (value c). split; [exact B|]. split; [intros _; rewrite app_length; cbn; lia|]. split; [|split].
      * exists c. split; [apply nth_app_old, nth_app_new|reflexivity].
      * intros s g [X|[]]. injection X as <- <-. lia.
      * now left.
  - split; [reflexivity|]. cbn. intros L. destruct (H L) as (a & HA & EA). rewrite N in EA. exists a. split; [exact HA|].
    apply nth_lt in EA as LA. split; [intros _; lia|]. exists c. split; [now apply nth_app_old, nth_app_old, nth_app_old|reflexivity].
  - cbn. split; [exists c; now left|]. intros s g [X|[]]. injection X as <- <-. destruct mx; lia.
  - intros c0 f [X|[]]. injection X as <- <-. reflexivity.
  - exists iv. now left.
  - intros _ c0 f [X|[]]. injection X as <- <-. exists iv. split; [now left|exact (nth_app_old _ _ _ _ N2)].
Qed.

Lemma loop_inv : forall n k s, Inv s -> exists s', loop n k s = Ok s' /\ Inv s' /\ length (met s') = length (met s) + n /\
  (exists more, met s' = met s ++ more) /\ (annealing = false -> better mx (cur_obj s) (cur_obj s') = false) /\
  better mx (best_obj s) (best_obj s') = false.
Proof.
  induction n as [|n IH]; intros k s I; cbn [LsModel.loop].
  - exists s. split; [reflexivity|]. split; [exact I|]. split; [lia|]. split; [exists []; now rewrite app_nil_r|].
    split; [intros _|]; apply better_irr.
  - destruct (step_inv k s I) as (s1 & E1 & I1 & (x & M1) & C1 & B1). rewrite E1. cbn [bind].
    destruct (IH (S k) s1 I1) as (s' & E & I' & L & (more & M) & CC & BB). exists s'. split; [exact E|]. split; [exact I'|].
    split; [rewrite L, M1, app_length; cbn; lia|]. split; [exists (x :: more); rewrite M, M1, <- app_assoc; reflexivity|].
    split.
    + intros AN. specialize (C1 AN). specialize (CC AN). clear -C1 CC. destruct mx; cbn in *; rewrite Z.ltb_ge in *; lia.
    + clear -B1 BB. destruct mx; cbn in *; rewrite Z.ltb_ge in *; lia.
Qed.

(** What a run guarantees. *)
Definition run_ok (s : state C) : Prop :=
  (* every stored pair is a solution met with its objective *)
  (forall b f, In (b, f) (fits (st_store s)) -> exists c, nth_error (mem s) b = Some c /\ value c = f /\ In (c, f) (met s)) /\
  (* the best solution met is stored *)
  (exists b f c, In (b, f) (fits (st_store s)) /\ nth_error (mem s) b = Some c /\ value c = f /\ best_met f s) /\
  (* when maximising, it is what the storage returns, and also its recorded best solution *)
  (mx = true -> (exists b f, best_fit (st_store s) = Ok (b, f) /\ best_met f s) /\
                exists b c, best (st_store s) = Some b /\ nth_error (mem s) b = Some c /\ best_met (value c) s) /\
  (* with store_solution, every solution met is stored *)
  (store_solution = true -> forall c f, In (c, f) (met s) -> exists b, In (b, f) (fits (st_store s)) /\ nth_error (mem s) b = Some c).

Lemma inv_run : forall s, Inv s -> run_ok s.
Proof.
  intros s (hist & c & I1 & I2 & I3 & (S1 & S2 & S3 & S4 & b1 & f1 & S5 & S6 & (c1 & S7 & S8) & S9 & S10) & I5 & I6 & I7 & (b0 & I8) & I9).
  assert (F : forall p, In p (fits (st_store s)) <-> In p hist) by apply S1.
  assert (OPT : forall f, mx = true -> optimal true f hist -> In f (map snd hist) -> f = best_obj s).
  { intros f MX O I. assert (best_obj s <= f)%Z by apply (O _ _ I8). apply in_map_iff in I as ([b g] & E & I). cbn in E. subst g.
    destruct (S4 b f I) as (_ & cc & _ & _ & M). destruct I6 as [_ O2]. specialize (O2 _ _ M). rewrite MX in O2. lia. }
  split; [|split; [|split]].
  - intros b f X. apply F in X. destruct (S4 b f X) as (_ & R). exact R.
  - destruct (S4 b0 (best_obj s) I8) as (_ & cc & N & V & _). exists b0, (best_obj s), cc. split; [now apply F|]. auto.
  - intros MX. split.
    + unfold best_fit. rewrite S2. destruct (pick_total _ _ (better true) (fits (st_store s))) as [[b f] HP].
      { intros X. apply (in_nil (a := (b0, best_obj s))). rewrite <- X. now apply F. }
      exists b, f. split; [exact HP|]. apply pick_optimal in HP as [P1 P2]. cbn [snd] in P2.
      rewrite (OPT f MX); [exact I6| |].
      * intros s0 g X. apply (P2 s0). now apply F.
      * apply F in P1. apply (in_map snd _ _ P1).
    + exists b1, c1. split; [exact S5|]. split; [exact S7|]. rewrite S8. rewrite (OPT f1 MX S9 S10). exact I6.
  - intros SS cc f X. destruct (I9 SS cc f X) as (b & B & N). exists b. split; [now apply F|exact N].
Qed.

Lemma run_result : forall m iv h n c, nth_error m iv = Some c -> handler_for m iv h ->
  exists s, solve m iv h n = Ok s /\ run_ok s /\ length (met s) = S n /\ (exists more, met s = (c, value c) :: more) /\
    best_met (best_obj s) s /\ better mx (value c) (best_obj s) = false /\
    (annealing = false -> better mx (value c) (cur_obj s) = false).
Proof.
  intros m iv h n c N H. unfold LsModel.solve. destruct (start_inv m iv h c N H) as (s0 & E0 & I0 & M0 & B0 & C0). rewrite E0. cbn [bind].
  destruct (loop_inv n 0 s0 I0) as (s & E & I & L & (more & M) & CC & BB). exists s. split; [exact E|]. split; [now apply inv_run|].
  split; [rewrite L, M0; reflexivity|]. split; [exists more; rewrite M, M0; reflexivity|].
  split; [destruct I as (hist & cc & _ & _ & _ & _ & _ & IB & _); exact IB|]. rewrite B0 in BB. rewrite C0 in CC. now split.
Qed.
End LsP.

(** ** C37 *)

(** Hill climbing with a mutation that creates its solutions: whatever the objective, the sense, the number of
    iterations and the restart policy, the best solution met is in the storage returned, with its true objective
    and at least as good as the initial one; when maximising it is the one returned. *)
Theorem C37_hill_climber : forall C (value : C -> Z) mutate undo mx and_evaluate store_solution acc m init_var h n c,
  creating C value mutate undo -> nth_error m init_var = Some c -> handler_for C m init_var h ->
  exists s, solve C value mutate undo mx and_evaluate store_solution false acc m init_var h n = Ok s /\
    run_ok C value mx store_solution s /\ length (met s) = S n /\ (exists more, met s = (c, value c) :: more) /\
    better mx (value c) (best_obj s) = false /\ better mx (value c) (cur_obj s) = false.
Proof.
  intros C value mutate undo mx ae ss acc m iv h n c CR N H.
  destruct (run_result C value mutate undo mx ae ss false acc CR m iv h n c N H) as (s & A1 & A2 & A3 & A4 & A5 & A6 & A7).
  exists s. split; [exact A1|]. split; [exact A2|]. split; [exact A3|]. split; [exact A4|]. split; [exact A6|]. now apply A7.
Qed.

(** Simulated annealing, whatever worse moves it accepts, storing every solution met. *)
Theorem C37_annealing_storing : forall C (value : C -> Z) mutate undo mx and_evaluate acc m init_var h n c,
  creating C value mutate undo -> nth_error m init_var = Some c -> handler_for C m init_var h ->
  exists s, solve C value mutate undo mx and_evaluate true true acc m init_var h n = Ok s /\
    run_ok C value mx true s /\ length (met s) = S n /\ (exists more, met s = (c, value c) :: more) /\
    better mx (value c) (best_obj s) = false.
Proof.
  intros C value mutate undo mx ae acc m iv h n c CR N H.
  destruct (run_result C value mutate undo mx ae true true acc CR m iv h n c N H) as (s & A1 & A2 & A3 & A4 & A5 & A6 & A7).
  exists s. split; [exact A1|]. split; [exact A2|]. split; [exact A3|]. split; [exact A4|]. exact A6.
Qed.

(** Simulated annealing storing improvements only: the mutation may even work in place. *)
Theorem C37_annealing : forall C (value : C -> Z) mutate undo mx and_evaluate acc m init_var h n c,
  restoring C value mutate undo -> nth_error m init_var = Some c -> handler_for C m init_var h ->
  exists s, solve C value mutate undo mx and_evaluate false true acc m init_var h n = Ok s /\
    run_ok C value mx false s /\ length (met s) = S n /\ (exists more, met s = (c, value c) :: more) /\
    better mx (value c) (best_obj s) = false.
Proof.
  intros C value mutate undo mx ae acc m iv h n c CR N H.
  destruct (run_result C value mutate undo mx ae false true acc CR m iv h n c N H) as (s & A1 & A2 & A3 & A4 & A5 & A6 & A7).
  exists s. split; [exact A1|]. split; [exact A2|]. split; [exact A3|]. split; [exact A4|]. exact A6.
Qed.

(** More iterations never give a worse best objective. *)
Theorem C37_monotone : forall C (value : C -> Z) mutate undo mx and_evaluate store_solution annealing acc m init_var h n1 n2 c s1 s2,
  (if annealing && negb store_solution then restoring C value mutate undo else creating C value mutate undo) ->
  nth_error m init_var = Some c -> handler_for C m init_var h -> n1 <= n2 ->
  solve C value mutate undo mx and_evaluate store_solution annealing acc m init_var h n1 = Ok s1 ->
  solve C value mutate undo mx and_evaluate store_solution annealing acc m init_var h n2 = Ok s2 ->
  better mx (best_obj s1) (best_obj s2) = false /\ (annealing = false -> better mx (cur_obj s1) (cur_obj s2) = false).
Proof.
  intros C value mutate undo mx ae ss an acc m iv h n1 n2 c s1 s2 OK N H L E1 E2.
  unfold solve in *. destruct (start_inv C value mx ss an acc m iv h c N H) as (s0 & E0 & I0 & _). rewrite E0 in *. cbn [bind] in *.
  assert (LP : forall a b k s, loop C value mutate undo mx ae ss an acc (a + b) k s =
     let* s := loop C value mutate undo mx ae ss an acc a k s in loop C value mutate undo mx ae ss an acc b (k + a) s).
  { induction a as [|a IH]; intros b k s; cbn [loop Nat.add bind]; [now rewrite Nat.add_0_r|].
    destruct (step _ _ _ _ _ _ _ _ _ k s); cbn [bind]; [|reflexivity]. rewrite IH. now replace (S k + a) with (k + S a) by lia. }
  replace n2 with (n1 + (n2 - n1)) in E2 by lia. rewrite LP, E1 in E2. cbn [bind] in E2.
  destruct (loop_inv C value mutate undo mx ae ss an acc OK n1 0 s0 I0) as (s1' & E1' & I1 & _). rewrite E1 in E1'. injection E1' as <-.
  destruct (loop_inv C value mutate undo mx ae ss an acc OK (n2 - n1) (0 + n1) s1 I1) as (s2' & E2' & _ & _ & _ & CC & BB). rewrite E2 in E2'. injection E2' as <-.
  split; [exact BB|exact CC].
Qed.

(** * Concrete mutations on integers, whose objective is their value *)
Definition new_move (d : nat -> Z) (k : nat) (m : list Z) (a : nat) : res (list Z * nat * Z) :=
  let* c := lget m a in Ok (m ++ [(c + d k)%Z], length m, (c + d k)%Z).
Definition prev_undo (k : nat) (m : list Z) (nv prev : nat) : res (list Z * nat) := Ok (m, prev).
Definition place_move (d : nat -> Z) (k : nat) (m : list Z) (a : nat) : res (list Z * nat * Z) :=
  let* c := lget m a in Ok (lset m a (c + d k)%Z, a, (c + d k)%Z).
Definition place_undo (d : nat -> Z) (k : nat) (m : list Z) (nv prev : nat) : res (list Z * nat) :=
  let* c := lget m nv in Ok (lset m nv (c - d k)%Z, nv).
Definition idZ (z : Z) : Z := z.

Lemma new_move_creating : forall d, creating Z idZ (new_move d) prev_undo.
Proof.
  intros d k m a c H. unfold new_move. rewrite (proj2 (lget_ok m a c) H). cbn [bind].
  exists [(c + d k)%Z], (length m), (c + d k)%Z. split; [reflexivity|]. split; [lia|]. split; [apply nth_app_new|reflexivity].
Qed.

Lemma place_move_restoring : forall d, restoring Z idZ (place_move d) (place_undo d).
Proof.
  intros d k m a c H. unfold place_move, place_undo. rewrite (proj2 (lget_ok m a c) H). cbn [bind].
  assert (L : a < length m) by (apply nth_error_Some; congruence).
  assert (N : nth_error (lset m a (c + d k)%Z) a = Some (c + d k)%Z).
  { rewrite lset_nth_error, Nat.eqb_refl. apply Nat.ltb_lt in L. now rewrite L. }
  exists (lset m a (c + d k)%Z), a, (c + d k)%Z, m, a. split; [reflexivity|]. split; [exact N|]. split; [now left|]. split.
  { rewrite (proj2 (lget_ok _ _ _) N). cbn [bind]. rewrite lset_lset. replace (c + d k - d k)%Z with c by lia. now rewrite lset_same. }
  split; [exact H|]. split; [now left|]. rewrite lset_length. split; [lia|]. split; [lia|].
  intros b B NB. split; [|reflexivity]. rewrite lset_nth_error. destruct (Nat.eqb_spec a b); [congruence|]. destruct (Nat.eqb_spec b a); [congruence|reflexivity].
Qed.

Definition zigzag (k : nat) : Z := nth k [2; -1; 3; -4; 1]%Z 0%Z.
Definition h_base : handler := mkHandler None 0 0 0 None.
Definition h_lim : handler := mkHandler (Some 0) 0 0 0 (Some 0).

Example C37_ex : creating Z idZ (new_move zigzag) prev_undo /\ handler_for Z [10%Z] 0 h_lim /\
  (exists s, solve Z idZ (new_move zigzag) prev_undo true false true false (fun _ _ _ => false) [10%Z] 0 h_lim 4 = Ok s /\
     map snd (met s) = [10; 12; 11; 15; 11]%Z /\ rmap snd (best_fit (st_store s)) = Ok 15%Z) /\
  (exists s, solve Z idZ (place_move zigzag) (place_undo zigzag) true false false true (fun _ _ _ => true) [10%Z] 0 h_base 4 = Ok s /\
     map snd (met s) = [10; 12; 11; 14; 10]%Z /\ rmap snd (best_fit (st_store s)) = Ok 14%Z).
Proof.
  split; [apply new_move_creating|]. split; [intros _; exists 0; now split|].
  split; (eexists; split; [vm_compute; reflexivity|]; split; vm_compute; reflexivity).
Qed.

(** When minimising, the storage is created for maximisation: it returns the initial, worst solution. *)
Theorem C37_minimise_refuted : exists s b f, solve Z idZ (new_move (fun _ => -1)%Z) prev_undo false false false false (fun _ _ _ => false) [10%Z] 0 h_base 3 = Ok s /\
  creating Z idZ (new_move (fun _ => -1)%Z) prev_undo /\
  best_fit (st_store s) = Ok (b, f) /\ f = 10%Z /\ best_obj s = 7%Z /\ best_met Z false 7 s.
Proof.
  eexists; exists 0, 10%Z. split; [vm_compute; reflexivity|]. split; [apply new_move_creating|]. split; [vm_compute; reflexivity|].
  split; [reflexivity|]. split; [reflexivity|]. split; [exists 7%Z; cbn; tauto|]. intros c g X. cbn in X.
  repeat (destruct X as [X|X]; [injection X as <- <-; lia|]). destruct X.
Qed.

(** With an in-place mutation, the hill climber stores the object it goes on modifying: the pair it returns has
    an objective that is neither that of its solution nor the best met. *)
Theorem C37_in_place_refuted : exists s b f c, solve Z idZ (place_move (fun _ => 1)%Z) (place_undo (fun _ => 1)%Z) true false false false (fun _ _ _ => false) [10%Z] 0 h_base 3 = Ok s /\
  restoring Z idZ (place_move (fun _ => 1)%Z) (place_undo (fun _ => 1)%Z) /\
  best_fit (st_store s) = Ok (b, f) /\ nth_error (mem s) b = Some c /\ idZ c <> f /\ (f < best_obj s)%Z.
Proof.
  eexists; exists 1, 11%Z, 13%Z. split; [vm_compute; reflexivity|]. split; [apply place_move_restoring|]. split; [vm_compute; reflexivity|].
  split; [reflexivity|]. split; [easy|]. cbn. lia.
Qed.

(** Simulated annealing storing all solutions copies a rejected solution after it was undone in place: the stored
    solution is the previous one with the objective of the rejected one. *)
Theorem C37_annealing_rejected_refuted : exists s b f c, solve Z idZ (place_move (fun _ => -1)%Z) (place_undo (fun _ => -1)%Z) true false true true (fun _ _ _ => false) [10%Z] 0 h_base 1 = Ok s /\
  restoring Z idZ (place_move (fun _ => -1)%Z) (place_undo (fun _ => -1)%Z) /\
  In (b, f) (fits (st_store s)) /\ nth_error (mem s) b = Some c /\ idZ c <> f.
Proof.
  eexists; exists 4, 9%Z, 10%Z. split; [vm_compute; reflexivity|]. split; [apply place_move_restoring|]. split; [cbn; tauto|].
  split; [reflexivity|easy].
Qed.

(** A handler made with another solution restarts from it while claiming the initial objective. *)
Theorem C37_handler_refuted : exists s c, solve Z idZ (new_move (fun _ => -1)%Z) prev_undo true false false false (fun _ _ _ => false) [10%Z; 3%Z] 0 (mkHandler (Some 0) 0 0 3 (Some 1)) 1 = Ok s /\
  nth_error (mem s) (cur s) = Some c /\ idZ c <> cur_obj s.
Proof. eexists; exists 3%Z. split; [vm_compute; reflexivity|]. split; [reflexivity|easy]. Qed.

Print Assumptions C37_hill_climber.
Print Assumptions C37_annealing_storing.
Print Assumptions C37_annealing.
Print Assumptions C37_monotone.
Print Assumptions C37_minimise_refuted.
Print Assumptions C37_in_place_refuted.
Print Assumptions C37_annealing_rejected_refuted.
Print Assumptions C37_handler_refuted.
