(** Large neighbourhood search: C97 (what LNS_CP returns), C98 (when it stops), C99 (LNS_MILP). *)
From Coq Require Import List Bool Arith ZArith Lia.
From Verif Require Import Py PyList StoreModel StoreProps LnsModel LnsSpec LnsProofs LnsLoopProofs.
Import ListNotations.

Section P.
Context {Sol : Type} {ES : PyEq Sol}.
Notation store := (@store Sol).

(** Stores made from a non-empty list of solutions are ready. *)
Theorem C97_ready : forall (l : list (Sol * Z)) b mx limit nb, l <> [] -> (limit = true -> 0 < nb) ->
  exists st, init l b mx limit nb = Ok st /\ ready mx st /\ fits st = l.
Proof. exact init_ready. Qed.

(** * C97, C98: LNS_CP *)
Section CP.
Variables (mx : bool) (nb limit : nat).
Variable handler : nat -> option store -> res unit.
Variable solve : nat -> option store -> res store.
Variable post : nat -> store -> res store.
Variable satisfy : Sol -> res bool.
Variable late : nat -> bool.

(** The result is the initial store to which every round adds what it finds. *)
Theorem C97_run : forall st0 result,
  (forall it r r', post it r = Ok r' -> maximize r' = mx) -> (forall s, exists b, satisfy s = Ok b) -> ready mx st0 ->
  solve_lns_cp mx false nb limit (Ok st0) handler solve post satisfy late = Ok result ->
  exists st ls, result = Some st /\ ready mx st /\ search (found solve post) 0 st0 ls st /\ stops mx late limit nb 0 (fits st0) ls.
Proof.
  intros st0 result Se Sa R H. unfold solve_lns_cp in H. cbn [bind] in H.
  destruct (best_fit_some st0 (r_some _ _ R)) as [p P]. rewrite P in H. cbn [bind] in H. destruct (Sa (fst p)) as [b Sb]. rewrite Sb in H.
  cbn [bind] in H. apply bind_ok in H as (g & Hr & H). injection H as <-.
  assert (I : inv mx (fits st0) [] (Lns (Some st0) (Some p) 0) st0).
  { constructor; cbn [l_store l_best l_quiet]; auto.
    - destruct p as [s o]. exists s, o. split; auto. unfold hist. cbn [concat]. rewrite app_nil_r.
      exact (proj2 (best_fit_top mx st0 _ (r_sense _ _ R) P)).
    - split; [cbn; lia|]. split; [cbn; intros; lia|auto]. }
  destruct (rounds_inv mx false limit handler solve post satisfy late Se Sa nb 0 _ _ _ _ (or_intror eq_refl) I) as [Q _].
  destruct (Q g Hr) as (ls & st & E & R' & S' & T). exists st, ls. split; auto.
Qed.

(** A result always comes when the constraint handler accepts every store. *)
Theorem C97_total : forall st0,
  (forall it r r', post it r = Ok r' -> maximize r' = mx) -> (forall s, exists b, satisfy s = Ok b) -> ready mx st0 ->
  (forall k st, handler k (Some st) = Ok tt) ->
  exists st, solve_lns_cp mx false nb limit (Ok st0) handler solve post satisfy late = Ok (Some st).
Proof.
  intros st0 Se Sa R Hd. unfold solve_lns_cp. cbn [bind].
  destruct (best_fit_some st0 (r_some _ _ R)) as [p P]. rewrite P. cbn [bind]. destruct (Sa (fst p)) as [b Sb]. rewrite Sb. cbn [bind].
  assert (I : inv mx (fits st0) [] (Lns (Some st0) (Some p) 0) st0).
  { constructor; cbn [l_store l_best l_quiet]; auto.
    - destruct p as [s o]. exists s, o. split; auto. unfold hist. cbn [concat]. rewrite app_nil_r.
      exact (proj2 (best_fit_top mx st0 _ (r_sense _ _ R) P)).
    - split; [cbn; lia|]. split; [cbn; intros; lia|auto]. }
  destruct (rounds_inv mx false limit handler solve post satisfy late Se Sa nb 0 _ _ _ _ (or_intror eq_refl) I) as [Q1 Q2].
  destruct (Q2 Hd) as [g E]. rewrite E. destruct (Q1 g E) as (ls & st & Es & _). cbn [bind]. rewrite Es. eauto.
Qed.

(** The initial solutions come first with their fitnesses; the others were found in some round; every solution
    found is there. *)
Theorem C97_keeps : forall st0 st,
  (forall it r r', post it r = Ok r' -> maximize r' = mx) -> (forall s, exists b, satisfy s = Ok b) -> ready mx st0 ->
  solve_lns_cp mx false nb limit (Ok st0) handler solve post satisfy late = Ok (Some st) ->
  exists ls more, search (found solve post) 0 st0 ls st /\ fits st = fits st0 ++ more /\ incl more (concat ls) /\
    forall s, In s (map fst (fits st)) <-> In s (map fst (fits st0)) \/ In s (map fst (concat ls)).
Proof.
  intros st0 st Se Sa R H. destruct (C97_run st0 _ Se Sa R H) as (st' & ls & E & _ & S' & _). injection E as <-.
  destruct (search_keeps _ _ _ _ _ S') as (r & Q). exists ls, r. split; auto.
Qed.

(** With one fitness per solution, the best solution of the result is the best of all initial and
    found solutions. *)
Theorem C97_best : forall st0 st (fit : Sol -> Z),
  (forall it r r', post it r = Ok r' -> maximize r' = mx) -> (forall s, exists b, satisfy s = Ok b) -> ready mx st0 ->
  (forall s f, In (s, f) (fits st0) -> f = fit s) -> (forall it r r' s f, post it r = Ok r' -> In (s, f) (fits r') -> f = fit s) ->
  solve_lns_cp mx false nb limit (Ok st0) handler solve post satisfy late = Ok (Some st) ->
  exists ls b, search (found solve post) 0 st0 ls st /\ best_fit st = Ok b /\
    forall q, In q (fits st0 ++ concat ls) -> ~ beats mx (snd q) (snd b).
Proof.
  intros st0 st fit Se Sa R F0 F1 H. destruct (C97_run st0 _ Se Sa R H) as (st' & ls & E & R' & S' & _). injection E as <-.
  destruct (best_fit_some st (r_some _ _ R')) as [b B]. exists ls, b. split; auto. split; auto.
  destruct (best_fit_top mx st b (r_sense _ _ R') B) as (_ & _ & Top). destruct (search_keeps _ _ _ _ _ S') as (more & Ef & Im & K).
  assert (Ff : forall q, In q (concat ls) -> snd q = fit (fst q)).
  { clear - S' F1. induction S' as [|it st st1 ls st' F S' IH]; intros q Iq; [destruct Iq|]. cbn [concat] in Iq. apply in_app_or in Iq as [Iq|Iq]; [|auto].
    unfold found in Iq. destruct (solve it (Some st)) as [r|]; [|destruct Iq]. destruct (fits r); [destruct Iq|].
    destruct (post it r) as [r'|] eqn:P; [|destruct Iq]. destruct q as [s f]. exact (F1 _ _ _ _ _ P Iq). }
  intros q Iq Bq. apply in_app_or in Iq. assert (Iq' : In (fst q) (map fst (fits st))).
  { apply K. destruct Iq as [Iq|Iq]; [left|right]; now apply in_map. }
  apply in_map_iff in Iq' as (q' & Eq & Iq'). apply (Top q' Iq'). assert (Es : snd q' = snd q); [|congruence].
  assert (E1 : snd q = fit (fst q)) by (destruct Iq as [Iq|Iq]; [destruct q; exact (F0 _ _ Iq)|auto]).
  assert (E2 : snd q' = fit (fst q')).
  { rewrite Ef in Iq'. apply in_app_or in Iq' as [I1|I1]; [destruct q'; exact (F0 _ _ I1)|]. apply Ff, Im, I1. }
  congruence.
Qed.

(** The result is never worse than the initial solutions. *)
Theorem C97_never_worse : forall st0 st b0,
  (forall it r r', post it r = Ok r' -> maximize r' = mx) -> (forall s, exists b, satisfy s = Ok b) -> ready mx st0 ->
  solve_lns_cp mx false nb limit (Ok st0) handler solve post satisfy late = Ok (Some st) -> best_fit st0 = Ok b0 ->
  exists b, best_fit st = Ok b /\ ~ beats mx (snd b0) (snd b).
Proof.
  intros st0 st b0 Se Sa R H B0. destruct (C97_run st0 _ Se Sa R H) as (st' & ls & E & R' & S' & _). injection E as <-.
  destruct (best_fit_some st (r_some _ _ R')) as [b B]. exists b. split; auto.
  destruct (best_fit_top mx st b (r_sense _ _ R') B) as (_ & _ & Top). destruct (search_keeps _ _ _ _ _ S') as (more & Ef & _ & _).
  apply Top. rewrite Ef. apply in_or_app. left. exact (proj1 (best_fit_top mx st0 _ (r_sense _ _ R) B0)).
Qed.

(** C98: the search ends after the given number of rounds, when time is up, or when more than the given
    number of rounds in a row brought no new record; not before. *)
Theorem C98_stops : forall st0 st,
  (forall it r r', post it r = Ok r' -> maximize r' = mx) -> (forall s, exists b, satisfy s = Ok b) -> ready mx st0 ->
  solve_lns_cp mx false nb limit (Ok st0) handler solve post satisfy late = Ok (Some st) ->
  exists ls, search (found solve post) 0 st0 ls st /\ stops mx late limit nb 0 (fits st0) ls.
Proof.
  intros st0 st Se Sa R H. destruct (C97_run st0 _ Se Sa R H) as (st' & ls & E & _ & S' & T). injection E as <-. eauto.
Qed.
(** The number of rounds since the last record is determined. *)
Theorem C98_quiet_unique : forall base (ls : list (list (Sol * Z))) a b, quiet mx base ls a -> quiet mx base ls b -> a = b.
Proof. intros. eapply quiet_unique; eauto. Qed.

(** With [skip_first_iteration], a first round that finds solutions plays the role of the initial
    solutions. *)
Theorem C97_skip_first : forall start r r' result,
  (forall it r r', post it r = Ok r' -> maximize r' = mx) -> (forall s, exists b, satisfy s = Ok b) ->
  solve 0 None = Ok r -> fits r <> [] -> post 0 r = Ok r' -> ready mx r' ->
  solve_lns_cp mx true (S nb) limit start handler solve post satisfy late = Ok result ->
  exists st0 st, fits st0 = fits r' /\ ready mx st0 /\ result = Some st /\
    if late 0 then st = st0
    else exists ls, search (found solve post) 1 st0 ls st /\ stops mx late limit nb 1 (fits r') ls.
Proof.
  intros start r r' result Se Sa So Nr Po R H. unfold solve_lns_cp in H. cbn [bind] in H. apply bind_ok in H as (g & H & Hg). injection Hg as <-.
  cbn [lns_rounds] in H. apply bind_ok in H as (g1 & H1 & H).
  destruct (best_fit_some r' (r_some _ _ R)) as [p P]. destruct (add_itself_ready mx r' R) as (st0 & A & R0 & F0).
  assert (E1 : g1 = Lns (Some st0) (Some p) 0).
  { unfold lns_round in H1. cbn [andb Nat.eqb bind] in H1. apply bind_ok in H1 as (gb & Ha & H1). unfold attempt in Ha. cbn [l_store] in Ha. rewrite So in Ha.
    destruct (fits r); [congruence|]. rewrite Po, P in Ha. unfold enter in Ha. cbn [andb Nat.eqb] in Ha. rewrite A in Ha.
    cbn [bind snd fst l_best take] in Ha. destruct p as [s o]. destruct (Sa s) as [b Sb]. cbn in Ha. rewrite Sb in Ha.
    injection Ha as <-. cbn [snd fst] in H1. injection H1 as <-. reflexivity. }
  subst g1. exists st0. destruct (late 0).
  { injection H as <-. exists st0. auto. }
  cbn [l_quiet] in H. destruct (limit <? 0) eqn:L0; [apply Nat.ltb_lt in L0; lia|].
  assert (I : inv mx (fits r') [] (Lns (Some st0) (Some p) 0) st0).
  { constructor; cbn [l_store l_best l_quiet]; auto.
    - destruct p as [s o]. exists s, o. split; auto. unfold hist. cbn [concat]. rewrite app_nil_r.
      exact (proj2 (best_fit_top mx r' _ (r_sense _ _ R) P)).
    - split; [cbn; lia|]. split; [cbn; intros; lia|auto]. }
  destruct (rounds_inv mx true limit handler solve post satisfy late Se Sa nb 1 _ _ _ _ (or_introl (Nat.lt_0_succ 0)) I) as [Q _].
  destruct (Q g H) as (ls & st & E & R' & S' & T). exists st. split; auto. split; auto. split; auto. exists ls. split; auto.
Qed.

(** If that first round finds nothing, no later round can save the search: the result is [None]. *)
Theorem C97_skip_lost : forall start result, found solve post 0 None = [] ->
  solve_lns_cp mx true (S nb) limit start handler solve post satisfy late = Ok result -> result = None.
Proof.
  intros start result F H. unfold solve_lns_cp in H. cbn [bind] in H. apply bind_ok in H as (g & H & Hg). injection Hg as <-.
  cbn [lns_rounds] in H. apply bind_ok in H as (g1 & H1 & H).
  assert (E1 : l_store g1 = None).
  { unfold lns_round in H1. cbn [andb Nat.eqb bind] in H1. apply bind_ok in H1 as (gb & Ha & H1). unfold attempt in Ha. cbn [l_store l_best l_quiet] in Ha.
    unfold found in F. destruct (solve 0 None) as [r|]; [|injection Ha as <-; injection H1 as <-; reflexivity].
    destruct (fits r); [injection Ha as <-; injection H1 as <-; reflexivity|].
    destruct (post 0 r) as [r'|]; [|injection Ha as <-; injection H1 as <-; reflexivity].
    rewrite (best_fit_none _ F) in Ha. injection Ha as <-. injection H1 as <-. reflexivity. }
  destruct (late 0); [congruence|]. destruct (limit <? _); [congruence|].
  exact (no_store mx true limit handler solve post satisfy late nb 1 g1 g (Nat.lt_0_succ 0) E1 H).
Qed.
End CP.

(** * C99: LNS_MILP *)
Section MILP.
Context {C : Type}.
Variables (mx : bool) (nb limit : nat).
Variable adding : nat -> store -> res C.
Variable removing : nat -> option C -> res unit.
Variable solve : nat -> option C -> res store.
Variable post : nat -> store -> res store.
Variable late : nat -> bool.

(** The result is the initial store with what the rounds found; each round works with constraints made
    from the store of the round before; the search ends after the given number of rounds, when time is up, or when more
    than the given number of rounds found exactly the best fitness known (since it was
    last improved). *)
Theorem C99_run : forall st0 result,
  (forall it r r', post it r = Ok r' -> maximize r' = mx) -> ready mx st0 ->
  solve_lns_milp mx false nb limit (Ok st0) adding removing solve post late = Ok result ->
  exists st ls c, result = Some st /\ adding 0 st0 = Ok c /\ search_milp solve post adding 0 st0 (Some c) ls st /\
    length ls <= nb /\
    (forall k, 0 < k < length ls -> late (k - 1) = false /\ exists q, ties mx (fits st0) (firstn k ls) q /\ q <= limit) /\
    (length ls = nb \/ 0 < length ls /\ (late (length ls - 1) = true \/
       exists q, ties mx (fits st0) ls q /\ limit < q)).
Proof.
  intros st0 result Se R H. unfold solve_lns_milp in H. cbn [bind] in H.
  destruct (best_fit_some st0 (r_some _ _ R)) as [p P]. rewrite P in H. cbn [bind] in H.
  destruct (adding 0 st0) as [c|] eqn:Ad; [|discriminate]. cbn [bind fst snd] in H. apply bind_ok in H as (g & Hr & H). injection H as <-.
  assert (I : minv mx true (fits st0) [] (Lns (Some st0) (Some p) 0) st0).
  { constructor; cbn [l_store l_best l_quiet]; auto.
    - destruct p as [s o]. exists s, o. split; auto. unfold hist. cbn [concat]. rewrite app_nil_r.
      exact (proj2 (best_fit_top mx st0 _ (r_sense _ _ R) P)).
    - apply ties_none. }
  destruct (milp_rounds_inv mx false limit adding removing solve post late Se nb true 0 _ _ _ _ _ _ (or_intror eq_refl) I Hr) as (ls & st & E & R' & S' & (T1 & T2 & T3)).
  exists st, ls, c. split; auto. split; auto. split; auto. split; auto. split; [|destruct T3 as [T3|(L & T3)]; [auto|right]; split; auto; destruct T3 as [T3|(_ & T3)]; auto].
  intros k Lk. destruct (T2 k Lk). auto.
Qed.

(** A result always comes when every round finds something. *)
Theorem C99_total : forall st0,
  (forall it r r', post it r = Ok r' -> maximize r' = mx) -> ready mx st0 ->
  (forall k c, exists r, solve k c = Ok r /\ fits r <> []) ->
  (forall k r, fits r <> [] -> exists r', post k r = Ok r' /\ fits r' <> []) ->
  (forall k r, exists c, adding k r = Ok c) -> (forall k c, removing k c = Ok tt) ->
  exists st, solve_lns_milp mx false nb limit (Ok st0) adding removing solve post late = Ok (Some st).
Proof.
  intros st0 Se R HS HP HA HR. unfold solve_lns_milp. cbn [bind].
  destruct (best_fit_some st0 (r_some _ _ R)) as [p P]. rewrite P. cbn [bind]. destruct (HA 0 st0) as [c ->]. cbn [bind fst snd].
  assert (I : minv mx true (fits st0) [] (Lns (Some st0) (Some p) 0) st0).
  { constructor; cbn [l_store l_best l_quiet]; auto.
    - destruct p as [s o]. exists s, o. split; auto. unfold hist. cbn [concat]. rewrite app_nil_r.
      exact (proj2 (best_fit_top mx st0 _ (r_sense _ _ R) P)).
    - apply ties_none. }
  destruct (milp_rounds_total mx false limit adding removing solve post late Se nb 0 _ _ _ _ _ (Some c) (or_intror eq_refl) I HS HP HA HR) as [g E].
  rewrite E. cbn [bind]. destruct (milp_rounds_inv mx false limit adding removing solve post late Se nb true 0 _ _ _ _ _ _ (or_intror eq_refl) I E) as (ls & st & Es & _).
  rewrite Es. eauto.
Qed.

(** The initial solutions are kept and every solution found is there; so the result is never worse than
    the initial solutions. *)
Theorem C99_keeps : forall it st0 c ls st, search_milp solve post adding it st0 c ls st ->
  exists more, fits st = fits st0 ++ more /\ incl more (concat ls) /\
    forall s, In s (map fst (fits st)) <-> In s (map fst (fits st0)) \/ In s (map fst (concat ls)).
Proof.
  intros it st0 c ls st H. induction H as [it st c|it st c r r' c' st1 ls st' So Po Nf Ad F H (more & E & I & K)].
  - exists []. rewrite app_nil_r. split; auto. split; [intros x []|]. cbn. tauto.
  - destruct (merge_keeps (fits r') (fits st)) as (r1 & E1 & I1). exists (r1 ++ more). rewrite E, F, E1, app_assoc. split; auto. split.
    + intros x Ix. cbn [concat]. apply in_or_app. apply in_app_or in Ix as [Ix|Ix]; auto.
    + intros s. rewrite <- E1, <- F, <- E. rewrite K, F, merge_keys. cbn [concat]. rewrite map_app, in_app_iff. tauto.
Qed.

(** With [skip_first_iteration] the first round plays the role of the initial solutions; but when
    maximising no best fitness is ever known, and only the number of rounds and the clock end the
    search. *)
Theorem C99_skip_first : forall start r r' result,
  (forall it r r', post it r = Ok r' -> maximize r' = mx) ->
  solve 0 None = Ok r -> post 0 r = Ok r' -> ready mx r' ->
  solve_lns_milp mx true (S nb) limit start adding removing solve post late = Ok result ->
  exists st0 st c, fits st0 = fits r' /\ ready mx st0 /\ result = Some st /\ adding 1 st0 = Ok c /\
    if late 0 then st = st0
    else exists ls, search_milp solve post adding 1 st0 (Some c) ls st /\ length ls <= nb /\
      (forall k, 0 < k < length ls -> late k = false /\ (mx = false -> exists q, ties mx (fits r') (firstn k ls) q /\ q <= limit)) /\
      (length ls = nb \/ 0 < length ls /\ (late (length ls) = true \/
         mx = false /\ exists q, ties mx (fits r') ls q /\ limit < q)).
Proof.
  intros start r r' result Se So Po R H. unfold solve_lns_milp in H. cbn [bind fst snd] in H. apply bind_ok in H as (g & H & Hg). injection Hg as <-.
  cbn [milp_rounds] in H. apply bind_ok in H as (gc & H1 & H).
  destruct (best_fit_some r' (r_some _ _ R)) as [p P]. destruct (add_itself_ready mx r' R) as (st0 & A & R0 & F0).
  unfold milp_round in H1. rewrite So in H1. cbn [bind] in H1. apply bind_ok in H1 as (p0 & _ & H1). rewrite Po in H1. cbn [bind] in H1. rewrite P in H1. cbn [bind] in H1.
  unfold enter_milp in H1. cbn [andb Nat.eqb] in H1. rewrite A in H1. cbn [bind snd fst] in H1.
  apply bind_ok in H1 as (u & _ & H1). apply bind_ok in H1 as (c & Ad & H1). injection H1 as <-. cbn [fst snd] in H.
  exists st0.
  assert (I : minv mx (negb mx) (fits r') [] (Lns (Some st0) (l_best (take_milp mx p (Lns None None 0))) (l_quiet (take_milp mx p (Lns None None 0)))) st0).
  { constructor; cbn [l_store]; auto.
    - destruct mx eqn:Em; cbn; auto. destruct p as [s o]. exists s, o. split; auto. unfold hist. cbn [concat]. rewrite app_nil_r.
      rewrite <- Em in *. exact (proj2 (best_fit_top mx r' _ (r_sense _ _ R) P)).
    - destruct mx; cbn; auto. apply ties_none. }
  assert (Q0 : l_quiet (take_milp mx p (Lns None None 0)) = 0) by (destruct mx; reflexivity).
  destruct (late 0).
  { injection H as <-. exists st0, c. auto. }
  cbn [l_quiet] in H. rewrite Q0 in H. destruct (limit <? 0) eqn:L0; [apply Nat.ltb_lt in L0; lia|]. rewrite Q0 in I.
  destruct (milp_rounds_inv mx true limit adding removing solve post late Se nb (negb mx) 1 _ _ _ _ _ _ (or_introl (Nat.lt_0_succ 0)) I H) as (ls & st & E & R' & S' & (T1 & T2 & T3)).
  exists st, c. split; auto. split; auto. split; auto. split; auto. exists ls. split; auto. split; auto. split.
  - intros k Lk. specialize (T2 k Lk). replace (1 + k - 1) with k in T2 by lia. destruct T2 as [Ta Tb]. split; auto. intros Em. apply Tb. rewrite Em. reflexivity.
  - destruct T3 as [T3|(L & T3)]; [auto|right]. split; auto. replace (1 + length ls - 1) with (length ls) in T3 by lia.
    destruct T3 as [T3|(N & T3)]; [auto|right]. split; auto. destruct mx; [discriminate|reflexivity].
Qed.
End MILP.
End P.

(** * Concrete cases *)
Definition st_of (mx : bool) (l : list (nat * Z)) : res (@store nat) := init l None mx false 0.
Definition got (r : res (option (@store nat))) : res (option (list (nat * Z))) := rmap (option_map fits) r.
Lemma st_of_sense : forall mx l st, st_of mx l = Ok st -> maximize st = mx.
Proof.
  intros mx l st H. unfold st_of, init in H. destruct (fold_left init_turn l ([], [], 0)) as [[m h] n]. rewrite andb_false_r in H.
  destruct h; [injection H as <-; reflexivity|]. apply bind_ok in H as (q & _ & H). injection H as <-. reflexivity.
Qed.
Definition fine (_ : nat) : res bool := Ok true.
Definition allow (_ : nat) (_ : option (@store nat)) : res unit := Ok tt.
Definition never (_ : nat) : bool := false.
(** Minimising: the rounds find 8, nothing, a failure, 5 and 9, 7. *)
Definition cp_rounds (it : nat) : res (list (nat * Z)) :=
  match it with 0 => Ok [(1, 8%Z)] | 1 => Ok [] | 2 => Err ValueError | 3 => Ok [(2, 9%Z); (3, 5%Z); (1, 8%Z)] | _ => Ok [(4, 7%Z)] end.
Definition cp_solve (it : nat) (_ : option (@store nat)) : res (@store nat) := let* l := cp_rounds it in st_of false l.
(** Post-processing that rebuilds the store. *)
Definition rebuild (mx : bool) (_ : nat) (r : @store nat) : res (@store nat) := st_of mx (fits r).

Example C97_run_witness : exists st0, st_of false [(0, 10%Z)] = Ok st0 /\ ready false st0 /\
  (forall it r r', rebuild false it r = Ok r' -> maximize r' = false) /\
  got (solve_lns_cp false false 6 9 (Ok st0) allow cp_solve (rebuild false) fine never)
  = Ok (Some [(0, 10%Z); (1, 8%Z); (2, 9%Z); (3, 5%Z); (4, 7%Z)]).
Proof.
  destruct (C97_ready [(0, 10%Z)] None false false 0) as (st & E & R & _); [discriminate|discriminate|].
  exists st. split; [exact E|]. split; auto. split; [intros it r r'; apply st_of_sense|]. injection E as <-. vm_compute. reflexivity.
Qed.
Definition fit_ex (s : nat) : Z := match s with 0 => 10 | 1 => 8 | 2 => 9 | 3 => 5 | _ => 7 end.
Definition post_ex (it : nat) (r : @store nat) : res (@store nat) := st_of false (map (fun p => (fst p, fit_ex (fst p))) (fits r)).
Example C97_best_witness : exists st0 st b, st_of false [(0, 10%Z)] = Ok st0 /\
  (forall s f, In (s, f) (fits st0) -> f = fit_ex s) /\
  (forall it r r' s f, post_ex it r = Ok r' -> In (s, f) (fits r') -> f = fit_ex s) /\
  solve_lns_cp false false 6 9 (Ok st0) allow cp_solve post_ex fine never = Ok (Some st) /\ best_fit st = Ok b /\ b = (3, 5%Z).
Proof.
  eexists. eexists. eexists. split; [reflexivity|]. split; [intros s f [E|[]]; injection E as <- <-; reflexivity|]. split.
  - intros it r r' s f P I. unfold post_ex in P.
    assert (F : fits r' = map (fun p => (fst p, fit_ex (fst p))) (fits r)).
    { unfold st_of, init in P. destruct (fold_left init_turn _ ([], [], 0)) as [[m h] n]. rewrite andb_false_r in P.
      destruct h; [injection P as <-; reflexivity|]. apply bind_ok in P as (q & _ & P). injection P as <-. reflexivity. }
    rewrite F in I. apply in_map_iff in I as (q & E & _). injection E as <- <-. reflexivity.
  - split; [vm_compute; reflexivity|]. split; vm_compute; reflexivity.
Qed.
(** Two quiet rounds in a row are one too many: the 5 of round 3 is never found. *)
Example C98_stops_witness : exists st0, st_of false [(0, 10%Z)] = Ok st0 /\
  got (solve_lns_cp false false 6 1 (Ok st0) allow cp_solve (rebuild false) fine never) = Ok (Some [(0, 10%Z); (1, 8%Z)]) /\
  got (solve_lns_cp false false 6 2 (Ok st0) allow cp_solve (rebuild false) fine never)
  = Ok (Some [(0, 10%Z); (1, 8%Z); (2, 9%Z); (3, 5%Z); (4, 7%Z)]) /\
  got (solve_lns_cp false false 6 9 (Ok st0) allow cp_solve (rebuild false) fine (fun k => 3 <=? k))
  = Ok (Some [(0, 10%Z); (1, 8%Z); (2, 9%Z); (3, 5%Z)]).
Proof. eexists. split; [reflexivity|]. repeat split; vm_compute; reflexivity. Qed.
Example C97_skip_first_witness : exists r r', cp_solve 0 None = Ok r /\ fits r <> [] /\ rebuild false 0 r = Ok r' /\ ready false r' /\
  got (solve_lns_cp false true 4 9 (Err ValueError) allow cp_solve (rebuild false) fine never) = Ok (Some [(1, 8%Z); (2, 9%Z); (3, 5%Z)]).
Proof.
  destruct (C97_ready [(1, 8%Z)] None false false 0) as (st & E & R & _); [discriminate|discriminate|].
  eexists. exists st. split; [reflexivity|]. split; [discriminate|]. split; [exact E|]. split; [exact R|]. vm_compute. reflexivity.
Qed.

(** With [skip_first_iteration], a solver that fails in the first round and finds solutions in all later ones
    makes the search return [None] instead of these solutions. *)
Theorem C97_found_returned_refuted : exists (solve : nat -> option (@store nat) -> res (@store nat)) post nb result,
  (forall it st, 0 < it -> found solve post it st <> []) /\
  solve_lns_cp false true nb 100 (Err ValueError) allow solve post fine never = Ok result /\ 1 < nb /\ result = None.
Proof.
  exists (fun it _ => match it with 0 => Err ValueError | _ => st_of false [(7, 3%Z)] end), (rebuild false), 5, None.
  split; [|split; [vm_compute; reflexivity|split; [lia|reflexivity]]].
  intros [|it] st L; [lia|]. vm_compute. discriminate.
Qed.

(** With [skip_first_iteration] the solutions of the first round are added to the store that holds
    them already: their fitnesses are in the heap twice, so the count of stored
    solutions is wrong. *)
Theorem C97_heap_once_refuted : exists (solve : nat -> option (@store nat) -> res (@store nat)) post st,
  solve_lns_cp false true 1 100 (Err ValueError) allow solve post fine never = Ok (Some st) /\
  fits st = [(7, 3%Z); (8, 4%Z)] /\ heap st = [3%Z; 3%Z; 4%Z; 4%Z] /\ size_heap st <> length (fits st).
Proof.
  eexists (fun it _ => st_of false [(7, 3%Z); (8, 4%Z)]), (rebuild false), _. split; [vm_compute; reflexivity|].
  vm_compute. split; auto. split; auto. discriminate.
Qed.

(** The MILP version, minimising; the constraints of a round are what the round before found. *)
Definition m_add (_ : nat) (st : @store nat) : res (list (nat * Z)) := Ok (fits st).
Definition m_rem (_ : nat) (_ : option (list (nat * Z))) : res unit := Ok tt.
Definition m_solve (rs : nat -> list (nat * Z)) (it : nat) (_ : option (list (nat * Z))) : res (@store nat) := st_of false (rs it).
Definition m_post (_ : nat) (r : @store nat) : res (@store nat) := Ok (mkStore (fits r) (best r) false (size_heap r) (heap r) (limit_store r) (nb_best r) (smap r) (fmin r) (fmax r)).
Definition m_rs (it : nat) : list (nat * Z) := match it with 0 => [(1, 8%Z)] | 1 => [(2, 9%Z)] | 2 => [(3, 8%Z)] | _ => [(4, 6%Z)] end.
Lemma m_rs_some : forall it c, exists r, m_solve m_rs it c = Ok r /\ fits r <> [].
Proof. intros [|[|[|it]]] c; (eexists; split; [vm_compute; reflexivity|discriminate]). Qed.
Example C99_run_witness : exists st0, st_of false [(0, 10%Z)] = Ok st0 /\ ready false st0 /\
  (forall it r r', m_post it r = Ok r' -> maximize r' = false) /\
  (forall k c, exists r, m_solve m_rs k c = Ok r /\ fits r <> []) /\
  (forall k r, fits r <> [] -> exists r', m_post k r = Ok r' /\ fits r' <> []) /\
  got (solve_lns_milp false false 5 9 (Ok st0) m_add m_rem (m_solve m_rs) m_post never)
  = Ok (Some [(0, 10%Z); (1, 8%Z); (2, 9%Z); (3, 8%Z); (4, 6%Z)]) /\
  got (solve_lns_milp false false 5 0 (Ok st0) m_add m_rem (m_solve m_rs) m_post never)
  = Ok (Some [(0, 10%Z); (1, 8%Z); (2, 9%Z); (3, 8%Z)]).
Proof.
  destruct (C97_ready [(0, 10%Z)] None false false 0) as (st & E & R & _); [discriminate|discriminate|].
  exists st. split; [exact E|]. split; auto. split; [intros it r r' H; injection H as <-; reflexivity|]. split; [apply m_rs_some|].
  split; [intros k r N; eexists; split; [reflexivity|exact N]|]. injection E as <-. split; vm_compute; reflexivity.
Qed.
Example C99_skip_first_witness : exists r, m_solve m_rs 0 None = Ok r /\ m_post 0 r = Ok r /\ ready false r /\
  got (solve_lns_milp false true 5 0 (Err ValueError) m_add m_rem (m_solve m_rs) m_post never)
  = Ok (Some [(1, 8%Z); (2, 9%Z); (3, 8%Z)]).
Proof.
  destruct (C97_ready [(1, 8%Z)] None false false 0) as (st & E & R & _); [discriminate|discriminate|].
  exists st. split; [exact E|]. injection E as <-. split; [reflexivity|]. split; [exact R|]. vm_compute. reflexivity.
Qed.

(** A round in which the MILP solver finds nothing raises [ValueError]; the solutions of the rounds
    before are lost. *)
Theorem C99_empty_round_refuted : exists rs st0, ready false st0 /\ (exists st, solve_lns_milp false false 1 100 (Ok st0) m_add m_rem (m_solve rs) m_post never = Ok (Some st) /\ fits st <> fits st0) /\
  solve_lns_milp false false 2 100 (Ok st0) m_add m_rem (m_solve rs) m_post never = Err ValueError.
Proof.
  destruct (C97_ready [(0, 10%Z)] None false false 0) as (st & E & R & _); [discriminate|discriminate|].
  exists (fun it => match it with 0 => [(1, 8%Z)] | _ => [] end), st. split; auto. injection E as <-. split; [|vm_compute; reflexivity].
  eexists. split; [vm_compute; reflexivity|]. discriminate.
Qed.

(** [nb_iteration_no_improvement] does not bound the rounds without improvement: a round with a worse best solution
    is not counted, so with a limit of 0 all rounds are run although none of them improves. *)
Theorem C99_no_improvement_refuted : forall nb, exists rs st0 st, ready false st0 /\
  solve_lns_milp false false nb 0 (Ok st0) m_add m_rem (m_solve rs) m_post never = Ok (Some st) /\
  length (fits st) = S nb /\ (forall k p, In p (rs k) -> beats false 5 (snd p)).
Proof.
  intros nb. destruct (C97_ready [(0, 5%Z)] None false false 0) as (st0 & E & R & F0); [discriminate|discriminate|].
  set (rs := fun it : nat => [(S it, 6%Z)]). assert (Se : forall it r r', m_post it r = Ok r' -> maximize r' = false) by (intros it r r' H; injection H as <-; reflexivity).
  assert (So : forall k c, exists r, m_solve rs k c = Ok r /\ fits r <> []) by (intros k c; eexists; split; [vm_compute; reflexivity|discriminate]).
  destruct (C99_total false nb 0 m_add m_rem (m_solve rs) m_post never st0 Se R So) as [st H].
  { intros k r N. eexists. split; [reflexivity|exact N]. } { intros k r. eexists. reflexivity. } { reflexivity. }
  exists rs, st0, st. split; auto. split; auto.
  destruct (C99_run false nb 0 m_add m_rem (m_solve rs) m_post never st0 _ Se R H) as (st' & ls & c & Er & _ & S' & Le & _ & T). injection Er as <-.
  assert (Q : forall it sa c ls sb, search_milp (m_solve rs) m_post m_add it sa c ls sb -> (forall p, In p (fits sa) -> fst p <= it) ->
    fits sb = fits sa ++ concat ls /\ ls = map rs (seq it (length ls))).
  { clear. intros it sa c ls sb H. induction H as [it sa c|it sa c r r' c' st1 ls sb So Po Nf Ad F H IH]; intros B; [cbn; rewrite app_nil_r; auto|].
    assert (Fr : fits r' = rs it).
    { injection Po as <-. unfold m_solve, st_of, rs in So. injection So as <-. reflexivity. }
    assert (F1 : fits st1 = fits sa ++ rs it).
    { rewrite F, Fr. cbn [rs merge fst]. destruct (known (S it) (fits sa)) eqn:K; [|reflexivity]. unfold known in K.
      apply existsb_exists in K as (q & Iq & K). destruct (pyeqb_spec (S it) (fst q)); [|discriminate]. specialize (B q Iq). lia. }
    destruct IH as [I1 I2].
    { intros p Ip. rewrite F1 in Ip. apply in_app_or in Ip as [Ip|[<-|[]]]; [specialize (B p Ip); lia|cbn; lia]. }
    split; [rewrite I1, F1, Fr; cbn [concat]; now rewrite app_assoc|]. cbn [length seq map]. rewrite Fr. f_equal. exact I2. }
  destruct (Q _ _ _ _ _ S') as [Q1 Q2]; [intros p Ip; rewrite F0 in Ip; destruct Ip as [<-|[]]; auto|].
  assert (N6 : forall l p, In l ls -> In p l -> snd p = 6%Z).
  { intros l p Il Ip. rewrite Q2 in Il. apply in_map_iff in Il as (k & <- & _). destruct Ip as [<-|[]]. reflexivity. }
  assert (Ll : length ls = nb).
  { destruct T as [T|(_ & [T|(n & (idx & _ & Li & T) & Ln)])]; [auto|discriminate|]. exfalso. destruct idx as [|i idx]; [cbn in Li; lia|].
    destruct (proj1 (proj2 (proj1 (T i) (or_introl eq_refl)))) as (l & p & q & Nl & Ip & Epq & _ & Bb & _). apply nth_error_In in Nl. pose proof (N6 _ _ Nl Ip) as E6.
    apply (Bb (0, 5%Z)); [rewrite F0; left; reflexivity|]. unfold beats. cbn [snd]. lia. }
  split.
  { rewrite Q1, app_length, F0. cbn [length]. f_equal. rewrite Q2.
    assert (G : forall n k, length (concat (map rs (seq k n))) = n) by (intros n; induction n; intros k; cbn; [reflexivity|now rewrite IHn]).
    rewrite G. cbn; now rewrite Ll. }
  intros k p [<-|[]]. reflexivity.
Qed.

(** With [skip_first_iteration] and a maximised objective, ties are never counted either: with a limit of 0
    all rounds are run although every round finds the same fitness. *)
Theorem C99_skip_maximise_refuted : exists nb solve post st,
  solve_lns_milp true true nb 0 (Err ValueError) m_add m_rem solve post never = Ok (Some st) /\
  fits st = [(0, 5%Z); (1, 5%Z); (2, 5%Z); (3, 5%Z)] /\ forall k c, exists r, solve k c = Ok r /\ post k r = Ok r /\ fits r = [(k, 5%Z)].
Proof.
  exists 4, (fun k _ => st_of true [(k, 5%Z)]), (fun _ r => Ok r). eexists. split; [vm_compute; reflexivity|]. split; [reflexivity|].
  intros k c. eexists. split; [vm_compute; reflexivity|]. split; reflexivity.
Qed.

(** The neighbourhood of a round is built around the store of the round before even if that is worse
    than the solutions kept. *)
Theorem C99_neighbourhood_of_best_refuted : exists solve st0 st, ready false st0 /\ best_fit st0 = Ok (0, 10%Z) /\
  (forall c r, solve 1 c = Ok r -> c = Some [(1, 99%Z)]) /\
  solve_lns_milp false false 2 100 (Ok st0) m_add m_rem solve m_post never = Ok (Some st).
Proof.
  destruct (C97_ready [(0, 10%Z)] None false false 0) as (st0 & E & R & _); [discriminate|discriminate|].
  exists (fun it c => match it, c with 1, Some [(1, 99%Z)] => st_of false [(2, 99%Z)] | 0, _ => st_of false [(1, 99%Z)] | _, _ => Err AssertionError end), st0.
  eexists. split; auto. injection E as <-. split; [reflexivity|]. split; [|vm_compute; reflexivity].
  intros [l|] r H; [|discriminate]. destruct l as [|[[|[|n]] z] l]; try discriminate. destruct (Z.eq_dec z 99) as [->|N].
  - destruct l; [reflexivity|discriminate].
  - exfalso. destruct z as [|q|q]; try discriminate. repeat (destruct q as [q|q|]; try discriminate). now apply N.
Qed.

Print Assumptions C97_ready.
Print Assumptions C97_run.
Print Assumptions C97_total.
Print Assumptions C97_keeps.
Print Assumptions C97_best.
Print Assumptions C97_never_worse.
Print Assumptions C98_stops.
Print Assumptions C98_quiet_unique.
Print Assumptions C97_skip_first.
Print Assumptions C97_skip_lost.
Print Assumptions C99_run.
Print Assumptions C99_total.
Print Assumptions C99_keeps.
Print Assumptions C99_skip_first.
Print Assumptions C97_found_returned_refuted.
Print Assumptions C97_heap_once_refuted.
Print Assumptions C99_empty_round_refuted.
Print Assumptions C99_no_improvement_refuted.
Print Assumptions C99_skip_maximise_refuted.
Print Assumptions C99_neighbourhood_of_best_refuted.
