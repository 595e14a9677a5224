(** C35, C36: the Pareto front and the result storage. *)
From Coq Require Import List Bool Arith ZArith Lia Permutation Sorted.
From Verif Require Import Py PyList StoreModel.
Import ListNotations.

(** * Specification vocabulary *)

(** [f] is the best of the fitnesses in [h], for maximisation or minimisation. *)
Definition optimal {A} (mx : bool) (f : Z) (h : list (A * Z)) : Prop :=
  forall s g, In (s, g) h -> if mx then (g <= f)%Z else (f <= g)%Z.
(** A solution always comes with the same fitness. *)
Definition coherent {A F} (h : list (A * F)) : Prop := forall s f g, In (s, f) h -> In (s, g) h -> f = g.
(** Pareto dominance: [a] is nowhere worse than [b] and somewhere better. *)
Definition dominates (mx : bool) (a b : list Z) : Prop :=
  (forall i x y, nth_error a i = Some x -> nth_error b i = Some y -> if mx then (y <= x)%Z else (x <= y)%Z) /\
  (exists i x y, nth_error a i = Some x /\ nth_error b i = Some y /\ if mx then (y < x)%Z else (x < y)%Z).
Definition same_size {A} (d : nat) (l : list (A * list Z)) : Prop := forall p, In p l -> length (snd p) = d.

(** * Picking the best *)

Lemma pick_spec : forall A F (bt : F -> F -> bool) (l : list (A * F)) b,
  (forall x, bt x x = false) -> (forall x y z, bt x y = true -> bt y z = true -> bt x z = true) ->
  pick bt l = Ok b -> In b l /\ forall q, In q l -> bt (snd q) (snd b) = false.
Proof.
  intros A F bt [|x r] b IR TR H; [discriminate|]. injection H as H.
  cut (forall seen x0, In x0 seen -> (forall q, In q seen -> bt (snd q) (snd x0) = false) ->
       fold_left (fun b y => if bt (snd y) (snd b) then y else b) r x0 = b ->
       In b (seen ++ r) /\ forall q, In q (seen ++ r) -> bt (snd q) (snd b) = false).
  { intros C. apply (C [x] x); [now left| |exact H]. intros q [ <- |[]]. apply IR. }
  clear H x. induction r as [|y r IH]; intros seen x0 I N H; cbn in H.
  - subst. now rewrite app_nil_r.
  - destruct (bt (snd y) (snd x0)) eqn:E.
    + destruct (IH (seen ++ [y]) y) as [A1 A2]; [apply in_or_app; right; now left| |exact H|].
      * intros q Q. apply in_app_or in Q as [Q|[ <- |[]]]; [|apply IR].
        destruct (bt (snd q) (snd y)) eqn:E2; [|reflexivity]. rewrite <- (N q Q). symmetry. now apply (TR _ (snd y)).
      * rewrite <- app_assoc in A1, A2. now split.
    + destruct (IH (seen ++ [y]) x0) as [A1 A2]; [apply in_or_app; now left| |exact H|].
      * intros q Q. apply in_app_or in Q as [Q|[ <- |[]]]; [now apply N|exact E].
      * rewrite <- app_assoc in A1, A2. now split.
Qed.

Lemma pick_total : forall A F (bt : F -> F -> bool) (l : list (A * F)), l <> [] -> exists b, pick bt l = Ok b.
Proof. intros A F bt [|x r] H; [easy|]. cbn. eauto. Qed.

Lemma better_irr : forall mx x, better mx x x = false.
Proof. intros [] x; cbn; apply Z.ltb_irrefl. Qed.
Lemma better_trans : forall mx x y z, better mx x y = true -> better mx y z = true -> better mx x z = true.
Proof. intros [] x y z; cbn; rewrite !Z.ltb_lt; lia. Qed.

Lemma pick_optimal : forall A mx (l : list (A * Z)) b, pick (better mx) l = Ok b -> In b l /\ optimal mx (snd b) l.
Proof.
  intros A mx l b H. destruct (pick_spec _ _ _ _ _ (better_irr mx) (better_trans mx) H) as [I N].
  split; [exact I|]. intros s g J. specialize (N _ J). cbn in N. destruct mx; cbn in N; apply Z.ltb_ge in N; lia.
Qed.

(** * The storage *)
Section StoreP.
Context {Sol : Type} {ES : PyEq Sol}.
Implicit Types (st : store Sol).

Lemma fold_max : forall (l : list Z) x, (forall y, In y (x :: l) -> (y <= fold_left Z.max l x)%Z) /\ In (fold_left Z.max l x) (x :: l).
Proof.
  induction l as [|a l IH]; intros x; cbn [fold_left].
  - split; [intros y [ <- |[]]; cbn; lia|now left].
  - destruct (IH (Z.max x a)) as [A B]. split.
    + intros y [ <- |[ <- |Y]]; [|apply Z.le_trans with (Z.max x a); [lia|apply A; now left]|apply A; now right].
      apply Z.le_trans with (Z.max x a); [lia|apply A; now left].
    + destruct B as [B|B]; [|right; now right]. rewrite <- B. destruct (Z.max_spec x a) as [[_ ->]|[_ ->]]; [right; now left|now left].
Qed.
Lemma fold_min : forall (l : list Z) x, (forall y, In y (x :: l) -> (fold_left Z.min l x <= y)%Z) /\ In (fold_left Z.min l x) (x :: l).
Proof.
  induction l as [|a l IH]; intros x; cbn [fold_left].
  - split; [intros y [ <- |[]]; cbn; lia|now left].
  - destruct (IH (Z.min x a)) as [A B]. split.
    + intros y [ <- |[ <- |Y]]; [|apply Z.le_trans with (Z.min x a); [apply A; now left|lia]|apply A; now right].
      apply Z.le_trans with (Z.min x a); [apply A; now left|lia].
    + destruct B as [B|B]; [|right; now right]. rewrite <- B. destruct (Z.min_spec x a) as [[_ ->]|[_ ->]]; [now left|right; now left].
Qed.

Definition asc := Sorted (fun a b => Z.leb a b = true).
Lemma asc_push : forall h f, asc h -> asc (hpush h f).
Proof. intros. apply sinsert_sorted; [|assumption]. intros a b. rewrite !Z.leb_le. intros H1. apply Z.leb_gt in H1. lia. Qed.
Lemma asc_tl : forall h, asc h -> asc (tl h).
Proof. intros [|x h] H; [constructor|]. now inversion H. Qed.
Lemma asc_head : forall x h, asc (x :: h) -> forall y, In y h -> (x <= y)%Z.
Proof.
  intros x h H y Y. apply Sorted_StronglySorted in H; [|intros a b c; rewrite !Z.leb_le; lia].
  inversion H as [|? ? _ F]. rewrite Forall_forall in F. apply Z.leb_le. now apply F.
Qed.
Lemma asc_skipn : forall n h, asc h -> asc (skipn n h).
Proof. induction n; intros h H; [exact H|]. destruct h; [constructor|]. apply IHn. now inversion H. Qed.
Lemma asc_firstn : forall n h, asc h -> asc (firstn n h).
Proof.
  induction n; intros h H; [constructor|]. destruct h as [|x h]; [constructor|]. cbn. inversion H as [|? ? H1 H2]; subst.
  constructor; [now apply IHn|]. destruct h; cbn; [destruct n; constructor|]. destruct n; cbn; constructor. now inversion H2.
Qed.

(** What the loop of the constructor computes. *)
Lemma init_loop : forall (l m : list (Sol * Z)) h n, asc h ->
  (forall s, In s (dkeys m) -> exists f, In (s, f) m) ->
  let '(m', h', n') := fold_left init_turn l (m, h, n) in
  asc h' /\ n' + length h = n + length h' /\
  (forall s, In s (dkeys m') <-> In s (dkeys m) \/ In s (map fst l)) /\
  (forall f, In f h' -> In f h \/ exists s, In (s, f) l) /\
  (forall f, In f h -> In f h') /\
  (forall s f, In (s, f) l -> ~ In s (dkeys m) -> coherent l -> In f h').
Proof.
  induction l as [|[s f] l IH]; intros m h n A M; cbn [fold_left].
  - split; [exact A|]. split; [reflexivity|]. cbn. intuition.
  - unfold init_turn at 2. cbn [fst snd]. destruct (dmem m s) eqn:D.
    + specialize (IH m h n A M). destruct (fold_left init_turn l (m, h, n)) as [[m' h'] n'].
      destruct IH as (I1 & I2 & I3 & I4 & I5 & I6). split; [exact I1|]. split; [exact I2|]. split; [|split; [|split]].
      * intros s0. rewrite I3. cbn. apply dmem_true in D. split; [tauto|]. intros [X|[ -> |X]]; tauto.
      * intros f0 F. destruct (I4 f0 F) as [X|[s0 X]]; [now left|right; exists s0; now right].
      * exact I5.
      * intros s0 f0 [E|X] N C.
        -- injection E as -> ->. apply dmem_true in D. easy.
        -- apply (I6 s0 f0 X N). intros a b c Ha Hb. apply (C a b c); now right.
    + apply dmem_false in D. specialize (IH (dset m s f) (hpush h f) (S n) (asc_push _ f A)).
      destruct (fold_left init_turn l (dset m s f, hpush h f, S n)) as [[m' h'] n'].
      assert (PP : Permutation (f :: h) (hpush h f)) by apply sinsert_perm.
      destruct IH as (I1 & I2 & I3 & I4 & I5 & I6).
      { intros s0 X. destruct (dget (dset m s f) s0) eqn:G; [exists z; now apply dget_In|]. apply dget_None in G. easy. }
      rewrite <- (Permutation_length PP) in I2. cbn in I2.
      split; [exact I1|]. split; [lia|]. split; [|split; [|split]].
      * intros s0. rewrite I3, dkeys_dset. cbn. split; intros; intuition.
      * intros f0 F. destruct (I4 f0 F) as [X|[s0 X]]; [|right; exists s0; now right].
        apply (Permutation_in _ (Permutation_sym PP)) in X as [ <- |X]; [right; exists s; now left|now left].
      * intros f0 F. apply I5. apply (Permutation_in _ PP). now right.
      * intros s0 f0 [E|X] N C.
        -- injection E as -> ->. apply I5. apply (Permutation_in _ PP). now left.
        -- destruct (py_dec s0 s) as [ -> |NE].
           ++ rewrite (C s f0 f) by (cbn; tauto). apply I5. apply (Permutation_in _ PP). now left.
           ++ apply (I6 s0 f0 X). rewrite dkeys_dset. tauto. intros a b c Ha Hb. apply (C a b c); now right.
Qed.

(** The state of a storage whose history of (solution, fitness) pairs is [h] (started non-empty). *)
Definition bound (mx : bool) st : option Z := if mx then fmax st else fmin st.
Definition good (h : list (Sol * Z)) st : Prop :=
  asc (heap st) /\ heap st <> [] /\
  (forall s, In s (dkeys (smap st)) <-> In s (map fst h)) /\
  (forall p, In p (fits st) <-> In p h) /\
  (forall f, In f (heap st) -> exists s, In (s, f) h) /\
  (exists mn mx, fmin st = Some mn /\ fmax st = Some mx /\ (mn <= mx)%Z /\
     let b := if maximize st then mx else mn in
     (exists s, In (s, b) h) /\ optimal (maximize st) b h /\ (maximize st = true -> In b (heap st))).

Lemma last_skipn_in : forall (h : list Z) k x, asc h -> 0 < k -> In x h -> (forall y, In y h -> (y <= x)%Z) ->
  In x (skipn (length h - k) h).
Proof.
  intros h k x A K I O. destruct (exists_last (l := h)) as (h0 & y & ->); [intros ->; easy|].
  rewrite app_length. cbn [length]. rewrite skipn_app. apply in_or_app. right.
  replace (length h0 + 1 - k - length h0) with 0 by lia. cbn. left.
  assert (y <= x)%Z by (apply O; apply in_or_app; right; now left).
  assert (x <= y)%Z; [|lia]. apply in_app_or in I as [I|[ <- |[]]]; [|lia].
  clear -A I. induction h0 as [|z h0 IH]; [easy|]. destruct I as [ <- |I].
  - cbn in A. apply (asc_head _ _ A). apply in_or_app. right. now left.
  - apply IH; [|exact I]. now inversion A.
Qed.

Lemma init_good : forall (l : list (Sol * Z)) b mx limit nb, l <> [] -> (limit = true -> 0 < nb) -> coherent l ->
  exists st, init l b mx limit nb = Ok st /\ good l st /\ fits st = l /\ maximize st = mx /\ nb_best st = nb /\
    limit_store st = limit /\ (limit = true -> length (heap st) = size_heap st) /\
    match b with Some s => best st = Some s | None => exists s f, best st = Some s /\ In (s, f) l /\ optimal mx f l end.
Proof.
  intros l b mx limit nb NE NB C. unfold init.
  assert (L := init_loop l [] [] 0 (Sorted_nil _)). destruct (fold_left init_turn l ([], [], 0)) as [[m h] n].
  destruct L as (I1 & I2 & I3 & I4 & _ & I6); [easy|]. cbn in I2.
  assert (HI : forall s f, In (s, f) l -> In f h) by (intros s f X; apply (I6 s f X); [cbn; tauto|exact C]).
  assert (HE : forall f, In f h -> exists s, In (s, f) l) by (intros f F; destruct (I4 f F) as [[]|X]; exact X).
  assert (HN : h <> []).
  { destruct l as [|[s f] l]; [easy|]. intros ->. destruct (HI s f (or_introl eq_refl)). }
  set (P := if (nb <=? n) && limit then _ else _).
  assert (S1 : exists h' n', P = (h', n') /\ asc h' /\ h' <> [] /\ (forall f, In f h' -> In f h) /\
     length h' = n' /\ (mx = true -> forall f, In f h -> (forall g, In g h -> (g <= f)%Z) -> In f h') /\
     (mx = false -> forall f, In f h -> (forall g, In g h -> (f <= g)%Z) -> In f h')).
  { unfold P. destruct ((nb <=? n) && limit) eqn:E.
    - apply andb_true_iff in E as [E1 E2]. apply Nat.leb_le in E1. specialize (NB E2).
      destruct mx.
      + exists (skipn (length h - nb) h), nb. split; [reflexivity|]. split; [now apply asc_skipn|].
        assert (LL : length (skipn (length h - nb) h) = nb) by (rewrite skipn_length; lia).
        split; [intros X; rewrite X in LL; cbn in LL; lia|].
        split; [intros f F; rewrite <- (firstn_skipn (length h - nb) h); apply in_or_app; now right|].
        split; [exact LL|]. split; [|easy]. intros _ f F O. now apply last_skipn_in.
      + exists (firstn nb h), nb. split; [reflexivity|]. split; [now apply asc_firstn|].
        assert (LL : length (firstn nb h) = nb) by (rewrite firstn_length; lia).
        split; [intros X; rewrite X in LL; cbn in LL; lia|].
        split; [intros f F; rewrite <- (firstn_skipn nb h); apply in_or_app; now left|].
        split; [exact LL|]. split; [easy|]. intros _ f F O. destruct h as [|x h]; [easy|].
        destruct nb; [lia|]. cbn. left. assert (f <= x)%Z by (apply O; now left).
        destruct F as [F|F]; [exact F|]. assert (x <= f)%Z by now apply (asc_head x h). lia.
    - exists h, n. repeat (split; [easy || tauto|]). split; [lia|]. tauto. }
  destruct S1 as (h' & n' & -> & A1 & A2 & A3 & A4 & A5 & A6).
  destruct h' as [|x r] eqn:EH; [easy|]. rewrite <- EH in *.
  destruct (fold_max r x) as [M1 M2], (fold_min r x) as [N1 N2]. rewrite <- EH in M1, M2, N1, N2.
  assert (G : forall bb, good l (mkStore l bb mx n' h' limit nb m (Some (fold_left Z.min r x)) (Some (fold_left Z.max r x)))).
  { intros bb. split; [exact A1|]. split; [exact A2|]. split; [intros s; rewrite I3; cbn; tauto|].
    split; [reflexivity|]. split; [intros f F; apply HE, A3, F|].
    exists (fold_left Z.min r x), (fold_left Z.max r x). split; [reflexivity|]. split; [reflexivity|].
    split; [now apply M1|]. cbn. destruct mx.
    - split; [apply HE, A3, M2|]. split; [|now intros _]. intros s g X.
      assert (HG := HI _ _ X). destruct h as [|z h0]; [easy|]. destruct (fold_max h0 z) as [Q1 Q2].
      apply Z.le_trans with (fold_left Z.max h0 z); [now apply Q1|]. apply M1. now apply A5.
    - split; [apply HE, A3, N2|]. split; [|easy]. intros s g X.
      assert (HG := HI _ _ X). destruct h as [|z h0]; [easy|]. destruct (fold_min h0 z) as [Q1 Q2].
      apply Z.le_trans with (fold_left Z.min h0 z); [|now apply Q1]. apply N1. now apply A6. }
  destruct b as [bs|].
  - eexists. split; [reflexivity|]. split; [apply G|]. cbn. repeat (split; [reflexivity|]). split; [|reflexivity].
    now intros _.
  - destruct (pick_total _ _ (better mx) l NE) as [p HP]. rewrite HP. cbn.
    eexists. split; [reflexivity|]. split; [apply G|]. cbn. repeat (split; [reflexivity|]). split; [now intros _|].
    apply pick_optimal in HP as [P1 P2]. exists (fst p), (snd p). now rewrite <- surjective_pairing.
Qed.

Lemma hpush_in : forall h f x, In x (hpush h f) <-> x = f \/ In x h.
Proof.
  intros. assert (PP : Permutation (f :: h) (hpush h f)) by apply sinsert_perm. split; intros X.
  - apply (Permutation_in _ (Permutation_sym PP)) in X as [ -> |X]; tauto.
  - apply (Permutation_in _ PP). destruct X as [ -> |X]; [now left|now right].
Qed.
Lemma hpush_len : forall h f, length (hpush h f) = S (length h).
Proof. intros. change (S (length h)) with (length (f :: h)). apply Permutation_length. symmetry. apply sinsert_perm. Qed.

(** The largest element survives when the smallest leaves. *)
Lemma hpushpop_max : forall h f x, asc h -> h <> [] -> (x = f \/ In x h) -> (f <= x)%Z ->
  (forall y, In y h -> (y <= x)%Z) -> In x (hpushpop h f).
Proof.
  intros h f x A N I F O. unfold hpushpop. assert (A' := asc_push _ f A). assert (L := hpush_len h f).
  assert (IX : In x (hpush h f)) by now apply hpush_in.
  assert (OX : forall y, In y (hpush h f) -> (y <= x)%Z) by (intros y Y; apply hpush_in in Y as [ -> |Y]; auto).
  destruct (hpush h f) as [|z [|w r]]; [easy|destruct h; [easy|discriminate]|]. cbn.
  destruct IX as [ -> |X]; [|exact X]. left. assert (x <= w)%Z by (apply (asc_head _ _ A'); now left).
  assert (w <= x)%Z by (apply OX; right; now left). lia.
Qed.

Lemma add_good : forall h st s f, good h st -> coherent (h ++ [(s, f)]) ->
  exists st', add st s f = Ok st' /\ good (h ++ [(s, f)]) st' /\ maximize st' = maximize st /\
    nb_best st' = nb_best st /\ limit_store st' = limit_store st /\
    (forall s0 f0, best st = Some s0 -> In (s0, f0) h -> optimal (maximize st) f0 h ->
       exists s1 f1, best st' = Some s1 /\ In (s1, f1) (h ++ [(s, f)]) /\ optimal (maximize st) f1 (h ++ [(s, f)])) /\
    ((forall g, In g (map snd h) -> better (maximize st) f g = true) -> best st' = Some s) /\
    ((exists g, In g (map snd h) /\ better (maximize st) f g = false) -> best st' = best st).
Proof.
  intros h st s f (G1 & G2 & G3 & G4 & G5 & mn & mx & G6 & G7 & G8 & (sb & G9) & G10 & G11) C. unfold add.
  set (l := if negb _ then fits st ++ _ else _). set (m := if negb _ then dset _ _ _ else _).
  assert (HM : forall s0, In s0 (dkeys m) <-> In s0 (map fst (h ++ [(s, f)]))).
  { intros s0. rewrite map_app, in_app_iff, <- G3. cbn [map In fst]. unfold m. destruct (dmem (smap st) s) eqn:E; cbn [negb].
    - apply dmem_true in E. split; [tauto|]. intros [X|[ <- |[]]]; tauto.
    - rewrite dkeys_dset. split; intros; intuition. }
  assert (HL : forall p, In p l <-> In p (h ++ [(s, f)])).
  { intros p. unfold l. destruct (dmem (smap st) s) eqn:E; cbn; rewrite ?in_app_iff, G4; [|reflexivity].
    apply dmem_true, G3 in E. apply in_map_iff in E as ([s' f'] & E1 & E2). cbn in E1. subst s'.
    split; [tauto|]. intros [X|[ <- |[]]]; [exact X|]. rewrite (C s f f'); [exact E2| |];
    apply in_or_app; [right; now left|now left]. }
  rewrite G6, G7.
  set (bb := if maximize st then mx else mn) in *.
  set (nbst := if better (maximize st) f bb then Some s else best st).
  assert (B1 : forall s0 f0, best st = Some s0 -> In (s0, f0) h -> optimal (maximize st) f0 h ->
       exists s1 f1, nbst = Some s1 /\ In (s1, f1) (h ++ [(s, f)]) /\ optimal (maximize st) f1 (h ++ [(s, f)])).
  { intros s0 f0 B I O. unfold nbst. destruct (better (maximize st) f bb) eqn:E.
    - exists s, f. split; [reflexivity|]. split; [apply in_or_app; right; now left|]. intros s2 g X.
      apply in_app_or in X as [X|[X|[]]]; [|injection X as -> ->; destruct (maximize st); lia].
      specialize (G10 _ _ X). destruct (maximize st); cbn in E; apply Z.ltb_lt in E; lia.
    - exists s0, f0. split; [exact B|]. split; [apply in_or_app; now left|]. intros s2 g X.
      apply in_app_or in X as [X|[X|[]]]; [now apply (O _ _ X)|]. injection X as -> ->.
      specialize (O _ _ G9). destruct (maximize st); cbn in E; apply Z.ltb_ge in E; lia. }
  assert (B2 : (forall g, In g (map snd h) -> better (maximize st) f g = true) -> nbst = Some s).
  { intros X. unfold nbst. rewrite X; [reflexivity|]. apply (in_map snd _ _ G9). }
  assert (B3 : (exists g, In g (map snd h) /\ better (maximize st) f g = false) -> nbst = best st).
  { intros (g & X & Y). unfold nbst. apply in_map_iff in X as ([s2 g2] & X1 & X2). cbn in X1. subst g2.
    specialize (G10 _ _ X2). destruct (better (maximize st) f bb) eqn:E; [|reflexivity].
    destruct (maximize st); cbn in Y, E; apply Z.ltb_ge in Y; apply Z.ltb_lt in E; lia. }
  assert (KK : forall hp n mn' mx', asc hp -> hp <> [] ->
     (forall x, In x hp -> x = f \/ In x (heap st)) -> (mn' <= mx')%Z ->
     (if maximize st then mx' = Z.max f mx else mn' = Z.min f mn) ->
     (maximize st = true -> In mx' hp) ->
     good (h ++ [(s, f)]) (mkStore l nbst (maximize st) n hp (limit_store st) (nb_best st) m (Some mn') (Some mx'))).
  { intros hp n mn' mx' K1 K2 K3 K4 K5 K6. split; [exact K1|]. split; [exact K2|]. split; [exact HM|]. split; [exact HL|].
    split. { intros x X. destruct (K3 x X) as [ -> |Y]; [exists s; apply in_or_app; right; now left|].
             destruct (G5 x Y) as [s2 Y2]. exists s2. apply in_or_app. now left. }
    exists mn', mx'. split; [reflexivity|]. split; [reflexivity|]. split; [exact K4|]. cbn -[optimal].
    destruct (maximize st).
    - split; [|split; [|exact K6]].
      + rewrite K5. destruct (Z.max_spec f mx) as [[_ ->]|[_ ->]]; [exists sb; apply in_or_app; now left|].
        exists s. apply in_or_app. right. now left.
      + intros s2 g X. apply in_app_or in X as [X|[X|[]]]; [specialize (G10 _ _ X); cbn in G10; lia|]. injection X as -> ->. lia.
    - split; [|split; [|easy]].
      + rewrite K5. destruct (Z.min_spec f mn) as [[_ ->]|[_ ->]]; [|exists sb; apply in_or_app; now left].
        exists s. apply in_or_app. right. now left.
      + intros s2 g X. apply in_app_or in X as [X|[X|[]]]; [specialize (G10 _ _ X); cbn in G10; lia|]. injection X as -> ->. lia. }
  assert (HMX : maximize st = true -> forall y, In y (heap st) -> (y <= mx)%Z).
  { intros E y Y. destruct (G5 y Y) as [s2 Y2]. specialize (G10 _ _ Y2). unfold bb in G10. now rewrite E in G10. }
  destruct (if maximize st then (mn <=? f)%Z else (f <=? mx)%Z) eqn:E.
  - destruct ((nb_best st <=? size_heap st) && limit_store st).
    + eexists. split; [reflexivity|]. split; [|cbn; repeat (split; [reflexivity|]); now split].
      apply KK; [apply asc_tl; now apply asc_push| | |lia|now destruct (maximize st)|].
      * assert (L := hpush_len (heap st) f). unfold hpushpop. intros X. destruct (hpush (heap st) f) as [|? [|]]; try discriminate.
        cbn in L. destruct (heap st); [easy|discriminate].
      * intros x X. apply hpush_in. unfold hpushpop in X. destruct (hpush (heap st) f); [easy|now right].
      * intros EM. apply hpushpop_max; [exact G1|exact G2| |lia|intros y Y; specialize (HMX EM y Y); lia].
        destruct (Z.max_spec f mx) as [[_ ->]|[_ ->]]; [|now left]. right. specialize (G11 EM). unfold bb in G11. now rewrite EM in G11.
    + eexists. split; [reflexivity|]. split; [|cbn; repeat (split; [reflexivity|]); now split].
      apply KK; [now apply asc_push| | |lia|now destruct (maximize st)|].
      * intros X. assert (L := hpush_len (heap st) f). rewrite X in L. discriminate.
      * intros x X. now apply hpush_in.
      * intros EM. apply hpush_in. destruct (Z.max_spec f mx) as [[_ ->]|[_ ->]]; [|now left]. right.
        specialize (G11 EM). unfold bb in G11. now rewrite EM in G11.
  - eexists. split; [reflexivity|]. split; [|cbn; repeat (split; [reflexivity|]); now split].
    apply KK; [exact G1|exact G2|tauto|exact G8| |].
    + destruct (maximize st); apply Z.leb_gt in E; lia.
    + intros EM. specialize (G11 EM). unfold bb in G11. now rewrite EM in G11.
Qed.

Lemma coherent_app : forall F (h k : list (Sol * F)), coherent (h ++ k) -> coherent h.
Proof. intros F h k C s f g X Y. apply (C s f g); apply in_or_app; now left. Qed.

Lemma adds_good : forall k h st, good h st -> coherent (h ++ k) ->
  exists st', adds st k = Ok st' /\ good (h ++ k) st' /\ maximize st' = maximize st /\
    (forall s0 f0, best st = Some s0 -> In (s0, f0) h -> optimal (maximize st) f0 h ->
       exists s1 f1, best st' = Some s1 /\ In (s1, f1) (h ++ k) /\ optimal (maximize st) f1 (h ++ k)).
Proof.
  induction k as [|[s f] k IH]; intros h st G C; cbn.
  - exists st. rewrite app_nil_r. split; [reflexivity|]. split; [exact G|]. split; [reflexivity|]. eauto.
  - change ((s, f) :: k) with ([(s, f)] ++ k) in *. rewrite app_assoc in C |- *.
    destruct (add_good h st s f G (coherent_app _ _ _ C)) as (st1 & E & G1 & M1 & _ & _ & B1 & _).
    rewrite E. cbn. destruct (IH _ _ G1 C) as (st' & E' & G' & M' & B'). exists st'.
    split; [exact E'|]. split; [exact G'|]. split; [now rewrite M'|]. intros s0 f0 X Y O.
    destruct (B1 s0 f0 X Y O) as (s1 & f1 & X1 & Y1 & O1). rewrite M1 in B'. now apply (B' s1 f1).
Qed.

(** ** C36 *)

(** Whatever the size limit and however many solutions are added, the best pair ever given is what the
    storage returns, and it is still the recorded best solution. *)
Theorem C36_best : forall (l0 added : list (Sol * Z)) mx limit nb,
  l0 <> [] -> (limit = true -> 0 < nb) -> coherent (l0 ++ added) ->
  exists st0 st, init l0 None mx limit nb = Ok st0 /\ adds st0 added = Ok st /\
    (exists s f, best_fit st = Ok (s, f) /\ best_sol st = Ok (Some s) /\ In (s, f) (l0 ++ added) /\
                 optimal mx f (l0 ++ added)) /\
    (exists s f, best st = Some s /\ In (s, f) (l0 ++ added) /\ optimal mx f (l0 ++ added)) /\
    (forall p, In p (fits st) <-> In p (l0 ++ added)).
Proof.
  intros l0 added mx limit nb N L C.
  destruct (init_good l0 None mx limit nb N L (coherent_app _ _ _ C)) as (st0 & E0 & G0 & F0 & M0 & _ & _ & _ & s & f & B0 & B1 & B2).
  destruct (adds_good added l0 st0 G0 C) as (st & E & G & M & B). exists st0, st. split; [exact E0|]. split; [exact E|].
  rewrite M0 in M, B. destruct (B s f B0 B1 B2) as (s1 & f1 & X & Y & O).
  destruct G as (_ & _ & _ & G4 & _). split; [|split; [eauto|exact G4]].
  assert (NF : fits st <> []).
  { intros X0. destruct l0 as [|p l0]; [easy|]. apply (in_nil (a := p)). rewrite <- X0. apply G4. now left. }
  unfold best_fit, best_sol. destruct (pick_total _ _ (better (maximize st)) _ NF) as [[s2 f2] HP]. exists s2, f2.
  split; [exact HP|]. split. { unfold best_fit. rewrite HP. now destruct (fits st). }
  apply pick_optimal in HP as [P1 P2]. split; [now apply G4|]. intros s3 g Z3. rewrite <- M. apply (P2 s3). now apply G4.
Qed.

(** A best solution given to the constructor stays until something strictly better than everything is added. *)
Theorem C36_given_best : forall (l0 : list (Sol * Z)) b mx limit nb s f,
  l0 <> [] -> (limit = true -> 0 < nb) -> coherent (l0 ++ [(s, f)]) ->
  exists st0 st, init l0 (Some b) mx limit nb = Ok st0 /\ add st0 s f = Ok st /\ best st0 = Some b /\
    ((forall g, In g (map snd l0) -> if mx then (g < f)%Z else (f < g)%Z) -> best st = Some s) /\
    ((exists g, In g (map snd l0) /\ if mx then (f <= g)%Z else (g <= f)%Z) -> best st = Some b).
Proof.
  intros l0 b mx limit nb s f N L C.
  destruct (init_good l0 (Some b) mx limit nb N L (coherent_app _ _ _ C)) as (st0 & E0 & G0 & F0 & M0 & _ & _ & _ & B0).
  destruct (add_good l0 st0 s f G0 C) as (st & E & _ & _ & _ & _ & _ & B1 & B2). rewrite M0 in B1, B2.
  exists st0, st. split; [exact E0|]. split; [exact E|]. split; [exact B0|]. split.
  - intros X. apply B1. intros g Y. specialize (X g Y). destruct mx; cbn; apply Z.ltb_lt; lia.
  - intros (g & Y & X). rewrite <- B0. apply B2. exists g. split; [exact Y|]. destruct mx; cbn; apply Z.ltb_ge; lia.
Qed.

(** When maximising, the heap of best scores also keeps the best one, first after [finalize]. *)
Theorem C36_heap_maximise : forall (l0 added : list (Sol * Z)) limit nb,
  l0 <> [] -> (limit = true -> 0 < nb) -> coherent (l0 ++ added) ->
  exists st0 st f r, init l0 None true limit nb = Ok st0 /\ adds st0 added = Ok st /\
    final_heap st = f :: r /\ (exists s, In (s, f) (l0 ++ added)) /\ optimal true f (l0 ++ added) /\
    (forall g, In g r -> exists s, In (s, g) (l0 ++ added)).
Proof.
  intros l0 added limit nb N L C.
  destruct (init_good l0 None true limit nb N L (coherent_app _ _ _ C)) as (st0 & E0 & G0 & F0 & M0 & _).
  destruct (adds_good added l0 st0 G0 C) as (st & E & G & M & _). rewrite M0 in M.
  destruct G as (A & NE & _ & _ & HH & mn & mx & _ & _ & _ & XX). rewrite M in XX. destruct XX as ((s & X1) & X2 & X3).
  specialize (X3 eq_refl). destruct (exists_last NE) as (h0 & f & EH).
  assert (f = mx).
  { destruct (HH f) as [s2 H2]; [rewrite EH; apply in_or_app; right; now left|]. specialize (X2 _ _ H2). cbn in X2.
    assert (mx <= f)%Z; [|lia]. rewrite EH in X3, A. apply in_app_or in X3 as [X3|[ <- |[]]]; [|lia].
    clear -A X3. induction h0 as [|z h0 IH]; [easy|]. destruct X3 as [ <- |X3].
    - apply (asc_head _ _ A). apply in_or_app. right. now left.
    - apply IH; [|exact X3]. now inversion A. }
  subst f. exists st0, st, mx, (rev h0). split; [exact E0|]. split; [exact E|]. unfold final_heap. rewrite M, EH, rev_app_distr.
  split; [reflexivity|]. split; [eauto|]. split; [exact X2|]. intros g X. apply HH. rewrite EH. apply in_or_app. left. now apply in_rev.
Qed.

(** The other accessors: the last best and a random best are best; a random other is not, when there is one. *)
Lemma fold_natmax_in : forall l x, In (fold_left Nat.max l x) (x :: l).
Proof.
  induction l as [|a l IH]; intros x; [now left|]. cbn [fold_left]. destruct (IH (Nat.max x a)) as [B|B]; [|right; now right].
  rewrite <- B. destruct (Nat.max_spec x a) as [[_ ->]|[_ ->]]; [right; now left|now left].
Qed.

Lemma fold_natmax_ge : forall l x y, In y (x :: l) -> y <= fold_left Nat.max l x.
Proof.
  induction l as [|a l IH]; intros x y Y; cbn [fold_left].
  - destruct Y as [ <- |[]]. lia.
  - destruct Y as [ <- |[ <- |Y]].
    + apply Nat.le_trans with (Nat.max x a); [lia|]. apply IH. now left.
    + apply Nat.le_trans with (Nat.max x a); [lia|]. apply IH. now left.
    + apply IH. now right.
Qed.

Theorem C36_last_best : forall st, fits st <> [] -> exists i p, last_best st = Ok p /\
  nth_error (fits st) i = Some p /\ optimal (maximize st) (snd p) (fits st) /\
  (forall j q, nth_error (fits st) j = Some q -> snd q = snd p -> j <= i).
Proof.
  intros st N. unfold last_best, best_fit. destruct (pick_total _ _ (better (maximize st)) _ N) as [b HP]. rewrite HP. cbn.
  apply pick_optimal in HP as [P1 P2]. set (is := filter _ _).
  assert (HIS : forall i, In i is <-> exists q, nth_error (fits st) i = Some q /\ snd q = snd b).
  { intros i. unfold is. rewrite filter_In, in_seq. split.
    - intros [_ X]. destruct (nth_error (fits st) i) as [q|]; [|easy]. exists q. apply Z.eqb_eq in X. now split.
    - intros (q & X & Y). assert (i < length (fits st)) by (apply nth_error_Some; now rewrite X). split; [lia|]. rewrite X. now apply Z.eqb_eq. }
  destruct is as [|i r] eqn:EI.
  - exfalso. apply In_nth_error in P1 as [i X]. apply (in_nil (a := i)). apply HIS. eauto.
  - assert (I := fold_natmax_in r i). apply HIS in I as (q & X & Y). exists (fold_left Nat.max r i), q.
    split; [now apply lget_ok|]. split; [exact X|]. split; [now rewrite Y|]. intros j q' Xj Yj.
    apply fold_natmax_ge. apply HIS. exists q'. split; [exact Xj|congruence].
Qed.

Theorem C36_random_best : forall st c p, random_best st c = Ok p -> In p (fits st) /\ optimal (maximize st) (snd p) (fits st).
Proof.
  intros st c p. unfold random_best, best_fit. intros H. apply bind_ok in H as (b & HP & H). apply bind_ok in H as (i & HI & H).
  apply pick_optimal in HP as [P1 P2]. apply lget_In in HI. apply filter_In in HI as [_ HI]. apply lget_ok in H. rewrite H in HI.
  apply Z.eqb_eq in HI. split; [now apply nth_error_In in H|now rewrite HI].
Qed.

Theorem C36_random_other : forall st c p, random_sol st c = Ok p -> In p (fits st) /\
  ((exists q, In q (fits st) /\ ~ optimal (maximize st) (snd q) (fits st)) -> ~ optimal (maximize st) (snd p) (fits st)).
Proof.
  intros st c p. unfold random_sol. destruct (fits st) as [|x0 r0] eqn:EF.
  { intros H. apply lget_In in H. easy. }
  rewrite <- EF. intros H. apply bind_ok in H as (b & HP & H). unfold best_fit in HP. apply pick_optimal in HP as [P1 P2].
  assert (HO : forall q, In q (fits st) -> optimal (maximize st) (snd q) (fits st) <-> snd q = snd b).
  { intros q Q. split; [|intros ->; exact P2]. intros O. destruct b as [sb fb], q as [sq fq]. specialize (O _ _ P1). specialize (P2 _ _ Q). cbn in *.
    destruct (maximize st); lia. }
  set (s := filter _ _) in H.
  assert (HS : forall q, In q s <-> In q (fits st) /\ snd q <> snd b).
  { intros q. unfold s. rewrite filter_In, negb_true_iff, Z.eqb_neq. reflexivity. }
  destruct s as [|y s1] eqn:ES0.
  - apply lget_In in H. split; [exact H|]. intros (q & Q & NQ) _. apply (in_nil (a := q)). apply HS. split; [exact Q|].
    rewrite <- HO by exact Q. exact NQ.
  - rewrite <- ES0 in *. apply lget_In in H. apply HS in H as [H1 H2]. split; [exact H1|]. intros _. now rewrite HO.
Qed.

(** Removing duplicates keeps, in order, exactly the first pair of every value of the compared attribute. *)
Section Dedup.
Variable vec : Sol -> list Z.
Variable d : nat.

Lemma all_similar_spec : forall a b, length a = length b -> all_similar a b = Ok (if list_eq_dec Z.eq_dec a b then true else false).
Proof.
  induction a as [|x a IH]; intros [|y b] L; try discriminate; [reflexivity|]. cbn [all_similar]. injection L as L.
  destruct (Z.eqb_spec x y) as [ -> |NE].
  - rewrite IH by exact L. destruct (list_eq_dec Z.eq_dec a b) as [E1|N], (list_eq_dec Z.eq_dec (y :: a) (y :: b)) as [E|N'];
      try reflexivity; [destruct N'; now rewrite E1|injection E as E; easy].
  - destruct (list_eq_dec Z.eq_dec (x :: a) (y :: b)) as [E|_]; [injection E; easy|reflexivity].
Qed.

Definition dupof (l : list (Sol * Z)) (k j : nat) : Prop :=
  exists i p q, i < k /\ i < j /\ nth_error l i = Some p /\ nth_error l j = Some q /\ vec (fst p) = vec (fst q).

Lemma existsb_eqb : forall j l, existsb (Nat.eqb j) l = true <-> In j l.
Proof.
  intros. rewrite existsb_exists. split; [intros (x & X & E); apply Nat.eqb_eq in E; now subst|].
  intros X. exists j. split; [exact X|apply Nat.eqb_refl].
Qed.

Lemma dup_row_spec : forall l i rm, (forall p, In p l -> length (vec (fst p)) = d) -> i < length l ->
  exists rm', dup_row vec l rm i = Ok rm' /\ forall j, In j rm' <-> In j rm \/
    (i < j /\ exists p q, nth_error l i = Some p /\ nth_error l j = Some q /\ vec (fst p) = vec (fst q)).
Proof.
  intros l i rm HD HI. unfold dup_row.
  destruct (@foldM_total _ _ (dup_pair vec l i) (fun done rm' => forall j, In j rm' <-> In j rm \/
     (In j done /\ exists p q, nth_error l i = Some p /\ nth_error l j = Some q /\ vec (fst p) = vec (fst q)))
     (seq (S i) (length l - S i)) rm) as (rm' & E & H).
  - intros j. cbn. tauto.
  - intros l0 j l1 rm0 ES0 IH. assert (HJ : In j (seq (S i) (length l - S i))) by (rewrite ES0; apply in_or_app; right; now left).
    apply in_seq in HJ. destruct (lget_lt l HI) as [p Hp]. destruct (lget_lt l (i := j)) as [q Hq]; [lia|].
    unfold dup_pair. rewrite Hp, Hq. cbn. rewrite all_similar_spec by (rewrite !HD; eauto using lget_In). cbn.
    apply lget_ok in Hp, Hq. eexists. split; [reflexivity|]. intros k. rewrite in_app_iff. cbn.
    destruct (list_eq_dec Z.eq_dec (vec (fst p)) (vec (fst q))) as [EV|NV].
    + destruct (existsb (Nat.eqb j) rm0) eqn:EX.
      * apply existsb_eqb in EX. rewrite IH. split; [tauto|]. intros [X|[[X|[ <- |[]]] Y]]; [tauto|tauto|]. now apply IH.
      * rewrite in_app_iff, IH. cbn. split; [|intros [X|[[X|[ <- |[]]] Y]]; tauto].
        intros [[X|X]|[ <- |[]]]; [tauto|tauto|]. right. split; [tauto|]. eauto.
    + rewrite IH. split; [tauto|]. intros [X|[[X|[ <- |[]]] (p' & q' & Y1 & Y2 & Y3)]]; [tauto|right; split; eauto|]. congruence.
  - exists rm'. split; [exact E|]. intros j. rewrite H, in_seq. split.
    + intros [X|[X Y]]; [tauto|]. right. split; [lia|exact Y].
    + intros [X|[X Y]]; [tauto|]. right. split; [|exact Y]. destruct Y as (p & q & _ & Y & _).
      assert (j < length l) by (apply nth_error_Some; now rewrite Y). lia.
Qed.

Lemma filter_seq_sorted : forall (f : nat -> bool) n a, StronglySorted lt (filter f (seq a n)).
Proof.
  intros f. induction n as [|n IH]; intros a; cbn; [constructor|]. destruct (f a); [|apply IH]. constructor; [apply IH|].
  apply Forall_forall. intros x X. apply filter_In in X as [X _]. apply in_seq in X. lia.
Qed.

Theorem C36_remove_duplicates : forall l : list (Sol * Z), (forall p, In p l -> length (vec (fst p)) = d) ->
  exists l' is, remove_duplicates vec l = Ok l' /\ Forall2 (fun i p => nth_error l i = Some p) is l' /\
    StronglySorted lt is /\
    (forall i, In i is <-> exists p, nth_error l i = Some p /\
       forall j q, j < i -> nth_error l j = Some q -> vec (fst q) <> vec (fst p)).
Proof.
  intros l HD. unfold remove_duplicates.
  destruct (@foldM_total _ _ (dup_row vec l) (fun done rm => forall j, In j rm <->
     exists i p q, In i done /\ i < j /\ nth_error l i = Some p /\ nth_error l j = Some q /\ vec (fst p) = vec (fst q))
     (seq 0 (length l - 1)) []) as (rm & E & H).
  - intros j. cbn. split; [easy|]. intros (i & p & q & [] & _).
  - intros l0 i l1 rm ES0 IH. assert (HI : In i (seq 0 (length l - 1))) by (rewrite ES0; apply in_or_app; right; now left).
    apply in_seq in HI. destruct (dup_row_spec l i rm HD) as (rm' & E & H); [lia|]. exists rm'. split; [exact E|].
    intros j. rewrite H, IH. split.
    + intros [(i' & p & q & X)|(X & p & q & Y)].
      * exists i', p, q. rewrite in_app_iff. tauto.
      * exists i, p, q. rewrite in_app_iff. cbn. tauto.
    + intros (i' & p & q & X & Y). apply in_app_or in X as [X|[ <- |[]]]; [left; now exists i', p, q|right].
      split; [tauto|]. exists p, q. tauto.
  - rewrite E. cbn. set (is := filter _ _).
    assert (HIS : forall i, In i is <-> i < length l /\ ~ In i rm).
    { intros i. unfold is. rewrite filter_In, in_seq, negb_true_iff, <- not_true_iff_false, existsb_eqb. lia || (split; intros; intuition lia). }
    destruct l as [|p0 r0] eqn:EL.
    { exists [], []. split; [reflexivity|]. split; [constructor|]. split; [constructor|]. intros i. split; [easy|].
      intros (p & X & _). now destruct i. }
    rewrite <- EL in *.
    assert (HM : mapM (lget l) is = Ok (map (fun i => nth i l p0) is)).
    { apply mapM_total. intros i X. apply HIS in X as [X _]. destruct (lget_lt l X) as [q Q]. rewrite Q. f_equal. apply lget_ok in Q.
      symmetry. now apply nth_error_nth. }
    exists (map (fun i => nth i l p0) is), is. split; [exact HM|]. split.
    { apply mapM_ok in HM. revert HM. generalize (map (fun i => nth i l p0) is). clear. intros l'. 
      induction 1; constructor; [now apply lget_ok|assumption]. }
    split.
    { apply filter_seq_sorted. }
    intros i. rewrite HIS, H. split.
    + intros [X Y]. destruct (nth_error l i) as [p|] eqn:EP; [|now apply nth_error_None in EP; lia]. exists p. split; [reflexivity|].
      intros j q J Q V. apply Y. exists j, q, p. split; [apply in_seq; lia|]. tauto.
    + intros (p & X & Y). assert (i < length l) by (apply nth_error_Some; now rewrite X). split; [assumption|].
      intros (j & q & p' & _ & J & Q & P & V). apply (Y j q J Q). congruence.
Qed.
End Dedup.
End StoreP.

Ltac coherent_tac := intros ? ? ? ?X ?Y; cbn in X, Y;
  repeat (destruct X as [X|X]; [injection X as <- <-; repeat (destruct Y as [Y|Y]; [congruence|]); destruct Y|]); destruct X.

Example C36_ex : exists st0 st, init [(0, 5%Z); (1, 3%Z)] None true true 2 = Ok st0 /\
  adds st0 [(2, 4%Z); (3, 9%Z); (0, 5%Z); (4, 1%Z)] = Ok st /\ best st = Some 3 /\ best_fit st = Ok (3, 9%Z) /\
  final_heap st = [9; 5]%Z /\ coherent ([(0, 5%Z); (1, 3%Z)] ++ [(2, 4%Z); (3, 9%Z); (0, 5%Z); (4, 1%Z)]).
Proof.
  eexists; eexists. split; [vm_compute; reflexivity|]. split; [vm_compute; reflexivity|]. split; [vm_compute; reflexivity|]. split; [vm_compute; reflexivity|]. split; [vm_compute; reflexivity|].
  coherent_tac.
Qed.

(** When minimising, a full heap of "best scores" throws the new best score away. *)
Theorem C36_heap_minimise_refuted : exists (l0 added : list (nat * Z)) nb st0 st,
  l0 <> [] /\ 0 < nb /\ coherent (l0 ++ added) /\ init l0 None false true nb = Ok st0 /\ adds st0 added = Ok st /\
  exists f, optimal false f (l0 ++ added) /\ In f (map snd (l0 ++ added)) /\ ~ In f (final_heap st).
Proof.
  exists [(0, 5%Z)], [(1, 3%Z)], 1, (mkStore [(0, 5%Z)] (Some 0) false 1 [5%Z] true 1 [(0, 5%Z)] (Some 5%Z) (Some 5%Z)).
  eexists. split; [easy|]. split; [lia|]. split; [coherent_tac|].
  split; [vm_compute; reflexivity|]. split; [vm_compute; reflexivity|]. exists 3%Z. split; [intros s g X; cbn in X; destruct X as [X|[X|[]]]; injection X as <- <-; lia|].
  split; [cbn; tauto|]. cbn. intros [X|[]]. discriminate.
Qed.

(** When maximising, a score below the first ones is not kept even though there is room for it. *)
Theorem C36_heap_room_refuted : exists (l0 added : list (nat * Z)) nb st0 st,
  coherent (l0 ++ added) /\ init l0 None true true nb = Ok st0 /\ adds st0 added = Ok st /\
  length (l0 ++ added) < nb /\ length (final_heap st) < length (fits st).
Proof.
  exists [(0, 5%Z)], [(1, 3%Z)], 10. eexists; eexists. split; [coherent_tac|].
  split; [vm_compute; reflexivity|]. split; [vm_compute; reflexivity|]. cbn. lia.
Qed.

(** A storage created empty accepts no solution. *)
Theorem C36_empty_store_fails : forall (b : option nat) mx limit nb, exists st, init [] b mx limit nb = Ok st /\
  forall s f, add st s f = Err AttributeError.
Proof. intros. unfold init. cbn. destruct ((nb <=? 0) && limit); [destruct mx|]; eexists; (split; [now destruct nb|reflexivity]). Qed.
(** A storage created empty accepts no solution. *)
Theorem C36_empty_store_refuted : exists st : store nat, init [] None true true 10 = Ok st /\ add st 1 5%Z = Err AttributeError.
Proof. destruct (C36_empty_store_fails None true true 10) as (st & E & H). exists st. split; [exact E|apply H]. Qed.

(** A solution added again with a better fitness becomes the best solution, but the stored pair stays. *)
Theorem C36_refit_refuted : exists (l0 : list (nat * Z)) s f st0 st,
  init l0 None true true 10 = Ok st0 /\ add st0 s f = Ok st /\ best st = Some s /\
  (exists s' f', best_fit st = Ok (s', f') /\ s' <> s /\ (f' < f)%Z).
Proof.
  exists [(0, 1%Z); (1, 5%Z)], 0, 9%Z. eexists; eexists. split; [vm_compute; reflexivity|]. split; [vm_compute; reflexivity|]. split; [vm_compute; reflexivity|].
  exists 1, 5%Z. split; [vm_compute; reflexivity|]. split; [easy|lia].
Qed.

Print Assumptions C36_best.
Print Assumptions C36_given_best.
Print Assumptions C36_heap_maximise.
Print Assumptions C36_last_best.
Print Assumptions C36_random_best.
Print Assumptions C36_random_other.
Print Assumptions C36_remove_duplicates.
Print Assumptions C36_heap_minimise_refuted.
Print Assumptions C36_heap_room_refuted.
Print Assumptions C36_empty_store_fails.
Print Assumptions C36_refit_refuted.

(** * The front *)

Lemma tlt_tgt : forall a b, tlt a b = tgt b a.
Proof.
  unfold tlt, tgt. intros a b. f_equal; revert b; induction a as [|x a IH]; intros [|y b]; cbn; try reflexivity; now rewrite IH.
Qed.

Lemma tgt_spec : forall a b, length a = length b -> tgt a b = true <-> dominates true a b.
Proof.
  intros a b L. unfold tgt, dominates. rewrite andb_true_iff.
  assert (A1 : forallb (fun p => (snd p <=? fst p)%Z) (combine a b) = true <->
     (forall i x y, nth_error a i = Some x -> nth_error b i = Some y -> (y <= x)%Z)).
  { revert b L. induction a as [|x a IH]; intros [|y b] L; try discriminate; cbn.
    - split; [|reflexivity]. intros _ [|i] x y X; discriminate X.
    - rewrite andb_true_iff, Z.leb_le, IH by now injection L. split.
      + intros [H1 H2] [|i] x0 y0 X Y; cbn in X, Y; [congruence|now apply (H2 i)].
      + intros H. split; [now apply (H 0)|]. intros i x0 y0 X Y. now apply (H (S i)). }
  assert (A2 : existsb (fun p => (snd p <? fst p)%Z) (combine a b) = true <->
     exists i x y, nth_error a i = Some x /\ nth_error b i = Some y /\ (y < x)%Z).
  { clear A1. revert b L. induction a as [|x a IH]; intros [|y b] L; try discriminate; cbn.
    - split; [discriminate|]. intros ([|i] & x & y & X & _); discriminate X.
    - rewrite orb_true_iff, Z.ltb_lt, IH by now injection L. split.
      + intros [H|(i & x0 & y0 & H)]; [now exists 0, x, y|now exists (S i), x0, y0].
      + intros ([|i] & x0 & y0 & X & Y & H); cbn in X, Y; [left; congruence|right; now exists i, x0, y0]. }
  now rewrite A1, A2.
Qed.

Lemma dominates_flip : forall mx a b, dominates mx a b <-> dominates (negb mx) b a.
Proof.
  intros mx a b. unfold dominates. destruct mx; cbn.
  - split; intros [H (i & x & y & X & Y & Z)]; (split; [intros i0 x0 y0 X0 Y0; now apply (H i0)|now exists i, y, x]).
  - split; intros [H (i & x & y & X & Y & Z)]; (split; [intros i0 x0 y0 X0 Y0; now apply (H i0)|now exists i, y, x]).
Qed.

Definition domb (mx : bool) (a b : list Z) : bool := if mx then tgt a b else tlt a b.
Lemma domb_spec : forall mx a b, length a = length b -> domb mx a b = true <-> dominates mx a b.
Proof.
  intros [] a b L; cbn; [now apply tgt_spec|]. rewrite tlt_tgt, tgt_spec by now symmetry. symmetry. apply (dominates_flip false).
Qed.

Lemma dominates_irrefl : forall mx a, ~ dominates mx a a.
Proof. intros mx a [_ (i & x & y & X & Y & Z)]. rewrite X in Y. injection Y as <-. destruct mx; lia. Qed.
Lemma dominates_trans : forall mx a b c, length a = length b -> length b = length c ->
  dominates mx a b -> dominates mx b c -> dominates mx a c.
Proof.
  intros mx a b c L1 L2 [A1 (i & x & y & X & Y & Z)] [B1 _]. split.
  - intros j u w U W. destruct (nth_error b j) as [v|] eqn:V; [|apply nth_error_None in V; assert (j < length a) by (apply nth_error_Some; now rewrite U); lia].
    specialize (A1 j u v U V). specialize (B1 j v w V W). destruct mx; lia.
  - destruct (nth_error c i) as [w|] eqn:W; [|apply nth_error_None in W; assert (i < length b) by (apply nth_error_Some; now rewrite Y); lia].
    exists i, x, w. split; [exact X|]. split; [exact W|]. specialize (B1 i y w Y W). destruct mx; lia.
Qed.

Section ParetoP.
Context {Sol : Type} {ES : PyEq Sol}.
Implicit Types (p q : Sol * list Z).

Lemma add_point_spec : forall mx (front : list (Sol * list Z)) p d, same_size d (p :: front) ->
  add_point mx front p = if forallb (fun t => negb (domb mx (snd t) (snd p))) front
                         then filter (fun q => negb (domb mx (snd p) (snd q))) front ++ [p] else front.
Proof.
  intros mx front p d SS.
  assert (EX : forall a b, length a = length b -> tlt a b && tgt a b = false).
  { intros a b L. destruct (tlt a b) eqn:E1, (tgt a b) eqn:E2; try reflexivity. exfalso.
    rewrite tlt_tgt in E1. apply tgt_spec in E1, E2; try congruence.
    apply (dominates_irrefl true a). now apply (dominates_trans true a b a). }
  assert (GE : forall a b, length a = length b -> tge a b = negb (tlt a b)).
  { intros a b L. unfold tge, teq. specialize (EX a b L). destruct (tlt a b), (tgt a b); try reflexivity; discriminate EX. }
  assert (LE : forall a b, length a = length b -> tle a b = negb (tgt a b)).
  { intros a b L. unfold tle, teq. specialize (EX a b L). destruct (tlt a b), (tgt a b); try reflexivity; discriminate EX. }
  assert (FB : forall (f g : Sol * list Z -> bool), (forall q, In q front -> f q = g q) -> forallb f front = forallb g front).
  { clear. induction front as [|x l IH]; intros f g H; [reflexivity|]. cbn. rewrite (H x) by now left. f_equal. apply IH. intros. apply H. now right. }
  assert (FI : forall (f g : Sol * list Z -> bool), (forall q, In q front -> f q = g q) -> filter f front = filter g front).
  { intros. apply filter_ext_in. assumption. }
  assert (LP : forall q, In q front -> length (snd q) = length (snd p)).
  { intros q Q. rewrite (SS q) by now right. symmetry. apply SS. now left. }
  assert (IR : forall mx, domb mx (snd p) (snd p) = false).
  { intros m. apply not_true_iff_false. rewrite domb_spec by reflexivity. apply dominates_irrefl. }
  unfold add_point. destruct mx; cbn [domb].
  - rewrite (FB _ (fun t => negb (tgt (snd t) (snd p)))) by (intros q Q; rewrite GE by (now rewrite (LP q Q)); now rewrite tlt_tgt).
    destruct (forallb _ front); [|reflexivity]. rewrite filter_app. cbn. specialize (IR false). cbn in IR. rewrite IR. cbn.
    f_equal. apply FI. intros q _. now rewrite tlt_tgt.
  - rewrite (FB _ (fun t => negb (tlt (snd t) (snd p)))) by (intros q Q; rewrite LE by (now rewrite (LP q Q)); now rewrite tlt_tgt).
    destruct (forallb _ front); [|reflexivity]. rewrite filter_app. cbn. specialize (IR true). cbn in IR. rewrite IR. cbn.
    f_equal. apply FI. intros q _. now rewrite tlt_tgt.
Qed.

(** Every point is kept or dominated by one that nothing dominates. *)
Lemma maximal_above : forall mx (l : list (Sol * list Z)) d q, same_size d (q :: l) -> exists m, In m (q :: l) /\
  (m = q \/ domb mx (snd m) (snd q) = true) /\ (forall x, In x (q :: l) -> domb mx (snd x) (snd m) = false).
Proof.
  intros mx l d. induction l as [|x l IH]; intros q SS.
  - exists q. split; [now left|]. split; [now left|]. intros x [ <- |[]]. apply not_true_iff_false.
    rewrite domb_spec by reflexivity. apply dominates_irrefl.
  - destruct (IH q) as (m & M1 & M2 & M3). { intros p [ <- |P]; apply SS; [now left|right; now right]. }
    assert (LL : forall a b, In a (q :: x :: l) -> In b (q :: x :: l) -> length (snd a) = length (snd b)) by (intros; now rewrite !SS).
    assert (ML : In m (q :: x :: l)) by (destruct M1 as [ <- |M1]; [now left|right; now right]).
    assert (TR : forall a b c, In a (q :: x :: l) -> In b (q :: x :: l) -> In c (q :: x :: l) ->
       domb mx (snd a) (snd b) = true -> domb mx (snd b) (snd c) = true -> domb mx (snd a) (snd c) = true).
    { intros a b c A B C. rewrite !domb_spec by auto. apply dominates_trans; auto. }
    assert (XL : In x (q :: x :: l)) by (right; now left).
    destruct (domb mx (snd x) (snd m)) eqn:E.
    + exists x. split; [exact XL|]. split.
      * right. destruct M2 as [ <- |M2]; [exact E|]. apply (TR x m q); auto. now left.
      * intros y Y. destruct (domb mx (snd y) (snd x)) eqn:E2; [|reflexivity]. exfalso.
        assert (Z := TR y x m Y XL ML E2 E). destruct Y as [ <- |[ <- |Y]].
        -- rewrite M3 in Z by now left. discriminate.
        -- rewrite domb_spec in E2 by reflexivity. now apply dominates_irrefl in E2.
        -- rewrite M3 in Z by now right. discriminate.
    + exists m. split; [exact ML|]. split; [exact M2|]. intros y [ <- |[ <- |Y]]; [apply M3; now left|exact E|apply M3; now right].
Qed.

Definition keepb (mx : bool) (l : list (Sol * list Z)) (p : Sol * list Z) : bool :=
  forallb (fun q => negb (domb mx (snd q) (snd p))) l.
Lemma keepb_spec : forall mx l p d, same_size d (p :: l) ->
  keepb mx l p = true <-> forall q, In q l -> ~ dominates mx (snd q) (snd p).
Proof.
  intros mx l p d SS. unfold keepb. rewrite forallb_forall. split; intros H q Q; specialize (H q Q).
  - rewrite <- domb_spec by (rewrite (SS q), (SS p); [reflexivity|now left|now right]). apply negb_true_iff in H. congruence.
  - apply negb_true_iff, not_true_iff_false. rewrite domb_spec by (rewrite (SS q), (SS p); [reflexivity|now left|now right]). exact H.
Qed.

Lemma keepb_snoc : forall mx l p q, keepb mx (l ++ [p]) q = keepb mx l q && negb (domb mx (snd p) (snd q)).
Proof. intros. unfold keepb. rewrite forallb_app. cbn. now rewrite andb_true_r. Qed.

Lemma front_fold : forall mx d (l : list (Sol * list Z)), same_size d l ->
  fold_left (add_point mx) l [] = filter (keepb mx l) l.
Proof.
  intros mx d l. induction l as [|p l IH] using rev_ind; intros SS; [reflexivity|].
  assert (SL : same_size d l) by (intros q Q; apply SS, in_or_app; now left).
  assert (SP : length (snd p) = d) by (apply SS, in_or_app; right; now left).
  rewrite fold_left_app. cbn. rewrite IH by exact SL.
  rewrite (add_point_spec mx _ p d) by (intros q [ <- |Q]; [exact SP|]; apply filter_In in Q as [Q _]; now apply SL).
  rewrite filter_app. cbn [filter]. rewrite keepb_snoc.
  assert (IR : domb mx (snd p) (snd p) = false).
  { apply not_true_iff_false. rewrite domb_spec by reflexivity. apply dominates_irrefl. }
  rewrite IR. cbn [negb]. rewrite andb_true_r. change (keepb mx l p) with (forallb (fun q => negb (domb mx (snd q) (snd p))) l).
  assert (EK : forallb (fun t => negb (domb mx (snd t) (snd p))) (filter (keepb mx l) l) = forallb (fun q => negb (domb mx (snd q) (snd p))) l).
  { apply eq_true_iff_eq. rewrite !forallb_forall. split; intros H q Q; [|apply filter_In in Q as [Q _]; now apply H].
    destruct (domb mx (snd q) (snd p)) eqn:E; [|reflexivity]. exfalso.
    destruct (maximal_above mx l d q) as (m & M1 & M2 & M3). { intros x [ <- |X]; [now apply SL|now apply SL]. }
    assert (ML : In m l) by (destruct M1 as [ <- |M1]; [exact Q|exact M1]).
    assert (MK : In m (filter (keepb mx l) l)).
    { apply filter_In. split; [exact ML|]. apply forallb_forall. intros x X. rewrite M3; [reflexivity|now right]. }
    specialize (H m MK). destruct M2 as [ -> |M2]; [rewrite E in H; discriminate|].
    assert (domb mx (snd m) (snd p) = true); [|rewrite H0 in H; discriminate].
    apply domb_spec in E; [|rewrite (SL q Q); now symmetry]. apply domb_spec in M2; [|now rewrite !SL].
    apply domb_spec; [rewrite (SL m ML); now symmetry|]. apply (dominates_trans mx _ (snd q)); auto; rewrite ?(SL m ML), ?(SL q Q); now symmetry. }
  rewrite EK. destruct (forallb (fun q => negb (domb mx (snd q) (snd p))) l) eqn:E.
  - f_equal. clear -SS IR. assert (G : forall k, filter (fun q => negb (domb mx (snd p) (snd q))) (filter (keepb mx l) k) = filter (keepb mx (l ++ [p])) k).
    { induction k as [|x k IH]; [reflexivity|]. cbn [filter]. rewrite keepb_snoc.
      destruct (keepb mx l x); cbn [andb filter]; [|exact IH]. destruct (negb _); [f_equal|]; exact IH. }
    apply G.
  - rewrite app_nil_r. apply filter_ext_in. intros q Q. rewrite keepb_snoc.
    destruct (domb mx (snd p) (snd q)) eqn:E2; cbn [negb]; [|now rewrite andb_true_r]. rewrite andb_false_r.
    apply not_true_iff_false. intros K. unfold keepb in K. rewrite forallb_forall in K.
    assert (exists t, In t l /\ domb mx (snd t) (snd p) = true) as (t & T1 & T2).
    { clear -E. induction l as [|x l IH]; [discriminate|]. cbn in E. destruct (domb mx (snd x) (snd p)) eqn:EX.
      - exists x. split; [now left|exact EX].
      - destruct (IH E) as (t & T & T'). exists t. split; [now right|exact T']. }
    specialize (K t T1). apply negb_true_iff in K.
    apply domb_spec in T2; [|rewrite (SL t T1); now symmetry]. apply domb_spec in E2; [|rewrite (SL q Q); exact SP].
    apply not_true_iff_false in K. apply K. apply domb_spec; [now rewrite !SL|].
    apply (dominates_trans mx _ (snd p)); auto; rewrite ?(SL t T1), ?(SL q Q); auto.
Qed.

(** What is stored: the pairs given at creation, then those of the solutions not seen before. *)
Lemma p_adds_fits : forall added pf (h : list (Sol * list Z)), p_started pf = true ->
  (forall s, In s (p_keys pf) <-> In s (map fst h)) -> (forall p, In p (p_fits pf) <-> In p h) -> coherent (h ++ added) ->
  exists pf', p_adds pf added = Ok pf' /\ p_max pf' = p_max pf /\ p_started pf' = true /\ p_front pf' = p_front pf /\
    (forall s, In s (p_keys pf') <-> In s (map fst (h ++ added))) /\
    (forall p, In p (p_fits pf') <-> In p (h ++ added)).
Proof.
  induction added as [|[s f] added IH]; intros pf h ST K F C; cbn.
  - exists pf. rewrite app_nil_r. tauto.
  - assert (E1 : exists pf1, p_add pf (s, f) = Ok pf1 /\ p_max pf1 = p_max pf /\ p_started pf1 = true /\ p_front pf1 = p_front pf /\
       p_keys pf1 = (if negb (pymem s (p_keys pf)) then p_keys pf ++ [s] else p_keys pf) /\
       p_fits pf1 = (if negb (pymem s (p_keys pf)) then p_fits pf ++ [(s, f)] else p_fits pf)).
    { unfold p_add. rewrite ST. eexists. split; [reflexivity|]. cbn. tauto. }
    destruct E1 as (pf1 & E1 & Q1 & Q2 & Q3 & Q4 & Q5). rewrite E1. cbn [bind]. rewrite <- Q1, <- Q3.
    change ((s, f) :: added) with ([(s, f)] ++ added) in *. rewrite app_assoc in C |- *.
    destruct (IH pf1 (h ++ [(s, f)])) as (pf' & E & R); [exact Q2| | |exact C|exists pf'; split; [exact E|exact R]].
    + intros s0. rewrite Q4, map_app, in_app_iff, <- K. cbn. destruct (pymem s (p_keys pf)) eqn:E; cbn; [|rewrite in_app_iff; reflexivity].
      apply pymem_true in E. split; [tauto|]. intros [X|[ <- |[]]]; tauto.
    + intros p. rewrite Q5. destruct (pymem s (p_keys pf)) eqn:E; cbn; [|rewrite !in_app_iff, F; reflexivity].
      apply pymem_true, K in E. apply in_map_iff in E as ([s' f'] & E3 & E2). cbn in E3. subst s'. rewrite F, in_app_iff.
      split; [tauto|]. intros [X|[ <- |[]]]; [exact X|]. rewrite (C s f f'); [exact E2| |]; apply in_or_app; left; apply in_or_app;
      [right; now left|now left].
Qed.

Lemma p_init_fits : forall (l : list (Sol * list Z)) mx, l <> [] -> coherent l -> exists pf, p_init l mx = Ok pf /\
  p_max pf = mx /\ p_started pf = true /\ p_front pf = [] /\ (forall s, In s (p_keys pf) <-> In s (map fst l)) /\
  (forall p, In p (p_fits pf) <-> In p l).
Proof.
  intros l mx NE C. unfold p_init. set (pf0 := mkPareto _ _ _ _ _).
  destruct (p_adds_fits l pf0 l) as (pf & E & A1 & A2 & A3 & A4 & A5).
  - cbn. now destruct l.
  - intros s. cbn. apply pyset_In.
  - reflexivity.
  - intros s f g X Y. apply (C s f g); [apply in_app_or in X as [X|X]|apply in_app_or in Y as [Y|Y]]; assumption.
  - exists pf. split; [exact E|]. split; [exact A1|]. split; [exact A2|]. split; [exact A3|]. split.
    + intros s. rewrite A4, map_app, in_app_iff. tauto.
    + intros p. rewrite A5, in_app_iff. tauto.
Qed.

(** ** C35 *)

(** After finalisation the front is, in the order of storage, the stored points that no given point dominates,
    and every given point is in it or dominated by one of its points. *)
Theorem C35_front : forall (l0 added : list (Sol * list Z)) mx d,
  l0 <> [] -> same_size d (l0 ++ added) -> coherent (l0 ++ added) ->
  exists pf0 pf, p_init l0 mx = Ok pf0 /\ p_adds pf0 added = Ok pf /\
    let front := p_front (p_finalize pf) in
    (forall p, In p front <-> In p (l0 ++ added) /\ forall q, In q (l0 ++ added) -> ~ dominates mx (snd q) (snd p)) /\
    (forall q, In q (l0 ++ added) -> exists p, In p front /\ (p = q \/ dominates mx (snd p) (snd q))) /\
    (exists keep, front = filter keep (p_fits pf)) /\ (forall p, In p (p_fits pf) <-> In p (l0 ++ added)).
Proof.
  intros l0 added mx d NE SS C.
  destruct (p_init_fits l0 mx NE (coherent_app _ _ _ C)) as (pf0 & E0 & A1 & A2 & A3 & A4 & A5).
  destruct (p_adds_fits added pf0 l0 A2 A4 A5 C) as (pf & E & B1 & B2 & B3 & B4 & B5).
  exists pf0, pf. split; [exact E0|]. split; [exact E|]. cbn. rewrite B1, A1.
  assert (S1 : same_size d (p_fits pf)) by (intros p P; apply SS; now apply B5).
  rewrite (front_fold mx d _ S1).
  assert (KS : forall p, In p (p_fits pf) -> keepb mx (p_fits pf) p = true <-> forall q, In q (l0 ++ added) -> ~ dominates mx (snd q) (snd p)).
  { intros p P. rewrite (keepb_spec mx _ p d) by (intros x [ <- |X]; now apply S1). split; intros H q Q; apply H; now apply B5. }
  split; [|split; [|split; [eauto|exact B5]]].
  - intros p. rewrite filter_In. split.
    + intros [P K]. split; [now apply B5|now apply KS].
    + intros [P K]. apply B5 in P. split; [exact P|now apply KS].
  - intros q Q. apply B5 in Q. destruct (maximal_above mx (p_fits pf) d q) as (m & M1 & M2 & M3).
    { intros x [ <- |X]; now apply S1. }
    assert (ML : In m (p_fits pf)) by (destruct M1 as [ <- |M1]; assumption).
    exists m. split. { apply filter_In. split; [exact ML|]. apply forallb_forall. intros x X. rewrite M3; [reflexivity|now right]. }
    destruct M2 as [ -> |M2]; [now left|]. right. apply domb_spec in M2; [exact M2|]. now rewrite !S1.
Qed.

(** The order of the additions does not matter. *)
Theorem C35_order : forall (l1 l2 : list (Sol * list Z)) mx d,
  same_size d l1 -> (forall p, In p l1 <-> In p l2) ->
  forall p, In p (fold_left (add_point mx) l1 []) <-> In p (fold_left (add_point mx) l2 []).
Proof.
  intros l1 l2 mx d S1 EQ p.
  assert (S2 : same_size d l2) by (intros q Q; apply S1; now apply EQ).
  rewrite (front_fold mx d l1 S1), (front_fold mx d l2 S2), !filter_In. unfold keepb. rewrite !forallb_forall. split; intros [A B].
  - split; [now apply EQ|]. intros q Q. apply B. now apply EQ.
  - split; [now apply EQ|]. intros q Q. apply B. now apply EQ.
Qed.

(** The extreme points: for every coordinate, a point of the front that is best on it among everything given. *)
Theorem C35_extreme : forall (l0 added : list (Sol * list Z)) mx d,
  l0 <> [] -> same_size d (l0 ++ added) -> coherent (l0 ++ added) ->
  exists pf0 pf xs, p_init l0 mx = Ok pf0 /\ p_adds pf0 added = Ok pf /\ extreme_points (p_finalize pf) = Ok xs /\
    length xs = d /\
    forall i p, nth_error xs i = Some p -> In p (p_front (p_finalize pf)) /\
      exists v, nth_error (snd p) i = Some v /\
        forall q w, In q (l0 ++ added) -> nth_error (snd q) i = Some w -> if mx then (w <= v)%Z else (v <= w)%Z.
Proof.
  intros l0 added mx d NE SS C. destruct (C35_front l0 added mx d NE SS C) as (pf0 & pf & E0 & E & F1 & F2 & _ & B5).
  destruct (p_init_fits l0 mx NE (coherent_app _ _ _ C)) as (pf0' & E0' & A1 & A2 & A3 & A4 & A5).
  rewrite E0 in E0'. injection E0' as <-.
  destruct (p_adds_fits added pf0 l0 A2 A4 A5 C) as (pf' & E' & B1 & _). rewrite E in E'. injection E' as <-.
  set (pz := p_finalize pf) in *. cbn zeta in F1, F2. fold pz in F1, F2.
  assert (MX : p_max pz = mx) by (cbn; congruence). assert (FZ : p_fits pz = p_fits pf) by reflexivity.
  assert (EZ : p_finalize pf = pz) by reflexivity. clearbody pz.
  assert (EXT : forall i, i < d -> exists p v, extreme pz i = Ok p /\ In p (p_front pz) /\ nth_error (snd p) i = Some v /\
     forall q w, In q (l0 ++ added) -> nth_error (snd q) i = Some w -> if mx then (w <= v)%Z else (v <= w)%Z).
  { intros i I. unfold extreme.
    assert (HM : mapM (fun p => let* v := lget (snd p) i in Ok (p, v)) (p_front pz) = Ok (map (fun p => (p, nth i (snd p) 0%Z)) (p_front pz))).
    { apply mapM_total. intros p P. apply F1 in P as [P _]. destruct (lget_lt (snd p) (i := i)) as [v V]; [now rewrite SS|].
      rewrite V. cbn. f_equal. f_equal. apply lget_ok in V. symmetry. now apply nth_error_nth. }
    rewrite HM. cbn [bind].
    assert (NF : map (fun p => (p, nth i (snd p) 0%Z)) (p_front pz) <> []).
    { intros X. apply map_eq_nil in X. destruct l0 as [|q l0]; [easy|]. destruct (F2 q (or_introl eq_refl)) as (p & P & _). rewrite X in P. easy. }
    destruct (pick_total _ _ (zbetter (p_max pz)) _ NF) as [b HB]. rewrite HB. cbn [bind fst].
    apply pick_spec in HB as [P1 P2]; [|intros []; destruct (p_max pz); cbn; try reflexivity; apply Z.ltb_irrefl|
      intros x y z; destruct (p_max pz); cbn; rewrite !Z.ltb_lt; lia].
    apply in_map_iff in P1 as (p & EP & P1). subst b. cbn [fst snd] in *. exists p, (nth i (snd p) 0%Z). split; [reflexivity|]. split; [exact P1|].
    assert (PL := proj1 (proj1 (F1 p) P1)). split; [apply nth_error_nth'; now rewrite SS|].
    intros q w Q W. destruct (F2 q Q) as (m & M1 & M2).
    specialize (P2 (m, nth i (snd m) 0%Z)). cbn in P2. rewrite MX in P2.
    assert (MI : In (m, nth i (snd m) 0%Z) (map (fun p => (p, nth i (snd p) 0%Z)) (p_front pz))) by (apply in_map_iff; eauto).
    specialize (P2 MI).
    assert (ML := proj1 (proj1 (F1 m) M1)).
    assert (NM : nth_error (snd m) i = Some (nth i (snd m) 0%Z)) by (apply nth_error_nth'; now rewrite SS).
    assert (if mx then (w <= nth i (snd m) 0)%Z else (nth i (snd m) 0 <= w)%Z).
    { destruct M2 as [ -> |[M2 _]]; [|exact (M2 i _ _ NM W)]. rewrite NM in W. injection W as <-. destruct mx; lia. }
    destruct mx; cbn in P2; apply Z.ltb_ge in P2; lia. }
  assert (HD : exists p0, lget (p_fits pz) 0 = Ok p0 /\ length (snd p0) = d).
  { destruct (p_fits pf) as [|p0 r] eqn:EF.
    - destruct l0 as [|q l0]; [easy|]. exfalso. apply (in_nil (a := q)). apply B5. now left.
    - exists p0. rewrite FZ. split; [reflexivity|]. apply SS, B5. now left. }
  destruct HD as (p0 & HP & HL).
  assert (TOT : forall k, k <= d -> exists xs, mapM (extreme pz) (seq 0 k) = Ok xs).
  { intros k K. clear -EXT K. assert (G : forall n a, a + n <= d -> exists xs, mapM (extreme pz) (seq a n) = Ok xs).
    { induction n as [|n IH]; intros a L; cbn; [eauto|]. destruct (EXT a) as (p & v & X & _); [lia|]. rewrite X. cbn.
      destruct (IH (S a)) as [xs XS]; [lia|]. rewrite XS. cbn. eauto. }
    apply G. lia. }
  destruct (TOT d (le_n d)) as [xs XS]. exists pf0, pf, xs. rewrite EZ. split; [exact E0|]. split; [exact E|].
  split; [unfold extreme_points; rewrite HP; cbn; now rewrite HL|].
  assert (LX := mapM_length _ _ XS). rewrite seq_length in LX. split; [exact LX|].
  intros i p X. assert (I : i < d) by (rewrite <- LX; apply nth_error_Some; now rewrite X).
  destruct (mapM_nth _ _ i XS X) as (j & J & EJ). rewrite nth_error_seq in J by exact I. injection J as <-.
  destruct (EXT i I) as (p' & v & Y1 & Y2 & Y3 & Y4). cbn in EJ. rewrite EJ in Y1. injection Y1 as <-. eauto.
Qed.

(** With vector fitnesses the best pair returned is one that nothing stored dominates. *)
Theorem C35_best_fit : forall (pf : pareto Sol) d p, same_size d (p_fits pf) -> p_best_fit pf = Ok p ->
  In p (p_fits pf) /\ forall q, In q (p_fits pf) -> ~ dominates (p_max pf) (snd q) (snd p).
Proof.
  intros pf d p SS H.
  assert (G : forall l x0, same_size d (x0 :: l) ->
    let r := fold_left (fun b y => if domb (p_max pf) (snd y) (snd b) then y else b) l x0 in
    In r (x0 :: l) /\ (r = x0 \/ dominates (p_max pf) (snd r) (snd x0)) /\
    forall q, In q (x0 :: l) -> ~ dominates (p_max pf) (snd q) (snd r)).
  { induction l as [|y l IH]; intros x0 S0; cbn [fold_left].
    - cbn. split; [now left|]. split; [now left|]. intros q [ <- |[]]. apply dominates_irrefl.
    - destruct (domb (p_max pf) (snd y) (snd x0)) eqn:E.
      + apply domb_spec in E; [|rewrite !S0; [reflexivity|now left|right; now left]].
        destruct (IH y) as (R1 & R2 & R3). { intros q Q. apply S0. now right. }
        cbn. cbn in R1, R2, R3. set (r := fold_left _ l y) in *.
        assert (LR : length (snd r) = d) by (apply S0; right; destruct R1 as [ <- |R1]; [now left|now right]).
        assert (LY : length (snd y) = d) by (apply S0; right; now left). assert (LX : length (snd x0) = d) by (apply S0; now left).
        assert (D : dominates (p_max pf) (snd r) (snd x0)).
        { destruct R2 as [ -> |R2]; [exact E|]. apply (dominates_trans _ _ (snd y)); congruence || assumption. }
        split; [right; exact R1|]. split; [now right|]. intros q [ <- |Q]; [|now apply R3]. intros X.
        apply (dominates_irrefl (p_max pf) (snd r)). apply (dominates_trans _ _ (snd x0)); congruence || assumption.
      + apply not_true_iff_false in E. rewrite domb_spec in E by (rewrite !S0; [reflexivity|now left|right; now left]).
        destruct (IH x0) as (R1 & R2 & R3). { intros q [ <- |Q]; apply S0; [now left|right; now right]. }
        cbn. cbn in R1, R2, R3. set (r := fold_left _ l x0) in *.
        split; [destruct R1 as [R1|R1]; [now left|right; now right]|]. split; [exact R2|].
        intros q [ <- |[ <- |Q]]; [apply R3; now left| |apply R3; now right]. intros X. destruct R2 as [R2|R2]; [rewrite R2 in X; easy|].
        assert (LR : length (snd r) = d) by (apply S0; destruct R1 as [ <- |R1]; [now left|right; now right]).
        assert (LY : length (snd y) = d) by (apply S0; right; now left). assert (LX : length (snd x0) = d) by (apply S0; now left).
        apply E. apply (dominates_trans _ _ (snd r)); congruence || assumption. }
  unfold p_best_fit, pick in H. destruct (p_fits pf) as [|x0 l] eqn:EF; [discriminate|]. injection H as <-.
  destruct (G l x0 SS) as (R1 & _ & R3). split; [exact R1|exact R3].
Qed.
End ParetoP.

Example C35_ex : exists pf0 pf, p_init [(0, [1; 4]%Z); (1, [2; 2]%Z)] true = Ok pf0 /\
  p_adds pf0 [(2, [3; 1]%Z); (3, [2; 3]%Z); (4, [0; 0]%Z); (5, [3; 1]%Z)] = Ok pf /\
  p_front (p_finalize pf) = [(0, [1; 4]%Z); (2, [3; 1]%Z); (3, [2; 3]%Z); (5, [3; 1]%Z)] /\
  extreme_points (p_finalize pf) = Ok [(2, [3; 1]%Z); (0, [1; 4]%Z)] /\
  same_size 2 [(0, [1; 4]%Z); (1, [2; 2]%Z); (2, [3; 1]%Z); (3, [2; 3]%Z); (4, [0; 0]%Z); (5, [3; 1]%Z)].
Proof.
  eexists; eexists. split; [vm_compute; reflexivity|]. split; [vm_compute; reflexivity|]. split; [vm_compute; reflexivity|]. split; [vm_compute; reflexivity|].
  intros p P. cbn in P. intuition subst; reflexivity.
Qed.

(** Before [finalize] the front is empty, whatever was added. *)
Theorem C35_before_finalize : forall (l0 added : list (nat * list Z)) mx pf0 pf,
  p_init l0 mx = Ok pf0 -> p_adds pf0 added = Ok pf -> p_front pf = [].
Proof.
  assert (G : forall l (pf pf' : pareto nat), p_adds pf l = Ok pf' -> p_front pf' = p_front pf).
  { induction l as [|p l IH]; intros pf pf' H; cbn in H; [injection H as <-; reflexivity|].
    apply bind_ok in H as (pf1 & H1 & H2). apply IH in H2. rewrite H2. unfold p_add in H1.
    destruct (p_started pf); [|discriminate]. injection H1 as <-. reflexivity. }
  intros l0 added mx pf0 pf H0 H. apply G in H, H0. rewrite H, H0. reflexivity.
Qed.

(** Before [finalize] the front is empty, whatever was added. *)
Theorem C35_before_finalize_refuted : exists (l0 added : list (nat * list Z)) mx pf0 pf,
  p_init l0 mx = Ok pf0 /\ p_adds pf0 added = Ok pf /\ p_fits pf <> [] /\ p_front pf = [].
Proof. exists [(0, [1; 4]%Z)], [(1, [2; 2]%Z)], true. do 2 eexists. split; [vm_compute; reflexivity|]. split; [vm_compute; reflexivity|]. split; [discriminate|reflexivity]. Qed.

(** [==] on vectors means "incomparable": the last best solution may be dominated by a stored one. *)
Theorem C35_last_best_refuted : exists (pf : pareto nat) p q, same_size 2 (p_fits pf) /\ p_last_best pf = Ok p /\
  In q (p_fits pf) /\ dominates (p_max pf) (snd q) (snd p).
Proof.
  exists (mkPareto [(0, [0; 9]%Z); (1, [5; 5]%Z); (2, [4; 4]%Z)] [0; 1; 2] true true []), (2, [4; 4]%Z), (1, [5; 5]%Z).
  split; [intros p P; cbn in P; intuition subst; reflexivity|]. split; [vm_compute; reflexivity|]. split; [cbn; tauto|].
  apply domb_spec; reflexivity.
Qed.

(** Vector equality is not transitive. *)
Theorem C35_equality_refuted : exists a b c, length a = length b /\ length b = length c /\
  teq a b = true /\ teq b c = true /\ teq a c = false.
Proof. exists [1; 1]%Z, [2; 0]%Z, [0; 1]%Z. repeat split. Qed.

Print Assumptions C35_front.
Print Assumptions C35_order.
Print Assumptions C35_extreme.
Print Assumptions C35_best_fit.
Print Assumptions C35_before_finalize.
Print Assumptions C35_before_finalize_refuted.
Print Assumptions C35_last_best_refuted.
Print Assumptions C35_equality_refuted.
