(** Monte Carlo tree search: simulation, back-propagation and whole runs. *)
From Coq Require Import List Bool Arith QArith Lia Lqa Permutation.
From Verif Require Import Py PyList PyMore MctsModel MctsSpec MctsProofs MctsTreeProofs.
Import ListNotations.
Local Open Scope nat_scope.

Section P.
Context {St Act : Type} {ES : PyEq St} {EA : PyEq Act}.
Notation snode := (@snode St Act).
Notation anode := (@anode St).
Notation gph := (list (St * snode)).
Variable applicable : St -> list Act.
Variable next : St -> Act -> list (St * Q).
Variable reward : St -> Act -> St -> Q.
Variable terminal : St -> bool.
Variable heuristic : St -> Q * nat.
Variable bonus : nat -> nat -> Q.
Variable discount : Q.
Variable max_depth : nat.
Variable draw : nat -> list Q -> nat.
Variable policy : nat -> St -> res Act.
Variable sample : nat -> St -> Act -> St * Q * bool.
Variable shuf : forall X : Type, nat -> list X -> list X.
Variable late : nat -> bool.
Variable P : Q -> Prop.
Hypothesis Hdraw : forall t ws, ws <> [] -> draw t ws < length ws.
Hypothesis Hshuf : forall X t l, Permutation (shuf X t l) l.
Hypothesis Pos : forall s a k q, In a (applicable s) -> In (k, q) (next s a) -> (0 < q)%Q.
Hypothesis Hnext : forall s a, In a (applicable s) -> next s a <> [].
Hypothesis Hpol : forall t s, exists a, policy t s = Ok a.
Hypothesis Heur : forall k, 0 < snd (heuristic k) -> P (fst (heuristic k)).
Hypothesis Pext : forall x y, (x == y)%Q -> P x -> P y.
Hypothesis Pzero : P 0%Q.
Hypothesis Pavg : forall n v x, (0 < n -> P v) -> P x -> P (average n v x).
Hypothesis Pstep : forall s a s' q v, In a (applicable s) -> In (s', q) (next s a) -> P v -> P (reward s a s' + discount * v)%Q.
Hypothesis Psamp : forall t s a s' r b v, sample t s a = (s', r, b) -> P v -> P (r + discount * v)%Q.

(** * Simulation *)
Lemma rollout_ok : forall k t s gamma acc, exists t' v u, rollout discount policy sample k t s gamma acc = Ok (t', v) /\ (v == acc + gamma * u)%Q /\ P u.
Proof.
  induction k as [|k IH]; intros t s gamma acc; cbn [rollout].
  - exists t, acc, 0%Q. split; [reflexivity|]. split; [ring|exact Pzero].
  - destruct (Hpol t s) as [a ->]. cbn [bind]. destruct (sample (S t) s a) as [[s' r] stop] eqn:E. destruct stop.
    + exists (S (S t)), (acc + gamma * r)%Q, (r + discount * 0)%Q. split; [reflexivity|]. split; [ring|]. eapply Psamp; eauto.
    + destruct (IH (S (S t)) s' (gamma * discount)%Q (acc + gamma * r)%Q) as (t' & v & u & R & V & Pu). exists t', v, (r + discount * u)%Q.
      split; [exact R|]. split; [rewrite V; ring|]. eapply Psamp; eauto.
Qed.

(** * Back-propagation *)
Variable roots : list St.
Notation sound := (sound applicable next next reward terminal roots).

Record grown (g g1 : gph) : Prop := {
  w_same : same g g1;
  w_node : forall k n, node g k n -> exists n1, node g1 k n1 /\ s_n n <= s_n n1;
  w_act : forall k b an, anode_of g k b an -> exists an1, anode_of g1 k b an1 /\ a_n an <= a_n an1 }.
Lemma grown_refl : forall g, grown g g.
Proof. intros g. constructor; eauto. apply same_refl. Qed.
Lemma grown_trans : forall a b c, grown a b -> grown b c -> grown a c.
Proof.
  intros a b c [S1 A1 B1] [S2 A2 B2]. constructor; [eapply same_trans; eauto| |].
  - intros k n N. destruct (A1 k n N) as (n1 & N1 & L1). destruct (A2 k n1 N1) as (n2 & N2 & L2). exists n2. split; [auto|lia].
  - intros k d an K. destruct (B1 k d an K) as (n1 & N1 & L1). destruct (B2 k d n1 N1) as (n2 & N2 & L2). exists n2. split; [auto|lia].
Qed.
Lemma anode_inj : forall (g : gph) k b an an', anode_of g k b an -> anode_of g k b an' -> an = an'.
Proof. intros g k b an an' (n & N & D) (n' & N' & D'). unfold node in *. congruence. Qed.
Lemma grown_back : forall g g1 k b an1, grown g g1 -> anode_of g1 k b an1 -> exists an, anode_of g k b an /\ a_out an1 = a_out an /\ a_n an <= a_n an1.
Proof.
  intros g g1 k b an1 G K1. destruct (same_anode _ _ _ _ _ (same_sym _ _ (w_same _ _ G)) K1) as (an & K & O). exists an. split; auto. split; auto.
  destruct (w_act _ _ G k b an K) as (an2 & K2 & L). rewrite (anode_inj _ _ _ _ _ K1 K2). exact L.
Qed.

(** The parent action of a frontier state. *)
Lemma parent_ok : forall g f p a an n, sound g -> visits_ok g -> bounded P g -> node g f n -> 0 < s_n n -> anode_of g p a an -> In f (dkeys (a_out an)) -> forall fr,
  exists g1, backup_parent discount f (g, fr) (p, a) = Ok (g1, pyadd fr p) /\ grown g g1 /\ visits_ok g1 /\ bounded P g1 /\
    (exists n1, node g1 p n1 /\ 0 < s_n n1) /\ (exists an1, anode_of g1 p a an1 /\ 0 < a_n an1).
Proof.
  intros g f p a an n So Vo [B1 B2] N Ln K If fr. destruct K as (m & Nm & Dm). unfold backup_parent, act_of. cbn [fst snd].
  rewrite (proj2 (dgetE_ok g p m) Nm). cbn [bind]. rewrite (proj2 (dgetE_ok _ a an) Dm). cbn [bind].
  pose proof If as If'. rewrite dget_keys in If'. destruct If' as [[[r c] w] Do]. rewrite (proj2 (dgetE_ok _ f _) Do). cbn [bind].
  rewrite (proj2 (dgetE_ok g f n) N). cbn [bind fst snd]. set (an1 := visit_act an (r + discount * s_val n)%Q).
  set (up := fun m0 : snode => visit (set_acts m0 (upd (s_acts m0) a (fun _ => an1))) (a_val an1)). exists (upd g p up). split; [reflexivity|].
  assert (Kan : anode_of g p a an) by (exists m; auto).
  assert (Pa : P (a_val an1)).
  { unfold an1. cbn [a_val visit_act]. apply Pavg; [intros L; eapply B2; eauto|]. pose proof (act_applicable _ _ _ _ _ _ _ _ _ So Kan) as Ha.
    destruct (o_out _ _ _ _ _ _ _ So p a an Kan) as [Z|C]; [rewrite Z in If; destruct If|]. destruct C as (_ & Ck & Cv).
    destruct (Cv f r c w Do) as [Er _]. apply Ck in If. apply in_map_iff in If as ([f' q] & Ef & Iq). cbn in Ef. subst f'.
    eapply Pext; [|eapply (Pstep p a f q (s_val n)); eauto]. rewrite Er. reflexivity. }
  assert (Nd : forall k n1, node (upd g p up) k n1 -> node g k n1 \/ k = p /\ n1 = up m).
  { intros k n1 N1. unfold node in *. rewrite dget_upd in N1. destruct (pyeqb_spec p k) as [<-|]; [|auto]. rewrite Nm in N1. injection N1 as <-. auto. }
  assert (Np : node (upd g p up) p (up m)).
  { unfold node in *. rewrite dget_upd, pyeqb_refl, Nm. reflexivity. }
  assert (An : forall k b x, anode_of (upd g p up) k b x -> anode_of g k b x \/ k = p /\ b = a /\ x = an1).
  { intros k b x (n1 & N1 & D1). destruct (Nd k n1 N1) as [N0|(-> & ->)]; [left; exists n1; auto|]. cbn [up visit set_acts s_acts] in D1.
    rewrite dget_upd in D1. destruct (pyeqb_spec a b) as [<-|].
    - rewrite Dm in D1. injection D1 as <-. auto.
    - left. exists m. auto. }
  assert (Ka : anode_of (upd g p up) p a an1).
  { exists (up m). split; [exact Np|]. cbn [up visit set_acts s_acts]. rewrite dget_upd, pyeqb_refl, Dm. reflexivity. }
  split; [|split; [|split; [split|split]]].
  - constructor.
    + apply same_upd. intros m' Nm'. assert (m' = m) by (unfold node in *; congruence). subst m'. constructor; cbn [up visit set_acts s_acts s_term s_exp s_par]; auto.
      * apply dkeys_upd.
      * intros b. rewrite dget_upd. destruct (pyeqb_spec a b) as [<-|]; [|reflexivity]. rewrite Dm. reflexivity.
    + intros k n1 N1. unfold node. rewrite dget_upd, N1. destruct (pyeqb p k); cbn [option_map]; eexists; (split; [reflexivity|cbn; lia]).
    + intros k b x (n1 & N1 & D1). destruct (py_dec p k) as [<-|Ne].
      * assert (n1 = m) by (unfold node in *; congruence). subst n1. destruct (py_dec a b) as [<-|Nb].
        -- exists an1. split; [exact Ka|]. rewrite Dm in D1. injection D1 as <-. cbn. lia.
        -- exists x. split; [|lia]. exists (up m). split; [exact Np|]. cbn [up visit set_acts s_acts]. rewrite dget_upd. destruct (pyeqb_spec a b); [contradiction|exact D1].
      * exists x. split; [|lia]. exists n1. split; auto. unfold node in *. rewrite dget_upd. destruct (pyeqb_spec p k); [contradiction|exact N1].
  - intros k b x Kx Lx. destruct (An k b x Kx) as [K0|(-> & -> & ->)]; [eauto|]. cbn. intros Z. rewrite Z in If. destruct If.
  - intros k n1 N1 L1. destruct (Nd k n1 N1) as [N0|(-> & ->)]; [eauto|]. cbn [up visit set_acts s_val s_n]. apply Pavg; [intros L; eapply B1; eauto|exact Pa].
  - intros k b x Kx Lx. destruct (An k b x Kx) as [K0|(-> & -> & ->)]; [eauto|exact Pa].
  - exists (up m). split; [exact Np|cbn; lia].
  - exists an1. split; [exact Ka|cbn; lia].
Qed.

(** What holds of a graph and a frontier during back-propagation from [g0]. *)
Record backing (g0 : gph) (acc : gph * list St) : Prop := {
  y_grown : grown g0 (fst acc);
  y_visits : visits_ok (fst acc);
  y_bound : bounded P (fst acc);
  y_front : forall x, In x (snd acc) -> exists n, node (fst acc) x n /\ 0 < s_n n }.
Definition tried (g : gph) (p : St) (a : Act) : Prop := exists an, anode_of g p a an /\ 0 < a_n an.
Lemma tried_grown : forall g g1 p a, grown g g1 -> tried g p a -> tried g1 p a.
Proof. intros g g1 p a G (an & K & L). destruct (w_act _ _ G p a an K) as (an1 & K1 & L1). exists an1. split; [auto|lia]. Qed.
Lemma seen_grown : forall (g g1 : gph) f, grown g g1 -> (exists n, node g f n /\ 0 < s_n n) -> exists n, node g1 f n /\ 0 < s_n n.
Proof. intros g g1 f G (n & N & L). destruct (w_node _ _ G f n N) as (n1 & N1 & L1). exists n1. split; [auto|lia]. Qed.

Lemma state_ok : forall g0 t acc f, sound g0 -> backing g0 acc -> (exists n, node (fst acc) f n /\ 0 < s_n n) ->
  exists acc1, backup_state discount shuf t acc f = Ok acc1 /\ backing g0 acc1 /\ grown (fst acc) (fst acc1) /\
    (forall p a an, anode_of g0 p a an -> In f (dkeys (a_out an)) -> tried (fst acc1) p a).
Proof.
  intros g0 t acc f So0 Ba (n & N & Ln). unfold backup_state. rewrite (proj2 (dgetE_ok _ f n) N). cbn [bind].
  pose proof (sound_same _ _ _ _ _ _ _ _ (w_same _ _ (y_grown _ _ Ba)) So0) as So.
  destruct (@foldM_total _ _ (backup_parent discount f)
    (fun done x => backing g0 x /\ grown (fst acc) (fst x) /\ forall p a, In (p, a) done -> tried (fst x) p a) (shuf _ t (s_par n)) acc)
    as (acc1 & E & Ba1 & G1 & T1).
  - split; auto. split; [apply grown_refl|intros p a []].
  - intros l0 [p a] l1 [g fr] El (Ba1 & G1 & T1). cbn [fst snd] in *. pose proof (sound_same _ _ _ _ _ _ _ _ (w_same _ _ G1) So) as Sog.
    assert (Ip : In (p, a) (s_par n)).
    { eapply Permutation_in; [apply Hshuf|]. rewrite El. apply in_or_app. right. left. reflexivity. }
    destruct (w_node _ _ G1 f n N) as (n1 & N1 & L1). apply (o_par _ _ _ _ _ _ _ So f n p a N) in Ip as (an & K & If).
    destruct (same_anode _ _ _ _ _ (w_same _ _ G1) K) as (an1 & K1 & O1). destruct Ba1 as [C1 C2 C3 C4]. cbn [fst snd] in *.
    destruct (parent_ok g f p a an1 n1 Sog C2 C3 N1 ltac:(lia) K1 ltac:(now rewrite O1) fr) as (g1 & E1 & Gg & V & B & Ns & Ts).
    exists (g1, pyadd fr p). split; [exact E1|]. cbn [fst snd]. split; [|split].
    + constructor; cbn [fst snd]; auto; [eapply grown_trans; eauto|]. intros x Ix. rewrite pyadd_In in Ix. destruct Ix as [->|Ix]; [exact Ns|]. eapply seen_grown; eauto.
    + eapply grown_trans; eauto.
    + intros p' a' I. apply in_app_or in I as [I|[I|[]]]; [eapply tried_grown; eauto|]. injection I as <- <-. exact Ts.
  - exists acc1. split; [exact E|]. split; auto. split; auto. intros p a an K If. apply T1.
    eapply Permutation_in; [apply Permutation_sym, Hshuf|]. apply (o_par _ _ _ _ _ _ _ So f n p a N).
    destruct (same_anode _ _ _ _ _ (w_same _ _ (y_grown _ _ Ba)) K) as (an1 & K1 & O1). exists an1. split; auto. now rewrite O1.
Qed.

Lemma level_ok : forall g t fr, sound g -> backing g (g, fr) ->
  exists acc1, foldM (backup_state discount shuf t) (g, []) (shuf _ t fr) = Ok acc1 /\ backing g acc1 /\
    (forall f p a an, In f fr -> anode_of g p a an -> In f (dkeys (a_out an)) -> tried (fst acc1) p a).
Proof.
  intros g t fr So Ba. destruct (@foldM_total _ _ (backup_state discount shuf t)
    (fun done x => backing g x /\ forall f p a an, In f done -> anode_of g p a an -> In f (dkeys (a_out an)) -> tried (fst x) p a) (shuf _ t fr) (g, [])) as (acc1 & E & Ba1 & T1).
  - split; [|intros f p a an []]. destruct Ba as [C1 C2 C3 _]. constructor; auto. intros x [].
  - intros l0 f l1 x El (Bx & Tx). assert (If : In f fr).
    { eapply Permutation_in; [apply Hshuf|]. rewrite El. apply in_or_app. right. left. reflexivity. }
    destruct (state_ok g t x f So Bx) as (x1 & E1 & Bx1 & Gx1 & Tx1).
    { eapply seen_grown; [exact (y_grown _ _ Bx)|]. exact (y_front _ _ Ba f If). }
    exists x1. split; [exact E1|]. split; auto. intros f' p a an I K Io. apply in_app_or in I as [I|[<-|[]]]; [|eauto]. eapply tried_grown; eauto.
  - exists acc1. split; auto. split; auto. intros f p a an I. apply T1. eapply Permutation_in; [apply Permutation_sym, Hshuf|exact I].
Qed.

Lemma backup_ok : forall k t g fr, sound g -> backing g (g, fr) ->
  exists g1 t1, backup discount shuf k t g fr = Ok (g1, t1) /\ grown g g1 /\ visits_ok g1 /\ bounded P g1 /\
    (0 < k -> forall f p a an, In f fr -> anode_of g p a an -> In f (dkeys (a_out an)) -> tried g1 p a).
Proof.
  induction k as [|k IH]; intros t g fr So Ba.
  - exists g, t. cbn [backup]. split; [reflexivity|]. destruct Ba as [C1 C2 C3 _]. split; [apply grown_refl|]. split; auto. split; auto. lia.
  - destruct fr as [|f0 fr].
    + exists g, t. cbn [backup]. split; [reflexivity|]. destruct Ba as [C1 C2 C3 _]. split; [apply grown_refl|]. split; auto. split; auto. intros _ f p a an [].
    + cbn [backup]. destruct (level_ok g t (f0 :: fr) So Ba) as ([g1 fr1] & E & Ba1 & T). rewrite E. cbn [bind fst snd] in *.
      pose proof (y_grown _ _ Ba1) as G1. cbn [fst] in G1. pose proof (sound_same _ _ _ _ _ _ _ _ (w_same _ _ G1) So) as So1.
      destruct (IH (S t) g1 fr1 So1) as (g2 & t2 & E2 & G2 & V2 & B2 & _).
      { destruct Ba1 as [C1 C2 C3 C4]. constructor; auto. apply grown_refl. }
      exists g2, t2. split; [exact E2|]. split; [eapply grown_trans; eauto|]. split; auto. split; auto. intros _ f p a an I K Io. eapply tried_grown; eauto.
Qed.

(** * One rollout *)
(** The invariant between rollouts. *)
Record good (g : gph) : Prop := { g_sound : sound g; g_visits : visits_ok g; g_all : all_visited g; g_bound : bounded P g }.
Record later (g g1 : gph) : Prop := {
  l_node : forall k n, node g k n -> exists n1, node g1 k n1 /\ s_n n <= s_n n1 /\ s_term n1 = s_term n;
  l_act : forall k b an, anode_of g k b an -> exists an1, anode_of g1 k b an1 /\ a_n an <= a_n an1 /\ incl (dkeys (a_out an)) (dkeys (a_out an1));
  l_new : forall R : St -> Prop, (forall k, dmem g k = true -> R k) -> (forall p b an k, R p -> anode_of g1 p b an -> In k (dkeys (a_out an)) -> R k) ->
    forall k, dmem g1 k = true -> R k }.
Lemma later_refl : forall g, later g g.
Proof. intros g. constructor; eauto. intros k b an K. exists an. split; auto. split; [auto|apply incl_refl]. Qed.
Lemma later_trans : forall a b c, later a b -> later b c -> later a c.
Proof.
  intros a b c [A1 B1 C1] [A2 B2 C2]. constructor.
  - intros k n N. destruct (A1 k n N) as (n1 & N1 & L1 & T1). destruct (A2 k n1 N1) as (n2 & N2 & L2 & T2). exists n2. split; [auto|split; [lia|congruence]].
  - intros k d an K. destruct (B1 k d an K) as (n1 & N1 & L1 & I1). destruct (B2 k d n1 N1) as (n2 & N2 & L2 & I2). exists n2. split; [auto|]. split; [lia|].
    eapply incl_tran; eauto.
  - intros R Ra Rc. apply C2; auto. apply C1; auto. intros p d an k Rp K I. destruct (B2 p d an K) as (an2 & K2 & _ & I2). eapply Rc; eauto.
Qed.
Lemma grown_later : forall g g1, grown g g1 -> later g g1.
Proof.
  intros g g1 G. constructor; cycle 1.
  { intros k b an K. destruct (w_act _ _ G k b an K) as (an1 & K1 & L1). exists an1. split; auto. split; auto.
    destruct (same_anode _ _ _ _ _ (w_same _ _ G) K) as (an2 & K2 & O2). rewrite (anode_inj _ _ _ _ _ K1 K2), O2. apply incl_refl. }
  { intros R Ra _ k D. apply Ra. rewrite <- (same_dmem _ _ k (w_same _ _ G)). exact D. }
  intros k n N. destruct (w_node _ _ G k n N) as (n1 & N1 & L). exists n1. split; auto. split; auto.
  destruct (proj2 (w_same _ _ G) k n N) as (n2 & N2 & Lk). assert (n1 = n2) by (unfold node in *; congruence). subst n2. exact (k_term _ _ Lk).
Qed.
Lemma moved_later : forall g g1 : gph, moved g g1 -> later g g1.
Proof.
  intros g g1 M. constructor.
  - intros k n N. destruct (m_node _ _ M k n N) as (n1 & N1 & E & T). exists n1. split; auto. split; [lia|auto].
  - intros k b an K. destruct (m_act _ _ M k b an K) as (an1 & K1 & E & I). exists an1. split; [auto|]. split; [lia|auto].
  - exact (m_new _ _ M).
Qed.

Notation one_rollout := (one_rollout applicable next reward terminal heuristic bonus discount max_depth draw policy sample shuf).
Notation rollouts := (rollouts applicable next reward terminal heuristic bonus discount max_depth draw policy sample shuf late).
Notation solve := (solve applicable next reward terminal heuristic bonus discount max_depth draw policy sample shuf late).

Lemma one_ok : forall g t root, good g -> dmem g root = true ->
  exists g1 t1, one_rollout g t root = Ok (g1, t1) /\ good g1 /\ later g g1 /\
    (0 < max_depth -> (forall n, node g root n -> s_term n = false) -> applicable root <> [] -> exists a, tried g1 root a).
Proof.
  intros g t root [So Vo Va Bo] D. unfold MctsModel.one_rollout.
  destruct (descend_ok applicable next reward terminal heuristic bonus draw shuf P Hdraw Hshuf Pos Hnext Heur roots max_depth g t root So Vo Va Bo D)
    as (g1 & t1 & s & k & E & So1 & Vo1 & Bo1 & Mv & Ds & Lk & Re & Pr).
  rewrite E. cbn [bind]. pose proof Ds as Ds0. apply dmem_get in Ds0 as [n N]. rewrite (proj2 (dgetE_ok g1 s n) N). cbn [bind].
  destruct (rollout_ok k t1 s 1%Q 0%Q) as (t2 & v & u & R & V & Pu). rewrite R. cbn [bind fst snd].
  assert (Pv : P v) by (eapply Pext; [|exact Pu]; rewrite V; ring). set (vis := fun n0 : snode => visit n0 v).
  assert (Gr : grown g1 (upd g1 s vis)).
  { constructor.
    - apply same_upd. intros m _. constructor; reflexivity.
    - intros k0 m Nm. unfold node in *. rewrite dget_upd, Nm. destruct (pyeqb s k0); cbn [option_map]; eexists; (split; [reflexivity|cbn; lia]).
    - intros k0 b an (m & Nm & Dm). exists an. split; [|lia]. unfold anode_of, node in *. rewrite dget_upd, Nm. destruct (pyeqb s k0); cbn; eauto. }
  assert (Nd : forall k0 n1, node (upd g1 s vis) k0 n1 -> exists m, node g1 k0 m /\ s_acts n1 = s_acts m /\ (n1 = m \/ n1 = vis m)).
  { intros k0 n1 N1. unfold node in *. rewrite dget_upd in N1. destruct (pyeqb s k0); [|eauto]. destruct (dget g1 k0) as [m|]; [|discriminate].
    injection N1 as <-. exists m. auto. }
  assert (An : forall k0 b an, anode_of (upd g1 s vis) k0 b an -> anode_of g1 k0 b an).
  { intros k0 b an (n1 & N1 & D1). destruct (Nd k0 n1 N1) as (m & Nm & Ea & _). rewrite Ea in D1. exists m. auto. }
  pose proof (sound_same _ _ _ _ _ _ _ _ (w_same _ _ Gr) So1) as So2.
  destruct (backup_ok (S max_depth) t2 (upd g1 s vis) [s] So2) as (g3 & t3 & E3 & G3 & V3 & B3 & T3).
  { constructor; cbn [fst snd].
    - apply grown_refl.
    - intros k0 b an K L. apply An in K. eauto.
    - destruct Bo1 as [B1 B2]. split; [|intros k0 b an K L; apply An in K; eauto]. intros k0 n1 N1 L1. destruct (Nd k0 n1 N1) as (m & Nm & _ & [-> | ->]); [eauto|].
      cbn [vis visit s_val]. apply Pavg; [intros L; eapply B1; eauto|exact Pv].
    - intros x [<-|[]]. exists (vis n). split; [|cbn; lia]. unfold node in *. rewrite dget_upd, pyeqb_refl, N. reflexivity. }
  rewrite E3. assert (G13 : grown g1 g3) by (eapply grown_trans; eauto).
  assert (All : all_visited g3).
  { intros k0 b an3 K3 O3. destruct (grown_back _ _ _ _ _ G13 K3) as (an & K & Oe & L). rewrite Oe in O3. destruct Re as [Va1|(p & a & anp & Kp & Ip & Vb)].
    - pose proof (Va1 k0 b an K O3). lia.
    - destruct (py_dec (k0, b) (p, a)) as [Eq|Ne]; [|pose proof (Vb k0 b an K Ne O3); lia]. injection Eq as -> ->.
      destruct (w_act _ _ Gr p a anp Kp) as (an2 & K2 & _). destruct (T3 ltac:(lia) s p a an2 (or_introl eq_refl) K2) as (an4 & K4 & L4).
      { destruct (same_anode _ _ _ _ _ (w_same _ _ Gr) Kp) as (an5 & K5 & O5). rewrite (anode_inj _ _ _ _ _ K2 K5), O5. exact Ip. }
      rewrite (anode_inj _ _ _ _ _ K3 K4). exact L4. }
  exists g3, t3. split; [reflexivity|]. split; [|split].
  - constructor; auto. exact (sound_same _ _ _ _ _ _ _ _ (w_same _ _ G13) So1).
  - eapply later_trans; [apply moved_later; exact Mv|apply grown_later; exact G13].
  - intros Lm Ht Ap. destruct (Pr Lm Ht Ap) as (a & an & K & O). exists a. destruct (same_anode _ _ _ _ _ (w_same _ _ G13) K) as (an3 & K3 & O3).
    exists an3. split; auto. apply (All root a an3 K3). now rewrite O3.
Qed.

Lemma linked_later : forall g g1 rs, later g g1 -> linked rs g -> linked rs g1.
Proof.
  intros g g1 rs L Li k D. revert k D. apply (l_new _ _ L).
  - intros k D. specialize (Li k D). clear D. induction Li as [k I|p b an k Gp IH K I]; [now apply G_root|].
    destruct (l_act _ _ L p b an K) as (an1 & K1 & _ & I1). eapply G_step; eauto.
  - intros p b an k Gp K I. eapply G_step; eauto.
Qed.
Lemma dmem_later : forall g g1 k, later g g1 -> dmem g k = true -> dmem g1 k = true.
Proof. intros g g1 k L D. apply dmem_get in D as [n N]. destruct (l_node _ _ L k n N) as (n1 & N1 & _). apply dmem_get. eauto. Qed.

Lemma rollouts_ok : forall k x root, good (graph x) -> dmem (graph x) root = true ->
  exists x1, rollouts k x root = Ok x1 /\ good (graph x1) /\ later (graph x) (graph x1) /\ current x1 = current x /\ prefix x1 = prefix x /\
    nb_rollouts x <= nb_rollouts x1 <= nb_rollouts x + k /\ (forall j, nb_rollouts x <= j < nb_rollouts x1 -> late j = false) /\
    (nb_rollouts x1 = nb_rollouts x + k \/ late (nb_rollouts x1) = true) /\
    (nb_rollouts x < nb_rollouts x1 -> 0 < max_depth -> (forall n, node (graph x) root n -> s_term n = false) -> applicable root <> [] -> exists a, tried (graph x1) root a).
Proof.
  induction k as [|k IH]; intros x root G D; cbn [MctsModel.rollouts].
  - exists x. split; [reflexivity|]. split; auto. split; [apply later_refl|]. split; auto. split; auto. split; [lia|]. split; [intros; lia|]. split; [left; lia|]. intros; lia.
  - destruct (late (nb_rollouts x)) eqn:El.
    { exists x. split; [reflexivity|]. split; auto. split; [apply later_refl|]. split; auto. split; auto. split; [lia|]. split; [intros; lia|]. split; [right; auto|]. intros; lia. }
    destruct (one_ok (graph x) (tick x) root G D) as (g1 & t1 & E & G1 & L1 & T1). rewrite E. cbn [bind fst snd].
    destruct (IH (MC g1 t1 (current x) (prefix x) (S (nb_rollouts x))) root G1 (dmem_later _ _ _ L1 D)) as (x1 & E1 & G2 & L2 & C2 & P2 & B2 & Q2 & W2 & T2).
    cbn [graph current prefix nb_rollouts] in *. exists x1. split; [exact E1|]. split; auto. split; [eapply later_trans; eauto|]. split; auto. split; auto. split; [lia|].
    split; [|split].
    + intros j Lj. destruct (Nat.eq_dec j (nb_rollouts x)) as [->|]; [exact El|]. apply Q2. lia.
    + destruct W2 as [W2|W2]; [left; lia|right; exact W2].
    + intros _ Lm Ht Ap. destruct (T1 Lm Ht Ap) as (a & an & K & L). destruct (l_act _ _ L2 root a an K) as (an1 & K1 & La & _). exists a, an1. split; [auto|lia].
Qed.
End P.

(** A new root. *)
Section Root.
Context {St Act : Type} {ES : PyEq St} {EA : PyEq Act}.
Notation snode := (@snode St Act).
Notation gph := (list (St * snode)).
Lemma root_good : forall applicable next reward terminal P roots (g : gph) s,
  good applicable next reward terminal P roots g ->
  good applicable next reward terminal P (roots ++ [s]) (if dmem g s then g else g ++ [(s, new_node)]).
Proof.
  intros applicable next reward terminal P roots g s [So Vo Va Bo].
  assert (Mon : forall k, reachable applicable next roots k -> reachable applicable next (roots ++ [s]) k).
  { intros k R. induction R as [k I|k a k' p R IH I1 I2]; [apply Reach_root, in_or_app; auto|eapply Reach_step; eauto]. }
  destruct (dmem g s) eqn:D.
  - constructor; auto. destruct So as [A B C E F G H I J K]. constructor; auto.
    + intros k Ik. apply in_app_or in Ik as [Ik|[<-|[]]]; auto.
    + intros k n N. destruct (I k n N) as [T|[T Ik]]; [left; auto|right; split; auto; apply in_or_app; auto].
  - assert (Nd : forall k n, node (g ++ [(s, new_node)]) k n -> node g k n /\ k <> s \/ k = s /\ n = new_node).
    { intros k n N. unfold node in *. rewrite dget_snoc in N; auto. destruct (pyeqb_spec s k) as [Eq|Ne].
      - injection N as <-. right. auto.
      - left. split; auto. }
    assert (Nb : forall k n, node g k n -> node (g ++ [(s, new_node)]) k n).
    { intros k n N. unfold node in *. rewrite dget_snoc; auto. destruct (pyeqb_spec s k) as [Eq|Ne]; auto. subst k. exfalso.
      assert (T : dmem g s = true) by (apply dmem_get; eauto). congruence. }
    assert (An : forall k b an, anode_of (g ++ [(s, new_node)]) k b an <-> anode_of g k b an).
    { intros k b an. split; intros (n & N & Da).
      - destruct (Nd k n N) as [[N0 _]|[-> ->]]; [exists n; auto|discriminate].
      - exists n. split; auto. }
    constructor.
    + destruct So as [A B C E F G H I J K]. constructor.
      * unfold dkeys. rewrite map_app. cbn. apply NoDup_snoc; auto. fold (dkeys g). intros In0. apply dmem_true in In0. congruence.
      * intros k Ik. apply in_app_or in Ik as [Ik|[<-|[]]].
        -- specialize (B k Ik). apply dmem_get in B as [n N]. apply dmem_get. exists n. apply Nb. exact N.
        -- apply dmem_get. exists new_node. rewrite dget_snoc; auto. now rewrite pyeqb_refl.
      * intros k Dk. apply dmem_get in Dk as [n N]. destruct (Nd k n N) as [[N0 _]|[-> _]].
        -- apply Mon, C, dmem_get. exists n. exact N0.
        -- apply Reach_root, in_or_app. right. left. reflexivity.
      * intros k n N. destruct (Nd k n N) as [[N0 _]|[-> ->]]; [auto|left; reflexivity].
      * intros k b an Ka. apply An in Ka. auto.
      * intros k b an k' Ka Ik. apply An in Ka. specialize (G k b an k' Ka Ik). apply dmem_get in G as [n N]. apply dmem_get. exists n. apply Nb. exact N.
      * intros k' n k b N. destruct (Nd k' n N) as [[N0 _]|[-> ->]].
        -- rewrite (H k' n k b N0). split; intros (an & Ka & Ik); exists an; (split; [now apply An|auto]).
        -- split; [intros []|]. intros (an & Ka & Ik). apply An in Ka. specialize (G k b an s Ka Ik). congruence.
      * intros k n N. destruct (Nd k n N) as [[N0 _]|[-> ->]].
        -- destruct (I k n N0) as [T|[T Ik]]; [left; auto|right; split; auto; apply in_or_app; auto].
        -- right. split; auto. apply in_or_app. right. left. reflexivity.
      * intros k n b an N X Da. destruct (Nd k n N) as [[N0 _]|[-> ->]]; [eauto|discriminate].
      * intros k n N X Z. destruct (Nd k n N) as [[N0 _]|[-> ->]]; [eauto|discriminate].
    + intros k b an Ka. apply An in Ka. eauto.
    + intros k b an Ka. apply An in Ka. eauto.
    + destruct Bo as [B1 B2]. split; [|intros k b an Ka; apply An in Ka; eauto]. intros k n N L. destruct (Nd k n N) as [[N0 _]|[-> ->]]; [eauto|cbn in L; lia].
Qed.
Lemma empty_good : forall applicable next reward terminal P, good applicable next reward terminal P [] ([] : gph).
Proof.
  intros. constructor.
  - constructor; try (intros; unfold node in *; cbn in *; discriminate); try (intros s a an (n & N & _); unfold node in N; discriminate).
    + constructor. + intros s []. + intros s a an s' (n & N & _). unfold node in N. discriminate.
  - intros s a an (n & N & _). unfold node in N. discriminate.
  - intros s a an (n & N & _). unfold node in N. discriminate.
  - split; [intros k n N; unfold node in N; discriminate|intros s a an (n & N & _); unfold node in N; discriminate].
Qed.
End Root.
