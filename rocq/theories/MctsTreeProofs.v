(** Monte Carlo tree search: the expander and the tree policy. *)
From Coq Require Import List Bool Arith QArith Lia Permutation.
From Verif Require Import Py PyList PyMore MctsModel MctsSpec MctsProofs.
Import ListNotations.
Local Open Scope nat_scope.

Lemma mapM_exists : forall A B (f : A -> res B) (R : A -> B -> Prop) l, (forall x, In x l -> exists y, f x = Ok y /\ R x y) ->
  exists l', mapM f l = Ok l' /\ Forall2 R l l'.
Proof.
  intros A B f R l. induction l as [|x l IH]; intros H; [exists []; split; [reflexivity|constructor]|].
  destruct (H x (or_introl eq_refl)) as (y & E & Ry). destruct IH as (l' & E' & F); [intros z I; apply H; right; exact I|].
  exists (y :: l'). cbn [mapM]. rewrite E. cbn [bind]. rewrite E'. split; [reflexivity|constructor; auto].
Qed.
Lemma Forall2_In_r : forall A B (R : A -> B -> Prop) l l' y, Forall2 R l l' -> In y l' -> exists x, In x l /\ R x y.
Proof. intros A B R l l' y F. induction F as [|x y' l l' Rx F IH]; intros [].
  - subst. exists x. split; [left; reflexivity|auto].
  - destruct IH as (z & Iz & Rz); auto. exists z. split; [right; auto|auto].
Qed.
Lemma Forall2_In_l : forall A B (R : A -> B -> Prop) l l' x, Forall2 R l l' -> In x l -> exists y, In y l' /\ R x y.
Proof. intros A B R l l' x F. induction F as [|x' y l l' Rx F IH]; intros [].
  - subst. exists y. split; [left; reflexivity|auto].
  - destruct IH as (z & Iz & Rz); auto. exists z. split; [right; auto|auto].
Qed.

Section P.
Context {St Act : Type} {ES : PyEq St} {EA : PyEq Act}.
Notation snode := (@snode St Act).
Notation anode := (@anode St).
Notation gph := (list (St * snode)).
Variable applicable : St -> list Act.
Variable next : St -> Act -> list (St * Q).
Variable reward : St -> Act -> St -> Q.
Variable terminal : St -> bool.
Variable heuristic : St -> Q * nat.
Variable bonus : nat -> nat -> Q.
Variable draw : nat -> list Q -> nat.
Variable shuf : forall X : Type, nat -> list X -> list X.
Variable P : Q -> Prop.
Hypothesis Hdraw : forall t ws, ws <> [] -> draw t ws < length ws.
Hypothesis Hshuf : forall X t l, Permutation (shuf X t l) l.
Hypothesis Pos : forall s a k q, In a (applicable s) -> In (k, q) (next s a) -> (0 < q)%Q.
Hypothesis Hnext : forall s a, In a (applicable s) -> next s a <> [].
Hypothesis Heur : forall k, 0 < snd (heuristic k) -> P (fst (heuristic k)).
Variable roots : list St.
Notation sound := (sound applicable next next reward terminal roots).

(** What a part of a rollout does not undo. *)
Record moved (g g1 : gph) : Prop := {
  m_node : forall k n, node g k n -> exists n1, node g1 k n1 /\ s_n n1 = s_n n /\ s_term n1 = s_term n;
  m_act : forall k b an, anode_of g k b an -> exists an1, anode_of g1 k b an1 /\ a_n an1 = a_n an /\ incl (dkeys (a_out an)) (dkeys (a_out an1));
  m_new : forall R : St -> Prop, (forall k, dmem g k = true -> R k) -> (forall p b an k, R p -> anode_of g1 p b an -> In k (dkeys (a_out an)) -> R k) ->
    forall k, dmem g1 k = true -> R k }.
Lemma moved_refl : forall g, moved g g.
Proof. intros g. constructor; eauto. intros k b an K. exists an. split; auto. split; [auto|apply incl_refl]. Qed.
Lemma moved_trans : forall a b c, moved a b -> moved b c -> moved a c.
Proof.
  intros a b c [A1 A2 A3] [B1 B2 B3]. constructor.
  - intros k n N. destruct (A1 k n N) as (n1 & N1 & E1 & T1). destruct (B1 k n1 N1) as (n2 & N2 & E2 & T2). exists n2. split; [auto|split; congruence].
  - intros k d an K. destruct (A2 k d an K) as (n1 & N1 & E1 & O1). destruct (B2 k d n1 N1) as (n2 & N2 & E2 & O2). exists n2. split; [auto|split; [congruence|eapply incl_tran; eauto]].
  - intros R Ra Rc. apply B3; auto. apply A3; auto. intros p d an k Rp K I. destruct (B2 p d an K) as (an2 & K2 & _ & I2). eapply Rc; eauto.
Qed.
Lemma moved_dmem : forall g g1 k, moved g g1 -> dmem g k = true -> dmem g1 k = true.
Proof. intros g g1 k M D. apply dmem_get in D as [n N]. destruct (m_node _ _ M k n N) as (n1 & N1 & _). apply dmem_get. eauto. Qed.

Lemma pick_ok : forall X t ws (l : list X), length ws = length l -> l <> [] -> exists x, pick draw t ws l = Ok x /\ In x l.
Proof.
  intros X t ws l L N. unfold pick. assert (W : ws <> []) by (destruct ws, l; [congruence|discriminate|discriminate|discriminate]).
  pose proof (Hdraw t ws W) as D. destruct (lget_lt l (i := draw t ws)) as [x E]; [lia|]. exists x. split; auto. eapply lget_In; eauto.
Qed.

Lemma acts_nodup : forall g s n, sound g -> node g s n -> NoDup (dkeys (s_acts n)).
Proof.
  intros g s n S N. destruct (o_acts _ _ _ _ _ _ _ S s n N) as [->|E]; [constructor|]. rewrite E. apply pyset_NoDup.
Qed.
Lemma act_applicable : forall g s a an, sound g -> anode_of g s a an -> In a (applicable s).
Proof.
  intros g s a an S (n & N & D). destruct (o_acts _ _ _ _ _ _ _ S s n N) as [E|E]; [rewrite E in D; discriminate|].
  apply (proj1 (pyset_In (applicable s) a)). rewrite <- E, dget_keys. eauto.
Qed.

(** * The action nodes are made *)
Lemma gen_get : forall g s k, dget (upd g s (gen_acts applicable s)) k = if pyeqb s k then option_map (gen_acts applicable s) (dget g k) else dget g k.
Proof. intros. apply dget_upd. Qed.
Lemma gen_fields : forall s n, let n1 := gen_acts applicable s n in
  s_term n1 = s_term n /\ s_exp n1 = s_exp n /\ s_par n1 = s_par n /\ s_n n1 = s_n n /\ s_val n1 = s_val n.
Proof. intros s n. unfold gen_acts. destruct (s_acts n); cbn; auto. Qed.
Lemma gen_dget : forall s n a an, dget (s_acts (gen_acts applicable s n)) a = Some an ->
  dget (s_acts n) a = Some an \/ s_acts n = [] /\ an = new_act /\ In a (applicable s).
Proof.
  intros s n a an D. unfold gen_acts in D. destruct (s_acts n) as [|x l] eqn:E; [|rewrite E in D; auto]. right. split; auto.
  cbn [s_acts set_acts] in D. rewrite dget_map_const in D. destruct (pymem a (pyset (applicable s))) eqn:M; [|discriminate]. injection D as <-. split; auto.
  apply (proj1 (pyset_In (applicable s) a)). now apply (proj1 (pymem_true a (pyset (applicable s)))).
Qed.
Lemma gen_keep : forall s n a an, dget (s_acts n) a = Some an -> dget (s_acts (gen_acts applicable s n)) a = Some an.
Proof. intros s n a an D. unfold gen_acts. destruct (s_acts n) as [|x l] eqn:E; [discriminate|]. rewrite E. exact D. Qed.

Lemma gen_node : forall g s k n1, node (upd g s (gen_acts applicable s)) k n1 -> exists n, node g k n /\ (n1 = n \/ k = s /\ n1 = gen_acts applicable s n).
Proof.
  intros g s k n1 N. unfold node in *. rewrite gen_get in N. destruct (pyeqb_spec s k) as [<-|]; [|eauto].
  destruct (dget g s) as [n|]; [|discriminate]. injection N as <-. exists n. auto.
Qed.
Lemma gen_anode : forall g s k b an, anode_of (upd g s (gen_acts applicable s)) k b an ->
  anode_of g k b an \/ an = new_act /\ k = s /\ In b (applicable s).
Proof.
  intros g s k b an (n1 & N1 & D). destruct (gen_node _ _ _ _ N1) as (n & N & [->|(-> & ->)]); [left; exists n; auto|].
  apply gen_dget in D as [D|(_ & -> & I)]; [left; exists n; auto|auto].
Qed.
Lemma gen_anode_back : forall g s k b an, anode_of g k b an -> anode_of (upd g s (gen_acts applicable s)) k b an.
Proof.
  intros g s k b an (n & N & D). unfold anode_of, node in *. rewrite gen_get, N. destruct (pyeqb_spec s k) as [<-|]; [|eauto].
  exists (gen_acts applicable s n). split; [reflexivity|]. now apply gen_keep.
Qed.
Lemma gen_moved : forall g s, moved g (upd g s (gen_acts applicable s)).
Proof.
  intros g s. constructor.
  - intros k n N. unfold node in *. rewrite gen_get, N. destruct (pyeqb s k); cbn; eauto. destruct (gen_fields s n) as (T & _ & _ & E & _). eauto.
  - intros k b an K. exists an. split; [now apply gen_anode_back|]. split; [auto|apply incl_refl].
  - intros R Ra _ k D. rewrite dmem_upd in D. auto.
Qed.
Lemma gen_sound : forall g s n, sound g -> node g s n -> s_exp n = false -> sound (upd g s (gen_acts applicable s)).
Proof.
  intros g s n0 So N0 X0. pose proof So as [A B C D E F G H I J]. constructor.
  - rewrite dkeys_upd. exact A.
  - intros k Ik. rewrite dmem_upd. auto.
  - intros k Dk. rewrite dmem_upd in Dk. auto.
  - intros k n1 N1. destruct (gen_node _ _ _ _ N1) as (n & N & [->|(-> & ->)]); [auto|]. unfold gen_acts. destruct (s_acts n) as [|x l] eqn:Ea.
    + right. cbn [s_acts set_acts]. unfold dkeys. rewrite map_map. cbn. apply map_id.
    + rewrite Ea. rewrite <- Ea. auto.
  - intros k b an K. apply gen_anode in K as [K|(-> & _)]; [auto|]. left. reflexivity.
  - intros k b an k' K Ik. rewrite dmem_upd. apply gen_anode in K as [K|(-> & _)]; [eauto|destruct Ik].
  - intros k' n1 k b N1. assert (Q : exists n, node g k' n /\ s_par n1 = s_par n).
    { destruct (gen_node _ _ _ _ N1) as (n & N & [->|(-> & ->)]); [eauto|]. exists n. split; auto. apply (gen_fields s n). }
    destruct Q as (n & N & ->). rewrite (G k' n k b N). split; intros (an & K & Ik).
    + exists an. split; auto. now apply gen_anode_back.
    + apply gen_anode in K as [K|(-> & _)]; [eauto|destruct Ik].
  - intros k n1 N1. destruct (gen_node _ _ _ _ N1) as (n & N & [->|(-> & ->)]); [auto|]. destruct (gen_fields s n) as (T & _). rewrite T. auto.
  - intros k n1 b an N1 X1 Da. destruct (gen_node _ _ _ _ N1) as (n & N & [->|(-> & ->)]); [eauto|]. destruct (gen_fields s n) as (_ & X & _).
    rewrite X in X1. unfold node in *. congruence.
  - intros k n1 N1 X1 Z1. destruct (gen_node _ _ _ _ N1) as (n & N & [->|(-> & ->)]); [eauto|]. destruct (gen_fields s n) as (_ & X & _).
    rewrite X in X1. unfold node in *. congruence.
Qed.
Lemma gen_visits : forall g s, visits_ok g -> visits_ok (upd g s (gen_acts applicable s)).
Proof. intros g s V k b an K L. apply gen_anode in K as [K|(-> & _)]; [eauto|cbn in L; lia]. Qed.
Lemma gen_visited : forall g s, all_visited g -> all_visited (upd g s (gen_acts applicable s)).
Proof. intros g s V k b an K L. apply gen_anode in K as [K|(-> & _)]; [eauto|cbn in L; congruence]. Qed.
Lemma gen_bounded : forall g s, bounded P g -> bounded P (upd g s (gen_acts applicable s)).
Proof.
  intros g s [B1 B2]. split.
  - intros k n1 N1 L. destruct (gen_node _ _ _ _ N1) as (n & N & [->|(-> & ->)]); [eauto|]. destruct (gen_fields s n) as (_ & _ & _ & En & Ev).
    rewrite En in L. rewrite Ev. eauto.
  - intros k b an K L. apply gen_anode in K as [K|(-> & _)]; [eauto|cbn in L; lia].
Qed.

(** * Marking a state as expanded *)
Lemma exp_sound : forall g s n, sound g -> node g s n -> (forall a an, dget (s_acts n) a = Some an -> a_out an <> []) ->
  (s_acts n = [] -> applicable s = []) -> sound (upd g s set_exp).
Proof.
  intros g s n0 So N0 X0 Y0. pose proof So as [A B C D E F G H I J].
  assert (Nd : forall k n1, node (upd g s set_exp) k n1 -> exists n, node g k n /\ s_acts n1 = s_acts n /\ s_par n1 = s_par n /\ s_term n1 = s_term n /\
    (s_exp n1 = s_exp n \/ k = s /\ n = n0)).
  { intros k n1 N1. unfold node in *. rewrite dget_upd in N1. destruct (pyeqb_spec s k) as [<-|].
    - rewrite N0 in N1. injection N1 as <-. exists n0. cbn. repeat split; auto.
    - exists n1. repeat split; auto. }
  assert (An : forall k b an, anode_of (upd g s set_exp) k b an <-> anode_of g k b an).
  { intros k b an. split.
    - intros (n1 & N1 & D1). destruct (Nd k n1 N1) as (n & N & Ea & _). rewrite Ea in D1. exists n. auto.
    - intros (n & N & D1). unfold anode_of, node in *. rewrite dget_upd, N. destruct (pyeqb s k); cbn; eauto. }
  constructor.
  - rewrite dkeys_upd. exact A.
  - intros k Ik. rewrite dmem_upd. auto.
  - intros k Dk. rewrite dmem_upd in Dk. auto.
  - intros k n1 N1. destruct (Nd k n1 N1) as (n & N & Ea & _). rewrite Ea. auto.
  - intros k b an K. apply An in K. auto.
  - intros k b an k' K Ik. rewrite dmem_upd. apply An in K. eauto.
  - intros k' n1 k b N1. destruct (Nd k' n1 N1) as (n & N & _ & Ep & _). rewrite Ep, (G k' n k b N). split; intros (an & K & Ik); exists an; (split; [now apply An|auto]).
  - intros k n1 N1. destruct (Nd k n1 N1) as (n & N & _ & _ & Et & _). rewrite Et. auto.
  - intros k n1 b an N1 X1 Da. destruct (Nd k n1 N1) as (n & N & Ea & _ & _ & [Ee|(-> & ->)]); rewrite Ea in Da; [rewrite Ee in X1; eauto|eauto].
  - intros k n1 N1 X1 Z1. destruct (Nd k n1 N1) as (n & N & Ea & _ & _ & [Ee|(-> & ->)]); rewrite Ea in Z1; [rewrite Ee in X1; eauto|eauto].
Qed.
Lemma exp_anode : forall (g : gph) s k b an, anode_of (upd g s set_exp) k b an <-> anode_of g k b an.
Proof.
  intros g s k b an. unfold anode_of, node. split.
  - intros (n1 & N1 & D1). rewrite dget_upd in N1. destruct (pyeqb s k); [|eauto]. destruct (dget g k) as [n|]; [|discriminate]. injection N1 as <-. eauto.
  - intros (n & N & D). rewrite dget_upd, N. destruct (pyeqb s k); cbn; eauto.
Qed.
Lemma exp_node : forall (g : gph) s k n1, node (upd g s set_exp) k n1 -> exists n, node g k n /\ s_n n1 = s_n n /\ s_val n1 = s_val n /\ s_acts n1 = s_acts n.
Proof.
  intros g s k n1 N1. unfold node in *. rewrite dget_upd in N1. destruct (pyeqb s k); [|eauto]. destruct (dget g k) as [n|]; [|discriminate]. injection N1 as <-. eauto.
Qed.
Lemma exp_moved : forall (g : gph) s, moved g (upd g s set_exp).
Proof.
  intros g s. constructor.
  - intros k n N. unfold node in *. rewrite dget_upd, N. destruct (pyeqb s k); cbn; eauto.
  - intros k b an K. exists an. rewrite exp_anode. split; auto. split; [auto|apply incl_refl].
  - intros R Ra _ k D. rewrite dmem_upd in D. auto.
Qed.

(** * Untried outcomes *)
Lemma untried_ok : forall g s a an, sound g -> anode_of g s a an -> exists l, untried_of g (a, an) = Ok l /\
  (forall u, In u l -> fst (fst u) = a /\ match snd (fst u) with None => a_out an = [] | Some s' => In s' (dkeys (a_out an)) end) /\
  (l = [] -> a_out an <> []).
Proof.
  intros g s a an So K. unfold untried_of. cbn [fst snd]. destruct (a_out an) as [|x out] eqn:E.
  - eexists. split; [reflexivity|]. split; [|discriminate]. intros u [<-|[]]. cbn. auto.
  - rewrite <- E. destruct (mapM_exists _ _ (fun o : St * (Q * nat * Q) * Q => let* n := dgetE g (fst (fst o)) in
        Ok (if s_n n =? 0 then [(a, Some (fst (fst o)), snd o)] else []))
      (fun o l => forall u, In u l -> fst (fst u) = a /\ snd (fst u) = Some (fst (fst o))) (combine (a_out an) (probs an))) as (l & M & F).
    { intros [[k v] q] I. cbn [fst snd]. apply in_combine_l in I. assert (Dk : dmem g k = true).
      { eapply (o_closed _ _ _ _ _ _ _ So); eauto. unfold dkeys. apply in_map_iff. exists (k, v). auto. }
      apply dmem_get in Dk as [n N]. apply dgetE_ok in N. rewrite N. cbn [bind]. eexists. split; [reflexivity|]. destruct (s_n n =? 0); [|intros u []].
      intros u [<-|[]]. auto. }
    rewrite M. cbn [bind]. eexists. split; [reflexivity|]. split; [|intros _; rewrite E; discriminate].
    intros u I. apply in_concat in I as (l' & Il & Iu). destruct (Forall2_In_r _ _ _ _ _ _ F Il) as ([[k v] q] & Ik & R). destruct (R u Iu) as [R1 R2].
    split; auto. rewrite R2. cbn [fst]. apply in_combine_l in Ik. unfold dkeys. apply in_map_iff. exists (k, v). auto.
Qed.

(** * The expander *)
Definition reached (s : St) (g1 : gph) (o : option St) : Prop :=
  match o with
  | Some s' => exists a an, anode_of g1 s a an /\ In s' (dkeys (a_out an)) /\ visited_but s a g1
  | None => all_visited g1 /\ exists n1, node g1 s n1 /\ (forall a an, dget (s_acts n1) a = Some an -> a_out an <> []) /\ (s_acts n1 = [] -> applicable s = [])
  end.

Lemma all_but : forall s a (g : gph), all_visited g -> visited_but s a g.
Proof. intros s a g V k b an K _ O. eauto. Qed.

Lemma expander_ok : forall g t s, sound g -> visits_ok g -> all_visited g -> bounded P g -> dmem g s = true ->
  exists g1 t1 o, expander applicable next reward terminal heuristic draw shuf g t s = Ok (g1, t1, o) /\
    sound g1 /\ visits_ok g1 /\ bounded P g1 /\ moved g g1 /\ reached s g1 o.
Proof.
  intros g t s So Vo Va Bo Ds. apply dmem_get in Ds as [n N]. unfold expander. rewrite (proj2 (dgetE_ok g s n) N). cbn [bind].
  destruct (s_exp n) eqn:X.
  { exists g, t, None. split; [reflexivity|]. split; auto. split; auto. split; auto. split; [apply moved_refl|]. split; auto. exists n. split; auto. split.
    - intros a an D. exact (o_exp _ _ _ _ _ _ _ So s n a an N X D).
    - exact (o_expg _ _ _ _ _ _ _ So s n N X). }
  pose proof (gen_sound g s n So N X) as So1. pose proof (gen_visits g s Vo) as Vo1. pose proof (gen_visited g s Va) as Va1.
  pose proof (gen_bounded g s Bo) as Bo1. pose proof (gen_moved g s) as Mv1. set (g1 := upd g s (gen_acts applicable s)) in *.
  set (n1 := gen_acts applicable s n). assert (N1 : node g1 s n1).
  { unfold node, g1. rewrite gen_get, pyeqb_refl. unfold node in N. rewrite N. reflexivity. }
  rewrite (proj2 (dgetE_ok g1 s n1) N1). cbn [bind]. pose proof (acts_nodup g1 s n1 So1 N1) as Nd.
  assert (InA : forall p, In p (shuf _ t (s_acts n1)) <-> dget (s_acts n1) (fst p) = Some (snd p)).
  { intros [b an]. cbn [fst snd]. split.
    - intros I. apply In_dget; auto. eapply Permutation_in; [apply Hshuf|exact I].
    - intros D. eapply Permutation_in; [apply Permutation_sym, Hshuf|]. now apply dget_In. }
  destruct (mapM_exists _ _ (untried_of g1) (fun p l => (forall u, In u l -> fst (fst u) = fst p /\
      match snd (fst u) with None => a_out (snd p) = [] | Some s' => In s' (dkeys (a_out (snd p))) end) /\ (l = [] -> a_out (snd p) <> []))
      (shuf _ t (s_acts n1))) as (us & M & F).
  { intros [b an] I. apply InA in I. cbn [fst snd] in *. apply untried_ok with (s := s); auto. exists n1. auto. }
  rewrite M. cbn [bind]. destruct (concat us) as [|u0 ul] eqn:Cu.
  - (* all tried *)
    assert (Full : forall a an, dget (s_acts n1) a = Some an -> a_out an <> []).
    { intros a an D. destruct (Forall2_In_l _ _ _ _ _ (a, an) F) as (l & Il & _ & Hl); [apply InA; exact D|]. apply Hl.
      destruct l as [|y l]; [reflexivity|]. assert (In y (concat us)) by (apply in_concat; exists (y :: l); split; [auto|left; reflexivity]).
      rewrite Cu in H. destruct H. }
    assert (Emp : s_acts n1 = [] -> applicable s = []).
    { intros Z. unfold n1, gen_acts in Z. destruct (s_acts n) as [|x l] eqn:Ea.
      - cbn [s_acts set_acts] in Z. apply map_eq_nil in Z. destruct (applicable s) as [|b l] eqn:Eb; [reflexivity|]. exfalso.
        assert (In b (pyset (b :: l))) by (apply pyset_In; left; reflexivity). rewrite Z in H. destruct H.
      - rewrite Ea in Z. discriminate. }
    exists (upd g1 s set_exp), t, None. split; [reflexivity|]. split; [apply exp_sound with (n := n1); auto|].
    split; [intros k b an K; apply (proj1 (exp_anode _ _ _ _ _)) in K; eauto|]. split.
    { destruct Bo1 as [B1 B2]. split; [|intros k b an K; apply (proj1 (exp_anode _ _ _ _ _)) in K; eauto].
      intros k m Nm L. apply exp_node in Nm as (m' & Nm' & E1 & E2 & _). rewrite E1 in L. rewrite E2. eauto. }
    split; [eapply moved_trans; [exact Mv1|apply exp_moved]|]. split; [intros k b an K; apply (proj1 (exp_anode _ _ _ _ _)) in K; eauto|].
    exists (set_exp n1). split; [|split; [exact Full|exact Emp]]. unfold node. rewrite dget_upd, pyeqb_refl. unfold node in N1. rewrite N1. reflexivity.
  - destruct (pick_ok _ t (map snd (u0 :: ul)) (u0 :: ul)) as (u & Pu & Iu); [apply map_length|discriminate|]. rewrite Pu. cbn [bind].
    rewrite <- Cu in Iu. apply in_concat in Iu as (l & Il & Iu). destruct (Forall2_In_r _ _ _ _ _ _ F Il) as ([b an] & Ib & Hu & _). apply InA in Ib. cbn [fst snd] in *.
    destruct (Hu u Iu) as [Hb Ho]. assert (Kb : anode_of g1 s b an) by (exists n1; auto). pose proof (act_applicable _ _ _ _ So1 Kb) as Hap.
    destruct (snd (fst u)) as [s'|].
    + exists g1, (S t), (Some s'). split; [reflexivity|]. split; auto. split; auto. split; auto. split; auto. exists b, an. split; auto. split; auto. now apply all_but.
    + rewrite Hb. unfold expand_action.
      pose proof (expanding_all applicable next reward terminal heuristic s b P (fun k q => Pos s b k q Hap) Hap Heur roots g1 an So1 Kb Ho) as Ex.
      set (acc := fold_left (expand_turn reward terminal heuristic s b) (next s b) (g1, [], [])) in *.
      pose proof (expanding_done applicable next reward terminal s b P roots g1 acc Ex) as So2. destruct acc as [[g2 un] ws]. cbn [fst snd] in *.
      destruct (x_comp _ _ _ _ _ _ _ _ _ _ _ Ex) as (an2 & Kan2 & Comp). cbn [fst snd] in Kan2.
      assert (Keys : forall k, In k (dkeys (a_out an2)) <-> In k (map fst (next s b))) by (apply (proj1 (proj2 Comp))).
      assert (Pick : exists s', (match un with [] => let* a0 := act_of g2 s b in pick draw (S t) (weights a0) (map fst (a_out a0)) | _ => pick draw (S t) ws un end) = Ok s'
        /\ In s' (dkeys (a_out an2))).
      { destruct un as [|k0 un].
        - destruct Kan2 as (n2 & Nn2 & Dn2). unfold act_of. rewrite (proj2 (dgetE_ok g2 s n2) Nn2). cbn [bind]. rewrite (proj2 (dgetE_ok _ b an2) Dn2). cbn [bind].
          assert (Ne : a_out an2 <> []).
          { intros Z. destruct (next s b) as [|[k q] nl] eqn:En; [exact (Hnext s b Hap En)|].
            assert (Q : In k (dkeys (a_out an2))) by (apply Keys; left; reflexivity). rewrite Z in Q. exact Q. }
          destruct (pick_ok _ (S t) (weights an2) (map fst (a_out an2))) as (x & Px & Ix).
          + unfold weights. now rewrite !map_length.
          + intros Z. apply map_eq_nil in Z. contradiction.
          + exists x. auto.
        - destruct (pick_ok _ (S t) ws (k0 :: un)) as (x & Px & Ix); [apply (x_len _ _ _ _ _ _ _ _ _ _ _ Ex)|discriminate|].
          exists x. split; auto. apply Keys. apply (x_un _ _ _ _ _ _ _ _ _ _ _ Ex). exact Ix. }
      destruct Pick as (s' & Es' & Is'). rewrite Es'. cbn [bind fst snd]. exists g2, (S (S t)), (Some s'). split; [reflexivity|].
      split; [exact So2|]. split; [exact (x_ok _ _ _ _ _ _ _ _ _ _ _ Ex Vo1)|]. split; [exact (x_bound _ _ _ _ _ _ _ _ _ _ _ Ex Bo1)|]. split.
      { eapply moved_trans; [exact Mv1|]. constructor.
        - intros k m Nm. destruct (x_mono _ _ _ _ _ _ _ _ _ _ _ Ex k m Nm) as (m' & Nm' & _ & E1 & E2 & _). exists m'. auto.
        - exact (x_grow _ _ _ _ _ _ _ _ _ _ _ Ex).
        - intros R Ra Rc k Dk. destruct (x_new _ _ _ _ _ _ _ _ _ _ _ Ex k Dk) as [D0|I0]; [auto|]. apply Keys in I0. eapply (Rc s b an2); eauto.
          apply Ra. apply dmem_get. exists n1. exact N1. }
      exists b, an2. split; auto. split; auto. apply (x_vis _ _ _ _ _ _ _ _ _ _ _ Ex). now apply all_but.
Qed.

(** * Selection *)
Lemma select_ok : forall (score : anode -> Q) (l : list (Act * anode)),
  match select score l with
  | None => forall p, In p l -> a_n (snd p) = 0
  | Some p => In p l /\ 0 < a_n (snd p) /\ forall q, In q l -> 0 < a_n (snd q) -> (score (snd q) <= score (snd p))%Q
  end.
Proof.
  intros score l. unfold select. set (f := fun (b : option (Act * anode)) p => _).
  assert (G : forall l1 l0 b, (match b with None => forall p, In p l0 -> a_n (snd p) = 0
      | Some p => In p l0 /\ 0 < a_n (snd p) /\ forall q, In q l0 -> 0 < a_n (snd q) -> (score (snd q) <= score (snd p))%Q end) ->
    match fold_left f l1 b with None => forall p, In p (l0 ++ l1) -> a_n (snd p) = 0
      | Some p => In p (l0 ++ l1) /\ 0 < a_n (snd p) /\ forall q, In q (l0 ++ l1) -> 0 < a_n (snd q) -> (score (snd q) <= score (snd p))%Q end).
  { induction l1 as [|x l1 IH]; intros l0 b H; [rewrite app_nil_r; exact H|]. cbn [fold_left]. replace (l0 ++ x :: l1) with ((l0 ++ [x]) ++ l1) by now rewrite <- app_assoc.
    apply IH. unfold f. destruct (Nat.eqb_spec (a_n (snd x)) 0) as [Z|Z].
    - destruct b as [p|].
      + destruct H as (I & L & M). split; [apply in_or_app; auto|]. split; auto. intros q Iq Lq. apply in_app_or in Iq as [Iq|[<-|[]]]; [auto|lia].
      + intros p Ip. apply in_app_or in Ip as [Ip|[<-|[]]]; auto.
    - destruct b as [p|].
      + destruct H as (I & L & M). destruct (Qlt_le_dec (score (snd p)) (score (snd x))) as [Lt|Le].
        * split; [apply in_or_app; right; left; reflexivity|]. split; [lia|]. intros q Iq Lq. apply in_app_or in Iq as [Iq|[<-|[]]]; [|apply Qle_refl].
          apply Qlt_le_weak. eapply Qle_lt_trans; eauto.
        * split; [apply in_or_app; auto|]. split; auto. intros q Iq Lq. apply in_app_or in Iq as [Iq|[<-|[]]]; auto.
      + split; [apply in_or_app; right; left; reflexivity|]. split; [lia|]. intros q Iq Lq. apply in_app_or in Iq as [Iq|[<-|[]]]; [|apply Qle_refl].
        rewrite (H q Iq) in Lq. lia. }
  apply (G l [] None). intros p [].
Qed.

(** * The tree policy *)
Lemma descend_ok : forall k g t s, sound g -> visits_ok g -> all_visited g -> bounded P g -> dmem g s = true ->
  exists g1 t1 s' k', descend applicable next reward terminal heuristic bonus draw shuf k g t s = Ok (g1, t1, s', k') /\
    sound g1 /\ visits_ok g1 /\ bounded P g1 /\ moved g g1 /\ dmem g1 s' = true /\ k' <= k /\
    (all_visited g1 \/ exists p a an, anode_of g1 p a an /\ In s' (dkeys (a_out an)) /\ visited_but p a g1) /\
    (0 < k -> (forall n, node g s n -> s_term n = false) -> applicable s <> [] -> exists a an, anode_of g1 s a an /\ a_out an <> []).
Proof.
  induction k as [|k IH]; intros g t s So Vo Va Bo Ds.
  - exists g, t, s, 0. cbn [descend]. split; [reflexivity|]. repeat (split; [solve [auto using moved_refl]|]). intros; lia.
  - cbn [descend]. pose proof Ds as D0. apply dmem_get in D0 as [n N]. rewrite (proj2 (dgetE_ok g s n) N). cbn [bind]. destruct (s_term n) eqn:T.
    { exists g, t, s, (S k). split; [reflexivity|]. split; auto. split; auto. split; auto. split; [apply moved_refl|]. split; auto. split; auto. split; auto. intros _ Ht. rewrite (Ht n N) in T. discriminate. }
    destruct (expander_ok g t s So Vo Va Bo Ds) as (g1 & t1 & o & E & So1 & Vo1 & Bo1 & Mv & Re). rewrite E. cbn [bind]. destruct o as [s'|].
    + destruct Re as (a & an & Ka & Ia & Vb). exists g1, t1, s', k. split; [reflexivity|]. split; auto. split; auto. split; auto. split; auto.
      split; [eapply (o_closed _ _ _ _ _ _ _ So1); eauto|]. split; [lia|]. split; [right; exists s, a, an; auto|]. intros _ _ _. exists a, an. split; auto. intros Z. rewrite Z in Ia. destruct Ia.
    + destruct Re as (Va1 & n1 & N1 & Full & Emp). rewrite (proj2 (dgetE_ok g1 s n1) N1). cbn [bind].
      pose proof (acts_nodup g1 s n1 So1 N1) as Nd. pose proof (select_ok (ucb bonus n1) (shuf _ t1 (s_acts n1))) as Sel.
      destruct (select (ucb bonus n1) (shuf _ t1 (s_acts n1))) as [[b an]|].
      * destruct Sel as (Ib & Lb & _). cbn [snd] in Lb. assert (Db : dget (s_acts n1) b = Some an).
        { apply In_dget; auto. eapply Permutation_in; [apply Hshuf|exact Ib]. }
        pose proof (Full b an Db) as Ob. destruct (pick_ok _ t1 (weights an) (map fst (a_out an))) as (s' & Ps & Is).
        { unfold weights. now rewrite !map_length. } { intros Z. apply map_eq_nil in Z. contradiction. }
        rewrite Ps. cbn [bind]. assert (Ds' : dmem g1 s' = true).
        { eapply (o_closed _ _ _ _ _ _ _ So1); [exists n1; eauto|]. exact Is. }
        destruct (IH g1 (S t1) s' So1 Vo1 Va1 Bo1 Ds') as (g2 & t2 & s2 & k2 & E2 & So2 & Vo2 & Bo2 & Mv2 & Ds2 & Lk & Re2 & _).
        exists g2, t2, s2, k2. split; [exact E2|]. split; auto. split; auto. split; auto. split; [eapply moved_trans; eauto|]. split; auto. split; [lia|]. split; auto.
        intros _ _ _. destruct (m_act _ _ Mv2 s b an) as (an2 & K2 & _ & O2); [exists n1; auto|]. exists b, an2. split; auto. intros Z. rewrite Z in O2. destruct (a_out an) as [|x0 l0]; [contradiction|]. exact (O2 (fst x0) (or_introl eq_refl)).
      * exists g1, t1, s, k. split; [reflexivity|]. split; auto. split; auto. split; auto. split; auto. split; [apply dmem_get; eauto|]. split; [lia|]. split; auto.
        intros _ _ Ap. destruct (s_acts n1) as [|[b an] l] eqn:Ea; [exfalso; apply Ap, Emp; reflexivity|]. exists b, an. assert (Db : dget (s_acts n1) b = Some an).
        { rewrite Ea. cbn. now rewrite pyeqb_refl. }
        split; [exists n1; auto|]. apply (Full b). rewrite <- Ea. exact Db.
Qed.
End P.
