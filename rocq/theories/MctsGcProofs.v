(** Monte Carlo tree search: reachable sub-graphs and their removal. *)
From Coq Require Import List Bool Arith QArith Lia Permutation.
From Verif Require Import Py PyList PyMore MctsModel MctsSpec MctsProofs MctsTreeProofs MctsRunProofs.
Import ListNotations.
Local Open Scope nat_scope.

Section P.
Context {St Act : Type} {ES : PyEq St} {EA : PyEq Act}.
Notation snode := (@snode St Act).
Notation anode := (@anode St).
Notation gph := (list (St * snode)).

Lemma greach_incl : forall (g : gph) r1 r2 k, incl r1 r2 -> greach g r1 k -> greach g r2 k.
Proof. intros g r1 r2 k I R. induction R as [k Ik|p a an k R IH K Ik]; [apply G_root, I, Ik|eapply G_step; eauto]. Qed.
Lemma greach_split : forall (g : gph) r1 r2 k, greach g (r1 ++ r2) k -> greach g r1 k \/ greach g r2 k.
Proof.
  intros g r1 r2 k R. induction R as [k Ik|p a an k R [IH|IH] K Ik].
  - apply in_app_or in Ik as [Ik|Ik]; [left|right]; now apply G_root.
  - left. eapply G_step; eauto.
  - right. eapply G_step; eauto.
Qed.

(** * Breadth first *)
Section Bfs.
Variable g : gph.
Hypothesis Nd : forall s n, node g s n -> NoDup (dkeys (s_acts n)).
Hypothesis Cl : forall s a an s', anode_of g s a an -> In s' (dkeys (a_out an)) -> dmem g s' = true.

Lemma successors_ok : forall s, dmem g s = true -> exists l, successors g s = Ok l /\ forall k, In k l <-> exists a an, anode_of g s a an /\ In k (dkeys (a_out an)).
Proof.
  intros s D. apply dmem_get in D as [n N]. unfold successors. rewrite (proj2 (dgetE_ok g s n) N). cbn [bind]. eexists. split; [reflexivity|].
  intros k. rewrite in_flat_map. split.
  - intros ([a an] & Ia & Ik). exists a, an. split; [|exact Ik]. exists n. split; auto. apply In_dget; eauto.
  - intros (a & an & (n' & N' & D') & Ik). assert (n' = n) by (unfold node in *; congruence). subst n'. exists (a, an). split; [now apply dget_In|exact Ik].
Qed.

Notation turn := (fun (a : list St * list St) s' => if pymem s' (snd a) then a else (fst a ++ [s'], snd a ++ [s'])).
Lemma turns_ok : forall l fr seen, NoDup seen -> incl fr seen -> let a := fold_left turn l (fr, seen) in
  NoDup (snd a) /\ incl (fst a) (snd a) /\ (forall k, In k (snd a) <-> In k seen \/ In k l) /\ (forall k, In k (snd a) -> In k seen \/ In k (fst a)) /\
  incl fr (fst a) /\ (forall k, In k (fst a) -> In k fr \/ In k l) /\ length (snd a) + length fr = length seen + length (fst a).
Proof.
  induction l as [|x l IH]; intros fr seen Ns If a.
  - cbn. split; auto. split; auto. split; [intros; tauto|]. split; [auto|]. split; [apply incl_refl|]. split; [auto|]. lia.
  - unfold a. cbn [fold_left]. destruct (pymem x seen) eqn:M; cbn [fst snd]; rewrite ?M.
    + destruct (IH fr seen Ns If) as (A & B & C & D & E & F & G). split; auto. split; auto. split; [|split; [auto|split; [auto|split; [|auto]]]].
      * intros k. rewrite C. cbn. assert (In x seen) by now apply (proj1 (pymem_true x seen)). split; intros [H1|H1]; auto. destruct H1 as [<-|H1]; auto.
      * intros k Ik. destruct (F k Ik); [auto|right; right; auto].
    + assert (Nx : ~ In x seen) by (intros Ix; apply (proj2 (pymem_true x seen)) in Ix; congruence).
      destruct (IH (fr ++ [x]) (seen ++ [x])) as (A & B & C & D & E & F & G).
      { now apply NoDup_snoc. } { intros y Iy. apply in_app_or in Iy. apply in_or_app. destruct Iy; auto. }
      split; auto. split; auto. split; [|split; [|split; [|split]]].
      * intros k. rewrite C, in_app_iff. cbn. tauto.
      * intros k Ik. destruct (D k Ik) as [H1|H1]; auto. apply in_app_or in H1 as [H1|[<-|[]]]; auto. right. apply E, in_or_app. right. left. reflexivity.
      * intros k Ik. apply E, in_or_app. auto.
      * intros k Ik. destruct (F k Ik) as [H1|H1]; [|right; right; auto]. apply in_app_or in H1 as [H1|[<-|[]]]; auto. right. left. reflexivity.
      * rewrite !app_length in G. cbn in G. lia.
Qed.

Lemma level_reach : forall fr seen, NoDup seen -> (forall k, In k fr -> dmem g k = true) ->
  exists a, foldM (reach_state g) ([], seen) fr = Ok a /\ NoDup (snd a) /\
    (forall k, In k (snd a) <-> In k seen \/ exists f b an, In f fr /\ anode_of g f b an /\ In k (dkeys (a_out an))) /\
    (forall k, In k (snd a) -> In k seen \/ In k (fst a)) /\ incl (fst a) (snd a) /\
    (forall k, In k (fst a) -> exists f b an, In f fr /\ anode_of g f b an /\ In k (dkeys (a_out an))) /\
    length (snd a) = length seen + length (fst a).
Proof.
  intros fr seen Ns Df. destruct (@foldM_total _ _ (reach_state g) (fun done a => NoDup (snd a) /\
    (forall k, In k (snd a) <-> In k seen \/ exists f b an, In f done /\ anode_of g f b an /\ In k (dkeys (a_out an))) /\
    (forall k, In k (snd a) -> In k seen \/ In k (fst a)) /\ incl (fst a) (snd a) /\
    (forall k, In k (fst a) -> exists f b an, In f done /\ anode_of g f b an /\ In k (dkeys (a_out an))) /\
    length (snd a) = length seen + length (fst a)) fr ([], seen)) as (a & E & H).
  - cbn [fst snd]. split; auto. split; [|split; [auto|split; [intros k []|split; [intros k []|cbn; lia]]]]. intros k. split; auto. intros [I|(f & b & an & [] & _)]. exact I.
  - intros l0 f l1 [fr1 sn1] El (A & B & C & D & F & L). cbn [fst snd] in *. unfold reach_state. cbn [fst snd].
    destruct (successors_ok f) as (l & Es & Hl). { apply Df. rewrite El. apply in_or_app. right. left. reflexivity. }
    rewrite Es. cbn [bind]. eexists. split; [reflexivity|]. destruct (turns_ok l fr1 sn1 A D) as (A' & B' & C' & D' & E' & F' & G').
    split; auto. split; [|split; [|split; [auto|split]]].
    + intros k. rewrite C', B, Hl. split.
      * intros [[I|(f0 & b & an & I & K)]|(b & an & K)]; [auto| |].
        -- right. exists f0, b, an. split; [apply in_or_app; auto|auto].
        -- right. exists f, b, an. split; [apply in_or_app; right; left; reflexivity|auto].
      * intros [I|(f0 & b & an & I & K)]; [auto|]. apply in_app_or in I as [I|[<-|[]]]; [left; right; eauto|right; eauto].
    + intros k Ik. destruct (D' k Ik) as [I|I]; auto. destruct (C k I) as [I0|I0]; auto.
    + intros k Ik. destruct (F' k Ik) as [I|I].
      * destruct (F k I) as (f0 & b & an & I0 & K). exists f0, b, an. split; [apply in_or_app; auto|auto].
      * apply Hl in I as (b & an & K). exists f, b, an. split; [apply in_or_app; right; left; reflexivity|auto].
    + lia.
  - exists a. auto.
Qed.

Lemma reach_ok : forall fuel root fr seen, NoDup seen -> incl fr seen -> (forall k, In k seen -> dmem g k = true) ->
  (forall k, In k seen -> greach g root k) -> (forall k b an k', In k seen -> ~ In k fr -> anode_of g k b an -> In k' (dkeys (a_out an)) -> In k' seen) ->
  length g < fuel + length seen ->
  exists l, reach fuel g fr seen = Ok l /\ incl seen l /\ (forall k, In k l -> greach g root k) /\
    (forall k b an k', In k l -> anode_of g k b an -> In k' (dkeys (a_out an)) -> In k' l).
Proof.
  induction fuel as [|fuel IH]; intros root fr seen Ns If Ds Gs Cs Lf.
  - exfalso. assert (L : length seen <= length (dkeys g)).
    { apply NoDup_incl_length; auto. intros k Ik. specialize (Ds k Ik). now apply dmem_true. }
    unfold dkeys in L. rewrite map_length in L. lia.
  - destruct fr as [|f0 fr].
    { exists seen. cbn. split; [reflexivity|]. split; [apply incl_refl|]. split; auto. intros k b an k' Ik K Ik'. eapply Cs; eauto. }
    cbn [reach]. destruct (level_reach (f0 :: fr) seen Ns) as ([fr1 sn1] & E & A & B & C & D & F & L). { intros k Ik. apply Ds, If, Ik. }
    rewrite E. cbn [bind fst snd] in *.
    assert (Ds1 : forall k, In k sn1 -> dmem g k = true).
    { intros k Ik. apply B in Ik as [I|(f & b & an & I & K & Ik)]; eauto. }
    assert (Gs1 : forall k, In k sn1 -> greach g root k).
    { intros k Ik. apply B in Ik as [I|(f & b & an & I & K & Ik)]; auto. eapply G_step; eauto. }
    assert (Inc : incl seen sn1) by (intros k Ik; apply B; auto).
    assert (Cs1 : forall k b an k', In k sn1 -> ~ In k fr1 -> anode_of g k b an -> In k' (dkeys (a_out an)) -> In k' sn1).
    { intros k b an k' Ik Nf K Ik'. destruct (C k Ik) as [I|I]; [|contradiction]. apply B. destruct (in_dec py_dec k (f0 :: fr)) as [If0|Nf0].
      - right. exists k, b, an. auto.
      - left. eapply Cs; eauto. }
    destruct fr1 as [|f1 fr1].
    + exists sn1. split; [destruct fuel; reflexivity|]. split; auto. split; auto. intros k b an k' Ik K Ik'. eapply Cs1; eauto.
    + destruct (IH root (f1 :: fr1) sn1 A D Ds1 Gs1 Cs1) as (l & El & Il & Gl & Cc). { cbn in L. lia. }
      exists l. split; [exact El|]. split; [eapply incl_tran; eauto|]. auto.
Qed.

Lemma subgraph_ok : forall s, dmem g s = true -> exists l, subgraph g s = Ok l /\ forall k, In k l <-> greach g [s] k.
Proof.
  intros s D. unfold subgraph. destruct (reach_ok (S (length g)) [s] [s] [s]) as (l & E & I & R & C).
  - constructor; [intros []|constructor].
  - apply incl_refl.
  - intros k [<-|[]]. exact D.
  - intros k [<-|[]]. apply G_root. left. reflexivity.
  - intros k b an k' Ik N. contradiction.
  - cbn. lia.
  - exists l. split; auto. intros k. split; auto. intros G. induction G as [k Ik|p b an k G IH K Ik]; [auto|eauto].
Qed.
End Bfs.

(** * Garbage *)
Variable applicable : St -> list Act.
Variable next : St -> Act -> list (St * Q).
Variable reward : St -> Act -> St -> Q.
Variable terminal : St -> bool.
Variable P : Q -> Prop.
Notation good := (good applicable next reward terminal P).

Lemma dget_filter_map : forall (g : gph) (keep : St -> bool) (f : snode -> snode) k,
  dget (map (fun p => (fst p, f (snd p))) (filter (fun p => keep (fst p)) g)) k = if keep k then option_map f (dget g k) else None.
Proof.
  induction g as [|[k0 n0] g IH]; intros keep f k; [cbn; destruct (keep k); reflexivity|]. cbn [filter fst]. destruct (keep k0) eqn:K0.
  - cbn [map dget fst snd]. destruct (pyeqb_spec k k0) as [->|Ne].
    + cbn. rewrite ?pyeqb_refl, K0. reflexivity.
    + rewrite IH. cbn. destruct (pyeqb_spec k k0); [contradiction|]. reflexivity.
  - rewrite IH. cbn. destruct (pyeqb_spec k k0) as [->|Ne]; [rewrite K0; reflexivity|reflexivity].
Qed.

Lemma collect_ok : forall roots (g : gph) c s r k, good roots g -> linked ([c] ++ [s]) g -> dmem g s = true -> (forall x, In x roots -> terminal x = false) ->
  (forall x, In x r <-> greach g [c] x) -> (forall x, In x k <-> greach g [s] x) -> let g1 := remove_subgraph g r k in
  good [s] g1 /\ linked [s] g1 /\ (forall x, dmem g1 x = true <-> greach g [s] x) /\
  (forall x n, greach g [s] x -> node g x n -> exists n1, node g1 x n1 /\ s_acts n1 = s_acts n /\ s_val n1 = s_val n /\ s_n n1 = s_n n).
Proof.
  intros roots g c s r k [So Vo Va [B1 B2]] Li Ds Tr Hr Hk g1.
  set (keep := fun x => negb (pymem x r && negb (pymem x k))).
  set (f := fun n : snode => set_par n (filter (fun q => keep (fst q)) (s_par n))).
  assert (G1 : g1 = map (fun p => (fst p, f (snd p))) (filter (fun p => keep (fst p)) g)) by reflexivity.
  assert (Kin : forall x, greach g [s] x -> keep x = true).
  { intros x R. unfold keep. apply Hk in R. rewrite (proj2 (pymem_true x k) R). now rewrite andb_false_r. }
  assert (Kout : forall x, dmem g x = true -> keep x = true -> greach g [s] x).
  { intros x D K. destruct (greach_split _ _ _ _ (Li x D)) as [R|R]; [|exact R]. apply Hr in R. unfold keep in K. rewrite (proj2 (pymem_true x r) R) in K.
    destruct (pymem x k) eqn:M; [|discriminate]. apply Hk. now apply (proj1 (pymem_true x k)). }
  assert (Nd : forall x n1, node g1 x n1 <-> greach g [s] x /\ exists n, node g x n /\ n1 = f n).
  { intros x n1. unfold node. rewrite G1, (dget_filter_map g keep f x). destruct (keep x) eqn:K.
    - destruct (dget g x) as [n|] eqn:D; cbn.
      + split; [intros E; injection E as <-; split; [apply Kout; auto; apply dmem_get; eauto|eauto]|]. intros (_ & n' & E & ->). congruence.
      + split; [discriminate|]. intros (_ & n' & E & _). discriminate.
    - split; [discriminate|]. intros (R & _). rewrite (Kin x R) in K. discriminate. }
  assert (An : forall x b an, anode_of g1 x b an <-> greach g [s] x /\ anode_of g x b an).
  { intros x b an. split.
    - intros (n1 & N1 & D1). apply Nd in N1 as (R & n & N & ->). split; auto. exists n. auto.
    - intros (R & n & N & D). exists (f n). split; [apply Nd; eauto|exact D]. }
  assert (Dm : forall x, dmem g1 x = true <-> greach g [s] x).
  { intros x. split.
    - intros D. apply dmem_get in D as [n1 N1]. apply Nd in N1. tauto.
    - intros R. assert (D : dmem g x = true).
      { destruct R as [x I|p b an x R K I]; [destruct I as [<-|[]]; exact Ds|]. exact (o_closed _ _ _ _ _ _ _ So p b an x K I). }
      apply dmem_get in D as [n N]. apply dmem_get. exists (f n). apply Nd. eauto. }
  assert (Li1 : linked [s] g1).
  { intros x D. apply Dm in D. induction D as [x I|p b an x R IH K I]; [now apply G_root|]. apply (G_step g1 [s] p b an x IH); [|exact I]. apply (proj2 (An _ _ _)). auto. }
  destruct So as [A B C D E F G H I J]. split; [|split; [exact Li1|split; [exact Dm|]]].
  - constructor.
    + constructor.
      * rewrite G1. unfold dkeys. rewrite map_map. cbn. clear - A. unfold dkeys in A. induction g as [|[k0 n0] g IH]; [constructor|]. cbn in A. inversion_clear A.
        cbn [filter fst]. destruct (keep k0); [|auto]. cbn. constructor; [|auto]. intros I. apply H. apply in_map_iff in I as (x & <- & I). apply filter_In in I as [I _].
        now apply in_map.
      * intros x [<-|[]]. apply Dm. apply G_root. left. reflexivity.
      * intros x D1. apply Li1 in D1. induction D1 as [x I1|p b an x R IH K I1]; [now apply Reach_root|]. apply (proj1 (An _ _ _)) in K as [R1 K].
        destruct (E p b an K) as [Z|(_ & Ck & _)]; [rewrite Z in I1; destruct I1|]. apply Ck in I1. apply in_map_iff in I1 as ([x' q] & Ex & Iq). cbn in Ex. subst x'.
        eapply Reach_step; [exact IH| |exact Iq]. destruct K as (n & N & Da). destruct (D p n N) as [Z|Z]; [rewrite Z in Da; discriminate|].
        apply (proj1 (pyset_In (applicable p) b)). rewrite <- Z, dget_keys. eauto.
      * intros x n1 N1. apply Nd in N1 as (_ & n & N & ->). apply (D x n N).
      * intros x b an K. apply (proj1 (An _ _ _)) in K as [_ K]. auto.
      * intros x b an x' K I1. apply (proj1 (An _ _ _)) in K as [R K]. apply Dm. eapply G_step; eauto.
      * intros x' n1 x b N1. apply Nd in N1 as (R & n & N & ->). cbn [f set_par s_par]. rewrite filter_In. cbn [fst]. rewrite (G x' n x b N). split.
        -- intros [(an & K & I1) Kx]. exists an. split; auto. apply (proj2 (An _ _ _)). split; auto. apply Kout; auto. destruct K as (m & Nm & _). apply dmem_get. exists m. exact Nm.
        -- intros (an & K & I1). apply (proj1 (An _ _ _)) in K as [Rx K]. split; [eauto|]. now apply Kin.
      * intros x n1 N1. apply Nd in N1 as (_ & n & N & ->). cbn [f set_par s_term]. left. destruct (H x n N) as [T|[T Ir]]; [exact T|]. rewrite T. symmetry. auto.
      * intros x n1 b an N1 X Da. apply Nd in N1 as (_ & n & N & ->). eapply (I x n); eauto.
      * intros x n1 N1 X Z. apply Nd in N1 as (_ & n & N & ->). apply (J x n); auto.
    + intros x b an K. apply (proj1 (An _ _ _)) in K as [_ K]. eauto.
    + intros x b an K. apply (proj1 (An _ _ _)) in K as [_ K]. eauto.
    + split; [|intros x b an K; apply (proj1 (An _ _ _)) in K as [_ K]; eauto]. intros x n1 N1 L. apply Nd in N1 as (_ & n & N & ->). apply (B1 x n N L).
  - intros x n R N. exists (f n). split; [apply Nd; eauto|]. auto.
Qed.
End P.
