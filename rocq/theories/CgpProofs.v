(** Proofs about CgpModel: decoding the genome, marking the nodes, running. *)
From Coq Require Import List Bool Arith ZArith QArith Lia.
From Verif Require Import Py PyList PyMore CgpModel CgpSpec.
Import ListNotations.
Local Open Scope nat_scope.

(** * Decoding *)

Lemma cg_mapM_ext : forall A B (f g : A -> res B) l, (forall x, In x l -> f x = g x) -> mapM f l = mapM g l.
Proof.
  intros A B f g. induction l as [|x r IH]; intros H; cbn [mapM]; auto.
  rewrite (H x) by (left; auto). rewrite IH by (intros; apply H; right; auto). reflexivity.
Qed.

Lemma cg_mapM_map : forall A B C (f : B -> res C) (h : A -> B) l, mapM f (map h l) = mapM (fun x => f (h x)) l.
Proof. intros A B C f h. induction l as [|x r IH]; cbn [map mapM]; auto. now rewrite IH. Qed.

Lemma mapM_lget_seq : forall A (l pre post : list A),
  mapM (fun j => lget (pre ++ l ++ post) (length pre + j)) (seq 0 (length l)) = Ok l.
Proof.
  intros A. induction l as [|x r IH]; intros pre post; cbn [length seq mapM]; auto.
  unfold lget at 1. rewrite Nat.add_0_r, nth_error_app2, Nat.sub_diag by lia. cbn [app nth_error bind].
  rewrite <- seq_shift, cg_mapM_map.
  specialize (IH (pre ++ [x]) post). rewrite app_length in IH. cbn [length] in IH.
  rewrite <- app_assoc in IH. cbn [app] in IH.
  rewrite (cg_mapM_ext _ _ _ (fun j => lget (pre ++ x :: r ++ post) (length pre + 1 + j))).
  - rewrite IH. reflexivity.
  - intros j _. f_equal. lia.
Qed.

Lemma flat_cons : forall n ns, flat (n :: ns) = n_fun n :: n_args n ++ flat ns.
Proof. reflexivity. Qed.

Lemma build_nodes_eq : forall k genome ma i limit, build_nodes k genome ma i limit =
  if i <? limit then
    match k with
    | O => Err OutOfFuel
    | S k =>
        let* f := lget genome i in
        let* args := mapM (fun j => lget genome (i + j + 1)) (seq 0 ma) in
        let* r := build_nodes k genome ma (i + ma + 1) limit in
        Ok ({| n_args := args; n_fun := f |} :: r)
    end
  else Ok [].
Proof. destruct k; reflexivity. Qed.

Lemma build_nodes_flat : forall ma ns pre outs k, Forall (fun n => length (n_args n) = ma) ns -> length ns <= k ->
  build_nodes k (pre ++ flat ns ++ outs) ma (length pre) (length pre + length (flat ns)) = Ok ns.
Proof.
  intros ma. induction ns as [|n ns IH]; intros pre outs k F L; rewrite build_nodes_eq.
  - cbn [flat map concat length]. rewrite Nat.add_0_r, Nat.ltb_irrefl. reflexivity.
  - rewrite flat_cons. cbn [length app]. rewrite (proj2 (Nat.ltb_lt _ _)) by lia.
    destruct k as [|k]; [cbn in L; lia|].
    inversion F as [|? ? F1 F2]; subst.
    unfold lget at 1. rewrite nth_error_app2, Nat.sub_diag by lia. cbn [nth_error bind].
    pose proof (mapM_lget_seq _ (n_args n) (pre ++ [n_fun n]) (flat ns ++ outs)) as M.
    rewrite app_length in M. cbn [length] in M. rewrite <- app_assoc in M. cbn [app] in M.
    rewrite app_assoc in M.
    rewrite (cg_mapM_ext _ _ _ (fun j => lget (pre ++ n_fun n :: (n_args n ++ flat ns) ++ outs) (length pre + 1 + j))).
    2: { intros j _. f_equal. lia. }
    rewrite M. cbn [bind].
    specialize (IH (pre ++ n_fun n :: n_args n) outs k F2).
    rewrite app_length in IH. cbn [length] in IH.
    rewrite <- app_assoc in IH. cbn [app] in IH. rewrite app_assoc in IH.
    replace (length pre + length (n_args n) + 1) with (length pre + S (length (n_args n))) by lia.
    replace (length pre + S (length (n_args n ++ flat ns))) with (length pre + S (length (n_args n)) + length (flat ns))
      by (rewrite app_length; lia).
    rewrite IH by (cbn in L; lia). cbn [bind]. destruct n; reflexivity.
Qed.

Lemma flat_length : forall ma ns, Forall (fun n => length (n_args n) = ma) ns -> length (flat ns) = length ns * (ma + 1).
Proof.
  intros ma. induction ns as [|n ns IH]; intros F; auto.
  inversion F; subst. rewrite flat_cons. cbn [length]. rewrite app_length, IH by auto. lia.
Qed.

(** Every genome of the right length is the genes of a list of nodes, then the outputs. *)
Lemma genome_shape : forall ma L no g, length g = L * (ma + 1) + no ->
  exists ns outs, g = flat ns ++ outs /\ length ns = L /\ length outs = no /\ Forall (fun n => length (n_args n) = ma) ns.
Proof.
  intros ma. induction L as [|L IH]; intros no g E.
  - exists [], g. cbn in *. auto.
  - destruct g as [|f g]; [cbn in E; lia|].
    assert (LG : length g = ma + (L * (ma + 1) + no)) by (cbn in E; lia).
    destruct (IH no (skipn ma g)) as (ns & outs & E1 & E2 & E3 & E4).
    { rewrite skipn_length. lia. }
    exists ({| n_args := firstn ma g; n_fun := f |} :: ns), outs. split; [|split; [|split]].
    + rewrite flat_cons. cbn [n_fun n_args app]. rewrite <- app_assoc, <- E1, firstn_skipn. reflexivity.
    + cbn. lia.
    + exact E3.
    + constructor; [cbn; rewrite firstn_length; lia|exact E4].
Qed.

Lemma flat_nth_fun : forall ma ns p n, Forall (fun n => length (n_args n) = ma) ns -> nth_error ns p = Some n ->
  nth_error (flat ns) (p * (ma + 1)) = Some (n_fun n).
Proof.
  intros ma. induction ns as [|m ns IH]; intros p n F N; [destruct p; discriminate|].
  inversion F; subst. destruct p as [|p]; cbn [nth_error] in N.
  - injection N as ->. reflexivity.
  - rewrite flat_cons. change (n_fun m :: n_args m ++ flat ns) with ((n_fun m :: n_args m) ++ flat ns).
    rewrite nth_error_app2 by (cbn [length]; lia). cbn [length].
    replace (S p * (length (n_args m) + 1) - S (length (n_args m))) with (p * (length (n_args m) + 1)) by lia.
    now apply IH.
Qed.

Lemma flat_nth_arg : forall ma ns p n j, Forall (fun n => length (n_args n) = ma) ns -> nth_error ns p = Some n -> j < ma ->
  nth_error (flat ns) (p * (ma + 1) + 1 + j) = nth_error (n_args n) j.
Proof.
  intros ma. induction ns as [|m ns IH]; intros p n j F N J; [destruct p; discriminate|].
  inversion F; subst. destruct p as [|p]; cbn [nth_error] in N.
  - injection N as ->. rewrite flat_cons. cbn [Nat.mul Nat.add nth_error].
    rewrite nth_error_app1 by lia. reflexivity.
  - rewrite flat_cons. change (n_fun m :: n_args m ++ flat ns) with ((n_fun m :: n_args m) ++ flat ns).
    rewrite nth_error_app2 by (cbn [length]; lia). cbn [length].
    replace (S p * (length (n_args m) + 1) + 1 + j - S (length (n_args m))) with (p * (length (n_args m) + 1) + 1 + j) by lia.
    now apply IH.
Qed.

(** * Marking *)

Lemma mark_fold : forall ni gs t, Forall (fun g => g < ni + length t) gs ->
  exists t', foldM (mark ni) t gs = Ok t' /\ length t' = length t /\
    forall q, nth_error t' q = Some true <-> nth_error t q = Some true \/ (q < length t /\ In (ni + q) gs).
Proof.
  intros ni. induction gs as [|g gs IH]; intros t F; cbn [foldM].
  - exists t. split; [reflexivity|]. split; [reflexivity|]. intros q. cbn. tauto.
  - inversion F as [|? ? F1 F2]; subst. unfold mark at 1. destruct (Nat.leb_spec ni g) as [C|C].
    + unfold lput. rewrite (proj2 (Nat.ltb_lt _ _)) by lia. cbn [bind].
      destruct (IH (lset t (g - ni) true)) as (t' & E1 & E2 & E3).
      { rewrite lset_length. exact F2. }
      rewrite lset_length in E2, E3.
      exists t'. split; [exact E1|]. split; [exact E2|].
      intros q. rewrite E3, lset_nth_error. cbn [In].
      destruct (Nat.eqb_spec (g - ni) q) as [Q|Q].
      * rewrite (proj2 (Nat.ltb_lt _ _)) by lia. split; [|auto]. intros _. right. split; [lia|]. left. lia.
      * split; [intros [H|[H1 H2]]; auto|intros [H|[H1 [H2|H2]]]; auto]. lia.
    + cbn [bind]. destruct (IH t F2) as (t' & E1 & E2 & E3).
      exists t'. split; [exact E1|]. split; [exact E2|].
      intros q. rewrite E3. cbn [In]. split; [intros [H|[H1 H2]]; auto|intros [H|[H1 [H2|H2]]]; auto]. lia.
Qed.

Lemma mark_down_spec : forall ni ns p t, p <= length ns -> length t = length ns ->
  (forall q n, nth_error ns q = Some n -> Forall (fun a => a < ni + q) (n_args n)) ->
  exists r, mark_down ni ns p t = Ok r /\ NoDup r /\
    forall q, In q r <-> q < p /\ (nth_error t q = Some true \/ exists m n, In m r /\ nth_error ns m = Some n /\ In (ni + q) (n_args n)).
Proof.
  intros ni ns. induction p as [|p IH]; intros t LP LT FF; cbn [mark_down].
  - exists []. split; [reflexivity|]. split; [constructor|]. intros q. cbn. split; [tauto|lia].
  - assert (HP : p < length t) by lia. destruct (lget_lt t HP) as [b Eb]. rewrite Eb. cbn [bind]. apply lget_ok in Eb.
    destruct b.
    + assert (HN : p < length ns) by lia. destruct (lget_lt ns HN) as [n En]. rewrite En. cbn [bind]. apply lget_ok in En.
      destruct (mark_fold ni (n_args n) t) as (t' & E1 & E2 & E3).
      { eapply Forall_impl; [|apply (FF p n En)]. cbn. intros; lia. }
      rewrite E1. cbn [bind].
      destruct (IH t') as (r & R1 & R2 & R3); [lia|lia|exact FF|].
      rewrite R1. cbn [bind]. exists (p :: r). split; [reflexivity|]. split.
      { constructor; auto. intros H. apply R3 in H. lia. }
      intros q. cbn [In]. rewrite R3, E3. split.
      * intros [<-|[Q [[H|[H1 H2]]|(m & n' & H1 & H2 & H3)]]].
        -- split; [lia|]. auto.
        -- split; [lia|]. auto.
        -- split; [lia|]. right. exists p, n. auto.
        -- split; [lia|]. right. exists m, n'. auto.
      * intros [Q H]. destruct (Nat.eq_dec p q) as [->|NE]; [auto|]. right. split; [lia|].
        destruct H as [H|(m & n' & [<-|H1] & H2 & H3)]; auto.
        -- left. right. split; [lia|]. congruence.
        -- right. exists m, n'. auto.
    + destruct (IH t) as (r & R1 & R2 & R3); [lia|lia|exact FF|].
      exists r. split; [exact R1|]. split; [exact R2|].
      intros q. rewrite R3. split.
      * intros [Q H]. split; [lia|exact H].
      * intros [Q H]. split; [|exact H]. destruct (Nat.eq_dec q p) as [->|NE]; [|lia]. exfalso.
        destruct H as [H|(m & n & H1 & H2 & H3)]; [congruence|].
        apply R3 in H1. pose proof (FF m n H2) as F. rewrite Forall_forall in F. specialize (F _ H3). lia.
Qed.

Lemma nth_repeat_false : forall n q, nth_error (repeat false n) q = Some true -> False.
Proof.
  intros n q H. apply nth_error_In, repeat_spec in H. discriminate.
Qed.

Lemma node_to_evaluate_spec : forall ni ns outs,
  (forall q n, nth_error ns q = Some n -> Forall (fun a => a < ni + q) (n_args n)) ->
  Forall (fun g => g < ni + length ns) outs ->
  exists r, node_to_evaluate ni (length ns) outs ns = Ok r /\ NoDup r /\
    forall q, In q r <-> q < length ns /\ needed ni ns outs q.
Proof.
  intros ni ns outs FF FO. unfold node_to_evaluate.
  destruct (mark_fold ni outs (repeat false (length ns))) as (t & E1 & E2 & E3).
  { rewrite repeat_length. exact FO. }
  rewrite repeat_length in E2, E3. rewrite E1. cbn [bind].
  destruct (mark_down_spec ni ns (length ns) t) as (r & R1 & R2 & R3); [lia|exact E2|exact FF|].
  exists r. split; [exact R1|]. split; [exact R2|].
  assert (D : forall k q, length ns - q <= k -> In q r -> needed ni ns outs q).
  { induction k as [|k IH]; intros q K H; apply R3 in H; destruct H as [Q H]; [lia|].
    destruct H as [H|(m & n & H1 & H2 & H3)].
    - apply E3 in H. destruct H as [H|[_ H]]; [now apply nth_repeat_false in H|]. now apply needed_out.
    - apply needed_arg with m n; auto. apply IH; auto.
      pose proof (FF m n H2) as F. rewrite Forall_forall in F. specialize (F _ H3).
      apply R3 in H1. lia. }
  intros q. split.
  - intros H. split; [apply R3 in H; tauto|]. now apply (D (length ns)); [lia|].
  - intros [Q H]. induction H as [p H|p m n H IH N A].
    + apply R3. split; auto. left. apply E3. right. auto.
    + apply R3. split; auto. right. exists m, n. split; [|auto]. apply IH.
      apply nth_error_Some. congruence.
Qed.

(** * Running *)

Record network (ni ma nlib : nat) (ns : list cgpnode) (outs : list nat) : Prop := {
  nw_arity : Forall (fun n => length (n_args n) = ma) ns;
  nw_forward : forall q n, nth_error ns q = Some n -> Forall (fun a => a < ni + q) (n_args n);
  nw_funs : Forall (fun n => n_fun n < nlib) ns;
  nw_outs : Forall (fun g => g < ni + length ns) outs }.

Lemma load_input_spec : forall V ni (x vs : list V), ni <= length x -> ni <= length vs ->
  exists vs', load_input ni x vs = Ok vs' /\ length vs' = length vs /\
    forall g, nth_error vs' g = if g <? ni then nth_error x g else nth_error vs g.
Proof.
  intros V ni x vs LX LV. unfold load_input.
  destruct (@foldM_total _ _ (fun vs p => let* v := lget x p in lput vs p v)
    (fun l s => length s = length vs /\ l = seq 0 (length l) /\
       forall g, nth_error s g = if g <? length l then nth_error x g else nth_error vs g) (seq 0 ni) vs) as (s & E & H).
  - split; [reflexivity|]. split; [reflexivity|]. intros g. reflexivity.
  - intros l0 p l1 s1 E (H1 & H2 & H3).
    assert (P : p = length l0 /\ p < ni).
    { assert (N : nth_error (seq 0 ni) (length l0) = Some p) by (rewrite E, nth_error_app2, Nat.sub_diag by lia; reflexivity).
      assert (LL : length l0 < ni).
      { pose proof (f_equal (@length nat) E) as EL. rewrite seq_length, app_length in EL. cbn in EL. lia. }
      pose proof (nth_error_nth _ _ 0 N) as N'. rewrite seq_nth in N' by exact LL. lia. }
    destruct P as [-> P].
    destruct (lget_lt x (i := length l0)) as [v Ev]; [lia|]. rewrite Ev. cbn [bind].
    unfold lput. rewrite (proj2 (Nat.ltb_lt _ _)) by lia. eexists. split; [reflexivity|].
    rewrite lset_length. split; [exact H1|]. rewrite app_length. cbn [length]. split.
    + rewrite seq_app. cbn. congruence.
    + intros g. rewrite lset_nth_error. destruct (Nat.eqb_spec (length l0) g) as [<-|NE].
      * rewrite (proj2 (Nat.ltb_lt _ _)) by lia. rewrite (proj2 (Nat.ltb_lt (length l0) (length l0 + 1))) by lia.
        apply lget_ok in Ev. auto.
      * rewrite H3. destruct (Nat.ltb_spec g (length l0)); destruct (Nat.ltb_spec g (length l0 + 1)); auto; lia.
  - exists s. split; [exact E|]. destruct H as (H1 & H2 & H3). split; [exact H1|].
    intros g. rewrite H3, seq_length. reflexivity.
Qed.

Lemma all_some_map : forall A B (f : A -> option B) l vs, all_some (map f l) = Some vs <-> Forall2 (fun x v => f x = Some v) l vs.
Proof.
  intros A B f. induction l as [|x l IH]; intros vs; cbn [map all_some].
  - split; intros H; [injection H as <-; constructor|inversion H; auto].
  - split; intros H.
    + destruct (f x) as [v|] eqn:E; [|discriminate]. destruct (all_some (map f l)) as [s|] eqn:E2; [|discriminate].
      injection H as <-. constructor; auto. now apply IH.
    + inversion H as [|? v ? s E F]; subst. rewrite E. apply IH in F. rewrite F. reflexivity.
Qed.

Lemma read_args_aux : forall V (old : list V) (get : nat -> res nat) l args vs, mapM get l = Ok args ->
  all_some (map (nth_error old) args) = Some vs -> mapM (fun i => let* a := get i in lget old a) l = Ok vs.
Proof.
  intros V old get l args vs M H. apply mapM_ok in M. apply all_some_map in H. apply mapM_ok.
  revert vs H. induction M as [|i a l args E M IH]; intros vs H; inversion H as [|? v ? s E2 H2]; subst; constructor; auto.
  rewrite E. cbn [bind]. now apply lget_ok.
Qed.

Lemma read_args : forall V (old : list V) args ma vs, length args = ma ->
  all_some (map (nth_error old) args) = Some vs ->
  mapM (fun i => let* a := lget args i in lget old a) (seq 0 ma) = Ok vs.
Proof.
  intros V old args ma vs <- H.
  pose proof (mapM_lget_seq _ args [] []) as M. cbn [app length Nat.add] in M. rewrite app_nil_r in M.
  exact (read_args_aux V old (lget args) _ args vs M H).
Qed.

(** One run computes the fired value of every node to evaluate. *)
Lemma compute_spec : forall V (c : cgp V) ns outs used old,
  network (c_inputs c) (max_arity (c_library c)) (length (c_library c)) ns outs ->
  NoDup used -> (forall p, In p used -> p < length ns) -> length old = length ns + c_inputs c ->
  exists vs, compute_graph c {| gr_outputs := outs; gr_nodes := ns; gr_used := used |} old = Ok vs /\
    length vs = length old /\
    forall g, nth_error vs g =
      if (c_inputs c <=? g) && existsb (Nat.eqb (g - c_inputs c)) used
      then fire (c_inputs c) (c_library c) ns (nth_error old) g else nth_error old g.
Proof.
  intros V c ns outs used old NW ND U LO. unfold compute_graph. cbn [gr_nodes gr_used].
  destruct (@foldM_total _ _ (compute_node c ns old)
    (fun l s => length s = length old /\
       forall g, nth_error s g = if (c_inputs c <=? g) && existsb (Nat.eqb (g - c_inputs c)) l
                                 then fire (c_inputs c) (c_library c) ns (nth_error old) g else nth_error old g)
    (rev used) old) as (s & E & H1 & H2).
  - split; [reflexivity|]. intros g. cbn. rewrite andb_false_r. reflexivity.
  - intros l0 p l1 s1 E (H1 & H2).
    assert (P : p < length ns) by (apply U, in_rev; rewrite E; apply in_elt).
    unfold compute_node. destruct (lget_lt ns P) as [n En]. rewrite En. cbn [bind]. apply lget_ok in En.
    assert (LA : length (n_args n) = max_arity (c_library c)).
    { pose proof (nw_arity _ _ _ _ _ NW) as F. rewrite Forall_forall in F. apply F. eapply nth_error_In; eauto. }
    assert (AS : exists vs, all_some (map (nth_error old) (n_args n)) = Some vs).
    { pose proof (nw_forward _ _ _ _ _ NW _ _ En) as F. revert F. clear LA En E. induction (n_args n) as [|a r IH]; intros F; [exists []; reflexivity|].
      inversion F as [|? ? F1 F2]; subst. destruct (IH F2) as [vs Ev].
      destruct (nth_error old a) as [v|] eqn:Ea; [|apply nth_error_None in Ea; lia].
      cbn [map all_some]. rewrite Ea, Ev. eauto. }
    destruct AS as [vs Evs]. unfold arity_of. rewrite (read_args _ _ _ _ _ LA Evs). cbn [bind].
    assert (FU : n_fun n < length (c_library c)).
    { pose proof (nw_funs _ _ _ _ _ NW) as F. rewrite Forall_forall in F. apply F. eapply nth_error_In; eauto. }
    destruct (lget_lt (c_library c) FU) as [f Ef]. rewrite Ef. cbn [bind]. apply lget_ok in Ef.
    unfold lput. rewrite (proj2 (Nat.ltb_lt _ _)) by lia. eexists. split; [reflexivity|].
    rewrite lset_length. split; [exact H1|]. intros g. rewrite lset_nth_error, H2, existsb_app. cbn [existsb].
    destruct (Nat.eqb_spec (p + c_inputs c) g) as [<-|NE].
    + rewrite (proj2 (Nat.ltb_lt _ _)) by lia. rewrite (proj2 (Nat.leb_le _ _)) by lia.
      replace (p + c_inputs c - c_inputs c) with p by lia. rewrite Nat.eqb_refl, orb_true_r. cbn [andb].
      unfold fire. replace (p + c_inputs c - c_inputs c) with p by lia. rewrite En, Ef, Evs. reflexivity.
    + destruct (Nat.leb_spec (c_inputs c) g) as [C|C]; cbn [andb]; auto.
      destruct (Nat.eqb_spec (g - c_inputs c) p); [lia|]. rewrite orb_false_r. reflexivity.
  - exists s. split; [exact E|]. split; [exact H1|]. intros g. rewrite H2.
    replace (existsb (Nat.eqb (g - c_inputs c)) (rev used)) with (existsb (Nat.eqb (g - c_inputs c)) used); auto.
    apply eq_true_iff_eq. rewrite !existsb_exists. split; intros (y & Y & Q); exists y; split; auto; [now apply -> in_rev|now apply in_rev].
Qed.

(** The states a user reaches by runs. *)
Definition ready {V} (zero : V) (c : cgp V) (ns : list cgpnode) (outs used : list nat) (h : list (list V)) : Prop :=
  c_graph c = Some {| gr_outputs := outs; gr_nodes := ns; gr_used := used |} /\
  length (c_values c) = length ns + c_inputs c /\
  forall p, p < length ns -> needed (c_inputs c) ns outs p ->
    nth_error (c_values c) (c_inputs c + p) = signal zero (c_inputs c) (c_library c) ns h (c_inputs c + p).

Definition used_ok (ni : nat) (ns : list cgpnode) (outs used : list nat) : Prop :=
  NoDup used /\ forall q, In q used <-> q < length ns /\ needed ni ns outs q.

Lemma signal_node : forall V (zero : V) ni lib ns x h g, ni <= g ->
  signal zero ni lib ns (x :: h) g = fire ni lib ns (fun a => if a <? ni then nth_error x a else signal zero ni lib ns h a) g.
Proof. intros. cbn [signal]. destruct (Nat.ltb_spec g ni); [lia|]. reflexivity. Qed.

Lemma fire_ext : forall V ni (lib : list (cgpfunc V)) ns look look' g,
  (forall n a, nth_error ns (g - ni) = Some n -> In a (n_args n) -> look a = look' a) ->
  fire ni lib ns look g = fire ni lib ns look' g.
Proof.
  intros V ni lib ns look look' g H. unfold fire. destruct (nth_error ns (g - ni)) as [n|]; auto.
  destruct (nth_error lib (n_fun n)); auto.
  replace (map look' (n_args n)) with (map look (n_args n)); auto. apply map_ext_in. intros a A. now apply (H n).
Qed.

Lemma run_ready : forall V (zero : V) c ns outs used h x,
  network (c_inputs c) (max_arity (c_library c)) (length (c_library c)) ns outs ->
  used_ok (c_inputs c) ns outs used -> ready zero c ns outs used h -> c_inputs c <= length x ->
  exists c' out, run zero c x = Ok (c', out) /\ ready zero c' ns outs used (x :: h) /\
    c_genome c' = c_genome c /\ c_recurrency c' = c_recurrency c /\ same_shape c c' /\
    map Some out = map (signal zero (c_inputs c) (c_library c) ns (x :: h)) outs.
Proof.
  intros V zero c ns outs used h x NW (ND & UO) (G & LV & SG) LX.
  unfold run. rewrite G. cbn [bind]. rewrite G.
  destruct (load_input_spec _ (c_inputs c) x (c_values c)) as (v1 & E1 & L1 & N1); [exact LX|lia|].
  rewrite E1. cbn [bind].
  destruct (compute_spec _ c ns outs used v1 NW ND) as (v2 & E2 & L2 & N2).
  { intros p P. now apply UO in P. }
  { lia. }
  rewrite E2. cbn [bind gr_outputs].
  assert (FIRED : forall p, p < length ns -> needed (c_inputs c) ns outs p ->
    nth_error v2 (c_inputs c + p) = signal zero (c_inputs c) (c_library c) ns (x :: h) (c_inputs c + p)).
  { intros p P N. rewrite N2, (proj2 (Nat.leb_le _ _)) by lia. replace (c_inputs c + p - c_inputs c) with p by lia.
    rewrite (proj2 (existsb_exists _ _)) by (exists p; split; [apply UO; auto|apply Nat.eqb_refl]). cbn [andb].
    rewrite signal_node by lia. apply fire_ext. intros n a En A. replace (c_inputs c + p - c_inputs c) with p in En by lia.
    rewrite N1. destruct (Nat.ltb_spec a (c_inputs c)) as [C|C]; auto.
    replace a with (c_inputs c + (a - c_inputs c)) by lia.
    pose proof (nw_forward _ _ _ _ _ NW _ _ En) as F. rewrite Forall_forall in F. specialize (F _ A).
    apply SG; [lia|]. apply needed_arg with p n; auto. replace (c_inputs c + (a - c_inputs c)) with a by lia. exact A. }
  assert (OUT : exists out, mapM (lget v2) outs = Ok out /\ map Some out = map (signal zero (c_inputs c) (c_library c) ns (x :: h)) outs).
  { assert (K : forall l, incl l outs -> exists out, mapM (lget v2) l = Ok out /\ map Some out = map (signal zero (c_inputs c) (c_library c) ns (x :: h)) l).
    { induction l as [|g l IH]; intros I; [exists []; auto|].
      destruct IH as (out & O1 & O2); [intros y Y; apply I; right; auto|].
      assert (GI : In g outs) by (apply I; left; auto).
      pose proof (nw_outs _ _ _ _ _ NW) as F. rewrite Forall_forall in F. specialize (F _ GI).
      destruct (lget_lt v2 (i := g)) as [v Ev]; [lia|].
      exists (v :: out). split; [cbn [mapM]; rewrite Ev; cbn [bind]; rewrite O1; reflexivity|].
      cbn [map]. f_equal; auto. apply lget_ok in Ev. rewrite <- Ev.
      destruct (Nat.lt_ge_cases g (c_inputs c)) as [C|C].
      - rewrite N2. destruct (Nat.leb_spec (c_inputs c) g); [lia|]. cbn [andb]. rewrite N1.
        cbn [signal]. rewrite (proj2 (Nat.ltb_lt _ _)) by lia. reflexivity.
      - replace g with (c_inputs c + (g - c_inputs c)) by lia. apply FIRED; [lia|]. apply needed_out.
        replace (c_inputs c + (g - c_inputs c)) with g by lia. exact GI. }
    apply K. apply incl_refl. }
  destruct OUT as (out & O1 & O2). rewrite O1. cbn [bind].
  eexists. exists out. split; [reflexivity|]. split.
  - split; [reflexivity|]. cbn [c_values c_inputs]. split; [lia|]. exact FIRED.
  - cbn. unfold same_shape. cbn. auto 10.
Qed.

Lemma create_ready : forall V (zero : V) c ns outs,
  network (c_inputs c) (max_arity (c_library c)) (length (c_library c)) ns outs ->
  c_genome c = flat ns ++ outs -> length ns = c_cols c * c_rows c -> length outs = c_outputs c ->
  exists c' used, create_graph zero c = Ok c' /\ used_ok (c_inputs c) ns outs used /\ ready zero c' ns outs used [] /\
    c_genome c' = c_genome c /\ c_recurrency c' = c_recurrency c /\ same_shape c c'.
Proof.
  intros V zero c ns outs NW G LN LO. unfold create_graph.
  pose proof (flat_length _ _ (nw_arity _ _ _ _ _ NW)) as FL.
  assert (LG : length (c_genome c) = length (flat ns) + c_outputs c) by (rewrite G, app_length; lia).
  destruct (Nat.ltb_spec (length (c_genome c)) (c_outputs c)); [lia|].
  replace (length (c_genome c) - c_outputs c) with (length (flat ns)) by lia.
  pose proof (mapM_lget_seq _ outs (flat ns) []) as M. rewrite app_nil_r, LO, <- G in M.
  rewrite M. cbn [bind].
  pose proof (build_nodes_flat (arity_of c) ns [] outs (length (c_genome c)) (nw_arity _ _ _ _ _ NW)) as B.
  cbn [app length Nat.add] in B. rewrite <- G in B. rewrite B by nia. cbn [bind].
  destruct (node_to_evaluate_spec (c_inputs c) ns outs (nw_forward _ _ _ _ _ NW) (nw_outs _ _ _ _ _ NW)) as (used & U1 & U2 & U3).
  unfold graph_length. rewrite <- LN, U1. cbn [bind].
  eexists. exists used. split; [reflexivity|]. split; [split; auto|]. split.
  - split; [reflexivity|]. cbn [c_values c_inputs c_library]. rewrite repeat_length. split; [reflexivity|].
    intros p P N. cbn [signal]. destruct (Nat.ltb_spec (c_inputs c + p) (c_inputs c)); [lia|].
    destruct (nth_error (repeat zero (length ns + c_inputs c)) (c_inputs c + p)) as [v|] eqn:E.
    + apply nth_error_In, repeat_spec in E. congruence.
    + apply nth_error_None in E. rewrite repeat_length in E. lia.
  - cbn. unfold same_shape. cbn. auto 10.
Qed.

(** The outputs of a network after each of the inputs [xs], the inputs before being [h]. *)
Fixpoint outputs_of {V} (zero : V) ni lib ns outs (h : list (list V)) (xs : list (list V)) : list (list (option V)) :=
  match xs with
  | [] => []
  | x :: r => map (signal zero ni lib ns (x :: h)) outs :: outputs_of zero ni lib ns outs (x :: h) r
  end.

Lemma runs_ready : forall V (zero : V) ns outs used xs c h,
  network (c_inputs c) (max_arity (c_library c)) (length (c_library c)) ns outs ->
  used_ok (c_inputs c) ns outs used -> ready zero c ns outs used h -> Forall (fun x => c_inputs c <= length x) xs ->
  exists c' os, runs zero c xs = Ok (c', os) /\ ready zero c' ns outs used (rev xs ++ h) /\
    c_genome c' = c_genome c /\ same_shape c c' /\
    map (map Some) os = outputs_of zero (c_inputs c) (c_library c) ns outs h xs.
Proof.
  intros V zero ns outs used. induction xs as [|x xs IH]; intros c h NW UO R F; cbn [runs].
  - exists c, []. split; [reflexivity|]. split; [exact R|]. unfold same_shape. auto 10.
  - inversion F as [|? ? F1 F2]; subst.
    destruct (run_ready V zero c ns outs used h x NW UO R F1) as (c1 & o & E & R1 & G1 & _ & S1 & O).
    rewrite E. cbn [bind fst snd].
    destruct S1 as (S1 & S2 & S3 & S4 & S5).
    destruct (IH c1 (x :: h)) as (c2 & os & E2 & R2 & G2 & (T1 & T2 & T3 & T4 & T5) & O2).
    { rewrite S1, S5. exact NW. } { rewrite S1. exact UO. } { exact R1. } { rewrite S1. exact F2. }
    rewrite E2. cbn [bind fst snd]. exists c2, (o :: os). split; [reflexivity|]. split.
    { cbn [rev]. rewrite <- app_assoc. exact R2. }
    split; [congruence|]. split; [unfold same_shape; repeat split; congruence|].
    cbn [map outputs_of]. rewrite O, O2, S1, S5. reflexivity.
Qed.

Lemma runs_new : forall V (zero : V) c ns outs xs, c_graph c = None ->
  network (c_inputs c) (max_arity (c_library c)) (length (c_library c)) ns outs ->
  c_genome c = flat ns ++ outs -> length ns = c_cols c * c_rows c -> length outs = c_outputs c ->
  Forall (fun x => c_inputs c <= length x) xs ->
  exists c' os, runs zero c xs = Ok (c', os) /\
    map (map Some) os = outputs_of zero (c_inputs c) (c_library c) ns outs [] xs.
Proof.
  intros V zero c ns outs xs GN NW G LN LO F. destruct xs as [|x xs].
  - exists c, []. split; reflexivity.
  - destruct (create_ready V zero c ns outs NW G LN LO) as (c1 & used & E & UO & R & G1 & _ & S1 & S2 & S3 & S4 & S5).
    destruct (runs_ready V zero ns outs used (x :: xs) c1 []) as (c2 & os & E2 & _ & _ & _ & O).
    { rewrite S1, S5. exact NW. } { rewrite S1. exact UO. } { exact R. } { rewrite S1. exact F. }
    exists c2, os. split; [|rewrite S1, S5 in O; exact O].
    assert (RE : run zero c x = run zero c1 x).
    { unfold run. rewrite GN, E. destruct R as [R _]. rewrite R. cbn [bind]. rewrite !R. reflexivity. }
    rewrite <- E2. cbn [runs]. rewrite RE. reflexivity.
Qed.

Lemma outputs_of_nth : forall V (zero : V) ni lib ns outs xs h t, t < length xs ->
  nth_error (outputs_of zero ni lib ns outs h xs) t = Some (map (signal zero ni lib ns (rev (firstn (S t) xs) ++ h)) outs).
Proof.
  intros V zero ni lib ns outs. induction xs as [|x xs IH]; intros h t T; [cbn in T; lia|].
  destruct t as [|t]; cbn [outputs_of nth_error]; [reflexivity|].
  rewrite IH by (cbn in T; lia). f_equal.
  change (firstn (S (S t)) (x :: xs)) with (x :: firstn (S t) xs). cbn [rev]. rewrite <- app_assoc. reflexivity.
Qed.

(** * Settling *)

Lemma value_signal : forall V (zero : V) ni lib ns x h d g v, value ni lib ns d x g = Some v ->
  signal zero ni lib ns (repeat x d ++ h) g = Some v.
Proof.
  intros V zero ni lib ns x h. induction d as [|d IH]; intros g v H; cbn [value] in H; [discriminate|].
  cbn [repeat app signal]. destruct (g <? ni); [exact H|].
  unfold fire in *. destruct (nth_error ns (g - ni)) as [n|]; [|discriminate].
  destruct (nth_error lib (n_fun n)) as [f|]; [|discriminate].
  destruct (all_some (map (fun a => if a <? ni then nth_error x a else value ni lib ns d x a) (n_args n))) as [vs|] eqn:E; [|discriminate].
  apply all_some_map in E.
  replace (all_some (map (fun a => if a <? ni then nth_error x a else signal zero ni lib ns (repeat x d ++ h) a) (n_args n))) with (Some vs); [exact H|].
  symmetry. apply all_some_map. revert E. clear H. induction 1 as [|a w l vs E F IH2]; constructor; auto.
  destruct (a <? ni); auto.
Qed.

Lemma value_more : forall V ni (lib : list (cgpfunc V)) ns x d d' g v, value ni lib ns d x g = Some v -> d <= d' ->
  value ni lib ns d' x g = Some v.
Proof.
  intros V ni lib ns x. induction d as [|d IH]; intros d' g v H L; cbn [value] in H; [discriminate|].
  destruct d' as [|d']; [lia|]. cbn [value]. destruct (g <? ni); [exact H|].
  unfold fire in *. destruct (nth_error ns (g - ni)) as [n|]; [|discriminate].
  destruct (nth_error lib (n_fun n)) as [f|]; [|discriminate].
  destruct (all_some (map (fun a => if a <? ni then nth_error x a else value ni lib ns d x a) (n_args n))) as [vs|] eqn:E; [|discriminate].
  apply all_some_map in E.
  replace (all_some (map (fun a => if a <? ni then nth_error x a else value ni lib ns d' x a) (n_args n))) with (Some vs); [exact H|].
  symmetry. apply all_some_map. revert E. clear H. induction 1 as [|a w l vs E F IH2]; constructor; auto.
  destruct (a <? ni); auto. apply IH; [exact E|lia].
Qed.

(** A node of column [k] has a value within [k + 1] layers. *)
Lemma value_defined : forall V ni rows (lib : list (cgpfunc V)) ns x, 0 < rows -> ni <= length x ->
  Forall (fun n => n_fun n < length lib) ns ->
  (forall q n, nth_error ns q = Some n -> Forall (fun a => a < ni + q / rows * rows) (n_args n)) ->
  forall k p, p < length ns -> p / rows <= k -> exists v, value ni lib ns (S k) x (ni + p) = Some v.
Proof.
  intros V ni rows lib ns x R0 LX FU FF. induction k as [k IH] using lt_wf_ind. intros p P K.
  cbn [value]. destruct (Nat.ltb_spec (ni + p) ni); [lia|]. unfold fire. replace (ni + p - ni) with p by lia.
  destruct (nth_error ns p) as [n|] eqn:En; [|apply nth_error_None in En; lia].
  assert (Fn : n_fun n < length lib) by (rewrite Forall_forall in FU; apply FU; eapply nth_error_In; eauto).
  destruct (nth_error lib (n_fun n)) as [f|] eqn:Ef; [|apply nth_error_None in Ef; lia].
  assert (A : exists vs, all_some (map (fun a => if a <? ni then nth_error x a else value ni lib ns k x a) (n_args n)) = Some vs).
  { pose proof (FF p n En) as F. revert F. clear Ef Fn. induction (n_args n) as [|a l IHl]; intros F; [exists []; reflexivity|].
    inversion F as [|? ? F1 F2]; subst. destruct (IHl F2) as [vs Ev]. cbn [map all_some]. rewrite Ev.
    destruct (Nat.ltb_spec a ni) as [C|C].
    - destruct (nth_error x a) eqn:Ea; eauto. apply nth_error_None in Ea. lia.
    - assert (Q : (a - ni) / rows < p / rows).
      { apply Nat.div_lt_upper_bound; [lia|]. rewrite Nat.mul_comm. lia. }
      destruct k as [|k]; [lia|].
      destruct (IH k (Nat.lt_succ_diag_r k) (a - ni)) as [v Eva].
      { pose proof (Nat.div_mod p rows). assert (p / rows * rows <= p) by nia. lia. } { lia. }
      replace (ni + (a - ni)) with a in Eva by lia. rewrite Eva. eauto. }
  destruct A as [vs Ev]. rewrite Ev. eauto.
Qed.
