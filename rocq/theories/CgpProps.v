(** * C84-C88: Cartesian genetic programming. *)
From Coq Require Import List Bool Arith ZArith QArith Lia Lqa Permutation.
From Verif Require Import Py PyList CgpModel CgpSpec CgpProofs CgpGenomeProofs CgpConvProofs.
Import ListNotations.
Local Open Scope nat_scope.

(** ** C84: what running a genome computes *)

(** Running a valid genome on one input after the other never fails; the outputs at each time are those
    of the synchronous network the genome describes: every node reads the present inputs and the other
    nodes one run before. *)
Theorem C84_run : forall V (zero : V) c xs, valid c -> c_graph c = None -> Forall (fun x => c_inputs c <= length x) xs ->
  exists ns outs c' os, c_genome c = flat ns ++ outs /\ length outs = c_outputs c /\ length ns = c_cols c * c_rows c /\
    Forall (fun n => length (n_args n) = max_arity (c_library c)) ns /\
    runs zero c xs = Ok (c', os) /\ length os = length xs /\
    forall t o, nth_error os t = Some o ->
      map Some o = map (signal zero (c_inputs c) (c_library c) ns (rev (firstn (S t) xs))) outs.
Proof.
  intros V zero c xs VA GN F. destruct (valid_network _ _ _ _ _ _ _ VA) as (ns & outs & E1 & E2 & E3 & NW & _).
  destruct (runs_new V zero c ns outs xs GN NW E1 E2 E3 F) as (c' & os & R & O).
  assert (LO : length os = length xs).
  { apply (f_equal (@length _)) in O. rewrite map_length in O. rewrite O.
    clear. generalize (@nil (list V)) as h. induction xs as [|x xs IH]; intros h; cbn; auto. }
  exists ns, outs, c', os. repeat (split; [first [assumption|apply NW]|]).
  intros t o N. assert (T : t < length xs) by (rewrite <- LO; apply nth_error_Some; congruence).
  pose proof (outputs_of_nth V zero (c_inputs c) (c_library c) ns outs xs [] t T) as H. rewrite app_nil_r in H.
  rewrite <- O in H. rewrite nth_error_map, N in H. cbn in H. injection H as H. exact H.
Qed.

(** Every node holds enough arguments for every function of the library, and no more than the function
    that takes the most. *)
Theorem C84_arity : forall V (lib : list (@cgpfunc V)), lib <> [] ->
  (forall f, In f lib -> arity f <= max_arity lib) /\ exists f, In f lib /\ arity f = max_arity lib.
Proof.
  intros V lib NE. unfold max_arity.
  assert (G : forall l m, m <= fold_left (fun m f => Nat.max m (arity f)) l m /\
    (forall f : @cgpfunc V, In f l -> arity f <= fold_left (fun m f => Nat.max m (arity f)) l m) /\
    (fold_left (fun m f => Nat.max m (arity f)) l m = m \/
     exists f, In f l /\ arity f = fold_left (fun m f => Nat.max m (arity f)) l m)).
  { induction l as [|f l IH]; intros m; cbn [fold_left]; [split; [lia|split; [intros ? []|now left]]|].
    destruct (IH (Nat.max m (arity f))) as (H1 & H2 & H3). split; [lia|]. split.
    - intros h [ <- |H]; [lia|auto].
    - destruct H3 as [H3|(h & H3 & H4)]; [|right; exists h; split; [now right|exact H4]].
      rewrite H3. destruct (Nat.max_spec m (arity f)) as [[L E]|[L E]]; rewrite E; [|now left].
      right. exists f. split; [now left|reflexivity]. }
  destruct (G lib 0) as (H1 & H2 & H3). split; [exact H2|]. destruct H3 as [H3|H3]; [|exact H3].
  destruct lib as [|f lib]; [congruence|]. exists f. split; [now left|]. rewrite H3.
  specialize (H2 f (or_introl eq_refl)). rewrite H3 in H2. lia.
Qed.

Example C84_arity_mixed : exists (lib : list (@cgpfunc nat)), lib <> [] /\ map arity lib = [1; 2; 1] /\ max_arity lib = 2.
Proof.
  exists (map (fun k => {| arity := k; fn := fun _ => 0 |}) [1; 2; 1]). repeat split. discriminate.
Qed.

(** The nodes that are evaluated are exactly those an output depends on. *)
Theorem C84_evaluated : forall V (zero : V) c, valid c ->
  exists ns outs c' g, c_genome c = flat ns ++ outs /\ length outs = c_outputs c /\
    Forall (fun n => length (n_args n) = max_arity (c_library c)) ns /\
    create_graph zero c = Ok c' /\ c_graph c' = Some g /\ NoDup (gr_used g) /\
    forall p, In p (gr_used g) <-> p < length ns /\ needed (c_inputs c) ns outs p.
Proof.
  intros V zero c VA. destruct (valid_network _ _ _ _ _ _ _ VA) as (ns & outs & E1 & E2 & E3 & NW & _).
  destruct (create_ready V zero c ns outs NW E1 E2 E3) as (c' & used & C & (U1 & U2) & (R & _) & _).
  exists ns, outs, c'. eexists. split; [exact E1|]. split; [exact E3|]. split; [apply NW|]. split; [exact C|]. split; [exact R|].
  split; [exact U1|exact U2].
Qed.

(** After as many runs on the same input as there are columns, the outputs are the mathematical values of
    the genome on that input, whatever was run before. *)
Theorem C84_settles : forall V (zero : V) c before x d, valid c -> c_graph c = None ->
  Forall (fun y => c_inputs c <= length y) before -> c_inputs c <= length x -> 1 <= d -> c_cols c <= d ->
  exists ns outs c' os o, c_genome c = flat ns ++ outs /\ length outs = c_outputs c /\
    Forall (fun n => length (n_args n) = max_arity (c_library c)) ns /\
    runs zero c (before ++ repeat x d) = Ok (c', os) /\ nth_error os (length before + d - 1) = Some o /\
    map Some o = map (value (c_inputs c) (c_library c) ns d x) outs.
Proof.
  intros V zero c before x d VA GN F LX D1 D2.
  destruct (valid_network _ _ _ _ _ _ _ VA) as (ns & outs & E1 & E2 & E3 & NW & CF).
  assert (FX : Forall (fun y => c_inputs c <= length y) (before ++ repeat x d)).
  { apply Forall_app. split; auto. apply Forall_forall. intros y Y. apply repeat_spec in Y. now subst. }
  destruct (runs_new V zero c ns outs _ GN NW E1 E2 E3 FX) as (c' & os & R & O).
  assert (T : length before + d - 1 < length (before ++ repeat x d)) by (rewrite app_length, repeat_length; lia).
  pose proof (outputs_of_nth V zero (c_inputs c) (c_library c) ns outs _ [] _ T) as H. rewrite app_nil_r in H.
  rewrite <- O in H. rewrite nth_error_map in H. destruct (nth_error os (length before + d - 1)) as [o|] eqn:No; [|discriminate]. unfold option_map in H.
  exists ns, outs, c', os, o. repeat (split; [first [assumption|apply NW]|]).
  apply (f_equal (fun y => match y with Some z => z | None => [] end)) in H. cbv beta iota in H. rewrite H. apply map_ext_in. intros g G.
  rewrite firstn_all2 by (rewrite app_length, repeat_length; lia). rewrite rev_app_distr.
  assert (RR : rev (repeat x d) = repeat x d).
  { clear. induction d as [|d IH]; auto. cbn [repeat rev]. rewrite IH. symmetry. apply repeat_cons. }
  rewrite RR.
  assert (VS : exists v, value (c_inputs c) (c_library c) ns d x g = Some v).
  { destruct d as [|d]; [lia|]. destruct (Nat.lt_ge_cases g (c_inputs c)) as [C|C].
    - cbn [value]. rewrite (proj2 (Nat.ltb_lt _ _)) by exact C.
      destruct (nth_error x g) eqn:Ex; eauto. apply nth_error_None in Ex. lia.
    - pose proof (nw_outs _ _ _ _ _ NW) as FO. rewrite Forall_forall in FO. specialize (FO _ G).
      assert (R0 : 0 < c_rows c) by nia.
      replace g with (c_inputs c + (g - c_inputs c)) by lia.
      apply value_defined with (rows := c_rows c); auto; [apply NW|lia|].
      assert (Q : (g - c_inputs c) / c_rows c < c_cols c) by (apply Nat.div_lt_upper_bound; [lia|nia]). lia. }
  destruct VS as [v Ev]. rewrite Ev. now apply value_signal.
Qed.

(** Two inputs, two columns of one row, outputs the last node: node 0 is the sum of the inputs, node 1 the
    sum of node 0 and input 0. *)
Definition zsum (l : list Z) : Z := match l with a :: b :: _ => (a + b)%Z | _ => 0%Z end.
Definition zlib : list (cgpfunc Z) := [ {| fn := zsum; arity := 2 |} ].
Definition small : cgp Z := new_cgp [0; 0; 1; 0; 2; 0; 3] 2 1 2 1 zlib 1%Q.
Definition fst_or {A B} (d : A) (r : res (A * B)) : A := match r with Ok (a, _) => a | Err _ => d end.
Definition ok_or {A} (d : A) (r : res A) : A := match r with Ok a => a | Err _ => d end.
Example C84_small_valid : valid small.
Proof.
  split; [reflexivity|]. intros i v H.
  do 7 (destruct i as [|i]; [cbn in H; injection H as <-; vm_compute; lia|]). destruct i; discriminate.
Qed.
(** The first run on (5, 7) gives 0 + 5, the second one 5 + 7 + 5. *)
Example C84_small : exists c', runs 0%Z small [[5; 7]; [5; 7]; [1; 1]]%Z = Ok (c', [[5]; [17]; [13]]%Z).
Proof. exists (fst_or small (runs 0%Z small [[5; 7]; [5; 7]; [1; 1]]%Z)). vm_compute. reflexivity. Qed.
Example C84_small_value : value 2 zlib [ {| n_args := [0; 1]; n_fun := 0 |}; {| n_args := [2; 0]; n_fun := 0 |} ] 2 [5; 7]%Z 3 = Some 17%Z.
Proof. reflexivity. Qed.

(** The answer is not a function of the input: the same input twice in a row gives two answers, although
    the solver built on it says its policy is deterministic. *)
Theorem C84_function_refuted : exists (c c' : cgp Z) x o1 o2, valid c /\ c_inputs c <= length x /\
  runs 0%Z c [x; x] = Ok (c', [o1; o2]) /\ o1 <> o2.
Proof.
  exists small, (fst_or small (runs 0%Z small [[5; 7]; [5; 7]]%Z)), [5; 7]%Z, [5]%Z, [17]%Z.
  split; [apply C84_small_valid|]. split; [cbn; lia|]. split; [vm_compute; reflexivity|discriminate].
Qed.

(** A genome mutated after a run keeps answering as before the mutation. *)
Theorem C84_mutation_after_run_ignored : forall V (zero : V) c c' ds x, c_graph c <> None -> mutate c ds = Ok c' ->
  match run zero c x, run zero c' x with
  | Ok (_, o), Ok (_, o') => o = o'
  | Err e, Err e' => e = e'
  | _, _ => False
  end.
Proof.
  intros V zero c c' ds x GN H.
  assert (K : forall ds (c c' : cgp V), mutate c ds = Ok c' -> c' = with_genome c (c_genome c')).
  { clear. induction ds as [|d ds IH]; intros c c' H; cbn in H.
    - injection H as <-. destruct c; reflexivity.
    - apply bind_ok in H. destruct H as (c1 & E1 & H). apply IH in H. unfold mutate_one in E1.
      apply bind_ok in E1. destruct E1 as (i & _ & E1). apply bind_ok in E1. destruct E1 as (v & _ & E1).
      apply bind_ok in E1. destruct E1 as (g & _ & E1). injection E1 as <-. rewrite H. reflexivity. }
  apply K in H. rewrite H. generalize (c_genome c') as g'. intros g'. clear H K ds.
  destruct c as [ge ni no cols rows lib rd [g|] vals]; [|cbn in GN; congruence].
  unfold run, with_genome, compute_graph.
  cbn [c_graph c_genome c_inputs c_outputs c_cols c_rows c_library c_recurrency c_values bind].
  destruct (load_input ni x vals) as [vs|e]; cbn [bind]; auto.
  unfold compute_node, arity_of. cbn [c_inputs c_library].
  destruct (foldM _ vs _) as [vs'|e]; cbn [bind]; auto.
  destruct (mapM (lget vs') (gr_outputs g)); cbn [bind]; auto.
Qed.
Theorem C84_stale_graph_refuted : exists (c c1 c2 : cgp Z) ds x o o' fresh c3, valid c /\
  run 0%Z c x = Ok (c1, o) /\ mutate c1 ds = Ok c2 /\ valid c2 /\
  (exists c', run 0%Z c2 x = Ok (c', o')) /\ run 0%Z (clone c2) x = Ok (c3, fresh) /\ o' <> fresh.
Proof.
  pose (c := new_cgp [0; 0; 1; 0; 2; 0; 0] 2 1 2 1 zlib 1%Q). pose (c1 := fst_or c (run 0%Z c [5; 7]%Z)).
  pose (c2 := ok_or c (mutate c1 [(6, 1)])).
  exists c, c1, c2, [(6, 1)], [5; 7]%Z, [5]%Z, [5]%Z, [7]%Z, (fst_or c (run 0%Z (clone c2) [5; 7]%Z)).
  split. { split; [reflexivity|]. intros i v H.
    do 7 (destruct i as [|i]; [vm_compute in H; injection H as <-; vm_compute; lia|]). destruct i; discriminate. }
  split; [vm_compute; reflexivity|]. split; [vm_compute; reflexivity|].
  assert (G : c_genome c2 = [0; 0; 1; 0; 2; 0; 1]) by (vm_compute; reflexivity).
  split.
  { assert (L : valid_genome 2 1 2 1 2 1 (c_genome c2)).
    { rewrite G. split; [reflexivity|]. intros i v H.
      do 7 (destruct i as [|i]; [cbn in H; injection H as <-; vm_compute; lia|]). destruct i; discriminate. }
    unfold valid. replace (c_inputs c2) with 2 by (vm_compute; reflexivity). replace (c_outputs c2) with 1 by (vm_compute; reflexivity).
    replace (c_cols c2) with 2 by (vm_compute; reflexivity). replace (c_rows c2) with 1 by (vm_compute; reflexivity).
    replace (max_arity (c_library c2)) with 2 by (vm_compute; reflexivity).
    replace (length (c_library c2)) with 1 by (vm_compute; reflexivity). exact L. }
  split; [exists (fst_or c (run 0%Z c2 [5; 7]%Z)); vm_compute; reflexivity|]. split; [vm_compute; reflexivity|discriminate].
Qed.

(** With a backward arc (what the recurrency distance is for) a node may be needed without being
    evaluated: it counts as 0 for ever. *)
Theorem C84_recurrent_refuted : exists (c c' : cgp Z) ns outs xs os o,
  c_genome c = flat ns ++ outs /\ Forall (fun n => length (n_args n) = max_arity (c_library c)) ns /\ length outs = c_outputs c /\
  length ns = c_cols c * c_rows c /\ runs 0%Z c xs = Ok (c', os) /\ last os [] = o /\
  map Some o <> map (signal 0%Z (c_inputs c) (c_library c) ns (rev xs)) outs.
Proof.
  pose (c := new_cgp [0; 2; 0; 0; 0; 0; 1] 1 1 2 1 zlib (3 # 1)%Q).
  exists c, (fst_or c (runs 0%Z c [[5]; [5]; [5]]%Z)),
    [ {| n_args := [2; 0]; n_fun := 0 |}; {| n_args := [0; 0]; n_fun := 0 |} ], [1], [[5]; [5]; [5]]%Z, [[5]; [5]; [5]]%Z, [5]%Z.
  split; [reflexivity|]. split; [repeat constructor|]. split; [reflexivity|]. split; [reflexivity|].
  split; [vm_compute; reflexivity|]. split; [reflexivity|]. vm_compute. discriminate.
Qed.

(** ** C85: genomes stay valid *)

(** The random genomes are valid whatever the draws, and every valid genome can be drawn. *)
Theorem C85_random : forall V ni no cols rows (lib : list (cgpfunc V)) rd draw, 0 < length lib -> 0 < ni ->
  exists c, random_cgp ni no cols rows lib rd draw = Ok c /\ valid c /\
    c_inputs c = ni /\ c_outputs c = no /\ c_cols c = cols /\ c_rows c = rows /\ c_library c = lib.
Proof.
  intros V ni no cols rows lib rd draw NL NI.
  destruct (random_ok V ni no cols rows lib rd draw NL NI) as (c & E & VA & H). exists c. intuition.
Qed.
Theorem C85_random_reaches_all : forall V ni no cols rows (lib : list (cgpfunc V)) rd g,
  valid_genome ni no cols rows (max_arity lib) (length lib) g ->
  exists draw, random_cgp ni no cols rows lib rd draw = Ok (new_cgp g ni no cols rows lib rd).
Proof. intros V ni no cols rows lib rd g H. eexists. now apply random_all. Qed.
Example C85_random_some : random_cgp 2 1 2 1 zlib 1%Q (fun i => nth i [4; 0; 1; 8; 5; 6; 3] 0) = Ok small.
Proof. reflexivity. Qed.

(** With one row both mutations of a valid genome never fail and give valid genomes of the same shape;
    the one gene by gene changes only the genes that were selected. *)
Theorem C85_mutate : forall V (c : cgp V) ds, valid c -> c_rows c = 1 -> 0 < length (c_library c) -> 0 < c_inputs c ->
  c_genome c <> [] -> exists c', mutate c ds = Ok c' /\ valid c' /\ same_shape c c'.
Proof. intros V c ds. apply mutate_ok. Qed.
Theorem C85_mutate_per_gene : forall V flip draw (c : cgp V), valid c -> c_rows c = 1 -> (c_recurrency c == 1)%Q ->
  0 < length (c_library c) -> 0 < c_inputs c ->
  exists c', mutate_per_gene flip draw c = Ok c' /\ valid c' /\ same_shape c c' /\
    forall j, flip j = false -> nth_error (c_genome c') j = nth_error (c_genome c) j.
Proof.
  intros V flip draw c VA R1 RD NL NI.
  destruct (mutate_per_gene_ok V flip draw c VA R1 RD NL NI) as (c' & E & V1 & S1 & _ & _ & H). exists c'. auto.
Qed.
Example C85_mutated : exists c', mutate small [(4, 0); (6, 5)] = Ok c' /\ c_genome c' = [0; 0; 1; 0; 0; 0; 1].
Proof. eexists. split; reflexivity. Qed.
Example C85_mutated_per_gene : exists c', mutate_per_gene (fun i => i =? 4) (fun _ => 1) small = Ok c' /\ c_genome c' = [0; 0; 1; 0; 1; 0; 3].
Proof. eexists. split; reflexivity. Qed.

(** A saved genome is read back. *)
Theorem C85_save_load : forall V (c : cgp V), load (save c) (c_library c) = Ok (clone c) /\
  c_genome (clone c) = c_genome c /\ same_shape c (clone c).
Proof. intros V c. unfold same_shape. cbn. auto 10. Qed.

(** With two rows a mutation of a valid genome can give a genome that cannot be run. *)
Theorem C85_rows_mutate_refuted : exists (c c' : cgp Z) ds x, valid c /\ 0 < c_inputs c /\ 0 < length (c_library c) /\
  mutate c ds = Ok c' /\ c_inputs c <= length x /\ run 0%Z c' x = Err IndexError.
Proof.
  exists (new_cgp [0; 0; 0; 0; 0; 0; 0; 0; 0; 0; 0; 0; 5] 2 1 2 2 zlib 1%Q). eexists. exists [(10, 6)], [1; 1]%Z.
  split. { split; [reflexivity|]. intros i v H.
    do 13 (destruct i as [|i]; [cbn in H; injection H as <-; vm_compute; lia|]). destruct i; discriminate. }
  split; [cbn; lia|]. split; [cbn; lia|]. split; [reflexivity|]. split; [cbn; lia|reflexivity].
Qed.
(** The one gene by gene can make a node its own argument. *)
Theorem C85_rows_forward_refuted : exists (c c' : cgp Z) flip draw, valid c /\ (c_recurrency c == 1)%Q /\ 0 < c_inputs c /\
  mutate_per_gene flip draw c = Ok c' /\ ~ valid c' /\
  exists ns outs n, c_genome c' = flat ns ++ outs /\ nth_error ns 2 = Some n /\ In (c_inputs c' + 2) (n_args n).
Proof.
  exists (new_cgp [0; 0; 0; 0; 0; 0; 0; 0; 0; 0; 0; 0; 4] 2 1 2 2 zlib 1%Q). eexists. exists (fun i => i =? 7), (fun _ => 4).
  split. { split; [reflexivity|]. intros i v H.
    do 13 (destruct i as [|i]; [cbn in H; injection H as <-; vm_compute; lia|]). destruct i; discriminate. }
  split; [reflexivity|]. split; [cbn; lia|]. split; [reflexivity|]. split.
  { intros [_ H]. specialize (H 7 4 eq_refl). vm_compute in H. lia. }
  exists [ {| n_args := [0; 0]; n_fun := 0 |}; {| n_args := [0; 0]; n_fun := 0 |}; {| n_args := [4; 0]; n_fun := 0 |}; {| n_args := [0; 0]; n_fun := 0 |} ], [4].
  eexists. split; [reflexivity|]. split; [reflexivity|]. cbn. auto.
Qed.
(** With more rows than inputs it fails on the first node. *)
Theorem C85_rows_fail_refuted : exists (c : cgp Z) flip draw, valid c /\ (c_recurrency c == 1)%Q /\ 0 < c_inputs c /\
  0 < length (c_library c) /\ mutate_per_gene flip draw c = Err ValueError.
Proof.
  exists (new_cgp [0; 0; 0; 0; 0; 0; 1] 1 1 1 2 zlib 1%Q), (fun i => i =? 1), (fun _ => 0).
  split. { split; [reflexivity|]. intros i v H.
    do 7 (destruct i as [|i]; [cbn in H; injection H as <-; vm_compute; lia|]). destruct i; discriminate. }
  split; [reflexivity|]. split; [cbn; lia|]. split; [cbn; lia|reflexivity].
Qed.
(** A genome with backward arcs allowed loses the permission when it is copied or read back: the
    offspring of the evolution strategy never get new ones. *)
Theorem C85_recurrency_refuted : exists c : cgp Z, ~ (c_recurrency (clone c) == c_recurrency c)%Q.
Proof. exists (new_cgp [] 1 0 0 1 zlib (3 # 1)%Q). cbn. discriminate. Qed.

(** ** C86: the evolution strategy *)

(** It never fails (one row, at least one offspring), and its individual stays valid. *)
Theorem C86_total : forall V (ev : nat -> nat -> cgp V -> Z) dr nb father k, 0 < nb -> valid father -> c_rows father = 1 ->
  0 < length (c_library father) -> 0 < c_inputs father ->
  exists c v, es_run ev dr nb father k = Ok (c, v) /\ valid c /\ same_shape father c.
Proof. intros V ev dr nb father k NB VA R1 NL NI. exact (es_run_total V ev dr nb father NB VA R1 NL NI k). Qed.

(** One iteration: among the [nb] mutated copies of the present individual, the first best one replaces it
    when it is at least as good; otherwise nothing changes. *)
Theorem C86_step : forall V (ev : nat -> nat -> cgp V -> Z) dr nb father k c v,
  es_run ev dr nb father (S k) = Ok (c, v) ->
  exists c0 v0 offs b o, es_run ev dr nb father k = Ok (c0, v0) /\ length offs = nb /\
    (forall i, i < nb -> exists x, nth_error offs i = Some x /\
       mutate_per_gene (d_flip dr (S k) i) (d_draw dr (S k) i) (clone c0) = Ok x) /\
    nth_error offs b = Some o /\
    (forall i x, nth_error offs i = Some x -> (ev (S k) i x <= ev (S k) b o)%Z) /\
    (forall i x, i < b -> nth_error offs i = Some x -> (ev (S k) i x < ev (S k) b o)%Z) /\
    ((v0 <= ev (S k) b o)%Z /\ c = o /\ v = ev (S k) b o \/ (ev (S k) b o < v0)%Z /\ c = c0 /\ v = v0).
Proof.
  intros V ev dr nb father k c v H. rewrite es_run_S in H. apply bind_ok in H. destruct H as ((c0, v0) & E & H).
  destruct (es_step_spec V ev dr nb c0 v0 (S k) c v H) as (offs & b & o & LO & OFF & No & _ & B1 & B2 & C).
  exists c0, v0, offs, b, o. auto 10.
Qed.

(** The best evaluation seen: never less than any evaluation made, the one of the start included. *)
Theorem C86_best : forall V (ev : nat -> nat -> cgp V -> Z) dr nb father k c v, es_run ev dr nb father k = Ok (c, v) ->
  (ev 0%nat 0%nat father <= v)%Z /\
  forall k' c' v', k' < k -> es_run ev dr nb father k' = Ok (c', v') ->
    (v' <= v)%Z /\ forall i o, i < nb -> mutate_per_gene (d_flip dr (S k') i) (d_draw dr (S k') i) (clone c') = Ok o ->
      (ev (S k') i o <= v)%Z.
Proof.
  intros V ev dr nb father. induction k as [|k IH]; intros c v H.
  - cbn in H. injection H as <- <-. split; [lia|]. intros; lia.
  - destruct (C86_step V ev dr nb father k c v H) as (c0 & v0 & offs & b & o & E & LO & OFF & No & B1 & _ & C).
    destruct (IH c0 v0 E) as [I1 I2]. assert (V0 : (v0 <= v)%Z) by (destruct C as [(C1 & _ & ->)|(_ & _ & ->)]; lia).
    split; [lia|]. intros k' c' v' K E'. destruct (Nat.eq_dec k' k) as [->|NE].
    + assert (E2 : Ok (c', v') = Ok (c0, v0)) by congruence. injection E2 as -> ->. split; [exact V0|].
      intros i x I X. destruct (OFF i I) as (x' & N' & X'). assert (x' = x) by congruence. subst x'.
      specialize (B1 i x N'). destruct C as [(C1 & _ & ->)|(C1 & _ & ->)]; lia.
    + assert (KL : k' < k) by lia. destruct (I2 k' c' v' KL E') as [J1 J2]. split; [lia|].
      intros i x I X. specialize (J2 i x I X). lia.
Qed.
Theorem C86_attained : forall V (ev : nat -> nat -> cgp V -> Z) dr nb father k c v, es_run ev dr nb father k = Ok (c, v) ->
  exists it i, it <= k /\ v = ev it i c.
Proof.
  intros V ev dr nb father. induction k as [|k IH]; intros c v H.
  - cbn in H. injection H as <- <-. exists 0, 0. auto.
  - destruct (C86_step V ev dr nb father k c v H) as (c0 & v0 & offs & b & o & E & _ & _ & _ & _ & _ & C).
    destruct C as [(_ & -> & ->)|(_ & -> & ->)].
    + exists (S k), b. auto.
    + destruct (IH c0 v0 E) as (it & i & L & EV). exists it, i. split; [lia|exact EV].
Qed.
(** Three iterations with two offspring; the evaluation is the output gene. *)
Definition es_draws : draws := {| d_flip := fun _ _ j => j =? 6; d_draw := fun it i _ => it + i |}.
Example C86_example : exists c, es_run (fun _ _ c => Z.of_nat (last (c_genome c) 0)) es_draws 2 (new_cgp [0; 0; 1; 0; 2; 0; 0] 2 1 2 1 zlib 1%Q) 3 = Ok (c, 3%Z) /\
  c_genome c = [0; 0; 1; 0; 2; 0; 3].
Proof. eexists. split; reflexivity. Qed.

(** Without offspring the first iteration fails. *)
Theorem C86_no_offspring : forall V (ev : nat -> nat -> cgp V -> Z) dr father k,
  es_run ev dr 0 father (S k) = Err ValueError.
Proof.
  intros V ev dr father. unfold es_run. intros k. reflexivity.
Qed.

(** ** C88: conversions *)
Local Open Scope Q_scope.

(** A space: what may be in it, entry by entry. *)
Definition box_ok (b : bound * bound) : Prop := exists lo hi, b = (Fin lo, Fin hi) /\ lo <= hi.
Definition action_space_ok (t : gspace) : Prop :=
  match t with Box b => Forall box_ok b | Discrete n => (1 <= n)%Z | OtherSpace => False end.
Definition in_bound (e : entry) (b : bound * bound) : Prop :=
  match e, b with EBox x, (Fin lo, Fin hi) => lo <= x <= hi | _, _ => False end.
Inductive in_spaces : list entry -> list gspace -> Prop :=
| in_nil : in_spaces [] []
| in_box : forall es b es' ts, Forall2 in_bound es b -> in_spaces es' ts -> in_spaces (es ++ es') (Box b :: ts)
| in_disc : forall i n es ts, (0 <= i < n)%Z -> in_spaces es ts -> in_spaces (EDisc i :: es) (Discrete n :: ts).
Definition width (t : gspace) : nat := match t with Box b => length b | _ => 1%nat end.
Fixpoint total_width (ts : list gspace) : nat := match ts with [] => 0%nat | t :: r => (width t + total_width r)%nat end.

(** Whatever the outputs, the action is in the action space; with as many outputs as entries the
    conversion does not fail. *)
Theorem C88_action_in_space : forall ts vals, Forall action_space_ok ts -> (total_width ts <= length vals)%nat ->
  exists es, denorm vals ts = Ok es /\ in_spaces es ts.
Proof.
  assert (BX : forall b vals, Forall box_ok b -> (length b <= length vals)%nat ->
    exists es, denorm_box vals b = Ok (es, skipn (length b) vals) /\ Forall2 in_bound es b).
  { induction b as [|lh b IH]; intros vals F L; [exists []; split; [destruct vals; reflexivity|constructor]|].
    inversion F as [|? ? F1 F2]; subst. destruct vals as [|x vals]; [cbn in L; lia|].
    destruct F1 as (lo & hi & -> & LH). cbn [denorm_box]. unfold denorm_one. cbn [fst snd fin bind].
    rewrite (change_interval_eq x (Fin (-1 # 1)) (Fin 1) (-1 # 1) 1 lo hi eq_refl eq_refl ltac:(lra)). cbn [bind].
    destruct (IH vals F2) as (es & E & I); [cbn in L; lia|]. rewrite E. cbn [bind fst snd length skipn].
    eexists. split; [reflexivity|]. constructor; auto. cbn. apply interp_range; auto. apply ratio_range. lra. }
  induction ts as [|t ts IH]; intros vals F L; [exists []; split; [reflexivity|constructor]|].
  inversion F as [|? ? F1 F2]; subst. destruct t as [b|n|]; cbn [denorm].
  - cbn in L. destruct (BX b vals F1) as (es & E & I); [lia|]. rewrite E. cbn [bind fst snd].
    destruct (IH (skipn (length b) vals) F2) as (es' & E' & I'). { rewrite skipn_length. lia. }
    rewrite E'. cbn [bind]. eexists. split; [reflexivity|]. now constructor.
  - destruct vals as [|x vals]; [cbn in L; lia|].
    destruct (to_int_total x 0 (n - 1)) as [k K]. rewrite K. cbn [bind].
    destruct (IH vals F2) as (es' & E' & I'); [cbn in L; lia|]. rewrite E'. cbn [bind].
    eexists. split; [reflexivity|]. constructor; auto. cbn in F1. pose proof (to_int_range x n k F1 K). lia.
  - contradiction.
Qed.
Example C88_action : (exists x y, denorm [1 # 2; (-7 # 1); 1 # 3] [Box [(Fin 0, Fin 4); (Fin (-1), Fin 1)]; Discrete 3] =
  Ok [EBox x; EBox y; EDisc 2] /\ x == 3 /\ y == -1) /\
  Forall action_space_ok [Box [(Fin 0, Fin 4); (Fin (-1), Fin 1)]; Discrete 3].
Proof.
  split; [eexists; eexists; split; [reflexivity|split; reflexivity]|]. constructor; [|constructor; [cbn; lia|constructor]].
  repeat constructor; eexists; eexists; (split; [reflexivity|lra]).
Qed.

(** Normalised observations are between -1 and 1, and larger observations give larger ones. *)
Definition norm_ok (b : bound * bound) : Prop := exists lo hi, lo_of (fst b) = Some lo /\ hi_of (snd b) = Some hi /\ lo < hi.
Definition observation_space_ok (t : gspace) : Prop :=
  match t with Box b => Forall norm_ok b | Discrete n => (2 <= n)%Z | OtherSpace => False end.
Theorem C88_observation_range : forall ts vals, Forall observation_space_ok ts -> length vals = total_width ts ->
  exists ys, norm_and_flatten vals ts = Ok ys /\ length ys = length vals /\ Forall (fun y => -1 <= y <= 1) ys.
Proof.
  assert (ONE : forall x b, norm_ok b -> exists y, norm_one x b = Ok y /\ -1 <= y <= 1).
  { intros x [bl bh] (lo & hi & L & H & LH). cbn [fst snd] in *. unfold norm_one. cbn [fst snd].
    rewrite (change_interval_eq x bl bh lo hi _ _ L H LH). eexists. split; [reflexivity|].
    pose proof (interp_range _ (-1 # 1) 1 (ratio_range lo hi x LH) ltac:(lra)). lra. }
  assert (BX : forall b vals, Forall norm_ok b -> (length b <= length vals)%nat ->
    exists ys, norm_box vals b = Ok (ys, skipn (length b) vals) /\ length ys = length b /\ Forall (fun y => -1 <= y <= 1) ys).
  { induction b as [|lh b IH]; intros vals F L; [exists []; split; [destruct vals; reflexivity|]; split; [reflexivity|constructor]|].
    inversion F as [|? ? F1 F2]; subst. destruct vals as [|x vals]; [cbn in L; lia|]. cbn [norm_box].
    destruct (ONE x lh F1) as (y & E1 & R). rewrite E1. cbn [bind].
    destruct (IH vals F2) as (ys & E & LL & I); [cbn in L; lia|]. rewrite E. cbn [bind fst snd length skipn].
    eexists. split; [reflexivity|]. split; [cbn; lia|]. now constructor. }
  induction ts as [|t ts IH]; intros vals F L; cbn in L.
  - destruct vals; [|discriminate]. exists []. auto.
  - inversion F as [|? ? F1 F2]; subst. destruct t as [b|n|]; cbn [norm_and_flatten].
    + cbn in L. destruct (BX b vals F1) as (ys & E & LL & I); [lia|]. rewrite E. cbn [bind fst snd].
      destruct (IH (skipn (length b) vals) F2) as (zs & E' & L' & I'). { rewrite skipn_length. lia. }
      rewrite E'. cbn [bind]. eexists. split; [reflexivity|]. split; [rewrite app_length, L', skipn_length; lia|]. now apply Forall_app.
    + destruct vals as [|x vals]; [cbn in L; lia|].
      destruct (ONE x (Fin 0, Fin (inject_Z (n - 1)))) as (y & E1 & R).
      { exists 0, (inject_Z (n - 1)). split; [reflexivity|]. split; [reflexivity|]. change 0 with (inject_Z 0). rewrite <- Zlt_Qlt. cbn in F1. lia. }
      rewrite E1. cbn [bind]. destruct (IH vals F2) as (zs & E' & L' & I'); [cbn in L; lia|]. rewrite E'. cbn [bind].
      eexists. split; [reflexivity|]. split; [cbn; lia|]. now constructor.
    + contradiction.
Qed.
Theorem C88_monotone : forall b x x' y y', norm_ok b -> x <= x' -> norm_one x b = Ok y -> norm_one x' b = Ok y' -> y <= y'.
Proof.
  intros [bl bh] x x' y y' (lo & hi & L & H & LH) X E E'. unfold norm_one in *. cbn [fst snd] in *.
  rewrite (change_interval_eq x bl bh lo hi _ _ L H LH) in E. rewrite (change_interval_eq x' bl bh lo hi _ _ L H LH) in E'.
  injection E as <-. injection E' as <-.
  pose proof (clamp_mono lo hi x x' ltac:(lra) X) as M.
  assert (D : (qmax lo (qmin hi x) - lo) / (hi - lo) <= (qmax lo (qmin hi x') - lo) / (hi - lo)) by (apply Qdiv_mono; lra).
  lra.
Qed.
Example C88_observation : exists x y z, norm_and_flatten [3; (7 # 1); 2] [Box [(Fin 0, Fin 4); (MinusInf, PlusInf)]; Discrete 3] = Ok [x; y; z] /\
  x == 1 # 2 /\ y == 1 /\ z == 1.
Proof. do 3 eexists. split; [reflexivity|]. repeat split; reflexivity. Qed.

(** A value of a box, or of a discrete space of at least two, is found back. *)
Theorem C88_box_round_trip : forall lo hi x, lo <= x <= hi -> lo < hi ->
  exists y z, norm_one x (Fin lo, Fin hi) = Ok y /\ denorm_one y (Fin lo, Fin hi) = Ok z /\ z == x.
Proof.
  intros lo hi x X LH.
  assert (E1 : exists y, norm_one x (Fin lo, Fin hi) = Ok y).
  { unfold norm_one. cbn [fst snd]. rewrite (change_interval_eq _ (Fin lo) (Fin hi) lo hi _ _ eq_refl eq_refl LH). eauto. }
  destruct E1 as [y E1].
  assert (E2 : exists z, denorm_one y (Fin lo, Fin hi) = Ok z).
  { unfold denorm_one. cbn [fst snd fin bind]. rewrite (change_interval_eq _ (Fin (-1 # 1)) (Fin 1) (-1 # 1) 1 _ _ eq_refl eq_refl ltac:(lra)). eauto. }
  destruct E2 as [z E2]. exists y, z. split; [exact E1|]. split; [exact E2|]. eapply box_round_trip; eauto.
Qed.
Theorem C88_discrete_round_trip : forall n k, (0 <= k < n)%Z -> (2 <= n)%Z ->
  exists y, norm_and_flatten [inject_Z k] [Discrete n] = Ok [y] /\ denorm [y] [Discrete n] = Ok [EDisc k].
Proof.
  intros n k K N. cbn [norm_and_flatten denorm].
  assert (NP : 0 < inject_Z (n - 1)) by (change 0 with (inject_Z 0); rewrite <- Zlt_Qlt; lia).
  assert (E1 : exists y, norm_one (inject_Z k) (Fin 0, Fin (inject_Z (n - 1))) = Ok y).
  { unfold norm_one. cbn [fst snd]. rewrite (change_interval_eq _ (Fin 0) (Fin (inject_Z (n - 1))) 0 (inject_Z (n - 1)) _ _ eq_refl eq_refl NP). eauto. }
  destruct E1 as [y E1]. exists y. rewrite E1. cbn [bind]. split; [reflexivity|].
  rewrite (disc_round_trip n k y) by (auto; lia). reflexivity.
Qed.
Example C88_round_trip_five : exists y, norm_and_flatten [3] [Discrete 5] = Ok [y] /\ denorm [y] [Discrete 5] = Ok [EDisc 3] /\ y == 1 # 2.
Proof. eexists. split; [reflexivity|]. split; reflexivity. Qed.

(** An observation space with a single value cannot be normalised. *)
Theorem C88_single_value_refuted : exists n k, (0 <= k < n)%Z /\ norm_and_flatten [inject_Z k] [Discrete n] = Err ZeroDivisionError.
Proof. exists 1%Z, 0%Z. split; [lia|reflexivity]. Qed.
(** In a space without bounds, all observations beyond 1 look the same. *)
Theorem C88_unbounded_refuted : exists x x' y, ~ x == x' /\ norm_one x (MinusInf, PlusInf) = Ok y /\ norm_one x' (MinusInf, PlusInf) = Ok y.
Proof. exists 2, 100. eexists. split; [discriminate|]. split; reflexivity. Qed.
(** The solver counts one number per component of a tuple: an action with a box of two dimensions in it
    needs more outputs than the genome is given. *)
Theorem C88_tuple_action_refuted : exists s vals, Forall action_space_ok (components s) /\ length vals = sample_length s /\
  denorm vals (components s) = Err IndexError.
Proof.
  exists (TupleOf [Box [(Fin 0, Fin 4); (Fin (-1), Fin 1)]; Discrete 3]), [0; 0].
  split; [|split; reflexivity].
  constructor; [|constructor; [cbn; lia|constructor]]. repeat constructor; eexists; eexists; (split; [reflexivity|lra]).
Qed.
(** And the genome is given fewer inputs than there are numbers in an observation: it ignores the last
    ones. *)
Theorem C88_tuple_observation_refuted : exists s vals ys, Forall observation_space_ok (components s) /\
  norm_and_flatten vals (components s) = Ok ys /\ (sample_length s < length ys)%nat.
Proof.
  exists (TupleOf [Box [(Fin 0, Fin 4); (Fin (-1), Fin 1)]; Discrete 3]), [0; 0; 0]. eexists.
  split; [|split; [reflexivity|cbn; lia]].
  constructor; [|constructor; [cbn; lia|constructor]].
  repeat constructor; eexists; eexists; (split; [reflexivity|split; [reflexivity|lra]]).
Qed.
(** Only the last space of a tuple decides whether the solver says it can be used. *)
Theorem C88_check_last : forall ts t, check_spaces (ts ++ [t]) = supported t.
Proof. intros ts t. unfold check_spaces. now rewrite fold_left_app. Qed.
Theorem C88_check_refuted : exists ts vals, check_spaces ts = true /\ norm_and_flatten vals ts = Err ValueError.
Proof. exists [OtherSpace; Discrete 2], [0; 0]. split; reflexivity. Qed.

(** The fitness of an evaluation is a weighted mean of the episodes: between the worst and the best. *)
Lemma weights_pos : forall k s, 0 <= s -> fold_left (fun s e => s + inject_Z (Z.of_nat e + 1)) (seq 0 k) s >= s.
Proof.
  intros k. generalize 0%nat as a. induction k as [|k IH]; intros a s S; cbn [seq fold_left]; [lra|].
  assert (P : 0 <= inject_Z (Z.of_nat a + 1)) by (change 0 with (inject_Z 0); rewrite <- Zle_Qle; lia).
  specialize (IH (Datatypes.S a) (s + inject_Z (Z.of_nat a + 1)) ltac:(lra)). lra.
Qed.
Theorem C88_fitness_mean : forall fits f lo hi, weighted fits = Ok f -> Forall (fun x => lo <= x <= hi) fits -> lo <= f <= hi.
Proof.
  intros fits f lo hi H F. unfold weighted in H.
  assert (K : forall l a s w, Forall (fun x => lo <= x <= hi) l -> 0 <= w -> lo * w <= s <= hi * w ->
    let s' := fold_left (fun s ef => s + snd ef * inject_Z (Z.of_nat (fst ef) + 1)) (combine (seq a (length l)) l) s in
    let w' := fold_left (fun s e => s + inject_Z (Z.of_nat e + 1)) (seq a (length l)) w in
    0 <= w' /\ lo * w' <= s' <= hi * w').
  { induction l as [|x l IH]; intros a s w F0 W SW; cbn [length seq combine fold_left fst snd]; auto.
    inversion F0 as [|? ? F1 F2]; subst.
    assert (P : 0 <= inject_Z (Z.of_nat a + 1)) by (change 0 with (inject_Z 0); rewrite <- Zle_Qle; lia).
    apply IH; auto; [lra|]. set (p := inject_Z (Z.of_nat a + 1)) in *. clearbody p. split; nra. }
  specialize (K fits 0%nat 0 0 F ltac:(lra) ltac:(split; lra)). cbv zeta in K.
  set (w := fold_left (fun s e => s + inject_Z (Z.of_nat e + 1)) (seq 0 (length fits)) 0) in *.
  set (s := fold_left (fun s ef => s + snd ef * inject_Z (Z.of_nat (fst ef) + 1)) (combine (seq 0 (length fits)) fits) 0) in *.
  cbv zeta in H. destruct (Qeq_bool w 0) eqn:E; [discriminate|]. injection H as <-.
  destruct K as (W & K1 & K2).
  assert (WP : 0 < w).
  { apply Qle_lt_or_eq in W. destruct W as [W|W]; auto. exfalso.
    assert (B : Qeq_bool w 0 = true) by (apply Qeq_bool_iff; rewrite <- W; reflexivity). congruence. }
  split; [apply Qle_shift_div_l|apply Qle_shift_div_r]; auto.
Qed.
(** The weights go by the order of the episodes, not by rank: the sorted copy is dropped. *)
Theorem C88_fitness_order_refuted : exists fits fits' f f', Permutation fits fits' /\ weighted fits = Ok f /\ weighted fits' = Ok f' /\ ~ f == f'.
Proof. exists [0; 3], [3; 0]. eexists. eexists. split; [constructor|]. split; [reflexivity|]. split; [reflexivity|discriminate]. Qed.

Print Assumptions C84_run.
Print Assumptions C84_evaluated.
Print Assumptions C84_arity.
Print Assumptions C84_settles.
Print Assumptions C84_function_refuted.
Print Assumptions C84_mutation_after_run_ignored.
Print Assumptions C84_stale_graph_refuted.
Print Assumptions C84_recurrent_refuted.
Print Assumptions C85_random.
Print Assumptions C85_random_reaches_all.
Print Assumptions C85_mutate.
Print Assumptions C85_mutate_per_gene.
Print Assumptions C85_save_load.
Print Assumptions C85_rows_mutate_refuted.
Print Assumptions C85_rows_forward_refuted.
Print Assumptions C85_rows_fail_refuted.
Print Assumptions C85_recurrency_refuted.
Print Assumptions C86_total.
Print Assumptions C86_step.
Print Assumptions C86_best.
Print Assumptions C86_attained.
Print Assumptions C86_no_offspring.
Print Assumptions C88_action_in_space.
Print Assumptions C88_observation_range.
Print Assumptions C88_monotone.
Print Assumptions C88_box_round_trip.
Print Assumptions C88_discrete_round_trip.
Print Assumptions C88_single_value_refuted.
Print Assumptions C88_unbounded_refuted.
Print Assumptions C88_tuple_action_refuted.
Print Assumptions C88_tuple_observation_refuted.
Print Assumptions C88_check_last.
Print Assumptions C88_check_refuted.
Print Assumptions C88_fitness_mean.
Print Assumptions C88_fitness_order_refuted.
