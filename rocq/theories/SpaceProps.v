(** Properties of spaces: C44. *)
From Coq Require Import String.
From Coq Require Import List Bool Arith ZArith Lia.
From Coq Require Import ZifyBool ZifyNat.
From Verif Require Import Py PyList PyMore SpaceModel.
Import ListNotations.

(** * Lemmas *)
Lemma index_ok : forall K {EK : PyEq K} (l : list K) x i, list_index l x = Ok i -> nth_error l i = Some x /\ forall j, j < i -> nth_error l j <> Some x.
Proof.
  induction l as [|y l IH]; intros x i H; [discriminate|]. cbn [list_index] in H. destruct (pyeqb_spec x y) as [<-|N].
  - injection H as <-. split; [reflexivity|]. intros j L. lia.
  - apply bind_ok in H as [k [E H]]. injection H as <-. destruct (IH x k E) as [A B]. split; auto.
    intros j L. destruct j as [|j]; cbn; [congruence|]. apply B. lia.
Qed.
Lemma index_total : forall K {EK : PyEq K} (l : list K) x, In x l -> exists i, list_index l x = Ok i.
Proof.
  induction l as [|y l IH]; intros x I; [destruct I|]. cbn [list_index]. destruct (pyeqb_spec x y) as [<-|N]; eauto.
  destruct I as [I|I]; [congruence|]. destruct (IH x I) as [i ->]. cbn. eauto.
Qed.
Lemma index_fails : forall K {EK : PyEq K} (l : list K) x, ~ In x l -> list_index l x = Err ValueError.
Proof.
  induction l as [|y l IH]; intros x I; [reflexivity|]. cbn [list_index]. destruct (pyeqb_spec x y) as [<-|N].
  - exfalso. apply I. now left.
  - rewrite IH; auto. intros Q. apply I. now right.
Qed.

Lemma unwrap_wrap : forall K {EK : PyEq K} (l xs : list K), incl xs l ->
  exists is, mapM (list_index l) xs = Ok is /\ Forall (fun i => i < length l) is /\ mapM (zget l) (map Z.of_nat is) = Ok xs.
Proof.
  induction xs as [|x xs IH]; intros I; [exists []; cbn; auto|]. destruct (index_total _ l x (I x (or_introl eq_refl))) as [i E].
  destruct IH as (is & E1 & F & E2); [intros y Iy; apply I; now right|]. destruct (index_ok _ _ _ _ E) as [N _].
  exists (i :: is). cbn [mapM map]. rewrite E, E1. cbn [bind]. split; auto. split.
  - constructor; auto. apply nth_error_Some. congruence.
  - rewrite zget_nat, (proj2 (lget_ok l i x) N). cbn [bind]. now rewrite E2.
Qed.

Lemma index_unique : forall K {EK : PyEq K} (l : list K) i x, NoDup l -> nth_error l i = Some x -> list_index l x = Ok i.
Proof.
  intros K EK l i x N H. destruct (index_total _ l x (nth_error_In _ _ H)) as [j E]. destruct (index_ok _ _ _ _ E) as [A _].
  rewrite E. f_equal. apply (proj1 (NoDup_nth_error l) N); [apply nth_error_Some; congruence|congruence].
Qed.

Lemma wrap_unwrap : forall K {EK : PyEq K} (l : list K) is, NoDup l -> Forall (fun i => i < length l) is ->
  exists xs, mapM (zget l) (map Z.of_nat is) = Ok xs /\ incl xs l /\ mapM (list_index l) xs = Ok is.
Proof.
  intros K EK l is N F. induction F as [|i is L F IH]; [exists []; cbn; repeat split; auto; intros x []|].
  destruct IH as (xs & E1 & I & E2). destruct (nth_error l i) as [x|] eqn:X; [|apply nth_error_None in X; lia].
  exists (x :: xs). cbn [mapM map]. rewrite zget_nat, (proj2 (lget_ok l i x) X), E1. cbn [bind]. split; auto. split.
  - intros y [<-|Iy]; auto. eapply nth_error_In; eauto.
  - rewrite (index_unique _ l i x N X), E2. reflexivity.
Qed.

Lemma sample_ok : forall A (l : list A) draw, l <> [] -> exists x, (let* i := discrete_sample (length l) draw in lget l i) = Ok x /\ In x l.
Proof.
  intros A l draw N. unfold discrete_sample. destruct (Nat.eqb_spec (length l) 0) as [E|E].
  - destruct l; [congruence|discriminate].
  - cbn [bind]. destruct (@lget_lt _ l (draw mod length l)) as [x X]; [now apply Nat.mod_upper_bound|]. rewrite X. exists x. split; auto.
    eapply lget_In; eauto.
Qed.

(** * C44 *)
(** List spaces. *)
Theorem C44_list : forall (T : Type) (ET : PyEq T) (elements : list T),
  (forall x, ls_contains elements x = true <-> In x (ls_elements elements)) /\
  (forall draw, elements <> [] -> exists x, ls_sample elements draw = Ok x /\ In x (ls_elements elements)) /\
  (forall k, k < length elements -> exists draw, ls_sample elements draw = lget elements k) /\
  (forall xs, incl xs elements -> exists is, ls_to_unwrapped elements xs = Ok is /\ Forall (fun i => i < length elements) is /\
     ls_from_unwrapped elements (map Z.of_nat is) = Ok xs) /\
  (NoDup elements -> forall is, Forall (fun i => i < length elements) is -> exists xs,
     ls_from_unwrapped elements (map Z.of_nat is) = Ok xs /\ incl xs elements /\ ls_to_unwrapped elements xs = Ok is) /\
  (forall x, ~ In x elements -> ls_to_unwrapped elements [x] = Err ValueError).
Proof.
  intros T ET elements. split; [|split; [|split; [|split; [|split]]]].
  - intros x. apply pymem_true.
  - intros draw N. now apply sample_ok.
  - intros k L. exists k. unfold ls_sample, discrete_sample. destruct (Nat.eqb_spec (length elements) 0); [lia|]. cbn [bind].
    now rewrite Nat.mod_small.
  - intros xs I. now apply unwrap_wrap.
  - intros N is F. now apply wrap_unwrap.
  - intros x N. unfold ls_to_unwrapped. cbn [mapM]. now rewrite index_fails.
Qed.

(** Enumerations: names are distinct, as Python demands. *)
Lemma members_from_In : forall e seen n, In n (members_from seen e) -> In n (dkeys e).
Proof.
  induction e as [|[m v] e IH]; intros seen n I; [destruct I|]. cbn in *. destruct (pymem v seen); [right; eauto|].
  destruct I as [<-|I]; [now left|right; eauto].
Qed.
Lemma members_from_NoDup : forall e seen, NoDup (dkeys e) -> NoDup (members_from seen e).
Proof.
  induction e as [|[m v] e IH]; intros seen N; [constructor|]. cbn in *. inversion N; subst. destruct (pymem v seen); auto.
  constructor; auto. intros I. apply members_from_In in I. auto.
Qed.
Lemma members_from_get : forall e seen n, NoDup (dkeys e) -> In n (members_from seen e) ->
  exists v, dget e n = Some v /\ ~ In v seen /\ canonical e v = Some n.
Proof.
  induction e as [|[m v] e IH]; intros seen n N I; [destruct I|]. cbn [members_from] in I. cbn [dkeys map fst] in N. inversion N as [|? ? Nm Ne]; subst.
  unfold canonical. cbn [find snd dget].
  assert (Rest : forall s, In n (members_from s e) -> n <> m) by (intros s J ->; apply members_from_In in J; auto).
  destruct (pymem v seen) eqn:M.
  - destruct (pyeqb_spec n m) as [->|D]; [exfalso; eapply Rest; eauto|].
    destruct (IH seen n Ne I) as (w & W1 & W2 & W3). exists w. split; auto. split; auto.
    apply pymem_true in M. destruct (Z.eqb_spec v w) as [->|]; [contradiction|]. exact W3.
  - destruct I as [<-|I].
    + rewrite pyeqb_refl. exists v. split; auto. split; [exact (proj1 (pymem_false v seen) M)|]. now rewrite Z.eqb_refl.
    + destruct (pyeqb_spec n m) as [->|D]; [exfalso; eapply Rest; eauto|].
      destruct (IH (v :: seen) n Ne I) as (w & W1 & W2 & W3). exists w. split; auto. split; [intros Q; apply W2; now right|].
      destruct (Z.eqb_spec v w) as [->|]; [exfalso; apply W2; now left|]. exact W3.
Qed.

Theorem C44_enum : forall (e : enum_class), NoDup (dkeys e) ->
  (forall draw, e <> [] -> exists n, es_sample e draw = Ok n /\ In n (members e)) /\
  (forall xs, incl xs (members e) -> exists is, es_to_unwrapped e xs = Ok is /\ Forall (fun i => i < length (members e)) is /\
     es_from_unwrapped e (map Z.of_nat is) = Ok xs) /\
  (forall is, Forall (fun i => i < length (members e)) is -> exists xs,
     es_from_unwrapped e (map Z.of_nat is) = Ok xs /\ incl xs (members e) /\ es_to_unwrapped e xs = Ok is) /\
  (forall xs, incl xs (members e) -> es_from_jsonable e (es_to_jsonable xs) = Ok xs).
Proof.
  intros e N. split; [|split; [|split]].
  - intros draw Ne. apply sample_ok. destruct e as [|[m v] e]; [congruence|]. cbn. discriminate.
  - intros xs I. now apply unwrap_wrap.
  - intros is F. apply wrap_unwrap; auto. now apply members_from_NoDup.
  - intros xs I. unfold es_from_jsonable, es_to_jsonable. rewrite <- (map_id xs) at 2. apply mapM_total. intros n In_. unfold enum_get.
    destruct (members_from_get e [] n N (I n In_)) as (v & -> & _ & ->). reflexivity.
Qed.

(** Membership of an enumeration space: the members of its own class and nothing else. *)
Theorem C44_enum_contains : forall cls x, es_contains cls x = true <-> exists name, x = Member cls name.
Proof.
  intros cls [c n|k]; cbn; split.
  - intros E. apply String.eqb_eq in E as ->. eauto.
  - intros (m & E). injection E as -> _. apply String.eqb_refl.
  - discriminate.
  - intros (m & E). discriminate.
Qed.

Example C44_enum_contains_ex : es_contains "Move" (Member "Move" "up") = true /\ es_contains "Move" (Member "Colour" "red") = false /\
  es_contains "Move" (Other 3) = false.
Proof. repeat split. Qed.

(** Dataclasses with fields that hold no dataclass. *)
Fixpoint flat (v : value) : bool :=
  match v with
  | VAtom _ => true
  | VList l => forallb flat l
  | VDict d => forallb (fun kv => flat (snd kv)) d
  | VData _ _ => false
  end.
Lemma asdict_flat : forall v, flat v = true -> asdict v = v.
Proof.
  fix IH 1. intros [z|l|d|c fs] H; cbn in *; auto; try discriminate.
  - f_equal. induction l as [|x l IL]; auto. cbn in *. apply andb_true_iff in H as [H1 H2]. f_equal; auto.
  - f_equal. induction d as [|[k x] d IL]; auto. cbn in *. apply andb_true_iff in H as [H1 H2]. f_equal; auto. f_equal. auto.
Qed.

Theorem C44_data : forall cls fields samples, NoDup fields ->
  (forall v, In v samples -> exists fs, v = VData cls fs /\ dkeys fs = fields /\ forall k x, In (k, x) fs -> flat x = true) ->
  exists ds, ds_to_unwrapped samples = Ok ds /\ ds_from_unwrapped cls fields ds = Ok samples /\
    Forall2 (fun v d => v = VData cls d) samples ds.
Proof.
  intros cls fields samples N. induction samples as [|v samples IH]; intros H; [exists []; cbn; auto|].
  destruct IH as (ds & E1 & E2 & F); [intros; apply H; now right|]. destruct (H v (or_introl eq_refl)) as (fs & -> & K & Fl).
  assert (A : map (fun kv => (fst kv, asdict (snd kv))) fs = fs).
  { clear K H. induction fs as [|[k x] fs IF]; auto. cbn. rewrite asdict_flat by (apply (Fl k); now left). f_equal. apply IF. intros k0 x0 J. apply (Fl k0). now right. }
  exists (fs :: ds). cbn [ds_to_unwrapped mapM asdict]. rewrite A. cbn [bind]. unfold ds_to_unwrapped in E1. rewrite E1. split; [reflexivity|].
  split; [|constructor; auto]. unfold ds_from_unwrapped in *. cbn [mapM]. rewrite E2. unfold construct. rewrite K.
  replace (forallb (fun k => pymem k fields) fields) with true.
  2: { symmetry. apply forallb_forall. intros k Ik. now apply pymem_true. }
  assert (M : mapM (fun f => match dget fs f with Some v => Ok (f, v) | None => Err TypeError end) fields = Ok fs).
  { rewrite <- K. apply mapM_ok. rewrite <- K in N.
    assert (G : forall l, incl l fs -> Forall2 (fun x y => match dget fs x with Some v => Ok (x, v) | None => Err TypeError end = Ok y) (dkeys l) l).
    { induction l as [|[k x] l IL]; intros I; [constructor|]. cbn. constructor; [|apply IL; intros y Iy; apply I; now right].
      now rewrite (In_dget fs k x N (I (k, x) (or_introl eq_refl))). }
    apply G, incl_refl. }
  rewrite M. reflexivity.
Qed.

(** * Concrete cases *)
Local Open Scope string_scope.
Example C44_ex : ls_to_unwrapped ["a"; "b"; "c"] ["c"; "a"] = Ok [2; 0] /\ ls_from_unwrapped ["a"; "b"; "c"] [2; 0]%Z = Ok ["c"; "a"] /\
  members [("up", 1); ("down", 2); ("north", 1); ("left", 3)]%Z = ["up"; "down"; "left"] /\
  es_from_jsonable [("up", 1); ("down", 2); ("north", 1); ("left", 3)]%Z ["left"; "up"] = Ok ["left"; "up"] /\
  es_from_jsonable [("up", 1); ("down", 2); ("north", 1); ("left", 3)]%Z ["north"] = Ok ["up"] /\
  ds_to_unwrapped [VData "P" [("x", VAtom 1); ("y", VList [VAtom 2])]] = Ok [[("x", VAtom 1); ("y", VList [VAtom 2])]] /\
  ds_from_unwrapped "P" ["x"; "y"] [[("y", VAtom 2); ("x", VAtom 1)]] = Ok [VData "P" [("x", VAtom 1); ("y", VAtom 2)]].
Proof. repeat split. Qed.

(** * Findings *)
(** The empty space has no [contains]: asking whether an element belongs to it fails. *)
Theorem C44_empty_refuted : exists x : nat, empty_contains x <> Ok false /\ @empty_elements nat = [].
Proof. exists 0. split; [discriminate|reflexivity]. Qed.

(** With repeated elements, unwrapped indices do not survive: the wrapped space has an index that is never produced. *)
Theorem C44_duplicates_refuted : exists (elements : list nat) i xs, i < length elements /\
  ls_from_unwrapped elements [Z.of_nat i] = Ok xs /\ ls_to_unwrapped elements xs <> Ok [i].
Proof. exists [5; 5], 1, [5]. split; [cbn; lia|]. split; [reflexivity|discriminate]. Qed.

(** Indices outside the wrapped space are accepted when they are negative. *)
Theorem C44_negative_refuted : exists (elements : list nat) x, ls_from_unwrapped elements [(-1)%Z] = Ok [x].
Proof. exists [5; 6], 6. reflexivity. Qed.

(** A dataclass inside a dataclass comes back as a dictionary. *)
Theorem C44_nested_refuted : exists cls fields v ds, ds_to_unwrapped [v] = Ok ds /\ (exists fs, v = VData cls fs /\ dkeys fs = fields) /\
  ds_from_unwrapped cls fields ds <> Ok [v].
Proof.
  exists "Outer", ["inner"], (VData "Outer" [("inner", VData "Inner" [("x", VAtom 1)])]). eexists. split; [reflexivity|].
  split; [eexists; split; reflexivity|]. cbn. congruence.
Qed.

Print Assumptions C44_list.
Print Assumptions C44_enum.
Print Assumptions C44_enum_contains.
Print Assumptions C44_data.
Print Assumptions C44_empty_refuted.
Print Assumptions C44_duplicates_refuted.
Print Assumptions C44_negative_refuted.
Print Assumptions C44_nested_refuted.
