(** Properties of auto-casting (C04).

    Vocabulary (CastProofs.v): [up s d] - the same hint read at two levels, [d] the more general
    one: any plain position of [s] may have become a Memory, a StrDict (agents) or a List
    (concurrent events) in [d]; [typed h v] - the value [v] has the shape announced by the hint
    [h] and its memories are unbounded; [lifted s d v w] - [w] is [v] written at the higher level; [print] - how a tree of hints is written in an annotation;
    [simple] - no type with several parameters has a parameter which itself has several. *)
From Coq Require Import String.
From Coq Require Import List Bool Arith ZArith QArith.
From Verif Require Import Py CastModel CastProofs.
Import ListNotations.
Set Implicit Arguments.
Open Scope nat_scope.

(** C04: casting up always succeeds, gives the value written at the higher level ([lifted]), and
    casting the result back down returns the original object. *)
Theorem C04_up_then_down : forall s d obj, up s d -> typed s obj ->
  exists obj', cast s d obj = Ok obj' /\ typed d obj' /\ lifted s d obj obj' /\ cast d s obj' = Ok obj.
Proof.
  intros s d obj U T. destruct (roundtrip U T) as (obj' & E1 & E2 & E3 & _ & E5). eauto 6.
Qed.

(** the hint [D.T_agent[Optional[D.T_memory[D.T_state]]]], from single agent, Markovian to
    multi-agent, history; and an outcome. *)
Definition hint_src : tree := Tree TUnion [Tree TOptional [Tree TUnion [Tree (TOther 0) []]]].
Definition hint_dst : tree := Tree TStrDict [Tree TOptional [Tree TMemory [Tree (TOther 0) []]]].
Definition outc (a : ty) : tree :=
  Tree TOutcome [Tree a [Tree (TOther 0) []]; Tree a [Tree (TOther 1) []]; Tree a [Tree (TOther 2) []]].

Example C04_up_ex1 : up hint_src hint_dst /\ typed hint_src (PAtom 7) /\
  cast hint_src hint_dst (PAtom 7) = Ok (PDict [("agent"%string, PMem None [PAtom 7])]).
Proof.
  split; [|split; [|vm_compute; reflexivity]].
  - apply up_wrap; [unfold wraps; auto|]. apply up_same; [unfold unary; auto|].
    apply up_wrap; [unfold wraps; auto|]. constructor.
  - repeat constructor; discriminate.
Qed.
Example C04_up_ex2 : up (outc TUnion) (outc TStrDict) /\
  typed (outc TUnion) (POutcome (PAtom 1) (PTV 3) true PNone) /\
  cast (outc TUnion) (outc TStrDict) (POutcome (PAtom 1) (PTV 3) true PNone) =
  Ok (POutcome (PDict [("agent"%string, PAtom 1)]) (PDict [("agent"%string, PTV 3)]) true
               (PDict [("agent"%string, PNone)])).
Proof.
  split; [constructor; auto; constructor|]. split; [|reflexivity].
  constructor; try discriminate; repeat constructor; discriminate.
Qed.

(** C04: equal hints never change anything, and neither do hints which need no cast. *)
Theorem C04_same_hint_identity : forall t obj, cast t t obj = Ok obj /\ cast_needed t t = Ok false.
Proof. intros t obj. split; [apply cast_refl|apply needed_refl]. Qed.

Theorem C04_not_needed_identity : forall s d obj, cast_needed s d = Ok false -> cast s d obj = Ok obj.
Proof. exact cast_not_needed. Qed.

Example C04_not_needed_ex : cast_needed (Tree (TOther 1) []) (Tree (TOther 2) []) = Ok false.
Proof. reflexivity. Qed.

(** C04: between two levels that are really different, a cast is needed in both directions. *)
Theorem C04_cast_needed_iff_different : forall s d, up s d ->
  (cast_needed s d = Ok true <-> s <> d) /\ (cast_needed d s = Ok true <-> s <> d).
Proof.
  intros s d U. destruct (up_needed U) as [ -> |[E1 E2]].
  - rewrite needed_refl. split; split; intros X; congruence.
  - rewrite E1, E2. split; split; auto; intros _ ->; rewrite needed_refl in E1; discriminate.
Qed.

(** C04: None is preserved by optional types, whatever the levels. *)
Theorem C04_optional_none : forall s d b, cast_needed s d = Ok b ->
  cast (Tree TOptional [s]) (Tree TOptional [d]) PNone = Ok PNone.
Proof. intros s d b E. simpl. rewrite E. destruct b; reflexivity. Qed.

Example C04_optional_ex :
  cast (Tree TOptional [Tree TUnion [Tree (TOther 0) []]]) (Tree TOptional [Tree TMemory [Tree (TOther 0) []]]) PNone
    = Ok PNone /\
  cast (Tree TOptional [Tree TUnion [Tree (TOther 0) []]]) (Tree TOptional [Tree TMemory [Tree (TOther 0) []]]) (PAtom 1)
    = Ok (PMem None [PAtom 1]).
Proof. split; reflexivity. Qed.

(** C04: an auto-cast method, called at the higher level with lifted arguments, runs the original
    method on the original arguments and returns its lifted result. *)
Definition lift (hints : list (string * (tree * tree))) (kv : string * pv) : res (string * pv) :=
  match dget hints (fst kv) with
  | Some (s, d) => let* v := cast s d (snd kv) in Ok (fst kv, v)
  | None => Ok kv
  end.

Theorem C04_autocast_transparent : forall func hints ret args,
  (forall k s d, dget hints k = Some (s, d) -> up s d) ->
  (forall k v s d, In (k, v) args -> dget hints k = Some (s, d) -> typed s v) ->
  up (fst ret) (snd ret) ->
  exists args', mapM (lift hints) args = Ok args' /\
    autocast func hints ret args' = let* r := func args in cast (fst ret) (snd ret) r.
Proof.
  intros func hints ret args Hh Ha Hr.
  set (down := fun kv : string * pv =>
        match dget hints (fst kv) with
        | Some (s, d) => let* b := cast_needed s d in
                         if b then let* v := cast d s (snd kv) in Ok (fst kv, v) else Ok kv
        | None => Ok kv
        end).
  destruct (@mapM_roundtrip _ (lift hints) down
             (fun kv => forall s d, dget hints (fst kv) = Some (s, d) -> typed s (snd kv))
             (fun _ => True) (fun _ _ => True) args) as (args' & E1 & _ & E3 & _).
  - apply Forall_forall. intros [k v] I s d E. eapply Ha; eauto.
  - intros [k v] T. unfold lift, down. cbn [fst snd] in *.
    destruct (dget hints k) as [[s d]|] eqn:E.
    + destruct (roundtrip (Hh _ _ _ E) (T _ _ eq_refl)) as (v' & F1 & F2 & F3 & _ & _).
      exists (k, v'). rewrite F1. cbn [bind fst snd]. rewrite E. split; [auto|split; [auto|split; [|auto]]].
      destruct (up_needed_ok (Hh _ _ _ E)) as (b & B1 & B2). rewrite B1. cbn [bind].
      destruct b.
      * rewrite F3. reflexivity.
      * rewrite cast_not_needed in F1 by auto. injection F1 as ->. reflexivity.
    + exists (k, v). cbn [fst]. rewrite E. auto.
  - exists args'. split; auto. unfold autocast. fold down. rewrite E3. cbn [bind].
    destruct (func args) as [r|e]; [|reflexivity]. cbn [bind].
    destruct (up_needed_ok Hr) as (b & B1 & B2). rewrite B1. cbn [bind]. now apply cast_if_needed.
Qed.

Example C04_autocast_ex :
  autocast (fun args => match args with [(_, PAtom n)] => Ok (PAtom (S n)) | _ => Err TypeError end)
           [("memory"%string, (Tree TUnion [Tree (TOther 0) []], Tree TMemory [Tree (TOther 0) []]))]
           (Tree TUnion [Tree (TOther 0) []], Tree TStrDict [Tree (TOther 0) []])
           [("memory"%string, PMem None [PAtom 4])]
  = Ok (PDict [("agent"%string, PAtom 5)]).
Proof. reflexivity. Qed.

(** C04: annotations in which no multi-parameter type is nested inside another multi-parameter
    one are parsed into the tree they denote. *)
Theorem C04_hint_parsed : forall t, simple t -> exists fuel, parse_hint fuel (print t) = Ok t.
Proof. intros t S. exists (hdepth t). apply parse_print; auto. Qed.

(** [Distribution[TransitionOutcome[D.T_agent[D.T_state],Value[D.T_value]]]] *)
Example C04_hint_parsed_ex :
  simple (HT false 0 [HT false 1 [HT true 2 [HT true 3 []]; HT false 4 [HT true 5 []]]]).
Proof. apply simple_one, simple_many. repeat constructor. Qed.

(** Findings.  The general statement (any two levels, any direction) is false in three ways. *)

(** (1) Casting a history-level memory down to the Markovian level keeps the OLDEST state. *)
Theorem C04_memory_to_state_takes_oldest_refuted :
  exists maxlen older current, older <> current /\
    cast (Tree TMemory [Tree (TOther 0) []]) (Tree TUnion [Tree (TOther 0) []])
         (PMem maxlen [PAtom older; PAtom current]) = Ok (PAtom older).
Proof. exists (Some 2), 1, 2. split; [discriminate|reflexivity]. Qed.

(** (2) Casting the elements of a bounded memory loses its bound. *)
Theorem C04_memory_bound_lost_refuted :
  exists n s d x, up s d /\ cast (Tree TMemory [s]) (Tree TMemory [d]) (PMem (Some n) [x])
                  = Ok (PMem None [PDict [("agent"%string, x)]]).
Proof.
  exists 3, (Tree TUnion [Tree (TOther 0) []]), (Tree TStrDict [Tree (TOther 0) []]), (PAtom 1).
  split; [|reflexivity]. apply up_wrap; [unfold wraps; auto|constructor].
Qed.

(** (3) Down then up does not give the object back: the agent's name is lost. *)
Theorem C04_down_then_up_refuted :
  exists obj obj', cast (Tree TStrDict [Tree (TOther 0) []]) (Tree TUnion [Tree (TOther 0) []]) obj = Ok obj' /\
    cast (Tree TUnion [Tree (TOther 0) []]) (Tree TStrDict [Tree (TOther 0) []]) obj' <> Ok obj.
Proof.
  exists (PDict [("p1"%string, PAtom 1)]), (PAtom 1). split; [reflexivity|]. vm_compute. discriminate.
Qed.

(** (4) A multi-parameter type nested beside another parameter, as in [A[B[x,y],z]], makes the
    parser fail, whatever the recursion budget. *)
Theorem C04_nested_hint_refuted : exists t, forall fuel, 2 <= fuel ->
  parse_hint fuel (print t) = Err AttributeError.
Proof.
  exists (HT false 0 [HT false 1 [HT true 2 []; HT true 3 []]; HT true 4 []]).
  intros [|[|fuel]] H; [inversion H|inversion H; inversion H1|]. reflexivity.
Qed.

Print Assumptions C04_up_then_down.
Print Assumptions C04_same_hint_identity.
Print Assumptions C04_not_needed_identity.
Print Assumptions C04_cast_needed_iff_different.
Print Assumptions C04_optional_none.
Print Assumptions C04_autocast_transparent.
Print Assumptions C04_hint_parsed.
Print Assumptions C04_memory_to_state_takes_oldest_refuted.
Print Assumptions C04_memory_bound_lost_refuted.
Print Assumptions C04_down_then_up_refuted.
Print Assumptions C04_nested_hint_refuted.
