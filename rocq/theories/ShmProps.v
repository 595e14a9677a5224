(** C135: jobs sent to parallel domains through shared memory. *)
From Coq Require Import String.
From Coq Require Import List Bool Arith Ascii Lia.
From Verif Require Import Py PyList ShmModel ShmSpec ShmProofs.
Import ListNotations.
Open Scope nat_scope.

(** What happens meanwhile on the domains other than [i]. *)
Inductive elsewhere {V C D : Type} (typ : V -> string) (is_none : V -> bool) (enc : V -> list C -> list C)
  (dec : string -> list C -> V) (run : D -> func -> list V -> D * outcome V) (lay : layout) (i : nat) : shm C -> shm C -> Prop :=
| Here : forall s, elsewhere typ is_none enc dec run lay i s s
| Launched : forall s s' j f args, elsewhere typ is_none enc dec run lay i s s' -> j <> i ->
    elsewhere typ is_none enc dec run lay i s (fst (launch typ enc lay s' j f args))
| Served : forall s s' j d s'' d', elsewhere typ is_none enc dec run lay i s s' -> j <> i ->
    serve typ is_none enc dec run lay s' j d = Some (s'', d') ->
    elsewhere typ is_none enc dec run lay i s s''.

Section Any.
Variables V C D : Type.
Variable typ : V -> string.
Variable is_none : V -> bool.
Variable enc : V -> list C -> list C.
Variable dec : string -> list C -> V.
Variable run : D -> func -> list V -> D * outcome V.
Variable reg : declaration.

Notation sent := (sent is_none).
(** Every outcome finds registers, of one array when a type comes several times. *)
Definition orderly : Prop := forall d f args,
  fits typ reg (sent (snd (run d f args))) /\ slim typ reg (sent (snd (run d f args))).

Notation reached := (sized C reg).

Lemma elsewhere_same : forall lay i s s', proper reg -> build reg = Ok lay -> lawful typ enc dec reg -> orderly ->
  elsewhere typ is_none enc dec run lay i s s' -> reached s -> reached s' /\ same_at C lay i s s'.
Proof.
  intros lay i s s' Hp Hb Hl Ho H. induction H as [s|s s' j f args H IH N|s s' j d s'' d' H IH N E]; intros R.
  - repeat split; auto.
  - destruct (IH R) as (R' & S). split; [eapply launch_sized; eauto|].
    eapply same_trans; eauto. eapply launch_frame; eauto.
  - destruct (IH R) as (R' & S). destruct (serve_frame V C D typ is_none enc dec run reg lay Hp Hb Hl s' j d s'' d' R' Ho E) as (R'' & F).
    split; auto. eapply same_trans; eauto.
Qed.

(** Registers can be laid out for any proper declaration, and every state reached has the same number of
    parameters in each domain. *)
Theorem C135_sized : proper reg -> exists lay, build reg = Ok lay /\
  (forall cells, reached (fresh cells (slots reg))) /\
  (forall s i f args, reached s -> reached (fst (launch typ enc lay s i f args))) /\
  (lawful typ enc dec reg -> orderly -> forall s i d s' d', reached s ->
     serve typ is_none enc dec run lay s i d = Some (s', d') -> reached s').
Proof.
  intros Hp. destruct (build_total reg Hp) as (lay & Hb). exists lay. split; auto. split; [|split].
  - intros cells i. apply repeat_length.
  - intros s i f args R. eapply launch_sized; eauto.
  - intros Hl Ho s i d s' d' R E. eapply serve_frame; eauto.
Qed.

(** A job handed over to a domain is run there on its own arguments, and its result is given back,
    whatever is launched and served on the other domains meanwhile. *)
Theorem C135_call : forall lay, proper reg -> build reg = Ok lay -> lawful typ enc dec reg -> orderly ->
  forall s i f args, reached s -> callable f -> fits typ reg args ->
  exists s1, launch typ enc lay s i f args = (s1, true) /\
  forall s1' d, elsewhere typ is_none enc dec run lay i s1 s1' ->
  exists s2, serve typ is_none enc dec run lay s1' i d = Some (s2, fst (run d f args)) /\
  forall s2', elsewhere typ is_none enc dec run lay i s2 s2' -> snd (run d f args) <> Raise V ->
  get_result dec lay s2' i = Ok (reply (sent (snd (run d f args)))).
Proof.
  intros lay Hp Hb Hl Ho s i f args R Cf Fi.
  destruct (launch_ok V C D typ is_none enc dec run reg lay Hp Hb Hl s i f args R Cf Fi) as (s1 & E & R1 & Ef & Sv).
  exists s1. split; auto. intros s1' d El. destruct (elsewhere_same lay i s1 s1' Hp Hb Hl Ho El R1) as (R1' & S1).
  rewrite (Sv s1' S1 d). assert (Ef' : fetch dec lay (m_cells s1') i (m_params s1' i) = Ok args).
  { destruct S1 as (Ep & _ & _ & Ec). rewrite <- Ep, <- Ef. symmetry. apply (fetch_same V C dec reg lay Hp Hb). exact Ec. }
  destruct (work_ok V C D typ is_none enc dec run reg lay Hp Hb Hl s1' i d f args R1' Ef' (Ho d f args)) as (R2 & Ed & _ & Eg).
  destruct (work typ is_none enc dec run lay s1' i d f) as [s2 d2] eqn:Ew. cbn [fst snd] in *. subst d2.
  exists s2. split; auto. intros s2' El2 Nr. destruct (elsewhere_same lay i s2 s2' Hp Hb Hl Ho El2 R2) as (R2' & S2).
  rewrite <- (Eg Nr). unfold get_result. destruct S2 as (Ep & _ & _ & Ec). rewrite <- Ep.
  now rewrite <- (fetch_same V C dec reg lay Hp Hb i _ _ (m_params s2 i) Ec).
Qed.

(** Arguments for which registers are missing are refused. *)
Theorem C135_refused : forall lay, proper reg -> build reg = Ok lay -> lawful typ enc dec reg ->
  forall s i f args, ~ fits typ reg args -> snd (launch typ enc lay s i f args) = false.
Proof. intros lay Hp Hb Hl s i f args N. eapply launch_refused; eauto. Qed.
End Any.

(** ** A case: integers of one array, pairs of two. *)
Inductive val := N (n : nat) | P (a b : nat) | Str | Nope.
Definition vtyp (v : val) : string :=
  match v with N _ => "int" | P _ _ => "Pair" | Str => "str" | Nope => "NoneType" end%string.
Definition vnone (v : val) : bool := match v with Nope => true | _ => false end.
Definition content (v : val) : list nat := match v with N n => [n] | P a b => [a; b] | _ => [] end.
Definition venc (v : val) (old : list nat) : list nat := firstn (length old) (content v ++ old).
Definition vdec (T : string) (l : list nat) : val :=
  match l with
  | [n] => if String.eqb T "int" then N n else Nope
  | [a; b] => if String.eqb T "Pair" then P a b else Nope
  | _ => Nope
  end.
Definition vreg : declaration := [("int", 3, 1); ("Pair", 2, 2)]%string.
Definition vlay : layout := Lay [("int", (0, 3)); ("Pair", (3, 7))]%string
  [(0, "int"); (1, "int"); (2, "int"); (3, "Pair"); (5, "Pair")]%string [("int", 1); ("Pair", 2)]%string 7.
(** A counter: lambda 0 adds an integer and turns two pairs; any other job gives back the number. *)
Definition vrun (d : nat) (f : func) (args : list val) : nat * outcome val :=
  match f, args with
  | Lambda 0, [P a b; N n; P x y] => (d + n, Many [N (d + n); P (a + x) (b + y); N n])
  | _, _ => (d, One (N d))
  end.
Definition v0 : shm nat := fresh (fun _ => 0) 5.
Definition peek : list ascii := ["g"; "e"; "t"]%char.

Example C135_ex : proper vreg /\ build vreg = Ok vlay /\ lawful vtyp venc vdec vreg /\ orderly val nat vtyp vnone vrun vreg /\
  sized nat vreg v0 /\ callable (Method peek) /\ fits vtyp vreg [P 1 2; N 4; P 5 6] /\ ~ fits vtyp vreg [P 1 2; P 1 2; P 1 2] /\
  vrun 10 (Lambda 0) [P 1 2; N 4; P 5 6] = (14, Many [N 14; P 6 8; N 4]).
Proof.
  repeat split; try reflexivity.
  - repeat constructor; cbn; intuition discriminate.
  - intros T c sz [E|[E|[]]]; injection E as <- <- <-; lia.
  - intros v old. unfold venc. rewrite firstn_length, app_length. lia.
  - intros v c sz old I L. destruct v as [n|a b| |]; cbn in I; destruct I as [E|[E|[]]]; try discriminate; injection E as <- <-;
      repeat (destruct old as [|? old]; try discriminate); reflexivity.
  - intros v I. assert (Q : sent vnone (snd (vrun d f args)) = [N d] \/
      exists n x y, sent vnone (snd (vrun d f args)) = [N (d + n); P x y; N n]).
    { unfold vrun. destruct f as [|[|k]]; auto. destruct args as [|[] [|[] [|[] [|]]]]; cbn; auto. right. now eexists _, _, _. }
    destruct Q as [Q|(n & x & y & Q)]; rewrite Q in *; cbn in I.
    + destruct I as [<-|[]]. exists 3, 1. cbn. auto.
    + destruct I as [<-|[<-|[<-|[]]]]; [exists 3, 1|exists 2, 2|exists 3, 1]; cbn; auto.
  - intros T c sz Q [E|[E|[]]]; injection E as <- <- <-; auto.
    exfalso. unfold vrun in Q. destruct f as [|[|k]]; cbn in Q; try lia.
    destruct args as [|[] [|[] [|[] [|]]]]; cbn in Q; lia.
  - discriminate.
  - unfold width. cbn. lia.
  - cbn. intuition discriminate.
  - intros v I. cbn in I. destruct I as [<-|[<-|[<-|[]]]]; [exists 2, 2|exists 3, 1|exists 2, 2]; cbn; auto.
  - intros F. destruct (F (P 1 2) (or_introl eq_refl)) as (c & sz & I & L). cbn in L, I.
    destruct I as [E|[E|[]]]; [discriminate|]. injection E as <- <-. lia.
Qed.

(** Run a job for a given outcome, on domain 0. *)
Definition outcome_of (reg : declaration) (args : list val) (o : outcome val) : res (answer val) :=
  let* lay := build reg in
  match serve vtyp vnone venc vdec (fun d _ _ => (d, o)) lay
          (fst (launch vtyp venc lay (fresh (fun _ => 0) (slots reg)) 0 (Lambda 0) args)) 0 tt with
  | Some (s, _) => get_result vdec lay s 0
  | None => Err RuntimeError
  end.

(** A job that raises is answered with its own arguments. *)
Theorem C135_exception_refuted : exists args, outcome_of vreg args (Raise val) = Ok (Values args).
Proof. exists [N 5; P 1 2]. reflexivity. Qed.

(** Two results of a type of two arrays, for which there are registers, cannot be read back: they are
    written on top of each other (the same two values can be sent as arguments). *)
Theorem C135_two_pairs_refuted : exists a b, fits vtyp vreg [a; b] /\ lawful vtyp venc vdec vreg /\
  outcome_of vreg [a; b] (Many [a; b]) = Err KeyError /\ outcome_of vreg [a; b] (Raise val) = Ok (Values [a; b]).
Proof.
  exists (P 1 2), (P 3 4). split; [|split; [apply C135_ex|split; reflexivity]].
  intros v [<-|[<-|[]]]; exists 2, 2; cbn; auto.
Qed.

(** A result that has no register is dropped with what follows; the beginning passes for the answer. *)
Theorem C135_truncated_refuted : exists l, outcome_of vreg [] (Many l) = Ok (Value (N 1)) /\ length l = 3.
Proof. exists [N 1; Str; N 2]. split; reflexivity. Qed.

(** A tuple that begins with [None] is answered [None]. *)
Theorem C135_none_refuted : exists v, outcome_of vreg [] (Many [Nope; v]) = Ok (Nothing val) /\ vnone v = false.
Proof. exists (N 3). split; reflexivity. Qed.

(** Too many results of a type are not always refused: they overwrite the registers of another domain,
    where a job is waiting. *)
Theorem C135_overflow_refuted : exists lay, build vreg = Ok lay /\
  let s0 := fst (launch vtyp venc lay (fst (launch vtyp venc lay v0 0 (Lambda 0) [])) 1 (Lambda 0) [N 5]) in
  fetch vdec lay (m_cells s0) 1 (m_params s0 1) = Ok [N 5] /\
  exists l s1 d1, serve vtyp vnone venc vdec (fun d _ _ => (d, Many l)) lay s0 0 tt = Some (s1, d1) /\
    fetch vdec lay (m_cells s1) 1 (m_params s1 1) = Ok [N 8].
Proof.
  exists vlay. split; [reflexivity|]. split; [reflexivity|].
  exists [P 1 2; P 3 4; P 5 6; P 7 8]. eexists _, _. split; reflexivity.
Qed.

Print Assumptions C135_sized.
Print Assumptions C135_call.
Print Assumptions C135_refused.
Print Assumptions C135_exception_refuted.
Print Assumptions C135_two_pairs_refuted.
Print Assumptions C135_truncated_refuted.
Print Assumptions C135_none_refuted.
Print Assumptions C135_overflow_refuted.
