(** Specification vocabulary of Monte Carlo tree search (C100-C103). *)
From Coq Require Import List Bool Arith QArith.
From Verif Require Import Py PyList MctsModel.
Import ListNotations.
Local Open Scope nat_scope.

Section Spec.
Context {St Act : Type} {ES : PyEq St} {EA : PyEq Act}.
Notation snode := (@snode St Act).
Notation anode := (@anode St).
Notation gph := (list (St * snode)).

(** What can be reached from the states of a list by applicable actions. *)
Inductive reachable (applicable : St -> list Act) (next : St -> Act -> list (St * Q)) (roots : list St) : St -> Prop :=
| Reach_root s : In s roots -> reachable applicable next roots s
| Reach_step s a s' p : reachable applicable next roots s -> In a (applicable s) -> In (s', p) (next s a) ->
    reachable applicable next roots s'.

(** The probability of a next state in a list of weighted next states. *)
Definition mass (l : list (St * Q)) (s : St) : Q := fold_right Qplus 0%Q (map snd (filter (fun p => pyeqb s (fst p)) l)).

(** Nodes of a graph. *)
Definition node (g : gph) (s : St) (n : snode) : Prop := dget g s = Some n.
Definition anode_of (g : gph) (s : St) (a : Act) (an : anode) : Prop := exists n, node g s n /\ dget (s_acts n) a = Some an.

(** The recorded outcomes of an action are those of a list of weighted next states, each once, with its probability and its reward. *)
Definition complete (rew : St -> Q) (l : list (St * Q)) (an : anode) : Prop :=
  NoDup (dkeys (a_out an)) /\ (forall s, In s (dkeys (a_out an)) <-> In s (map fst l)) /\
  forall s r c w, dget (a_out an) s = Some (r, c, w) -> (r == rew s)%Q /\ (w == mass l s)%Q.

(** The search graph describes the domain: [nx] are the distributions recorded. *)
Record sound (applicable : St -> list Act) (next nx : St -> Act -> list (St * Q)) (reward : St -> Act -> St -> Q)
  (terminal : St -> bool) (roots : list St) (g : gph) : Prop := {
  o_nodup : NoDup (dkeys g);
  o_roots : forall s, In s roots -> dmem g s = true;
  o_reach : forall s, dmem g s = true -> reachable applicable next roots s;
  o_acts : forall s n, node g s n -> s_acts n = [] \/ dkeys (s_acts n) = pyset (applicable s);
  o_out : forall s a an, anode_of g s a an -> a_out an = [] \/ complete (reward s a) (nx s a) an;
  o_closed : forall s a an s', anode_of g s a an -> In s' (dkeys (a_out an)) -> dmem g s' = true;
  o_par : forall s' n s a, node g s' n -> (In (s, a) (s_par n) <-> exists an, anode_of g s a an /\ In s' (dkeys (a_out an)));
  o_term : forall s n, node g s n -> s_term n = terminal s \/ s_term n = false /\ In s roots;
  o_exp : forall s n a an, node g s n -> s_exp n = true -> dget (s_acts n) a = Some an -> a_out an <> [];
  o_expg : forall s n, node g s n -> s_exp n = true -> s_acts n = [] -> applicable s = []
}.
(** What the recorded outcomes connect to the states of a list. *)
Inductive greach (g : gph) (roots : list St) : St -> Prop :=
| G_root s : In s roots -> greach g roots s
| G_step s a an s' : greach g roots s -> anode_of g s a an -> In s' (dkeys (a_out an)) -> greach g roots s'.
Definition linked (roots : list St) (g : gph) : Prop := forall s, dmem g s = true -> greach g roots s.
(** Visits: a visited action has outcomes. *)
Definition visits_ok (g : gph) : Prop := forall s a an, anode_of g s a an -> 0 < a_n an -> a_out an <> [].
(** Every action that was expanded has been visited. *)
Definition all_visited (g : gph) : Prop := forall s a an, anode_of g s a an -> a_out an <> [] -> 0 < a_n an.
End Spec.
