(** Vocabulary for the properties of the critical path method, independent of the model's functions. *)
From Coq Require Import String.
From Coq Require Import List Bool Arith ZArith.
From Verif Require Import Py PyList SgsModel CpmModel.
Import ListNotations.

(** Tasks are numbered from 1 (the source) to the number of tasks (the sink). *)
Definition task (p : rcpsp) (a : nat) : Prop := 1 <= a <= length (p_modes p).
Definition edge (p : rcpsp) (a b : nat) : Prop := exists l, dget (p_succ p) a = Some l /\ In b l.
Inductive path (p : rcpsp) : nat -> nat -> Prop :=
| path_one : forall a b, edge p a b -> path p a b
| path_step : forall a b c, edge p a b -> path p b c -> path p a c.

(** [m] is one of the modes of task [a]. *)
Definition has_mode (p : rcpsp) (a : nat) (m : mode) : Prop :=
  exists d k, dget (p_modes p) a = Some d /\ In (k, m) d.
(** The length of the shortest mode of a task. *)
Definition shortest (p : rcpsp) (a : nat) (d : Z) : Prop :=
  (exists m, has_mode p a m /\ d = Z.of_nat (m_duration m)) /\
  (forall m, has_mode p a m -> (d <= Z.of_nat (m_duration m))%Z).

(** A project: tasks 1..n, each with a mode, no cycle, everything after the source and before the sink. *)
Record project (p : rcpsp) : Prop := {
  pr_some : 1 <= length (p_modes p);
  pr_modes : forall a, In a (dkeys (p_modes p)) <-> task p a;
  pr_mode : forall a, task p a -> exists m, has_mode p a m;
  pr_edges : forall a b, edge p a b -> task p a /\ task p b;
  pr_acyclic : forall a, ~ path p a a;
  pr_source : forall a, task p a -> a <> 1 -> path p 1 a;
  pr_sink : forall a, task p a -> a <> length (p_modes p) -> path p a (length (p_modes p)) }.

(** What networkx answers about the graph built by compute_graph_rcpsp (rcpsp_utils.py:366-383). *)
Record networkx (p : rcpsp) (g : nxg) : Prop := {
  nx_nodes_nd : NoDup (n_nodes g);
  nx_nodes : forall a, In a (n_nodes g) <-> task p a \/ (exists b, edge p a b \/ edge p b a);
  nx_succ_nd : forall a, NoDup (n_succ g a);
  nx_succ : forall a b, In b (n_succ g a) <-> edge p a b;
  nx_pred_nd : forall a, NoDup (n_pred g a);
  nx_pred : forall a b, In a (n_pred g b) <-> edge p a b;
  nx_desc_nd : forall a, NoDup (n_desc g a);
  nx_desc : forall a b, In b (n_desc g a) <-> path p a b /\ b <> a;
  nx_anc_nd : forall a, NoDup (n_anc g a);
  nx_anc : forall a b, In a (n_anc g b) <-> path p a b /\ a <> b }.

(** Start dates that respect the precedences when every task takes its shortest mode. *)
Definition plan (p : rcpsp) (s : nat -> Z) : Prop :=
  (forall a, task p a -> (0 <= s a)%Z) /\
  (forall a b d, edge p a b -> shortest p a d -> (s a + d <= s b)%Z).
(** All tasks are finished at date [h]. *)
Definition over_by (p : rcpsp) (s : nat -> Z) (h : Z) : Prop :=
  forall a d, task p a -> shortest p a d -> (s a + d <= h)%Z.

(** Consecutive tasks of the list are linked by an edge. *)
Fixpoint chain (p : rcpsp) (l : list nat) : Prop :=
  match l with
  | a :: ((b :: _) as l') => edge p a b /\ chain p l'
  | _ => True
  end.

(** * Schedules in which every task runs in its mode 1 *)

Definition mode_one (p : rcpsp) (a : nat) : option mode :=
  match dget (p_modes p) a with Some d => dget d 1 | None => None end.
Definition needs (p : rcpsp) (a : nat) (r : string) : Z :=
  match mode_one p a with
  | Some m => match dget (m_need m) r with Some n => n | None => 0 end
  | None => 0
  end%Z.
(** What the tasks running at date [t] use of resource [r]. *)
Definition load (p : rcpsp) (sch : list (nat * (nat * nat))) (r : string) (t : nat) : Z :=
  sumZ (map (fun x : nat * (nat * nat) => let '(a, (s, e)) := x in
    if (s <=? t) && (t <? e) then needs p a r else 0%Z) sch).
(** A task is running at date [t]. *)
Definition busy (sch : list (nat * (nat * nat))) (t : nat) : Prop :=
  exists a s e, In (a, (s, e)) sch /\ s <= t < e.
(** [c] units of resource [r] exist at date [t]. *)
Definition room (p : rcpsp) (r : string) (t : nat) (c : Z) : Prop :=
  match p_res p with
  | Constant l => In (r, c) l
  | Calendar l => exists row, In (r, row) l /\ nth_error row t = Some c
  end.

Record feasible (p : rcpsp) (sch : list (nat * (nat * nat))) : Prop := {
  fe_once : NoDup (map fst sch);
  fe_length : forall a s e, In (a, (s, e)) sch -> exists m, mode_one p a = Some m /\ e = s + m_duration m;
  fe_after : forall a b sb eb, edge p a b -> In (b, (sb, eb)) sch ->
    exists sa ea, In (a, (sa, ea)) sch /\ ea <= sb;
  fe_room : forall r t c, busy sch t -> room p r t c -> (load p sch r t <= c)%Z }.

(** The length of a task in its mode 1, and of the whole project done one task at a time. *)
Definition length_one (p : rcpsp) (a : nat) : nat :=
  match mode_one p a with Some m => m_duration m | None => 0 end.
Definition one_by_one (p : rcpsp) : nat := list_sum (map (length_one p) (seq 1 (length (p_modes p)))).
(** Constant resources, and every task can run alone in its mode 1. *)
Definition roomy (p : rcpsp) : Prop :=
  exists caps, p_res p = Constant caps /\
    forall a, task p a -> exists m, mode_one p a = Some m /\
      forall r c, In (r, c) caps -> exists n, dget (m_need m) r = Some n /\ (n <= c)%Z.

(** [a] stands before [b] in the list; every task stands after the tasks it must follow. *)
Definition stands_before (l : list nat) (a b : nat) : Prop := exists l1 l2, l = l1 ++ a :: l2 /\ In b l2.
Definition respects (p : rcpsp) (l : list nat) : Prop := forall a b, edge p a b -> stands_before l a b.
