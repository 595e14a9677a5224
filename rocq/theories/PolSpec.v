(** Vocabulary for the execution of scheduling policies. *)
From Coq Require Import List Bool Arith ZArith QArith.
From Verif Require Import Py SchedModel SchedProofs SchedActProofs PolModel.
Import ListNotations.
Open Scope Z_scope.

(** The mode in which the policy starts a task, and the duration drawn for it in that mode. *)
Definition mode_of (p : policy) (n : nat) : nat := match dget (p_modes p) n with Some m => m | None => O end.
Definition lasts_for (p : policy) (dur : nat -> nat -> Z) (n : nat) : Z := dur n (mode_of p n).

(** A problem that can be executed with the modes of [p]: constant consumptions, renewable resources,
    no skills, no conditional task, no allocation of named units; every task has a mode, a duration, and
    needs no more than the capacities; tasks without duration need nothing; the precedence graph relates
    tasks and has no cycle. *)
Record workable (dm : domain) (p : policy) (dur : nat -> nat -> Z) (cap : nat -> Z) : Prop := {
  wk_const : const_dom dm;
  wk_nonneg : need_nonneg dm;
  wk_skills : d_skills dm = None;
  wk_linear : linear dm;
  wk_exist : forall n, In n (d_tasks dm) -> dget (d_exist dm) n = None;
  wk_renew : forall r, In r (d_types dm) -> is_renewable dm r = Ok true;
  wk_alloc : p_alloc p = None;
  wk_cap : forall r, 0 <= cap r;
  wk_mode : forall n, In n (d_tasks dm) -> exists m c, dget (p_modes p) n = Some m /\ get_mode dm n m = Ok c /\
     0 <= dur n m /\ forall r x, need_at c r 0 = Ok x ->
       (In r (d_types dm) -> x <= cap r) /\ (dur n m = 0 -> x = 0);
  wk_edges : forall m l n, In (m, l) (d_succ dm) -> In n l -> In m (d_tasks dm);
  wk_acyclic : exists rank : nat -> nat, forall m l n, In (m, l) (d_succ dm) -> In n l -> (rank m < rank n)%nat }.

(** The sum of the durations of all tasks. *)
Definition total_duration (dm : domain) (p : policy) (dur : nat -> nat -> Z) : Z :=
  sumZ (map (lasts_for p dur) (nodup Nat.eq_dec (d_tasks dm))).

(** What the plan [sch] uses of resource [r] at date [tau]. *)
Definition planned_load (dm : domain) (p : policy) (dur : nat -> nat -> Z) (sch : list (nat * Z)) (r : nat) (tau : Z) : Z :=
  sumZ (map (fun k => match dget sch k with
                      | Some a => if (a <=? tau) && (tau <? a + lasts_for p dur k)
                                  then cneed dm k (mode_of p k) r else 0
                      | None => 0
                      end) (nodup Nat.eq_dec (d_tasks dm))).

(** A plan giving a date to every task, respecting the precedences and the capacities, for the durations
    [dur]; the policy follows it, and the order of enumeration of a set lists its elements. *)
Record planned (dm : domain) (p : policy) (dur : nat -> nat -> Z) (cap : nat -> Z) (sch : list (nat * Z)) : Prop := {
  pl_method : p_method p = FOLLOW_GANTT;
  pl_sched : p_sched p = Some sch;
  pl_nodup : NoDup (dkeys sch);
  pl_dates : forall n, In n (d_tasks dm) -> exists a, dget sch n = Some a /\ 0 <= a;
  pl_order : forall l x, In x (p_order p l) <-> In x l;
  pl_prec : forall m l n a b, In (m, l) (d_succ dm) -> In n l -> dget sch m = Some a -> dget sch n = Some b ->
     a + lasts_for p dur m <= b;
  pl_load : forall r tau, In r (d_types dm) -> planned_load dm p dur sch r tau <= cap r }.

(** The tasks a method considers besides the first one that may be launched: [i0], [n0] are the index
    and the name of that one, [i], [n] those of the candidate. *)
Definition in_window (p : policy) (i0 n0 i n : nat) : Prop :=
  match p_method p with
  | SGS_READY => True
  | SGS_PRECEDENCE | SGS_STRICT =>
      match p_sched p with
      | None => i = i0
      | Some sch => exists t, dget sch n0 = Some t /\ dget sch n = Some t
      end
  | SGS_TIME_FREEDOM =>
      match p_sched p with
      | None => i = i0
      | Some sch => exists t0 t, dget sch n0 = Some t0 /\ dget sch n = Some t /\ t0 <= t <= t0 + p_delta_time p
      end
  | SGS_INDEX_FREEDOM => Z.of_nat i <= Z.of_nat i0 + p_delta_index p
  | FOLLOW_GANTT | PILE => False
  end.

Definition sgs (m : method) : Prop := m <> FOLLOW_GANTT /\ m <> PILE.

(** Every task is in the permutation, and in the schedule when there is one; the freedoms are
    not negative. *)
Definition covers (dm : domain) (p : policy) : Prop := sgs (p_method p) /\ (forall n, In n (d_tasks dm) -> In n (p_perm p)) /\
  (forall sch n, p_sched p = Some sch -> In n (d_tasks dm) -> exists t, dget sch n = Some t) /\
  0 <= p_delta_time p /\ 0 <= p_delta_index p.
