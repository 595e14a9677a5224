(** Specification vocabulary of multi-skill project scheduling (C94-C96): what a staffed schedule must
    respect, in terms of the tasks, their modes, the workers and the calendars. *)
From Coq Require Import String.
From Coq Require Import List Bool Arith ZArith Permutation.
From Verif Require Import Py PyList SgsModel MskModel SgsProps.
Import ListNotations.

(** Start and end of a task. *)
Definition time_of (sol : msol) (a : nat) : option (Z * Z) := dget (s_sch sol) a.
(** The mode of a task in a solution, and what the task needs of a resource or skill. *)
Definition mode_in (x : ms) (sol : msol) (a : nat) : option mode :=
  match dget (s_modes sol) a, dget (p_modes (ms_base x)) a with
  | Some k, Some d => dget d k
  | _, _ => None
  end.
Definition need_in (x : ms) (sol : msol) (a : nat) (r : string) : Z :=
  match mode_in x sol a with
  | Some m => match dget (m_need m) r with Some n => n | None => 0 end
  | None => 0
  end%Z.
(** The level of a worker for a skill; is the worker at work at time [t]? *)
Definition skill_value (x : ms) (w : nat) (s : string) : Z :=
  match dget (ms_emps x) w with
  | Some e => match dget (e_skill e) s with Some v => v | None => 0 end
  | None => 0
  end%Z.
Definition at_work (x : ms) (w t : nat) : Prop :=
  exists e, dget (ms_emps x) w = Some e /\ nth_error (e_cal e) t = Some true.
(** [w] is recorded on task [a]; the level that the recorded workers bring for a skill. *)
Definition works (sol : msol) (a w : nat) : Prop :=
  exists u, dget (s_use sol) a = Some u /\ In w (dkeys u).
Definition team_level (x : ms) (sol : msol) (a : nat) (s : string) : Z :=
  match dget (s_use sol) a with
  | None => 0%Z
  | Some u => sumZ (map (fun wl : nat * list string =>
                if pymem s (snd wl) then skill_value x (fst wl) s else 0%Z) u)
  end.

Definition tasks_of (x : ms) : list nat := dkeys (p_modes (ms_base x)).
(** What the tasks running at [t] use of a resource, and what all tasks use. *)
Definition running_use (x : ms) (sol : msol) (r : string) (t : Z) : Z :=
  sumZ (map (fun a => match time_of sol a with
                      | Some (s, e) => if (s <=? t)%Z && (t <? e)%Z then need_in x sol a r else 0%Z
                      | None => 0%Z end) (tasks_of x)).
Definition total_use (x : ms) (sol : msol) (r : string) : Z :=
  sumZ (map (fun a => need_in x sol a r) (tasks_of x)).

(** What [satisfy] is about. *)
Record ms_ok (x : ms) (sol : msol) : Prop := {
  k_skill : forall a s n, In a (tasks_of x) -> In s (ms_skills x) -> need_in x sol a s = n -> (0 < n)%Z ->
    (n <= team_level x sol a s)%Z;
  k_calendar : forall a w s e t, In a (tasks_of x) -> works sol a w -> time_of sol a = Some (s, e) ->
    (s <= Z.of_nat t < e)%Z -> at_work x w t;
  k_one_place : forall a b w sa ea sb eb, In a (tasks_of x) -> In b (tasks_of x) -> a <> b ->
    works sol a w -> works sol b w -> time_of sol a = Some (sa, ea) -> time_of sol b = Some (sb, eb) ->
    (ea <= sb \/ eb <= sa)%Z;
  k_running : forall r t c se ee, time_of sol (ms_sink x) = Some (se, ee) -> (Z.of_nat t < ee)%Z ->
    capacity_of (ms_base x) r t = Some c -> (running_use x sol r (Z.of_nat t) <= c)%Z;
  k_total : forall r c, In r (p_nonren (ms_base x)) -> capacity_of (ms_base x) r 0 = Some c ->
    (total_use x sol r <= c)%Z;
  k_order : forall a b l sa ea sb eb, dget (p_succ (ms_base x)) a = Some l -> In b l ->
    time_of sol a = Some (sa, ea) -> time_of sol b = Some (sb, eb) -> (ea <= sb)%Z
}.

(** A solution whose dictionaries have the entries the problem asks for. *)
Record ms_wf (x : ms) (sol : msol) : Prop := {
  w_tasks : NoDup (tasks_of x);
  w_times : Permutation (dkeys (s_sch sol)) (tasks_of x);
  w_start : forall a s e, time_of sol a = Some (s, e) -> (0 <= s)%Z;
  w_mode : forall a, In a (tasks_of x) -> exists m, mode_in x sol a = Some m;
  w_keys : forall a m, In a (tasks_of x) -> mode_in x sol a = Some m -> NoDup (dkeys (m_need m));
  w_sink : In (ms_sink x) (tasks_of x);
  w_res : NoDup (res_names (ms_base x));
  w_nonren : incl (p_nonren (ms_base x)) (res_names (ms_base x));
  w_need : forall a m r, In a (tasks_of x) -> mode_in x sol a = Some m -> In r (res_names (ms_base x)) ->
    exists n, dget (m_need m) r = Some n;
  w_cap : forall r t, In r (res_names (ms_base x)) ->
    t = 0 \/ (exists se ee, time_of sol (ms_sink x) = Some (se, ee) /\ (Z.of_nat t < ee)%Z) ->
    exists c, capacity_of (ms_base x) r t = Some c;
  w_users : forall a u w l, In a (tasks_of x) -> dget (s_use sol) a = Some u -> In (w, l) u ->
    exists e, dget (ms_emps x) w = Some e /\ (forall s, In s l -> exists v, dget (e_skill e) s = Some v) /\
      forall s f, time_of sol a = Some (s, f) -> (f <= Z.of_nat (length (e_cal e)))%Z;
  w_succ : NoDup (dkeys (p_succ (ms_base x)));
  w_closed : forall a l, dget (p_succ (ms_base x)) a = Some l -> In a (tasks_of x) /\ incl l (tasks_of x)
}.

(** Data that make sense, for a problem with [n] tasks besides the source 1 and the sink [n + 2]. *)
Record ms_data (x : ms) (n : nat) : Prop := {
  d_tasks : Permutation (tasks_of x) (seq 1 (n + 2));
  d_sink : ms_sink x = n + 2;
  d_names : NoDup (res_names (ms_base x));
  d_caps : forall r t c, capacity_of (ms_base x) r t = Some c -> (0 <= c)%Z;
  d_keys : forall a d k m, dget (p_modes (ms_base x)) a = Some d -> dget d k = Some m -> NoDup (dkeys (m_need m));
  d_needs : forall a d k m r z, dget (p_modes (ms_base x)) a = Some d -> dget d k = Some m ->
    dget (m_need m) r = Some z -> (0 <= z)%Z;
  d_emps : NoDup (dkeys (ms_emps x));
  d_skills : forall w e, dget (ms_emps x) w = Some e -> NoDup (dkeys (e_skill e));
  d_succ : NoDup (dkeys (p_succ (ms_base x)));
  d_succ_range : forall a, In a (dkeys (p_succ (ms_base x))) -> 1 <= a <= n + 2;
  d_acyclic : exists rank : nat -> nat, forall a l b, dget (p_succ (ms_base x)) a = Some l -> In b l -> rank a < rank b;
  d_sink_succ : dget (p_succ (ms_base x)) (n + 2) = Some [];
  d_sink_length : forall d m, dget (p_modes (ms_base x)) (n + 2) = Some d -> dget d 1 = Some m -> m_duration m = 0;
  (* a task that needs a skill takes time *)
  d_skilled : forall a d k m s z, dget (p_modes (ms_base x)) a = Some d -> dget d k = Some m ->
    In s (ms_skills x) -> dget (m_need m) s = Some z -> (0 < z)%Z -> 0 < m_duration m
}.
(** Non-renewable resources: their amount does not change with time, tasks without length use none. *)
Record ms_flat (x : ms) : Prop := {
  f_flat : forall r t c, In r (p_nonren (ms_base x)) -> t < new_horizon (ms_base x) ->
    capacity_of (ms_base x) r 0 = Some c -> capacity_of (ms_base x) r t = Some c;
  f_zero : forall a d k m r z, In r (p_nonren (ms_base x)) -> dget (p_modes (ms_base x)) a = Some d ->
    dget d k = Some m -> m_duration m = 0 -> dget (m_need m) r = Some z -> z = 0%Z
}.
(** Nothing is missing. *)
Record ms_full (x : ms) (n : nat) : Prop := {
  u_rows : forall r t, In r (res_names (ms_base x)) -> t < p_horizon (ms_base x) \/ t < new_horizon (ms_base x) ->
    exists c, capacity_of (ms_base x) r t = Some c;
  u_need : forall a d k m r, dget (p_modes (ms_base x)) a = Some d -> dget d k = Some m ->
    In r (res_names (ms_base x)) -> exists z, dget (m_need m) r = Some z;
  u_ends : forall a, a = 1 \/ a = n + 2 -> exists d m, dget (p_modes (ms_base x)) a = Some d /\ dget d 1 = Some m;
  u_succ : forall a, 1 <= a <= n + 2 -> exists l, dget (p_succ (ms_base x)) a = Some l;
  u_closed : forall a l b, dget (p_succ (ms_base x)) a = Some l -> In b l -> 1 <= b <= n + 2;
  u_cal : forall w e, dget (ms_emps x) w = Some e -> p_horizon (ms_base x) <= length (e_cal e);
  u_nonren : incl (p_nonren (ms_base x)) (res_names (ms_base x));
  (* neither source nor sink needs a skill *)
  u_inner : forall a d k m s z, a = 1 \/ a = n + 2 -> dget (p_modes (ms_base x)) a = Some d -> dget d k = Some m ->
    In s (ms_skills x) -> dget (m_need m) s = Some z -> (z <= 0)%Z
}.
(** Choices that make sense: an order of the tasks, an existing mode for each and an order of all the
    workers for each. *)
Record ms_choice (x : ms) (n : nat) (perm modes : list nat) (prios : list (list nat)) : Prop := {
  c_perm : Permutation perm (seq 0 n);
  c_modes : length modes = n;
  c_exists : forall i k, nth_error modes i = Some k -> exists d m, dget (p_modes (ms_base x)) (i + 2) = Some d /\ dget d k = Some m;
  c_prios : forall pr, In pr prios -> Permutation pr (dkeys (ms_emps x))
}.

(** The part of a schedule that was fixed before the sink: [a] has a place. *)
Definition placed (x : ms) (sol : msol) (a : nat) (s e : Z) : Prop :=
  time_of sol a = Some (s, e) /\ a <> ms_sink x.
Record ms_part (x : ms) (sol : msol) : Prop := {
  q_length : forall a s e, placed x sol a s e -> exists m, mode_in x sol a = Some m /\
    (0 <= s)%Z /\ e = (s + Z.of_nat (m_duration m))%Z /\ (e < Z.of_nat (p_horizon (ms_base x)))%Z;
  q_order : forall a b l sa ea sb eb, dget (p_succ (ms_base x)) a = Some l -> In b l ->
    placed x sol a sa ea -> placed x sol b sb eb -> (ea <= sb)%Z;
  q_skill : forall a s e sk z, placed x sol a s e -> In sk (ms_skills x) -> need_in x sol a sk = z -> (0 < z)%Z ->
    (z <= team_level x sol a sk)%Z;
  q_staff : forall a w, works sol a w -> (exists s e, time_of sol a = Some (s, e)) /\
    In w (dkeys (ms_emps x)) /\ exists sk, In sk (ms_skills x) /\ (0 < need_in x sol a sk)%Z;
  q_calendar : forall a w s e t, works sol a w -> placed x sol a s e -> (s <= Z.of_nat t < e)%Z -> at_work x w t;
  q_one_place : forall a b w sa ea sb eb, a <> b -> works sol a w -> works sol b w ->
    placed x sol a sa ea -> placed x sol b sb eb -> (ea <= sb \/ eb <= sa)%Z;
  q_one_unit : ms_one x = true -> forall a w w', works sol a w -> works sol a w' -> w = w';
  q_running : forall r t c, ~ In r (p_nonren (ms_base x)) -> capacity_of (ms_base x) r t = Some c ->
    (running_use x sol r (Z.of_nat t) <= c)%Z
}.
(** A complete staffed schedule. *)
Record ms_complete (x : ms) (sol : msol) : Prop := {
  z_all : Permutation (dkeys (s_sch sol)) (tasks_of x);
  z_length : forall a s e, time_of sol a = Some (s, e) -> exists m, mode_in x sol a = Some m /\
    (0 <= s)%Z /\ e = (s + Z.of_nat (m_duration m))%Z /\ (e < Z.of_nat (p_horizon (ms_base x)))%Z;
  z_ok : ms_ok x sol;
  z_one_unit : ms_one x = true -> forall a w w', works sol a w -> works sol a w' -> w = w';
  z_staff : forall a w, works sol a w -> In w (dkeys (ms_emps x)) /\
    exists sk, In sk (ms_skills x) /\ (0 < need_in x sol a sk)%Z
}.
