(** Model of skdecide/builders/scheduling/task_duration.py (the seven kinds of task durations),
    time_windows.py and time_lag.py of the same directory, and of the membership questions of
    skdecide/builders/domain/{events,goals,observability}.py with their [functools.lru_cache].

    - A duration, a date and a progress value are integers; progress only serves as a dict key and as an
      argument of the user's functions, [0] is the default [0.].
    - A draw of Python's generator is an argument [u]; probabilities are exact rationals. *)
From Coq Require Import List Bool Arith ZArith QArith.
From Verif Require Import Py DistModel.
Import ListNotations.
Open Scope Z_scope.

(** task_duration.py: the classes. *)
Inductive kind := Simulated | Multivariate | Univariate | Bounded | Uniform | Enumerable | Deterministic.

(** The methods left to the user: [_sample_task_duration] (25), [_get_task_duration_distribution]
    (59, 74, 90, 149), the bounds (98, 106, 131, 135), [_get_task_duration] (175); each is asked only for the
    kinds where the library does not define it. *)
Record user := {
  u_sample : nat -> nat -> Z -> Q -> Z;
  u_dist : nat -> nat -> Z -> res (dist Z);
  u_lower : nat -> nat -> Z -> Z;
  u_upper : nat -> nat -> Z -> Z;
  u_duration : nat -> nat -> Z -> Z }.

(** [sampled_durations]: task -> mode -> progress -> duration *)
Definition memo := list (nat * list (nat * list (Z * Z))).
Definition memo_get (m : memo) (task mode : nat) (pr : Z) : option Z :=
  match dget m task with
  | None => None
  | Some d => match dget d mode with None => None | Some e => dget e pr end
  end.

(** [range(lb, ub + 1)] *)
Fixpoint zrange (lb : Z) (n : nat) : list Z := match n with O => [] | S k => lb :: zrange (lb + 1) k end.

(** Python's [max] and [min] of a list; ValueError when empty. *)
Definition pymax (l : list Z) : res Z := match l with [] => Err ValueError | x :: r => Ok (fold_left Z.max r x) end.
Definition pymin (l : list Z) : res Z := match l with [] => Err ValueError | x :: r => Ok (fold_left Z.min r x) end.

(** [get_task_duration_distribution] (49-53) for the classes that have it: the user's, the uniform one
    (118-127), the deterministic one (177-181).  [ub - lb + 1 = 0] divides by zero; an empty list of values
    is refused by DiscreteDistribution. *)
Definition distribution (k : kind) (us : user) (task mode : nat) (pr : Z) : res (dist Z) :=
  match k with
  | Simulated => Err AttributeError
  | Multivariate | Univariate | Bounded | Enumerable => u_dist us task mode pr
  | Uniform =>
      let lb := u_lower us task mode 0 in
      let ub := u_upper us task mode 0 in
      let n := ub - lb + 1 in
      if n =? 0 then Err ZeroDivisionError
      else DiscreteDistribution (map (fun x => (x, (1 / inject_Z n)%Q)) (zrange lb (Z.to_nat n)))
  | Deterministic => DiscreteDistribution [(u_duration us task mode 0, 1%Q)]
  end.

(** [_sample_task_duration] (23-25, 44-47, 65-68, 81-84, 113-116, 141-143, 165-167): the uncertain classes ask
    the distribution without passing the progress on. *)
Definition sample_ (k : kind) (us : user) (task mode : nat) (pr : Z) (u : Q) : res Z :=
  match k with
  | Simulated => Ok (u_sample us task mode pr u)
  | Deterministic => Ok (u_duration us task mode pr)
  | _ => let* d := distribution k us task mode 0 in dist_sample d u
  end.

(** [sample_task_duration]: 13-21 for SimulatedTaskDuration, with the memory; 39-42 for all others,
    without. *)
Definition memo_set (m : memo) (task mode : nat) (pr v : Z) : memo :=
  let d := match dget m task with None => [] | Some d => d end in
  let e := match dget d mode with None => [] | Some e => e end in
  dset m task (dset d mode (dset e pr v)).
Definition sample_duration (k : kind) (us : user) (m : memo) (task mode : nat) (pr : Z) (u : Q) : res (memo * Z) :=
  match k with
  | Simulated =>
      match memo_get m task mode pr with
      | Some v => Ok (m, v)
      | None => let* v := sample_ k us task mode pr u in Ok (memo_set m task mode pr v, v)
      end
  | _ => let* v := sample_ k us task mode pr u in Ok (m, v)
  end.

(** 27-32 [get_latest_sampled_duration] *)
Definition latest_duration (k : kind) (us : user) (m : memo) (task mode : nat) (pr : Z) (u : Q) : res (memo * Z) :=
  match memo_get m task mode pr with
  | Some v => Ok (m, v)
  | None => sample_duration k us m task mode pr u
  end.

(** The bounds: 92-106 (the user's for Bounded and Uniform, 129-135), 151-159, 183-189. *)
Definition lower_bound (k : kind) (us : user) (task mode : nat) (pr : Z) : res Z :=
  match k with
  | Bounded | Uniform => Ok (u_lower us task mode pr)
  | Enumerable => let* d := distribution k us task mode 0 in pymin (map fst (dist_get_values d))
  | Deterministic => Ok (u_duration us task mode 0)
  | _ => Err AttributeError
  end.
Definition upper_bound (k : kind) (us : user) (task mode : nat) (pr : Z) : res Z :=
  match k with
  | Bounded | Uniform => Ok (u_upper us task mode pr)
  | Enumerable => let* d := distribution k us task mode 0 in pymax (map fst (dist_get_values d))
  | Deterministic => Ok (u_duration us task mode 0)
  | _ => Err AttributeError
  end.

(** A program that asks durations: one call after the other, each with its draw. *)
Inductive call := Sample (task mode : nat) (pr : Z) | Latest (task mode : nat) (pr : Z).
Definition do_call (k : kind) (us : user) (m : memo) (c : call) (u : Q) : res (memo * Z) :=
  match c with
  | Sample t md pr => sample_duration k us m t md pr u
  | Latest t md pr => latest_duration k us m t md pr u
  end.
Fixpoint calls (k : kind) (us : user) (m : memo) (l : list (call * Q)) : res (memo * list Z) :=
  match l with
  | [] => Ok (m, [])
  | (c, u) :: r =>
      let* mv := do_call k us m c u in
      let* ml := calls k us (fst mv) r in
      Ok (fst ml, snd mv :: snd ml)
  end.

(** time_windows.py:7-94: a window as its constructor leaves it. *)
Record window := { w_es : Z; w_ls : Z; w_ee : Z; w_le : Z }.
Definition TimeWindow (es ls ee le horizon : Z) : window := {| w_es := es; w_ls := ls; w_ee := ee; w_le := le |}.
Definition ClassicTimeWindow (es le horizon : Z) := {| w_es := es; w_ls := horizon; w_ee := 0; w_le := le |}.
Definition StartFromOnly (es horizon : Z) := {| w_es := es; w_ls := horizon; w_ee := 0; w_le := horizon |}.
Definition StartBeforeOnly (ls horizon : Z) := {| w_es := 0; w_ls := ls; w_ee := 0; w_le := horizon |}.
Definition EndFromOnly (ee horizon : Z) := {| w_es := 0; w_ls := horizon; w_ee := ee; w_le := horizon |}.
Definition EndBeforeOnly (le horizon : Z) := {| w_es := 0; w_ls := horizon; w_ee := 0; w_le := le |}.
Definition StartTimeWindow (es ls horizon : Z) := {| w_es := es; w_ls := ls; w_ee := 0; w_le := horizon |}.
Definition EndTimeWindow (ee le horizon : Z) := {| w_es := 0; w_ls := horizon; w_ee := ee; w_le := le |}.
Definition EmptyTimeWindow (horizon : Z) := {| w_es := 0; w_ls := horizon; w_ee := 0; w_le := horizon |}.
(** time_windows.py:141-153 [WithoutTimeWindow._get_time_window] *)
Definition no_windows (ids : list nat) (horizon : Z) : list (nat * window) :=
  fold_left (fun d i => dset d i (EmptyTimeWindow horizon)) ids [].

(** time_lag.py:7-28.  MinimumOnlyTimeLag asks itself for [get_max_horizon], which no time lag has. *)
Record lag := { l_min : Z; l_max : Z }.
Definition TimeLag (mi ma : Z) : res lag := Ok {| l_min := mi; l_max := ma |}.
Definition MinimumOnlyTimeLag (mi : Z) : res lag := Err AttributeError.
Definition MaximumOnlyTimeLag (ma : Z) : res lag := Ok {| l_min := 0; l_max := ma |}.

(** * Membership questions *)

Section Member.
Context {A : Type} {EA : PyEq A}.

(** What [contains] of a space answers: it may raise (core.py: EmptySpace inherits the abstract method). *)
Definition space := A -> res bool.
Definition EmptySpace : space := fun _ => Err NotImplementedError.

(** Python's [all(d[k].contains(v) for k, v in x.items())] *)
Fixpoint all_in (sp : list (nat * space)) (x : list (nat * A)) : res bool :=
  match x with
  | [] => Ok true
  | (k, v) :: r =>
      let* s := dgetE sp k in
      let* b := s v in
      if (b : bool) then all_in sp r else Ok false
  end.

(** A value of T_agent: plain for a single agent, a dict for several. *)
Inductive agents (T : Type) := One (x : T) | Many (d : list (nat * T)).
Arguments One {T}. Arguments Many {T}.

(** goals.py:85-102 [_is_goal], observability.py:81-99 [_is_observation], events.py:280-301
    [_is_applicable_action_from]; the domain is single-agent exactly when its space is plain.  A plain
    value given to a multi-agent domain has no [items]; a dict is asked to a plain space as an element,
    which it is not. *)
Definition member (sp : agents space) (x : agents A) : res bool :=
  match sp, x with
  | One s, One v => s v
  | Many d, Many e => all_in d e
  | Many _, One _ => Err AttributeError
  | One _, Many _ => Ok false
  end.

(** events.py:103-117 [_is_enabled_event_from] for the class Actions (304-310): no enabled events. *)
Definition actions_is_enabled (e : A) : res bool := EmptySpace e.
(** events.py:313-319 UnrestrictedActions: the applicable actions are the action space. *)
Definition unrestricted_is_applicable (sp : agents space) (x : agents A) : res bool := member sp x.
End Member.
Arguments One {T}. Arguments Many {T}.

(** * The caches *)

(** [@functools.lru_cache()] on [_get_action_space], [_get_observation_space], [_get_goals] and
    [_get_constraints] (events.py:135, observability.py:36, goals.py:36, constraints.py:32): one cache of 128
    entries per function, shared by all domains, the most recently used entry last.  [f] is the function
    behind it, given with its [n]-th call (the value of a call may depend on the time).
    CPython's lru_cache: a hit moves the entry to the end; a miss calls, then evicts the oldest entry if
    the cache is full.  Domains are keys by identity. *)
Section Lru.
Context {V : Type}.
Variable maxsize : nat.
Variable f : nat -> nat -> V.     (* domain -> number of the call -> value *)
Record cache := { c_entries : list (nat * V); c_calls : nat }.
Definition lru_call (c : cache) (d : nat) : cache * V :=
  match dget (c_entries c) d with
  | Some v => ({| c_entries := ddel (c_entries c) d ++ [(d, v)]; c_calls := c_calls c |}, v)
  | None =>
      let v := f d (c_calls c) in
      let kept := if (maxsize <=? length (c_entries c))%nat then tl (c_entries c) else c_entries c in
      ({| c_entries := kept ++ [(d, v)]; c_calls := S (c_calls c) |}, v)
  end.
Fixpoint lru_calls (c : cache) (ds : list nat) : cache * list V :=
  match ds with
  | [] => (c, [])
  | d :: r => let (c1, v) := lru_call c d in let (c2, vs) := lru_calls c1 r in (c2, v :: vs)
  end.
Definition lru_empty : cache := {| c_entries := []; c_calls := 0 |}.
End Lru.
