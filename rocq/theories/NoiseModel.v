(** Model of the stochastic versions of RCPSP domains: skdecide/hub/domain/rcpsp/rcpsp_sk.py:183-285
    (Stochastic_RCPSP, build_stochastic_from_deterministic, build_n_determinist_from_stochastic), with the
    inherited methods of MultiModeRCPSP_Stochastic_Durations
    (skdecide/builders/scheduling/scheduling_domains.py:1268-1285).

    - Probabilities are rationals.
    - Of [initialize_domain] only the new value of [successors] is kept (see BindModel.v). *)
From Coq Require Import String List Bool Arith ZArith QArith.
From Verif Require Import Py PyList SgsModel BindModel.
Import ListNotations.
Open Scope string_scope.
Open Scope list_scope.
Open Scope nat_scope.

(** rcpsp_sk.py:183-228.  The constructor's [resource_renewable] is stored. *)
Record stoch := Stoch {
  t_names : list string;
  t_ids : list nat;
  t_modes : list (nat * list (nat * consumption));
  t_dist : list (nat * list (nat * list (Z * Q)));        (* duration_distribution *)
  t_succ : list (nat * list nat);
  t_horizon : nat;
  t_avail : string -> res Z;                              (* resource_availability *)
  t_stored : list (string * bool) }.                      (* resource_renewable *)

(** [get_resource_renewability]: the class inherits from RenewableOnly (scheduling_domains.py:1280) and does not
    redefine [_get_resource_renewability] (resource_renewability.py:53-60); there are no resource units. *)
Definition t_renewable (s : stoch) : list (string * bool) :=
  fold_left (fun d r => dset d r true) (t_names s) [].

(** rcpsp_sk.py:239-245: the values of one distribution; [range(-n, n+1)] with [n = 10]. *)
Definition noise (d : Z) : list (Z * Q) :=
  map (fun i => (Z.max 1 (d + (Z.of_nat i - 10)), 1 # 21)) (seq 0 21).
Definition distribution (noisy : nat -> bool) (task : nat) (d : Z) : list (Z * Q) :=
  if (d =? 0)%Z || negb (noisy task) then [(d, 1%Q)] else noise d.

(** rcpsp_sk.py:231-254 [build_stochastic_from_deterministic]; [task_to_noise] is a set of tasks, by default all
    the tasks. *)
Definition build_stochastic (k : sk_domain) (task_to_noise : option (list nat)) : res stoch :=
  let tn := match task_to_noise with Some l => l | None => k_ids k end in
  let* dist := mapM (fun task =>
    let* modes := dgetE (k_modes k) task in
    let* l := mapM (fun mc : nat * consumption =>
                let* d := k_duration k task (fst mc) in
                Ok (fst mc, distribution (fun t => pymem t tn) task d)) modes in
    Ok (task, l)) (k_ids k) in
  Ok (Stoch (k_names k) (k_ids k) (k_modes k) dist (graph_successors (k_ids k) (k_succ k)) (k_horizon k * 2) (k_original k) (k_renewable k)).

(** task_duration.py:48-52, 67-70 and core.py:218-219: [random.choices(population, weights)[0]], the drawn
    index given. *)
Definition sample_duration (s : stoch) (task mode : nat) (index : nat) : res Z :=
  let* d := dgetE (t_dist s) task in
  let* v := dgetE d mode in
  rmap fst (lget v index).

(** rcpsp_sk.py:261-282: one instance; [draw task mode] is the drawn index. *)
Definition instance_entry (s : stoch) (draw : nat -> nat -> nat) (task mode : nat) (c : consumption) : res needs :=
  let* e := mapM (fun r => let* n := use_at c r 0 in Ok (r, n)) (use_names c) in
  let* d := sample_duration s task mode (draw task mode) in
  Ok (dset e "duration" d).
Definition build_instance (s : stoch) (draw : nat -> nat -> nat) : res sk_domain :=
  let* ds := mapM (fun tm : nat * list (nat * consumption) =>
    let* d := mapM (fun mc : nat * consumption =>
                let* e := instance_entry s draw (fst tm) (fst mc) (snd mc) in Ok (fst mc, e)) (snd tm) in
    Ok (fst tm, d)) (t_modes s) in
  let* avail := make_dict (t_avail s) (t_names s) in
  let* rd := read_details (t_names s) ds in
  Ok (Sk KMulti (t_names s) (t_ids s) (only_modes rd) (duration_in rd)
         (fun r => dgetE avail r) (fun r _ => dgetE avail r) (t_renewable s)
         (graph_successors (t_ids s) (t_succ s)) (t_horizon s)).

(** rcpsp_sk.py:257-285 [build_n_determinist_from_stochastic], with the draws of each instance. *)
Definition build_instances (s : stoch) (draws : list (nat -> nat -> nat)) : res (list sk_domain) :=
  mapM (build_instance s) draws.
