(** Model of the deterministic gym domains (/repo/skdecide/hub/domain/gym/gym.py):
    [DeterministicInitializedGymDomain] (149-236), [DeterministicGymDomain] (679-758) and
    [GymPlanningDomain] (788-856).

    Environments are mutable Python objects: a heap maps addresses to their current values, a domain
    and its state proxies hold addresses.  [deepcopy] allocates a new address holding the same value.
    Simplifications: [reset] and [step] of the environment are deterministic functions of its value
    (what the documentation of these classes requires); a dangling address, impossible in Python, is
    reported as [RuntimeError]; rewards are exact integers; rendering, spaces and printing are not
    modelled.  [_are_same] (760-781) is a parameter here; it is modelled in [GymProxyModel]. *)
From Coq Require Import List Bool Arith ZArith.
Import ListNotations.
From Verif Require Import Py.
Set Implicit Arguments.

Section Gym.
  Variables E Obs Act Info Snap : Type.
  Variable env_reset : E -> E * Obs.
  Variable env_step : E -> Act -> E * (Obs * Z * bool * Info).

  (** [set_state], [get_state]: constructor arguments (158-160, 686-688). *)
  Variable set_state : option (E -> Snap -> E).
  Variable get_state : option (E -> Snap).
  (** The truth value of Python's [!=] on what [get_state] returns; it raises [ValueError] on numpy
      arrays with several cells. *)
  Variable snap_neq : Snap -> Snap -> res bool.

  (** [self._set_state is not None and self._get_state is not None] *)
  Definition snapshots : option ((E -> Snap -> E) * (E -> Snap)) :=
    match set_state, get_state with Some s, Some g => Some (s, g) | _, _ => None end.

  Definition heap := list E.
  Definition deref (h : heap) (a : nat) : res E :=
    match nth_error h a with Some e => Ok e | None => Err RuntimeError end.
  Fixpoint assign (h : heap) (a : nat) (e : E) : heap :=
    match h, a with
    | [], _ => []
    | _ :: r, 0 => e :: r
    | x :: r, S k => x :: assign r k e
    end.
  (** [deepcopy] of the object at an address *)
  Definition deepcopy (h : heap) (a : nat) : res (heap * nat) :=
    let* e := deref h a in Ok (h ++ [e], length h).

  (** [TransitionOutcome] *)
  Record outcome := mk_outcome { o_state : Obs; o_reward : Z; o_term : bool; o_info : Info }.

  (** ** DeterministicGymDomain *)

  (** [GymDomainStateProxy] with its context: environment, previous observation, action, outcome,
      snapshot (707-709, 724-726), followed for the planning domain by depth and accumulated reward
      (824-825, 840-841). *)
  Record proxy := mk_proxy {
    p_state : Obs;
    p_env : nat;
    p_memory : option Obs;
    p_action : option Act;
    p_outcome : option outcome;
    p_snap : option Snap;
    p_extra : option (Z * Z)
  }.

  Record dom := mk_dom { d_heap : heap; d_env : nat }.

  (** [self._get_state(env) if (… is not None …) else None] *)
  Definition snap_of (e : E) : option Snap :=
    match snapshots with Some (_, g) => Some (g e) | None => None end.

  (** gym.py 704-709 [_get_initial_state_]. *)
  Definition initial_state (d : dom) : res (dom * proxy) :=
    let* e := deref (d_heap d) (d_env d) in
    let r := env_reset e in
    Ok (mk_dom (assign (d_heap d) (d_env d) (fst r)) (d_env d),
        mk_proxy (snd r) (d_env d) None None None (snap_of (fst r)) None).

  (** gym.py 711-726 [_get_next_state]. *)
  Definition next_state (d : dom) (m : proxy) (a : Act) : res (dom * proxy) :=
    let* p :=
      match snapshots with
      | None => deepcopy (d_heap d) (p_env m)                                    (* 714-715 *)
      | Some (set, get) =>                                                       (* 716-717 *)
          let* e := deref (d_heap d) (p_env m) in
          match p_snap m with
          | None => Err TypeError      (* set_state called with None *)
          | Some s => let* b := snap_neq s (get e) in
                      if b then Ok (assign (d_heap d) (p_env m) (set e s), p_env m)
                      else Ok (d_heap d, p_env m)
          end
      end in
    let h := fst p in let env := snd p in
    let* e := deref h env in
    let r := env_step e a in                                                     (* 719 *)
    let '(obs, rew, done, info) := snd r in
    let o := mk_outcome obs rew done info in
    Ok (mk_dom (assign h env (fst r)) env,
        mk_proxy obs env (Some (p_state m)) (Some a) (Some o) (snap_of (fst r)) None).

  (** gym.py 728-733 [_get_transition_value]: the reward held by the value. *)
  Definition transition_value (m : proxy) (a : Act) (s' : option proxy) : res Z :=
    match s' with
    | None => Err AttributeError
    | Some s => match p_outcome s with Some o => Ok (o_reward o) | None => Err AttributeError end
    end.

  (** gym.py 735-737 [_is_terminal]. *)
  Definition is_terminal (s : proxy) : bool :=
    match p_outcome s with Some o => o_term o | None => false end.

  (** ** GymPlanningDomain *)

  Variable same : Obs -> Obs -> res bool.       (* [_are_same] on the observation space *)
  Variable termination_is_goal : bool.
  Variable max_depth : Z.

  Record pdom := mk_pdom {
    pd_dom : dom;
    pd_initial : option proxy;
    pd_depth : Z;
    pd_restarting : bool;
    pd_resets : nat      (* how many times [_reset_features] has been called (a [GymWidthDomain]) *)
  }.

  Definition with_extra (m : proxy) (x : Z * Z) : proxy :=
    mk_proxy (p_state m) (p_env m) (p_memory m) (p_action m) (p_outcome m) (p_snap m) (Some x).

  (** gym.py 815-820 [__init__]. *)
  Definition pinit (h : heap) (env : nat) : pdom := mk_pdom (mk_dom h env) None 0 false 0.

  (** gym.py 822-828 [_get_initial_state_]. *)
  Definition p_initial_state (d : pdom) : res (pdom * proxy) :=
    let* r := initial_state (pd_dom d) in
    let m := with_extra (snd r) (0, 0)%Z in
    Ok (mk_pdom (fst r) (Some m) 0 (pd_restarting d) (pd_resets d), m).

  (** gym.py 846-855 [_restart_from_initial_state]. *)
  Definition restart (d : pdom) : pdom :=
    if pd_restarting d then d
    else mk_pdom (pd_dom d) (pd_initial d) 0 true (S (pd_resets d)).

  (** gym.py 830-845 [_get_next_state]. *)
  Definition p_next_state (d : pdom) (m : proxy) (a : Act) : res (pdom * proxy) :=
    let init := match pd_initial d with None => m | Some i => i end in           (* 832-833 *)
    let d := mk_pdom (pd_dom d) (Some init) (pd_depth d) (pd_restarting d) (pd_resets d) in
    let* b := same (p_state m) (p_state init) in
    let d := if b then restart d
             else mk_pdom (pd_dom d) (pd_initial d) (pd_depth d) false (pd_resets d) in
    let* r := next_state (pd_dom d) m a in
    match p_extra m with
    | None => Err IndexError
    | Some (depth, acc) =>
        let acc' := match p_outcome m with Some o => (acc + o_reward o)%Z | None => acc end in   (* 841 *)
        let s := with_extra (snd r) (depth + 1, acc')%Z in
        let cur := if (pd_depth d <? depth + 1)%Z then (depth + 1)%Z else pd_depth d in
        Ok (mk_pdom (fst r) (pd_initial d) cur (pd_restarting d) (pd_resets d), s)
    end.

  (** gym.py 857-860 [_get_goals_]: membership of a state. *)
  Definition is_goal (s : proxy) : res bool :=
    match p_extra s with
    | None => Err IndexError
    | Some (depth, _) => Ok ((max_depth <=? depth)%Z || (termination_is_goal && is_terminal s))
    end.

  (** ** DeterministicInitializedGymDomain *)

  (** What a proxy of that class carries (188-196, 207-209): a snapshot or an environment. *)
  Inductive context := CNone | CSnap (s : Snap) | CEnv (a : nat).
  Record istate := mk_istate { s_obs : Obs; s_ctx : context }.

  (** The fields set by [__init__] (170-175). *)
  Record idom := mk_idom {
    i_heap : heap;
    i_env : nat;
    i_init_env : option nat;
    i_initial : option istate;
    i_init_snap : option Snap
  }.
  Definition iinit (h : heap) (env : nat) : idom := mk_idom h env None None None.

  (** [self._set_state(self._gym_env, s)] *)
  Definition put_back (set : E -> Snap -> E) (d : idom) (s : option Snap) : res heap :=
    match s with
    | None => Err TypeError
    | Some s => let* e := deref (i_heap d) (i_env d) in Ok (assign (i_heap d) (i_env d) (set e s))
    end.

  (** gym.py 177-185 [set_memory]. *)
  Definition set_memory (d : idom) (s : istate) : res idom :=
    match snapshots with
    | Some (set, _) =>
        match s_ctx s with
        | CSnap c =>
            let* h := put_back set d (Some c) in
            Ok (mk_idom h (i_env d) (i_init_env d) (Some s) (Some c))
        | _ => Err TypeError
        end
    | None =>
        match s_ctx s with
        | CEnv c =>
            let* p := deepcopy (i_heap d) c in
            Ok (mk_idom (fst p) (snd p) (Some c) (Some s) (i_init_snap d))
        | _ => Err TypeError
        end
    end.

  (** gym.py 187-201 [_state_reset]. *)
  Definition i_reset (d : idom) : res (idom * istate) :=
    match i_initial d with
    | None =>
        let* e := deref (i_heap d) (i_env d) in
        let r := env_reset e in
        let h := assign (i_heap d) (i_env d) (fst r) in
        match snapshots with
        | Some (_, get) =>
            let c := get (fst r) in
            let s := mk_istate (snd r) (CSnap c) in
            Ok (mk_idom h (i_env d) (i_init_env d) (Some s) (Some c), s)
        | None =>
            let* p := deepcopy h (i_env d) in
            let s := mk_istate (snd r) (CEnv (snd p)) in
            Ok (mk_idom (fst p) (i_env d) (Some (snd p)) (Some s) (i_init_snap d), s)
        end
    | Some s =>
        match snapshots with
        | Some (set, _) =>
            let* h := put_back set d (i_init_snap d) in
            Ok (mk_idom h (i_env d) (i_init_env d) (Some s) (i_init_snap d), s)
        | None =>
            match i_init_env d with
            | None => Err TypeError
            | Some c => let* p := deepcopy (i_heap d) c in
                        Ok (mk_idom (fst p) (snd p) (Some c) (Some s) (i_init_snap d), s)
            end
        end
    end.

  (** gym.py 203-210 [_state_step]; a step before any reset yields a state without context. *)
  Definition i_step (d : idom) (a : Act) : res (idom * (istate * Z * bool * Info)) :=
    let* e := deref (i_heap d) (i_env d) in
    let r := env_step e a in
    let '(obs, rew, done, info) := snd r in
    let c := match snapshots with
             | Some _ => match i_init_snap d with Some s => CSnap s | None => CNone end
             | None => match i_init_env d with Some c => CEnv c | None => CNone end
             end in
    Ok (mk_idom (assign (i_heap d) (i_env d) (fst r)) (i_env d) (i_init_env d) (i_initial d) (i_init_snap d),
        (mk_istate obs c, rew, done, info)).
End Gym.
