(** Model of skdecide/utils.py [rollout] (89-237) and [rollout_episode] (240-355).

    Rendering, logging, frame-rate limitation and writing of result files are left out, except
    that asking for result files makes [rollout] return after the first episode.  The solver is an
    arbitrary stateful policy; [solver=None] (random walker) is one such policy.  Random draws are
    indexed by (episode, step). *)
From Coq Require Import List Bool Arith.
From Verif Require Import Py EnvModel.
Import ListNotations.

Section Rollout.
Context {St A O V I W Sv : Type}.

(** A policy with internal state: [reset()] and [sample_action(observation)]. *)
Record solver := {
  s_reset : Sv -> Sv;
  s_sample : Sv -> O -> W -> A * Sv }.

(** [max_steps is None or step <= max_steps] (utils.py:178, 315) *)
Definition go_on (max_steps : option nat) (step : nat) : bool :=
  match max_steps with None => true | Some m => step <=? m end.

(** One interaction of an episode: the action chosen and the outcome returned by the domain. *)
Definition interaction : Type := A * outcome O V I.

(** utils.py:178-207: the loop of [rollout]; [acc] is the list of interactions so far, latest
    first (ghost: what an observer of the domain sees). *)
Fixpoint loop (fuel : nat) (d : domain St A O V I W) (sv : solver) (max_steps : option nat)
         (rnd : nat -> W) (step : nat) (e : env St) (z : Sv) (obs : O) (acc : list interaction)
  : res (env St * Sv * list interaction) :=
  match fuel with
  | 0 => Err OutOfFuel
  | S fuel' =>
      if go_on max_steps step then
        let (a, z') := s_sample sv z obs (rnd step) in
        let* r := EnvModel.step d e a (rnd step) in
        let (e', out) := r in
        if o_termination out then Ok (e', z', rev ((a, out) :: acc))
        else loop fuel' d sv max_steps rnd (S step) e' z' (o_observation out) ((a, out) :: acc)
      else Ok (e, z, rev acc)
  end.

(** [from_memory[-1] if has_memory else from_memory] (utils.py:160, 299; [has_memory] is
    "not Markovian", 151, 289); Memoryless is a subclass of Markovian. *)
Definition last_state (k : mkind) (h : list (@deque St)) (m : mem St) : res St :=
  match k with
  | Markovian | Memoryless => match m with MState s => Ok s | _ => Err TypeError end
  | _ => match m with
         | MRef r => match nth_error h r with
                     | Some (_, l) => match rev l with s :: _ => Ok s | [] => Err IndexError end
                     | None => Err KeyError
                     end
         | _ => Err TypeError
         end
  end.

(** utils.py:153-166: initialisation of an episode of [rollout]; draw number 0 is used. *)
Definition start (d : domain St A O V I W) (from_memory : option (mem St)) (from_action : option A)
           (w : W) (e : env St) : res (env St * O) :=
  match from_memory with
  | None => Ok (EnvModel.reset d e w)
  | Some m =>
      let e' := set_memory e m in
      let* s := last_state (d_kind d) (heap e') m in
      Ok (e', d_observe d s from_action w)
  end.

(** utils.py:152-237: the episodes of [rollout], as the list of their first observation and
    interactions.  With [save] (a result directory) the function returns inside the loop. *)
Fixpoint rollout (fuel : nat) (d : domain St A O V I W) (sv : solver) (from_memory : option (mem St))
         (from_action : option A) (max_steps : option nat) (save : bool)
         (episodes : nat) (rnd : nat -> nat -> W) (e : env St) (z : Sv)
  : res (env St * Sv * list (O * list interaction)) :=
  match episodes with
  | 0 => Ok (e, z, [])
  | S n =>
      let z1 := s_reset sv z in
      let* eo := start d from_memory from_action (rnd n 0) e in
      let* r := loop fuel d sv max_steps (rnd n) 1 (fst eo) z1 (snd eo) [] in
      let '(e2, z2, l) := r in
      if save then Ok (e2, z2, [(snd eo, l)])
      else
        let* r' := rollout fuel d sv from_memory from_action max_steps save n rnd e2 z2 in
        let '(e3, z3, ls) := r' in Ok (e3, z3, (snd eo, l) :: ls)
  end.

(** *** rollout_episode.  Python does not distinguish an observation from a state:
    [as_memory o] is the memory obtained by passing the observation [o] to [set_memory]. *)
Variable as_memory : O -> mem St.

(** utils.py:315-345 *)
Fixpoint ep_loop (fuel : nat) (d : domain St A O V I W) (sv : solver) (max_steps : option nat)
         (rnd : nat -> W) (step : nat) (e : env St) (z : Sv) (obs : O)
         (observations : list O) (actions : list A) (values : list V)
  : res (list O * list A * list V) :=
  match fuel with
  | 0 => Err OutOfFuel
  | S fuel' =>
      if go_on max_steps step then
        let (a, z') := s_sample sv z obs (rnd step) in
        let e1 := set_memory e (as_memory (last observations obs)) in
        let* r := EnvModel.step d e1 a (rnd step) in
        let (e', out) := r in
        let observations' := observations ++ [o_observation out] in
        let actions' := actions ++ [a] in
        let values' := values ++ [o_value out] in
        if o_termination out then Ok (observations', actions', values')
        else ep_loop fuel' d sv max_steps rnd (S step) e' z' (o_observation out)
                     observations' actions' values'
      else Ok (observations, actions, values)
  end.

(** utils.py:290-355.  With [from_memory=None] the variable [observation] is never assigned, so
    its first use raises UnboundLocalError.  The function returns inside the loop over the
    episodes, hence [None] when [num_episodes] is 0. *)
Definition rollout_episode (fuel : nat) (d : domain St A O V I W) (sv : solver)
           (from_memory : option (mem St)) (from_action : option A) (num_episodes : nat)
           (max_steps : option nat) (rnd : nat -> W) (e : env St) (z : Sv)
  : res (option (list O * list A * list V)) :=
  match num_episodes with
  | 0 => Ok None
  | S _ =>
      let z1 := s_reset sv z in
      match from_memory with
      | None => Err UnboundLocalError
      | Some m =>
          let e' := set_memory e m in
          let* s := last_state (d_kind d) (heap e') m in
          let o := d_observe d s from_action (rnd 0) in
          let* r := ep_loop fuel d sv max_steps rnd 1 e' z1 o [o] [] [] in
          Ok (Some r)
      end
  end.

End Rollout.
Arguments solver : clear implicits.
