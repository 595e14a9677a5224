(** Model of skdecide/hub/solver/policy_evaluators/policy_evaluator.py: the evaluation of a deterministic
    policy, exactly over the states that it can meet, or by rollouts.

    Costs and probabilities are rationals (floats in the code).  Dicts are association lists, sets lists
    without repetition.  Which element [set.pop] takes is a parameter [pick]; the states that sampling gives
    are a parameter [draw], indexed by the number of samples taken before.  Each loop has a bound on its
    turns, past which it is [OutOfFuel].  A missing key of a [defaultdict] is added by the code when it is
    read; that key is not looked at again and is left out here. *)
From Coq Require Import List Bool Arith QArith.
From Verif Require Import Py PyList.
Import ListNotations.
Open Scope nat_scope.

Section Peval.
Context {St A : Type} {ES : PyEq St}.

Record pdom := {
  d_init : St;                           (* get_initial_state() *)
  d_term : St -> bool;                   (* is_terminal *)
  d_goal : St -> bool;                   (* is_goal *)
  d_dist : St -> A -> list (St * Q);     (* get_next_state_distribution(s, a).get_values() *)
  d_cost : St -> A -> St -> Q }.         (* get_transition_value(s, a, t).cost *)

(** [preds[k].add(s)] on a defaultdict(set) *)
Definition padd (preds : list (St * list St)) (k s : St) : list (St * list St) :=
  dset preds k (pyadd (match dget preds k with Some l => l | None => [] end) s).
Definition pget (preds : list (St * list St)) (k : St) : list St := match dget preds k with Some l => l | None => [] end.

Definition pol_dict : Type := list (St * A).
Definition pred_dict : Type := list (St * list St).
Definition succ_dict : Type := list (St * list (St * Q)).

(** policy_evaluator.py:19-30: the loop; the top of the stack is the head of the list. *)
Fixpoint explore (fuel : nat) (d : pdom) (pol : St -> A) (stack : list St) (pd : pol_dict) (preds : pred_dict) (succs : succ_dict)
  : res (pol_dict * pred_dict * succ_dict) :=
  match stack with
  | [] => Ok (pd, preds, succs)
  | s :: stack =>
      match fuel with
      | 0 => Err OutOfFuel
      | S fuel =>
          if d_term d s || dmem pd s then explore fuel d pol stack pd preds succs
          else
            let a := pol s in
            let os := d_dist d s a in
            let '(stack', preds') := fold_left (fun sp o =>
              let '(stk, ps) := sp in
              if Qeq_bool (snd o) 0 then sp else (fst o :: stk, padd ps (fst o) s)) os (stack, preds) in
            explore fuel d pol stack' (dset pd s a) preds' (dset succs s os)
      end
  end.

(** policy_evaluator.py:31-34: the sanity check. *)
Definition sane (preds : pred_dict) (succs : succ_dict) : bool :=
  forallb (fun so => forallb (fun o => pymem (fst so) (pget preds (fst o))) (snd so)) succs.

(** policy_evaluator.py:9-35 [construct_dict_policy] *)
Definition construct_dict_policy (fuel : nat) (d : pdom) (pol : St -> A) : res (pol_dict * pred_dict * succ_dict) :=
  let* t := explore fuel d pol [d_init d] [] [] [] in
  let '(pd, preds, succs) := t in
  if sane preds succs then Ok (pd, preds, succs) else Err AssertionError.

(** policy_evaluator.py:174-178 *)
Definition successor_value_is_known (os : list (St * Q)) (opt : list (St * Q)) : bool :=
  forallb (fun o => Qeq_bool (snd o) 0 || dmem opt (fst o)) os.

(** policy_evaluator.py:45-49 *)
Definition seed (d : pdom) (preds : pred_dict) : list (St * Q) * list St :=
  fold_left (fun os kl =>
    if d_goal d (fst kl) then (dset (fst os) (fst kl) 0%Q, fold_left pyadd (snd kl) (snd os)) else os) preds ([], []).

(** policy_evaluator.py:56-60 *)
Definition main_cost (d : pdom) (opt : list (St * Q)) (s : St) (a : A) (os : list (St * Q)) : res Q :=
  foldM (fun u o =>
    let* w := dgetE opt (fst o) in
    Ok (u + snd o * (d_cost d s a (fst o) + w))%Q) 0%Q os.

(** policy_evaluator.py:50-62 *)
Fixpoint evaluate (fuel : nat) (pick : list St -> St) (d : pdom) (pd : pol_dict) (preds : pred_dict) (succs : succ_dict)
  (opt : list (St * Q)) (stack : list St) : res (list (St * Q)) :=
  match stack with
  | [] => Ok opt
  | _ :: _ =>
      match fuel with
      | 0 => Err OutOfFuel
      | S fuel =>
          let s := pick stack in
          let stack' := filter (fun x => negb (pyeqb x s)) stack in
          if dmem opt s then evaluate fuel pick d pd preds succs opt stack'
          else
            let* os := dgetE succs s in
            if negb (successor_value_is_known os opt) then evaluate fuel pick d pd preds succs opt stack'
            else
              let* a := dgetE pd s in
              let* u := main_cost d opt s a os in
              evaluate fuel pick d pd preds succs (dset opt s u) (fold_left pyadd (pget preds s) stack')
      end
  end.

(** policy_evaluator.py:38-63 [expected_costs_for_policy] *)
Definition expected_costs_for_policy (fuel : nat) (pick : list St -> St) (d : pdom) (pd : pol_dict) (preds : pred_dict) (succs : succ_dict) :
  res (list (St * Q)) :=
  let '(opt, stack) := seed d preds in evaluate fuel pick d pd preds succs opt stack.

(** policy_evaluator.py:66-69 [compute_expected_cost_for_policy] *)
Definition compute_expected_cost_for_policy (fuel : nat) (pick : list St -> St) (d : pdom) (pol : St -> A) :
  res (list (St * Q) * pol_dict * pred_dict * succ_dict) :=
  let* t := construct_dict_policy fuel d pol in
  let '(pd, preds, succs) := t in
  let* opt := expected_costs_for_policy fuel pick d pd preds succs in
  Ok (opt, pd, preds, succs).

(** policy_evaluator.py:72-90 [my_custom_rollout]: the states, the costs and the actions, in order, with the number of
    samples taken; the sum with its penalty is in [rollout_sum]. *)
Fixpoint steps (fuel : nat) (draw : nat -> St -> A -> St) (d : pdom) (pol : St -> A) (n : nat) (s : St) :
  res (list St * list Q * list A * nat) :=
  match fuel with
  | 0 => Err OutOfFuel
  | S fuel =>
      let a := pol s in
      let t := draw n s a in
      let c := d_cost d s a t in
      if d_goal d t || d_term d t then Ok ([s; t], [c], [a], S n)
      else
        let* r := steps fuel draw d pol (S n) t in
        let '(states, values, actions, m) := r in
        Ok (s :: states, c :: values, a :: actions, m)
  end.

(** The four dicts of [rollout_based_policy_estimation]: visits and sums in one, policy, predecessors, successors. *)
Record estimate := Est {
  e_visits : list (St * nat);
  e_sum : list (St * Q);
  e_pol : pol_dict;
  e_preds : pred_dict;
  e_succs : pred_dict }.
Definition no_estimate : estimate := Est [] [] [] [] [].

(** [values[::-1].cumsum()] *)
Fixpoint cumsum (u : Q) (l : list Q) : list Q :=
  match l with [] => [] | c :: l => (u + c)%Q :: cumsum (u + c)%Q l end.

(** policy_evaluator.py:113-126: one turn of the inner loop, for the index [j] of the state and [k] of the sum. *)
Definition visit (states : list St) (actions : list A) (sums : list Q) (e : estimate) (jk : nat * nat) : res estimate :=
  let '(j, k) := jk in
  let* s := lget states j in
  let* e1 := (if dmem (e_visits e) s then Ok e
              else let* a := lget actions j in
                   Ok (Est (dset (e_visits e) s 0) (dset (e_sum e) s 0%Q) (dset (e_pol e) s a) (dset (e_preds e) s []) (dset (e_succs e) s []))) in
  let* u := dgetE (e_sum e1) s in
  let* c := lget sums k in
  let* v := dgetE (e_visits e1) s in
  let* ps := (match j with
              | 0 => Ok (e_preds e1)
              | S i => let* l := dgetE (e_preds e1) s in
                       let* t := lget states i in
                       Ok (dset (e_preds e1) s (pyadd l t))
              end) in
  let* l := dgetE (e_succs e1) s in
  let* t := lget states (S j) in
  Ok (Est (dset (e_visits e1) s (S v)) (dset (e_sum e1) s (u + c)%Q) (e_pol e1) ps (dset (e_succs e1) s (pyadd l t))).

(** policy_evaluator.py:109-126: one rollout. *)
Definition one_rollout (fuel : nat) (draw : nat -> St -> A -> St) (d : pdom) (pol : St -> A) (en : estimate * nat) : res (estimate * nat) :=
  let* r := steps fuel draw d pol (snd en) (d_init d) in
  let '(states, values, actions, n) := r in
  let m := length states - 1 in
  let* e := foldM (visit states actions (cumsum 0%Q (rev values))) (fst en) (map (fun k => (m - 1 - k, k)) (seq 0 m)) in
  Ok (e, n).

(** policy_evaluator.py:127 *)
Definition final_value (e : estimate) : res (list (St * Q)) :=
  mapM (fun su => let* v := dgetE (e_visits e) (fst su) in Ok (fst su, (snd su / inject_Z (Z.of_nat v))%Q)) (e_sum e).

(** policy_evaluator.py:95-128 [rollout_based_policy_estimation] *)
Definition rollout_based_policy_estimation (fuel : nat) (draw : nat -> St -> A -> St) (d : pdom) (pol : St -> A) (nb : nat) :
  res (list (St * Q) * pol_dict * pred_dict * pred_dict) :=
  let* en := foldM (fun en _ => one_rollout fuel draw d pol en) (no_estimate, 0) (seq 0 nb) in
  let* fv := final_value (fst en) in
  Ok (fv, e_pol (fst en), e_preds (fst en), e_succs (fst en)).

(** policy_evaluator.py:72-90: the second result, where ending in a terminal state that is not a goal costs 1000. *)
Definition rollout_sum (d : pdom) (states : list St) (values : list Q) : res Q :=
  let* t := lget states (length states - 1) in
  let u := fold_left (fun u c => (u + c)%Q) values 0%Q in
  Ok (if d_goal d t then u else if d_term d t then (u + 1000)%Q else u).
End Peval.
Arguments pdom : clear implicits.
