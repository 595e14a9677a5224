(** Model of the hindsight planner: skdecide/hub/solver/_hindsight/hindsight.py:17-118.

    Scenarios are planned for one after the other (multithread=False); printing, [plan_by_scenario] (never
    read) and the paths returned by the planners are left out.  The planners and their domains are oracles:
    what one gives depends on its scenario and on the state only.  Costs are rationals.  The nested
    dictionaries are flattened: what is at [s][a] in the code is at key [(s, a)] here, in the same order
    for each [s].  Every scenario has a weight. *)
From Coq Require Import List Bool QArith.
From Verif Require Import Py PyList.
Import ListNotations.
Open Scope nat_scope.
Set Implicit Arguments.

Section Hind.
Context {S A K : Type} {ES : PyEq S} {EA : PyEq A} {EK : PyEq K}.
Variable keys : list K.                    (* dict_planner.keys() *)
Variable cost : K -> S -> Q.               (* the cost returned by solve *)
Variable act : K -> S -> A.                (* get_next_action *)
Variable next : K -> S -> A -> S.          (* _domain.get_next_state *)
Variable trans : K -> S -> A -> S -> Q.    (* _domain.get_transition_value(...).cost *)
Variable w : K -> Q.                       (* weight_scenario *)
Variable reuse : bool.                     (* reuse_plans *)
Variable arrange : list A -> list A.       (* the order in which a set is walked *)

Record state := St {
  h_q : list ((S * A) * Q);                (* q_values *)
  h_qs : list ((S * A * K) * Q);           (* q_values_scenar *)
  h_planned : list ((S * K) * unit);       (* planned *)
  h_acts : list ((S * K) * A)              (* action_by_scenario *)
}.

(** hindsight.py:35-39 *)
Definition empty : state := St [] [] [] [].

(** [q_values[s][a] += x], from 0 when missing: hindsight.py:73-77 and 109-114. *)
Definition add_q (q : list ((S * A) * Q)) (s : S) (a : A) (x : Q) : list ((S * A) * Q) :=
  match dget q (s, a) with
  | Some v => dset q (s, a) (v + x)%Q
  | None => dset q (s, a) (0 + x)%Q
  end.

(** One result of the first pass: hindsight.py:67-78. *)
Definition first_turn (s : S) (st : state) (k : K) : state :=
  let c := cost k s in
  let a := act k s in
  St (add_q (h_q st) s a (c * w k)%Q)
     (dset (h_qs st) (s, a, k) c)
     (dset (h_planned st) (s, k) tt)
     (dset (h_acts st) (s, k) a).

(** hindsight.py:54-78 *)
Definition missing (st : state) (s : S) : list K :=
  if reuse then filter (fun k => negb (dmem (h_planned st) (s, k))) keys else keys.
Definition first_pass (st : state) (s : S) : state := fold_left (first_turn s) (missing st s) st.

(** hindsight.py:95-118 *)
Definition look (s : S) (st : state) (ka : K * A) : res state :=
  let (k, a) := ka in
  let t := next k s a in
  let c := trans k s a t in
  let cf := cost k t in
  let a' := act k t in
  let q1 := if reuse then add_q (h_q st) t a' (cf * w k)%Q else h_q st in
  let* v := dgetE q1 (s, a) in
  Ok (St (dset q1 (s, a) (v + (c + cf) * w k)%Q)
         (dset (dset (h_qs st) (s, a, k) (c + cf)%Q) (t, a', k) cf)
         (if reuse then dset (h_planned st) (t, k) tt else h_planned st)
         (if reuse then dset (h_acts st) (t, k) a' else h_acts st)).

(** The actions proposed for a state: hindsight.py:81-82. *)
Definition proposals (st : state) (s : S) : list A :=
  arrange (map snd (filter (fun e => pyeqb (fst (fst e)) s) (h_acts st))).

(** hindsight.py:83-87 *)
Definition to_do (st : state) (s : S) : list (K * A) :=
  flat_map (fun a => map (fun k => (k, a)) (filter (fun k => negb (dmem (h_qs st) (s, a, k))) keys)) (proposals st s).

(** hindsight.py:80-93 *)
Definition second_pass (st : state) (s : S) : res state := foldM (look s) st (to_do st s).

(** [min(..., key=...)]: the first of the least ones. *)
Fixpoint least (l : list (A * Q)) : option (A * Q) :=
  match l with
  | [] => None
  | (a, v) :: r => match least r with
                   | Some (b, u) => if Qle_bool v u then Some (a, v) else Some (b, u)
                   | None => Some (a, v)
                   end
  end.
Definition values_at (st : state) (s : S) : list (A * Q) :=
  map (fun e => (snd (fst e), snd e)) (filter (fun e => pyeqb (fst (fst e)) s) (h_q st)).

(** hindsight.py:47-52; [min] of nothing is a ValueError. *)
Definition give_first_action (st : state) (s : S) : res (state * A) :=
  let* st1 := second_pass (first_pass st s) s in
  match least (values_at st1 s) with
  | Some (a, _) => Ok (st1, a)
  | None => Err ValueError
  end.

(** One call after the other. *)
Definition calls (st : state) (l : list S) : res (state * list A) :=
  foldM (fun (r : state * list A) s => let* x := give_first_action (fst r) s in Ok (fst x, snd r ++ [snd x])) (st, []) l.
End Hind.
