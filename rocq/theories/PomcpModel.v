(** Model of the partially observable Monte Carlo planner
    (/repo/skdecide/hub/solver/pomcp/pomcp.py).

    Randomness: every draw gets the number of draws made before it, so that a world fixes all of them
    and theorems quantify over worlds.  Simplifications: costs and averages are exact rationals; the
    exploration term [w * sqrt(log(N) / n)] (121) is a parameter [w_bonus N n]; the list of states
    stored in a node (145) is never read and left out; [random.choices] with weights that are all zero
    raises [ValueError] (as in Python 3.9 and later).  The log of simulated costs is a ghost: the code
    keeps only averages and counts. *)
From Coq Require Import List Bool Arith ZArith QArith.
Import ListNotations.
From Verif Require Import Py PyList.
Set Implicit Arguments.
Open Scope nat_scope.

#[export] Instance PyEq_option A (EA : PyEq A) : PyEq (option A).
Proof.
  refine {| pyeqb := fun x y => match x, y with
                                | Some a, Some b => pyeqb a b
                                | None, None => true
                                | _, _ => false
                                end |}.
  intros [a|] [b|]; try (constructor; congruence).
  destruct (pyeqb_spec a b); constructor; congruence.
Defined.

Fixpoint list_eqb {A} {EA : PyEq A} (l l' : list A) : bool :=
  match l, l' with
  | [], [] => true
  | x :: r, y :: t => pyeqb x y && list_eqb r t
  | _, _ => false
  end.
#[export] Instance PyEq_list A (EA : PyEq A) : PyEq (list A).
Proof.
  refine {| pyeqb := list_eqb |}.
  induction a as [|x a IH]; intros [|y b]; simpl; try (constructor; congruence).
  destruct (pyeqb_spec x y); simpl; [|constructor; congruence].
  destruct (IH b); constructor; congruence.
Defined.

Section Pomcp.
  Variables St Act Obs : Type.
  Context {EA : PyEq Act} {EO : PyEq Obs}.

  (** The domain and the random generator. *)
  Record world := World {
    w_next : nat -> St -> option Act -> res St;   (* get_next_state_distribution(Memory([s]), a).sample() *)
    w_obs : nat -> St -> option Act -> Obs;       (* get_observation_distribution(s, a).sample() *)
    w_cost : St -> Act -> St -> Q;                (* get_transition_value(Memory([s]), a, s').cost *)
    w_goal : Obs -> bool;                         (* is_goal *)
    w_applicable : St -> list Act;                (* get_applicable_actions(Memory([s])).get_elements() *)
    w_actions : list Act;                         (* get_action_space().get_elements() *)
    w_pick : nat -> St -> res Act;                (* get_applicable_actions(Memory([s])).sample() *)
    w_choice : nat -> nat -> nat;                 (* random.choice: a position in a list of that length *)
    w_weighted : nat -> list nat -> nat;          (* random.choices: one position, given the weights *)
    w_bonus : nat -> nat -> Q
  }.
  Variable w : world.
  Variable max_iterations max_depth : nat.

  (** pomcp.py 42: [_VLV]. *)
  Definition vlv : Q := inject_Z (2 * Z.of_nat max_depth).

  (** Histories, and the dictionary of nodes (26-36); a node holds its visit count and average cost. *)
  Definition key := (list (option Act) * list Obs)%type.
  Record node := Node { n_visits : nat; n_value : Q }.
  Definition tree := list (key * node).
  Record memory := Memory { m_tree : tree; m_draws : nat; m_log : list (key * Q) }.

  Definition with_tree (m : memory) (t : tree) : memory := Memory t (m_draws m) (m_log m).
  Definition drawn (k : nat) (m : memory) : memory := Memory (m_tree m) (m_draws m + k) (m_log m).

  (** Python's [min(a, b)]. *)
  Definition pymin (a b : Q) : Q := if Qle_bool a b then a else b.
  Definition qlt (a b : Q) : bool := negb (Qle_bool b a).

  (** pomcp.py 112-126: the score of one action, if it has a node. *)
  Definition score (parent : option node) (n : node) : Q :=
    match parent with
    | Some p => if n_visits n =? 0 then (- vlv)%Q else (n_value n - w_bonus w (n_visits p) (n_visits n))%Q
    | None => n_value n
    end.

  Definition better (t : tree) (parent : option node) (ha : list (option Act)) (ho : list Obs)
      (best : option Act * Q) (a : Act) : option Act * Q :=
    match dget t (ha ++ [Some a], ho) with
    | None => best
    | Some n => let s := score parent n in if qlt s (snd best) then (Some a, s) else best
    end.

  (** pomcp.py 102-127 [_get_best_action]; [explore] is [w > 0]. *)
  Definition best_action (explore : bool) (t : tree) (ha : list (option Act)) (ho : list Obs)
    : res (option Act) :=
    let* parent := (if explore then let* p := dgetE t (ha, ho) in Ok (Some p) else Ok None) in
    Ok (fst (fold_left (better t parent ha ho) (w_actions w) (None, vlv))).

  (** pomcp.py 169-182 [_rollout]; [left] is [max_depth + 1 - depth], so that it is zero exactly when
      [depth > max_depth]. *)
  Fixpoint rollout (left : nat) (s : St) (d : nat) : res (Q * nat) :=
    match left with
    | 0 => Ok (vlv, d)
    | S l =>
        let* a := w_pick w d s in
        let* s' := w_next w (d + 1) s (Some a) in
        let c := w_cost w s a s' in
        let o := w_obs w (d + 2) s (Some a) in          (* 176: the observation of [state], not [new_state] *)
        if w_goal w o then Ok (c, d + 3)
        else let* r := rollout l s' (d + 3) in
             Ok (pymin (c + fst r)%Q vlv, snd r)
    end.

  (** pomcp.py 140-142. *)
  Definition add_children (t : tree) (s : St) (ha : list (option Act)) (ho : list Obs) : tree :=
    fold_left (fun t a => dset t (ha ++ [Some a], ho) (Node 0 0)) (w_applicable w s) t.

  (** pomcp.py 160-166: back-propagation of one simulated cost. *)
  Definition back (m : memory) (ha : list (option Act)) (ho : list Obs) (a : Act) (c : Q) : res memory :=
    let* this := dgetE (m_tree m) (ha, ho) in
    let* succ := dgetE (m_tree m) (ha ++ [Some a], ho) in
    let n := inject_Z (Z.of_nat (n_visits succ)) in
    let v := ((n_value succ * n + c) / (n + 1))%Q in
    let t := dset (m_tree m) (ha, ho) (Node (n_visits this + 1) (n_value this)) in
    let t := dset t (ha ++ [Some a], ho) (Node (n_visits succ + 1) v) in
    Ok (Memory t (m_draws m) ((ha ++ [Some a], ho, c) :: m_log m)).

  (** pomcp.py 129-167 [_tree_search]. *)
  Fixpoint tree_search (left : nat) (s : St) (ha : list (option Act)) (ho : list Obs) (m : memory)
    : res (Q * memory) :=
    if negb (length ha =? length ho) then Err AssertionError
    else
      match left with
      | 0 => Ok (vlv, m)
      | S l =>
          if dmem (m_tree m) (ha, ho) then
            let* b := best_action (0 <? max_depth) (m_tree m) ha ho in
            match b with
            | None => Err AssertionError
            | Some a =>
                let d := m_draws m in
                let* s' := w_next w d s (Some a) in
                let c := w_cost w s a s' in
                let o := w_obs w (d + 1) s (Some a) in
                let* r := (if w_goal w o then Ok (c, drawn 2 m)
                           else let* r := tree_search l s' (ha ++ [Some a]) (ho ++ [o]) (drawn 2 m) in
                                Ok (pymin (c + fst r)%Q vlv, snd r)) in
                let* m' := back (snd r) ha ho a (fst r) in
                Ok (fst r, m')
            end
          else
            let t := add_children (m_tree m) s ha ho in
            let* r := rollout left s (m_draws m) in
            Ok (fst r, Memory (dset t (ha, ho) (Node 1 (fst r))) (snd r) (m_log m))
      end.

  (** ** The solver *)

  Record solver := Solver {
    s_belief : list St;
    s_acts : list (option Act);
    s_obs : list Obs;
    s_mem : memory
  }.

  (** pomcp.py 31-42 [_reset]. *)
  Definition reset (initial_belief : list St) (draws : nat) : solver :=
    Solver initial_belief [None] [] (Memory [] draws []).

  (** pomcp.py 189-202 [get_probability], times 100. *)
  Definition weight (s : St) (a : option Act) (o : Obs) (d : nat) : nat :=
    length (filter (fun i => pyeqb (w_obs w (d + i) s a) o) (seq 0 100)).

  (** pomcp.py 86-92 [_filter_belief_state]; returns also the number of draws. *)
  Definition filter_belief (belief : list St) (a : option Act) (o : Obs) (d : nat) : res (list St * nat) :=
    let n := length belief in
    let weights := map (fun p => weight (snd p) a o (d + 100 * fst p)) (combine (seq 0 n) belief) in
    if n =? 0 then Err IndexError
    else if list_sum weights =? 0 then Err ValueError
    else
      let d := d + 100 * n in
      let* b := mapM (fun i => lget belief (w_weighted w (d + i) weights)) (seq 0 n) in
      Ok (b, d + n).

  (** pomcp.py 94-100 [_update_belief_state]. *)
  Fixpoint update_belief (belief : list St) (a : option Act) (d : nat) : res (list St) :=
    match belief with
    | [] => Ok []
    | s :: r => let* s' := w_next w d s a in let* t := update_belief r a (d + 1) in Ok (s' :: t)
    end.

  (** pomcp.py 70-74: the loop over the iterations. *)
  Fixpoint search (iterations : nat) (belief : list St) (ha : list (option Act)) (ho : list Obs) (m : memory)
    : res memory :=
    match iterations with
    | 0 => Ok m
    | S k =>
        let* s := lget belief (w_choice w (m_draws m) (length belief)) in
        let* r := tree_search (max_depth + 1) s ha ho (drawn 1 m) in
        search k belief ha ho (snd r)
    end.

  (** pomcp.py 52-81 [_get_next_action]. *)
  Definition get_next_action (x : solver) (o : Obs) : res (option Act * solver) :=
    let last_act := last (s_acts x) None in
    let* f := filter_belief (s_belief x) last_act o (m_draws (s_mem x)) in
    let ho := s_obs x ++ [o] in
    let* b := update_belief (fst f) last_act (snd f) in
    let m := Memory (m_tree (s_mem x)) (snd f + length b) (m_log (s_mem x)) in
    let* m' := search max_iterations b (s_acts x) ho m in
    let* a := best_action false (m_tree m') (s_acts x) ho in
    Ok (a, Solver b (s_acts x ++ [a]) ho m').
End Pomcp.
