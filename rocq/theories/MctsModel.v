(** Monte Carlo tree search.
    cpp/src/hub/solver/mcts.hh with its default parts: DistributionTransitionMode, DefaultTreePolicy, FullExpand,
    UCB1ActionSelector (optimisation), BestQValueActionSelector (execution), DefaultRolloutPolicy,
    GraphBackup; sequential execution; and hub/solver/mcts/mcts.py.
    Numbers are rationals instead of doubles.  The square root term of UCB1 is the parameter [bonus].
    Everything random and the clock are oracles that get the number of draws made so far, so that
    theorems hold for every run; the order in which hash sets are iterated is the oracle [shuf].
    A pointer to a node is the state of the node; following a pointer to a node that is not in the
    graph is [Err KeyError] (undefined behaviour in C++). Step and sample transition modes, partial expansion,
    parallel execution and logging are left out. *)
From Coq Require Import List Bool Arith QArith.
From Verif Require Import Py PyList.
Import ListNotations.
Local Open Scope nat_scope.

(** In-place change of the value of a key of a container. *)
Definition upd {K V : Type} {EK : PyEq K} (d : list (K * V)) (k : K) (f : V -> V) : list (K * V) :=
  map (fun p => if pyeqb k (fst p) then (fst p, f (snd p)) else p) d.

(** Running average (mcts.hh 799, 852-856). *)
Definition average (n : nat) (v x : Q) : Q := ((inject_Z (Z.of_nat n) * v + x) / inject_Z (Z.of_nat (S n)))%Q.

Section Mcts.
Context {St Act : Type} {ES : PyEq St} {EA : PyEq Act}.

(** mcts.hh 927-951 ActionNode: [outcomes], [dist_to_outcome] (the order of the list) and [dist] (the weights).
    An outcome has a reward, a count and a weight. *)
Record anode := AN { a_out : list (St * (Q * nat * Q)); a_val : Q; a_n : nat }.
(** mcts.hh 953-978 StateNode; the state is the key. *)
Record snode := SN { s_term : bool; s_exp : bool; s_acts : list (Act * anode); s_val : Q; s_n : nat; s_par : list (St * Act) }.
(** mcts.hh 1171-1196: graph, random generator (number of draws), [_current_state], [_action_prefix], [_nb_rollouts]. *)
Record solver := MC { graph : list (St * snode); tick : nat; current : option St; prefix : list Act; nb_rollouts : nat }.

Definition new_node : snode := SN false false [] 0%Q 0 [].
Definition new_act : anode := AN [] 0%Q 0.

Definition set_par (n : snode) (p : list (St * Act)) : snode := SN (s_term n) (s_exp n) (s_acts n) (s_val n) (s_n n) p.
Definition set_acts (n : snode) (l : list (Act * anode)) : snode := SN (s_term n) (s_exp n) l (s_val n) (s_n n) (s_par n).
Definition set_exp (n : snode) : snode := SN (s_term n) true (s_acts n) (s_val n) (s_n n) (s_par n).
Definition visit (n : snode) (x : Q) : snode := SN (s_term n) (s_exp n) (s_acts n) (average (s_n n) (s_val n) x) (S (s_n n)) (s_par n).
Definition visit_act (n : anode) (x : Q) : anode := AN (a_out n) (average (a_n n) (a_val n) x) (S (a_n n)).

(** The domain. *)
Variable applicable : St -> list Act.             (* get_applicable_actions(s).get_elements() *)
Variable next : St -> Act -> list (St * Q).        (* get_next_state_distribution(s, a).get_values() *)
Variable reward : St -> Act -> St -> Q.            (* get_transition_reward *)
Variable terminal : St -> bool.                   (* is_terminal *)
(** The options. *)
Variable heuristic : St -> Q * nat.
Variable bonus : nat -> nat -> Q.
Variable discount : Q.
Variable max_depth : nat.
(** Chance. *)
Variable draw : nat -> list Q -> nat.             (* discrete_distribution(weights)(gen) *)
Variable policy : nat -> St -> res Act.           (* rollout policy *)
Variable sample : nat -> St -> Act -> St * Q * bool.  (* domain.sample: state, reward, termination *)
Variable shuf : forall X : Type, nat -> list X -> list X.

(** mcts.hh 351-368: one more outcome of an action. *)
Definition add_outcome (s' : St) (r p : Q) (an : anode) : anode :=
  match dget (a_out an) s' with
  | None => AN (a_out an ++ [(s', (r, 1, p))]) (a_val an) (a_n an)
  | Some _ =>
      AN (upd (a_out an) s' (fun o => let '(r0, c, w) := o in (((w * r0 + r * p) / (w + p))%Q, S c, (w + p)%Q))) (a_val an) (a_n an)
  end.

(** mcts.hh 337-387: one next state of an action; second and third part of the accumulator are [untried_outcomes] and [weights]. *)
Definition expand_turn (s : St) (a : Act) (acc : list (St * snode) * list St * list Q) (ns : St * Q) : list (St * snode) * list St * list Q :=
  let '(g, un, ws) := acc in
  let '(s', p) := ns in
  let fresh := negb (dmem g s') in
  let g1 := if fresh then g ++ [(s', new_node)] else g in
  let g2 := upd g1 s (fun n => set_acts n (upd (s_acts n) a (add_outcome s' (reward s a s') p))) in
  let g3 := upd g2 s' (fun n => let n := set_par n (pyadd (s_par n) (s, a)) in
                                if fresh then SN (terminal s') (s_exp n) (s_acts n) (fst (heuristic s')) (snd (heuristic s')) (s_par n) else n) in
  match dget g3 s' with
  | Some n => match s_acts n with [] => (g3, un ++ [s'], ws ++ [p]) | _ => (g3, un, ws) end
  | None => (g3, un, ws)
  end.

(** The index drawn among weighted elements. *)
Definition pick {X : Type} (t : nat) (ws : list Q) (l : list X) : res X := lget l (draw t ws).

Definition weights (an : anode) : list Q := map (fun o => snd (snd o)) (a_out an).

Definition act_of (g : list (St * snode)) (s : St) (a : Act) : res anode := let* n := dgetE g s in dgetE (s_acts n) a.

(** mcts.hh 325-429 expand_action *)
Definition expand_action (g : list (St * snode)) (t : nat) (s : St) (a : Act) : res (list (St * snode) * St) :=
  let '(g', un, ws) := fold_left (expand_turn s a) (next s a) (g, [], []) in
  let* s' := match un with
             | [] => let* an := act_of g' s a in pick t (weights an) (map fst (a_out an))
             | _ => pick t ws un
             end in
  Ok (g', s').

(** discrete_distribution::probabilities() *)
Definition probs (an : anode) : list Q :=
  let total := fold_left Qplus (weights an) 0%Q in map (fun w => (w / total)%Q) (weights an).

(** mcts.hh 258-284: the untried outcomes with their weights. *)
Definition untried_of (g : list (St * snode)) (p : Act * anode) : res (list (Act * option St * Q)) :=
  match a_out (snd p) with
  | [] => Ok [(fst p, None, 1%Q)]
  | out => let* l := mapM (fun o => let* n := dgetE g (fst (fst o)) in
                                    Ok (if s_n n =? 0 then [(fst p, Some (fst (fst o)), snd o)] else []))
                          (combine out (probs (snd p))) in
           Ok (concat l)
  end.

(** mcts.hh 237-253: the action nodes of a state, made at the first visit. *)
Definition gen_acts (s : St) (n : snode) : snode :=
  match s_acts n with
  | [] => set_acts n (map (fun a => (a, new_act)) (pyset (applicable s)))
  | _ => n
  end.

(** mcts.hh 205-322 FullExpand; [None] is nullptr. *)
Definition expander (g : list (St * snode)) (t : nat) (s : St) : res (list (St * snode) * nat * option St) :=
  let* n := dgetE g s in
  if s_exp n then Ok (g, t, None)
  else
    let g1 := upd g s (gen_acts s) in
    let* n := dgetE g1 s in
    let* us := mapM (untried_of g1) (shuf _ t (s_acts n)) in
    match concat us with
    | [] => Ok (upd g1 s set_exp, t, None)
    | l => let* u := pick t (map snd l) l in
           match snd (fst u) with
           | None => let* gs := expand_action g1 (S t) s (fst (fst u)) in Ok (fst gs, S (S t), Some (snd gs))
           | Some s' => Ok (g1, S t, Some s')
           end
    end.

(** mcts.hh 687-713, 723-745: the visited action of largest score; the first one found among equals. *)
Definition select (score : anode -> Q) (l : list (Act * anode)) : option (Act * anode) :=
  fold_left (fun b p => if a_n (snd p) =? 0 then b
                        else match b with
                             | None => Some p
                             | Some q => if Qlt_le_dec (score (snd q)) (score (snd p)) then Some p else b
                             end) l None.
Definition ucb (n : snode) (an : anode) : Q := (a_val an + bonus (s_n n) (a_n an))%Q.

(** mcts.hh 138-195 DefaultTreePolicy: [k] is [max_depth - d]; the last component is what remains of it. *)
Fixpoint descend (k : nat) (g : list (St * snode)) (t : nat) (s : St) : res (list (St * snode) * nat * St * nat) :=
  match k with
  | 0 => Ok (g, t, s, 0)
  | S k =>
      let* n := dgetE g s in
      if s_term n then Ok (g, t, s, S k)
      else
        let* e := expander g t s in
        let '(g1, t1, o) := e in
        match o with
        | Some s' => Ok (g1, t1, s', k)
        | None =>
            let* n1 := dgetE g1 s in
            match select (ucb n1) (shuf _ t1 (s_acts n1)) with
            | None => Ok (g1, t1, s, k)
            | Some (_, an) => let* s' := pick t1 (weights an) (map fst (a_out an)) in descend k g1 (S t1) s'
            end
        end
  end.

(** mcts.hh 752-810 DefaultRolloutPolicy, the loop; [k] is what remains of the depth. *)
Fixpoint rollout (k t : nat) (s : St) (gamma acc : Q) : res (nat * Q) :=
  match k with
  | 0 => Ok (t, acc)
  | S k =>
      let* a := policy t s in
      let '(s', r, stop) := sample (S t) s a in
      let acc' := (acc + gamma * r)%Q in
      if stop : bool then Ok (S (S t), acc') else rollout k (S (S t)) s' (gamma * discount)%Q acc'
  end.

(** mcts.hh 851-858: one parent action [pa] of [f]. *)
Definition backup_parent (f : St) (acc : list (St * snode) * list St) (pa : St * Act) : res (list (St * snode) * list St) :=
  let '(g, fr) := acc in
  let* an := act_of g (fst pa) (snd pa) in
  let* o := dgetE (a_out an) f in
  let* n := dgetE g f in
  let an' := visit_act an (fst (fst o) + discount * s_val n)%Q in
  let g' := upd g (fst pa) (fun m => visit (set_acts m (upd (s_acts m) (snd pa) (fun _ => an'))) (a_val an')) in
  Ok (g', pyadd fr (fst pa)).

(** mcts.hh 847-864 update_frontier, sequential *)
Definition backup_state (t : nat) (acc : list (St * snode) * list St) (f : St) : res (list (St * snode) * list St) :=
  let* n := dgetE (fst acc) f in
  foldM (backup_parent f) acc (shuf _ t (s_par n)).

(** mcts.hh 817-843 GraphBackup; [k] levels remain. *)
Fixpoint backup (k t : nat) (g : list (St * snode)) (frontier : list St) : res (list (St * snode) * nat) :=
  match k, frontier with
  | 0, _ | _, [] => Ok (g, t)
  | S k, _ => let* gf := foldM (backup_state t) (g, []) (shuf _ t frontier) in backup k (S t) (fst gf) (snd gf)
  end.

(** mcts.hh 1039-1043: one rollout. *)
Definition one_rollout (g : list (St * snode)) (t : nat) (root : St) : res (list (St * snode) * nat) :=
  let* e := descend max_depth g t root in
  let '(g1, t1, s, k) := e in
  let* _ := dgetE g1 s in
  let* tr := rollout k t1 s 1%Q 0%Q in
  backup (S max_depth) (fst tr) (upd g1 s (fun n => visit n (snd tr))) [s].

Variable late : nat -> bool.   (* elapsed_time(start_time) >= _time_budget, by number of rollouts *)

(** mcts.hh 1037-1045: at most [k] more rollouts. *)
Fixpoint rollouts (k : nat) (x : solver) (root : St) : res solver :=
  match k with
  | 0 => Ok x
  | S k => if late (nb_rollouts x) then Ok x
           else let* gt := one_rollout (graph x) (tick x) root in
                rollouts k (MC (fst gt) (snd gt) (current x) (prefix x) (S (nb_rollouts x))) root
  end.

(** mcts.hh 1024-1058 solve *)
Definition solve (budget : nat) (x : solver) (s : St) : res solver :=
  let g := if dmem (graph x) s then graph x else graph x ++ [(s, new_node)] in
  rollouts budget (MC g (tick x) (current x) (prefix x) 0) s.

(** mcts.hh 1061-1068, 1070-1075: the action selected for execution. *)
Definition best (x : solver) (s : St) : option (Act * anode) :=
  match dget (graph x) s with
  | None => None
  | Some n => select a_val (shuf _ (tick x) (s_acts n))
  end.
Definition is_solution_defined_for (x : solver) (s : St) : bool := match best x s with Some _ => true | None => false end.
(** mcts.hh 1100-1112 *)
Definition get_best_value (x : solver) (s : St) : option Q := option_map (fun p => a_val (snd p)) (best x s).
(** mcts.hh 1121-1130 *)
Definition get_policy (x : solver) : list (St * (Act * Q)) :=
  flat_map (fun p => match best x (fst p) with Some (a, an) => [(fst p, (a, a_val an))] | None => [] end) (graph x).

(** mcts.hh 1198-1216 compute_reachable_subgraph: breadth first; [fuel] levels. *)
Definition successors (g : list (St * snode)) (s : St) : res (list St) :=
  let* n := dgetE g s in Ok (flat_map (fun p => map fst (a_out (snd p))) (s_acts n)).
Definition reach_state (g : list (St * snode)) (acc : list St * list St) (s : St) : res (list St * list St) :=
  let* l := successors g s in
  Ok (fold_left (fun a s' => if pymem s' (snd a) then a else (fst a ++ [s'], snd a ++ [s'])) l acc).
Fixpoint reach (fuel : nat) (g : list (St * snode)) (frontier seen : list St) : res (list St) :=
  match frontier, fuel with
  | [], _ => Ok seen
  | _, 0 => Err OutOfFuel
  | _, S fuel => let* a := foldM (reach_state g) ([], seen) frontier in reach fuel g (fst a) (snd a)
  end.
Definition subgraph (g : list (St * snode)) (s : St) : res (list St) := reach (S (length g)) g [s] [s].

(** mcts.hh 1218-1239 remove_subgraph, both passes at once: the parents of the nodes that stay lose the actions of the nodes that go. *)
Definition remove_subgraph (g : list (St * snode)) (root child : list St) : list (St * snode) :=
  let gone s := pymem s root && negb (pymem s child) in
  map (fun p => (fst p, set_par (snd p) (filter (fun q => negb (gone (fst q))) (s_par (snd p)))))
      (filter (fun p => negb (gone (fst p))) g).

(** mcts.hh 1070-1098 get_best_action; [Err ValueError] stands for std::runtime_error. *)
Definition get_best_action (garbage : bool) (x : solver) (s : St) : res (solver * Act) :=
  match best x s with
  | None => Err ValueError
  | Some (a, _) =>
      let* g := match garbage, current x with
                | true, Some c => let* r := subgraph (graph x) c in
                                  let* k := subgraph (graph x) s in
                                  Ok (remove_subgraph (graph x) r k)
                | _, _ => Ok (graph x)
                end in
      Ok (MC g (tick x) (Some s) (prefix x ++ [a]) (nb_rollouts x), a)
  end.

(** mcts.hh 1019-1021 clear *)
Definition clear (x : solver) : solver := MC [] (tick x) (current x) (prefix x) (nb_rollouts x).
Definition fresh_solver : solver := MC [] 0 None [] 0.

(** mcts.py 157-175 _get_next_action.  Lines 165-173 (a random action instead of [None]) are never reached: get_best_action raises. *)
Definition next_action (budget : nat) (continuous garbage : bool) (x : solver) (s : St) : res (solver * Act) :=
  let* x := if continuous || negb (is_solution_defined_for x s) then solve budget x s else Ok x in
  get_best_action garbage x s.
End Mcts.
