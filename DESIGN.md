# Formal model of scikit-decide (Python parts) in Rocq

## How to read this repository

* `properties.jsonl` – the claims, in English, in terms of the public API.
* `rocq/theories/<Topic>Model.v` – shallow model of the Python functions, branch by branch.
  Every definition cites the file and lines it models; simplifications are stated there.
  Exceptions are values (`PyErr` constructors of `Py.v`), loops are structural recursion,
  folds, or recursion on a fuel whose exhaustion is an explicit outcome.
* `rocq/theories/<Topic>Spec.v` (or the head of the `Props` file) – the small, independent
  specification vocabulary used in statements.
* `rocq/theories/<Topic>Proofs.v` – lemmas.
* `rocq/theories/<Topic>Props.v` – the theorems that count, each followed by an `Example`
  showing its hypotheses are met by a concrete non-trivial case, and `Print Assumptions`.
* Theorems ending in `_refuted` show that a natural claim is false of the code (a finding);
  theorems ending in `_partial` prove less than the English claim.
* `MANIFEST.json` – claim → theorems. `seeded/LOG.jsonl` – mutation experiments on the model.

## Trusted base

* Coq 8.16.1 kernel (and `coqchk`); no axioms of our own.  What `Print Assumptions` prints for
  each theorem is listed at the end of this file.
* The correspondence between the Python text and the Gallina model, which is by reading.
* Numbers: Python `int` is `Z`/`nat`; Python `float` is modelled by exact integers or rationals
  (or an abstract type with the laws stated), so rounding, NaN and infinities are out of scope
  unless a file says otherwise.
* Random choices, user callbacks, networkx and numpy calls are oracles (universally quantified
  arguments); only documented behaviour of these libraries is assumed and is stated as explicit
  hypotheses where used.

## Plan per property

| id | what is modelled | how it is proved |
|----|------------------|------------------|
| C01 | `TransitionValue.__post_init__` over an abstract type with negation | case analysis |
| C02 | outcome `__post_init__`s, observation = dict or non-dict | case analysis + map lemmas |
| C03 | `DiscreteDistribution` and `random.choices` (cumulative weights + bisect) | induction over the weights |
| C04 | `cast_dict` and `cast` over a universe of type hints and values | induction over hints |
| C05 | `BoundConstraint` | case analysis over the four symbols |
| C06 | `_reset`, `_step`, `_sample`, `set_memory` as an operation machine | invariant over operation sequences |
| C07 | same machine | simulation between runs with and without samples |
| C08 | same machine, `maxlen=None` | refutation (TypeError on first step) |
| C09 | the loop of `rollout`/`rollout_episode`, stateful domain and policy | induction over the steps |
| C10 | the default-method chain of `policy.py` | unfolding + C03 |
| C11 | `match_solvers` | induction |
| C12 | `_get_domain_requirements` over a finite class hierarchy | loop invariant |
| C13–C15 | `LazyAstar._solve_domain` with its heap, `enqueued`, `explored` | invariants of the search loop; measure for termination |
| C16 | `SimpleGridWorld` | arithmetic + induction over action sequences |
| C17 | `Maze` | invariant over action sequences |
| C18 | `MasterMind._state_sample`-scoring | counting lemmas |
| C19 | `RockPaperScissors` | induction over rounds |
| C20–C26 | the state-update functions of `scheduling_domains.py` | invariants over action sequences |
| C27–C30 | knapsack model, greedy, DP and mutations | induction, DP invariant |
| C31 | colouring model | induction over the renaming loop |
| C32 | permutation mutations | permutations of lists |
| C33–C34 | TSP model and mutations | list algebra |
| C35–C36 | `ParetoFront`, `TupleFitness`, `ResultStorage` | invariant over insertion sequences |
| C37 | `HillClimber.solve`, `RestartHandler` | loop invariant |
| C38–C40 | serial SGS, `satisfy`, pile solver | loop invariants |
| C41–C42 | facility and VRP models and greedy solvers | loop invariants |
| C43 | `Graph` | fold invariants |
| C44 | `ListSpace`, `EnumSpace` | list lemmas |
| C45 | `SimpleGreedy` | argmax lemma |
| C46 | `build_evaluate_function_aggregated` | fold lemma |
| C47–C48 | scheduling: availability and cost of the domain | invariants over action sequences |
| C49–C50 | serial SGS: active schedules; SGS from a partial schedule | loop invariants |
| C51 | `Executor` of the pile solver | the invariant of C40 |
| C52 | `AStarSolver` of the C++ hub (graph of nodes, `std::priority_queue` as the libstdc++ binary heap over a vector, closed set, backward construction of the plan) | invariant over the search loop; parent chains are well founded because a closed node keeps its parent |
| C53 | the same | heap order is kept as long as no queued score is lowered; holds for equal costs without heuristic and for trees; refuted otherwise |
| C54 | `LRTAstar` (trials, table of values, policy) | specification of one trial by induction on the depth; completeness: a dead end never cuts the start off, and each dead-end trial gives one more state an infinite value |
| C55 | the same | without cycles the table stays below the cost to the goals; refuted with cycles |
| C56 | `CPM.run_classic_cpm` (heap of dates, forward then backward pass, walk back along the tasks without slack); networkx answers are a record with their documented meaning | earliest and latest dates defined by recursion on the number of ancestors/descendants; invariant of the two passes; potential for the fuel |
| C57 | `CPM.run_sgs_on_order` | invariant: remaining availability = capacity − load of the tasks placed; existence by the bound "sum of the lengths of the tasks placed" |
| C58 | `CPM.run_sgs_time_loop` | same invariant plus "load only falls after now"; termination by now ≤ time spent + tasks placed |
| C59 | the C++ `AOStarSolver` (graph of state and action nodes, heap of tips, back-propagation, search for the tips); the order in which sets of pointers are visited is a parameter | invariant of the back-propagation: a node whose Bellman equation does not hold is in the frontier; then induction on a rank of the acyclic domain |
| C60 | the same, with `AOstar._get_next_action` | ranks bound the propagation, each turn expands a new state of a finite set; witnesses for the failures |
| C61 | `LRTDPSolver` (sequential): trials, updates, labelling, with the clock and the generator as parameters | solved states keep their values; a last-in-first-out invariant bounds the pops of the labelling; errors add up along ranks |
| C62 | the same, with `LRTDP._get_next_action` | a potential on stale states, weighted by rank, decreases with every failed check |
| C63 | the same | every update keeps values below a super-solution |
| C64 | `ILAOStarSolver` (sequential): depth-first search, best solution graph, value iteration, reachability, passage times, solved bits; iteration order of sets as a parameter | an invariant on the nodes, kept by every step |
| C65 | the same, with `ILAOstar._get_next_action` | the last sweep moves each value by at most epsilon; witnesses for the failures |
| C66 | `construct_dict_policy`, `expected_costs_for_policy`, `compute_expected_cost_for_policy` over a domain record; `set.pop` is a parameter. Spec: `met`, inductive expected cost `costs`. | Invariants of the two worklist loops; completeness by induction on `costs`; termination by counting unvalued states. |
| C67 | `my_custom_rollout`, `rollout_based_policy_estimation` with the samples as an oracle. Spec: `trip`, `to_go`, `consec`. | Events of the executions as ghost list; invariant of the nested loops; induction on the path. |
| C68 | `DFSExploration.build_graph_domain`, `GraphDomain` accessors. Spec: `xreach`, `expandable`, `within`. | Invariant of the stack loop with exact counts; measure = stack + unseen states. |
| C69 | `FullSpaceExploration.build_graph_domain`, `reachable_states`. Spec: `ureach`. | Closed form of the only turn of the loop; invariant of the worklist. |
| C70 | `DFS_Uncertain_Exploration`, the heap as a choice function. Spec: `ureach`, `look3`, `within_u`. | Invariant with one entry per state; measure = stack + unseen states. |
| C71 | `GraphDomain.merge` on a store of inner dicts. Spec: `look`, `valid`, `separate`, `injective`. | Induction on the keys with the store's frame. |
| C72, C73 | `SGSPolicy` methods, the launchable set and the applicability check. Spec: `released`, `would_start`, `in_window`. | Filters and first-match lemmas per method. |
| C74 | Same. | Two methods scan the same list. |
| C75 | Loop policy/next state with one drawn duration per task. Spec: `workable`, `covers`, `total_duration`. | Measure = remaining tasks + remaining work; the invariant of C20-C24. |
| C76 | `FOLLOW_GANTT`, ties in any order. Spec: `planned`, `planned_load`. | Invariant: every started task is at its date, every other date is not passed. |
| C77 | `PilePolicy`; random draws are indices. Spec: `starts_in_mode_one`. | Arg-max lemma; simulation by C75's diligent policies. |
| C78 | `MetaPolicy` on SGS policies, roll-outs as executions. | Roll-out = execution; the chosen policy's remaining makespan never grows. |
| C79 | Policy from an RCPSP solution. | Insertion sort is a sorted permutation; C76. |
| C80 | The seven duration classes with the memory of samples. Spec: `key_of`, the uniform law, bounds. | Induction on the calls; arithmetic of ranges and folds. |
| C81 | Membership questions on spaces that may raise. | Induction on the agents. |
| C82 | `functools.lru_cache` as an ordered list. Spec: number of distinct domains in between. | Invariant: what is more recent than the entry was asked since. |
| C83 | Window and lag constructors. Spec: `respects`. | Arithmetic. |
| C84 | The genome, its graph, marking and running (CGP). Spec: the synchronous network `signal`, the circuit value `value`, `needed`. | Decoding by induction on the nodes; invariant of the marks; invariant of the runs; induction on the layers. |
| C85 | `random`, `mutate`, `mutate_per_gene`, `save`, `load`, with draws as oracles. Spec: the range of each gene. | Induction on the genes; arithmetic of positions. |
| C86 | `CGPES.run`, with evaluator and draws as oracles. Spec: first best offspring, best evaluation so far. | Induction on the iterations. |
| C87 | The function library over the real numbers (roundings left out). | Analysis (exp, sqrt, atan, …); induction on the history. |
| C88 | Normalisation and its inverse, checks, fitness of an evaluation, over rationals. Spec: membership of the action space. | Linear arithmetic; induction on the spaces. |
| C89 | Enumeration of index combinations and novelty of a feature vector in the C++ Iterated Width solver. Spec: increasing index lists, agreement of vectors at given places. | Induction on the enumeration; invariant of the tables over the evaluated vectors. |
| C90 | The search at one width (queue in binary-heap order, graph keyed by the hash, parents), the widths in turn, the recorded plan and the queries. Spec: execution of action lists. | Invariants: parents form a tree to the root, generated states are queued, closed or pruned; fuel bounded by the transitions of the reachable states. |
| C91 | The same model, with any clock and budget. | Solved and pruned flags only ever become true. |
| C92 | The novelty of the C++ Best First Width Search, with its map from heuristic values to index-value pairs. Spec: places whose value is new. | Induction on the feature vector; invariant of the map over the evaluated states. |
| C93 | The search (heap order on changing ranks, graph keyed by the hash, parents), the recorded plan and the queries. Spec: execution of action lists. | Invariants: parents are closed and closed nodes do not change; every known node is queued or closed; fuel bounded by the transitions of the reachable states. |
| C94 | The check of a multi-skill schedule (skills, calendars, one place per worker, resources, non-renewables, precedences). Spec: the same in terms of tasks, teams and times. | Each loop equals a bounded quantifier; the sets of overlapping pairs by intervals. |
| C95 | The multi-skill generation scheme (earliest start, search for a team, reservation of workers and resources, marker when stopped). | Invariant of the loop relating the remaining availabilities to the placed tasks; search lemma; totality from complete data. |
| C96 | Priorities read from a schedule, ranks from a permutation, copies of a problem. | Stable sort and ranking lemmas. |
| C97 | LNS_CP.solve_lns with solver, handler, post-processing, `satisfy` and clock as parameters, on the result store model. | Loop invariant relating store, best and counter to the history of rounds. |
| C98 | The counter of rounds without improvement and the three ways to stop. | Same invariant; characterisation by records of the history, with uniqueness. |
| C99 | LNS_MILP.solve_lns, where nothing is caught and constraints come from the previous round. | Loop invariant with the set of counted ties; totality by induction. |
| C100 | The MCTS graph: nodes, expansion with merged outcomes, parents, flags; chance, clock and hash order as oracles. | Invariant of every step of expansion, descent and back-propagation, over arbitrary calls of solve. |
| C101 | The loop of solve, with the clock as an oracle. | Totality of each part from the invariant. |
| C102 | Selection for execution, value, policy. | Every expanded action is visited by the end of the rollout that expands it; fold lemma for selection. |
| C103 | Simulation and running averages on rationals. | The invariant is parametrised by a set of values closed under step and average. |
| C104 | next_action of mcts.py, reachable sub-graphs and their removal. | Breadth first search computes graph reachability; removal preserves the invariant; induction over the episode. |
| C105 | BEE2 interval trees of gym.py, the table initialisation and the traversal of nested spaces, as state-and-exception computations; a specification by history (bands, first band containing a value) | tree invariant indexed by the remaining fidelity, induction on the fidelity and on the sequence of calls |
| C106 | BEE1 increment trees, on exact numbers; specification by records of the distance to the initial value | same, plus monotonicity of the rank among records |
| C107 | binary encoding of floats (bit patterns), integers, vectors and tuples | decoding of digit lists, induction on spaces |
| C108 | enumeration of nested discrete action spaces, discretisation of boxes, branching factor | induction on spaces; products of duplicate-free lists |
| C109 | `DeterministicGymDomain` over a heap of mutable environments (deepcopy, in-place step, set/get_state) | invariant linking each issued state to the heap, induction on the sequence of expansions |
| C110 | `GymPlanningDomain`: depth, accumulated reward, goals, restarts | same invariant extended with the context |
| C111 | `DeterministicInitializedGymDomain`: reset, step, set_memory | invariant separating the current environment from the saved one |
| C112 | `GymDomainStateProxy` equality and hash, `_are_same` | injectivity of flattening by induction on spaces |
| C113 | `AsGymEnv`, `GymDomain` | induction on the sequence of calls |
| C114 | POMCP `_get_next_action`, `_tree_search`, `_rollout`, random draws as oracles | tree invariant, induction on depth and iterations |
| C115 | POMCP nodes and `_get_best_action`, with a ghost log of simulated costs | invariant of backups; counting argument for untried actions |
| C116 | POMCP `_filter_belief_state`, `_update_belief_state` | induction on the episode |
| C117 | C++ `PythonHash`, `PythonEqual` and the hash of numpy arrays | nested induction on Python values |
| C118 | `build_do_domain` after `build_sk_domain`, hub RCPSP domains, graph successors | loops as maps over dictionaries; check equivalence through C39 |
| C119 | `build_do_domain` on scheduling domains | reduction of the feasibility check (C39) to the domain's own terms |
| C120 | `from_last_state_to_solution`, `RCPSPSolution.__init__` | sorting, permutations; C119 |
| C121 | `build_stochastic_from_deterministic`, `build_n_determinist_from_stochastic` | exact rational sums; maps over dictionaries |
| C122 | integer programs of `LPKnapsackGurobi`, `LPKnapsackCBC`, `LPKnapsack`; `KnapsackORTools`; the engine is an oracle | correspondence of admissible assignments and choices |
| C123 | integer programs of `LP_Facility_Solver*`, pruning, fixing of customers; the engine is an oracle | correspondence of admissible assignments and plans; exchange of sums |
| C124 | integer program of `ColoringLP*`, with its clique cuts and the palette of the start solution; the engine is an oracle | correspondence of admissible assignments and proper colourings; renumbering of colours |
| C125 | integer program of `LP_MRCPSP`/`LP_MRCPSP_GUROBI` with partial solutions, choice of the start times, reading back; the engine is an oracle | correspondence of admissible assignments with modes and starts, then with feasible schedules |
| C126 | integer program of `LP_RCPSP`, reading back; the engine is an oracle | reduction to the statement on starts of C125 |
| C127 | `build_graph_complete`, `build_graph_pruned`, the program of `LP_TSP_Iterative`, its cuts; engine and set order are oracles | tours encoded as assignments; covers of nodes by cycles; cuts crossed by every tour |
| C128 | `solve`, `build_the_cycles`, `rebuild_tsp_routine`; engine, set order and connected components are oracles | invariant of the loop; each pass excludes one more subset of edges, so 2^edges passes suffice |
| C129 | `RobustProblem.evaluate`, `aggregate_vector`, `satisfy` over abstract scenarios; numbers are rationals | sorting is monotone and insensitive to permutations; interpolation between neighbours |
| C130 | `RCPSPSolution` (cached schedule, flags, shared modes), `RCPSPModel.evaluate`, `Aggreg_RCPSPModel.evaluate`; the resource reserve is an oracle | invariant over the loop on scenarios, on top of the serial scheme of C38 |
| C131 | `get_unique_rcpsp_model` | entries bounded by the scenarios; feasibility is antitone in lengths and needs |
| C132 | `create_poisson_laws*`, `UncertainRCPSPModel.create_rcpsp_model`; probability mass is an oracle | draws stay in the range of their law; same antitone lemma |
| C133 | `TTPModel.evaluate`, `evaluate_details`, `satisfy`, `get_attribute_register`, the two compiled evaluation functions; `math.sqrt` is an oracle | invariant over the legs: load, profit, length and duration of the prefix; speeds between the two limits under a load within capacity |
| C134 | `ParallelDomain` (`wake_up_domain`, active flags), `PipeParallelDomain` (`launch`, `get_result`), `_launch_domain_server_` as a transition system of client threads and workers; opening and closing processes left out | invariant over executions relating pipes, cells and programme counters to the jobs launched and answered; liveness by running the worker to the end |
| C135 | `ShmParallelDomain` (register layout, `launch`, `get_result`), `_shm_launch_domain_server_`; the proxy's encode and decode are oracles; conditions and flags left out | invariant over the registers written: disjoint registers of types and domains, counters; frame lemmas for the other domains |
| C136 | `HindsightPlanner` (`give_first_action`, `first_pass`, `second_pass`, `look_one_step_ahead`); planners and domains are oracles; sequential, order of sets arbitrary | per-state invariant of the tables (values = sums of what is recorded), kept by each table update; origin of planned states for sequences of calls |
| C137 | `MutationBitFlip`, `MutationIntegerSpecificArrity`, `BasicPortfolioMutation`, `LocalMoveDefault`, `PermutationMutationRCPSP`, `get_available_mutations`, on knapsack and scheduling solutions; random numbers are arguments, floats are rationals | positionwise effect by induction on the indexes; place of the number in the cumulated weights; objectives against the serial schedule of the new encoding |
| C138 | `ResultComparator` without plots: `reevaluate_result_storages`, `get_best_by_objective_by_result_storage`, `generate_super_pareto`; solutions are objects in a heap, `change_problem` of scheduling and knapsack solutions | loop invariants over scenarios, objectives and storages; first extreme entry; reduction to the Pareto front of C35 |
| C139 | `RIWSolver` (riw.hh, sequential, states hashed by the domain) behind `RIW`: width solver, rollouts, novelty, backup, solved marks, best action, graph update; clock, draws and set orders are oracles | pointer soundness as an invariant over all calls; on tree domains an invariant "solved nodes carry the optimum" through expansion and backup |
| C140 | `RCPSPSolution.compute_mean_resource_reserve` on the data of C38; rational means, numpy's nan and infinities as `ZeroDivisionError` | invariant: the table is the capacity less the demand of the tasks handled so far; sums over time and over tasks exchanged |
| C141 | `compute_schedule_per_resource_individual` on the data of C38: order of the tasks, time axis, table of the units, choice of the least loaded free unit; constant and calendar capacities | invariant per resource over the tasks in order of start (table = boxes, boxes of a unit disjoint, boxes over a time = running demand); pigeonhole for the free units |
| C142 | `compute_resource_consumption`, `compute_nice_resource_consumption`, `all_diff_start_time`, `compute_graph_rcpsp` (edges with least and greatest duration) on the data of C38 | fold invariant over the tasks (row = demand of the tasks seen so far), clipping of slices, exchange of sums for the area, induction over the paths |
| C143 | `RCPSP_H_Model`: `rcpsp_pre_helper_correction` and the cumulated gap of `evaluate`, on the data of C38 with the consumption of C142 | row = use of the other tasks after taking the helper out; backward search stops at the old start at the latest; moving one task later into free room keeps `timed` and `within`; fold over the helpers |
| C144 | `generate_rcpsp_with_helper_tasks_data`, on the data of C38; permutation, draws and ancestors are parameters | invariant over the assisted activities describing every successor list (`linked`); the later loops only add described edges (`extended`); pigeonhole on the ancestors of the sink; explicit rank for the absence of cycles |
| C145 | the readers of knapsack and coloring instances, on ASCII texts, character by character | splitting at the first separator; the standard library's round trip of decimal writing; induction over the lines |
| C146 | `parse_psplib`: locating the lines of each section, then on the words of these lines | the state after the lines of a task is the dictionary with that task last; induction over lines, modes and tasks |
| C147 | `parse_facility`, `parse_vrp` on texts, `float` a parameter | a line with given words splits into these words (induction over the line); induction over the rows |

Not expressible here (out of scope): performance, floating-point rounding, the C++ solvers'
multi-threading, rendering, network/third-party solver back-ends (MiniZinc, MILP engines, RL libraries). Integer programs are modelled, the engines that
solve them are oracles constrained by admissibility or optimality.

<!-- generated below -->

## Code that is modelled

The header of each model file lists its simplifications; each definition cites its lines.

* `AoModel.v`: `cpp/src/hub/solver/aostar.hh`, `skdecide/hub/solver/aostar/aostar.py`
* `AstarModel.v`: `skdecide/hub/solver/lazy_astar/lazy_astar.py`
* `BfwsModel.v`: `cpp/src/hub/solver/bfws.hh`, `skdecide/hub/solver/bfws/bfws.py`
* `BindModel.v`: `skdecide/builders/discrete_optimization/rcpsp/rcpsp_model.py`, `skdecide/hub/domain/rcpsp/rcpsp_sk.py`, `skdecide/hub/solver/do_solver/sk_to_do_binding.py`
* `CastModel.v`: `skdecide/core.py`
* `CgpLibModel.v`: `skdecide/hub/solver/cgp/pycgp/cgpfunctions.py`
* `CgpModel.v`: `skdecide/hub/solver/cgp/cgp.py`, `skdecide/hub/solver/cgp/pycgp/cgp.py`
* `CompaModel.v`: `generic_tools/result_storage/resultcomparator.py`, `knapsack_model.py`, `rcpsp_model.py`, `result_storage.py`, `resultcomparator.py`
* `ConsModel.v`: `skdecide/builders/discrete_optimization/rcpsp/rcpsp_utils.py`
* `CoreModel.v`: `skdecide/core.py`
* `CpmModel.v`: `skdecide/builders/discrete_optimization/rcpsp/solver/cpm.py`
* `CppAstarModel.v`: `cpp/src/hub/solver/astar.hh`, `skdecide/hub/solver/astar/astar.py`
* `DistModel.v`: `skdecide/builders/solver/policy.py`, `skdecide/core.py`
* `DurModel.v`: `skdecide/builders/scheduling/task_duration.py`
* `EnvModel.v`: `skdecide/builders/domain/memory.py`
* `FacModel.v`: `skdecide/builders/discrete_optimization/facility/facility_model.py`
* `GamesModel.v`: `skdecide/hub/domain/mastermind/mastermind.py`, `skdecide/hub/domain/rock_paper_scissors/rock_paper_scissors.py`
* `GexModel.v`: `DFSExploration.py`, `DFS_Uncertain_Exploration.py`, `FullSpaceExploration.py`, `GraphDomain.py`
* `GmutModel.v`: `do_mutation.py`, `do_problem.py`, `generic_tools/mutations/mutation_bool.py`, `mixed_mutation.py`, `mutation_bool.py`, `mutation_catalog.py`, `mutation_integer.py`, `mutation_rcpsp.py`, `mutation_util.py`, `permutation_mutations.py`, `rcpsp/mutations/mutation_rcpsp.py`, `rcpsp_model.py`
* `GraphModel.v`: `builders/discrete_optimization/generic_tools/graph_api.py`, `builders/scheduling/graph_toolbox.py`, `coloring/coloring_model.py`, `coloring/coloring_toolbox.py`, `coloring/solvers/greedy_coloring.py`, `generic_tools/graph_api.py`, `solvers/greedy_coloring.py`
* `GreedyModel.v`: `skdecide/hub/solver/simple_greedy/simple_greedy.py`
* `GridModel.v`: `skdecide/hub/domain/maze/maze.py`, `skdecide/hub/domain/simple_grid_world/simple_grid_world.py`
* `GymActModel.v`: `skdecide/hub/domain/gym/gym.py`
* `GymDomModel.v`: `skdecide/hub/domain/gym/gym.py`
* `GymFeatModel.v`: `skdecide/hub/domain/gym/gym.py`
* `GymProxyModel.v`: `skdecide/builders/domain/dynamics.py`, `skdecide/hub/domain/gym/gym.py`, `skdecide/hub/space/gym/gym.py`
* `HelperModel.v`: `skdecide/builders/discrete_optimization/rcpsp/rcpsp_model.py`
* `HgenModel.v`: `skdecide/builders/discrete_optimization/rcpsp/rcpsp_data_generator.py`
* `HindModel.v`: `skdecide/hub/solver/_hindsight/hindsight.py`
* `IlaoModel.v`: `cpp/src/hub/solver/ilaostar.hh`, `skdecide/hub/solver/ilaostar/ilaostar.py`
* `IndivModel.v`: `skdecide/builders/discrete_optimization/rcpsp/rcpsp_utils.py`
* `IwModel.v`: `cpp/src/hub/solver/iw.hh`, `skdecide/hub/solver/iw/iw.py`
* `KnapModel.v`: `dyn_prog_knapsack.py`, `greedy_solvers.py`, `knapsack_model.py`, `mutation/mutation_knapsack.py`, `mutation_knapsack.py`, `solvers/dyn_prog_knapsack.py`, `solvers/greedy_solvers.py`
* `LnsModel.v`: `builders/discrete_optimization/generic_tools/lns_cp.py`, `lns_cp.py`, `lns_mip.py`, `result_storage.py`
* `LrtaModel.v`: `skdecide/hub/solver/lrtastar/lrtastar.py`
* `LrtdpModel.v`: `cpp/src/hub/solver/lrtdp.hh`, `skdecide/hub/solver/lrtdp/lrtdp.py`
* `LsModel.v`: `builders/discrete_optimization/generic_tools/ls/hill_climber.py`, `hill_climber.py`, `local_search.py`, `simulated_annealing.py`
* `MctsModel.v`: `cpp/src/hub/solver/mcts.hh`
* `MilpColModel.v`: `coloring/solvers/coloring_lp_solvers.py`, `coloring_lp_solvers.py`
* `MilpFacModel.v`: `facility/solvers/facility_lp_solver.py`, `facility_lp_solver.py`
* `MilpKnapModel.v`: `knapsack/solvers/lp_solvers.py`, `knapsack_model.py`, `lp_solvers.py`
* `MilpModel.v`: (auxiliary)
* `MilpRcpspModel.v`: `rcpsp/solver/rcpsp_lp_solver.py`, `rcpsp_lp_solver.py`, `rcpsp_model.py`
* `MilpTspModel.v`: `builders/discrete_optimization/tsp/solver/solver_lp_iterative.py`, `common_tools_tsp.py`, `tsp/common_tools_tsp.py`
* `MskModel.v`: `skdecide/builders/discrete_optimization/rcpsp_multiskill/rcpsp_multiskill.py`
* `NoiseModel.v`: `skdecide/builders/scheduling/scheduling_domains.py`, `skdecide/hub/domain/rcpsp/rcpsp_sk.py`
* `ObjModel.v`: `builders/discrete_optimization/generic_tools/do_problem.py`, `do_problem.py`
* `ParModel.v`: `skdecide/domains.py`
* `ParseModel.v`: `skdecide/builders/discrete_optimization/coloring/coloring_parser.py`, `skdecide/builders/discrete_optimization/knapsack/knapsack_parser.py`
* `PermModel.v`: `builders/discrete_optimization/generic_tools/mutations/permutation_mutations.py`
* `PevalModel.v`: `skdecide/hub/solver/policy_evaluators/policy_evaluator.py`
* `PileModel.v`: `skdecide/builders/discrete_optimization/rcpsp/solver/rcpsp_pile.py`
* `PolModel.v`: `skdecide/hub/solver/do_solver/do_solver_scheduling.py`, `skdecide/hub/solver/meta_policy/meta_policies.py`, `skdecide/hub/solver/pile_policy/pile_policy.py`, `skdecide/hub/solver/sgs_policies/sgs_policies.py`
* `PomcpModel.v`: `skdecide/hub/solver/pomcp/pomcp.py`
* `PsplibModel.v`: `skdecide/builders/discrete_optimization/rcpsp/rcpsp_parser.py`
* `PyKeyModel.v`: `cpp/src/utils/python_container_adapter.hh`, `cpp/src/utils/python_hash_eq.hh`
* `ReadModel.v`: `skdecide/builders/discrete_optimization/facility/facility_parser.py`, `skdecide/builders/discrete_optimization/vrp/vrp_parser.py`
* `ReqModel.v`: `skdecide/solvers.py`
* `ReserveModel.v`: `skdecide/builders/discrete_optimization/rcpsp/rcpsp_model.py`
* `RiwModel.v`: `cpp/src/hub/solver/riw.hh`, `skdecide/hub/solver/riw/riw.py`
* `RobustModel.v`: `skdecide/builders/discrete_optimization/generic_tools/do_problem.py`, `skdecide/builders/discrete_optimization/rcpsp/rcpsp_model.py`
* `RolloutModel.v`: `skdecide/utils.py`
* `SchedModel.v`: `skdecide/builders/scheduling/scheduling_domains.py`
* `SgsModel.v`: `skdecide/builders/discrete_optimization/rcpsp/rcpsp_model.py`
* `ShmModel.v`: `skdecide/domains.py`
* `SpaceModel.v`: `skdecide/core.py`, `skdecide/hub/space/gym/gym.py`
* `StoreModel.v`: `builders/discrete_optimization/generic_tools/result_storage/result_storage.py`, `multiobj_utils.py`, `result_storage.py`
* `TspModel.v`: `builders/discrete_optimization/tsp/tsp_model.py`, `mutation_tsp.py`, `tsp/mutation/mutation_tsp.py`
* `TtpModel.v`: `skdecide/builders/discrete_optimization/ttp/ttp_model.py`
* `VrpModel.v`: `skdecide/builders/discrete_optimization/vrp/vrp_model.py`

Everything else in the repository is not modelled. In particular: the Gym, PDDL and OpenAI bindings, the
solvers that call external libraries (MiniZinc, MILP engines, RL libraries, genetic algorithms of deap), the
C++ solvers other than A*, AO*, ILAO*, LRTDP, IW and BFWS, parallel domains, rendering and parsing of instance files.

## Findings

Natural claims that are false of the code, each proved with a witness.

* `C59_goal_start_refuted` – The restriction to calls that do not start from a goal state matters: such a call leaves a node that is neither solved nor given a value, and later answers can miss the best action.
* `C60_dead_end_refuted` – A cheap-looking dead end makes [solve] follow a null pointer, although a plan exists.
* `C60_cycles_refuted`
* `C60_detection_refuted` – With the detection of cycles, a domain without cycles can be refused.
* `C60_no_expansion_refuted` – With [max_tip_expansions = 0] the main loop does not end.
* `C13_goal_start_refuted` – The start state is already a goal: solving raises KeyError ([None] is looked up in [enqueued]), whatever the domain.
* `C13_second_solve_refuted` – Solving twice with the same solver object: the kept plan is the concatenation of both plans and is not executable.
* `C14_admissible_refuted` – A heuristic that never overestimates is not enough: closed states are not re-opened, so an admissible but inconsistent heuristic can yield a plan that is not optimal.
* `C92_novelty_one_refuted` – The novelty is not one for a state with new values, as the comment of the code (and the paper it cites) says: the more new values a state has, the later it comes.
* `C93_goal_start_refuted` – From a goal there is no plan: asking for an action is an error.
* `C93_optimal_refuted` – The plan is not the cheapest one, even when the heuristic is the exact remaining cost and no two states share a feature: the cost of reaching a state is not taken into account.
* `C93_second_solve_refuted` – Solving from a second state keeps the scores and parents of the first search: the walk back from a goal misses the second root and follows a null pointer.
* `C93_first_plan_lost_refuted` – Solving from a second state that reaches a node of the first plan more cheaply overwrites the action the first plan answers: it is still said to be defined, and starts with an action of the other state.
* `C93_feature_hash_refuted` – Nodes hashed by their features: two states with the same features share a node, and the recorded plan takes the transition of one and goes on from the other.
* `C118_multiplier_refuted` – The multiplier of the horizon is lost: the schedule generation gives up on instances it could solve.
* `C118_short_calendar_refuted` – A calendar shorter than the horizon cannot be translated back.
* `C118_calendar_dropped_refuted` – Without the calendars, schedules that use an absent resource are accepted.
* `C118_first_mode_refuted` – A single-mode problem whose mode is not numbered 1 is refused.
* `C118_single_refuted` – A single-mode problem comes back as a multi-mode one.
* `C119_varying_refuted` – A consumption that varies is read at time 0 only: a schedule that overloads a resource is accepted.
* `C119_sparse_refuted` – A mode that leaves out the resources it does not use makes the check fail.
* `C119_unsupported_refuted` – The multi-mode domains with uncertain durations are not translated at all.
* `C119_duration_name_refuted` – The need of a resource called "duration" is replaced by the duration.
* `C120_zero_based_refuted` – Tasks numbered from 0: the permutation of the three tasks has the index -2 and not the index 2.
* `C120_incomplete_refuted` – Before the source has started there is no solution: [remove] raises ValueError.
* `C120_unfinished_refuted` – In an unfinished schedule the task removed from the permutation is the last of those started, not the sink.
* `C04_memory_to_state_takes_oldest_refuted` – (1) Casting a history-level memory down to the Markovian level keeps the OLDEST state.
* `C04_memory_bound_lost_refuted` – (2) Casting the elements of a bounded memory loses its bound.
* `C04_down_then_up_refuted` – (3) Down then up does not give the object back: the agent's name is lost.
* `C04_nested_hint_refuted` – (4) A multi-parameter type nested beside another parameter, as in [A[B[x,y],z]], makes the parser fail, whatever the recursion budget.
* `C84_function_refuted` – The answer is not a function of the input: the same input twice in a row gives two answers, although the solver built on it says its policy is deterministic.
* `C84_stale_graph_refuted`
* `C84_recurrent_refuted` – With a backward arc (what the recurrency distance is for) a node may be needed without being evaluated: it counts as 0 for ever.
* `C85_rows_mutate_refuted` – With two rows a mutation of a valid genome can give a genome that cannot be run.
* `C85_rows_forward_refuted` – The one gene by gene can make a node its own argument.
* `C85_rows_fail_refuted` – With more rows than inputs it fails on the first node.
* `C85_recurrency_refuted` – A genome with backward arcs allowed loses the permission when it is copied or read back: the offspring of the evolution strategy never get new ones.
* `C88_single_value_refuted` – An observation space with a single value cannot be normalised.
* `C88_unbounded_refuted` – In a space without bounds, all observations beyond 1 look the same.
* `C88_tuple_action_refuted` – The solver counts one number per component of a tuple: an action with a box of two dimensions in it needs more outputs than the genome is given.
* `C88_tuple_observation_refuted` – And the genome is given fewer inputs than there are numbers in an observation: it ignores the last ones.
* `C88_check_refuted`
* `C88_fitness_order_refuted` – The weights go by the order of the episodes, not by rank: the sorted copy is dropped.
* `C138_knapsack_refuted` – "Knapsack solutions are re-evaluated in the scenarios": the values stored in the solution are kept by the change of problem.
* `C138_untouched_refuted` – "Re-evaluation leaves the results as they were": the best solutions now belong to the last scenario, and their problem evaluates them to something else than the fitness stored.
* `C138_modes_refuted` – "The values do not depend on the scenarios before": a scenario without the mode chosen replaces it, for the following scenarios too.
* `C138_twice_refuted` – "Every storage listed has its row": a storage listed twice has one row only.
* `C138_minimise_refuted` – "The common front is the front of all the results": for storages that minimise it is the front of the opposite sense.
* `C56_longest_refuted` – The critical path need not be a longest one: a precedence from the first task to the last suffices to hide the tasks in between.
* `C56_loose_task_refuted` – A task that is not before the last one, or not after the first one, makes the method fail.
* `C57_horizon_refuted` – A schedule that ends exactly at the horizon is not found: the last task would start at the horizon, which is never tried.
* `C57_stock_refuted` – Only the modes numbered 1 are used, and a resource that is not renewed is treated like the others: the total use can exceed what there is although other modes would do.
* `C58_length_refuted` – The schedule can be longer than the tasks one after the other.
* `C58_calendar_refuted` – With resources that vary over time a resource can be overused: only the first date of a task is looked at.
* `C58_window_refuted` – Only the first ten waiting tasks are looked at: with another order the loop may never end.
* `C53_optimal_refuted` – Finding: with positive costs and the default (zero) heuristic the plan may be far from cheapest: the score of a node is lowered while it lies in the priority queue, whose order is not restored.
* `C52_goal_start_refuted` – Finding: solving from a goal state leaves an infinite value and no action.
* `C52_unsolved_value_refuted` – Finding: the value of a state that was generated but is not on the plan is not its cost to a goal.
* `C52_second_solve_refuted` – Finding: a second solve on the same solver may miss a goal: the scores of the first search are kept, so a state it had reached more cheaply is never queued again.
* `C52_second_solve_action_refuted` – Finding: a second solve may replace the action of a state solved before by an action of another state: the action is kept as a pointer into the child node, which the second search overwrites.
* `C80_progress_refuted` – So a duration can be drawn that the distribution for that progress excludes;
* `C80_deterministic_bounds_refuted` – a deterministic duration after some progress need not lie within the bounds;
* `C80_latest_refuted` – and the latest sampled duration of an uncertain kind is a new draw.
* `C81_missing_agent_refuted` – With several agents, an observation that lacks an agent is a goal although that agent is not at one.
* `C81_enabled_refuted` – A domain without exogenous events does not answer whether an event is enabled.
* `C82_many_domains_refuted` – With 128 other domains in between the space is computed again.
* `C83_minimum_lag_refuted`
* `C08_history_step_refuted` – C08 is refuted: in every full-history domain the first step after a reset raises TypeError (the length limit [None] is compared with 1), although the dynamics itself succeeded.
* `C06_order_one_history_refuted` – C06 fails for a FiniteHistory domain of order one which is not declared Markovian: after the first step the memory is no longer a Memory but a bare state.
* `C06_set_memory_aliases_refuted` – C06 also fails as soon as the caller keeps using the Memory passed to set_memory: it is not copied, so stepping the domain changes the caller's object.
* `C41_satisfy_refuted` – The check only looks at the last facility opened: an overloaded solution is accepted.
* `C41_greedy_refuted` – The greedy solver can fail although a solution exists: facilities are never reused, and only the next one is tried.
* `C41_change_problem_refuted` – A solution that carries its details keeps them when the problem changes: the evaluation for the new problem is the old one.
* `C41_negative_refuted` – Negative indices, accepted by Python lists, make the last facility count twice.
* `C18_observation_space_refuted` – Finding: the declared observation space [MultiDiscrete([n, n])] misses observations that do occur: the winning one for every game, and "all colours right at wrong positions".
* `C68_goals_refuted` – So, of the domain, the graph loses the goals and the costs.
* `C68_default_refuted` – And the default limits never give a graph, even for a domain of five states.
* `C69_full_refuted` – So it is not the full space: a state two steps away is not in the graph.
* `C70_distribution_refuted`
* `C71_alias_refuted` – The merged graph shares dicts with the other graph: merging a third graph into it changes the other one.
* `C137_bitflip_value_refuted` – "The bit flip reports the objectives of the solution it returns": not for a knapsack solution already evaluated, whose stored value and weight are kept.
* `C137_random_flip_refuted` – "The integer mutation reports the objectives of the modes it returns": it evaluates the old schedule.
* `C137_mode_objective_refuted` – "The mutation of modes reports the objectives of the modes it returns": the value reported is that of the old schedule; the mark comes after.
* `C137_copy_refuted` – "A copy has the objectives of the original": the copy of a solution whose schedule is due for recomputation takes the old schedule for good.
* `C31_cached_colors_refuted` – Findings. The cache is used as soon as the number of colours is known: the violations can then be missing, or stale.
* `C31_cliques_refuted` – [compute_cliques] without a limit, or with a limit that is not reached, always fails.
* `C45_iterate_refuted` – When the value does not depend on the next state, the solver iterates over the space object itself: no space of the library allows it, so every call fails.
* `C45_dead_end_refuted` – In a dead end (no applicable action) it fails too.
* `C17_right_opening_refuted` – Finding: lines are stripped on the right, so an opening in the right wall (a trailing space) makes a row shorter than the first one, and moving into the missing part raises IndexError.
* `C108_box_vector_refuted` – So the discretisation of a bounded two-dimensional action space contains no element of that space whatever the factor: the actions handed to the planner are not even in the Box.
* `C108_other_spaces_refuted` – Boxes whose shape is not one-dimensional, MultiBinary spaces and dictionaries are not discretised: the first two raise TypeError, a dictionary gives None instead of a space - and AttributeError as soon as it is nested in a tuple or a branching factor is given.
* `C108_factor_one_refuted` – A discretisation factor of one gives NaN instead of a bound.
* `C109_incomplete_snapshot_refuted` – With a [get_state] that leaves out part of the environment (here the clock), expanding the same state twice with the same action gives two different results.
* `C109_array_snapshot_refuted` – Snapshots that are numpy arrays of several cells (as in examples/gym_line_control.py): the test whether the environment has to be set back raises ValueError, so nothing can be expanded.
* `C109_value_pair_refuted` – The transition value ignores the state and the action it is asked for: given any other successor it returns that successor's reward.
* `C110_accumulated_refuted` – The reward accumulated in a state lacks the reward of the transition leading to it.
* `C110_goal_of_equal_states_refuted` – Being a goal is not a property of the state a planner can rely on: two states that compare equal, reached with different numbers of actions, differ on it.
* `C111_set_memory_refuted` – In particular [set_memory] does not put the domain into the state it is given: the next step is one from the initial state, and the next reset returns the state given although the environment is in its initial state.
* `C105_repeat_refuted` – From fidelity two on, evaluating the very same state twice in a row gives two different feature vectors: the planner sees a new combination of features although nothing changed.
* `C105_nan_refuted` – One NaN in an observation, once a value has been seen, makes the encoder raise RuntimeError.
* `C105_discrete_refuted` – An observation space with a Discrete component is rejected by the initialisation although the encoder handles it: the first call raises RuntimeError; when the Boxes come first the second call on the same state succeeds, otherwise no call ever does.
* `C106_repeat_refuted` – From fidelity two on this fails twice over: the same state gets two different feature vectors, and the vectors are not ordered like the values - here 3 < 5 but [1; 0] precedes [1; 1].
* `C106_dict_refuted` – A dictionary observation is rejected by the initialisation, which iterates over the keys as if they were pairs; the encoder itself handles dictionaries.
* `C107_minus_zero_refuted` – Minus zero (bit pattern 0x80000000) gets one feature more than every other value.
* `C107_dict_refuted` – Observations with a dictionary have no binary features: the keys are iterated as if they were pairs.
* `C112_multi_discrete_refuted` – On MultiDiscrete observations that comparison raises RuntimeError, so the planning domain cannot expand any state.
* `C112_nan_refuted` – A state with a NaN is not equal to itself.
* `C112_structure_refuted` – The nesting is forgotten: states of different shapes compare equal; and dictionaries are compared in insertion order without their keys: equal dictionaries built in another order compare different.
* `C112_other_object_refuted` – Comparing a state with anything that is not a state raises instead of answering no.
* `C113_reset_refuted` – But [reset] forgets to encode: with a list space of observations, the first observation is the raw element, not the code that [step] would return for the same observation.
* `C143_latest_refuted` – The helpers do not end up as late as possible: a helper placed first may be blocked by one that leaves afterwards, so a feasible schedule with a smaller gap exists in which only a helper starts later.
* `C143_negative_refuted` – From a schedule over the capacities a helper may be moved to a start before time 0, without an exception.
* `C144_argument_refuted` – The problem given as argument is not left as it was: its resources gain the assistants, while its tasks know nothing of them.
* `C144_cycle_refuted` – When the numbers of the tasks do not follow the precedences, the drawn precedences between helpers can close a cycle: the problem generated from one without a cycle has no schedule.
* `C136_no_reuse_refuted` – Without reuse of plans, a second question about the same state is answered wrongly: the costs of the plans are counted twice, those of the steps ahead once.
* `C136_loop_refuted` – A scenario in which an action leaves the state as it is: its plan is counted twice.
* `C136_merge_refuted` – Two actions that lead a scenario to the same state: its plan from there is counted twice, and the answer for that state is wrong.
* `C64_goal_start_refuted` – A call from a goal state leaves a node that is not known to be a goal: from 1 the goal 0 is reached at cost 1, but after a call from 0 the solver reports 6, the goal 0 being left again for the goal 2.
* `C65_optimal_refuted`
* `C65_dead_end_refuted` – From a state without actions the search goes on for ever; from one all of whose actions lead there it dereferences a null pointer.
* `C141_short_refuted` – A schedule that asks for more than there is raises no exception: a task goes without some of its units.
* `C141_absent_refuted` – With a calendar, a task that runs while the capacity goes down may stay on a unit that is no longer there, although the schedule respects the capacities.
* `C141_axis_refuted` – The time axis starts with the task that ends first: when another one starts before it, a schedule within the capacities raises an exception.
* `C90_goal_start_refuted` – From a goal there is no plan: the solver reports no solution, and asking for an action is an error.
* `C90_second_solve_refuted` – Solving from a second state keeps the scores and parents of the first search: the walk back from a state solved before misses the second root and follows a null pointer.
* `C90_feature_hash_refuted` – Nodes hashed by their features: two states with the same features share a node, and the recorded plan takes the transition of one and goes on from the other.
* `C90_negative_cost_refuted` – A cycle of negative cost: the parents form a cycle, and the walk back from the goal never ends.
* `C91_anytime_refuted` – With time left after a first plan the search goes on, and a cheaper way to a node of the plan overwrites the action its predecessor was given: the plan then starts with an action that is not applicable.
* `C91_pruned_count_refuted` – A state counts as pruned although it was expanded, and even when it starts the plan: coming back to it is enough.
* `C91_no_features_refuted` – Without features no width is tried, and no plan is found.
* `C27_stale_cache_refuted` – Findings: the cached totals are not invalidated when the vector is changed; [satisfy] looks at them even when [force_recompute_values] is set; a solution with a value but no weight cannot be evaluated.
* `C27_force_satisfy_refuted`
* `C27_value_only_refuted` – A solution with a value but no weight can be neither evaluated nor checked.
* `C28_greedy_start_refuted` – Findings. With [greedy_start] one item that does not fit alone is enough for IndexError.
* `C28_solve_np_refuted` – [solve_np] returns selections that do not fit.
* `C28_labels_refuted` – When labels are not positions, the vector returned marks other items than those chosen: it may be overweight while the cached weight says otherwise.
* `C29_heavy_item_refuted` – Finding: one item too heavy for the knapsack makes the greedy solver raise IndexError.
* `C30_single_flip_fresh_refuted` – Finding: for a solution that was not evaluated before, the single-flip mutation reports the objectives of the old solution.
* `C97_found_returned_refuted` – With [skip_first_iteration], a solver that fails in the first round and finds solutions in all later ones makes the search return [None] instead of these solutions.
* `C97_heap_once_refuted` – With [skip_first_iteration] the solutions of the first round are added to the store that holds them already: their fitnesses are in the heap twice, so the count of stored solutions is wrong.
* `C99_empty_round_refuted` – A round in which the MILP solver finds nothing raises [ValueError]; the solutions of the rounds before are lost.
* `C99_no_improvement_refuted` – [nb_iteration_no_improvement] does not bound the rounds without improvement: a round with a worse best solution is not counted, so with a limit of 0 all rounds are run although none of them improves.
* `C99_skip_maximise_refuted` – With [skip_first_iteration] and a maximised objective, ties are never counted either: with a limit of 0 all rounds are run although every round finds the same fitness.
* `C99_neighbourhood_of_best_refuted` – The neighbourhood of a round is built around the store of the round before even if that is worse than the solutions kept.
* `C55_optimal_refuted` – With cycles the search may settle on a plan that is not the cheapest, even without heuristic and with positive costs: a state all of whose successors are on the current roll is given an infinite value.
* `C54_goal_start_refuted` – Starting in a goal raises KeyError.
* `C54_defined_refuted` – [is_policy_defined_for] is false even on the states for which the policy has an action.
* `C54_depth_refuted` – A plan cut by [max_depth] is stored although it does not reach a goal, and no better one is looked for once the values settle.
* `C54_second_solve_refuted` – Solving again for a domain without solution leaves the old policy in place: it answers with actions that are not applicable.
* `C61_depth_refuted` – If the depth does not leave room, a state can be taken as solved although states its answers lead to have not been looked at.
* `C61_no_labels_refuted` – Without labels the value of a goal is updated too: here the reported value grows with the number of rollouts.
* `C61_cycles_refuted` – On a cyclic domain the answers may go round in circles when that costs nothing.
* `C62_dead_end_refuted` – A dead end makes [solve] follow a null pointer, although a plan avoids it.
* `C62_no_labels_refuted` – So does a goal without actions when labels are off, or when an earlier call started from that goal.
* `C62_goal_start_refuted`
* `C37_minimise_refuted` – When minimising, the storage is created for maximisation: it returns the initial, worst solution.
* `C37_in_place_refuted` – With an in-place mutation, the hill climber stores the object it goes on modifying: the pair it returns has an objective that is neither that of its solution nor the best met.
* `C37_annealing_rejected_refuted` – Simulated annealing storing all solutions copies a rejected solution after it was undone in place: the stored solution is the previous one with the objective of the rejected one.
* `C37_handler_refuted` – A handler made with another solution restarts from it while claiming the initial objective.
* `C100_terminal_root_refuted` – The terminal flag is only set on states met as outcomes: a search that starts in a terminal state expands it.
* `C101_terminal_leaf_refuted` – A simulation that starts in a terminal leaf asks the rollout policy for an action there: when terminal states have no applicable action, and the policy therefore fails in them only, solve fails.
* `C102_visits_refuted` – Visits are not counted per simulation: back-propagation updates every recorded parent of a leaf, also the actions that were not taken. Here the root and its actions are visited more often than there were simulations.
* `C103_after_end_refuted` – The value of a state is not that of the executions of the domain: rewards collected after a terminal state count. Here every reward before termination is zero, and the value answered is positive.
* `C104_two_searches_refuted` – Garbage collection forgets only one previous state: when two searches share states, answering for a third state removes states that the graph still refers to, and the next search follows them.
* `C104_reset_refuted` – Resetting the solver between two episodes keeps the state last asked for, which is no longer in the graph, and the actions of the previous episode: the first answer of the next episode follows a dangling pointer.
* `C124_names_refuted` – Nodes that are not named by numbers from 0: the constraints look the nodes up by their position and the program cannot be built.
* `C123_pruned_refuted` – The pruning may leave a program without solutions although the problem has a plan: every customer has the same closest facility, which is also the cheapest, and it cannot serve them all.
* `C123_lns_refuted` – A round of the large neighbourhood search may have no solution although the current plan is a plan and the program has solutions: the current plan uses a pair that the pruning removed.
* `C123_pymip_lns_refuted` – The rounds made with python-mip fix nothing: the optimal solution found may move a customer that was to be kept.
* `C122_labels_refuted` – Labels that do not increase: the choice comes back in the order of the labels, so that the solution, read by position as [KnapsackModel] does, no longer fits.
* `C122_same_label_refuted` – Two items with the same label: the first has a variable that no constraint mentions, and the vector is too short, so that evaluating it with recomputation raises.
* `C125_horizon_refuted` – When the start schedule is not feasible the start times end one before the sum of the longest durations, although the sink may have to start at that sum: the program has no solution for an instance that has a feasible schedule.
* `C125_ignored_refuted` – The modes and the end times of a partial solution are not looked at.
* `C126_non_renewable_refuted` – The single-mode program takes non-renewable resources for renewable ones: an optimal solution can be read back as a schedule that the problem rejects, although it is returned as feasible.
* `C126_wishes_refuted` – A partial solution, even one that asks for nothing, makes the single-mode program builder raise.
* `C128_iteration_limit_refuted` – Stopping at the iteration limit returns the best repaired tour, which can be longer than another tour even with an exact engine: the repair does not count the edge it removes from the component.
* `C127_two_cities_refuted` – A closed tour through two cities is a tour, but the program has no solution: the constraints against cycles of two nodes exclude it.
* `C94_length_refuted` – Nothing checks that a task lasts as long as its mode: task 3 needs three units of time and gets one, and the schedule is accepted.
* `C94_one_unit_refuted` – A problem with [one_unit_per_task_max] asks for one worker per task; a schedule with a team of two is accepted all the same.
* `C94_after_sink_refuted` – Resources are only checked until the end of the sink: two tasks that follow nothing and precede nothing run together after it, use three units of a resource that has two, and the schedule is accepted.
* `C94_no_team_refuted` – A solution without a team for a task that needs one is not rejected: looking up the team raises [KeyError].
* `C95_modes_refuted` – A mode that a task does not have is replaced by mode 1 in the schedule, but the solution still names the missing mode, and checking it raises [KeyError].
* `C95_missing_worker_refuted` – A priority list that leaves a worker out gives a task without the team it needs, and a time for the sink.
* `C95_horizon_refuted` – A project that fills the horizon exactly is declared impossible: with horizon 5 a chain that ends at 4 is scheduled, with horizon 4 the same chain is not.
* `C95_reserved_refuted` – A worker is reserved for a task even when the worker adds none of the skills the task needs and is not recorded on it: with the useless worker 2 first in the priorities of task 2, task 3, that only worker 2 can do, waits.
* `C95_instant_refuted` – A task that needs a skill but takes no time is staffed with a worker who is busy elsewhere: the schedule gets a time for the sink and the checker rejects it.
* `C95_stock_refuted` – A task without length takes nothing from a non-renewable resource: the schedule gets a time for the sink and the checker rejects it.
* `C96_reproduce_refuted` – The order and the teams of a feasible schedule do not reproduce it: here the first task moves to the only worker of the second, and no schedule is found.
* `C96_names_refuted` – The ranks are used as the names of the workers: with workers 10 and 20 no worker is ever taken, and the schedule gets a time for the sink without teams.
* `C96_one_unit_refuted` – So the variant of a problem that allows one worker per task accepts teams of two.
* `C96_copy_refuted` – A copy of a problem whose sink is not the task with the largest number has another sink.
* `C121_renewability_refuted` – The resources that are not renewable become renewable, although the stochastic version is given which are: an instance accepts schedules that use more of such a resource than there is.
* `C121_horizon_refuted` – Doubling the horizon is not enough: a task that fits the original horizon can take longer than the new one.
* `C121_mean_refuted` – Durations below 11 are longer on average than the original.
* `C46_mobj_refuted` – Unlike multi-objective handling it drops the weights: minimised and maximised objectives are no longer told apart.
* `C134_exception_refuted` – A job that raises is answered with [None], like a job that returns [None]: the client is not told.
* `C134_notify_refuted` – With notifications, asking for the result of a job that raised never ends.
* `C134_unsent_refuted` – A job that cannot be sent leaves its domain marked active: with every thread idle, every pipe empty and nothing under way, the domain is never offered again.
* `C134_two_threads_refuted` – Two threads that ask for any free domain may be given the same one (looking at a flag and setting it are two steps), although another is free; one of them then gets [None] for a job that is worth 3.
* `C145_unchecked_refuted` – Nothing is checked by the reader: edges to nodes that do not exist are accepted.
* `C32_partial_input_refuted` – The partial shuffle modifies the solution it is given, and backtracking the move on the new solution does not repair the old one.
* `C32_swaps_undo_refuted` – Several swaps are undone in the order they were made: overlapping ones are not restored.
* `C32_swap_short_refuted` – No swap is possible on a vector of one element: the generator has no value to draw.
* `C32_reapply_refuted` – A move kept for later is not a record of what it did: the list of a shuffle move is the list of the solution, so mutating that solution further changes what re-applying the move gives.
* `C66_loop_refuted` – A policy that may have to try again reaches the goal with probability one, at the expected cost 2, but gets no value.
* `C66_goal_start_refuted` – An initial state that is a goal: when it is terminal it gets no value, otherwise a value that is not zero.
* `C66_zero_refuted` – An outcome listed with probability zero stops the computation.
* `C67_penalty_refuted` – The penalty for ending in a terminal state that is not a goal is in the total of the rollout but not in the estimated value.
* `C51_modes_refuted` – The solution returned by the executor carries the modes shifted by one task (rcpsp_pile.py:441): for the instance above they are not the modes of the schedule, and the schedule does not fit them.
* `C40_permutation_refuted` – When a task is not an ancestor of the sink, the permutation of the solution may miss that task and hold the sink instead: [perm[:-1]] (rcpsp_pile.py:163) drops the last scheduled task.
* `C40_stuck_refuted` – A task that needs more than the capacity makes the solver fail when it pops from the empty queue, instead of reporting that there is no solution.
* `C72_pile_method_refuted` – The value PILE of the enumeration of methods has no function.
* `C72_unlisted_refuted` – The action need not be among the applicable actions listed by the domain, which keep one mode per task (C25).
* `C74_undated_refuted` – A schedule that misses a task not yet released stops SGS_PRECEDENCE, not SGS_STRICT.
* `C76_late_task_refuted` – So with a task that takes one time unit longer than planned, the execution of a feasible plan never ends, although every other method would only be late.
* `C77_no_mode_one_refuted` – Mode 1 is the only one tried. A task without a mode 1 stops the policy ...
* `C78_agreement_refuted` – Without roll-outs the meta policy fails whenever it has two policies, even if they agree.
* `C114_large_cost_refuted` – A domain whose costs exceed twice the depth bound makes a decision fail an assertion.
* `C115_untried_refuted` – With no more iterations than actions the planner answers an action it never simulated, because such an action has average zero, although the action it did simulate is cheaper.
* `C115_none_refuted` – The planner may answer [None], when every simulation runs into the depth bound.
* `C115_goal_one_step_late_refuted` – The simulations observe the state before the action, so that an action that leads to the goal, with an observation that reveals it, is never seen to end the episode: its average exceeds its cost.
* `C116_next_state_observed_refuted` – In the environment it is the state after the action that is observed. On a domain whose observation is the state, the true state is the only particle, and still the second decision raises [ValueError].
* `C116_no_first_action_refuted` – The first decision asks the domain for the outcome of the action [None]; a domain that rejects it makes the decision raise.
* `C146_missing_refuted` – A line of a task with one number missing is not refused: it is read as another mode of the task before it, and its task has no mode.
* `C117_number_types_refuted` – An integer and the float of the same value: the answer depends on which one comes first.
* `C117_dictionary_order_refuted` – Equal dictionaries filled in a different order are hashed as different texts.
* `C117_list_numbers_refuted` – Equal lists that mix integers and floats are hashed as different texts.
* `C117_repr_only_refuted` – Instances of a class that only defines [__repr__] are equal when they print alike, but hashed by identity.
* `C117_tuple_of_list_refuted` – A tuple that contains a list has no hash, although it can be compared and the list alone can be hashed.
* `C117_boolean_array_refuted` – Boolean arrays have no hash.
* `C117_view_refuted` – A view with gaps is hashed by numbers that are not its elements, so that equal arrays get the hashes of different lists of numbers.
* `C140_spent_refuted` – What a task takes of a non-renewable resource is given back when the task ends: of a resource that is all spent in the end, two thirds are said to be in reserve.
* `C140_no_time_refuted` – A feasible schedule of tasks without duration has no number for its reserve.
* `C140_no_capacity_refuted` – Nor has a feasible schedule when a resource that no task needs has capacity zero.
* `C140_late_refuted` – When the sink does not come after all the tasks, the table is too short and a feasible schedule raises an exception.
* `C139_value_refuted` – The search ends before its budgets, reports no pruned state, and gives a value that is not the best one (5 instead of 10) and an action that does not start a best execution: a state already solved that is reached again by another path gets the value 0.
* `C139_dead_end_refuted` – A state without applicable action that is not terminal: nothing can be drawn.
* `C139_ends_refuted` – As long as the clock does not stop it, the search does not end: neither the bound on the depth nor the bound on the number of rollouts stops a rollout that goes round known states.
* `C139_prefix_refuted` – With environment rollouts, clearing the solver keeps the actions already given: the rollouts of the next search do not start where the search starts, and the value it gives is not that of any execution. Asking again for the action of the same state records it again.
* `C139_garbage_refuted` – Removing the nodes that are out of reach after an action, then searching again from an earlier state: the pointer of a node that is gone is followed.
* `C139_ask_refuted` – Asking for the best action changes the value of the state, each time.
* `C129_satisfy_refuted` – Asking whether a solution is acceptable asks the first scenario only: a solution may be accepted although it is not acceptable in another scenario.
* `C130_plain_refuted` – Through the base class for robust problems a solution that carries a schedule gets the makespan of that schedule from every scenario, whatever the scenarios are.
* `C130_new_modes_refuted` – Assigning modes, unlike assigning a permutation, leaves the old schedule in place: the makespan reported is not that of the modes the solution has.
* `C130_modes_refuted` – A scenario without one of the modes of the solution rewrites the modes of the caller's solution, so that the value also depends on the order of the scenarios.
* `C130_satisfy_refuted` – A solution made for the aggregated problem carries no schedule: asking whether it is acceptable fails.
* `C131_mean_refuted` – The mean is rounded down: a plan for the mean problem may fail in every scenario.
* `C131_capacities_refuted` – The capacities come from the first scenario: a plan for the worst case may need more than a scenario has.
* `C132_percentile_refuted` – A percentile is raised to 1 even for a need whose law is reduced to 0: the project of a percentile may need more than the worst case does, and have no room for plans that the worst case allows.
* `C132_milestone_refuted` – A task of length 0 gets at least 1 in every case: even the best case is longer than the nominal project; and with a range of 0 no case can be built.
* `C09_saving_runs_one_episode_refuted` – C09 finding: asking [rollout] to save its results silently runs a single episode.
* `C09_episode_needs_memory_refuted` – C09 finding: [rollout_episode] without a starting memory always fails.
* `C09_episode_partially_observable_refuted` – C09 finding: on a partially observable domain [rollout_episode] does not follow the domain: it resets the hidden state to the observation before every step. Here the domain stepped with the same actions from the same state terminates, the recorded episode never does.
* `C09_second_episode_start_refuted` – C09 finding: with a Memory as starting point the second episode of [rollout] does not start where the first one did, because the first one has modified the caller's Memory.
* `C39_duration_refuted` – A task may be given less time than its mode takes.
* `C39_negative_refuted` – Before time 0 nothing is checked.
* `C39_last_task_refuted` – Nor after the end of the task with the largest number, which need not be the last to end.
* `C39_empty_refuted` – When the last task ends at 0 the check may raise instead of answering, and may accept a schedule that misses a task.
* `C20_goal_before_conditional_refuted` – The state reached after task 0 (duration 1) is a goal state, and terminal, although condition 7 holds and task 1 has not been executed: it has no status at all.
* `C21_zero_duration_leak_refuted` – A task of zero duration that needs a renewable resource never gives it back.
* `C21_pause_non_renewable_refuted` – Pausing an ongoing task that holds a non-renewable resource: with the table "task -> returned?" of preemptivity.py:75 filled as documented, the offered PAUSE action raises KeyError (the code looks the resource up in it).
* `C22_varying_refuted` – With time-varying consumption the claim is false: two tasks that need nothing first and everything later are both offered.
* `C24_long_duration_refuted`
* `C25_not_all_modes_offered_refuted` – The converse fails: a task that could start in two modes is offered in the last one only.
* `C25_varying_space_refuted` – Time-varying consumption: the needs of the first step of a task are read at the date of the state, so after two time steps the list of offered actions cannot be computed at all.
* `C25_varying_last_step_refuted` – A consumption list with one entry per time unit of the task is too short: the last time step raises IndexError.
* `C25_resume_without_resources_refuted` – A RESUME action is offered without checking resources; the task becomes ongoing without any, and the next time step raises KeyError.
* `C25_units_resume_refuted` – With resource units, resuming a paused task is offered as a START action, which raises IndexError (the active time of a task that has not resumed).
* `C26_start_with_time_refuted` – START with time progress: the probabilities of the durations are dropped.
* `C26_two_distributions_refuted` – Two completion distributions for one task: the values of both are put in one list.
* `C48_cost_non_renewable_refuted` – With the cost objective, no transition has a value as soon as there is a non-renewable resource.
* `C38_zero_duration_refuted` – A schedule is marked feasible although the tasks together need more of a non-renewable resource than there is: what a task of length zero consumes is never counted.
* `C38_infeasible_refuted` – A schedule marked infeasible may contain a task that ends before it starts.
* `C50_started_moved_refuted` – Rescheduling may delay a task that has already started: task 3, started at time 0, is put after task 2 which has a higher priority and starts now.
* `C50_non_renewable_refuted` – Rescheduling forgets what the completed tasks consumed of a non-renewable resource.
* `C135_exception_refuted` – A job that raises is answered with its own arguments.
* `C135_two_pairs_refuted` – Two results of a type of two arrays, for which there are registers, cannot be read back: they are written on top of each other (the same two values can be sent as arguments).
* `C135_truncated_refuted` – A result that has no register is dropped with what follows; the beginning passes for the answer.
* `C135_none_refuted` – A tuple that begins with [None] is answered [None].
* `C135_overflow_refuted` – Too many results of a type are not always refused: they overwrite the registers of another domain, where a job is waiting.
* `C44_empty_refuted` – The empty space has no [contains]: asking whether an element belongs to it fails.
* `C44_duplicates_refuted` – With repeated elements, unwrapped indices do not survive: the wrapped space has an index that is never produced.
* `C44_negative_refuted` – Indices outside the wrapped space are accepted when they are negative.
* `C44_nested_refuted` – A dataclass inside a dataclass comes back as a dictionary.
* `C36_heap_minimise_refuted` – When minimising, a full heap of "best scores" throws the new best score away.
* `C36_heap_room_refuted` – When maximising, a score below the first ones is not kept even though there is room for it.
* `C36_empty_store_refuted` – A storage created empty accepts no solution.
* `C36_refit_refuted` – A solution added again with a better fitness becomes the best solution, but the stored pair stays.
* `C35_before_finalize_refuted` – Before [finalize] the front is empty, whatever was added.
* `C35_last_best_refuted` – [==] on vectors means "incomparable": the last best solution may be dominated by a stored one.
* `C35_equality_refuted` – Vector equality is not transitive.
* `C33_numba_legs_refuted` – The compiled evaluation, which is the default, stores wrong legs: their sum is not the length.
* `C34_swap_numba_refuted` – Hence a swap on a freshly evaluated solution then reports a wrong length.
* `C33_from0_ignored_refuted` – Changing the first registered attribute, which the generic mutations use by default, does not change the tour that is evaluated.
* `C34_swap_stale_refuted` – The swap move leaves the other encoding as it was.
* `C34_no_pair_refuted` – When only the last position is drawn no pair is tried: the vector is changed all the same and its length is reported infinite.
* `C34_default_tests_refuted` – The mutation cannot be built with its default number of tests.
* `C33_satisfy_refuted` – Finding: [satisfy] is never true, and is false for every tour (the vector leaves out the start).
* `C34_intersection_refuted` – The variant on intersections loses the legs after the reversed part.
* `C133_satisfy_refuted` – A solution that is said satisfactory may hold more than the knapsack can: beyond the capacity the speed turns negative, so does the duration, and the objective exceeds the profit.
* `C133_overload_refuted` – Or the load stops the thief altogether, and the evaluation divides by zero.
* `C133_elsewhere_refuted` – An item may be taken in a city where it is not: it is paid for all the same.
* `C133_twice_refuted` – A closed tour that meets a city twice earns the items of that city twice.
* `C42_satisfy_refuted` – [satisfy] looks only at the capacities: a solution that serves nobody is accepted.
* `C42_trivial_refuted` – The trivial solution may leave customers unserved although all of them can be served.
* `C42_directed_refuted` – The last leg is measured from the end depot: with directed distances the length of the route is wrong.
* `C42_stale_refuted` – The cached loads survive a change of the paths: an overloaded solution is accepted.

## Assumptions

`Print Assumptions` prints "Closed under the global context" for every theorem named in `MANIFEST.json`
but the three named `C87_...`, which are about real numbers. For each of those three it prints the axioms
of the standard library on which its real numbers rest: `ClassicalDedekindReals.sig_not_dec`,
`ClassicalDedekindReals.sig_forall_dec`, `FunctionalExtensionality.functional_extensionality_dep` and
`Classical_Prop.classic`. No other axiom is used. (Loading the standard library also brings the axioms of
`Coq.ssr.ssrunder` into the environment; no theorem depends on them.)
