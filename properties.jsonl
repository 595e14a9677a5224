{"id": "C01", "title": "A transition value is always consistent as reward and as cost", "statement": "Whatever combination of reward and cost is passed to TransitionValue(reward, cost), the resulting object satisfies cost == -reward and reward == -cost; an explicitly given reward is kept unchanged, a cost given alone is kept unchanged, and nothing given means zero for both.", "quantifier": "every optional reward and every optional cost, over any value type with an involutive negation", "why_tests_cant": "Unit tests try a few numbers; the claim is about every pair of optional arguments and every numeric type.", "anchors": ["skdecide/core.py:TransitionValue.__post_init__"]}
{"id": "C02", "title": "Missing value and info of an outcome are filled in for exactly the right agents", "statement": "An EnvironmentOutcome or TransitionOutcome built without a value (or info) gets a zero value (or no info): one per agent of the observation/state when it is a multi-agent dictionary, a single one otherwise; given values and infos, the observation/state and the termination flag are never altered.", "quantifier": "every observation/state (dictionary with any set of agents, or not a dictionary), every optional value and info", "why_tests_cant": "The set of agents is unbounded and the two shapes interact.", "anchors": ["skdecide/core.py:EnvironmentOutcome.__post_init__", "skdecide/core.py:TransitionOutcome.__post_init__"]}
{"id": "C03", "title": "Sampling a discrete distribution returns a value of its support, and casting keeps its probabilities", "statement": "DiscreteDistribution.sample() returns one of the listed values, one whose listed weight is positive when weights are non-negative with positive total; get_values() returns exactly what was given; casting the elements changes neither the number of entries, nor their weights and order. A SingleValueDistribution always samples its value with weight one.", "quantifier": "every non-empty list of weighted values and every random draw in [0,1)", "why_tests_cant": "Sampling is random: a test sees only the draws that happened.", "anchors": ["skdecide/core.py:DiscreteDistribution", "skdecide/core.py:SingleValueDistribution"]}
{"id": "C04", "title": "Auto-casting between domain levels is lossless upwards and inverts downwards", "statement": "Casting an object from a single-agent/Markovian/sequential level up to a multi-agent/memory/parallel level and back yields the original object; casting between equal types, or when no level differs, returns the object unchanged; None is preserved by optional types.", "quantifier": "every object and every nesting of the supported type constructors (Union, Optional, Memory, StrDict, List)", "why_tests_cant": "The type hints nest arbitrarily; a test suite fixes a handful of hints.", "anchors": ["skdecide/core.py:cast_dict", "skdecide/core.py:cast", "skdecide/core.py:cast_needed"]}
{"id": "C05", "title": "A bound constraint answers exactly the advertised inequality", "statement": "BoundConstraint.check(memory, action, next_state) is true if and only if evaluate(memory, action, next_state) compares to the bound with the declared inequality ('<', '<=', '>', '>='); any other inequality symbol is rejected at construction; the reported boundaries and strictness describe that same set.", "quantifier": "every evaluation function, bound, symbol and transition", "why_tests_cant": "Quantifies over arbitrary functions and bounds.", "anchors": ["skdecide/core.py:BoundConstraint"]}
{"id": "C06", "title": "The environment memory holds exactly the last N states of the current episode", "statement": "After any interleaving of reset, step, sample and set_memory, the memory of a FiniteHistory domain of order N (N>=2) is the sequence of the last N states seen since the last reset, oldest first; for a Markovian domain it is exactly the last state, and for a memoryless one it is empty.", "quantifier": "every N, every dynamics (deterministic or random) and every finite history of API calls", "why_tests_cant": "Histories are unbounded; a bounded deque only misbehaves after it fills up.", "anchors": ["skdecide/builders/domain/memory.py:FiniteHistory", "skdecide/builders/domain/dynamics.py:Environment._step", "skdecide/builders/domain/initialization.py:Initializable._reset"]}
{"id": "C07", "title": "sample() is side-effect free with respect to the environment", "statement": "Calling sample(memory, action) any number of times with any arguments leaves the internal memory unchanged, so the result of subsequent step calls does not depend on which sample calls happened.", "quantifier": "every history of API calls with arbitrary sample calls inserted", "why_tests_cant": "Requires comparing all pairs of histories that differ in inserted calls.", "anchors": ["skdecide/builders/domain/dynamics.py:Simulation._sample", "skdecide/builders/domain/dynamics.py:Environment._step"]}
{"id": "C08", "title": "A full-history domain can be stepped and remembers every state", "statement": "For a domain that declares History (unbounded memory) step works after reset and the memory then contains all states of the episode in order.", "quantifier": "every dynamics and every sequence of step calls", "why_tests_cant": "Claim over all histories.", "anchors": ["skdecide/builders/domain/memory.py:History", "skdecide/builders/domain/dynamics.py:Environment._step"]}
{"id": "C09", "title": "An episode rollout is a genuine run of the domain under the policy, cut at the right place", "statement": "rollout and, on fully observable Markovian domains started from a given state, rollout_episode produce a genuine run: one more observation than actions and as many values as actions, every action is the solver's answer to the previous observation, every observation/value is the domain's answer to that action, the run stops right after the first step that signals termination, and otherwise after exactly max_steps steps.", "quantifier": "every domain step function (stateful), every policy, every max_steps and number of episodes", "why_tests_cant": "Needs every policy/domain pair and every run length.", "anchors": ["skdecide/utils.py:rollout_episode", "skdecide/utils.py:rollout"]}
{"id": "C10", "title": "A deterministic policy is queried consistently through every policy API", "statement": "For a solver that implements deterministic policies, sample_action(o) returns get_next_action(o) and get_next_action_distribution(o) is the point distribution on it; for an uncertain policy sample_action(o) always lies in the support of the announced distribution.", "quantifier": "every policy function and observation, every random draw", "why_tests_cant": "Quantifies over arbitrary policies.", "anchors": ["skdecide/builders/solver/policy.py:Policies", "skdecide/builders/solver/policy.py:UncertainPolicies", "skdecide/builders/solver/policy.py:DeterministicPolicies"]}
{"id": "C11", "title": "match_solvers returns exactly the compatible solvers", "statement": "match_solvers(domain, candidates) returns exactly the candidates whose check_domain accepts the domain, in the order given and without introducing duplicates.", "quantifier": "every list of candidate solvers, every domain", "why_tests_cant": "Arbitrary candidate lists.", "anchors": ["skdecide/utils.py:match_solvers"]}
{"id": "C12", "title": "Domain requirements accept a domain exactly when it has every characteristic of the solver's domain type", "statement": "check_domain(d) holds if and only if d inherits from every characteristic (builder class) that the solver's T_domain inherits from, and the additional check passes; the reported requirement list contains no class implied by another.", "quantifier": "every class hierarchy (finite, acyclic) and every domain class in it", "why_tests_cant": "The class hierarchy is user-extensible.", "anchors": ["skdecide/solvers.py:Solver._get_domain_requirements", "skdecide/solvers.py:Solver._check_domain"]}
{"id": "C13", "title": "A plan returned by LazyAstar is executable and reaches a goal", "statement": "If LazyAstar solves from a non-goal start, following get_next_action from the start state for as many steps as the plan has leads, through transitions of the domain, to a goal state, and the stored values are the exact remaining costs along that path; elsewhere the utility is the heuristic.", "quantifier": "every graph (possibly infinite, with cycles), goal test, heuristic and heuristic weight", "why_tests_cant": "State spaces and heuristics are arbitrary.", "anchors": ["skdecide/hub/solver/lazy_astar/lazy_astar.py:LazyAstar._solve_domain"]}
{"id": "C14", "title": "LazyAstar with a consistent heuristic returns a least-cost plan", "statement": "With non-negative costs, a heuristic that is consistent (and zero at goals) and weight 1, no path from the start to any goal is cheaper than the returned plan.", "quantifier": "every finite-branching graph, every consistent heuristic, every competing path of any length", "why_tests_cant": "Optimality compares with all paths.", "anchors": ["skdecide/hub/solver/lazy_astar/lazy_astar.py:LazyAstar._solve_domain"]}
{"id": "C15", "title": "LazyAstar terminates and finds a plan whenever one exists on a finite state space", "statement": "On a finite reachable state space the search stops; it returns a plan if a goal is reachable from the start and reports failure otherwise.", "quantifier": "every finite graph, heuristic and weight", "why_tests_cant": "Termination over all graphs.", "anchors": ["skdecide/hub/solver/lazy_astar/lazy_astar.py:LazyAstar._solve_domain"]}
{"id": "C16", "title": "Grid world: moves stay in the grid, cost one, and distance is Manhattan", "statement": "Every action from every cell leads to the neighbouring cell in its direction, or nowhere at the border; the observation space is exactly the grid; a move costs one and bumping into the border costs two; no action sequence reaches a cell cheaper than its Manhattan distance and one achieves it; LazyAstar with the Manhattan heuristic returns a plan of exactly that cost.", "quantifier": "every grid size, cell and action sequence of any length", "why_tests_cant": "Unbounded grid sizes and sequences.", "anchors": ["skdecide/hub/domain/simple_grid_world/simple_grid_world.py:SimpleGridWorld"]}
{"id": "C17", "title": "Maze: the agent never leaves the maze nor enters a wall", "statement": "The free cells of a maze are those marked blank, 'o' or 'x' in the text, the start is marked 'o' and the goal 'x'. In a maze whose lines have equal stripped length, from the start every action sequence runs without error and keeps the agent on free in-bounds cells; an action moves to the neighbouring cell in its direction exactly when it is free and costs one, and otherwise stays and costs two; LazyAstar finds a plan exactly when the goal is reachable.", "quantifier": "every maze layout and action sequence", "why_tests_cant": "Unbounded layouts and sequences.", "anchors": ["skdecide/hub/domain/maze/maze.py:Maze"]}
{"id": "C18", "title": "MasterMind scoring is correct", "statement": "The score of a guess against the hidden code is (number of exact matches, number of right colours at wrong positions) as in the rules of the game: it is symmetric, the two numbers add up to at most the code length, exact matches equal the length iff guess equals code, n-1 exact matches exclude a colour match, and the game is terminal exactly after the right guess; the hidden codes are all codes, drawn uniformly.", "quantifier": "every number of colours and positions, every pair of codes", "why_tests_cant": "Combinatorial space of codes.", "anchors": ["skdecide/hub/domain/mastermind/mastermind.py:MasterMind"]}
{"id": "C19", "title": "Rock-paper-scissors is zero-sum and ends on time", "statement": "In every round the two rewards add up to zero, the winner follows the usual cyclic rule, and every game ends exactly after max_moves rounds.", "quantifier": "every max_moves and every sequence of joint moves", "why_tests_cant": "Sequences of any length.", "anchors": ["skdecide/hub/domain/rock_paper_scissors/rock_paper_scissors.py:RockPaperScissors"]}
{"id": "C20", "title": "Scheduling: every task is in exactly one status and never disappears", "statement": "In every state reachable by applying any sequence of scheduling actions, each unconditional task is in exactly one of: remaining, ongoing, paused, complete, and a completed task never changes status again; with conditional tasks, a task whose conditions hold is in exactly one status or not yet released, and a task whose conditions do not hold is in none.", "quantifier": "every scheduling problem, every sequence of actions, every duration realisation", "why_tests_cant": "All action histories.", "anchors": ["skdecide/builders/scheduling/scheduling_domains.py:SchedulingDomain"]}
{"id": "C21", "title": "Scheduling: resource accounting is exact", "statement": "In every reachable state, the amount of each renewable resource reported in use is exactly the sum of the amounts held by the tasks that hold resources (hence zero when nothing is ongoing and never negative), provided zero-duration tasks need none; without pre-emption, the amount of a non-renewable resource in use is the total need of all started tasks.", "quantifier": "every scheduling problem, every action history, every realisation of the durations", "why_tests_cant": "Leaks only show after particular histories.", "anchors": ["skdecide/builders/scheduling/scheduling_domains.py:SchedulingDomain.update_start_tasks", "skdecide/builders/scheduling/scheduling_domains.py:SchedulingDomain.update_complete_tasks", "skdecide/builders/scheduling/scheduling_domains.py:SchedulingDomain.update_pause_tasks"]}
{"id": "C22", "title": "Scheduling: resource capacity is never exceeded by starting tasks", "statement": "With constant consumption and constant availability, along any sequence of offered actions (pre-emption included) the amount in use of every resource never exceeds its availability; the same holds for arbitrary START, PAUSE and TIME actions.", "quantifier": "every problem, every sequence of actions", "why_tests_cant": "All histories.", "anchors": ["skdecide/builders/scheduling/scheduling_domains.py:SchedulingDomain.check_if_action_can_be_started", "skdecide/builders/scheduling/scheduling_domains.py:SchedulingDomain.update_start_tasks"]}
{"id": "C23", "title": "Scheduling: precedence is respected", "statement": "Following only actions offered by the applicable-action space, a task is started only when all its predecessors are complete, so in the final schedule every task starts no earlier than the end of each of its predecessors.", "quantifier": "every precedence graph and every sequence of offered actions", "why_tests_cant": "All graphs and histories.", "anchors": ["skdecide/builders/scheduling/scheduling_domains.py:SchedulingDomain.get_possible_starting_tasks"]}
{"id": "C24", "title": "Scheduling: time only advances by one on a time-progress action and recorded dates are consistent", "statement": "The clock never goes back, only the time-progress action advances it and by exactly one; every completed task has an end date not before its start date, and a task with duration 0<d<10000 that is never paused and was started at t completes at exactly t+d; a paused task completes after exactly d active time units.", "quantifier": "every problem and action history", "why_tests_cant": "All histories.", "anchors": ["skdecide/builders/scheduling/scheduling_domains.py:SchedulingDomain.update_time", "skdecide/builders/scheduling/scheduling_domains.py:SchedulingDomain.update_progress"]}
{"id": "C25", "title": "Scheduling: an offered start action really starts the task", "statement": "With constant consumption and no skills, every START action listed as applicable in a reachable state succeeds: it moves that task to ongoing (to complete if its duration is zero), in the chosen mode, at the current date, books exactly the resources of the mode, and leaves the status of every other task unchanged.", "quantifier": "every problem and reachable state", "why_tests_cant": "All states.", "anchors": ["skdecide/builders/scheduling/scheduling_domains.py:SchedulingActionSpace", "skdecide/builders/scheduling/scheduling_domains.py:SchedulingDomain.update_start_tasks"]}
{"id": "C26", "title": "Scheduling: next-state distributions are probability distributions", "statement": "For stochastic durations with finite support and at most one completion distribution per task, the probabilities of the next-state distribution of every offered action add up to one and are non-negative.", "quantifier": "every problem, state and action", "why_tests_cant": "All distributions.", "anchors": ["skdecide/builders/scheduling/scheduling_domains.py:SchedulingDomain._get_next_state_distribution"]}
{"id": "C27", "title": "Knapsack evaluation agrees with its definition", "statement": "For a solution without cached totals (or with force_recompute_values) evaluate returns the total value of the taken items and the amount by which the weight exceeds the capacity, and evaluating again changes nothing; satisfy is true if and only if the total weight is at most the capacity; the dummy solution takes nothing and is feasible; the multi-objective variant also returns the largest weight taken and the total weight; a vector that is too short is an error.", "quantifier": "every item list, capacity and 0/1 vector", "why_tests_cant": "All instances.", "anchors": ["skdecide/builders/discrete_optimization/knapsack/knapsack_model.py:KnapsackModel"]}
{"id": "C28", "title": "The dynamic-programming knapsack solver is optimal", "statement": "KnapsackDynProg.solve returns a selection that fits the capacity, reports its true value and weight, and no selection that fits is worth more; with a limit on items or time it is optimal among the selections of the items considered; with greedy_start too when every item fits alone.", "quantifier": "every list of items labelled by position, with non-negative integer weights, and every non-negative capacity", "why_tests_cant": "Optimality over exponentially many selections.", "anchors": ["skdecide/builders/discrete_optimization/knapsack/solvers/dyn_prog_knapsack.py:KnapsackDynProg.solve"]}
{"id": "C29", "title": "The greedy knapsack solver returns a feasible, maximal selection", "statement": "When every item fits alone, the greedy solver returns a selection that fits the capacity, reports its true value and weight, and leaves no item out that would still fit; by density with non-negative values it loses at most the value of one item with respect to any selection that fits; GreedyBest is at least as good as the density order.", "quantifier": "every instance with positive weights not above the capacity", "why_tests_cant": "All instances.", "anchors": ["skdecide/builders/discrete_optimization/knapsack/solvers/greedy_solvers.py:greedy_using_queue"]}
{"id": "C30", "title": "Incremental knapsack moves agree with recomputation and can be undone", "statement": "After any sequence of bit-flip moves the cached weight and value equal those recomputed from scratch, and backtracking a move restores the selection, weight and value; on/off mutations keep a feasible solution feasible.", "quantifier": "every instance, solution and move sequence", "why_tests_cant": "Sequences of moves of any length.", "anchors": ["skdecide/builders/discrete_optimization/knapsack/mutation/mutation_knapsack.py"]}
{"id": "C31", "title": "Graph colouring: satisfied means no monochromatic edge, and normalising colours is harmless", "statement": "satisfy(solution) is true exactly when no edge has both ends of the same colour, i.e. count_violations is zero; converting to the value-precede form keeps the partition of vertices into colour classes (hence validity and number of colours) and uses exactly colours 0..k-1 in order of first appearance.", "quantifier": "every graph and colouring", "why_tests_cant": "All graphs.", "anchors": ["skdecide/builders/discrete_optimization/coloring/coloring_model.py:ColoringProblem", "skdecide/builders/discrete_optimization/coloring/coloring_model.py:transform_color_values_to_value_precede"]}
{"id": "C32", "title": "Permutation mutations preserve permutations, and moves can be undone", "statement": "Every permutation mutation (full shuffle, partial shuffle, swaps, 2-opt) returns a solution whose vector is a permutation of the input vector, whatever the random draw; so does any run of such mutations, and backtracking the moves of a run, last first, on the solution obtained restores the original contents (swaps of one move must not share positions: backtracking replays them in the same order). The full shuffle leaves every existing solution unchanged, and 2-opt every solution other than the one it is given.", "quantifier": "every vector, every store of solutions sharing vectors, every run of mutations of any length and mix, every random draw", "why_tests_cant": "Random moves over all permutations.", "anchors": ["skdecide/builders/discrete_optimization/generic_tools/mutations/permutation_mutations.py"]}
{"id": "C33", "title": "TSP tour conversion round-trips and tours visit each city once", "statement": "Converting a vector of intermediate nodes to positions and back returns it, and vice versa; a vector of positions that is a permutation encodes a tour visiting every intermediate node once. A solution built from either encoding holds both encodings of the same tour, and the evaluated length (plain or compiled evaluation, also through evaluate_from_encoding and for the dummy solution) is the sum of the distances of consecutive stops from start to end.", "quantifier": "every set of points, symmetric distance, start, end and permutation (at least one intermediate node)", "why_tests_cant": "All permutations.", "anchors": ["skdecide/builders/discrete_optimization/tsp/tsp_model.py:TSPModel", "skdecide/builders/discrete_optimization/tsp/tsp_model.py:compute_length"]}
{"id": "C34", "title": "Incremental TSP moves report the true tour length", "statement": "With a symmetric distance and a solution whose stored legs are right, 2-opt (whatever pairs are sampled, at least one) and swap moves return a tour of the same nodes whose stored legs and length are those recomputed from scratch; so does every run of such moves. The 2-opt result is not longer than any neighbour tried (any neighbour at all when testing all pairs), nor than the original when only improvements are asked for; the swap move applied again restores the solution.", "quantifier": "every symmetric distance, tour, sampled pairs, and run of moves of any length", "why_tests_cant": "All tours and moves.", "anchors": ["skdecide/builders/discrete_optimization/tsp/mutation/mutation_tsp.py:Mutation2Opt", "skdecide/builders/discrete_optimization/tsp/mutation/mutation_tsp.py:SwapTSPMove"]}
{"id": "C35", "title": "The Pareto front keeps exactly the non-dominated points", "statement": "After adding any sequence of points of one dimension to a Pareto front created with at least one solution, and finalising it, the front is exactly the set of added points that no added point dominates; every added point is in the front or dominated by a point of the front; the order of additions does not matter; the extreme points are the best on each coordinate among all added points.", "quantifier": "every dimension, sequence of fitness vectors, both optimisation senses", "why_tests_cant": "All sequences.", "anchors": ["skdecide/builders/discrete_optimization/generic_tools/result_storage/result_storage.py:ParetoFront", "skdecide/builders/discrete_optimization/generic_tools/result_storage/multiobj_utils.py:TupleFitness"]}
{"id": "C36", "title": "ResultStorage returns the best stored solution", "statement": "A result storage created with at least one solution returns, after any sequence of additions, a pair whose fitness is optimal for the declared sense among everything given to it, whatever the size limit; its recorded best solution is optimal too; removing duplicates keeps exactly the first pair of each value.", "quantifier": "every sequence of additions, every size limit, both senses", "why_tests_cant": "All sequences.", "anchors": ["skdecide/builders/discrete_optimization/generic_tools/result_storage/result_storage.py:ResultStorage"]}
{"id": "C37", "title": "The hill climber never loses its best solution", "statement": "Along a run of HillClimber (or SimulatedAnnealing) the best objective is monotone and at least as good as the initial one, and the storage returned contains the best solution met, with its true objective; when maximising it is the one returned. For mutations that create new solutions, or, for annealing storing improvements only, mutations that restore in place.", "quantifier": "every mutation, objective and number of iterations, both senses", "why_tests_cant": "All runs.", "anchors": ["skdecide/builders/discrete_optimization/generic_tools/ls/hill_climber.py:HillClimber.solve", "skdecide/builders/discrete_optimization/generic_tools/ls/simulated_annealing.py:SimulatedAnnealing.solve", "skdecide/builders/discrete_optimization/generic_tools/ls/local_search.py:RestartHandler"]}
{"id": "C38", "title": "The serial schedule generation scheme produces feasible schedules", "statement": "On a complete acyclic instance generate_schedule_from_permutation_serial_sgs always returns. If it marks the schedule feasible, every task is scheduled exactly once for the duration of its mode (modes that do not exist being replaced by mode 1), no task starts before the end of any predecessor, at no time does the use of a renewable resource exceed its capacity, and the use of a non-renewable resource by the tasks of positive duration never exceeds its capacity. It succeeds whenever each task fits alone, the non-renewable totals fit and the horizon is at least the sum of the durations.", "quantifier": "every instance with non-negative capacities (constant or calendar), mode assignment and priority permutation", "why_tests_cant": "All instances and permutations.", "anchors": ["skdecide/builders/discrete_optimization/rcpsp/rcpsp_model.py:RCPSPSolution.generate_schedule_from_permutation_serial_sgs"]}
{"id": "C39", "title": "RCPSP satisfy decides feasibility of complete schedules", "statement": "For a schedule containing every task once, RCPSPModel.satisfy(solution) returns true if and only if the schedule is not flagged infeasible, all precedences hold, at every time before the end of the last-numbered task no resource is used beyond its capacity, and the non-renewable needs of all tasks fit. If moreover no task ends before it starts or starts before 0 and every other task has a successor, this is feasibility at all times. An accepted schedule with a positive makespan contains every task. Schedules marked feasible by the serial generation scheme are accepted, when zero-length tasks need no non-renewable resource.", "quantifier": "every instance (constant capacities or calendar), mode assignment and schedule", "why_tests_cant": "All schedules.", "anchors": ["skdecide/builders/discrete_optimization/rcpsp/rcpsp_model.py:RCPSPModel.satisfy"]}
{"id": "C40", "title": "The pile solver produces feasible schedules", "statement": "For instances with constant capacities and a zero-duration source: when PileSolverRCPSP.solve returns, every task is scheduled exactly once for the duration of its mode, starts after the end of all its predecessors, the renewable capacities are respected at all times and the non-renewable totals are respected, whatever the greedy choice rule; when the sink comes after all tasks, the solution's permutation lists every task once. The solver always stops, and it returns a solution whenever every task fits alone, the non-renewable totals fit and the graph is acyclic; otherwise it raises IndexError.", "quantifier": "every instance with constant capacities and every choice rule (including the three built-in ones)", "why_tests_cant": "All instances.", "anchors": ["skdecide/builders/discrete_optimization/rcpsp/solver/rcpsp_pile.py:PileSolverRCPSP.solve"]}
{"id": "C41", "title": "Facility location: evaluation and capacity check", "statement": "For an assignment of existing facilities: evaluate returns the total service cost, the set-up cost of exactly the facilities in use, and for each of them its load, cost and customers; the reported violation is the excess of the facility opened last; a solution within all capacities is accepted by satisfy, and with a single facility in use satisfy is exact. The greedy solver's solution serves every customer, respects all capacities, opens facilities in order and is accepted; it exists whenever any facility can serve any single customer and there are at least as many facilities as customers.", "quantifier": "every instance and assignment", "why_tests_cant": "All instances.", "anchors": ["skdecide/builders/discrete_optimization/facility/facility_model.py:FacilityProblem", "skdecide/builders/discrete_optimization/facility/solvers/greedy_solvers.py:GreedySolverFacility"]}
{"id": "C42", "title": "VRP: the trivial solution respects capacities, and the evaluation is exact", "statement": "trivial_solution always returns a tour per vehicle; no customer is visited twice, no depot is visited as a customer, no vehicle that carries customers is overloaded (depots included), a customer is left unserved only if it fits in no vehicle's remaining capacity, and with non-negative demands every tour goes from large to small demands. For symmetric distances evaluate reports the lengths of the routes from depot to depot and the total overload; satisfy holds exactly when no vehicle is overloaded. stupid_solution puts all customers in order on the first vehicle.", "quantifier": "every instance", "why_tests_cant": "All instances.", "anchors": ["skdecide/builders/discrete_optimization/vrp/vrp_model.py:trivial_solution", "skdecide/builders/discrete_optimization/vrp/vrp_model.py:compute_length"]}
{"id": "C43", "title": "Graph helper: neighbours and predecessors are exactly the edges", "statement": "For the Graph helper, m is a neighbour of n iff an edge (n,m) was given (or (m,n) for undirected graphs), and predecessors are the converse relation.", "quantifier": "every list of nodes and edges", "why_tests_cant": "All graphs.", "anchors": ["skdecide/builders/scheduling/graph_toolbox.py:Graph", "skdecide/builders/discrete_optimization/generic_tools/graph_api.py:Graph"]}
{"id": "C44", "title": "Space wrappers encode and decode losslessly", "statement": "For list and enumeration spaces: a list space contains x iff x is listed, an enumeration space contains exactly the members of its class; sample() returns a listed element and can return any of them; from_unwrapped(to_unwrapped(x)) = x for listed elements, to_unwrapped(from_unwrapped(i)) = i for valid indices when the elements are distinct; an unlisted element raises ValueError; JSON encoding of enumeration members (aliases included in the class) round-trips; dataclass spaces round-trip for dataclasses without nested dataclasses.", "quantifier": "every list of elements and samples", "why_tests_cant": "All lists.", "anchors": ["skdecide/hub/space/gym/gym.py:ListSpace", "skdecide/hub/space/gym/gym.py:EnumSpace"]}
{"id": "C45", "title": "SimpleGreedy picks the best immediate action", "statement": "When there is an applicable action and the transition value depends on the next state (or the space of actions is directly iterable), SimpleGreedy's next action is an applicable action whose expected immediate reward is maximal, and the first such in enumeration order.", "quantifier": "every applicable action list and transition value function", "why_tests_cant": "All domains.", "anchors": ["skdecide/hub/solver/simple_greedy/simple_greedy.py:SimpleGreedy"]}
{"id": "C46", "title": "Aggregated objectives are the weighted sum", "statement": "With aggregated handling, the fitness of a solution is the sum over the objectives of weight times value; with multi-objective handling it is the vector of weighted values.", "quantifier": "every objective dictionary and weights", "why_tests_cant": "All registers.", "anchors": ["skdecide/builders/discrete_optimization/generic_tools/do_problem.py:build_evaluate_function_aggregated"]}
{"id": "C47", "title": "Scheduling: a goal state records a feasible schedule", "statement": "When a run of offered actions (constant consumption and availability, no pre-emption) reaches a goal state, every task has recorded start and end dates, end = start + sampled duration (below 10000), every task starts no earlier than the end of its predecessors, at every date the tasks in progress together need at most the capacity of each renewable resource, and all tasks together need at most the capacity of each non-renewable one.", "quantifier": "every problem, every run length, every realisation of the durations, every date", "why_tests_cant": "The schedule is the result of an unbounded interleaving of starts and time steps; a test sees a few runs, not every date of every run.", "anchors": ["skdecide/builders/scheduling/scheduling_domains.py:SchedulingDomain._get_next_state", "skdecide/builders/scheduling/scheduling_domains.py:SchedulingActionSpace"]}
{"id": "C48", "title": "Scheduling: with the makespan objective the accumulated cost of a run is the elapsed time", "statement": "With the makespan as only objective, the sum of the transition costs of any run equals the difference of the clocks of its last and first states, so minimising accumulated cost is minimising makespan; a goal state is terminal.", "quantifier": "every problem and every run", "why_tests_cant": "It is a telescoping argument over runs of arbitrary length.", "anchors": ["skdecide/builders/scheduling/scheduling_domains.py:SchedulingDomain._get_transition_value", "skdecide/builders/scheduling/scheduling_domains.py:SchedulingDomain._is_terminal"]}
{"id": "C49", "title": "Serial generated schedules are active", "statement": "In a schedule marked feasible by the serial schedule generation scheme no task can be started earlier with all other tasks left where they are: at every earlier start allowed by its predecessors some resource would be exceeded while the task runs.", "quantifier": "every instance with non-negative needs, every mode assignment, permutation, task and earlier start", "why_tests_cant": "Quantifies over all alternative start times of all tasks of all generated schedules.", "anchors": ["skdecide/builders/discrete_optimization/rcpsp/rcpsp_model.py:RCPSPSolution.generate_schedule_from_permutation_serial_sgs"]}
{"id": "C50", "title": "Rescheduling from the current time keeps the past and is feasible", "statement": "generate_schedule_from_permutation_serial_sgs_2 always returns on a complete acyclic instance. If it marks the schedule feasible, the completed tasks keep their recorded times, every other task is scheduled exactly once for the duration of its mode, none of them before the current time (a started task: before its recorded start), the rescheduled tasks together stay within the resource capacities, and every precedence holds in the whole schedule.", "quantifier": "every instance, mode assignment, permutation, current time, and consistent record of completed and started tasks", "why_tests_cant": "All instances, all execution prefixes.", "anchors": ["skdecide/builders/discrete_optimization/rcpsp/rcpsp_model.py:RCPSPSolution.generate_schedule_from_permutation_serial_sgs_2"]}
{"id": "C51", "title": "The priority-list executor produces feasible schedules", "statement": "For instances with constant capacities, when Executor.compute_schedule_from_priority_list is called with a list containing every task, the schedule it returns contains every task once for the duration of the mode it was given, respects precedences, renewable capacities at all times and non-renewable totals; it returns whenever every task fits alone, the totals fit and the graph is acyclic; among the tasks that are ready and fit it always starts the one that comes first in the list.", "quantifier": "every instance with constant capacities, mode assignment and priority list", "why_tests_cant": "All instances and priority lists.", "anchors": ["skdecide/builders/discrete_optimization/rcpsp/solver/rcpsp_pile.py:Executor.compute_schedule_from_priority_list"]}
{"id": "C52", "title": "The C++ A* solver returns executable plans to a goal and finds one whenever there is one", "statement": "After a first solve from a non-goal state: the solution is defined for that state if and only if a goal can be reached from it; if defined, taking get_next_action repeatedly executes applicable actions and ends in a goal, and at every state on the way the reported value is the cost of the rest of the plan; on a finite state space the search ends.", "quantifier": "every domain (any state space, costs and heuristic, including negative or inconsistent ones) and start state", "why_tests_cant": "All graphs, heuristics and tie orders of the binary heap.", "anchors": ["cpp/src/hub/solver/astar.hh:AStarSolver", "skdecide/hub/solver/astar/astar.py:Astar"]}
{"id": "C53", "title": "When the C++ A* solver is optimal", "statement": "The plan found by a first solve is a cheapest one if all transitions cost the same and there is no heuristic, or if the heuristic is consistent and zero on goals and distinct transitions lead to distinct states. (With several ways into a state it need not be, even with positive costs and no heuristic: refuted.)", "quantifier": "every such domain and every plan compared with", "why_tests_cant": "Optimality against all plans; the defect shows only in particular heap shapes.", "anchors": ["cpp/src/hub/solver/astar.hh:AStarSolver.solve"]}
{"id": "C54", "title": "LRTA* finds a plan to a goal whenever there is one, and its policy executes it", "statement": "solve from a non-goal state never fails; afterwards either no trial was accepted and the policy is as before, or asking for the next action from the start executes applicable actions along a loop-free path of at most max_depth steps which ends in a goal unless it has max_depth steps. If the reachable states are finite and not more than max_depth and max_iter+1, the policy leads to a goal if and only if one is reachable.", "quantifier": "every domain with deterministic transitions, any integer costs and any heuristic", "why_tests_cant": "All graphs; the trials interact through the table of values.", "anchors": ["skdecide/hub/solver/lrtastar/lrtastar.py:LRTAstar"]}
{"id": "C55", "title": "LRTA* is optimal on acyclic domains once the values have settled", "statement": "If the heuristic never overestimates and is zero on goals, every execution from the start is shorter than max_depth, and the solver stopped because no value changed, then the policy executes a cheapest plan and the utility of the start is its cost.", "quantifier": "every such domain and every plan compared with", "why_tests_cant": "Optimality against all plans.", "anchors": ["skdecide/hub/solver/lrtastar/lrtastar.py:LRTAstar._solve_domain", "skdecide/hub/solver/lrtastar/lrtastar.py:LRTAstar.doTrial"]}
{"id": "C56", "title": "The critical path method computes the tightest dates", "statement": "On a project whose tasks all follow the first one and precede the last one, without cycle, run_classic_cpm succeeds; the earliest starts form the least plan that respects the precedences with every task in its shortest mode, the latest starts the greatest such plan among those that end as early as possible, the finish dates add the shortest duration, and the critical path goes from the first to the last task along precedences through tasks without slack. The earliest start bounds from below the start of the task in every schedule that respects the precedences, whatever the modes.", "quantifier": "every such project, every schedule compared with", "why_tests_cant": "Optimality against all plans; termination of the two-phase heap loop on every graph.", "anchors": ["skdecide/builders/discrete_optimization/rcpsp/solver/cpm.py:CPM.run_classic_cpm"]}
{"id": "C57", "title": "Scheduling along an order yields feasible schedules", "statement": "Whatever the order (without repetition) and with or without the cut by the critical path, a schedule returned by run_sgs_on_order contains every task once with the length of its mode 1, respects precedences and resource availabilities at every date (constant or varying), and starts no task before its earliest date. When resources are constant, every task fits alone and the tasks one after the other end before the horizon, a schedule is returned for every order of all tasks and is no longer than the tasks one after the other. The call always ends.", "quantifier": "every project, order and calendar", "why_tests_cant": "Feasibility for all orders and calendars; the existence claim needs an argument for every project.", "anchors": ["skdecide/builders/discrete_optimization/rcpsp/solver/cpm.py:CPM.run_sgs_on_order"]}
{"id": "C58", "title": "The time loop yields feasible schedules when resources are constant", "statement": "With constant resources and no negative need, a schedule returned by run_sgs_time_loop contains every task once, respects precedences and resources, starts no task before its earliest date and at most one task per date. If every task fits alone, the order puts each task after those it must follow and the horizon is long enough, the loop ends and returns a schedule.", "quantifier": "every project and order", "why_tests_cant": "Feasibility and termination for all projects.", "anchors": ["skdecide/builders/discrete_optimization/rcpsp/solver/cpm.py:CPM.run_sgs_time_loop"]}
{"id": "C59", "title": "The policy and values of the AO* solver are right, and optimal with an admissible heuristic", "statement": "On a domain without cycles, after any calls to solve from non-goal states, wherever is_solution_defined_for holds, following the best actions leads to a goal whatever the outcomes and the value reported is the expected discounted cost of doing so. With non-negative probabilities and discount and an admissible heuristic, every value reported is a lower bound on the cost of every plan, so those policies are optimal.", "quantifier": "every acyclic domain, sequence of calls, discount, number of tips expanded at a time and order of visiting sets", "why_tests_cant": "Optimality compares with all plans of all domains; the order in which hash sets of pointers are visited changes from run to run.", "anchors": ["cpp/src/hub/solver/aostar.hh:AOStarSolver.solve", "cpp/src/hub/solver/aostar.hh:AOStarSolver.get_best_action", "cpp/src/hub/solver/aostar.hh:AOStarSolver.get_best_value"]}
{"id": "C60", "title": "The AO* solver answers on every domain without cycles and dead ends", "statement": "On a domain without cycles, from a non-goal state from which no dead end can be met, solve returns, a solution is then defined for that state, and get_next_action returns an applicable action, whatever the calls before.", "quantifier": "every acyclic domain, state and sequence of calls", "why_tests_cant": "Termination of the search for all domains.", "anchors": ["cpp/src/hub/solver/aostar.hh:AOStarSolver.solve", "skdecide/hub/solver/aostar/aostar.py:AOstar._get_next_action"]}
{"id": "C61", "title": "The LRTDP solver answers with a policy as good as it says", "statement": "With labels on and enough depth, when solve ends before its time and rollout budgets, the values reported from its start on change by at most epsilon when the answered actions are followed; on a domain without cycles following them always reaches a goal at an expected cost within epsilon per step of the value reported, and with an admissible heuristic within that of the cheapest plan. get_policy lists exactly the answers and values.", "quantifier": "every domain, configuration, sequence of calls, random draws and clock readings", "why_tests_cant": "Random trials over arbitrary stochastic domains; the values come from an interleaving of updates and labels.", "anchors": ["cpp/src/hub/solver/lrtdp.hh:LRTDPSolver.solve", "cpp/src/hub/solver/lrtdp.hh:LRTDPSolver.check_solved", "cpp/src/hub/solver/lrtdp.hh:LRTDPSolver.policy"]}
{"id": "C62", "title": "The LRTDP solver returns, and converges on domains without cycles", "statement": "Without dead ends solve returns without error; on a domain without cycles a number of rollouts that depends only on the domain and the start is enough to converge whatever is drawn; an action answered in a non-goal state is applicable.", "quantifier": "every domain, configuration, sequence of calls, random draws", "why_tests_cant": "All random draws and all domains.", "anchors": ["cpp/src/hub/solver/lrtdp.hh:LRTDPSolver.solve", "cpp/src/hub/solver/lrtdp.hh:LRTDPSolver.trial", "skdecide/hub/solver/lrtdp/lrtdp.py:LRTDP._get_next_action"]}
{"id": "C63", "title": "The LRTDP solver never overestimates costs", "statement": "With a heuristic that does not exceed a consistent upper bound of the expected costs (or, with an admissible heuristic, the cost of any plan), no value reported at any time exceeds it, on cyclic domains too.", "quantifier": "every domain, state, sequence of calls, interrupted or not", "why_tests_cant": "An invariant of all executions, including those cut short by the clock.", "anchors": ["cpp/src/hub/solver/lrtdp.hh:LRTDPSolver.update", "cpp/src/hub/solver/lrtdp.hh:LRTDPSolver.get_best_value"]}
{"id": "C64", "title": "The ILAO* solver never overestimates costs", "statement": "With a heuristic that does not exceed a consistent upper bound of the expected costs (or, with an admissible heuristic, the cost of any plan), the value reported for any state known to the solver is a number that does not exceed it, whatever calls to solve were made, on cyclic domains too.", "quantifier": "every domain, state, sequence of calls from non-goal states, and iteration order of the sets", "why_tests_cant": "An invariant of all executions; the order in which hash sets are iterated over cannot be controlled by a test.", "anchors": ["cpp/src/hub/solver/ilaostar.hh:ILAOStarSolver.update", "cpp/src/hub/solver/ilaostar.hh:ILAOStarSolver.get_best_value"]}
{"id": "C65", "title": "What the ILAO* solver has established when solve returns", "statement": "When solve returns for a non-goal state, that state has a best action, which is applicable, and so has get_next_action. If the call had to search, the value of the state is within discount times epsilon of the expected cost of the action followed by the reported values, and no applicable action looks better by more than that. With an epsilon that is not positive no search ever returns.", "quantifier": "every domain, configuration, sequence of calls, iteration order of the sets", "why_tests_cant": "Quantifies over domains and set orders; only a relation between all reported values makes sense of the answer.", "anchors": ["cpp/src/hub/solver/ilaostar.hh:ILAOStarSolver.solve", "cpp/src/hub/solver/ilaostar.hh:ILAOStarSolver.value_iteration", "cpp/src/hub/solver/ilaostar.hh:ILAOStarSolver.update_solved_bits", "skdecide/hub/solver/ilaostar/ilaostar.py:ILAOstar._get_next_action"]}
{"id": "C66", "title": "Exact evaluation of a policy", "statement": "compute_expected_cost_for_policy returns the policy, the successor distributions and the predecessors on exactly the states that can be met before a terminal state. Each value it returns is the expected cost of following the policy until a goal; each state that can be met and from which the policy reaches a goal within boundedly many steps gets such a value; and the computation ends when finitely many states can be met.", "quantifier": "all domains, deterministic policies, distributions with nonzero probabilities and orders of taking elements from the set", "why_tests_cant": "The result must be right for every transition graph and every set order; tests evaluate a few policies in one order.", "anchors": ["skdecide/hub/solver/policy_evaluators/policy_evaluator.py:9-69", "skdecide/hub/solver/policy_evaluators/policy_evaluator.py:174-178"]}
{"id": "C67", "title": "Estimation of a policy by rollouts", "statement": "rollout_based_policy_estimation gives a value to exactly the states left during the rollouts: the mean over all visits of the cost paid from the visit on. The returned policy, predecessors and successors are those of the executions. Without uncertainty and when only goals are terminal, each value is the exact cost.", "quantifier": "all domains, policies, numbers of rollouts and sampled outcomes", "why_tests_cant": "It is a statement about every sequence of samples and repeated visits within and across rollouts.", "anchors": ["skdecide/hub/solver/policy_evaluators/policy_evaluator.py:72-128"]}
{"id": "C68", "title": "Depth-first exploration into a graph", "statement": "DFSExploration.build_graph_domain returns a graph whose states can all be reached from the start without leaving a goal, whose transitions are those of the domain and whose attributes are those that the extractor gives. When the numbers of states, transitions and transitions into goals are not past the limits, the graph has every such state with all its applicable actions. With limits set and finitely many states within reach the exploration ends.", "quantifier": "all deterministic domains, extractors, limits, initial states", "why_tests_cant": "Completeness of a search has to hold on every transition graph, with cycles, shared successors and goals in the middle; tests explore a few.", "anchors": ["skdecide/hub/solver/graph_explorer/DFSExploration.py:9-71", "skdecide/hub/solver/graph_explorer/GraphDomain.py:122-171"]}
{"id": "C69", "title": "Full exploration and reachable states", "statement": "reachable_states returns exactly the states that can be met with nonzero probability without leaving a terminal state, each once, and ends when they are finitely many. FullSpaceExploration.build_graph_domain returns the initial state with all its transitions.", "quantifier": "all domains, initial states and limits", "why_tests_cant": "Exactness on every reachable set, finite but of any size and shape, is not settled by examples.", "anchors": ["skdecide/hub/solver/graph_explorer/FullSpaceExploration.py:9-81"]}
{"id": "C70", "title": "Exploration of an uncertain domain", "statement": "The exploration of an uncertain domain records only states that can be met without leaving a goal or a terminal state, with their own goal and terminal flags; each recorded outcome is an outcome of an applicable action with its probability and cost. When the number of states is not past the limits all of those states and all applicable actions of those that are left are recorded. Every recorded state but the first is the outcome of exactly one recorded transition.", "quantifier": "all domains, limits, initial states and orders in which the priority queue gives the states", "why_tests_cant": "It ranges over every order of expansion and every transition graph.", "anchors": ["skdecide/hub/solver/graph_explorer/DFS_Uncertain_Exploration.py:11-83"]}
{"id": "C71", "title": "Merging graphs", "statement": "Merging a graph into another one gives the transitions of both, those of the first where both have one, for exactly the states of both, and leaves the other graph as it was, provided the two share no inner dict.", "quantifier": "all pairs of graphs", "why_tests_cant": "Aliasing between the merged dicts only shows for particular sharing patterns.", "anchors": ["skdecide/hub/solver/graph_explorer/GraphDomain.py:108-120"]}
{"id": "C72", "title": "Scheduling policy: the action is sound", "statement": "Whatever its method, a schedule-generation-scheme policy answers a state either by letting time progress or by a START, in the mode the policy was given, of a task that has not started, all of whose predecessors are complete and which the domain accepts to start; the task comes from the permutation of the policy, or for FOLLOW_GANTT is planned exactly now. Applying that START starts the task at the current date in that mode.", "quantifier": "all domains, policies, methods and states reachable with any actions", "why_tests_cant": "Soundness must hold in every reachable state for every permutation, schedule and mode table.", "anchors": ["skdecide/hub/solver/sgs_policies/sgs_policies.py:66-352"]}
{"id": "C73", "title": "Scheduling policy: which task is started", "statement": "With n0 the first task of the permutation that is released, an SGS method considers in permutation order the released tasks of the window of n0 (all for SGS_READY; those with the same planned date for SGS_PRECEDENCE and SGS_STRICT, n0 alone without a schedule; those planned at most delta later for SGS_TIME_FREEDOM; those at most delta positions later for SGS_INDEX_FREEDOM) and starts the first that can start; time progresses exactly when none can.", "quantifier": "all domains, policies and states", "why_tests_cant": "The choice depends on the interplay of permutation, schedule, freedoms and resource state.", "anchors": ["skdecide/hub/solver/sgs_policies/sgs_policies.py:119-344"]}
{"id": "C74", "title": "Scheduling policy: relations between the methods", "statement": "SGS_PRECEDENCE and SGS_STRICT give the same action when every task is in the schedule; SGS_TIME_FREEDOM without freedom is SGS_STRICT; SGS_INDEX_FREEDOM with a freedom that spans the permutation is SGS_READY.", "quantifier": "all domains, policies and states", "why_tests_cant": "Equality of two policies on all states is a relational property.", "anchors": ["skdecide/hub/solver/sgs_policies/sgs_policies.py:119-344"]}
{"id": "C75", "title": "Scheduling policy: execution ends with a feasible schedule", "statement": "Executing an SGS policy whose permutation covers the tasks, on a domain where each task fits in its mode, reaches the goal, whatever the durations met, within the sum of the durations; every task then lasted its drawn duration in the mode of the policy, and the precedences and the capacities were respected.", "quantifier": "all acyclic domains with constant renewable consumption, all permutations, methods, freedoms and duration tables", "why_tests_cant": "Termination and feasibility of the rollout for every instance and duration draw.", "anchors": ["skdecide/hub/solver/sgs_policies/sgs_policies.py:66-344", "skdecide/builders/scheduling/scheduling_domains.py:102-106"]}
{"id": "C76", "title": "FOLLOW_GANTT reproduces the plan", "statement": "When the planned schedule respects the precedences and the capacities for the durations met, FOLLOW_GANTT starts every task exactly at its planned date and reaches the goal by the end of the plan.", "quantifier": "all domains, feasible plans, orders of the tasks planned at the same date", "why_tests_cant": "Every feasible plan of every size; ties can be taken in any order.", "anchors": ["skdecide/hub/solver/sgs_policies/sgs_policies.py:79-116"]}
{"id": "C77", "title": "PilePolicy", "statement": "The pile policy lets time progress only when no released task can start in mode 1; otherwise it starts one of those: one with the most descendants, or one of shortest duration, or one drawn with a probability proportional to its descendants (uniformly when none has any; the weights are a distribution), or one drawn uniformly. Where all tasks fit in mode 1 the execution reaches the goal within the sum of the durations.", "quantifier": "all domains, states, greedy rules and random draws", "why_tests_cant": "Random draws and arbitrary resource states.", "anchors": ["skdecide/hub/solver/pile_policy/pile_policy.py:43-88"]}
{"id": "C78", "title": "MetaPolicy is no worse than its policies", "statement": "A meta policy answers with an action of one of its policies; when the roll-outs meet the durations of the execution, executing it reaches the goal no later than executing any of its policies alone.", "quantifier": "all families of SGS policies with the same modes, all numbers of roll-outs, all domains whose horizon leaves room for the tasks", "why_tests_cant": "The comparison is between complete executions that differ in every step.", "anchors": ["skdecide/hub/solver/meta_policy/meta_policies.py:27-51"]}
{"id": "C79", "title": "Policy made from an optimisation solution", "statement": "The policy made from the solution of a discrete-optimisation solver has the scheduled tasks as its permutation, each once, in the order of their start dates, mode 1 for the first and the last job and the modes of the solution for the others; with FOLLOW_GANTT a feasible solution is replayed at its dates.", "quantifier": "all schedules, mode lists and domains", "why_tests_cant": "The order must be right for every schedule and the replay for every feasible one.", "anchors": ["skdecide/hub/solver/do_solver/do_solver_scheduling.py:86-95"]}
{"id": "C80", "title": "Task durations", "statement": "A simulated duration is drawn once: every later question about the same task, mode and progress gets the value of the first draw. A uniform duration has each integer between its bounds with probability 1/(ub-lb+1). The bounds of an enumerable duration are possible values and bound all of them. Every duration sampled at the default progress lies within the bounds of its task.", "quantifier": "all user-supplied samplers, distributions and bounds; all sequences of questions; all random draws", "why_tests_cant": "Random draws and unbounded sequences of memoised calls.", "anchors": ["skdecide/builders/scheduling/task_duration.py:13-32", "skdecide/builders/scheduling/task_duration.py:39-47", "skdecide/builders/scheduling/task_duration.py:113-135", "skdecide/builders/scheduling/task_duration.py:151-189"]}
{"id": "C81", "title": "Membership of goals, observations and actions", "statement": "is_goal, is_observation and is_applicable_action answer for a single agent what the space answers, and for several agents True exactly when the value of each given agent is in the space of that agent.", "quantifier": "all spaces, agents and values", "why_tests_cant": "Ranges over all families of agents, including incomplete ones.", "anchors": ["skdecide/builders/domain/goals.py:85-102", "skdecide/builders/domain/observability.py:81-99", "skdecide/builders/domain/events.py:280-301"]}
{"id": "C82", "title": "The spaces of a domain do not change", "statement": "Two successive questions for the action space (observation space, goals, constraints) of a domain get the same object as long as fewer than 128 other domains ask for theirs in between.", "quantifier": "all sequences of questions by any number of domains", "why_tests_cant": "The shared cache only shows with many live domains and particular interleavings.", "anchors": ["skdecide/builders/domain/events.py:135-148", "skdecide/builders/domain/goals.py:36-52", "skdecide/builders/domain/observability.py:36-47", "skdecide/builders/domain/constraints.py:32-44"]}
{"id": "C83", "title": "Time windows", "statement": "Each kind of time window constrains a task that runs within the horizon by exactly the dates it is given; a domain without windows gives every task a window that excludes nothing.", "quantifier": "all horizons, dates and task lists", "why_tests_cant": "Equivalence over all dates.", "anchors": ["skdecide/builders/scheduling/time_windows.py:7-153", "skdecide/builders/scheduling/time_lag.py:7-28"]}
{"id": "C84", "title": "What running a genome computes", "statement": "Running a valid genome on inputs one after the other never fails, evaluates exactly the nodes its outputs depend on, and outputs what the synchronous network described by the genome outputs; after as many runs on one input as there are columns the outputs are the value of the genome as a formula of that input.", "quantifier": "all valid genomes, libraries, sizes and input sequences", "why_tests_cant": "A statement on all genomes and all histories of inputs; tests run a few evolved genomes.", "anchors": ["skdecide/hub/solver/cgp/pycgp/cgp.py:22-107", "skdecide/hub/solver/cgp/cgp.py:246-253"]}
{"id": "C85", "title": "Genomes stay valid", "statement": "A random genome is valid for every draw and every valid genome can be drawn; with one row, mutations never fail and keep validity and shape, the gene-wise one leaving the genes that were not selected as they were; a saved genome is read back.", "quantifier": "all sizes, libraries, genomes and draws", "why_tests_cant": "Quantified over the random draws.", "anchors": ["skdecide/hub/solver/cgp/pycgp/cgp.py:109-143", "skdecide/hub/solver/cgp/pycgp/cgp.py:199-243"]}
{"id": "C86", "title": "Evolution strategy", "statement": "At each iteration the first best of the mutated copies replaces the individual exactly when it is at least as good; the recorded fitness is the largest of all evaluations made and belongs to the recorded individual; the strategy never fails with one row and one offspring or more.", "quantifier": "all evaluators (even noisy), draws, numbers of offspring and iterations", "why_tests_cant": "Randomised search over unbounded iterations.", "anchors": ["skdecide/hub/solver/cgp/pycgp/cgpes.py:26-65"]}
{"id": "C87", "title": "Node values stay in range", "statement": "Every function of the default library maps numbers between -1 and 1 to such a number, hence every output of every genome over it on normalised inputs is between -1 and 1.", "quantifier": "all real arguments in range, genomes and input sequences", "why_tests_cant": "Continuous arguments of transcendental functions.", "anchors": ["skdecide/hub/solver/cgp/pycgp/cgpfunctions.py:8-73", "skdecide/hub/solver/cgp/cgp.py:261-283"]}
{"id": "C88", "title": "Conversion of observations and actions", "statement": "Whatever the outputs of a genome, the action made of them is in the action space; normalised observations are between -1 and 1 and increase with the observation; values of bounded boxes and of discrete spaces with two values or more are found back by the inverse conversion; the fitness of an evaluation is between those of its worst and best episode.", "quantifier": "all spaces, numbers and episodes", "why_tests_cant": "Quantified over all numbers and spaces.", "anchors": ["skdecide/hub/solver/cgp/cgp.py:28-162", "skdecide/hub/solver/cgp/cgp.py:186-231", "skdecide/hub/solver/cgp/cgp.py:307-333"]}
{"id": "C89", "title": "Iterated width: novelty of a state", "statement": "The combinations of k among n features are enumerated completely and without repetition. For every sequence of feature vectors evaluated during a search of a given width, the novelty computed for a vector is the least size, up to the width, of a combination of feature values that no vector evaluated before has at the same places, and one more than the number of features when there is none. A repeated vector is never novel; the first one has novelty one.", "quantifier": "all widths, numbers of features, feature values and sequences of evaluated vectors", "why_tests_cant": "The sequences of vectors and the widths are unbounded; the enumeration is a hand-written successor function whose errors show only for some sizes.", "anchors": ["cpp/src/hub/solver/iw.hh:464-514"]}
{"id": "C90", "title": "Iterated width: plan found", "statement": "After a first solve from a non-goal state with non-negative costs, when the solver says that a solution is defined, its answers from that state on execute a plan to a goal, the values are the costs of the rest of the plan and the intermediate score is the cost of the plan. When the features tell the reachable states apart, a solution is defined exactly when a goal can be reached. With finitely many reachable states the solve ends.", "quantifier": "all domains, feature functions and node orderings, any number of reachable states", "why_tests_cant": "Quantified over all domains; the plan is rebuilt from parent pointers that later expansions overwrite.", "anchors": ["cpp/src/hub/solver/iw.hh:130-209", "cpp/src/hub/solver/iw.hh:284-449", "skdecide/hub/solver/iw/iw.py:106-111"]}
{"id": "C91", "title": "Iterated width: time budget, widths and pruning", "statement": "Whatever the time budget, all plans found during one solve are found at the same width. A first solve that finds no plan and prunes no state shows that no goal can be reached.", "quantifier": "all domains, budgets, clocks and earlier solves", "why_tests_cant": "Depends on timing and on every possible domain.", "anchors": ["cpp/src/hub/solver/iw.hh:138-161", "cpp/src/hub/solver/iw.hh:197-209", "cpp/src/hub/solver/iw.hh:317-444"]}
{"id": "C92", "title": "Best first width search: novelty of a state", "statement": "Whatever states were evaluated before in a search, the novelty of a state is zero when it is the first one with its heuristic value; otherwise it is the number of its features whose value is new among the states evaluated with this heuristic value, and one more than the number of features when none is new, so that among states with the same heuristic value those without anything new come last.", "quantifier": "all sequences of evaluated states, heuristic values and feature vectors", "why_tests_cant": "The history of a search is unbounded.", "anchors": ["cpp/src/hub/solver/bfws.hh:300-327"]}
{"id": "C93", "title": "Best first width search: plan found", "statement": "After a first solve from a non-goal state, whatever the costs, heuristic and features, a solution is defined for the state exactly when a goal can be reached; then the answers of the solver from that state on execute a plan to a goal and the values are the costs of the rest of the plan. With finitely many reachable states the solve ends.", "quantifier": "all domains, heuristics and feature functions, any number of reachable states", "why_tests_cant": "Quantified over all domains; the priority queue is reordered by ranks that change while nodes are queued.", "anchors": ["cpp/src/hub/solver/bfws.hh:124-260", "skdecide/hub/solver/bfws/bfws.py:113-118"]}
{"id": "C94", "title": "Multi-skill scheduling: checking a staffed schedule", "statement": "For a solution that has a time and an existing mode for every task, the check answers true exactly when every task has recorded workers whose recorded skills reach the levels its mode needs, every recorded worker is present during the whole task, no worker is recorded on two tasks that overlap, the tasks running at any time before the end of the sink use at most what is available of every resource, the non-renewable resources suffice for all tasks together, and no task starts before its predecessors end. When teams are recorded for the tasks that need skills the answer is always true or false.", "quantifier": "all multi-skill problems and solutions, any numbers of tasks, workers, skills, resources and times", "why_tests_cant": "The check is a nest of loops over tasks, skills, workers, times and resources; equivalence with the constraints must hold for all of them.", "anchors": ["skdecide/builders/discrete_optimization/rcpsp_multiskill/rcpsp_multiskill.py:469-559"]}
{"id": "C95", "title": "Multi-skill scheduling: generation scheme", "statement": "For any order of the tasks, choice of modes and order of workers for each task, the generated schedule always exists when the data are complete. When it gives the sink a time that is not the marker, it contains every task exactly once, for the length of its mode, before the horizon, respects every constraint of the check (so the check accepts it) and gives one worker per task when the problem says so. When it was stopped, the tasks placed so far respect precedences, renewable resources, skills, presence and one place per worker.", "quantifier": "all problems, permutations, modes and worker priorities", "why_tests_cant": "Depends on all orders, modes, calendars and teams; feasibility comes from an invariant of the remaining availability of resources and workers.", "anchors": ["skdecide/builders/discrete_optimization/rcpsp_multiskill/rcpsp_multiskill.py:122-303"]}
{"id": "C96", "title": "Multi-skill scheduling: priorities and copies", "statement": "The encoding read from a schedule orders the tasks by start, keeps the modes and lists for every task all workers, those of its team first. A permutation of all pairs of task and worker is turned into ranks that order the workers of each task as the permutation does. A variant or copy of a problem has the same tasks, resources, skills and workers, its source and sink being the tasks with least and largest numbers.", "quantifier": "all problems, schedules and permutations", "why_tests_cant": "Quantified over all schedules and permutations, ties included.", "anchors": ["skdecide/builders/discrete_optimization/rcpsp_multiskill/rcpsp_multiskill.py:45-65", "skdecide/builders/discrete_optimization/rcpsp_multiskill/rcpsp_multiskill.py:586-609", "skdecide/builders/discrete_optimization/rcpsp_multiskill/rcpsp_multiskill.py:728-736"]}
{"id": "C97", "title": "What CP large neighbourhood search returns", "statement": "LNS_CP.solve_lns returns the initial solutions, first and with their fitnesses, followed by solutions found in the rounds; every solution found by a round that did not fail is in the result and no other; rounds that find nothing or raise change nothing; the best solution of the result is never worse than the best initial one and, when a solution has one fitness, is the best of everything seen. A result comes whenever the constraint handler accepts the stores it gets. With skip_first_iteration the first round plays the role of the initial solutions.", "quantifier": "for all solvers, post-processing, constraint handlers, clocks, numbers of rounds, limits, both senses and all initial stores with at least one solution", "why_tests_cant": "The solver is an external program whose answers differ from run to run; a test sees one sequence of answers, the claim is about every sequence, including failures in the middle.", "anchors": ["skdecide/builders/discrete_optimization/generic_tools/lns_cp.py:51-151", "skdecide/builders/discrete_optimization/generic_tools/result_storage/result_storage.py:51-69"]}
{"id": "C98", "title": "When CP large neighbourhood search stops", "statement": "LNS_CP.solve_lns runs exactly until the given number of rounds is done, the time limit is passed after a round, or more than nb_iteration_no_improvement rounds in a row brought no solution better than all before; it stops neither earlier nor later.", "quantifier": "for all sequences of round results, limits, clocks, both senses", "why_tests_cant": "The counter is updated in six branches and an exception handler; whether they agree with the documented meaning on every sequence of better, equal, worse, empty and failing rounds is not settled by samples.", "anchors": ["skdecide/builders/discrete_optimization/generic_tools/lns_cp.py:78-139"]}
{"id": "C99", "title": "MILP large neighbourhood search", "statement": "LNS_MILP.solve_lns returns the initial solutions followed by everything found in the rounds, each round being solved under constraints made from the result of the round before; it always returns when each round finds a solution and stops after the given number of rounds, when time is up, or after more than nb_iteration_no_improvement rounds that found exactly the best fitness known.", "quantifier": "for all solvers, post-processing, constraint handlers, clocks, numbers of rounds, limits, both senses and all initial stores with at least one solution", "why_tests_cant": "As for C97; in addition the ways in which the stopping rule departs from its documentation show only on particular sequences of rounds.", "anchors": ["skdecide/builders/discrete_optimization/generic_tools/lns_mip.py:67-136"]}
{"id": "C100", "title": "The MCTS search graph describes the domain", "statement": "After any sequence of calls of solve the states explored by the MCTS solver are reachable from the states asked for and connected to them by recorded outcomes; the actions recorded in a state are its applicable actions; the outcomes recorded for an action are exactly the next states of its distribution, each once, with its total probability and its reward; parents are exact; the terminal flag is the one of the domain except on states asked for; an action has outcomes exactly when it has been visited.", "quantifier": "for all domains with positive probabilities, options, draws, iteration orders, clocks, rollout policies and sequences of calls", "why_tests_cant": "The search is random and its graph depends on every earlier draw; a test sees a few seeds of a few domains, the claim is about every sequence of draws, every hash order and every domain.", "anchors": ["cpp/src/hub/solver/mcts.hh:138-430", "cpp/src/hub/solver/mcts.hh:751-865", "cpp/src/hub/solver/mcts.hh:1024-1058"]}
{"id": "C101", "title": "MCTS always returns", "statement": "With a rollout policy that has an action for every state, solve returns from any state after any earlier calls; it makes exactly rollout_budget rollouts unless the time budget is used up before, and no rollout starts after that; no explored state is forgotten.", "quantifier": "for all domains, options, draws, clocks, budgets, states and earlier calls", "why_tests_cant": "The search is random and its graph depends on every earlier draw; a test sees a few seeds of a few domains, the claim is about every sequence of draws, every hash order and every domain.", "anchors": ["cpp/src/hub/solver/mcts.hh:1024-1058"]}
{"id": "C102", "title": "The action MCTS answers", "statement": "After a call of solve from a state that is not terminal and has applicable actions, with at least one rollout and a positive depth, the solution is defined for that state; get_best_action returns an applicable action that has been tried and no tried action has a larger average; get_best_value is its average. policy() lists exactly the states with a tried action, each once, with such an action and its value.", "quantifier": "for all domains, options, draws, clocks, budgets, states and earlier calls", "why_tests_cant": "The search is random and its graph depends on every earlier draw; a test sees a few seeds of a few domains, the claim is about every sequence of draws, every hash order and every domain.", "anchors": ["cpp/src/hub/solver/mcts.hh:687-745", "cpp/src/hub/solver/mcts.hh:1061-1130"]}
{"id": "C103", "title": "MCTS values respect the bounds of the rewards", "statement": "When no reward can lift a discounted future worth B above B (or push it below), every visited state and action, and the value answered, stays at most (at least) B, whatever the mixture of averages, heuristic values and partial simulations.", "quantifier": "for all domains, bounds, discounts, heuristics, draws and calls", "why_tests_cant": "The bound has to survive arbitrarily many running averages and updates through several parents; a run shows particular values.", "anchors": ["cpp/src/hub/solver/mcts.hh:764-810", "cpp/src/hub/solver/mcts.hh:847-864"]}
{"id": "C104", "title": "MCTS planning online with node garbage", "statement": "Asked for actions in any sequence of non-terminal states with applicable actions, the solver with online_node_garbage always answers with an applicable action; after each answer its graph is exactly what is connected to the last state and still describes the domain, so nothing that is kept refers to something removed.", "quantifier": "for all domains, options, draws, clocks, positive budgets and sequences of states, with and without continuous planning", "why_tests_cant": "Dangling references appear only for particular shapes of shared sub-graphs and orders of questions.", "anchors": ["cpp/src/hub/solver/mcts.hh:1070-1098", "cpp/src/hub/solver/mcts.hh:1198-1239", "skdecide/hub/solver/mcts/mcts.py:157-178"]}
{"id": "C105", "title": "BEE2 features of gym states", "statement": "On an observation space made of Boxes and nested tuples of Boxes, GymWidthDomain.bee2_features succeeds for every sequence of NaN-free states and feature resets and every fidelity; it returns exactly fidelity features per variable; the first is the number of the first band of the range seen so far containing the value (a value outside the range opens a new band), the following ones refine that band in the same way. At fidelity one the feature of a variable is a fixed function of its value between two resets and each feature value is a convex set of values. (Findings: from fidelity two on the same state evaluated twice has two different feature vectors; a NaN raises RuntimeError; spaces with a Discrete component raise at the first call.)", "quantifier": "for all nested Box spaces, fidelities and sequences of states and resets", "why_tests_cant": "The encoder is an adaptive tree whose answers depend on the whole history of evaluated states; tests see a few histories.", "anchors": ["skdecide/hub/domain/gym/gym.py:239-261", "skdecide/hub/domain/gym/gym.py:345-437"]}
{"id": "C106", "title": "BEE1 features of gym states", "statement": "On an observation space made of Boxes and nested tuples of Boxes, GymWidthDomain.bee1_features succeeds for every sequence of states and feature resets; it returns exactly fidelity features per variable: the signed number of the band, between successive records of the distance to the initial value, that contains the value, then the same inside the band. At fidelity one the feature of a variable is a fixed monotone function of its value between two resets, zero for the initial value. (Findings: from fidelity two on the same state evaluated twice has different features and the vectors are not ordered like the values; dictionary observations raise ValueError.)", "quantifier": "for all nested Box spaces, fidelities and sequences of states and resets", "why_tests_cant": "Monotonicity and stability quantify over every pair of evaluation moments in every history.", "anchors": ["skdecide/hub/domain/gym/gym.py:239-343"]}
{"id": "C107", "title": "Binary features of gym states", "statement": "For every observation space without dictionaries, GymWidthDomain.binary_features returns, for every element whose float cells are not minus zero, a bit vector whose length depends only on the space, and two elements with the same bit vector are equal. (Findings: minus zero is encoded with one bit more than every other float; dictionary observations raise ValueError.)", "quantifier": "for all spaces without dictionaries and all their elements", "why_tests_cant": "Injectivity and constant width range over all elements of arbitrarily nested spaces and all float bit patterns.", "anchors": ["skdecide/hub/domain/gym/gym.py:447-517"]}
{"id": "C108", "title": "Discretised gym actions", "statement": "For a Discrete or MultiDiscrete action space or nested non-empty tuples of them, the applicable actions of GymDiscreteActionDomain are exactly the elements of the space, each once; for a Box with one bounded cell and a discretization factor of at least two they are that many evenly spaced values from the lower to the upper bound; a branching factor b keeps exactly min(b, number) of them, without repetition. (Findings: for a Box vector of several cells only the first cell is assigned, the others being uninitialised memory; boxes of other dimensions and MultiBinary spaces raise TypeError; dictionaries give None; a factor of one gives NaN.)", "quantifier": "for all discrete spaces, bounds, discretization and branching factors", "why_tests_cant": "Completeness and absence of duplicates range over all nested spaces.", "anchors": ["skdecide/hub/domain/gym/gym.py:590-670"]}
{"id": "C109", "title": "Deterministic gym domain as a planning model", "statement": "Whatever the order in which states received from a DeterministicGymDomain are expanded with get_next_state, each state obtained is the one a fresh environment reaches with the same sequence of actions: same observation, same terminal status, and the transition value read with it is the reward of that transition. This holds both when the environment is copied and when one environment is shared through set_state and get_state functions whose snapshots determine its behaviour. (Findings: with snapshots that omit part of the environment, expanding one state twice gives different results; snapshots that are numpy arrays raise ValueError, as in examples/gym_line_control.py; the transition value ignores the state and action it is asked for.)", "quantifier": "for all deterministic environments, lawful snapshot functions and sequences of expansions", "why_tests_cant": "The claim is about aliasing of mutable environments under every interleaving of expansions.", "anchors": ["skdecide/hub/domain/gym/gym.py:679-737"]}
{"id": "C110", "title": "Gym planning domain", "statement": "The states of GymPlanningDomain are those of the wrapped environment; a state is a goal exactly when the number of actions leading to it has reached max_depth or the environment reported the end of the episode and termination_is_goal is set; the state features are reset exactly once for each maximal series of consecutive expansions of states looking like the initial one. (Findings: the reward accumulated in a state lacks the reward of the transition leading to it; states that compare equal may differ on being goals.)", "quantifier": "for all deterministic environments and sequences of expansions", "why_tests_cant": "Depth, goals and resets depend on the whole history of expansions.", "anchors": ["skdecide/hub/domain/gym/gym.py:788-856"]}
{"id": "C111", "title": "Reproducible episodes of a gym environment", "statement": "After a first reset, any sequence of resets, steps and memory settings of a DeterministicInitializedGymDomain gets exactly the replies of fresh episodes of the environment: every reset returns the same state and restarts the same episode, and setting the memory to any state received before restarts the episode as well. (Finding: set_memory therefore never puts the domain into the state it is given, and the next reset returns that state although the environment is in its initial state.)", "quantifier": "for all deterministic environments, lawful snapshot functions and sequences of calls", "why_tests_cant": "Reproducibility must survive every interleaving of in-place steps and copies.", "anchors": ["skdecide/hub/domain/gym/gym.py:149-210"]}
{"id": "C112", "title": "Equality and hash of gym states", "statement": "Two NaN-free observations of one gym space, wrapped as GymDomainStateProxy, compare equal exactly when they are equal; equality is symmetric and transitive and equal states have equal hashes; on spaces without MultiDiscrete components the comparison used by the planning domain agrees with it. (Findings: a state with a NaN differs from itself; nesting and dictionary keys are forgotten while dictionary order counts; comparing a state with another kind of object raises AttributeError; MultiDiscrete observations raise RuntimeError in the planning domain.)", "quantifier": "for all nested gym spaces and their elements", "why_tests_cant": "Planners key their tables on these states; injectivity ranges over all pairs of elements of all nested spaces.", "anchors": ["skdecide/hub/domain/gym/gym.py:78-103", "skdecide/hub/domain/gym/gym.py:760-781"]}
{"id": "C113", "title": "Domains as gym environments", "statement": "A gym environment wrapped as a GymDomain and back with AsGymEnv is indistinguishable from itself under every sequence of calls, except that a missing info becomes an empty one; with list spaces, a step with the code of an action performs that action and returns the code of the observation. (Finding: reset returns the raw observation instead of its code.)", "quantifier": "for all environments, domains and sequences of calls", "why_tests_cant": "Indistinguishability quantifies over every sequence of calls.", "anchors": ["skdecide/hub/domain/gym/gym.py:31-58", "skdecide/hub/domain/gym/gym.py:859-932"]}
{"id": "C114", "title": "POMCP decisions never fail internally", "statement": "On a domain whose transitions never raise, whose states have applicable actions and whose costs lie between 0 and twice the depth bound, every decision of a POMCP episode answers an action of the action space or None, or raises ValueError; it raises exactly when none of the observations drawn for any particle equals the observation received. (Finding: costs above twice the depth bound make an assertion fail.)", "quantifier": "for all domains, random draws, initial beliefs, observation sequences, iteration and depth bounds", "why_tests_cant": "The tree depends on thousands of random draws; a run exercises one stream of them.", "anchors": ["skdecide/hub/solver/pomcp/pomcp.py:52-81", "skdecide/hub/solver/pomcp/pomcp.py:102-182"]}
{"id": "C115", "title": "POMCP statistics and answers", "statement": "At every point of an episode each history counts its simulations exactly, its value is the average of their costs, and the action answered is the first one with the least average among the known actions of the current history; with more iterations than actions and a moderate exploration term, all known actions were simulated before the first answer. (Findings: an unsimulated action has average zero and wins otherwise; None is answered when all averages reach the depth penalty; reaching the goal is noticed one step late because simulations observe the state before the action.)", "quantifier": "for all domains, random draws, histories and numbers of iterations", "why_tests_cant": "Average and counter updates are incremental over arbitrarily many backups of a growing tree.", "anchors": ["skdecide/hub/solver/pomcp/pomcp.py:102-167"]}
{"id": "C116", "title": "POMCP belief", "statement": "During an episode the belief keeps its number of particles and every particle is reachable from an initial particle along the actions and observations received, each observation being possible in the state before the last action takes effect. (Findings: the environment observes the state after the action, so with a belief that is exactly right the second decision can raise ValueError; the first decision asks the domain for the outcome of the action None.)", "quantifier": "for all domains, random draws, initial beliefs and observation sequences", "why_tests_cant": "The claim ranges over all histories and all resampling draws.", "anchors": ["skdecide/hub/solver/pomcp/pomcp.py:31-68", "skdecide/hub/solver/pomcp/pomcp.py:86-100", "skdecide/hub/solver/pomcp/pomcp.py:189-202"]}
{"id": "C117", "title": "Python states as keys of the C++ solvers", "statement": "In the hash tables of the C++ solvers, hashable Python states (numbers, texts, instances of classes that follow the rule on __eq__ and __hash__, and tuples of those) are merged exactly when they are equal in Python, except that an integer on the left is not recognised in a float on the right, and equal ones always share their hash; lists and tuples of integers and texts are recognised exactly; numpy arrays of a handled element type stored without gaps are hashed by their elements and equal arrays share their hash. (Findings: 1 and 1.0 compare differently depending on the order; equal dictionaries filled in different orders, and equal lists mixing integers and floats, get different hashes; instances of classes that only define __repr__ compare equal but hash by identity; a tuple containing a list and a boolean array cannot be hashed; a strided view is hashed by memory that is not its elements.)", "quantifier": "for all Python values of these kinds, class definitions and hash functions", "why_tests_cant": "Merging errors appear only for particular pairs of values and hash collisions.", "anchors": ["cpp/src/utils/python_hash_eq.hh:26-114", "cpp/src/utils/python_container_adapter.hh:153-202", "cpp/src/utils/python_container_adapter.hh:229-249", "cpp/src/utils/python_container_adapter.hh:326-329"]}
{"id": "C118", "title": "Scheduling problem translated to a domain and back", "statement": "Translating a discrete-optimisation RCPSP into a scheduling domain and back always succeeds for well-formed problems and returns the same tasks, modes, durations, needs, precedences, horizon and non-renewable resources; constant capacities are the same, calendars the same up to the horizon, and when calendars are dropped the capacity becomes the largest value of the calendar. A complete schedule within the horizon is accepted by the result exactly when the original accepts it, and without calendars whatever was accepted stays accepted. (Findings: the horizon multiplier is lost so the schedule generation may give up; a calendar shorter than the horizon raises IndexError; without calendars infeasible schedules are accepted; a single-mode problem whose mode is not number 1 raises KeyError; a single-mode problem comes back as a multi-mode one.)", "quantifier": "for all problems with any numbers of tasks, modes and resources, and all complete schedules", "why_tests_cant": "A round trip on some instances does not show that no need, capacity or precedence is changed on others.", "anchors": ["skdecide/hub/solver/do_solver/sk_to_do_binding.py:26-112", "skdecide/hub/solver/do_solver/sk_to_do_binding.py:167-216", "skdecide/hub/domain/rcpsp/rcpsp_sk.py:16-173", "skdecide/builders/scheduling/scheduling_domains.py:199-229", "skdecide/builders/scheduling/graph_toolbox.py:66-91"]}
{"id": "C119", "title": "Problem built from a scheduling domain decides the feasibility of the domain", "statement": "For a single-mode, multi-mode or calendar scheduling domain with tasks 1 to n+2 and a constant consumption given for every resource, the discrete-optimisation problem built from it accepts a complete schedule exactly when, in the terms of the domain, precedences hold, the running tasks never need more than the available quantity, and the non-renewable resources suffice. (Findings: a consumption that varies over time is read at its first step only; a mode that leaves out the resources it does not use makes the check raise KeyError; multi-mode domains with uncertain durations are translated to None; the need of a resource called \"duration\" is replaced.)", "quantifier": "for all supported domains, mode choices and complete schedules (within the horizon for calendars)", "why_tests_cant": "The agreement of two feasibility notions quantifies over all schedules.", "anchors": ["skdecide/hub/solver/do_solver/sk_to_do_binding.py:26-112", "skdecide/builders/scheduling/modes.py:31-72", "skdecide/builders/discrete_optimization/rcpsp/rcpsp_model.py:540-640"]}
{"id": "C120", "title": "Solution built from the last state of a simulation", "statement": "When every task of the simulation has started and ended, the solution has the schedule of the state, each task's mode at its position (1 when none is recorded) and a permutation of all the tasks by start time; the feasibility check accepts it exactly when the simulated schedule is feasible in the domain. (Findings: with tasks numbered from 0 the permutation contains -2 and lacks a task; without the source it raises ValueError; in an unfinished schedule a started task is dropped in place of the sink.)", "quantifier": "for all domains with tasks 1..n+2 and all final states", "why_tests_cant": "Index shifts between tasks, modes and permutation must be right for every size.", "anchors": ["skdecide/hub/solver/do_solver/sk_to_do_binding.py:14-23", "skdecide/builders/discrete_optimization/rcpsp/rcpsp_model.py:31-69", "skdecide/builders/discrete_optimization/rcpsp/rcpsp_model.py:106-111"]}
{"id": "C121", "title": "Stochastic versions of RCPSP domains", "statement": "The stochastic version of a deterministic RCPSP keeps resources, tasks, modes and precedences and doubles the horizon; every duration gets a probability distribution: unchanged for tasks without duration or not to be noised, otherwise exactly the values within 10 of it that are at least 1, with mean equal to it from 11 on and never below it. Each instance drawn has the needs, amounts and precedences of the original and durations from the distributions; with renewable resources only, it has the same feasible schedules, durations apart. (Findings: non-renewable resources become renewable, so instances accept schedules that overuse them; the doubled horizon can be shorter than one task; short durations get a mean more than twice as long.)", "quantifier": "for all deterministic domains, sets of noised tasks, draws and schedules", "why_tests_cant": "Distributions and draws are random and range over all domains.", "anchors": ["skdecide/hub/domain/rcpsp/rcpsp_sk.py:183-285", "skdecide/builders/scheduling/scheduling_domains.py:1268-1285", "skdecide/builders/scheduling/resource_renewability.py:49-63"]}
{"id": "C122", "title": "Integer programs of the knapsack solvers", "statement": "When the labels of the items increase, every admissible solution of the integer program built for a knapsack is read back as a choice of items that fits, with its true value and weight; every choice that fits is the reading of such a solution; and an optimal solution is read back as a choice of greatest value. The two program builders pose the same program, and the OR-Tools wrapper reads back exactly the items its engine selected, with their value and weight. (Findings: with labels in another order the choice is attached to the wrong items and may overflow while still being declared feasible; two items with one label make the answer too short to be evaluated.)", "quantifier": "for all knapsacks and all admissible or optimal assignments of the program", "why_tests_cant": "A test fixes one engine, one answer and a few instances; equivalence of program and problem is about all solutions.", "anchors": ["skdecide/builders/discrete_optimization/knapsack/solvers/lp_solvers.py:32-107", "skdecide/builders/discrete_optimization/knapsack/solvers/lp_solvers.py:176-232", "skdecide/builders/discrete_optimization/knapsack/solvers/lp_solvers.py:255-328", "skdecide/builders/discrete_optimization/knapsack/solvers/lp_solvers.py:388-423"]}
{"id": "C123", "title": "Integer programs of the facility location solvers", "statement": "When set-up costs and capacities are not negative, every admissible solution of the integer program built for facility location is read back as a plan that respects all capacities, uses only the pairs kept by the pruning and costs at most the objective; every such plan is read back from a solution of the same cost; an optimal solution is read back as a cheapest plan among those kept, and, without pruning, as a cheapest plan altogether. A round of the large neighbourhood search from a kept plan answers with a cheapest plan that does not move the fixed customers, hence one not dearer than the current plan. (Findings: pruning can leave no solution although there is a plan; a round started from a plan that uses a pruned pair may have no solution; with python-mip the rounds fix nothing.)", "quantifier": "for all facility problems, service costs, pruning sizes, argsort functions, current plans, fixed customers and assignments of the program", "why_tests_cant": "Optimality and equivalence quantify over every plan; tests only see the answer of one engine on few instances.", "anchors": ["skdecide/builders/discrete_optimization/facility/solvers/facility_lp_solver.py:16-139", "skdecide/builders/discrete_optimization/facility/solvers/facility_lp_solver.py:155-192", "skdecide/builders/discrete_optimization/facility/solvers/facility_lp_solver.py:244-312", "skdecide/builders/discrete_optimization/facility/solvers/facility_lp_solver.py:414-539"]}
{"id": "C124", "title": "Integer program of the graph colouring solvers", "statement": "When the nodes are named by the numbers from 0, every admissible solution of the integer program built from a start colouring is read back as a proper colouring within the palette of the start solution whose colour numbers are all below the objective; every proper colouring by the first m colours of that palette is read back from a solution with objective m; an optimal solution uses as few colours as any proper colouring; and a proper start colouring guarantees that the program has a solution, with or without the clique cuts. (Finding: with other node names building the program raises KeyError.)", "quantifier": "for all graphs, start colourings, families of cliques, edge orders and assignments of the program", "why_tests_cant": "Equivalence and optimality quantify over all colourings and all engine answers.", "anchors": ["skdecide/builders/discrete_optimization/coloring/solvers/coloring_lp_solvers.py:36-132", "skdecide/builders/discrete_optimization/coloring/solvers/coloring_lp_solvers.py:153-234"]}
{"id": "C125", "title": "Integer program of multi-mode project scheduling", "statement": "Every admissible solution of the integer program built for a project with several modes, with or without a partial solution, is read back as a complete schedule with existing modes that runs each task for the length of its mode, respects precedences, renewable capacities and non-renewable totals, starts tasks at the requested times and in the requested orders, and ends at the objective. Every feasible schedule that ends before the last start time and honours the partial solution is read back from a solution with its makespan as objective. An optimal solution is read back as a schedule of least makespan; with the start times taken from a feasible start schedule the program always has a solution; and these schedules are those the problem accepts as satisfied. (Findings: from an infeasible start schedule the start times are one too few, so that a solvable project can have an unsolvable program; the modes and end times of a partial solution are ignored.)", "quantifier": "for all complete instances (constant or calendar capacities), horizons, partial solutions, schedules and assignments of the program", "why_tests_cant": "Equivalence of program and problem and optimality quantify over all schedules and all engine answers.", "anchors": ["skdecide/builders/discrete_optimization/rcpsp/solver/rcpsp_lp_solver.py:254-358", "skdecide/builders/discrete_optimization/rcpsp/solver/rcpsp_lp_solver.py:370-387", "skdecide/builders/discrete_optimization/rcpsp/solver/rcpsp_lp_solver.py:458-544", "skdecide/builders/discrete_optimization/rcpsp/solver/rcpsp_lp_solver.py:613-631", "skdecide/builders/discrete_optimization/rcpsp/rcpsp_model.py:456-469"]}
{"id": "C126", "title": "Integer program of single-mode project scheduling", "statement": "For a project without non-renewable resources and with constant capacities, every admissible solution of the single-mode integer program is read back as a feasible schedule, all tasks in mode 1, whose makespan is the objective and not later than the start schedule; every feasible schedule not later than the start schedule is read back from a solution; an optimal solution is read back as a schedule of least makespan. (Findings: non-renewable resources are treated as renewable, so that a schedule returned as feasible may be rejected by the problem; any partial solution makes the builder raise AttributeError.)", "quantifier": "for all complete instances with constant renewable capacities, makespans of the start schedule and assignments of the program", "why_tests_cant": "Equivalence of program and problem and optimality quantify over all schedules and all engine answers.", "anchors": ["skdecide/builders/discrete_optimization/rcpsp/solver/rcpsp_lp_solver.py:68-163", "skdecide/builders/discrete_optimization/rcpsp/solver/rcpsp_lp_solver.py:174-186"]}
{"id": "C127", "title": "Integer program of the iterative TSP solver", "statement": "For a graph whose weights are the distances: every tour in the graph is a solution of the program built by the solver, with its length as objective, and stays one whatever connected components were cut off; every solution whose edges hang together is a tour of that length; when the edges of a solution fall apart, the constraints posted for any component exclude that solution and no tour. The complete graph builder gives all edges when different nodes are apart (or ties are sorted by number); the pruned graph builder gives a symmetric graph without loops that contains a tour. (Finding: for a closed tour through two cities the program has no solution.)", "quantifier": "for all instances with an intermediate node (two of them for closed tours), graphs, sets cut off, tours and assignments", "why_tests_cant": "Equivalence of program and tours quantifies over all tours, graphs and engine answers.", "anchors": ["skdecide/builders/discrete_optimization/tsp/solver/solver_lp_iterative.py:20-102", "skdecide/builders/discrete_optimization/tsp/solver/solver_lp_iterative.py:135-285", "skdecide/builders/discrete_optimization/tsp/solver/solver_lp_iterative.py:342-350"]}
{"id": "C128", "title": "Iterative TSP solver returns tours, and optimal ones", "statement": "With an engine that returns a solution of every solvable program, on a graph with edges both ways, no loops and some tour, the solver never fails and returns a valid tour together with its length, whatever the iteration limit. If the last solution was connected and the engine exact, no tour in the graph is shorter; with at least two to the number of edges iterations this is always the case. On a complete graph the comparison is with all tours. (Finding: when stopped at the iteration limit the repaired tour may be longer than another one, even with an exact engine.)", "quantifier": "for all instances, graphs, engines, enumeration orders of sets and iteration limits", "why_tests_cant": "Termination of the cutting loop, validity of the repair and optimality quantify over all instances and all answers of the engine.", "anchors": ["skdecide/builders/discrete_optimization/tsp/solver/solver_lp_iterative.py:287-436", "skdecide/builders/discrete_optimization/tsp/solver/solver_lp_iterative.py:439-571"]}
{"id": "C129", "title": "Robust problem aggregates the scenarios", "statement": "The value of a solution in a robust problem has the objectives of the first scenario, each the aggregate of the numbers all scenarios give. Minimum, maximum, mean, median and percentiles stay within the range of the scenarios, are what their names say (the fiftieth percentile is the median, percentiles grow with the percentage), do not depend on the order of the scenarios, and together with non-negative weights never rank a solution worse that is no worse in each scenario. Evaluation succeeds when every scenario knows the objectives. (Findings: acceptability is asked of the first scenario only; with the default weights the weighted sum never works.)", "quantifier": "for all lists of scenarios, solutions and aggregation methods", "why_tests_cant": "Order, monotonicity and range statements quantify over all vectors of values of any length.", "anchors": ["skdecide/builders/discrete_optimization/generic_tools/do_problem.py:127-191"]}
{"id": "C130", "title": "Aggregated scheduling problem evaluates fresh schedules", "statement": "The makespan of a solution in the aggregated scheduling problem is the aggregate of the makespans of the schedules that the serial scheme builds for its permutation and modes in each scenario, whatever schedule the solution carries, and the solution is left unchanged, when its modes exist in every scenario; it always succeeds on complete scenarios. Assigning a new permutation has the schedule rebuilt. (Findings: through the plain robust problem a solution keeps its schedule in all scenarios; assigning new modes keeps the old schedule; a scenario without a mode of the solution rewrites the modes of the solution and makes the value depend on the order; acceptability of a solution made for the aggregated problem raises.)", "quantifier": "for all scenarios, permutations, modes, cached schedules and aggregation methods", "why_tests_cant": "Quantifies over all scenario sets and histories of the solution object.", "anchors": ["skdecide/builders/discrete_optimization/rcpsp/rcpsp_model.py:25-95", "skdecide/builders/discrete_optimization/rcpsp/rcpsp_model.py:518-532", "skdecide/builders/discrete_optimization/rcpsp/rcpsp_model.py:874-930"]}
{"id": "C131", "title": "Single problem standing for the scenarios", "statement": "The single problem made out of the scenarios has every length and need between the smallest and the largest of the scenarios. A plan that is feasible for the problem of the maxima can be carried out in every scenario, and every plan of a scenario is feasible for the problem of the minima, where no task ends later, provided the scenarios have the same resources, precedence, tasks, modes and names. It can be built for all such scenarios. (Findings: means are rounded down, so a plan for the mean problem may fail in all scenarios; capacities are those of the first scenario.)", "quantifier": "for all sets of scenarios, mode choices and start times", "why_tests_cant": "Feasibility is transferred for all plans and all scenarios.", "anchors": ["skdecide/builders/discrete_optimization/rcpsp/rcpsp_model.py:893-903"]}
{"id": "C132", "title": "Uncertain project: worst and best cases", "statement": "The laws built around a project contain the nominal values (lengths of at least one, needs within capacity). Source, sink, non-renewable needs and what has no law are never changed; drawn, average, best and worst values stay in their range, best and worst being its ends. A plan for the worst case can be carried out whatever values are drawn, and every plan of a drawn project is a plan for the best case. (Findings: the percentile project may need more than the worst case; a task of length zero becomes longer even in the best case, and with range zero cannot be built.)", "quantifier": "for all projects without negative needs, ranges, non-negative probabilities, draws and plans", "why_tests_cant": "Robustness is claimed for all random draws and plans.", "anchors": ["skdecide/builders/discrete_optimization/rcpsp/rcpsp_model.py:933-1087"]}
{"id": "C133", "title": "Travelling thief: what a solution is worth", "statement": "Evaluating a round trip writes in the solution the profit and the weight of the items taken along it, its length, its duration (each leg at the speed allowed by the load carried on it) and the room left; the objective is profit minus rent times duration and is what the call returns. With positive speeds and room for the items, the evaluation succeeds and the duration lies between those at the highest and lowest speeds; taking more items on the same tour never shortens the trip; without items it is run at full speed. The detailed evaluation agrees and gives the load leaving each city. Open tours are refused, and so are all tours of the form the problem declares. (Findings: overweight solutions are said satisfactory, may get negative durations and an objective above the profit, or divide by zero; items may be taken where they are not; a city met twice pays twice.)", "quantifier": "for all problems, tours, packings and distance functions", "why_tests_cant": "Values and monotonicity are claimed for all tours and packings, of any size.", "anchors": ["skdecide/builders/discrete_optimization/ttp/ttp_model.py:42-120", "skdecide/builders/discrete_optimization/ttp/ttp_model.py:154-229"]}
{"id": "C134", "title": "Parallel domains answer each job with its own result", "statement": "Client threads launch jobs on the domains of a pipe parallel domain and ask for the results; workers run in processes of their own and take turns in any order. As long as no domain is used by two threads at a time, the results returned for a domain are those of its jobs, in launching order, computed by one sequential domain that keeps its state from job to job; at most one job is unanswered. Without notifications, a thread asking for a result can always come to the end of the call. A domain is marked active only while it is used or after a job could not be sent. (Findings: a job that raises is answered None; with notifications, asking for the result of a job that raised never ends; a failed launch leaves the domain marked active for ever; two threads asking for a free domain may get the same one, and one of them None.)", "quantifier": "for all domains, jobs, numbers of workers and threads, and interleavings", "why_tests_cant": "Tests see a few schedules of the processes; the claim is over all interleavings of any length.", "anchors": ["skdecide/domains.py:364-428", "skdecide/domains.py:502-608"]}
{"id": "C135", "title": "Shared-memory domains pass arguments and results unchanged", "statement": "With a proxy that decodes what it encoded and registers enough, a job launched on a shared-memory domain is run on exactly the arguments given, and asking for the result gives what the job returned (a list for a tuple), whatever is launched and served on other domains meanwhile; arguments without registers enough are refused. Results of a type met several times are claimed for types of one array only. (Findings: a job that raises is answered with its own arguments; two results of a type of several arrays overlap and cannot be read; a result without register is dropped with what follows; a tuple starting with None is answered None; too many results may overwrite the registers of another domain.)", "quantifier": "for all declarations of types, proxies, jobs, values and interleavings of launches and rounds on other domains", "why_tests_cant": "The absence of overlap between registers is claimed for every declaration and every mix of argument types.", "anchors": ["skdecide/domains.py:620-696", "skdecide/domains.py:699-807"]}
{"id": "C136", "title": "Hindsight planning gives the action of least weighted cost", "statement": "On a new hindsight planner, asking for the first action in a state gives an action that some scenario plans to begin with, of least weighted sum over scenarios of its cost (the cost of the plan when the scenario begins with it, otherwise one step plus a plan from there), and the table holds exactly these sums; this holds for every order of set iteration, provided no scenario has an action leaving the state unchanged. With reuse of plans, all answers along growing histories are right, and asking again right away changes nothing. (Findings: without reuse, a second question about the same state is answered wrongly; a self-loop, or two actions leading a scenario to the same state, count a plan twice and give wrong answers.)", "quantifier": "for all sets of scenarios, costs, weights, planners, states and sequences of questions", "why_tests_cant": "Double counting depends on which states scenarios share and on the history of questions; tests see a few.", "anchors": ["skdecide/hub/solver/_hindsight/hindsight.py:21-118"]}
{"id": "C137", "title": "Generic mutations change what was drawn, can be undone, and report the right objectives", "statement": "The bit flip inverts exactly the bits whose drawn number is at most the probability, keeps bits bits, and undoing gives the old list back; without a named attribute it takes the first one declared as a list of booleans. The integer mutation gives a new value between one and the arity to exactly the entries drawn, and any value can come. A portfolio delegates to each mutation with a probability in proportion to its weight. The catalogue offers exactly the mutations of the declared types, none twice. Objectives reported with a mutation are those of the solution returned, for a knapsack that is not yet evaluated or always recomputes, for shuffled permutations, and for modes when evaluated afterwards. (Findings: the bit flip of an evaluated knapsack solution and both mode mutations report the objectives of the old solution; a copy of a solution due for recomputation forgets it.)", "quantifier": "for all lists, registers, arities, weights, random numbers, projects and solutions", "why_tests_cant": "The effect depends on every random draw and on whether values are stored in the solution; tests fix a few seeds.", "anchors": ["skdecide/builders/discrete_optimization/generic_tools/mutations/mutation_bool.py:13-51", "skdecide/builders/discrete_optimization/generic_tools/mutations/mutation_integer.py:14-57", "skdecide/builders/discrete_optimization/generic_tools/mutations/mixed_mutation.py:10-48", "skdecide/builders/discrete_optimization/generic_tools/mutations/mutation_catalog.py:13-63", "skdecide/builders/discrete_optimization/rcpsp/mutations/mutation_rcpsp.py:8-38"]}
{"id": "C138", "title": "The result comparator tabulates the true values of the best solutions", "statement": "After re-evaluation, the row of every storage holds for every objective the value of its best solution in every scenario, in order, for classes of solutions whose evaluation after a change of problem depends on the encoding only; scheduling solutions are such a class when their modes exist in all scenarios. The best by objective is, under the name of each storage, its first pair with the best value in the sense of the storage. The common front of storages that maximise is exactly the set of pairs that no pair of any storage dominates. (Findings: knapsack solutions keep the values of the old problem; re-evaluation alters the stored solutions; a missing mode is replaced for later scenarios as well; a storage listed twice has one row; the common front of storages that minimise is that of the opposite sense.)", "quantifier": "for all storages, objectives, scenarios, solutions", "why_tests_cant": "Solutions are shared and altered while the table is filled; tests see one order of scenarios.", "anchors": ["skdecide/builders/discrete_optimization/generic_tools/result_storage/resultcomparator.py:22-97", "skdecide/builders/discrete_optimization/generic_tools/result_storage/result_storage.py:135-147", "skdecide/builders/discrete_optimization/knapsack/knapsack_model.py:38-42", "skdecide/builders/discrete_optimization/rcpsp/rcpsp_model.py:71-74"]}
{"id": "C139", "title": "Rollout IW gives applicable actions within its budget, and the best one on trees", "statement": "With a simulation domain and without node garbage, after any sequence of searches, clearings and requests: a state for which a solution is declared has a best action, which is applicable; the policy lists exactly these states with that action and the value; a search never follows the pointer of a removed node and reports at most the rollouts of the budget. On a domain whose reachable states form a finite tree, a search that ends before its budgets without pruned state gives the best discounted sum of rewards and an action that starts a best execution. A new node is kept when some combination of at most width features was never seen at its depth or above; a known one when some combination was never seen above it. (Findings: when two paths lead to one state the value can be wrong although the search is complete; a rollout going round known states never ends, whatever the depth bound; a dead end breaks the search; with environment rollouts clearing keeps the replayed actions; removing nodes leaves pointers to them; asking for the action changes the values.)", "quantifier": "for all domains, parameters, clocks, draws, set orders, sequences of calls", "why_tests_cant": "The result depends on the random rollouts and on when the clock stops them; tests run one seed on one maze.", "anchors": ["cpp/src/hub/solver/riw.hh:199-327", "cpp/src/hub/solver/riw.hh:435-492", "cpp/src/hub/solver/riw.hh:523-830", "cpp/src/hub/solver/riw.hh:831-930", "skdecide/hub/solver/riw/riw.py:52-150"]}
{"id": "C140", "title": "The mean resource reserve is the average free share of the capacities", "statement": "For a feasible schedule of all the tasks whose sink ends last, at a positive time, with constant non-zero capacities, the mean resource reserve is the average over the resources of the average over time of the share of the capacity that no running task takes. It equals one minus the average of the work asked of each resource over makespan times capacity, so it does not depend on the order of the tasks, and it lies between 0 and 1; in particular for every schedule the serial generator returns as feasible. An infeasible schedule has reserve 0. (Findings: a non-renewable resource is given back when the task ends, so a resource all spent is still said in reserve; with a makespan of zero or a resource of capacity zero there is no number; when the sink does not come after all the tasks an exception is raised.)", "quantifier": "for all problems, modes, schedules, capacities", "why_tests_cant": "The objective is only compared between solutions; tests do not recompute it, and the relation with the total work needs a sum over any schedule.", "anchors": ["skdecide/builders/discrete_optimization/rcpsp/rcpsp_model.py:113-151"]}
{"id": "C141", "title": "The per-individual plan gives every task its units without double booking", "statement": "For a schedule of all the tasks (fewer than 100000) with the source at time 0 and demands that fit in the capacities when each task starts, distributing the tasks over the individual units of the resources succeeds: every task gets as many different units as its mode needs, each present at its start; no unit does two tasks at a time; at any time as many units are busy as the running tasks need; the table, the rectangles and the total work per unit agree; and each rectangle went to a unit that had worked the least among the free ones. A resource that is not consumed beyond its capacity gives no unit twice, so a non-renewable unit is spent once. This holds for every schedule that the serial generator returns as feasible. (Findings: when the demands do not fit, a task silently gets fewer units; with a calendar a task may stay on a unit that is no longer there; when the task that ends first does not start first an exception is raised.)", "quantifier": "for all problems, modes, schedules, capacities and calendars", "why_tests_cant": "The greedy choice never backtracks: that it never runs out of units is a theorem on intervals; tests only draw charts.", "anchors": ["skdecide/builders/discrete_optimization/rcpsp/rcpsp_utils.py:171-273"]}
{"id": "C142", "title": "The resource views show what the running tasks use; the precedence graph bounds every schedule", "statement": "For a schedule of all the tasks and known resources, the consumption view returns the dates 0 to the makespan and per resource the total need of the tasks that run in the period that starts (past view) or ends (future view) at each date; the staircase view lists both values at each date. For a schedule within constant capacities the values stay at or below the capacity, and when no task ends after the makespan they sum to the work asked for. The comparison of two schedules gives the difference of starts for exactly the tasks of the first and fails exactly if one is missing in the second. The graph has one edge per precedence, with the least and the greatest duration over the modes of the first task, and the sum of the least durations along any path never exceeds the distance of the starts in any schedule that respects durations and precedences.", "quantifier": "for all problems, modes, schedules, resource lists and paths", "why_tests_cant": "Off-by-one slices and clipped ends only show on particular schedules; the views are only looked at in charts.", "anchors": ["skdecide/builders/discrete_optimization/rcpsp/rcpsp_utils.py:14-57", "skdecide/builders/discrete_optimization/rcpsp/rcpsp_utils.py:356-388"]}
{"id": "C143", "title": "Moving helper activities next to the activities they serve keeps the schedule feasible and never widens the gap", "statement": "For a feasible schedule of a single-mode problem with constant capacities, needs that are not negative and the sink last, the correction of the helpers succeeds: only helpers move, each only to a later start, the schedule stays feasible (durations, precedences, renewable and non-renewable resources) and the makespan is unchanged. The helpers are handled one by one, the one that starts last first, and each is put at the latest start that its successors and the capacities left by the others allow. The cumulated gap between helpers and main activities is not negative and not larger than before. (Findings: a helper handled early may be blocked by one that leaves later, so the result can still be improved by moving a helper; from a schedule over the capacities a helper can be moved before time 0 without an exception. The corrected schedule is written into the argument as well.)", "quantifier": "for all problems, feasible schedules and sets of helpers", "why_tests_cant": "The search goes backwards over a table indexed with an offset and wraps around for negative times; that it always stops at a feasible place is an invariant over all schedules.", "anchors": ["skdecide/builders/discrete_optimization/rcpsp/rcpsp_model.py:1097-1188", "skdecide/builders/discrete_optimization/rcpsp/rcpsp_model.py:640-651"]}
{"id": "C144", "title": "The generator of problems with helper activities yields a consistent problem that extends the original one", "statement": "From a problem with tasks 1 to n + 2, constant capacities and successor lists without repetition, and for at most n assisted activities, the generator succeeds whatever it draws: the new problem has the tasks 1 to n + 2 + 2k with the sink last and the assistants as an additional resource. Original tasks keep modes and needs, with multiplied durations and no assistant; every helper has one mode with the fixed duration that needs one assistant and nothing else. Every assisted activity, and no other, has one helper before and one after it, all different; the precedences other than those to the sink are exactly the original ones, those of the helpers and the drawn ones from the helper after an activity to the helper before one with a higher number. The sink has no successor and every task leads to it; its direct predecessors are the original ones, with the helper after an assisted activity in its place, and the tasks that would not lead to it otherwise. If numbers follow the precedences, the new problem has no cycle. Any schedule respecting the new precedences respects the original ones. (Findings: the resources of the argument gain the assistants too, because the copy shares the dictionary; if the numbers of the tasks do not follow the precedences, the drawn precedences can close a cycle.)", "quantifier": "for all problems, parameters and draws", "why_tests_cant": "The generator edits successor lists in place in four passes with renumbering; that precedences through the sink survive for every draw needs an invariant over all of them.", "anchors": ["skdecide/builders/discrete_optimization/rcpsp/rcpsp_data_generator.py:6-129", "skdecide/builders/discrete_optimization/rcpsp/rcpsp_model.py:801-807", "skdecide/builders/discrete_optimization/rcpsp/rcpsp_model.py:856-865"]}
{"id": "C145", "title": "Reading a knapsack or coloring instance gives back the numbers that were written", "statement": "For every text in the documented format (a header with two integers, then one line with two integers per announced entry), the knapsack reader returns the announced items in order, numbered from 0, with their values and weights and the capacity, and the coloring reader returns the nodes 0 to n - 1 and the announced edges in order. The number and kind of spaces, further words on a line and further lines do not matter. A knapsack text with fewer lines than announced is refused with IndexError, with or without a final end of line. (Finding: the coloring reader accepts edges to nodes that do not exist.)", "quantifier": "for all numbers of entries, integers, spacings and trailing texts", "why_tests_cant": "Tests read a few files; that every writing of every instance is read back is a statement about all texts.", "anchors": ["skdecide/builders/discrete_optimization/knapsack/knapsack_parser.py:11-28", "skdecide/builders/discrete_optimization/coloring/coloring_parser.py:10-23"]}
{"id": "C146", "title": "Reading a PSPLIB instance gives back the problem that was written", "statement": "In a file whose section titles appear once, the lines of each section are found. For sections written in the PSPLIB format, with different resource names and task numbers, different mode numbers per task and one need per resource and mode, the reader returns the problem with exactly these capacities, non-renewable resources (names that begin with N), successors, modes, durations and needs, and chooses the multi-mode class exactly when a task has more than one mode. (Finding: a line of a task with one number missing is not refused: it is read as another mode of the task before it, and its own task gets no mode.)", "quantifier": "for all numbers of tasks, modes, successors and resources", "why_tests_cant": "The meaning of a line depends on its length and on the lines before it; that this never confuses modes and tasks is a statement about all instances.", "anchors": ["skdecide/builders/discrete_optimization/rcpsp/rcpsp_parser.py:19-101"]}
{"id": "C147", "title": "Reading a facility location or vehicle routing instance gives back what was written", "statement": "For a text in the documented format, whatever the spaces, the words after the ones used and the lines after the last, the facility reader returns the facilities and the customers in order, each kind numbered from 0, with the numbers written on their lines; the vehicle routing reader returns the customers in the same way and as many vehicles as the caller asks for, or else as written, all with the capacity written and the start and end that the caller asked for.", "quantifier": "for all numbers of facilities, customers and vehicles, all spacings, all functions from words to floats", "why_tests_cant": "Rows are found by position and renumbered by an offset; that no row is shifted or taken for another kind is a statement about all instances.", "anchors": ["skdecide/builders/discrete_optimization/facility/facility_parser.py:10-26", "skdecide/builders/discrete_optimization/vrp/vrp_parser.py:13-35"]}
