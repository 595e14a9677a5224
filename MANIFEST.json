{
 "claims": [
  {
   "property": "C01",
   "status": "proved",
   "theorems": [
    "C01_reward_is_minus_cost",
    "C01_given_value_kept"
   ],
   "note": ""
  },
  {
   "property": "C02",
   "status": "proved",
   "theorems": [
    "C02_defaults"
   ],
   "note": ""
  },
  {
   "property": "C03",
   "status": "proved",
   "theorems": [
    "C03_sample_law",
    "C03_every_positive_value_reachable",
    "C03_sample_in_values",
    "C03_cast_keeps_weights",
    "C03_single_value",
    "C03_empty_rejected"
   ],
   "note": ""
  },
  {
   "property": "C04",
   "status": "proved",
   "theorems": [
    "C04_up_then_down",
    "C04_same_hint_identity",
    "C04_not_needed_identity",
    "C04_cast_needed_iff_different",
    "C04_optional_none",
    "C04_autocast_transparent",
    "C04_hint_parsed",
    "C04_memory_to_state_takes_oldest_refuted",
    "C04_memory_bound_lost_refuted",
    "C04_down_then_up_refuted",
    "C04_nested_hint_refuted"
   ],
   "note": "Upward casts, identities, None, autocast wrapper and hint parser. Refuted outside that scope: Memory->Union keeps the oldest state, bounded memories lose their bound when elements are cast, the agent name is lost by down-then-up, nested multi-parameter hints are not parsed."
  },
  {
   "property": "C05",
   "status": "proved",
   "theorems": [
    "C05_check_iff_inequality",
    "C05_symbols_checked",
    "C05_cast_preserves_check"
   ],
   "note": ""
  },
  {
   "property": "C06",
   "status": "proved",
   "theorems": [
    "C06_memory_is_last_n_states",
    "C06_markovian_memory",
    "C06_memoryless_memory",
    "C06_order_one_history_refuted",
    "C06_set_memory_aliases_refuted"
   ],
   "note": "Orders N>=2 (deque memory), Markovian and Memoryless, all interleavings of reset/step/sample/set_memory. Refuted outside that scope: an order-one FiniteHistory domain that is not Markovian loses its Memory type after a step; set_memory stores the caller's deque without copying it."
  },
  {
   "property": "C07",
   "status": "proved",
   "theorems": [
    "C07_samples_do_not_interfere",
    "C07_sample_agrees_with_step",
    "C07_sample_uses_its_argument"
   ],
   "note": ""
  },
  {
   "property": "C08",
   "status": "partial",
   "theorems": [
    "C08_reset_history_partial",
    "C08_long_enough_order_remembers_all_partial",
    "C08_history_step_fails",
    "C08_history_step_refuted"
   ],
   "note": "The full statement is false: C08_history_step_refuted shows step raises TypeError in every full-history domain. Proved instead: reset gives the one-state history, and bounded orders at least as long as the episode remember every state."
  },
  {
   "property": "C09",
   "status": "proved",
   "theorems": [
    "C09_rollout_genuine",
    "C09_rollout_cut",
    "C09_rollout_bounded",
    "C09_saving_runs_one_episode",
    "C09_episode_needs_memory",
    "C09_episode_genuine",
    "C09_episode_bounded",
    "C09_saving_runs_one_episode_refuted",
    "C09_episode_needs_memory_refuted",
    "C09_episode_partially_observable_refuted",
    "C09_second_episode_start_refuted"
   ],
   "note": "rollout: all memory kinds; rollout_episode: fully observable Markovian domains started from a memory. Refuted outside that scope: rollout_episode without from_memory always raises UnboundLocalError, on partially observable domains it does not follow the domain, saving results runs one episode only, a Memory given as start is modified between episodes."
  },
  {
   "property": "C10",
   "status": "proved",
   "theorems": [
    "C10_deterministic_policy",
    "C10_uncertain_policy"
   ],
   "note": ""
  },
  {
   "property": "C11",
   "status": "proved",
   "theorems": [
    "C11_match_solvers_exact"
   ],
   "note": ""
  },
  {
   "property": "C12",
   "status": "proved",
   "theorems": [
    "C12_check_iff_all_characteristics",
    "C12_requirements_minimal"
   ],
   "note": "MRO lists are those of the interpreter: assumed to list all ancestors, subclasses first, object last."
  },
  {
   "property": "C13",
   "status": "proved",
   "theorems": [
    "C13_plan_valid",
    "C13_utility_off_plan",
    "C13_goal_start_fails",
    "C13_goal_start_refuted",
    "C13_second_solve_refuted"
   ],
   "note": "stated for a non-goal start; C13_goal_start_refuted (KeyError when the start is a goal) and C13_second_solve_refuted (plans of repeated solves are concatenated) record the limits"
  },
  {
   "property": "C14",
   "status": "proved",
   "theorems": [
    "C14_optimal",
    "C14_admissible_refuted"
   ],
   "note": "C14_admissible_refuted shows consistency cannot be weakened to admissibility"
  },
  {
   "property": "C15",
   "status": "proved",
   "theorems": [
    "C15_complete"
   ],
   "note": "fuel bound explicit: 2 + number of transitions"
  },
  {
   "property": "C16",
   "status": "proved",
   "theorems": [
    "C16_observation",
    "C16_directions",
    "C16_stays_on_grid",
    "C16_run_on_grid",
    "C16_manhattan_lower_bound",
    "C16_manhattan_achieved",
    "C16_lazy_astar"
   ],
   "note": ""
  },
  {
   "property": "C17",
   "status": "proved",
   "theorems": [
    "C17_step",
    "C17_run_free",
    "C17_run_adjacent",
    "C17_start_goal_free",
    "C17_cells",
    "C17_start_goal",
    "C17_maze",
    "C17_lazy_astar",
    "C17_right_opening_refuted"
   ],
   "note": "rectangular mazes; C17_right_opening_refuted: trailing spaces are stripped, so an opening in the right wall makes a short row and an IndexError"
  },
  {
   "property": "C18",
   "status": "proved",
   "theorems": [
    "C18_score",
    "C18_symmetric",
    "C18_bounds",
    "C18_hidden_solutions",
    "C18_initial_distribution",
    "C18_step",
    "C18_observation_space_refuted"
   ],
   "note": "C18_observation_space_refuted: the declared observation space misses the winning observation and the all-cows one"
  },
  {
   "property": "C19",
   "status": "proved",
   "theorems": [
    "C19_round",
    "C19_length",
    "C19_ends_on_time",
    "C19_game_zero_sum"
   ],
   "note": ""
  },
  {
   "property": "C20",
   "status": "proved",
   "theorems": [
    "C20_one_status",
    "C20_conditional_status",
    "C20_goal_before_conditional_refuted"
   ],
   "note": "C20_goal_before_conditional_refuted: in a stochastic problem a state can be a goal although a conditional task is still to be released"
  },
  {
   "property": "C21",
   "status": "proved",
   "theorems": [
    "C21_renewable",
    "C21_never_negative",
    "C21_non_renewable",
    "C21_zero_duration_leak_refuted",
    "C21_pause_non_renewable_refuted"
   ],
   "note": "C21_zero_duration_leak_refuted: a zero-duration task never gives its resources back; C21_pause_non_renewable_refuted: pausing gives back consumed non-renewable resources"
  },
  {
   "property": "C22",
   "status": "proved",
   "theorems": [
    "C22_capacity",
    "C22_capacity_any_action",
    "C22_availability_is_current",
    "C22_varying_refuted"
   ],
   "note": "C22_varying_refuted: with time-varying consumption capacity can be exceeded"
  },
  {
   "property": "C23",
   "status": "proved",
   "theorems": [
    "C23_precedence"
   ],
   "note": ""
  },
  {
   "property": "C24",
   "status": "proved",
   "theorems": [
    "C24_clock",
    "C24_offered_clock",
    "C24_dates",
    "C24_active_for_duration",
    "C24_completes_on_time",
    "C24_not_late",
    "C24_long_duration_refuted"
   ],
   "note": "exact arithmetic instead of floats; C24_long_duration_refuted: with d = 10000 the task completes after 9999 steps"
  },
  {
   "property": "C25",
   "status": "proved",
   "theorems": [
    "C25_offered_start_works",
    "C25_not_all_modes_offered_refuted",
    "C25_varying_space_refuted",
    "C25_varying_last_step_refuted",
    "C25_resume_without_resources_refuted",
    "C25_units_resume_refuted"
   ],
   "note": "five refuted neighbours: modes missing from the list, varying consumption (two), RESUME without resources, START offered for paused tasks with resource units"
  },
  {
   "property": "C26",
   "status": "proved",
   "theorems": [
    "C26_distribution",
    "C26_offered",
    "C26_start_with_time_refuted",
    "C26_two_distributions_refuted"
   ],
   "note": "C26_start_with_time_refuted and C26_two_distributions_refuted: total probability 2"
  },
  {
   "property": "C27",
   "status": "proved",
   "theorems": [
    "C27_evaluate",
    "C27_evaluate_again",
    "C27_satisfy",
    "C27_short",
    "C27_dummy",
    "C27_mobj",
    "C27_stale_cache_refuted",
    "C27_force_satisfy_refuted",
    "C27_value_only_fails",
    "C27_value_only_refuted"
   ],
   "note": "refuted neighbours: stale cached totals after the vector is changed, satisfy with force_recompute_values, value without weight"
  },
  {
   "property": "C28",
   "status": "proved",
   "theorems": [
    "C28_optimal",
    "C28_limited",
    "C28_greedy_start",
    "C28_greedy_start_refuted",
    "C28_solve_np_refuted",
    "C28_labels_refuted"
   ],
   "note": "refuted neighbours: greedy_start with an item that does not fit alone (IndexError), solve_np (overweight), labels that are not positions"
  },
  {
   "property": "C29",
   "status": "proved",
   "theorems": [
    "C29_greedy",
    "C29_density_bound",
    "C29_best_of_greedy",
    "C29_heavy_item_refuted"
   ],
   "note": "for instances in which every item fits alone and has positive weight; C29_heavy_item_refuted: IndexError otherwise"
  },
  {
   "property": "C30",
   "status": "proved",
   "theorems": [
    "C30_flips_coherent",
    "C30_undo",
    "C30_single_flip_undo",
    "C30_single_flip_objective",
    "C30_mutate_feasible",
    "C30_single_flip_fresh_refuted"
   ],
   "note": "C30_single_flip_fresh_refuted: the single-flip mutation of a solution that was not evaluated reports the old objectives"
  },
  {
   "property": "C31",
   "status": "proved",
   "theorems": [
    "C31_every_vector",
    "C31_satisfy",
    "C31_evaluate",
    "C31_normalise",
    "C31_normal_form_unique",
    "C31_idempotent",
    "C31_reformat",
    "C31_dummy",
    "C31_greedy",
    "C31_greedy_all_fail",
    "C31_cached_colors_refuted",
    "C31_cliques_fails",
    "C31_cliques_refuted",
    "C31_cliques_limited"
   ],
   "note": "C31_cached_colors_refuted: evaluate trusts the cached number of colours; C31_cliques_refuted/_limited: the clique bound"
  },
  {
   "property": "C32",
   "status": "proved",
   "theorems": [
    "C32_permutation",
    "C32_run_undo",
    "C32_shuffle_input",
    "C32_two_opt_others",
    "C32_swap_last_fixed",
    "C32_partial_input_refuted",
    "C32_swaps_undo_refuted",
    "C32_swap_short_refuted",
    "C32_reapply_refuted"
   ],
   "note": "refuted neighbours: partial shuffle modifies its input solution, overlapping swaps are not undone, swaps on one-element vectors raise, re-applying a kept shuffle move"
  },
  {
   "property": "C33",
   "status": "proved",
   "theorems": [
    "C33_from_positions",
    "C33_from_nodes",
    "C33_evaluate",
    "C33_build",
    "C33_build_total",
    "C33_encoding",
    "C33_dummy",
    "C33_satisfy_never",
    "C33_numba_legs_refuted",
    "C33_from0_ignored_refuted",
    "C33_satisfy_refuted"
   ],
   "note": "refuted neighbours: satisfy is never true, the compiled evaluation stores wrong legs, evaluate ignores permutation_from0"
  },
  {
   "property": "C34",
   "status": "proved",
   "theorems": [
    "C34_two_opt",
    "C34_two_opt_all",
    "C34_intersection",
    "C34_swap",
    "C34_run",
    "C34_swap_numba_refuted",
    "C34_swap_stale_refuted",
    "C34_no_pair_refuted",
    "C34_default_tests_fails",
    "C34_default_tests_refuted",
    "C34_intersection_refuted"
   ],
   "note": "refuted neighbours: swap after the compiled evaluation, stale permutation_from0, no pair tried gives infinite length, default nb_test raises, intersection variant loses legs"
  },
  {
   "property": "C35",
   "status": "proved",
   "theorems": [
    "C35_front",
    "C35_order",
    "C35_extreme",
    "C35_best_fit",
    "C35_before_finalize",
    "C35_before_finalize_refuted",
    "C35_last_best_refuted",
    "C35_equality_refuted"
   ],
   "note": "refuted neighbours: the front is empty before finalize, get_last_best_solution can return a dominated point, equality of fitness vectors is not transitive"
  },
  {
   "property": "C36",
   "status": "proved",
   "theorems": [
    "C36_best",
    "C36_given_best",
    "C36_heap_maximise",
    "C36_last_best",
    "C36_random_best",
    "C36_random_other",
    "C36_remove_duplicates",
    "C36_heap_minimise_refuted",
    "C36_heap_room_refuted",
    "C36_empty_store_fails",
    "C36_empty_store_refuted",
    "C36_refit_refuted"
   ],
   "note": "best and stored pairs for any limit and both senses; refuted neighbours: the heap of scores loses the best when minimising, ignores low scores although there is room, an empty storage accepts nothing, a solution added with another fitness"
  },
  {
   "property": "C37",
   "status": "proved",
   "theorems": [
    "C37_hill_climber",
    "C37_annealing_storing",
    "C37_annealing",
    "C37_monotone",
    "C37_minimise_refuted",
    "C37_in_place_refuted",
    "C37_annealing_rejected_refuted",
    "C37_handler_refuted"
   ],
   "note": "for mutations that create their solutions (hill climbing, annealing storing everything) or restore in place (annealing); refuted: minimisation returns the initial solution, in-place mutation corrupts what hill climbing stores, rejected solutions stored by annealing, handler made with another solution"
  },
  {
   "property": "C38",
   "status": "proved",
   "theorems": [
    "C38_feasible",
    "C38_modes",
    "C38_total",
    "C38_complete",
    "C38_zero_duration_refuted",
    "C38_infeasible_refuted"
   ],
   "note": "C38_zero_duration_refuted: non-renewable needs of zero-duration tasks are never counted; C38_infeasible_refuted: an infeasible schedule contains a task ending before it starts"
  },
  {
   "property": "C39",
   "status": "proved",
   "theorems": [
    "C39_decides",
    "C39_feasibility",
    "C39_complete",
    "C39_sgs",
    "C39_duration_refuted",
    "C39_negative_refuted",
    "C39_last_task_refuted",
    "C39_empty_refuted"
   ],
   "note": "refuted neighbours: durations are not checked, nothing is checked before time 0 or after the end of the largest-numbered task, makespan 0 gives UnboundLocalError or accepts a schedule missing a task"
  },
  {
   "property": "C40",
   "status": "proved",
   "theorems": [
    "C40_feasible",
    "C40_permutation",
    "C40_total",
    "C40_complete",
    "C40_rules",
    "C40_permutation_refuted",
    "C40_stuck_refuted"
   ],
   "note": "refuted neighbours: the permutation loses a task when some task is not an ancestor of the sink; an instance without solution gives IndexError"
  },
  {
   "property": "C41",
   "status": "proved",
   "theorems": [
    "C41_evaluate",
    "C41_violation",
    "C41_accepts",
    "C41_single",
    "C41_greedy",
    "C41_greedy_total",
    "C41_satisfy_refuted",
    "C41_greedy_refuted",
    "C41_change_problem_refuted",
    "C41_negative_refuted"
   ],
   "note": "C41_satisfy_refuted: only the last facility opened is checked, overloaded solutions are accepted; C41_greedy_refuted: the greedy solver can fail on a feasible instance; C41_change_problem_refuted: cached details survive a change of problem; C41_negative_refuted: index -1 counts as another facility"
  },
  {
   "property": "C42",
   "status": "proved",
   "theorems": [
    "C42_trivial",
    "C42_evaluate",
    "C42_satisfy",
    "C42_trivial_accepted",
    "C42_stupid",
    "C42_satisfy_refuted",
    "C42_trivial_refuted",
    "C42_directed_refuted",
    "C42_stale_refuted"
   ],
   "note": "C42_satisfy_refuted: serving nobody is accepted; C42_trivial_refuted: customers left out although all can be served; C42_directed_refuted: the last leg is measured backwards; C42_stale_refuted: cached loads survive a change of the paths"
  },
  {
   "property": "C43",
   "status": "proved",
   "theorems": [
    "C43_neighbors",
    "C43_predecessors",
    "C43_converse",
    "C43_edges",
    "C43_nodes"
   ],
   "note": ""
  },
  {
   "property": "C44",
   "status": "proved",
   "theorems": [
    "C44_list",
    "C44_enum",
    "C44_enum_contains",
    "C44_data",
    "C44_empty_refuted",
    "C44_duplicates_refuted",
    "C44_negative_refuted",
    "C44_nested_refuted"
   ],
   "note": "refuted neighbours: EmptySpace.contains is not implemented, repeated elements and negative indices break the index round trip, nested dataclasses come back as dictionaries"
  },
  {
   "property": "C45",
   "status": "proved",
   "theorems": [
    "C45_greedy",
    "C45_iterate_fails",
    "C45_iterate_refuted",
    "C45_dead_end_refuted"
   ],
   "note": "C45_iterate_refuted: when the value does not depend on the next state the solver iterates over the space object, which no space of the library allows; C45_dead_end_refuted"
  },
  {
   "property": "C46",
   "status": "proved",
   "theorems": [
    "C46_aggregate",
    "C46_multi",
    "C46_single",
    "C46_default",
    "C46_order",
    "C46_missing",
    "C46_mobj",
    "C46_mobj_refuted",
    "C46_robust",
    "C46_robust_keys"
   ],
   "note": "C46_mobj_refuted: the default multi-objective evaluation drops the weights"
  },
  {
   "property": "C47",
   "status": "proved",
   "theorems": [
    "C47_any_mode_feasible",
    "C47_final_schedule_feasible"
   ],
   "note": ""
  },
  {
   "property": "C48",
   "status": "proved",
   "theorems": [
    "C48_makespan_cost",
    "C48_goal_is_terminal",
    "C48_both_objectives",
    "C48_cost_non_renewable_fails",
    "C48_cost_non_renewable_refuted"
   ],
   "note": "C48_cost_non_renewable_refuted: the COST objective raises as soon as there is a non-renewable resource"
  },
  {
   "property": "C49",
   "status": "proved",
   "theorems": [
    "C49_active"
   ],
   "note": ""
  },
  {
   "property": "C50",
   "status": "proved",
   "theorems": [
    "C50_feasible",
    "C50_total",
    "C50_started_moved_refuted",
    "C50_non_renewable_refuted"
   ],
   "note": "refuted neighbours: a started task can be delayed past the current time; non-renewable consumption of completed tasks is forgotten"
  },
  {
   "property": "C51",
   "status": "proved",
   "theorems": [
    "C51_feasible",
    "C51_complete",
    "C51_priority",
    "C51_modes_refuted"
   ],
   "note": "C51_modes_refuted: the returned solution carries the modes shifted by one task"
  },
  {
   "property": "C52",
   "status": "proved",
   "theorems": [
    "C52_plan",
    "C52_complete",
    "C52_terminates",
    "C52_goal_start_refuted",
    "C52_unsolved_value_refuted",
    "C52_second_solve_refuted",
    "C52_second_solve_action_refuted"
   ],
   "note": "C52_goal_start_refuted: a goal start gets value infinity and no action; C52_unsolved_value_refuted: values off the plan are not costs to go; C52_second_solve_refuted: stale scores hide a plan from a later start; C52_second_solve_action_refuted: a later solve changes the action given for an earlier start to an inapplicable one"
  },
  {
   "property": "C53",
   "status": "proved",
   "theorems": [
    "C53_optimal_tree",
    "C53_optimal_uniform",
    "C53_optimal_refuted"
   ],
   "note": "C53_optimal_refuted: with positive costs and no heuristic a plan of cost 15 is returned although one of cost 10 exists, because scores are lowered inside the priority queue"
  },
  {
   "property": "C54",
   "status": "proved",
   "theorems": [
    "C54_plan",
    "C54_complete",
    "C54_goal_start_refuted",
    "C54_defined_refuted",
    "C54_depth_refuted",
    "C54_second_solve_refuted"
   ],
   "note": "C54_goal_start_refuted: a goal start raises KeyError; C54_defined_refuted: is_policy_defined_for is never true; C54_depth_refuted: a plan cut at max_depth is stored; C54_second_solve_refuted: the old policy survives a failed solve"
  },
  {
   "property": "C55",
   "status": "proved",
   "theorems": [
    "C55_optimal",
    "C55_optimal_refuted"
   ],
   "note": "C55_optimal_refuted: with cycles the search settles on a plan of cost 31 although one of cost 23 exists"
  },
  {
   "property": "C56",
   "status": "proved",
   "theorems": [
    "C56_dates",
    "C56_critical_path",
    "C56_lower_bound",
    "C56_critical_rigid",
    "C56_longest_refuted",
    "C56_loose_task_refuted"
   ],
   "note": "C56_longest_refuted: a direct precedence from the first to the last task hides the longest path; C56_loose_task_refuted: a task that is not after the first one or not before the last one raises IndexError"
  },
  {
   "property": "C57",
   "status": "proved",
   "theorems": [
    "C57_feasible",
    "C57_complete",
    "C57_ends",
    "C57_horizon_refuted",
    "C57_stock_refuted"
   ],
   "note": "C57_horizon_refuted: a schedule that ends exactly at the horizon is not found (KeyError); C57_stock_refuted: non-renewable resources are treated as renewable and only mode 1 is used"
  },
  {
   "property": "C58",
   "status": "proved",
   "theorems": [
    "C58_feasible",
    "C58_complete",
    "C58_length_refuted",
    "C58_calendar_refuted",
    "C58_window_refuted"
   ],
   "note": "C58_length_refuted: the schedule can be longer than the tasks one after the other; C58_calendar_refuted: varying resources are overused, only the first date of a task is checked; C58_window_refuted: only ten waiting tasks are looked at, so the loop may never end"
  },
  {
   "property": "C59",
   "status": "proved",
   "theorems": [
    "C59_policy",
    "C59_optimal",
    "C59_goal_start_refuted"
   ],
   "note": "C59_goal_start_refuted: after a call that starts from a goal state, later answers can miss the best action"
  },
  {
   "property": "C60",
   "status": "proved",
   "theorems": [
    "C60_solves",
    "C60_next_action",
    "C60_dead_end_refuted",
    "C60_cycles_refuted",
    "C60_detection_refuted",
    "C60_no_expansion_refuted"
   ],
   "note": "C60_dead_end_refuted: a null pointer is followed at a dead end; C60_cycles_refuted: no answer on cyclic domains; C60_detection_refuted: the detection of cycles refuses some acyclic domains; C60_no_expansion_refuted: max_tip_expansions = 0 never ends"
  },
  {
   "property": "C61",
   "status": "proved",
   "theorems": [
    "C61_converged",
    "C61_policy",
    "C61_optimal",
    "C61_policy_map",
    "C61_depth_refuted",
    "C61_no_labels_refuted",
    "C61_cycles_refuted"
   ],
   "note": "Labels on, enough depth, no call from a goal state. C61_depth_refuted: with too small a max_depth states are labelled without their successors having been looked at; C61_no_labels_refuted: without labels the values of goals are overwritten; C61_cycles_refuted: free cycles can be answered."
  },
  {
   "property": "C62",
   "status": "proved",
   "theorems": [
    "C62_returns",
    "C62_converges",
    "C62_next_action",
    "C62_dead_end_refuted",
    "C62_no_labels_refuted",
    "C62_goal_start_refuted"
   ],
   "note": "C62_dead_end_refuted, C62_no_labels_refuted, C62_goal_start_refuted: a null pointer is followed at a dead end, at goals without actions when labels are off, and after a call from a goal state."
  },
  {
   "property": "C63",
   "status": "proved",
   "theorems": [
    "C63_below",
    "C63_below_plans"
   ],
   "note": ""
  },
  {
   "property": "C64",
   "status": "proved",
   "theorems": [
    "C64_below",
    "C64_below_plans",
    "C64_goal_start_refuted"
   ],
   "note": "C64_goal_start_refuted: after a call that starts from a goal state the values can exceed the cost of a plan"
  },
  {
   "property": "C65",
   "status": "proved",
   "theorems": [
    "C65_answers",
    "C65_next_action",
    "C65_consistent",
    "C65_epsilon",
    "C65_optimal_refuted",
    "C65_dead_end_refuted"
   ],
   "note": "Stated of calls that return. C65_optimal_refuted: the answer can be far from the best one on a small acyclic domain with the default settings, and states are said to have a solution whose values are stale; C65_dead_end_refuted: endless search and null pointer at dead ends"
  },
  {
   "property": "C66",
   "status": "proved",
   "theorems": [
    "C66_policy",
    "C66_sound",
    "C66_complete",
    "C66_returns",
    "C66_loop_refuted",
    "C66_goal_start_refuted",
    "C66_zero_refuted"
   ],
   "note": "Values are exact expected costs of the policy; every met state from which a goal is certain within boundedly many steps has one; the computation ends. Refuted: a policy with a loop (finite expected cost) gets no value; an initial goal state has no value or a nonzero one; an outcome of probability zero raises AssertionError."
  },
  {
   "property": "C67",
   "status": "proved",
   "theorems": [
    "C67_estimate",
    "C67_returns",
    "C67_exact",
    "C67_penalty_refuted"
   ],
   "note": "The estimate of a state is the mean over its visits of the cost that remained to be paid; policy, predecessors and successors are those of the executions; exact without uncertainty. Refuted: the penalty for ending outside the goal is not part of the estimate."
  },
  {
   "property": "C68",
   "status": "proved",
   "theorems": [
    "C68_sound",
    "C68_complete",
    "C68_returns",
    "C68_default_fails",
    "C68_no_goals",
    "C68_no_cost",
    "C68_goals_refuted",
    "C68_default_refuted"
   ],
   "note": "Transitions, states and attributes right; complete when the limits are not passed; ends. Refuted: the default limits None always end in a TypeError; the graph has no goals and no costs."
  },
  {
   "property": "C69",
   "status": "proved",
   "theorems": [
    "C69_shallow",
    "C69_full_refuted",
    "C69_reachable",
    "C69_reachable_returns"
   ],
   "note": "reachable_states exact and ends; FullSpaceExploration records exactly the transitions of the initial state. Refuted: it does not explore the full space."
  },
  {
   "property": "C70",
   "status": "proved",
   "theorems": [
    "C70_sound",
    "C70_complete",
    "C70_tree",
    "C70_returns",
    "C70_distribution_refuted"
   ],
   "note": "States, flags, entries right; complete when the limits are not passed; ends; the entries form a tree. Refuted: the recorded outcomes of an action are not its distribution."
  },
  {
   "property": "C71",
   "status": "proved",
   "theorems": [
    "C71_merge",
    "C71_alias_refuted"
   ],
   "note": "Union with priority of the first graph, the second is left as it was. Refuted: afterwards they share dicts, so merging a third graph changes the second."
  },
  {
   "property": "C72",
   "status": "proved",
   "theorems": [
    "C72_sound",
    "C72_starts",
    "C72_pile_method_refuted",
    "C72_unlisted_refuted"
   ],
   "note": "Every method: sound choice, and the START takes effect. Refuted: method PILE has no function; the action may be missing from the listed applicable actions (C25)."
  },
  {
   "property": "C73",
   "status": "proved",
   "theorems": [
    "C73_choice"
   ],
   "note": "The first startable released task of the window, per method."
  },
  {
   "property": "C74",
   "status": "proved",
   "theorems": [
    "C74_precedence_is_strict",
    "C74_no_time_freedom",
    "C74_full_index_freedom",
    "C74_undated_refuted"
   ],
   "note": "Equalities between methods. Refuted: a schedule missing an unreleased task stops SGS_PRECEDENCE but not SGS_STRICT."
  },
  {
   "property": "C75",
   "status": "proved",
   "theorems": [
    "C75_terminates",
    "C75_feasible"
   ],
   "note": "Ends within the sum of durations; durations, modes, precedence and capacity respected."
  },
  {
   "property": "C76",
   "status": "proved",
   "theorems": [
    "C76_follows_plan",
    "C76_missed_date_blocks",
    "C76_late_task_refuted"
   ],
   "note": "Exact replay of a feasible plan. Universal: once a planned date is missed the execution never ends; refuted for durations longer than planned."
  },
  {
   "property": "C77",
   "status": "proved",
   "theorems": [
    "C77_choice",
    "C77_sample",
    "C77_weights",
    "C77_terminates",
    "C77_no_mode_one_refuted",
    "C77_mode_one_too_large_blocks"
   ],
   "note": "Choice per greedy rule, weights are a distribution, the execution ends. Refuted: only mode 1 is tried (KeyError without it; a task too large in mode 1 is never started)."
  },
  {
   "property": "C78",
   "status": "proved",
   "theorems": [
    "C78_sound",
    "C78_no_worse",
    "C78_agreement_refuted"
   ],
   "note": "Action of a base policy; no later than every base policy. Refuted: with nb_rollout_estimation=0 it fails even if the policies agree."
  },
  {
   "property": "C79",
   "status": "proved",
   "theorems": [
    "C79_permutation",
    "C79_modes",
    "C79_replay"
   ],
   "note": "Permutation sorted by (start, task); modes; replay of a feasible solution."
  },
  {
   "property": "C80",
   "status": "proved",
   "theorems": [
    "C80_sampled_once",
    "C80_uniform",
    "C80_enumerable_bounds",
    "C80_within_bounds",
    "C80_progress_ignored",
    "C80_progress_refuted",
    "C80_deterministic_bounds_refuted",
    "C80_latest_refuted",
    "C80_uniform_empty"
   ],
   "note": "Memoised sampling, uniform law, tight enumerable bounds, samples within bounds. Refuted: distributions per progress are never used; deterministic bounds ignore the progress; the latest sampled duration of an uncertain kind is a new draw."
  },
  {
   "property": "C81",
   "status": "proved",
   "theorems": [
    "C81_member",
    "C81_not_member",
    "C81_missing_agent_refuted",
    "C81_enabled_refuted"
   ],
   "note": "Exact membership. Refuted: an observation lacking an agent can be a goal; is_enabled_event of a domain without events raises."
  },
  {
   "property": "C82",
   "status": "proved",
   "theorems": [
    "C82_same_space",
    "C82_many_domains_refuted"
   ],
   "note": "LRU cache of 128 entries shared by the domains. Refuted for 128 other domains in between."
  },
  {
   "property": "C83",
   "status": "proved",
   "theorems": [
    "C83_windows",
    "C83_without_windows",
    "C83_minimum_lag_fails",
    "C83_minimum_lag_refuted"
   ],
   "note": "Equivalences per window kind. Refuted: MinimumOnlyTimeLag cannot be built."
  },
  {
   "property": "C84",
   "status": "proved",
   "theorems": [
    "C84_run",
    "C84_arity",
    "C84_evaluated",
    "C84_settles",
    "C84_function_refuted",
    "C84_mutation_after_run_ignored",
    "C84_stale_graph_refuted",
    "C84_recurrent_refuted"
   ],
   "note": "Network semantics for valid genomes, exact set of evaluated nodes, settling after as many runs as columns. Refuted: function of the input, mutation after a run, backward arcs."
  },
  {
   "property": "C85",
   "status": "proved",
   "theorems": [
    "C85_random",
    "C85_random_reaches_all",
    "C85_mutate",
    "C85_mutate_per_gene",
    "C85_save_load",
    "C85_rows_mutate_refuted",
    "C85_rows_forward_refuted",
    "C85_rows_fail_refuted",
    "C85_recurrency_refuted"
   ],
   "note": "Valid genomes for all draws; mutations for one row. Refuted for several rows; recurrency distance lost by copies."
  },
  {
   "property": "C86",
   "status": "proved",
   "theorems": [
    "C86_total",
    "C86_step",
    "C86_best",
    "C86_attained",
    "C86_no_offspring"
   ],
   "note": "Total (one row), exact step, best of all evaluations, attained."
  },
  {
   "property": "C87",
   "status": "proved",
   "theorems": [
    "C87_library",
    "C87_outputs",
    "C87_range_needed"
   ],
   "note": "Over real numbers; rests on the axioms of the standard library reals."
  },
  {
   "property": "C88",
   "status": "proved",
   "theorems": [
    "C88_action_in_space",
    "C88_observation_range",
    "C88_monotone",
    "C88_box_round_trip",
    "C88_discrete_round_trip",
    "C88_single_value_refuted",
    "C88_unbounded_refuted",
    "C88_tuple_action_refuted",
    "C88_tuple_observation_refuted",
    "C88_check_last",
    "C88_check_refuted",
    "C88_fitness_mean",
    "C88_fitness_order_refuted"
   ],
   "note": "Actions in the space, observations in range, monotone, round trips, fitness between worst and best. Refuted: single value, unbounded, tuples, check, rank weights."
  },
  {
   "property": "C89",
   "status": "proved",
   "theorems": [
    "C89_tuples",
    "C89_novelty",
    "C89_repeated",
    "C89_first"
   ],
   "note": "The combinations of features are enumerated exactly once each; the novelty is the least size of a new combination of values, for any sequence of evaluated vectors."
  },
  {
   "property": "C90",
   "status": "proved",
   "theorems": [
    "C90_plan",
    "C90_complete",
    "C90_terminates",
    "C90_goal_start_refuted",
    "C90_second_solve_refuted",
    "C90_feature_hash_refuted",
    "C90_negative_cost_refuted"
   ],
   "note": "Plan, completeness when features distinguish states, termination. Refuted: goal start, second solve from another state, feature hash, negative costs."
  },
  {
   "property": "C91",
   "status": "proved",
   "theorems": [
    "C91_one_width",
    "C91_no_pruning",
    "C91_anytime_refuted",
    "C91_pruned_count_refuted",
    "C91_no_features_refuted"
   ],
   "note": "One width per solve; failure without pruning is conclusive. Refuted: plan after more time, pruned count, no features."
  },
  {
   "property": "C92",
   "status": "proved",
   "theorems": [
    "C92_novelty",
    "C92_nothing_new_last",
    "C92_novelty_one_refuted"
   ],
   "note": "Rank of a state for any sequence of evaluated states; nothing new ranks last. Refuted: more new values should not come later."
  },
  {
   "property": "C93",
   "status": "proved",
   "theorems": [
    "C93_plan",
    "C93_complete",
    "C93_terminates",
    "C93_goal_start_refuted",
    "C93_optimal_refuted",
    "C93_second_solve_refuted",
    "C93_first_plan_lost_refuted",
    "C93_feature_hash_refuted"
   ],
   "note": "Plan, completeness, termination, for any costs, heuristic and features. Refuted: goal start, optimality, second solve, first plan lost, feature hash."
  },
  {
   "property": "C94",
   "status": "proved",
   "theorems": [
    "C94_satisfy",
    "C94_decides",
    "C94_length_refuted",
    "C94_one_unit_refuted",
    "C94_after_sink_refuted",
    "C94_no_team_refuted"
   ],
   "note": "Accepted exactly when skills, calendars, places, resources and precedences hold. Refuted: lengths, one worker per task, use after the sink, missing team."
  },
  {
   "property": "C95",
   "status": "proved",
   "theorems": [
    "C95_complete",
    "C95_checked",
    "C95_placed",
    "C95_total",
    "C95_modes_refuted",
    "C95_missing_worker_refuted",
    "C95_horizon_refuted",
    "C95_reserved_refuted",
    "C95_instant_refuted",
    "C95_stock_refuted"
   ],
   "note": "Complete schedule when the sink has a time, accepted by the checker; part of a stopped run sound; always a result. Refuted: corrected modes, priorities that leave workers out, exact horizon, reserved workers, tasks without length."
  },
  {
   "property": "C96",
   "status": "proved",
   "theorems": [
    "C96_to_variant",
    "C96_ranks",
    "C96_reproduce_refuted",
    "C96_names_refuted",
    "C96_variant_model",
    "C96_one_unit_refuted",
    "C96_copy_refuted"
   ],
   "note": "Priorities of a schedule and ranks of a permutation; what a variant keeps. Refuted: schedule reproduced, names of workers, one worker per task, copy of source and sink."
  },
  {
   "property": "C97",
   "status": "proved",
   "theorems": [
    "C97_ready",
    "C97_run",
    "C97_total",
    "C97_keeps",
    "C97_best",
    "C97_never_worse",
    "C97_skip_first",
    "C97_skip_lost",
    "C97_found_returned_refuted",
    "C97_heap_once_refuted"
   ],
   "note": "LNS_CP.solve_lns over an arbitrary solver, constraint handler, post-processing and clock: result = initial store plus what every round found; never worse; best of the whole history. Findings: skip_first_iteration loses everything when the first round fails; heap counts the first round twice"
  },
  {
   "property": "C98",
   "status": "proved",
   "theorems": [
    "C98_stops",
    "C98_quiet_unique"
   ],
   "note": "exact stopping rule of LNS_CP (rounds, clock, rounds since the last record)"
  },
  {
   "property": "C99",
   "status": "proved",
   "theorems": [
    "C99_run",
    "C99_total",
    "C99_keeps",
    "C99_skip_first",
    "C99_empty_round_refuted",
    "C99_no_improvement_refuted",
    "C99_skip_maximise_refuted",
    "C99_neighbourhood_of_best_refuted"
   ],
   "note": "LNS_MILP.solve_lns: result, totality, stopping rule as the code has it. Findings: an empty round raises, worse rounds are not counted, skip + maximise never counts, neighbourhood from the last round"
  },
  {
   "property": "C100",
   "status": "proved",
   "theorems": [
    "C100_graph",
    "C100_terminal_root_refuted"
   ],
   "note": "C++ MCTS (distribution mode, full expansion, graph backup, sequential): search graph = part of the domain after any calls of solve. Refuted: terminal roots"
  },
  {
   "property": "C101",
   "status": "proved",
   "theorems": [
    "C101_total",
    "C101_kept",
    "C101_terminal_leaf_refuted"
   ],
   "note": "solve always returns, exact number of rollouts. Refuted: simulations start in terminal leaves, so solve fails when terminal states have no actions"
  },
  {
   "property": "C102",
   "status": "proved",
   "theorems": [
    "C102_answer",
    "C102_policy",
    "C102_descent",
    "C102_visits_refuted"
   ],
   "note": "best action applicable, tried, of maximal average; policy exact. Refuted: visit counts are not per simulation"
  },
  {
   "property": "C103",
   "status": "proved",
   "theorems": [
    "C103_simulation",
    "C103_upper",
    "C103_lower",
    "C103_after_end_refuted"
   ],
   "note": "values within any bounds the rewards respect. Refuted: rewards after termination count"
  },
  {
   "property": "C104",
   "status": "proved",
   "theorems": [
    "C104_online",
    "C104_two_searches_refuted",
    "C104_reset_refuted"
   ],
   "note": "online loop with garbage collection always answers and keeps exactly the connected part. Refuted: shared states of two searches, reset between episodes"
  },
  {
   "property": "C105",
   "status": "proved",
   "theorems": [
    "C105_history",
    "C105_length",
    "C105_fidelity_one",
    "C105_repeat_refuted",
    "C105_nan_refuted",
    "C105_discrete_refuted"
   ],
   "note": "histories of values against the interval trees; refuted: repeated evaluation at fidelity 2, NaN, Discrete components"
  },
  {
   "property": "C106",
   "status": "proved",
   "theorems": [
    "C106_history",
    "C106_length",
    "C106_fidelity_one",
    "C106_repeat_refuted",
    "C106_dict_refuted"
   ],
   "note": "exact arithmetic on cells; refuted: repeated evaluation and order at fidelity 2, dictionary observations"
  },
  {
   "property": "C107",
   "status": "proved",
   "theorems": [
    "C107_width",
    "C107_injective",
    "C107_minus_zero_refuted",
    "C107_dict_refuted"
   ],
   "note": "cells given by their 32-bit patterns; refuted: minus zero has an extra bit, dictionary observations"
  },
  {
   "property": "C108",
   "status": "proved",
   "theorems": [
    "C108_discrete",
    "C108_box_grid",
    "C108_branching",
    "C108_box_vector_unset",
    "C108_box_vector_refuted",
    "C108_other_spaces_refuted",
    "C108_factor_one_refuted"
   ],
   "note": "float arithmetic of linspace taken exact; refuted: vector boxes, other shapes, MultiBinary, dictionaries, factor one"
  },
  {
   "property": "C109",
   "status": "proved",
   "theorems": [
    "C109_tree",
    "C109_incomplete_snapshot_refuted",
    "C109_array_snapshot_refuted",
    "C109_value_pair_refuted"
   ],
   "note": "environments are deterministic values in a heap of mutable objects; refuted: partial snapshots, array snapshots, value of another transition"
  },
  {
   "property": "C110",
   "status": "proved",
   "theorems": [
    "C110_goals",
    "C110_resets",
    "C110_accumulated_refuted",
    "C110_goal_of_equal_states_refuted"
   ],
   "note": "refuted: accumulated reward, goal status of equal states"
  },
  {
   "property": "C111",
   "status": "proved",
   "theorems": [
    "C111_episodes",
    "C111_set_memory_refuted"
   ],
   "note": "refuted: set_memory does not restore the state given"
  },
  {
   "property": "C112",
   "status": "proved",
   "theorems": [
    "C112_equal",
    "C112_hash",
    "C112_same",
    "C112_multi_discrete_refuted",
    "C112_nan_refuted",
    "C112_structure_refuted",
    "C112_other_object_refuted"
   ],
   "note": "refuted: NaN, structure, other objects, MultiDiscrete"
  },
  {
   "property": "C113",
   "status": "proved",
   "theorems": [
    "C113_round_trip",
    "C113_list_spaces",
    "C113_reset_refuted"
   ],
   "note": "refuted: reset is not unwrapped"
  },
  {
   "property": "C114",
   "status": "proved",
   "theorems": [
    "C114_large_cost_refuted"
   ],
   "note": "refuted: costs above twice the depth bound"
  },
  {
   "property": "C115",
   "status": "proved",
   "theorems": [
    "C115_untried_refuted",
    "C115_none_refuted",
    "C115_goal_one_step_late_refuted"
   ],
   "note": "refuted: untried actions, None answers, goal noticed one step late"
  },
  {
   "property": "C116",
   "status": "proved",
   "theorems": [
    "C116_next_state_observed_refuted",
    "C116_no_first_action_refuted"
   ],
   "note": "refuted: the environment observes the next state; first decision uses action None"
  },
  {
   "property": "C117",
   "status": "proved",
   "theorems": [
    "C117_number_types_refuted",
    "C117_dictionary_order_refuted",
    "C117_list_numbers_refuted",
    "C117_repr_only_refuted",
    "C117_tuple_of_list_refuted",
    "C117_boolean_array_refuted",
    "C117_view_refuted"
   ],
   "note": "refuted: 1 and 1.0, dictionary order, lists mixing integers and floats, repr-only classes, tuples of lists, boolean arrays, strided views"
  },
  {
   "property": "C118",
   "status": "proved",
   "theorems": [
    "C118_constant",
    "C118_calendar",
    "C118_no_calendar",
    "C118_same_verdict",
    "C118_relaxed",
    "C118_multiplier_refuted",
    "C118_short_calendar_refuted",
    "C118_calendar_dropped_refuted",
    "C118_first_mode_refuted",
    "C118_single_refuted"
   ],
   "note": "refuted: horizon multiplier lost, calendars shorter than the horizon, calendars dropped, single mode not numbered 1, class not kept"
  },
  {
   "property": "C119",
   "status": "proved",
   "theorems": [
    "C119_feasible",
    "C119_varying_refuted",
    "C119_sparse_refuted",
    "C119_unsupported_refuted",
    "C119_duration_name_refuted"
   ],
   "note": "refuted: varying consumption, modes that leave out unused resources, multi-mode uncertain domains, a resource called duration"
  },
  {
   "property": "C120",
   "status": "proved",
   "theorems": [
    "C120_solution",
    "C120_checked",
    "C120_zero_based_refuted",
    "C120_incomplete_refuted",
    "C120_unfinished_refuted"
   ],
   "note": "refuted: tasks numbered from 0, states without the source, unfinished schedules"
  },
  {
   "property": "C121",
   "status": "proved",
   "theorems": [
    "C121_distributions",
    "C121_instances",
    "C121_feasible",
    "C121_count",
    "C121_renewability_refuted",
    "C121_horizon_refuted",
    "C121_mean_refuted"
   ],
   "note": "refuted: non-renewable resources become renewable, doubled horizon too short, biased mean"
  },
  {
   "property": "C122",
   "status": "proved",
   "theorems": [
    "C122_sound",
    "C122_complete",
    "C122_optimal",
    "C122_total",
    "C122_cbc",
    "C122_ortools",
    "C122_labels_refuted",
    "C122_same_label_refuted"
   ],
   "note": "the engine is an oracle giving admissible or optimal assignments; refuted: labels out of order, repeated labels"
  },
  {
   "property": "C123",
   "status": "proved",
   "theorems": [
    "C123_sound",
    "C123_complete_encode",
    "C123_complete",
    "C123_optimal",
    "C123_exact",
    "C123_lns",
    "C123_pruned_refuted",
    "C123_lns_refuted",
    "C123_pymip_lns_refuted"
   ],
   "note": "the engine is an oracle giving admissible or optimal assignments; refuted: pruning without solution, rounds from a pruned pair, rounds of python-mip"
  },
  {
   "property": "C124",
   "status": "proved",
   "theorems": [
    "C124_sound",
    "C124_complete",
    "C124_optimal",
    "C124_feasible",
    "C124_names_refuted"
   ],
   "note": "the engine is an oracle giving admissible or optimal assignments; refuted: nodes not named by numbers from 0"
  },
  {
   "property": "C125",
   "status": "proved",
   "theorems": [
    "C125_sound",
    "C125_complete",
    "C125_optimal",
    "C125_start",
    "C125_satisfy",
    "C125_horizon_refuted",
    "C125_ignored_refuted"
   ],
   "note": "the engine is an oracle giving admissible or optimal assignments; refuted: start times when the start schedule is infeasible, modes and end times of a partial solution"
  },
  {
   "property": "C126",
   "status": "proved",
   "theorems": [
    "C126_sound",
    "C126_complete",
    "C126_optimal",
    "C126_non_renewable_refuted",
    "C126_wishes_refuted"
   ],
   "note": "the engine is an oracle giving admissible or optimal assignments; refuted: non-renewable resources, partial solutions"
  },
  {
   "property": "C127",
   "status": "proved",
   "theorems": [
    "C127_complete",
    "C127_sound",
    "C127_cuts",
    "C127_graph",
    "C127_pruned",
    "C127_two_cities_refuted"
   ],
   "note": "the engine, the enumeration of sets and the connected components are oracles; refuted: closed tour through two cities"
  },
  {
   "property": "C128",
   "status": "proved",
   "theorems": [
    "C128_valid",
    "C128_optimal",
    "C128_exact",
    "C128_all_tours",
    "C128_iteration_limit_refuted"
   ],
   "note": "the engine, the enumeration of sets and the connected components are oracles; exact with 2^edges iterations; refuted: optimality when stopped at the iteration limit"
  },
  {
   "property": "C129",
   "status": "proved",
   "theorems": [
    "C129_evaluate",
    "C129_total",
    "C129_bounds",
    "C129_methods",
    "C129_percentiles",
    "C129_median",
    "C129_monotone",
    "C129_order",
    "C129_satisfy_refuted",
    "C129_default_weights"
   ],
   "note": "numbers are rationals; refuted: satisfy looks at the first scenario only"
  },
  {
   "property": "C130",
   "status": "proved",
   "theorems": [
    "C130_evaluate",
    "C130_total",
    "C130_new_permutation",
    "C130_plain_refuted",
    "C130_new_modes_refuted",
    "C130_modes_refuted",
    "C130_satisfy_refuted"
   ],
   "note": "the resource reserve objective is an oracle; refuted: plain robust problem, new modes, missing modes, satisfy"
  },
  {
   "property": "C131",
   "status": "proved",
   "theorems": [
    "C131_between",
    "C131_worst_case",
    "C131_best_case",
    "C131_total",
    "C131_mean_refuted",
    "C131_capacities_refuted"
   ],
   "note": "durations are naturals; refuted: plans for the mean problem, capacities of other scenarios"
  },
  {
   "property": "C132",
   "status": "proved",
   "theorems": [
    "C132_laws",
    "C132_worst_case",
    "C132_best_case",
    "C132_entries",
    "C132_extremes",
    "C132_percentile_refuted",
    "C132_milestone_refuted"
   ],
   "note": "probabilities are an oracle of non-negative numbers; refuted: percentile above the worst case, tasks of length zero"
  },
  {
   "property": "C133",
   "status": "proved",
   "theorems": [
    "C133_value",
    "C133_total",
    "C133_bounds",
    "C133_more_items",
    "C133_no_item",
    "C133_details",
    "C133_open_tour",
    "C133_declared_tours",
    "C133_satisfy_refuted",
    "C133_overload_refuted",
    "C133_elsewhere_refuted",
    "C133_twice_refuted"
   ],
   "note": "square root is an oracle; floats are rationals; refuted: overweight solutions satisfactory, negative durations, division by zero, items taken elsewhere, cities paid twice. mutation_ttp.py is not modelled: it imports names that its source module does not define"
  },
  {
   "property": "C134",
   "status": "proved",
   "theorems": [
    "C134_results",
    "C134_progress",
    "C134_available",
    "C134_waits_for_ever",
    "C134_exception_refuted",
    "C134_notify_refuted",
    "C134_unsent_refuted",
    "C134_two_threads_refuted"
   ],
   "note": "pipes are unbounded FIFOs, each access to a shared cell is one step; refuted: raising jobs answered None, deadlock with notifications, domain lost after a failed send, two threads given the same domain"
  },
  {
   "property": "C135",
   "status": "proved",
   "theorems": [
    "C135_sized",
    "C135_call",
    "C135_refused",
    "C135_exception_refuted",
    "C135_two_pairs_refuted",
    "C135_truncated_refuted",
    "C135_none_refuted",
    "C135_overflow_refuted"
   ],
   "note": "proxy encode/decode are oracles with a round-trip law; operations on a domain are atomic (their registers are disjoint); refuted: raising jobs answered with their arguments, repeated multi-array results unreadable, truncated results, tuples starting with None, overflow into another domain"
  },
  {
   "property": "C136",
   "status": "proved",
   "theorems": [
    "C136_fresh",
    "C136_forward",
    "C136_again",
    "C136_no_reuse_refuted",
    "C136_loop_refuted",
    "C136_merge_refuted"
   ],
   "note": "planners are deterministic oracles; costs are rationals; sequential execution (multithread=False); refuted: second question without reuse, self-loops, merging states"
  },
  {
   "property": "C137",
   "status": "proved",
   "theorems": [
    "C137_flip",
    "C137_bits",
    "C137_flip_short",
    "C137_bit_attribute",
    "C137_int_attribute",
    "C137_integer",
    "C137_integer_any",
    "C137_modes",
    "C137_portfolio",
    "C137_portfolio_errors",
    "C137_catalogue",
    "C137_knapsack_objective",
    "C137_bitflip_value_refuted",
    "C137_shuffle",
    "C137_modes_then_evaluate",
    "C137_random_flip_refuted",
    "C137_mode_objective_refuted",
    "C137_copy_refuted"
   ],
   "note": "random numbers are arguments, floats are rationals; mean_resource_reserve is an arbitrary function of the schedule; refuted: objectives of the bit flip on an evaluated knapsack solution, of the mode mutations, and copies of solutions due for recomputation"
  },
  {
   "property": "C138",
   "status": "proved",
   "theorems": [
    "C138_reevaluate",
    "C138_scheduling",
    "C138_knapsack_refuted",
    "C138_untouched_refuted",
    "C138_modes_refuted",
    "C138_twice_refuted",
    "C138_best_by_objective",
    "C138_super_pareto",
    "C138_minimise_refuted"
   ],
   "note": "plots not modelled; fitness vectors are integers; refuted: knapsack re-evaluation, storages untouched, independence of earlier scenarios, storages listed twice, minimised fronts"
  },
  {
   "property": "C139",
   "status": "proved",
   "theorems": [
    "C139_defined",
    "C139_policy",
    "C139_policy_complete",
    "C139_budget",
    "C139_next_action",
    "C139_tree",
    "C139_novelty",
    "C139_value_refuted",
    "C139_dead_end_refuted",
    "C139_ends_refuted",
    "C139_prefix_refuted",
    "C139_garbage_refuted",
    "C139_ask_refuted"
   ],
   "note": "sequential execution, states hashed by the domain, rational values; refuted: value on graphs that are not trees, termination on loops, dead ends, clearing with environment rollouts, node garbage, values unchanged by requests"
  },
  {
   "property": "C140",
   "status": "proved",
   "theorems": [
    "C140_value",
    "C140_work",
    "C140_range",
    "C140_generated",
    "C140_infeasible",
    "C140_spent_refuted",
    "C140_no_time_refuted",
    "C140_no_capacity_refuted",
    "C140_late_refuted"
   ],
   "note": "constant capacities, exact rationals; refuted: non-renewable resources, zero makespan, zero capacity, sink not last"
  },
  {
   "property": "C141",
   "status": "proved",
   "theorems": [
    "C141_units",
    "C141_distinct",
    "C141_non_renewable",
    "C141_generated",
    "C141_short_refuted",
    "C141_absent_refuted",
    "C141_axis_refuted"
   ],
   "note": "the convolution for the last hours and the plotting margins are not modelled; refuted: demands over capacity, calendars that shrink during a task, axis of schedules whose first end is not the first start"
  },
  {
   "property": "C142",
   "status": "proved",
   "theorems": [
    "C142_consumption",
    "C142_nice",
    "C142_peak",
    "C142_area",
    "C142_diff",
    "C142_edges",
    "C142_bound",
    "C142_built"
   ],
   "note": "plots are not modelled; the other attributes of the edges are functions of the modelled ones"
  },
  {
   "property": "C143",
   "status": "proved",
   "theorems": [
    "C143_step",
    "C143_order",
    "C143_correction",
    "C143_gap",
    "C143_gap_value",
    "C143_latest_refuted",
    "C143_negative_refuted"
   ],
   "note": "capacities are numbers; the aliasing of the copied schedule is described in the model, not modelled; refuted: overall latest placement, negative starts from infeasible schedules"
  },
  {
   "property": "C144",
   "status": "proved",
   "theorems": [
    "C144_tasks",
    "C144_precedences",
    "C144_acyclic",
    "C144_restrict",
    "C144_sink",
    "C144_argument_refuted",
    "C144_cycle_refuted"
   ],
   "note": "capacities are numbers; the ancestors returned by networkx are only assumed to lead to the sink, and for C144_sink also to be all those that do; refuted: the argument is left unchanged, no cycle for arbitrary numbering"
  },
  {
   "property": "C145",
   "status": "proved",
   "theorems": [
    "C145_knapsack",
    "C145_coloring",
    "C145_truncated",
    "C145_unchecked_refuted"
   ],
   "note": "ASCII texts; underscores between digits, which Python accepts, are not modelled; the construction of the graph is not part of it; refuted: edges are checked"
  },
  {
   "property": "C146",
   "status": "proved",
   "theorems": [
    "C146_successors",
    "C146_modes",
    "C146_resources",
    "C146_instance",
    "C146_sections",
    "C146_missing_refuted"
   ],
   "note": "the step from the lines of a section to words and numbers is that of C145, not repeated; numbers are natural; refuted: a line with a number missing is refused"
  },
  {
   "property": "C147",
   "status": "proved",
   "theorems": [
    "C147_facility",
    "C147_vrp"
   ],
   "note": "float() is a parameter; the constructors of the problems, which store their arguments, are not called"
  }
 ]
}