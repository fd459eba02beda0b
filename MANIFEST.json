{
 "claims": [
  {
   "property": "C01",
   "status": "proved",
   "theorems": [
    "C01_check_path_exact",
    "C01_check_path_total"
   ],
   "note": ""
  },
  {
   "property": "C02",
   "status": "proved",
   "theorems": [
    "C02_has_path_history",
    "C02_added_path_recognised"
   ],
   "note": ""
  },
  {
   "property": "C03",
   "status": "proved",
   "theorems": [
    "C03_invalid_path_rejected",
    "C03_failed_add_path_no_effect"
   ],
   "note": ""
  },
  {
   "property": "C04",
   "status": "proved",
   "theorems": [
    "C04_transitions_are_a_set",
    "C04_all_transitions_enumerates"
   ],
   "note": ""
  },
  {
   "property": "C05",
   "status": "partial",
   "theorems": [
    "C05_equality_refuted",
    "C05_equality_partial",
    "C05_equality_exact"
   ],
   "note": "The full statement is false of the code: removing the last transition of a node leaves an empty entry that __eq__ sees. C05_equality_exact says for all histories what equality means: the same transitions and the same nodes from which one was ever added."
  },
  {
   "property": "C06",
   "status": "proved",
   "theorems": [
    "C06_compact_is_quotient"
   ],
   "note": ""
  },
  {
   "property": "C07",
   "status": "proved",
   "theorems": [
    "C07_determinism_check"
   ],
   "note": ""
  },
  {
   "property": "C08",
   "status": "proved",
   "theorems": [
    "C08_conjugate_transitions"
   ],
   "note": "For graphs built by add_path; the KeyError condition is exact."
  },
  {
   "property": "C09",
   "status": "partial",
   "theorems": [
    "C09_conjugate_paths_refuted",
    "C09_conjugate_paths_partial",
    "C09_conjugate_paths_exact"
   ],
   "note": "False when an inner state of the path is terminal; proved otherwise, and C09_conjugate_paths_exact shows that this is the exact condition."
  },
  {
   "property": "C10",
   "status": "partial",
   "theorems": [
    "C10_conjugate_succeeds_refuted",
    "C10_conjugate_succeeds_partial",
    "C10_conjugate_succeeds_exact"
   ],
   "note": "False for one-state paths whose state has no step; C10_conjugate_succeeds_exact gives the exact condition for all histories."
  },
  {
   "property": "C11",
   "status": "proved",
   "theorems": [
    "C11_max_cliques_exact",
    "C11_max_cliques_loops"
   ],
   "note": "C11_max_cliques_loops also says what is found in graphs with self-loops."
  },
  {
   "property": "C12",
   "status": "partial",
   "theorems": [
    "C12_get_max_cliques_refuted",
    "C12_get_max_cliques_partial",
    "C12_get_max_cliques_exact",
    "C12_missed"
   ],
   "note": "False when an action can follow itself (self-loop in the symmetrised graph). Exact characterisation for every graph: the result enumerates the maximal cliques of two nodes or more none of whose nodes has a transition to itself, so a maximal clique is missed if and only if one of its nodes has one."
  },
  {
   "property": "C13",
   "status": "proved",
   "theorems": [
    "C13_chains_are_maximal",
    "C13_chains_exceptions"
   ],
   "note": "For every graph reachable by the API, every label order and every pop order; the exception condition is exact."
  },
  {
   "property": "C14",
   "status": "proved",
   "theorems": [
    "C14_chains_complete",
    "C14_chains_of_conjugates"
   ],
   "note": "Under absence of forced cycles, which conjugates of task graphs satisfy."
  },
  {
   "property": "C15",
   "status": "partial",
   "theorems": [
    "C15_termination_refuted",
    "C15_termination_exact",
    "C15_once_refuted",
    "C15_once_partial",
    "C15_once_exact",
    "C15_never_twice"
   ],
   "note": "False of the code, and characterised exactly. The search does not end if and only if a forced cycle can be reached (C15_termination_exact), and a chain can be yielded twice. C15_once_exact: which chains can, in some order of popping; C15_never_twice: on which graphs no chain ever is. C15_once_partial is a simple sufficient condition."
  },
  {
   "property": "C16",
   "status": "proved",
   "theorems": [
    "C16_graph_export"
   ],
   "note": ""
  },
  {
   "property": "C17",
   "status": "proved",
   "theorems": [
    "C17_export_ids",
    "C17_export_empty"
   ],
   "note": ""
  },
  {
   "property": "C18",
   "status": "partial",
   "theorems": [
    "C18_all_orders",
    "C18_not_copyable",
    "C18_parameters_refuted",
    "C18_parameters_kept_partial"
   ],
   "note": "All n! orders, renaming and structure are proved for every tree of copyable actions; parameters are kept only by the CollaborativeAction of task_to_pomdp, and lost by the copies of supportive and bring-next actions."
  },
  {
   "property": "C19",
   "status": "proved",
   "theorems": [
    "C19_deep_copy"
   ],
   "note": ""
  },
  {
   "property": "C20",
   "status": "partial",
   "theorems": [
    "C20_probabilities_refuted",
    "C20_copy_refuted",
    "C20_probabilities_partial"
   ],
   "note": "False of the code: the constructor overwrites the probabilities by the uniform ones. Validation and assignment are proved."
  },
  {
   "property": "C21",
   "status": "partial",
   "theorems": [
    "C21_to_combination_refuted",
    "C21_to_combination_partial"
   ],
   "note": "False for every MetaAction built by the constructor (KeyError); proved for objects whose kind was reassigned to a combination class."
  },
  {
   "property": "C22",
   "status": "proved",
   "theorems": [
    "C22_find_parent"
   ],
   "note": ""
  },
  {
   "property": "C23",
   "status": "proved",
   "theorems": [
    "C23_find_next_human_action"
   ],
   "note": ""
  },
  {
   "property": "C24",
   "status": "proved",
   "theorems": [
    "C24_find_node_by_name"
   ],
   "note": ""
  },
  {
   "property": "C25",
   "status": "partial",
   "theorems": [
    "C25_round_trip_refuted",
    "C25_round_trip_partial",
    "C25_loader_partial"
   ],
   "note": "False for every tree with a leaf; true for trees without leaves and highlighting. What the loader accepts is characterised exactly."
  },
  {
   "property": "C26",
   "status": "proved",
   "theorems": [
    "C26_paths",
    "C26_names",
    "C26_actions_without_parallel",
    "C26_parameters_lost"
   ],
   "note": "Proved for every observation preserved by copies, in particular names. C26_parameters_lost records that the conditions of supportive actions under a parallel combination are lost."
  },
  {
   "property": "C27",
   "status": "proved",
   "theorems": [
    "C27_builds_iff",
    "C27_well_formed"
   ],
   "note": ""
  },
  {
   "property": "C28",
   "status": "proved",
   "theorems": [
    "C28_decode",
    "C28_encode",
    "C28_setters"
   ],
   "note": ""
  },
  {
   "property": "C29",
   "status": "partial",
   "theorems": [
    "C29_copy_refuted",
    "C29_copy_partial"
   ],
   "note": "False of the code: the copy has one more HTM state, so n_states and is_final differ for every state; the features are preserved."
  },
  {
   "property": "C30",
   "status": "proved",
   "theorems": [
    "C30_quotient"
   ],
   "note": ""
  },
  {
   "property": "C31",
   "status": "partial",
   "theorems": [
    "C31_preferences_refuted",
    "C31_preferences_partial"
   ],
   "note": "False of the code for two or more preferences: the marginals are returned in reverse order."
  },
  {
   "property": "C32",
   "status": "proved",
   "theorems": [
    "C32_names",
    "C32_object_actions",
    "C32_clearable"
   ],
   "note": ""
  },
  {
   "property": "C33",
   "status": "proved",
   "theorems": [
    "C33_total"
   ],
   "note": "At least one preference is assumed, as in the code, where preference 0 is read."
  },
  {
   "property": "C34",
   "status": "proved",
   "theorems": [
    "C34_episodes"
   ],
   "note": ""
  },
  {
   "property": "C35",
   "status": "proved",
   "theorems": [
    "C35_monotone",
    "C35_bounded"
   ],
   "note": ""
  },
  {
   "property": "C36",
   "status": "proved",
   "theorems": [
    "C36_documented",
    "C36_complete",
    "C36_random"
   ],
   "note": "The documented outcomes are exactly those of sample_transition, also with random changes."
  },
  {
   "property": "C37",
   "status": "proved",
   "theorems": [
    "C37_changes"
   ],
   "note": ""
  },
  {
   "property": "C38",
   "status": "proved",
   "theorems": [
    "C38_start"
   ],
   "note": ""
  },
  {
   "property": "C39",
   "status": "partial",
   "theorems": [
    "C39_transitions",
    "C39_htm",
    "C39_finished",
    "C39_copy_counting",
    "C39_copy_refuted",
    "C39_copy_partial"
   ],
   "note": "All counting claims are proved. The copy of a FinishedOrNTransitionsHorizon forgets that a final state was seen, so it is not reached; proved otherwise."
  },
  {
   "property": "C40",
   "status": "proved",
   "theorems": [
    "C40_bayes",
    "C40_exceptions",
    "C40_total_probability",
    "C40_history"
   ],
   "note": "Also along whole histories, against the sum over all paths of states."
  },
  {
   "property": "C41",
   "status": "proved",
   "theorems": [
    "C41_full",
    "C41_drawn",
    "C41_array",
    "C41_sample"
   ],
   "note": "With zero particles the array is the zero vector, as C41_array also says."
  },
  {
   "property": "C42",
   "status": "proved",
   "theorems": [
    "C42_successor",
    "C42_posterior",
    "C42_impossible",
    "C42_reachable"
   ],
   "note": "For any simulator; and, with the POMDP as simulator, particles are exactly the states of positive posterior probability."
  },
  {
   "property": "C43",
   "status": "proved",
   "theorems": [
    "C43_accepts"
   ],
   "note": "Exact characterisation of the accepted inputs. The tolerance and the missing sign check are the subject of C81."
  },
  {
   "property": "C44",
   "status": "partial",
   "theorems": [
    "C44_round_trip_partial",
    "C44_round_trip_refuted"
   ],
   "note": "Proved for every constructed POMDP with at least one action; false for POMDPs without actions, which the constructor accepts."
  },
  {
   "property": "C45",
   "status": "proved",
   "theorems": [
    "C45_randomize"
   ],
   "note": ""
  },
  {
   "property": "C46",
   "status": "proved",
   "theorems": [
    "C46_dump"
   ],
   "note": "Exact decimal arithmetic instead of floating point."
  },
  {
   "property": "C47",
   "status": "partial",
   "theorems": [
    "C47_negative_refuted",
    "C47_nonnegative_partial",
    "C47_threshold"
   ],
   "note": "False of the code: every uniform row with more than 100001 and less than 200000 entries is written with a negative number. Proved for rows that are short compared to their sum. C47_threshold is exact for probabilities: up to 449 entries no negative number is written, and for each greater number of entries there is a row for which one is."
  },
  {
   "property": "C48",
   "status": "proved",
   "theorems": [
    "C48_reads",
    "C48_only",
    "C48_missing_vector"
   ],
   "note": "Every written value function is read back; anything accepted is of that form. Number syntax is an oracle."
  },
  {
   "property": "C49",
   "status": "partial",
   "theorems": [
    "C49_reads_partial",
    "C49_blank_lines_refuted",
    "C49_accepts",
    "C49_errors",
    "C49_no_blank",
    "C49_one_space_refuted"
   ],
   "note": "Policy graph files written without blank lines are read back. A blank line makes the parser raise ValueError (finding). C49_accepts and C49_errors give the outcome for every file, and C49_no_blank shows that the claim on blank lines never holds. C49_one_space_refuted: with a single space after the action the first transition is lost in silence (finding)."
  },
  {
   "property": "C50",
   "status": "partial",
   "theorems": [
    "C50_accepts",
    "C50_refused",
    "C50_out_of_range_refuted",
    "C50_well_formed_partial"
   ],
   "note": "The accepted outputs are characterised exactly. The check on transitions is off by one, so a transition to the node after the last one is accepted and leads to IndexError (finding). Proved for transitions to existing nodes."
  },
  {
   "property": "C51",
   "status": "proved",
   "theorems": [
    "C51_best",
    "C51_error"
   ],
   "note": "Exact rational arithmetic."
  },
  {
   "property": "C52",
   "status": "partial",
   "theorems": [
    "C52_follows_partial",
    "C52_reset",
    "C52_impossible_refuted",
    "C52_wanders",
    "C52_lost_refuted",
    "C52_back"
   ],
   "note": "Runs follow the table. After Impossible the runner has lost its node (finding). C52_wanders and C52_lost_refuted give the outcome of every step of every history for a caller who catches the exceptions: an observation may be accepted in silence after an impossible one (finding). C52_back: a reset always repairs."
  },
  {
   "property": "C53",
   "status": "proved",
   "theorems": [
    "C53_start",
    "C53_tracks"
   ],
   "note": "For POMDPs with stochastic tables and policies with one value vector per node."
  },
  {
   "property": "C54",
   "status": "proved",
   "theorems": [
    "C54_tree",
    "C54_after_run"
   ],
   "note": ""
  },
  {
   "property": "C55",
   "status": "partial",
   "theorems": [
    "C55_several_starts_refuted",
    "C55_single_start_partial",
    "C55_exact"
   ],
   "note": "With two possible start states only one tree is returned, rooted in a vector that is not a distribution (finding). Proved for a single possible start state. C55_exact says what is returned for any number of start states: the tree of the uniform distribution over them, except for the belief written at the root."
  },
  {
   "property": "C56",
   "status": "proved",
   "theorems": [
    "C56_visit",
    "C56_closed"
   ],
   "note": "Includes termination: the fuel of the loop never runs out. Distances are compared squared."
  },
  {
   "property": "C57",
   "status": "proved",
   "theorems": [
    "C57_alpha",
    "C57_plain",
    "C57_last",
    "C57_bounds",
    "C57_update"
   ],
   "note": "Averages over the rationals."
  },
  {
   "property": "C58",
   "status": "proved",
   "theorems": [
    "C58_counts",
    "C58_simulation"
   ],
   "note": "For every search problem (any belief representation and source of randomness) and every sequence of operations."
  },
  {
   "property": "C59",
   "status": "proved",
   "theorems": [
    "C59_untried",
    "C59_best"
   ],
   "note": ""
  },
  {
   "property": "C60",
   "status": "proved",
   "theorems": [
    "C60_start",
    "C60_filtered",
    "C60_exact",
    "C60_particles"
   ],
   "note": "C60_filtered for any belief update; C60_exact says that with exact beliefs this is the Bayes filter."
  },
  {
   "property": "C61",
   "status": "proved",
   "theorems": [
    "C61_simulation",
    "C61_get_action",
    "C61_step"
   ],
   "note": "Any outcome of the random draws; stronger than stated: get_action never raises."
  },
  {
   "property": "C62",
   "status": "proved",
   "theorems": [
    "C62_rollout",
    "C62_length",
    "C62_new_node",
    "C62_simulation"
   ],
   "note": ""
  },
  {
   "property": "C63",
   "status": "proved",
   "theorems": [
    "C63_history",
    "C63_step",
    "C63_last_kept"
   ],
   "note": "C63_last_kept: the last action is not cleared by a step, so a second step reuses it (finding)."
  },
  {
   "property": "C64",
   "status": "proved",
   "theorems": [
    "C64_forced",
    "C64_current",
    "C64_tree",
    "C64_exclusion"
   ],
   "note": "All interleavings of the critical sections of one user thread and the explorer; the parts of step and reset outside the lock are one atomic step each."
  },
  {
   "property": "C65",
   "status": "proved",
   "theorems": [
    "C65_tables"
   ],
   "note": "Whenever a POMDP is returned. Which options and tasks give one is C66. The non-negativity of T needs sensible parameters and an exponential with values in [0, 1] on negative numbers, the only facts used about np.exp."
  },
  {
   "property": "C66",
   "status": "partial",
   "theorems": [
    "C66_usable_refuted",
    "C66_usable_partial"
   ],
   "note": "structured always raises AttributeError (self.t_com does not exist), loop with reward_state and loop with several possible first leaves always raise ValueError (findings). Proved: every other combination works, for every task with distinct leaf names."
  },
  {
   "property": "C67",
   "status": "proved",
   "theorems": [
    "C67_moves",
    "C67_follow",
    "C67_start"
   ],
   "note": "C67_moves gives every entry of T."
  },
  {
   "property": "C68",
   "status": "partial",
   "theorems": [
    "C68_tables",
    "C68_usable_partial",
    "C68_refused",
    "C68_usable_refuted"
   ],
   "note": "Every POMDP that is returned has stochastic tables, and one is returned for every task without parallel combination. No task with a parallel combination has a POMDP (finding: the copies lose their objects)."
  },
  {
   "property": "C69",
   "status": "partial",
   "theorems": [
    "C69_restart_partial",
    "C69_restart_refuted"
   ],
   "note": "True exactly when the first leaves are equally likely: otherwise the restart is uniform and the start is not (finding)."
  },
  {
   "property": "C70",
   "status": "proved",
   "theorems": [
    "C70_record",
    "C70_total",
    "C70_supportive",
    "C70_raises"
   ],
   "note": "For any model the start state itself is not tested for being final; on supportive models it never is."
  },
  {
   "property": "C71",
   "status": "partial",
   "theorems": [
    "C71_return_refuted",
    "C71_return_partial"
   ],
   "note": "False of the code: the rewards are discounted in reverse order. What is returned is characterised; it is the return when there is no discount."
  },
  {
   "property": "C72",
   "status": "proved",
   "theorems": [
    "C72_bounded",
    "C72_results",
    "C72_failure",
    "C72_cause",
    "C72_terminates"
   ],
   "note": "RepeatPool as a step function with an arbitrary environment of result and exit events: bound on live processes, results exactly those pushed, failures reported, causes of failures, termination when every process ends. Processes killed by a signal are not reported as failed until the queue is found empty."
  },
  {
   "property": "C73",
   "status": "proved",
   "theorems": [
    "C73_constructed",
    "C73_order",
    "C73_progress",
    "C73_step_twice",
    "C73_no_leg_refuted"
   ],
   "note": "All histories of requests, turns and resets. Findings: two steps in a row raise ValueError; bring leg is not looked for at construction."
  },
  {
   "property": "C74",
   "status": "proved",
   "theorems": [
    "C74_features",
    "C74_place",
    "C74_out_of_board",
    "C74_present",
    "C74_set",
    "C74_name"
   ],
   "note": "Boards of any size; indices as numpy takes them (negative ones count from the end). Parts out of the board raise IndexError."
  },
  {
   "property": "C75",
   "status": "proved",
   "theorems": [
    "C75_orders",
    "C75_vertical_horizontal",
    "C75_negative_refuted",
    "C75_task",
    "C75_two_orders",
    "C75_shown"
   ],
   "note": "All sizes, unless both are negative (v_first then has parts that do not exist). Also the tasks built from orders, and their POMDP."
  },
  {
   "property": "C76",
   "status": "proved",
   "theorems": [
    "C76_decodes",
    "C76_every",
    "C76_refused"
   ],
   "note": "All texts of ps with blanks around them; every number of seconds has one."
  },
  {
   "property": "C77",
   "status": "proved",
   "theorems": [
    "C77_built",
    "C77_stochastic",
    "C77_probability_refuted",
    "C77_final",
    "C77_waiting"
   ],
   "note": "All tables. Numbers that are not probabilities are accepted."
  },
  {
   "property": "C78",
   "status": "proved",
   "theorems": [
    "C78_constructed",
    "C78_check",
    "C78_prepost",
    "C78_lengths"
   ],
   "note": "Masks of zeros and ones for the check; the constructor is characterised for every mask."
  },
  {
   "property": "C79",
   "status": "partial",
   "theorems": [
    "C79_conditions_partial",
    "C79_prepost_partial",
    "C79_places",
    "C79_named",
    "C79_parts",
    "C79_snap_partial",
    "C79_belief_partial",
    "C79_dtype_refuted",
    "C79_meta_refuted",
    "C79_set_refuted",
    "C79_snap_refuted",
    "C79_compare_refuted"
   ],
   "note": "False as stated: proved for actions compared by name, placements, conditions of arrays of one type without negative zeros, states iterated in one order; refuted for MetaActions of pre/post-condition actions, MetaActions of sets, states iterated in different orders, arrays of different types; some comparisons raise."
  },
  {
   "property": "C80",
   "status": "partial",
   "theorems": [
    "C80_builds_partial",
    "C80_parallel_refuted"
   ],
   "note": "False of the code: no model can be built from a task with a parallel combination, because copies of the actions lose their conditions. The tasks that have a model are characterised exactly."
  },
  {
   "property": "C81",
   "status": "partial",
   "theorems": [
    "C81_sampling_refuted",
    "C81_sampling_partial",
    "C81_start_partial",
    "C81_transition_partial",
    "C81_never_raises_partial"
   ],
   "note": "False of the code: the constructor accepts negative entries and sums that random choice rejects. Proved for exact stochastic tables; for every accepted POMDP, Props_Sample.v says for each draw whether sampling raises (always ValueError) and what it returns otherwise, with the probabilities divided by their sum."
  },
  {
   "property": "C82",
   "status": "proved",
   "theorems": [
    "C82_array_belief",
    "C82_successor"
   ],
   "note": ""
  },
  {
   "property": "C83",
   "status": "partial",
   "theorems": [
    "C83_round_trip",
    "C83_constructed_partial",
    "C83_exact_partial",
    "C83_refused",
    "C83_extra_values_refuted"
   ],
   "note": "Policies built from a start belief with more value vectors than nodes cannot be read back (finding)."
  },
  {
   "property": "C84",
   "status": "proved",
   "theorems": [
    "C84_stop",
    "C84_no_deadlock",
    "C84_returns"
   ],
   "note": "Same model as C64."
  },
  {
   "property": "C85",
   "status": "proved",
   "theorems": [
    "C85_costs"
   ],
   "note": ""
  },
  {
   "property": "C86",
   "status": "proved",
   "theorems": [
    "C86_observations"
   ],
   "note": ""
  },
  {
   "property": "C87",
   "status": "proved",
   "theorems": [
    "C87_names"
   ],
   "note": ""
  },
  {
   "property": "C88",
   "status": "partial",
   "theorems": [
    "C88_same_partial",
    "C88_same_refuted",
    "C88_same_exact"
   ],
   "note": "True without deterministic. With deterministic the human goes on uniformly, which differs from the probabilities used for the robot when alternatives are nested (finding). C88_same_exact: with deterministic it holds for a leaf exactly when what follows is equally likely (or the robot always fails)."
  },
  {
   "property": "C89",
   "status": "proved",
   "theorems": [
    "C89_moves"
   ],
   "note": ""
  },
  {
   "property": "C90",
   "status": "proved",
   "theorems": [
    "C90_observations"
   ],
   "note": ""
  },
  {
   "property": "C91",
   "status": "proved",
   "theorems": [
    "C91_costs"
   ],
   "note": ""
  },
  {
   "property": "C92",
   "status": "proved",
   "theorems": [
    "C92_names"
   ],
   "note": ""
  },
  {
   "property": "C93",
   "status": "proved",
   "theorems": [
    "C93_compact_keeps_the_task"
   ],
   "note": "All reachable graphs, sets of nodes and new nodes; walks of any length."
  },
  {
   "property": "C94",
   "status": "proved",
   "theorems": [
    "C94_hierarchy_extraction"
   ],
   "note": "All tasks, orders and schedules, with an explicit bound on the turns of the loops. With self-loops the code can miss cliques (C12), which the statement shows."
  },
  {
   "property": "C95",
   "status": "proved",
   "theorems": [
    "C95_kinds",
    "C95_shared",
    "C95_filtered",
    "C95_counts",
    "C95_history",
    "C95_kept",
    "C95_exact",
    "C95_exact_shared",
    "C95_simulation",
    "C95_get_action",
    "C95_step",
    "C95_unshared"
   ],
   "note": "All histories of operations, all searches; beliefs are exact rationals (floats may not be equal when posteriors are). belief_params are ignored by the code."
  },
  {
   "property": "C96",
   "status": "proved",
   "theorems": [
    "C96_exact",
    "C96_values",
    "C96_file",
    "C96_quotient",
    "C96_unaffected",
    "C96_action",
    "C96_shared",
    "C96_shared_policy",
    "C96_cycle"
   ],
   "note": "All searches, histories and draws. The hypothesis in_range (beliefs are only filtered for observations of the model) is proved for exact beliefs. The writing of the file and the limit on the depth of calls are not modelled."
  },
  {
   "property": "C97",
   "status": "proved",
   "theorems": [
    "C97_draws",
    "C97_start",
    "C97_sample",
    "C97_transition"
   ],
   "note": "Finite probability spaces with rational weights. A draw is uniform when it is below each cumulated probability of the tables with that probability; C97_draws shows that such draws exist for all tables, for all fine enough grids."
  },
  {
   "property": "C98",
   "status": "proved",
   "theorems": [
    "C98_initial",
    "C98_unbiased",
    "C98_posterior"
   ],
   "note": "All numbers of particles and all simulators that do not raise, for sequences of independent draws at least as long as can be used."
  },
  {
   "property": "C99",
   "status": "proved",
   "theorems": [
    "C99_draws",
    "C99_rollout",
    "C99_particles",
    "C99_first",
    "C99_new"
   ],
   "note": "Horizons of n transitions. Rollouts for exact and particle beliefs, first simulations for exact beliefs (with particles the belief after an observation can fail, see C98)."
  },
  {
   "property": "C100",
   "status": "proved",
   "theorems": [
    "C100_draws",
    "C100_step",
    "C100_start",
    "C100_tests",
    "C100_ask",
    "C100_drift"
   ],
   "note": "Numbers that a step does not use are drawn all the same, which does not change the law."
  },
  {
   "property": "C101",
   "status": "proved",
   "theorems": [
    "C101_follows"
   ],
   "note": ""
  },
  {
   "property": "C102",
   "status": "proved",
   "theorems": [
    "C102_finishing",
    "C102_never",
    "C102_quiet",
    "C102_sequence",
    "C102_repeat_never",
    "C102_random"
   ],
   "note": ""
  },
  {
   "property": "C103",
   "status": "proved",
   "theorems": [
    "C103_bound",
    "C103_near"
   ],
   "note": ""
  },
  {
   "property": "C104",
   "status": "proved",
   "theorems": [
    "C104_defaults",
    "C104_class",
    "C104_new",
    "C104_load",
    "C104_kept",
    "C104_changed",
    "C104_given",
    "C104_present",
    "C104_shown"
   ],
   "note": "The values of dictionaries are not themselves changed in place."
  },
  {
   "property": "C105",
   "status": "proved",
   "theorems": [
    "C105_run",
    "C105_success",
    "C105_failure",
    "C105_cause",
    "C105_read",
    "C105_separate",
    "C105_job",
    "C105_no_name",
    "C105_not_loaded"
   ],
   "note": "What a subclass and the policy do is arbitrary, but does not change the dictionaries."
  },
  {
   "property": "C106",
   "status": "proved",
   "theorems": [
    "C106_multitask",
    "C106_bound",
    "C106_smooth",
    "C106_preference",
    "C106_never_hold",
    "C106_refused"
   ],
   "note": "The POMCP policy is arbitrary; random numbers, the schedule of processes and clocks are arguments. A process that fails and one that gives no result are not distinguished in the exception of the parent."
  },
  {
   "property": "C107",
   "status": "proved",
   "theorems": [
    "C107_told",
    "C107_ends",
    "C107_stopped",
    "C107_evaluation",
    "C107_supportive",
    "C107_no_preference",
    "C107_shown",
    "C107_display",
    "C107_two_characters"
   ],
   "note": "The log holds rewards, total and probability of the preference as numbers. Without preferences no trajectory is told to its end."
  },
  {
   "property": "C108",
   "status": "proved",
   "theorems": [
    "C108_names"
   ],
   "note": ""
  },
  {
   "property": "C109",
   "status": "partial",
   "theorems": [
    "C109_bar",
    "C109_nothing_to_do",
    "C109_end",
    "C109_progress",
    "C109_done",
    "C109_too_much",
    "C109_clear_partial",
    "C109_clear_refuted"
   ],
   "note": "False for clear_progress_bar: with counts, exactly the bars of less than 50 to do are erased (C109_clear_partial). Divisions are exact and numbers are natural; colors are not modelled."
  },
  {
   "property": "C110",
   "status": "partial",
   "theorems": [
    "C110_equivalence",
    "C110_conditions_partial",
    "C110_presence_refuted",
    "C110_prepost_partial",
    "C110_prepost_exact",
    "C110_tree_partial",
    "C110_symmetry_refuted"
   ],
   "note": "False as stated (findings): a presence condition compared with the condition that is always met raises AttributeError, as does a pre/post-condition action compared with an abstract action (C79_compare_refuted); an action of a subclass of AbstractAction with the name of a meta-action equals it, but not the other way round. Proved for all other pairs of conditions, for pre/post-condition actions without presence conditions, and for all nested meta-actions on lists of abstract actions whose names do not begin with a parenthesis."
  },
  {
   "property": "C111",
   "status": "proved",
   "theorems": [
    "C111_discounted",
    "C111_horizon",
    "C111_pomdp",
    "C111_horizon_refuted"
   ],
   "note": "With a horizon of n transitions the bound of n rewards alone is false (C111_horizon_refuted: value 3/2 with one transition of reward 1): a simulation that ends on a node adds the value of the node, which simulations from deeper histories have averaged over a whole horizon from there. C111_horizon is proved for the runner without the thread of AsyncPOMCPPolicyRunner; C111_discounted also with it."
  },
  {
   "property": "C112",
   "status": "proved",
   "theorems": [
    "C112_space",
    "C112_total",
    "C112_law",
    "C112_return",
    "C112_finish"
   ],
   "note": "Independent uniform draws are finite spaces in which the compared thresholds have their probabilities. With a discount the returned value is the reversed discounted sum (finding of C71), which C112_law covers as such."
  },
  {
   "property": "C113",
   "status": "partial",
   "theorems": [
    "C113_text_partial",
    "C113_written",
    "C113_converted",
    "C113_names_refuted"
   ],
   "note": "False for names that are not identifiers of the format (C113_names_refuted): names with spaces, single names that are numbers, keywords. Proved for all models whose names are identifiers or that are only counted (C113_text_partial), and for every model made from a task whose leaves have names of letters, digits, dashes, underscores and spaces (C113_converted). The reader in DumpSpec.v is written from the format, not from the code."
  },
  {
   "property": "C114",
   "status": "proved",
   "theorems": [
    "C114_call",
    "C114_no_call",
    "C114_result",
    "C114_clean",
    "C114_policy",
    "C114_described_partial",
    "C114_ignored"
   ],
   "note": "The solver is any function from its command line and the files to the files it leaves and an exit code or an exception. C114_policy uses the formats of C48 and C49; C114_described_partial is C113 for the file given to the solver, with the same condition on names. Not modelled: failures to make or to remove the temporary directory."
  },
  {
   "property": "C115",
   "status": "proved",
   "theorems": [
    "C115_sequence",
    "C115_uniform",
    "C115_alternative",
    "C115_stool",
    "C115_even",
    "C115_models",
    "C115_none"
   ],
   "note": "Steps are told by name, preferred hold and needed objects (LegsSpec.v); executions are those of C26. C115_even is about the graph of leaves that SupportivePOMDP uses."
  },
  {
   "property": "C116",
   "status": "proved",
   "theorems": [
    "C116_nodes",
    "C116_limit",
    "C116_breadth",
    "C116_depth",
    "C116_best",
    "C116_unknown",
    "C116_shared",
    "C116_shared_orders",
    "C116_shared_unlimited"
   ],
   "note": "The layout of the heap is not modelled, only that heappop returns the least element. Comparison of an integer with a string (TypeError) is not modelled: names at the same place of two histories are of the same kind. The script itself cannot be run as it is: see DESIGN.md section 4."
  },
  {
   "property": "C117",
   "status": "proved",
   "theorems": [
    "C117_episodes",
    "C117_possible",
    "C117_completable",
    "C117_chances"
   ],
   "note": "Executions are those of C26 (DagSpec.executes); actions are identified by their name without order suffixes and their parameters. With deterministic, the probabilities after the human are others: C88_same_refuted."
  },
  {
   "property": "C118",
   "status": "proved",
   "theorems": [
    "C118_episodes",
    "C118_possible",
    "C118_chances"
   ],
   "note": "No POMDP is returned for tasks with a parallel combination (C68_usable_refuted), so the actions of an execution are the very actions of the task."
  },
  {
   "property": "C119",
   "status": "proved",
   "theorems": [
    "C119_tried",
    "C119_horizon",
    "C119_get_action",
    "C119_uct",
    "C119_relative_refuted"
   ],
   "note": "C119_uct shows that terms within an absolute and a relative error (a fifth) of sqrt(log(N)/n) explore enough, as the hypothesis on the exploration term asks; it uses the axioms of Coq's real numbers (DESIGN.md, section 3). Simulations from any node with a forced action, as the thread of AsyncPOMCPPolicyRunner makes them, are outside the property."
  },
  {
   "property": "C120",
   "status": "proved",
   "theorems": [
    "C120_prepare",
    "C120_job",
    "C120_isolated",
    "C120_collected",
    "C120_multitask_exps",
    "C120_pomcp_exps",
    "C120_preference_exps",
    "C120_names",
    "C120_defaults",
    "C120_multitask",
    "C120_always_hold",
    "C120_preference_refuted"
   ],
   "note": "The file names given to jobs by the library expjobs are arbitrary: the hypothesis `separate` says that they are distinct. That the preference launcher's results can be plotted is false: C120_preference_refuted."
  },
  {
   "property": "C121",
   "status": "proved",
   "theorems": [
    "C121_stepwise",
    "C121_make_L",
    "C121_two_rows",
    "C121_wraps_refuted",
    "C121_script",
    "C121_printed"
   ],
   "note": "C121_two_rows is exact for all accepted rows; C121_wraps_refuted shows the two rows where the L is broken. Two states are the same when they are built from the same list of parts (see C79 for the hash of states). EqDec is any decision of equality."
  },
  {
   "property": "C122",
   "status": "proved",
   "theorems": [
    "C122_discounted",
    "C122_harmonic"
   ],
   "note": "The counterpart of C111 for shared nodes; C111_horizon has no counterpart, by C122_harmonic. C122_ex is a search of the tiger with a node of negative value."
  },
  {
   "property": "C123",
   "status": "proved",
   "theorems": [
    "C123_action",
    "C123_before",
    "C123_errors",
    "C123_after_refuted"
   ],
   "note": "C123_before is exact: the text is the one specified if and only if there is one. C123_ex has two histories with the same text."
  },
  {
   "property": "C124",
   "status": "proved",
   "theorems": [
    "C124_values",
    "C124_nan",
    "C124_labels",
    "C124_plot",
    "C124_colors",
    "C124_cmap",
    "C124_junk",
    "C124_ticklabels_refuted"
   ],
   "note": "The library that draws is not modelled: an axis is what these functions set in it."
  },
  {
   "property": "C125",
   "status": "proved",
   "theorems": [
    "C125_tried",
    "C125_get_action",
    "C125_horizon_refuted"
   ],
   "note": "The counterpart of C119 for shared nodes; C119_uct gives the hypothesis on the exploration term. The count is that of the actions of the node: the number of simulations of the node itself also counts rollouts from several parents (C95). Simulations with a forced action are outside the property."
  },
  {
   "property": "C126",
   "status": "proved",
   "theorems": [
    "C126_executions",
    "C126_built",
    "C126_follows",
    "C126_stool",
    "C126_chair"
   ],
   "note": "Names are compared up to case and spaces, as the states are named. Structured, and loop with reward_state, are not supported: C66."
  },
  {
   "property": "C127",
   "status": "proved",
   "theorems": [
    "C127_average",
    "C127_stool",
    "C127_chair"
   ],
   "note": "Averages are those of the tables of the POMDP; the reward for having reached the end is not counted. Of the exponential only the values at - t_ask / t_human matter: they must be in [0, 1) for the actions given to the human (or deterministic set)."
  },
  {
   "property": "C128",
   "status": "proved",
   "theorems": [
    "C128_average"
   ],
   "note": "With deterministic, what follows an action of the human is drawn uniformly (C88), so that nested alternatives do not count for their mean: hence only the robot acts there. The reward for having reached the end is not counted."
  },
  {
   "property": "C129",
   "status": "proved",
   "theorems": [
    "C129_results",
    "C129_parameters",
    "C129_again"
   ],
   "note": "json of the standard library is modelled as far as it is used: values instead of text, exact floats, no circular objects."
  },
  {
   "property": "C130",
   "status": "proved",
   "theorems": [
    "C130_model",
    "C130_policy",
    "C130_trajectories",
    "C130_export"
   ],
   "note": "Composes C44, C83, C54 and C96 with the writing of JSON of C129. JSON is modelled as values, names are integers or texts."
  },
  {
   "property": "C131",
   "status": "proved",
   "theorems": [
    "C131_action",
    "C131_horizon",
    "C131_chosen",
    "C131_chosen_horizon",
    "C131_pomdp",
    "C131_particles"
   ],
   "note": "Says when the choice is certain; C111 bounds values, C59 says the choice has the greatest value. Uses alpha from 0 to 1. The version with a horizon excludes simulations from nodes other than the runner's, and counts steps before a reset (see C111)."
  },
  {
   "property": "C132",
   "status": "proved",
   "theorems": [
    "C132_shown",
    "C132_few"
   ],
   "note": "For the tree without belief_values, with it see C133; the percentage and the text are not modelled."
  },
  {
   "property": "C133",
   "status": "proved",
   "theorems": [
    "C133_untried",
    "C133_best",
    "C133_shown"
   ],
   "note": "C59 and C132 say this for trees; C125 is about trying every action many times, under further hypotheses. The percentage and the text are not modelled."
  },
  {
   "property": "C134",
   "status": "proved",
   "theorems": [
    "C134_action",
    "C134_chosen",
    "C134_pomdp"
   ],
   "note": "C131 for trees shared by belief. Uses alpha from 0 to 1 and a discount below one: without discount values have no bound (C122), and no version with a horizon is true in general."
  },
  {
   "property": "C135",
   "status": "proved",
   "theorems": [
    "C135_drawn",
    "C135_lengths",
    "C135_deviation",
    "C135_mesh"
   ],
   "note": "What is given to the library that draws. Samples are exact rationals and deviations real numbers: uses the axioms of the real numbers of the standard library."
  }
 ]
}