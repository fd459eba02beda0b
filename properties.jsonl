{"id": "C01", "title": "check_path accepts exactly the valid paths", "statement": "check_path(path) returns True exactly when path is empty or an alternation state, action, state, ..., state in which every action checks against the states around it; it returns False for every other list, and never raises when the action checks do not.", "quantifier": "every list of states, actions and foreign objects, every action check", "why_tests_cant": "lists of every length and every mix of item kinds", "anchors": ["task_models/task.py:check_path", "task_models/action.py:PrePostConditionAction.check"]}
{"id": "C02", "title": "has_path after any history of add_path", "statement": "After any sequence of add_path calls on a new TaskGraph, has_path(q) is True for a valid path q exactly when q is empty or its first state starts an added path, its last state ends an added path and each of its steps occurs in some added path. In particular every added path is recognised for ever after.", "quantifier": "every history of add_path calls, every queried path", "why_tests_cant": "unbounded histories and paths", "anchors": ["task_models/task.py:TaskGraph.add_path", "task_models/task.py:TaskGraph.has_path", "task_models/task.py:split_path"]}
{"id": "C03", "title": "invalid paths are rejected without side effect", "statement": "add_path and has_path raise ValueError on a path check_path rejects, and a rejected add_path leaves transitions, initial and terminal unchanged.", "quantifier": "every graph, every invalid path", "why_tests_cant": "every reachable graph and every malformed path", "anchors": ["task_models/task.py:TaskGraph.add_path", "task_models/task.py:TaskGraph.has_path"]}
{"id": "C04", "title": "transitions behave like a set of triples", "statement": "For any sequence of add_transition and remove_transition calls, has_transition answers as a plain mathematical set of (source, label, destination) triples would, remove_transition raises KeyError exactly when the triple is absent, and all_transitions lists each triple once.", "quantifier": "every operation sequence and query", "why_tests_cant": "unbounded histories", "anchors": ["task_models/task.py:BaseGraph.add_transition", "task_models/task.py:BaseGraph.remove_transition", "task_models/task.py:BaseGraph.has_transition", "task_models/task.py:BaseGraph.all_transitions"]}
{"id": "C05", "title": "graph equality means same transitions", "statement": "Two graphs compare equal exactly when they contain the same transitions.", "quantifier": "every pair of graphs produced by any histories", "why_tests_cant": "equality must be right for all pairs of histories, including those with removals", "anchors": ["task_models/task.py:BaseGraph.__eq__"]}
{"id": "C06", "title": "compact is the quotient by the compacted nodes", "statement": "After compact(nodes, new_node) the graph has exactly: the old transitions that touch none of the nodes, unchanged, and, with an empty label, one transition per old transition with exactly one end in nodes, that end replaced by new_node. Inner transitions disappear. The call never raises and the result does not depend on set iteration order.", "quantifier": "every graph, every node set, every new_node (also one already in the graph or in nodes), every iteration order", "why_tests_cant": "all graphs and iteration orders", "anchors": ["task_models/task.py:BaseGraph.compact"]}
{"id": "C07", "title": "determinism check", "statement": "check_only_deterministic_transitions raises ValueError exactly when some state has two transitions with the same action and different destinations.", "quantifier": "every task graph", "why_tests_cant": "all graphs and set iteration orders", "anchors": ["task_models/task.py:TaskGraph.check_only_deterministic_transitions"]}
{"id": "C08", "title": "conjugate graph has exactly the specified transitions", "statement": "When conjugate() succeeds, its transitions are exactly: initial -s-> a for each initial state s with outgoing action a; a -s-> terminal for each transition reaching a terminal state s by a; a -s-> a2 for each transition reaching a non-terminal s by a, and each outgoing a2 of s. It fails with ValueError on non-deterministic graphs and with KeyError exactly when an initial or reached non-terminal state was never the source of a transition.", "quantifier": "every task graph, every iteration order", "why_tests_cant": "all graphs", "anchors": ["task_models/task.py:ConjugateTaskGraph.from_task_graph"]}
{"id": "C09", "title": "every task path is a path of the conjugate", "statement": "For every non-singleton path accepted by has_path, the conjugate graph contains initial -s0-> a1 -s1-> ... an -sn-> terminal.", "quantifier": "every task graph and every accepted path", "why_tests_cant": "all paths through all graphs", "anchors": ["task_models/task.py:TaskGraph.conjugate", "task_models/task.py:ConjugateTaskGraph.from_task_graph"]}
{"id": "C10", "title": "conjugate never fails on a deterministic task", "statement": "conjugate() succeeds on every deterministic task graph built from valid paths by add_path.", "quantifier": "every history of add_path calls", "why_tests_cant": "all histories", "anchors": ["task_models/task.py:ConjugateTaskGraph.from_task_graph"]}
{"id": "C11", "title": "max_cliques enumerates the maximal cliques", "statement": "On a symmetric graph without self-loops max_cliques yields exactly the maximal cliques with at least two nodes, each exactly once.", "quantifier": "every finite symmetric irreflexive graph, every set iteration order", "why_tests_cant": "all graphs; the number of cliques is exponential", "anchors": ["task_models/task.py:max_cliques", "task_models/task.py:_bron_kerbosch"]}
{"id": "C12", "title": "get_max_cliques on conjugate graphs", "statement": "get_max_cliques yields exactly the maximal cliques of the relation \"connected in both directions\" of the conjugate graph, whatever transitions it has (including an action that can follow itself).", "quantifier": "every conjugate graph", "why_tests_cant": "all graphs, also those with self-loops", "anchors": ["task_models/task.py:ConjugateTaskGraph.get_max_cliques"]}
{"id": "C13", "title": "chains returned are maximal chains", "statement": "Every list yielded by get_max_chains is a chain of at least two nodes (each node has a unique successor, and each non-first node a unique predecessor, in the list) and cannot be extended at either end.", "quantifier": "every graph whose initial node has no predecessor, every set pop order", "why_tests_cant": "all graphs and pop orders", "anchors": ["task_models/task.py:ConjugateTaskGraph.get_max_chains"]}
{"id": "C14", "title": "all maximal chains are found and the search terminates", "statement": "On every conjugate graph in which no reachable cycle is made of nodes with a unique successor, get_max_chains terminates and yields every maximal chain reachable from initial.", "quantifier": "every graph, every pop order", "why_tests_cant": "all graphs and pop orders; non-termination is invisible to tests", "anchors": ["task_models/task.py:ConjugateTaskGraph.get_max_chains"]}
{"id": "C15", "title": "each maximal chain is returned once and the search always terminates", "statement": "get_max_chains terminates on every conjugate graph and yields every chain only once.", "quantifier": "every conjugate graph, every pop order", "why_tests_cant": "pop order of a set is not controllable from a test", "anchors": ["task_models/task.py:ConjugateTaskGraph.get_max_chains"]}
{"id": "C16", "title": "graph export is faithful", "statement": "as_dictionary numbers the nodes 0..n-1 without repetition, and its links, read back through that numbering, are exactly the transitions of the graph.", "quantifier": "every graph", "why_tests_cant": "all graphs", "anchors": ["task_models/task.py:BaseGraph.as_dictionary"]}
{"id": "C17", "title": "task export ids", "statement": "HierarchicalTask.as_dictionary gives the nodes of the tree the ids 0,1,2,... in depth-first preorder, each node naming its parent id (None for the root), with name, kind and highlighting preserved, and restarts at 0 on each call.", "quantifier": "every task tree", "why_tests_cant": "trees of all shapes", "anchors": ["task_models/task.py:HierarchicalTask.as_dictionary", "task_models/task.py:Combination.as_dictionary", "task_models/task.py:int_generator"]}
{"id": "C18", "title": "parallel to alternative enumerates all orders", "statement": "to_alternative on a parallel combination of n children yields n! sequences; the i-th is the i-th permutation of the children (every permutation once), every node in it renamed with suffix \" order-i\" and structure and action parameters preserved.", "quantifier": "every parallel combination of copyable actions", "why_tests_cant": "n! grows with every n; nesting is unbounded", "anchors": ["task_models/task.py:ParallelCombination.to_alternative", "task_models/task.py:Combination._deep_copy_children"]}
{"id": "C19", "title": "deep copies preserve structure", "statement": "deep_copy returns a tree of the same shape, kinds, order and highlighting in which each name is the renamed original; it fails exactly when some leaf action has no copy method.", "quantifier": "every combination tree and rename format", "why_tests_cant": "all trees", "anchors": ["task_models/task.py:LeafCombination.deep_copy", "task_models/task.py:SequentialCombination.deep_copy", "task_models/task.py:AbstractAction.copy", "task_models/task_to_pomdp.py:CollaborativeAction.copy"]}
{"id": "C20", "title": "alternative probabilities given at construction are used", "statement": "AlternativeCombination(children, probabilities=p) has proba p, and deep copies keep it; invalid probabilities are rejected with ValueError.", "quantifier": "every child list and probability list", "why_tests_cant": "all vectors", "anchors": ["task_models/task.py:AlternativeCombination.proba", "task_models/task.py:AlternativeCombination.__init__"]}
{"id": "C21", "title": "meta-actions expand to combinations", "statement": "to_combination of a MetaAction yields the combination of its kind over its actions, recursively.", "quantifier": "every meta action", "why_tests_cant": "all nestings", "anchors": ["task_models/task.py:MetaAction.to_combination", "task_models/task.py:COMBINATION_CLASSES"]}
{"id": "C22", "title": "find_parent_node finds the parent", "statement": "find_parent_node(root, i) returns a node having a child with idx i whenever a non-root node of the tree has idx i, and None otherwise; with distinct ids it is the unique parent.", "quantifier": "every tree and id", "why_tests_cant": "all trees", "anchors": ["task_models/task.py:HierarchicalTask.find_parent_node"]}
{"id": "C23", "title": "find_next_human_action finds the next human leaf", "statement": "When ids increase in preorder, find_next_human_action(root, i) returns the human leaf with the smallest id greater than i, and None when there is none.", "quantifier": "every tree with preorder ids, every index", "why_tests_cant": "all trees", "anchors": ["task_models/task.py:HierarchicalTask.find_next_human_action"]}
{"id": "C24", "title": "find_node_by_name search", "statement": "find_node_by_name(root, name) returns the first non-root node in preorder whose lower-cased name contains name, None if there is none.", "quantifier": "every tree and name", "why_tests_cant": "all trees and names", "anchors": ["task_models/task.py:HierarchicalTask.find_node_by_name"]}
{"id": "C25", "title": "task JSON round trip", "statement": "A task exported with as_dictionary can be read back by build_htm, giving an equal tree.", "quantifier": "every task", "why_tests_cant": "all tasks", "anchors": ["task_models/json_to_htm.py:build_htm", "task_models/task.py:HierarchicalTask.as_dictionary"]}
{"id": "C26", "title": "DAG paths are exactly the executions of the task", "statement": "The leaf sequences obtained from the DAG of an HTM, starting in init and following succs until there is none, are exactly the executions of the HTM: children in order for sequences, one child for alternatives, all children in any order for parallels.", "quantifier": "every HTM of copyable actions with non-empty combinations", "why_tests_cant": "all trees, exponential number of paths", "anchors": ["task_models/supportive.py:_HTMToDAG"]}
{"id": "C27", "title": "DAG is well formed", "statement": "The DAG has one node per leaf (after expansion of parallels), init is non-empty and in range, and successor indices are in range and strictly greater than their source, so following successors always terminates.", "quantifier": "every HTM", "why_tests_cant": "all trees", "anchors": ["task_models/supportive.py:_HTMToDAG.get_initial_final"]}
{"id": "C28", "title": "state codec", "statement": "The integer encoding of supportive states is a bijection between [0, n_states) and tuples (HTM node, preferences, body features, objects): every getter returns the last value set, setting one feature changes no other, and values stay in [0, n_states).", "quantifier": "every state, every feature and value", "why_tests_cant": "2^n states", "anchors": ["task_models/supportive.py:_SupportivePOMDPState"]}
{"id": "C29", "title": "state copy", "statement": "copy() of a supportive state is indistinguishable from the original (same fields, is_final, n_states).", "quantifier": "every state", "why_tests_cant": "all sizes", "anchors": ["task_models/supportive.py:_SupportivePOMDPState.copy"]}
{"id": "C30", "title": "belief_quotient marginalises on the HTM node", "statement": "belief_quotient(b)[h] is the total mass of the states whose HTM feature is h; total mass is preserved.", "quantifier": "every belief array, every sizes", "why_tests_cant": "all arrays and sizes", "anchors": ["task_models/supportive.py:_SupportivePOMDPState.belief_quotient"]}
{"id": "C31", "title": "belief_preferences gives the marginal of each preference", "statement": "belief_preferences(b)[i] is the total mass of the states that have preference i.", "quantifier": "every belief array, every number of preferences", "why_tests_cant": "all arrays and sizes", "anchors": ["task_models/supportive.py:_SupportivePOMDPState.belief_preferences"]}
{"id": "C32", "title": "object action tables", "statement": "For every task, the action list has n_actions entries, each bring/clear action index maps to the object named in the action name and back, bring and clear are told apart, and an object is clearable exactly when some leaf uses or partially consumes it.", "quantifier": "every list of leaf conditions", "why_tests_cant": "all condition lists", "anchors": ["task_models/supportive.py:SupportivePOMDP._populate_conditions", "task_models/supportive.py:SupportivePOMDP._init_object_actions_indices", "task_models/supportive.py:SupportivePOMDP._obj_from_action", "task_models/supportive.py:SupportivePOMDP.actions"]}
{"id": "C33", "title": "transitions are total and stay in range", "statement": "From every state in [0, n_states) and every action index below n_actions sample_transition returns a state in [0, n_states) and an observation in range for all random draws; any other non-negative action raises ValueError.", "quantifier": "every model, state, action and random outcome", "why_tests_cant": "all random outcomes", "anchors": ["task_models/supportive.py:SupportivePOMDP.sample_transition"]}
{"id": "C34", "title": "simulated episodes follow the task", "statement": "In every simulated episode from a start state, for all actions and random outcomes, the leaves completed so far form a prefix of an execution of the HTM, and the episode has reached the final state only if they form a complete execution.", "quantifier": "every HTM, action sequence and random outcome", "why_tests_cant": "unbounded episodes", "anchors": ["task_models/supportive.py:SupportivePOMDP.sample_transition", "task_models/supportive.py:SupportivePOMDP.sample_start", "task_models/supportive.py:_HTMToDAG"]}
{"id": "C35", "title": "progress is monotone and final is absorbing", "statement": "The HTM component never decreases along an episode, a final state stays final for ever, the final state is only entered by waiting in the cleaning state, and an episode changes HTM node at most (number of nodes + 1) times.", "quantifier": "every episode", "why_tests_cant": "unbounded episodes", "anchors": ["task_models/supportive.py:SupportivePOMDP.sample_transition"]}
{"id": "C36", "title": "rewards and observations follow the specification", "statement": "With random=False the reward and observation of sample_transition are those documented: action costs, subtask, preference and final rewards, get costs for missing or left-over objects, FAIL for undesired holds, YES/NO for questions, NOT_FOUND for useless object actions.", "quantifier": "every state and action", "why_tests_cant": "all states", "anchors": ["task_models/supportive.py:SupportivePOMDP.sample_transition", "task_models/supportive.py:SupportivePOMDP._update_for_transition"]}
{"id": "C37", "title": "only the documented features change", "statement": "With random=False sample_transition changes only the HTM feature and the objects conditioned by the completed node (consumed objects absent, used objects present afterwards), or the single object of a bring/clear action; preferences and body features never change.", "quantifier": "every state and action", "why_tests_cant": "all states", "anchors": ["task_models/supportive.py:SupportivePOMDP._update_for_condition", "task_models/supportive.py:SupportivePOMDP.sample_transition"]}
{"id": "C38", "title": "start states", "statement": "sample_start returns a state in range whose HTM feature is an initial leaf of the task.", "quantifier": "every model and random outcome", "why_tests_cant": "all random outcomes", "anchors": ["task_models/supportive.py:SupportivePOMDP.sample_start"]}
{"id": "C39", "title": "horizons count what they say", "statement": "A transitions horizon is reached after exactly n decrements; an HTM horizon exactly after n HTM changes or on the final state; a finished-or-n horizon after n transitions or on a final last state; copy() yields a horizon with the same future behaviour.", "quantifier": "every n and every transition history", "why_tests_cant": "unbounded histories", "anchors": ["task_models/lib/pomcp.py:NTransitionsHorizon", "task_models/supportive.py:NHTMHorizon", "task_models/evaluation.py:FinishedOrNTransitionsHorizon"]}
{"id": "C40", "title": "belief update is Bayes rule", "statement": "belief_update(a, o, b) is the normalised posterior over end states; it is a probability vector when b is, and raises Impossible exactly when the observation has probability zero.", "quantifier": "every POMDP, belief, action and observation", "why_tests_cant": "all models (real-valued)", "anchors": ["task_models/lib/pomdp.py:POMDP.belief_update"]}
{"id": "C41", "title": "particle beliefs are full and drawn from the sampler", "statement": "A constructed ParticleBelief has exactly n_particles particles, each returned by the sampler; its array sums to one with support the particles; construction fails only if the sampler gives up before any particle. Sampling it gives one of its particles, each for some draw, or raises ValueError if there is none.", "quantifier": "every sampler behaviour and positive particle number", "why_tests_cant": "all sampler behaviours", "anchors": ["task_models/lib/belief.py:ParticleBelief._populate", "task_models/lib/belief.py:ParticleBelief.array"]}
{"id": "C42", "title": "particle successor is consistent with the observation", "statement": "Every particle of successor(model, a, o) is the end state of a sampled transition with action a and observation o from a particle of the belief, and at most 100 * n_particles transitions are sampled.", "quantifier": "every model, belief and random outcome", "why_tests_cant": "all random outcomes", "anchors": ["task_models/lib/belief.py:_SuccessorSampler", "task_models/lib/belief.py:ParticleBelief.successor"]}
{"id": "C43", "title": "POMDP construction validates", "statement": "POMDP(...) succeeds exactly when array shapes match the names, rows of T, O and start sum to one up to tolerance, names are unique, values is reward or cost and discount is in [0, 1]; costs are negated exactly once.", "quantifier": "all arrays and names", "why_tests_cant": "all inputs", "anchors": ["task_models/lib/pomdp.py:POMDP.__init__", "task_models/lib/utils.py:assert_normal"]}
{"id": "C44", "title": "POMDP dict round trip", "statement": "from_dict(to_dict(p)) is a POMDP with the same arrays, names and discount (rewards are not negated again).", "quantifier": "every valid POMDP", "why_tests_cant": "all models", "anchors": ["task_models/lib/pomdp.py:POMDP.to_dict", "task_models/lib/pomdp.py:POMDP.from_dict"]}
{"id": "C45", "title": "randomize", "statement": "randomize(p) with p > 0 keeps T and O row-stochastic and makes every entry positive, so that no observation is Impossible any more.", "quantifier": "every valid POMDP with non-negative entries and every p > 0", "why_tests_cant": "all models", "anchors": ["task_models/lib/pomdp.py:POMDP.randomize"]}
{"id": "C46", "title": "dumped rows keep their sum", "statement": "The 5-decimal numbers written by dump for a row add up exactly to the rounded sum of the row, and each number but one is the rounded entry.", "quantifier": "every row", "why_tests_cant": "all vectors", "anchors": ["task_models/lib/pomdp.py:_dump_1d_array"]}
{"id": "C47", "title": "dumped probabilities are not negative", "statement": "dump never writes a negative number for a row of non-negative numbers.", "quantifier": "every non-negative row", "why_tests_cant": "all sizes", "anchors": ["task_models/lib/pomdp.py:_dump_1d_array"]}
{"id": "C48", "title": "value function parsing", "statement": "parse_value_function reads back any list of (action, vector) blocks in file order, ignoring blank lines anywhere, raises ValueFunctionParseError exactly when the last action has no vector.", "quantifier": "every file", "why_tests_cant": "all files", "anchors": ["task_models/lib/pomdp.py:parse_value_function"]}
{"id": "C49", "title": "policy graph parsing", "statement": "parse_policy_graph reads back any policy graph in file order, \"-\" meaning no transition; blank lines are skipped.", "quantifier": "every file", "why_tests_cant": "all files", "anchors": ["task_models/lib/pomdp.py:parse_policy_graph"]}
{"id": "C50", "title": "loaded policies are well formed", "statement": "A policy accepted by load_policy_from only has transitions to existing nodes, so following it never fails with an index error.", "quantifier": "all solver outputs", "why_tests_cant": "all files", "anchors": ["task_models/lib/pomdp.py:POMDP.load_policy_from"]}
{"id": "C51", "title": "policy node selection", "statement": "get_node_from_belief returns the first node whose value vector has the greatest scalar product with the belief.", "quantifier": "every value table and belief", "why_tests_cant": "all values", "anchors": ["task_models/lib/pomdp.py:GraphPolicy.get_node_from_belief"]}
{"id": "C52", "title": "policy runner steps", "statement": "GraphPolicyRunner follows the transition table from init along any observation sequence; a step that raises leaves the runner where it was.", "quantifier": "every policy and observation history", "why_tests_cant": "all histories", "anchors": ["task_models/lib/pomdp.py:GraphPolicyRunner.step", "task_models/lib/pomdp.py:GraphPolicy.next"]}
{"id": "C53", "title": "belief runner tracks the Bayes filter", "statement": "After any sequence of successful steps the runner belief is the Bayes filter of the start belief along the (action, observation) history and its node is the best node for it; a step that raises leaves it unchanged.", "quantifier": "every POMDP, policy and observation history", "why_tests_cant": "all histories", "anchors": ["task_models/lib/pomdp.py:GraphPolicyBeliefRunner.step"]}
{"id": "C54", "title": "trajectory tree", "statement": "trajectory_tree(h) contains at every node exactly one child per possible observation down to depth h, with beliefs given by the Bayes filter, and leaves the runner unchanged.", "quantifier": "every POMDP, policy, horizon", "why_tests_cant": "all trees", "anchors": ["task_models/lib/pomdp.py:GraphPolicyBeliefRunner.trajectory_tree"]}
{"id": "C55", "title": "one trajectory tree per possible start", "statement": "trajectory_trees_from_starts returns one tree for each state of positive start probability, rooted in the belief concentrated on that state.", "quantifier": "every start distribution", "why_tests_cant": "all start distributions", "anchors": ["task_models/lib/pomdp.py:GraphPolicyBeliefRunner.trajectory_trees_from_starts"]}
{"id": "C56", "title": "policy graph from beliefs is well formed", "statement": "visit() returns a policy in which every transition leads to an existing node, node beliefs are pairwise at least tol apart, and there are at most max_states + number of observations nodes.", "quantifier": "every POMDP, policy, bound", "why_tests_cant": "all models", "anchors": ["task_models/lib/pomdp.py:_Aux.visit", "task_models/lib/pomdp.py:_Aux.index", "task_models/lib/pomdp.py:GraphPolicyBeliefRunner.visit"]}
{"id": "C57", "title": "value average", "statement": "The value of a search node is the plain average of its updates when alpha = 0, the last update when alpha = 1, and always lies between the smallest and largest update.", "quantifier": "every update sequence and alpha in [0, 1]", "why_tests_cant": "all sequences", "anchors": ["task_models/lib/pomcp.py:_ValueAverage"]}
{"id": "C58", "title": "visit counts are consistent", "statement": "In every search tree reached by simulations, an observation node has been visited as often as all its actions together, plus at most one (its initial rollout); the count of a simulated node grows by one per simulation.", "quantifier": "every history of simulations, all random outcomes", "why_tests_cant": "all histories", "anchors": ["task_models/lib/pomcp.py:_SearchTree._simulate_from_node"]}
{"id": "C59", "title": "chosen actions are explored and best", "statement": "If get_action runs at least n_actions simulations with a non-reached horizon, every action of the current node has been tried and the returned action has the greatest average value; while some action is untried, search only picks untried actions.", "quantifier": "every model, tree and random outcome", "why_tests_cant": "all random outcomes", "anchors": ["task_models/lib/pomcp.py:POMCPPolicyRunner.get_action", "task_models/lib/pomcp.py:_SearchObservationNode.get_best_action"]}
{"id": "C60", "title": "search tree beliefs are the filtered beliefs", "statement": "Whatever the interleaving of simulations, steps and resets, each observation node reached by a history holds the belief obtained by filtering the start belief along that history.", "quantifier": "all operation sequences", "why_tests_cant": "all histories", "anchors": ["task_models/lib/pomcp.py:_SearchTree.get_node", "task_models/lib/pomcp.py:_SearchTree._simulate_from_node"]}
{"id": "C61", "title": "simulation never meets an impossible observation", "statement": "With exact beliefs, a simulation from a node never raises Impossible, since the sampled state always has positive belief.", "quantifier": "every POMDP and random outcome of positive probability", "why_tests_cant": "all random outcomes", "anchors": ["task_models/lib/pomcp.py:_SearchTree._simulate_from_node", "task_models/lib/pomdp.py:POMDP.belief_update"]}
{"id": "C62", "title": "rollouts are discounted sums", "statement": "A rollout returns the discounted sum of the rewards of the transitions it samples, the first one undiscounted, stopping exactly when the horizon is reached; the search back-propagates r + discount * return.", "quantifier": "every model, horizon and random outcome", "why_tests_cant": "all runs", "anchors": ["task_models/lib/pomcp.py:_SearchTree._one_rollout_from_node", "task_models/lib/pomcp.py:_SearchTree.rollout_from_node"]}
{"id": "C63", "title": "policy runner history", "statement": "After any sequence of get_action/step/reset the history is the list of (action, observation) pairs since the last reset, step without action raises ValueError, and a step that raises leaves history and node unchanged.", "quantifier": "all operation sequences", "why_tests_cant": "all histories", "anchors": ["task_models/lib/pomcp.py:POMCPPolicyRunner.step", "task_models/lib/pomcp.py:POMCPPolicyRunner.reset"]}
{"id": "C64", "title": "asynchronous exploration targets", "statement": "Under every interleaving the background thread explores either with no forced action or with the action last chosen by the user at the very node it explores.", "quantifier": "all thread interleavings", "why_tests_cant": "schedules are not controllable", "anchors": ["task_models/lib/pomcp.py:AsyncPOMCPPolicyRunner"]}
{"id": "C65", "title": "HTM to POMDP gives probability tables", "statement": "For every task tree task_to_pomdp builds T, O and start whose rows are probability distributions, with 3 states and 4 actions per leaf (plus wait and end).", "quantifier": "every tree, parameters and flag combination documented", "why_tests_cant": "all trees", "anchors": ["task_models/task_to_pomdp.py:HTMToPOMDP.task_to_pomdp", "task_models/task_to_pomdp.py:_LeafToPOMDP.update_T", "task_models/task_to_pomdp.py:_LeafToPOMDP.update_O"]}
{"id": "C66", "title": "all options of HTMToPOMDP are usable", "statement": "task_to_pomdp succeeds for every combination of deterministic, structured, loop, reward_state and subtask_reward.", "quantifier": "every tree and flags", "why_tests_cant": "all trees and flag combinations", "anchors": ["task_models/task_to_pomdp.py:HTMToPOMDP"]}
{"id": "C67", "title": "moves of the task POMDP follow the task", "statement": "In the POMDP of a task, from the states of a leaf only its own states and the initial state of leaves that may follow it (or end) have positive probability.", "quantifier": "every tree", "why_tests_cant": "all trees", "anchors": ["task_models/task_to_pomdp.py:_SequenceToPOMDP.update_T", "task_models/task_to_pomdp.py:_AlternativesToPOMDP.update_T"]}
{"id": "C68", "title": "bring-next POMDP gives probability tables", "statement": "For every task tree over known objects the bring-next POMDP has T, O and start rows that are probability distributions.", "quantifier": "every tree and flags", "why_tests_cant": "all trees", "anchors": ["task_models/bring_next_to_pomdp.py:HTMToPOMDP.task_to_pomdp"]}
{"id": "C69", "title": "looping bring-next restarts from the start distribution", "statement": "With loop=True the end state leads back to the start distribution of the task.", "quantifier": "every tree", "why_tests_cant": "all trees", "anchors": ["task_models/bring_next_to_pomdp.py:HTMToPOMDP.update_T_end"]}
{"id": "C70", "title": "evaluation records are consistent", "statement": "simulate_one_evaluation returns n actions, observations and rewards and n+1 states with n <= max_horizon, each recorded step being a model transition; it stops exactly at the first final state or after max_horizon steps. It raises exactly when the policy or the model does on the way, when the policy names an unknown action (ValueError) or the model draws an unnamed observation (IndexError).", "quantifier": "every model, policy and random outcome", "why_tests_cant": "all runs", "anchors": ["task_models/evaluation.py:simulate_one_evaluation"]}
{"id": "C71", "title": "evaluation return is the discounted return", "statement": "The reported return is the sum of gamma^t * r_t.", "quantifier": "every run and discount", "why_tests_cant": "all runs", "anchors": ["task_models/evaluation.py:simulate_one_evaluation"]}
{"id": "C72", "title": "repeat returns one result per repetition", "statement": "repeat(f, n) starts exactly n processes, never more than n_processes at a time, and if none fails returns exactly the n results, for every scheduling of the workers; it raises if one fails.", "quantifier": "all schedules and failures", "why_tests_cant": "schedules are not controllable", "anchors": ["task_models/utils/multiprocess.py:RepeatPool.run"]}
{"id": "C73", "title": "scripted policy order", "statement": "PolicyLongSupportiveSequence always brings the three tools first, then alternates leg and hold for each subtask, then clears the tools, then waits, for any observation history; it only raises on unexpected observations.", "quantifier": "all observation histories", "why_tests_cant": "all histories", "anchors": ["task_models/policy.py:PolicyLongSupportiveSequence"]}
{"id": "C74", "title": "snap circuit placement", "statement": "PlaceAction.check(before, after) holds exactly when the part is absent at the location before and present after; feature vectors have a one exactly at the parts of the state.", "quantifier": "all boards, parts and states", "why_tests_cant": "all boards", "anchors": ["task_models/snap_circuit.py:PlaceAction", "task_models/snap_circuit.py:PartPresenceCondition", "task_models/snap_circuit.py:SnapCircuitState.features"]}
{"id": "C75", "title": "tower orders are valid", "statement": "v_first and h_first are permutations of all the parts, in which every part comes after the part below it in its tower. The task made of orders is shown as an alternative of sequences with the names of the orders, whose leaves are the parts in order.", "quantifier": "all heights and tower numbers", "why_tests_cant": "all sizes", "anchors": ["task_models/tower_problem.py:TowerProblem"]}
{"id": "C76", "title": "elapsed time parsing", "statement": "get_process_elapsed_time decodes every ps etime string [[dd-]hh:]mm:ss into the number of seconds it denotes.", "quantifier": "all durations", "why_tests_cant": "all strings", "anchors": ["task_models/utils/multiprocess.py:get_process_elapsed_time"]}
{"id": "C77", "title": "hold and release model is valid", "statement": "hold_and_release_pomdp builds row-stochastic tables for every probability of finishing, the final state is absorbing and only the physical action reaches it from state one.", "quantifier": "all parameters", "why_tests_cant": "all real parameters", "anchors": ["task_models/hold_and_release.py:hold_and_release_pomdp"]}
{"id": "C78", "title": "conditions and pre/post actions", "statement": "A condition checks exactly that the masked features have the required values, and a pre/post action checks its pre-condition before and its post-condition after; a condition with a required value outside its mask is rejected.", "quantifier": "all masks, values and states", "why_tests_cant": "all vectors", "anchors": ["task_models/action.py:Condition", "task_models/action.py:PrePostConditionAction"]}
{"id": "C79", "title": "equal objects have equal hashes", "statement": "Actions, meta-actions and states that compare equal have equal hashes, as needed by the dictionaries and sets of the graphs.", "quantifier": "all pairs of objects", "why_tests_cant": "all pairs, all set iteration orders", "anchors": ["task_models/action.py:PrePostConditionAction.__eq__", "task_models/task.py:MetaAction.__eq__", "task_models/snap_circuit.py:SnapCircuitState.__hash__"]}
{"id": "C80", "title": "supportive models exist for all supportive tasks", "statement": "SupportivePOMDP can be built from every hierarchical task all of whose leaves are supported actions and all of whose combinations have children, whatever combinations are used.", "quantifier": "every task tree", "why_tests_cant": "all trees", "anchors": ["task_models/supportive.py:SupportivePOMDP.__init__", "task_models/supportive.py:SupportivePOMDP._populate_conditions", "task_models/supportive.py:SupportedAction", "task_models/task.py:AbstractAction.copy", "task_models/task.py:ParallelCombination"]}
{"id": "C81", "title": "accepted POMDPs can be sampled", "statement": "sample_start and sample_transition of a constructed POMDP never raise, only return outcomes of positive probability with the reward of the table, and each outcome is obtained exactly for a set of random draws whose measure is its probability.", "quantifier": "every accepted POMDP, state, action and random draw", "why_tests_cant": "all models and draws", "anchors": ["task_models/lib/pomdp.py:POMDP.sample_transition", "task_models/lib/pomdp.py:POMDP.sample_start", "task_models/lib/pomdp.py:POMDP.__init__"]}
{"id": "C82", "title": "exact beliefs stay valid", "statement": "ArrayBelief accepts exactly the vectors that sum to one up to the tolerance; successor(model, a, o) is accepted whenever belief_update returns, so it only raises what belief_update raises.", "quantifier": "every vector, model, action and observation", "why_tests_cant": "all models (real-valued)", "anchors": ["task_models/lib/belief.py:ArrayBelief"]}
{"id": "C83", "title": "policies survive a round trip through dictionaries", "statement": "GraphPolicy.from_dict(policy.to_dict()) is the same policy (actions, observations, transitions, values and initial node) for every policy the constructor accepts.", "quantifier": "every policy accepted by the constructor", "why_tests_cant": "all tables", "anchors": ["task_models/lib/pomdp.py:GraphPolicy.to_dict", "task_models/lib/pomdp.py:GraphPolicy.from_dict"]}
{"id": "C84", "title": "stopping the asynchronous runner", "statement": "After stop has taken effect the background thread does at most one more exploration, stop returns only once the thread has finished, no call of the runner can deadlock with the thread, and stop cannot wait for ever.", "quantifier": "all thread interleavings", "why_tests_cant": "schedules are not controllable", "anchors": ["task_models/lib/pomcp.py:AsyncPOMCPPolicyRunner"]}
{"id": "C85", "title": "costs of the task POMDP", "statement": "The reward table of the POMDP of a task is, for every action, state and next state, minus the cost of the action: its duration plus the intrinsic cost (except for waiting), the duration of the robot for its successful physical action, minus the subtask reward when a leaf is left, and the end reward when waiting once the task is over.", "quantifier": "every tree, parameters and flags for which a POMDP is built", "why_tests_cant": "all trees", "anchors": ["task_models/task_to_pomdp.py:_LeafToPOMDP.update_R", "task_models/task_to_pomdp.py:HTMToPOMDP.update_R_end"]}
{"id": "C86", "title": "observations of the task POMDP", "statement": "In the POMDP of a task every action has exactly one observation in each state reached: error or none for physical actions depending on whether the leaf has just been done, yes or no for who does the leaf, and asking whether a leaf is finished is answered yes exactly in the states that come after the leaf in some run of the task (and at the end).", "quantifier": "every tree, parameters and flags for which a POMDP is built", "why_tests_cant": "all trees", "anchors": ["task_models/task_to_pomdp.py:_LeafToPOMDP.update_O", "task_models/task_to_pomdp.py:_SequenceToPOMDP.update_O"]}
{"id": "C87", "title": "names of the task POMDP", "statement": "States and actions of the POMDP of a task are named after the leaf they belong to, in the order of the leaves, and names never clash in a POMDP that is returned.", "quantifier": "every tree, parameters and flags for which a POMDP is built", "why_tests_cant": "all trees", "anchors": ["task_models/task_to_pomdp.py:_LeafToPOMDP.states", "task_models/task_to_pomdp.py:_LeafToPOMDP.actions"]}
{"id": "C88", "title": "what follows a leaf does not depend on who does it", "statement": "In the POMDP of a task, once a leaf is done, the probabilities of the leaves that follow are the same whether the human or the robot did it.", "quantifier": "every tree, parameters and flags for which a POMDP is built", "why_tests_cant": "all trees", "anchors": ["task_models/task_to_pomdp.py:_LeafToPOMDP.update_T"]}
{"id": "C89", "title": "moves of the bring-next POMDP", "statement": "In the POMDP of a bring-next task, bringing the object that the current leaf needs leads to the leaves that may follow it, with the probabilities of the task; any other action leaves the state unchanged; the end is absorbing without loop; the start distribution is that of the task.", "quantifier": "every tree, costs and flags for which a POMDP is built, every state and action", "why_tests_cant": "all trees", "anchors": ["task_models/bring_next_to_pomdp.py:_LeafToPOMDP.update_T", "task_models/bring_next_to_pomdp.py:HTMToPOMDP.update_T_end"]}
{"id": "C90", "title": "observations of the bring-next POMDP", "statement": "Asking whether an object is needed is answered yes exactly in the states whose leaf needs it and no elsewhere (or not at all with probability 0.1 with the no-answer flag); bringing an object is observed as an error unless the state reached follows a leaf that needs it.", "quantifier": "every tree, costs and flags for which a POMDP is built, every state and action", "why_tests_cant": "all trees", "anchors": ["task_models/bring_next_to_pomdp.py:_LeafToPOMDP.update_O", "task_models/bring_next_to_pomdp.py:HTMToPOMDP.init_O"]}
{"id": "C91", "title": "costs of the bring-next POMDP", "statement": "Asking costs the communication cost, bringing the object needed costs the cost of bringing, bringing any other object costs the error cost, and the end of the task earns the end reward (when it is reached, or with loop when it is left).", "quantifier": "every tree, costs and flags for which a POMDP is built, every transition", "why_tests_cant": "all trees", "anchors": ["task_models/bring_next_to_pomdp.py:_LeafToPOMDP.update_R", "task_models/bring_next_to_pomdp.py:HTMToPOMDP.update_R_end"]}
{"id": "C92", "title": "names of the bring-next POMDP", "statement": "The actions of the bring-next POMDP are get and ask for each object in order, its states are one per leaf in order and the end; names never clash and every leaf brings a known object in a POMDP that is returned.", "quantifier": "every tree, costs and flags for which a POMDP is built", "why_tests_cant": "all trees", "anchors": ["task_models/bring_next_to_pomdp.py:HTMToPOMDP.task_to_pomdp"]}
{"id": "C93", "title": "compacting a conjugate graph keeps the task", "statement": "Compacting nodes of a conjugate graph into a new one never fails on a graph built by additions, removals and compactions; the graph becomes the quotient of the old one, the new node becomes where the task starts (ends) exactly when it replaces the node where it started (ended), and every walk from start to end remains one once each stay in the compacted nodes is replaced by the new node.", "quantifier": "every graph, set of nodes, new node and iteration order", "why_tests_cant": "walks have any length", "anchors": ["task_models/task.py:ConjugateTaskGraph.compact", "task_models/task.py:BaseGraph.compact"]}
{"id": "C94", "title": "extraction of a hierarchy", "statement": "Repeatedly compacting a maximal chain into a sequence, or else a maximal clique into a parallel group, always terminates without exception; at the end each action of the task is exactly once in exactly one part, one part follows another exactly when one of its actions can follow one of the other, each sequence is a sequence of parts that can only follow each other in that order, each parallel group has parts that can follow each other both ways, and no chain that the task can reach and (unless an action can follow itself) no parallel group is left.", "quantifier": "every task given by paths of actions with one step at least, every iteration order and choice of set.pop", "why_tests_cant": "all tasks and orders; termination", "anchors": ["samples/test_hierarchies.py", "task_models/task.py:ConjugateTaskGraph.get_max_chains", "task_models/task.py:BaseGraph.get_max_cliques", "task_models/task.py:MetaAction"]}
{"id": "C95", "title": "search with nodes shared by belief", "statement": "The search that shares nodes by belief has one node per belief: two histories lead to the same node exactly when their posteriors are equal, and each node holds the posterior of the start distribution given any history that leads to it. Nodes, beliefs and links are never lost, counts only grow and each node has at least as many simulations as its actions together. History, current node and last action of the policy runner are those of its operations. With exact beliefs no simulation and no choice of action raises, cycles between nodes notwithstanding, and a step raises exactly when the observation has probability zero. Other kinds of beliefs raise ValueError on creation. As long as no two histories lead to one node, every operation gives the outcome it has without sharing.", "quantifier": "every POMDP, start distribution, outcome of the random draws, parameters and history of operations", "why_tests_cant": "all histories of operations; graphs with cycles of any size", "anchors": ["task_models/lib/pomcp.py:_ObservationLookupSearchTree", "task_models/lib/pomcp.py:POMCPPolicyRunner", "task_models/lib/belief.py:ArrayBelief.__eq__"]}
{"id": "C96", "title": "exports of search trees", "statement": "The dictionary of a search tree, read by the names of actions and observations, has one entry for every node, with its value, visits, belief, tried actions and observations, and no other entry. The file of export_pomcp holds a policy for the tree: at each node an action never tried if there is one, else the first of greatest value, with the values, visits and terms of all actions, and a child for each observation made after it (numbered by position, or by observation with belief_as_quotient). Exporting never raises after any history of operations and does not change what the policy runner does next. With nodes shared by belief the export ends although nodes can lead back to one another, describes every reachable node completely the first time and briefly afterwards; with belief_as_quotient it never returns when there is such a cycle.", "quantifier": "every search, history of operations and outcome of the random draws", "why_tests_cant": "all trees; graphs with cycles; all later operations", "anchors": ["task_models/lib/pomcp.py:_SearchObservationNode.to_dict", "task_models/lib/pomcp.py:_SearchActionNode.to_dict", "task_models/lib/pomcp.py:_ObservationLookupSearchTree.to_dict", "task_models/lib/pomcp.py:export_pomcp"]}
{"id": "C97", "title": "samples of a POMDP follow its tables", "statement": "For uniform random draws, sample_start returns each state with its start probability, ArrayBelief.sample each state with its probability in the belief, and sample_transition goes to s' and observes o with probability T(s'|s,a) O(o|s',a), with the reward of the table. Expected values of any function of the sample, such as the reward, follow.", "quantifier": "every POMDP with stochastic tables, state, action and belief, and every pair of independent uniform draws", "why_tests_cant": "frequencies of samples only suggest a distribution; the law must be exact for all tables", "anchors": ["task_models/lib/pomdp.py:POMDP.sample_start", "task_models/lib/pomdp.py:POMDP.sample_transition", "task_models/lib/belief.py:ArrayBelief.sample"]}
{"id": "C98", "title": "particle beliefs are unbiased", "statement": "The first particles of a belief are independent samples of the start. After an action and an observation, the particle belief of n particles raises MaxSamplesReached with probability exactly (1 - P(o))^(100 n), where P(o) is the probability of the observation under the belief that the particles stand for; when it does not, the expected frequency of each state is exactly its probability given the observation, also when particles are duplicated because the limit on samples was reached. For a POMDP this is the exact Bayes update.", "quantifier": "every simulator, number of particles, set of particles, action and observation, over independent random draws", "why_tests_cant": "an average over all random draws, to be exact for all models and numbers of particles", "anchors": ["task_models/lib/belief.py:ParticleBelief", "task_models/lib/belief.py:_SuccessorSampler"]}
{"id": "C99", "title": "rollouts are unbiased", "statement": "The expected return of the rollouts from a node is exactly the expected discounted reward of choosing actions uniformly from the states of its belief over the transitions left (whatever rollout_it), and with exact beliefs so is that of the first simulation from a new node; the first simulation through an action has the expected reward of this action followed by random ones, although its rollout starts from a state drawn again from the updated belief. None of these raises.", "quantifier": "every POMDP, belief, horizon, number of rollouts, exploration setting, over independent random draws", "why_tests_cant": "an average over all random draws that must be exact for all models", "anchors": ["task_models/lib/pomcp.py:_SearchTree.rollout_from_node", "task_models/lib/pomcp.py:_SearchTree._one_rollout_from_node", "task_models/lib/pomcp.py:_SearchTree._simulate_from_node"]}
{"id": "C100", "title": "probabilities of the supportive simulator", "statement": "For uniform random draws, a random step of the supportive simulator first changes each object with probability p_changed_by_human and each preference with probability p_change_preference, independently; then an undesired hold fails with probability 0.98, a question is answered with probability 0.9 by a human who wants help and 0.95 by one who does not, an object action fails with probability p_fail, the next leaf is uniform among the successors, and an object of which some is consumed runs out with probability p_consume_all. The expected value of every function of the new state, observation and reward is the one given by this law; the same for sample_start with p_preferences. Without random, only the choices of the human are random.", "quantifier": "every task, configuration, probabilities, state, action and function of the outcome", "why_tests_cant": "distributions are not observed by samples", "anchors": ["task_models/supportive.py:SupportivePOMDP.sample_transition", "task_models/supportive.py:SupportivePOMDP.sample_start", "task_models/supportive.py:SupportivePOMDP._update_for_condition"]}
{"id": "C101", "title": "scripted policies run on supportive models", "statement": "Whatever the random outcomes and the earlier uses of the policy, evaluating PolicyLongSupportiveSequence (or the policy with random holds) on a supportive model that has the actions it names returns a record and raises nothing. Each action is the one of the script item reached, where an item is passed at each turn whose observation is not fail. The observation is always none, fail or not-found, and the human finishes a leaf exactly when they are busy, the observation is none and the robot holds or waits.", "quantifier": "every task, configuration, random outcome, random choice, earlier use of the policy and horizon", "why_tests_cant": "an infinite set of tasks and of sequences of random outcomes; a wrong observation would only be met with some of them", "anchors": ["task_models/policy.py:PolicyLongSupportiveSequence", "task_models/evaluation.py:simulate_one_evaluation", "samples/supportive_evaluation_multitask_job.py:PolicySupportiveAlternatives"]}
{"id": "C102", "title": "when scripted policies finish a task", "statement": "An evaluation of the scripted policy reaches a final state only after an execution of the task with at least as many leaves as the script has items; so it never does on a task whose executions are all shorter. For n legs to assemble, if nothing out of the ordinary happens, the evaluation takes exactly 2n+7 turns with the given actions and rewards and ends in a final state; this is the case of policy repeat on task sequence for every n. Policy repeat on a choice between at least two sequences of equal length (tasks alternative and uniform) never reaches a final state; policy random there finishes exactly as many leaves as the sequences have.", "quantifier": "every task, number of legs, list of sequences, configuration, random outcome and horizon", "why_tests_cant": "needs all tasks and all random outcomes; an evaluation that does not end in time is not told from one that never ends", "anchors": ["task_models/policy.py:PolicyLongSupportiveSequence", "samples/supportive_evaluation_multitask_job.py:task_long_sequence", "samples/supportive_evaluation_multitask_job.py:task_uniform", "samples/supportive_evaluation_multitask_job.py:task_alternative"]}
{"id": "C103", "title": "bound on the sum of rewards", "statement": "When costs are not negative, the sum of the rewards of an evaluation of any policy on a supportive model is at most the number of leaves finished times the best reward of a leaf, plus the final reward if a final state is reached; the leaves finished are at most those of an execution of the task, and all of one if a final state is reached. On a task of n legs, no policy exceeds the sum of the scripted policy in an ordinary evaluation by more than (n+6) times the intrinsic cost.", "quantifier": "every policy, task, configuration, random outcome and horizon", "why_tests_cant": "a maximum over all policies and outcomes", "anchors": ["task_models/supportive.py:SupportivePOMDP.sample_transition", "task_models/evaluation.py:simulate_one_evaluation"]}
{"id": "C104", "title": "parameters of experiments", "statement": "A new experiment has the parameters given to it (or read from a file), and for the others the defaults of its class; a class has its own defaults, and for the others those of its base class; every experiment has all the parameters of SupportiveExperiment. Afterwards the parameters of an experiment only change when they are set, when set_debug_parameters is called, or when it is run with debug, and then exactly as told; experiments, dictionaries of the caller and defaults of classes never change with another one. After a run, results['parameters'] always shows the parameters, also as changed after the run.", "quantifier": "every history of definitions of classes, creations, loads, changes of dictionaries and parameters, and runs that succeed or fail in any way", "why_tests_cant": "aliasing between dictionaries only shows in histories that change the right one and look at the other", "anchors": ["task_models/evaluation.py:SupportiveExperiment.__init__", "task_models/evaluation.py:SupportiveExperiment.DEFAULT_PARAMETERS", "task_models/evaluation.py:SupportiveExperiment.set_debug_parameters", "task_models/evaluation.py:SupportiveExperiment.load_from_serialized"]}
{"id": "C105", "title": "running experiments and reading their results", "statement": "run succeeds exactly when init_run, the warmup with n_warmup, the evaluation with n_evaluations and finish_run succeed and, if there is a path, its file can be opened and all parameters can be written. Then the results and the file hold the parameters of the run, the time of the warmup and all the evaluations, and no other file changes. A run that fails changes no file, except that the file at the path is left without its content when a parameter cannot be written. Reading the results of a job gives the returns, times and numbers of calls of the evaluations of its last successful run, in order, as long as no other run wrote that file; different names in a directory are different files. A job prepared by the launcher is run, in another process, with the values of the launcher over the defaults of its class (and the debug values over both, if asked for). With a path but no name, or if the configuration cannot be loaded, nothing is run and no file changes.", "quantifier": "every history, experiment, behaviour of the model and policy, state of the file system, job", "why_tests_cant": "all behaviours of the model and policy, and failures of the file system at any moment", "anchors": ["task_models/evaluation.py:SupportiveExperiment.run", "task_models/evaluation.py:SupportiveExperiment.write_result", "task_models/evaluation.py:SupportiveExperiment.run_from_arguments", "task_models/evaluation.py:ExpLauncher.get_results_from_one", "task_models/evaluation.py:ExpLauncher.action_prepare"]}
{"id": "C106", "title": "evaluation jobs", "statement": "The multitask job, run with a scripted policy (repeat or random) on one of its tasks (sequence with at least one subtask, uniform, alternative), succeeds when its processes return and the file can be written: it gives as many evaluations as asked for, each of at most 200 actions that follow the script of the policy; the return is the sum of the rewards, and an evaluation that reaches the end has assembled all the legs of the task. With the policy repeat on the tasks uniform and alternative, every evaluation takes 200 actions and never reaches the end. Whatever the policy, no return exceeds 18 per leg plus 10 in the multitask job, 48 in the preference job, and 174 (with intermediate rewards) or 184 (without) in the POMCP job. When nothing unlikely happens, repeat on the sequence of n legs returns 17n+4, and always-hold in the preference job returns 41 if the human prefers it and otherwise asks to hold until the horizon and returns -26. The policy never-hold always fails with AttributeError. Unknown tasks, policies and numbers of subtasks fail with a given exception before anything is written.", "quantifier": "every parameter, history of experiments, random outcome, order of sets, schedule of processes and POMCP policy", "why_tests_cant": "all random outcomes, schedules and policies; bounds over all of them", "anchors": ["samples/supportive_evaluation_multitask_job.py:Experiment", "samples/supportive_evaluation_preference_job.py:Experiment", "samples/supportive_evaluation_pomcp_job.py:Experiment", "task_models/evaluation.py:SupportiveExperiment.run", "task_models/evaluation.py:evaluate"]}
{"id": "C107", "title": "a trajectory is told as it happens", "statement": "run_trajectory of a runner on a supportive model tells, for each turn from the start state to the first final state, the names of the two states, the action, the observation and the reward of exactly what the runner and the model did, followed by the belief of the runner after the observation: the probability of each HTM state rounded to the closest tenth in two characters, and the probability of one preference; last comes the sum of the rewards. It is the trajectory that simulate_one_evaluation records, with the same return. A trajectory that does not end this way leaves in the log what was done before, and no total; on a supportive model with preferences and a runner that does not fail it either ends or goes on.", "quantifier": "every model, policy, belief, random outcome and length", "why_tests_cant": "all trajectories, of any length, and all probabilities including those between two tenths", "anchors": ["task_models/lib/pomcp.py:POMCPPolicyRunner.run_trajectory", "task_models/lib/belief.py:format_belief_array", "task_models/supportive.py:_SupportivePOMDPState.belief_quotient"]}
{"id": "C108", "title": "names of supportive states", "statement": "The list states of a supportive model has n_states different names. The name of a state shows its number, its HTM state, and one digit for each preference, body feature and object; every tuple of features has its name, at the place of its number.", "quantifier": "every task, configuration and state", "why_tests_cant": "the names of all states of all models must differ", "anchors": ["task_models/supportive.py:SupportivePOMDP.states", "task_models/supportive.py:_SupportivePOMDPState.__str__"]}
{"id": "C109", "title": "progress bars", "statement": "progress_bar shows the part that is done, in a bar of the size asked for, with the percentage and, if asked for, both numbers with thousands separated. When bars are printed while the work proceeds, the terminal shows only the last one, after the prefix; the bar of a finished work is left on a line of its own. clear_progress_bar leaves a blank line.", "quantifier": "every number done and to do, size, prefix and sequence of prints", "why_tests_cant": "all numbers and sequences of prints; a character left on the terminal is only seen for some of them", "anchors": ["task_models/utils/term.py:progress_bar", "task_models/utils/term.py:print_progress_bar", "task_models/utils/term.py:clear_progress_bar"]}
{"id": "C110", "title": "comparing actions", "statement": "Comparing two conditions or two actions returns whether they are the same, and being the same is an equivalence: conditions with the same masks and values (or both always met), pre/post-condition actions with the same conditions, abstract actions with the same name, meta-actions of the same kind on the same actions in the same order.", "quantifier": "all conditions and actions, all depths", "why_tests_cant": "all pairs of nested actions and all pairs of classes", "anchors": ["task_models/action.py:Condition.__eq__", "task_models/task.py:AbstractAction.__eq__", "task_models/task.py:MetaAction.__eq__"]}
{"id": "C111", "title": "bounds on the values of a search", "statement": "After any sequence of calls of a POMCP runner (get_action, step, reset, with searches of any number of iterations), the value of every node of its tree, and of every action there, is between the extreme discounted sums of rewards: with a discount g < 1, within [lo/(1-g), hi/(1-g)] when all rewards are within [lo, hi] (containing 0); with a horizon of n transitions and any discount, within [lo k, hi k] where k = 1 + g + g^2 + ... has n + d - |h| terms at history h, d the length of the longest history reached so far.", "quantifier": "all models, horizons, discounts, exploration settings, random draws and histories of calls", "why_tests_cant": "every sequence of calls and every random draw changes the averages", "anchors": ["task_models/lib/pomcp.py:POMCPPolicyRunner", "task_models/lib/pomcp.py:_SearchTree._simulate_from_node", "task_models/lib/pomcp.py:_ValueAverage.update"]}
{"id": "C112", "title": "an evaluation follows the law of the task", "statement": "An evaluation of a policy on a supportive task never raises for any random numbers, if the policy names actions of the model. When the random numbers are uniform and independent, the start, the actions, observations, rewards and states it records have the joint distribution of episodes of the task: a start of the law of C100, then one step of the law of C100 for the action of the policy after another, until the task is finished or the horizon is reached. So the undiscounted return it gives has the expected sum of rewards of the policy as expectation, and it finishes the task with the probability of the policy.", "quantifier": "all tasks, configurations, policies and horizons, and all functions of the recorded trajectory", "why_tests_cant": "expectations over all random draws and all policies", "anchors": ["task_models/evaluation.py:simulate_one_evaluation", "task_models/supportive.py:SupportivePOMDP.sample_transition", "task_models/supportive.py:SupportivePOMDP.sample_start"]}
{"id": "C113", "title": "the text written for the solver describes the model", "statement": "The text that an accepted POMDP writes for the external solver, read by the rules of the POMDP file format, gives back the model: the discount, rewards (costs have become negative rewards), as many states, actions and observations with the same names in the same order, and for every action the matrices of transitions, observations and rewards, with each row rounded to five decimals so that a row of sum 1 keeps the sum 1. This holds for models made from tasks.", "quantifier": "all accepted models, whatever their sizes and numbers, and all names", "why_tests_cant": "a test reads a few files; this is about every size, every number and every name", "anchors": ["task_models/lib/pomdp.py:POMDP.dump", "task_models/lib/pomdp.py:_dump_1d_array", "task_models/lib/pomdp.py:_dump_3d_array", "task_models/lib/pomdp.py:_dump_4d_array", "task_models/lib/pomdp.py:_dump_list_or_count"]}
{"id": "C114", "title": "solving a model", "statement": "solve writes the model to a file of a new temporary directory and runs the solver once, in this directory, with exactly the options asked for: the time limit and the number of iterations if given, the seed or a random one, the grid method and its type if the method is grid (any other method is ignored). It raises if the model cannot be written, if the solver cannot be run or fails, or if its files are missing or malformed; otherwise it returns the policy of the files, with names of the model and starting in the best node for the start. Whatever happens the temporary directory is removed, and if the solver writes only there all other files are untouched.", "quantifier": "all models, options and behaviours of the solver, including failures", "why_tests_cant": "the solver and its failures are arbitrary", "anchors": ["task_models/lib/pomdp.py:POMDP.solve", "task_models/lib/pomdp.py:POMDP.dump_to", "task_models/lib/pomdp.py:POMDP.load_policy_from", "task_models/lib/py23.py:TemporaryDirectory"]}
{"id": "C115", "title": "the tasks of the experiments", "statement": "The tasks built by the samples ask from the human exactly what they say: the sequence of n asks to assemble leg-0 to leg-(n-1) in order, the uniform task of n any of the sequences of n ways to hold and the alternative one of four, the stool to assemble each of four legs and fix it to the top, which is brought once. In the models of the choices, each sequence has its own first leaf and is the only one that follows it, so that drawing the first leaf evenly draws the sequence evenly. The models can be built as soon as there is a leg, with one stage per step of each choice, and the robot has the actions for the joints, the leg, the screwdriver and the screws (and to bring the top of the stool). With no leg the task can be built but its model is refused with ValueError.", "quantifier": "every number of legs, every sequence of ways to hold, every order in which Python iterates sets", "why_tests_cant": "all numbers of legs and all orders of sets; the uniform task has 2^n sequences", "anchors": ["samples/supportive_evaluation_multitask_job.py:task_long_sequence", "samples/supportive_evaluation_multitask_job.py:task_uniform", "samples/supportive_evaluation_multitask_job.py:task_alternative", "samples/supportive_evaluation_pomcp_job.py", "task_models/supportive.py:AssembleLeg", "task_models/supportive.py:AssembleLegToTop", "task_models/supportive.py:_HTMToDAG"]}
{"id": "C116", "title": "node_search lists the nodes of a search tree in the order asked for", "statement": "node_search(pol, order, max_nodes) on a policy runner, after any history of operations. Without a limit every node of the tree is listed once, with the names of the actions and observations that lead to it, after the node it follows and starting with the root. order='breadth' lists them level by level; 'depth' lists a node, then all that follow it, the last ones first; with 'q' each node listed has the greatest value among those whose parent is listed and that are not yet, and the first history among equals. A limit max_nodes = k only cuts the list after k nodes. Another order raises ValueError. With belief_values=True, where nodes are shared, histories are listed instead: with a limit the same holds, and without a limit the call returns exactly when the lengths of histories of the tree are bounded.", "quantifier": "all models with distinct names, beliefs and policies, all histories of operations and draws, all orders and limits", "why_tests_cant": "the lists depend on the whole tree, of any size, and on all ties of values; tests look at one tree", "anchors": ["samples/pomcp.py: node_search, push_last, push_heap, pop_first, pop_last, pop_heap", "task_models/lib/pomcp.py: _SearchObservationNode.children_dict"]}
{"id": "C117", "title": "Episodes in the POMDP of a collaborative task follow the executions of the task", "statement": "When HTMToPOMDP.task_to_pomdp returns a POMDP, whatever actions are chosen and whatever happens with non-zero probability, the subtasks gone through until the end is reached are, in order, the first subtasks of an execution of the task (sequences in order, one of the alternatives, some order of parallel parts), and a whole execution when the end is reached: no subtask is skipped, repeated or done out of order. Conversely every execution can happen, each subtask being done by the robot or the human as one likes, unless a parameter excludes it (certain failure, certain refusal, a human who never finishes); under the same conditions the end can be reached from every state. When the robot does everything and succeeds each time, an execution has the probability obtained by giving each of n alternatives, and each of n orders, the probability 1/n; these probabilities add up to one.", "quantifier": "all tasks without empty combinations, all parameters and flags for which a POMDP is returned, all finite sequences of actions and outcomes, all executions and all choices of who does which subtask", "why_tests_cant": "sequences of actions and outcomes are unbounded and trees of any shape; tests check entries of the tables of small tasks", "anchors": ["task_models/task_to_pomdp.py: HTMToPOMDP.task_to_pomdp, _NodeToPOMDP, _LeafToPOMDP", "task_models/lib/pomdp.py: POMDP"]}
{"id": "C118", "title": "Episodes in the POMDP of a task that brings objects follow the executions of the task", "statement": "When the bring-next conversion returns a POMDP, whatever actions are chosen and whatever happens with non-zero probability, the states gone through until the end is reached are, in order, the first actions of an execution of the task, and a whole execution when the end is reached. Conversely every execution can happen, and the end can be reached from every state without any condition. When the right object is brought each time, an execution has the probability obtained by giving each of n alternatives the probability 1/n; these probabilities add up to one.", "quantifier": "all tasks without empty combinations, all parameters for which a POMDP is returned, all finite sequences of actions and outcomes, all executions", "why_tests_cant": "sequences of actions and outcomes are unbounded and trees of any shape; tests check entries of the tables of small tasks", "anchors": ["task_models/bring_next_to_pomdp.py: HTMToPOMDP.task_to_pomdp", "task_models/lib/pomdp.py: POMDP"]}
{"id": "C119", "title": "The search starves no action", "statement": "With a positive exploration coefficient and relative_exploration=False: for every number k there is a number N such that, in every tree the runner can have after any sequence of get_action, step and reset, successful or not, every action of every node visited at least N times has been tried at least k times; so get_action with N iterations takes the best of actions tried at least k times each, however bad their first returns were. N depends only on the problem and the coefficient. This needs rewards in an interval and a discount below one, or a horizon of a number of transitions and histories of bounded length. With relative_exploration=True it is false: see the findings.", "quantifier": "all models with bounded rewards, all coefficients, all k, all sequences of operations and all random draws", "why_tests_cant": "about the limit of unboundedly many simulations with any random draws; tests run a few iterations", "anchors": ["task_models/lib/pomcp.py: POMCPPolicyRunner.get_action, _SearchTree._simulate_from_node, _SearchObservationNode.augmented_values, get_best_action"]}
{"id": "C120", "title": "Launchers run each experiment with its own parameters and collect exactly its results", "statement": "Preparing a launcher (action_prepare) writes one configuration per experiment, with its parameters, and touches no other file. Then, whatever jobs of the launcher are started, run at the same time, end, fail or are killed, even while they write, and in whatever order: the configurations stay; an event changes at most the results of one experiment; a job that ends runs with the parameters of its own experiment over the defaults of its class, and leaves what it measured, or, when it fails, changes nothing. In a directory without results, get_results succeeds exactly when the last thing written about each experiment is by a job that ended well, and returns what these jobs measured, one entry per experiment. The launchers of the samples ask for the listed experiments, all names are distinct, and printing and plotting look up exactly these names. The scripted jobs of the multitask launcher end well with 100 evaluations when their processes do. The results of the preference launcher can never be collected: its never-hold jobs all fail.", "quantifier": "all launchers with distinct names, all hooks of experiments, all interleavings of starts, ends, failures and kills of jobs, all initial files", "why_tests_cant": "the interleavings of independent jobs on a cluster and the places where they fail cannot be enumerated", "anchors": ["task_models/evaluation.py: ExpLauncher.action_prepare, get_results, get_results_from_one, SupportiveExperiment.run_from_arguments", "samples/supportive_evaluation_multitask.py: MultitaskLauncher", "samples/supportive_evaluation_pomcp.py: POMCPLauncher", "samples/supportive_evaluation_preference.py: PreferenceLauncher"]}
{"id": "C121", "title": "Boards built step by step, and the graphs of their paths", "statement": "Putting parts of a circuit on a board one after the other (a state, the placement of the next part, the state with that part too...) gives one path, that check_path accepts exactly when no two of the parts take the same cell. path_make_L gives such a path, that is accepted, for each position -7 <= row < 5 and -10 <= column < 9; it fails on an assertion when the row is at least 5 or the column at least 9, and with an IndexError for the other positions. For non negative positions the second part is two rows further than the first; for the rows -1 and -2 it is at the other end of the board. Whatever positions the script draws, and however many, it ends without error; its graph accepts exactly the empty path and the paths of the positions drawn; its transitions are deterministic; and it prints 2n+1 nodes and 2n links for n different positions.", "quantifier": "all boards, all lists of parts on them, all positions, all lists of draws, all orders of iteration of the sets", "why_tests_cant": "the positions drawn are random, and boards and lists of parts are unbounded", "anchors": ["samples/snap_circuit_scenarii.py: path_make_L, random_paths_make_L", "task_models/snap_circuit.py: SnapCircuitState, PlaceAction", "task_models/task.py: check_path, TaskGraph.add_path, has_path, as_dictionary"]}
{"id": "C122", "title": "Values of the search with nodes shared by belief", "statement": "With belief_values, with a discount below 1 and rewards from lo <= 0 to hi >= 0, the value of every node and of every action stays between lo / (1 - discount) and hi / (1 - discount), whatever is drawn, whatever the horizon and after any calls of get_action, step, reset and direct simulations. Without a discount there is no bound, even with a horizon of one transition and a reward of at most 1: when the belief does not change the root is its own child, each simulation adds the value of the root to the reward, and after n simulations the value of the root is 1 + 1/2 + ... + 1/n.", "quantifier": "all searches (models, exploration, horizons, learning rates from 0 to 1), all relations that say which beliefs are the same, all draws, all histories of operations; all numbers of simulations and all bounds", "why_tests_cant": "trees grow with unbounded histories and random draws; the sum diverges too slowly for tests to see", "anchors": ["task_models/lib/pomcp.py: _ObservationLookupSearchTree, _SearchTree._simulate_from_node, _SearchTree.rollout_from_node, _ValueAverage.update, POMCPPolicyRunner"]}
{"id": "C123", "title": "Texts of histories", "statement": "Before Python 3.7, format_history of a history of pairs of an action and an observation gives the texts a:o of the pairs separated by commas, where a is spelled by the first characters of the words of the action, that hyphens separate, and o is the first character of the observation or the empty set for 'none', then in brackets the number of elements, twice that of the pairs; an element left alone is ignored but counted. It fails with an IndexError exactly if some word of an action, or an observation, is empty. Since Python 3.7, it fails for every history: with a RuntimeError whenever it had a text before. Different histories can have the same text.", "quantifier": "all histories, all names of actions and observations, both behaviours of generators", "why_tests_cant": "histories and names are unbounded, and the behaviour depends on the version of Python that runs the tests", "anchors": ["samples/pomcp.py: by_two, short_a, short_o, format_history"]}
{"id": "C124", "title": "Plots of values and beliefs, and axes", "statement": "plot_values draws each row of values that has a value above the least of all values from 0 to 1, in proportion, where 0 is the least of all values and 1 the greatest of the row. A row that has only the least of all values is drawn with nothing but NaN, and these are the only NaN; with a single state there is always such a row. It succeeds exactly if there are as many names of states as columns and as many actions as rows, and it fails with a ValueError on no values. The i-th label is in the middle of the cell from i to i + 1. get_n_colors takes n different places of the map in increasing order, from 0 to less than 1. The map of colors chosen tells whether there are values below and above 0. remove_chartjunk hides the spines it is given, makes the other ones thin, and removes the ticks of the axes named, and nothing else; with ticklabels it always raises an exception, a TypeError when everything else succeeds, and never removes a label.", "quantifier": "all tables of values, all lists of labels, all numbers of colors, all states of the axis and all arguments", "why_tests_cant": "tables are unbounded; the tests do not look at plots", "anchors": ["samples/htm2pomdp.py: plot_values", "samples/icra_scenario2pomdp.py: plot_values", "task_models/plot.py: plot_beliefs", "task_models/utils/plot.py: get_n_colors, _cmap_from_data, remove_chartjunk"]}
{"id": "C125", "title": "With nodes shared by belief the search starves no action either", "statement": "With belief_values, a discount below 1, bounded rewards, a horizon of at most d transitions, exploration that is positive and not relative, and an exploration term like sqrt(log(N)/n): for any number k there is a number N such that, after any calls of get_action, step and reset, every action of every node has been tried at least k times once the actions of the node have been tried N times together. So get_action with N iterations tries every action of the current node k times before it takes one whose value is the greatest. The number N has to depend on the horizon: a simulation that comes back to a node takes the same action there each time, so for any N there is a horizon for which one action was tried N times and another only once.", "quantifier": "all searches with such parameters, all relations that say which beliefs are the same, all draws, all histories of operations, all nodes, all numbers of trials; all N for the last part", "why_tests_cant": "the property speaks of the long run of random searches, and of nodes that are their own descendants", "anchors": ["task_models/lib/pomcp.py: _ObservationLookupSearchTree, _SearchTree._simulate_from_node, _SearchObservationNode.augmented_values, _SearchObservationNode.get_best_action, POMCPPolicyRunner.get_action"]}
{"id": "C126", "title": "Tasks made of sequences are done step by step, in the order written", "statement": "For a task made only of (nested) sequences of collaborative actions with different names, HTMToPOMDP.task_to_pomdp returns a POMDP for all costs, durations, probabilities and flags that it supports. Its state 3k is 'k actions are done': it starts in state 0 for sure; telling leads to the robot doing action k, asking to the human doing it unless they refuse; success leads to state 3(k+1), the last one to the end; no other transition leaves the states of action k. Whatever is done and whatever happens, the actions gone through are the first ones in the order written, and all of them at the end. The tasks of stool_scenarios.py and htm2pomdp.py are such tasks, with the nine steps that they list.", "quantifier": "all tasks made of sequences, all costs, flags and functions for the exponential, all finite sequences of actions and outcomes", "why_tests_cant": "all trees, parameters and episodes", "anchors": ["task_models/task_to_pomdp.py: HTMToPOMDP.task_to_pomdp, _SequenceToPOMDP, _LeafToPOMDP", "task_models/stool_scenarios.py: stool_task_sequential", "samples/htm2pomdp.py: chair_task", "samples/icra_scenario2pomdp.py"]}
{"id": "C127", "title": "Average cost of a task made of sequences", "statement": "In the POMDP of a task made of sequences, let each action be given to the robot or the human: the robot tells that it does it and tries until it succeeds, or asks the human to do it (and does it if they refuse) and asks until they have finished. The average of the sum of costs until the end, over n steps, tends to the sum over the actions of: for the robot t_tell + c + (t_robot + c) / (1 - fail); for the human t_ask + c + no (t_robot + c) / (1 - fail) + (1 - no) (t_ask + c) / finish, where c is the interruption cost and finish is 1 - exp(-t_ask / t_human), or 1 with deterministic; less subtask_reward for each action.", "quantifier": "all such tasks, all costs, durations and probabilities for which each action can succeed, all ways to share the actions; the stool and the chair of the scripts with their numbers", "why_tests_cant": "a limit of averages over random runs without a bound on their length", "anchors": ["task_models/task_to_pomdp.py: HTMToPOMDP.task_to_pomdp, _LeafToPOMDP.update_T, _LeafToPOMDP.update_R", "task_models/stool_scenarios.py: stool_task_sequential", "samples/htm2pomdp.py: chair_task, h2p", "samples/icra_scenario2pomdp.py: h2p"]}
{"id": "C128", "title": "Average cost of any task", "statement": "In the POMDP of a task of collaborative actions, built from sequences, parallel parts and alternatives nested in any way, let each action, known by its name whatever the order, be given to the robot or the human as in C127. From the start, the average of the sum of costs until the end, over n steps, tends to the average cost of the task: that of an action is given in C127, the parts of a sequence or of a parallel node add up, whatever their order, and alternatives count for their mean.", "quantifier": "all trees, all costs, durations and probabilities for which each action can succeed, all ways to share the actions (with deterministic: all done by the robot)", "why_tests_cant": "a limit of averages over random runs without a bound on their length, for all trees", "anchors": ["task_models/task_to_pomdp.py: HTMToPOMDP.task_to_pomdp, _NodeToPOMDP.from_node, _SequenceToPOMDP, _AlternativesToPOMDP, _LeafToPOMDP.update_T, _LeafToPOMDP.update_R"]}
{"id": "C129", "title": "Results are written as they are or refused", "statement": "Writing results succeeds if and only if they are made of None, truth values, numbers, texts, lists, tuples, dictionaries with such atoms as keys, and numbers and arrays of numpy; otherwise it raises TypeError, as for a truth value of numpy or a number of numpy used as a key. What is then read from the file is what was written: numbers of numpy are numbers of the same value, arrays and tuples are lists with the same elements, keys are texts, and the last of the items whose keys have the same text counts. The same holds of the parameters of jobs, for which numbers (except float64) and arrays of numpy are refused. What was read from a file can be written again both ways and is read back unchanged.", "quantifier": "all objects, nested to any depth", "why_tests_cant": "results are nested data of any shape and size; tests write a few of them", "anchors": ["task_models/lib/utils.py: NPEncoder", "task_models/evaluation.py: SupportiveExperiment.write_result, ExpLauncher.action_prepare, ExpLauncher.get_results_from_one"]}
{"id": "C130", "title": "Models, policies and trees in JSON files", "statement": "Every POMDP can be saved as JSON, and loading the file gives a POMDP with the same arrays, names and discount if it has an action, else ValueError. Every policy can be saved as JSON, and loading the file gives the same policy if its initial node is one of its nodes, else AssertionError. Trees of trajectories are saved whenever they can be built, and so is what export_pomcp builds: the file shows each node with its belief, action, observations and children (and values, visits and terms for exploration), as they were.", "quantifier": "all POMDPs and policies that the constructors accept; all trees of trajectories, of any depth; all exports", "why_tests_cant": "tests save and load one model and one policy with names by default", "anchors": ["task_models/lib/pomdp.py: POMDP.as_json, POMDP.save_as_json, POMDP.from_json, POMDP.load_from_json, GraphPolicy.to_json, GraphPolicy.from_json, GraphPolicyBeliefRunner.save_trajectories_from_starts", "task_models/lib/pomcp.py: export_pomcp"]}
{"id": "C131", "title": "A clearly better action is chosen by the search", "statement": "If the rewards an action can give at the history of a node are from q1 to q2, then once tried its value there is between q1 + discount * lo / (1 - discount) and q2 + discount * hi / (1 - discount), for rewards from lo <= 0 to hi >= 0 in all; with a horizon, between q1 and q2 plus what the transitions left can give. So with at least as many iterations as actions get_action returns the action that pays at least m now when all others pay at most M and the difference is more than the future can make up for; for a POMDP, with exact beliefs or with particles, it is enough to look at the states that have a positive probability given the history.", "quantifier": "all POMDPs and simulators, all sequences of operations of the runner, all random draws, iterations at least the number of actions, all exploration parameters", "why_tests_cant": "a test sees the action chosen with some seeds; the search is random and an unlucky seed would be enough to break this", "anchors": ["task_models/lib/pomcp.py: POMCPPolicyRunner.get_action, POMCPPolicyRunner.step, _SearchObservationNode.get_best_action, _ValueAverage.update, _SearchTree._simulate_from_node"]}
{"id": "C132", "title": "Rounds of search from the start show the best action so far", "statement": "When get_action is called again and again without a step, as the scripts do, with at least as many iterations as actions, the action and value shown in each round after the first are the action returned last, the first of greatest value at the start, and this value; nothing is shown in the first round (None and 0). After n rounds the start has been visited n times the number of iterations, the history is still empty, and only get_action can raise. With fewer iterations than actions showing the second round raises AttributeError.", "quantifier": "all POMDPs and simulators, all numbers of rounds and iterations, all random draws, a horizon that is not reached at the start", "why_tests_cant": "the scripts are not tested, and a run shows one seed", "anchors": ["samples/pomcp.py: loop over N", "samples/supportive.py: loop over N", "task_models/lib/pomcp.py: POMCPPolicyRunner.get_action, _SearchObservationNode.get_best_action"]}
{"id": "C133", "title": "With belief_values the search tries all actions and returns the best", "statement": "With nodes shared by belief, a simulation from a node takes an action never tried there as long as there is one, although it may come back to the node on its way, so with at least as many iterations as actions get_action has tried all actions of the current node and returns the first of greatest value. When get_action is called in rounds without a step, as samples/pomcp.py does, the action and value shown in each round after the first are those of the action returned last, the first of greatest value at the start, nothing is shown in the first round, the start has been tried at least once for each iteration, and only get_action can raise.", "quantifier": "all POMDPs and simulators, all ways to find beliefs the same where each is the same as itself, all sequences of operations of the runner, all random draws, a horizon that is not reached at the start", "why_tests_cant": "how often a simulation comes back to a node depends on the draws, and the counts of shared nodes are not those of their histories", "anchors": ["task_models/lib/pomcp.py: _SearchTree.simulate_from_node, _SearchObservationNode.get_best_action, POMCPPolicyRunner.get_action", "samples/pomcp.py: loop over N"]}
{"id": "C134", "title": "With belief_values a clearly better action is chosen too", "statement": "With nodes shared by belief: if the rewards an action can give at a node are from q1 to q2, then once tried its value there is between q1 + discount * lo / (1 - discount) and q2 + discount * hi / (1 - discount), for rewards from lo <= 0 to hi >= 0 in all. So with at least as many iterations as actions get_action returns the action that pays at least m now when all others pay at most M and the difference is more than the future can make up for; for a POMDP it is enough to look at the states that have a positive probability in the belief of the current node, whichever histories led to it.", "quantifier": "all POMDPs and simulators, all sequences of operations of the runner, all random draws, iterations at least the number of actions, all exploration parameters", "why_tests_cant": "a test sees the action chosen with some seeds; nodes are reached by many histories, and simulations come back to them", "anchors": ["task_models/lib/pomcp.py: POMCPPolicyRunner.get_action, _SearchObservationNode.get_best_action, _SearchNode.update, _SearchTree.simulate_from_node, _ObservationLookupSearchTree"]}
{"id": "C135", "title": "Plots of experiments show means and standard deviations, and meshes their table", "statement": "plot_var(y, x, var=, var_style=) draws, for every table with samples in each row, a curve through the means of the rows at the given abscissas (0, 1, 2... without x), with bars exactly for the styles 'bar' and 'both' and a filled area exactly for 'fill' and 'both', and neither without var. Bars and area have the standard deviation of the row on each side of the mean, and the area has the color of the curve. The deviation is 0 exactly when all samples of the row are equal; the mean is between the samples, some sample is in the area and some sample is outside or at its limit. Abscissas in another number are a ValueError. pcolormesh shows the whole table, with the k-th label of x and of y in the middle of column and row k and no labels for None or an empty list; its color map is the one given, else red when no number is negative, blue when some are and none is positive, and blue reversed when there are both.", "quantifier": "all tables of samples without empty rows, all abscissas, colors, styles and axes; all meshes with labels as many as rows and columns", "why_tests_cant": "a test can only look at some figures; what an area says about the samples is a claim on all samples", "anchors": ["task_models/utils/plot.py: plot_var, pcolormesh, _cmap_from_data, remove_chartjunk"]}
