# Formal model of ScazLab/task-models in Rocq

## 1. Approach

The Python code in `/repo` is transcribed, function by function, into total
computable Gallina functions. Theorems about these functions are stated against
small independent specifications and proved for all inputs. Nothing is
extracted or executed against the Python code: the transcription itself is part
of the trusted base, so every definition cites the lines it models.

Conventions common to all models:

* Python exceptions are values: `res A := Ok a | Err e`, with one constructor of
  `exn` per Python exception class of interest.
* Loops are structural recursion, or recursion on explicit fuel; running out of
  fuel is a distinct visible value, and the theorems either exclude it by
  proving it never happens or quantify over it.
* Python sets and dicts are lists (association lists) with the iteration order
  as an explicit, universally quantified argument whenever it can be observed.
* Randomness is an explicit argument (stream or list of draws), quantified
  universally. Thread and process schedules likewise.
* Floating point numbers are modelled by exact rationals `Q` (or by `R` where
  logs and roots matter). Rounding errors are not modelled.
* numpy arrays are functions or lists with explicit dimensions.

Files, per topic `X`: `XModel.v` (the transcription, no proofs), `XSpec.v` (the
specification, no reference to model helpers), `XProofs.v` (lemmas), `Props_X.v`
(property theorems, each with `Print Assumptions`, and concrete examples
showing that the hypotheses can be met).

When a property is false of the faithful model, the file proves a theorem
`..._refuted` with a concrete witness, and the strongest positive part as
`..._partial`. Those are listed in section 4 (findings).

## 2. Plan per property

| id | modelled | proof |
|----|----------|-------|
| C01 | `check_path` over items state/action/other, with action check an arbitrary function | induction on the path, two items at a time |
| C02, C03 | `TaskGraph` record (transition map, initial, terminal), `add_path`, `has_path` | invariant over histories of `add_path` |
| C04, C05 | `BaseGraph` dictionary of sets | refinement to a set of triples; refutation of extensional equality after removals |
| C06 | `compact` over an arbitrary enumeration order of the transitions | loop invariant; KeyError excluded |
| C07 | `check_only_deterministic_transitions` | induction over sources and transition sets |
| C08, C09, C10 | `from_task_graph` | characterisation of the fold; paths by induction; refutations by computation |
| C11, C12 | Bron-Kerbosch with order oracle, recursion on fuel = size of p | classical invariant (r clique, p and x extend r), induction on fuel |
| C13, C14, C15 | `get_max_chains` with a schedule for `set.pop` | loop invariants, lexicographic termination measure; for the chains yielded twice, an invariant on the nodes explored when a chain is started, and a schedule built by induction on the measure |
| C16 | `BaseGraph.as_dictionary` | induction |
| C17 | `as_dictionary` with the id generator threaded as state | structural induction on the tree |
| C18, C19 | `deep_copy`, `to_alternative`, itertools.permutations | induction on trees, permutations of lists |
| C20 | proba setter and constructor | case analysis; refutation |
| C21 | `MetaAction.to_combination` | induction; refutation |
| C22, C23, C24 | the three searches | structural induction |
| C25 | JSON trees, `build_htm` | structural induction; refutation |
| C26, C27 | `_HTMToDAG` on trees (parallel expanded on fuel = height) | induction with a concatenation lemma on path languages |
| C28, C29 | integer codec on `Z` | `Z.testbit` reasoning |
| C30, C31 | reshape and sum over axes | sums over index ranges |
| C32 to C38 | `SupportivePOMDP` tables, `sample_transition`, `sample_start` on the codec | case analysis plus C26 for whole episodes |
| C39 | three horizon classes | induction on histories |
| C40, C43, C44, C45 | `POMDP` over `Q` arrays | finite sums over `Q` |
| C41, C42 | particle belief with sampler as state machine | loop invariants |
| C46, C47 | `_dump_1d_array` on `Q` with round-half-even | arithmetic |
| C48, C49, C50 | parsers over lists of lines (tokenised) | printer/parser inversion |
| C51, C52, C53, C54, C55, C56 | graph policy, runners, trees, visit | induction, loop invariants |
| C57 to C63 | POMCP search tree as nested inductive with node update along the history | invariants over simulations |
| C64 | transition system of the two threads with lock | invariant over all traces |
| C65, C66, C67, C85, C86, C87, C88 | `task_to_pomdp.HTMToPOMDP`: conversion to a tree of leaves, sequences and alternatives, array updates | the updates are a fold over the list of leaves with their continuations (`NodeProofs2.flat`); entries by frame conditions; continuations related to runs of the task by structural induction |
| C68, C69, C89, C90, C91, C92 | `bring_next_to_pomdp.HTMToPOMDP` array updates | same |
| C70, C71 | `simulate_one_evaluation` with random draws and the exceptions of policy and model | loop invariant, in both directions for the exceptions; refutation |
| C72 | pool main loop as a transition system | invariant over all schedules |
| C73 | `PolicyLongSupportiveSequence` state machine | invariant over histories |
| C74, C78, C79 | conditions, placement, features, eq/hash | case analysis, refutation |
| C75 | `TowerProblem` orders | induction on sizes |
| C76 | etime parsing on character lists | printer/parser inversion |
| C77 | hold-and-release tables over `Q` | computation with symbolic parameter |
| C80 | set of accepted tasks of `SupportivePOMDP` | exact characterisation; refutation for parallel combinations |
| C81 | sampling from the tables of a POMDP, the draw being a rational in [0, 1) | inversion of cumulated sums; refutation; `Props_Sample.v`: for every accepted POMDP, exactly when sampling raises and what each draw gives otherwise |
| C82 | `ArrayBelief` construction and successor | algebra on sums of rationals |
| C83 | `GraphPolicy.to_dict` and `from_dict` | inversion; refutation |
| C84 | same transition system as C64 | invariant over all traces |
| C93 | `ConjugateTaskGraph.compact` | quotient of a relation; walks by induction |
| C94 | the loop of `samples/test_hierarchies.py` over the models of C06, C08, C11, C13 and C93, with the turns of the loops bounded by fuel | invariant of the loop (partition, quotient, source and sink); each turn removes a node |
| C95 | `_ObservationLookupSearchTree` on a store: nodes are positions of a list, found by equality of beliefs; the loops of simulations recurse on the horizon | invariants of the store (distinct beliefs, links to successors, counts) through all operations; posterior by congruence of the update under equality; without sharing, refinement of the search of C57 to C63 (the store holds its tree, with frames) |
| C96 | `to_dict` and `_map` of trees and of shared nodes and `export_pomcp`; the tree is part of the result, as choosing an action can make a child | induction on trees; listings of dictionaries against references, with the number of nodes not seen yet as measure; bisimulation of trees up to unused children; paths bound the fuel |
| C97 | `random_choice` and `sample_transition` over finite probability spaces (`LawSpec`) | a draw falls between two cumulated probabilities; linearity of means |
| C98 | `ParticleBelief` and `successor` over sequences of independent draws | recursion on the number of samples left: closed form for the expected counts after duplication |
| C99 | rollouts and first simulations of PomcpModel with sequences of independent draws as world (`RolloutSpec`) | induction on the horizon and on the number of rollouts for affine functions of the return; Bayes for the state drawn again |
| C100 | `SuppLawModel`: the comparisons of the random numbers with the probabilities, feeding `SuppModel`; the law on worlds, told with coins and uniform choices, in `SuppLawSpec` | each branch of a step is a coin or a choice; induction on the objects, the preferences and the conditions for the independent draws |
| C101 | `RunModel`: the scripted policy as a policy of EvalModel, with the sequences of the samples; turns of a record in `RunSpec` | invariant linking the position in the script to the preconditions of the next action; observations from the documented steps of SuppProofs |
| C102 | the same, with the tasks of the samples | items of the script passed count the leaves finished; a run with ordinary outcomes is followed turn by turn, by induction on the legs |
| C103 | the same, for any policy | induction on the turns: a bound per turn, summed; leaves counted with C34 |
| C104 | dictionaries as objects on a heap, classes, experiments, programs as lists of operations | invariant on ownership of the dictionaries, kept by every operation; a frame for each operation |
| C105 | the same, with files that may refuse to open; the subclass and the policy as arbitrary functions | the stages of a run by cases; files followed over the history |
| C106 | the three jobs as hooks of an experiment (C104, C105), processes as in C72, random numbers as in C100, the scripts as in C101 | the stages composed; what the processes do does not depend on the schedule; draws beyond the lists of numbers reduced to those of C101 to C103 |
| C107 | the loop of run_trajectory, with what is logged, on the model of C70; the text of a belief | induction on the turns, in both directions; rounding to the closest tenth |
| C108 | the text of a state | each part of the text read back; length of numerals |
| C109 | the three functions, as texts; a terminal as specification | characters of the line followed column by column |
| C110 | `__eq__` of conditions and actions with Python's order of calls | induction on the depth; false as stated, exact exceptions proved |
| C111 | traces of the runner of C20 | invariant on all nodes with bounds that depend on the depth; the bound by the horizon alone refuted |
| C112 | evaluations of C70 on the draws of C100; episodes on worlds as specification | induction on the horizon, with independence of the tape of draws |
| C113 | the text as a string, character by character; a reader of the file format as specification | reading of tokens, numbers and matrices by induction on the writing; names resolved by position |
| C114 | files as a map from paths to texts, the solver as an arbitrary function on them, a log of its calls | case analysis on the outcomes; options as pairs; lines of a text by induction |
| C115 | the tasks of the samples as trees (`RunModel`, `JobModel`) | induction on the number of legs; exact graph of a choice of sequences |
| C116 | VisitModel.v: the loop over a queue with the three ways to push and pop, children_dict, on trees and on stores of shared nodes | Invariant of the loop (found and queued histories distinct, closed under following); exact lists for breadth and depth by induction on iterations; least element of the heap; sizes of trees for the end of the loop |
| C117 | ConvModel.v, NodeModel.v: the tables of C65 to C67; EpiSpec.v: episodes, the leaves gone through, chances of runs | runs of the unfolded tree are the executions of the task (induction on levels, permutations for parallel parts); paths of the relation 'directly after' are prefixes of runs; products of entries along a run; enumeration of the runs with sum of chances one |
| C118 | BringModel.v, NodeModel.v: the tables of C68 and C89; EpiSpec.v | as C117 |
| C119 | traces of the runner of C20; StarveSpec.v | invariant on all nodes: as long as some action is tried less than k times, no action is tried more than a bound, because values are bounded (C111) and exploration terms are not; relative exploration refuted |
| C120 | launchers, configurations and concurrent jobs in LaunchModel.v; LaunchSpec.v | invariant over events: running processes bear names of the launcher and saw its configurations; the last write about a name decides what is read; the lists of names by computation |
| C121 | samples/snap_circuit_scenarii.py in BoardModel.v, over the models of C74 and C01-C07; BoardSpec.v | induction on the parts left to place; C02 and the shape of the paths; permutations for the counts |
| C122 | the model of C95 (SharedModel.v); ShValueSpec.v | invariant on all averages of the store, through simulations, rollouts and lookups; induction on the simulations for the harmonic numbers, that double their number of terms to grow by 1/2 |
| C123 | samples/pomcp.py 63-85 in LabelModel.v; LabelSpec.v | words are the only way to cut a name at its hyphens; induction on the pairs |
| C124 | PlotModel.v; PlotSpec.v | least and greatest elements of lists; field arithmetic; induction on the spines |
| C125 | the model of C95 (SharedModel.v); ShStarveSpec.v | a simulation chooses all its actions before it updates any node, so that a node gains at most d trials of actions chosen from the same averages; with the bounds of C122, as long as an action was tried less than k times no action exceeds a bound; one state with two idle actions refutes a bound for all horizons |
| C126 | the conversion of C65 (ConvModel.v); the tasks and calls of the scripts in StoolModel.v | induction on the tree: a tree of sequences has one run, so C66, C67 and C117 are about this run |
| C127 | the conversion of C65; AverageSpec.v defines averages over n steps and the way to share | each action gives x(n+1) = f x(n) + (1 - f) y(n) + c, whose limit is lim y + c / (1 - f) by Bernoulli's inequality; induction from the last action to the first |
| C128 | the conversion of C65; MeanSpec.v defines the average cost of a tree | each leaf gives x(n+1) = f x(n) + (1 - f) y(n) + c where y is the mean over what follows it; induction on the tree for the limits, and on its levels for the copies made for parallel parts |
| C129 | SaveModel.v: NPEncoder.default, encoding and reading of JSON values; SaveSpec.v: relations for what can be written and what is expected to be read | induction on the fuel, which the depth of the object bounds; merging of items by induction from the end |
| C130 | JsonModel.v: dictionaries as objects, dump, and reading them; JsonSpec.v: what files of trees show | all the objects are as read from files (C129); reading inverts the objects by induction on nested lists and trees |
| C131 | PomcpModel.v; DomSpec.v: states in which a simulation may be after a history, rewards of an action there, and possible states of a POMDP | invariant of trees by history: belief obtained by filtering along it and interval of each action, kept by simulations, get_node and step; then C59 |
| C132 | samples/pomcp.py 116-125 and samples/supportive.py 47-56 in WarmModel.v, over PomcpModel.v | induction on the rounds with C59 and the count of the start; for few iterations an action never tried is returned, and it has no node |
| C133 | SharedModel.v; samples/pomcp.py 116-125 with belief_values in WarmModel.v | the number of actions not tried at the node decreases with each simulation; induction on the rounds |
| C134 | SharedModel.v; ShDomSpec.v: states in which a simulation may be at a node with a belief, and rewards of an action there | invariant of the store: each action of a node is in the interval of its rewards, for all intervals at once, kept by simulations, get_node and step; then C133 |
| C135 | VarModel.v: mean, variance, std (a real number) and what plot_var and pcolormesh draw; VarSpec.v: means and deviations | sums over the samples; square roots of the standard library |

## 3. Trusted base

* Coq 8.16.1 kernel (and `coqc`; `vm_compute` is used in examples and in a few refutations).
* No axiom, except in `C119_uct` and in three theorems of C135: `Print Assumptions` says "Closed under the global context" for every other theorem of
  the manifest (section 5).
* `C119_uct` and C135 alone speak of real numbers (square root and logarithm) and use the axioms on which Coq's standard library
  builds them. `C119_uct` uses all four: `ClassicalDedekindReals.sig_not_dec`, `ClassicalDedekindReals.sig_forall_dec`,
  `FunctionalExtensionality.functional_extensionality_dep` and `Classical_Prop.classic`. `C135_drawn` and `C135_lengths` use the first three,
  and `C135_deviation` the second and the third.
* The faithfulness of the transcription (section 6): the model is written by hand from the text of
  the code, and no tool checks it against Python.

## 4. Findings

Where the code does not do what a user would expect, the full claim is refuted by a theorem and the part that
holds is proved. The list below gives the theorem for each.

### Task graphs and trees (`task.py`, `json_to_htm.py`)

* Removing the last transition of a node leaves an empty entry that `__eq__` sees, so graphs with the same
  transitions can be different: `C05_equality_refuted`.
* The conjugate of a task graph loses the edges after a terminal state that has continuations:
  `C09_conjugate_paths_refuted`. It raises KeyError for a path of a single state:
  `C10_conjugate_succeeds_refuted`.
* Cliques are missed when an action can follow itself: `C12_get_max_cliques_refuted`. `C12_missed`: exactly the cliques with such an action are missed.
* The search for maximal chains need not terminate, and can give a chain twice: `C15_termination_refuted`,
  `C15_once_refuted`. `C15_termination_exact` and `C15_once_exact` say exactly on which graphs and for which chains: a
  chain can be repeated when one is led to its first node, without any choice, from a node that follows two others, one
  of which leads nowhere else and can be explored after the other.
* Copies of supportive and of bring-next actions lose their parameters: `C18_parameters_refuted`. Two
  consequences: no supportive model (`C80_parallel_refuted`) and no bring-next POMDP
  (`C68_usable_refuted`) exists for a task with a parallel combination.
* `AlternativeCombination` overwrites the probabilities it is given: `C20_probabilities_refuted`,
  `C20_copy_refuted`.
* `MetaAction.to_combination` always raises KeyError: `C21_to_combination_refuted`.
* Writing a tree as a dictionary and loading it again fails for every tree with a leaf:
  `C25_round_trip_refuted`.

### Supportive model and evaluation (`supportive.py`, `evaluation.py`, `policy.py`)

* The copy of a model has one more HTM state than the original: `C29_copy_refuted`.
* The marginals of the preferences are returned in reverse order: `C31_preferences_refuted`.
* The copy of a horizon forgets that a final state was seen: `C39_copy_refuted`.
* `results['parameters']` is the dictionary of parameters itself and not a copy: it shows parameters that are changed after
  a run as if the run had used them (`C104_shown`, `C104_ex_kept`). The file is not concerned.
* When a parameter cannot be written, `run` fails only after all the evaluations, and the file of an earlier run
  is lost (`C105_failure`, `C105_ex_object`).
* An evaluation discounts rewards in reverse order: `C71_return_refuted`.
* The scripted policy does not check at construction that the model has an action for legs:
  `C73_no_leg_refuted`. Two steps without an action between them raise ValueError.
* Policy 'repeat' in the multitask job expects as many legs as the task has leaves. On the tasks 'alternative' and
  'uniform', which are choices, it never reaches a final state: `C102_repeat_never`.
* The preference launcher asks for 'never-hold' jobs, that always fail, and its plots read the results of all jobs: from a directory
  without results they cannot be drawn, whatever is run: `C120_preference_refuted`.
* The policy 'never-hold' of the preference job cannot be run: it sets `_a_next`, a property without setter, so that every run
  ends with AttributeError (`C106_never_hold`).
* The policy 'always-hold' does not recover from a human who refuses that the part is held: it asks again until the horizon
  (`C106_preference`). In the multitask job 'repeat' does not end on 'uniform' and 'alternative' (`C106_multitask`).
* `run_trajectory` fails with IndexError at the first turn if the model has no preferences (`C107_no_preference`); with several, the
  probability it shows is the one of the last preference (as in C31).
* `clear_progress_bar` does not erase the bar if 50 or more are to be done, because the width of the counts is a tenth of the number to do
  and not its number of digits: `C109_clear_refuted`. For the same reason the bar of 1000 things to do has 200 characters of counts.
* The documentation of `hold` speaks of 'H' and 'V', the code of 'h' and 'v'.
* Comparing an action of a subclass of AbstractAction with a MetaAction of the same name is not symmetric: the first equals the
  second, the second differs from the first (C110_symmetry_refuted). A PartPresenceCondition cannot be compared with a
  MatchAllCondition on its right (C110_presence_refuted).

### POMDPs and policies (`lib/pomdp.py`)

* The constructor accepts negative entries, and rows whose sum random choice rejects: `C81_sampling_refuted`.
* A POMDP without actions is written as a text that does not describe it: `C44_round_trip_refuted`.
* Names are written as they are: a model whose names have spaces, are single numbers or keywords of the format is accepted, but its
  text cannot be read by the solver: `C113_names_refuted`.
* `solve` ignores any method but `grid`, without a warning, and the type of grid with it: `C114_ignored`.
* A long uniform row is written with a negative number: `C47_negative_refuted`.  Rows of 450 probabilities are enough for
  that, and no shorter ones: `C47_threshold`.
* A blank line in a policy graph file raises ValueError: `C49_blank_lines_refuted`.
* The third word of a line of a policy graph is never looked at: with a single space after the action the first
  transition is lost in silence: `C49_one_space_refuted`.
* A transition to the node after the last one passes the check on loading: `C50_out_of_range_refuted`.
* `GraphPolicyRunner.step` loses its node when the observation is impossible: `C52_impossible_refuted`.  A caller who
  catches the exception may then see a further observation accepted in silence, with no node behind it: `C52_lost_refuted`.
* With several possible start states only one tree of trajectories is returned, rooted in a vector that is not a
  distribution: `C55_several_starts_refuted`.
* The number of value vectors of a graph policy is never compared to its number of nodes:
  `C83_extra_values_refuted`.

### Beliefs and POMCP (`lib/belief.py`, `lib/pomcp.py`)

* The value of a search can exceed the horizon: with one transition of reward 1 and no discount the root can get the value 3/2,
  because a simulation that ends on a known node adds the value of that node, which later get_action calls average over a whole
  horizon from there: `C111_horizon_refuted`; the bound that holds counts the longest history: `C111_horizon`.
* With `belief_values` and no discount, values have no bound at all, even with a horizon of one transition: a belief that
  does not change makes the root its own child, and its value is the n-th harmonic number after n simulations: `C122_harmonic`.
* `samples/htm2pomdp.py` gives its interruption cost as third argument of `HTMToPOMDP`, which is the time to tell something since asking and
  telling have different costs: in its model telling costs 1 instead of 2 and interruptions cost nothing (`C127_chair`).
  `samples/tower_scenario.py` and `samples/supportive.py` import names that do not exist (`task_modelsToPOMDP`, `POMCPPolicyRunner` from `lib.pomdp`).
* With `belief_values` a simulation that comes back to a node takes the same action there again, up to the horizon, since
  nodes are updated only on the way back; each time counts as one more trial: `C125_horizon_refuted`.
* With `relative_exploration` the exploration coefficient is multiplied by the difference of the greatest and least values of the
  actions. As long as all are equal, for instance when nothing was won yet, there is no exploration: the first action is chosen for
  ever, and a better one may be tried once in any number of simulations: `C119_relative_refuted`.
* A particle belief without particles gives the zero vector as an array (`C41_array`).
* The last action is not cleared by a step, so that a second step reuses it: `C63_last_kept`.
* The search with nodes shared by belief ignores its `belief_params` and only supports exact beliefs
  (`C95_kinds`); `SupportiveExperiment.init_pomcp_policy` (`evaluation.py` 178-190) always asks for particles, so
  that its parameter `belief-values` can only raise ValueError.
* Writing a tree as a policy changes it: a child is made for the action chosen at each node (`C96_ex_changed`), which
  has no effect on later operations (`C96_unaffected`). The action written for a node with untried actions is a
  random one of them, whatever the values of the others (`C96_file`, `C96_ex_policy`), and in a graph of shared nodes
  it is drawn again each time the node is met (`C96_shared_policy`).
* The entry `observed` is the position of the child in one format and the index of the observation in the other
  (`C96_file`, `C96_quotient`, `C96_ex_policy`).
* `export_pomcp` with `belief_as_quotient` never returns for shared nodes with a cycle (`C96_cycle`); the tiger
  problem has one as soon as a door is opened (`C96_ex_cycle`).
* `to_dict` of an action node as a policy raises TypeError (`raise NotImplemented`).
* In the asynchronous runner: the argument of `get_action` is ignored; a step changes the tree outside the lock
  (harmless as the explorer is then paused, `C64`, `C84`); `isAlive` no longer exists since Python 3.9;
  `_stop` overrides a private attribute of `threading.Thread`.

### Conversion of tasks to POMDPs (`task_to_pomdp.py`, `bring_next_to_pomdp.py`)

* `structured=True` always raises AttributeError; `loop` with `reward_state`, and `loop` with several
  possible first leaves, always raise ValueError: `C66_usable_refuted`.
* With `deterministic`, the human goes on uniformly, not with the probabilities of the alternatives:
  `C88_same_refuted`. The probabilities given to an alternative are ignored in any case (see `C20`).
* With `loop`, the bring-next POMDP restarts uniformly, which is not its start belief: `C69_restart_refuted`.

### Other modules

* Equality and hash: objects that compare equal can have different hashes, and some comparisons raise:
  `C79_dtype_refuted`, `C79_meta_refuted`, `C79_set_refuted`, `C79_snap_refuted`,
  `C79_compare_refuted`.
* `path_make_L` accepts the rows -1 and -2, and then puts the second part at the other end of the board: `C121_wraps_refuted`.
* `format_history` relies on a StopIteration that leaves a generator, which is a RuntimeError since Python 3.7: no history has a text any more: `C123_after_refuted`.
* `plot_values` draws NaN for a row that has only the least of all values, always with a single state: `C124_nan`.
* `remove_chartjunk` never succeeds with `ticklabels`: it compares a set with 0: `C124_ticklabels_refuted`.
* With two negative sizes a tower has parts that do not exist: `C75_negative_refuted`.
* The hold-and-release POMDP accepts numbers that are not probabilities: `C77_probability_refuted`.
* A process of the pool that is killed by a signal is not reported as failed (`C72` theorems describe what is).
* `samples/tower_scenario.py` imports a name that does not exist.
* The scripts show the value of the action returned last in each round. With fewer iterations than actions this action has
  no node yet, and showing it raises `AttributeError` in the second round (C132).
* `samples/pomcp.py` and `samples/supportive.py` import `POMCPPolicyRunner` from `lib.pomdp`, where it is not; it is in
  `lib.pomcp`. `by_two` of `samples/pomcp.py` ends with a `RuntimeError` from Python 3.7 on, and so does `format_history`.
* `samples/htm2pomdp.py` gives its intrinsic cost as third argument of `HTMToPOMDP`, which is the duration of telling:
  the intrinsic cost stays 0.
* `node_search` does not end without a limit on trees with shared nodes that lead back to themselves: `C116_shared_unlimited`.

## 5. Assumptions per theorem

All the theorems of `MANIFEST.json` but four are closed under the global context: no axiom of the standard library or
any other library is used. The exceptions are `C119_uct`, `C135_drawn`, `C135_lengths` and `C135_deviation`, with the axioms of the standard library listed in section 3. `Print Assumptions` is beneath each theorem in the `Props_*.v` files.
Hypotheses on oracles (the exponential, the reading of numbers, hashes) are hypotheses of the theorems concerned,
visible in their statements.

## 6. What is and is not modelled

General simplifications: floats are exact rationals without NaN or infinity; integers are unbounded; random draws are
arguments or an arbitrary source over which theorems quantify; iteration orders of sets are arguments; texts are ASCII.

| File | Modelled in | Not modelled |
| --- | --- | --- |
| `task.py` 33-57, 91-256 | `GraphModel` | `check_only`-style printing; `__repr__` |
| `task.py` 60-88, 312-324 | `CliqueModel` | |
| `task.py` 258-264; `samples/test_hierarchies.py` 44-57 | `HierModel` | printing |
| `task.py` 266-310 | `ChainModel` | |
| `task.py` 325-608 | `HtmModel`, `NameModel` | drawing attributes |
| `json_to_htm.py` | `HtmModel` | reading JSON text itself |
| `supportive.py` 13-45 | `DagModel` | |
| `supportive.py` 48-114, 231-524 | `SuppModel`, `SuppLawModel` (probabilities) | the generator of random numbers: draws are elements of finite probability spaces |
| `supportive.py` 117-228 | `CodecModel`, `TrajModel` (128-138) | numpy integer overflow |
| `supportive.py` 527-548, `evaluation.py` 19-95 | `EvalModel` | |
| `evaluation.py` 98-262 | `ExpModel` | logging, parsing of arguments, pool of processes (`PoolModel`), JSON as values. Launchers and jobs at the same time: `LaunchModel` (not the library expjobs that submits the jobs, nor the settings of plots) |
| `evaluation.py` 264-266 | | settings of plots |
| `policy.py` | `ScriptModel` | |
| `lib/pomdp.py` 24-56 | `ParseModel` | syntax of numbers |
| `lib/pomdp.py` 60-336 | `PomdpModel`, `DumpModel` | Python's text of the discount is an argument |
| `lib/pomdp.py` 338-379, `lib/py23.py` | `SolveModel` | the external solver is an argument; failures to make or remove the temporary directory |
| `lib/pomdp.py` 366-579 | `PolicyModel`, `LostModel` | drawing |
| `lib/belief.py` | `BeliefModel`, laws of the samples in `LawSpec`; `TrajModel` (118-125) | |
| `lib/pomcp.py` 39-64 | `EvalModel` | |
| `lib/pomcp.py` 67-326, 405-487 | `PomcpModel` | logging |
| `lib/pomcp.py` 186-205; `lib/belief.py` 24-29 | `SharedModel` | hashing of floats: beliefs are exact |
| `lib/pomcp.py` 174-183, 208-212, 258-272, 325-402, 489-490, 596-639 | `ExportModel` | writing the file; depth of calls |
| `lib/pomcp.py` 492-517 | `TrajModel` | the text of rewards and totals |
| `lib/pomcp.py` 520-593 | `AsyncModel` | sleeping, `__del__` |
| JSON files of `lib/pomdp.py` 307-330, 420-439, 515-518 and `lib/pomcp.py` 628-639 | `JsonModel` | json as values, not text |
| `lib/utils.py` 12-23, writing in `evaluation.py` 195-197 and 258-262 | `SaveModel` | json as values, not text |
| the rest of `lib/py23.py`, `lib/utils.py` | | compatibility helpers, formatting |
| `task_to_pomdp.py` | `NodeModel`, `ConvModel` | |
| `bring_next_to_pomdp.py` | `NodeModel`, `BringModel` | |
| `action.py`, `state.py` | `ActionModel` | |
| `snap_circuit.py` | `SnapModel`, `ActionModel` | |
| `tower_problem.py` | `TowerModel` | |
| `hold_and_release.py` | `HoldModel` | |
| `utils/multiprocess.py` | `PoolModel`, `ElapsedModel` | operating system processes, running `ps` |
| `utils/term.py` | `TermModel` | colors; rounding of the divisions |
| `plot.py`, `utils/plot.py` 39-53 and 173-215, `plot_values` of `samples/` | `PlotModel`, `VarModel` (`utils/plot.py` 81-111 and 151-170) | the library that draws |
| `stool_scenarios.py`, `samples/htm2pomdp.py` 15-66, `samples/icra_scenario2pomdp.py` 12-19 | `StoolModel` | solving and drawing |
| the rest of `utils/plot.py` | | display |
| `samples/supportive_evaluation_multitask_job.py` | `ScriptModel`, `RunModel`, `JobModel` | logging of the average |
| `samples/supportive_evaluation_preference_job.py`, `samples/supportive_evaluation_pomcp_job.py` | `JobModel` | |
| `samples/supportive_evaluation_multitask.py`, `samples/supportive_evaluation_pomcp.py`, `samples/supportive_evaluation_preference.py` | `LaunchModel` | the drawing of plots; the numbers of `np.arange` are exact |
| `samples/pomcp.py` 14-60 | `VisitModel` | the script, messages |
| `samples/pomcp.py` 63-85 | `LabelModel` | |
| `samples/snap_circuit_scenarii.py` | `BoardModel` | the random generator (the positions drawn are arguments), JSON text |
| `samples/pomcp.py` 116-125, `samples/supportive.py` 47-56 | `WarmModel` | the text shown |
| `samples/` (rest) | | scripts |
