# Verified model of EC-KitY: design

Prover: Rocq/Coq 8.16.1.  Subject: `/repo` (Python package `eckity`), read as text; nothing of it is run.

## 1. Trusted base

* The Coq 8.16.1 kernel.  No axiom of our own, no `Admitted`, no disabled check, no plugin.
* Every property theorem is followed by `Print Assumptions` in its `Props` file.  All of them are closed under
  the global context: no axiom is used, not even one of the standard library (section 6).
* The hand translation Python -> Gallina.  Each definition under `theories/Model` cites file and lines of
  `/repo` and says what it simplifies.  The simplifications are collected in section 4.

## 2. Layout

| directory | contents |
|---|---|
| `theories/Model` | computable model of the code: data, exceptions, heap, random generator, functions |
| `theories/Spec`  | independent vocabulary for the properties (rose trees, orders, Pareto levels, ...) |
| `theories/Proofs`| all lemmas |
| `theories/Props` | the property theorems only (each closed by `exact lemma`), `Print Assumptions`, and an `Example` that meets the hypotheses |

`tools/props.py` with `tools/props_data.py` generates `properties.jsonl` and `MANIFEST.json`.
`tools/mutate.py` is the mutation harness whose results are in `seeded/LOG.jsonl`.

## 3. Modelling approach

* **Exceptions are values**: `res A := Ok a | Raise e`, with `e` one of Python's exception classes or an exception of
  user code (`UserError n`).  State changes made before an exception stay.
* **State monad** `SE S A := S -> res A * S`, instantiated with the generator state (`R`), and with the world (`M`).
* **Random generator**: the source of randomness is an arbitrary function from seeds and positions to draws.
  Theorems quantify over it, so they hold for every sequence of outcomes.  `random.seed(s)` switches to stream `s` at
  position 0.  `random()` is `k/2^53` with `k < 2^53` arbitrary, `choice`, `sample`, `randint`, `choices` use the integer
  part of a draw, Gaussian noise is an arbitrary number of the tape (any value, also infinite or NaN).
* **Objects**: individuals live in a heap (list of records addressed by position).  Cloning allocates.  Populations are lists of
  addresses.  The class-wide id counter is part of the world.
* **Numbers**: `num = Fin q | PInf | NInf | NaN` with rational `q`.  Comparisons follow IEEE (NaN compares false).
  Arithmetic on finite numbers is exact; where rounding itself is the issue (`sum(pcr) != 1`) the standard library's
  executable IEEE-754 model (`SpecFloat`) is used.
* **Genomes**: vectors are lists of `num` with bounds; trees are prefix-order node lists as in the code.
* **Recursion with a moving index** (`_depth`, `_execute`, `_find_subtree_end`) is modelled with fuel; running out
  of fuel is a separate exception that is proved unreachable on complete trees.
* **User code** (fitness function, functions in tree nodes, callbacks) is an arbitrary total function that may raise.
* **Executor**: tasks finish in an arbitrary order given by an oracle.

## 4. What is modelled, and what is not

### 4.1 Model files

| file | code | main simplifications |
|---|---|---|
| `Base`, `Num`, `Rng` | exceptions, lists, numbers, `random` / `numpy.random` | exact rationals with infinities and NaN; generator = arbitrary streams |
| `Fitness` | `fitness/*.py`, NSGA-II fitness | values are numbers or lists of numbers |
| `Vector` | `genetic_encodings/ga/*.py`, vector mutations' cell functions | cells are numbers; `is_float` only where it matters |
| `Tree` | `gp/tree/*.py`, tree creation | functions are records with an opaque meaning; variable names are strings |
| `World` | `individual.py` | heap of individuals; trees and vectors by value (justified by C28 for trees, section 4.3) |
| `Show` | `Tree.__str__`, `show` | texts of numbers and types are parameters; vectors always have a text |
| `Operators` | `genetic_operators/**` | `events` of operators not connected |
| `Selection`, `FP` | `selections/*.py`, `elitism_selection.py` | `FP`: exact rational sums, `exp` a parameter with stated laws |
| `Creators`, `Construct`, `Double` | `creators/**`, `subpopulation.py`, `population.py` | `Double`: IEEE doubles without overflow, infinities, NaN and minus zero |
| `Publisher` | `event_based_operator.py`, `base/*` | callbacks are opaque state changes |
| `Evolution` | `algorithms/simple_evolution.py`, `algorithm.py`, breeders, evaluators, termination checkers | executor = arbitrary completion order; publishing = a trace; a user's checker = a function of what it has stored, the population, all individuals, the best individual and the generation number (it modifies nothing and draws nothing) |
| `Statistics` | `statistics/*.py`, subscribers of `algorithm.py`, `event_name_to_data` of `SimpleEvolution` and `NSGA2Evolution` | user callbacks get the data of the event and are arbitrary state changes; a logged text is its list of formatted values; the objects among the data (statistics, breeder, ...) are opaque |
| `Nsga2` | `multi_objective_evolution/*` | set iteration order is a parameter (`setorder`) |
| `BaseFns` | `base/untyped_functions.py`, `base/typed_functions.py` | scalars; exact arithmetic; `sqrt`, `log`, `sin`, ... parameters |
| `Classifier` | `sklearn_compatible/classification_*`, `sk_classifier.py` | thresholds exact instead of rounded; the sigmoid is a monotone parameter |
| `Regressor` | `sklearn_compatible/regression_evaluator.py`, `sklearn_wrapper.py`, `sk_regressor.py` | values are floats, exact; scikit-learn's input checks reduced to sizes and finiteness; columns of length 1 are not broadcast |
| `Execute` | `execute` of algorithms and vectors | keyword arguments only |
| `Population` | `find_individual_subpopulation`, best/worst/average lists | a subpopulation is named by its position |
| `Listeners` | operators, selections, creators, evaluators and breeders as publishers with their event data | listeners only look; they do not (un)register |
| `Make` | constructors of operators, tournaments and creators, by keyword, with their defaults | no arguments that are functions; events are in `Listeners` |
| `Setup` | constructors of `Subpopulation`, `SimpleEvolution`, `NSGA2Evolution`, `SimplePopulationEvaluator` | an argument of a wrong type is one value; the clock is an integer |
| `RootFunction` | `examples/treegp/sklearn_mode/root_function_creator.py` | the recursion limit counts calls of `create_tree` |
| `Examples` | `examples/vectorga/**` | exact sums; exact decimals as probabilities; printing left out |
| `MooStat` | `moe_best_worst_statistics.py` as a subscriber of a run | printed texts are lists of values, without the percentage |
| `MooExamples` | `examples/multi_objective/**` | exact arithmetic; `sqrt`, `sin`, `exp`, `pi` are parameters; no plot |
| `Multiplexer` | `examples/treegp/basic_mode/multiplexer.py`, `typed_multiplexer.py` | trees are executed row by row instead of on whole columns; exact shares; no printing |
| `Symbolic` | `examples/treegp/basic_mode/symbolic_regression.py`, `typed_symbolic_regression.py` | row by row; exact arithmetic (no overflow); the table is an argument; `sqrt`, `log` are parameters |
| `SkClassifier` | `sklearn_compatible/sklearn_wrapper.py`, `sk_classifier.py`, `classification_evaluator.py`; sklearn's `accuracy_score`; `examples/treegp/sklearn_mode/breast_cancer.py`, `classification_gridsearch.py`, `typed_classification_gridsearch.py` | one subpopulation; labels are numbers; exact arithmetic; of the grid search only the single fits, with the generation limit as an argument; the logistic function is a parameter |
| `SkRegressor` | `examples/treegp/sklearn_mode/symbolic_regression.py`, `regression_pipeline.py`, `regression_gridsearch.py` | the table (after scaling and PCA, in the pipeline) is an argument; exact arithmetic, so no overflow to infinity, which would make the metric raise; of the grid search only the single fits |
| `Float` | base functions, `mean_absolute_error`, `accuracy_score` on float64 | each numeric function rounds its exact result once; one zero; square root, logarithm, sine, cosine and tangent are parameters; the order of summation is a parameter |
| `Objects`, `Checkpoint` | `__getstate__` / `__setstate__`, pickle, deepcopy, `sklearn_wrapper.py` | objects are trees of fields without sharing |
| `NodeStore` | node objects of trees | individuals reduced to their trees |

### 4.2 Not modelled

* IEEE rounding and overflow in arithmetic (except `Double`), and the performance of anything.
* Logging, file output of statistics, warnings, plotting (the text that `show` builds is modelled, in `Show`).
* numpy broadcasting beyond scalars and columns of equal length.
* Python name lookup, subclassing by users (beyond opaque callbacks), non-termination of user code, memory exhaustion,
  recursion limits, signals and interruption.
* The contents of the random streams (Mersenne Twister): theorems hold for all streams.
* Identity of number objects in `TerminalNode.__eq__` (`is`) is an arbitrary tag drawn from the tape.
* `examples/`, `genetic_encodings/gp/untyped_tree*` aliases, `before_after_publisher` wiring of user classes.

### 4.3 Links inside the model

* Trees by value and trees of node objects agree (C28_like_values), so the by-value theorems hold for the objects.
* `fit_getstate` (used by cloning) is the copy of the object model (C41_fitness).
* `sum(pcr) == 1` with doubles is computed bit by bit (C60 and its neighbours use `Double`).

* The theorems about single operators, creators, selections, evaluation and termination are composed in C63: from static
  conditions on the configuration (`Spec/CompleteSpec`) it follows that `evolve` ends without an exception.
* C64 and C65 relate two runs: different completion orders give the same run, and equally ordered fitness functions give the
  same run up to the values. C65 requires values other than NaN since the model's sorting algorithm is not CPython's.

* C73 relates runs with different limits: termination checkers and `max_generation` only decide where a run stops.

## 5. Findings

### 5.1 Refuted by a theorem

| theorem | what fails |
|---|---|
| C02_nan_refuted | with NaN an evaluated fitness is neither better than, nor equal to another, nor equal to itself |
| C02_mixed_direction_refuted | with different `higher_is_better` flags both can be better than the other |
| C08_proportional_refuted | "fitness proportionate" selection uses softmax unless the scores sum to exactly 1: scaling the scores changes who can be picked |
| C11_k_points_refuted | for every k >= 2 there are vectors and points where `VectorKPointsCrossover` is not k-point crossover (slice bounds are mixed up) |
| C12_two_individuals_refuted | an n-point mutation of two individuals can change more than n cells of the first (a failed attempt keeps its changes) |
| C21_depth_without_parameters_refuted | `depth()` raises on a tree with a parameterless function |
| C22_every_subtree_refuted | a subtree whose root equals an earlier node can never be drawn by `random_subtree` |
| C23_different_function_sets_refuted | crossover of trees with different function sets breaks later operations |
| C25_int_stays_int_refuted | ERC mutation turns an int constant into a float |
| C27_other_erc_refuted | a float constant is created where an int is required, with a configuration the constructor accepts |
| C28_twice_refuted, C28_shared_start_refuted | crossover of an individual with itself can share nodes; shared nodes stay shared |
| C32_generation_kept_refuted | the `gen` attribute of the best individual is changed later |
| C32_multi_objective_refuted | NSGA-II's `best_of_run_` is modified in place |
| C35_elites_protected_refuted | elites go through the operators and can be lost |
| C37_existing_events_refuted | a publisher made from an existing event dictionary reuses subscriber ids |
| C41_checkpoint_refuted | after `initialize` an algorithm can be neither pickled nor deep-copied (its evaluator holds the executor) |
| C41_vector_mutation_refuted | an algorithm with vector mutations can never be pickled (lambdas) |
| C41_ids_refuted | after loading a population in a new process ids are given twice |
| C46_average_between_refuted | with a bloat weight the average fitness can be better than the best one |
| C53_three_objectives_refuted | the multi-objective statistics fail with three objectives |
| C54_no_class_refuted, C54_argmax_range_refuted | `n_classes=0` still predicts class 0; argmax predictions are not bounded by `n_classes` |
| C50_infinite_refuted | with an infinite objective the neighbour of the infinite value gets crowding distance NaN, even if it is best in another objective |
| C55_nan_passed_on_refuted | protected division and logarithm hide NaN |
| C56_de_morgan_refuted | untyped `f_and` / `f_or` are bitwise while `f_not` is logical |
| C56_typed_trees_run_refuted | typed `and2floats` etc. return bool, so a well-typed tree can raise TypeError on every input |
| C56_nan_complementary_refuted | `f_iflte` and `f_ifgt` are not complementary for NaN |
| C57_typed_refuted | `add_tree` accepts wrongly typed nodes and rejects rightly typed ones |
| C58_integer_array_refuted | on an integer array a constant tree is cut off to an integer |
| C67_integer_table_refuted | for the same reason a fitted regressor predicts different values for the same numbers given as integers |
| C68_small_population_refuted | with two objectives, a population of two individuals loses the best value of an objective in one generation: duplicates of the other extreme all get infinite crowding distance |
| C69_two_generations_refuted | a run of two generations ends with a Pareto front one of whose members is dominated by an initial individual, although there are two places per objective: duplicates of the extremes crowd out the individual in between |
| C62_params_law_refuted | `set_params(algorithm=a)` does not replace the algorithm |
| C63_documented_terminals_refuted | with a number in an untyped terminal set (documented: `['x', 'y', 1, -1]`) `evolve` raises TypeError at its end, since `finish` shows the best tree and `', '.join` needs strings |
| C74_multi_objective_refuted | `NSGA2Evolution.execute` uses `best_of_run_`, which can be worse in all objectives than a member of the final population |
| C82_this_time_refuted | an operator that is not applied announces (`applied_individuals`) the individuals of its last application |
| C83_documented_probability_refuted | `IntVectorOnePointMutation` is applied with probability 0.5 by default, documented 1.0 |
| C83_given_arity_refuted | `SubtreeMutation(arity=k)` has arity 1 |
| C83_documented_replacement_refuted | `TournamentSelection` replaces by default, documented that it does not |
| C84_best_forgotten_refuted | `evolve` called again after an exception forgets the best individual of the interrupted run and can end with a worse one |
| C85_told, C85_moo_told | listeners get `best_of_gen` None (or that of an earlier run) in the events of a run that stops at its initial population, a list of lists of individuals in those of a multi-objective run |
| C87_items_refuted, C87_no_list | the knapsack example's evaluator rejects every non-empty list of items with ValueError: `type(item[1] not in [int, float])` is always true |
| C89_root_refuted, C89_recursion | `RootFunctionCreator.create_tree` never appends a node and calls itself for the children: RecursionError for every root function with parameters, empty trees for one without |
| C97_second_refuted, C97_places | subtree mutation (and crossover) never chooses the later one of two equal nodes: in add(x, x) the second x is never replaced, the first one is chosen twice as often |
| C62_clone_fitted_refuted | `sklearn.clone` fails on a fitted wrapper |

### 5.2 Other observations made while modelling (visible in the model or in theorems stating the actual behaviour)

* `NSGA2Evolution` with its default termination checker raises TypeError in every validly configured run
  (C60_default_run, C76_multi_objective_runs); `Population([])` and several subpopulations are accepted by the constructors,
  but not by `evolve`.
* `NSGA2Evolution`'s default termination checker raises TypeError on list fitness; `NSGA2Breeder` with elites and list flags raises
  TypeError, and with fitness-proportionate selection ValueError; with the default `SimpleBreeder` every generation halves
  the population until IndexError follows (C52_default_run, C52_default_fails); `finish` does not shut the executor down. A second `evolve` of a multi-objective algorithm
  always raises AttributeError, since its individuals are evaluated already (C71_only_once).
* The default `pcr` is rejected (sum of doubles is not 1) for 6, 7, 9, 10, 11, 13, ... creators before Python 3.12, and for
  49, 98, 103, 107, ... from 3.12 on.
* `SelectionMethod.act` and `register` raise TypeError unless a dictionary of events is given (the default is a list);
  `Creator.__init__` passes its events as the arity, so `act` raises ValueError and the events are lost; the breeder applies
  operators without `act`, so their listeners are never called in a run; the breeder's own listeners get None (C82).
* The events `before_eval`, `after_eval`, `before_breeding`, `after_breeding` are registered but never published;
  statistics are registered again at every `initialize`; the caller's `event_names` list is modified.
* The initial population is never reported by statistics unless the run stops at it (C72_reports); a subscriber that raises ends
  the run without shutting the executor down (C72_observers).
* An operator with probability 0 is applied with chance 2^-53.
* Operators that fail still reset the fitness and are recorded as applied; the Gauss fallback records two names and the parents twice.
* A `higher_is_better` list shorter than the list of objectives silently ignores objectives.
* `final_generation_` stays None if `max_generation` is reached; the algorithm cannot be evolved twice; the arguments
  `best_of_run_` and `generation_num` for resuming are overwritten.
* `ThresholdFromTargetTerminationChecker` does not stop on overshoot.
* `IntVectorOnePointMutation` may touch all cells; `VectorNPointMutation`'s defaults, and a failing one (`on_fail` returns None),
  raise TypeError; bounds of length two for a vector of length two are taken as one pair.
* The classifier does not encode labels: an evaluator of n classes answers 0..n-1 whatever the labels are (`C92_labels_refuted`). The two grid search examples make data of three classes for an evaluator of two: class 2 is never predicted, and with at least 4% of it no fit reaches the threshold (`C92_third_class`).
* `SKRegressor.fit` on a table of finite doubles can raise ValueError: a program overflows (`x0 * x0` with x0 = 2^600) and sklearn's metric refuses the
  prediction, which ends the whole run.  In exact arithmetic the same fit completes.  Otherwise fitting completes (`C94_regressor`, `C94_overflow_refuted`).
* Nothing is better than an individual whose fitness is NaN: `best_of_run_` may stay such an individual, and if the first individual of a
  generation has NaN, better numbers of this generation are missed (`C31_nan_refuted`, `C31_missed_refuted`).
* Operators are applied if `random() <= p`: an operator with probability 0 is applied for one of the 2^53 numbers that `random()` gives (`C97_probability`).
* Recombination alone adds nothing to a run: values and nodes missing in one generation are missing in all later ones (C96); any population of the search space can be the first one (C95), and with a mutation that may redraw everything each later one (C98). All random numbers of a run come from the streams of its own seeds, and those of later generations never change earlier ones (C99). With its last population and `generation_seed` a run can be resumed as if it had been longer, with a fresh seed not (C100, `C100_fresh_seed_refuted`), and NSGA-II not at all (`C100_moo_given`).
* `HalfCreator` drops `bloat_weight` and `update_parents` (so the weight 0.0001 in the symbolic regression examples has no effect, C91); `SubtreeMutation` ignores `arity`.
* Typed trees keep their roots for ever: operators look for subtrees among the nodes that differ (`!=`, by value) from the root
  if it has a type, so the reachable programs are limited by the roots of the first generation (C79); nodes equal to the root
  are not chosen elsewhere in the tree either.
* Bit mutations that flip an even number of bits with certainty (`BitStringVectorNFlipMutation` with
  probability_for_each = 1 and an even n) keep the parity of the number of ones for ever: half of the search space is out of reach (C80_even_flips).
* A numeric constant in the terminal set makes `execute` fail, after every run (C74_number_terminals), though its documentation has one.
* After a run `find_individual_subpopulation(best_of_run_)` raises unless it is of the last generation (C75_found); unevaluated
  `NSGA2Fitness` objects are `equal_to` each other (C51_equal_unranked), where scalar ones raise.
* The first individual's NaN fitness can never be replaced as best.
* `SKClassifier.predict` overwrites the evaluator's context; a saved fitted wrapper refuses to predict after loading.

## 6. Axioms

None.  `Print Assumptions` says "Closed under the global context" for every theorem named in `MANIFEST.json`
(run `make` and look at the output of the files in `theories/Props`).
