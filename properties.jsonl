{"id": "C01", "title": "Fitness is readable exactly when it was last set, not reset", "statement": "After any sequence of set_fitness / set_fitness_not_evaluated calls, get_pure_fitness of a SimpleFitness/GPFitness returns the argument of the last set_fitness call if no reset came after it, and raises ValueError otherwise; is_fitness_evaluated agrees with that except that relative fitness always reports evaluated. An NSGA2Fitness returns the first value stored since the last reset, refuses a second one with AttributeError, and a reset also forgets rank and crowding distance. A new fitness of each class is readable exactly if a value was given, and context-dependent fitness is never cached, so copies of it have to be evaluated again; a new NSGA2Fitness has no rank and uses a single direction for all objectives.", "quantifier": "all initial fitness objects, all finite sequences of set/reset calls, all fitness values", "why_tests_cant": "Unit tests exercise a handful of call sequences; the law is about every call history.", "anchors": ["eckity/fitness/simple_fitness.py: SimpleFitness.set_fitness, get_pure_fitness, set_not_evaluated", "eckity/fitness/fitness.py: Fitness.is_fitness_evaluated, set_fitness_not_evaluated"]}
{"id": "C02", "title": "better_than is a strict weak order, and equal_to is its incomparability", "statement": "For evaluated, non-NaN scalar fitnesses with one higher_is_better flag, better_than never raises, is irreflexive, asymmetric, transitive, has transitive incomparability, follows the direction of the flag, and equal_to holds exactly when neither is better. A fitness whose value is not a number (a list, None, another object) is unequal to every score, and comparing it with one raises TypeError; unevaluated fitness raises ValueError. With a NaN fitness the order laws fail: two fitnesses can be neither better nor equal.", "quantifier": "all triples of fitness values, both directions, all bloat weights and tree sizes", "why_tests_cant": "An order law ranges over all triples of values; tests sample a few pairs and never NaN.", "anchors": ["eckity/fitness/simple_fitness.py: better_than, equal_to, check_comparable_fitnesses", "eckity/fitness/gp_fitness.py: get_augmented_fitness"]}
{"id": "C03", "title": "Bloat control orders equal-score trees by size and vanishes at weight 0", "statement": "With GPFitness and a positive bloat weight, of two individuals with equal pure fitness the one with strictly fewer nodes is better, in both optimisation directions, the augmented fitness is antitone in size (towards worse), and get_pure_fitness is unaffected; with bloat weight 0 augmented fitness equals pure fitness for every size.", "quantifier": "all scores, weights, sizes, directions", "why_tests_cant": "Tests fix single numeric instances; the claim is monotonicity over all of them.", "anchors": ["eckity/fitness/gp_fitness.py: GPFitness.get_augmented_fitness"]}
{"id": "C04", "title": "clone makes an independent copy with a fresh identity", "statement": "clone() returns a new object whose genome equals the original's, whose id was never used before, whose cloned_from is the original's id, whose fitness is unevaluated unless caching is on (and then equal), with parents reset when lineage is recorded; the original and every other live individual are unchanged, and later in-place changes of either one are not visible through the other.", "quantifier": "all heaps of individuals, all individuals, all later writes", "why_tests_cant": "Aliasing and freshness are statements about all reachable states and all later mutations.", "anchors": ["eckity/individual.py: Individual.clone, Individual.__init__", "eckity/fitness/simple_fitness.py: __getstate__"]}
{"id": "C05", "title": "Individual ids are unique and lineage points to the past", "statement": "Along any sequence of individual creations, clonings, operator applications, selections, breedings, evaluations and attribute updates, and along any evolutionary run however it ends, every individual has a different id, ids are below the class counter, cloned_from is -1 or the smaller id of an existing individual, and every recorded parents entry is the id of an existing individual.", "quantifier": "all operation sequences of any length, any starting population", "why_tests_cant": "Uniqueness over unbounded histories cannot be enumerated by tests.", "anchors": ["eckity/individual.py: Individual.update_id, clone", "eckity/genetic_operators/genetic_operator.py: apply_operator"]}
{"id": "C06", "title": "Elitism selection clones exactly the n best, best first", "statement": "ElitismSelection(n) appends to the destination the clones of min(n, size) distinct members of the source in best-to-worst order such that no unselected source individual is strictly better than a selected one, ties resolved by source order; the source list and its individuals are unchanged.", "quantifier": "all source populations with evaluated fitness, all n, both directions, all ties", "why_tests_cant": "Optimality over every population and tie pattern.", "anchors": ["eckity/genetic_operators/selections/elitism_selection.py: ElitismSelection.select"]}
{"id": "C07", "title": "Tournament winners are optimal, first among ties", "statement": "For every random outcome, each tournament has tournament_size participants from the source (distinct positions if replacement is off), its winner is the earliest participant that no other participant is strictly better than, and select appends exactly one marked clone per tournament, floor((len(source)-len(dest))/arity) in all, leaving every existing individual untouched. Without replacement a source smaller than the tournament raises ValueError before any draw or change.", "quantifier": "all populations, tournament sizes, arities, replacement modes and random tapes", "why_tests_cant": "Quantifies over every random draw; a test sees one seed.", "anchors": ["eckity/genetic_operators/selections/tournament_selection.py: TournamentSelection.select, _pick_tournament_winner"]}
{"id": "C08", "title": "Fitness-proportionate selection draws from a valid, order-respecting distribution, but not a proportional one", "statement": "FitnessProportionateSelection accepts exactly non-empty populations of non-negative, non-NaN scores (finite if higher is better) and raises ValueError otherwise; the probabilities it passes to numpy.random.choice are non-negative and sum to one, a worse individual never gets a larger probability than a better one, a uniform draw picks an individual exactly on an interval of the length of its probability, and the selection appends one marked clone per draw. They are not proportional to fitness: of scores 0 and 1 the first is never picked, of scores 0 and 2 it is.", "quantifier": "all fitness lists (any length, infinities and NaN included), both directions, all draws, every non-negative monotone function with value 1 at 0 in place of exp", "why_tests_cant": "Needs real analysis over all fitness vectors.", "anchors": ["eckity/genetic_operators/selections/fp_selection.py: FitnessProportionateSelection.select, softmax"]}
{"id": "C09", "title": "Breeding keeps the population size", "statement": "If breeding succeeds, all individuals of the new population are new, distinct objects. Fitness-proportionate selection keeps the population size; tournament selection gives e + floor((n-e)/arity) individuals for e elites of n, which is n when the selection arity is 1 (as constructed). Every operator arity divides the configured population size.", "quantifier": "all populations, operator sequences, elitism counts, selection configurations, random tapes", "why_tests_cant": "The size law must hold for every configuration and draw.", "anchors": ["eckity/breeders/simple_breeder.py", "eckity/genetic_operators/selections/tournament_selection.py"]}
{"id": "C10", "title": "K-point crossover only exchanges genes position by position", "statement": "For every k, every choice of crossover points and every pair of equal-length vectors, k-point crossover keeps both lengths, and at each position the pair of genes afterwards is the pair before or its swap; hence genes at any position stay within per-position bounds satisfied by both parents.", "quantifier": "all vectors, all k below the length, all random tapes", "why_tests_cant": "Universally quantified over points, lengths and contents.", "anchors": ["eckity/genetic_operators/crossovers/vector_k_point_crossover.py: VectorKPointsCrossover.apply, _swap_vector_parts"]}
{"id": "C11", "title": "One-point crossover is exact; k>=2 is not k-point crossover", "statement": "With k=1 the prefixes before the drawn point are exchanged and the suffixes kept, with the point strictly inside. For every k>=2 the documented behaviour (alternate segments exchanged) fails: there are vectors and points for which a different set of positions is exchanged. For k=2 the exchanged positions are exactly the first segment plus the last segment if the first point is below 3, and plus only the last gene otherwise.", "quantifier": "all vectors for k=1 and k=2; for each k>=2 a witness", "why_tests_cant": "The k=1 law is over all vectors; the failure depends on point positions that small tests do not reach.", "anchors": ["eckity/genetic_operators/crossovers/vector_k_point_crossover.py: VectorKPointsCrossover._swap_vector_parts"]}
{"id": "C12", "title": "Bounded vector mutation stays in bounds and changes only the sampled cells", "statement": "For every built-in vector mutation, applied with any outcome (success, failure, exception) to vectors that are in bounds, all of them stay in bounds with the same length, kind and bounds. Applied to one individual, the vector is as before or exactly the selected cells (n different ones, all for the one-point integer mutation) got a value as the class promises: a draw from the bounds of that cell (an integer unless the vector holds floats), the old value plus Gaussian noise, or the other bit; where cells are mutated with a probability, 1 means always and a negative one never. With operator probability 1 the uniform, integer and bit mutations do this at the first attempt. An n-point mutation changes at most n cells in total over all attempts and the fallback. Applied to two individuals at once (arity 2) the limit fails: a failed attempt keeps the changes made to the first one, so that more than n of its cells can change.", "quantifier": "all vectors, bounds (pair or per-cell), n, number of attempts and random tapes incl. arbitrary Gaussian draws", "why_tests_cant": "Depends on every random outcome, including unbounded Gaussian tails.", "anchors": ["eckity/genetic_encodings/ga/vector_individual.py", "eckity/genetic_operators/mutations/vector_n_point_mutation.py: attempt_operator", "eckity/genetic_operators/mutations/vector_random_mutation.py"]}
{"id": "C13", "title": "Gaussian mutation never leaves an out-of-bounds vector", "statement": "Applying a Gaussian float mutation to an individual with in-bounds vector and valid bounds ends, without raising, with an in-bounds vector of the same length: if all attempts leave the bounds, the uniform mutation takes over.", "quantifier": "all vectors, bounds, probabilities, attempts and random tapes", "why_tests_cant": "The fallback path is only taken on rare draws.", "anchors": ["eckity/genetic_operators/mutations/vector_random_mutation.py: FloatVectorGaussOnePointMutation.on_fail, FloatVectorGaussNPointMutation.on_fail"]}
{"id": "C14", "title": "Bit-string mutation keeps bits and flips at most the sampled ones", "statement": "Bit-string mutations keep vectors over {0,1} of the same length; the one-point flip changes exactly one cell when applied, the n-flip mutation changes at most n cells, and the flip is an involution. With the default n=1 the n-flip mutation can never change two cells although it is documented to traverse the vector.", "quantifier": "all bit vectors, all tapes", "why_tests_cant": "Universal over vectors and tapes; the documented traversal is a statement about reachable outcomes.", "anchors": ["eckity/genetic_encodings/ga/bit_string_vector.py: bit_flip", "eckity/genetic_operators/mutations/vector_random_mutation.py: BitStringVectorNFlipMutation, BitStringVectorFlipMutation"]}
{"id": "C15", "title": "check_if_in_bounds decides per-cell bounds, except length-2 vectors with per-cell bounds", "statement": "For NaN-free vectors, check_if_in_bounds returns True exactly when every cell is between its lower and upper bound, for pair bounds and for per-cell bounds with length other than 2; for a length-2 vector with per-cell bounds it raises TypeError instead.", "quantifier": "all vectors and bounds", "why_tests_cant": "Existing tests use one length; the failing case is a single length.", "anchors": ["eckity/genetic_encodings/ga/vector_individual.py: Vector.check_if_in_bounds"]}
{"id": "C16", "title": "Vector creators give in-bounds vectors of the requested length", "statement": "create_individuals of the GA vector creators returns exactly n individuals, each with a vector of the requested length, all cells within the bounds (and integers unless the vector holds floats), and unevaluated fitness, for every random tape; for IntVector created with its default bounds it raises instead, because the default lower bound is above the upper bound (the default bounds of the other vectors are usable).", "quantifier": "all lengths, n, valid bounds, tapes", "why_tests_cant": "All random outcomes and all parameters.", "anchors": ["eckity/creators/ga_creators/simple_vector_creator.py: GAVectorCreator.create_individuals, create_vector", "eckity/genetic_encodings/ga/int_vector.py", "eckity/genetic_encodings/ga/float_vector.py"]}
{"id": "C17", "title": "Vector cells and parts can be read and replaced without touching the rest", "statement": "For replacement parts inside the vector, replace_vector_part returns the old part, keeps the length, changes only the addressed positions, and replacing back restores the vector. An overlong part is accepted: the vector grows and its length attribute becomes stale. replace_vector_part_random replaces inside the vector and raises ValueError, changing nothing, if the part is longer than the vector. Random parts are contiguous, non-empty sub-lists. add_cell appends one cell at the end and leaves the others alone. set_cell_value changes exactly the addressed cell and raises IndexError beyond the end; emptying a vector and adding cells gives the vector set_vector gives; the constructor accepts exactly cells, and per-cell bounds, of the given length.", "quantifier": "all vectors, parts, indices, tapes", "why_tests_cant": "Index arithmetic over all lengths and offsets.", "anchors": ["eckity/genetic_encodings/ga/vector_individual.py: replace_vector_part, get_vector_part, random_vector_part, replace_vector_part_random"]}
{"id": "C18", "title": "Base n-point mutation cannot be used with its defaults", "statement": "VectorNPointMutation built without a mut_val_getter raises TypeError whenever it is applied to at least one cell, and any vector mutation whose attempts all fail without overriding on_fail makes apply_operator raise TypeError after the individual's fitness was reset.", "quantifier": "all vectors, tapes, attempts", "why_tests_cant": "Failure on every run of a code path that tests always override.", "anchors": ["eckity/genetic_operators/mutations/vector_n_point_mutation.py: default_mut_val_getter, on_fail"]}
{"id": "C19", "title": "Grow and Full create complete, depth-bounded program trees", "statement": "If create_tree succeeds, the node list is the prefix traversal of exactly one complete tree over the function and terminal sets (each function node followed by as many subtrees as its arity); with positive-arity functions every leaf is at a depth between min and max depth for Grow and exactly at max depth for Full.", "quantifier": "all function/terminal sets, depth ranges, random tapes", "why_tests_cant": "All random outcomes over all function sets.", "anchors": ["eckity/creators/gp_creators/grow.py: GrowCreator.create_tree", "eckity/creators/gp_creators/full.py: FullCreator.create_tree", "eckity/creators/gp_creators/tree_creator.py: GPTreeCreator._add_children"]}
{"id": "C20", "title": "Ramped half-and-half creates exactly n individuals with the right split", "statement": "HalfCreator.create_individuals(n) returns exactly n individuals when n is at least twice the number of depths (else ValueError), with equally many Grow and Full trees for each maximal depth and the remainder from Full, each respecting its depth range; the bloat weight given to HalfCreator does not reach the individuals it creates with default sub-creators.", "quantifier": "all n, depth ranges, function/terminal sets, tapes", "why_tests_cant": "Counting law over all n and depth ranges.", "anchors": ["eckity/creators/gp_creators/half.py: HalfCreator.create_individuals"]}
{"id": "C21", "title": "depth, size and execute of a prefix list agree with the tree it denotes", "statement": "For every complete tree size() is the number of nodes, depth() the height when all its functions have parameters (a parameterless function can be executed, but depth() raises ValueError), and execute(**kwargs) with exactly the terminals as keywords is the usual recursive evaluation with variables looked up in kwargs and constants denoting themselves; evaluation order is left to right and an exception of a function propagates.", "quantifier": "all trees, all function semantics (possibly raising), all environments", "why_tests_cant": "Refinement of an index-pointer recursion over all trees.", "anchors": ["eckity/genetic_encodings/gp/tree/tree_individual.py: Tree._depth, depth, size, _execute, execute"]}
{"id": "C22", "title": "random_subtree returns one complete subtree; replace_subtree splices exactly it", "statement": "For every complete tree and random tape random_subtree returns None or a contiguous slice that is exactly one complete subtree, whose root is untyped, or differs from the tree's root and has the requested type; replacing it by another complete subtree gives a complete tree with the rest of the nodes unchanged in order. Not every subtree can be drawn: a subtree whose root equals an earlier node is never returned.", "quantifier": "all complete trees, types, replacement subtrees, tapes", "why_tests_cant": "Index-based list surgery over all trees.", "anchors": ["eckity/genetic_encodings/gp/tree/tree_individual.py: random_subtree, _get_subtree_by_root, _find_subtree_end, replace_subtree"]}
{"id": "C23", "title": "Subtree crossover is closed and conserves nodes", "statement": "SubtreeCrossover applied to any number of different individuals with complete trees over one function set never raises and leaves complete trees with the same root type (well-typed if they were well-typed), the multiset of all nodes over the participating individuals is unchanged, so the total size is conserved, and when no compatible subtree is found nothing changes. With different function sets this fails: the resulting tree can contain a function unknown to it, and a later random_subtree returns an incomplete fragment.", "quantifier": "all tuples of trees (arity >= 2), typed and untyped, all tapes", "why_tests_cant": "Closure and conservation for all trees and draws.", "anchors": ["eckity/genetic_operators/crossovers/subtree_crossover.py: attempt_operator, _pick_subtrees, _swap_subtrees"]}
{"id": "C24", "title": "Subtree mutation is closed", "statement": "SubtreeMutation applied to complete trees leaves complete trees, whatever the outcome; the removed part is one complete subtree, everything outside it is unchanged, the new subtree's depth is at most the mutation's maximal depth, and in typed trees its root has the type of the removed root. It raises only if a requested type has no supply.", "quantifier": "all trees, depth ranges, function/terminal sets, tapes", "why_tests_cant": "All trees and draws.", "anchors": ["eckity/genetic_operators/mutations/subtree_mutation.py: SubtreeMutation.attempt_operator"]}
{"id": "C25", "title": "ERC mutation touches exactly one numeric constant per individual", "statement": "ERCMutation never raises; it either changes nothing or exactly one numeric constant in each given individual, adding the drawn noise to it, and keeps the trees' shape, functions, variables and node types; if one of the individuals has no numeric terminal, none is changed. An integer constant becomes a float although the node keeps the type int.", "quantifier": "all trees, tapes, arities", "why_tests_cant": "In-place node update over all trees and draws.", "anchors": ["eckity/genetic_operators/mutations/erc_mutation.py: ERCMutation.attempt_operator", "eckity/genetic_encodings/gp/tree/tree_individual.py: get_random_numeric_node"]}
{"id": "C26", "title": "execute accepts exactly the terminal set as arguments", "statement": "Tree.execute succeeds in evaluating iff its keyword arguments (or the columns of the X argument) are exactly the terminal set's names; otherwise it raises ValueError. If the terminal set contains a numeric constant, as the documentation of the creators suggests, execute raises for every possible call.", "quantifier": "all terminal sets, argument dictionaries", "why_tests_cant": "The failure is for all calls.", "anchors": ["eckity/genetic_encodings/gp/tree/tree_individual.py: Tree.execute"]}
{"id": "C27", "title": "Typed creation is type-correct unless an ERC of another numeric type intrudes", "statement": "If there is no ERC, or the ERC type is the only numeric type requested, every tree created by Grow/Full for a typed function set is well-typed with the requested root type. Otherwise it can be ill-typed: a request for an int (or bool) terminal can be answered with a float constant.", "quantifier": "all typed function/terminal sets, tapes; existential witness", "why_tests_cant": "All draws; the failing case needs a mixed-type function set.", "anchors": ["eckity/genetic_encodings/gp/tree/tree_individual.py: Tree.random_terminal, random_function", "eckity/creators/gp_creators/tree_creator.py: _add_children"]}
{"id": "C28", "title": "Tree nodes are never shared between individuals", "statement": "In any sequence of cloning, subtree crossover, subtree mutation and ERC mutation (with failed attempts, retries and exceptions) starting from trees without shared node objects, in which no operation is given the same individual twice, no node object ever occurs in two trees or twice in a tree; so an in-place ERC mutation of one individual is never visible in another, trees that are not given to an operator keep their node objects and contents, and all results and trees are the same as if trees were copied by value. Both provisos are necessary: a crossover of an individual with itself can make a node occur twice, and nodes shared at the start stay shared.", "quantifier": "all operation sequences, all tapes", "why_tests_cant": "Aliasing invariant over unbounded histories.", "anchors": ["eckity/genetic_operators/crossovers/subtree_crossover.py", "eckity/genetic_operators/mutations/erc_mutation.py", "eckity/individual.py: clone"]}
{"id": "C29", "title": "A failing arity check stops breeding before anything changes", "statement": "If the population size is not a multiple of some operator's arity, SimpleBreeder raises ValueError for that subpopulation before any selection, cloning or operator application of it; an operator with arity 0 raises ZeroDivisionError.", "quantifier": "all populations and operator sequences", "why_tests_cant": "State-unchanged-on-error over all configurations.", "anchors": ["eckity/breeders/simple_breeder.py: SimpleBreeder.apply_breed"]}
{"id": "C30", "title": "Breeding never modifies the individuals of the previous generation", "statement": "Through a whole breeding step (elitism, selection, operator sequence) every individual object that existed before is left unchanged in genome, fitness, id and lineage; only objects created in this step are modified.", "quantifier": "all populations, selection methods, operator sequences, tapes, also when an exception interrupts the step", "why_tests_cant": "Frame property over all operators and draws.", "anchors": ["eckity/breeders/simple_breeder.py", "eckity/genetic_operators/genetic_operator.py", "eckity/individual.py: clone"]}
{"id": "C31", "title": "best_of_run_ is at least as good as everything ever evaluated", "statement": "After evolve with scalar non-NaN fitness, no individual evaluated in any generation is strictly better than best_of_run_, best_of_run_'s fitness equals the evaluator's value for its genome, and the fitness of best_of_run_ never gets worse from one generation to the next.", "quantifier": "all evaluators, configurations, tapes, numbers of generations", "why_tests_cant": "An invariant over every generation of every run.", "anchors": ["eckity/algorithms/simple_evolution.py: generation_iteration", "eckity/evaluators/simple_population_evaluator.py: SimplePopulationEvaluator.act", "eckity/algorithms/algorithm.py: evolve_main_loop"]}
{"id": "C32", "title": "best_of_run_ is never modified after it was recorded", "statement": "The object recorded as best_of_run_ at any published event keeps its genome, fitness, id and lineage until the end of the run, although operators modify individuals in place; only its gen attribute may change: the best individual found in generation g is relabelled g+1 when the next generation starts. In a multi-objective run (NSGA2Evolution) this is false: best_of_run_ is the object drawn at the initialisation, and its genome and objectives are overwritten by later generations.", "quantifier": "all configurations and tapes", "why_tests_cant": "Aliasing over all later generations.", "anchors": ["eckity/algorithms/simple_evolution.py: generation_iteration", "eckity/breeders/simple_breeder.py"]}
{"id": "C33", "title": "The main loop runs the right number of generations and stops exactly on the first satisfied check", "statement": "evolve performs at most max_generation generations, each seeding, breeding, evaluating, checking and publishing after_generation once and in this order; no individual is ever evaluated twice; it stops in the first generation where some termination checker returns True, final_generation_ is that generation and it is left at its initial value otherwise; after_generation is published with the consecutive generation numbers.", "quantifier": "all configurations, checkers (stateful), max_generation", "why_tests_cant": "Trace property over all run lengths.", "anchors": ["eckity/algorithms/algorithm.py: evolve, evolve_main_loop, should_terminate", "eckity/algorithms/simple_evolution.py"]}
{"id": "C34", "title": "Generation seeds are consecutive and runs are determined by them", "statement": "Generation g is run after seeding the generators with (generation_seed + g) mod 2^32; neither the outcome of evolve nor the outcome of any later generation depends on the state of the random generators before it, so that a run is reproduced, or continued, from population, configuration and seed.", "quantifier": "all seeds (incl. wrap-around), configurations, prior generator states", "why_tests_cant": "Independence from all earlier states is a two-run property.", "anchors": ["eckity/algorithms/algorithm.py: set_random_seed, set_generation_seed, next_seed, evolve_main_loop", "eckity/random/rng.py: RNG.set_seed"]}
{"id": "C35", "title": "Elites are not protected from variation", "statement": "Although elitism_rate is documented to copy the elite as-is, the operator sequence is applied to the elite clones too: there are configurations where no individual of the next generation has the best genome of the previous one, while without operators the elites are kept.", "quantifier": "existential witness; positive part for all populations when the operators are the identity", "why_tests_cant": "Depends on operator draws; tests never compare elites across generations.", "anchors": ["eckity/breeders/simple_breeder.py: SimpleBreeder.apply_breed, _apply_operators", "eckity/subpopulation.py: elitism_rate"]}
{"id": "C36", "title": "before/after events bracket every operator action exactly once", "statement": "Operator.act rejects a payload of the wrong arity with ValueError before anything is called; otherwise the current before_operator subscribers are called in registration order, then the action runs once, then the after_operator subscribers, and the action's result is returned; an exception of a callback or of the action stops the sequence there and propagates, so after_operator is not published if the action raises.", "quantifier": "all subscriber sets, actions", "why_tests_cant": "Ordering over all subscriber configurations.", "anchors": ["eckity/before_after_publisher.py: act_and_publish_before_after", "eckity/event_based_operator.py: Operator.act"]}
{"id": "C37", "title": "Publishing reaches exactly the current subscribers in registration order", "statement": "After any sequence of register / unregister calls, publish calls exactly the callbacks registered and not unregistered for that event, in registration order, each with the event's data; ids returned by register are pairwise different; unknown events and double unregistering raise KeyError; a callback registered by default cannot be published (TypeError).", "quantifier": "all sequences of calls", "why_tests_cant": "All histories.", "anchors": ["eckity/before_after_publisher.py: BeforeAfterPublisher.register, unregister, publish"]}
{"id": "C38", "title": "Stagnation checker fires exactly after the given number of unchanged generations", "statement": "The best-fitness stagnation checker returns True at a call iff the best fitness of at least limit consecutive preceding calls stayed (close to) the value at which the streak started, and a change resets the count.", "quantifier": "all sequences of best fitness values, all limits", "why_tests_cant": "Stateful behaviour over all sequences.", "anchors": ["eckity/termination_checkers/best_fitness_stagnation_termination_checker.py"]}
{"id": "C39", "title": "Threshold termination is exact", "statement": "The threshold checker returns True iff the pure best fitness is within threshold of the optimal fitness, independent of bloat (so a fitness beyond the optimum by more than the threshold does not stop the run); a list of checkers terminates iff one of them does; with no checker evolution runs to max_generation. A run with a threshold checker leaves final_generation_ set iff the best individual it ends with is within the threshold of the optimum.", "quantifier": "all fitness values, thresholds, lists of checkers", "why_tests_cant": "All values.", "anchors": ["eckity/termination_checkers/threshold_from_target_termination_checker.py", "eckity/algorithms/algorithm.py: should_terminate"]}
{"id": "C40", "title": "Evaluation results do not depend on the executor schedule", "statement": "With the map executor method and a pure fitness function every individual gets its own fitness value whatever the number of workers and order in which the tasks finish; the returned best is the first strictly best; if tasks raise, the exception of the first raising individual surfaces. With executor_method='submit' evaluation can only succeed for a single individual, and then the stored fitness is the individual itself, not the evaluator's value. A failing evaluation surfaces there too. A run whose population has not exactly one subpopulation fails (with ValueError, if individuals were given) before anything is evaluated.", "quantifier": "all populations, pure evaluators, completion orders", "why_tests_cant": "All interleavings.", "anchors": ["eckity/evaluators/simple_population_evaluator.py: SimplePopulationEvaluator.act"]}
{"id": "C41", "title": "Pickling or copying an algorithm loses only the documented parts, and works only before it was initialized", "statement": "pickle.loads(pickle.dumps(o)) and copy.deepcopy(o) succeed exactly if no executor (nor, for pickling, a lambda) is reached through the fields taken over. The result then equals the original field by field, except that an algorithm has a new executor of the same kind and number of workers, and a fitness without caching is unevaluated with value None, so that comparing it raises ValueError until it is evaluated again. Once initialize was called, the population evaluator refers to the executor, so the algorithm can no longer be pickled or copied; with vector mutations, whose value getters are lambdas, it can never be pickled. The id counter is not saved: after reading a population back in a new process, ids are given out again.", "quantifier": "all object trees, all fitness states, all populations", "why_tests_cant": "All object states.", "anchors": ["eckity/algorithms/algorithm.py: __getstate__, __setstate__, initialize", "eckity/evaluators/population_evaluator.py: set_executor", "eckity/fitness/simple_fitness.py: __getstate__", "eckity/genetic_operators/mutations/vector_random_mutation.py", "eckity/individual.py: update_id"]}
{"id": "C42", "title": "An algorithm instance can be evolved only once", "statement": "After a successful evolve the executor is shut down, so that a second evolve of the same SimpleEvolution instance raises RuntimeError on its first evaluation, leaving individuals and best_of_run_ as they are.", "quantifier": "all configurations", "why_tests_cant": "Tests build a new instance for each run.", "anchors": ["eckity/algorithms/algorithm.py: finish, set_executor, initialize", "eckity/sklearn_compatible/sk_classifier.py"]}
{"id": "C43", "title": "Failable operators stop at the first success and fail only after all attempts", "statement": "FailableOperator.apply calls attempt_operator with attempt numbers 0,1,... until the first success and returns its result; only if all `attempts` calls fail, on_fail is called once and its result returned; fewer than one attempt is rejected at construction.", "quantifier": "all attempt behaviours, attempts", "why_tests_cant": "All outcome sequences.", "anchors": ["eckity/genetic_operators/failable_operator.py: FailableOperator.apply"]}
{"id": "C44", "title": "Applying a genetic operator with probability 1 always happens, with probability 0 almost never", "statement": "GeneticOperator.apply_operator applies the operator iff the drawn number is at most the probability: always for probability 1, never for negative probability, and for probability 0 exactly when the draw is 0.0; when skipped, the individuals and their fitness are untouched, when applied all inputs' fitness is reset first and the operator name and the input ids are recorded.", "quantifier": "all probabilities, draws, individuals", "why_tests_cant": "The probability-0 case happens with probability 2^-53.", "anchors": ["eckity/genetic_operators/genetic_operator.py: GeneticOperator.apply_operator"]}
{"id": "C45", "title": "Subpopulation construction: elite count and creator probabilities", "statement": "Subpopulation stores n_elite between 0 and population_size, an integer nearest to elitism_rate*population_size up to the rounding of the double product, monotone in the rate, and all individuals at rate 1; the constructor accepts exactly non-empty creator lists with as many probabilities, summing to one in double arithmetic, and operators; with the default equal probabilities 1, 2, 4, 8, ... creators are always accepted, but six creators are rejected when floats are summed naively, as Python before 3.12 does, and 49 when summed with compensation, as later versions do.", "quantifier": "all rates in [0,1], sizes up to 2^53, creator lists, probabilities, operators; exact model of IEEE double rounding", "why_tests_cant": "Depends on floating-point rounding for specific counts.", "anchors": ["eckity/subpopulation.py: Subpopulation.__init__"]}
{"id": "C46", "title": "get_best/get_worst/average of a subpopulation", "statement": "get_best_individual returns the first individual that no other is strictly better than, get_worst_individual the first one that no other is strictly worse than, and get_average_fitness is the exact mean of the pure fitness values and lies between any bounds of them; with infinite values of one sign it is infinite, with NaN or both infinities NaN. With a bloat weight the average need not lie between the fitness values that are compared.", "quantifier": "all evaluated non-empty subpopulations", "why_tests_cant": "All populations.", "anchors": ["eckity/subpopulation.py: get_best_individual, get_worst_individual, get_average_fitness"]}
{"id": "C47", "title": "Pareto dominance is a strict partial order", "statement": "For evaluated non-NaN objective lists of one length and direction list, with any mix of maximised and minimised objectives, NSGA2Fitness.dominate returns True exactly if the own list is nowhere worse and somewhere better than the other's; the relation is irreflexive, asymmetric and transitive. A scalar fitness as the other one raises TypeError; unevaluated fitness and different numbers of objectives raise ValueError.", "quantifier": "all objective vectors and direction lists", "why_tests_cant": "All triples.", "anchors": ["eckity/multi_objective_evolution/nsga2_fitness.py: dominate"]}
{"id": "C48", "title": "Front ranks are the Pareto peeling levels", "statement": "Whatever the iteration order of the set used to remove fronts, NSGA-II sorting gives rank k to the individuals of the k-th Pareto front (those not dominated when the first k-1 fronts are taken away), for all fronts up to the one where the requested number is reached; the other individuals and all other attributes are unchanged. Every individual is in exactly one front.", "quantifier": "all populations, all set orders", "why_tests_cant": "All populations and hash orders.", "anchors": ["eckity/multi_objective_evolution/nsga2_front_sorting.py: NSGA2FrontSorting._select, _pareto_front_finding, _remove_pareto_front, _init_domination_dict"]}
{"id": "C49", "title": "Survivor selection keeps the right number and never drops a dominating individual", "statement": "NSGA-II survivor selection returns exactly the requested number (half the population if 0) of distinct individuals of the population when there are that many, and raises IndexError otherwise; no dropped individual dominates a survivor or is in an earlier front, and within the cut front survivors have crowding distance at least that of the dropped ones.", "quantifier": "all populations, sizes, set orders", "why_tests_cant": "All populations.", "anchors": ["eckity/multi_objective_evolution/nsga2_front_sorting.py: _select"]}
{"id": "C50", "title": "Crowding distances are well-formed", "statement": "After sorting, for each front with survivors the crowding distances are the sums of the relative gaps to the two neighbours in some ascending order of the front per objective, infinite at the ends; a minimal and a maximal individual in each objective have infinite distance, all finite ones are between 0 and the number of objectives.", "quantifier": "all fronts", "why_tests_cant": "All fronts.", "anchors": ["eckity/multi_objective_evolution/nsga2_front_sorting.py: _calc_fronts_crowding"]}
{"id": "C51", "title": "NSGA2 better_than prefers the worse front", "statement": "Contrary to its documentation NSGA2Fitness.better_than prefers the worse front: of two survivors of a sorting step where one dominates the other, the dominated one is better_than the other. In general the higher front_rank wins, ties are broken by the larger crowding distance, and an individual without rank wins with a coin flip; with a rank, a scalar fitness as the other one raises TypeError, and unevaluated fitness and different numbers of objectives raise ValueError. equal_to holds exactly if neither is better, for ranked fitness; new fitness objects are equal to each other whatever their objectives, evaluated or not.", "quantifier": "all ranked pairs", "why_tests_cant": "All pairs.", "anchors": ["eckity/multi_objective_evolution/nsga2_fitness.py: better_than"]}
{"id": "C52", "title": "NSGA2 breeding doubles the population and discards elites", "statement": "NSGA2Breeder with tournament selection turns a subpopulation of N individuals into 2N: new clones of the old ones (with the genomes before the operators) followed by the modified old objects, all unevaluated; it fails for fitness-proportionate selection, and for a positive elite count when higher_is_better is a list. A generation of NSGA2Evolution keeps the sizes of the subpopulations with NSGA2Breeder and halves them with the default SimpleBreeder. A whole run with SimpleBreeder that ends well has evaluated populations of N, N, N/2, N/4, ... individuals, none empty; hence without a termination checker it always fails, if N is below 2^(max_generation-1).", "quantifier": "all populations, operators, tapes", "why_tests_cant": "All runs.", "anchors": ["eckity/multi_objective_evolution/nsga2_breeder.py", "eckity/multi_objective_evolution/nsga2_evolution.py"]}
{"id": "C53", "title": "The multi-objective statistics work for two objectives only", "statement": "For two objectives MOEBestWorstStatistics succeeds on the survivors of every sorting step and reports extreme individuals of the first and of the last front and the size of the first front. A configured two-objective run with crowding checkers therefore ends normally with these statistics subscribed: exactly one block is written per generation, its corners are the objectives of genomes of the run's class, and the run itself is the one without statistics. A call that succeeds changes no individual and writes one block per subpopulation, numbered from 0, with the corners of its first and last front. With scalar fitness it fails with an AttributeError after its first line. With three objectives the assertion of at most two corners can fail; without ranks (a run stopping at its first check) it always fails.", "quantifier": "all fronts; witness for three objectives", "why_tests_cant": "All fronts.", "anchors": ["eckity/multi_objective_evolution/moe_best_worst_statistics.py: write_statistics, get_corners"]}
{"id": "C54", "title": "Classifier output is always a valid class index, monotone in the score", "statement": "With the sigmoid method and n >= 1 classes, every score (finite, infinite or NaN) is mapped to a class index in {0,...,n-1}; class k is chosen exactly for sigmoid values in [k/n,(k+1)/n), the last class including 1; the index is monotone in the score; NaN gives the last class. SKClassifier.predict on a float array returns one class per row, the class of the best tree's value on that row; predictions do not influence later predictions, but leave the first evaluator with the new samples and y = None; predicting before fit raises NotFittedError. The methods argmax and softmax return the tree's value unchecked, provided the root function's name contains the method name, so the result need not be below n_classes. Other method names are rejected with ValueError.", "quantifier": "all scores, class counts, trees, arrays, all monotone sigmoids with values in [0,1]", "why_tests_cant": "All scores.", "anchors": ["eckity/sklearn_compatible/classification_evaluator.py: classify_individual, _clf_sigmoid, _clf_root_func", "eckity/sklearn_compatible/sk_classifier.py: predict"]}
{"id": "C55", "title": "Protected arithmetic functions are total", "statement": "On finite arguments the protected division and inverse return the quotient if the denominator exceeds 0.001 in absolute value and 0 otherwise, so that the result is at most about 1000 times the numerator; the root is only taken of non-negative numbers and the logarithm only counts above 0.001, with default 0; every tree built from the numeric base functions, executed on finite numbers, evaluates to a finite number without exception. NaN is not always passed on: as a denominator or argument of the logarithm it gives 0.", "quantifier": "all finite arguments; all trees over the 43 numeric base functions of both modules; all library functions that are finite on their domain", "why_tests_cant": "All arguments.", "anchors": ["eckity/base/untyped_functions.py", "eckity/base/typed_functions.py"]}
{"id": "C56", "title": "Logical base functions obey Boolean laws on {0,1} and not beyond", "statement": "On 0/1 inputs the untyped f_and, f_or, f_not are the Boolean functions and if-then-else selects its branch; for other integers de Morgan's law fails because and/or are bitwise while not is logical, and on floats f_and/f_or raise TypeError. The typed logical functions obey de Morgan's law, but return booleans where floats or integers are annotated, so that a well-typed tree such as neg_float(and2floats(x, x)) raises TypeError on every input. f_iflte/f_ifgt and f_iflte0/f_ifgt0 are complementary exactly for non-NaN arguments.", "quantifier": "all elements (integers, floats with infinities and NaN, booleans); witnesses for the failures", "why_tests_cant": "All inputs and NaN.", "anchors": ["eckity/base/untyped_functions.py: f_and, f_or, f_not, f_if_then_else, f_iflte, f_ifgt", "eckity/base/typed_functions.py: and2floats, or2floats, not2floats, neg_float"]}
{"id": "C57", "title": "add_tree accepts exactly the prefixes of trees, but its type check is wrong", "statement": "Without types, Tree.add_tree appends the node exactly when the current list is a proper prefix of a complete tree (or empty) and raises ValueError otherwise. In typed trees the check is broken in both directions: a root of any type is accepted, a child of the wrong type can be accepted, and a child of the right type can be rejected.", "quantifier": "all untyped trees and nodes; existential witnesses for the typed failures", "why_tests_cant": "The set of unfinished prefixes is infinite; tests only build a few trees by hand.", "anchors": ["eckity/genetic_encodings/gp/tree/tree_individual.py: Tree.add_tree, _should_add"]}
{"id": "C58", "title": "execute on an array is row-wise evaluation, except for integer arrays", "statement": "For a two-dimensional float array and elementwise functions, Tree.execute(X) is a vector with one entry per row, which is the value of the program on that row. For an integer array this fails: a constant program's value is truncated to an integer.", "quantifier": "all complete trees, arrays with any number of rows and columns, and elementwise function semantics", "why_tests_cant": "Broadcasting is uniform in the shape of the program and the number of rows; tests check a few.", "anchors": ["eckity/genetic_encodings/gp/tree/tree_individual.py: Tree.execute"]}
{"id": "C59", "title": "Creation makes exactly population_size new individuals", "statement": "Creating a subpopulation keeps given individuals untouched; otherwise exactly population_size pairwise distinct, new individuals are created by one of the creators, also by ramped half-and-half, where the groups do not divide the size.", "quantifier": "all creators, sizes, random draws", "why_tests_cant": "All sizes and depth ranges.", "anchors": ["eckity/subpopulation.py: create_subpopulation", "eckity/creators/gp_creators/half.py: HalfCreator.create_individuals"]}
{"id": "C60", "title": "The default termination checker of NSGA2Evolution raises TypeError", "statement": "With a ThresholdFromTargetTerminationChecker (the default of NSGA2Evolution) as first checker, should_terminate raises TypeError whenever best_of_run_ has an evaluated list of objectives, whatever the threshold and the target.", "quantifier": "all thresholds, targets, objective lists", "why_tests_cant": "A universal failure; the shipped tests always pass another checker.", "anchors": ["eckity/multi_objective_evolution/nsga2_evolution.py: NSGA2Evolution.__init__", "eckity/termination_checkers/threshold_from_target_termination_checker.py: should_terminate"]}
{"id": "C61", "title": "The crowding termination checker stops on small positive crowding", "statement": "CrowdingTerminationChecker.should_terminate returns True exactly if each subpopulation has an individual of finite crowding distance, every finite distance is below the threshold, and at least one is not zero.", "quantifier": "all populations of crowding distances and thresholds", "why_tests_cant": "Quantifies over all distances, including infinite ones.", "anchors": ["eckity/multi_objective_evolution/crowding_termination_checker.py: should_terminate"]}
{"id": "C62", "title": "Parameters, cloning and saving of the sklearn wrapper", "statement": "SklearnWrapper.get_params returns the attributes without is_fitted_. set_params(**p) sets each given name as an attribute of the wrapped algorithm, gives it a new executor and changes nothing else, so that set_params(algorithm=a) does not replace the algorithm. sklearn's clone of a wrapper whose algorithm was not initialized gives an unfitted wrapper around a faithful copy; after fit, cloning and pickling raise TypeError. A wrapper read back from a pickle is never fitted and refuses to predict.", "quantifier": "all wrappers, parameters, algorithms", "why_tests_cant": "Laws over all parameter sets and object states; tests set single parameters on fresh wrappers.", "anchors": ["eckity/sklearn_compatible/sklearn_wrapper.py: get_params, set_params, __getstate__, fit", "eckity/algorithms/algorithm.py: __setstate__"]}
{"id": "C63", "title": "A validly configured run completes", "statement": "For an algorithm with one subpopulation, a numeric fitness, a tournament as first selection method, operator and selection arities that divide the population size, checkers that do not raise, and creators and operators that stay within a class of genomes on which the fitness function is defined and which have a textual form, evolve ends without an exception, whatever is drawn and in whatever order the evaluation tasks complete, and every evaluated generation is a full population of that class. Two instances: vectors of one kind, length and bounds with k-point crossover and the vector mutations; trees over one set of primitives (typed or not) with Grow, Full or ramped half-and-half creation, subtree crossover, subtree mutation and ERC mutation, with a fitness function that covers all trees whose nodes are functions, variables and numbers of the given kinds, where the trees stay well-typed with the requested root type throughout the run. Finding: if an untyped terminal set contains a number, as in the documented terminal_set=['x', 'y', 1, -1], every such run does all its generations and then evolve raises TypeError.", "quantifier": "all configurations meeting the static conditions, all numbers of generations, all random tapes, all completion orders", "why_tests_cant": "That no draw in any generation can lead to an exception, an incomplete population or an ill-typed tree is a claim about all runs.", "anchors": ["eckity/algorithms/algorithm.py: evolve, evolve_main_loop, initialize", "eckity/algorithms/simple_evolution.py: generation_iteration, finish", "eckity/breeders/simple_breeder.py: apply_breed", "eckity/subpopulation.py: create_subpopulation_individuals", "eckity/evaluators/simple_population_evaluator.py: _evaluate", "eckity/genetic_encodings/gp/tree/tree_individual.py: show, __str__"]}
{"id": "C64", "title": "A run is determined by its configuration, seed and fitness function", "statement": "Two evolve() calls on equally configured algorithms (execution method 'map'), with fitness functions that give the same results on all genomes, end with the same outcome, the same individuals (genomes, ids, parents, fitness), the same best and worst individuals and the same sequence of events, whatever the order in which the worker threads or processes finish, and whatever state the random generators were left in by earlier code. The same holds for NSGA-II.", "quantifier": "For all configurations, fitness functions (raising or not), completion orders, numbers of workers and generator states before the call.", "why_tests_cant": "A test can repeat a run a few times on one machine; it cannot enumerate completion orders, and a dependence on leftover generator state shows only for particular interleavings.", "anchors": ["eckity/algorithms/algorithm.py: evolve, initialize, set_random_seed, set_generation_seed, next_seed", "eckity/evaluators/simple_population_evaluator.py: _evaluate"]}
{"id": "C65", "title": "Only the order of fitness values matters", "statement": "With tournament selection, elitism and a fitness without size penalty, replacing the fitness function by one that orders genomes in the same way (for instance 2f+3 for f), or by one that orders them in the opposite way while flipping higher_is_better (maximise f, minimise -f), changes nothing in a run but the fitness values: outcome, genomes, ids, parents, applied operators, random draws, elites, best and worst individuals and events are the same.", "quantifier": "For all configurations of vector or tree creators, operators and user-defined termination checkers that do not look at fitness values, all fitness functions with numeric results other than NaN (raising or not), all random draws and generations.", "why_tests_cant": "A relation between two whole runs for all pairs of equally ordered fitness functions; a comparison with a wrong direction in elitism, in the tournament, in the best-of-generation scan or in the search for the worst individual shows only in some populations.", "anchors": ["eckity/fitness/simple_fitness.py: better_than", "eckity/genetic_operators/selections/tournament_selection.py: _pick_tournament_winner", "eckity/genetic_operators/selections/elitism_selection.py: select", "eckity/subpopulation.py: get_best_individual, get_worst_individual", "eckity/evaluators/simple_population_evaluator.py: _evaluate", "eckity/algorithms/simple_evolution.py: generation_iteration"]}
{"id": "C66", "title": "The textual form of a program tree can be read back", "statement": "str(tree) consists of a heading with the terminals as parameters (with type hints if all terminals are typed) and, up to blanks and line breaks, the program in the usual notation f(x1,...,xn). If function names, variable names and numbers have texts without blanks, commas and parentheses, and different ones have different texts, two trees with the same text after the first line consist of the same functions, variables and numbers and compute the same value for all inputs. A text exists exactly if either some terminal is untyped and all terminals are names, or no terminal is untyped and the root has a type; a number in an untyped terminal set gives TypeError.", "quantifier": "all complete trees, all function names, all texts of numbers and types", "why_tests_cant": "That no two different programs print alike is a claim about all pairs of trees; tests compare a few texts.", "anchors": ["eckity/genetic_encodings/gp/tree/tree_individual.py: __str__, _str_rec, show", "eckity/genetic_encodings/gp/tree/tree_node.py: __str__"]}
{"id": "C67", "title": "A fitted regressor predicts by the best evaluated program", "statement": "fit() of the scikit-learn regressor on valid data runs the evolution with the given metric; afterwards predict(X) is, for every table X, the output of one program tree that was evaluated during the run, and no evaluated tree has a better value of the metric on the training data (for any metric and direction, without size penalty). With numeric base functions, one variable per column, finite constants, finite float data and a consistent configuration, fit() cannot raise, and every prediction is, row by row, the finite number that the program computes from that row. The default metric is the mean of the absolute differences, zero exactly for exact predictions. predict before fit, and fit on empty, non-finite or mismatched data, raise ValueError (the latter changing nothing); a fit that fails leaves an unfitted regressor unfitted; a second fit raises RuntimeError and leaves the predictions unchanged. Finding: a program that degenerates to a constant predicts different values for the same numbers given as an integer table, because its value is cut off to the table's element type.", "quantifier": "all data tables and targets, metrics, configurations, numbers of generations, random tapes and completion orders; all later tables", "why_tests_cant": "That no evaluated program beats the fitted one, and that no draw leads to an exception or a non-finite prediction, are claims about all runs and all data; tests fit a few data sets with fixed seeds.", "anchors": ["eckity/sklearn_compatible/sklearn_wrapper.py: fit, predict", "eckity/sklearn_compatible/regression_evaluator.py: evaluate_individual, set_context", "eckity/genetic_encodings/gp/tree/tree_individual.py: execute", "eckity/base/untyped_functions.py: all functions"]}
{"id": "C68", "title": "A multi-objective run never loses the best value reached in an objective", "statement": "With NSGA2Breeder and a subpopulation of at least two individuals per objective, each objective's best value never gets worse: for every individual of the population before a generation and every objective, the population after it has an individual at least as good in that objective; so the final population of a run is in each objective at least as good as the initial one. Survivor selection alone keeps, for every objective, an individual as good as the best of the whole pool (parents and offspring). With fewer individuals than two per objective this fails: with two objectives and two individuals, duplicates push the only best individual out.", "quantifier": "all fitness functions giving m finite numbers, all directions (a flag, or one per objective), operators, schedules of the executor, set iteration orders, seeds, numbers of generations and checkers, given individuals or vector creators; runs that end without an exception", "why_tests_cant": "elitism of the crowded selection is a statement about all pools, including ties and duplicates, and about every sequence of generations; tests see single small fronts", "anchors": ["eckity/multi_objective_evolution/nsga2_front_sorting.py: select_for_population, _select, _calc_fronts_crowding", "eckity/multi_objective_evolution/nsga2_breeder.py: NSGA2Breeder.apply_breed, _create_next_gen", "eckity/multi_objective_evolution/nsga2_evolution.py: NSGA2Evolution.generation_iteration"]}
{"id": "C69", "title": "The Pareto front reported after a generation is the set of undominated individuals", "statement": "With the NSGA2Breeder and one subpopulation, the Pareto front that NSGA2Evolution stores after a generation (best_of_gen) is exactly the set of those individuals of the new population whose objectives, as the fitness function gives them for their genomes, are dominated by no individual of the population. It is not empty, and none of its members is dominated by an individual of the previous population. For survivor selection alone, the rank-1 survivors are those that nobody in the pool dominates. Refuted for more than one generation, even with two places per objective: a member of the final front can be dominated by an individual of the initial population.", "quantifier": "all fitness functions giving finite objectives or raising, all directions, genomes, operators, random draws, set orders and fair schedules", "why_tests_cant": "Tests look at a few fronts; they cannot show that stale ranks or individuals dropped by crowding never enter the reported front, and the loss over two generations depends on rare draws.", "anchors": ["eckity/multi_objective_evolution/nsga2_evolution.py: generation_iteration, _get_pareto_fronts", "eckity/multi_objective_evolution/nsga2_front_sorting.py: select_for_population", "eckity/multi_objective_evolution/nsga2_breeder.py: breed"]}
{"id": "C70", "title": "Program trees compute the expressions they spell", "statement": "On finite numbers each offered arithmetic, comparison, selection and negation function (untyped and typed) computes the operation it is named after: sum, difference, product, protected quotient and inverse, absolute value, negation, maximum, minimum, the four conditional comparisons, logical not, if-then-else, and argmax (0 for equal arguments). So executing any tree of these functions with finite constants and finite arguments gives the rational value of the expression the tree spells. Integers stay integers under the untyped arithmetic. Infinities follow the floating-point standard (a quotient by an infinity is 0, an infinity divided by a divisor within the protected range is 0), and NaN is passed on by sum, difference, product, maximum and minimum. For argmax NaN counts as the largest value, the first one if there are two. On Booleans the functions are the connectives (sum and maximum: or; product and minimum: and), while negation and difference raise TypeError; beside a number, and for functions with a numeric result always, a Boolean counts as 0 or 1. A wrong number of arguments raises TypeError for every function.", "quantifier": "all trees, constants, argument values, integers and floats mixed", "why_tests_cant": "The docstrings promise the operations; tests evaluate a few trees at a few points, which cannot exclude a wrong branch, argument order or tie rule in a function or in how trees pass arguments.", "anchors": ["eckity/base/untyped_functions.py: f_add, f_sub, f_mul, f_div, f_abs, f_neg, f_inv, f_max, f_min, f_iflte0, f_ifgt0, f_iflte, f_ifgt, f_not, f_if_then_else", "eckity/base/typed_functions.py: the functions of the same meaning, argmax2floats", "eckity/genetic_encodings/gp/tree/tree_individual.py: execute, _execute"]}
{"id": "C71", "title": "A validly configured multi-objective run completes, once", "statement": "For NSGA2Evolution with the NSGA2Breeder, one subpopulation without elites, multi-objective fitness, a tournament as first selection method, operator arities that divide the population size, checkers that do not raise, and creators and operators that stay within a class of genomes on which the fitness function is defined and which have a textual form, evolve ends without an exception whatever is drawn. At its end the population has its original size, no individual occurs twice, each carries the objectives of its genome, and the class of genomes is kept; the first evaluation is of one population and every later one of two (parents and offspring). Instance: vectors of one kind, length and bounds with k-point crossover and the vector mutations. A second evolve of the same algorithm object always raises AttributeError and changes no individual.", "quantifier": "all configurations meeting the static conditions, all numbers of generations, all random tapes, all completion orders and all iteration orders of Python sets", "why_tests_cant": "That no draw in any generation can lead to an exception, a wrong population size or a stale fitness is a claim about all runs; the front arithmetic that must add up to exactly the population size depends on the draws.", "anchors": ["eckity/multi_objective_evolution/nsga2_evolution.py: generation_iteration, initialize, finish", "eckity/multi_objective_evolution/nsga2_breeder.py: breed", "eckity/multi_objective_evolution/nsga2_front_sorting.py: select_for_population", "eckity/multi_objective_evolution/nsga2_fitness.py: set_fitness", "eckity/algorithms/algorithm.py: evolve"]}
{"id": "C72", "title": "Subscribers that only read do not influence a run, and statistics report each generation once", "statement": "If the callbacks registered for a run's events only read the algorithm, a single- or multi-objective run with them and with any statistics objects ends with the same result and in the same state as without, unless a subscriber raises: then that exception ends the run at once, the events and evaluations so far are a prefix of those of the undisturbed run, and the executor has not been shut down. In a configured single-objective run whose subscribers do nothing, the statistics write exactly one report per object for each of the generations 1, 2, ... in order, about the individuals evaluated in that generation: fitness of the first best and first worst by augmented fitness, mean of the fitness values, and mean size where asked for; the initial population is reported (with the algorithm's starting generation number) exactly if the run stops at it.", "quantifier": "Single- and multi-objective runs, all evaluators, schedules, draws, all lists of statistics objects, all read-only callbacks for all events; for the reports: all configurations as in C63.", "why_tests_cant": "Which callbacks are registered, when they raise, and the random course of the run are unbounded; a test compares one run with and without one callback.", "anchors": ["eckity/statistics/best_average_worst_statistics.py: write_statistics", "eckity/statistics/best_avg_worst_size_tree_statistics.py: write_statistics", "eckity/statistics/minimal_print_statistics.py: write_statistics", "eckity/algorithms/algorithm.py: evolve, evolve_main_loop, initialize", "eckity/algorithms/simple_evolution.py: initialize", "eckity/before_after_publisher.py: register, publish"]}
{"id": "C73", "title": "Limits only decide when a run stops", "statement": "max_generation and the termination checkers have no influence on a run but where it ends. Of two completed runs that differ only in these, the one that does not do more is the beginning of the other: same seeds, same evaluated individuals and breedings in the same order, then possibly more; if it is not more, both end with the same individuals, population, best and worst individuals, generation number and seed. Once a run got to breeding, its after_generation subscribers are given what the longer run's are given first. For single-objective runs with numeric fitness, the longer run still has every individual of the shorter one unchanged (but for its gen attribute), and its best_of_run_ is not worse. So a run can be repeated with a higher limit, and nothing of it is lost.", "quantifier": "all single- and multi-objective configurations, fitness functions, schedules, draws, all pairs of limits and lists of checkers", "why_tests_cant": "A relation between two whole runs for all configurations; a limit or checker that leaked into the course of a run (through the generators, the seeds or the population) would show only for particular draws.", "anchors": ["eckity/algorithms/algorithm.py: evolve, evolve_main_loop, should_terminate, set_generation_seed, next_seed", "eckity/algorithms/simple_evolution.py: generation_iteration", "eckity/multi_objective_evolution/nsga2_evolution.py: generation_iteration", "eckity/termination_checkers/threshold_from_target_termination_checker.py: should_terminate", "eckity/termination_checkers/best_fitness_stagnation_termination_checker.py: should_terminate"]}
{"id": "C74", "title": "algorithm.execute computes the best evaluated individual's result", "statement": "After evolve(), algorithm.execute(**kwargs) gives, for all arguments, the result of one evaluated individual: for vectors the vector itself (in bounds, of the given kind and length), for trees the value of the program for the given values of its variables. If the fitness function judges individuals only by executing them on some cases (without size penalty), then no individual evaluated during the run has results on these cases that are judged better. With numeric base functions execute returns a finite number, the mathematical value of the expression, whenever exactly the variables of the terminal set are given numbers, and raises ValueError for any other set of arguments; before a run it raises AttributeError. Findings: with a number in the terminal set (as in the documentation of execute) it raises ValueError after every run; for NSGA2Evolution its result can be worse in all objectives than a member of the final population.", "quantifier": "all fitness functions and cases, configurations, tapes, completion orders, numbers of generations, all later arguments", "why_tests_cant": "That no evaluated individual would have done better on the cases, and that execute cannot fail or give a non-finite number for any input, concern all runs and inputs; tests execute one evolved tree on a few inputs.", "anchors": ["eckity/algorithms/simple_evolution.py: execute", "eckity/multi_objective_evolution/nsga2_evolution.py: execute", "eckity/genetic_encodings/ga/vector_individual.py: execute", "eckity/genetic_encodings/gp/tree/tree_individual.py: execute, _execute"]}
{"id": "C75", "title": "best_of_gen and worst_of_gen are the extremes of the current population, which knows no earlier individual", "statement": "After a single-objective run with at least one generation, algorithm.best_of_gen and worst_of_gen are the first best and the first worst (by augmented fitness) of the individuals evaluated last, and population.get_best_individuals() and get_worst_individuals() give the very same objects; without a generation both attributes are what they were. population.find_individual_subpopulation finds all individuals evaluated last, and raises ValueError for all evaluated before, so also for best_of_run_ when it is not of the last generation. In general it finds the first subpopulation that has the object, and the two lists have one individual per subpopulation, by the direction of that subpopulation.", "quantifier": "all fitness functions, configurations with one direction flag, schedules, tapes, numbers of generations and checkers; all populations for the queries", "why_tests_cant": "That the evaluator's scan and the population's sort always agree on one object, and that no individual ever stays in the population, concern all runs with all ties.", "anchors": ["eckity/algorithms/simple_evolution.py: generation_iteration", "eckity/population.py: find_individual_subpopulation, get_best_individuals, get_worst_individuals", "eckity/subpopulation.py: get_best_individual, get_worst_individual, contains_individual", "eckity/evaluators/simple_population_evaluator.py: _evaluate"]}
{"id": "C76", "title": "Whatever the constructors accept can be run to its end", "statement": "Subpopulation(...), SimpleEvolution(...) and NSGA2Evolution(...) either raise ValueError or build exactly the given configuration: one creator or a non-empty list of creators, a population, a subpopulation or a non-empty list of subpopulations in their order, any number of statistics objects, \"thread\" or \"process\"; a missing random seed is taken from the clock and lies between 0 and 2^32 - 1, the first generation seed is the random seed unless given, and one can register for the given (or the four default) event names, init, after_generation, evolution_finished, before_operator and after_operator. With the default selection method, operators whose arities divide the population size, and creators and operators that stay within a class of genomes on which the fitness function is defined, the run of what was constructed completes whatever is drawn. The same holds for NSGA2Evolution with NSGA2Breeder and checkers made for lists of objectives; with its default checker every such run raises TypeError.", "quantifier": "all arguments of the two constructors, both ways in which Python sums the creation probabilities, all clocks, fitness functions, schedules and draws", "why_tests_cant": "The accepted arguments and the later run are connected for all configurations; tests construct a few algorithms and run some of them with particular seeds.", "anchors": ["eckity/subpopulation.py: __init__", "eckity/algorithms/algorithm.py: __init__, _validate_population_type, _validate_statistics_type", "eckity/algorithms/simple_evolution.py: __init__", "eckity/before_after_publisher.py: __init__"]}
{"id": "C77", "title": "The better an individual, the more tournaments it wins, by a known number", "statement": "In tournament selection over n different individuals with k participants, each tournament is decided by its own k random integers, and every ordered choice of participants belongs to exactly one sequence of these integers, so that equally likely integers give equally likely and independent tournaments: n^k of them with replacement, n(n-1)...(n-k+1) without. The e individuals of one score, which r individuals are better than, win (n-r)^k - (n-r-e)^k of them (falling factorials without replacement), each of the e equally many, wherever they stand in the population. A better individual never wins fewer tournaments than a worse one, with replacement and k >= 2 strictly more. Without replacement the k-1 last can never win; with replacement everyone can.", "quantifier": "all populations of different individuals with scores other than NaN, both directions, all tournament sizes, with and without replacement, all ties", "why_tests_cant": "A statement about the number of outcomes over all n^k draws; a statistical test can only estimate frequencies for particular populations.", "anchors": ["eckity/genetic_operators/selections/tournament_selection.py: select, _pick_tournament_winner"]}
{"id": "C78", "title": "Creators reach the whole search space, vectors with equal chances", "statement": "create_individuals of a vector creator maps the numbers drawn for the cells one to one onto the vectors of the requested length within the bounds - all integer vectors and bit strings, (hi-lo+1)^length of them for common bounds, and for floats the 2^53 equidistant values from lo on in each cell - independently for the individuals, so that equally likely numbers give equally likely vectors, and it creates nothing else. For trees, any list of programs over the function set, the terminals and the ERC range, with functions only above and terminals only from the promised depths, and with the wanted type in every place, is what GrowCreator (stopping probability neither 0 nor 1), respectively FullCreator, creates for some draws, and nothing else is created; ramped half-and-half can create every population that follows its plan.", "quantifier": "all bounds and lengths, function sets, terminals, types, ERC ranges, depth ranges, population sizes, all programs", "why_tests_cant": "That no vector or program is out of reach, and none comes up more often than another, is a statement about all outcomes of all draws.", "anchors": ["eckity/creators/ga_creators/simple_vector_creator.py: create_vector", "eckity/genetic_encodings/ga/int_vector.py: get_random_number_in_bounds", "eckity/genetic_encodings/ga/float_vector.py: get_random_number_in_bounds", "eckity/creators/gp_creators/grow.py: create_tree", "eckity/creators/gp_creators/full.py: create_tree", "eckity/creators/gp_creators/half.py: create_individuals", "eckity/genetic_encodings/gp/tree/tree_individual.py: random_function, random_terminal"]}
{"id": "C79", "title": "In typed genetic programming the root of a tree never changes", "statement": "If the root of a tree individual has a type, no subtree crossover, subtree mutation or ERC mutation changes it, whatever is drawn and even if the operator raises: it stays the same function or terminal, a number stays a number of its type. So in a run with these operators the root of every individual of every generation is that of some individual of the first generation, and a function that is the root of none of them never becomes a root. With a root type and the conditions of C63 the run completes and has this property.", "quantifier": "all trees, operators, selection methods, configurations, fitness functions, schedules, tapes and numbers of generations", "why_tests_cant": "That a part of the search space can never be entered, whatever is drawn in however many generations, cannot be observed in finitely many runs.", "anchors": ["eckity/genetic_encodings/gp/tree/tree_individual.py: random_subtree, replace_subtree", "eckity/genetic_operators/crossovers/subtree_crossover.py: attempt_operator, _pick_subtrees, _swap_subtrees", "eckity/genetic_operators/mutations/subtree_mutation.py: attempt_operator", "eckity/genetic_operators/mutations/erc_mutation.py: attempt_operator"]}
{"id": "C80", "title": "What single applications of the operators can reach", "statement": "Applied to one individual with certainty, a vector mutation other than the Gauss ones gives, over all draws, exactly the vectors in which any n different cells have new values, independent of each other: any value that the bounds allow, respectively the other bound (with the cell's own probability, if the kind has one), the other cells being unchanged. Hence, if n = 1, or if cells can keep their values, repeated mutation leads from any vector of the search space to any other one. But flipping an even number of bits, each with certainty, never changes whether the number of ones is even, in any number of applications. One-point crossover gives exactly the length-1 cuts strictly inside the vectors, and k-point crossover can draw every set of k points. Subtree mutation gives exactly the trees in which one eligible place holds a new program of its type, of the depths of the operator; without types every such program is one application away from every tree. Subtree crossover of any number of trees gives exactly the results of choosing an eligible place in the first tree, places eligible for its type in the others, and passing the subtrees around. Mutation of constants gives exactly the trees in which noise, of any normal deviate, is added to any one of the numbers.", "quantifier": "all vectors, bounds, mutation kinds, probabilities, numbers of points; all complete trees, function sets, terminals, depth ranges; all draws", "why_tests_cant": "Which individuals are out of reach of a search operator is a statement about all draws and all numbers of applications.", "anchors": ["eckity/genetic_operators/mutations/vector_n_point_mutation.py: attempt_operator", "eckity/genetic_operators/mutations/vector_random_mutation.py: all classes", "eckity/genetic_operators/crossovers/vector_k_point_crossover.py: apply", "eckity/genetic_operators/mutations/subtree_mutation.py: attempt_operator", "eckity/genetic_operators/crossovers/subtree_crossover.py: attempt_operator, _pick_subtrees, _swap_subtrees", "eckity/genetic_operators/mutations/erc_mutation.py: attempt_operator", "eckity/genetic_encodings/gp/tree/tree_individual.py: random_subtree, replace_subtree"]}
{"id": "C81", "title": "Set-ups that cannot work end in a definite exception", "statement": "The converse of C63. A population of several subpopulations, or of none, never gets as far as evaluating an individual or publishing 'init', whatever the algorithm does per generation; with given individuals the exception is ValueError. A run of evolve that ends normally had exactly one subpopulation with at least one individual, and if it went beyond the first generation, the subpopulation has a selection method and its size is a multiple of every selection and operator arity, none of them 0. Without a selection method breeding raises IndexError and changes nothing. Arities are checked before anything else, in the order of selection methods and operators: the first unfit one decides, ZeroDivisionError if it is 0 and ValueError if it does not divide the size. SimpleBreeder with elites and a list for higher_is_better raises TypeError; a tournament without replacement of more individuals than there are raises ValueError, before anything is drawn. Each of the 53 given functions raises TypeError for a wrong number of arguments. Taking elites from individuals of which some have a number and some a list of objectives as fitness raises TypeError and clones nothing. The only exception of the tree creators is ValueError, whatever functions, terminals, types and depths they are given (ramped half-and-half: unless max_depth + 1 = min_depth). A k-point crossover with at least as many points as cells, and a mutation of more cells than there are, raise ValueError; a vector crossover of one individual alone raises IndexError; all three leave every genome as it was. An operator on trees that is applied to a vector raises AttributeError and changes no genome.", "quantifier": "all fitness functions, populations, operator and selection lists, sizes, arities; all function and terminal sets; all draws", "why_tests_cant": "That a wrong configuration can never slip through to a result, whatever is drawn, and which exception it ends in, is a statement about all configurations and draws; tests try a few wrong ones.", "anchors": ["eckity/algorithms/algorithm.py: initialize, evolve", "eckity/evaluators/simple_population_evaluator.py: _evaluate", "eckity/breeders/simple_breeder.py: apply_breed", "eckity/genetic_operators/selections/elitism_selection.py: select", "eckity/creators/gp_creators/tree_creator.py: create_individuals", "eckity/creators/gp_creators/half.py: create_individuals", "eckity/genetic_operators/crossovers/vector_k_point_crossover.py: apply", "eckity/genetic_operators/mutations/vector_n_point_mutation.py: attempt_operator"]}
{"id": "C82", "title": "What the listeners of operators are told", "statement": "A genetic operator's act tells its before_operator listeners {} and its after_operator listeners {'applied_individuals': \u2026}: the individuals it was given, unless it changed no genome (not applied by chance, or failed on trees); then what an earlier action left there, which may be other individuals (refuted that it is always about this action). Vector operators that are applied always announce their individuals. A selection method made without events can neither be registered with nor act (TypeError); given a dictionary it acts, but listeners never learn who was selected. A creator's act always raises ValueError, and registering for after_creation KeyError, whatever events it is given. The population evaluator announces the population, an individual evaluator the individual, the breeder passes None. Breeding calls no listener of an operator at all.", "quantifier": "all operators, listeners, payloads, random draws", "why_tests_cant": "What is announced depends on the history of applications and on chance; the absence of calls is over all operator sequences.", "anchors": ["eckity/event_based_operator.py: Operator.act, event_name_to_data", "eckity/before_after_publisher.py: publish", "eckity/genetic_operators/selections/selection_method.py: SelectionMethod", "eckity/creators/creator.py: Creator.__init__, apply_operator", "eckity/breeders/simple_breeder.py: _apply_operators, event_name_to_data", "eckity/evaluators/population_evaluator.py: _evaluate"]}
{"id": "C83", "title": "Operators and creators made by their constructors work together in a run", "statement": "Every operator class can be constructed with exactly the keyword arguments it has: others are a TypeError, fewer than one attempt a ValueError, and nothing else is refused; the operator has the probability, the arity and the number of attempts that were given, and for those not given its default; it does what its class is for with the parameters given (numbers of points and cells, noise, depths) or their defaults (the same for the vector creators, and for the tree creators, which need functions and terminals). Any list of calls of operators for vectors (for trees), a creator of vectors (of trees: grow, full, or half and half) and the algorithm's constructor with its defaults together accept everything and complete a run, whatever is drawn and for every evaluator, each evaluated generation consisting of as many individuals as asked for, with genomes of the expected kind. Not so: that every operator has the documented default probability 1 (IntVectorOnePointMutation has 0.5), that the given arity is used (SubtreeMutation ignores it), and that tournaments are without replacement by default (documented; a tournament larger than the population is refused only with replace=False).", "quantifier": "all operator classes and combinations of keyword arguments, all lists of constructor calls, bounds, lengths, primitives, population sizes, elitism rates, evaluators, schedules and draws", "why_tests_cant": "The combinations of classes, arguments, encodings and random draws are unbounded; tests construct a few programs with one seed.", "anchors": ["eckity/genetic_operators/mutations/vector_random_mutation.py: constructors", "eckity/genetic_operators/mutations/vector_n_point_mutation.py: __init__", "eckity/genetic_operators/mutations/subtree_mutation.py: __init__", "eckity/genetic_operators/mutations/erc_mutation.py: __init__", "eckity/genetic_operators/crossovers/vector_k_point_crossover.py: __init__", "eckity/genetic_operators/crossovers/subtree_crossover.py: __init__", "eckity/genetic_operators/selections/tournament_selection.py: __init__", "eckity/creators/gp_creators/tree_creator.py: __init__", "eckity/creators/gp_creators/half.py: __init__", "eckity/algorithms/simple_evolution.py: __init__"]}
{"id": "C84", "title": "What is left when a run ends with an exception", "statement": "If evolve raises (the fitness function, a checker, an operator, a listener), then either the run was broken off: in the initial evaluation, in the first check, or inside generation k+1 after k complete generations, whose events happened in order and were published as 1..k; no checker had asked to stop, nobody was told that the evolution finished, final_generation_ is unchanged and the executor is not shut down. Or everything happened, the executor is shut down, and only showing the best individual raised. best_of_run_ is then the best of all individuals evaluated before the exception (unchanged if there was no evaluation), these keep the values they were given, and what listeners were shown is still so and was getting no worse. In a workable set-up (C63) the only possible exception is the fitness function's own, the population left behind is whole (as many individuals as asked for, genomes of the expected kind), and calling evolve again with a fitness function that works completes a run starting from it. Not so: that the second call's result is at least as good as the best of the first; initialize() forgets it.", "quantifier": "all fitness functions that may raise, schedules, configurations, listeners and checkers that may raise, random draws, points of failure", "why_tests_cant": "The points at which an exception can leave a run, times all configurations, cannot be enumerated by tests; what is left must be consistent at each of them.", "anchors": ["eckity/algorithms/algorithm.py: evolve, initialize, evolve_main_loop", "eckity/algorithms/simple_evolution.py: generation_iteration, finish", "eckity/algorithms/nsga2_evolution.py: finish", "eckity/evaluators/simple_population_evaluator.py: _evaluate", "eckity/breeders/simple_breeder.py: apply_breed"]}
{"id": "C85", "title": "Listeners of an algorithm are told about the population evaluated last", "statement": "A listener registered for all events of an algorithm is called exactly once per published event, in the order of publication, however the run ends. SimpleEvolution: 'init' carries the initial population, which has just been evaluated, max_generation and the generation number; every other event carries the population evaluated last, the current best_of_run_, the generation number, and as best_of_gen a member of the population evaluated last. NSGA2Evolution: the population consists of individuals evaluated last, and best_of_gen is a list with one part of each subpopulation; in the last event these are exactly the members of front rank 1, in order. What 'evolution_finished' carries is the population, best_of_run_, best_of_gen and generation number the algorithm is left with. Finding: in a run that stops at its initial population best_of_gen is what the constructor set (None); listeners that read its fitness fail there.", "quantifier": "all evaluators, schedules, draws, set orders, operators, both breeders, statistics, checkers and limits; any outcome of the run", "why_tests_cant": "A test reads the data of a few events of one run. That the data always belong to the last evaluation, also in runs that stop early or raise, needs all courses of a run.", "anchors": ["eckity/algorithms/algorithm.py: event_name_to_data, evolve, initialize, evolve_main_loop", "eckity/algorithms/simple_evolution.py: event_name_to_data, generation_iteration", "eckity/multi_objective_evolution/nsga2_evolution.py: event_name_to_data, generation_iteration, _get_pareto_fronts", "eckity/before_after_publisher.py: publish"]}
{"id": "C86", "title": "The OneMax examples do what they say", "statement": "Both OneMax programs (bits; floats between 0 and 1), with the constructors' defaults, complete without an exception whatever is drawn and in whatever order evaluations finish. Every evaluated generation has 300 vectors of 100 bits (of 100 numbers between 0 and 1). execute() returns the cells of an evaluated individual, whose fitness is the number of its ones (the sum of its cells), and no evaluated individual has more. The program ends before 500 generations exactly if it found a hundred ones (the sum 100): then that is what execute() returns; otherwise all 500 generations are done.", "quantifier": "all draws, clocks, completion orders, both summation algorithms of Python's sum", "why_tests_cant": "One test run sees one sequence of draws. That no sequence makes the program fail, lose its best individual or miss its target needs all of them.", "anchors": ["examples/vectorga/one_max/one_max_problem.py: main", "examples/vectorga/one_max/one_max_problem_float.py: main", "examples/vectorga/one_max/one_max_evaluator.py: OneMaxEvaluator.evaluate_individual"]}
{"id": "C87", "title": "The knapsack example returns the best bag it met", "statement": "The knapsack program, for every table of at least 20 items and every weight limit, completes all 500 generations without an exception. Every evaluated generation has 50 strings of 20 bits. If any evaluated bag weighs at most the limit, execute() returns one that does, whose fitness is its total price, and no evaluated bag within the limit is worth more. Finding: the evaluator accepts its items as None or a dictionary, but rejects every non-empty list with ValueError.", "quantifier": "all tables and limits, draws, clocks, completion orders, both summation algorithms of Python's sum", "why_tests_cant": "A test runs one table with a few seeds; that an infeasible bag (fitness minus infinity) can never displace a feasible one is a claim about all runs.", "anchors": ["examples/vectorga/knapsack/knapsack_evaluator.py: KnapsackEvaluator.__init__, evaluate_individual", "examples/vectorga/knapsack/knapsack_main.py: main"]}
{"id": "C88", "title": "The multi-objective examples end with points they really computed", "statement": "The three ZDT programs and the basic NSGA-II example, with the constructors' defaults, complete without an exception whatever is drawn, in whatever order evaluations finish and sets are iterated. The initial evaluation is of 150 individuals, each later one of 300; there is one per generation, at most 150 generations, fewer only if the crowding checker stopped the run. The final population has 150 different individuals; each has three cells within the bounds and carries the two objectives computed from exactly these cells (for ZDT: f1 = x0, f2 = 1 - sqrt(x0/g), 1 - (x0/g)^2 or 1 - sqrt(x0/g) - (x0/g) sin(10 pi x0), with g at least 1, so that the root is never taken of a negative number). No initial individual dominates what replaced it (C68). The ZDT programs write one line per generation; the basic example writes in each generation the corners of the fronts, each of which is the objectives of some vector within the bounds. execute() returns the cells of an individual of the initial evaluation: best_of_run_ is never replaced by a later one.", "quantifier": "all draws, clocks, completion and set orders, both summation algorithms of Python's sum, all functions as sqrt, sin and exp (sqrt 3 > 0 for the basic example)", "why_tests_cant": "One test run sees one sequence of draws. That no sequence makes the evaluator, the sorting, the crowding checker or the statistics fail needs all of them.", "anchors": ["examples/multi_objective/zdt/nsga2zdt1.py: Zdt1Evaluator, main", "examples/multi_objective/zdt/nsga2zdt2.py: Zdt2Evaluator", "examples/multi_objective/zdt/nsga2zdt3.py: Zdt3Evaluator", "examples/multi_objective/moe_base_example/nsga2_basic_example.py: NSGA2BasicExampleEvaluator, main", "eckity/termination_checkers/crowding_termination_checker.py: should_terminate"]}
{"id": "C89", "title": "The example creator of trees with a fixed root never creates a tree", "statement": "RootFunctionCreator is documented to create trees with an immutable root function. Refuted: for every root function with at least one parameter (with type hints for all or for none), whenever FullCreator with the same parameters creates individuals, RootFunctionCreator raises RecursionError, at every recursion limit, before anything is drawn: the overridden create_tree is called again for each child and has no end. Whenever it does return (a root function without parameters, or no individuals asked for), every tree it returns is empty. Without a root function, the default, it raises TypeError.", "quantifier": "all root functions, function and terminal sets, depths, numbers of individuals, draws and recursion limits", "why_tests_cant": "A RecursionError at one limit does not show that no limit would do; that no choice of parameters ever yields a tree is a statement about all of them.", "anchors": ["examples/treegp/sklearn_mode/root_function_creator.py: RootFunctionCreator.create_tree", "eckity/creators/gp_creators/tree_creator.py: _add_children, create_individuals"]}
{"id": "C90", "title": "The multiplexer programs evolve total truth functions, score them by their share of correct rows and return the best after the size charge", "statement": "Both multiplexer examples (untyped with integer ERC, and strictly typed) always run to completion, for any random numbers and any order of evaluation. Each of the 40 individuals of each generation is a program that answers each of the 2048 rows with a truth value (0/1, or False/True in the typed version), and its fitness is exactly the share of the rows that it answers as an 8-to-1 multiplexer does. The best-of-run individual is one of those evaluated, and none has a greater share minus 0.00001 times its number of nodes. The run stops early exactly if that individual answers at least 2028 rows correctly, otherwise after 40 generations, and execute on the run's algorithm returns the answers of that individual.", "quantifier": "all random sources, all orders of evaluation, both versions of the program, both ways Python sums floats, all inputs of 11 truth values", "why_tests_cant": "A test runs the program with one seed and sees one fitness curve; that no run can meet a tree that fails or leaves the truth values, that the table is the multiplexer on all rows, and what the returned program is best at concern all runs.", "anchors": ["examples/treegp/basic_mode/multiplexer.py: _target_func, MuxEvaluator.evaluate_individual, main", "examples/treegp/basic_mode/typed_multiplexer.py: _target_func, MuxEvaluator, main", "eckity/base/untyped_functions.py: f_and, f_or, f_not, f_if_then_else", "eckity/base/typed_functions.py: and2bools, or2bools, not2bools, if_then_else3bools", "eckity/termination_checkers/threshold_from_target_termination_checker.py: should_terminate"]}
{"id": "C91", "title": "The symbolic regression programs evolve total functions of three floats, score them by mean absolute deviation and return one with the least", "statement": "Both symbolic regression examples (untyped, and strictly typed) always run to completion, for any table of points, any random numbers and any order of evaluation, as long as square roots and logarithms of finite positive numbers are finite and nothing overflows. Each of the 200 individuals of each generation computes a finite float from any three floats, and its fitness is exactly its mean absolute deviation from x + 2y + 3z on the table. The best-of-run individual is one of those evaluated and none deviates less: the bloat weight that the programs give to their creator has no effect. The run stops early exactly if this deviation is at most 0.001, otherwise after 40 generations. execute returns the value that this individual computes from three floats, and a finite number for any three finite numbers, integers included.", "quantifier": "all tables, all random sources, all orders of evaluation, both versions of the program, both ways Python sums floats, all arguments of execute", "why_tests_cant": "A test runs the program with one table and one seed; that no reachable program tree can fail, and what the returned one minimises, concern all of them.", "anchors": ["examples/treegp/basic_mode/symbolic_regression.py: SymbolicRegressionEvaluator, main", "examples/treegp/basic_mode/typed_symbolic_regression.py: SymbolicRegressionEvaluator, main", "eckity/creators/gp_creators/half.py: HalfCreator.__init__", "eckity/genetic_operators/mutations/erc_mutation.py: apply"]}
{"id": "C92", "title": "A fitted classifier has the highest training accuracy that was evaluated; the classification programs complete", "statement": "Fitting a classifier with the sigmoid method, numeric functions and a consistent configuration on a table of finite floats with whole labels always completes, for any random numbers and any order of evaluation, even if functions give infinities or NaN. Each individual's fitness is exactly the share of the rows that it puts into the class of their label; the class of a row is the n-th part of the unit interval that has the sigmoid of the tree's value, the last class for NaN. predict answers with the best-of-run individual: no evaluated one has a higher share, and its fitness is the accuracy of predict on the training table. This accuracy is at most the share of labels in 0..n-1. The breast cancer program and the two grid search programs are such configurations; they stop early exactly if this accuracy is at least 0.97 and otherwise run all generations. accuracy_score is 1 exactly if all answers are right. Labels are not encoded: a classifier trained with labels 1 and 2 answers 0 and 1, and the grid search programs, whose data has three classes, never answer 2 and never stop early if 4% of the labels are 2. fit refuses unusable tables without a change, a failed fit does not count as fitted, and predict can be repeated: each call answers what the first one would.", "quantifier": "all tables, all labels, all random sources, all orders of evaluation, all numbers of classes, functions, population sizes and operators of a consistent configuration; all further tables that are predicted", "why_tests_cant": "A test fits one data set with one seed; that no reachable program tree makes fitting fail, what the returned one maximises, and which answers are impossible concern all of them.", "anchors": ["eckity/sklearn_compatible/sklearn_wrapper.py: fit", "eckity/sklearn_compatible/sk_classifier.py: predict", "eckity/sklearn_compatible/classification_evaluator.py: evaluate_individual, classify_individual, _clf_sigmoid", "examples/treegp/sklearn_mode/breast_cancer.py: main", "examples/treegp/sklearn_mode/classification_gridsearch.py: main", "examples/treegp/sklearn_mode/typed_classification_gridsearch.py: main"]}
{"id": "C93", "title": "A fitted regressor has the lowest training error that was evaluated; the regression programs predict polynomials", "statement": "Fitting a regressor with numeric functions and a consistent configuration on a table of finite floats always completes, with its statistics, for any random numbers and any order of evaluation. Each individual's fitness is exactly the mean absolute error of its program on the training table. predict answers with the best-of-run individual; no evaluated one has a lower error (a higher one, if higher is better), and its fitness is the error of predict on the training table. The three regression programs are such configurations; they stop early exactly if this error is at most 0.01 and otherwise run all generations. What they predict is one polynomial of the columns, applied to each row of any table.", "quantifier": "all tables and targets of finite floats, all random sources, all orders of evaluation, all functions, population sizes and operators of a consistent configuration; all further tables that are predicted", "why_tests_cant": "A test fits one data set with one seed and checks a score; that fitting cannot fail, what the returned program minimises, and which functions can be answered at all concern all data and all runs.", "anchors": ["eckity/sklearn_compatible/sklearn_wrapper.py: fit, predict", "eckity/sklearn_compatible/regression_evaluator.py: evaluate_individual", "eckity/sklearn_compatible/sk_regressor.py: SKRegressor", "examples/treegp/sklearn_mode/symbolic_regression.py: main", "examples/treegp/sklearn_mode/regression_pipeline.py: main", "examples/treegp/sklearn_mode/regression_gridsearch.py: main"]}
{"id": "C94", "title": "Fitting in double precision", "statement": "With the base functions as numpy computes them on doubles (the exact result rounded to the nearest double, ties to even, overflow to infinity): rounding gives a double, leaves doubles alone, errs by at most half a unit in the last place and overflows only from 2^1024-2^970 on; programs of numeric functions work row by row and give doubles. Fitting a classifier on a finite table always completes, and up to 2^50 rows no evaluated individual has more right answers on the training table than the one that predicts. Fitting a regressor either completes - then the predicting individual has finite answers on the training table and no evaluated one has a better measure - or raises ValueError, the wrapper stays unfitted, and some program of the primitives has an answer that is not finite. The latter happens: a fit on one finite row can overflow although the same fit in exact arithmetic completes.", "quantifier": "all tables of finite floats, targets, labels, draws, schedules, summation orders and consistent configurations; the regression example program", "why_tests_cant": "rounding and overflow depend on the values that random programs produce; a test sees some programs on some tables", "anchors": ["eckity/base/untyped_functions.py: f_add, f_mul, f_sub, f_div", "eckity/sklearn_compatible/regression_evaluator.py: RegressionEvaluator", "eckity/sklearn_compatible/classification_evaluator.py: ClassificationEvaluator", "eckity/sklearn_compatible/sklearn_wrapper.py: SklearnWrapper.fit", "examples/treegp/sklearn_mode/symbolic_regression.py: main"]}
{"id": "C95", "title": "No population, and no optimum, is out of reach of a run", "statement": "For a consistent configuration whose fitness function gives numbers, take any list of population-size members of the creators' search space: in-bounds vectors (all integers within the bounds, all representable steps for floats), or programs with the depths that grow, full or ramped half-and-half promise. There are values of the random draws, obtainable after the run has seeded its generator, with which the run completes and the first population it evaluates is exactly this list, in this order. Hence, if the search space contains an individual to which no individual is preferred, there are draws with which the run's best individual has the optimal fitness, whatever operators, selection and termination checkers are configured.", "quantifier": "every configuration, search space, population over it, optimal individual and number of generations", "why_tests_cant": "The search spaces are astronomically large (2^53 values per float cell), and a test draws only a few populations; that nothing is excluded by creators, seeding, or the choice among several creators is a statement about all of them.", "anchors": ["eckity/algorithms/algorithm.py: Algorithm.initialize, create_population, evolve", "eckity/creators/ga_creators/simple_vector_creator.py: create_individuals", "eckity/creators/gp_creators/half.py: HalfCreator.create_individuals", "eckity/evaluators/simple_population_evaluator.py: _evaluate"]}
{"id": "C96", "title": "Without mutation nothing new arises", "statement": "When the operators of a run only recombine - k-point crossover on vectors, subtree crossover on trees, or no operator - later generations contain nothing that earlier ones lack. A value stands at a place of a vector in some generation only if it stood at that place in some vector of every earlier generation. A function, a variable or a random constant occurs in a tree only if it occurred in a tree of every earlier generation. So the best individual of the run is put together from the first generation, a generation of equal vectors stays as it is for ever, and with no operator every individual is a copy of one in every earlier generation. The general form: for any closure operator on genomes whose closed sets the operators cannot leave, each generation lies in the closure of every earlier one.", "quantifier": "every evaluation function that gives numbers on the search space, every seed and stream of draws, every population size, elitism rate, selection scheme and number of generations", "why_tests_cant": "A test observes a few generations of one seed; that no crossover anywhere in a run can ever introduce a value, whatever is drawn and selected, is a statement about every run.", "anchors": ["eckity/genetic_operators/crossovers/vector_k_point_crossover.py: VectorKPointsCrossover.apply", "eckity/genetic_operators/crossovers/subtree_crossover.py: SubtreeCrossover.apply", "eckity/breeders/simple_breeder.py: SimpleBreeder.apply_breed", "eckity/algorithms/simple_evolution.py: SimpleEvolution.generation_iteration"]}
{"id": "C97", "title": "Random choices are made as often as the parameters say", "statement": "The choices that operators and creators make are fair with respect to the generator. Of the 2^53 numbers that random() gives, floor(2^53 p) + 1 lead to the application of an operator with probability p, and for these it does exactly what it does with probability 1; for the others nothing happens. Each creator of a subpopulation is used for its share of the numbers, to less than one. Each set of k cut points of k-point crossover, and each set of n cells of n-point mutation, comes from equally many sequences of draws (k!, n!). A random function of a type is each of the functions of that type for exactly one of the numbers drawn; a random terminal is each of the terminals of that type for one number, and the random constant, where there is one, for one number more; ERC mutation changes each numeric terminal of the tree for exactly one number. Subtree mutation is not fair among the places of a tree: it draws a position and mutates the first place with an equal node, so this place is chosen as often as its node occurs and later occurrences are never chosen.", "quantifier": "every probability, all weights, vectors, bounds, trees and operator parameters; every state of the generator", "why_tests_cant": "That 2^53 numbers fall into classes of the stated sizes cannot be seen in samples, which are anyway only statistical; an unreachable place or a probability that is off by a little looks like noise in a test.", "anchors": ["eckity/genetic_operators/genetic_operator.py: GeneticOperator.apply_operator", "eckity/subpopulation.py: Subpopulation.create_subpopulation", "eckity/genetic_operators/crossovers/vector_k_point_crossover.py: VectorKPointsCrossover.apply", "eckity/genetic_operators/mutations/vector_n_point_mutation.py: VectorNPointMutation.attempt_operator", "eckity/genetic_encodings/gp/tree/tree_individual.py: Tree.random_subtree, random_function, random_terminal, get_random_numeric_node", "eckity/genetic_operators/mutations/subtree_mutation.py: SubtreeMutation.attempt_operator", "eckity/genetic_operators/mutations/erc_mutation.py: ERCMutation.attempt_operator"]}
{"id": "C98", "title": "No generation is a dead end", "statement": "Let the last operator of a consistent configuration be a mutation that may draw all cells anew (FloatVectorUniformNPointMutation or IntVectorNPointMutation with n equal to the length, IntVectorOnePointMutation with a non-negative cell probability), BitStringVectorNFlipMutation with n equal to the length and a cell probability from 0 to below 1 - 2^-53, or subtree mutation over untyped primitives. Take any run, any of its generations after the first, and any list of population-size members of the search space (for subtree mutation: programs of its init_depth). Then other numbers from the generator, for the seed of this generation only, give a run with the same generations before it and exactly this list as this generation, whatever selection, elitism and the other operators do. Hence for every sequence of populations there is a run that goes through them one after the other for as long as it lasts.", "quantifier": "every run of every such configuration, every generation of it, every population or sequence of populations of the search space", "why_tests_cant": "No number of runs shows that no state of the search is a trap: the claim is about the existence of draws after every possible history, among astronomically many populations.", "anchors": ["eckity/algorithms/algorithm.py: Algorithm.evolve_main_loop, next_seed, set_random_seed", "eckity/breeders/simple_breeder.py: SimpleBreeder.apply_breed, _create_next_gen", "eckity/genetic_operators/mutations/vector_random_mutation.py: FloatVectorUniformNPointMutation, IntVectorOnePointMutation, IntVectorNPointMutation, BitStringVectorNFlipMutation", "eckity/genetic_operators/mutations/subtree_mutation.py: SubtreeMutation.apply"]}
{"id": "C99", "title": "A run takes its random numbers only from the streams of its own seeds", "statement": "Whatever state the global generators were in, and whatever numbers they would give after other seeds, a run of SimpleEvolution or NSGA2Evolution with the same algorithm object and individuals is the same - results, events, exceptions and all - as long as the generators give the same numbers after each of the seeds this run sets: random_seed, and generation_seed + k for its k-th generation (modulo 2^32). If they differ for some of these, the runs are still the same up to the moment when the first such seed is set. So for a consistent configuration the numbers of later generations never change earlier ones: with the same streams for random_seed and for the seeds of generations 1 to k, the first k+1 populations of both runs consist of the same individuals with the same genomes, also at the end of both runs.", "quantifier": "every algorithm and world, every fitness function and executor schedule, every pair of generator states and streams, every k", "why_tests_cant": "That no draw is made before the first seeding, or in a moment that belongs to another generation, is a statement about all streams at once; a repeated seeded run in one process tests one stream from one state.", "anchors": ["eckity/algorithms/algorithm.py: Algorithm.evolve, initialize, evolve_main_loop, set_random_seed, next_seed, finish", "eckity/breeders/simple_breeder.py: SimpleBreeder.apply_breed", "eckity/multi_objective_evolution/nsga2_breeder.py: NSGA2Breeder.apply_breed", "eckity/algorithms/simple_evolution.py: SimpleEvolution.generation_iteration"]}
{"id": "C100", "title": "A finished run can be resumed from its last population and generation seed", "statement": "Let a SimpleEvolution without termination checkers finish k generations, and let a second one be given its last population, its last generation_seed (with any random_seed) and run for m generations. Then both together breed the same as one run of k + m generations: evaluating the given population again changes nothing, after that the same individuals are evaluated generation by generation, and in the end population, best of the last generation, generation seed and all individuals (genomes, fitness, ids, histories) are the same, except for their generation numbers, which the second run counts anew; the best individual of the long run is exactly as good as the better of the best ones of the two runs. If the second run is not given the last generation seed (the default takes its random_seed), it goes on otherwise. NSGA-II cannot be resumed like this: being given an evaluated first individual it always raises AttributeError, with no individual changed.", "quantifier": "all fitness functions that give numbers, all populations with scalar fitness, all selections, operators, seeds, streams of random numbers and all k and m for which the three runs finish; the refutation gives one such run", "why_tests_cant": "One resumed run can be compared with one long run; that no operator, comparison or evaluation looks at what a finished run loses (generation numbers, best of run, positions of the generators) is a statement about all runs.", "anchors": ["eckity/algorithms/algorithm.py: Algorithm.__init__, initialize, evolve_main_loop, next_seed, set_generation_seed", "eckity/algorithms/simple_evolution.py: SimpleEvolution.generation_iteration", "eckity/subpopulation.py: create_subpopulation_individuals", "eckity/population.py: create_population_individuals"]}
