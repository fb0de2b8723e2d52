E = "eckity/"

# ---------------------------------------------------------------- fitness / individuals
prop("C01", "Fitness is readable exactly when it was last set, not reset",
     "After any sequence of set_fitness / set_fitness_not_evaluated calls, get_pure_fitness of a SimpleFitness/GPFitness returns the argument of the last set_fitness call if no reset came after it, and raises ValueError otherwise; is_fitness_evaluated agrees with that except that relative fitness always reports evaluated. An NSGA2Fitness returns the first value stored since the last reset, refuses a second one with AttributeError, and a reset also forgets rank and crowding distance. A new fitness of each class is readable exactly if a value was given, and context-dependent fitness is never cached, so copies of it have to be evaluated again; a new NSGA2Fitness has no rank and uses a single direction for all objectives.",
     "all initial fitness objects, all finite sequences of set/reset calls, all fitness values",
     "Unit tests exercise a handful of call sequences; the law is about every call history.",
     [E+"fitness/simple_fitness.py: SimpleFitness.set_fitness, get_pure_fitness, set_not_evaluated", E+"fitness/fitness.py: Fitness.is_fitness_evaluated, set_fitness_not_evaluated"],
     theorems=["C01_fitness_history", "C01_multi_objective", "C01_multi_objective_once", "C01_multi_objective_reset", "C01_new", "C01_relative_not_copied", "C01_new_multi_objective"])
prop("C02", "better_than is a strict weak order, and equal_to is its incomparability",
     "For evaluated, non-NaN scalar fitnesses with one higher_is_better flag, better_than never raises, is irreflexive, asymmetric, transitive, has transitive incomparability, follows the direction of the flag, and equal_to holds exactly when neither is better. A fitness whose value is not a number (a list, None, another object) is unequal to every score, and comparing it with one raises TypeError; unevaluated fitness raises ValueError. With a NaN fitness the order laws fail: two fitnesses can be neither better nor equal.",
     "all triples of fitness values, both directions, all bloat weights and tree sizes",
     "An order law ranges over all triples of values; tests sample a few pairs and never NaN.",
     [E+"fitness/simple_fitness.py: better_than, equal_to, check_comparable_fitnesses", E+"fitness/gp_fitness.py: get_augmented_fitness"],
     theorems=["C02_better_direction", "C02_irreflexive", "C02_asymmetric", "C02_transitive", "C02_negatively_transitive", "C02_equal_is_incomparable", "C02_finite_fitness_scores", "C02_unevaluated_raises", "C02_nan_refuted", "C02_mixed_direction_refuted", "C02_other_values"])
prop("C03", "Bloat control orders equal-score trees by size and vanishes at weight 0",
     "With GPFitness and a positive bloat weight, of two individuals with equal pure fitness the one with strictly fewer nodes is better, in both optimisation directions, the augmented fitness is antitone in size (towards worse), and get_pure_fitness is unaffected; with bloat weight 0 augmented fitness equals pure fitness for every size.",
     "all scores, weights, sizes, directions",
     "Tests fix single numeric instances; the claim is monotonicity over all of them.",
     [E+"fitness/gp_fitness.py: GPFitness.get_augmented_fitness"],
     theorems=["C03_smaller_is_better", "C03_tradeoff", "C03_antitone_and_pure_unaffected", "C03_zero_weight", "C03_infinite"])
prop("C04", "clone makes an independent copy with a fresh identity",
     "clone() returns a new object whose genome equals the original's, whose id was never used before, whose cloned_from is the original's id, whose fitness is unevaluated unless caching is on (and then equal), with parents reset when lineage is recorded; the original and every other live individual are unchanged, and later in-place changes of either one are not visible through the other.",
     "all heaps of individuals, all individuals, all later writes",
     "Aliasing and freshness are statements about all reachable states and all later mutations.",
     [E+"individual.py: Individual.clone, Individual.__init__", E+"fitness/simple_fitness.py: __getstate__"],
     theorems=["C04_clone_copies", "C04_clone_independent"])
prop("C05", "Individual ids are unique and lineage points to the past",
     "Along any sequence of individual creations, clonings, operator applications, selections, breedings, evaluations and attribute updates, and along any evolutionary run however it ends, every individual has a different id, ids are below the class counter, cloned_from is -1 or the smaller id of an existing individual, and every recorded parents entry is the id of an existing individual.",
     "all operation sequences of any length, any starting population",
     "Uniqueness over unbounded histories cannot be enumerated by tests.",
     [E+"individual.py: Individual.update_id, clone", E+"genetic_operators/genetic_operator.py: apply_operator"],
     theorems=["C05_ids_and_lineage", "C05_evolve_keeps_lineage"])

# ---------------------------------------------------------------- selection
prop("C06", "Elitism selection clones exactly the n best, best first",
     "ElitismSelection(n) appends to the destination the clones of min(n, size) distinct members of the source in best-to-worst order such that no unselected source individual is strictly better than a selected one, ties resolved by source order; the source list and its individuals are unchanged.",
     "all source populations with evaluated fitness, all n, both directions, all ties",
     "Optimality over every population and tie pattern.",
     [E+"genetic_operators/selections/elitism_selection.py: ElitismSelection.select"],
     theorems=["C06_elitism"])
prop("C07", "Tournament winners are optimal, first among ties",
     "For every random outcome, each tournament has tournament_size participants from the source (distinct positions if replacement is off), its winner is the earliest participant that no other participant is strictly better than, and select appends exactly one marked clone per tournament, floor((len(source)-len(dest))/arity) in all, leaving every existing individual untouched. Without replacement a source smaller than the tournament raises ValueError before any draw or change.",
     "all populations, tournament sizes, arities, replacement modes and random tapes",
     "Quantifies over every random draw; a test sees one seed.",
     [E+"genetic_operators/selections/tournament_selection.py: TournamentSelection.select, _pick_tournament_winner"],
     theorems=["C07_tournaments", "C07_too_small"])
prop("C08", "Fitness-proportionate selection draws from a valid, order-respecting distribution, but not a proportional one",
     "FitnessProportionateSelection accepts exactly non-empty populations of non-negative, non-NaN scores (finite if higher is better) and raises ValueError otherwise; the probabilities it passes to numpy.random.choice are non-negative and sum to one, a worse individual never gets a larger probability than a better one, a uniform draw picks an individual exactly on an interval of the length of its probability, and the selection appends one marked clone per draw. They are not proportional to fitness: of scores 0 and 1 the first is never picked, of scores 0 and 2 it is.",
     "all fitness lists (any length, infinities and NaN included), both directions, all draws, every non-negative monotone function with value 1 at 0 in place of exp",
     "Needs real analysis over all fitness vectors.",
     [E+"genetic_operators/selections/fp_selection.py: FitnessProportionateSelection.select, softmax"],
     theorems=["C08_accepted", "C08_distribution", "C08_order", "C08_interval", "C08_selection", "C08_over_approximated", "C08_proportional_refuted"],
     note="Sums and quotients are exact rationals; the exponential function is arbitrary except for non-negativity, monotonicity and exp 0 = 1.")
prop("C09", "Breeding keeps the population size",
     "If breeding succeeds, all individuals of the new population are new, distinct objects. Fitness-proportionate selection keeps the population size; tournament selection gives e + floor((n-e)/arity) individuals for e elites of n, which is n when the selection arity is 1 (as constructed). Every operator arity divides the configured population size.",
     "all populations, operator sequences, elitism counts, selection configurations, random tapes",
     "The size law must hold for every configuration and draw.",
     [E+"breeders/simple_breeder.py", E+"genetic_operators/selections/tournament_selection.py"],
     theorems=["C09_size_kept"])

# ---------------------------------------------------------------- vectors
prop("C10", "K-point crossover only exchanges genes position by position",
     "For every k, every choice of crossover points and every pair of equal-length vectors, k-point crossover keeps both lengths, and at each position the pair of genes afterwards is the pair before or its swap; hence genes at any position stay within per-position bounds satisfied by both parents.",
     "all vectors, all k below the length, all random tapes",
     "Universally quantified over points, lengths and contents.",
     [E+"genetic_operators/crossovers/vector_k_point_crossover.py: VectorKPointsCrossover.apply, _swap_vector_parts"],
     theorems=["C10_crossover_mixes_positions", "C10_crossover_keeps_bounds"])
prop("C11", "One-point crossover is exact; k>=2 is not k-point crossover",
     "With k=1 the prefixes before the drawn point are exchanged and the suffixes kept, with the point strictly inside. For every k>=2 the documented behaviour (alternate segments exchanged) fails: there are vectors and points for which a different set of positions is exchanged. For k=2 the exchanged positions are exactly the first segment plus the last segment if the first point is below 3, and plus only the last gene otherwise.",
     "all vectors for k=1 and k=2; for each k>=2 a witness",
     "The k=1 law is over all vectors; the failure depends on point positions that small tests do not reach.",
     [E+"genetic_operators/crossovers/vector_k_point_crossover.py: VectorKPointsCrossover._swap_vector_parts"],
     theorems=["C11_one_point", "C11_two_point_effect", "C11_two_point_documented", "C11_k_points_refuted"])
prop("C12", "Bounded vector mutation stays in bounds and changes only the sampled cells",
     "For every built-in vector mutation, applied with any outcome (success, failure, exception) to vectors that are in bounds, all of them stay in bounds with the same length, kind and bounds. Applied to one individual, the vector is as before or exactly the selected cells (n different ones, all for the one-point integer mutation) got a value as the class promises: a draw from the bounds of that cell (an integer unless the vector holds floats), the old value plus Gaussian noise, or the other bit; where cells are mutated with a probability, 1 means always and a negative one never. With operator probability 1 the uniform, integer and bit mutations do this at the first attempt. An n-point mutation changes at most n cells in total over all attempts and the fallback. Applied to two individuals at once (arity 2) the limit fails: a failed attempt keeps the changes made to the first one, so that more than n of its cells can change.",
     "all vectors, bounds (pair or per-cell), n, number of attempts and random tapes incl. arbitrary Gaussian draws",
     "Depends on every random outcome, including unbounded Gaussian tails.",
     [E+"genetic_encodings/ga/vector_individual.py", E+"genetic_operators/mutations/vector_n_point_mutation.py: attempt_operator", E+"genetic_operators/mutations/vector_random_mutation.py"],
     theorems=["C12_mutation_in_bounds", "C12_at_most_n_cells", "C12_uniform_never_fails", "C12_two_individuals_refuted", "C12_effect", "C12_applied", "C12_integers_kept"])
prop("C13", "Gaussian mutation never leaves an out-of-bounds vector",
     "Applying a Gaussian float mutation to an individual with in-bounds vector and valid bounds ends, without raising, with an in-bounds vector of the same length: if all attempts leave the bounds, the uniform mutation takes over.",
     "all vectors, bounds, probabilities, attempts and random tapes",
     "The fallback path is only taken on rare draws.",
     [E+"genetic_operators/mutations/vector_random_mutation.py: FloatVectorGaussOnePointMutation.on_fail, FloatVectorGaussNPointMutation.on_fail"],
     theorems=["C13_gauss_ends_in_bounds"])
prop("C14", "Bit-string mutation keeps bits and flips at most the sampled ones",
     "Bit-string mutations keep vectors over {0,1} of the same length; the one-point flip changes exactly one cell when applied, the n-flip mutation changes at most n cells, and the flip is an involution. With the default n=1 the n-flip mutation can never change two cells although it is documented to traverse the vector.",
     "all bit vectors, all tapes",
     "Universal over vectors and tapes; the documented traversal is a statement about reachable outcomes.",
     [E+"genetic_encodings/ga/bit_string_vector.py: bit_flip", E+"genetic_operators/mutations/vector_random_mutation.py: BitStringVectorNFlipMutation, BitStringVectorFlipMutation"],
     theorems=["C14_bits_kept", "C14_at_most_n_flips", "C14_flip_one", "C14_flip_involutive", "C14_nflip_default_one_bit"])
prop("C15", "check_if_in_bounds decides per-cell bounds, except length-2 vectors with per-cell bounds",
     "For NaN-free vectors, check_if_in_bounds returns True exactly when every cell is between its lower and upper bound, for pair bounds and for per-cell bounds with length other than 2; for a length-2 vector with per-cell bounds it raises TypeError instead.",
     "all vectors and bounds",
     "Existing tests use one length; the failing case is a single length.",
     [E+"genetic_encodings/ga/vector_individual.py: Vector.check_if_in_bounds"],
     theorems=["C15_check_decides", "C15_length_two_raises"])
prop("C16", "Vector creators give in-bounds vectors of the requested length",
     "create_individuals of the GA vector creators returns exactly n individuals, each with a vector of the requested length, all cells within the bounds (and integers unless the vector holds floats), and unevaluated fitness, for every random tape; for IntVector created with its default bounds it raises instead, because the default lower bound is above the upper bound (the default bounds of the other vectors are usable).",
     "all lengths, n, valid bounds, tapes",
     "All random outcomes and all parameters.",
     [E+"creators/ga_creators/simple_vector_creator.py: GAVectorCreator.create_individuals, create_vector", E+"genetic_encodings/ga/int_vector.py", E+"genetic_encodings/ga/float_vector.py"],
     theorems=["C16_creators", "C16_int_default_bounds_raise", "C16_other_default_bounds"])
prop("C17", "Vector cells and parts can be read and replaced without touching the rest",
     "For replacement parts inside the vector, replace_vector_part returns the old part, keeps the length, changes only the addressed positions, and replacing back restores the vector. An overlong part is accepted: the vector grows and its length attribute becomes stale. replace_vector_part_random replaces inside the vector and raises ValueError, changing nothing, if the part is longer than the vector. Random parts are contiguous, non-empty sub-lists. add_cell appends one cell at the end and leaves the others alone. set_cell_value changes exactly the addressed cell and raises IndexError beyond the end; emptying a vector and adding cells gives the vector set_vector gives; the constructor accepts exactly cells, and per-cell bounds, of the given length.",
     "all vectors, parts, indices, tapes",
     "Index arithmetic over all lengths and offsets.",
     [E+"genetic_encodings/ga/vector_individual.py: replace_vector_part, get_vector_part, random_vector_part, replace_vector_part_random"],
     theorems=["C17_replace_part", "C17_overlong_part_grows", "C17_replace_random", "C17_replace_random_too_long", "C17_random_part", "C17_add_cell", "C17_set_cell", "C17_set_cell_beyond", "C17_constructor", "C17_refilled"])
prop("C18", "Base n-point mutation cannot be used with its defaults",
     "VectorNPointMutation built without a mut_val_getter raises TypeError whenever it is applied to at least one cell, and any vector mutation whose attempts all fail without overriding on_fail makes apply_operator raise TypeError after the individual's fitness was reset.",
     "all vectors, tapes, attempts",
     "Failure on every run of a code path that tests always override.",
     [E+"genetic_operators/mutations/vector_n_point_mutation.py: default_mut_val_getter, on_fail"],
     theorems=["C18_default_getter_raises", "C18_failing_mutation_raises"])

# ---------------------------------------------------------------- trees
prop("C19", "Grow and Full create complete, depth-bounded program trees",
     "If create_tree succeeds, the node list is the prefix traversal of exactly one complete tree over the function and terminal sets (each function node followed by as many subtrees as its arity); with positive-arity functions every leaf is at a depth between min and max depth for Grow and exactly at max depth for Full.",
     "all function/terminal sets, depth ranges, random tapes",
     "All random outcomes over all function sets.",
     [E+"creators/gp_creators/grow.py: GrowCreator.create_tree", E+"creators/gp_creators/full.py: FullCreator.create_tree", E+"creators/gp_creators/tree_creator.py: GPTreeCreator._add_children"],
     theorems=["C19_created", "C19_succeeds", "C19_unique"])
prop("C20", "Ramped half-and-half creates exactly n individuals with the right split",
     "HalfCreator.create_individuals(n) returns exactly n individuals when n is at least twice the number of depths (else ValueError), with equally many Grow and Full trees for each maximal depth and the remainder from Full, each respecting its depth range; the bloat weight given to HalfCreator does not reach the individuals it creates with default sub-creators.",
     "all n, depth ranges, function/terminal sets, tapes",
     "Counting law over all n and depth ranges.",
     [E+"creators/gp_creators/half.py: HalfCreator.create_individuals"],
     theorems=["C20_half_and_half", "C20_split", "C20_too_few", "C20_succeeds", "C20_bloat_weight_lost"])
prop("C21", "depth, size and execute of a prefix list agree with the tree it denotes",
     "For every complete tree size() is the number of nodes, depth() the height when all its functions have parameters (a parameterless function can be executed, but depth() raises ValueError), and execute(**kwargs) with exactly the terminals as keywords is the usual recursive evaluation with variables looked up in kwargs and constants denoting themselves; evaluation order is left to right and an exception of a function propagates.",
     "all trees, all function semantics (possibly raising), all environments",
     "Refinement of an index-pointer recursion over all trees.",
     [E+"genetic_encodings/gp/tree/tree_individual.py: Tree._depth, depth, size, _execute, execute"],
     theorems=["C21_size", "C21_depth", "C21_depth_without_parameters_refuted", "C21_execute"],
     note="depth fails for parameterless functions: C21_depth_without_parameters_refuted")
prop("C22", "random_subtree returns one complete subtree; replace_subtree splices exactly it",
     "For every complete tree and random tape random_subtree returns None or a contiguous slice that is exactly one complete subtree, whose root is untyped, or differs from the tree's root and has the requested type; replacing it by another complete subtree gives a complete tree with the rest of the nodes unchanged in order. Not every subtree can be drawn: a subtree whose root equals an earlier node is never returned.",
     "all complete trees, types, replacement subtrees, tapes",
     "Index-based list surgery over all trees.",
     [E+"genetic_encodings/gp/tree/tree_individual.py: random_subtree, _get_subtree_by_root, _find_subtree_end, replace_subtree"],
     theorems=["C22_drawn", "C22_reachable", "C22_replaced", "C22_every_subtree_refuted"],
     note="that every subtree can be drawn is refuted by C22_every_subtree_refuted")
prop("C23", "Subtree crossover is closed and conserves nodes",
     "SubtreeCrossover applied to any number of different individuals with complete trees over one function set never raises and leaves complete trees with the same root type (well-typed if they were well-typed), the multiset of all nodes over the participating individuals is unchanged, so the total size is conserved, and when no compatible subtree is found nothing changes. With different function sets this fails: the resulting tree can contain a function unknown to it, and a later random_subtree returns an incomplete fragment.",
     "all tuples of trees (arity >= 2), typed and untyped, all tapes",
     "Closure and conservation for all trees and draws.",
     [E+"genetic_operators/crossovers/subtree_crossover.py: attempt_operator, _pick_subtrees, _swap_subtrees"],
     theorems=["C23_crossover", "C23_acts", "C23_different_function_sets_refuted"],
     note="different function sets: refuted")
prop("C24", "Subtree mutation is closed",
     "SubtreeMutation applied to complete trees leaves complete trees, whatever the outcome; the removed part is one complete subtree, everything outside it is unchanged, the new subtree's depth is at most the mutation's maximal depth, and in typed trees its root has the type of the removed root. It raises only if a requested type has no supply.",
     "all trees, depth ranges, function/terminal sets, tapes",
     "All trees and draws.",
     [E+"genetic_operators/mutations/subtree_mutation.py: SubtreeMutation.attempt_operator"],
     theorems=["C24_mutation", "C24_succeeds", "C24_acts"])
prop("C25", "ERC mutation touches exactly one numeric constant per individual",
     "ERCMutation never raises; it either changes nothing or exactly one numeric constant in each given individual, adding the drawn noise to it, and keeps the trees' shape, functions, variables and node types; if one of the individuals has no numeric terminal, none is changed. An integer constant becomes a float although the node keeps the type int.",
     "all trees, tapes, arities",
     "In-place node update over all trees and draws.",
     [E+"genetic_operators/mutations/erc_mutation.py: ERCMutation.attempt_operator", E+"genetic_encodings/gp/tree/tree_individual.py: get_random_numeric_node"],
     theorems=["C25_erc_mutation", "C25_acts", "C25_shape", "C25_int_stays_int_refuted"])
prop("C26", "execute accepts exactly the terminal set as arguments",
     "Tree.execute succeeds in evaluating iff its keyword arguments (or the columns of the X argument) are exactly the terminal set's names; otherwise it raises ValueError. If the terminal set contains a numeric constant, as the documentation of the creators suggests, execute raises for every possible call.",
     "all terminal sets, argument dictionaries",
     "The failure is for all calls.",
     [E+"genetic_encodings/gp/tree/tree_individual.py: Tree.execute"],
     theorems=["C26_rejected", "C26_accepted", "C26_constant_terminal", "C26_array_rejected"])
prop("C27", "Typed creation is type-correct unless an ERC of another numeric type intrudes",
     "If there is no ERC, or the ERC type is the only numeric type requested, every tree created by Grow/Full for a typed function set is well-typed with the requested root type. Otherwise it can be ill-typed: a request for an int (or bool) terminal can be answered with a float constant.",
     "all typed function/terminal sets, tapes; existential witness",
     "All draws; the failing case needs a mixed-type function set.",
     [E+"genetic_encodings/gp/tree/tree_individual.py: Tree.random_terminal, random_function", E+"creators/gp_creators/tree_creator.py: _add_children"],
     theorems=["C27_well_typed", "C27_other_erc_refuted"])
prop("C28", "Tree nodes are never shared between individuals",
     "In any sequence of cloning, subtree crossover, subtree mutation and ERC mutation (with failed attempts, retries and exceptions) starting from trees without shared node objects, in which no operation is given the same individual twice, no node object ever occurs in two trees or twice in a tree; so an in-place ERC mutation of one individual is never visible in another, trees that are not given to an operator keep their node objects and contents, and all results and trees are the same as if trees were copied by value. Both provisos are necessary: a crossover of an individual with itself can make a node occur twice, and nodes shared at the start stay shared.",
     "all operation sequences, all tapes",
     "Aliasing invariant over unbounded histories.",
     [E+"genetic_operators/crossovers/subtree_crossover.py", E+"genetic_operators/mutations/erc_mutation.py", E+"individual.py: clone"],
     theorems=["C28_never_shared", "C28_like_values", "C28_others_untouched", "C28_twice_refuted", "C28_shared_start_refuted", "C28_clone"],
     note="Node objects are addresses in a store; deep copies use a memo. The value-level operators are those used in all other tree theorems.")

# ---------------------------------------------------------------- breeding / evolution
prop("C29", "A failing arity check stops breeding before anything changes",
     "If the population size is not a multiple of some operator's arity, SimpleBreeder raises ValueError for that subpopulation before any selection, cloning or operator application of it; an operator with arity 0 raises ZeroDivisionError.",
     "all populations and operator sequences",
     "State-unchanged-on-error over all configurations.",
     [E+"breeders/simple_breeder.py: SimpleBreeder.apply_breed"],
     theorems=["C29_bad_arity", "C29_zero_arity"])
prop("C30", "Breeding never modifies the individuals of the previous generation",
     "Through a whole breeding step (elitism, selection, operator sequence) every individual object that existed before is left unchanged in genome, fitness, id and lineage; only objects created in this step are modified.",
     "all populations, selection methods, operator sequences, tapes, also when an exception interrupts the step",
     "Frame property over all operators and draws.",
     [E+"breeders/simple_breeder.py", E+"genetic_operators/genetic_operator.py", E+"individual.py: clone"],
     theorems=["C30_old_individuals_untouched"])
prop("C31", "best_of_run_ is at least as good as everything ever evaluated",
     "After evolve with scalar non-NaN fitness, no individual evaluated in any generation is strictly better than best_of_run_, best_of_run_'s fitness equals the evaluator's value for its genome, and the fitness of best_of_run_ never gets worse from one generation to the next.",
     "all evaluators, configurations, tapes, numbers of generations",
     "An invariant over every generation of every run.",
     [E+"algorithms/simple_evolution.py: generation_iteration", E+"evaluators/simple_population_evaluator.py: SimplePopulationEvaluator.act", E+"algorithms/algorithm.py: evolve_main_loop"],
     theorems=["C31_best_of_run", "C31_never_worse", "C31_nan_refuted", "C31_missed_refuted"])
prop("C32", "best_of_run_ is never modified after it was recorded",
     "The object recorded as best_of_run_ at any published event keeps its genome, fitness, id and lineage until the end of the run, although operators modify individuals in place; only its gen attribute may change: the best individual found in generation g is relabelled g+1 when the next generation starts. In a multi-objective run (NSGA2Evolution) this is false: best_of_run_ is the object drawn at the initialisation, and its genome and objectives are overwritten by later generations.",
     "all configurations and tapes",
     "Aliasing over all later generations.",
     [E+"algorithms/simple_evolution.py: generation_iteration", E+"breeders/simple_breeder.py"],
     theorems=["C32_best_kept", "C32_generation_kept_refuted", "C32_multi_objective_refuted"])
prop("C33", "The main loop runs the right number of generations and stops exactly on the first satisfied check",
     "evolve performs at most max_generation generations, each seeding, breeding, evaluating, checking and publishing after_generation once and in this order; no individual is ever evaluated twice; it stops in the first generation where some termination checker returns True, final_generation_ is that generation and it is left at its initial value otherwise; after_generation is published with the consecutive generation numbers.",
     "all configurations, checkers (stateful), max_generation",
     "Trace property over all run lengths.",
     [E+"algorithms/algorithm.py: evolve, evolve_main_loop, should_terminate", E+"algorithms/simple_evolution.py"],
     theorems=["C33_run_structure", "C33_evaluated_once", "C33_multi_objective"])
prop("C34", "Generation seeds are consecutive and runs are determined by them",
     "Generation g is run after seeding the generators with (generation_seed + g) mod 2^32; neither the outcome of evolve nor the outcome of any later generation depends on the state of the random generators before it, so that a run is reproduced, or continued, from population, configuration and seed.",
     "all seeds (incl. wrap-around), configurations, prior generator states",
     "Independence from all earlier states is a two-run property.",
     [E+"algorithms/algorithm.py: set_random_seed, set_generation_seed, next_seed, evolve_main_loop", E+"random/rng.py: RNG.set_seed"],
     theorems=["C34_prior_state", "C34_prior_state_generation", "C34_seeds", "C33_run_structure"])
prop("C35", "Elites are not protected from variation",
     "Although elitism_rate is documented to copy the elite as-is, the operator sequence is applied to the elite clones too: there are configurations where no individual of the next generation has the best genome of the previous one, while without operators the elites are kept.",
     "existential witness; positive part for all populations when the operators are the identity",
     "Depends on operator draws; tests never compare elites across generations.",
     [E+"breeders/simple_breeder.py: SimpleBreeder.apply_breed, _apply_operators", E+"subpopulation.py: elitism_rate"],
     theorems=["C35_kept_without_variation", "C35_elites_protected_refuted"])
prop("C36", "before/after events bracket every operator action exactly once",
     "Operator.act rejects a payload of the wrong arity with ValueError before anything is called; otherwise the current before_operator subscribers are called in registration order, then the action runs once, then the after_operator subscribers, and the action's result is returned; an exception of a callback or of the action stops the sequence there and propagates, so after_operator is not published if the action raises.",
     "all subscriber sets, actions",
     "Ordering over all subscriber configurations.",
     [E+"before_after_publisher.py: act_and_publish_before_after", E+"event_based_operator.py: Operator.act"],
     theorems=["C36_brackets"],
     note="The action is an arbitrary result; callbacks are arbitrary but do not (un)register.")
prop("C37", "Publishing reaches exactly the current subscribers in registration order",
     "After any sequence of register / unregister calls, publish calls exactly the callbacks registered and not unregistered for that event, in registration order, each with the event's data; ids returned by register are pairwise different; unknown events and double unregistering raise KeyError; a callback registered by default cannot be published (TypeError).",
     "all sequences of calls",
     "All histories.",
     [E+"before_after_publisher.py: BeforeAfterPublisher.register, unregister, publish"],
     theorems=["C37_subscribers", "C37_publish", "C37_register_number", "C37_register_unknown", "C37_publish_unknown", "C37_unregister", "C37_existing_events_refuted"],
     note="Over all histories of calls. Refuted for a publisher made from an existing events dictionary: ids restart at 0 and replace subscribers. The data passed to callbacks is the subject of C82.")
prop("C38", "Stagnation checker fires exactly after the given number of unchanged generations",
     "The best-fitness stagnation checker returns True at a call iff the best fitness of at least limit consecutive preceding calls stayed (close to) the value at which the streak started, and a change resets the count.",
     "all sequences of best fitness values, all limits",
     "Stateful behaviour over all sequences.",
     [E+"termination_checkers/best_fitness_stagnation_termination_checker.py"],
     theorems=["C38_stagnation"])
prop("C39", "Threshold termination is exact",
     "The threshold checker returns True iff the pure best fitness is within threshold of the optimal fitness, independent of bloat (so a fitness beyond the optimum by more than the threshold does not stop the run); a list of checkers terminates iff one of them does; with no checker evolution runs to max_generation. A run with a threshold checker leaves final_generation_ set iff the best individual it ends with is within the threshold of the optimum.",
     "all fitness values, thresholds, lists of checkers",
     "All values.",
     [E+"termination_checkers/threshold_from_target_termination_checker.py", E+"algorithms/algorithm.py: should_terminate"],
     theorems=["C39_threshold", "C39_any_checker", "C39_no_checker", "C39_target"])
prop("C40", "Evaluation results do not depend on the executor schedule",
     "With the map executor method and a pure fitness function every individual gets its own fitness value whatever the number of workers and order in which the tasks finish; the returned best is the first strictly best; if tasks raise, the exception of the first raising individual surfaces. With executor_method='submit' evaluation can only succeed for a single individual, and then the stored fitness is the individual itself, not the evaluator's value. A failing evaluation surfaces there too. A run whose population has not exactly one subpopulation fails (with ValueError, if individuals were given) before anything is evaluated.",
     "all populations, pure evaluators, completion orders",
     "All interleavings.",
     [E+"evaluators/simple_population_evaluator.py: SimplePopulationEvaluator.act"],
     theorems=["C40_own_values", "C40_first_exception", "C40_any_schedule", "C40_submit_stores_objects", "C40_submit_checks", "C40_one_subpopulation"])
prop("C41", "Pickling or copying an algorithm loses only the documented parts, and works only before it was initialized",
     "pickle.loads(pickle.dumps(o)) and copy.deepcopy(o) succeed exactly if no executor (nor, for pickling, a lambda) is reached through the fields taken over. The result then equals the original field by field, except that an algorithm has a new executor of the same kind and number of workers, and a fitness without caching is unevaluated with value None, so that comparing it raises ValueError until it is evaluated again. Once initialize was called, the population evaluator refers to the executor, so the algorithm can no longer be pickled or copied; with vector mutations, whose value getters are lambdas, it can never be pickled. The id counter is not saved: after reading a population back in a new process, ids are given out again.",
     "all object trees, all fitness states, all populations",
     "All object states.",
     [E+"algorithms/algorithm.py: __getstate__, __setstate__, initialize", E+"evaluators/population_evaluator.py: set_executor", E+"fitness/simple_fitness.py: __getstate__", E+"genetic_operators/mutations/vector_random_mutation.py", E+"individual.py: update_id"],
     theorems=["C41_copied_iff", "C41_restored", "C41_fitness", "C41_comparison_raises", "C41_initialized", "C41_population", "C41_checkpoint_refuted", "C41_vector_mutation_refuted", "C41_ids_refuted"],
     note="Objects are trees: shared references are copied separately in the model.")
prop("C42", "An algorithm instance can be evolved only once",
     "After a successful evolve the executor is shut down, so that a second evolve of the same SimpleEvolution instance raises RuntimeError on its first evaluation, leaving individuals and best_of_run_ as they are.",
     "all configurations",
     "Tests build a new instance for each run.",
     [E+"algorithms/algorithm.py: finish, set_executor, initialize", E+"sklearn_compatible/sk_classifier.py"],
     theorems=["C42_only_once"])

# ---------------------------------------------------------------- failable operators
prop("C43", "Failable operators stop at the first success and fail only after all attempts",
     "FailableOperator.apply calls attempt_operator with attempt numbers 0,1,... until the first success and returns its result; only if all `attempts` calls fail, on_fail is called once and its result returned; fewer than one attempt is rejected at construction.",
     "all attempt behaviours, attempts",
     "All outcome sequences.",
     [E+"genetic_operators/failable_operator.py: FailableOperator.apply"],
     theorems=["C43_first_success", "C43_attempts"])
prop("C44", "Applying a genetic operator with probability 1 always happens, with probability 0 almost never",
     "GeneticOperator.apply_operator applies the operator iff the drawn number is at most the probability: always for probability 1, never for negative probability, and for probability 0 exactly when the draw is 0.0; when skipped, the individuals and their fitness are untouched, when applied all inputs' fitness is reset first and the operator name and the input ids are recorded.",
     "all probabilities, draws, individuals",
     "The probability-0 case happens with probability 2^-53.",
     [E+"genetic_operators/genetic_operator.py: GeneticOperator.apply_operator"],
     theorems=["C44_chance", "C44_skipped", "C44_applied", "C44_probability_one", "C44_probability_negative", "C44_probability_zero"],
     note="For the built-in operators; a Gauss mutation that falls back also records the uniform mutation and the ids twice.")

# ---------------------------------------------------------------- subpopulation
prop("C45", "Subpopulation construction: elite count and creator probabilities",
     "Subpopulation stores n_elite between 0 and population_size, an integer nearest to elitism_rate*population_size up to the rounding of the double product, monotone in the rate, and all individuals at rate 1; the constructor accepts exactly non-empty creator lists with as many probabilities, summing to one in double arithmetic, and operators; with the default equal probabilities 1, 2, 4, 8, ... creators are always accepted, but six creators are rejected when floats are summed naively, as Python before 3.12 does, and 49 when summed with compensation, as later versions do.",
     "all rates in [0,1], sizes up to 2^53, creator lists, probabilities, operators; exact model of IEEE double rounding",
     "Depends on floating-point rounding for specific counts.",
     [E+"subpopulation.py: Subpopulation.__init__"],
     theorems=["C45_elites_in_range", "C45_elites_nearest", "C45_elites_monotone", "C45_all_elites", "C45_accepted", "C45_powers_of_two", "C45_six_creators", "C45_49_creators"])
prop("C46", "get_best/get_worst/average of a subpopulation",
     "get_best_individual returns the first individual that no other is strictly better than, get_worst_individual the first one that no other is strictly worse than, and get_average_fitness is the exact mean of the pure fitness values and lies between any bounds of them; with infinite values of one sign it is infinite, with NaN or both infinities NaN. With a bloat weight the average need not lie between the fitness values that are compared.",
     "all evaluated non-empty subpopulations",
     "All populations.",
     [E+"subpopulation.py: get_best_individual, get_worst_individual, get_average_fitness"],
     theorems=["C46_best", "C46_worst", "C46_average", "C46_average_between_refuted", "C46_average_infinite"])

# ---------------------------------------------------------------- NSGA-II
prop("C47", "Pareto dominance is a strict partial order",
     "For evaluated non-NaN objective lists of one length and direction list, with any mix of maximised and minimised objectives, NSGA2Fitness.dominate returns True exactly if the own list is nowhere worse and somewhere better than the other's; the relation is irreflexive, asymmetric and transitive. A scalar fitness as the other one raises TypeError; unevaluated fitness and different numbers of objectives raise ValueError.",
     "all objective vectors and direction lists",
     "All triples.",
     [E+"multi_objective_evolution/nsga2_fitness.py: dominate"],
     theorems=["C47_meaning", "C47_irreflexive", "C47_asymmetric", "C47_transitive", "C47_errors"])
prop("C48", "Front ranks are the Pareto peeling levels",
     "Whatever the iteration order of the set used to remove fronts, NSGA-II sorting gives rank k to the individuals of the k-th Pareto front (those not dominated when the first k-1 fronts are taken away), for all fronts up to the one where the requested number is reached; the other individuals and all other attributes are unchanged. Every individual is in exactly one front.",
     "all populations, all set orders",
     "All populations and hash orders.",
     [E+"multi_objective_evolution/nsga2_front_sorting.py: NSGA2FrontSorting._select, _pareto_front_finding, _remove_pareto_front, _init_domination_dict"],
     theorems=["C48_partition", "C48_ranks"])
prop("C49", "Survivor selection keeps the right number and never drops a dominating individual",
     "NSGA-II survivor selection returns exactly the requested number (half the population if 0) of distinct individuals of the population when there are that many, and raises IndexError otherwise; no dropped individual dominates a survivor or is in an earlier front, and within the cut front survivors have crowding distance at least that of the dropped ones.",
     "all populations, sizes, set orders",
     "All populations.",
     [E+"multi_objective_evolution/nsga2_front_sorting.py: _select"],
     theorems=["C49_survivors", "C49_too_many"])
prop("C50", "Crowding distances are well-formed",
     "After sorting, for each front with survivors the crowding distances are the sums of the relative gaps to the two neighbours in some ascending order of the front per objective, infinite at the ends; a minimal and a maximal individual in each objective have infinite distance, all finite ones are between 0 and the number of objectives.",
     "all fronts",
     "All fronts.",
     [E+"multi_objective_evolution/nsga2_front_sorting.py: _calc_fronts_crowding"],
     theorems=["C50_crowding", "C50_infinite_refuted"])
prop("C51", "NSGA2 better_than prefers the worse front",
     "Contrary to its documentation NSGA2Fitness.better_than prefers the worse front: of two survivors of a sorting step where one dominates the other, the dominated one is better_than the other. In general the higher front_rank wins, ties are broken by the larger crowding distance, and an individual without rank wins with a coin flip; with a rank, a scalar fitness as the other one raises TypeError, and unevaluated fitness and different numbers of objectives raise ValueError. equal_to holds exactly if neither is better, for ranked fitness; new fitness objects are equal to each other whatever their objectives, evaluated or not.",
     "all ranked pairs",
     "All pairs.",
     [E+"multi_objective_evolution/nsga2_fitness.py: better_than"],
     theorems=["C51_inverted", "C51_ranked", "C51_unranked", "C51_errors", "C51_equal", "C51_equal_unranked"])
prop("C52", "NSGA2 breeding doubles the population and discards elites",
     "NSGA2Breeder with tournament selection turns a subpopulation of N individuals into 2N: new clones of the old ones (with the genomes before the operators) followed by the modified old objects, all unevaluated; it fails for fitness-proportionate selection, and for a positive elite count when higher_is_better is a list. A generation of NSGA2Evolution keeps the sizes of the subpopulations with NSGA2Breeder and halves them with the default SimpleBreeder. A whole run with SimpleBreeder that ends well has evaluated populations of N, N, N/2, N/4, ... individuals, none empty; hence without a termination checker it always fails, if N is below 2^(max_generation-1).",
     "all populations, operators, tapes",
     "All runs.",
     [E+"multi_objective_evolution/nsga2_breeder.py", E+"multi_objective_evolution/nsga2_evolution.py"],
     theorems=["C52_doubling", "C52_proportionate_fails", "C52_elitism_fails", "C52_sizes", "C52_default_run", "C52_default_fails"])
prop("C53", "The multi-objective statistics work for two objectives only",
     "For two objectives MOEBestWorstStatistics succeeds on the survivors of every sorting step and reports extreme individuals of the first and of the last front and the size of the first front. A configured two-objective run with crowding checkers therefore ends normally with these statistics subscribed: exactly one block is written per generation, its corners are the objectives of genomes of the run's class, and the run itself is the one without statistics. A call that succeeds changes no individual and writes one block per subpopulation, numbered from 0, with the corners of its first and last front. With scalar fitness it fails with an AttributeError after its first line. With three objectives the assertion of at most two corners can fail; without ranks (a run stopping at its first check) it always fails.",
     "all fronts; witness for three objectives",
     "All fronts.",
     [E+"multi_objective_evolution/moe_best_worst_statistics.py: write_statistics, get_corners"],
     theorems=["C53_two_objectives", "C53_three_objectives_refuted", "C53_unranked", "C53_run", "C53_numbered", "C53_scalar"])

# ---------------------------------------------------------------- sklearn / base functions
prop("C54", "Classifier output is always a valid class index, monotone in the score",
     "With the sigmoid method and n >= 1 classes, every score (finite, infinite or NaN) is mapped to a class index in {0,...,n-1}; class k is chosen exactly for sigmoid values in [k/n,(k+1)/n), the last class including 1; the index is monotone in the score; NaN gives the last class. SKClassifier.predict on a float array returns one class per row, the class of the best tree's value on that row; predictions do not influence later predictions, but leave the first evaluator with the new samples and y = None; predicting before fit raises NotFittedError. The methods argmax and softmax return the tree's value unchecked, provided the root function's name contains the method name, so the result need not be below n_classes. Other method names are rejected with ValueError.",
     "all scores, class counts, trees, arrays, all monotone sigmoids with values in [0,1]",
     "All scores.",
     [E+"sklearn_compatible/classification_evaluator.py: classify_individual, _clf_sigmoid, _clf_root_func", E+"sklearn_compatible/sk_classifier.py: predict"],
     theorems=["C54_range", "C54_quantiles", "C54_monotone", "C54_nan", "C54_predict", "C54_predict_again", "C54_predict_forgets", "C54_root_method", "C54_unfitted", "C54_no_class_refuted", "C54_argmax_range_refuted", "C54_methods"],
     note="Thresholds i/n are exact; the rounding of np.linspace is not modelled.")
prop("C55", "Protected arithmetic functions are total",
     "On finite arguments the protected division and inverse return the quotient if the denominator exceeds 0.001 in absolute value and 0 otherwise, so that the result is at most about 1000 times the numerator; the root is only taken of non-negative numbers and the logarithm only counts above 0.001, with default 0; every tree built from the numeric base functions, executed on finite numbers, evaluates to a finite number without exception. NaN is not always passed on: as a denominator or argument of the logarithm it gives 0.",
     "all finite arguments; all trees over the 43 numeric base functions of both modules; all library functions that are finite on their domain",
     "All arguments.",
     [E+"base/untyped_functions.py", E+"base/typed_functions.py"],
     theorems=["C55_division", "C55_inverse", "C55_root_domain", "C55_log_domain", "C55_log_default", "C55_log_value", "C55_finite_trees", "C55_nan_passed_on_refuted"],
     note="Exact arithmetic: overflow to infinity is not modelled.")
prop("C56", "Logical base functions obey Boolean laws on {0,1} and not beyond",
     "On 0/1 inputs the untyped f_and, f_or, f_not are the Boolean functions and if-then-else selects its branch; for other integers de Morgan's law fails because and/or are bitwise while not is logical, and on floats f_and/f_or raise TypeError. The typed logical functions obey de Morgan's law, but return booleans where floats or integers are annotated, so that a well-typed tree such as neg_float(and2floats(x, x)) raises TypeError on every input. f_iflte/f_ifgt and f_iflte0/f_ifgt0 are complementary exactly for non-NaN arguments.",
     "all elements (integers, floats with infinities and NaN, booleans); witnesses for the failures",
     "All inputs and NaN.",
     [E+"base/untyped_functions.py: f_and, f_or, f_not, f_if_then_else, f_iflte, f_ifgt", E+"base/typed_functions.py: and2floats, or2floats, not2floats, neg_float"],
     theorems=["C56_truth_tables", "C56_if_then_else", "C56_de_morgan_refuted", "C56_floats_rejected", "C56_typed_de_morgan", "C56_typed_trees_run_refuted", "C56_lte_gt", "C56_lte0_gt0", "C56_nan_complementary_refuted"])
prop("C57", "add_tree accepts exactly the prefixes of trees, but its type check is wrong",
     "Without types, Tree.add_tree appends the node exactly when the current list is a proper prefix of a complete tree (or empty) and raises ValueError otherwise. In typed trees the check is broken in both directions: a root of any type is accepted, a child of the wrong type can be accepted, and a child of the right type can be rejected.",
     "all untyped trees and nodes; existential witnesses for the typed failures",
     "The set of unfinished prefixes is infinite; tests only build a few trees by hand.",
     [E+"genetic_encodings/gp/tree/tree_individual.py: Tree.add_tree, _should_add"],
     theorems=["C57_add_tree", "C57_typed_refuted"])
prop("C58", "execute on an array is row-wise evaluation, except for integer arrays",
     "For a two-dimensional float array and elementwise functions, Tree.execute(X) is a vector with one entry per row, which is the value of the program on that row. For an integer array this fails: a constant program's value is truncated to an integer.",
     "all complete trees, arrays with any number of rows and columns, and elementwise function semantics",
     "Broadcasting is uniform in the shape of the program and the number of rows; tests check a few.",
     [E+"genetic_encodings/gp/tree/tree_individual.py: Tree.execute"],
     theorems=["C58_rows", "C58_integer_array_refuted"])
prop("C59", "Creation makes exactly population_size new individuals",
     "Creating a subpopulation keeps given individuals untouched; otherwise exactly population_size pairwise distinct, new individuals are created by one of the creators, also by ramped half-and-half, where the groups do not divide the size.",
     "all creators, sizes, random draws",
     "All sizes and depth ranges.",
     [E+"subpopulation.py: create_subpopulation", E+"creators/gp_creators/half.py: HalfCreator.create_individuals"],
     theorems=["C59_created_population"])
prop("C60", "The default termination checker of NSGA2Evolution raises TypeError",
     "With a ThresholdFromTargetTerminationChecker (the default of NSGA2Evolution) as first checker, should_terminate raises TypeError whenever best_of_run_ has an evaluated list of objectives, whatever the threshold and the target.",
     "all thresholds, targets, objective lists",
     "A universal failure; the shipped tests always pass another checker.",
     [E+"multi_objective_evolution/nsga2_evolution.py: NSGA2Evolution.__init__", E+"termination_checkers/threshold_from_target_termination_checker.py: should_terminate"],
     theorems=["C60_default_checker", "C60_default_run"])
prop("C61", "The crowding termination checker stops on small positive crowding",
     "CrowdingTerminationChecker.should_terminate returns True exactly if each subpopulation has an individual of finite crowding distance, every finite distance is below the threshold, and at least one is not zero.",
     "all populations of crowding distances and thresholds",
     "Quantifies over all distances, including infinite ones.",
     [E+"multi_objective_evolution/crowding_termination_checker.py: should_terminate"],
     theorems=["C61_crowding_checker", "C61_stops"])

# ---------------------------------------------------------------- sklearn wrapper
prop("C62", "Parameters, cloning and saving of the sklearn wrapper",
     "SklearnWrapper.get_params returns the attributes without is_fitted_. set_params(**p) sets each given name as an attribute of the wrapped algorithm, gives it a new executor and changes nothing else, so that set_params(algorithm=a) does not replace the algorithm. sklearn's clone of a wrapper whose algorithm was not initialized gives an unfitted wrapper around a faithful copy; after fit, cloning and pickling raise TypeError. A wrapper read back from a pickle is never fitted and refuses to predict.",
     "all wrappers, parameters, algorithms",
     "Laws over all parameter sets and object states; tests set single parameters on fresh wrappers.",
     [E+"sklearn_compatible/sklearn_wrapper.py: get_params, set_params, __getstate__, fit", E+"algorithms/algorithm.py: __setstate__"],
     theorems=["C62_get_params", "C62_set_params", "C62_params_law_refuted", "C62_clone", "C62_clone_fails", "C62_clone_fitted_refuted", "C62_saved_unfitted", "C62_fitted", "C62_fit", "C62_fit_raises"])

# ---------------------------------------------------------------- Whole runs
prop("C63", "A validly configured run completes",
     "For an algorithm with one subpopulation, a numeric fitness, a tournament as first selection method, operator and selection arities that divide the population size, checkers that do not raise, and creators and operators that stay within a class of genomes on which the fitness function is defined and which have a textual form, evolve ends without an exception, whatever is drawn and in whatever order the evaluation tasks complete, and every evaluated generation is a full population of that class. Two instances: vectors of one kind, length and bounds with k-point crossover and the vector mutations; trees over one set of primitives (typed or not) with Grow, Full or ramped half-and-half creation, subtree crossover, subtree mutation and ERC mutation, with a fitness function that covers all trees whose nodes are functions, variables and numbers of the given kinds, where the trees stay well-typed with the requested root type throughout the run. Finding: if an untyped terminal set contains a number, as in the documented terminal_set=['x', 'y', 1, -1], every such run does all its generations and then evolve raises TypeError.",
     "all configurations meeting the static conditions, all numbers of generations, all random tapes, all completion orders",
     "That no draw in any generation can lead to an exception, an incomplete population or an ill-typed tree is a claim about all runs.",
     [E+"algorithms/algorithm.py: evolve, evolve_main_loop, initialize", E+"algorithms/simple_evolution.py: generation_iteration, finish", E+"breeders/simple_breeder.py: apply_breed", E+"subpopulation.py: create_subpopulation_individuals", E+"evaluators/simple_population_evaluator.py: _evaluate", E+"genetic_encodings/gp/tree/tree_individual.py: show, __str__"],
     theorems=["C63_run_completes", "C63_vectors", "C63_trees", "C63_number_terminals_raise", "C63_documented_terminals_refuted", "C63_numbers_where_needed"],
     note="The condition on the textual form is needed because finish() shows the best individual; C63_documented_terminals_refuted is the version without it, refuted.")

# ---------------------------------------------------------------- What a run depends on
prop("C64", "A run is determined by its configuration, seed and fitness function",
     "Two evolve() calls on equally configured algorithms (execution method 'map'), with fitness functions that give the same results on all genomes, end with the same outcome, the same individuals (genomes, ids, parents, fitness), the same best and worst individuals and the same sequence of events, whatever the order in which the worker threads or processes finish, and whatever state the random generators were left in by earlier code. The same holds for NSGA-II.",
     "For all configurations, fitness functions (raising or not), completion orders, numbers of workers and generator states before the call.",
     "A test can repeat a run a few times on one machine; it cannot enumerate completion orders, and a dependence on leftover generator state shows only for particular interleavings.",
     [E+"algorithms/algorithm.py: evolve, initialize, set_random_seed, set_generation_seed, next_seed", E+"evaluators/simple_population_evaluator.py: _evaluate"],
     theorems=["C64_determined", "C64_nsga2"])
prop("C65", "Only the order of fitness values matters",
     "With tournament selection, elitism and a fitness without size penalty, replacing the fitness function by one that orders genomes in the same way (for instance 2f+3 for f), or by one that orders them in the opposite way while flipping higher_is_better (maximise f, minimise -f), changes nothing in a run but the fitness values: outcome, genomes, ids, parents, applied operators, random draws, elites, best and worst individuals and events are the same.",
     "For all configurations of vector or tree creators, operators and user-defined termination checkers that do not look at fitness values, all fitness functions with numeric results other than NaN (raising or not), all random draws and generations.",
     "A relation between two whole runs for all pairs of equally ordered fitness functions; a comparison with a wrong direction in elitism, in the tournament, in the best-of-generation scan or in the search for the worst individual shows only in some populations.",
     [E+"fitness/simple_fitness.py: better_than", E+"genetic_operators/selections/tournament_selection.py: _pick_tournament_winner", E+"genetic_operators/selections/elitism_selection.py: select", E+"subpopulation.py: get_best_individual, get_worst_individual", E+"evaluators/simple_population_evaluator.py: _evaluate", E+"algorithms/simple_evolution.py: generation_iteration"],
     theorems=["C65_order_only", "C65_negated"],
     note="Conditions on the configuration: by_comparison in Spec/OrderSpec.v. Fitness-proportionate selection, the stagnation and threshold checkers and bloat weights other than zero use the values themselves and are excluded.")

# ---------------------------------------------------------------- Textual form
prop("C66", "The textual form of a program tree can be read back",
     "str(tree) consists of a heading with the terminals as parameters (with type hints if all terminals are typed) and, up to blanks and line breaks, the program in the usual notation f(x1,...,xn). If function names, variable names and numbers have texts without blanks, commas and parentheses, and different ones have different texts, two trees with the same text after the first line consist of the same functions, variables and numbers and compute the same value for all inputs. A text exists exactly if either some terminal is untyped and all terminals are names, or no terminal is untyped and the root has a type; a number in an untyped terminal set gives TypeError.",
     "all complete trees, all function names, all texts of numbers and types",
     "That no two different programs print alike is a claim about all pairs of trees; tests compare a few texts.",
     [E+"genetic_encodings/gp/tree/tree_individual.py: __str__, _str_rec, show", E+"genetic_encodings/gp/tree/tree_node.py: __str__"],
     theorems=["C66_text", "C66_printable", "C66_numbers", "C66_unambiguous", "C66_determines_value"])

# ---------------------------------------------------------------- Regression
prop("C67", "A fitted regressor predicts by the best evaluated program",
     "fit() of the scikit-learn regressor on valid data runs the evolution with the given metric; afterwards predict(X) is, for every table X, the output of one program tree that was evaluated during the run, and no evaluated tree has a better value of the metric on the training data (for any metric and direction, without size penalty). With numeric base functions, one variable per column, finite constants, finite float data and a consistent configuration, fit() cannot raise, and every prediction is, row by row, the finite number that the program computes from that row. The default metric is the mean of the absolute differences, zero exactly for exact predictions. predict before fit, and fit on empty, non-finite or mismatched data, raise ValueError (the latter changing nothing); a fit that fails leaves an unfitted regressor unfitted; a second fit raises RuntimeError and leaves the predictions unchanged. Finding: a program that degenerates to a constant predicts different values for the same numbers given as an integer table, because its value is cut off to the table's element type.",
     "all data tables and targets, metrics, configurations, numbers of generations, random tapes and completion orders; all later tables",
     "That no evaluated program beats the fitted one, and that no draw leads to an exception or a non-finite prediction, are claims about all runs and all data; tests fit a few data sets with fixed seeds.",
     [E+"sklearn_compatible/sklearn_wrapper.py: fit, predict", E+"sklearn_compatible/regression_evaluator.py: evaluate_individual, set_context", E+"genetic_encodings/gp/tree/tree_individual.py: execute", E+"base/untyped_functions.py: all functions"],
     theorems=["C67_error", "C67_error_rejects", "C67_fit_best", "C67_fit_completes", "C67_unfitted", "C67_bad_data", "C67_fit_again", "C67_integer_table_refuted", "C67_failed_fit"],
     note="C67_integer_table_refuted: predictions do not depend on the numbers of the table alone. C67_fit_best assumes a fitness without bloat weight; with one, the winner is the best by penalised value (C31).")
prop("C68", "A multi-objective run never loses the best value reached in an objective",
     "With NSGA2Breeder and a subpopulation of at least two individuals per objective, each objective's best value never gets worse: for every individual of the population before a generation and every objective, the population after it has an individual at least as good in that objective; so the final population of a run is in each objective at least as good as the initial one. Survivor selection alone keeps, for every objective, an individual as good as the best of the whole pool (parents and offspring). With fewer individuals than two per objective this fails: with two objectives and two individuals, duplicates push the only best individual out.",
     "all fitness functions giving m finite numbers, all directions (a flag, or one per objective), operators, schedules of the executor, set iteration orders, seeds, numbers of generations and checkers, given individuals or vector creators; runs that end without an exception",
     "elitism of the crowded selection is a statement about all pools, including ties and duplicates, and about every sequence of generations; tests see single small fronts",
     [E+"multi_objective_evolution/nsga2_front_sorting.py: select_for_population, _select, _calc_fronts_crowding", E+"multi_objective_evolution/nsga2_breeder.py: NSGA2Breeder.apply_breed, _create_next_gen", E+"multi_objective_evolution/nsga2_evolution.py: NSGA2Evolution.generation_iteration"],
     theorems=["C68_selection", "C68_generation", "C68_run", "C68_small_population_refuted"],
     note="The bound of two individuals per objective is needed: C68_small_population_refuted is a finding (population 2, two objectives).")
prop("C69", "The Pareto front reported after a generation is the set of undominated individuals",
     "With the NSGA2Breeder and one subpopulation, the Pareto front that NSGA2Evolution stores after a generation (best_of_gen) is exactly the set of those individuals of the new population whose objectives, as the fitness function gives them for their genomes, are dominated by no individual of the population. It is not empty, and none of its members is dominated by an individual of the previous population. For survivor selection alone, the rank-1 survivors are those that nobody in the pool dominates. Refuted for more than one generation, even with two places per objective: a member of the final front can be dominated by an individual of the initial population.",
     "all fitness functions giving finite objectives or raising, all directions, genomes, operators, random draws, set orders and fair schedules",
     "Tests look at a few fronts; they cannot show that stale ranks or individuals dropped by crowding never enter the reported front, and the loss over two generations depends on rare draws.",
     [E+"multi_objective_evolution/nsga2_evolution.py: generation_iteration, _get_pareto_fronts", E+"multi_objective_evolution/nsga2_front_sorting.py: select_for_population", E+"multi_objective_evolution/nsga2_breeder.py: breed"],
     theorems=["C69_selection", "C69_generation", "C69_two_generations_refuted"],
     note="Holds per generation; over several generations the front can lose ground (refuted with a witness run of two generations, four individuals and two objectives).")
prop("C70", "Program trees compute the expressions they spell",
     "On finite numbers each offered arithmetic, comparison, selection and negation function (untyped and typed) computes the operation it is named after: sum, difference, product, protected quotient and inverse, absolute value, negation, maximum, minimum, the four conditional comparisons, logical not, if-then-else, and argmax (0 for equal arguments). So executing any tree of these functions with finite constants and finite arguments gives the rational value of the expression the tree spells. Integers stay integers under the untyped arithmetic. Infinities follow the floating-point standard (a quotient by an infinity is 0, an infinity divided by a divisor within the protected range is 0), and NaN is passed on by sum, difference, product, maximum and minimum. For argmax NaN counts as the largest value, the first one if there are two. On Booleans the functions are the connectives (sum and maximum: or; product and minimum: and), while negation and difference raise TypeError; beside a number, and for functions with a numeric result always, a Boolean counts as 0 or 1. A wrong number of arguments raises TypeError for every function.",
     "all trees, constants, argument values, integers and floats mixed",
     "The docstrings promise the operations; tests evaluate a few trees at a few points, which cannot exclude a wrong branch, argument order or tie rule in a function or in how trees pass arguments.",
     [E+"base/untyped_functions.py: f_add, f_sub, f_mul, f_div, f_abs, f_neg, f_inv, f_max, f_min, f_iflte0, f_ifgt0, f_iflte, f_ifgt, f_not, f_if_then_else", E+"base/typed_functions.py: the functions of the same meaning, argmax2floats", E+"genetic_encodings/gp/tree/tree_individual.py: execute, _execute"],
     theorems=["C70_functions", "C70_trees", "C70_integers", "C70_argmax_nan", "C70_booleans", "C70_booleans_mixed", "C70_booleans_count", "C70_arguments", "C70_infinite", "C70_nan"],
     note="Exact arithmetic: rounding and integer overflow are not modelled. Square root, logarithm and trigonometric functions are covered by C55 only.")
prop("C71", "A validly configured multi-objective run completes, once",
     "For NSGA2Evolution with the NSGA2Breeder, one subpopulation without elites, multi-objective fitness, a tournament as first selection method, operator arities that divide the population size, checkers that do not raise, and creators and operators that stay within a class of genomes on which the fitness function is defined and which have a textual form, evolve ends without an exception whatever is drawn. At its end the population has its original size, no individual occurs twice, each carries the objectives of its genome, and the class of genomes is kept; the first evaluation is of one population and every later one of two (parents and offspring). Instance: vectors of one kind, length and bounds with k-point crossover and the vector mutations. A second evolve of the same algorithm object always raises AttributeError and changes no individual.",
     "all configurations meeting the static conditions, all numbers of generations, all random tapes, all completion orders and all iteration orders of Python sets",
     "That no draw in any generation can lead to an exception, a wrong population size or a stale fitness is a claim about all runs; the front arithmetic that must add up to exactly the population size depends on the draws.",
     [E+"multi_objective_evolution/nsga2_evolution.py: generation_iteration, initialize, finish", E+"multi_objective_evolution/nsga2_breeder.py: breed", E+"multi_objective_evolution/nsga2_front_sorting.py: select_for_population", E+"multi_objective_evolution/nsga2_fitness.py: set_fitness", E+"algorithms/algorithm.py: evolve"],
     theorems=["C71_run_completes", "C71_vectors", "C71_only_once", "C71_crowding_checker"],
     note="Evaluation by map (the executor's), exact arithmetic. Custom termination checkers only, because the default one raises on list fitness (5.2 in DESIGN.md).")

# ---------------------------------------------------------------- Subscribers and statistics
prop("C72", "Subscribers that only read do not influence a run, and statistics report each generation once",
     "If the callbacks registered for a run's events only read the algorithm, a single- or multi-objective run with them and with any statistics objects ends with the same result and in the same state as without, unless a subscriber raises: then that exception ends the run at once, the events and evaluations so far are a prefix of those of the undisturbed run, and the executor has not been shut down. In a configured single-objective run whose subscribers do nothing, the statistics write exactly one report per object for each of the generations 1, 2, ... in order, about the individuals evaluated in that generation: fitness of the first best and first worst by augmented fitness, mean of the fitness values, and mean size where asked for; the initial population is reported (with the algorithm's starting generation number) exactly if the run stops at it.",
     "Single- and multi-objective runs, all evaluators, schedules, draws, all lists of statistics objects, all read-only callbacks for all events; for the reports: all configurations as in C63.",
     "Which callbacks are registered, when they raise, and the random course of the run are unbounded; a test compares one run with and without one callback.",
     [E+"statistics/best_average_worst_statistics.py: write_statistics", E+"statistics/best_avg_worst_size_tree_statistics.py: write_statistics", E+"statistics/minimal_print_statistics.py: write_statistics", E+"algorithms/algorithm.py: evolve, evolve_main_loop, initialize", E+"algorithms/simple_evolution.py: initialize", E+"before_after_publisher.py: register, publish"],
     theorems=["C72_observers", "C72_observers_moo", "C72_reports"],
     note="Finding: a run over max_generation=0 or any run that continues never reports its initial population. Callbacks are registered before the run, may write lines and are given the data of the event (C85); a report is the list of values put into the format string.")

# ---------------------------------------------------------------- When a run stops
prop("C73", "Limits only decide when a run stops",
     "max_generation and the termination checkers have no influence on a run but where it ends. Of two completed runs that differ only in these, the one that does not do more is the beginning of the other: same seeds, same evaluated individuals and breedings in the same order, then possibly more; if it is not more, both end with the same individuals, population, best and worst individuals, generation number and seed. Once a run got to breeding, its after_generation subscribers are given what the longer run's are given first. For single-objective runs with numeric fitness, the longer run still has every individual of the shorter one unchanged (but for its gen attribute), and its best_of_run_ is not worse. So a run can be repeated with a higher limit, and nothing of it is lost.",
     "all single- and multi-objective configurations, fitness functions, schedules, draws, all pairs of limits and lists of checkers",
     "A relation between two whole runs for all configurations; a limit or checker that leaked into the course of a run (through the generators, the seeds or the population) would show only for particular draws.",
     [E+"algorithms/algorithm.py: evolve, evolve_main_loop, should_terminate, set_generation_seed, next_seed", E+"algorithms/simple_evolution.py: generation_iteration", E+"multi_objective_evolution/nsga2_evolution.py: generation_iteration", E+"termination_checkers/threshold_from_target_termination_checker.py: should_terminate", E+"termination_checkers/best_fitness_stagnation_termination_checker.py: should_terminate"],
     theorems=["C73_limits", "C73_limits_moo", "C73_longer"],
     note="Both runs are assumed to end without an exception. User-defined checkers may look at the population, its individuals, the best individual, the generation number and what they have stored; they do not modify individuals or draw random numbers. The after_generation event of a run that stops at its initial population has no counterpart in a longer run.")

# ---------------------------------------------------------------- using the result
prop("C74", "algorithm.execute computes the best evaluated individual's result",
     "After evolve(), algorithm.execute(**kwargs) gives, for all arguments, the result of one evaluated individual: for vectors the vector itself (in bounds, of the given kind and length), for trees the value of the program for the given values of its variables. If the fitness function judges individuals only by executing them on some cases (without size penalty), then no individual evaluated during the run has results on these cases that are judged better. With numeric base functions execute returns a finite number, the mathematical value of the expression, whenever exactly the variables of the terminal set are given numbers, and raises ValueError for any other set of arguments; before a run it raises AttributeError. Findings: with a number in the terminal set (as in the documentation of execute) it raises ValueError after every run; for NSGA2Evolution its result can be worse in all objectives than a member of the final population.",
     "all fitness functions and cases, configurations, tapes, completion orders, numbers of generations, all later arguments",
     "That no evaluated individual would have done better on the cases, and that execute cannot fail or give a non-finite number for any input, concern all runs and inputs; tests execute one evolved tree on a few inputs.",
     [E+"algorithms/simple_evolution.py: execute", E+"multi_objective_evolution/nsga2_evolution.py: execute", E+"genetic_encodings/ga/vector_individual.py: execute", E+"genetic_encodings/gp/tree/tree_individual.py: execute, _execute"],
     theorems=["C74_best", "C74_vector", "C74_program", "C74_number_terminals", "C74_before", "C74_multi_objective_refuted"],
     note="C74_multi_objective_refuted: the same does not hold for multi-objective runs.")

# ---------------------------------------------------------------- what the algorithm and the population report
prop("C75", "best_of_gen and worst_of_gen are the extremes of the current population, which knows no earlier individual",
     "After a single-objective run with at least one generation, algorithm.best_of_gen and worst_of_gen are the first best and the first worst (by augmented fitness) of the individuals evaluated last, and population.get_best_individuals() and get_worst_individuals() give the very same objects; without a generation both attributes are what they were. population.find_individual_subpopulation finds all individuals evaluated last, and raises ValueError for all evaluated before, so also for best_of_run_ when it is not of the last generation. In general it finds the first subpopulation that has the object, and the two lists have one individual per subpopulation, by the direction of that subpopulation.",
     "all fitness functions, configurations with one direction flag, schedules, tapes, numbers of generations and checkers; all populations for the queries",
     "That the evaluator's scan and the population's sort always agree on one object, and that no individual ever stays in the population, concern all runs with all ties.",
     [E+"algorithms/simple_evolution.py: generation_iteration", E+"population.py: find_individual_subpopulation, get_best_individuals, get_worst_individuals", E+"subpopulation.py: get_best_individual, get_worst_individual, contains_individual", E+"evaluators/simple_population_evaluator.py: _evaluate"],
     theorems=["C75_extremes", "C75_found", "C75_find", "C75_lists", "C75_averages"],
     note="By C73 the state after each generation of a run is the final state of a run with that limit, so C75_extremes holds after each generation. Non-NaN fitness.")

# ---------------------------------------------------------------- Construction
prop("C76", "Whatever the constructors accept can be run to its end",
     "Subpopulation(...), SimpleEvolution(...) and NSGA2Evolution(...) either raise ValueError or build exactly the given configuration: one creator or a non-empty list of creators, a population, a subpopulation or a non-empty list of subpopulations in their order, any number of statistics objects, \"thread\" or \"process\"; a missing random seed is taken from the clock and lies between 0 and 2^32 - 1, the first generation seed is the random seed unless given, and one can register for the given (or the four default) event names, init, after_generation, evolution_finished, before_operator and after_operator. With the default selection method, operators whose arities divide the population size, and creators and operators that stay within a class of genomes on which the fitness function is defined, the run of what was constructed completes whatever is drawn. The same holds for NSGA2Evolution with NSGA2Breeder and checkers made for lists of objectives; with its default checker every such run raises TypeError.",
     "all arguments of the two constructors, both ways in which Python sums the creation probabilities, all clocks, fitness functions, schedules and draws",
     "The accepted arguments and the later run are connected for all configurations; tests construct a few algorithms and run some of them with particular seeds.",
     [E+"subpopulation.py: __init__", E+"algorithms/algorithm.py: __init__, _validate_population_type, _validate_statistics_type", E+"algorithms/simple_evolution.py: __init__", E+"before_after_publisher.py: __init__"],
     theorems=["C76_accepted", "C76_rejected", "C76_subpopulation", "C76_seeds", "C76_events", "C76_runs", "C76_vectors", "C76_methods", "C76_multi_objective", "C76_multi_objective_runs", "C76_others_rejected"],
     note="An argument of a wrong type is one value ('something else'). A Population without subpopulations, or with several, is accepted by the constructor; its run raises ValueError (C40_one_subpopulation). Creation probabilities are assumed not to be negative in C76_runs.")
prop("C77", "The better an individual, the more tournaments it wins, by a known number",
     "In tournament selection over n different individuals with k participants, each tournament is decided by its own k random integers, and every ordered choice of participants belongs to exactly one sequence of these integers, so that equally likely integers give equally likely and independent tournaments: n^k of them with replacement, n(n-1)...(n-k+1) without. The e individuals of one score, which r individuals are better than, win (n-r)^k - (n-r-e)^k of them (falling factorials without replacement), each of the e equally many, wherever they stand in the population. A better individual never wins fewer tournaments than a worse one, with replacement and k >= 2 strictly more. Without replacement the k-1 last can never win; with replacement everyone can.",
     "all populations of different individuals with scores other than NaN, both directions, all tournament sizes, with and without replacement, all ties",
     "A statement about the number of outcomes over all n^k draws; a statistical test can only estimate frequencies for particular populations.",
     [E+"genetic_operators/selections/tournament_selection.py: select, _pick_tournament_winner"],
     theorems=["C77_draws", "C77_tournaments", "C77_victories", "C77_better", "C77_last", "C77_everyone"],
     note="random.sample is the pool algorithm; CPython's other algorithm for large populations (rejecting repetitions) has the same distribution but is not modelled.")
prop("C78", "Creators reach the whole search space, vectors with equal chances",
     "create_individuals of a vector creator maps the numbers drawn for the cells one to one onto the vectors of the requested length within the bounds - all integer vectors and bit strings, (hi-lo+1)^length of them for common bounds, and for floats the 2^53 equidistant values from lo on in each cell - independently for the individuals, so that equally likely numbers give equally likely vectors, and it creates nothing else. For trees, any list of programs over the function set, the terminals and the ERC range, with functions only above and terminals only from the promised depths, and with the wanted type in every place, is what GrowCreator (stopping probability neither 0 nor 1), respectively FullCreator, creates for some draws, and nothing else is created; ramped half-and-half can create every population that follows its plan.",
     "all bounds and lengths, function sets, terminals, types, ERC ranges, depth ranges, population sizes, all programs",
     "That no vector or program is out of reach, and none comes up more often than another, is a statement about all outcomes of all draws.",
     [E+"creators/ga_creators/simple_vector_creator.py: create_vector", E+"genetic_encodings/ga/int_vector.py: get_random_number_in_bounds", E+"genetic_encodings/ga/float_vector.py: get_random_number_in_bounds", E+"creators/gp_creators/grow.py: create_tree", E+"creators/gp_creators/full.py: create_tree", E+"creators/gp_creators/half.py: create_individuals", E+"genetic_encodings/gp/tree/tree_individual.py: random_function, random_terminal"],
     theorems=["C78_vectors", "C78_inside", "C78_number", "C78_programs", "C78_half"],
     note="Typed trees: the terminals form a dictionary without numbers if there is an ERC range. The identity of a new number object is part of the tape, so it counts among the draws of a tree. Floats are exact.")
prop("C79", "In typed genetic programming the root of a tree never changes",
     "If the root of a tree individual has a type, no subtree crossover, subtree mutation or ERC mutation changes it, whatever is drawn and even if the operator raises: it stays the same function or terminal, a number stays a number of its type. So in a run with these operators the root of every individual of every generation is that of some individual of the first generation, and a function that is the root of none of them never becomes a root. With a root type and the conditions of C63 the run completes and has this property.",
     "all trees, operators, selection methods, configurations, fitness functions, schedules, tapes and numbers of generations",
     "That a part of the search space can never be entered, whatever is drawn in however many generations, cannot be observed in finitely many runs.",
     [E+"genetic_encodings/gp/tree/tree_individual.py: random_subtree, replace_subtree", E+"genetic_operators/crossovers/subtree_crossover.py: attempt_operator, _pick_subtrees, _swap_subtrees", E+"genetic_operators/mutations/subtree_mutation.py: attempt_operator", E+"genetic_operators/mutations/erc_mutation.py: attempt_operator"],
     theorems=["C79_operator", "C79_run", "C79_functions", "C79_typed_run"],
     note="A limitation of the implementation: the whole search space of C78 is open to the creators only. C79_untyped shows that untyped roots can be replaced.")
prop("C80", "What single applications of the operators can reach",
     "Applied to one individual with certainty, a vector mutation other than the Gauss ones gives, over all draws, exactly the vectors in which any n different cells have new values, independent of each other: any value that the bounds allow, respectively the other bound (with the cell's own probability, if the kind has one), the other cells being unchanged. Hence, if n = 1, or if cells can keep their values, repeated mutation leads from any vector of the search space to any other one. But flipping an even number of bits, each with certainty, never changes whether the number of ones is even, in any number of applications. One-point crossover gives exactly the length-1 cuts strictly inside the vectors, and k-point crossover can draw every set of k points. Subtree mutation gives exactly the trees in which one eligible place holds a new program of its type, of the depths of the operator; without types every such program is one application away from every tree. Subtree crossover of any number of trees gives exactly the results of choosing an eligible place in the first tree, places eligible for its type in the others, and passing the subtrees around. Mutation of constants gives exactly the trees in which noise, of any normal deviate, is added to any one of the numbers.",
     "all vectors, bounds, mutation kinds, probabilities, numbers of points; all complete trees, function sets, terminals, depth ranges; all draws",
     "Which individuals are out of reach of a search operator is a statement about all draws and all numbers of applications.",
     [E+"genetic_operators/mutations/vector_n_point_mutation.py: attempt_operator", E+"genetic_operators/mutations/vector_random_mutation.py: all classes", E+"genetic_operators/crossovers/vector_k_point_crossover.py: apply", E+"genetic_operators/mutations/subtree_mutation.py: attempt_operator", E+"genetic_operators/crossovers/subtree_crossover.py: attempt_operator, _pick_subtrees, _swap_subtrees", E+"genetic_operators/mutations/erc_mutation.py: attempt_operator", E+"genetic_encodings/gp/tree/tree_individual.py: random_subtree, replace_subtree"],
     theorems=["C80_moves", "C80_connected", "C80_even_flips", "C80_cuts", "C80_points", "C80_trees", "C80_programs", "C80_exchanges", "C80_constants"],
     note="Floats are the 2^53 values per cell that uniform draws; the place of a subtree is the first occurrence of its root (C22).")
prop("C81", "Set-ups that cannot work end in a definite exception",
     "The converse of C63. A population of several subpopulations, or of none, never gets as far as evaluating an individual or publishing 'init', whatever the algorithm does per generation; with given individuals the exception is ValueError. A run of evolve that ends normally had exactly one subpopulation with at least one individual, and if it went beyond the first generation, the subpopulation has a selection method and its size is a multiple of every selection and operator arity, none of them 0. Without a selection method breeding raises IndexError and changes nothing. Arities are checked before anything else, in the order of selection methods and operators: the first unfit one decides, ZeroDivisionError if it is 0 and ValueError if it does not divide the size. SimpleBreeder with elites and a list for higher_is_better raises TypeError; a tournament without replacement of more individuals than there are raises ValueError, before anything is drawn. Each of the 53 given functions raises TypeError for a wrong number of arguments. Taking elites from individuals of which some have a number and some a list of objectives as fitness raises TypeError and clones nothing. The only exception of the tree creators is ValueError, whatever functions, terminals, types and depths they are given (ramped half-and-half: unless max_depth + 1 = min_depth). A k-point crossover with at least as many points as cells, and a mutation of more cells than there are, raise ValueError; a vector crossover of one individual alone raises IndexError; all three leave every genome as it was. An operator on trees that is applied to a vector raises AttributeError and changes no genome.",
     "all fitness functions, populations, operator and selection lists, sizes, arities; all function and terminal sets; all draws",
     "That a wrong configuration can never slip through to a result, whatever is drawn, and which exception it ends in, is a statement about all configurations and draws; tests try a few wrong ones.",
     [E+"algorithms/algorithm.py: initialize, evolve", E+"evaluators/simple_population_evaluator.py: _evaluate", E+"breeders/simple_breeder.py: apply_breed", E+"genetic_operators/selections/elitism_selection.py: select", E+"creators/gp_creators/tree_creator.py: create_individuals", E+"creators/gp_creators/half.py: create_individuals", E+"genetic_operators/crossovers/vector_k_point_crossover.py: apply", E+"genetic_operators/mutations/vector_n_point_mutation.py: attempt_operator"],
     theorems=["C81_one_subpopulation", "C81_needs", "C81_no_selection", "C81_mixed_keys", "C81_tree_creators", "C81_too_many_points", "C81_crossover_alone", "C81_too_many_cells", "C81_no_selection_moo", "C81_too_early", "C81_arities", "C81_elites_of_objectives", "C81_tournament_too_large", "C81_wrong_arguments", "C81_trees_only"],
     note="The operators are applied with certainty (probability at least 1).")
prop("C82", "What the listeners of operators are told",
     "A genetic operator's act tells its before_operator listeners {} and its after_operator listeners {'applied_individuals': …}: the individuals it was given, unless it changed no genome (not applied by chance, or failed on trees); then what an earlier action left there, which may be other individuals (refuted that it is always about this action). Vector operators that are applied always announce their individuals. A selection method made without events can neither be registered with nor act (TypeError); given a dictionary it acts, but listeners never learn who was selected. A creator's act always raises ValueError, and registering for after_creation KeyError, whatever events it is given. The population evaluator announces the population, an individual evaluator the individual, the breeder passes None. Breeding calls no listener of an operator at all.",
     "all operators, listeners, payloads, random draws",
     "What is announced depends on the history of applications and on chance; the absence of calls is over all operator sequences.",
     [E+"event_based_operator.py: Operator.act, event_name_to_data", E+"before_after_publisher.py: publish", E+"genetic_operators/selections/selection_method.py: SelectionMethod", E+"creators/creator.py: Creator.__init__, apply_operator", E+"breeders/simple_breeder.py: _apply_operators, event_name_to_data", E+"evaluators/population_evaluator.py: _evaluate"],
     theorems=["C82_genetic", "C82_shown", "C82_this_time_refuted", "C82_selection_mute", "C82_selection_given", "C82_creator", "C82_evaluator", "C82_individual_evaluator", "C82_breeder", "C82_breeding_silent"],
     note="Listeners only look and may raise; they neither register nor unregister.")

# ---------------------------------------------------------------- Constructed operators
prop("C83", "Operators and creators made by their constructors work together in a run",
     "Every operator class can be constructed with exactly the keyword arguments it has: others are a TypeError, fewer than one attempt a ValueError, and nothing else is refused; the operator has the probability, the arity and the number of attempts that were given, and for those not given its default; it does what its class is for with the parameters given (numbers of points and cells, noise, depths) or their defaults (the same for the vector creators, and for the tree creators, which need functions and terminals). Any list of calls of operators for vectors (for trees), a creator of vectors (of trees: grow, full, or half and half) and the algorithm's constructor with its defaults together accept everything and complete a run, whatever is drawn and for every evaluator, each evaluated generation consisting of as many individuals as asked for, with genomes of the expected kind. Not so: that every operator has the documented default probability 1 (IntVectorOnePointMutation has 0.5), that the given arity is used (SubtreeMutation ignores it), and that tournaments are without replacement by default (documented; a tournament larger than the population is refused only with replace=False).",
     "all operator classes and combinations of keyword arguments, all lists of constructor calls, bounds, lengths, primitives, population sizes, elitism rates, evaluators, schedules and draws",
     "The combinations of classes, arguments, encodings and random draws are unbounded; tests construct a few programs with one seed.",
     [E+"genetic_operators/mutations/vector_random_mutation.py: constructors", E+"genetic_operators/mutations/vector_n_point_mutation.py: __init__", E+"genetic_operators/mutations/subtree_mutation.py: __init__", E+"genetic_operators/mutations/erc_mutation.py: __init__", E+"genetic_operators/crossovers/vector_k_point_crossover.py: __init__", E+"genetic_operators/crossovers/subtree_crossover.py: __init__", E+"genetic_operators/selections/tournament_selection.py: __init__", E+"creators/gp_creators/tree_creator.py: __init__", E+"creators/gp_creators/half.py: __init__", E+"algorithms/simple_evolution.py: __init__"],
     theorems=["C83_accepted", "C83_refused", "C83_attributes", "C83_documented_probability_refuted", "C83_given_arity_refuted", "C83_tournament", "C83_documented_replacement_refuted", "C83_grow", "C83_full", "C83_half", "C83_creators_refused", "C83_vector_program", "C83_tree_program", "C83_effect", "C83_vectors"],
     note="Arguments that are functions (cell selectors, gene creators) are not given.")

# ---------------------------------------------------------------- Interrupted runs
prop("C84", "What is left when a run ends with an exception",
     "If evolve raises (the fitness function, a checker, an operator, a listener), then either the run was broken off: in the initial evaluation, in the first check, or inside generation k+1 after k complete generations, whose events happened in order and were published as 1..k; no checker had asked to stop, nobody was told that the evolution finished, final_generation_ is unchanged and the executor is not shut down. Or everything happened, the executor is shut down, and only showing the best individual raised. best_of_run_ is then the best of all individuals evaluated before the exception (unchanged if there was no evaluation), these keep the values they were given, and what listeners were shown is still so and was getting no worse. In a workable set-up (C63) the only possible exception is the fitness function's own, the population left behind is whole (as many individuals as asked for, genomes of the expected kind), and calling evolve again with a fitness function that works completes a run starting from it. Not so: that the second call's result is at least as good as the best of the first; initialize() forgets it.",
     "all fitness functions that may raise, schedules, configurations, listeners and checkers that may raise, random draws, points of failure",
     "The points at which an exception can leave a run, times all configurations, cannot be enumerated by tests; what is left must be consistent at each of them.",
     [E+"algorithms/algorithm.py: evolve, initialize, evolve_main_loop", E+"algorithms/simple_evolution.py: generation_iteration, finish", E+"algorithms/nsga2_evolution.py: finish", E+"evaluators/simple_population_evaluator.py: _evaluate", E+"breeders/simple_breeder.py: apply_breed"],
     theorems=["C84_events", "C84_moo_events", "C84_best", "C84_recorded", "C84_restart", "C84_best_forgotten_refuted"],
     note="C84_best and C84_recorded: one subpopulation with scalar fitness, population executor 'map'. In the generation whose evaluation failed, the individuals before the first failing one have got their values; they do not count for best_of_run_.")

# ---------------------------------------------------------------- What the listeners of an algorithm are told
prop("C85", "Listeners of an algorithm are told about the population evaluated last",
     "A listener registered for all events of an algorithm is called exactly once per published event, in the order of publication, however the run ends. SimpleEvolution: 'init' carries the initial population, which has just been evaluated, max_generation and the generation number; every other event carries the population evaluated last, the current best_of_run_, the generation number, and as best_of_gen a member of the population evaluated last. NSGA2Evolution: the population consists of individuals evaluated last, and best_of_gen is a list with one part of each subpopulation; in the last event these are exactly the members of front rank 1, in order. What 'evolution_finished' carries is the population, best_of_run_, best_of_gen and generation number the algorithm is left with. Finding: in a run that stops at its initial population best_of_gen is what the constructor set (None); listeners that read its fitness fail there.",
     "all evaluators, schedules, draws, set orders, operators, both breeders, statistics, checkers and limits; any outcome of the run",
     "A test reads the data of a few events of one run. That the data always belong to the last evaluation, also in runs that stop early or raise, needs all courses of a run.",
     [E+"algorithms/algorithm.py: event_name_to_data, evolve, initialize, evolve_main_loop", E+"algorithms/simple_evolution.py: event_name_to_data, generation_iteration", E+"multi_objective_evolution/nsga2_evolution.py: event_name_to_data, generation_iteration, _get_pareto_fronts", E+"before_after_publisher.py: publish"],
     theorems=["C85_told", "C85_moo_told", "C85_last", "C85_moo_last"],
     note="The listener is one that notes what it is given; that it does not influence the run is C72. The run starts with an algorithm that has not run before. The other objects in the data of 'init' (statistics, breeder, checker, events, max_workers) are opaque.")

# ---------------------------------------------------------------- The example programs
prop("C86", "The OneMax examples do what they say",
     "Both OneMax programs (bits; floats between 0 and 1), with the constructors' defaults, complete without an exception whatever is drawn and in whatever order evaluations finish. Every evaluated generation has 300 vectors of 100 bits (of 100 numbers between 0 and 1). execute() returns the cells of an evaluated individual, whose fitness is the number of its ones (the sum of its cells), and no evaluated individual has more. The program ends before 500 generations exactly if it found a hundred ones (the sum 100): then that is what execute() returns; otherwise all 500 generations are done.",
     "all draws, clocks, completion orders, both summation algorithms of Python's sum",
     "One test run sees one sequence of draws. That no sequence makes the program fail, lose its best individual or miss its target needs all of them.",
     ["examples/vectorga/one_max/one_max_problem.py: main", "examples/vectorga/one_max/one_max_problem_float.py: main", "examples/vectorga/one_max/one_max_evaluator.py: OneMaxEvaluator.evaluate_individual"],
     theorems=["C86_one_max", "C86_one_max_float"],
     note="Sums of floats are exact in the model; a rounded sum can be 100 although a cell is slightly less than 1. The number of individuals on the heap before the run is 0.")
prop("C87", "The knapsack example returns the best bag it met",
     "The knapsack program, for every table of at least 20 items and every weight limit, completes all 500 generations without an exception. Every evaluated generation has 50 strings of 20 bits. If any evaluated bag weighs at most the limit, execute() returns one that does, whose fitness is its total price, and no evaluated bag within the limit is worth more. Finding: the evaluator accepts its items as None or a dictionary, but rejects every non-empty list with ValueError.",
     "all tables and limits, draws, clocks, completion orders, both summation algorithms of Python's sum",
     "A test runs one table with a few seeds; that an infeasible bag (fitness minus infinity) can never displace a feasible one is a claim about all runs.",
     ["examples/vectorga/knapsack/knapsack_evaluator.py: KnapsackEvaluator.__init__, evaluate_individual", "examples/vectorga/knapsack/knapsack_main.py: main"],
     theorems=["C87_knapsack", "C87_items_refuted", "C87_no_list"],
     note="Sums are exact. C87_items_refuted refutes that a list of (weight, price) pairs is accepted.")
prop("C88", "The multi-objective examples end with points they really computed",
     "The three ZDT programs and the basic NSGA-II example, with the constructors' defaults, complete without an exception whatever is drawn, in whatever order evaluations finish and sets are iterated. The initial evaluation is of 150 individuals, each later one of 300; there is one per generation, at most 150 generations, fewer only if the crowding checker stopped the run. The final population has 150 different individuals; each has three cells within the bounds and carries the two objectives computed from exactly these cells (for ZDT: f1 = x0, f2 = 1 - sqrt(x0/g), 1 - (x0/g)^2 or 1 - sqrt(x0/g) - (x0/g) sin(10 pi x0), with g at least 1, so that the root is never taken of a negative number). No initial individual dominates what replaced it (C68). The ZDT programs write one line per generation; the basic example writes in each generation the corners of the fronts, each of which is the objectives of some vector within the bounds. execute() returns the cells of an individual of the initial evaluation: best_of_run_ is never replaced by a later one.",
     "all draws, clocks, completion and set orders, both summation algorithms of Python's sum, all functions as sqrt, sin and exp (sqrt 3 > 0 for the basic example)",
     "One test run sees one sequence of draws. That no sequence makes the evaluator, the sorting, the crowding checker or the statistics fail needs all of them.",
     ["examples/multi_objective/zdt/nsga2zdt1.py: Zdt1Evaluator, main", "examples/multi_objective/zdt/nsga2zdt2.py: Zdt2Evaluator", "examples/multi_objective/zdt/nsga2zdt3.py: Zdt3Evaluator", "examples/multi_objective/moe_base_example/nsga2_basic_example.py: NSGA2BasicExampleEvaluator, main", E+"termination_checkers/crowding_termination_checker.py: should_terminate"],
     theorems=["C88_zdt", "C88_basic"],
     note="Exact arithmetic; no plotting.")
prop("C89", "The example creator of trees with a fixed root never creates a tree",
     "RootFunctionCreator is documented to create trees with an immutable root function. Refuted: for every root function with at least one parameter (with type hints for all or for none), whenever FullCreator with the same parameters creates individuals, RootFunctionCreator raises RecursionError, at every recursion limit, before anything is drawn: the overridden create_tree is called again for each child and has no end. Whenever it does return (a root function without parameters, or no individuals asked for), every tree it returns is empty. Without a root function, the default, it raises TypeError.",
     "all root functions, function and terminal sets, depths, numbers of individuals, draws and recursion limits",
     "A RecursionError at one limit does not show that no limit would do; that no choice of parameters ever yields a tree is a statement about all of them.",
     ["examples/treegp/sklearn_mode/root_function_creator.py: RootFunctionCreator.create_tree", E+"creators/gp_creators/tree_creator.py: _add_children, create_individuals"],
     theorems=["C89_nothing", "C89_recursion", "C89_default", "C89_root_refuted"],
     note="RecursionError stands for exceeding a number of nested calls of create_tree.")
prop("C90", "The multiplexer programs evolve total truth functions, score them by their share of correct rows and return the best after the size charge",
     "Both multiplexer examples (untyped with integer ERC, and strictly typed) always run to completion, for any random numbers and any order of evaluation. Each of the 40 individuals of each generation is a program that answers each of the 2048 rows with a truth value (0/1, or False/True in the typed version), and its fitness is exactly the share of the rows that it answers as an 8-to-1 multiplexer does. The best-of-run individual is one of those evaluated, and none has a greater share minus 0.00001 times its number of nodes. The run stops early exactly if that individual answers at least 2028 rows correctly, otherwise after 40 generations, and execute on the run's algorithm returns the answers of that individual.",
     "all random sources, all orders of evaluation, both versions of the program, both ways Python sums floats, all inputs of 11 truth values",
     "A test runs the program with one seed and sees one fitness curve; that no run can meet a tree that fails or leaves the truth values, that the table is the multiplexer on all rows, and what the returned program is best at concern all runs.",
     ["examples/treegp/basic_mode/multiplexer.py: _target_func, MuxEvaluator.evaluate_individual, main", "examples/treegp/basic_mode/typed_multiplexer.py: _target_func, MuxEvaluator, main", E+"base/untyped_functions.py: f_and, f_or, f_not, f_if_then_else", E+"base/typed_functions.py: and2bools, or2bools, not2bools, if_then_else3bools", E+"termination_checkers/threshold_from_target_termination_checker.py: should_terminate"],
     theorems=["C90_multiplexer"],
     note="Trees are executed row by row (the base functions act elementwise); shares and the charge are exact rationals, the weight 0.00001 and the threshold 0.01 are doubles.")
prop("C91", "The symbolic regression programs evolve total functions of three floats, score them by mean absolute deviation and return one with the least",
     "Both symbolic regression examples (untyped, and strictly typed) always run to completion, for any table of points, any random numbers and any order of evaluation, as long as square roots and logarithms of finite positive numbers are finite and nothing overflows. Each of the 200 individuals of each generation computes a finite float from any three floats, and its fitness is exactly its mean absolute deviation from x + 2y + 3z on the table. The best-of-run individual is one of those evaluated and none deviates less: the bloat weight that the programs give to their creator has no effect. The run stops early exactly if this deviation is at most 0.001, otherwise after 40 generations. execute returns the value that this individual computes from three floats, and a finite number for any three finite numbers, integers included.",
     "all tables, all random sources, all orders of evaluation, both versions of the program, both ways Python sums floats, all arguments of execute",
     "A test runs the program with one table and one seed; that no reachable program tree can fail, and what the returned one minimises, concern all of them.",
     ["examples/treegp/basic_mode/symbolic_regression.py: SymbolicRegressionEvaluator, main", "examples/treegp/basic_mode/typed_symbolic_regression.py: SymbolicRegressionEvaluator, main", E+"creators/gp_creators/half.py: HalfCreator.__init__", E+"genetic_operators/mutations/erc_mutation.py: apply"],
     theorems=["C91_symbolic"],
     note="Trees are executed row by row; arithmetic is exact, the threshold 0.001 is a double; library functions are parameters that are finite where defined.")
prop("C92", "A fitted classifier has the highest training accuracy that was evaluated; the classification programs complete",
     "Fitting a classifier with the sigmoid method, numeric functions and a consistent configuration on a table of finite floats with whole labels always completes, for any random numbers and any order of evaluation, even if functions give infinities or NaN. Each individual's fitness is exactly the share of the rows that it puts into the class of their label; the class of a row is the n-th part of the unit interval that has the sigmoid of the tree's value, the last class for NaN. predict answers with the best-of-run individual: no evaluated one has a higher share, and its fitness is the accuracy of predict on the training table. This accuracy is at most the share of labels in 0..n-1. The breast cancer program and the two grid search programs are such configurations; they stop early exactly if this accuracy is at least 0.97 and otherwise run all generations. accuracy_score is 1 exactly if all answers are right. Labels are not encoded: a classifier trained with labels 1 and 2 answers 0 and 1, and the grid search programs, whose data has three classes, never answer 2 and never stop early if 4% of the labels are 2. fit refuses unusable tables without a change, a failed fit does not count as fitted, and predict can be repeated: each call answers what the first one would.",
     "all tables, all labels, all random sources, all orders of evaluation, all numbers of classes, functions, population sizes and operators of a consistent configuration; all further tables that are predicted",
     "A test fits one data set with one seed; that no reachable program tree makes fitting fail, what the returned one maximises, and which answers are impossible concern all of them.",
     [E+"sklearn_compatible/sklearn_wrapper.py: fit", E+"sklearn_compatible/sk_classifier.py: predict", E+"sklearn_compatible/classification_evaluator.py: evaluate_individual, classify_individual, _clf_sigmoid", "examples/treegp/sklearn_mode/breast_cancer.py: main", "examples/treegp/sklearn_mode/classification_gridsearch.py: main", "examples/treegp/sklearn_mode/typed_classification_gridsearch.py: main"],
     theorems=["C92_accuracy", "C92_accuracy_rejects", "C92_fit", "C92_breast", "C92_search", "C92_third_class", "C92_labels_refuted", "C92_bad_data", "C92_failed_fit", "C92_unfitted", "C92_predict_again", "C92_search_names"],
     note="That answers are labels seen in training is refuted. Exact arithmetic; class thresholds i/n are exact, the termination threshold 0.03 is a double; one subpopulation.")
prop("C93", "A fitted regressor has the lowest training error that was evaluated; the regression programs predict polynomials",
     "Fitting a regressor with numeric functions and a consistent configuration on a table of finite floats always completes, with its statistics, for any random numbers and any order of evaluation. Each individual's fitness is exactly the mean absolute error of its program on the training table. predict answers with the best-of-run individual; no evaluated one has a lower error (a higher one, if higher is better), and its fitness is the error of predict on the training table. The three regression programs are such configurations; they stop early exactly if this error is at most 0.01 and otherwise run all generations. What they predict is one polynomial of the columns, applied to each row of any table.",
     "all tables and targets of finite floats, all random sources, all orders of evaluation, all functions, population sizes and operators of a consistent configuration; all further tables that are predicted",
     "A test fits one data set with one seed and checks a score; that fitting cannot fail, what the returned program minimises, and which functions can be answered at all concern all data and all runs.",
     [E+"sklearn_compatible/sklearn_wrapper.py: fit, predict", E+"sklearn_compatible/regression_evaluator.py: evaluate_individual", E+"sklearn_compatible/sk_regressor.py: SKRegressor", "examples/treegp/sklearn_mode/symbolic_regression.py: main", "examples/treegp/sklearn_mode/regression_pipeline.py: main", "examples/treegp/sklearn_mode/regression_gridsearch.py: main"],
     theorems=["C93_fit", "C93_program", "C93_polynomial"],
     note="Exact arithmetic: no overflow. In C93_fit sqrt, log and the trigonometric functions are parameters that give finite numbers for finite ones. One subpopulation.")

# ---------------------------------------------------------------- Double precision
prop("C94", "Fitting in double precision",
     "With the base functions as numpy computes them on doubles (the exact result rounded to the nearest double, ties to even, overflow to infinity): rounding gives a double, leaves doubles alone, errs by at most half a unit in the last place and overflows only from 2^1024-2^970 on; programs of numeric functions work row by row and give doubles. Fitting a classifier on a finite table always completes, and up to 2^50 rows no evaluated individual has more right answers on the training table than the one that predicts. Fitting a regressor either completes - then the predicting individual has finite answers on the training table and no evaluated one has a better measure - or raises ValueError, the wrapper stays unfitted, and some program of the primitives has an answer that is not finite. The latter happens: a fit on one finite row can overflow although the same fit in exact arithmetic completes.",
     "all tables of finite floats, targets, labels, draws, schedules, summation orders and consistent configurations; the regression example program",
     "rounding and overflow depend on the values that random programs produce; a test sees some programs on some tables",
     [E+"base/untyped_functions.py: f_add, f_mul, f_sub, f_div", E+"sklearn_compatible/regression_evaluator.py: RegressionEvaluator", E+"sklearn_compatible/classification_evaluator.py: ClassificationEvaluator", E+"sklearn_compatible/sklearn_wrapper.py: SklearnWrapper.fit", "examples/treegp/sklearn_mode/symbolic_regression.py: main"],
     theorems=["C94_rounded", "C94_error", "C94_range", "C94_functions", "C94_doubles", "C94_classifier", "C94_measures", "C94_regressor", "C94_program", "C94_overflow_refuted"],
     note="Finding: fitting a regressor can raise ValueError because a program overflows (C94_overflow_refuted).")

# ---------------------------------------------------------------- The first generation
prop("C95", "No population, and no optimum, is out of reach of a run",
     "For a consistent configuration whose fitness function gives numbers, take any list of population-size members of the creators' search space: in-bounds vectors (all integers within the bounds, all representable steps for floats), or programs with the depths that grow, full or ramped half-and-half promise. There are values of the random draws, obtainable after the run has seeded its generator, with which the run completes and the first population it evaluates is exactly this list, in this order. Hence, if the search space contains an individual to which no individual is preferred, there are draws with which the run's best individual has the optimal fitness, whatever operators, selection and termination checkers are configured.",
     "every configuration, search space, population over it, optimal individual and number of generations",
     "The search spaces are astronomically large (2^53 values per float cell), and a test draws only a few populations; that nothing is excluded by creators, seeding, or the choice among several creators is a statement about all of them.",
     [E+"algorithms/algorithm.py: Algorithm.initialize, create_population, evolve", E+"creators/ga_creators/simple_vector_creator.py: create_individuals", E+"creators/gp_creators/half.py: HalfCreator.create_individuals", E+"evaluators/simple_population_evaluator.py: _evaluate"],
     theorems=["C95_first_vectors", "C95_optimal_vector", "C95_first_programs", "C95_optimal_program"],
     note="Draws are those of an arbitrary stream for each seed, so this says that nothing is structurally excluded; that the streams of CPython's generator for the 2^32-odd seeds contain them is not claimed. For programs all the creators must be able to make the list.")

# ---------------------------------------------------------------- What generations inherit
prop("C96", "Without mutation nothing new arises",
     "When the operators of a run only recombine - k-point crossover on vectors, subtree crossover on trees, or no operator - later generations contain nothing that earlier ones lack. A value stands at a place of a vector in some generation only if it stood at that place in some vector of every earlier generation. A function, a variable or a random constant occurs in a tree only if it occurred in a tree of every earlier generation. So the best individual of the run is put together from the first generation, a generation of equal vectors stays as it is for ever, and with no operator every individual is a copy of one in every earlier generation. The general form: for any closure operator on genomes whose closed sets the operators cannot leave, each generation lies in the closure of every earlier one.",
     "every evaluation function that gives numbers on the search space, every seed and stream of draws, every population size, elitism rate, selection scheme and number of generations",
     "A test observes a few generations of one seed; that no crossover anywhere in a run can ever introduce a value, whatever is drawn and selected, is a statement about every run.",
     [E+"genetic_operators/crossovers/vector_k_point_crossover.py: VectorKPointsCrossover.apply", E+"genetic_operators/crossovers/subtree_crossover.py: SubtreeCrossover.apply", E+"breeders/simple_breeder.py: SimpleBreeder.apply_breed", E+"algorithms/simple_evolution.py: SimpleEvolution.generation_iteration"],
     theorems=["C96_closure", "C96_genes", "C96_best", "C96_converged", "C96_nodes", "C96_copies"],
     note="The vector and tree theorems also say that the run completes. C96_mutation_run shows that a single bit-flip mutation breaks the claim.")

# ---------------------------------------------------------------- How often random choices are made
prop("C97", "Random choices are made as often as the parameters say",
     "The choices that operators and creators make are fair with respect to the generator. Of the 2^53 numbers that random() gives, floor(2^53 p) + 1 lead to the application of an operator with probability p, and for these it does exactly what it does with probability 1; for the others nothing happens. Each creator of a subpopulation is used for its share of the numbers, to less than one. Each set of k cut points of k-point crossover, and each set of n cells of n-point mutation, comes from equally many sequences of draws (k!, n!). A random function of a type is each of the functions of that type for exactly one of the numbers drawn; a random terminal is each of the terminals of that type for one number, and the random constant, where there is one, for one number more; ERC mutation changes each numeric terminal of the tree for exactly one number. Subtree mutation is not fair among the places of a tree: it draws a position and mutates the first place with an equal node, so this place is chosen as often as its node occurs and later occurrences are never chosen.",
     "every probability, all weights, vectors, bounds, trees and operator parameters; every state of the generator",
     "That 2^53 numbers fall into classes of the stated sizes cannot be seen in samples, which are anyway only statistical; an unreachable place or a probability that is off by a little looks like noise in a test.",
     [E+"genetic_operators/genetic_operator.py: GeneticOperator.apply_operator", E+"subpopulation.py: Subpopulation.create_subpopulation", E+"genetic_operators/crossovers/vector_k_point_crossover.py: VectorKPointsCrossover.apply", E+"genetic_operators/mutations/vector_n_point_mutation.py: VectorNPointMutation.attempt_operator", E+"genetic_encodings/gp/tree/tree_individual.py: Tree.random_subtree, random_function, random_terminal, get_random_numeric_node", E+"genetic_operators/mutations/subtree_mutation.py: SubtreeMutation.attempt_operator", E+"genetic_operators/mutations/erc_mutation.py: ERCMutation.attempt_operator"],
     theorems=["C97_probability", "C97_applied", "C97_creators", "C97_points", "C97_cells", "C97_places", "C97_second_refuted", "C97_functions", "C97_terminals", "C97_constants"],
     note="C97_second_refuted: the second x of add(x, x) is never replaced. As `random() <= p` is the test, an operator of probability 0 is applied for one number in 2^53. The second half of C97_applied leaves out the Gaussian mutations, whose fallback uses the probability again.")

# ---------------------------------------------------------------- No dead ends
prop("C98", "No generation is a dead end",
     "Let the last operator of a consistent configuration be a mutation that may draw all cells anew (FloatVectorUniformNPointMutation or IntVectorNPointMutation with n equal to the length, IntVectorOnePointMutation with a non-negative cell probability), BitStringVectorNFlipMutation with n equal to the length and a cell probability from 0 to below 1 - 2^-53, or subtree mutation over untyped primitives. Take any run, any of its generations after the first, and any list of population-size members of the search space (for subtree mutation: programs of its init_depth). Then other numbers from the generator, for the seed of this generation only, give a run with the same generations before it and exactly this list as this generation, whatever selection, elitism and the other operators do. Hence for every sequence of populations there is a run that goes through them one after the other for as long as it lasts.",
     "every run of every such configuration, every generation of it, every population or sequence of populations of the search space",
     "No number of runs shows that no state of the search is a trap: the claim is about the existence of draws after every possible history, among astronomically many populations.",
     [E+"algorithms/algorithm.py: Algorithm.evolve_main_loop, next_seed, set_random_seed", E+"breeders/simple_breeder.py: SimpleBreeder.apply_breed, _create_next_gen", E+"genetic_operators/mutations/vector_random_mutation.py: FloatVectorUniformNPointMutation, IntVectorOnePointMutation, IntVectorNPointMutation, BitStringVectorNFlipMutation", E+"genetic_operators/mutations/subtree_mutation.py: SubtreeMutation.apply"],
     theorems=["C98_next_vectors", "C98_next_bits", "C98_next_programs", "C98_any_history", "C98_any_program_history"],
     note="The seed of the generation must differ from the seed of the run (it does, except after 2^32 generations or with an unlucky pair of arguments), because both name a stream. As in C95 a stream for each seed is arbitrary: nothing is structurally excluded. Without such a mutation the claim is false (C96).")

# ---------------------------------------------------------------- which random numbers a run depends on
prop("C99", "A run takes its random numbers only from the streams of its own seeds",
     "Whatever state the global generators were in, and whatever numbers they would give after other seeds, a run of SimpleEvolution or NSGA2Evolution with the same algorithm object and individuals is the same - results, events, exceptions and all - as long as the generators give the same numbers after each of the seeds this run sets: random_seed, and generation_seed + k for its k-th generation (modulo 2^32). If they differ for some of these, the runs are still the same up to the moment when the first such seed is set. So for a consistent configuration the numbers of later generations never change earlier ones: with the same streams for random_seed and for the seeds of generations 1 to k, the first k+1 populations of both runs consist of the same individuals with the same genomes, also at the end of both runs.",
     "every algorithm and world, every fitness function and executor schedule, every pair of generator states and streams, every k",
     "That no draw is made before the first seeding, or in a moment that belongs to another generation, is a statement about all streams at once; a repeated seeded run in one process tests one stream from one state.",
     [E+"algorithms/algorithm.py: Algorithm.evolve, initialize, evolve_main_loop, set_random_seed, next_seed, finish", E+"breeders/simple_breeder.py: SimpleBreeder.apply_breed", E+"multi_objective_evolution/nsga2_breeder.py: NSGA2Breeder.apply_breed", E+"algorithms/simple_evolution.py: SimpleEvolution.generation_iteration"],
     theorems=["C99_own_streams", "C99_same_until", "C99_own_streams_moo", "C99_same_until_moo", "C99_seeds", "C99_past"],
     note="User code (fitness functions, checkers, schedules) is a parameter that does not draw from the generators. C99_past is about SimpleEvolution with tournament selection, as in C58 and C95; individuals may still be renumbered (generation field) after their own generation.")
prop("C100", "A finished run can be resumed from its last population and generation seed",
     "Let a SimpleEvolution without termination checkers finish k generations, and let a second one be given its last population, its last generation_seed (with any random_seed) and run for m generations. Then both together breed the same as one run of k + m generations: evaluating the given population again changes nothing, after that the same individuals are evaluated generation by generation, and in the end population, best of the last generation, generation seed and all individuals (genomes, fitness, ids, histories) are the same, except for their generation numbers, which the second run counts anew; the best individual of the long run is exactly as good as the better of the best ones of the two runs. If the second run is not given the last generation seed (the default takes its random_seed), it goes on otherwise. NSGA-II cannot be resumed like this: being given an evaluated first individual it always raises AttributeError, with no individual changed.",
     "all fitness functions that give numbers, all populations with scalar fitness, all selections, operators, seeds, streams of random numbers and all k and m for which the three runs finish; the refutation gives one such run",
     "One resumed run can be compared with one long run; that no operator, comparison or evaluation looks at what a finished run loses (generation numbers, best of run, positions of the generators) is a statement about all runs.",
     [E+"algorithms/algorithm.py: Algorithm.__init__, initialize, evolve_main_loop, next_seed, set_generation_seed", E+"algorithms/simple_evolution.py: SimpleEvolution.generation_iteration", E+"subpopulation.py: create_subpopulation_individuals", E+"population.py: create_population_individuals"],
     theorems=["C100_resumed", "C100_fresh_seed_refuted", "C100_best", "C100_moo_given"],
     note="The documentation of generation_seed says that it is useful for resuming a previously paused experiment. Evaluation by map; the user's fitness function always gives the same value for the same genome (an oracle function of the genome).")
