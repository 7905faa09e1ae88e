{"id": "C01", "title": "Scalar fitness comparison is a strict weak order with the right direction", "statement": "For two individuals of a scalar problem whose fitnesses are numbers (ints, finite floats or infinities, not NaN), `a < b` holds exactly when b's fitness is numerically larger under maximization, or numerically smaller under minimization. The relation is irreflexive, asymmetric and transitive, and 'neither is less' is an equivalence relation, so sorting a population is well defined.", "quantifier": "all fitness triples (int, float, +/-inf) and both optimisation directions", "why_tests_cant": "transitivity is a statement about every triple of an infinite value domain; tests sample a few pairs", "anchors": ["leap_ec/problem.py: ScalarProblem.worse_than", "leap_ec/individual.py: Individual.__lt__"]}
{"id": "C02", "title": "A NaN (non-viable) fitness is worse than every number", "statement": "An individual whose fitness is NaN compares `<` to every individual with a numeric fitness, and no numeric individual compares `<` to it, whatever the optimisation direction and even against -inf/+inf. Consequently whenever a population holds at least one individual with numeric fitness, the best-of-population is numeric.", "quantifier": "all numeric fitnesses, both directions, every coin flip used for NaN/NaN comparisons, all populations and orders", "why_tests_cant": "the NaN/NaN comparison is a random coin, so every comparison schedule must be covered; tests see one random run", "anchors": ["leap_ec/problem.py: ScalarProblem.worse_than", "leap_ec/individual.py: Individual (total_ordering)", "leap_ec/probe.py: best_of_gen"]}
{"id": "C03", "title": "`a > b` agrees with `b < a`", "statement": "For any two evaluated individuals of a scalar problem, `a > b` (the test used by max(), best-so-far probes and asynchronous replacement) gives the same answer as `b < a` (the test used by sorting and truncation selection).", "quantifier": "all pairs of fitness values and both directions", "why_tests_cant": "the two operators take different code paths (one goes through a relative tolerance on floats); agreement must hold on an infinite set of pairs", "anchors": ["leap_ec/individual.py: Individual (functools.total_ordering), __eq__, __lt__", "leap_ec/problem.py: ScalarProblem.equivalent"]}
{"id": "C04", "title": "max() over a population returns a best individual", "statement": "best_of_gen / max over a non-empty evaluated population returns a member of the population such that no other member is better than it (for float fitnesses: better by more than the documented relative tolerance 1e-9).", "quantifier": "all non-empty populations in all orders, mixing ints, floats, infinities and NaNs", "why_tests_cant": "the pairwise operator is not transitive on floats, so the outcome depends on the visiting order of an arbitrarily long list", "anchors": ["leap_ec/probe.py: best_of_gen", "leap_ec/individual.py: Individual.__gt__ (derived)"]}
{"id": "C05", "title": "Best-so-far probe never regresses and never misses an improvement", "statement": "After any sequence of populations has passed through a BestSoFarProbe (or individuals through BestSoFarIterProbe), the recorded best-so-far is one of the individuals that passed, no individual that passed is better than it beyond the float tolerance, the recorded value never gets worse from one call to the next, one row per call is written with the current generation, and what flows out is exactly what flowed in.", "quantifier": "all histories of non-empty evaluated populations", "why_tests_cant": "the claim is about every history of calls, not about a single call", "anchors": ["leap_ec/probe.py: BestSoFarProbe, BestSoFarIterProbe, FitnessStatsCSVProbe"]}
{"id": "C06", "title": "clone() yields an isolated, unevaluated child with recorded parentage", "statement": "A clone has the same genome contents, problem and decoder as the original, no fitness, a new unique id, and exactly the original's id as parents. Any later in-place change of the clone's genome leaves the original's genome unchanged and vice versa, and cloning changes nothing about the original.", "quantifier": "all individuals, all later sequences of in-place genome writes to either one", "why_tests_cant": "isolation is about all future mutations through either reference, and about every genome shape", "anchors": ["leap_ec/individual.py: Individual.clone", "leap_ec/ops.py: clone"]}
{"id": "C07", "title": "Every evaluation route scores the current genome", "statement": "Evaluating an individual assigns the fitness that its problem gives to the decoding of its current genome, no matter whether it was decoded, cloned or mutated before, and no matter whether it is evaluated one at a time, through the evaluate operator, or in groups with grouped_evaluate.", "quantifier": "all histories of decode / clone / mutate / evaluate calls, all chunk sizes", "why_tests_cant": "a stale cached phenome only shows up after particular call histories", "anchors": ["leap_ec/individual.py: Individual.phenome, decode, evaluate_imp, evaluate, clone", "leap_ec/ops.py: evaluate, grouped_evaluate"]}
{"id": "C08", "title": "Robust individuals turn evaluation failures into non-viable NaN fitness", "statement": "Evaluating a RobustIndividual never raises: it ends with is_viable = True and the problem's fitness when the evaluation succeeds, and with is_viable = False, fitness NaN and the raised exception recorded when it fails; the returned value equals the stored fitness, and re-evaluating reflects only the latest attempt's viability and fitness.", "quantifier": "all individuals and all sequences of evaluation attempts, each succeeding or failing", "why_tests_cant": "needs all histories of failing and succeeding attempts", "anchors": ["leap_ec/individual.py: RobustIndividual.evaluate", "leap_ec/distrib/evaluate.py: is_viable"]}
{"id": "C09", "title": "Truncation selection keeps exactly the best `size` individuals", "statement": "truncation_selection returns min(size, available) individuals, all drawn (with their multiplicity) from offspring plus the optional parents, best first, and no individual left out is better than any individual kept; ties are resolved in favour of the earlier one (offspring before parents). The ordering claims suppose that the comparison tells fitness values apart (no two different Python floats within the relative tolerance 1e-9); otherwise a strictly better individual can be left out.", "quantifier": "all populations, sizes, parent lists and orderings, with and without a key", "why_tests_cant": "quantifies over every population and order; tests check tiny fixed lists", "anchors": ["leap_ec/ops.py: truncation_selection"]}
{"id": "C10", "title": "Elitist survival keeps the population size and never loses the best", "statement": "elitist_survival returns exactly as many individuals as there were offspring, every survivor is an offspring or one of the k best parents, no dropped offspring or elite is better than a survivor, and if k >= 1 and there is at least one offspring then the best survivor is at least as good as the best parent and the best offspring. The ordering claims suppose, as in C09, that the comparison tells fitness values apart.", "quantifier": "all offspring and parent lists, all k, with and without a key", "why_tests_cant": "universal claim over all fitness configurations including ties", "anchors": ["leap_ec/ops.py: elitist_survival"]}
{"id": "C11", "title": "With elitism a generational run's best fitness never gets worse", "statement": "For a generational_ea run with k_elites >= 1, whose pipeline produces at least one evaluated offspring per generation, and whose comparison tells fitness values apart (no two different Python floats within the relative tolerance 1e-9), the best fitness of each generation's population is at least as good as that of the previous generation, hence the final best is at least as good as every individual of the initial population. Without that proviso it is not so: in a population of one an offspring worse by a billionth replaces the elite, and such losses can add up beyond every bound. In a population of one with positive fitnesses, n generations lose at most the factor (1 - 1e-9)^n, whatever the ties.", "quantifier": "all pipelines (arbitrary population transformers), all numbers of generations, all random outcomes", "why_tests_cant": "monotonicity must hold along every possible run, for any user-supplied pipeline", "anchors": ["leap_ec/algorithm.py: generational_ea", "leap_ec/ops.py: elitist_survival"]}
{"id": "C12", "title": "generational_ea runs exactly the requested number of generations", "statement": "A generational_ea run performs exactly max_generations generations when the stop predicate never fires; otherwise it stops at the first generation whose population satisfies it. The generation counter in the context equals start_generation plus the number of completed generations at every point where the pipeline or the stop predicate observes it, and the population size after each generation equals what the pipeline produced.", "quantifier": "all start/max generation numbers, stop predicates and pipelines", "why_tests_cant": "off-by-one behaviour must be excluded for all bounds and all stop predicates", "anchors": ["leap_ec/algorithm.py: generational_ea, stop_at_generation", "leap_ec/util.py: inc_generation"]}
{"id": "C13", "title": "Tournament selection returns the best of its sampled contestants and reports its index", "statement": "Each individual yielded by tournament_selection is a member of the population at one of the k sampled positions, no sampled contestant is better than it (worse, when select_worst is set), and the `indices` list, when given, holds exactly one entry: the position of the yielded individual. random_selection yields the member of the population at the drawn index.", "quantifier": "all populations, k, keys, all random samples and any number of draws", "why_tests_cant": "must hold for every random draw", "anchors": ["leap_ec/ops.py: tournament_selection"]}
{"id": "C14", "title": "Insertion selection lets every offspring compete against a randomly chosen parent", "statement": "insertion_selection returns a list as long as the parents in which every offspring has been compared with one randomly selected member and replaces it when it is at least as good; the caller's parent list is untouched and no slot ever gets worse.", "quantifier": "all offspring lists, parent lists and random choices", "why_tests_cant": "depends on the number of offspring and on all random index choices", "anchors": ["leap_ec/ops.py: insertion_selection"]}
{"id": "C15", "title": "Cyclic selection visits every individual equally often", "statement": "Among the first m*len(population) individuals drawn from naive_cyclic_selection or cyclic_selection, each individual of the population appears exactly m times, the first len(population) draws are in population order, and at any time the visit counts of two individuals differ by at most one.", "quantifier": "all non-empty populations, all numbers of draws, all shuffles", "why_tests_cant": "must hold for every number of draws and every shuffle outcome", "anchors": ["leap_ec/ops.py: naive_cyclic_selection, cyclic_selection"]}
{"id": "C16", "title": "Stochastic universal sampling gives each individual its floor-or-ceiling share", "statement": "In one pass of n draws from sus_selection, an individual whose scaled value is a fraction f of the total is selected either floor(n*f) or ceil(n*f) times, the selections come in population order, and an individual with zero value is never selected.", "quantifier": "all populations with non-negative values and positive total, all n >= 1, all random starting points in [0, total/n)", "why_tests_cant": "the bound must hold for every starting offset in a continuum", "anchors": ["leap_ec/ops.py: sus_selection, compute_population_values"]}
{"id": "C17", "title": "Proportional-selection values: validated, non-negative, order preserving", "statement": "With offset='pop-min' the scaled values are all non-negative and the worst individual's is zero; scaling by offset and a positive integer exponent preserves the order of non-negative shifted keys; proportional_selection and sus_selection raise ValueError exactly when some scaled value is negative, and otherwise never yield an individual with zero value when another has positive value.", "quantifier": "all fitness lists, offsets, exponents and random draws", "why_tests_cant": "universal over fitness values and random draws", "anchors": ["leap_ec/ops.py: compute_population_values, proportional_selection"]}
{"id": "C18", "title": "pool(size) draws exactly `size` individuals and no more", "statement": "pool(size) at the end of a lazy pipeline returns exactly `size` individuals, in production order, and pulls the upstream operators just enough: exactly `size` individuals are selected, cloned, mutated and evaluated (crossover consumes them in pairs), so no evaluation is wasted; if the upstream ends early an error is raised rather than a short pool returned.", "quantifier": "all sizes, all upstream streams, all operator stacks of per-individual operators", "why_tests_cant": "laziness and exact demand is a property of all stacks and sizes", "anchors": ["leap_ec/ops.py: pool, evaluate, clone, iteriter_op"]}
{"id": "C19", "title": "Uniform crossover only swaps genes position by position", "statement": "Uniform crossover of two equal-length genomes leaves at every position the same pair of genes, either kept or exchanged, so no gene value is lost, duplicated or moved to another position; exactly the randomly masked positions are exchanged; lengths are unchanged, and applying the same mask again restores the parents.", "quantifier": "all genomes of equal length and all swap masks", "why_tests_cant": "holds for all genome contents, lengths and masks", "anchors": ["leap_ec/ops.py: UniformCrossover.recombine, random_bernoulli_vector"]}
{"id": "C20", "title": "N-point crossover exchanges alternating segments and conserves genes", "statement": "N-point crossover of two equal-length genomes with chosen cut points leaves at every position the two parents' genes, exchanged exactly when an odd number of cut points lie at or before the position; lengths are conserved and at most num_points changes of source occur; genomes shorter than num_points are rejected with an error.", "quantifier": "all genomes, all num_points, all sets of distinct cut points", "why_tests_cant": "universal over genome contents, lengths and cut point choices", "anchors": ["leap_ec/ops.py: NAryCrossover._pick_crossover_points, recombine"]}
{"id": "C21", "title": "Crossover children are emitted once each, with joint parentage and cleared fitness", "statement": "When crossover is performed both children carry the union of the two parents' recorded parent ids and no fitness; when it is skipped both individuals pass through untouched. With persist_children=True, if a sequence of pipelines is pulled one after another, every child produced is emitted exactly once and in order even when a pipeline stops after an odd number; None is never emitted.", "quantifier": "all sequences of generator creations and pulls in which a superseded generator is not pulled again, all coin flips", "why_tests_cant": "stateful across calls: needs every history of creations and pulls", "anchors": ["leap_ec/ops.py: Crossover.__call__"]}
{"id": "C22", "title": "Bit-flip mutation flips exactly the chosen bits and stays binary", "statement": "mutate_bitflip on a binary genome returns a binary genome of the same length differing from the old one exactly at the randomly chosen positions, clears the fitness, and rejects missing or conflicting rate parameters with ValueError; with probability 1 every bit flips and with probability 0 none.", "quantifier": "all binary genomes, all masks, all parameter combinations", "why_tests_cant": "universal over genomes and masks", "anchors": ["leap_ec/binary_rep/ops.py: mutate_bitflip, genome_mutate_bitflip", "leap_ec/ops.py: random_bernoulli_vector, compute_expected_probability"]}
{"id": "C23", "title": "Bounded mutation keeps every gene inside its bounds", "statement": "After mutate_gaussian or mutate_binomial with bounds, and after mutate_randint, every gene of an in-bounds genome lies within its own (low, high) bounds, inclusive; genes not selected for mutation keep their value; the genome length is unchanged and the fitness is cleared. For gaussian/binomial mutation with bounds this holds even if the incoming genome was out of bounds.", "quantifier": "all genomes, bounds (scalar pair or per gene), masks and noise values", "why_tests_cant": "noise is unbounded: no finite sample of draws can show the bound always holds", "anchors": ["leap_ec/real_rep/ops.py: mutate_gaussian, genome_mutate_gaussian, apply_hard_bounds", "leap_ec/int_rep/ops.py: mutate_randint, individual_mutate_randint, mutate_binomial, genome_mutate_binomial"]}
{"id": "C24", "title": "Segment operators keep variable-length genomes well formed", "statement": "add_segment, remove_segment and copy_segment change the number of segments by at most one per call in the documented direction, leave all other segments in place and in order, never leave a non-empty genome empty, and clear the fitness when the genome changed; a copied segment is an independent copy, so mutating one later does not change the other.", "quantifier": "all segmented genomes, all random positions, all subsequent in-place mutations", "why_tests_cant": "aliasing and boundary positions need all positions and later histories", "anchors": ["leap_ec/segmented_rep/ops.py: add_segment, remove_segment, copy_segment, apply_mutation"]}
{"id": "C25", "title": "Binary-to-integer decoding is big-endian positional value, bijective per segment", "statement": "Decoding a bit segment of length n gives its unsigned big-endian value, which lies in [0, 2^n - 1]; distinct bit strings give distinct values and every value in the range is reached; a genome is split into consecutive segments whose results are independent of each other and of any genomes decoded earlier with the same decoder object.", "quantifier": "all segment descriptors of 1 to 63 bits, all genomes long enough and every history of earlier decodes with the same decoder (of any genomes)", "why_tests_cant": "the decoder object caches powers of two across calls, so every call history matters; bijectivity ranges over all lengths", "anchors": ["leap_ec/binary_rep/decoders.py: BinaryToIntDecoder"]}
{"id": "C26", "title": "Gray decoding is a bijection in which neighbouring integers differ in one bit", "statement": "BinaryToIntGreyDecoder maps bit strings of length n one-to-one onto [0, 2^n - 1], and the bit strings decoding to v and v+1 differ in exactly one position.", "quantifier": "all segment lengths from 1 to 63 and all values", "why_tests_cant": "the adjacency law ranges over all lengths and all values", "anchors": ["leap_ec/binary_rep/decoders.py: BinaryToIntGreyDecoder"]}
{"id": "C27", "title": "Binary-to-real decoding stays inside the requested interval and hits both ends", "statement": "For a segment (n bits, lower, upper) with 1 <= n <= 63 and lower <= upper, the decoded value lies in [lower, upper], integer value 0 gives lower, integer value 2^n - 1 gives upper (for the plain decoder the all-zero and all-one segments), values are equally spaced, and decoding is monotone in the integer value of the segment.", "quantifier": "all segment descriptors and bit strings (exact arithmetic)", "why_tests_cant": "universal over lengths and bounds", "anchors": ["leap_ec/binary_rep/decoders.py: BinaryToRealDecoderCommon, BinaryToRealDecoder, BinaryToRealGreyDecoder"]}
{"id": "C28", "title": "Migration preserves island sizes and never replaces a better individual by a worse one", "statement": "Each application of the migration operator returns a population of the same size as it was given; every slot either keeps its individual or receives an immigrant that is not worse than the individual it displaces, and only individuals emigrated to this island are ever inserted.", "quantifier": "all topologies, populations, selection outcomes, gaps and histories of migration calls", "why_tests_cant": "spans all histories of interleaved island updates and random choices", "anchors": ["leap_ec/ops.py: migrate"]}
{"id": "C29", "title": "Every emigrant is delivered exactly once to a neighbouring island", "statement": "Emigrants leave an island exactly in the generations divisible by the migration gap, one each time; each is an evaluated copy of an individual of the sending island, goes to one out-neighbour of that island, and is considered exactly once, at the receiving island's next migration step; no emigrant is delivered twice or to another island.", "quantifier": "all topologies, gap values, selection outcomes, destination choices and interleavings of island steps in which no call raises", "why_tests_cant": "message-delivery accounting over unbounded histories", "anchors": ["leap_ec/ops.py: migrate"]}
{"id": "C30", "title": "multi_population_ea advances every island once per generation", "statement": "In each generation of multi_population_ea every island's pipeline is run exactly once, in island order, with the context naming that island as current and exposing the other islands' latest populations; the run makes exactly max_generations generations unless stopped earlier.", "quantifier": "all numbers of islands, generations and pipelines", "why_tests_cant": "schedule-shaped claim over all island counts and pipelines", "anchors": ["leap_ec/algorithm.py: multi_population_ea"]}
{"id": "C31", "title": "Generation and birth counters agree with the context they publish", "statement": "After any sequence of increments (of any size) and decrements, the generation or birth counter's own value, the last value it returned and the value published in the context are all the start value plus increments minus decrements, and each registered callback has been invoked exactly once per generation increment with the new value.", "quantifier": "all sequences of counter operations and callback lists", "why_tests_cant": "invariant over all operation histories", "anchors": ["leap_ec/util.py: inc_generation, inc_births"]}
{"id": "C32", "title": "Birth branding assigns each individual one permanent, unique birth number", "statement": "birth_brander gives every unbranded individual it sees the next unused number, never changes an existing brand, and no two individuals branded by the same brander get the same number, whatever the interleaving of direct calls, iterators and lists.", "quantifier": "all histories of calls on one brander", "why_tests_cant": "uniqueness over all histories", "anchors": ["leap_ec/util.py: birth_brander"]}
{"id": "C33", "title": "Pareto comparison is a strict partial order and `>` means dominance", "statement": "For a multi-objective problem `a < b` holds exactly when b is at least as good in every objective (respecting each objective's direction) and strictly better in at least one; the relation is irreflexive, asymmetric and transitive; `a > b` is exactly `b < a`; `a == b` exactly when neither dominates the other.", "quantifier": "all objective vectors of any dimension and all direction vectors", "why_tests_cant": "order laws over all vectors and dimensions", "anchors": ["leap_ec/multiobjective/problems.py: MultiObjectiveProblem.worse_than, equivalent", "leap_ec/individual.py: Individual"]}
{"id": "C34", "title": "Fast non-dominated sorting assigns each individual its true front number", "statement": "After fast_nondominated_sort every individual of the (combined) population has a rank: rank 1 exactly for individuals dominated by nobody, and otherwise one more than the largest rank among the individuals dominating it. No individual is lost, duplicated or left unranked and the procedure terminates.", "quantifier": "all populations of pairwise different individual objects (duplicate fitness vectors included), with or without parents, any number of objectives", "why_tests_cant": "correctness of a fix-point algorithm over all dominance graphs", "anchors": ["leap_ec/multiobjective/ops.py: fast_nondominated_sort"]}
{"id": "C35", "title": "Rank-ordinal sort computes the same fronts as fast non-dominated sort", "statement": "For every population of evaluated multi-objective individuals rank_ordinal_sort assigns exactly the ranks that fast_nondominated_sort assigns.", "quantifier": "all populations of pairwise different individual objects (duplicate fitness vectors included), any number (>= 1) of objectives, no NaN in the fitness vectors", "why_tests_cant": "equivalence of two quite different algorithms on all inputs", "anchors": ["leap_ec/multiobjective/ops.py: rank_ordinal_sort, fast_nondominated_sort"]}
{"id": "C36", "title": "Crowding distance keeps everybody and rewards boundary individuals", "statement": "crowding_distance_calc returns the same individuals it was given (regrouped by rank), sets a non-negative crowding distance on each, and in each rank, for each objective with non-zero spread, an individual with the smallest and one with the largest value get an infinite distance; every other individual gets the sum of the normalised gaps between its neighbours.", "quantifier": "all ranked populations of different individuals with finite fitness vectors", "why_tests_cant": "must hold for degenerate ranks (single individual, identical fitnesses) as well, which tests rarely cover", "anchors": ["leap_ec/multiobjective/ops.py: per_rank_crowding_calc, crowding_distance_calc"]}
{"id": "C37", "title": "NSGA-II survival keeps the population size and the best fronts", "statement": "One generation of generalized_nsga_2 keeps the population size, prefers individuals of lower rank, and among equal rank those with larger crowding distance; in particular a non-dominated individual is not dropped while a dominated one is kept.", "quantifier": "all parent and offspring populations of different individuals with finite fitness vectors", "why_tests_cant": "environmental selection over all rank/distance configurations", "anchors": ["leap_ec/multiobjective/nsga2.py: generalized_nsga_2", "leap_ec/ops.py: truncation_selection", "leap_ec/multiobjective/ops.py"]}
{"id": "C38", "title": "Incremental (ENLU) insertion maintains true non-domination layers", "statement": "Starting from no layers and inserting any sequence of evaluated individuals one at a time, the layers maintained by the asynchronous NSGA-II insertion always contain exactly the inserted individuals and each is in the layer given by its true non-domination rank among them.", "quantifier": "all insertion sequences of distinct evaluated individuals, any number of objectives", "why_tests_cant": "incremental algorithm over all histories; the unit test uses one two-objective population", "anchors": ["leap_ec/multiobjective/asynchronous.py: enlu_inds_rank, _find_start_layer, _split_dominated, _set_domination"]}
{"id": "C39", "title": "Asynchronous NSGA-II population never exceeds its capacity", "statement": "After every insertion the asynchronous NSGA-II population has at most pop_size individuals, grows by one per insertion until full, and when full the individual dropped belongs to the worst layer and has the smallest crowding distance in it.", "quantifier": "all insertion histories of distinct individuals with finite fitness vectors, all capacities, any number of objectives", "why_tests_cant": "invariant over all insertion histories", "anchors": ["leap_ec/multiobjective/asynchronous.py: ENLUInserter"]}
{"id": "C40", "title": "The asynchronous birth budget is respected exactly under every completion order", "statement": "A steady-state asynchronous run whose pipeline produces one offspring at a time terminates with exactly max_births counted births regardless of the order in which evaluations complete; when non-viable individuals are not counted, each failed evaluation (also in the initial population) is compensated by exactly one extra birth; no offspring is submitted once the budget is reached.", "quantifier": "all completion orders, all initial sizes >= 1 and budgets >= 0, all insertion functions that do not raise, all failure patterns (when failures are not counted, termination needs that failures stop at some point; if every evaluation fails the run never ends, which is proved too)", "why_tests_cant": "quantifies over all completion schedules and failure patterns", "anchors": ["leap_ec/distrib/asynchronous.py: steady_state", "leap_ec/util.py: inc_births"]}
{"id": "C41", "title": "The asynchronous population is bounded and its best never gets worse", "statement": "During a steady-state asynchronous run the population never exceeds pop_size, grows by one per completed evaluation until full, then changes at most one slot per completion; with greedy or tournament insertion the incumbent is replaced only by a strictly better newcomer (or when the incumbent is non-viable), so the best viable fitness never gets worse, and every member was evaluated.", "quantifier": "all completion orders, newcomers and random tournament choices", "why_tests_cant": "invariant along every schedule", "anchors": ["leap_ec/distrib/asynchronous.py: steady_state, replace_if, greedy_insert_into_pop, tournament_insert_into_pop"]}
{"id": "C42", "title": "Synchronous distributed evaluation equals local evaluation, in order", "statement": "Evaluating a pool through the distributed client returns the same individuals, in the same order, with the fitness a local evaluation would assign, whatever order workers finish in; failures appear as non-viable individuals and the non-viable counter grows by exactly their number.", "quantifier": "all worker completion orders, pool sizes and failures", "why_tests_cant": "all completion orders", "anchors": ["leap_ec/distrib/synchronous.py: eval_pool, eval_population", "leap_ec/distrib/evaluate.py: evaluate"]}
{"id": "C43", "title": "Any CGP genome within the decoder's bounds decodes to an acyclic, executable circuit", "statement": "Every integer genome whose genes lie within the bounds advertised by a CGPDecoder satisfies its structural constraints, decodes without error to a feed-forward graph (edges only from inputs or earlier layers within levels_back), has exactly one source for every output and the right number of ordered inputs for every primitive node.", "quantifier": "all decoder shapes accepted by the constructor (inputs, outputs, layers, nodes per layer, max_arity, levels_back), all in-bounds genomes; number of inputs for primitives of arity at most max_arity", "why_tests_cant": "ranges over all shapes and genomes", "anchors": ["leap_ec/executable_rep/cgp.py: CGPDecoder, CGPExecutable, create_cgp_vector"]}
{"id": "C44", "title": "Pruning a CGP circuit does not change what it computes", "statement": "For every in-bounds genome and every input vector, the circuit decoded with prune=True yields the same outputs as the one decoded with prune=False, and both equal the value obtained by directly interpreting the genome.", "quantifier": "all decoder shapes, in-bounds genomes, input vectors and primitive functions that return for all arguments (for primitives that may raise: the pruned circuit returns exactly when the outputs have values)", "why_tests_cant": "semantic equivalence for all programs and inputs", "anchors": ["leap_ec/executable_rep/cgp.py: CGPDecoder.decode, prune_graph, CGPExecutable.__call__"]}
{"id": "C45", "title": "CGP initialisation and mutation stay within the constraint set", "statement": "Genomes made by create_cgp_vector and genomes obtained by any number of CGP mutations of an in-bounds genome stay within the decoder's bounds, so they always decode to valid circuits.", "quantifier": "all random draws and any number of mutations, levels_back at least 1", "why_tests_cant": "closure under all random histories", "anchors": ["leap_ec/executable_rep/cgp.py: create_cgp_vector, cgp_mutate, cgp_genome_mutate"]}
{"id": "C46", "title": "Problem wrappers preserve the wrapped problem's meaning", "statement": "Adding a fitness offset never changes which of two phenomes is better; averaging n evaluations of a deterministic problem gives the problem's own fitness and the grouped evaluation gives each phenome the mean of its own n evaluations; an alternating problem uses problem number floor(step/modulo) mod count for every evaluation and comparison, so each problem is active for exactly `modulo` consecutive steps in rotation.", "quantifier": "all phenomes, all wrapped problems (noisy ones included), all finite offsets, all n >= 1, all step sequences, every positive integer modulo; arithmetic is exact", "why_tests_cant": "universal over wrapped problems and step histories", "anchors": ["leap_ec/problem.py: FitnessOffsetProblem, AverageFitnessProblem, AlternatingProblem"]}
{"id": "C47", "title": "Cooperative evaluation puts the evaluated genome in its own species slot", "statement": "In cooperative evaluation the combined solution contains exactly one contribution per subpopulation, in subpopulation order; the contribution of the current subpopulation is the evaluated individual and every other one comes from a member of the corresponding subpopulation; the fitness is the mean over num_trials such combinations.", "quantifier": "all numbers of subpopulations, current indices, collaborators and trials, all selectors that return members of the population they are given; no log stream", "why_tests_cant": "universal over subpopulation structure and random collaborators", "anchors": ["leap_ec/problem.py: CooperativeProblem", "leap_ec/ops.py: CooperativeEvaluate"]}
{"id": "C48", "title": "Bit-string benchmark problems have the documented range and optimum", "statement": "MaxOnes lies in [0, L] and equals L exactly on the target string; LeadingOnes is the length of the longest prefix agreeing with the target (all ones by default), with L exactly for the target; DeceptiveTrap is maximal exactly at all ones while every other string gets better by removing ones; TwoMax is maximal exactly on all-ones and all-zeros strings and is symmetric under complement; ImageProblem counts the agreeing pixels and is maximal exactly on the image.", "quantifier": "all bit strings of all lengths >= 1", "why_tests_cant": "global optimality ranges over 2^L strings for every L", "anchors": ["leap_ec/binary_rep/problems.py: MaxOnes, LeadingOnes, DeceptiveTrap, TwoMax, ImageProblem"]}
{"id": "C49", "title": "Pitt rule systems fire the first exactly matching rule, else a nearest one", "statement": "For every input a Pitt rule set fires a rule whose distance to the input is minimal over all rules (inconsistent low > high intervals match everything); if at least one rule matches exactly, the rule fired is the first exactly matching rule, deterministically.", "quantifier": "all non-empty rule sets in rule-order priority without memory registers, all finite genes, all inputs not longer than the rules' condition lists, all tie-breaking random choices", "why_tests_cant": "universal over rule sets, inputs and random choices", "anchors": ["leap_ec/executable_rep/rules.py: PittRulesExecutable, PittRulesDecoder.genome_to_rules"]}
{"id": "C50", "title": "Parsimony keys order by fitness with the documented length pressure", "statement": "Comparing lexical_parsimony keys prefers the better fitness in the problem's direction and, among equal fitness, the shorter genome; comparing koza_parsimony keys prefers individual a over b exactly when a's fitness advantage exceeds the penalty times the extra length, for both directions.", "quantifier": "all non-NaN fitness values (finite ones and a finite penalty for Koza parsimony), genome lengths and directions; for lexical parsimony also all truncation selections", "why_tests_cant": "universal over fitness/length pairs", "anchors": ["leap_ec/parsimony.py: lexical_parsimony, koza_parsimony"]}
{"id": "C51", "title": "A select-clone-vary-evaluate-pool pipeline never modifies its parents", "statement": "Running a pipeline that selects from a population, clones, applies mutation and crossover operators in place, evaluates and pools leaves every pre-existing individual's genome, fitness, id and parentage unchanged; all pooled offspring are new objects that share no genome storage with the parents or with each other.", "quantifier": "all parent populations, selections, masks, noise, crossover outcomes and pool sizes", "why_tests_cant": "non-interference across all operator outcomes; aliasing bugs appear only in specific combinations", "anchors": ["leap_ec/ops.py: clone, UniformCrossover, NAryCrossover, evaluate, pool", "leap_ec/binary_rep/ops.py: mutate_bitflip", "leap_ec/individual.py: Individual.clone"]}
{"id": "C52", "title": "The O(n) diversity metric equals the sum of pairwise squared distances", "statement": "pairwise_squared_distance_metric, computed from the centroid, equals the sum over all ordered pairs of squared Euclidean distances between genomes (exact arithmetic), is zero exactly when all genomes are equal, and sum_of_variances_metric is that value divided by 2 n^2.", "quantifier": "all non-empty populations of equal-length genomes", "why_tests_cant": "algebraic identity for every population size and dimension", "anchors": ["leap_ec/probe.py: pairwise_squared_distance_metric, sum_of_variances_metric"]}
{"id": "C53", "title": "Random search records every evaluated individual in its trajectory", "statement": "random_search evaluates exactly `evaluations` individuals and returns them all in order of evaluation, with the published generation counter advancing by one per evaluation in the context the caller supplied.", "quantifier": "all numbers of evaluations and supplied contexts", "why_tests_cant": "must hold for every count and context", "anchors": ["leap_ec/algorithm.py: random_search"]}
{"id": "C54", "title": "External evaluation returns the program's numbers in phenome order or raises", "statement": "ExternalProcessProblem sends one line per phenome, in order, with the elements separated by commas; evaluate_multiple returns fitnesses exactly when the program exits with status 0 and prints as many newline-terminated lines as there are phenomes, each of which parses as a number, and then returns those numbers in order; otherwise it raises. evaluate is evaluate_multiple on a single phenome.", "quantifier": "all programs (functions from input to exit status and output), all lists of phenomes, all printing and parsing functions; elements print without commas and newlines", "why_tests_cant": "universal over the behaviour of the external program", "anchors": ["leap_ec/problem.py: ExternalProcessProblem"]}
{"id": "C55", "title": "Pitt-rule genomes decode exactly when well formed, and operators keep them so", "statement": "Without memory registers a genome decodes exactly when it is non-empty and every segment has two genes per input and one per output; rule i then has the consecutive (low, high) gene pairs of segment i as conditions and the remaining genes as actions; otherwise an AssertionError is raised. The decoded system answers every input of the right length. Initial genomes are well formed and within the decoder's bounds. The mutator applies the condition mutator to the condition genes and the action mutator to the action genes of every rule, keeps well-formedness and resets the fitness.", "quantifier": "all decoders without memory and with at least one output, all genomes, inputs, samples of one-dimensional input spaces and length-preserving mutators", "why_tests_cant": "universal over genomes, spaces and mutators", "anchors": ["leap_ec/executable_rep/rules.py: PittRulesDecoder"]}
{"id": "C56", "title": "num_fixated_metric counts the columns in which all genomes agree", "statement": "For integer-valued genomes num_fixated_metric is the number of positions at which all genomes have the same gene; for any genomes it is at least that number.", "quantifier": "all non-empty populations (fewer than 5*10^7 genomes for the equality) of equal-length genomes; arithmetic is exact", "why_tests_cant": "universal over populations; near-constant real columns are miscounted only in rare cases", "anchors": ["leap_ec/probe.py: num_fixated_metric"]}
{"id": "C57", "title": "The polynomial benchmarks compute their formulas and have the documented optima", "statement": "Spheroid is the squared length of the point, nonnegative, and zero exactly at the origin; Rosenbrock is the textbook sum, nonnegative, and (two or more dimensions) zero exactly when all coordinates are 1; the list and array branches agree. Step is integer valued, constant on unit cells and, for coordinates bounded by b, at most n*floor(b), reached exactly when every coordinate lies in the top cell. NoisyQuartic is sum (i+1)*x_i^4 plus the noise, the clean part being zero exactly at the origin. Shekel is strictly between 0 and k, below every foxhole's value, and is the harmonic combination of k and the 25 foxholes.", "quantifier": "all points and noise draws; for Shekel all k > 0, all positive depths and both coordinates; arithmetic is exact", "why_tests_cant": "universal over points; global optimality cannot be sampled", "anchors": ["leap_ec/real_rep/problems.py: SpheroidProblem, RosenbrockProblem, StepProblem, NoisyQuarticProblem, ShekelProblem"]}
{"id": "C58", "title": "Problem transformations move, rescale and rotate the landscape as stated", "statement": "TranslatedProblem evaluates the wrapped problem at x - offset, so its value at x + offset is the original value at x, and points of the wrong length or type are rejected. ScaledProblem maps new bounds affinely onto old bounds: end points to end points, inside to inside, proportions kept. MatrixTransformedProblem evaluates at the matrix image of x, accepts exactly the square matrices, and keeps lengths when the rows are orthonormal.", "quantifier": "all wrapped problems, offsets, bounds with new lower < new upper, square matrices and points; arithmetic is exact", "why_tests_cant": "universal over matrices, bounds and points; length preservation needs the row-to-column orthonormality argument", "anchors": ["leap_ec/real_rep/problems.py: TranslatedProblem, ScaledProblem, MatrixTransformedProblem"]}
{"id": "C59", "title": "QuadraticFamilyProblem is the minimum of its basins and attains its global minimum at the best basin's centre", "statement": "The value at a point is the smallest value of any basin there (each basin is the rotated diagonal quadratic form about its centre plus its offset value). With nonnegative widths the lowest basin's centre attains that basin's value and no point is lower. generate() yields such problems, whose first basins are global minima.", "quantifier": "all dimensions, non-empty basin lists of matching shapes, points, and all random draws of generate(); arithmetic is exact", "why_tests_cant": "universal over basins and points; global optimality cannot be sampled", "anchors": ["leap_ec/real_rep/problems.py: ParabaloidProblem, QuadraticFamilyProblem"]}
{"id": "C60", "title": "random_orthonormal_matrix returns an orthonormal matrix", "statement": "For every dimension n >= 1 and every n-by-n draw with linearly independent rows, random_orthonormal_matrix returns a matrix whose rows have length one and are pairwise perpendicular; whatever is drawn, a matrix that is returned has these properties. In two or more dimensions exactly the linearly independent draws give a matrix; all others fail an assertion.", "quantifier": "all dimensions and draws; arithmetic is exact (real numbers)", "why_tests_cant": "universal over dimensions and draws; needs induction over the Gram-Schmidt loop", "anchors": ["leap_ec/real_rep/problems.py: random_orthonormal_matrix"]}
{"id": "C61", "title": "The transcendental benchmarks have the documented bounds and global optima", "statement": "Rastrigin, Griewank, Ackley and Lunacek are nonnegative and zero exactly at their optimum (the origin, or all coordinates mu_1); Weierstrass with odd b is nonnegative and zero at every integer point; Langermann is bounded by the sum of |c_i|; Schwefel is antisymmetric about alpha*n; Gaussian lies in (0, 1] with its peak exactly at the origin; a CosineFamily value lies within (1+alpha)/2 of zero and is minimal exactly when every (G_i - 1) x_i is whole. Lunacek's default s lies strictly between 0 and 1 for two or more dimensions.", "quantifier": "all points and parameters in the stated ranges; arithmetic is exact (real numbers)", "why_tests_cant": "global optimality over the reals cannot be sampled", "anchors": ["leap_ec/real_rep/problems.py: RastriginProblem, GriewankProblem, AckleyProblem, WeierstrassProblem, LangermannProblem, LunacekProblem, SchwefelProblem, GaussianProblem, CosineFamilyProblem"]}
{"id": "C62", "title": "get_step reports exactly the counter that was asked for", "statement": "get_step returns a step exactly when one counter is asked for (or nothing is asked for and only one counter is in the context) and that counter is present, and then it is that counter's value; with one override set to False and the other left out it returns None; in all other cases it raises AssertionError.", "quantifier": "all contexts with a 'leap' entry and all combinations of the two overrides", "why_tests_cant": "complete case coverage with arbitrary counter values", "anchors": ["leap_ec/util.py: get_step"]}
{"id": "C63", "title": "The multi-objective benchmarks have the documented Pareto sets and fronts", "statement": "A point in the box is Pareto optimal for ZDT1, ZDT2, ZDT4 and ZDT6 exactly when all its coordinates after the first are zero, for ZDT5 exactly when all bits after the first 30 are one, and for SCH exactly when it lies in [0, 2]; a Pareto optimal point of ZDT3 has a zero tail. On these sets the objectives lie on the documented front curves. The phenome check refuses exactly the values outside the range; a phenome without variables raises IndexError, and nothing else is refused.", "quantifier": "all points, all n >= 2 (ZDT4: n >= 1), checking on or off; exact real arithmetic", "why_tests_cant": "Pareto optimality compares with every feasible point of a continuous space", "anchors": ["leap_ec/multiobjective/problems.py: SCHProblem, ZDT1Problem, ZDT2Problem, ZDT3Problem, ZDT4Problem, ZDT5Problem, ZDT6Problem"]}
{"id": "C64", "title": "Decoding a genome into a feed-forward network uses every weight exactly once", "statement": "The decoder accepts exactly the genomes whose length is the number of weights of the declared shape (with one bias row per layer) and fills the layers' matrices with the genome's values, each once and in order; any other length raises ValueError and a shape of fewer than two layers fails the assertion. The network determines the genome. The network's reported sizes are those of its shape, and its graph has one node per unit and per bias and one edge per weight.", "quantifier": "all shapes, all genomes, all networks of a shape", "why_tests_cant": "off-by-one errors in the slicing only show up for particular combinations of layer sizes", "anchors": ["leap_ec/executable_rep/neural_network.py: SimpleNeuralNetworkDecoder, SimpleNeuralNetworkExecutable"]}
{"id": "C65", "title": "Calling a network computes the forward pass", "statement": "Called on an input of the right size, the network returns the composition of its layers, each the activation of the weighted sums with bias; an input of another size raises ValueError. The sigmoid is increasing, symmetric and strictly between 0 and 1; relu keeps positive values and zeroes the rest; softmax gives positive values that sum to 1, keeps the order and is invariant under shifts.", "quantifier": "all networks of a shape, all real inputs, all pointwise activations; exact real arithmetic", "why_tests_cant": "the statement ranges over all weights, inputs and depths", "anchors": ["leap_ec/executable_rep/neural_network.py: SimpleNeuralNetworkExecutable.__call__, sigmoid, softmax, relu"]}
{"id": "C66", "title": "Truth-table fitness is the fraction of input vectors handled correctly", "statement": "The enumeration lists each 0/1 input vector of the given size exactly once. The fitness is the number of input vectors on which the executable's output equals the target's divided by 2^n; it lies in [0, 1] and is 1 exactly when they agree everywhere. Padding appends zeros up to the executable's number of inputs. A fitness is returned only if no call raises and no expected output is empty.", "quantifier": "all n >= 1, all target functions and executables (which may raise), padding on or off", "why_tests_cant": "the functions and the number of inputs are unbounded", "anchors": ["leap_ec/executable_rep/problems.py: TruthTableProblem.evaluate, TruthTableProblem._enumerate_tt"]}
{"id": "C67", "title": "Environment fitness follows from the episodes actually played", "statement": "The problem plays the given number of runs, each started by a reset and following agent and environment step by step; a run lasts the given number of steps, or with stop_on_done until the first step that is terminated or truncated. The reward fitness is the mean over runs of the sum of rewards; the survival fitness is one more than the mean number of steps. The only way to get no fitness is an exception of the environment or the agent. The dimension of a space is the number of its index tuples, summed over a tuple space.", "quantifier": "all environments and agents (stateful, possibly raising), all positive runs and steps, both settings of stop_on_done, both fitness types", "why_tests_cant": "environment and agent are arbitrary state machines", "anchors": ["leap_ec/executable_rep/problems.py: EnvironmentProblem.evaluate, EnvironmentProblem.space_dimensions, EnvironmentProblem._reward_fitness, EnvironmentProblem._survival_fitness, EnvironmentProblem.num_inputs"]}
{"id": "C68", "title": "Argmax and keyboard executables select the documented action", "statement": "The argmax wrapper returns the first index of a largest output and raises ValueError for an empty output. The keyboard executable's action is the mapping of the key pressed last, or 0 once a key with that mapping is released or before any press. The default keymap maps the digit keys 0 to 8 to their digits.", "quantifier": "all wrapped executables and outputs without NaN, all keymaps, all sequences of key events", "why_tests_cant": "event sequences are unbounded; ties must be decided the same way for every vector", "anchors": ["leap_ec/executable_rep/executable.py: ArgmaxExecutable.__call__, KeyboardExecutable, WrapperDecoder.decode"]}
{"id": "C69", "title": "Image-matching fitness is the Euclidean distance over all pixels", "statement": "The executable is asked once for all coordinates, in the order of the flat image. When it gives three channels of the image's size, the fitness is the square root of the sum over all pixels and channels of the squared difference between the image's value and the output with its fraction dropped; it is 0 exactly when every pixel matches. A pixel list that disagrees with the pixel access fails the assertion.", "quantifier": "all image sizes with positive width, all RGB images, all executables giving three channels; exact arithmetic", "why_tests_cant": "row-major and column-major order agree on square symmetric images; the statement ranges over all sizes and images", "anchors": ["leap_ec/executable_rep/problems.py: ImageXYProblem.evaluate, ImageXYProblem.generate_image"]}
{"id": "C70", "title": "The convexity features measure convexity", "statement": "Each test's delta is the difference between the function at a convex combination of two different sample points and the same combination of their fitnesses. For a convex function no delta is positive and the absolute deviation is the negated deviation; for a concave function none is negative and convex_p is 0; for an affine function all are 0. convex_p is the share of deltas below a threshold, which must be negative; the deviations are the mean delta and the mean absolute delta, and the latter is 0 only if all are.", "quantifier": "all functions of vectors of any length, all evaluated samples of at least three, all sequences of draws, all thresholds; exact rational arithmetic", "why_tests_cant": "convexity quantifies over all points; the tests draw random pairs", "anchors": ["leap_ec/landscape_features/exploratory.py: ELAConvexity"]}
{"id": "C71", "title": "Populations are made from exactly the initializer's genomes, seeds first", "statement": "create_population(n) returns n unevaluated individuals with the given decoder and problem whose genomes are the results of n calls of the initializer, in order, or raises what the initializer raises. A random real vector lies within its bounds and every vector within them can be drawn. A seeded initializer first hands out its seeds, each once and in order, then new genomes. Building a repertoire appends the last genome of each run in the order of the problems; a run that is empty or does not end with a (step, individual) pair raises after the earlier genomes were kept.", "quantifier": "all stateful, possibly raising initializers, all n, all seed lists and positions, all draws, all algorithms", "why_tests_cant": "initializers carry hidden state; the seeding depends on the whole history of calls", "anchors": ["leap_ec/individual.py: Individual.create_population", "leap_ec/representation.py: Representation", "leap_ec/real_rep/initializers.py: create_real_vector", "leap_ec/contrib/transfer/sequential.py: PopulationSeedingRepertoire, initialize_seeded"]}
{"id": "C72", "title": "ea_solve returns the best offspring of its run, stays in the box, and breeds as described", "statement": "ea_solve returns the genome of an offspring that no offspring evaluated in the run beats by more than twice the float comparison's tolerance; functions that raise count as NaN. The stream gets one row per generation, never getting worse, ending with the result's fitness. With hard bounds the function is only ever called inside the box. In every generation each gene of each child is the gene of a tournament winner of the current population plus its scaled noise (moved to the nearest bound), taken from the pair's other parent where the swap mask says so; the survivors are children and parents, as many as before, and (fitnesses being distinguishable) the best of both is among them.", "quantifier": "all functions (also raising ones), bounds, standard deviations, population sizes > 0, numbers of generations > 0 and random draws; exact rational genomes; serial evaluation", "why_tests_cant": "the test runs a handful of seeds and looks only at the final fitness", "anchors": ["leap_ec/simple.py: ea_solve", "leap_ec/probe.py: BestSoFarProbe", "leap_ec/algorithm.py: generational_ea"]}
{"id": "C73", "title": "The distribution tests count correctly, accept equal distributions and reject impossible ones", "statement": "collect_distribution returns each output with the number of times it occurred, adding up to the number of samples. Normalizing two dicts aligns their amounts over the union of the keys, ascending, with 0 for missing keys. stochastic_equals compares amounts when there is one key, raises when totals differ, and otherwise decides by the chi-squared tail at Pearson's statistic; equal distributions are accepted at every threshold and an observed outcome that is expected with amount 0 is rejected at every positive threshold, provided no key has amount 0 on both sides. equals_uniform tests against equal shares, and in exact arithmetic never fails the totals check.", "quantifier": "all stateful functions, all dicts without repeated keys, all thresholds, all tail functions that are 1 at 0, 0 at infinity and NaN at NaN; exact rational amounts", "why_tests_cant": "the doctests look at six dicts; the interplay of zero cells, NaN and in-place changes does not occur in them", "anchors": ["leap_ec/statistical_helpers.py: collect_distribution, _normalize_dicts, stochastic_chisquare, stochastic_equals, equals_uniform, equals_gaussian"]}
{"id": "C74", "title": "FitnessStatsCSVProbe writes one row per measured generation under a matching header", "statement": "Every call returns the population unchanged. Exactly the calls at generations divisible by modulo append a row, holding job, notes, step, the best fitness over all calls so far (measured or not), mean, standard deviation, minimum and maximum of the population's fitness, and the extra metrics. With entries free of commas, newlines and leading spaces, reading the text back as CSV gives the comment lines, the header and the rows, each with as many fields as the header. Minimum <= mean <= maximum, and the deviation is 0 iff all fitnesses are equal; a NaN fitness makes all four NaN. Empty populations and modulo 0 raise without writing.", "quantifier": "all configurations, all histories of calls with any populations, all renderings of numbers as text; exact rational fitnesses, infinities and NaN", "why_tests_cant": "the doctest looks at one run with one configuration; which rows exist and what bsf covers depends on the whole history", "anchors": ["leap_ec/probe.py: FitnessStatsCSVProbe.__init__, __call__, write_header, write_comment"]}
{"id": "C75", "title": "AttributesCSVProbe records every individual once, with the columns its header names", "statement": "The constructor fails iff neither a stream nor a dataframe was asked for. Each call returns the population unchanged and appends one line (and one dataframe row) per individual in order, or one for the best individual if best_only; under each column name stands the last of step, attributes, job, notes, fitness, genome and extra metrics of that name; no row has fields the header lacks. An individual lacking an attribute raises ValueError, with the rows before it kept. If no genome changes in place, the dataframe equals what the stream got after the header.", "quantifier": "all configurations, populations, heaps of genomes and histories of calls; extra metrics that do not raise", "why_tests_cant": "the doctests use one population and distinct column names; aliasing between dataframe and genomes shows only when genomes change afterwards", "anchors": ["leap_ec/probe.py: AttributesCSVProbe.__init__, __call__, get_row_dict, dataframe"]}
{"id": "C76", "title": "Steady-state NSGA-II keeps the best of everything evaluated, and spends its budget exactly", "statement": "While every evaluation gives a full finite fitness vector, in any order of completion: each individual submitted is evaluated or waiting exactly once, with the fitness of its own genome; the population is what was evaluated minus what was dropped, min(pop_size, evaluated) individuals in non-empty layers numbered by rank, with crowding distances computed per layer; for one or two objectives the ranks are the true Pareto front numbers, the one dropped has the worst rank and smallest crowding distance, and a non-dominated individual is dropped only if nobody in the pool dominates anybody. With one offspring per completion the run ends after exactly max_births offspring. A failing evaluation ends the run with TypeError. sort_by_dominance is a stable sort by rank, then decreasing distance.", "quantifier": "all directions, population sizes, budgets, completion orders, evaluation outcomes, offspring pipelines and numbers of completions", "why_tests_cant": "the order of completions and the dropped individuals depend on scheduling; tests run a few generations of one problem and do not check ranks along the run", "anchors": ["leap_ec/multiobjective/asynchronous.py: steady_state_nsga_2, ENLUInserter", "leap_ec/distrib/asynchronous.py: steady_state", "leap_ec/multiobjective/ops.py: sort_by_dominance", "leap_ec/individual.py: RobustIndividual.evaluate"]}
{"id": "C77", "title": "auc is the area under the curve of next recorded values; max_value is the largest value", "statement": "For distinct times and no missing entry, auc returns the sum over the units of time between the first and the last row of the value recorded next at or after the unit's end; the order of the rows and the sorting algorithm do not matter. It is bounded by the extreme values times the time span, monotone, affine in the values, and ignores the first row's value. Without rows it raises ValueError, a missing time or value gives a missing result. max_value is the largest of the values present, missing iff there is none.", "quantifier": "all curves with integer times and rational values, all sorts by time", "why_tests_cant": "the doctests measure a few fixed curves with evenly spaced times; order independence and the area law are about all curves", "anchors": ["leap_ec/contrib/analysis.py: auc, max_value"]}
{"id": "C78", "title": "CurveAnalyzer's tables hold, for each group, exactly the mean and deviation of its rows", "statement": "The constructor accepts iff metric and experiment columns are named and all named columns exist, else AssertionError; so a FitnessStatsCSVProbe table is accepted iff it has a job and the experiment columns. avg_curves has one row per time and experiment that occur, in order, with mean and sample variance of the values present; scalar_metrics_per_run one row per run and experiment with the measure of the run's curve; avg_scalar_metrics one row per experiment with mean and variance over the runs. auc never fails there. If all runs were recorded at the same times, the mean area is the area under the mean curve. Rows without experiment change nothing; files sharing no run do not disturb each other.", "quantifier": "all data frames, metrics, measures and column lists; complete designs for the exchange of averages", "why_tests_cant": "the doctest uses one generated frame and checks the printed tables; grouping, missing keys and exchange of averages concern all frames", "anchors": ["leap_ec/contrib/analysis.py: CurveAnalyzer.__init__, avg_curves, scalar_metrics_per_run, avg_scalar_metrics, cat_csv_files"]}
{"id": "C79", "title": "A metrics plot shows exactly one point per measured call and metric, inside the smallest box", "statement": "For a new PopulationMetricsPlotProbe with at least one metric and a non-zero modulo: as long as nothing raises at the calls whose generation is a multiple of modulo, every call returns its population, the probe's x series and each metric's series hold the values at the measured calls in order, line j of the axes shows metric j, other lines stay as they were, and the box for autoscaling is the smallest one around the values and the given limits (no NaN). On axes without other lines its lines are all there is. FitnessPlotProbe's line is the fitness of a best member of each measured population. If a metric raises once, its series stays behind for ever: at most one later measured call does not raise, none if there was a measured call before.", "quantifier": "all metrics, axes, limits, moduli and histories of calls, including failing ones", "why_tests_cant": "the doctests draw one plot; alignment of the series after any history, and what follows a failure, concern all histories", "anchors": ["leap_ec/probe.py: PopulationMetricsPlotProbe, FitnessPlotProbe"]}
{"id": "C80", "title": "Scatter plots show the last measured population, all of it inside the view", "statement": "For every history of calls of CartesianPhenotypePlotProbe (phenomes of at least two finite numbers) or SumPhenotypePlotProbe (finite phenomes and fitnesses) with non-empty measured populations: every call returns its population, the points shown are those of the last measured population in order, all of them and the configured limits lie inside the view, and every limit of the view is the configured one or a coordinate of some point shown before. Empty populations raise ValueError, short phenomes IndexError without changing the plot. ParetoPlotProbe2D shows the first two fitness components of each individual in the smallest box. The fitness curve of SumPhenotypePlotProbe for non-negative limits is sampled at exactly lo, lo+g, ... up to hi, at bit strings of length hi with that many ones in front.", "quantifier": "all histories of populations, limits, moduli and granularities as stated", "why_tests_cant": "the doctests only draw; that no population of any run is left outside the view needs all histories", "anchors": ["leap_ec/probe.py: CartesianPhenotypePlotProbe, SumPhenotypePlotProbe, HistPhenotypePlotProbe, HeatMapPhenotypeProbe", "leap_ec/multiobjective/probe.py: ParetoPlotProbe2D"]}
{"id": "C81", "title": "Every CSV log can be read back: exactly one row per event, with its values", "statement": "What the csv writers of LEAP produce is read back by csv.reader field by field, whatever characters the fields contain (with '\\n' as line terminator: unless a field has a carriage return). So the migration metric's log is its header and one row per competing immigrant with notes, generation, both fitnesses and outcome (note names distinct from the columns); log_worker_location's is one row per individual, or AttributeError and nothing written; log_pop's is one row per member of the populations of calls 0, u, 2u, ... labelled with the number of the call (u = 0 always raises; an individual without an attribute raises after those before it are written, and the call number does not advance); CooperativeEvaluate's log has num_trials * (subpopulations + 1) rows, listing each trial's collaborators in order and their combination, whose mean fitness is the one assigned. A log opened on a stream that already holds rows keeps them: reading back gives the old rows, the header if one was asked for, and the new rows.", "quantifier": "all texts, notes, individuals, populations, histories of calls, update intervals, collaborator selectors", "why_tests_cant": "the doctest shows one row without special characters; genomes and notes may contain commas, quotes and newlines, and the claims are about all histories", "anchors": ["leap_ec/ops.py: migration_metric, CooperativeEvaluate.__init__, CooperativeEvaluate._log_trial", "leap_ec/distrib/probe.py: log_worker_location, log_pop"]}
{"id": "C82", "title": "A saved repertoire of numeric genomes can be loaded and applied again", "statement": "For every list of genomes of numbers whose texts float() reads back as the same number, writing the repertoire with export and creating a PopulationSeedingRepertoire from that file gives the same genomes, in the same order, with a float for every gene (empty genomes included), and doing so once more changes no number; a gene whose text is not a number makes loading raise ValueError; apply hands the algorithm a new initializer whose first population of n holds the first n saved genomes and then new ones.", "quantifier": "all repertoires, all texts of numbers without separators, all algorithms, initializers, problems and population sizes", "why_tests_cant": "No test writes a repertoire to a file or reads one; quoting, empty genomes, text genes, integer genomes and the line ends of other systems are unbounded in number, and the initializer of a second application is never compared with that of the first.", "anchors": ["leap_ec/contrib/transfer/sequential.py:57-65", "leap_ec/contrib/transfer/sequential.py:92-101", "leap_ec/contrib/transfer/sequential.py:104-131"]}
{"id": "C83", "title": "A two-dimensional plot shows the problem's fitness on the whole grid", "statement": "For every function, ranges x0<x1 and y0<y1, granularity g>0 and padding array, plot_2d_function and plot_2d_contour draw on the grid of all points x0+i*g<x1, y0+j*g<y1, and the height at column i, row j is the function's value at [x_i, y_j] followed by the padding, whenever the function is defined on the grid and its first value is a float; plot_2d_problem uses the problem's bounds where no range is given and then 50 points in each direction; a failing point ends the plot with its exception, and unusable arguments are refused before any evaluation.", "quantifier": "all functions, ranges, granularities, paddings, bounds and keyword arguments", "why_tests_cant": "Tests compare no drawn value with the function; ranges, granularities and functions are unbounded, and the type of a vectorised function, its repeated first call and the missing keyword arguments of contours only show for particular functions and arguments.", "anchors": ["leap_ec/real_rep/problems.py:1576-1656", "leap_ec/real_rep/problems.py:1662-1716", "leap_ec/real_rep/problems.py:1722-1778"]}
{"id": "C84", "title": "Rule and network pictures show what the best individual does", "statement": "For every population with a best individual whose genome is a decodable list of rules, PlotPittRuleProbe replaces the rectangles on its axes by one rectangle per rule, in order; a point within the axes lies in a rectangle exactly when it meets the rule's first two conditions (an empty interval covers the whole axis), and the rectangle is blue exactly when the first action rounds to 0; hence for systems with two inputs and one output the first rectangle at a point tells whether the executable answers 0 there. GraphPhenotypeProbe draws, in every modulo-th generation, each node and each weighted edge of a best individual's network once, with widths proportional to the weights if asked for, and otherwise leaves the picture alone.", "quantifier": "all populations, genomes, limits, decoders, generations, networks and weight multipliers", "why_tests_cant": "Pictures are not compared with the executables in any test; rule sets, wildcard intervals, overlapping boxes and networks are unbounded, and the interval and dimension arguments are never set to anything but their defaults.", "anchors": ["leap_ec/executable_rep/rules.py:774-856", "leap_ec/executable_rep/rules.py:363-400", "leap_ec/executable_rep/neural_network.py:211-255"]}
{"id": "C85", "title": "Performance-curve pictures and the analysis commands show the recorded data", "statement": "For every frame of recorded rows, plot_curves draws exactly one line per run of each experiment, through exactly the rows of that run in their order and in the colour its legend gives the experiment, and plot_avg_curves draws one line per experiment through the means over its runs at each recorded time in increasing order, with the deviations as error bars; plot_scalars_bar draws one box per experiment from the measures of its runs. The legend lists every experiment once, with different colours for up to ten experiments. The command all succeeds exactly if the needed columns are there and the metric is one of the five of the fitness probe; its two legends agree; and its option modulo removes exactly the points at times that are no multiples from all lines and changes nothing else about them. analyze makes the tables of all rows of all files in order, a column missing from a file counting as missing values, and the combined file it writes can be plotted.", "quantifier": "all frames, columns, metrics, measures, files, numbers of experiments and runs, and modulo values", "why_tests_cant": "No test looks at the pictures; the number of experiments, runs, files and missing entries is unbounded, and that thinning commutes with grouping and averaging is a statement about all of them.", "anchors": ["leap_ec/contrib/analysis.py:186-306", "leap_ec/contrib/analysis.py:327-349", "leap_ec/contrib/analysis.py:355-418", "leap_ec/contrib/analysis.py:442-455"]}
{"id": "C86", "title": "The worker logging plugin prints each message once, at the level of the last fresh set-up", "statement": "For every sequence of set-ups, tear-downs and log calls on the workers of a process, starting from the import of the module: the first set-up on a worker prints one INFO line naming it and a later one only the warning 'already has a logger'; a tear-down prints one line; a log call on a worker that was set up prints exactly one line with the host name, process id, level and message if its level is at least DEBUG (INFO) when the last set-up that was its worker's first was verbose (not verbose), and nothing otherwise; log calls and tear-downs on workers never set up raise AttributeError and print nothing. Lines already printed stay. A second set-up does not change what later calls print. A worker that comes with its own logger keeps it. (The verbosity is shared by all workers of a process, and lines do not name the worker: shown by counterexamples.)", "quantifier": "all sequences of plugin and logging events over any number of workers, all levels and messages", "why_tests_cant": "The level is global state changed by set-ups in any order; which set-up was the last fresh one depends on the whole unbounded history.", "anchors": ["leap_ec/distrib/logger.py:18-54", "leap_ec/distrib/logger.py:57-105"]}
{"id": "C87", "title": "Printing operators hand on what they get and print each item once, in a readable way", "statement": "print_individual yields exactly the individuals it pulls, in order, and writes one line (prefix and str of the individual) for each when it is pulled; if the upstream iterator raises, nothing is printed for that pull and the exception goes on (StopIteration as RuntimeError). print_probe returns the populations it is given and writes prefix and str of the probe's value, so that the sequence of values can be read off the stream; a raising probe writes nothing. print_population writes a line of generation, genome and fitness per individual, print_list one line with all elements. str of an individual determines its class, id and fitness.", "quantifier": "all iterators, populations, probes, prefixes, stream contents and numbers of pulls", "why_tests_cant": "The claims are about unboundedly many pulls of arbitrary, possibly failing iterators and about arbitrary texts; a test sees one stream.", "anchors": ["leap_ec/probe.py:22-69", "leap_ec/util.py:29-42", "leap_ec/util.py:272-297", "leap_ec/individual.py:255-256"]}
{"id": "C88", "title": "Operator decorators change nothing in a well connected pipeline and stop a misconnected one at the first bad connection", "statement": "For every pipeline of operators decorated with iteriter_op, listlist_op, listiter_op or iterlist_op: if each operator gets the kind of thing (list or iterator) its predecessor's decorator promises, no required argument is missing and the functions keep their promises, the pipeline does exactly what the undecorated functions would do, in results, exceptions and effects. If an operator gets the wrong kind, ValueError is raised, with exactly the effects of the operators before it; if those are all generator functions, with no effects at all. If a required argument was not given, the next operator raises ValueError (in the last place the curry object is returned). A function returning the wrong kind raises ValueError after it has run. Conversely a pipeline that runs to its end was well connected and returned what the functions return.", "quantifier": "all lists of operators, all functions inside them, all inputs and states", "why_tests_cant": "Quantifies over arbitrary operator functions and pipelines of any length; tests can try a few combinations.", "anchors": ["leap_ec/ops.py:75-232", "leap_ec/util.py:22-26", "leap_ec/algorithm.py:134"]}
{"id": "C89", "title": "segmented_mutate applies the j-th mutator to the j-th segment and to nothing else", "statement": "For every sequence of individuals whose segments are pairwise different arrays, and every list of mutators (writing in place or returning a new array) that succeed: each individual gets exactly as many segments as before, the j-th being what the j-th mutator makes of the old j-th segment; its fitness is cleared; the segments of the results are again pairwise different; every other array keeps its contents. With a number of mutators different from the number of segments the turn raises and changes nothing. If a mutator raises, the exception comes through, later segments and all other arrays are unchanged, and the individual keeps its list of segments and its fitness.", "quantifier": "all sequences of individuals, all genomes, all mutator behaviours", "why_tests_cant": "Quantifies over arbitrary mutators, aliasing patterns and histories; tests fix a few mutators on one genome.", "anchors": ["leap_ec/segmented_rep/ops.py:70-88"]}
{"id": "C90", "title": "A whole generational run keeps every population valid, separate and truthfully scored", "statement": "For every run of generational_ea whose pipeline selects, clones, varies (by any mutation and crossover operators that keep genomes inside a set D), evaluates and pools, started from genomes in D: every population of the run has the right size and consists of distinct individuals with distinct genome arrays, all genomes are in D, and at the end of the run the fitness of every individual that was ever in a population is exactly the score of its genome; objects that existed before the run are unchanged; the generation counter and the context show the number of completed generations. With at least one elite (and no two values identified by the float tolerance) the best of a later population is never worse than any member of an earlier one. If no operator raises on D and evaluation succeeds on D (or the individuals are robust) the run completes after exactly the requested number of generations. In particular MaxOnes runs with bit-flip mutation and uniform crossover always complete on fixed-length bit strings, with fitness equal to the number of ones.", "quantifier": "all operators, genome sets, random draws, population sizes, numbers of generations and starting heaps", "why_tests_cant": "Quantifies over all operators, draws and lengths of runs, and over aliasing in the heap of mutable individuals; a test runs a few generations with fixed seeds.", "anchors": ["leap_ec/algorithm.py:119-141", "leap_ec/ops.py:829-900", "leap_ec/individual.py:91-104"]}
{"id": "C91", "title": "Runs in the standard representations never leave the search space", "statement": "A generational run on integer vectors (create_int_vector, any mixture of uniform and n-point crossover, random-integer mutation and binomial mutation with proper rates) or on real vectors (create_real_vector, crossovers, Gaussian mutation, finite hard bounds) always completes, and every individual that was ever in a population has each gene within its own bounds and a fitness equal to the score of its genome. A run that evolves cartesian genetic programs for a truth table always completes, every individual decodes to a feasible program, its fitness is the exact fraction of the 2^n inputs on which that program computes the target, whatever node outputs were left over from earlier calls; with elites (and 2^n < 10^9, so that the float tolerance cannot blur two fractions) the number of solved rows of the best program never falls.", "quantifier": "all bounds, operator sequences, random draws, selection decisions, population sizes, generations, decoders and target functions", "why_tests_cant": "Quantifies over every pipeline built from the operators and over all draws of a run of any length; tests check one operator on a few genomes.", "anchors": ["leap_ec/algorithm.py:119-141", "leap_ec/int_rep/ops.py:64-108", "leap_ec/int_rep/initializers.py:15-42", "leap_ec/real_rep/ops.py:20-73", "leap_ec/executable_rep/cgp.py:435-476", "leap_ec/executable_rep/problems.py:141-195"]}
{"id": "C92", "title": "Wrapped problems compose: value, direction, bounds and optimum of a tower", "statement": "For any stack of TranslatedProblem, ScaledProblem, MatrixTransformedProblem, FitnessOffsetProblem and AverageFitnessProblem around a deterministic problem: it can be built exactly when every wrapper finds what it asks for below it (a maximize attribute unless told one, bounds for a rescaling, a square matrix, n > 0; averages have neither maximize nor bounds). Its direction is that of the outermost wrapper told one, otherwise the base's; its bounds are those of the outermost rescaling, otherwise the base's, and none above an average. The fitness of an array is the base's fitness at the composed image point plus the sum of the offsets, and the image is unique. With orthonormal matrices an optimum of the base pulled back through the tower is an optimum of the tower. With rescalings and offsets only, a point is within the declared bounds exactly if its image is within the base's bounds; after a translation that fails (the only optimum can lie outside the declared bounds). A Python list is refused with ValueError or treated like an array according to the first wrapper that touches the point.", "quantifier": "all stacks of wrappers of any height, all offsets, bounds and matrices, all dimensions, all base functions and points", "why_tests_cant": "Quantifies over stacks of any height and over all base functions; the doctests check single wrappers around particular functions.", "anchors": ["leap_ec/real_rep/problems.py:1267-1275", "leap_ec/real_rep/problems.py:1306-1329", "leap_ec/real_rep/problems.py:1347-1368", "leap_ec/real_rep/problems.py:1468-1477", "leap_ec/real_rep/problems.py:1557-1561", "leap_ec/problem.py:277-303", "leap_ec/problem.py:335-345"]}
{"id": "C93", "title": "Whole NSGA-II runs keep the Pareto front while it fits, and the best value of every objective", "statement": "In a run of generalized_nsga_2 whose pools always consist of different individuals with finite fitness vectors, each front varying in some objective: the population keeps its size, the run never raises and executes the requested generations unless stopped; if the first front of every pool fits into the population, the first front of the final population is exactly the Pareto front of all individuals ever evaluated; if the population has at least two places per objective, then for every objective some final individual is at least as good as everyone ever evaluated. Without the fit an individual dominated by an earlier, lost one can be in the final population, and in a smaller population the best value of an objective can be lost (both shown by witnesses).", "quantifier": "all numbers and directions of objectives, pipelines, stop conditions, initial populations and numbers of generations", "why_tests_cant": "A statement about everything evaluated during a run of any length with any pipeline; tests run a few generations of one benchmark and look at the final population.", "anchors": ["leap_ec/multiobjective/nsga2.py:102-133", "leap_ec/multiobjective/ops.py:112-168", "leap_ec/multiobjective/ops.py:173-282"]}
{"id": "C94", "title": "Exact odds of tournament selection and of uniform crossover", "statement": "Tournament selection over n individuals with k entries has n^k equally likely draws. If no two float fitnesses blur into each other, the winner is no better than a fitness f in exactly m^k of them, where m individuals are no better than f (and no worse than f in m^k when selecting the worst). An untied individual that is preferred to m others wins exactly (m+1)^k - m^k draws; of two untied individuals the preferred one wins at least as often, strictly more often for k >= 2; tied individuals win equally often wherever they stand in the population. Uniform crossover with swap probability p gives a child with the product of the chances of its genes: 1 where the parents agree, p for the other parent's gene, 1 - p for the own one.", "quantifier": "all populations, tournament sizes, fitness values and directions; all genomes, children and swap probabilities", "why_tests_cant": "Statements about exact counts over all n^k draws (all 2^n masks) for every n and k; tests sample a few random draws and can only compare frequencies.", "anchors": ["leap_ec/ops.py:906-953", "leap_ec/ops.py:479-501", "leap_ec/individual.py:198-253"]}
{"id": "C95", "title": "Crossover alone never makes a new gene; one mutation can reach every genome", "statement": "A whole run of generational_ea whose pipelines clone, cross over (uniform or n-point) and evaluate keeps every genome composed of genes that some starting individual had at the same position. One bit-flip mutation with a rate strictly between 0 and 1 can turn any bit string into any other of its length, and with rate 1 only into the complement; one random-integer mutation with a positive rate can turn any genome into any genome within the bounds; one Gaussian mutation with positive standard deviations and a non-zero slope can turn any genome into any genome within the bounds.", "quantifier": "all genome lengths, bounds, rates, starting populations, problems, stop conditions and numbers of generations", "why_tests_cant": "Reachability asks for the existence of draws for every pair of genomes, and the closure under crossover ranges over runs of any length; sampling shows neither.", "anchors": ["leap_ec/algorithm.py:119-141", "leap_ec/ops.py:479-501", "leap_ec/ops.py:578-612", "leap_ec/binary_rep/ops.py:62-96", "leap_ec/int_rep/ops.py:64-108", "leap_ec/real_rep/ops.py:79-139"]}
{"id": "C96", "title": "Exact chances of proportional selection and of mutation", "statement": "proportional_selection returns an individual for exactly the draws u of an interval whose length is its share of the total of the scaled values. With draws uniform on a grid of N points of the unit interval, the number of bits flipped by mutate_bitflip, averaged over all draws, is at least the expected number of mutations asked for and exceeds it by at most len/N; it is exactly that number when the rate lies on the grid. The number of draws that give a particular mutant depends only on the number k of bits in which it differs: c^k * (N-c)^(len-k) with c grid points below the rate. A redrawn integer gene takes every value of its inclusive range equally often.", "quantifier": "all populations, keys, offsets and exponents; all genome lengths, rates, grids and mutants; all integer ranges", "why_tests_cant": "Exact distributions over all draws for all sizes; tests can only compare sample frequencies within a tolerance for one configuration.", "anchors": ["leap_ec/ops.py:618-673", "leap_ec/binary_rep/ops.py:62-96", "leap_ec/ops.py:1453-1472", "leap_ec/ops.py:1501-1520", "leap_ec/int_rep/ops.py:99-104"]}
{"id": "C97", "title": "Whole island runs keep islands and generations separate and truthfully scored", "statement": "In a run of multi_population_ea whose pipeline selects, clones, varies, evaluates, pools and migrates, no individual object and no genome array ever belongs to two islands or to two generations, every island has its configured size in every generation, every genome stays in the search space, and every individual of every generation is still, at the end of the run, exactly the object it was when its generation was recorded. When all islands share one problem, or the customs stamp gives an immigrant the island's problem and evaluates it again, every member of an island carries that island's problem and the fitness which that problem gives its present genome. Such runs complete when the operators work and every island has a neighbour. Without a stamp and with different problems the last claim fails: an immigrant keeps its home problem and fitness and can displace residents although it is worthless on the new island.", "quantifier": "all topologies, migration gaps, migrant and replacement selectors, numbers and sizes of islands, pipelines, decoders, problems, genomes, random draws and numbers of generations", "why_tests_cant": "Aliasing through the waiting lists, the in-place replacement and the clones shows only for particular sequences of migrations, and the claim concerns all islands in all generations at once.", "anchors": ["leap_ec/algorithm.py:147-292", "leap_ec/ops.py:1123-1250", "leap_ec/individual.py:118-151"]}
{"id": "C98", "title": "Whole runs on segmented genomes keep individuals separate, well formed and truthfully scored; copies never diverge", "statement": "In every run of generational_ea whose pipeline clones, optionally crosses with NAryCrossover, applies any sequence of segment operators (add, remove, copy, apply_mutation, segmented_mutate) and evaluates, provided crossover and copy_segment are not both used: at the end every individual of every generation still has the fitness of its present segments; two different individuals have no array in common; no genome is empty; all segments stay in any set closed under the initializer and the mutators; arrays that existed before are untouched; population sizes are as planned; with elites the best value never gets worse; and runs of operators that cannot fail complete. Without crossover and with in-place mutators, copying and mutation never produce a genome with more different segments than the longest founder had. With crossover and copy_segment together the first claim fails.", "quantifier": "all initial genomes, all operator sequences and random draws, all numbers of generations, all in-place or array-returning mutators, all fitness functions", "why_tests_cant": "Aliasing between segments shows only after copying, cloning, crossover and mutation over several generations; the statement quantifies over all such histories.", "anchors": ["leap_ec/segmented_rep/ops.py:18-220", "leap_ec/individual.py:118-151", "leap_ec/ops.py:389-412", "leap_ec/ops.py:578-612", "leap_ec/algorithm.py:119-141"]}
{"id": "C99", "title": "Whole runs of cooperative coevolution score every individual in real teams of the newest collaborators", "statement": "In every run of multi_population_ea with const_evaluate and cooperative evaluation (CooperativeEvaluate in the pipeline, or a CooperativeProblem with grouped_evaluate in groups of any size) that returns: in each generation and each species there are exactly pool-size children of members of that species; the fitness of each is the mean score of num_trials teams with one member per species in order, itself in its own slot, collaborators of earlier species from this generation and of later species from the previous one. So species never mix, no made-up initial fitness survives one generation, every fitness lies in the range of scores and is matched from above and below by teams that were really scored; individuals of the last species met only individuals that are returned. Runs complete if operators and scoring do. With the default init_evaluate a CooperativeProblem raises KeyError in the first run of a process.", "quantifier": "all numbers and sizes of species, all selection, mutation and collaborator choices among members, all scoring functions, all numbers of trials, group sizes, generations and stop predicates", "why_tests_cant": "Which generation a collaborator comes from depends on the order of updates inside a generation; a test sees plausible fitness values either way.", "anchors": ["leap_ec/ops.py:272-320", "leap_ec/ops.py:1324-1428", "leap_ec/problem.py:461-524", "leap_ec/algorithm.py:255-292", "examples/advanced/coevolution.py", "examples/advanced/coevolution_via_fitness_functions.py"]}
{"id": "C100", "title": "Elitist runs with mutation find a solution in the end, at least as fast as a stated rate", "statement": "Take generational_ea with any selection, a clone-mutate-evaluate pipeline of at least one child and at least one elite, and any target genome h. Suppose that from every genome of the search space at least s of the K equally likely draws of the mutator give h. Then of the K^(size*T) equally likely ways T generations can turn out, at most (K-s)^(size*T) end without an individual at least as good as h; no run raises or hangs (those would count as misses). So for every B some number of generations makes the share of misses at most 1/B. For mutate_bitflip on n bits s = m^n of K = N^n draws of an N-point grid, m the smaller of the numbers of grid points below and above the rate; for mutate_randint s = (below*M)^n of K = (N*L)^n. Without elites the bound fails.", "quantifier": "all populations, selections (also adversarial ones that look at the whole state), search spaces, mutators, problems whose values are told apart by the comparison, targets, sizes, numbers of generations", "why_tests_cant": "A test observes single runs; the claim counts all outcomes of all draws of whole runs and holds for every selection rule.", "anchors": ["leap_ec/algorithm.py:50-142", "leap_ec/ops.py:829-900", "leap_ec/binary_rep/ops.py:20-98", "leap_ec/int_rep/ops.py:20-108"]}
{"id": "C101", "title": "Failed evaluations under several objectives: equal to everyone, ranked first, and the end of every NSGA-II run", "statement": "RobustIndividual gives an individual whose evaluation raises the fitness nan. Under a MultiObjectiveProblem such an individual compares as equal to every other and never as worse (the documentation says it is always worse). fast_nondominated_sort puts all failed individuals into front 1 and numbers the fronts of the others as if they were absent; rank_ordinal_sort gives k failed individuals rank k and each other k plus its front number among the others, so the two sorts, documented as identical, disagree by exactly k. A generation of generalized_nsga_2 with a failed individual among parents and offspring raises TypeError with either ranking; a whole run equals the run without failures until the first such generation and raises there; a run that returns never had a failed individual in a pool.", "quantifier": "all numbers and directions of objectives, populations, sets of failed individuals, pipelines, stop conditions and numbers of generations", "why_tests_cant": "Tests never combine RobustIndividual with several objectives; the claim covers every placement and number of failures in sorts of any size and in runs of any length.", "anchors": ["leap_ec/individual.py:256-301", "leap_ec/multiobjective/problems.py:67-115", "leap_ec/multiobjective/ops.py:21-168", "leap_ec/multiobjective/ops.py:173-282", "leap_ec/multiobjective/nsga2.py:105-133"]}
{"id": "C102", "title": "A run fails only with what one of its parts raised", "statement": "For every set E of exceptions: if the variation operators, the scoring and the selectors of a run raise only exceptions in E (where Python turns a StopIteration raised inside a generator into RuntimeError, that counts as RuntimeError), then a run that fails, fails with an exception in E. The algorithms' own exceptions must be in E only when the matching misuse is present: IndexError for a selection from nobody or an island without neighbour, ZeroDivisionError for a migration gap of 0 or expected-count mutation of a genome without segments, ValueError for zero trials, chunks of size 0 or copying a segment from none, NameError for a wrong number of mutators, RuntimeError for more crossover points than segments, KeyError for a context that was never set. Holds for whole generational runs, island-model runs, runs on segmented genomes, both kinds of cooperative coevolution, and histories of migrations.", "quantifier": "all exception sets, problems, decoders, operators, selections, pipelines, stop conditions, population sizes and numbers of generations", "why_tests_cant": "That nothing else can escape from any run of any length is a statement about all executions; tests see only the failures they provoke.", "anchors": ["leap_ec/algorithm.py:23-159", "leap_ec/algorithm.py:164-292", "leap_ec/ops.py:1123-1249", "leap_ec/ops.py:1376-1428", "leap_ec/problem.py:461-524", "leap_ec/segmented_rep/ops.py:18-220"]}
{"id": "C103", "title": "CGP genomes of any integers: which decode, which run, and what the others raise", "statement": "The CGP decoder's constructor raises exactly AssertionError, exactly when there are no primitives or one of the sizes is 0. decode, with or without pruning, raises AssertionError for a genome of the wrong length; a genome of the right length decodes exactly when every function gene names a primitive, counted from the front (0 to P-1) or, as Python indexing allows, from the back (-P to -1); otherwise the first offending function gene decides: too large is AssertionError, too small IndexError. Source and output genes can be any integers. The decoder with parameters raises what the plain one raises and AttributeError (its error message is broken) exactly for a wrong number of parameters. Calling an executable with the wrong number of inputs raises AssertionError. When the primitives never raise, the first call of the unpruned circuit returns one value per output exactly when every node reads only inputs and earlier nodes and every output only inputs, nodes and earlier outputs; otherwise, including for source numbers that do not exist, it raises KeyError. When primitives may raise, the exception of the first node that raises is that of the call.", "quantifier": "all decoders, primitives, integer genomes and inputs; the result on calls is for function genes that name a primitive from the front", "why_tests_cant": "Genomes are vectors of unbounded integers of any length and decoders have any shape; tests check a handful of feasible genomes and one or two infeasible ones.", "anchors": ["leap_ec/executable_rep/cgp.py:103-165", "leap_ec/executable_rep/cgp.py:181-196", "leap_ec/executable_rep/cgp.py:233-273", "leap_ec/executable_rep/cgp.py:435-477", "leap_ec/executable_rep/cgp.py:538-582"]}
{"id": "C104", "title": "Exactly which arguments are refused, and with which exception", "statement": "For each of the following the exact set of arguments on which it raises, and the exception, is as stated. Asynchronous insertion (tournament or greedy): ValueError, exactly for an empty population of size 0. Truth-table problems: AssertionError without inputs; otherwise the first row in counting order at which the target or the executable raises, or the target has no outputs (AssertionError). Landscape features: AssertionError for fewer than three points or no tests, otherwise the first test whose genomes differ in length (ValueError) or whose scoring raises; the convexity ratios: AssertionError for a threshold not below 0, ZeroDivisionError without tests, and never the assertions on their result. Migration: IndexError for an island that does not exist, a replacement selector without place or an emigrant due without an island to go to, ZeroDivisionError for a gap of 0, TypeError for comparing the unevaluated, and nothing else of its own. Elitist survival: TypeError exactly when somebody is unevaluated. Crowding and fast sort: IndexError exactly for no individuals, rank ordinal sort only when there are no parents either. External programs: RuntimeError for failure or a wrong number of lines, ValueError for a line that is no number. Grouped evaluation: IndexError for nobody, ValueError for chunks of size 0. Rule systems: AssertionError without rules, ValueError for another priority metric; pictures of rules: ValueError below two conditions, IndexError without action. Also stacking and broadcasting of arrays, image comparison, concatenation of files, keyword calls, cooperative evaluation in zero trials and the end of birth branding. Proportional selection from nobody, the graph of a network whose layers do not fit, plotting probes with a period of 0 or with lost lines, plots without spacing, averaging over a wrong number of results, counting ones in what is no array or does not fit the target, Shekel's function and matrix transformations. Tournament, random and insertion selection from nobody; pipelines whose selection has nobody (the IndexError reaches the caller whatever operators follow) or whose source has ended (RuntimeError, unless all operators are mutations that let StopIteration through). Calling a rule system: IndexError when some rule lacks a condition for an input or register, ValueError with memory, AssertionError when the rule that fires has a wrong number of actions; bounds and initializers of rule systems with memory or a box as output. Quadratic families: unequal numbers of arguments, then the first basin whose matrices are badly shaped or not diagonal; their evaluation at points of another size or that are no arrays.", "quantifier": "all arguments, populations, selectors, problems, scoring functions, tables, designs, programs and random draws", "why_tests_cant": "That nothing else is refused, and that among several troubles the first decides, are statements about all arguments; tests provoke each error once if at all.", "anchors": ["leap_ec/distrib/asynchronous.py:58-134", "leap_ec/executable_rep/problems.py:141-208", "leap_ec/landscape_features/exploratory.py:146-264", "leap_ec/ops.py:1196-1248", "leap_ec/ops.py:829-900", "leap_ec/multiobjective/ops.py:41-282", "leap_ec/problem.py:231-258", "leap_ec/ops.py:270-299", "leap_ec/executable_rep/rules.py:478-507", "leap_ec/util.py:353-376", "leap_ec/executable_rep/neural_network.py:156-191", "leap_ec/probe.py:642-661", "leap_ec/problem.py:347-371", "leap_ec/binary_rep/problems.py:35-116", "leap_ec/ops.py:906-1083", "leap_ec/executable_rep/rules.py:183-250", "leap_ec/executable_rep/rules.py:509-706", "leap_ec/real_rep/problems.py:1106-1136", "leap_ec/real_rep/problems.py:1216-1229"]}
{"id": "C105", "title": "NAND circuits can solve every truth table; NOT circuits cannot", "statement": "Given the NAND primitive among any others, for every Boolean function of n inputs and m outputs, every width of layers and every arity of at least 2, there is a number of layers from which on some genome within the decoder's bounds decodes, pruned or not, to an executable that gives the function's value on every input, whatever earlier calls left behind, and to which the truth-table problem gives fitness 1; and one mutation at any positive rate can turn any genome of the right length into any genome within the bounds. Circuits of primitives with at most one argument never combine inputs: each output depends on one input only; so with NotX alone no genome computes a conjunction. NAND and NotX return what their names say and raise IndexError exactly when an argument they look at is missing; a wrapped function is refused exactly when its arity is negative.", "quantifier": "all lists of primitives containing NAND, numbers of inputs and outputs, widths, arities of at least 2, Boolean functions, left-over node values and comparison functions; all decoders of unary primitives over any values, genomes within the bounds and inputs", "why_tests_cant": "That a solution exists for every one of the doubly exponentially many truth tables, and that none exists among all genomes of the unary primitives, cannot be settled by running examples.", "anchors": ["leap_ec/executable_rep/cgp.py:41-97", "leap_ec/executable_rep/cgp.py:181-503", "leap_ec/executable_rep/cgp.py:605-642", "leap_ec/executable_rep/problems.py:141-208"]}
{"id": "C106", "title": "Exactly how often crossover parts two genes", "statement": "NAryCrossover with n points on genomes of length len (n <= len) has len (len-1) ... (len-n+1) equally likely draws, and the order of the points does not matter. Where the parents differ, the first child takes its i-th gene from the second parent in exactly the draws with an odd number of points among 0..i, and two genes i < j come from different parents in exactly the draws with an odd number of points in i+1..j; both numbers are the hypergeometric sums over odd k of binom(n,k) s...(s-k+1) r...(r-(n-k)+1) with s = i+1 or s = j-i and r = len - s. So linkage depends on the distance only: s of len draws for one point, 2 s (len-s) of len (len-1) for two, where far ends of the genome are as close as neighbours. The last gene is not random: an odd number of points always exchanges it, an even number never does. Uniform crossover parts any two genes with chance 2p(1-p), whatever their distance.", "quantifier": "all genomes of equal length over any genes, all positions at which they differ, all numbers of points up to the length, all draws; all rational p", "why_tests_cant": "Exact counts over all draws for all lengths and numbers of points; sampling can only estimate single cases.", "anchors": ["leap_ec/ops.py:565-612", "leap_ec/ops.py:484-520"]}
{"id": "C107", "title": "Stochastic universal sampling in floating point", "statement": "sus_selection over values that are not negative selects n members per pass and never fails. In binary64 arithmetic this is false: the last selection point, start + (n-1)*spacing with every operation rounded, can lie above the sum of the values, and then the loop runs past the end of the population with IndexError - for example for seven individuals with fitnesses 5,4,4,4,4,4,4 and the largest draw. Exactly: a pass raises IndexError if the rounded last point exceeds the rounded sum of the values, and otherwise selects n members. For whole-numbered values it never fails when n is a power of two (values times points up to 2^53), and for any other n only for some of the 3n largest of the 2^53 draws. The rounding used is shown to be rounding to a nearest binary64 number, to keep the order and to leave floats alone.", "quantifier": "all populations, all values that are not negative, all results of np.sum, all numbers of points up to 2^53, all draws; the safe cases for all whole-numbered values with sum up to 2^53", "why_tests_cant": "The failure needs one of about n draws among 2^53; no random test will ever hit it, and its absence for powers of two is a claim about all of them.", "anchors": ["leap_ec/ops.py:679-772"]}
{"id": "C108", "title": "Real values stay within their bounds in floating point", "statement": "A value computed for given bounds lies within them. For genes drawn by np.random.uniform this holds for all binary64 bounds and draws, in spite of three roundings. A decoded segment starts exactly at the lower bound, is never below it, grows with the number its bits stand for, misses the exact value by at most 2^-50 (|lower|+|upper|), and stays within the bounds if their width and the step are floats; in general it does not: all ones for the bounds -0.1 and 0.3 decode to a number above 0.3. The point at which ScaledProblem evaluates the wrapped problem lies within that problem's bounds, and on them at the ends, if their width is a float, as it is for bounds -a and a; not in general.", "quantifier": "all binary64 bounds with lower <= upper, all draws, 1 to 53 bits, all codes (for the error bound: width zero or at least 2^-900)", "why_tests_cant": "Rounding errors of one unit in the last place depend on the particular bounds, so tests with a few friendly bounds pass; the claims are about all of them.", "anchors": ["leap_ec/real_rep/initializers.py:38-43", "leap_ec/binary_rep/decoders.py:164-171", "leap_ec/real_rep/problems.py:1363-1366"]}
{"id": "C109", "title": "Mutation rates in floating point", "statement": "1.0/len*expected, rounded twice, is a probability for every expected number of mutations between none and all, so the assertion in random_bernoulli_vector holds, and is off by a factor of at most 1 +- 3*2^-53. Expecting none mutates none, and expecting all mutates all if the length is a power of two. For other lengths expecting all need not mutate all: for 49 genes the rate is the largest float below one, and a gene with the largest draw is left alone.", "quantifier": "all lengths from 1 to 2^53, all expected numbers from 0 to the length, all draws", "why_tests_cant": "That no rounding exceeds one is a claim about all lengths; that one falls short shows in one draw out of 2^53.", "anchors": ["leap_ec/ops.py:1453-1469", "leap_ec/ops.py:1501-1518"]}
{"id": "C110", "title": "Proportional selection in floating point picks only positive values", "statement": "However the weights, their running sums and the product of draw and total are rounded, proportional_selection returns, for every draw, a member whose value is positive: it never fails, never runs past the end, and never picks somebody of value zero, not even as the last of the population.", "quantifier": "all populations, all values that are not negative, any positive result of np.sum of which some value is at least the 2^-1000th part, all draws", "why_tests_cant": "The critical case is the largest draws with a last value of zero, where only the exact rounding of draw*total decides; random tests do not reach it.", "anchors": ["leap_ec/ops.py:668-673"]}
{"id": "C111", "title": "Means of fitnesses in floating point", "statement": "The mean AverageFitnessProblem computes never turns round an order on which all samples agree; for whole-numbered samples it is the float nearest to the true mean, and it stays between whole numbers between which the samples lie. In general the sum misses the true one by at most (1+2^-53)^h - 1 times the sum of the samples' sizes, h being the depth of the bracketing. For other numbers the mean of equal samples can differ from them (three evaluations that all give 0.1 have a mean above 0.1), and the mean depends on the order of the additions.", "quantifier": "all lists of samples, all ways of ordering and bracketing the additions (numpy's is one), all whole-numbered samples with sum up to 2^53", "why_tests_cant": "Tests compare means with a tolerance; the exact order and the exact result for all whole numbers are claims about every rounding.", "anchors": ["leap_ec/problem.py:342-345", "leap_ec/problem.py:353-359"]}
{"id": "C112", "title": "Fitness arithmetic in floating point", "statement": "With every operation rounded to binary64: adding a fitness offset and Koza's parsimony never turn an order round and are exact on whole numbers, though strict differences and the pressure on the length can vanish; truth-table fitness is exact, so 1.0 means right everywhere; proportional selection with offset='pop-min' never selects a worst individual while somebody is better; crowding skips an objective exactly if its extremes are equal and gives inner individuals a distance between 0 and the number of objectives, at least what each objective gives, growing with the gap, 1 for the whole range; the pairwise diversity metric is never negative and is zero for equal genomes of whole numbers and exact whenever means and distances are whole numbers, but positive for three equal genomes [0.1] and zero for some different genomes.", "quantifier": "all fitnesses, offsets, penalties and genome lengths, all truth tables of up to 53 inputs, all populations of up to 2^51 and all draws, all orders in which numpy adds, all square-root functions that are exact where the root is a float", "why_tests_cant": "Tests compare a few values with a tolerance; that no rounding anywhere can turn an order round or select the worst is a claim about all floats.", "anchors": ["leap_ec/problem.py:288-302", "leap_ec/parsimony.py:52-95", "leap_ec/executable_rep/problems.py:183-195", "leap_ec/ops.py:655-673", "leap_ec/ops.py:1475-1495", "leap_ec/multiobjective/ops.py:211-241", "leap_ec/probe.py:691-711"]}
{"id": "C113", "title": "How likely a random search is to miss the solutions", "statement": "If from every non-solution between s1 and s2 of the mutator's A equally likely outcomes are solutions, then of the A^T ways in which a random search of T steps can turn out at least (A-s2)^T and at most (A-s1)^T visit no solution; if s1 is at least 1, all but a B-th of the long searches visit one, for every B. With bit flips at rate one half the number is exactly ((2c)^n - K c^n)^T of (2c)^(nT) for K solutions, wherever they are and wherever the search starts: the walk is as good as drawing genomes independently.", "quantifier": "all genome types, mutators, sets of solutions, start points and numbers of steps; all bit-string lengths, grids of 2c equally likely draws and sets of solutions", "why_tests_cant": "A test runs a search once with one seed; a count of all the ways in which a run can turn out is out of its reach.", "anchors": ["leap_ec/algorithm.py:298-377", "leap_ec/binary_rep/ops.py:62-96", "leap_ec/ops.py:1501-1518"]}
{"id": "C114", "title": "CGP genomes with parameters, from creation to execution", "statement": "A genome made by CGPWithParametersDecoder.initialize, however often it is mutated by segmented_mutate with cgp_genome_mutate and genome_mutate_gaussian and however often it is copied, has two segments, a circuit within the decoder's bounds and the right number of parameters within theirs; it decodes to the circuit of the program it describes, each node with its own parameters, and the next mutation never raises and clears the fitness. Parameters of nodes that no output depends on are neutral: whatever they are, the decoded circuit answers and raises the same. Genomes with another number of segments are refused with an AssertionError.", "quantifier": "all decoders with levels_back of at least 1, all parameter bounds, all numbers of parameters per node, all histories of mutations with proper rates and of copies, all primitives and inputs", "why_tests_cant": "The test decodes one fixed genome; that no sequence of mutations ever leads to a genome that fails to decode is a claim about all histories.", "anchors": ["leap_ec/executable_rep/cgp.py:522-599", "leap_ec/executable_rep/cgp.py:631-651", "leap_ec/segmented_rep/ops.py:68-88", "leap_ec/real_rep/ops.py:79-139", "examples/advanced/cgp_images.py:81-150"]}
{"id": "C115", "title": "The ready-made primitives for evolved images", "statement": "Of the fifteen cgp_art_primitives eleven make colour values (0 to 255) of colour values; the product and the sum reach 255^3 and 510*255, one primitive fills the gap up to 256 and the tangent of degrees has no bound. Each computes what it is meant to: bitwise or and and of whole parts, a quotient, a complement, the size of a cosine, remainders, a distance cut off at 255, a ratio that is 255 exactly for equal arguments. Six ignore their second source, ten the parameter, and eight are symmetric. A circuit whose primitives keep to a kind of values answers with values of that kind, so a circuit of the eleven paints colours wherever coordinates and parameters are colours.", "quantifier": "all real arguments between 0 and 255, all decoders, genomes, parameters and inputs", "why_tests_cant": "No test looks at these primitives at all; their range is a statement about a continuum of arguments, and circuits nest them arbitrarily.", "anchors": ["leap_ec/executable_rep/cgp.py:657-680", "leap_ec/executable_rep/cgp.py:117-161"]}
{"id": "C116", "title": "How many generations an elitist run takes on average", "statement": "Take generational_ea with a clone-mutate-evaluate pipeline of at least one child, at least one elite, and a selection whose first pick is a best member of the population (with one parent and one child every selection is). Sort the genomes into levels that agree with fitness, and suppose that from each genome of level i below m at least s_i of the K equally likely draws of the mutator lead to a higher level. Then, over all the ways N generations can turn out, the mean number of generations (cut off at N) until level m is reached is at most K/s_i + ... + K/s_(m-1), where i is the lowest level of the first population; the bound does not depend on N. No run raises or hangs. For one parent, one child and mutate_bitflip on n bits, c of the N grid points below the rate: on MaxOnes the mean is at most N^n / (c (N-c)^(n-1)) * (1 + 1/2 + ... + 1/(n-i)); on LeadingOnes at most the sum of N^n / (c (N-c)^j N^(n-1-j)) over the missing positions j. Of all the ways T+1 generations can turn out, the share that has not reached level m after T of them is at most the same bound divided by T+1. Without elites there is no such time: an aim once reached can be lost.", "quantifier": "all search spaces, mutators, levels, problems whose values are told apart by the comparison, population sizes, numbers of elites, start populations, start generations and numbers of generations; all lengths, rates and grids", "why_tests_cant": "A mean over all outcomes of all draws of runs of every length; experiments give estimates for single sizes.", "anchors": ["leap_ec/algorithm.py:50-142", "leap_ec/ops.py:829-900", "leap_ec/binary_rep/ops.py:20-98", "leap_ec/binary_rep/problems.py:35-61", "leap_ec/binary_rep/problems.py:88-116"]}
{"id": "C117", "title": "The example programs in which parents compete with a brood, as wholes", "statement": "simple_ep, simple_es and simple_ev create parents, evaluate them, and in each generation breed and evaluate a brood of BROOD_SIZE children per parent. When such a run ends, every population has as many members as the first, every brood BROOD_SIZE times as many; the members of each are distinct individuals with distinct genome arrays, carry the fitness that decoding and evaluating their present genome gives, and stay in every set of genomes the operators stay in; brood members are new, survivors come from parents and brood, objects from before the run are untouched, the generation counter is right, and the step size of each generation is what the counter's callbacks made of the one before. When the operators are clone, a mutation and evaluation, the k-th child of a brood is what the mutation, with that generation's step size and the k-th draws, makes of the parent that the selection picked as its k-th. With truncation selection of brood and parents, provided the comparison tells fitness values apart, nobody left out is better than a survivor, the number of members at least as good as any given fitness never falls, and no individual that was ever evaluated is better than the best of the last population. Without that proviso a child worse by a billionth replaces its parent, and such losses can add up beyond every bound. With one parent and positive fitnesses, k generations lose at most the factor (1 - 1e-9)^k, whatever the ties. With insertion_selection at most one slot changes per generation, the drawn one, to the first child of the brood and only if that is not worse; so a child better than everybody can be lost. If operators, evaluation and selection do not raise, the run does exactly max_generation generations. For the three programs themselves this holds whatever is drawn: 5, 5 and 10 parents, 15, 15 and 30 children, 100, 10 and 5 generations (2 under test), fitness the sum of squares, and in simple_es step size 2 * 0.85^i in generation i; every gene that is drawn moves by its deviate times the step size, no other gene moves, and who goes on is decided by the smaller sum of squares.", "quantifier": "all genome types, problems, decoders, operators, selections, draws, population and brood sizes, numbers of generations, callbacks and start states of the heap", "why_tests_cant": "The example programs are only run for two generations, with whatever is drawn; what holds for every draw and every number of generations, and what happens to every member of every brood, cannot be observed from there.", "anchors": ["examples/simple/simple_ep.py:33-82", "examples/simple/simple_es.py:19-106", "examples/simple/simple_ev.py:34-90", "leap_ec/ops.py:778-823", "leap_ec/ops.py:961-993"]}
