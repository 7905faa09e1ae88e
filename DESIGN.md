# Formal model of LEAP (leap_ec) in Rocq/Coq 8.16.1

## Layout

* `rocq/theories/Model/*.v`  - executable model of the code, one file per source area, no proofs.
  Every definition cites the file and lines it models and the simplifications made.
* `rocq/theories/Spec/*.v`   - small specifications, written without the model's helpers.
* `rocq/theories/Proofs/*.v` - lemmas and proofs.
* `rocq/theories/Props/*.v`  - property theorems only, each closed by `exact lemma`, with
  `Print Assumptions` beneath and an `Example` showing a non-trivial instance.
* `properties.jsonl`, `MANIFEST.json`, `seeded/LOG.jsonl` - property list, claim status, mutation log.

## General modelling choices

* **Shallow, branch by branch.** A Python function becomes a total Gallina function. An exception is
  a value (`result A := Ok a | Err exn`).
* **Randomness** is an explicit argument: a coin, index, mask, noise value or stream of them. Theorems
  quantify over every value the random source can return (hypotheses say only what the library
  documents, e.g. an index is `< len`).
* **Numbers.** Python ints are `Z`. Python/numpy floats are exact rationals plus `+inf`, `-inf`, `NaN`
  (rounding is *not* modelled, except in `Model/Float*.v` (C107-C112), which renders the places where rounding
  decides what happens once more with every operation rounded to binary64; stated where it matters). `math.isclose` is its documented formula with
  `rel_tol = 10^-9`.
* **Generators** are state machines pulled on demand, or functions from the list of pulls to outputs.
* **In-place mutation / aliasing** is modelled with an explicit heap only where the property is about it
  (C06, C24, C51). Elsewhere an update returns the new value.
* **Library calls** modelled from their documented behaviour: `toolz.topk`/`heapq.nlargest` (stable
  descending selection), `sorted` (stable), `max`/`min` (first extreme wins), `random.choices`,
  `itertools.cycle`, `numpy` element-wise operations, `np.unique`, `np.argsort` (stable flavour not
  assumed unless requested by the code), dask `map/gather/as_completed` (any completion order).

## Plan per property

| id | modelled code | how proved |
|----|----|----|
| C01-C03 | `ScalarProblem.worse_than/equivalent`, `Individual.__lt__/__eq__` and the operators `functools.total_ordering` derives | case analysis on the number type; order laws of Q; C03 has a counterexample for floats (isclose) and a proof for the rest |
| C04 | Python `max` as a left fold with `>` | induction over the list with an invariant on the running maximum |
| C05 | `BestSoFarProbe`, `BestSoFarIterProbe` as state machines | invariant over the history of calls |
| C06, C51 | heap model of individuals and genome arrays; clone, in-place variation, evaluate, pool | frame lemmas per operator, induction over the pipeline run |
| C07 | decode/phenome cache/evaluate/clone/grouped_evaluate state machine | invariant; counterexample for grouped evaluation after clone+mutate |
| C08 | `RobustIndividual.evaluate` over attempt histories | induction over attempts |
| C09, C10 | `topk` as stable descending sort + firstn; the two operators | permutation and sortedness lemmas |
| C11, C12 | `generational_ea` loop with arbitrary pipeline and stop predicate | loop invariant, induction on remaining generations |
| C13-C15 | selection operators with oracle draws | induction on draws |
| C16, C17 | `compute_population_values`, `sus_selection` loop, `random.choices` by cumulative weights | counting lemma for equidistant points in an interval (exact rationals) |
| C18 | lazy pipeline of generator state machines with pull counters | induction on the operator stack and pool size |
| C19-C21 | crossover classes; operator object with pending child and generator program counters | pointwise lemmas; invariant over creation/pull histories |
| C22, C23 | mutation operators | pointwise lemmas over mask/noise |
| C24 | segment operators, heap model for aliasing | list lemmas; counterexample for aliasing |
| C25-C27 | binary decoders including the growing powers-of-two cache | induction on bits; Gray algebra with `Z.lxor`; rational arithmetic |
| C28, C29 | `migrate` closure state machine over island calls | invariants over call histories |
| C30 | `multi_population_ea` loop | induction, trace equality |
| C31, C32 | closures of `inc_generation`, `inc_births`, `birth_brander` | invariant over operation histories |
| C33 | `MultiObjectiveProblem.worse_than/equivalent` | pointwise order |
| C34 | `fast_nondominated_sort` with counters and fronts | invariant of the peeling loop, well-founded dominance |
| C35 | `rank_ordinal_sort` (np.unique, objective ranks, update sweep) | sweep invariant, both equal the recursive rank specification |
| C36, C37 | crowding distance, NSGA-II survival | proofs for non-degenerate ranks, counterexample for dropped ranks |
| C38, C39 | ENLU insertion and inserter | layer invariant; counterexample with 3 objectives; size invariant |
| C40, C41 | `steady_state` as a transition system: any in-flight evaluation may complete next | invariant over all schedules |
| C42 | map/gather with arbitrary completion order | permutation-insensitive reassembly |
| C43-C45 | CGP decoder bounds, constraint check, graph, executable, pruning, mutation | induction over node numbers (topological order) |
| C46-C48 | problem wrappers and benchmark problems | algebra/induction |
| C49, C50 | Pitt rules, parsimony keys | fold invariants, case analysis |
| C52 | diversity metrics over rationals | ring identities by induction |
| C53 | `random_search` | induction; counterexample for a supplied context |
| C54 | `ExternalProcessProblem` (input text, splitting and parsing of the output) | induction over the list of phenomes |
| C55 | `PittRulesDecoder` (bounds, initializer, splitting, mutation, decoding) | list induction; bounds carried gene by gene |
| C56 | `num_fixated_metric` | variance is zero iff the column is constant; granularity bound for integer columns |
| C57-C59 | rational benchmark problems, translated/scaled/rotated problems, paraboloids, quadratic families | sums of squares over Q, orthonormal change of variables, `np.allclose` as its formula |
| C60 | `random_orthonormal_matrix` | Gram-Schmidt over Coq's reals, invariant over the rows |
| C61 | benchmark problems with cosines, exponentials and roots | bounds over Coq's reals |
| C62 | `get_step` | case analysis over the two optional counters |
| C63 | SCH and ZDT1–6 | a common shape: first objective, distance g ≥ 1, second objective strictly increasing in g and, at g = 1, decreasing in the first; Pareto sets by comparison with the projection |
| C64 | network decoder, shapes and graph | induction over the shape; slices of the genome concatenate back to it |
| C65 | forward pass and activations | induction over the layers; real analysis for the activations |
| C66 | truth tables | induction on the number of inputs; the score counts a filter |
| C67 | environments | induction on steps and runs, giving a replayed sequence of transitions |
| C68 | argmax, keyboard | invariant on the scanned prefix; case analysis on the events after the last press |
| C69 | image matching | flat positions as division and remainder by the width; nested sums; truncation characterised by its bounds |
| C70 | convexity features | each delta is the chord gap; shapes of functions give signs; counting and means |
| C71 | initializers, create_population, seeding, repertoire | induction on the number of calls with the hidden state threaded through |
| C72 | ea_solve end to end, built from the models of its operators | induction on generations with an invariant on the evaluated genomes; the probe's theorem (C05) on the history of offspring; C10, C19, C23 for the parts |
| C73 | statistical helpers | dicts as association lists without repeated keys; sorted key lists are unique; the statistic's NaN and infinite cases by induction on cells |
| C74 | FitnessStatsCSVProbe: the text it writes, and when | induction on the calls with the best-so-far probe's theorem (C05); joining and splitting of lines and fields as inverse; the statistics from their definitions over rationals |
| C75 | AttributesCSVProbe: lines and dataframe, genomes by reference | rows as dicts, tied to the list of assignments made by "last of that name"; induction on individuals and calls |
| C76 | steady_state_nsga_2: the asynchronous loop with the layered inserter; sort_by_dominance | invariant tying the state to the insertion history of everything evaluated (then C39's theorems apply); induction on completions for any schedule; the failing individual is always in a layer whose crowding is recomputed |
| C77 | contrib/analysis.py: auc and max_value of one curve | any sort by time gives the same strictly increasing list; induction along it, summing units of time; fold of max |
| C78 | CurveAnalyzer: construction, avg_curves, scalar_metrics_per_run, avg_scalar_metrics; cat_csv_files | groupby as ordered distinct keys with filtered rows; a row without a key can be removed; sums over runs and times exchanged for complete designs |
| C79 | PopulationMetricsPlotProbe: series, lines, autoscale box, failures; FitnessPlotProbe | invariant tying series and lines to the list of measured calls; after a failure, the gap between x and y never closes, and relim refuses unequal lengths |
| C80 | CartesianPhenotypePlotProbe, SumPhenotypePlotProbe with its fitness curve, Hist- and HeatMap probes, ParetoPlotProbe2D | invariant over call histories: view contains limits and points and each limit has an origin; arithmetic of arange |
| C81 | csv.writer/DictWriter as used by migration_metric, log_worker_location, log_pop and CooperativeEvaluate's log | a reader modelled on csv.reader inverts the writer: induction over fields and rows; each log as a list of rows by induction over calls |
| C82 | PopulationSeedingRepertoire: export, loading with QUOTE_NONNUMERIC, apply | reader modelled on csv.reader, proved to invert the writer on plain fields by induction over fields and rows; apply from the seeded-population theorem of C71 |
| C83 | plot_2d_problem, plot_2d_function, plot_2d_contour: the arrays handed to matplotlib and the calls of the function | arithmetic of arange with Qceiling; induction over rows for meshgrid, vectorize and reshape |
| C84 | PlotPittRuleProbe and GraphPhenotypeProbe: the shapes drawn | rectangle containment related to the conditions by rational arithmetic; the prediction follows from the nearest-rule theorem of C49; the graph from C64 |
| C85 | CurvePlotter and the commands analyze, plot all, plot curves, plot avg-curves: lines, legends, boxes and tables | nested grouping proved equal to grouping by the joined key (uniqueness of sorted groupings); row filters commute with grouping and averaging |
| C86 | the logging plugin of distrib/logger.py: levels, attached loggers and printed lines | invariant over histories: a worker has the logger iff it was set up, the level is that of the last fresh set-up |
| C87 | print_probe, print_individual, print_population, print_list and Individual.__str__ as texts written to a stream | induction over pulls and populations; reading lines back inverts printing |
| C88 | the four type-checking decorators, curry and toolz.pipe around arbitrary operator functions | induction over the pipeline with the kind handed on |
| C89 | segmented_mutate over a store of segment arrays, with mutators that write in place, return new arrays or raise | induction over segments and individuals; freshness and frame conditions |
| C90 | generational_ea from creation to the last population, with mutable individuals and genome arrays on one heap | loop invariant over worlds: populations separate, genomes in D, fitness equals score; elites as sub-permutations; progress lemma for pulls |
| C91 | runs of generational_ea with the integer, real and CGP operators and initialisers, on the heap | each operator shown never to leave or raise on the box of genomes; instantiation of the run invariant; CGP fitness related to the value relation of programs |
| C92 | constructors and evaluate methods of the five wrapping problem classes, stacked to any height | induction over the stack; a relation for where a point arrives; surjectivity through transposes of orthonormal matrices |
| C93 | the loop of generalized_nsga_2 with rank_ordinal_sort, crowding_distance_calc and truncation | induction over generations with a covering invariant (everyone evaluated is dominated by or equal to a member); at most two ends per objective have infinite distance |
| C94 | tournament_selection and UniformCrossover.recombine over all draws | enumeration of all draws as k-tuples; a swap of two positions as a bijection of the draws; sums of mask probabilities by induction over the genome |
| C95 | generational_ea with crossover pipelines; genome_mutate_bitflip, individual_mutate_randint, genome_mutate_gaussian | the run invariant of C91 with the starting genes of each position as alphabet; explicit draws for every target |
| C96 | proportional_selection; genome_mutate_bitflip and the random integers of individual_mutate_randint over all draws of a grid | the interval of random.choices between two partial sums; sums over all tuples by induction over the genome |
| C97 | multi_population_ea with migrate at the end of the pipeline, on the heap | one invariant over past generations, processed islands, unprocessed islands and waiting immigrants; relation "only these objects changed" between heaps |
| C98 | generational_ea on lists of arrays: deepcopy with memo, NAryCrossover on lists, segment operators, evaluation, elitist survival | frame relation per operator call ("only arrays of this genome and new ones changed"), batches of offspring in fresh address ranges, invariant over all past generations; at most n addresses per genome is preserved by clone, copy, remove and in-place mutation |
| C99 | multi_population_ea with const_evaluate and CooperativeEvaluate, or CooperativeProblem and grouped_evaluate | the per-generation view of C30 (new populations before, old ones from the current island on) combined with C47's combinations; induction over generations; arithmetic of means |
| C100 | generational_ea on the heap with clone, a mutator fed from a table of draws, evaluate, elitist survival | induction over generations: the draws of a generation that miss h are at most (K-s)^size whatever selection picks; after a hit the best never gets worse (C90); Bernoulli's inequality for the limit |
| C101 | comparisons, both non-dominated sorts, crowding and the loop of generalized_nsga_2 when some fitnesses are the float nan | NumPy's order puts NaN rows last, so the sorted unique rows are the plain ones followed by k NaN rows; each NaN turn raises all ranks by one, afterwards the sweep simulates the plain one shifted by k; induction over generations |
| C102 | whole runs: generational_ea and island model on the heap, segmented genomes, CooperativeEvaluate/CooperativeProblem runs, histories of migrate | one invariant per loop (everybody evaluated, subpopulations not empty, waiting lists as long as the islands), every error branch of the model traced to a part or a named misuse; PEP 479 at each generator |
| C103 | CGPDecoder constructor, decode, CGPWithParametersDecoder.decode, CGPExecutable.__call__ on genomes of any integers | induction over the node loop (the first bad function gene decides); the decoded graph has the numbered nodes plus one node per unknown source; invariant of the call: exactly the numbers below the current one have an output |
| C104 | the refusals of some forty operations (insertion, truth tables, landscape features, migration, survival, sorts, external programs, grouped evaluation, rule systems, quadratic families, selection from nobody, empty sources, arrays, keyword calls, branding) | case analysis and induction over the loops; equivalences, so nothing else is refused; "first trouble" for loops |
| C105 | the primitives NAND, NotX, FunctionPrimitive; CGPDecoder.decode (pruned or not), CGPExecutable, TruthTableProblem and cgp_mutate put together | Shannon expansion over the inputs into straight-line NAND code (invariant: registers keep their values when code is added), placed in a genome one instruction to a layer; strong induction over the nodes; for unary primitives induction along the one chain of sources |
| C106 | NAryCrossover._pick_crossover_points and recombine, UniformCrossover.recombine over all equally likely draws | enumeration of ordered draws without replacement; exact number with k points in a set by induction with Pascal's rule; parity of the points between two positions; for masks induction over the length |
| C107 | sus_selection once more, every operation followed by rounding to binary64 (Model/Floats.v) | the rounding is proved to be nearest by comparing exponents, hence monotone and idempotent; invariant of the walk: running sum = rounded sum of the values passed; error analysis for the rare draws |
| C108 | np.random.uniform (create_real_vector), the real decoders' increments, ScaledProblem's change of coordinates, in binary64 | monotone rounding; for uniform: width*draw rounds below the rounded width, and nothing between lies nearer to the width; relative error of each operation, sums of floats being exact where subnormal |
| C109 | compute_expected_probability and random_bernoulli_vector in binary64 | error analysis up to 1 + 2^-53, which is a tie and rounds to 1 |
| C110 | proportional_selection with random.choices (accumulate, bisect) in binary64 | induction over the running sums: adding a zero changes nothing; draw*total rounds below total |
| C111 | AverageFitnessProblem's mean in binary64, added up from the left and in any other order and bracketing | monotone rounding; whole numbers are added exactly; induction on the bracketing for the error |
| C112 | FitnessOffsetProblem, koza_parsimony, TruthTableProblem's score, compute_population_values('pop-min') with proportional_selection, crowding contributions, pairwise_squared_distance_metric, all in binary64 | differences of floats never round to zero; monotone rounding; whole numbers and powers of two are exact; error of a sum bounded by its bracketing |
| C113 | random_search with a pipeline that mutates one genome, seen through the genomes; bit-flip mutation with draws on a grid | the sequences of draws form a tree: the misses multiply level by level between A-s2 and A-s1; at rate 1/2 every genome is hit by c^n of (2c)^n draws |
| C114 | CGPWithParametersDecoder.initialize and decode, cgp_genome_mutate and genome_mutate_gaussian as mutators of segmented_mutate, arrays in a store | invariant over histories of turns and copies (two segments, bounds, lengths); values depend only on needed nodes, by induction along the feed-forward order |
| C115 | the fifteen cgp_art_primitives over the reals (one array element; division by zero, rounding and integer overflow left out) | real arithmetic, floor and bit lemmas; tan(atan B) = B; values of circuits by induction along the feed-forward order |
| C116 | generational_ea on the heap with clone, a mutator fed from a table of draws, evaluate, elitist survival; MaxOnes and LeadingOnes | fitness levels: the level of the best never falls; induction over the number of generations that the waiting times of all tables sum to at most K^(size*N) times the sum of K/s_i; exact counts of improving draws by recursion over the genome; a run late by T has waited more than T generations (Markov) |
| C117 | the programs examples/simple/simple_ep.py, simple_es.py, simple_ev.py: creation, pipeline with pool, truncation or insertion selection, generation counter with callbacks, step size in the context (exact arithmetic); printing left out | heap invariant of the generational run extended to broods; truncation as a best selection, a counting argument for every fitness bar; a history invariant by induction over the generations; totality of Gaussian mutation without bounds |

No property on the list is considered inexpressible; statistical claims about the random generators are
not made (only "for every draw").

A property whose statement is false of the code keeps its statement and gets status "partial": a theorem
`..._refuted` gives the witness, theorems `..._partial` (and further ones) say what does hold. A
`..._refuted` theorem of a property with status "proved" lies outside the quantifier of that property and
records a neighbouring finding.

## Trusted base

1. The Coq 8.16.1 kernel (`coqc`; `coqchk` re-checks the compiled files). No plugin, no kernel option, no
   axiom, no `Admitted`, no module functor or parameter in `theories/`.
2. The axioms listed by `Print Assumptions`, which is run beneath every theorem in `theories/Props`. All
   theorems are "Closed under the global context" except those listed in the appendix, which use Coq's
   real numbers and hence the standard library's
   `ClassicalDedekindReals.sig_forall_dec`, `ClassicalDedekindReals.sig_not_dec`,
   `FunctionalExtensionality.functional_extensionality_dep` and, where analysis lemmas need it,
   `Classical_Prop.classic`. (Loading `Reals`, `lra`, `ssr`-free tactics brings the library's other
   declared constants, such as `Rdefinitions.RbaseSymbolsImpl.*`, into scope; they are module-sealed
   definitions of the standard library.)
3. The reading of the Python source: every definition in `theories/Model` cites the lines it renders. No
   code was run; the correspondence was checked by reading only. The examples beside the theorems evaluate
   the model on concrete inputs.
4. The reading of the libraries the code calls (CPython builtins and generators, numpy, toolz, networkx,
   dask), as listed under "General modelling choices" and in the comments.
5. Exact arithmetic in place of floating point. Where rounding could matter the theorem speaks about the
   exact result; `math.isclose` and `np.isclose/allclose` are modelled by their formulas, so tolerance
   effects of the code (C03, C09, C46, C56, C60) are inside the model, rounding errors are only in `Model/Float*.v` (C107-C112):
   binary64 with subnormals, round to nearest even, without overflow, infinities, NaN or signed zeros.

## Not modelled

* Type-checking decorators of operators (`ops.py:77-230`) beyond the errors mentioned in the comments;
  docstrings, `__str__`/`__repr__`, printing, plotting and logging code.
* `landscape_features`, `contrib`, `statistical_helpers`, `simple.ea_solve` (unless listed in the
  coverage table), the dask transport itself (only the order in which results arrive matters here),
  pickling, process start-up.
* The distribution of random draws. Each draw is an argument ranging over all values the source can give.
* Resource limits (recursion depth, memory) and the wall clock (`start_eval_time` etc.).
* Hash collisions and uuid collisions (ids are taken to be unique).

## Findings

Deviations from documentation or expectation, each proved in the model by the theorem named.

| theorem | what happens |
|----|----|
| `C03_gt_agrees_with_lt_refuted` | `a > b` is derived by `total_ordering` from `<` and `==`; two floats within relative 1e-9 are `==`, so `b < a` and `a > b` disagree |
| `C07_grouped_evaluate_stale_refuted` | `grouped_evaluate` reads the cached phenome; a clone keeps its parent's cache, so a mutated clone gets its parent's score |
| `C07_grouped_evaluate_default_problem_refuted` | `grouped_evaluate` passes `individuals=` to `evaluate_multiple`, which the default `Problem.evaluate_multiple` does not accept: TypeError |
| `C09_near_ties_refuted` | truncation selection leaves out a strictly better individual when floats are closer than the tolerance |
| `C11_near_ties_refuted` | with an elite the best fitness can still get worse beyond every bound: in a population of one, an offspring worse than the elite by a billionth ties with it and is listed first (`max` then keeps it) |
| `C14_every_offspring_competes_refuted` | `insertion_selection` returns inside its loop: only the first child competes |
| `C16_zero_start_refuted` | stochastic universal sampling with a random start of 0 picks `population[-1]` first |
| `C17_raises_without_negative_refuted` | proportional selection raises ValueError when all values are zero (e.g. 'pop-min' on equal fitnesses) |
| `C17_even_exponent_refuted` | the negativity check comes after exponentiation: an even exponent hides negative values and the worst gets the largest share |
| `C20_unequal_lengths_lose_genes_refuted` | n-point crossover of genomes of different lengths loses genes |
| `C21_interleaved_generators_refuted` | two generators of one crossover object pulled in turns: None is yielded and a child comes out of the wrong generator |
| `C24_copied_segment_is_shared_refuted` | `copy_segment` inserts the same array, so a later in-place mutation changes both copies |
| `C25_empty_segment_depends_on_history_refuted` | a zero-length segment decodes to 0 first and raises ValueError afterwards (`powers_2[-0:]`) |
| `C25_long_segment_overflows_refuted` | a 64-bit segment overflows int64 |
| `C29_island_without_neighbours_refuted` | `migrate` raises IndexError for an island without out-neighbours |
| `C32_clone_shares_number_refuted` | the clone of a branded individual keeps its birth number |
| `C32_second_pull_refuted` | the second pull from a generator-fed `birth_brander` raises AttributeError |
| `C33_equality_is_transitive_refuted` | `==` between multi-objective individuals is not transitive |
| `C34_repeated_object_refuted` | with the same object twice in the population an individual can keep rank 0 |
| `C36_keeps_everybody_refuted` | `crowding_distance_calc` drops every rank in which no objective varies (e.g. a rank of one) |
| `C36_extreme_infinite_refuted` | an individual with the lowest value of an objective gets NaN instead of an infinite crowding distance when a neighbour in another objective is infinite (inf/inf) |
| `C37_keeps_size_refuted` | hence an NSGA-II generation can shrink the population, even to nothing |
| `C37_keeps_best_front_refuted` | and can drop the individual that dominates all others |
| `C38_true_layers_refuted` | with three objectives ENLU's zenith shortcut pushes non-dominated individuals down |
| `C40_batches_refuted` | steady state with a pipeline producing two offspring at a time exceeds `max_births` |
| `C42_counter_refuted` | the failure counter loses updates when two workers run in threads of one process |
| `C43_large_arity_refuted` | CGP accepts primitives of arity larger than `max_arity`; the circuit of a legal genome then raises |
| `C44_raising_primitive_refuted` | a raising primitive in a node no output needs makes the unpruned circuit raise, the pruned one not |
| `C45_levels_back_zero_refuted` | `levels_back=0` is accepted by the constructor and makes every initialisation raise |
| `C46_infinite_offset_refuted` | an infinite fitness offset erases all differences |
| `C46_offset_equality_refuted` | an offset can turn different fitnesses into `==` ones |
| `C47_logging_refuted` | `CooperativeProblem.evaluate` with a log stream raises AttributeError |
| `C48_leading_ones_empty_refuted` | `LeadingOnes` of an empty string raises StopIteration |
| `C48_wrong_length_refuted` | a target of another length gives NameError instead of the intended AssertionError |
| `C49_nan_gene_refuted` | a NaN gene in the first rule makes it fire for every input |
| `C53_supplied_context_refuted` | `random_search` counts in the global context, not in the supplied one |
| `C53_zero_evaluations_refuted` | `random_search` with zero evaluations still makes one |
| `C55_initial_genomes_matrix_refuted` | with a matrix-shaped input space the initial genes are not in the order of the bounds |
| `C56_close_columns_refuted` | `num_fixated_metric` counts real-valued columns that vary by less than 1e-4 |
| `C59_optimum_within_bounds_refuted` | the optimum of a generated quadratic family can lie outside its bounds |
| `C60_one_dimension_refuted` | `random_orthonormal_matrix(1)` raises IndexError for every draw |
| `C61_lunacek_one_dimension_refuted` | Lunacek's default `s` is negative for N = 1, so `mu_2` is NaN |
| `C61_gaussian_height_refuted` | `GaussianProblem` ignores `width` and `height` |
| `C63_zdt3_converse_refuted` | ZDT3 (as documented): a zero tail is necessary but not sufficient for Pareto optimality |
| `C63_length_checked_refuted` | the ZDT1–4 and ZDT6 phenome checks never compare the length with `n`; too short a phenome is scored |
| `C63_one_variable_refuted` | with `n=1` the second objective of ZDT1 is NaN for feasible points |
| `C64_no_inputs_refuted` | a network declared with no inputs has no layers: bias-only outputs are impossible, and `num_inputs`/`num_outputs` raise IndexError |
| `C67_survival_within_steps_refuted` | the survival fitness counts the initial observation, so it exceeds the steps survived by one and can exceed the steps allowed |
| `C67_num_inputs_refuted` | `EnvironmentProblem.num_inputs` and `num_outputs` compute a size and return None (no `return`) |
| `C68_keymap_nine_refuted` | the default keymap uses `range(ord('0'), ord('9'))`, which leaves out '9' |
| `C69_three_outputs_refuted` | an executable with a single output is accepted by `ImageXYProblem`: NumPy broadcasts it over the three channels |
| `C70_linear_p_refuted` | `ELAConvexity.linear_p` compares an absolute value with a negative threshold, so it is 0 even for a linear landscape (C70_linear_p_is_zero: always) |
| `C70_two_individuals_refuted` | `ELAConvexity` asserts more than two design individuals although two make a pair |
| `C71_every_population_seeded_refuted` | a seeded initializer keeps its position, so only the first population made with it gets the seeds |
| `C71_population_algorithm_refuted` | `PopulationSeedingRepertoire.build_repertoire` unpacks `(step, individual)` pairs, but `generational_ea` returns a list of individuals: training raises |
| `C72_best_of_all_points_refuted` | `ea_solve` can return a worse point than one of the initial population it evaluated: its probe sees offspring only |
| `C73_different_rejected_refuted` | a key with count 0 in both dicts makes the chi-squared statistic 0/0 = NaN; `NaN < p` is false, so `stochastic_equals` accepts completely different distributions |
| `C73_comparison_repeatable_refuted` | `_normalize_dicts` adds keys to the caller's dicts; observations rejected when fresh are accepted after having been compared with another distribution |
| `C73_gaussian_corrected_variance_refuted` | `equals_gaussian` passes `np.std` (divisor n) to `ttest_ind_from_stats`, which expects the corrected standard deviation (divisor n-1) |
| `C74_unquoted_refuted` | nothing is quoted: a note (or metric, or multiobjective fitness) whose text contains a comma yields rows with more fields than the header |
| `C74_interrupted_line_refuted` | an extra metric that raises leaves a partial line in the stream, and the next row continues on it |
| `C75_dataframe_snapshot_refuted` | the dataframe keeps references to genomes, so a later in-place change alters rows of earlier generations, unlike the stream |
| `C75_column_collision_refuted` | an attribute named like another column (e.g. `step`) silently replaces its value |
| `C76_failures_tolerated_refuted` | steady_state_nsga_2 offers `count_nonviable`, but one failing evaluation aborts the run: its fitness is the scalar nan and the crowding distance indexes it (TypeError) |
| `C77_strictly_monotone_refuted` | auc gives the first row weight zero: a curve with one row has area 0 whatever its value |
| `C77_tied_times_refuted` | with two rows at one time, auc depends on how the (unstable) sort orders them |
| `C78_defaults_refuted` | CurveAnalyzer's default `experiment_cols=()` fails its own assertion for every data frame (also not modelled: plot_avg_scalars calls avg_scalar_metrics with a keyword `metrics` it does not have) |
| `C78_same_job_refuted` | two files with the same job number and experiment are merged into one run, whose area is neither's |
| `C78_every_row_counts_refuted` | groupby silently drops rows with a missing experiment value |
| `C79_recovery_refuted` | if a metric raises at the first measured call, the second one succeeds and draws one y value at two x values |
| `C79_shared_axes_refuted` | on axes that already have a line, PopulationMetricsPlotProbe draws over it (it indexes ax.lines from 0) and its own line stays empty |
| `C79_nan_box_refuted` | one NaN metric value and the box is that of the given limits for the rest of the run, however large the values |
| `C80_heat_map_refuted` | HeatMapPhenotypeProbe computes a histogram and drops it; its map never gets a column |
| `C80_negative_limit_refuted` | with SumPhenotypePlotProbe's default limits the curve is evaluated at bit strings longer than int(xlim[1]), e.g. length 10 at -5 |
| `C80_infinite_refuted` | an infinite fitness makes SumPhenotypePlotProbe raise inside the run |
| `C81_note_clash_refuted` | a note of migration_metric named like one of its columns is lost: both columns of that name show the metric's own value |
| `C81_carriage_return_refuted` | migration_metric's '\n' terminator leaves carriage returns in notes unquoted (Python up to 3.12), and the row cannot be read back |
| `C81_snapshot_once_refuted` | log_pop does not advance its call number when it raises, so rows already written are written again under the same number |
| `C82_integers_refuted` | a repertoire of integer (e.g. binary) genomes is loaded as floats: QUOTE_NONNUMERIC converts every unquoted field |
| `C82_windows_refuted` | export opens the file without newline='': where a line feed is written as '\r\n', the file has an empty genome after every genome |
| `C83_contour_arguments_refuted` | plot_2d_contour takes no keyword arguments, so plot_2d_problem(kind='contour', cmap=...) raises TypeError |
| `C83_first_value_refuted` | np.vectorize takes the type of the array from the first point: a function that answers there with an int is drawn with all other values truncated |
| `C83_once_per_point_refuted` | the first grid point is evaluated twice |
| `C84_interval_refuted` | PlotPittRuleProbe with modulo > 1 raises NameError in every generation: line 850 says `modulo` instead of `self.modulo` (and would return in the generations to be plotted) |
| `C84_dimensions_refuted` | PlotPittRuleProbe ignores plot_dimensions: the first two conditions are always drawn |
| `C85_colors_refuted` | tab10 has ten colours: from the tenth experiment on all are drawn in the same one |
| `C85_same_colors_refuted` | an experiment whose rows have no time is in the legend of plot_curves but not in that of plot_avg_curves, so later experiments change colour between the two pictures |
| `C85_modulo_boxes_refuted` | `plot all --modulo` is documented as thinning the plot, but the area under the curve is computed from the thinned rows too and changes |
| `C85_avg_file_refuted` | `plot avg-curves` is documented to plot an average-fitness file, but on the one written by `analyze` it always raises AssertionError: the file has neither the job column nor the raw metrics |
| `C85_plot_avg_scalars_refuted` | plot_avg_scalars calls avg_scalar_metrics(metrics=...), which is no parameter of it: TypeError on every call |
| `C43_rejects_out_of_bounds_refuted` | The decoder does not reject genomes below the bounds: a negative primitive gene passes `assert primitive_id < len(self.primitives)` (cgp.py:241) and is used as a Python index from the end, so an infeasible genome that `check_constraints` rejects decodes to a circuit. |
| `C86_own_verbosity_refuted` | `WorkerLoggerPlugin(verbose=...)` is not per worker: all workers of a process share one logger, and the last worker set up for the first time decides its level; registering the plugin again with `verbose=True` changes nothing (logger.py:81-102). |
| `C86_names_the_worker_refuted` | The docstring promises host name, worker ID and process ID for each message; the format has no worker id (logger.py:44-46), so the lines of different workers of a process cannot be told apart. |
| `C87_print_probe_values_readable_refuted` | print_probe writes no separator: values of consecutive generations run together |
| `C89_mismatch_is_an_assertion_error_refuted` | The assertion message of segmented_mutate uses an undefined name `mutators` (segmented_rep/ops.py:77): a wrong number of mutators raises NameError instead of AssertionError. |
| `C89_failure_leaves_no_stale_fitness_refuted` | segmented_mutate clears the fitness only after all mutators ran (segmented_rep/ops.py:80-86): when a later mutator raises, segments changed in place by earlier ones keep the old fitness. |
| `C92_translated_bounds_refuted` | TranslatedProblem copies the bounds of the wrapped problem (real_rep/problems.py:1274-1275) without moving them: the optimum of the translated problem can lie outside the bounds it declares. |
| `C93_no_deterioration_refuted` | NSGA-II is not elitist in the Pareto sense once the first front is larger than the population: an individual dominated by an earlier, discarded one can be in the final population. |
| `C93_small_population_refuted` | With fewer than two places per objective the best value of an objective can be lost from one generation to the next. |
| `C97_own_problem_refuted` | migrate with its default customs_stamp does not adapt an immigrant to the new island: if the islands have different problems, the immigrant keeps its home problem and fitness, is compared by them (ops.py:1219) and can replace a resident although its own fitness on the island would be the worst possible; its descendants keep the foreign problem too. |
| `C98_crossover_of_copies_refuted` | copy_segment puts the same array twice into a genome, clone keeps it that way (deepcopy's memo), and NAryCrossover can then give the two references to different children: mutating and evaluating the second child changes the genome of the first one, whose fitness becomes stale |
| `C99_stale_fitness_refuted` | in a cooperative run, individuals of every species but the last are returned with a fitness that was measured with collaborators of the previous generation: no team of returned individuals need have that mean score |
| `C99_left_over_subpopulations_refuted` | multi_population_ea evaluates the initial populations (line 264) before it publishes them (line 268): with a CooperativeProblem and the default init_evaluate the first run in a process raises KeyError (`C99_default_evaluation_fails`), and a later run scores its individuals with the subpopulations the earlier run left in the context, in the slot of that run's last species |
| `C100_without_elites_refuted` | with k_elites = 0 a run can find the optimum and lose it again: the bound on the chance of missing it, which holds with one elite, is exceeded |
| `C101_failure_is_worse_refuted` | the documentation says an individual whose evaluation failed is worse than every other (individual.py:288-289); with several objectives it compares as equal to everyone |
| `C101_identical_ranks_refuted` | "Produces identical rank values to fast_nondominated_sort" (multiobjective/ops.py:117): not when an evaluation failed; the ranks of the others are shifted by the number of failures |
| `C101_robustness_refuted` | RobustIndividual should let a run go on after a failed evaluation; generalized_nsga_2 raises TypeError in the first generation with one, because crowding_distance_calc indexes the float nan |
| `C107_refuted` | in binary64 arithmetic sus_selection can raise IndexError (the last selection point rounds above the total): seven individuals with fitnesses 5,4,4,4,4,4,4, largest draw; also 12 individuals with total 5, 15 with total 3 |
| `C108_decode_refuted` | a real decoder can return more than the upper bound: all ones for the bounds -0.1 and 0.3 |
| `C108_scaled_refuted` | ScaledProblem can evaluate the wrapped problem outside its bounds: old bounds -0.1 and 0.3, at the upper end |
| `C109_all_refuted` | expected_num_mutations equal to the genome's length gives a rate below 1 for 49 genes (1.0/49*49 < 1), so a gene can be left alone |
| `C111_constant_refuted` | AverageFitnessProblem does not return a deterministic fitness unchanged: (0.1+0.1+0.1)/3 > 0.1 |
| `C111_independent_refuted` | the mean of eight numbers as numpy adds them is not the one got by adding from the left |
| `C112_offset_strict_refuted` | FitnessOffsetProblem can make different fitnesses equal: 0 + 1 = 2^-60 + 1 |
| `C112_koza_pressure_refuted` | koza_parsimony with a positive penalty may not prefer the shorter genome: 1 - 2^-60 = 1 - 3*2^-60 |
| `C112_diversity_converged_refuted` | pairwise_squared_distance_metric is positive for three equal genomes [0.1] |
| `C112_diversity_zero_refuted` | pairwise_squared_distance_metric is 0 for the genomes [2^-600] and [0] |
| `C116_without_elites_refuted` | with k_elites = 0 no number of generations is the time at which the aim is reached: two flips of both bits reach 11 from 00 and lose it |
| `C114_shared_array_refuted` | genome_mutate_gaussian writes unclipped numbers into the array it is given and returns a clipped copy: an individual that shares the array is left with parameters outside the bounds |
| `C117_insert_keeps_best_refuted` | simple_ev breeds and evaluates three children per parent but only the first child of the brood can enter the population, because insertion_selection returns inside its loop: a child better than everybody is lost |
| `C117_plus_near_ties_refuted` | with truncation over parents and children the best is not kept under near ties: a child worse by a billionth counts as equal and is listed first, so it replaces its parent; repeated often enough, the minimised fitness outgrows every multiple of the initial one |

Further findings from reading, not stated as theorems:

* `np.NINF` (`multiobjective/ops.py`) and `from numpy.lib.twodim_base import diag` (`real_rep/problems.py`)
  do not exist in NumPy 2.
* `CGPWithParametersDecoder`'s assertion message refers to `self.cgp_decoder`, which does not exist
  (`cgp.py:572`): a wrong parameter count raises AttributeError, not AssertionError.
* `PlotPittRuleProbe.__call__` uses undefined names `step` and `modulo`.
* `segmented_mutate`'s error message uses an undefined name, so the mismatch raises NameError.
* `FitnessOffsetProblem` of a problem without `maximize` (`AverageFitnessProblem`, `AlternatingProblem`)
  raises AttributeError unless `maximize` is given.
* `EnvironmentProblem.num_inputs/num_outputs` lack a `return` and give None.
* `KeyboardExecutable`'s key map leaves out '9' (`range(0, 9)`).
* `QuadraticFamilyProblem.generate` takes its bounds from the widths (C59) .

## Appendix: axioms used, theorem by theorem

F = `ClassicalDedekindReals.sig_forall_dec`, N = `ClassicalDedekindReals.sig_not_dec`,
E = `FunctionalExtensionality.functional_extensionality_dep`, C = `Classical_Prop.classic`.

* `C115_eleven_keep_colours`: F, N, E
* `C115_wide_ranges`: F, N, E
* `C115_tangent_unbounded`: F, N, C, E
* `C115_modulo_reaches`: F, E
* `C115_values`: F, N, E
* `C115_bits`: F, N, E
* `C115_exact_values`: F, N, E
* `C115_ignored_arguments`: F, N, E
* `C115_images_keep_colours`: F, N, E
* `C69_fitness`: F, N, E
* `C69_mismatch`: F, N, E
* `C69_one_output`: F, N, E
* `C69_three_outputs_refuted`: F, N, E
* `C65_forward_pass`: F, E
* `C65_output_is_activation`: F, E
* `C65_wrong_input_size`: F
* `C65_sigmoid`: F, N, C, E
* `C65_relu`: F, E
* `C65_softmax`: F, N, C, E
* `C65_sigmoid_network`: F, N, C, E
* `C65_softmax_network`: F, N, C, E
* `C60_returned_matrix_is_orthonormal`: F, N, E
* `C60_orthonormal_matrix_partial`: F, N, E
* `C60_one_dimension_refuted`: F, N, E
* `C60_one_dimension_never_succeeds`: F, N, E
* `C61_rastrigin`: F, N, E
* `C61_griewank`: F, N, E
* `C61_griewank_ripples`: F, N, E
* `C61_ackley`: F, N, C, E
* `C61_weierstrass`: F, N, E
* `C61_langermann_bound`: F, N, C, E
* `C61_lunacek`: F, N, E
* `C61_lunacek_default_s`: F, N, E
* `C61_lunacek_default_mu2`: F, N, E
* `C61_lunacek_one_dimension_refuted`: F, N, E
* `C61_schwefel_mirror`: F, N, E
* `C61_gaussian`: F, N, C, E
* `C61_gaussian_height_refuted`: F, N, C, E
* `C61_cosine_family`: F, N, E
* `C23_binomial_width`: F, N, E
* `C60_exactly_independent_draws`: F, N, E
* `C65_fails_exactly`: F, N, E
* `C61_refusals`: F, N, E
* `C61_langermann_refusals`: F, N, E
* `C23_binomial_width_refusals`: F, N, E
* `C63_refusals`: F, N, E
* `C63_sch`: F, E
* `C63_zdt1`: F, N, E
* `C63_zdt2`: F, E
* `C63_zdt3`: F, N, E
* `C63_zdt4`: F, N, E
* `C63_zdt5`: F, E
* `C63_zdt6`: F, N, C, E
* `C63_front_values_123`: F, N, E
* `C63_front_values_4`: F, N, E
* `C63_front_values_5`: F, E
* `C63_front_values_6`: F, N, E
* `C63_check`: F, N, E
* `C63_check_zdt4`: F, N, E
* `C63_negative_first_variable`: F, N, E
* `C63_zdt3_converse_refuted`: F, N, E
* `C63_length_checked_refuted`: F, N, E
* `C63_one_variable_refuted`: F, N, E

The other 698 theorems: closed under the global context (no axioms):

* C01: lt_means_worse, strict_weak_order
* C02: nan_worse_than_numbers, two_nans_toss_a_coin, best_is_numeric
* C03: gt_agrees_with_lt_refuted, gt_agrees_with_lt_partial, le_and_ge
* C04: max_returns_a_best, max_exact_without_near_ties, max_total
* C05: best_so_far_probe, best_so_far_iter_probe
* C06: clone_is_unevaluated_child, clone_is_isolated, ids_stay_distinct
* C07: evaluate_scores_current_genome, evaluate_population_scores_current_genomes, grouped_evaluate_partial, grouped_evaluate_any, grouped_evaluate_stale_refuted, grouped_evaluate_default_problem_refuted, pipeline_offspring_carry_their_own_score
* C08: robust_evaluation, latest_attempt_counts
* C09: truncation_keeps_best, truncation_ties_to_earlier, truncation_with_key, near_ties_refuted
* C10: elitist_survival, elitism_never_loses_the_best
* C11: elitism_monotone, near_ties_refuted, one_member_losses
* C12: generational_run, exact_number_of_generations, stop_at_generation
* C13: tournament, random_selection
* C14: every_offspring_competes_refuted, first_offspring_competes_partial, no_slot_gets_worse_partial
* C15: naive_cyclic_order, naive_cyclic_tours, naive_cyclic_balanced, cyclic_tours, cyclic_first_tour_in_order, cyclic_balanced
* C16: sus_fair_shares_partial, all_starts_partial, shares_if_last_positive, zero_start_refuted
* C17: pop_min_values, offset_preserves_order, proportional_selection_partial, sus_rejects_negative, sus_starts_iff, proportional_iff, sus_all_zero, raises_without_negative_refuted, even_exponent_refuted
* C18: pool_size_and_demand, pool_succeeds, short_source_raises, pool_in_two_goes
* C19: uniform_crossover, unequal_lengths_raise
* C20: nary_crossover, short_genomes_rejected, unequal_lengths_lose_genes_refuted
* C21: performed_crossover, skipped_crossover, children_handed_out_once, single_generator, interleaved_generators_refuted
* C22: bitflip, bitflip_all_or_none, rate_parameters_checked, individual
* C23: gaussian, gaussian_parameters, binomial, randint, randint_reaches_every_value, misfitting_bounds, too_many_mutations, individual
* C24: add_segment_partial, remove_segment_partial, copy_segment_partial, add_and_remove_share_nothing, mutation_is_segment_wise_partial, copied_segment_is_shared_refuted, copy_from_empty_genome_raises
* C25: segments_decode_to_their_value, one_segment_bijective, pieces_exist, segmented_decoder, empty_segment_depends_on_history_refuted, long_segment_overflows_refuted
* C26: segments_decode_to_their_gray_value, gray_code, loop_on_negative_numbers, endless_exactly, endless_on_half
* C27: real_segment, all_segments, extreme_segments
* C28: one_call, only_emigrants_are_inserted, leap_selectors_are_honest, tournament_replacement
* C29: departures, delivered_exactly_once, island_without_neighbours_refuted
* C30: islands_once_per_generation, exact_number_of_generations, shared_then_own_operators
* C31: generation_counter, birth_counter
* C32: branding_unique_partial, branding_permanent, branding_with_clones_partial, branding_permanent_with_clones, population_all_branded, failed_generator, clone_shares_number_refuted, second_pull_refuted
* C33: comparison_is_dominance, strict_partial_order, le_and_ge, equality_is_transitive_refuted
* C34: fast_sort_assigns_front_numbers, front_numbers_are_determined, repeated_object_refuted
* C35: rank_ordinal_assigns_front_numbers, sorts_agree
* C36: keeps_everybody_refuted, crowding_partial, distances, infinite_objectives, extreme_infinite_refuted, nan_objective, nan_left_out
* C37: keeps_size_refuted, keeps_best_front_refuted, survival_partial, survival_nondegenerate_partial, never_grows
* C38: contents, true_layers_partial, true_layers_refuted
* C39: capacity, dropped, dropped_worst_front
* C40: ledger, exact_budget, all_failing_never_ends, batches_refuted
* C41: greedy, tournament, greedy_takes_worst
* C42: population, pool, counter_partial, counter_bounds_partial, counter_refuted
* C43: bounds_mean_feasible, check_constraints, decodes, decodes_with_parameters, circuit_edges, arity, constructor, levels_back, large_arity_refuted, primitive_ids, rejects_out_of_bounds_refuted
* C44: pruning_preserves_outputs, pruned_is_interpretation, with_parameters, raising_primitive_refuted, outputs_have_one_source
* C45: initialised_in_bounds, mutation_in_bounds, histories_decode, levels_back_zero_refuted
* C46: offset_keeps_order, offset_explicit_direction, infinite_offset_refuted, offset_equality_refuted, average_is_mean, average_of_deterministic, constant_is_flat, average_problem, grouped_average_is_mean, grouped_average_of_deterministic, alternating_takes_turns
* C47: problem_evaluates_combinations, default_combination, problem_returns, operator_evaluates_combinations, collaborators_of_each_trial, logging_refuted, logging_always_fails
* C48: max_ones, leading_ones, deceptive_trap, two_max, image, leading_ones_empty_refuted, wrong_length_refuted
* C49: fires_a_nearest_rule, every_nearest_rule_can_fire, nan_gene_refuted, with_nan
* C50: lexical, lexical_truncation, koza
* C51: parents_untouched
* C52: pairwise, zero_iff_equal, sum_of_variances
* C53: supplied_context_refuted, zero_evaluations_refuted, random_search_partial, any_pipeline
* C54: external_values, external_input, external_one
* C55: decodes, decoded_is_total, initial_genomes, initial_genomes_matrix_refuted, mutation, memory_never_decodes, no_outputs_never_decodes
* C56: fixated_columns, fixated_columns_lower, close_columns_refuted
* C57: spheroid, rosenbrock, step, noisy_quartic, shekel, shekel_defaults
* C58: translated, translated_rejects, scaled, matrix, matrix_rejects, matrix_must_be_square
* C59: lowest_basin, global_minimum, generated, not_diagonal_rejected, generate_rejects, optimum_within_bounds_refuted
* C62: get_step, get_step_otherwise
* C63: check_zdt5
* C64: decode, network_is_determined, too_few_layers, sizes, graph, graph_unfit, no_inputs_refuted
* C66: table, fitness
* C67: episodes, raises, survival_within_steps_refuted, space_dimensions, num_inputs_refuted
* C68: argmax, argmax_fails, decoded_argmax, keyboard, keyboard_idle, keymap, keymap_nine_refuted
* C70: deltas, convex, concave, affine, convex_p, deviation, linear_p_is_zero, linear_p_refuted, two_individuals_refuted
* C71: real_vector, real_vector_reaches, population, individual, seeded, every_population_seeded_refuted, repertoire, repertoire_kwargs, population_algorithm_refuted
* C72: result, box, generations, best_of_all_points_refuted, zero_generations, empty_population
* C73: collect, collect_raises, normalize, verdict, equal_accepted, impossible_rejected, uniform, zero_cell_accepts_anything, different_rejected_refuted, comparison_repeatable_refuted, gaussian, gaussian_corrected_variance_refuted
* C74: appends, table, statistics_order, nan_columns, number_kind, empty_population, modulo_zero, no_header, unquoted_refuted, interrupted_line_refuted
* C75: init, rows, best_only, best_only_empty, missing_attribute, dataframe_agrees, dataframe_snapshot_refuted, no_dataframe, column_collision_refuted
* C76: population, completion, exact_budget, failing_evaluation_aborts, failures_tolerated_refuted, sort_by_dominance
* C77: auc_area, credits_exist, auc_order, auc_bounds, auc_monotone, auc_linear, first_value_ignored, missing, strictly_monotone_refuted, tied_times_refuted, max_value
* C78: init, probe_file, defaults_refuted, avg_curves, scalar_metrics_per_run, avg_scalar_metrics, auc_never_fails, averages_commute, separate_files, same_job_refuted, missing_experiment, every_row_counts_refuted
* C79: series, own_axes, unmeasured, fitness_plot, failure_is_permanent, recovery_refuted, shared_axes_refuted, nan_box_refuted, rescale
* C80: cartesian, sum, empty_population, short_phenome, short_objectives, pareto, sum_curve, granularity, histogram, hist_probe, heat_map_refuted, negative_limit_refuted, infinite_refuted
* C81: read_back, migration_log, no_stream, worker_log, worker_missing_attribute, dict_writer, log_pop, log_pop_zero, log_pop_interrupted, cooperative_log, cooperative_log_size, note_clash_refuted, carriage_return_refuted, snapshot_once_refuted
* C82: round_trip, round_trips, text_genes, any_genes, no_line_end, apply, integers_refuted, windows_refuted
* C83: grid, problem, default_points, failing_point, refused, empty_range, contour_arguments_refuted, first_value_refuted, int_grid, once_per_point_refuted
* C84: boxes, picture_predicts, failures, interval_refuted, dimensions_refuted, graph, graph_otherwise
* C85: curves, colors, colors_refuted, avg_curves, commands, boxes, same_colors_refuted, all_legends, all_succeeds, all_modulo, modulo_boxes_refuted, analyze, avg_file_rows, combined_file, avg_file, avg_file_refuted, plot_avg_scalars_refuted
* C86: messages, deterministic, second_setup, own_logger, own_verbosity_refuted, names_the_worker_refuted
* C87: print_individual, upstream_fails, print_probe, print_probe_values_readable_refuted, print_probe_values_readable_partial, str_identifies, print_population, print_list
* C88: transparent, sound, bad_connection, bad_connection_before_any_work, missing_argument, broken_promise
* C89: each_mutator_its_segment, wrong_number_of_mutators_changes_nothing, a_failing_mutator_stops_the_turn, mismatch_is_an_assertion_error_refuted, failure_leaves_no_stale_fitness_refuted
* C90: whole_run, best_never_gets_worse, run_completes, bit_string_runs
* C91: integer_runs, real_runs, cgp_truth_table_runs
* C92: buildable, refusal, direction, bounds, value, optimum, box, translated_bounds_refuted, lists
* C93: run, raises, no_deterioration_refuted, small_population_refuted
* C94: draws, at_most, at_least, wins, pressure, ties, masks, uniform_crossover
* C95: no_new_genes, bitflip, certain_flip, randint, gaussian
* C96: roulette, mean_flips, mutants, randint
* C97: island_runs, run_completes, own_problem_refuted
* C98: whole_run, best_never_gets_worse, no_new_variety, run_completes, crossover_of_copies_refuted
* C99: operator_run, problem_run, operator_run_completes, problem_run_completes, species_stay_apart, fitness_in_range, fitness_was_reached, last_species_met_the_result, stale_fitness_refuted, default_evaluation_fails, left_over_subpopulations_refuted, left_over_scores
* C100: search, search_succeeds_in_the_end, bit_flips, bit_flips_succeed_in_the_end, integers, integers_succeed_in_the_end, tables_exist, without_elites_refuted
* C101: comparison, failure_is_worse_refuted, fast_sort, rank_ordinal, sorts, identical_ranks_refuted, generation, run, a_returning_run_saw_no_failure, robustness_refuted
* C102: generational_run, island_run, segmented_run, cooperative_run, cooperative_problem_run, migrations
* C103: constructor, decode, parameters, first_call, first_exception
* C104: tournament_insert, greedy_insert, truth_table, ela_constructor, ratio, stack, broadcast, migration, no_place, heap_emigration, heap_migration, survival, rule_box, crowding, fast_sort, ordinal_sort, image, external, cat_files, grouped, no_trials, keywords, rule_system, branding_ends, nobody, network_graph, no_period, lost_lines, no_spacing, short_bounds, average, no_trials_unlogged, ones, shekel, matrix, tournament, random, insertion, empty_source, segmented_nobody, rule_call, rule_bounds, rule_genomes, quadratic, quadratic_point
* C105: nand, not, wrapper, complete, one_mutation, unary, not_alone
* C106: draws, order, gene, linkage, few_points, last_gene, uniform
* C107: rounding, order, exact, pass, refuted, powers_partial, rare_partial
* C108: uniform, decode_order_partial, decode_error_partial, decode_partial, decode_refuted, scaled_partial, symmetric, scaled_refuted
* C109: rate, none, all, all_refuted
* C110: picks
* C111: left, any_order, any_whole, between, error, error_linear, independent_refuted, order, whole, constant_refuted
* C112: offset_order, offset_whole, offset_error, offset_strict_refuted, koza_order, koza_whole, koza_pressure_refuted, table, pop_min, crowding_skip, crowding, crowding_parts, crowding_wider, crowding_full, diversity_nonneg, diversity_converged, diversity_exact, diversity_converged_refuted, diversity_zero_refuted, root
* C113: bounds, visits_in_the_end, half_rate
* C114: whole_life, initialize, unread_parameters, two_segments, shared_array_refuted
* C115: circuits_keep
* C116: levels, max_ones, leading_ones, without_elites_refuted, late, late_max_ones
* C117: plus_near_ties_refuted, one_parent_generation, one_parent_losses, whole_run, plus_generation, plus_never_falls, plus_keeps_best, insert_generation, insert_keeps_best_refuted, run_completes, children, replacement, simple_ep, simple_es, simple_ev, simple_ep_generation, simple_es_generation, simple_ev_generation, callbacks

## Appendix: coverage of leap_ec

Functions and methods whose lines are cited by at least one model definition, and those not cited
(`__init__` methods that only store arguments are counted as not cited).

| file | cited | not cited |
|----|----|----|
| leap_ec/algorithm.py | generational_ea, multi_population_ea, random_search, stop_at_generation | - |
| leap_ec/binary_rep/decoders.py | BinaryToIntDecoder.decode, BinaryToIntDecoder.__binary_to_int, BinaryToRealDecoderCommon.__init__, BinaryToRealDecoderCommon.decode, BinaryToIntGreyDecoder.__gray_encode, BinaryToIntGreyDecoder.decode | BinaryToIntDecoder.__init__, BinaryToIntDecoder.__binary_to_str, BinaryToRealDecoder.__init__, BinaryToIntGreyDecoder.__init__, BinaryToRealGreyDecoder.__init__ |
| leap_ec/binary_rep/initializers.py | - | create_binary_sequence |
| leap_ec/binary_rep/ops.py | mutate_bitflip, genome_mutate_bitflip | - |
| leap_ec/binary_rep/problems.py | MaxOnes.evaluate, LeadingOnes.evaluate, DeceptiveTrap.evaluate, TwoMax.evaluate, ImageProblem.evaluate | MaxOnes.__init__, LeadingOnes.__init__, DeceptiveTrap.__init__, TwoMax.__init__, ImageProblem.__init__, ImageProblem._process_image |
| leap_ec/contrib/analysis.py | max_value, auc, CurveAnalyzer.__init__, CurveAnalyzer.avg_curves, CurveAnalyzer.scalar_metrics_per_run, CurveAnalyzer.avg_scalar_metrics, CurvePlotter.plot_curves, CurvePlotter.plot_avg_curves, CurvePlotter.plot_scalars_bar, CurvePlotter.plot_avg_scalars, analyze, all, curves, avg_curves, auc_command, cat_csv_files | CurvePlotter.__init__, cli, plot |
| leap_ec/contrib/transfer/sequential.py | PopulationSeedingRepertoire.__init__, PopulationSeedingRepertoire.build_repertoire, PopulationSeedingRepertoire.export, PopulationSeedingRepertoire.apply, initialize_seeded | Repertoire.build_repertoire, Repertoire.apply |
| leap_ec/data.py | - | _build_test_pop |
| leap_ec/decoder.py | IdentityDecoder.decode | Decoder.decode, IdentityDecoder.__init__, IdentityDecoder.__repr__ |
| leap_ec/distrib/asynchronous.py | replace_if, tournament_insert_into_pop, greedy_insert_into_pop, steady_state | eval_population |
| leap_ec/distrib/evaluate.py | evaluate, is_viable | - |
| leap_ec/distrib/individual.py | DistributedIndividual.__init__, DistributedIndividual.clone | DistributedIndividual.__str__ |
| leap_ec/distrib/logger.py | EvaluatorLogFilter.__init__, EvaluatorLogFilter.filter, WorkerLoggerPlugin.setup_logger, WorkerLoggerPlugin.setup, WorkerLoggerPlugin.teardown | WorkerLoggerPlugin.__init__ |
| leap_ec/distrib/probe.py | log_worker_location, log_pop | - |
| leap_ec/distrib/synchronous.py | eval_population, eval_pool | - |
| leap_ec/executable_rep/cgp.py | NAND.arity, NAND.__call__, NotX.arity, NotX.__call__, CGPExecutable.__call__, CGPDecoder.__init__, CGPDecoder.initializer, CGPDecoder.num_genes, CGPDecoder.num_cgp_nodes, CGPDecoder.get_primitive, CGPDecoder.get_input_sources, CGPDecoder.get_output_sources, CGPDecoder._min_bounds, CGPDecoder._max_bounds, CGPDecoder.bounds, CGPDecoder.check_constraints, CGPDecoder.decode, CGPDecoder.prune_graph, CGPWithParametersDecoder.decode, CGPWithParametersDecoder.initialize, cgp_mutate, cgp_genome_mutate, create_cgp_vector, cgp_art_primitives | Primitive.arity, Primitive.__call__, FunctionPrimitive.__init__, FunctionPrimitive.arity, FunctionPrimitive.__call__, CGPExecutable.__init__, CGPWithParametersDecoder.__init__ |
| leap_ec/executable_rep/executable.py | KeyboardExecutable.__init__, KeyboardExecutable.key_press, KeyboardExecutable.key_release, KeyboardExecutable.__call__, ArgmaxExecutable.__call__, WrapperDecoder.decode | Executable.__call__, RandomExecutable.__init__, RandomExecutable.__call__, ArgmaxExecutable.__init__, ArgmaxExecutable.__getattr__, WrapperDecoder.__init__ |
| leap_ec/executable_rep/neural_network.py | sigmoid, relu, softmax, SimpleNeuralNetworkDecoder.__init__, SimpleNeuralNetworkDecoder.decode, SimpleNeuralNetworkExecutable.num_hidden_layers, SimpleNeuralNetworkExecutable.num_inputs, SimpleNeuralNetworkExecutable.num_outputs, SimpleNeuralNetworkExecutable.graph, SimpleNeuralNetworkExecutable.__call__, GraphPhenotypeProbe.__call__ | SimpleNeuralNetworkExecutable.__init__, GraphPhenotypeProbe.__init__ |
| leap_ec/executable_rep/problems.py | EnvironmentProblem.__init__, EnvironmentProblem.num_inputs, EnvironmentProblem.num_outputs, EnvironmentProblem._reward_fitness, EnvironmentProblem._survival_fitness, EnvironmentProblem.space_dimensions, EnvironmentProblem.evaluate, TruthTableProblem.__init__, TruthTableProblem.evaluate, TruthTableProblem._enumerate_tt, ImageXYProblem.generate_image, ImageXYProblem.evaluate | ImageXYProblem.__init__ |
| leap_ec/executable_rep/rules.py | PittRulesDecoder.__init__, PittRulesDecoder.num_inputs, PittRulesDecoder.num_outputs, PittRulesDecoder.num_memory_registers, PittRulesDecoder.num_genes_per_rule, PittRulesDecoder.condition_bounds, PittRulesDecoder.action_bounds, PittRulesDecoder.bounds, PittRulesDecoder.initializer, PittRulesDecoder._split_rule, PittRulesDecoder.mutator, PittRulesDecoder.genome_to_rules, PittRulesDecoder.decode, PittRulesExecutable.__init__, PittRulesExecutable.__priority, PittRulesExecutable._match_set, PittRulesExecutable._fire, PittRulesExecutable.__call__, PlotPittRuleProbe.__plot_rules, PlotPittRuleProbe.__call__ | PlotPittRuleProbe.__init__ |
| leap_ec/individual.py | Individual.__init__, Individual.phenome, Individual.create_population, Individual.evaluate_population, Individual.clone, Individual.decode, Individual.evaluate_imp, Individual.evaluate, Individual.__iter__, Individual.__eq__, Individual.__lt__, Individual.__str__, RobustIndividual.evaluate | Individual.phenome, Individual.__repr__, RobustIndividual.__init__, WholeEvaluatedIndividual.evaluate_imp |
| leap_ec/int_rep/initializers.py | create_int_vector | - |
| leap_ec/int_rep/ops.py | mutate_randint, individual_mutate_randint, mutate_binomial, genome_mutate_binomial, _binomial_p_from_std | - |
| leap_ec/landscape_features/exploratory.py | ELAConvexity.__init__, ELAConvexity._compute_deltas, ELAConvexity.convex_p, ELAConvexity.linear_p, ELAConvexity.linear_deviation, ELAConvexity.linear_deviation_abs | ELAConvexity.pairs, ELAConvexity.combinations, ELAConvexity.deltas, ELAConvexity.results_table |
| leap_ec/multiobjective/asynchronous.py | _find_start_layer, _split_dominated, _set_domination, enlu_inds_rank, ENLUInserter.__init__, ENLUInserter.__call__, steady_state_nsga_2 | - |
| leap_ec/multiobjective/nsga2.py | generalized_nsga_2 | - |
| leap_ec/multiobjective/ops.py | sort_by_dominance, fast_nondominated_sort, rank_ordinal_sort, per_rank_crowding_calc, crowding_distance_calc | - |
| leap_ec/multiobjective/probe.py | ParetoPlotProbe2D.__init__, ParetoPlotProbe2D.__call__, ParetoPlotProbe2D.reset | - |
| leap_ec/multiobjective/problems.py | MultiObjectiveProblem.__init__, MultiObjectiveProblem.worse_than, MultiObjectiveProblem.equivalent, SCHProblem.__init__, SCHProblem.evaluate, ZDTBenchmarkProblem.__init__, ZDT1Problem.bounds, ZDT1Problem.evaluate, ZDT2Problem.bounds, ZDT2Problem.evaluate, ZDT3Problem.bounds, ZDT3Problem.evaluate, ZDT4Problem.bounds, ZDT4Problem.evaluate, ZDT5Problem.__init__, ZDT5Problem.phenome_length, ZDT5Problem.evaluate, ZDT6Problem.bounds, ZDT6Problem.evaluate | ZDTBenchmarkProblem.bounds, ZDT1Problem.__init__, ZDT2Problem.__init__, ZDT3Problem.__init__, ZDT4Problem.__init__, ZDT5Problem.bounds, ZDT6Problem.__init__ |
| leap_ec/ops.py | iteriter_op, listlist_op, listiter_op, iterlist_op, evaluate, grouped_evaluate, const_evaluate, clone, Crossover.__init__, Crossover.__call__, UniformCrossover.recombine, NAryCrossover._pick_crossover_points, NAryCrossover.recombine, proportional_selection, sus_selection, truncation_selection, elitist_survival, tournament_selection, insertion_selection, naive_cyclic_selection, cyclic_selection, random_selection, pool, migrate, migration_metric, concat_combine, CooperativeEvaluate.__init__, CooperativeEvaluate.__call__, CooperativeEvaluate._choose_collaborators, CooperativeEvaluate._log_trial, compute_expected_probability, compute_population_values, random_bernoulli_vector | Operator.__call__, Crossover.recombine, UniformCrossover.__init__, NAryCrossover.__init__ |
| leap_ec/parsimony.py | lexical_parsimony, koza_parsimony | - |
| leap_ec/probe.py | print_probe, print_individual, BestSoFarProbe.__init__, BestSoFarProbe.__call__, BestSoFarIterProbe.__init__, BestSoFarIterProbe.__call__, FitnessStatsCSVProbe.__init__, FitnessStatsCSVProbe.write_header, FitnessStatsCSVProbe.write_comment, FitnessStatsCSVProbe.__call__, AttributesCSVProbe.__init__, AttributesCSVProbe.dataframe, AttributesCSVProbe.__call__, AttributesCSVProbe.get_row_dict, PopulationMetricsPlotProbe.__init__, PopulationMetricsPlotProbe.__call__, PopulationMetricsPlotProbe.reset, PopulationMetricsPlotProbe._rescale_ax, pairwise_squared_distance_metric, sum_of_variances_metric, num_fixated_metric, FitnessPlotProbe.__init__, CartesianPhenotypePlotProbe.__init__, CartesianPhenotypePlotProbe.__call__, CartesianPhenotypePlotProbe.__rescale_ax, HistPhenotypePlotProbe.__call__, HeatMapPhenotypeProbe.__call__, SumPhenotypePlotProbe.__init__, SumPhenotypePlotProbe.__call__, SumPhenotypePlotProbe.__rescale_ax, best_of_gen | _maybe_list, HistPhenotypePlotProbe.__init__, HeatMapPhenotypeProbe.__init__ |
| leap_ec/problem.py | Problem.evaluate_multiple, ScalarProblem.__init__, ScalarProblem.worse_than, ScalarProblem.equivalent, ConstantProblem.evaluate, ExternalProcessProblem.evaluate, ExternalProcessProblem.evaluate_multiple, FitnessOffsetProblem.__init__, FitnessOffsetProblem.evaluate, AverageFitnessProblem.__init__, AverageFitnessProblem.evaluate, AverageFitnessProblem.evaluate_multiple, AverageFitnessProblem.worse_than, AverageFitnessProblem.equivalent, concat_combine, CooperativeProblem.__init__, CooperativeProblem.evaluate, CooperativeProblem.evaluate_multiple, CooperativeProblem._choose_collaborators, AlternatingProblem.__init__, AlternatingProblem.get_current_problem, AlternatingProblem.evaluate, AlternatingProblem.worse_than, AlternatingProblem.equivalent | Problem.__init__, Problem.evaluate, Problem.worse_than, Problem.equivalent, FunctionProblem.__init__, FunctionProblem.evaluate, ConstantProblem.__init__, ConstantProblem.__str__, ExternalProcessProblem.__init__, FitnessOffsetProblem.__str__, CooperativeProblem._log_trial, CooperativeProblem.worse_than, CooperativeProblem.equivalent |
| leap_ec/real_rep/initializers.py | create_real_vector | - |
| leap_ec/real_rep/ops.py | mutate_gaussian, genome_mutate_gaussian, apply_hard_bounds | - |
| leap_ec/real_rep/problems.py | SpheroidProblem.evaluate, RastriginProblem.evaluate, RosenbrockProblem.evaluate, StepProblem.evaluate, NoisyQuarticProblem.evaluate, ShekelProblem.__init__, ShekelProblem.evaluate, GriewankProblem.evaluate, AckleyProblem.evaluate, WeierstrassProblem.evaluate, LangermannProblem.__init__, LangermannProblem.evaluate, LunacekProblem.__init__, LunacekProblem.evaluate, SchwefelProblem.evaluate, GaussianProblem.__init__, GaussianProblem.evaluate, CosineFamilyProblem.__init__, CosineFamilyProblem.evaluate, QuadraticFamilyProblem.__init__, QuadraticFamilyProblem.evaluate, QuadraticFamilyProblem.generate, ParabaloidProblem.__init__, ParabaloidProblem.evaluate, TranslatedProblem.__init__, TranslatedProblem.evaluate, ScaledProblem.__init__, ScaledProblem.evaluate, random_orthonormal_matrix, MatrixTransformedProblem.__init__, MatrixTransformedProblem.evaluate, plot_2d_problem, plot_2d_function, plot_2d_contour | SpheroidProblem.__init__, SpheroidProblem.worse_than, SpheroidProblem.__str__, RastriginProblem.__init__, RastriginProblem.worse_than, RastriginProblem.__str__, RosenbrockProblem.__init__, RosenbrockProblem.worse_than, RosenbrockProblem.__str__, StepProblem.__init__, StepProblem.worse_than, StepProblem.__str__, NoisyQuarticProblem.__init__, NoisyQuarticProblem.worse_than, NoisyQuarticProblem.__str__, ShekelProblem.worse_than, ShekelProblem.__str__, GriewankProblem.__init__, GriewankProblem.__str__, AckleyProblem.__init__, AckleyProblem.__str__, WeierstrassProblem.__init__, WeierstrassProblem.__str__, LangermannProblem.__str__, LunacekProblem.__str__, SchwefelProblem.__init__, SchwefelProblem.__str__, GaussianProblem.__str__, CosineFamilyProblem.__str__, QuadraticFamilyProblem.num_basins, QuadraticFamilyProblem.dimensions, TranslatedProblem.random, TranslatedProblem.__str__, ScaledProblem.__str__, MatrixTransformedProblem.random_orthonormal, MatrixTransformedProblem.__str__ |
| leap_ec/representation.py | Representation.create_individual, Representation.create_population | Representation.__init__ |
| leap_ec/segmented_rep/decoders.py | SegmentedDecoder.decode | SegmentedDecoder.__init__ |
| leap_ec/segmented_rep/initializers.py | create_segmented_sequence | - |
| leap_ec/segmented_rep/ops.py | apply_mutation, segmented_mutate, add_segment, remove_segment, copy_segment | - |
| leap_ec/simple.py | ea_solve | - |
| leap_ec/statistical_helpers.py | collect_distribution, _normalize_dicts, stochastic_chisquare, stochastic_equals, equals_uniform, equals_gaussian | - |
| leap_ec/util.py | wrap_curry, print_population, inc_generation, inc_births, get_step, print_list, birth_brander | is_sequence, is_flat, is_iterable |
