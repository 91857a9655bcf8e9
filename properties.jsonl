{"id": "C01", "title": "circular_buffer behaves as a bounded deque", "statement": "After any sequence of push_back/emplace_back, push_front/emplace_front, pop_front, pop_back, clear, reset and set_capacity calls that respect the documented preconditions, the elements visible through iteration, operator[], front(), back() and size() are those of the abstract bounded deque: pushing at one end of a full buffer drops exactly the element at the other end, every other operation keeps all other elements in order, size() never exceeds capacity().", "quantifier": "every element type, capacity, initial content and finite sequence of operations", "why_tests_cant": "The wrap-around position depends on the whole history of pushes and pops at both ends; the unit tests only walk a handful of fixed sequences on capacity 3-5 buffers.", "anchors": ["src/utility/circular_buffer.hpp: circular_buffer::emplace_back, emplace_front, pop_front, pop_back, set_capacity, reset, clear, operator[], size"]}
{"id": "C02", "title": "circular_buffer equality and range construction", "statement": "Two circular buffers compare equal exactly when they hold the same elements in the same order, regardless of where the elements sit in the storage; constructing a buffer of a given capacity from a range keeps the last `capacity` elements of the range, in order.", "quantifier": "every pair of buffers reached by arbitrary operation histories; every range and capacity", "why_tests_cant": "Equality must ignore the unobservable offset of the first element, which takes unboundedly many values across histories.", "anchors": ["src/utility/circular_buffer.hpp: operator==, circular_buffer(Iter, Iter, size_type)"]}
{"id": "C03", "title": "circular_buffer::set_capacity is exception safe", "statement": "If copying or moving an element throws while the capacity is being changed, no memory block is leaked, freed twice, or still used after having been freed.", "quantifier": "every buffer state, every new capacity and every point at which an element operation throws", "why_tests_cant": "Requires injecting a failure at every element transfer and observing the allocator; the tests never throw from an element constructor.", "anchors": ["src/utility/circular_buffer.hpp: set_capacity"]}
{"id": "C04", "title": "fifo_cache refines a bounded insertion-ordered map", "statement": "After any history of insert/try_insert/get/reset/clear calls, get(k) returns the value most recently associated with k if k is among the `capacity` most recently added distinct keys (in order of first insertion), and nothing otherwise; size() never exceeds the capacity and eviction always removes the oldest key; with capacity 0 nothing is ever stored.", "quantifier": "every key and value type with decidable key equality, every capacity, every operation history", "why_tests_cant": "Stale bookkeeping (an evicted key still queued, or the reverse) only shows up for particular long interleavings of re-insertions and evictions.", "anchors": ["src/utility/cache.hpp: fifo_cache::insert, try_insert, get, contains, reset, clear, size"]}
{"id": "C05", "title": "fifo_cache bulk insertion agrees with inserting one by one", "statement": "Inserting a range of items with insert(first, last, f) leaves the cache with the same observable content as inserting the items of the range one after another.", "quantifier": "every cache state and every range, including ranges with duplicate keys and ranges longer than the capacity", "why_tests_cant": "The shortcut that skips all but the last `capacity` items is only observable when the range is longer than the capacity and has duplicates or already present keys.", "anchors": ["src/utility/cache.hpp: fifo_cache::insert(Iter, Iter, F)"]}
{"id": "C06", "title": "dynamic_bitset behaves as a sequence of booleans", "statement": "After any sequence of construction, resize, fill, element assignment and complement operations, size(), operator[], popcount(), any_set(), all_set(), none_set(), find_first() and == return what they would return for the corresponding plain sequence of booleans; in particular resize(n, v) keeps the existing bits and gives every new bit the value v.", "quantifier": "every size, every bit pattern and every finite operation sequence", "why_tests_cant": "Faults live at 64-bit block boundaries and in the unused bits of the last block, which are invisible until a later operation exposes them.", "anchors": ["src/utility/dynamic_bitset.hpp: dynamic_bitset::resize, fill, clear, popcount, any_set, all_set, find_first, operator~, operator==", "src/utility/bit.hpp: mask_right_n, is_nth_bit_set, set_nth_bit"]}
{"id": "C07", "title": "dynamic_bitset queries are defined on an empty bitset", "statement": "Calling popcount(), any_set(), all_set(), none_set(), find_first(), operator~ or == on a bitset of size 0 is well defined and never touches storage that does not exist.", "quantifier": "every way of obtaining an empty bitset and every query", "why_tests_cant": "Reading the last block of an empty block vector is undefined behaviour and may appear to work under test.", "anchors": ["src/utility/dynamic_bitset.hpp: partial_block, popcount, any_set, all_set, operator==, operator~"]}
{"id": "C08", "title": "small_vector behaves as a sequence", "statement": "After any sequence of push_back, emplace, insert (single, count, range), erase, resize, assign, swap, copy/move assignment, reserve, shrink_to_fit, clear operations the visible contents equal those of a plain sequence under the same operations; insert returns an iterator to the first inserted element, which holds the inserted value.", "quantifier": "every element type, inline capacity, position, count and operation history", "why_tests_cant": "The in-place insertion path is only taken when spare capacity exists and behaves differently depending on how the tail length compares with the inserted count.", "anchors": ["src/utility/small_vector.hpp: insert, emplace, erase, resize_impl, assign, swap, reallocate_*"]}
{"id": "C09", "title": "small_vector constructs and destroys every element exactly once", "statement": "Over any history of operations followed by destruction, every object that is constructed in the vector's storage is destroyed exactly once, and nothing that is not a live object is destroyed.", "quantifier": "every history of operations, every size and both storage modes (inline and heap)", "why_tests_cant": "Destroying a slot that holds no object is undefined behaviour that is invisible for trivial element types used in most tests.", "anchors": ["src/utility/small_vector.hpp: pop_back, emplace_back, erase, clear, resize_impl, ~small_vector"]}
{"id": "C10", "title": "Matrix row and column views agree with a list of rows", "statement": "For any sequence of append_row, resize with unchanged column count, reserve, row assignment and row swap, m(i,j), m[i], column iteration, nrows/ncols and == describe the same rectangular list of rows; appending a row adds it at the end and leaves all other entries unchanged.", "quantifier": "every matrix shape, content and operation sequence", "why_tests_cant": "Index arithmetic over flat storage has to be right for all shapes, including empty matrices and zero columns.", "anchors": ["src/utility/matrix.hpp: Matrix::append_row, resize, operator(), column, operator==, nrows, pop_back, row swap"]}
{"id": "C11", "title": "Ordered search returns the first element not less than the value", "statement": "On any range partitioned by the comparison, lower_bound returns the position of the first element that is not less than the value (the end if there is none), for every length; it never reads outside the range.", "quantifier": "every range length and content, every comparison and value", "why_tests_cant": "The switch from halving to linear scanning happens at a fixed length, so correctness has to be argued for all lengths and all hit positions.", "anchors": ["src/utility/algorithm.hpp: lower_bound"]}
{"id": "C12", "title": "argsort and partial_argsort return ordered permutations of the indices", "statement": "argsort returns a permutation of the indices of the range such that reading the range through it is ordered by the comparison; partial_argsort returns a permutation whose first elements are ordered and not worse than any of the rest; argmax/argmin/max_element/min_element return the first extremal position.", "quantifier": "every range and every strict weak ordering", "why_tests_cant": "Claims about all permutations, ties and lengths.", "anchors": ["src/utility/algorithm.hpp: argsort, partial_argsort, argmax, argmin, max_element, min_element"]}
{"id": "C13", "title": "Sequence helpers meet their set-level specifications", "statement": "erase_duplicates leaves every distinct element exactly once; find_indices returns exactly the matching indices in increasing order; select picks elements in index order; elementwise_min/max are the pointwise extrema; partial_shuffle only permutes the range and leaves the part outside the chosen prefix a permutation; index_of and erase_first_stable act on the first occurrence only.", "quantifier": "every input sequence", "why_tests_cant": "Set-level postconditions over all lengths and duplicate patterns.", "anchors": ["src/utility/algorithm.hpp: erase_duplicates, find_indices, select, elementwise_min, elementwise_max, partial_shuffle, index_of, erase_first_stable"]}
{"id": "C14", "title": "Tolerant floating point comparison is a consistent trichotomy", "statement": "For all finite numbers and all non-negative tolerances exactly one of less, equal, greater holds; floatIsEqual is symmetric, floatIsLess is asymmetric and floatIsGreater is its converse, floatCompare's sign agrees with them; a number is always equal to itself; with both tolerances 0 the comparisons coincide with the exact ones.", "quantifier": "every pair of finite doubles and every tolerance setting", "why_tests_cant": "The space of double pairs near the tolerance boundary is far beyond enumeration and rounding in the tolerance computation matters.", "anchors": ["src/utility/math.hpp: floatCompare, floatIsEqual, floatIsLess, floatIsGreater, floatIsLessAssumeNotGreater"]}
{"id": "C15", "title": "Scoped tolerances are always restored", "statement": "After any properly nested use of ScopedTolerances, including scopes left by exceptions, the global tolerances have the values they had before the scope was entered.", "quantifier": "every nesting depth and order of scopes", "why_tests_cant": "Nesting depth is unbounded.", "anchors": ["src/utility/math.hpp: ScopedTolerances, Tolerances"]}
{"id": "C16", "title": "Pareto dominance is a strict partial order", "statement": "The dominance relation decided by paretoCompareLess is irreflexive, asymmetric and transitive, for every number of objectives and for the tolerances in force.", "quantifier": "every triple of fitness vectors and every tolerance setting", "why_tests_cant": "Transitivity failures need triples whose coordinates differ by amounts near the tolerance.", "anchors": ["src/utility/math.cpp: paretoCompareLess"]}
{"id": "C17", "title": "The two dominance tests agree", "statement": "For all fitness vectors a, b of equal length paretoCompare(a,b) is negative exactly when paretoCompareLess(a,b), positive exactly when paretoCompareLess(b,a), and zero otherwise.", "quantifier": "every pair of fitness vectors and tolerances", "why_tests_cant": "The two functions scale the relative tolerance differently, so they only differ on a thin set of inputs.", "anchors": ["src/utility/math.cpp: paretoCompareLess, paretoCompare", "src/utility/math.hpp: floatIsLessAssumeNotGreater"]}
{"id": "C18", "title": "Pareto front computation returns exactly the non-dominated points", "statement": "With exact comparison, findParetoFront (and each of its sort-based, best-first and divide-and-conquer variants) returns exactly the set of indices of the points not dominated by any other point, each index once; all variants return the same set.", "quantifier": "every non-empty fitness matrix and every number of objectives", "why_tests_cant": "Quantifies over all point sets, duplicates and dominance patterns, and relates four different algorithms.", "anchors": ["src/core/population.cpp: findParetoFront, findParetoFront1D, findParetoFrontSort, findParetoFrontBest, findParetoFrontKung"]}
{"id": "C19", "title": "Pareto front computation is safe for any comparison outcome", "statement": "Whatever the tolerant comparison answers (even if it is not transitive), the front computations terminate, read only valid indices, return at least one index, never an index twice.", "quantifier": "every population size and every possible outcome of the pairwise comparisons", "why_tests_cant": "Tolerance makes dominance non-transitive; an in-place partitioning loop must not run off its range or loop forever for any of the exponentially many outcome tables.", "anchors": ["src/core/population.cpp: findParetoFrontBest, findParetoFrontSort, findParetoFrontKung"]}
{"id": "C20", "title": "Front computation respects dominance under tolerance", "statement": "No point returned by findParetoFront dominates another returned point (dominance as decided by paretoCompareLess under the tolerances in force), and every non-returned point is dominated by a returned one.", "quantifier": "every fitness matrix and tolerance setting", "why_tests_cant": "Needs points whose differences straddle the tolerance in different objectives.", "anchors": ["src/core/population.cpp: findParetoFrontSort, findParetoFrontBest, findParetoFront1D", "src/utility/math.cpp: paretoCompareLess"]}
{"id": "C21", "title": "Merging Pareto sets is correct under every thread schedule", "statement": "Given two sets each without internal dominance, mergeParetoSets returns exactly the members of the two sets that are not dominated by any member of either, in the same order, for every interleaving of the parallel tasks and every value the relaxed atomic loads may return.", "quantifier": "every pair of mutually non-dominating candidate sets and every interleaving of the per-candidate tasks", "why_tests_cant": "The states of one set are shared between tasks through relaxed atomics; the number of interleavings is astronomically large.", "anchors": ["src/core/population.hpp: mergeParetoSets"]}
{"id": "C22", "title": "Non-dominated sorting assigns the true dominance depth", "statement": "With exact comparison, nonDominatedSort lists every index exactly once in order of non-decreasing rank, ranks are consecutive from 0, a point has rank 0 iff nothing dominates it, and rank r+1 iff it is dominated by a point of rank r and by none of rank greater than r.", "quantifier": "every fitness matrix and number of objectives", "why_tests_cant": "A global property of all chains in the dominance order.", "anchors": ["src/algorithm/nd_sort.cpp: efficientNonDominatedSort, nonDominatedSort"]}
{"id": "C23", "title": "All non-dominated sorting algorithms agree", "statement": "With exact comparison, the fast non-dominated sort, the dominance degree sort and the efficient non-dominated sort assign the same rank to every point and all terminate.", "quantifier": "every fitness matrix; every schedule of the per-objective tasks of the dominance degree sort", "why_tests_cant": "Relates three algorithms on all inputs.", "anchors": ["src/algorithm/nd_sort.cpp: fastNonDominatedSort, dominanceDegreeSort, efficientNonDominatedSort"]}
{"id": "C24", "title": "Non-dominated sorting terminates for every comparison outcome", "statement": "Every non-dominated sorting routine terminates for every fitness matrix and tolerance setting.", "quantifier": "every fitness matrix and tolerance setting, including those where tolerant dominance is cyclic", "why_tests_cant": "Cycles in tolerant dominance need three or more points with differences close to the tolerance.", "anchors": ["src/algorithm/nd_sort.cpp: fastNonDominatedSort, dominanceDegreeSort", "src/utility/math.cpp: paretoCompare"]}
{"id": "C25", "title": "Views of the sorted fronts are consistent", "statement": "ranks() maps every index to its rank; fronts() splits the sorted elements into the maximal runs of equal rank, in order, covering all elements; partialFront(n) is empty when the first n elements end on a front boundary and otherwise is the whole front that is cut by position n; resize(n) keeps the first n elements.", "quantifier": "every rank-sorted list of elements and every cut position", "why_tests_cant": "Boundary behaviour must be right at every cut position of every front structure.", "anchors": ["src/algorithm/nd_sort.cpp: ParetoFronts::ranks, fronts, partialFront, resize"]}
{"id": "C26", "title": "Nadir point is the objective-wise worst of the front", "statement": "findNadirPoint returns, for each objective, the minimum of that objective over the non-dominated points of the matrix; findFrontNadirPoint returns it over all rows.", "quantifier": "every non-empty fitness matrix", "why_tests_cant": "Universal claim about all matrices.", "anchors": ["src/core/population.cpp: findNadirPoint, findFrontNadirPoint"]}
{"id": "C27", "title": "Permutation crossovers always produce permutations", "statement": "For every pair of parents that are permutations of the same genes and for every random choice, order1, order2, position, cycle, edge and PMX crossover terminate and both children are permutations of the same genes.", "quantifier": "every chromosome length, every pair of parent permutations, every random outcome", "why_tests_cant": "There are (n!)^2 parent pairs times all cut points; a single bad case produces an invalid tour and is silently carried on.", "anchors": ["src/crossover/crossover_impl.hpp: order1CrossoverImpl, order2CrossoverImpl, positionCrossoverImpl, cycleCrossoverImpl, edgeCrossoverImpl, pmxCrossoverImpl", "src/crossover/permutation.cpp", "src/crossover/neighbour_list.hpp"]}
{"id": "C28", "title": "Order crossovers keep the segment and the relative order", "statement": "order1 copies the chosen segment of the first parent in place and fills the other positions, starting after the segment and wrapping around, with the remaining genes in the order they have in the second parent; order2 and position-based crossover keep the relative order of the second parent's genes in the remaining places.", "quantifier": "every pair of parent permutations and every segment or index set", "why_tests_cant": "A positional and order relation over all permutations and cut points.", "anchors": ["src/crossover/crossover_impl.hpp: order1CrossoverImpl, order2CrossoverImpl, positionCrossoverImpl"]}
{"id": "C29", "title": "Generic and specialised permutation crossover implementations agree", "statement": "For parents consisting of the integers 0..n-1 the index-table implementations of order1, order2, position, cycle and PMX crossover return the same children as the generic implementations.", "quantifier": "every n, every pair of permutations of 0..n-1 and every random outcome", "why_tests_cant": "Two separately written implementations must coincide on all inputs.", "anchors": ["src/crossover/crossover_impl.hpp: isValidIntegerPermutation and both overloads of order1/order2/position/cycle/pmx"]}
{"id": "C30", "title": "Cycle crossover takes every gene from the same position of a parent", "statement": "At every position the first child carries the gene of one parent at that position and the second child the gene of the other parent, and the choice is constant on each cycle of the permutation relating the parents.", "quantifier": "every pair of parent permutations", "why_tests_cant": "All cycle structures.", "anchors": ["src/crossover/crossover_impl.hpp: findOddCycleIndices, cycleCrossoverImpl"]}
{"id": "C31", "title": "PMX keeps the chosen segment and uses the other parent elsewhere when possible", "statement": "The child of PMX carries the first parent's genes on the chosen segment and the second parent's gene at every other position whose gene is not in the segment.", "quantifier": "every pair of parent permutations and segment", "why_tests_cant": "All permutations and cut points.", "anchors": ["src/crossover/crossover_impl.hpp: pmxCrossoverImpl"]}
{"id": "C32", "title": "Point and uniform crossovers only exchange genes position-wise", "statement": "For n-point, single-point, two-point and uniform crossover, at every position the two children carry the two parents' genes of that position (possibly swapped); for n-point crossover the first child carries the first parent's gene exactly at the positions with an odd number of crossover points at or before them, single-point swaps before the point, two-point between the points and uniform at the drawn positions.", "quantifier": "every chromosome length, parents, number and placement of crossover points", "why_tests_cant": "All lengths, point sets and boundary placements.", "anchors": ["src/crossover/crossover_impl.hpp: nPointCrossoverImpl, singlePointCrossoverImpl, twoPointCrossoverImpl", "src/crossover/binary.cpp", "src/crossover/integer.cpp"]}
{"id": "C33", "title": "Crossover marks children evaluated only with a correct fitness", "statement": "A child returned by the crossover operator is marked as evaluated only if its chromosome is the chromosome of an evaluated parent, and then it carries that parent's fitness.", "quantifier": "every crossover method, every pair of parents and every random outcome, every gene type", "why_tests_cant": "Depends on coincidences between children and parents for arbitrary operators.", "anchors": ["src/crossover/crossover_base.impl.hpp: Crossover::operator()", "src/core/candidate.hpp: operator=="]}
{"id": "C34", "title": "Real coded crossovers keep genes within the bounds", "statement": "Every gene of the children of arithmetic, BLX-alpha, simulated binary and Wright crossover lies within the bounds of that gene.", "quantifier": "every pair of in-bounds parents, every parameter value and random outcome", "why_tests_cant": "Continuous inputs with rounding at the bounds.", "anchors": ["src/crossover/real.cpp"]}
{"id": "C35", "title": "Permutation mutations always produce permutations", "statement": "For every permutation and every random outcome, inversion, swap2, swap3, shuffle and shift mutation return a permutation of the same genes and touch only valid positions.", "quantifier": "every chromosome length (including 0, 1, 2), range parameter in [0,1] and random outcome", "why_tests_cant": "All lengths, all parameters and all random outcomes.", "anchors": ["src/mutation/permutation.cpp: Inversion, Swap2, Swap3, Shuffle, Shift"]}
{"id": "C36", "title": "Permutation mutations respect the sampling preconditions", "statement": "For every chromosome length and every range parameter in [0,1] the mutation operators only ask for a number of distinct random positions that exist in the sampled range.", "quantifier": "every chromosome length, every range_max in the documented closed interval [0,1], every random outcome", "why_tests_cant": "Only the extreme parameter value together with an extreme draw triggers it.", "anchors": ["src/mutation/permutation.cpp: Shift, Inversion, Shuffle", "src/utility/rng.hpp: sampleUnique"]}
{"id": "C37", "title": "Real coded mutations keep genes within the bounds", "statement": "Every gene produced by boundary, Gauss, non-uniform, polynomial and uniform mutation lies within the bounds of that gene.", "quantifier": "every in-bounds chromosome, bounds, parameters and random outcome", "why_tests_cant": "Continuous inputs; rounding can push a value over a bound.", "anchors": ["src/mutation/real.cpp", "src/utility/rng.hpp: randomReal"]}
{"id": "C38", "title": "Integer uniform mutation picks another in-range value and terminates", "statement": "For every bounds vector accepted by the GA the uniform mutation terminates, every changed gene lies in its bounds and differs from the old value.", "quantifier": "every integer chromosome, every bounds vector with lower <= upper, every random outcome", "why_tests_cant": "Degenerate bounds (a single value) make the redraw loop diverge.", "anchors": ["src/mutation/integer.cpp: Uniform"]}
{"id": "C39", "title": "Mutation keeps the evaluated flag only for unchanged candidates", "statement": "After applying a mutation operator a candidate is still marked evaluated only if its chromosome is unchanged, so its stored fitness is the fitness of its chromosome.", "quantifier": "every mutation operator, gene type, candidate and random outcome", "why_tests_cant": "For real genes the comparison is tolerant, so tiny changes count as none.", "anchors": ["src/mutation/mutation_base.impl.hpp: Mutation::operator()", "src/core/candidate.hpp"]}
{"id": "C40", "title": "Zero probability operators never act and probability one always acts", "statement": "With mutation rate 0 no mutation operator changes a candidate, and with crossover rate 0 the crossover returns copies of the parents, for every value the generator can return.", "quantifier": "every random outcome in [0,1)", "why_tests_cant": "The deviating draw has probability about 2^-53.", "anchors": ["src/mutation/permutation.cpp", "src/utility/rng.hpp: randomBinomialExact", "src/crossover/crossover_base.impl.hpp"]}
{"id": "C41", "title": "Replacement operators select a valid next generation", "statement": "KeepChildren, Elitism and KeepBest return exactly population_size distinct indices into the combined parents-and-children population; KeepChildren returns all children; Elitism returns the n best parents and the first population_size-n children; KeepBest returns the population_size best members overall.", "quantifier": "every population size, fitness values (ties included) and elite count", "why_tests_cant": "All fitness patterns including ties and elite counts at or above the population size.", "anchors": ["src/algorithm/soga_replacement.cpp: KeepChildren, Elitism, KeepBest"]}
{"id": "C42", "title": "Best fitness never decreases under elitist replacement", "statement": "With Elitism (n >= 1) or KeepBest replacement and a static fitness function the best fitness in the population never decreases over the whole run.", "quantifier": "every fitness function, operator choice, random outcome and number of generations", "why_tests_cant": "A statement about whole runs of arbitrary length.", "anchors": ["src/algorithm/soga_replacement.cpp", "src/algorithm/algorithm_base.impl.hpp: nextPopulation", "src/core/ga_base.impl.hpp: advance"]}
{"id": "C43", "title": "Selection operators return members of the population", "statement": "Roulette, tournament, rank, sigma and Boltzmann selection always return a valid population index; tournament returns a best member of the sampled contestants; a member with weight zero is never chosen by the weight based methods when some member has positive weight and the draw is positive.", "quantifier": "every population, parameters and random outcome", "why_tests_cant": "All populations, all draws including the extremes of [0,1).", "anchors": ["src/algorithm/soga_selection.cpp", "src/utility/rng.hpp: sampleCdf"]}
{"id": "C44", "title": "Sigma scaling depends on its scale parameter", "statement": "The scale parameter of sigma selection influences the selection weights as documented (weights are 1 + (f - mean)/(scale * std)).", "quantifier": "every fitness vector and pair of scale values", "why_tests_cant": "Requires comparing the weight functions for all scales.", "anchors": ["src/algorithm/soga_selection.cpp: Sigma::prepareSelectionsImpl", "src/algorithm/soga_selection.hpp: Sigma"]}
{"id": "C45", "title": "NSGA-II keeps the best ranked distinct candidates", "statement": "The next population chosen by NSGA-II consists of population_size distinct members of the combined population; no chosen member is dominated by a member that was not chosen; all members of fronts that fit entirely are chosen; from the front that is cut the chosen ones have crowding distances at least as large as the rejected ones.", "quantifier": "every combined population and number of objectives", "why_tests_cant": "All front structures and distance ties.", "anchors": ["src/algorithm/nsga2.cpp: nextPopulationImpl, crowdingDistances"]}
{"id": "C46", "title": "NSGA-II selection compares each candidate by its own rank and crowding distance", "statement": "When NSGA-II selects a parent it compares the two drawn candidates by the ranks and crowding distances of those very candidates in the current population.", "quantifier": "every population and pair of drawn candidates", "why_tests_cant": "A misaligned auxiliary array still produces plausible selections.", "anchors": ["src/algorithm/nsga2.cpp: nextPopulationImpl, selectImpl, initializeImpl"]}
{"id": "C47", "title": "NSGA-III keeps the best ranked distinct candidates", "statement": "The next population chosen by NSGA-III consists of population_size distinct members of the combined population, contains all members of every front that fits entirely and takes the rest only from the front that is cut.", "quantifier": "every combined population, reference set and random outcome", "why_tests_cant": "All front structures, associations and random tie breaks.", "anchors": ["src/algorithm/nsga3.cpp: nextPopulationImpl, createPopulation"]}
{"id": "C48", "title": "NSGA-III niching picks the least crowded reference line and its remaining closest member", "statement": "Each candidate added from the cut front is a not yet chosen member associated with a reference line that has the smallest niche count among the lines having unchosen associated members, and the list of lines stays ordered by niche count.", "quantifier": "every partial front, association and niche count state", "why_tests_cant": "The order of the reference lines changes after every pick.", "anchors": ["src/algorithm/nsga3.cpp: nextPopulationImpl, findClosestAssociated, incrementNicheCount, referenceSetOf"]}
{"id": "C49", "title": "Stored fitness is always the fitness of the stored chromosome", "statement": "With a static fitness function every candidate of the population, at the end of every generation, and every returned solution is marked evaluated and carries exactly the value of the fitness function on its chromosome, whatever crossover, mutation, repair function, cache size and algorithm are used.", "quantifier": "every static fitness function, exact-equality gene type, operator behaviour, cache size and run length", "why_tests_cant": "Stale fitness can survive through equality shortcuts, the cache, repair, and moves across unboundedly many generations.", "anchors": ["src/core/ga_base.impl.hpp: evaluate, repair, updatePopulation, advance, solve", "src/crossover/crossover_base.impl.hpp", "src/mutation/mutation_base.impl.hpp", "src/utility/cache.hpp"]}
{"id": "C50", "title": "Population size is invariant", "statement": "At the end of every generation the population has exactly population_size members and the fitness matrix has one row per member equal to its fitness.", "quantifier": "every configuration and run length, odd and even population sizes", "why_tests_cant": "A run-long invariant over arbitrary operators.", "anchors": ["src/core/ga_base.impl.hpp: generatePopulation, advance, updatePopulation", "src/algorithm/algorithm_base.impl.hpp: nextPopulation"]}
{"id": "C51", "title": "A run lasts at most max_gen generations and calls the hooks once per generation", "statement": "solve terminates after at most max(1, generations) generations; metrics and the end-of-generation callback are run exactly once per generation, the stop condition is evaluated exactly once per generation after them; max_gen has its previous value after solve returns, and the counters are reset at the start of each run.", "quantifier": "every generation limit, stop condition behaviour and sequence of solve calls", "why_tests_cant": "Claims about arbitrary long runs and arbitrary stateful stop conditions.", "anchors": ["src/core/ga_base.impl.hpp: solve, advance, initializeAlgorithm", "src/stop_condition/stop_condition_base.cpp"]}
{"id": "C52", "title": "The generation counter identifies the generation in the callbacks", "statement": "When the end-of-generation callback or a metric is run for the k-th generation of a run (the initial population being generation 0), generation_cntr() returns k.", "quantifier": "every run and generation", "why_tests_cant": "Needs the full history of counter updates against callback times.", "anchors": ["src/core/ga_base.impl.hpp: advance, initializeAlgorithm", "src/core/ga_info.hpp: generation_cntr"]}
{"id": "C53", "title": "num_fitness_evals counts the fitness function calls of the run", "statement": "After any number of generations num_fitness_evals() equals the number of calls made to the fitness function to evaluate candidates in the current run, under any schedule of the parallel evaluation; with a static fitness function a candidate already evaluated or found in the cache is not evaluated again.", "quantifier": "every run, schedule and cache size", "why_tests_cant": "Concurrent increments and history dependent cache hits.", "anchors": ["src/core/ga_base.impl.hpp: evaluate"]}
{"id": "C54", "title": "The fitness cache is transparent", "statement": "For a deterministic static fitness function, a run with any cache size produces the same sequence of populations and solutions as the run without a cache given the same random outcomes, with no more fitness evaluations.", "quantifier": "every cache size, run length and operator outcome", "why_tests_cant": "A relational property of pairs of whole runs.", "anchors": ["src/core/ga_base.impl.hpp: evaluate, updatePopulation", "src/utility/cache.hpp"]}
{"id": "C55", "title": "Returned solutions are mutually non-dominating and complete", "statement": "The solutions returned by solve are non-dominated among themselves, contain no two equal chromosomes, and, when keep_all_optimal_solutions is set, no candidate that was ever a member of the population after a generation dominates any of them and every such candidate is dominated by or equal in fitness to one of them.", "quantifier": "every run length and configuration, exact comparison", "why_tests_cant": "Accumulates over the whole run and over merges in every generation.", "anchors": ["src/core/ga_base.impl.hpp: updateOptimalSolutions, solve, initializeAlgorithm", "src/core/population.hpp: mergeParetoSets"]}
{"id": "C56", "title": "The initial population is honoured", "statement": "The first min(population_size, n) given initial candidates are the first members of the initial population, unchanged, and the rest is generated.", "quantifier": "every given initial population and population size", "why_tests_cant": "All sizes, including longer than the population.", "anchors": ["src/core/ga_base.impl.hpp: generatePopulation"]}
{"id": "C57", "title": "Caching is disabled for dynamic fitness functions", "statement": "With a dynamic fitness function every candidate passed to evaluation is evaluated anew, the cache stays empty and no internal assertion fails, for every cache size setting.", "quantifier": "every cache size and run", "why_tests_cant": "Configuration combination and assertion-enabled builds.", "anchors": ["src/core/ga_base.impl.hpp: evaluate, initializeAlgorithm"]}
{"id": "C58", "title": "Stall conditions stop after exactly `patience` generations without improvement", "statement": "FitnessMeanStall and FitnessBestStall stop at the first generation at which the observed metric has failed to improve by more than delta on the best value so far for more than `patience` consecutive generations, and never before; the state is reset when a new run starts.", "quantifier": "every sequence of observed metric values, patience and delta", "why_tests_cant": "Counter behaviour over arbitrary histories, including the boundary where improvement and exhaustion coincide.", "anchors": ["src/stop_condition/stop_condition.cpp: FitnessMeanStall, FitnessBestStall, metricImproved"]}
{"id": "C59", "title": "FitnessValue stops only when the threshold is reached", "statement": "The fitness value condition stops the run only when some candidate of the population has fitness equal to or better than the threshold.", "quantifier": "every population and threshold vector, any number of objectives", "why_tests_cant": "Incomparable vectors exist only with several objectives.", "anchors": ["src/stop_condition/stop_condition.cpp: FitnessValue"]}
{"id": "C60", "title": "Composed stop conditions compute the boolean combination", "statement": "The value of a composed condition (and, or, not, nested arbitrarily) in every generation is the boolean combination of the values its parts would give if each were run on its own on the same history.", "quantifier": "every expression over stateful conditions and every history", "why_tests_cant": "Short-circuit evaluation skips state updates of a part only in some histories.", "anchors": ["src/stop_condition/composite.hpp: OR, AND, NOT"]}
{"id": "C61", "title": "Hypervolume equals the measure of the dominated region", "statement": "The hypervolume of a set of points relative to a reference point dominated by all of them equals the measure of the union of the boxes spanned by the reference point and the points, independently of point order, duplicates, and of the order in which the parallel partial sums are added (exact arithmetic).", "quantifier": "every finite set of points with integer coordinates, every number of objectives, every schedule", "why_tests_cant": "The recursive exclusive-volume algorithm has to be right for all point sets in all dimensions.", "anchors": ["src/metrics/pop_stats.cpp: hypervolume, exclusiveHypervolume, inclusiveHypervolume, limitSet, uniqueSortedParetoFront"]}
{"id": "C62", "title": "Automatic hypervolume is relative to one common reference point", "statement": "After every generation each recorded value of the automatic hypervolume metric equals the hypervolume of the front of its generation relative to the current (objective-wise worst so far) reference point.", "quantifier": "every sequence of populations, any number of objectives", "why_tests_cant": "The incremental correction is only wrong for particular front shapes in three or more objectives.", "anchors": ["src/metrics/distribution_metrics.cpp: AutoHypervolume::update"]}
{"id": "C63", "title": "Population statistics are the exact extremes and sums", "statement": "Minimum, maximum and mean fitness metrics report per objective the minimum, maximum and mean over the population; the per generation evaluation metric sums to the total number of evaluations; every metric has exactly one entry per generation.", "quantifier": "every population and run length", "why_tests_cant": "Universal over populations and runs.", "anchors": ["src/metrics/pop_stats.cpp", "src/metrics/misc_metrics.cpp", "src/metrics/fitness_metrics.cpp"]}
{"id": "C64", "title": "Random real numbers stay in the half-open interval", "statement": "randomReal() is in [0,1) and randomReal(a,b) is in [a,b) for all finite a < b, for every generator output.", "quantifier": "every 64-bit generator output and every pair of bounds", "why_tests_cant": "Rounding to the upper bound needs specific bounds or draws.", "anchors": ["src/utility/rng.hpp: randomReal"]}
{"id": "C65", "title": "Unique sampling returns distinct numbers in range", "statement": "sampleUnique(lo, hi, n) returns n pairwise distinct numbers in [lo, hi) whenever n <= hi - lo, for every generator output.", "quantifier": "every range, count and random outcome", "why_tests_cant": "Collisions that expose faulty bookkeeping are rare for large ranges.", "anchors": ["src/utility/rng.hpp: sampleUnique, sampleUniqueSet"]}
{"id": "C66", "title": "CDF sampling returns a valid index", "statement": "sampleCdf returns an index smaller than the length of the cumulative distribution, and never one whose own weight is zero for a positive draw, for every draw in [0,1).", "quantifier": "every non-decreasing cumulative distribution with positive finite total, every draw", "why_tests_cant": "Extreme draws and rounding.", "anchors": ["src/utility/rng.hpp: sampleCdf", "src/utility/algorithm.hpp: lower_bound"]}
{"id": "C67", "title": "The generator never enters the all-zero state", "statement": "For every 64-bit seed the state of the pseudo random generator after seeding, stepping and jumping any number of times is not the all-zero fixed point.", "quantifier": "every seed, any number of steps and jumps", "why_tests_cant": "2^64 seeds and unbounded sequences.", "anchors": ["src/utility/rng.hpp: Xoroshiro128p, Splitmix64"]}
{"id": "C68", "title": "jump() advances the generator by exactly 2^96 steps", "statement": "For every state, jump() leaves the generator in the state it would have after 2^96 single steps.", "quantifier": "all 2^128 states", "why_tests_cant": "2^96 steps cannot be executed.", "anchors": ["src/utility/rng.hpp: Xoroshiro128p::jump"]}
{"id": "C69", "title": "The generator has full period and per-thread streams do not overlap", "statement": "The state sequence from any nonzero state visits all 2^128-1 nonzero states before repeating; hence the states used by generators created for different threads (successive jumps) are disjoint as long as each thread draws fewer than 2^96 numbers and there are at most 2^32 threads.", "quantifier": "every seed, number of threads below 2^32 and number of draws below 2^96", "why_tests_cant": "Not executable.", "anchors": ["src/utility/rng.hpp: Xoroshiro128p, ConcurrentXoroshiro128p"]}
{"id": "C70", "title": "Random booleans are the generator's bits, each used once", "statement": "The sequence of random booleans drawn from the bool distribution is the concatenation of the low 63 bits of successive generator outputs, so no bit is dropped, repeated or invented.", "quantifier": "every generator output sequence and number of draws", "why_tests_cant": "All bit patterns, including all zero and all one words.", "anchors": ["src/utility/distribution.hpp: uniform_bool_distribution"]}
{"id": "C71", "title": "Random binomial draws lie between 0 and n", "statement": "randomBinomial(n, p) returns a value in [0, n] for every p in [0,1] and every generator output, by whichever approximation is used.", "quantifier": "every n, p and random outcome", "why_tests_cant": "Tails of the normal and Poisson approximations.", "anchors": ["src/utility/rng.hpp: randomBinomial, randomBinomialExact, randomBinomialApproxNormal, randomBinomialApproxPoisson"]}
{"id": "C72", "title": "Quasi random points stay in the unit cube", "statement": "Every coordinate of every generated quasi random point lies in [0,1), for every dimension, seed and number of generated points.", "quantifier": "every dimension, seed point in [0,1) and number of steps", "why_tests_cant": "Unbounded number of steps.", "anchors": ["src/utility/qrng.hpp: QuasiRandom::operator(), discard, reset"]}
{"id": "C73", "title": "parallel_for applies the operation exactly once per element", "statement": "When parallel_for returns normally the operation has been applied exactly once to every element of the range and to nothing else, and all applications have completed, under every schedule and number of worker threads.", "quantifier": "every range length, block size, thread count and interleaving", "why_tests_cant": "Unboundedly many schedules.", "anchors": ["src/utility/thread_pool.hpp: execute_loop, parallel_for"]}
{"id": "C74", "title": "parallel_for propagates exceptions without leaving tasks behind", "statement": "If any application throws, parallel_for throws only after every submitted task has finished, so no task can access the caller's dead stack frame.", "quantifier": "every subset of throwing applications and every schedule", "why_tests_cant": "Requires the calling thread's own share to throw while a worker is still running.", "anchors": ["src/utility/thread_pool.hpp: execute_loop"]}
{"id": "C75", "title": "Nested parallel loops never deadlock", "statement": "Parallel loops started from inside parallel loops, to any finite depth, always complete, whatever the number of worker threads and the schedule.", "quantifier": "every finite fork-join tree, worker count and interleaving", "why_tests_cant": "Deadlocks depend on rare interleavings of waiting workers.", "anchors": ["src/utility/thread_pool.hpp: execute_loop, worker_main", "src/utility/latch.hpp"]}
{"id": "C76", "title": "The concurrent queue delivers every element once in order", "statement": "Elements are taken in the order they were put; every element put before close is taken exactly once by some consumer; take reports end only after close when the queue is empty; nothing is accepted after close.", "quantifier": "every number of producers and consumers and every interleaving", "why_tests_cant": "Unboundedly many interleavings.", "anchors": ["src/utility/concurrent_queue.hpp: emplace, take, close"]}
{"id": "C77", "title": "Spin locks provide mutual exclusion", "statement": "At most one thread holds the spinlock; a thread holding the shared lock exclusively excludes all other holders, while any number of shared holders may coexist, under every interleaving.", "quantifier": "every number of threads (below 2^31-1 for the shared lock) and every interleaving", "why_tests_cant": "Unboundedly many interleavings.", "anchors": ["src/utility/spinlock.hpp", "src/utility/shared_spinlock.hpp"]}
{"id": "C78", "title": "RCU protected data is not freed while being read", "statement": "A reader between lock_shared and unlock_shared never observes a freed object, whatever the number of readers and writers and the interleaving, including on hardware with store buffers.", "quantifier": "every number of readers and writers, every interleaving, sequentially consistent and store-buffer memory", "why_tests_cant": "The failing order needs a delayed store of the reader's epoch.", "anchors": ["src/utility/rcu.hpp: rcu_domain, rcu_obj"]}
{"id": "C79", "title": "Cone tree search finds the best match", "statement": "findBestMatch returns a point of the tree whose inner product with the query is maximal (the same value as a linear scan), for every tree built from any points and every query (exact arithmetic); building the tree only accesses live nodes.", "quantifier": "every finite point set, dimension and query", "why_tests_cant": "Pruning must never discard the best point for any geometry.", "anchors": ["src/utility/cone_tree.cpp: ConeTree::buildTree, findBestMatch"]}
{"id": "C80", "title": "Reference lines lie on the unit simplex", "statement": "Every reference point generated for NSGA-III has non-negative coordinates summing to 1, and exactly the requested number of distinct candidates of the generated set is picked.", "quantifier": "every dimension and number of points (exact arithmetic)", "why_tests_cant": "All quasi random points and all dimensions.", "anchors": ["src/algorithm/reference_lines.cpp"]}
{"id": "C81", "title": "Generated candidates are valid for their encoding", "statement": "generateCandidate of the binary, integer, permutation and real encodings returns chromosomes of length chrom_len whose genes are in {0,1}, within bounds, a permutation of 0..n-1, and within bounds, respectively.", "quantifier": "every chromosome length, bounds and random outcome", "why_tests_cant": "All lengths and outcomes.", "anchors": ["src/encoding/binary.cpp", "src/encoding/integer.cpp", "src/encoding/permutation.cpp", "src/encoding/real.cpp"]}
{"id": "C82", "title": "Bit flip mutation flips exactly the chosen genes", "statement": "Bit flip mutation of a binary chromosome flips as many different genes as the binomial draw says, leaves all others unchanged, and the genes stay 0 or 1.", "quantifier": "every binary chromosome shorter than 65536 genes, every rate in [0,1] and every random outcome", "why_tests_cant": "All chromosomes and all random outcomes.", "anchors": ["src/mutation/binary.cpp: Flip", "src/utility/rng.hpp: sampleUnique, randomBinomial"]}
{"id": "C83", "title": "Cycle crossover exchanges every second cycle", "statement": "The children of cycle crossover take the genes of the cycles, counted by their first position, alternately from their own parent and from the other one.", "quantifier": "every pair of parents with the same genes without repetition", "why_tests_cant": "All pairs of permutations of every length.", "anchors": ["src/crossover/crossover_impl.hpp: findOddCycleIndices, cycleCrossoverImpl"]}
{"id": "C84", "title": "Edge crossover follows the parents' edges", "statement": "After each gene of the child, edge crossover appends an unused neighbour of it with the fewest unused neighbours whenever there is one left.", "quantifier": "every pair of parents with the same genes without repetition", "why_tests_cant": "All pairs of permutations of every length.", "anchors": ["src/crossover/crossover_impl.hpp: edgeCrossoverImpl"]}
{"id": "C85", "title": "Wright's crossover moves past the better parent", "statement": "Each gene of a child of Wright's heuristic crossover is the clamped point w*(better - worse) + better up to rounding, and never between the parents: it is at the better parent's gene or beyond it, seen from the other parent. The second parent counts as the better one exactly if it dominates the first.", "quantifier": "every pair of parents within finite bounds of moderate size and every random outcome", "why_tests_cant": "All genes, bounds and random numbers, including all roundings.", "anchors": ["src/crossover/real.cpp: Wright"]}
{"id": "C86", "title": "Arithmetic crossover gives the convex combinations", "statement": "The genes of the children of arithmetic crossover are alpha*x + (1-alpha)*y and (1-alpha)*x + alpha*y, up to a relative rounding error of 2^-50.", "quantifier": "every pair of parents within finite bounds of moderate size and every random outcome", "why_tests_cant": "All genes, bounds and random numbers, including all roundings.", "anchors": ["src/crossover/real.cpp: Arithmetic"]}
{"id": "C87", "title": "BLX-alpha samples the extended interval", "statement": "Each gene of a child of BLX-alpha is the point of the interval [min - alpha*d, max + alpha*d], d = max - min, at its random number, clamped to the bounds, up to rounding.", "quantifier": "every pair of parents within finite bounds of moderate size and every random outcome", "why_tests_cant": "All genes, bounds and random numbers, including all roundings.", "anchors": ["src/crossover/real.cpp: BLXa"]}
{"id": "C88", "title": "The spread factor of simulated binary crossover respects the bounds", "statement": "The spread factor of SBX is limited by the distances of the genes to the bounds, so the children are within the bounds before they are clamped.", "quantifier": "all genes, bounds, eta and random numbers, exact arithmetic", "why_tests_cant": "The final clamping hides violations.", "anchors": ["src/crossover/real.cpp: SimulatedBinary"]}
{"id": "C89", "title": "Permutation mutations are applied as configured", "statement": "A permutation mutation changes the chromosome exactly when the chromosome is long enough and the first random number is below (or at most, depending on the operator) the mutation rate; then it reverses, shuffles or moves a part no longer than the configured share of the chromosome, or exchanges two or rotates three genes, and every part of an allowed length can be chosen by inversion and shuffle mutation.", "quantifier": "every chromosome, mutation rate, range parameter and random outcome", "why_tests_cant": "All lengths and random outcomes.", "anchors": ["src/mutation/permutation.cpp"]}
{"id": "C90", "title": "Real coded mutations change the chosen genes as documented", "statement": "A real coded mutation changes as many different genes as the binomial number says and leaves the others unchanged. A chosen gene becomes a bound (boundary), a uniform point between the bounds (uniform), moves towards a bound by 1 - r^((1 - gen/max_gen)^beta) of the distance (non-uniform), by 1 - (2a)^(1/(1+eta)) of the distance to a bound (polynomial), or by a normal step of (upper - lower)/sigma, clamped (Gauss), up to rounding.", "quantifier": "every chromosome within its bounds of fewer than 65536 genes and every random outcome", "why_tests_cant": "All genes, bounds and random numbers, including all roundings.", "anchors": ["src/mutation/real.cpp"]}
{"id": "C91", "title": "Unique sampling is uniform", "statement": "Every selection of n of the numbers in [lo, hi) is returned by sampleUnique for the same number of sequences of draws, so all selections are equally likely if the draws are uniform.", "quantifier": "every range of fewer than 65536 numbers and every count (and every range for at most two numbers), every selection", "why_tests_cant": "A small bias is invisible in statistical tests, and all selections cannot be enumerated.", "anchors": ["src/utility/rng.hpp: sampleUnique, sampleUniqueSet"]}
{"id": "C92", "title": "Weighted selection is proportional to the weights", "statement": "The cumulative distribution made from selection weights is within n * 2^-48 of the running sums of the weights divided by their sum (of i/n if all weights are zero), and candidate i is selected for every uniform draw inside its share of [0, 1), except within n * 2^-47 of the ends of the share.", "quantifier": "every list of up to 2^40 weights that can be normalized, every order of summation, every random stream", "why_tests_cant": "Statistical tests cannot see a small bias, and rounding and overflow depend on the magnitudes of all weights together.", "anchors": ["src/algorithm/soga_selection.cpp: weightsToCdf", "src/utility/rng.hpp: sampleCdf"]}
{"id": "C93", "title": "Selection weights are the documented ones", "statement": "Roulette weights are the fitness values, or (f + 2|min|)/3 with negative values; rank weights are interpolated by rank; sigma weights are max(0, 1 + (f - mean)/dev); Boltzmann weights are exp of the scaled fitness over the temperature; a candidate with higher fitness never has a lower weight.", "quantifier": "every fitness vector of finite values, with a spread that is not extreme for sigma and Boltzmann", "why_tests_cant": "The rounding error bound and the order of the weights have to hold for all vectors.", "anchors": ["src/algorithm/soga_selection.cpp: Roulette, Rank, Sigma, Boltzmann prepareSelectionsImpl"]}
{"id": "C94", "title": "NSGA-III associates every candidate with the closest reference line", "statement": "The ideal point is the componentwise maximum of everything seen, the extreme points minimise the achievement function along each axis, candidates are normalized between ideal and nadir point, and every candidate of the processed fronts gets the reference line with the largest inner product, which is a closest line up to rounding and up to how far the lines are from unit length; its stored distance is the distance to that line and its rank is kept.", "quantifier": "every fitness matrix, every set of lines, every order of summation; the distance claim for values up to 2^900 and up to 2^40 objectives", "why_tests_cant": "Which line is closest has to be right for every candidate and every geometry of lines, and rounding can flip comparisons.", "anchors": ["src/algorithm/nsga3.cpp: updateIdealPoint, updateExtremePoints, updateNadirPoint, associatePopWithRefs, normalizeFitnessVec", "src/utility/math.cpp: perpendicularDistanceSq"]}
{"id": "C95", "title": "NSGA initialization, selection and optimal solutions", "statement": "After initialization the stored ranks, lines and niche counts are those of the population; selection draws two candidates and returns the one of lower rank (then smaller distance) if they share a line, and otherwise the one chosen by a coin; the optimal solutions of NSGA-II and NSGA-III are exactly the members no member of the population dominates, each once.", "quantifier": "every fitness matrix, population size and random stream", "why_tests_cant": "Stale state would only show up for particular sequences of fronts.", "anchors": ["src/algorithm/nsga3.cpp: initializeImpl, selectImpl, nichedCompare, optimalSolutionsImpl", "src/algorithm/nsga2.cpp: initializeImpl, optimalSolutionsImpl"]}
{"id": "C96", "title": "Optima of the single-objective benchmark functions", "statement": "Each single-objective benchmark function computes its documented formula, negated; optimum() lies within the bounds and attains optimal_value(), no point within the bounds has a larger value, and for all but Schwefel's function it is the only point with that value.", "quantifier": "every number of variables and every point within the bounds", "why_tests_cant": "The tests only check that the genetic algorithms come close to the stated optimum; a point better than the optimum is in a continuum of points never tried.", "anchors": ["src/problems/single_objective.cpp: Sphere, Rastrigin, Rosenbrock, Schwefel, Griewank, Ackley, Levy", "src/problems/single_objective.hpp: constructors and documentation", "src/problems/benchmark_function.hpp"]}
{"id": "C97", "title": "Pareto sets of Kursawe and the ZDT problems", "statement": "Each problem computes its formula, negated; the Pareto-optimal points are those whose variables but the first are zero (ones for ZDT5; for ZDT3 those of them whose second objective is larger than for all smaller first variables); optimum() is Pareto optimal and has the value optimal_value(); ideal_point() bounds every value and nadir_point() every optimal value, both tightly.", "quantifier": "every number of variables and every point within the bounds", "why_tests_cant": "Which of a continuum of points are dominated cannot be sampled; an ideal or nadir point that is slightly off is not noticed.", "anchors": ["src/problems/multi_objective.cpp: Kursawe, ZDT1, ZDT2, ZDT3, ZDT4, ZDT5, ZDT6", "src/problems/multi_objective.hpp: documentation"]}
{"id": "C98", "title": "Pareto sets of the DTLZ problems", "statement": "Each DTLZ problem computes its formula, negated, for every number of objectives; its Pareto-optimal points are those with the documented last variables, which for DTLZ1 are those whose objectives add up to -1/2 and for DTLZ2 to DTLZ4 those whose squares add up to 1; optimum() is Pareto optimal and has the value optimal_value(); ideal_point() bounds every value and nadir_point() every optimal value, both tightly.", "quantifier": "every number of objectives and every point within the bounds", "why_tests_cant": "Which of a continuum of points are dominated cannot be sampled, least of all for every number of objectives.", "anchors": ["src/problems/many_objective.cpp: DTLZ1, DTLZ2, DTLZ3, DTLZ4, DTLZ5, DTLZ6, DTLZ7", "src/problems/many_objective.hpp: documentation"]}
{"id": "C99", "title": "Binary encoding of the real benchmark functions", "statement": "convert turns var_bits bits per variable into a number within the bounds of the variable: zero bits give the lower and one bits the upper bound, a variable depends on its own bits only and grows with the number they encode, and it is the exact value up to rounding; the binary form of a function is the function of the converted chromosome.", "quantifier": "every chromosome, number of variables, bits per variable, and bounds", "why_tests_cant": "Rounding beyond the upper bound depends on the bounds, and overflow on the number of bits; both are missed by tests with the bounds of the library.", "anchors": ["src/problems/benchmark_function.cpp: convert", "src/problems/benchmark_function.hpp: BenchmarkFunction<RealGene>::invoke"]}
{"id": "C100", "title": "TSP and StringFinder", "statement": "The TSP fitness of a permutation of the cities but the last is minus the length of the closed tour through them and the last city, unchanged when the permutation is reversed; genes outside of the cities are out of range. StringFinder returns the number of characters that agree with the target, reaches optimal_value() exactly for the target, and does so within its bounds exactly when the characters of the target lie within 32 and 127.", "quantifier": "all cities, permutations, targets and chromosomes", "why_tests_cant": "Tests compare single tours; the identity for every permutation and the range of targets cannot be enumerated.", "anchors": ["src/problems/travelling_salesman.cpp: TSP::invoke", "src/problems/integer.cpp: StringFinder::invoke"]}
{"id": "C101", "title": "Length of a run and what the stop conditions look at", "statement": "Whatever the stop condition is, a run has at most max_gen generations, ends with the first generation in which the condition answers true, and answers true in generation max_gen. FitnessEvals answers true exactly when the number of evaluations has reached its limit, NoEarlyStop lets a run last for exactly max_gen generations, FitnessBestStall observes the best value of each objective and FitnessMeanStall their means.", "quantifier": "every composed condition, history and limit", "why_tests_cant": "Off-by-one errors at the limits show only in runs of exactly that length; arbitrary nested conditions cannot be enumerated.", "anchors": ["src/stop_condition/stop_condition_base.cpp: StopCondition::operator()", "src/stop_condition/stop_condition.cpp: FitnessEvals, FitnessMeanStall, FitnessBestStall", "src/stop_condition/stop_condition.hpp: NoEarlyStop"]}
{"id": "C102", "title": "How a generation is made from the one before", "statement": "The first population consists of the given initial candidates, in order, and as many generated ones as are missing. Every later population is picked by the replacement policy from the population before it and population_size children, where child k comes from the crossover number k/2 of two separately selected parents (the first child for even k, the second for odd k; the parents themselves if no crossover is drawn or they are equal), is then mutated and then replaced by what the repair function makes of it.", "quantifier": "every encoding, setting, choice of operators, random outcome and run", "why_tests_cant": "With an odd population size, equal parents or a repair function the wiring differs; random operators hide a wrong parent or a dropped result.", "anchors": ["src/core/ga_base.impl.hpp: advance, select, crossover, mutate, repair, generatePopulation, updatePopulation", "src/algorithm/algorithm_base.impl.hpp: nextPopulation, select", "src/crossover/crossover_base.impl.hpp", "src/mutation/mutation_base.impl.hpp"]}
{"id": "C103", "title": "What the fitness cache saves", "statement": "With a static fitness function and cache_size(n), the fitness function is not called with a chromosome that was in one of the last n generations.", "quantifier": "every n > 0, population size, choice of operators and run", "why_tests_cant": "Which chromosomes are still cached depends on the order of insertions over all generations; a missed hit only costs time.", "anchors": ["src/core/ga_base.impl.hpp: evaluate, updatePopulation, initializeAlgorithm", "src/core/ga_base.decl.hpp: cache_size", "src/utility/cache.hpp: fifo_cache", "docs/fitness-functions.md: cache the last 2 generations"]}
{"id": "C104", "title": "The quasi random sequence is the additive recurrence of the generalized golden ratio", "statement": "The 30 iterations of phi() give the positive root r of x^(d+1) = x + 1 up to 2^-44, and the step of coordinate i is r^-(i+1) up to (i+1) 2^-41. Coordinate i of the n-th point is seed + n alpha_i up to a whole number and n 2^-53. discard(n) is n calls with the results dropped, and after reset(s) the points are those of a new generator with seed s.", "quantifier": "every dimension up to 2^40 (the steps), every seed in [0, 1], every sequence of calls", "why_tests_cant": "Tests check that points lie in the unit cube; a wrong exponent, an early stop of the iteration or a point that is not reset gives plausible points too.", "anchors": ["src/utility/qrng.hpp: QuasiRandom, phi, operator(), discard, reset"]}
{"id": "C105", "title": "The generators are splitmix64 and xoroshiro128+, and a seed determines all numbers", "statement": "The seeding generator is splitmix64 and the main one computes the outputs and state bits of xoroshiro128+ (24, 16, 37). After seeding, the numbers depend only on the seed, the operations that follow and which threads have a generator; the k-th registered thread gets the generator k jumps after the seed, and a thread draws the consecutive numbers of its generator without changing any other generator.", "quantifier": "every state, seed, number of threads and sequence of operations", "why_tests_cant": "Statistical tests cannot tell these generators from slightly wrong ones; reproducibility has to hold for every history before the call of seed.", "anchors": ["src/utility/rng.hpp: Splitmix64, Xoroshiro128p, ConcurrentXoroshiro128p"]}
{"id": "C106", "title": "The spin locks become free again", "statement": "test_and_set of lock and try_lock succeeds exactly when nobody holds the spinlock. compare_exchange of the shared spinlock can succeed exactly when there is no holder, no thread waiting in lock_shared and none about to undo a failed try_lock_shared; while there is no exclusive holder every thread in lock_shared or try_lock_shared can get the shared lock with its next access; when all threads have left, the counter is 0.", "quantifier": "every number of threads below 2^31 - 1 and every interleaving", "why_tests_cant": "A lost decrement shows only as a hang after a rare interleaving of a failed try_lock_shared with a writer.", "anchors": ["src/utility/spinlock.hpp", "src/utility/shared_spinlock.hpp"]}
{"id": "C107", "title": "RCU with a fence in read_lock is safe with store buffers, frees each object once and waits only for earlier readers", "statement": "When read_lock has a full fence behind its epoch store, no reader has a pointer to a freed object, with store buffers or without. Every object ever installed is installed, about to be freed by exactly one assignment, or freed, and no object is freed twice. synchronize is held up only by a reader in a section that began with an epoch before its own (or that has ended one and the store has not reached memory).", "quantifier": "every number of objects, readers and writers, every interleaving and order of buffered stores", "why_tests_cant": "The window between the epoch store and the pointer load is a few instructions; leaks and double frees need particular interleavings of writers.", "anchors": ["src/utility/rcu.hpp: rcu_domain, rcu_obj"]}
{"id": "C108", "title": "The reference points are those of the mappings, and the sparse subset is picked farthest first", "statement": "simplexMappingLog gives the logarithms divided by their sum, simplexMappingSort the differences of the sorted coordinates, simplexMappingRoot a point whose first k coordinates sum to the product of the j-th roots of the coordinates j >= k. pickSparseSubset starts with the last candidate and then always takes, of the candidates left, one whose distance to the nearest picked point is largest.", "quantifier": "every dimension, number of points and candidates", "why_tests_cant": "Tests check that the points lie on the simplex and their number; wrong exponents or distances give worse spread points of the same kind.", "anchors": ["src/algorithm/reference_lines.cpp: simplexMappingLog, simplexMappingSort, simplexMappingRoot, pickSparseSubset"]}
{"id": "C109", "title": "The iterators are random access iterators", "statement": "For valid iterators of one range every operator of iota_iterator and stable_iterator, those inherited from the interfaces included, does with the iterators what it should do with their positions: comparisons, ++ and --, += and -=, [] and the difference of two iterators; moving outside of the range is caught by an assertion. Going from the first to the last iterator passes every element once and in order, a stable iterator always denotes the element at its position in the container as it is now, and size, empty, front, back, [] and at of container_interface are those of the sequence.", "quantifier": "every container of fewer than 2^63 elements, every pair of positions and every step", "why_tests_cant": "Tests use forward distances and small steps; the sign of a backward difference and the wrap-around of size() - n need particular operands.", "anchors": ["src/utility/iterators.hpp: random_access_iterator_interface, stable_iterator_base, iota_iterator, container_interface"]}
{"id": "C110", "title": "small_vector is exception safe", "statement": "Whatever allocation, copy or move throws, every operation of small_vector leaves exactly the elements of some valid vector alive and exactly its block allocated: no object is leaked, destroyed twice or read after its destruction, and no exception leaves a scope guard. push_back, emplace_back, reserve, shrink_to_fit, resize, and assign and emplace when they reallocate leave the vector unchanged when they throw. A constructor that throws leaves nothing behind. After any history of operations, with the exceptions caught, the destructor releases everything.", "quantifier": "every element type (nothrow movable or not), every inline size, every state, every argument, every sequence of exceptions, every history", "why_tests_cant": "The number of places at which an exception can occur grows with every operation; the leak only shows for an input iterator and an exception after the first reallocation.", "anchors": ["src/utility/small_vector.hpp: construct_range, relocate_range_strong, relocate_range_weak, reallocate_n, reallocate_append, reallocate_emplace, reallocate_insert, small_vector"]}
{"id": "C111", "title": "Operations of small_vector accept their own elements as arguments", "statement": "push_back(v[i]), emplace(pos, v[i]), insert(pos, v[i]), assign(n, v[i]), resize(n, v[i]) and insert(pos, n, v[i]) use the value v[i] had before the call, whether or not they reallocate.", "quantifier": "every state, position, index and count, every sequence of exceptions", "why_tests_cant": "A reference to released memory often still shows the old value, and a moved-from integer is unchanged.", "anchors": ["src/utility/small_vector.hpp: reallocate_append, emplace, assign, resize_impl, insert, reallocate_insert"]}
{"id": "C112", "title": "The vector functions and statistics compute what their names say", "statement": "euclideanNorm, normalizeVector, euclideanDistanceSq, perpendicularDistanceSq (the least squared distance to a point of the line) and volumeBetween return those quantities; mean, stdDev, fitnessMean, fitnessVariance and fitnessStdDev return the mean, the deviation divided by n, and column by column the mean, the variance divided by n - 1 and its root; integralSinPow(n, x) is an antiderivative of sin^n.", "quantifier": "all vectors, matrices, exponents and arguments", "why_tests_cant": "The recursion for the exponent and the closed formulas are only tested at a few points.", "anchors": ["src/utility/math.cpp: euclideanNorm, normalizeVector, euclideanDistanceSq, perpendicularDistanceSq, volumeBetween, mean, stdDev, integralSinPow", "src/metrics/pop_stats.cpp: fitnessMean, fitnessVariance, fitnessStdDev"]}
{"id": "C113", "title": "A bounded value lies in its interval", "statement": "BoundedValue accepts exactly the values of its interval, and Probability, NonNegative, Positive and Negative exactly the finite values their names say.", "quantifier": "all intervals, all integers, all doubles", "why_tests_cant": "NaN is not below and not above any bound.", "anchors": ["src/utility/bounded_value.hpp: Interval::contains, BoundedValue"]}
{"id": "C114", "title": "The thread pool ends without losing a task, and can be resized", "statement": "Each worker runs the tasks of its queue in order and once. Stopping and destroying the pool terminates in every execution, after every accepted task was run and every thread has ended, and no thread uses a destroyed queue. execution_threads(n) gives a pool of max(n, 1) threads that accepts tasks, or leaves a usable pool when it fails.", "quantifier": "every number of workers, all tasks, every interleaving, every failure to create a thread", "why_tests_cant": "A thread that cannot be created is hard to provoke, and shutdown races show rarely.", "anchors": ["src/utility/thread_pool.hpp: thread_count, stop, worker_main, ~thread_pool, execution_threads"]}
{"id": "C115", "title": "Scope guards restore what they guard", "statement": "restore_on_exit gives its variables their old values back and changes nothing else; scope_exit runs its action exactly when it was not released; both whether the scope is left normally or by an exception. solve leaves max_gen as it was before the call.", "quantifier": "all variables, also named twice, all bodies, normal and exceptional exits", "why_tests_cant": "The exceptional exits of solve are not tested.", "anchors": ["src/utility/scope_exit.hpp: scope_exit, restore_on_exit", "src/core/ga_base.impl.hpp: solve"]}
{"id": "C116", "title": "What was not set explicitly is deduced for each run", "statement": "For every constructor and every sequence of setters and runs, a run uses the algorithm, mutation rate and stop condition that were set last; if none was set or a null pointer was given, it uses the default algorithm for its number of objectives, which accepts it, the default mutation rate for its chromosome length, and no early stop. The default rates are probabilities.", "quantifier": "all constructors, all sequences of setters and runs, all numbers of objectives and chromosome lengths", "why_tests_cant": "Tests make a GA with one of the constructors and run it once.", "anchors": ["src/core/ga_base.impl.hpp: GA::GA, mutation_method, mutation_rate, defaultAlgorithm, initializeAlgorithm", "src/core/ga_info.cpp: GaInfo::GaInfo, algorithm, stop_condition", "src/encoding/binary.hpp: defaultMutationRate"]}
{"id": "C117", "title": "The integer helpers are exact for every integral type", "statement": "range_length(low, high) is high - low, also where that does not fit into the type; next_mod and prev_mod are value + 1 and value - 1 modulo mod, without overflow, and undo each other; n steps move by n modulo mod.", "quantifier": "all integral types, all values and moduli", "why_tests_cant": "There are too many values, and overflow shows only at the ends of the types.", "anchors": ["src/utility/utility.hpp: range_length, next_mod, prev_mod, increment_mod, decrement_mod"]}
{"id": "C118", "title": "get_metric finds the metric of its type", "statement": "get_metric_if returns a tracked metric of the class it is asked for, and a null pointer exactly if none is tracked; get_metric returns it if there is one. track keeps the metrics in order. After a run each metric holds the values of that run, one per generation, and the lookups give the same metrics as before.", "quantifier": "all sets of metrics, all classes, all runs", "why_tests_cant": "The tests look up the metrics of the library only.", "anchors": ["src/metrics/metric_set.hpp: MetricSet, get", "src/metrics/metric_set.cpp: initialize, update", "src/metrics/monitor.hpp: type_id, initialize", "src/utility/type_id.hpp: type_id", "src/core/ga_info.hpp: track, get_metric, get_metric_if"]}
{"id": "C119", "title": "map and the function wrappers call what they were given", "statement": "The three overloads of map call the function once for each element, in order, and return the results in order. In every program, variables of type move_only_function behave as if they held their callables themselves: assignment, move (also to itself), swap and calls have the results this implies, no callable is leaked, destroyed twice or used after its destruction, and only the call of an empty function fails. function_ref calls the object it was made from.", "quantifier": "all callables with state, all containers, all sequences of operations on any number of variables", "why_tests_cant": "Leaks and double frees depend on the sequence of operations.", "anchors": ["src/utility/functional.hpp: map, function_ref, move_only_function"]}
