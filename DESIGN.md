# Formal model of gapp (KRM7/gapp, pinned commit, source in /repo)

## How the code is modelled

The model is a set of small, total Gallina functions that follow the C++
functions of `/repo/src` one by one.  Every definition of a `*Model.v` file
carries a comment with the file and the lines it models and says where it is
simplified.  The layout of `rocq/theories` is, per area `X`:

* `XModel.v`  - the transcription of the code (no proofs);
* `XSpec.v` (sometimes a section at the top of `XProps.v`) - the short,
  independent specification a reader compares with the English property;
* `XProofs.v` - lemmas;
* `XProps.v`  - the property theorems `Cnn_...`, the `Example`s that show their
  hypotheses are satisfiable, and `Print Assumptions`.

General conventions

* Loops are structural recursion, folds or recursion on explicit fuel.
  A fuelled function returns `None` when the fuel is exhausted, and the theorem
  either shows that this never happens for enough fuel or that it happens for
  every amount of fuel (non-termination findings).
* Undefined behaviour (reading outside a range, `back()` of an empty vector,
  use after free, a violated `GAPP_ASSERT`) is a distinct outcome of the model
  (`None` or an error constructor), not assumed away.
* Random numbers, user callbacks (fitness function, repair function, crossover
  and mutation implementations, stop conditions), the thread scheduler and
  library calls are explicit arguments, universally quantified in the theorems,
  constrained only by the contracts below.
* `size_t` values are `nat` or `Z` without wrap-around unless the property is
  about bits or overflow (bitset, generators, patience counters), where the
  wrap is written explicitly.
* Concurrent code is a transition system; a step is one access to shared
  memory (or one critical section of a mutex), and the theorems hold for every
  interleaving.  Weaker memory is modelled where the property depends on it
  (LockModel: coherence only; RcuModel: store buffers; MergeModel: relaxed
  loads return any value stored so far).
* A property that is false of the code is kept in view and refuted:
  `..._refuted` exhibits a concrete witness computed in the model.  The part
  that does hold is proved next to it with the extra hypothesis visible, and
  carries the suffix `_partial` if it is less than the property.

Arithmetic

* Binary64 (Flocq's `BinarySingleNaN`, round to nearest even, no fused or
  extended operations): FloatModel, FrontModel, NdFloatModel, RealCrossoverModel,
  MutationModel, RandModel, SelectionModel, ReplacementModel, Nsga2Model,
  Nsga3Model, StatsModel, StopModel, HyperModel (`float_num`), ConvertModel,
  QrngModel, EncodingModel.
* Exact integers or rationals: HyperModel (`exact_num`), examples of ConeModel.
* Exact real numbers, no rounding: ConeModel and RefModel (in the theorems),
  ProblemModel (also exact pi and e), part of C88.
* Unsigned 64-bit words as `N` modulo 2^64: BitsetModel, RngModel.

## Trusted base

* Coq 8.16.1's kernel, including `vm_compute`.
* The reading of the C++ source: the code is not executed; the comments give
  file and lines for each definition.
* Axioms: only those of the standard library's `Reals`, also used through Flocq:
  `ClassicalDedekindReals.sig_forall_dec`,
  `ClassicalDedekindReals.sig_not_dec`,
  `FunctionalExtensionality.functional_extensionality_dep` and
  `Classical_Prop.classic`.  The last section lists, for each theorem of
  `MANIFEST.json`, what `Print Assumptions` prints.  There are no axioms of our
  own and none of another library.
* Library functions of C++ are arguments of the model with these contracts,
  which are hypotheses of the theorems that need them:

| function | contract | where |
|----------|----------|-------|
| `std::sort`, `std::partial_sort` | `sort_contract`, `partial_sort_contract`: for a strict weak ordering the result is a sorted permutation (its first part sorted and least); nothing is assumed for other comparisons | StdSort.v |
| `std::reduce`, `std::transform_reduce` | `reduce_contract`, `product_contract`: the operands combined in any order and grouping, rounded after every operation | SelectionSpec.v, HyperSpec.v |
| `std::shuffle` | `shuffle_contract`: the result is a permutation of the range | MutationSpec.v |
| `std::pow` | `pow_contract`: not NaN and not negative for a non-negative base, at most 1 for a base of at least 1 with a negative exponent and for a base in [0,1] with a non-negative one (C34, C37, C90); `unit_pow`: keeps the unit interval (C80); `pow_ge_1`: a number of at least 1 to a non-negative power is at least 1 (C72); `pow_accurate`: relative error 2^-50 on [1,4] x [0,1] (C104); `pow2_contract`: powers of two are exact (C99) | RealSpec.v, QrngProps.v, QrngSeqProps.v, ConvertSpec.v |
| `std::exp` | `exp_contract`, `exp_monotone`: not negative, NaN only for NaN, exactly 1 at 0; monotone (C93) | SelectionSpec.v, SelectionMoreSpec.v |
| `std::lerp` | `lerp_contract`: between the ends for t in [0,1], exact at t = 1 | SelectionSpec.v |
| `std::sqrt`, `std::abs`, `std::fmod`-like truncations | as IEEE 754 defines them | FloatBase.v |
| `std::uniform_int_distribution` | returns any number in its range | RandModel.v |
| `std::normal_distribution`, `std::poisson_distribution` | return anything | RandModel.v |
| `std::partition` in the cone tree | the loop of libstdc++ (its predicate depends on the range being changed) | ConeModel.v |
| `std::mutex`, `std::condition_variable`, `std::atomic` | mutual exclusion; wake-ups may be spurious; atomicity and coherence | QueueModel.v, LockModel.v, RcuModel.v |
| `std::vector`, `std::unordered_map`, `std::unordered_set` | lists, association lists | each model |

* Not assumed: anything about the user's callbacks beyond what the
  documentation demands.  Where a theorem restricts them (for example to
  callbacks that return fitness vectors of the right length) the restriction is
  a hypothesis.

## What is not modelled

* Exceptions, except in the circular buffer (C03), the thread pool (C74, C114), small_vector (C110)
  and scope guards (C115).
* Memory allocation, move semantics and aliasing, except in small_vector,
  circular_buffer and the node vector of the cone tree.
* `long double`, `float` instances, compiler flags that change floating point
  semantics, denormals flushed to zero.
* The rounding of `math::stdDev`, `math::mean`, `integralSinPow`, the vector
  functions of math.cpp, fitnessVariance and fitnessStdDev: C112 is about exact
  arithmetic.
* Type-level code: concepts, type traits, gene type dispatch,
  the arithmetic function objects of `functional.hpp`, `indestructible`.
* The thread pool while it is resized or destroyed with loops running: C73 - C75
  are about loops of a running pool, C114 about a pool whose tasks are single
  steps.
* Reading TSP instances: the coordinates are an argument.

## What each model file covers

The header comments of the model files: what is transcribed, what is a parameter and what is simplified.

* **CircularBufferModel.v** - Model of gapp::detail::circular_buffer, src/utility/circular_buffer.hpp. The storage is a list of slots; a slot is [None] (raw memory) or [Some v] (a live object). Constructing over a live object, destroying or assigning raw memory, an index outside the storage, and a violated GAPP_ASSERT are all the outcome [None] of an operation ("undefined behaviour / assertion"). Simplified: the allocator never over-allocates ([capacity_] is exactly the requested one, as in the code, which ignores alloc_result.size), and indices are unbounded naturals.
* **CircularBufferExnModel.v** - The allocator traffic of circular_buffer::set_capacity and reset when an element operation or the allocation itself throws. src/utility/circular_buffer.hpp 276-289, 298-305, 359-364. Simplified: only the allocate/deallocate calls are recorded (block id and element count), which is what leak / double free is about.
* **CacheModel.v** - Model of gapp::detail::fifo_cache, src/utility/cache.hpp. The unordered_map [cache_] is an association list (a lookup returns the first match; the model keeps keys unique as insert_or_assign does); the iterators stored in [order_] are represented by the keys they point to, so dereferencing or erasing one that is not in the map is undefined behaviour ([None]). Simplified: buckets and rehashing are not modelled (the code reserves capacity+1 buckets, lines 39 and 161, so that no rehash invalidates the iterators); [order_] is the circular buffer model itself.
* **BitsetModel.v** - Model of gapp::detail::dynamic_bitset, src/utility/dynamic_bitset.hpp. A block (std::size_t, 64 bits, lines 24 and 31) is an [N] below 2^64; the block vector is a list. Operations that have undefined behaviour or violate a GAPP_ASSERT return [None]. Simplified: the small_vector holding the blocks is a plain list (it is modelled in SmallVectorModel.v); copying is trivial.
* **SmallVectorModel.v** - Model of gapp::small_vector, src/utility/small_vector.hpp. Storage is modelled cell by cell: a cell is raw memory or holds a live object. Constructing over a live object, destroying or reading raw memory, writing out of bounds, or releasing a block that still holds live objects returns [None]. [triv] says whether the element type is trivially destructible (then detail::destroy does nothing, lines 116-122, and storage may be reused without a destructor call). A moved-from object is live and has the value [mv]. Simplified: no exceptions (the scope guards are not modelled), no custom allocator (allocators compare equal; allocate returns exactly the requested size), max_size() unbounded in next_capacity, relocation always moves (move_if_noexcept may copy, the source is destroyed right after), arguments are values, so references into the vector itself are not modelled.
* **MatrixModel.v** - Model of gapp::detail::Matrix, src/utility/matrix.hpp. [data_] (a std::vector) is a list in row-major order. GAPP_ASSERT violations and out-of-range accesses give [None]. Simplified: capacity (reserve, line 182) is not observable and not modelled; a row passed to append_row, assigned or swapped is a value, or another row of the same matrix.
* **AlgorithmModel.v** - Model of the sequence algorithms of src/utility/algorithm.hpp. A range is a list; iterators are positions. [None] = precondition violation or access outside the range. std::sort and std::partial_sort are parameters (their contracts, StdSort.v, are hypotheses of the theorems).
* **FloatModel.v** - Model of the tolerant floating-point comparisons, src/utility/math.hpp and src/utility/math.cpp, over IEEE binary64 in round-to-nearest-even. Simplified: only T = double; extended intermediate precision is excluded.
* **ParetoModel.v** - Model of the Pareto front computations, src/core/population.cpp. The fitness matrix appears through the outcomes of the comparisons of its rows: [less i j] = paretoCompareLess(fmat[i], fmat[j]), [cmp i j] = paretoCompare(fmat[i], fmat[j]), [lexgt i j] = the lexicographic comparison of the sort-based variants. ParetoProps.v instantiates them with the floating-point functions of FloatModel.v. An access to a row or position out of range, or running out of [fuel], is [None].
* **FrontModel.v** - The Pareto front and nadir functions of src/core/population.cpp on fitness matrices of doubles: the comparisons of ParetoModel.v filled in. A matrix is the list of its rows.
* **MergeModel.v** - Model of mergeParetoSets, src/core/population.hpp 99-168. The body of the parallel_for is one task per index i of lhs. Each iteration of a task is two steps: the relaxed load of rhs_state[j] (line 118), and the rest of the body (lines 120-150), which writes the task's own lhs_state[i] and stores to rhs_state[j] at most once. The tasks interleave arbitrarily. A relaxed load may return the initial value or any value stored to the location so far; the value found after the loop may be any of the values stored (or the initial one if there is none). That the parallel_for runs every index exactly once and that its end synchronises is taken from the thread pool (ThreadPool*.v).
* **NdSortModel.v** - Model of non-dominated sorting, src/algorithm/nd_sort.cpp. As in ParetoModel.v the fitness matrix appears through the outcomes of the row comparisons. A FrontElement is a pair (idx, rank). [None]: undefined behaviour (access out of range, unsigned wrap-around) or [fuel] exhausted.
* **NdFloatModel.v** - The non-dominated sorts of src/algorithm/nd_sort.cpp on fitness matrices of doubles: the comparisons of NdSortModel.v filled in.
* **CrossoverModel.v** - Model of the point, uniform and permutation crossovers, src/crossover/crossover_impl.hpp, neighbour_list.hpp, binary.cpp, integer.cpp and permutation.cpp, and of the crossover operator, src/crossover/crossover_base.impl.hpp. A chromosome is a list. An out-of-range access, a violated GAPP_ASSERT, an integer wrap-around that is not intended and a loop that uses up its fuel are [None]. Random numbers are arguments. Simplified: - std::unordered_set is the list of the inserted genes; dynamic_bitset is a list of bool (BitsetModel.v models it, C06 and C07 justify this view); - the children's fitness and is_evaluated fields, which the operator overwrites, are not modelled inside the crossover functions; - unsigned genes are [nat]; the only place where their width matters is the EMPTY value of NeighbourList, which is an argument.
* **OperatorModel.v** - Model of the candidates and of the crossover and mutation operators, src/core/candidate.hpp, crossover/crossover_base.impl.hpp and mutation/mutation_base.impl.hpp, for any gene type. A violated GAPP_ASSERT is [None]. Simplified: of the GA object only the number of objectives and the chromosome length are visible; the virtual function crossover or mutate is an arbitrary argument (so it may be user defined), and it may be [None]. A random number is an argument.
* **RealCrossoverModel.v** - Model of the real coded crossovers, src/crossover/real.cpp, over binary64 (no fused operations, no extended precision). Random numbers are arguments, one (pair) per gene even where the code draws none. std::pow is an argument. A violated GAPP_ASSERT or precondition is [None].
* **RandModel.v** - Model of the random number helpers of utility/rng.hpp. A random computation reads a stream of words. Each word holds an arbitrary integer, whose low 64 bits are what the generator rng::prng returns, and arbitrary results of the standard library's normal and Poisson distributions. A theorem for all streams is therefore a theorem for all random outcomes. [None] is a violated assertion or undefined behaviour.
* **MutationModel.v** - Model of the mutation operators, src/mutation/{permutation,real,integer,binary}.cpp. Random computations as in RandModel.v. The GA object is represented by the gene bounds and the generation numbers it is asked for. std::pow is an argument, std::shuffle a random computation given as an argument. Accessing a position outside of the chromosome is [None].
* **ReplacementModel.v** - Model of the population replacements, src/algorithm/soga_replacement.cpp. The first [pop_size] rows of the fitness matrix are the parents. [None] is a failed assertion.
* **SelectionModel.v** - Model of the selection operators, src/algorithm/soga_selection.cpp. They are used with one objective; a fitness matrix is its only column (core/population.cpp 14-20). [None] is a failed assertion or undefined behaviour. Simplified: std::transform_inclusive_scan adds from left to right, as libstdc++ does. Parameters: the sum of std::transform_reduce [reduce], std::lerp [lerp], std::exp [fexp], the temperature, and the mean and standard deviation of the fitness values.
* **Nsga2Model.v** - Model of the NSGA-II algorithm, src/algorithm/nsga2.cpp. The elements of ParetoFronts are a list of pairs (idx, rank); an iterator range is a pair of positions; the functions sort the ranges in place. [None] is a failed assertion or undefined behaviour.
* **Nsga3Model.v** - Model of the NSGA-III algorithm, src/algorithm/nsga3.cpp. [None] is a failed assertion or undefined behaviour. The parallel loop of associatePopWithRefs (which writes a different element in every iteration) is run in order.
* **EngineModel.v** - Model of the run of a genetic algorithm: class GA of src/core/ga_base.impl.hpp, with the base class functions of src/algorithm/algorithm_base.impl.hpp and src/stop_condition/stop_condition_base.cpp, for any gene type. What the user supplied or random parts of a run do is given by a record [outcomes]; the model is a function of it. [None] is a failed assertion or undefined behaviour; [debug] tells whether GAPP_ASSERT is compiled in (the assertions inside the crossover and mutation operators are always checked). Simplified: the iterations of a parallel_for run one after the other (see EngineSchedule.v for the shared counter in evaluate; the other iterations write disjoint elements); exceptions thrown by user supplied functions are not modelled; metrics and on_generation_end, which get the GA by const reference, only leave an entry in a log; the on_generation_end function is set.
* **StatsModel.v** - Model of the population statistics and of the metrics that record them: src/metrics/pop_stats.cpp 19-66, src/metrics/fitness_metrics.cpp, src/metrics/misc_metrics.cpp, src/metrics/monitor.hpp. A fitness matrix is the list of its rows; [None] is a failed assertion or an access out of range. Simplified: fvec[i] * ninv is rounded before the addition (no fused multiply-add). fitnessVariance and fitnessStdDev are not modelled (only as some function of the matrix).
* **StopModel.v** - Model of the stop conditions, src/stop_condition/stop_condition_base.{hpp,cpp}, stop_condition.{hpp,cpp} and composite.hpp. [None] is a failed assertion.
* **HyperModel.v** - Model of the hypervolume, src/metrics/pop_stats.cpp 107-203, and of the metric AutoHypervolume, src/metrics/distribution_metrics.cpp 49-83. The code is transcribed over any type of numbers; [float_num] below has the doubles of the code, [exact_num] the integers (exact arithmetic) with a value for +inf. A fitness matrix is the list of its rows; [None] is a failed assertion, an access out of range, or the end of [fuel].
* **RngModel.v** - Model of the generators of utility/rng.hpp and of the bool distribution of utility/distribution.hpp. A std::uint64_t is an [N] below 2^64.
* **QrngModel.v** - Model of rng::QuasiRandom<double> (utility/qrng.hpp). std::pow is a parameter. [None] is undefined behaviour: a double that does not fit into size_type.
* **LockModel.v** - Model of spinlock (utility/spinlock.hpp) and shared_spinlock (utility/shared_spinlock.hpp). Every atomic access is one step of one thread; threads are interleaved arbitrarily. The clients follow the locking discipline: a thread only unlocks what it holds and does not lock what it holds. Each lock is a single atomic variable. Read-modify-write operations read the last value of its modification order in every memory model; a plain load may read an older value, but none older than the thread's own last access (coherence). The shared lock is therefore modelled with the whole history of values, which makes the theorems independent of the memory orders in the code.
* **QueueModel.v** - Model of concurrent_queue (utility/concurrent_queue.hpp). Threads call emplace, take, close, closed and empty in any order and are interleaved arbitrarily; acquiring the mutex, each block of code run with it, and waiting on the condition variable are separate steps. std::mutex and std::condition_variable are modelled by their contracts: at most one owner; wait releases the mutex and goes to sleep in one step, may wake up at any time, and owns the mutex again when it returns; notify_one wakes one sleeping thread if there is any, notify_all all of them. [trace] records what the calls did, in the order of their critical sections.
* **RcuModel.v** - Model of rcu_domain and rcu_obj (utility/rcu.hpp). Every access to shared memory is one step of one thread; threads are interleaved arbitrarily. [tso] selects the memory: with [false] every store takes effect at once (sequential consistency); with [true] each thread has a FIFO store buffer, read-modify-write operations need the own buffer to be empty and a buffered store reaches memory at an arbitrary later time (x86-TSO; a release store is a plain store there). Of all variables only the epoch of a reader is written by plain stores, and only by its thread, so buffers hold values of the own epoch. The load of line 25 reads the own epoch: it is served from the buffer and does not change the state, so it is not a step. Pointers are numbered in the order of allocation, so a pointer value is never reused; this makes "freed" a property of the allocation. A thread can be in a read section and inside an assignment at the same time; the two are interleaved arbitrarily, which includes the order in the program. Read sections are not nested (they share one epoch per thread). The reader list is protected by its shared_spinlock (C77): registration is one step that is not possible while any thread scans the list.
* **PoolModel.v** - Model of thread_pool::execute_loop, parallel_for and the workers (utility/thread_pool.hpp, utility/latch.hpp). The program run by the threads is a tree: an application of the operation of a loop to an element starts some nested loops one after the other and then returns or throws. Each thread has a stack of frames; threads are interleaved arbitrarily, one step at a time. The queues are used through their operations (C76); the pool is not stopped or resized while loops run, so emplace succeeds (the documentation of execution_threads forbids it).
* **ConeModel.v** - Model of the cone tree, src/utility/cone_tree.cpp, cone_tree.hpp and the functions of src/utility/math.cpp it uses. [None] = undefined behaviour or a violated assertion. The arithmetic is a parameter: the theorems are about the real numbers (no rounding), the examples compute with rationals. std::partition is the loop of libstdc++ for bidirectional iterators, because the predicate passed to it reads two rows of the matrix that is being partitioned; the std contract only covers predicates that do not change meanwhile. The vector of nodes has an explicit capacity; a push_back that exceeds it invalidates the reference [node] of buildTree.
* **RefModel.v** - Model of the reference line generators, src/algorithm/reference_lines.cpp, and of generateReferencePoints, src/algorithm/nsga3.cpp 161-167. The arithmetic is a parameter ([num] of ConeModel.v); the theorems are about the real numbers, so there is no rounding. std::log, std::pow, math::small and std::sort are parameters. [None] = undefined behaviour, a violated assertion or (simplexMappingMirror) out of fuel.
* **EncodingModel.v** - Model of the generateCandidate functions of the four encodings (src/encoding). A candidate is its chromosome; chrom_len() and gene_bounds() are parameters. A chromosome is first filled with value-initialised genes and then overwritten gene by gene, as in the code. [None] is an index out of range or a violated assertion.
* **ProblemModel.v** - Model of the benchmark functions, src/problems. Simplifications: the arithmetic, [std::pow], [std::sqrt], [std::exp], [std::sin], [std::cos] and the constants pi and e are those of the real numbers, without rounding, so that the order of the additions of std::reduce does not matter. Fitness vectors are lists. [None] is a failed assertion. The indices of the loops are those of the code.
* **ConvertModel.v** - Model of the binary encoding of the real benchmark functions, src/problems/benchmark_function.cpp 12-33 and benchmark_function.hpp 146-180, over binary64. A BinaryGene is 0 or 1 (EncodingModel.v), so a bool here. std::pow(2.0, n) is the argument [pow2]. A violated GAPP_ASSERT is [None].
* **IteratorModel.v** - Model of the iterators of src/utility/iterators.hpp: stable_iterator and iota_iterator with the operators of the iterator interfaces they inherit, and container_interface. A std::size_t is a [Z] in [0, 2^64), a difference_type (std::ptrdiff_t) a [Z] in [-2^63, 2^63). [None] is a violated GAPP_ASSERT or undefined behaviour (negating the least ptrdiff_t). A container is a number (its address); [len] gives the current size of each, [get] its elements. Simplified: only T = std::size_t for iota_iterator and std::ptrdiff_t as Distance; the constness of the iterators is not modelled.
* **SmallVectorExnModel.v** - Model of gapp::small_vector, src/utility/small_vector.hpp, with exceptions and with arguments that refer to elements of the vector itself. Memory is a set of blocks of cells (block 0 is the inline buffer, N cells); a cell is raw or holds a live object. A computation ends normally ([Ok]) or with an exception ([Exn]); [None] is undefined behaviour: constructing over a live object, destroying, reading or assigning raw memory, any access outside of a block or to a released block, releasing a block that holds live objects, an exception leaving a scope guard. Every operation on elements that may throw and every allocation consumes one entry of a list that says whether it throws and what is then left in the objects involved, so a theorem about all lists is about every way in which exceptions can occur. [nt_move] is std::is_nothrow_move_constructible_v<T>; a moved-from object holds [mv]. Simplified: the element type is copyable and not trivial (a trivial one cannot throw); no custom allocator; allocate returns exactly the requested size; max_size() is unbounded. Two-vector operations (move construction and assignment, swap) are only modelled without exceptions, in SmallVectorModel.v; pop_back is modelled there as well.
* **MathModel.v** - Model of the functions of src/utility/math.cpp on vectors and of the statistics of src/metrics/pop_stats.cpp in exact arithmetic: real numbers instead of double and long double, so that the order of the additions of std::transform_reduce does not matter. (minFitness, maxFitness, fitnessMean, perpendicularDistanceSq and volumeBetween over binary64 are in StatsModel.v, Nsga3Model.v and HyperModel.v.) [None] is a violated GAPP_ASSERT or a division by zero.
* **BoundedModel.v** - utility/bounded_value.hpp: a value that lies in an interval.
* **ShutdownModel.v** - Model of the life of the thread pool outside of its loops: construction, submission to the queues, stopping, destruction and resizing (utility/thread_pool.hpp 84-102, 113-154, 192-195). The operations of concurrent_queue are single steps here (their interleavings are in QueueModel.v), and a task is one step of its worker that ends (the inside of tasks is in PoolModel.v). std::jthread is modelled by its contract: the destructor waits for the end of the thread. Using the queue of a worker that was destroyed sets [use_after_destroy].
* **ScopeModel.v** - utility/scope_exit.hpp, and the use of restore_on_exit in GA::solve. A piece of code is a function of the store; [exn] says whether it was left by an exception. Destructors run in both cases.
* **ConfigModel.v** - The choice of the algorithm, the mutation rate and the stop condition of a GA: the constructors and setters of GaInfo and GA, and the part of initializeAlgorithm that replaces them by defaults (core/ga_info.hpp, core/ga_info.cpp, core/ga_base.impl.hpp). Algorithms given by the user, rates and stop conditions are arbitrary values; operators are reduced to their mutation rate. [None] is a violated assertion.
* **ModularModel.v** - The integer helpers of utility/utility.hpp: range_length, next_mod, prev_mod, increment_mod, decrement_mod. [None] is a violated assertion, or the overflow of a signed type.
* **MetricSetModel.v** - The set of tracked metrics and the lookup by type: metrics/metric_set.hpp and .cpp, Monitor::type_id (metrics/monitor.hpp 60), utility/type_id.hpp, and track, get_metric, get_metric_if (core/ga_info.hpp).
* **FunctionalModel.v** - utility/functional.hpp: detail::map, function_ref and move_only_function. Callables have a state that a call may change. [None] is a violated assertion, a null or dangling pointer, or a double free.

## Properties and where they are proved

| id | property | status | files |
|----|----------|--------|-------|
| C01 | circular_buffer behaves as a bounded deque | proved | CircularBufferProps |
| C02 | circular_buffer equality and range construction | proved | CircularBufferProps |
| C03 | circular_buffer::set_capacity is exception safe | partial, with a refutation | CircularBufferProps |
| C04 | fifo_cache refines a bounded insertion-ordered map | proved | CacheProps |
| C05 | fifo_cache bulk insertion agrees with inserting one by one | partial, with a refutation | CacheProps |
| C06 | dynamic_bitset behaves as a sequence of booleans | partial, with a refutation | BitsetProps |
| C07 | dynamic_bitset queries are defined on an empty bitset | partial, with a refutation | BitsetProps |
| C08 | small_vector behaves as a sequence | partial, with a refutation | SmallVectorProps |
| C09 | small_vector constructs and destroys every element exactly once | partial, with a refutation | SmallVectorProps |
| C10 | Matrix row and column views agree with a list of rows | partial, with a refutation | MatrixProps |
| C11 | Ordered search returns the first element not less than the value | proved | AlgorithmProps |
| C12 | argsort and partial_argsort return ordered permutations of the indices | proved | AlgorithmProps |
| C13 | Sequence helpers meet their set-level specifications | proved | AlgorithmProps |
| C14 | Tolerant floating point comparison is a consistent trichotomy | proved | FloatProps |
| C15 | Scoped tolerances are always restored | proved | FloatProps |
| C16 | Pareto dominance is a strict partial order | partial, with a refutation | FloatProps |
| C17 | The two dominance tests agree | partial, with a refutation | FloatProps |
| C18 | Pareto front computation returns exactly the non-dominated points | proved | FrontProps |
| C19 | Pareto front computation is safe for any comparison outcome | partial, with a refutation | FrontProps |
| C20 | Front computation respects dominance under tolerance | partial, with a refutation | FrontProps |
| C21 | Merging Pareto sets is correct under every thread schedule | partial, with a refutation | MergeProps |
| C22 | Non-dominated sorting assigns the true dominance depth | proved | NdSortProps |
| C23 | All non-dominated sorting algorithms agree | proved | NdSortProps |
| C24 | Non-dominated sorting terminates for every comparison outcome | partial, with a refutation | NdSortProps |
| C25 | Views of the sorted fronts are consistent | proved | NdSortProps |
| C26 | Nadir point is the objective-wise worst of the front | proved | FrontProps |
| C27 | Permutation crossovers always produce permutations | proved | CrossoverProps |
| C28 | Order crossovers keep the segment and the relative order | proved | CrossoverProps |
| C29 | Generic and specialised permutation crossover implementations agree | proved | CrossoverProps |
| C30 | Cycle crossover takes every gene from the same position of a parent | proved | CrossoverProps |
| C31 | PMX keeps the chosen segment and uses the other parent elsewhere when possible | proved | CrossoverProps |
| C32 | Point and uniform crossovers only exchange genes position-wise | proved | CrossoverProps |
| C33 | Crossover marks children evaluated only with a correct fitness | partial, with a refutation | CrossoverOpProps |
| C34 | Real coded crossovers keep genes within the bounds | partial, with a refutation | RealCrossoverProps |
| C35 | Permutation mutations always produce permutations | partial | PermMutationProps |
| C36 | Permutation mutations respect the sampling preconditions | partial, with a refutation | PermMutationProps |
| C37 | Real coded mutations keep genes within the bounds | partial, with a refutation | MutationProps |
| C38 | Integer uniform mutation picks another in-range value and terminates | partial, with a refutation | MutationOpProps |
| C39 | Mutation keeps the evaluated flag only for unchanged candidates | partial, with a refutation | MutationOpProps |
| C40 | Zero probability operators never act and probability one always acts | partial, with a refutation | MutationOpProps |
| C41 | Replacement operators select a valid next generation | partial, with a refutation | ReplacementProps |
| C42 | Best fitness never decreases under elitist replacement | partial, with a refutation | EngineBestProps, ReplacementProps, EngineExample |
| C43 | Selection operators return members of the population | partial, with a refutation | SelectionProps |
| C44 | Sigma scaling depends on its scale parameter | partial, with a refutation | SelectionProps |
| C45 | NSGA-II keeps the best ranked distinct candidates | partial, with a refutation | Nsga2Props |
| C46 | NSGA-II selection compares each candidate by its own rank and crowding distance | partial, with a refutation | Nsga2Props |
| C47 | NSGA-III keeps the best ranked distinct candidates | proved | Nsga3Props |
| C48 | NSGA-III niching picks the least crowded reference line and its remaining closest member | partial, with a refutation | Nsga3Props |
| C49 | Stored fitness is always the fitness of the stored chromosome | partial, with a refutation | EngineProps, EngineRealProps |
| C50 | Population size is invariant | proved | EngineProps |
| C51 | A run lasts at most max_gen generations and calls the hooks once per generation | proved | EngineProps |
| C52 | The generation counter identifies the generation in the callbacks | partial, with a refutation | EngineProps, EngineExample |
| C53 | num_fitness_evals counts the fitness function calls of the run | proved | EngineProps, EngineSchedule |
| C54 | The fitness cache is transparent | partial, with a refutation | EngineCacheProps, EngineRealProps |
| C55 | Returned solutions are mutually non-dominating and complete | partial, with a refutation | EngineSolutionsProps, EngineExample |
| C56 | The initial population is honoured | proved | EngineProps |
| C57 | Caching is disabled for dynamic fitness functions | partial, with a refutation | EngineProps |
| C58 | Stall conditions stop after exactly `patience` generations without improvement | partial, with a refutation | StopProps |
| C59 | FitnessValue stops only when the threshold is reached | partial, with a refutation | StopProps |
| C60 | Composed stop conditions compute the boolean combination | partial, with a refutation | StopProps |
| C61 | Hypervolume equals the measure of the dominated region | proved | HyperProps |
| C62 | Automatic hypervolume is relative to one common reference point | partial, with a refutation | HyperProps |
| C63 | Population statistics are the exact extremes and sums | proved | StatsProps |
| C64 | Random real numbers stay in the half-open interval | partial, with a refutation | RandProps, RandMoreProps |
| C65 | Unique sampling returns distinct numbers in range | partial, with a refutation | RandProps |
| C66 | CDF sampling returns a valid index | partial, with a refutation | RandProps, RandMoreProps |
| C67 | The generator never enters the all-zero state | proved | RngProps |
| C68 | jump() advances the generator by exactly 2^96 steps | proved | RngProps |
| C69 | The generator has full period and per-thread streams do not overlap | proved | RngProps |
| C70 | Random booleans are the generator's bits, each used once | proved | RngProps |
| C71 | Random binomial draws lie between 0 and n | proved | RandProps, RandMoreProps |
| C72 | Quasi random points stay in the unit cube | proved | QrngProps |
| C73 | parallel_for applies the operation exactly once per element | proved | PoolProps, PoolMoreProps |
| C74 | parallel_for propagates exceptions without leaving tasks behind | partial, with a refutation | PoolProps, PoolMoreProps |
| C75 | Nested parallel loops never deadlock | proved | PoolProps |
| C76 | The concurrent queue delivers every element once in order | proved | QueueProps |
| C77 | Spin locks provide mutual exclusion | proved | LockProps |
| C78 | RCU protected data is not freed while being read | partial, with a refutation | RcuProps |
| C79 | Cone tree search finds the best match | partial, with a refutation | ConeProps |
| C80 | Reference lines lie on the unit simplex | proved | RefProps |
| C81 | Generated candidates are valid for their encoding | partial, with a refutation | EncodingProps |
| C82 | Bit flip mutation flips exactly the chosen genes | proved | MutationOpProps |
| C83 | Cycle crossover exchanges every second cycle | proved | CrossoverMoreProps |
| C84 | Edge crossover follows the parents' edges | partial, with a refutation | CrossoverMoreProps |
| C85 | Wright's crossover moves past the better parent | proved | RealMoreProps |
| C86 | Arithmetic crossover gives the convex combinations | proved | RealMoreProps |
| C87 | BLX-alpha samples the extended interval | proved | RealMoreProps |
| C88 | The spread factor of simulated binary crossover respects the bounds | partial, with a refutation | RealMoreProps |
| C89 | Permutation mutations are applied as configured | proved | MutationMoreProps |
| C90 | Real coded mutations change the chosen genes as documented | proved | MutationMoreProps |
| C91 | Unique sampling is uniform | proved | RandMoreProps |
| C92 | Weighted selection is proportional to the weights | proved | SelectionMoreProps |
| C93 | Selection weights are the documented ones | partial, with a refutation | SelectionMoreProps |
| C94 | NSGA-III associates every candidate with the closest reference line | proved | Nsga3MoreProps |
| C95 | NSGA initialization, selection and optimal solutions | proved | Nsga3MoreProps |
| C96 | Optima of the single-objective benchmark functions | partial, with a refutation | ProblemSingleProps |
| C97 | Pareto sets of Kursawe and the ZDT problems | partial, with a refutation | ProblemMultiProps |
| C98 | Pareto sets of the DTLZ problems | partial, with a refutation | ProblemManyProps |
| C99 | Binary encoding of the real benchmark functions | partial, with a refutation | ConvertProps |
| C100 | TSP and StringFinder | proved | ProblemOtherProps |
| C101 | Length of a run and what the stop conditions look at | proved | StopMoreProps |
| C102 | How a generation is made from the one before | proved | EngineStepProps |
| C103 | What the fitness cache saves | partial, with a refutation | EngineStepProps, EngineStepExample |
| C104 | The quasi random sequence is the additive recurrence of the generalized golden ratio | proved | QrngSeqProps |
| C105 | The generators are splitmix64 and xoroshiro128+, and a seed determines all numbers | proved | RngRefProps |
| C106 | The spin locks become free again | proved | LockMoreProps |
| C107 | RCU with a fence in read_lock is safe with store buffers, frees each object once and waits only for earlier readers | proved | RcuMoreProps |
| C108 | The reference points are those of the mappings, and the sparse subset is picked farthest first | proved | RefMoreProps |
| C109 | The iterators are random access iterators | partial, with a refutation | IteratorProps |
| C110 | small_vector is exception safe | partial, with a refutation | SmallVectorExnProps |
| C111 | Operations of small_vector accept their own elements as arguments | partial, with a refutation | SmallVectorExnProps |
| C112 | The vector functions and statistics compute what their names say | proved | MathProps |
| C113 | A bounded value lies in its interval | partial, with a refutation | BoundedProps |
| C114 | The thread pool ends without losing a task, and can be resized | partial, with a refutation | ShutdownProps |
| C115 | Scope guards restore what they guard | proved | ScopeProps |
| C116 | What was not set explicitly is deduced for each run | partial, with a refutation | ConfigProps |
| C117 | The integer helpers are exact for every integral type | proved | ModularProps |
| C118 | get_metric finds the metric of its type | partial, with a refutation | MetricSetProps |
| C119 | map and the function wrappers call what they were given | proved | FunctionalProps |

## What is refuted

The claims below are false of the model; each has a witness in a theorem `..._refuted`. The note in `MANIFEST.json` says what holds instead.

* C03: Refuted: the scope guard of set_capacity releases the old, still owned block. Only the exception-free path is balanced.
* C05: Refuted: range insertion looks only at the last capacity() items, so a repeated or already cached key gives another result than inserting one by one. Holds for ranges no longer than the capacity and for fresh distinct keys.
* C06: Refuted: resize() across a block boundary masks the new last block with the old mask, so the new bits inside the old last block keep stale values. Holds for all histories whose growing resizes start at a multiple of 64 or stay inside the last block.
* C07: Refuted: partial_block() reads blocks_.back() of an empty vector in popcount, any_set, all_set, none_set and ==. find_first and operator~ are defined.
* C08: Refuted: insert of a count or range with spare capacity inserts size()-count behind the requested position when the displaced tail is longer than the inserted part. All other operations (and insertions with a short tail) behave as on a list; pop_back needs a trivially destructible type (see C09). Exceptions and self-aliasing arguments: C110 and C111.
* C09: Refuted: pop_back destroys the cell behind the last element. All other histories construct and destroy every object exactly once (exception-free executions).
* C10: Refuted: rows without columns are not counted (an appended empty row leaves nrows() at 0). Holds for all histories whose rows have at least one column.
* C16: Refuted: with the default tolerances two vectors can dominate each other and dominance is not transitive. Irreflexive always, asymmetric for zero relative tolerance or non-negative vectors, a strict partial order (exact dominance) for zero tolerances.
* C17: Refuted: the two tests scale the tolerance differently for negative values. Non-zero paretoCompare always implies paretoCompareLess; full agreement for zero relative tolerance or non-negative vectors.
* C19: Refuted: the divide-and-conquer variant does not terminate on an empty matrix.
* C20: Refuted: under the default tolerances dominance is not transitive, so a dropped point need not be dominated by a returned one, and returned points can dominate each other. Proved: dropped points are dominated by some point, earlier returned points never beat later ones; the sort-based variant keeps a dominating point for every dropped one.
* C21: Refuted: with the default tolerances a dominated candidate can remain.
* C24: Refuted: with the default tolerances three points can dominate each other in a circle; the fast sort then reads past the end of its result and the dominance degree sort never ends.
* C33: Refuted for real genes: operator== is tolerant, so a child that differs from a parent by less than the tolerance takes over its fitness. With zero tolerances it holds up to the sign of zero.
* C34: Refuted for very large bounds: BLX-alpha, SBX and Wright produce a NaN gene, which std::clamp keeps.
* C36: Refuted: shift mutation with the allowed range parameter 1 asks for two different positions out of one, for every chromosome of at least two genes. Proved for the other operators and for shift below 1.
* C37: Refuted for the widest finite bounds: uniform, Gauss, polynomial and non-uniform mutation each produce a NaN gene.
* C38: Refuted for bounds with lower == upper: the redraw loop never ends. Proved otherwise: a result is always in bounds, differs at the chosen positions, and the loop ends if every gene has two values and the generator does not repeat one number for ever.
* C39: Refuted for real genes: operator== is tolerant, so a slightly changed candidate keeps its old fitness. With zero tolerances it holds up to the sign of zero.
* C40: Refuted for a draw of exactly 0: swap2, swap3, shuffle, shift, and all other mutations of at most 5 genes act with rate 0.
* C41: Refuted with the default tolerances: the tolerant comparison is not a strict weak ordering, so the precondition of std::sort fails for some fitness values.
* C42: Refuted with the default tolerances: Elitism may keep a parent that is worse by less than the tolerance.
* C43: Refuted: roulette selection with only subnormal fitness values builds a NaN distribution, and rank selection of a population of one computes the weight 0/0. The mean and deviation of sigma selection are parameters; populations of at most 2^40 members.
* C44: Refuted: the scale parameter is stored but never used; the weights are the same for every scale.
* C46: Refuted: after nextPopulation the distances stay indexed by the combined population and are truncated, so selection compares candidates by other candidates' distances (C46_distances_refuted). Proved: the comparison made by selection, both arrays after initialize, and the ranks after nextPopulation.
* C48: Refuted: findClosestAssociated also searches the candidates picked before, so a pick can re-select one of them and swap in an arbitrary candidate of another line (C48_niching_refuted). Proved (finite distances): the list of lines stays ordered by count, holds the line of every unpicked member, each pick takes a listed line with the smallest count, a closest member of it, and counts it.
* C49: Refuted for real genes: operator== is tolerant, so a slightly changed candidate keeps its old fitness. Initial candidates marked evaluated must carry their fitness; std::sort by contract.
* C52: Refuted: the counter is incremented after the callbacks, so they see 0, 0, 1, 2, ... (C52_generation_counter_partial gives the exact sequence for every run).
* C54: Refuted for real genes: through the tolerant operator== a wrong fitness gets into the cache.
* C55: Refuted in that case: with keep_all_optimal_solutions the front of the initial population is returned with its duplicates.
* C57: Refuted: with a dynamic fitness function and a cache size setting other than 0 the assertion in evaluate fails in the first evaluation. Proved without assertions (or cache size 0): every evaluation calls the fitness function and the cache stays empty.
* C58: Refuted: the code compares with >=, so with delta = 0 a constant value counts as improvement and the run never stops; with patience 2^64-1 the counter wraps around and the run stops immediately.
* C59: Refuted with two objectives: a candidate incomparable with the threshold stops the run. Proved for one objective (exact comparison), and that a candidate reaching the threshold always stops it.
* C60: Refuted: under && a short-circuited || does not update its right operand; and in the last generation every condition is true, also a negated one.
* C62: Refuted for three objectives: the correction adds the volume between the old and the new reference point below the ideal point, which is too much for some fronts. For any number of objectives the recorded values are proved to be upper bounds.
* C64: Refuted: rounding can return b itself, and the widest bounds return a NaN.
* C65: Refuted for longer ranges: three numbers from [0, 65536) can repeat.
* C66: Refuted for the weight: see C66_sampleCdf_weight_refuted.
* C74: Refuted: when the operation throws in the block the caller runs itself, execute_loop is left by that exception without waiting for the latch, so submitted tasks still use the dead frame. Proved: after a normal return or a rethrown task exception no task is left, and without a throw in a caller's own block nothing ever uses a dead frame.
* C78: Refuted: with store buffers (x86-TSO) the reader's epoch store may still be buffered when it loads the pointer, the writer sees NOT_READING and frees the object; the load of the own epoch in read_lock does not prevent it. Proved for sequentially consistent memory, and (C107) with store buffers when read_lock has a fence, for fewer than 2^64-1 calls of synchronize and read sections that are not nested.
* C79: Refuted (second half): buildTree writes node.left and node.right through a reference that push_back invalidates when more than 4n/8 nodes are needed, e.g. eleven equal points, or twelve powers of three. Proved: the search is right for every tree that is built (exact arithmetic), and reserving 2n-1 nodes would always be enough.
* C81: Refuted: for the widest bounds the width overflows and the generated gene can be a NaN.
* C84: Refuted: the code compares the neighbours with a default gene (the first or least unused one) and takes that one if no neighbour has fewer unused neighbours, so the child can leave the parents' edges although an unused neighbour is left. The exact greedy choice is proved.
* C88: Refuted: the code raises to -(eta+1) where the bounded operator needs 1/(eta+1); genes 4 and 6 with lower bound 0, eta = 1 and u = 1/10 give a child below -20, which is then clamped to the bound. Proved: with the exponent 1/(eta+1) no clamping would be needed. Exact arithmetic.
* C93: Refuted: the documented Boltzmann probabilities, proportional to exp(f / T); the code scales the fitness values by their range first, so 0 and 2 with T = 1 get exp(0) and exp(1). The sigma weights are those for scale 1 (C44).
* C96: Refuted: the documentation's claims that the Rosenbrock optimum is at (0, ..., 0) and that the sum of Levy's function runs to the last variable.
* C97: Refuted: its nadir point (an optimal point has f1 = -0.851 < -0.85). ZDT6: Refuted: the ideal point is never attained (f1 < 0) and the nadir point is not a bound (f2 < -0.92 at x = 0.0815). Kursawe: optimum() is optimal with the stated value; Refuted: the ideal point, documented as approximate, is exceeded for every n >= 10; whether the first entry of the nadir point is a bound is not decided.
* C98: Refuted: f(optimum()) is not optimal_value() (its last entry is -sin(pi/2 * 2^-100), which a double cannot tell from 0 beside the others). DTLZ5 and DTLZ6: the documented points are optimal and form the documented curve for every number of objectives, and they are all the optimal points for 2 and 3 objectives; Refuted: with 4 objectives another point is optimal and lies below the nadir point. DTLZ7: exactly which points are optimal, the value at optimum(), ideal and nadir bounds, the ideal within (M-1)/10^6; Refuted: that every point with the last variables 0 is optimal, and that ideal and nadir points are attained.
* C99: Refuted: that a variable never exceeds its upper bound (bounds -1.2 and 1.0 give 1.0000000000000002), and that it is a number for 0 bits or for 1024 and more bits.
* C103: Refuted: with a cache for n generations no chromosome of the last n generations is evaluated again. A chromosome that stays in the population keeps its age in the cache and is dropped while still in use (n = 1, two candidates, third generation), and the current population is added to the cache only after its children were evaluated. Proved instead: it holds for the n generations before the current one, for chromosomes that were in none of the earlier ones.
* C109: Refuted for stable_iterator: operator- returns the absolute distance, so first - last is positive and a + (b - a) is not b whenever a is behind b; and the assertion of operator+= does not catch a step longer than the container, because size() - n wraps around. Everything else is proved for containers of fewer than 2^63 elements.
* C110: Refuted: the constructor from input iterators has no guard, so when an element or an allocation throws, the block and the elements made so far are never released (the destructor does not run). Everything else is proved for every sequence of exceptions. insert is shown to insert at the place found in C08. Operations on two vectors (move, swap, copy assignment through them) and pop_back are not part of this model.
* C111: Refuted: resize(n, v[i]) reads v[i] after its storage was released when it reallocates; insert(pos, n, v[i]) copies a moved-from object when v[i] is among the elements moved first (behind the place with spare capacity, in front of it when reallocating). Correct: push_back, emplace, insert of one element, assign(n, v[i]), resize within the capacity, insert of elements in front of the moved ones.
* C113: Refuted: every interval accepts NaN, because contains only rejects values that compare below or above a bound; Probability(NaN) passes its assertion. Proved for integers and for every double that is not NaN.
* C114: Refuted: when the creation of a thread fails in thread_count(count), the old workers are already stopped, so the pool refuses every task from then on, also after thread_count is called with the number of threads it still reports; and if at least one new thread had been made, its destruction waits forever, because its queue was not closed. Proved when every thread can be made. Operations of the queue are single steps (C76 has their interleavings); tasks are single steps that end.
* C116: Refuted: GA(size, unique_ptr) with a null algorithm and GA(size, crossover, mutation, stop) by value use SingleObjective instead of deducing the algorithm, and so violate an assertion with more than one objective; a deduced mutation rate is kept in later runs, whatever their chromosome length is. Everything else is proved for all histories of setters and runs. Operators are reduced to their mutation rate; the deduced rates are over binary64.
* C118: Refuted: a tracked metric whose class is not itself the argument of its Monitor base, such as a class derived from another metric, is not found by get_metric_if of its own class. Proved for metrics that are. Different objects are assumed to have different addresses.

## Print Assumptions of each theorem

### Closed under the global context (207 theorems)

C01_circular_buffer_refines_deque; C02_circular_buffer_from_range, C02_circular_buffer_equality; C03_set_capacity_exception_safety_refuted, C03_reset_exception_safety_refuted, C03_set_capacity_no_exception_balanced_partial; C04_cache_refines_fifo_map; C05_range_insert_is_iterated_insert_refuted, C05_range_insert_is_iterated_insert_partial; C06_bitset_is_bool_sequence_refuted, C06_resize_false_leaves_garbage_refuted, C06_bitset_is_bool_sequence_partial, C06_bitset_equality_partial; C07_empty_bitset_queries_refuted, C07_empty_bitset_queries_partial; C08_small_vector_is_sequence_refuted, C08_small_vector_is_sequence_partial; C09_pop_back_lifetime_refuted, C09_small_vector_lifetimes_partial; C10_matrix_is_row_list_refuted, C10_matrix_is_row_list_partial, C10_matrix_equality_partial; C11_lower_bound_first_not_less; C12_argsort, C12_partial_argsort, C12_extrema, C12_index_vector; C13_erase_duplicates, C13_find_indices, C13_find_first, C13_erase_first_stable, C13_select, C13_elementwise, C13_partial_shuffle; C15_scoped_tolerances_restored; C19_front_safe_partial, C19_kung_empty_refuted; C21_merge_possible; C23_tasks_terminate; C25_ranks, C25_fronts, C25_partial_front, C25_resize; C27_generic_crossovers_permute, C27_permutation_crossovers_permute; C28_order_crossovers; C29_specialised_crossovers_agree; C30_cycle_crossover; C31_pmx_crossover; C32_n_point_crossover, C32_point_and_uniform_crossovers; C33_crossover_flag; C39_mutation_flag; C41_keep_children; C53_not_evaluated_again, C53_every_schedule, C53_schedules_agree, C53_schedule_progress; C56_initial_population; C57_dynamic_evaluates; C60_strict_partial, C60_disjunction_partial; C61_exact, C61_sequential, C61_independent; C62_two_objectives_partial, C62_upper_bound_partial; C67_state_nonzero; C68_jump; C69_full_period, C69_streams_disjoint, C69_no_state_reused, C69_no_state_reused_from_start; C70_bits; C73_exactly_once, C73_blocks, C73_task_count; C74_refuted, C74_no_task_left_partial, C74_propagates, C74_defined_partial, C74_caller, C74_throws; C75_completes, C75_no_deadlock, C75_never_stuck, C75_schedules; C76_fifo_exactly_once, C76_content, C76_no_lost_wakeup, C76_progress; C77_spinlock, C77_shared_spinlock, C77_shared_coexist; C78_sequential_partial, C78_store_buffer_refuted; C81_binary, C81_binary_all, C81_integer, C81_integer_all, C81_permutation; C83_cycle_alternates, C83_cycle_operator_alternates; C84_edge_greedy, C84_edge_operator_greedy, C84_follows_edges_refuted; C95_select; C101_max_gen, C101_evals, C101_no_early_stop; C105_splitmix, C105_xoroshiro, C105_reproducible, C105_registered, C105_seeded, C105_draws; C106_spinlock_free, C106_spinlock_handover, C106_exclusive_free, C106_shared_free, C106_all_left; C107_fence, C107_sequential_steps, C107_freed_once, C107_waits, C107_delete; C109_iota, C109_iota_walk, C109_stable_partial, C109_stable_refuted, C109_stable_distance, C109_stable_back, C109_stable_deref, C109_stable_walk, C109_derived, C109_walk, C109_container, C109_stable_mixed, C109_stable_outside; C110_reserve, C110_shrink, C110_push, C110_resize, C110_clear, C110_destroy, C110_assign, C110_erase, C110_emplace, C110_insert, C110_construct, C110_step, C110_history, C110_lifetime, C110_construct_input_partial, C110_construct_input_refuted; C111_push, C111_emplace, C111_assign, C111_resize_partial, C111_resize_refuted, C111_insert_partial, C111_insert_refuted, C111_insert_realloc_refuted; C113_integer, C113_positive_size, C113_non_negative_size, C113_nan; C114_tasks, C114_drained, C114_defined, C114_terminates, C114_no_deadlock, C114_accepts, C114_default, C114_resize_partial, C114_unclosed_refuted, C114_resize_refuted; C115_restored, C115_nested, C115_scope_exit, C115_solve, C115_solve_zero, C115_solve_default; C116_default_accepts, C116_algorithm_partial, C116_algorithm_refuted, C116_rate_given, C116_rate_partial, C116_rate_refuted, C116_stop; C117_range_length, C117_next, C117_prev, C117_walk, C117_inverse; C118_get_partial, C118_get_metric_partial, C118_get_refuted, C118_track, C118_run, C118_same; C119_map_push, C119_map_index, C119_move_only, C119_is_set, C119_function_ref, C119_function_ref_empty.

### Axioms `functional_extensionality_dep`, `sig_forall_dec`, `sig_not_dec` (33 theorems)

C79_best_match, C79_points, C79_reserve_enough_partial, C79_dangling_refuted; C80_sort, C80_root, C80_mirror, C80_mirror_ends, C80_pick, C80_pick_simplex, C80_normalized; C96_formulas, C96_sphere, C96_rastrigin, C96_rosenbrock, C96_griewank, C96_levy, C96_levy_documented_refuted; C98_boxes; C100_tsp, C100_tsp_outside; C108_sort, C108_root, C108_pick; C112_norm, C112_normalize, C112_normalize_zero, C112_stdDev_of, C112_stdDev, C112_fitness_deviation, C112_two_deviations, C112_integral, C112_empty.

### Axioms `functional_extensionality_dep`, `sig_forall_dec` (15 theorems)

C94_closest_exact; C96_rosenbrock_documented_refuted, C96_boxes; C97_zdt5, C97_boxes; C100_string_finder, C100_string_finder_optimal; C112_distance, C112_perpendicular, C112_perpendicular_zero, C112_volume, C112_mean, C112_fitness_mean, C112_variance, C112_lengths.

### Axioms `classic`, `functional_extensionality_dep`, `sig_forall_dec`, `sig_not_dec` (216 theorems)

C14_float_comparison_trichotomy, C14_float_comparison_exact, C14_vector_equality; C16_dominance_strict_partial_order_refuted, C16_dominance_strict_partial_order_partial; C17_dominance_tests_agree_refuted, C17_dominance_tests_agree_partial; C18_front_is_nondominated_set, C18_population_front; C19_front_1D_safe; C20_front_respects_dominance_refuted, C20_front_respects_dominance_partial, C20_sort_front_partial; C21_merge_every_schedule_partial, C21_merge_default_tolerances_refuted; C22_nondominated_sort_ranks; C23_sorts_agree; C24_ens_terminates_partial, C24_fnds_dds_refuted; C26_nadir_point; C33_crossover_flag_real_partial, C33_crossover_flag_exact_real_partial, C33_crossover_flag_refuted; C34_arithmetic_in_bounds, C34_blx_in_bounds_partial, C34_sbx_in_bounds_partial, C34_wright_in_bounds_partial, C34_blx_refuted, C34_sbx_refuted, C34_wright_refuted; C35_permutation_mutations, C35_shift_mutation_partial; C36_sampling_preconditions_partial, C36_sampleUnique_precondition, C36_shift_refuted; C37_boundary_in_bounds, C37_uniform_in_bounds_partial, C37_nonuniform_in_bounds_partial, C37_polynomial_in_bounds_partial, C37_gauss_in_bounds_partial, C37_wide_bounds_refuted; C38_integer_uniform_result_partial, C38_integer_uniform_in_bounds, C38_integer_uniform_terminates_partial, C38_integer_uniform_refuted; C39_mutation_flag_real_partial, C39_mutation_flag_exact_real_partial, C39_mutation_flag_refuted; C40_crossover_rate_zero, C40_inversion_rate_zero, C40_permutation_rate_zero_partial, C40_gene_count_rate_zero_partial, C40_rate_zero_refuted, C40_gene_count_rate_one, C40_crossover_rate_one; C41_elitism, C41_keep_best, C41_exact_partial, C41_tolerant_order_refuted; C42_best_never_decreases_partial, C42_one_generation, C42_default_tolerances_refuted; C43_weights, C43_roulette_partial, C43_roulette_fitness_partial, C43_tournament, C43_rank_partial, C43_sigma, C43_boltzmann, C43_roulette_subnormal_refuted, C43_rank_single_refuted; C44_sigma_scale_ignored, C44_sigma_scale_refuted; C45_next_population_partial, C45_next_population_ranks_partial, C45_overflow_refuted; C46_select_compares, C46_initial_partial, C46_next_ranks_partial, C46_distances_refuted; C47_next_population; C48_niching_partial, C48_niching_refuted; C49_fitness_sound_partial, C49_real_genes_refuted; C50_population_size; C51_generations, C51_counters_reset, run_terminates; C52_generation_counter_partial, C52_generation_counter_refuted; C53_evals_counted; C54_cache_transparent_partial, C54_real_genes_refuted; C55_solutions_partial, C55_duplicate_solutions_refuted; C56_first_generation; C57_dynamic_run_partial, C57_dynamic_cache_refuted; C58_stall_partial, C58_never_before_partial, C58_stall_refuted, C58_patience_refuted; C59_reached_stops, C59_not_dominated_partial, C59_single_objective, C59_incomparable_refuted; C60_short_circuit_refuted, C60_not_last_refuted; C61_binary64; C62_binary64_partial, C62_three_objectives_refuted; C63_min, C63_max, C63_mean, C63_one_entry_per_generation, C63_evaluations; C64_randomReal_range, C64_randomReal_between_partial, C64_randomReal_half_open_refuted, C64_randomReal_overflow_refuted, C64_randomReal_between_value; C65_sampleUnique_partial, C65_sampleUnique_large_partial, C65_sampleUnique_refuted; C66_sampleCdf_in_range, C66_sampleCdf_weight_partial, C66_sampleCdf_weight_refuted, C66_sampleCdf_first; C71_randomBinomial_range, C71_randomBinomial_returns, C71_randomBinomial_exact; C72_unit_cube; C80_log, C80_generated_log, C80_generated_sort, C80_generated_root, C80_generated_mirror; C81_real, C81_real_refuted; C82_flip; C85_wright; C86_arithmetic; C87_blx; C88_sbx_spread_limited_refuted, C88_sbx_reciprocal_exponent; C89_permutation_mutations_applied, C89_every_part_possible; C90_boundary, C90_uniform, C90_nonuniform, C90_polynomial, C90_gauss; C91_sampleUnique_uniform; C92_cdf_shares, C92_select_share; C93_roulette_nonneg, C93_roulette_negative, C93_roulette_follows, C93_rank, C93_sigma, C93_boltzmann, C93_boltzmann_formula_refuted; C94_association, C94_closest_line, C94_next_population; C95_initialize, C95_optimal_nsga2, C95_optimal_nsga3, C95_optimal_initial; C96_schwefel_partial, C96_ackley; C97_formulas, C97_zdt1, C97_zdt2, C97_zdt3, C97_zdt4, C97_zdt6, C97_kursawe_partial, C97_kursawe_ideal_refuted; C98_formulas, C98_dtlz1, C98_dtlz23, C98_dtlz4, C98_dtlz56_partial, C98_dtlz56_refuted, C98_dtlz7_partial, C98_dtlz7_refuted; C99_convert, C99_monotone, C99_accurate, C99_invoke, C99_above_refuted, C99_nan_refuted; C101_value, C101_best_stall, C101_mean_stall; C102_generation, C102_first; C103_cached_partial, C103_refuted; C104_discard, C104_reset, C104_points, C104_phi, C104_alpha; C108_log; C113_double, C113_probability, C113_non_negative, C113_positive, C113_negative, C113_bounded_value_refuted; C116_inverse_length, C116_permutation_rate, C116_zero_length.

### Axioms `sig_forall_dec` (1 theorems)

C112_stdDev_one.
