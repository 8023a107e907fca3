# Formal model of wrtstat — design

Prover: Rocq/Coq 8.16.1.  Sources: `/repo/wrtstat` (only the files compiled by CMake; the legacy
top-level `aggregator.cpp`, `reducer.cpp`, `separator.cpp`, `manager/`, `meter_manager.*` and `json/` are
dead code and are not modelled).

## Conventions

* `value_type` and `time_type` are `int64`, modelled in `Z`; arithmetic that can overflow a signed type is
  checked and yields the outcome `Ub`.  `size_type` counters that the user can drive arbitrarily
  (count, lossy, total) are modelled in `Z` modulo 2^64.  Container sizes (reducer_limit, reducer_levels,
  vector sizes) are `nat`.
* Partial operations return `outcome A := Ok a | Ub | Exn`, `Ub` = undefined behaviour in C++,
  `Exn` = a C++ exception leaves the call.
* The running average is an IEEE binary64 value (Coq's `SpecFloat`, precision 53, emax 1024; Flocq appears only in
  proofs), rounded to nearest even, and the final cast to int64 is undefined outside the int64 range, as in C++.
* External behaviour the language leaves open is a parameter of the model and universally quantified in
  the theorems: the permutation produced by `std::nth_element` (contract: `nth_element_ok`), the wall clock,
  `std::rand`, hash functions, the element picked from an `unordered_set` free list, unordered iteration order,
  thread schedules.  `std::sort` on integers is deterministic and is modelled by a sorting function.
* Callbacks are modelled by the list of values they receive.  Re-entrant callbacks are modelled for the aggregator (C96),
  the packer (C103), the multi_aggregator (C105), and in the lock-order models (C50, C78) where callbacks take further locks.

## Files (`rocq/theories`)

* `Base.v` outcome monad, machine integers, lists;  `SortFacts.v` sorting and order statistics
* `Spec*.v` small independent specifications used in the theorem statements
* `Model*.v` transcriptions of the code, one definition per function, with file:line citations
* `*Proofs.v` lemmas;  `Props*.v` the property theorems only, each with `Print Assumptions`

## Properties: what is modelled and how it is proved

| id | model | method |
|----|-------|--------|
| C01 | `reducer` add/reduce/detach | induction over call sequences, ghost sum |
| C02 | same | invariant on rows: all rows but the last are full; arithmetic mod 2^64 |
| C03 | same, with nth_element oracle | invariant of the thinning loop: permutation of (row0 + discarded + unread suffixes) |
| C04 | same | row-shape invariant |
| C05 | same | invariant min/max = fold over all added values |
| C06 | Flocq binary64 average | induction; a rounding lemma: one update stays within the convex hull |
| C07 | same | range of the rounded average; refutation at 2^63-1 by computation |
| C08 | reducer loop in the outcome monad | result is always `Ok` |
| C09 | reducer | single-row invariant |
| C10 | clone/get_reduced | simulation between clone and original, modulo adaptive mode |
| C11 | clear/detach | detached state equals the constructed state up to the adaptive mode |
| C12 | reducer in sorting mode | closed form of the loop; counting argument for order statistics |
| C13 | add(reduced_data) | direct + witness for the zero case |
| C14 | separator | refinement to a grouping specification over the list of accepted samples |
| C15 | separator/aggregator | invariant on emitted timestamps |
| C16 | separator | characterisation of the result; state equality |
| C17 | separator | corollary of C14 and C01 |
| C18 | separator in the outcome monad | loop with fuel; no Ub under range hypotheses; witnesses outside |
| C19 | separator with clock parameter | independence lemma + witness |
| C20 | separator/aggregator | simulation queue vs handler |
| C21,C22 | `calc_perc`/`aggregate2_` | order-statistic lemma on partitioned lists; adversarial nth_element instance for sharpness |
| C23 | `reduce_`, every call of the aggregator | arithmetic on positions; simulation between the aggregator and the same one without the option (`C23_program`); witness for the violated bound |
| C24 | aggregator | state equality |
| C25 | aggregator, multi_aggregator | characterisation + witness |
| C26 | aggregator queue | FIFO trace lemma + witness |
| C27 | aggregator with pusher tokens | characterisation + witness |
| C28–C30 | `dict` | invariant on the two maps, free list and counter |
| C31–C34 | `registry`, `wrtstat` | invariants + per-name projection |
| C35,C36 | `multi_aggregator` | refinement to a single map |
| C37,C44 | `compact`/`recompact` on byte strings | codec proof: scanning the separators; decimal printing/parsing; separators of a packer's messages by induction over its calls (C37_separators) |
| C38–C43 | `basic_packer` | permutation invariants; JSON text size computed by an explicit printer |
| C45 | `operator+=` | integer arithmetic |
| C46,C47 | `rwlock` transition system | inductive invariant over any number of threads |
| C58 | same | schedule built for every n; wakeup lemma |
| C48 | mutex-protected object | every interleaving of lock/body/unlock steps is equivalent to the acquisition order |
| C49 | pool, sequential and concurrent | invariant; two-thread witness |
| C50,C59 | lock-order transition system (ModelLocks; nested handlers of any depth in ModelNest) | rank argument (the holder of the highest aggregator can go on); a callback that asks for a lock its own call holds never returns, in any schedule (C59_own_aggregator, C59_own_registry: an invariant of the waiting thread); stuck-state witnesses found by executing schedules |
| C51,C52 | meter point life cycle | induction over operation lists; witness |
| C53 | composite pusher | case analysis, per-aggregator effect |
| C54 | load_options, serialize_options and the option codecs as member lists (ModelCodec) over JSON texts | generic lemma: reading a member sets exactly it; witnesses |
| C56,C57 | `multi_pop`/`pushout` of `basic_packer` | invariant of the sorted list; witnesses |
| C55 | all request/response codecs, texts printed by ModelJson; parser as an oracle with the contract `wjson_ok` | same lemma; a concrete parser proved to meet the contract; acceptance (C55_exact) by inverting the readers member by member |
| C60–C65 | registry, pushers and meter handler as a transition system (ModelConc): threads interleave between critical sections, objects outlive del while a thread holds them, the token of a pusher outlives clear() likewise; a call during which nobody else takes effect is the sequential call (ConcAlone); after the section of a call its references are dropped in a step of their own | simulation: the sequence of effects runs on the sequential registry; per-object call history; witnesses by executing schedules |
| C66 | spinlock flag and thread places | invariant: flag = number of holders |
| C67 | double average of `add_`/`detach` | invariant: n times the average is within the sum of the rounding errors of the exact sum (Flocq) |
| C68 | whole programs (ModelSystem): wrtstat object, the functions held by meters, points, destruction | invariant: per name the registry's aggregator is the aggregator run on what the log says was sent (Reg/SysOk), on top of the aggregator's conservation; witness for the due window |
| C69 | meter creation by name, multi meters | the same invariant: a created name has a live object whose pusher is not null |
| C70 | points after ~wrtstat | invariant: points hold functions of their type; after destruction every weak pointer is dead |
| C71 | the registry and whole programs, all calls | invariant: registry invariant and every aggregator in the safe states of C18 (RegTotal); each call total; witnesses at the bounds |
| C72 | the separation loop as counted rounds (SpecRounds, an inductive relation) | the model's loop produces a counted execution; induction on it gives the number of rounds; refutation for every B |
| C73 | whole programs (ModelSystem); SpecWire: `y_open`, `received_all`, `well_ordered` | an invariant of aggregators and a property of what their calls deliver are lifted to programs (LiftProofs); the simulation of C18 and the bound on window labels give the invariant |
| C74 | program, packer and codecs together; `arrives` is the receiver: read, expand | composition of C73 (records are typed), C38 (packer), C55 (codec) and C68 (conservation) |
| C75 | the multi_aggregator as receiver of what C74's senders sent (SpecRelay: `fed`, `sender`) | the invariant of C68 for one name's aggregator (nothing lost as times do not go back) carried along the single-map run of C35; the final force_pop empties it; C74 for each sender |
| C76 | the shards of multi_aggregator, each with a mutex; threads interleaving the statements of the critical sections (ModelShards) | invariant: a log of the finished sections replays to the shards nobody is in; the log only grows. Per name: simulation by one aggregator; the invariant of C68 along the log |
| C77 | same, whole calls as lists of sections | refuted by computed schedules against all orders of the calls; for calls of one section the log of C76 is turned into a log of calls |
| C78 | same; the locks alone as in C59 | progress from the invariant of C76; computed deadlocks |
| C79 | the remaining codecs of the records (ModelRecords), six kinds as parts of a push | the readers computed field by field for every pair of kinds; a computed misreading of the compact form |
| C80 | ModelEnd: the threads of C60 plus a thread running ~wrtstat; after its last step calls on aggregators still held run on dead objects and may not touch the pool | simulation into C60 before the end; invariant "nobody holds the object" after it; computed schedules |
| C81 | ModelBuffers: reducers, separators and aggregators whose rows are pointers into a heap, with vectors that have capacities, allocators of one pool, use of a deleted buffer undefined | simulation with the independent aggregators of ModelAggregator; invariant: the rows of all aggregators and the pool partition the live buffers |
| C82 | size(data_size, capacity) over ModelBuffers | sums over the invariant of C81; witness for the capacity |
| C83 | the separator and aggregator models with the time of each sample kept beside the group (WindowProofs); programs of ModelSystem | timed groups carried through every call next to the simulation, then the lives of C84; witness for soiled starts |
| C84 | ModelSystem; SpecSystem: `life`, an aggregator made once and called alone; `samples`, what is measured with its time | the invariant of C68 extended by the lives of the aggregators behind the name |
| C85 | ModelSystem | the invariant of C84 with the order of the records and the open window's label; witness for a forced flush |
| C86 | what each call touches, under which locks, and who holds a shared_ptr to an aggregator (ModelRaces), any interleaving | a checker for the lock discipline that every call passes in any context, preserved by steps with exclusivity of locks and of ownership; witnesses by executing schedules |
| C87 | delivered record of a window (delivery_of, C21/C83) against the values of the window | invariant: without an explicit reduce() the levels are a permutation of the first limit*levels values; counting from ranks; C12 for sorting mode; lifted by C83 |
| C88 | push/separate with a handler that throws on the records of any set (ModelThrow): what the statements before the throw have done | the loop gives at most one record, since the detached reducer is empty; state after the throw = force_pop; induction over histories; C17 for the sums |
| C89 | points, meters, pushout, destructors with such a handler (ModelThrow on top of ModelSystem) | case analysis per operation; C88_retry lifted through registry and point; whole programs by induction, with the invariant of C71 kept by a throwing operation; witnesses by computation |
| C90 | the reducer with an allocation of each call failing (ModelAlloc): what the statements before the failing one have done; rows left empty, rows left null | invariant with rows that may be empty and an account of values tried; the thinning loop with an empty last row; induction over histories |
| C91 | create_aggregator, del, pop_all and pushout left by an exception at each place where it can arise (ModelFault): the two tables, the array, make_shared, the initializer, the free ids, the copy of a name | the registry without the names that have no aggregator satisfies the invariant of C28-C33, so each call is simulated there; induction over histories; the records of a pushout that fails (C91_pushout); witnesses by computation |
| C92 | basic_packer::pushout with the handler call at which an exception arises, and the records that were moved from (ModelPackThrow; what a moved-from string holds is a parameter) | a weaker invariant (sorted by the stored sizes) holds after every failure and gives termination and the accounting; the failing call is computed from the call that returns; fuel independence for the retry; witnesses by computation |
| C93 | push, multi_push, pushout and force_pushout of a multi_aggregator whose handlers may throw on any record (ModelMultiThrow, on top of ModelThrow) | the throwing loops are compared with the plain ones (prefix, retry); invariant: nothing is ever queued; per-name refinement to the aggregator of C88, from which conservation follows; witnesses by computation |
| C94 | every call of basic_aggregator with one of its allocations failing (ModelAggAlloc, on top of ModelAlloc): handler copies, the new record, the two queues, the rows of the reducer | a flow relation (counts modulo 2^64, values as multisets) between the records in sight and the open account of C90 before and after each part of a call; composed along the call and the history; the ordinary model recovered when nothing fails; the model with failures is defined wherever the ordinary one is (PropsAggAllocDef) |
| C95 | the shared registry of ModelConc (C60-C64) | the history of an object, its creation included, is a sequential run of calls taken from the schedule (obj_ops); then C83_aggregator_windows and C14_aggregator_grouping apply, from the last clear() on (clear_split) or from the creation; counterexample schedule for the order of returns |
| C96 | push and separate with handlers that call any method of the same aggregator, nested to any finite depth (ModelReenter: the loop re-reads _next_time after every handler call; recursion bounded by an argument that the theorems quantify over) | mutual induction over loop, calls and call: the flow relation of C94 for conservation, a label order for the order of windows; existence of a sufficient bound by induction over the handler trees and the rounds left; equivalence with ModelAggregator for silent handlers; counterexamples by computation, the unbounded recursion by induction |
| C97 | push, multi_push, pop, multi_pop and pushout of a packer with a failing allocation at any point (ModelPackAlloc: what had been taken out of the packer at that point is destroyed) | the invariant of C92 through every point of failure; a failing multi_pop is a sequence of pops, so the state after it is reachable; accounting by permutations; counterexamples by computation |
| C98 | threads that call member functions of one aggregator_mt, make pushers and call them, with the token `_id` reference counted (ModelClearMt: taking the token is a step of its own, outside the mutex) | invariant: what each thread did is a list of whole calls and the beginning of one; the token exists iff clear() was not made or a thread is inside a pusher; the refutation builds a schedule for any list of pushes |
| C99 | several multi_aggregator variables, move construction, move assignment, calls (ModelMove; a moved-from vector is empty, also after self-move, as in libstdc++) | invariant: a variable is empty or holds exactly one aggregator, whose state is that of a run of its own calls; witnesses by computation |
| C100 | any number of spinlocks and threads, one step per atomic operation, moves in two steps (ModelSpins) | invariant: the flag of a lock is the number of its holders and a move under way carries false; for the rising order, the waiting thread with the highest rank; C100_moved: both flags after a move nobody disturbs |
| C101 | objects of class aggregator moved with the implicit move constructor (ModelAggMove: numbers and flags copied, containers and `_id` emptied), pushers, destruction | invariant: an object that was not moved from is the run of its story; `_id` objects are where the stories say |
| C102 | the observers of reducer, separator, aggregator and registry (no new model); small counting specification (SpecObserve) | the shape invariant of the reducer's rows for size and filled; invariant: ids issued = names registered + free ids = peak of the names registered |
| C103 | basic_packer::pushout with a handler that makes calls on the same packer, pushout() included (ModelPackReenter: the calls the handler makes the first, second, ... time are a list; three mutually recursive functions with a bound) | measure: records stored + calls the handler may still make; accounting by sums over multisets through the nested calls with the weak invariant of C92; the invariant of C38 if every record fits; counterexamples for every number of repetitions by induction |
| C104 | every call of multi_aggregator with one of its allocations failing (ModelMultiAlloc, on top of ModelAggAlloc): the handler copies, the new aggregator, any allocation of its push, the record and the request of a pushout | the aggregator of one name follows a history of ModelAggAlloc (as C93 does for exceptions), C94 for that history; a failed force_pushout() and its repetition against one that does not fail, by induction on the traversal; definedness as for C94 (PropsMultiAllocDef) |
| C105 | multi_aggregator called from its own handlers (ModelMultiReenter): critical sections made of statements and handler calls, a recursive machine with the list of shards whose mutexes the thread holds; the bound on the recursion is shown to be irrelevant | induction on the bound: the sections inside a section are on other shards, so they commute with the rest of it, and the run is the sequential run of its sections in the order in which they end; then as C76 |
| C106 | the shared registry of ModelConc (C60-C65) with clear() | invariant: whoever holds the token of an aggregator got it before clear() or while another thread held it, and so on back (lasts); induction over that chain; computed schedules |

Nothing is deemed inexpressible; parts that stay outside the model are listed in the trusted base below.

## Trusted base

### Kernel and axioms

* Coq 8.16.1's kernel (including `vm_compute`, used in witnesses and refutations).  No axiom, parameter, admitted
  proof, functor or module type is declared in `rocq/theories`; no kernel check is switched off.
* `Print Assumptions` stands below every property theorem.  It answers "Closed under the global context" for all of
  them except the following sixteen, which reason about binary64 through Flocq's real-number semantics:
  `C06_avg_between_min_max`, `C06_avg_in_bounds`, `C06_constant_stream`, `C07_publishing_defined`, `C08_run_defined`,
  `C18_total`, `C18_aggregator_total`, `C35_total`, `C67_average_error`, `C67_average_near`, `C71_registry_total`, `C71_program_total`, `C76_total`, `C89_defined`, `C90_defined`, `C105_total`.
  For these it lists exactly the standard library's
  `ClassicalDedekindReals.sig_not_dec`, `ClassicalDedekindReals.sig_forall_dec`,
  `FunctionalExtensionality.functional_extensionality_dep`, `Classical_Prop.classic`.

### Contracts of things outside /repo, all explicit hypotheses

* `nth_element_ok ne`: `std::nth_element` permutes the range and leaves the n-th element where sorting would put it, no
  greater elements before it, no smaller ones after it.  Met by sorting (`ne_sort_ok`) and by an adversarial instance
  (`ne_rev`).  `std::sort`, `std::lower_bound`, containers and strings behave as in the standard.
* `jparser_ok`, `wjson_ok esc parse`: what the wjson library writes and reads (ModelJson, ModelCodec); a concrete parser
  meeting `wjson_ok` is in SpecCodec.
* The constructor of reducer writes to its own member `const reducer_options _opt` through `const_cast` (reducer.cpp:17)
  whenever reducer_mode is adapt and the rows are longer than 16.  The standard calls a write to a const object undefined;
  the model takes it as the write that compilers emit.
* A moved-from `std::function` is empty and `shrink_to_fit` is binding, as in libstdc++.
* Mutexes exclude, `condition_variable_any` may wake spuriously, atomics are sequentially consistent.  The rwlock and the
  spinlock are themselves modelled and proved (C46, C47, C66); the concurrent registry (C60-C65, C106) takes sections under
  them as atomic steps; that the memory used inside has no race (C86) is what makes this sound.  C86 itself takes the steps
  as sequentially consistent, which the C++ memory model guarantees for programs without races.

### What is modelled

| code | model |
|------|-------|
| `aggregator/reducer.*`, `aggregator/separator.*`, `aggregator/basic_aggregator.*`, `aggregator/aggregator.*` | ModelAvg, ModelReducer, ModelAlloc (a reducer when memory runs out), ModelSeparator, ModelAggregator, ModelAggAlloc (an aggregator when memory runs out), ModelReenter (handlers that call back), ModelAggMove (moved aggregators) |
| `aggregator/aggregator_mt.*` | ModelMt (any body under the mutex), ModelClearMt (pushers and clear() among threads), ModelConc, ModelRaces (memory touched) |
| `system/dict.hpp`, `aggregator/aggregator_registry.*`, `wrtstat.*` | ModelRegistry (one thread), ModelFault (calls that fail), ModelComposite, ModelConc (threads), ModelLocks (lock order), ModelRaces (memory touched and ownership) |
| `multi_aggregator/*` | ModelMulti, ModelMultiThrow (handlers that throw), ModelShards (threads), ModelNest (locks taken by nested handlers), ModelMove (moved objects), ModelMultiAlloc (allocations that fail), ModelMultiReenter (handlers that call it) |
| `multi_packer/basic_packer.*` | ModelPacker, ModelPackThrow (handlers that throw), ModelPackAlloc (allocations that fail), ModelPackReenter (handlers that call the packer) |
| `api/*`, `aggregator/api/*` and all `*_json*.hpp`, `options/load_options.*` | ModelTypes, ModelInfo, ModelJson, ModelCodec, ModelRecords |
| `meters/*` | ModelMeters |
| `wrtstat.{hpp,cpp}` meter creation, multi meters, handlers, destruction, with registry and points together | ModelSystem (one thread), ModelEnd (destruction among threads), ModelThrow (a handler that throws) |
| `system/rwlock.hpp`, `system/pool.hpp`, `system/allocator.hpp`, `system/spinlock.hpp` | ModelRwlock, ModelPool, ModelSpin, ModelSpins (several locks, moves, spinlock_n), ModelBuffers (pool and allocator together with the aggregators that use them) |

### What is not modelled

* Files not compiled by CMake: top-level `aggregator.*`, `reducer.*`, `separator.*`, `meter_manager.*`, `manager/`, `json/`.
* Memory: allocation failure outside the classes reducer, basic_aggregator, multi_aggregator and basic_packer (ModelAlloc, ModelAggAlloc, ModelMultiAlloc, ModelPackAlloc; constructors are not included) and outside the registry's own tables (ModelFault), object layout, capacities except in the pool and in ModelBuffers; exceptions other than those shown as `Exn` and those
  thrown by the user's handler (ModelThrow, ModelPackThrow, ModelMultiThrow) or initializer (ModelFault).
* The type system below 64 bits: sizes of containers are unbounded naturals (they fit into `size_t` as long as they fit
  into memory).
* The text format of numbers is decimal without leading zeros; floating point text does not occur in the modelled codecs.
* `empty_mutex` (its calls do nothing).
* The constructor of `reducer` writes its const member `_opt` through const_cast (reducer.cpp:17), formally undefined: the model
  takes the write as done.
* Weak memory: all atomics in the code use the default sequentially consistent order.
* tests, examples, benchmarks, CMake.
