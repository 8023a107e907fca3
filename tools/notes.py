notes = {
'C01': ('proved', 'All call sequences, options and conforming nth_element; counts modulo 2^64.'),
'C02': ('proved', 'Also the exact figure for dishonest counts.'),
'C03': ('proved', ''),
'C04': ('proved', ''),
'C05': ('proved', 'Also with merged records, and the sentinel case when no value was handed over.'),
'C06': ('proved', 'IEEE binary64 running average; fewer than 2^64 values.'),
'C07': ('proved', 'Definedness below 2^63-512; sharpness shown by computation (_refuted).'),
'C08': ('proved', 'The only undefined behaviour is the cast of C07.'),
'C09': ('proved', ''),
'C10': ('proved', 'Adaptive mode: summary only; the data may differ (witness).'),
'C11': ('proved', 'Adaptive mode: summary only; the data may differ (witness).'),
'C12': ('proved', 'Sorting mode, no explicit reduce() inside the history; the nth mode does not satisfy it (witness).'),
'C13': ('partial', 'Count, and non-zero min/max, proved; REFUTED for a true min or max of 0 (witness).'),
'C14': ('proved', 'From every idle state (new, cleared, emptied), histories without force_pop/clear inside.'),
'C15': ('proved', 'Strict without force_pop; non-strict, with bounds and alignment, for every history without clear.'),
'C16': ('proved', 'Any state with step>0; the exception for explicit times below the step is shown by a witness.'),
'C17': ('proved', 'Including force_pop; counts modulo 2^64; also at the level of samples and values.'),
'C18': ('proved', 'Totality in the safe range; step 0, negative step and overflow near INT64_MAX shown undefined.'),
'C19': ('proved', 'Worded as an exact boundary; the violation for small times is a witness.'),
'C20': ('proved', 'Separator level: exact state comparison; aggregator level: coherent times.'),
'C21': ('proved', 'Every delivery path except separate() with a handler (see C25), every history.'),
'C22': ('proved', 'Order always; maximum up to 200 retained values, witness at 201.'),
'C23': ('proved', 'Exact size bounds, of one record (C23_delivered_size) and for every history of calls against the same calls without the option (C23_program); the documented bound itself is violated (witness).'),
'C24': ('proved', ''),
'C25': ('partial', 'REFUTED for separate() with a handler (witness); proved for push handlers, pop, force_pop, aggregate_current.'),
'C26': ('partial', 'REFUTED for force_pop() order (witness); FIFO of pop() and the exact result of force_pop() proved.'),
'C27': ('partial', 'REFUTED for pushers created after clear() (they are inert, proved for all states); the reset itself proved.'),
'C28': ('proved', 'Every history of all registry calls, any free-list choice; ids do not wrap (fits).'),
'C29': ('proved', ''),
'C30': ('partial', 'REFUTED for ids never issued when id_step>1 (witness); proved for named ids, and refusal for id_step=1.'),
'C31': ('proved', 'Exact contents of the list and the exact step each aggregator takes.'),
'C32': ('partial', 'REFUTED for the return value of del (always false); the rest proved for every history.'),
'C33': ('proved', 'Simulation by one private aggregator per name; registry (histories without foreign ids) and multi_aggregator.'),
'C34': ('partial', 'REFUTED for closed or due windows and for a null handler (witnesses). Proved exactly what is handed over in every reachable state, name by name: the open window if it has not ended by the clock and is not empty, nothing otherwise (C34_exact); without a handler nothing or an exception (C34_no_handler).'),
'C35': ('proved', 'Every hash function and shard count, every traversal order of the hash tables; totality for safe inputs.'),
'C36': ('partial', 'REFUTED: pushout() is silent in every reachable state. Proved: what push/multi_push/force_pushout deliver instead.'),
'C37': ('proved', 'Every batch, non-empty separator and parser meeting the stated contract (instance proved). C37_separators: which separator and legend the messages of a packer carry, for every history.'),
'C38': ('proved', 'Every call history and all limits; name_compact requires a non-empty separator (else see C43).'),
'C39': ('partial', 'REFUTED for name_compact with more than ten name parts and for long separators (witnesses); proved otherwise, any escaping function. By how much a batch can exceed the limit is proved in every case (C39_plain_excess, C39_compact_excess).'),
'C40': ('proved', ''),
'C41': ('partial', 'REFUTED: data_limit has no influence whatever its value (theorem for all states) and a witness.'),
'C42': ('proved', 'Every reachable content.'),
'C43': ('partial', 'REFUTED for name_compact with an empty separator (for every content); termination proved otherwise.'),
'C44': ('partial', 'REFUTED: the request is half converted (witness for every parser); reporting and exact state after failure proved.'),
'C45': ('partial', 'REFUTED for max (smaller one taken), for percentiles of equal records and for overflow (witnesses); counters, min, weighted average (also of many records), order of percentiles and blank copies proved; what max is instead: C45_max_partial, C45_max_many_partial.'),
'C46': ('proved', 'Any number of threads, spurious wakeups included, sequentially consistent steps under the internal mutex.'),
'C47': ('proved', 'No lost wakeup, progress, termination of all balanced programs under every schedule.'),
'C48': ('proved', 'Any body and any programs; the acquisition order is the sequential order.'),
'C49': ('partial', 'REFUTED for concurrent create() (undefined behaviour reachable) and concurrent free() (no bound on the pool); single-threaded histories fully proved, unique ownership and clean buffers proved for every interleaving.'),
'C50': ('partial', 'REFUTED with enable() (two-thread witness); without enable(), or without deliveries, no deadlock and every call returns, any number of threads.'),
'C51': ('partial', 'REFUTED for value_point after push() and for move assignment (witnesses); proved for every other life cycle, and what is reported.'),
'C52': ('partial', 'REFUTED: a reset point still reports a value with count 0 (witness); the count part proved.'),
'C53': ('proved', 'Creation by id and by name (any evaluation order), routing of every report, persistence through any further history.'),
'C54': ('partial', 'REFUTED: reducer_mode, initial_mode, id_init, id_step are not written; the pointer version is not atomic on errors. Proved: the seven written options, any subset in any order, files, refusals, the default values, packer and multi_aggregator options.'),
'C55': ('proved', 'Text level, both forms, any target, any order and unknown members, any JSON library meeting the contract wjson_ok (met by the parser of SpecCodec); numbers are decimal numerals (C55_numbers); which texts are accepted (C55_exact, C55_exact_batch, C55_exact_others); composed with name compaction.'),
'C56': ('partial', 'REFUTED with name_compact (witness); proved without. With name_compact proved exactly what is looked at: nothing is given only if a largest record that fits without its legend does not fit with it (C56_compact_partial), and a batch is given whenever every such record does (C56_compact_gives).'),
'C57': ('partial', 'REFUTED for the last batch (witness); all other batches proved, without name_compact (C57_pushout_limits_partial) and with it under the conditions of C39 (C57_compact_partial), and what the last batch holds.'),
'C58': ('partial', 'REFUTED: readers can overtake a waiting writer any number of times (for every n); the last reader wakes it.'),
'C59': ('partial', 'REFUTED for handlers using their own aggregator, creating, crossing, and for initializers (witnesses); a callback that asks for the lock it is called under never returns, whatever the others do (C59_own_aggregator, C59_own_registry), and alone no other callback blocks (C59_alone); handlers that only read proved safe (C59_reading_handlers_partial), and so are handlers that use other aggregators in one fixed order, to any depth (C59_ordered_handlers_partial, C59_ordered_return).'),
'C60': ('proved', 'Any number of threads and any schedule; sections as atomic steps (justified by C46-C48); clear() included; a call during which no call of another thread takes effect is the same call on a registry used by one thread, pop_all, enable_all and meter destructors included (C60_alone); calls on an aggregator already deleted are told apart and treated in C61 and C64.'),
'C61': ('proved', 'Also for aggregators that were deleted while in use. C61_concurrent_conservation without clear(), C61_since_clear for what follows the last clear(). The history of an aggregator starts with what its creation in this execution did (initializer data included).'),
'C62': ('partial', 'REFUTED: pop_all is not a snapshot and enable is not atomic (two-thread witnesses); each aggregator is visited exactly once and the set does not change meanwhile; while enable runs nobody else uses the registry, while pop_all runs nobody changes it (C62_alone_partial).'),
'C63': ('partial', 'REFUTED: a window can be delivered under another name when del and create run meanwhile (witness); proved if the name is not deleted.'),
'C64': ('partial', 'REFUTED: a push begun after del returned can be recorded and delivered (witness); proved: a call reaching a deleted aggregator was overtaken by del, or another thread was inside a call on it when it was made.'),
'C65': ('proved', 'Any number of threads and schedules, clear() included. The next call may start before the report returns, but not before its handler has. What a completed report returns is what its handler was given (C65_given).'),
'C66': ('proved', 'Any number of threads, sequentially consistent atomics; lack of fairness shown for every n.'),
'C67': ('proved', 'Error bound for every list of values; that exactness cannot be claimed is shown by a witness. Uses the four axioms of the classical reals.'),
'C68': ('partial', 'Nothing invented, conservation and completeness proved for whole programs; REFUTED for a destruction after the last window has ended (C68_due_refuted). C68_numbers is the convention behind the specification.'),
'C69': ('proved', 'For every program run before; the order in which a composite creates its names is left open.'),
'C70': ('proved', 'Single thread; destroying the object while another thread is inside a push is not covered.'),
'C71': ('proved', 'Single thread. C71_bounds_needed: the faults outside the bounds.'),
'C72': ('partial', 'REFUTED that the work is bounded independently of the silence (for every B); the exact number of rounds is proved.'),
'C73': ('proved', 'Any ids, handler or none, initializer or none; single thread; the sampling values given have their C++ types.'),
'C74': ('proved', 'Sender in one thread; transport itself is the identity on texts. C74_sendable is the same for a single record sent alone.'),
'C75': ('proved', 'The name is not deleted at the receiver and its records arrive in order of time; single thread at both ends.'),
'C76': ('proved', 'The handlers do not use the multi_aggregator themselves (C78). Construction, destruction and move are outside the concurrent part.'),
'C77': ('partial', 'REFUTED for multi_push (C77_multi_push_refuted), pushout/force_pushout (C77_pushout_refuted) and size (C77_size_refuted): they lock one shard at a time, and others see the parts. Positive part C77_single_partial: calls that touch one shard (push, del, one-element multi_push, anything with hash_size 1) are atomic.'),
'C78': ('partial', 'REFUTED for handlers that use the shard they are called from (C78_own_shard_refuted) or each other\'s shards (C78_crossed_refuted). Positive part C78_quiet_handlers_partial: with handlers that leave the multi_aggregator alone somebody can always go on; C78_ordered_handlers_partial: so with handlers that use other shards in one fixed order, to any depth.'),
'C79': ('partial', 'REFUTED for compact records of different kinds: the extremes of a reduced_info are silently read as percentiles of an aggregated_info (C79_compact_refuted). Positive part: C79_round_trip, C79_named (all pairs of kinds in the named form), C79_compact_without_data, C79_other_form, C79_del_response.'),
'C80': ('partial', 'REFUTED for reports that overlap the destructor: they use the destroyed pool (C80_pool_refuted) or the destroyed wrtstat object (C80_handler_refuted), or are accepted and never handed over (C80_lost_refuted). Positive part: until the members are destroyed C60-C65 apply (C80_before); an aggregator nobody was using then is never reached again (C80_released_partial); with no report in progress at that moment later reports do nothing (C80_quiet_end_partial).'),
'C81': ('proved', 'Single thread (the pool under threads is C49). Capacities follow libstdc++. Hypothesis on std::nth_element: it keeps the number of elements.'),
'C82': ('partial', 'REFUTED for capacity: finished records count with their number of values, not their places (C82_capacity_refuted). Positive part C82_size_partial: data_size exact, capacity misses exactly the spare places of the finished records, and the bound on the places held; C82_records.'),
'C83': ('partial', 'REFUTED for the bound ts+step when soiled_start_ts is not 0 (C83_soiled_refuted); proved with ts+2*step there and with ts+step when it is 0, for whole programs (C83_windows), and as a partition by windows for separators and aggregators.'),
'C84': ('proved', 'Single thread. C84_lives without conditions on the program; C84_one_life for a name whose measuring is not interrupted.'),
'C85': ('partial', 'REFUTED for programs that flush by force (C85_forced_refuted); proved without, C85_in_order.'),
'C86': ('partial', 'REFUTED for the function given to set_handler, which can run in two threads at once (C86_handler_refuted), and for std::rand called by two shards of a multi_aggregator (C86_rand_refuted). All other memory: no race (C86_no_race, C86_shards_no_race), no use after destruction, no double destruction, no leak. Construction and destruction of the registry itself are outside (C80).'),
'C87': ('partial', 'REFUTED beyond the bracket: the reported p50 of more than reducer_limit values may be far from their median (C87_median_refuted), values after the first reducer_limit*reducer_levels do not count (C87_late_refuted), counts do not weigh (C87_weights_refuted). Exact up to reducer_limit values, bracketed in every mode, enclosed in sorting mode; lifted to programs (C87_program).'),
'C88': ('partial', 'REFUTED: a window in which the handler threw can be reported twice (C88_window_refuted) and the measurement of the throwing call is lost unless the call is repeated (C88_lost_refuted). Exact description of every history with throwing handlers as an ordinary history (C88_history), conservation (C88_conservation), retry (C88_retry).'),
'C89': ('partial', 'REFUTED: records behind the one that was refused are lost (C89_pushout_refuted), destructors end the program (C89_terminate_refuted), a composite point pushed again records its time twice (C89_composite_refuted). Proved: where exceptions come from, what pushout does, that simple points can be pushed again or destroyed; for whole programs that catch the exceptions and go on: how each operation ends and which end the program (C89_program), and that no operation becomes undefined (C89_defined).'),
'C90': ('partial', 'REFUTED: the strong guarantee (C90_strong_refuted), no record of nothing (C90_phantom_refuted), count covers the values (C90_uncounted_refuted), windows are separate (C90_leak_refuted), a failure in reduce()/detach() while buffers go back to the pool leaves null rows (C90_close_refuted). Proved: definedness, exact contents of the records, recovery by clear(). One reducer, not lifted to aggregators and registries.'),
'C91': ('partial', 'REFUTED: del() after a failed growth of the array is undefined (C91_del_refuted), a failure between the two tables leaves a nameless id (C91_index_refuted), a thrown initializer is never called again (C91_init_refuted), pushout() loses what it has popped (C91_pushout_refuted). Proved for all other failures and all histories: isolation (C91_isolation), creation, second attempt, pop_all, del; exactly what a failed pushout() loses and that it touches no later name (C91_pushout). A failing add(name) or create_*_pusher(name) is a failing creation; allocations inside an aggregator are C90.'),
'C92': ('partial', 'REFUTED: a refused batch is not handed over again (C92_again_refuted); an exception on the batch behind the loop leaves nameless copies that are delivered later (C92_copies_refuted). Proved for all histories and all failing handler calls: every call ends, the exact prefix of batches handed over, the retry, the accounting including the copies, exactly once if every record fits, the state after an exception behind the loop. Allocation failures inside the packer are not modelled.'),
'C93': ('partial', 'REFUTED: a multi_push that threw can be repeated as a whole or left as it is (C93_multi_refuted). Proved for all histories and all throwing handlers: who throws and on what, no effect without an exception, repeating push, the rest of a batch and force_pushout, the history of each name and the conservation of counts. Allocation failures are not part of this model.'),
'C94': ('partial', 'REFUTED: an add() left by bad_alloc has had no effect / has recorded its measurement (C94_retry_refuted), a closed window is reported (C94_lost_refuted) or ready for pop() (C94_ready_refuted). Proved for all histories and all sets of failing allocations (at most one per call, as it ends the call): calls that return are the ordinary ones, failures up front have no effect, one record destroyed per failure in transit and none otherwise, conservation of counts and values, no call undefined that is defined when memory suffices (C94_defined). Failures of _allocator.free() inside detach() are not included (see C90_close_refuted).'),
'C95': ('partial', 'REFUTED: of two pop_all() calls the one that returns first brings the earlier window (C95_returns_refuted: both run under the shared lock). Proved for every schedule without clear(): records are exact groups by window (C95_windows); without force_pop strict order per metric and one complete record per closed non-empty window (C95_in_order); with clear() the same from the last clear() on (C95_since_clear). Times smaller than the step are excluded where they make a sample close another window than its own (gcoherent, see C19).'),
'C96': ('partial', 'REFUTED: a sample given in a handler is reported for its own window (C96_window_refuted); a sample as new as everything seen is not refused (C96_rejected_refuted); a window is handed over once (C96_twice_refuted); one push calls its handler at most once per window (C96_recursion_refuted: any depth). Cause: _next_time is advanced only after the handler returns, and once per nested loop. Proved: every program ends and its result does not depend on the recursion bound of the model (C96_ends, C96_bound), receiving handlers change nothing (C96_plain), conservation of events and values and order of windows whatever the handlers call, clear() apart. For basic_aggregator and aggregator; aggregator_mt holds a non-recursive mutex during the call, so a callback there waits for itself.'),
'C97': ('partial', 'REFUTED: a failing multi_pop() or pushout() loses nothing (C97_multi_pop_refuted); only records somebody pushed are handed over (C97_copies_refuted: a failure behind the loop of pushout leaves moved-from entries in the packer). Proved: every call ends (C97_returns), without failures the model is that of C37-C44 (C97_plain), the accounting of all records and readability of all batches (C97_accounting), what a failing push, multi_push (C97_push) and multi_pop (C97_loss) leave, and that the packer stays in a reachable state except after a failure behind the loop of pushout (C97_reachable).'),
'C98': ('partial', 'REFUTED: a pusher made before clear() does nothing once clear() has returned (C98_outlives_refuted: whatever could be pushed directly after clear() can be pushed through the old pusher while another thread is inside it). Proved: one order of effects and the shape of every call (C98_one_order), every pusher call has its effect without clear() (C98_live, C98_new), none ever has one after a moment without pushers behind clear() (C98_quiet), none made after clear() has one (C98_made_after)'),
'C99': ('partial', 'REFUTED: moving a variable to itself changes nothing (C99_self_move_refuted: operator= has no test for it, and the vectors are empty afterwards in libstdc++); what was pushed stays in some variable (C99_assigned_over_refuted). Proved for all programs of declarations, moves and calls: every aggregator answers as if it had never moved (C99_moves), is in at most one variable (C99_one_holder), and a moved-from variable is silent for calls without a name and undefined for calls with one (C99_moved_from)'),
'C100': ('partial', 'REFUTED: different keys of spinlock_n have different locks (C100_two_keys_refuted, for every N, with C100_held_by_itself: such a thread waits for ever); a spinlock may be moved at any time (C100_move_target_refuted, C100_move_source_refuted, C100_move_race_refuted). Proved for all schedules of any number of locks and threads: exclusion (C100_exclusive), try_lock and the next attempt succeed exactly when nobody holds the lock (C100_free_is_taken), both also with moves of locks in nobody\'s hands; no waiting circle when locks are taken in rising rank (C100_rising_order); get gives one of the N locks (C100_get); exactly what an undisturbed move does (C100_moved)'),
'C101': ('partial', 'REFUTED: every measurement is handed over once (C101_counted_twice_refuted; C101_moved_from says exactly what a moved-from object hands over); pushers follow the aggregator (C101_pushers_stay_refuted, C101_pushers_stop_refuted). Proved for all programs: the moved-to object answers as if there were no moves (C101_moved_to), one object at a time (C101_one_heir), exactly when a pusher works (C101_pusher), clear() of a moved-from object (C101_clear)'),
'C102': ('partial', 'REFUTED: empty() or size()==0 means that there is no data (C102_nothing_refuted); aggregators_count() is the number of aggregators (C102_count_refuted; C102_count says exactly what it is). Proved for all histories: size, filled and empty of a reducer (C102_size, C102_filled, C102_empty), size/ready/empty of separator and aggregator in terms of pop() (C102_queue, C102_agg_queue), current_time and next_time (C102_times, C102_times_add)'),
'C103': ('partial', 'REFUTED: a handler may push back a batch it could not send (C103_pushed_back_refuted: destroyed behind the loop; C103_returns_refuted: given again by the same call without end in the loop); a handler may call pushout() (C103_nested_refuted). Proved for all programs and handlers: termination and independence of the recursion bound (C103_ends, C103_bound), agreement with the plain model (C103_receives), the packer is empty afterwards (C103_empties), the numbers returned (C103_counts), exact accounting (C103_accounting), exactly once if every record fits (C103_exactly_once) or the handler is silent behind the loop (C103_silent)'),
'C104': ('partial', 'REFUTED: a push() that threw bad_alloc has left no trace (C104_trace_refuted); what was recorded is reported (C104_lost_refuted: the record in transit is destroyed); a failed force_pushout() has served the other names (C104_others_refuted); a failed multi_push() can be repeated as a whole (C104_batch_refuted). Proved for all histories and failure points: no failure is swallowed (C104_returned), no call becomes undefined (C104_defined), failures before the aggregator is reached throw and change nothing (C104_throws), a failed call can be repeated (C104_up_front, C104_multi, C104_pushout), at most one record is destroyed per failed call (C104_lost), each name is one aggregator with its own failures (C104_history), exact accounting of events (C104_conservation)'),
'C105': ('partial', 'REFUTED: a handler may push what it is given under another name (C105_other_name_refuted, in general C105_own_shard: any call that uses the shard the record comes from never returns); force_pushout() reports what was there when it was called (C105_snapshot_refuted); nothing is left after it (C105_flushed_refuted). Proved for all programs, nested to any depth: they end (C105_bound), they return if handlers stay away from the shards in use (C105_returns), they are their sections one after the other (C105_sections, C105_flat, C105_made, C105_answers, C105_order, C105_per_name), nothing is invented, lost or undefined (C105_nothing_invented, C105_nothing_lost, C105_total), and handlers that only receive change nothing (C105_plain)'),
'C106': ('partial', 'REFUTED: a pusher made before clear() does nothing once clear() has returned (C106_push_refuted). Proved for every schedule of calls on a registry: such a push needs another thread inside a pusher call of the same aggregator (C106_push_partial, C106_after_clear_partial), none once nobody was inside (C106_forever_partial), none through a pusher made after clear() (C106_made_after); the extra effects of C60 occur only after clear() (C106_held, C106_no_clear)'),
}
