{
 "claims": [
  {
   "property": "C01",
   "status": "proved",
   "theorems": [
    "C01_count_conserved",
    "C01_total_count",
    "C01_nothing_added"
   ],
   "note": "All call sequences, options and conforming nth_element; counts modulo 2^64."
  },
  {
   "property": "C02",
   "status": "proved",
   "theorems": [
    "C02_count_split",
    "C02_count_split_general",
    "C02_lossy_count"
   ],
   "note": "Also the exact figure for dishonest counts."
  },
  {
   "property": "C03",
   "status": "proved",
   "theorems": [
    "C03_data_submultiset"
   ],
   "note": ""
  },
  {
   "property": "C04",
   "status": "proved",
   "theorems": [
    "C04_memory_bound",
    "C04_retained_size"
   ],
   "note": ""
  },
  {
   "property": "C05",
   "status": "proved",
   "theorems": [
    "C05_min_max_exact",
    "C05_min_max_merged",
    "C05_no_values",
    "C05_getters"
   ],
   "note": "Also with merged records, and the sentinel case when no value was handed over."
  },
  {
   "property": "C06",
   "status": "proved",
   "theorems": [
    "C06_avg_between_min_max",
    "C06_avg_in_bounds",
    "C06_constant_stream"
   ],
   "note": "IEEE binary64 running average; fewer than 2^64 values."
  },
  {
   "property": "C07",
   "status": "proved",
   "theorems": [
    "C07_publishing_defined",
    "C07_cast_undefined_refuted"
   ],
   "note": "Definedness below 2^63-512; sharpness shown by computation (_refuted)."
  },
  {
   "property": "C08",
   "status": "proved",
   "theorems": [
    "C08_no_exception",
    "C08_reduce_defined",
    "C08_run_defined"
   ],
   "note": "The only undefined behaviour is the cast of C07."
  },
  {
   "property": "C09",
   "status": "proved",
   "theorems": [
    "C09_lossless"
   ],
   "note": ""
  },
  {
   "property": "C10",
   "status": "proved",
   "theorems": [
    "C10_aggregate_current",
    "C10_peek_matches_detach",
    "C10_peek_matches_detach_fixed",
    "C10_peek_adaptive_refuted"
   ],
   "note": "Adaptive mode: summary only; the data may differ (witness)."
  },
  {
   "property": "C11",
   "status": "proved",
   "theorems": [
    "C11_windows_independent",
    "C11_windows_independent_fixed",
    "C11_reset_is_new_fixed",
    "C11_adaptive_data_refuted"
   ],
   "note": "Adaptive mode: summary only; the data may differ (witness)."
  },
  {
   "property": "C12",
   "status": "proved",
   "theorems": [
    "C12_stratified",
    "C12_rank_enclosure",
    "C12_nth_mode_refuted"
   ],
   "note": "Sorting mode, no explicit reduce() inside the history; the nth mode does not satisfy it (witness)."
  },
  {
   "property": "C13",
   "status": "partial",
   "theorems": [
    "C13_merge_count",
    "C13_merge_bounds_partial",
    "C13_merge_zero_refuted"
   ],
   "note": "Count, and non-zero min/max, proved; REFUTED for a true min or max of 0 (witness)."
  },
  {
   "property": "C14",
   "status": "proved",
   "theorems": [
    "C14_aggregator_grouping",
    "C14_grouping",
    "C14_open_window",
    "C14_window_of"
   ],
   "note": "From every idle state (new, cleared, emptied), histories without force_pop/clear inside."
  },
  {
   "property": "C15",
   "status": "proved",
   "theorems": [
    "C15_strictly_increasing",
    "C15_order_alignment",
    "C15_current_window"
   ],
   "note": "Strict without force_pop; non-strict, with bounds and alignment, for every history without clear."
  },
  {
   "property": "C16",
   "status": "proved",
   "theorems": [
    "C16_late_rejected",
    "C16_incoherent_refuted"
   ],
   "note": "Any state with step>0; the exception for explicit times below the step is shown by a witness."
  },
  {
   "property": "C17",
   "status": "proved",
   "theorems": [
    "C17_aggregator_conservation",
    "C17_conservation"
   ],
   "note": "Including force_pop; counts modulo 2^64; also at the level of samples and values."
  },
  {
   "property": "C18",
   "status": "proved",
   "theorems": [
    "C18_aggregator_total",
    "C18_total",
    "C18_construction",
    "C18_fuel_independent",
    "C18_step_zero_refuted",
    "C18_step_negative_refuted",
    "C18_overflow_refuted"
   ],
   "note": "Totality in the safe range; step 0, negative step and overflow near INT64_MAX shown undefined."
  },
  {
   "property": "C19",
   "status": "proved",
   "theorems": [
    "C19_clock_independent",
    "C19_coherent",
    "C19_small_time_refuted"
   ],
   "note": "Worded as an exact boundary; the violation for small times is a witness."
  },
  {
   "property": "C20",
   "status": "proved",
   "theorems": [
    "C20_aggregator_handler_is_queue",
    "C20_handler_is_queue"
   ],
   "note": "Separator level: exact state comparison; aggregator level: coherent times."
  },
  {
   "property": "C21",
   "status": "proved",
   "theorems": [
    "C21_percentiles_exact",
    "C21_finished_percentiles"
   ],
   "note": "Every delivery path except separate() with a handler (see C25), every history."
  },
  {
   "property": "C22",
   "status": "proved",
   "theorems": [
    "C22_percentiles_ordered",
    "C22_perc100_max",
    "C22_perc100_of_retained",
    "C22_above_200_refuted"
   ],
   "note": "Order always; maximum up to 200 retained values, witness at 201."
  },
  {
   "property": "C23",
   "status": "proved",
   "theorems": [
    "C23_delivered_subsequence",
    "C23_delivered_size",
    "C23_outgoing_size_refuted",
    "C23_program"
   ],
   "note": "Exact size bounds, of one record (C23_delivered_size) and for every history of calls against the same calls without the option (C23_program); the documented bound itself is violated (witness)."
  },
  {
   "property": "C24",
   "status": "proved",
   "theorems": [
    "C24_disabled_inert",
    "C24_as_if_not_made"
   ],
   "note": ""
  },
  {
   "property": "C25",
   "status": "partial",
   "theorems": [
    "C25_delivered_finished_partial",
    "C25_separate_raw_refuted"
   ],
   "note": "REFUTED for separate() with a handler (witness); proved for push handlers, pop, force_pop, aggregate_current."
  },
  {
   "property": "C26",
   "status": "partial",
   "theorems": [
    "C26_pop_fifo_partial",
    "C26_force_pop_partial",
    "C26_force_pop_order_refuted"
   ],
   "note": "REFUTED for force_pop() order (witness); FIFO of pop() and the exact result of force_pop() proved."
  },
  {
   "property": "C27",
   "status": "partial",
   "theorems": [
    "C27_clear_resets_partial",
    "C27_pusher_works_partial",
    "C27_pushers_after_clear_refuted"
   ],
   "note": "REFUTED for pushers created after clear() (they are inert, proved for all states); the reset itself proved."
  },
  {
   "property": "C28",
   "status": "proved",
   "theorems": [
    "C28_create",
    "C28_injective",
    "C28_stable"
   ],
   "note": "Every history of all registry calls, any free-list choice; ids do not wrap (fits)."
  },
  {
   "property": "C29",
   "status": "proved",
   "theorems": [
    "C29_issued",
    "C29_disjoint",
    "C29_bad_id"
   ],
   "note": ""
  },
  {
   "property": "C30",
   "status": "partial",
   "theorems": [
    "C30_own_partial",
    "C30_refused_partial",
    "C30_foreign_id_refuted"
   ],
   "note": "REFUTED for ids never issued when id_step>1 (witness); proved for named ids, and refusal for id_step=1."
  },
  {
   "property": "C31",
   "status": "proved",
   "theorems": [
    "C31_pop_all"
   ],
   "note": "Exact contents of the list and the exact step each aggregator takes."
  },
  {
   "property": "C32",
   "status": "partial",
   "theorems": [
    "C32_del_partial",
    "C32_pushers_partial",
    "C32_pusher_of_partial",
    "C32_recreate_partial",
    "C32_del_result_refuted"
   ],
   "note": "REFUTED for the return value of del (always false); the rest proved for every history."
  },
  {
   "property": "C33",
   "status": "proved",
   "theorems": [
    "C33_multi_isolation",
    "C33_multi_non_interference",
    "C33_isolation",
    "C33_non_interference",
    "C33_step1_clean"
   ],
   "note": "Simulation by one private aggregator per name; registry (histories without foreign ids) and multi_aggregator."
  },
  {
   "property": "C34",
   "status": "partial",
   "theorems": [
    "C34_exact",
    "C34_no_handler",
    "C34_flush_partial",
    "C34_closed_window_refuted",
    "C34_due_window_refuted",
    "C34_no_handler_refuted"
   ],
   "note": "REFUTED for closed or due windows and for a null handler (witnesses). Proved exactly what is handed over in every reachable state, name by name: the open window if it has not ended by the clock and is not empty, nothing otherwise (C34_exact); without a handler nothing or an exception (C34_no_handler)."
  },
  {
   "property": "C35",
   "status": "proved",
   "theorems": [
    "C35_single_map",
    "C35_total",
    "C35_hash_size_zero"
   ],
   "note": "Every hash function and shard count, every traversal order of the hash tables; totality for safe inputs."
  },
  {
   "property": "C36",
   "status": "partial",
   "theorems": [
    "C36_pushout_silent_refuted",
    "C36_no_percentiles_refuted",
    "C36_history_partial",
    "C36_conservation_partial"
   ],
   "note": "REFUTED: pushout() is silent in every reachable state. Proved: what push/multi_push/force_pushout deliver instead."
  },
  {
   "property": "C37",
   "status": "proved",
   "theorems": [
    "C37_separators",
    "C37_round_trip",
    "C37_parser_exists"
   ],
   "note": "Every batch, non-empty separator and parser meeting the stated contract (instance proved). C37_separators: which separator and legend the messages of a packer carry, for every history."
  },
  {
   "property": "C38",
   "status": "proved",
   "theorems": [
    "C38_exactly_once",
    "C38_pushout_empties",
    "C38_clear"
   ],
   "note": "Every call history and all limits; name_compact requires a non-empty separator (else see C43)."
  },
  {
   "property": "C39",
   "status": "partial",
   "theorems": [
    "C39_plain_excess",
    "C39_compact_excess",
    "C39_json_limit_partial",
    "C39_compact_partial",
    "C39_compact_refuted",
    "C39_separator_refuted"
   ],
   "note": "REFUTED for name_compact with more than ten name parts and for long separators (witnesses); proved otherwise, any escaping function. By how much a batch can exceed the limit is proved in every case (C39_plain_excess, C39_compact_excess)."
  },
  {
   "property": "C40",
   "status": "proved",
   "theorems": [
    "C40_push_limit"
   ],
   "note": ""
  },
  {
   "property": "C41",
   "status": "partial",
   "theorems": [
    "C41_data_limit_ignored_refuted",
    "C41_data_limit_refuted"
   ],
   "note": "REFUTED: data_limit has no influence whatever its value (theorem for all states) and a witness."
  },
  {
   "property": "C42",
   "status": "proved",
   "theorems": [
    "C42_best_fit",
    "C42_extremes",
    "C42_sizes"
   ],
   "note": "Every reachable content."
  },
  {
   "property": "C43",
   "status": "partial",
   "theorems": [
    "C43_terminates_partial",
    "C43_fuel_independent",
    "C43_empty_separator_refuted"
   ],
   "note": "REFUTED for name_compact with an empty separator (for every content); termination proved otherwise."
  },
  {
   "property": "C44",
   "status": "partial",
   "theorems": [
    "C44_failure_reported_partial",
    "C44_edge_cases",
    "C44_state_after_failure_partial",
    "C44_request_changed_refuted",
    "C44_terminates"
   ],
   "note": "REFUTED: the request is half converted (witness for every parser); reporting and exact state after failure proved."
  },
  {
   "property": "C45",
   "status": "partial",
   "theorems": [
    "C45_blank_copies",
    "C45_counters",
    "C45_average",
    "C45_percentiles",
    "C45_percentiles_rule",
    "C45_defined",
    "C45_max_partial",
    "C45_max_refuted",
    "C45_merge_many",
    "C45_max_many_partial",
    "C45_average_many",
    "C45_percentiles_refuted",
    "C45_overflow_refuted"
   ],
   "note": "REFUTED for max (smaller one taken), for percentiles of equal records and for overflow (witnesses); counters, min, weighted average (also of many records), order of percentiles and blank copies proved; what max is instead: C45_max_partial, C45_max_many_partial."
  },
  {
   "property": "C46",
   "status": "proved",
   "theorems": [
    "C46_exclusive",
    "C46_never_aborts",
    "C46_counters"
   ],
   "note": "Any number of threads, spurious wakeups included, sequentially consistent steps under the internal mutex."
  },
  {
   "property": "C47",
   "status": "proved",
   "theorems": [
    "C47_no_lost_wakeup",
    "C47_progress",
    "C47_terminates",
    "C47_settles",
    "C47_nested_read"
   ],
   "note": "No lost wakeup, progress, termination of all balanced programs under every schedule."
  },
  {
   "property": "C48",
   "status": "proved",
   "theorems": [
    "C48_atomic",
    "C48_no_deadlock"
   ],
   "note": "Any body and any programs; the acquisition order is the sequential order."
  },
  {
   "property": "C49",
   "status": "partial",
   "theorems": [
    "C49_sequential",
    "C49_free_result",
    "C49_sequential_defined",
    "C49_concurrent_partial",
    "C49_double_take_refuted",
    "C49_unbounded_refuted"
   ],
   "note": "REFUTED for concurrent create() (undefined behaviour reachable) and concurrent free() (no bound on the pool); single-threaded histories fully proved, unique ownership and clean buffers proved for every interleaving."
  },
  {
   "property": "C50",
   "status": "partial",
   "theorems": [
    "C50_no_deadlock_partial",
    "C50_all_return",
    "C50_deadlock_refuted"
   ],
   "note": "REFUTED with enable() (two-thread witness); without enable(), or without deliveries, no deadlock and every call returns, any number of threads."
  },
  {
   "property": "C51",
   "status": "partial",
   "theorems": [
    "C51_exactly_once_partial",
    "C51_report",
    "C51_value_point_partial",
    "C51_value_point_refuted",
    "C51_assign_refuted",
    "C51_multi",
    "C51_multi_each",
    "C51_multi_clone"
   ],
   "note": "REFUTED for value_point after push() and for move assignment (witnesses); proved for every other life cycle, and what is reported."
  },
  {
   "property": "C52",
   "status": "partial",
   "theorems": [
    "C52_counts_nothing_partial",
    "C52_reset_refuted"
   ],
   "note": "REFUTED: a reset point still reports a value with count 0 (witness); the count part proved."
  },
  {
   "property": "C53",
   "status": "proved",
   "theorems": [
    "C53_routes",
    "C53_by_id",
    "C53_by_name",
    "C53_lasting"
   ],
   "note": "Creation by id and by name (any evaluation order), routing of every report, persistence through any further history."
  },
  {
   "property": "C54",
   "status": "partial",
   "theorems": [
    "C54_round_trip_partial",
    "C54_lossless",
    "C54_lost_refuted",
    "C54_some_options",
    "C54_refused",
    "C54_no_file",
    "C54_defaults",
    "C54_defaults_refused",
    "C54_atomic_refuted",
    "C54_packer_options",
    "C54_multi_aggregator_options_partial",
    "C54_text",
    "C54_bad_resolution"
   ],
   "note": "REFUTED: reducer_mode, initial_mode, id_init, id_step are not written; the pointer version is not atomic on errors. Proved: the seven written options, any subset in any order, files, refusals, the default values, packer and multi_aggregator options."
  },
  {
   "property": "C55",
   "status": "proved",
   "theorems": [
    "C55_exact",
    "C55_exact_batch",
    "C55_exact_others",
    "C55_push",
    "C55_multi_push",
    "C55_any_order",
    "C55_multi_any_order",
    "C55_injective",
    "C55_other_form",
    "C55_del",
    "C55_responses",
    "C55_transport",
    "C55_numbers",
    "C55_text",
    "C55_other_texts"
   ],
   "note": "Text level, both forms, any target, any order and unknown members, any JSON library meeting the contract wjson_ok (met by the parser of SpecCodec); numbers are decimal numerals (C55_numbers); which texts are accepted (C55_exact, C55_exact_batch, C55_exact_others); composed with name compaction."
  },
  {
   "property": "C56",
   "status": "partial",
   "theorems": [
    "C56_compact_partial",
    "C56_compact_gives",
    "C56_progress_partial",
    "C56_progress_refuted"
   ],
   "note": "REFUTED with name_compact (witness); proved without. With name_compact proved exactly what is looked at: nothing is given only if a largest record that fits without its legend does not fit with it (C56_compact_partial), and a batch is given whenever every such record does (C56_compact_gives)."
  },
  {
   "property": "C57",
   "status": "partial",
   "theorems": [
    "C57_compact_partial",
    "C57_pushout_limits_partial",
    "C57_leftover_refuted"
   ],
   "note": "REFUTED for the last batch (witness); all other batches proved, without name_compact (C57_pushout_limits_partial) and with it under the conditions of C39 (C57_compact_partial), and what the last batch holds."
  },
  {
   "property": "C58",
   "status": "partial",
   "theorems": [
    "C58_starvation_refuted",
    "C58_last_reader_wakes_partial"
   ],
   "note": "REFUTED: readers can overtake a waiting writer any number of times (for every n); the last reader wakes it."
  },
  {
   "property": "C59",
   "status": "partial",
   "theorems": [
    "C59_same_aggregator_refuted",
    "C59_create_refuted",
    "C59_crossed_refuted",
    "C59_initializer_refuted",
    "C59_reading_handlers_partial",
    "C59_ordered_handlers_partial",
    "C59_ordered_return",
    "C59_own_aggregator",
    "C59_own_registry",
    "C59_alone"
   ],
   "note": "REFUTED for handlers using their own aggregator, creating, crossing, and for initializers (witnesses); a callback that asks for the lock it is called under never returns, whatever the others do (C59_own_aggregator, C59_own_registry), and alone no other callback blocks (C59_alone); handlers that only read proved safe (C59_reading_handlers_partial), and so are handlers that use other aggregators in one fixed order, to any depth (C59_ordered_handlers_partial, C59_ordered_return)."
  },
  {
   "property": "C60",
   "status": "proved",
   "theorems": [
    "C60_linearizable",
    "C60_completed",
    "C60_no_dangling",
    "C60_enable_parts",
    "C60_alone"
   ],
   "note": "Any number of threads and any schedule; sections as atomic steps (justified by C46-C48); clear() included; a call during which no call of another thread takes effect is the same call on a registry used by one thread, pop_all, enable_all and meter destructors included (C60_alone); calls on an aggregator already deleted are told apart and treated in C61 and C64."
  },
  {
   "property": "C61",
   "status": "proved",
   "theorems": [
    "C61_concurrent_conservation",
    "C61_since_clear"
   ],
   "note": "Also for aggregators that were deleted while in use. C61_concurrent_conservation without clear(), C61_since_clear for what follows the last clear(). The history of an aggregator starts with what its creation in this execution did (initializer data included)."
  },
  {
   "property": "C62",
   "status": "partial",
   "theorems": [
    "C62_pop_all_partial",
    "C62_enable_partial",
    "C62_snapshot_refuted",
    "C62_switch_refuted",
    "C62_alone_partial"
   ],
   "note": "REFUTED: pop_all is not a snapshot and enable is not atomic (two-thread witnesses); each aggregator is visited exactly once and the set does not change meanwhile; while enable runs nobody else uses the registry, while pop_all runs nobody changes it (C62_alone_partial)."
  },
  {
   "property": "C63",
   "status": "partial",
   "theorems": [
    "C63_names_partial",
    "C63_renamed_refuted"
   ],
   "note": "REFUTED: a window can be delivered under another name when del and create run meanwhile (witness); proved if the name is not deleted."
  },
  {
   "property": "C64",
   "status": "partial",
   "theorems": [
    "C64_late_partial",
    "C64_no_del_partial",
    "C64_after_del_refuted"
   ],
   "note": "REFUTED: a push begun after del returned can be recorded and delivered (witness); proved: a call reaching a deleted aggregator was overtaken by del, or another thread was inside a call on it when it was made."
  },
  {
   "property": "C65",
   "status": "proved",
   "theorems": [
    "C65_handler_alone",
    "C65_given"
   ],
   "note": "Any number of threads and schedules, clear() included. The next call may start before the report returns, but not before its handler has. What a completed report returns is what its handler was given (C65_given)."
  },
  {
   "property": "C66",
   "status": "proved",
   "theorems": [
    "C66_mutual_exclusion",
    "C66_try_lock",
    "C66_progress",
    "C66_unlock",
    "C66_no_fairness"
   ],
   "note": "Any number of threads, sequentially consistent atomics; lack of fairness shown for every n."
  },
  {
   "property": "C67",
   "status": "proved",
   "theorems": [
    "C67_average_error",
    "C67_average_near",
    "C67_exact_refuted"
   ],
   "note": "Error bound for every list of values; that exactness cannot be claimed is shown by a witness. Uses the four axioms of the classical reals."
  },
  {
   "property": "C68",
   "status": "partial",
   "theorems": [
    "C68_nothing_invented",
    "C68_conservation",
    "C68_complete",
    "C68_due_refuted",
    "C68_numbers"
   ],
   "note": "Nothing invented, conservation and completeness proved for whole programs; REFUTED for a destruction after the last window has ended (C68_due_refuted). C68_numbers is the convention behind the specification."
  },
  {
   "property": "C69",
   "status": "proved",
   "theorems": [
    "C69_meter",
    "C69_multi",
    "C69_composite"
   ],
   "note": "For every program run before; the order in which a composite creates its names is left open."
  },
  {
   "property": "C70",
   "status": "proved",
   "theorems": [
    "C70_points_outlive"
   ],
   "note": "Single thread; destroying the object while another thread is inside a push is not covered."
  },
  {
   "property": "C71",
   "status": "proved",
   "theorems": [
    "C71_registry_total",
    "C71_program_total",
    "C71_bounds_needed"
   ],
   "note": "Single thread. C71_bounds_needed: the faults outside the bounds."
  },
  {
   "property": "C72",
   "status": "partial",
   "theorems": [
    "C72_rounds",
    "C72_push_rounds",
    "C72_bounded_refuted"
   ],
   "note": "REFUTED that the work is bounded independently of the silence (for every B); the exact number of rounds is proved."
  },
  {
   "property": "C73",
   "status": "proved",
   "theorems": [
    "C73_windows",
    "C73_fields",
    "C73_size"
   ],
   "note": "Any ids, handler or none, initializer or none; single thread; the sampling values given have their C++ types."
  },
  {
   "property": "C74",
   "status": "proved",
   "theorems": [
    "C74_sendable",
    "C74_arrives",
    "C74_counts"
   ],
   "note": "Sender in one thread; transport itself is the identity on texts. C74_sendable is the same for a single record sent alone."
  },
  {
   "property": "C75",
   "status": "proved",
   "theorems": [
    "C75_relay",
    "C75_extremes",
    "C75_end_to_end"
   ],
   "note": "The name is not deleted at the receiver and its records arrive in order of time; single thread at both ends."
  },
  {
   "property": "C76",
   "status": "proved",
   "theorems": [
    "C76_atomic",
    "C76_sections",
    "C76_total",
    "C76_per_name",
    "C76_nothing_invented",
    "C76_nothing_lost",
    "C76_exclusive"
   ],
   "note": "The handlers do not use the multi_aggregator themselves (C78). Construction, destruction and move are outside the concurrent part."
  },
  {
   "property": "C77",
   "status": "partial",
   "theorems": [
    "C77_single_partial",
    "C77_multi_push_refuted",
    "C77_pushout_refuted",
    "C77_size_refuted"
   ],
   "note": "REFUTED for multi_push (C77_multi_push_refuted), pushout/force_pushout (C77_pushout_refuted) and size (C77_size_refuted): they lock one shard at a time, and others see the parts. Positive part C77_single_partial: calls that touch one shard (push, del, one-element multi_push, anything with hash_size 1) are atomic."
  },
  {
   "property": "C78",
   "status": "partial",
   "theorems": [
    "C78_ordered_handlers_partial",
    "C78_quiet_handlers_partial",
    "C78_own_shard_refuted",
    "C78_crossed_refuted"
   ],
   "note": "REFUTED for handlers that use the shard they are called from (C78_own_shard_refuted) or each other's shards (C78_crossed_refuted). Positive part C78_quiet_handlers_partial: with handlers that leave the multi_aggregator alone somebody can always go on; C78_ordered_handlers_partial: so with handlers that use other shards in one fixed order, to any depth."
  },
  {
   "property": "C79",
   "status": "partial",
   "theorems": [
    "C79_named",
    "C79_round_trip",
    "C79_del_response",
    "C79_compact_without_data",
    "C79_other_form",
    "C79_compact_refuted",
    "C79_text",
    "C79_del_response_text"
   ],
   "note": "REFUTED for compact records of different kinds: the extremes of a reduced_info are silently read as percentiles of an aggregated_info (C79_compact_refuted). Positive part: C79_round_trip, C79_named (all pairs of kinds in the named form), C79_compact_without_data, C79_other_form, C79_del_response."
  },
  {
   "property": "C80",
   "status": "partial",
   "theorems": [
    "C80_before",
    "C80_released_partial",
    "C80_quiet_end_partial",
    "C80_pool_refuted",
    "C80_handler_refuted",
    "C80_lost_refuted"
   ],
   "note": "REFUTED for reports that overlap the destructor: they use the destroyed pool (C80_pool_refuted) or the destroyed wrtstat object (C80_handler_refuted), or are accepted and never handed over (C80_lost_refuted). Positive part: until the members are destroyed C60-C65 apply (C80_before); an aggregator nobody was using then is never reached again (C80_released_partial); with no report in progress at that moment later reports do nothing (C80_quiet_end_partial)."
  },
  {
   "property": "C81",
   "status": "proved",
   "theorems": [
    "C81_invisible",
    "C81_owned",
    "C81_no_leak"
   ],
   "note": "Single thread (the pool under threads is C49). Capacities follow libstdc++. Hypothesis on std::nth_element: it keeps the number of elements."
  },
  {
   "property": "C82",
   "status": "partial",
   "theorems": [
    "C82_size_partial",
    "C82_records",
    "C82_capacity_refuted"
   ],
   "note": "REFUTED for capacity: finished records count with their number of values, not their places (C82_capacity_refuted). Positive part C82_size_partial: data_size exact, capacity misses exactly the spare places of the finished records, and the bound on the places held; C82_records."
  },
  {
   "property": "C83",
   "status": "partial",
   "theorems": [
    "C83_separator_windows",
    "C83_aggregator_windows",
    "C83_windows",
    "C83_soiled_refuted"
   ],
   "note": "REFUTED for the bound ts+step when soiled_start_ts is not 0 (C83_soiled_refuted); proved with ts+2*step there and with ts+step when it is 0, for whole programs (C83_windows), and as a partition by windows for separators and aggregators."
  },
  {
   "property": "C84",
   "status": "proved",
   "theorems": [
    "C84_lives",
    "C84_one_life"
   ],
   "note": "Single thread. C84_lives without conditions on the program; C84_one_life for a name whose measuring is not interrupted."
  },
  {
   "property": "C85",
   "status": "partial",
   "theorems": [
    "C85_in_order",
    "C85_forced_refuted"
   ],
   "note": "REFUTED for programs that flush by force (C85_forced_refuted); proved without, C85_in_order."
  },
  {
   "property": "C86",
   "status": "partial",
   "theorems": [
    "C86_no_race",
    "C86_alive_when_used",
    "C86_destroyed_once",
    "C86_nothing_left",
    "C86_shards_no_race",
    "C86_handler_refuted",
    "C86_rand_refuted"
   ],
   "note": "REFUTED for the function given to set_handler, which can run in two threads at once (C86_handler_refuted), and for std::rand called by two shards of a multi_aggregator (C86_rand_refuted). All other memory: no race (C86_no_race, C86_shards_no_race), no use after destruction, no double destruction, no leak. Construction and destruction of the registry itself are outside (C80)."
  },
  {
   "property": "C87",
   "status": "partial",
   "theorems": [
    "C87_exact",
    "C87_bracket",
    "C87_enclosed",
    "C87_late_values",
    "C87_program",
    "C87_median_refuted",
    "C87_late_refuted",
    "C87_weights_refuted"
   ],
   "note": "REFUTED beyond the bracket: the reported p50 of more than reducer_limit values may be far from their median (C87_median_refuted), values after the first reducer_limit*reducer_levels do not count (C87_late_refuted), counts do not weigh (C87_weights_refuted). Exact up to reducer_limit values, bracketed in every mode, enclosed in sorting mode; lifted to programs (C87_program)."
  },
  {
   "property": "C88",
   "status": "partial",
   "theorems": [
    "C88_push",
    "C88_separate",
    "C88_history",
    "C88_conservation",
    "C88_retry",
    "C88_window_refuted",
    "C88_lost_refuted"
   ],
   "note": "REFUTED: a window in which the handler threw can be reported twice (C88_window_refuted) and the measurement of the throwing call is lost unless the call is repeated (C88_lost_refuted). Exact description of every history with throwing handlers as an ordinary history (C88_history), conservation (C88_conservation), retry (C88_retry)."
  },
  {
   "property": "C89",
   "status": "partial",
   "theorems": [
    "C89_only_handler",
    "C89_no_throw",
    "C89_pushout",
    "C89_point_retry",
    "C89_point_unwinding",
    "C89_pushout_refuted",
    "C89_terminate_refuted",
    "C89_composite_refuted",
    "C89_defined",
    "C89_program"
   ],
   "note": "REFUTED: records behind the one that was refused are lost (C89_pushout_refuted), destructors end the program (C89_terminate_refuted), a composite point pushed again records its time twice (C89_composite_refuted). Proved: where exceptions come from, what pushout does, that simple points can be pushed again or destroyed; for whole programs that catch the exceptions and go on: how each operation ends and which end the program (C89_program), and that no operation becomes undefined (C89_defined)."
  },
  {
   "property": "C90",
   "status": "partial",
   "theorems": [
    "C90_defined",
    "C90_record",
    "C90_balance",
    "C90_no_failure",
    "C90_clear_recovers",
    "C90_strong_refuted",
    "C90_phantom_refuted",
    "C90_uncounted_refuted",
    "C90_leak_refuted",
    "C90_close_refuted"
   ],
   "note": "REFUTED: the strong guarantee (C90_strong_refuted), no record of nothing (C90_phantom_refuted), count covers the values (C90_uncounted_refuted), windows are separate (C90_leak_refuted), a failure in reduce()/detach() while buffers go back to the pool leaves null rows (C90_close_refuted). Proved: definedness, exact contents of the records, recovery by clear(). One reducer, not lifted to aggregators and registries."
  },
  {
   "property": "C91",
   "status": "partial",
   "theorems": [
    "C91_isolation",
    "C91_step1_clean",
    "C91_returned",
    "C91_names",
    "C91_create",
    "C91_retry",
    "C91_pop_all",
    "C91_del",
    "C91_del_threw",
    "C91_del_refuted",
    "C91_index_refuted",
    "C91_init_refuted",
    "C91_pushout",
    "C91_pushout_refuted"
   ],
   "note": "REFUTED: del() after a failed growth of the array is undefined (C91_del_refuted), a failure between the two tables leaves a nameless id (C91_index_refuted), a thrown initializer is never called again (C91_init_refuted), pushout() loses what it has popped (C91_pushout_refuted). Proved for all other failures and all histories: isolation (C91_isolation), creation, second attempt, pop_all, del; exactly what a failed pushout() loses and that it touches no later name (C91_pushout). A failing add(name) or create_*_pusher(name) is a failing creation; allocations inside an aggregator are C90."
  },
  {
   "property": "C92",
   "status": "partial",
   "theorems": [
    "C92_returns",
    "C92_no_throw",
    "C92_accounting",
    "C92_exactly_once",
    "C92_call",
    "C92_retry",
    "C92_tail",
    "C92_again_refuted",
    "C92_copies_refuted"
   ],
   "note": "REFUTED: a refused batch is not handed over again (C92_again_refuted); an exception on the batch behind the loop leaves nameless copies that are delivered later (C92_copies_refuted). Proved for all histories and all failing handler calls: every call ends, the exact prefix of batches handed over, the retry, the accounting including the copies, exactly once if every record fits, the state after an exception behind the loop. Allocation failures inside the packer are not modelled."
  },
  {
   "property": "C93",
   "status": "partial",
   "theorems": [
    "C93_only_handler",
    "C93_no_throw",
    "C93_push_retry",
    "C93_multi_retry",
    "C93_pushout",
    "C93_history",
    "C93_conservation",
    "C93_multi_refuted"
   ],
   "note": "REFUTED: a multi_push that threw can be repeated as a whole or left as it is (C93_multi_refuted). Proved for all histories and all throwing handlers: who throws and on what, no effect without an exception, repeating push, the rest of a batch and force_pushout, the history of each name and the conservation of counts. Allocation failures are not part of this model."
  },
  {
   "property": "C94",
   "status": "partial",
   "theorems": [
    "C94_no_failure",
    "C94_returned",
    "C94_up_front",
    "C94_lost",
    "C94_conservation",
    "C94_values",
    "C94_retry_refuted",
    "C94_lost_refuted",
    "C94_ready_refuted",
    "C94_defined"
   ],
   "note": "REFUTED: an add() left by bad_alloc has had no effect / has recorded its measurement (C94_retry_refuted), a closed window is reported (C94_lost_refuted) or ready for pop() (C94_ready_refuted). Proved for all histories and all sets of failing allocations (at most one per call, as it ends the call): calls that return are the ordinary ones, failures up front have no effect, one record destroyed per failure in transit and none otherwise, conservation of counts and values, no call undefined that is defined when memory suffices (C94_defined). Failures of _allocator.free() inside detach() are not included (see C90_close_refuted)."
  },
  {
   "property": "C95",
   "status": "partial",
   "theorems": [
    "C95_windows",
    "C95_in_order",
    "C95_returns_refuted",
    "C95_since_clear"
   ],
   "note": "REFUTED: of two pop_all() calls the one that returns first brings the earlier window (C95_returns_refuted: both run under the shared lock). Proved for every schedule without clear(): records are exact groups by window (C95_windows); without force_pop strict order per metric and one complete record per closed non-empty window (C95_in_order); with clear() the same from the last clear() on (C95_since_clear). Times smaller than the step are excluded where they make a sample close another window than its own (gcoherent, see C19)."
  },
  {
   "property": "C96",
   "status": "partial",
   "theorems": [
    "C96_bound",
    "C96_ends",
    "C96_plain",
    "C96_conservation",
    "C96_values",
    "C96_order",
    "C96_window_refuted",
    "C96_rejected_refuted",
    "C96_twice_refuted",
    "C96_recursion_refuted"
   ],
   "note": "REFUTED: a sample given in a handler is reported for its own window (C96_window_refuted); a sample as new as everything seen is not refused (C96_rejected_refuted); a window is handed over once (C96_twice_refuted); one push calls its handler at most once per window (C96_recursion_refuted: any depth). Cause: _next_time is advanced only after the handler returns, and once per nested loop. Proved: every program ends and its result does not depend on the recursion bound of the model (C96_ends, C96_bound), receiving handlers change nothing (C96_plain), conservation of events and values and order of windows whatever the handlers call, clear() apart. For basic_aggregator and aggregator; aggregator_mt holds a non-recursive mutex during the call, so a callback there waits for itself."
  },
  {
   "property": "C97",
   "status": "partial",
   "theorems": [
    "C97_returns",
    "C97_plain",
    "C97_accounting",
    "C97_reachable",
    "C97_push",
    "C97_loss",
    "C97_multi_pop_refuted",
    "C97_copies_refuted"
   ],
   "note": "REFUTED: a failing multi_pop() or pushout() loses nothing (C97_multi_pop_refuted); only records somebody pushed are handed over (C97_copies_refuted: a failure behind the loop of pushout leaves moved-from entries in the packer). Proved: every call ends (C97_returns), without failures the model is that of C37-C44 (C97_plain), the accounting of all records and readability of all batches (C97_accounting), what a failing push, multi_push (C97_push) and multi_pop (C97_loss) leave, and that the packer stays in a reachable state except after a failure behind the loop of pushout (C97_reachable)."
  },
  {
   "property": "C98",
   "status": "partial",
   "theorems": [
    "C98_one_order",
    "C98_live",
    "C98_new",
    "C98_quiet",
    "C98_made_after",
    "C98_outlives_refuted"
   ],
   "note": "REFUTED: a pusher made before clear() does nothing once clear() has returned (C98_outlives_refuted: whatever could be pushed directly after clear() can be pushed through the old pusher while another thread is inside it). Proved: one order of effects and the shape of every call (C98_one_order), every pusher call has its effect without clear() (C98_live, C98_new), none ever has one after a moment without pushers behind clear() (C98_quiet), none made after clear() has one (C98_made_after)"
  },
  {
   "property": "C99",
   "status": "partial",
   "theorems": [
    "C99_moves",
    "C99_one_holder",
    "C99_moved_from",
    "C99_self_move_refuted",
    "C99_assigned_over_refuted"
   ],
   "note": "REFUTED: moving a variable to itself changes nothing (C99_self_move_refuted: operator= has no test for it, and the vectors are empty afterwards in libstdc++); what was pushed stays in some variable (C99_assigned_over_refuted). Proved for all programs of declarations, moves and calls: every aggregator answers as if it had never moved (C99_moves), is in at most one variable (C99_one_holder), and a moved-from variable is silent for calls without a name and undefined for calls with one (C99_moved_from)"
  },
  {
   "property": "C100",
   "status": "partial",
   "theorems": [
    "C100_exclusive",
    "C100_free_is_taken",
    "C100_rising_order",
    "C100_get",
    "C100_moved",
    "C100_held_by_itself",
    "C100_two_keys_refuted",
    "C100_move_target_refuted",
    "C100_move_source_refuted",
    "C100_move_race_refuted"
   ],
   "note": "REFUTED: different keys of spinlock_n have different locks (C100_two_keys_refuted, for every N, with C100_held_by_itself: such a thread waits for ever); a spinlock may be moved at any time (C100_move_target_refuted, C100_move_source_refuted, C100_move_race_refuted). Proved for all schedules of any number of locks and threads: exclusion (C100_exclusive), try_lock and the next attempt succeed exactly when nobody holds the lock (C100_free_is_taken), both also with moves of locks in nobody's hands; no waiting circle when locks are taken in rising rank (C100_rising_order); get gives one of the N locks (C100_get); exactly what an undisturbed move does (C100_moved)"
  },
  {
   "property": "C101",
   "status": "partial",
   "theorems": [
    "C101_moved_to",
    "C101_one_heir",
    "C101_pusher",
    "C101_moved_from",
    "C101_clear",
    "C101_counted_twice_refuted",
    "C101_pushers_stay_refuted",
    "C101_pushers_stop_refuted"
   ],
   "note": "REFUTED: every measurement is handed over once (C101_counted_twice_refuted; C101_moved_from says exactly what a moved-from object hands over); pushers follow the aggregator (C101_pushers_stay_refuted, C101_pushers_stop_refuted). Proved for all programs: the moved-to object answers as if there were no moves (C101_moved_to), one object at a time (C101_one_heir), exactly when a pusher works (C101_pusher), clear() of a moved-from object (C101_clear)"
  },
  {
   "property": "C102",
   "status": "partial",
   "theorems": [
    "C102_size",
    "C102_filled",
    "C102_empty",
    "C102_queue",
    "C102_agg_queue",
    "C102_nothing_refuted",
    "C102_times",
    "C102_times_add",
    "C102_count",
    "C102_count_refuted"
   ],
   "note": "REFUTED: empty() or size()==0 means that there is no data (C102_nothing_refuted); aggregators_count() is the number of aggregators (C102_count_refuted; C102_count says exactly what it is). Proved for all histories: size, filled and empty of a reducer (C102_size, C102_filled, C102_empty), size/ready/empty of separator and aggregator in terms of pop() (C102_queue, C102_agg_queue), current_time and next_time (C102_times, C102_times_add)"
  },
  {
   "property": "C103",
   "status": "partial",
   "theorems": [
    "C103_ends",
    "C103_bound",
    "C103_receives",
    "C103_empties",
    "C103_counts",
    "C103_accounting",
    "C103_silent",
    "C103_exactly_once",
    "C103_pushed_back_refuted",
    "C103_returns_refuted",
    "C103_nested_refuted"
   ],
   "note": "REFUTED: a handler may push back a batch it could not send (C103_pushed_back_refuted: destroyed behind the loop; C103_returns_refuted: given again by the same call without end in the loop); a handler may call pushout() (C103_nested_refuted). Proved for all programs and handlers: termination and independence of the recursion bound (C103_ends, C103_bound), agreement with the plain model (C103_receives), the packer is empty afterwards (C103_empties), the numbers returned (C103_counts), exact accounting (C103_accounting), exactly once if every record fits (C103_exactly_once) or the handler is silent behind the loop (C103_silent)"
  },
  {
   "property": "C104",
   "status": "partial",
   "theorems": [
    "C104_no_failure",
    "C104_returned",
    "C104_up_front",
    "C104_multi",
    "C104_pushout",
    "C104_lost",
    "C104_history",
    "C104_conservation",
    "C104_trace_refuted",
    "C104_lost_refuted",
    "C104_others_refuted",
    "C104_batch_refuted",
    "C104_defined",
    "C104_throws",
    "C104_pushout_at"
   ],
   "note": "REFUTED: a push() that threw bad_alloc has left no trace (C104_trace_refuted); what was recorded is reported (C104_lost_refuted: the record in transit is destroyed); a failed force_pushout() has served the other names (C104_others_refuted); a failed multi_push() can be repeated as a whole (C104_batch_refuted). Proved for all histories and failure points: no failure is swallowed (C104_returned), no call becomes undefined (C104_defined), failures before the aggregator is reached throw and change nothing (C104_throws), a failed call can be repeated (C104_up_front, C104_multi, C104_pushout), at most one record is destroyed per failed call (C104_lost), each name is one aggregator with its own failures (C104_history), exact accounting of events (C104_conservation)"
  },
  {
   "property": "C105",
   "status": "partial",
   "theorems": [
    "C105_sections",
    "C105_bound",
    "C105_returns",
    "C105_flat",
    "C105_made",
    "C105_answers",
    "C105_order",
    "C105_per_name",
    "C105_nothing_invented",
    "C105_nothing_lost",
    "C105_total",
    "C105_plain",
    "C105_own_shard",
    "C105_other_name_refuted",
    "C105_snapshot_refuted",
    "C105_flushed_refuted"
   ],
   "note": "REFUTED: a handler may push what it is given under another name (C105_other_name_refuted, in general C105_own_shard: any call that uses the shard the record comes from never returns); force_pushout() reports what was there when it was called (C105_snapshot_refuted); nothing is left after it (C105_flushed_refuted). Proved for all programs, nested to any depth: they end (C105_bound), they return if handlers stay away from the shards in use (C105_returns), they are their sections one after the other (C105_sections, C105_flat, C105_made, C105_answers, C105_order, C105_per_name), nothing is invented, lost or undefined (C105_nothing_invented, C105_nothing_lost, C105_total), and handlers that only receive change nothing (C105_plain)"
  },
  {
   "property": "C106",
   "status": "partial",
   "theorems": [
    "C106_after_clear_partial",
    "C106_push_partial",
    "C106_forever_partial",
    "C106_made_after",
    "C106_held",
    "C106_no_clear",
    "C106_push_refuted"
   ],
   "note": "REFUTED: a pusher made before clear() does nothing once clear() has returned (C106_push_refuted). Proved for every schedule of calls on a registry: such a push needs another thread inside a pusher call of the same aggregator (C106_push_partial, C106_after_clear_partial), none once nobody was inside (C106_forever_partial), none through a pusher made after clear() (C106_made_after); the extra effects of C60 occur only after clear() (C106_held, C106_no_clear)"
  }
 ]
}
