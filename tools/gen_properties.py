#!/usr/bin/env python3
"""Regenerates /verif/properties.jsonl (kept as a script only so the text is easy to maintain)."""
import json
P=[]
def p(id,title,statement,quantifier,why,anchors):
    P.append(dict(id=id,title=title,statement=statement,quantifier=quantifier,why_tests_cant=why,anchors=anchors))
R="wrtstat/aggregator/reducer.cpp"; S="wrtstat/aggregator/separator.cpp"; B="wrtstat/aggregator/basic_aggregator.cpp"
G="wrtstat/aggregator/aggregator_registry.cpp"; D="wrtstat/system/dict.hpp"; PK="wrtstat/multi_packer/basic_packer.cpp"
MA="wrtstat/multi_aggregator/multi_aggregator.cpp"; BMA="wrtstat/multi_aggregator/basic_multi_aggregator.cpp"
W="wrtstat/wrtstat.cpp"; RW="wrtstat/system/rwlock.hpp"; PL="wrtstat/system/pool.hpp"; MT="wrtstat/aggregator/aggregator_mt.cpp"
RI="wrtstat/aggregator/api/reduced_info.hpp"; AI="wrtstat/aggregator/api/aggregated_info.hpp"

p("C01","Event count is conserved by a reducer",
 "The count reported by reducer::detach() (and total_count()) is exactly the sum, modulo 2^64, of the counts passed to every add() since construction or the last clear()/detach(); interleaved calls of reduce() change nothing.",
 "every option set, every finite sequence of add/reduce calls of any length, every count",
 "Unbounded call sequences and 2^64 counts; a dropped update may only show for particular fill levels.",
 [R+":reducer::add",R+":reducer::detach",R+":reducer::total_count"])
p("C02","count = lossy + data.size() in every published reduction",
 "If every add() was honest (scalar count>=1, array count>=array length) then the published count equals lossy plus the number of values in data (modulo 2^64), for every fill level of the levels; the lossy figure returned by lossy_count() before reduction equals the lossy figure published.",
 "every option set, every honest call sequence",
 "The formula depends on number of levels, partial last level, and overflow of the level limit: infinitely many shapes.",
 [R+":reducer::lossy_count",R+":reducer::add_",R+":reducer::reduce",R+":reducer::detach"])
p("C03","Published data never invents or duplicates a value",
 "The data vector published by detach() is a sub-multiset of the values passed to add() since the last clear: every published value can be matched with a different added value.",
 "every option set, mode (sorting, nth, adapt), call sequence and every conforming std::nth_element",
 "Thinning copies values between rows while std::nth_element permutes them; duplication occurs only for special index alignments and library behaviours.",
 [R+":reducer::reduce",R+":reducer::nth_element_",R+":reducer::get_nth_"])
p("C04","Memory bound and exact retained size",
 "A reducer never holds more than reducer_limit*reducer_levels values, and detach() publishes exactly min(number of added values, reducer_limit) values (0 if levels or limit is 0), also when reduce() calls are interposed.",
 "every option set and call sequence",
 "A bound over unbounded histories.",
 [R+":reducer::add_",R+":reducer::size",R+":reducer::filled"])
p("C05","min and max are exact even when values are discarded",
 "After adds of a non-empty multiset of values, the published min (max) is the minimum (maximum) of all added values, including those discarded because the levels were full.",
 "every option set and call sequence",
 "Must hold for all values and all fill levels.",
 [R+":reducer::minmax",R+":reducer::add_",R+":reducer::detach"])
p("C06","The average lies between min and max",
 "If all added values are within +-2^53, the published avg (computed in IEEE binary64 by a running update and truncated) satisfies min <= avg <= max; in particular a constant stream has avg equal to the constant.",
 "every sequence of values of any length",
 "Floating-point rounding over unbounded sequences; tests sample a few short ones.",
 [R+":reducer::add_",R+":reducer::detach"])
p("C07","No undefined cast when publishing the average",
 "For all int64 values below 2^63-512 the double->int64 cast in detach() is defined; it is undefined for the single value 2^63-1 (sharpness).",
 "every sequence of int64 values",
 "UB at the edge of the value range, after any history.",
 [R+":reducer::detach"])
p("C08","Reducer never faults",
 "No call sequence makes the reducer index outside its rows (std::out_of_range from at(), iterator past the end in nth_element).",
 "every option set, mode and call sequence, every conforming std::nth_element",
 "Index arithmetic depends on level count, last-row length and mode.",
 [R+":reducer::reduce",R+":reducer::nth_element_",R+":reducer::get_nth_"])
p("C09","Lossless below the limit",
 "If at most reducer_limit values were added (levels>=1) the published data is a permutation of the added values, and lossy is exactly the surplus of the declared counts.",
 "every option set and call sequence with few values",
 "All value multisets and all modes.",
 [R+":reducer::add_",R+":reducer::reduce"])
p("C10","Peeking is non-destructive and consistent",
 "get_reduced()/aggregate_current() leave the object unchanged and report the same count, lossy, min, max, avg and number of data values as a detach()/force_pop() issued at that moment; for fixed (non-adaptive) modes also the same data.",
 "every reachable state",
 "Must hold at every point of every history.",
 [R+":reducer::get_reduced",R+":reducer::clone",B+":basic_aggregator::aggregate_current"])
p("C11","Windows are independent",
 "detach()/clear() return the reducer to its freshly constructed behaviour: whatever was recorded before has no influence on the count, lossy, min, max, avg and data size published later (for fixed modes: on the whole result).",
 "every pair of histories separated by a clear/detach",
 "Leaks of state across windows only show for particular histories.",
 [R+":reducer::clear",R+":reducer::detach"])
p("C12","Thinning is stratified (sorting mode)",
 "In sorting mode the published data is the documented interleaving: position i holds the i-th smallest value of one of the levels, levels taken cyclically, falling back to level 0 once the last level is exhausted; consequently the k-th smallest published value lies between the smallest and the largest of the k-th smallest values of the levels.",
 "every limit, number of levels, last-level length and value multiset",
 "Combinatorial family of shapes.",
 [R+":reducer::reduce",R+":reducer::add_"])
p("C13","Merging a reduction conserves its count, min and max",
 "Adding a reduced_data record adds its count to the total, and its non-zero min and max bound the published min and max; a record whose true min (or max) is 0 but whose data no longer contains 0 loses it.",
 "every record and history",
 "All combinations of record contents and histories.",
 [R+":reducer::add"])
p("C14","Each sample is accounted to its own time window",
 "With step > 0, the separator publishes for each window [w, w+step) (w congruent to the start label modulo step) exactly one record with ts = w holding exactly the accepted samples whose truncated timestamp lies in that window, in arrival order; empty windows publish nothing. (Times of magnitude at least one step, or resolution none; see C19 for smaller ones.)",
 "every sequence of add/push calls with explicit timestamps, any gaps, any late samples",
 "Unbounded histories and arbitrary time gaps.",
 [S+":separator::add",S+":separator::separate",S+":separator::get_ts"])
p("C15","Published windows are ordered and aligned",
 "Timestamps of records published by a separator/aggregator (through handler or pop) are strictly increasing (non-decreasing if force_pop closes windows early) and congruent to the initial window label modulo step; current_time() <= any later published ts.",
 "every call sequence, step>0",
 "History property.",
 [S+":separator::separate",S+":separator::pop",B+":basic_aggregator::pop"])
p("C16","Late samples are rejected without trace",
 "add/push returns false exactly when the truncated timestamp precedes the current window start, and then nothing already recorded or published later is affected; otherwise it returns true. (Times of magnitude at least one step, or resolution none; for smaller explicit times with a clock a rejected sample does close windows: violation shown.)",
 "every state and timestamp",
 "History property over all timestamps.",
 [S+":separator::add",S+":separator::push"])
p("C17","Conservation across windows",
 "The sum of counts of all published records plus the count in the open window equals (modulo 2^64) the sum of the counts of all accepted samples; no sample is published twice.",
 "every call sequence",
 "Unbounded histories.",
 [S+":separator::separate",S+":separator::force_pop",B+":basic_aggregator::aggregate0_"])
p("C18","Separator arithmetic is safe and terminates",
 "With step>0 and timestamps in a safe range every separator call terminates without signed overflow or division by zero; step = 0 divides by zero and a negative step never completes a separation.",
 "every state, timestamp and step",
 "Overflow edges and loop termination for all int64 inputs.",
 [S+":separator::separate",S+":separator::get_ts"])
p("C19","Explicit timestamps do not depend on the wall clock",
 "With resolution none, or with |ts| >= step, the result of add/push with an explicit timestamp is independent of the wall clock. For 0 < |ts| < step with a clock resolution the wall clock decides (violation).",
 "every clock reading, timestamp and state",
 "Depends on the (unbounded) wall clock value.",
 [S+":separator::get_ts",S+":separator::separate"])
p("C20","Handler mode and queue mode publish the same records",
 "For any call sequence, the records given to the handler by push() are, in order and content, the records that add() would have queued for pop().",
 "every call sequence",
 "Equivalence over all histories.",
 [S+":separator::push",S+":separator::add",B+":basic_aggregator::push",B+":basic_aggregator::add"])
p("C21","Percentiles 50/80/95/99 are exact order statistics of the retained data",
 "In every record delivered by pop/push-handler/force_pop/aggregate_current, percP (P in 50,80,95,99) is the element of rank floor(n*P/100) in the sorted retained data (n its size, n>0), for every conforming std::nth_element.",
 "every data multiset and every conforming std::nth_element",
 "The partial re-use of nth_element results on overlapping ranges must be right for all permutations.",
 [B+":basic_aggregator::aggregate2_",B+":basic_aggregator::nth_"])
p("C22","perc100 is the maximum for up to 200 retained values",
 "perc50<=perc80<=perc95<=perc99<=perc100 always; perc100 is the maximum of the retained data whenever at most 200 values are retained; with 201 values a conforming std::nth_element may make it smaller than the maximum (sharpness).",
 "every data multiset and every conforming std::nth_element",
 "Depends on library freedom and all data sizes.",
 [B+":basic_aggregator::aggregate2_",B+":basic_aggregator::nth_"])
p("C23","Outgoing reduction bound",
 "Delivered data is a subsequence of the retained data; nothing is removed if it fits outgoing_reduced_size (or that is 0); otherwise the delivered size is at least 1 and at most outgoing_reduced_size when fewer than twice that were retained, and less than 3/2*outgoing_reduced_size+1 otherwise (the bound outgoing_reduced_size itself is violated).",
 "every data size and outgoing_reduced_size",
 "Integer-division edges over all sizes.",
 [B+":basic_aggregator::reduce_"])
p("C24","A disabled aggregator records nothing",
 "While disabled every add/push returns true and leaves all observable state unchanged; re-enabling continues as if those calls had not been made.",
 "every history of enable/add/push/pop calls",
 "History property.",
 [B+":basic_aggregator::add",B+":basic_aggregator::push",B+":basic_aggregator::enable"])
p("C25","Every delivered record carries its percentiles and is reduced",
 "A record delivered through any handler has been aggregated (percentiles computed, size reduced). VIOLATED by basic_aggregator::separate with a handler, and by multi_aggregator::push (percentiles dropped).",
 "every history and delivery path",
 "Every path and every content.",
 [B+":basic_aggregator::separate",BMA+":basic_multi_aggregator::push"])
p("C26","pop() is FIFO; force_pop() flushes",
 "pop() returns queued records oldest first, each exactly once. User expectation that force_pop() returns the oldest undelivered record is VIOLATED: it skips the queue and returns the open window first.",
 "every history",
 "History property.",
 [B+":basic_aggregator::pop",B+":basic_aggregator::force_pop"])
p("C27","clear() resets an aggregator",
 "After clear(ts) an aggregator reports nothing recorded before, its window starts at ts truncated to the step, and pushers created before are inert. Pushers created after clear() should work: VIOLATED, they are inert too.",
 "every history",
 "History property.",
 [B+":basic_aggregator::clear","wrtstat/aggregator/basic_aggregator.hpp:create_simple_pusher"])
p("C28","Names and ids are in bijection",
 "In every reachable registry state, distinct live names have distinct ids, get_name(create_aggregator(n)) = n, creating an existing name returns its id, and an id freed by del is never attached to two names.",
 "every history of create/del with any free-list choice, id_step>0, no id wrap",
 "Re-use of freed ids picks an unspecified element of an unordered_set; unbounded histories.",
 [D+":dict::create_id",D+":dict::free",D+":dict::get_name",G+":aggregator_registry::create_aggregator"])
p("C29","Id spaces of cooperating registries are disjoint",
 "All ids issued by a registry are congruent to id_init modulo id_step and greater than id_init; registries with equal id_step and different id_init modulo id_step never issue the same id; bad_id and an empty name's id never refer to an aggregator.",
 "every history, init, step>0 without wrap",
 "Number-theoretic property over all parameters.",
 [D+":dict::create_id","wrtstat/aggregator/options/registry_options.hpp:registry_options"])
p("C30","An id addresses exactly its own aggregator",
 "add/pop through an issued id affect exactly the aggregator of the name with that id (distinct ids never share a slot). An id never issued should be refused: VIOLATED for id_step>1 (foreign id aliases a neighbour's aggregator).",
 "every history, init, step>0 and id",
 "Position arithmetic over all parameters.",
 [D+":dict::id2pos",G+":aggregator_registry::get_aggregator"])
p("C31","pop_all covers every live aggregator once, under its own name",
 "pop_all/force_pop_all visit each live aggregator exactly once and attribute its record to its current name, for every id_init/id_step; deleted ones are not visited.",
 "every reachable registry state",
 "pos<->id round trip must hold for all init/step combinations and histories.",
 [G+":aggregator_registry::pop_",D+":dict::pos2id",D+":dict::id2pos"])
p("C32","Deletion",
 "del(name) makes the name unknown, makes its pushers inert, leaves all other aggregators unchanged, and a re-created name starts empty. del should report success: VIOLATED (always returns false).",
 "every registry history",
 "History property.",
 [G+":aggregator_registry::del",D+":dict::free"])
p("C33","Aggregators of different names do not interfere",
 "The records observed for a name depend only on the calls addressed to that name (registry: by id/name/pusher; multi_aggregator: push/del), not on activity on other names.",
 "every interleaved history over any number of names",
 "Unbounded interleavings.",
 [G+":aggregator_registry::add",BMA+":basic_multi_aggregator::push"])
p("C34","Flush at shutdown",
 "force_pushout()/~wrtstat delivers all recorded data to the handler. VIOLATED: windows already closed but not popped are skipped; with no handler set the call throws out of the destructor. What holds: for each name exactly the open window is delivered, once, if by the clock it has not ended and it is not empty; nothing otherwise.",
 "every registry state at shutdown",
 "Depends on wall clock and history at shutdown.",
 [W+":wrtstat::pushout_",W+":wrtstat::~wrtstat",G+":aggregator_registry::force_pop_all"])
p("C35","Sharding is transparent",
 "For every hash function and hash_size>0 multi_aggregator behaves, per name, exactly like a single map from names to aggregators; del reports whether the name existed; size() counts live names.",
 "every hash function, hash_size, history",
 "All hash functions and histories.",
 [MA+":multi_aggregator::push",MA+":multi_aggregator::get_pos_",BMA+":basic_multi_aggregator::push"])
p("C36","multi_aggregator::pushout delivers completed windows",
 "pushout(handler) delivers queued completed windows. VIOLATED vacuously: records are always delivered inside push, the queue is always empty and pushout never calls the handler, in every reachable state.",
 "every history",
 "Universally quantified negative fact.",
 [BMA+":basic_multi_aggregator::pushout"])
p("C37","Name compaction round trip",
 "recompact(compact(mp)) restores all names exactly and clears the legend, for every batch, every non-empty separator and every names (including names containing '~', digits, empty parts). The messages a packer hands out carry the separator of its options (the leftover message of pushout: the default one), and no legend unless names are compacted.",
 "every batch of names and separator",
 "Codec over all strings.",
 [PK+":basic_packer::compact_",PK+":basic_packer::recompact",PK+":basic_packer::findorcre_"])
p("C38","Packer delivers each record exactly once",
 "The multiset of records delivered by multi_pop()/pop_by_json_size/pushout() plus those still stored equals the multiset of records pushed (names up to recompact), for all limits. clear() drops exactly the stored ones and leaves the packer as new.",
 "every sequence of push/multi_pop/pushout calls and all option values",
 "Unbounded histories and limit combinations.",
 [PK+":basic_packer::multi_pop",PK+":basic_packer::pushout",PK+":basic_packer::push"])
p("C39","json_limit is respected by multi_pop",
 "Without name compaction and with a separator whose encoded length is at most 2, the JSON text of every batch returned by multi_pop() has at most json_limit bytes. With name compaction (legend indices >= 10, or names needing escapes), or a longer separator, the limit can be exceeded (violation), at most by what the separator is longer, by the digits of legend indices beyond the first, and by the characters beyond one that escaping adds to a legend entry.",
 "every packer content and limit",
 "Accounting over all contents.",
 [PK+":basic_packer::multi_pop",PK+":basic_packer::calc_json_size"])
p("C40","push_limit is respected by multi_pop",
 "If push_limit is non-zero, a batch returned by multi_pop() has at most push_limit records (and at least one).",
 "every packer content and limit","Accounting over all contents.",
 [PK+":basic_packer::multi_pop"])
p("C41","data_limit is respected by multi_pop",
 "If data_limit is non-zero a batch holds at most data_limit values. VIOLATED: the size is read from a moved-from record, the limit never takes effect.",
 "every packer content and limit","Accounting over all contents.",
 [PK+":basic_packer::multi_pop"])
p("C42","Best fit selection",
 "pop_by_json_size(max) returns a stored record of the largest accounted size not exceeding max, or nothing if there is none, and removes exactly that record; min_val/max_val are the extreme sizes.",
 "every packer content and limit","All contents; depends on a sortedness invariant over histories.",
 [PK+":basic_packer::pop_by_json_size",PK+":basic_packer::push"])
p("C43","Packer operations terminate",
 "pushout() terminates for every content. push() with name compaction and an empty separator never terminates (violation).",
 "every content and option","Termination cannot be tested.",
 [PK+":basic_packer::pushout",PK+":basic_packer::compact_"])
p("C44","recompact failure is reported without damage",
 "recompact returns false on every out-of-range index or malformed name. The request should then be unchanged: VIOLATED (earlier names already rewritten while the legend is kept).",
 "every request","All inputs.",
 [PK+":basic_packer::recompact"])
p("C45","Merging summary records",
 "reduced_info/aggregated_info += adds count and lossy (mod 2^64), takes the smaller min, weights the averages so that the result lies between both averages, keeps percentiles ordered (taking from the ten percentiles of both those in the places 3, 6, 7, 8 and 9 when sorted by weight), and copies the right operand if the left is blank. The merged max should be the larger max: VIOLATED (the smaller is taken). Merging a record with an identical one should keep its percentiles: VIOLATED. The weighted sums may overflow (undefined) for ordinary counts and large values.",
 "every pair of records without overflow","All field values.",
 [RI+":reduced_info::operator +=",AI+":aggregated_info::operator+="])
p("C46","Reader-writer lock is exclusive and never aborts",
 "For any number of threads using lock/unlock and (nested) lock_r/unlock_r in a balanced way, a writer never coexists with another writer or a reader, and no internal abort() is reachable.",
 "every interleaving of any number of threads, spurious wakeups included",
 "Schedules cannot be enumerated by tests.",
 [RW+":rwlock::lock",RW+":rwlock::unlock",RW+":rwlock::lock_r",RW+":rwlock::unlock_r"])
p("C47","Reader-writer lock loses no wakeup",
 "Whenever the lock is available to a waiting thread, that thread is awake or has been notified; hence if all holders release, some waiter proceeds; nested read locking by a reader never blocks.",
 "every interleaving","Schedules.",
 [RW+":rwlock"])
p("C48","aggregator_mt calls are atomic",
 "Any concurrent execution of aggregator_mt calls yields the same results and final state as some sequential order of these calls that respects each thread's order (the lock acquisition order).",
 "every number of threads, programs and interleaving","Schedules.",
 [MT])
p("C49","Buffer pool hygiene",
 "Used under external mutual exclusion the pool never exceeds pool_size, always hands out empty buffers, and never hands out the same buffer twice. With the registry's own (per-call) locking two concurrent create() calls can pop from an empty pool and concurrent free() can exceed the bound (violation).",
 "every sequential history / every interleaving","Check-then-act races.",
 [PL+":pool::create",PL+":pool::free"])
p("C50","Deadlock freedom of the registry",
 "Any number of threads calling add/push (with the wrtstat handler)/pop/pop_all/create/del/get_name never deadlock. Adding enable() breaks this: a push delivering a window and a concurrent enable() deadlock (violation).",
 "every interleaving of any number of threads","Schedules.",
 [G+":aggregator_registry::enable",W+":wrtstat::make_handler_",MT+":aggregator_mt::push"])
p("C51","A meter point reports exactly once",
 "time_point, size_point and composite_point report exactly once over their life (explicit push or destruction, whichever first), whatever move constructions and setters happen. The points of a multi_point report what points of their own, treated the same way, would report. VIOLATED by value_point, which reports again on destruction after push(), and by move assignment, which drops the report of the overwritten point.",
 "every sequence of operations on a point","All lifetimes.",
 ["wrtstat/meters/time_meter.hpp","wrtstat/meters/size_meter.hpp","wrtstat/meters/value_meter.hpp","wrtstat/meters/composite_meter.hpp"])
p("C52","reset() discards a measurement",
 "After reset() (no arguments) a point contributes nothing to the statistics. VIOLATED: it still reports one value with count 0, which enters data, min, max and avg and makes count < data.size().",
 "every point and aggregator state","All states.",
 ["wrtstat/meters/time_meter.hpp:time_point::reset",R+":reducer::add"])
p("C53","Composite meter routes values",
 "A composite report sends the span to the time aggregator with the given count, and read/write sizes to their aggregators with count = size if summary_size, else the given count; missing aggregators are skipped; a composite with no aggregator at all is null.",
 "every combination of present aggregators and arguments","All combinations.",
 [G+":aggregator_registry::make_composite_handler_",G+":aggregator_registry::create_composite_pusher"])
p("C54","Option persistence",
 "load_options(serialize_options(o)) restores reducer_limit, reducer_levels, aggregation_step_ts, soiled_start_ts, resolution, outgoing_reduced_size and pool_size. reducer_mode, initial_mode, id_init and id_step are not persisted and come back as defaults (violation for non-default values). Members may come in any order and any subset may be given; an unknown member, an unknown resolution or an unreadable file is refused, the returning version then gives the defaults, the version writing through a pointer may leave the target partly overwritten (violation).",
 "every option value","All values.",
 ["wrtstat/options/load_options.cpp","wrtstat/aggregator/options/reducer_options_json.hpp","wrtstat/aggregator/options/registry_options_json.hpp"])
p("C55","Push record codecs round-trip",
 "Decoding the JSON object form and the compact array form of a push / multi_push gives back every field (name, ts, avg, count, percentiles, lossy, min, max, data), whatever the target held before; in the object form members may come in any order among unknown ones. The same holds for del requests and for the responses. Member names, order and punctuation of the texts are fixed. A request that has all its members is accepted exactly if it is such a text with values that fit their types; one element that cannot be read makes it an error.",
 "every record","All field values.",
 ["wrtstat/api/push_json.hpp","wrtstat/api/push_json_compact.hpp","wrtstat/aggregator/api/json/reduced_info_json_compact.hpp"])
K="wrtstat/multi_packer/basic_packer.cpp"
p("C56","multi_pop returns nothing only if nothing fits",
 "Without name compaction, multi_pop() returns nothing only if every stored record, together with the text of an empty batch, exceeds json_limit; the packer is then unchanged. With name compaction this is VIOLATED: a record that does not fit together with its legend hides smaller ones that do.",
 "every packer content and limit","All contents and limits.",
 [K+":basic_packer::multi_pop",K+":basic_packer::pop_by_json_size"])
p("C57","pushout respects the limits",
 "Without name compaction pushout() delivers batches that respect json_limit and push_limit and returns their number; records that cannot fit follow in one further batch, after which the packer is empty. That last batch ignores all limits, is not counted and always has compacted names (violation).",
 "every packer content and limit","All contents and limits.",
 [K+":basic_packer::pushout",K+":basic_packer::multi_pop"])
p("C58","A writer waiting for the lock is eventually served",
 "A thread that waits for the write lock should get it once the current readers leave, even if new readers keep arriving: VIOLATED, for every n there is a schedule in which readers come and go n times while the writer waits. What holds: the last reader to leave wakes the waiting writers.",
 "every interleaving of any number of threads","Schedules.",
 [RW+":rwlock::lock",RW+":rwlock::lock_r",RW+":rwlock::unlock_r"])
p("C59","Callbacks may use the library",
 "A handler passed to push() may read names and counts from the registry without blocking anybody, and may use other aggregators, directly or by id, with handlers that do so again, as long as all handlers follow one order of the aggregators and nobody calls enable(). A handler that uses its own aggregator, creates or deletes an aggregator, or pushes to another aggregator whose handler does the converse, can block forever; so does an initializer that asks the registry for a name (a callback that asks again for the lock it is called under never returns in any schedule; alone, no other callback blocks) (violation of the natural expectation that callbacks may use the library).",
 "every interleaving of any number of threads","Schedules.",
 [MT+":aggregator_mt::push",G+":aggregator_registry::create_aggregator"])
p("C60","Concurrent use of a registry is equivalent to one order of the calls",
 "Whatever threads call on a shared registry and its pushers, clear() included, and however they are scheduled, the effects of their calls, each between the call and its return, form one sequence in which the same calls made one after another give the same answers and the same registry. Every call consists of exactly its effects: one for most, one per visited aggregator for pop_all and enable, create then add/push for calls by name; after clear() a push through an old pusher is an ordinary push or, as C106 describes, one that is recorded all the same. A call during which no other thread's call takes effect does and answers what it does on a registry used by one thread. No thread works on a destroyed aggregator.",
 "every number of threads, programs and schedules","Schedules.",
 [G+":aggregator_registry","wrtstat/aggregator/basic_aggregator.hpp:basic_aggregator::create_value_pusher","wrtstat/aggregator/aggregator_mt.cpp"])
p("C61","Threads lose and duplicate nothing",
 "For every aggregator ever registered, deleted or not, under every schedule: the counts of the records handed to handlers, popped, waiting and open add up to what was declared in the accepted calls; the reported values are among those accepted; each record stands for a group of accepted samples. After a clear() of the aggregator the same holds of what is recorded and handed over from then on.",
 "every number of threads, programs and schedules","Schedules.",
 [G+":aggregator_registry",MT+":aggregator_mt"])
p("C62","pop_all and enable treat all aggregators at one instant",
 "pop_all/force_pop_all and enable visit each aggregator registered when they are called exactly once, and none appears or disappears meanwhile; while enable is at work no other thread uses the registry at all, only pushes and calls on aggregators obtained before go on. They do not act at one instant: pushes that run meanwhile may be seen for a later visited aggregator but not for an earlier one, so pop_all is not a snapshot and enable is not atomic (violation of the natural expectation).",
 "every number of threads, programs and schedules","Schedules.",
 [G+":aggregator_registry::pop_",G+":aggregator_registry::enable"])
p("C63","Records are delivered under the name they were pushed to",
 "Records closed by a meter of name n are delivered to the handler under the name n, if n is not deleted between its creation and the end of the report. If it is deleted and another name created meanwhile, the records can be delivered under that other name (violation).",
 "every number of threads, programs and schedules","Schedules.",
 ["wrtstat/wrtstat.cpp:wrtstat::make_handler_",G+":aggregator_registry::del"])
p("C64","Nothing happens after del returned",
 "Without del(), every call reaches the registered aggregator. A call that reaches a deleted aggregator was overtaken by del(), or goes through a pusher while another thread's call keeps the aggregator alive. In that last case a push begun after del() returned is still recorded and delivered (violation of the natural expectation).",
 "every number of threads, programs and schedules","Schedules.",
 [G+":aggregator_registry::del","wrtstat/aggregator/basic_aggregator.hpp:basic_aggregator::create_value_pusher"])
p("C65","Handlers of one aggregator run one after another",
 "Between the call a meter's report makes on its aggregator and the next call on that aggregator by any thread, the handler has had the windows the report closed and returned. So windows of one name reach the handler in the order in which they were closed and handlers of one name never overlap.",
 "every number of threads, programs and schedules","Schedules.",
 [MT+":aggregator_mt::push","wrtstat/wrtstat.cpp:wrtstat::make_handler_"])
p("C66","The spinlock excludes",
 "At most one thread holds a spinlock; try_lock never waits and succeeds exactly when nobody holds it; a thread waiting in lock() gets it at its next attempt if nobody holds it; after unlock() nobody does. There is no fairness: a thread in lock() can be overtaken any number of times.",
 "every number of threads and schedules","Schedules.",
 ["wrtstat/system/spinlock.hpp:spinlock::lock","wrtstat/system/spinlock.hpp:spinlock::try_lock","wrtstat/system/spinlock.hpp:spinlock::unlock"])
p("C67","The published average is close to the mean of the values",
 "The average in a record is the mean of the values handed over for it, each counted once whatever count was declared with it, up to rounding: with n values of magnitude at most M (n up to 2^53) it differs from the mean by at most 1 + M(n+21)/2^54, so by at most 2 whenever M(n+21) is at most 2^54. It is not always the mean rounded: 0,1,6,1 has mean 2 and publishes 1.",
 "every reducer setting and every list of values","The rounding of a running sum depends on every value; no sample of inputs bounds it.",
 ["wrtstat/aggregator/reducer.cpp:reducer::add_","wrtstat/aggregator/reducer.cpp:reducer::detach"])
p("C68","What is measured is what is reported, from construction to destruction",
 "In every program that uses a wrtstat object, meters made by it and points made from them in one thread: the records received for a name (by the handler, pop or pop_all) are records of groups of measurements made for this name, each measurement used at most once. If the name is not deleted, nothing is disabled and times do not go back, every measurement is in a received or waiting record or in the open window, and counts add up modulo 2^64. If moreover only meters feed it, after ~wrtstat every measurement has reached the handler exactly once, provided the open window has not ended by then; otherwise the last window is lost (violation, witness).",
 "every program: every sequence of meter creations, point operations, registry calls, pushouts, destruction; all option values with a positive step","Histories: interplay of meters, points, names, windows and destruction.",
 ["wrtstat/wrtstat.cpp:wrtstat::create_time_meter","wrtstat/wrtstat.cpp:wrtstat::create_composite_meter","wrtstat/wrtstat.cpp:wrtstat::~wrtstat","wrtstat/wrtstat.cpp:wrtstat::make_handler_",G+":aggregator_registry","wrtstat/meters/time_meter.hpp:time_point"])
p("C69","Meters measure under the names asked for",
 "After any program, create_time_meter(name) (size, value likewise) makes a meter that measures under this name and is null exactly if the name is empty; the multi variants make one meter for each prefix, in order, under prefix+name; composite meters skip empty names, with a prefix too, and are null exactly if all names are empty.",
 "every program before the call, every list of prefixes and names, every order in which the compiler evaluates the creations","Histories.",
 ["wrtstat/wrtstat.cpp:wrtstat::create_time_multi_meter","wrtstat/wrtstat.cpp:wrtstat::create_composite_multi_meter","wrtstat/wrtstat.cpp:wrtstat::make_name_"])
p("C70","Points may outlive the wrtstat object",
 "After the wrtstat object is destroyed, every further use of points in the same thread is defined, calls no handler and does not touch what is left of the object.",
 "every program up to the destruction and every sequence of point operations after it","Histories and lifetimes.",
 ["wrtstat/aggregator/basic_aggregator.hpp:basic_aggregator::create_value_pusher","wrtstat/wrtstat.cpp:wrtstat::make_handler_","wrtstat/meters/time_meter.hpp:time_point"])
p("C71","Programs in range never fault",
 "A program that uses the registry, or a wrtstat object with a handler together with its meters and points, in one thread never meets undefined behaviour nor an exception, from construction past destruction, if times and clock readings stay one step below 2^63, values below 2^63-512, ids and the number of values in range, and the object itself is not used after its destruction. Outside these bounds it can fault: a value or a time next to 2^63, no handler, an id step of 0, a destroyed object (witnesses).",
 "every program: every sequence of calls with any ids, names and pushers, live or stale; every option value with step 1..2^63-1","Histories and arithmetic ranges.",
 [G+":aggregator_registry","wrtstat/wrtstat.cpp:wrtstat::~wrtstat","wrtstat/wrtstat.cpp:wrtstat::pushout",R+":reducer::detach",S+":separator::separate"])
p("C72","Work done by a call after a silence",
 "Every add, push and separate makes exactly one round of its loop for each window that has ended by its time since the open one, empty or not. A bound independent of the silence does not hold (violation): for every B below 2^58 a push after a silence of B windows makes B+1 rounds to hand out a single record.",
 "every separator state, every time, every positive step; every B","Unbounded time gaps.",
 [S+":separator::separate",S+":separator::push",S+":separator::add"])
p("C73","Every record a program receives is a finished window whose fields fit together",
 "In every program that uses a wrtstat object in one thread: each record received, through the handler or by pop or pop_all, is the finished record of one window of measurements; its values lie between min and max, its percentiles are in order and lie between min and max (all zero if it carries no values), and it carries at most reducer_limit values and, if outgoing_reduced_size is set, at most one and a half times as many.",
 "every program: every sequence of calls with any ids, points and meters; with or without handler and initializer; all option values with a positive step","Histories.",
 ["wrtstat/wrtstat.cpp:wrtstat::pushout",B+":basic_aggregator::reduce_",R+":reducer::detach"])
p("C74","What the handler receives arrives unchanged at the other end",
 "The records a wrtstat handler received can be pushed into a packer, in any grouping and with batches taken out at any time, and the batches sent as JSON text, with names compacted or not: the receivers, reading and expanding, together get exactly these records. So the counts that arrive under a name add up (modulo 2^64) to those of the measurements made for it, under the conditions of C68.",
 "every program and every packer history ending with pushout; all options of both; any JSON library that meets its contract","Histories across four components.",
 [PK+":basic_packer::multi_pop",PK+":basic_packer::recompact","wrtstat/api/multi_push_json.hpp:multi_push_json","wrtstat/wrtstat.cpp:wrtstat::pushout"])
p("C75","Records aggregated a second time keep counts and extremes",
 "If a receiver pushes arriving records under a name into a multi_aggregator in order of time, by push or multi_push, amid any other calls, then after force_pushout every record has gone into exactly one delivered record: the delivered counts add up (modulo 2^64) to the counts pushed, every delivered value was in a pushed record, and the least minimum and greatest maximum delivered are those pushed (unless 0 is an extreme, C13). So for any number of measuring programs that send to it, the receiver's counts add up to all the measurements made.",
 "every history of the multi_aggregator, hash function and shard count; any number of sending programs, each with any history meeting C68","Histories across processes.",
 ["wrtstat/multi_aggregator/basic_multi_aggregator.cpp:basic_multi_aggregator::push","wrtstat/multi_aggregator/multi_aggregator.cpp:multi_aggregator::multi_push",R+":reducer::add",PK+":basic_packer::multi_pop"])
p("C76","Several threads on one multi_aggregator: names are handled as if one call came after the other",
 "Any number of threads may push, multi_push, del, pushout, force_pushout and size on one multi_aggregator. At any moment what happened to the shards is explained by one order of the parts of the finished calls (a push, a del, one shard's part of a pushout or size); the order only grows, so a call that ended before another began comes first. Per name, the answers and records the threads get are those of one aggregator used by one thread in that order. Safe inputs stay defined; no record is invented; if the records of a name come in order of time and the name's last event is a force_pushout, the records handed to all threads together account for every record pushed exactly once. Two handlers of one shard never run at once.",
 "every number of threads, every program of each, every interleaving of statements, hash function, shard count and options","Thread schedules.",
 [MA+":multi_aggregator::push",MA+":multi_aggregator::del",MA+":multi_aggregator::pushout",MA+":multi_aggregator::force_pushout",MA+":multi_aggregator::size"])
p("C77","A call on a multi_aggregator happens at one moment",
 "With several threads, every call on a multi_aggregator (push, multi_push, del, pushout, force_pushout, size) takes effect at one moment between its start and its end, so that the answers of all threads are those of the calls made one after the other.",
 "every number of threads, every program of each, every interleaving","Thread schedules.",
 [MA+":multi_aggregator::multi_push",MA+":multi_aggregator::force_pushout",MA+":multi_aggregator::size",MA+":multi_aggregator::push"])
p("C78","Handlers of a multi_aggregator cannot block it",
 "Threads using a multi_aggregator never wait for each other for ever, whatever the handlers given to push, pushout and force_pushout do with it.",
 "every number of threads, every program, every interleaving, every handler","Thread schedules.",
 [MA+":multi_aggregator::push",MA+":multi_aggregator::force_pushout",BMA+":basic_multi_aggregator::push"])
p("C79","Records of different kinds understand each other's JSON",
 "A reduced_info, aggregated_perc, reduced_data, aggregated_info, aggregated_data or push written as JSON is read back exactly in both forms; a receiver that knows another kind of record gets the fields both kinds have and keeps the rest of its own; the two forms are never taken for one another. Member names, order and punctuation of the texts are fixed.",
 "every record of every kind, every kind expected by the receiver, every target, every text after the value","All values of all fields and all pairs of kinds.",
 ["wrtstat/aggregator/api/json/aggregated_info_json.hpp:aggregated_info_json","wrtstat/aggregator/api/json/aggregated_info_json_compact.hpp:aggregated_info_json_compact","wrtstat/aggregator/api/json/reduced_data_json.hpp:reduced_data_json","wrtstat/aggregator/api/json/reduced_info_json_compact.hpp:reduced_info_json_compact","wrtstat/api/del_json.hpp:del_json"])
p("C80","wrtstat may be destroyed while other threads report",
 "A wrtstat object may be destroyed while other threads use points of its meters: every report then is either made before the end, and handed to the handler, or does nothing.",
 "every number of threads, every program, every interleaving of reports with the destructor","Thread schedules around one moment.",
 [W+":wrtstat::~wrtstat",W+":wrtstat::make_handler_","wrtstat/system/pool.hpp:pool::get_allocator","wrtstat/aggregator/basic_aggregator.hpp:basic_aggregator::create_simple_pusher"])
p("C81","A shared pool of buffers never shows",
 "Aggregators made by one registry or multi_aggregator take their buffers from one pool and give them back. Whatever the pool's item size and pool_size, every call of every aggregator returns and hands out exactly what it would with memory of its own, and no deleted buffer is used. At any moment each existing buffer belongs to exactly one aggregator or is in the pool once; the pool holds at most pool_size buffers, all empty; when the aggregators are gone only those remain.",
 "every number of aggregators with any options, every sequence of creations, calls and destructions, every item size and pool_size (single thread)","Histories of sharing.",
 [R+":reducer::reduce",R+":reducer::add_",R+":reducer::clone",R+":reducer::detach","wrtstat/system/pool.hpp:pool::create","wrtstat/system/pool.hpp:pool::free","wrtstat/system/allocator.hpp:allocator::free"])
p("C82","size(data_size, capacity) tells the memory an aggregator holds",
 "size(data_size, capacity) of an aggregator adds the number of values it holds to data_size and the number of places it holds to capacity; the places held are at most max(2*item size, reducer_limit) for each buffer and record, and so are those of each record handed out.",
 "every number of aggregators sharing a pool, every history, every aggregator at every moment","Histories.",
 [B+":basic_aggregator::size",S+":separator::size",R+":reducer::capacity",R+":reducer::size",BMA+":basic_multi_aggregator::size"])
p("C83","The ts of a record tells when its measurements were made",
 "In every program, if no time given is below the step: each record received for a name is the delivered form of a group of measurements of that name (no measurement in two groups, no group empty), all of them made at or after the record's ts and before ts+2*step, and before ts+step if soiled_start_ts is 0. A separator or aggregator, used in any way except clear(), partitions what it accepted into the records handed out or queued and the open window, each group being what was accounted to the window named by ts. With soiled_start_ts the bound ts+step fails (violation, witness).",
 "every program and every call sequence on a separator or aggregator, step > 0","Histories.",
 [S+":separator::separate",S+":separator::get_ts",S+":separator::force_pop",B+":basic_aggregator::push","wrtstat/wrtstat.cpp:wrtstat::make_handler_"])
p("C84","A name of a program behaves like an aggregator used alone",
 "In every program, what is received for a name is what a sequence of aggregators, each created once and used alone, hands out, given measurements made for that name in the order in which they were made; the aggregator registered at the end is the last of them. If the name is not deleted, nothing is disabled and times do not go back, it is one aggregator, given exactly what was measured: other names, meters, points and calls make no difference.",
 "every program that uses a wrtstat object in one thread, every name","Interference between names, meters and deletions over histories.",
 ["wrtstat/wrtstat.cpp:wrtstat::create_time_meter",G+":aggregator_registry::create_aggregator",G+":aggregator_registry::del",B+":basic_aggregator::create_value_pusher"])
p("C85","The records of a name arrive in the order of time",
 "The records a program receives for a name, through the handler, pop and pop_all together, arrive in the order of their windows, none of a window after the open one, if times do not go back and the name is not deleted or disabled. This holds when only meters feed it and nothing is flushed by force; after pushout(force) an older record can arrive after a newer one (violation, witness).",
 "every program that uses a wrtstat object in one thread, every name","Histories mixing three ways out.",
 ["wrtstat/wrtstat.cpp:wrtstat::pushout",B+":basic_aggregator::force_pop",B+":basic_aggregator::separate",G+":aggregator_registry::force_pop_all"])
p("C86","No data race, no use of a destroyed aggregator",
 "Any number of threads may call the registry, its aggregators and pushers at the same time, from handlers and from the initializer too: no two of them ever use the same memory (the registry's table, dictionary, switch and initializer, the pool, an aggregator, what the initializer changes, std::rand) with one of them writing; no aggregator is used before it is made or after it is destroyed, none is destroyed twice; when all threads are done no lock is held and every aggregator made is in the registry or destroyed. The same holds for the shards of a multi_aggregator, except that std::rand is called by two of them at once if soiled_start_ts is set. A function given to set_handler can run in several threads at once (violations, witnesses).",
 "every number of threads, every program of calls with any nesting of handlers, every interleaving","Thread schedules; a race may show no effect in a test.",
 [G+":aggregator_registry::create_aggregator",G+":aggregator_registry::del",G+":aggregator_registry::pop_",G+":aggregator_registry::enable","wrtstat/aggregator/aggregator_mt.cpp:aggregator_mt::push","wrtstat/system/pool.hpp:pool::create","wrtstat/aggregator/basic_aggregator.hpp:basic_aggregator::create_simple_pusher",S+":separator::separator",MA+":multi_aggregator::push"])
p("C87","How good the percentiles of a record are",
 "If a window holds at most reducer_limit values, the percentiles of its record are exactly those of the values measured. Beyond that, in every mode: what the record keeps comes from the first reducer_limit*reducer_levels values of the window, and of these at least n*P/100+1 are at or below the P-th percentile and at least n-n*P/100 at or above it, n being reducer_limit; in sorting mode the P-th percentile lies between the smallest and the largest P-th percentile of the successive runs of reducer_limit values, and later values have no influence on it. This holds for every record received by a program that measures under a name. It does not hold that the reported median is near the median of the window, that values late in a window count, or that a measurement given with a count n counts n times (violations, witnesses).",
 "every reducer mode and size, every sequence of measurements, every program of calls","Statistical accuracy must hold for every order of values and every conforming nth_element.",
 ["wrtstat/aggregator/reducer.cpp:reducer::add_","wrtstat/aggregator/reducer.cpp:reducer::reduce","wrtstat/aggregator/reducer.cpp:reducer::detach",B+":basic_aggregator::aggregate2_"])
p("C88","A handler that throws: the aggregator",
 "push() and separate() give the handler at most one record. If the handler throws, the exception reaches the caller; the aggregator is then in exactly the state force_pop() would have left, the handler having got what force_pop() would have returned, and the measurement of the throwing call is not recorded. So any history with handlers that throw at will ends and answers like an ordinary history, no measurement of a call that returned true is lost or counted twice, and repeating the call after the exception records the measurement once without calling the handler. If the handler does not throw, nothing differs. It does not hold that each window is reported once, nor that a call that throws has recorded its measurement (violations, witnesses).",
 "every state, every record on which a handler may decide to throw, every history of calls","Every call is a point where a handler may throw; the state it leaves matters only for later calls.",
 [S+":separator::separate",S+":separator::push",B+":basic_aggregator::push_handler_",B+":basic_aggregator::push",B+":basic_aggregator::separate"])
p("C89","A handler that throws: programs",
 "An operation on wrtstat, its meters and points ends with an exception only if the handler threw one, on the last record it was given and on no other. pushout() and force_pushout() deliver the records in the usual order up to the one on which the handler throws. A time, size or value point whose push() threw keeps its measurement: pushing it again records it exactly once, and destroying it, at whatever time, calls no handler. It does not hold that the records behind the one that was refused are delivered later, that the exception can be caught when it arises in the destructor of a point or of wrtstat (std::terminate), or that pushing a composite point again records its time once (violations, witnesses).",
 "every program state, every operation, every set of records on which the handler throws","Every delivery is a point where the handler may throw.",
 [W+":wrtstat::pushout_",W+":wrtstat::make_handler_",W+":wrtstat::~wrtstat","wrtstat/meters/time_meter.hpp:time_point::push","wrtstat/meters/time_meter.hpp:time_point::~time_point","wrtstat/meters/composite_meter.hpp:composite_point::push",G+":aggregator_registry::make_composite_handler_"])
p("C90","A reducer when memory runs out",
 "If an allocation fails inside an add(), in get_reduced() or at the start of detach(), the call throws and the reducer stays usable: no later call is undefined, the count of the record is that of the calls that returned, its values are among those handed over, never more than reducer_limit, and clear() makes a fresh start. It does not hold that a call that threw has had no effect: the refused value is in minimum, maximum and average; on an empty reducer a record of no measurement appears; an array call that threw leaves values the count does not cover; add({...}) that threw can leave its values to the next window. If the allocation fails while detach() or reduce() gives buffers back to the pool, the next call that looks at the values is undefined, until clear() (violations, witnesses).",
 "every reducer configuration, every history of calls, every set of failing allocations","Any allocation of any call can be the one that fails.",
 [R+":reducer::add_",R+":reducer::add",R+":reducer::detach",R+":reducer::reduce",R+":reducer::clear","wrtstat/system/pool.hpp:pool::create","wrtstat/system/pool.hpp:pool::free","wrtstat/system/allocator.hpp:allocator"])
p("C91","A registry whose calls fail",
 "Calls of the registry may be left by an exception: an allocation of create_aggregator(), add(name), create_*_pusher(name), del() or pop_all() fails, or the initializer throws. Every name still behaves as one aggregator of its own: a creation that threw is as if not called, names other than its own keep their ids and aggregators, a second attempt succeeds like a first one; a del() that threw has deleted the aggregator; a pop_all() that threw has popped the names up to one, the records are in the caller's list, each once. A call that returns has done what it does when nothing fails; two ids never have the same name. It does not hold that a failing call leaves the registry usable: if the array could not grow, del(name) writes past its end; if the failure was between the two tables of names, the name is bound to a nameless id whose records are reported under the empty name and which del() does not release; if the initializer threw, the name has an aggregator that is never initialised; the record whose name could not be copied is lost by pop_all(), all records popped so far by pushout() (violations, witnesses).",
 "every registry configuration, every history of calls, every set of failing calls and places of failure","Any allocation of any call can be the one that fails; what it leaves matters only for later calls.",
 [G+":aggregator_registry::create_aggregator",G+":aggregator_registry::del",G+":aggregator_registry::pop_",G+":aggregator_registry::pop_all",D+":dict::create_id",D+":dict::free",W+":wrtstat::pushout_"])
p("C92","A packer whose handler throws",
 "The handler of basic_packer::pushout() may throw at any of its calls, in any history of push, multi_push, pop, multi_pop and pushout. Every call still ends. A call that fails hands over the first batches the unhindered call would hand over, up to the one on which the handler throws. If it throws inside the loop, the packer is as after that many calls of multi_pop(), and calling pushout() again hands over exactly the missing batches. As long as every record pushed fits a batch of its own, each record is delivered, in a refused batch, popped or still stored, exactly once. It does not hold that a refused batch is handed over again; and if the handler throws on the last batch, that of the records which fit no limit, the packer keeps copies of these records without name and values which the next pushout() delivers, so their counts arrive twice, under the empty name (violations, witnesses); clear() removes exactly these copies.",
 "every option set (a separator being set if names are compacted), every history, every set of handler calls that throw, every content of a string that was moved from","Which of the handler calls throws and what is stored then is unbounded; copies left behind show only in later calls.",
 [PK+":basic_packer::pushout",PK+":basic_packer::multi_pop",PK+":basic_packer::clear"])
p("C93","A multi_aggregator whose handler throws",
 "The handlers of push, multi_push and force_pushout of a multi_aggregator may throw on whatever they like, in any history; a null handler is one that always throws. A call ends with an exception only if its handler threw, on the last record it was given and on no other; a handler that throws on none of the records changes nothing. A push that threw can be repeated at the same times: nothing is delivered twice and afterwards all is as if nothing had been thrown. A force_pushout that threw can be repeated, it goes on behind the record it threw on; pushout never calls its handler. multi_push pushes one record after another until one throws; what is left of the batch, from that record on, can be sent again. For every name that is not deleted the records given to handlers are those of one aggregator that got the calls made before the exceptions, and the counts of the pushes that returned are found exactly once in these records or in the open window. It does not hold that a multi_push that threw may be repeated as a whole (records before the exception are counted twice) or need not be repeated (the rest is lost) (violations, witnesses).",
 "every hash function, option set, history, order of traversal, every set of records on which a handler throws","Which handler call throws and what the aggregators hold then is unbounded; what is lost or counted twice shows only in later records.",
 [MA+":multi_aggregator::push",MA+":multi_aggregator::multi_push",MA+":multi_aggregator::force_pushout",BMA+":basic_multi_aggregator::push",BMA+":basic_multi_aggregator::force_pushout"])
p("C94","An aggregator when memory runs out",
 "Any allocation of any call of an aggregator may fail (other than one in detach() giving buffers back), in any history. A call that returns has done what it always does. A call that fails while its handler is copied, or while the record of the closing window is made, has had no effect at all and can be repeated. In every history the counts of the records handed to handlers, popped, destroyed, waiting inside and of the open window add up to the events of the calls that returned true and of those that threw only when a finished record was to be queued; no value appears in these records more often than it was handed over; each failure destroys at most one record, and only a failure to queue a record or to copy the handler for it does. It does not hold that a call that threw has had no effect, nor that it has recorded its measurement: repeated, it counts once or twice, depending on which allocation failed. It does not hold that a closed window is reported or ready for pop() (violations, witnesses).",
 "every configuration, every history of calls without clear(), every set of failing allocations","Any allocation of any call can be the one that fails; what it leaves shows only in later records.",
 [B+":basic_aggregator::add",B+":basic_aggregator::push",B+":basic_aggregator::separate",B+":basic_aggregator::aggregate0_",B+":basic_aggregator::push_handler_",S+":separator::separate",R+":reducer::detach",R+":reducer::add_"])
p("C95","Windows and order when threads share a registry",
 "Any number of threads use one registry: creating and deleting metrics, adding and pushing measurements, reporting meters, popping, enabling. However they are scheduled, since the metric was created or last cleared, every record of a metric, whoever received it, reports a non-empty group of measurements that lie in the window the record names; no measurement is in two records; every recorded measurement is in a record or in the open window. If nobody uses force_pop, the metric's handlers receive its records in strictly increasing order of windows although they run in different threads, the records popped are in that order too, and every non-empty window that was closed has exactly one record, with all the measurements recorded in it. A user may also expect that of two pop_all() calls the one that returns first brings the earlier windows.",
 "every number of threads, every program and schedule, every metric, from its creation or its last clear() on","An interleaving that would split a window between two records, or deliver two out of order, is one of very many.",
 [G+":aggregator_registry::pop_",G+":aggregator_registry::add",G+":aggregator_registry::get_aggregator",B+":basic_aggregator::push",B+":basic_aggregator::separate",S+":separator::separate",RW+":rwlock"])
p("C96","Handlers that call back into the aggregator",
 "The handler given to push() or separate() may itself call any method of the same aggregator, with handlers that do so again. Every such program ends. If the handlers call nothing, everything is as without callbacks. Otherwise (clear() apart) the sum of the counts of the records handed over, popped, queued and being collected is the number of events of the samples taken, no value is reported more often than it was given, and the records are handed over in the order of their windows, each for a window that is over when the program ends. A user may also expect that a sample given in a handler is reported for its own window, that a sample at least as new as everything seen is not refused, that no window is reported twice by handlers, and that one push calls its handler at most once per window.",
 "every aggregator, every finite nesting of calls and handlers","A test exercises one handler; what a call inside a call does depends on the point at which the outer call stands and on everything the inner calls do.",
 [S+":separator::separate",S+":separator::push",B+":basic_aggregator::push",B+":basic_aggregator::separate",B+":basic_aggregator::push_handler_"])
p("C97","A packer when memory runs out",
 "If an allocation inside a call of a packer fails, the call ends with bad_alloc and the packer can still be used: every later call ends, every batch handed over can be read, and every record stored is handed over once, popped, still stored, or lost in a call that failed. A failing push() has no effect, a failing multi_push() has stored the records in front of the one it failed at, and a failing multi_pop() loses at most the records of the batch it was about to return and one more. A user may also expect that a failing multi_pop() or pushout() loses nothing and that only records somebody pushed are handed over.",
 "every history of push, multi_push, pop, multi_pop and pushout, every choice of allocations that fail, every size function and option set (with names compaction off or a separator that is not empty)","A test would have to make each allocation of each call fail in turn, in every state of the packer.",
 [PK+":basic_packer::multi_pop",PK+":basic_packer::pushout",PK+":basic_packer::push",PK+":basic_packer::multi_push"])
p("C98","Pushers and clear() among threads",
"However threads share an aggregator_mt, its member functions, create_*_pusher and the pushers, what is done to the aggregator is one sequence of calls, each within the call that caused it. Without clear() every call of a pusher has its effect. Once clear() has been made and at some later moment nobody is inside a pusher, no pusher ever has an effect again; a pusher made after clear() never has one. That a pusher made before clear() does nothing once clear() has returned: VIOLATED. While another thread is inside a pusher, even the thread that made clear() can record through an old pusher, any number of times.",
"every number of threads, all calls, every interleaving, every moment of clear()",
"Needs clear() to fall between two statements of a pusher running in another thread.",
["wrtstat/aggregator/basic_aggregator.hpp:create_simple_pusher","wrtstat/aggregator/basic_aggregator.hpp:create_data_pusher","wrtstat/aggregator/basic_aggregator.hpp:create_reduced_pusher","wrtstat/aggregator/basic_aggregator.cpp:basic_aggregator::clear","wrtstat/aggregator/aggregator_mt.cpp:aggregator_mt::clear"])
p("C99","Moving a multi_aggregator",
"A program declares multi_aggregators, constructs others from std::move of them, assigns them by move and calls their methods, in any order. Every aggregator answers as if it had stayed where it was made and had received only its own calls, through whichever variable; it is never in two variables. A variable whose aggregator was moved away hands over nothing and counts nothing, and push, del and multi_push through it are undefined behaviour until it is assigned to. That moving a variable to itself changes nothing: VIOLATED, everything it held is lost. That what was pushed stays reachable: VIOLATED, assigning over an aggregator drops its open windows without handing them over.",
"every program of declarations, moves, self-moves, assignments and calls, every options and hash function",
"A test moves one aggregator once; the claim is about every chain of moves with calls in between.",
["wrtstat/multi_aggregator/multi_aggregator.cpp:multi_aggregator::multi_aggregator","wrtstat/multi_aggregator/multi_aggregator.cpp:multi_aggregator::operator=","wrtstat/multi_aggregator/multi_aggregator.hpp:multi_aggregator"])

p("C100","Several spinlocks, spinlock_n, moved spinlocks",
"Threads lock, try_lock and unlock any number of spinlocks. No lock is ever held by two threads or twice by one, try_lock of a lock succeeds exactly when nobody holds that lock, whatever is held of the others, and moving locks that nobody holds changes none of this. Threads that take locks in rising order of some rank cannot all wait for each other: if every holder waits, some waiting thread gets its lock at its next attempt. spinlock_n<N> gives every key one of its N locks. That different keys have different locks: VIOLATED for every N, a thread that locks two keys can wait for itself for ever. That a lock may be moved or assigned at any time: VIOLATED, assigning to a held lock lets a second thread in, and a move from a held lock leaves a lock that nobody holds and nobody can take.",
"every number of locks and threads, every schedule of lock, try_lock, unlock and moves, every N and key",
"Which exchange comes first is up to the scheduler; a waiting circle or a second holder needs one particular interleaving.",
["wrtstat/system/spinlock.hpp:spinlock","wrtstat/system/spinlock.hpp:spinlock_n"])

p("C101","Moving an aggregator",
"A program makes aggregators from options and from std::move of others, calls them, makes pushers and calls those, and destroys aggregators, in any order. An aggregator made by moving goes on where the other one stopped: its calls, together with those made before the move, get the answers they would get from one aggregator that never moved; an aggregator is never in two objects. clear() makes a moved-from object as good as new. A pusher works exactly while its object exists and the aggregator that was in it is somewhere and not cleared. That every measurement is handed over once: VIOLATED, the moved-from object hands over the open window once more, with its count, min, max and avg but no data. That pushers follow the aggregator: VIOLATED, they push into the moved-from object, and stop when the new one is cleared or destroyed.",
"every program of constructions, moves, calls, pushers and destructions, every options and time",
"The move constructor is written by the compiler and tested by nobody; the claim is about every chain of moves with calls and pushers in between.",
["wrtstat/aggregator/aggregator.hpp:aggregator","wrtstat/aggregator/basic_aggregator.hpp:basic_aggregator","wrtstat/aggregator/separator.hpp:separator","wrtstat/aggregator/reducer.hpp:reducer"])

p("C102","What the observers say",
"After any calls, reducer::size() is the number of values handed over since the last clear() or detach(), up to reducer_limit*reducer_levels (and what reduce() left, if it was called); filled() is true exactly when the next value will not be held; empty() exactly when nothing was added since. size() of a separator and of an aggregator is the number of pop() calls that return a record before one returns nothing; ready() and empty() say whether there are any. current_time() is the time stamp the open window will be reported with, next_time() is one step later, and add() answers false exactly if the sample is older than current_time(). That empty() or size()==0 means that there is no data: VIOLATED, the open window is not counted. That aggregators_count() is the number of aggregators: VIOLATED, it is 2 after the first aggregator with ids from 1 on, and del() does not lower it; it is the greatest number of names registered at one time plus a constant that depends on the ids.",
"every history of calls on a reducer, separator, aggregator or registry, every options",
"A test compares the observers after one or two short histories; the claim covers every history, fill level and choice of ids.",
["wrtstat/aggregator/reducer.cpp:reducer::filled","wrtstat/aggregator/separator.cpp:separator::size","wrtstat/aggregator/basic_aggregator.cpp:basic_aggregator::size","wrtstat/aggregator/aggregator_registry.cpp:aggregator_registry::aggregators_count"])
p("C103","A packer whose handler uses it",
"The handler of a packer may call the packer. Whatever calls it makes (finitely many), pushout() returns, and returns with an empty packer; the numbers returned by the calls of pushout(), nested ones included, add up to the batches given by their loops. If every record pushed fits into a batch of its own, or if the handler makes no call when it is given the batch that is sent behind the loop, every record pushed, by the user or by the handler, is given to the handler, returned by multi_pop() or pop_by_json_size(), destroyed by clear() or still stored, once. That a handler may push back a batch it could not send: VIOLATED behind the loop, where pushout() destroys what the handler pushed; in the loop the same call gives it the batch again, as often as it is pushed back, so that a handler that always pushes back makes pushout() run forever. That a handler may call pushout(): VIOLATED behind the loop, where the call inside gives it copies of the records without names and values, counts included, again and again.",
"every packer, every program of calls, every list of calls made by the handler, nested to any depth",
"A test has one handler with one behaviour; the claim covers every sequence of nested calls and every way the stored records may fall into batches.",
["wrtstat/multi_packer/basic_packer.cpp:basic_packer::pushout","wrtstat/multi_packer/basic_packer.cpp:basic_packer::multi_pop"])

p("C104","A multi_aggregator when memory runs out",
"An allocation that fails in a call of a multi_aggregator leaves it usable. A call that returns has done what it always does. A push() that throws bad_alloc has recorded no event; if it failed before a record was taken out, every name that was there is as it was and the push can be repeated. A multi_push() that throws has pushed the records before the one whose push failed, and none after. A force_pushout() that throws can be repeated: together they give everything one that does not fail gives, except at most one record. After any history of calls and failures, the counts of the records given under a name, of those destroyed and of its open window add up to the events of the pushes under that name that returned true, and each failed call destroys at most one record. That a push() that threw has left no trace: VIOLATED, the name may be there afterwards, with a window that starts at the failed push, so that older records are refused. That what was recorded is reported: VIOLATED, the record being moved when the allocation fails is destroyed. That a force_pushout() that failed at one name serves the others: VIOLATED. That a multi_push() that threw can be repeated as a whole: VIOLATED, what came before the failure is counted twice.",
"every hash function, every number of shards, every history of calls, with any allocation of any call failing, every name",
"A test cannot make a chosen allocation fail inside the library, let alone each allocation of each call in every history.",
["wrtstat/multi_aggregator/basic_multi_aggregator.cpp:basic_multi_aggregator::push","wrtstat/multi_aggregator/basic_multi_aggregator.cpp:basic_multi_aggregator::force_pushout","wrtstat/multi_aggregator/multi_aggregator.cpp:multi_aggregator::multi_push"])

p("C105","A multi_aggregator whose handlers use it",
"A handler of a multi_aggregator may call it, as long as it uses other shards. A program whose handlers never use a shard that a call around them is in returns from every call. What a program that returns does is what its critical sections do one after the other, in the order in which they end, whether they belong to calls of the program or to calls of handlers, to any depth: every call is answered with what its own sections did, the handlers see the records of a name in the order in which they were taken out, each name behaves as one aggregator given its calls, the records given are windows over distinct records pushed, and after a force_pushout() that passes the name's shard last nothing of it is missing. That a handler may push what it is given under another name: VIOLATED, a push under a name on the same shard, a pushout or a size() from inside a handler locks a mutex its own thread holds and never returns. That force_pushout() reports what was there when it was called: VIOLATED, it also reports what its handler pushes to the shards it has not reached. That nothing is left after force_pushout(): VIOLATED, what its handler pushes to a shard it has passed stays.",
"every hash function, every number of shards, every program of calls with handlers that make any calls, nested to any depth, every division of a critical section into statements and handler calls, every name",
"Whether a handler may call depends on the hashes of the names involved; a test tries a few names and a few nestings.",
["wrtstat/multi_aggregator/multi_aggregator.cpp:multi_aggregator::push","wrtstat/multi_aggregator/multi_aggregator.cpp:multi_aggregator::force_pushout","wrtstat/multi_aggregator/multi_aggregator.cpp:multi_aggregator::size","wrtstat/multi_aggregator/basic_multi_aggregator.cpp:basic_multi_aggregator::pushout"])

p("C106","clear() of an aggregator that threads share through a registry",
"Threads share a registry, its aggregators and their pushers, and one calls clear() on an aggregator. A push made after that through one of its pushers, when no other thread is inside a call through a pusher of that aggregator, returns at once with nothing recorded and nothing delivered; if at some moment after clear() nobody is inside such a call, no pusher of the aggregator ever has an effect again; a pusher made after clear() never has one. Without clear() there are only the ordinary effects. That a pusher made before clear() does nothing once clear() has returned: VIOLATED, while another thread is inside a push into the same aggregator a push made after clear() is recorded.",
"every number of threads, all calls on a registry including del and clear(), every schedule",
"Needs another thread between the two statements of a pusher at the moment of clear().",
["wrtstat/aggregator/basic_aggregator.hpp:create_simple_pusher","wrtstat/aggregator/basic_aggregator.cpp:basic_aggregator::clear","wrtstat/aggregator/aggregator_registry.cpp:aggregator_registry::get_aggregator","wrtstat/aggregator/aggregator_mt.cpp:aggregator_mt::clear"])

if __name__=="__main__":
    open("/verif/properties.jsonl","w").write("".join(json.dumps(x,ensure_ascii=False)+"\n" for x in P))
    print(len(P))
