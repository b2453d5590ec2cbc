{"id": "C01", "title": "Variable-length integer encoding is lossless and bounded", "statement": "Encoding any 64-bit unsigned integer and decoding the produced bytes returns the same integer and consumes exactly the bytes the encoder wrote, whatever bytes follow; the encoding takes between 1 and 10 bytes, and the decoder never consumes more than 10 bytes of any input.", "quantifier": "all 2^64 values, all trailing bytes, all (also malformed) byte inputs to the decoder", "why_tests_cant": "2^64 values and every continuation of the buffer; a test samples a handful", "anchors": ["src/common/util/vlenc.h:vlenc_u64", "src/common/util/vlenc.h:vldec_u64"]}
{"id": "C02", "title": "Variant pack/unpack is lossless", "statement": "Packing a variant value and unpacking the bytes yields a variant with the same type, size and payload, consumes exactly the packed bytes (at most 20), and unpacking rejects type tags beyond the last known type.", "quantifier": "all well-formed variants of all ten types, all following bytes", "why_tests_cant": "the payload is a full 64-bit word per type", "anchors": ["src/common/cali_variant.c:cali_variant_pack", "src/common/cali_variant.c:cali_variant_unpack"]}
{"id": "C03", "title": "Snapshot entry serialization is lossless", "statement": "A reference or immediate snapshot entry that is packed into a trace buffer and unpacked against the same metadata comes back as the same entry, in at most MAX_PACKED_SIZE bytes.", "quantifier": "all entries over all node ids / attribute ids / values", "why_tests_cant": "unbounded id and value space", "anchors": ["src/common/Entry.cpp:Entry::pack", "src/common/Entry.cpp:Entry::unpack"]}
{"id": "C04", "title": "Node transfer buffer preserves the node sequence", "statement": "Iterating over a node buffer yields exactly the nodes that were appended, in order, with the same id, attribute, parent and data, no matter how many nodes are appended or how large their data is.", "quantifier": "all node lists with ids below 2^63 (and the wrap-around beyond), all string data", "why_tests_cant": "unbounded sequences and sizes", "anchors": ["src/common/NodeBuffer.cpp:NodeBuffer::append", "src/common/NodeBuffer.cpp:NodeBuffer::for_each"]}
{"id": "C05", "title": "Compressed snapshot record round-trip", "statement": "A snapshot appended to a compressed record and unpacked yields the same node references and the same immediate entries; anything that does not fit is reported as skipped and leaves the record intact.", "quantifier": "all records, all buffer sizes, all sequences of append calls", "why_tests_cant": "the layout depends on the whole history of appends (the node section is grown in blocks by moving the immediate section)", "anchors": ["src/common/CompressedSnapshotRecord.cpp:append", "include/caliper/common/CompressedSnapshotRecord.h"]}
{"id": "C06", "title": "Trace buffer returns the recorded snapshots in order", "statement": "Every snapshot saved in a trace buffer chunk for which the chunk reported that it fits is returned by flush, in save order, with the same entries; saving never writes beyond the chunk.", "quantifier": "all sequences of snapshots and all chunk sizes", "why_tests_cant": "unbounded histories; the overflow bound must hold for worst-case entry sizes", "anchors": ["src/services/trace/TraceBufferChunk.cpp:save_snapshot", "src/services/trace/TraceBufferChunk.cpp:fits", "src/services/trace/TraceBufferChunk.cpp:flush"]}
{"id": "C07", "title": "Trace buffer policies account for every snapshot", "statement": "Under each overflow policy (grow, stop, flush) every snapshot processed by the trace service is either still in the buffer, was handed to output, or is counted as dropped; no policy writes outside of a buffer chunk, and a flush yields snapshots in chronological order.", "quantifier": "all policies, buffer sizes and snapshot histories", "why_tests_cant": "overflow happens at history-dependent points", "anchors": ["src/services/trace/Trace.cpp:acquire_tbuf", "src/services/trace/Trace.cpp:process_snapshot_cb", "src/services/trace/Trace.cpp:handle_overflow"]}
{"id": "C08", "title": "Variant equality is value equality", "statement": "Variant comparison for equality is an equivalence relation, coincides with equality of type and value (string content for strings and blobs), and agrees with the stored content hash: equal variants have equal hashes.", "quantifier": "all pairs/triples of variants including long strings with equal prefix and hash collisions", "why_tests_cant": "quadratic/cubic space over all string contents", "anchors": ["src/common/cali_variant.c:cali_variant_eq", "include/caliper/common/cali_variant.h:cali_make_variant_from_string"]}
{"id": "C09", "title": "Variant ordering is a total order compatible with equality", "statement": "The variant comparison function used for sorting, min/max and record selection is antisymmetric and transitive, orders numbers numerically, and returns 0 exactly on equal values.", "quantifier": "all triples of variants of all types", "why_tests_cant": "violations are at extreme values (difference truncated to int)", "anchors": ["src/common/cali_variant.c:cali_variant_compare"]}
{"id": "C10", "title": "Variant numeric conversions are exact when they report success", "statement": "Whenever a conversion of a variant to int, int64, uint, bool or type reports success for an integer-like source, the result is the same mathematical number (or truth value); sources it cannot represent are reported as failures.", "quantifier": "all variants of all types", "why_tests_cant": "64-bit domains with sign boundaries", "anchors": ["src/common/cali_variant.c:cali_variant_to_int", "src/common/cali_variant.c:cali_variant_to_int64", "src/common/cali_variant.c:cali_variant_to_uint", "src/common/cali_variant.c:cali_variant_to_bool"]}
{"id": "C11", "title": "Type and property names round-trip", "statement": "Every attribute type survives conversion to its name and back; every attribute property word built from the documented flags survives conversion to the property string and back; the conversion never writes beyond a buffer that can hold all property names (183 bytes; Caliper uses 256). A list of property names joined by any separator parses to the union of the named flags.", "quantifier": "all types, all property combinations, all buffer lengths", "why_tests_cant": "the number of flag combinations and buffer lengths", "anchors": ["src/common/cali_types.c:cali_type2string", "src/common/cali_types.c:cali_string2type", "src/common/cali_types.c:cali_prop2string", "src/common/cali_types.c:cali_string2prop"]}
{"id": "C12", "title": "The blackboard is a map", "statement": "For every history of set, delete, exchange and get operations on a blackboard, a get returns the value of the last set/exchange of that key that was not deleted since, and empty otherwise; exchange returns the previous value.", "quantifier": "all operation histories over all 64-bit keys within capacity", "why_tests_cant": "open addressing with backward-shift deletion: correctness depends on collision clusters and wrap-around built by the whole history", "anchors": ["src/caliper/Blackboard.cpp:set", "src/caliper/Blackboard.cpp:del", "src/caliper/Blackboard.cpp:exchange", "src/caliper/Blackboard.h:get"]}
{"id": "C13", "title": "Blackboard snapshots contain exactly the visible entries", "statement": "A snapshot of a blackboard contains each visible (non-hidden) entry currently stored exactly once, and no hidden or deleted entry.", "quantifier": "all operation histories with visible and hidden keys", "why_tests_cant": "depends on collision clusters and deletion order", "anchors": ["src/caliper/Blackboard.cpp:snapshot", "src/caliper/Blackboard.cpp:del", "src/caliper/Blackboard.cpp:add"]}
{"id": "C14", "title": "Blackboard overflow is contained", "statement": "A set that does not fit into the blackboard is skipped and counted, leaves all stored entries unchanged, never accesses memory outside the table, and every search terminates; a set of an already stored key is never rejected.", "quantifier": "all operation histories, including those far beyond capacity", "why_tests_cant": "needs the table to be near full with adversarial keys", "anchors": ["src/caliper/Blackboard.cpp:add", "src/caliper/Blackboard.h:find_existing_entry", "src/caliper/Blackboard.h:find_free_slot"]}
{"id": "C15", "title": "Context tree nodes are unique per path", "statement": "Requesting a tree entry for the same attribute, value and parent again after a request for it has returned, on any thread, yields the same node (two simultaneous first requests may create two equal nodes: known limit); different attributes, values or parents yield different nodes with different ids; a node's id, attribute, value and parent never change once created.", "quantifier": "all histories of tree entry requests", "why_tests_cant": "depends on the whole history of insertions", "anchors": ["src/caliper/MetadataTree.cpp:get_child", "src/caliper/MetadataTree.cpp:get_path", "src/caliper/MetadataTree.cpp:create_child"]}
{"id": "C16", "title": "Context path construction and removal", "statement": "Creating a path for a list of attribute/value pairs under a parent yields a node whose path is the parent's path followed by exactly these pairs; removing the innermost entry of an attribute from a path yields a path with exactly that entry removed and all others in order; replacing it keeps the order of the others.", "quantifier": "all paths and attributes", "why_tests_cant": "paths of unbounded length and arbitrary interleavings of attributes", "anchors": ["src/caliper/MetadataTree.cpp:remove_first_in_path", "src/caliper/MetadataTree.cpp:replace_first_in_path", "src/caliper/MetadataTree.cpp:replace_all_in_path", "src/caliper/MetadataTree.cpp:copy_path_without_attribute"]}
{"id": "C17", "title": "Metadata tree memory is never over-run", "statement": "Node creation only ever writes to node slots of blocks that were allocated, assigns each slot once, and when the maximum number of blocks is exhausted reports failure instead of overrunning.", "quantifier": "all creation histories and block-size configurations", "why_tests_cant": "needs block boundaries at history-dependent points", "anchors": ["src/caliper/MetadataTree.cpp:have_free_nodeblock", "src/caliper/MetadataTree.cpp:create_child", "src/caliper/MetadataTree.cpp:create_path"]}
{"id": "C18", "title": "begin/end nesting", "statement": "For any well-nested sequence of begin and end calls of a thread on region (not as-value) attributes, whatever the other threads do with thread-scope attributes in between, the context after an end is the same as before the matching begin, and querying the current context always returns the path of the currently open regions, innermost last.", "quantifier": "all well-nested sequences of begin/end over all attributes and values, of any depth", "why_tests_cant": "unbounded nesting; tree reuse depends on history", "anchors": ["src/caliper/Caliper.cpp:begin", "src/caliper/Caliper.cpp:end", "src/caliper/Caliper.cpp:handle_begin", "src/caliper/Caliper.cpp:handle_end"]}
{"id": "C19", "title": "end closes the innermost open region of its attribute", "statement": "end on an attribute removes exactly the innermost open entry of that attribute and leaves all other open regions and all other attributes unchanged; after it, get on the attribute returns the next-outer value.", "quantifier": "all (also badly nested) begin/end histories", "why_tests_cant": "arbitrary interleavings of attributes", "anchors": ["src/caliper/Caliper.cpp:end", "src/caliper/Caliper.cpp:handle_end", "src/caliper/Caliper.cpp:get"]}
{"id": "C20", "title": "Stack errors are contained", "statement": "An end without open region, or an end whose checked value does not match the open region, is reported once and from then on the thread's nested begin/end updates are stopped: no begin, end or set of that thread changes any context any more and no event callbacks run for it; other threads are unaffected.", "quantifier": "all histories containing mismatches at any position", "why_tests_cant": "the mismatch may be at any point of any history", "anchors": ["src/caliper/Caliper.cpp:end_with_value_check", "src/caliper/Caliper.cpp:log_stack_error", "src/caliper/Caliper.cpp:end"]}
{"id": "C21", "title": "set replaces exactly one value", "statement": "set on an attribute replaces the innermost value of that attribute (or adds it) and leaves every other attribute's value unchanged; a following get returns the set value.", "quantifier": "all context states and attributes", "why_tests_cant": "arbitrary prior context", "anchors": ["src/caliper/Caliper.cpp:set", "src/caliper/Caliper.cpp:handle_set", "src/caliper/Caliper.cpp:get"]}
{"id": "C22", "title": "Thread isolation", "statement": "Operations on thread-scope attributes in one thread never change what any other thread observes through get or in its snapshots, whatever the interleaving; what a thread observes of them depends on its own operations only; a snapshot contains the visible entries of the thread and process contexts and nothing else.", "quantifier": "all interleavings of operations of any number of threads", "why_tests_cant": "schedules cannot be enumerated", "anchors": ["src/caliper/Caliper.cpp:get_blackboard_key", "src/caliper/Caliper.cpp:begin", "src/caliper/Caliper.cpp:pull_snapshot"]}
{"id": "C23", "title": "Snapshots see the current process context", "statement": "A snapshot taken by a thread contains the process-scope entries as they were at some point not earlier than the start of the snapshot call (the per-thread cache is never stale) and never a half-done update, for every interleaving of fewer than 2^31-1 process-scope updates and any number of snapshots (beyond that the update counter wraps: known limit).", "quantifier": "all interleavings of updates and snapshots", "why_tests_cant": "race between the update counter, the lock and the cached copy", "anchors": ["src/caliper/Caliper.cpp:update_process_snapshot", "src/caliper/Blackboard.h:count", "src/caliper/Blackboard.cpp:snapshot"]}
{"id": "C24", "title": "Event callback protocol", "statement": "For each begin, set and end on a thread- or process-scope attribute without the skip-events property, every active channel's pre-event callbacks run exactly once, before the context changes, in channel order; post-begin callbacks run once after the change; no callbacks run for inactive channels or skip-events attributes.", "quantifier": "all histories, attribute properties and channel activation states", "why_tests_cant": "combination of properties, channels and history", "anchors": ["src/caliper/Caliper.cpp:begin", "src/caliper/Caliper.cpp:end", "src/caliper/Caliper.cpp:set"]}
{"id": "C25", "title": "Attribute creation is idempotent", "statement": "As long as the metadata tree has free memory: creating an attribute under an existing name returns the existing attribute; each name has exactly one attribute id, whatever the number of racing threads; the scope and derived properties of a new attribute follow the documented rules.", "quantifier": "all histories and interleavings of create_attribute calls", "why_tests_cant": "race between lookup and insertion", "anchors": ["src/caliper/Caliper.cpp:create_attribute"]}
{"id": "C26", "title": "Text escaping in .cali streams is lossless", "statement": "Writing a string with .cali escaping and reading it back yields the same string, whatever characters it contains, and the escaped text contains no unescaped separator, so neighbouring fields are not affected.", "quantifier": "all byte strings", "why_tests_cant": "all strings; failures need specific bytes at specific positions", "anchors": ["src/common/util/format_util.cpp:write_cali_esc_string", "src/reader/CaliReader.cpp:StreamReader"]}
{"id": "C27", "title": "Written .cali streams are self-contained", "statement": "In every .cali stream, a node record is written at most once, and every record only refers to attributes and parent nodes that are bootstrap nodes or were written earlier in the stream.", "quantifier": "all metadata trees and all sequences of records written", "why_tests_cant": "depends on tree shape and order of records", "anchors": ["src/reader/CaliWriter.cpp:write_node_content", "src/reader/CaliWriter.cpp:recursive_write_node", "src/reader/CaliWriter.cpp:write_snapshot"]}
{"id": "C28", "title": "A snapshot record survives writing and reading", "statement": "A snapshot record written as a .cali ctx line and read back yields the same references in order and the same attribute/value pairs.", "quantifier": "all records", "why_tests_cant": "all strings, record shapes", "anchors": ["src/reader/CaliWriter.cpp:write_record_content", "src/reader/CaliReader.cpp:read_snapshot"]}
{"id": "C29", "title": "Merging metadata preserves meaning", "statement": "When streams are read into a metadata database with per-stream id maps, each node id of a stream is mapped to a node with the same path of attribute names and values; equal paths from different streams map to the same node; earlier mappings are never changed.", "quantifier": "all streams, all id assignments, any number of merged streams", "why_tests_cant": "arbitrary id collisions between streams", "anchors": ["src/reader/CaliperMetadataDB.cpp:merge_node", "src/reader/CaliperMetadataDB.cpp:merge_snapshot", "src/reader/CaliperMetadataDB.cpp:make_string_variant"]}
{"id": "C30", "title": "Aggregation conserves sums and counts", "statement": "The sum over all output records of an aggregated sum (or count) equals the sum (count) over all input records that carry the attribute; no input record is lost or counted twice.", "quantifier": "all record multisets and aggregation keys", "why_tests_cant": "hash collisions, key shapes, record order", "anchors": ["src/reader/Aggregator.cpp:process", "src/reader/Aggregator.cpp:get_aggregation_entry", "src/reader/Aggregator.cpp:SumKernel"]}
{"id": "C31", "title": "Aggregation groups by key", "statement": "Two input records end up in the same output record if and only if they agree on the aggregation key, and the output contains exactly one record per occurring key.", "quantifier": "all record sequences and keys, including hash collisions", "why_tests_cant": "hash chains built by the whole input", "anchors": ["src/reader/Aggregator.cpp:get_aggregation_entry", "src/reader/Aggregator.cpp:process"]}
{"id": "C32", "title": "Aggregation is order independent and mergeable", "statement": "The aggregated count, sum, min, max and average per key do not depend on the order of input records, and merging the kernels of partial aggregations over any split of the input gives the result of aggregating the whole input (cross-process aggregation).", "quantifier": "all permutations and all splits of all inputs", "why_tests_cant": "factorially many orders", "anchors": ["src/reader/Aggregator.cpp:parent_aggregate", "src/reader/Aggregator.cpp:append_result", "src/reader/Aggregator.cpp:aggregate"]}
{"id": "C33", "title": "Inclusive metrics", "statement": "The inclusive sum reported for a region path equals the sum of the exclusive values of this path and all paths below it.", "quantifier": "all record sets over all path trees", "why_tests_cant": "unbounded path trees", "anchors": ["src/reader/Aggregator.cpp:InclusiveSumKernel", "src/reader/Aggregator.cpp:process"]}
{"id": "C34", "title": "WHERE filters select exactly the matching records", "statement": "A record passes a filter list if and only if it satisfies every condition; exists/not-exists and equal/not-equal are complementary; ordering conditions hold for exactly the records that carry an attribute value in the given relation.", "quantifier": "all records, all conditions", "why_tests_cant": "record shapes and values are unbounded", "anchors": ["src/reader/RecordSelector.cpp:pass", "src/reader/RecordSelector.cpp:have_match"]}
{"id": "C35", "title": "LET preprocessing only adds the target attribute", "statement": "A LET operator never removes or changes existing entries of a record; it adds at most one entry for its target attribute, with the value defined by the operator, exactly when its inputs exist and its condition holds.", "quantifier": "all records and operator definitions", "why_tests_cant": "record shapes are unbounded", "anchors": ["src/reader/Preprocessor.cpp:process"]}
{"id": "C36", "title": "Word parsing inverts quoting", "statement": "Reading a word that was quoted with escaped quotes and backslashes yields the original text, and reading stops exactly at the following delimiter.", "quantifier": "all strings and delimiters", "why_tests_cant": "all strings", "anchors": ["src/common/util/parse_util.cpp:read_word"]}
{"id": "C37", "title": "Runtime aggregation conserves data", "statement": "For each aggregation key, the runtime aggregation database reports count equal to the number of processed snapshots with this key and sum/min/max of the metric values in them; snapshots that do not fit are accounted in the skipped record.", "quantifier": "all snapshot histories, keys and key lengths", "why_tests_cant": "hash collisions, key truncation, attribute creation during the run", "anchors": ["src/services/aggregate/AggregationDB.cpp:process_snapshot", "src/services/aggregate/AggregationDB.cpp:find_or_create_entry", "src/services/aggregate/AggregationDB.h"]}
{"id": "C38", "title": "Clearing the aggregation database", "statement": "After clear, the aggregation database behaves like a newly created one: it holds no data of earlier snapshots and later snapshots are aggregated from zero under the right key.", "quantifier": "all histories before and after clear", "why_tests_cant": "depends on history around clear", "anchors": ["src/services/aggregate/AggregationDB.cpp:clear"]}
{"id": "C39", "title": "Region filters", "statement": "A region passes a filter if and only if it matches no exclude pattern and, when include patterns are given, at least one include pattern.", "quantifier": "all filters and region names", "why_tests_cant": "all strings", "anchors": ["src/caliper/RegionFilter.h:pass", "src/caliper/RegionFilter.cpp:match"]}
{"id": "C40", "title": "Configuration precedence", "statement": "The value of a runtime configuration variable is the programmatically set value if any, else the environment value if reading the environment is allowed and it is set, else the profile value, else the default; unrelated variables never influence it.", "quantifier": "all combinations of profiles, environment and API calls", "why_tests_cant": "all combinations", "anchors": ["src/common/RuntimeConfig.cpp:init", "src/common/RuntimeConfig.cpp:init_config_database"]}
{"id": "C41", "title": "Allocation tracking finds the right allocation", "statement": "The allocation tracker's tree keeps its search order under every sequence of insertions and removals, never loses an element, and a lookup finds the element iff one matching the predicate is stored.", "quantifier": "all operation histories", "why_tests_cant": "self-adjusting tree shape depends on the whole history", "anchors": ["src/services/alloc/SplayTree.hpp"]}
{"id": "C42", "title": "Memory pool allocations are disjoint", "statement": "Blocks handed out by a memory pool never overlap, lie inside memory owned by the pool, and are aligned, across any sequence of allocations and pool merges (for alignments up to that of operator new and sizes below 2^62).", "quantifier": "all allocation histories and sizes", "why_tests_cant": "chunk boundaries depend on history", "anchors": ["src/caliper/MemoryPool.cpp:allocate", "src/caliper/MemoryPool.cpp:expand", "src/caliper/MemoryPool.cpp:merge"]}
{"id": "C43", "title": "Lock-free child insertion loses no node", "statement": "When any number of threads append children to the same tree node concurrently, then for every interleaving each appended child is in the child list exactly once after all appends complete, and readers at any time see a well-formed list containing every append that completed before.", "quantifier": "all schedules of any number of threads", "why_tests_cant": "schedules cannot be enumerated", "anchors": ["include/caliper/common/util/lockfree-tree.hpp:append"]}
{"id": "C44", "title": "Timer durations", "statement": "The snapshot durations recorded by the timer on a thread add up to the time between its first and last snapshot; for well-nested begin/end events the inclusive duration recorded at an end event is the time since the matching begin event.", "quantifier": "all event histories and clock values", "why_tests_cant": "all histories", "anchors": ["src/services/timer/Timer.cpp:snapshot_cb"]}
{"id": "C45", "title": "Snapshot records respect their capacity", "statement": "A snapshot builder never stores more entries than its capacity, keeps entries in append order, and counts exactly the entries it dropped.", "quantifier": "all append/remove histories", "why_tests_cant": "all histories", "anchors": ["include/caliper/SnapshotRecord.h:SnapshotBuilder"]}
{"id": "C46", "title": "Variant arithmetic", "statement": "Adding, taking the minimum or maximum of two variants and dividing by a count compute the corresponding operation on the values, in the type of the left operand (an empty left operand takes the right one); accumulating values of one numeric type one by one yields their minimum, maximum and sum.", "quantifier": "all variants of all types; all value sequences", "why_tests_cant": "64-bit and floating point operands cannot be enumerated", "anchors": ["src/common/Variant.cpp:operator+=", "src/common/Variant.cpp:min", "src/common/Variant.cpp:max", "src/common/Variant.cpp:div", "src/common/Variant.cpp:update_minmaxsum"]}
{"id": "C47", "title": "Structured configuration texts", "statement": "The text of a list or dictionary, built from quoted words and nested lists and dictionaries with any white space, is parsed into exactly its elements or key/value pairs: words unquoted, nested elements as their text.", "quantifier": "all words, all nestings, all white space", "why_tests_cant": "texts nest without bound and words contain any character", "anchors": ["src/common/StringConverter.cpp:rec_list", "src/common/StringConverter.cpp:rec_dict", "src/common/util/parse_util.cpp:read_nested_text"]}
{"id": "C48", "title": "Allocation tracking", "statement": "An address is attributed to the live tracked allocation that contains it, with its element index, and to none otherwise (allocations not overlapping); untracking removes exactly the allocation that starts at the given address and fails iff there is none; the active memory is the total size of the live allocations; high-water marks are the largest values of the active memory.", "quantifier": "all sequences and interleavings of tracking, untracking, lookups and reports from any number of threads", "why_tests_cant": "the lookup tree's shape depends on the whole history; interleavings of critical sections", "anchors": ["src/services/alloc/AllocService.cpp:track_mem_cb", "src/services/alloc/AllocService.cpp:untrack_mem_cb", "src/services/alloc/AllocService.cpp:resolve_addresses", "src/services/alloc/AllocService.cpp:record_highwatermark"]}
{"id": "C49", "title": "Event snapshots follow the region nesting and the configured filters", "statement": "With the event service active in a channel, the snapshots taken are exactly determined by the annotation events: an attribute triggers iff it is not built in, not marked skip_events, is one of the configured trigger names (if any are given), has at least the configured region level, and is not an un-subscribed subscription attribute - regardless of whether it is created before or after the service. In a well-nested execution (strings stay unchanged while their region is open, set values do not themselves match the branch filter) a begin event takes a snapshot iff its string value passes the region filter and, when a branch filter is set, it is or is inside of a region that passes the filters; the matching end takes a snapshot iff its begin did, set events likewise, and the branch filter is closed again when the region ends. There are as many begin as end snapshots for each attribute. The snapshot record holds the context values plus event.begin#/set#/end#attribute=value, and region.count=1 for ends.", "quantifier": "all configurations (names, levels, region and branch filters), all attribute sets and orders of creation and subscription, all well-nested executions of any depth and length, all values and types, all contexts that fit into a snapshot record", "why_tests_cant": "the branch filter is a stack machine over the whole event history; a test sees single nestings, the claim covers every forest of regions, sets and filters", "anchors": ["src/services/event/EventTrigger.cpp: check_attribute, find_marker, pre_begin_cb, pre_set_cb, pre_end_cb, event_trigger_register", "src/caliper/Caliper.cpp: push_snapshot, push_snapshot_replace", "src/caliper/RegionFilter.h: pass"]}
{"id": "C50", "title": "Region profiles attribute every metric value to the right regions", "statement": "For every sequence of records, a region profile's total is the sum of the metric over all records that have it. In the nested exclusive profile the path of a region is mapped to the sum over exactly the records whose innermost level is that region path; in the nested inclusive profile to the sum over exactly the records inside that path or one of its subregions, each record once; in the flat profiles the same by region name (for the inclusive one: when a record is not inside two regions of the same name). No other keys appear and the region total is over the records inside some region.", "quantifier": "every record sequence, context tree, metric and region attribute with non-empty slash-free region names", "why_tests_cant": "depends on all trees, record orders and attribute mixes; sums are floating point sums in record order", "anchors": ["src/reader/NestedExclusiveRegionProfile.cpp", "src/reader/NestedInclusiveRegionProfile.cpp", "src/reader/FlatExclusiveRegionProfile.cpp", "src/reader/FlatInclusiveRegionProfile.cpp"]}
{"id": "C51", "title": "Cross-process aggregation neither hangs nor loses nor duplicates a rank's data", "statement": "When all ranks of a communicator call the cross-process aggregation (aggregate_over_mpi, used by mpireport, collective_flush and mpi-caliquery) every execution finishes: no deadlock even if MPI never buffers a message, a bounded number of MPI calls, no message left unreceived. The state of every rank at the end does not depend on message timing. Rank 0 then holds the combination of the input of every rank, each exactly once and in rank order, provided merging the packed data of one rank into another combines their inputs. Every other rank sends its data exactly once, after having received everything it merges. The metadata nodes sent can be added by the receiver in the order sent: whatever a node refers to comes before it, nothing is sent twice, and the node of every record entry is included.", "quantifier": "all communicator sizes, all interleavings of the ranks and all choices of MPI to buffer or to wait, all local data and databases", "why_tests_cant": "the schedules of message passing programs cannot be enumerated, and runs on a few sizes on a laptop with eager sends hide deadlocks", "anchors": ["src/caliper/aggregate_over_mpi.cpp: aggregate_over_mpi, pack_and_send, receive_and_merge, recursive_append_path", "src/caliper/collective_flush.cpp"]}
{"id": "C52", "title": "C++ annotation objects close what they open", "statement": "The runtime calls made by code that is annotated with ScopeAnnotation, Function, Loop, Loop::Iteration and Annotation::Guard objects are properly nested however control leaves the blocks that contain them (end of block, return, break, exception, conditionals, loops), objects are closed in reverse order of declaration, so the thread's context is unchanged afterwards and no call is an error. Copies of a Loop share one implementation object that is freed exactly once, when the last copy is gone and no call uses it. An Annotation's first value fixes the type and exactly values of that type are recorded.", "quantifier": "all programs built from such objects, all paths through them, all other threads' calls, all schedules of handle operations", "why_tests_cant": "Tests run a few paths through a few functions; leaving nested scopes early and concurrent use of shared handles have unboundedly many cases.", "anchors": ["src/caliper/Annotation.cpp: Function, ScopeAnnotation, Loop, Loop::Iteration, Annotation::Impl, Annotation::Guard", "include/caliper/Annotation.h"]}
{"id": "C53", "title": "Table output shows every selected record exactly once, aligned and sorted", "statement": "Feeding any list of snapshot records to the table formatter and flushing it prints a header line and then exactly one line per record that has a value in at least one displayed column (records without one are left out, never merged or duplicated). Every displayed cell is the printed form of the record's value for that column's attribute, region values of one attribute joined from outermost to innermost with slashes. This holds also when several threads add records at the same time. The columns are exactly the SELECTed attributes in SELECT order, or, without SELECT, the visible attributes met in the records, each once. All lines have each column at the same offset; a cell is shortened only when it exceeds the maximum column width. ORDER BY sorts the rows by the given attributes and directions, keeping input order among rows that compare equal.", "quantifier": "every metadata database, list of records, number of threads and interleaving of their steps, SELECT list, ORDER BY list, alias table and width limit (sorting: for keys whose printed form parses back)", "why_tests_cant": "The column set, widths and order depend on all records ever seen; a test tries a few tables only.", "anchors": ["src/reader/TableFormatter.cpp: TableFormatter::TableImpl::add, update_columns, flush, print_column_string", "src/common/util/format_util.cpp: pad_left, pad_right, clamp_string", "doc/sphinx/calql.rst: ORDER BY, FORMAT table"]}
{"id": "C54", "title": "Tree output shows every region path once, below its parent, with all of its records", "statement": "Feeding any list of snapshot records to the tree formatter and flushing it prints a header and then, for every non-empty prefix of a record's region path, exactly one entry, and nothing else. An entry is indented by its depth, and the nearest entry above it with smaller indentation is its parent. It shows the values of exactly the records with that path, in columns that have the same offset in all lines and with texts cut only at the column-width limit. The columns are the SELECTed attributes, or all visible ones found. With ORDER BY, siblings are printed in the order of the largest (DESC) or smallest (ASC) value in their subtrees, and the records of one entry in the order of their values.", "quantifier": "every metadata database, list of records, path attribute list, SELECT and ORDER BY list and width limit", "why_tests_cant": "The tree, column widths and order depend on all records; a test tries a few trees only.", "anchors": ["src/reader/SnapshotTree.cpp: SnapshotTree::add_snapshot, SnapshotTreeNode::min_val, max_val, sort", "src/reader/TreeFormatter.cpp: TreeFormatterImpl::add, recursive_print_nodes, get_sorted_child_nodes, flush"]}
{"id": "C55", "title": "JSON output can be read back and holds exactly the records", "statement": "For any list of snapshot records, the output of the JSON formatter is one well-formed JSON text: an array with one object per record that has something to show (records layout), or an object with that array, the globals and the attributes (object layout). An object has one member per displayed key: region values from outermost to innermost joined with slashes, single values as they are, numbers and truth values unquoted; nothing is missing, added or duplicated, and pretty printing does not change it. Reading a number back gives the recorded integer, reading a string back gives the recorded text if it consists of printable ASCII characters and newlines.", "quantifier": "every metadata database, list of records and globals, SELECT list, alias table and option (records, object, pretty, quote-all, separate-nested), with unquoted values that are integers, truth values or finite doubles, and attribute names without quotes, backslashes and non-ASCII characters in the object layout", "why_tests_cant": "Escaping and separators must be right for every text and number of records; a test reads a few outputs.", "anchors": ["src/reader/JsonFormatter.cpp: JsonFormatterImpl::print, get_key, flush, write_globals, write_attributes", "src/common/util/format_util.h: write_json_esc_string", "src/common/Variant.cpp: Variant::to_string"]}
{"id": "C56", "title": "json-split output can be read back: rows, columns and the node table", "statement": "For any list of snapshot records, json-split output is one well-formed JSON object with one row per record in input order and one cell per column. A cell of a region column is null exactly if the record has no region of that column, otherwise it is the index of an entry of the node table from which following the parent links yields exactly the record's region names from innermost to outermost; equal paths have the same index and different paths different ones. Cells of other columns hold the record's value or null. The columns are the selected attributes, with all nested ones combined in one path column; globals follow as members of the object.", "quantifier": "every metadata database, list of records and globals, SELECT list and alias table, with numeric attributes whose values have number texts, fewer than 2^64 path elements, and region columns that are not metadata attributes of the recorded values", "why_tests_cant": "The node table is built incrementally over all records; a test reads a few outputs.", "anchors": ["src/reader/JsonSplitFormatter.cpp: Hierarchy::get_id, HierarchyNode::write_json, write_hierarchy_entry, write_immediate_entry, init_columns, write_metadata, flush"]}
{"id": "C57", "title": "CalQL text means the query it spells", "statement": "Parsing a CalQL query text whose tokens (white space, quoting and keyword case do not matter) spell a sequence of well-formed AGGREGATE, FORMAT, GROUP BY, SELECT, ORDER BY, WHERE and LET clauses succeeds and yields exactly that query: the listed aggregation operators with their arguments in order, the selected columns with their aliases and units, grouping keys, filter conditions (negation applied), sort directions, LET definitions and formatter arguments. An unknown clause, a missing BY, an aggregation that is unknown or has a wrong number of arguments, an unknown formatter and a LET target defined twice are reported as errors.", "quantifier": "all query texts over all clause sequences, all spellings, all argument lists", "why_tests_cant": "The set of texts is infinite; tests fix a handful of spellings and never show that white space, quoting, case and clause order are irrelevant for all queries.", "anchors": ["src/reader/CalQLParser.cpp:CalQLParserImpl", "src/reader/QuerySpec.cpp:operator<<", "include/caliper/reader/QuerySpec.h:QuerySpec", "src/common/util/parse_util.cpp:read_word"]}
{"id": "C58", "title": "The options of a configuration take effect", "statement": "For a config and its argument list: an option is enabled exactly when some argument switches it on (any value for non-boolean options, a yes value for boolean ones) or switches on an option that inherits it directly or indirectly; enabled options are listed once, in argument order; get() returns the first value given. The channel's services are the given ones plus those of all enabled options, each once; each configuration variable gets the value of the last enabled option that sets it, with {} replaced by the option's argument; the queries of enabled options are appended in order; check() reports exactly the non-boolean values of boolean options and the services that are not available; option values are recorded as opts:<name> metadata.", "quantifier": "all option specifications, argument lists, inheritance graphs", "why_tests_cant": "Inheritance graphs and argument combinations are unbounded; tests use the built-in specs only.", "anchors": ["src/caliper/ConfigManager.cpp:ConfigManager::Options::OptionsImpl", "src/caliper/ConfigManager.cpp:expand_variables", "src/caliper/ConfigManager.cpp:make_basic_channel_controller"]}
{"id": "C59", "title": "Explicit arguments come before defaults", "statement": "The value of an option in a config is the one given explicitly for it; otherwise the value of the first set_default_parameter_for_config call for this config and option, else of the first set_default_parameter call for the option, else the default in the config's specification. A default never switches on an option for which there is an explicit argument; explicit arguments keep their order; metadata arguments accumulate.", "quantifier": "all histories of default-setting calls, all argument lists and specs", "why_tests_cant": "Tests check single overrides, not every combination of the four sources.", "anchors": ["src/caliper/ConfigManager.cpp:merge_new_elements", "src/caliper/ConfigManager.cpp:ConfigManagerImpl::add_default_parameters", "src/caliper/ConfigManager.cpp:ConfigManager::set_default_parameter"]}
{"id": "C60", "title": "Config strings are read as documented", "statement": "A config string made of comma-separated items - config, config(option, option=value, option(text), ...), parameter, parameter=value, parameter(text), load(file, ...) - with white space anywhere and words quoted or escaped in any way, yields the configs in order, each with its arguments in order (true for an argument without a value), adds parameters that name an option to the defaults, reports the others as extra variables, and loads the files in order before the items that follow. An option the config does not have, an argument list that is not closed, a parameter with = but no value, a file that cannot be loaded and any other text after an item are errors, whatever follows.", "quantifier": "all config strings, all spellings of their words, all sets of specs", "why_tests_cant": "Infinitely many texts; tests cover a few spellings.", "anchors": ["src/caliper/ConfigManager.cpp:ConfigManagerImpl::parse_configstring", "src/caliper/ConfigManager.cpp:ConfigManagerImpl::parse_arglist", "src/caliper/ConfigManager.cpp:ConfigManagerImpl::read_value", "src/caliper/ConfigManager.cpp:ConfigManagerImpl::handle_load_command"]}
{"id": "C61", "title": "ConfigManager::add is all or nothing, and check() tells beforehand", "statement": "check(text) reports an error exactly when add(text) would fail (and check(text, true) exactly when add(text, extra) would). A successful add appends one channel per config, in order, each with the config's options; a text with an error adds no channel; after an error every later add fails and adds nothing. get_channel(name) returns the first channel of that name.", "quantifier": "all manager states, all texts", "why_tests_cant": "Compares two code paths on every input and state.", "anchors": ["src/caliper/ConfigManager.cpp:ConfigManager::add", "src/caliper/ConfigManager.cpp:ConfigManager::check", "src/caliper/ConfigManager.cpp:ConfigManagerImpl::parse", "src/caliper/ConfigManager.cpp:ConfigManager::get_channel"]}
{"id": "C62", "title": "Config and option specifications are read as written", "statement": "Adding a JSON option specification defines each option with exactly the type, category, services, inherited options, configuration and queries it describes, a later one of the same name replacing the earlier. Adding a JSON config specification whose services are available defines the config under its name and all its aliases with the described categories, options, defaults, initial configuration and services, and changes nothing else; one with an unavailable service is left out; a second spec of the same name or one without a name is an error.", "quantifier": "all specification texts: any order of keys, any white space, any values", "why_tests_cant": "Infinitely many JSON texts.", "anchors": ["src/caliper/ConfigManager.cpp:OptionSpec::parse_spec", "src/caliper/ConfigManager.cpp:ConfigManagerImpl::add_config_spec", "src/caliper/ConfigManager.cpp:ConfigManagerImpl::add_global_option_specs", "src/common/StringConverter.cpp:rec_dict"]}
{"id": "C63", "title": "Channels are created, activated, flushed and closed as requested", "statement": "Channel ids are never reused. A channel exists from its creation until it is deleted or Caliper is finalized, and find/list/is_active calls report exactly that; using the id of a channel that does not exist with delete/activate/deactivate reports an error and changes nothing. For every channel the services see: post-init once, then any number of callbacks, then pre-finish and finish once, and nothing afterwards. Finalization writes the output of every channel created with flush-on-exit and closes every channel in creation order. Every thread is announced to all existing channels exactly once, before its first event, and its exit is announced to all existing channels. Annotation callbacks and pushed snapshots go to exactly the active channels; a flush acts on the named channel only.", "quantifier": "every sequence of calls by any number of threads (each call atomic), every number of channels", "why_tests_cant": "Quantifies over all call histories, any number of channels and threads, and all finalization points.", "anchors": ["src/caliper/Caliper.cpp:Caliper::create_channel", "src/caliper/Caliper.cpp:Caliper::delete_channel", "src/caliper/Caliper.cpp:Caliper::activate_channel", "src/caliper/Caliper.cpp:Caliper::finalize", "src/caliper/Caliper.cpp:Caliper::GlobalData", "src/caliper/Caliper.cpp:Caliper::instance", "src/caliper/cali.cpp:cali_channel_flush", "src/caliper/cali.cpp:cali_channel_is_active"]}
{"id": "C64", "title": "Per-channel annotations are separate from everything else", "statement": "begin/end/set/get on a channel behave like the nested-region and current-value semantics on a context that belongs to this channel alone: calls for other channels, threads or the process do not change it, and it does not change theirs; end reports an error exactly if the attribute has no open region on that channel; the callbacks of such a call reach this channel and no other, and only while it is active.", "quantifier": "every sequence of calls by any number of threads, every number of channels and attributes", "why_tests_cant": "Quantifies over all interleavings of calls on different channels.", "anchors": ["src/caliper/Caliper.cpp:Caliper::begin", "src/caliper/Caliper.cpp:Caliper::end", "src/caliper/Caliper.cpp:Caliper::set", "src/caliper/Caliper.cpp:Caliper::get", "include/caliper/Caliper.h:ChannelBody"]}
{"id": "C65", "title": "Flush records and globals report the current process and channel context", "statement": "The record that accompanies a flush holds exactly the current values and open regions of the process context, of the calling thread and of the flushed channel. get_globals reports exactly the values of the attributes with the global property that are current in the process context or in the channel's context, in the order they were opened.", "quantifier": "every call history, every set of global attributes", "why_tests_cant": "All histories and all sets of attributes.", "anchors": ["src/caliper/Caliper.cpp:Caliper::flush_and_write", "src/caliper/Caliper.cpp:Caliper::get_globals", "src/caliper/Caliper.cpp:get_globals_from_blackboard"]}
{"id": "C66", "title": "The validator reports exactly the nesting errors", "statement": "With the validator service, 'nesting errors found' is reported at the end exactly if for some thread, or for the process, the begin/end events are not properly nested: an end does not close the innermost open nested region, ends a value other than the current one, or regions remain open. The messages name the offending end with the region that should have been closed, and the regions left open.", "quantifier": "every sequence of begin/end events by any number of threads, attributes and values", "why_tests_cant": "All event sequences.", "anchors": ["src/services/validator/validator.cpp:ValidatorService", "src/services/validator/validator.cpp:StackValidator::check_begin", "src/services/validator/validator.cpp:StackValidator::check_end", "src/services/validator/validator.cpp:StackValidator::check_final"]}
{"id": "C67", "title": "The loop monitor accounts for every iteration", "statement": "For each execution of a target loop the loop_monitor service writes one snapshot on entry, then snapshots that partition the iterations of this loop in order, each with the number of iterations it covers and the number of its first iteration: one after every iteration_interval iterations and one at the loop's end for the rest. Iterations of inner loops, of loops that are not targets and outside of loops are not counted.", "quantifier": "every program of nested loops and iterations, every iteration interval, every timing", "why_tests_cant": "Any nesting and number of iterations, any timing.", "anchors": ["src/services/monitor/LoopMonitor.cpp:LoopMonitor"]}
{"id": "C68", "title": "Concurrent recording, flush, clear and thread exit", "statement": "While threads record snapshots into their own trace or aggregation buffers, another thread may flush or clear the channel and threads may exit. As long as flushes and clears do not overlap (the trace service enforces that with a lock): no deleted buffer is ever accessed or deleted again; a flush writes, for every thread, exactly the records saved and not cleared before it began, each once and in order, possibly followed by records saved while it ran; a clear empties every buffer that held records when it began and deletes the buffers of all threads that had exited by then, each buffer once and only after its thread has exited; a record is dropped only while a flush or clear is in progress. Always: every record a thread hands over is either saved or counted as dropped, in order.", "quantifier": "every interleaving (schedule) of the steps of any number of threads that create buffers, record, flush, clear and exit, with and without the flush lock", "why_tests_cant": "The claims are about all interleavings of the shared-memory steps of any number of threads; tests see a handful of schedules and cannot force a thread exit between two particular loads.", "anchors": ["src/services/trace/Trace.cpp: Trace::acquire_tbuf, process_snapshot_cb, flush_cb, clear_cb, release_thread_cb, TraceBuffer::unlink", "src/services/aggregate/Aggregate.cpp: Aggregate::acquire_tdb, process_snapshot_cb, flush_cb, clear_cb, release_thread_cb, ThreadDB::unlink"]}
{"id": "C69", "title": "A region time profile accounts for every nanosecond of a thread, under the regions that were open", "statement": "For every program that annotates regions with begin, end and set from any number of threads, a channel running the event, timer and aggregate services handles every call, and after any number of calls, flushing gives for each thread that used regions without errors exactly one record per region path the thread was at. A record's total, minimum and maximum duration are those of the stretches between consecutive region calls that the thread spent with exactly that path open, its count is the number of those stretches, and its region count the number of times the path was closed. The totals of all records add up to the time of the thread's last region call since the channel was created, whatever other threads did.", "quantifier": "all earlier histories of the library, all programs and interleavings of threads, all clock readings that do not run backwards in one thread, all flush points, all nesting shapes and region values", "why_tests_cant": "A test checks one program with one timing; lost, doubled or misattributed time only shows up for particular interleavings, repeated paths and clock values, and the claim spans four cooperating components.", "anchors": ["src/caliper/Caliper.cpp:push_snapshot,begin,end,set", "src/services/event/EventTrigger.cpp:pre_begin_cb,pre_set_cb,pre_end_cb", "src/services/timer/Timer.cpp:snapshot_cb", "src/services/aggregate/Aggregate.cpp:process_snapshot_cb", "src/services/aggregate/AggregationDB.cpp:process_snapshot,flush"]}
{"id": "C70", "title": "Format strings print literals and attribute values exactly as written, and name different output files for different values", "statement": "For every format string made of literal text and %attribute% fields, with or without a width, query output with FORMAT format() is the title followed by one line per record consisting of the literal text and, for each field, the value of the attribute in the record (all values of a nested attribute from the outermost in, separated by slashes), filled up with blanks to the width; output file names are formed in the same way with numbers right-aligned. Two processes whose records differ in the value of the attribute of a file name template get different output files.", "quantifier": "all templates (any number and order of literals and fields, names and widths), all records, attribute databases and sequences of prints", "why_tests_cant": "Tests print a few templates; parsing and formatting mistakes depend on where brackets, percent signs, empty parts and widths occur, and overwriting another process' file shows only in large runs.", "anchors": ["src/common/SnapshotTextFormatter.cpp:parse,print", "src/reader/UserFormatter.cpp:parse,print", "src/common/OutputStream.cpp:set_filename", "src/common/util/split.hpp:split,tokenize"]}
{"id": "C71", "title": "Command lines of the tools are understood as documented", "statement": "For every option table and every command line made of long options (with the value after '=' or as the next word), groups of short options the last of which may have a value, and other words, possibly followed by -- and arbitrary words, parsing accepts the whole line; every option has the value given at its first occurrence and the default otherwise, exactly the options given are reported as set, and all other words are returned as arguments in order. An unknown option stops parsing and its position is returned.", "quantifier": "all option tables with distinct names, all sequences of words, all values including ones that look like options", "why_tests_cant": "Tests try a few command lines; mistakes depend on combinations of grouped options, values, positions and option-like values.", "anchors": ["src/tools/util/Args.cpp:ArgsImpl::parse,get,is_set,options"]}
{"id": "C72", "title": "One .cali writer shared by threads: for every interleaving the file stays readable, complete and in order", "statement": "When several threads write records through one CaliWriter (a library class that locks its own state for this purpose) while the metadata database keeps growing, then for every interleaving: each line refers only to nodes defined by earlier lines; node lines are true and equal lines for equal ids; every thread's records are in the file unchanged, in the order of its calls, at the latest when the call returns; no thread writes a node twice; a call returns after a bounded number of its own steps whatever the others do; a single thread produces exactly the sequential writer's file; and reading the file back gives every record with the same contents. A node is NOT written exactly once: two threads can both write it.", "quantifier": "all numbers of threads, all sequences of calls, all interleavings of the critical sections, all growth histories of the database", "why_tests_cant": "tests see a few schedules of a few threads; the window between the check of the set of written nodes and the insert is small", "anchors": ["src/reader/CaliWriter.cpp:CaliWriterImpl::recursive_write_node", "src/reader/CaliWriter.cpp:CaliWriterImpl::write_entrylist", "src/reader/FormatProcessor.cpp:CaliFormatter", "src/reader/CaliReader.cpp"]}
{"id": "C73", "title": "The region monitor measures the dominant regions, one at a time", "statement": "In a program with properly nested regions the region_monitor service takes one snapshot at the end of each region instance that it selects when it begins, after resetting the timers at its begin, so the snapshot covers exactly this instance. Selected are the instances, not inside another selected one, of regions whose last instance longer than time_interval took more than twice the time accumulated in instances of their child regions longer than time_interval. Regions that were never seen to run longer than time_interval are not measured.", "quantifier": "every properly nested program of regions, every timing and interval", "why_tests_cant": "Any nesting, any history of durations.", "anchors": ["src/services/monitor/RegionMonitor.cpp:RegionMonitor"]}
{"id": "C74", "title": "Query options of the command line mean what they say", "statement": "cali-query's options without or on top of a CalQL query give the query they describe: --select replaces the filter conditions by the listed ones ([-]attribute[=value]), --print-attributes adds output columns, --aggregate adds the listed aggregation calls (with --aggregate-key adding key attributes, 'path' standing for the region hierarchy and 'none' for no key), --sort-by adds ascending sort attributes, and a formatter option selects that formatter with the options named like its arguments. Options that are not given change nothing, and no combination of valid options is rejected.", "quantifier": "every command line, every combination of options and query, every spelling of the option values", "why_tests_cant": "All combinations of options and texts.", "anchors": ["src/tools/cali-query/query_common.cpp:QueryArgsParser::parse_args", "src/reader/RecordSelector.cpp:RecordSelector::parse"]}
{"id": "C75", "title": "Allocation statistics are exact under concurrency", "statement": "With the allocstats service, any number of threads allocate and free memory inside regions. Every snapshot's alloc.region.highwatermark is exactly the largest amount of tracked memory that was in use at any time since the previous snapshot (in the order in which the updates of the total took place). A flush writes exactly one record for each region with allocations, with the exact number of allocations, largest and average allocation size, and the peak of the memory allocated in that region. Each thread's operations enter the statistics in program order; when no operation is going on, the total and the amount per region equal the memory that is allocated. No counter becomes negative or exceeds the sum of all allocation sizes.", "quantifier": "all numbers of threads, all interleavings of the three locked sections of the callbacks, all sequences of allocations, frees, snapshots and flushes in which the allocator hands out an address only when it is free and no operation on it is going on", "why_tests_cant": "the three sections of one callback run under different locks; the values depend on how the sections of different threads interleave", "anchors": ["src/services/alloc/AllocStatsService.cpp: track_mem_cb, untrack_mem_cb, snapshot_cb, flush_cb"]}
{"id": "C76", "title": "A query over files reports exactly what was written to them", "statement": "Run a query (WHERE conditions, GROUP BY keys, aggregation operators) over any number of .cali files as cali-query does: one reader after the other into one database, every record filtered and aggregated as it arrives, the result flushed at the end. If the files were written by Caliper's writer, agree on the meaning of their attributes, and do not use the names of the query's result attributes, then nothing is reported as an error, and the result is the query evaluated over the written records themselves, in terms of attribute names, values and region paths: there is one output row per combination of grouped values among the passing records (plus enclosing regions reached by inclusive operators), no two rows for the same combination, the row shows exactly that combination, sums, minima, maxima and counts in it are those of the values written in that group, sums and counts of all rows add up to the totals over all passing records, and none of it depends on the ids used in the files, the order in which the files assign them, or how the records are distributed over the files. Without aggregation, the passing records come out as written, in order.", "quantifier": "all lists of files with agreeing attributes, all records, all WHERE conditions, GROUP BY keys and operators, all id assignments", "why_tests_cant": "the interplay of writer, reader, id merging, filter, aggregation tree and attribute creation must be right for every set of files", "anchors": ["src/reader/CaliReader.cpp:CaliReader::read", "src/reader/QueryProcessor.cpp:QueryProcessor::process_record", "src/reader/Aggregator.cpp:Aggregator::add", "src/reader/RecordSelector.cpp:RecordSelector::pass", "src/tools/cali-query/cali-query.cpp:main", "src/reader/CaliperMetadataDB.cpp:CaliperMetadataDB::merge_node"]}
{"id": "C77", "title": "Annotation bindings show the tool the program's regions", "statement": "With an annotation binding (nvtx, roctx, vtune and similar services) in an active channel, the ranges the tool has open for a thread are at every moment exactly the thread's open regions of bound attributes that pass the binding's include/exclude filter, in the same order: every region gives one on_begin and one on_end call with its attribute and value, every on_end closes the innermost open range, and nothing else is reported, whatever other threads do and even if the program makes nesting errors. Exactly the selected attributes are bound: nested attributes by default, otherwise the attributes named in trigger_attributes, never attributes without events.", "quantifier": "all programs of begin/end/set calls on any number of threads in any interleaving, all configurations, attributes created or subscribed to at any time", "why_tests_cant": "the calls depend on the whole history of annotations, attribute creations and subscriptions", "anchors": ["src/caliper/AnnotationBinding.cpp:AnnotationBinding::check_attribute", "src/caliper/AnnotationBinding.cpp:AnnotationBinding::begin_cb", "src/caliper/AnnotationBinding.cpp:AnnotationBinding::end_cb", "src/caliper/AnnotationBinding.h:make_binding"]}
{"id": "C78", "title": "Loop statistics count and time every iteration", "statement": "With the loop_statistics service, every loop that ends gives one record with the exact number of its own iterations (not those of inner loops), and every iteration of a loop gives one record with the time from its begin to its end, in the order in which they end, for any nesting of loops, iterations and other regions. A channel that is started inside of loops records exactly what begins afterwards. Within a loop the number of duration records equals the sum of the counts.", "quantifier": "all properly nested programs, all times, all points at which the channel starts", "why_tests_cant": "Any nesting depth and any number of loops and iterations.", "anchors": ["src/services/LoopStatistics.cpp:LoopStatisticsService::begin_cb", "src/services/LoopStatistics.cpp:LoopStatisticsService::end_cb"]}
{"id": "C79", "title": "Expand output carries the selected fields of every record", "statement": "The expand formatter writes one line per record that has at least one selected attribute, in the order of the records, and nothing for the others. Reading the line back (split at commas, name before the first '=', values split at '/') gives exactly the record's fields: one for each selected immediate value, in entry order, under the attribute's name or alias, and for each node reference one for every selected attribute on its path, with all of that attribute's values from outermost to innermost. This holds whenever names and values do not contain the separators.", "quantifier": "every metadata database, every SELECT list and alias set, every sequence of records with any entries and any paths, every value text", "why_tests_cant": "records, paths and selections are unbounded; tests compare a few lines; that two records can have the same line needs a search over values", "anchors": ["src/reader/Expand.cpp: ExpandImpl::configure, ExpandImpl::print"]}
{"id": "C80", "title": "A channel registers exactly its configured services, with the documented configuration", "statement": "A new channel registers the services in its list (CALI_SERVICES_ENABLE by the precedence of configuration sources; words between commas or colons) in that order, each with the function of the latest spec of that name that was added, and reports every name without a spec. The available services are the names of all added specs, once each, sorted. The variables that the documentation of a service prints are the ones it reads, with their defaults. The configuration check warns about a group of services exactly when it is active, needs another group, and no service of that group is active.", "quantifier": "every history of add_service_specs calls with any specs and terminators, every configuration history, environment, profiles and files, every spelling of the list, every list of services", "why_tests_cant": "registries, configuration sources and lists are unbounded, and the interplay of late additions with earlier ones depends on the whole history", "anchors": ["src/services/Services.cpp: add_service_specs, register_configured_services, get_available_services, print_service_documentation, init_config_from_spec", "src/caliper/config_sanity_check.cpp: config_sanity_check", "src/caliper/Caliper.cpp: Caliper::create_channel"]}
{"id": "C81", "title": "From annotations to the report: the query over the profile's file says how long the program was where", "statement": "A program annotates regions with begin/end/set calls on any number of threads; a channel with the event, timer and aggregate services profiles a thread; the flushed profile is written to a .cali file; the query SELECT sum(time) GROUP BY path over that file prints exactly one line for every place (path of open regions) where the thread was between two region calls, with the names of the regions, outermost first, and the total time the thread was there, and no other lines - whatever ids the tree, the file and the reading database use.", "quantifier": "every program (any threads, regions, nesting, interleaving, times), every initial history, every event/aggregate configuration that profiles by region, every file that stores the flushed records in any encoding of the writer, every dictionary of attributes with unique names", "why_tests_cant": "end-to-end: programs, schedules, trees and files are unbounded, the stages communicate through ids and encodings that differ from run to run", "anchors": ["src/caliper/Caliper.cpp: Caliper::begin, end, set, push_snapshot, flush", "src/services/event/EventTrigger.cpp", "src/services/timer/Timer.cpp", "src/services/aggregate/AggregationDB.cpp", "src/writer/CaliWriter.cpp", "src/reader/CaliReader.cpp", "src/reader/Aggregator.cpp"]}
{"id": "C82", "title": "A time series reports each interval, and nothing is lost", "statement": "Every snapshot of a channel with the timeseries service hands on, for each thread, one record per region path in which a stretch of the thread's time ended since the previous snapshot, with the total, shortest and longest time, the number of stretches and the number of times the path was closed in just that interval, followed by the snapshot's trigger info, start time and number; over all snapshots the times reported for a path add up to the time the thread spent there. The snapshot's own record has the duration since the previous snapshot.", "quantifier": "every program of annotation calls by any number of threads, every sequence of snapshots by any threads between the calls (with calls of other threads between the flush and the clearing of the profile), every thread without annotation errors", "why_tests_cant": "ranges over unbounded sequences of snapshots and calls by several threads; each interval starts from a cleared database whose buffers and hash table are reused", "anchors": ["src/services/monitor/Timeseries.cpp: snapshot_cb, post_init_cb", "src/services/aggregate/Aggregate.cpp: flush_cb, clear_cb", "src/services/aggregate/AggregationDB.cpp: clear, flush"]}
{"id": "C83", "title": "The MPI message trace shows the messages of the process", "statement": "With message tracing, every point-to-point message the process sends or receives (blocking, non-blocking or through persistent requests, completed by any of the Wait/Test calls) and every collective operation gives exactly one record, at the call that sends or completes it and in that order, with its peer, tag, size in bytes (for collectives: the bytes the process contributes, and the root) and its communicator - the same number for the same communicator, different numbers for different ones, with its size and members; no other records are made.", "quantifier": "every sequence of MPI calls of the process with any handles, datatypes, counts, statuses, indices and completion orders that MPI allows (with the exceptions that the refuted clauses show)", "why_tests_cant": "requests may be completed in any order, by any completion call, any time later, and handles are reused; tests run a few exchanges", "anchors": ["src/services/mpiwrap/MpiTracing.cpp:MpiTracing::handle_completion", "src/services/mpiwrap/MpiTracing.cpp:MpiTracing::MpiTracingImpl::lookup_comm", "src/services/mpiwrap/Wrapper.w"]}
{"id": "C84", "title": "The message pattern record of a communication region counts the region's messages", "statement": "With message pattern analysis, every end of a communication region (cali_begin_comm_region / cali_end_comm_region) gives one record with the numbers of messages sent, messages received and collective operations since the region began, the numbers of different destination and source ranks, and the bytes sent, received and contributed to collectives.", "quantifier": "every sequence of MPI calls and region begins and ends, any handles, counts, statuses, indices and completion orders that MPI allows (the refuted clauses show where it fails: regions inside regions, sums over 2 GiB, messages to MPI_PROC_NULL, completions of inactive receives)", "why_tests_cant": "requests are started before, in or after a region and completed in any order; the counters are shared by all regions of the process", "anchors": ["src/services/mpiwrap/MpiPattern.cpp:MpiPattern::MpiPatternImpl::handle_comm_begin", "src/services/mpiwrap/MpiPattern.cpp:MpiPattern::MpiPatternImpl::handle_comm_end", "src/services/mpiwrap/MpiPattern.cpp:MpiPattern::MpiPatternImpl::handle_completion", "src/services/mpiwrap/Wrapper.w"]}
{"id": "C85", "title": "Adiak metadata becomes global values of the channel", "statement": "At a flush, the channel gets every metadata value that Adiak lists for the configured categories: afterwards the value of each name is the last one listed for it (names that are not listed keep their value), a name that did not exist is a global attribute with the type, category and subcategory of the value, and each imported name occurs exactly once among the channel's globals. Integer values keep their number, floating point values, times and texts are unchanged, and the text made from a range, set, list or tuple of integers tells which value of the type it was.", "quantifier": "every list of metadata (names, categories, types, values of any nesting), every list of configured categories and every state of attributes and values before the flush", "why_tests_cant": "unit tests flush a few values that fit; the number, order and nesting of values, repeated names and what existed before are unbounded", "anchors": ["src/services/adiak/AdiakImport.cpp:30-118", "src/services/adiak/AdiakImport.cpp:120-277", "src/services/adiak/AdiakImport.cpp:300-322", "src/caliper/Caliper.cpp:668-760", "src/caliper/Caliper.cpp:1158-1171"]}
{"id": "C86", "title": "cali-stat prints the true statistics of a .cali stream", "statement": "For every sequence of node and snapshot records read from the input files, the numbers that cali-stat prints are those of the input: how many records, nodes and snapshots; how many elements in total, in nodes, as tree references and as immediate values; the smallest and largest number of elements of a snapshot; how many attributes the snapshots refer to; the estimated size of the nodes. With --reuse, there is one line for each attribute with nodes: the number of its nodes, of its different data elements and of their uses in nodes and snapshot records.", "quantifier": "every sequence of nodes and records in any order, with any paths, from any number of files, whose totals fit into int", "why_tests_cant": "unit tests have no test for cali-stat's numbers; streams and paths are unbounded", "anchors": ["src/tools/cali-stat/cali-stat.cpp:38-106", "src/tools/cali-stat/cali-stat.cpp:110-234", "src/tools/cali-stat/cali-stat.cpp:236-256"]}
{"id": "C87", "title": "The memstat service records the numbers of /proc/self/statm", "statement": "For every content of /proc/self/statm (numbers separated by blanks), each snapshot gets exactly three entries: the first, second and sixth number as memstat.vmsize, memstat.vmrss and memstat.data; if the file cannot be read, the snapshot gets none and the failure is counted.", "quantifier": "every list of at least six 64-bit numbers", "why_tests_cant": "the content comes from the system and tests see one process's few values", "anchors": ["src/services/memusage/MemStatService.cpp:23-40", "src/services/memusage/MemStatService.cpp:52-69"]}
{"id": "C88", "title": "Global values are exported to Adiak completely", "statement": "At a flush with the adiak_export service, exactly the attributes that have a global value are exported, each once, in the order of their ids, under the attribute's name: its value, or the list of all its values in the order of the globals; integers and booleans as int, unsigned integers as unsigned long, everything else as its text. An int, unsigned or string value that is exported and imported again is the same value.", "quantifier": "every list of global entries (references with paths of any length, immediate values, empty entries) and every assignment of names and types to attributes", "why_tests_cant": "unit tests have no Adiak; entries and paths are unbounded", "anchors": ["src/services/adiak/AdiakExport.cpp:23-38", "src/services/adiak/AdiakExport.cpp:40-93", "src/common/cali_variant.c:164-207", "src/common/cali_variant.c:275-315"]}
{"id": "C89", "title": "Symbol lookup reports the call path that was recorded", "statement": "A record with code addresses (a call path in the context tree or an immediate value) passed to the symbollookup service is extended, behind its own entries, by one entry for each address attribute it has; that entry gives module, file, function, line and location of the addresses, as far as asked for in the options of this channel, address by address from the outermost caller to the innermost function. Equal records always get the same symbols. The code fails this in three ways: an address called along a second path is reported with the callers of the first, a second channel gets the symbols the first one asked for, and with all lookups switched off the process dies.", "quantifier": "every lookup library, every option set, every record (entries, paths of any depth, attributes), every set of targets and every history of records before it, of one or several channels", "why_tests_cant": "symbols are cached per address and marked in the context tree shared by all channels, so that what a record gets depends on all records before it; the existing test looks at one function and never at the callers", "anchors": ["/repo/src/services/symbollookup/SymbolLookup.cpp: perform_lookup, get_symbol_entry, find_symbol_node_entry, process_snapshot", "/repo/src/services/symbollookup/Lookup.h: Lookup::lookup", "/repo/src/common/Entry.cpp: Entry::get"]}
