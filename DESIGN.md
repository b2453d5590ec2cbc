# A Rocq (Coq 8.16.1) model of LLNL/Caliper

## Layout

* `properties.jsonl` - the properties C01, C02, ... in terms of the API and its observable effects.
* `rocq/theories/<X>Model.v` - executable Gallina model of one part of the code; every definition cites the
  file and lines of /repo it models and says what is simplified.
* `rocq/theories/<X>Spec.v` - small independent specifications, where the statement needs one.
* `rocq/theories/<X>Proofs*.v` - lemmas, invariants, refinement proofs.
* `rocq/theories/<X>Props*.v` - the property theorems and, beside them, `Example`s with concrete states, inputs or
  runs that meet their hypotheses.
* `MANIFEST.json` - which theorems belong to which property, status and limits.
* `seeded/LOG.jsonl` - wrong programs tried against the theorems.

Naming: `C<nn>_...` is a property theorem; suffix `_partial`: weaker than the English property; suffix
`_refuted`: a proved counterexample, i.e. a case in which the code does not do what a user may expect. Refuted
cases are kept in view as theorems: the positive theorem's hypotheses exclude exactly these cases.

## Modelling conventions

* A byte is an `N` below 256; machine words are `N`/`Z` with explicit wrap-around (`mod 2^64`, `mod 2^32`) wherever
  the code can wrap. Undefined behaviour (out-of-bounds access, null dereference, division by zero, signed
  overflow, out-of-range float conversion) is a distinct outcome of the model (`None`, a fault state), not assumed away.
* Pointer structures are modelled as heaps indexed by `N`/`nat` where aliasing matters (splay tree, hash chains,
  lock-free list, node tree, memory pool, Annotation objects) and as functional structures elsewhere; loops are structural
  recursion or fuel, where theorems exclude the out-of-fuel case.
* Concurrency is interleaving of the code's atomic steps (one step per atomic operation or critical section), with
  sequentially consistent memory; weak-memory effects are not modelled.
* Standard-library components are taken at their documented behaviour: `std::map`/`std::set` as sorted association
  lists, `std::sort`/`std::stable_sort` as stable insertion sort, streams as character lists with state flags.
  `std::regex`, the clock, the text of doubles (`std::to_string`, `std::stod`) and MPI transport are parameters of the
  theorems, universally quantified.
* Doubles are 64-bit patterns; arithmetic is that of `Coq.Floats.SpecFloat` (IEEE-754 binary64, round to nearest
  even), all NaNs identified (`FloatModel.v`); where only their text matters it is a parameter.

## Trusted base

* The kernel of Coq 8.16.1 (and coqchk, which the gate runs).
* Axioms: none. `Print Assumptions` gives "Closed under the global context" for every theorem listed in
  MANIFEST.json (checked for all of them; list at the end of this file). coqchk additionally reports the seven
  constants of `Coq.ssr.ssrunder.Under_rel`, which belong to the standard library's ssreflect plugin files loaded by
  `Require`; no theorem uses them.
* The faithfulness of the model to the C++ text. No code is run; the model was written by reading /repo.
* The C++ semantics of the conventions above (sequential consistency, library components).

## Per property: what is modelled, how it is proved, state

### C01 Variable-length integer encoding is lossless and bounded

Model: VlencModel (vlenc.h). Byte-list codec; round trip with arbitrary suffix by induction on the number of 7-bit groups; no over-read.
Status: proved, 6 theorems. 

### C02 Variant pack/unpack is lossless

Model: CodecModel, VariantModel (cali_variant.c pack/unpack). Codec over tagged 64-bit words; round trip for every variant.
Status: proved, 3 theorems. 

### C03 Snapshot entry serialization is lossless

Model: CodecModel (Entry.cpp pack/unpack). Codec; reference and immediate entries.
Status: proved, 2 theorems. Packing an empty entry dereferences null (refuted clause); reference and immediate entries proved.

### C04 Node transfer buffer preserves the node sequence

Model: CodecModel (NodeBuffer.cpp). Codec; induction over the list of nodes.
Status: partial, 2 theorems. Proved for ids below 2^63; ids >= 2^63 wrap (refuted).

### C05 Compressed snapshot record round-trip

Model: CsrModel (CompressedSnapshotRecord.cpp, SnapshotBuffer.cpp). Byte-array model of the record with its two sections growing from both ends; invariant over all append histories.
Status: partial, 5 theorems. Refuted for records with more than 4 node references or several node-append calls (CompressedSnapshotRecord.cpp:188 overwrites existing ids); proved for up to 4 references and any number of immediates; memory safety proved for all histories.

### C06 Trace buffer returns the recorded snapshots in order

Model: CodecModel (TraceBufferChunk.cpp). Codec of a chunk: induction over the records.
Status: proved, 2 theorems. 

### C07 Trace buffer policies account for every snapshot

Model: TraceModel (Trace.cpp, TraceBufferChunk.cpp). Buffer with chunk list and policy; conservation invariant by induction over the history.
Status: partial, 5 theorems. Grow and stop policies: conservation proved; refuted: chronological order across chunks (grow), uncounted lost snapshot (stop), heap overflow (flush policy, or grow with buffer_size=0).

### C08 Variant equality is value equality

Model: VariantModel (cali_variant.c eq). Decision procedure against equality of meanings.
Status: partial, 3 theorems. 

### C09 Variant ordering is a total order compatible with equality

Model: VariantModel (cali_variant.c compare). Decision procedure against a mathematical order; totality, antisymmetry, transitivity.
Status: partial, 8 theorems. Order proved for exact cases; int comparison overflow refuted.

### C10 Variant numeric conversions are exact when they report success

Model: VariantModel, TextModel (cali_variant.c, Variant.cpp). Conversions against their mathematical meaning on Z and bit patterns.
Status: partial, 7 theorems. double-to-integer out of range is UB (refuted); rest proved.

### C11 Type and property names round-trip

Model: NamesModel (cali_types.c). Text scanning functions against tables; round trip.
Status: proved, 7 theorems. Limits proved: the buffer length is never reduced, so small buffers are overrun (C11_small_buffer_refuted); only the first occurrence of a name is examined (C11_first_occurrence_refuted).

### C12 The blackboard is a map

Model: BlackboardModel (Blackboard.cpp). 1021-slot open addressing with back-shift deletion refined to a finite map by a cluster invariant.
Status: proved, 3 theorems. Full refinement of the 1021-slot table to a finite map over all histories.

### C13 Blackboard snapshots contain exactly the visible entries

Model: BlackboardModel (Blackboard.cpp snapshot). Visibility bits invariant over the same histories.
Status: partial, 3 theorems. Proved for histories without deletions, or without hidden keys, or without keys colliding mod 1021; otherwise refuted: back-shift deletion does not move the visibility bit, so a hidden entry appears in (or a visible one is missing from) snapshots.

### C14 Blackboard overflow is contained

Model: BlackboardModel (Blackboard.cpp). Overflow behaviour of the same model.
Status: proved, 3 theorems. Overflow counted, entries untouched, in-table updates never rejected.

### C15 Context tree nodes are unique per path

Model: TreeModel (MetadataTree.cpp). Node store with parent, first child and sibling links; sibling uniqueness invariant over interleaved histories.
Status: proved, 8 theorems. All histories of whole requests by any number of threads. Limit (proved): two simultaneous first requests for the same path create two equal nodes (C15_race_duplicate_refuted).

### C16 Context path construction and removal

Model: TreeModel (MetadataTree.cpp). Path functions (get_path, remove_first_in_path, replace) against operations on lists of values.
Status: proved, 7 theorems. 

### C17 Metadata tree memory is never over-run

Model: TreeModel (MetadataTree.cpp, MemoryPool.cpp). Block accounting: bound of every write; faults are outcomes.
Status: partial, 6 theorems. Proved for paths no longer than a node block; refuted: a longer path (257 values with 256-node blocks) writes past the block (MetadataTree.cpp:46-70), and blocks with fewer than 12 nodes overrun already at initialisation.

### C18 begin/end nesting

Model: RuntimeModel (Caliper.cpp begin/end/set). Interpreter over tree and blackboards refined to a list-of-regions context; other threads interleaved.
Status: proved, 4 theorems. Refinement of the runtime (tree + blackboards) to a list-of-regions context, for all histories with other threads interleaved. Limits proved as counterexamples: nested begin of as-value attributes loses the outer value, set on a region attribute inside a region makes the end of that region an error.

### C19 end closes the innermost open region of its attribute

Model: RuntimeModel (Caliper.cpp end). Same refinement.
Status: proved, 5 theorems. 

### C20 Stack errors are contained

Model: RuntimeModel (Caliper.cpp end, stack_error). Same refinement: error states are frozen.
Status: proved, 2 theorems. The stack error is never cleared by any API call in the code, so the freeze is permanent.

### C21 set replaces exactly one value

Model: RuntimeModel (Caliper.cpp set). Same refinement.
Status: proved, 4 theorems. 

### C22 Thread isolation

Model: RuntimeModel, ProcSnapModel (Caliper.cpp). Transition system of threads; non-interference by induction over interleavings.
Status: proved, 5 theorems. Limits proved as counterexamples: an end of a process-scope region concurrent with another thread's update of the process context works on the value read before the lock (lost update), and a snapshot omits an outer visible region when a hidden one is on the same key.

### C23 Snapshots see the current process context

Model: ProcSnapModel (Caliper.cpp update_process_snapshot). Small-step interleaving model of cache and counter.
Status: proved, 3 theorems. Small-step interleaving model; limit proved: after 2^31 updates the int counter is negative and caches stay stale (C23_counter_wrap_refuted).

### C24 Event callback protocol

Model: RuntimeModel (Caliper.cpp begin/end/set event callbacks). Event log of the interpreter against the history.
Status: proved, 6 theorems. Limit proved: attributes of scope other than thread/process (task) get begin events but no end event and no context update.

### C25 Attribute creation is idempotent

Model: AttrModel (Caliper.cpp create_attribute). Transition system of racing creators, one step per critical section.
Status: proved, 5 theorems. Interleaving model of racing creators. Limit proved: when the tree is full an invalid attribute is registered under the name (C25_full_tree_refuted).

### C26 Text escaping in .cali streams is lossless

Model: TextModel (format_util.h, CaliReader.cpp). Character-level writer and reader; round trip and exact result for arbitrary bytes.
Status: partial, 5 theorems. Proved for strings of printable ASCII and newline with any continuation of the line; for arbitrary bytes the exact result is proved (other bytes are dropped, neighbours unaffected). As stated ('whatever characters') refuted: tabs, carriage returns and UTF-8 bytes are silently dropped.

### C27 Written .cali streams are self-contained

Model: CaliFileModel (CaliWriter.cpp). Writer with its set of written nodes; invariant over write calls.
Status: proved, 3 theorems. All sequences of write calls on a growing tree, one writer at a time. Not modelled: two threads writing through one CaliWriter at once (check-then-write of a node id is two critical sections).

### C28 A snapshot record survives writing and reading

Model: CaliFileModel, TextModel (CaliWriter.cpp, CaliReader.cpp, CaliperMetadataDB.cpp). End-to-end: writer text through the reader into a database, simulation of meanings.
Status: partial, 11 theorems. Line level, value level, and end to end: any number of files, each from any sequence of write calls, read into a new database. Refuted cases: an empty record is rejected by the reader, a lone empty-string value is lost, a pointer-typed node value crashes the reader, values of hidden attributes are replaced. Doubles: decimal formatting and parsing are parameters (hypothesis: the text parses back to the value). read_globals is modelled up to its error flag.

### C29 Merging metadata preserves meaning

Model: CaliFileModel (CaliperMetadataDB.cpp merge). Fold over node records with id map; simulation between stream meanings and database meanings.
Status: proved, 3 theorems. Any number of streams with arbitrary ids, interleaved with attribute creation and entry construction; plus import from another database. Meaning = value plus meaning of attribute and parent, recursively.

### C30 Aggregation conserves sums and counts

Model: AggModel (Aggregator.cpp). Aggregator as a fold with kernels; results as folds over the records of a group.
Status: partial, 9 theorems. All kernels' results as folds over the records of the group, for every history of add() calls with a growing database; sums and counts conserved over the groups (modulo 2^64). Counts 0 give no output. Refuted: sum(x) over records that carry only sum#x while attribute x is unknown loses the value (excluded by rec_ok in the other theorems).

### C31 Aggregation groups by key

Model: AggModel (Aggregator.cpp). Hash-chain store refined to a finite map; output records = occurring groups.
Status: proved, 5 theorems. Output records = occurring groups, one each, for all key attributes, region paths and immediate keys; the hash-chain store is refined to a finite map. Immediate keys with the same attribute twice: order as given (std::sort modelled as stable).

### C32 Aggregation is order independent and mergeable

Model: AggModel (Aggregator.cpp). Permutation invariance and merge homomorphism of the kernels.
Status: partial, 4 theorems. Order independence: all kernels except any and variance on integers of one type, and min/max also on doubles (no NaN, not both zeros). Merging: count, scaled count, sum, scale, min, max, avg (exclusive) on integers, min/max on doubles. Refuted: sums of doubles depend on the order (rounding), and so does the minimum of 0.0 and -0.0 (the first one is kept). Missing: merging of ratio/percent_total and of inclusive kernels (merging flushed inclusive sums double counts: C33_reaggregate_refuted).

### C33 Inclusive metrics

Model: AggModel (Aggregator.cpp inclusive). Tree sums.
Status: proved, 3 theorems. Inclusive sum = sum of exclusive sums of the region and all regions below it (modulo 2^64); every enclosing region has an output record. Limit proved: aggregating results that contain inclusive sums again double counts.

### C34 WHERE filters select exactly the matching records

Model: FilterModel (RecordSelector.cpp). Decision procedure against a declarative record semantics.
Status: partial, 6 theorems. All operators, all records; ordering conditions under the hypothesis that the compared values are exactly comparable (no NaN, integers less than 2^31 apart): refuted otherwise (C34_large_difference_refuted), and < / >= are not complementary because a record can carry several values of an attribute.

### C35 LET preprocessing only adds the target attribute

Model: FilterModel (Preprocessor.cpp). Interpreter of LET definitions against record semantics.
Status: partial, 3 theorems. All LET operators in sequence with conditions; hypothesis: ordering conditions compare exactly comparable values. truncate() of a value out of the range of int is undefined behaviour (None in the model). The target's value may have another type than the target attribute (refuted).

### C36 Word parsing inverts quoting

Model: ParseModel (parse_util.cpp). Stream functions against an inductive relation of spellings.
Status: proved, 7 theorems. Every spelling (plain, escaped, quoted pieces) and a total theorem for every input; also read_nested_text and to_stringlist (which drops empty words).

### C37 Runtime aggregation conserves data

Model: RtAggModel (AggregationDB.cpp). Vectors, hash chains and offsets refined to groups of a history.
Status: partial, 8 theorems. Concrete vectors, hash chains, offsets and capacities of AggregationDB refined to groups of a history. Holds for keys of at most 16 entries and fewer than 2^32 snapshots; refuted: longer keys are merged or split by hash, metrics created after a key's first snapshot are lost for this key, the 32-bit kernel count drops a metric after 2^32 values. Conservation of counts holds for every key length.

### C38 Clearing the aggregation database

Model: RtAggModel (AggregationDB.cpp clear). Simulation with a new database.
Status: partial, 3 theorems. After clear (in every reachable state) later histories without skipped snapshots give the records of a new database. Refuted with a skipped snapshot: clear drops the SKIPPED key, the skipped record carries the key of the first new entry.

### C39 Region filters

Model: RFilterModel (RegionFilter.cpp). Parser and matcher against item semantics.
Status: proved, 2 theorems. C39_pass: every include/exclude text that spells items (any quoting and white space) is accepted and pass() is exactly 'no exclude item selects it and, if there are include patterns, an include item selects it'. C39_error: unclosed lists and bad regular expressions disable all filters with an error. std::regex is a parameter. C39_ignored shows what is silently ignored.

### C40 Configuration precedence

Model: RConfigModel (RuntimeConfig.cpp). State machine over API calls, environment and files; precedence theorem.
Status: proved, 10 theorems. C40_value is the full precedence over every history of API calls, environments and files; C40_unrelated, C40_stable, C40_unknown, C40_uninitialised; C40_lines/C40_file cover every file text. The two _refuted theorems are findings about repeated profile sections, outside of the claim.

### C41 Allocation tracking finds the right allocation

Model: SplayModel (SplayTree.hpp). Pointer heap; separation of the spine, refinement to ordered sets, termination.
Status: proved, 3 theorems. Pointer-level heap model (parent, child, handedness fields; stale child pointers during rotations): memory safety, termination, set semantics and absence of leaks for all histories of insert, find and remove, for any three-way comparison and any consistent predicate.

### C42 Memory pool allocations are disjoint

Model: MempoolModel (MemoryPool.cpp). Chunk list; disjointness and alignment invariants.
Status: proved, 7 theorems. Limits proved: alignment larger than that of operator new (C42_large_alignment_refuted), sizes near 2^64 wrap the capacity check (C42_huge_request_refuted).

### C43 Lock-free child insertion loses no node

Model: LockfreeModel (lockfree-tree.hpp). CAS-step interleaving semantics; invariant over all schedules.
Status: proved, 5 theorems. Small-step interleaving model, sequentially consistent memory.

### C44 Timer durations

Model: TimerModel (Timer.cpp). Fold over events of all threads with arbitrary clock values.
Status: proved, 7 theorems. All event histories on any number of threads and any clock values; 64-bit wrap-around exact. The clock is an input; the error counter's int overflow is not modelled.

### C45 Snapshot records respect their capacity

Model: SnapRecModel (SnapshotRecord.h). Fixed-capacity builder against list prefix.
Status: proved, 3 theorems. 

### C46 Variant arithmetic

Model: ArithModel, FloatModel (Variant.cpp, cali_variant.c). Word arithmetic against Z and SpecFloat.
Status: proved, 8 theorems. Defined-behaviour domain: no signed overflow, no out-of-range double conversion. C46_div_count_refuted: the count is truncated to 32 bits. C46_minmaxsum_mixed_refuted: mixing types reinterprets bits.

### C47 Structured configuration texts

Model: ParseModel (StringConverter.cpp). Parsers of lists and dictionaries against spelled texts.
Status: partial, 6 theorems. Lists: all nestings; empty words are dropped by the code (refuted that they are kept). Dictionaries: non-empty ones; the empty dictionary {} is an error in the code (refuted).

### C48 Allocation tracking

Model: AllocModel (AllocService.cpp). Interleaved critical sections over the splay-tree model; accounting invariant.
Status: partial, 11 theorems. Critical sections of the callbacks interleave arbitrarily. Refuted: tracking a live address again leaves its old size in the active memory for good; with overlapping allocations a lookup can miss; sizes of 2 GiB and more are reported truncated to int.

### C49 Event snapshots follow the region nesting and the configured filters

Model: EventModel (EventTrigger.cpp). Callback state machine against the history of regions.
Status: proved, 8 theorems. Model: EventModel.v (EventTrigger.cpp callbacks, markers, the branch filter stack with the callers' string pointers; push_snapshot(_replace) records as entry lists). Region filters are those of C39 (std::regex is a parameter). The conditions of C49_triggers (well-nested, strings unchanged while their region is open, set events do not open branches, attributes defined before use) are needed: C49_set_refuted, C49_overlap_refuted, C49_threads_refuted (branch stack shared by all threads) and C49_string_reuse_refuted (the stack keeps the caller's string pointer) show what happens otherwise. Not modelled: parsing of region_level, allocation of event attribute ids (C25).

### C50 Region profiles attribute every metric value to the right regions

Model: RegProfModel (*RegionProfile.cpp). Record folds against sums over regions.
Status: proved, 6 theorems. RegProfModel.v models the four process_record functions. Path-keyed profiles need region names that are non-empty and contain no slash (names_ok); otherwise different paths share a key. C50_recursion_refuted, C50_leaf_refuted and C50_unknown_region_attribute are findings outside of the claim.

### C51 Cross-process aggregation neither hangs nor loses nor duplicates a rank's data

Model: MpiModel (aggregate_over_mpi.cpp). Message-passing transition system; every schedule terminates with the merge of all ranks at rank 0.
Status: proved, 7 theorems. MPI is represented by its point-to-point guarantees; rank states, buffers and merge functions are parameters of the theorem (C04, C05, C29, C32 cover them separately) and the hypothesis 'merges' states what merging has to do. Example C51_ex_merges gives an instance and C51_ex_run a complete run. int overflow for more than 2^30 ranks not modelled.

### C52 C++ annotation objects close what they open

Model: AnnotModel (Annotation.cpp). Object heap with reference counts over statement programs with scopes and exceptions; interleavings for the counter races.
Status: partial, 11 theorems. Partial: with overlapping calls a Loop can be ended twice (C52_loop_concurrent_end_refuted), an Annotation's implementation can be freed twice (C52_annotation_double_free_refuted), and the first begin(int)/set(int) for an existing double attribute is lost (C52_first_int_lost_refuted); without overlap all hold. Default-generated copy assignment of Loop is not modelled.

### C53 Table output shows every selected record exactly once, aligned and sorted

Model: FmtModel (TableFormatter.cpp). Column computation and printing against a grid specification.
Status: proved, 6 theorems. The metadata database is constant while records are formatted; sort statements about keys that parse back exactly (keys_ok); std::stable_sort is modelled by stable insertion sort. The last ORDER BY attribute is the primary sort key, as in the manual's example, which C53_manual_example reproduces.

### C54 Tree output shows every region path once, below its parent, with all of its records

Model: TreeFmtModel (SnapshotTree.cpp, TreeFormatter.cpp). Tree insertion and printing against paths of records.
Status: partial, 15 theorems. Proved for all inputs with these exceptions, each shown by an example: ascending order is wrong if a record in a subtree lacks the sort attribute (C54_ascending_missing_refuted; C54_sorted_asc assumes it present); the record comparator is not a valid strict weak order if the attribute is missing (C54_record_order_refuted, undefined behaviour in std::stable_sort); lines of multi-record entries are shifted and one-letter names under-indented when the path column leaves less than three (two) characters (C54_narrow_refuted, condition in C54_layout). The metadata database is constant while records are formatted; the min/max caches are not modelled (sorting happens once, at flush); print-globals is not modelled.

### C55 JSON output can be read back and holds exactly the records

Model: JsonModel (JsonFormatter.cpp). Writer text read back by an executable JSON reader (JsonSpec).
Status: partial, 9 theorems. Read back with an executable JSON reader (JsonSpec, a subset of RFC 8259: no exponents, no \u escapes, ASCII). std::to_string(double) is a parameter; finite doubles are required to have number texts. Refuted: addresses are unquoted hexadecimal digits (misread or invalid JSON), the split layout is not one JSON text, attribute names are not escaped in the attributes section, control and non-ASCII characters are dropped.

### C56 json-split output can be read back: rows, columns and the node table

Model: JsonSplitModel (JsonSplitFormatter.cpp). Same reader; node table against paths.
Status: partial, 4 theorems. Read back with the JSON reader of JsonSpec. Refuted: without SELECT the internal attribute cali.attribute.name becomes a column filled with attribute names, because immediate entries' attribute nodes are searched like region nodes (C56_internal_column_refuted); region columns share node-table entries with equal labels, whose column member then names only one column (C56_shared_nodes_refuted). std::to_string(double) is a parameter.

### C57 CalQL text means the query it spells

Model: QueryModel, QueryPrint (CalQLParser.cpp, QuerySpec.cpp). Stream parser against an inductive relation from clause lists to token spellings.
Status: partial, 10 theorems. Every text spelling a well-formed clause list parses without error to the described query (C57_query); rejection theorems for unknown clauses, missing BY, bad aggregations, unknown formatters, doubly defined LET targets; refuted corner cases: SELECT *, a loses the star, quoted not is still a keyword, empty arguments are dropped, the printed query omits separators between aggregation arguments and does not parse back.

### C58 The options of a configuration take effect

Model: CfgModel (ConfigManager.cpp). Options object against reachability in the inheritance graph and last-setter specifications.
Status: partial, 14 theorems. Inheritance is proved total for acyclic specs; refuted: a cycle overflows the stack for every depth (C58_cycle_refuted); a brace before the placeholder hides it (C58_brace_refuted).

### C59 Explicit arguments come before defaults

Model: CfgModel, CfgMgrModel (ConfigManager.cpp). merge_new_elements against a first-of-lists specification over call histories.
Status: partial, 5 theorems. Refuted: a later default does not replace an earlier one (C59_latest_refuted); with contradictory explicit arguments the option is on although get() returns false (C59_contradiction_refuted).

### C60 Config strings are read as documented

Model: CfgMgrModel (ConfigManager.cpp). Stream parser against an inductive relation from items to token spellings with an arbitrary tail.
Status: partial, 9 theorems. Texts with all spellings parse to the items' meaning (C60_run, C60_items), error theorems for five kinds of bad text. Refuted: a trailing comma is read as a parameter with an empty name (C60_comma_refuted).

### C61 ConfigManager::add is all or nothing, and check() tells beforehand

Model: CfgMgrModel (ConfigManager.cpp). Both code paths over the same parsed state; invariants of the parser (channels untouched, errors stay).
Status: partial, 9 theorems. C61_check is for calls that return (cyclic inheritance overflows the stack, C58). Refuted: add() with an unknown parameter returns false but has added the channels (C61_unknown_refuted); accepted unknown parameters make the next add() fail (C61_extra_refuted).

### C62 Config and option specifications are read as written

Model: CfgMgrModel (ConfigManager.cpp, StringConverter.cpp). Uses the structured-text theorems of C47 to read back every field.
Status: partial, 8 theorems. Refuted: an error in a config spec's option list is ignored and the remaining options are lost (C62_bad_option_refuted); services are appended to CALI_SERVICES_ENABLE without a comma (C62_services_refuted); an empty dictionary in an option spec is an error (C62_empty_refuted). The deprecated list form of query is modelled but not part of the theorem; texts are in the canonical quoting of C47.

### C63 Channels are created, activated, flushed and closed as requested

Model: ChnModel (Caliper.cpp, cali.cpp). Step function over API calls; invariant KJ between the channel tables and the call history; the callback log against history-only definitions (alive, active, known) in ChnSpec.
Status: partial, 14 theorems. Each API call is one atomic step (the siglock and mutexes are not modelled here; C43 and C12-C14 treat concurrency). Services are represented by the sequence of callbacks they receive. Precondition: handles of deleted channels are not used. Refuted: activating a deleted channel's handle brings its callbacks back after finish (C63_deleted_handle_refuted); every call after finalization except is_active, release and thread exit is a null access (C63_after_release_refuted); cali_channel_flush with an unknown id is a null access (C63_flush_id_refuted).

### C64 Per-channel annotations are separate from everything else

Model: ChnModel, RuntimeModel (Caliper.cpp). Channel blackboards related to abstract contexts (bbrel) by the same simulation as C18-C22.
Status: partial, 7 theorems. Context tree not full. Refuted: a failed end on a channel puts the calling thread in the error state, so its later thread and process annotations are ignored (C64_error_refuted): the isolation holds for histories without such an error.

### C65 Flush records and globals report the current process and channel context

Model: ChnModel, GlobModel (Caliper.cpp). Views of the visible blackboard entries against the abstract contexts; get_path_nodes of C16 for the collected nodes.
Status: proved, 4 theorems. Attributes not hidden, context tree not full, at most SNAP_MAX = 120 blackboard entries (records beyond that are truncated, finding). The attribute lookup behind is_global is a parameter.

### C66 The validator reports exactly the nesting errors

Model: ValidModel (validator.cpp). Invariant between the validator's stacks and the bracket structure of the event sequence (opened / well nested, ValidSpec).
Status: partial, 7 theorems. Events as Caliper sends them to the validator (the value passed to an end event is arbitrary); thread-local stacks are per thread; empty (invalid) begin values are excluded (C66_empty_refuted: they make the validator report an error for a well-nested program). C66_unmatched_refuted: an end without a begin is not reported, because Caliper does not send the callback in this case.

### C67 The loop monitor accounts for every iteration

Model: LoopMonModel (LoopMonitor.cpp). Induction over programs of nested loops and iterations (LoopMonSpec); the pushed snapshots partition the iterations of each loop.
Status: partial, 5 theorems. One thread (the service has one unsynchronized instance for all threads, finding); int counters unbounded; the clock comparison is an input; iteration numbers of target loops are not negative (C67_negative_refuted); events properly nested (C67_restart_refuted shows what happens if the channel is started inside a loop). C67_prefix_refuted: target names select by prefix.

### C68 Concurrent recording, flush, clear and thread exit

Model: BufModel (Trace.cpp, Aggregate.cpp). Small-step interleaving model of the thread buffers; inductive invariants for ownership (BufProofs), the linked list with a cursor (BufProofs2) and the flush or clear in progress (BufProofs3); statements about the event log (BufSpec).
Status: partial, 14 theorems. Steps are single shared-memory accesses under sequential consistency; saving a record to, flushing and emptying the contents of one buffer are atomic steps (C68_race_refuted shows that the code does not guarantee this: the stopped flag is tested, not held), and so are the spinlock sections. An exited thread makes no further calls. Signal handlers, log output, the destructor and the stop/flush overflow policies (C07) are left out. Refuted: without the lock (aggregate service) two overlapping clears use freed memory (C68_overlap_refuted); a record saved after the buffer was emptied, or between flush and clear, can vanish without being counted (C68_lost_refuted, C68_between_refuted).

### C69 A region time profile accounts for every nanosecond of a thread, under the regions that were open

Model: ProfModel (Caliper.cpp push_snapshot, EventTrigger.cpp, Timer.cpp, Aggregate.cpp). Composition of RuntimeModel, EventModel, TimerModel and RtAggModel; simulation invariant per API call (ProfProofs3.J) from a run to the list of one thread's snapshots, then C37 for the records; the specification (ProfSpec) computes the stretches from the calls and times alone.
Status: proved, 2 theorems. End-to-end composition of the runtime (C18-C24), event (C49), timer (C44) and aggregate (C37) models through push_snapshot. Hypotheses: the profiled thread has no stack errors, the context tree is not full, only thread-scope nested region attributes and hidden internal ones are used, no filters, enable_snapshot_info off, aggregation over all regions (empty key list), fewer than 2^32 snapshots, 64-bit clock readings. Time after the last region call is not in the profile (no snapshot is taken at flush).

### C70 Format strings print literals and attribute values exactly as written, and name different output files for different values

Model: FmtStrModel (SnapshotTextFormatter.cpp, UserFormatter.cpp, OutputStream.cpp set_filename, split.hpp). The specification (FmtStrSpec) is a grammar of templates and what they print; the parser is proved to invert the printing of templates (parse_template), then the fields are printed one by one.
Status: partial, 10 theorems. Widths up to 80, values with non-empty text, literals without percent signs, names without percent signs or brackets. Values are given by their text (Variant::to_string). C70_late_attribute_refuted: SnapshotTextFormatter gives up on attributes unknown at its first print; C70_alignment_refuted: the documented alignment letters are ignored; C70_wide_refuted, C70_bad_width_refuted (uncaught exception), C70_percent_refuted: no way to print a percent sign.

### C71 Command lines of the tools are understood as documented

Model: ArgsModel (Args.cpp). A grammar of command lines (ArgsSpec); induction over the words with a representation invariant (rep) between the parser's maps and the list of settings.
Status: partial, 4 theorems. Option tables with distinct names, long names and letters; letters other than '-' and '='. If an option is given twice, the first value counts (as stated). C71_empty_value_refuted: --option= with an empty value takes the next word as its value; C71_dash_refuted: a word consisting of a single dash is dropped.

### C72 One .cali writer shared by threads: for every interleaving the file stays readable, complete and in order

Model: CwModel (CaliWriter.cpp (concurrent), CaliReader.cpp). Small-step interleaving semantics with a stack of remaining statements per thread; invariants: every statement's references are in the file or promised by the statements in front of it (todo_ok), strictly decreasing ranks along the stack (nest), a weight that decreases with every own step; reading back by the stream invariant of C28 extended to repeated node definitions.
Status: proved, 9 theorems. Steps are the critical sections (lock_guard blocks) of CaliWriter.cpp; stream output itself is one atomic line under m_os_lock. Exactly-once is refuted (check and insert are separate critical sections): two threads may write the same node line; harmless for the reader (C72_read_back). num_written therefore depends on the schedule.

### C73 The region monitor measures the dominant regions, one at a time

Model: RegMonModel (RegionMonitor.cpp). The specification (RegMonSpec.monitored) is a big-step relation over the nesting of the regions: which instances are measured, from the durations of the earlier ones; simulation of the callbacks' state by induction over well-nested programs.
Status: proved, 5 theorems. One thread (the service has one unsynchronized instance); durations exact integers instead of doubles; properly nested events. C73_last_instance_refuted: child times accumulate over all instances while the inclusive time is that of the last one, so a region that no longer spends time in children can stay unmeasured. C73_inside_refuted: a channel activated inside a region reads back() of an empty vector at the region's end.

### C74 Query options of the command line mean what they say

Model: QArgsModel (query_common.cpp, RecordSelector.cpp parse). A grammar of option values (QArgsSpec) and what each option means for the query; the stream parsers are proved to invert the printing of the grammar; composed with the command-line parser of C71.
Status: partial, 8 theorems. Built on C71 (command lines) and C57 (queries). Messages not modelled. Refuted: --select with < or > means existence (C74_less_refuted); an unknown function silently drops the rest of the --aggregate list (C74_unknown_function_refuted); formatter arguments of the query leak into a formatter chosen by an option (C74_formatter_arguments_refuted); use_path flags are uninitialized without a query (C74_uninitialized_refuted).

### C75 Allocation statistics are exact under concurrency

Model: AlStModel (AllocStatsService.cpp). Small-step interleaving of the three locked sections of track and untrack; one log per lock (history variables); invariant AlStProofs2.inv (region map = function of the region log, total = sum of the total log, logs are permutations up to the pending sections, pending allocations are in the allocation map).
Status: proved, 9 theorems. proved for disciplined allocators (C75_calls, C75_flush, C75_highwater, C75_balance, C75_bounds) for every interleaving of the locked sections; C75_retracked_refuted: an address tracked twice without a free leaks its bytes into the total for ever; C75_overtaken_refuted: a free that overtakes the allocation's second section leaves a region entry without path and count and the flush divides by zero; C75_no_region_partial: allocations outside any region are not tracked. Mathematical integers for uint64_t (justified by C75_bounds); the counters of the finish log line are not modelled.

### C76 A query over files reports exactly what was written to them

Model: QFileModel (CaliReader.cpp, QueryProcessor.cpp, cali-query.cpp). Composition of CaliFileModel (writer, reader), FilterModel and AggModel; the specification (QFileSpec) evaluates the query over names and values; invariant: every entry of a record in the reader's database says what was written (good), preserved when the database grows; then C31/C30's characterisation of the aggregation is translated from ids to names.
Status: proved, 7 theorems. C76_query relates the flushed records of the query over the bytes of the files to the specification (result_of in QFileSpec, by names and values); C76_list is the query without aggregation; C76_fold, C76_count, C76_sum_conserved and C76_count_conserved read the individual results off it, C76_distribution shows independence of the distribution of the records over files. Limits: LET operators and globals are not part of it; hypotheses query_ok: files written by the writer model with agreeing attribute meanings, regions consist of user attributes, GROUP BY keys are not attribute metadata, result names are unused, fewer than 2^64 nodes; an average whose count is a multiple of 2^32 divides by zero in the code (C46), so totality of flush is stated for queries without avg.

### C77 Annotation bindings show the tool the program's regions

Model: BindModel (AnnotationBinding.cpp, AnnotationBinding.h). The binding consumes the callbacks recorded by RuntimeModel; invariant BindProofs.J: replaying a thread's calls as a stack gives the open regions filtered by marks and filter; C77_nested composes C24's nested callback theorem.
Status: partial, 10 theorems. C77_filter: which values pass the binding's filter, in terms of the two configuration texts. C77_mirror (any history, also with stack errors; bound attributes not changed with set, not bound while open), C77_nested (properly nested programs of any attributes), C77_bound (which attributes). Refuted without these conditions: set changes the value under the filter (C77_set_refuted), an attribute bound while a region is open gives an on_end without on_begin (C77_late_refuted), on_mark_attribute is repeated (C77_mark_once_refuted), an error in one filter text switches off both filters (C77_filter_error_refuted). Channel stays active; the derived classes' calls into the tools are not modelled.

### C78 Loop statistics count and time every iteration

Model: LoopStatModel (LoopStatistics.cpp). Structural induction over nested programs (LoopStatSpec.prog): the top of the stack counts the iterations of the innermost open loop, the rest is unchanged.
Status: partial, 8 theorems. One thread. Refuted: iterations inside of an iteration of the same loop restart its clock (C78_nested_iterations_refuted); all threads share one unsynchronized stack (C78_threads_refuted); a channel deactivated in a loop keeps the loop on its stack (C78_deactivated_refuted). The clock does not run backwards; counters are unbounded integers; the context entries of the records are those of any pushed snapshot (C13, C69).

### C79 Expand output carries the selected fields of every record

Model: ExpandModel (Expand.cpp). The print loop of Expand.cpp over entries, with its stable sort by attribute id and backwards iteration; the specification is a reader for the text and the set of fields a record has. Proved by decomposing a sorted list into blocks of equal keys, stability of the sort within a block, and a text round trip.
Status: partial, 3 theorems. C79_output: the text read back with the specification's own reader is exactly the fields of the records (rec_shows), for names without , = newline and values without , / newline; C79_fields: the fields are defined for every record and unique. C79_separators_refuted: nothing is escaped, so the nested regions a, b and the region a/b have the same line, and a value can imitate another field. Value texts are a parameter (Variant::to_string).

### C80 A channel registers exactly its configured services, with the documented configuration

Model: ServModel (Services.cpp, config_sanity_check.cpp, Caliper.cpp:182-205, 1365-1370). Assignment list of the registry, latest first; the specification speaks of the history of added lists. Composition with the configuration theorem C40_value (the values do not depend on earlier initialised sets) and a separator-mixing version of the list reader of C36; the groups of the sanity check are spelled out again in ServSpec.
Status: partial, 8 theorems. C80_channel: the registrations and reports of create_channel for any registry history and any configuration history, composed with C40 (value of the list) and C80_list (its spellings); C80_latest, C80_available, C80_documentation, C80_sanity. What the register functions do is not modelled. Refuted: an application's replacement of a built-in service is lost when a ConfigManager adds the defaults again (C80_replacement_refuted); a service listed twice is registered twice (C80_twice_refuted).

### C81 From annotations to the report: the query over the profile's file says how long the program was where

Model: RuntimeModel, EventModel, TimerModel, RtAggModel, ProfModel, CaliFileModel, QFileModel, AggModel (the files of C69 and C76). C81_report, C81_inclusive (one thread), C81_process (any set of threads). Composition of C69_time_profile and C76_query. Added: every flushed record has at most one region reference (reports_refs), the path of a tree node by names is the region path (path_named), different region paths have different names (by_name_inj), and a group of the query has exactly one record (measured_at), so that its sum is the record's value.
Status: proved, 3 theorems. C81_inclusive: the query SELECT sum(x), inclusive_sum(x) GROUP BY path over the same file - also lines for places around visited ones, with nested totals. C81_process: a file with the profiles of any set of threads - totals over threads, modulo 2^64. C81_report composes the models of C69 (annotations, events, timer, aggregation), C28 (writer, reader) and C76 (query). file_of: the file's records are the flushed ones, values as the C representation says, references to the nodes of the program's tree; query_ok: the file was produced by the writer model and the dictionary agrees with it. One profiled thread per file (other threads run meanwhile); unsigned total times; attribute names unique (C25); hidden attributes and globals are not in the file. C81_case: a program with two threads, its file and the computed report.

### C82 A time series reports each interval, and nothing is lost

Model: TimeserModel over ProfModel (TimeserProofs, TimeserProps, TimeserProps2). C82_interval by induction over the snapshots: the simulation invariant of C69 (J) generalized to start from any empty database, since clear leaves an empty one; by_interval (TimeserSpec) cuts the thread's timeline. C82_conserved: sums over intervals. C82_during_refuted, C82_thread_refuted: concrete runs.
Status: partial, 4 theorems. Model TimeserModel over ProfModel (C69): snapshots between API calls, calls of any thread between the profile's flush and its clearing. C82_interval: the records of every snapshot are exactly the profile of the thread's interval, with the stamps; C82_conserved: when the thread makes no region call during a snapshot, the times of all snapshots add up per path, and in total to the time of its last region call. Refuted: a region call of another thread between flush and clear is lost (C82_during_refuted); the start time is kept per thread, so a snapshot by another thread than the last one has no or an old start time and a wrong duration (C82_thread_refuted). C82_ex, C82_ex_series: a concrete program. Not modelled: databases of finished threads, snapshots inside callbacks of an API call, two timeseries channels sharing the start time attribute.

### C83 The MPI message trace shows the messages of the process

Model: MsgTraceModel (MsgTraceProofs, MsgTraceProofs2, MsgTraceProps). C83_traced by induction over the calls with an invariant (inv) between the tracer's tables and MPI's world (MsgTraceSpec: active/inactive requests, communicators with an identity): the request table has exactly the live receives and persistent requests, the communicator map shows the communicators under a one-to-one numbering L that only grows. Each hypothesis of plain_call is refuted by a concrete legal history (C83_*_refuted); C83_ex: a proper history of 17 calls of all kinds with its 11 records.
Status: partial, 10 theorems. C83_traced: for every start set of communicators and every history of calls that is legal (legal: what MPI and its library guarantee - valid communicators, fresh request handles, statuses with whole elements, as many statuses as requests) and plain (plain_call: the tracer's own limits), the events correspond one to one and in order to the messages, with a one-to-one numbering L of communicators. Every clause of plain_call has its refutation by a legal history: C83_waitsome_refuted (statuses taken at indices[i] instead of i), C83_waitany_refuted (MPI_UNDEFINED as an array index), C83_inactive_refuted (completion of an inactive persistent receive is recorded), C83_proc_null_refuted, C83_scatterv_refuted (sum of displacements), C83_comm_reuse_refuted (freed handles stay in the map), C83_size_refuted (int overflow), C83_inactive_channel_refuted (stale requests). Modelled: MpiTracing.cpp and the wrappers' argument handling in Wrapper.w, one thread. Not modelled: Probe/Mprobe/Mrecv, one-sided and non-blocking collectives (not traced by the code), MPI_Cancel, datatype handles that change their size, error return codes.

### C84 The message pattern record of a communication region counts the region's messages

Model: MsgPatModel over MsgTraceModel's calls (MsgPatProofs, MsgPatProps). C84_regions by induction over calls and regions: the request table has exactly MPI's live receives and persistent requests (rinv), the counters hold the totals of the messages since the last begin modulo 2^32 and the sets their ranks (holds). C84_*_refuted: concrete histories. Findings: nested regions, unlocked counters.
Status: partial, 5 theorems. C84_regions: for every legal history (MsgTraceSpec.legal) with the limits of plain_pat (those of C83 without its conditions on sizes and communicator handles), one record per region end; for a region in which no other region began the record is totals_of of the messages since its begin, whenever these values fit into int (arithmetic modulo 2^32 otherwise). C84_nested_refuted: the begin of an inner region resets the counters of the outer one. C84_large_refuted, C84_null_refuted: sums over 2 GiB; MPI_PROC_NULL and inactive receives are counted. Ranks are rank numbers in the message's communicator: the same number in two communicators counts once, in the code and in the statement. One thread (the counters and sets are not locked: calls from several threads race). Not modelled: the irecv.req_wait_gap timer events.

### C85 Adiak metadata becomes global values of the channel

Model: AdiakModel (values, text, import loop; Adiak calls back with a list) (AdiakProofs, AdiakProofs2, AdiakProps). C85_import by induction over the listed values from the end (loop_ok: blackboard entries by name, attributes, multiplicity). C85_container: unpack_inj, by induction over the value with what follows it (no digit follows an integer; the first character of an element is no closing bracket). C85_number: arithmetic of the conversions. Each limit has its C85_*_refuted theorem.
Status: partial, 13 theorems. C85_import: every list without unset values, every state; C85_number: integers in the range that the code keeps (kept: long within int, unsigned int below 2^31, dates from 1970 on), C85_other: floating point, time values and texts; C85_container: equal texts of containers of integers of one type come from equal values. Refuted parts: C85_long_refuted (a long is cast to int), C85_uint_refuted (sign extension), C85_date_refuted, C85_nul_refuted (each container text ends with a NUL byte), C85_texts_refuted (separators within texts are not escaped), C85_existing_refuted (an existing attribute of the name that is not global), C85_unset_refuted (adiak_type_unset calls Caliper::end, which looks at the process blackboard, while the value is on the channel's: the value stays and the thread's stack error flag makes it ignore all begins and ends from then on). Adiak is the environment; doubles are bits and their text a parameter. Attributes are found by name (C25); property presets from the configuration are not modelled here.

### C86 cali-stat prints the true statistics of a .cali stream

Model: StatModel (int counters that wrap, reuse table) (StatProofs, StatProofs2, StatProps). C86_counts: every counter equals the number in the sequence modulo 2^32 (counts_ok, induction over the sequence) and stays within int (inrange_ok); minimum/maximum by max_spec/min_spec. C86_reuse: invariant rinv over the sequence (all_steps): for every attribute the number of nodes, the different texts and their counts. C86_ex: a concrete sequence.
Status: partial, 5 theorems. C86_counts: every sequence whose totals fit into int (fits_int): all integers printed, minimum and maximum over the snapshots; C86_reuse: every sequence whose records refer to nodes read before (closed; what a .cali stream guarantees, C27): the lines of --reuse and the count of each text. C86_size_refuted: the estimated size of the snapshots (and so the total size) counts 8 bytes for each reference and nothing for immediate values - for snapshots of immediates only it is 0. C86_large_refuted: from 2 GiB the size is negative. Not modelled: averages and ratios (doubles), the unit of sizes, column alignment (names longer than 31 characters are not separated from the number), command line; the reader is C27/C28. The exit code is 0 even when a file cannot be read.

### C87 The memstat service records the numbers of /proc/self/statm

Model: StatmModel (StatmProps). C87_values by induction over the numbers (parse_line) and digits (parse_digits: the running value modulo 2^64); the 80-character prefix keeps the first six numbers whole. C87_long_refuted: a concrete line.
Status: partial, 4 theorems. C87_values: every list of at least six 64-bit numbers whose first six have at most 80 characters with their separators; C87_first: the first two are right whenever they fit into 80 characters, whatever follows. C87_long_refuted: the buffer has 80 characters; with longer numbers the sixth is cut off and a wrong value is recorded. pread is the environment (whole content or failure).

### C88 Global values are exported to Adiak completely

Model: AdiakExportModel (over AdiakModel) (AdiakExportProps). C88_export: the map by attribute id stays ordered and holds each attribute's values in their order (push_all, induction over the (attribute, value) pairs of all paths); the root's pair is separated (cvalues_eq, cvalues_inv). C88_*_refuted: general or concrete.
Status: partial, 7 theorems. C88_export: every list of globals whose attribute ids are not CALI_INV_ID (all are, C25), integers in the range of int; C88_roundtrip: with C85's import. Refuted: C88_root_refuted (the loop over a path does not stop before the root of the tree: as soon as a global is a reference, a value with an empty name and empty text is exported), C88_long_refuted (a 64-bit integer that is not an int is exported as 0, without a message), C88_double_refuted (floating point values become texts), C88_order_refuted (the values of a path come innermost first). adiak::value of the Adiak C++ interface is the environment: an int, unsigned long, string or list of these.

### C89 Symbol lookup reports the call path that was recorded

Model: SymModel (one thread; the lookup library is a function, LookupLibdw.cpp modelled over given debug info) (SymProps). An invariant of caches and markers over all histories (Section Inv, for any predicate on what is stored for an address): instance "ends with the address's symbols" gives C89_innermost, instance "is the whole path" under one_caller gives C89_call_paths. C89_library: every kind asked for is answered as when all are asked for (honest), for any debug info. C89_same_again: caches and markers only grow (extends), and a second lookup finds the first one's. C89_*_refuted: concrete.
Status: partial, 8 theorems. C89_library: LookupLibdw answers each kind it is asked for as when asked for all (honest), for any debug info; C89_record_kept: all cases; C89_innermost: for every honest library and every history of instances with one option set, each target's entry ends with the symbols of its innermost address, and nothing crashes if any lookup is on; C89_call_paths: the whole call path, if each address is recorded below one list of callers only (met by C89_call_paths_met); C89_same_again: any history, any mix of instances. C89_call_path_refuted: without that condition the callers are wrong (the cache is keyed by the address only); C89_own_options_refuted: a second channel with other options gets the first one's symbols through the marker nodes; C89_no_options_refuted: a null node is dereferenced. Not modelled: threads, libdw itself and demangling, the counters, the instance's root node being freed at the channel's end.

## What is not modelled

* Tool back ends and services other than those named above (papi, libpfm, cupti, rocm, ompt, kokkos, sampler,
  libunwind, symbollookup, vtune, adiak, gotcha wrappers), the Fortran and Python bindings, configuration of tools at build time.
* Weak memory, signal delivery inside a critical section other than the `sT->lock`/skip flags, process exit order.
* Real file and network I/O; a stream delivers its characters, a file can be missing.
* The text of doubles (`std::to_string`, `operator<<`) beyond what hypotheses say about it.
* Memory allocation failure (std::bad_alloc), except the fixed-size pools of the code itself.

## Findings

Behaviour of the code at the pinned commit that contradicts a reasonable reading of the API; those marked with a
theorem name are proved about the model, the others were found while reading and are kept out of the theorems by
their hypotheses or by the model's simplifications.

* Metadata tree and memory: create_child with CALI_MEMORY_CAN_EXPAND=false ignores a null result of the pool; node() for an id in an unallocated block reads an uninitialised NodeBlock; a path longer than a node block is written past the block (C17); Entry(nullptr) is dereferenced when the tree is exhausted; MemoryPool::expand ignores alignment slack and the capacity check wraps (C42); create_attribute registers an invalid attribute under its name when the tree is full (C25_full_tree_refuted); create_attribute with an out-of-range type indexes m_type_nodes out of bounds; two simultaneous first requests for a path create two equal nodes (C15_race_duplicate_refuted); the relaxed load of first_child makes the read of `next` a formal data race.
* Blackboard: back-shift deletion does not move the visibility bits, hidden entries can appear in snapshots and visible ones vanish (C13); setting an existing key ignores the visibility argument; at most 910 entries; exchange() on an attribute stored by reference overwrites the region key.
* Runtime: an end of a process-scope region works on the value read before the lock (lost update, C22); the process-snapshot counter is an int (C23_counter_wrap_refuted); task-scope attributes get begin events but no end event (C24); create_attribute returns an existing attribute regardless of the type asked for; cali_channel_flush does not check the channel; cali_set_global_string_byname stores strlen+1 bytes; the stack error is never cleared.
* Variants: int comparison truncates a 64-bit difference to int (C09); cali_make_variant_from_string("") reads p[-1]; Variant::div truncates the count to 32 bits (C46_div_count_refuted; division by zero at 2^32); update_minmaxsum of mixed types reinterprets bits (C46_minmaxsum_mixed_refuted); prop2string never reduces len (C11_small_buffer_refuted); string2prop looks only at the first occurrence of a name (C11_first_occurrence_refuted).
* Trace: CompressedSnapshotRecord::append of nodes overwrites the ids already stored (C05); chunk order across grown chunks, an uncounted lost snapshot with the stop policy, a heap overflow with the flush policy or buffer_size=0 (C07).
* .cali files: tabs, control characters and UTF-8 bytes are dropped (C26); an empty record is a read error, a lone empty string value is lost, PTR values crash the reader, hidden attributes' values are replaced (C28); read_uint64_element does not check digits; doubles are written with 6 digits; concurrent users of one CaliWriter can write a node twice; merge_node dereferences null on invalid node data; the database keeps the first attribute of a name even if the type differs; the bootstrap attributes cali.attribute.type/prop are not registered by name.
* Aggregation: sum(x) over records that carry only sum#x while x is unknown matches nothing (C30); merging flushed inclusive sums double counts (C33_reaggregate_refuted); a count of 0 is not output, so re-aggregation counts 1; ratio(x,x) and grouping by an aggregated attribute double count on re-aggregation; avg/count/variance match the leaf attribute of reference entries, sum/min/max only immediate entries; percent_total can output an empty value; the variance count is 32 bits wide.
* Runtime aggregation: keys of more than 16 entries are merged or split by hash, metrics created after a key's first snapshot are ignored for this key, a metric is dropped at 2^32 values (C37); clear() loses the SKIPPED key (C38); hashing a double key outside of the range of uint64 is undefined; string keys keep user pointers.
* WHERE/LET: large differences are misordered (C34_large_difference_refuted), < and >= are not complementary; unparsable right-hand sides become an empty variant that every value exceeds; a condition on an unknown attribute can match an empty entry; truncate() of large values is undefined, the target's type can differ from its value's (C35).
* CalQL: a printed query has no separators between aggregation arguments and cannot be parsed back (C57_print_refuted; cali-query stores this text as a global); SELECT *, a loses the star (C57_star_column_refuted); a quoted "not" is still the keyword (C57_quoted_not_refuted); empty arguments are dropped (C57_empty_argument_refuted); a trailing semicolon is an error; a positional formatter argument equal to an argument name is taken as a flag.
* Configuration texts: rec_list/to_stringlist drop empty words, rec_dict rejects {} (C47); std::isspace of negative char values is undefined; non-last profile sections in a configuration file only add missing variables, the last one replaces the profile (C40 _refuted theorems); values are cut at the first white space unless quoted; a section header containing = is also an assignment; set() after a set was initialised has no effect.
* Region filter and event service: text after an item that is not a comma is ignored, a quoted "match" is still the function (C39_ignored); set never closes a branch, overlapping regions leave it open, the stack is shared by threads and keeps the caller's string pointer (C49 _refuted theorems).
* Allocation tracking: tracking a live address again leaks its size in the active memory, overlapping allocations can be missed, sizes of 2 GiB and more are truncated (C48); elem_size 0 divides by zero; the active memory is read without the lock. SplayTree: the zig-zig step rotates the node twice (move to root, no amortised bound), the destructor frees nothing. Timer: the error counter is unprotected.
* Region profiles: the flat inclusive profile counts recursive regions several times (C50_recursion_refuted), records whose innermost reference entry is not a region are ignored (C50_leaf_refuted), an unknown region attribute selects all nested attributes; region names that are empty or contain / collide.
* MPI: 2*steppow2 overflows above 2^30 ranks; recursive_append_path only follows attribute ids smaller than the node id; OutputCommMpi::bcast_str copies the local string into a buffer of the root's length.
* C++ annotation classes: Annotation::Impl::detach re-reads the count (double free, C52_annotation_double_free_refuted); Loop::end can end twice under concurrency (C52_loop_concurrent_end_refuted); default copy assignment of Loop breaks its count; the first begin(int)/set(int) of an existing double attribute is lost (C52_first_int_lost_refuted).
* Formatters: table: ORDER BY a,b sorts by b first (as the manual's example shows) and compares printed texts; tree: the record comparator is not a strict weak order when attributes are missing (C54_record_order_refuted), the ascending order is wrong for incomplete subtrees (C54_ascending_missing_refuted), narrow columns are misaligned (C54_narrow_refuted); JSON: addresses are unquoted, the split layout is no JSON text, names in "attributes" are not escaped, control and non-ASCII bytes are dropped (C55 _refuted theorems), an attribute named path collides; json-split: nodes are shared between columns, the internal column cali.attribute.name appears, global names can collide with data/columns (C56 _refuted theorems).
* Annotation bindings: set() on a bound attribute changes the value seen by the filter, so that ranges are ended that were not begun or stay open (C77_set_refuted); a region of an attribute that another thread is just creating can begin before the binding marks the attribute (C77_late_refuted); subscribing again repeats on_mark_attribute; a syntax error in one filter drops both (C77).
* Loop statistics: one unsynchronized stack of loops for all threads, so that concurrent loops get each other's iterations (C78_threads_refuted); nested iterations of one loop restart its clock; a channel deactivated within a loop keeps it (C78).
* Expand formatter: it escapes nothing: records with different paths (a/b against b inside a) or different fields have identical lines (C79_separators_refuted).
* Services: every ConfigManager spec check adds the default service specs again, which replaces an application's own spec of the same name (C80_replacement_refuted); a service that is listed twice is registered twice (C80_twice_refuted).
* Time series: region calls of another thread between the flush and the clearing of the profile are lost (C82_during_refuted); the start time is a thread-scope blackboard entry (and shared by all timeseries channels), so that a snapshot by another thread reports no or an old start time and a wrong duration (C82_thread_refuted).
* Thread monitor: monitor_fn compares nanosleep's result (-1) with EINTR, so an interrupting signal ends the monitoring thread (ThreadMonitor.cpp; not modelled).
* MPI message tracing (MpiTracing.cpp, Wrapper.w): Waitsome/Testsome take the status at indices[i] instead of i; Waitany/Testany use MPI_UNDEFINED as an array index; completing an inactive persistent receive and messages to MPI_PROC_NULL are recorded; Scatterv sums displacements (argument 2) instead of counts; communicators that are freed stay in the map, so a reused handle shows the old communicator; sizes of 2 GiB and more overflow int; a request completed while the channel is inactive stays in the table and gives a phantom receive for a later request with the same handle (C83_*_refuted).
* Message pattern analysis (MpiPattern.cpp): the begin of a communication region resets the counters of the regions around it (C84_nested_refuted); sums over 2 GiB overflow (C84_large_refuted); the counters and rank sets are not locked.
* Adiak import (AdiakImport.cpp): longs are cast to int; unsigned ints from 2^31 are sign-extended; texts of containers end with a NUL byte and do not escape separators; an unset value (adiak_type_unset) calls Caliper::end on the process blackboard although the value is on the channel's: the value stays and the thread's stack_error stops all its later begins and ends (C85_*_refuted).
* cali-stat (cali-stat.cpp): the estimated size of snapshot records has nothing for immediate values (C86_size_refuted), int sums become negative from 2 GiB (C86_large_refuted); the exit code is 0 even if a file cannot be read.
* memstat (MemStatService.cpp): the read buffer has 80 characters; if the first six numbers need more, memstat.data is cut off silently (C87_long_refuted).
* Adiak export (AdiakExport.cpp): the loop over a path includes the root of the tree, so a value with an empty name is exported whenever a global is a reference (C88_root_refuted); integers beyond int are exported as 0 (C88_long_refuted); floating point values become texts; values of a path are listed innermost first.
* Symbol lookup (SymbolLookup.cpp): the cache is keyed by the address alone but holds a node with its callers, so a function called along a second path is reported with the first path's callers (C89_call_path_refuted); marker nodes are shared by channels with different options (C89_own_options_refuted) and outlive the channel whose m_root_node their symbols hang on; all lookups off: Entry(nullptr) reads node->data() (C89_no_options_refuted); init_lookup does not reset m_num_cached, so the second flush's log can claim more cached than performed lookups.
* Umpire service (UmpireStatistics.cpp): the snapshot callback has four parameters and calls a three-parameter function (does not compile); its JSON spec lacks a comma and has a trailing one (the lenient parser still reads all three options). Thread monitor (ThreadMonitor.cpp): compares nanosleep's return value with EINTR, so a signal ends monitoring for good.
* ConfigManager: an "inherit" cycle in option specs overflows the stack (C58).
* ConfigManager: "{{}" is not expanded (C58).
* ConfigManager: contradictory explicit arguments of a boolean option switch it on while get() returns the first value (C59); the first set_default_parameter for a key wins (C59).
* ConfigManager: a trailing or doubled comma in a config string is an unknown parameter with an empty name, so add() fails (C60).
* ConfigManager: add() with an unknown parameter returns false although the channels were added, and unknown parameters accepted by add(text, extra) make later add() calls fail (C61).
* ConfigManager: an error in a config spec's "options" is ignored and the rest of the list dropped; its "services" are appended to CALI_SERVICES_ENABLE without a comma; an empty "config": {} is an error (C62).
* Caliper.cpp/cali.cpp: no null check after finalization in the C and C++ annotation wrappers; every call except is_active, release and thread exit dereferences a null pointer (C63).
* cali_channel_flush with the id of a channel that does not exist dereferences a null pointer; cali_flush assumes that the default channel has id 0 (C63).
* Caliper::delete_channel leaves the channel's active flag set, and activating the handle of a deleted channel puts it back among the active channels: its callbacks run after finish (C63).
* Caliper::end on a channel without an open region sets the calling thread's stack-error flag: later thread and process annotations of that thread are ignored (C64).
* Caliper::instance: the pointer g_ptr is set to nullptr after the mutex has been taken, so a second thread that saw s_init_lock == 1 initializes again and replaces the global data; s_init_lock is set to 0 before the default channel exists.
* cali_set_global_string_byname stores strlen+1 bytes: the value carries a trailing NUL.
* ChannelController: the finish callback resets the controller's channel reference, the last one, while the callbacks of this channel are being iterated.
* Caliper::exchange with an attribute that is not as-value overwrites the region-stack slot.
* Flush records and globals beyond 120 blackboard entries are dropped silently (C65).
* validator: begin/end of channel-scope attributes share the thread's stack, so channel and thread regions that overlap legally are reported as nesting errors (C66).
* validator: the value check skips invalid values on push but not on pop, so an empty begin value yields a false error (C66_empty_refuted).
* loop_monitor: target_loops match by prefix (strncmp with the target's length), so "main" also selects "mainloop2"; strncmp may read past the end of a value that is not NUL-terminated (C67_prefix_refuted).
* loop_monitor: one instance is shared by all threads without lock: a data race on its counters.
* loop_monitor: a channel started inside a loop ends at level -1, which equals the "no target" value: iterations outside any target loop are then counted (C67_restart_refuted).
* loop_monitor: a negative first iteration number is not recorded (C67_negative_refuted).
* statistics service: num_threads is incremented without synchronization.
* region_monitor: if the channel is activated inside a region, pre_end_cb pops an empty vector (undefined behaviour).
* trace/aggregate: the stopped flag is tested, not held: a thread that has passed the test saves its record while another thread flushes or empties the same buffer (data race on the chunk list / hash map, C68_race_refuted).
* aggregate: unlike trace, there is no flush_lock: two overlapping clears (or a flush and a clear) traverse, unlink and delete the same ThreadDB of an exited thread (use after free, C68_overlap_refuted).
* trace/aggregate: a record saved after clear_cb emptied the buffer but before it tests `retired` is deleted with the buffer if the thread exits in between; a record saved between flush and clear is cleared unwritten; neither is counted as dropped (C68_lost_refuted, C68_between_refuted).
* trace/aggregate: the drop counters are plain integers incremented by all threads (lost increments are possible; the model counts atomically).
* SnapshotTextFormatter: an attribute that does not exist when the first record is printed is never looked up again (its name is cleared), so later records show nothing for it (C70_late_attribute_refuted).
* SnapshotTextFormatter/UserFormatter: the documented alignment letters in [width+alignment] are ignored; at most 80 blanks are added; a non-numeric width throws an uncaught std::invalid_argument; there is no escape for a percent sign; a negative width becomes a huge size_t in UserFormatter (80 blanks) (C70_*_refuted).
* Args: a repeated option keeps its first value (std::map::insert); --option= with an empty value takes the next word; a single dash is silently dropped (C71_*_refuted).
* OutputStream: init() does not test is_initialized again under the lock; two threads calling stream() first at the same time both call fs.open, the second of which fails and sets failbit, so that all further output is lost (not modelled; the users in the library hold their own lock around stream()).
* CaliWriter: the test of m_written_nodes and the insert are two critical sections: two threads can both write a node, so a file written by several threads may contain a node line twice and num_written depends on the schedule (C72_exactly_once_refuted); readers are not confused by it (C72_read_back).
* region_monitor: the child time of a region accumulates over all instances while its inclusive time is that of the last instance only, so a region that is entered several times stops being measured although its own work is long (C73_last_instance_refuted); a channel activated inside a region reads back() of an empty vector (C73_inside_refuted).
* cali-query: --select a<5 means "a exists" (C74_less_refuted); an unknown function in --aggregate silently drops the rest of the list (C74_unknown_function_refuted); the arguments of the query's formatter are passed to the formatter chosen by an option (C74_formatter_arguments_refuted); use_path is uninitialized without a query (C74_uninitialized_refuted); --select replaces the WHERE of the query; the help texts say ':' where the code splits at ','; of several formatter options the first in the table wins, not the last on the command line.
* allocstats: clear_cb is never connected, so clearing the channel does not clear the region statistics; allocations outside any region are not tracked; an address tracked twice leaks its bytes (C75_retracked_refuted); a free that overtakes the allocation's second section makes the flush divide by zero (C75_overtaken_refuted).
* sysalloc: the wrappers track NULL for a failing malloc; a failing realloc untracks the pointer although it is still live.
* ThreadMonitor: nanosleep's return value (-1 on error) is compared with EINTR, so a signal ends the monitoring thread's sleep as an error and the monitor stops.

## Print Assumptions

For each of the following theorems `Print Assumptions` prints `Closed under the global context`:
C01_vldec_bounded, C01_vldec_total, C01_vlenc_bytes, C01_vlenc_length, C01_vlenc_minimal, C01_vlenc_roundtrip, C02_unpack_accepts_only_known_types, C02_unpack_rejects_bad_type, C02_variant_pack_roundtrip, C03_empty_entry_refuted, C03_entry_roundtrip, C04_large_id_refuted, C04_nodebuffer_roundtrip, C05_append_memory_safe, C05_five_references_refuted, C05_roundtrip_partial, C05_snapshotbuffer_partial, C05_two_calls_refuted, C06_chunk_roundtrip, C06_reject_only_if_full, C07_conservation_partial, C07_flush_overflow_refuted, C07_grow_order_refuted, C07_grow_zero_size_refuted, C07_stop_uncounted_refuted, C08_empty_cstring_refuted, C08_eq_implies_hash_eq, C08_eq_is_value_equality, C09_compare_order_partial, C09_int_compare_refuted, C09_int_overflow_refuted, C09_lt_gt_partial, C09_nan_refuted, C09_spec_antisym, C09_spec_eq, C09_spec_trans, C10_double_partial, C10_double_refuted, C10_to_bool, C10_to_int, C10_to_int64, C10_to_type, C10_to_uint, C11_first_occurrence_refuted, C11_prop2string_in_bounds, C11_property_list_parsed, C11_property_roundtrip, C11_small_buffer_refuted, C11_type_names_exact, C11_type_roundtrip, C12_blackboard_is_map, C12_spec_get_after_del, C12_spec_get_after_set, C13_hidden_leak_refuted, C13_snapshot_visible_partial, C13_visible_missing_refuted, C14_overflow_contained, C14_skip_keeps_entries, C14_update_never_rejected, C15_different_requests_different_nodes, C15_ids_unique, C15_lookup_by_id, C15_nodes_immutable, C15_path_identifies_node, C15_path_unique, C15_race_duplicate_refuted, C15_same_request_same_node, C16_get_child_path, C16_get_path_nodes_path, C16_get_path_path, C16_remove_innermost, C16_replace_all, C16_replace_innermost, C16_rm_innermost_meaning, C17_blocks_private, C17_exhausted_reports_failure, C17_long_path_refuted, C17_no_overrun, C17_slots, C17_small_block_refuted, C18_nested_value_refuted, C18_nesting_restores_thread_and_process_context, C18_nesting_restores_thread_context, C18_set_in_region_refuted, C19_end_closes_region, C19_end_closes_unaligned, C19_end_removes_value, C19_mismatched_end_is_an_error, C19_wrong_value_is_an_error, C20_error_freezes_thread, C20_error_is_local, C21_set_adds_if_absent, C21_set_changes_no_other, C21_set_replaces_innermost, C21_set_then_get, C22_context_depends_on_own_operations, C22_hidden_outer_region_refuted, C22_operation_is_local, C22_process_end_race_refuted, C22_snapshot_contents, C23_counter_wrap_refuted, C23_no_torn_snapshot, C23_snapshot_not_stale, C24_begin_callbacks, C24_end_callbacks, C24_nested_callbacks, C24_no_other_callbacks, C24_set_callbacks, C24_task_scope_end_refuted, C25_created_once, C25_different_names_different_attributes, C25_full_tree_refuted, C25_new_attribute_contents, C25_one_attribute_per_name, C26_escape_any_bytes, C26_escape_injective, C26_escape_roundtrip, C26_escaped_text_printable, C26_lossless_refuted, C27_contents, C27_self_contained, C27_writing_terminates, C28_blank_lines, C28_empty_record_refuted, C28_files_roundtrip, C28_files_same_paths, C28_hidden_value_refuted, C28_integer_text, C28_node_line_roundtrip, C28_pointer_node_refuted, C28_record_line_roundtrip, C28_single_empty_string_refuted, C28_value_roundtrip, C29_import_preserves_meaning, C29_mappings_are_stable, C29_merge_preserves_meaning, C30_avg, C30_count, C30_count_conserved, C30_integer_folds, C30_max, C30_min, C30_preaggregated_refuted, C30_sum, C30_sum_conserved, C31_any_input, C31_every_record, C31_groups, C31_immediate_order, C31_no_grouping, C32_double_order_refuted, C32_merge_partial, C32_order_independent, C32_zero_order_refuted, C33_inclusive_sum, C33_parents_present, C33_reaggregate_refuted, C34_absent, C34_complement, C34_filter, C34_large_difference_refuted, C34_less_greater_refuted, C34_select, C35_keeps, C35_let, C35_type_refuted, C36_escaped, C36_nested, C36_quoted, C36_stringlist, C36_total, C36_unambiguous, C36_word, C37_aggregation, C37_conservation, C37_late_metric_refuted, C37_long_key_refuted, C37_metric_lost_refuted, C37_no_skips, C37_runs, C37_statistics, C38_clear, C38_runs, C38_skipped_after_clear_refuted, C39_error, C39_pass, C40_file, C40_file_distinct, C40_lines, C40_override_refuted, C40_replace_refuted, C40_stable, C40_uninitialised, C40_unknown, C40_unrelated, C40_value, C41_no_leak, C41_tree, C41_unique, C42_allocation_succeeds_or_refused, C42_blocks_disjoint, C42_blocks_owned_and_aligned, C42_chunks_freed_once, C42_huge_request_refuted, C42_large_alignment_refuted, C42_statistics, C43_append_not_lost, C43_concurrent_traversal, C43_list_is_appended_nodes, C43_only_appended, C43_undisturbed_append_succeeds, C44_durations, C44_durations_total, C44_inclusive, C44_inclusive_exact, C44_inclusive_only, C44_snapshot, C44_thread_isolation, C45_appends_keep_prefix, C45_conservation, C45_refines_bounded_list, C46_add, C46_add_values, C46_div, C46_div_count_refuted, C46_max, C46_min, C46_minmaxsum, C46_minmaxsum_mixed_refuted, C47_dict, C47_dict_closed, C47_empty_dict_refuted, C47_empty_word_refuted, C47_list, C47_list_closed, C48_active, C48_active_refuted, C48_high_water_mark, C48_overlap_refuted, C48_region_high_water_mark, C48_resolve, C48_safe, C48_size_refuted, C48_track, C48_uid, C48_untrack, C49_balanced, C49_marked, C49_overlap_refuted, C49_record, C49_set_refuted, C49_string_reuse_refuted, C49_threads_refuted, C49_triggers, C50_flat_exclusive, C50_flat_inclusive, C50_metric, C50_nested_exclusive, C50_nested_inclusive, C50_total, C51_deterministic, C51_each_rank_sends_once, C51_no_deadlock, C51_nodes_importable, C51_packing_terminates, C51_result, C51_terminates, C52_annotation_double_free_refuted, C52_annotation_freed_once_partial, C52_annotation_values, C52_first_int_lost_refuted, C52_int_values, C52_leave_closes, C52_loop_closed_once_partial, C52_loop_concurrent_end_refuted, C52_loop_freed_once, C52_scopes_nested, C52_scopes_restore_context, C53_auto_columns, C53_cell_values, C53_layout, C53_rows_complete, C53_select_columns, C53_sorted, C54_ascending_missing_refuted, C54_columns, C54_header, C54_indentation, C54_layout, C54_lines, C54_narrow_refuted, C54_path_attributes, C54_record_contents, C54_record_order_refuted, C54_records_sorted, C54_sorted_asc, C54_sorted_desc, C54_tree, C54_values_complete, C55_address_refuted, C55_attribute_name_refuted, C55_characters_refuted, C55_integers, C55_object, C55_readable, C55_records, C55_split_refuted, C55_text, C56_columns, C56_internal_column_refuted, C56_shared_nodes_refuted, C56_split, C57_bad_aggregation, C57_defined_twice, C57_empty_argument_refuted, C57_missing_by, C57_print_refuted, C57_query, C57_quoted_not_refuted, C57_star_column_refuted, C57_unknown_clause, C57_unknown_formatter, C58_brace_refuted, C58_check, C58_config, C58_cycle_refuted, C58_enabled, C58_get, C58_metadata, C58_order, C58_placeholder, C58_query, C58_services, C58_services_text, C58_single, C58_total, C59_contradiction_refuted, C59_enabled, C59_explicit, C59_latest_refuted, C59_value, C60_bad_file, C60_comma_refuted, C60_empty, C60_garbage, C60_items, C60_no_value, C60_run, C60_unclosed, C60_unknown_option, C61_check, C61_check_extra, C61_extra_refuted, C61_failure, C61_get_channel, C61_items, C61_sticky, C61_success, C61_unknown_refuted, C62_bad_option_refuted, C62_config, C62_empty_refuted, C62_exists, C62_no_name, C62_options, C62_services_refuted, C62_unavailable, C63_after_release_refuted, C63_deleted_handle_refuted, C63_dispatch, C63_finalize, C63_finished, C63_flush, C63_flush_id_refuted, C63_ids, C63_life, C63_push, C63_queries, C63_thread_exit, C63_threads, C63_unknown_id, C64_annotations, C64_callbacks, C64_context, C64_error_refuted, C64_own_calls, C64_results, C64_thread_context, C65_channel_globals, C65_flush_record, C65_order, C65_process_globals, C66_empty_refuted, C66_end_message, C66_final, C66_open_regions, C66_report, C66_stack, C66_unmatched_refuted, C67_loops, C67_negative_refuted, C67_prefix_refuted, C67_restart_refuted, C67_total, C68_account, C68_between_refuted, C68_clear, C68_delete, C68_drop, C68_ex, C68_ex_drop, C68_flush, C68_flush_quiet, C68_lost_refuted, C68_memory, C68_overlap_refuted, C68_race_refuted, C68_serial, C69_time_profile, C69_total_time, C70_alignment_refuted, C70_bad_width_refuted, C70_distinct_files, C70_file_name, C70_late_attribute_refuted, C70_percent_refuted, C70_snapshot_text, C70_standard_streams, C70_user_format, C70_wide_refuted, C71_command_line, C71_dash_refuted, C71_empty_value_refuted, C71_unknown_option, C72_calls_return, C72_exactly_once_refuted, C72_node_lines_agree, C72_once_per_thread, C72_read_back, C72_records, C72_references_resolved, C72_single_thread, C72_single_thread_file, C73_inside_refuted, C73_last_instance_refuted, C73_long_only, C73_measured, C73_measured_all, C74_command_line, C74_formatter_arguments_refuted, C74_less_refuted, C74_options, C74_query_errors, C74_select_clauses, C74_uninitialized_refuted, C74_unknown_function_refuted, C75_balance, C75_bounds, C75_calls, C75_example, C75_flush, C75_highwater, C75_no_region, C75_overtaken_refuted, C75_retracked_refuted, C76_count, C76_count_conserved, C76_distribution, C76_fold, C76_list, C76_query, C76_sum_conserved, C77_bound, C77_case, C77_filter, C77_filter_error_refuted, C77_late_refuted, C77_mark_once_refuted, C77_mirror, C77_nested, C77_nested_case, C77_set_refuted, C78_case, C78_deactivated_refuted, C78_inside, C78_nested_iterations_refuted, C78_open, C78_program, C78_threads_refuted, C78_totals, C79_fields, C79_output, C79_separators_refuted, C80_available, C80_channel, C80_documentation, C80_latest, C80_list, C80_replacement_refuted, C80_sanity, C80_twice_refuted, C81_inclusive, C81_process, C81_report, C82_conserved, C82_during_refuted, C82_interval, C82_thread_refuted, C83_comm_reuse_refuted, C83_ex, C83_inactive_channel_refuted, C83_inactive_refuted, C83_proc_null_refuted, C83_scatterv_refuted, C83_size_refuted, C83_traced, C83_waitany_refuted, C83_waitsome_refuted, C84_ex, C84_large_refuted, C84_nested_refuted, C84_null_refuted, C84_regions, C85_container, C85_container_ex, C85_date_refuted, C85_ex, C85_existing_refuted, C85_import, C85_long_refuted, C85_nul_refuted, C85_number, C85_other, C85_texts_refuted, C85_uint_refuted, C85_unset_refuted, C86_counts, C86_ex, C86_large_refuted, C86_reuse, C86_size_refuted, C87_ex, C87_first, C87_long_refuted, C87_values, C88_double_refuted, C88_ex, C88_export, C88_long_refuted, C88_order_refuted, C88_root_refuted, C88_roundtrip, C89_call_path_refuted, C89_call_paths, C89_innermost, C89_library, C89_no_options_refuted, C89_own_options_refuted, C89_record_kept, C89_same_again.
