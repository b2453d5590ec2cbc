{
 "claims": [
  {
   "property": "C01",
   "status": "proved",
   "theorems": [
    "C01_vlenc_roundtrip",
    "C01_vlenc_length",
    "C01_vlenc_minimal",
    "C01_vlenc_bytes",
    "C01_vldec_bounded",
    "C01_vldec_total"
   ],
   "note": ""
  },
  {
   "property": "C02",
   "status": "proved",
   "theorems": [
    "C02_variant_pack_roundtrip",
    "C02_unpack_rejects_bad_type",
    "C02_unpack_accepts_only_known_types"
   ],
   "note": ""
  },
  {
   "property": "C03",
   "status": "proved",
   "theorems": [
    "C03_entry_roundtrip",
    "C03_empty_entry_refuted"
   ],
   "note": "Packing an empty entry dereferences null (refuted clause); reference and immediate entries proved."
  },
  {
   "property": "C04",
   "status": "partial",
   "theorems": [
    "C04_nodebuffer_roundtrip",
    "C04_large_id_refuted"
   ],
   "note": "Proved for ids below 2^63; ids >= 2^63 wrap (refuted)."
  },
  {
   "property": "C05",
   "status": "partial",
   "theorems": [
    "C05_append_memory_safe",
    "C05_roundtrip_partial",
    "C05_snapshotbuffer_partial",
    "C05_five_references_refuted",
    "C05_two_calls_refuted"
   ],
   "note": "Refuted for records with more than 4 node references or several node-append calls (CompressedSnapshotRecord.cpp:188 overwrites existing ids); proved for up to 4 references and any number of immediates; memory safety proved for all histories."
  },
  {
   "property": "C06",
   "status": "proved",
   "theorems": [
    "C06_chunk_roundtrip",
    "C06_reject_only_if_full"
   ],
   "note": ""
  },
  {
   "property": "C07",
   "status": "partial",
   "theorems": [
    "C07_conservation_partial",
    "C07_grow_order_refuted",
    "C07_stop_uncounted_refuted",
    "C07_flush_overflow_refuted",
    "C07_grow_zero_size_refuted"
   ],
   "note": "Grow and stop policies: conservation proved; refuted: chronological order across chunks (grow), uncounted lost snapshot (stop), heap overflow (flush policy, or grow with buffer_size=0)."
  },
  {
   "property": "C08",
   "status": "partial",
   "theorems": [
    "C08_eq_is_value_equality",
    "C08_eq_implies_hash_eq",
    "C08_empty_cstring_refuted"
   ],
   "note": ""
  },
  {
   "property": "C09",
   "status": "partial",
   "theorems": [
    "C09_compare_order_partial",
    "C09_lt_gt_partial",
    "C09_spec_antisym",
    "C09_spec_trans",
    "C09_spec_eq",
    "C09_int_compare_refuted",
    "C09_int_overflow_refuted",
    "C09_nan_refuted"
   ],
   "note": "Order proved for exact cases; int comparison overflow refuted."
  },
  {
   "property": "C10",
   "status": "partial",
   "theorems": [
    "C10_to_int",
    "C10_to_int64",
    "C10_to_uint",
    "C10_to_bool",
    "C10_to_type",
    "C10_double_partial",
    "C10_double_refuted"
   ],
   "note": "double-to-integer out of range is UB (refuted); rest proved."
  },
  {
   "property": "C11",
   "status": "proved",
   "theorems": [
    "C11_type_roundtrip",
    "C11_type_names_exact",
    "C11_property_list_parsed",
    "C11_prop2string_in_bounds",
    "C11_property_roundtrip",
    "C11_small_buffer_refuted",
    "C11_first_occurrence_refuted"
   ],
   "note": "Limits proved: the buffer length is never reduced, so small buffers are overrun (C11_small_buffer_refuted); only the first occurrence of a name is examined (C11_first_occurrence_refuted)."
  },
  {
   "property": "C12",
   "status": "proved",
   "theorems": [
    "C12_blackboard_is_map",
    "C12_spec_get_after_set",
    "C12_spec_get_after_del"
   ],
   "note": "Full refinement of the 1021-slot table to a finite map over all histories."
  },
  {
   "property": "C13",
   "status": "partial",
   "theorems": [
    "C13_snapshot_visible_partial",
    "C13_hidden_leak_refuted",
    "C13_visible_missing_refuted"
   ],
   "note": "Proved for histories without deletions, or without hidden keys, or without keys colliding mod 1021; otherwise refuted: back-shift deletion does not move the visibility bit, so a hidden entry appears in (or a visible one is missing from) snapshots."
  },
  {
   "property": "C14",
   "status": "proved",
   "theorems": [
    "C14_overflow_contained",
    "C14_skip_keeps_entries",
    "C14_update_never_rejected"
   ],
   "note": "Overflow counted, entries untouched, in-table updates never rejected."
  },
  {
   "property": "C15",
   "status": "proved",
   "theorems": [
    "C15_same_request_same_node",
    "C15_different_requests_different_nodes",
    "C15_nodes_immutable",
    "C15_lookup_by_id",
    "C15_ids_unique",
    "C15_path_identifies_node",
    "C15_path_unique",
    "C15_race_duplicate_refuted"
   ],
   "note": "All histories of whole requests by any number of threads. Limit (proved): two simultaneous first requests for the same path create two equal nodes (C15_race_duplicate_refuted)."
  },
  {
   "property": "C16",
   "status": "proved",
   "theorems": [
    "C16_get_child_path",
    "C16_get_path_path",
    "C16_get_path_nodes_path",
    "C16_remove_innermost",
    "C16_replace_innermost",
    "C16_replace_all",
    "C16_rm_innermost_meaning"
   ],
   "note": ""
  },
  {
   "property": "C17",
   "status": "partial",
   "theorems": [
    "C17_no_overrun",
    "C17_slots",
    "C17_blocks_private",
    "C17_exhausted_reports_failure",
    "C17_long_path_refuted",
    "C17_small_block_refuted"
   ],
   "note": "Proved for paths no longer than a node block; refuted: a longer path (257 values with 256-node blocks) writes past the block (MetadataTree.cpp:46-70), and blocks with fewer than 12 nodes overrun already at initialisation."
  },
  {
   "property": "C18",
   "status": "proved",
   "theorems": [
    "C18_nesting_restores_thread_context",
    "C18_nesting_restores_thread_and_process_context",
    "C18_nested_value_refuted",
    "C18_set_in_region_refuted"
   ],
   "note": "Refinement of the runtime (tree + blackboards) to a list-of-regions context, for all histories with other threads interleaved. Limits proved as counterexamples: nested begin of as-value attributes loses the outer value, set on a region attribute inside a region makes the end of that region an error."
  },
  {
   "property": "C19",
   "status": "proved",
   "theorems": [
    "C19_end_closes_region",
    "C19_end_closes_unaligned",
    "C19_end_removes_value",
    "C19_mismatched_end_is_an_error",
    "C19_wrong_value_is_an_error"
   ],
   "note": ""
  },
  {
   "property": "C20",
   "status": "proved",
   "theorems": [
    "C20_error_freezes_thread",
    "C20_error_is_local"
   ],
   "note": "The stack error is never cleared by any API call in the code, so the freeze is permanent."
  },
  {
   "property": "C21",
   "status": "proved",
   "theorems": [
    "C21_set_then_get",
    "C21_set_replaces_innermost",
    "C21_set_adds_if_absent",
    "C21_set_changes_no_other"
   ],
   "note": ""
  },
  {
   "property": "C22",
   "status": "proved",
   "theorems": [
    "C22_operation_is_local",
    "C22_context_depends_on_own_operations",
    "C22_snapshot_contents",
    "C22_process_end_race_refuted",
    "C22_hidden_outer_region_refuted"
   ],
   "note": "Limits proved as counterexamples: an end of a process-scope region concurrent with another thread's update of the process context works on the value read before the lock (lost update), and a snapshot omits an outer visible region when a hidden one is on the same key."
  },
  {
   "property": "C23",
   "status": "proved",
   "theorems": [
    "C23_snapshot_not_stale",
    "C23_no_torn_snapshot",
    "C23_counter_wrap_refuted"
   ],
   "note": "Small-step interleaving model; limit proved: after 2^31 updates the int counter is negative and caches stay stale (C23_counter_wrap_refuted)."
  },
  {
   "property": "C24",
   "status": "proved",
   "theorems": [
    "C24_begin_callbacks",
    "C24_end_callbacks",
    "C24_set_callbacks",
    "C24_no_other_callbacks",
    "C24_nested_callbacks",
    "C24_task_scope_end_refuted"
   ],
   "note": "Limit proved: attributes of scope other than thread/process (task) get begin events but no end event and no context update."
  },
  {
   "property": "C25",
   "status": "proved",
   "theorems": [
    "C25_one_attribute_per_name",
    "C25_created_once",
    "C25_new_attribute_contents",
    "C25_different_names_different_attributes",
    "C25_full_tree_refuted"
   ],
   "note": "Interleaving model of racing creators. Limit proved: when the tree is full an invalid attribute is registered under the name (C25_full_tree_refuted)."
  },
  {
   "property": "C26",
   "status": "partial",
   "theorems": [
    "C26_escape_roundtrip",
    "C26_escape_any_bytes",
    "C26_escaped_text_printable",
    "C26_escape_injective",
    "C26_lossless_refuted"
   ],
   "note": "Proved for strings of printable ASCII and newline with any continuation of the line; for arbitrary bytes the exact result is proved (other bytes are dropped, neighbours unaffected). As stated ('whatever characters') refuted: tabs, carriage returns and UTF-8 bytes are silently dropped."
  },
  {
   "property": "C27",
   "status": "proved",
   "theorems": [
    "C27_self_contained",
    "C27_writing_terminates",
    "C27_contents"
   ],
   "note": "All sequences of write calls on a growing tree, one writer at a time. Not modelled: two threads writing through one CaliWriter at once (check-then-write of a node id is two critical sections)."
  },
  {
   "property": "C28",
   "status": "partial",
   "theorems": [
    "C28_record_line_roundtrip",
    "C28_node_line_roundtrip",
    "C28_value_roundtrip",
    "C28_files_roundtrip",
    "C28_files_same_paths",
    "C28_empty_record_refuted",
    "C28_single_empty_string_refuted",
    "C28_pointer_node_refuted",
    "C28_hidden_value_refuted",
    "C28_blank_lines",
    "C28_integer_text"
   ],
   "note": "Line level, value level, and end to end: any number of files, each from any sequence of write calls, read into a new database. Refuted cases: an empty record is rejected by the reader, a lone empty-string value is lost, a pointer-typed node value crashes the reader, values of hidden attributes are replaced. Doubles: decimal formatting and parsing are parameters (hypothesis: the text parses back to the value). read_globals is modelled up to its error flag."
  },
  {
   "property": "C29",
   "status": "proved",
   "theorems": [
    "C29_merge_preserves_meaning",
    "C29_mappings_are_stable",
    "C29_import_preserves_meaning"
   ],
   "note": "Any number of streams with arbitrary ids, interleaved with attribute creation and entry construction; plus import from another database. Meaning = value plus meaning of attribute and parent, recursively."
  },
  {
   "property": "C30",
   "status": "partial",
   "theorems": [
    "C30_sum",
    "C30_min",
    "C30_max",
    "C30_integer_folds",
    "C30_count",
    "C30_avg",
    "C30_sum_conserved",
    "C30_count_conserved",
    "C30_preaggregated_refuted"
   ],
   "note": "All kernels' results as folds over the records of the group, for every history of add() calls with a growing database; sums and counts conserved over the groups (modulo 2^64). Counts 0 give no output. Refuted: sum(x) over records that carry only sum#x while attribute x is unknown loses the value (excluded by rec_ok in the other theorems)."
  },
  {
   "property": "C31",
   "status": "proved",
   "theorems": [
    "C31_groups",
    "C31_every_record",
    "C31_immediate_order",
    "C31_no_grouping",
    "C31_any_input"
   ],
   "note": "Output records = occurring groups, one each, for all key attributes, region paths and immediate keys; the hash-chain store is refined to a finite map. Immediate keys with the same attribute twice: order as given (std::sort modelled as stable)."
  },
  {
   "property": "C32",
   "status": "partial",
   "theorems": [
    "C32_order_independent",
    "C32_merge_partial",
    "C32_double_order_refuted",
    "C32_zero_order_refuted"
   ],
   "note": "Order independence: all kernels except any and variance on integers of one type, and min/max also on doubles (no NaN, not both zeros). Merging: count, scaled count, sum, scale, min, max, avg (exclusive) on integers, min/max on doubles. Refuted: sums of doubles depend on the order (rounding), and so does the minimum of 0.0 and -0.0 (the first one is kept). Missing: merging of ratio/percent_total and of inclusive kernels (merging flushed inclusive sums double counts: C33_reaggregate_refuted)."
  },
  {
   "property": "C33",
   "status": "proved",
   "theorems": [
    "C33_parents_present",
    "C33_inclusive_sum",
    "C33_reaggregate_refuted"
   ],
   "note": "Inclusive sum = sum of exclusive sums of the region and all regions below it (modulo 2^64); every enclosing region has an output record. Limit proved: aggregating results that contain inclusive sums again double counts."
  },
  {
   "property": "C34",
   "status": "partial",
   "theorems": [
    "C34_filter",
    "C34_select",
    "C34_complement",
    "C34_absent",
    "C34_large_difference_refuted",
    "C34_less_greater_refuted"
   ],
   "note": "All operators, all records; ordering conditions under the hypothesis that the compared values are exactly comparable (no NaN, integers less than 2^31 apart): refuted otherwise (C34_large_difference_refuted), and < / >= are not complementary because a record can carry several values of an attribute."
  },
  {
   "property": "C35",
   "status": "partial",
   "theorems": [
    "C35_let",
    "C35_keeps",
    "C35_type_refuted"
   ],
   "note": "All LET operators in sequence with conditions; hypothesis: ordering conditions compare exactly comparable values. truncate() of a value out of the range of int is undefined behaviour (None in the model). The target's value may have another type than the target attribute (refuted)."
  },
  {
   "property": "C36",
   "status": "proved",
   "theorems": [
    "C36_word",
    "C36_quoted",
    "C36_escaped",
    "C36_total",
    "C36_unambiguous",
    "C36_nested",
    "C36_stringlist"
   ],
   "note": "Every spelling (plain, escaped, quoted pieces) and a total theorem for every input; also read_nested_text and to_stringlist (which drops empty words)."
  },
  {
   "property": "C37",
   "status": "partial",
   "theorems": [
    "C37_aggregation",
    "C37_no_skips",
    "C37_statistics",
    "C37_conservation",
    "C37_runs",
    "C37_long_key_refuted",
    "C37_late_metric_refuted",
    "C37_metric_lost_refuted"
   ],
   "note": "Concrete vectors, hash chains, offsets and capacities of AggregationDB refined to groups of a history. Holds for keys of at most 16 entries and fewer than 2^32 snapshots; refuted: longer keys are merged or split by hash, metrics created after a key's first snapshot are lost for this key, the 32-bit kernel count drops a metric after 2^32 values. Conservation of counts holds for every key length."
  },
  {
   "property": "C38",
   "status": "partial",
   "theorems": [
    "C38_clear",
    "C38_runs",
    "C38_skipped_after_clear_refuted"
   ],
   "note": "After clear (in every reachable state) later histories without skipped snapshots give the records of a new database. Refuted with a skipped snapshot: clear drops the SKIPPED key, the skipped record carries the key of the first new entry."
  },
  {
   "property": "C39",
   "status": "proved",
   "theorems": [
    "C39_pass",
    "C39_error"
   ],
   "note": "C39_pass: every include/exclude text that spells items (any quoting and white space) is accepted and pass() is exactly 'no exclude item selects it and, if there are include patterns, an include item selects it'. C39_error: unclosed lists and bad regular expressions disable all filters with an error. std::regex is a parameter. C39_ignored shows what is silently ignored."
  },
  {
   "property": "C40",
   "status": "proved",
   "theorems": [
    "C40_value",
    "C40_unknown",
    "C40_stable",
    "C40_uninitialised",
    "C40_unrelated",
    "C40_lines",
    "C40_file",
    "C40_file_distinct",
    "C40_override_refuted",
    "C40_replace_refuted"
   ],
   "note": "C40_value is the full precedence over every history of API calls, environments and files; C40_unrelated, C40_stable, C40_unknown, C40_uninitialised; C40_lines/C40_file cover every file text. The two _refuted theorems are findings about repeated profile sections, outside of the claim."
  },
  {
   "property": "C41",
   "status": "proved",
   "theorems": [
    "C41_tree",
    "C41_unique",
    "C41_no_leak"
   ],
   "note": "Pointer-level heap model (parent, child, handedness fields; stale child pointers during rotations): memory safety, termination, set semantics and absence of leaks for all histories of insert, find and remove, for any three-way comparison and any consistent predicate."
  },
  {
   "property": "C42",
   "status": "proved",
   "theorems": [
    "C42_blocks_disjoint",
    "C42_blocks_owned_and_aligned",
    "C42_chunks_freed_once",
    "C42_allocation_succeeds_or_refused",
    "C42_statistics",
    "C42_large_alignment_refuted",
    "C42_huge_request_refuted"
   ],
   "note": "Limits proved: alignment larger than that of operator new (C42_large_alignment_refuted), sizes near 2^64 wrap the capacity check (C42_huge_request_refuted)."
  },
  {
   "property": "C43",
   "status": "proved",
   "theorems": [
    "C43_list_is_appended_nodes",
    "C43_append_not_lost",
    "C43_only_appended",
    "C43_concurrent_traversal",
    "C43_undisturbed_append_succeeds"
   ],
   "note": "Small-step interleaving model, sequentially consistent memory."
  },
  {
   "property": "C44",
   "status": "proved",
   "theorems": [
    "C44_snapshot",
    "C44_durations_total",
    "C44_durations",
    "C44_inclusive",
    "C44_inclusive_exact",
    "C44_inclusive_only",
    "C44_thread_isolation"
   ],
   "note": "All event histories on any number of threads and any clock values; 64-bit wrap-around exact. The clock is an input; the error counter's int overflow is not modelled."
  },
  {
   "property": "C45",
   "status": "proved",
   "theorems": [
    "C45_refines_bounded_list",
    "C45_appends_keep_prefix",
    "C45_conservation"
   ],
   "note": ""
  },
  {
   "property": "C46",
   "status": "proved",
   "theorems": [
    "C46_add",
    "C46_add_values",
    "C46_min",
    "C46_max",
    "C46_div",
    "C46_div_count_refuted",
    "C46_minmaxsum",
    "C46_minmaxsum_mixed_refuted"
   ],
   "note": "Defined-behaviour domain: no signed overflow, no out-of-range double conversion. C46_div_count_refuted: the count is truncated to 32 bits. C46_minmaxsum_mixed_refuted: mixing types reinterprets bits."
  },
  {
   "property": "C47",
   "status": "partial",
   "theorems": [
    "C47_list",
    "C47_dict",
    "C47_empty_dict_refuted",
    "C47_empty_word_refuted",
    "C47_list_closed",
    "C47_dict_closed"
   ],
   "note": "Lists: all nestings; empty words are dropped by the code (refuted that they are kept). Dictionaries: non-empty ones; the empty dictionary {} is an error in the code (refuted)."
  },
  {
   "property": "C48",
   "status": "partial",
   "theorems": [
    "C48_safe",
    "C48_track",
    "C48_untrack",
    "C48_resolve",
    "C48_active",
    "C48_high_water_mark",
    "C48_region_high_water_mark",
    "C48_active_refuted",
    "C48_overlap_refuted",
    "C48_size_refuted",
    "C48_uid"
   ],
   "note": "Critical sections of the callbacks interleave arbitrarily. Refuted: tracking a live address again leaves its old size in the active memory for good; with overlapping allocations a lookup can miss; sizes of 2 GiB and more are reported truncated to int."
  },
  {
   "property": "C49",
   "status": "proved",
   "theorems": [
    "C49_marked",
    "C49_triggers",
    "C49_balanced",
    "C49_record",
    "C49_set_refuted",
    "C49_overlap_refuted",
    "C49_threads_refuted",
    "C49_string_reuse_refuted"
   ],
   "note": "Model: EventModel.v (EventTrigger.cpp callbacks, markers, the branch filter stack with the callers' string pointers; push_snapshot(_replace) records as entry lists). Region filters are those of C39 (std::regex is a parameter). The conditions of C49_triggers (well-nested, strings unchanged while their region is open, set events do not open branches, attributes defined before use) are needed: C49_set_refuted, C49_overlap_refuted, C49_threads_refuted (branch stack shared by all threads) and C49_string_reuse_refuted (the stack keeps the caller's string pointer) show what happens otherwise. Not modelled: parsing of region_level, allocation of event attribute ids (C25)."
  },
  {
   "property": "C50",
   "status": "proved",
   "theorems": [
    "C50_total",
    "C50_nested_exclusive",
    "C50_nested_inclusive",
    "C50_flat_exclusive",
    "C50_flat_inclusive",
    "C50_metric"
   ],
   "note": "RegProfModel.v models the four process_record functions. Path-keyed profiles need region names that are non-empty and contain no slash (names_ok); otherwise different paths share a key. C50_recursion_refuted, C50_leaf_refuted and C50_unknown_region_attribute are findings outside of the claim."
  },
  {
   "property": "C51",
   "status": "proved",
   "theorems": [
    "C51_no_deadlock",
    "C51_terminates",
    "C51_deterministic",
    "C51_result",
    "C51_each_rank_sends_once",
    "C51_nodes_importable",
    "C51_packing_terminates"
   ],
   "note": "MPI is represented by its point-to-point guarantees; rank states, buffers and merge functions are parameters of the theorem (C04, C05, C29, C32 cover them separately) and the hypothesis 'merges' states what merging has to do. Example C51_ex_merges gives an instance and C51_ex_run a complete run. int overflow for more than 2^30 ranks not modelled."
  },
  {
   "property": "C52",
   "status": "partial",
   "theorems": [
    "C52_scopes_nested",
    "C52_leave_closes",
    "C52_scopes_restore_context",
    "C52_loop_freed_once",
    "C52_loop_closed_once_partial",
    "C52_loop_concurrent_end_refuted",
    "C52_annotation_double_free_refuted",
    "C52_annotation_freed_once_partial",
    "C52_annotation_values",
    "C52_int_values",
    "C52_first_int_lost_refuted"
   ],
   "note": "Partial: with overlapping calls a Loop can be ended twice (C52_loop_concurrent_end_refuted), an Annotation's implementation can be freed twice (C52_annotation_double_free_refuted), and the first begin(int)/set(int) for an existing double attribute is lost (C52_first_int_lost_refuted); without overlap all hold. Default-generated copy assignment of Loop is not modelled."
  },
  {
   "property": "C53",
   "status": "proved",
   "theorems": [
    "C53_rows_complete",
    "C53_cell_values",
    "C53_select_columns",
    "C53_auto_columns",
    "C53_layout",
    "C53_sorted"
   ],
   "note": "The metadata database is constant while records are formatted; sort statements about keys that parse back exactly (keys_ok); std::stable_sort is modelled by stable insertion sort. The last ORDER BY attribute is the primary sort key, as in the manual's example, which C53_manual_example reproduces."
  },
  {
   "property": "C54",
   "status": "partial",
   "theorems": [
    "C54_tree",
    "C54_lines",
    "C54_indentation",
    "C54_sorted_desc",
    "C54_sorted_asc",
    "C54_records_sorted",
    "C54_record_contents",
    "C54_path_attributes",
    "C54_columns",
    "C54_layout",
    "C54_values_complete",
    "C54_header",
    "C54_ascending_missing_refuted",
    "C54_record_order_refuted",
    "C54_narrow_refuted"
   ],
   "note": "Proved for all inputs with these exceptions, each shown by an example: ascending order is wrong if a record in a subtree lacks the sort attribute (C54_ascending_missing_refuted; C54_sorted_asc assumes it present); the record comparator is not a valid strict weak order if the attribute is missing (C54_record_order_refuted, undefined behaviour in std::stable_sort); lines of multi-record entries are shifted and one-letter names under-indented when the path column leaves less than three (two) characters (C54_narrow_refuted, condition in C54_layout). The metadata database is constant while records are formatted; the min/max caches are not modelled (sorting happens once, at flush); print-globals is not modelled."
  },
  {
   "property": "C55",
   "status": "partial",
   "theorems": [
    "C55_records",
    "C55_object",
    "C55_integers",
    "C55_text",
    "C55_readable",
    "C55_address_refuted",
    "C55_split_refuted",
    "C55_attribute_name_refuted",
    "C55_characters_refuted"
   ],
   "note": "Read back with an executable JSON reader (JsonSpec, a subset of RFC 8259: no exponents, no \\u escapes, ASCII). std::to_string(double) is a parameter; finite doubles are required to have number texts. Refuted: addresses are unquoted hexadecimal digits (misread or invalid JSON), the split layout is not one JSON text, attribute names are not escaped in the attributes section, control and non-ASCII characters are dropped."
  },
  {
   "property": "C56",
   "status": "partial",
   "theorems": [
    "C56_split",
    "C56_columns",
    "C56_internal_column_refuted",
    "C56_shared_nodes_refuted"
   ],
   "note": "Read back with the JSON reader of JsonSpec. Refuted: without SELECT the internal attribute cali.attribute.name becomes a column filled with attribute names, because immediate entries' attribute nodes are searched like region nodes (C56_internal_column_refuted); region columns share node-table entries with equal labels, whose column member then names only one column (C56_shared_nodes_refuted). std::to_string(double) is a parameter."
  },
  {
   "property": "C57",
   "status": "partial",
   "theorems": [
    "C57_query",
    "C57_unknown_clause",
    "C57_missing_by",
    "C57_bad_aggregation",
    "C57_unknown_formatter",
    "C57_defined_twice",
    "C57_star_column_refuted",
    "C57_quoted_not_refuted",
    "C57_empty_argument_refuted",
    "C57_print_refuted"
   ],
   "note": "Every text spelling a well-formed clause list parses without error to the described query (C57_query); rejection theorems for unknown clauses, missing BY, bad aggregations, unknown formatters, doubly defined LET targets; refuted corner cases: SELECT *, a loses the star, quoted not is still a keyword, empty arguments are dropped, the printed query omits separators between aggregation arguments and does not parse back."
  },
  {
   "property": "C58",
   "status": "partial",
   "theorems": [
    "C58_enabled",
    "C58_total",
    "C58_cycle_refuted",
    "C58_order",
    "C58_single",
    "C58_get",
    "C58_services",
    "C58_services_text",
    "C58_config",
    "C58_placeholder",
    "C58_brace_refuted",
    "C58_query",
    "C58_check",
    "C58_metadata"
   ],
   "note": "Inheritance is proved total for acyclic specs; refuted: a cycle overflows the stack for every depth (C58_cycle_refuted); a brace before the placeholder hides it (C58_brace_refuted)."
  },
  {
   "property": "C59",
   "status": "partial",
   "theorems": [
    "C59_value",
    "C59_enabled",
    "C59_explicit",
    "C59_latest_refuted",
    "C59_contradiction_refuted"
   ],
   "note": "Refuted: a later default does not replace an earlier one (C59_latest_refuted); with contradictory explicit arguments the option is on although get() returns false (C59_contradiction_refuted)."
  },
  {
   "property": "C60",
   "status": "partial",
   "theorems": [
    "C60_run",
    "C60_empty",
    "C60_items",
    "C60_unknown_option",
    "C60_unclosed",
    "C60_no_value",
    "C60_garbage",
    "C60_bad_file",
    "C60_comma_refuted"
   ],
   "note": "Texts with all spellings parse to the items' meaning (C60_run, C60_items), error theorems for five kinds of bad text. Refuted: a trailing comma is read as a parameter with an empty name (C60_comma_refuted)."
  },
  {
   "property": "C61",
   "status": "partial",
   "theorems": [
    "C61_check",
    "C61_check_extra",
    "C61_success",
    "C61_failure",
    "C61_sticky",
    "C61_items",
    "C61_get_channel",
    "C61_unknown_refuted",
    "C61_extra_refuted"
   ],
   "note": "C61_check is for calls that return (cyclic inheritance overflows the stack, C58). Refuted: add() with an unknown parameter returns false but has added the channels (C61_unknown_refuted); accepted unknown parameters make the next add() fail (C61_extra_refuted)."
  },
  {
   "property": "C62",
   "status": "partial",
   "theorems": [
    "C62_options",
    "C62_config",
    "C62_unavailable",
    "C62_exists",
    "C62_no_name",
    "C62_bad_option_refuted",
    "C62_services_refuted",
    "C62_empty_refuted"
   ],
   "note": "Refuted: an error in a config spec's option list is ignored and the remaining options are lost (C62_bad_option_refuted); services are appended to CALI_SERVICES_ENABLE without a comma (C62_services_refuted); an empty dictionary in an option spec is an error (C62_empty_refuted). The deprecated list form of query is modelled but not part of the theorem; texts are in the canonical quoting of C47."
  },
  {
   "property": "C63",
   "status": "partial",
   "theorems": [
    "C63_ids",
    "C63_queries",
    "C63_unknown_id",
    "C63_life",
    "C63_finished",
    "C63_finalize",
    "C63_threads",
    "C63_thread_exit",
    "C63_dispatch",
    "C63_push",
    "C63_flush",
    "C63_deleted_handle_refuted",
    "C63_after_release_refuted",
    "C63_flush_id_refuted"
   ],
   "note": "Each API call is one atomic step (the siglock and mutexes are not modelled here; C43 and C12-C14 treat concurrency). Services are represented by the sequence of callbacks they receive. Precondition: handles of deleted channels are not used. Refuted: activating a deleted channel's handle brings its callbacks back after finish (C63_deleted_handle_refuted); every call after finalization except is_active, release and thread exit is a null access (C63_after_release_refuted); cali_channel_flush with an unknown id is a null access (C63_flush_id_refuted)."
  },
  {
   "property": "C64",
   "status": "partial",
   "theorems": [
    "C64_context",
    "C64_thread_context",
    "C64_results",
    "C64_own_calls",
    "C64_annotations",
    "C64_callbacks",
    "C64_error_refuted"
   ],
   "note": "Context tree not full. Refuted: a failed end on a channel puts the calling thread in the error state, so its later thread and process annotations are ignored (C64_error_refuted): the isolation holds for histories without such an error."
  },
  {
   "property": "C65",
   "status": "proved",
   "theorems": [
    "C65_flush_record",
    "C65_process_globals",
    "C65_channel_globals",
    "C65_order"
   ],
   "note": "Attributes not hidden, context tree not full, at most SNAP_MAX = 120 blackboard entries (records beyond that are truncated, finding). The attribute lookup behind is_global is a parameter."
  },
  {
   "property": "C66",
   "status": "partial",
   "theorems": [
    "C66_stack",
    "C66_final",
    "C66_open_regions",
    "C66_end_message",
    "C66_report",
    "C66_empty_refuted",
    "C66_unmatched_refuted"
   ],
   "note": "Events as Caliper sends them to the validator (the value passed to an end event is arbitrary); thread-local stacks are per thread; empty (invalid) begin values are excluded (C66_empty_refuted: they make the validator report an error for a well-nested program). C66_unmatched_refuted: an end without a begin is not reported, because Caliper does not send the callback in this case."
  },
  {
   "property": "C67",
   "status": "partial",
   "theorems": [
    "C67_loops",
    "C67_total",
    "C67_prefix_refuted",
    "C67_restart_refuted",
    "C67_negative_refuted"
   ],
   "note": "One thread (the service has one unsynchronized instance for all threads, finding); int counters unbounded; the clock comparison is an input; iteration numbers of target loops are not negative (C67_negative_refuted); events properly nested (C67_restart_refuted shows what happens if the channel is started inside a loop). C67_prefix_refuted: target names select by prefix."
  },
  {
   "property": "C68",
   "status": "partial",
   "theorems": [
    "C68_serial",
    "C68_memory",
    "C68_flush",
    "C68_flush_quiet",
    "C68_clear",
    "C68_delete",
    "C68_drop",
    "C68_account",
    "C68_ex",
    "C68_ex_drop",
    "C68_overlap_refuted",
    "C68_lost_refuted",
    "C68_between_refuted",
    "C68_race_refuted"
   ],
   "note": "Steps are single shared-memory accesses under sequential consistency; saving a record to, flushing and emptying the contents of one buffer are atomic steps (C68_race_refuted shows that the code does not guarantee this: the stopped flag is tested, not held), and so are the spinlock sections. An exited thread makes no further calls. Signal handlers, log output, the destructor and the stop/flush overflow policies (C07) are left out. Refuted: without the lock (aggregate service) two overlapping clears use freed memory (C68_overlap_refuted); a record saved after the buffer was emptied, or between flush and clear, can vanish without being counted (C68_lost_refuted, C68_between_refuted)."
  },
  {
   "property": "C69",
   "status": "proved",
   "theorems": [
    "C69_time_profile",
    "C69_total_time"
   ],
   "note": "End-to-end composition of the runtime (C18-C24), event (C49), timer (C44) and aggregate (C37) models through push_snapshot. Hypotheses: the profiled thread has no stack errors, the context tree is not full, only thread-scope nested region attributes and hidden internal ones are used, no filters, enable_snapshot_info off, aggregation over all regions (empty key list), fewer than 2^32 snapshots, 64-bit clock readings. Time after the last region call is not in the profile (no snapshot is taken at flush)."
  },
  {
   "property": "C70",
   "status": "partial",
   "theorems": [
    "C70_user_format",
    "C70_snapshot_text",
    "C70_file_name",
    "C70_distinct_files",
    "C70_late_attribute_refuted",
    "C70_alignment_refuted",
    "C70_wide_refuted",
    "C70_bad_width_refuted",
    "C70_percent_refuted",
    "C70_standard_streams"
   ],
   "note": "Widths up to 80, values with non-empty text, literals without percent signs, names without percent signs or brackets. Values are given by their text (Variant::to_string). C70_late_attribute_refuted: SnapshotTextFormatter gives up on attributes unknown at its first print; C70_alignment_refuted: the documented alignment letters are ignored; C70_wide_refuted, C70_bad_width_refuted (uncaught exception), C70_percent_refuted: no way to print a percent sign."
  },
  {
   "property": "C71",
   "status": "partial",
   "theorems": [
    "C71_command_line",
    "C71_unknown_option",
    "C71_empty_value_refuted",
    "C71_dash_refuted"
   ],
   "note": "Option tables with distinct names, long names and letters; letters other than '-' and '='. If an option is given twice, the first value counts (as stated). C71_empty_value_refuted: --option= with an empty value takes the next word as its value; C71_dash_refuted: a word consisting of a single dash is dropped."
  },
  {
   "property": "C72",
   "status": "proved",
   "theorems": [
    "C72_references_resolved",
    "C72_node_lines_agree",
    "C72_records",
    "C72_once_per_thread",
    "C72_single_thread",
    "C72_single_thread_file",
    "C72_calls_return",
    "C72_read_back",
    "C72_exactly_once_refuted"
   ],
   "note": "Steps are the critical sections (lock_guard blocks) of CaliWriter.cpp; stream output itself is one atomic line under m_os_lock. Exactly-once is refuted (check and insert are separate critical sections): two threads may write the same node line; harmless for the reader (C72_read_back). num_written therefore depends on the schedule."
  },
  {
   "property": "C73",
   "status": "proved",
   "theorems": [
    "C73_measured",
    "C73_measured_all",
    "C73_long_only",
    "C73_last_instance_refuted",
    "C73_inside_refuted"
   ],
   "note": "One thread (the service has one unsynchronized instance); durations exact integers instead of doubles; properly nested events. C73_last_instance_refuted: child times accumulate over all instances while the inclusive time is that of the last one, so a region that no longer spends time in children can stay unmeasured. C73_inside_refuted: a channel activated inside a region reads back() of an empty vector at the region's end."
  },
  {
   "property": "C74",
   "status": "partial",
   "theorems": [
    "C74_options",
    "C74_command_line",
    "C74_less_refuted",
    "C74_unknown_function_refuted",
    "C74_formatter_arguments_refuted",
    "C74_uninitialized_refuted",
    "C74_query_errors",
    "C74_select_clauses"
   ],
   "note": "Built on C71 (command lines) and C57 (queries). Messages not modelled. Refuted: --select with < or > means existence (C74_less_refuted); an unknown function silently drops the rest of the --aggregate list (C74_unknown_function_refuted); formatter arguments of the query leak into a formatter chosen by an option (C74_formatter_arguments_refuted); use_path flags are uninitialized without a query (C74_uninitialized_refuted)."
  },
  {
   "property": "C75",
   "status": "proved",
   "theorems": [
    "C75_flush",
    "C75_highwater",
    "C75_calls",
    "C75_balance",
    "C75_bounds",
    "C75_retracked_refuted",
    "C75_overtaken_refuted",
    "C75_no_region",
    "C75_example"
   ],
   "note": "proved for disciplined allocators (C75_calls, C75_flush, C75_highwater, C75_balance, C75_bounds) for every interleaving of the locked sections; C75_retracked_refuted: an address tracked twice without a free leaks its bytes into the total for ever; C75_overtaken_refuted: a free that overtakes the allocation's second section leaves a region entry without path and count and the flush divides by zero; C75_no_region_partial: allocations outside any region are not tracked. Mathematical integers for uint64_t (justified by C75_bounds); the counters of the finish log line are not modelled."
  },
  {
   "property": "C76",
   "status": "proved",
   "theorems": [
    "C76_query",
    "C76_list",
    "C76_fold",
    "C76_count",
    "C76_sum_conserved",
    "C76_count_conserved",
    "C76_distribution"
   ],
   "note": "C76_query relates the flushed records of the query over the bytes of the files to the specification (result_of in QFileSpec, by names and values); C76_list is the query without aggregation; C76_fold, C76_count, C76_sum_conserved and C76_count_conserved read the individual results off it, C76_distribution shows independence of the distribution of the records over files. Limits: LET operators and globals are not part of it; hypotheses query_ok: files written by the writer model with agreeing attribute meanings, regions consist of user attributes, GROUP BY keys are not attribute metadata, result names are unused, fewer than 2^64 nodes; an average whose count is a multiple of 2^32 divides by zero in the code (C46), so totality of flush is stated for queries without avg."
  },
  {
   "property": "C77",
   "status": "partial",
   "theorems": [
    "C77_bound",
    "C77_mirror",
    "C77_nested",
    "C77_case",
    "C77_nested_case",
    "C77_set_refuted",
    "C77_late_refuted",
    "C77_mark_once_refuted",
    "C77_filter_error_refuted",
    "C77_filter"
   ],
   "note": "C77_filter: which values pass the binding's filter, in terms of the two configuration texts. C77_mirror (any history, also with stack errors; bound attributes not changed with set, not bound while open), C77_nested (properly nested programs of any attributes), C77_bound (which attributes). Refuted without these conditions: set changes the value under the filter (C77_set_refuted), an attribute bound while a region is open gives an on_end without on_begin (C77_late_refuted), on_mark_attribute is repeated (C77_mark_once_refuted), an error in one filter text switches off both filters (C77_filter_error_refuted). Channel stays active; the derived classes' calls into the tools are not modelled."
  },
  {
   "property": "C78",
   "status": "partial",
   "theorems": [
    "C78_program",
    "C78_inside",
    "C78_open",
    "C78_totals",
    "C78_case",
    "C78_nested_iterations_refuted",
    "C78_threads_refuted",
    "C78_deactivated_refuted"
   ],
   "note": "One thread. Refuted: iterations inside of an iteration of the same loop restart its clock (C78_nested_iterations_refuted); all threads share one unsynchronized stack (C78_threads_refuted); a channel deactivated in a loop keeps the loop on its stack (C78_deactivated_refuted). The clock does not run backwards; counters are unbounded integers; the context entries of the records are those of any pushed snapshot (C13, C69)."
  },
  {
   "property": "C79",
   "status": "partial",
   "theorems": [
    "C79_fields",
    "C79_output",
    "C79_separators_refuted"
   ],
   "note": "C79_output: the text read back with the specification's own reader is exactly the fields of the records (rec_shows), for names without , = newline and values without , / newline; C79_fields: the fields are defined for every record and unique. C79_separators_refuted: nothing is escaped, so the nested regions a, b and the region a/b have the same line, and a value can imitate another field. Value texts are a parameter (Variant::to_string)."
  },
  {
   "property": "C80",
   "status": "partial",
   "theorems": [
    "C80_list",
    "C80_latest",
    "C80_available",
    "C80_sanity",
    "C80_channel",
    "C80_documentation",
    "C80_replacement_refuted",
    "C80_twice_refuted"
   ],
   "note": "C80_channel: the registrations and reports of create_channel for any registry history and any configuration history, composed with C40 (value of the list) and C80_list (its spellings); C80_latest, C80_available, C80_documentation, C80_sanity. What the register functions do is not modelled. Refuted: an application's replacement of a built-in service is lost when a ConfigManager adds the defaults again (C80_replacement_refuted); a service listed twice is registered twice (C80_twice_refuted)."
  },
  {
   "property": "C81",
   "status": "proved",
   "theorems": [
    "C81_report",
    "C81_inclusive",
    "C81_process"
   ],
   "note": "C81_inclusive: the query SELECT sum(x), inclusive_sum(x) GROUP BY path over the same file - also lines for places around visited ones, with nested totals. C81_process: a file with the profiles of any set of threads - totals over threads, modulo 2^64. C81_report composes the models of C69 (annotations, events, timer, aggregation), C28 (writer, reader) and C76 (query). file_of: the file's records are the flushed ones, values as the C representation says, references to the nodes of the program's tree; query_ok: the file was produced by the writer model and the dictionary agrees with it. One profiled thread per file (other threads run meanwhile); unsigned total times; attribute names unique (C25); hidden attributes and globals are not in the file. C81_case: a program with two threads, its file and the computed report."
  },
  {
   "property": "C82",
   "status": "partial",
   "theorems": [
    "C82_interval",
    "C82_conserved",
    "C82_during_refuted",
    "C82_thread_refuted"
   ],
   "note": "Model TimeserModel over ProfModel (C69): snapshots between API calls, calls of any thread between the profile's flush and its clearing. C82_interval: the records of every snapshot are exactly the profile of the thread's interval, with the stamps; C82_conserved: when the thread makes no region call during a snapshot, the times of all snapshots add up per path, and in total to the time of its last region call. Refuted: a region call of another thread between flush and clear is lost (C82_during_refuted); the start time is kept per thread, so a snapshot by another thread than the last one has no or an old start time and a wrong duration (C82_thread_refuted). C82_ex, C82_ex_series: a concrete program. Not modelled: databases of finished threads, snapshots inside callbacks of an API call, two timeseries channels sharing the start time attribute."
  },
  {
   "property": "C83",
   "status": "partial",
   "theorems": [
    "C83_traced",
    "C83_ex",
    "C83_waitsome_refuted",
    "C83_waitany_refuted",
    "C83_inactive_refuted",
    "C83_proc_null_refuted",
    "C83_scatterv_refuted",
    "C83_comm_reuse_refuted",
    "C83_size_refuted",
    "C83_inactive_channel_refuted"
   ],
   "note": "C83_traced: for every start set of communicators and every history of calls that is legal (legal: what MPI and its library guarantee - valid communicators, fresh request handles, statuses with whole elements, as many statuses as requests) and plain (plain_call: the tracer's own limits), the events correspond one to one and in order to the messages, with a one-to-one numbering L of communicators. Every clause of plain_call has its refutation by a legal history: C83_waitsome_refuted (statuses taken at indices[i] instead of i), C83_waitany_refuted (MPI_UNDEFINED as an array index), C83_inactive_refuted (completion of an inactive persistent receive is recorded), C83_proc_null_refuted, C83_scatterv_refuted (sum of displacements), C83_comm_reuse_refuted (freed handles stay in the map), C83_size_refuted (int overflow), C83_inactive_channel_refuted (stale requests). Modelled: MpiTracing.cpp and the wrappers' argument handling in Wrapper.w, one thread. Not modelled: Probe/Mprobe/Mrecv, one-sided and non-blocking collectives (not traced by the code), MPI_Cancel, datatype handles that change their size, error return codes."
  },
  {
   "property": "C84",
   "status": "partial",
   "theorems": [
    "C84_regions",
    "C84_ex",
    "C84_nested_refuted",
    "C84_large_refuted",
    "C84_null_refuted"
   ],
   "note": "C84_regions: for every legal history (MsgTraceSpec.legal) with the limits of plain_pat (those of C83 without its conditions on sizes and communicator handles), one record per region end; for a region in which no other region began the record is totals_of of the messages since its begin, whenever these values fit into int (arithmetic modulo 2^32 otherwise). C84_nested_refuted: the begin of an inner region resets the counters of the outer one. C84_large_refuted, C84_null_refuted: sums over 2 GiB; MPI_PROC_NULL and inactive receives are counted. Ranks are rank numbers in the message's communicator: the same number in two communicators counts once, in the code and in the statement. One thread (the counters and sets are not locked: calls from several threads race). Not modelled: the irecv.req_wait_gap timer events."
  },
  {
   "property": "C85",
   "status": "partial",
   "theorems": [
    "C85_number",
    "C85_other",
    "C85_container",
    "C85_import",
    "C85_ex",
    "C85_container_ex",
    "C85_long_refuted",
    "C85_uint_refuted",
    "C85_date_refuted",
    "C85_nul_refuted",
    "C85_texts_refuted",
    "C85_existing_refuted",
    "C85_unset_refuted"
   ],
   "note": "C85_import: every list without unset values, every state; C85_number: integers in the range that the code keeps (kept: long within int, unsigned int below 2^31, dates from 1970 on), C85_other: floating point, time values and texts; C85_container: equal texts of containers of integers of one type come from equal values. Refuted parts: C85_long_refuted (a long is cast to int), C85_uint_refuted (sign extension), C85_date_refuted, C85_nul_refuted (each container text ends with a NUL byte), C85_texts_refuted (separators within texts are not escaped), C85_existing_refuted (an existing attribute of the name that is not global), C85_unset_refuted (adiak_type_unset calls Caliper::end, which looks at the process blackboard, while the value is on the channel's: the value stays and the thread's stack error flag makes it ignore all begins and ends from then on). Adiak is the environment; doubles are bits and their text a parameter. Attributes are found by name (C25); property presets from the configuration are not modelled here."
  },
  {
   "property": "C86",
   "status": "partial",
   "theorems": [
    "C86_counts",
    "C86_reuse",
    "C86_ex",
    "C86_size_refuted",
    "C86_large_refuted"
   ],
   "note": "C86_counts: every sequence whose totals fit into int (fits_int): all integers printed, minimum and maximum over the snapshots; C86_reuse: every sequence whose records refer to nodes read before (closed; what a .cali stream guarantees, C27): the lines of --reuse and the count of each text. C86_size_refuted: the estimated size of the snapshots (and so the total size) counts 8 bytes for each reference and nothing for immediate values - for snapshots of immediates only it is 0. C86_large_refuted: from 2 GiB the size is negative. Not modelled: averages and ratios (doubles), the unit of sizes, column alignment (names longer than 31 characters are not separated from the number), command line; the reader is C27/C28. The exit code is 0 even when a file cannot be read."
  },
  {
   "property": "C87",
   "status": "partial",
   "theorems": [
    "C87_values",
    "C87_first",
    "C87_ex",
    "C87_long_refuted"
   ],
   "note": "C87_values: every list of at least six 64-bit numbers whose first six have at most 80 characters with their separators; C87_first: the first two are right whenever they fit into 80 characters, whatever follows. C87_long_refuted: the buffer has 80 characters; with longer numbers the sixth is cut off and a wrong value is recorded. pread is the environment (whole content or failure)."
  },
  {
   "property": "C88",
   "status": "partial",
   "theorems": [
    "C88_export",
    "C88_roundtrip",
    "C88_ex",
    "C88_long_refuted",
    "C88_double_refuted",
    "C88_order_refuted",
    "C88_root_refuted"
   ],
   "note": "C88_export: every list of globals whose attribute ids are not CALI_INV_ID (all are, C25), integers in the range of int; C88_roundtrip: with C85's import. Refuted: C88_root_refuted (the loop over a path does not stop before the root of the tree: as soon as a global is a reference, a value with an empty name and empty text is exported), C88_long_refuted (a 64-bit integer that is not an int is exported as 0, without a message), C88_double_refuted (floating point values become texts), C88_order_refuted (the values of a path come innermost first). adiak::value of the Adiak C++ interface is the environment: an int, unsigned long, string or list of these."
  },
  {
   "property": "C89",
   "status": "partial",
   "theorems": [
    "C89_library",
    "C89_record_kept",
    "C89_innermost",
    "C89_call_paths",
    "C89_call_path_refuted",
    "C89_own_options_refuted",
    "C89_no_options_refuted",
    "C89_same_again"
   ],
   "note": "C89_library: LookupLibdw answers each kind it is asked for as when asked for all (honest), for any debug info; C89_record_kept: all cases; C89_innermost: for every honest library and every history of instances with one option set, each target's entry ends with the symbols of its innermost address, and nothing crashes if any lookup is on; C89_call_paths: the whole call path, if each address is recorded below one list of callers only (met by C89_call_paths_met); C89_same_again: any history, any mix of instances. C89_call_path_refuted: without that condition the callers are wrong (the cache is keyed by the address only); C89_own_options_refuted: a second channel with other options gets the first one's symbols through the marker nodes; C89_no_options_refuted: a null node is dereferenced. Not modelled: threads, libdw itself and demangling, the counters, the instance's root node being freed at the channel's end."
  }
 ]
}