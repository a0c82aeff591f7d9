{
 "claims": [
  {
   "property": "C01",
   "status": "proved",
   "theorems": [
    "C01_index_answers_contiguous",
    "C01_index_bound_positions_first",
    "C01_index_join_positions_before_free"
   ],
   "note": "Querier::getIndex for all patterns"
  },
  {
   "property": "C02",
   "status": "proved",
   "theorems": [
    "C02_order_inverse",
    "C02_permuted_request",
    "C02_split_follows_name"
   ],
   "note": "order tables, getPermuted and getIterator argument splitting"
  },
  {
   "property": "C03",
   "status": "partial",
   "theorems": [
    "C03_yields_is_drain",
    "C03_array_no_constraint",
    "C03_array_constrained_partial",
    "C03_absent_first_refuted",
    "C03_absent_second_refuted",
    "C03_empty_array_refuted"
   ],
   "note": "The full statement is false of the code: constraints that no pair meets can deliver spurious pairs (refuted theorems). Proved under the provisos all callers but a direct user meet."
  },
  {
   "property": "C04",
   "status": "partial",
   "theorems": [
    "C04_rmitr_set_difference",
    "C04_array_main_refuted"
   ],
   "note": "Set difference proved for every main iterator that supports getCount; refuted for an ArrayItr main iterator (throws)."
  },
  {
   "property": "C05",
   "status": "proved",
   "theorems": [
    "C05_composite_union",
    "C05_compositescan_union"
   ],
   "note": "second column not ignored; any std::sort"
  },
  {
   "property": "C06",
   "status": "proved",
   "theorems": [
    "C06_query_sees_history"
   ],
   "note": "whole overlay built by getIterator over any valid history"
  },
  {
   "property": "C07",
   "status": "proved",
   "theorems": [
    "C07_match"
   ],
   "note": "For every iterator that delivers the sorted database and every sorted input."
  },
  {
   "property": "C08",
   "status": "partial",
   "theorems": [
    "C08_addition_encoding",
    "C08_addition_records_the_new_triples",
    "C08_deletion_encoding_partial",
    "C08_deletion_records_partial",
    "C08_deletion_of_unrequested_triple_refuted"
   ],
   "note": "Additions are proved (subjects without NUL bytes, texts not empty and within the buffer). Deletions: every requested known triple is encoded, and nothing else if no unknown text is repeated in a position; with repetitions the code deletes triples that were not requested."
  },
  {
   "property": "C09",
   "status": "partial",
   "theorems": [
    "C09_getCard_partial",
    "C09_on_index",
    "C09_size",
    "C09_distinct",
    "C09_exists",
    "C09_delete_refuted",
    "C09_delete_error",
    "C09_three_permutations_refuted",
    "C09_skipped_refuted",
    "C09_memo_refuted",
    "C09_isEmpty_refuted",
    "C09_isEmpty_partial",
    "C09_distinct_refuted"
   ],
   "note": "Every pattern and history, except patterns with one constant after deletions or without stored tables and repeated questions across updates, which are refuted. Cardinalities of iterators are assumed."
  },
  {
   "property": "C10",
   "status": "partial",
   "theorems": [
    "C10_row_open",
    "C10_row_open_first",
    "C10_row_open_both_partial",
    "C10_row_cardinality",
    "C10_table_yields",
    "C10_row_both_reads_past_end_refuted"
   ],
   "note": "Round trip and both constrained openings; with both values the code reads one row past the table, so that opening is proved when that row is readable."
  },
  {
   "property": "C11",
   "status": "proved",
   "theorems": [
    "C11_cluster_open",
    "C11_cluster_open_first",
    "C11_cluster_open_both",
    "C11_cluster_cardinality",
    "C11_cardinality_disturbs_refuted",
    "C11_both_ignore_refuted"
   ],
   "note": "Round trip for every grouping; two side effects refuted."
  },
  {
   "property": "C12",
   "status": "partial",
   "theorems": [
    "C12_column_open",
    "C12_column_open_first_partial",
    "C12_column_open_both",
    "C12_scan_yields",
    "C12_first_moveto_refuted",
    "C12_absent_cardinality_refuted",
    "C12_eight_bytes_refuted"
   ],
   "note": "Everything but moveto after opening with a first value, which is refuted."
  },
  {
   "property": "C13",
   "status": "partial",
   "theorems": [
    "C13_same_layout",
    "C13_decode",
    "C13_fixed",
    "C13_getStrategy_refuted",
    "C13_aggregated_width_refuted"
   ],
   "note": "Every byte with a reader has a writer of the same layout and widths, and the bytes of determineStrategy and the fixed strategies decode as meant; getStrategy with two different widths and aggregated rows of other widths are refuted."
  },
  {
   "property": "C14",
   "status": "proved",
   "theorems": [
    "C14_widths",
    "C14_store_open",
    "C14_large_value_refuted"
   ],
   "note": "For every sorted table with values below 2^39 (5-byte fields are read as signed); also the whole path strategy, writer, reader, opening."
  },
  {
   "property": "C15",
   "status": "partial",
   "theorems": [
    "C15_field",
    "C15_five_bytes_refuted"
   ],
   "note": "False from 2^39 (5 bytes) on; proved below."
  },
  {
   "property": "C16",
   "status": "proved",
   "theorems": [
    "C16_get_table",
    "C16_store_succeeds",
    "C16_empty_refuted"
   ],
   "note": "Non-empty tables, total below 2^40 bytes; empty tables alone in a file are refuted."
  },
  {
   "property": "C17",
   "status": "partial",
   "theorems": [
    "C17_map_partial",
    "C17_large_keys_refuted",
    "C17_odd_capacity_refuted",
    "C17_coordinates_partial",
    "C17_coordinates_refuted",
    "C17_arrays_partial",
    "C17_arrays_read",
    "C17_arrays_split",
    "C17_disk_partial",
    "C17_disk_coordinates_partial"
   ],
   "note": "Every sequence of insertions, any depth, even node capacity, keys in [0,2^62), numeric keys; also when nodes are read back from their images. Keys from 2^62 on (coded integers), odd capacities and coordinates added to an existing key are refuted. Text keys are not covered."
  },
  {
   "property": "C18",
   "status": "partial",
   "theorems": [
    "C18_iteration_partial",
    "C18_coordinates_partial",
    "C18_negative_keys_refuted"
   ],
   "note": "Every tree built by insertions of keys in [0,2^62); negative keys are refuted."
  },
  {
   "property": "C19",
   "status": "partial",
   "theorems": [
    "C19_image_partial",
    "C19_step_refuted",
    "C19_change_after_load_refuted",
    "C19_reused_leaf_refuted"
   ],
   "note": "Every node with numeric keys whose constant step is below 128; 128 to 255 is refuted, and so are changes after loading. Text keys are not covered."
  },
  {
   "property": "C20",
   "status": "partial",
   "theorems": [
    "C20_append_succeeds_partial",
    "C20_get_returns_the_string_partial",
    "C20_get_with_a_slow_thread_refuted",
    "C20_empty_string_at_the_end_of_a_block_refuted",
    "C20_append_of_a_long_string_refuted"
   ],
   "note": "Every history of appends, lookups and comparisons and every behaviour of the compression thread as long as all blocks are in the cache; beyond that for a thread that keeps up. The last string of a buffer that ends at a block end is left out. Each exception is refuted."
  },
  {
   "property": "C21",
   "status": "partial",
   "theorems": [
    "C21_cmp_is_the_order_partial"
   ],
   "note": "As C20, without the exception for the last string; after reopening see C22."
  },
  {
   "property": "C22",
   "status": "partial",
   "theorems": [
    "C22_closed_and_opened_partial",
    "C22_full_last_block_is_lost_refuted"
   ],
   "note": "All histories, caches and schedules; sizes that are a multiple of the block size are refuted."
  },
  {
   "property": "C23",
   "status": "partial",
   "theorems": [
    "C23_coordinates_partial",
    "C23_read_back",
    "C23_large_leaf_refuted"
   ],
   "note": "Leaves of up to 420 terms; larger leaves can exceed the buffer and exit (refuted)."
  },
  {
   "property": "C24",
   "status": "partial",
   "theorems": [
    "C24_lookup",
    "C24_iteration",
    "C24_queries",
    "C24_graphs_partial",
    "C24_beyond_refuted",
    "C24_end_refuted",
    "C24_gaps_refuted",
    "C24_no_sop_refuted"
   ],
   "note": "Labelled graphs: every loaded database with tables in SOP, from the tree and the .idx files through the file of records to lookups, iteration and answers. Unlabelled graphs: the entries of the .idx files are a hypothesis. A term above the greatest one reads outside of the file, the last record is read 3 bytes past its end, gaps are listed as terms, and without tables in SOP the flat tree cannot be made (all refuted)."
  },
  {
   "property": "C25",
   "status": "proved",
   "theorems": [
    "C25_order",
    "C25_roundtrip",
    "C25_sorts"
   ],
   "note": "Records without and with counts; any number of threads."
  },
  {
   "property": "C26",
   "status": "partial",
   "theorems": [
    "C26_permute",
    "C26_same_refuted",
    "C26_count_refuted"
   ],
   "note": "All 30 pairs of distinct permutations, all triples. Asking for the same permutation rotates the record and records with a count are cut (both refuted; the loader does neither)."
  },
  {
   "property": "C27",
   "status": "partial",
   "theorems": [
    "C27_files",
    "C27_counts",
    "C27_input",
    "C27_loads",
    "C27_blocks",
    "C27_filler_refuted",
    "C27_threads_refuted"
   ],
   "note": "Every content, division into files, number of threads, memory and junk, all permutations and all rounds, with the merging of the files, up to the filler (0x01 bytes): triples above it are lost (refuted). The number of reading threads has to divide the number of threads (refuted)."
  },
  {
   "property": "C28",
   "status": "partial",
   "theorems": [
    "C28_from_zero_partial",
    "C28_begin_refuted"
   ],
   "note": "Holds for loops from 0 (below 2^63); refuted for begin > 0."
  },
  {
   "property": "C29",
   "status": "partial",
   "theorems": [
    "C29_bytes",
    "C29_add",
    "C29_other",
    "C29_add_ends_partial",
    "C29_full_refuted"
   ],
   "note": "Accounting and locks for every history; add does not terminate when all slots are in use but the byte limit is not reached (refuted)."
  },
  {
   "property": "C30",
   "status": "partial",
   "theorems": [
    "C30_join",
    "C30_projection_partial",
    "C30_projection_cases",
    "C30_walk",
    "C30_projection_refuted",
    "C30_shared_refuted"
   ],
   "note": "All children and rows, one or two shared variables at each step. With projections: if among the variables that only the last child has the projected ones come first; otherwise the code reads outside of the columns to copy (refuted)."
  },
  {
   "property": "C31",
   "status": "partial",
   "theorems": [
    "C31_merge",
    "C31_retain_partial",
    "C31_retain_inner_partial",
    "C31_retain_refuted",
    "C31_empty_refuted",
    "C31_join",
    "C31_sort_join",
    "C31_join_partial",
    "C31_join_refuted",
    "C31_join_twice_refuted",
    "C31_hits",
    "C31_hits_refuted",
    "C31_sort",
    "C31_dense_sparse",
    "C31_dense_sparse_partial",
    "C31_dense_sparse_refuted",
    "C31_walk",
    "C31_walk_skip",
    "C31_walk_zero"
   ],
   "note": "Merge, sorting and iteration for all tables; join and its size for tables sorted on the shared variables, and after sorting for all tables; unsorted tables lose rows, the last rows are not compared by retain, results of merge and retain say that they are empty (all refuted)."
  },
  {
   "property": "C32",
   "status": "partial",
   "theorems": [
    "C32_groups_partial",
    "C32_sum_refuted",
    "C32_avg_refuted",
    "C32_avg_int_refuted",
    "C32_symbol_refuted",
    "C32_distinct_refuted",
    "C32_distinct_shared_refuted",
    "C32_register",
    "C32_register_refuted"
   ],
   "note": "Every sequence of rows and groups: COUNT, MIN, MAX; SUM and AVG for rows with count 1. The rest is refuted."
  },
  {
   "property": "C33",
   "status": "proved",
   "theorems": [
    "C33_string",
    "C33_document",
    "C33_fails"
   ],
   "note": "Strings and whole documents, against an RFC 8259 reader of byte strings."
  },
  {
   "property": "C34",
   "status": "partial",
   "theorems": [
    "C34_store",
    "C34_ordered",
    "C34_found_partial",
    "C34_sessions_partial",
    "C34_next_session_partial",
    "C34_last_refuted",
    "C34_lost_refuted"
   ],
   "note": "Every sequence of stored ranges and every sequence of sessions of the iterator. Requests that no cached range starts after dereference the end of the vector of blocks (refuted), so lookups in the last range are left out; overlapping requests within a session can lose a cached value, which is then read again (refuted)."
  },
  {
   "property": "C35",
   "status": "proved",
   "theorems": [
    "C35_composite",
    "C35_removed"
   ],
   "note": "Any number of lists merged; removing a list that is not empty and removes no more than there is. hasNext and getCount can be called any number of times."
  },
  {
   "property": "C36",
   "status": "partial",
   "theorems": [
    "C36_not_in",
    "C36_first_partial",
    "C36_stop_refuted"
   ],
   "note": "Proved without the early stop for non-empty columns; with the early stop the first missing value is written once or twice, never another one."
  },
  {
   "property": "C37",
   "status": "partial",
   "theorems": [
    "C37_filter",
    "C37_edges_partial",
    "C37_index_refuted",
    "C37_three_refuted",
    "C37_reuse_refuted",
    "C37_count_refuted"
   ],
   "note": "The filter is right when its object is new; the edge functions are right when the index has the variable's two positions in place; otherwise refuted."
  },
  {
   "property": "C38",
   "status": "proved",
   "theorems": [
    "C38_reverse_iterator",
    "C70_queries"
   ],
   "note": "newItrOnReverse for every source and constraint; ReOrderItr and ScanItr over a loaded database in C70."
  },
  {
   "property": "C39",
   "status": "partial",
   "theorems": [
    "C39_array_moveto",
    "C39_table_moveto",
    "C39_table_ignore_moveto",
    "C39_row_ignore_moveto_refuted"
   ],
   "note": "Holds for the three table layouts and arrays; refuted in a row table with the second column ignored."
  },
  {
   "property": "C40",
   "status": "proved",
   "theorems": [
    "C40_table_reset",
    "C40_scan_reset"
   ],
   "note": "all three table layouts"
  },
  {
   "property": "C41",
   "status": "proved",
   "theorems": [
    "C41_read",
    "C41_disjoint",
    "C41_succeeds",
    "C41_reopen",
    "C41_compress",
    "C41_closes",
    "C41_tree_partial",
    "C41_tree_coordinates_partial",
    "C41_gap_refuted"
   ],
   "note": "All sequences of writes, sizes and closings of files, then closing, compressing and reading again. Images of at least one byte, nodes keep their kind, ids without gaps when the store is closed."
  },
  {
   "property": "C42",
   "status": "partial",
   "theorems": [
    "C42_table_ignore",
    "C42_table_tally",
    "C42_tally_drain",
    "C42_tally_unique",
    "C42_composite_tally",
    "C42_removal_tally_partial",
    "C42_overlay_tally_partial",
    "C42_overlay_tally_refuted",
    "C42_polled_removal_refuted",
    "C42_absent_deletion_refuted"
   ],
   "note": "Tables of every layout, CompositeItr over them, RmItr over them, and the overlay of a bound key with additions and then at most one deletion. Refuted for a deletion followed by an addition, for two deletions, and for a client that calls hasNext before ignoring the column: the counts include deleted rows. Missing: scans over all keys with updates and AggrItr."
  },
  {
   "property": "C43",
   "status": "partial",
   "theorems": [
    "C43_lookup_partial",
    "C43_lookup_all_partial",
    "C43_table_partial",
    "C43_scan_partial",
    "C43_cardinality_partial",
    "C43_size_partial",
    "C43_statistics_partial",
    "C43_history_partial",
    "C43_room_partial",
    "C43_last_pair_refuted",
    "C43_large_ids_refuted",
    "C43_large_file_refuted"
   ],
   "note": "All updates, all choices of the form of a table, all six orders, files shared with earlier updates. Excluded: identifiers from 2^32 - 1 on, 2^28 triples or more, files of 2 GB or more (refuted); with three values eight bytes must be readable after the tables (C10)."
  },
  {
   "property": "C44",
   "status": "partial",
   "theorems": [
    "C44_loading",
    "C44_dictionary_partial",
    "C44_lookups_are_inverse_partial",
    "C44_update_can_be_recorded",
    "C44_blank_database_cannot_be_opened_refuted",
    "C44_blank_changes_the_terms_refuted"
   ],
   "note": "All histories of loading and updates, small and large ones mixed, every enumeration order of the hash maps. The new terms of small updates must have no white space: with it the database cannot be opened again, or terms change (refuted). The trees and string buffers of a layer are association lists (C17, C20)."
  },
  {
   "property": "C45",
   "status": "proved",
   "theorems": [
    "C45_open",
    "C45_exclusive",
    "C45_close"
   ],
   "note": "Single threaded; calls use sessions that are in use."
  },
  {
   "property": "C46",
   "status": "partial",
   "theorems": [
    "C46_file",
    "C46_new_file",
    "C46_vlong2_refuted"
   ],
   "note": "All calls, with variable-length integers below 2^56; refuted from 2^56 on."
  },
  {
   "property": "C47",
   "status": "proved",
   "theorems": [
    "C47_tables",
    "C47_succeeds",
    "C47_counts"
   ],
   "note": "Terms below 2^39, fewer than 2^31 tables, files below 2^40 bytes (both limits are field widths); opening with two constraints needs 16 bytes after the table (C10). The aggregated input is not covered."
  },
  {
   "property": "C48",
   "status": "proved",
   "theorems": [
    "C48_prefix",
    "C48_no_race",
    "C48_no_deadlock",
    "C48_consumer_done",
    "C48_terminates",
    "C48_can_finish"
   ],
   "note": "Every interleaving, number and size of buffers, with spurious wake-ups."
  },
  {
   "property": "C49",
   "status": "proved",
   "theorems": [
    "C49_sort",
    "C49_depth"
   ],
   "note": "std::sort is a hypothesis, std::inplace_merge is modelled."
  },
  {
   "property": "C50",
   "status": "proved",
   "theorems": [
    "C50_fifo",
    "C50_no_lost_wakeup",
    "C50_progress"
   ],
   "note": "Any number of threads; the mutex makes each step atomic."
  },
  {
   "property": "C51",
   "status": "partial",
   "theorems": [
    "C51_pinned",
    "C51_locks",
    "C51_close_one_ends_partial",
    "C51_load_aborts_refuted"
   ],
   "note": "Pinning proved; that a file can always be opened is refuted (load_file drops locked files from its list and then aborts)."
  },
  {
   "property": "C52",
   "status": "proved",
   "theorems": [
    "C52_edges"
   ],
   "note": "getIterator is assumed to deliver the matching triples in index order."
  },
  {
   "property": "C53",
   "status": "partial",
   "theorems": [
    "C53_one_key_partial",
    "C53_two_keys_partial",
    "C53_one_key_refuted",
    "C53_two_constants_refuted",
    "C53_number_refuted"
   ],
   "note": "Right when the chosen index starts with the keys or one key is constant; otherwise refuted."
  },
  {
   "property": "C54",
   "status": "partial",
   "theorems": [
    "C54_previous_partial",
    "C54_pos_refuted"
   ],
   "note": "Refuted: off by one; what is returned instead is proved."
  },
  {
   "property": "C55",
   "status": "proved",
   "theorems": [
    "C55_nested_loop_join",
    "C55_restart"
   ],
   "note": "Every input that meets the operator contract; composes."
  },
  {
   "property": "C56",
   "status": "partial",
   "theorems": [
    "C56_hash_join_partial",
    "C56_domains",
    "C56_hash_join_memory",
    "C56_restart",
    "C56_memory_refuted"
   ],
   "note": "Every input: whenever building the table does not throw the rows are the join's; with unlimited memory it never throws. Missing: with real memory three integer keys can exhaust it (refuted)."
  },
  {
   "property": "C57",
   "status": "proved",
   "theorems": [
    "C57_merge_join",
    "C57_restart"
   ],
   "note": "Every pair of sorted inputs, with repeated values on both sides; as lists, in order."
  },
  {
   "property": "C58",
   "status": "partial",
   "theorems": [
    "C58_product_partial",
    "C58_optional_refuted"
   ],
   "note": "Missing: an empty optional right side, refuted."
  },
  {
   "property": "C59",
   "status": "partial",
   "theorems": [
    "C59_union",
    "C59_restart",
    "C59_unbound_refuted",
    "C59_merge_union_partial",
    "C59_merge_union_refuted"
   ],
   "note": "Union proved; that unbound is distinguishable from a term is refuted. MergeUnion right only without common values."
  },
  {
   "property": "C60",
   "status": "partial",
   "theorems": [
    "C60_minus",
    "C60_restart",
    "C60_no_shared_variable_refuted"
   ],
   "note": "Proved with shared variables; refuted without."
  },
  {
   "property": "C61",
   "status": "partial",
   "theorems": [
    "C61_values_partial",
    "C61_values_refuted"
   ],
   "note": "Right for one variable or one row; every other block loses rows."
  },
  {
   "property": "C62",
   "status": "partial",
   "theorems": [
    "C62_sort",
    "C62_sort_restart",
    "C62_group",
    "C62_distinct",
    "C62_hash_group",
    "C62_hash_group_restart",
    "C62_sort_mixed_refuted",
    "C62_sort_iri_refuted",
    "C62_sort_count_refuted",
    "C62_group_restart_refuted"
   ],
   "note": "std::sort is a hypothesis. Sort needs columns of one kind; the rest is refuted."
  },
  {
   "property": "C63",
   "status": "partial",
   "theorems": [
    "C63_subquery",
    "C63_subquery_reduced",
    "C63_counted",
    "C63_printed_partial",
    "C63_json_partial",
    "C63_limit_zero_refuted",
    "C63_json_refuted"
   ],
   "note": "Subqueries and counts proved; printing needs a limit of at least 1, JSON rows that are not repeated."
  },
  {
   "property": "C64",
   "status": "proved",
   "theorems": [
    "C64_filter",
    "C64_filter_restart",
    "C64_nested_loop_filter"
   ],
   "note": ""
  },
  {
   "property": "C65",
   "status": "partial",
   "theorems": [
    "C65_hash_left_optional_partial",
    "C65_hash_variable_refuted",
    "C65_hash_right_optional_refuted",
    "C65_hash_empty_right_refuted",
    "C65_merge_left_optional_partial",
    "C65_merge_right_optional_partial",
    "C65_merge_repeated_left_refuted",
    "C65_merge_repeated_right_refuted",
    "C65_merge_large_refuted"
   ],
   "note": "Hash join: optional left side, except the join variable's own register. Merge join: one optional side without repeated join values and values below 2^32-1. The rest is refuted."
  },
  {
   "property": "C66",
   "status": "partial",
   "theorems": [
    "C66_close_is_complete",
    "C66_handing_over_never_blocks",
    "C66_close_returns_refuted",
    "C66_end_is_noticed_refuted"
   ],
   "note": "Completeness is proved for every schedule; termination is refuted: the destructor announces the end without the mutex, and the thread its end."
  },
  {
   "property": "C67",
   "status": "proved",
   "theorems": [
    "C67_updates_do_what_was_requested",
    "C67_requests_are_recorded",
    "C67_update_directory_is_new"
   ],
   "note": "Composition of match (C07) and of the iterator over the recorded updates (C06); the files of an update are represented by an iterator that delivers the recorded triples (C43)."
  },
  {
   "property": "C68",
   "status": "partial",
   "theorems": [
    "C68_database_of_texts_partial",
    "C68_requests_can_be_recorded"
   ],
   "note": "Composition of C44, C08, C07, C06. Excludes what those exclude: new terms with blanks in small updates, deletions in which an unknown text is repeated, subjects with NUL bytes."
  },
  {
   "property": "C69",
   "status": "partial",
   "theorems": [
    "C69_deletion_is_atomic",
    "C69_addition_crash_partial",
    "C69_without_crash",
    "C69_crash_loses_the_terms_refuted",
    "C69_crash_breaks_queries_refuted",
    "C06_query_sees_readable_history"
   ],
   "note": "Crash points between the groups of files an update writes. Deletions are atomic. Additions: all crash points but one leave the triples of before or after; between the file ADD and the file of the terms the terms are lost (refuted), and an unflagged addition makes some queries fail (refuted)."
  },
  {
   "property": "C70",
   "status": "partial",
   "theorems": [
    "C70_queries",
    "C70_loads",
    "C70_files",
    "C70_leading_refuted",
    "C70_empty_refuted"
   ],
   "note": "From the sorted inputs (or, with C70_files, the unsorted ones) through tables, coordinates and tree to the answers, for any choice of loaded permutations with SPO, all strategies, thresholds and node sizes; ScanItr, newItrOnReverse and ReOrderItr. Missing: aggregated indices, partial indices. A constraint that is not leading is ignored by a stored permutation and scanning an empty database fails (both refuted)."
  },
  {
   "property": "C71",
   "status": "partial",
   "theorems": [
    "C71_term_list_partial",
    "C71_additions",
    "C71_noted",
    "C71_noted_removed",
    "C71_counts_refuted",
    "C71_vanished_refuted",
    "C71_deletions_refuted",
    "C71_array_counts_refuted"
   ],
   "note": "All valid histories in which every update has new or vanishing keys, with deletions listed by the same key; with additions only the keys are exact for every history. Otherwise counts are too small, vanished keys stay in the list, and deletions are read by subject for every permutation (all refuted)."
  },
  {
   "property": "C72",
   "status": "partial",
   "theorems": [
    "C72_observed",
    "C72_potential",
    "C72_restrict",
    "C72_sync",
    "C72_next",
    "C72_no_skip",
    "C72_next_top_refuted"
   ],
   "note": "Every description that operators can build and every value; the next candidate for values and minima that are 8192 or more below 2^64 (identifiers have at most 40 bits). Above that the search wraps around (refuted)."
  },
  {
   "property": "C73",
   "status": "partial",
   "theorems": [
    "C73_index_scan",
    "C73_no_hints",
    "C73_tables",
    "C73_arrays",
    "C73_loaded",
    "C73_excluded_refuted",
    "C73_updates_refuted"
   ],
   "note": "Every loaded database (as in C70), every permutation that is stored or read from the one with the last two columns exchanged, every choice of bound columns and all sequences of hints that exclude nothing for ever; with the first two columns bound the hints must allow the second bound value. Hints that leave no value possible, and scans over updates, deliver rows twice (refuted). Missing: permutations computed from SPO, aggregated scans."
  },
  {
   "property": "C74",
   "status": "partial",
   "theorems": [
    "C74_updates_partial",
    "C74_removal_refuted",
    "C74_computed_refuted"
   ],
   "note": "Every loaded database (as in C70) and every valid history, from the files of the database and of the updates to the answers. With removals: SPO, OPS and POS, and lookups by key in the other permutations if no table is left out; elsewhere a removal makes the query throw. Permutations computed from SPO: subject bound or predicate free; otherwise a query over updates throws. Updates of class DIFF3."
  },
  {
   "property": "C75",
   "status": "partial",
   "theorems": [
    "C75_filter_partial",
    "C75_selection_partial",
    "C75_selection_restart_partial",
    "C75_history_refuted",
    "C75_bound_refuted",
    "C75_unbound_equal_refuted",
    "C75_number_equal_refuted",
    "C75_absent_number_refuted",
    "C75_text_order_refuted",
    "C75_decimal_refuted",
    "C75_malformed_refuted",
    "C75_blank_refuted",
    "C75_function_refuted",
    "C75_regex_refuted",
    "C75_constant_refuted",
    "C75_large_id_refuted",
    "C75_inline_negative_refuted"
   ],
   "note": "Proved for a class of filters (Supported): connectives, comparisons of variables and constants, bound, sameTerm, isIRI, isLiteral, IN, over rows without errors. Outside of the class the property is refuted case by case: results that depend on history, bound of unbound variables, equal numbers written differently, constants that no triple has, texts with characters below the quote, decimals, malformed numbers, blank nodes, str, lang, datatype, contains, regex, constants with languages, large ids, numbers kept in ids. Not modelled: exponents and NaN."
  },
  {
   "property": "C76",
   "status": "partial",
   "theorems": [
    "C76_plan_partial",
    "C76_solutions",
    "C76_loaded",
    "C76_loaded_counts",
    "C76_loaded_terms",
    "C76_query_partial",
    "C76_repeated_refuted",
    "C76_optional_refuted",
    "C76_product_again_refuted"
   ],
   "note": "Queries of triple patterns in which no pattern has a variable twice; every combination of scans, aggregated scans (of patterns with a variable that is neither projected nor in another pattern), scans that skip two columns (of patterns with two such variables), merge joins, hash joins and products that the planner can build; from the files of a loaded database (C70) to the rows. Hints and domains, which only leave out rows that the joins drop, are not part of it (C72, C73). Refuted: a variable twice in a pattern, OPTIONAL as a nested loop join, a product inside of it. Filters are C82, DISTINCT is C83, LIMIT and OFFSET are C84. Missing: the other kinds of plans (UNION, MINUS, VALUES, subqueries, grouping), whose operators are C55 to C66 and C75."
  },
  {
   "property": "C77",
   "status": "partial",
   "theorems": [
    "C77_generated",
    "C77_answer_partial",
    "C77_large_refuted",
    "C77_constant_refuted"
   ],
   "note": "Proved for 1 to 64 patterns, none with a constant and two slots whose variables are neither projected nor in another pattern, and for every outcome of the comparisons of costs; C77_answer_partial composes it with loading, scans and joins: loaded triples, any list of patterns, the plan that is chosen, the solutions. Assumed: estimated selectivities of joins of patterns are not negative. and, if there are patterns with two such slots, the two variants of the scan that skips two columns have costs that can be compared (the code gives them the same). Refuted: more than 64 patterns; a pattern with a constant and two such slots (the query fails). Missing: the other parts of a group."
  },
  {
   "property": "C78",
   "status": "partial",
   "theorems": [
    "C78_edges_partial",
    "C78_values_optional_refuted",
    "C78_two_values_refuted"
   ],
   "note": "Proved for groups without VALUES and for patterns with one VALUES block; refuted for VALUES with OPTIONAL (different numbers in the query graph and the plan generator) and for two VALUES blocks (no edge)."
  },
  {
   "property": "C79",
   "status": "partial",
   "theorems": [
    "C79_serves_partial",
    "C79_query_partial",
    "C79_answer_partial",
    "C79_left",
    "C79_removal_refuted"
   ],
   "note": "From loading over the files of the updates to the rows of the query. With removals the plan may scan SPO, OPS and POS only; with additions only it may be any plan, among them the one that the generator chooses (C79_answer_partial). Refuted: after a removal a query fails if the generator chooses PSO and PSO is read from POS. Missing: as in C76 and C77, aggregated scans, and updates of one predicate or of one triple type (DiffIndex1)."
  },
  {
   "property": "C80",
   "status": "partial",
   "theorems": [
    "C80_aggregated_scan",
    "C80_tables",
    "C80_arrays",
    "C80_loaded",
    "C80_constant_and_two_unused_refuted"
   ],
   "note": "AggregatedIndexScan over a database that was loaded, for every index and every constants of the leading columns, without updates. Missing: hints of merge joins (they call gotoKey, which the iterators of the model do not have), FullyAggregatedIndexScan over the list of terms. Refuted: a pattern with one constant and two unused variables gets a scan whose first call throws."
  },
  {
   "property": "C81",
   "status": "partial",
   "theorems": [
    "C81_scan",
    "C81_term_list",
    "C81_loaded",
    "C81_updates_partial",
    "C81_reordered",
    "C81_counts_refuted"
   ],
   "note": "FullyAggregatedIndexScan and the lists of terms of a database that was loaded, for every index that is stored or read from the one with the last columns exchanged, and over updates whose lists are as in C71. Refuted: for an index that is not stored the numbers are always 1 (ReOrderTermItr::getCount). Missing: the predicates of a database that stores only SPO (an example), hints, gotoKey."
  },
  {
   "property": "C82",
   "status": "partial",
   "theorems": [
    "C82_filters_partial",
    "C82_query_partial",
    "C82_answer_partial",
    "C82_updates_partial",
    "C82_pushed_partial",
    "C82_pushed_query_partial",
    "C82_pushed_answer_partial",
    "C82_pushed_updates_partial",
    "C82_number_refuted"
   ],
   "note": "Filters on top of every plan of C76, and (pushed) filters on the variables of one pattern above its scans as buildFilters puts them, the others above the joins, with the special operators for comparisons with constants and lists of constants and Selection for all others; filters of the class of C75 that have a value for each solution and, if they are above a scan, for each triple of the pattern. Refuted: a comparison of a variable with a number compares ids, so that 1 = 1.0 does not hold. Missing: REPLACE, NOT EXISTS, filters with an error."
  },
  {
   "property": "C83",
   "status": "partial",
   "theorems": [
    "C83_distinct_partial",
    "C83_distinct_query_partial",
    "C83_distinct_answer_partial",
    "C83_distinct_updates_partial",
    "C83_order_refuted",
    "C83_offset_refuted",
    "C83_silent_refuted"
   ],
   "note": "For the plans and filters of C82_pushed_partial, every order of the hash table and every LIMIT of at least 1, without OFFSET, and with ORDER BY on projected variables only; from the loaded triples through the chosen plan to the printed rows. Refuted: with ORDER BY on a variable that is not projected rows are repeated; OFFSET drops solutions, not rows; the silent printer counts solutions. Missing: the order of the rows after Sort, as in C82."
  },
  {
   "property": "C84",
   "status": "partial",
   "theorems": [
    "C84_printed_partial",
    "C84_printed_query_partial",
    "C84_printed_answer_partial",
    "C84_printed_updates_partial"
   ],
   "note": "For the plans and filters of C82_pushed_partial, every OFFSET and every LIMIT of at least 1, text output and silent output; from the loaded triples, also with updates, to the printed rows. Missing: LIMIT 0 (the text output has one row, C63), JSON output of rows with a count (C63), DISTINCT (C83); ORDER BY is C85."
  },
  {
   "property": "C85",
   "status": "partial",
   "theorems": [
    "C85_ordered_partial",
    "C85_ordered_query_partial",
    "C85_ordered_answer_partial"
   ],
   "note": "For the plans and filters of C82_pushed_partial, every list of ordering variables and directions, every OFFSET and every LIMIT of at least 1, if every term has a text of its own; from the loaded triples through the chosen plan to the printed rows. Missing: terms that are stored as numbers, and texts that are compared without their last bytes (both refuted for Sort itself, C62), ordering by count, DISTINCT with ORDER BY, updates."
  }
 ]
}