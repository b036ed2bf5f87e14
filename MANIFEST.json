{
 "claims": [
  {
   "property": "C01",
   "status": "partial",
   "theorems": [
    "C01_record_round_trip_partial",
    "C01_operation_round_trip",
    "C01_long_record_refuted"
   ],
   "note": "Round trip proved for every payload below 65536 bytes. The clause that longer records are not accepted silently is false in the code: refuted for every payload whose length is a multiple of 65536."
  },
  {
   "property": "C02",
   "status": "proved",
   "theorems": [
    "C02_replay_exact"
   ],
   "note": "All histories of appends and clean restarts whose records fit the 16-bit length (see C01), up to 2^64-1 records."
  },
  {
   "property": "C03",
   "status": "proved",
   "theorems": [
    "C03_ids_grow"
   ],
   "note": "Same scope as C02."
  },
  {
   "property": "C04",
   "status": "partial",
   "theorems": [
    "C04_crash_between_records_partial",
    "C04_torn_tail_partial",
    "C04_torn_after_length_refuted",
    "C04_append_after_torn_byte_refuted"
   ],
   "note": "Holds for cuts at record boundaries and for reading back complete records; false for torn records (two refutations, one for every log)."
  },
  {
   "property": "C05",
   "status": "proved",
   "theorems": [
    "C05_payload_burst_detected",
    "C05_checksum_damage_detected"
   ],
   "note": "CRC-32C modelled bit by bit."
  },
  {
   "property": "C06",
   "status": "partial",
   "theorems": [
    "C06_catalogue_round_trip_partial",
    "C06_separator_in_name_refuted"
   ],
   "note": "Exact characterisation: round trip iff names avoid the separators; the unrestricted claim is false."
  },
  {
   "property": "C07",
   "status": "partial",
   "theorems": [
    "C07_catalogue_is_map_of_sets_partial",
    "C07_drop_database_small_partial",
    "C07_drop_database_refuted"
   ],
   "note": "Catalogue operations refine a map of sets for all sequences; dropping a database with two or more collections through the storage layer is undefined behaviour."
  },
  {
   "property": "C08",
   "status": "partial",
   "theorems": [
    "C08_recovery_point_round_trip",
    "C08_crash_before_truncate",
    "C08_second_read_refuted"
   ],
   "note": "Restart reads the last recorded point, also after a crash before the truncation; a second read through the same handle is wrong. The clause about applied operations is part of C09."
  },
  {
   "property": "C09",
   "status": "partial",
   "theorems": [
    "C09_survives_partial",
    "C09_rest_partial",
    "C09_update_refuted",
    "C09_drop_database_refuted",
    "C09_first_database_refuted",
    "C09_create_insert_refuted",
    "C09_create_drop_refuted",
    "C09_drop_create_refuted",
    "C09_batch_refuted",
    "C09_limit_refuted",
    "C09_second_crash_refuted",
    "C09_dangling_refuted",
    "C09_missing_database_refuted"
   ],
   "note": "Every sequence of statements (create database, create and drop collection, insert, delete without limit), steps of the actors and crashes within an explicit guard runs without error, always can come to rest, and then shows the effect of all answered statements in their order, with possibly some that were sent and not answered. The guard leaves out: updates (the changed document is lost by a restart), dropped databases (they are back), statements before the first database is on the disk (lost), a collection created or dropped together with other statements on it behind the recovery point (lost, undone, or a freed collection is used), a crash between two documents of one insert (the rest is lost), deletes with a limit (a second document is deleted), a crash while the log is replayed (later records are lost), and a collection in a database that does not exist (answered with success, not there); each has a counterexample."
  },
  {
   "property": "C10",
   "status": "partial",
   "theorems": [
    "C10_round_trip_partial",
    "C10_hugeint_refuted",
    "C10_large_refuted",
    "C10_type_refuted"
   ],
   "note": "round trip of documents of any depth proved from the tape to bytes and back to a tape, integers coming back as 64 bit ones. Floating point numbers not modelled. Refuted: 128 bit integers make the bytes unreadable; a non-negative integer of 2^57 comes back unreadable; the integer type is not kept."
  },
  {
   "property": "C11",
   "status": "partial",
   "theorems": [
    "C11_scalar_round_trip_partial",
    "C11_others_unchanged",
    "C11_uint64_refuted",
    "C11_uninitialised_refuted"
   ],
   "note": "Proved for every scalar whose tag is not damaged; refuted for uint64 >= 2^56 and for narrow signed integers and floats, which are stored with uninitialised bytes."
  },
  {
   "property": "C12",
   "status": "partial",
   "theorems": [
    "C12_typed_read_partial",
    "C12_wraps_refuted"
   ],
   "note": "Exact characterisation: outside the set wraps the read is exact or an error, inside it another number is returned. Reads of floating point elements as integers are not modelled."
  },
  {
   "property": "C13",
   "status": "proved",
   "theorems": [
    "C13_escaped_name_decodes",
    "C13_decoder_exact",
    "C13_pointer_splits_into_names"
   ],
   "note": "Decoder, pointer splitting, container/last-key splitting, all strings."
  },
  {
   "property": "C14",
   "status": "partial",
   "theorems": [
    "C14_set_partial",
    "C14_set_succeeds",
    "C14_remove_partial",
    "C14_move_partial",
    "C14_past_end_refuted",
    "C14_wide_index_refuted",
    "C14_text_index_refuted",
    "C14_move_refuted",
    "C14_whole_refuted"
   ],
   "note": "set, remove and move proved on the graph of nodes for names and for indexes up to the size of their array. Refuted: an index past the end appends and the pointer then reads nothing; an index of 2^32 or more overwrites another element; a text used as an index is element 0; a failed move loses the value; the empty pointer throws."
  },
  {
   "property": "C15",
   "status": "partial",
   "theorems": [
    "C15_copy_partial",
    "C15_nested_refuted",
    "C15_array_refuted"
   ],
   "note": "proved for values and for objects whose fields are all values, for every later series of changes. Refuted: nested objects are shared with the original; copying a non-empty array is undefined."
  },
  {
   "property": "C16",
   "status": "partial",
   "theorems": [
    "C16_update_partial",
    "C16_default_refuted",
    "C16_other_type_refuted",
    "C16_null_refuted",
    "C16_reported_refuted"
   ],
   "note": "proved for fields of the kind of the value and missing fields when the value is not the default. Refuted: 0, false and the empty text are not stored in a missing field or in one of another type; NULL is ignored; a change is reported though nothing was set."
  },
  {
   "property": "C17",
   "status": "proved",
   "theorems": [
    "C17_filter",
    "C17_transfer",
    "C17_errors"
   ],
   "note": "full_scan, operator_match, transfer_scan over any predicate that has an answer on each document; an error comes only from a predicate that fails on a document (see C60)."
  },
  {
   "property": "C18",
   "status": "proved",
   "theorems": [
    "C18_and",
    "C18_or",
    "C18_not"
   ],
   "note": "Inputs are results that exist and hold no id twice; the documents of the left win in a union."
  },
  {
   "property": "C19",
   "status": "partial",
   "theorems": [
    "C19_join_partial",
    "C19_full_empty_refuted",
    "C19_left_shared_refuted",
    "C19_full_nested_refuted",
    "C19_nested_refuted"
   ],
   "note": "Document joins compute the relational join when the sides share no field names with incompatible shapes and a full join has a non-empty right side. Refuted: full join with an empty right side, padding that overwrites shared fields, nested padding."
  },
  {
   "property": "C20",
   "status": "partial",
   "theorems": [
    "C20_inner_partial",
    "C20_outer_refuted",
    "C20_padding_refuted",
    "C20_right_refuted",
    "C20_capacity_refuted",
    "C20_null_refuted"
   ],
   "note": "Inner joins without NULLs, up to 1024 rows, are proved. Left, right, full and cross joins return no rows at all (cardinality never set), write padding rows before a match, and read missing rows (right); more than 1024 pairs are written out of bounds; NULL becomes zero."
  },
  {
   "property": "C21",
   "status": "partial",
   "theorems": [
    "C21_groups_partial",
    "C21_partition_partial",
    "C21_sign_refuted",
    "C21_nested_refuted"
   ],
   "note": "Document grouping. Exact for keys without nested values and with integers of one signedness per key. Refuted: signed and unsigned 1 are in two groups; a nested key value drops the document. Tables not covered."
  },
  {
   "property": "C22",
   "status": "partial",
   "theorems": [
    "C22_sorted_partial",
    "C22_mixed_refuted",
    "C22_range_refuted"
   ],
   "note": "Document sort; std::sort is taken by its contract. The comparison is a strict weak order equal to the lexicographic order when the keys are comparable. Refuted for strings mixed with numbers. Tables not covered."
  },
  {
   "property": "C23",
   "status": "proved",
   "theorems": [
    "C23_glob_decides_matching",
    "C23_question_mark_off_refuted"
   ],
   "note": "Full equivalence for the only call form in the code (question mark allowed). With the flag off '?' starts a bracket expression; no caller does that."
  },
  {
   "property": "C24",
   "status": "partial",
   "theorems": [
    "C24_unique",
    "C24_rejected",
    "C24_accepted_partial",
    "C24_repeat_refuted"
   ],
   "note": "Refuted: two documents with one id in a batch are both reported as inserted, the first is overwritten. Key renaming of the insert is not modelled."
  },
  {
   "property": "C25",
   "status": "partial",
   "theorems": [
    "C25_one_type",
    "C25_strings",
    "C25_mixed_types",
    "C25_lookup_partial",
    "C25_null_refuted"
   ],
   "note": "Lookup equals scan, in key order, with limits, for keys with a consistent order; refuted for NULL keys. Floating point keys are not modelled."
  },
  {
   "property": "C26",
   "status": "partial",
   "theorems": [
    "C26_follows_partial",
    "C26_counts",
    "C26_wrong_entry_refuted",
    "C26_absent_refuted"
   ],
   "note": "Exact when the deleted row is the oldest with its key; entry counts are right for every history. Refuted for duplicates: removal is by key only."
  },
  {
   "property": "C27",
   "status": "partial",
   "theorems": [
    "C27_names",
    "C27_ids_partial",
    "C27_keys_sound",
    "C27_keys_found_partial",
    "C27_dropped_id_refuted",
    "C27_unknown_id_refuted",
    "C27_same_keys_refuted"
   ],
   "note": "Names for every history; ids of live indexes; keys when no two live indexes share them. Refuted for ids of dropped indexes and for indexes on the same keys."
  },
  {
   "property": "C28",
   "status": "partial",
   "theorems": [
    "C28_partial",
    "C28_lookup",
    "C28_bounds",
    "C28_remove_refuted"
   ],
   "note": "Proved for all histories of appends, removals and removals by key from an empty block, with lookups, bounds, layout and reading back. Refuted for removing an item that is not stored under a key that is: it reports success and miscounts."
  },
  {
   "property": "C29",
   "status": "partial",
   "theorems": [
    "C29_partial",
    "C29_quarter_partial",
    "C29_window_refuted",
    "C29_half_refuted"
   ],
   "note": "Exact description for all blocks: nothing is lost when the estimate of free space is right (always when all items take at most a quarter of the block), otherwise exactly the new item is lost. Two kinds of wrong estimates refute the property."
  },
  {
   "property": "C30",
   "status": "proved",
   "theorems": [
    "C30_range",
    "C30_in_order"
   ],
   "note": "For block sequences with ordered bounds; every tree of C65 has them."
  },
  {
   "property": "C31",
   "status": "partial",
   "theorems": [
    "C31_ranges_never_overlap_partial",
    "C31_refused_only_without_space",
    "C31_all_freed",
    "C31_release_build_partial",
    "C31_exhausted_refuted"
   ],
   "note": "Holds for all histories when a failed allocation stops (assert); a release build hands out the same range twice once space is exhausted."
  },
  {
   "property": "C32",
   "status": "partial",
   "theorems": [
    "C32_partial",
    "C32_refuted"
   ],
   "note": "No two leaves in use share a file id after any calls that return, with restarts while no id has become free. Refuted: after a merge and a restart the ids that became free are forgotten and the next split takes an id in use."
  },
  {
   "property": "C33",
   "status": "partial",
   "theorems": [
    "C33_history_partial",
    "C33_set_partial",
    "C33_children_partial",
    "C33_drop_refuted",
    "C33_orphan_refuted",
    "C33_half_refuted",
    "C33_children_refuted",
    "C33_has_child_refuted"
   ],
   "note": "Exact when only namespaces with nothing below are dropped, and for every history without a throw; after dropping an inner namespace an unrelated creation can throw, children listings go wrong, and every drop of a leaf reads a freed node."
  },
  {
   "property": "C34",
   "status": "partial",
   "theorems": [
    "C34_counts_partial",
    "C34_count_is_difference",
    "C34_struct_sound",
    "C34_append_completes_partial",
    "C34_last_drop_refuted",
    "C34_absent_refuted",
    "C34_sibling_refuted",
    "C34_stale_refuted",
    "C34_struct_refuted",
    "C34_nested_refuted"
   ],
   "note": "Counts per field and kind are exact for every history that completes; the code violates the rest: dropping the last value frees a node in use, appends next to a dropped longer field throw, types of one kind are not told apart, and the struct of latest types misses fields."
  },
  {
   "property": "C35",
   "status": "partial",
   "theorems": [
    "C35_apply_partial",
    "C35_valid_partial",
    "C35_error",
    "C35_second_refuted",
    "C35_extended_refuted",
    "C35_name_lost_refuted",
    "C35_stale_refuted",
    "C35_ids_refuted",
    "C35_swap_refuted",
    "C35_old_name_refuted",
    "C35_lost_refuted",
    "C35_ignored_refuted"
   ],
   "note": "Exact description of the resulting columns proved for all lists of changes that follow the guard `tidy` (names as they then are, rename first, fresh names, plain types); outside it the code gives wrong schemas or undefined behaviour, shown by the refutations. Two added columns always share id 0."
  },
  {
   "property": "C36",
   "status": "partial",
   "theorems": [
    "C36_history_partial",
    "C36_commit_partial",
    "C36_quiet",
    "C36_failed",
    "C36_finishes",
    "C36_finished",
    "C36_invalid_refuted",
    "C36_throw_refuted",
    "C36_concurrent_refuted",
    "C36_reused_refuted",
    "C36_discarded_refuted"
   ],
   "note": "All-or-nothing, rollback and finality proved for all interleaved histories without exceptions and with savepoint names used once and in order; a failed commit changes nothing and a finished transaction does nothing, in all histories. Refuted: commit of an invalid schema, exception when the namespace is gone and false success after it, lost changes of concurrent transactions, re-used and discarded savepoints."
  },
  {
   "property": "C37",
   "status": "proved",
   "theorems": [
    "C37_visibility",
    "C37_committed_deletes"
   ],
   "note": "For every history of appends, commits, reverts, deletes and cleanups, fetch and scan of the version manager agree with the textbook snapshot rule for every observer; the count of committed deletes is exact."
  },
  {
   "property": "C38",
   "status": "partial",
   "theorems": [
    "C38_cleanup_partial",
    "C38_first_row_refuted",
    "C38_bound_refuted"
   ],
   "note": "Holds for observers started after the bound unless only the first row of a vector is young: the loop in chunk_vector_info::cleanup skips row 0, so an uncommitted row becomes visible."
  },
  {
   "property": "C39",
   "status": "partial",
   "theorems": [
    "C39_conflict_partial",
    "C39_count",
    "C39_unchanged_refuted",
    "C39_stale_mark_refuted"
   ],
   "note": "The second deleter always gets the error and no unlisted row changes; listed rows before the conflict stay marked, and a delete mark survives the revert of its row."
  },
  {
   "property": "C40",
   "status": "proved",
   "theorems": [
    "C40_layout",
    "C40_lookup"
   ],
   "note": "Any group size, any sequence of insertions of lists of chunks and of merges of collections; fewer than 2^63 groups. A row is one opaque value, so the columns of a row stay together by construction."
  },
  {
   "property": "C41",
   "status": "partial",
   "theorems": [
    "C41_read_back_partial",
    "C41_completes_partial",
    "C41_tail_refuted",
    "C41_repeat_refuted",
    "C41_condition_refuted"
   ],
   "note": "Every completed sequence of inserts, deletes and updates (each call naming a row once) reads back by scan (each vector into a new chunk) and fetch as the last values written; an update with increasing ids completes unless it goes beyond the updated rows of the same 1024. Refuted: an update after all updated rows of a vector is undefined behaviour; a repeated id may keep the first value; reading with a condition uses old values and misses rows. Strings inside updates are not modelled."
  },
  {
   "property": "C42",
   "status": "partial",
   "theorems": [
    "C42_column_partial",
    "C42_long_refuted",
    "C42_null_refuted"
   ],
   "note": "Proved for every sequence of appends, any block size from 32 bytes and any number of segments, at the level of bytes: all strings below the limit (a quarter of a block, at most 4096 bytes) and the NULLs not directly after a long string are read back, one by one and by scans. Against the code: a string from the limit on is never read back (the marker is written as 4+4 bytes and read as 8+4, and the overflow block is not used), and reading a NULL after one can leave the memory of the segment."
  },
  {
   "property": "C43",
   "status": "partial",
   "theorems": [
    "C43_row_is_valid",
    "C43_set",
    "C43_set_invalid",
    "C43_resize_partial",
    "C43_copy",
    "C43_combine_partial",
    "C43_slice_in_place_partial",
    "C43_slice",
    "C43_copy_indexing",
    "C43_count_valid_partial",
    "C43_set_all_invalid_partial",
    "C43_set_valid_refuted",
    "C43_count_valid_refuted",
    "C43_set_all_invalid_refuted",
    "C43_set_all_invalid_revives_refuted",
    "C43_slice_in_place_refuted",
    "C43_slice_shares_refuted",
    "C43_combine_refuted"
   ],
   "note": "Set, clear, test, copy, slice and copy through an index vector proved for all masks; set_valid, count_valid on a partial word, set_all_invalid without an array, slice_in_place from an all-valid source at an unaligned position, and combine with a shorter mask are refuted."
  },
  {
   "property": "C44",
   "status": "proved",
   "theorems": [
    "C44_slice_composes",
    "C44_set_index",
    "C44_range"
   ],
   "note": "indexing_vector_t reads, writes, ranges and slices for all sizes."
  },
  {
   "property": "C45",
   "status": "partial",
   "theorems": [
    "C45_by_meaning_partial",
    "C45_order_partial",
    "C45_irreflexive",
    "C45_equality_agrees",
    "C45_transitive_partial",
    "C45_equality_refuted",
    "C45_transitive_refuted",
    "C45_nan_refuted"
   ],
   "note": "Strict weak order by meaning where no integer is rounded by a conversion to floating point; refuted for large integers mixed with floats and for NaN."
  },
  {
   "property": "C46",
   "status": "partial",
   "theorems": [
    "C46_multiplication_exact_or_error",
    "C46_division_truncates_or_error",
    "C46_addition_exact_partial",
    "C46_subtraction_exact_partial",
    "C46_comparison_exact_partial",
    "C46_overflow_tests_exact",
    "C46_overflow_not_reported_refuted",
    "C46_text_exact_partial",
    "C46_text_128_refuted"
   ],
   "note": "Multiplication and division are exact or an error for all inputs. Sums are formed before the overflow test and rescaling overflows in comparison, so those hold only inside the range; the 128-bit text of zero is empty."
  },
  {
   "property": "C47",
   "status": "proved",
   "theorems": [
    "C47_id_text_round_trip",
    "C47_id_order_is_text_order",
    "C47_parse_any_text"
   ],
   "note": "All 12-byte ids; text of any length and content."
  },
  {
   "property": "C48",
   "status": "proved",
   "theorems": [
    "C48_exclusive_alone",
    "C48_counter_in_range",
    "C48_free_lock_can_be_taken",
    "C48_spin_lock"
   ],
   "note": "Any number of threads, any interleaving of the atomic steps."
  },
  {
   "property": "C49",
   "status": "partial",
   "theorems": [
    "C49_own_partial",
    "C49_one_at_a_time_partial",
    "C49_returns_partial",
    "C49_swapped_refuted",
    "C49_hang_refuted",
    "C49_load_refuted"
   ],
   "note": "Proved for any number of threads and any interleaving as long as an answer is fetched before the next one of its kind arrives; otherwise answers are swapped, a null pointer is followed, or a call waits for ever (refutations)."
  },
  {
   "property": "C50",
   "status": "partial",
   "theorems": [
    "C50_read_back",
    "C50_round_trip_partial",
    "C50_unwritable",
    "C50_join_condition_refuted",
    "C50_columns_refuted",
    "C50_using_refuted",
    "C50_argument_refuted",
    "C50_position_refuted",
    "C50_schema_refuted",
    "C50_unary_refuted",
    "C50_rows_refuted"
   ],
   "note": "For every statement without null pointers the statement read back is given exactly; it is the same one if and only if its form satisfies kept (numbers become 64 bit ones as in C10). Lost or changed: the condition of a join, the columns of a created table, the second collection of a DELETE, a parameter used as an argument of an expression, unsigned and negative positions, schema and unique identifier of a collection. An update with a unary operator dereferences a null pointer and an insert of table rows throws while the record is written. Floating point parameters and documents are outside the model."
  },
  {
   "property": "C51",
   "status": "partial",
   "theorems": [
    "C51_rewrite_longer_partial",
    "C51_rewrite_shorter_refuted"
   ],
   "note": "False when the new text is shorter than the old one."
  },
  {
   "property": "C52",
   "status": "partial",
   "theorems": [
    "C52_generated_ids_distinct_partial",
    "C52_ids_ordered_by_time",
    "C52_ids_repeat_refuted"
   ],
   "note": "Distinct within any 2^24 consecutive ids; the 24-bit counter repeats within one second after 2^24 ids. Concurrent generation is not modelled."
  },
  {
   "property": "C53",
   "status": "partial",
   "theorems": [
    "C53_upgrade_lets_writer_in_refuted"
   ],
   "note": "Refuted: the upgrade gives up the shared lock first and another writer can run in between. Nothing positive is claimed."
  },
  {
   "property": "C54",
   "status": "partial",
   "theorems": [
    "C54_stored_partial",
    "C54_outside_partial",
    "C54_absent_refuted",
    "C54_unique_refuted"
   ],
   "note": "Refuted: removing an absent item whose key lies within the bounds of a block answers true and lowers the item count; removing one of several items of a key that spans two blocks lowers the key count."
  },
  {
   "property": "C55",
   "status": "partial",
   "theorems": [
    "C55_flush_load_partial",
    "C55_unloaded_block_lost_refuted"
   ],
   "note": "Proved when every block is loaded or the file has no hole; refuted otherwise: closing holes moves the place of an unloaded block without moving its bytes."
  },
  {
   "property": "C56",
   "status": "partial",
   "theorems": [
    "C56_scan_partial",
    "C56_live_rows",
    "C56_repeat_refuted",
    "C56_failed_refuted",
    "C56_overflow_refuted",
    "C56_size_refuted"
   ],
   "note": "Scans return exactly the undeleted rows after any sequence of calls, and deleting distinct live rows always succeeds. Refuted: failed calls keep partial effects, lists that return to a vector conflict with themselves, 1025 copies overflow a buffer, calculate_size looks at the first vector only."
  },
  {
   "property": "C57",
   "status": "partial",
   "theorems": [
    "C57_compare_partial",
    "C57_no_assert",
    "C57_strings",
    "C57_mixed_refuted",
    "C57_cycle_refuted",
    "C57_bool_refuted",
    "C57_huge_refuted",
    "C57_timestamps_refuted",
    "C57_string_number_refuted"
   ],
   "note": "Proved for all pairs of integer types up to 64 bits outside the refuted cases; large unsigned against signed, boolean against signed, 128-bit, timestamps and string against number are refuted. Floating point is not modelled."
  },
  {
   "property": "C58",
   "status": "partial",
   "theorems": [
    "C58_sum_partial",
    "C58_sum_unsigned",
    "C58_min_partial",
    "C58_max_partial",
    "C58_count",
    "C58_narrow_sum_refuted",
    "C58_overflow_refuted",
    "C58_min_null_refuted"
   ],
   "note": "sum proved for 32/64-bit columns without overflow, min/max for columns without NULL; narrow sums throw, overflow is undefined, NULL counts as zero. avg and floating point are not modelled."
  },
  {
   "property": "C59",
   "status": "partial",
   "theorems": [
    "C59_exact_partial",
    "C59_divide_refuted",
    "C59_mixed_refuted",
    "C59_null_refuted"
   ],
   "note": "Exact for operands of one integer type when the result fits; division by zero or NULL is undefined behaviour, mixed types throw, NULL acts as zero."
  },
  {
   "property": "C60",
   "status": "partial",
   "theorems": [
    "C60_meaning_partial",
    "C60_kinds_refuted",
    "C60_missing_refuted",
    "C60_nested_refuted",
    "C60_range_refuted",
    "C60_wrap_refuted"
   ],
   "note": "Exact when both values exist, are of one kind, and integers fit the type of the field. Refuted: a string equals every number, a missing field satisfies >, a nested value equals everything, a parameter out of range makes the query throw or wraps around. Floats and regular expressions are not modelled."
  },
  {
   "property": "C61",
   "status": "proved",
   "theorems": [
    "C61_delete",
    "C61_where",
    "C61_using"
   ],
   "note": "Indexes are in C26."
  },
  {
   "property": "C62",
   "status": "partial",
   "theorems": [
    "C62_count_partial",
    "C62_sum_partial",
    "C62_min_partial",
    "C62_max_partial",
    "C62_avg_partial",
    "C62_max_missing_refuted",
    "C62_sum_null_refuted",
    "C62_sum_missing_refuted",
    "C62_sum_bool_refuted",
    "C62_avg_missing_refuted",
    "C62_sum_range_refuted"
   ],
   "note": "Exact under guards. Refuted: max with a missing or NULL field, sum with a NULL after a number (process ends), sum of an absent field (undefined), sum of three booleans, average over documents without the field. Floating point values not modelled."
  },
  {
   "property": "C63",
   "status": "partial",
   "theorems": [
    "C63_partial",
    "C63_smaller_refuted",
    "C63_between_refuted"
   ],
   "note": "Proved when the keys of the merged block are not below the own ones (the only case the segment tree uses); refuted for smaller and for interleaved keys."
  },
  {
   "property": "C64",
   "status": "proved",
   "theorems": [
    "C64_split",
    "C64_split_keys"
   ],
   "note": "For all blocks in order (C28)."
  },
  {
   "property": "C65",
   "status": "partial",
   "theorems": [
    "C65_history_partial",
    "C65_unique_partial",
    "C65_lookup_partial",
    "C65_in_memory",
    "C65_lost_refuted",
    "C65_reload_refuted"
   ],
   "note": "Proved for items of at most a quarter of a block, removals of stored items, removals of keys before the first reload. Refuted: larger items can be lost by a split while append answers true; after a reload, lookups and remove_index of a key in two blocks follow a null pointer. Memory pressure and the storage of string bounds are not modelled."
  },
  {
   "property": "C66",
   "status": "partial",
   "theorems": [
    "C66_split_partial",
    "C66_balance_partial",
    "C66_merge",
    "C66_lookup",
    "C66_saved_refuted",
    "C66_shared_refuted",
    "C66_null_refuted"
   ],
   "note": "Proved for trees in which no key is stored in two blocks and NULL is no key; the files are right if all blocks changed since they were last written. Refuted: a block that had been written and is cut by a split keeps its old contents in the file, so after a restart the moved items are there twice; a key that reaches over two blocks ends up in both leaves; NULL as a key moves everything to the new leaf with wrong counters."
  },
  {
   "property": "C68",
   "status": "partial",
   "theorems": [
    "C68_in_turn_partial",
    "C68_refuted"
   ],
   "note": "Distinct when made one after another; two threads at the same time get the same id."
  },
  {
   "property": "C69",
   "status": "partial",
   "theorems": [
    "C69_condition_partial",
    "C69_filter_partial",
    "C69_pair_partial",
    "C69_all_true_refuted",
    "C69_columns_refuted",
    "C69_null_refuted",
    "C69_null_row_refuted",
    "C69_sign_refuted",
    "C69_capacity_refuted",
    "C69_timestamp_refuted",
    "C69_types_refuted"
   ],
   "note": "Conditions with parameters of the column's kind on rows without NULLs are proved, of any nesting. Refuted: all_true is false, comparison of two columns ignores the second, NULL is zero, unreadable parameters end the process, results over 1024 rows are out of bounds, timestamps throw, joins on different integer types throw."
  },
  {
   "property": "C70",
   "status": "partial",
   "theorems": [
    "C70_scan",
    "C70_fetch",
    "C70_delete_live",
    "C70_select_partial",
    "C70_first_vector_refuted",
    "C70_condition_refuted",
    "C70_below_refuted",
    "C70_fetch_refuted",
    "C70_skip_refuted"
   ],
   "note": "The table scan, each vector into a new chunk, returns exactly the live rows for every history; SELECT does for tables of at most 1024 rows. Refuted: SELECT returns at most the first 1024 rows, a condition that no row of the first group satisfies reads outside the list of segments, fetch returns deleted rows, groups larger than 1024 rows shift rows after a deleted vector. Scans with one chunk for all vectors: see C77."
  },
  {
   "property": "C71",
   "status": "partial",
   "theorems": [
    "C71_delete_partial",
    "C71_all_refuted",
    "C71_later_rows_refuted"
   ],
   "note": "Holds with a condition, or after an earlier delete, for tables of at most 1024 rows. Refuted: DELETE without condition on a table without deleted rows removes row 0 and reports all rows; matching rows after the first 1024 stay."
  },
  {
   "property": "C72",
   "status": "partial",
   "theorems": [
    "C72_output_partial",
    "C72_output_refuted"
   ],
   "note": "Refuted when the rows cross a row group boundary: only the rows of the last group are returned."
  },
  {
   "property": "C73",
   "status": "partial",
   "theorems": [
    "C73_where_partial",
    "C73_all_refuted",
    "C73_second_refuted"
   ],
   "note": "Holds for tables of at most 1024 rows not updated before, with a condition or after an earlier delete, whichever columns the result of the scan shares with the table. Refuted: UPDATE without a condition on a table without deleted rows records an update of row 0 only, with the new value of some row; other rows change only in the columns whose memory the scan shares (numbers, not strings). A second UPDATE of a later row is undefined behaviour."
  },
  {
   "property": "C74",
   "status": "partial",
   "theorems": [
    "C74_tables_partial",
    "C74_again",
    "C74_both_refuted",
    "C74_rename_refuted",
    "C74_list_refuted",
    "C74_format_refuted"
   ],
   "note": "Exact for every history in which no namespace call throws; refutations: two tables of one name, wrong error for renaming a missing table, listing without computing tables, format of a missing namespace throws."
  },
  {
   "property": "C75",
   "status": "partial",
   "theorems": [
    "C75_lookup_partial",
    "C75_sticky_refuted"
   ],
   "note": "Holds while every lookup asks for a column that is there; after one failed lookup all later ones fail because the error is kept in a mutable member."
  },
  {
   "property": "C76",
   "status": "partial",
   "theorems": [
    "C76_scan_partial",
    "C76_fetch",
    "C76_after_refuted",
    "C76_stale_refuted",
    "C76_unaligned_refuted",
    "C76_revert_partial",
    "C76_revert_again_partial",
    "C76_revert_refuted",
    "C76_revert_outside_refuted"
   ],
   "note": "Appends and scans over any segments and offsets return exactly the NULLs. Refuted: rows after the ones asked for may be marked (only where the column has a NULL), a copying scan keeps marks already in the vector, a revert at a row that is not a multiple of 8 brings NULLs back or writes behind the segment (revert_append is not called by statements). Updates of the column are in C41/C73."
  },
  {
   "property": "C77",
   "status": "partial",
   "theorems": [
    "C77_fresh_partial",
    "C77_outside_partial",
    "C77_reuse_refuted",
    "C77_strings_refuted",
    "C77_updates_refuted",
    "C77_result_refuted"
   ],
   "note": "Scans into new vectors return the rows with updates and write nothing else. Refuted: one chunk for all row groups (collection_t::scan) overwrites each group of numbers with the next, reads strings at the positions left by a group with deleted rows and then misses updates; writing to a result changes the table."
  },
  {
   "property": "C78",
   "status": "partial",
   "theorems": [
    "C78_partial",
    "C78_restart_partial",
    "C78_lock_refuted",
    "C78_split_refuted",
    "C78_small_refuted"
   ],
   "note": "Proved for every history of one item per index that removes only what is there, with capacities from 12 on (the code uses 128), over restarts. Refuted: removing an absent index from a tree with inner nodes leaves a leaf locked for ever; a second item under an index may be put in the wrong half of a split root; capacities below 12. Leaves are ordered lists of entries here (their blocks are in C65)."
  },
  {
   "property": "C79",
   "status": "partial",
   "theorems": [
    "C79_collection_partial",
    "C79_database_refuted"
   ],
   "note": "Proved for dropping the collection. When its database is dropped and created again, the collection has its old documents: drop_database leaves the collections in place and create_collection keeps what is there."
  },
  {
   "property": "C80",
   "status": "partial",
   "theorems": [
    "C80_position_partial",
    "C80_reversed_refuted",
    "C80_contract_refuted",
    "C80_null_refuted",
    "C80_timestamp_refuted"
   ],
   "note": "Proved for keys given by position, on tables without NULLs, for a sort that leaves every row before those the comparison says it precedes. Refuted: keys given by name, the only ones the planner makes, are compared the other way around (ASC returns the largest first); the comparison says that a row precedes itself, which std::sort does not allow; NULLs come back as zeros; a table with a timestamp column throws."
  },
  {
   "property": "C81",
   "status": "partial",
   "theorems": [
    "C81_groups_partial",
    "C81_same_key",
    "C81_name_refuted",
    "C81_null_refuted",
    "C81_twice_refuted",
    "C81_key_name_refuted",
    "C81_timestamp_refuted",
    "C81_empty_refuted"
   ],
   "note": "Groups, keys, count, sum, min and max are proved for non-empty tables without NULLs, one aggregate of each kind, sums without overflow. Refuted: the names asked for are ignored; a NULL key is grouped with zero; two aggregates of one kind, or a key with the name of an aggregate, read past the end of the row; a timestamp column throws; COUNT over an empty table gives no row. Averages are not modelled."
  },
  {
   "property": "C82",
   "status": "partial",
   "theorems": [
    "C82_where_partial",
    "C82_mirror_refuted",
    "C82_double_not_refuted",
    "C82_computed_refuted",
    "C82_cast_refuted",
    "C82_misread_refuted",
    "C82_many_refuted"
   ],
   "note": "Proved end to end, from the tree of the parser to the documents scanned, for comparisons of a column with a constant or another column under AND, OR, NOT and parentheses of any depth. Refuted: a constant on the left is not mirrored (5 < age is age < 5); NOT NOT c is NOT c; a sum or a constant in parentheses is compared as NULL; a cast is a boolean, true only when spelled 't'; = NULL, 1 = 1, a bare column and IS NULL read a node as another type; the 65537th constant takes the value of the first."
  },
  {
   "property": "C83",
   "status": "partial",
   "theorems": [
    "C83_star_partial",
    "C83_columns_partial",
    "C83_groups_partial",
    "C83_duplicates_refuted",
    "C83_missing_refuted",
    "C83_ignored_refuted",
    "C83_from_refuted",
    "C83_star_and_more_refuted",
    "C83_undefined_refuted",
    "C83_constant_refuted",
    "C83_path_refuted",
    "C83_function_refuted",
    "C83_no_documents_refuted",
    "C83_order_refuted"
   ],
   "note": "Proved for SELECT * with WHERE and ORDER BY, for lists of columns on which the documents differ, and for count per group. Refuted: equal rows are returned once without DISTINCT; documents without a column are dropped; DISTINCT, GROUP BY, HAVING, LIMIT and OFFSET are ignored; a second collection in FROM is ignored; SELECT *, c returns only c; no FROM and count(*) are undefined; constants throw; sum(t.x) sums the field t; other functions vanish; count over nothing has no row; ORDER BY a column not listed does not sort."
  },
  {
   "property": "C84",
   "status": "partial",
   "theorems": [
    "C84_update_partial",
    "C84_exchange_refuted",
    "C84_default_refuted",
    "C84_null_refuted",
    "C84_missing_refuted",
    "C84_operator_refuted",
    "C84_cast_refuted",
    "C84_error_refuted",
    "C84_several_refuted",
    "C84_sides_refuted",
    "C84_side_kept_refuted"
   ],
   "note": "Proved for columns, integers, strings, TRUE and FALSE and the five operations on signed integers without overflow, with conditions as in C82 and a full scan. Refuted: SET a = b, b = a does not exchange; 0, '' and FALSE are not stored in a document without the field; NULL literals are undefined and NULL columns not copied; a column a document lacks is undefined or counts as 0, depending on the documents before; unary operators and = are undefined, comparisons are shifts, || is a cube root; every cast is a truth value; division by zero and overflow are undefined, mixed types end the process; with FROM a document is updated once per match, the table named in the condition is ignored, and an unqualified column is looked up only once."
  },
  {
   "property": "C85",
   "status": "partial",
   "theorems": [
    "C85_values_partial",
    "C85_select_partial",
    "C85_no_id_refuted",
    "C85_bad_id_refuted",
    "C85_known_id_refuted",
    "C85_columns_refuted",
    "C85_expression_refuted",
    "C85_star_refuted",
    "C85_shared_refuted",
    "C85_select_no_id_refuted",
    "C85_aggregate_refuted"
   ],
   "note": "Proved for rows of integers, strings, TRUE and FALSE with the text of a new id in _id, and for SELECTs of columns the found documents have, _id for _id, with ids new in the target. Refuted: rows without _id, or with anything but 24 hexadecimal digits there, all get the id of zeros and only the last stays; a known id makes the whole statement store nothing without an error; VALUES without a list of columns or with more values than columns is undefined, missing values are not noticed; expressions and negative numbers are stored as NULL, casts as a truth value, NULL is undefined; INSERT ... SELECT * ignores the list of columns and makes the two collections share the documents; a SELECT without _id leaves one row; aggregates are not counted as columns."
  },
  {
   "property": "C86",
   "status": "partial",
   "theorems": [
    "C86_delete_partial",
    "C86_using_partial",
    "C86_using_all_refuted",
    "C86_sides_refuted",
    "C86_several_refuted",
    "C86_mirrored_refuted"
   ],
   "note": "Proved for conditions as in C82, and with USING for comparisons that have the column of the target on the left. Refuted: USING without WHERE deletes everything even when the other collection is empty; the table a column is written with is ignored; of several tables after USING only the first is read; a constant on the left of an inequality is read mirrored and the wrong documents are deleted."
  },
  {
   "property": "C87",
   "status": "partial",
   "theorems": [
    "C87_text_partial",
    "C87_load_partial",
    "C87_wide_refuted",
    "C87_huge_refuted",
    "C87_quote_refuted",
    "C87_backslash_refuted",
    "C87_control_refuted",
    "C87_types_refuted",
    "C87_array_refuted"
   ],
   "note": "Proved for documents of any depth with integers that fit in 32 bits and strings without quotation marks, backslashes and control characters, up to the width of integers. Refuted: every wider integer is written as another number; 128 bit integers are written as a word; strings are not escaped, so that a string can bring further fields into the document read back; types of integers are not kept; text that is not an object is undefined behaviour. Floating point numbers are not modelled."
  },
  {
   "property": "C88",
   "status": "partial",
   "theorems": [
    "C88_partial",
    "C88_emptied_refuted",
    "C88_second_refuted"
   ],
   "note": "Proved for integer keys of 64 bits with one id per key, for any number of calls and restarts. Refuted: an entry that was removed as the last one is there again after a restart, because an empty tree is not written; with 128 keys a second id under the middle key is stored and not found. That the files of the leaves hold the leaves is assumed here (C30, C65, C66)."
  },
  {
   "property": "C89",
   "status": "partial",
   "theorems": [
    "C89_partial",
    "C89_created_refuted",
    "C89_delete_refuted"
   ],
   "note": "Proved for collections whose index was created when they were empty, documents with different int64 keys, and deletes of documents that were inserted after the last query or found by it. Refuted: of the documents present when the index is created no query finds any, because the message with their keys is not handled; after a query, deleting any document it did not find erases the end iterator of the multimap, which is undefined behaviour."
  },
  {
   "property": "C90",
   "status": "partial",
   "theorems": [
    "C90_partial",
    "C90_answers_partial",
    "C90_fits_partial",
    "C90_evicted_refuted"
   ],
   "note": "Proved for all limits and legal histories: what is read is right, and every call is answered but for pinning memory again after its last unpin; with room for all pieces every call is answered. Refuted: memory that is not pinned is evicted and destroyed even when it must not be (can_unload does not look at destroy_condition_, and there are no temporary files); pinning it again takes the size of a buffer that is not there."
  },
  {
   "property": "C91",
   "status": "partial",
   "theorems": [
    "C91_partial",
    "C91_limit_refuted",
    "C91_refused_refuted"
   ],
   "note": "Proved with a slack of 32768 bytes, the part of the count that the cache of the thread may hold. Refuted without it: three pieces of 1000 bytes are granted under a limit of 1000 bytes; after memory was given back a request that fits is refused."
  },
  {
   "property": "C92",
   "status": "partial",
   "theorems": [
    "C92_partial",
    "C92_shared_name_refuted",
    "C92_drop_refuted",
    "C92_other_database_refuted"
   ],
   "note": "Proved for all sequences in which an index is not given the name of an index of another collection and a collection is not dropped when one of its name, in any database, had an index since the last start. Refuted otherwise: CREATE INDEX with the name of an index of another collection is refused but leaves an index in the collection, empty, not on disk and gone after a restart; dropping a collection that has or had an index reads the collection after it was freed; dropping a collection drops on disk the indexes of the collections of that name in other databases, which are gone after a restart, and creating one again before is undefined."
  },
  {
   "property": "C93",
   "status": "partial",
   "theorems": [
    "C93_partial",
    "C93_restarts",
    "C93_restart_refuted",
    "C93_crash_create_refuted",
    "C93_crash_drop_refuted"
   ],
   "note": "Proved without restart and crash; C93_restarts says what k restarts leave. Refuted otherwise: each restart writes all definitions again; a crash between the two writes of a definition makes every later start undefined; a crash while an index is dropped, after the file was truncated, loses the definitions of all the others."
  },
  {
   "property": "C94",
   "status": "partial",
   "theorems": [
    "C94_partial",
    "C94_sequence_refuted",
    "C94_sequence_copy_refuted",
    "C94_constant_offset_refuted",
    "C94_null_refuted",
    "C94_write_refuted"
   ],
   "note": "Proved for values, constants and sequences under any uses, except parts of a sequence before it is written out and rows from an offset of a constant of more than 1024 rows. Refuted otherwise: a row selected from a sequence is read from a buffer that is none (get_sequence of the dictionary); copying more than 1024 numbers of a sequence, or a constant from an offset past 1024, leaves an array of 1024; reference(value) keeps the NULLs the vector had, seen once it is written out; NULL set through a selection is not read back."
  },
  {
   "property": "C95",
   "status": "partial",
   "theorems": [
    "C95_partial",
    "C95_flatten_append_refuted",
    "C95_reference_refuted",
    "C95_reset_refuted"
   ],
   "note": "Proved for all histories of making, choosing, writing out, appending and copying in which nothing is appended to a chunk after rows were chosen from it. Refuted otherwise: flatten allocates as many rows as there are while the capacity stays, so a later append writes past the memory; append with growth releases memory that chunks referring to it still read; reset takes the capacity to be 1024 although the columns are smaller."
  },
  {
   "property": "C96",
   "status": "partial",
   "theorems": [
    "C96_partial",
    "C96_refuted"
   ],
   "note": "Proved for up to 1024 rows. Refuted for every table of more: the chunk of the operator has the default capacity of 1024 rows and the copy writes past it."
  },
  {
   "property": "C97",
   "status": "partial",
   "theorems": [
    "C97_partial",
    "C97_insert_refuted",
    "C97_insert_case_refuted",
    "C97_full_refuted",
    "C97_created_later_refuted",
    "C97_delete_refuted",
    "C97_update_refuted"
   ],
   "note": "Proved when the index is created before the first row, its table is filled by one INSERT of at most 1024 rows and not updated, and each DELETE takes all rows with a key or none (without an index: for all histories). Refuted otherwise. INSERT reads the key of the index at the row id instead of the row of its chunk (operator_insert.cpp 20-22): after the first INSERT the keys are 0, and past 1024 rows the read is out of bounds. An index created on a table with rows stays empty (create_index.cpp 39 fills it from the documents), so queries find nothing and a DELETE erases the end of the multimap. DELETE removes any entry with the key (single_field_index.cpp 42-44) and the scan of the index does not look at deletions, so a deleted row is returned and a live one lost. UPDATE stores the position in the scan as row id (operator_update.cpp 134)."
  },
  {
   "property": "C98",
   "status": "partial",
   "theorems": [
    "C98_partial",
    "C98_ends",
    "C98_after_index_refuted",
    "C98_dropped_refuted",
    "C98_insert_select_refuted"
   ],
   "note": "Proved for statements in sessions of their own, on collections that are not dropped, whose parts wait in the collection they are suspended in; C98_ends: a finite number of answers of the disk ends all statements. Refuted otherwise. The plan of CREATE INDEX and DROP INDEX is never erased (executor.cpp 208-212), so the next statement of the session runs the old plan instead: it does nothing and is never answered. On a dropped collection the error is answered and the erased plan is then looked up with at() (executor.cpp 225-228), an exception. INSERT INTO a SELECT FROM b through an index on disk of b is suspended in a and looked for in b (session.hpp 62-65 dereferences end)."
  },
  {
   "property": "C99",
   "status": "partial",
   "theorems": [
    "C99_partial",
    "C99_refuted"
   ],
   "note": "Proved for statements whose root is in a part that does not wait for an index on disk. Refuted for all others: index_find_finish (create_index.cpp 81-99) resumes the plan and goes on to the answer without remove_documents or write_documents, so a DELETE or UPDATE through an index on disk is answered and is gone after a restart."
  },
  {
   "property": "C100",
   "status": "partial",
   "theorems": [
    "C100_partial",
    "C100_sound_partial",
    "C100_versions_partial",
    "C100_two_deletes_refuted",
    "C100_lost_refuted",
    "C100_select_refuted",
    "C100_update_refuted",
    "C100_index_refuted",
    "C100_replace_refuted",
    "C100_throw_refuted"
   ],
   "note": "Proved for every interleaving of inserts of new documents and scanning deletes in which no delete is finished while the log has another one to write and no schema change throws. The code violates the rest: removed types are kept in one variable for all sessions, and updates, inserts from queries, deletes by index and replaced documents do not reach the schema as they should."
  },
  {
   "property": "C101",
   "status": "partial",
   "theorems": [
    "C101_scan_partial",
    "C101_from_partial",
    "C101_fetch_partial",
    "C101_copy_partial",
    "C101_slice_partial",
    "C101_order_refuted",
    "C101_fetch_refuted",
    "C101_copy_refuted"
   ],
   "note": "Proved for all nested types, batches, start rows, scan sizes and row ids. Missing: arrays of fixed size that have to be copied. vector_ops::copy takes the number of elements of an array from complex_logical_type::size(), which is 0 for arrays, so copying a vector of arrays copies no element: lists of arrays that are not in order cannot be appended, rows with arrays inside lists or arrays lose them when fetched by id, and copied chunks lose theirs. Updates, filters, skipped vectors (C70) and segments in blocks are not part of this model."
  },
  {
   "property": "C102",
   "status": "partial",
   "theorems": [
    "C102_partial",
    "C102_answered_partial",
    "C102_race_refuted",
    "C102_twice_refuted",
    "C102_dangling_refuted",
    "C102_nowhere_refuted"
   ],
   "note": "Proved for all interleavings and all numbers of sessions when no statement is sent while one that creates or drops the same database or collection is unanswered, collections are created in databases that are there, and databases are dropped when they have no collections. Refuted otherwise: two sessions creating the same collection are both told they created it; two sessions dropping the same collection make collections_.at throw in the dispatcher; a collection dropped while a statement on it waits for the executor is used after it was freed; a collection created in a database that does not exist is answered with success, is kept in memory and never enters the catalogue."
  },
  {
   "property": "C103",
   "status": "partial",
   "theorems": [
    "C103_created_partial",
    "C103_refused_partial",
    "C103_dropped_partial",
    "C103_names",
    "C103_decimal_refuted",
    "C103_bounds_refuted",
    "C103_elements_refuted",
    "C103_objects_refuted"
   ],
   "note": "Proved for columns with at most one written bound and names of one to four parts. Refuted otherwise: DECIMAL(300,2) becomes DECIMAL(44,2) and scales above the width are accepted; int[2][3] becomes an array of 2, int[] an array of 2^64-1, an array of an unknown type is accepted; a table constraint is read as a column definition (undefined), a type called pg_catalog is read past its end, a type \"numeric\" in quotes has no width, a qualified type name is judged by its first part; names of five parts create the collection with the empty name; DROP TABLE a, b drops only a."
  },
  {
   "property": "C104",
   "status": "partial",
   "theorems": [
    "C104_partial",
    "C104_indexes",
    "C104_options_refuted",
    "C104_indexes_refuted"
   ],
   "note": "Proved for statements without options, names of two to four parts for indexes and columns as in C103. Refuted otherwise: the plan does not carry UNIQUE, the condition of a partial index, IF EXISTS or IF NOT EXISTS, so no dispatcher can tell the two forms apart; an index of an expression makes a key of a null pointer (undefined); tables created without a database name cannot be indexed; CREATE INDEX without a name is refused."
  },
  {
   "property": "C105",
   "status": "partial",
   "theorems": [
    "C105_back_partial",
    "C105_apart",
    "C105_text_partial",
    "C105_back_refuted",
    "C105_text_refuted"
   ],
   "note": "Proved: the name comes back exactly where there is neither uid nor schema or the schema is called like the database; ids are distinct; texts are read back for ids with a namespace, without dots and with a name. Refuted otherwise: schema and database are exchanged; an id without namespace, an empty name or a dot is read back as another id; the empty text is undefined."
  },
  {
   "property": "C106",
   "status": "partial",
   "theorems": [
    "C106_partial",
    "C106_text_partial",
    "C106_text_refuted",
    "C106_rows_refuted"
   ],
   "note": "Proved for cursors of documents and all sequences of calls; texts are handed over unchanged exactly when they are shorter than 32 (messages, ids) or 40 bytes (strings) and have no zero byte. Refuted otherwise: the buffer has the size of the string object, longer texts are written past its end; a cursor of table rows says there is a next document and throws when asked for it."
  },
  {
   "property": "C107",
   "status": "partial",
   "theorems": [
    "C107_partial",
    "C107_none_refuted",
    "C107_numbers_refuted"
   ],
   "note": "Proved for dictionaries of any depth with string keys, without None, with integers of 64 bits. Refuted otherwise: None stores no value but keeps the position of the next one, so the field reads as the key or value built next, or past the end of the tape; an integer of more than 64 bits ends the process (exception in a noexcept function); a key that is a number throws."
  },
  {
   "property": "C108",
   "status": "partial",
   "theorems": [
    "C108_partial",
    "C108_ends",
    "C108_not_refuted",
    "C108_or_beside_refuted",
    "C108_several_refuted",
    "C108_names_refuted"
   ],
   "note": "Proved for conditions nested to any depth where $not is not outermost, $or outermost stands alone, dictionaries under $or and $not are single conditions, and no name is an operator behind its first character. Refuted otherwise: an outermost $not is dropped; an outermost $or beside other fields becomes and; several fields under $or are joined by or; $not looks at its first condition only; a field such as seq is taken for an operator. Making the expression always ends."
  },
  {
   "property": "C109",
   "status": "partial",
   "theorems": [
    "C109_partial",
    "C109_ignored_refuted",
    "C109_nested_refuted"
   ],
   "note": "Proved for $set and $inc with single values, for every order of the hash tables; what document_t::update leaves of a field is a parameter (C84 is about it). Refuted: other operators, and dictionaries without operators, are taken and change nothing; lists and dictionaries as values are read through a null pointer."
  },
  {
   "property": "C110",
   "status": "partial",
   "theorems": [
    "C110_partial",
    "C110_case",
    "C110_quoted_partial",
    "C110_long_refuted"
   ],
   "note": "Proved for all words, with the table of the 476 keywords of kwlist.h; names of up to 63 bytes are kept whole. Refuted for longer ones: only the first 60 to 63 bytes count, without an error, so different names become one."
  }
 ]
}