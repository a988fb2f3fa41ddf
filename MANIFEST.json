{
 "claims": [
  {
   "property": "C01",
   "status": "proved",
   "theorems": [
    "C01_segment_encoding_lossless",
    "C01_excluded_inputs_abort"
   ],
   "note": "for every duplicate-free list of row ids below u64::MAX (the reserved tombstone value, on which encoding overflows)"
  },
  {
   "property": "C02",
   "status": "proved",
   "theorems": [
    "C02_compact_array_is_its_list",
    "C02_every_compact_array",
    "C02_compact_array_from_range"
   ],
   "note": ""
  },
  {
   "property": "C03",
   "status": "proved",
   "theorems": [
    "C03_segment_len_get_position"
   ],
   "note": "for every well-formed segment; encoding, delete and mask produce well-formed segments (C01, C04, C05)"
  },
  {
   "property": "C04",
   "status": "proved",
   "theorems": [
    "C04_delete_removes_exactly_the_ids",
    "C04_delete_with_repeated_id_refuted"
   ],
   "note": "the deleted ids are a set (no repeats); with a repeated id in the list, later ids survive (refutation witness)"
  },
  {
   "property": "C05",
   "status": "proved",
   "theorems": [
    "C05_mask_removes_exactly_the_positions",
    "C05_mask_unsorted_positions_refuted"
   ],
   "note": "for strictly increasing positions; the prefilter (index/prefilter.rs 162) iterates a hash-set deletion vector in arbitrary order, for which the refutation shows a deleted row surviving (compaction iterates it sorted)"
  },
  {
   "property": "C06",
   "status": "partial",
   "theorems": [
    "C06_segment_slice_partial",
    "C06_slice_with_holes_refuted",
    "C06_slice_with_bitmap_refuted"
   ],
   "note": "holds for range and array layouts; false for layouts with holes or bitmaps (witnesses)"
  },
  {
   "property": "C07",
   "status": "proved",
   "theorems": [
    "C07_extend_is_concatenation",
    "C07_get_is_nth",
    "C07_slice_is_sublist",
    "C07_select_row_ids",
    "C07_select_from_past_end_panics_refuted"
   ],
   "note": "the statement includes the panic of an open-ended range that starts past the end (witness theorem)"
  },
  {
   "property": "C08",
   "status": "partial",
   "theorems": [
    "C08_rechunk_conserves_ids_partial",
    "C08_rechunk_with_holes_refuted",
    "C08_rechunk_empty_segment_refuted"
   ],
   "note": "holds without holes and empty segments; false otherwise (witnesses)"
  },
  {
   "property": "C09",
   "status": "proved",
   "theorems": [
    "C09_row_ids_bytes_roundtrip",
    "C09_message_roundtrip"
   ],
   "note": "down to the bytes; prost is modelled by the published proto3 wire format"
  },
  {
   "property": "C10",
   "status": "proved",
   "theorems": [
    "C10_index_lookup",
    "C10_index_accepts_disjoint_ranges",
    "C10_interleaved_ids_refused"
   ],
   "note": "fragments with fewer than 2^32 rows and distinct ids inside a fragment; RangeInclusiveMap modelled by its contract"
  },
  {
   "property": "C100",
   "status": "partial",
   "theorems": [
    "C100_merge_sound_partial",
    "C100_merge_order_free_partial",
    "C100_merge_total_partial",
    "C100_join_unique_partial",
    "C100_merge_null_keys_refuted",
    "C100_merge_duplicates_refuted",
    "C100_merge_unmatched_refuted",
    "C100_merge_nested_refuted"
   ],
   "note": "false in general: refuted by null keys that match, by keys in two batches (the row taken depends on the schedule), by integer columns that refuse a row without a match, and by a panic for a key inside a struct; the partial theorems give the result of every accepted merge for every schedule, and when one is accepted"
  },
  {
   "property": "C101",
   "status": "partial",
   "theorems": [
    "C101_nulls_sound_partial",
    "C101_nulls_total_partial",
    "C101_nulls_dotted_refuted",
    "C101_nulls_duplicate_refuted"
   ],
   "note": "false in general: a name with a dot is accepted and cannot be addressed, of two equal names one is dropped; everything else is proved for every accepted call"
  },
  {
   "property": "C102",
   "status": "partial",
   "theorems": [
    "C102_read_exact",
    "C102_take_exact_partial",
    "C102_take_unsorted_refuted",
    "C102_read_overlap_refuted",
    "C102_lists_duplicate_refuted"
   ],
   "note": "Exact for ranges in order and for sorted indices (repeats allowed), for every division into pages. False for indices out of order, which FileFragment::take passes on as they are, and for a list row repeated at the start of a page."
  },
  {
   "property": "C103",
   "status": "proved",
   "theorems": [
    "C103_encode_page_ok",
    "C103_lists_exact",
    "C103_lists_decoders",
    "C103_primitive_reader",
    "C103_lists_of_values_exact",
    "C103_lists_of_lists_exact",
    "C103_drain_exact",
    "C103_drain_all_exact",
    "C103_drain_all_succeeds"
   ],
   "note": "For every well-formed list array, page grouping, ordered disjoint ranges and batch sizes; items by any exact reader, so nesting composes. Numbers are unbounded except the i32 limit of a batch."
  },
  {
   "property": "C104",
   "status": "partial",
   "theorems": [
    "C104_to_block_ok",
    "C104_strings_exact_partial",
    "C104_scheduled_page_ranges",
    "C104_strings_column_exact",
    "C104_strings_duplicate_refuted"
   ],
   "note": "Strings are read exactly for any ranges of a page of which only the first starts with row 0, hence for all ranges in order over any pages. Row 0 of a page asked for twice (take with repeated indices) is refuted: the offset into the indices is reset and later strings are lost. Numbers are unbounded; compression, FSST and dictionaries are left out."
  },
  {
   "property": "C105",
   "status": "proved",
   "theorems": [
    "C105_page_levels",
    "C105_page_exact"
   ],
   "note": "pages of at least one item, dimensions above 0 (an empty page with a validity panics in do_record_validity); columns without variable size lists, see C107"
  },
  {
   "property": "C106",
   "status": "partial",
   "theorems": [
    "C106_pages_exact_partial",
    "C106_mixed_pages_refuted",
    "C106_lost_null_refuted"
   ],
   "note": "Exact if the same layers have a validity in all pages. Refuted: a page without nulls and one with nulls panics; nulls in different layers of two pages lose a null struct."
  },
  {
   "property": "C107",
   "status": "partial",
   "theorems": [
    "C107_page_lists_exact_partial",
    "C107_nested_exact_partial",
    "C107_nested_empty_panics_refuted",
    "C107_nested_empty_moved_refuted",
    "C107_nested_pages_refuted",
    "C107_null_start_refuted",
    "C107_all_empty_refuted",
    "C107_null_above_refuted"
   ],
   "note": "False in general: nested empty lists panic or move, nulls above lists are lost, a first null item can hide a list, pages of nested lists read together. Proved exactly: one list layer with nulls and empty lists over nullable structs; nested lists of any depth without nulls and empty lists."
  },
  {
   "property": "C108",
   "status": "partial",
   "theorems": [
    "C108_bits_needed",
    "C108_fixed_page_partial",
    "C108_var_page_partial",
    "C108_fixed_whole_partial",
    "C108_var_whole_partial",
    "C108_fixed_no_nulls_refuted",
    "C108_var_no_nulls_refuted",
    "C108_fixed_struct_above_refuted",
    "C108_var_struct_above_refuted",
    "C108_fixed_lists_no_nulls_refuted",
    "C108_many_structs_refuted"
   ],
   "note": "any ranges of rows in any batches read back for fixed and variable width pages under page_ok (levels written exactly when there are nulls for non-list pages, no nullable struct above a list, fewer than 256 levels of one kind alone); the excluded pages are really read wrong, shown by the refuted theorems"
  },
  {
   "property": "C109",
   "status": "partial",
   "theorems": [
    "C109_page_partial",
    "C109_scan_partial",
    "C109_value_flat",
    "C109_value_lists_scan_partial",
    "C109_value_lists_ranges_partial",
    "C109_value_whole_partial",
    "C109_string_flat",
    "C109_string_lists_scan_partial",
    "C109_string_lists_ranges_partial",
    "C109_string_whole_partial",
    "C109_full_chunks_refuted",
    "C109_empty_lists_refuted",
    "C109_long_row_refuted",
    "C109_twice_refuted",
    "C109_nested_empty_refuted",
    "C109_long_strings_refuted"
   ],
   "note": "Flat pages (fixed width and strings under 256 bytes) are written and read back for all sorted ranges and batches. With lists: full scans of every page that can be written, ranges when no chunk without a row start lies just before them. Refuted: exact multiples of the chunk size, many empty lists, rows that fill a chunk, a row taken twice, inner empty lists, strings over 4 KiB with the layout requested."
  },
  {
   "property": "C11",
   "status": "proved",
   "theorems": [
    "C11_address_roundtrip",
    "C11_address_split",
    "C11_address_order",
    "C11_address_range"
   ],
   "note": ""
  },
  {
   "property": "C110",
   "status": "proved",
   "theorems": [
    "C110_wand_top",
    "C110_search_top",
    "C110_index_holds",
    "C110_factor_refuted"
   ],
   "note": "Over exact rationals and a parameter for the idf. C110_factor_refuted records that factors above one, which trade accuracy for speed, leave rows out."
  },
  {
   "property": "C111",
   "status": "partial",
   "theorems": [
    "C111_phrase_lists",
    "C111_phrase_partial",
    "C111_text_found",
    "C111_filtered_token_refuted",
    "C111_gap_refuted"
   ],
   "note": "Refuted: a token whose rows are all filtered out is dropped from the phrase, so rows without it are returned; a text that lost a word in its middle (stop word, long word) is not found as a phrase, because the query has no gap. Proved when every token of the phrase known to the index is in a selected row."
  },
  {
   "property": "C112",
   "status": "partial",
   "theorems": [
    "C112_unindexed_found",
    "C112_limit_offset_refuted",
    "C112_phrase_unindexed_refuted",
    "C112_unindexed_score_refuted"
   ],
   "note": "Refuted: limit with offset returns fewer rows than asked for, because the plan cuts at the limit before it skips; phrase queries return rows outside the index without the phrase; rows outside the index score by other lengths than indexed ones. Proved: token queries over columns with limit or offset alone."
  },
  {
   "property": "C113",
   "status": "proved",
   "theorems": [
    "C113_flat_query_exact"
   ],
   "note": "For every sort that puts nulls last. A filter is any whose scan is exact (scan_ok: the side conditions of C18)."
  },
  {
   "property": "C114",
   "status": "partial",
   "theorems": [
    "C114_indexed_query_sound_partial",
    "C114_indexed_query_exact_partial",
    "C114_postfiltered_query_exact",
    "C114_index_of_earlier_version",
    "C114_scalar_index_behind_misses_refuted",
    "C114_scalar_index_behind_wrong_refuted",
    "C114_fragment_search_refuted",
    "C114_query_metric_refuted",
    "C114_gone_fragment_refuted"
   ],
   "note": "Soundness for any index and exactness for an exact, wholly probed one need that scalar indices which answer the filter alone know all fragments of the vector index, and that a negated filter meets no dropped fragment. Refuted without: rows are missed or wrongly returned, the query fails. Also refuted: a choice of fragments and the metric of the query are not obeyed when there is an index."
  },
  {
   "property": "C115",
   "status": "partial",
   "theorems": [
    "C115_statistics_exist",
    "C115_statistics_cover_partial",
    "C115_exact_types_cover",
    "C115_integers_tight",
    "C115_nan_refuted",
    "C115_string_cut_refuted",
    "C115_boolean_nulls_refuted",
    "C115_nonnull_bound_refuted"
   ],
   "note": "Statistics of every page exist with bounds in order; they are right for integers, dates, decimals and binaries, and for other types when there is no NaN, no string is cut inside a character, and a boolean page is one batch or one-valued. Refuted otherwise (a NaN above the maximum, a cut string above the maximum, uncounted boolean nulls, and a panic for a non-nullable column without a maximum)."
  },
  {
   "property": "C116",
   "status": "partial",
   "theorems": [
    "C116_scan_exact_partial",
    "C116_predicates_agree",
    "C116_simplifier_exists",
    "C116_nan_refuted",
    "C116_null_refuted",
    "C116_string_refuted",
    "C116_stable_ids_refuted"
   ],
   "note": "Exact for any predicate language with a sound simplifier when the statistics of the predicate's columns are right and row ids are addresses (or there is one page); an example language with a proved simplifier. Refuted when statistics are wrong (NaN, boolean nulls, cut strings: rows are lost) and for stable row ids with more than one page (wrong ids)."
  },
  {
   "property": "C117",
   "status": "partial",
   "theorems": [
    "C117_memory_roundtrip_partial",
    "C117_file_roundtrip_partial",
    "C117_empty_value_fails",
    "C117_null_panics_refuted",
    "C117_empty_panics_refuted"
   ],
   "note": "False in general: an empty value, or a null not coalesced with a blob at the start of the file, makes reads from a file panic, because the scheduler drops empty ranges. Proved: exact round trip from memory for all values, and from a file for columns without nulls and empty values; every read of an empty value from a file fails."
  },
  {
   "property": "C118",
   "status": "partial",
   "theorems": [
    "C118_take_blobs_partial",
    "C118_file_partial",
    "C118_tell_after_read_refuted",
    "C118_read_after_read_refuted",
    "C118_seek_past_end_refuted",
    "C118_null_blob_refuted"
   ],
   "note": "False in general: after readall the cursor is a position of the data file (tell is wrong, a later read panics or returns foreign bytes), reads after a seek past the end likewise, and a null blob is an empty file. Proved: blobs are the rows' values in order and behave as files for all other sequences of calls."
  },
  {
   "property": "C119",
   "status": "partial",
   "theorems": [
    "C119_object_is_bytes_partial",
    "C119_tell_exact",
    "C119_write_front",
    "C119_part_sizes",
    "C119_zero_concurrency_refuted",
    "C119_retried_part_moves_refuted"
   ],
   "note": "proved for every interleaving with at least one concurrent upload and either a store that checks the parts or no retried reset; refuted for LANCE_UPLOAD_CONCURRENCY=0 (a truncated object is completed) and for a retried part with a store that joins the uploaded parts (the part moves)"
  },
  {
   "property": "C12",
   "status": "proved",
   "theorems": [
    "C12_insert",
    "C12_insert_reports_new",
    "C12_remove",
    "C12_remove_reports_present",
    "C12_insert_fragment",
    "C12_retain_fragments",
    "C12_intersection",
    "C12_difference",
    "C12_union_all",
    "C12_extend_ids",
    "C12_extend_sets",
    "C12_enumeration",
    "C12_enumeration_unknown",
    "C12_insert_keeps_wf",
    "C12_remove_keeps_wf",
    "C12_difference_keeps_wf",
    "C12_intersection_keeps_wf",
    "C12_union_keeps_wf"
   ],
   "note": "bitmaps are finite sets of u32 (contract of the roaring crate)"
  },
  {
   "property": "C120",
   "status": "partial",
   "theorems": [
    "C120_shutdown_wakes_partial",
    "C120_flush_wakes_partial",
    "C120_write_pending_partial",
    "C120_can_finish",
    "C120_reset_never_finishes",
    "C120_lost_wakeup_refuted",
    "C120_retry_useless_refuted"
   ],
   "note": "flush and shutdown are always woken and shutdown can finish; refuted for writes (lost wakeup when the uploads end between the two polls) and for retries (a file with a retried reset is never finished by a store that checks the parts)"
  },
  {
   "property": "C121",
   "status": "partial",
   "theorems": [
    "C121_compaction_keeps_ids_partial",
    "C121_contiguous_partial",
    "C121_array_partial",
    "C121_gap_loses_ids",
    "C121_compaction_refuted"
   ],
   "note": "proved when masking the deletions leaves no segment with holes (contiguous ids left, or ids stored as an array); refuted otherwise: deleting one inner row of a fresh fragment and compacting loses an id, and no choice of new fragment sizes avoids it"
  },
  {
   "property": "C122",
   "status": "partial",
   "theorems": [
    "C122_few_values_partial",
    "C122_fixed_256_partial",
    "C122_many_values_checked",
    "C122_many_values_unchecked",
    "C122_strings_256",
    "C122_other_blocks",
    "C122_no_items",
    "C122_estimate_refuted",
    "C122_nulls_refuted",
    "C122_large_strings_refuted",
    "C122_fixed_lists_refuted",
    "C122_empty_lists_refuted"
   ],
   "note": "at most 255 different values in a block without nulls with 32-bit offsets or 128-bit values, and at least one item read; refuted: an estimate too low with 256 or more different values (panic, or silent corruption without checked arithmetic), nulls, fixed size lists, 64-bit offsets, reads of no items"
  },
  {
   "property": "C123",
   "status": "proved",
   "theorems": [
    "C123_pack_unpack",
    "C123_low_bits",
    "C123_layout",
    "C123_width_least",
    "C123_chunk"
   ],
   "note": "all types and widths; the kernel, the width statistic and one bit-packed chunk"
  },
  {
   "property": "C124",
   "status": "partial",
   "theorems": [
    "C124_flat",
    "C124_packed_lists_scan_partial",
    "C124_packed_lists_ranges_partial",
    "C124_zero_lists_refuted",
    "C124_empty_lists_refuted",
    "C124_long_row_refuted"
   ],
   "note": "proved without lists; with lists proved for pages without runs of zeros and with at most 1000 lists without values; refuted for zeros that fill chunks, for thousands of empty lists and for single rows after long ones"
  },
  {
   "property": "C125",
   "status": "partial",
   "theorems": [
    "C125_scan",
    "C125_take",
    "C125_bytes",
    "C125_whole",
    "C125_rows_partial",
    "C125_bool_batch_refuted",
    "C125_null_batch_refuted",
    "C125_out_of_bounds_refuted",
    "C125_empty_lists_refuted"
   ],
   "note": "Proved for all types, arrays and ranges when a batch does not both start inside a range and go past its end: any one range and any list of rows in any batches (what readers ask for), any ranges in one batch; and for pages without bitmaps without that restriction. False otherwise: BitmapDecoder::decode takes min(remaining, length of the chunk) without subtracting the rows skipped, so rows after the range are returned (or read out of bounds). A fixed size list of dimension zero is written and its read divides by zero."
  },
  {
   "property": "C126",
   "status": "partial",
   "theorems": [
    "C126_rows_partial",
    "C126_concat_contract",
    "C126_concat_rows",
    "C126_null_widened_refuted",
    "C126_concat_widened_refuted",
    "C126_null_index_refuted",
    "C126_large_strings_refuted"
   ],
   "note": "Proved for all arrays whose dictionaries arrow can concatenate within the key type, with room for the index of the null, and values of fixed width, booleans, fixed size lists or strings with 32-bit offsets. False otherwise: indices widened to 32 bits (a null next to 128 values of Int8 keys, or two batches with too many values) are read with the width of the schema and give other rows; a null value at an index beyond the key type turns null rows into the first value; values with 64-bit offsets are written and cannot be read. Arrow's concat is assumed to satisfy a contract, shown for appending."
  },
  {
   "property": "C127",
   "status": "partial",
   "theorems": [
    "C127_rows_partial",
    "C127_chosen_partial",
    "C127_wraps_refuted",
    "C127_alias_refuted",
    "C127_overflow_refuted",
    "C127_threshold_refuted"
   ],
   "note": "Proved for all pages with at most 254 distinct strings (255 without overflow checks), and for every page chosen by an estimate at most err too low under a threshold th with th + err <= 255 (the default threshold is 100). False beyond: indices have eight bits, the increment overflows (a panic with overflow checks); without them the 256th string reads back as null and the 257th as the first; LANCE_DICT_ENCODING_THRESHOLD is not bounded."
  },
  {
   "property": "C128",
   "status": "partial",
   "theorems": [
    "C128_columns",
    "C128_ids_partial",
    "C128_leaves_partial",
    "C128_whole_partial",
    "C128_names_partial",
    "C128_adopted_partial",
    "C128_ids_packed_refuted",
    "C128_ids_empty_refuted",
    "C128_whole_new_key_refuted",
    "C128_whole_case_refuted",
    "C128_whole_nested_refuted",
    "C128_whole_empty_refuted",
    "C128_adopted_21_refuted",
    "C128_adopted_20_refuted",
    "C128_names_21_refuted",
    "C128_names_20_refuted"
   ],
   "note": "False in general. Proved for projections by field id without packed structs of 2.1, for whole schemas on which reader and writer agree about packing, and for names and adopted files with one column per field. Refuted: packed structs of 2.1 have no index in a projection by ids; the key \"lance-encoding:packed\" and other spellings of \"true\" are packed for only one side (2.0); nested packed structs and empty structs of 2.1 break the whole schema; column names and adopted files (create_from_file) silently read another field's column for structs of 2.1 and packed structs of 2.0."
  },
  {
   "property": "C129",
   "status": "partial",
   "theorems": [
    "C129_writes",
    "C129_rows_partial",
    "C129_never_wrong",
    "C129_projection_refuted",
    "C129_validity_refuted",
    "C129_child_null_refuted",
    "C129_bool_refuted",
    "C129_bool_lists_refuted"
   ],
   "note": "Reading all fields of a packed struct is exact whenever the page could be written (C129_rows_partial, C129_never_wrong); false for a projection to some of the fields, where the row width is computed from the projected fields and other bytes come back without an error, and pages with null bitmaps (even without nulls), null fields or boolean fields cannot be written; lists of eight booleans are written but cannot be read."
  },
  {
   "property": "C13",
   "status": "partial",
   "theorems": [
    "C13_union_assign_partial",
    "C13_union_assign_exact",
    "C13_union_assign_refuted"
   ],
   "note": "false when a fragment is partial on the left and whole on the right (witness); exact characterisation and positive part proved"
  },
  {
   "property": "C130",
   "status": "partial",
   "theorems": [
    "C130_file_partial",
    "C130_column_buffers_partial",
    "C130_external",
    "C130_writes",
    "C130_batch",
    "C130_column_buffers_refuted",
    "C130_finish_external_refuted",
    "C130_finish_external_21_refuted",
    "C130_batch_21_refuted"
   ],
   "note": "false for a second column buffer (the position does not count the padding of the first), for external buffers handed over at the end (written without padding; in 2.1 the file cannot be opened) and for encoded batches of 2.1 (the footer always says 2.0); proved for everything else, with the codec of the column metadata given"
  },
  {
   "property": "C131",
   "status": "partial",
   "theorems": [
    "C131_sound_partial",
    "C131_complete_partial",
    "C131_field_sound_partial",
    "C131_field_complete_partial",
    "C131_order_accepts_refuted",
    "C131_order_refuses_refuted",
    "C131_hidden_nulls_refuted",
    "C131_parent_null_refuted",
    "C131_sliced_list_refuted"
   ],
   "note": "false for batches whose columns are in another order than the schema (nulls are stored, and fitting batches refused), for columns of the null type and null entries of dictionaries, for nulls below null structs and outside of sliced lists; sound and complete otherwise"
  },
  {
   "property": "C132",
   "status": "partial",
   "theorems": [
    "C132_column20_exact",
    "C132_lists20_exact",
    "C132_column21_exact",
    "C132_held_bounded",
    "C132_nonempty_partial",
    "C132_empty_page_refuted",
    "C132_packed_empty_refuted"
   ],
   "note": "rows of primitive and list columns (2.0), pages with their levels (2.1) and the bound on held arrays proved for every cut; slicing a large array can give pages without rows, and a page of packed structs without rows cannot be written"
  },
  {
   "property": "C133",
   "status": "proved",
   "theorems": [
    "C133_lossless",
    "C133_roundtrip",
    "C133_tables_sound",
    "C133_compress_room",
    "C133_decompress_room"
   ],
   "note": "Whatever table training arrives at (any hash, counts, order of candidates), decompressing any selection of compressed strings gives the original bytes; the buffers callers reserve (2x, 8x) suffice. Not covered: training can end with no symbols, in which case compress returns an error rather than a wrong result."
  },
  {
   "property": "C134",
   "status": "partial",
   "theorems": [
    "C134_build_exact",
    "C134_optimize_plain_partial",
    "C134_remap_exact",
    "C134_remap_pq_partial",
    "C134_build_refuted",
    "C134_build_empty_refuted",
    "C134_optimize_residual_refuted",
    "C134_optimize_deleted_refuted",
    "C134_optimize_nothing_new_refuted",
    "C134_remap_pq_refuted",
    "C134_remap_single_refuted",
    "C134_remap_gone_refuted"
   ],
   "note": "build_exact covers every new index whose first batch has rows. Merging is exact only when vectors are quantized as they are and no indexed row was deleted; remapping codes of product quantization only when no row is dropped. The refuted theorems show the rest fails: an empty first batch or an empty column, merged rows that lose their residual, deleted rows in a merged index, no new data (every row twice), dropped rows with product quantization, indices of one partition, indices left without rows."
  },
  {
   "property": "C135",
   "status": "partial",
   "theorems": [
    "C135_optimize_cover",
    "C135_optimize_others",
    "C135_optimize_honest_partial",
    "C135_optimize_total_partial",
    "C135_history_well",
    "C135_create_exact",
    "C135_drop_exact",
    "C135_statistics_exact",
    "C135_optimize_nothing_new_refuted",
    "C135_optimize_deleted_refuted",
    "C135_drop_race_refuted",
    "C135_create_race_refuted",
    "C135_optimize_old_refuted"
   ],
   "note": "Coverage, untouched indices, create, drop, statistics and the invariant over racing histories are proved in full. That each delta holds exactly its rows, and that optimizing succeeds, need for indices of the newer vector format that there is something new to index and, for success, that no merged row was deleted; the refuted theorems show both fail otherwise. Also refuted: a drop that races with an optimization leaves the index there, two racing creations without replace both succeed, and indices without a fragment bitmap cannot be optimized."
  },
  {
   "property": "C136",
   "status": "partial",
   "theorems": [
    "C136_safe",
    "C136_no_lost_wakeup_partial",
    "C136_not_stuck_partial",
    "C136_finite",
    "C136_one_threads_refuted",
    "C136_zero_refuted",
    "C136_drop_refuted",
    "C136_drop_full_refuted"
   ],
   "note": "Order, completeness and the bound by the capacity hold for every capacity and interleaving, dropped halves included; a run is finite. That nobody sleeps forever needs no half dropped and an unbounded capacity, a capacity of two or more, or a capacity of one with polls that do not overlap (as when blobs are written). Refuted: with a capacity of one and two threads both halves can sleep forever while an item is buffered; a capacity of zero never returns; a dropped half that had polled the stream, or whose buffer is full, blocks the other forever, so a failed write of fragments hangs the write of blobs."
  },
  {
   "property": "C137",
   "status": "partial",
   "theorems": [
    "C137_columns_partial",
    "C137_exact_partial",
    "C137_nulls_refuted",
    "C137_list_refuted",
    "C137_name_refuted"
   ],
   "note": "The columns announced are right for all schemas; those delivered are right, up to the nulls of structs, when no list is partly in the input and partly fetched, and exactly right when no struct is null. False in general: a completed struct loses its nulls, a list of structs is not completed though announced, a computed column with the name of a dataset column is taken for it."
  },
  {
   "property": "C138",
   "status": "partial",
   "theorems": [
    "C138_range_partial",
    "C138_take_sound_partial",
    "C138_take_total_partial",
    "C138_list_bool_refuted",
    "C138_order_refuted",
    "C138_zero_refuted"
   ],
   "note": "Ranges are right for all types without sizes of zero; taking by index returns the right rows or fails, and does not fail for indices in order and in range. False in general: taking lists of booleans panics, indices out of order fail, lists of size zero are lost."
  },
  {
   "property": "C139",
   "status": "partial",
   "theorems": [
    "C139_range_partial",
    "C139_take_partial",
    "C139_empty_refuted",
    "C139_repeat_refuted",
    "C139_take_wrong_refuted"
   ],
   "note": "Ranges are right, and so are takes of indices in order without repeats, except that an empty value of a nullable column is null. False in general: empty values become nulls, taking the first index twice fails, and with repeats and a row larger than a block take returns bytes of another row, because an index is compared with a position (binary.rs 263)."
  },
  {
   "property": "C14",
   "status": "proved",
   "theorems": [
    "C14_roundtrip",
    "C14_size",
    "C14_mask_roundtrip"
   ],
   "note": "RoaringBitmap's own byte format is a parameter with a round-trip contract on the bitmaps of the set; fewer than 2^32 entries"
  },
  {
   "property": "C140",
   "status": "proved",
   "theorems": [
    "C140_range",
    "C140_take",
    "C140_lengths"
   ],
   "note": "What reads one batch is a parameter of the theorems, right on the ranges and sorted indices it is asked for (C138 and C139 say when that is so; without repeats if none are asked for). Files of fewer than 2^31 rows."
  },
  {
   "property": "C141",
   "status": "proved",
   "theorems": [
    "C141_lists",
    "C141_nested"
   ],
   "note": "The innermost items are any codec that reads right (C138 for fixed widths, C139 for strings); nulls of lists are not stored by format 1 and are left out."
  },
  {
   "property": "C142",
   "status": "partial",
   "theorems": [
    "C142_roundtrip",
    "C142_open_partial",
    "C142_tombstone_refuted",
    "C142_opens_partial",
    "C142_set"
   ],
   "note": "The table itself is proved in full (C142_roundtrip, C142_set). Opening a data file is false in general: get_field_id_offset takes the first id of the data file, which merge_insert replaces by -2 when that field is written anew, so that the rows of the table are shifted (C142_tombstone_refuted); it holds while the first field stays (C142_open_partial, C142_opens_partial)."
  },
  {
   "property": "C143",
   "status": "proved",
   "theorems": [
    "C143_roundtrip",
    "C143_too_long",
    "C143_sound"
   ],
   "note": "For every prefetch from 16 bytes (the code has 64 KiB) and every block size from 4 bytes. Messages are their bytes; positions are below 2^63."
  },
  {
   "property": "C15",
   "status": "partial",
   "theorems": [
    "C15_insert_range_partial",
    "C15_insert_range_exact",
    "C15_last_fragment",
    "C15_empty_range_refuted",
    "C15_full_range_refuted"
   ],
   "note": "false for `..0` (inserts 0) and for ranges reaching the last possible fragment (overflow); everything else proved including the returned count"
  },
  {
   "property": "C16",
   "status": "partial",
   "theorems": [
    "C16_selected",
    "C16_selected_indices",
    "C16_and_partial",
    "C16_also_block_partial",
    "C16_also_allow_partial",
    "C16_and_refuted",
    "C16_also_block_refuted"
   ],
   "note": "AND / also_block inherit the |= defect (witnesses); everything else proved"
  },
  {
   "property": "C17",
   "status": "partial",
   "theorems": [
    "C17_or_allow_lists_partial",
    "C17_or_block_lists_partial",
    "C17_not_one_list_partial",
    "C17_not_all_rows_refuted",
    "C17_not_both_lists_refuted",
    "C17_or_loses_row_refuted",
    "C17_or_adds_row_refuted"
   ],
   "note": "OR and NOT are exact on single-list filters of the same kind; false otherwise (witnesses)"
  },
  {
   "property": "C18",
   "status": "partial",
   "theorems": [
    "C18_evaluate",
    "C18_visit_sound",
    "C18_to_expr",
    "C18_indexed_scan_exact",
    "C18_trained_scan_exact",
    "C18_or_of_negation_refuted",
    "C18_not_of_mixed_refuted",
    "C18_not_equal_null_refuted",
    "C18_equal_null_refuted",
    "C18_not_in_null_refuted",
    "C18_is_true_uncovered_refuted"
   ],
   "note": "Proved end to end (training, planning, index search, masks, take and refinement, uncovered fragments) for filters meeting the stated side conditions on negation and nulls; six theorems refute the unconditional claim: OR with a negated index result, NOT over a half-indexed AND, = / <> / NOT IN with nulls, IS TRUE on uncovered fragments."
  },
  {
   "property": "C19",
   "status": "proved",
   "theorems": [
    "C19_map_offsets",
    "C19_decreasing_offsets_refuted"
   ],
   "note": "OffsetMapper state machine, any representation; side conditions: fragment < 2^32 rows and queries below the number of survivors. The refuted theorem shows the documented ordering requirement is needed."
  },
  {
   "property": "C20",
   "status": "proved",
   "theorems": [
    "C20_take_indices"
   ],
   "note": "FileFragment::take index translation, any order and repeats of indices."
  },
  {
   "property": "C21",
   "status": "proved",
   "theorems": [
    "C21_patch_range"
   ],
   "note": "patch_range_for_deletions over the sorted deletion list."
  },
  {
   "property": "C22",
   "status": "proved",
   "theorems": [
    "C22_extend",
    "C22_history",
    "C22_sorted_iter",
    "C22_iter_canonical",
    "C22_range_cardinality",
    "C22_contains_range",
    "C22_build_predicate",
    "C22_equality",
    "C22_equality_none_vs_empty_refuted",
    "C22_deletion_file_roundtrip"
   ],
   "note": "extend with any size hint, membership, range counting, sorted iteration, predicate, file round trip (arrow IPC / roaring codecs enter as contract hypotheses). Structural equality distinguishes NoDeletions from an empty set: refuted theorem."
  },
  {
   "property": "C23",
   "status": "proved",
   "theorems": [
    "C23_updater_sound",
    "C23_updater_complete",
    "C23_updater_groups_complete"
   ],
   "note": "Sound for any batching; exact characterisation of when it succeeds, both with and without fixed row groups."
  },
  {
   "property": "C24",
   "status": "proved",
   "theorems": [
    "C24_frag_delete",
    "C24_frag_delete_literals",
    "C24_extend_deletions"
   ],
   "note": "predicate scan, literal true/false, extend_deletions by offsets."
  },
  {
   "property": "C25",
   "status": "partial",
   "theorems": [
    "C25_read_by_address",
    "C25_stable_ids_partial",
    "C25_stable_ids_range_refuted",
    "C25_stable_ids_take_refuted"
   ],
   "note": "Proved for every request when row ids are addresses. With stable row ids the row-id slice ignores the request's own offset, so only prefix requests are right (theorem _partial); range and take requests refuted."
  },
  {
   "property": "C26",
   "status": "proved",
   "theorems": [
    "C26_slice_then_expand",
    "C26_slice_rejects_out_of_bounds",
    "C26_valid_iff_in_bounds"
   ],
   "note": "ranges with start <= end; empty requests may be rejected by valid_given_len"
  },
  {
   "property": "C27",
   "status": "partial",
   "theorems": [
    "C27_take_by_offset",
    "C27_take_by_address",
    "C27_take_with_address",
    "C27_out_of_range_refuted"
   ],
   "note": "Proved for every in-range request (any order, duplicates, any deletion vectors); the out-of-range clause is refuted: the outcome (error, silently dropped row, panic) depends on the order of the request."
  },
  {
   "property": "C28",
   "status": "partial",
   "theorems": [
    "C28_offset_range_partial",
    "C28_empty_fragment_refuted",
    "C28_empty_range_refuted"
   ],
   "note": "Proved for datasets of non-empty fragments and non-empty ranges; empty fragments and empty ranges are refuted by witnesses."
  },
  {
   "property": "C29",
   "status": "proved",
   "theorems": [
    "C29_rename",
    "C29_lock",
    "C29_external",
    "C29_rename_refines",
    "C29_lock_refines",
    "C29_external_refines",
    "C29_rename_kept",
    "C29_lock_kept",
    "C29_external_kept",
    "C29_unsafe_refuted",
    "C29_mixed_schemes_refuted",
    "C29_lock_timeout_refuted"
   ],
   "note": "For the rename, lock and external-store handlers each handler is shown to refine an atomic commit-if-absent register per version (forward simulation, any number of processes, crashes anywhere, failing calls applied or not), which yields one winner, readers reading the winner's manifest and success being durable. Assumptions made explicit by refutations: one naming scheme per table for rename/lock, a lock that does not expire under a live holder, an external store whose errors mean nothing was written (C32 treats the other case). The unsafe handler is refuted."
  },
  {
   "property": "C30",
   "status": "proved",
   "theorems": [
    "C30_rename_contiguous",
    "C30_lock_contiguous",
    "C30_external_contiguous",
    "C30_immutable"
   ],
   "note": "Commit loop run by any number of writers (new datasets, retries, crashes) over the rename, lock and external-store handlers under the assumptions of C29; detached commits use a separate number range and are not modelled; removal by cleanup is treated in C76."
  },
  {
   "property": "C31",
   "status": "proved",
   "theorems": [
    "C31_recorded_readable",
    "C31_resolved_readable",
    "C31_recorded_forever",
    "C31_recorded_read",
    "C31_latest_forward"
   ],
   "note": "External store handler, any interleaving of committers and readers with crashes at every step; the store's put_if_not_exists is atomic and its errors mean nothing was written (C32 treats lost answers)."
  },
  {
   "property": "C32",
   "status": "partial",
   "theorems": [
    "C32_lost_answer_refuted",
    "C32_lost_answer_permanent_refuted",
    "C32_conflict_harmless_partial"
   ],
   "note": "Refuted for a store that applies put_if_not_exists and loses the answer: the conflict is reported, the staging manifest deleted, and no reader ever opens the version again. Positive part for stores whose errors mean nothing was written."
  },
  {
   "property": "C33",
   "status": "proved",
   "theorems": [
    "C33_parse",
    "C33_detect",
    "C33_detached",
    "C33_injective",
    "C33_staging",
    "C33_newest_first",
    "C33_detached_last"
   ],
   "note": "parse/print round trip for both schemes and detached versions, scheme detection, injectivity, V2 names sort newest first, staging names are never taken for manifests."
  },
  {
   "property": "C34",
   "status": "proved",
   "theorems": [
    "C34_rename_checked",
    "C34_lock_checked",
    "C34_external_checked",
    "C34_rename_history",
    "C34_lock_history",
    "C34_external_history",
    "C34_faithful",
    "C34_refinement"
   ],
   "note": "For every reachable state of any number of writers over each handler of C29: the versions found in the store form a checked history. The check uses the transaction as read back from its file (parameter [seen]); C34_faithful links to the histories of C36-C44 when reading back does not change conflicts (C41 shows the one case where it does)."
  },
  {
   "property": "C35",
   "status": "partial",
   "theorems": [
    "C35_skipped_check_refuted",
    "C35_remaining_checked_partial"
   ],
   "note": "Refuted: the first check stops at a removed version and does not look at later ones. Positive part: holds when no first check meets a removed version (retries refuse), for stores that keep removed numbers taken."
  },
  {
   "property": "C36",
   "status": "proved",
   "theorems": [
    "C36_row_conflict",
    "C36_accepted_keeps",
    "C36_deletions_survive",
    "C36_commit_frame",
    "C36_unchanged_refuted"
   ],
   "note": "Literal equality (including data files) is refuted by a concurrent column drop; the stated form is proved for every history. Merge honesty (a Merge carries the fragments it read) is a hypothesis of the deletion theorem."
  },
  {
   "property": "C37",
   "status": "partial",
   "theorems": [
    "C37_project_overwrite_refuted",
    "C37_project_relabels_refuted",
    "C37_project_applies_partial"
   ],
   "note": "Refuted: Project is accepted after a concurrent Overwrite and applies its stale schema. Proved: without a concurrent reset it applies to the fragments it read."
  },
  {
   "property": "C38",
   "status": "partial",
   "theorems": [
    "C38_ids_unique_increasing",
    "C38_used_below_max",
    "C38_fresh_ids_partial",
    "C38_id_reuse_refuted",
    "C38_duplicate_ids_refuted"
   ],
   "note": "Uniqueness, order and bound proved for honest writers. Freshness has one exception, id 0 on an emptied table with maximum 0, which is refuted by a concrete history; dishonest explicit ids are not checked by the commit (refuted)."
  },
  {
   "property": "C39",
   "status": "partial",
   "theorems": [
    "C39_row_ids_unique",
    "C39_row_ids_below_next",
    "C39_new_rows_fresh",
    "C39_stable_flag_refuted"
   ],
   "note": "Uniqueness, bound and freshness proved while the table carries the stable row id flag; refuted: a table emptied by a delete loses the flag and later rows get no ids."
  },
  {
   "property": "C40",
   "status": "partial",
   "theorems": [
    "C40_restore_reuse_refuted"
   ],
   "note": "Refuted: after Restore both row ids and fragment ids are handed out again."
  },
  {
   "property": "C41",
   "status": "partial",
   "theorems": [
    "C41_reread_partial",
    "C41_roundtrip_iff_partial",
    "C41_overwrite_refuted",
    "C41_empty_rewrite_refuted",
    "C41_clear_metadata_refuted",
    "C41_project_metadata_refuted",
    "C41_reread_is_seen",
    "C41_conflicts_kept_partial",
    "C41_conflict_missed_refuted",
    "C41_cleared_metadata_missed_refuted"
   ],
   "note": "False as stated: an overwrite's config updates are inverted by the decoder (Some non-empty -> None), schema metadata of Overwrite/Merge/Project is not stored, an empty rewrite gains an empty group, Some(empty) config parts become None. C41_reread_partial gives the exact result for every transaction, C41_roundtrip_iff_partial exactly which survive, C41_conflicts_kept_partial which conflicts the commit loop still finds; the _refuted theorems are the failures, including a reachable run of the commit loop that misses a conflict. Roaring byte format is a contract parameter; protobuf bytes are prost's."
  },
  {
   "property": "C42",
   "status": "proved",
   "theorems": [
    "C42_effect",
    "C42_conflict",
    "C42_both_take_effect",
    "C42_commute",
    "C42_schema_commute"
   ],
   "note": "Conflict is characterised exactly; effects and commutation for all pairs."
  },
  {
   "property": "C43",
   "status": "proved",
   "theorems": [
    "C43_flags_exact"
   ],
   "note": "write_manifest_file recomputes the flags after the config change, so they are exact; requires the default auto_set_feature_flags."
  },
  {
   "property": "C44",
   "status": "partial",
   "theorems": [
    "C44_claims_hold_partial",
    "C44_recalculate_exact",
    "C44_update_in_place_refuted",
    "C44_index_after_update_refuted",
    "C44_index_after_reuse_refuted",
    "C44_replacement_refuted",
    "C44_index_after_drop_refuted"
   ],
   "note": "Histories of any length over the modelled transactions, for every contents of data, deletion and index files (world). Under writers that are honest at the version they read (writer_honest) and the conditions the commit loop does not enforce (enough_checked) every index entry's claims hold in every version; recalculate_fragment_bitmap is characterised exactly. The property as stated is refuted: in-place column update by merge_insert, index commit racing with it, fragment id 0 given out again, data replacement of an indexed column, and an index on a field replaced meanwhile."
  },
  {
   "property": "C45",
   "status": "proved",
   "theorems": [
    "C45_fragment_roundtrip",
    "C45_fragment_roundtrip_iff",
    "C45_index_roundtrip",
    "C45_schema_roundtrip",
    "C45_manifest_roundtrip",
    "C45_manifest_roundtrip_counted",
    "C45_missing_row_ids_unreadable",
    "C45_duplicate_ids_refuted",
    "C45_unassigned_ids_refuted",
    "C45_zero_deletions_refuted"
   ],
   "note": "Fragments, indices, schemas and manifests survive, for every record meeting the stated side conditions (distinct assigned field ids, consistent derived members); each side condition is shown necessary by a _refuted/_unreadable theorem. Roaring byte format is a contract parameter; protobuf bytes are prost's."
  },
  {
   "property": "C46",
   "status": "proved",
   "theorems": [
    "C46_cleanup_safe",
    "C46_kept_files_survive",
    "C46_kept_manifests_survive",
    "C46_complete_run"
   ],
   "note": "for every directory and any subset of the removals (crash at any point); manifests named _versions/.tmp* are excluded, as no naming scheme produces them"
  },
  {
   "property": "C47",
   "status": "proved",
   "theorems": [
    "C47_young_files_kept",
    "C47_removed_before",
    "C47_concurrent_write"
   ],
   "note": "files of the dataset's directories; the old manifests themselves are the exception, stated in the theorem"
  },
  {
   "property": "C48",
   "status": "partial",
   "theorems": [
    "C48_old_tagged_errors",
    "C48_error_iff",
    "C48_tagged_latest_refuted"
   ],
   "note": "refuted: any tag on a listed version triggers the error, e.g. on the latest; proved: a tag on an old version always does, and the exact condition"
  },
  {
   "property": "C49",
   "status": "proved",
   "theorems": [
    "C49_plan",
    "C49_zero_target_diverges",
    "C49_legacy_index_refuted"
   ],
   "note": "plan_compaction, CandidateBin and split_for_size for every layout, options with positive target and indices with fragment bitmaps. The f32 deletion-percentage comparison is an arbitrary boolean function of (rows, deletions). Excluded cases are shown to fail."
  },
  {
   "property": "C50",
   "status": "proved",
   "theorems": [
    "C50_missing",
    "C50_transpose",
    "C50_order",
    "C50_all_deleted_refuted",
    "C50_empty_fragment_refuted"
   ],
   "note": "MissingIds and transpose_row_ids for groups sorted by fragment id (manifests are sorted by id), non-empty fragments, and a surviving row or no fragment 0; the excluded cases are shown to fail."
  },
  {
   "property": "C51",
   "status": "partial",
   "theorems": [
    "C51_rows_kept_partial",
    "C51_order_kept_partial",
    "C51_order_refuted"
   ],
   "note": "Rows are kept as a multiset for every accepted rewrite; order is kept when the final id sort does not move the spliced fragments, and refuted otherwise (compacted fragments get ids above a concurrent append or a later fragment)."
  },
  {
   "property": "C52",
   "status": "partial",
   "theorems": [
    "C52_grammar_exact",
    "C52_distinct_tags_distinct_files",
    "C52_create_exact",
    "C52_update_exact",
    "C52_delete_exact",
    "C52_exclusive_creation_refuted",
    "C52_stored_by_a_creator",
    "C52_serial_creation_exclusive"
   ],
   "note": "Grammar exact (under the contract that '.' is not alphanumeric), operations exact one at a time, files injective; exclusive creation is false in the code (check then put) - refuted, with the serial case proved."
  },
  {
   "property": "C53",
   "status": "proved",
   "theorems": [
    "C53_batch_check",
    "C53_batch_check_each",
    "C53_batch_as_sequence",
    "C53_sequence_as_batch",
    "C53_one_by_one_history"
   ],
   "note": "For batches of append transactions whose fragments are new (id 0, no row ids yet) committed with the dataset's own stable-row-id setting, as CommitBuilder::execute does. The batch is checked from the oldest read version, hence at least as strictly as each member."
  },
  {
   "property": "C54",
   "status": "partial",
   "theorems": [
    "C54_exact_partial",
    "C54_prefix",
    "C54_single",
    "C54_reads_apart",
    "C54_empty_range_refuted",
    "C54_single_empty_panics",
    "C54_unsorted_refuted",
    "C54_unsorted_lost_refuted"
   ],
   "note": "True for sorted non-empty ranges (any block size); in general the answer is a prefix of the correct one, cut at an empty range. Refuted for an empty range at the edge of a read, for unsorted ranges; a single empty range always panics."
  },
  {
   "property": "C55",
   "status": "proved",
   "theorems": [
    "C55_accounting",
    "C55_admission",
    "C55_urgent_admitted",
    "C55_no_panic",
    "C55_response_complete",
    "C55_drained_full",
    "C55_blocked_on_caller",
    "C55_no_deadlock",
    "C55_abandoned_starves_refuted"
   ],
   "note": "For every interleaving of submissions, pops, wake-ups, completions, deliveries and consumptions. Slots and bytes accounted, no panic in remove, no lost wake-up, deadlock freedom (from every reachable state without dropped futures all requests can be served). A dropped future leaks budget and can starve others (refutation kept beside it)."
  },
  {
   "property": "C56",
   "status": "proved",
   "theorems": [
    "C56_chunk_stream",
    "C56_chunk_concat",
    "C56_break_stream",
    "C56_zero_size"
   ],
   "note": "chunk_stream, chunk_concat_stream and break_stream for every input stream (errors included) and every size > 0; fuel is the model's recursion bound and any sufficient value gives the result."
  },
  {
   "property": "C57",
   "status": "proved",
   "theorems": [
    "C57_fragments_partition",
    "C57_rows_partition",
    "C57_shuffle_buffer"
   ],
   "note": "Both the fragment and the row-range sharding partition the dataset; the shuffle buffer delivers each batch once."
  },
  {
   "property": "C58",
   "status": "partial",
   "theorems": [
    "C58_unfiltered_partial",
    "C58_too_few_refuted",
    "C58_too_many_refuted",
    "C58_choice",
    "C58_choice_sizes",
    "C58_reservoir",
    "C58_filtered_partial",
    "C58_filtered_one_batch",
    "C58_shards_cover",
    "C58_few_matches_refuted",
    "C58_leftover_refuted"
   ],
   "note": "The count claim is false (two refutations); proved instead: distinct, in range, n - n mod max_takes <= count < n + n/max_takes, exactly n if max_takes divides n. Filtered: only distinct matching rows, at most n; matching rows are lost (two refutations; exact behaviour for batch_size >= n proved)."
  },
  {
   "property": "C59",
   "status": "proved",
   "theorems": [
    "C59_btree_search_exact",
    "C59_pages_complete",
    "C59_crossed_bounds_panic",
    "C59_crossed_refuted",
    "C59_flat_search_exact"
   ],
   "note": "Crossed bounds (low > high) are outside the claim: they panic exactly when a tree key lies strictly between the bounds (C59_crossed_bounds_panic, witness C59_crossed_refuted). A v2 page file needs every page but the last to be full, as chunk_concat_stream produces."
  },
  {
   "property": "C60",
   "status": "partial",
   "theorems": [
    "C60_flat_remap",
    "C60_bitmap_remap_exact",
    "C60_bitmap_remap_partial",
    "C60_bitmap_unmapped_refuted",
    "C60_bitmap_nulls_refuted",
    "C60_btree_remap_partial",
    "C60_btree_remap_v2_partial",
    "C60_btree_remap_mixed_partial",
    "C60_btree_shrink_refuted",
    "C60_btree_nulls_refuted"
   ],
   "note": "Flat pages: proved for every mapping. Bitmap: exact characterisation, claim holds without nulls under total mappings; false otherwise (two witnesses). B-tree: claim holds without nulls, or with nulls in a mixed first page, when v2 pages keep their length; false when a page shrinks or the first page is all null."
  },
  {
   "property": "C61",
   "status": "proved",
   "theorems": [
    "C61_bitmap_search_exact",
    "C61_update_is_train",
    "C61_crossed_bounds_panic",
    "C61_crossed_refuted"
   ],
   "note": "Range bounds must be non-null and not crossed; crossed bounds always panic."
  },
  {
   "property": "C62",
   "status": "proved",
   "theorems": [
    "C62_label_search_exact",
    "C62_empty_labels_refuted"
   ],
   "note": "For non-empty label lists and distinct row ids; the empty label list always panics (C62_empty_labels_refuted)."
  },
  {
   "property": "C63",
   "status": "proved",
   "theorems": [
    "C63_power_of_two",
    "C63_padding",
    "C63_bits",
    "C63_bits_total"
   ],
   "note": "pad_bytes is the least padding; log_2_ceil for every u32."
  },
  {
   "property": "C64",
   "status": "partial",
   "theorems": [
    "C64_seq_to_set_partial",
    "C64_seq_to_set_reskip_refuted",
    "C64_seq_to_set_empty_refuted"
   ],
   "note": "false when a later segment's hole is an earlier segment's id, and for the empty range 0..0 (witnesses)"
  },
  {
   "property": "C65",
   "status": "partial",
   "theorems": [
    "C65_filter_deleted_addresses_partial",
    "C65_survives_is_readable",
    "C65_filter_addresses_refuted"
   ],
   "note": "Proved for duplicate-free requests not past the last fragment; a repeated deleted address is reported live and an address past the last fragment panics (refuted)."
  },
  {
   "property": "C66",
   "status": "partial",
   "theorems": [
    "C66_filter_deleted_ids_partial",
    "C66_missing_id_refuted"
   ],
   "note": "Proved when every id is in the row id index; refuted when an id is missing (ids and addresses are zipped out of step)."
  },
  {
   "property": "C67",
   "status": "partial",
   "theorems": [
    "C67_no_missing_conflict_partial",
    "C67_no_extra_conflict_partial",
    "C67_missing_conflicts_refuted",
    "C67_extra_conflicts_refuted"
   ],
   "note": "Exact agreement outside two lists of cells; each listed cell is refuted by a concrete pair."
  },
  {
   "property": "C68",
   "status": "partial",
   "theorems": [
    "C68_local",
    "C68_remote_v1",
    "C68_remote_v2_ordered_partial",
    "C68_remote_v2_unordered_refuted",
    "C68_detached_refuted",
    "C68_detached_panics_refuted"
   ],
   "note": "True for local stores, for V1 names on any store, and for V2 names on an ordered store without detached manifests among the first listed; refuted for unordered remote V2 tables and in the presence of detached manifests."
  },
  {
   "property": "C69",
   "status": "partial",
   "theorems": [
    "C69_shard_scan",
    "C69_filtered_partition_partial",
    "C69_scan_succeeds",
    "C69_short_batch_refuted",
    "C69_no_rows_refuted"
   ],
   "note": "The rows delivered are exactly every world-th matching row whenever the scan does not raise, and it does not raise if each batch has world-1 rows and the rank has a row; refuted otherwise."
  },
  {
   "property": "C70",
   "status": "partial",
   "theorems": [
    "C70_update_partial",
    "C70_nulls_refuted"
   ],
   "note": "Holds for indices without nulls trained with the default page size; refuted when the first page mixes nulls and values."
  },
  {
   "property": "C71",
   "status": "partial",
   "theorems": [
    "C71_coerced_literal_typed",
    "C71_coercion_exact_partial",
    "C71_int_refused_iff",
    "C71_int_compare",
    "C71_truncated_stamp_compare",
    "C71_time_of_day",
    "C71_stamp_refuted",
    "C71_float_refuted",
    "C71_date_wrap_refuted",
    "C71_time_overflow_refuted"
   ],
   "note": "Proved for every coercion that loses no precision (all integer types, widening, exact narrowing) and an exact characterisation of which comparisons survive truncation; refuted for truncated timestamps, rounded floats, wrapped dates and overflowing times. Float, string and list literals are not modelled."
  },
  {
   "property": "C72",
   "status": "partial",
   "theorems": [
    "C72_deletion_mask_addresses",
    "C72_deletion_mask_row_ids",
    "C72_known_bitmaps",
    "C72_unknown_bitmap_partial",
    "C72_unknown_bitmap_refuted",
    "C72_unsorted_deletions_refuted"
   ],
   "note": "Exactness proved for both row address kinds when the fragments considered include the index coverage and deletions are listed in order; refuted for an index without fragment bitmap and for unordered deletion vectors."
  },
  {
   "property": "C73",
   "status": "partial",
   "theorems": [
    "C73_row_ids_for_mask",
    "C73_materialized_ids",
    "C73_block_list_capacity_refuted"
   ],
   "note": "Exactness proved for every mask and fragment list meeting the capacity condition; refuted for a block list that names more rows than the fragments hold."
  },
  {
   "property": "C74",
   "status": "partial",
   "theorems": [
    "C74_open_refuses_unknown",
    "C74_commit_refuses_unknown_reader",
    "C74_insert_at_latest_partial",
    "C74_known_flags_no_refusal",
    "C74_written_flags_known",
    "C74_checkout_latest_refuted",
    "C74_delete_ignores_writer_flags_refuted",
    "C74_append_from_older_handle_refuted"
   ],
   "note": "False in the code (three refutations). Proved: opening by number is exact, commits are stopped by unknown reader flags after the version read, inserts through a handle on the latest version respect writer flags, commits write known flags only."
  },
  {
   "property": "C75",
   "status": "partial",
   "theorems": [
    "C75_adoption_refuted",
    "C75_empty_adoption_partial"
   ],
   "note": "Refuted by a five-version table: one read of version 3 by number and the next commit overwrites version 4. Positive part: tables that used the store from the start."
  },
  {
   "property": "C76",
   "status": "partial",
   "theorems": [
    "C76_reused_number_refuted",
    "C76_kept_numbers_partial"
   ],
   "note": "Refuted for stores where a removed manifest's path is free again; holds for stores that keep the numbers of removed versions (external stores that keep their rows)."
  },
  {
   "property": "C77",
   "status": "partial",
   "theorems": [
    "C77_reloaded_partial",
    "C77_stale_schema_metadata_refuted",
    "C77_stale_field_metadata_refuted"
   ],
   "note": "False when schema or field metadata is replaced (local_schema is not refreshed); otherwise the loaded manifest equals the one in memory, for every operation."
  },
  {
   "property": "C78",
   "status": "proved",
   "theorems": [
    "C78_set_field_id"
   ],
   "note": "For every tree."
  },
  {
   "property": "C79",
   "status": "partial",
   "theorems": [
    "C79_restored_version_loses_files_refuted",
    "C79_new_tag_ignored_refuted",
    "C79_concurrent_commit_partial"
   ],
   "note": "refuted by a concurrent restore and by a concurrent tag; proved for commits whose files are kept or new"
  },
  {
   "property": "C80",
   "status": "partial",
   "theorems": [
    "C80_foreign_removed_refuted",
    "C80_removed_prefix_partial"
   ],
   "note": "refuted by a neighbouring directory whose name starts with data; the exact prefixes at risk are proved"
  },
  {
   "property": "C81",
   "status": "partial",
   "theorems": [
    "C81_restart_out_of_order_refuted",
    "C81_restart_in_order_partial",
    "C81_restart_unverified_partial"
   ],
   "note": "refuted for deletions out of order; proved for deletions in order, and in any order with delete_unverified"
  },
  {
   "property": "C82",
   "status": "partial",
   "theorems": [
    "C82_listing_exact",
    "C82_ascii_file_name",
    "C82_non_ascii_tag_breaks_listing",
    "C82_created_tag_listed_refuted"
   ],
   "note": "Refuted for accepted names outside ASCII (and then every listing fails); exact for directories with ASCII tags only. object_store's percent-encoding is modelled from its documentation."
  },
  {
   "property": "C83",
   "status": "partial",
   "theorems": [
    "C83_compaction_keeps_rows_partial",
    "C83_deleted_rows_back_refuted",
    "C83_overwritten_rows_back_refuted"
   ],
   "note": "Refuted as stated: commit_compaction records the handle's version as the version read and ignores RewriteResult::read_version, so a newer handle resurrects deleted rows or replaces an overwritten table. Proved for every notion of a fragment's rows when the handle is not newer than any task's version."
  },
  {
   "property": "C84",
   "status": "proved",
   "theorems": [
    "C84_reserved_fresh",
    "C84_reservations_disjoint",
    "C84_reserved_honest",
    "C84_reserve_ids"
   ],
   "note": "Histories of any length without Restore; u32 overflow of ids modelled as a panic. reserved_honest discharges the id hypotheses of C36, C38, C39, C44 and C51 from this discipline."
  },
  {
   "property": "C85",
   "status": "partial",
   "theorems": [
    "C85_update_exact_partial",
    "C85_assignments_exact_partial",
    "C85_deletions_exact",
    "C85_update_swap_refuted",
    "C85_update_order_refuted",
    "C85_update_stable_refuted",
    "C85_update_stable_fails_refuted",
    "C85_update_unordered_fails_refuted"
   ],
   "note": "Proved for tables without stable row ids and assignments that read no other assigned column (and that can be run in any order). Refuted otherwise: SET a = b, b = a is applied one assignment after another in hash-map order; with stable row ids the ids of the removed rows are read as addresses, so old rows stay, a row past the end of a fragment is marked, or the update fails."
  },
  {
   "property": "C86",
   "status": "partial",
   "theorems": [
    "C86_merge_exact_partial",
    "C86_visible_keys",
    "C86_merge_unique",
    "C86_merge_hidden_refuted",
    "C86_merge_null_key_refuted",
    "C86_merge_stable_refuted"
   ],
   "note": "Proved (table, statistics, uniqueness of keys) for tables without stable row ids when no row has nulls in all of its first k columns, k the number of key columns, as when the key columns come first and each key has a non-null column. Refuted otherwise: rows are taken as absent from the join when their first k columns are null, null keys are never inserted, and stable row ids leave old versions."
  },
  {
   "property": "C87",
   "status": "partial",
   "theorems": [
    "C87_merge_indexed_exact_partial",
    "C87_index_duplicates_refuted",
    "C87_index_nulls_refuted"
   ],
   "note": "Proved when no source key is null and no key is in two source batches. Refuted otherwise: a key in two source batches multiplies rows, and null keys match each other only with an index."
  },
  {
   "property": "C88",
   "status": "partial",
   "theorems": [
    "C88_partial_exact_partial",
    "C88_new_file_total",
    "C88_tombstone_owner",
    "C88_update_if_panics_refuted",
    "C88_overwrites_refuted",
    "C88_drops_refuted"
   ],
   "note": "Proved when at most one source row matches each target row and there is no condition on the update. Refuted otherwise: two source rows for one target row overwrite or drop updates of other rows; update conditions always panic."
  },
  {
   "property": "C89",
   "status": "partial",
   "theorems": [
    "C89_updates_conflict",
    "C89_inserts_never_conflict",
    "C89_concurrent_insert_refuted"
   ],
   "note": "Refuted: merges that only insert never conflict, so a key inserted by two concurrent merges is there twice. Proved: merges that change a common fragment conflict; a merge committed on the version it read keeps keys unique (C86_merge_unique)."
  },
  {
   "property": "C90",
   "status": "partial",
   "theorems": [
    "C90_limit_exact_partial",
    "C90_order_after_limit",
    "C90_zero_limit_ignored",
    "C90_order_limit_refuted",
    "C90_zero_limit_refuted"
   ],
   "note": "False for ordered unfiltered scans of v2 tables with a limit or offset (the page is cut before sorting) and for limit 0 without offset when filtered or v1; both characterised and refuted with witnesses, exact otherwise. Needs columns readable as in C91."
  },
  {
   "property": "C91",
   "status": "partial",
   "theorems": [
    "C91_read_range_exact_partial",
    "C91_read_all_exact_partial",
    "C91_take_exact_partial",
    "C91_take_range_exact_partial",
    "C91_count_live",
    "C91_read_all_nulls",
    "C91_read_all_loses_rows_refuted",
    "C91_read_all_fails_refuted",
    "C91_read_all_truncated_refuted",
    "C91_read_range_ids_refuted"
   ],
   "note": "Exact for all reads except: whole-fragment reads of a column with no data file in a fragment with deletions (rows lost or error, refuted), and row ids of ranges/takes in tables with stable row ids (refuted)."
  },
  {
   "property": "C92",
   "status": "partial",
   "theorems": [
    "C92_project_exact_partial",
    "C92_field_at_path",
    "C92_by_ids_exact",
    "C92_by_ids_well",
    "C92_union_columns_are",
    "C92_union_columns_exact_partial",
    "C92_union_schema_exact",
    "C92_subtract_schema_exact",
    "C92_union_columns_refuted",
    "C92_project_missing_refuted",
    "C92_project_panic_refuted",
    "C92_intersect_exact_partial",
    "C92_intersect_refuted",
    "C92_union_projection",
    "C92_subtract_projection"
   ],
   "note": "Exact for existing columns, also for adding, subtracting and (columns on one path) intersecting projections. Refuted: union_columns of a column and one inside it loses siblings; Schema::project of a missing child gives a struct without children instead of an error, and can panic for lists; the intersection of two children of a struct selects the whole struct."
  },
  {
   "property": "C93",
   "status": "partial",
   "theorems": [
    "C93_drop_columns_exact_partial",
    "C93_drop_columns_ok",
    "C93_exclude_exact",
    "C93_drop_columns_refuted"
   ],
   "note": "Exact unless a dropped path goes into a list at the top level; then the whole list is dropped (refuted)."
  },
  {
   "property": "C94",
   "status": "proved",
   "theorems": [
    "C94_compare_exact",
    "C94_explain_exact",
    "C94_check_exact",
    "C94_compare_refl",
    "C94_unknown_reason_refuted",
    "C94_self_refuted"
   ],
   "note": "for schemas with distinct sibling names and metadata that are maps; both side conditions and the loaded dictionaries are shown necessary (C94_unknown_reason_refuted, C94_self_refuted)"
  },
  {
   "property": "C95",
   "status": "proved",
   "theorems": [
    "C95_write_schema_exact",
    "C95_write_schema_ids"
   ],
   "note": "for well-formed schema trees (lists have one child, leaves none, distinct sibling names); reading back a file that lacks a nested column is not covered here"
  },
  {
   "property": "C96",
   "status": "partial",
   "theorems": [
    "C96_fragment_sound_partial",
    "C96_rowwise_sound_partial",
    "C96_rowwise_total_partial",
    "C96_stream_sound_partial",
    "C96_stream_total_partial",
    "C96_stream_panic_refuted",
    "C96_stream_trailing_refuted",
    "C96_first_batch_refuted"
   ],
   "note": "false in general: refuted for a batch without surviving rows (stream: panic; expression: rejected when it is the first batch) and for a stream ending in an empty batch; the partial theorems give the exact conditions for success and what every row gets; v2 files only for the success direction"
  },
  {
   "property": "C97",
   "status": "partial",
   "theorems": [
    "C97_cached_spec_partial",
    "C97_resumed_same_partial",
    "C97_resumed_deletes_refuted"
   ],
   "note": "false in general: a dataset changed between attempts gets rows back that were deleted; proved for attempts at the same fragments with a deterministic function"
  },
  {
   "property": "C98",
   "status": "partial",
   "theorems": [
    "C98_alter_labels_partial",
    "C98_alter_sound_partial",
    "C98_alter_exact_partial",
    "C98_alter_twice_refuted",
    "C98_alter_siblings_refuted",
    "C98_alter_metadata_refuted"
   ],
   "note": "false in general: refuted by a change of type followed by another alteration of the column (panic), by two children of a struct getting one name, and by the loss of metadata when the type changes; the partial theorems give the exact result and conditions otherwise; whether a cast is allowed is a parameter"
  },
  {
   "property": "C99",
   "status": "partial",
   "theorems": [
    "C99_alter_data_sound_partial",
    "C99_alter_data_total_partial",
    "C99_alter_nested_refuted",
    "C99_alter_order_refuted"
   ],
   "note": "false in general: refuted by a change of type inside a struct (panic) and by the order of two changes of type; soundness holds for every accepted call, success is proved for nullable columns at the top, v2 files"
  }
 ]
}