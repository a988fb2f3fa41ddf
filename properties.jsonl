{"id": "C01", "title": "Row-id segment encoding is lossless", "statement": "Encoding any list of distinct 64-bit row ids into a row-id segment and iterating the segment yields exactly the original list, in the original order, whichever of the five physical layouts the encoder picks.", "quantifier": "every list of distinct u64 row ids other than u64::MAX (the reserved tombstone)", "why_tests_cant": "The encoder picks a layout by comparing size estimates of the input; tests cover a handful of inputs per layout while the claim is about every list and every size crossover.", "anchors": ["rust/lance-table/src/rowids/segment.rs: U64Segment::from_slice, from_stats_and_sequence, compute_stats, iter", "rust/lance-table/src/rowids/encoded_array.rs: EncodedU64Array"]}
{"id": "C02", "title": "Compact u64 arrays behave like the list they encode", "statement": "For every list of u64, the compact array built from it has the same length, the same element at every index, the same first/last, and for a sorted list its binary search returns a position of the value if present and the insertion point within the list if absent.", "quantifier": "every list of u64 values, every index, every searched value", "why_tests_cant": "Base+offset arithmetic has width boundaries at 2^16 and 2^32 and a different code path per width; exhaustive testing over u64 lists is impossible.", "anchors": ["rust/lance-table/src/rowids/encoded_array.rs: EncodedU64Array::{from,iter,get,first,last,min,max,binary_search,slice}"]}
{"id": "C03", "title": "Segment length, get and position agree with iteration", "statement": "For every well-formed row-id segment: len equals the number of ids iterated, get(i) returns the i-th iterated id (and nothing past the end), and position(v) returns the index at which v is iterated, or nothing if v is not in the segment.", "quantifier": "every well-formed segment of every layout, every index, every id", "why_tests_cant": "Each layout has its own arithmetic for rank/select; correctness is a relation between three functions over unbounded data.", "anchors": ["rust/lance-table/src/rowids/segment.rs: U64Segment::{len,get,position,iter}", "rust/lance-table/src/rowids/bitmap.rs"]}
{"id": "C04", "title": "Deleting ids from a segment or sequence removes exactly those ids", "statement": "After deleting a set of row ids, iteration yields the original ids in the original order without the deleted ones, and nothing else changes; ids that are not present are ignored.", "quantifier": "every well-formed sequence of segments and every list of ids to delete", "why_tests_cant": "Deletion re-encodes into a possibly different layout and routes ids to segments with a cyclic search; only a proof covers every routing/re-encoding combination.", "anchors": ["rust/lance-table/src/rowids.rs: RowIdSequence::delete, find_ids", "rust/lance-table/src/rowids/segment.rs: U64Segment::delete"]}
{"id": "C05", "title": "Masking positions removes exactly the rows at those positions", "statement": "Masking a sorted list of positions (as done with a deletion vector) leaves exactly the ids whose position is not listed, in order.", "quantifier": "every well-formed sequence and every strictly increasing list of in-range positions", "why_tests_cant": "Positions are split per segment by running cutoffs and re-encoded with statistics computed from unmasked endpoints; the claim ranges over all sequences.", "anchors": ["rust/lance-table/src/rowids.rs: RowIdSequence::mask", "rust/lance-table/src/rowids/segment.rs: U64Segment::mask"]}
{"id": "C06", "title": "Slicing a segment yields the ids at those positions", "statement": "U64Segment::slice(offset, len) yields the ids at positions offset..offset+len of the segment. (Expected to hold for range and array layouts and to fail for the layouts with holes.)", "quantifier": "every well-formed segment, every in-range offset/len", "why_tests_cant": "Slot offsets and value offsets coincide on hole-free inputs, which is what tests use; the divergence appears only for particular hole placements.", "anchors": ["rust/lance-table/src/rowids/segment.rs: U64Segment::slice"]}
{"id": "C07", "title": "Row-id sequences concatenate, index and slice like lists", "statement": "extend is list concatenation; get(i) is the i-th id; slicing a sequence iterates exactly ids offset..offset+len; select by range or indices returns the ids at those positions or fails when out of bounds (an error; for an open-ended range starting past the end, a panic).", "quantifier": "every pair of well-formed sequences, every index/offset/length/index list", "why_tests_cant": "Adjacent ranges are merged and slices cross segment boundaries; behaviour depends on unbounded combinations of segment lengths.", "anchors": ["rust/lance-table/src/rowids.rs: RowIdSequence::{extend,get,slice,iter,len}, RowIdSeqSlice::iter, select_row_ids"]}
{"id": "C08", "title": "Re-chunking row ids during compaction conserves the id order", "statement": "Re-chunking a list of row-id sequences to the sizes of the new fragments yields chunks whose concatenation is the original concatenation and whose sizes are the requested ones, or an error when totals differ. (Expected to fail for segments with holes and for empty segments.)", "quantifier": "every list of sequences and every list of chunk sizes", "why_tests_cant": "Chunk boundaries fall anywhere inside segments; a wrong assignment silently attaches an old row id to a different row.", "anchors": ["rust/lance-table/src/rowids.rs: rechunk_sequences", "rust/lance/src/dataset/optimize.rs: rechunk_stable_row_ids"]}
{"id": "C09", "title": "Row-id sequences survive serialization", "statement": "Writing a row-id sequence to bytes and reading it back yields an identical sequence.", "quantifier": "every row-id sequence whose offsets fit their declared widths", "why_tests_cant": "Byte-level little-endian packing of offsets over all widths and values.", "anchors": ["rust/lance-table/src/rowids/serde.rs: write_row_ids, read_row_ids"]}
{"id": "C10", "title": "The row-id index maps each stable row id to its one row address", "statement": "When the index is built from the fragments' row-id sequences, looking up an id that fragment f holds at position i returns the address (f, i); looking up an id no fragment holds returns nothing; construction is refused rather than returning an ambiguous answer when id ranges overlap.", "quantifier": "every list of (fragment id, row-id sequence) pairs and every looked-up id", "why_tests_cant": "Correctness ranges over arbitrary interleavings of id ranges between fragments.", "anchors": ["rust/lance-table/src/rowids/index.rs: RowIdIndex::{new,get}, decompose_sequence"]}
{"id": "C11", "title": "Row addresses pack and unpack losslessly and order by (fragment, offset)", "statement": "Packing (fragment, offset) in a 64-bit address and unpacking gives the pair back, distinct pairs get distinct addresses, and numeric order is lexicographic order.", "quantifier": "every pair of u32 values", "why_tests_cant": "2^64 pairs.", "anchors": ["rust/lance-core/src/utils/address.rs: RowAddress"]}
{"id": "C12", "title": "Row-id set algebra is set algebra", "statement": "After insert, remove, intersection, difference, fragment retention, or bulk union, a row id is reported as contained exactly when the corresponding set-theoretic operation says so.", "quantifier": "every pair of row-id sets (mixing whole-fragment and per-row entries) and every u64 id", "why_tests_cant": "The sets mix 'whole fragment' markers with bitmaps; membership must agree for 2^64 ids in every combination.", "anchors": ["rust/lance-core/src/utils/mask.rs: RowIdTreeMap::{insert,remove,contains,retain_fragments,union_all}, BitAndAssign, SubAssign"]}
{"id": "C13", "title": "Union-assign of row-id sets is union", "statement": "a |= b contains an id iff a or b contained it. (Expected to fail when the left side holds a partial bitmap of a fragment the right side holds entirely.)", "quantifier": "every pair of row-id sets", "why_tests_cant": "The failing combination (partial | full) is one of many entry combinations and not covered by tests.", "anchors": ["rust/lance-core/src/utils/mask.rs: BitOrAssign for RowIdTreeMap"]}
{"id": "C14", "title": "Row-id sets survive serialization", "statement": "Serializing a row-id set and deserializing the bytes gives a set with the same entries, and serialized_size equals the number of bytes written.", "quantifier": "every row-id set whose partial bitmaps are non-empty serializations", "why_tests_cant": "Binary format with a zero-length marker for whole fragments; depends on all entry shapes.", "anchors": ["rust/lance-core/src/utils/mask.rs: RowIdTreeMap::{serialize_into,deserialize_from,serialized_size}"]}
{"id": "C15", "title": "Inserting a range of row ids inserts exactly that range", "statement": "insert_range(a..b) adds exactly the ids a <= x < b and returns how many were new, splitting at fragment boundaries. (Expected to fail for empty ranges.)", "quantifier": "every range bounds and every prior set", "why_tests_cant": "Splitting at 2^32 boundaries and wrap-around cases are not enumerable.", "anchors": ["rust/lance-core/src/utils/mask.rs: RowIdTreeMap::insert_range"]}
{"id": "C16", "title": "A row filter selects exactly the allowed and not blocked rows; AND is conjunction", "statement": "selected(id) is true iff id is in the allow list (if any) and not in the block list (if any); the indices returned for a list of ids are the positions of the selected ones; combining two filters with AND selects exactly the ids satisfying both; adding a block list also excludes its ids; adding an allow list extends an existing allow list by its ids.", "quantifier": "every pair of filters, every id, every list of ids", "why_tests_cant": "Optional allow/block lists give nine shape combinations over unbounded sets.", "anchors": ["rust/lance-core/src/utils/mask.rs: RowIdMask::{selected,selected_indices,also_block,also_allow}, BitAnd"]}
{"id": "C17", "title": "OR and NOT of row filters are disjunction and negation", "statement": "Combining two filters with OR selects an id iff one of them does; NOT selects an id iff the filter does not. (Expected to fail for block-list operands.)", "quantifier": "every pair of filters, every id", "why_tests_cant": "Tests use allow lists; the wrong cases need a block list on one side.", "anchors": ["rust/lance-core/src/utils/mask.rs: BitOr, Not for RowIdMask"]}
{"id": "C18", "title": "A filter answered by scalar indices returns the same rows as a full scan", "statement": "For a filter expression over indexed and non-indexed columns, evaluating the index part, intersecting and refining yields exactly the rows on which the original filter evaluates to true. (Expected to hold for null-free data and filters without OR over negated leaves, and to fail for NOT over nulls and OR with a negated side.)", "quantifier": "every filter expression tree, every table contents (with nulls), every set of indexed columns", "why_tests_cant": "The claim ranges over all expression shapes and all data; tests check a handful of query strings.", "anchors": ["rust/lance-index/src/scalar/expression.rs: apply_scalar_indices, IndexedExpression, ScalarIndexExpr::evaluate", "rust/lance/src/dataset/scanner.rs: scalar_indexed_scan"]}
{"id": "C19", "title": "Logical row offsets map to the k-th surviving row", "statement": "Translating a logical row offset through a deletion vector returns the physical offset of the k-th non-deleted row, for every non-decreasing sequence of in-range queries on a fragment of fewer than 2^32 rows, and the search always terminates without its internal assertion failing. (Non-decreasing order is the documented requirement; a decreasing query gives a wrong answer.)", "quantifier": "every deletion vector (any representation) and every non-decreasing list of offsets", "why_tests_cant": "A stateful bisection whose state carries over between calls; termination and correctness over every deletion set cannot be tested.", "anchors": ["rust/lance-core/src/utils/deletion.rs: OffsetMapper::map_offset"]}
{"id": "C20", "title": "Fragment take skips deleted rows", "statement": "Taking logical indices from a fragment with deletions reads, for each index k, the physical row that is the k-th non-deleted row, in the order requested.", "quantifier": "every deletion vector and every list of indices", "why_tests_cant": "Offset arithmetic over arbitrary clusters of deletions around the target.", "anchors": ["rust/lance/src/dataset/fragment.rs: FileFragment::take"]}
{"id": "C21", "title": "Reading a logical range returns exactly that many surviving rows", "statement": "Reading logical rows a..b of a fragment with deletions reads a physical range that, after removing deleted rows, consists exactly of the a-th to (b-1)-th surviving rows.", "quantifier": "every deletion vector and every range a<b within the fragment", "why_tests_cant": "The end of the physical range depends on deletions that are only discovered while extending it.", "anchors": ["rust/lance/src/dataset/fragment.rs: FragmentReader::patch_range_for_deletions, read_range"]}
{"id": "C22", "title": "Deletion vectors are sets of offsets", "statement": "Extending, collecting, iterating in order, counting and range counting on a deletion vector agree with a finite set of u32 offsets whatever internal representation is used, including across the switch from hash set to bitmap; writing it to a deletion file and reading it back gives the same set.", "quantifier": "every history of extends", "why_tests_cant": "The representation switches at 5000 entries; equality must hold over all histories.", "anchors": ["rust/lance-core/src/utils/deletion.rs: DeletionVector", "rust/lance-table/src/io/deletion.rs: write_deletion_file, read_deletion_file"]}
{"id": "C23", "title": "Updating a column of a fragment with deletions keeps values on their rows", "statement": "When new column values are written back for the surviving rows of a fragment, a successful write puts every surviving row's new value at its original physical offset, with blanks at exactly the deleted offsets and as many rows as the fragment; the write is refused in exactly one situation: a batch that would need blanks but has no row to copy (first batch empty while row 0 is deleted, or, with fixed row groups, a group whose rows are all deleted).", "quantifier": "every deletion set and every split of the surviving rows in batches (with and without a fixed batch size)", "why_tests_cant": "The restorer keeps state across batches; batch boundaries interact with runs of deletions.", "anchors": ["rust/lance/src/dataset/updater.rs: DeletionRestorer, add_blanks, Updater"]}
{"id": "C24", "title": "Deleting rows from a fragment marks exactly the matching rows", "statement": "Deleting with a predicate extends the fragment's deletion set by exactly the matching physical rows; the fragment disappears iff every row is deleted; a predicate matching nothing leaves the fragment unchanged; the recorded number of deleted rows equals the size of the deletion set.", "quantifier": "every prior deletion set, every set of matching rows, every fragment size", "why_tests_cant": "Relation over all subsets of rows, including boundary all-deleted.", "anchors": ["rust/lance/src/dataset/fragment.rs: FileFragment::delete, write_deletions"]}
{"id": "C25", "title": "Scans attach each row's own id and drop exactly the deleted rows", "statement": "For every batch of a fragment read, the row address column holds each row's true physical address, the row id column holds that row's id, and exactly the deleted rows are dropped (or nulled). (Expected to fail for stable row ids when the read is a range or a take.)", "quantifier": "every read request (full, range, prefix, suffix, index list), every batching, every deletion set, every row-id sequence", "why_tests_cant": "Batch offsets, request offsets and physical offsets coincide for full scans, which is what tests exercise.", "anchors": ["rust/lance-table/src/utils/stream.rs: apply_row_id_and_deletes, wrap_with_row_id_and_delete", "rust/lance-io/src/lib.rs: ReadBatchParams"]}
{"id": "C26", "title": "Sub-selecting a read request composes", "statement": "Slicing a read request and then expanding it to row offsets gives the same offsets as expanding first and slicing the list; requests are rejected exactly when they are out of bounds.", "quantifier": "every read request and every in-range slice", "why_tests_cant": "Five request shapes with open-ended bounds over unbounded lengths.", "anchors": ["rust/lance-io/src/lib.rs: ReadBatchParams::{slice,to_offsets,to_offsets_total,valid_given_len}"]}
{"id": "C27", "title": "Dataset take returns the requested rows in the requested order", "statement": "Taking rows by offset maps each in-range offset to the k-th surviving row of the dataset and returns rows in request order including duplicates; an out-of-range offset gives the same outcome whatever the order of the request. (The last clause is expected to fail.)", "quantifier": "every dataset layout (fragments with deletions) and every list of offsets", "why_tests_cant": "Sorting, de-duplicating and restoring order over arbitrary lists.", "anchors": ["rust/lance/src/dataset/take.rs: take, row_offsets_to_row_addresses, do_take_rows"]}
{"id": "C28", "title": "Locating fragments by row offset range finds exactly the overlapping fragments", "statement": "Looking up the fragments for a row-offset range returns exactly the fragments that contain at least one row of the range, each with its starting offset, in order.", "quantifier": "every manifest (including empty fragments) and every range", "why_tests_cant": "Binary search over prefix sums with equal entries for empty fragments.", "anchors": ["rust/lance-table/src/format/manifest.rs: Manifest::fragments_by_offset_range, compute_fragment_offsets"]}
{"id": "C29", "title": "At most one writer wins each version", "statement": "Under any interleaving of any number of concurrent committers, with any of them crashing at any point, at most one of them is told that its commit of a given version succeeded, and every later reader of that version reads exactly the winner's manifest. Holds for rename-if-absent stores, lock-based handlers with a mutually exclusive lock and external manifest stores; fails for the unsafe handler.", "quantifier": "every number of committers, every schedule, every crash point", "why_tests_cant": "Exponentially many schedules and crash points.", "anchors": ["rust/lance-table/src/io/commit.rs: RenameCommitHandler, CommitLock, UnsafeCommitHandler", "rust/lance-table/src/io/commit/external_manifest.rs: ExternalManifestCommitHandler"]}
{"id": "C30", "title": "The version history is contiguous and immutable", "statement": "Starting from an empty directory, after any interleaving of commits the set of existing versions is an initial segment 1..n, and once a version can be read its contents never change.", "quantifier": "every schedule of commits and crashes", "why_tests_cant": "Property of unbounded histories.", "anchors": ["rust/lance/src/io/commit.rs: commit_transaction, commit_new_dataset", "rust/lance-table/src/io/commit.rs"]}
{"id": "C31", "title": "External manifest store commits are crash-safe", "statement": "If a committer or a reader crashes at any step while finalizing a manifest through an external store, then every version recorded by the store remains readable with the committed contents, and the latest version reported never goes backwards.", "quantifier": "every interleaving of committers/readers and every crash point", "why_tests_cant": "The protocol has five steps over two systems; crash points multiply by interleavings.", "anchors": ["rust/lance-table/src/io/commit/external_manifest.rs: commit, finalize_manifest, resolve_latest_version, resolve_version"]}
{"id": "C32", "title": "A reported commit conflict never damages the table", "statement": "If a commit attempt reports a conflict, all versions recorded before or by it remain readable. (Expected to fail when the external store applied the write but reported an error.)", "quantifier": "every outcome of the store call including lost responses", "why_tests_cant": "Requires a lost acknowledgement at one precise step.", "anchors": ["rust/lance-table/src/io/commit/external_manifest.rs: commit"]}
{"id": "C33", "title": "Manifest file names identify versions and sort newest first", "statement": "For both naming schemes parsing the generated file name yields the version and the scheme; under the second scheme lexicographic order of names is the reverse of version order.", "quantifier": "every version number below 2^63 (plus detached versions)", "why_tests_cant": "2^63 versions.", "anchors": ["rust/lance-table/src/io/commit.rs: ManifestNamingScheme::{manifest_path,parse_version,detect_scheme}"]}
{"id": "C34", "title": "Every commit is checked against every transaction committed since it was read", "statement": "If a transaction built on version r is committed as version v, then it has been checked for conflict against each of the transactions that produced versions r+1..v-1 (as read back from their transaction files, C41), and the manifest it wrote was built on top of version v-1.", "quantifier": "every number of writers, schedule, and number of retries", "why_tests_cant": "Retries interleave with other writers arbitrarily.", "anchors": ["rust/lance/src/io/commit.rs: commit_transaction, check_transaction"]}
{"id": "C35", "title": "Conflict checking survives removal of intermediate versions", "statement": "If some intermediate version between the one read and the latest was cleaned up, a commit is either refused or still checked against the remaining transactions. (Expected to fail.)", "quantifier": "every set of removed versions", "why_tests_cant": "Needs a specific removed version between two specific writers.", "anchors": ["rust/lance/src/io/commit.rs: commit_transaction (take_while over transactions)"]}
{"id": "C36", "title": "Concurrent row changes are never lost", "statement": "If two concurrent transactions both delete, update or rewrite rows of a common fragment, at most one of them commits; if a row-changing transaction is accepted after others, every fragment that it changes is still present with the same rows, row ids and deletions as when it was read (data files can only have been dropped by a concurrent column drop).", "quantifier": "every pair of operations and every history of accepted transactions", "why_tests_cant": "Pairs of eleven operation kinds with arbitrary fragment sets and histories.", "anchors": ["rust/lance/src/dataset/transaction.rs: Transaction::conflicts_with, modified_fragment_ids"]}
{"id": "C37", "title": "Schema changes do not silently undo a concurrent overwrite", "statement": "A column-dropping/projecting transaction committed after a concurrent overwrite is refused or leaves the table readable with files of the new schema. (Expected to fail.)", "quantifier": "every pair of concurrent project and overwrite transactions", "why_tests_cant": "Needs a precise interleaving.", "anchors": ["rust/lance/src/dataset/transaction.rs: conflicts_with (Project), build_manifest"]}
{"id": "C38", "title": "Fragment ids are unique, increasing and not reused by appends, updates and compactions", "statement": "In each committed version fragment ids are pairwise distinct and listed in increasing order, the recorded maximum id bounds them, and ids handed to new fragments were never used in an earlier version of the same history (without overwrite/restore).", "quantifier": "every history of operations", "why_tests_cant": "Invariant over unbounded histories.", "anchors": ["rust/lance/src/dataset/transaction.rs: build_manifest, fragments_with_ids, handle_rewrite_fragments", "rust/lance-table/src/format/manifest.rs: max_fragment_id, update_max_fragment_id"]}
{"id": "C39", "title": "Stable row ids are never assigned twice", "statement": "In a dataset with stable row ids, each committed version assigns every row of newly added fragments fresh ids so that ids of live rows are pairwise distinct within the version and the next id to be assigned exceeds all ids in use.", "quantifier": "every history of append/update/delete/rewrite operations", "why_tests_cant": "Invariant over unbounded histories.", "anchors": ["rust/lance/src/dataset/transaction.rs: assign_row_ids, build_manifest"]}
{"id": "C40", "title": "Restoring an old version does not lead to id reuse", "statement": "After a restore, newly assigned stable row ids and fragment ids differ from all ids used in any earlier version. (Expected to fail.)", "quantifier": "every history containing a restore", "why_tests_cant": "Requires a history with a restore followed by an append.", "anchors": ["rust/lance/src/dataset/transaction.rs: restore_old_manifest", "rust/lance/src/io/commit.rs: commit_transaction"]}
{"id": "C41", "title": "Transactions survive being written to and read from their file", "statement": "Reading back a transaction file yields the transaction that was written. (Expected to fail for overwrites with configuration updates.)", "quantifier": "every transaction of every operation kind", "why_tests_cant": "Eleven operation kinds with optional parts; a dropped optional part is only visible for particular values.", "anchors": ["rust/lance/src/dataset/transaction.rs: From<&Transaction> for pb::Transaction, TryFrom<pb::Transaction>"]}
{"id": "C42", "title": "Concurrent config updates to different keys merge; same keys conflict", "statement": "Two config updates conflict exactly when one sets a key the other sets or deletes (or both set schema metadata or the same field's metadata); otherwise both succeed, each key has the value its writer gave it, and the result does not depend on the order. Two deletions of the same key do not conflict.", "quantifier": "every pair of config updates", "why_tests_cant": "All key sets.", "anchors": ["rust/lance/src/dataset/transaction.rs: upsert_key_conflict, modifies_same_metadata, build_manifest"]}
{"id": "C43", "title": "Feature flags tell readers what the manifest needs", "statement": "A committed manifest's reader/writer feature flags are set exactly for the features its contents use (deletion files, stable row ids, table config), including right after a config update.", "quantifier": "every manifest and operation", "why_tests_cant": "Order of flag computation relative to other updates inside one function.", "anchors": ["rust/lance-table/src/feature_flags.rs: apply_feature_flags", "rust/lance/src/dataset/transaction.rs: build_manifest"]}
{"id": "C44", "title": "An index never claims coverage of fragments whose rows it does not contain", "statement": "After appends, deletes, updates and compaction the fragment set recorded for an index contains only fragments all of whose rows are in the index; compaction either replaces all covered old fragments by the new ones or refuses.", "quantifier": "every history and every index", "why_tests_cant": "Invariants over histories; compaction groups may mix covered and uncovered fragments.", "anchors": ["rust/lance/src/dataset/transaction.rs: recalculate_fragment_bitmap, handle_rewrite_indices, retain_relevant_indices"]}
{"id": "C45", "title": "Manifest metadata survives serialization", "statement": "Writing a manifest, fragment or index record to its protobuf form and reading it back gives the same record (up to the documented meaning of zero row counts).", "quantifier": "every manifest/fragment/index record", "why_tests_cant": "Optional fields with sentinel encodings.", "anchors": ["rust/lance-table/src/format/manifest.rs", "rust/lance-table/src/format/fragment.rs", "rust/lance-table/src/format/index.rs"]}
{"id": "C46", "title": "Cleanup never removes a file needed by a kept version", "statement": "Whatever part of its deletions a cleanup run performs before it stops or crashes, the manifest of the version being read, of every newer, tagged or recent version, and every file they reference still exist. A complete run leaves, of the files it classifies and that are older than the cutoff, only those of kept versions and possibly in-progress ones.", "quantifier": "every directory contents, every manifest history, every cutoff, every crash point", "why_tests_cant": "Set-level safety for arbitrary file populations and any crash point.", "anchors": ["rust/lance/src/dataset/cleanup.rs: CleanupTask"]}
{"id": "C47", "title": "Cleanup protects files of in-progress writes", "statement": "Without delete_unverified, a file of the dataset younger than seven days is not removed unless it belongs to a version that is not kept (or is the manifest of one).", "quantifier": "every directory contents and time", "why_tests_cant": "Arbitrary file population.", "anchors": ["rust/lance/src/dataset/cleanup.rs: path_if_not_referenced, delete_unreferenced_files"]}
{"id": "C48", "title": "Cleanup's tagged-version error fires only for old tagged versions", "statement": "Cleanup with error_if_tagged_old_versions refuses exactly when a version that it would have removed by age is tagged. (Expected to fail.)", "quantifier": "every history and tags", "why_tests_cant": "Requires tags on recent versions.", "anchors": ["rust/lance/src/dataset/cleanup.rs: process_manifest_file, run"]}
{"id": "C49", "title": "Compaction plans are disjoint, contiguous and ordered", "statement": "The tasks of a compaction plan cover pairwise disjoint runs of adjacent fragments in dataset order, contain only candidate fragments, never mix fragments with different index coverage, each task actually changes something and none could be split further, and no eligible fragment is left out. (Two exclusions, both shown to be real: with target_rows_per_fragment = 0 planning does not end, and an index recorded without fragment bitmap is not seen to cover its last fragment.)", "quantifier": "every dataset layout, every compaction option with a positive target and every list of indices that record their fragments", "why_tests_cant": "All fragment-size and deletion distributions.", "anchors": ["rust/lance/src/dataset/optimize.rs: plan_compaction, CandidateBin::{is_noop,split_for_size}"]}
{"id": "C50", "title": "Compaction remaps every old row address exactly once", "statement": "The row-address mapping built during compaction sends each surviving old address to a distinct new address preserving order, each deleted old address to 'gone', and mentions no other address. (Two exclusions, both shown to be real: when no row survives and fragment 0 is in the group, and when the group holds a fragment without rows.)", "quantifier": "every group of non-empty fragments with deletions that keeps a row (or does not contain fragment 0), and every list of new fragments holding as many rows as survive", "why_tests_cant": "Gap detection walks a virtual address space.", "anchors": ["rust/lance/src/dataset/optimize/remapping.rs: transpose_row_ids, MissingIds"]}
{"id": "C51", "title": "Compaction preserves the table's rows and order", "statement": "Replacing a run of fragments by the compacted fragments leaves the dataset's sequence of live rows unchanged, and other fragments untouched.", "quantifier": "every dataset and every accepted rewrite", "why_tests_cant": "All positions of runs and concurrent appends.", "anchors": ["rust/lance/src/dataset/transaction.rs: handle_rewrite_fragments", "rust/lance/src/dataset/optimize.rs: rewrite_files"]}
{"id": "C52", "title": "Tag names are validated and tag creation is exclusive", "statement": "Tag names accepted are exactly those of the documented grammar; create, update and delete change the named tag only, and succeed exactly when the name is valid, the tag absent (present) and the version exists; two concurrent creations of the same tag do not both succeed. (The last clause is expected to fail.)", "quantifier": "every string; every schedule of two creators", "why_tests_cant": "Interleaving between check and put.", "anchors": ["rust/lance/src/dataset/refs.rs: Tags::create, check_valid_ref"]}
{"id": "C53", "title": "Batch-committing appends equals committing them one by one", "statement": "Merging several append transactions into one commits all their fragments in order and is checked from the oldest read version.", "quantifier": "every list of append transactions", "why_tests_cant": "Unbounded lists.", "anchors": ["rust/lance/src/dataset/write/commit.rs: CommitBuilder::execute_batch"]}
{"id": "C54", "title": "Coalesced reads return exactly the requested bytes", "statement": "For a request of byte ranges sorted by start, each returned buffer is exactly the bytes of the corresponding range, in order. (Expected to fail for unsorted ranges and for an empty range before a range that starts at the same position.)", "quantifier": "every file contents, every list of ranges, every block size", "why_tests_cant": "Merging and re-slicing loops over arbitrary ranges.", "anchors": ["rust/lance-io/src/scheduler.rs: FileScheduler::submit_request, is_close_together, is_overlapping"]}
{"id": "C55", "title": "The I/O scheduler respects its budget and never deadlocks on the most urgent request", "statement": "In every schedule I/O slots, bytes and priorities in flight stay accounted for; only a most urgent pending request is started, and it exceeds the byte budget only if nothing more urgent is in flight; a request at least as urgent as everything in flight only needs a free slot; the scheduler cannot deadlock as long as callers take their responses, and when everything has been consumed the full budget is available again.", "quantifier": "every schedule of submissions, completions and consumptions", "why_tests_cant": "Unbounded interleavings.", "anchors": ["rust/lance-io/src/scheduler.rs: IoQueueState::{can_deliver,next_task,on_iop_complete,on_bytes_consumed}, PrioritiesInFlight"]}
{"id": "C56", "title": "Re-batching a stream keeps rows and yields exact batch sizes", "statement": "Chunking a stream into n-row batches preserves the rows in order; every chunk but the last has exactly n rows and none is empty. Breaking a stream at multiples of n preserves rows and no piece crosses a multiple of n.", "quantifier": "every stream of batches (including empty ones) and every n>0", "why_tests_cant": "All batch size patterns.", "anchors": ["rust/lance-datafusion/src/chunker.rs: BatchReaderChunker, BreakStreamState"]}
{"id": "C57", "title": "Sharded sampling gives each row to exactly one worker", "statement": "For any number of workers, the row ranges / fragments handed to the different ranks are disjoint and together cover the dataset.", "quantifier": "every row count, batch size, world size", "why_tests_cant": "Arithmetic over all sizes.", "anchors": ["python/python/lance/sampler.py: ShardedBatchSampler._sample_all, ShardedFragmentSampler.iter_fragments", "python/python/lance/_dataset/sharded_batch_iterator.py"]}
{"id": "C58", "title": "Sampling n rows yields n distinct rows", "statement": "Sampling n rows without a filter yields exactly n distinct in-range rows. (Expected to fail on the count.) Sampling with a filter loses no matching row. (Expected to fail.)", "quantifier": "every dataset size, n, batch size, chunk limit", "why_tests_cant": "Integer division effects for particular sizes.", "anchors": ["python/python/lance/sampler.py: _efficient_sample, _filtered_efficient_sample"]}
{"id": "C59", "title": "B-tree index lookup visits every page that can contain a match", "statement": "For equality, range, membership and null queries on a B-tree index trained on sorted data, the set of visited pages includes every page that holds a matching value, so the search returns exactly the matching rows.", "quantifier": "every sorted training data, every page size, every equality, membership and null query and every range query with at least one bound and low <= high (crossed bounds can panic: C59_crossed_bounds_panic says when)", "why_tests_cant": "Page-boundary duplicates and null pages in all combinations.", "anchors": ["rust/lance-index/src/scalar/btree.rs: BTreeLookup::{pages_eq,pages_between,pages_in,pages_null}, BTreeIndex::try_from_serialized, train_btree_index"]}
{"id": "C60", "title": "Index remapping after compaction keeps every surviving row findable", "statement": "After remapping a scalar index with the old-to-new address mapping, a search returns exactly the new addresses of the rows it returned before, minus deleted ones, and rows not mentioned in the mapping keep their address. (Expected to hold for flat pages, to fail for the bitmap index on unmapped rows and nulls, and for the B-tree index when a page shrinks or is all null.)", "quantifier": "every index contents and every mapping", "why_tests_cant": "Depends on page layout, nulls and partial mappings.", "anchors": ["rust/lance-index/src/scalar/flat.rs: remap_batch", "rust/lance-index/src/scalar/bitmap.rs: BitmapIndex::remap", "rust/lance-index/src/scalar/btree.rs: BTreeIndex::remap, all_page_ids"]}
{"id": "C61", "title": "Bitmap index answers equality, range, membership and null queries exactly", "statement": "A bitmap index trained on (value,row id) pairs returns exactly the row ids whose value satisfies the query; updating it with new data is the same as training on all the data.", "quantifier": "every training data, every query with low <= high and non-null bounds (crossed bounds panic)", "why_tests_cant": "All value distributions.", "anchors": ["rust/lance-index/src/scalar/bitmap.rs: do_train_bitmap_index, search, update"]}
{"id": "C62", "title": "Label-list index answers has-all and has-any exactly", "statement": "array_has_all/array_has_any over a label-list index returns exactly the rows whose list contains all/any of the labels. (Expected to fail for the empty label list.)", "quantifier": "every table of label lists with distinct row ids, every non-empty query", "why_tests_cant": "All list shapes.", "anchors": ["rust/lance-index/src/scalar/label_list.rs"]}
{"id": "C63", "title": "Padding and bit-width arithmetic", "statement": "pad_bytes(n) is the least non-negative p with n+p a multiple of the alignment; log_2_ceil(n) is the number of bits for n as documented.", "quantifier": "every u64 n and every power-of-two alignment", "why_tests_cant": "All integers.", "anchors": ["rust/lance-core/src/utils/bit.rs"]}
{"id": "C64", "title": "The set of a row-id sequence is the set of its ids", "statement": "Converting a row-id sequence to a row-id set gives a set containing exactly the ids of the sequence.", "quantifier": "every well-formed row-id sequence, every id", "why_tests_cant": "Holes of one segment may be ids of another segment; segments combine without bound.", "anchors": ["rust/lance-table/src/rowids.rs: From<&RowIdSequence> for RowIdTreeMap"]}
{"id": "C65", "title": "Filtering deleted addresses keeps exactly the live ones", "statement": "filter_deleted_addresses returns, in request order, exactly the requested addresses whose fragment is in the dataset and whose row is not deleted.", "quantifier": "for all datasets, all deletion vectors and all lists of addresses (any order, duplicates, missing fragments)", "why_tests_cant": "depends on the interleaving of sorted addresses with sorted deletion vectors and on which fragment ids are missing; tests use a handful of addresses", "anchors": ["rust/lance/src/dataset.rs:1083-1228"]}
{"id": "C66", "title": "Filtering deleted ids keeps exactly the ids of live rows", "statement": "filter_deleted_ids returns, in request order, exactly the row ids whose row exists and is not deleted.", "quantifier": "for all datasets with stable row ids, all row id indices and all id lists including unknown ids", "why_tests_cant": "requires ids that disappeared from the row id index mixed with live ids", "anchors": ["rust/lance/src/dataset.rs:1226-1242"]}
{"id": "C67", "title": "The documented transaction compatibility table is what the code enforces", "statement": "For every pair of operations in the table, conflicts_with reports a conflict exactly when the documented cell (with its footnote) says so. (Expected to fail: 6 cells are looser and 18 are stricter than documented; elsewhere they agree.)", "quantifier": "every pair of operations of the documented kinds", "why_tests_cant": "81 kinds of pairs, with conditions quantified over fragment sets, keys and columns.", "anchors": ["rust/lance/src/dataset/transaction.rs: module documentation table, conflicts_with"]}
{"id": "C68", "title": "The latest version of a table is found", "statement": "Resolving the latest manifest of a table from a directory listing yields the highest attached version, whatever else the directory contains. (Expected to fail: on a remote store without ordered listings a V2-named table with two versions or more is reported as an error, and on an ordered store one detached manifest makes the resolution panic.)", "quantifier": "every set of manifest files of one naming scheme, every listing order the store may return, local or remote store", "why_tests_cant": "depends on the listing order and on which other manifests exist; tests use local stores and a few versions", "anchors": ["rust/lance-table/src/io/commit.rs:193-290 current_manifest_path", "rust/lance-table/src/io/commit.rs:292-352 current_manifest_local"]}
{"id": "C69", "title": "A sharded scan with a filter gives each matching row to exactly one worker", "statement": "When a ShardedBatchSampler is used with a filter, the rows delivered to the ranks are disjoint and together are exactly the matching rows, in batches of batch_size. (Expected to fail: a scan batch shorter than the rows to skip, and a rank without rows, raise.)", "quantifier": "every world size, batch size and every way the scan cuts its rows into batches", "why_tests_cant": "depends on the sizes of all batches of the scan: the number of rows to skip is carried over from batch to batch", "anchors": ["python/python/lance/sampler.py:426-475 _shard_scan", "python/python/lance/sampler.py:477-515 _sample_filtered"]}
{"id": "C70", "title": "Updating a B-tree index keeps old and new rows findable", "statement": "After BTreeIndex::update with new data (optimize_indices), a search returns exactly the matching rows of the old and the new data. (Expected to fail when the first page mixes nulls and values, since all_page_ids lists it twice.)", "quantifier": "every trained index, every new data, every query", "why_tests_cant": "Depends on where nulls and page boundaries fall in the merged stream.", "anchors": ["rust/lance-index/src/scalar/btree.rs: BTreeIndex::update, BTreeUpdater, all_page_ids, train_btree_index"]}
{"id": "C71", "title": "Coercing a literal to the column type keeps the meaning of a filter", "statement": "When safe_coerce_scalar turns a literal into the type of a column, every comparison of a column value with the coerced literal has the same result as with the original literal; a literal is refused only if no value of the column type equals it. (Expected to fail where precision is lost: finer timestamps against coarser columns, large integers against floats, Date64 beyond the range of Date32.)", "quantifier": "every literal, every column type, every column value, every comparison", "why_tests_cant": "The claim ranges over all literal values, including the ones at the edges of every type and between two representable values.", "anchors": ["rust/lance-datafusion/src/expr.rs: safe_coerce_scalar", "rust/lance-datafusion/src/logical_expr.rs: resolve_value, resolve_expr"]}
{"id": "C72", "title": "The prefilter blocks exactly the deleted rows", "statement": "The deletion mask built for an index search blocks the rows that are deleted or in fragments that no longer exist, and no other row, both for row addresses and for stable row ids. (Expected to fail when an index has no fragment bitmap, since the newest fragment is then not considered, and with unordered deletion vectors.)", "quantifier": "every dataset, every set of deletions and removed fragments, every index fragment coverage", "why_tests_cant": "Depends on every combination of coverage, deletions and removed fragments.", "anchors": ["rust/lance/src/index/prefilter.rs:58-223 DatasetPreFilter::new, create_deletion_mask"]}
{"id": "C73", "title": "Materialising an index result yields exactly the selected live rows", "statement": "row_ids_for_mask applied to the mask of an index search and the fragments to read yields every selected row of those fragments exactly once. (Expected to fail: with a block list the capacity is computed by a subtraction that can underflow.)", "quantifier": "every mask, every set of fragments, row addresses and stable row ids", "why_tests_cant": "Depends on all masks (allow, block, whole fragments) against all fragment layouts.", "anchors": ["rust/lance/src/io/exec/scalar_index.rs:349-549 FragIdIter, row_ids_for_mask, retain_fragments"]}
{"id": "C74", "title": "Versions with unknown feature flags are neither read nor written to", "statement": "A version whose reader flags contain a bit this library does not know is never handed out for reading, and no version is committed on top of one whose writer flags contain an unknown bit. (Expected to fail: checkout_latest and every commit but an insert skip the check, and an insert checks its handle instead of the version it builds on.)", "quantifier": "every table history including versions by newer writers; every operation and handle", "why_tests_cant": "Needs versions a newer library would write, for every path by which a manifest is loaded.", "anchors": ["rust/lance-table/src/feature_flags.rs", "rust/lance/src/dataset.rs: load_manifest, latest_manifest", "rust/lance/src/dataset/write/insert.rs: validate_write", "rust/lance/src/io/commit.rs: commit_transaction"]}
{"id": "C75", "title": "Adopting an external manifest store keeps the history", "statement": "If a table that already has versions is opened through an external manifest store that does not know it yet, then the latest version resolved never goes backwards and no commit overwrites an existing version. (Expected to fail: opening an older version by number enters only that version into the store, which then counts as the latest.)", "quantifier": "every set of versions present before adoption, every interleaving of readers and committers", "why_tests_cant": "Tests adopt a table by committing right away or open its latest version; the damage needs an old version to be opened by number before the first commit.", "anchors": ["rust/lance-table/src/io/commit/external_manifest.rs:203-260"]}
{"id": "C76", "title": "A version number is never reused", "statement": "Once a version number has denoted a manifest it never denotes a different one, even if that version has been cleaned up in between. (Expected to fail for stores that only test whether the manifest object exists: a slow writer can commit under the number of a removed version, after newer versions exist.)", "quantifier": "every interleaving of writers, readers and cleanups", "why_tests_cant": "The interleaving needs a writer suspended between building its manifest and committing it while other writers commit and a cleanup runs.", "anchors": ["rust/lance/src/io/commit.rs:763-860", "rust/lance-table/src/io/commit.rs:851-892", "rust/lance/src/dataset/cleanup.rs:242-298"]}
{"id": "C77", "title": "A committed manifest in memory is the manifest a reader loads", "statement": "The manifest that a commit assembles and keeps using equals the manifest that any other process loads from the file it wrote. (Expected to fail when schema or field metadata is replaced: the derived local_schema, which scans use, keeps the old metadata until the dataset is reopened.)", "quantifier": "every operation, previous manifest, schema and fragment list", "why_tests_cant": "Derived members of the manifest go stale only for particular operations, and only in the process that committed.", "anchors": ["rust/lance/src/dataset/transaction.rs: build_manifest", "rust/lance-table/src/format/manifest.rs: update_schema_metadata, update_field_metadata, TryFrom<pb::Manifest>"]}
{"id": "C78", "title": "New fields get fresh, distinct ids", "statement": "Assigning field ids keeps every id already present, gives each new field (at any depth) an id greater than all ids of the schema and than the given maximum, makes every field name its parent, and changes nothing else; if the given ids were distinct, all ids are.", "quantifier": "every schema tree and maximum", "why_tests_cant": "Trees of arbitrary depth with any mixture of assigned and unassigned ids.", "anchors": ["rust/lance-core/src/datatypes/schema.rs: set_field_id, max_field_id", "rust/lance-core/src/datatypes/field.rs: set_id, max_id"]}
{"id": "C79", "title": "Cleanup is safe against concurrent commits and tags", "statement": "A version that becomes visible, or is tagged, while a cleanup is running has all its files when the cleanup ends. (Expected to fail: a restore of an old version commits a manifest that refers to the files of that version, and a tag may be put on an old version, after cleanup has read manifests and tags.)", "quantifier": "every directory at inspection and at listing time, every committed version", "why_tests_cant": "Needs a commit between the inspection and the removals.", "anchors": ["rust/lance/src/dataset/cleanup.rs: run, process_manifest_file, delete_unreferenced_files"]}
{"id": "C80", "title": "Cleanup only removes the dataset's own files", "statement": "Every file removed by cleanup lies in one of the dataset's directories. (Expected to fail: the directory is tested as a string prefix of the path, so data.lance/\u2026 or _indices_backup/\u2026 match.)", "quantifier": "every directory contents", "why_tests_cant": "Depends on the names of unrelated neighbours.", "anchors": ["rust/lance/src/dataset/cleanup.rs: path_if_not_referenced"]}
{"id": "C81", "title": "An interrupted cleanup can be restarted", "statement": "Running cleanup again after a run that stopped anywhere leaves the same directory as one complete run. (Expected to fail when the store does not delete in the order of the stream: once the manifest of an old version is gone, its recent files count as unverified.)", "quantifier": "every directory, every crash point", "why_tests_cant": "All crash points of all runs.", "anchors": ["rust/lance/src/dataset/cleanup.rs: delete_unreferenced_files", "rust/lance-io/src/object_store.rs: remove_stream"]}
{"id": "C82", "title": "A tag that was created is listed", "statement": "After any sequence of tag creations, updates and deletions, listing the tags gives exactly the tags that resolve, each with the version it resolves to. (Expected to fail: names are percent-encoded when stored and the encoded name is encoded again when listed.)", "quantifier": "every directory reached by the tag operations; every accepted tag name", "why_tests_cant": "Depends on every character the name check lets through, and on what the path library does with it.", "anchors": ["rust/lance/src/dataset/refs.rs: Tags::list, tag_path", "rust/lance-io/src/object_store.rs: read_dir"]}
{"id": "C83", "title": "Committing compaction results does not bring back deleted or replaced rows", "statement": "Compaction tasks may run elsewhere and be committed later with any open handle of the table; an accepted commit leaves the table's rows as they were in the version it is applied to.", "quantifier": "every history, every set of task results and every handle they are committed with", "why_tests_cant": "Depends on which versions the tasks read, which version the handle is at and what was committed in between.", "anchors": ["rust/lance/src/dataset/optimize.rs: commit_compaction, RewriteResult::read_version", "python/src/dataset/optimize.rs: Compaction.commit"]}
{"id": "C84", "title": "Fragment ids reserved for a compaction stay reserved", "statement": "The ids given out by a reservation are distinct, were never used before, are given to nobody else by later appends, updates, compactions or reservations, and are still free when the compaction commits.", "quantifier": "every history without restores in which each reserved id is used by its owner only and the compaction read a version not newer than its reservation", "why_tests_cant": "Invariant over unbounded interleavings of writers.", "anchors": ["rust/lance/src/dataset/optimize.rs: reserve_fragment_ids", "rust/lance/src/dataset/transaction.rs: build_manifest (ReserveFragments), fragments_with_ids"]}
{"id": "C85", "title": "UPDATE changes exactly the rows that satisfy its condition", "statement": "After `update` the table holds each row that does not satisfy the condition unchanged, and for each row that does one row whose assigned columns have the values of their expressions over the row as it was before the statement and whose other columns are as before; nothing else.", "quantifier": "every table (fragments, deletions, with or without stable row ids), every condition (three-valued), every set of assignments to distinct columns", "why_tests_cant": "Tests update single-fragment or address-id tables with assignments of literals; they cannot range over all layouts of deleted rows, assignments that read other assigned columns, or histories of stable row ids.", "anchors": ["rust/lance/src/dataset/write/update.rs:222-306", "rust/lance/src/dataset/write/update.rs:309-360", "rust/lance/src/dataset/utils.rs:18-75"]}
{"id": "C86", "title": "MERGE INSERT does what SQL MERGE does", "statement": "After `merge_insert` the table holds: each target row matched by no source row, unless it is to be deleted; for each target row matched by source rows that are to update it, those source rows; each other matched row unchanged; each source row that matches no target row, if inserting; nothing else. The reported numbers of inserted, updated and deleted rows are those of these sets, and unique keys stay unique.", "quantifier": "every source and target, every set of key columns, every combination of the when_matched / when_not_matched / when_not_matched_by_source settings with arbitrary conditions, every batching and order of the joined rows", "why_tests_cant": "The result depends on where nulls and key columns are, on how the join output is split into batches and on fragment layout; tests use keys in the first column without nulls.", "anchors": ["rust/lance/src/dataset/write/merge_insert.rs:552-600", "rust/lance/src/dataset/write/merge_insert.rs:1022-1155", "rust/lance/src/dataset/write/merge_insert.rs:1245-1465"]}
{"id": "C87", "title": "MERGE INSERT gives the same result with and without an index on its key", "statement": "With a scalar index on the key column, merge_insert leaves the same rows and reports the same numbers as without.", "quantifier": "every source, every split of it into batches, every target, every set of fragments the index covers", "why_tests_cant": "A test fixes the batches of the source and the covered fragments; the two join plans differ in how often a row is fetched and in null handling, which show only for particular splits.", "anchors": ["rust/lance/src/dataset/write/merge_insert.rs:385-515", "rust/lance/src/dataset/write/merge_insert.rs:552-600"]}
{"id": "C88", "title": "MERGE INSERT of some columns rewrites just those columns", "statement": "When the source has only some of the columns, each live row of each fragment afterwards has the source value in these columns if a source row matches it and its old value otherwise, all other columns are read from the files they were read from before, and the merge does not panic.", "quantifier": "every fragment with any deletions, every source, every batching of the join and of the old data, every assignment of columns to data files", "why_tests_cant": "The file is built by interleaving updates into old batches with a shortcut when there are as many updates as rows; tests use few rows and unique keys.", "anchors": ["rust/lance/src/dataset/write/merge_insert.rs:102-125", "rust/lance/src/dataset/write/merge_insert.rs:666-1000", "rust/lance/src/dataset/write/merge_insert.rs:1298-1465"]}
{"id": "C89", "title": "Concurrent merge inserts leave no key twice", "statement": "If every merge_insert has unique keys and the table has unique keys when created, then after any accepted sequence of concurrent merge_inserts on the key the table has unique keys.", "quantifier": "every history of concurrently prepared and committed merge_inserts", "why_tests_cant": "Needs two writers that read the same version and commit in a particular order; no unit test does that.", "anchors": ["rust/lance/src/dataset/write/merge_insert.rs:1062-1107", "rust/lance/src/dataset/transaction.rs:388-530"]}
{"id": "C90", "title": "A scan with limit, offset and order returns the right page", "statement": "A scan with a filter, an order, a limit and an offset returns what is left of the surviving rows that pass the filter, in the order asked for (table order if none), after dropping the first `offset` rows and keeping the next `limit` rows.", "quantifier": "every table and set of scanned fragments with any deletions, both storage versions, every filter, order, limit and offset", "why_tests_cant": "The limit is pushed into the fragment ranges when there is no filter and applied as a plan node otherwise; which rows come out depends on the layout of fragments and deletions and on the combination of options. Tests sort tables with the limit left out, or with a filter.", "anchors": ["rust/lance/src/dataset/scanner.rs:619-637", "rust/lance/src/dataset/scanner.rs:1303-1325", "rust/lance/src/dataset/scanner.rs:1485", "rust/lance/src/io/exec/scan.rs:93-225"]}
{"id": "C91", "title": "Reading a fragment returns its surviving rows with the stored values", "statement": "Reading all of a fragment, a range of its surviving rows, a physical range or a list of physical offsets returns exactly the surviving rows asked for, in order, each with the value stored for it in the data file that holds the column, null for a column no data file holds, and its own row id and address; the reads of several data files are lined up for every batch size.", "quantifier": "every fragment (any data files, deletion vector, stable row ids), every projection, range, list of offsets and batch size", "why_tests_cant": "The answer merges streams of several files with different batch boundaries and a generated null stream whose length is computed differently; tests read few files with one batch and no deletions in columns that have no file.", "anchors": ["rust/lance/src/dataset/fragment.rs:272-494", "rust/lance/src/dataset/fragment.rs:782-926", "rust/lance/src/dataset/fragment.rs:1958-2140", "rust/lance-table/src/utils/stream.rs:40-160"]}
{"id": "C92", "title": "Projecting a schema selects exactly the named columns", "statement": "Projecting a schema on column names gives the schema whose fields are the named ones, what leads to them and what is below them, each with its id, type and metadata unchanged, and fails if a column does not exist; adding columns or projected schemas to a Projection selects those of both, and subtracting one leaves the leaf columns not in it.", "quantifier": "every schema of nested structs and lists, every list of column paths in any order with repetitions and overlaps", "why_tests_cant": "The result is built by merging trees found under equal prefixes, or by filtering the tree by a set of ids; tests use a few flat or two-level schemas and disjoint columns.", "anchors": ["rust/lance-core/src/datatypes/schema.rs:161-202", "rust/lance-core/src/datatypes/schema.rs:309-320", "rust/lance-core/src/datatypes/schema.rs:803-1010", "rust/lance-core/src/datatypes/field.rs:476-563", "rust/lance-core/src/datatypes/field.rs:769-807"]}
{"id": "C93", "title": "drop_columns removes the named columns and nothing else", "statement": "After drop_columns the leaf columns of the schema are those of before that are not under a dropped column, with unchanged ids and types; it fails exactly when a column does not exist, is not in default storage, or nothing would be left.", "quantifier": "every schema of nested structs and lists, every list of column paths", "why_tests_cant": "Tests drop top-level columns and children of structs; the top level and the nested levels are handled by different code.", "anchors": ["rust/lance/src/dataset/schema_evolution.rs:659-715", "rust/lance-core/src/datatypes/schema.rs:350-371", "rust/lance-core/src/datatypes/field.rs:733-766"]}
{"id": "C94", "title": "A schema is accepted exactly when it is compatible, and a rejection names a difference", "statement": "For schemas whose sibling fields have different names, check_compatible accepts exactly when every field is one of the expected fields with the same type and whatever else the options compare (nullability both ways or one way, ids, dictionary values, metadata), at every level, every expected field is there unless missing nullable fields are allowed, and the order is the expected one unless it is ignored; otherwise it reports at least one difference, never \"unknown reason\"; a schema whose dictionaries are loaded is compatible with itself.", "quantifier": "every pair of schema trees with distinct sibling names, every combination of options", "why_tests_cant": "The decision and the explanation are two programs (one with a fast path, a hash map and a running position, the other with sets and windows) which must agree for all trees and all sixty-odd option combinations.", "anchors": ["rust/lance-core/src/datatypes/schema.rs:63-90", "rust/lance-core/src/datatypes/schema.rs:136-147", "rust/lance-core/src/datatypes/schema.rs:624-785", "rust/lance-core/src/datatypes/field.rs:34-62", "rust/lance-core/src/datatypes/field.rs:272-381", "rust/lance-core/src/datatypes.rs:365-372"]}
{"id": "C95", "title": "An append writes every column under the dataset's field id", "statement": "An append is rejected exactly when the data's schema is not compatible with the dataset's; otherwise the schema written has exactly the columns of the data, in the data's order, and every one at every level carries the field id, type and metadata that the dataset has for that path.", "quantifier": "every dataset schema and data schema of nested structs and lists, columns missing or in another order at any level", "why_tests_cant": "The field ids decide which column of a file a reader sees; tests append data with the same columns in the same or one other order.", "anchors": ["rust/lance/src/dataset/write.rs:324-343", "rust/lance-core/src/datatypes/schema.rs:325-347", "rust/lance-core/src/datatypes/field.rs:566-646"]}
{"id": "C96", "title": "add_columns gives every surviving row its own new value", "statement": "When columns are added by an expression or user function, every surviving row of every fragment gets the value computed from that row; when they are added from a stream, the values go to the surviving rows in order, one each; deleted rows stay deleted; the call succeeds whenever there is one value for each surviving row.", "quantifier": "every list of fragments with any deletions, every batch size, every expression, every division of a stream into batches", "why_tests_cant": "New values are written for physical rows although they are computed for surviving rows only, batch by batch; the interplay of deletions with batch borders has unboundedly many cases and tests use one or two.", "anchors": ["rust/lance/src/dataset/schema_evolution.rs:325-456", "rust/lance/src/dataset/updater.rs:58-217", "rust/lance/src/dataset/updater.rs:236-406"]}
{"id": "C97", "title": "A resumed add_columns equals an uninterrupted one", "statement": "However often adding columns with a checkpoint was interrupted, the attempt that finishes commits the same fragments as a run without interruption on the dataset it is applied to.", "quantifier": "every list of fragments, every number of attempts and point of interruption, every deterministic user function", "why_tests_cant": "Interruptions can fall between any two steps of any attempt, and the dataset can change between attempts.", "anchors": ["rust/lance/src/dataset/schema_evolution.rs:325-395", "python/python/lance/udf.py:99-158", "python/src/dataset.rs:1955-2050"]}
{"id": "C98", "title": "alter_columns changes exactly what is asked for", "statement": "alter_columns is rejected exactly when a column does not exist, is not in default storage, would become non-nullable, cannot be cast, or the resulting names clash; otherwise every named column, at any depth, has the last name and nullability asked for it, a column whose type changes is replaced under field ids never used before, and every other field keeps its place, field id, type and metadata.", "quantifier": "every schema tree, every list of alterations of any of its fields, several to one field included", "why_tests_cant": "Alterations are applied one after another to a tree that earlier ones have changed; tests alter one or two columns.", "anchors": ["rust/lance/src/dataset/schema_evolution.rs:461-545", "rust/lance-core/src/datatypes/schema.rs:220-267", "rust/lance-core/src/datatypes/schema.rs:446-457", "rust/lance-core/src/datatypes/field.rs:819-874"]}
{"id": "C99", "title": "alter_columns keeps the data", "statement": "After alter_columns every surviving row has in every column of unchanged type the value it had, and in every column whose type changed the cast of the value it had; deleted rows stay deleted; the call succeeds whenever the values can be cast.", "quantifier": "every list of fragments with any files and deletions, every schema and list of alterations, every cast function", "why_tests_cant": "Columns are found by name in batches and by field id in files, and both change in the same step; what happens depends on the order of alterations and the nesting of columns.", "anchors": ["rust/lance/src/dataset/schema_evolution.rs:545-633", "rust/lance-file/src/v2/writer.rs:241-262", "rust/lance-file/src/v2/writer.rs:308-341", "rust/lance-table/src/format/manifest.rs:255-265"]}
{"id": "C100", "title": "Dataset.merge is a left join", "statement": "merge(right, left_on, right_on) keeps every row and every column and adds the columns of the right table: each surviving row gets the values of the row on the right with its key, nulls if there is none; a key gets the same answer in every fragment; the new fields have ids never used before.", "quantifier": "every list of fragments with deletions, every right table in any batches, every order in which the threads that build the index insert their rows", "why_tests_cant": "The index is built by concurrent tasks that race on equal keys; tests run one schedule and use unique, non-null keys.", "anchors": ["rust/lance/src/dataset/hash_joiner.rs:23-215", "rust/lance/src/dataset.rs:1447-1528", "rust/lance/src/dataset/fragment.rs:1461-1472", "rust/lance-core/src/datatypes/schema.rs:533-564"]}
{"id": "C101", "title": "Adding columns of nulls is a change of metadata only", "statement": "add_columns with all-null columns leaves every fragment as it is; each new column, children included, reads as null in every row, every other column as before; the new columns can be addressed by their names.", "quantifier": "every schema, every list of new fields with any nesting, every list of fragments and data files", "why_tests_cant": "Rests on field ids being absent from all data files of all fragments, also files with fields that were dropped from the schema.", "anchors": ["rust/lance/src/dataset/schema_evolution.rs:137-149", "rust/lance/src/dataset/schema_evolution.rs:244-290", "rust/lance-core/src/datatypes/schema.rs:533-568"]}
{"id": "C102", "title": "Rows are read from the right place in the pages of a column", "statement": "Reading ranges of rows, or taking rows by index, from a column of a 2.0 file returns exactly the rows asked for, in the order asked for, however the rows are divided into pages.", "quantifier": "every division of a column into pages (empty ones included), every list of ranges or indices within the file", "why_tests_cant": "The scheduler clips ranges at page borders with wrapping arithmetic; errors show only for particular positions of ranges relative to the borders of pages, which tests with one page never meet.", "anchors": ["rust/lance-encoding/src/encodings/logical/primitive.rs:74-247", "rust/lance-encoding/src/decoder.rs:1159-1221", "rust/lance-encoding/src/decoder.rs:1329-1346", "rust/lance/src/dataset/fragment.rs:1175-1240"]}
{"id": "C103", "title": "Lists are read as they were written", "statement": "A column of lists written to a 2.0 file (offsets with nulls encoded by an adjustment, items in a column of their own) and read back by ranges in order gives exactly the lists of those rows: the same items, empty lists and nulls told apart, for nested lists too, in batches of any sizes.", "quantifier": "every list of arrays with any starting offsets, slices and validity, every grouping into pages, every ordered list of ranges, every sequence of batch sizes, any depth of nesting", "why_tests_cant": "Requests are cut at page borders, need one more offset unless they start at a page, and restart the offsets at every page; the number of combinations is unbounded.", "anchors": ["rust/lance-encoding/src/encodings/logical/list.rs:89-182", "rust/lance-encoding/src/encodings/logical/list.rs:203-314", "rust/lance-encoding/src/encodings/logical/list.rs:600-744", "rust/lance-encoding/src/encodings/logical/list.rs:976-1198"]}
{"id": "C104", "title": "Strings are read as they were written", "statement": "A column of strings or binary values written to a 2.0 file (ends of the values with nulls encoded by an adjustment, bytes in one buffer) and read back by any ranges of rows gives exactly the values of those rows in the order asked for: the same bytes, empty values and nulls told apart, in batches of any sizes.", "quantifier": "every list of arrays with any starting offsets, slices and validity, every grouping into pages, every list of ranges of rows, every number of rows skipped and read", "why_tests_cant": "The reader needs the end before each range unless it starts a page, and normalizes the ends range by range; whether the positions line up depends on where each range starts and which came before, and there are unboundedly many combinations.", "anchors": ["rust/lance-encoding/src/encodings/physical/binary.rs:44-93", "rust/lance-encoding/src/encodings/physical/binary.rs:134-251", "rust/lance-encoding/src/encodings/physical/binary.rs:276-351", "rust/lance-encoding/src/encodings/physical/binary.rs:376-463", "rust/lance-encoding/src/data.rs:1122-1201"]}
{"id": "C105", "title": "Definition levels keep the nulls of nested structs and fixed size lists", "statement": "A page of a 2.1 file whose column is nested in structs and fixed size lists is read back with the same nulls: for every item the outermost null layer above it is the same, whatever arrays the page was gathered from.", "quantifier": "every nesting of structs and fixed size lists, every validity of every layer, every list of arrays gathered into the page", "why_tests_cant": "All layers share one number per item and levels are counted from the inside only over nullable layers; mistakes show for particular combinations of nullable layers and dimensions.", "anchors": ["rust/lance-encoding/src/repdef.rs:535-766", "rust/lance-encoding/src/repdef.rs:803-882", "rust/lance-encoding/src/repdef.rs:1011-1231", "rust/lance-encoding/src/repdef.rs:1457-1516"]}
{"id": "C106", "title": "Pages read together keep the nulls of each", "statement": "When a batch spans pages of a 2.1 file, every item has the nulls it was written with, although each page may use its own definition levels.", "quantifier": "every list of pages, each with any nulls in any layers", "why_tests_cant": "Each page has its own meaning of levels; only batches over pages that differ in which layers have nulls show mistakes.", "anchors": ["rust/lance-encoding/src/repdef.rs:1532-1604", "rust/lance-encoding/src/repdef.rs:1239-1303"]}
{"id": "C107", "title": "Repetition levels keep lists", "statement": "A page of a 2.1 file with list columns is read back with the same lists: every list has the same length, is null or empty exactly when it was, and its items have the same nulls, whatever the nesting of lists and structs.", "quantifier": "every nesting of lists and structs, every offsets and validity of every layer, every list of arrays gathered into the page", "why_tests_cant": "Null and empty lists have no item and are placed between items by counting those seen before; mistakes need several layers with empty or null lists at particular places.", "anchors": ["rust/lance-encoding/src/repdef.rs:535-766", "rust/lance-encoding/src/repdef.rs:884-1009", "rust/lance-encoding/src/repdef.rs:1239-1456"]}
{"id": "C108", "title": "Full-zip pages read back any rows", "statement": "A page of a 2.1 file in the full-zip layout, where levels are packed into control words between the values, is read back exactly: any ranges of rows, decoded in batches of any sizes, give the levels and values that were written, whether values have fixed or variable width.", "quantifier": "every nesting of lists and structs, every levels and values, every ranges of rows, every batch sizes", "why_tests_cant": "The width of control words, of lengths and of the repetition index depends on the greatest level and on the size of the page, and readers cut byte ranges in the middle of rows of other sizes; tests cover few layouts and read in few batches.", "anchors": ["rust/lance-encoding/src/repdef.rs:1606-2309", "rust/lance-encoding/src/encodings/logical/primitive.rs:1816-2620", "rust/lance-encoding/src/encodings/logical/primitive.rs:4013-4265", "rust/lance-encoding/src/utils/bytepack.rs:60-140", "rust/lance-core/src/utils/bit.rs:24-60"]}
{"id": "C109", "title": "Mini-block pages read back any rows", "statement": "A page of a 2.1 file in the mini-block layout, where values and levels are cut into small chunks with a repetition index, is written for every rows and read back exactly: any sorted ranges of rows, decoded in batches of any sizes, give the levels and values that were written, for values of fixed width and for strings.", "quantifier": "every nesting of lists and structs, every levels and values, every sorted ranges of rows, every batch sizes", "why_tests_cant": "Rows begin and end anywhere in chunks whose sizes depend on the bytes of the values; the index, the instructions for each chunk and the mapping of rows to items all count starts of rows, parts of rows before the first start and after the last, and lists without items. Tests read few shapes, and the failing ones need rows that fill a chunk or counts that are multiples of one.", "anchors": ["rust/lance-encoding/src/encodings/logical/primitive.rs:300-830", "rust/lance-encoding/src/encodings/logical/primitive.rs:1135-1776", "rust/lance-encoding/src/encodings/logical/primitive.rs:3558-4012", "rust/lance-encoding/src/repdef.rs:346-420", "rust/lance-encoding/src/encodings/physical/value.rs:230-290", "rust/lance-encoding/src/encodings/physical/binary.rs:530-735"]}
{"id": "C110", "title": "Full-text search returns the best rows", "statement": "A search of an inverted index for tokens returns exactly the best selected rows by BM25 over the indexed documents: every returned row is selected, has a token of the query and has its exact score, rows are returned once, no better row is left out, and fewer than the limit are returned only if there are no more; whatever updates with new rows and remaps made the index, for every factor of the pruned search up to one.", "quantifier": "every sequence of updates and remaps, every documents, every selection of rows, every query and limit, every sort, heap and non-negative weights, factors up to one", "why_tests_cant": "The search skips documents by upper bounds stored when the index was built, some of them stale, and moves lists by pivots; a wrong bound or a wrong skip loses a row only for particular lists, scores and limits, and the result still looks right.", "anchors": ["rust/lance-index/src/scalar/inverted/wand.rs:20-351", "rust/lance-index/src/scalar/inverted/index.rs:103-180", "rust/lance-index/src/scalar/inverted/index.rs:547-779", "rust/lance-index/src/scalar/inverted/index.rs:869-961", "rust/lance-index/src/scalar/inverted/builder.rs:99-371", "rust/lance-index/src/scalar/inverted/builder.rs:450-485", "rust/lance-index/src/scalar/inverted/builder.rs:606-670"]}
{"id": "C111", "title": "Phrase search returns the rows with the phrase", "statement": "A phrase search of an inverted index returns exactly the best selected rows whose text has the tokens of the phrase one after another, and finds every indexed text that is searched as a phrase.", "quantifier": "every sequence of updates and remaps, every documents, every selection of rows, every phrase and limit", "why_tests_cant": "Matching merges positions of several lists relative to one another while the pruned search drops lists; whether a list was dropped depends on the filter and on deleted rows, which tests of phrases do not vary.", "anchors": ["rust/lance-index/src/scalar/inverted/wand.rs:20-351", "rust/lance-index/src/scalar/inverted/index.rs:103-180", "rust/lance-index/src/scalar/inverted/builder.rs:99-371"]}
{"id": "C112", "title": "A full-text query over columns and new rows", "statement": "A full-text query over several columns, some of whose rows are not in the index yet, returns the best rows by their greatest score in a column, best first; limit and offset give the rows from the offset on up to the limit; rows outside the index are found by the same rule and get the same score as if they were in it.", "quantifier": "every columns, indices and rows outside them, every selection, query, limit and offset", "why_tests_cant": "Results of indices and of a scan of new rows are joined, grouped, sorted and cut in places that each apply the limit; errors appear only for particular mixtures of columns, new rows, limits and offsets.", "anchors": ["rust/lance/src/dataset/scanner.rs:1484-1487", "rust/lance/src/dataset/scanner.rs:1517-1667", "rust/lance/src/dataset/scanner.rs:2322-2328", "rust/lance/src/io/exec/fts.rs", "rust/lance-index/src/scalar/inverted/index.rs:1019-1138"]}
{"id": "C113", "title": "A nearest-neighbour query without an index is exact", "statement": "A nearest-neighbour query answered without a vector index returns the k nearest, under the metric of the query and with a distance from the lower bound up to below the upper bound, of the live rows with a vector that pass the filter, in order of distance; all of them if there are fewer; of the chosen fragments if some are chosen.", "quantifier": "every table with row addresses or stable row ids, every deletion, every filter whose scan is exact, every k, bounds and metric, every sort", "why_tests_cant": "Rows without a vector, bounds and the cut at k interact: nulls are sorted last and removed after the cut, so a wrong order of these steps returns fewer than k rows only for some mixtures of nulls and bounds.", "anchors": ["rust/lance/src/dataset/scanner.rs:1670-1752", "rust/lance/src/dataset/scanner.rs:2066-2136", "rust/lance/src/io/exec/knn.rs"]}
{"id": "C114", "title": "A nearest-neighbour query with an index", "statement": "A nearest-neighbour query answered with a vector index returns only live rows that pass the filter, each once, also rows added after the index was built; if the distances of the index are exact and all partitions are probed it returns the k nearest rows that pass the filter, whatever rows were deleted and fragments dropped or added since; it uses the metric of the query and the fragments asked for.", "quantifier": "every table, every deltas of an index built at earlier versions, every deletion and new fragment, every filter and scalar indices, every k, refine factor, number of probes and bounds", "why_tests_cant": "The answer joins partitions, deltas, a mask from a filter that other indices may answer, a mask of deleted rows and a scan of new fragments; each may be older than the others, and tests have them all up to date.", "anchors": ["rust/lance/src/dataset/scanner.rs:642-647", "rust/lance/src/dataset/scanner.rs:1670-1835", "rust/lance/src/dataset/scanner.rs:2139-2158", "rust/lance/src/dataset/scanner.rs:2242-2295", "rust/lance/src/io/exec/knn.rs:399-640", "rust/lance/src/index/vector/ivf/v2.rs:406-436", "rust/lance-index/src/vector/flat/index.rs:74-133", "rust/lance/src/index/prefilter.rs:57-80", "rust/lance/src/index/prefilter.rs:228-262", "rust/lance/src/io/exec/utils.rs:32-78"]}
{"id": "C115", "title": "Page statistics describe the page", "statement": "The statistics that the v1 writer stores for a page exist for every page that can be written, the null count is the number of nulls of the page, and every non-null value lies between the minimum and the maximum (a missing bound is no bound) in the order that filters use.", "quantifier": "every column type with statistics, every division of a page into batches, every value including NaN, signed zeros, infinities, long strings with multi-byte characters and all-0xFF binaries", "why_tests_cant": "Strings and binaries are cut to 64 bytes and the maximum is then incremented, so the bounds depend on where characters end and which bytes can be incremented; floats have values outside the usual order. Wrong bounds show only as missing rows of later filtered scans.", "anchors": ["rust/lance-file/src/writer/statistics.rs:47-173", "rust/lance-file/src/writer/statistics.rs:177-387", "rust/lance-file/src/writer/statistics.rs:453-613", "rust/lance-file/src/writer/statistics.rs:638-672", "rust/lance-file/src/writer.rs:709-743"]}
{"id": "C116", "title": "Skipping pages by statistics loses no rows", "statement": "A filtered scan of v1 fragments, which simplifies the predicate for each page with the guarantees from the page statistics, skips pages whose predicate becomes false and does not evaluate it where it becomes true, returns exactly the surviving rows that satisfy the predicate, in order, each with its row id and row address.", "quantifier": "every predicate language with a sound simplifier, every predicate, every fragments and pages, every deletion vector, every projection, with and without row ids and addresses", "why_tests_cant": "The scan has four ways to produce a page (skipped, unfiltered, scalar, selected rows joined with late columns), chosen by statistics and deletions; tests compare results only on data for which few of them occur.", "anchors": ["rust/lance/src/io/exec/pushdown_scan.rs:302-676", "rust/lance/src/dataset/fragment.rs:1781-1936", "rust/lance-table/src/utils/stream.rs:115-272", "rust/lance/src/dataset/scanner.rs:1350-1400"]}
{"id": "C117", "title": "Blob columns read back what was written", "statement": "The values of a blob column, which are written out of line and described by (position, size) pairs, read back exactly, nulls and empty values included, whatever the batches they were written in, the pages of descriptions and the batch sizes of the reader.", "quantifier": "every array (sliced or not), every number of blob columns and batches, every page bytes in between, every pages and batch sizes, from memory and from a file through the I/O scheduler", "why_tests_cant": "Null and empty values are encoded as descriptions of empty ranges at positions 1 and 0, out of order with the other ranges; whether the store answers such requests depends on what they are coalesced with. The unit tests read through a scheduler in memory.", "anchors": ["rust/lance-encoding/src/encodings/logical/blob.rs:60-365", "rust/lance-encoding/src/encoder.rs:307-337", "rust/lance-file/src/v2/writer.rs:167-172", "rust/lance-file/src/v2/writer.rs:347-391", "rust/lance-encoding/src/encodings/logical/struct.rs:410-560", "rust/lance-io/src/scheduler.rs:681-760"]}
{"id": "C118", "title": "A blob file is a file", "statement": "take_blobs returns one file per row, in order, and each behaves under reads, seeks, tells and close like a read-only file that holds the value of the row.", "quantifier": "every rows and fragments, every position and size in the data file, every sequence of calls", "why_tests_cant": "The cursor is kept relative to the blob but set from positions in the data file; the two agree for the first blob of a file, so only sequences of calls on later blobs differ.", "anchors": ["rust/lance/src/dataset/blob.rs:33-226", "python/python/lance/blob.py:52-106", "rust/lance-io/src/local.rs:150-169"]}
{"id": "C119", "title": "A file is what was written to its writer", "statement": "When ObjectWriter::shutdown returns Ok, the object holds exactly the bytes that the writes accepted, in order, whether it was put in one request or in parts; tell is their number at any time; every part but the last has the size object stores ask for.", "quantifier": "every sequence of writes and flushes of any sizes, every interleaving of the uploads of the parts with the writer, connection resets included, every setting of the environment variables", "why_tests_cant": "The parts are uploaded by concurrent tasks that end in any order while more parts are started; a unit test sees one interleaving against a store in memory.", "anchors": ["rust/lance-io/src/object_writer.rs:28-473"]}
{"id": "C120", "title": "The writer is woken and its retries work", "statement": "Whenever a write, flush or shutdown of an ObjectWriter is pending, some task will wake it; a connection reset within LANCE_CONN_RESET_RETRIES does not fail the write of the file.", "quantifier": "every sequence of calls and every interleaving of the uploads", "why_tests_cant": "A lost wakeup needs tasks that end between two polls of the same call; a retry needs a reset connection in the middle of a multipart upload.", "anchors": ["rust/lance-io/src/object_writer.rs:194-286", "rust/lance-io/src/object_writer.rs:338-462"]}
{"id": "C121", "title": "Compaction keeps the stable id of each row", "statement": "With move-stable row ids, compaction keeps every live row with its id: the ids assigned to the rows of the new fragments, in order, are those of the live rows of the old fragments.", "quantifier": "every group of fragments, row-id sequences and deletion vectors, every order in which the sequences are loaded, every sizes of the new fragments", "why_tests_cant": "It depends on which of five encodings masking picks for the ids that are left and where the boundaries of the new fragments fall in them; the debug assertion only compares the totals before the re-chunk.", "anchors": ["rust/lance/src/dataset/optimize.rs:730-829", "rust/lance/src/dataset/rowids.rs:59-68", "rust/lance-table/src/rowids.rs:155-184", "rust/lance-table/src/rowids.rs:377-446", "rust/lance-core/src/utils/deletion.rs:263-280"]}
{"id": "C122", "title": "Pages written with a dictionary read back as they were written", "statement": "A page of strings or of 128-bit values that is estimated to have few different values is written with a dictionary without a failure, and every selection of its items reads back the values that were written.", "quantifier": "every block, every estimate of the cardinality, every selection of items, checked and unchecked arithmetic", "why_tests_cant": "The choice depends on a randomly seeded HyperLogLog estimate with a standard error of a quarter, and the index is a u8: wrong results need an unlucky estimate; nulls, fixed size lists and 64-bit offsets share the statistic but not the encoder.", "anchors": ["rust/lance-encoding/src/encodings/logical/primitive.rs:4277-4383", "rust/lance-encoding/src/encodings/logical/primitive.rs:4438-4465", "rust/lance-encoding/src/encodings/logical/primitive.rs:705-728", "rust/lance-encoding/src/statistics.rs:162-256", "rust/lance-encoding/src/statistics.rs:360-380", "rust/lance-encoding/src/encodings/physical/binary.rs:749-840"]}
{"id": "C123", "title": "Bit packing is lossless and has the documented layout", "statement": "1024 unsigned integers of 8, 16, 32 or 64 bits packed with a width that holds them unpack to the same integers, whatever the uninitialised output memory held; the width computed from the data is the least that holds it; every bit of every value has a fixed place in the packed words.", "quantifier": "every type, every width from one bit to that of the type, every 1024 integers, every content of the memory written to", "why_tests_cant": "There are 120 generated pairs of functions, each with values cut by the ends of words at different rows; tests use a few random inputs, and a wrong bit may need one value at one of 1024 positions. The output starts as memory that was never written.", "anchors": ["rust/lance-encoding/src/compression_algo/fastlanes.rs:20-305", "rust/lance-encoding/src/statistics.rs:308-360", "rust/lance-encoding/src/encodings/physical/bitpack_fastlanes.rs:1565-1756"]}
{"id": "C124", "title": "Pages of integers read back whichever mini-block compressor is chosen", "statement": "A page of values of a fixed width, with or without lists, is written in mini blocks without a failure, bit packed or plain, and any sorted ranges of its rows in any batches read back what was written.", "quantifier": "every page of the mini-block layout with values of a fixed width, every content of uninitialised memory, every sorted list of ranges and every sequence of batch sizes", "why_tests_cant": "The choice depends on whether any run of 1024 values is all zero; the last chunk is padded and decodes to more values than it has; failures need a number of values that fills chunks, or rows that span them.", "anchors": ["rust/lance-encoding/src/encoder.rs:801-830", "rust/lance-encoding/src/encodings/physical/bitpack_fastlanes.rs:1565-1756", "rust/lance-encoding/src/encodings/physical/value.rs:230-290", "rust/lance-encoding/src/decoder.rs:508-532", "rust/lance-encoding/src/encodings/logical/primitive.rs:3889-4011"]}
{"id": "C125", "title": "Pages of fixed width values, booleans and fixed size lists read back (format 2.0)", "statement": "Any arrays of values of a fixed width, booleans or nested fixed size lists, with or without validity bitmaps, are written as one page from which any ranges of rows, decoded in any batches, give the rows that were written, nulls included.", "quantifier": "every nesting of types, all arrays of such a type, every list of non-empty ranges within the page, every sequence of batch sizes", "why_tests_cant": "A row is spread over one buffer per level, bitmaps are addressed by bits and values by bytes, and the position of a batch within the ranges is found again for each buffer; an error needs particular offsets of ranges modulo eight and particular batch sizes.", "anchors": ["rust/lance-encoding/src/data.rs:1203-1230", "rust/lance-encoding/src/data.rs:1384-1545", "rust/lance-encoding/src/encodings/physical/basic.rs:70-237", "rust/lance-encoding/src/encodings/physical/bitmap.rs:24-125", "rust/lance-encoding/src/encodings/physical/value.rs:40-345", "rust/lance-encoding/src/encodings/physical/fixed_size_list.rs:20-130", "rust/lance-encoding/src/encodings/physical.rs:57-209"]}
{"id": "C126", "title": "Dictionary columns read back the rows that were written (format 2.0)", "statement": "Dictionary arrays of any key type, with nulls among the keys or among the values and with different dictionaries per array, are written as one page from which any ranges of rows, decoded in any batches, give the values that the rows had.", "quantifier": "every key type, every type of values (fixed width, boolean, fixed size list, string), all arrays, every list of non-empty ranges, every position and size of a batch", "why_tests_cant": "Nulls are moved into the dictionary, dictionaries are merged and indices may be widened when a key type is full; the widened pages need more than 127 or 255 distinct values in one page together with a null or several batches.", "anchors": ["rust/lance-encoding/src/data.rs:738-762", "rust/lance-encoding/src/data.rs:1232-1380", "rust/lance-encoding/src/encodings/physical/dictionary.rs:61-163", "rust/lance-encoding/src/encodings/physical/dictionary.rs:206-290", "rust/lance-encoding/src/encodings/physical.rs:217-262", "rust/lance-encoding/src/encodings/logical/primitive.rs:2961-2991"]}
{"id": "C127", "title": "String pages written with a dictionary read back (format 2.0)", "statement": "Whenever a page of strings is written with a dictionary because few of them are distinct, any ranges of its rows, decoded in any batches, give the strings and nulls that were written.", "quantifier": "all arrays of strings, every estimate of the number of distinct strings and every threshold for it, every list of non-empty ranges, every position and size of a batch, builds with and without overflow checks", "why_tests_cant": "The choice rests on a probabilistic count and an environment variable, while the indices have eight bits and zero stands for null; a failure needs more than 254 distinct strings on a page that was taken to have few.", "anchors": ["rust/lance-encoding/src/encodings/physical/dictionary.rs:61-113", "rust/lance-encoding/src/encodings/physical/dictionary.rs:158-205", "rust/lance-encoding/src/encodings/physical/dictionary.rs:293-410", "rust/lance-encoding/src/encoder.rs:563-590", "rust/lance-encoding/src/encoder.rs:667-706"]}
{"id": "C128", "title": "Every field is read from its own columns", "statement": "A file written with a schema and read with a projection of it, whether by field ids, with the whole schema, by column names or after the file was taken over into a dataset, reads every field of the projection from the columns that were written for it.", "quantifier": "all schemas of leaves, lists and structs nested to any depth, packed or not under any spelling of the metadata, all projections in any order, file versions 2.0 and 2.1", "why_tests_cant": "Writer and reader compute the column numbers separately, in seven places with their own ideas of what is packed and of which fields have a column; a disagreement shows only for certain nestings, and then may read the values of another field without an error.", "anchors": ["rust/lance-encoding/src/encoder.rs:1076-1179", "rust/lance-encoding/src/encoder.rs:1240-1311", "rust/lance-encoding/src/encoder.rs:1344-1375", "rust/lance-file/src/v2/reader.rs:189-291", "rust/lance-file/src/v2/reader.rs:686-712", "rust/lance-encoding/src/decoder.rs:403-458", "rust/lance-encoding/src/decoder.rs:778-985", "rust/lance/src/dataset/fragment.rs:630-660", "rust/lance-core/src/datatypes/field.rs:877-883"]}
{"id": "C129", "title": "Pages of packed structs read back (format 2.0)", "statement": "A page of a packed struct, written from any arrays and read with any of its fields, gives for any ranges of rows and any batch the values and nulls of these fields that were written.", "quantifier": "all lists of fields of fixed width values, booleans and fixed size lists of them nested to any depth, all arrays with and without null bitmaps, all lists of non-empty ranges, every position and size of a batch, every choice of fields", "why_tests_cant": "All fields of a row share one buffer whose row width is computed once by the writer from the encoded blocks and again by the reader from the requested types; tests that read all fields of rows without nulls never see the two disagree.", "anchors": ["rust/lance-encoding/src/encodings/physical/packed_struct.rs:53-155", "rust/lance-encoding/src/encodings/physical/packed_struct.rs:158-250", "rust/lance-encoding/src/buffer.rs:300-338", "rust/lance-encoding/src/data.rs:431-477", "rust/lance-encoding/src/data.rs:1427-1540", "rust/lance-encoding/src/statistics.rs:150-213", "rust/lance-encoding/src/encodings/physical.rs:125-158", "rust/lance-arrow/src/lib.rs:112-148", "rust/lance-encoding/src/decoder.rs:644-663", "rust/lance-encoding/src/decoder.rs:946-975"]}
{"id": "C130", "title": "Files of format 2 can be opened, and everything is where they say", "statement": "A file of format 2 that was written opens with the version it was written with and with its descriptor; it has a column for every finished column, in order, with exactly the pages written for it, in the order in which they were written, and every position and size in it (buffers of pages, buffers of columns, external buffers, global buffers) gives the bytes that were handed to the writer. The same holds for encoded batches with and without a descriptor.", "quantifier": "all sequences of external buffers, pages and global buffers, all final columns, both versions, every block size of at least 40 bytes, all round-tripping codecs of column metadata, all files under 2^64 bytes with fewer than 2^28 columns and 2^32 global buffers", "why_tests_cant": "Tests write a few columns and read the values back; positions that only differ from the right ones after unaligned buffers, more columns, other block sizes or in encoded batches of the newer version are never used.", "anchors": ["rust/lance-file/src/v2/writer.rs:155-226", "rust/lance-file/src/v2/writer.rs:347-421", "rust/lance-file/src/v2/writer.rs:435-595", "rust/lance-file/src/v2/writer.rs:622-717", "rust/lance-file/src/v2/reader.rs:311-324", "rust/lance-file/src/v2/reader.rs:361-683", "rust/lance-file/src/v2/reader.rs:1220-1307", "rust/lance-encoding/src/version.rs:32-62", "rust/lance-encoding/src/encoder.rs:307-337"]}
{"id": "C131", "title": "A batch is written exactly when its non-null fields have no nulls", "statement": "The file writer accepts a batch of at most 2^32-1 rows with a column for every field exactly when no row has a null in a field, at any depth, that the schema marks non-null; so no stored column of a non-null field has nulls.", "quantifier": "all schemas with structs and lists nested to any depth, all batches in any order of columns, with and without null buffers, slices, dictionaries and columns of the null type", "why_tests_cant": "Tests try a few nulls in flat and nested columns; whether every combination of column order, sliced arrays, nulls below nulls and nulls that are not in a null buffer is judged rightly needs a proof over all arrays.", "anchors": ["rust/lance-file/src/v2/writer.rs:241-263", "rust/lance-file/src/v2/writer.rs:316-365", "rust/lance-file/src/writer.rs:145-186", "rust/lance-core/src/datatypes/field.rs:913-948"]}
{"id": "C132", "title": "The pages of a column hold its arrays in order, however they are gathered", "statement": "Whatever the sizes of batches, of the cache and of pages, a column can be written, its pages hold the rows of the batches in order and each page has rows; the offsets and items of a list column are flushed together, so that lists read back; in format 2.1 each page has the levels and the row numbers of exactly its own arrays.", "quantifier": "all sequences of arrays, all cache sizes, all positive page sizes, with and without keeping the original arrays, for lists any valid offsets and validities", "why_tests_cant": "Where pages are cut depends on memory sizes, cache and page settings and on how rows arrive in batches; tests fix a handful, a proof covers every way of cutting.", "anchors": ["rust/lance-encoding/src/encodings/logical/primitive.rs:3235-3331", "rust/lance-encoding/src/encodings/logical/primitive.rs:3341-3462", "rust/lance-encoding/src/encodings/logical/primitive.rs:4529-4564", "rust/lance-encoding/src/encodings/logical/list.rs:887-977", "rust/lance-encoding/src/encodings/logical/list.rs:1171-1243"]}
{"id": "C133", "title": "Strings compressed with FSST decompress to the original bytes", "statement": "Whenever strings are compressed with FSST, decompressing any selection of the compressed strings with the stored table gives exactly the original bytes of that selection, whatever symbol table training arrives at; compressed strings are at most twice as long as the originals, and decompressed ones at most eight times as long as what is decompressed, which is what callers reserve.", "quantifier": "all strings of bytes, all offsets, all hash functions, all counts and gains seen in training, all orders of candidates, all terminators, all selections of strings", "why_tests_cant": "The table depends on the data, on sampling and on hash order; a wrong code assignment or escape shows only for particular tables and strings, of which tests try a few corpora.", "anchors": ["rust/lance-encoding/src/compression_algo/fsst/src/fsst.rs:170-179", "rust/lance-encoding/src/compression_algo/fsst/src/fsst.rs:277-488", "rust/lance-encoding/src/compression_algo/fsst/src/fsst.rs:552-731", "rust/lance-encoding/src/compression_algo/fsst/src/fsst.rs:733-992", "rust/lance-encoding/src/compression_algo/fsst/src/fsst.rs:1052-1236"]}
{"id": "C134", "title": "A vector index holds each row once, in its partition, with the code of its vector", "statement": "After building an IVF vector index, every row is in exactly one partition, the one of the centroid nearest to its vector, with the code of its own vector. The same holds after new rows are merged into existing indices, and after rows were moved or deleted by compaction.", "quantifier": "all batches of rows, centroids, residuals, quantizers and their widths, numbers of partitions, orders within equal partition ids, buffer sizes, existing indices and mappings of row ids", "why_tests_cant": "Vector tests check recall against a threshold, so a few rows lost, doubled or given the wrong code go unnoticed; batch boundaries, flushes of buffers and deleted rows combine in too many ways.", "anchors": ["rust/lance-index/src/vector/v3/shuffler.rs:92-338", "rust/lance-index/src/vector/ivf.rs:106-272", "rust/lance-index/src/vector/storage.rs:78-114", "rust/lance-index/src/vector/pq/storage.rs:145-213", "rust/lance/src/index/vector/builder.rs:183-262", "rust/lance/src/index/vector/builder.rs:377-794", "rust/lance/src/index/vector/ivf.rs:333-460", "rust/lance/src/index/append.rs:40-160"]}
{"id": "C135", "title": "After optimizing, every fragment is in exactly one delta of an index", "statement": "optimize_indices leaves every fragment covered by exactly one delta of each index it was asked to optimize, with each delta holding exactly the live rows of the fragments it covers, and leaves other indices alone. create_index and drop_index change exactly the index they name. However these operations race with each other, no fragment is ever covered by two deltas of an index, and index_statistics adds up.", "quantifier": "all datasets and lists of indices, all numbers of deltas to merge, all orders of names, all histories of create, drop and optimize in which each writer has read any earlier version", "why_tests_cant": "Covering a fragment twice or not at all only shows as duplicate or missing search results after particular sequences of appends, optimizations and concurrent commits; tests run one writer on one index.", "anchors": ["rust/lance/src/index.rs:190-407", "rust/lance/src/index.rs:494-690", "rust/lance/src/index.rs:1005-1040", "rust/lance/src/index/append.rs:25-152", "rust/lance/src/dataset/transaction.rs:433-450", "rust/lance/src/dataset/transaction.rs:757-771", "rust/lance/src/index/vector/ivf.rs:255-540"]}
{"id": "C136", "title": "Both halves of a shared stream get every item, and neither sleeps forever", "statement": "After a stream is shared, each half returns the items of the stream in order without gaps or repeats, and sees the end only after all of them; one half is ahead of the other by at most the capacity. Whatever way the polls of the two halves interleave, a half that sleeps is not behind the other, somebody can always go on until both have seen the end, and a run ends after a number of steps bounded by the number of items and of times the stream inside was pending.", "quantifier": "all streams, all capacities, all interleavings of the two parts of a poll on two threads, all times at which the stream inside is pending, all spurious polls, halves dropped at any time", "why_tests_cant": "A lost wakeup needs one thread to poll in the short time in which another has released the mutex to poll the stream inside; tests poll both halves from one task, and a hang shows only under such a race.", "anchors": ["rust/lance-core/src/utils/futures.rs:15-189", "rust/lance/src/dataset/blob.rs:266", "rust/lance/src/dataset/write.rs:370-425", "rust/lance/src/io/exec/utils.rs:241"]}
{"id": "C137", "title": "Fetching the remaining columns by row id completes the input", "statement": "When a plan fetches by row id the requested columns that its input lacks, what comes out is every column of the input in its order, each completed by its requested subfields in the order of the dataset, followed by the columns that are new in the order of the dataset. The batches have the columns that the node announces, with the values and the nulls of the dataset.", "quantifier": "all dataset schemas of any nesting of structs and lists, all requested sets of field ids, all inputs holding any part of the dataset's columns and any columns the dataset does not have", "why_tests_cant": "The number of ways to divide a nested schema between input and fetch is exponential and the schema announced and the batch delivered are computed by different code; tests use a few flat schemas and one struct without nulls.", "anchors": ["rust/lance/src/io/exec/take.rs:113-136", "rust/lance/src/io/exec/take.rs:227-329", "rust/lance-core/src/datatypes/field.rs:184-268", "rust/lance-core/src/datatypes/field.rs:546-640", "rust/lance-core/src/datatypes/schema.rs:309-351", "rust/lance-core/src/datatypes/schema.rs:953-998", "rust/lance-arrow/src/lib.rs:475-490", "rust/lance-arrow/src/lib.rs:657-727"]}
{"id": "C138", "title": "Plain pages of format 1 return the rows that were written", "statement": "The rows of a column of fixed width values, booleans, fixed size binaries or nested fixed size lists, written from any number of arrays at any place of a file, are returned as they were written by a read of any range and by a take of any indices, with any size of blocks; a range or an index beyond the end is an error.", "quantifier": "all types built from fixed widths, booleans, fixed size binaries and lists of any nesting, all arrays, all contents of the file before and after, all ranges, all lists of indices, all block sizes", "why_tests_cant": "Boolean pages are addressed by bits and are cut at bytes, indices are cut into chunks by a rule on their distance, and lists multiply all of that; tests read a few ranges of a few types with the block size of one store.", "anchors": ["rust/lance-io/src/encodings/plain.rs:50-154", "rust/lance-io/src/encodings/plain.rs:170-430", "rust/lance-io/src/encodings/plain.rs:444-463", "rust/lance-arrow/src/lib.rs:112-147", "rust/lance-arrow/src/lib.rs:287-294"]}
{"id": "C139", "title": "Strings and binaries of format 1 return the rows that were written", "statement": "The rows of a column of strings or binaries, written from any number of arrays or slices of arrays at any place of a file, are returned as they were written by a read of any range and by a take of any indices in order, with or without repeats, whatever the lengths of the rows; a range or an index beyond the end is an error.", "quantifier": "all arrays and slices of arrays, all contents of the file before and after, all ranges, all sorted lists of indices, all lengths of rows", "why_tests_cant": "Which indices are read and copied together depends on the lengths of all the rows between them and on where repeats are; tests take a few indices of short rows, and the faults need repeated indices or rows larger than a block.", "anchors": ["rust/lance-io/src/encodings/binary.rs:48-87", "rust/lance-io/src/encodings/binary.rs:156-233", "rust/lance-io/src/encodings/binary.rs:248-394", "rust/lance-io/src/encodings/binary.rs:452-469"]}
{"id": "C140", "title": "Ranges and takes over the batches of a file of format 1 return the rows written", "statement": "A file of format 1, written by any calls with any batches (empty ones among them), holds the rows of all the batches in order. Reading any range of rows returns those rows, wherever the batches on disk begin and end, and a range that reaches beyond the last row is an error. Taking rows by index, in any order and with repeats, returns the rows in the order of the file, each as often as it was asked for, and an index beyond the last row is an error. The numbers of batches, of rows, and of rows of each batch are those written.", "quantifier": "all sequences of writes, all sizes of batches, all ranges, all lists of indices, all outcomes of a binary search that the standard library allows, all readers of one batch that read it right", "why_tests_cant": "Off-by-one faults at the borders of batches need particular sizes, empty batches make offsets repeat so that the binary search may stop at any of them, and tests use two or three batches of one size.", "anchors": ["rust/lance-file/src/format/metadata.rs:87-200", "rust/lance-file/src/reader.rs:280-336", "rust/lance-file/src/writer.rs:169-235"]}
{"id": "C141", "title": "Lists of format 1, nested to any depth, return the rows written", "statement": "Lists, lists of lists and so on, written in format 1 from any number of arrays and slices of arrays, are returned as they were written by a read of any range, from any row on, up to any row, of all rows, and by a take of any sorted indices with or without repeats, provided that the innermost items are; ranges and indices beyond the end are errors. Nulls apart, which format 1 does not store for lists.", "quantifier": "all depths, all arrays and slices of arrays whose offsets may begin anywhere, all ranges and sorted indices, all codecs of the innermost items that read right", "why_tests_cant": "Positions of all levels are shifted when arrays are concatenated and again when they are read; tests have one level, arrays that begin at zero and a few rows.", "anchors": ["rust/lance-file/src/writer.rs:488-583", "rust/lance-file/src/reader.rs:638-762", "rust/lance-arrow/src/lib.rs:167-193"]}
{"id": "C142", "title": "Pages of a file of format 1 are found where they were written", "statement": "For every field and batch written to a file of format 1, the page table that is loaded has the position and length that were set, whatever ids of fields are left out and whatever follows the table in the file. A data file of a fragment, opened with the ids of the fields it still holds, finds the page of each of them, also after other fields of it were written anew to another file and their ids replaced.", "quantifier": "all page tables, all sets of ids of fields with gaps, all numbers of batches, all contents of the file behind the table, all sets of fields that were written anew", "why_tests_cant": "The table has no ids: a wrong first id or number of batches shifts every row, and reads positions that look valid; tests replace the last fields of a file, where the first id does not change.", "anchors": ["rust/lance-file/src/page_table.rs:54-163", "rust/lance/src/dataset/fragment.rs:778-808", "rust/lance-table/src/format/fragment.rs:82-92", "rust/lance/src/dataset/write/merge_insert.rs:975-987"]}
{"id": "C143", "title": "Manifests and their indices are read as written, and only from whole files", "statement": "The manifest and the section of indices that were written to a manifest file are read back, whatever was written before them, whether or not the prefetch holds the whole manifest and whether or not a block holds the whole section. A manifest whose length does not fit in 32 bits is an error. Every file from which a manifest is read ends with the footer, and the manifest is the message at the position in the footer, has the recorded length and ends where the footer begins.", "quantifier": "all bytes before, all sections of indices, all manifests that depend on the position of that section, all prefetch sizes from 16 bytes, all block sizes from 4 bytes, all files", "why_tests_cant": "Manifests in tests are smaller than the prefetch of 64 KiB, or of a few sizes; what is accepted is a matter of all files, among them files cut short.", "anchors": ["rust/lance-table/src/io/manifest.rs:30-139", "rust/lance-io/src/traits.rs:56-80", "rust/lance-io/src/utils.rs:80-104", "rust/lance/src/dataset.rs:1692-1708"]}
