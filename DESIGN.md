# Formal model of Lance (pinned commit) in Rocq

The table format and its concurrency rules are written in Rust (`/repo/rust`),
with a Python package on top (`/repo/python`).  Nothing is built or run here:
every model is a hand transcription of the source, read as text.

## Trusted base

* Coq 8.16.1's kernel (including `vm_compute`, which is used for concrete
  witnesses and examples only).
* The transcription: each definition in a `*Model.v` file cites the file and
  lines in `/repo` that it models and states what it leaves out.  No tool checks
  the correspondence.
* The axioms printed by `Print Assumptions` under every theorem in the
  `*Props.v` files.  The table at the end of this file lists them; the intent is
  "Closed under the global context" everywhere.
* External code that is not modelled but whose contract is assumed, as recorded
  per area below: Arrow arrays and kernels (`take`, `filter`, comparison), the
  `roaring` bitmap crate (modelled as a finite set of u32), Rust's `BTreeMap`,
  `HashMap`, `BinaryHeap`, slice `binary_search` and `sort` (modelled by their
  documented contract), prost's encoding of messages (modelled byte by byte for the row-id messages in
  `WireModel`, trusted for all others, which are records here),
  object stores (modelled as maps with atomic put/copy/rename-if-absent/delete).

## Conventions

* Values that are `u64`/`u32` in Rust are `N`; lengths, positions and list
  indices are `nat`.  Where overflow or truncation matters it is written into
  the model; elsewhere the definition's comment says which range is assumed.
* A Rust panic, `unwrap` on `None`, failed assertion, or `Err` is a value
  (`None`, or a constructor of an error type) and never a stuck term.
* Loops are structural recursion, folds, or recursion on fuel with an explicit
  out-of-fuel result, which the theorems exclude.
* Async code: every await of a storage operation is one atomic step of a
  transition system; a schedule is a list of steps; a crash is a process that
  takes no further step.
* Files: `XModel.v` (transcription), `XSpec.v` (independent statement
  vocabulary), `XProofs.v` (lemmas), `XProps.v` (only the property theorems, each
  `exact lemma`, each followed by `Print Assumptions`, each with an `Example` in
  `XExamples.v` or next to the lemma showing that its hypotheses are met).
* A property that is false of the faithful model is reported as a theorem named
  `..._refuted` with a concrete witness, and the part that holds is proved as
  `..._partial` (or under its exact side condition).

## Plan per property

| Id | Model | How proved |
|----|-------|------------|
| C01 | `RowIds`: `U64Segment` with its five layouts, `SegmentStats`, size estimates, encoded arrays, bitmaps | round-trip law: `iter (from_slice l) = l` by cases on the chosen layout; holes/bitmap lemmas by induction on slots |
| C02 | `EncArr`: `EncodedU64Array` | round trip on `From<Vec>`; `binary_search` against a spec of sortedness |
| C03 | `RowIds`: `len/get/position` | relate each layout's arithmetic to `nth_error (iter s)` under a well-formedness predicate that `from_slice`/`delete`/`mask` establish |
| C04 | `RowIds`: `delete`, `RowIds` sequence `find_ids`, `delete` | equality with `filter` on iterated list |
| C05 | `RowIds`: `mask` | equality with "drop listed positions" |
| C06 | `RowIds`: `slice` | positive theorem for Range/SortedArray/Array; refutation witnesses for holes and bitmap |
| C07 | `RowIdSeq`: `extend/get/slice/select` | equality with list append / nth_error / firstn-skipn |
| C08 | `RowIdSeq`: `rechunk_sequences` | conservation by induction on the loop for hole-free non-empty segments; refutations |
| C09 | `RowIdSerde` | little-endian packing lemmas, then structural round trip |
| C10 | `RowIdIndex` | lookup correctness from disjointness of sorted pieces |
| C11 | `Addr` | arithmetic on N with div/mod |
| C12-C15 | `TreeMap`: sorted association list fragment -> Full / Partial set | membership homomorphisms by induction on keys; serialization over bytes |
| C16, C17 | `Mask` | case analysis over optional lists using C12; refutation witnesses |
| C18 | `IndexExpr`: filter ASTs, 3-valued evaluation, `visit_node`, `evaluate` | soundness by induction on the expression under explicit side conditions; refutations |
| C19 | `Deletion`: `OffsetMapper` | loop invariant of the bisection with fuel bounded by interval width |
| C20, C21 | `FragTake` | k-th survivor specification by counting |
| C22 | `Deletion` | set semantics of each constructor, induction over extend histories |
| C23 | `Updater`: `DeletionRestorer`, `add_blanks` | invariant over the batch list |
| C24 | `FragDelete` | set equations |
| C25, C26 | `ReadParams`, `StreamIds` | list equations; refutation with stable row ids |
| C27 | `Take` | permutation sort/unsort argument; refutation |
| C28 | `Offsets` | binary search over prefix sums |
| C29-C32 | `CommitProto`: transition systems for the three commit handlers plus the unsafe one | inductive invariants over all schedules and crash points |
| C33 | `Naming` | decimal printing/parsing lemmas, lexicographic order of padded decimals |
| C34, C35 | `CommitLoop`: `commit_transaction` as a process over a version log | invariant; refutation |
| C36, C37, C42 | `Txn`: operations, `conflicts_with`, `build_manifest` | case analysis plus induction over histories of accepted transactions |
| C38-C40 | `Txn`: fragment and row-id assignment | invariants over histories; refutation with Restore |
| C41, C45 | `TxnPb` | structural round trip; refutation |
| C43 | `Flags` | case analysis; refutation |
| C44 | `TxnIndex` | invariant over histories relative to a ghost "rows in index" relation |
| C46-C48 | `Cleanup` | set-level safety for every prefix of the deletion list; refutation |
| C49 | `Compact`: `plan_compaction` | induction on fragment list |
| C50 | `Remap`: `MissingIds`, `transpose_row_ids` | loop invariant over the virtual address space; refutations |
| C51 | `Txn`: `handle_rewrite_fragments` | list surgery lemma |
| C52 | `Refs` | grammar equivalence; interleaving witness |
| C53 | `BatchCommit` | fold equals concatenation |
| C54, C55 | `Sched` | coalescing loop invariant; queue invariants over all event lists |
| C56 | `Chunker` | conservation and size invariants |
| C57, C58 | `Samplers` | partition arithmetic; refutations |
| C59-C62 | `ScalarIdx` | page-cover lemma on sorted pages; set equations; refutations |
| C63 | `Bits` | arithmetic |
| C64-C66 | `TreeMap`, `Take`: sets of row-id sequences, filtering deleted addresses and ids | set equations; list filters |
| C67 | `TxnMatrix`: the matrix in the documentation of `conflicts_with` | case analysis |
| C68 | `Naming`: finding the latest manifest | invariant over directory listings |
| C69 | `Sampler`: filtered sharded scans | refutation |
| C70 | `BTreeMaint`: updating a B-tree index | permutation of merged pages |
| C71 | `Coerce`: literal coercion | case analysis over types and ranges; refutation |
| C72, C73 | `Scan`: prefilter masks, `row_ids_for_mask`, unindexed fragments | set equations over fragments; refutations |
| C74 | `Flag`: every place where feature flags are looked at | refutation; positive theorem for the checked places |
| C75 | `Proto`: adoption of a table by the external-store handler | inductive invariant over schedules |
| C76 | `Loop`: reuse of version numbers after cleanup | refutation |
| C77 | `PbMem`: manifests kept in memory against those read back | structural comparison; refutation |
| C78 | `Schema`: fresh field ids | induction on the tree |
| C79-C81 | `Cleanup` | as C46-C48 |
| C82 | `Tag` | percent-encoding lemmas; refutation |
| C83, C84 | `TxnReserve`: reserving ids, committing compactions | invariants over histories; refutation |
| C85-C89 | `Merge`: `update`, `merge_insert` (three plans), concurrent merges | permutation of rows, batch by batch; interleaving lemma for rewritten files; refutations |
| C90, C91 | `Limit`, `FragRead`: reading fragments, pushed-down pages | merge of streams as a zip of rows, induction over fragments; refutations |
| C92, C93 | `Proj`: projections, excluding and dropping columns | schemas as sets of paths, induction on trees; refutations |
| C94, C95 | `Cmp`, `WriteSchema`: comparing schemas, the schema of an append | compatibility as an inductive relation, both programs proved equal to it; positions against order |
| C96, C97 | `AddCols`: adding columns by expression, function or stream; checkpoints | batch lists concatenated, restorer from C23; cache invariant over attempts; refutations |
| C98, C99 | `Alter`: altering columns, schema and data | invariant over the alterations (edited tree), ids against names in files; refutations |
| C100, C101 | `Join`, `Null`: joining columns from another table, columns of nulls | interleavings of insertions, latest entry; fresh ids against the ids in files; refutations |
| C102, C103 | `Page`, `ListEnc`: ranges over the pages of a column, lists of file format 2.0 | requests split by page, induction over pages and pieces; offsets as running sums; refutations |
| C104 | `BinEnc`: strings of file format 2.0 | rows as lengths and validity, indices as running sums with the null adjustment; refutation |
| C105, C106 | `RepDef`: definition levels of file format 2.1 | level of an item as a function of the layers; joining arrays and joining pages by one lemma; refutations |
| C107 | `RepDefList`, `RepDefListRead`, `RepDefNest`: lists in repetition levels of file format 2.1 | positions of null and empty lists by counting; the state of the reader after each level as a function of the lists; nested lists by induction over the layers; refutations |
| C108 | `FullZipModel`, `FullZipProofs`, `FullZipRead`, `FullZipPage`, `FullZipVar`, `FullZipExamples`: the full-zip layout of file format 2.1 | every control word parses to the levels packed in it; the bytes of a page as a concatenation over rows; the decoder's state as the units still to read; induction over batches; refutations |
| C109 | `MiniModel`, `MiniProofs`, `MiniSched`, `MiniBytes`, `MiniPage`, `MiniRead`, `MiniString`, `MiniExamples`: the mini-block layout of file format 2.1 | chunks as pieces of the list of items; the index counts the row starts of every chunk; instructions mean rows; the decoder's state as the rows still to read; induction over chunks, ranges and batches; refutations |
| C110-C112 | `FtsModel`, `FtsProofs`, `FtsPhrase`, `FtsIndex`, `FtsIndexProofs`, `FtsSearch`, `FtsPlan`, `FtsExamples`: full-text search | invariant of the search: the rows passed over are in the heap or not better than its least; lists sorted by row, bounds above scores; the index represents its documents, kept by updates and remaps; best rows of joined and grouped results; refutations |
| C113-C114 | `KnnModel`, `KnnProofs`, `KnnPlan`, `KnnResults`, `KnnExamples`: nearest-neighbour queries | the k nearest of a union are the k nearest of the parts' k nearest; masks of deltas select the live rows of the filter; an index of an earlier version stays exact; refutations |
| C115-C116 | `StatsModel`, `StatsProofs`, `StatsBytes`, `StatsCollect`, `PushModel`, `PushProofs`, `PushScan`, `PushExamples`: page statistics and filtered scans of v1 files | folds over the arrays keep bounds and counts; an incremented prefix is above every extension of the prefix; guarantees follow from the statistics; each way of producing a page equals the filter; refutations |
| C117-C118 | `BlobModel`, `BlobProofs`, `BlobFile`, `BlobExamples`: blob columns and blob files | every description points at its bytes in the file so far; loading and draining pages keeps what is between them; calls on a blob file simulate a file; refutations |
| C119-C120 | `UploadModel`, `UploadProofs`, `UploadExamples`: the object writer | an invariant of the state machine for all lists of events (part bytes ++ buffer = accepted bytes unless a part is lost); turns of the shutdown loop; refutations |
| C121 | `StableModel`, `StableProofs`, `StableGap`, `StableExamples`: re-chunking of stable row ids in compaction | sorting back is the identity on any permutation; masking and re-chunking composed; pieces of a segment with holes miss an id (bitmap) or are too few (holes) |
| C122 | `DictModel`, `DictProofs`, `DictExamples`: dictionary encoding of pages | the loop equals the positions modulo 256 in the list of first occurrences; bytes of the dictionary block parse back |
| C123, C124 | `FastModel`, `FastProofs`, `FastChunk`, `FastExamples`: bit packing and pages of integers | a lane is a stream of bits cut into words: an invariant over the rows for packing and one for unpacking; positions are a bijection; the chunks meet the conditions of C109 |
| C125 | `FlatModel`, `FlatProofs`, `FlatPage`, `FlatExamples`: pages of fixed width values, booleans and fixed size lists (2.0) | induction over the type for all arrays, buffer indices and ranges; validity is a wrapper around the data of a type; ranges of lists are scaled ranges of items |
| C126 | `DColModel`, `DColProofs`, `DColPage`, `DColExamples`: dictionary columns (2.0) | a row is null exactly if its validity bit is false, so moving nulls into the dictionary keeps the rows; the indices and the items are pages of C125 and C104; arrow's concat is a parameter with a contract that appending satisfies |
| C127 | `SDictModel`, `SDictProofs`, `SDictExamples`: string pages with a dictionary (2.0) | invariant of the loop: the map holds the items with their positions; an index points to the string of its row; pages of C125 and C104 |
| C128 | `ColMapModel`, `ColMapProofs`, `ColMapWhole`, `ColMapExamples`: which columns belong to which fields | a spec of the columns of a field; the writer numbers them in order; the reader's iterator is at the k-th index when the k-th column is due (induction over nested fields) |
| C129 | `PackModel`, `PackProofs`, `PackExamples`: pages of packed structs (2.0) | a spec of the rows of arrays of structs; the bytes of a field are the k-th part of every row (induction over the fields and their types), so the rows selected by the ranges decode to the rows written |
| C130 | `File2Model`, `File2Proofs`, `File2Data`, `File2Whole`, `File2Examples`: files of format 2 | a spec of which bytes a position holds and which pages belong to a column; an invariant of the writer's state over all its operations, and the reading of the footer computed backwards from the layout of its bytes |
| C131 | `NotNullModel`, `NotNullProofs`, `NotNullExamples`: the check of non-null fields | rows of arrays as trees and when they fit a field (inductive); soundness and completeness of the check by induction over fields |
| C132 | `AccumModel`, `AccumProofs`, `AccumExamples`: gathering arrays into pages | an invariant of the queue (rows flushed, then rows queued); grouping theorems for lists and format 2.1, composed with C102 and C103 |
| C133 | `FsstModel`, `FsstTable`, `FsstProofs`, `FsstExamples`: FSST compression | an invariant of the symbol table through training, the renumbering of codes by length as an injection, then encoder and decoder related through a token stream |
| C134 | `VecIdxModel`, `VecIdxProofs`, `VecIdxWhole`, `VecIdxExamples`: building, merging and remapping IVF vector indices | an invariant of the shuffle (rows in files and buffers are the rows seen), transposed codes read back one by one, slices of the merged storage |
| C135 | `IdxOptModel`, `IdxOptProofs`, `IdxOptExamples`: the list of indices and their deltas | counting the deltas that cover a fragment, an invariant of histories whose operations read any earlier version |
| C136 | `ShareModel`, `ShareProofs`, `ShareLive`, `ShareWhole`, `ShareExamples`: the two halves of a shared stream, on two threads | a transition system, an invariant for safety, one for why a task sleeps, a measure for termination |
| C137 | `LateModel`, `LateProofs`, `LateWhole`, `LateExamples`: fetching further columns by row id | every function is the selection of leaves by a set of ids, by induction on trees |
| C138 | `PlainModel`, `PlainProofs`, `PlainTake`, `PlainExamples`: plain encoding of format 1 | induction on types, lists of lists of one length, chunks are a partition of the indices |
| C139 | `VarBinModel`, `VarBinProofs`, `VarBinTake`, `VarBinExamples`: strings and binaries of format 1 | positions are running sums of lengths, chunks said to be contiguous are |
| C140 | `OneFileModel`, `OneFileProofs`, `OneFileTake`, `OneFileExamples`: ranges and takes over the batches of a file of format 1 | offsets are running sums, groups are contiguous parts of the sorted indices |
| C141 | `OneListModel`, `OneListProofs`, `OneListExamples`: lists of format 1 to any depth | positions are running sums; a codec of lists over any codec that reads right |
| C142 | `PTabModel`, `PTabProofs`, `PTabExamples`: the page table of format 1 | rows of equal length, read by number; false if the first field of a data file was replaced |
| C143 | `MFileModel`, `MFileProofs`, `MFileExamples`: the file of a manifest | the prefetch is shown not to matter, then the parts of the file |

## What is modelled

One line per transcription file; the comments in the file give line ranges of
every definition and what it leaves out.

| File | Source (under `/repo/rust` unless noted) |
|------|------|
| `RowIdsModel` | `lance-table/src/rowids.rs`, `rowids/{encoded_array,bitmap,segment}.rs` |
| `SerdeModel`, `WireModel` | `lance-table/src/rowids/{serde,index}.rs`, `protos/rowids.proto` with proto3 bytes |
| `TreeMapModel` | `lance-core/src/utils/{address,mask}.rs` |
| `ReadParamsModel` | `lance-io/src/lib.rs` (`ReadBatchParams`), `rowids.rs:449-496` |
| `DeletionModel` | `lance-core/src/utils/deletion.rs`, `lance-table/src/io/deletion.rs`, delete and updater parts of `lance/src/dataset/{fragment,updater}.rs` |
| `StreamModel` | `lance-table/src/utils/stream.rs` |
| `TakeModel` | `lance/src/dataset/take.rs`, `dataset.rs:1067-1242`, offset lookup in `lance-table/src/format/manifest.rs` |
| `TxnModel`, `TxnReserve` | `lance/src/dataset/transaction.rs` (operations, conflicts, `build_manifest`), `lance-table/src/feature_flags.rs`, `optimize.rs:577-620, 837-920` |
| `BatchModel` | `lance/src/dataset/write/commit.rs:350-408` |
| `LoopModel` | `lance/src/io/commit.rs:123-246, 698-878` |
| `ProtoModel` | `lance-table/src/io/commit.rs:719-892`, `io/commit/external_manifest.rs` |
| `NamingModel` | `lance-table/src/io/commit.rs:67-352` |
| `FlagModel` | the reads and writes of feature flags in `dataset.rs`, `write/insert.rs`, `io/commit.rs` |
| `PbModel` | protobuf structs of fragments, indices, manifests, transactions |
| `SchemaModel` | `lance-core/src/datatypes/{schema,field}.rs`, `lance-file/src/datatypes.rs` |
| `ProjModel` | projections in `lance-core/src/datatypes/{schema,field}.rs`, `drop_columns` |
| `CmpModel` | `compare_fields`, `explain_fields_difference`, `check_compatible` and what they call in `lance-core/src/datatypes` |
| `WriteSchemaModel` | `project_by_schema`, `project_by_field`; the schema part of `write_fragments_internal` |
| `AddColsModel` | adding columns in `lance/src/dataset/schema_evolution.rs:325-456`, the updater, `python/lance/udf.py` checkpoints |
| `AlterModel` | `alter_columns` in `lance/src/dataset/schema_evolution.rs:461-650`, `Schema::validate`, the checks of `lance-file/src/v2/writer.rs` it meets |
| `JoinModel`, `NullModel` | `lance/src/dataset/hash_joiner.rs`, `merge_impl` in `dataset.rs:1447-1503`, `Schema::merge`, all-null columns in `schema_evolution.rs:244-290` |
| `CleanupModel` | `lance/src/dataset/cleanup.rs` |
| `TagModel` | `lance/src/dataset/refs.rs` |
| `CompactModel` | planning in `lance/src/dataset/optimize.rs`, `optimize/remapping.rs` |
| `MergeModel` | `lance/src/dataset/write/{merge_insert,update}.rs` |
| `FragReadModel` | `lance/src/dataset/fragment.rs` readers, `lance-table/src/utils/stream.rs` merging |
| `LimitModel` | limit, offset and order in `lance/src/dataset/scanner.rs`, `io/exec/scan.rs` |
| `ScalarModel` | `lance-index/src/scalar/{btree,flat,bitmap,label_list}.rs` |
| `IndexExprModel` | `lance-index/src/scalar/expression.rs` |
| `CoerceModel` | `lance-datafusion/src/expr.rs` |
| `ScanModel` | `lance/src/dataset/scanner.rs:1837-1960`, `io/exec/scalar_index.rs`, `index/prefilter.rs` |
| `ChunkerModel` | `lance-datafusion/src/chunker.rs` |
| `SchedModel` | `lance-io/src/scheduler.rs` |
| `SamplerModel` | `/repo/python/python/lance/{sampler,_dataset/sharded_batch_iterator}.py` |
| `RepDefModel` | `lance-encoding/src/repdef.rs:101-345,423-1604` (builders, serializing, unraveling) |
| `FullZipModel` | `lance-core/src/utils/bit.rs` 24-60, `lance-encoding/src/repdef.rs` 1606-2309 (control words), `encodings/logical/primitive.rs` 1816-2620 (full-zip reading) and 4013-4265 (writing), `utils/bytepack.rs` | values are byte strings no compressor changes; page buffers are byte lists; byte ranges are read at once |
| `MiniModel` | `lance-encoding/src/repdef.rs` 346-420 (slices of levels), `encodings/logical/primitive.rs` 300-830, 1135-1776 (mini-block reading) and 3558-4012 (writing), `encodings/physical/value.rs` 230-290 and 403-435, `encodings/physical/binary.rs` 530-735 | values are byte strings, their decompressor a parameter; levels are not compressed; no dictionary; bytes are read at once; release builds (no debug assertions) |
| `FtsModel`, `FtsIndex` | `lance-index/src/scalar/inverted/wand.rs` 20-351, `index.rs` 103-180, 547-779, 869-961, 1019-1138, `builder.rs` 99-371, 450-485, 606-670; `lance/src/dataset/scanner.rs` 1517-1667, 1484-1487, 2322-2328; `lance/src/io/exec/fts.rs` | scores are exact rationals, not f32; the idf is a parameter (not negative); texts are tokens with positions, the tokenizer is not modelled; sorts and heap are parameters with their contracts; files, shards and caches of the index are not modelled |
| `KnnModel` | `lance/src/dataset/scanner.rs` 642-647, 1261-1343, 1670-1835, 2066-2158, 2242-2295; `lance/src/io/exec/knn.rs` 399-640, `utils.rs` 32-78; `lance/src/index/prefilter.rs` 57-80, 228-262; `lance/src/index/vector/ivf/v2.rs` 406-436; `lance-index/src/vector/flat/index.rs` 74-133 | distances are exact rationals; quantizers are the distances they give; HNSW, multivectors and training are not modelled; the sort is a parameter with its contract |
| `StatsModel` | `lance-file/src/writer/statistics.rs` 34-387, 453-613 | floats are sign and remaining bits; integers, dates and decimals are integers between two bounds; dictionary columns, `build_statistics` batches and lists are not modelled |
| `PushModel` | `lance-file/src/writer.rs` 188-198, 709-743, `writer/statistics.rs` 638-672; `lance/src/io/exec/pushdown_scan.rs` 180-222, 302-676; `lance/src/dataset/fragment.rs` 1781-1936 | DataFusion's expressions, evaluation and simplifier are a parameter with their contract (`lang_ok`); fields are leaves; one data file per fragment; output order is page order |
| `BlobModel` | `lance-encoding/src/encodings/logical/blob.rs`; `lance-encoding/src/encoder.rs` 307-337; `lance-file/src/v2/writer.rs` 167-172, 309-391; `logical/struct.rs` 410-560; `lance/src/dataset/blob.rs` 33-226; `python/lance/blob.py` | the description column itself (a struct of two integer columns) is stored and loaded exactly; all pages are scheduled before the first batch; local files; the take of the descriptions is given |
| `UploadModel` | `lance-io/src/object_writer.rs` 28-473 | the outcome of every future is an event given to the poll; the order of the parts in the object is the order of the put_part calls, and completing fails or skips the parts that failed (both kinds of store); the back-off delay, Drop and the u16 part index are not modelled |
| `StableModel` | `lance/src/dataset/optimize.rs` 770-829; `lance/src/dataset/rowids.rs` 59-68 | the data of the new fragments is the live rows cut anywhere (scan and writer are other models); the debug assertion is left out; the bytes of the sequences are C09 |
| `DictModel` | `lance-encoding/src/encodings/logical/primitive.rs` 705-728, 4277-4383, 4438-4465; `statistics.rs` (which blocks have a cardinality); `physical/binary.rs` 749-840; `physical/value.rs` 304-315, 416-430; `data.rs` 269-333 | the cardinality is any number (HyperLogLog with a random state); the indices and levels in mini blocks are C109 |
| `FastModel` | `lance-encoding/src/compression_algo/fastlanes.rs` 20-305 and its copies for other types; `encodings/physical/bitpack_fastlanes.rs` 1565-1756; `statistics.rs` 308-360; `encoder.rs` 801-830; `decoder.rs` 508-532 | one function of type and width stands for the functions that macros generate (the tables of the dispatch were compared as text); the rest of `bitpack_fastlanes.rs` (format 2.0) is not modelled |
| `FlatModel` | `lance-encoding/src/data.rs` 107-121, 194-228, 478-497, 819-852, 1203-1230, 1384-1545; `encodings/physical.rs` 57-209; `physical/basic.rs`, `bitmap.rs`, `value.rs` 40-345, `fixed_size_list.rs` 20-130; `encoder.rs` 518-531, 625-660 before 2.1 | buffers are lists of bytes and a request for a range gives those bytes; compressed buffers are left out; arrays have been sliced; no 64-bit limits |
| `DColModel` | `lance-encoding/src/data.rs` 738-762, 1232-1380, 1397-1430; `encodings/physical/dictionary.rs` 61-163, 206-290; `encodings/physical.rs` 217-262; `encodings/logical/primitive.rs` 2961-2991 | arrow's `concat` of dictionary arrays is a parameter (same type, rows one after another, or an overflow); a cast that does not fit gives a null with zero bytes |
| `SDictModel` | `lance-encoding/src/encodings/physical/dictionary.rs` 61-113, 158-205, 293-410; `encoder.rs` 563-590, 667-706 | the estimate of the hyperloglog counter is any function; overflow checks are a parameter; arrow's cast of a dictionary array gives the rows it stands for |
| `ColMapModel` | `lance-encoding/src/encoder.rs` 937-953, 1076-1179, 1240-1311, 1344-1375; `lance-encoding/src/decoder.rs` 403-458, 685-985, 1036-1104; `lance-file/src/v2/reader.rs` 189-291, 686-712; `lance/src/dataset/fragment.rs` 630-660, 850-864; `lance-core/src/datatypes/field.rs` 877-883 | a column is known by its field and the kind of its pages; blob columns and unsupported leaf types are left out |
| `PackModel` | `lance-encoding/src/encodings/physical/packed_struct.rs` 53-155, 158-250; `lance-encoding/src/buffer.rs` 300-338; `lance-encoding/src/data.rs` 431-477, 657-680, 1427-1440, 1488-1540; `lance-encoding/src/statistics.rs` 150-213, 285-296, 409-425; `lance-encoding/src/encodings/physical.rs` 125-158; `lance-arrow/src/lib.rs` 112-148 | structs inside a packed struct are left out; the buffers of FlatModel |
| `File2Model` | `lance-file/src/v2/writer.rs` 42-43, 108-115, 155-226, 347-421, 435-447, 462-520, 524-595, 622-717; `lance-file/src/v2/reader.rs` 311-324, 361-597, 614-683, 1220-1307; `lance-encoding/src/version.rs` 40-62 | protobuf encoding of column metadata is a given pair of functions; what the encoders hand over is given; asynchronous writes happen in order |
| `NotNullModel` | `lance-file/src/v2/writer.rs` 241-263, 316-345, 353-365; `lance-file/src/writer.rs` 145-163 | of arrays only nulls and children; fixed size lists are leaves |
| `AccumModel` | `lance-encoding/src/encodings/logical/primitive.rs` 3235-3331, 3341-3462, 4529-4564; `list.rs` 887-977, 1171-1243 | arrays are abstract, with a length, sizes in memory, copies and slices; encoding of a page is C102-C104 |
| `FsstModel` | `lance-encoding/src/compression_algo/fsst/src/fsst.rs` 170-179, 277-488, 552-992, 1052-1236 | symbols are lists of bytes instead of padded words; hash, counts, gains and the order candidates leave the heap are arbitrary; sampling and overflow of counters are left out, and so is the caller's choice of when to use FSST |
| `VecIdxModel` | `lance-index/src/vector/v3/shuffler.rs` 92-338, `ivf.rs` 106-272, `ivf/transform.rs` 64-150, `residual.rs` 146-185, `storage.rs` 78-114, 163-186, 259-289, `pq/storage.rs` 145-213, 329-351, 584-598, `lance/src/index/vector/builder.rs` 183-262, 377-794, `ivf.rs` 333-460 | centroids, residuals and quantizers are arbitrary functions (a quantizer with codes of a fixed width); training, the HNSW graph and the files themselves are left out; panics and errors are `None` |
| `IdxOptModel` | `lance/src/index.rs` 190-407, 494-690, 1005-1040, `index/append.rs` 25-152, `dataset/transaction.rs` 757-771, `index/vector/ivf.rs` 255-540 | index files are the row ids in them, columns have no nulls, building a file is as in C134, compaction is not among the operations (see C44, C60), automatic migration is left out |
| `ShareModel` | `lance-core/src/utils/futures.rs` 15-189 | the stream inside is a list that may be pending at any time and then wakes its last poller, tokio's semaphore is its permits and the one future that `PollSemaphore` keeps, returning a permit and waking are in the step that releases the mutex, counts do not overflow |
| `LateModel` | `lance/src/io/exec/take.rs` 113-136, 227-329, `lance-core/src/datatypes/field.rs` 184-268, 546-640, `schema.rs` 309-351, 953-998, `lance-arrow/src/lib.rs` 475-490, 657-727 | a tree is a field with its column, types of fields with one name agree, no dots in names, no metadata, `_rowaddr` is not asked for, the rows fetched are those asked for |
| `PlainModel` | `lance-io/src/encodings/plain.rs` 50-154, 170-430, 444-463, `lance-arrow/src/lib.rs` 112-147, 287-294 | no nulls, a byte is its eight bits, counts are unbounded, reading beyond the file is an error |
| `VarBinModel` | `lance-io/src/encodings/binary.rs` 48-87, 156-233, 248-394, 452-469 | positions are a list beside the file (C138), counts are unbounded, reading beyond the file is an error, assertions for debugging are left out, nulls are not looked at by the encoder |
| `OneFileModel` | `lance-file/src/format/metadata.rs` 87-200, `lance-file/src/reader.rs` 280-336, `lance-file/src/writer.rs` 169-235 | fewer than 2^31 rows, what reads one batch is a parameter (C138, C139), the binary search is any that the standard library allows, reads come back in order |
| `OneListModel` | `lance-file/src/writer.rs` 488-583, `lance-file/src/reader.rs` 638-762, `lance-arrow/src/lib.rs` 167-193 | nulls are left out, positions are unbounded and stored as numbers (C138), the items are any codec |
| `PTabModel` | `lance-file/src/page_table.rs` 54-163, `lance/src/dataset/fragment.rs` 778-808, `lance-table/src/format/fragment.rs` 82-92, `lance/src/dataset/write/merge_insert.rs` 975-987 | numbers are unbounded, the file is a list of numbers from the table on, a map is the list of what was set |
| `MFileModel` | `lance-table/src/io/manifest.rs` 30-139, `lance-io/src/traits.rs` 56-80, `lance-io/src/utils.rs` 80-104, `lance/src/dataset.rs` 1692-1708 | messages are their bytes; sizes of files are unbounded; the size of the file is known rightly; values of dictionaries are any bytes before |
| `BinEncModel` | `lance-encoding/src/encodings/physical/binary.rs:44-463` (2.0), `lance-encoding/src/data.rs:1122-1201,1397-1545` (strings) |
| `PageModel`, `ListEncModel` | `lance-encoding/src/encodings/logical/{primitive,list}.rs` (2.0), ranges in `decoder.rs:1159-1346` |
| `BitsModel` | `lance-core/src/utils/bit.rs` |

## What is not modelled

Vector indices, full-text search internals, the Arrow/DataFusion engine, network
and object-store internals beyond the atomic contract above, memory safety,
performance, and byte-level file encodings other than the ones listed.
`object_store`'s percent-encoding of path parts is modelled from its
documentation (`TagModel`) and taken as the identity on names Lance generates.

## Axioms

Every theorem in every `*Props.v` file prints "Closed under the global context":
no axiom of the standard library or of any other library is used.  (Libraries
loaded by tactics declare opaque module-typed constants such as
`Coq.ssr.ssrunder.Under_rel`, which a listing of the environment may show; no
theorem depends on them.)

## Wrong programs

`tools/seed.py` applies an edit to a model in a scratch copy, rebuilds and
reports which property theorems fail; `seeded/mutants` has the edits and
`seeded/LOG.jsonl` one line per attempt.
