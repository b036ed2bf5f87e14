{"id": "C01", "title": "Write-ahead log records round-trip", "statement": "Whatever operation record is appended to the write-ahead log, reading the log file at the position where it was appended returns exactly the same payload bytes and checksum, and the position right after the record. This holds for any record whose payload fits the 16-bit length field; a longer record must not be accepted silently.", "quantifier": "all payload byte strings, all file contents before and after the record", "why_tests_cant": "Payload length ranges over all sizes including the 16-bit boundary; tests only write a few short records.", "anchors": ["services/wal/dto.cpp: pack, append_size, append_crc32, read_size_impl, read_crc32", "services/wal/wal.cpp: write_data_, read_size, read_crc32, read_record"]}
{"id": "C02", "title": "Log replay returns every acknowledged operation, once, in order", "statement": "After any number of operations have been written, loading the log from id k returns exactly the operations with id greater than or equal to the first id after k, each once, in the order written; ids are consecutive.", "quantifier": "all histories of appended records and all start ids", "why_tests_cant": "Needs all history lengths and start points.", "anchors": ["services/wal/wal.cpp: load, find_start_record, read_record, next_index, write_data_, init_id"]}
{"id": "C03", "title": "Operation ids keep growing across restarts", "statement": "When the log is closed and reopened, the next operation gets the id following the last id in the file, so ids stay strictly increasing over any number of restarts.", "quantifier": "all interleavings of appends and clean restarts", "why_tests_cant": "Every number of restarts and records between them.", "anchors": ["services/wal/wal.cpp: constructor, init_id, read_id, write_data_"]}
{"id": "C04", "title": "A crash in the middle of a write loses nothing written before it, and the log stays usable", "statement": "If the log file is cut at any byte, reopening recovers every record that was completely written before the cut, and records appended after the reopen are recovered by the next restart.", "quantifier": "all logs and all cut positions", "why_tests_cant": "All crash points.", "anchors": ["services/wal/wal.cpp: load, init_id, read_record, wal_replicate_t constructor", "core/file/local_file_system.cpp: read at offset"]}
{"id": "C05", "title": "Corruption of a log record is detected", "statement": "If any group of up to 32 adjacent bits of a stored payload is flipped, the record is not accepted as an intact record on read.", "quantifier": "all payloads, all non-zero bursts of at most 32 bits, all positions", "why_tests_cant": "The number of payload and error patterns is astronomically large.", "anchors": ["services/wal/dto.cpp: crc32c use in pack", "services/wal/wal.cpp: read_record"]}
{"id": "C06", "title": "The list of databases and collections survives a restart", "statement": "Writing the catalogue file and parsing it back yields the same databases each with the same collections.", "quantifier": "all catalogues and all names", "why_tests_cant": "Names range over arbitrary strings including separators.", "anchors": ["services/disk/metadata.cpp: flush_, load"]}
{"id": "C07", "title": "Creating and dropping databases and collections behaves like a map of sets", "statement": "After any sequence of create/drop database/collection calls the persistent catalogue lists exactly the databases created and not dropped, and for each exactly the collections created in it and not dropped; calls report success exactly when they changed something, and other databases are untouched.", "quantifier": "all operation sequences", "why_tests_cant": "All histories.", "anchors": ["services/disk/metadata.cpp: append_database, remove_database, append_collection, remove_collection"]}
{"id": "C08", "title": "The persisted recovery point is the last one written", "statement": "After recording recovery point n the stored recovery point reads back as n, whatever was stored before, and it never exceeds what has been applied.", "quantifier": "all sequences of recorded ids, all ids below 2^64", "why_tests_cant": "All digit lengths and overwrite patterns (longer over shorter and back).", "anchors": ["services/disk/disk.cpp: fix_wal_id, wal_id", "services/wal/base.hpp: id_from_string"]}
{"id": "C09", "title": "Acknowledged changes survive a crash", "statement": "At any crash point after a change (create, insert, update, delete, drop) was acknowledged, restarting the database gives a state containing the effect of every acknowledged change.", "quantifier": "all histories of operations, all crash points between the internal messages", "why_tests_cant": "The interleaving of log write, disk write, recovery-point write and crash is not reachable by unit tests.", "anchors": ["services/dispatcher/dispatcher.cpp: execute_plan_finish, wal_success, load_from_disk_result, load_from_wal_result", "services/collection/executor.cpp: insert/update/delete impl", "services/disk/manager_disk.cpp: flush"]}
{"id": "C10", "title": "Binary document encoding round-trips", "statement": "Encoding a document in the storage format and decoding it gives a document with the same fields and values.", "quantifier": "all documents (any nesting, any scalar value)", "why_tests_cant": "All value ranges and nestings.", "anchors": ["components/document/msgpack/msgpack_encoder.hpp: to_msgpack_", "components/document/msgpack/msgpack_encoder.cpp: build_index, build_primitive"]}
{"id": "C11", "title": "Scalars stored in a document keep their type and value", "statement": "A scalar of any supported type put into a document reads back with the same type and the same value.", "quantifier": "all values of every scalar type", "why_tests_cant": "Whole 64-bit ranges.", "anchors": ["components/document/impl/tape_builder.hpp: build, append2", "components/document/impl/tape_builder.cpp: append", "components/document/impl/tape_ref.hpp: next_tape_value", "components/document/impl/tape_ref.cpp: tape_ref_type"]}
{"id": "C12", "title": "Typed reads never return a different number", "statement": "Reading an integer field as another integer type either gives exactly the stored number or an error; it never silently gives another number.", "quantifier": "all stored integer types and values, all requested types", "why_tests_cant": "All pairs of types and values.", "anchors": ["components/document/impl/element.cpp: cast_from, get_int8..get_uint64"]}
{"id": "C13", "title": "JSON-pointer keys are escaped consistently", "statement": "Decoding an escaped field name gives the field it stands for: any field name escaped by the JSON-pointer rules is found under that name, and malformed escapes are rejected.", "quantifier": "all strings", "why_tests_cant": "All strings.", "anchors": ["components/document/document.cpp: unescape_key_", "components/document/string_splitter.cpp"]}
{"id": "C14", "title": "Setting a field makes it readable and leaves the others alone", "statement": "After setting a value at a path, reading that path returns it; every other path that is not below it, or above it, reads as before.", "quantifier": "all documents, all paths, all values", "why_tests_cant": "All trees and paths.", "anchors": ["components/document/document.cpp: set_, find_node_const, find_container_key, remove_", "components/document/container/json_object.cpp", "components/document/container/json_array.cpp"]}
{"id": "C15", "title": "Copies of a document are independent", "statement": "Changing a copy of a document never changes the original, and copies equal the original.", "quantifier": "all documents and all later modifications", "why_tests_cant": "Aliasing depends on nesting and history.", "anchors": ["components/document/container/json_object.cpp: make_deep_copy", "components/document/container/json_array.cpp: make_deep_copy", "components/document/json_trie_node.cpp: make_deep_copy"]}
{"id": "C16", "title": "Update operators take effect", "statement": "Updating a field to a value makes the field have that value, and the call reports a change exactly when the value changed.", "quantifier": "all documents, paths, values", "why_tests_cant": "All values including zero, false and empty string.", "anchors": ["components/document/document.cpp: update"]}
{"id": "C17", "title": "Filters select exactly the matching documents, in order, up to the limit", "statement": "A filtered read returns the first n documents that satisfy the predicate in storage order, or all of them when there is no limit.", "quantifier": "all collections, predicates and limits", "why_tests_cant": "All inputs.", "anchors": ["components/physical_plan/collection/operators/operator_match.cpp", "components/physical_plan/collection/operators/scan/full_scan.cpp", "components/logical_plan/node_limit.cpp: check"]}
{"id": "C18", "title": "Combining result sets with and/or/not is set algebra", "statement": "The documents returned by and, or, not of two results are exactly the intersection, union and complement, without duplicates, keyed by document id.", "quantifier": "all inputs", "why_tests_cant": "All inputs.", "anchors": ["components/physical_plan/collection/operators/merge/operator_and.cpp", "operator_or.cpp", "operator_not.cpp"]}
{"id": "C19", "title": "Document joins compute the relational join", "statement": "inner, left, right, full and cross joins of two document sets return exactly the pairs satisfying the condition, plus unmatched documents of the preserved side(s) once each.", "quantifier": "all document sets and conditions", "why_tests_cant": "All inputs including empty sides.", "anchors": ["components/physical_plan/collection/operators/operator_join.cpp"]}
{"id": "C20", "title": "Table joins compute the relational join", "statement": "inner, left, right, full and cross joins of two tables return exactly the matching row pairs, plus unmatched rows of the preserved side(s) once each.", "quantifier": "all tables and conditions", "why_tests_cant": "All inputs including empty sides and several matches.", "anchors": ["components/physical_plan/table/operators/operator_join.cpp"]}
{"id": "C21", "title": "Grouping partitions the input", "statement": "Grouping by keys puts each document that has all keys in exactly one group, documents are in the same group exactly when their keys are equal, groups appear in first-seen order and keep input order.", "quantifier": "all inputs and key sets", "why_tests_cant": "All inputs.", "anchors": ["components/physical_plan/collection/operators/operator_group.cpp", "components/physical_plan/table/operators/operator_group.cpp"]}
{"id": "C22", "title": "Sorting orders by the keys", "statement": "Sorting returns a permutation of the input ordered lexicographically by the requested keys and directions.", "quantifier": "all inputs, key lists and directions", "why_tests_cant": "All inputs.", "anchors": ["components/physical_plan/collection/operators/sort/sort.hpp", "components/physical_plan/table/operators/sort/sort.cpp", "operator_sort.cpp"]}
{"id": "C23", "title": "Glob patterns match what they say", "statement": "A name matches a pattern iff it does according to the usual meaning of *, ?, [...] and backslash.", "quantifier": "all patterns and names", "why_tests_cant": "All pairs of strings.", "anchors": ["core/file/path_utils.cpp: glob"]}
{"id": "C24", "title": "Primary keys stay unique", "statement": "Inserting documents never leaves two documents with one id, rejects a batch containing an id already stored, and stores every document of an accepted batch.", "quantifier": "all collections and batches", "why_tests_cant": "All histories.", "anchors": ["components/physical_plan/collection/operators/scan/primary_key_scan.cpp", "components/physical_plan/collection/operators/operator_insert.cpp"]}
{"id": "C25", "title": "Index lookups agree with a scan", "statement": "For every comparison (=, !=, <, <=, >, >=) an index lookup returns exactly the rows a full scan with that predicate would return.", "quantifier": "all index contents and search values", "why_tests_cant": "All contents.", "anchors": ["components/index/single_field_index.cpp", "components/physical_plan/collection/operators/scan/index_scan.cpp: search_range_by_index"]}
{"id": "C26", "title": "Indexes follow the data through inserts and deletes", "statement": "After any sequence of inserts and deletes the index contains exactly the live rows; deleting one row never removes another row's entry.", "quantifier": "all histories, duplicate keys included", "why_tests_cant": "All histories.", "anchors": ["components/index/single_field_index.cpp: insert_impl, remove_impl"]}
{"id": "C27", "title": "Creating and dropping indexes is consistent", "statement": "After any create/drop sequence, looking up an index by name, id or key gives the live index with that name, id or key and never a dropped one.", "quantifier": "all create/drop sequences", "why_tests_cant": "All histories.", "anchors": ["components/index/index_engine.cpp: add_index, drop_index, matching"]}
{"id": "C28", "title": "A storage block is a sorted multimap", "statement": "Any sequence of appends and removals on a storage block leaves exactly the appended-and-not-removed items, each stored item reads back byte-identical, space accounting never lets data and metadata overlap, and lookups by key find them.", "quantifier": "all operation sequences and item sizes", "why_tests_cant": "All histories.", "anchors": ["core/b_plus_tree/block.cpp: append, remove, remove_index, find_index_range_, remove_range_, is_memory_available"]}
{"id": "C29", "title": "Splitting a full block loses nothing", "statement": "When an item does not fit and the block is split, afterwards the blocks together contain all previous items plus the new one.", "quantifier": "all block contents and item sizes", "why_tests_cant": "Boundary sizes (a 15-byte window) are practically never hit.", "anchors": ["core/b_plus_tree/block.cpp: split_append"]}
{"id": "C30", "title": "Key lookup in a segment finds the right blocks", "statement": "For any key, the block range searched contains every block that may hold the key.", "quantifier": "all ordered block sequences, all keys", "why_tests_cant": "All contents.", "anchors": ["core/b_plus_tree/segment_tree.cpp: find_range_"]}
{"id": "C31", "title": "Disk space of segments never overlaps", "statement": "Allocating and freeing block space in a segment file never hands out overlapping ranges, and freed space is merged without loss.", "quantifier": "all allocation/free sequences", "why_tests_cant": "All histories.", "anchors": ["core/b_plus_tree/segment_tree.hpp/.cpp: gap_tracker_t"]}
{"id": "C32", "title": "Leaf file ids are unique", "statement": "Two live leaves never share a file id, over any sequence of splits, merges and restarts.", "quantifier": "all histories with restarts", "why_tests_cant": "All histories.", "anchors": ["core/b_plus_tree/b_plus_tree.cpp: get_unique_id_, load"]}
{"id": "C33", "title": "Namespace catalogue behaves like a set of paths", "statement": "After any create/drop sequence a namespace exists iff it (or a descendant created it) was created and not dropped; other namespaces are unaffected.", "quantifier": "all sequences and paths", "why_tests_cant": "All histories.", "anchors": ["components/catalog/namespace_storage.cpp", "components/catalog/versioned_trie/versioned_trie.hpp"]}
{"id": "C34", "title": "Computed schemas track field types by reference count", "statement": "In a schemaless collection a field type is listed iff more values of that type were added than removed.", "quantifier": "all append/drop sequences", "why_tests_cant": "All histories.", "anchors": ["components/catalog/schema/computed_schema (computed_schema.cpp)", "components/catalog/versioned_trie/trie_containers.hpp"]}
{"id": "C35", "title": "Schema change sets apply atomically and keep columns distinct", "statement": "Applying a set of column additions, deletions, renames and type changes yields exactly the described schema, with unique column names and ids.", "quantifier": "all schemas and change sets", "why_tests_cant": "All combinations.", "anchors": ["components/catalog/transaction/schema_diff.cpp", "components/catalog/schema.cpp"]}
{"id": "C36", "title": "Metadata transactions are all-or-nothing", "statement": "A catalogue transaction either applies all its changes on commit or none (abort, error), rolling back to a savepoint discards exactly the later changes, and nothing can be done after it finished.", "quantifier": "all operation sequences", "why_tests_cant": "All histories.", "anchors": ["components/catalog/transaction/metadata_transaction.hpp/.cpp", "transaction_scope.cpp"]}
{"id": "C37", "title": "Row visibility follows snapshot isolation", "statement": "A transaction sees a row iff it was inserted by itself or committed before it started, and not deleted by itself or by a transaction committed before it started.", "quantifier": "all histories of inserts, deletes, commits, and all observers", "why_tests_cant": "All interleavings of transactions.", "anchors": ["components/table/row_version_manager.cpp/.hpp"]}
{"id": "C38", "title": "Cleaning old row versions changes nothing visible", "statement": "Compacting version information does not change what any current or future transaction sees.", "quantifier": "all version states and all observers that started at or after the cleanup bound", "why_tests_cant": "All histories.", "anchors": ["components/table/row_version_manager.cpp: cleanup, cleanup_append"]}
{"id": "C39", "title": "Concurrent deletes of one row conflict", "statement": "Two different transactions cannot both delete a row: the second gets an error, and nothing is changed by the failed call.", "quantifier": "all version states and row lists", "why_tests_cant": "All interleavings.", "anchors": ["components/table/row_version_manager.cpp: delete_rows"]}
{"id": "C40", "title": "Appended rows are split in consecutive row groups without loss", "statement": "After any sequence of appends the table's row groups are contiguous, none exceeds the row-group size, and the total equals the number of rows appended; every row id belongs to exactly one group, found by lookup.", "quantifier": "all append sequences and all row ids", "why_tests_cant": "All sizes.", "anchors": ["components/table/collection.cpp: append", "components/table/segment_tree.hpp: try_segment_index"]}
{"id": "C41", "title": "Updates of a column are read back", "statement": "After any sequence of updates to rows of a column, scanning or fetching returns for each row the last written value, and the original value for rows never updated.", "quantifier": "all update sequences, all row sets", "why_tests_cant": "All histories.", "anchors": ["components/table/update_segment.hpp: merge_update_loop_internal", "components/table/update_segment.cpp"]}
{"id": "C42", "title": "Strings in a column read back unchanged", "statement": "Appending strings and NULLs to a column segment and reading them gives the same strings and NULLs.", "quantifier": "all string sequences", "why_tests_cant": "All lengths, including the overflow limit.", "anchors": ["components/table/column_segment.cpp: string_append, string_scan_partial, string_fetch_row"]}
{"id": "C43", "title": "NULL masks behave as sets of positions", "statement": "Marking rows valid/invalid, slicing, combining, resizing and counting in a validity mask agree with the mathematical set of valid rows.", "quantifier": "all masks, positions and counts", "why_tests_cant": "All bit patterns.", "anchors": ["components/vector/validation.cpp", "components/vector/validation.hpp"]}
{"id": "C44", "title": "Selection vectors compose", "statement": "Applying one row selection after another selects the composition.", "quantifier": "all selections", "why_tests_cant": "All inputs.", "anchors": ["components/vector/indexing_vector.cpp: slice"]}
{"id": "C45", "title": "Value ordering is a strict weak order", "statement": "The ordering used for index keys is irreflexive, transitive and its incomparability is an equivalence, and equality agrees with it.", "quantifier": "all triples of values of all types", "why_tests_cant": "All triples.", "anchors": ["components/types/physical_value.cpp: operator<, operator=="]}
{"id": "C46", "title": "Decimal arithmetic is exact or fails", "statement": "Adding, subtracting, multiplying and comparing decimals gives the exact mathematical result, or an overflow error.", "quantifier": "all decimals and scales", "why_tests_cant": "Whole integer ranges.", "anchors": ["core/numbers/fixed_point.hpp"]}
{"id": "C47", "title": "Document ids round-trip through text", "statement": "Printing a document id and parsing the text gives the same id; ordering of ids equals ordering of their text; invalid text gives the null id.", "quantifier": "all 12-byte ids and all strings", "why_tests_cant": "All ids.", "anchors": ["components/oid/oid.hpp"]}
{"id": "C48", "title": "Locks exclude each other", "statement": "Under any schedule at most one thread holds the exclusive lock, and never together with a shared holder.", "quantifier": "all numbers of threads and all interleavings", "why_tests_cant": "All schedules.", "anchors": ["core/spinlock/spinlock.cpp"]}
{"id": "C49", "title": "Each client gets the answer to its own request", "statement": "When several threads use one connection, every call returns the result of that call.", "quantifier": "all interleavings of requests and replies", "why_tests_cant": "All schedules.", "anchors": ["integration/cpp/wrapper_dispatcher.cpp: init, wait_result, execute_plan_finish, notify", "integration/cpp/impl/session_blocker.cpp"]}
{"id": "C50", "title": "Logged statements are read back as the same statement", "statement": "Serializing a statement (insert, update, delete with conditions and limits) for the log and deserializing it gives the same statement.", "quantifier": "all statements and expression trees", "why_tests_cant": "All nestings and key kinds.", "anchors": ["components/serialization/serializer.cpp", "components/serialization/deserializer.cpp", "components/expressions/*.cpp"]}
{"id": "C51", "title": "A crash while the catalogue file is rewritten leaves the old or the new catalogue", "statement": "If the process dies while the list of databases and collections is being rewritten, the next start sees either the catalogue before the call or the catalogue after it.", "quantifier": "all catalogues, all calls, the crash point between the write and the truncation", "why_tests_cant": "the window is a few instructions and depends on the lengths of the texts", "anchors": ["services/disk/metadata.cpp: metadata_t::flush_, metadata_t::metadata_t"]}
{"id": "C52", "title": "Generated document ids are unique", "statement": "Ids generated by one process are pairwise different, and an id generated in a later second sorts after one generated in an earlier second.", "quantifier": "all sequences of generated ids, all clocks", "why_tests_cant": "Needs sequences longer than the counter range and all clock values.", "anchors": ["core/oid/oid.hpp: oid_t", "components/document/document_id.cpp"]}
{"id": "C53", "title": "Upgrading a shared lock lets no writer in between", "statement": "A thread that upgrades its shared lock to an exclusive one is not overtaken: what it read under the shared lock is still true when it holds the exclusive lock.", "quantifier": "all numbers of threads and interleavings", "why_tests_cant": "Interleavings cannot be enumerated by tests.", "anchors": ["core/locks/upgrade_lock, core/spinlock: unlock_shared + lock"]}
{"id": "C55", "title": "Flushing a segment file and loading it again gives the same blocks", "statement": "After flush, loading the file again yields the same blocks with the same contents in the same order as before, whatever was appended, removed or left unloaded before.", "quantifier": "all stores, all places and sizes of blocks and holes, all sets of loaded and modified blocks", "why_tests_cant": "The layouts of a file are unbounded; the failing ones need a particular history of loads and removals.", "anchors": ["core/b_plus_tree/segment_tree.cpp: flush 726-749, lazy_load 785-810, close_gaps_ 957-975"]}
{"id": "C56", "title": "Deleting table rows removes exactly the listed rows", "statement": "After a successful delete of a list of rows, scans return all rows except those and the ones deleted before, in order, and the reported number is the number of distinct rows; a failed delete changes nothing; the order of the list does not matter; the table size is the number of rows scans return.", "quantifier": "all row groups, all sequences of delete calls, all lists of rows", "why_tests_cant": "All sequences of calls and all orders of row lists over vectors.", "anchors": ["components/table/row_group.cpp: delete_rows, version_delete_state, calculate_size, indexing_vector"]}
{"id": "C57", "title": "Numbers compare by value whatever their integer type", "statement": "Comparing two table values of integer, boolean or timestamp type (=, !=, <, <=, >, >=) gives the comparison of the numbers they hold, whatever the two types; strings compare byte by byte.", "quantifier": "all pairs of types and all values", "why_tests_cant": "All pairs of types over the whole integer ranges; only the upper half of some ranges misbehaves.", "anchors": ["components/types/types.hpp: promote_type", "components/types/logical_value.cpp: operator==, operator<, cast_as"]}
{"id": "C58", "title": "Table aggregates are the mathematical ones", "statement": "sum, min, max and count over a column return the sum, least, greatest and number of its non-NULL values (count: of rows), for every column type they accept.", "quantifier": "all columns, lengths and values", "why_tests_cant": "All columns, including narrow types, NULLs and totals at the edge of the range.", "anchors": ["components/physical_plan/table/operators/aggregate/operator_sum.cpp", "operator_min.cpp", "operator_max.cpp", "operator_count.cpp", "components/types/logical_value.cpp: sum"]}
{"id": "C59", "title": "Arithmetic in table updates is exact or reported", "statement": "Adding, subtracting, multiplying, dividing or taking the remainder of two table values gives the mathematical result; a NULL operand gives NULL; an impossible operation is reported as an error.", "quantifier": "all integer types and values", "why_tests_cant": "Whole integer ranges and all type pairs.", "anchors": ["components/types/logical_value.cpp: sum, subtract, mult, divide, modulus, op", "components/expressions/update_expression.cpp: update_expr_calculate_t::execute_impl"]}
{"id": "C60", "title": "Comparison predicates mean what they say", "statement": "A predicate built from eq, ne, gt, gte, lt, lte, and, or, not holds on a document exactly when the named fields exist and their values stand in the stated relation; values of different kinds are never equal and a comparison never fails.", "quantifier": "all predicates, parameters, documents and pairs of documents", "why_tests_cant": "The pairs of value types and nested predicates are unbounded; tests compare a few fields of the expected type.", "anchors": ["components/physical_plan/collection/operators/predicates/simple_predicate.cpp", "components/document/document.cpp: compare, compare_, get_value"]}
{"id": "C61", "title": "A delete removes exactly the documents it matches", "statement": "Deleting with a predicate removes the stored documents that satisfy it (or satisfy it together with some document of a second source), keeps all others unchanged and in order, and reports each removed id once.", "quantifier": "all collections, predicates and second sources", "why_tests_cant": "All collections and all repetitions in the sources.", "anchors": ["components/physical_plan/collection/operators/operator_delete.cpp"]}
{"id": "C62", "title": "Document aggregates are exact", "statement": "count, sum, min, max and average of a field over a set of documents are the number of documents, the sum, the least and the greatest of the values of the field, and the sum divided by the number of values.", "quantifier": "all sets of documents and all fields", "why_tests_cant": "All mixes of present, missing, NULL and differently typed values.", "anchors": ["components/physical_plan/collection/operators/aggregate/operator_sum.cpp", "operator_min.cpp", "operator_max.cpp", "operator_avg.cpp", "operator_count.cpp", "components/document/value.cpp: sum"]}
{"id": "C63", "title": "Merging two storage blocks keeps the items of both", "statement": "When the items of two storage blocks fit into one, merging the second into the first leaves one block that holds exactly the items of both, sorted by key and with the right number of items and keys.", "quantifier": "all pairs of blocks whose items fit together", "why_tests_cant": "All contents and all relative positions of the two key ranges.", "anchors": ["core/b_plus_tree/block.cpp: merge"]}
{"id": "C64", "title": "Splitting a storage block divides its items by key", "statement": "Splitting off a number of items (or of different keys) from a storage block moves exactly the items with the greatest keys to the new block, keeps all the others, and leaves both blocks in order with the right counters.", "quantifier": "all blocks, all numbers up to the number of items (of different keys)", "why_tests_cant": "All contents and split points, with keys shared across the split point.", "anchors": ["core/b_plus_tree/block.cpp: split, split_uniques"]}
{"id": "C54", "title": "Removing an item that is not stored changes nothing", "statement": "Removing an item from a segment tree answers whether the item was stored; if it was not, the contents, the number of items and the number of different keys stay as they are.", "quantifier": "all trees, all keys and items", "why_tests_cant": "Depends on where the key lies relative to the bounds of all blocks.", "anchors": ["core/b_plus_tree/segment_tree.cpp: remove"]}
{"id": "C65", "title": "A segment tree is a collection of items by key", "statement": "Over any sequence of appends, removals of items and of keys, and of writing the tree to its file and reading it back, the answers, the contents, the lookups and the counters are those of a plain collection.", "quantifier": "all sequences of operations", "why_tests_cant": "All histories; blocks split, merge, are unloaded and loaded depending on sizes.", "anchors": ["core/b_plus_tree/segment_tree.cpp: append, remove, remove_index, contains, item_count, get_item, get_items, flush, lazy_load"]}
{"id": "C68", "title": "Generated session ids are distinct", "statement": "Every session id made by the default constructor differs from all others made before it, also when several threads make them at the same time.", "quantifier": "all interleavings of any number of threads, any passage of time", "why_tests_cant": "a test hits the window between raising the counter and reading it only by luck", "anchors": ["components/session/session.cpp: session_id_t()"]}
{"id": "C69", "title": "Table conditions accept exactly the rows for which they are true", "statement": "A WHERE or ON condition over a table accepts a row (or a pair of rows) exactly when the condition is true of its values; a comparison with NULL is not true; filtering returns the accepted rows unchanged, in order, up to the limit.", "quantifier": "all tables, conditions, parameters and limits", "why_tests_cant": "Tests check a few conditions on a few rows; conditions nest without bound, and every pair of column and parameter types and every number of rows matters.", "anchors": ["components/physical_plan/table/operators/check_expr.cpp", "components/physical_plan/table/operators/operator_match.cpp", "components/vector/vector.cpp"]}
{"id": "C70", "title": "A scan of a table returns every live row that satisfies the condition", "statement": "After any sequence of inserts and deletes, a scan or SELECT over a table returns, in order, every row that was inserted, is not deleted and satisfies the condition, up to the limit; fetching by id returns the rows with those ids that are not deleted.", "quantifier": "all histories of inserts and deletes, all table sizes, conditions, limits and id lists", "why_tests_cant": "Table sizes across vector and group boundaries and all patterns of deleted rows.", "anchors": ["components/table/collection.cpp: scan, fetch, initialize_scan", "components/table/row_group.cpp: templated_scan, filter_indexing", "components/physical_plan/table/operators/scan/full_scan.cpp", "components/physical_plan/table/operators/scan/transfer_scan.cpp"]}
{"id": "C71", "title": "A DELETE statement removes exactly the matching table rows and reports their number", "statement": "DELETE with a condition and a limit removes from a table exactly the live rows that a SELECT with them returns, and the reported number is the number of rows removed; without a condition it removes all rows.", "quantifier": "all tables, conditions and limits", "why_tests_cant": "All sizes and all histories of earlier deletes.", "anchors": ["components/physical_plan/table/operators/operator_delete.cpp", "components/table/data_table.cpp: delete_rows", "components/vector/data_chunk.cpp"]}
{"id": "C72", "title": "An INSERT into a table returns the rows inserted", "statement": "The output of an INSERT into a table is the list of rows inserted.", "quantifier": "all tables and all lists of rows", "why_tests_cant": "Depends on how full the last row group is.", "anchors": ["components/physical_plan/table/operators/operator_insert.cpp", "components/table/collection.cpp: append"]}
{"id": "C73", "title": "An UPDATE statement changes exactly the matching table rows", "statement": "UPDATE with a condition and a limit replaces exactly the live rows of a table that a SELECT with them returns by their new values, leaves all other rows as they were, and without a condition does so for all rows.", "quantifier": "all tables, histories, conditions, limits and assignments", "why_tests_cant": "All sizes and all histories of earlier updates and deletes.", "anchors": ["components/physical_plan/table/operators/operator_update.cpp", "components/table/update_segment.cpp: update", "components/table/column_data.cpp: check_predicate"]}
{"id": "C74", "title": "The catalogue keeps the tables of each namespace", "statement": "After any history of creating, dropping and renaming tables and namespaces, a namespace holds exactly the tables created or renamed there and not dropped or renamed since, with the metadata they were created with; a refused call changes nothing and reports why; listing a namespace gives its tables.", "quantifier": "all histories of catalogue calls, names, kinds and metadata", "why_tests_cant": "All histories and all name collisions between namespaces and kinds of tables.", "anchors": ["components/catalog/catalog.cpp: create_table, create_computing_table, drop_table_impl, rename_table_impl, list_tables, get_table_schema, get_table_format", "components/catalog/namespace_storage.cpp: get_namespace_info"]}
{"id": "C75", "title": "A column can be looked up whatever was looked up before", "statement": "Looking up a column of a table's schema by name or by id gives that column whenever it is there, whatever lookups were made before; a lookup does not change the schema.", "quantifier": "all schemas and all sequences of lookups", "why_tests_cant": "Tests look up columns that are there, or end with the one that is not; the state left by a failed lookup is hidden in a mutable member.", "anchors": ["components/catalog/schema.cpp: find_field, get_field_description, find_idx_by_id, find_idx_by_name"]}
{"id": "C77", "title": "Reading a table does not change it, and what was read is independent of it", "statement": "Scanning a table any number of times, with new or reused result chunks, returns its rows with their updates each time and leaves every row as it was; changing a value in a returned chunk does not change the table.", "quantifier": "all columns, segment layouts, updates, deleted rows, numbers of scans and result vectors", "why_tests_cant": "Sharing of memory shows only on a later read after particular sequences of vectors.", "anchors": ["components/table/column_data.cpp: scan_vector, get_vector_scan_type, select", "components/table/column_segment.cpp: fixed_size_scan, fixed_size_fetch_row, string_scan_partial", "components/table/collection.cpp: scan", "components/vector/data_chunk.cpp: reset", "components/vector/vector.cpp: slice, set_value"]}
{"id": "C76", "title": "NULLs come back exactly where they were inserted", "statement": "Whatever rows are appended to a column, in chunks of any size, a scan of any stretch of rows marks exactly those that were appended as NULL, marks nothing else in the vector scanned into, and an append that is taken back leaves no trace: the rows before it stay and the rows appended afterwards read as they were appended.", "quantifier": "all segment sizes, chunks, index vectors, positions and lengths of scans, and positions of reverts", "why_tests_cant": "The code moves bits between 64-bit words at two independent offsets; errors show only for particular offsets, lengths and segment borders.", "anchors": ["components/table/column_segment.cpp: validity_append, validity_fetch_row, validity_scan_partial, validity_scan, revert_append", "components/table/column_data.cpp: append_data, scan_vector, fetch_row", "components/vector/validation.hpp: LOWER_MASKS, UPPER_MASKS"]}
{"id": "C78", "title": "The B+-tree on disk answers like a dictionary", "statement": "After any sequence of appends, removals and restarts, lookups by index, the size, full scans and ascending or descending range scans with a predicate and a limit return exactly the entries that were appended and not removed, in the order of their indices; a call that finds nothing to do changes nothing and blocks nobody.", "quantifier": "all sequences of calls, all trees of any height, all capacities", "why_tests_cant": "Splits, merges and balancing of inner nodes happen only for particular fill levels along a path; tests reach a few of these combinations.", "anchors": ["core/b_plus_tree/b_plus_tree.cpp: append, remove, remove_index, load, find_node, split, balance, merge", "core/b_plus_tree/b_plus_tree.hpp: full_scan, scan_ascending, scan_decending"]}
{"id": "C66", "title": "Dividing, balancing and joining leaves loses and doubles nothing", "statement": "When a full leaf of the B+-tree is divided, every item ends up in exactly one of the two leaves, half of the keys go to the new leaf, all items of a key stay together, and every key that stays is less than every key that goes; balancing with a neighbour makes the numbers of keys equal and joining puts everything in one leaf; and what is later read back from the two files is what the two leaves held.", "quantifier": "all leaves, all keys, all distributions of items over blocks, whether or not blocks were written before", "why_tests_cant": "Whether a block is moved whole, cut, or left depends on how the keys happen to be spread over blocks, and the wrong file contents show only after a restart.", "anchors": ["core/b_plus_tree/segment_tree.cpp: split, balance_with, merge, flush, load", "core/b_plus_tree/block.cpp: split_uniques"]}
{"id": "C79", "title": "A collection created anew starts empty", "statement": "A collection that is created after it, or the database that held it, was dropped has no documents, and dropping and creating it leaves every other collection as it was.", "quantifier": "all states without statements under way, all collections and databases", "why_tests_cant": "Leftover documents depend on what was there before the drop; a test that creates a collection with a new name or in a fresh process never sees them.", "anchors": ["services/memory_storage/memory_storage.cpp: create_database_, drop_database_, create_collection_, drop_collection_", "services/dispatcher/dispatcher.cpp: execute_plan, execute_plan_finish"]}
{"id": "C80", "title": "ORDER BY on a table returns its rows in the order asked for", "statement": "Sorting a table returns exactly its rows, unchanged, so that each row stands before those it precedes by the first sort key in which they differ, in the direction given for that key.", "quantifier": "all tables, all lists of sort keys and directions, all values", "why_tests_cant": "A sort is wrong only for certain values, ties and directions; the sorting algorithm's own requirement on the comparison is never visible in a result that happens to be right.", "anchors": ["components/physical_plan/table/operators/sort/sort.cpp: sorter_t::add", "components/physical_plan/table/operators/sort/sort.hpp: sorter_t::operator()", "components/physical_plan/table/operators/operator_sort.cpp: on_execute_impl", "components/physical_plan/table/operators/transformation.cpp: transpose"]}
{"id": "C81", "title": "GROUP BY on a table makes one row per combination of keys", "statement": "Grouping a table returns one row for each different combination of the key columns, with the keys and each aggregate computed over exactly the rows that have these keys, under the names asked for.", "quantifier": "all tables, all lists of key columns and aggregates, all values", "why_tests_cant": "Which rows fall together depends on all the data, and the names, the number and the kinds of the aggregates can be combined in ways no list of queries covers.", "anchors": ["components/physical_plan/table/operators/operator_group.cpp: on_execute_impl, create_list_rows, calc_aggregate_values", "components/physical_plan/table/operators/aggregate/operator_sum.cpp: aggregate_impl", "components/physical_plan/table/operators/get/simple_value.cpp"]}
{"id": "C82", "title": "A WHERE clause accepts exactly the documents of which it is true", "statement": "A statement with a WHERE clause reads the documents for which the condition is true, with each comparison read in the direction it is written, each constant at its value, and AND, OR, NOT and parentheses as usual; it never accepts another document and never loses one.", "quantifier": "all conditions of any depth and size, all collections of documents", "why_tests_cant": "Conditions nest without bound, and the side a constant stands on, a second NOT or a pair of parentheses change the result silently; a list of test queries covers a handful of shapes.", "anchors": ["components/sql/transformer/impl/transfrom_common.cpp: transform_a_expr, transform_a_indirection, get_value", "components/sql/transformer/utils.hpp: get_compare_type", "components/logical_plan/param_storage.cpp: next_id", "components/physical_plan/collection/operators/scan/full_scan.cpp"]}
{"id": "C83", "title": "A SELECT returns the rows the statement asks for", "statement": "A SELECT over a collection returns one row for each document that satisfies the condition (or one for each group, with GROUP BY), with exactly the columns listed, in the order of ORDER BY, restricted by DISTINCT, HAVING, LIMIT and OFFSET.", "quantifier": "all statements over documents, all contents of the collections", "why_tests_cant": "Which rows coincide, which fields are missing and which clauses are combined depends on data and statement; a clause that is silently ignored passes every test that does not look for it.", "anchors": ["components/sql/transformer/impl/transform_select.cpp: transform_select", "components/physical_plan_generator/impl/create_plan_aggregate.cpp", "components/physical_plan_generator/impl/create_plan_group.cpp: add_group_scalar, add_group_aggregate", "components/physical_plan/collection/operators/aggregation.cpp: on_prepare_impl", "components/physical_plan/collection/operators/operator_group.cpp"]}
{"id": "C84", "title": "UPDATE stores the values of its expressions, and nothing else changes", "statement": "UPDATE ... SET gives every column it names the value its expression has on the document as it was before the statement, in exactly the documents its WHERE clause is true of; the other fields of these documents and all other documents stay as they are; the documents reported as modified are those that changed, and a statement that cannot be carried out is refused with an error.", "quantifier": "all lists of assignments and expressions of any depth, all conditions, all contents of the collections", "why_tests_cant": "The result depends on which fields exist, on their types, on the order of assignments and on the order of the documents; tests assign a few constants to fields that exist.", "anchors": ["components/sql/transformer/impl/transform_update.cpp: transform_update_expr, transform_update", "components/expressions/update_expression.cpp: execute_impl", "components/document/value.cpp: sum, subtract, mult, divide, modulus", "components/document/document.cpp: update", "components/physical_plan/collection/operators/operator_update.cpp: on_execute_impl", "components/physical_plan_generator/impl/create_plan_update.cpp"]}
{"id": "C85", "title": "INSERT adds exactly the rows it lists or selects", "statement": "INSERT adds one document per row of VALUES, or per document a SELECT finds, with the values of the row in the columns of the list and no other field; it reports the ids of the documents it added; the documents that were in the collection stay as they are, and later changes of one collection do not change another. A statement that cannot be carried out is refused with an error.", "quantifier": "all lists of columns, all rows, all SELECTs of columns with all conditions, all contents of both collections", "why_tests_cant": "Whether a row survives depends on its id, on the ids of all other rows and on what is stored; tests insert a few rows with ids that differ and count them.", "anchors": ["components/sql/transformer/impl/transform_insert.cpp: transform_insert", "components/physical_plan_generator/impl/create_plan_insert.cpp", "components/physical_plan/collection/operators/operator_insert.cpp: on_execute_impl", "components/physical_plan/collection/operators/scan/primary_key_scan.cpp", "components/document/document.cpp: get_document_id"]}
{"id": "C86", "title": "DELETE removes exactly the documents its condition is true of", "statement": "DELETE removes from the collection the documents its WHERE clause is true of - with USING, those for which some document of the other collections makes it true - and no others, and reports the ids of the removed documents.", "quantifier": "all conditions of any depth, all contents of the collections", "why_tests_cant": "The removed set depends on every comparison and connective of the condition and on every document; tests delete by one or two fixed conditions.", "anchors": ["components/sql/transformer/impl/transform_delete.cpp: transform_delete", "components/physical_plan_generator/impl/create_plan_delete.cpp", "components/physical_plan/collection/operators/operator_delete.cpp: on_execute_impl"]}
{"id": "C87", "title": "The JSON text of a document means the document", "statement": "to_json of a document gives JSON text whose value is the content of the document, and document_from_json of that text gives a document with the same fields, elements, strings and numbers.", "quantifier": "all documents of any depth with any strings and integers, either order of evaluating the arguments of a call", "why_tests_cant": "Whether the text is JSON and means the same depends on every character of every string and on every bit of every number; the tests print a few documents with short plain strings and small numbers.", "anchors": ["components/document/document.cpp: to_json, value_to_string, create_pmr_string_, document_from_json, build_index", "components/document/json_trie_node.cpp: to_json", "components/document/container/json_object.cpp: to_json", "components/document/container/json_array.cpp: to_json"]}
{"id": "C88", "title": "An index on disk finds exactly the documents it holds", "statement": "A search for a comparison with a key returns the ids of all entries of the index for which the comparison is true, each once, whatever was inserted and removed before, and also after the program was stopped and started again.", "quantifier": "all sequences of inserts, removals, searches and restarts, all keys and ids, trees of any height", "why_tests_cant": "Which entries are found depends on the shape the tree has taken through splits, merges and reloads; tests use a few hundred keys in one order and do not restart in between.", "anchors": ["services/disk/index_disk.cpp: insert, remove, find, lower_bound, upper_bound", "services/disk/index_agent_disk.cpp: find", "core/b_plus_tree/b_plus_tree.cpp: flush, load"]}
{"id": "C89", "title": "A query through an index on disk returns the documents of the collection", "statement": "A query on a field that has an index on disk returns the documents of the collection for which the comparison is true, up to its limit, whatever inserts, deletes and queries came before; creating an index does not change what a query finds, and deleting a document works whatever was queried before.", "quantifier": "all contents of the collection at creation of the index, all sequences of inserts, deletes and queries", "why_tests_cant": "The index in memory holds only what the last query found, so that the effect of a delete depends on the query before it; tests create the index first and query after all changes.", "anchors": ["services/collection/create_index.cpp: create_index_finish, index_find_finish", "components/index/index_engine.cpp: insert_document, delete_document, sync_index_from_disk", "components/index/single_field_index.cpp: remove_impl, clean_memory_to_new_elements_impl", "components/physical_plan/collection/operators/scan/index_scan.cpp"]}
{"id": "C90", "title": "Memory of the buffer manager keeps what was written", "statement": "What is read through a pinned buffer is what was last written to it, or for a block what the file has, whatever was allocated, pinned, unpinned, released and evicted in between; memory that was allocated and not released can be pinned again with its content; a piece that is allocated is a new one.", "quantifier": "all sequences of calls, all limits, any number and size of pieces, any number of purges of the eviction queues", "why_tests_cant": "Contents are lost only when the memory of the pool is used up and an eviction queue holds the piece; the limit of a collection is 4 GiB, and tests never reach it.", "anchors": ["components/table/storage/buffer_pool.cpp: evict_blocks, evict_blocks_internal, iterate_unloadable_blocks, purge_iteration, add_to_eviction_queue", "components/table/storage/block_handle.cpp: load, unload_and_take_block, can_unload", "components/table/storage/standard_buffer_manager.cpp: register_memory, register_small_memory, allocate, pin, unpin"]}
{"id": "C91", "title": "The buffer manager keeps its memory limit", "statement": "Memory is refused only when the request and the memory that has to stay loaded exceed the limit together; the memory reported as used is at least that of the pieces that have to be loaded, at most that of all pieces, and not above the limit; a limit that cannot be met is refused and the old one stays.", "quantifier": "all sequences of calls, all limits, any number and size of pieces and reservations", "why_tests_cant": "The count of used memory is split between a global counter and a cache, so that an error shows only for certain orders of many small and large requests near the limit.", "anchors": ["components/table/storage/buffer_pool.cpp: update_used_memory, evict_blocks_internal, set_limit", "components/table/storage/buffer_pool.hpp: get_used_memory, used_memory", "components/table/storage/standard_buffer_manager.cpp: evict_blocks_or_throw, reserve_memory, free_reserved_memory"]}
{"id": "C92", "title": "The indexes of a collection are those created on it and not dropped, also after a restart", "statement": "After any sequence of CREATE and DROP of collections and indexes and of restarts, every statement was answered according to the statements before it, and each collection has exactly the indexes that were created on it with success and not dropped since, with their keys, in the order of their creation. A refused CREATE INDEX leaves nothing behind; dropping a collection takes its own indexes and no others.", "quantifier": "all sequences of statements and restarts, all names of databases, collections and indexes, all lists of keys", "why_tests_cant": "The result depends on the whole history: on names used in other collections and databases, on drops before, on how often the server was restarted. Tests create one index in one collection.", "anchors": ["services/disk/manager_disk.cpp:258-475", "components/physical_plan/base/operators/operator_add_index.cpp:19-58", "components/physical_plan/base/operators/operator_drop_index.cpp:26-51", "services/collection/create_index.cpp:32-75", "services/memory_storage/memory_storage.cpp:267-281"]}
{"id": "C93", "title": "The file of index definitions holds each index once", "statement": "At any moment, also after a crash in the middle of a statement, reading the file of index definitions gives the definition of each index exactly once, with its collection, name and keys, and nothing else.", "quantifier": "all sequences of statements and restarts, all moments of a crash, all names and keys", "why_tests_cant": "A test does not crash between two writes, and what one restart adds to the file shows only in its size.", "anchors": ["services/disk/manager_disk.cpp:19-29", "services/disk/manager_disk.cpp:375-475"]}
{"id": "C94", "title": "A vector shows the same values whatever its form", "statement": "A vector made from values, from one value for all rows or from numbers with equal steps shows at each position the value put there, and still does when rows are selected from it in any order, an interval is taken, it is written out, its rows are copied to a new vector or it is read through the unified format; value() and the unified format agree on every row and on every NULL.", "quantifier": "all values and NULLs, all sizes and capacities, all sequences of selecting, slicing, flattening, copying and unifying", "why_tests_cant": "Each form has its own code path for reading, and a difference shows only in some order of forms, e.g. a selection of a selection that is written out, or beyond 1024 rows.", "anchors": ["components/vector/vector.cpp:42-262", "components/vector/vector.cpp:419-594", "components/vector/vector.cpp:793-980", "components/vector/vector_operations.cpp:560-625"]}
{"id": "C95", "title": "Chunks of rows are independent tables", "statement": "A chunk shows a table: the rows it was made with; after choosing rows, those rows in that order; after append its rows followed by the chosen rows of the other chunk, whether or not it had to grow; a copy shows the rows from the offset on. No call on one chunk changes what another one shows.", "quantifier": "all tables, all sequences of making, choosing, writing out, appending with and without growth and with and without a selection, and copying", "why_tests_cant": "Columns of different chunks share memory and index arrays; whether one still reads what it should depends on the whole sequence of calls on all of them.", "anchors": ["components/vector/data_chunk.cpp:7-77", "components/vector/data_chunk.cpp:130-193", "components/vector/vector.cpp:300-398"]}
{"id": "C96", "title": "The rows of an INSERT into a table reach its plan", "statement": "The operator made for the rows of an INSERT into a table shows the same table as the statement, whatever its number of rows and columns.", "quantifier": "all tables with at least one column", "why_tests_cant": "Tests insert a few rows or exactly some hundred; the number of rows for which it fails is a constant of another component.", "anchors": ["components/physical_plan/base/operators/operator_raw_data.cpp:23-27", "components/physical_plan_generator/impl/create_plan_data.cpp:16-19", "components/physical_plan/base/operators/operator_data.hpp:47-51", "components/vector/data_chunk.cpp:68-77"]}
{"id": "C97", "title": "An index on a column of a table does not change what queries return", "statement": "A SELECT with a condition on a column of a table returns exactly the rows that were inserted, not deleted, as last updated, for which the condition is true, each once (at most LIMIT of them), whether or not the column has an index and whenever the index was created.", "quantifier": "all histories of CREATE INDEX, INSERT, DELETE and UPDATE, all conditions with the six comparisons or none, all limits, whichever of the entries with equal keys the index removes", "why_tests_cant": "The index and the table are updated separately, with row ids in one and positions in a chunk in the other; they are equal in tests with a single insert and part in longer histories.", "anchors": ["components/physical_plan/table/operators/operator_insert.cpp:9-28", "components/physical_plan/table/operators/operator_delete.cpp:56-87", "components/physical_plan/table/operators/operator_update.cpp:88-142", "components/physical_plan/table/operators/scan/index_scan.cpp:9-68", "components/index/index_engine.cpp:250-280", "services/collection/create_index.cpp:32-60"]}
{"id": "C98", "title": "Each statement is answered exactly once, after its operators ran, children first", "statement": "Every statement given to the executor is answered exactly once, with the output of the root of its plan; before the answer every operator of the plan gave its output exactly once, each after its children; while the disk owes an answer the statement is not answered, and no order of answers of the disk for other statements disturbs it.", "quantifier": "all sequences of statements and answers of the disk, in any order, all plans of any size and shape", "why_tests_cant": "A plan is cut into parts kept on a stack, suspended in a collection and resumed by a message; the interleavings of statements and messages are unbounded and tests run one statement at a time.", "anchors": ["services/collection/executor.cpp:86-258", "services/collection/create_index.cpp:32-99", "services/memory_storage/memory_storage.cpp:283-324", "components/physical_plan/base/operators/operator.cpp:6-76", "services/collection/session/session.hpp:46-79"]}
{"id": "C99", "title": "What a statement changed is sent to the disk, once", "statement": "When an INSERT, DELETE or UPDATE is answered, its changes were sent to the disk exactly once; a statement that only reads sends nothing.", "quantifier": "all sequences of statements and answers of the disk, in any order, all plans", "why_tests_cant": "The path that resumes a statement after an index on disk was read is another one than that of a statement that never waits; its loss shows only after a restart.", "anchors": ["services/collection/executor.cpp:164-219", "services/collection/executor.cpp:428-462", "services/collection/create_index.cpp:81-99"]}
{"id": "C100", "title": "The schema of a collection is that of its documents", "statement": "Once no statement on a schemaless collection is under way, get_schema lists a field with a type if and only if some document of the collection has a value of that type in that field, whatever statements ran before on this and other collections and in whatever way they overlapped.", "quantifier": "for all sequences of statements on any collections, all documents, and all interleavings of execution, messages to the dispatcher and answers of the log", "why_tests_cant": "Tests run one statement at a time and look at one or two fields; the claim is about every interleaving of statements of many clients, whose messages share one variable of the dispatcher.", "anchors": ["services/dispatcher/dispatcher.cpp:466-471", "services/dispatcher/dispatcher.cpp:515-545", "services/dispatcher/dispatcher.cpp:664-754", "services/dispatcher/dispatcher.cpp:895-921", "components/physical_plan/base/operators/operator_write_data.cpp:47-118", "components/catalog/computed_schema.cpp:8-98"]}
{"id": "C101", "title": "Nested columns give back the values stored in them", "statement": "A column of lists, fixed-size arrays and structs, nested in any way, gives back exactly the values appended to it: after any sequence of vectors has been appended (with nulls at any level, and with list entries that are in any order, overlap, or leave gaps in the vector of elements), a scan from the start or from any row, in steps of any size, returns the appended values in order, and fetching rows by id in any order and any number of times returns the values of those rows. Slicing a nested vector and copying it behind another one keep the values.", "quantifier": "for all nested types, all sequences of appended vectors, all start rows, scan sizes and row ids", "why_tests_cant": "The offsets of lists, the validity of each level and the position in each level's column are kept separately and must agree at every depth; tests use one or two fixed nestings with lists stored in order.", "anchors": ["components/table/list_column_data.cpp", "components/table/array_column_data.cpp", "components/table/struct_column_data.cpp", "components/vector/vector_operations.cpp"]}
{"id": "C102", "title": "Statements of several sessions on databases and collections are answered as if executed one after the other", "statement": "When several sessions create and drop databases and collections and read and write documents at the same time, every statement is answered, the answers are those of executing the statements one after the other in some order, no statement crashes the server or touches a collection that was dropped, and once all are answered the catalogue and the collections in memory are the databases and collections that order leaves behind.", "quantifier": "for all sequences of statements of any number of sessions and all interleavings of the dispatcher, the executor and the log", "why_tests_cant": "The dispatcher checks its catalogue when a statement arrives and changes it only after the log has answered, and the executor uses a pointer taken when the statement was queued; which other statements come in between depends on the scheduler.", "anchors": ["services/dispatcher/dispatcher.cpp", "services/memory_storage/memory_storage.cpp", "services/collection/executor.cpp"]}
{"id": "C103", "title": "CREATE TABLE declares the columns written, DROP names the same collection", "statement": "The plan made from CREATE TABLE carries exactly the columns written, in their order, with the types their declarations mean (arrays of arrays for several bounds, DECIMAL with the width and scale written), and every statement with a type the database does not have is refused. DROP TABLE and DROP INDEX with a name drop in the collection that CREATE TABLE with that name creates, and different names stand for different collections.", "quantifier": "for all lists of columns of any length, all types, modifiers and bounds, all names with any number of parts", "why_tests_cant": "The tests write one column of each type; widths beyond a byte, several bounds, bounds left out, unknown element types of arrays, constraints between the columns and names of other lengths are not among them.", "anchors": ["components/sql/transformer/impl/transform_table.cpp", "components/sql/transformer/utils.hpp", "components/sql/parser/gram.y"]}
{"id": "C104", "title": "Statements on databases, tables and indexes reach the dispatcher as written", "statement": "The plan made from CREATE/DROP DATABASE, CREATE/DROP TABLE and CREATE/DROP INDEX carries the database, the collection, the index and its fields in the order written, together with what changes the meaning of the statement: UNIQUE, WHERE, IF EXISTS, IF NOT EXISTS. An index created on a table can be dropped under the name of the table and its own.", "quantifier": "for all names with any number of parts, all lists of fields of any length and all combinations of options", "why_tests_cant": "The tests write one index of each shape without options; that an option has no effect whatever the state of the database is not visible in the plan of a statement that does not use it.", "anchors": ["components/sql/transformer/impl/transform_index.cpp", "components/sql/transformer/impl/transform_database.cpp", "components/sql/transformer/impl/transform_table.cpp", "components/sql/parser/gram.y"]}
{"id": "C105", "title": "Names of collections and ids of tables in the catalogue stand for each other", "statement": "The id the catalogue makes of the name of a collection gives the same name back, different collections have different ids, and the text of an id is read back as the same id.", "quantifier": "for all names with and without uid and schema, all namespaces with any number of parts, all texts", "why_tests_cant": "The tests use names of one shape, where the exchange of database and schema and the parts left out do not show; names are arbitrary text.", "anchors": ["components/catalog/table_id.cpp", "components/catalog/table_id.hpp", "components/base/collection_full_name.hpp"]}
{"id": "C106", "title": "The C interface hands over each result once, in order, and its texts unchanged", "statement": "Whatever calls a program makes on a cursor, it answers as the list of the results: the next ones in order, each once, nothing behind the end, those asked for by number. Messages, ids and strings are handed over unchanged whatever their length, and no call writes outside the memory it allocated.", "quantifier": "for all lists of results, all sequences of calls, all texts", "why_tests_cant": "A test reads a few short results to their end; overruns appear with longer texts, and the order in which a program asks is arbitrary.", "anchors": ["components/cursor/cursor.cpp", "components/cursor/cursor.hpp", "integration/c/main.cpp"]}
{"id": "C107", "title": "A document given by a Python program is given back to it", "statement": "A dictionary handed to the database is given back equal: the same keys and values at every depth, tuples as lists, bytes as their text in base64; None stays None and integers are kept whatever their size.", "quantifier": "for all dictionaries of any size and depth and both orders in which the compiler may build keys and values", "why_tests_cant": "Where None stands decides which other value it is read as; tests without None between other values, or with small integers, cannot show it.", "anchors": ["integration/python/sql/convert.cpp", "components/document/impl/document.cpp", "components/document/container/json_object.cpp"]}
{"id": "C108", "title": "A condition given by a Python program selects the documents it describes", "statement": "find, update and delete with a dictionary act on exactly the documents of which all fields of the dictionary hold: a value asks for equality, operators compare, $and, $or and $not join conditions as they say, at any depth and whatever the names of the fields.", "quantifier": "for all conditions of any size and depth and all documents", "why_tests_cant": "Conditions nest without bound and the meaning of $or and $not depends on what stands beside and above them; tests cover a few shapes.", "anchors": ["integration/python/sql/convert.cpp", "components/expressions/compare_expression.cpp", "components/physical_plan/collection/operators/predicates/simple_predicate.cpp"]}
{"id": "C109", "title": "An update given by a Python program changes the fields it names as it says, and no others", "statement": "update_one and update_many with a dictionary of operators set the fields under $set and add to the fields under $inc of each document selected, and leave all other fields; an update that cannot be made is refused.", "quantifier": "for all sets of fields and values, all documents and every order in which the hash tables are gone through", "why_tests_cant": "The order of a hash table differs between builds and the fields that must not change are all others; tests set one or two fields.", "anchors": ["integration/python/sql/wrapper_collection.cpp", "components/document/document.cpp", "components/physical_plan/collection/operators/operator_update.cpp"]}
{"id": "C110", "title": "Keywords of SQL are known in any case, and names are the words of the statement", "statement": "A word of a statement is a keyword exactly if it is one in small letters; any other word is a name, the same for all ways to write its letters; a quoted name keeps its letters and is never a keyword; different names stay different.", "quantifier": "for all words and quoted names of any length", "why_tests_cant": "The search for a keyword is right for all words only if the table of all keywords is in order and the bounds of the search are right; tests try a few words.", "anchors": ["components/sql/parser/keyword.cpp", "components/sql/parser/kwlist.h", "components/sql/parser/scansup.cpp", "components/sql/parser/scan.l"]}
