# Design of the formal model

Subject: duckstax/otterbrix (C++), read as text from `/repo`. Nothing was built or run.
The model is written in Coq 8.16.1 under `rocq/theories`, logical path `Verif`.

## Layout

For each subsystem `X` there are up to four files:

* `XModel.v`  executable Gallina model, every definition cites file and lines in `/repo`;
* `XSpec.v`   the small independent specification the theorems refer to;
* `XProofs.v` lemmas;
* `XProps.v`  only the property theorems, each closed by `exact`, followed by `Print Assumptions`,
  and the `Example`s showing that hypotheses are met by concrete non-trivial states.

Conventions: numbers are `Z`/`N` with wrap-around written as `mod 2^n` wherever the C++ type can
wrap; undefined behaviour, thrown exceptions and non-termination are distinct results of the model
function; a loop is structural recursion, a fold, or recursion on fuel with a separate
out-of-fuel result that theorems exclude.  Where the code violates the property, the theorem
`..._refuted` exhibits the witness and a `..._partial` theorem states the exact guard under which
the property does hold.

## Plan per property

| id | modelled | proof |
|----|----------|-------|
| C01 | `pack`, `append_size` (truncation to 16 bits), `append_crc32`, readers over a byte file | round trip for payloads of 1..65535 bytes with any prefix/suffix; refutation for 65536 bytes |
| C02 | `write_data_`, `load`, `find_start_record`, `read_record`, `next_index` | induction over the history |
| C03 | constructor + `init_id` | induction over append/reopen sequences |
| C04 | file truncated at any byte, `read_buffer` on short files | induction over the log; refutation for records written after a torn tail |
| C05 | CRC-32C bit by bit | linearity over xor and invertibility of the shift step |
| C06 | `metadata_t::flush_`/load parser | round trip for separator-free names; refutation otherwise |
| C07 | `metadata_t` operations | refinement to a map of sets |
| C08 | `fix_wal_id`, `wal_id`, decimal printing and `strtoull` | round trip; refutation of a second read on one handle |
| C09 | CrashModel.v: the mailboxes of dispatcher, executor, log and disk agent, the disk and the log as they are after each message, restart with replay; any interleaving of statements, steps and crashes | CrashProps.v: invariant over all event sequences within an explicit guard (no updates, no dropped databases, no delete limits; crashes outside the cases listed); refutations for each case the guard leaves out |
| C10 | packing a tree on a tape, the byte format, building a new tree and tape (DocPack*.v, Msgpack*.v, Tape*.v) | mutual induction on the tree; refuted for 128 bit integers and integers of 2^56 and more; floating point numbers not modelled |
| C11 | tape words | round trip with guard; refutation for large unsigned values |
| C12 | `cast_from` and the getters | exactness per pair of types; refutations |
| C13 | `unescape_key_` | round trip with the JSON-pointer escape, rejection of malformed input |
| C14 | documents as graphs of nodes: get, set, remove, move (Doc*.v) | paths in a graph where containers have one path; set/remove/move proved for indexes up to the size; refuted: index past the end, index of 32 bits and more, text as index, failed move |
| C15 | the same graphs: copy (Doc*.v) | copies of values and of objects with values only are independent under all later changes; refuted for nested objects and arrays |
| C16 | `update(pointer, value)` (Doc*.v) | proved for values different from the default of their type or fields of the same type; refuted otherwise |
| C17 | operator_match, full_scan, transfer_scan, limit (QueryModel) | equals `firstn` of `filter` |
| C18 | merge operators (QueryModel) | set algebra |
| C19 | collection operator_join (JoinModel) | equals the relational join under a guard on shared fields; refuted: full join with an empty right side (front of an empty vector), unmatched documents losing fields shared with the other side, padding with nested objects, object merged over a non-object |
| C20 | table operator_join.cpp, vector_t::value/set_value (TblModel) | inner join proved equal to the relational join (no NULLs, at most 1024 rows); refuted: left/right/full/cross results have no rows, padding rows before a match, right join reads missing rows, results over 1024 rows are written out of bounds, NULL becomes zero |
| C21 | collection operator_group (GroupModel) | the output is the list of classes in first-seen order, and a partition; refuted: signed and unsigned numbers of one value in two groups, nested key values dropped |
| C22 | collection sorter and operator_sort (GroupModel); `std::sort` by its contract | the comparison is the lexicographic order and strict weak; refuted for strings mixed with numbers and for out-of-range integers |
| C23 | `glob` | equivalence with an inductive matching relation |
| C24 | primary_key_scan + operator_insert (QueryModel) | invariant over histories; refutation (ids repeated in a batch) |
| C25 | single_field_index, search_range_by_index | equality with filter for strict weak orders |
| C26 | insert/remove of index entries | invariant for unique keys; refutation for duplicates |
| C27 | index_engine tables | invariant; refutations |
| C28 | block.cpp: bytes, metadata, counters (Block*.v) | every history refines a plain collection of items; refuted: removing an item that is not stored under a stored key reports success and miscounts |
| C29 | split_append (BlockModel) | exact description; nothing lost if the free space is estimated right (always with items of at most a quarter block); two refutations |
| C30 | find_range_ (SegModel) | proved: the range is exactly the blocks whose bounds contain the key |
| C31 | gap_tracker_t | non-overlap invariant |
| C32 | ids of leaf files over append, remove, load (Bt) | the ids in use and the free ones are a permutation of an initial segment, for all calls; refutation after reload |
| C33 | versioned_trie (Trie) + namespace_storage (Cat) | refinement of the trie to a set of paths; histories in which only leaves are dropped give exactly the created and not dropped namespaces; refutations (drop of an inner namespace, children, use after free) |
| C34 | computed_schema over the trie (CSchema) | refinement to counts per field and kind; refutations (last drop, sibling fields, types of one kind, latest-type struct) |
| C35 | schema, schema_diff and the copy assignment of types (SDiff) | for lists of changes that follow the guard `tidy`, refinement of build-then-apply to the described list of columns, by induction with a phase per column (untouched, changed, renamed, closed, deleted); schema error characterised; refutations (ids of added columns, second type change, decimal/list types, swap of names, old names, changes ignored) |
| C36 | metadata_diff, metadata_transaction, transaction_scope, begin_transaction (Tx), over Cat and SDiff | refinement of all interleaved histories of catalogue calls and transactions to an abstract world in which a commit applies the net list of changes at once; universal facts for failed commits and finished transactions; refutations |
| C37 | row_version_manager | visibility = snapshot rule |
| C38 | cleanup | preservation with guard; refutation |
| C39 | delete_rows | conflict theorem; refutation of atomicity |
| C40 | collection append, merge, segment lookup (RowGrp) | layout invariant for any sequence of insertions and merges; binary search finds the one group of a row |
| C41 | updates of rows: update_segment, fetch and scan over them (Upd) | every completed history reads back as the last values (refinement to a list of rows); exact condition for completing; refutations (later row, repeated id, condition) |
| C42 | columns of strings down to the bytes of a segment: append, overflow marker, fetch, scan, several segments (StrSeg) | invariant of the bytes of a segment kept by append; round trip below the limit for every sequence of appends; every string from the limit on is never read back; NULL after one |
| C43 | validity_mask_t | agreement with position sets; refutations |
| C44 | indexing_vector_t::slice | composition |
| C45 | physical_value | strict weak order without floating-point mixing; refutation with it |
| C46 | fixed_point | exactness and exact overflow tests |
| C47 | oid | round trip, order agreement |
| C48 | spin_lock, shared_spinlock | invariant over all schedules |
| C49 | wrapper_dispatcher + session_block_t (WrapModel): threads, one mutex, one condition variable, one store for the answers | invariant over all interleavings in which an answer is fetched before the next of its kind arrives; refuted: swapped answers and null pointer, a call that never returns, load sleeping through its notification |
| C50 | StmtModel.v: the serializers and deserializers of all plan nodes, expressions, update expressions, parameters, and the log entry around them, byte for byte | StmtProps.v: for every statement without null pointers what is read back is given exactly (`back`); it is the same statement if and only if `kept`; eight concrete statements that come back changed, crash or throw |
| C51 | catalogue file rewrite with a crash at any byte | partial theorem and refutation in MetaProps |
| C52 | oid generator | uniqueness with guards in OidProps |
| C53 | lock upgrade | interleaving model in LockProps |
| C54 | segment tree remove | proved for stored items and keys outside all blocks; refuted: item absent but key within the bounds, key count when a key spans blocks |
| C55 | segment file flush and load | round trip with guards in GapProps |
| C56 | row_group delete path | scan after deletes; refutations (repeat, failed, overflow, size) |
| C57 | `promote_type`, `cast_as`, `operator<`, `operator==` of table values | exact on comparable pairs; refutations (upper unsigned half, bool, 128 bit, timestamps) |
| C58 | table aggregates sum/min/max/count | exact with guards; refutations (narrow types throw, NULL is zero, overflow) |
| C59 | table value arithmetic | exact with guards; refutations (division by NULL, mixed types) |
| C60 | simple_predicate, `document_t::compare`, `get_value` (QueryModel) | meaning of predicates with guard `regular`; refutations (kinds, missing, nested, range, wrap) |
| C61 | operator_delete (QueryModel) | exact, also under a scan and with a second source |
| C62 | collection aggregates (GroupModel) | exact under guards; refuted: max hidden by a missing or NULL field, sum ending the process at NULL, a string or a third boolean, sum of an absent field undefined, average over documents without the field |
| C63 | block merge (BlockModel) | proved for keys not below the own ones; refuted for smaller and interleaved keys |
| C64 | block split, split_uniques (BlockModel) | proved |
| C65 | segment tree append, remove, remove_index, lookups, flush/lazy_load (SegModel) | refinement of a plain collection for items up to a quarter block; refuted: larger items get lost, lookup after reload of a key in two blocks |
| C68 | session_id_t() (WrapModel) | distinct when made in turn; refuted with two threads |
| C69 | check_expr.cpp, operator_match.cpp (TblModel) | conditions of any nesting and filters proved under a guard on the types; refuted: all_true, two columns of one table, NULL, negative or string parameters, more than 1024 rows, timestamps, joins on different integer types |
| C70 | table scan, fetch, SELECT without index (RowGrp) | scan = live rows for every history; SELECT for tables of at most 1024 rows; refutations (first vector, condition, fetch, skipped vector) |
| C71 | DELETE statement on a table (RowGrp) | exact effect and count under a condition; refutations (no condition, rows after the first 1024) |
| C72 | output of INSERT into a table (RowGrp) | output = rows inside the first group; refuted across groups |
| C73 | UPDATE statement on a table (Upd); the columns whose scan result shares the memory of the table are a parameter (`place`) | exact effect for tables not updated before, with a condition, for every `place`; refutations (no condition, second update) |
| C74 | catalog tables per namespace (Cat) | refinement to a map per namespace and kind for histories without a throw; refutations (two tables of one name, rename error, listing) |
| C75 | schema::find_field (SDiff) | all sequences of lookups of present columns succeed; one failed lookup makes all later ones fail |
| C76 | segments of NULL bits as 64-bit words, appends, partial and whole scans, reverts (VSeg) | bits of words by N.testbit, loop invariant over both offsets; refutations: rows after the range, stale marks, reverts off multiples of 8 |
| C77 | memory behind column scans: segments, result vectors, dictionaries, updates (Alias) | scans into new vectors return the rows and change nothing; refutations: one chunk for all row groups shifts numbers, reads strings at old positions and misses updates; writing to a result changes the table |
| C66 | segment_tree_t: split, balance_with, merge, scan over the blocks (SegCut) | the two loops proved by induction over the blocks of the source (what is moved, what is left, the counters); then read-back from files; refutations: cut block not marked as modified, key in two blocks, NULL key |
| C78 | btree_t: append, remove, remove_index, reads, scans, load; levels of child counts over a row of leaves (Bt) | invariant (ordered row, capacities per level, counters) kept by split, merge and balance at every level; descent and stack of locked nodes proved exact; scans equal a filter of the ordered dictionary; refutations: lock kept, root split with two items, capacity below 12 |
| C79 | CrashModel.v, memory_storage.cpp create/drop of databases and collections | direct computation from any idle state; refutation for databases |
| C80 | TAggModel.v: transpose, `sorter_t`, operator_sort over tables; `std::sort` is any function with the stated result | the comparison is the order of the keys (positions) or its reverse (names); refutations: names, strict weak order, NULL, timestamps |
| C81 | TAggModel.v: operator_group, its keys, and count/sum/min/max over each group | groups are the classes of `same_key`, by induction over the rows; aggregates from LVal; refutations: names, NULL keys, repeated aggregates, timestamps, empty tables |
| C82 | SqlModel.v: `get_value`, `transform_a_expr`, `transform_a_indirection`, the parameter counter, over a tree of the parser | translation preserves meaning by induction over the tree with a growing parameter store, then C60 and C17; refutations: mirrored constant, NOT NOT, sums and parentheses, casts, misread nodes, 65537 constants |
| C83 | SelModel.v: `transform_select`, create_plan_group, `aggregation`, operator_group over documents | composition of C82 with grouping (C21) and sorting (C22); refutations: one for each clause or target that is ignored, dropped or undefined |
| C84 | SetModel.v: `transform_update`, the update expressions and their arithmetic, `document_t::update`, operator_update over one and two collections | expressions by induction, assignments by induction over documents that agree outside the targets, then all documents; refutations: one for each way a value is misread, not stored or undefined |
| C85 | DmlModel.v: `transform_insert`, the ids of documents, `operator_insert` with its translation of columns, and a memory of documents two collections share | ids as numbers by injectivity of the digits, rows by induction over the columns; SELECT by C83 and renaming; refutations for ids, missing lists, expressions, sharing |
| C86 | DmlModel.v: `transform_delete`, `create_plan_delete` over one and two collections (operators of QueryModel.v) | C82 and C18 composed; for USING the translation is proved again for pairs of documents by induction over the condition |
| C87 | JsonModel.v: `print` (to_json, value_to_string, create_pmr_string_), `load` (build_index, document_from_json after the parser); JsonSpec.v has a reader of JSON of its own | induction over the content: what is written is the canonical text, which the reader reads; a second induction for the tape that is built from the value |
| C88 | DixModel.v: `insert`, `remove`, `find`, `lower_bound`, `upper_bound`, `agent_find`, `flush`, `reopen` over the B+-tree of BtModel.v; DixSpec.v: a relation between keys and ids | the items of keys and ids read back (msgpack round trip, ids as text), then refinement of each call with the invariant of the tree (BtProofs); counterexamples computed |
| C89 | DixModel.v: `create`, `add`, `delete`, `query` (index in memory of IndexModel.v, index on disk, documents); DixSpec.v: `right_answers`, the documents a query may rely on being in memory | invariant over histories: the disk holds all documents, the memory the recent ones; the two refutations are for all states |
| C90 | PoolModel.v: the calls of the buffer manager over handles, eight eviction queues and the counters; PoolSpec.v: pieces with their pins and contents, `legal`, `right_data`, `roomy` | invariant over histories: handles and pieces agree, every loaded handle without readers is in a queue with its sequence number, counters add up; an eviction takes nothing that is pinned |
| C91 | as C90; PoolSpec.v: `needed`, `sum`, `right_memory` | same invariant; a failed eviction leaves all queues empty, so that only what is needed is loaded |
| C92 | the file of definitions as bytes, agents, engines, statements and restarts | simulation of a list of definitions; the file is a list of records whose first definitions of each name are the indexes |
| C93 | the same, and the files between the writes | the same invariant; files a crash leaves as witnesses |
| C94 | vectors of all four kinds over a heap of arrays with masks and buffers; new, set, slice, flatten, copy, to_unified_format | a relation `good` between a vector and its list of values, kept by each use |
| C95 | chunks over the same heap: construction, slice, flatten, append with resize, copy | invariant: no two columns share an array; each call changes only arrays of the chunk it is called on |
| C96 | the raw-data operator, a copy into a chunk of default capacity | from C95's copy for at most 1024 rows; the first write past the array otherwise |
| C97 | rows by id and a sorted list of (key, id), the statements on both | invariant of histories: the index is a permutation of the keys of the live rows, sorted; the ranges of a search are filters of it |
| C98 | plans as trees cut into a stack of parts, states of operators, suspended plans by collection and session, requests the disk owes | invariant per session (ended, stopped at a part, creating an index) that other sessions do not touch; the order of operators is the reverse of preorder; a weight of what is owed decreases with each answer |
| C99 | the same machine with the event of sending changes to the disk | events of an ended statement are the concatenation of those of its parts |
| C100 | documents per collection, the computed schemas of C34, update_result_, and two queues (finished statements, statements sent to the log); events in any order | calls made plus calls under way always count the fields of the documents; with nothing under way C34's invariant gives the schema; refutations for overlapping deletes, updates, inserts from queries, deletes by index, replaced documents |
| C101 | Nest: columns of lists, arrays and structs with append, scan from the start or a row, fetch by id; slices and copies of nested vectors | proved except where arrays are copied, by induction on the type with the list of values a column holds as its abstraction; three refutations (`vector_ops::copy` copies no element of an array) |
| C102 | Ddl: statements on databases and collections through the dispatcher's catalogue, the collections in memory, the queue of the executor and the log | proved where sessions wait for answers to statements that get in the way of theirs, by an invariant over all interleavings with the serial execution in the order of arrival; four refutations |
| C103 | Cre: CREATE TABLE, DROP TABLE and DROP INDEX from the parser's names of types, bounds and names with dots to the statement for the dispatcher | proved for columns with at most one written bound and names of one to four parts, by induction on the columns; unknown plain types are refused; four refutations |
| C104 | Cix: all statements on databases, tables and indexes with their options, from the parser to the statement for the dispatcher | proved for statements without options by cases and induction on the fields; two refutations, one for every way of executing the plan |
| C105 | TId: ids of tables from names of collections and back, from text and back | exact condition for the way back, injectivity by cases, texts by induction on the parts; two refutations |
| C106 | Cur: cursors and the functions of the C interface for cursors and texts | refinement of a list with a position for all sequences of calls; exact condition for texts; two refutations |
| C107 | Py: building a document of a Python dictionary on the tape and making a dictionary of it again | round trip by induction on the nested objects with the tape only growing, for both orders of evaluation; two refutations |
| C108 | Pyf: making an expression of a condition given as a Python dictionary, and the check of the expression on a document | meaning of conditions stated on its own; induction on nested conditions that the children appended are checked as the condition says; four refutations |
| C109 | Pyu: making update expressions of a Python dictionary of operators and running them on a document | fields after the update stated on their own; a pass over distinct fields, independent of the order of the hash table; two refutations |
| C110 | Idn: search for keywords in the table of kwlist.h, small letters and the cut of long names | binary search over any sorted table, the table checked to be sorted by computation; bounds of the cut by induction; one refutation |

## Trusted base

* Coq's kernel (8.16.1) and `vm_compute` in the examples and refutations. No kernel check is switched off, no plugin is used.
* `Print Assumptions` stands under every theorem of the `XProps.v` files. For all of them it prints
  `Closed under the global context`: no axiom is used, neither from the standard library nor of our own.
* The reading of the C++ text: every definition cites its source lines. The code is not run, and
  asserts are taken as switched off (release build) unless a theorem says otherwise.
* Contracts assumed of third-party code, stated at the definitions: `std::sort` (a sorted permutation if the
  comparison is a strict weak order), `std::multimap`, the msgpack format, `strtoull`, `pread`/`pwrite`/`ftruncate`,
  sequentially consistent atomics, locks and condition variables of the standard library.

### Which parts of the code are modelled

| files of the model | code | left out |
|----|----|----|
| Msgpack, Crc32c, Wal | services/wal (wal.cpp, dto.cpp, record.hpp): packing, append, load, init_id, reading | actor messages |
| Stmt | components/serialization (msgpack), components/logical_plan nodes and parameters, components/expressions: writing and reading of statements in the log | the JSON serializer, floating point parameters, the columns and rows of tables beyond what is lost |
| Meta | services/disk: metadata.cpp, disk.cpp (catalogue and last wal id) | documents on disk (see Bt); directories |
| TAgg | components/physical_plan/table: transpose, sort, group, count, sum, min, max | averages, columns without a name, what std::sort does with a comparison it does not allow |
| Sql | components/sql/transformer: conditions; components/logical_plan/param_storage | the parser itself, floating point literals, LIKE, function calls, qualified operators |
| Sel | components/sql/transformer: SELECT; the plans made of it and their execution on documents | joins, functions in FROM, avg, indexes, two columns of one name, tables |
| Set | UPDATE over documents: transform_update.cpp, update_expression.cpp, arithmetic of value.cpp, document_t::update, operator_update | floating point, powers, roots, factorials (a function), upserts, names with a database, the index scan and the indexes themselves |
| Dml | INSERT and DELETE over documents: transform_insert.cpp, transform_delete.cpp, create_plan_insert/delete.cpp, operator_insert, operator_delete, get_document_id | floating point, ORDER BY below INSERT, indexes, collections kept as tables, names with a database |
| Json | documents as JSON text: document.cpp 460-518, 579-627, 880-916, json_trie_node.cpp 119-131, json_object.cpp 96-108, json_array.cpp 59-70 | the text of floating point numbers; the parser of boost, for which the reader of JsonSpec.v stands; "%i" with a 64 bit argument is taken to read the low 32 bits; a name twice in one object |
| Dix | the index on disk and a collection that has one: index_disk.cpp, index_agent_disk.cpp 109-147, create_index.cpp 32-60 and 81-99, index_engine.cpp 220-248 and 299-311, collection index_scan.cpp 59-93 | keys other than integers; the files of the leaves (Seg, SegCut); messages are taken to be handled in the order they are sent; `remove(key)` and `drop` |
| Pool | the buffer manager of tables: buffer_pool.cpp 21-30, 47-141, 161-174, 186-291, 330-349, block_handle.cpp 42-99 and 158-202, standard_buffer_manager.cpp 48-109, 200-267, 283-296 | threads and locks; counters per kind of memory; `reallocate`, `prefetch`, batches of blocks, `purge_aged_blocks` (no callers); how often a queue is purged is left open |
| IxMeta | services/disk/manager_disk.cpp 19-29, 190-194, 258-475, operator_add_index.cpp, operator_drop_index.cpp, services/collection/create_index.cpp 32-75, memory_storage.cpp 235-281 | One statement is finished before the next, each in a session of its own; engines are lists of indexes by name (C27); what indexes hold (C25, C88); a clean restart keeps the collections |
| Vec | components/vector/vector.cpp 42-164, 184-262, 300-307, 367-398, 419-488, 550-594, 772-980, 1010-1019, vector_operations.cpp 7-54, 560-625, 836-858, data_chunk.cpp 7-77, 130-193, validation.cpp (as lists of bits), operator_raw_data.cpp 23-27 | One cell per value of one numeric type; strings, lists, arrays, structs and hashing are left out. The child of a dictionary is a value. Index arrays do not change. |
| TIx | components/physical_plan/table/operators/operator_insert.cpp, operator_delete.cpp 56-87, operator_update.cpp 88-142, scan/index_scan.cpp 9-68, components/index/index_engine.cpp 137-153, 250-280, single_field_index.cpp 32-59, create_plan_match.cpp 66-108, create_index.cpp 32-60 for tables | One table of numbers without NULL, one index in memory; conditions on one column; scans of at most 1024 rows, taken as correct (C70); the entry removed among those with an equal key is any (a parameter) |
| Exec | services/collection/executor.cpp 86-258, 428-462, create_index.cpp 32-99, services/memory_storage/memory_storage.cpp 283-324, components/physical_plan/base/operators/operator.cpp 6-76, session.hpp 46-79 | What operators compute (other models), cursors, parameters; messages between memory storage and executor are handled at once; an index on disk that exists already (create_index_finish_index_exist) |
| DSch | services/dispatcher/dispatcher.cpp 300-471, 515-545, 664-754, 895-921, services/collection/executor.cpp 221-258, 428-462, create_index.cpp 81-99, operator_insert/delete/update.cpp (collection), operator_write_data.cpp 47-118 | What a statement selects (a function); one dispatcher; collections exist from the start; replay of the log; reads of the catalogue by another thread while it changes |
| Nest | list_column_data.cpp, array_column_data.cpp and struct_column_data.cpp (create, initialize_scan, initialize_scan_with_offset, scan_count, append, fetch_row), the plain column below them, vector_t::slice and flatten, vector_ops::copy for nested types | segments and blocks (a column's rows are one list), updates, filters, skip, revert_append, struct fields left out of a scan, constant vectors, several row groups; plain values are numbers; sizes do not wrap |
| Ddl | dispatcher.cpp execute_plan, execute_plan_finish, wal_success, check_namespace_exists, check_collectction_exists, update_catalog; memory_storage.cpp create and drop of databases and collections, execute_plan_impl; the catalogue's sets of namespaces and collections | documents and computed schemas (Exec, DSch), declared columns, statements on several collections, errors of the executor, the disk (Crash); addresses of contexts are not used again; messages between two actors keep their order |
| Cre | gram.y names and kinds of types, bounds, names of tables; transform_table.cpp; utils.hpp get_logical_type, rangevar_to_collection | options of columns, lengths and precisions of characters and times, modifiers that are not constants, elements other than columns in detail |
| Cix | transform_index.cpp, transform_database.cpp, gram.y CREATE INDEX, DATABASE, IF EXISTS; columns and names through Cre | collations, operator classes, directions, access methods and storage options of indexes; options of CREATE DATABASE |
| TId | table_id.cpp | memory that runs out; hashing of ids |
| Cur | cursor.cpp, the cursor and text functions of integration/c/main.cpp | the contents of documents (Doc, Tape), handles given out and their release, more than 2^31 calls; the sizes of std::string and std::pmr::string are taken to be 32 and 40 bytes |
| Py | integration/python/sql/convert.cpp to_document, build_index, build_primitive, from_document | conditions and aggregates of the Python interface, floating point numbers and base64 (parameters), the order of fields, words of the tape (Tape) |
| Pyf | integration/python/sql/convert.cpp parse_find_condition_, normalize; compare_expression.cpp get_compare_type; simple_predicate.cpp check_impl | a single comparison of a field (parameter, see Query), numbers of parameters, groups and sorting of the Python interface |
| Pyu | integration/python/sql/wrapper_collection.cpp update_one and update_many, the loop of operator_update over the expressions | document_t::update and the sum of two values (parameters, see Set), paths as names, upserts |
| Idn | keyword.cpp ScanKeywordLookup, the words of kwlist.h, scansup.cpp, pg_utf_mblen, the rules of scan.l for words and quoted names | the rest of the scanner and the grammar, names with Unicode escapes, what follows from a keyword |
| Crash | the messages between dispatcher, executor, log, manager_disk and disk agent for databases, collections, inserts, deletes and updates; crashes and restarts (dispatcher.cpp, executor.cpp, memory_storage.cpp, manager_disk.cpp, disk.cpp) | tables with schemas, indexes, sessions of several statements, what is inside the files (Wal, Meta, Bt) |
| Oid | components/oid, document_id | concurrent generation |
| Tape, JsonPtr, Doc, DocPack | components/document: tape, element, json_trie_node, containers, document.cpp (set, remove, move, copy, `$set`-like update of a field), msgpack encoder | floating point, JSON parser, to_json, upsert documents |
| Query, Join, Group | components/physical_plan/collection: scans, match, predicates, insert, delete, join, group, sort, aggregates | floating point, regular expressions, updates by expression |
| Index | components/index: single_field_index, index_engine, index_scan | floating point keys, index on disk |
| Phys, LVal, Fixed | physical_value, logical_value, fixed_point | avg, floating point arithmetic |
| Lock, Wrap | core/spinlock; integration/cpp wrapper_dispatcher, session_blocker, session ids | the scheduler of actor-zeta |
| Gap, Block, Seg, SegCut, Bt | core/b_plus_tree: block, segment_tree, b_plus_tree | memory pressure, string bounds in segment metadata (string_storage), concurrent readers |
| Valid, Indexing | components/vector: validation, indexing_vector | |
| Tbl | components/physical_plan/table: check_expr, operator_match, operator_join; data_chunk, vector value access | nested types |
| Version, RowDel, RowGrp, Upd, StrSeg, VSeg, Alias | components/table: row_version_manager, row_group, collection, data_table, column_data, column_segment (numbers, strings, NULLs), update_segment; insert, delete and update of tables | nested columns, strings in updates, checkpoints, compression, statistics |
| Trie, CSchema, Cat, SDiff, Tx | components/catalog: versioned trie, computed schema, namespaces and tables, schema diffs, transactions | |
| Glob | core/file: glob | directories |

Not modelled at all: SQL parser and transformer, dispatcher routing and the planner (except the plans cited in the
files), Python and C bindings, Arrow conversion, networking, memory management.

## Where the code and the properties disagree

Each item is proved by the theorems named; the guard under which the property does hold is in the
theorems of the same property that end in `_partial` or carry no suffix.

* **C01** Write-ahead log records round-trip. Round trip proved for every payload below 65536 bytes. The clause that longer records are not accepted silently is false in the code: refuted for every payload whose length is a multiple of 65536. (`C01_long_record_refuted`)
* **C04** A crash in the middle of a write loses nothing written before it, and the log stays usable. Holds for cuts at record boundaries and for reading back complete records; false for torn records (two refutations, one for every log). (`C04_torn_after_length_refuted`, `C04_append_after_torn_byte_refuted`)
* **C06** The list of databases and collections survives a restart. Exact characterisation: round trip iff names avoid the separators; the unrestricted claim is false. (`C06_separator_in_name_refuted`)
* **C07** Creating and dropping databases and collections behaves like a map of sets. Catalogue operations refine a map of sets for all sequences; dropping a database with two or more collections through the storage layer is undefined behaviour. (`C07_drop_database_refuted`)
* **C08** The persisted recovery point is the last one written. Restart reads the last recorded point, also after a crash before the truncation; a second read through the same handle is wrong. The clause about applied operations is part of C09. (`C08_second_read_refuted`)
* **C09** Acknowledged changes survive a crash. Every sequence of statements (create database, create and drop collection, insert, delete without limit), steps of the actors and crashes within an explicit guard runs without error, always can come to rest, and then shows the effect of all answered statements in their order, with possibly some that were sent and not answered. The guard leaves out: updates (the changed document is lost by a restart), dropped databases (they are back), statements before the first database is on the disk (lost), a collection created or dropped together with other statements on it behind the recovery point (lost, undone, or a freed collection is used), a crash between two documents of one insert (the rest is lost), deletes with a limit (a second document is deleted), a crash while the log is replayed (later records are lost), and a collection in a database that does not exist (answered with success, not there); each has a counterexample. (`C09_update_refuted`, `C09_drop_database_refuted`, `C09_first_database_refuted`, `C09_create_insert_refuted`, `C09_create_drop_refuted`, `C09_drop_create_refuted`, `C09_batch_refuted`, `C09_limit_refuted`, `C09_second_crash_refuted`, `C09_dangling_refuted`, `C09_missing_database_refuted`)
* **C10** Binary document encoding round-trips. round trip of documents of any depth proved from the tape to bytes and back to a tape, integers coming back as 64 bit ones. Floating point numbers not modelled. Refuted: 128 bit integers make the bytes unreadable; a non-negative integer of 2^57 comes back unreadable; the integer type is not kept. (`C10_hugeint_refuted`, `C10_large_refuted`, `C10_type_refuted`)
* **C100** The schema of a collection is that of its documents. Proved for every interleaving of inserts of new documents and scanning deletes in which no delete is finished while the log has another one to write and no schema change throws. The code violates the rest: removed types are kept in one variable for all sessions, and updates, inserts from queries, deletes by index and replaced documents do not reach the schema as they should. (`C100_two_deletes_refuted`, `C100_lost_refuted`, `C100_select_refuted`, `C100_update_refuted`, `C100_index_refuted`, `C100_replace_refuted`, `C100_throw_refuted`)
* **C101** Nested columns give back the values stored in them. Proved for all nested types, batches, start rows, scan sizes and row ids. Missing: arrays of fixed size that have to be copied. vector_ops::copy takes the number of elements of an array from complex_logical_type::size(), which is 0 for arrays, so copying a vector of arrays copies no element: lists of arrays that are not in order cannot be appended, rows with arrays inside lists or arrays lose them when fetched by id, and copied chunks lose theirs. Updates, filters, skipped vectors (C70) and segments in blocks are not part of this model. (`C101_order_refuted`, `C101_fetch_refuted`, `C101_copy_refuted`)
* **C102** Statements of several sessions on databases and collections are answered as if executed one after the other. Proved for all interleavings and all numbers of sessions when no statement is sent while one that creates or drops the same database or collection is unanswered, collections are created in databases that are there, and databases are dropped when they have no collections. Refuted otherwise: two sessions creating the same collection are both told they created it; two sessions dropping the same collection make collections_.at throw in the dispatcher; a collection dropped while a statement on it waits for the executor is used after it was freed; a collection created in a database that does not exist is answered with success, is kept in memory and never enters the catalogue. (`C102_race_refuted`, `C102_twice_refuted`, `C102_dangling_refuted`, `C102_nowhere_refuted`)
* **C103** CREATE TABLE declares the columns written, DROP names the same collection. Proved for columns with at most one written bound and names of one to four parts. Refuted otherwise: DECIMAL(300,2) becomes DECIMAL(44,2) and scales above the width are accepted; int[2][3] becomes an array of 2, int[] an array of 2^64-1, an array of an unknown type is accepted; a table constraint is read as a column definition (undefined), a type called pg_catalog is read past its end, a type "numeric" in quotes has no width, a qualified type name is judged by its first part; names of five parts create the collection with the empty name; DROP TABLE a, b drops only a. (`C103_decimal_refuted`, `C103_bounds_refuted`, `C103_elements_refuted`, `C103_objects_refuted`)
* **C104** Statements on databases, tables and indexes reach the dispatcher as written. Proved for statements without options, names of two to four parts for indexes and columns as in C103. Refuted otherwise: the plan does not carry UNIQUE, the condition of a partial index, IF EXISTS or IF NOT EXISTS, so no dispatcher can tell the two forms apart; an index of an expression makes a key of a null pointer (undefined); tables created without a database name cannot be indexed; CREATE INDEX without a name is refused. (`C104_options_refuted`, `C104_indexes_refuted`)
* **C105** Names of collections and ids of tables in the catalogue stand for each other. Proved: the name comes back exactly where there is neither uid nor schema or the schema is called like the database; ids are distinct; texts are read back for ids with a namespace, without dots and with a name. Refuted otherwise: schema and database are exchanged; an id without namespace, an empty name or a dot is read back as another id; the empty text is undefined. (`C105_back_refuted`, `C105_text_refuted`)
* **C106** The C interface hands over each result once, in order, and its texts unchanged. Proved for cursors of documents and all sequences of calls; texts are handed over unchanged exactly when they are shorter than 32 (messages, ids) or 40 bytes (strings) and have no zero byte. Refuted otherwise: the buffer has the size of the string object, longer texts are written past its end; a cursor of table rows says there is a next document and throws when asked for it. (`C106_text_refuted`, `C106_rows_refuted`)
* **C107** A document given by a Python program is given back to it. Proved for dictionaries of any depth with string keys, without None, with integers of 64 bits. Refuted otherwise: None stores no value but keeps the position of the next one, so the field reads as the key or value built next, or past the end of the tape; an integer of more than 64 bits ends the process (exception in a noexcept function); a key that is a number throws. (`C107_none_refuted`, `C107_numbers_refuted`)
* **C108** A condition given by a Python program selects the documents it describes. Proved for conditions nested to any depth where $not is not outermost, $or outermost stands alone, dictionaries under $or and $not are single conditions, and no name is an operator behind its first character. Refuted otherwise: an outermost $not is dropped; an outermost $or beside other fields becomes and; several fields under $or are joined by or; $not looks at its first condition only; a field such as seq is taken for an operator. Making the expression always ends. (`C108_not_refuted`, `C108_or_beside_refuted`, `C108_several_refuted`, `C108_names_refuted`)
* **C109** An update given by a Python program changes the fields it names as it says, and no others. Proved for $set and $inc with single values, for every order of the hash tables; what document_t::update leaves of a field is a parameter (C84 is about it). Refuted: other operators, and dictionaries without operators, are taken and change nothing; lists and dictionaries as values are read through a null pointer. (`C109_ignored_refuted`, `C109_nested_refuted`)
* **C11** Scalars stored in a document keep their type and value. Proved for every scalar whose tag is not damaged; refuted for uint64 >= 2^56 and for narrow signed integers and floats, which are stored with uninitialised bytes. (`C11_uint64_refuted`, `C11_uninitialised_refuted`)
* **C110** Keywords of SQL are known in any case, and names are the words of the statement. Proved for all words, with the table of the 476 keywords of kwlist.h; names of up to 63 bytes are kept whole. Refuted for longer ones: only the first 60 to 63 bytes count, without an error, so different names become one. (`C110_long_refuted`)
* **C12** Typed reads never return a different number. Exact characterisation: outside the set wraps the read is exact or an error, inside it another number is returned. Reads of floating point elements as integers are not modelled. (`C12_wraps_refuted`)
* **C14** Setting a field makes it readable and leaves the others alone. set, remove and move proved on the graph of nodes for names and for indexes up to the size of their array. Refuted: an index past the end appends and the pointer then reads nothing; an index of 2^32 or more overwrites another element; a text used as an index is element 0; a failed move loses the value; the empty pointer throws. (`C14_past_end_refuted`, `C14_wide_index_refuted`, `C14_text_index_refuted`, `C14_move_refuted`, `C14_whole_refuted`)
* **C15** Copies of a document are independent. proved for values and for objects whose fields are all values, for every later series of changes. Refuted: nested objects are shared with the original; copying a non-empty array is undefined. (`C15_nested_refuted`, `C15_array_refuted`)
* **C16** Update operators take effect. proved for fields of the kind of the value and missing fields when the value is not the default. Refuted: 0, false and the empty text are not stored in a missing field or in one of another type; NULL is ignored; a change is reported though nothing was set. (`C16_default_refuted`, `C16_other_type_refuted`, `C16_null_refuted`, `C16_reported_refuted`)
* **C19** Document joins compute the relational join. Document joins compute the relational join when the sides share no field names with incompatible shapes and a full join has a non-empty right side. Refuted: full join with an empty right side, padding that overwrites shared fields, nested padding. (`C19_full_empty_refuted`, `C19_left_shared_refuted`, `C19_full_nested_refuted`, `C19_nested_refuted`)
* **C20** Table joins compute the relational join. Inner joins without NULLs, up to 1024 rows, are proved. Left, right, full and cross joins return no rows at all (cardinality never set), write padding rows before a match, and read missing rows (right); more than 1024 pairs are written out of bounds; NULL becomes zero. (`C20_outer_refuted`, `C20_padding_refuted`, `C20_right_refuted`, `C20_capacity_refuted`, `C20_null_refuted`)
* **C21** Grouping partitions the input. Document grouping. Exact for keys without nested values and with integers of one signedness per key. Refuted: signed and unsigned 1 are in two groups; a nested key value drops the document. Tables not covered. (`C21_sign_refuted`, `C21_nested_refuted`)
* **C22** Sorting orders by the keys. Document sort; std::sort is taken by its contract. The comparison is a strict weak order equal to the lexicographic order when the keys are comparable. Refuted for strings mixed with numbers. Tables not covered. (`C22_mixed_refuted`, `C22_range_refuted`)
* **C23** Glob patterns match what they say. Full equivalence for the only call form in the code (question mark allowed). With the flag off '?' starts a bracket expression; no caller does that. (`C23_question_mark_off_refuted`)
* **C24** Primary keys stay unique. Refuted: two documents with one id in a batch are both reported as inserted, the first is overwritten. Key renaming of the insert is not modelled. (`C24_repeat_refuted`)
* **C25** Index lookups agree with a scan. Lookup equals scan, in key order, with limits, for keys with a consistent order; refuted for NULL keys. Floating point keys are not modelled. (`C25_null_refuted`)
* **C26** Indexes follow the data through inserts and deletes. Exact when the deleted row is the oldest with its key; entry counts are right for every history. Refuted for duplicates: removal is by key only. (`C26_wrong_entry_refuted`, `C26_absent_refuted`)
* **C27** Creating and dropping indexes is consistent. Names for every history; ids of live indexes; keys when no two live indexes share them. Refuted for ids of dropped indexes and for indexes on the same keys. (`C27_dropped_id_refuted`, `C27_unknown_id_refuted`, `C27_same_keys_refuted`)
* **C28** A storage block is a sorted multimap. Proved for all histories of appends, removals and removals by key from an empty block, with lookups, bounds, layout and reading back. Refuted for removing an item that is not stored under a key that is: it reports success and miscounts. (`C28_remove_refuted`)
* **C29** Splitting a full block loses nothing. Exact description for all blocks: nothing is lost when the estimate of free space is right (always when all items take at most a quarter of the block), otherwise exactly the new item is lost. Two kinds of wrong estimates refute the property. (`C29_window_refuted`, `C29_half_refuted`)
* **C31** Disk space of segments never overlaps. Holds for all histories when a failed allocation stops (assert); a release build hands out the same range twice once space is exhausted. (`C31_exhausted_refuted`)
* **C32** Leaf file ids are unique. No two leaves in use share a file id after any calls that return, with restarts while no id has become free. Refuted: after a merge and a restart the ids that became free are forgotten and the next split takes an id in use. (`C32_refuted`)
* **C33** Namespace catalogue behaves like a set of paths. Exact when only namespaces with nothing below are dropped, and for every history without a throw; after dropping an inner namespace an unrelated creation can throw, children listings go wrong, and every drop of a leaf reads a freed node. (`C33_drop_refuted`, `C33_orphan_refuted`, `C33_half_refuted`, `C33_children_refuted`, `C33_has_child_refuted`)
* **C34** Computed schemas track field types by reference count. Counts per field and kind are exact for every history that completes; the code violates the rest: dropping the last value frees a node in use, appends next to a dropped longer field throw, types of one kind are not told apart, and the struct of latest types misses fields. (`C34_last_drop_refuted`, `C34_absent_refuted`, `C34_sibling_refuted`, `C34_stale_refuted`, `C34_struct_refuted`, `C34_nested_refuted`)
* **C35** Schema change sets apply atomically and keep columns distinct. Exact description of the resulting columns proved for all lists of changes that follow the guard `tidy` (names as they then are, rename first, fresh names, plain types); outside it the code gives wrong schemas or undefined behaviour, shown by the refutations. Two added columns always share id 0. (`C35_second_refuted`, `C35_extended_refuted`, `C35_name_lost_refuted`, `C35_stale_refuted`, `C35_ids_refuted`, `C35_swap_refuted`, `C35_old_name_refuted`, `C35_lost_refuted`, `C35_ignored_refuted`)
* **C36** Metadata transactions are all-or-nothing. All-or-nothing, rollback and finality proved for all interleaved histories without exceptions and with savepoint names used once and in order; a failed commit changes nothing and a finished transaction does nothing, in all histories. Refuted: commit of an invalid schema, exception when the namespace is gone and false success after it, lost changes of concurrent transactions, re-used and discarded savepoints. (`C36_invalid_refuted`, `C36_throw_refuted`, `C36_concurrent_refuted`, `C36_reused_refuted`, `C36_discarded_refuted`)
* **C38** Cleaning old row versions changes nothing visible. Holds for observers started after the bound unless only the first row of a vector is young: the loop in chunk_vector_info::cleanup skips row 0, so an uncommitted row becomes visible. (`C38_first_row_refuted`, `C38_bound_refuted`)
* **C39** Concurrent deletes of one row conflict. The second deleter always gets the error and no unlisted row changes; listed rows before the conflict stay marked, and a delete mark survives the revert of its row. (`C39_unchanged_refuted`, `C39_stale_mark_refuted`)
* **C41** Updates of a column are read back. Every completed sequence of inserts, deletes and updates (each call naming a row once) reads back by scan (each vector into a new chunk) and fetch as the last values written; an update with increasing ids completes unless it goes beyond the updated rows of the same 1024. Refuted: an update after all updated rows of a vector is undefined behaviour; a repeated id may keep the first value; reading with a condition uses old values and misses rows. Strings inside updates are not modelled. (`C41_tail_refuted`, `C41_repeat_refuted`, `C41_condition_refuted`)
* **C42** Strings in a column read back unchanged. Proved for every sequence of appends, any block size from 32 bytes and any number of segments, at the level of bytes: all strings below the limit (a quarter of a block, at most 4096 bytes) and the NULLs not directly after a long string are read back, one by one and by scans. Against the code: a string from the limit on is never read back (the marker is written as 4+4 bytes and read as 8+4, and the overflow block is not used), and reading a NULL after one can leave the memory of the segment. (`C42_long_refuted`, `C42_null_refuted`)
* **C43** NULL masks behave as sets of positions. Set, clear, test, copy, slice and copy through an index vector proved for all masks; set_valid, count_valid on a partial word, set_all_invalid without an array, slice_in_place from an all-valid source at an unaligned position, and combine with a shorter mask are refuted. (`C43_set_valid_refuted`, `C43_count_valid_refuted`, `C43_set_all_invalid_refuted`, `C43_set_all_invalid_revives_refuted`, `C43_slice_in_place_refuted`, `C43_slice_shares_refuted`, `C43_combine_refuted`)
* **C45** Value ordering is a strict weak order. Strict weak order by meaning where no integer is rounded by a conversion to floating point; refuted for large integers mixed with floats and for NaN. (`C45_equality_refuted`, `C45_transitive_refuted`, `C45_nan_refuted`)
* **C46** Decimal arithmetic is exact or fails. Multiplication and division are exact or an error for all inputs. Sums are formed before the overflow test and rescaling overflows in comparison, so those hold only inside the range; the 128-bit text of zero is empty. (`C46_overflow_not_reported_refuted`, `C46_text_128_refuted`)
* **C49** Each client gets the answer to its own request. Proved for any number of threads and any interleaving as long as an answer is fetched before the next one of its kind arrives; otherwise answers are swapped, a null pointer is followed, or a call waits for ever (refutations). (`C49_swapped_refuted`, `C49_hang_refuted`, `C49_load_refuted`)
* **C50** Logged statements are read back as the same statement. For every statement without null pointers the statement read back is given exactly; it is the same one if and only if its form satisfies kept (numbers become 64 bit ones as in C10). Lost or changed: the condition of a join, the columns of a created table, the second collection of a DELETE, a parameter used as an argument of an expression, unsigned and negative positions, schema and unique identifier of a collection. An update with a unary operator dereferences a null pointer and an insert of table rows throws while the record is written. Floating point parameters and documents are outside the model. (`C50_join_condition_refuted`, `C50_columns_refuted`, `C50_using_refuted`, `C50_argument_refuted`, `C50_position_refuted`, `C50_schema_refuted`, `C50_unary_refuted`, `C50_rows_refuted`)
* **C51** A crash while the catalogue file is rewritten leaves the old or the new catalogue. False when the new text is shorter than the old one. (`C51_rewrite_shorter_refuted`)
* **C52** Generated document ids are unique. Distinct within any 2^24 consecutive ids; the 24-bit counter repeats within one second after 2^24 ids. Concurrent generation is not modelled. (`C52_ids_repeat_refuted`)
* **C53** Upgrading a shared lock lets no writer in between. Refuted: the upgrade gives up the shared lock first and another writer can run in between. Nothing positive is claimed. (`C53_upgrade_lets_writer_in_refuted`)
* **C54** Removing an item that is not stored changes nothing. Refuted: removing an absent item whose key lies within the bounds of a block answers true and lowers the item count; removing one of several items of a key that spans two blocks lowers the key count. (`C54_absent_refuted`, `C54_unique_refuted`)
* **C55** Flushing a segment file and loading it again gives the same blocks. Proved when every block is loaded or the file has no hole; refuted otherwise: closing holes moves the place of an unloaded block without moving its bytes. (`C55_unloaded_block_lost_refuted`)
* **C56** Deleting table rows removes exactly the listed rows. Scans return exactly the undeleted rows after any sequence of calls, and deleting distinct live rows always succeeds. Refuted: failed calls keep partial effects, lists that return to a vector conflict with themselves, 1025 copies overflow a buffer, calculate_size looks at the first vector only. (`C56_repeat_refuted`, `C56_failed_refuted`, `C56_overflow_refuted`, `C56_size_refuted`)
* **C57** Numbers compare by value whatever their integer type. Proved for all pairs of integer types up to 64 bits outside the refuted cases; large unsigned against signed, boolean against signed, 128-bit, timestamps and string against number are refuted. Floating point is not modelled. (`C57_mixed_refuted`, `C57_cycle_refuted`, `C57_bool_refuted`, `C57_huge_refuted`, `C57_timestamps_refuted`, `C57_string_number_refuted`)
* **C58** Table aggregates are the mathematical ones. sum proved for 32/64-bit columns without overflow, min/max for columns without NULL; narrow sums throw, overflow is undefined, NULL counts as zero. avg and floating point are not modelled. (`C58_narrow_sum_refuted`, `C58_overflow_refuted`, `C58_min_null_refuted`)
* **C59** Arithmetic in table updates is exact or reported. Exact for operands of one integer type when the result fits; division by zero or NULL is undefined behaviour, mixed types throw, NULL acts as zero. (`C59_divide_refuted`, `C59_mixed_refuted`, `C59_null_refuted`)
* **C60** Comparison predicates mean what they say. Exact when both values exist, are of one kind, and integers fit the type of the field. Refuted: a string equals every number, a missing field satisfies >, a nested value equals everything, a parameter out of range makes the query throw or wraps around. Floats and regular expressions are not modelled. (`C60_kinds_refuted`, `C60_missing_refuted`, `C60_nested_refuted`, `C60_range_refuted`, `C60_wrap_refuted`)
* **C62** Document aggregates are exact. Exact under guards. Refuted: max with a missing or NULL field, sum with a NULL after a number (process ends), sum of an absent field (undefined), sum of three booleans, average over documents without the field. Floating point values not modelled. (`C62_max_missing_refuted`, `C62_sum_null_refuted`, `C62_sum_missing_refuted`, `C62_sum_bool_refuted`, `C62_avg_missing_refuted`, `C62_sum_range_refuted`)
* **C63** Merging two storage blocks keeps the items of both. Proved when the keys of the merged block are not below the own ones (the only case the segment tree uses); refuted for smaller and for interleaved keys. (`C63_smaller_refuted`, `C63_between_refuted`)
* **C65** A segment tree is a collection of items by key. Proved for items of at most a quarter of a block, removals of stored items, removals of keys before the first reload. Refuted: larger items can be lost by a split while append answers true; after a reload, lookups and remove_index of a key in two blocks follow a null pointer. Memory pressure and the storage of string bounds are not modelled. (`C65_lost_refuted`, `C65_reload_refuted`)
* **C66** Dividing, balancing and joining leaves loses and doubles nothing. Proved for trees in which no key is stored in two blocks and NULL is no key; the files are right if all blocks changed since they were last written. Refuted: a block that had been written and is cut by a split keeps its old contents in the file, so after a restart the moved items are there twice; a key that reaches over two blocks ends up in both leaves; NULL as a key moves everything to the new leaf with wrong counters. (`C66_saved_refuted`, `C66_shared_refuted`, `C66_null_refuted`)
* **C68** Generated session ids are distinct. Distinct when made one after another; two threads at the same time get the same id. (`C68_refuted`)
* **C69** Table conditions accept exactly the rows for which they are true. Conditions with parameters of the column's kind on rows without NULLs are proved, of any nesting. Refuted: all_true is false, comparison of two columns ignores the second, NULL is zero, unreadable parameters end the process, results over 1024 rows are out of bounds, timestamps throw, joins on different integer types throw. (`C69_all_true_refuted`, `C69_columns_refuted`, `C69_null_refuted`, `C69_null_row_refuted`, `C69_sign_refuted`, `C69_capacity_refuted`, `C69_timestamp_refuted`, `C69_types_refuted`)
* **C70** A scan of a table returns every live row that satisfies the condition. The table scan, each vector into a new chunk, returns exactly the live rows for every history; SELECT does for tables of at most 1024 rows. Refuted: SELECT returns at most the first 1024 rows, a condition that no row of the first group satisfies reads outside the list of segments, fetch returns deleted rows, groups larger than 1024 rows shift rows after a deleted vector. Scans with one chunk for all vectors: see C77. (`C70_first_vector_refuted`, `C70_condition_refuted`, `C70_below_refuted`, `C70_fetch_refuted`, `C70_skip_refuted`)
* **C71** A DELETE statement removes exactly the matching table rows and reports their number. Holds with a condition, or after an earlier delete, for tables of at most 1024 rows. Refuted: DELETE without condition on a table without deleted rows removes row 0 and reports all rows; matching rows after the first 1024 stay. (`C71_all_refuted`, `C71_later_rows_refuted`)
* **C72** An INSERT into a table returns the rows inserted. Refuted when the rows cross a row group boundary: only the rows of the last group are returned. (`C72_output_refuted`)
* **C73** An UPDATE statement changes exactly the matching table rows. Holds for tables of at most 1024 rows not updated before, with a condition or after an earlier delete, whichever columns the result of the scan shares with the table. Refuted: UPDATE without a condition on a table without deleted rows records an update of row 0 only, with the new value of some row; other rows change only in the columns whose memory the scan shares (numbers, not strings). A second UPDATE of a later row is undefined behaviour. (`C73_all_refuted`, `C73_second_refuted`)
* **C74** The catalogue keeps the tables of each namespace. Exact for every history in which no namespace call throws; refutations: two tables of one name, wrong error for renaming a missing table, listing without computing tables, format of a missing namespace throws. (`C74_both_refuted`, `C74_rename_refuted`, `C74_list_refuted`, `C74_format_refuted`)
* **C75** A column can be looked up whatever was looked up before. Holds while every lookup asks for a column that is there; after one failed lookup all later ones fail because the error is kept in a mutable member. (`C75_sticky_refuted`)
* **C76** NULLs come back exactly where they were inserted. Appends and scans over any segments and offsets return exactly the NULLs. Refuted: rows after the ones asked for may be marked (only where the column has a NULL), a copying scan keeps marks already in the vector, a revert at a row that is not a multiple of 8 brings NULLs back or writes behind the segment (revert_append is not called by statements). Updates of the column are in C41/C73. (`C76_after_refuted`, `C76_stale_refuted`, `C76_unaligned_refuted`, `C76_revert_refuted`, `C76_revert_outside_refuted`)
* **C77** Reading a table does not change it, and what was read is independent of it. Scans into new vectors return the rows with updates and write nothing else. Refuted: one chunk for all row groups (collection_t::scan) overwrites each group of numbers with the next, reads strings at the positions left by a group with deleted rows and then misses updates; writing to a result changes the table. (`C77_reuse_refuted`, `C77_strings_refuted`, `C77_updates_refuted`, `C77_result_refuted`)
* **C78** The B+-tree on disk answers like a dictionary. Proved for every history of one item per index that removes only what is there, with capacities from 12 on (the code uses 128), over restarts. Refuted: removing an absent index from a tree with inner nodes leaves a leaf locked for ever; a second item under an index may be put in the wrong half of a split root; capacities below 12. Leaves are ordered lists of entries here (their blocks are in C65). (`C78_lock_refuted`, `C78_split_refuted`, `C78_small_refuted`)
* **C79** A collection created anew starts empty. Proved for dropping the collection. When its database is dropped and created again, the collection has its old documents: drop_database leaves the collections in place and create_collection keeps what is there. (`C79_database_refuted`)
* **C80** ORDER BY on a table returns its rows in the order asked for. Proved for keys given by position, on tables without NULLs, for a sort that leaves every row before those the comparison says it precedes. Refuted: keys given by name, the only ones the planner makes, are compared the other way around (ASC returns the largest first); the comparison says that a row precedes itself, which std::sort does not allow; NULLs come back as zeros; a table with a timestamp column throws. (`C80_reversed_refuted`, `C80_contract_refuted`, `C80_null_refuted`, `C80_timestamp_refuted`)
* **C81** GROUP BY on a table makes one row per combination of keys. Groups, keys, count, sum, min and max are proved for non-empty tables without NULLs, one aggregate of each kind, sums without overflow. Refuted: the names asked for are ignored; a NULL key is grouped with zero; two aggregates of one kind, or a key with the name of an aggregate, read past the end of the row; a timestamp column throws; COUNT over an empty table gives no row. Averages are not modelled. (`C81_name_refuted`, `C81_null_refuted`, `C81_twice_refuted`, `C81_key_name_refuted`, `C81_timestamp_refuted`, `C81_empty_refuted`)
* **C82** A WHERE clause accepts exactly the documents of which it is true. Proved end to end, from the tree of the parser to the documents scanned, for comparisons of a column with a constant or another column under AND, OR, NOT and parentheses of any depth. Refuted: a constant on the left is not mirrored (5 < age is age < 5); NOT NOT c is NOT c; a sum or a constant in parentheses is compared as NULL; a cast is a boolean, true only when spelled 't'; = NULL, 1 = 1, a bare column and IS NULL read a node as another type; the 65537th constant takes the value of the first. (`C82_mirror_refuted`, `C82_double_not_refuted`, `C82_computed_refuted`, `C82_cast_refuted`, `C82_misread_refuted`, `C82_many_refuted`)
* **C83** A SELECT returns the rows the statement asks for. Proved for SELECT * with WHERE and ORDER BY, for lists of columns on which the documents differ, and for count per group. Refuted: equal rows are returned once without DISTINCT; documents without a column are dropped; DISTINCT, GROUP BY, HAVING, LIMIT and OFFSET are ignored; a second collection in FROM is ignored; SELECT *, c returns only c; no FROM and count(*) are undefined; constants throw; sum(t.x) sums the field t; other functions vanish; count over nothing has no row; ORDER BY a column not listed does not sort. (`C83_duplicates_refuted`, `C83_missing_refuted`, `C83_ignored_refuted`, `C83_from_refuted`, `C83_star_and_more_refuted`, `C83_undefined_refuted`, `C83_constant_refuted`, `C83_path_refuted`, `C83_function_refuted`, `C83_no_documents_refuted`, `C83_order_refuted`)
* **C84** UPDATE stores the values of its expressions, and nothing else changes. Proved for columns, integers, strings, TRUE and FALSE and the five operations on signed integers without overflow, with conditions as in C82 and a full scan. Refuted: SET a = b, b = a does not exchange; 0, '' and FALSE are not stored in a document without the field; NULL literals are undefined and NULL columns not copied; a column a document lacks is undefined or counts as 0, depending on the documents before; unary operators and = are undefined, comparisons are shifts, || is a cube root; every cast is a truth value; division by zero and overflow are undefined, mixed types end the process; with FROM a document is updated once per match, the table named in the condition is ignored, and an unqualified column is looked up only once. (`C84_exchange_refuted`, `C84_default_refuted`, `C84_null_refuted`, `C84_missing_refuted`, `C84_operator_refuted`, `C84_cast_refuted`, `C84_error_refuted`, `C84_several_refuted`, `C84_sides_refuted`, `C84_side_kept_refuted`)
* **C85** INSERT adds exactly the rows it lists or selects. Proved for rows of integers, strings, TRUE and FALSE with the text of a new id in _id, and for SELECTs of columns the found documents have, _id for _id, with ids new in the target. Refuted: rows without _id, or with anything but 24 hexadecimal digits there, all get the id of zeros and only the last stays; a known id makes the whole statement store nothing without an error; VALUES without a list of columns or with more values than columns is undefined, missing values are not noticed; expressions and negative numbers are stored as NULL, casts as a truth value, NULL is undefined; INSERT ... SELECT * ignores the list of columns and makes the two collections share the documents; a SELECT without _id leaves one row; aggregates are not counted as columns. (`C85_no_id_refuted`, `C85_bad_id_refuted`, `C85_known_id_refuted`, `C85_columns_refuted`, `C85_expression_refuted`, `C85_star_refuted`, `C85_shared_refuted`, `C85_select_no_id_refuted`, `C85_aggregate_refuted`)
* **C86** DELETE removes exactly the documents its condition is true of. Proved for conditions as in C82, and with USING for comparisons that have the column of the target on the left. Refuted: USING without WHERE deletes everything even when the other collection is empty; the table a column is written with is ignored; of several tables after USING only the first is read; a constant on the left of an inequality is read mirrored and the wrong documents are deleted. (`C86_using_all_refuted`, `C86_sides_refuted`, `C86_several_refuted`, `C86_mirrored_refuted`)
* **C87** The JSON text of a document means the document. Proved for documents of any depth with integers that fit in 32 bits and strings without quotation marks, backslashes and control characters, up to the width of integers. Refuted: every wider integer is written as another number; 128 bit integers are written as a word; strings are not escaped, so that a string can bring further fields into the document read back; types of integers are not kept; text that is not an object is undefined behaviour. Floating point numbers are not modelled. (`C87_wide_refuted`, `C87_huge_refuted`, `C87_quote_refuted`, `C87_backslash_refuted`, `C87_control_refuted`, `C87_types_refuted`, `C87_array_refuted`)
* **C88** An index on disk finds exactly the documents it holds. Proved for integer keys of 64 bits with one id per key, for any number of calls and restarts. Refuted: an entry that was removed as the last one is there again after a restart, because an empty tree is not written; with 128 keys a second id under the middle key is stored and not found. That the files of the leaves hold the leaves is assumed here (C30, C65, C66). (`C88_emptied_refuted`, `C88_second_refuted`)
* **C89** A query through an index on disk returns the documents of the collection. Proved for collections whose index was created when they were empty, documents with different int64 keys, and deletes of documents that were inserted after the last query or found by it. Refuted: of the documents present when the index is created no query finds any, because the message with their keys is not handled; after a query, deleting any document it did not find erases the end iterator of the multimap, which is undefined behaviour. (`C89_created_refuted`, `C89_delete_refuted`)
* **C90** Memory of the buffer manager keeps what was written. Proved for all limits and legal histories: what is read is right, and every call is answered but for pinning memory again after its last unpin; with room for all pieces every call is answered. Refuted: memory that is not pinned is evicted and destroyed even when it must not be (can_unload does not look at destroy_condition_, and there are no temporary files); pinning it again takes the size of a buffer that is not there. (`C90_evicted_refuted`)
* **C91** The buffer manager keeps its memory limit. Proved with a slack of 32768 bytes, the part of the count that the cache of the thread may hold. Refuted without it: three pieces of 1000 bytes are granted under a limit of 1000 bytes; after memory was given back a request that fits is refused. (`C91_limit_refuted`, `C91_refused_refuted`)
* **C92** The indexes of a collection are those created on it and not dropped, also after a restart. Proved for all sequences in which an index is not given the name of an index of another collection and a collection is not dropped when one of its name, in any database, had an index since the last start. Refuted otherwise: CREATE INDEX with the name of an index of another collection is refused but leaves an index in the collection, empty, not on disk and gone after a restart; dropping a collection that has or had an index reads the collection after it was freed; dropping a collection drops on disk the indexes of the collections of that name in other databases, which are gone after a restart, and creating one again before is undefined. (`C92_shared_name_refuted`, `C92_drop_refuted`, `C92_other_database_refuted`)
* **C93** The file of index definitions holds each index once. Proved without restart and crash; C93_restarts says what k restarts leave. Refuted otherwise: each restart writes all definitions again; a crash between the two writes of a definition makes every later start undefined; a crash while an index is dropped, after the file was truncated, loses the definitions of all the others. (`C93_restart_refuted`, `C93_crash_create_refuted`, `C93_crash_drop_refuted`)
* **C94** A vector shows the same values whatever its form. Proved for values, constants and sequences under any uses, except parts of a sequence before it is written out and rows from an offset of a constant of more than 1024 rows. Refuted otherwise: a row selected from a sequence is read from a buffer that is none (get_sequence of the dictionary); copying more than 1024 numbers of a sequence, or a constant from an offset past 1024, leaves an array of 1024; reference(value) keeps the NULLs the vector had, seen once it is written out; NULL set through a selection is not read back. (`C94_sequence_refuted`, `C94_sequence_copy_refuted`, `C94_constant_offset_refuted`, `C94_null_refuted`, `C94_write_refuted`)
* **C95** Chunks of rows are independent tables. Proved for all histories of making, choosing, writing out, appending and copying in which nothing is appended to a chunk after rows were chosen from it. Refuted otherwise: flatten allocates as many rows as there are while the capacity stays, so a later append writes past the memory; append with growth releases memory that chunks referring to it still read; reset takes the capacity to be 1024 although the columns are smaller. (`C95_flatten_append_refuted`, `C95_reference_refuted`, `C95_reset_refuted`)
* **C96** The rows of an INSERT into a table reach its plan. Proved for up to 1024 rows. Refuted for every table of more: the chunk of the operator has the default capacity of 1024 rows and the copy writes past it. (`C96_refuted`)
* **C97** An index on a column of a table does not change what queries return. Proved when the index is created before the first row, its table is filled by one INSERT of at most 1024 rows and not updated, and each DELETE takes all rows with a key or none (without an index: for all histories). Refuted otherwise. INSERT reads the key of the index at the row id instead of the row of its chunk (operator_insert.cpp 20-22): after the first INSERT the keys are 0, and past 1024 rows the read is out of bounds. An index created on a table with rows stays empty (create_index.cpp 39 fills it from the documents), so queries find nothing and a DELETE erases the end of the multimap. DELETE removes any entry with the key (single_field_index.cpp 42-44) and the scan of the index does not look at deletions, so a deleted row is returned and a live one lost. UPDATE stores the position in the scan as row id (operator_update.cpp 134). (`C97_insert_refuted`, `C97_insert_case_refuted`, `C97_full_refuted`, `C97_created_later_refuted`, `C97_delete_refuted`, `C97_update_refuted`)
* **C98** Each statement is answered exactly once, after its operators ran, children first. Proved for statements in sessions of their own, on collections that are not dropped, whose parts wait in the collection they are suspended in; C98_ends: a finite number of answers of the disk ends all statements. Refuted otherwise. The plan of CREATE INDEX and DROP INDEX is never erased (executor.cpp 208-212), so the next statement of the session runs the old plan instead: it does nothing and is never answered. On a dropped collection the error is answered and the erased plan is then looked up with at() (executor.cpp 225-228), an exception. INSERT INTO a SELECT FROM b through an index on disk of b is suspended in a and looked for in b (session.hpp 62-65 dereferences end). (`C98_after_index_refuted`, `C98_dropped_refuted`, `C98_insert_select_refuted`)
* **C99** What a statement changed is sent to the disk, once. Proved for statements whose root is in a part that does not wait for an index on disk. Refuted for all others: index_find_finish (create_index.cpp 81-99) resumes the plan and goes on to the answer without remove_documents or write_documents, so a DELETE or UPDATE through an index on disk is answered and is gone after a restart. (`C99_refuted`)

Seen while reading, not proved:

* A limit is applied by the scan that reads the documents, before grouping and sorting (create_plan_aggregate.cpp); without a condition the scan has no limit.
* The agents of indexes on disk are kept by index name only (manager_disk.cpp 292-327): the same index name in two collections is refused as existing.
* A torn or damaged log record is handed to the dispatcher as valid with no data (services/dispatcher/dispatcher.cpp 179-245).
* `last_crc32_` is not restored when a log is opened again.
* `btree_t::flush` returns early for an empty tree (b_plus_tree.cpp 745-747): a tree that was emptied comes back after a restart.
* Indexes are not in the log. When a collection with an index on disk is dropped, the recovery point is moved before the collection is removed (services/disk/manager_disk.cpp 262-289).
* An insert that has the same id twice: memory keeps the last document, the disk and a restart the first.
* `write_documents` is sent a data chunk for tables, its handler takes documents; schemas of tables are not restored (dispatcher.cpp 167-175 creates computing tables only).
* `operator<` of `collection_full_name_t` is not a strict weak order.
* `create_pmr_string_` prints a double in a buffer of 24 characters; a negative number with 17 digits and an exponent of three needs 25 with the end mark (document.cpp 880-916). Doubles without a fraction are printed without a point and come back as integers.
* `scan` of a B+-tree with limit 0 keeps a shared lock (b_plus_tree.hpp 283-285, 340-342).
* `file_buffer_t::reallocate_buffer` copies `size_` bytes of the internal buffer, so that the last 8 bytes of a buffer with a header are lost when it grows (file_buffer.cpp 47-57; `reallocate` has no callers).
* `purge_aged_blocks_internal` unloads a block and then looks at its age (no callers).
* `vector_t(other, offset, count)` passes the count as the end of the interval (vector.cpp 58-63); the chunk's `copy` leaves its row ids behind (data_chunk.cpp 68-77).
* `size` of a collection that does not exist is answered and then sent on all the same, where `at()` throws (services/dispatcher/dispatcher.cpp 473-492, memory_storage.cpp 141).
* `drop_database` erases the name of the database and leaves its collections (memory_storage.cpp 224-233).
* A cursor over a table has a size but no documents: `next_document` throws where `has_next` says yes (cursor.cpp 71-83).
