# Design of the formal model of karmaresearch/trident

Everything is in Rocq/Coq 8.16.1 under `rocq/theories` (logical name `Verif`).

## Layout

For each subsystem `X`:

* `XModel.v`   computable model of the C++ functions, no proofs.  Every definition
  cites the file and lines in `/repo` it models and says where it simplifies.
* `XSpec.v` (when the specification is not just a list operation) the independent
  specification, written without the model's helpers.
* `XProofs.v`  lemmas.
* `XProps.v`   only the final theorems (`Theorem ... exact lemma.`), each followed by
  `Print Assumptions`, and `Example`s showing that concrete, non-trivial data
  meets the hypotheses.

Naming: `_refuted` = the code violates the full property, witness proved by
computation; the neighbouring theorem then states the exact precondition under which
the property holds.  `_partial` = weaker than the English property; the missing part is
written above the theorem.

## Trusted base

* Coq's kernel (and `vm_compute` inside it) and `coqchk`.
* The reading of the C++ code: the code is not executed; each definition is tied to the
  source only by its citation comment.
* Behaviour of code outside `/repo`: the Kognac library (`Utils::decode_longFixedBytes`,
  `encode_long`, `encode_vlong2`, `numBytesFixedLength`, ...), LZ4, the C++ standard library
  (`std::sort` sorts, `std::map`/`std::set` are finite maps/sets), the operating
  system (`mmap`, file sizes).  The byte codecs are modelled in `Codec.v` from their use
  in `/repo` and their documented format.
* Axioms: none intended (no `Axiom`, `Parameter`, section-less `Variable`); `Print
  Assumptions` is printed for each property theorem.

## Plan per property

| id | what is modelled | how it is proved |
|----|------------------|------------------|
| C01 | `Querier::getIndex` over signed pattern values and `nindices` | case analysis on signs |
| C02 | `getOrder`, `getInvOrder`, `getPermuted` tables | finite case analysis on permutations, all triples |
| C03 | `ArrayItr` state machine (init, binarySearch, hasNext, next, moveto) | binary-search invariant, induction on the array |
| C04 | `RmItr` over two arbitrary iterators given by their operations | induction on both streams |
| C05 | `CompositeItr`, `CompositeScanItr` over arbitrary children | invariant on the multiset of heads, induction on total length |
| C06 | `Querier::getIterator` building the tree of iterators over the list of updates | induction on the history, using C04 and C05 |
| C07 | `Updater::match` | induction on both sorted streams |
| C08 | `Updater::compressUpdate` | invariant on the scan; the delete case is refuted and re-stated |
| C09 | `getCard_internal`, `getCardOnIndex` | refutation plus exact condition |
| C10-C12 | inserters and readers of row/cluster/column tables over byte lists | round trip by induction; binary search invariant |
| C13,C14 | strategy bit fields, dispatch, `determineStrategy` | bit-level case analysis, arithmetic |
| C15 | field readers/writers | arithmetic; 5-byte sign extension refuted |
| C16 | `TableStorage` append/marks/getTable over files as byte lists | invariant over appended tables |
| C17,C18 | B+tree in memory: nodes with step/delta key representation, split, routing, iteration | refinement to a finite map |
| C19 | `Node::serialize`/`unserialize` | round trip; step >= 128 and re-serialisation refuted |
| C20-C22 | string buffer blocks, prefix sharing, close/open | invariant over the history; block-multiple close refuted |
| C67 | `Updater::match` and the overlay of updates, one after the other | composition of C07 and C06, induction on the requests |
| C66 | the two threads of a string buffer, small steps | inductive invariant; two lost wake-ups refute termination |
| C23 | leaf coordinate lines | codec round trip |
| C24 | the flat tree: writing from the tree and the .idx files, lookup, iteration | invariant of the writing loops; composition with C70 |
| C25-C27 | record codec, byte comparison, permutation rewriting, chunking, padding | arithmetic, list partition |
| C28 | `parallel_for` range computation | arithmetic induction; `begin > 0` refuted |
| C29 | `MemoryManager` as a state machine | invariant |
| C30 | `JoinPlan::prepare`, `HashJoinItr::execJoin` with the flat value vector and maps | invariant of the map, induction over the children; natural join as the specification; projections refuted in general |
| C31 | `TupleTable`: sortBy, merge, retain, join, hits, dense/sparse, iterator | loop invariants over sorted lists; natural join as the specification; join/retain refuted in general |
| C32 | `AggregateHandler` | fold induction; SUM/AVG counts and DISTINCT refuted |
| C33 | `escape_json` and a JSON string reader | induction |
| C34 | `CacheIdx`, `CacheItr`: storing, searching, sessions of the iterator | invariant of a session (blocks have all pairs of their keys) and of the cache; lower bound of a sorted list |
| C35 | `CompositeTermItr`, `RmCompositeTermItr` | induction on streams |
| C36 | `columnNotIn*` | induction; early-stop duplicate refuted |
| C37,C38 | `FilterSameItr`, `newItrOnReverse`, `ReOrderItr` | induction |
| C39,C40,C42 | `moveto`, `mark/reset`, `ignoreSecondColumn` on the table readers; C42 also for CompositeItr, RmItr and the overlay of updates | same models as C10-C12; the merge of tallies by induction over the merged rows |
| C41 | `NodeManager::put` shifting | invariant over writes |
| C43 | `DiffIndex3`: row and column formats, six permutations, lookups, scan, size | the writer produces the layout of C10/C12 (invariant of the column writer); induction over the keys; composition with C06 |
| C44 | dictionaries, update dictionaries store/load | bijection invariant; blanks refuted |
| C68 | composition of C44, C08, C07 and C06 over a sequence of requests | invariant relating textual and numeric contents |
| C69 | effects of an update in order, and opening after each prefix | case analysis; two crash points refuted |
| C70 | composition of C27, C47, C17 and the tables with the merging of coordinates, TermItr, ScanItr, ReOrderItr | invariants of the merger and of the scans; uniqueness of sorted lists |
| C72 | `DomainDescription`: the filter words, candidates, restriction, synchronisation | bit-level lemmas, induction on the ways to build a description |
| C73 | `IndexScan` with its hints over `TridentScan`, and the iterators of a loaded database | invariant of the scan over a contract for iterators that can seek; composition with C70 |
| C74 | getIterator over the loaded database with the files of the updates | composition of C70, C43 and C06; image of a history under a pattern and a permutation |
| C75 | the predicates of Selection.cpp, the operator, and how a FILTER becomes a predicate (strings, numbers in texts, the remembered values) | induction over the filter; invariant: what is remembered is right; a separate semantics of filters over terms |
| C76 | plans, their translation to operators (CodeGen), index scans, aggregated scans and scans that skip two columns as operators, and the plans that PlanGen can build for patterns | induction over the plan; invariant: the rows, weighted by any function of the registers, sum up to those of the solutions; join of solution lists |
| C77 | the plan generator: bit sets, addPlan, scans, edges, the table of dynamic programming; comparisons of costs are parameters | invariant over the sizes: every size has a problem, every problem a plan, every plan covers the bits of its problem; pigeonhole for the products; composed with C76 |
| C78 | the edges of the query graph for all kinds of parts and the numbers that the plan generator gives to the parts | offsets of the kinds by induction over their lists; refuted with VALUES |
| C79 | C74's iterators under the index scans of C73, the operators and the plan generator (C76, C77) | an iterator that is only asked for next rows never seeks, so it serves scans; the rest composes |
| C80 | `AggModel`: AggregatedIndexScan, its hints, TridentScan with AGGR_SKIP_LAST; the iterators of the loaded database with the second column ignored | tables count (C42); arrays and ScanItr by invariants; the operator's own hints never move the iterator |
| C81 | `FullModel`: TermItr with its counts, ReOrderTermItr, Querier::getTermList, TridentScan with AGGR_SKIP_2LAST, FullyAggregatedIndexScan::Scan | the positions in the .idx files (C70) and the numbers in the tree give a list of terms (contract of C35); the operator by induction on the list; updates by C71 |
| C82 | `FiltModel`: translateFilter with its special cases, the variables and registers of filters, the filters that PlanGen puts on top of a plan; `PushModel`: isApplicable, buildFilters (the filters above each scan), findFilters (the filters that remain for the top) | the invariant of C76 (rows of a plan are the rows of the solutions) with the solutions that the filters keep; one step for each filter by C64 (Filter) or C75 (Selection), after the renaming of variables to registers; for filters above scans the induction over the joins again (`PushProofs`, `PushProofs2`), with the solutions that the filters of the scans keep |
| C83 | `DistModel`: HashGroupify as the root of the plan, the variables of ORDER BY, the printer for reduced duplicates | the rows of the plan below are those of the kept solutions (C82); grouping by all bindings gives each combination once (C62_hash_group); the projected registers are the grouped ones, in another order and possibly repeated; the loop of the printer by induction |
| C84 | translateQuery of `PushModel` with rp_text and rp_silent of `OpModel` | composition of C82 with C63; equal numbers of occurrences make the printed list a permutation of the projected solutions |
| C85 | `OrdModel`: the variables of ORDER BY are requested with the projected ones, Sort on their registers, the printer | the rows below Sort are those of the kept solutions (C82); their values are terms of the triples, so that C62_sort applies; registers are renamed to variables; C63 for the printer |
| C45, C51 | file manager over the memory manager | invariant over all call histories |
| C46 | growable file | invariant |
| C47-C50 | parallel loading pipeline, utilities, queue | invariants over all schedules |
| C52-C54 | edge interface of the SPARQL layer | induction; off-by-one and two-key cases refuted |
| C55, C58-C64 | SPARQL operators as coinductive objects over registers | one contract (`Rows`) that composes; invariants per operator |
| C56, C57, C65 | hash and merge join, with and without optional sides | the same contract; table invariant, state machine invariant |

What cannot be expressed in this model: real memory safety, actual thread interleavings of the
loader's worker threads (modelled as their deterministic effect), LZ4 bit streams, HTTP
server, machine-learning code, the choice of plans by the RDF3X-derived optimiser (its operators are modelled), performance.

## What is modelled and what was found

Each entry lists the modelled code, the simplifications and the places where the code does
not have the property (each is a `_refuted` theorem unless marked "not modelled").

### Index choice and query overlay (`QueryModel`, `ItrModel`, `ArrayModel`)
`querier.cpp` getIndex/getOrder/getInvOrder/getPermuted/getIterator, `rmitr`, `compositeitr`,
`compositescanitr`, `arrayitr`, `emptyitr`.
* An `ArrayItr` opened with constraints no pair meets may deliver pairs that do not match.
* `RmItr::hasNext` calls `getCount` on its main iterator, which throws for `ArrayItr`.

### Binary tables (`TableModel`, `ColumnModel`)
`newrowtable(inserter)`, `newclustertable(inserter)`, `newcolumntable(inserter)`, readers in
`binarytablereaders.h`.  Memory is a list of bytes; reading outside it is a failure.  Table
positions are offsets.  The column writer's temporary files are lists.
Tables are proved against a contract (`TableSpec.Table`) that covers hasNext, next, getCount,
moveto, mark, reset and ignoreSecondColumn.
* 5-byte fields from 2^39 on are read back negative (C15).
* Row table opened with two values reads one row past its end (C10).
* Row table, second column ignored: moveto to the current value loses its count (C39).
* Cluster table: getCardinality on a fresh cursor disturbs the cursor (C11); opened with two
  values and the second column ignored it delivers nothing (C11).
* Column table opened with a first value and then moved inside it delivers a pair of the
  next group (C12); the cardinality for an absent first value is that of the table (C12);
  values from 2^56 on do not survive (C12).

### Table strategies (`StrategyModel`)
`storagestrat.cpp` getBinaryTable, getBinaryTableInserter, getStrategy (new layouts),
determineStrategy, the fixed strategies; `querier.cpp` 646-687 (opening of a table).  Statistics,
determineStrategyOld and the three old layouts (only named as `IOld`) are not modelled.
* `getStrategy` uses the first width for both columns (C13).
* Aggregated row bytes with a first width other than 5 have a writer but no reader (C13).
* Values from 2^39 on are read back negative (C14).
* `setCompr2` in `storagestrat.h` clears the bit of the first column (old layouts; not modelled).

### Files and table storage (`FileModel`)
`filedescriptor.cpp` (append*, reserveBytes, overwriteAt, shiftFile), `tableshandler.cpp`
(startAppend, append, stopAppend, stopInsert, storeFileIndex, getTable).  A mapped file is a list
of bytes with a used size; writing outside the list is a failure.  The FileManager's opening and
closing of descriptors is left out here, as it does not change the content.
* `appendVLong2` makes room for 8 bytes but may write 10 (C46).
* A file with only empty tables is removed and its tables cannot be opened (C16).
* A `TableStorage` opened for writing on a directory with more than one file indexes
  `marksToStore` out of bounds (not modelled).

### Building the tables of a permutation (`InserterModel`)
`inserter.cpp` (all of Inserter except the tree itself), `loader.cpp` Loader::insert,
`storagestrat.cpp` determineAggregatedStrategy.  The writer of the open table collects its pairs
and its bytes are written at stopAppend.  Theorems are for input that is not aggregated.

### Parallel loading (`PipeModel`)
`loader.cpp` parallelmerge and the consumer loop of Loader::insert as a two-thread transition
system: buffers, the exchange queue, both condition variables (with lost and spurious wake-ups),
`notify_one` as a step of its own.  Memory is sequentially consistent; the merger is the list it
delivers; what the consumer does with an item is its appearance in the output.

### Utilities (`UtilModel`, `ConcModel`)
`parallel.h` parallel_for, sort_int, ConcurrentQueue; `memorymgr.h`; `json.cpp` escape_json and
JSON::write.  Loops that may not end have fuel and fail when it runs out.
* `parallel_for` ignores `begin` when it cuts ranges (C28).
* `MemoryManager::add` loops forever when every slot is used and the bytes still fit (C29).
* The maximum of the memory manager can be exceeded by the size of the last block (C29_add).
* `ParallelTasks::inplace_merge` and `merge` are not called and not modelled.

### File sessions (`SessModel`)
`filemanager.h` load_file, getBuffer with and without a session, newSession, closeSession, over
the memory manager of `UtilModel`; a file is its tracker identifier.  One thread, one manager per
tracker, tracker not null.  No other code in the repository calls newSession: tables and nodes
are read without a session and are not pinned.
* load_file drops a file from its list when all listed files are locked, and keeps counting it;
  later an assertion fails although only one file is open (C51).  With an empty list its loop
  does not end.

### Column difference (`NotInModel`)
`newcolumntable.cpp` columnNotIn and its four variants (they differ only in the distance between
values), over tables written by the column writer of `ColumnModel`.
* With the early stop a value found by the merge is written twice (C36).
* Empty columns are read outside their memory: both columns must be non-empty.
* No code in the repository calls it.

### Edge interface (`EdgeModel`)
`querier.h` sameVar, getEdgeItr, edg_*, countEdges, grp_*, cnt_grp_*, pos_*, EdgeItr, KeyCardItr and
its classes; `filtersameitr.h`.  Querier::getIterator and getCard are parameters: the theorems
assume (`serves`, `counts`) that they deliver and count the matching triples.  A reference engine
over a list shows that the assumptions can be met for every database.
* FilterSameItr compares positions of the index while sameVar gives positions of the pattern: with
  an index other than SPO the wrong values are compared (C37_index_refuted).
* A variable at all three positions is checked at two only (C37_three_refuted).
* FilterSameItr::init does not clear its flags: a used object returns nothing (C37_reuse_refuted),
  the flags of a new object are uninitialised.
* countEdges passes variables such as -2 on as constants (C37_count_refuted).
* grp_* read their keys from the first columns of the index and not of the pattern
  (C53_one_key_refuted, C53_number_refuted); with two constant keys the first is overwritten and
  the second never set (C53_two_constants_refuted).
* pos_* read the edge before the one asked for (C54_pos_refuted).

### Counting answers (`CardModel`)
`querier.cpp` getCard_internal, getCard with its memo table, getCardOnIndex, getCard with a position,
exists, isEmpty; `querier.h` getInputSize.  The tree, the updates and the iterators are parameters;
`engine_of` says what they must tell: tree entries count base triples, updates count theirs,
iterators count the current answers for patterns whose constants come first.  `ref_engine` builds
such an engine for every database and history.
* After a deletion getCard of a pattern with one constant adds the deleted triples instead of
  subtracting them (C09_delete_refuted; C09_delete_error gives the exact error).  getCardOnIndex
  subtracts and is right (C09_on_index).
* With three permutations, or for a skipped table, getCard asks the tree for a table that is not
  stored and returns 0 (C09_three_permutations_refuted, C09_skipped_refuted).
* getCard remembers answers in a static table that updates do not clear (C09_memo_refuted).
* isEmpty of all variables looks at the size before deletions (C09_isEmpty_refuted).
* The number of distinct values of an all-variable pattern is refused although the grouping
  counters of the edge interface ask for it (C09_distinct_refuted).

### Aggregates (`AggrModel`)
`aggrhandler.cpp` (everything except GROUP_CONCAT and SAMPLE, which throw) and the operator
`rdf3x/src/rts/AggrFunctions.cpp`.  Decimals are exact rationals, integers unbounded; reading a
number out of a dictionary text is not modelled (rows carry classified values).
* SUM and AVG ignore the count of a row (C32_sum_refuted, C32_avg_refuted).
* The average of integers is truncated (C32_avg_int_refuted).
* A term that is not a number adds the decimal last seen (C32_symbol_refuted).
* DISTINCT remembers across groups and across variables (C32_distinct_refuted,
  C32_distinct_shared_refuted).
* Negative integer results are stored so that they read as decimals (C32_register_refuted); decimal
  results are stored as plain integers (the coded value is computed and dropped).

### SPARQL operators (`OpModel`, specification `OpSpec`)
`rdf3x/src/rts`: SingletonScan, EmptyScan, ValuesScan, NestedLoopJoin, CartProd, Union, MergeUnion, Minus, Filter,
NestedLoopFilter, DuplLimit, GroupBy, Sort, HashGroupify, and which rows ResultsPrinter outputs.  An operator is an object with
first and next over the shared registers (`oper`, coinductive).  `Rows` is the contract: which rows, how often,
which registers are written; the consumer may change all other registers between calls.  Every theorem takes
inputs that meet the contract and gives an operator that meets it, so they compose to whole plans.
`Restarts` is the contract of an operator that can be run again.  Simplified: the scheduler hints, the observed
cardinalities (where not read), the memory of the tables; loops have fuel larger than their inputs.
* ValuesScan stops after n values instead of n rows: every VALUES block with k >= 2 variables and n >= 2 rows
  returns only ceil(n/k) rows (C61_values_refuted).
* MINUS without shared variables divides by zero (C60_no_shared_variable_refuted).
* A product whose right side is optional and empty leaves the right variables of the first row as they were
  (C58_optional_refuted).
* Unbound is the number 2^32-1 in Union, a possible term (C59_unbound_refuted); other operators use 2^64-1.
* MergeUnion (never planned) returns a value twice if both inputs have it and the left one ends
  (C59_merge_union_refuted).
* Sort: numbers and texts in one variable are not ordered (C62_sort_mixed_refuted); after a lookup of an IRI the last two bytes of
  texts are not compared (C62_sort_iri_refuted); ordering by count reads out of bounds (C62_sort_count_refuted).
* GroupBy does not clear its table when it is run again (C62_group_restart_refuted); the same holds for CartProd,
  DuplLimit and ValuesScan (not stated as theorems).
* LIMIT 0 prints one row (C63_limit_zero_refuted); the limit of the JSON output counts repeated rows once
  (C63_json_refuted).
* Not modelled: ORDER BY an unbound variable dereferences a null pointer in CodeGen; selections added after an optional join
  drop rows with unbound variables.

### Hash join (`OpHashModel`)
`rdf3x/src/rts/HashJoin.cpp`: the doubling table with two hash functions and chains, first and next, both optional
sides.  The domain filter is a predicate `qualify` on the left rows (`C56_domains`: it changes nothing if it only rejects
values without partner).  Memory is a bound `mem` on the number of slots of the table.
* Two keys that collide under both hash functions double the table until they do not: 5, 2^60+5, 2^61+5 (coded integers)
  exhaust any real memory (C56_memory_refuted).
* Optional left side: the register of the left join variable of a row without partner keeps an old value
  (C65_hash_variable_refuted).
* Optional right side: only one left row per join value without partner is returned, with a stale join value
  (C65_hash_right_optional_refuted); none if the right side is empty (C65_hash_empty_right_refuted).

### Merge join (`OpMergeModel`)
`rdf3x/src/rts/MergeJoin.cpp`: all 19 states.  The invariant (`Inv` in `OpMergeProofs2`) gives for each state the rows
still to come; three states are unreachable for sorted inputs.  Without optional sides the rows are the join as a list, in
order.  With both sides optional nothing is proved.
* If the optional side repeats a join value, the following row of the other side is lost when it has no partner
  (C65_merge_repeated_left_refuted, C65_merge_repeated_right_refuted): LoopEqualLeft goes on with ScanStepRight, which
  drops the row in the shadow.
* The end of the optional side is marked with the value 2^32-1; against larger values, e.g. coded integers, the join does
  not end (C65_merge_large_refuted).

### B+tree (`TreeModel`, `TreeImageModel`; specifications `TreeSpec`, `TreeImageSpec`)
`tree/node.cpp`, `leaf.cpp`, `intermediatenode.cpp`, `root.cpp`, `treeitr.cpp`, `coordinates.h`: numeric keys with the three key
representations (single, consecutive with a step, array), splits of leaves and intermediate nodes, routing by averages, iteration
over siblings; values are numbers or term coordinates.  The tree is a value, not a graph of pointers: the parent and
sibling pointers are computed from the position, the cache of nodes is not modelled.  `TreeImageModel` is the bytes of
a node; `C17_disk_partial` composes the two: looking up a key by reading every node on the path from its image gives the
same answer as the tree in memory.  Text keys are not modelled.
* Keys are averaged with (a+b)/2 in 64 bits: two coded integers (from 2^62 on) overflow and are routed to the wrong child
  (C17_large_keys_refuted).
* An odd capacity of nodes loses a key in a split (C17_odd_capacity_refuted); the default is 2048.
* Putting coordinates for a key that exists does not replace them: a permutation that the new coordinates leave out is
  kept (C17_coordinates_refuted).
* Iteration starts at key 0: negative keys are not delivered, and the iterator can loop (C18_negative_keys_refuted).
* The step is one signed byte in the image: two keys 128 to 255 apart are read back wrong (C19_step_refuted).
* A node that is read back with a step and then receives a key loses its keys (C19_change_after_load_refuted); a leaf object
  that is used again keeps the step of its earlier use (C19_reused_leaf_refuted).
* The image buffer has a fixed size: 500 terms with six permutations exit (C23_large_leaf_refuted).
* Not stated: Leaf::append does not mark the leaf as modified (leaf.cpp 469, 474).

### String buffer (`StrModel`, `StrCloseModel`; specification `StrSpec`)
`tree/stringbuffer.cpp`, all of it: append with shared prefixes and records over block borders, get and cmp, the cache of blocks
with its eviction list, the compression thread, reading blocks back, the destructor and opening for reading.  Buffers are
numbered memory cells; a freed one cannot be read (`None`).  The thread makes `sched t` steps at the t-th point at which
the main thread looks at shared data, so a theorem for all `sched` is one for all interleavings at this grain.
`StrCloseModel` has the mutexes and condition variables step by step, without the contents.  LZ4 is a hypothesis of the theorems
(`codec`: decompression inverts compression if the buffer is large enough, and fails otherwise); the variable length numbers and
prefix comparisons of the kognac library are modelled after their names.
* The last block is recognised as the last one *compressed so far* (lines 382-385): if the thread lags behind, a block read back is cut
  to the size of the last block (C20_get_with_a_slow_thread_refuted).
* get() of an empty string (or one that is all shared prefix) that ends the buffer at a block end reads a block that does not exist
  (C20_empty_string_at_the_end_of_a_block_refuted).
* A string longer than what is left plus a block overruns the buffer (C20_append_of_a_long_string_refuted).
* A total size that is a multiple of 65536 loses the last block on closing (C22_full_last_block_is_lost_refuted).
* The destructor sets FINISH_THREAD and notifies without the mutex; the thread sets threadRunning and notifies without the other one:
  both wake-ups can be lost, and closing never returns (C66_close_returns_refuted, C66_end_is_noticed_refuted).

### Recording updates (`UpdModel`; specification `UpdSpec`)
`kb/updater.cpp`: match, cmp, compressUpdate with its three passes, the choice of the directory.  The dictionary is a function from
texts to identifiers (C44), std::sort any function that sorts (nothing is assumed about equivalent elements), the parser and the
files of the update are not modelled.  `session` in `UpdSpec` is the loop of creatediffupdate over a sequence of requests.
* In a deletion an unknown text leaves `previd` as it is (lines 199-202, 241-244, 283-286): when the text occurs again in the same position, the later
  triple gets the identifier of the known text before it, and a triple that was not requested is deleted
  (C08_deletion_of_unrequested_triple_refuted).
* Subjects with a NUL byte: strncmp stops at it, equal subjects need not be adjacent, and one text may get two identifiers.
  An empty predicate or object gets the last identifier of the previous pass.  The parser delivers neither; both are hypotheses.

### Dictionary over loading and updates (`DictModel`, `CrashModel`; specification `DictSpec`, `TextSpec`)
`kb/dictmgmt.cpp` (lookups, updates in memory, the file gud), `Updater::writeDict`, the parts of `KB` that open it, and
`Loader::insertDictionary` with one dictionary.  The trees and the string buffer of a layer are association lists and a list of
strings (C17, C20); the coordinates of a string are its index.  Input streams follow the C++ standard (formatted extraction, eofbit,
failbit), without signs and overflow.  `TextSpec.tsession` is the loop of creatediffupdate over textual requests.
* The file of the small updates separates terms with white space and reads them with `operator>>`: a term with a blank (most literals)
  followed by a character that is no digit makes the constructor loop forever (C44_blank_database_cannot_be_opened_refuted); followed by digits
  it is cut in two terms (C44_blank_changes_the_terms_refuted).
* `CrashModel` lists the groups of files of an update in order; a crash inside a group is not modelled.  The terms of a small addition are
  only written by the destructor, after the file ADD: a crash in between leaves triples whose numbers have no text, and the next
  addition reuses the numbers (C69_crash_loses_the_terms_refuted).  Before the file ADD is written the addition counts as a deletion; a query
  for which nothing else is found hits the assertion in querier.cpp 1118 (C69_crash_breaks_queries_refuted).

### Files of an update (`DiffModel`)
`kb/diffindex3.cpp`: packing, sortIndex, storeTablesOnBuffer with the three combinations of row and column form, createDiffIndex for
the six permutations, getIterator, getSize, getCard, and `iterators/diffscanitr.cpp`.  The random choice of shouldUseColumns is an
arbitrary function, std::sort any function that sorts, the files may hold earlier updates.  The tree of keys is a list (C17).
The tables are read by the readers of C10 and C12; `ColumnProofs.col_layout` covers both writers of column tables.
* Pairs are packed in 64 bits and `~0u` (2^32 - 1) means "no pair yet": the pair (0, 2^32 - 1) is not written (C43_last_pair_refuted), and
  identifiers from 2^32 on overflow into the other value (C43_large_ids_refuted).
* The position of a table is kept as a signed short and 16 bits: from 2 GB on it becomes negative (C43_large_file_refuted).
* The blocks reserved for a table suffice for keys with less than 2^24 pairs (C43_room_partial); beyond, a column table of distinct first
  values with 4 byte fields takes 16 n + 14 bytes in a block of 16 n.
* The number of pairs in the header of a column table counts duplicates; only estimates use it.

### Node store (`NodeModel`; specification `NodeSpec`)
`tree/nodemanager.cpp`: put with the shifting of files, get, the idx file, the read-only mode and compressSpace, on the growable files of
`FileModel` (C46).  Closing of a file by the FileManager is an event that may happen at any time.  The pointers previous and next are the
order of a list; storedNodes is searched in the lists.  Signed overflow and accesses outside of an array are failures.
Hypotheses: images have at least one byte, the kind of a node does not change (put does not update `children`), parameters are ints.
* The coordinates in the idx file are indexed by node id: a gap in the ids makes the destructor write outside of its array (C41_gap_refuted).
* A writable store on an existing directory does not load the nodes of the idx file (57-71) and overwrites it when it is closed;
  the program only opens trees writable to create them.  Not modelled.
* The destructor deletes the memory tracker (299) before the FileManager (357), whose file descriptors still use it
  (filedescriptor.cpp 217); this use of freed memory is outside of the model.
* C41_tree_partial composes the store with C17; that the last image written for a node is the one of the final tree (the cache of nodes and
  the state flags) is a hypothesis.

### Sorting the input (`SortModel`; specification `SortSpec`)
`kb/permsorter.cpp`: the records, sortPermutation with `utils/parallel.h` sort_int, sortChunks2 (load, fill, padding, permute, dump, the
rounds) and the division of files among readers and parts; of `kb/loader.cpp` mergeDiskFragments, generateNewPermutation and the
order of the calls in createIndices, without the aggregated and sampled variants.  std::sort and inplace_merge are a sort and a merge of
the model (equal records are the same bytes); threads work on disjoint parts of the array.  The array starts with arbitrary junk.
The readers of Kognac, LZ4 and FileMerger are lists and a merge.
* The free space is filled with records of bytes 1 as if they were the greatest (577-592), and as many records as were read are dumped after
  sorting: a triple above (0x0101010101, 0x0101010101, 0x0101010101) is lost and a filler stored (C27_filler_refuted).
* The part of a reader is i / maxReadingThreads with P / maxReadingThreads parts for each; loader.cpp 1471-1474 only caps the number of
  reading threads, so three threads and two readers ask for a part that does not exist (C27_threads_refuted).
* Permuting to the same permutation falls to the last case and rotates the record (C26_same_refuted); records with a count have eight bytes
  in the third field and five are moved (C26_count_refuted).  The loader does neither.
* In createIndicesInBlocks the positions are not updated after PSO, which is the last permutation.

### A loaded database (`KbModel`; specification `KbSpec`)
`kb/loader.cpp`: the files of coordinates (TreeWriter), CoordinatesMerger, mergeTermCoordinates, the creation of the tree; `iterators/termitr.cpp`,
`iterators/scanitr.cpp`, `iterators/reorderitr.cpp`; `kb/querier.cpp`: getKBTermList, get, getIterator with coordinates and with a pattern.
A database is what `kb_load` makes of the sorted inputs of the permutations: their tables (InserterModel), the tree built from the merged
coordinates (TreeModel) and the table files with at least 16 readable bytes behind them (C10).  The pairs handed from the merging to the
inserting thread are a list.  Left out: aggregated and partial indices, mark and reset of scans, moveto of ReOrderItr, the cached last key.
* A constraint on the last column is ignored if the second is free (querier.cpp 646-687), so getIterator with a permutation in which
  the bound terms do not lead returns too much (C70_leading_refuted).  With a permutation that is computed by ReOrderItr it is correct.
* Scanning a database to which no triple was loaded asks for the list of terms of permutation -3 (C70_empty_refuted).
* TermItr::gotoKey decodes eight bytes for a key of five (termitr.cpp 146); the search may land too early, never too late (goto_ok in
  `KbProofs`); at the end of a file it reads two bytes past it.
* ReOrderItr over updates calls gotoKey of a composite iterator, which throws; not modelled.

### Flat tree (`FlatModel`)
`tree/flatroot.cpp` and `tree/flattreeitr.h`: the records for the three kinds of graphs, loadFlatTree with writeFirstPerm, writeOtherPerm and
rewriteNewColumnStrategy, get and the iterator.  `kb_flat` makes it for a loaded database and uses it in place of the tree.  Bytes of a
record that are not set (there are no elements) are arbitrary junk.  The directory listing is "two files for each number".
* get returns true for every term and does not compare it with the number of records (C24_beyond_refuted); the iterator returns the numbers
  between the terms too (C24_gaps_refuted).
* The position of the last block is read with eight bytes where five are left (C24_end_refuted): three bytes behind the mapping must be readable.
* A database whose SOP permutation has no tables (all skipped or not loaded) makes loadFlatTree throw (C24_no_sop_refuted).
* Counts are cut to 40 bits.  `rewriteNewColumnStrategy` tests for 6 after excluding values above 5.

### Tables of tuples (`TupleModel`; specification `TupleSpec`)
`model/table.cpp` and `table.h`: rows, sortBy, retain, merge, getPosJoins, join, joinHitRates, getDenseSparseForBifocalSampling and the iterator.
The vector of values is cut into rows; std::sort is a parameter that does what the standard promises (`sorts`).  Left out: sortByAll, addAll, clear, the ratio
of joinHitRates (a double).
* join, joinHitRates and the dense/sparse division make sorted copies and then scan the tables themselves: rows are lost if the tables are not sorted
  (C31_join_refuted, C31_dense_sparse_refuted).  Sorting first with sortBy and getPosJoins is enough (C31_sort_join).
* retain leaves its loop when either table is read to its end, with the last row of it not compared: a row of both tables is kept (C31_retain_refuted).
* merge and retain do not clear `empty`: their results say isEmpty() (C31_empty_refuted).
* A signature that names a variable twice loses a column of the other table (C31_join_twice_refuted); joinHitRates leaves `size` unset if there is no
  shared variable (C31_hits_refuted); the dense/sparse division of an empty table throws.
* A table without columns but with a row cannot be sorted (values.at(0) throws), and merge and retain lose the row.

### Hash joins of operators (`HjModel`; specification `HjSpec`)
`sparql/joinplan.cpp` (JoinPlan::prepare) and `sparql/hashjoinitr.cpp`: the plan, the map with its vector of values, the loop over the children and the
iterator over the output.  Simplifications: variable names are numbers, fewer than 256 of them (positions are bytes); the hash map is an association list
whose insert does not replace; the rows are sorted by a std::sort that does what the standard promises; no value is UINT64_MAX (the empty key of the map).
* With projections posVarsToReturn counts the variables of the last child that are not projected, while posVarsToCopy leaves them out: if one of them comes
  before a projected one, the output reads outside of posVarsToCopy (C30_projection_refuted).  If the projected ones come first the output is right
  (C30_projection_partial).
* Children that share no variable, or more than two, with the earlier ones are not joined (assert; C30_shared_refuted).
* A projected variable that no child has is left out without an error; the row is shorter.

### Lists of keys over updates (`TermModel`; specification `TermSpec`)
`iterators/compositetermitr`, `rmcompositetermitr.h`, `difftermitr.cpp`, Querier::getTermList and the number of keys of UpdateStats::setKey.  `Terms l o`
says that an iterator delivers the keys and counts of l, with hasNext and getCount called any number of times.  The C35 theorems are about the two
iterators, the C71 theorems about getTermList and the noted numbers of keys.
* getTermList passes over updates whose getNUniqueKeys is 0.  For an addition this is the number of *new* keys: an addition to keys that are there
  is not counted (C71_counts_refuted).  A later deletion of all triples of such a key is compared with the wrong count, is passed over as well, and the
  key stays in the list (C71_vanished_refuted).  Without deletions the keys are right (C71_additions).
* Deletions are always read from the list of IDX_SPO (querier.cpp 804), also for permutations whose key is not the subject (C71_deletions_refuted).
* DiffTermItr over arrays (DiffIndex1) returns counts that are never set (C71_array_counts_refuted).
* An empty list to remove leaves the key of rmitr unset, which is then compared; C35_removed excludes it (deletions are not empty).
* UpdateStats starts with the key ~0u, 32 bits, if there are no keys; C71_noted has at least one key.

### Domain descriptions (`DomModel`; specification `DomSpec`)
`rdf3x/src/rts/DomainDescription.cpp`: all of it.  Words are integers below 2^64.
* nextCandidate is right for values and minima at least 8192 below 2^64 (identifiers have at most 40 bits); above that the numbers wrap around and the
  answer is smaller than the value asked for (C72_next_top_refuted).

### Index scans with hints (`TsModel`, `TsKbModel`; specification `TsSpec`)
`rdf3x/src/rts/IndexScan.cpp` (the eight kinds of scans, IndexScanHint::next) over TridentScan (`src/layers/TridentLayer.cpp`), opened on the database of C70.
`Seek top l o` is the contract of an iterator that can move forward: after moveto(v1,v2) it is anywhere not behind the first row from (v1,v2) on.  A hint is
what IndexScanHint::next reads: registers and domains, which may change between calls (`hs i`).
* If a domain allows nothing any more, nextCandidate answers UINT64_MAX, which moveto takes as -1: the scan delivers its row again (C73_excluded_refuted).
* Over updates, CompositeScanItr passes moveto to children whose current row is not delivered yet, and rows appear twice (C73_updates_refuted).  RmItr moves
  the deletions to the wanted position of a different key, so that removed rows that are excluded by the hint reappear (not modelled as a theorem).
* A table that was opened with its first value and is moved beyond it delivers garbage (C12_first_moveto_refuted): C73_loaded asks that the hints do not
  exclude the bound second value.  TridentScan::first does not release the iterator of the previous first.
* ReOrderItr passes moveto to the iterator it reorders; permutations computed from SPO are left out.

### The cache of ranges (`CidxModel`; specification `CidxSpec`)
`kb/cacheidx.cpp`, `kb/cacheidx.h` and `iterators/cacheitr.cpp` (init, hasNext, next, gotoFirstTerm, searchBlock, clear).  The querier only releases such
iterators; nothing creates one.  Simplifications: the hash map is a list of entries, std::lower_bound is the partition point, sessions on a key follow each
other, no constraint on the second value (gotoSecondTerm is left out).
* searchBlock looks for {v, 0}: blocks that start at v are smaller, so that for v in the last block the end of the vector is dereferenced
  (C34_last_refuted).
* clear drops a block that starts where a shortened block starts, even if it is longer (C34_lost_refuted); the values are read again.
* The return value of gotoFirstTerm is true for cached keys always, and for key 0 without pairs after init (v1 is 0).

### A loaded database with updates (`UpdKbModel`; specification `UpdKbSpec`)
Querier::getIterator: the iterators of C70, the iterators of the files of the updates (C43) and their overlay (C06), put together.  Updates are of class
DIFF3; the result over updates has no gotoKey (in the code it has if all updates are empty).
* RmItr::hasNext calls getCount for each row it keeps, and ArrayItr::getCount throws without ignoreSecondColumn: a removal makes queries fail that read an
  exchanged table, that is, SOP, OSP and PSO if they are not stored or if the table of the key was left out (C74_removal_refuted).
* ReOrderItr calls gotoKey, which neither CompositeScanItr nor RmItr has: over updates, a permutation that is computed from SPO throws for a bound
  predicate and a free subject (C74_computed_refuted).

### Ignoring the second column (`ItrModel`, `TableModel`; specification `TallySpec`)
`is_tally l g` says what the client should see: one entry per key and first value, in order, each with the number of rows that have it.  Proved for the
tables of the three layouts, for CompositeItr over such tables, for RmItr over them if the column is ignored before the first hasNext, and for the overlay
of a bound key with additions followed by at most one deletion.  Missing: CompositeScanItr, DiffScanItr and AggrItr.
* RmItr compares the counts of the entry it looks at with the count of the *current* entry of the deletions.  If either side has been polled already
  (the client called hasNext before it ignored the column, or the RmItr is below a CompositeItr or another RmItr, which poll it when they are created),
  and the deletions are a clustered table, a deletion of that entry is passed over, and the deleted rows are counted (C42_overlay_tally_refuted,
  C42_polled_removal_refuted).  With row tables the count is right.
* Deletions of absent rows are subtracted (C42_absent_deletion_refuted).  The updater writes no such deletions (C43).
* CompositeScanItr::ignoreSecondColumn erases exhausted children in a loop that then skips the following child, and its fields key and v1 are 0 before
  the first next, so that an entry for key 0 and first value 0 is taken as delivered.

### Filters (`SelModel`; specification `SelSpec`)
`rdf3x/src/rts/Selection.cpp` (all predicates, Result, first and next), buildSelection of `CodeGen.cpp`, encode of `SemanticAnalysis.cpp`, lookup and
lookupById of `TridentLayer.cpp`.  `Truth row f b` is a semantics over the terms of a row without rules for errors; `Supported` is the class for which the
predicate says the same.  Simplifications: doubles are rationals, without exponents, NaN and infinity; the dictionary and printing of doubles are parameters.
* Less loads the text of its right side twice and of its left side never (410-411): if the value of the left id is remembered and the right side is no
  number, the empty string is compared (C75_history_refuted): the same row is kept or dropped depending on the rows before.
* Operators put ~0u for a variable without value; bound compares with ~0ull (C75_bound_refuted), and comparisons with it are not errors
  (C75_unbound_equal_refuted).
* = and != compare ids, so that 1 and 1.0 differ (C75_number_equal_refuted); decimals are compared as texts (C75_decimal_refuted).
* Comparing with a number that no triple has reads an id that was never set (C75_absent_number_refuted).
* Texts are ordered with their closing quote (C75_text_order_refuted).  stoll throws for malformed numbers (C75_malformed_refuted).
* Blank nodes come back as literals (C75_blank_refuted).  datatype is always xsd:string, lang always empty, str of an id compares the id, contains looks for
  the pattern with its quotes (C75_function_refuted); regex is false (C75_regex_refuted).
* Constants with a language or a type other than six are looked up without it; a literal is first looked up as written, so that "<a>" is the IRI; a constant
  that no triple has is compared without its quotes (C75_constant_refuted); ids of constants keep 32 bits (C75_large_id_refuted).
* Numbers kept in ids are compared with the low 62 bits of a negative number (C75_inline_negative_refuted), and with the high half of a float that was put
  into the low half.  Arithmetic reads texts from their quote on, so that every literal of the dictionary counts as 0.

### Query plans (`PlanModel`; specification `PlanSpec`)
`rdf3x/src/cts/CodeGen.cpp` (translateIndexScan, collectVariables, getJoinVariables, mergeBindings, addAdditionalSelections, the joins, translateIntern) and,
as the relation `Planned`, the plans that `PlanGen.cpp` builds for triple patterns.  The specification knows assignments of values to variables only.  The
theorem composes C70 (loading), C73 (scans), C56, C57, C58 (joins) and Selection.  Simplifications: no hints and domains (C72, C73 say what they leave
out), costs and cardinalities are left out and every choice of the planner is allowed, enough memory for hash joins (C56).
* A variable twice in a pattern (?x p ?x) is not checked anywhere: the register of its last slot is taken and all rows are returned (C76_repeated_refuted).
* A join with an OPTIONAL, UNION or subquery gets the selectivity -1, for which a nested loop join is built in place of hash joins; it ignores that a side
  is optional, so that rows without partner are lost, unless a merge join is cheaper (C76_optional_refuted).
* CartProd does not clear its buffer when it is run again, as it is on the right side of a nested loop join: rows are repeated (C76_product_again_refuted).
* PlanGen 1121-1124 collects the orderings of all joins after the first that fits, also of those between other patterns and of BIND, which has ~0u: two plans
  without order are then combined by a merge join on no variable (an assertion in CodeGen).
* constructEdges numbers VALUES after OPTIONAL, UNION and subqueries, PlanGen right after the patterns, so that edges are attached to the wrong parts if a
  query has VALUES and one of the others.
* Plans are allocated in raw memory, and Plan::init assigns to a shared_ptr that was never constructed.

### The plan generator (`PlanGenModel`, `QgModel`; specification `PlanSpec` and `all_used`)
`rdf3x/src/cts/PlanGen.cpp` (addPlan, isUnused, buildScan, buildJoinInfo, translate_int, translate) with `BitSet.hpp`, for groups of triple patterns, and
`rdf3x/src/cts/QueryGraph.cpp` (intersects, constructEdges) for all kinds of parts.  Costs are not modelled: `le`, `ge` and `better`, the comparisons of
the costs of two plans, are arbitrary functions, so that the theorems hold for every estimate.  The estimated selectivity of a join of two patterns is assumed
not to be negative (TridentLayer::getJoinSelectivity multiplies two cardinalities as int64 if sampling is disabled; an overflow could make it negative).
* Queries of more than 64 patterns get no plan (C77_large_refuted); the check does not count VALUES blocks, so that bits are shifted out of the word.
* The numbers of the parts differ between the query graph and the plan generator if there are VALUES: an OPTIONAL loses its edge and is combined by a
  product that does not compare the common variables (C78_values_optional_refuted).
* VALUES blocks are never connected with each other (C78_two_values_refuted).
* isUnused does not look at MINUS, GROUP BY and HAVING: a variable that is used only there is aggregated away.
* Queries over a database with updates (`PlanUpdModel`): after a removal a query that scans PSO, OSP or SOP fails as a whole if that permutation is read from the
  exchanged one (C79_removal_refuted); the generator does not know about updates.
* translateAggregatedIndexScan marks the last slot as unused only for the six ordered variants of an order: for the No_Order variants the register is passed on, and a build with
  assertions stops in AggregatedIndexScan::create (`assert(!object)` and so on).  The default build has none, and the register is not read (C76 covers these plans).
* Aggregated scans (`AggModel`): TridentScan::first with one constant throws if two columns are skipped, so a query with a pattern `<s> ?a ?b` whose variables are
  used nowhere else fails if the planner picks FullyAggregatedIndexScan (C80_constant_and_two_unused_refuted).  ArrayItr::getCount is only right before hasNext is
  called again; the operators call it in that order.
* ReOrderTermItr::getCount returns 1 for every term (include/trident/iterators/reordertermitr.h 69-71).  A database that does not store OPS (or POS) therefore answers
  `select ?o where { ?s ?p ?o }` with each object once, not once for each triple (C81_counts_refuted).
* CodeGen.cpp 146-152 resolves no slot for the No_Order variants of a scan that skips two columns, so its operator would write to a null register.  It is never chosen, because addPlan drops it for the ordered
  variant, which has the same costs; only if these are not a number (getInputSize() * log(getInputSize()) for 0 triples) is it kept.  C77_generated has this comparison as a hypothesis.
* A pattern with a constant and two variables that are used nowhere else makes the whole query throw (C77_constant_refuted, C80_constant_and_two_unused_refuted).
* `FILTER(?x = 1.0)` compares ids (CodeGen.cpp 739-753): a row with the integer 1 is lost (C82_number_refuted).  The same comparison inside NOT, AND or OR goes to Selection.
* SELECT DISTINCT groups by the registers of all bindings, also by those of ORDER BY variables that are not projected: `SELECT DISTINCT ?x ... ORDER BY ?y` prints rows several times (C83_order_refuted).
* DISTINCT with OFFSET: the printer subtracts the number of solutions of a row, so that OFFSET 1 does not drop the first row if that has two solutions (C83_offset_refuted; ResultsPrinter.cpp 355-362).
* The silent printer reports the number of solutions for a DISTINCT query, not the number of rows (C83_silent_refuted; ResultsPrinter.cpp 271-286).
