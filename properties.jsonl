{"id": "C01", "title": "Index choice serves every pattern", "statement": "For every triple pattern (each of subject, predicate, object either bound or free) the permutation the query engine selects lists all bound positions before any free position, so that the answers form one contiguous run of that permutation.", "quantifier": "every triple of signed 64-bit pattern values (negative = free) and every number of stored permutations (1, 2, 3, 4 or 6)", "why_tests_cant": "the claim quantifies over all pattern values and all configurations; a test samples a few", "anchors": ["src/trident/kb/querier.cpp:Querier::getIndex"]}
{"id": "C02", "title": "Triple permutation and un-permutation are mutually inverse", "statement": "Reordering a triple into a permutation and reading its three fields back through the inverse order returns the original subject, predicate and object, for each of the six permutations.", "quantifier": "every triple and every permutation id", "why_tests_cant": "all triples", "anchors": ["src/trident/kb/querier.cpp:Querier::getOrder", "src/trident/kb/querier.cpp:Querier::getInvOrder", "src/trident/kb/querier.cpp:Querier::getPermuted"]}
{"id": "C03", "title": "In-memory pair list iterator", "statement": "An iterator over an in-memory sorted list of pairs with optional constraints on the first and on the second value returns exactly the pairs of the list that satisfy the constraints, in order; moving it to (a,b) makes the next pair the first remaining one that is not smaller than (a,b).", "quantifier": "every sorted list, every constraint value, every move target", "why_tests_cant": "binary search boundary cases over arbitrary list lengths", "anchors": ["src/trident/iterators/arrayitr.cpp:ArrayItr"]}
{"id": "C04", "title": "Deletion iterator is set difference", "statement": "Iterating a main source with a deletion source returns exactly the pairs of the main source that are not in the deletion source, in the original order, each once.", "quantifier": "every pair of sorted sources of any length, and any kind of underlying iterator", "why_tests_cant": "interleavings of two cursors of unbounded length", "anchors": ["src/trident/iterators/rmitr.cpp:RmItr"]}
{"id": "C05", "title": "Union iterator is a sorted merge", "statement": "Iterating the union of any number of sorted sources returns every pair of every source, in sorted order, with the multiplicity given by the sources.", "quantifier": "every number of children, every sorted content, any kind of child", "why_tests_cant": "k-way merge over unbounded children", "anchors": ["src/trident/iterators/compositeitr.cpp:CompositeItr", "src/trident/iterators/compositescanitr.cpp:CompositeScanItr"]}
{"id": "C06", "title": "Queries see the history of updates", "statement": "After any sequence of add and delete updates, asking for the pairs below a key returns exactly the pairs obtained by replaying the updates in order on the stored pairs, sorted and without duplicates.", "quantifier": "every stored table, every finite history of add/delete updates, every key", "why_tests_cant": "all histories", "anchors": ["src/trident/kb/querier.cpp:Querier::getIterator", "src/trident/iterators/rmitr.cpp", "src/trident/iterators/compositeitr.cpp"]}
{"id": "C07", "title": "Update matching keeps exactly the effective triples", "statement": "Given a sorted duplicate-free list of triples, an add update records exactly those that the knowledge base does not contain and a delete update records exactly those it does contain.", "quantifier": "every sorted input list and every sorted knowledge base", "why_tests_cant": "merge of two unbounded sorted streams", "anchors": ["src/trident/kb/updater.cpp:Updater::match"]}
{"id": "C08", "title": "Update term encoding", "statement": "When an update is encoded, every occurrence of the same text receives the same identifier, a known text receives its dictionary identifier, a new text in an add update receives a fresh identifier, and a triple with a text unknown to the dictionary is never part of a delete update.", "quantifier": "every dictionary, every list of textual triples", "why_tests_cant": "depends on the order and repetition pattern of terms", "anchors": ["src/trident/kb/updater.cpp:Updater::compressUpdate"]}
{"id": "C09", "title": "Cardinality after updates", "statement": "The number of answers reported for a pattern equals the number of triples returned by iterating that pattern, also after updates.", "quantifier": "every pattern and every history of updates", "why_tests_cant": "all histories", "anchors": ["src/trident/kb/querier.cpp:Querier::getCard_internal", "src/trident/kb/querier.cpp:Querier::getCardOnIndex"]}
{"id": "C10", "title": "Row table round trip", "statement": "A table written in row layout and opened again returns exactly the pairs that were appended, in order; opened with a first value, or with both, it returns exactly the matching pairs.", "quantifier": "every sorted duplicate-free list of pairs that fit the chosen byte widths, every constraint", "why_tests_cant": "every size on both sides of the binary-search threshold", "anchors": ["src/trident/binarytables/newrowtableinserter.cpp", "include/trident/binarytables/newrowtable.h"]}
{"id": "C11", "title": "Cluster table round trip", "statement": "A table written in cluster layout and opened again returns exactly the pairs that were appended, in order, and the group sizes when the second column is ignored.", "quantifier": "every sorted list of pairs that fit the chosen byte widths, every group structure", "why_tests_cant": "every grouping of values", "anchors": ["src/trident/binarytables/newclustertableinserter.cpp", "include/trident/binarytables/newclustertable.h"]}
{"id": "C12", "title": "Column table round trip", "statement": "A table written in column layout and opened again returns exactly the pairs that were appended, in order; with the second column ignored it returns each distinct first value with its number of pairs; opened with constraints it returns exactly the matching pairs.", "quantifier": "every sorted list of pairs, every constraint", "why_tests_cant": "every grouping and every length of the variable-size header", "anchors": ["src/trident/binarytables/newcolumntableinserter.cpp", "include/trident/binarytables/newcolumntable.h"]}
{"id": "C13", "title": "Storage strategy byte identifies layout and widths", "statement": "The one-byte strategy stored with a table determines the same layout and the same byte widths at read time as were used at write time.", "quantifier": "every layout and every combination of width codes", "why_tests_cant": "the write side and the read side decode the byte independently", "anchors": ["src/trident/binarytables/storagestrat.cpp:StorageStrat::getStrategy", "src/trident/binarytables/storagestrat.cpp:StorageStrat::getBinaryTable", "include/trident/binarytables/storagestrat.h"]}
{"id": "C14", "title": "Chosen widths are large enough", "statement": "For every table the widths selected for the first column, second column and group counters can represent every value in the table, so no value is truncated when written.", "quantifier": "every list of pairs below the 5-byte limit", "why_tests_cant": "all value magnitudes", "anchors": ["src/trident/binarytables/storagestrat.cpp:StorageStrat::determineStrategy"]}
{"id": "C15", "title": "Fixed-width integer fields read back as written", "statement": "Writing a value in a 1, 2, 4, 5 or 8 byte field and reading the field yields the value.", "quantifier": "every value that fits the field", "why_tests_cant": "all 2^40 values of the 5-byte field", "anchors": ["include/trident/binarytables/binarytablereaders.h", "src/trident/binarytables/binarytableinserter.cpp"]}
{"id": "C16", "title": "Table storage returns the bytes of the table", "statement": "After appending any number of tables, possibly spread over many files, opening a table by the file and mark recorded when it was appended returns exactly the bytes written between its start and stop.", "quantifier": "every sequence of appended tables of any size and every file size limit", "why_tests_cant": "roll-over between files depends on accumulated sizes", "anchors": ["src/trident/binarytables/tableshandler.cpp:TableStorage", "include/trident/binarytables/tableshandler.h:FileMarks"]}
{"id": "C17", "title": "B+tree is a map", "statement": "After any sequence of puts of numeric keys, get returns the last value put for the key and reports absence for keys never put.", "quantifier": "every sequence of insertions in any order, every even node capacity >= 4", "why_tests_cant": "all split cascades", "anchors": ["src/trident/tree/root.cpp:Root::put", "src/trident/tree/leaf.cpp:Leaf::put", "src/trident/tree/intermediatenode.cpp:IntermediateNode::put", "src/trident/tree/node.cpp:Node"]}
{"id": "C18", "title": "B+tree iteration is sorted and complete", "statement": "Iterating the tree returns every key put so far exactly once in increasing order with its value.", "quantifier": "every sequence of insertions", "why_tests_cant": "all tree shapes", "anchors": ["src/trident/tree/treeitr.cpp:TreeItr", "src/trident/tree/root.cpp:Root::itr"]}
{"id": "C19", "title": "Tree node image round trip", "statement": "A tree node written to disk and read back has the same keys.", "quantifier": "every strictly increasing list of keys", "why_tests_cant": "depends on arithmetic relations between keys", "anchors": ["src/trident/tree/node.cpp:Node::serialize", "src/trident/tree/node.cpp:Node::unserialize"]}
{"id": "C20", "title": "Appended strings can be read back", "statement": "Every string appended to the string buffer is returned unchanged when read at the position returned by the append, whatever is appended before or after it.", "quantifier": "every sequence of byte strings shorter than a block", "why_tests_cant": "prefix sharing and block straddling depend on the whole history", "anchors": ["src/trident/tree/stringbuffer.cpp:StringBuffer::append", "src/trident/tree/stringbuffer.cpp:StringBuffer::get"]}
{"id": "C21", "title": "String buffer comparison agrees with byte order", "statement": "Comparing a stored string with a given string returns the sign of their lexicographic byte comparison.", "quantifier": "every stored string and probe", "why_tests_cant": "prefix-shared and straddling records", "anchors": ["src/trident/tree/stringbuffer.cpp:StringBuffer::cmp"]}
{"id": "C22", "title": "Closed string buffer is complete", "statement": "Closing a string buffer and opening it again preserves every appended string.", "quantifier": "every sequence of appended strings", "why_tests_cant": "the failure needs a total size that is an exact multiple of the block size", "anchors": ["src/trident/tree/stringbuffer.cpp:StringBuffer::~StringBuffer", "src/trident/tree/stringbuffer.cpp:StringBuffer::uncompressBlock"]}
{"id": "C23", "title": "Term coordinates round trip", "statement": "The per-term table coordinates (number of elements, strategy, file and position for each permutation) written in a tree leaf are read back unchanged.", "quantifier": "every set of permutations and every coordinate within its field", "why_tests_cant": "all combinations of present permutations and field widths", "anchors": ["src/trident/tree/leaf.cpp:Leaf::serialize_values", "src/trident/tree/leaf.cpp:Leaf::parseInternalLine"]}
{"id": "C24", "title": "The flat tree answers like the tree", "statement": "Looking up a term in the flat tree made for a loaded database returns for each permutation the coordinates that the tree has for it (none if it does not have the term), its iterator lists the same coordinates, and patterns are answered the same.", "quantifier": "every loaded database, every term up to the greatest one and every pattern over them", "why_tests_cant": "all databases, gaps between terms and field values", "anchors": ["src/trident/tree/flatroot.cpp:FlatRoot", "include/trident/tree/flattreeitr.h:FlatTreeItr", "src/trident/kb/loader.cpp:Loader::loadKB"]}
{"id": "C25", "title": "Record order equals triple order", "statement": "Comparing two sorted-file records byte by byte orders them exactly as the triples they encode, so sorting the bytes sorts the triples.", "quantifier": "every pair of triples of terms below 2^40", "why_tests_cant": "all byte patterns", "anchors": ["src/trident/kb/permsorter.cpp:PermSorter::writeTermInBuffer", "src/trident/kb/permsorter.cpp:PermSorter::sortPermutation"]}
{"id": "C26", "title": "In-place permutation change", "statement": "Rewriting records from one permutation to another leaves each record encoding the same triple in the new order.", "quantifier": "every pair of distinct permutations and every record", "why_tests_cant": "all 30 transitions on all values", "anchors": ["src/trident/kb/permsorter.cpp:PermSorter::sortChunks2_permute"]}
{"id": "C27", "title": "No triple lost or duplicated when sorting and dumping", "statement": "The records written for a permutation are exactly the loaded records, once each, in sorted order, whatever the number of processes and the fill level of each chunk.", "quantifier": "every content, number of processes and fill level", "why_tests_cant": "chunk arithmetic and padding", "anchors": ["src/trident/kb/permsorter.cpp:PermSorter::dumpPermutation", "src/trident/kb/permsorter.cpp:PermSorter::sortChunks2_fill"]}
{"id": "C28", "title": "Parallel loop visits each index once", "statement": "A parallel loop over [begin,end) calls the body on ranges that partition [begin,end).", "quantifier": "every begin, end and number of threads", "why_tests_cant": "all range arithmetic", "anchors": ["include/trident/utils/parallel.h:ParallelTasks::parallel_for"]}
{"id": "C29", "title": "Memory manager accounting", "statement": "The memory manager's byte count always equals the total size of the live blocks and it never deallocates a locked block.", "quantifier": "every sequence of add, touch, lock, release and remove operations", "why_tests_cant": "all histories", "anchors": ["include/trident/utils/memorymgr.h:MemoryManager"]}
{"id": "C30", "title": "Hash join computes the natural join", "statement": "The hash join operator returns, for every list of child results, exactly the bag of projected combinations that agree on the join variables.", "quantifier": "every number of children, every content, one or two join variables per step", "why_tests_cant": "all data", "anchors": ["src/trident/sparql/hashjoinitr.cpp:HashJoinItr::execJoin"]}
{"id": "C31", "title": "In-memory table operations", "statement": "Table join returns the natural join, merge returns the sorted union and retain returns the rows not in the other table.", "quantifier": "every pair of tables", "why_tests_cant": "all row orders and contents", "anchors": ["src/trident/model/table.cpp:TupleTable::join", "src/trident/model/table.cpp:TupleTable::merge", "src/trident/model/table.cpp:TupleTable::retain"]}
{"id": "C32", "title": "Aggregates over solution multisets", "statement": "COUNT, SUM, AVG, MIN, MAX return the value of the aggregate over the multiset of solutions, where a row with count n stands for n equal solutions, independently for each group.", "quantifier": "every sequence of rows, counts and groups", "why_tests_cant": "all multisets", "anchors": ["src/trident/sparql/aggrhandler.cpp:AggregateHandler"]}
{"id": "C33", "title": "JSON string escaping", "statement": "Strings written to JSON output are escaped so that a JSON reader gets the original string and the output never terminates the string early.", "quantifier": "every byte string", "why_tests_cant": "all strings", "anchors": ["src/trident/utils/json.cpp:escape_json"]}
{"id": "C34", "title": "Range cache", "statement": "A range stored in the iterator cache is found by any later request it covers, and the cached block list remains ordered and disjoint.", "quantifier": "every sequence of stored ranges", "why_tests_cant": "all overlap patterns", "anchors": ["src/trident/kb/cacheidx.cpp:CacheIdx::storeIdx", "src/trident/iterators/cacheitr.cpp:CacheItr::searchBlock", "src/trident/iterators/cacheitr.cpp:CacheItr::gotoFirstTerm", "src/trident/iterators/cacheitr.cpp:CacheItr::clear"]}
{"id": "C35", "title": "Term list over updates", "statement": "Iterating the list of keys over the base and the added keys yields each key once, in order, with the total count; removing keys subtracts the counts and drops keys whose count becomes zero.", "quantifier": "every set of term lists", "why_tests_cant": "unbounded merges", "anchors": ["include/trident/iterators/compositetermitr.h:CompositeTermItr", "include/trident/iterators/rmcompositetermitr.h:RmCompositeTermItr"]}
{"id": "C36", "title": "Column difference", "statement": "columnNotIn returns the values of one sorted column that are not in the other, without duplicates.", "quantifier": "every pair of sorted columns and both early-stop modes", "why_tests_cant": "all merges", "anchors": ["src/trident/binarytables/newcolumntable.cpp:columnNotIn"]}
{"id": "C37", "title": "Repeated variable filter", "statement": "Iterating or counting a pattern in which a variable occurs more than once returns exactly the stored triples with equal values at its positions.", "quantifier": "every source", "why_tests_cant": "all sources", "anchors": ["include/trident/iterators/filtersameitr.h:FilterSameItr"]}
{"id": "C38", "title": "Missing permutation emulation", "statement": "When a permutation is not stored, iterating it through the stored reversed one returns the same pairs in the order of the missing permutation.", "quantifier": "every source and every constraint", "why_tests_cant": "all contents", "anchors": ["src/trident/kb/querier.cpp:Querier::newItrOnReverse", "src/trident/iterators/reorderitr.cpp:ReOrderItr"]}
{"id": "C39", "title": "Table moveto is a lower bound", "statement": "On a table, moving to (a,b) makes the next returned pair the first pair at or after the current position that is not smaller than (a,b).", "quantifier": "every table, every position, every target", "why_tests_cant": "all positions and targets", "anchors": ["include/trident/binarytables/newrowtable.h", "include/trident/binarytables/newclustertable.h", "include/trident/binarytables/newcolumntable.h"]}
{"id": "C40", "title": "Mark and reset", "statement": "Resetting an iterator to its mark makes it return the same remaining pairs as after the mark.", "quantifier": "every iterator position", "why_tests_cant": "all positions", "anchors": ["include/trident/binarytables/newrowtable.h", "src/trident/iterators/arrayitr.cpp", "include/trident/iterators/compositeitr.h"]}
{"id": "C41", "title": "Node store placement", "statement": "Writing node images in any order and of any changing size never makes two nodes overlap, and reading a node returns the last image written for it.", "quantifier": "every sequence of node writes", "why_tests_cant": "file shifting depends on the whole history", "anchors": ["src/trident/tree/nodemanager.cpp:NodeManager::put"]}
{"id": "C42", "title": "Ignoring the second column", "statement": "With the second column ignored, an iterator returns each distinct first value once with the number of pairs that share it.", "quantifier": "every source", "why_tests_cant": "all groupings", "anchors": ["include/trident/binarytables/newrowtable.h", "src/trident/iterators/aggritr.cpp", "src/trident/iterators/compositeitr.cpp"]}
{"id": "C43", "title": "Update files store the added pairs", "statement": "The tables written for an update, in row or in column form, return exactly the pairs of the update for each key.", "quantifier": "every sorted list of triples", "why_tests_cant": "all groupings", "anchors": ["src/trident/kb/diffindex3.cpp:DiffIndex3::storeRowFormat", "src/trident/kb/diffindex3.cpp:DiffIndex3::storeColumnFormat"]}
{"id": "C44", "title": "Dictionary is a bijection", "statement": "Text to identifier and identifier to text lookups are mutually inverse for all terms loaded or added by updates, also after the update dictionaries are stored and loaded.", "quantifier": "every list of terms over every update layer", "why_tests_cant": "all terms, including those with blanks", "anchors": ["src/trident/kb/dictmgmt.cpp:DictMgmt"]}
{"id": "C45", "title": "File sessions are exclusive", "statement": "A session handed out by the file manager is not handed out again until it is closed, and opening a session fails only if all sessions are in use.", "quantifier": "every sequence of opens and closes", "why_tests_cant": "all histories", "anchors": ["include/trident/files/filemanager.h:FileManager::newSession"]}
{"id": "C46", "title": "Growing files keep their content", "statement": "Appending to and shifting the content of a growable mapped file preserves every byte outside the inserted gap and never exceeds the mapped size.", "quantifier": "every sequence of appends, overwrites and shifts", "why_tests_cant": "remapping depends on accumulated size", "anchors": ["src/trident/files/filedescriptor.cpp:FileDescriptor"]}
{"id": "C47", "title": "Loading builds complete tables", "statement": "After loading the sorted (possibly repeated) triples of a permutation, the index has for each first term an entry with the number of its pairs, and opening the table at the entry's coordinates returns exactly the pairs of the loaded triples with that first term.", "quantifier": "every sorted input, every storage option, buffer and file size", "why_tests_cant": "tables change layout, file and code path with the accumulated sizes", "anchors": ["src/trident/kb/inserter.cpp:Inserter::insert", "src/trident/kb/loader.cpp:Loader::insert"]}
{"id": "C48", "title": "Parallel loading delivers the same stream", "statement": "With parallel loading, for every interleaving of the merging and the inserting thread, the inserting thread processes exactly the merged triples in order, every buffer is returned, and the threads never wait for each other forever.", "quantifier": "every input length and every schedule", "why_tests_cant": "schedules cannot be enumerated by tests", "anchors": ["src/trident/kb/loader.cpp:Loader::parallelmerge", "src/trident/kb/loader.cpp:Loader::insert"]}
{"id": "C49", "title": "Parallel sorting sorts", "statement": "Sorting a range with several threads gives a sorted permutation of it, for any number of threads and any strict weak ordering.", "quantifier": "every input, comparison and number of threads", "why_tests_cant": "all inputs and splits", "anchors": ["include/trident/utils/parallel.h:ParallelTasks::sort_int"]}
{"id": "C50", "title": "Queue between threads", "statement": "A ConcurrentQueue hands out every element exactly once and in the order of the pushes, and never leaves an element unclaimed while a thread waits asleep with no other thread awake to take it.", "quantifier": "every interleaving of any number of pushing and popping threads, with spurious wake-ups", "why_tests_cant": "schedules cannot be enumerated", "anchors": ["include/trident/utils/parallel.h:ConcurrentQueue"]}
{"id": "C51", "title": "Pinned files", "statement": "A file that was read with a session stays open, in the same memory, until that session reads another file or is closed, whatever else is opened; a file can always be opened while fewer files are open than allowed.", "quantifier": "every sequence of calls, all limits", "why_tests_cant": "eviction depends on the whole history", "anchors": ["include/trident/files/filemanager.h:FileManager::load_file", "include/trident/files/filemanager.h:FileManager::getBuffer"]}
{"id": "C52", "title": "Edges in the promised order", "statement": "Each of the six edge enumeration functions returns exactly the stored edges that match the pattern, each once, sorted by the positions in the order of the function's name.", "quantifier": "every database, every pattern of constants and different variables, all six functions", "why_tests_cant": "all databases and patterns", "anchors": ["include/trident/kb/querier.h:edg_srd", "include/trident/kb/querier.h:getEdgeItr", "include/trident/kb/querier.h:EdgeItr"]}
{"id": "C53", "title": "Groups of edges", "statement": "The grouping functions return every combination of key values that occurs among the matching edges exactly once, with the number of edges that have it; the counting functions return the number of these combinations.", "quantifier": "every database, pattern and choice of one or two keys", "why_tests_cant": "all databases", "anchors": ["include/trident/kb/querier.h:OneKeyCardItr", "include/trident/kb/querier.h:TwoKeyCardItr", "include/trident/kb/querier.h:grp_sr", "src/trident/kb/querier.cpp:ConstKeyCardItr"]}
{"id": "C54", "title": "Edges by position", "statement": "pos_xyz(pattern, n) returns the n-th edge of the enumeration edg_xyz(pattern) and fails when there are not so many.", "quantifier": "every database, pattern and position", "why_tests_cant": "all databases", "anchors": ["include/trident/kb/querier.h:pos_srd"]}
{"id": "C55", "title": "Nested loop join", "statement": "A nested loop join returns one row for every pair of a left row and a right row found for it, with the product of their numbers of occurrences, in the order of the left rows.", "quantifier": "every two inputs; the right input may depend on the left row", "why_tests_cant": "all inputs", "anchors": ["rdf3x/src/rts/NestedLoopJoin.cpp:NestedLoopJoin::next"]}
{"id": "C56", "title": "Hash join", "statement": "A hash join returns every combination of a left and a right row with the same join value exactly as often as the inputs contain it, whatever the values.", "quantifier": "all inputs, all join values, all collisions in the table", "why_tests_cant": "hash collisions and growth depend on the values", "anchors": ["rdf3x/src/rts/HashJoin.cpp:HashJoin::next", "rdf3x/src/rts/HashJoin.cpp:HashJoin::insert"]}
{"id": "C57", "title": "Merge join", "statement": "A merge join of two inputs sorted by the join value returns every combination of a left and a right row with the same value exactly as often as the inputs contain it.", "quantifier": "all sorted inputs with any number of equal values on either side", "why_tests_cant": "states depend on the alternation of the inputs", "anchors": ["rdf3x/src/rts/MergeJoin.cpp:MergeJoin::next", "rdf3x/src/rts/MergeJoin.cpp:MergeJoin::handleNM"]}
{"id": "C58", "title": "Cartesian product", "statement": "A product returns every combination of a left and a right row as often as the inputs contain it; if one side is optional and empty, its variables are unbound.", "quantifier": "all inputs", "why_tests_cant": "all inputs", "anchors": ["rdf3x/src/rts/CartProd.cpp:CartProd::next"]}
{"id": "C59", "title": "Union", "statement": "A union returns the rows of all its parts, with the variables a part does not bind unbound.", "quantifier": "any number of parts, each with any rows", "why_tests_cant": "all inputs", "anchors": ["rdf3x/src/rts/Union.cpp:Union::next", "rdf3x/src/rts/MergeUnion.cpp:MergeUnion::next"]}
{"id": "C60", "title": "Minus", "statement": "MINUS returns exactly the rows of the main pattern for which no row of the other pattern has the same values in the shared variables; without shared variables it returns all rows.", "quantifier": "all inputs and sets of shared variables", "why_tests_cant": "all inputs", "anchors": ["rdf3x/src/rts/Minus.cpp:Minus::first", "rdf3x/src/rts/Minus.cpp:Minus::next"]}
{"id": "C61", "title": "Values block", "statement": "A VALUES block returns each of its rows once.", "quantifier": "any number of variables and rows", "why_tests_cant": "all blocks", "anchors": ["rdf3x/src/rts/ValuesScan.cpp:ValuesScan::next"]}
{"id": "C62", "title": "Distinct, sorted and grouped rows", "statement": "Distinct rows are returned once each, grouped rows adjacent with their numbers of occurrences, sorted rows in the requested order without losing or adding any.", "quantifier": "all inputs", "why_tests_cant": "all inputs", "anchors": ["rdf3x/src/rts/GroupBy.cpp:GroupBy::first", "rdf3x/src/rts/HashGroupify.cpp:HashGroupify::first", "rdf3x/src/rts/Sort.cpp:Sort::first"]}
{"id": "C63", "title": "Limit and offset", "statement": "With LIMIT n OFFSET m a query returns the rows m+1 to m+n of its answer, counting repeated rows.", "quantifier": "all inputs, limits and offsets, both for subqueries and for the printed, JSON and counted results", "why_tests_cant": "all inputs", "anchors": ["rdf3x/src/rts/DuplLimit.cpp:DuplLimit::next", "rdf3x/src/rts/ResultsPrinter.cpp:ResultsPrinter::first"]}
{"id": "C64", "title": "Value filters", "statement": "A filter on a list of constants returns exactly the rows whose value is, or is not, in the list.", "quantifier": "all inputs and lists of constants", "why_tests_cant": "all inputs", "anchors": ["rdf3x/src/rts/Filter.cpp:Filter::next", "rdf3x/src/rts/NestedLoopFilter.cpp:NestedLoopFilter::next"]}
{"id": "C65", "title": "Optional patterns", "statement": "A join with an optional side returns, besides the joined rows, every row of the other side that has no partner, once, with the variables of the optional side unbound.", "quantifier": "all inputs, for merge and hash joins", "why_tests_cant": "all inputs", "anchors": ["rdf3x/src/rts/MergeJoin.cpp:MergeJoin::next", "rdf3x/src/rts/HashJoin.cpp:HashJoin::next"]}
{"id": "C66", "title": "Closing a string buffer", "statement": "Closing a string buffer ends, for every interleaving with its compression thread, and everything that was handed over to the thread is then in the file.", "quantifier": "every number of blocks and every schedule of the two threads", "why_tests_cant": "schedules cannot be enumerated", "anchors": ["src/trident/tree/stringbuffer.cpp:StringBuffer::~StringBuffer", "src/trident/tree/stringbuffer.cpp:StringBuffer::compressBlocks"]}
{"id": "C67", "title": "Updates do what was requested", "statement": "After any sequence of additions and deletions, each recorded against the database left by the earlier ones, a query sees exactly the triples obtained by adding and deleting the requested triples one request after the other, also when requests repeat or contradict each other; each recorded update has its own directory.", "quantifier": "every database and every sequence of requests", "why_tests_cant": "all histories", "anchors": ["src/trident/kb/updater.cpp:Updater::creatediffupdate", "src/trident/kb/updater.cpp:Updater::match", "src/trident/kb/updater.cpp:Updater::getPathForUpdate", "src/trident/kb/querier.cpp:Querier::getIterator"]}
{"id": "C68", "title": "Database of texts", "statement": "After loading a database and any sequence of textual additions and deletions, each of which opens and closes the database, the triples it returns, read through its dictionary, are exactly the textual triples a user expects, and every returned number has a text.", "quantifier": "every set of loaded terms and triples, every sequence of requests", "why_tests_cant": "depends on the interplay of encoding, matching, storing terms and overlaying updates over an unbounded history", "anchors": ["src/trident/kb/updater.cpp:Updater::creatediffupdate", "src/trident/kb/dictmgmt.cpp:DictMgmt", "src/trident/kb/kb.cpp:KB::KB"]}
{"id": "C69", "title": "Updates are atomic", "statement": "When the program stops at any point of an update, the database can be opened and queried afterwards and contains the triples and terms of before the update or of after it.", "quantifier": "every update and every crash point between the files it writes", "why_tests_cant": "crash points cannot be enumerated by tests", "anchors": ["src/trident/kb/updater.cpp:Updater::creatediffupdate", "src/trident/kb/kb.cpp:KB::addDiffIndex", "src/trident/kb/dictmgmt.cpp:DictMgmt::~DictMgmt"]}
{"id": "C70", "title": "A loaded database answers patterns", "statement": "After a set of triples was loaded, asking for a pattern in any of the six permutations gives each matching triple exactly once in the order of that permutation, whether the permutation is stored, its small tables were skipped, or it was not loaded at all.", "quantifier": "every set of triples, every choice of permutations to load, all storage options and sizes, every permutation and pattern whose bound terms lead the permutation", "why_tests_cant": "depends on the interplay of the loader, the table layouts, the coordinates, the tree and the iterators for all contents", "anchors": ["src/trident/kb/loader.cpp:Loader::createIndices", "src/trident/kb/loader.cpp:CoordinatesMerger::get", "src/trident/kb/querier.cpp:Querier::getIterator", "src/trident/iterators/scanitr.cpp:ScanItr", "src/trident/iterators/termitr.cpp:TermItr", "src/trident/iterators/reorderitr.cpp:ReOrderItr"]}
{"id": "C71", "title": "The list of keys after updates", "statement": "After any history of updates the list of keys of a permutation has exactly the keys that some current triple has, each once, in order, with the number of its triples.", "quantifier": "every base, every valid history of additions and deletions, every permutation", "why_tests_cant": "histories are unbounded and the list depends on numbers noted when each update was made", "anchors": ["src/trident/kb/querier.cpp:Querier::getTermList", "src/trident/kb/updatestats.cpp:UpdateStats_add::setKey", "src/trident/kb/updatestats.cpp:UpdateStats_rm::setKey", "src/trident/iterators/difftermitr.cpp:DiffTermItr"]}
{"id": "C72", "title": "Domain descriptions keep every possible value", "statement": "A domain description never excludes a value that was added to it; restricting a domain to another one, or synchronising two, leaves exactly the values that both allow; and the next candidate from a value on is the least allowed value that is not smaller, so that skipping to it skips nothing.", "quantifier": "every sequence of added values and of restrictions and synchronisations, every value", "why_tests_cant": "the filter is a hash of unboundedly many values; candidates depend on all bits", "anchors": ["rdf3x/src/rts/DomainDescription.cpp:PotentialDomainDescription::sync", "rdf3x/src/rts/DomainDescription.cpp:ObservedDomainDescription::add", "rdf3x/src/rts/DomainDescription.cpp:DomainDescription::nextCandidate"]}
{"id": "C73", "title": "Index scans with hints lose no wanted row", "statement": "A scan of a permutation in a query, with any of its columns bound and with hints that change while it runs (registers it is merged with, domains of registers), delivers every triple that agrees with the bound values and that no hint excludes, only triples that agree with the bound values, in the order of the permutation and none twice.", "quantifier": "every loaded database, every permutation, every choice of bound columns, every sequence of hints", "why_tests_cant": "hints depend on the rest of the query and on the position; rows are skipped in all table layouts", "anchors": ["rdf3x/src/rts/IndexScan.cpp:IndexScan::IndexScanHint::next", "rdf3x/src/rts/IndexScan.cpp:IndexScan::ScanPrefix1", "src/layers/TridentLayer.cpp:TridentScan::next", "src/layers/TridentLayer.cpp:TridentScan::first"]}
{"id": "C74", "title": "A database with updates answers patterns", "statement": "After a set of triples was loaded and any history of additions and removals was recorded, asking for a pattern in any of the six permutations gives each matching triple of the resulting set exactly once in the order of that permutation.", "quantifier": "every set of triples, every choice of permutations to load, all storage options, every history of updates, every permutation and pattern", "why_tests_cant": "depends on the interplay of the loader, the table layouts, the files of the updates and the iterators that combine them", "anchors": ["src/trident/kb/querier.cpp:Querier::getIterator", "src/trident/kb/diffindex3.cpp:DiffIndex3::getIterator", "src/trident/iterators/rmitr.cpp:RmItr::hasNext", "src/trident/iterators/arrayitr.cpp:ArrayItr::getCount", "src/trident/iterators/reorderitr.cpp:ReOrderItr"]}
{"id": "C75", "title": "FILTER keeps exactly the rows whose expression is true", "statement": "A query with a FILTER returns exactly those rows of the query without it for which the expression is true by the rules of SPARQL: comparisons of numbers by value, of dates by time, of texts character by character, equality of terms, the logical connectives, bound, sameTerm, isIRI, isLiteral, isBlank, IN, str, lang, datatype, contains. Rows for which the expression is false or an error are dropped; the answer does not depend on which rows were tested before.", "quantifier": "every dictionary, every row, every filter expression, every history of earlier evaluations", "why_tests_cant": "expressions, terms and histories are unbounded; results depend on values remembered across rows", "anchors": ["rdf3x/src/rts/Selection.cpp:Selection::Less::eval", "rdf3x/src/rts/Selection.cpp:Selection::Equal::eval", "rdf3x/src/rts/Selection.cpp:Selection::next", "rdf3x/src/cts/CodeGen.cpp:buildSelection", "rdf3x/src/cts/SemanticAnalysis.cpp:encode", "src/layers/TridentLayer.cpp:TridentLayer::lookupById"]}
{"id": "C76", "title": "A query plan computes the solutions of its patterns", "statement": "A query of triple patterns returns, for every projected combination of values, as many rows as the patterns have solutions with it (assignments of values to all variables that make every pattern a stored triple), and no other rows, whatever plan was chosen: whichever indices are scanned, in whatever order and by whichever kind of join the patterns are combined.", "quantifier": "every set of stored triples, every list of patterns, every plan that can be chosen for them, every projection", "why_tests_cant": "plans and data are unbounded, and the plan depends on estimates", "anchors": ["rdf3x/src/cts/CodeGen.cpp:CodeGen::translateIntern", "rdf3x/src/cts/PlanGen.cpp:PlanGen::translate_int", "rdf3x/src/cts/QueryGraph.cpp:QueryGraph::constructEdges"]}
{"id": "C77", "title": "Every query of triple patterns gets a plan", "statement": "A query of triple patterns is planned successfully, whatever the estimated costs and cardinalities are: the plan evaluates every pattern exactly once, and combines parts that have a common variable by a join on it. So a query that can be parsed has an answer, and the answer does not depend on the estimates.", "quantifier": "every list of triple patterns, every projection, every outcome of every comparison of costs", "why_tests_cant": "lists of patterns are unbounded and the estimates depend on data, samples and floating point", "anchors": ["rdf3x/src/cts/PlanGen.cpp:PlanGen::translate_int", "rdf3x/src/cts/PlanGen.cpp:PlanGen::addPlan", "rdf3x/src/cts/PlanGen.cpp:PlanGen::buildScan"]}
{"id": "C78", "title": "Parts of a group are joined on their common variables", "statement": "The parts of a group (patterns, OPTIONAL, UNION, subqueries, VALUES) are combined on exactly the variables that they have in common: two parts with a common variable are never combined as if they were independent, and two parts without one are not taken as connected.", "quantifier": "every group of parts with any sets of variables", "why_tests_cant": "numbers and kinds of parts are unbounded", "anchors": ["rdf3x/src/cts/QueryGraph.cpp:constructEdges", "rdf3x/src/cts/PlanGen.cpp:PlanGen::translate_int"]}
{"id": "C79", "title": "A query over a database with updates computes the solutions over the triples that are left", "statement": "After a set of triples was loaded and any history of additions and removals was recorded, a query of triple patterns returns, for every projected combination of values, as many rows as the patterns have solutions with it over the resulting set of triples, and no other rows.", "quantifier": "every set of triples, every history of updates, every list of patterns, every plan that can be chosen, every projection", "why_tests_cant": "depends on the interplay of the loader, the files of the updates, the iterators, the planner and the operators", "anchors": ["src/layers/TridentLayer.cpp:TridentScan::first", "src/trident/kb/querier.cpp:Querier::getPermuted", "rdf3x/src/cts/CodeGen.cpp:CodeGen::translateIntern"]}
{"id": "C80", "title": "A scan that skips a column counts the triples", "statement": "When a query does not use the last column of an index, the scan returns each combination of the other two columns that occurs among the matching triples exactly once, in ascending order, together with the number of matching triples that have it, whichever index is scanned and however its tables are stored.", "quantifier": "every loaded set of triples, every index, every choice of constants for the leading columns", "why_tests_cant": "depends on the interplay of the table layouts, the iterators with a column ignored, the reversed arrays and the operator; tests see a few tables", "anchors": ["rdf3x/src/rts/AggregatedIndexScan.cpp:AggregatedIndexScan::create", "src/layers/TridentLayer.cpp:TridentScan::next", "src/trident/iterators/arrayitr.cpp:ArrayItr::getCount", "src/trident/iterators/scanitr.cpp:ScanItr::next"]}
{"id": "C81", "title": "A scan that skips two columns lists the terms of one column with their numbers", "statement": "When a query uses only one column of an index, the scan returns each term of that column exactly once, in ascending order, together with the number of triples that have it there, whether or not the index itself is stored, before and after updates.", "quantifier": "every loaded set of triples, every index, every history of updates", "why_tests_cant": "depends on the files with the coordinates of the tables, the tree with the numbers of triples, the lists of the updates and the operator; tests see a few tables", "anchors": ["rdf3x/src/rts/FullyAggregatedIndexScan.cpp:FullyAggregatedIndexScan::create", "src/layers/TridentLayer.cpp:TridentScan::first", "src/trident/iterators/termitr.cpp:TermItr::getCount", "src/trident/iterators/reordertermitr.cpp:ReOrderTermItr::fillValues", "src/trident/kb/querier.cpp:Querier::getTermList"]}
{"id": "C82", "title": "A query with FILTERs returns exactly the solutions that satisfy them", "statement": "For a query of triple patterns and FILTERs, the rows are the projections of exactly those solutions of the patterns for which all filters are true, each as often as there are such solutions, whichever plan is chosen, in whatever order the filters are written, and whether or not the variables of the filters are projected.", "quantifier": "every loaded set of triples, every query of patterns and filters, every plan", "why_tests_cant": "the answer depends on the combination of plan, bindings of variables to registers, dictionary and filter expression; tests try a few queries", "anchors": ["rdf3x/src/cts/CodeGen.cpp:translateFilter", "rdf3x/src/cts/CodeGen.cpp:buildSelection", "rdf3x/src/cts/PlanGen.cpp:PlanGen::translate_int", "rdf3x/src/rts/Filter.cpp:Filter::next", "rdf3x/src/rts/Selection.cpp:Selection::next"]}
{"id": "C83", "title": "SELECT DISTINCT returns every row once", "statement": "SELECT DISTINCT prints no row twice, and the rows that it prints are exactly the projections of the solutions that the filters keep, whichever plan is chosen and whatever the order of the hash table is; with LIMIT n it prints n of them, or all if there are fewer, and with OFFSET n all but n.", "quantifier": "every loaded set of triples, every query of patterns and filters, every plan, every order of the hash table, every LIMIT", "why_tests_cant": "the groups depend on the bindings that a plan leaves, the duplicates on the solutions of the joins; tests try a few queries", "anchors": ["rdf3x/src/cts/PlanGen.cpp:PlanGen::translate", "rdf3x/src/cts/CodeGen.cpp:translateHashGroupify", "rdf3x/src/cts/CodeGen.cpp:CodeGen::translateIntern", "rdf3x/src/rts/HashGroupify.cpp:HashGroupify::first", "rdf3x/src/rts/ResultsPrinter.cpp:ResultsPrinter::first"]}
{"id": "C84", "title": "A query with LIMIT and OFFSET prints that part of its solutions", "statement": "There is one list with the projections of the solutions that the filters of a query keep, each as often as there are such solutions, and with OFFSET m and LIMIT n the query prints the n rows of this list after the first m ones, or as many as there are: pages neither overlap nor leave out a solution. Without output of the rows the number that is reported is the number of these rows.", "quantifier": "every loaded set of triples, every history of updates, every query of patterns and filters, every plan, every LIMIT and OFFSET", "why_tests_cant": "pages depend on the counts that operators return for equal rows; tests see a few queries and limits", "anchors": ["rdf3x/src/rts/ResultsPrinter.cpp:ResultsPrinter::first", "rdf3x/src/cts/CodeGen.cpp:CodeGen::translateIntern", "rdf3x/src/cts/PlanGen.cpp:PlanGen::translate"]}
{"id": "C85", "title": "A query with ORDER BY prints its solutions in that order", "statement": "With ORDER BY on variables, ascending or descending, the printed rows are those of the solutions that the filters keep, each as often as there are such solutions, and no row comes after one that it precedes in the requested order, whether or not the ordering variables are projected; LIMIT and OFFSET take their part of this sorted list.", "quantifier": "every loaded set of triples, every query of patterns and filters, every list of ordering variables and directions, every plan, every LIMIT and OFFSET", "why_tests_cant": "depends on the bindings that a plan leaves and on the texts of all terms; tests sort a few rows", "anchors": ["rdf3x/src/cts/CodeGen.cpp:CodeGen::translateIntern", "rdf3x/src/rts/Sort.cpp:Sort::first", "rdf3x/src/rts/ResultsPrinter.cpp:ResultsPrinter::first"]}
