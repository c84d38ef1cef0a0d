{"id": "C01", "title": "Hash map behaves as a finite map", "statement": "Provided the client's equals is an equivalence and equal keys have equal hashes, every history of hashmapPut/Get/ContainsKey/Memoize/Remove returns exactly the results of a finite map: Get returns the value most recently put (or memoized) for an equal key and not removed since, Put hands back the previous value, Remove hands back the removed value, other keys are never affected, whatever the hash collisions and table growths on the way.", "quantifier": "all histories of operations, all keys and values, all hash/equals functions with the stated consistency, all initial capacities, all allocation outcomes", "why_tests_cant": "collision chains and the moment the table doubles depend on the whole history and on the hash function; a test fixes one hash and one history", "anchors": ["src/hashmap.c:hashmapCreate,hashmapPut,hashmapGet,hashmapContainsKey,hashmapMemoize,hashmapRemove,expandIfNecessary", "include/metac/backend/hashmap.h"]}
{"id": "C02", "title": "Hash map size and iteration", "statement": "After every history hashmapSize equals the number of distinct keys present, and hashmapForEach hands every present binding to the callback exactly once and nothing else, stopping right after the first callback that returns false.", "quantifier": "all histories of operations, all callbacks", "why_tests_cant": "the number and order of chains after arbitrary growth cannot be enumerated by tests", "anchors": ["src/hashmap.c:hashmapSize,hashmapForEach,hashmapRemove,expandIfNecessary"]}
{"id": "C03", "title": "Hash map is atomic under allocation failure", "statement": "When hashmapPut or hashmapMemoize returns -ENOMEM the observable content and size of the map are unchanged and the Memoize callback has not been called; when only the growth allocation fails the operation still succeeds and the content is as if the growth had not been attempted.", "quantifier": "all reachable maps and every allocation-failure pattern", "why_tests_cant": "needs every crash (failure) point of every history, tests never inject allocation failures", "anchors": ["src/hashmap.c:hashmapPut,hashmapMemoize,expandIfNecessary", "include/metac/backend/hashmap.h"]}
{"id": "C04", "title": "Hash map load factor", "statement": "The bucket count is always a power of two; if no growth allocation fails the number of entries never exceeds three quarters of the bucket count (plus rounding), and a map created for n expected entries (n below 2^62) does not grow while it has at most n entries.", "quantifier": "all initial capacities and all histories", "why_tests_cant": "performance invariant over unbounded histories", "anchors": ["src/hashmap.c:hashmapCreate,expandIfNecessary,hashmapCurrentCapacity"]}
{"id": "C05", "title": "Iterator hands out a task only when its dependencies are finished", "statement": "metac_recursive_iterator_next always terminates; it returns NULL exactly when the root task is finished, otherwise the task it makes current is unfinished and every dependency currently queued on it is finished (done or failed).", "quantifier": "all reachable iterator states (any client behaviour between calls to next)", "why_tests_cant": "client programs append, finish and drain in any order; the reachable task trees are unbounded", "anchors": ["src/iterator.c:metac_recursive_iterator_next"]}
{"id": "C06", "title": "Iterator traversal equals structural recursion", "statement": "A client that at the first visit of a task queues the children of that task and at the second visit collects their results and finishes with f(task, results) obtains exactly the recursive fold of f over the task tree as root result; every task is visited exactly twice, children in queueing order and before their parent's second visit; at the end nothing is left allocated and freeing the iterator does not abort.", "quantifier": "all finite task trees, all client functions f", "why_tests_cant": "trees are unbounded in depth and width; the tests use a two-level tree", "anchors": ["src/iterator.c:metac_recursive_iterator_next,metac_recursive_iterator_create_and_append_dep,metac_recursive_iterator_dequeue_and_delete_dep,metac_recursive_iterator_done,metac_recursive_iterator_free"]}
{"id": "C07", "title": "Dependencies are collected in FIFO order with their own input", "statement": "metac_recursive_iterator_dequeue_and_delete_dep returns results in the order in which the dependencies were queued, together with the input pointer of exactly that dependency and its failure flag; metac_recursive_iterator_get_dep_out(i) for i>=0 previews the i-th of them without removing it; queue size counts them.", "quantifier": "all sequences of queue operations on a task", "why_tests_cant": "order for any number of dependencies", "anchors": ["src/iterator.c:metac_recursive_iterator_create_and_append_dep,metac_recursive_iterator_dequeue_and_delete_dep,metac_recursive_iterator_get_dep_out,metac_recursive_iterator_dep_queue_size"]}
{"id": "C08", "title": "Failed tasks never deliver a result", "statement": "A task finished with metac_recursive_iterator_fail is reported to its parent (or by get_out for the root) with the failure flag set and a NULL result; a finished task's result and flag never change afterwards, and a done task is reported with exactly the pointer passed to done.", "quantifier": "all reachable iterator states and later client actions", "why_tests_cant": "needs every history after the finishing call", "anchors": ["src/iterator.c:metac_recursive_iterator_fail,metac_recursive_iterator_done,metac_recursive_iterator_get_out,metac_recursive_iterator_set_state"]}
{"id": "C09", "title": "A task may queue more dependencies in a later visit", "statement": "As long as a task is unfinished the client may queue further dependencies in any visit, in particular after having collected all previous ones (multi-phase traversal).", "quantifier": "all unfinished tasks in all reachable states", "why_tests_cant": "multi-phase clients are not exercised by tests; the assertion that breaks it depends on the history of the queue", "anchors": ["src/iterator.c:metac_recursive_iterator_create_and_append_dep,metac_recursive_iterator_dequeue_and_delete_dep"]}
{"id": "C10", "title": "Format parsing never leaves the string and always advances", "statement": "For every NUL-terminated format string and start position inside it, metac_parse_format_specifier reads no byte behind the terminator, leaves the position inside the string (at most at its terminator), and advances it by at least one when it starts at a percent sign; hence counting and storing terminate.", "quantifier": "all byte strings and positions", "why_tests_cant": "all malformed and truncated directives at the end of the string", "anchors": ["src/printf_format.c:metac_parse_format_specifier,metac_count_format_specifiers"]}
{"id": "C11", "title": "Counting conversion specifications", "statement": "metac_count_format_specifiers returns the number of argument-consuming conversion specifications of the format ('%%' counts as none) for every format built from literal text, '%%' and directives.", "quantifier": "all formats made of any number of literal pieces, '%%' and directives", "why_tests_cant": "formats are unbounded; neighbouring directives without text between them are not in the tests", "anchors": ["src/printf_format.c:metac_count_format_specifiers"]}
{"id": "C12", "title": "Parsing recovers every directive", "statement": "Parsing the text of a directive with any flags, width, precision, length modifier and conversion letter yields exactly these components and ends right behind the conversion letter.", "quantifier": "all flag sets, widths, precisions, length modifiers, conversion letters, any following text", "why_tests_cant": "cross product is infinite (widths) and tests only check the count", "anchors": ["src/printf_format.c:metac_parse_format_specifier"]}
{"id": "C13", "title": "Stored printf arguments correspond to the directives", "statement": "Storing the arguments of a printf call yields one stored parameter per conversion specification, in order, each with the C type the directive demands and holding the corresponding argument (converted to that type).", "quantifier": "all formats and argument lists", "why_tests_cant": "tests cover a dozen formats; percent literals and adjacent directives interact with the parameter numbering", "anchors": ["src/printf_format.c:_new_value_from_format_specifier,metac_store_printf_params,metac_store_vprintf_params"]}
{"id": "C14", "title": "Stored string arguments stay inside their buffer", "statement": "For every string argument of a %s directive the library copies the string into a buffer large enough for it.", "quantifier": "all string arguments", "why_tests_cant": "heap overflows are silent in tests that use short strings", "anchors": ["src/printf_format.c:_new_value_from_format_specifier"]}
{"id": "C15", "title": "Tag string lookup finds exactly the first matching key", "statement": "For a tag string made of space separated key:\"value\" pairs (keys without space, colon; values with backslash escapes), metac_entry_tag_string_lookup returns the value text of the first pair whose key equals the requested one, and NULL if there is none.", "quantifier": "all lists of pairs, all keys, any amount of separating spaces", "why_tests_cant": "values may contain escaped quotes, colons, spaces and look-alike pairs", "anchors": ["src/entry_tag.c:metac_entry_tag_string_lookup"]}
{"id": "C16", "title": "Tag string lookup is safe on arbitrary text", "statement": "For every byte string (also malformed) the lookup terminates, and a non-NULL result is a piece of the tag string enclosed in quotes and preceded by the requested key and a colon.", "quantifier": "all tag strings and keys", "why_tests_cant": "malformed strings are infinitely many", "anchors": ["src/entry_tag.c:metac_entry_tag_string_lookup"]}
{"id": "C17", "title": "String rendering is lossless and fits its buffer", "statement": "When a char array is rendered as a string literal the output, read back with C escape rules, is exactly the array content up to the terminator, the output never exceeds the allocated length, contains only printable characters and no unescaped quote or backslash; arrays that are not a NUL-terminated printable text are never rendered this way.", "quantifier": "all char arrays of any length", "why_tests_cant": "any combination of special characters, all lengths", "anchors": ["src/value_string.c:_dprintable_string"]}
{"id": "C18", "title": "Bit-field reads return the field", "statement": "Reading a bit-field member through the API returns the value of exactly the bits DWARF assigns to the member (zero- or sign-extended according to the encoding), independent of all other memory.", "quantifier": "all memory contents, all field positions and widths that fit their storage type", "why_tests_cant": "all widths, offsets and neighbours", "anchors": ["src/value.c:_entry_bitfield_read,metac_value_base_type", "src/entry.c:metac_entry_member_bitfield_offsets"]}
{"id": "C19", "title": "Bit-field writes change only the field", "statement": "Writing a bit-field member through the API stores the low bits of the given value in exactly the bits of the member and leaves every other bit of memory (neighbouring fields, other bytes) unchanged; reading it back returns the value reduced to the field width.", "quantifier": "all memory contents, values, positions and widths that fit their storage type", "why_tests_cant": "all widths, offsets, neighbours", "anchors": ["src/value.c:_entry_bitfield_write,metac_value_set_base_type"]}
{"id": "C20", "title": "Bit-fields of every width a C compiler accepts", "statement": "Bit-field reads and writes are correct for every width from 1 up to the width of the declared type and also for fields packed across the storage unit.", "quantifier": "all declared types, widths and layouts", "why_tests_cant": "tests use widths up to 22 and unpacked structs", "anchors": ["src/value.c:_entry_bitfield_read,_entry_bitfield_write"]}
{"id": "C21", "title": "DWARF 3 and DWARF 4 bit-field locations agree", "statement": "For a bit-field described by either the DWARF 3 triple (byte size, byte offset, big-endian bit offset) or the DWARF 4 data bit offset of the same layout, the computed byte offset, bit offset and bit size are the same and denote the described bits.", "quantifier": "all layouts (no wrap-around in the described offsets)", "why_tests_cant": "arithmetical identity over all offsets", "anchors": ["src/entry.c:metac_entry_member_bitfield_offsets"]}
{"id": "C22", "title": "Typed reads and writes are type safe", "statement": "metac_value_set_<type>/metac_value_<type> succeed only if the value's final type is the base type of that name, encoding and size; a write to a const-qualified object returns an error; every failed call leaves memory unchanged; a successful write changes exactly the object's bytes and a following read returns the written value.", "quantifier": "all entries (through any chain of typedefs, qualifiers, members), memory contents and values", "why_tests_cant": "unbounded chains of type constructors", "anchors": ["src/value.c:metac_value_base_type,metac_value_set_base_type", "src/entry.c:metac_entry_check_base_type,metac_entry_final_entry", "src/value_base_type.c"]}
{"id": "C23", "title": "Enumeration values round-trip", "statement": "Setting an enumeration value that is representable in the enumeration's byte size and reading it back returns the same number, changes only the bytes of the enumeration, and the name shown is the first enumerator with that number (the decimal number when there is none).", "quantifier": "all sizes 1,2,4,8, all values, all enumerator lists", "why_tests_cant": "all values and lists", "anchors": ["src/value.c:metac_value_enumeration,metac_value_set_enumeration,metac_value_enumeration_string", "src/entry.c:metac_entry_enumeration_to_name"]}
{"id": "C24", "title": "Const objects and bit-field neighbours are protected for all kinds", "statement": "The setters for enumerations and pointers refuse const-qualified objects as the base-type setters do, and setting an enumeration bit-field leaves neighbouring fields unchanged.", "quantifier": "all enumeration and pointer values", "why_tests_cant": "tests never set const or bit-field enumerations", "anchors": ["src/value.c:metac_value_set_enumeration,metac_value_set_pointer"]}
{"id": "C25", "title": "Generic integer read", "statement": "metac_value_num returns the value of any integer object (char .. unsigned long long, bool excluded or included as the code has it) whenever that value fits in int.", "quantifier": "all integer types and values", "why_tests_cant": "all values of ten types", "anchors": ["src/value_base_type.c:metac_value_num"]}
{"id": "C26", "title": "Final type resolution", "statement": "metac_entry_final_entry skips exactly typedefs, qualifiers, variables, members and specified parameters; the result is never one of those, applying it again changes nothing, the reported qualifier flags are exactly the qualifiers met on the way, and NULL is returned exactly for void.", "quantifier": "all finite chains of type constructors", "why_tests_cant": "chains of any length and order", "anchors": ["src/entry.c:metac_entry_final_entry"]}
{"id": "C27", "title": "Byte size", "statement": "metac_entry_byte_size equals the size of the final element type times all array dimensions whenever that product fits in 64 bits, is insensitive to typedefs and qualifiers, and reports an error for flexible arrays, functions and void.", "quantifier": "all types, any number of nested array dimensions", "why_tests_cant": "arbitrary nesting", "anchors": ["src/entry.c:metac_entry_byte_size"]}
{"id": "C28", "title": "Member lookup by name or id path", "statement": "metac_entry_by_member_ids follows the given path: at each step the member with that id, or the first member with that name, of the struct/union the current entry resolves to; it returns NULL exactly when some step does not exist; parameter lookup obeys the same rule.", "quantifier": "all struct types and all paths of any length", "why_tests_cant": "unbounded paths and duplicate/anonymous names", "anchors": ["src/entry.c:metac_entry_by_member_ids,metac_entry_member_name_to_id,metac_entry_by_member_id,metac_entry_by_parameter_ids"]}
{"id": "C29", "title": "Element and member values stay inside their container", "statement": "metac_new_value_by_element_id(i) denotes the bytes [addr+i*size, addr+(i+1)*size): elements are disjoint, in order, tile the array, and ids outside 0..count-1 give NULL; member values start at the member's offset and ids outside the range give NULL.", "quantifier": "all arrays, indices and structs", "why_tests_cant": "all counts and indices incl. negative ones", "anchors": ["src/value.c:metac_new_value_by_element_id,metac_new_value_by_member_id"]}
{"id": "C30", "title": "Declaration database lookup is sound and complete", "statement": "For a database whose three levels are sorted by name without duplicates, metac_entry_from_entry_db(file, location, name) returns the unique entry stored for that triple and NULL if the triple is absent or ambiguous.", "quantifier": "all sorted databases of any size and all queries", "why_tests_cant": "binary search over any size; boundary elements", "anchors": ["src/entry_db.c:metac_entry_from_entry_db"]}
{"id": "C31", "title": "Tag map lookup order and override rules", "statement": "metac_tag_map_tag returns the tag of the first category (in order) whose mask admits the kind of the entry and that has a tag for the entry or, when the category covers final types, for its final type; else the default tag. metac_tag_map_set_tag makes a private copy, refuses to overwrite unless asked to, and affects no other entry or category.", "quantifier": "all tag maps, all histories of set operations, all entries", "why_tests_cant": "any number of categories and histories", "anchors": ["src/entry_tag.c:metac_tag_map_tag,metac_tag_map_set_tag,_tag_map_set_tag"]}
{"id": "C32", "title": "Tag maps can fall back from an external map", "statement": "A tag map may have categories that refer to an external tag map; when the external map has no tag for an entry the lookup continues with the following categories and the default tag.", "quantifier": "all tag maps with external categories", "why_tests_cant": "not exercised by tests", "anchors": ["src/entry_tag.c:metac_tag_map_tag"]}
{"id": "C33", "title": "Length handlers compute the right count", "statement": "For numbers and lengths that a metac_num_t (int) can hold: the count-by handler supplies exactly the number stored in the named sibling (member or parameter) and the zero-ended-string handler exactly the length of the string including its terminator; container-of yields the address whose named member the pointer points to; the union selector picks the member the first matching case (or the number itself) names.", "quantifier": "all structs, sibling positions, values, strings", "why_tests_cant": "all data values and positions", "anchors": ["src/entry_tag.c:metac_handle_count_by,metac_handle_zero_ended_string,metac_handle_container_of,metac_handle_union_member_select"]}
{"id": "C34", "title": "Handlers report bad references instead of crashing", "statement": "A handler whose context names a sibling that does not exist reports an error or supplies nothing; it never crashes.", "quantifier": "all contexts and structs", "why_tests_cant": "misconfigured contexts are not tested", "anchors": ["src/entry_tag.c:metac_handle_ptr_cast,metac_handle_count_by,metac_handle_union_member_select"]}
{"id": "C35", "title": "Parameter storage is an append-only sequence", "statement": "After any sequence of appends the storage has exactly that many parameters; the i-th one has the entry and (zeroed) buffer size of the i-th append; indices outside the range give NULL; cleanup empties it and it can be reused.", "quantifier": "all sequences of appends, cleanups and reads", "why_tests_cant": "all histories", "anchors": ["src/value_with_args.c:metac_parameter_storage_append_by_buffer,metac_parameter_storage_append_by_parameter_storage,metac_parameter_storage_new_param_value,metac_parameter_storage_size,metac_parameter_storage_cleanup"]}
{"id": "C36", "title": "Copying a parameter storage is deep", "statement": "metac_parameter_storage_copy into an empty storage yields an equal, fully separate storage at every nesting level: no buffer is shared, the source is unchanged, and deleting one does not affect the other.", "quantifier": "all storages of any nesting depth", "why_tests_cant": "nested variadic loads of any depth", "anchors": ["src/value_with_args.c:metac_parameter_storage_copy"]}
{"id": "C37", "title": "Parameter storages neither leak nor double free", "statement": "Deleting a storage releases exactly the blocks it owns, each exactly once, also after failed operations.", "quantifier": "all histories including failures", "why_tests_cant": "all failure points", "anchors": ["src/value_with_args.c:metac_parameter_storage_delete,metac_parameter_storage_cleanup,_handle_subprogram"]}
{"id": "C38", "title": "Sweep line finds the allocated blocks", "statement": "For any set of pointer targets that are pairwise nested or disjoint memory ranges of positive size, the map classifies as allocated blocks exactly the maximal ranges and gives every other target the distance to the start of the maximal range containing it.", "quantifier": "all finite sets of ranges", "why_tests_cant": "any number and arrangement of ranges", "anchors": ["src/value_deep.c:_identify_allocatable_entries"]}
{"id": "C39", "title": "Deep free releases every block exactly once", "statement": "metac_value_free_ex calls the free function exactly once for every memory block reachable through pointers (shared blocks and pointers into blocks included) and for nothing else; when it reports failure nothing has been freed.", "quantifier": "all data structures (trees, DAGs, cyclic graphs, pointers into blocks)", "why_tests_cant": "all shapes of pointer graphs", "anchors": ["src/value_deep.c:metac_value_free_ex,metac_new_value_memory_map_ex"]}
{"id": "C40", "title": "Deep functions terminate on cyclic data", "statement": "Building the memory map (and hence copy, compare, free and deep printing) terminates on every finite data structure, including cyclic ones.", "quantifier": "all finite pointer graphs", "why_tests_cant": "cycles of any length and shape", "anchors": ["src/value_deep.c:metac_new_value_memory_map_ex", "src/value.c:metac_value_level_introduced_loop"]}
{"id": "C41", "title": "Deep copy yields an equal and separate structure", "statement": "After a successful metac_value_copy_ex the destination is equal to the source, shares no memory block with it, the source is unchanged, and in DAG mode sharing, cycles and pointers into blocks are reproduced.", "quantifier": "all data structures and modes", "why_tests_cant": "all shapes of pointer graphs", "anchors": ["src/value_deep.c:metac_value_copy_ex"]}
{"id": "C42", "title": "Deep comparison is an equivalence on values", "statement": "metac_value_equal_ex is reflexive (for data without NaN), symmetric and transitive, does not modify memory, and 1 is returned exactly when both structures have the same shape and equal leaves.", "quantifier": "all pairs and triples of data structures", "why_tests_cant": "all shapes", "anchors": ["src/value_deep.c:metac_value_equal_ex", "src/value_base_type.c:metac_value_equal_base_type"]}
{"id": "C43", "title": "Failed deep copy leaves nothing behind", "statement": "When metac_value_copy_ex returns NULL every block it allocated has been released with the caller's free function.", "quantifier": "all failure points of all copies", "why_tests_cant": "all failure points", "anchors": ["src/value_deep.c:metac_value_copy_ex,_value_copy_preallocate"]}
{"id": "C44", "title": "Type declarations have exactly one name placeholder", "statement": "metac_entry_cdecl of a type yields text with exactly one '%s' placeholder; of a variable the text of its type with the name in place of it; entries that are neither types, variables nor functions (members, parameters, ...) have no text (NULL). The call ends for every finite type.", "quantifier": "all type entries of any nesting", "why_tests_cant": "arbitrary nesting of declarators", "anchors": ["src/entry_cdecl.c:metac_entry_cdecl"]}
{"id": "C45", "title": "Different types have different declarations", "statement": "Two types with different meaning have different declaration texts (the copy function relies on it to reject incompatible destinations).", "quantifier": "all pairs of types", "why_tests_cant": "all pairs of types", "anchors": ["src/entry_cdecl.c:metac_entry_cdecl", "src/value_deep.c:metac_value_copy_ex"]}
{"id": "C46", "title": "Iterator level and inputs of ancestors", "statement": "At any moment metac_recursive_iterator_level is the number of ancestors of the current task, and metac_recursive_iterator_get_in(k) is the input of its k-th ancestor (k=0: of the task itself), NULL beyond the root.", "quantifier": "all states any client can reach, all k", "why_tests_cant": "needs the parent chain to be right after any history of queueing and finishing", "anchors": ["src/iterator.c:metac_recursive_iterator_level,metac_recursive_iterator_get_in"]}
{"id": "C47", "title": "Iterator state and context belong to the current task", "statement": "metac_recursive_iterator_set_state and set_context are read back unchanged by the getters, affect no other task, and the reserved error state is refused.", "quantifier": "all reachable states, all states and contexts", "why_tests_cant": "independence from all other tasks cannot be enumerated", "anchors": ["src/iterator.c:metac_recursive_iterator_set_state,metac_recursive_iterator_set_context"]}
{"id": "C48", "title": "Base type and pointer values: copy and comparison", "statement": "metac_value_copy_base_type copies exactly the bytes of the object between two objects of the same C type and refuses otherwise, changing nothing; metac_value_equal_base_type of two integer objects returns 1 exactly when they hold the same number; metac_value_pointer and metac_value_set_pointer read and write exactly the eight bytes of a pointer object. metac_value_copy_enumeration and metac_value_copy_pointer put the number or address of the source into the destination and change nothing else, after which metac_value_equal_enumeration and metac_value_equal_pointer give 1 (same size, no partial overlap); these compare the signed numbers and the addresses.", "quantifier": "all C base types, values and memory contents", "why_tests_cant": "all pairs of types and values", "anchors": ["src/value_base_type.c:metac_value_copy_base_type,metac_value_equal_base_type", "src/value.c:metac_value_pointer,metac_value_set_pointer"]}
{"id": "C49", "title": "Tag contexts are released exactly once", "statement": "Every context handed to a tag map with a free handler - with the default tag at creation or with a successful metac_tag_map_set_tag - is passed to its free handler exactly once: when its tag is overridden or when the map is deleted. A failed set leaves the context with the caller. All memory the map allocated for tags is freed by metac_tag_map_delete.", "quantifier": "all maps, all histories of set calls and allocation failures", "why_tests_cant": "leaks and double frees depend on histories and on allocation failures", "anchors": ["src/entry_tag.c:_entry_new_tag,_entry_tag_delete,_tag_map_set_tag,metac_tag_map_delete"]}
{"id": "C50", "title": "A declaration text declares the type", "statement": "The text metac_entry_cdecl gives for a type, variable or function is, by the rules of C declarations (suffixes bind tighter than the star, parentheses group), a declaration of the place holder or name with exactly that type. Scope: no pointer to array, no function returning an array, a function or a pointer to one, no qualifier over an array, function or already qualified pointer; for each of these the text can declare a different type.", "quantifier": "all type terms of that grammar of any depth, all names", "why_tests_cant": "the test compares a handful of literal texts", "anchors": ["src/entry_cdecl.c:metac_entry_cdecl"]}
{"id": "C51", "title": "The text of a value reads back as a C initializer with the contents of the value", "statement": "If a value's contents (numbers, characters, char arrays with text, enumerators, NULL, addresses, nested structs, chosen union members, arrays, pointed-to data in deep mode, anonymous members flattened into the surrounding struct) consist of things that can be written without ambiguity (not: a single char that is a quote or a backslash, which is written unescaped), metac_value_string_ex returns a text, and a reader of C initializers that knows nothing about the value reads exactly those contents from it. Conversely any text that is returned for well-formed data is the text of what the value contains.", "quantifier": "for all databases without types containing themselves, all memories (functions and va_list parameters excepted), values of any nesting depth, with and without tag map, shallow and deep mode", "why_tests_cant": "tests compare single texts with literals; a missing comma, an unescaped character or a wrongly nested brace in an untested combination stays unseen", "anchors": ["src/value_string.c:14-111", "src/value_string.c:113-563", "src/value_base_type.c:348-403", "src/value.c:571-588", "src/value.c:656-671"]}
{"id": "C52", "title": "Equal texts mean equal contents", "statement": "Two values (possibly of different types, in different memories, databases or modes) whose contents can be written without ambiguity and for which metac_value_string_ex returns the same text have the same contents. A value has one contents; a text says one thing.", "quantifier": "for all pairs of values, memories, databases and modes", "why_tests_cant": "injectivity of the rendering relates every pair of values; tests compare a few literals", "anchors": ["src/value_string.c:113-563"]}
{"id": "C53", "title": "Making the text of a value always ends; data in a circle gives NULL", "statement": "metac_value_string_ex ends on all data, cyclic data included, with a bound that depends on the types only. For well-formed data (bool objects holding 0 or 1, named base types, bit-fields as compilers lay them out, no function or va_list values) it returns a text or NULL, without assertion and without undefined behaviour. In deep mode, when a pointer is met that leads to where a pointer on the way to it already leads, the result is NULL.", "quantifier": "for all memories and values of databases without infinite types and texts, all handlers that return", "why_tests_cant": "non-termination on some shape of data cannot be excluded by running examples", "anchors": ["src/value_string.c:113-563", "src/value_string.c:180-195"]}
{"id": "C54", "title": "Wrapping a call captures every argument", "statement": "metac_value_parameter_wrap / metac_value_parameter_vwrap, called on a fresh value from metac_new_value_with_call_params for a function entry, returns the value with one storage item per declared parameter, in order: the bytes of every base type, pointer, enum and struct argument exactly as the caller passed them (after undoing the default argument promotions of C), and for each va_list or '...' parameter with a handler a nested storage with exactly what the handler put there; each argument is consumed once. It returns NULL only if memory was short. Parameters of every type whose declaration text is not that of va_list are treated as plain arguments.", "quantifier": "all function declarations (any number and order of parameters), all argument values, all heaps and allocation failure patterns, all handlers meeting their contract", "why_tests_cant": "the product of parameter types, promotions, argument values, positions and allocation failures is unbounded; a mis-sized or skipped va_arg only shows in the following argument", "anchors": ["src/value_with_args.c:211-504 _value_parameter_wrap", "src/value_with_args.c:122-143 metac_parameter_storage_append_by_buffer", "src/entry.c:336-341 metac_entry_struct_va_arg", "src/entry.c:634-653 metac_entry_is_va_list_parameter"]}
{"id": "C55", "title": "A wrapped call releases everything it allocated", "statement": "After metac_new_value_with_call_params, metac_value_parameter_wrap and metac_value_with_call_params_delete, the memory is what it was before: nothing leaks, nothing is released twice. If the wrap fails, the value is released, only blocks of its storage remain, and deleting the storage restores the memory. The value of a call's result is zeroed memory of the size of the result type and is released completely, also when an allocation fails in between.", "quantifier": "all function declarations, argument lists, heaps and allocation failure patterns; every way a wrap can fail", "why_tests_cant": "failure paths depend on which parameter is unusable, which allocation fails and what was built before; tests cover a handful and do not look at the heap", "anchors": ["src/value_with_args.c:449-487 _value_parameter_wrap", "src/value.c:801-851 metac_new_value_with_call_params, metac_value_with_call_params_delete, metac_new_value_with_call_result, metac_value_with_call_result_delete"]}
{"id": "C56", "title": "Wrapping a printf-like call captures the arguments its format announces", "statement": "metac_value_parameter_wrap of a function whose last parameter is '...' or a va_list handled by metac_handle_printf_format captures, besides the ordinary parameters, exactly one item per conversion specification of the format string found in the parameter before: the converted object with the type the conversion demands, a string as a char array with its terminator, NULL as a null pointer. Deleting the call restores the memory. If the preceding parameter is not a pointer, is NULL, or the format has a conversion the library does not know, the wrap returns NULL and deleting the storage restores the memory.", "quantifier": "all functions, all formats of any number of pieces, all argument values and strings, all heaps and allocation failure patterns", "why_tests_cant": "the product of formats, argument types, string lengths and allocation failures is unbounded; the tests use a few short formats and never fail an allocation", "anchors": ["src/printf_format.c:131-343 metac_store_vprintf_params", "src/entry_tag.c:789-834 metac_handle_printf_format", "src/value_with_args.c:211-504 _value_parameter_wrap"]}
{"id": "C57", "title": "The text of a captured call reads back as that call", "statement": "metac_value_string of a captured call (a value of a function with its parameter storage) gives 'name(a, b, ...)', for a call through a pointer '(name)(a, b, ...)': whoever reads the text knowing nothing about the value gets the name and all the arguments in order; the arguments behind an ellipsis are inlined with a cast to their type, those of a va_list stand in VA_LIST(...), strings without cast. Two captured calls with the same text are the same call. A text is returned only for what was captured. Well-formed calls have a result, a text or NULL. No text is made for a call with an empty ellipsis or with an argument that could not be captured.", "quantifier": "all databases, memories, functions, numbers and types of arguments", "why_tests_cant": "argument lists are unbounded and mix all types of values; tests compare a few literal outputs and never read them back", "anchors": ["src/value_string.c:113-130, 593-757 metac_value_string_ex", "src/entry.c:500-546 metac_entry_is_va_list_parameter, metac_entry_has_parameter_load", "src/value.c:675-730"]}
{"id": "C58", "title": "Comparison of captured calls compares all their arguments", "statement": "metac_value_equal_ex of two captured calls returns 1 only if they have the same number of arguments and the arguments are pairwise alike, to any depth: through pointers, shared and cyclic data, and through the arguments behind an ellipsis. (Which function was called is not compared: calls of different functions with alike arguments are equal.)", "quantifier": "all databases, memories, calls with any number of arguments of any types, all modes and handlers", "why_tests_cant": "argument lists and what they point to are unbounded; a test compares a few literal calls", "anchors": ["src/value_deep.c:759-857", "src/value_deep.c:1269-1413 metac_value_equal_ex", "src/entry.c:500-546"]}
{"id": "C59", "title": "The copy of a captured call is a call of its own", "statement": "metac_value_copy_ex of a captured call to a value with an empty parameter storage fills that storage with one argument per argument of the source, of the same type, in buffers of its own; everything the arguments point to is copied to new blocks, pointers between the arguments' data (shared, cyclic, into blocks) are kept as pointers between the copies, and nothing else is changed: not the source, not other storages. A call captured with variable arguments cannot be copied: the result is NULL and the destination's storage keeps what was put there.", "quantifier": "all databases, memories, calls with any number of arguments, allocators (which may fail) in the default sharing mode; the statement on variable arguments for all modes", "why_tests_cant": "aliasing between arguments, buffers and blocks is unbounded; tests check one call with a few scalars", "anchors": ["src/value_deep.c:984-1267 metac_value_copy_ex", "src/value_with_args.c:165-197 metac_parameter_storage_copy"]}
{"id": "C60", "title": "Deep functions succeed on data the library can see through", "statement": "If everything that is found from a value on has an address and a type the library can take apart (handlers and the mode answering where the type does not: unions, void pointers, flexible arrays), then the memory map is built, deep free returns 1, and deep comparison of two such values returns 0 or 1 (it can fail only where base types in the same place differ); conversely a memory map exists only for such data. No assertion is hit and nothing undefined happens on such data, whatever its shape.", "quantifier": "all databases without by-value recursion, all memories, modes, well-behaved handlers, values of any depth, sharing and cycles", "why_tests_cant": "the shapes of data and the states of the hash map during the traversal are unbounded; a test shows success for a few literals only", "anchors": ["src/value_deep.c:314-889 metac_new_value_memory_map_ex", "src/value_deep.c:905-933 metac_value_free_ex", "src/value_deep.c:1269-1413 metac_value_equal_ex"]}
{"id": "C61", "title": "Deep copy succeeds when there is memory, and is a copy", "statement": "For data in blocks of memory each held by a pointer to its start, with at most one pointer to each place inside of a block and no constant numbers, metac_value_copy_ex returns the destination as soon as calloc_fn has memory for as many blocks as there are, and the result is a copy in the sense of C41.", "quantifier": "all databases without by-value recursion, memories, data of any shape, sizes and depth, allocators, iteration orders of the hash map, in the default (sharing) mode", "why_tests_cant": "total correctness over all data graphs; tests copy a few literals and a leak or a missing block shows only for certain layouts", "anchors": ["src/value_deep.c:984-1267 metac_value_copy_ex", "src/value_deep.c:940-982 _value_copy_preallocate"]}
{"id": "C62", "title": "A copy can be released, exactly", "statement": "metac_value_free_ex of a deep copy returns 1 and hands exactly the blocks that calloc_fn gave for the copy to free_fn, each once, whatever the sharing and cycles in the data; together with C41 and C61: the copy is made, compares equal to its source, and can be released without leak and double free.", "quantifier": "all databases without by-value recursion, memories, data of any shape and depth, allocators, iteration orders of the hash map (different ones in copy and free), in the default (sharing) mode and as trees", "why_tests_cant": "a leak or a double free shows only for certain graphs and hash orders; tests release a few literals under valgrind at best", "anchors": ["src/value_deep.c:984-1267 metac_value_copy_ex", "src/value_deep.c:905-933 metac_value_free_ex", "src/value_deep.c:1269-1413 metac_value_equal_ex"]}
{"id": "C63", "title": "Contexts of the built-in handlers are what was asked for, and none is lost", "statement": "Each metac_new_..._context call (count by, container of, permanent union selection, union member selection, pointer cast) gives a context that the handler reads exactly as the arguments said at the time of the call, until it is deleted, whatever the caller later does with the strings it passed and with other contexts; a pointer cast without selector and a call that finds no memory give NULL; deleting works for every context and for NULL; the memory in use is exactly that of the strings and contexts that exist, also after failed calls.", "quantifier": "all sequences of making, changing and freeing strings and of making and deleting contexts, all failure patterns of the allocator, cases arrays below 2^31 elements; names of union cases are literals (otherwise refuted)", "why_tests_cant": "the failure paths of the constructors run only when a certain allocation fails; aliasing shows only when the caller reuses its buffers", "anchors": ["src/entry_tag.c:352-376 metac_new_count_by_context", "src/entry_tag.c:470-488 metac_new_container_of_context", "src/entry_tag.c:515-572 metac_new_union_member_select_by_context", "src/entry_tag.c:657-724 metac_new_ptr_cast_context"]}
{"id": "C64", "title": "A memory map owns all that was allocated for it", "statement": "metac_new_value_memory_map_ex either gives a map or NULL. With NULL every block it allocated (copies of values, entries, arrays of children, the hash map) has been released, whatever failed. With a map the blocks allocated are exactly those of the map, of the hash map in DAG mode and of one value, one entry and at most one array per visited part; a later metac_value_memory_map_delete releases exactly these, each once, and touches no others. Nothing is read or freed after its release.", "quantifier": "all data (any tree of parts and pointers, any part rejected by a handler or a mode), both block modes, all patterns of failing allocations other than those of the map, the hash map, the entry of a pointer and the iterator; in DAG mode: no address pointed to twice, or nothing rejected (refuted otherwise)", "why_tests_cant": "the clean-up states of the traversal run only when a handler rejects something deep inside or a particular allocation fails; a leak or a stale entry in the hash map is invisible without a memory checker", "anchors": ["src/value_deep.c:152-229 metac_new_memory_entry, metac_memory_entry_delete, metac_value_memory_map_delete", "src/value_deep.c:258-315 _identify_allocatable_entries", "src/value_deep.c:324-888 metac_new_value_memory_map_ex"]}
{"id": "C65", "title": "Settings of a generator run after all overrides", "statement": "The generator takes settings and a list of override documents (the command line). After override.MergeAll a value that is not a map is found at a path exactly if the original settings or one of the overrides has it there and no later override says anything about that path (a value there, on the way to it, or a map in its place); maps are merged key by key. The order in which the keys of Go maps are visited makes no difference. A run fails only for an override that does not parse.", "quantifier": "all trees of settings, any number of overrides, all paths, any order of keys", "why_tests_cant": "tests merge two or three documents; nesting, sequences of overrides and the order of visiting are unbounded", "anchors": ["pkg/override/override.go"]}
{"id": "C66", "title": "Ids of generated objects are different", "statement": "All types, variables and functions of the database get ids that are used as names of C objects in the generated code: no two objects get the same id, even if the names of some look like ids of others (a, a_0001, struct_a).", "quantifier": "all lists of kinds and names", "why_tests_cant": "a test has some names; two objects with the same id give C code that does not compile or links to the wrong entry", "anchors": ["pkg/metadb/metadb_builder.go commonIdFromICommon"]}
{"id": "C67", "title": "Merging of types from several units", "statement": "The generator keeps one object for types that are the same in several compile units: every type of a unit is represented by one of the same kind, name, size, members, offsets, enumerators, parameters and elements; no two objects in the database are the same; under the one definition rule everything reached from a type by links in the database is what was reached in the unit. It does not depend on the order in which Go iterates over its map, and it ends.", "quantifier": "all graphs of types (with cycles through names), all orders of iteration", "why_tests_cant": "the order of a Go map differs from run to run; graphs of types have no bound", "anchors": ["pkg/metadb/metadb_builder.go deduplicateTypes", "pkg/metadb/metadb_types.go Signature"]}
{"id": "C68", "title": "Arrays of several dimensions", "statement": "An array in the debugging data with the dimensions d1 .. dn becomes in the database an array of d1 arrays of d2 ... of the elements, each with its lower bound, number of elements (count, or from lower to upper bound, or -1 when open) and level.", "quantifier": "any number of dimensions, all bounds", "why_tests_cant": "the number of dimensions has no bound; the order of the dimensions matters to all reads of elements", "anchors": ["pkg/metadb/metadb_builder.go processArrayType"]}
{"id": "C69", "title": "The tree of debugging entries", "statement": "The generator (dwarfy.NewData) rebuilds the tree of debugging entries from the stream of entries and null entries: each entry gets its parent and its children in order, the units are the children of entry 0 - with or without attributes Sibling, with padding or a missing null entry at the end of a unit.", "quantifier": "all forests of units, any depth and number of entries", "why_tests_cant": "the shape of the tree depends on compiler and program; a test has one file", "anchors": ["pkg/dwarfy/dwarf.go NewData"]}
{"id": "C70", "title": "Debugging data survive conversions", "statement": "Data converted to maps and lists (for templates) and back are the same; written as YAML or JSON and read again the values have the same type and content.", "quantifier": "all entries and attributes of all classes, all values in the range of their type", "why_tests_cant": "numbers up to 64 bits go through float64 in JSON; tests use small ones", "anchors": ["pkg/dwarfy/dwarf.go ToUnstructured", "pkg/dwarfy/dwarf.go fixValBasedOnClass"]}
{"id": "C71", "title": "Declarations beside a marker are found at run time", "statement": "After generating, compiling and linking the reflection data, metac_entry_from_entry_db(db, marker, name) returns the entry of the variable or function called name that is declared on the line of the marker in the marker's scope, when there is exactly one; it returns NULL when there is none or several. The generator stops with an error exactly when two markers of one name stand on one line of one file.", "quantifier": "All programs (trees of scopes of any depth, any number of units, files, markers, modules), all queries.", "why_tests_cant": "The search is a binary search in tables printed in the order of the generator's dictionaries; tests have a few files and names whose orders agree by accident.", "anchors": ["modules/metac-reflect-gen/templates/_entry_db.tpl", "modules/metac-reflect-gen/templates/_build_requests.tpl", "modules/metac-reflect-gen/templates/_escape_path.tpl", "src/entry_db.c"]}
{"id": "C72", "title": "Links to global symbols are answered", "statement": "Every METAC_GSYM_LINK(name) of a known module gets a definition of its answer that points to the entry of a global variable or function of that name (of the same compile unit if there is one, of some other otherwise); no other definitions are printed; the answer of a symbol is defined once.", "quantifier": "All programs with any number of units, scopes, modules and links.", "why_tests_cant": "Which unit answers, and how often, depends on all units of the program; tests link one symbol from one unit.", "anchors": ["modules/metac-reflect-gen/templates/_glob_responses.tpl", "modules/metac-reflect-gen/templates/_build_requests.tpl", "include/metac/reflect/link.h"]}
{"id": "C73", "title": "A structure passed by value to a wrapped function is captured as passed", "statement": "When a function is wrapped (metac_value_parameter_wrap and the macros on top of it), every argument, in particular every structure or union passed by value, is captured with exactly the bytes the caller passed, and reading it does not disturb the arguments behind it.", "quantifier": "all calls: any number and order of arguments, any structure types (any members, sizes, alignments), any named arguments before, all contents", "why_tests_cant": "whether a structure travels in integer registers, in floating point registers or on the stack depends on its members, its size, its alignment and on how many registers the arguments before it used; tests see a few structures in a few positions", "anchors": ["modules/metac-reflect-gen/templates/_struct_type.tpl:9-19", "src/entry.c:336-341 metac_entry_struct_va_arg", "src/value_with_args.c:413-438"]}
{"id": "C74", "title": "All types of the program reach the database of the generator", "statement": "From the tree of debugging entries the builder (metadb) makes exactly one object for every type declared in a unit, namespace, structure, function or block (and for the inner dimensions of arrays), and nothing else; every type that an object refers to is an object of the database too; the builder ends.", "quantifier": "all trees of debugging entries, any number of units, any depth and nesting", "why_tests_cant": "compilers nest entries in many ways; a type in a place that is not visited is not an error but silently becomes void in the generated code", "anchors": ["pkg/metadb/metadb_builder.go:143-824", "pkg/metadb/metadb.go:43-54"]}
{"id": "C75", "title": "Reflection at run time says what the debugging data says", "statement": "For every type declared in the program, the entry compiled into the program has the kind, name and size of the debugging entry, its members with names, offsets and bit positions, its enumerators, parameters and dimensions, and so have all types that are reached from it; in particular metac_entry_byte_size returns the size the compiler gave to the type, through typedefs, qualifiers and dimensions, and metac_entry_by_member_id the members in their order.", "quantifier": "all programs that keep the one definition rule, all orders of Go's maps, types of any nesting, cycles through pointers; sizes below 2^64", "why_tests_cant": "builder, merging of types, printed C text and run time are tested apart, each with a few literals; that they agree for all types concerns their composition, and the merging depends on the order of a Go map", "anchors": ["pkg/metadb/metadb_builder.go:143-1077", "modules/metac-reflect-gen/templates/_struct_type.tpl", "modules/metac-reflect-gen/templates/_array_type.tpl", "src/entry.c metac_entry_byte_size", "src/entry.c metac_entry_by_member_id"]}
{"id": "C76", "title": "Base types are found whatever the compiler calls them", "statement": "For each type of C that has a function metac_entry_is_<type>: it is true at run time for an entry of a base type only if the debugging data has this type (its words in any order, its encoding and size), and it is true if the debugging data has this type under a name that GCC or Clang use for it.", "quantifier": "all programs, all names, encodings and sizes of base types", "why_tests_cant": "names of base types are a table in Go, the comparison is in C; a test knows the names of one compiler", "anchors": ["pkg/metadb/metadb_types.go:36-145", "modules/metac-reflect-gen/templates/_base_type.tpl", "src/entry.c metac_entry_check_base_type", "include/metac/reflect/entry.h"]}
{"id": "C77", "title": "Variables and functions at run time are those of the debugging data", "statement": "Each variable and each function of the program has one static entry and no others have: with its name, whether it is only declared, its type (the type returned), and, for a function, all its parameters in order, with names, types and the dots. metac_entry_byte_size of a variable gives the size that the debugging data says; metac_entry_parameters_count and metac_entry_by_parameter_id give the parameters.", "quantifier": "all debugging data that the builder takes, all programs that keep the one definition rule, all orders of merging", "why_tests_cant": "the entries come from a walk through the debugging data, from the merging of equal types and from templates; tests look at the entries of a few variables and functions of one compiler", "anchors": ["pkg/metadb/metadb_builder.go:289-362, 543-606", "modules/metac-reflect-gen/templates/_variable.tpl", "modules/metac-reflect-gen/templates/_subprogram.tpl", "src/entry.c:548-615"]}
{"id": "C78", "title": "The database of names lists every object under its name", "statement": "For each kind (base types, enumerations, typedefs, structures, unions, classes, namespaces, variables, functions, units) the generated database holds each name once, with the entries of exactly the objects of that kind called so; items_count and entries_count are right. A program that says METAC_DB_LINK() gets it by METAC_DB_LINK_PTR().", "quantifier": "all type databases with any number of objects and any names that C prints as they are; all programs with METAC_DB_LINK", "why_tests_cant": "the lists are the result of a template run over the whole program, and no test reads the database through the macros", "anchors": ["modules/metac-reflect-gen/templates/_db_v0.tpl", "include/metac/reflect/db.h"]}
{"id": "C79", "title": "The generated main runs each test once", "statement": "The main function generated for test files runs every test that METAC_START_TEST announces at file scope, in order, exactly once, and nothing else, whatever other variables the program has.", "quantifier": "all programs: any number of units, tests and other variables", "why_tests_cant": "a test that is not run is not seen to fail; the tests of the repository cannot report their own absence", "anchors": ["modules/metac-test-gen/templates/_.tpl", "modules/metac-test-gen/templates/_build_requests.tpl", "include/metac/test.h"]}
{"id": "C80", "title": "The module that is run is the first one found", "statement": "metac run <name> takes the module from the first search path (-M) that holds it with a kind the command knows, or fails; a name that is not one component is refused, for the module and for what it includes; with -f and a name the given file is found in the module; with -f alone the module is the directory of the file.", "quantifier": "all trees of files, all lists of search paths, all names and file names", "why_tests_cant": "the answer depends on the whole list of paths and on which of the directories hold which files; tests have one or two directories", "anchors": ["pkg/module/module.go:81-194", "cmd/run/run.go"]}
{"id": "C81", "title": "A run loads what is included and leaves the working directory", "statement": "When the run of a module succeeds, the templates of each included module were loaded, from the first search path that holds it and whose templates load; a module for which all this exists is run. With -C the template runs in the given directory, or the run fails; afterwards the working directory is what it was.", "quantifier": "all modules, includes, trees of files, working directories, templates that succeed or fail", "why_tests_cant": "the failing cases need a tree of files with broken or missing parts and a look at the process after an error", "anchors": ["pkg/module/gotemplate/gotemplate.go:52-204"]}
{"id": "C82", "title": "A deep copy as a tree shares nothing", "statement": "After a successful metac_value_copy_ex in tree mode, on every way from the value through its members, elements and pointers the scalars of the copy are those of the source, every pointer has a block of its own of exactly the size of what it leads to and is as far into it as in the source, a pointer back to an object on the way leads to the copy of that object, every block obtained is held by one pointer, and no other memory is changed. The copy succeeds whenever the destination can be written and calloc_fn has memory for as many blocks as there are ways to a pointer that leads somewhere. metac_value_equal_ex of the source and the copy then gives 1. The copy can be copied in turn in the same way.", "quantifier": "all databases, memories, data of any shape and depth that ends or loops, handlers, union and unknown pointer modes, allocators", "why_tests_cant": "sharing in the source multiplies in the copy; tests look at a few literals and cannot see that no two pointers of any copy share a block", "anchors": ["src/value_deep.c:984-1267 metac_value_copy_ex", "src/value_deep.c:940-982 _value_copy_preallocate"]}
{"id": "C83", "title": "Parents of types at run time", "statement": "metac_entry_parent_count of a type of the generated code is the number of scopes that its debugging entries are in, one for each debugging entry that was merged into the type; metac_entry_parent_entry gives for the numbers from 0 just the entries of those scopes and NULL for every other number. The parent of a dimension of an array is the array it is the element of. A parent that is a type is a type of the generated code.", "quantifier": "all graphs of debugging entries, all orders of the iteration of the Go map, all numbers given to the accessor", "why_tests_cant": "the order of the iteration is random in every run; tests see a few units and cannot see that a scope is lost or that a parent is not generated for some order", "anchors": ["pkg/metadb/metadb_builder.go:852-883 deduplicateTypes", "pkg/metadb/metadb_builder.go:254-277 processArrayType", "modules/metac-reflect-gen/templates/_parents.tpl:1-9", "src/entry.c:88-97 metac_entry_parent_count, metac_entry_parent_entry"]}
{"id": "C84", "title": "Questions about types", "statement": "metac_entry_is_pointer, is_void_pointer, is_declaration_pointer, pointer_entry, element_entry, member_count, member_name_to_id, by_member_id, parameters_count, parameter_name_to_id, by_parameter_id, enumeration_to_name and check_base_type answer from the entry that the type resolves to through all names, qualifiers, variables and members: the flags hold exactly for such pointers, a position is the first one with the name and leads back to that entry, -ENOENT is for a name that is not there and -EINVAL for a type of another kind, the name of a value is that of the first enumerator with it, and a base type fits exactly if name, encoding and size agree or are unknown. metac_new_element_count_entry makes of a pointer or an array of T an array of T whose size is count times the size of T, and NULL of anything else. All of them end when the typedefs are not cyclic.", "quantifier": "all databases of types, entries, names, numbers, counts, outcomes of calloc", "why_tests_cant": "a database has any chains of typedefs and qualifiers, and any order and repetition of members and enumerators; tests ask about a few declarations", "anchors": ["src/entry.c:31-67 metac_new_element_count_entry", "src/entry.c:222-319", "src/entry.c:347-370", "src/entry.c:477-509", "src/entry.c:548-590"]}
{"id": "C85", "title": "Kinds of types", "statement": "At most one of metac_entry_is_base_type, is_pointer, has_members, has_elements, is_enumeration and has_parameters holds of an entry, namely the one for the type it resolves to, and at most one of metac_entry_is_char, is_uchar, ..., is_ldouble_complex; the type has then the name of that C type and its size where the database knows it. base_type_name, byte_size and encoding are those declared, and -EINVAL otherwise. metac_entry_enumeration_info gives for the numbers below enumeration_info_size the enumerators in their order and NULL for every other number; the first of them with a value is the one that enumeration_to_name names. metac_entry_result_type is the declared type of the result, NULL for void. The type that metac_entry_member_entry and metac_entry_parameter_entry give resolves to the same as the member or parameter.", "quantifier": "all databases of types, entries, numbers", "why_tests_cant": "a database has any chains of typedefs and qualifiers, any enumerations with repeated values; tests ask about a few declarations and not all flags of each", "anchors": ["src/entry.c:245-271", "src/entry.c:343-345", "src/entry.c:394-403", "src/entry.c:467-469", "src/entry.c:495-538", "src/entry.c:617-661", "src/value_base_type.c:13-64"]}
{"id": "C86", "title": "A pointer seen as an array", "statement": "metac_new_element_count_value of a pointer to T that is not NULL, or of an array of T, gives an array of exactly count elements of T that begins at the address held by the pointer or at the array; for any other value, for a NULL pointer or without memory it gives NULL. metac_new_value_by_element_id of that array gives for each number i from 0 below count the object of type T at the beginning plus i times the size of T, and NULL for every other number.", "quantifier": "all databases, memories, values, counts up to INT_MAX, objects that lie in the address space", "why_tests_cant": "all types, counts and addresses; tests use a few arrays", "anchors": ["src/value.c:741-772 metac_new_element_count_value", "src/value.c:400-413 metac_new_value_by_element_id", "src/entry.c:31-67 metac_new_element_count_entry"]}
