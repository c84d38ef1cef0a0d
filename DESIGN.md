# Formal model of metac: design, results, trusted base

Prover: Rocq/Coq 8.16.1, standard library only. Sources: `rocq/theories/*.v`, listed in `rocq/_CoqProject`.
Properties: `properties.jsonl`. Which theorem belongs to which property: `MANIFEST.json`. Tests of the
theorems against wrong programs: `seeded/LOG.jsonl` (the edits are in `seeded/mut_*.py`).

## 1. Layout

For every area `X`:

* `XModel.v`: executable transcription of the C functions; every definition cites file and lines of /repo and says
  what is simplified. No proofs.
* `XSpec.v`: the independent specification (finite map, fold, bit semantics, grammar, reader ...).
  It uses the data types of the model (entries, memories, values), not its functions.
* `XProof*.v`: lemmas.
* `XProps.v`: the property theorems, each closed by `exact lemma`, with `Print Assumptions`, and `Example`s that
  meet the hypotheses on non-trivial data. A statement that is false of the code has a `..._refuted` theorem
  (a concrete witness, computed by the model) next to the largest true part; a theorem that proves only a part of
  a claim for another reason is called `..._partial`.

Undefined behaviour, failed assertions and running out of fuel are outcomes of the model (`Ub`, `Abort`,
`OutOfFuel`), never mapped to a good result. Recursion is on fuel; the termination theorems (C05, C26, C40, C44, C53)
show that there is enough fuel for every input. Theorems about results hold for every fuel that gives a result.

| area | C source | models |
|------|----------|--------|
| Hashmap | src/hashmap.c | buckets as lists, allocation outcomes as arguments, client's hash and equals arbitrary |
| Iterator | src/iterator.c | heap of nodes; an access to a freed node is `Ub` |
| Printf | src/printf_format.c | parser, counter, type table, storing of arguments |
| TagString | src/entry_tag.c:276-349 | the automaton |
| Escape | src/value_string.c:14-111 | text of char arrays |
| Entry | src/entry.c, src/entry_db.c | graph of type entries; final type, size, members, database lookup |
| Query | src/entry.c:245-271, 343-345, 394-403, 467-469, 495-538, 617-661 | the other questions about types: flags of kinds, base types, enumerators by number, results |
| Value | src/value.c, src/value_base_type.c | typed access on byte memory, bit-fields, enumerations, pointers, elements |
| TagMap | src/entry_tag.c:31-274 | categories, external maps, set, delete |
| Handler | src/entry_tag.c:378-787 | count by, zero ended string, container of, union member, pointer cast |
| Ctx | src/entry_tag.c:350-376, 470-488, 515-572, 657-724 | constructors and destructors of the handler contexts on a heap with failing allocations; a client of them |
| PStor | src/value_with_args.c:16-209 | parameter storages on a heap of blocks |
| Deep | src/value_deep.c, src/value_with_args.c:165-197 | memory map, sweep, free, comparison, copy; captured calls included, values of va_list parameters give `Abort` |
| Own | src/value_deep.c:152-229, 258-315, 324-888 | who owns values, entries, arrays of children and the hash map while a memory map is built, given up or deleted, on a heap with failing allocations; what the traversal meets is given (Deep decides it) |
| Cdecl | src/entry_cdecl.c | declaration texts |
| Text | src/value_string.c:113-563, 758-776 | texts of values |
| Wrap | src/value_with_args.c:211-504, src/value.c:801-851 | capturing the arguments of a call; arguments as a list of promoted values |
| Vprintf | src/printf_format.c:131-343, src/entry_tag.c:789-834 | storing the arguments of a format on the heap; the handler for printf-like functions |
| Call | src/value_string.c:124-130, 593-757 | texts of captured function calls |
| Override | pkg/override/override.go (Go) | merging of settings: trees with finite maps; the YAML parser is an argument |
| Metadb | pkg/metadb/metadb_types.go (Signature), metadb_builder.go:195-287, 815-1077 (Go) | the database of the generator: arrays, merging of types, ids; the order of a Go map is an argument |
| Dwarfy | pkg/dwarfy/dwarf.go (Go) | the tree of debugging entries from their stream; values, maps and lists, JSON and YAML |
| Tpl | modules/metac-reflect-gen/templates/_build_requests.tpl, _entry_db.tpl, _escape_path.tpl, _glob_responses.tpl | requests found in the scopes of a program, the printed database of declarations (with the search of src/entry_db.c from area Entry), the definitions answering links |
| Abi | System V psABI for x86-64 (parameter passing, va_arg), the va_arg uses of src/value_with_args.c:325-438, modules/metac-reflect-gen/templates/_struct_type.tpl:9-19 | classification of types by eightbytes, registers and stack of a call, reading with va_arg; scalars are read with their own type, structures with a stand-in of characters |
| Build | pkg/metadb/metadb_builder.go:143-824, metadb_types.go:36-145, 612-652 (Go), modules/metac-reflect-gen/templates/ of the types, of variables and of functions | from debugging entries to the static entries of the program: the builder, base types, the printed initialisers; composed with Metadb (merging) and Entry (run time) |
| Names | modules/metac-reflect-gen/templates/_db_v0.tpl, include/metac/reflect/db.h, modules/metac-test-gen/templates, include/metac/test.h | the database of names and the macro that reads it, the tests that main runs |
| Run | pkg/module/module.go, pkg/module/gotemplate/gotemplate.go, cmd/run/run.go (Go) | finding a module in search paths, its includes, the working directory; files are functions of their paths, the template is a function of the directory |
| Parent | pkg/metadb/metadb_builder.go:158-468, 852-883 (Go), metadb_types.go:26-30, modules/metac-reflect-gen/templates/_parents.tpl, src/entry.c:88-97 | the lists of parents of types through the merging, the accessors at run time |
| Copy, CopyTree, Twin, Equal, Move, CallDeep, Complete | (specifications and proofs over Deep) | what copies are, what comparison means, relocated data, captured calls, when the functions succeed |

## 2. Per property

| id | modelled as | proved how |
|----|-------------|------------|
| C01, C02 | histories of hash map calls, arbitrary hash/equals | refinement to a finite map by induction over histories |
| C03 | every allocation may fail | case analysis over the refinement; the header's promise about `*p_res` is refuted |
| C04 | bucket counts | invariant over histories |
| C05-C08, C46, C47 | arbitrary finite sequences of iterator calls | invariant of the heap (tree of nodes, queue links, parents); C06: induction over rose trees, result = structural fold |
| C09 | same | false: `last_dep` keeps pointing to the freed node when the queue has been drained; proved where the queue is not empty or was never used |
| C10-C14 | byte list, position, int with overflow | induction over strings; grammar of directives in the spec; false parts refuted (character behind a conversion skipped, flags `0` and space, `%%`, buffer of pointer size for `%s`) |
| C15, C16 | tag string automaton | render/lookup by induction over pairs; soundness for arbitrary text |
| C17 | `_dprintable_string` | round trip with an independent unescape; from 2^30 escapes on the length overflows (refuted) |
| C18, C19 | reads and writes of bit-fields with C int semantics | extensionality of bits; widths 1..30 |
| C20 | same | false: width 31 (undefined shift), packed fields, writes beyond 32 bits |
| C21 | `metac_entry_member_bitfield_offsets` | arithmetic |
| C22, C25, C48 | 17 typed getters and setters, generic number, copy, comparison | case analysis over the table of C types of the spec |
| C23, C24 | enumerations and pointers | as C22; unsigned enumerators, const and bit-field protection are false |
| C26-C28 | final type, byte size, lookups | relations `resolves`, `has_size`, `picks` in the spec; total on graphs without by-value recursion |
| C29 | elements and members | disjointness and tiling; counts above INT_MAX are cut (refuted) |
| C30 | three level bsearch | invariant of bsearch, order of strings |
| C31, C32, C49 | tag maps | first responsible category as a relation; multiset of contexts over histories; C32: assert(0) in the default build |
| C33, C34 | handlers called from a traversal | contents of siblings as relations on memory; every outcome characterized; crashes refuted (missing count sibling of a cast, allocation failures) |
| C35-C37 | storages on a heap with failing allocations | separation invariant over programs; false parts refuted |
| C38 | sweep over sorted ranges | invariant for laminar families |
| C39 | free | reachability relation (`reaches`), blocks; exactness under stated conditions, once and nothing on failure always |
| C40 | memory map, free, compare, copy | rank of types times number of pointers on a path with different targets |
| C82 | copies as trees | the way to a value is followed in both memories (`along`); log of the writes by induction on the traversal; blocks are fresh so later writes keep earlier parts; success by running the pre-allocation and the traversal on the built map, one block per listed pointer; comparison by building the maps of both structures in lockstep with the map of the source (`mirrored`: like the source on every way); the copy is a source again by following every way of the copy back to the source |
| C83 | the lists of parents joined while types are merged, in any order of the iteration | invariant of the loop: the list of a kept type is the scopes of the entries merged into it so far; induction over the dimensions of an array |
| C84 | questions about types: pointers, elements, members, parameters, enumerators, base types, arrays made of pointers (EntryModel) | QuerySpec reads the answer off the entry the type resolves to (`final_type` of C26); the loops over names and enumerators by induction on the list |
| C85 | kinds of types: flags, base types, C types, enumerators by number, results, types of members and parameters (QueryModel; entry_is of ValueModel) | the flags read off the contents the type resolves to, which are unique (C26); the walk over enumerators by splitting the list at the number |
| C86 | a pointer or array seen as an array of given length (ValueModel) | CountSpec: where the objects begin; composition of the making of the array with C29 |
| C41, C43 | copy with a caller's allocator that may fail | translation of addresses describing the result; ledger of calls |
| C42 | comparison | bisimulation (lockstep paths); relocated data compare equal; in tree mode structures that are like a third one on every way compare equal however they share (`mirrored`) |
| C44, C45, C50 | declaration texts | scanner for place holders; grammar and meaning of C declarators in the spec |
| C51, C52 | texts of values | a reader of C initializers in the spec that knows nothing about the value; `shows` says what a value contains |
| C53 | same | as C40, with ranks for the declaration texts; every step returns on well-formed data |
| C54, C55 | wrapping a call on the heap of PStor | induction over the parameters with `evolves`; the default argument promotions in the spec; handlers by contract; `oom` says whether a handler meets its contract when memory is short |
| C56 | a handler for C54 that reads the format with the parser of C10-C14 | induction over the pieces of the format; contract of C54/C55 proved for it, then applied to whole calls; false parts refuted (`%%`, strings of 8 characters, leak of the entry of a string) |
| C57 | TextModel extended with items of a parameter storage | a reader of call expressions written independently; printed forms read back (induction over arguments); completeness and soundness on top of C51; defects refuted |
| C58 | the arguments of a call are the children of its entry in the memory map | corollary of the bisimulation of C42, which has steps from calls to arguments |
| C59 | copy of the storage, then of the arguments | invariant of C41 with one region per argument (`spread`); storages once filled stay filled (variable arguments are never copied) |
| C60 | memory map, free, compare: success | induction over the traversal: each step goes on when the data are `visible`; conversely a map exists only for data that are seen through |
| C61 | copy: success and result | simulation of the traversal with the invariant of C41; counting of the blocks obtained; ways to entries are unique |
| C62 | release of a copy | the relocation of C41 carries the memory map of the source to that of the copy; the targets of the pointers of the copy are the blocks obtained; C61 for the success. As trees: the tree of the copy is built in the mode for graphs too (map_dag), its targets are the blocks of C82 from their starts |
| C63 | handler contexts | histories of a client: invariant that the blocks in use are, without repetition, those of its strings and contexts; each constructor adds exactly the blocks of its context or none, each destructor removes them |
| C64 | ownership of maps | induction on what the traversal meets: a part adds the blocks of a tree of entries or none; the trees in the queue, in the array of children and in the hash map are followed through the clean-up states; deletion of a tree by induction on it |
| C65 | settings as trees, overrides as a list | leaf and map at a path characterized by induction over trees, then over the list of overrides |
| C66 | the names given so far as a list | the last `_` of an id separates prefix and number; numbers of at least 4 digits are injective; earlier objects are counted |
| C67 | numbered type objects, an arbitrary order of iteration | the text of a signature determines what it describes (unique reading with brackets); invariant of the loop: objects of the index are found by signature, representatives have the same signature; then a relation kept along all links |
| C68 | the loop over dimensions, from the last one | induction with the part of the array built so far |
| C69 | the stack of parents and a map of entries | induction over trees: a subtree is read without a change of the stack when no sibling on the stack is inside it |
| C70 | values with the dynamic types of Go, float64 as rounded integers | case analysis over classes, decimal round trip |
| C71 | trees of scopes, dictionaries ordered by strcmp, text of keys, the C search | requests are a permutation of the markers (tree induction); invariant of the three levels of dictionaries; the order survives quoting; composed with C30 |
| C72 | the same requests, definitions as pairs | membership, permutation of requests |
| C73 | registers and stack as lists, types as flattened members | every prefix of the arguments is read back from any longer frame (induction over the arguments); the condition on structures is proved equivalent to stand-in and structure having the same classes; for each other structure a call is constructed that is captured wrongly |
| C74 | trees of debugging entries with optional attributes, the walk with fuel | invariant of the walk: every object made is right for its entry; declared entries are met (induction over places); a rank of the tree bounds the fuel |
| C75 | the objects of the builder merged (C67), printed as entries of the run time | the relation of C67 composed with builder and printed entries is kept along all links; size by induction over the debugging data, modulo 2^64 |
| C76 | table of synonyms, encodings, the check of src/entry.c | the table is checked against the words of a type up to permutation |
| C77 | a second walk that keeps variables and functions, their templates, the parameters of src/entry.c | the walk keeps what is declared (induction over places) and succeeds when the builder does; links through the relation of C75 |
| C78 | dictionary filled by one kind of objects, the printed initialiser, the bytes the macro reads | invariant of the dictionary over the objects (induction); the link by computing the bytes |
| C79 | requests of the units as lists | equality of lists (induction), prefix and first underscore |
| C80 | the search as functions over lists of paths, files as functions | equivalence with "first element with the property" (induction over the paths) |
| C81 | the loop over includes with its count of errors, the working directory as state | the count equals the number of places exactly when nothing was loaded (induction over the paths) |

Properties marked `partial` in the manifest: the note there says which part is missing or false. Most of them are false of
the code in general; the theorems then hold in the stated scope and the refutation shows that the scope is needed.

## 3. Defects of the code found on the way

Shown by `_refuted` theorems (the theorem name says which property):
an iterator task cannot queue again after draining its queue (C09); `%d%d`-like adjacent directives, `%%` and the
flags `0` and space are misread (C11, C12, C13); int overflow for widths of ten digits (C10); heap overflow when storing a
string argument of 8 or more characters (C14); int overflow for huge char arrays (C17); bit-fields of width 31 and more,
packed fields, writes over neighbours (C20); unsigned enumerators (C23); writes to const enumerations and pointers and to the
neighbours of enumeration bit-fields (C24); arrays of 2^32 elements (C29); assert(0) in the fallback from an external tag
map (C32); counts cut to int, flexible char arrays refused (C33); crashes in pointer casts and on out of memory (C34);
nested storages lost or assertions on out of memory, storages that cannot be copied (C35, C36); overlapping ranges (C38);
empty blocks, the value itself and blocks hidden behind a cycle in free (C39); stale pointers, self pointers, short blocks and
shared inner pointers in copy (C41); stale pointers in tree copies and, with pointers as values, inequality of looping tree copies with their source (C82); parents that are not generated (C83); data hidden behind a cycle, sharing and loop addresses in comparison (C42); leaks and a
wrong free function in tree copies (C43); equal declaration texts of different types (C45, C50); leak and premature release
of tag contexts (C49); chars `'` and `\` unescaped (C51); bool objects (C53);
wrapping into a storage in use, va_list parameters without handler (C54); double free for structs that cannot be read from a
va_list, leaks on failure and for an ellipsis without handler (C55); printf-like calls with `%%` refused, with long strings overrun, the
entry made for a string lost on out of memory (C56); calls without variadic arguments have no text, an empty va_list is printed as NULL,
a text freed twice for an argument without declaration (C57); calls of different functions are equal (C58); calls with variable arguments
cannot be copied, a failed copy leaves its part in the storage of the destination (C59); use after free in the hash map when a part of the data is
rejected and another pointer leads to the same place (C60); structs with a const number cannot be copied (C61);
names of union cases are not copied into the context (C63);
leaks, an assertion and a NULL access when the map, the hash map, the entry of a pointer or the iterator find no memory (C64);
an override that is null panics, overrides cannot be combined beforehand (C65);
structures of the same name from two units are merged though the types of their members differ, nested arrays of three dimensions in two units
leave links to objects that are not in the database (depending on the iteration of a Go map, different from run to run), bit-fields with a BitOffset are compared
without their unit, a pointer to a defined structure may lead to a declaration (C67);
numbers above 2^53, the highest address and empty blocks change on the way through JSON, an empty list of files is lost (C70).
_entry_db.tpl: the file table is sorted before _escape_path.tpl rewrites backslashes, so with Windows paths declarations are not found by the binary search (C71). _glob_responses.tpl: a link that appears in the debugging data of two units is answered by two definitions of one C object (C72).

_struct_type.tpl: a structure is read from a va_list as a structure of characters of the same size, which the x86-64 convention passes differently: structures of up to 16 bytes with a floating point eightbyte, with long double or packed, and structures aligned to 16, are captured with wrong bytes, and so are the arguments behind them (C73).

metadb_builder.go: a type declared below an entry that is skipped (an inlined call) is lost, what refers to it becomes void (C74). The merging may take the typedef of a unit that only declares the structure: at run time the
typedef has size 0 and no members though another unit has the definition, from run to run differently (C75). metadb_types.go, entry.h: `signed char` (int8_t) is none of the types of metac_entry_is_...; the keys `long signed ` and `long unsigned ` of the table end with a blank (C76).
reflect/db.h declares `struct metac_db *METAC_DB_NAME()`, _db_v0.tpl:14 defines `struct metac_db METAC_DB_NAME()`: METAC_DB_LINK_PTR() reads the first bytes of the structure as a pointer, always NULL; two modules that ask for the database cannot both be linked (C78).
module.go: with a name and -f the kind and the place come from module.yaml, never from the given file; an empty name in `include` is taken for the search path itself (C80). gotemplate.go:161 compares the errors with all places, also those of other kinds: an included module of another kind is left out silently; os.Chdir is not undone when the template fails, and its own failure is ignored (C81).
A base type without attribute Encoding, or with one of the user range, prints a constant that does not exist (_base_type.tpl:16); an array without attribute Type panics.

Seen while reading, not modelled: `_import.tpl` prints no comma after the count (C++ imports do not compile); `metac_entry_cdecl` calls done after fail when an allocation fails (entry_cdecl.c:62-65).

## 4. Not modelled

* The Go generator (`pkg/`, `cmd/`, `templates/`) except for the parts in the areas Override, Metadb, Dwarfy, Tpl, Abi, Build, Names and Run; DWARF parsing, the macros that obtain entries at compile time.
* Values of va_list parameters in value_deep.c (`Abort` in DeepModel; CallModel has those of value_string.c). A va_list with two or more
  items trips the assert in value_deep.c:1078, because such a parameter is a pointer there.
* Allocations inside functions where the model's header comment says so (entries, values, iterator nodes); allocations
  that matter for a property are arguments of the model.
* Floating point: texts and comparison are arbitrary functions.
* Multithreading (the library has no synchronisation; the optional mutex of hashmap.c is not compiled in).

## 5. Trusted base

* Coq's kernel (8.16.1) and its `vm_compute`.
* `Print Assumptions` of every property theorem says "Closed under the global context": no axioms are used. The
  checker of the whole environment (vcheck) lists seven constants `Coq.ssr.ssrunder.Under_rel.*`: they are parameters
  of a module type in the standard library (ssrunder), loaded with the prelude; no theorem here depends on them.
* The hand transcription of the C code into the `*Model.v` files (the cited lines) and the statements in `*Spec.v`
  and `*Props.v`.
* Platform facts: LP64, little endian, 8-bit bytes, `char` signed, arithmetic right shift, gcc's left shift of negative
  numbers, wrapping `int` in the hash mixing, glibc's `%p` (`0x` and lower case hexadecimal digits).
