{
 "claims": [
  {
   "property": "C01",
   "status": "proved",
   "theorems": [
    "C01_hashmap_is_finite_map"
   ],
   "note": ""
  },
  {
   "property": "C02",
   "status": "proved",
   "theorems": [
    "C02_size_and_foreach",
    "C02_collisions"
   ],
   "note": "Includes the list of entries released by hashmapFree and the collision count."
  },
  {
   "property": "C03",
   "status": "proved",
   "theorems": [
    "C03_put_oom_atomic",
    "C03_memoize_oom_atomic",
    "C03_growth_failure_invisible",
    "C03_header_promise_refuted"
   ],
   "note": "The header's promise to write *p_res on allocation failure is false of the code (refuted); the property itself holds."
  },
  {
   "property": "C04",
   "status": "proved",
   "theorems": [
    "C04_bucket_count_power_of_two",
    "C04_load_factor",
    "C04_expected_entries_fit"
   ],
   "note": ""
  },
  {
   "property": "C05",
   "status": "proved",
   "theorems": [
    "C05_no_undefined_behaviour",
    "C05_next_hands_out_ready_task"
   ],
   "note": "Clients are arbitrary finite sequences of API calls."
  },
  {
   "property": "C06",
   "status": "proved",
   "theorems": [
    "C06_traversal_is_structural_recursion"
   ],
   "note": "Tasks are non-NULL pointers; allocations succeed."
  },
  {
   "property": "C07",
   "status": "proved",
   "theorems": [
    "C07_append_at_end",
    "C07_dequeue_oldest",
    "C07_queues_change_only_so",
    "C07_preview",
    "C07_queue_size"
   ],
   "note": ""
  },
  {
   "property": "C08",
   "status": "proved",
   "theorems": [
    "C08_failed_task_has_no_result",
    "C08_done_reports_pointer",
    "C08_finished_is_final"
   ],
   "note": ""
  },
  {
   "property": "C09",
   "status": "partial",
   "theorems": [
    "C09_queue_more_later_refuted",
    "C09_queue_more_partial"
   ],
   "note": "False of the code: last_dep is not reset when the queue is drained, so queueing again aborts. Proved for a non-empty queue or a task on which nothing was queued before."
  },
  {
   "property": "C10",
   "status": "partial",
   "theorems": [
    "C10_parse_in_bounds_partial",
    "C10_parse_defined_partial",
    "C10_count_ends_partial",
    "C10_store_ends",
    "C10_overflow_refuted"
   ],
   "note": "Bounds and progress hold for every string; a width or precision of ten or more digits can overflow int (undefined behaviour), shown reachable. Strings without ten digits in a row are proved free of it."
  },
  {
   "property": "C11",
   "status": "partial",
   "theorems": [
    "C11_count_partial",
    "C11_adjacent_refuted",
    "C11_percent_refuted"
   ],
   "note": "Proved for formats where a conversion is followed by the end or a literal character; false otherwise (the character behind a conversion is skipped), witnesses given."
  },
  {
   "property": "C12",
   "status": "partial",
   "theorems": [
    "C12_parse_recovers_partial",
    "C12_parse_most_partial",
    "C12_space_refuted",
    "C12_width_refuted"
   ],
   "note": "Exact for all directives without the flags '0' and ' '. With them the flag is misreported and numbers are read in base 8; witnesses given; everything else proved right."
  },
  {
   "property": "C13",
   "status": "partial",
   "theorems": [
    "C13_store_matches_partial",
    "C13_percent_refuted",
    "C13_unsupported_refuted",
    "C13_nonempty_refuted"
   ],
   "note": "Proved for separated formats without '%%', supported conversions, strings below 8 characters, empty storage; each restriction shown necessary by a witness."
  },
  {
   "property": "C14",
   "status": "partial",
   "theorems": [
    "C14_string_fits_partial",
    "C14_string_fits_anywhere_partial",
    "C14_overflow_refuted"
   ],
   "note": "False as stated: the buffer has the size of a pointer. Proved that the copy stays in bounds exactly for strings below 8 characters."
  },
  {
   "property": "C15",
   "status": "proved",
   "theorems": [
    "C15_first_match"
   ],
   "note": "Also with words that are not pairs mixed in."
  },
  {
   "property": "C16",
   "status": "proved",
   "theorems": [
    "C16_safe_on_any_text"
   ],
   "note": ""
  },
  {
   "property": "C17",
   "status": "partial",
   "theorems": [
    "C17_rendering_lossless_partial",
    "C17_huge_array_refuted"
   ],
   "note": "Proved for arrays below 2^30 elements; from 2^30 characters that need an escape the int length computation overflows (proved)."
  },
  {
   "property": "C18",
   "status": "partial",
   "theorems": [
    "C18_bitfield_read_partial",
    "C18_typed_read_partial"
   ],
   "note": "widths 1..30 of all integer types; above that the code has undefined behaviour (C20_int_width_31_refuted)"
  },
  {
   "property": "C19",
   "status": "partial",
   "theorems": [
    "C19_bitfield_write_partial",
    "C19_typed_write_partial",
    "C19_read_back"
   ],
   "note": "widths 1..30 ending within 32 bits of the field's first byte; beyond that false (C20_wide_write_refuted)"
  },
  {
   "property": "C20",
   "status": "partial",
   "theorems": [
    "C20_int_width_31_refuted",
    "C20_packed_refuted",
    "C20_wide_write_refuted"
   ],
   "note": "false of the code: counterexamples for width 31, for packed fields crossing the storage unit and for writes of wide fields of 64-bit types; the range where it holds is C18/C19"
  },
  {
   "property": "C21",
   "status": "proved",
   "theorems": [
    "C21_offsets",
    "C21_dwarf3_dwarf4_agree"
   ],
   "note": "metac_entry_member_bitfield_offsets"
  },
  {
   "property": "C22",
   "status": "proved",
   "theorems": [
    "C22_read_sound",
    "C22_read_complete",
    "C22_read_other_type",
    "C22_write_sound",
    "C22_write_complete",
    "C22_round_trip",
    "C22_one_type"
   ],
   "note": "all 17 C types; object bytes for objects that are not bit-fields (bit-fields: C18, C19)"
  },
  {
   "property": "C23",
   "status": "partial",
   "theorems": [
    "C23_read",
    "C23_write",
    "C23_round_trip",
    "C23_name",
    "C23_name_unique",
    "C23_failed_write",
    "C23_text",
    "C23_unsigned_refuted"
   ],
   "note": "values representable as signed numbers round trip, names and decimal texts are right; for unsigned enumerators above the signed range the claim is false (C23_unsigned_refuted)"
  },
  {
   "property": "C24",
   "status": "partial",
   "theorems": [
    "C24_const_enumeration_refuted",
    "C24_const_pointer_refuted",
    "C24_enumeration_bitfield_refuted"
   ],
   "note": "false of the code: the setters of enumerations and pointers ignore const and bit-field positions"
  },
  {
   "property": "C25",
   "status": "proved",
   "theorems": [
    "C25_integer",
    "C25_enumeration",
    "C25_only_numbers"
   ],
   "note": "metac_value_num; a bool object holding neither 0 nor 1 is undefined behaviour and excluded"
  },
  {
   "property": "C26",
   "status": "proved",
   "theorems": [
    "C26_final_entry",
    "C26_complete",
    "C26_idempotent",
    "C26_terminates"
   ],
   "note": "metac_entry_final_entry on an arbitrary graph of entries; termination for graphs without cycles through typedefs and qualifiers (every C program's debug information)"
  },
  {
   "property": "C27",
   "status": "proved",
   "theorems": [
    "C27_byte_size",
    "C27_size_unique",
    "C27_size_of_final_type",
    "C27_terminates"
   ],
   "note": "metac_entry_byte_size; the size is reported modulo 2^64 as in C"
  },
  {
   "property": "C28",
   "status": "proved",
   "theorems": [
    "C28_member_path",
    "C28_member_path_final",
    "C28_member_path_terminates",
    "C28_parameter"
   ],
   "note": "metac_entry_by_member_ids and metac_entry_by_paremeter_ids"
  },
  {
   "property": "C29",
   "status": "partial",
   "theorems": [
    "C29_element",
    "C29_element_exists",
    "C29_tiles",
    "C29_member",
    "C29_member_exists",
    "C29_huge_array_refuted"
   ],
   "note": "arrays of up to INT_MAX elements; longer ones are refused because the count is truncated to int (C29_huge_array_refuted)"
  },
  {
   "property": "C30",
   "status": "proved",
   "theorems": [
    "C30_database_lookup",
    "C30_at_most_one"
   ],
   "note": "metac_entry_from_entry_db over sorted tables as emitted by the generator"
  },
  {
   "property": "C31",
   "status": "proved",
   "theorems": [
    "C31_lookup",
    "C31_answer_unique",
    "C31_terminates",
    "C31_set",
    "C31_found_after_set",
    "C31_reachable"
   ],
   "note": "Lookup returns the answer of the first responsible category, unique; set binds exactly one entry or leaves the map as it was. Stated for entries of the database (not entries made at run time)."
  },
  {
   "property": "C32",
   "status": "partial",
   "theorems": [
    "C32_fallback_ndebug_partial",
    "C32_fallback_refuted"
   ],
   "note": "Holds when compiled with NDEBUG; in the default build the fallback runs into assert(0) (src/entry_tag.c:185), shown by C32_fallback_refuted."
  },
  {
   "property": "C33",
   "status": "proved",
   "theorems": [
    "C33_count_by",
    "C33_string",
    "C33_container_of",
    "C33_union",
    "C33_union_constant",
    "C33_union_no_case",
    "C33_cast",
    "C33_wide_count_refuted",
    "C33_flexible_string_refuted"
   ],
   "note": "All siblings (members and parameters, at any position), numbers that fit int, plain integers, enumerations and bit-fields of up to 30 bits (see C18, C20); strings shorter than 2^31 - 1. Beyond the stated scope: numbers that do not fit an int are cut to 32 bits (C33_wide_count_refuted); flexible arrays of characters are refused although documented as supported (C33_flexible_string_refuted)."
  },
  {
   "property": "C34",
   "status": "partial",
   "theorems": [
    "C34_count_by_missing",
    "C34_union_missing",
    "C34_cast_selector_missing",
    "C34_never_crash_partial",
    "C34_cast_count_refuted",
    "C34_out_of_memory_refuted",
    "C34_union_case_missing",
    "C34_unnamed"
   ],
   "note": "Proved for all handlers, contexts, events and types except: a pointer cast whose count sibling does not exist crashes (C34_cast_count_refuted, metac_value_delete(NULL)); so do count-by and union selection when the value of a sibling cannot be allocated (C34_out_of_memory_refuted). The full statement is false of the code."
  },
  {
   "property": "C35",
   "status": "partial",
   "theorems": [
    "C35_history",
    "C35_read",
    "C35_history_failures_partial",
    "C35_missing_storage_refuted"
   ],
   "note": "Proved for all programs over any number of storages and nesting depths while no allocation fails; with failing allocations every outcome is described, but a nested storage can be missing though success was reported (refuted)."
  },
  {
   "property": "C36",
   "status": "partial",
   "theorems": [
    "C36_copy",
    "C36_copy_failures_partial",
    "C36_self_copy_hangs",
    "C36_abort_refuted",
    "C36_missing_storage_refuted"
   ],
   "note": "Deep, equal and separate copies proved for all storages while no allocation fails, source and destination in different storages. Refuted parts: an allocation failure can hit an assertion; a storage that lost a nested storage cannot be copied; self copy does not terminate."
  },
  {
   "property": "C37",
   "status": "partial",
   "theorems": [
    "C37_blocks",
    "C37_delete_all",
    "C37_double_free_detected"
   ],
   "note": "All programs of storage operations with any allocations failing. _handle_subprogram is not covered here."
  },
  {
   "property": "C38",
   "status": "proved",
   "theorems": [
    "C38_sweep",
    "C38_empty_range",
    "C38_overlap_refuted"
   ],
   "note": "For nested or disjoint ranges. Zero-size ranges and partly overlapping ranges are treated separately (C38_empty_range, C38_overlap_refuted)."
  },
  {
   "property": "C39",
   "status": "partial",
   "theorems": [
    "C39_once",
    "C39_exact",
    "C39_handlers_local",
    "C39_empty_refuted",
    "C39_frees_value_refuted",
    "C39_hidden_refuted"
   ],
   "note": "Exactly the reachable blocks are freed, once each, for data in blocks held by a pointer to their start and with coherent pointer types along cycles (C39_exact); metac's own handlers satisfy what is asked of handlers (C39_handlers_local); no double free and nothing freed on failure in every case (C39_once). False without these conditions: refutations. Captured calls are covered (C39_call_example); va_list parameters not modelled."
  },
  {
   "property": "C40",
   "status": "proved",
   "theorems": [
    "C40_map_terminates",
    "C40_all_terminate",
    "C40_with_handlers"
   ],
   "note": "Handlers must return and must choose a member or an array of the same elements (tame), which metac's own handlers do on any tags (C40_with_handlers); with no by-value recursion of types. Captured calls are covered, when storages are nested finitely often (finite_calls); va_list parameters are not modelled."
  },
  {
   "property": "C41",
   "status": "partial",
   "theorems": [
    "C41_copy_partial",
    "C41_copy_equal",
    "C41_stale_refuted",
    "C41_self_refuted",
    "C41_short_block_refuted",
    "C41_shared_inner_refuted"
   ],
   "note": "Default (sharing) mode, data in blocks each held by a pointer to its start: one injective translation of addresses describes the whole result (scalars equal, pointers translated incl. shared, cyclic and inner ones, everything else unchanged, new blocks only), and metac_value_equal_ex of source and copy returns 1 (C41_copy_equal). The statement is false for: destinations that are not zero (NULL is not copied), pointers to the value itself, objects reached through a smaller type first; two pointers to the same inner address make the copy fail. Copies as trees: C82. Captured calls: C59."
  },
  {
   "property": "C42",
   "status": "partial",
   "theorems": [
    "C42_symmetric",
    "C42_transitive",
    "C42_reflexive",
    "C42_never_differs_from_itself",
    "C42_equal_means",
    "C42_relocated_equal",
    "C42_mirrored_equal",
    "C42_sharing_refuted",
    "C42_loop_address_refuted",
    "C42_hidden_refuted"
   ],
   "note": "Symmetric, transitive, reflexive; captured calls included (C58); a result of 1 means: whatever way is followed through both values in lockstep (loops not cut), the two places found are of the same kind, with equal base values, enumeration values, union members, lengths and NULL pointers. Conversely two relocated versions of the same data (any pieces moved anywhere, pointers adjusted) give 1 (C42_relocated_equal), and in tree mode so do two structures that are like a third one on every way, however they share (C42_mirrored_equal). Sharing itself is not compared, and as_values mode compares addresses of loops (refutations)."
  },
  {
   "property": "C43",
   "status": "partial",
   "theorems": [
    "C43_released_partial",
    "C43_tree_leak_refuted",
    "C43_tree_wrong_free_refuted"
   ],
   "note": "Holds in DAG mode (the default); false in tree mode."
  },
  {
   "property": "C44",
   "status": "proved",
   "theorems": [
    "C44_one_placeholder",
    "C44_variable",
    "C44_others_null"
   ],
   "note": "For databases whose names contain no percent sign (C identifiers). Allocation failure is not modelled."
  },
  {
   "property": "C45",
   "status": "partial",
   "theorems": [
    "C45_injective_partial",
    "C45_refuted",
    "C45_qualifiers_refuted"
   ],
   "note": "Equal texts mean equal types for regular types (see C50) without anonymous parts and with proper names; false in general: pointer to array and array of pointers, const volatile pointer and volatile pointer to const have the same text."
  },
  {
   "property": "C46",
   "status": "proved",
   "theorems": [
    "C46_level_and_ancestors"
   ],
   "note": ""
  },
  {
   "property": "C47",
   "status": "proved",
   "theorems": [
    "C47_state_read_back",
    "C47_context_read_back"
   ],
   "note": ""
  },
  {
   "property": "C48",
   "status": "proved",
   "theorems": [
    "C48_copy",
    "C48_copy_sound",
    "C48_equal",
    "C48_equal_same_type",
    "C48_pointer",
    "C48_pointer_sound",
    "C48_equal_enumeration",
    "C48_equal_enumeration_sound",
    "C48_copy_enumeration",
    "C48_copy_enumeration_sound",
    "C48_copied_enumeration",
    "C48_equal_pointer",
    "C48_equal_pointer_sound",
    "C48_copy_pointer",
    "C48_copy_pointer_sound",
    "C48_copied_pointer"
   ],
   "note": "copy of objects that are not bit-fields as bytes, of bit-fields through C48_copy_sound with C18/C19; floating point comparison is a parameter; enumerations and pointers are read and written as whole objects (for bit-fields see C24)"
  },
  {
   "property": "C49",
   "status": "partial",
   "theorems": [
    "C49_contexts_released_once",
    "C49_leak_refuted",
    "C49_same_context_refuted"
   ],
   "note": "Contexts: proved for all histories (as multisets, so exactly once when the contexts are different). Memory: freed completely unless hashmapPut fails, where the text of the tag leaks (C49_leak_refuted); overriding with the same context releases a context in use (C49_same_context_refuted)."
  },
  {
   "property": "C50",
   "status": "proved",
   "theorems": [
    "C50_type",
    "C50_variable",
    "C50_function",
    "C50_pointer_to_array_refuted",
    "C50_qualified_pointer_refuted",
    "C50_function_result_refuted"
   ],
   "note": "The three refutations show the text declaring another type outside the stated scope."
  },
  {
   "property": "C51",
   "status": "proved",
   "theorems": [
    "C51_reads_back",
    "C51_sound",
    "C51_char_quote_refuted",
    "C51_char_backslash_refuted"
   ],
   "note": "floating point texts are an arbitrary function; allocations inside the function succeed; a single quote or backslash char is outside of the claim because it is false there (the two refutations)"
  },
  {
   "property": "C52",
   "status": "proved",
   "theorems": [
    "C52_injective",
    "C52_shows_one",
    "C52_says_one"
   ],
   "note": "over the reader of TextSpec"
  },
  {
   "property": "C53",
   "status": "proved",
   "theorems": [
    "C53_terminates",
    "C53_returns",
    "C53_cycle_null",
    "C53_bool_refuted"
   ],
   "note": "functions and va_list values are not modelled; a bool object holding neither 0 nor 1 is undefined behaviour (C53_bool_refuted) and outside of the claim"
  },
  {
   "property": "C54",
   "status": "partial",
   "theorems": [
    "C54_captures_partial",
    "C54_ordinary",
    "C54_reused_storage_refuted",
    "C54_va_list_unhandled_refuted"
   ],
   "note": "Scope as stated: an empty storage and a handler for every va_list or '...' parameter. Outside that scope it is false (the two _refuted theorems): a storage already in use is overwritten, a va_list parameter without handler is not consumed. Structures passed by value: the model reads the structure itself where the generated code reads a stand-in of characters, which is right exactly for the structures of C73."
  },
  {
   "property": "C55",
   "status": "partial",
   "theorems": [
    "C55_life",
    "C55_failure",
    "C55_failure_life",
    "C55_result_life",
    "C55_struct_double_free_refuted",
    "C55_value_leak_refuted",
    "C55_storage_leak_refuted",
    "C55_new_leak_refuted"
   ],
   "note": "Proved for captured calls and for every listed way of failing. The full statement is false of the code, shown by the _refuted theorems: double free for a struct without va_arg function, leaked value for a '...' without handler, leaked storage when the handle is lost, leaked storage when the value cannot be allocated."
  },
  {
   "property": "C56",
   "status": "partial",
   "theorems": [
    "C56_stores",
    "C56_unknown",
    "C56_handler",
    "C56_handler_refuses",
    "C56_call",
    "C56_call_refused",
    "C56_percent_refuted",
    "C56_string_refuted",
    "C56_leak_refuted"
   ],
   "note": "Proved for formats without %% whose conversions are separated by text, strings shorter than 8 characters, and memory never short while a string is captured. Each restriction is needed: the general statement is refuted (percent sign, string of 8 characters, leak of the entry of a string)."
  },
  {
   "property": "C57",
   "status": "proved",
   "theorems": [
    "C57_reads_back",
    "C57_sound",
    "C57_injective",
    "C57_says_one",
    "C57_shows_one",
    "C57_returns",
    "C57_empty_ellipsis_null",
    "C57_lost_argument_null",
    "C57_other_values",
    "C57_every_call_refuted",
    "C57_empty_va_list_refuted",
    "C57_untyped_argument_refuted"
   ],
   "note": "For calls whose names and words can be read without ambiguity (call_readable; TextSpec for values). Defects: a call without variadic arguments has no text; a va_list without arguments is undefined behaviour (NULL printed with percent s); an argument behind an ellipsis whose type has no declaration text makes the library free the text twice. The captured items are given by a function from addresses to items, allocation does not fail."
  },
  {
   "property": "C58",
   "status": "partial",
   "theorems": [
    "C58_equal_calls",
    "C58_functions_refuted"
   ],
   "note": "A result of 1 for two captured calls: same number of arguments, and every walk through both in lockstep meets alike places (steady data: a pointer with the address of a pointer above it leads to the same object). Symmetry, transitivity and reflexivity are C42's, which cover calls. Which function was called is not compared (refutation). va_list parameters not modelled."
  },
  {
   "property": "C59",
   "status": "partial",
   "theorems": [
    "C59_copy_partial",
    "C59_variadic",
    "C59_failed_refuted"
   ],
   "note": "Default (sharing) mode, arguments none of which is an ellipsis, data in blocks each held by a pointer to its start: the new storage has one argument per argument in buffers of its own, one injective translation of addresses describes the result, other storages are unchanged. Calls with variable arguments are never copied in any mode (C59_variadic). A failed copy leaves its part in the destination's storage (refutation). Missing: copies as trees, an empty ellipsis, va_list parameters."
  },
  {
   "property": "C60",
   "status": "proved",
   "theorems": [
    "C60_map",
    "C60_map_only",
    "C60_free",
    "C60_equal",
    "C60_rejected_refuted",
    "C60_types_refuted"
   ],
   "note": "visible says what the library needs to see; the converse (C60_map_only) shows that nothing less would do (apart from addresses being non-zero). Data that are rejected can lead to a use after free (refutation). Captured calls are included; va_list parameters are not modelled."
  },
  {
   "property": "C61",
   "status": "partial",
   "theorems": [
    "C61_copy_partial",
    "C61_const_refuted"
   ],
   "note": "Default (sharing) mode: success and result of the copy, for any allocator that returns memory for as many blocks as there are; copies as trees: C82_total_partial. Constant numbers make the copy fail (refutation), as do two pointers to the same inner place (C41_shared_inner_refuted). Missing: ignored unions, in the default mode a destination that is not zero."
  },
  {
   "property": "C62",
   "status": "partial",
   "theorems": [
    "C62_copy_free_partial",
    "C62_life_cycle_partial",
    "C62_tree_free_partial",
    "C62_tree_life_partial"
   ],
   "note": "Sharing mode: for the copies of C41/C61 (data in blocks each held by a pointer to its start; pointers not taken as values). Tree mode: for the copies of C82 (any sharing in the source), in all modes for unions and pointers. Handlers say the same about the copy as about the source; no handlers satisfy this. Missing: in sharing mode other layouts, for which C41 has refutations, unions ignored, pointers taken as values."
  },
  {
   "property": "C63",
   "status": "partial",
   "theorems": [
    "C63_contexts_partial",
    "C63_nothing_left",
    "C63_case_names_refuted"
   ],
   "note": "Proved for all client histories and all patterns of failing allocations. The names inside the cases of a union must be literals: they are copied as pointers only, so a context with a name the client frees or changes is read through a dangling or changed string (C63_case_names_refuted)."
  },
  {
   "property": "C64",
   "status": "partial",
   "theorems": [
    "C64_maps_partial",
    "C64_map_refuted",
    "C64_hash_refuted",
    "C64_pointer_refuted",
    "C64_iterator_refuted",
    "C64_node_refuted",
    "C64_twice_refuted"
   ],
   "note": "Proved for all data and all failures of the other allocations. False in general: without memory for the map or the hash map the copy of the value is lost, for the entry of a pointer the iterator asserts, for the iterator or its nodes NULL is accessed or a member is lost (C64_map, hash, pointer, iterator, node_refuted); in DAG mode a pointer to an object whose entry was released with a rejected part reads that entry (C64_twice_refuted)."
  },
  {
   "property": "C65",
   "status": "partial",
   "theorems": [
    "C65_settings_partial",
    "C65_order",
    "C65_null_refuted",
    "C65_grouping_refuted"
   ],
   "note": "Exact description of the settings after any number of overrides; fails only for a document that does not parse. Missing because false: an override that is the YAML document null panics (refuted). Overrides cannot be combined beforehand (refuted). The YAML parser is an argument."
  },
  {
   "property": "C66",
   "status": "proved",
   "theorems": [
    "C66_ids"
   ],
   "note": ""
  },
  {
   "property": "C67",
   "status": "partial",
   "theorems": [
    "C67_merged_partial",
    "C67_ends",
    "C67_meaning_partial",
    "C67_names_refuted",
    "C67_arrays_refuted",
    "C67_bits_refuted",
    "C67_declarations_refuted"
   ],
   "note": "For all graphs of types and all orders. Missing because false (refuted by witnesses): types with the same name in two units that differ in the types of their members; links out of the database for nested arrays in two units, depending on the order; the unit of DWARF 2/3 bit-fields is not compared; pointers to declarations instead of definitions, depending on the order. Names without , : ( )."
  },
  {
   "property": "C68",
   "status": "proved",
   "theorems": [
    "C68_arrays"
   ],
   "note": "int64 without wrap; elements always have a type."
  },
  {
   "property": "C69",
   "status": "proved",
   "theorems": [
    "C69_tree"
   ],
   "note": "debug/dwarf is an input: the stream of entries."
  },
  {
   "property": "C70",
   "status": "partial",
   "theorems": [
    "C70_unstructured",
    "C70_field_partial",
    "C70_json_refuted",
    "C70_files_refuted"
   ],
   "note": "Maps and lists: proved (for entries whose list of files is not an empty one: refuted otherwise). YAML: proved. JSON: proved for numbers up to 2^53 and blocks that are not empty; otherwise refuted. The text of numbers in JSON and YAML is modelled by what Marshal and Unmarshal together do."
  },
  {
   "property": "C71",
   "status": "partial",
   "theorems": [
    "C71_lookup_partial",
    "C71_backslash_refuted"
   ],
   "note": "Tree of scopes to requests, to the printed database, to the binary search of src/entry_db.c. Proved for paths without backslashes and names that are identifiers; C71_backslash_refuted: with Windows paths the file table is sorted before backslashes are rewritten and a declaration is not found."
  },
  {
   "property": "C72",
   "status": "partial",
   "theorems": [
    "C72_sound",
    "C72_complete",
    "C72_once_partial",
    "C72_twice_refuted"
   ],
   "note": "Sound and complete for all programs; defined once when one module links each symbol by one variable and no unit has two global objects of one name; C72_twice_refuted: a link seen in two units is answered twice."
  },
  {
   "property": "C73",
   "status": "partial",
   "theorems": [
    "C73_captured_partial",
    "C73_unsafe_refuted"
   ],
   "note": "x86-64 (System V). Proved for all calls whose structures are safe: aligned to at most 8 and either bigger than 16 bytes or without packed members and long double and with an integer, pointer or enumeration in every eight bytes. False for every other structure: C73_unsafe_refuted constructs a call for each; struct { double d; } is the simplest example. The compiler's calling convention is modelled from the psABI."
  },
  {
   "property": "C74",
   "status": "partial",
   "theorems": [
    "C74_types",
    "C74_links_partial",
    "C74_accepts",
    "C74_ends",
    "C74_lost_refuted"
   ],
   "note": "Exactly the declared types and the inner dimensions of arrays; all data of the expected form is taken; the builder ends. Links are closed when the types referred to are declared in visited places and structures have only members and nested types (C++ methods not considered); a type below an inlined call is lost without an error (refuted)."
  },
  {
   "property": "C75",
   "status": "partial",
   "theorems": [
    "C75_faithful_partial",
    "C75_size",
    "C75_members",
    "C75_opaque_refuted"
   ],
   "note": "Composition of builder, merging, printed text and run time, under the one definition rule and the conditions of C67; nothing is said where the run time has a declaration: a typedef of a structure that another unit only declares may have size 0 (refuted)."
  },
  {
   "property": "C76",
   "status": "proved",
   "theorems": [
    "C76_sound",
    "C76_known",
    "C76_signed_char_refuted",
    "C76_order_refuted"
   ],
   "note": "Soundness for all names; completeness for the names GCC and Clang use. The two refutations are about what lies beyond the property: there is no function for signed char, and some orders of words are unknown."
  },
  {
   "property": "C77",
   "status": "partial",
   "theorems": [
    "C77_found",
    "C77_objects_partial",
    "C77_size",
    "C77_parameters"
   ],
   "note": "Which objects there are, and size and parameters through the API, in full; agreement of the types as in C75 (one definition rule, declarations, places where the builder looks)."
  },
  {
   "property": "C78",
   "status": "partial",
   "theorems": [
    "C78_names",
    "C78_link_refuted",
    "C78_modules_refuted"
   ],
   "note": "The lists of names are right (C78_names, names that JSON and C do not escape). Access through the macros is false: reflect/db.h declares a pointer, _db_v0.tpl defines the structure under that symbol, so METAC_DB_LINK_PTR() reads the version and is NULL (C78_link_refuted); only one module of a program gets a symbol (C78_modules_refuted)."
  },
  {
   "property": "C79",
   "status": "proved",
   "theorems": [
    "C79_tests",
    "C79_once"
   ],
   "note": "The tests run are the values of the file scope variables metac__test_..., in order; once each when each is defined once."
  },
  {
   "property": "C80",
   "status": "partial",
   "theorems": [
    "C80_first",
    "C80_refused",
    "C80_by_file",
    "C80_empty_refuted",
    "C80_file_refuted"
   ],
   "note": "First path, refusal of names and running by file are proved. False: with a name and a file, the search does not look at the file (C80_file_refuted); an empty name of an included module is not refused (C80_empty_refuted)."
  },
  {
   "property": "C81",
   "status": "partial",
   "theorems": [
    "C81_includes_partial",
    "C81_runs",
    "C81_includes_refuted",
    "C81_directory_partial",
    "C81_directory_refuted"
   ],
   "note": "Holds when all known kinds have one factory (as in the command) and, for the directory, when it can be entered and the template succeeds. False: with two kinds an included module of the other kind is left out silently; a failing template leaves the process in the other directory; a directory that cannot be entered is ignored."
  },
  {
   "property": "C82",
   "status": "partial",
   "theorems": [
    "C82_tree_partial",
    "C82_total_partial",
    "C82_equal_partial",
    "C82_again_partial",
    "C82_stale_refuted",
    "C82_loop_address_refuted"
   ],
   "note": "Tree mode, all modes for unions and unknown pointers, any handlers that depend on local memory only (uf_local). Assumed of the source: bytes, base types of C that are no bit-fields, parts of an object do not overlap, pointers lead into their targets, no function values. Success (C82_total_partial) as soon as calloc_fn has a block for each way to a pointer that leads somewhere. Comparison with the source gives 1 (C82_equal_partial) when handlers say the same about copy and source and pointers are not taken as values: in that mode addresses of loops are compared (C82_loop_address_refuted). The copy itself satisfies what is assumed of sources (C82_again_partial). Destination zero in the modes that leave NULL pointers out (refuted otherwise, C82_stale_refuted). Release of copies: C62; of failed tree copies: refuted in C43."
  },
  {
   "property": "C83",
   "status": "partial",
   "theorems": [
    "C83_parents",
    "C83_goes",
    "C83_known_partial",
    "C83_arrays",
    "C83_known_refuted"
   ],
   "note": "Count, entries and NULL for all orders of the iteration, and the parents of dimensions of arrays, in full. That a parent which is a type is generated: proved where scopes that are types are not inside of types; refuted for arrays of three dimensions in two units (C83_known_refuted: the id of the parent is empty). Not modelled: scopes other than types (their entries are taken as given), imported units and modules."
  },
  {
   "property": "C84",
   "status": "proved",
   "theorems": [
    "C84_is_pointer",
    "C84_is_void_pointer",
    "C84_is_declaration_pointer",
    "C84_pointer_entry",
    "C84_element_entry",
    "C84_member_count",
    "C84_member_index",
    "C84_member_at",
    "C84_parameter_count",
    "C84_parameter_index",
    "C84_parameter_at",
    "C84_enumerator",
    "C84_check_base_type",
    "C84_check_aborts",
    "C84_new_element_count",
    "C84_new_element_size",
    "C84_ends"
   ],
   "note": "For every database and entry, whenever the call returns; C84_ends: they return when typedefs are not cyclic (check_base_type unless the base type has no name, where assert fails: C84_check_aborts)."
  },
  {
   "property": "C85",
   "status": "proved",
   "theorems": [
    "C85_flags",
    "C85_one_kind",
    "C85_base_type",
    "C85_enumeration_info",
    "C85_enumeration_size",
    "C85_enumeration_walk",
    "C85_enumeration_ends",
    "C85_result",
    "C85_member_entry",
    "C85_parameter_entry",
    "C85_one_ctype",
    "C85_ctype",
    "C85_ctype_is_base"
   ],
   "note": "For every database and entry, whenever the call returns. Sizes and names of the C types are those of x86-64 Linux."
  },
  {
   "property": "C86",
   "status": "proved",
   "theorems": [
    "C86_made",
    "C86_made_always",
    "C86_null",
    "C86_element",
    "C86_element_exists"
   ],
   "note": "Counts up to INT_MAX and arrays that end before the end of the address space (larger arrays: C29_huge_array_refuted)."
  }
 ]
}