{
 "claims": [
  {
   "property": "C01",
   "status": "partial",
   "theorems": [
    "C01_legal_access",
    "C01_legal_access_inside",
    "C01_illegal_access",
    "C01_instruction_confined_partial",
    "C01_run_partial",
    "C01_block_over_gap_refuted",
    "C01_refusal_changes_nothing_refuted",
    "C01_int64_slot_refuted",
    "C01_huge_heap_run_refuted",
    "C01_forged_frame_run_refuted",
    "C01_odd_array_run_refuted",
    "C01_far_slot_run_refuted",
    "C01_low_array_run_refuted",
    "C01_compiled_access_partial",
    "C01_compiled_reference_refuted",
    "C01_compiled_copy_refuted",
    "C01_compiled_index_refuted"
   ],
   "note": "Single accesses: performed iff legal, proved for all; every instruction confined given operand_ok. Whole runs (C01_run_partial): a call into a verified program, through any number of calls, natives and steps, never touches memory outside the plugin's, as long as frame and heap-scope records are not overwritten, array initialisers are aligned, the stack is not below 64 at GENARRAY, 64-bit slots of untyped code or arguments are addressable, and no instruction asks for a gigabyte of heap; each of these conditions is shown necessary by a verified program that faults (_run_refuted). Also refuted: blocks across the gap, half-written 64-bit zeroing, null 64-bit slot. For x64-compiled code: loads and stores through registers are confined (C01_compiled_access_partial); reference parameters, block copies and element addresses from huge indices are not, shown by witnesses."
  },
  {
   "property": "C02",
   "status": "partial",
   "theorems": [
    "C02_ordered_partial",
    "C02_every_operation_partial",
    "C02_refused_operation_does_not_happen",
    "C02_outcome",
    "C02_heap_block",
    "C02_scope_released",
    "C02_tracker_released",
    "C02_run_partial",
    "C02_huge_allocation_refuted",
    "C02_forged_scope_refuted",
    "C02_forged_scope_run_refuted",
    "C02_compiled_crossing_refuted",
    "C02_compiled_heap_refuted"
   ],
   "note": "Proved for disciplined histories (exact outcomes, ordering, refusal, release), and along whole calls into verified programs that do not overwrite frame and heap-scope records (C02_run_partial). Refuted for huge amounts and forged scope links, the latter by a verified program too. Refuted for compiled code, which checks stack room on entry only and compares heap addresses unsigned."
  },
  {
   "property": "C03",
   "status": "proved",
   "theorems": [
    "C03_push_pop",
    "C03_enter_leave",
    "C03_history"
   ],
   "note": "For callees that leave the frame's bookkeeping cells alone, as the property's 'its own locals' says."
  },
  {
   "property": "C04",
   "status": "partial",
   "theorems": [
    "C04_runtime_call",
    "C04_call_partial",
    "C04_low_heap_refuted",
    "C04_forged_link_refuted"
   ],
   "note": "Runtime Invoke: every callee. Function objects: every argument list but 64-bit ones, at least 68 free bytes, callees that leave the heap-scope link alone; the other cases are refuted."
  },
  {
   "property": "C05",
   "status": "proved",
   "theorems": [
    "C05_script_array",
    "C05_fitting_request_granted",
    "C05_host_2d_array"
   ],
   "note": "For sizes that fit and at least 64 bytes of memory below the stack top. Host 2-d allocation included."
  },
  {
   "property": "C06",
   "status": "partial",
   "theorems": [
    "C06_unfit_request_refused_partial",
    "C06_nonpositive_size",
    "C06_too_big",
    "C06_argument_kept_refuted",
    "C06_low_stack_refuted"
   ],
   "note": "Holds with at least 64 bytes below the stack top; the one-dimensional request also overwrites its own argument cell. Without these the English statement is false (two refutations)."
  },
  {
   "property": "C07",
   "status": "partial",
   "theorems": [
    "C07_copy_partial",
    "C07_bad_address",
    "C07_buffer_end_refuted",
    "C07_utf8_invalid_refuted"
   ],
   "note": "Source prefix and terminator proved when the bytes written lie in memory; the buffer's end is not checked by the code, and invalid UTF-8 leaves the buffer unterminated."
  },
  {
   "property": "C08",
   "status": "partial",
   "theorems": [
    "C08_whole_characters_partial",
    "C08_one_byte_refuted",
    "C08_empty_refuted"
   ],
   "note": "Proved for buffers of two bytes or more; refuted for one-byte buffers and for an empty text at address zero."
  },
  {
   "property": "C09",
   "status": "proved",
   "theorems": [
    "C09_flow",
    "C09_run",
    "C09_step",
    "C09_jumps"
   ],
   "note": "Passes over the instruction stream (prescan, scan). For every accepted method: flow from reachable cells lands on instruction starts of the same method; interpreter runs keep every activation inside its method; jumps never fault. Code section below 2 GiB."
  },
  {
   "property": "C10",
   "status": "partial",
   "theorems": [
    "C10_depth_partial",
    "C10_run_partial",
    "C10_negative_count_refuted",
    "C10_locals_not_counted_refuted",
    "C10_replaced_native_refuted"
   ],
   "note": "Static theorem: for methods without negative case counts, every path reaches an instruction with the same number of pushed cells and the instruction's pushes and pops stay within [0, recorded maximum]. C10_run_partial: along whole calls the interpreter's stack pointer is the frame less the local slots less exactly that number of cells, each activation has its own frame and the call returns with the stack it was entered with (same conditions as C01_run_partial). Refuted: negative case counts, local slots missing from the maximum, natives replaced by float instructions."
  },
  {
   "property": "C11",
   "status": "partial",
   "theorems": [
    "C11_scan_partial",
    "C11_build_partial",
    "C11_verify_partial",
    "C11_negative_count_refuted"
   ],
   "note": "The whole verifier (instruction passes, graph, dominators, joins) finishes whenever no case table has a negative count; refuted for negative counts."
  },
  {
   "property": "C12",
   "status": "partial",
   "theorems": [
    "C12_arithmetic_partial",
    "C12_division_error",
    "C12_divide",
    "C12_comparison",
    "C12_shift_count_refuted",
    "C12_overflow_undefined_refuted"
   ],
   "note": "All 32-bit instructions proved two's complement with the documented errors (overflow read as wrapping); shift counts outside 0..31 and signed overflow are C++-undefined: refuted."
  },
  {
   "property": "C13",
   "status": "partial",
   "theorems": [
    "C13_arithmetic_partial",
    "C13_unary",
    "C13_comparison",
    "C13_extend",
    "C13_truncate",
    "C13_test",
    "C13_store_constant",
    "C13_store_value",
    "C13_bad_operand",
    "C13_shift_count_refuted"
   ],
   "note": "64-bit arithmetic, comparison, conversion and stores proved; shift counts outside 0..63 refuted; unaddressable slot: see C01_int64_slot_refuted."
  },
  {
   "property": "C14",
   "status": "proved",
   "theorems": [
    "C14_round_trip",
    "C14_prefix_free"
   ],
   "note": "All three readers, arbitrary context."
  },
  {
   "property": "C15",
   "status": "partial",
   "theorems": [
    "C15_type",
    "C15_signature",
    "C15_view_injective",
    "C15_typeset",
    "C15_typeset_valid_partial",
    "C15_fifty_arguments_refuted",
    "C15_local_slots",
    "C15_type_id",
    "C15_function_entry_point_refuted",
    "C15_skip_const_reference_refuted"
   ],
   "note": "Types, signatures, typesets, local slots and type ids round-trip through an inductive description of the compiler's types whose table indices are given. Refuted parts: a typeset signature with exactly 50 arguments is rejected by the validator; the function-type entry point does not skip the marker; the fast reader cannot skip a const reference."
  },
  {
   "property": "C16",
   "status": "partial",
   "theorems": [
    "C16_validation_stays_inside",
    "C16_typeset_partial",
    "C16_typeset_refuted",
    "C16_skip",
    "C16_validated_decodes_partial",
    "C16_decode_leaves_table_refuted",
    "C16_decode_shift_refuted",
    "C16_decode_null_refuted"
   ],
   "note": "Validation is in bounds and terminates for every table. Decoding a validated type is in bounds only without function markers and over-long integers; witnesses show it is not otherwise."
  },
  {
   "property": "C17",
   "status": "partial",
   "theorems": [
    "C17_validate_partial",
    "C17_accepted",
    "C17_names",
    "C17_find_native",
    "C17_find_public",
    "C17_find_pubvar",
    "C17_debug_partial",
    "C17_validate_refuted",
    "C17_compressed_refuted",
    "C17_debug_breaks_refuted",
    "C17_symbols_refuted"
   ],
   "note": "Any accepted image has its code, data, rows and names inside it (all inputs). Validation itself stays inside for images with honest offsets and room for the fixed structures, without debug breaks; refuted otherwise: name table past the end, .code/.data shorter than their header, RTTI rows of size 0, compressed size wrap, debug tables without type data, 8-byte .dbg.info."
  },
  {
   "property": "C18",
   "status": "partial",
   "theorems": [
    "C18_round_trip",
    "C18_names",
    "C18_names_shared",
    "C18_tables",
    "C18_empty_refuted",
    "C18_many_refuted"
   ],
   "note": "Full round trip for 1 to 255 sections; names and RTTI tables resolve. Refuted: an empty last section is refused, and with 256 sections none is found."
  },
  {
   "property": "C19",
   "status": "proved",
   "theorems": [
    "C19_line",
    "C19_file",
    "C19_function"
   ],
   "note": "Sorted tables; the function is the RTTI method that alone covers the address."
  },
  {
   "property": "C20",
   "status": "proved",
   "theorems": [
    "C20_ids_resolve"
   ],
   "note": "All question histories, by id and by name; a name stands for the last public of that name."
  },
  {
   "property": "C21",
   "status": "proved",
   "theorems": [
    "C21_bindings",
    "C21_determined"
   ],
   "note": "All histories of bind requests."
  },
  {
   "property": "C22",
   "status": "partial",
   "theorems": [
    "C22_push_order",
    "C22_too_many",
    "C04_call_partial",
    "C22_int64_refuted"
   ],
   "note": "Cells, references, arrays and strings proved (the call itself is C04_call_partial); 64-bit arguments are dereferenced as addresses."
  },
  {
   "property": "C23",
   "status": "partial",
   "theorems": [
    "C23_known_codes",
    "C23_unknown_codes_partial",
    "C23_stays_in_table_refuted"
   ],
   "note": "Every documented code has its text and every other code except 34 has none; for 34 the table is read out of bounds (refuted)."
  },
  {
   "property": "C24",
   "status": "partial",
   "theorems": [
    "C24_structured",
    "C24_determined",
    "C24_first_error_refuted"
   ],
   "note": "Scopes refine structured exceptions for host code that returns after an error; 'the first error wins' is refuted for code that reports again while an error is pending (assertion or the last error is kept)."
  },
  {
   "property": "C25",
   "status": "partial",
   "theorems": [
    "C25_loops_poll_partial",
    "C25_switch_loop_refuted",
    "C25_switch_loop_verified_refuted",
    "C25_compiled_polls_partial",
    "C25_compiled_loop_refuted"
   ],
   "note": "Every loop without a SWITCH polls the watchdog; loops closed by SWITCH do not, and the whole verifier accepts one. Compiled code: between recorded backward jumps a run is bounded unless it takes a switch or falls through to an earlier block; a verified method with such a fall-through loops with no recorded jump."
  },
  {
   "property": "C26",
   "status": "proved",
   "theorems": [
    "C26_graph",
    "C26_analysis",
    "C26_refusal",
    "C26_any_graph"
   ],
   "note": "Graph construction and the analyses (ordering, dominators, dominator tree, loop headers) for every accepted method and for every finite graph; refusal exactly of irreducible graphs."
  },
  {
   "property": "C27",
   "status": "partial",
   "theorems": [
    "C27_calc_partial",
    "C27_initialisers",
    "C27_unary",
    "C27_meaning",
    "C27_chain",
    "C27_int_min_refuted",
    "C27_float_not_refuted",
    "C27_float_chain_refuted",
    "C27_ternary_partial",
    "C27_ternary_refuted"
   ],
   "note": "Every operator of the 32-bit folding agrees with the VM running the code it replaces (value, reported error, undefined); INT_MIN / -1 in calc is undefined in the compiler, folded float '!' and float comparison chains disagree with the VM, and the conditional operator's folding reads an unset variable (refuted theorems). Float negation is not modelled."
  },
  {
   "property": "C28",
   "status": "proved",
   "theorems": [
    "C28_value",
    "C28_test",
    "C28_labels",
    "C28_declared_before",
    "C28_later_global_refuted",
    "C28_float_not_refuted"
   ],
   "note": "Code generation for 32-bit integer expressions (locals, globals, references, one-dimensional array cells; all operators, short-circuit tests, chains, ternary, comma, assignments, ++/--) runs in the interpreter model to the value the source semantics gives, with assignments in order, the stack restored, and division/overflow/bounds errors raised where the source has them; stack space for temporaries and no watchdog time-out are assumed. Outside the property: stores to globals declared later go to the wrong address, and if (!f) on a float -0.0 disagrees with !f (both refuted)."
  },
  {
   "property": "C29",
   "status": "proved",
   "theorems": [
    "C29_function",
    "C29_diverges",
    "C29_labels"
   ],
   "note": "If, if/else, while, do/while, for, switch, break, continue, return, declarations and blocks over the expressions of C28, any nesting: the code the model of the generator emits for a function runs in the interpreter model exactly as the body's source semantics says (value returned, variables, first error, or for ever), including the jumps the generator leaves out when flow analysis says a statement cannot be passed. Heap scopes (local arrays), calls, exit, assert, delete and int64 are not in these statements."
  },
  {
   "property": "C30",
   "status": "proved",
   "theorems": [
    "C30_patched"
   ],
   "note": "All histories of the emitting interface over any number of labels and data labels, with each label placed at most once and the code below 1 GB (the code's own assertions). Out of memory is not modelled."
  },
  {
   "property": "C31",
   "status": "partial",
   "theorems": [
    "C31_global_cells",
    "C31_local_cells",
    "C31_scalar",
    "C31_global_partial",
    "C31_local_partial",
    "C31_struct_partial",
    "C31_int64_short_refuted",
    "C31_int64_ellipsis_refuted",
    "C31_char_list_refuted",
    "C31_struct_char_list_refuted",
    "C31_struct_ellipsis_refuted",
    "C31_literal_ellipsis_refuted",
    "C31_struct_excess_refuted",
    "C31_decl_refuted"
   ],
   "note": "Proved in full for arrays of cells, global and local (run through HEAP and INITARRAY.ALT); for characters, 64-bit integers and enum structs under the condition 'plain'; the accepted initialisers it leaves out are refuted. Dynamic (new) arrays are C05/C06."
  },
  {
   "property": "C32",
   "status": "partial",
   "theorems": [
    "C32_number",
    "C32_number_big",
    "C32_number_silent",
    "C32_number_safe",
    "C32_int64_partial",
    "C32_int64_beyond",
    "C32_int64_refuted",
    "C32_character",
    "C32_char_literal",
    "C32_char_open",
    "C32_character_silent_partial",
    "C32_utf8",
    "C32_string",
    "C32_string_open",
    "C32_string_safe_partial",
    "C32_char_safe_partial",
    "C32_string_turns",
    "C32_hex_refuted",
    "C32_code_refuted",
    "C32_beyond_refuted",
    "C32_overlong_refuted",
    "C32_quote_refuted",
    "C32_slash_refuted"
   ],
   "note": "Numbers, escapes, UTF-8, character and string literals: texts are read as what they spell, and what is read without a message is what it spells, but for the texts listed as misread (\\x without digits, \\U beyond 31 bits, bytes that are not UTF-8, a NUL), which are refuted. Missing: rational numbers behind the point, strings in triple quotes; the literal 2^63-1 after an earlier range error, and texts that end in a quote or backslash, are refuted."
  },
  {
   "property": "C33",
   "status": "proved",
   "theorems": [
    "C33_bytes",
    "C33_minimal"
   ],
   "note": "All byte strings."
  },
  {
   "property": "C34",
   "status": "proved",
   "theorems": [
    "C34_maps_back",
    "C34_no_collision",
    "C34_macro_flag",
    "C34_shown_line"
   ],
   "note": "For every history of inclusions and macro expansions (texts shorter than 4 GiB, expansions at positions handed out earlier) with lookups in between. The end of a file is reported as column 0. Opening and comparing paths is not modelled; a range refused for lack of room (error 422) hands out no positions."
  },
  {
   "property": "C35",
   "status": "proved",
   "theorems": [
    "C35_data",
    "C35_equal_data",
    "C35_never_changes",
    "C35_refusal",
    "C35_names"
   ],
   "note": "Byte buffer growth, data pool and name table as association lists; hashing, atom interning and host allocation failure are outside the model."
  },
  {
   "property": "C36",
   "status": "partial",
   "theorems": [
    "C36_any_pieces",
    "C36_one_piece",
    "C36_all_pieces_refuted"
   ],
   "note": "The digest equals RFC 1321's MD5 of the concatenation for every split whose pieces satisfy chunk_ok (32-bit length; a piece within 63 bytes of 2^32 only at a block boundary), and for every single piece. The literal claim for all splits is false: C36_all_pieces_refuted overruns the input. The RFC's sine table is given as the 64 published constants."
  },
  {
   "property": "C37",
   "status": "proved",
   "theorems": [
    "C37_no_overlap",
    "C37_block"
   ],
   "note": "All histories of requests and releases, assuming the operating system returns memory that does not overlap pools still mapped. Reference counting is represented by which blocks are live."
  },
  {
   "property": "C38",
   "status": "partial",
   "theorems": [
    "C38_fire",
    "C38_restored_partial",
    "C38_handled_partial",
    "C38_progress_partial",
    "C38_shutdown_partial",
    "C38_once_partial",
    "C38_normal_partial",
    "C38_race_refuted",
    "C38_bystander_refuted",
    "C38_late_link_refuted",
    "C38_spurious_wakeup_refuted"
   ],
   "note": "Raised only after two consecutive checks of the same uninterrupted outermost invocation, unless one is entered during the check itself; handling finishes, restores all edges, wakes the timer and later calls are normal, provided nothing is linked while a time-out is pending and wait does not return unasked; refuted in the cases left out. Sequential consistency assumed."
  },
  {
   "property": "C39",
   "status": "proved",
   "theorems": [
    "C39_history",
    "C39_insert",
    "C39_remove",
    "C39_union",
    "C39_take",
    "C39_iterate"
   ],
   "note": "All operations and all histories, unions included; the max_bits assertions and running out of memory are not modelled; FindRightmostBit (AMTL) is modelled by its documented meaning."
  },
  {
   "property": "C40",
   "status": "partial",
   "theorems": [
    "C40_initialiser_partial",
    "C40_unaligned_refuted",
    "C40_overrun_refuted"
   ],
   "note": "Proved for cell-aligned addresses and destinations above static data. Refuted without: an unaligned destination is written past the end of memory, and a destination running from the heap over the gap into the stack is accepted."
  },
  {
   "property": "C41",
   "status": "partial",
   "theorems": [
    "C41_reads_code_partial",
    "C41_verify_reads_partial",
    "C41_reads_code_refuted",
    "C41_merge_refuted"
   ],
   "note": "Scan and whole verifier read only what they are given when no case table has a negative count and the code uses heap scopes; refuted for negative counts and for merging tracker records without heap scopes."
  },
  {
   "property": "C42",
   "status": "partial",
   "theorems": [
    "C42_verified_partial",
    "C42_bad_table_refuted"
   ],
   "note": "Untyped code, or slot tables the compiler writes: a method is run only after verification accepted it, with the slots of the table. Refuted for a slot table that passes image validation but makes the verifier give up silently."
  },
  {
   "property": "C43",
   "status": "partial",
   "theorems": [
    "C43_operands_partial",
    "C43_straddling_global_refuted",
    "C43_untyped_argument_refuted"
   ],
   "note": "Proved for every method without a negative case count: slots, globals (first byte), natives, call targets, sizes and alignments. Refuted: a global may straddle the end of the data; untyped code may name arguments far above its frame."
  },
  {
   "property": "C44",
   "status": "partial",
   "theorems": [
    "C44_line_address_partial",
    "C44_line_address_refuted",
    "C44_function_address_refuted",
    "C44_function_address_endless",
    "C44_count_refuted",
    "C44_no_debug_refuted"
   ],
   "note": "The answer is an entry of the line table at or after the line; refuted: answer in another file, address for a function that does not exist, endless search, shared count, null pointer without debug information."
  },
  {
   "property": "C45",
   "status": "partial",
   "theorems": [
    "C45_bounded_partial",
    "C45_runs_partial",
    "C45_flow",
    "C45_continue_refuted",
    "C45_break_refuted",
    "C45_for_condition_refuted"
   ],
   "note": "Proved: for every path of a function, the heap it holds is bounded by the sum of the sizes written in it independent of loop rounds, it is all given back at the end, and no heap instruction fails while that much is free. The theorem excludes (tame) blocks that own heap, are taken to end in return and contain an escaping break or continue, and for-conditions that allocate; both exclusions are real leaks, exhibited by the refutations."
  },
  {
   "property": "C46",
   "status": "partial",
   "theorems": [
    "C46_compiled_sequence_partial",
    "C46_compiled_stops_partial",
    "C46_compiled_method_partial",
    "C46_compiled_entry_partial",
    "C46_compiled_entry_refusal_partial",
    "C46_compiled_return_partial",
    "C46_last_cell_refuted",
    "C46_negative_bound_refuted",
    "C46_two_byte_store_refuted",
    "C46_overlapping_copy_refuted",
    "C46_window_refuted",
    "C46_float_test_refuted",
    "C46_call_heap_refuted",
    "C46_shared_case_refuted"
   ],
   "note": "Simulation of every instruction with a visitor, of sequences and of whole activations through jumps, branches and switches; errors of the checking instructions; entry to and return from compiled methods. Conditions on which agreement depends are in agrees/checks, each needed (refutations); case tables are right where no two cases in sequence share a body (C46_shared_case_refuted otherwise). Not covered: one run across both caller and callee (frames differ by design, C46_call_heap_refuted), byte encodings, native stack discipline around host calls."
  },
  {
   "property": "C47",
   "status": "partial",
   "theorems": [
    "C47_reading_ends",
    "C47_only_the_grammar",
    "C47_all_of_the_grammar",
    "C47_one_reading",
    "C47_precedence",
    "C47_assignment_right",
    "C47_conditional_right",
    "C47_named_default_refuted",
    "C47_sizeof_parentheses_refuted"
   ],
   "note": "Soundness, completeness, uniqueness and grouping hold for every text; refuted: the name of a default argument passed by name is dropped, and sizeof does not take every operand."
  },
  {
   "property": "C48",
   "status": "partial",
   "theorems": [
    "C48_reading_ends",
    "C48_only_the_grammar_partial",
    "C48_all_of_the_grammar",
    "C48_exactly_the_grammar_partial",
    "C48_one_reading",
    "C48_else_nearest",
    "C48_jumps_in_loops_partial",
    "C48_declarations_in_blocks_partial",
    "C48_exit_refuted",
    "C48_line_end_refuted"
   ],
   "note": "Termination, completeness, uniqueness, else, jumps and declarations hold for every text; what is read is in the grammar for texts without exit statements. Refuted: exit reads its value the wrong way round; with optional semicolons two lines can be one declaration. Array declarations, static, const and enum are not modelled."
  },
  {
   "property": "C49",
   "status": "partial",
   "theorems": [
    "C49_selected_sections",
    "C49_nesting_reported",
    "C49_no_breakdown_partial",
    "C49_included_endif_refuted",
    "C49_second_else_refuted",
    "C49_open_include_refuted"
   ],
   "note": "selection proved for every properly nested text with inclusion and #endinput; misplaced directives of one file are reported exactly; no assertion fails if included files keep to their own sections; refuted: included files closing or turning an outer section fail an assertion, one left open is not reported, a second #else is not always reported"
  },
  {
   "property": "C50",
   "status": "partial",
   "theorems": [
    "C50_macro_call_partial",
    "C50_text_with_comments",
    "C50_argument_with_comments",
    "C50_expansion_ends",
    "C50_one_expansion",
    "C50_backslash_string_refuted",
    "C50_apostrophe_refuted",
    "C50_parameter_lost_refuted",
    "C50_argument_refuted",
    "C50_hash_refuted",
    "C50_own_argument_refuted"
   ],
   "note": "proved for plain texts and arguments, for comments and continued lines within them, and for termination of expansion; refuted: a string of one backslash or a lone apostrophe takes the next source line into the text, a parameter after such a string is not replaced, commas in literals split arguments, # before an undeclared parameter is dropped, a macro in its own argument is not expanded"
  },
  {
   "property": "C51",
   "status": "partial",
   "theorems": [
    "C51_values_converted",
    "C51_values_same_form_partial",
    "C51_arrays_fit_partial",
    "C51_strings_fit_partial",
    "C51_dimensions",
    "C51_functions_agree",
    "C51_signature_arguments_partial",
    "C51_signature_arrays_partial",
    "C51_itself",
    "C51_no_breakdown_partial",
    "C51_any_takes_arrays_refuted",
    "C51_short_string_refuted",
    "C51_wide_elements_refuted",
    "C51_rows_as_any_refuted",
    "C51_void_signature_refuted",
    "C51_callback_arguments_refuted",
    "C51_reference_to_function_refuted"
   ],
   "note": "Values: exact. Arrays and signatures: sound apart from the refuted cases. Refuted parts: any takes arrays and rows, short strings, 64-bit elements as any, callbacks returning int for void unchecked, callbacks' arguments compared the wrong way round, reference to a function type."
  },
  {
   "property": "C52",
   "status": "proved",
   "theorems": [
    "C52_search_ends",
    "C52_live_is_needed",
    "C52_code_for_the_needed",
    "C52_unused_reported"
   ],
   "note": "Reachability, code generation and the report of unused functions, for every program."
  },
  {
   "property": "C53",
   "status": "partial",
   "theorems": [
    "C53_computation_ends",
    "C53_chains_fit_partial",
    "C53_single_fits",
    "C53_no_more_than_needed",
    "C53_other_chains_refuted",
    "C53_huge_request_refuted"
   ],
   "note": "Chains from the function the table lists first; other chains and requests of 2^29 cells or more are refuted. What one function takes is a parameter."
  },
  {
   "property": "C54",
   "status": "partial",
   "theorems": [
    "C54_active_shown_partial",
    "C54_initialised_arrays_refuted",
    "C54_native_number_partial",
    "C54_native_number_refuted",
    "C54_places_once",
    "C54_places_named_partial",
    "C54_no_room_refuted",
    "C54_callee_not_compiled_refuted"
   ],
   "note": "Listings taken by the multi-dimensional array initialiser's helper are excluded (refuted: no return address is pushed); native numbers below 2^28; positions of prologue and failed-compile errors refuted."
  },
  {
   "property": "C55",
   "status": "partial",
   "theorems": [
    "C55_accepted_iff_well_named_partial",
    "C55_innermost_partial",
    "C55_warned_iff_hides_partial",
    "C55_constant_outside_its_value_refuted",
    "C55_one_implementation_refuted",
    "C55_native_is_not_a_half_refuted",
    "C55_order_does_not_matter_refuted"
   ],
   "note": "Names, scopes and shadowing as the compiler keeps them, for whole programs of several files: acceptance, bindings and warnings characterised exactly. Missing: methodmaps, pstructs, types; programs with clashing function names other than one forward and one public (four refutations show what happens)."
  },
  {
   "property": "C56",
   "status": "partial",
   "theorems": [
    "C56_instruction_partial",
    "C56_sequence_partial",
    "C56_constant",
    "C56_compiled_partial",
    "C56_jump",
    "C56_labels",
    "C56_host_call",
    "C56_host_jump",
    "C56_table",
    "C56_length",
    "C56_buffer_partial",
    "C56_out_of_memory_refuted",
    "C56_rax_immediate_refuted",
    "C56_xchg_refuted",
    "C56_sse_destination_refuted",
    "C56_movd_refuted",
    "C56_reversed_refuted",
    "C56_small_operands_refuted",
    "C56_address_refuted"
   ],
   "note": "The round trip of every assembler method through an independent decoder, of sequences of them, of every instruction the x64 compiler emits (X64_Model) except accesses to runtime fields by host address and calls of host functions; jumps backward and forward with labels bound in one pass; rip-relative constants and switch tables, buffer bounds. Missing: lea of labels and patched call thunks. Refuted where the assembler encodes something else: 64-bit immediates on rax, xchg with r8-r15, SSE destinations 8-15, movd, movw, setcc on rsi/rdi, addresses 2^31 to 2^32, writes after memory ran out."
  },
  {
   "property": "C57",
   "status": "partial",
   "theorems": [
    "C57_accepted_partial",
    "C57_right_accepted_partial",
    "C57_named_default_refuted",
    "C57_named_default_refused_refuted",
    "C57_passed",
    "C57_return",
    "C57_native",
    "C57_call"
   ],
   "note": "binding of arguments to parameters, sound and complete where '.name = _' is not written (with it both directions are refuted); the code of a call of a plugin function or a native passes integers, references, arrays and '...' arguments each in its place; a whole call runs the called function's statements from those values and resumes the caller with the value returned. Missing: 64-bit values, string and array literals, results that are arrays, calls within the called function's body"
  },
  {
   "property": "C58",
   "status": "partial",
   "theorems": [
    "C58_value_partial",
    "C58_forward_refuted",
    "C58_void",
    "C58_mixed",
    "C58_mixed_refuted",
    "C58_unreachable"
   ],
   "note": "reports about returns against all runs of the body; refuted for implementations of forwards (never told to return a value) and for a 'return' after a 'return <value>'. Missing: results of more than a cell"
  },
  {
   "property": "C59",
   "status": "partial",
   "theorems": [
    "C59_found_partial",
    "C59_address",
    "C59_refused_refuted",
    "C59_load_refuted",
    "C59_whole_cell_refuted",
    "C59_table"
   ],
   "note": "holds over all histories for images whose public variables are in the data section, and the table of any accepted image is read as written; refuted for others: a refused address is given as null when asked again, loading an accepted image is undefined when NULL_VECTOR's address is bad, and a cell that goes over the end of memory is given"
  }
 ]
}
