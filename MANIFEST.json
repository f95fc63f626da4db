{
 "claims": [
  {
   "property": "C01",
   "status": "proved",
   "theorems": [
    "C01_varuint32_roundtrip"
   ],
   "note": "Full statement."
  },
  {
   "property": "C02",
   "status": "proved",
   "theorems": [
    "C02_varuint32_minimal",
    "C02_varuint32_prefix_free"
   ],
   "note": "Full statement (minimality, length, self-delimitation, injectivity)."
  },
  {
   "property": "C03",
   "status": "proved",
   "theorems": [
    "C03_varu32_value",
    "C03_varu32_total",
    "C03_varu7_total"
   ],
   "note": "Full statement."
  },
  {
   "property": "C04",
   "status": "partial",
   "theorems": [
    "C04_vari7_total",
    "C04_vari32_partial",
    "C04_vari32_negative_refuted"
   ],
   "note": "vari7 proved in full; vari32 proved for non-negative numbers, and every negative number is proved to be undefined behaviour (shift of numeric_limits::max())."
  },
  {
   "property": "C05",
   "status": "proved",
   "theorems": [
    "C05_uleb128_value",
    "C05_leb128_value",
    "C05_stream_reads_written_varuint32",
    "C05_fixed_width_read"
   ],
   "note": "Full statement (unsigned: all 64-bit values; signed: all encodings of at most nine bytes; ten bytes see C44)."
  },
  {
   "property": "C06",
   "status": "proved",
   "theorems": [
    "C06_buffers_are_sequences",
    "C06_each_allocation_has_one_owner",
    "C06_fails_only_for_lack_of_memory"
   ],
   "note": "Refinement to sequences, single ownership of every allocation and precise failure condition, for all client programs using up to 2^62 bytes; uses excluded by `allowed` are exactly the subjects of C46-C48."
  },
  {
   "property": "C07",
   "status": "proved",
   "theorems": [
    "C07_write_then_compile",
    "C07_func_inst"
   ],
   "note": "Full statement, for files below 2^32 bytes (the format's size fields are 32-bit)."
  },
  {
   "property": "C08",
   "status": "proved",
   "theorems": [
    "C08_compile_total"
   ],
   "note": "Full statement; std::vector::reserve is assumed not to run out of memory."
  },
  {
   "property": "C09",
   "status": "proved",
   "theorems": [
    "C09_accepts_exactly_module_files",
    "C09_consistent"
   ],
   "note": "Equivalence with a declarative grammar, plus consistency of accepted modules."
  },
  {
   "property": "C10",
   "status": "proved",
   "theorems": [
    "C10_call_returns_register",
    "C10_call_without_result",
    "C10_written_module_computes",
    "C10_new_interpreter_has_room"
   ],
   "note": "Full statement, end to end through writer and compiler, and more generally for any code the abstract machine runs (loops and branches included). Hypotheses: `can_call` (room on the stack, aligned 64-bit arguments) and a saved ip whose low byte is 0, as in a new interpreter."
  },
  {
   "property": "C11",
   "status": "proved",
   "theorems": [
    "C11_nop_and_goto",
    "C11_conditional_goto",
    "C11_arithmetic",
    "C11_exits",
    "C11_unknown_opcode",
    "C11_error_flag"
   ],
   "note": "Full statement, for every instruction the interpreter implements; all other opcodes stop the process."
  },
  {
   "property": "C12",
   "status": "proved",
   "theorems": [
    "C12_caller_state_restored"
   ],
   "note": "Full statement (any code, any fuel). state.st_b.func is not restored by the code and not claimed."
  },
  {
   "property": "C13",
   "status": "partial",
   "theorems": [
    "C13_nested_call_aborts_refuted",
    "C13_inner_call_partial"
   ],
   "note": "False of the code in general (all states whose ip does not end in a zero byte, plus an API-level witness); proved when the byte is zero."
  },
  {
   "property": "C14",
   "status": "partial",
   "theorems": [
    "C14_safe_call_partial",
    "C14_large_frame_refuted"
   ],
   "note": "False of the code (large register counts, foreign registers, all with modules compile accepts); proved for callees that stay in their frame, when the frame fits."
  },
  {
   "property": "C15",
   "status": "proved",
   "theorems": [
    "C15_slots",
    "C15_store_then_read"
   ],
   "note": "Full statement."
  },
  {
   "property": "C16",
   "status": "proved",
   "theorems": [
    "C16_mismatch_aborts",
    "C16_match_accepted",
    "C16_type_map",
    "C16_by_index"
   ],
   "note": "Full statement. The by-index overload exists in C++ only for functions without results (it drops Rs)."
  },
  {
   "property": "C17",
   "status": "proved",
   "theorems": [
    "C17_functype_eq_is_structural",
    "C17_functype_eq_equivalence",
    "C17_functype_hash_agrees",
    "C17_limits",
    "C17_limits_equivalence"
   ],
   "note": "Full statement, for every behaviour of std::hash."
  },
  {
   "property": "C18",
   "status": "proved",
   "theorems": [
    "C18_construction",
    "C18_bad_limits_rejected",
    "C18_history",
    "C18_requests_are_local"
   ],
   "note": "Proved for sizes below 2^64 bytes, over every placement and failure the system call contract allows; pages are an abstract map, so mmap/mprotect/munmap themselves are assumed to follow POSIX."
  },
  {
   "property": "C19",
   "status": "proved",
   "theorems": [
    "C19_history",
    "C19_add_is_local",
    "C19_remove_is_local",
    "C19_remove_absent_is_undefined"
   ],
   "note": "Full statement under the stated use; remove of an absent element is proved undefined."
  },
  {
   "property": "C20",
   "status": "proved",
   "theorems": [
    "C20_labels_follow_their_history",
    "C20_new_labels_are_fresh",
    "C20_placed_label_keeps_its_target",
    "C20_label_allocated_at_keeps_its_target",
    "C20_placing_twice_aborts",
    "C20_unplaced_or_unknown_target_aborts"
   ],
   "note": ""
  },
  {
   "property": "C21",
   "status": "proved",
   "theorems": [
    "C21_interning_is_a_bijection",
    "C21_symbols_are_stable"
   ],
   "note": ""
  },
  {
   "property": "C22",
   "status": "proved",
   "theorems": [
    "C22_offsets_map_to_line_and_column",
    "C22_line_and_column_agree_with_location",
    "C22_walk_counts_newlines"
   ],
   "note": ""
  },
  {
   "property": "C23",
   "status": "proved",
   "theorems": [
    "C23_equality_is_structural",
    "C23_equality_is_an_equivalence"
   ],
   "note": ""
  },
  {
   "property": "C24",
   "status": "proved",
   "theorems": [
    "C24_equal_nodes_hash_equal",
    "C24_simple_nodes_can_be_hashed"
   ],
   "note": ""
  },
  {
   "property": "C25",
   "status": "proved",
   "theorems": [
    "C25_tokens_tile_the_text",
    "C25_the_tiling_is_unique_and_found",
    "C25_ranges_are_in_order_and_separated_by_blanks"
   ],
   "note": ""
  },
  {
   "property": "C26",
   "status": "proved",
   "theorems": [
    "C26_integer_literals_have_their_decimal_value",
    "C26_integer_tokens_have_the_value_of_their_text"
   ],
   "note": ""
  },
  {
   "property": "C27",
   "status": "partial",
   "theorems": [
    "C27_text_that_is_no_token_is_dropped_refuted",
    "C27_unterminated_strings_are_dropped_refuted",
    "C27_all_but_a_tail_is_checked_partial"
   ],
   "note": "Refuted: at the first character that begins no token the rest of the text is silently dropped. Proved: that is the only thing an empty log can hide."
  },
  {
   "property": "C28",
   "status": "partial",
   "theorems": [
    "C28_every_text_partial",
    "C28_an_open_map_never_ends_refuted",
    "C28_how_parsing_ends_partial",
    "C28_text_without_braces_partial"
   ],
   "note": "Refuted: a map that is still open at the end of the text is parsed for ever. Proved: for every text at all, exactly which of document, exception, endless loop and integer overflow happens, told by the brackets and the first number that is too large, and a step bound."
  },
  {
   "property": "C29",
   "status": "proved",
   "theorems": [
    "C29_written_trees_are_parsed",
    "C29_a_quiet_parse_is_what_the_text_says",
    "C29_tokens_spell_one_document"
   ],
   "note": "Numbers must be in range (C65); map keys without maps and NaNs (C62 says why); strings whose closing quote follows a backslash only when no quote follows (C69)."
  },
  {
   "property": "C30",
   "status": "proved",
   "theorems": [
    "C30_appending_is_pure"
   ],
   "note": ""
  },
  {
   "property": "C31",
   "status": "proved",
   "theorems": [
    "C31_counts_and_lifetimes",
    "C31_nothing_leaks"
   ],
   "note": ""
  },
  {
   "property": "C32",
   "status": "partial",
   "theorems": [
    "C32_range_for_partial",
    "C32_foreach_partial",
    "C32_range_for_refuted",
    "C32_foreach_refuted"
   ],
   "note": "Refuted: the range-for loop asserts for sizes that are multiples of 4 above 4 and not a power of 4 (end() looks up the leaf of index size); foreach visits the unused slots of the last leaf. Partial: exactly when and what each loop visits, for all sizes."
  },
  {
   "property": "C33",
   "status": "proved",
   "theorems": [
    "C33_counts_and_lifetimes"
   ],
   "note": ""
  },
  {
   "property": "C34",
   "status": "partial",
   "theorems": [
    "C34_assignment_replaces_partial",
    "C34_values_live_partial",
    "C34_assignment_replaces_refuted",
    "C34_assign_nothing_keeps",
    "C34_self_assignment_refuted"
   ],
   "note": "Refuted: assigning a Maybe that holds nothing leaves the old value in place, and assigning a Maybe that holds a value to itself copies a destroyed value (undefined behaviour). Partial: programs that assign only values and not to themselves: right values, every value destroyed exactly once. `m = NOTHING` and assignment from a const Maybe do not compile (deleted copy assignment)."
  },
  {
   "property": "C35",
   "status": "proved",
   "theorems": [
    "C35_output_reads_back",
    "C35_no_space_after_open",
    "C35_spacing"
   ],
   "note": ""
  },
  {
   "property": "C36",
   "status": "proved",
   "theorems": [
    "C36_hash_is_a_bijection",
    "C36_mix_injective",
    "C36_changing_one_component_changes_the_hash"
   ],
   "note": "Full statement."
  },
  {
   "property": "C37",
   "status": "proved",
   "theorems": [
    "C37_sizep2_arithmetic",
    "C37_exponent_out_of_range"
   ],
   "note": "Full statement, with the out-of-range exponents characterised."
  },
  {
   "property": "C38",
   "status": "partial",
   "theorems": [
    "C38_exclusion_refuted",
    "C38_exclusion_guards_refuted",
    "C38_counts_partial",
    "C38_counts_overflow_partial"
   ],
   "note": "Refuted: lock() only counts, guards do nothing, isLocked is always false and tryExclusiveLock always succeeds, so two threads can hold the lock exclusively. Partial: the counters are exactly the outstanding acquisitions in every schedule that stays within the range of int, and undefined behaviour outside it."
  },
  {
   "property": "C39",
   "status": "proved",
   "theorems": [
    "C39_every_storage_is_deleted_or_held_once",
    "C39_all_storage_is_deleted_exactly_once"
   ],
   "note": ""
  },
  {
   "property": "C40",
   "status": "proved",
   "theorems": [
    "C40_insn_list_reported"
   ],
   "note": "Full statement for the three supported instructions; the rest is C52."
  },
  {
   "property": "C41",
   "status": "proved",
   "theorems": [
    "C41_first_match",
    "C41_always_answers"
   ],
   "note": "Directory reading is a parameter (opendir/readdir contract); readdir errors end a directory early in the code and are outside the model."
  },
  {
   "property": "C42",
   "status": "proved",
   "theorems": [
    "C42_span_equality",
    "C42_span_before_sound",
    "C42_span_before_gap",
    "C42_span_strict_order",
    "C42_end_is_the_last_element",
    "C42_equal_to_c_string",
    "C42_compare_stays_inside",
    "C42_compare_c_string_stays_inside"
   ],
   "note": ""
  },
  {
   "property": "C43",
   "status": "partial",
   "theorems": [
    "C43_bad_numbers_reported_refuted",
    "C43_what_is_returned_partial"
   ],
   "note": "False of the code: uleb128 never throws (proved for every stream). Proved instead: what the value is (C43_what_is_returned_partial)."
  },
  {
   "property": "C44",
   "status": "partial",
   "theorems": [
    "C44_leb128_ten_bytes_partial",
    "C44_leb128_negative_refuted"
   ],
   "note": "Non-negative ten-byte numbers proved; every negative one is proved to be an undefined shift by 70."
  },
  {
   "property": "C45",
   "status": "partial",
   "theorems": [
    "C45_varu32_range_refuted",
    "C45_large_numbers_rejected_partial"
   ],
   "note": "Proved: every number >= 2^35 and every spelling of more than five bytes is rejected. Refuted: a five-byte spelling whose last byte has bits above 2^32 is accepted and loses them."
  },
  {
   "property": "C46",
   "status": "partial",
   "theorems": [
    "C46_zero_capacity_usable_refuted",
    "C46_empty_without_storage_partial"
   ],
   "note": "False of the code for buffers that own storage (double free / abort / dangling pointer, witnesses); proved for buffers without storage."
  },
  {
   "property": "C47",
   "status": "partial",
   "theorems": [
    "C47_self_append_with_room_partial",
    "C47_self_append_refuted"
   ],
   "note": "Proved when the capacity suffices; use after free otherwise (witness)."
  },
  {
   "property": "C48",
   "status": "partial",
   "theorems": [
    "C48_out_of_range_aborts_partial",
    "C48_out_of_range_refuted"
   ],
   "note": "Proved when offset+length does not wrap; false otherwise (all heaps)."
  },
  {
   "property": "C49",
   "status": "partial",
   "theorems": [
    "C49_reported_refuted",
    "C49_trap_iff_partial",
    "C49_otherwise_reported_partial",
    "C49_header_partial"
   ],
   "note": "False of the code (three witnesses); proved: exactly the `fatal` situations stop the process, everything else malformed throws DecodeError."
  },
  {
   "property": "C50",
   "status": "partial",
   "theorems": [
    "C50_operand_range_refuted",
    "C50_same_file_refuted",
    "C50_operands_that_fit_partial"
   ],
   "note": "False of the code: operands are reduced modulo 256. Proved: writing is injective on descriptions whose operands fit."
  },
  {
   "property": "C51",
   "status": "partial",
   "theorems": [
    "C51_sections_refuted",
    "C51_usual_order_partial"
   ],
   "note": "False of the code (four witnesses); proved for sections in the usual order."
  },
  {
   "property": "C52",
   "status": "partial",
   "theorems": [
    "C52_terminates_refuted",
    "C52_terminates_exactly_partial"
   ],
   "note": "False of the code: any instruction with an operand makes the reader loop forever (all fuels). Proved: reading ends exactly when no instruction has an operand."
  },
  {
   "property": "C53",
   "status": "partial",
   "theorems": [
    "C53_second_argument_refuted",
    "C53_odd_registers_refuted",
    "C53_when_aligned_partial",
    "C53_wide_first_partial"
   ],
   "note": "False of the code: proved undefined for all calls of two families. Proved: the cases in which the widths line up are well defined."
  },
  {
   "property": "C54",
   "status": "partial",
   "theorems": [
    "C54_pow_partial",
    "C54_pow_refuted",
    "C54_large_pow_refuted"
   ],
   "note": "False of the code: pow(n) is 2^(exponent+n-1); C54_pow_partial says exactly when it is right."
  },
  {
   "property": "C55",
   "status": "partial",
   "theorems": [
    "C55_shrink_refuted",
    "C55_shrink_partial"
   ],
   "note": "False of the code: shrink never changes anything (proved for all memories and all n)."
  },
  {
   "property": "C56",
   "status": "partial",
   "theorems": [
    "C56_size_exceeds_max_size_refuted",
    "C56_size_in_pages_partial"
   ],
   "note": "False of the code: max_size() is a number of pages. Proved: the size in pages is what is returned."
  },
  {
   "property": "C57",
   "status": "partial",
   "theorems": [
    "C57_copies_release_twice_refuted",
    "C57_two_memories_partial"
   ],
   "note": "False of the code: the implicit copy constructor duplicates ownership. Proved: two memories made separately do not disturb each other."
  },
  {
   "property": "C58",
   "status": "partial",
   "theorems": [
    "C58_huge_limits_refuted",
    "C58_limits_that_fit_partial"
   ],
   "note": "False of the code for max * page size >= 2^64; C18_history proves it below that. Proved: limits whose byte count fits 64 bits."
  },
  {
   "property": "C59",
   "status": "partial",
   "theorems": [
    "C59_failed_construction_leaks_refuted",
    "C59_early_failures_partial"
   ],
   "note": "False of the code, for every configuration with min > 0 when mprotect fails. Proved: failures before the memory is reserved leave nothing behind."
  },
  {
   "property": "C60",
   "status": "proved",
   "theorems": [
    "C60_contexts_registered"
   ],
   "note": "Full statement. new[] is taken to succeed and to give a block not in use."
  },
  {
   "property": "C61",
   "status": "partial",
   "theorems": [
    "C61_moved_context_refuted",
    "C61_one_of_the_two_partial"
   ],
   "note": "False of the code for every context in every reachable state: destroying both objects follows a null pointer (newest context) or deletes the interpreter stack twice (every other). Proved: destroying only one of the two (the source; or either, if the source was not the newest) is well defined, the list is right and the stack is deleted once."
  },
  {
   "property": "C62",
   "status": "partial",
   "theorems": [
    "C62_nested_map_keys_refuted",
    "C62_nan_refuted",
    "C62_sets_refuted",
    "C62_comparing_ends_partial",
    "C62_comparing_answers_partial"
   ],
   "note": "Refuted: comparing two sets aborts; a NaN (which the reader produces from 0e400) is not equal to itself; two equal maps whose keys are maps compare different when the inner maps iterate in different orders, because the lookup hashes in iteration order. The true part is C23. Proved: comparing always ends, and what it answers on values without sets, NaNs and composite keys."
  },
  {
   "property": "C63",
   "status": "partial",
   "theorems": [
    "C63_map_hash_refuted",
    "C63_characters_refuted",
    "C63_what_can_be_hashed_partial"
   ],
   "note": "Refuted: a map's hash mixes its entries in iteration order, so equal maps may hash differently; hashing a character or a set aborts. The true part is C24. Proved: exactly which values can be hashed."
  },
  {
   "property": "C64",
   "status": "proved",
   "theorems": [
    "C64_maps_are_finite_maps"
   ],
   "note": ""
  },
  {
   "property": "C65",
   "status": "partial",
   "theorems": [
    "C65_the_smallest_integer_overflows_refuted",
    "C65_every_literal_out_of_range_overflows",
    "C65_read_exactly_when_partial"
   ],
   "note": "Refuted: every literal out of range, and also INT64_MIN, overflows a signed integer (undefined behaviour). Proved: exactly which literals are read, and never as another value."
  },
  {
   "property": "C66",
   "status": "partial",
   "theorems": [
    "C66_real_literals_are_not_the_nearest_double_refuted",
    "C66_long_exponents_overflow_refuted",
    "C66_real_tokens_never_fail_an_assertion_partial",
    "C66_what_a_real_literal_is_read_as_partial",
    "C66_nearest_without_fraction_partial"
   ],
   "note": "Refuted: 0.3 is read as 0x3fd3333333333334; twenty-digit exponents overflow. Partial: never an assertion failure; which double every literal is read as; the nearest double for literals without fraction, below 2^53 and with exponents 0 to 22."
  },
  {
   "property": "C67",
   "status": "proved",
   "theorems": [
    "C67_line_table_after_lexing",
    "C67_locations_after_lexing"
   ],
   "note": ""
  },
  {
   "property": "C68",
   "status": "partial",
   "theorems": [
    "C68_newlines_in_strings_are_not_counted_refuted",
    "C68_newlines_in_tokens_count_as_spaces_partial",
    "C68_before_the_first_such_string_partial"
   ],
   "note": "Refuted: newlines in strings are not recorded. Proved: the exact locations (newlines in tokens count as spaces), hence right ones before the first such token."
  },
  {
   "property": "C69",
   "status": "partial",
   "theorems": [
    "C69_a_string_ending_in_a_backslash_swallows_the_next_refuted",
    "C69_where_a_string_ends_partial",
    "C69_what_a_string_token_is_partial"
   ],
   "note": "Refuted: \"\\\\\\\\\" followed by another string is read as one token up to the next quote. Proved: a string ends at the first quote (or fails at the first apostrophe) without a backslash directly before it; and nothing else is a string token."
  },
  {
   "property": "C70",
   "status": "partial",
   "theorems": [
    "C70_keywords_become_symbols_refuted",
    "C70_the_text_is_kept_partial"
   ],
   "note": "Refuted for every keyword: the node is a symbol node. Its text keeps the colon, so symbols and keywords stay different."
  },
  {
   "property": "C71",
   "status": "partial",
   "theorems": [
    "C71_mistaken_braces_throw_refuted",
    "C71_mistakes_in_a_returned_document_are_logged_partial"
   ],
   "note": "Refuted: messages that contain a closing brace are used as format strings, so reporting them throws; an open map at the end never returns (C28). Proved: whenever a document is returned, mistakes were logged."
  },
  {
   "property": "C72",
   "status": "proved",
   "theorems": [
    "C72_duplicate_keys_are_reported"
   ],
   "note": ""
  },
  {
   "property": "C73",
   "status": "partial",
   "theorems": [
    "C73_growing_partial",
    "C73_growing_refuted"
   ],
   "note": "Refuted: the append to a vector of 2^30+1 elements shifts the int 1 by 32 bits. Partial: every append to a vector of at most 2^30 elements works."
  },
  {
   "property": "C74",
   "status": "partial",
   "theorems": [
    "C74_self_assignment_partial",
    "C74_self_assignment_refuted"
   ],
   "note": "Refuted: Vec<int> v; v = v; increments the count of a freed node. Partial: harmless exactly if the root has another reference."
  },
  {
   "property": "C75",
   "status": "partial",
   "theorems": [
    "C75_shared_destination_partial",
    "C75_only_handle_partial",
    "C75_self_assignment_refuted",
    "C75_own_member_refuted",
    "C75_move_of_own_member_refuted"
   ],
   "note": "Refuted: x = x, x = x->next and x = std::move(x->next) use freed memory when x was the only handle to its object. Partial: they are right whenever the old object has another handle or x is null (and, by C33, whenever the source is not reached through the destination); with x the only handle, self-assignment and assignment of a member of x's object always use freed memory."
  },
  {
   "property": "C76",
   "status": "partial",
   "theorems": [
    "C76_no_leaks_partial",
    "C76_no_leaks_refuted"
   ],
   "note": "Refuted by an object that refers to itself. Partial: holds for every acyclic object graph."
  },
  {
   "property": "C77",
   "status": "partial",
   "theorems": [
    "C77_ab_runs_the_command_partial",
    "C77_double_dash",
    "C77_ab_runs_the_command_refuted",
    "C77_only_then"
   ],
   "note": "Refuted for `ab -- cmd`: argv + 1 is passed on, so the program is called with -- as its name and its own name as first argument. Proved without --, with the exact behaviour in both cases and the converse."
  },
  {
   "property": "C78",
   "status": "proved",
   "theorems": [
    "C78_run_loads_the_file",
    "C78_run_never_fails"
   ],
   "note": ""
  },
  {
   "property": "C79",
   "status": "partial",
   "theorems": [
    "C79_asm_reads_its_input_partial",
    "C79_asm_reads_its_input_refuted",
    "C79_asm_exactly"
   ],
   "note": "Refuted: with one operand the input name stays a null pointer (undefined behaviour in string_view); after -- the file called -- is opened. Proved for exactly two operands without --; C79_asm_exactly characterises every command line."
  },
  {
   "property": "C80",
   "status": "partial",
   "theorems": [
    "C80_indentation_partial",
    "C80_indentation_refuted"
   ],
   "note": "Refuted: the indentation saturates at ten levels going up but not coming down, so after deeper nesting it stays too small. Partial: nesting never deeper than ten."
  },
  {
   "property": "C81",
   "status": "partial",
   "theorems": [
    "C81_strings_readable_refuted",
    "C81_strings_readable_partial"
   ],
   "note": "Refuted: double quotes inside the string are not escaped, so no reader can exist. Partial: strings without a double quote."
  },
  {
   "property": "C82",
   "status": "partial",
   "theorems": [
    "C82_adjacent_spans_refuted",
    "C82_with_a_gap_partial"
   ],
   "note": "Refuted: one-past-the-end is compared with <, so directly adjacent spans are not ordered. The exact characterisation is C42_span_before_gap. Proved: \"<\" is exactly \"entirely before with a gap\"."
  },
  {
   "property": "C83",
   "status": "partial",
   "theorems": [
    "C83_string_equality_partial",
    "C83_string_equality_refuted"
   ],
   "note": "Refuted: strncmp stops at a NUL byte. Partial: one of the spans has no NUL."
  },
  {
   "property": "C84",
   "status": "partial",
   "theorems": [
    "C84_compare_is_an_order_partial",
    "C84_compare_is_an_order_refuted"
   ],
   "note": "Refuted: only the common length is compared, so a prefix compares equal and equality is not transitive. Partial: same length, no NUL."
  },
  {
   "property": "C85",
   "status": "partial",
   "theorems": [
    "C85_pointer_maybe_partial",
    "C85_pointer_maybe_refuted"
   ],
   "note": "Refuted: just(nullptr) holds nothing, and assigning a nothing keeps the old pointer. Partial: non-null pointers."
  },
  {
   "property": "C86",
   "status": "proved",
   "theorems": [
    "C86_modules_read_back"
   ],
   "note": ""
  },
  {
   "property": "C87",
   "status": "proved",
   "theorems": [
    "C87_wrong_header_refused"
   ],
   "note": ""
  },
  {
   "property": "C88",
   "status": "partial",
   "theorems": [
    "C88_cut_in_a_function_partial",
    "C88_cut_in_an_export_partial",
    "C88_cut_in_a_type_partial",
    "C88_cut_in_a_global_partial",
    "C88_cut_in_a_data_segment_partial",
    "C88_cut_in_an_element_partial",
    "C88_cut_in_an_import_partial",
    "C88_cut_in_a_body_head_partial",
    "C88_cut_in_a_section_head_partial",
    "C88_cut_in_the_version_refuted",
    "C88_cut_in_a_custom_section_partial",
    "C88_cut_in_the_code_partial",
    "C88_disasm_cut_in_the_code_partial",
    "C88_complete_sections_first_partial",
    "C88_cut_between_entries_partial",
    "C88_without_version_partial",
    "C88_truncated_header_accepted_refuted",
    "C88_truncated_section_refuted"
   ],
   "note": "Refuted: five bytes are a module, as are six and seven; a count without entries yields entries; a cut number is read as if its next byte were 0x7f. Proved: an input of at most four bytes is refused; the calls for all complete sections come first, whatever follows; and for every cut after the header, by section kind and place (in the length, the count, between entries, inside an entry, in the length, name or contents of a custom section), exactly what happens: refused, process exits, or accepted with a made-up rest; a cut inside the code of a body is never accepted when the visitor reads the code with the library's ExprReader, as ab-disasm does. Missing: cuts inside the code with a visitor that leaves the code in the stream (the reader then takes instructions for bodies, C89)."
  },
  {
   "property": "C89",
   "status": "partial",
   "theorems": [
    "C89_announced_only_partial",
    "C89_table_memory_start_refuted"
   ],
   "note": "Refuted: the contents are read as further sections. Proved: the section is announced, its contents are left in the stream."
  },
  {
   "property": "C90",
   "status": "partial",
   "theorems": [
    "C90_last_section_partial",
    "C90_custom_section_refuted"
   ],
   "note": "Refuted for every custom section with something behind it. Proved: a custom section at the end of a file is skipped."
  },
  {
   "property": "C91",
   "status": "proved",
   "theorems": [
    "C91_reading_ends",
    "C91_disassembly_ends"
   ],
   "note": ""
  },
  {
   "property": "C92",
   "status": "partial",
   "theorems": [
    "C92_all_other_lengths_partial",
    "C92_string_length_refuted"
   ],
   "note": "Refuted: length 2^64-1. Proved: for every other length reading is safe, and what it gives."
  },
  {
   "property": "C93",
   "status": "partial",
   "theorems": [
    "C93_only_instructions_partial",
    "C93_unknown_opcode_refuted"
   ],
   "note": "Refuted: the process exits. Proved: nothing that is not an instruction with its kind of immediate is ever reported."
  },
  {
   "property": "C94",
   "status": "proved",
   "theorems": [
    "C94_instructions_read_back"
   ],
   "note": ""
  },
  {
   "property": "C95",
   "status": "partial",
   "theorems": [
    "C95_exactly_when_partial",
    "C95_memory_and_conversions_refuted"
   ],
   "note": "refuted: for every sequence of known instructions followed by memory.size, memory.grow or a conversion the process exits; the opcodes are commented out in data/wasm_operators.yaml Proved: a sequence of instructions is reported exactly when none of these is in it."
  },
  {
   "property": "C96",
   "status": "partial",
   "theorems": [
    "C96_first_body_overrun_refuted",
    "C96_without_bodies_partial",
    "C96_disassembly_refuted"
   ],
   "note": "Refuted for every module with one function body, and for every module with bodies: if it is accepted at all, the first body is shown with at least one instruction that is not its own (a two-body module that is accepted and misread is given). Proved: every module without bodies is disassembled."
  },
  {
   "property": "C97",
   "status": "partial",
   "theorems": [
    "C97_announced_bodies_partial",
    "C97_bodies_without_functions_refuted"
   ],
   "note": "Refuted for every module without function section. Proved: the behaviour is undefined exactly when the number of the body is not announced."
  },
  {
   "property": "C98",
   "status": "partial",
   "theorems": [
    "C98_balanced_partial",
    "C98_balanced_refuted"
   ],
   "note": "Proved when no number, name character or data byte is the code of a parenthesis mod 256; refuted for every index \u2261 40, 41 (mod 256), because numbers are printed as characters."
  },
  {
   "property": "C99",
   "status": "partial",
   "theorems": [
    "C99_below_256_partial",
    "C99_numbers_in_decimal_refuted",
    "C99_numbers_collide_refuted"
   ],
   "note": "Refuted for every export index: inside namespace Ab::Wasm only the char overload of operator<< is found, so n prints as the character n mod 256. Proved: indices below 256 are distinguishable."
  },
  {
   "property": "C100",
   "status": "proved",
   "theorems": [
    "C100_function_types_printed",
    "C100_text_determines_types"
   ],
   "note": ""
  },
  {
   "property": "C101",
   "status": "partial",
   "theorems": [
    "C101_one_target_partial",
    "C101_no_target_partial",
    "C101_branch_tables_refuted"
   ],
   "note": "Refuted: the loop over targets returns after the first; texts are equal for any later targets. Proved: tables with no or one target are printed in full."
  },
  {
   "property": "C102",
   "status": "partial",
   "theorems": [
    "C102_indentation_partial",
    "C102_indentation_refuted"
   ],
   "note": "Proved up to eight nested blocks; refuted for every n >= 9."
  },
  {
   "property": "C103",
   "status": "proved",
   "theorems": [
    "C103_data_determined"
   ],
   "note": ""
  },
  {
   "property": "C104",
   "status": "partial",
   "theorems": [
    "C104_data_readable_partial",
    "C104_data_readable_refuted"
   ],
   "note": "Proved for printable characters other than quote, backslash and space; refuted for every segment where the first byte that is no such character is a quote, a space or unprintable."
  },
  {
   "property": "C105",
   "status": "partial",
   "theorems": [
    "C105_output_partial",
    "C105_output_refuted"
   ],
   "note": "The -o file and modules without bodies: proved. Refuted for every module with a function body: a debugging line per body goes to standard output."
  },
  {
   "property": "C106",
   "status": "proved",
   "theorems": [
    "C106_command_line",
    "C106_help_and_version"
   ],
   "note": ""
  },
  {
   "property": "C107",
   "status": "partial",
   "theorems": [
    "C107_the_only_undefined_lines_partial",
    "C107_missing_argument_refuted",
    "C107_unknown_option_refuted"
   ],
   "note": "Refuted: -o at the end reads the null pointer at argv[argc]; --output is taken for the input file. Proved: these are the only command lines with undefined behaviour."
  },
  {
   "property": "C108",
   "status": "proved",
   "theorems": [
    "C108_token_spellings",
    "C108_single_tokens"
   ],
   "note": ""
  },
  {
   "property": "C109",
   "status": "partial",
   "theorems": [
    "C109_operators_end_the_text_refuted",
    "C109_edn_names_partial",
    "C109_edn_symbols_that_are_tokens_partial"
   ],
   "note": "refuted for + - / > -> >=: the text ends there without an error; exact for names otherwise (partial)"
  },
  {
   "property": "C110",
   "status": "partial",
   "theorems": [
    "C110_apostrophes_end_the_text_refuted",
    "C110_strings_without_apostrophes_partial"
   ],
   "note": "refuted for strings with an apostrophe; proved for all others (partial)"
  },
  {
   "property": "C111",
   "status": "proved",
   "theorems": [
    "C111_tokens_and_locations",
    "C111_one_reading"
   ],
   "note": ""
  },
  {
   "property": "C112",
   "status": "proved",
   "theorems": [
    "C112_pieces_of_one_buffer",
    "C112_the_same_tokens"
   ],
   "note": ""
  },
  {
   "property": "C113",
   "status": "partial",
   "theorems": [
    "C113_word_in_two_buffers_refuted",
    "C113_words_not_divided_partial"
   ],
   "note": "Proved (partial): when every piece but the last consists of whole tokens and white space and does not end in a word, lexing pieces in different buffers gives the tokens and locations of the whole text, each token pointing into its own piece. Refuted: a word that lies in two buffers makes lex compare and subtract pointers of different buffers (undefined behaviour), for every such word."
  },
  {
   "property": "C114",
   "status": "partial",
   "theorems": [
    "C114_before_the_comment_partial",
    "C114_line_comment_refuted",
    "C114_block_comment_refuted",
    "C114_string_refuted"
   ],
   "note": "Refuted for every comment and every string: the patterns are defined and not used, and the rest of the text is dropped. Proved: the tokens before the first comment or string are given."
  },
  {
   "property": "C115",
   "status": "partial",
   "theorems": [
    "C115_only_tokens_partial",
    "C115_bad_text_reported_refuted"
   ],
   "note": "Refuted for every such text: the lexer stays in its error state and nothing says so. Proved: bad text never becomes a token."
  },
  {
   "property": "C116",
   "status": "partial",
   "theorems": [
    "C116_closed_text_partial",
    "C116_last_word_refuted"
   ],
   "note": "Refuted: a last word is never emitted without eof. Proved for texts whose last character is not a word's."
  },
  {
   "property": "C117",
   "status": "proved",
   "theorems": [
    "C117_released_once_when_unowned",
    "C117_functions_of_live_instances",
    "C117_names"
   ],
   "note": ""
  },
  {
   "property": "C118",
   "status": "partial",
   "theorems": [
    "C118_instances_outlive_the_machine_refuted",
    "C118_leak_refuted",
    "C118_caller_deletes_partial"
   ],
   "note": "refuted: VirtualMachine::modules_ is never filled, so instances outlive the machine and leak. Partial: when the caller deletes every instance and drops every handle, all bytes are released."
  },
  {
   "property": "C119",
   "status": "proved",
   "theorems": [
    "C119_results_hold_what_was_stored",
    "C119_nothing_left"
   ],
   "note": ""
  },
  {
   "property": "C120",
   "status": "partial",
   "theorems": [
    "C120_trivial_types_partial",
    "C120_error_over_value_refuted",
    "C120_value_over_error_refuted",
    "C120_value_leaks_refuted"
   ],
   "note": "refuted: assignment over the other kind assigns to an object that does not exist (class types), and never destroys the old value. Partial: trivial types."
  },
  {
   "property": "C121",
   "status": "proved",
   "theorems": [
    "C121_tokens_of_the_file",
    "C121_lines_read_back",
    "C121_refused"
   ],
   "note": ""
  },
  {
   "property": "C122",
   "status": "partial",
   "theorems": [
    "C122_empty_file_refuted",
    "C122_standard_input_closed_refuted",
    "C122_other_files_partial"
   ],
   "note": "refuted: an empty file is refused, and with standard input closed every file is refused and its descriptor lost. Partial: all other files."
  },
  {
   "property": "C123",
   "status": "partial",
   "theorems": [
    "C123_assembles_refuted",
    "C123_unreadable_file_partial"
   ],
   "note": "refuted: no text changes a file or gives a message; the status is always 0. Proved: an unreadable file is reported."
  },
  {
   "property": "C124",
   "status": "partial",
   "theorems": [
    "C124_runs_refuted"
   ],
   "note": "refuted: instantiate_file is unimplemented and aborts for every file."
  },
  {
   "property": "C125",
   "status": "partial",
   "theorems": [
    "C125_operators_named_partial",
    "C125_names_distinct",
    "C125_dots_refuted",
    "C125_left_out_refuted"
   ],
   "note": "Proved (partial): for the 145 operators of the listing the line begins with the text format's name with an underscore for each dot, so that different operators have different lines. Refuted: the dot is never printed, and a module with one of the 27 operators left out (memory size and growth, conversions) ends the process."
  },
  {
   "property": "C126",
   "status": "proved",
   "theorems": [
    "C126_imports_and_exports",
    "C126_kinds_shown"
   ],
   "note": ""
  },
  {
   "property": "C127",
   "status": "partial",
   "theorems": [
    "C127_equality",
    "C127_lexed_tokens_compare",
    "C127_equivalence",
    "C127_other_kinds_refuted"
   ],
   "note": "Proved for all tokens that the lexer and the construction helpers make. Refuted for the kinds UNINITIALIZED, DELIMITER and HASH: comparing two such tokens at the same place ends the process."
  },
  {
   "property": "C128",
   "status": "partial",
   "theorems": [
    "C128_printed_tokens",
    "C128_booleans_refuted"
   ],
   "note": "Proved: kind, range and integers are determined by the text, and reals as far as fmt's text of the double determines them. Refuted for booleans: true and false print the same (and as an unknown kind, like nil)."
  },
  {
   "property": "C129",
   "status": "proved",
   "theorems": [
    "C129_text_of_a_range",
    "C129_other_ranges"
   ],
   "note": ""
  },
  {
   "property": "C130",
   "status": "partial",
   "theorems": [
    "C130_unknown_ids_refuted",
    "C130_ids_of_one_byte_partial"
   ],
   "note": "Refuted for every module: the id is cut to eight bits, so ids 256 + k are read as k. Partial: every id from 12 to 255, after any well-formed sections, is refused."
  },
  {
   "property": "C131",
   "status": "partial",
   "theorems": [
    "C131_section_lengths_refuted"
   ],
   "note": "Refuted for every module and every announced length: the length is only reported to the visitor."
  },
  {
   "property": "C132",
   "status": "partial",
   "theorems": [
    "C132_section_order_refuted",
    "C132_repeated_sections_refuted"
   ],
   "note": "Refuted: every module is accepted with its sections reversed, and with a section repeated any number of times."
  },
  {
   "property": "C133",
   "status": "partial",
   "theorems": [
    "C133_all_indices_refuted",
    "C133_small_indices_partial",
    "C133_large_indices_refuted"
   ],
   "note": "Refuted for every function section after any sections: all indices are reported modulo 2^32. Proved: they are reported as they are exactly if all are below 2^32."
  },
  {
   "property": "C134",
   "status": "partial",
   "theorems": [
    "C134_box_programs_partial",
    "C134_box_assignment_refuted"
   ],
   "note": "Proved for programs that assign only from const lvalues and rvalues. Refuted for b = x with a non-const variable x (x is moved from) and for b = c with a non-const box c (the operator moves and has no return statement)."
  },
  {
   "property": "C135",
   "status": "partial",
   "theorems": [
    "C135_literal_sizes_partial",
    "C135_unsigned_sizes_partial",
    "C135_int_sizes",
    "C135_sizes_refuted",
    "C135_popcount"
   ],
   "note": "Exact whenever the result fits the type; wraps (unsigned) or is undefined (int) otherwise. popcount is exact."
  },
  {
   "property": "C136",
   "status": "partial",
   "theorems": [
    "C136_help",
    "C136_version",
    "C136_help_refuted"
   ],
   "note": "Proved without --; with -- the program gets -- as its name, so ab -- help shows the manual page called help."
  },
  {
   "property": "C137",
   "status": "proved",
   "theorems": [
    "C137_ending_decides",
    "C137_one_ending",
    "C137_every_outcome",
    "C137_outcome_iff",
    "C137_word_iff",
    "C137_never_returns_iff",
    "C137_wordless_endings"
   ],
   "note": "Equivalences in both directions: C137_word_iff, C137_outcome_iff, C137_never_returns_iff; C137_ending_decides gives the exact number of instructions after which the outcome appears. C137_wordless_endings: for endings without a word the same holds for results of any number and type."
  },
  {
   "property": "C138",
   "status": "partial",
   "theorems": [
    "C138_only_comments_partial",
    "C138_same_outcome",
    "C138_closing_parenthesis_refuted",
    "C138_section_of_ten_bytes_refuted",
    "C138_announcements"
   ],
   "note": "True where every section heading is followed by an entry and no heading contains a line break. Refuted otherwise: the closing parenthesis of the module ends up in a comment whenever the last heading has no entry after it (proved for all such modules), and a section of ten bytes (length printed as a character) breaks its heading into two lines."
  },
  {
   "property": "C139",
   "status": "partial",
   "theorems": [
    "C139_names_up_to_nul",
    "C139_names_without_nul_partial",
    "C139_names_with_nul_refuted",
    "C139_import_names_up_to_nul",
    "C139_custom_name_up_to_nul",
    "C139_custom_names_with_nul_refuted"
   ],
   "note": "What is reported is exactly what comes before the first NUL (proved for all export and import sections and for a custom section at the end of a file); names with a NUL are cut, so different names become the same."
  },
  {
   "property": "C140",
   "status": "partial",
   "theorems": [
    "C140_accepted_cuts_partial",
    "C140_cut_files_have_no_functions_partial",
    "C140_written_files_exactly",
    "C140_cut_accepted_refuted"
   ],
   "note": "Refuted: every written file with functions can be cut before its code section and is then accepted, with types and type indices but without functions. Partial: an accepted cut is always between two sections and gives an initial part of the module; for written files exactly the three cuts between sections are accepted, and none of them has a function, so no code of an incomplete file can be called."
  },
  {
   "property": "C141",
   "status": "proved",
   "theorems": [
    "C141_hash_by_contents",
    "C141_equality_by_contents",
    "C141_equal_iff_same_value",
    "C141_find_by_contents",
    "C141_keys_stay_up_to_date"
   ],
   "note": "Under the condition that the hashes kept in the map on the right are those of the keys as they are, which C141_keys_stay_up_to_date shows to hold after every history in which no part of a key is changed."
  },
  {
   "property": "C142",
   "status": "proved",
   "theorems": [
    "C142_elsewhere_unchanged",
    "C142_metadata_invisible",
    "C142_seen_at_every_place",
    "C142_new_value",
    "C142_when_carried_out",
    "C142_when_carried_out_on_a_map"
   ],
   "note": ""
  },
  {
   "property": "C143",
   "status": "partial",
   "theorems": [
    "C143_changed_key_is_lost_partial",
    "C143_map_differs_from_itself",
    "C143_same_hash_refuted"
   ],
   "note": "Holds when the hash of the key has changed (C143_changed_key_is_lost_partial); with equal hashes the entry is found under the new key."
  },
  {
   "property": "C144",
   "status": "partial",
   "theorems": [
    "C144_finite_values",
    "C144_operations_end_partial",
    "C144_inside_itself_refuted",
    "C144_list_in_itself_refuted"
   ],
   "note": "Holds exactly for nodes without null pointers and without cycles; a list to which it was itself appended is never hashed and never compared."
  },
  {
   "property": "C145",
   "status": "partial",
   "theorems": [
    "C145_value_kept_partial",
    "C145_characters_refuted",
    "C145_which_characters_partial"
   ],
   "note": "Characters are converted to bool: exactly 0 and 1 are kept."
  },
  {
   "property": "C146",
   "status": "proved",
   "theorems": [
    "C146_same_outcome",
    "C146_nothing_shared",
    "C146_change_stays_in_place"
   ],
   "note": ""
  },
  {
   "property": "C147",
   "status": "proved",
   "theorems": [
    "C147_results_are_the_words_from_the_register",
    "C147_results_in_own_registers",
    "C147_misaligned_result",
    "C147_no_result"
   ],
   "note": ""
  },
  {
   "property": "C148",
   "status": "partial",
   "theorems": [
    "C148_results_reveal_the_caller_refuted",
    "C148_results_confined_partial"
   ],
   "note": "Refuted: nothing compares the number of result words with the registers behind the returned one; a function that returns its last register but is declared to have a 32-bit and two 64-bit results hands out the saved instruction pointer and the interpreter's stack pointer. Partial: if the words fit into the callee's registers the results are exactly those registers."
  },
  {
   "property": "C149",
   "status": "partial",
   "theorems": [
    "C149_wordless_endings_partial",
    "C149_stack_contents_do_not_matter_partial",
    "C149_calls_in_a_row_partial",
    "C149_registers_are_left_behind_refuted",
    "C149_the_outcome_depends_on_history_refuted",
    "C149_results_of_any_type_partial"
   ],
   "note": "Refuted: registers behind the arguments are not cleared, so a callee starts with the registers the last callee of as many registers ended with (C149_registers_are_left_behind_refuted), and a function that returns such a register returns the argument of the call before (C149_the_outcome_depends_on_history_refuted). Proved: if on every way through the callee's code every register used is an argument or was set before, the outcome (result, abort, undefined behaviour, still running, for every bound) is the same on any two machines with the same code, whatever their stacks hold, wherever the code is loaded and whether or not the build is a debug build; calls in a row each return what they return when made first; and calls that return results of any number and type from registers that were set return the same values on any two machines; and if the call ends otherwise than by x32.return, it ends the same way on any two machines, whatever its results (C149_wordless_endings_partial). Missing: code that reads or returns a register it has not set, where the claim is false."
  },
  {
   "property": "C150",
   "status": "partial",
   "theorems": [
    "C150_runs_what_was_built_partial",
    "C150_ended_functions_partial",
    "C150_the_last_function_leaves_the_module_refuted",
    "C150_other_functions_run_into_the_next_refuted",
    "C150_results_of_any_type_partial",
    "C150_wordless_endings_partial",
    "C150_any_results_leave_the_module_refuted"
   ],
   "note": "Refuted: nothing checks that a function ends; the last function of a module then reads outside of the module (for every module and call), any other goes on with the size field of the next entry as an instruction. Proved: with an instruction that ends it (and registers of its own frame) a function executes exactly its instructions up to the first such one, or to the first signed overflow, with the outcome that goes with it, for every bound on the number of instructions (no result or one 32-bit one), and a function that reaches x32.return of a register returns, whatever its result types, the values whose words stand from that register on. x64.return, which the builder offers, is among them: the interpreter does not know it and aborts. Functions that end in another way (abort, overflow, leaving the module) do so whatever their results are (C150_wordless_endings_partial, C150_any_results_leave_the_module_refuted). Missing: functions without an instruction that ends them, where the claim is false."
  },
  {
   "property": "C151",
   "status": "proved",
   "theorems": [
    "C151_stack_handles",
    "C151_no_leaks",
    "C151_no_memory"
   ],
   "note": "Full statement. The class is not used by the interpreter, which allocates its stack itself (C60)."
  },
  {
   "property": "C152",
   "status": "proved",
   "theorems": [
    "C152_copied_objects"
   ],
   "note": "Full statement, for the programs of C33 with copies of objects."
  },
  {
   "property": "C153",
   "status": "partial",
   "theorems": [
    "C153_assignment_without_deaths_partial",
    "C153_as_many_handles_without_deaths_partial",
    "C153_as_many_handles_any_deaths_partial",
    "C153_what_an_assignment_does",
    "C153_self_assignment_refuted",
    "C153_next_of_a_list_refuted",
    "C153_assigned_objects_refuted",
    "C153_as_many_handles_partial",
    "C153_freed_too_early_refuted",
    "C153_never_freed_refuted"
   ],
   "note": "Refuted: the count is copied along. For every program and every two objects with null handles only (or none) the object assigned to is left with the number of handles to the other; it is freed while referred to (use after free) or never freed. *x = *x, and *x = *x->next in a list, use freed memory when a member is the last handle. Proved: when as many handles refer to the one as to the other and neither expression goes through the members of the object assigned to, the assignment does what it should, whatever objects die by it; with other numbers of handles, all members, counts and allocations after it as long as no object dies (C153_assignment_without_deaths_partial), and for any assignment between the objects of two variables that it does exactly what assigning the members one by one does after the count has been replaced (C153_what_an_assignment_does). Missing: only cases where the claim is false."
  },
  {
   "property": "C154",
   "status": "partial",
   "theorems": [
    "C154_values_are_read_partial",
    "C154_values_are_read_refuted",
    "C154_appended_value_partial"
   ],
   "note": "Refuted: at an offset that is not a multiple of the type's alignment the behaviour is undefined (a reference through a pointer cast), for every buffer. Proved: at every other offset, and in particular for the value appended last, the bytes are read."
  },
  {
   "property": "C155",
   "status": "proved",
   "theorems": [
    "C155_locations_are_in_order",
    "C155_ranges_are_in_order",
    "C155_last_break_starts_the_last_line"
   ],
   "note": "Walk of the text gives the reading order; proved by induction over the text."
  },
  {
   "property": "C156",
   "status": "partial",
   "theorems": [
    "C156_in_line_agrees_except_in_the_last_line_partial",
    "C156_in_line_of_the_last_line_refuted"
   ],
   "note": "Proved for every line but the last, and for the last line when the offset is before it. Refuted, for every text: asking whether an offset of the last line is in the last line reads breaks_ one past its end."
  },
  {
   "property": "C157",
   "status": "proved",
   "theorems": [
    "C157_symbols_are_equal_when_their_names_are"
   ],
   "note": "Statement over C21's table and C23/C24's node equality and hash."
  },
  {
   "property": "C158",
   "status": "proved",
   "theorems": [
    "C158_every_table_is_a_bijection",
    "C158_tables_are_independent"
   ],
   "note": "The moved-from maps are taken to be empty, as in libstdc++ and libc++; assignment of tables does not exist."
  },
  {
   "property": "C159",
   "status": "proved",
   "theorems": [
    "C159_printed_pieces",
    "C159_printing_changes_nothing",
    "C159_output_of_ab_asm",
    "C159_nothing_else"
   ],
   "note": "The scanner is modelled a second time with what its actions print; C159_printing_changes_nothing ties it to the model of C111 for every state and call, C159_nothing_else ties the program to that of C121 to C123."
  },
  {
   "property": "C160",
   "status": "partial",
   "theorems": [
    "C160_start_of_a_parenthesis_refuted",
    "C160_names_and_identifiers_partial"
   ],
   "note": "Refuted: for every parenthesis in every text the place shown is where it ends. Proved: names and identifiers are shown with their characters, start and end."
  },
  {
   "property": "C161",
   "status": "proved",
   "theorems": [
    "C161_numbers_read_back",
    "C161_a_number_is_read_as_its_value"
   ],
   "note": "Code outside a namespace with an operator<< of its own (in Ab::Wasm the operators are not found, see C99). long, long long and floating types do not compile."
  },
  {
   "property": "C162",
   "status": "partial",
   "theorems": [
    "C162_silent_refuted",
    "C162_silent_partial",
    "C162_what_is_written"
   ],
   "note": "False: unsigned char, unsigned short, unsigned long and unsigned long long write a line of debugging text to standard output for every number. Proved: it holds exactly of the sequences with no number of those types, and what is written depends on the types alone. Missing: only sequences for which the claim is false."
  }
 ]
}