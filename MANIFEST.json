{
 "claims": [
  {
   "property": "C01",
   "status": "partial",
   "theorems": [
    "C01_leximited_string_self_delimiting",
    "C01_leximited_prefix_free",
    "C01_leximited_concat_unique",
    "C01_leximited_beyond_u32_refuted"
   ],
   "note": "Round trip with arbitrary continuation, prefix-freeness and unique concatenation for strings shorter than 2^32 bytes; a string of 2^32 or more bytes is refuted (length truncated to u32)."
  },
  {
   "property": "C02",
   "status": "proved",
   "theorems": [
    "C02_unsigned32_roundtrip",
    "C02_unsigned64_roundtrip",
    "C02_signed32_roundtrip",
    "C02_signed64_roundtrip",
    "C02_signed32_injective",
    "C02_signed64_injective",
    "C02_unsigned64_injective"
   ],
   "note": "All four number encoders, every value."
  },
  {
   "property": "C03",
   "status": "proved",
   "theorems": [
    "C03_hexescape_roundtrip",
    "C03_hexescape_visible",
    "C03_hexescape_injective"
   ],
   "note": "Every byte string."
  },
  {
   "property": "C04",
   "status": "proved",
   "theorems": [
    "C04_unsigned_constant_exact",
    "C04_signed_constant_exact"
   ],
   "note": "Every 64-bit pattern, signed and unsigned."
  },
  {
   "property": "C05",
   "status": "partial",
   "theorems": [
    "C05_signed_literal_exact",
    "C05_signed_literal_out_of_range",
    "C05_unsigned_literal_exact",
    "C05_unsigned_literal_out_of_range",
    "C05_unsigned_negative_refuted",
    "C05_unsigned_negative_ub_refuted",
    "C05_prefix_without_digits_refuted",
    "C05_high_byte_terminates_refuted"
   ],
   "note": "exact value / overflow characterisation proved for signed and unsigned literals; refuted for unsigned literals with a minus sign, radix prefixes without digits and high bytes."
  },
  {
   "property": "C06",
   "status": "partial",
   "theorems": [
    "C06_representable_accepted_partial",
    "C06_unrepresentable_accepted_refuted",
    "C06_unsigned_sizes_abort_refuted"
   ],
   "note": "every representable value is accepted; the converse is refuted, and unsigned sizes abort."
  },
  {
   "property": "C07",
   "status": "proved",
   "theorems": [
    "C07_interning",
    "C07_interning_stable"
   ],
   "note": "Histories shorter than 2^32."
  },
  {
   "property": "C08",
   "status": "proved",
   "theorems": [
    "C08_user_string_table"
   ],
   "note": "Strings of at most 255 bytes (the limit the lexer enforces); total below 2^32."
  },
  {
   "property": "C09",
   "status": "partial",
   "theorems": [
    "C09_quoted_rendering_refuted",
    "C09_quoted_rendering_partial"
   ],
   "note": "Refuted as stated (two different strings rendered alike); injectivity proved for strings of printable bytes and bytes 7..13."
  },
  {
   "property": "C10",
   "status": "partial",
   "theorems": [
    "C10_line_and_byte",
    "C10_positions_increase",
    "C10_long_line_refuted",
    "C10_many_lines_refuted"
   ],
   "note": "exact for every text that fits the 16-bit line and byte fields, positions strictly increase; refuted beyond 65535 lines or 65535 bytes per line."
  },
  {
   "property": "C11",
   "status": "partial",
   "theorems": [
    "C11_bytes_delivered",
    "C11_positions",
    "C11_load_splices",
    "C11_reload_of_open_file_refuted",
    "C11_position_after_empty_file_refuted"
   ],
   "note": "byte delivery proved for all histories of reads, one-byte pushbacks and loads of files that are not open; positions proved under one outermost file and no load during pushback; refuted for loading an open file and for positions after an empty file."
  },
  {
   "property": "C12",
   "status": "partial",
   "theorems": [
    "C12_longest_operator_partial",
    "C12_longest_operator_refuted"
   ],
   "note": "holds unless a comment starts, a star is followed by a slash, two dots are followed by no third, << or >> ends the input, or a NUL follows; the last three refuted (C12_longest_operator_refuted)."
  },
  {
   "property": "C13",
   "status": "partial",
   "theorems": [
    "C13_skipped_partial",
    "C13_inserted_partial",
    "C13_one_byte_ahead",
    "C13_skipped_refuted"
   ],
   "note": "any mix of white space and comments before a token, and put in between tokens where the previous token stopped at white space, changes nothing; a token depends on at most one byte past it. Refuted for structured-comment corner cases (C13_skipped_refuted)."
  },
  {
   "property": "C14",
   "status": "partial",
   "theorems": [
    "C14_keywords",
    "C14_keywords_distinct",
    "C14_identifiers_partial",
    "C14_words_whole",
    "C14_odd_word_refuted",
    "C14_flags",
    "C14_inserts"
   ],
   "note": "all words but one; refuted for the word StructuredComment, which is not reserved but is refused."
  },
  {
   "property": "C15",
   "status": "proved",
   "theorems": [
    "C15_put_get",
    "C15_put_get_long",
    "C15_get_is_field",
    "C15_immediate"
   ],
   "note": "All positions, widths up to 64, values and contents; immediates included. BitVector (MFM library) is external and modelled by its documented effect."
  },
  {
   "property": "C16",
   "status": "proved",
   "theorems": [
    "C16_put_frame",
    "C16_disjoint",
    "C16_store_frame",
    "C16_array_store_frame"
   ],
   "note": "Fields, scalar stores and packed array stores."
  },
  {
   "property": "C17",
   "status": "partial",
   "theorems": [
    "C17_item_pointer",
    "C17_store_load",
    "C17_whole_array_load_partial",
    "C17_whole_array_load_refuted",
    "C17_copy_array_partial",
    "C17_copy_quark_array_refuted",
    "C17_stack_store_partial",
    "C17_stack_store_refuted"
   ],
   "note": "proved for items and whole arrays through the atom operations; refuted for whole-array loads of two 33..35-bit items, for copies of quark arrays (justification mismatch) and for item stores to stack arrays of 65..71 bits (whole slot overwritten)."
  },
  {
   "property": "C18",
   "status": "proved",
   "theorems": [
    "C18_packed_default",
    "C18_big_default"
   ],
   "note": "Item default below 2^w (what the caller passes); packed and 8192-bit forms."
  },
  {
   "property": "C19",
   "status": "proved",
   "theorems": [
    "C19_call_leaves_caller_alone",
    "C19_call_sequence_restores_stack"
   ],
   "note": "For code of any nesting that stores, pushes, pops and calls. The vector growing to 2^31 values counts as out of memory."
  },
  {
   "property": "C20",
   "status": "proved",
   "theorems": [
    "C20_store_then_load",
    "C20_other_slots_unchanged",
    "C20_store_changes_one_place",
    "C20_assign_changes_one_place",
    "C20_local_slots"
   ],
   "note": "Slots over the whole s32 range; assignment through a pointer for values assigned to slots holding data."
  },
  {
   "property": "C21",
   "status": "proved",
   "theorems": [
    "C21_coord_index_coord",
    "C21_index_coord_index",
    "C21_header_comment_refuted"
   ],
   "note": "Every coordinate of the 9x9 square and every index. The header comment's numbering is shown wrong (C21_header_comment_refuted)."
  },
  {
   "property": "C22",
   "status": "partial",
   "theorems": [
    "C22_store_accepted_iff_in_window",
    "C22_load_gives_last_store",
    "C22_assign_changes_one_site",
    "C22_assign_field",
    "C22_bounds_check_accepts_window",
    "C22_bounds_check_refuted"
   ],
   "note": "The bounds check as written is refuted: isValidSite tests |x+y|, so (4,-4) passes (C22_bounds_check_refuted). Proved: stores are accepted exactly at distance at most 4, loads give the last store, every site of the window passes the check. Not covered: setSiteElementType, the live flag."
  },
  {
   "property": "C23",
   "status": "proved",
   "theorems": [
    "C23_safe_cast_keeps_number",
    "C23_safe_cast_exact",
    "C23_bits_there_and_back"
   ],
   "note": "Scalar Int, Unsigned, Unary, Bool and Bits of 1..64 bits, non-reference; the MFM conversions are external and modelled by their effect (read number, clamp, write). For a Bits destination 'same value' is the same bits. Void, String and class sources are not covered."
  },
  {
   "property": "C24",
   "status": "proved",
   "theorems": [
    "C24_maxof",
    "C24_minof"
   ],
   "note": "Int, Unsigned, Unary, Bool of 1..64 bits (Bits has no maxof)."
  },
  {
   "property": "C25",
   "status": "partial",
   "theorems": [
    "C25_result_type_holds_result",
    "C25_quotient_type_holds_quotient",
    "C25_remainder_type_holds_remainder",
    "C25_result_type_refuted",
    "C25_negation_partial"
   ],
   "note": "Refuted for Unsigned minus Unsigned, the least Int divided by -1, Unsigned(32)/Int(40) and Int(40)%Unsigned(32) (C25_result_type_refuted). Proved for + and *, for - with an Int operand, and for / and % outside those cases. Quark operands are not modelled."
  },
  {
   "property": "C26",
   "status": "partial",
   "theorems": [
    "C26_shift_left_size",
    "C26_shift_right_size",
    "C26_shift_left_size_refuted"
   ],
   "note": "Refuted: 1<<31 makes a negative size and 1<<32 is undefined (C26_shift_left_size_refuted). Proved for a distance of at most 30 bits or at least the word size. Primitive operands only."
  },
  {
   "property": "C27",
   "status": "proved",
   "theorems": [
    "C27_type_names_distinct",
    "C27_class_names_distinct",
    "C27_class_is_not_plain",
    "C27_unknown_array_size_refuted"
   ],
   "note": "Complete types (the code names an array of unknown size as a scalar, C27_unknown_array_size_refuted); plain and class types, with arbitrary continuation."
  },
  {
   "property": "C28",
   "status": "partial",
   "theorems": [
    "C28_strings_partial",
    "C28_empty_string_refuted",
    "C28_function_names_distinct"
   ],
   "note": "C28_function_names_distinct for parameters of plain types, classes and template instances whose arguments are numbers or arrays of numbers; C28_strings_partial adds user strings that are not empty. C28_empty_string_refuted: an empty string among the arguments leaves no trace, and two overloads with template instances and Bool parameters get one name. Class constants as arguments collide too (C54_class_constants_refuted)."
  },
  {
   "property": "C29",
   "status": "proved",
   "theorems": [
    "C29_strict_total_order",
    "C29_map_lookup"
   ],
   "note": "strict total order consistent with equality; a std::map lookup finds exactly the entry with an equal key."
  },
  {
   "property": "C30",
   "status": "partial",
   "theorems": [
    "C30_index_denotes_key",
    "C30_keys_keep_apart",
    "C30_index_keeps_key",
    "C30_same_index_again",
    "C30_class_own_index",
    "C30_set_key_denotes",
    "C30_same_index_refuted",
    "C30_class_index_refuted"
   ],
   "note": "index denotes its key, different keys keep apart, an index keeps its key unless an operation sets it, same index again across any number of registrations. Refuted: a holder made earlier and completed later takes the type's place (C30_same_index_refuted); a non-class key carrying a class index gets a new index each time (C30_class_index_refuted)."
  },
  {
   "property": "C31",
   "status": "partial",
   "theorems": [
    "C31_completed_holder",
    "C31_replaced_stands_for_new",
    "C31_resolves_to_root",
    "C31_short_chains_resolve",
    "C31_updates_keep_range",
    "C31_long_chain_refuted",
    "C31_cycle_refuted"
   ],
   "note": "whatever is resolved is the root of the chain and chains of at most six links resolve; longer chains and cycles abort (refuted)."
  },
  {
   "property": "C32",
   "status": "proved",
   "theorems": [
    "C32_walk",
    "C32_ancestors",
    "C32_breadth_first_by_distance",
    "C32_depth_first"
   ],
   "note": "every base graph whose class numbers are 16-bit, cyclic ones included; also the order (breadth first by distance, depth first)."
  },
  {
   "property": "C33",
   "status": "proved",
   "theorems": [
    "C33_subclass",
    "C33_subclass_acyclic",
    "C33_nearest",
    "C33_is_bits",
    "C33_incomplete_refuted"
   ],
   "note": "for complete classes; for classes still incomplete the test also says yes to types it cannot tell apart (C33_incomplete_refuted). The nearest base and the is-test's bit vector are covered too."
  },
  {
   "property": "C34",
   "status": "partial",
   "theorems": [
    "C34_accepted",
    "C34_stack",
    "C34_labels",
    "C34_numbers",
    "C34_code",
    "C34_turns",
    "C34_unused_label_refuted"
   ],
   "note": "targets, restoring and the meaning of the generated code hold in full, and every goto has its label; 'a label is emitted only if used' holds in builds without assertions and is refuted for the default build (C34_unused_label_refuted)."
  },
  {
   "property": "C35",
   "status": "proved",
   "theorems": [
    "C35_types",
    "C35_capacity",
    "C35_exhausted"
   ],
   "note": "any sequence of requests; capacity 65534 classes besides Empty. C35_exhausted: past the capacity the search never ends (the assertion meant to stop it allows one call more)."
  },
  {
   "property": "C36",
   "status": "proved",
   "theorems": [
    "C36_counts",
    "C36_written",
    "C36_once",
    "C36_error_shown"
   ],
   "note": "every sequence of events; counts below 2^32. A line is written once, to the output in force when it first comes up, provided an output is set."
  },
  {
   "property": "C37",
   "status": "proved",
   "theorems": [
    "C37_layout",
    "C37_duplicate",
    "C37_own_position",
    "C37_only_ancestors_inside"
   ],
   "note": "classes that are not unions; a repeated direct base is refused."
  },
  {
   "property": "C38",
   "status": "partial",
   "theorems": [
    "C38_members_partial",
    "C38_bases_at_front",
    "C38_refuted"
   ],
   "note": "the members of a union start together, but the bases start there too, so they overlap the members (C38_refuted)."
  },
  {
   "property": "C39",
   "status": "proved",
   "theorems": [
    "C39_never_fails",
    "C39_parts",
    "C39_slots",
    "C39_owned"
   ],
   "note": "every acyclic hierarchy; also that no assertion of the table code fails once the bases are done."
  },
  {
   "property": "C40",
   "status": "partial",
   "theorems": [
    "C40_class",
    "C40_never_null",
    "C40_calls_partial",
    "C40_one_class",
    "C40_ambiguity_refuted",
    "C40_exact_refuted"
   ],
   "note": "C40_class settles one class completely (selected iff the only safe candidate or the only one of the same kinds of types). C40_one_class does so for a whole call when only one class of the hierarchy has functions of that name. C40_never_null: never a count of one without a function, whatever is unknown. C40_calls_partial: what any selected function satisfies in an arbitrary hierarchy. Not true in general: C40_ambiguity_refuted (an ambiguity in a derived class is forgotten when a base has one match) and C40_exact_refuted (an exact match in a base may be passed over for the one it overrides when another base is pending). The type relations of one parameter and one argument are parameters; unknown (hazy) comparisons are modelled, and the positive theorems assume none remain."
  },
  {
   "property": "C41",
   "status": "partial",
   "theorems": [
    "C41_grammar_partial",
    "C41_printed",
    "C41_local_refuted",
    "C41_is_refuted",
    "C41_wrap_refuted"
   ],
   "note": "Every tree of identifiers, numbers, strings, unary, binary, postfix, assignment, question-colon, index, call, member, of and cast nodes is read back from its minimal printing; every phrase of the grammar (including is/as, local, of-a-type, indices after members) is read as its tree unless it is of one of three kinds, each refuted by a witness: '(local.x)' fails an assertion, 'x is Foo & y' loses the ampersand to the type, '(Int.sizeof ? a : b = c)' is refused. A type descriptor is one token; member selection by base type, named constants of types, reference casts and instanceof constructor calls are not modelled."
  },
  {
   "property": "C42",
   "status": "partial",
   "theorems": [
    "C42_refuted",
    "C42_delete_refuted",
    "C42_partial",
    "C42_alternating_partial"
   ],
   "note": "The code violates the property: 'a * * b', 'a . . . b' and 'a[]' give nodes without an operand and no error, and 'a . . . . .' deletes a node twice (refuted by witnesses). Proved for every token sequence: only the left operand of an operator of levels & to *, the object of a member selection or of-operator, and an index can be missing; and where operands and operators alternate and no error is reported nothing is missing."
  },
  {
   "property": "C43",
   "status": "proved",
   "theorems": [
    "C43_map",
    "C43_owners",
    "C43_no_dangling",
    "C43_rejected",
    "C43_lookup",
    "C43_listing",
    "C43_no_leak",
    "C43_assign_refuted",
    "C43_leak_refuted",
    "C43_self_replace_refuted",
    "C43_silent_refuted"
   ],
   "note": "All of SymbolTable.cpp except the type alias update inside mergeATableHere; Symbol::clone is modelled as a same-name same-data copy. C43_map: every accepted call is the finite map operation. C43_rejected: which calls an assert refuses, tables unchanged. C43_owners / C43_no_dangling / C43_no_leak: ownership. C43_lookup / C43_listing: lookups, merges, size and order of names for well named histories. Findings: C43_assign_refuted (operator= does not clear, so it is refused half way or on self-assignment), C43_leak_refuted (a rename onto a taken name loses the other symbol), C43_self_replace_refuted (replace by itself deletes the entry's symbol), C43_silent_refuted (replace of an absent symbol is silently dropped)."
  },
  {
   "property": "C44",
   "status": "partial",
   "theorems": [
    "C44_accepted_is_ulam_file",
    "C44_ulam_file_accepted_partial",
    "C44_repeated_suffix_refuted"
   ],
   "note": "Accepted names are ulam file names; the converse holds except for names containing .ulam before the end (refuted)."
  },
  {
   "property": "C45",
   "status": "proved",
   "theorems": [
    "C45_compare_decides",
    "C45_internal_never_complete",
    "C45_equivalence",
    "C45_dont_know",
    "C45_symmetric",
    "C45_wild_decides"
   ],
   "note": "both comparisons decide identity on complete types, are symmetric on all types, never answer don't-know on complete types."
  },
  {
   "property": "C46",
   "status": "partial",
   "theorems": [
    "C46_limit_partial",
    "C46_accepted_modulo",
    "C46_limit_refuted",
    "C46_class_limit"
   ],
   "note": "holds when the bit total fits in 32 bits; characterised exactly modulo 2^32; refuted for Int(32) x[2^27] (C46_limit_refuted)."
  },
  {
   "property": "C47",
   "status": "proved",
   "theorems": [
    "C47_names",
    "C47_names_distinct",
    "C47_only_those",
    "C47_operator_read"
   ],
   "note": "all overloadable operators, and how the lexer reads operator+op."
  },
  {
   "property": "C48",
   "status": "proved",
   "theorems": [
    "C48_only_the_count_matters",
    "C48_every_count"
   ],
   "note": "Every size and pattern; conversions external."
  },
  {
   "property": "C49",
   "status": "partial",
   "theorems": [
    "C49_valid_user_string_index_refuted",
    "C49_registered_index_valid_partial",
    "C49_accepted_partial"
   ],
   "note": "The code violates the property: indexes between entries are called valid (refuted by a witness). Registered indexes are proved valid; an accepted index below the number of entries denotes a string, and index 0 is never accepted."
  },
  {
   "property": "C50",
   "status": "partial",
   "theorems": [
    "C50_source_lines_partial",
    "C50_unterminated_line_refuted",
    "C50_loaded_twice_refuted"
   ],
   "note": "proved for every complete line of a file read from start (single file, arbitrary contents); refuted for a last line without newline and for files loaded twice. Missing: nested loads."
  },
  {
   "property": "C51",
   "status": "partial",
   "theorems": [
    "C51_load_past_end",
    "C51_negative_load_refuted",
    "C51_store_refuted",
    "C51_store_past_end_partial",
    "C51_store_wrap_refuted"
   ],
   "note": "Refuted as stated (negative loads, stores past the end of a member, wrap-around of the 8-bit position); the refused cases are proved."
  },
  {
   "property": "C52",
   "status": "proved",
   "theorems": [
    "C52_literal_accepted_iff_representable",
    "C52_literal_to_bool",
    "C52_literal_keeps_its_number",
    "C52_literal_type_holds_number"
   ],
   "note": "Constants of type Int, Unsigned and Unary to those types; conversions and comparisons of the MFM library are external."
  },
  {
   "property": "C53",
   "status": "proved",
   "theorems": [
    "C53_folding_gives_nearest",
    "C53_no_division_by_zero"
   ],
   "note": "For constants that fit the type of the operation, which the compiler checks (C23, C52). The library's saturating operations are external: assumed exact, then brought into range."
  },
  {
   "property": "C54",
   "status": "partial",
   "theorems": [
    "C54_instances_with_strings",
    "C54_instances_told_apart",
    "C54_class_constants_refuted",
    "C54_string_arrays_refuted"
   ],
   "note": "Proved for numbers, arrays of numbers and user strings. Refuted for class constants (getValueAsHexString reads overlapping nybbles) and for arrays of strings (an empty string leaves no trace)."
  },
  {
   "property": "C55",
   "status": "proved",
   "theorems": [
    "C55_string",
    "C55_string_only",
    "C55_char",
    "C55_char_only",
    "C55_unique"
   ],
   "note": "both directions for double quotes, one direction for single quotes."
  },
  {
   "property": "C56",
   "status": "partial",
   "theorems": [
    "C56_number",
    "C56_number_only_partial",
    "C56_bare_prefix_refuted",
    "C56_fraction"
   ],
   "note": "every number is read right, and nothing else is but for bare prefixes 0x and 0b, which are number tokens (refuted)."
  },
  {
   "property": "C57",
   "status": "partial",
   "theorems": [
    "C57_dispatch_partial",
    "C57_final",
    "C57_conflicts",
    "C57_abstract",
    "C57_refuted"
   ],
   "note": "holds for functions with one origin in the class's hierarchy; refuted for several origins (C57_refuted: the slot of a second origin keeps the origin's function although it is overridden)."
  },
  {
   "property": "C58",
   "status": "partial",
   "theorems": [
    "C58_eval_partial",
    "C58_agree_partial",
    "C58_for_continue_refuted",
    "C58_switch_break_refuted"
   ],
   "note": "proved for bodies without a continue of a for loop and without statements after a switch break; refuted for each of the two (C58_for_continue_refuted, C58_switch_break_refuted)."
  },
  {
   "property": "C59",
   "status": "partial",
   "theorems": [
    "C59_result",
    "C59_exit_refuted",
    "C59_exit_partial"
   ],
   "note": "the result of compileFiles is right (C59_result); the process exit status is right while the number returned is below 256 (C59_exit_partial) and refuted otherwise (C59_exit_refuted: 256 errors in a file, or 128 errors and one more file, exit with status 0)."
  },
  {
   "property": "C60",
   "status": "proved",
   "theorems": [
    "C60_ends",
    "C60_fuel"
   ],
   "note": "For every token sequence of the model; unmodelled parts answer Unmod. The C++ recursion depth (stack) is not modelled."
  },
  {
   "property": "C61",
   "status": "partial",
   "theorems": [
    "C61_refuted",
    "C61_tokens_partial"
   ],
   "note": "The code violates the property: f(a * ) is read as f(), f(a, , b) as f(a, b), (Int.sizeof x) as x, all without an error (refuted by witnesses). Proved where operands and operators alternate."
  },
  {
   "property": "C62",
   "status": "partial",
   "theorems": [
    "C62_exact",
    "C62_never",
    "C62_sized_partial",
    "C62_loop_partial",
    "C62_refuted",
    "C62_depth_refuted"
   ],
   "note": "The code violates the property: a union whose member class is also a base loses the class's size as a base, so its subclasses are never sized if the union comes first (C62_refuted); a containment chain deeper than 100 in an adverse order is not finished (C62_depth_refuted). Proved for all programs of regular classes: sizes found without errors are exact and within limits (C62_exact); circular containment is never sized (C62_never); otherwise pass n has sized every class of depth below n in any table order (C62_sized_partial). Templates are not modelled."
  },
  {
   "property": "C63",
   "status": "proved",
   "theorems": [
    "C63_numbers_compare_truly",
    "C63_bools_compare_truly",
    "C63_bits_compare_truly",
    "C63_others_are_errors"
   ],
   "note": "The C++ helpers _BinOpCompare... are external (not in the repository) and assumed to compare the numbers the bits stand for. C63_numbers_compare_truly gives the exact condition for the error."
  },
  {
   "property": "C64",
   "status": "partial",
   "theorems": [
    "C64_bitwise_acts_bit_by_bit",
    "C64_complement_flips_each_bit",
    "C64_bang_negates",
    "C64_bang_refused",
    "C64_shift_distance_checked",
    "C64_shift_left_moves_bits",
    "C64_shift_left_multiplies",
    "C64_shift_right_moves_bits_partial",
    "C64_shift_right_refuted",
    "C64_unknown"
   ],
   "note": "The code violates the property: the distance of >> is cut to the number of bits of the left operand, so 5 in Bits(3) >> 8 folds to 5 (refuted by a witness). >> is proved for distances below 2^n and the word; << for distances below the word and distance types for which the size is defined (see C26); the rest without bound. The external helpers are assumed to act on the low len bits."
  },
  {
   "property": "C65",
   "status": "partial",
   "theorems": [
    "C65_same_end",
    "C65_same_value",
    "C65_operand_order_refuted",
    "C65_store_order_refuted",
    "C65_argument_order_refuted",
    "C65_if_branches",
    "C65_branch_agrees",
    "C65_condition_refuted",
    "C65_loop_refuted",
    "C65_wide_and_refuted",
    "C65_short_circuit",
    "C65_not_short_circuit",
    "C65_and_value_refuted"
   ],
   "note": "Agreement proved for every program whose neighbouring operands do not interfere and whose conditions are single bits (C65_same_end, C65_same_value, with recursive functions and loops); short circuits proved without those conditions. Refuted outside: x + (x = 5), a[i] = (i = 2), f(x = 1, x = 2) give different results, Bool(3) 001 takes different branches (exactly when: C65_branch_agrees), && of more than 32 bits stops the evaluator. Operators are arbitrary functions shared by both sides; reference parameters, classes and early return are outside this model."
  },
  {
   "property": "C66",
   "status": "partial",
   "theorems": [
    "C66_read_item",
    "C66_store_item",
    "C66_gen_item",
    "C66_read_unsigned",
    "C66_read_small",
    "C66_gen_unsigned",
    "C66_unsigned_same",
    "C66_string_same",
    "C66_string_in_bounds",
    "C66_string_byte",
    "C66_constant_exact",
    "C66_constant_item",
    "C66_read_negative_refuted",
    "C66_read_negative_abort_refuted",
    "C66_read_negative_exact",
    "C66_read_wide_refuted",
    "C66_store_refuted",
    "C66_store_slots_exact",
    "C66_store_word_exact",
    "C66_store_word_partial",
    "C66_store_word_refuted",
    "C66_store_wide_refuted",
    "C66_gen_signed_exact",
    "C66_gen_negative",
    "C66_gen_negative_refuted",
    "C66_string_negative_refuted",
    "C66_constant_refuted",
    "C66_constant_negative_refuted",
    "C66_constant_eval"
   ],
   "note": "the first half holds: every item is accepted everywhere and reached (C66_read_item, C66_store_item for indexes of at most 32 bits, C66_gen_item, C66_constant_item, C66_string_byte), and on Unsigned indexes the refusals are exact (C66_read_unsigned, C66_gen_unsigned). The second half is refuted with witnesses: negative reads, reads at 2^32, stores beyond the array (exact condition in C66_store_slots_exact and C66_store_word_exact), negative Int(n) in generated code (exact condition in C66_gen_signed_exact), constant index equal to the size or -2, wide store index."
  },
  {
   "property": "C67",
   "status": "proved",
   "theorems": [
    "C67_default",
    "C67_determined",
    "C67_union"
   ],
   "note": "Existence, uniqueness (C67_determined) and description of the default value for every class of a well-formed program (the record `program`: complete, acyclic, sizes fit, initialisers that check). Unions with bases are outside (see C38), so is a data member of type Atom with an initialiser (the code ignores it)."
  },
  {
   "property": "C69",
   "status": "partial",
   "theorems": [
    "C69_numbers",
    "C69_classes",
    "C69_too_many",
    "C69_constant_empty",
    "C69_empty_list_refuted"
   ],
   "note": "proved for non-empty lists, for lists that are too long, and for named constants with an empty list; refuted with a witness for a variable or data member of a class array with an empty list, whose computed value is all zero (C69_empty_list_refuted). Named constant arrays as class-array members inside lists are not modelled."
  },
  {
   "property": "C70",
   "status": "proved",
   "theorems": [
    "C70_list",
    "C70_variable",
    "C70_accepted",
    "C70_determined",
    "C70_twice",
    "C70_stranger"
   ],
   "note": "Soundness, acceptance, uniqueness and both rejections, for all lists. Names are already resolved to the declaring class and member; unions with bases are outside (see C38)."
  },
  {
   "property": "C68",
   "status": "partial",
   "theorems": [
    "C68_class_value",
    "C68_array_value",
    "C68_list_value",
    "C68_packed_value",
    "C68_default",
    "C68_default_quark",
    "C68_map_value",
    "C68_map_element",
    "C68_map_element_refuted",
    "C68_map_injective"
   ],
   "note": "proved for every value in the generated code (C68_class_value, C68_array_value, C68_list_value, C68_packed_value, C68_default, C68_default_quark) and for map entries of types that are not elements (C68_map_value, C68_map_injective). Refuted with a witness for map entries of element type (C68_map_element_refuted): the length used is that of the data bits while the value starts with the 25 bits of the header, so the last bits are cut off; C68_map_element says what is there. Values of String type are not covered."
  },
  {
   "property": "C71",
   "status": "partial",
   "theorems": [
    "C71_identifier_partial",
    "C71_identifier",
    "C71_one_declaration",
    "C71_member",
    "C71_class_or_ancestor",
    "C71_unhidden",
    "C71_most_specific_single",
    "C71_shadow",
    "C71_typedef",
    "C71_constants_only",
    "C71_most_specific_refuted",
    "C71_typedef_ambiguity_refuted",
    "C71_later_constant_refuted"
   ],
   "note": "C71_identifier: an identifier means exactly what it denotes, if no constant of its name comes later in the blocks around it (then C71_later_constant_refuted: an outer variable in scope is refused). C71_identifier_partial without that hypothesis says what each outcome means. C71_one_declaration, C71_member (after a dot), C71_class_or_ancestor, C71_unhidden, C71_most_specific_single (one base each). C71_most_specific_refuted: the walk is depth first, so in a diamond the declaration of the shared base is found though a class below it declares the name again. C71_shadow: exactly the declaring ancestors are reported. C71_typedef: never ambiguous; C71_typedef_ambiguity_refuted: kinvec[0] is taken in each turn of the loop, so two bases with different typedefs give no message. C71_constants_only for the mode with constants only. Classes are complete (no hazy kin)."
  },
  {
   "property": "C72",
   "status": "partial",
   "theorems": [
    "C72_reads_partial",
    "C72_unique",
    "C72_only_partial",
    "C72_ends",
    "C72_which",
    "C72_lost_refuted",
    "C72_fault_refuted",
    "C72_as_refuted",
    "C72_published_refuted"
   ],
   "note": "refuted in part. Proved: every body of the grammar is read as its tree (C72_reads_partial: expressions as in C41, as only as the last operator of a condition), has one tree (C72_unique), what is accepted without an error and without a lost expression is a body of the grammar with that tree (C72_only_partial: the expressions are those the expression parser reads, not those of the grammar, C42 and C61), the parser ends on every input (C72_ends), which runs the first body written whose label holds (C72_which). Refuted: `f(a) * ;` disappears and `return f() * ;` returns nothing without an error (C72_lost_refuted); an otherwise without a body makes the compiler use a deleted node (C72_fault_refuted); after `x as T;` the next condition is taken for an as (C72_as_refuted); `for(++i;;)` and `Int a = b = 3;` are refused though published (C72_published_refuted)."
  },
  {
   "property": "C73",
   "status": "partial",
   "theorems": [
    "C73_exact_partial",
    "C73_plain_duplicates",
    "C73_quiet",
    "C73_virtual_refuted",
    "C73_parsing"
   ],
   "note": "C73_exact_partial says exactly what is accepted; C73_plain_duplicates, C73_quiet and C73_parsing are full. Missing, since false of the code: a duplicate after a virtual function is not reported (C73_virtual_refuted). Template arguments are numbers, as in C28."
  },
  {
   "property": "C74",
   "status": "partial",
   "theorems": [
    "C74_nearest",
    "C74_truth",
    "C74_bits",
    "C74_accepted",
    "C74_same_conversion",
    "C74_same_conversion_all",
    "C74_string_refuted",
    "C74_void",
    "C74_string"
   ],
   "note": "primitive scalars of 1 to 64 bits that are not references; C74_string_refuted shows the accepted cast that the evaluator cannot do. Casts of classes, references and values over 64 bits are not covered. The generated call's arguments are not modelled, only which function it names."
  },
  {
   "property": "C75",
   "status": "partial",
   "theorems": [
    "C75_exact_partial",
    "C75_one_program",
    "C75_cycle",
    "C75_unread",
    "C75_version_refuted",
    "C75_name_refuted",
    "C75_interrupted_refuted",
    "C75_fault_refuted",
    "C75_first_refuted",
    "C75_unread_refuted"
   ],
   "note": "refuted in part. Proved for files that are sequences of tokens and well-formed directives with version numbers below 2^32: what is read is exactly the program the file stands for (C75_exact_partial), unique (C75_one_program), circular loads never end (C75_cycle), pushback (C75_unread, any tokens). Refuted with witnesses outside: C75_version_refuted, C75_name_refuted, C75_interrupted_refuted, C75_fault_refuted, C75_first_refuted, C75_unread_refuted. A file is its list of tokens; the bytes are C11-C14."
  },
  {
   "property": "C76",
   "status": "partial",
   "theorems": [
    "C76_arith",
    "C76_step",
    "C76_numbers_only",
    "C76_bits",
    "C76_bits_refused",
    "C76_shift_by",
    "C76_shift_partial",
    "C76_same_call",
    "C76_same_shift_partial",
    "C76_shift_refuted",
    "C76_zero_refuted"
   ],
   "note": "proved for numbers (C76_arith, C76_step: any operand kinds, any sizes, divisor not 0), for & | ^ (C76_bits, C76_bits_refused), and for shifts by distances below 2^n and the word (C76_shift_partial; C76_shift_by says what happens otherwise). Refuted: the evaluator cuts the distance of <<= and >>= to the size of the left side while the generated code does not (C76_shift_refuted, C76_same_shift_partial gives the exact condition), and x /= 0, x %= 0 are not caught (C76_zero_refuted). The left side is a scalar of a primitive type, at a place in one cell; arrays are outside. The arithmetic helpers are external."
  },
  {
   "property": "C77",
   "status": "partial",
   "theorems": [
    "C77_is",
    "C77_as_partial",
    "C77_as_transient_refuted",
    "C77_as_transient_partial",
    "C77_as_position_partial",
    "C77_as_position_refuted",
    "C77_as_refusal",
    "C77_as_acceptance",
    "C77_getrelpos",
    "C77_generated",
    "C77_agree"
   ],
   "note": "refuted in part. 'is' holds in full in the evaluator and the generated code (C77_is, C77_generated, C77_agree, C77_getrelpos; an Atom asked for a quark calls a simulator method that is not in the repository), and so do the refusals (C77_as_refusal). The evaluator's 'as' is proved for quarks and elements (C77_as_partial) and where the variable's position is right (C77_as_position_partial). Refuted: t as T is false for a transient of class T (C77_as_transient_refuted); nested as on an Atom, and as to an element from a base view, give a wrong bit position (C77_as_position_refuted). C77_as_acceptance: every accepted pair of kinds can happen."
  },
  {
   "property": "C78",
   "status": "proved",
   "theorems": [
    "C78_numbers",
    "C78_stable",
    "C78_given",
    "C78_serve"
   ],
   "note": "every sequence of requests up to the 1000 numbers of the registry."
  },
  {
   "property": "C79",
   "status": "partial",
   "theorems": [
    "C79_implicit_sound",
    "C79_implicit_complete",
    "C79_implicit_atom",
    "C79_explicit_class",
    "C79_explicit_possible",
    "C79_explicit_refused_partial",
    "C79_explicit_to_atom",
    "C79_explicit_from_atom",
    "C79_const_refuted",
    "C79_evaluator_partial",
    "C79_evaluator_refuses",
    "C79_evaluator_atom",
    "C79_evaluator_refuted",
    "C79_evaluator_atom_refuted",
    "C79_generated",
    "C79_guard_refuted",
    "C79_generated_value",
    "C79_generated_atom"
   ],
   "note": "refuted in part. Acceptance: implicit casts exactly (C79_implicit_sound, C79_implicit_complete, C79_implicit_atom), explicit casts between classes exactly (C79_explicit_class, C79_explicit_possible; refused ones C79_explicit_refused_partial), Atoms (C79_explicit_to_atom, C79_explicit_from_atom). Results: evaluator on objects of the class asked for (C79_evaluator_partial, C79_evaluator_atom), generated code on every object (C79_generated, C79_generated_value, C79_generated_atom). Refuted: a constant Atom can become a changeable element reference (C79_const_refuted); the evaluator lets wrong casts downwards pass (C79_evaluator_refuted, C79_evaluator_atom_refuted); the test generated before a cast downwards never fails, only the position lookup does (C79_guard_refuted). C79_evaluator_refuses: an object in storage of its own class is not cast to a class it is not of."
  },
  {
   "property": "C80",
   "status": "partial",
   "theorems": [
    "C80_extract",
    "C80_cast",
    "C80_union_refuted"
   ],
   "note": "proved for every hierarchy in which the new value's class is no union and no own part is longer than the evaluator's maximum (C80_extract, C80_cast). Refuted for a union with a base: its own bits are overwritten by its base's (C80_union_refuted)."
  },
  {
   "property": "C81",
   "status": "partial",
   "theorems": [
    "C81_apart_partial",
    "C81_doubling_refuted",
    "C81_wrap_refuted"
   ],
   "note": "proved for every function whose slots, doubled once per choice on the way to a declaration, stay below 2^31 (C81_apart_partial). The growth clause is refuted: each ? : in sequence doubles the frame, so n of them make it at least 2^n slots (C81_doubling_refuted), and after 32 a variable gets the slot of another one in scope, in a frame of 2^31 slots (C81_wrap_refuted)."
  },
  {
   "property": "C82",
   "status": "proved",
   "theorems": [
    "C82_places",
    "C82_entry",
    "C82_apart",
    "C82_super_refuted"
   ],
   "note": "every function and stack that fit into 2^31 slots (running out of memory is a result of its own). The slot recorded for super is not the object's, but nothing reads it (C82_super_refuted)."
  },
  {
   "property": "C83",
   "status": "partial",
   "theorems": [
    "C83_partial",
    "C83_recursion_refuted"
   ],
   "note": "proved for every program in which no function that declares references is called while it is active (C83_partial). Refuted with recursion: the pointer is kept with the symbol, not in the frame, so that after an inner call the outer reference stands for what the inner one was bound to (C83_recursion_refuted)."
  },
  {
   "property": "C84",
   "status": "partial",
   "theorems": [
    "C84_selection",
    "C84_checked_partial",
    "C84_evaluated_partial",
    "C84_generated_partial",
    "C84_choice_refuted",
    "C84_constref_refuted",
    "C84_named_refuted",
    "C84_cast_refuted",
    "C84_cast_constref",
    "C84_cast_named",
    "C84_inner",
    "C84_atomof_refuted"
   ],
   "note": "the labels storeIntoAble and referenceAble. C84_selection: members, items and base classes of a name are permitted exactly when the name is not constant. C84_checked_partial, C84_evaluated_partial, C84_generated_partial: any expression, provided the branches of ?: and the operands of .atomof are themselves storeIntoAble (and, for the generated code, without casts to references). Refuted beyond: (c ? m : b) = 1 changes a constant parameter m, (c ? r : cr) = 1 writes through a constant reference, (c ? K[i] : b) = 1 changes a named constant in the evaluator, ((Int&) m) = 1 in generated code, ce.atomof = a."
  },
  {
   "property": "C85",
   "status": "partial",
   "theorems": [
    "C85_call",
    "C85_stored_partial",
    "C85_assignment_refuted",
    "C85_value_refuted"
   ],
   "note": "C85_stored_partial covers variables, selections, ?: and casts to references whose operands are storeIntoAble: both back ends store into the name reached. Refuted: (a = b) = c is accepted, the evaluator stores into a temporary and the code generator aborts; a value in a branch of ?: is accepted."
  },
  {
   "property": "C86",
   "status": "partial",
   "theorems": [
    "C86_call_partial",
    "C86_partial",
    "C86_check",
    "C86_refuted"
   ],
   "note": "C86_call_partial and C86_partial: for functions that name none of their value parameters by a reference (and no recursion of functions with references, C83) the caller gets exactly the place, or the evaluator stops because the place is a variable of the function. C86_refuted: Int& g(Int x) { return x; } is not refused, and the pointer, relative to the frame of g, is used relative to the caller's frame: g(5) = 7 changes a parameter of the caller. Not covered: pointers into classes and the event window, self, the check _IsLocal in generated code (external)."
  },
  {
   "property": "C87",
   "status": "partial",
   "theorems": [
    "C87_missing",
    "C87_nobody",
    "C87_always_partial",
    "C87_path_refuted",
    "C87_unreached_refuted",
    "C87_value",
    "C87_literal",
    "C87_literal_value",
    "C87_exact",
    "C87_void"
   ],
   "note": "C87_value, C87_literal, C87_literal_value, C87_exact: the type and number of what is returned, for all primitive types (exact acceptance for Int/Unsigned/Unary). C87_void and C87_missing: the refusals. C87_always_partial: bodies with no way through but by a return end by one in generated code, and in the evaluator on the bodies of C58. C87_path_refuted / C87_unreached_refuted: the compiler only asks for one return statement somewhere in the body, so a function with a type is accepted that comes to its end with nothing returned."
  },
  {
   "property": "C88",
   "status": "partial",
   "theorems": [
    "C88_cycle_partial",
    "C88_range_refuted",
    "C88_order",
    "C88_ahead_partial",
    "C88_two_bits_refuted",
    "C88_dead_refuted",
    "C88_dead_both_greater",
    "C88_outside_partial",
    "C88_postfix_refuted"
   ],
   "note": "counting and the order without a dead band are proved (C88_cycle_partial below the greatest value, C88_order, C88_ahead_partial for three or more bits); refuted: the greatest value is never come to and does not go on to 0, two bits, isComparable is always true (the dead band is not told), postfix ++ gives the new value. The generated C++ of the class is left out: the transcription is of the ulam source with the types that the compiler gives its expressions (StdNumModel)."
  },
  {
   "property": "C89",
   "status": "partial",
   "theorems": [
    "C89_scanner",
    "C89_scanner_sum_refuted",
    "C89_max_partial",
    "C89_max_refuted",
    "C89_rescan_refuted",
    "C89_services_partial",
    "C89_services_refuted",
    "C89_extreme",
    "C89_ties_partial",
    "C89_ties_refuted",
    "C89_count_partial"
   ],
   "note": "linear categories of WindowScanner are fair for all weights whose sum is below 2^32 (C89_scanner), hits of WindowServices up to 255 in all, counts of SelectorServices up to 65535, and the extreme value is always right (C89_extreme); refuted: categories for the greatest weight choose losers that come later, keep the greatest weight of an earlier scan, sums that saturate, ties after a new greatest value. random.create is taken as uniform (library code)."
  },
  {
   "property": "C90",
   "status": "partial",
   "theorems": [
    "C90_between_partial",
    "C90_between_refuted",
    "C90_odds",
    "C90_timer_partial",
    "C90_rtimer_partial",
    "C90_trigger_refuted",
    "C90_trigger_partial",
    "C90_once"
   ],
   "note": "between for fewer than 2^31 numbers, odds, timers whose level fits the counter and whose last interval fits 32 bits (the average is stated as drift: each count takes one off the mean number of counts to come); refuted: greater ranges, levels that do not fit. random.create is taken as uniform (library code)."
  },
  {
   "property": "C91",
   "status": "proved",
   "theorems": [
    "C91_crc",
    "C91_detect",
    "C91_update",
    "C91_valid",
    "C91_corrupt",
    "C91_short_refuted"
   ],
   "note": "computeChecksum is the bitwise check for all storages and lengths (C91_crc), updates (C91_update), the test (C91_valid), detection (C91_detect, C91_corrupt), and the limit of short checksums (C91_short_refuted). Reading and writing bits of the storage is MFM library code, taken as described in CrcModel; lengths are below 2^32 - 8."
  },
  {
   "property": "C92",
   "status": "partial",
   "theorems": [
    "C92_queue",
    "C92_reset",
    "C92_reread",
    "C92_rewrite_refuted",
    "C92_print_unsigned",
    "C92_base",
    "C92_print_int",
    "C92_numeral_unique",
    "C92_copy",
    "C92_copy_refuted",
    "C92_print_bool"
   ],
   "note": "the queue, reset, reread, printing of numbers and copying are proved for all inputs; refuted: rewrite alone, the count that writeBytes returns when the writer is full, base 36 (C92_base). Not modelled: printf and the printing of UrSelf (native), loggers."
  },
  {
   "property": "C93",
   "status": "proved",
   "theorems": [
    "C93_distinct",
    "C93_tmp",
    "C93_user"
   ],
   "note": "C93_distinct (the name determines the thing named), C93_tmp and C93_user (the test for temporaries). Which names are declared in which C++ scope is left to C71 (scopes) and C28 (overloads)."
  },
  {
   "property": "C94",
   "status": "partial",
   "theorems": [
    "C94_value",
    "C94_accept",
    "C94_condition",
    "C94_bits",
    "C94_unary_refuted",
    "C94_bool_refuted",
    "C94_fold"
   ],
   "note": "the value of an accepted expression, exact acceptance and the narrowest type for numeric branches, Bits branches, the condition and folding are proved for all scalar primitive types. Refuted: two Unary branches of different sizes are refused although the wider Unary holds both, and a Bool branch beside a number or a Bool of another size fails an assertion. References, arrays, strings and classes as branches and the generated code are not modelled."
  },
  {
   "property": "C95",
   "status": "partial",
   "theorems": [
    "C95_names",
    "C95_not_early",
    "C95_choice",
    "C95_value",
    "C95_dangling_refuted",
    "C95_early_refuted"
   ],
   "note": "names, the choice in a known family, that nothing is refused while a class of the family is unknown, and the agreement with an order are proved for all graphs. Refuted: with a base class not known yet and no function found the node is deleted while its parent still holds it (TBOOL_HAZY is tested as a bool), and the negated inverse is chosen too early. Matching of the argument types of the function found is C40's subject; the other operators are C108."
  },
  {
   "property": "C96",
   "status": "partial",
   "theorems": [
    "C96_reads_partial",
    "C96_unique",
    "C96_only_partial",
    "C96_ends",
    "C96_comma_refuted",
    "C96_native_refuted",
    "C96_local_refuted",
    "C96_concrete_refuted",
    "C96_fault_refuted"
   ],
   "note": "completeness, uniqueness, soundness up to the listed liberties and termination are proved for all inputs. Refuted: commas between parameters can be left out or follow the last one, native followed by a curly takes the curly of the class, ': local' leaves a class without a superclass, the concrete flag can be repeated or stand at the end of the file, and two ways to crash (a NULL node used, an assertion). Left out: array sizes, initialiser lists, constructor calls in member lists, local definitions, types after 'local.', constant references, names declared twice, operator functions."
  },
  {
   "property": "C97",
   "status": "partial",
   "theorems": [
    "C97_values",
    "C97_order",
    "C97_circular",
    "C97_accepts",
    "C97_limit_refuted"
   ],
   "note": "the loop, the passes, the names and binary operators over scalar primitive constants of regular classes; operators and the cast to the declared type are arbitrary partial functions of values. Not modelled: constants whose types depend on constants, templates, inherited constants, array constants, other sources of WAIT. C97_limit_refuted: a chain of 101 uses against the order is refused though every constant has a value."
  },
  {
   "property": "C98",
   "status": "partial",
   "theorems": [
    "C98_accepts",
    "C98_body_partial",
    "C98_temporary_refuted"
   ],
   "note": "C98_accepts is exact for all programs of the modelled statements; C98_body_partial joins it with the virtual tables (C57_abstract), for classes all of whose virtual functions have one origin and one final override. C98_temporary_refuted: values returned by a function, made by instanceof, and class constants are never checked. Anonymous and unseen classes and stubs are left out."
  },
  {
   "property": "C99",
   "status": "partial",
   "theorems": [
    "C99_outer_partial",
    "C99_others",
    "C99_unused",
    "C99_argument_refuted"
   ],
   "note": "C99_outer_partial and C99_others give the meaning of every name the check reaches; C99_unused for all initial values without arguments. C99_argument_refuted: NodeFunctionCall's check answers TBOOL_FALSE without looking at the arguments, so Int a = f(a) is accepted and passes the variable itself. Assumed: blocks are numbered from the outside to the inside; constants declared in the block and initial values of data members are not modelled."
  },
  {
   "property": "C100",
   "status": "partial",
   "theorems": [
    "C100_arithmetic",
    "C100_divide",
    "C100_signs",
    "C100_manhattan",
    "C100_length",
    "C100_dot_partial",
    "C100_square_refuted",
    "C100_dot_refuted",
    "C100_onebit_refuted",
    "C100_area",
    "C100_bounds",
    "C100_clamp",
    "C100_contains",
    "C100_take",
    "C100_neighbors",
    "C100_corners"
   ],
   "note": "Full for the arithmetic, Manhattan distance (2 bits and more), area, bounds, directions. C100_dot_partial: dot and the squares for coordinates of at most 16 bits, and the squared distance when the differences are representable. Refuted beyond: C100_square_refuted (C2D: the squared distance of (-32768,0) and (1,0) is 2^30 one way and 32767^2 the other, as the difference saturates), C100_dot_refuted (C2DT(17): the products saturate before they are added, so that the sum has the wrong sign), C100_onebit_refuted (C2DT(1)). Missing: the operators that assign (they store the result of the operator they name)."
  },
  {
   "property": "C101",
   "status": "partial",
   "theorems": [
    "C101_params",
    "C101_params_good",
    "C101_args",
    "C101_same",
    "C101_values",
    "C101_no_abort",
    "C101_ready",
    "C101_comma_refuted"
   ],
   "note": "C101_params and C101_args are exact for definitions and instances written with their commas, C101_same and C101_params_good hold for all token lists. C101_values, C101_no_abort and C101_ready for primitive scalar parameters, with the times through the compile loop as a list of what is known at each. C101_comma_refuted: the comma between arguments or parameters can be left out, and a comma may follow the last parameter. Stub copies of instances inside templates and the merging of equal instances (C54) are not part of it."
  },
  {
   "property": "C102",
   "status": "partial",
   "theorems": [
    "C102_sites",
    "C102_literals",
    "C102_degrees_scale",
    "C102_angle_partial",
    "C102_opposite_refuted",
    "C102_range",
    "C102_cw",
    "C102_sqrt"
   ],
   "note": "C102_angle_partial is exact for all pairs but those in opposite directions off the axes, where C102_opposite_refuted shows 179 for 180. The degrees are defined without real numbers: the full turns of 360 times the angle. The numbering of the sites is the library's (EXTERNAL); C102_sites shows which one is meant. C102_literals: the lexer of C55 reads the table as the bytes used here."
  },
  {
   "property": "C103",
   "status": "partial",
   "theorems": [
    "C103_color",
    "C103_color_int",
    "C103_color_rgb",
    "C103_between",
    "C103_ends",
    "C103_modify",
    "C103_alpha_refuted",
    "C103_dimmer",
    "C103_brighter",
    "C103_white",
    "C103_black",
    "C103_back",
    "C103_brighter_refuted"
   ],
   "note": "Full for the channels (C103_color, C103_between, C103_ends, C103_modify, C103_dimmer, C103_brighter, C103_white, C103_black, C103_back). C103_alpha_refuted and C103_brighter_refuted: alpha in between, alpha 0 for the brighter of black, and blue that does not stay blue."
  },
  {
   "property": "C104",
   "status": "partial",
   "theorems": [
    "C104_scalar",
    "C104_possible",
    "C104_default",
    "C104_wide_refuted",
    "C104_string_refuted",
    "C104_array_partial",
    "C104_minus2_refuted",
    "C104_wide_array_refuted",
    "C104_member"
   ],
   "note": "C104_scalar is exact for constants of at most 32 bits, C104_array_partial for sizes that are an s32, not -2, and whose bits in all fit 32 bits; C104_member is exact. C104_wide_refuted and C104_wide_array_refuted: constants of more than 32 bits are cut (whatever the library does, one of 8 and 4294967304 goes wrong). C104_string_refuted: a String constant is accepted as bit size, its index becomes the size. C104_minus2_refuted: -2 items are not refused. The library's conversions to s32 are a parameter with a stated requirement; class constants as sizes are left out."
  },
  {
   "property": "C105",
   "status": "partial",
   "theorems": [
    "C105_no_abort",
    "C105_same",
    "C105_alias",
    "C105_stable",
    "C105_round",
    "C105_waits",
    "C105_few_uses",
    "C105_circular_refuted"
   ],
   "note": "C105_no_abort, C105_same, C105_alias, C105_stable, C105_round and C105_waits hold for every sequence of uses and rounds. C105_few_uses bounds when a round complains; C105_circular_refuted: 110 ordinary uses of one instance, nine type indexes apart, are called circular. Which stubs wait, are skipped or are copies is a parameter, and so is the argument string (C54's subject); what is copied into an instance is left out."
  },
  {
   "property": "C106",
   "status": "partial",
   "theorems": [
    "C106_accepts",
    "C106_only_partial",
    "C106_o_refuted",
    "C106_i_refuted",
    "C106_undefined",
    "C106_search",
    "C106_absolute",
    "C106_output"
   ],
   "note": "C106_accepts and C106_only_partial are exact except for a last -o without a directory (C106_o_refuted), C106_undefined except for a last -i (C106_i_refuted) and bytes that are no ASCII, for which isalnum is undefined. C106_search, C106_absolute and C106_output are exact; the file system is a parameter."
  },
  {
   "property": "C107",
   "status": "partial",
   "theorems": [
    "C107_dup",
    "C107_size",
    "C107_documented_refuted"
   ],
   "note": "C107_dup and C107_size hold for all widths up to 32 and any calls; C107_documented_refuted: the documented size is wrong for every width but 1. Atoms that are destroyed and the window are left out."
  },
  {
   "property": "C108",
   "status": "proved",
   "theorems": [
    "C108_own",
    "C108_apart",
    "C108_logical",
    "C108_no_assert",
    "C108_assign_value",
    "C108_assign",
    "C108_index",
    "C108_waits",
    "C108_waits_here"
   ],
   "note": "C108_own, C108_apart, C108_logical and C108_no_assert for every class; C108_assign and C108_index when the whole family is known; C108_waits while a class of it is unknown and none of the others has the function, or the fit of the right operand is unknown; C108_waits_here when the class itself has the function but is hazy. A function found in a hazy ancestor is not covered. The operands' own types are taken to be known and scalar. Which of several functions of the name takes the argument is C40; comparisons are C95."
  },
  {
   "property": "C109",
   "status": "partial",
   "theorems": [
    "C109_save",
    "C109_restore",
    "C109_radius",
    "C109_fresh",
    "C109_save_all",
    "C109_turned",
    "C109_symmetry_refuted"
   ],
   "note": "C109_save, C109_restore, C109_save_all, C109_fresh and C109_turned hold for every placement of the sites by the symmetries; that the natives number the sites 0 to 2r(r+1) and keep them apart is assumed, since they call a library that is not in the repository. Refuted: after a change of symmetry restore puts the atoms back in other places (C109_symmetry_refuted)."
  },
  {
   "property": "C110",
   "status": "partial",
   "theorems": [
    "C110_prints",
    "C110_short",
    "C110_lone",
    "C110_no_overrun",
    "C110_plain",
    "C110_zero_refuted",
    "C110_number",
    "C110_number_refuted",
    "C110_unary",
    "C110_unknown",
    "C110_unsuited",
    "C110_class",
    "C110_string_only",
    "C110_call",
    "C110_refused",
    "C110_as_refuted"
   ],
   "note": "C110_prints, C110_short, C110_lone, C110_class, C110_unknown, C110_no_overrun and C110_call hold for all formats and argument lists; C110_number for Int, Unsigned and Bits. Refuted: Unary above 1 and wide Bools (C110_number_refuted, C110_unary is exact), a zero byte in the format (C110_zero_refuted), an as-variable as argument (C110_as_refuted). How the sink writes a number in a base, and the reading of mangled type names, belong to a library that is not in the repository; arrays as arguments are left out."
  },
  {
   "property": "C111",
   "status": "partial",
   "theorems": [
    "C111_write",
    "C111_memory",
    "C111_disk",
    "C111_disk_refuted",
    "C111_read",
    "C111_refused",
    "C111_closed_refuted",
    "C111_close",
    "C111_decimal",
    "C111_unsigned",
    "C111_unsigned_refuted",
    "C111_buffers",
    "C111_tag",
    "C111_path",
    "C111_open",
    "C111_behind",
    "C111_extend_refuted",
    "C111_add",
    "C111_add_refuted",
    "C111_get",
    "C111_get_refuted"
   ],
   "note": "C111_read, C111_open, C111_close, C111_refused, C111_decimal, C111_buffers are exact; C111_write, C111_tag hold for texts of ASCII characters, C111_memory for all bytes but zero, and C111_disk says exactly what a text becomes on disk. Refuted: C111_disk_refuted, C111_unsigned_refuted, C111_closed_refuted, C111_extend_refuted, C111_add_refuted, C111_get_refuted. The C library is modelled by what its standard says, without failures of the disk; one file is open on a path at a time."
  },
  {
   "property": "C112",
   "status": "partial",
   "theorems": [
    "C112_whole",
    "C112_moves",
    "C112_creates",
    "C112_destroys",
    "C112_dreg",
    "C112_dreg_refuted",
    "C112_conserve",
    "C112_copies",
    "C112_fx"
   ],
   "note": "C112_whole, C112_moves, C112_creates, C112_destroys, C112_dreg, C112_conserve, C112_copies and C112_fx hold for all atoms and positive parameters. Refuted: the documented odds of erasing a regulator, unless pDREG_DESTROY is 1 (C112_dreg_refuted). The event window and the independence of the numbers drawn are assumed, since they come from a library that is not in the repository; both sites are taken to be live."
  },
  {
   "property": "C113",
   "status": "partial",
   "theorems": [
    "C113_default",
    "C113_use",
    "C113_changed",
    "C113_bits",
    "C113_bool",
    "C113_unsuited",
    "C113_unary_bits",
    "C113_unary_bits_refuted",
    "C113_bool_bits"
   ],
   "note": "C113_default (numbers), C113_bits, C113_unary_bits, C113_bool_bits, C113_bool and C113_unsuited say for every kind of constant and parameter what the default is; C113_use covers all kinds and C113_changed the numbers. Refuted: a Unary that came from Bits may lose a one when it is given to fewer Bits (C113_unary_bits_refuted). Types not yet known and uses as references are left out; how the running program keeps and changes the parameter belongs to a library that is not in the repository."
  },
  {
   "property": "C114",
   "status": "proved",
   "theorems": [
    "C114_starves",
    "C114_eats",
    "C114_wanders",
    "C114_hunger",
    "C114_unfed",
    "C114_balance",
    "C114_plant"
   ],
   "note": "for the two elements, on live sites. C114_starves, C114_eats, C114_wanders and C114_hunger cover every window; C114_unfed and C114_balance every row of neighbours; C114_plant the plants. That ++ and -= stay within the range of Unsigned(7) is taken from C53."
  },
  {
   "property": "C115",
   "status": "proved",
   "theorems": [
    "C115_trigger",
    "C115_fires",
    "C115_recovers",
    "C115_rests",
    "C115_armed",
    "C115_spark",
    "C115_evaporates"
   ],
   "note": "for Trigger, SimpleBurn, SimpleSpark and Evaporator, on live sites. C115_trigger covers the three states; C115_fires and C115_recovers every window; C115_rests and C115_armed every row of pulls between events; C115_spark and C115_evaporates the two others. Colours are left out."
  }
 ]
}
