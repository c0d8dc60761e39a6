{"claims": [
{"property": "C01", "status": "partial", "theorems": ["sha256_streaming_partial", "sha256_streaming_refuted", "sha256_once_partial"], "note": "False of the code as stated: finalize panics for every total length that is 63 modulo 64 (sha256_streaming_refuted). Proved for all other lengths below 2^61 and every split; spec_abc ties the specification to the standard's test vector."},
{"property": "C02", "status": "proved", "theorems": ["sha256_engine_exact", "sha256_reuse"], "note": "Every history of calls, including is_reset answers and panics."},
{"property": "C03", "status": "partial", "theorems": ["sha256_panics_exactly_partial", "sha256_panics_only_overlong_refuted"], "note": "False as stated; the exact set of panicking sequences is proved: too long, or 63 modulo 64."},
{"property": "C04", "status": "partial", "theorems": ["hmac_rfc2104_partial", "hmac_rfc2104_refuted", "hmac_generic"], "note": "False as stated because SHA-256 panics for lengths 63 modulo 64. Proved for all other keys and messages; hmac_generic proves the HMAC code over any correct hash engine without that restriction."},
{"property": "C05", "status": "proved", "theorems": ["hmac_exact_history", "hmac_reuse_any_history", "hmac_generic"], "note": "Every history of calls."},
{"property": "C06", "status": "proved", "theorems": ["to_hex_correct", "to_hex_injective"], "note": ""},
{"property": "C07", "status": "proved", "theorems": ["splitmix64_full_period", "splitmix64_odd_period"], "note": ""},
{"property": "C08", "status": "proved", "theorems": ["splitmix64_split", "mix64_as_splitmix64"], "note": ""},
{"property": "C09", "status": "proved", "theorems": ["xoshiro_bijective", "xoshiro_never_zero"], "note": "Includes the compile-time assertion on MIX64_0."},
{"property": "C10", "status": "proved", "theorems": ["xoshiro_jump128", "xoshiro_jump192"], "note": ""},
{"property": "C100", "status": "partial", "theorems": ["layout_inspect", "layout_tree", "layout_climb", "layout_search", "layout_std_search", "layout_edit_partial", "layout_edit_refuted", "layout_edit_link_refuted"], "note": "False of the code once safe code assigns a flag or command of another name through a mutable reference; proved for every layout as created, and for all edits that keep names."},
{"property": "C101", "status": "proved", "theorems": ["map_write_error", "map_write_iter_error", "map_fill_error", "map_read_error", "map_slice_answer", "map_vec_answer", "map_align_answer"], "note": "An exponent of 31 aligns to a multiple of 2^64-2^31 and larger ones panic, which the theorem says too; see the findings."},
{"property": "C102", "status": "proved", "theorems": ["word_fields", "word_parse_is_parse", "word_queries", "word_text", "word_accepts", "word_part", "word_any_memory"], "note": "The memory model is that of integers as bytes; aliasing of the references to nodes is not modelled."},
{"property": "C103", "status": "partial", "theorems": ["tok_complete_none", "tok_complete_remaining", "tok_complete_first", "tok_complete_middle_partial", "tok_complete_string", "tok_complete_anytime_refuted"], "note": "In the middle of a token: for white space, words and strings (numbers are C60). False of the code if data arrived after the last pop: all of it is taken for a part of the token, and can make it panic."},
{"property": "C104", "status": "partial", "theorems": ["fixed_pointer_leads", "fixed_pointer_null", "fixed_pointer_dangling", "fixed_pointer_never_null_partial", "fixed_pointer_never_null_refuted", "fixed_pointer_cell"], "note": "That an address is never null is false of the code for address types that do not exclude zero."},
{"property": "C105", "status": "partial", "theorems": ["marker_single_value", "marker_has_value", "marker_no_trace", "marker_of_type_alignment", "marker_alignment_unique", "marker_debug_alignment", "marker_debug_name_partial", "marker_debug_name_refuted"], "note": "The debug output of AlignOf says AlignAs; the rest is proved."},
{"property": "C106", "status": "proved", "theorems": ["show_display", "show_display_distinct", "show_debug"], "note": "Formatting flags (width, sign, radix) are not modelled."},
{"property": "C107", "status": "proved", "theorems": ["pointer_variance", "pointer_store", "pointer_covariance"], "note": "Subtyping is that of the Rust reference, restricted to the type formers in BrandSpec.v."},
{"property": "C108", "status": "proved", "theorems": ["dvar_dec_committed_is_read", "dvar_reads_length", "dvar_dec_failed_no_effect", "dvar_dec_dropped_no_effect"], "note": "Padding, the byte after a string and the length of an array are not checked by the decoder (finding in DESIGN.md), so the value is in the message up to these. The decoder has methods for the types q, s, g and for arrays only."},
{"property": "C109", "status": "proved", "theorems": ["args_any_compiles", "args_any_parse", "args_any_words", "args_twice_known_refuted"], "note": "Not every flag of a command given twice is known: args_twice_known_refuted. With distinct paths and names C42-C45 say exactly what is reported."},
{"property": "C11", "status": "proved", "theorems": ["xoshiro_period", "xoshiro_single_cycle"], "note": "Uses a Pocklington-style certificate of the prime factors of 2^256-1, checked in PrimeCert.v."},
{"property": "C110", "status": "proved", "theorems": ["sig_prefix_code", "sig_sequence_unique", "sig_hash_sequence"], "note": "What a hasher is given is modelled as the sequence of the identifiers of the elements; the hash function itself is not."},
{"property": "C111", "status": "proved", "theorems": ["field_reference", "field_read", "field_write", "field_repr_c", "field_packed_refuted"], "note": "field_packed_refuted shows why the trait asks for aligned members. Lifetimes of the borrows are not modelled, and that the offset is that of the member is what typed_offset_of! and the compiler guarantee."},
{"property": "C112", "status": "proved", "theorems": ["element_codes", "element_ids", "element_text", "element_positions", "element_pairs", "element_types", "element_masks"], "note": "Stated against the grammar of DbusSpec.v. Elements of containers say nothing of what the container holds; C18 and C19 do for whole signatures."},
{"property": "C113", "status": "proved", "theorems": ["packed_array"], "note": "For wrapped types that are Copy. C66 covers types that are dropped."},
{"property": "C114", "status": "proved", "theorems": ["phantom_no_trace", "phantom_single_value", "phantom_values", "phantom_debug"], "note": "Derived traits are modelled as Rust defines them. Layout and variance of the markers are C88, what brands tell apart C89 and C90."},
{"property": "C115", "status": "proved", "theorems": ["lossy_exact", "lossy_total", "lossy_text", "lossy_again", "lossy_local", "lossy_length"], "note": "The conversion is that of the standard library, modelled chunk by chunk as it is written there."},
{"property": "C116", "status": "proved", "theorems": ["shared_ref_exact", "shared_ref_borrowed", "shared_cell_exact", "shared_cell_same", "shared_builtin"], "note": "Reports are arbitrary functions of their object, the context and the state of the parser report, which may panic. A report that reaches its own cell by other ways is not modelled."},
{"property": "C117", "status": "partial", "theorems": ["coerce_same_partial", "coerce_same_refuted", "coerce_deref_differs"], "note": "Proved for all coercions that dereference nothing. Refuted for those that do: a reference to a box or a reference is coerced to what is in it with Polonius, and to the box itself without."},
{"property": "C118", "status": "proved", "theorems": ["tok_accounts", "tok_accounts_drained", "tok_accounts_injective"], "note": "For every history of data and pops. The text of a token is spelled out in TokTextSpec.v. The value of a string, as opposed to its text, is C38."},
{"property": "C119", "status": "partial", "theorems": ["stub_runs_partial", "stub_stack_refuted", "stub_message_refuted", "stub_header_view", "stub_prepended", "stub_checksum_lfanew"], "note": "Proved if the program is given the 128 bytes that its stack needs. Refuted otherwise: the header asks for the 64 bytes of code only, so that the stack can be in memory of someone else."},
{"property": "C12", "status": "partial", "theorems": ["xoshiro_from_splitmix64_refuted", "xoshiro_from_splitmix64_partial", "xoshiro_with_seed"], "note": "False of the code: the array repeat expression evaluates next64 once, so the four words are equal and the source advances once. The actual behaviour is proved."},
{"property": "C120", "status": "partial", "theorems": ["json_agree_partial", "json_agree_prefix", "json_agree_texts", "json_agree_end", "json_agree_complete", "json_agree_names_refuted", "json_agree_zero_refuted", "json_agree_control_refuted"], "note": "Proved for every JSON text, and for every text that the tokenizer of osi accepts in which no name is directly followed by a number. Refuted for other texts: null-1 is accepted by osi only, 01 and a string with U+001F by tmp only. At the end of the stream, the last token is missing from tmp if more of it could follow; complete then reports it, unless it is a number (C60)."},
{"property": "C121", "status": "proved", "theorems": ["doc_recovers", "doc_recovers_only", "doc_error_local", "doc_errors_removed", "doc_recovers_bytes", "doc_exact"], "note": "What can follow is what the decoder accepts (C40), which is not JSON."},
{"property": "C122", "status": "proved", "theorems": ["tok_restart", "tok_past"], "note": "After tokens, and after errors that are reported in the place of a token. The first theorem also says what is in the stream: a decoder that is dropped directly after it returned a token leaves that token in the stream (restart_case)."},
{"property": "C123", "status": "proved", "theorems": ["tok_reading", "tok_exact", "tok_exact_prefix", "tok_reading_unique", "tok_value_exact", "tok_errors_exact", "tok_complete_exact"], "note": "Without restrictions on the strings: the specification (TokExactSpec.v) gives the value and errors that strings really get. That these are not always those of RFC 8259 is C38; tok_value_exact and tok_errors_exact say exactly when they are."},
{"property": "C124", "status": "proved", "theorems": ["osstr_compare", "osstr_order", "osstr_order_text", "osstr_debug_text", "osstr_debug_apart"], "note": "The comparisons of slices of bytes that derived code calls are Rust semantics, written in the model."},
{"property": "C125", "status": "proved", "theorems": ["xoshiro_output_period", "xoshiro_equal_outputs", "splitmix64_equal_outputs", "mix64_equal_outputs"], "note": "Over generators that can be reached through the public interface, as in C07 and C09."},
{"property": "C126", "status": "partial", "theorems": ["dvar_lossless_partial", "dvar_lossless_refuted", "dvar_distinct_bytes", "dvar_solid_kept", "dvar_calls_one_value"], "note": "Holds for all types, also those the decoder has no methods for. False for arrays of structures without members (Finding 33), where the number of elements is lost; dvar_distinct_bytes says exactly which values share their bytes."},
{"property": "C127", "status": "proved", "theorems": ["args_flags_move", "reports_flags_move", "args_inline_complete", "args_value_complete", "args_switch_complete", "args_word_complete", "args_complete_app"], "note": "For layouts with distinct command paths and flag names; any sorting and searching that meets the contract of the standard library."},
{"property": "C128", "status": "proved", "theorems": ["tok_space", "doc_space"], "note": "For the decoders of tmp. A place between two tokens is one that the specification of C123 has between two lexemes."},
{"property": "C129", "status": "proved", "theorems": ["str_natural_exact", "str_natural_cancel", "str_natural_plain"], "note": "Holds without a bound on the numbers; where that order is not transitive is C46."},
{"property": "C13", "status": "proved", "theorems": ["sig_accepts_exactly", "sig_grammar_unambiguous"], "note": "For every byte string shorter than 2^61 (the parser's own limit; longer ones panic, see sig_new_huge_panics)."},
{"property": "C130", "status": "proved", "theorems": ["sha256_collision", "hmac_collision", "hmac_same_key", "hmac_zero_key"], "note": "The collision is one between arguments that occur while these messages are hashed, not just any. About calls that return; where they panic is C03 and C04."},
{"property": "C131", "status": "proved", "theorems": ["dvar_incomplete", "dvar_resume", "dvar_truncated"], "note": "For byte slices as readers. The byte after a string is skipped without being read, so a message that lacks just this byte is accepted."},
{"property": "C132", "status": "proved", "theorems": ["dvar_announced_size", "dvar_announced_commit", "dvar_array_element", "dvar_position_modulo_8", "dvar_padding_first", "dvar_part_as_whole"], "note": "For the types the encoder has methods for."},
{"property": "C133", "status": "proved", "theorems": ["xoshiro_seeds_distinct", "xoshiro_made_distinct", "xoshiro_made_twice"], "note": "That the words of a generator made of a SplitMix64 generator are all the same (C12) does not make two of them the same."},
{"property": "C134", "status": "partial", "theorems": ["dvar_unmarked_anywhere", "dvar_marked_exactly_partial", "dvar_marked_structure", "dvar_marked_exactly_refuted"], "note": "The first half holds in full. The second is refuted for signatures that are one structure as a whole, where the mark tells whether a member depends on the position (dvar_marked_structure); it is proved for all other signatures and for all types within a signature."},
{"property": "C135", "status": "proved", "theorems": ["dvar_turned", "dvar_turned_back", "dvar_byte_orders"], "note": "For the types the encoder has methods for."},
{"property": "C136", "status": "partial", "theorems": ["map_write_again", "map_fill_again", "map_align_again_partial", "map_read_again"], "note": "In full for writing, filling and reading. Alignment for exponents below 31, as in C27 (map_align_refuted)."},
{"property": "C137", "status": "partial", "theorems": ["dvar_accepted_partial", "dvar_accepted_position", "dvar_accepted_refuted"], "note": "False of the code: padding, the byte after a string (which may even be missing) and the length of arrays are not checked. What is accepted is proved exactly, and that the position is right."},
{"property": "C138", "status": "partial", "theorems": ["dvar_loop_partial", "dvar_loop_only", "dvar_loop_complete_partial", "dvar_loop_refuted"], "note": "False of the code: the loop ends at the first element whose position in the message is not less than the length of the array, and the rest is lost without an error. Which elements are read is proved exactly for arrays at the start of a message; of 16-bit numbers the last two are always missing. The loop is right if the last element is longer than what precedes the first."},
{"property": "C14", "status": "proved", "theorems": ["sig_text_round_trip", "sig_eq_is_text_eq", "sig_cmp_is_text_order", "sig_hash_is_text"], "note": ""},
{"property": "C15", "status": "partial", "theorems": ["sig_errors_partial", "sig_errors_documented_partial", "sig_errors_mispaired_partial", "sig_errors_refuted"], "note": "The full statement is false of the code: the first index of ElementMispaired is computed from the wrong node. sig_errors_partial gives the exact behaviour, sig_errors_documented_partial the documented one for every other error."},
{"property": "C16", "status": "partial", "theorems": ["sig_new_total", "sig_new_huge_panics", "sig_parse_total_partial", "sig_parse_exact_partial", "sig_parse_terminates_refuted", "sig_parse_no_panic_refuted"], "note": "With a buffer of the computed size the statement holds (sig_new_total). For other buffer sizes it is false of the code: the padding loop never ends, too small buffers panic; sig_parse_exact_partial says exactly when."},
{"property": "C17", "status": "proved", "theorems": ["sig_index_cases", "sig_elements_are_text", "sig_structure", "sig_structure_closing", "sig_structure_past_end"], "note": ""},
{"property": "C18", "status": "partial", "theorems": ["sig_alignment", "sig_sizes_partial", "sig_gvar_size_refuted"], "note": "Alignments and DVar sizes hold in full; the recorded GVar size of structs lacks the trailing padding."},
{"property": "C19", "status": "partial", "theorems": ["sig_flags_partial", "flags_word_reads", "flags_word_writes", "flags_word_propagates", "flags_word_unique", "flags_table", "node8_word", "sig_variant_flag_refuted", "sig_empty_struct_flag_refuted"], "note": "Dynamic, handle, basic, dict and open flags hold in full. The variant flag is not propagated to containers and the unsupported flag of an empty struct is put on its closing element."},
{"property": "C20", "status": "partial", "theorems": ["sig_len_partial", "sig_len_refuted"], "note": "Holds up to 31 elements; beyond that the code reports six times the length."},
{"property": "C21", "status": "partial", "theorems": ["sig_moves_partial", "sig_moves_refuted", "sig_next_prev", "sig_walk", "sig_structure", "sig_structure_closing"], "note": "Holds in full for signatures of at most 31 elements; for longer ones moving to the next element can leave the text because of the wrong length (C20)."},
{"property": "C22", "status": "partial", "theorems": ["sig_sub_partial", "sig_sub_len_refuted"], "note": "All queries agree in full; the reported length agrees only for texts of at most 31 elements (C20)."},
{"property": "C23", "status": "partial", "theorems": ["dvar_encodes_partial", "dvar_encodes_exactly_partial", "dvar_big_variant", "dvar_encodes_vec_partial", "dvar_describes", "dvar_variant_panics_refuted", "dvar_variant_overflow_refuted", "dvar_encodes_vec_refuted"], "note": "For every type, value and describing call sequence (including sub-encoders), either byte order and every serving writer, the encoder writes exactly the specified wire format; the offset is that of the value within the message. Missing: contained variants whose type has more than 31 elements, for which the code panics or reports an overflow (refuted), and vectors that are not empty (refuted)."},
{"property": "C24", "status": "partial", "theorems": ["dvar_decodes_partial", "dvar_round_trip_partial", "dvar_utf8_exact"], "note": "Decoding yields the encoded value, consumes exactly its bytes and commits, for every value of the types the decoder has methods for (q, s, g, arrays of these in any nesting, read directly or through sub-decoders), both byte orders, every reader. Partial because the decoder of the code has no methods for the other types."},
{"property": "C25", "status": "proved", "theorems": ["dvar_typed_history", "dvar_mistyped_no_effect", "dvar_failed_no_effect", "dvar_commit_final", "dvar_committed_is_value"], "note": "Every accepted history of encoder calls follows the abstract machine of types (DvarTyping.v); a call that does not match the type expected next reports a mismatch and leaves the encoder and the target as they were, a call that fails for any other reason leaves the encoder's own position as it was, and a committed encoder has been given exactly one complete value."},
{"property": "C26", "status": "partial", "theorems": ["dvar_more_partial", "dvar_more_refuted", "dvar_slice_keeping"], "note": "Proved at every point of every call history: more() is true only before the end of the announced contents, and is true exactly as long as the absolute position is below the announced length. The other direction is false of the code (refuted by a one-element array): the length is compared with the position in the message rather than in the array."},
{"property": "C27", "status": "partial", "theorems": ["map_write_effect", "map_write_succeeds", "map_write_returns", "map_fill_effect", "map_fill_succeeds", "map_align_partial", "map_align_refuted", "map_read_effect", "map_read_succeeds", "map_slice_reading"], "note": "Writes, fills and reads are proved for every writer, chunking and failure point; alignment for exponents below 31, and refuted for 31."},
{"property": "C28", "status": "partial", "theorems": ["map_write_iter_partial", "map_write_iter_succeeds_partial", "map_write_iter_refuted"], "note": "Proved for writers that never map more than requested; refuted for the others."},
{"property": "C29", "status": "partial", "theorems": ["vec_append_partial", "vec_append_refuted", "vec_is_serving"], "note": "Proved when all writes are at or beyond the length of the vector; refuted for writes from index 0."},
{"property": "C30", "status": "partial", "theorems": ["stream_map_while_partial", "stream_map_while_views_partial", "stream_map_while_resume_partial", "stream_map_while_refuted", "stream_map_while_one_more_refuted"], "note": "Holds whenever the limit is above the position at which reading starts, for every reader that keeps its contract. False otherwise: the function panics (refuted); and the byte beyond the end that the documentation promises is not there at the limit (refuted)."},
{"property": "C31", "status": "proved", "theorems": ["json_never_panics"], "note": "For every history of calls, flags, characters and handlers, also after a handler broke."},
{"property": "C32", "status": "proved", "theorems": ["json_pieces", "json_chars", "json_pieces_parse"], "note": "For every split, handler and point in a history."},
{"property": "C33", "status": "proved", "theorems": ["json_like_new", "json_status"], "note": "For every history: the state equals that of a new tokenizer with the same flags."},
{"property": "C34", "status": "proved", "theorems": ["json_rfc", "json_rfc_texts", "json_segmentation", "json_any_handler"], "note": "Both directions, for every flag set; json_rfc_texts derives it for whole JSON texts from the grammar of values; json_segmentation says what is reported for any other text."},
{"property": "C35", "status": "proved", "theorems": ["json_strings", "json_strings_only", "json_strings_spelled"], "note": ""},
{"property": "C36", "status": "partial", "theorems": ["json_lossless", "json_accounts_partial", "json_accounts_refuted", "json_accounts_twice_refuted"], "note": "Full for texts without errors. With errors, the text of an unclosed string is lost and the sign of a comment is not shown (refuted); a stray digit after a leading zero and an equal sign are shown twice (refuted); json_accounts_partial covers everything else."},
{"property": "C37", "status": "proved", "theorems": ["tok_chunking", "tok_chunking_prefix"], "note": "For every two histories of arriving data and pops, on any readers that keep their contract: same tokens, same request, same state."},
{"property": "C38", "status": "partial", "theorems": ["tok_text_partial", "tok_control_refuted", "tok_segments_refuted"], "note": "For all strings without U+001F and without control characters after an escape; refuted for both of these. What is reported for those is tok_exact (C123)."},
{"property": "C39", "status": "partial", "theorems": ["tok_complete_partial", "tok_complete_exact", "tok_complete_text", "tok_complete_loops_refuted", "tok_complete_panics_refuted"], "note": "tok_complete_partial says what happens in every case: the loop ends exactly if no token is open or the open token is a number without errors; otherwise it reports the same token for ever (refuted: a space) or panics (refuted: -5)."},
{"property": "C40", "status": "partial", "theorems": ["doc_language_partial", "doc_complete_partial", "doc_json_partial", "doc_text", "doc_two_values_refuted", "doc_no_comma_refuted", "doc_comma_refuted", "doc_empty_object_refuted", "doc_member_refuted"], "note": "Both directions are false of the code (five refutations). doc_language_partial and doc_complete_partial give exactly the language that is accepted; doc_json_partial shows that for documents without scalar values and empty objects it is JSON."},
{"property": "C41", "status": "proved", "theorems": ["doc_nesting", "doc_nesting_bytes"], "note": "For every sequence of tokens, errors included, and for every history of bytes."},
{"property": "C42", "status": "proved", "theorems": ["args_parse", "args_unique", "args_compiles", "args_selection", "args_selection_words"], "note": "For layouts with distinct command paths, every argument vector and every report; sorting and binary search are any functions meeting the contract of the standard library."},
{"property": "C43", "status": "partial", "theorems": ["args_innermost_partial", "args_innermost_here_partial", "args_innermost_refuted"], "note": "Holds for layouts in which all commands above a command exist, and in any layout after a path that is a command. False otherwise: flags of a command below the entered path are accepted (args_innermost_refuted)."},
{"property": "C44", "status": "proved", "theorems": ["args_double_dash"], "note": "Wherever the parser meets \"--\" as an argument of its own."},
{"property": "C45", "status": "partial", "theorems": ["args_flag_partial", "args_flag_inline", "args_flag_next", "args_flag_no_value", "args_flag_set", "args_flag_on", "args_flag_off", "args_flag_not_toggled", "args_flag_no_values", "args_flag_unknown", "args_short", "args_short_refuted"], "note": "Long flags in all forms. The code has no short flags: they are always reported as unknown, and with their dash, unlike documented (args_short_refuted)."},
{"property": "C46", "status": "partial", "theorems": ["str_cmp_utf8", "str_natural_returns", "str_natural_eq", "str_natural_opp", "str_natural_partial", "str_natural_refuted"], "note": "Equality and antisymmetry for all strings; transitivity when every run of numeric characters is an ASCII number below 2^64 or begins with a character that is not an ASCII digit. False otherwise: 9 < 10 < 18446744073709551616 < 9 (refuted)."},
{"property": "C47", "status": "partial", "theorems": ["str_number_partial", "str_number_zeros", "str_number_refuted"], "note": "For numbers below 2^64; larger ones are compared as strings (refuted)."},
{"property": "C48", "status": "proved", "theorems": ["str_symbol", "str_symbol_identity", "str_symbol_idempotent", "str_symbol_content", "str_some"], "note": "For any Unicode classes that agree with ASCII."},
{"property": "C49", "status": "proved", "theorems": ["sum16_value", "sum16_app", "sum16_patch", "sum16_detects"], "note": "Piecewise computation and detection of one-word changes are proved as well."},
{"property": "C50", "status": "proved", "theorems": ["mz_read", "mz_write"], "note": "For the header, the extended header and relocations, on every host."},
{"property": "C51", "status": "proved", "theorems": ["endian_image", "endian_hosts", "endian_value", "endian_objects", "endian_compare", "endian_same", "endian_raw", "endian_swap", "endian_default"], "note": ""},
{"property": "C52", "status": "proved", "theorems": ["tagged_new", "tagged_history", "tagged_aligned", "tagged_order", "tagged_bit_range"], "note": "Setting a pointer needs it to be aligned, as its documentation demands."},
{"property": "C53", "status": "proved", "theorems": ["splitmix32_equidistributed"], "note": ""},
{"property": "C54", "status": "proved", "theorems": ["splitmix64_gamma_transitions"], "note": ""},
{"property": "C55", "status": "proved", "theorems": ["xoshiro_jump_streams_disjoint"], "note": ""},
{"property": "C56", "status": "proved", "theorems": ["dvar_dec_total", "dvar_dec_typed_history", "dvar_dec_mistyped_no_effect", "dvar_dec_reads_u16", "dvar_dec_reads_string", "dvar_dec_reads_signature", "dvar_slice_answering"], "note": "For every message, every signature, every history of calls. Memory exhaustion by an announced length is not modelled."},
{"property": "C57", "status": "proved", "theorems": ["stream_write", "stream_writes", "stream_map_exact", "stream_store_exact", "stream_commit_exact", "stream_unchecked_exact"], "note": "Mapping, storing and committing are proved exactly: what is committed is what was stored, and uninitialised memory is never committed by an allowed call."},
{"property": "C58", "status": "proved", "theorems": ["tok_pop_returns", "tok_pop_drains", "tok_pop_asks"], "note": "Integer overflow at 2^64 bytes is out of scope."},
{"property": "C59", "status": "proved", "theorems": ["tok_rfc", "tok_rfc_prefix"], "note": ""},
{"property": "C60", "status": "partial", "theorems": ["tok_complete_number_partial", "tok_complete_number_exact", "tok_complete_number_refuted", "tok_complete_partial"], "note": "False of the code: the number is reported with its value exactly if it is a single digit (tok_complete_number_exact). What is reported is proved for every number: digits alone with their first digit, all others as an empty number, after which the next call panics."},
{"property": "C61", "status": "partial", "theorems": ["tok_malformed_partial", "tok_leading_zero_refuted", "tok_text_partial"], "note": "False only for zeros in front of the number, which are not reported; exactly the numbers that are none of the RFC without these zeros are reported with errors."},
{"property": "C62", "status": "proved", "theorems": ["doc_chunking"], "note": ""},
{"property": "C63", "status": "proved", "theorems": ["doc_pop_returns", "doc_pop_drains"], "note": ""},
{"property": "C64", "status": "partial", "theorems": ["doc_key_partial", "doc_items_partial", "doc_key_refuted"], "note": "False of the code for every input: keys are reported like scalars. What is reported for every token is proved."},
{"property": "C65", "status": "proved", "theorems": ["integer_layout", "integer_hosts", "integer_image", "integer_value"], "note": ""},
{"property": "C66", "status": "proved", "theorems": ["integer_cell", "packed_cell", "cell_conserves", "cell_unique"], "note": ""},
{"property": "C67", "status": "proved", "theorems": ["address_usize", "address_never_truncated", "address_dangling"], "note": ""},
{"property": "C68", "status": "partial", "theorems": ["fixed_layout", "elf_layout", "elf_signs_partial", "elf_signs_refuted"], "note": "The layout in full. elf_signs_partial leaves out the tag of dynamic sections, which the specification has as a signed number and the code does not (elf_signs_refuted)."},
{"property": "C69", "status": "proved", "theorems": ["container_of_field", "container_of_panics"], "note": "For offsets below half the address space, which is the largest an object can be."},
{"property": "C70", "status": "partial", "theorems": ["pe_constants_partial", "pe_constants_refuted", "pe_constants_all_refuted", "pe_constants_wrong_partial", "pe_families_distinct", "pe_constants_fit", "pe_signature", "pe_timestamps"], "note": "False of the code for seven constants: PE_MAGIC_OH32P is the PE32 magic and the subsystem numbers from EFI on are decimal numbers written as hexadecimal. All others are exactly the numbers of the PE specification."},
{"property": "C71", "status": "proved", "theorems": ["reports_collect", "reports_unique"], "note": ""},
{"property": "C72", "status": "proved", "theorems": ["reports_collect", "parameters_unique"], "note": ""},
{"property": "C73", "status": "proved", "theorems": ["reports_collect", "reports_any_parser", "errors_unique"], "note": ""},
{"property": "C74", "status": "proved", "theorems": ["help_lists"], "note": "Words that only lead to deeper commands are not listed (help_words_refuted), which the property does not ask for."},
{"property": "C75", "status": "proved", "theorems": ["help_asked"], "note": ""},
{"property": "C76", "status": "proved", "theorems": ["abi_layout_is_c", "abi_offsets_are_c", "abi_layout_host_independent", "native_is_target", "abi_addr_ptr_usize"], "note": ""},
{"property": "C77", "status": "proved", "theorems": ["errno_is_linux", "errno_only_linux", "errno_native_is_linux", "errno_distinct"], "note": "The constants of the libc module come from another crate and are not modelled."},
{"property": "C78", "status": "partial", "theorems": ["elf_numbers_partial", "elf_numbers_refuted", "elf_extensions_partial", "elf_extensions_refuted", "elf_unspecified", "elf_vendors", "elf_machines_distinct_partial"], "note": "False of the code: the machine numbers from EM_TRIMEDIA to EM_NDS32, and EM_ECOG1, are one too small. All other constants are those of elf.h, the registry of the gABI, binutils or their vendors, except for ten without a specification (elf_unspecified), of which seven are bounds of ranges (elf_vendors)."},
{"property": "C79", "status": "proved", "theorems": ["conversions_keep_ownership", "conversions_destroy_once", "conversions_do_not_leak"], "note": "Weak pointers and counter overflow are not modelled."},
{"property": "C80", "status": "partial", "theorems": ["addresses_compare_lawfully", "mown_is_its_value", "mown_is_made", "onceref_compares_values_refuted", "onceref_compares_identity_partial"], "note": "False of the code for OnceRef, whose derived comparisons are those of the pointer."},
{"property": "C81", "status": "proved", "theorems": ["uncaught_exposes_nothing_else", "uncaught_texts", "uncaught_stops"], "note": ""},
{"property": "C82", "status": "proved", "theorems": ["bridge_delivers", "osstr_is_its_bytes"], "note": "write_all and write_fmt of the standard library are part of the model; to_string_lossy is not modelled."},
{"property": "C83", "status": "proved", "theorems": ["marker_has_alignment", "marker_exists", "marker_embedded"], "note": ""},
{"property": "C84", "status": "partial", "theorems": ["ende_new_partial", "ende_new_refuted", "inline_does_nothing_partial", "inline_copies_refuted", "inline_panics", "inline_returns_refuted"], "note": "False of the code: the Json format makes the constructors panic, inline copies nothing and panics where there is something left to copy."},
{"property": "C85", "status": "proved", "theorems": ["mem_copy_as_other_type", "mem_bytes_view", "mem_bytes_write", "mem_compare"], "note": ""},
{"property": "C86", "status": "partial", "theorems": ["mem_bswap_partial", "mem_bswap_uninit_partial", "mem_bswap_refuted"], "note": "False of the code for objects of 2, 4, 8 or 16 bytes that are not fully initialised; proved for all others."},
{"property": "C87", "status": "proved", "theorems": ["cond_takes_first"], "note": ""},
{"property": "C88", "status": "proved", "theorems": ["marker_variance", "marker_proper_subtype", "marker_layout", "subtypes_preorder"], "note": ""},
{"property": "C89", "status": "proved", "theorems": ["brand_invariant", "brand_stays"], "note": ""},
{"property": "C90", "status": "proved", "theorems": ["brand_unique", "brand_origin"], "note": ""},
{"property": "C91", "status": "proved", "theorems": ["nest_constructs", "nest_reads", "nest_compares", "nest_addresses"], "note": ""},
{"property": "C92", "status": "proved", "theorems": ["dvar_history_bytes", "dvar_committed_bytes", "dvar_counting"], "note": ""},
{"property": "C93", "status": "partial", "theorems": ["plat_abi_target_partial", "plat_windows_refuted", "plat_modules_unique", "plat_modules_available", "plat_target_native", "plat_unsupported_partial", "plat_libc_fallback_refuted", "plat_libc_available", "plat_interchangeable_partial", "plat_x32_refuted", "plat_big_endian_refuted"], "note": "False of the code: it does not compile for Windows, there is no fallback to libc, and the target modules are wrong on targets with another pointer width or byte order; proved for all others."},
{"property": "C94", "status": "proved", "theorems": ["splitmix64_published", "splitmix64_child_published", "xoshiro_published"], "note": ""},
{"property": "C95", "status": "proved", "theorems": ["xoshiro_triples_equidistributed", "xoshiro_equidistributed"], "note": ""},
{"property": "C96", "status": "proved", "theorems": ["xoshiro_jump_groups_disjoint"], "note": ""},
{"property": "C97", "status": "partial", "theorems": ["threads_share_safely", "threads_keep_home_partial", "threads_ptr_refuted", "threads_count_partial", "threads_count_refuted"], "note": "False of the code: a Ptr can be copied through a reference that only needs Sync, and a OnceRef made from an Rc can be sent; proved for programs that do neither."},
{"property": "C98", "status": "partial", "theorems": ["sig_make_partial", "sig_make_any_partial", "sig_make_refuted"], "note": "False of the code for static memory larger than needed, which is not initialised; proved for the computed size, which the macros use, and for every other size as far as something is returned."},
{"property": "C99", "status": "partial", "theorems": ["pin_raw_partial", "pin_raw_dangling", "pin_raw_refuted", "pin_raw_mut", "pin_raw_once", "pin_once"], "note": "False of the code for the last owner (a pinned box): the object is destroyed and the address dangles; proved exactly for all others."}
]}
