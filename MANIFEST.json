{"claims": [
 {"property": "C01", "status": "proved", "theorems": ["C01_round_trip"], "note": ""},
 {"property": "C02", "status": "proved", "theorems": ["C02_self_delimiting", "C02_back_to_back"], "note": ""},
 {"property": "C03", "status": "proved", "theorems": ["C03_no_strict_prefix", "C03_end_of_input"], "note": ""},
 {"property": "C04", "status": "proved", "theorems": ["C04_prefix_free", "C04_injective"], "note": ""},
 {"property": "C05", "status": "proved", "theorems": ["C05_fragmentation", "C05_failing_reader", "C05_failing_is_truncation", "C05_skip"], "note": ""},
 {"property": "C06", "status": "proved", "theorems": ["C06_delivers_all", "C06_error_prefix", "C06_delivers_all_positive_writers", "C06_bool_refuted"], "note": "holds for values without bool and for writers that never return Ok(0); refuted otherwise"},
 {"property": "C07", "status": "proved", "theorems": ["C07_canonical", "C07_minimal", "C07_any_form"], "note": ""},
 {"property": "C08", "status": "proved", "theorems": ["C08_decode_int", "C08_decode_byte", "C08_decode_fixed_width"], "note": ""},
 {"property": "C09", "status": "proved", "theorems": ["C09_zigzag", "C09_gazgiz", "C09_small_first"], "note": ""},
 {"property": "C10", "status": "proved", "theorems": ["C10_decoded_is_well_typed", "C10_utf8"], "note": "User functions are assumed well-typed as rustc checks; see Users.v."},
 {"property": "C11", "status": "proved", "theorems": ["C11_decoded_reencodes", "C11_normal_form_stable"], "note": ""},
 {"property": "C12", "status": "proved", "theorems": ["C12_skip_consumes_what_deserialize_consumes", "C12_skip_encoding", "C12_specialised_refuted", "C12_skip_encoding_limited"], "note": "Under spec_built (no specialised field when the specialised-vectors feature is off) and inputs smaller than the address space; the refuted theorem shows the feature hypothesis is needed."},
 {"property": "C13", "status": "proved", "theorems": ["C13_slice_skip", "C13_skip_slice", "C13_any_reader"], "note": ""},
 {"property": "C14", "status": "proved", "theorems": ["C14_skip_check_is_deserialize", "C14_accepts", "C14_skip_check_slice", "C14_system_time_refuted"], "note": "Exact agreement (value dropped, same rest, same error, same panic) for types without SystemTime in tuple/array position; for SystemTime one direction plus the counterexample."},
 {"property": "C15", "status": "proved", "theorems": ["C15_panics_listed", "C15_no_panic", "C15_depth_bounded_by_input", "C15_duration_refuted", "C15_system_time_refuted", "C15_declared_length_refuted"], "note": ""},
 {"property": "C16", "status": "proved", "theorems": ["C16_skip_needs_no_memory", "C16_path_refuted"], "note": ""},
 {"property": "C17", "status": "proved", "theorems": ["C17_later_programs_read", "C17_struct_migration", "C17_plain_fields", "C17_built_in_fields_keep_their_value", "C17_removed_indexed_refuted"], "note": "For all edits except those of the counterexample (opt_safe); both programs of the counterexample are accepted by the macro."},
 {"property": "C18", "status": "proved", "theorems": ["C18_enum_migration", "C17_later_programs_read", "C18_optimised_fields_refuted", "C18_size_class_refuted"], "note": "For all edits except those of the counterexamples (opt_safe, size class kept)."},
 {"property": "C19", "status": "proved", "theorems": ["C19_deserialize_rejects", "C19_skip_rejects", "C19_walk_rejects"], "note": ""},
 {"property": "C20", "status": "proved", "theorems": ["C20_header_is_current"], "note": ""},
 {"property": "C21", "status": "proved", "theorems": ["C21_accepted_histories", "C21_order_irrelevant", "C21_only_history_matters", "C21_complete", "C21_duplicate_rejected", "C21_zero_rejected", "C21_gap_rejected", "C21_mixed_rejected", "C21_one_source", "C21_too_many_rejected"], "note": "Macro front end from parsed options on (Macro.v); both directions."},
 {"property": "C22", "status": "proved", "theorems": ["C22_distinct", "C22_rejected_iff_clash", "C22_automatic", "C22_lowest_free"], "note": ""},
 {"property": "C23", "status": "proved", "theorems": ["C23_append_keeps_discriminants"], "note": ""},
 {"property": "C24", "status": "proved", "theorems": ["C24_struct_layout", "C24_struct_skip", "C24_struct_extra_bytes", "C24_struct_read", "C24_variant_layout", "C24_variant_skip", "C24_variant_extra_bytes", "C24_variant_read", "C24_inline_helper", "C24_fixed_helper", "C24_varlen_helper", "C24_struct_extra_limited", "C24_variant_extra_limited"], "note": ""},
 {"property": "C25", "status": "proved", "theorems": ["C25_round_trip", "C25_distinct", "C25_reserved_class_rejected", "C25_extended", "C25_never_extended", "C25_reserved_bit_refuted"], "note": ""},
 {"property": "C26", "status": "proved", "theorems": ["C26_indexed_map_round_trip", "C26_limited"], "note": ""},
 {"property": "C27", "status": "proved", "theorems": ["C27_indexed_map_order", "C27_value_order"], "note": ""},
 {"property": "C28", "status": "proved", "theorems": ["C28_indexed_seq_round_trip", "C28_indexed_set_round_trip", "C28_limited_seq", "C28_limited_set"], "note": ""},
 {"property": "C29", "status": "proved", "theorems": ["C29_skip_indexed_seq", "C29_skip_indexed_set", "C29_skip_indexed_map", "C29_limited_seq", "C29_limited_set", "C29_limited_map"], "note": ""},
 {"property": "C30", "status": "proved", "theorems": ["C30_encoded", "C30_validated", "C30_small_refuted", "C30_byte_order", "C30_readme_refuted"], "note": "Exact on encodings with at least 8 entries and on validated payloads; C30_small_refuted: below 8 entries lookups fail."},
 {"property": "C31", "status": "proved", "theorems": ["C31_encoded", "C31_validated"], "note": ""},
 {"property": "C32", "status": "proved", "theorems": ["C32_indexed_seq", "C32_indexed_set", "C32_indexed_map", "C32_indexed_struct"], "note": ""},
 {"property": "C33", "status": "proved", "theorems": ["C33_seq_panics_iff", "C33_map_panics_iff", "C33_struct_no_panic", "C33_seq_refuted", "C33_map_refuted", "C33_empty_map_refuted"], "note": "Exact characterisation of when opening panics; the unconditional claim is refuted."},
 {"property": "C34", "status": "proved", "theorems": ["C34_seq", "C34_map", "C34_struct"], "note": ""},
 {"property": "C35", "status": "proved", "theorems": ["C35_map", "C35_seq", "C35_struct"], "note": ""},
 {"property": "C36", "status": "proved", "theorems": ["C36_indexed_seq", "C36_indexed_set", "C36_indexed_map", "C32_indexed_struct", "C36_seq_refuted", "C36_map_refuted", "C36_struct_refuted"], "note": "Accepted exactly when no element but the last is zero-width (or, for sequences and maps, fewer than 8 of them)."},
 {"property": "C37", "status": "proved", "theorems": ["C37_visit_struct", "C37_opening_fails", "C37_encoded_opens", "C37_field_bytes", "C37_fixed_refuted", "C37_indexed_refuted", "C37_legacy_indexed_refuted", "C37_view_refuted", "C37_older_indexed_refuted", "C37_length_refuted", "C37_optimised_copy_refuted", "C37_converted", "C37_converted_limited"], "note": "proved within the restrictions in the statement; the _refuted theorems show each is needed"},
 {"property": "C38", "status": "proved", "theorems": ["C38_variant_test", "C38_decode_variant", "C38_unit_variant", "C38_optimised_copy_refuted", "C38_added_field_refuted", "C38_inserted_variant_refuted"], "note": "proved within the restrictions in the statement; the _refuted theorems show each is needed"},
 {"property": "C39", "status": "proved", "theorems": ["C39_scripts_agree", "C39_visit_seq", "C39_visit_map", "C39_map_sessions", "C39_notnan_refuted", "C39_abandoned_refuted"], "note": ""},
 {"property": "C40", "status": "proved", "theorems": ["C40_bulk_refused", "C40_walked_layout"], "note": ""},
 {"property": "C41", "status": "proved", "theorems": ["C41_find_hit", "C41_find_miss", "C41_find_bytes_hit", "C41_find_bytes_miss", "C41_map_order_ascends", "C41_hash_refuted"], "note": ""},
 {"property": "C42", "status": "proved", "theorems": ["C42_consumed_and_remaining", "C42_failed_operations_change_nothing", "C42_consume", "C42_sub", "C42_sub_bytes", "C42_sub_error", "C42_no_panic", "C42_slice_readers_agree"], "note": ""},
 {"property": "C43", "status": "proved", "theorems": ["C43_take", "C43_bytes_of_what_decodes", "C43_bytes_of_encoding", "C43_exact_or_error"], "note": ""},
 {"property": "C44", "status": "proved", "theorems": ["C44_encode", "C44_decode", "C44_skip", "C44_skip_slice", "C44_wrapper", "C44_specialised_refuted", "C44_reverse_refuted", "C44_decode_limited", "C44_skip_limited", "C44_skip_slice_limited"], "note": "decode and skip are compared without a memory limit, since boxing changes element sizes; the two _refuted theorems show that the exceptions named in the statement are needed"},
 {"property": "C45", "status": "proved", "theorems": ["C45_errors_listed", "C45_only_size_can_fail", "C45_panics_listed", "C45_failures_happen"], "note": ""},
 {"property": "C46", "status": "proved", "theorems": ["C46_usize_portable", "C46_usize_refuted", "C46_exact", "C46_isize_portable"], "note": "32-bit and 64-bit programs agree on numbers below 2^32; larger ones written by a 64-bit program are an IntegerOverflow error on a 32-bit one, or are truncated in one fixed-width mode: see the _refuted theorem"},
 {"property": "C47", "status": "proved", "theorems": ["C47_last_entry_wins", "C47_set_keeps_elements"], "note": ""},
 {"property": "C48", "status": "proved", "theorems": ["C48_fixed_length", "C48_skip_fixed", "C48_wrong_size_undecodable", "C48_release_refuted", "C48_wrong_size_limited"], "note": "Round trip of such variants is C01."},
 {"property": "C49", "status": "proved", "theorems": ["C49_decodes_exactly", "C49_decoded_is_form", "C49_form_decodes", "C49_rejected", "C49_unambiguous", "C49_written_is_form"], "note": "grammar in Format.v"},
 {"property": "C50", "status": "proved", "theorems": ["C50_schema_of_declaration", "C50_accepted_is_well_formed", "C50_round_trip_of_declarations", "C50_removed_have_convert", "C50_lifetimes_in_range", "C50_traits_implemented", "C50_accepted_iff", "C50_accepted_or_rejected", "C50_option_order", "C50_attribute_flags_refuted"], "note": "C50_accepted_iff: exactly the declarations that meet the rules of Legal.v compile. C50_attribute_flags_refuted is the counterexample: flags in an item-level #[revision(..)] attribute are ignored."},
 {"property": "C51", "status": "proved", "theorems": ["C51_same_outcome", "C51_same_bytes", "C51_reproducible", "C51_read_elsewhere", "C51_upgrade_elsewhere", "C51_big_endian_bytes", "C51_big_endian_read"], "note": ""},
 {"property": "C52", "status": "proved", "theorems": ["C52_bounded", "C52_no_defaults", "C52_lengths", "C52_zero_width", "C52_units_refuted"], "note": ""},
 {"property": "C53", "status": "proved", "theorems": ["C53_rollback", "C53_newer_type", "C53_skip", "C53_skip_data", "C53_skip_slice", "C53_skip_slice_limited"], "note": ""},
 {"property": "C54", "status": "proved", "theorems": ["C54_limit_harmless", "C54_round_trip", "C54_later_programs_read", "C54_refused_is_malformed", "C54_boxed_units_refuted"], "note": ""},
 {"property": "C55", "status": "proved", "theorems": ["C55_panics_listed", "C55_no_panic", "C55_slice_no_panic", "C55_depth_bounded_by_input", "C55_check_panics_listed", "C55_duration_refuted", "C55_path_refuted"], "note": "The two _refuted theorems show that the exceptions (Duration, PathBuf) are needed: skipping them can panic."},
 {"property": "C56", "status": "proved", "theorems": ["C56_stepwise_is_direct", "C56_upgrade", "C56_default_refuted", "C56_removed_refuted"], "note": "Conditions are explicit hypotheses (Steps.v); the two _refuted theorems show the result fails without them."},
 {"property": "C57", "status": "proved", "theorems": ["C57_variant_table", "C57_field_table", "C57_struct_by_hand", "C57_enum_by_hand", "C57_optimised_named", "C57_walker_named", "C57_walker_revision", "C57_walker_revision_refuted", "C57_struct_limited", "C57_enum_limited"], "note": "StructWalker/EnumWalker statements are for fields without fixed/specialised at revisions that are not optimised (there the generic walkers do not apply); revision() of generated walkers is refuted for older optimised data."},
 {"property": "C58", "status": "proved", "theorems": ["C58_panics_listed", "C58_find_panics_listed", "C58_find_bytes_panics_listed", "C58_field_bytes_panics_listed", "C58_no_panic", "C58_indexed_refuted"], "note": "Call sequences exclude walk_<field> of an indexed_* field, and into_<field>_bytes, of a type that has convert functions."},
 {"property": "C59", "status": "proved", "theorems": ["C59_rejection_is_final", "C59_incomplete_is_eof", "C59_feed", "C59_feed_prompt", "C59_eof_can_pass", "C59_skip_rejection_is_final", "C59_skip_incomplete_is_eof", "C59_skip_eof_can_pass", "C59_skip_feed", "C59_result_refuted", "C59_envelope_refuted"], "note": "Restrictions are in the statement; the two _refuted theorems show that they are needed."},
 {"property": "C60", "status": "proved", "theorems": ["C60_widening", "C60_old_data", "C60_no_other_value", "C60_same_bytes", "C60_bytes", "C60_u8_refuted", "C60_fixed_width_refuted", "C60_bulk_refuted", "C60_sign_refuted", "C60_skipping", "C60_skipping_old_data", "C60_bytes_limited"], "note": "the refuted theorems are counterexamples to larger changes, as the statement says"},
 {"property": "C61", "status": "proved", "theorems": ["C61_skips_exactly", "C61_slice_exactly", "C61_limited", "C61_checks_exactly", "C61_check_limited", "C61_indexed_map_exactly", "C61_indexed_seq_exactly", "C61_forms_are_skippable", "C61_checked_are_skippable", "C61_unambiguous", "C61_unknown_variant_refuted", "C61_text_refuted"], "note": "The two _refuted theorems are the strictness part: strings that skip but do not decode."},
 {"property": "C62", "status": "proved", "theorems": ["C62_reports_exactly", "C62_from_slice", "C62_limited", "C62_one_answer", "C62_every_input", "C62_cause_refuted", "C62_eof_refuted"], "note": ""},
 {"property": "C63", "status": "proved", "theorems": ["C63_values", "C63_specialised_encoding", "C63_specialised_decoding", "C63_specialised_decoding_exact", "C63_specialised_exact", "C63_fixed_width_same", "C63_fixed_width_exact", "C63_specialised_detected_refuted", "C63_fixed_width_detected_refuted", "C63_specialised_skipping", "C63_specialised_skipping_exact", "C63_fixed_width_skipping", "C63_specialised_skipping_limited"], "note": "that data of one build is noticed by the other is refuted"},
 {"property": "C64", "status": "proved", "theorems": ["C64_encoding", "C64_decoding", "C64_any_reader", "C64_skipping", "C64_values", "C64_new_declaration", "C64_removed_field_refuted", "C64_walking", "C64_walking_bytes"], "note": "what is used is the inductive relation of Local.v"},
 {"property": "C65", "status": "proved", "theorems": ["C65_duration_wire", "C65_duration_kept", "C65_duration_read", "C65_date_kept", "C65_date_read", "C65_time_kept", "C65_datetime_kept", "C65_leap_second_refuted", "C65_notnan", "C65_polygon_read_back", "C65_polygon_kept", "C65_polygon_rings", "C65_polygon_grows", "C65_polygon_stable", "C65_polygon_grows_refuted", "C65_duration_as", "C65_date_as", "C65_time_as", "C65_datetime_as", "C65_notnan_as", "C65_polygon_as", "C65_encode_as", "C65_law", "C65_time_read", "C65_datetime_read"], "note": "constructors and accessors of chrono, geo and ordered-float are modelled from their documentation"},
 {"property": "C66", "status": "proved", "theorems": ["C66_open_error", "C66_option", "C66_result", "C66_items", "C66_entries", "C66_fields", "C66_variants", "C66_variants_optimised", "C66_result_error_refuted", "C66_envelope_refuted", "C66_items_limited", "C66_entries_limited", "C66_variants_limited"], "note": "Without a memory limit. C66_fields is for structs whose revisions are legacy, without fixed, indexed or convert options; the envelope refutation shows that it fails for optimised ones. C66_variants is for enums declared the same way, C66_variants_optimised for the current optimised revision of any enum; both for variants that are unit or have one field, which is what their decode_<variant> methods cover."},
 {"property": "C67", "status": "proved", "theorems": ["C67_any_order", "C67_history_free", "C67_in_order", "C67_last", "C67_last_history_free", "C67_last_bytes_total", "C67_last_in_order", "C67_order_refuted", "C67_offsets_refuted", "C67_last_walk", "C67_any_order_limited", "C67_last_limited"], "note": "C67_order_refuted and C67_offsets_refuted give the inputs for which the unrestricted reading fails."},
 {"property": "C68", "status": "proved", "theorems": ["C68_sessions", "C68_dropped_refuted"], "note": "C68_dropped_refuted: the documented behaviour of a dropped item walker does not hold."},
 {"property": "C69", "status": "proved", "theorems": ["C69_field_options", "C69_variant_options", "C69_item_options", "C69_size", "C69_items", "C69_unambiguous", "C69_accepts", "C69_unknown_field_option", "C69_unknown_variant_option", "C69_unknown_item_option", "C69_split", "C69_discriminants_refuted"], "note": "Tokens of a type are one token; names of functions are looked up in a scope. C69_discriminants_refuted: [=] between the braces of a declaration is never read."},
 {"property": "C70", "status": "proved", "theorems": ["C70_emitted", "C70_shape", "C70_unchanged", "C70_again", "C70_names"], "note": ""},
 {"property": "C71", "status": "proved", "theorems": ["C71_same_values", "C71_same_bytes", "C71_same_writes", "C71_same_reading", "C71_history", "C71_edits_are_a_history", "C71_discriminants", "C71_too_early_refuted", "C71_skipping", "C71_same_reading_limited", "C71_skipping_limited"], "note": "The reading part is stated for readers without an allocation limit; C71_history covers limits. The tidied program is assumed to compile (wf_env)."},
 {"property": "C72", "status": "proved", "theorems": ["C72_deserialize", "C72_skip", "C72_skip_check", "C72_pass_over"], "note": "Requests are read_exact calls on the caller's reader; reads from a payload buffer already in memory are not requests. The table of an indexed field is passed over in one request in the decoder model (the code: one per 4096 bytes, C72_pass_over). Loops over elements without bytes on the wire make no request and are not bounded (C52_units_refuted)."},
 {"property": "C73", "status": "proved", "theorems": ["C73_meter", "C73_sum", "C73_sum_not_optimised", "C73_nesting_multiplies", "C73_linear_refuted", "C73_every_request"], "note": "Requests are those whose size comes from the data; nodes of ordered maps and sets, boxes and user supplied functions are not metered. Decodings that fail may have made one oversized request (C54)."},
 {"property": "C74", "status": "proved", "theorems": ["C74_length", "C74_encodes", "C74_any_order", "C74_any_order_fails"], "note": ""},
 {"property": "C75", "status": "proved", "theorems": ["C75_bincode", "C75_reads_bincode", "C75_signed_refuted", "C75_vectors_refuted", "C75_bools_refuted", "C75_uuid_refuted"], "note": "the refutations delimit the claim"},
 {"property": "C76", "status": "proved", "theorems": ["C76_any_reader", "C76_slice", "C76_slice_reader", "C76_mut", "C76_skip_indexed", "C76_borrow", "C76_view_code", "C76_view", "C76_encoded_field", "C76_view_in_bounds", "C76_borrow_in_bounds", "C76_eager_refuted", "C76_default_remaining_refuted", "C76_encoded_field_limited"], "note": "Generic code is a program over the methods of the trait. That lent-out bytes stay as they are (bullets 1-3 of the contract) is assumed by the functional model."},
 {"property": "C77", "status": "proved", "theorems": ["C77_stateless", "C77_any_closure", "C77_validated", "C77_skip_indexed", "C77_skip_optimised"], "note": "Closures are functions of all keys shown before and the key; the keys shown are part of the result of the modelled lookups (Closure.v). Calls to a BorrowedReader are counted on the generic code of Borrowed.v, calls to io::Read as in C72."},
 {"property": "C78", "status": "proved", "theorems": ["C78_walk_without_memory", "C78_find_bytes_without_memory", "C78_field_bytes_without_memory", "C78_legacy_view_refuted", "C78_convert_refuted"], "note": "The limit is the one of C15 and C54 (e_mem, on each single request; 0 refuses all). Conditions as in the statement; the two _refuted theorems show that those on convert functions and legacy views are needed, C16_path_refuted the one on PathBuf."},
 {"property": "C79", "status": "proved", "theorems": ["C79_struct", "C79_tuple", "C79_enum", "C79_camel", "C79_items", "C79_writer", "C79_reader", "C79_methods_refuted", "C79_locals_refuted", "C79_items_refuted", "C79_snake"], "note": "Text of identifiers is ASCII; a shadowed parameter is taken to be an error of the compiler. Not stated: that the local variables bound in one generated body differ from each other (survivor s93_bind0 in seeded/LOG.jsonl)."},
 {"property": "C80", "status": "proved", "theorems": ["C80_bulk", "C80_bytes", "C80_i8", "C80_elements", "C80_write", "C80_write_uuid", "C80_numbers", "C80_uuids", "C80_byte_vectors", "C80_any_elements", "C80_decimals", "C80_written"], "note": "Alignment and aliasing rules are not modelled."},
 {"property": "C81", "status": "proved", "theorems": ["C81_open", "C81_upgrade", "C81_restart", "C81_result_refuted", "C81_io_error_refuted", "C81_failed_append_refuted", "C81_restart_limited"], "note": "The application is a specification (Journal.v); replacing the file by a rewritten one is atomic."},
 {"property": "C82", "status": "proved", "theorems": ["C82_same_calls", "C82_nothing_reads", "C82_reports", "C82_end_of_input", "C82_reopen", "C82_carry_on_refuted", "C82_rolled_back", "C82_taken_over", "C82_reopen_limited"], "note": "C82_carry_on_refuted: continuing to append after a failure is not safe."},
 {"property": "C83", "status": "proved", "theorems": ["C83_round_trip", "C83_no_prefix", "C83_injective", "C83_later", "C83_skip", "C83_bitmaps", "C83_bitmap_errors", "C83_documented", "C83_kept", "C83_alone_refuted", "C83_derived_only", "C83_round_trip_limited", "C83_no_prefix_limited", "C83_injective_limited", "C83_later_limited", "C83_refused", "C83_skip_slice", "C83_skip_slice_encoding", "C83_skip_check_accepts", "C83_skip_check", "C83_skips_derived_only", "C83_usual_skips"], "note": "C83_alone_refuted shows that the condition on following bytes is needed. C83_derived_only ties the extended model to the one of the other properties. The roaring crate's own format is a parameter; that it reads back what it writes is the hypothesis of C83_bitmaps."},
 {"property": "C84", "status": "proved", "theorems": ["C84_later_skips", "C84_old_data", "C84_old_slice", "C84_old_slice_limited"], "note": ""},
 {"property": "C85", "status": "proved", "theorems": ["C85_seq_counts", "C85_map_counts", "C85_seq_safe", "C85_map_safe", "C85_cut", "C85_endless_refuted", "C85_overrun_refuted", "C85_map_overrun_refuted", "C85_same_steps"], "note": "After a failed walk, or a failed call on the walker it gave, the reader is anywhere further on in the model (an over-approximation); after decode, skip and with_bytes it is where the code leaves it. The *_refuted theorems record what happens when errors are ignored."},
 {"property": "C86", "status": "proved", "theorems": ["C86_member", "C86_small_refuted", "C86_untrusted", "C86_order"], "note": "The search is the user's own loop; it is written out beside the theorems."},
 {"property": "C87", "status": "proved", "theorems": ["C87_decode_field", "C87_count", "C87_indexed_refuted", "C87_skip_refuted"], "note": "decode_field on fields declared indexed_* returns wrong values without an error (C87_indexed_refuted); skip_field accepts any index (C87_skip_refuted)"},
 {"property": "C88", "status": "proved", "theorems": ["C88_reports_exactly", "C88_slice_exactly", "C88_limited", "C88_checks_exactly", "C88_check_limited", "C88_indexed_map_exactly", "C88_indexed_seq_exactly", "C88_indexed_limited", "C88_one_answer", "C88_every_input", "C88_decoding_rejects_too", "C88_later_refuted", "C88_cause_refuted"], "note": "Specification in SkipDiag.v (obstacle), independent of the readers. The refuted theorems: the error differs from the decoder's."},
 {"property": "C89", "status": "proved", "theorems": ["C89_text_tells", "C89_bool_refuted", "C89_source", "C89_source_shown", "C89_kind"], "note": "Payload errors and messages are represented by their texts."},
 {"property": "C90", "status": "proved", "theorems": ["C90_header", "C90_wrappers", "C90_box_refuted", "C90_readable"], "note": "The natural claim about the wrapper's own revision() is false for Box, Arc, Wrapping and Reverse (C90_box_refuted)."},
 {"property": "C91", "status": "proved", "theorems": ["C91_index", "C91_read", "C91_copy"], "note": "the program that indexes is modelled in Index.v"},
 {"property": "C92", "status": "proved", "theorems": ["C92_walk", "C92_find", "C92_into_bytes", "C92_by_hand", "C92_calls", "C92_map_session", "C92_seq_session"], "note": ""},
 {"property": "C93", "status": "proved", "theorems": ["C93_encode", "C93_decode", "C93_skip", "C93_walk", "C93_find", "C93_into_bytes", "C93_by_hand", "C93_calls", "C93_agree", "C93_map_session", "C93_seq_session", "C93_writes", "C93_hand_written", "C93_usual"], "note": ""},
 {"property": "C94", "status": "proved", "theorems": ["C94_encode", "C94_decode", "C94_skip", "C94_views", "C94_walk", "C94_find", "C94_into_bytes", "C94_by_hand", "C94_calls", "C94_map_session", "C94_seq_session", "C94_writes", "C94_hand_written"], "note": ""}
]}
