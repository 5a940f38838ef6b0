{"claims": [
{"property": "C01", "status": "proved", "theorems": ["C01_required_only_receives_simplified_value"], "note": "For every value streaming a well-formed tree and every (possibly failing) required-only stream."},
{"property": "C02", "status": "proved", "theorems": ["C02_defaults_terminate", "C02_override_then_complete", "C02_override_as_default_is_transparent", "C02_meaning_independent_of_overrides", "C02_default_kinds", "C02_receives_understood"], "note": ""},
{"property": "C03", "status": "proved", "theorems": ["C03_integer_arrives_exactly", "C03_integer_arrives_as_i64_when_it_fits"], "note": ""},
{"property": "C04", "status": "proved", "theorems": ["C04_computed_only_weakens_borrows", "C04_value_computed_only_weakens_borrows", "C04_no_borrow_escapes"], "note": ""},
{"property": "C05", "status": "proved", "theorems": ["C05_forwarding_is_transparent"], "note": ""},
{"property": "C06", "status": "proved", "theorems": ["C06_int_extraction_sound_for_any_behaviour", "C06_int_extraction_exact_on_trees"], "note": ""},
{"property": "C07", "status": "partial", "theorems": ["C07_complete_across_widths_partial", "C07_complete_across_widths_refuted"], "note": "The full statement is false of the code: 42i32.to_i64() is None. The partial theorem gives the exact result for all 100 width pairs."},
{"property": "C08", "status": "proved", "theorems": ["C08_to_text_any_behaviour", "C08_to_binary_any_behaviour", "C08_to_text_exact_on_trees", "C08_to_binary_exact_on_trees"], "note": ""},
{"property": "C09", "status": "proved", "theorems": ["C09_to_bool_any_behaviour", "C09_to_f32_any_behaviour", "C09_to_f64_any_behaviour", "C09_tag_any_behaviour", "C09_to_bool_exact_on_trees", "C09_to_f32_exact_on_trees", "C09_to_f64_exact_on_trees", "C09_tag_exact_on_trees"], "note": ""},
{"property": "C10", "status": "proved", "theorems": ["C10_label_equality_is_text_equality", "C10_label_hash_agrees", "C10_label_borrow_agrees", "C10_index_equality_is_number_equality", "C10_index_order_total_and_consistent", "C10_index_order_transitive", "C10_index_hash_agrees"], "note": "A hasher is modelled by the data it is fed."},
{"property": "C11", "status": "proved", "theorems": ["C11_to_exact", "C11_round_trip", "C11_across_types", "C11_injective"], "note": "usize and isize are 64 bits wide."},
{"property": "C12", "status": "partial", "theorems": ["C12_copies_keep_text", "C12_copies_keep_static_text", "C12_clone_keeps_tag_refuted", "C12_to_owned_keeps_tag_refuted", "C12_clone_keeps_tag_partial", "C12_to_owned_keeps_tag_partial"], "note": "Text is kept by every copy. The tag is not: to_owned drops it and cloning an owned label drops it; the exact conditions are proved."},
{"property": "C13", "status": "proved", "theorems": ["C13_content_is_concatenation", "C13_borrowed_only_if_single", "C13_clear_is_new", "C13_streams_as_one_fragment", "C13_noalloc"], "note": "All histories of pushes, displays, clears and into_owned."},
{"property": "C14", "status": "partial", "theorems": ["C14_never_panics_refuted", "C14_never_panics_partial", "C14_text_collect_exact", "C14_binary_collect_exact", "C14_text_collect_lends", "C14_binary_collect_lends"], "note": "False as stated: a value whose own stream method returns an error makes collect unwrap a missing error. Proved for every value that does not fail by itself, with the exact outcome on every well-formed value."},
{"property": "C15", "status": "partial", "theorems": ["C15_round_trip_full_refuted", "C15_round_trip_partial", "C15_round_trip_untagged_labels_partial"], "note": "False as stated: the tag of a label is lost. Proved in full for values whose labels have no tag, and up to label tags for every value."},
{"property": "C16", "status": "partial", "theorems": ["C16_exactly_when_complete_refuted", "C16_exactly_when_complete_partial"], "note": "False as stated: a leading tag hint alone counts as a complete value. Proved exactly: true at the end, and after a proper prefix only if it is non-empty and all tag hints."},
{"property": "C17", "status": "proved", "theorems": ["C17_into_owned", "C17_collect_owned"], "note": "Any history for into_owned, any value behaviour for collect_owned."},
{"property": "C18", "status": "proved", "theorems": ["C18_clear_is_new"], "note": "Any history before and after."},
{"property": "C19", "status": "proved", "theorems": ["C19_replay_always_nested", "C19_panics_exactly", "C19_end_fails_exactly", "C19_fragment_accepted_exactly"], "note": "Any call sequence; the only panic is characterised."},
{"property": "C20", "status": "partial", "theorems": ["C20_json_denotes_value_partial", "C20_compact_text_partial", "C20_json_denotes_value_refuted", "C20_json_text_has_one_value", "C20_ordinary_values_have_images"], "note": "The full statement is refuted: an internally tagged flag leaks out of map keys, an unnamed enum inside an enum closes twice, and NUMBER text such as 0e5 is rewritten. The partial theorem covers every tree that has an image in the separate specification, at any size and depth. C20_compact_text_partial gives the exact bytes, texts under the JSON and NUMBER tags included, without the leak. C72 says for which ordinary values exactly the statement holds."},
{"property": "C21", "status": "proved", "theorems": ["C21_strings_round_trip", "C21_labels_round_trip"], "note": "Every text, cut in any way, and every field label: the written literal decodes to the same bytes under an independent RFC 8259 string decoder."},
{"property": "C22", "status": "partial", "theorems": ["C22_json_any_cut_partial", "C22_json_any_cut_refuted", "C22_json_any_cut_without_numbers", "C22_number_any_cut_exactly", "C22_number_any_cut_anywhere", "C22_fmt_any_cut", "C22_value_buf_any_cut", "C22_text_buf_any_cut", "C22_binary_buf_any_cut"], "note": "Debug-style output and buffered results: proved for every value and cut. JSON: the full statement is refuted for NUMBER-tagged text that is not a number; proved for every other tree, and C22_number_any_cut_exactly says exactly which texts under a NUMBER tag may be cut anywhere; C22_number_any_cut_anywhere says the same at any depth in another value."},
{"property": "C23", "status": "proved", "theorems": ["C23_integers_exact", "C23_nonfinite_floats_are_null", "C23_finite_floats_are_printed"], "note": "Integers of every width; the ryu printer is a parameter, so finite floats are proved to be exactly what that printer returns."},
{"property": "C24", "status": "partial", "theorems": ["C24_number_text_becomes_number_partial", "C24_number_text_exact_partial", "C24_number_text_becomes_number_refuted", "C24_literals_are_the_documented_grammar", "C24_nonfinite_text_is_null", "C24_letters_after_digits_are_null", "C24_other_text_is_json_refuted", "C24_other_text_panics", "C24_any_text_exactly", "C24_any_text_anywhere", "C24_ascii_never_panics"], "note": "The full statement is refuted (0e5 loses its digit). Proved for all documented literals whose integer part is not all zeroes before an exponent, with the exact bytes written, and nan/inf texts are null however they are cut. Other text can panic or produce invalid JSON (refuted). C24_any_text_exactly says what every text whatever becomes, however it is cut, and when the formatter panics. C24_any_text_anywhere: the same at any depth in another value, with the text around it unchanged."},
{"property": "C25", "status": "proved", "theorems": ["C25_textual_keys_are_strings", "C25_textual_keys_have_text", "C25_container_keys_fail", "C25_container_key_fails_the_stream", "C25_proper_keys_are_strings_or_fail", "C25_all_keys_are_strings_or_fail_refuted"], "note": "Every key that carries no embedded-JSON tag is written as a string or fails the stream; embedded JSON keys are written raw, shown by the refuted statement."},
{"property": "C26", "status": "partial", "theorems": ["C26_unit_variant", "C26_newtype_variant", "C26_tuple_variant", "C26_record_variant", "C26_unnamed_variant", "C26_nested_enum", "C26_enums_externally_tagged_partial", "C26_enums_externally_tagged_refuted", "C26_enum_exactly", "C26_enums_externally_tagged_exactly"], "note": "The full statement is refuted: an unnamed enum directly inside an enum yields an extra closing brace. Each documented variant shape is proved for every payload. C26_enum_exactly says what an enum is written as whatever it holds, and C26_enums_externally_tagged_exactly when that is right."},
{"property": "C27", "status": "partial", "theorems": ["C27_seq", "C27_tuple", "C27_record", "C27_record_tuple", "C27_tagged", "C27_map_entries_have_texts", "C27_map", "C27_own_text_anywhere", "C27_entry_exactly", "C27_values_do_not_depend_on_keys_exactly", "C27_values_do_not_depend_on_keys_partial", "C27_values_do_not_depend_on_keys_refuted"], "note": "Elements of sequences, tuples, records and record tuples are independent for every content. In maps, a key that leaves the internally tagged flag set changes the following value (refuted); C27_entry_exactly says what every entry is written as, and C27_values_do_not_depend_on_keys_exactly that the value is written as on its own exactly for all other entries. C27_own_text_anywhere: at any depth, replacing an element, a field or any unnamed value by another replaces exactly its own text, or fails as the other does."},
{"property": "C28", "status": "partial", "theorems": ["C28_all_or_error_partial", "C28_all_or_error_refuted", "C28_interruptions_are_retried", "C28_no_error_no_loss", "C28_loss_exactly"], "note": "The full statement is refuted: a writer that answers Ok(0) truncates silently. Proved for every writer that makes progress or errors; and for every writer whatever that text is lost exactly if it answered Ok(0) (C28_loss_exactly)."},
{"property": "C29", "status": "proved", "theorems": ["C29_every_write_is_utf8", "C29_string_is_utf8"], "note": "Any writer, any call sequence, the default methods included. That ryu prints valid UTF-8 is a hypothesis on the printers."},
{"property": "C30", "status": "proved", "theorems": ["C30_balanced", "C30_text", "C30_debug_text_refuted", "C30_debug_text_partial"], "note": "Brackets are balanced and separators stand exactly between siblings for every tree. Beyond the claim: the text is that of derive(Debug), except that enums holding an empty variant have their label written again after it (refuted, with the partial theorem)."},
{"property": "C31", "status": "partial", "theorems": ["C31_no_panic_refuted", "C31_panics_iff_value_fails", "C31_no_panic_partial"], "note": "Refuted: a value that fails makes it panic. Proved: it panics for exactly those values."},
{"property": "C32", "status": "partial", "theorems": ["C32_flatten_exact", "C32_flatten_hoists_refuted", "C32_flatten_hoists_partial", "C32_plain_values_ignored", "C32_tagged_enum_panics", "C32_flatten_no_panic_refuted", "C32_flatten_no_panic_partial"], "note": "Full statement refuted twice: a nested map key end arrives as key begin (flattener.rs:305), and a tagged value around an enum panics (subtract overflow). C32_flatten_exact gives the exact behaviour for all other values; the partial theorem gives the documented one when no child holds a non-empty map."},
{"property": "C33", "status": "proved", "theorems": ["C33_offsets_without_gaps", "C33_completed_flattening", "C33_consecutive_fields_never_collide"], "note": "Every destination kind; isize range is a hypothesis."},
{"property": "C34", "status": "partial", "theorems": ["C34_key_texts_refuted", "C34_label_exact", "C34_key_texts_partial"], "note": "Refuted for keys mixing numbers with other parts (a number replaces what came before, text replaces a number). Exact label proved for all keys; documented text proved for keys of text parts or of a single part."},
{"property": "C35", "status": "partial", "theorems": ["C35_one_level_partial", "C35_children_partial", "C35_mirrors_partial", "C35_mirrors_refuted", "C35_children_follow_the_protocol_refuted", "C35_default_methods", "C35_texts_borrowed", "C35_binary_borrowed", "C35_computed_never_borrowed", "C35_elements_as_given", "C35_entries_as_given", "C35_tuple_values_as_given", "C35_record_values_as_given", "C35_tagged_value_as_given"], "note": "Proved for every value without a tuple or record inside an enum inside an enum; the full statement is refuted (those panic), and children rebuilt from the buffer lack seq_value_begin/end (refuted), though reading them through sval_nested still mirrors them. The values passed to value and value_computed arrive unchanged, borrowed or computed accordingly, and texts arrive borrowed exactly when in one piece (NestedGivenProps.v)."},
{"property": "C36", "status": "partial", "theorems": ["C36_no_panic_partial", "C36_deep_enums_panic", "C36_other_enums_fail", "C36_no_panic_refuted", "C36_empty_enum_panics", "C36_failures_reported_refuted", "C36_failure_after_completion_lost"], "note": "Exact characterisation: a panic happens exactly for a tuple or record inside an enum inside an enum; other unsupported enum contents are an error. The full statement is refuted. A failure after the value is complete is dropped."},
{"property": "C37", "status": "partial", "theorems": ["C37_serializes_as", "C37_exact", "C37_same_calls_partial", "C37_same_calls_as_strings_partial", "C37_same_calls_refuted", "C37_unlabelled_tagged_fails", "C37_well_formed_values_serialize_refuted", "C37_to_value_well_formed", "C37_giving_up_exact", "C37_same_failures_partial", "C37_same_failures_refuted", "C37_giving_up_fails", "C37_to_value_gives_up"], "note": "C37_exact says exactly which calls arrive: those of x with each char and Display replaced by the string it reads as. The full statement is refuted by a serializer that tells a char from a string; it holds for values without chars and Displays and for serializers that treat both as strings. The serializer is any record of methods that cannot look into children. Values that give up half-way: C37_giving_up_exact says what every serializer is told; the claim that it is told the same is refuted (a Some whose value gives up is not announced), holds where no Some gives up, and a serializer that minds errors fails in both cases. Texts of errors are in C76."},
{"property": "C38", "status": "partial", "theorems": ["C38_derived_well_formed_partial", "C38_derived_well_formed_refuted", "C38_without_flatten", "C38_fields_in_order", "C38_size_exact", "C38_enum_holds_variants", "C38_labels_all_or_none", "C38_tag_agrees_partial", "C38_tag_agrees_refuted"], "note": "Proved in full for every definition without flattened fields (C38_without_flatten). With flattened fields the statement is false (refuted: a flattened field holding a map sends map_key_begin for map_key_end; inherited from C32) and holds when the flattened values avoid the cases of C32. Also: the generated tag method disagrees with what is streamed for transparent newtypes only (refuted/partial)."},
{"property": "C39", "status": "proved", "theorems": ["C39_indexes_are_positions", "C39_offsets_distinct", "C39_indexes_distinct", "C39_flattenable", "C39_increasing_attributes_distinct", "C39_attributes_and_flatten_refuted"], "note": "Holds for every definition without index attributes, for flattened values whose own indexes are positions (shown to hold for derived values, C39_flattenable). Beyond the property: increasing attributes without flattening stay distinct; attributes together with a flattened field collide (refuted)."},
{"property": "C40", "status": "proved", "theorems": ["C40_streams_its_shape", "C40_exact_hints", "C40_integers_in_range", "C40_tuple_indexes", "C40_char_encoding", "C40_failing_display", "C40_refs_stream_like_values"], "note": "All core Value impls and the sval_ref ones; other user types may appear anywhere inside, assumed only to stream their own tree."},
{"property": "C41", "status": "partial", "theorems": ["C41_accepted_histories_nest", "C41_stack_exact_refuted", "C41_stack_exact_partial", "C41_shallow_histories_are_small", "C41_outcome_exact", "C41_shallow_opens"], "note": "C41_outcome_exact says for every history whether it is accepted, refused or panics. The full statement is refuted: 103 containers reach u64::MAX and the next push computes 1 + u64::MAX, which panics instead of failing. What a real stack accepts is accepted up to 64 containers deep."},
{"property": "C42", "status": "proved", "theorems": ["C42_new_never_panics", "C42_equality_is_name_equality", "C42_hash_covers_name", "C42_builtin_tags_distinct", "C42_id_depends_on_every_byte"], "note": "The cached hash is modelled for either byte order. Changing one byte of a name always changes the hash; two names of 16 bytes with the same hash are shown (TagIdProps.v), so equality has to look at the name."},
{"property": "C43", "status": "proved", "theorems": ["C43_json_value_verbatim", "C43_json_text_verbatim", "C43_verbatim_anywhere"], "note": "At the root of a value, as an element or field at any depth, and, for the unnamed form JsonStr and JsonSlice stream, also as the value of a map entry or inside a tagged value: the rest of the text does not change."},
{"property": "C44", "status": "partial", "theorems": ["C44_recorded_calls", "C44_replay_is_identity", "C44_replay_equal_refuted", "C44_replay_equal_partial", "C44_assert_tokens_exact", "C44_assert_valid_exact", "C44_buffers_agree", "C44_replays_agree"], "note": "Replaying is the identity on token lists for every value. Compared with the tokens own ==, the full statement fails exactly when a NaN was streamed (a NaN token is unequal to itself). Includes what assert_tokens/assert_valid/assert_invalid accept, and agreement with ValueBuf."},
{"property": "C45", "status": "proved", "theorems": ["C45_json_failure_is_prompt_and_reported", "C45_no_calls_after_a_failure", "C45_fmt_tokens"], "note": "JSON formatter, Debug-style writer, and any stream driven by a value through the forwarding combinators."},
{"property": "C46", "status": "proved", "theorems": ["C46_labels_memory_safe", "C46_labels_keep_tags", "C46_no_leak", "C46_no_sharing"], "note": "Explicit heap of boxes; operations the borrow checker rejects are skipped."},
{"property": "C47", "status": "proved", "theorems": ["C47_values_replay_like_the_buffer"], "note": "Any call sequence."},
{"property": "C48", "status": "partial", "theorems": ["C48_display_succeeds", "C48_to_string_never_panics", "C48_writer_failure_reported_refuted", "C48_writer_failure_reported_partial"], "note": "Never failing on its own: proved. Reporting a failing writer: refuted for writers that accept more after a failure, proved for the others."},
{"property": "C49", "status": "proved", "theorems": ["C49_every_token_is_utf8"], "note": "Floats and the escapes of non-ASCII characters are parameters, assumed UTF-8."},
{"property": "C50", "status": "proved", "theorems": ["C50_text_literal_reads_back", "C50_distinct_texts", "C50_ascii_escapes"], "note": "The escapes core gives for non-ASCII characters are a parameter, assumed to read back."},
{"property": "C51", "status": "proved", "theorems": ["C51_conversions_match_the_stream", "C51_integers_sound", "C51_integers_exact"], "note": "Which integer conversions succeed across widths is C07."},
{"property": "C52", "status": "partial", "theorems": ["C52_indexes_are_discriminants_partial", "C52_indexes_are_discriminants_refuted", "C52_attribute_collides", "C52_index_exactly", "C52_discriminant_exactly_when"], "note": "The full statement is false (refuted): variants after a discriminant given by a path or expression. C52_index_exactly says which index every variant of every indexed enum has, index attributes, paths and expressions included; C52_discriminant_exactly_when says exactly which variants get the Rust discriminant: those whose last discriminant at or before them is absent, a literal, their own path, or what they would have been numbered anyway. An index attribute on a variant can collide with the numbering of later variants (C52_attribute_collides)."},
{"property": "C53", "status": "proved", "theorems": ["C53_through_serde"], "note": "For every well-formed value that is shallow (no tuple or record in an enum in an enum, which panics by C36), whose serde reading has no error and which has no null or unnamed record. kept in SerdeSpec.v says what serde has room for."},
{"property": "C54", "status": "partial", "theorems": ["C54_reads_json_partial", "C54_reads_json_refuted", "C54_shallow_texts_supported", "C54_capital_exponent_panics"], "note": "The full statement C54_reads_json (every JSON text) is false: the reader panics on escapes such as \\t and on 1E5. Proved for every text satisfying the decidable predicate supported (ReaderSpec.v)."},
{"property": "C55", "status": "proved", "theorems": ["C55_accepted_texts_nest", "C55_reading_ends", "C55_texts_are_utf8", "C55_objects_keep_order", "C55_accepts_only_json_refuted", "C55_accepted_junk", "C55_accepted_texts"], "note": "For every byte sequence. The stronger statement that only JSON is accepted is refuted ([1 2], [1,], an open string, nothing at all)."},
{"property": "C56", "status": "partial", "theorems": ["C56_read_values_write", "C56_json_to_json_partial", "C56_json_to_json_refuted", "C56_written_values_read_partial", "C56_values_read_back_partial", "C56_values_read_back_refuted", "C56_written_again_partial"], "note": "Texts read: limited to those the reader supports (C54). Values written: plain texts, no raw-JSON tags, at most 63 levels; the reader has no \\t, \\b, \\f or \\u escapes, so a tab does not come back (refuted)."},
{"property": "C57", "status": "proved", "theorems": ["C57_behaves_as_a_bounded_list", "C57_every_value_dropped_once", "C57_clone", "C57_push_refused_exactly_when_full"], "note": "Slots are modelled as uninitialised or holding bits; reading an uninitialised slot is an explicit undefined-behaviour outcome. Panics in element drop or clone are not modelled."},
{"property": "C58", "status": "proved", "theorems": ["C58_collects_exactly", "C58_collect_owned_exactly", "C58_accepted_calls_are_kept", "C58_replay_never_panics", "C58_no_panic_before_a_failure", "C58_panics_exactly", "C58_no_panic_refuted"], "note": "After a refused begin, the matching end panics: C58_no_panic_refuted; C58_panics_exactly says when."},
{"property": "C59", "status": "partial", "theorems": ["C59_buffer_again", "C59_same_debug_text", "C59_same_serde_calls", "C59_same_json_partial", "C59_same_json_refuted", "C59_json_exactly", "C59_number_exactly", "C59_number_any_cut_exactly"], "note": "Debug text, serde calls and re-buffering are proved for all well-formed values. The JSON claim is false as stated (C59_same_json_refuted: a field label tagged VALUE_IDENT that contains a quote is written raw, and escaped after buffering because the buffer drops label tags); proved for honest labels and steady numbers. C59_json_exactly: with steady numbers the JSON is the same exactly if the labels are honest, and otherwise longer by what escaping them adds; errors and panics are the same. C59_number_exactly and C59_number_any_cut_exactly: for a number streamed as text in pieces, when buffering leaves its JSON the same."},
{"property": "C60", "status": "partial", "theorems": ["C60_shown_is_a_text", "C60_shown_streams", "C60_shown_text", "C60_displayed_value", "C60_stream_failure_reported_refuted", "C60_stream_failure_reported_partial", "C60_json_str_verbatim", "C60_json_str_buffered", "C60_json_str_embedded", "C60_json_str_denotes"], "note": "Everything but one clause is proved. A stream failure in the middle of a displayed sval value (ToFmt) is swallowed if the stream accepts more afterwards (refuted); proved for streams that keep refusing."},
{"property": "C61", "status": "partial", "theorems": ["C61_order", "C61_only_known_once", "C61_value_kinds_partial", "C61_value_kinds_refuted", "C61_index_literals_partial", "C61_index_literals_refuted", "C61_discriminant_literals", "C61_paths", "C61_variant_labels_partial", "C61_variant_labels_refuted", "C61_variant_labels_unlabeled", "C61_field_tags_partial", "C61_field_tags_refuted", "C61_field_tags_sequence", "C61_read_exactly", "C61_one_meaning", "C61_compiles_exactly"], "note": "Order, known-place and no-duplicate hold fully. False in full: values of the other attributes of a skipped field are not checked; the least isize cannot be written as an index or discriminant; labels on variants of dynamic or unlabeled_variants enums and tags on flattened fields or fields of sequences are accepted and ignored. Each is proved with those cases excluded. C61_read_exactly and C61_compiles_exactly give, for every definition, exactly what its attributes mean and when it compiles, those cases included."},
{"property": "C62", "status": "partial", "theorems": ["C62_call_lists_pass_failures_on", "C62_forwarding_is_transparent", "C62_computed_only_weakens_borrows", "C62_accepted_calls", "C62_no_effect_after_a_failure", "C62_effect_is_that_of_the_calls", "C62_json", "C62_buffer", "C62_collect_buffer", "C62_any_buffer_replays", "C62_collect_text", "C62_collect_binary", "C62_bool_is_streamed", "C62_int_is_streamed", "C62_text_is_the_only_fragment", "C62_binary_is_the_only_fragment", "C62_ok_means_json_partial", "C62_ok_means_json_refuted", "C62_writer_failure_reported_partial", "C62_writer_failure_reported_refuted", "C62_buffer_panics_exactly"], "note": "All but the last sentence is proved in full. The entry points look only at the result of the value: one that ignores a failure makes stream_to_string return broken JSON and a failing writer go unreported (refuted); proved for values that pass failures on."},
{"property": "C63", "status": "partial", "theorems": ["C63_serde_compatible_partial", "C63_serde_compatible_iff", "C63_serde_compatible_refuted", "C63_without_unit_structs_refuted", "rust_holds", "derived_calls", "impl_calls_stream"], "note": "The generated code is that of the derive model (derived_calls, impl_calls_stream) and streams the data (rust_holds). The full statement is refuted: a unit struct is written as its name where serde_json writes null, and a map entry with a newtype or enum key and a named value is broken JSON. C63_serde_compatible_iff: byte for byte the same exactly for the data without those two."},
{"property": "C64", "status": "partial", "theorems": ["C64_exact", "C64_exact_partial", "C64_same_as_derive_serialize_partial", "C64_same_as_strings_partial", "C64_arrays_fail", "C64_same_as_derive_serialize_refuted", "C64_without_arrays_refuted"], "note": "The full statement is refuted: arrays are an error in every serializer, and a char arrives as a string. C64_exact says exactly which calls arrive for every datum: those of derive(Serialize) with each char as a string and each array as an error, which a serializer may survive. Without arrays: exactly the calls of derive(Serialize) with chars as strings; the same calls if there are no chars, or if the serializer treats them as strings."},
{"property": "C65", "status": "partial", "theorems": ["C65_like_debug_partial", "C65_differences", "C65_like_debug_refuted", "C65_text_exactly"], "note": "The full statement is refuted, and C65_differences shows each difference: floats are printed with Display, chars as strings, single quotes in strings are escaped, maps get inner spaces, one-tuples lose their comma, empty tuple and record structs keep their brackets, and enums repeat their label after an empty variant. Equality proved for all data without these; C65_text_exactly gives the text printed for every datum, with them."},
{"property": "C66", "status": "partial", "theorems": ["C66_direct_streams_the_same", "C66_direct_serializes_the_same", "C66_same_or_error", "C66_debug_same_error_or_panic", "C66_serializes_the_same_or_error", "C66_debug_serializes_the_same_error_or_panic", "C66_texts_exactly", "C66_no_buffering_partial", "C66_like_derive_serialize_partial", "C66_chars_fail", "C66_no_buffering_refuted", "C66_errors_instead_refuted"], "note": "False as documented: char needs a buffer and debug builds panic (both refuted by theorems). Proved for plain data without char, and same-or-error for every value in release builds; serializers are assumed to hand on errors of their parts."},
{"property": "C67", "status": "partial", "theorems": ["C67_vec_is_string", "C67_any_map_value_can_be_encoded_ahead_refuted", "C67_any_key_can_be_encoded_ahead_refuted", "C67_parts_encoded_ahead_partial", "C67_encoding_twice", "C67_encoded_is_a_part", "C67_map_value_exactly", "C67_variant_exactly", "C67_key_exactly"], "note": "Proved for every part but map keys (a key encoded ahead gets doubled quotes), the variant directly inside an enum, and named values after a key that is a named enum or tagged value; the refutations show the claim is false there. C67_map_value_exactly, C67_variant_exactly and C67_key_exactly say which of those can be encoded ahead after all."},
{"property": "C68", "status": "proved", "theorems": ["C68_accepted", "C68_newtype_field_takes_no_attributes"], "note": "An exact characterisation over definitions as DeriveModel.v takes them (attributes already parsed: C61 covers the parsing). Refusals by rustc itself are outside."},
{"property": "C69", "status": "partial", "theorems": ["C69_one_sequence", "C69_calls", "C69_documented_calls_refuted", "C69_documented_calls_partial", "C69_fuel", "C69_own_or_default", "C69_by_kind", "C69_write_token_only", "C69_generic_writer", "C69_formatter", "C69_nothing_overridden", "C69_by_reference"], "note": "The full statement is false of the code for is_first of write_map_value_begin when a key is a container, tag or enum (finding 18); proved as documented for all other values, and the exact sequence for all values (C69_calls)."},
{"property": "C70", "status": "proved", "theorems": ["C70_outcome", "C70_accepts_exactly", "C70_shallow_never_panics"], "note": "For every JSON text, with no restriction: fate_of (ReaderFateSpec.v) is a scan over the bytes that does not mention the reader."},
{"property": "C71", "status": "proved", "theorems": ["C71_minified", "C71_written_iff_read", "C71_written_again_is_fixed", "C71_written_read_written"], "note": "For any JSON text, using fate_of (C70) to say which are read. C71_written_read_written is about ordinary, safe values (C20) whose text the reader reads."},
{"property": "C72", "status": "proved", "theorems": ["C72_text_of_any_value", "C72_compact_denotes", "C72_braces_of_json", "C72_braces_of_written", "C72_right_iff_safe", "C72_compact_iff_safe", "C72_json_iff_no_leak", "C72_json_iff_no_closing", "C72_unbalanced_is_not_json", "C72_rust_json_iff"], "note": "Exact counterpart of C20: the two refutations of C20 are the only ways an ordinary value is written wrongly, and all of them."},
{"property": "C73", "status": "partial", "theorems": ["C73_required_methods_partial", "C73_children_partial", "C73_sees_values_partial", "C73_sees_values_refuted", "C73_integers_kept"], "note": "One level for every author stream and the whole value for a recursing one. Missing: values with a tuple or record in an enum in an enum, or with an enum around something that carries no tag, which sval_nested does not handle (C35, C36); refuted for those."},
{"property": "C74", "status": "proved", "theorems": ["C74_text_collect", "C74_binary_collect", "C74_like_with_alloc", "C74_history", "C74_debug_history"], "note": "Exact outcome for every well-formed value and every history, in both builds. Simplified: a Display impl passes failures of the writer on."},
{"property": "C75", "status": "proved", "theorems": ["C75_json_size", "C75_fmt_size", "C75_buffer_size", "C75_reader_size"], "note": "SizeProps.v, SizeSpec.v. Bounds summed method by method over any run. The Debug text bound assumes that the escape of a character by core::char::escape_debug is no longer than six times its bytes (its longest, \\u{10ffff}, is ten for four)."},
{"property": "C76", "status": "partial", "theorems": ["C76_exact", "C76_own_error_partial", "C76_containers_replace_errors", "C76_same_but_for_the_error", "C76_refines", "C76_own_error_refuted"], "note": "SerdeErrModel.v keeps S::Error. The full statement is refuted; C76_exact says which error every serializer gives for every value. Here custom makes one error; its messages are in C81."},
{"property": "C77", "status": "partial", "theorems": ["C77_string", "C77_string_texts", "C77_fmt_write", "C77_io_write", "C77_invalid_key_exactly", "C77_messages", "C77_invalid_keys_are_keys_partial", "C77_invalid_keys_are_keys_refuted"], "note": "Exact kinds for every value and writer. Only the reading of an invalid key as the key of a map is false of values tagged as numbers or embedded JSON (refuted, finding 20); C77_invalid_key_exactly gives the exact condition."},
{"property": "C78", "status": "proved", "theorems": ["C78_same_outcome", "C78_text_error", "C78_bytes_error", "C78_any_text_error", "C78_any_bytes_error", "C78_buffer_error", "C78_cleared", "C78_collect_error"], "note": "With alloc. Maps and binaries appear to a text collector as sequences, records and big integers to a bytes collector as maps and texts; the theorems say so exactly."},
{"property": "C79", "status": "partial", "theorems": ["C79_error_exactly", "C79_refused_exactly", "C79_users_error_partial", "C79_direct_values", "C79_users_error_refuted", "C79_errors_of_the_crate", "C79_own_failure_ignored", "C79_nothing_streamed", "C79_unfinished_sequence", "C79_messages", "C79_out_of_order"], "note": "With alloc. The full claim C79_users_error is false of the code: an error met while the variant of an enum is handed over through value or value_computed becomes \"failed to stream value\" (C79_users_error_refuted). C79_error_exactly covers these values too and says exactly when that happens (hidden_in). C79_out_of_order gives the texts for calls out of order."},
{"property": "C80", "status": "proved", "theorems": ["C80_text", "C80_one_number", "C80_nothing_else", "C80_no_options", "C80_always_formats", "C80_width"], "note": "core::fmt (Formatter::pad_integral, padding) is modelled from its source; the Display of floats is any function of the options."},
{"property": "C81", "status": "partial", "theorems": ["C81_exact", "C81_direct_values", "C81_refines", "C81_no_other_texts", "C81_parts_exact", "C81_names_the_part_partial", "C81_names_the_part_refuted"], "note": "C81_exact: the outcome for every serializer and value, message included; tells (SerdeTextSpec.v) is the English text case by case. For children whether a variant is handed over as a value (and its message lost) is left open, at the top it is settled. C81_no_other_texts: the list of messages is complete. That the message names the part is refuted for structs only, which say \"tuple field\" (finding 23); C81_parts_exact covers them."},
{"property": "C82", "status": "partial", "theorems": ["C82_exact", "C82_written_out_partial", "C82_written_out_refuted", "C82_serde_refuses", "C82_json_partial", "C82_json_refuted"], "note": "C82_exact: the calls, for every flattened value serde could flatten except enums in Some or a newtype and values with non-empty maps inside (finding 24 and C32). C82_written_out_partial: with structs flattened they are those of the struct written out, but for the number of fields, which is not given (refuted in full); C82_serde_refuses: so sval_serde refuses every such struct. C82_json_partial: the text of serde_json; refuted in full by flattened struct variants, which lose their name. What serde_json does is specified from its source (FlatRustSpec.v), not modelled."},
{"property": "C83", "status": "partial", "theorems": ["C83_same_in_release_partial", "C83_same_in_release_refuted", "C83_shallow_texts", "C83_no_panic_no_difference", "C83_stack_exact", "C83_stack_accepts_unnested", "C83_accepted_texts_nest_refuted", "C83_accepted_texts_nest_partial", "C83_no_value"], "note": "False of the code (finding 25): without overflow checks a deep enough text whose brackets do not nest is accepted and its calls are those of no value. The same for every text whose counters do not overflow, which is decided from its bytes; in particular up to 63 levels, and whenever the checked build does not panic. C83_stack_exact says what the counters then accept."},
{"property": "C84", "status": "partial", "theorems": ["C84_same_in_release_partial", "C84_same_in_release_refuted", "C84_wraps_exactly", "C84_around_exactly", "C84_room_enough", "C84_flatten_exact", "C84_positions_go_round", "C84_strays_exactly", "C84_ends_what_nothing_began", "C84_json_broken"], "note": "False of the code (finding 26): for a tagged value around an enum, a debug build panics and a release build sends the tagged value's end to the outer stream, which nothing began; the JSON written may not be JSON (C84_json_broken). The same whenever the checked build does not panic. C84_wraps_exactly says exactly what the release build streams for every value and position, also where positions leave isize: they wrap around and stay distinct (C84_positions_go_round). Assumed: fewer than usize::MAX tagged values around the enum, and an outer stream that does not itself panic."},
{"property": "C85", "status": "proved", "theorems": ["C85_threads_safe", "C85_no_race", "C85_reads_its_text", "C85_text_stays", "C85_one_owner", "C85_nothing_leaked"], "note": "For every schedule of any number of threads. Reading or freeing a dead box, and a data race, are undefined behaviour in the model (None), and never reached; C85_no_race says it again of the recorded history, with happens-before as defined in LabelThreadSpec.v. The borrow checker is a condition on steps (may): a thread uses what it has or was lent, and gives a reference up by letting someone know who can still reach the label. Threads are sequentially consistent, which for programs without data races is all there is; a new box is written in one step."},
{"property": "C86", "status": "proved", "theorems": ["C86_never_dangles", "C86_replays", "C86_refers_to_what_was_lent", "C86_computed_is_copied", "C86_owned_needs_nothing", "C86_labels_are_own"], "note": "The borrow checker's rule is assumed: a text stays while the type of a buffer or value says it borrows it."}
]}
