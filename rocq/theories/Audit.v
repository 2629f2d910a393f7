(** What each claimed theorem depends on; generated from MANIFEST.json.  Every line of the
    output must read "Closed under the global context". *)
From Verif Require Import Tokens Ast Punctuated Print ParseUtils ParseType ParsePath ParseFn ParseItem Edit Machine Debug Lex Grammar Spelling Base Complete Complete2 Complete3 PrintSpells Sound Sound2 Safe Unfold Stable Lossy LossyProof Samples PropRoundTrip PathSpec PathProof ScanSpec PropScan PropPath PropErr PropPunct PropShape PropLimits PropEdit PropAccess PropDebug Blind PropBlind PropMore PropDerive PropReject PropCompose PropCommas PropOpaque RustSyntax RustAny PropRust PropRustPath PropRustDerive PropSubst PropLists PropBounds PropShown PropValue PropAny PropMisread PropDeriveInput PropNested PropPanics PropDocs PropMissing PropRename PropDecorate PropViable PropAssemble Imp PropErase PropCost PropReads DebugText PropText Blame PropBlame PropInside PropContent PropBodies PropMessage PropSign PropFill PropIndep PropTriple RepoTests DocTests.

Print Assumptions C01_print_parse_identity.
Print Assumptions C01_print_parse_iff.
Print Assumptions C01_print_consume.
Print Assumptions C02_parsed_shape.
Print Assumptions C02_parse_item_shape.
Print Assumptions C02_grammar.
Print Assumptions C03_reparse_identity.
Print Assumptions C03_reparse_identity_iff.
Print Assumptions C03_two_exceptions_refuted.
Print Assumptions C04_reprint_lossy.
Print Assumptions C05_exact_round_trip.
Print Assumptions C05_exact_round_trip_iff.
Print Assumptions C06_lossless_refuted.
Print Assumptions C07_err_consumes_prefix.
Print Assumptions C07_consumes_prefix.
Print Assumptions C08_parse_item_ret.
Print Assumptions C08_parse_item_panic.
Print Assumptions C09_terminates.
Print Assumptions C09_depth_irrelevant.
Print Assumptions C09_recursion_equation.
Print Assumptions C09_recursion_equation_either.
Print Assumptions C10_no_impossible_panic.
Print Assumptions C11_err_iff.
Print Assumptions C12_reads_total.
Print Assumptions C12_module_members.
Print Assumptions C12_no_err_from_module.
Print Assumptions C12_complex_discriminant_in_module.
Print Assumptions C13_run.
Print Assumptions C13_run_must.
Print Assumptions C13_run_must_panics.
Print Assumptions C13_unique.
Print Assumptions C13_exists.
Print Assumptions C14_field_type.
Print Assumptions C14_tuple_struct.
Print Assumptions C14_named_struct.
Print Assumptions C15_sequence.
Print Assumptions C15_deterministic.
Print Assumptions C15_sequence_simple.
Print Assumptions C16_keyword_decides.
Print Assumptions C16_no_identifier_panics.
Print Assumptions C17_attributes.
Print Assumptions C18_visibilities.
Print Assumptions C18_item_visibility.
Print Assumptions C18_debug_never_panics.
Print Assumptions C19_crate_path_refuted.
Print Assumptions C19_no_private_crate_type.
Print Assumptions C19_crate_is_visibility.
Print Assumptions C20_pub_tuple_refuted.
Print Assumptions C20_pub_tuple_panics.
Print Assumptions C21_static_mut_refuted.
Print Assumptions C21_static_mut_panics.
Print Assumptions C21_mut_is_the_name.
Print Assumptions C22_typed_self_refuted.
Print Assumptions C22_typed_self_panics.
Print Assumptions C23_path_on_the_left_refuted.
Print Assumptions C23_left_has_no_colon.
Print Assumptions C24_arrow_in_bound_refuted.
Print Assumptions C24_no_arrow_in_bound.
Print Assumptions C25_separate_constants_refuted.
Print Assumptions C25_plain_constants.
Print Assumptions C26_function_shape.
Print Assumptions C26_parameters.
Print Assumptions C27_module_shape.
Print Assumptions C28_impl_shape.
Print Assumptions C29_underscore_refuted.
Print Assumptions C29_extern_crate.
Print Assumptions C30_no_static_member.
Print Assumptions C30_extern_static.
Print Assumptions C31_push_all.
Print Assumptions C31_print_pushes.
Print Assumptions C31_print_push.
Print Assumptions C32_insert_panics_iff.
Print Assumptions C32_insert.
Print Assumptions C32_insert_at_end_is_push.
Print Assumptions C33_print_alternates.
Print Assumptions C33_lengths.
Print Assumptions C33_determined.
Print Assumptions C34_with_param.
Print Assumptions C34_reparse.
Print Assumptions C34_printed.
Print Assumptions C35_with_where.
Print Assumptions C35_reparse.
Print Assumptions C35_unfinished_refuted.
Print Assumptions C36_derive.
Print Assumptions C36_reads_back.
Print Assumptions C37_owned_args.
Print Assumptions C37_prefixes.
Print Assumptions C37_inline_args.
Print Assumptions C38_partition.
Print Assumptions C38_parsed.
Print Assumptions C39_lengths.
Print Assumptions C39_tuple.
Print Assumptions C39_named.
Print Assumptions C40_is_c_enum.
Print Assumptions C40_get_single_type.
Print Assumptions C41_attributes_lens.
Print Assumptions C41_attributes_frame.
Print Assumptions C41_attributes_reparse.
Print Assumptions C41_generics_lens.
Print Assumptions C41_generics_available.
Print Assumptions C41_generics_frame.
Print Assumptions C42_name.
Print Assumptions C43_one_accessor.
Print Assumptions C43_accessor_kind.
Print Assumptions C44_as_path_print.
Print Assumptions C44_as_path_iff.
Print Assumptions C44_as_path_tokens.
Print Assumptions C45_as_path_total_refuted.
Print Assumptions C45_no_panic_without_angle.
Print Assumptions C45_none_iff.
Print Assumptions C46_separator_spacing_refuted.
Print Assumptions C46_separators.
Print Assumptions C47_invisible_group.
Print Assumptions C47_two_groups.
Print Assumptions C48_keeps_tokens.
Print Assumptions C48_panics_iff.
Print Assumptions C49_parser_errors.
Print Assumptions C49_never_panics.
Print Assumptions C49_combine.
Print Assumptions C49_one_invocation_per_message.
Print Assumptions C50_locations.
Print Assumptions C50_span.
Print Assumptions C51_span.
Print Assumptions C51_item.
Print Assumptions C52_single_segment.
Print Assumptions C52_value.
Print Assumptions C53_all_commas_refuted.
Print Assumptions C53_one_comma_dropped.
Print Assumptions C53_round_trip.
Print Assumptions C54_pure_consumers.
Print Assumptions C54_consumers.
Print Assumptions C54_extern_refuted.
Print Assumptions C54_extern_crate.
Print Assumptions C54_extern_block.
Print Assumptions C55_given_comma_used_refuted.
Print Assumptions C55_stored_comma.
Print Assumptions C56_constructors.
Print Assumptions C56_survive.
Print Assumptions C57_parse.
Print Assumptions C57_panics.
Print Assumptions C58_one_predicate_refuted.
Print Assumptions C58_one_predicate_iff.
Print Assumptions C59_debug_iff.
Print Assumptions C59_parsed.
Print Assumptions C60_lifetime.
Print Assumptions C60_bounded_lifetime_refuted.
Print Assumptions C61_debug.
Print Assumptions C61_faithful.
Print Assumptions C62_consume.
Print Assumptions C62_parse.
Print Assumptions C62_print.
Print Assumptions C62_skeleton.
Print Assumptions C63_prefix.
Print Assumptions C63_injective.
Print Assumptions C63_sequence.
Print Assumptions C63_unstable_collide.
Print Assumptions C64_ok.
Print Assumptions C64_err.
Print Assumptions C64_self_delimiting.
Print Assumptions C65_code_opaque.
Print Assumptions C65_only_code.
Print Assumptions C65_body.
Print Assumptions C66_decorate.
Print Assumptions C66_covers.
Print Assumptions C67_derive.
Print Assumptions C68_total.
Print Assumptions C68_result.
Print Assumptions C68_reparse.
Print Assumptions C68_commute.
Print Assumptions C69_generic_default.
Print Assumptions C69_pattern_param.
Print Assumptions C69_bracket_macro.
Print Assumptions C69_not_an_item.
Print Assumptions C69_keyword_macro.
Print Assumptions C69_type_alias_generics.
Print Assumptions C69_trait_alias.
Print Assumptions C69_stray_token.
Print Assumptions C70_item.
Print Assumptions C70_named_field.
Print Assumptions C70_tuple_field.
Print Assumptions C71_impl.
Print Assumptions C71_trait.
Print Assumptions C71_extern_block.
Print Assumptions C71_module.
Print Assumptions C72_drop.
Print Assumptions C72_add.
Print Assumptions C72_elements.
Print Assumptions C72_open_angle.
Print Assumptions C73_contents_opaque.
Print Assumptions C73_pasted_field.
Print Assumptions C74_rust_items.
Print Assumptions C74_rust_files.
Print Assumptions C74_no_error.
Print Assumptions C75_inherent_refuted.
Print Assumptions C75_inherent.
Print Assumptions C75_trait.
Print Assumptions C76_paths.
Print Assumptions C76_paths_are_rust.
Print Assumptions C76_others.
Print Assumptions C76_total.
Print Assumptions C76_object_of_global_path.
Print Assumptions C76_only_paths_refuted.
Print Assumptions C77_with_param.
Print Assumptions C77_with_where.
Print Assumptions C77_chains.
Print Assumptions C77_params.
Print Assumptions C77_predicate.
Print Assumptions C77_inline_args.
Print Assumptions C77_owned_args.
Print Assumptions C77_derive_where.
Print Assumptions C77_derive.
Print Assumptions C78_substitute.
Print Assumptions C78_fragment.
Print Assumptions C78_wrap.
Print Assumptions C79_variants.
Print Assumptions C79_union_fields.
Print Assumptions C79_named_fields.
Print Assumptions C79_tuple_fields.
Print Assumptions C79_params.
Print Assumptions C80_calls.
Print Assumptions C80_after_item.
Print Assumptions C80_instead.
Print Assumptions C80_in_impl.
Print Assumptions C80_in_trait.
Print Assumptions C81_panics_iff.
Print Assumptions C81_names.
Print Assumptions C81_illegal.
Print Assumptions C81_rebuilt.
Print Assumptions C81_rebuilt_refuted.
Print Assumptions C82_in_range.
Print Assumptions C82_out_of_range.
Print Assumptions C83_depth.
Print Assumptions C84_determines.
Print Assumptions C84_no_spans.
Print Assumptions C84_wrappers.
Print Assumptions C84_literal_refuted.
Print Assumptions C84_text_refuted.
Print Assumptions C85_value.
Print Assumptions C85_less_panics.
Print Assumptions C85_greater_panics.
Print Assumptions C85_shift_refuted.
Print Assumptions C86_exactly.
Print Assumptions C86_restricts.
Print Assumptions C86_needed.
Print Assumptions C87_never_misread.
Print Assumptions C87_exact_or_panic.
Print Assumptions C87_clean_refuted.
Print Assumptions C87_fragment_clean.
Print Assumptions C88_exactly_these.
Print Assumptions C88_documented_refuted.
Print Assumptions C89_never_misread.
Print Assumptions C89_exact_or_panic.
Print Assumptions C89_fragment_tidy.
Print Assumptions C89_calm_refuted.
Print Assumptions C90_reachable.
Print Assumptions C90_path.
Print Assumptions C90_predicate.
Print Assumptions C90_dead.
Print Assumptions C91_macro.
Print Assumptions C91_declared_name_refuted.
Print Assumptions C91_constant.
Print Assumptions C91_equals_refuted.
Print Assumptions C91_type_alias.
Print Assumptions C91_params.
Print Assumptions C91_receiver_refuted.
Print Assumptions C91_path_separators.
Print Assumptions C92_final.
Print Assumptions C92_missing.
Print Assumptions C92_prefix.
Print Assumptions C93_rename.
Print Assumptions C93_names.
Print Assumptions C93_identity.
Print Assumptions C93_twice.
Print Assumptions C94_decorate.
Print Assumptions C94_places.
Print Assumptions C94_identity.
Print Assumptions C94_strip.
Print Assumptions C94_publish.
Print Assumptions C95_verdict.
Print Assumptions C95_repair.
Print Assumptions C95_first.
Print Assumptions C96_assemble.
Print Assumptions C96_pushed.
Print Assumptions C96_remove.
Print Assumptions C96_remove_any.
Print Assumptions C97_consume_item.
Print Assumptions C97_parse_item.
Print Assumptions C97_consume_path.
Print Assumptions C98_consume_item.
Print Assumptions C98_parse_item.
Print Assumptions C98_consume_path.
Print Assumptions C98_reads_item.
Print Assumptions C98_reads.
Print Assumptions C98_reads_path.
Print Assumptions C99_linear_refuted.
Print Assumptions C99_quadratic.
Print Assumptions C99_parse_item_quadratic.
Print Assumptions C99_consume_path_quadratic.
Print Assumptions C99_quadratic_reached.
Print Assumptions C100_origin.
Print Assumptions C100_path.
Print Assumptions C100_silent.
Print Assumptions C101_blame.
Print Assumptions C101_early.
Print Assumptions C101_trailing.
Print Assumptions C101_rule_refuted.
Print Assumptions C101_params.
Print Assumptions C101_variants.
Print Assumptions C101_named.
Print Assumptions C101_tuple.
Print Assumptions C101_path.
Print Assumptions C102_text.
Print Assumptions C102_items.
Print Assumptions C103_bodies.
Print Assumptions C103_params.
Print Assumptions C103_tuple.
Print Assumptions C103_named.
Print Assumptions C103_variants.
Print Assumptions C103_params_blame.
Print Assumptions C103_named_blame.
Print Assumptions C103_tuple_blame.
Print Assumptions C103_variants_blame.
Print Assumptions C103_module.
Print Assumptions C103_impl_open.
Print Assumptions C104_form.
Print Assumptions C104_form_item.
Print Assumptions C104_form_path.
Print Assumptions C104_tells.
Print Assumptions C104_token.
Print Assumptions C104_confusion.
Print Assumptions C104_site_refuted.
Print Assumptions C104_exact.
Print Assumptions C104_exact_member.
Print Assumptions C105_print.
Print Assumptions C105_parse.
Print Assumptions C105_fixed.
Print Assumptions C105_parsed.
Print Assumptions C105_discriminant.
Print Assumptions C105_stored.
Print Assumptions C105_lost.
Print Assumptions C106_fill.
Print Assumptions C106_runs.
Print Assumptions C106_same.
Print Assumptions C106_identity.
Print Assumptions C106_twice.
Print Assumptions C106_skeleton.
Print Assumptions C106_replace.
Print Assumptions C106_rust_type.
Print Assumptions C106_rust_bounds.
Print Assumptions C107_commute.
Print Assumptions C107_runs.
Print Assumptions C107_names.
Print Assumptions C107_both.
Print Assumptions C107_alone.
Print Assumptions C107_visibility.
Print Assumptions C108_attributes_runs.
Print Assumptions C108_attributes_names.
Print Assumptions C108_names.
Print Assumptions C108_runs.
Print Assumptions C108_three.
Print Assumptions C108_visibility.
