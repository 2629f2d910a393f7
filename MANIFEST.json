{
 "claims": [
  {
   "property": "C01",
   "status": "proved",
   "theorems": [
    "C01_print_parse_identity",
    "C01_print_parse_iff",
    "C01_print_consume"
   ],
   "note": ""
  },
  {
   "property": "C02",
   "status": "proved",
   "theorems": [
    "C02_parsed_shape",
    "C02_parse_item_shape",
    "C02_grammar"
   ],
   "note": ""
  },
  {
   "property": "C03",
   "status": "partial",
   "theorems": [
    "C03_reparse_identity",
    "C03_reparse_identity_iff",
    "C03_two_exceptions_refuted"
   ],
   "note": "REFUTED as first stated (witness: two more printing anomalies besides the ones listed). Positive part proved as an equivalence: re-parsing the reprint gives the same item exactly when stable_item holds."
  },
  {
   "property": "C04",
   "status": "proved",
   "theorems": [
    "C04_reprint_lossy"
   ],
   "note": ""
  },
  {
   "property": "C05",
   "status": "proved",
   "theorems": [
    "C05_exact_round_trip",
    "C05_exact_round_trip_iff"
   ],
   "note": ""
  },
  {
   "property": "C06",
   "status": "partial",
   "theorems": [
    "C06_lossless_refuted"
   ],
   "note": "REFUTED by witness: printing is not lossless. The exact set of edits a reprint may make is C04."
  },
  {
   "property": "C07",
   "status": "proved",
   "theorems": [
    "C07_err_consumes_prefix",
    "C07_consumes_prefix"
   ],
   "note": ""
  },
  {
   "property": "C08",
   "status": "proved",
   "theorems": [
    "C08_parse_item_ret",
    "C08_parse_item_panic"
   ],
   "note": ""
  },
  {
   "property": "C09",
   "status": "proved",
   "theorems": [
    "C09_terminates",
    "C09_depth_irrelevant",
    "C09_recursion_equation",
    "C09_recursion_equation_either"
   ],
   "note": ""
  },
  {
   "property": "C10",
   "status": "proved",
   "theorems": [
    "C10_no_impossible_panic"
   ],
   "note": ""
  },
  {
   "property": "C11",
   "status": "proved",
   "theorems": [
    "C11_err_iff"
   ],
   "note": ""
  },
  {
   "property": "C12",
   "status": "proved",
   "theorems": [
    "C12_reads_total",
    "C12_module_members",
    "C12_no_err_from_module",
    "C12_complex_discriminant_in_module"
   ],
   "note": ""
  },
  {
   "property": "C13",
   "status": "proved",
   "theorems": [
    "C13_run",
    "C13_run_must",
    "C13_run_must_panics",
    "C13_unique",
    "C13_exists"
   ],
   "note": ""
  },
  {
   "property": "C14",
   "status": "proved",
   "theorems": [
    "C14_field_type",
    "C14_tuple_struct",
    "C14_named_struct"
   ],
   "note": ""
  },
  {
   "property": "C15",
   "status": "proved",
   "theorems": [
    "C15_sequence",
    "C15_deterministic",
    "C15_sequence_simple"
   ],
   "note": ""
  },
  {
   "property": "C16",
   "status": "proved",
   "theorems": [
    "C16_keyword_decides",
    "C16_no_identifier_panics"
   ],
   "note": ""
  },
  {
   "property": "C17",
   "status": "proved",
   "theorems": [
    "C17_attributes"
   ],
   "note": ""
  },
  {
   "property": "C18",
   "status": "proved",
   "theorems": [
    "C18_visibilities",
    "C18_item_visibility",
    "C18_debug_never_panics"
   ],
   "note": ""
  },
  {
   "property": "C19",
   "status": "partial",
   "theorems": [
    "C19_crate_path_refuted",
    "C19_no_private_crate_type",
    "C19_crate_is_visibility"
   ],
   "note": "REFUTED by witness `struct S(crate::Foo);`. Proved instead: a leading crate is always the visibility, for every continuation, and no private tuple field at any depth has a type starting with crate or pub."
  },
  {
   "property": "C20",
   "status": "partial",
   "theorems": [
    "C20_pub_tuple_refuted",
    "C20_pub_tuple_panics"
   ],
   "note": "REFUTED by witness. Proved instead: `pub (..)` followed by a comma or nothing panics for every content."
  },
  {
   "property": "C21",
   "status": "partial",
   "theorems": [
    "C21_static_mut_refuted",
    "C21_static_mut_panics",
    "C21_mut_is_the_name"
   ],
   "note": "REFUTED by witness (the documented form panics). Proved instead: every `static mut x ..` panics; tk_mut is set exactly when the constant is named mut."
  },
  {
   "property": "C22",
   "status": "partial",
   "theorems": [
    "C22_typed_self_refuted",
    "C22_typed_self_panics"
   ],
   "note": "REFUTED by witness. Proved instead: self followed by a colon panics with any combination of &, lifetime and mut and any continuation."
  },
  {
   "property": "C23",
   "status": "partial",
   "theorems": [
    "C23_path_on_the_left_refuted",
    "C23_left_has_no_colon"
   ],
   "note": "REFUTED by witness. Proved instead: no parsed left side, at any depth, has a colon outside angle brackets."
  },
  {
   "property": "C24",
   "status": "partial",
   "theorems": [
    "C24_arrow_in_bound_refuted",
    "C24_no_arrow_in_bound"
   ],
   "note": "REFUTED by witness. Proved instead: no parsed parameter bound, at any depth, has a `>` outside angle brackets."
  },
  {
   "property": "C25",
   "status": "partial",
   "theorems": [
    "C25_separate_constants_refuted",
    "C25_plain_constants"
   ],
   "note": "REFUTED by witness. Proved instead: sequences of constants without angle brackets or semicolons in type and initialiser are read back one by one, exactly."
  },
  {
   "property": "C26",
   "status": "proved",
   "theorems": [
    "C26_function_shape",
    "C26_parameters"
   ],
   "note": ""
  },
  {
   "property": "C27",
   "status": "proved",
   "theorems": [
    "C27_module_shape"
   ],
   "note": ""
  },
  {
   "property": "C28",
   "status": "proved",
   "theorems": [
    "C28_impl_shape"
   ],
   "note": ""
  },
  {
   "property": "C29",
   "status": "partial",
   "theorems": [
    "C29_underscore_refuted",
    "C29_extern_crate"
   ],
   "note": "REFUTED by witness, and for every input: tk_underscore is never set. An alias is present exactly when `as` is."
  },
  {
   "property": "C30",
   "status": "proved",
   "theorems": [
    "C30_no_static_member",
    "C30_extern_static"
   ],
   "note": ""
  },
  {
   "property": "C31",
   "status": "proved",
   "theorems": [
    "C31_push_all",
    "C31_print_pushes",
    "C31_print_push"
   ],
   "note": ""
  },
  {
   "property": "C32",
   "status": "proved",
   "theorems": [
    "C32_insert_panics_iff",
    "C32_insert",
    "C32_insert_at_end_is_push"
   ],
   "note": ""
  },
  {
   "property": "C33",
   "status": "proved",
   "theorems": [
    "C33_print_alternates",
    "C33_lengths",
    "C33_determined"
   ],
   "note": ""
  },
  {
   "property": "C34",
   "status": "proved",
   "theorems": [
    "C34_with_param",
    "C34_reparse",
    "C34_printed"
   ],
   "note": ""
  },
  {
   "property": "C35",
   "status": "partial",
   "theorems": [
    "C35_with_where",
    "C35_reparse",
    "C35_unfinished_refuted"
   ],
   "note": "REFUTED by witness for a tuple struct without a semicolon (struct S<T>(T)). Proved: exactly one predicate is appended and nothing else changes, and the result reparses iff the item is not such a struct."
  },
  {
   "property": "C36",
   "status": "proved",
   "theorems": [
    "C36_derive",
    "C36_reads_back"
   ],
   "note": ""
  },
  {
   "property": "C37",
   "status": "proved",
   "theorems": [
    "C37_owned_args",
    "C37_prefixes",
    "C37_inline_args"
   ],
   "note": ""
  },
  {
   "property": "C38",
   "status": "proved",
   "theorems": [
    "C38_partition",
    "C38_parsed"
   ],
   "note": ""
  },
  {
   "property": "C39",
   "status": "proved",
   "theorems": [
    "C39_lengths",
    "C39_tuple",
    "C39_named"
   ],
   "note": ""
  },
  {
   "property": "C40",
   "status": "proved",
   "theorems": [
    "C40_is_c_enum",
    "C40_get_single_type"
   ],
   "note": ""
  },
  {
   "property": "C41",
   "status": "proved",
   "theorems": [
    "C41_attributes_lens",
    "C41_attributes_frame",
    "C41_attributes_reparse",
    "C41_generics_lens",
    "C41_generics_available",
    "C41_generics_frame"
   ],
   "note": ""
  },
  {
   "property": "C42",
   "status": "proved",
   "theorems": [
    "C42_name"
   ],
   "note": ""
  },
  {
   "property": "C43",
   "status": "proved",
   "theorems": [
    "C43_one_accessor",
    "C43_accessor_kind"
   ],
   "note": ""
  },
  {
   "property": "C44",
   "status": "proved",
   "theorems": [
    "C44_as_path_print",
    "C44_as_path_iff",
    "C44_as_path_tokens"
   ],
   "note": ""
  },
  {
   "property": "C45",
   "status": "partial",
   "theorems": [
    "C45_as_path_total_refuted",
    "C45_no_panic_without_angle",
    "C45_none_iff"
   ],
   "note": "REFUTED by witness: as_path panics on some single-angle inputs. Positive part proved: no panic without an opening angle bracket, and None exactly when no path is read."
  },
  {
   "property": "C46",
   "status": "partial",
   "theorems": [
    "C46_separator_spacing_refuted",
    "C46_separators"
   ],
   "note": "REFUTED by witness: a joint second colon is not taken as a path separator. Positive part proved: the exact spacing of the separators accepted."
  },
  {
   "property": "C47",
   "status": "proved",
   "theorems": [
    "C47_invisible_group",
    "C47_two_groups"
   ],
   "note": ""
  },
  {
   "property": "C48",
   "status": "proved",
   "theorems": [
    "C48_keeps_tokens",
    "C48_panics_iff"
   ],
   "note": ""
  },
  {
   "property": "C49",
   "status": "proved",
   "theorems": [
    "C49_parser_errors",
    "C49_never_panics",
    "C49_combine",
    "C49_one_invocation_per_message"
   ],
   "note": ""
  },
  {
   "property": "C50",
   "status": "proved",
   "theorems": [
    "C50_locations",
    "C50_span"
   ],
   "note": ""
  },
  {
   "property": "C51",
   "status": "proved",
   "theorems": [
    "C51_span",
    "C51_item"
   ],
   "note": ""
  },
  {
   "property": "C52",
   "status": "proved",
   "theorems": [
    "C52_single_segment",
    "C52_value"
   ],
   "note": ""
  },
  {
   "property": "C53",
   "status": "partial",
   "theorems": [
    "C53_all_commas_refuted",
    "C53_one_comma_dropped",
    "C53_round_trip"
   ],
   "note": "REFUTED by witness: one of two commas is dropped in generic arguments. Positive part proved: the exact class where the arguments are reprinted unchanged, and what is dropped otherwise."
  },
  {
   "property": "C54",
   "status": "partial",
   "theorems": [
    "C54_pure_consumers",
    "C54_consumers",
    "C54_extern_refuted",
    "C54_extern_crate",
    "C54_extern_block"
   ],
   "note": "REFUTED by witness for consume_extern_crate and consume_extern_block, whose leftovers are described exactly. Proved for every other optional-syntax consumer."
  },
  {
   "property": "C55",
   "status": "partial",
   "theorems": [
    "C55_given_comma_used_refuted",
    "C55_stored_comma"
   ],
   "note": "REFUTED by witness. Proved instead: which comma is stored, for every valid index."
  },
  {
   "property": "C56",
   "status": "proved",
   "theorems": [
    "C56_constructors",
    "C56_survive"
   ],
   "note": ""
  },
  {
   "property": "C57",
   "status": "proved",
   "theorems": [
    "C57_parse",
    "C57_panics"
   ],
   "note": ""
  },
  {
   "property": "C58",
   "status": "partial",
   "theorems": [
    "C58_one_predicate_refuted",
    "C58_one_predicate_iff"
   ],
   "note": "REFUTED by witness (T: A, U: B). Proved instead: exactly when the predicate stays one predicate."
  },
  {
   "property": "C59",
   "status": "proved",
   "theorems": [
    "C59_debug_iff",
    "C59_parsed"
   ],
   "note": ""
  },
  {
   "property": "C60",
   "status": "partial",
   "theorems": [
    "C60_lifetime",
    "C60_bounded_lifetime_refuted"
   ],
   "note": "REFUTED for bounded_lifetime, for every name and bound: its apostrophe has Spacing::Alone. Proved for lifetime."
  },
  {
   "property": "C61",
   "status": "proved",
   "theorems": [
    "C61_debug",
    "C61_faithful"
   ],
   "note": ""
  },
  {
   "property": "C62",
   "status": "proved",
   "theorems": [
    "C62_consume",
    "C62_parse",
    "C62_print",
    "C62_skeleton"
   ],
   "note": ""
  },
  {
   "property": "C63",
   "status": "proved",
   "theorems": [
    "C63_prefix",
    "C63_injective",
    "C63_sequence",
    "C63_unstable_collide"
   ],
   "note": ""
  },
  {
   "property": "C64",
   "status": "proved",
   "theorems": [
    "C64_ok",
    "C64_err",
    "C64_self_delimiting"
   ],
   "note": ""
  },
  {
   "property": "C65",
   "status": "proved",
   "theorems": [
    "C65_code_opaque",
    "C65_only_code",
    "C65_body"
   ],
   "note": ""
  },
  {
   "property": "C66",
   "status": "proved",
   "theorems": [
    "C66_decorate",
    "C66_covers"
   ],
   "note": ""
  },
  {
   "property": "C67",
   "status": "proved",
   "theorems": [
    "C67_derive"
   ],
   "note": ""
  },
  {
   "property": "C68",
   "status": "proved",
   "theorems": [
    "C68_total",
    "C68_result",
    "C68_reparse",
    "C68_commute"
   ],
   "note": ""
  },
  {
   "property": "C69",
   "status": "proved",
   "theorems": [
    "C69_generic_default",
    "C69_pattern_param",
    "C69_bracket_macro",
    "C69_not_an_item",
    "C69_keyword_macro",
    "C69_type_alias_generics",
    "C69_trait_alias",
    "C69_stray_token"
   ],
   "note": ""
  },
  {
   "property": "C70",
   "status": "proved",
   "theorems": [
    "C70_item",
    "C70_named_field",
    "C70_tuple_field"
   ],
   "note": ""
  },
  {
   "property": "C71",
   "status": "proved",
   "theorems": [
    "C71_impl",
    "C71_trait",
    "C71_extern_block",
    "C71_module"
   ],
   "note": ""
  },
  {
   "property": "C72",
   "status": "proved",
   "theorems": [
    "C72_drop",
    "C72_add",
    "C72_elements",
    "C72_open_angle"
   ],
   "note": ""
  },
  {
   "property": "C73",
   "status": "proved",
   "theorems": [
    "C73_contents_opaque",
    "C73_pasted_field"
   ],
   "note": ""
  },
  {
   "property": "C74",
   "status": "proved",
   "theorems": [
    "C74_rust_items",
    "C74_rust_files",
    "C74_no_error"
   ],
   "note": ""
  },
  {
   "property": "C75",
   "status": "partial",
   "theorems": [
    "C75_inherent_refuted",
    "C75_inherent",
    "C75_trait"
   ],
   "note": "REFUTED by witness (impl dyn for<'a> Tr<'a> {}). Proved for types without a top-level for, and for trait headers."
  },
  {
   "property": "C76",
   "status": "partial",
   "theorems": [
    "C76_paths",
    "C76_paths_are_rust",
    "C76_others",
    "C76_total",
    "C76_object_of_global_path",
    "C76_only_paths_refuted"
   ],
   "note": "REFUTED by witness (dyn ::std::Any is reported as a path starting with `dyn`), and shown to happen for every dyn/impl object of a global path. Proved for all paths and for all other types of the fragment."
  },
  {
   "property": "C77",
   "status": "proved",
   "theorems": [
    "C77_with_param",
    "C77_with_where",
    "C77_chains",
    "C77_params",
    "C77_predicate",
    "C77_inline_args",
    "C77_owned_args",
    "C77_derive_where",
    "C77_derive"
   ],
   "note": ""
  },
  {
   "property": "C78",
   "status": "proved",
   "theorems": [
    "C78_substitute",
    "C78_fragment",
    "C78_wrap"
   ],
   "note": ""
  },
  {
   "property": "C79",
   "status": "proved",
   "theorems": [
    "C79_variants",
    "C79_union_fields",
    "C79_named_fields",
    "C79_tuple_fields",
    "C79_params"
   ],
   "note": ""
  },
  {
   "property": "C80",
   "status": "proved",
   "theorems": [
    "C80_calls",
    "C80_after_item",
    "C80_instead",
    "C80_in_impl",
    "C80_in_trait"
   ],
   "note": ""
  },
  {
   "property": "C81",
   "status": "partial",
   "theorems": [
    "C81_panics_iff",
    "C81_names",
    "C81_illegal",
    "C81_rebuilt",
    "C81_rebuilt_refuted"
   ],
   "note": "REFUTED for raw names by witness (struct S<r#type>). Proved for plain names, with the exact panic condition of the constructors. ASCII names only."
  },
  {
   "property": "C82",
   "status": "proved",
   "theorems": [
    "C82_in_range",
    "C82_out_of_range"
   ],
   "note": ""
  },
  {
   "property": "C83",
   "status": "proved",
   "theorems": [
    "C83_depth"
   ],
   "note": ""
  },
  {
   "property": "C84",
   "status": "partial",
   "theorems": [
    "C84_determines",
    "C84_no_spans",
    "C84_wrappers",
    "C84_literal_refuted",
    "C84_text_refuted"
   ],
   "note": "REFUTED by witness for the literal \"+\" against the character +, and on the level of text for pub() against pub. Proved on the tree given to the formatter for tokens without such literals; independence of spans proved without conditions."
  },
  {
   "property": "C85",
   "status": "partial",
   "theorems": [
    "C85_value",
    "C85_less_panics",
    "C85_greater_panics",
    "C85_shift_refuted"
   ],
   "note": "REFUTED by witness (const FLAG: u32 = 1 << 3;). Proved: the value is read exactly if its angle brackets match, and the declaration panics otherwise."
  },
  {
   "property": "C86",
   "status": "proved",
   "theorems": [
    "C86_exactly",
    "C86_restricts",
    "C86_needed"
   ],
   "note": ""
  },
  {
   "property": "C87",
   "status": "partial",
   "theorems": [
    "C87_never_misread",
    "C87_exact_or_panic",
    "C87_clean_refuted",
    "C87_fragment_clean"
   ],
   "note": "Proved for all flat items with clean where clauses and tuple fields. REFUTED without these conditions and for impl blocks, by witnesses (fn f() where T::A: Copy {}, struct S(crate::A);, impl for<'a> fn(&'a u8) {})."
  },
  {
   "property": "C88",
   "status": "partial",
   "theorems": [
    "C88_exactly_these",
    "C88_documented_refuted"
   ],
   "note": "The documented claim is REFUTED by `struct S<F: Fn(u8) -> u8> { f: F }`. Proved: the exact set of type declarations that panic, and that all others are parsed and print the same tokens."
  },
  {
   "property": "C89",
   "status": "partial",
   "theorems": [
    "C89_never_misread",
    "C89_exact_or_panic",
    "C89_fragment_tidy",
    "C89_calm_refuted"
   ],
   "note": "Proved under the stated conditions. The version without the condition on values of constants is refuted by a witness: two constants of a module are read as one."
  },
  {
   "property": "C90",
   "status": "proved",
   "theorems": [
    "C90_reachable",
    "C90_path",
    "C90_predicate",
    "C90_dead"
   ],
   "note": ""
  },
  {
   "property": "C91",
   "status": "partial",
   "theorems": [
    "C91_macro",
    "C91_declared_name_refuted",
    "C91_constant",
    "C91_equals_refuted",
    "C91_type_alias",
    "C91_params",
    "C91_receiver_refuted",
    "C91_path_separators"
   ],
   "note": "The invariants are proved for all parsed items. Three statements of the documentation are refuted by a witness each: tk_declared_name outside of macro_rules, tk_equals without a value, and receivers with a lifetime."
  },
  {
   "property": "C92",
   "status": "proved",
   "theorems": [
    "C92_final",
    "C92_missing",
    "C92_prefix"
   ],
   "note": ""
  },
  {
   "property": "C93",
   "status": "proved",
   "theorems": [
    "C93_rename",
    "C93_names",
    "C93_identity",
    "C93_twice"
   ],
   "note": ""
  },
  {
   "property": "C94",
   "status": "proved",
   "theorems": [
    "C94_decorate",
    "C94_places",
    "C94_identity",
    "C94_strip",
    "C94_publish"
   ],
   "note": ""
  },
  {
   "property": "C95",
   "status": "proved",
   "theorems": [
    "C95_verdict",
    "C95_repair",
    "C95_first"
   ],
   "note": ""
  },
  {
   "property": "C96",
   "status": "proved",
   "theorems": [
    "C96_assemble",
    "C96_pushed",
    "C96_remove",
    "C96_remove_any"
   ],
   "note": ""
  },
  {
   "property": "C97",
   "status": "proved",
   "theorems": [
    "C97_consume_item",
    "C97_parse_item",
    "C97_consume_path"
   ],
   "note": ""
  },
  {
   "property": "C98",
   "status": "proved",
   "theorems": [
    "C98_consume_item",
    "C98_parse_item",
    "C98_consume_path",
    "C98_reads_item",
    "C98_reads",
    "C98_reads_path"
   ],
   "note": ""
  },
  {
   "property": "C99",
   "status": "partial",
   "theorems": [
    "C99_linear_refuted",
    "C99_quadratic",
    "C99_parse_item_quadratic",
    "C99_consume_path_quadratic",
    "C99_quadratic_reached"
   ],
   "note": "The linear bound is REFUTED by modules of n functions. Proved: the quadratic upper bound for all inputs, and that it is reached."
  },
  {
   "property": "C100",
   "status": "proved",
   "theorems": [
    "C100_origin",
    "C100_path",
    "C100_silent"
   ],
   "note": ""
  },
  {
   "property": "C101",
   "status": "partial",
   "theorems": [
    "C101_blame",
    "C101_early",
    "C101_trailing",
    "C101_rule_refuted",
    "C101_params",
    "C101_variants",
    "C101_named",
    "C101_tuple",
    "C101_path"
   ],
   "note": "The rule without exceptions is REFUTED by a witness. Proved: exactly two exceptions are possible, plus the cases of input that ends too early and of trailing tokens."
  },
  {
   "property": "C102",
   "status": "proved",
   "theorems": [
    "C102_text",
    "C102_items"
   ],
   "note": ""
  },
  {
   "property": "C103",
   "status": "proved",
   "theorems": [
    "C103_bodies",
    "C103_params",
    "C103_tuple",
    "C103_named",
    "C103_variants",
    "C103_params_blame",
    "C103_named_blame",
    "C103_tuple_blame",
    "C103_variants_blame",
    "C103_module",
    "C103_impl_open"
   ],
   "note": ""
  },
  {
   "property": "C104",
   "status": "partial",
   "theorems": [
    "C104_form",
    "C104_form_item",
    "C104_form_path",
    "C104_tells",
    "C104_token",
    "C104_confusion",
    "C104_site_refuted",
    "C104_exact",
    "C104_exact_member"
   ],
   "note": "That a text belongs to one site is REFUTED by a witness. Proved: the form of every message, the only two ways in which sites share a text, and that the text determines the shown token."
  },
  {
   "property": "C105",
   "status": "proved",
   "theorems": [
    "C105_print",
    "C105_parse",
    "C105_fixed",
    "C105_parsed",
    "C105_discriminant",
    "C105_stored",
    "C105_lost"
   ],
   "note": ""
  },
  {
   "property": "C106",
   "status": "proved",
   "theorems": [
    "C106_fill",
    "C106_runs",
    "C106_same",
    "C106_identity",
    "C106_twice",
    "C106_skeleton",
    "C106_replace",
    "C106_rust_type",
    "C106_rust_bounds"
   ],
   "note": ""
  },
  {
   "property": "C107",
   "status": "proved",
   "theorems": [
    "C107_commute",
    "C107_runs",
    "C107_names",
    "C107_both",
    "C107_alone",
    "C107_visibility"
   ],
   "note": ""
  },
  {
   "property": "C108",
   "status": "proved",
   "theorems": [
    "C108_attributes_runs",
    "C108_attributes_names",
    "C108_names",
    "C108_runs",
    "C108_three",
    "C108_visibility"
   ],
   "note": ""
  }
 ]
}