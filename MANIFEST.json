{
 "claims": [
  {
   "property": "C01",
   "status": "proved",
   "theorems": [
    "C01_empty_members",
    "C01_all_members",
    "C01_only_members"
   ],
   "note": ""
  },
  {
   "property": "C02",
   "status": "proved",
   "theorems": [
    "C02_insert_members"
   ],
   "note": ""
  },
  {
   "property": "C03",
   "status": "proved",
   "theorems": [
    "C03_remove_members"
   ],
   "note": ""
  },
  {
   "property": "C04",
   "status": "proved",
   "theorems": [
    "C04_op_members"
   ],
   "note": ""
  },
  {
   "property": "C05",
   "status": "proved",
   "theorems": [
    "C05_bits_are_variants"
   ],
   "note": "Seen bit by bit through has_bit and word by word through to_vec, for every set in the inductive closure Reachable of all API calls."
  },
  {
   "property": "C06",
   "status": "proved",
   "theorems": [
    "C06_eq_members",
    "C06_eq_variant_members"
   ],
   "note": ""
  },
  {
   "property": "C07",
   "status": "proved",
   "theorems": [
    "C07_len_members",
    "C07_all_len"
   ],
   "note": ""
  },
  {
   "property": "C08",
   "status": "proved",
   "theorems": [
    "C08_iteration",
    "C08_conversion_safe"
   ],
   "note": "C08_conversion_safe covers the unsafe enum_from_u32; C37 covers undefined behaviour in general."
  },
  {
   "property": "C09",
   "status": "proved",
   "theorems": [
    "C09_deque",
    "C09_fused"
   ],
   "note": ""
  },
  {
   "property": "C10",
   "status": "proved",
   "theorems": [
    "C10_size_hint_exact"
   ],
   "note": ""
  },
  {
   "property": "C11",
   "status": "proved",
   "theorems": [
    "C11_relation_members"
   ],
   "note": ""
  },
  {
   "property": "C12",
   "status": "proved",
   "theorems": [
    "C12_assign_members",
    "C12_operator_members"
   ],
   "note": ""
  },
  {
   "property": "C13",
   "status": "proved",
   "theorems": [
    "C13_variant_operators",
    "C13_variant_eq"
   ],
   "note": ""
  },
  {
   "property": "C14",
   "status": "proved",
   "theorems": [
    "C14_boolean_identities",
    "C14_boolean_laws"
   ],
   "note": "C14_boolean_identities transfers every Boolean identity at once; C14_boolean_laws spells the named laws out."
  },
  {
   "property": "C15",
   "status": "proved",
   "theorems": [
    "C15_to_integer"
   ],
   "note": ""
  },
  {
   "property": "C16",
   "status": "proved",
   "theorems": [
    "C16_from_integer"
   ],
   "note": ""
  },
  {
   "property": "C17",
   "status": "proved",
   "theorems": [
    "C17_as_from",
    "C17_from_as"
   ],
   "note": ""
  },
  {
   "property": "C18",
   "status": "proved",
   "theorems": [
    "C18_to_array"
   ],
   "note": ""
  },
  {
   "property": "C19",
   "status": "proved",
   "theorems": [
    "C19_from_words"
   ],
   "note": ""
  },
  {
   "property": "C20",
   "status": "proved",
   "theorems": [
    "C20_copy_into"
   ],
   "note": ""
  },
  {
   "property": "C21",
   "status": "proved",
   "theorems": [
    "C21_to_vec_lossless"
   ],
   "note": ""
  },
  {
   "property": "C22",
   "status": "proved",
   "theorems": [
    "C22_with_repr",
    "C22_repr_conversions"
   ],
   "note": ""
  },
  {
   "property": "C23",
   "status": "proved",
   "theorems": [
    "C23_cmp_total",
    "C23_cmp_order",
    "C23_array_order_not_numeric"
   ],
   "note": "C23_array_order_not_numeric is the witness that the order of array storages is not numeric."
  },
  {
   "property": "C24",
   "status": "proved",
   "theorems": [
    "C24_hash_eq"
   ],
   "note": ""
  },
  {
   "property": "C25",
   "status": "proved",
   "theorems": [
    "C25_collect_variants",
    "C25_collect_sets",
    "C25_extend_unwind_members",
    "C25_extend_sets_unwind_members",
    "C25_extend_from_iter"
   ],
   "note": ""
  },
  {
   "property": "C26",
   "status": "proved",
   "theorems": [
    "C26_printing",
    "C26_printed_text"
   ],
   "note": ""
  },
  {
   "property": "C27",
   "status": "proved",
   "theorems": [
    "C27_derive_discriminants",
    "C27_discriminant_rule",
    "C27_conversions_inverse"
   ],
   "note": ""
  },
  {
   "property": "C28",
   "status": "proved",
   "theorems": [
    "C28_derive_total",
    "C28_violation_rejected"
   ],
   "note": ""
  },
  {
   "property": "C29",
   "status": "proved",
   "theorems": [
    "C29_storage_chosen",
    "C29_storage_holds"
   ],
   "note": ""
  },
  {
   "property": "C30",
   "status": "proved",
   "theorems": [
    "C30_derive_counts",
    "C30_bit_width_nonempty",
    "C30_empty_enum_width"
   ],
   "note": ""
  },
  {
   "property": "C31",
   "status": "proved",
   "theorems": [
    "C31_macros_agree",
    "C31_macro_members"
   ],
   "note": ""
  },
  {
   "property": "C32",
   "status": "proved",
   "theorems": [
    "C32_int_format",
    "C32_int_input"
   ],
   "note": ""
  },
  {
   "property": "C33",
   "status": "proved",
   "theorems": [
    "C33_list_format",
    "C33_list_input"
   ],
   "note": ""
  },
  {
   "property": "C34",
   "status": "proved",
   "theorems": [
    "C34_map_format",
    "C34_map_input"
   ],
   "note": ""
  },
  {
   "property": "C35",
   "status": "partial",
   "theorems": [
    "C35_array_format",
    "C35_unknown_words_ignored_refuted"
   ],
   "note": "The round-trip half is proved (C35_array_format). The second half (unknown bits silently ignored) is false of the code: from_array panics; C35_unknown_words_ignored_refuted gives a witness and C44 states what the code does for every input."
  },
  {
   "property": "C36",
   "status": "proved",
   "theorems": [
    "C36_deserialized_valid",
    "C36_deserialized_reachable",
    "C36_deserialize_returns"
   ],
   "note": ""
  },
  {
   "property": "C37",
   "status": "proved",
   "theorems": [
    "C37_history_safe",
    "C37_history_total"
   ],
   "note": ""
  },
  {
   "property": "C38",
   "status": "proved",
   "theorems": [
    "C38_history_refines"
   ],
   "note": ""
  },
  {
   "property": "C39",
   "status": "proved",
   "theorems": [
    "C39_storage_irrelevant"
   ],
   "note": ""
  },
  {
   "property": "C40",
   "status": "proved",
   "theorems": [
    "C40_unchecked_eq"
   ],
   "note": ""
  },
  {
   "property": "C41",
   "status": "proved",
   "theorems": [
    "C41_supported_32_64",
    "C41_supported_16",
    "C41_shared_bit_16",
    "C41_len_wraps_16"
   ],
   "note": "C41_shared_bit_16 and C41_len_wraps_16 are the 16-bit witnesses."
  },
  {
   "property": "C42",
   "status": "proved",
   "theorems": [
    "C42_serialization_chosen"
   ],
   "note": ""
  },
  {
   "property": "C43",
   "status": "proved",
   "theorems": [
    "C43_compiles",
    "C43_accepted",
    "C43_literals_fit"
   ],
   "note": ""
  },
  {
   "property": "C44",
   "status": "proved",
   "theorems": [
    "C44_array_input",
    "C44_unfused_input"
   ],
   "note": ""
  },
  {
   "property": "C45",
   "status": "proved",
   "theorems": [
    "C45_release_equals_debug"
   ],
   "note": ""
  },
  {
   "property": "C46",
   "status": "proved",
   "theorems": [
    "C46_enum_set_syntax",
    "C46_fold_syntax",
    "C46_complement_syntax",
    "C46_enum_set_literal",
    "C46_fold_literal"
   ],
   "note": ""
  },
  {
   "property": "C47",
   "status": "proved",
   "theorems": [
    "C47_sets_of_enum"
   ],
   "note": ""
  },
  {
   "property": "C48",
   "status": "proved",
   "theorems": [
    "C48_sizes"
   ],
   "note": ""
  },
  {
   "property": "C49",
   "status": "proved",
   "theorems": [
    "C49_int_evolution",
    "C49_array_evolution",
    "C49_list_evolution",
    "C49_list_rollback"
   ],
   "note": ""
  },
  {
   "property": "C50",
   "status": "proved",
   "theorems": [
    "C50_unchecked_condition",
    "C50_reinterpretation",
    "C50_any_u32"
   ],
   "note": ""
  },
  {
   "property": "C51",
   "status": "proved",
   "theorems": [
    "C51_subset_order"
   ],
   "note": ""
  },
  {
   "property": "C52",
   "status": "proved",
   "theorems": [
    "C52_conversions_agree"
   ],
   "note": ""
  },
  {
   "property": "C53",
   "status": "proved",
   "theorems": [
    "C53_declaration_order"
   ],
   "note": ""
  },
  {
   "property": "C54",
   "status": "proved",
   "theorems": [
    "C54_impls",
    "C54_impls_compile",
    "C54_warnings_given",
    "C54_advice_harmless"
   ],
   "note": ""
  },
  {
   "property": "C55",
   "status": "proved",
   "theorems": [
    "C55_storage_bits",
    "C55_storage_counts",
    "C55_storage_iter",
    "C55_storage_numbers"
   ],
   "note": ""
  },
  {
   "property": "C56",
   "status": "proved",
   "theorems": [
    "C56_counting"
   ],
   "note": ""
  },
  {
   "property": "C57",
   "status": "proved",
   "theorems": [
    "C57_to_integer_bitwise",
    "C57_from_integer_bitwise",
    "C57_to_words_bitwise"
   ],
   "note": ""
  },
  {
   "property": "C58",
   "status": "proved",
   "theorems": [
    "C58_iterator_methods"
   ],
   "note": ""
  },
  {
   "property": "C59",
   "status": "proved",
   "theorems": [
    "C59_only_discriminants_matter"
   ],
   "note": ""
  },
  {
   "property": "C60",
   "status": "proved",
   "theorems": [
    "C60_target_irrelevant"
   ],
   "note": ""
  },
  {
   "property": "C61",
   "status": "proved",
   "theorems": [
    "C61_program_refines",
    "C61_program_safe",
    "C61_program_same_storage",
    "C61_program_other_storage",
    "C61_program_other_target"
   ],
   "note": ""
  },
  {
   "property": "C62",
   "status": "proved",
   "theorems": [
    "C62_first_error",
    "C62_no_call_site"
   ],
   "note": ""
  },
  {
   "property": "C63",
   "status": "proved",
   "theorems": [
    "C63_self_delimiting"
   ],
   "note": ""
  },
  {
   "property": "C64",
   "status": "proved",
   "theorems": [
    "C64_bincode_format",
    "C64_bincode_input",
    "C64_bincode_accepted",
    "C64_bincode_panics"
   ],
   "note": ""
  },
  {
   "property": "C65",
   "status": "proved",
   "theorems": [
    "C65_order_operators",
    "C65_max_min",
    "C65_clamp_between"
   ],
   "note": ""
  },
  {
   "property": "C66",
   "status": "proved",
   "theorems": [
    "C66_rebuild",
    "C66_partitioned"
   ],
   "note": ""
  },
  {
   "property": "C67",
   "status": "proved",
   "theorems": [
    "C67_transfer_integer",
    "C67_transfer_words"
   ],
   "note": ""
  },
  {
   "property": "C68",
   "status": "proved",
   "theorems": [
    "C68_storages_lawful",
    "C68_derive_implements",
    "C68_any_storage_sets",
    "C68_any_storage_moves"
   ],
   "note": ""
  },
  {
   "property": "C69",
   "status": "proved",
   "theorems": [
    "C69_multi_refines",
    "C69_multi_safe"
   ],
   "note": "That a call that panics leaves the variables alone is part of the model (such calls take &self or no set); the closure case is derived."
  },
  {
   "property": "C70",
   "status": "proved",
   "theorems": [
    "C70_crate_path",
    "C70_crate_name_accepted"
   ],
   "note": ""
  },
  {
   "property": "C71",
   "status": "proved",
   "theorems": [
    "C71_json_format",
    "C71_json_int",
    "C71_json_list",
    "C71_json_map",
    "C71_json_array",
    "C71_json_any",
    "C71_json_accepted",
    "C71_json_panics"
   ],
   "note": ""
  },
  {
   "property": "C72",
   "status": "proved",
   "theorems": [
    "C72_attributes_decoded",
    "C72_attribute_errors",
    "C72_attribute_order",
    "C72_item_accepted",
    "C72_item_faults",
    "C72_item_errors",
    "C72_item_generated"
   ],
   "note": ""
  },
  {
   "property": "C73",
   "status": "proved",
   "theorems": [
    "C73_item_supported",
    "C73_end_to_end"
   ],
   "note": ""
  },
  {
   "property": "C74",
   "status": "proved",
   "theorems": [
    "C74_literal_read",
    "C74_declared_discriminants",
    "C74_spelling_irrelevant",
    "C74_accepted_literals"
   ],
   "note": ""
  },
  {
   "property": "C75",
   "status": "proved",
   "theorems": [
    "C75_captured_names",
    "C75_type_names",
    "C75_variant_names",
    "C75_ordinary_names"
   ],
   "note": ""
  },
  {
   "property": "C76",
   "status": "proved",
   "theorems": [
    "C76_options_checked",
    "C76_options_generated",
    "C76_options_unseen",
    "C76_denial_unseen",
    "C76_denial_restricts"
   ],
   "note": ""
  },
  {
   "property": "C77",
   "status": "proved",
   "theorems": [
    "C77_whole_compiles",
    "C77_compiles_anywhere",
    "C77_compiled_programs",
    "C77_simple_compiles"
   ],
   "note": ""
  },
  {
   "property": "C78",
   "status": "proved",
   "theorems": [
    "C78_literal_typed",
    "C78_fold_accepted",
    "C78_complement_accepted",
    "C78_strongly_typed",
    "C78_macro_result"
   ],
   "note": ""
  },
  {
   "property": "C79",
   "status": "proved",
   "theorems": [
    "C79_shape_accepted",
    "C79_shape_refusals",
    "C79_shape_any"
   ],
   "note": ""
  },
  {
   "property": "C80",
   "status": "proved",
   "theorems": [
    "C80_error_says",
    "C80_fault_reported",
    "C80_texts_distinct",
    "C80_warning_says",
    "C80_warning_advice",
    "C80_warnings_distinct"
   ],
   "note": ""
  },
  {
   "property": "C81",
   "status": "proved",
   "theorems": [
    "C81_iteration_cost",
    "C81_loop_cost"
   ],
   "note": ""
  },
  {
   "property": "C82",
   "status": "proved",
   "theorems": [
    "C82_features_fit",
    "C82_more_features",
    "C82_features_additive",
    "C82_serde_breaks"
   ],
   "note": ""
  }
 ]
}