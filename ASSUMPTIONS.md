# Print Assumptions of the property theorems

Written by `tools/assumptions.py`.

| Theorem | File | Assumptions |
|---|---|---|
| C01_error_iff_conflict | RuleThms.v | Closed under the global context |
| C01_layers_sound | RuleThms.v | Closed under the global context |
| C01_layers_total | RuleThms.v | Closed under the global context |
| C02_total_functional | RuleThms.v | Closed under the global context |
| C03_no_match_identity | RuleThms.v | Closed under the global context |
| C03_pass_obligatory | RuleThms.v | Closed under the global context |
| C04_arab_nfc_idempotent_refuted | NfcThms.v | Closed under the global context |
| C04_brahmic_nfc_idempotent | NfcThms.v | Closed under the global context |
| C04_no_feedback_idempotent | NfcThms.v | Closed under the global context |
| C05_heuristic_irrelevant | RuleThms.v | Closed under the global context |
| C05_small_lists | RuleThms.v | Closed under the global context |
| C06_cascade_is_successive_replacement | RuleThms.v | Closed under the global context |
| C06_cascade_split | RuleThms.v | Closed under the global context |
| C07_agree_on_all_text_refuted | ByteThms.v | Closed under the global context |
| C07_matches_aligned | ByteThms.v | Closed under the global context |
| C07_rules_agree | ByteThms.v | Closed under the global context |
| C07_shipped_rules_agree | ByteThms.v | Closed under the global context |
| C07_shipped_tables_plain | ByteThms.v | Closed under the global context |
| C07_shipped_visual_norm_agrees | ByteThms.v | Closed under the global context |
| C07_well_formed_agrees | ByteThms.v | Closed under the global context |
| C07_well_formed_image | ByteThms.v | Closed under the global context |
| C08_collapses_runs | VisualThms.v | Closed under the global context |
| C08_no_doubles_idempotent | VisualThms.v | Closed under the global context |
| C08_runs_cover | VisualThms.v | Closed under the global context |
| C08_set_order_irrelevant | VisualThms.v | Closed under the global context |
| C09_exact_result | VisualThms.v | Closed under the global context |
| C09_joiners_only_inside_preserved | VisualThms.v | Closed under the global context |
| C09_preserved_between_consonants | VisualThms.v | Closed under the global context |
| C09_shipped_joiners | VisualThms.v | Closed under the global context |
| C09_shipped_tables_good | VisualThms.v | Closed under the global context |
| C09_shipped_total_functional | VisualThms.v | Closed under the global context |
| C10_accepts_empty | WellformedThms.v | Closed under the global context |
| C10_closed_under_concatenation | WellformedThms.v | Closed under the global context |
| C10_exactly_unit_sequences | WellformedThms.v | Closed under the global context |
| C10_monotone_in_tables | WellformedThms.v | Closed under the global context |
| C10_shipped_no_bare_consonant | WellformedThms.v | Closed under the global context |
| C10_shipped_reject_dependent_start | WellformedThms.v | Closed under the global context |
| C10_shipped_tables_good | WellformedThms.v | Closed under the global context |
| C10_starts_with_starter | WellformedThms.v | Closed under the global context |
| C11_class_is_complement | TextThms.v | Closed under the global context |
| C11_cut_exists | TextThms.v | Closed under the global context |
| C11_cut_unique | TextThms.v | Closed under the global context |
| C11_empty_ignore_is_error | TextThms.v | Closed under the global context |
| C11_idempotent_if_words_are | TextThms.v | Closed under the global context |
| C11_only_ignored_unchanged | TextThms.v | Closed under the global context |
| C11_raises_iff | TextThms.v | Closed under the global context |
| C11_wordwise | TextThms.v | Closed under the global context |
| C12_abjad_word | TextThms.v | Closed under the global context |
| C12_accept_text_literal_refuted | TextThms.v | Closed under the global context |
| C12_accept_text_total_refuted | TextThms.v | Closed under the global context |
| C12_accept_text_without_brackets | TextThms.v | Closed under the global context |
| C12_apply_on_text_exact | TextThms.v | Closed under the global context |
| C12_escaped_text_is_literal | TextThms.v | Closed under the global context |
| C12_returned_word_well_formed | TextThms.v | Closed under the global context |
| C12_returned_word_well_formed_refuted | TextThms.v | Closed under the global context |
| C12_word_errors | TextThms.v | Closed under the global context |
| C13_api_can_round_trip | RomanThms.v | Closed under the global context |
| C13_api_functional_refuted | RomanThms.v | Closed under the global context |
| C13_api_passes_foreign_text | RomanThms.v | Closed under the global context |
| C13_bytes_reversible | RomanThms.v | Closed under the global context |
| C13_closure_exact | RomanThms.v | Closed under the global context |
| C13_code_test_sound | RomanThms.v | Closed under the global context |
| C13_romanization_functional | RomanThms.v | Closed under the global context |
| C13_romanization_injective | RomanThms.v | Closed under the global context |
| C13_round_trip | RomanThms.v | Closed under the global context |
| C14_name_resolution | DataThms.v | Closed under the global context |
| C14_prefix_order_irrelevant | DataThms.v | Closed under the global context |
| C14_same_character_twice_refuted | DataThms.v | Closed under the global context |
| C14_sequence_names_refuted | DataThms.v | Closed under the global context |
| C14_set_order_irrelevant | DataThms.v | Closed under the global context |
| C14_spelling | DataThms.v | Closed under the global context |
| C14_unique_name_resolves | DataThms.v | Closed under the global context |
| C15_convert_item | DataThms.v | Closed under the global context |
| C15_names_denote | DataThms.v | Closed under the global context |
| C15_names_only | DataThms.v | Closed under the global context |
| C15_nothing_given_raises | DataThms.v | Closed under the global context |
| C15_raw_and_names_agree | DataThms.v | Closed under the global context |
| C15_raw_only | DataThms.v | Closed under the global context |
| C16_alphabet_exact | DataThms.v | Closed under the global context |
| C16_alphabet_of_blank_refuted | DataThms.v | Closed under the global context |
| C16_file_read | DataThms.v | Closed under the global context |
| C16_hash_refuted | DataThms.v | Closed under the global context |
| C16_proto_round_trip | DataThms.v | Closed under the global context |
| C16_rules_read_back | DataThms.v | Closed under the global context |
| C17_alias_clash_refuted | FeatureThms.v | Closed under the global context |
| C17_any | FeatureThms.v | Closed under the global context |
| C17_distances | FeatureThms.v | Closed under the global context |
| C17_list_distance_refuted | FeatureThms.v | Closed under the global context |
| C17_not_applicable | FeatureThms.v | Closed under the global context |
| C17_pairs | FeatureThms.v | Closed under the global context |
| C17_self | FeatureThms.v | Closed under the global context |
| C17_symmetric_bounded | FeatureThms.v | Closed under the global context |
| C18_compare | FeatureThms.v | Closed under the global context |
| C18_compare_same | FeatureThms.v | Closed under the global context |
| C18_emptied_set_refuted | FeatureThms.v | Closed under the global context |
| C18_nearest_unique | FeatureThms.v | Closed under the global context |
| C18_no_distances_refuted | FeatureThms.v | Closed under the global context |
| C18_set_bounded | FeatureThms.v | Closed under the global context |
| C18_set_common | FeatureThms.v | Closed under the global context |
| C18_set_distance | FeatureThms.v | Closed under the global context |
| C18_set_other_aspects | FeatureThms.v | Closed under the global context |
| C18_set_symmetric | FeatureThms.v | Closed under the global context |
| C19_histories | FeatureThms.v | Closed under the global context |
| C19_inventory_alias_refuted | FeatureThms.v | Closed under the global context |
| C19_lost_update_refuted | FeatureThms.v | Closed under the global context |
| C19_multi_profiles | FeatureThms.v | Closed under the global context |
| C19_returned_profile_refuted | FeatureThms.v | Closed under the global context |
| C19_same_alias_refuted | FeatureThms.v | Closed under the global context |
| C20_alignments_refuted | ExpressionThms.v | Closed under the global context |
| C20_any_refuted | ExpressionThms.v | Closed under the global context |
| C20_cat | ExpressionThms.v | Closed under the global context |
| C20_cat_add | ExpressionThms.v | Closed under the global context |
| C20_control_refuted | ExpressionThms.v | Closed under the global context |
| C20_copy | ExpressionThms.v | Closed under the global context |
| C20_equivalent_refuted | ExpressionThms.v | Closed under the global context |
| C20_flatten | ExpressionThms.v | Closed under the global context |
| C20_flatten_same | ExpressionThms.v | Closed under the global context |
| C20_or | ExpressionThms.v | Closed under the global context |
| C20_or_add | ExpressionThms.v | Closed under the global context |
| C20_or_any | ExpressionThms.v | Closed under the global context |
| C20_or_any_stays | ExpressionThms.v | Closed under the global context |
| C20_or_step | ExpressionThms.v | Closed under the global context |
| C20_precedence_refuted | ExpressionThms.v | Closed under the global context |
| C20_ques | ExpressionThms.v | Closed under the global context |
| C20_recurring_refuted | ExpressionThms.v | Closed under the global context |
| C20_repeat | ExpressionThms.v | Closed under the global context |
| C20_shape | ExpressionThms.v | Closed under the global context |
| C20_symbols | ExpressionThms.v | Closed under the global context |
| C20_unit_left | ExpressionThms.v | Closed under the global context |
| C20_unit_right | ExpressionThms.v | Closed under the global context |
| C21_accepts | ExpressionContainThms.v | Closed under the global context |
| C21_accepts_any | ExpressionContainThms.v | Closed under the global context |
| C21_accepts_refl | ExpressionContainThms.v | Closed under the global context |
| C21_accepts_sound | ExpressionContainThms.v | Closed under the global context |
| C21_accepts_trans | ExpressionContainThms.v | Closed under the global context |
| C21_any | ExpressionContainThms.v | Closed under the global context |
| C21_anything | ExpressionContainThms.v | Closed under the global context |
| C21_contains | ExpressionContainThms.v | Closed under the global context |
| C21_contains_lists | ExpressionContainThms.v | Closed under the global context |
| C21_empty_or_refuted | ExpressionContainThms.v | Closed under the global context |
| C21_ends | ExpressionContainThms.v | Closed under the global context |
| C21_ends_empty | ExpressionContainThms.v | Closed under the global context |
| C21_eps | ExpressionContainThms.v | Closed under the global context |
| C21_eps_prefix_refuted | ExpressionContainThms.v | Closed under the global context |
| C21_equivalent | ExpressionContainThms.v | Closed under the global context |
| C21_equivalent_refuted | ExpressionContainThms.v | Closed under the global context |
| C21_ghost_refuted | ExpressionContainThms.v | Closed under the global context |
| C21_list | ExpressionContainThms.v | Closed under the global context |
| C21_matches_refuted | ExpressionContainThms.v | Closed under the global context |
| C21_nor | ExpressionContainThms.v | Closed under the global context |
| C21_nor_refuted | ExpressionContainThms.v | Closed under the global context |
| C21_nothing | ExpressionContainThms.v | Closed under the global context |
| C21_same_words_refuted | ExpressionContainThms.v | Closed under the global context |
| C21_symbol_prefix_refuted | ExpressionContainThms.v | Closed under the global context |
| C22_from_args | OperationThms.v | Closed under the global context |
| C22_history | OperationThms.v | Closed under the global context |
| C22_kept | OperationThms.v | Closed under the global context |
| C22_next_index | OperationThms.v | Closed under the global context |
| C22_no_index_refuted | OperationThms.v | Closed under the global context |
| C22_nth_index | OperationThms.v | Closed under the global context |
| C22_nth_index_all | OperationThms.v | Closed under the global context |
| C22_nth_index_increasing | OperationThms.v | Closed under the global context |
| C22_range_refuted | OperationThms.v | Closed under the global context |
| C22_refused_refuted | OperationThms.v | Closed under the global context |
| C23_alias_taken_refuted | SymbolThms.v | Closed under the global context |
| C23_aliases | SymbolThms.v | Closed under the global context |
| C23_aliases_differ | SymbolThms.v | Closed under the global context |
| C23_combined_refuted | SymbolThms.v | Closed under the global context |
| C23_grapheme_alias | SymbolThms.v | Closed under the global context |
| C23_grapheme_alias_refuted | SymbolThms.v | Closed under the global context |
| C23_grapheme_length | SymbolThms.v | Closed under the global context |
| C23_grapheme_lookups | SymbolThms.v | Closed under the global context |
| C23_grapheme_parse | SymbolThms.v | Closed under the global context |
| C23_home | SymbolThms.v | Closed under the global context |
| C23_index_taken_refuted | SymbolThms.v | Closed under the global context |
| C23_latest_unique | SymbolThms.v | Closed under the global context |
| C23_lookups | SymbolThms.v | Closed under the global context |
| C23_parse | SymbolThms.v | Closed under the global context |
| C23_parse_raw | SymbolThms.v | Closed under the global context |
| C23_typed_refuted | SymbolThms.v | Closed under the global context |
| C23_unknown_alias | SymbolThms.v | Closed under the global context |
| C24_determined | InventoryThms.v | Closed under the global context |
| C24_from_list | InventoryThms.v | Closed under the global context |
| C24_history | InventoryThms.v | Closed under the global context |
| C24_method_name_add_refuted | InventoryThms.v | Closed under the global context |
| C24_method_name_refuted | InventoryThms.v | Closed under the global context |
| C24_no_duplicates | InventoryThms.v | Closed under the global context |
| C25_equal | GridThms.v | Closed under the global context |
| C25_error | GridThms.v | Closed under the global context |
| C25_exists | GridThms.v | Closed under the global context |
| C25_new | GridThms.v | Closed under the global context |
| C25_order | GridThms.v | Closed under the global context |
| C25_populated | GridThms.v | Closed under the global context |
| C25_same | GridThms.v | Closed under the global context |
| C25_shared_error_refuted | GridThms.v | Closed under the global context |
| C25_total | GridThms.v | Closed under the global context |
| C26_epsilon_refuted | ErrorRateThms.v | Closed under the global context |
| C26_lengths | ErrorRateThms.v | Closed under the global context |
| C26_levenshtein | ErrorRateThms.v | Closed under the global context |
| C26_metric | ErrorRateThms.v | Closed under the global context |
| C26_search_exists | ErrorRateThms.v | Closed under the global context |
| C27_best_hypothesis | ErrorRateThms.v | Closed under the global context |
| C27_best_reference | ErrorRateThms.v | Closed under the global context |
| C27_blank_reference_refuted | ErrorRateThms.v | Closed under the global context |
| C27_corpus | ErrorRateThms.v | Closed under the global context |
| C27_distance_matrix | ErrorRateThms.v | Closed under the global context |
| C27_fewest_edits_refuted | ErrorRateThms.v | Closed under the global context |
| C27_pairwise | ErrorRateThms.v | Closed under the global context |
| C27_printing_refuted | ErrorRateThms.v | Closed under the global context |
| C27_reading | ErrorRateThms.v | Closed under the global context |
| C27_reading_length | ErrorRateThms.v | Closed under the global context |
| C27_shifted_matrix_refuted | ErrorRateThms.v | Closed under the global context |
| C27_totals | ErrorRateThms.v | Closed under the global context |
| C28_malformed | PairlmThms.v | Closed under the global context |
| C28_proper | PairlmThms.v | Closed under the global context |
| C28_runs_exist | PairlmThms.v | Closed under the global context |
| C28_segments | PairlmThms.v | Closed under the global context |
| C29_at_most_k | LatticeThms.v | Closed under the global context |
| C29_best_kept | LatticeThms.v | Closed under the global context |
| C29_bound_refuted | LatticeThms.v | Closed under the global context |
| C29_lattice | LatticeThms.v | Closed under the global context |
| C29_no_candidates | LatticeThms.v | Closed under the global context |
| C29_ordered_refuted | LatticeThms.v | Closed under the global context |
| C29_relative_bound_refuted | LatticeThms.v | Closed under the global context |
| C29_threshold | LatticeThms.v | Closed under the global context |
| C30_any_prefix_refuted | WordpieceThms.v | Closed under the global context |
| C30_default_prefix | WordpieceThms.v | Closed under the global context |
| C30_greedy_merging | WordpieceThms.v | Closed under the global context |
| C30_greedy_unique | WordpieceThms.v | Closed under the global context |
| C30_input | WordpieceThms.v | Closed under the global context |
| C30_malformed_throws | WordpieceThms.v | Closed under the global context |
| C30_no_text_lost | WordpieceThms.v | Closed under the global context |
| C30_pieces_known | WordpieceThms.v | Closed under the global context |
| C30_text_kept | WordpieceThms.v | Closed under the global context |
| C30_transducer | WordpieceThms.v | Closed under the global context |
| C30_transducer_total | WordpieceThms.v | Closed under the global context |
| C31_decode_first | Utf8Thms.v | Closed under the global context |
| C31_decode_invalid | Utf8Thms.v | Closed under the global context |
| C31_decode_single | Utf8Thms.v | Closed under the global context |
| C31_decode_single_fails | Utf8Thms.v | Closed under the global context |
| C31_encode_exact | Utf8Thms.v | Closed under the global context |
| C31_encode_throws | Utf8Thms.v | Closed under the global context |
| C31_every_text_has_encoding | Utf8Thms.v | Closed under the global context |
| C31_prefix_free | Utf8Thms.v | Closed under the global context |
| C31_split | Utf8Thms.v | Closed under the global context |
| C31_split_never_throws | Utf8Thms.v | Closed under the global context |
| C32_all_whitespace_is_union | DelimThms.v | Closed under the global context |
| C32_delimiter_set | DelimThms.v | Closed under the global context |
| C32_malformed_throws | DelimThms.v | Closed under the global context |
| C32_only_white_space_lost | DelimThms.v | Closed under the global context |
| C32_split_into_words | DelimThms.v | Closed under the global context |
| C32_words_unique | DelimThms.v | Closed under the global context |
| C33_destructor_returns | PoolThms.v | Closed under the global context |
| C33_every_task_runs_once | PoolThms.v | Closed under the global context |
| C33_exactly_the_scheduled_tasks | PoolThms.v | Closed under the global context |
| C33_fifo | PoolThms.v | Closed under the global context |
| C33_late_tasks_refuted | PoolThms.v | Closed under the global context |
| C33_no_deadlock | PoolThms.v | Closed under the global context |
| C33_no_task_runs_twice | PoolThms.v | Closed under the global context |
| C33_owner_tasks_run | PoolThms.v | Closed under the global context |
| C33_single_worker_order | PoolThms.v | Closed under the global context |
| C33_terminates | PoolThms.v | Closed under the global context |
| C33_without_workers_refuted | PoolThms.v | Closed under the global context |
| C34_alignment | KbestThms.v | Closed under the global context |
| C34_blank_hypothesis_refuted | KbestThms.v | Closed under the global context |
| C34_combined | KbestThms.v | Closed under the global context |
| C34_combined_checked | KbestThms.v | Closed under the global context |
| C34_given_length_enforced_refuted | KbestThms.v | Closed under the global context |
| C34_mode_unique | KbestThms.v | Closed under the global context |
| C34_most_frequent | KbestThms.v | Closed under the global context |
| C34_pruned | KbestThms.v | Closed under the global context |
| C34_some_hypothesis_left_refuted | KbestThms.v | Closed under the global context |
| C34_uniform_kept | KbestThms.v | Closed under the global context |
| C35_accepts | KbestThms.v | Closed under the global context |
| C35_at_most_k_refuted | KbestThms.v | Closed under the global context |
| C35_automatic_k_refuted | KbestThms.v | Closed under the global context |
| C35_best_found | KbestThms.v | Closed under the global context |
| C35_grouping | KbestThms.v | Closed under the global context |
| C35_negative_index_refuted | KbestThms.v | Closed under the global context |
| C35_rejoined | KbestThms.v | Closed under the global context |
| C35_repeated_input_refuted | KbestThms.v | Closed under the global context |
| C35_runs_unique | KbestThms.v | Closed under the global context |
| C35_white_space | KbestThms.v | Closed under the global context |
| C36_accept | GrammarThms.v | Closed under the global context |
| C36_any_case | GrammarThms.v | Closed under the global context |
| C36_empty_file | GrammarThms.v | Closed under the global context |
| C36_load | GrammarThms.v | Closed under the global context |
| C36_load_again | GrammarThms.v | Closed under the global context |
| C36_no_file | GrammarThms.v | Closed under the global context |
| C36_normalize | GrammarThms.v | Closed under the global context |
| C36_normalize_rejects | GrammarThms.v | Closed under the global context |
| C36_normalizer_load | GrammarThms.v | Closed under the global context |
| C36_normalizer_verify | GrammarThms.v | Closed under the global context |
| C36_reading | GrammarThms.v | Closed under the global context |
| C36_reading_fails | GrammarThms.v | Closed under the global context |
| C36_rewrite | GrammarThms.v | Closed under the global context |
| C36_rewrite_fails | GrammarThms.v | Closed under the global context |
| C36_supports | GrammarThms.v | Closed under the global context |
| C36_trailing_slash | GrammarThms.v | Closed under the global context |
| C36_verified_present | GrammarThms.v | Closed under the global context |
| C36_verify | GrammarThms.v | Closed under the global context |
| C36_verify_again | GrammarThms.v | Closed under the global context |
| C37_cyclic_refuted | ContainerThms.v | Closed under the global context |
| C37_equal_strings | ContainerThms.v | Closed under the global context |
| C37_equal_symmetric | ContainerThms.v | Closed under the global context |
| C37_equal_values | ContainerThms.v | Closed under the global context |
| C37_flattened | ContainerThms.v | Closed under the global context |
| C37_fst_not_like_other | ContainerThms.v | Closed under the global context |
| C37_fst_value_refuted | ContainerThms.v | Closed under the global context |
| C37_item_backward | ContainerThms.v | Closed under the global context |
| C37_item_forward | ContainerThms.v | Closed under the global context |
| C37_item_outside | ContainerThms.v | Closed under the global context |
| C37_itself | ContainerThms.v | Closed under the global context |
| C37_nothing_never_equal | ContainerThms.v | Closed under the global context |
| C37_takes | ContainerThms.v | Closed under the global context |
| C37_takes_unique | ContainerThms.v | Closed under the global context |
| C37_typed | ContainerThms.v | Closed under the global context |
| C38_best | IsoThms.v | Closed under the global context |
| C38_computed | IsoThms.v | Closed under the global context |
| C38_cost | IsoThms.v | Closed under the global context |
| C38_cost_back | IsoThms.v | Closed under the global context |
| C38_empty | IsoThms.v | Closed under the global context |
| C38_inverse | IsoThms.v | Closed under the global context |
| C38_inverse_outs | IsoThms.v | Closed under the global context |
| C38_piecewise | IsoThms.v | Closed under the global context |
| C38_shipped | IsoThms.v | Closed under the global context |
| C38_units | IsoThms.v | Closed under the global context |
| C39_as_function | FuncThms.v | Closed under the global context |
| C39_empty | FuncThms.v | Closed under the global context |
| C39_many_arguments | FuncThms.v | Closed under the global context |
| C39_nested | FuncThms.v | Closed under the global context |
| C39_no_argument | FuncThms.v | Closed under the global context |
| C39_one | FuncThms.v | Closed under the global context |
| C39_one_after_another | FuncThms.v | Closed under the global context |
| C39_order_refuted | FuncThms.v | Closed under the global context |
| C39_parts | FuncThms.v | Closed under the global context |
| C39_split | FuncThms.v | Closed under the global context |
| C40_assign | AlignThms.v | Closed under the global context |
| C40_concat_l | AlignThms.v | Closed under the global context |
| C40_concat_r | AlignThms.v | Closed under the global context |
| C40_extract | AlignThms.v | Closed under the global context |
| C40_extract_symbols | AlignThms.v | Closed under the global context |
| C40_extract_twice | AlignThms.v | Closed under the global context |
| C40_extract_twice_refuted | AlignThms.v | Closed under the global context |
| C40_graphemes | AlignThms.v | Closed under the global context |
| C40_merge | AlignThms.v | Closed under the global context |
| C40_one_output | AlignThms.v | Closed under the global context |
| C40_print | AlignThms.v | Closed under the global context |
| C40_print_pairs | AlignThms.v | Closed under the global context |
| C40_read | AlignThms.v | Closed under the global context |
| C40_reassign | AlignThms.v | Closed under the global context |
| C40_repeated_refuted | AlignThms.v | Closed under the global context |
| C40_rewrite | AlignThms.v | Closed under the global context |
| C40_round_trip | AlignThms.v | Closed under the global context |
| C40_symbols_once | AlignThms.v | Closed under the global context |
| C40_total | AlignThms.v | Closed under the global context |
| C40_unnamed_refuted | AlignThms.v | Closed under the global context |
| C41_nfc_preserves_canonical_equivalence | NfcThms.v | Closed under the global context |
| C42_accepted_lines | KbestThms.v | Closed under the global context |
| C42_extractor | KbestThms.v | Closed under the global context |
| C42_negative_index_refuted | KbestThms.v | Closed under the global context |
| C43_pieces | PairlmThms.v | Closed under the global context |
| C43_pieces_text | PairlmThms.v | Closed under the global context |
| C43_pieces_unique | PairlmThms.v | Closed under the global context |
| C43_text | PairlmThms.v | Closed under the global context |
| C44_arcless_refuted | PairlmThms.v | Closed under the global context |
| C44_circle_refuted | PairlmThms.v | Closed under the global context |
| C44_cost_unique | PairlmThms.v | Closed under the global context |
| C44_phi | PairlmThms.v | Closed under the global context |
| C45_as_coded_ends | LatticeThms.v | Closed under the global context |
| C45_as_coded_refuted | LatticeThms.v | Closed under the global context |
| C45_parallel | LatticeThms.v | Closed under the global context |
| C46_epsilon_refuted | CacheThms.v | Closed under the global context |
| C46_first_time | CacheThms.v | Closed under the global context |
| C46_history_refuted | CacheThms.v | Closed under the global context |
| C46_no_caching | CacheThms.v | Closed under the global context |
| C46_override | CacheThms.v | Closed under the global context |
| C46_remembered | CacheThms.v | Closed under the global context |
| C46_repeated_word | CacheThms.v | Closed under the global context |
| C46_sound | CacheThms.v | Closed under the global context |
| C46_symbols | CacheThms.v | Closed under the global context |
| C46_symbols_refuted | CacheThms.v | Closed under the global context |
| C47_empty_text_refuted | LatticeThms.v | Closed under the global context |
| C47_round_trip | LatticeThms.v | Closed under the global context |
| C48_covers | CacheThms.v | Closed under the global context |
| C48_external | CacheThms.v | Closed under the global context |
| C48_settings | CacheThms.v | Closed under the global context |
| C48_utf8_always | CacheThms.v | Closed under the global context |
| C48_utf8_refuted | CacheThms.v | Closed under the global context |
| C48_weight_refuted | CacheThms.v | Closed under the global context |
| C49_input_side | LatticeThms.v | Closed under the global context |
| C49_not_a_number | LatticeThms.v | Closed under the global context |
| C49_output_side | LatticeThms.v | Closed under the global context |
| C49_pairs_unique | LatticeThms.v | Closed under the global context |
| C50_as_coded_refuted | LatticeThms.v | Closed under the global context |
| C50_labels | LatticeThms.v | Closed under the global context |
| C50_with_model | LatticeThms.v | Closed under the global context |
| C50_without_model | LatticeThms.v | Closed under the global context |
| C51_aspect_sets | FeatureThms.v | Closed under the global context |
| C51_has_feature | FeatureThms.v | Closed under the global context |
| C51_parent | FeatureThms.v | Closed under the global context |
| C51_parents | FeatureThms.v | Closed under the global context |
| C51_range | FeatureThms.v | Closed under the global context |
| C51_range_other_list | FeatureThms.v | Closed under the global context |
| C51_range_self | FeatureThms.v | Closed under the global context |
| C51_range_self_refuted | FeatureThms.v | Closed under the global context |
| C51_value_in_aspect_refuted | FeatureThms.v | Closed under the global context |
| C51_value_in_list_refuted | FeatureThms.v | Closed under the global context |
| C51_value_in_profile | FeatureThms.v | Closed under the global context |
| C51_value_in_set | FeatureThms.v | Closed under the global context |
| C52_documented_refuted | OperationThms.v | Closed under the global context |
| C52_links | OperationThms.v | Closed under the global context |
| C52_shipped | OperationThms.v | Closed under the global context |
| C52_shown | OperationThms.v | Closed under the global context |
| C53_added_again_refuted | SymbolThms.v | Closed under the global context |
| C53_disjoint | SymbolThms.v | Closed under the global context |
| C53_hundred_first_refuted | SymbolThms.v | Closed under the global context |
| C53_phonemes | SymbolThms.v | Closed under the global context |
| C53_private_use_refuted | SymbolThms.v | Closed under the global context |
| C53_second_inventory_refuted | SymbolThms.v | Closed under the global context |
| C54_any_context | ExpressionRuleThms.v | Closed under the global context |
| C54_context | ExpressionRuleThms.v | Closed under the global context |
| C54_copy | ExpressionRuleThms.v | Closed under the global context |
| C54_deletion | ExpressionRuleThms.v | Closed under the global context |
| C54_fields | ExpressionRuleThms.v | Closed under the global context |
| C54_insertion | ExpressionRuleThms.v | Closed under the global context |
| C54_interchangeable | ExpressionRuleThms.v | Closed under the global context |
| C54_left_context | ExpressionRuleThms.v | Closed under the global context |
| C54_right_context | ExpressionRuleThms.v | Closed under the global context |
| C55_exported_no_clash | IsoRoundThms.v | Closed under the global context |
| C55_exported_round_trip | IsoRoundThms.v | Closed under the global context |
| C55_forth_after_back_refuted | IsoRoundThms.v | Closed under the global context |
| C55_guru_one_reading | IsoRoundThms.v | Closed under the global context |
| C55_guru_refuted | IsoRoundThms.v | Closed under the global context |
| C55_guru_round_trip | IsoRoundThms.v | Closed under the global context |
| C55_no_clash | IsoRoundThms.v | Closed under the global context |
| C55_one_reading | IsoRoundThms.v | Closed under the global context |
| C55_one_romanization | IsoRoundThms.v | Closed under the global context |
| C55_round_trip | IsoRoundThms.v | Closed under the global context |
| C56_archive | GrammarThms.v | Closed under the global context |
| C56_archive_keys | GrammarThms.v | Closed under the global context |
| C56_archive_ok | GrammarThms.v | Closed under the global context |
| C56_init_refuted | GrammarThms.v | Closed under the global context |
| C56_least | GrammarThms.v | Closed under the global context |
| C56_mixed_refuted | GrammarThms.v | Closed under the global context |
| C56_names_cover | GrammarThms.v | Closed under the global context |
| C56_no_rules_refuted | GrammarThms.v | Closed under the global context |
| C56_one_by_one | GrammarThms.v | Closed under the global context |
| C56_one_by_one_refuted | GrammarThms.v | Closed under the global context |
| C56_one_name | GrammarThms.v | Closed under the global context |
| C56_split | GrammarThms.v | Closed under the global context |
| C56_three_names | GrammarThms.v | Closed under the global context |
| C56_through | GrammarThms.v | Closed under the global context |
| C56_two_names | GrammarThms.v | Closed under the global context |
| C56_valid | GrammarThms.v | Closed under the global context |
| C57_alive | GrammarThms.v | Closed under the global context |
| C57_deleted_once | GrammarThms.v | Closed under the global context |
| C57_freed | GrammarThms.v | Closed under the global context |
| C57_sharing_dangles_refuted | GrammarThms.v | Closed under the global context |
| C57_sharing_refuted | GrammarThms.v | Closed under the global context |
| C58_connected_paths | PathThms.v | Closed under the global context |
| C58_cyclic_error | PathThms.v | Closed under the global context |
| C58_no_path_twice | PathThms.v | Closed under the global context |
| C58_only_accepted_refuted | PathThms.v | Closed under the global context |
| C58_paths | PathThms.v | Closed under the global context |
| C58_reset_midway_refuted | PathThms.v | Closed under the global context |
| C58_unchecked_cycle_refuted | PathThms.v | Closed under the global context |
| C59_acceptor_tie_refuted | ReadoutThms.v | Closed under the global context |
| C59_all_strings | ReadoutThms.v | Closed under the global context |
| C59_debug_byte | ReadoutThms.v | Closed under the global context |
| C59_debug_epsilon_refuted | ReadoutThms.v | Closed under the global context |
| C59_debug_name | ReadoutThms.v | Closed under the global context |
| C59_debug_pieces | ReadoutThms.v | Closed under the global context |
| C59_debug_string | ReadoutThms.v | Closed under the global context |
| C59_different_strings | ReadoutThms.v | Closed under the global context |
| C59_lattice | ReadoutThms.v | Closed under the global context |
| C59_lattice_fails | ReadoutThms.v | Closed under the global context |
| C59_no_lattice | ReadoutThms.v | Closed under the global context |
| C59_one_top_acceptor | ReadoutThms.v | Closed under the global context |
| C59_one_top_rewrite | ReadoutThms.v | Closed under the global context |
| C59_rewrites | ReadoutThms.v | Closed under the global context |
| C59_rewrites_fail | ReadoutThms.v | Closed under the global context |
| C60_assignments | ManagerThms.v | Closed under the global context |
| C60_known_rules | ManagerThms.v | Closed under the global context |
| C60_load | ManagerThms.v | Closed under the global context |
| C60_load_failure | ManagerThms.v | Closed under the global context |
| C60_no_rules | ManagerThms.v | Closed under the global context |
| C60_parentheses | ManagerThms.v | Closed under the global context |
| C60_refused_rules_fail_refuted | ManagerThms.v | Closed under the global context |
| C60_reuse_noticed_refuted | ManagerThms.v | Closed under the global context |
| C60_rewrite | ManagerThms.v | Closed under the global context |
| C60_rewrite_aborts | ManagerThms.v | Closed under the global context |
| C60_set | ManagerThms.v | Closed under the global context |
| C60_set_rules | ManagerThms.v | Closed under the global context |
| C60_split | ManagerThms.v | Closed under the global context |
| C61_bytes | NatThms.v | Closed under the global context |
| C61_grammars | NatThms.v | Closed under the global context |
| C61_symbols | NatThms.v | Closed under the global context |
| C62_letters | NatThms.v | Closed under the global context |
| C62_reading | NatThms.v | Closed under the global context |
| C63_coarse_refuted | NatThms.v | Closed under the global context |
| C63_gujarati | NatThms.v | Closed under the global context |
| C63_gujarati_refuted | NatThms.v | Closed under the global context |
| C63_letters | NatThms.v | Closed under the global context |
| C63_one_result | NatThms.v | Closed under the global context |
| C63_punjabi | NatThms.v | Closed under the global context |
| C63_punjabi_one_refuted | NatThms.v | Closed under the global context |
| C64_letters | NatThms.v | Closed under the global context |
| C64_one_result | NatThms.v | Closed under the global context |
| C64_punjabi | NatThms.v | Closed under the global context |
| C64_transcription | NatThms.v | Closed under the global context |
| C64_transcription_gujarati | NatThms.v | Closed under the global context |
| C64_transcription_punjabi | NatThms.v | Closed under the global context |
| C65_occurs | NatSoundThms.v | Closed under the global context |
| C65_sounds | NatSoundThms.v | Closed under the global context |
| C66_pronunciation | NatSoundThms.v | Closed under the global context |
| C66_romanization | NatSoundThms.v | Closed under the global context |
| C67_none | DeromThms.v | Closed under the global context |
| C67_one | DeromThms.v | Closed under the global context |
| C67_vowels | DeromThms.v | Closed under the global context |
| C68_hindi | DeromThms.v | Closed under the global context |
| C68_tamil | DeromThms.v | Closed under the global context |
| C68_tamil_tr_refuted | DeromThms.v | Closed under the global context |
| C69_hindi | DeromAgreeThms.v | Closed under the global context |
| C69_tamil | DeromAgreeThms.v | Closed under the global context |
| C70_back | IsoTextThms.v | Closed under the global context |
| C70_bengali | IsoTextThms.v | Closed under the global context |
| C70_bengali_refuted | IsoTextThms.v | Closed under the global context |
| C70_exported | IsoTextThms.v | Closed under the global context |
| C70_kannada | IsoTextThms.v | Closed under the global context |
| C70_kannada_refuted | IsoTextThms.v | Closed under the global context |
| C70_one_text | IsoTextThms.v | Closed under the global context |
| C70_romanize | IsoTextThms.v | Closed under the global context |
| C70_total | IsoTextThms.v | Closed under the global context |
| C71_m_long_o | FixedThms.v | Closed under the global context |
| C71_m_long_o_refuted | FixedThms.v | Closed under the global context |
| C71_not_ascii | FixedThms.v | Closed under the global context |
| C71_one_text | FixedThms.v | Closed under the global context |
| C71_typed | FixedThms.v | Closed under the global context |
| C72_alike | SoundThms.v | Closed under the global context |
| C72_builds | SoundThms.v | Closed under the global context |
| C72_distances | SoundThms.v | Closed under the global context |
| C72_documented | SoundThms.v | Closed under the global context |
| C72_metric | SoundThms.v | Closed under the global context |
| C72_names | SoundThms.v | Closed under the global context |
| C72_oi_refuted | SoundThms.v | Closed under the global context |
| C72_triangle_refuted | SoundThms.v | Closed under the global context |
| C73_add_adds | SoundAddThms.v | Closed under the global context |
| C73_add_keeps | SoundAddThms.v | Closed under the global context |
| C73_add_only | SoundAddThms.v | Closed under the global context |
| C73_case | SoundThms.v | Closed under the global context |
| C73_documented | SoundThms.v | Closed under the global context |
| C73_english | SoundThms.v | Closed under the global context |
| C73_latin_english | SoundThms.v | Closed under the global context |
| C73_latin_phoneme | SoundThms.v | Closed under the global context |
| C73_latin_r | SoundThms.v | Closed under the global context |
| C73_other_sound_refuted | SoundThms.v | Closed under the global context |
| C74_injective | SpelloutThms.v | Closed under the global context |
| C74_injective_refuted | SpelloutThms.v | Closed under the global context |
| C74_script | SpelloutThms.v | Closed under the global context |
| C74_spelling | SpelloutThms.v | Closed under the global context |
| C74_unnamed | SpelloutThms.v | Closed under the global context |
| C75_acronym | AcronymThms.v | Closed under the global context |
| C75_one_result | AcronymThms.v | Closed under the global context |
| C75_other | AcronymThms.v | Closed under the global context |
| C75_spelled | AcronymThms.v | Closed under the global context |
| C75_spelled_exists | AcronymThms.v | Closed under the global context |
| C75_unique | AcronymThms.v | Closed under the global context |
| C76_best_exists | TesterThms.v | Closed under the global context |
| C76_brackets_refuted | TesterThms.v | Closed under the global context |
| C76_bytes | TesterThms.v | Closed under the global context |
| C76_cascade | TesterThms.v | Closed under the global context |
| C76_details | TesterThms.v | Closed under the global context |
| C76_dialogue | TesterModeThms.v | Closed under the global context |
| C76_generated | TesterThms.v | Closed under the global context |
| C76_least | TesterThms.v | Closed under the global context |
| C76_many | TesterThms.v | Closed under the global context |
| C76_missing_refuted | TesterThms.v | Closed under the global context |
| C76_modes | TesterModeThms.v | Closed under the global context |
| C76_no_want | TesterThms.v | Closed under the global context |
| C76_rules | TesterThms.v | Closed under the global context |
| C76_separators_refuted | TesterThms.v | Closed under the global context |
| C76_start | TesterThms.v | Closed under the global context |
| C76_symbol_missing | TesterThms.v | Closed under the global context |
| C76_symbols | TesterThms.v | Closed under the global context |
| C76_told_apart | TesterThms.v | Closed under the global context |
| C76_truncated_refuted | TesterThms.v | Closed under the global context |
| C76_unparsed | TesterThms.v | Closed under the global context |
| C76_utf8 | TesterThms.v | Closed under the global context |
| C76_utf8_faithful | TesterThms.v | Closed under the global context |
| C77_added_byte | SymtabThms.v | Closed under the global context |
| C77_added_character | SymtabThms.v | Closed under the global context |
| C77_bytes | SymtabThms.v | Closed under the global context |
| C77_characters | SymtabThms.v | Closed under the global context |
| C77_early_refuted | SymtabThms.v | Closed under the global context |
| C77_generated | SymtabThms.v | Closed under the global context |
| C77_kept | SymtabThms.v | Closed under the global context |
| C77_only_bytes | SymtabThms.v | Closed under the global context |
| C77_only_characters | SymtabThms.v | Closed under the global context |
| C77_plain | SymtabThms.v | Closed under the global context |
| C77_second_above | SymtabThms.v | Closed under the global context |
| C77_second_refuted | SymtabThms.v | Closed under the global context |
| C77_spaces | SymtabThms.v | Closed under the global context |
| C78_at_least | EmdThms.v | Closed under the global context |
| C78_at_least_reference | EmdThms.v | Closed under the global context |
| C78_at_most | EmdThms.v | Closed under the global context |
| C78_edits_and_length | EmdThms.v | Closed under the global context |
| C78_lengths | EmdThms.v | Closed under the global context |
| C78_mean_length | EmdThms.v | Closed under the global context |
| C78_no_lines | EmdThms.v | Closed under the global context |
| C78_one_hypothesis | EmdThms.v | Closed under the global context |
| C78_one_reference | EmdThms.v | Closed under the global context |
| C78_overall | EmdThms.v | Closed under the global context |
| C78_prices | EmdThms.v | Closed under the global context |
| C78_probabilities | EmdThms.v | Closed under the global context |
| C78_same | EmdThms.v | Closed under the global context |
| C78_same_length | EmdThms.v | Closed under the global context |
| C78_same_length_refuted | EmdThms.v | Closed under the global context |
| C78_shift | EmdThms.v | Closed under the global context |
| C78_text | EmdThms.v | Closed under the global context |
| C78_text_refuted | EmdThms.v | Closed under the global context |
| C78_unique | EmdThms.v | Closed under the global context |
| C78_vector | EmdThms.v | Closed under the global context |
| C78_vector_refuted | EmdThms.v | Closed under the global context |
| C78_zero | EmdThms.v | Closed under the global context |
| C79_below | LanguageThms.v | Closed under the global context |
| C79_distances | LanguageThms.v | Closed under the global context |
| C79_equidistant | LanguageThms.v | Closed under the global context |
| C79_families | LanguageThms.v | Closed under the global context |
| C79_from_iso | LanguageThms.v | Closed under the global context |
| C79_languages | LanguageThms.v | Closed under the global context |
| C79_numbers | LanguageThms.v | Closed under the global context |
| C79_numbers_refuted | LanguageThms.v | Closed under the global context |
| C80_any_text | FileThms.v | Closed under the global context |
| C80_close_twice | FileThms.v | Closed under the global context |
| C80_cut_refuted | FileThms.v | Closed under the global context |
| C80_empty_proto_refuted | FileThms.v | Closed under the global context |
| C80_empty_refuted | FileThms.v | Closed under the global context |
| C80_lines | FileThms.v | Closed under the global context |
| C80_lines_round | FileThms.v | Closed under the global context |
| C80_long_limit_refuted | FileThms.v | Closed under the global context |
| C80_proto | FileThms.v | Closed under the global context |
| C80_put_after_close | FileThms.v | Closed under the global context |
| C80_read_line | FileThms.v | Closed under the global context |
| C80_read_to_string | FileThms.v | Closed under the global context |
| C80_readers | FileThms.v | Closed under the global context |
| C80_reported | FileThms.v | Closed under the global context |
| C80_reported_refuted | FileThms.v | Closed under the global context |
| C80_short_lines | FileThms.v | Closed under the global context |
| C80_stream | FileThms.v | Closed under the global context |
| C80_stream_close | FileThms.v | Closed under the global context |
| C80_stream_delete | FileThms.v | Closed under the global context |
| C80_stream_flushed | FileThms.v | Closed under the global context |
| C80_stream_prefix | FileThms.v | Closed under the global context |
| C80_temp_path | FileThms.v | Closed under the global context |
| C80_temp_write_read | FileThms.v | Closed under the global context |
| C80_text_proto | FileThms.v | Closed under the global context |
| C80_unlimited_refuted | FileThms.v | Closed under the global context |
| C80_write_lines | FileThms.v | Closed under the global context |
| C80_write_lines_all | FileThms.v | Closed under the global context |
| C80_write_read | FileThms.v | Closed under the global context |
| C80_zero_refuted | FileThms.v | Closed under the global context |
| C81_accep | FstListThms.v | Closed under the global context |
| C81_add | FstListThms.v | Closed under the global context |
| C81_compose | FstListThms.v | Closed under the global context |
| C81_concat | FstListThms.v | Closed under the global context |
| C81_list | FstListThms.v | Closed under the global context |
| C81_make | FstListThms.v | Closed under the global context |
| C81_make_refuted | FstListThms.v | Closed under the global context |
| C81_semantics | FstListThms.v | Closed under the global context |
| C81_union | FstListThms.v | Closed under the global context |
| C81_union_star | FstListThms.v | Closed under the global context |
| C82_alias_refuted | LogThms.v | Closed under the global context |
| C82_caller | LogThms.v | Closed under the global context |
| C82_name | LogThms.v | Closed under the global context |
| C82_returns | LogThms.v | Closed under the global context |
| C82_silent | LogThms.v | Closed under the global context |
| C82_text | LogThms.v | Closed under the global context |
| C82_text_not_empty | LogThms.v | Closed under the global context |
| C82_texts | LogThms.v | Closed under the global context |
| C82_value | LogThms.v | Closed under the global context |
| C82_value_refuted | LogThms.v | Closed under the global context |
| C83_cases | AssertThms.v | Closed under the global context |
| C83_functional | AssertThms.v | Closed under the global context |
| C83_identity | AssertThms.v | Closed under the global context |
| C83_identity_error | AssertThms.v | Closed under the global context |
| C83_identity_norm | AssertThms.v | Closed under the global context |
| C83_identity_samples | AssertThms.v | Closed under the global context |
| C83_int | AssertThms.v | Closed under the global context |
| C83_length_refuted | AssertThms.v | Closed under the global context |
| C83_sampled | AssertThms.v | Closed under the global context |
| C83_sampled_fails | AssertThms.v | Closed under the global context |
| C83_shortest_samples | AssertThms.v | Closed under the global context |
| C83_single_path | AssertThms.v | Closed under the global context |
| C83_single_path_input | AssertThms.v | Closed under the global context |
| C83_single_path_refuted | AssertThms.v | Closed under the global context |
| C83_single_shortest | AssertThms.v | Closed under the global context |
| C83_single_shortest_error | AssertThms.v | Closed under the global context |
| C83_str_io | AssertThms.v | Closed under the global context |
| C84_entry | TextprotoThms.v | Closed under the global context |
| C84_exact | TextprotoThms.v | Closed under the global context |
| C84_exact_subset | TextprotoThms.v | Closed under the global context |
| C84_listed_twice | TextprotoThms.v | Closed under the global context |
| C84_mode_names | TextprotoThms.v | Closed under the global context |
| C84_one_top_top | TextprotoThms.v | Closed under the global context |
| C84_set_difference | TextprotoThms.v | Closed under the global context |
| C84_set_difference_refuted | TextprotoThms.v | Closed under the global context |
| C84_stopped | TextprotoThms.v | Closed under the global context |
| C84_superset | TextprotoThms.v | Closed under the global context |
| C84_test | TextprotoThms.v | Closed under the global context |
| C84_unknown_mode | TextprotoThms.v | Closed under the global context |
| C85_all_exist | StableThms.v | Closed under the global context |
| C85_joiners_refuted | StableThms.v | Closed under the global context |
| C85_joiners_well_formed_refuted | StableThms.v | Closed under the global context |
| C85_plain | StableThms.v | Closed under the global context |
| C85_plain_refuted | StableThms.v | Closed under the global context |
| C85_settled | StableThms.v | Closed under the global context |
| C85_well_formed | StableThms.v | Closed under the global context |
| C85_well_formed_refuted | StableThms.v | Closed under the global context |
| C85_well_formed_result | StableThms.v | Closed under the global context |
| C85_well_formed_result_refuted | StableThms.v | Closed under the global context |
| C86_nfc | KeepThms.v | Closed under the global context |
| C86_nfc_refuted | KeepThms.v | Closed under the global context |
| C86_reading | KeepThms.v | Closed under the global context |
| C86_reading_refuted | KeepThms.v | Closed under the global context |
| C86_visual | KeepThms.v | Closed under the global context |
| C87_decoder | CommandThms.v | Closed under the global context |
| C87_ensemble | CommandThms.v | Closed under the global context |
| C87_error_rate | CommandThms.v | Closed under the global context |
| C87_extract | CommandThms.v | Closed under the global context |
| C87_extract_usage_refuted | CommandThms.v | Closed under the global context |
| C87_lm_flag | CommandThms.v | Closed under the global context |
| C87_lm_flag_refuted | CommandThms.v | Closed under the global context |
| C87_pairlm_flag | CommandThms.v | Closed under the global context |
| C87_rejoin | CommandThms.v | Closed under the global context |
| C87_rejoin_usage_refuted | CommandThms.v | Closed under the global context |
| C87_usage | CommandThms.v | Closed under the global context |
| C88_coverage_test | LetterThms.v | Closed under the global context |
| C88_fill | LetterThms.v | Closed under the global context |
| C88_fill_again | LetterThms.v | Closed under the global context |
| C88_fill_strings | LetterThms.v | Closed under the global context |
| C88_fill_strings_refuted | LetterThms.v | Closed under the global context |
| C88_languages_test | LetterThms.v | Closed under the global context |
| C88_letters_test | LetterThms.v | Closed under the global context |
| C88_one_code | LetterThms.v | Closed under the global context |
| C88_regions_test | LetterThms.v | Closed under the global context |
| C88_roundtrip | LetterThms.v | Closed under the global context |
| C88_shipped | LetterThms.v | Closed under the global context |
| C88_shipped_codes | LetterThms.v | Closed under the global context |
| C88_three_letters_refuted | LetterThms.v | Closed under the global context |
| C89_agree | FarThms.v | Closed under the global context |
| C89_answer | FarThms.v | Closed under the global context |
| C89_any_case | FarThms.v | Closed under the global context |
| C89_bad_token | FarThms.v | Closed under the global context |
| C89_brahmic | FarThms.v | Closed under the global context |
| C89_capitals_found | FarThms.v | Closed under the global context |
| C89_directory_refuted | FarThms.v | Closed under the global context |
| C89_exact_names_refuted | FarThms.v | Closed under the global context |
| C89_grammar | FarThms.v | Closed under the global context |
| C89_history | FarThms.v | Closed under the global context |
| C89_history_none | FarThms.v | Closed under the global context |
| C89_is_file | FarThms.v | Closed under the global context |
| C89_load | FarThms.v | Closed under the global context |
| C89_load_any_case | FarThms.v | Closed under the global context |
| C89_load_fails | FarThms.v | Closed under the global context |
| C89_load_works | FarThms.v | Closed under the global context |
| C89_only_capitals | FarThms.v | Closed under the global context |
| C89_open | FarThms.v | Closed under the global context |
| C89_safe | FarThms.v | Closed under the global context |
| C89_safe_refuted | FarThms.v | Closed under the global context |
| C89_test_path | FarThms.v | Closed under the global context |
| C89_working_directory | FarThms.v | Closed under the global context |
| C90_get | TestdataThms.v | Closed under the global context |
| C90_get_error | TestdataThms.v | Closed under the global context |
| C90_heading | TestdataThms.v | Closed under the global context |
| C90_keep_refuted | TestdataThms.v | Closed under the global context |
| C90_round_trip | TestdataThms.v | Closed under the global context |
| C90_set_any | TestdataThms.v | Closed under the global context |
| C90_set_dies | TestdataThms.v | Closed under the global context |
| C90_set_errors | TestdataThms.v | Closed under the global context |
| C90_set_ok | TestdataThms.v | Closed under the global context |
| C90_set_works | TestdataThms.v | Closed under the global context |
| C91_acceptor | BuildThms.v | Closed under the global context |
| C91_acceptor_refuted | BuildThms.v | Closed under the global context |
| C91_archive | BuildThms.v | Closed under the global context |
| C91_archive_refuted | BuildThms.v | Closed under the global context |
| C91_export | BuildThms.v | Closed under the global context |
| C91_export_abjad | BuildThms.v | Closed under the global context |
| C91_file | BuildThms.v | Closed under the global context |
| C91_file_refuted | BuildThms.v | Closed under the global context |
| C91_flags | BuildThms.v | Closed under the global context |
| C91_names | BuildThms.v | Closed under the global context |
| C91_reading | BuildThms.v | Closed under the global context |
| C91_sed_none | BuildThms.v | Closed under the global context |
| C91_sed_place | BuildThms.v | Closed under the global context |
| C91_shipped | BuildThms.v | Closed under the global context |
| C91_supports | BuildThms.v | Closed under the global context |
| C91_supports_refuted | BuildThms.v | Closed under the global context |
| C91_two_scripts_refuted | BuildThms.v | Closed under the global context |
| C92_again_refuted | ArabThms.v | Closed under the global context |
| C92_alone | ArabThms.v | Closed under the global context |
| C92_alphabet | ArabThms.v | Closed under the global context |
| C92_at_end | ArabThms.v | Closed under the global context |
| C92_gone | ArabThms.v | Closed under the global context |
| C92_phrase_refuted | ArabThms.v | Closed under the global context |
| C92_reading | ArabThms.v | Closed under the global context |
| C92_swap_refuted | ArabThms.v | Closed under the global context |
| C92_untouched | ArabThms.v | Closed under the global context |
| C92_visual | ArabThms.v | Closed under the global context |
| C92_within | ArabThms.v | Closed under the global context |
| C93_base | PhonThms.v | Closed under the global context |
| C93_compose | PhonThms.v | Closed under the global context |
| C93_compose_fails | PhonThms.v | Closed under the global context |
| C93_composites | PhonThms.v | Closed under the global context |
| C93_consonants | PhonThms.v | Closed under the global context |
| C93_decode | PhonThms.v | Closed under the global context |
| C93_decode_refuted | PhonThms.v | Closed under the global context |
| C93_devoiced | PhonThms.v | Closed under the global context |
| C93_devoiced_inventory | PhonThms.v | Closed under the global context |
| C93_features | PhonThms.v | Closed under the global context |
| C93_features_refuted | PhonThms.v | Closed under the global context |
| C93_import | PhonThms.v | Closed under the global context |
| C93_import_composed | PhonThms.v | Closed under the global context |
| C93_import_refuted | PhonThms.v | Closed under the global context |
| C93_inventory | PhonThms.v | Closed under the global context |
| C93_ipa | PhonThms.v | Closed under the global context |
| C93_ipa_refuted | PhonThms.v | Closed under the global context |
| C93_nested | PhonThms.v | Closed under the global context |
| C93_suffix | PhonThms.v | Closed under the global context |
| C93_suffix_fails | PhonThms.v | Closed under the global context |
| C93_suffix_refuted | PhonThms.v | Closed under the global context |
| C93_table | PhonThms.v | Closed under the global context |
| C93_table_refuted | PhonThms.v | Closed under the global context |
| C93_vowels | PhonThms.v | Closed under the global context |
| C94_affricate | PhonTextThms.v | Closed under the global context |
| C94_base | PhonTextThms.v | Closed under the global context |
| C94_base_unique_refuted | PhonTextThms.v | Closed under the global context |
| C94_diphthong | PhonTextThms.v | Closed under the global context |
| C94_repeated | PhonTextThms.v | Closed under the global context |
| C94_repeated_idempotent_refuted | PhonTextThms.v | Closed under the global context |
| C94_romanized | PhonTextThms.v | Closed under the global context |
| C94_symbols | PhonTextThms.v | Closed under the global context |
| C94_total | PhonTextThms.v | Closed under the global context |
