{
 "claims": [
  {
   "property": "C01",
   "status": "proved",
   "theorems": [
    "C01_layers_sound",
    "C01_layers_total",
    "C01_error_iff_conflict"
   ],
   "note": "partition_unordered over all rule lists; networkx graph modelled by node and edge lists."
  },
  {
   "property": "C02",
   "status": "proved",
   "theorems": [
    "C02_total_functional"
   ],
   "note": "cdrewrite is modelled by its specified left-to-right obligatory behaviour (trusted); empty left-hand sides are excluded because the reader rejects them."
  },
  {
   "property": "C03",
   "status": "proved",
   "theorems": [
    "C03_pass_obligatory",
    "C03_no_match_identity"
   ],
   "note": "Per layer for prefix-free layers (all layers produced by the partitioning are), identity for whole rule sets."
  },
  {
   "property": "C04",
   "status": "proved",
   "theorems": [
    "C04_no_feedback_idempotent",
    "C04_brahmic_nfc_idempotent",
    "C04_arab_nfc_idempotent_refuted"
   ],
   "note": "General criterion plus all 20 Brahmic tables and their union, checked by a decision procedure proved sound; the Arabic table is refuted with a witness (the project's own test_util notes this)."
  },
  {
   "property": "C05",
   "status": "proved",
   "theorems": [
    "C05_heuristic_irrelevant",
    "C05_small_lists"
   ],
   "note": "For any FST type, composition operation and state counts."
  },
  {
   "property": "C06",
   "status": "proved",
   "theorems": [
    "C06_cascade_is_successive_replacement",
    "C06_cascade_split"
   ],
   "note": "Cascades equal successive whole-text replacement, any split point."
  },
  {
   "property": "C07",
   "status": "proved",
   "theorems": [
    "C07_rules_agree",
    "C07_matches_aligned",
    "C07_shipped_rules_agree",
    "C07_shipped_visual_norm_agrees",
    "C07_well_formed_agrees",
    "C07_well_formed_image",
    "C07_shipped_tables_plain",
    "C07_agree_on_all_text_refuted"
   ],
   "note": "Agreement holds for every text over the alphabet of the code-point grammar. Outside of that alphabet the shipped grammars differ (byte mode passes the text on), see C07_agree_on_all_text_refuted."
  },
  {
   "property": "C08",
   "status": "proved",
   "theorems": [
    "C08_collapses_runs",
    "C08_runs_cover",
    "C08_no_doubles_idempotent",
    "C08_set_order_irrelevant"
   ],
   "note": "For every non-empty mark set; the generator always includes the three joiners."
  },
  {
   "property": "C09",
   "status": "proved",
   "theorems": [
    "C09_exact_result",
    "C09_joiners_only_inside_preserved",
    "C09_preserved_between_consonants",
    "C09_shipped_tables_good",
    "C09_shipped_total_functional",
    "C09_shipped_joiners"
   ],
   "note": "Generic in tables and in the preceding steps; the requirements are checked on all 20 shipped scripts. The tables are regenerated from the textprotos by rocq/gen/gentables.py (trusted)."
  },
  {
   "property": "C10",
   "status": "proved",
   "theorems": [
    "C10_exactly_unit_sequences",
    "C10_accepts_empty",
    "C10_closed_under_concatenation",
    "C10_monotone_in_tables",
    "C10_starts_with_starter",
    "C10_shipped_reject_dependent_start",
    "C10_shipped_no_bare_consonant",
    "C10_shipped_tables_good"
   ],
   "note": "The acceptor is the regular expression of wellformed.py over the tables; its language is shown equal to an independent grammar of unit sequences. Table facts are checked on all 20 shipped scripts."
  },
  {
   "property": "C11",
   "status": "proved",
   "theorems": [
    "C11_class_is_complement",
    "C11_empty_ignore_is_error",
    "C11_cut_exists",
    "C11_cut_unique",
    "C11_wordwise",
    "C11_raises_iff",
    "C11_only_ignored_unchanged",
    "C11_idempotent_if_words_are"
   ],
   "note": "Includes the compilation of the character class from re.escape(ignore). An empty ignore string makes the constructor raise re.error."
  },
  {
   "property": "C12",
   "status": "proved",
   "theorems": [
    "C12_escaped_text_is_literal",
    "C12_apply_on_text_exact",
    "C12_accept_text_without_brackets",
    "C12_accept_text_literal_refuted",
    "C12_accept_text_total_refuted",
    "C12_returned_word_well_formed",
    "C12_word_errors",
    "C12_returned_word_well_formed_refuted",
    "C12_abjad_word"
   ],
   "note": "pynini's string compiler is modelled for escapes and decimal bracket labels (trusted); other bracket contents and stray backslashes are parameters. AcceptText is refuted, and so is the claim that a word returned by NormalizingAcceptor is well-formed."
  },
  {
   "property": "C13",
   "status": "proved",
   "theorems": [
    "C13_closure_exact",
    "C13_code_test_sound",
    "C13_romanization_injective",
    "C13_romanization_functional",
    "C13_bytes_reversible",
    "C13_round_trip",
    "C13_api_can_round_trip",
    "C13_api_passes_foreign_text",
    "C13_api_functional_refuted"
   ],
   "note": "Shipped table, closure relation, NFC composition. The Roman side is a uniquely decodable code (Sardinas-Patterson test, proved sound). The API wrapper ToReversibleRoman, a cdrewrite of FROM_ARAB, is refuted as a function: it may romanize in pieces without NFC; cdrewrite of a transducer is a trusted model."
  },
  {
   "property": "C14",
   "status": "proved",
   "theorems": [
    "C14_name_resolution",
    "C14_unique_name_resolves",
    "C14_spelling",
    "C14_prefix_order_irrelevant",
    "C14_set_order_irrelevant",
    "C14_same_character_twice_refuted",
    "C14_sequence_names_refuted"
   ],
   "note": "unicodedata is a parameter. Two wider readings are refuted: a character found by two listed spellings is rejected, and names of character sequences, which the proto allows, raise TypeError."
  },
  {
   "property": "C15",
   "status": "proved",
   "theorems": [
    "C15_raw_and_names_agree",
    "C15_raw_only",
    "C15_names_only",
    "C15_names_denote",
    "C15_nothing_given_raises",
    "C15_convert_item"
   ],
   "note": "unicodedata and the order of list(set(..)) are parameters."
  },
  {
   "property": "C16",
   "status": "proved",
   "theorems": [
    "C16_rules_read_back",
    "C16_proto_round_trip",
    "C16_alphabet_exact",
    "C16_alphabet_of_blank_refuted",
    "C16_hash_refuted",
    "C16_file_read"
   ],
   "note": "The pandas reader is a trusted model (no quotes, carriage returns or third column; number inference is a parameter). Refuted without the restrictions: white space at line ends is missing from the alphabet, '#' cuts a rule off."
  },
  {
   "property": "C17",
   "status": "proved",
   "theorems": [
    "C17_distances",
    "C17_pairs",
    "C17_symmetric_bounded",
    "C17_self",
    "C17_any",
    "C17_not_applicable",
    "C17_alias_clash_refuted",
    "C17_list_distance_refuted"
   ],
   "note": "Distances, pairs, symmetry, bounds, any and n_a proved for all trees with distinct values and aliases not in use; refuted when a feature has the alias of its list (asymmetric) and for ValueList.distance alone (negative). Distances are integers."
  },
  {
   "property": "C18",
   "status": "proved",
   "theorems": [
    "C18_set_distance",
    "C18_nearest_unique",
    "C18_set_symmetric",
    "C18_set_common",
    "C18_set_bounded",
    "C18_set_other_aspects",
    "C18_compare",
    "C18_compare_same",
    "C18_emptied_set_refuted",
    "C18_no_distances_refuted"
   ],
   "note": "Sets and comparison proved for every reachable profile; the similarity is a fraction of integers. Refuted for emptied sets (far below 0) and for inventories whose aspects have one feature each (division by zero). Python sets are lists."
  },
  {
   "property": "C19",
   "status": "proved",
   "theorems": [
    "C19_histories",
    "C19_multi_profiles",
    "C19_lost_update_refuted",
    "C19_same_alias_refuted",
    "C19_inventory_alias_refuted",
    "C19_returned_profile_refuted"
   ],
   "note": "Refinement to functions from aspects to features for every history of new, update and copy; multi-profiles too. Refuted when an aspect alias is an attribute of profiles, when aspects or inventories share an alias, and for the result of MultiProfile.new_profile."
  },
  {
   "property": "C20",
   "status": "proved",
   "theorems": [
    "C20_symbols",
    "C20_shape",
    "C20_cat",
    "C20_cat_add",
    "C20_or",
    "C20_or_add",
    "C20_flatten",
    "C20_flatten_same",
    "C20_unit_left",
    "C20_unit_right",
    "C20_repeat",
    "C20_ques",
    "C20_or_any",
    "C20_or_any_stays",
    "C20_copy",
    "C20_or_step",
    "C20_recurring_refuted",
    "C20_precedence_refuted",
    "C20_control_refuted",
    "C20_equivalent_refuted",
    "C20_alignments_refuted",
    "C20_any_refuted"
   ],
   "note": "Words of every expression tree; construction laws for all expressions built with the constructors and add methods (aliasing of later changed parts not modelled). Flattening holds as equality of trees. Refuted: recurring lists, precedence, skipped controls, alternations of alignments, concatenation with ANY."
  },
  {
   "property": "C21",
   "status": "proved",
   "theorems": [
    "C21_list",
    "C21_eps",
    "C21_nor",
    "C21_contains",
    "C21_contains_lists",
    "C21_any",
    "C21_anything",
    "C21_nothing",
    "C21_accepts",
    "C21_equivalent",
    "C21_accepts_sound",
    "C21_accepts_refl",
    "C21_accepts_trans",
    "C21_accepts_any",
    "C21_ends",
    "C21_ends_empty",
    "C21_equivalent_refuted",
    "C21_same_words_refuted",
    "C21_ghost_refuted",
    "C21_symbol_prefix_refuted",
    "C21_eps_prefix_refuted",
    "C21_empty_or_refuted",
    "C21_nor_refuted",
    "C21_matches_refuted"
   ],
   "note": "All pairs of expressions. Equivalence is proved when no duplicates occur and refuted otherwise. Further refuted: symbols as prefixes of atomics, eps against the empty concatenation, empty alternations against ANY."
  },
  {
   "property": "C22",
   "status": "proved",
   "theorems": [
    "C22_history",
    "C22_kept",
    "C22_from_args",
    "C22_nth_index",
    "C22_nth_index_increasing",
    "C22_nth_index_all",
    "C22_next_index",
    "C22_no_index_refuted",
    "C22_refused_refuted",
    "C22_range_refuted"
   ],
   "note": "Any history of operation inventories: indices strictly increasing, above the prefix, no multiples of ten, lookups consistent and kept; from_args gives the n-th admissible index. Refuted: two foreign operations leave no next index (ValueError); a refused operation is returned with an index that the next one gets too; the 91st operation leaves the range of its prefix."
  },
  {
   "property": "C23",
   "status": "proved",
   "theorems": [
    "C23_lookups",
    "C23_latest_unique",
    "C23_aliases",
    "C23_aliases_differ",
    "C23_home",
    "C23_parse_raw",
    "C23_parse",
    "C23_grapheme_lookups",
    "C23_grapheme_length",
    "C23_grapheme_parse",
    "C23_typed_refuted",
    "C23_alias_taken_refuted",
    "C23_index_taken_refuted",
    "C23_grapheme_alias_refuted",
    "C23_combined_refuted",
    "C23_unknown_alias",
    "C23_grapheme_alias"
   ],
   "note": "All histories of Symbol.Inventory and Grapheme.Inventory: lookups by index, text and raw text give the last symbol with that key; aliases find their item and differ (first one wins); parsing keeps length and characters, equal characters iff equal symbols, new symbols numbered (decimal count or hexadecimal code point in the alias), parsing again changes nothing. Features, names and languages of symbols are not modelled. Refuted: typed inventories never take unknown symbols; taken aliases from_unk_1 and u_0x62; index overwritten by an unknown; a combined inventory of another class is ignored."
  },
  {
   "property": "C24",
   "status": "proved",
   "theorems": [
    "C24_history",
    "C24_no_duplicates",
    "C24_determined",
    "C24_from_list",
    "C24_method_name_refuted",
    "C24_method_name_add_refuted"
   ],
   "note": "Every history of add_item/add_suppl/make_suppl/get refines a list of entries; no alias or item twice, nothing overwritten. Hypothesis: aliases that are not method names; without it refuted (an item called 'get' hides the method)."
  },
  {
   "property": "C25",
   "status": "proved",
   "theorems": [
    "C25_total",
    "C25_exists",
    "C25_same",
    "C25_equal",
    "C25_order",
    "C25_error",
    "C25_new",
    "C25_populated",
    "C25_shared_error_refuted"
   ],
   "note": "Model: a world of FSTs (numbers of states), error nodes and lattices, with the program operations of lattice.py (making FSTs, nodes and lattices, adding states, requesting states), default arguments being shared objects. Proved for every history in which an error node that already has a state is used with one FST only: all requests succeed; a state once given stays, whatever happens in between; among any requests on lattices with one FST, states are equal exactly for equal coordinates or two places out of range with one error node; the order only renames; one new state per new place; populated lattices are numbered by rows. Refuted without the restriction: a second lattice on another FST with the default error node has one state for a place in range and for the error."
  },
  {
   "property": "C26",
   "status": "proved",
   "theorems": [
    "C26_levenshtein",
    "C26_lengths",
    "C26_metric",
    "C26_epsilon_refuted",
    "C26_search_exists"
   ],
   "note": "Composition with the alignment transducer followed by ShortestPath is a parameter assumed to return a least-cost path (C26_search_exists shows such a search exists). Refuted corner: a token spelled <epsilon> gets label 0 and counts as nothing."
  },
  {
   "property": "C27",
   "status": "proved",
   "theorems": [
    "C27_best_reference",
    "C27_fewest_edits_refuted",
    "C27_blank_reference_refuted",
    "C27_best_hypothesis",
    "C27_totals",
    "C27_reading",
    "C27_reading_length",
    "C27_corpus",
    "C27_pairwise",
    "C27_distance_matrix",
    "C27_printing_refuted",
    "C27_shifted_matrix_refuted"
   ],
   "note": "As stated (fewest edits) the claim is false: references are compared by edits per token, C27_fewest_edits_refuted; proved with the error rate instead, for non-blank references. Refuted corners: 0/0 (NaN) keeps a matching blank reference from being chosen; pairwise output of a corpus with an example lacking references is shifted and reads out of range."
  },
  {
   "property": "C28",
   "status": "proved",
   "theorems": [
    "C28_segments",
    "C28_runs_exist",
    "C28_malformed",
    "C28_proper"
   ],
   "note": "For well-formed words the result is exactly the list of texts of the maximal runs (empty if there is one run, which the caller takes for unsegmented). Malformed words are not segmented."
  },
  {
   "property": "C29",
   "status": "proved",
   "theorems": [
    "C29_threshold",
    "C29_at_most_k",
    "C29_best_kept",
    "C29_lattice",
    "C29_no_candidates",
    "C29_ordered_refuted",
    "C29_relative_bound_refuted",
    "C29_bound_refuted"
   ],
   "note": "Proved: at most k, exactly the k first by score and position within the absolute bound, the best is always kept. Refuted parts of the claim: the result is not ordered by score, the bound is absolute and not relative to the best, and it is not applied to lists no longer than k; k = 0 empties the lattice. Costs are integers."
  },
  {
   "property": "C30",
   "status": "proved",
   "theorems": [
    "C30_greedy_merging",
    "C30_greedy_unique",
    "C30_text_kept",
    "C30_pieces_known",
    "C30_input",
    "C30_no_text_lost",
    "C30_default_prefix",
    "C30_malformed_throws",
    "C30_any_prefix_refuted",
    "C30_transducer",
    "C30_transducer_total"
   ],
   "note": "The candidate tables, merge loop (with checked vector accesses and an explicit InternalError), tokenization, whole-input segmentation, file vocabulary and the word-to-wordpiece transducer are modelled. The loop is shown to implement greedy merging of the best ranked, leftmost adjacent pair to its end, for every vocabulary; hence no error, no out-of-range access, termination, no lost text, no mergeable neighbours left. The transducer relation is characterised exactly. A word-initial prefix that is not UTF-8 silently drops all words (refutation); malformed input throws."
  },
  {
   "property": "C31",
   "status": "proved",
   "theorems": [
    "C31_encode_exact",
    "C31_encode_throws",
    "C31_prefix_free",
    "C31_decode_first",
    "C31_decode_invalid",
    "C31_decode_single",
    "C31_decode_single_fails",
    "C31_split",
    "C31_split_never_throws",
    "C31_every_text_has_encoding"
   ],
   "note": "utfcpp is not in the repository: its append/validate_next are modelled from its documented behaviour (trusted). The spec is Unicode table 3-7."
  },
  {
   "property": "C32",
   "status": "proved",
   "theorems": [
    "C32_split_into_words",
    "C32_words_unique",
    "C32_only_white_space_lost",
    "C32_malformed_throws",
    "C32_delimiter_set",
    "C32_all_whitespace_is_union"
   ],
   "note": "Utf8Delimiter::Find, the whitespace tables, std::set_union and absl::StrSplit with SkipEmpty are modelled on bytes. Splitting well-formed text gives exactly the encodings of its words (declarative definition, shown unique); malformed text, and only that, makes utf8::next throw. absl::StrSplit and utfcpp are modelled after their sources."
  },
  {
   "property": "C33",
   "status": "proved",
   "theorems": [
    "C33_fifo",
    "C33_no_task_runs_twice",
    "C33_every_task_runs_once",
    "C33_owner_tasks_run",
    "C33_exactly_the_scheduled_tasks",
    "C33_single_worker_order",
    "C33_no_deadlock",
    "C33_terminates",
    "C33_destructor_returns",
    "C33_without_workers_refuted",
    "C33_late_tasks_refuted"
   ],
   "note": "Interleaving model of ThreadPool: owner (Spawn/Schedule calls, then the destructor: one null item per worker, join in order), workers (blocking pop, run, return); tasks may call Schedule. Proved for every interleaving: FIFO dequeue, no task twice, everything pushed before destruction is run exactly once before the destructor returns (at least one worker), no deadlock, termination and reachability of the destructor's return when tasks do not spawn without bound, completion order with one worker. Two limits are shown by refutations: no workers means no task runs, and a task scheduled by a task after destruction has begun may be dropped. Atomicity of the locked sections and the blocking mutex condition are taken from absl::Mutex."
  },
  {
   "property": "C34",
   "status": "proved",
   "theorems": [
    "C34_most_frequent",
    "C34_mode_unique",
    "C34_pruned",
    "C34_uniform_kept",
    "C34_alignment",
    "C34_combined",
    "C34_combined_checked",
    "C34_given_length_enforced_refuted",
    "C34_some_hypothesis_left_refuted",
    "C34_blank_hypothesis_refuted"
   ],
   "note": "Also: the alignment acceptor holds exactly the position-wise mixtures of the kept hypotheses, and systems are combined item by item. Refuted: a given length is ignored when all hypotheses share another; a given length may leave no hypothesis; a blank hypothesis aborts. The n-gram counter and symbol numbering are not modelled."
  },
  {
   "property": "C35",
   "status": "proved",
   "theorems": [
    "C35_grouping",
    "C35_runs_unique",
    "C35_accepts",
    "C35_rejoined",
    "C35_best_found",
    "C35_white_space",
    "C35_automatic_k_refuted",
    "C35_at_most_k_refuted",
    "C35_repeated_input_refuted",
    "C35_negative_index_refuted"
   ],
   "note": "Grouping is proved for accepted inputs with non-negative indices, and acceptance for as many runs as indices. Rejoined lists are proved for any correct k-shortest-paths search (a parameter). Refuted: the automatic k skips the last list (and aborts with one list); a single segment ignores k; two successive equal inputs are merged; indices may start below zero."
  },
  {
   "property": "C36",
   "status": "proved",
   "theorems": [
    "C36_verify",
    "C36_verified_present",
    "C36_verify_again",
    "C36_load",
    "C36_load_again",
    "C36_no_file",
    "C36_empty_file",
    "C36_rewrite",
    "C36_rewrite_fails",
    "C36_accept",
    "C36_normalizer_load",
    "C36_normalizer_verify",
    "C36_supports",
    "C36_normalize",
    "C36_normalize_rejects",
    "C36_reading",
    "C36_reading_fails",
    "C36_any_case",
    "C36_trailing_slash"
   ],
   "note": "Archive lookup, locating of files and pushdown parentheses are parameters. Loading, verification with the language fallback, rewriting and both normalizers are characterised exactly, including what is left in the output string after a failure; supports() and path construction too."
  },
  {
   "property": "C37",
   "status": "proved",
   "theorems": [
    "C37_flattened",
    "C37_takes",
    "C37_takes_unique",
    "C37_typed",
    "C37_itself",
    "C37_cyclic_refuted",
    "C37_item_forward",
    "C37_item_backward",
    "C37_item_outside",
    "C37_nothing_never_equal",
    "C37_equal_values",
    "C37_equal_strings",
    "C37_equal_symmetric",
    "C37_fst_not_like_other",
    "C37_fst_value_refuted"
   ],
   "note": "Adding any nesting to an IterableThing in an acyclic heap appends exactly the valid items in order (inductive spec takes), with enough recursion depth; well-typedness after any history; indexing; is_equal with Fsts, strings, Things and Nothing (pynini.equal and == are parameters). Refuted: mutually containing containers never end; a Thing with an Fst value is not equal to that Fst."
  },
  {
   "property": "C38",
   "status": "proved",
   "theorems": [
    "C38_piecewise",
    "C38_units",
    "C38_empty",
    "C38_inverse",
    "C38_inverse_outs",
    "C38_computed",
    "C38_best",
    "C38_cost",
    "C38_cost_back",
    "C38_shipped"
   ],
   "note": "Weighted expression of brahmic_to_iso over arbitrary tables; relation as inductive spec; computed outputs equal it when no closure repeats the empty string (checked for the 20 shipped scripts, both directions). optimize and ComposeFsts with nfc are outside."
  },
  {
   "property": "C39",
   "status": "proved",
   "theorems": [
    "C39_one_after_another",
    "C39_empty",
    "C39_one",
    "C39_split",
    "C39_nested",
    "C39_parts",
    "C39_as_function",
    "C39_no_argument",
    "C39_many_arguments",
    "C39_order_refuted"
   ],
   "note": "Values, primitive functions and exceptions are type parameters. Characterises success and failure, the empty pipeline, splitting, nesting and the behaviour with no or several arguments; order matters (refuted commutation)."
  },
  {
   "property": "C40",
   "status": "proved",
   "theorems": [
    "C40_symbols_once",
    "C40_rewrite",
    "C40_total",
    "C40_one_output",
    "C40_unnamed_refuted",
    "C40_graphemes",
    "C40_reassign",
    "C40_merge",
    "C40_assign",
    "C40_extract",
    "C40_extract_symbols",
    "C40_extract_twice",
    "C40_extract_twice_refuted",
    "C40_print",
    "C40_print_pairs",
    "C40_read",
    "C40_round_trip",
    "C40_repeated_refuted",
    "C40_concat_r",
    "C40_concat_l"
   ],
   "note": "Symbol strings and cdrewrite with the SKIP contexts; rewriting bytes is shown to be rewriting of symbols when the first symbol of every left side has a name (refuted otherwise). Extraction, assignment, reassignment, merging, printing and reading characterised; whether cdrewrite lets an empty match count is left open (both readings covered). Operations made of whole cdrewrites (reassign_ls, rewrite_repeated_ls) and insert are not modelled."
  },
  {
   "property": "C41",
   "status": "proved",
   "theorems": [
    "C41_nfc_preserves_canonical_equivalence"
   ],
   "note": "Canonical equivalence is the congruence generated by Unicode 14 decomposition mappings and mark exchange, restricted to characters of the tables."
  },
  {
   "property": "C42",
   "status": "proved",
   "theorems": [
    "C42_extractor",
    "C42_accepted_lines",
    "C42_negative_index_refuted"
   ],
   "note": "Number parsing is a parameter. Refuted for negative indices: such lines are filed under the next index."
  },
  {
   "property": "C43",
   "status": "proved",
   "theorems": [
    "C43_pieces",
    "C43_pieces_text",
    "C43_pieces_unique",
    "C43_text"
   ],
   "note": "The trie's Determinize is modelled by its specification: one state per prefix."
  },
  {
   "property": "C44",
   "status": "proved",
   "theorems": [
    "C44_phi",
    "C44_cost_unique",
    "C44_arcless_refuted",
    "C44_circle_refuted"
   ],
   "note": "Refuted without the hypotheses: a state without arcs is read out of bounds, a circle of backoff arcs never ends. The final ArcSort is not modelled."
  },
  {
   "property": "C45",
   "status": "proved",
   "theorems": [
    "C45_parallel",
    "C45_as_coded_refuted",
    "C45_as_coded_ends"
   ],
   "note": "Proved for a pool whose workers are started. As coded StartWorkers is never called, and parallel decoding writes nothing (C45_as_coded_refuted). The decoder's own state (its cache) is not seen by the per-line function."
  },
  {
   "property": "C46",
   "status": "proved",
   "theorems": [
    "C46_repeated_word",
    "C46_no_caching",
    "C46_override",
    "C46_first_time",
    "C46_sound",
    "C46_remembered",
    "C46_symbols",
    "C46_history_refuted",
    "C46_symbols_refuted",
    "C46_epsilon_refuted"
   ],
   "note": "FST operations (push, mix, join, pair LM) are parameters. A word met for the first time is compiled from exactly its own segments in order. Refuted: candidates depend on the limit of the first line that had the word; a word that earlier was a segment has no input symbol and aborts; the word <epsilon> aborts."
  },
  {
   "property": "C47",
   "status": "proved",
   "theorems": [
    "C47_round_trip",
    "C47_empty_text_refuted"
   ],
   "note": "Number formatting is a parameter that parsing inverts. Refuted for candidates with empty text."
  },
  {
   "property": "C48",
   "status": "proved",
   "theorems": [
    "C48_settings",
    "C48_external",
    "C48_covers",
    "C48_weight_refuted",
    "C48_utf8_refuted",
    "C48_utf8_always"
   ],
   "note": "Refuted: the configured mixing weight is overwritten with the default; Utf8Check accepts malformed text."
  },
  {
   "property": "C49",
   "status": "proved",
   "theorems": [
    "C49_input_side",
    "C49_output_side",
    "C49_pairs_unique",
    "C49_not_a_number"
   ],
   "note": "SimpleAtoi is a parameter; the order of arcs is not modelled."
  },
  {
   "property": "C50",
   "status": "proved",
   "theorems": [
    "C50_with_model",
    "C50_without_model",
    "C50_labels",
    "C50_as_coded_refuted"
   ],
   "note": "Proved if all word tasks have been executed. As coded the pool has no workers and the FST of the first word is read although never written (C50_as_coded_refuted). The composition with the language model in between is not modelled."
  },
  {
   "property": "C51",
   "status": "proved",
   "theorems": [
    "C51_parents",
    "C51_parent",
    "C51_has_feature",
    "C51_value_in_set",
    "C51_value_in_profile",
    "C51_value_in_list_refuted",
    "C51_value_in_aspect_refuted",
    "C51_range",
    "C51_range_other_list",
    "C51_range_self",
    "C51_range_self_refuted",
    "C51_aspect_sets"
   ],
   "note": "value_in has a call depth, as Python does; is_in on a value list or aspect runs out at every depth (refuted). range(f, f) is the whole list (refuted)."
  },
  {
   "property": "C52",
   "status": "proved",
   "theorems": [
    "C52_links",
    "C52_shown",
    "C52_documented_refuted",
    "C52_shipped"
   ],
   "note": "Links of the four variants and the operations printed, for all argument lists. Refuted: the class comment's links of unexpected_voicing."
  },
  {
   "property": "C53",
   "status": "proved",
   "theorems": [
    "C53_phonemes",
    "C53_disjoint",
    "C53_hundred_first_refuted",
    "C53_private_use_refuted",
    "C53_added_again_refuted",
    "C53_second_inventory_refuted"
   ],
   "note": "Phoneme numbering for all lists, and disjointness of ranges by arithmetic. Refuted: 101st phoneme of a language, code points from 1000001, a phoneme added again or to a second inventory has a stale index."
  },
  {
   "property": "C54",
   "status": "proved",
   "theorems": [
    "C54_copy",
    "C54_fields",
    "C54_deletion",
    "C54_insertion",
    "C54_interchangeable",
    "C54_context",
    "C54_any_context",
    "C54_left_context",
    "C54_right_context"
   ],
   "note": "All rules with built sides and contexts. Operations, costs, priorities and aliases are carried as numbers; strings of alignments are not modelled."
  },
  {
   "property": "C55",
   "status": "proved",
   "theorems": [
    "C55_one_romanization",
    "C55_one_reading",
    "C55_round_trip",
    "C55_no_clash",
    "C55_guru_one_reading",
    "C55_guru_round_trip",
    "C55_exported_round_trip",
    "C55_exported_no_clash",
    "C55_guru_refuted",
    "C55_forth_after_back_refuted"
   ],
   "note": "Functionality and invertibility of the 20 shipped weighted grammars, decided by a verified checker: the grammar is expanded to a finite automaton, untrusted distance tables (IsoDists.v, generated) are checked, and the deterministic machine that results is proved to give exactly the outputs of least cost; a second check proves that one machine inverts the other. Theorems are about the grammar of C38, the checker appears only in proofs. Gurmukhi has two spellings of SHA; the exported grammars include NFC, which makes them equal, as the TODO in iso.py says. Reading Latin first and romanizing again is not the identity (refuted)."
  },
  {
   "property": "C56",
   "status": "proved",
   "theorems": [
    "C56_archive",
    "C56_archive_ok",
    "C56_archive_keys",
    "C56_one_name",
    "C56_two_names",
    "C56_three_names",
    "C56_names_cover",
    "C56_mixed_refuted",
    "C56_valid",
    "C56_split",
    "C56_through",
    "C56_least",
    "C56_one_by_one",
    "C56_one_by_one_refuted",
    "C56_no_rules_refuted",
    "C56_init_refuted"
   ],
   "note": "Pushdown transducers are a parameter; FSTs are finite weighted relations over byte strings. The refuted statements record that mixed separators, rule-by-rule greedy rewriting, empty cascades and repeated initialisation do not behave as their names suggest."
  },
  {
   "property": "C57",
   "status": "proved",
   "theorems": [
    "C57_deleted_once",
    "C57_alive",
    "C57_freed",
    "C57_sharing_refuted",
    "C57_sharing_dangles_refuted"
   ],
   "note": "Models std::shared_ptr control blocks created from raw pointers. Safe when each manager is adopted once; the sharing promised by the comment in grammar.h is refuted with two witnesses."
  },
  {
   "property": "C58",
   "status": "proved",
   "theorems": [
    "C58_paths",
    "C58_connected_paths",
    "C58_no_path_twice",
    "C58_cyclic_error",
    "C58_only_accepted_refuted",
    "C58_reset_midway_refuted",
    "C58_unchecked_cycle_refuted"
   ],
   "note": "Iterator modelled field by field with undefined behaviour and divergence as values; weights, their product and equality are parameters."
  },
  {
   "property": "C59",
   "status": "proved",
   "theorems": [
    "C59_all_strings",
    "C59_different_strings",
    "C59_one_top_rewrite",
    "C59_no_lattice",
    "C59_one_top_acceptor",
    "C59_acceptor_tie_refuted",
    "C59_debug_string",
    "C59_debug_epsilon_refuted",
    "C59_debug_pieces",
    "C59_debug_name",
    "C59_debug_byte",
    "C59_lattice_fails",
    "C59_lattice",
    "C59_rewrites",
    "C59_rewrites_fail"
   ],
   "note": "String compilation, projection, epsilon removal and determinization are parameters; determinization is specified by good_dfa and best outputs. Token type BYTE."
  },
  {
   "property": "C60",
   "status": "proved",
   "theorems": [
    "C60_parentheses",
    "C60_reuse_noticed_refuted",
    "C60_assignments",
    "C60_load",
    "C60_load_failure",
    "C60_set",
    "C60_set_rules",
    "C60_split",
    "C60_known_rules",
    "C60_rewrite",
    "C60_rewrite_aborts",
    "C60_refused_rules_fail_refuted",
    "C60_no_rules"
   ],
   "note": "FST operations are parameters; LOG(FATAL) is a value."
  },
  {
   "property": "C61",
   "status": "proved",
   "theorems": [
    "C61_bytes",
    "C61_symbols",
    "C61_grammars"
   ],
   "note": "Bytes against symbols for lists of operations. cdrewrite of an insertion writes the new symbols once wherever the contexts allow it."
  },
  {
   "property": "C62",
   "status": "proved",
   "theorems": [
    "C62_reading",
    "C62_letters"
   ],
   "note": "The tables of grapheme_inventory.py are part of the model."
  },
  {
   "property": "C63",
   "status": "proved",
   "theorems": [
    "C63_one_result",
    "C63_gujarati",
    "C63_gujarati_refuted",
    "C63_punjabi",
    "C63_punjabi_one_refuted",
    "C63_coarse_refuted",
    "C63_letters"
   ],
   "note": "Refuted: Gujarati ai and au have no romanization; Punjabi addak before c has two; psac keeps two of three equal letters. The Hindi acronym grammar is treated in C75. Left out: VOCALIC_TR_I (psaf of Tamil and Malayalam)."
  },
  {
   "property": "C64",
   "status": "proved",
   "theorems": [
    "C64_one_result",
    "C64_punjabi",
    "C64_letters",
    "C64_transcription",
    "C64_transcription_gujarati",
    "C64_transcription_punjabi"
   ],
   "note": "The IPA table holds the phonemes that the grammars can write. Refuted for Gujarati ai and au, which have no transcription (see C63)."
  },
  {
   "property": "C65",
   "status": "proved",
   "theorems": [
    "C65_sounds",
    "C65_occurs"
   ],
   "note": "A silent Bengali aspiration mark is allowed for but not shown to occur."
  },
  {
   "property": "C66",
   "status": "proved",
   "theorems": [
    "C66_pronunciation",
    "C66_romanization"
   ],
   "note": "The coarse romanization (psac), which then removes repeated letters, is not covered; see C63."
  },
  {
   "property": "C67",
   "status": "proved",
   "theorems": [
    "C67_one",
    "C67_none",
    "C67_vowels"
   ],
   "note": "Covers the Hindi and Tamil parameters, the only deromanizers in the code."
  },
  {
   "property": "C68",
   "status": "proved",
   "theorems": [
    "C68_hindi",
    "C68_tamil",
    "C68_tamil_tr_refuted"
   ],
   "note": "Where two spellings of the same strength overlap (aaa) either reading satisfies the statement. The deromanizer.py documentation of only_geminated is refuted for a single tr."
  },
  {
   "property": "C69",
   "status": "proved",
   "theorems": [
    "C69_hindi",
    "C69_tamil"
   ],
   "note": "The texts are compared as code points of their UTF-8 bytes; the romanization grammars are the ones of C38 and C55."
  },
  {
   "property": "C70",
   "status": "proved",
   "theorems": [
    "C70_romanize",
    "C70_bengali",
    "C70_kannada",
    "C70_exported",
    "C70_back",
    "C70_one_text",
    "C70_total",
    "C70_bengali_refuted",
    "C70_kannada_refuted"
   ],
   "note": "The spec (IsoTextSpec.v) is a deterministic reader over the shipped tables; the model is the weighted romanization grammar of C38/C55. Bengali and Kannada have theorems for texts lacking a few odd infixes, and refutations for all texts. C70_total needs an inherent vowel and no subjoined consonant."
  },
  {
   "property": "C71",
   "status": "proved",
   "theorems": [
    "C71_typed",
    "C71_one_text",
    "C71_not_ascii",
    "C71_m_long_o_refuted",
    "C71_m_long_o"
   ],
   "note": "Only token type utf8 and the one shipped table (Malayalam). The string compiler's reading of a lone backslash is assumed as in the model comment. mO is a refuted case: fixed.textproto has no rule for it. Which units may follow which is part of the spec (FixedSpec.v)."
  },
  {
   "property": "C72",
   "status": "proved",
   "theorems": [
    "C72_builds",
    "C72_documented",
    "C72_distances",
    "C72_metric",
    "C72_triangle_refuted",
    "C72_names",
    "C72_oi_refuted",
    "C72_alike"
   ],
   "note": "Tables are taken from the source text by gen/genfeatures.py; the documentation pages in the repository serve as oracle. Distances are counted in quarters. Atomics of the inventories are left out."
  },
  {
   "property": "C73",
   "status": "proved",
   "theorems": [
    "C73_add_keeps",
    "C73_add_adds",
    "C73_add_only",
    "C73_documented",
    "C73_case",
    "C73_english",
    "C73_other_sound_refuted",
    "C73_latin_english",
    "C73_latin_phoneme",
    "C73_latin_r"
   ],
   "note": "Same model as C72. latn.o is described as open-like, and latn.r as rhotic, unlike the phonemes of that name; both are stated as exceptions."
  },
  {
   "property": "C74",
   "status": "proved",
   "theorems": [
    "C74_spelling",
    "C74_injective",
    "C74_injective_refuted",
    "C74_script",
    "C74_unnamed"
   ],
   "note": "Model of speller, _separated and _get_spellout over the generated table of names (gen/genspellout.py). Proved: one spelling, none for other input, injectivity up to letters of the same name (test of Sardinas and Patterson with a dropped separator, checked for all 143 pairs of language and script), target script. The closure of the characters and cdrewrite at the end of the string are modelled; optimize() is taken to keep the relation. A pair of language and script without names spells letters as themselves, as getattr's default does."
  },
  {
   "property": "C75",
   "status": "proved",
   "theorems": [
    "C75_acronym",
    "C75_other",
    "C75_unique",
    "C75_one_result",
    "C75_spelled",
    "C75_spelled_exists"
   ],
   "note": "hi.iso_to_nat with the acronym rule: the cross product of a letter language with a string is taken as the rules whose first string is a part of the text (only these can apply). C75_spelled joins the spellout grammar (C74), the ISO grammar (C55, C70) and this one."
  },
  {
   "property": "C76",
   "status": "proved",
   "theorems": [
    "C76_modes",
    "C76_dialogue",
    "C76_start",
    "C76_rules",
    "C76_missing_refuted",
    "C76_no_want",
    "C76_cascade",
    "C76_least",
    "C76_many",
    "C76_best_exists",
    "C76_details",
    "C76_told_apart",
    "C76_unparsed",
    "C76_bytes",
    "C76_utf8",
    "C76_utf8_faithful",
    "C76_symbols",
    "C76_symbol_missing",
    "C76_generated",
    "C76_truncated_refuted",
    "C76_brackets_refuted",
    "C76_separators_refuted"
   ],
   "note": "TesterModel.v builds on the archive and cascade model of C56. Symbol tables carried by FSTs are left out; the UTF-8 and symbol compilers, pushdown composition, the n-best search (with a specification shown to be satisfiable) and the printing of costs are parameters."
  },
  {
   "property": "C77",
   "status": "proved",
   "theorems": [
    "C77_bytes",
    "C77_characters",
    "C77_only_bytes",
    "C77_only_characters",
    "C77_plain",
    "C77_spaces",
    "C77_generated",
    "C77_kept",
    "C77_added_byte",
    "C77_added_character",
    "C77_early_refuted",
    "C77_second_refuted",
    "C77_second_above"
   ],
   "note": "SymtabModel.v includes a model of fst::SymbolTable (AddSymbol, Find) and of LabelsToUTF8String. One thread only (the mutex is left out)."
  },
  {
   "property": "C78",
   "status": "proved",
   "theorems": [
    "C78_probabilities",
    "C78_shift",
    "C78_edits_and_length",
    "C78_unique",
    "C78_one_hypothesis",
    "C78_one_reference",
    "C78_at_most",
    "C78_at_least",
    "C78_at_least_reference",
    "C78_prices",
    "C78_zero",
    "C78_same",
    "C78_lengths",
    "C78_mean_length",
    "C78_same_length",
    "C78_same_length_refuted",
    "C78_overall",
    "C78_no_lines",
    "C78_text",
    "C78_vector",
    "C78_text_refuted",
    "C78_vector_refuted"
   ],
   "note": "Exact fractions for doubles; weights exp(-cost) are given; pyemd.emd_with_flow is a parameter, assumed to return a flow of least cost for the line at hand (hypothesis best_flow; satisfied by a certificate in the examples). Decimal digits of numbers are not modelled."
  },
  {
   "property": "C79",
   "status": "proved",
   "theorems": [
    "C79_equidistant",
    "C79_distances",
    "C79_families",
    "C79_languages",
    "C79_from_iso",
    "C79_numbers",
    "C79_below",
    "C79_numbers_refuted"
   ],
   "note": "Models phonology/features/language.py on top of the feature model. pycountry.languages is a parameter (any list); pycountry's get is modelled as the first entry whose code agrees without case. The markdown/visual output is not modelled."
  },
  {
   "property": "C80",
   "status": "proved",
   "theorems": [
    "C80_write_read",
    "C80_temp_write_read",
    "C80_temp_path",
    "C80_empty_refuted",
    "C80_reported",
    "C80_reported_refuted",
    "C80_any_text",
    "C80_lines",
    "C80_short_lines",
    "C80_cut_refuted",
    "C80_zero_refuted",
    "C80_write_lines",
    "C80_write_lines_all",
    "C80_lines_round",
    "C80_read_to_string",
    "C80_readers",
    "C80_unlimited_refuted",
    "C80_read_line",
    "C80_long_limit_refuted",
    "C80_proto",
    "C80_empty_proto_refuted",
    "C80_text_proto",
    "C80_stream",
    "C80_stream_flushed",
    "C80_stream_prefix",
    "C80_stream_delete",
    "C80_stream_close",
    "C80_close_twice",
    "C80_put_after_close"
   ],
   "note": "Models nisaba/port/file_util.cc, file.cc and proto_file_stream.cc, with CopyingOutputStreamAdaptor of protobuf as its buffer, position and failure flag. The operating system is a parameter: what may be written, how much fits, how many bytes a call reads or takes. Error texts, logs, runfiles and directories are not modelled; a client of the stream writes byte by byte through Next and BackUp. JoinPath is in C36."
  },
  {
   "property": "C81",
   "status": "proved",
   "theorems": [
    "C81_add",
    "C81_list",
    "C81_accep",
    "C81_union",
    "C81_union_star",
    "C81_concat",
    "C81_compose",
    "C81_semantics",
    "C81_make",
    "C81_make_refuted"
   ],
   "note": "Full for the model. The meaning of Pynini's operations is taken from their documentation, as relations on strings."
  },
  {
   "property": "C82",
   "status": "proved",
   "theorems": [
    "C82_text_not_empty",
    "C82_text",
    "C82_alias_refuted",
    "C82_name",
    "C82_texts",
    "C82_caller",
    "C82_returns",
    "C82_silent",
    "C82_value",
    "C82_value_refuted"
   ],
   "note": "Full for the model. inspect.stack is a parameter; messages are collected in a list."
  },
  {
   "property": "C83",
   "status": "proved",
   "theorems": [
    "C83_int",
    "C83_single_path",
    "C83_single_path_input",
    "C83_single_path_refuted",
    "C83_single_shortest",
    "C83_single_shortest_error",
    "C83_identity",
    "C83_identity_error",
    "C83_sampled",
    "C83_sampled_fails",
    "C83_functional",
    "C83_shortest_samples",
    "C83_identity_samples",
    "C83_identity_norm",
    "C83_length_refuted",
    "C83_str_io",
    "C83_cases"
   ],
   "note": "Full for the model. A machine is given by the paths listed for each input; randgen is any list of samples. Three refuted statements show where documentation and behaviour differ."
  },
  {
   "property": "C84",
   "status": "proved",
   "theorems": [
    "C84_test",
    "C84_entry",
    "C84_exact",
    "C84_superset",
    "C84_listed_twice",
    "C84_one_top_top",
    "C84_exact_subset",
    "C84_stopped",
    "C84_unknown_mode",
    "C84_set_difference",
    "C84_set_difference_refuted",
    "C84_mode_names"
   ],
   "note": "Full for the model. The rule cascade is assumed to have the properties stated in TextprotoSpec.cascade_of; the message helper is refuted for unsorted lists."
  },
  {
   "property": "C85",
   "status": "proved",
   "theorems": [
    "C85_settled",
    "C85_plain",
    "C85_plain_refuted",
    "C85_well_formed_result",
    "C85_well_formed_result_refuted",
    "C85_well_formed",
    "C85_well_formed_refuted",
    "C85_joiners_refuted",
    "C85_joiners_well_formed_refuted",
    "C85_all_exist"
   ],
   "note": "Full for the model and the shipped tables; the refuted statements list a witness per script. The table of marks is generated from Python's unicodedata."
  },
  {
   "property": "C86",
   "status": "proved",
   "theorems": [
    "C86_nfc",
    "C86_reading",
    "C86_visual",
    "C86_nfc_refuted",
    "C86_reading_refuted"
   ],
   "note": "Full for the model and the shipped tables, except that Malayalam is refuted with witnesses."
  },
  {
   "property": "C87",
   "status": "proved",
   "theorems": [
    "C87_rejoin",
    "C87_ensemble",
    "C87_extract",
    "C87_error_rate",
    "C87_decoder",
    "C87_pairlm_flag",
    "C87_lm_flag",
    "C87_lm_flag_refuted",
    "C87_usage",
    "C87_rejoin_usage_refuted",
    "C87_extract_usage_refuted"
   ],
   "note": "Full for the model; the flag for the language model and two usage texts are refuted."
  },
  {
   "property": "C88",
   "status": "proved",
   "theorems": [
    "C88_fill",
    "C88_fill_again",
    "C88_fill_strings",
    "C88_fill_strings_refuted",
    "C88_letters_test",
    "C88_languages_test",
    "C88_regions_test",
    "C88_one_code",
    "C88_coverage_test",
    "C88_roundtrip",
    "C88_shipped",
    "C88_shipped_codes",
    "C88_three_letters_refuted"
   ],
   "note": "Full for the model and the shipped registry; items without a target and the promise of three-letter codes are refuted."
  },
  {
   "property": "C89",
   "status": "proved",
   "theorems": [
    "C89_load",
    "C89_load_works",
    "C89_load_fails",
    "C89_brahmic",
    "C89_any_case",
    "C89_load_any_case",
    "C89_only_capitals",
    "C89_capitals_found",
    "C89_grammar",
    "C89_directory_refuted",
    "C89_working_directory",
    "C89_test_path",
    "C89_history",
    "C89_history_none",
    "C89_answer",
    "C89_open",
    "C89_bad_token",
    "C89_safe",
    "C89_safe_refuted",
    "C89_is_file",
    "C89_agree",
    "C89_exact_names_refuted"
   ],
   "note": "Full for the model; unknown directories (C++) and unknown files (Python) are refuted."
  },
  {
   "property": "C90",
   "status": "proved",
   "theorems": [
    "C90_set_ok",
    "C90_round_trip",
    "C90_set_any",
    "C90_set_dies",
    "C90_set_works",
    "C90_set_errors",
    "C90_keep_refuted",
    "C90_get",
    "C90_get_error",
    "C90_heading"
   ],
   "note": "Full for the model."
  },
  {
   "property": "C91",
   "status": "proved",
   "theorems": [
    "C91_archive",
    "C91_export",
    "C91_export_abjad",
    "C91_shipped",
    "C91_archive_refuted",
    "C91_two_scripts_refuted",
    "C91_file",
    "C91_file_refuted",
    "C91_sed_place",
    "C91_sed_none",
    "C91_flags",
    "C91_supports",
    "C91_supports_refuted",
    "C91_reading",
    "C91_acceptor",
    "C91_acceptor_refuted",
    "C91_names"
   ],
   "note": "Full for the model; lists with a tag that begins another, languages with two scripts and the use of all built languages are refuted."
  },
  {
   "property": "C92",
   "status": "proved",
   "theorems": [
    "C92_within",
    "C92_at_end",
    "C92_alone",
    "C92_alphabet",
    "C92_visual",
    "C92_gone",
    "C92_untouched",
    "C92_swap_refuted",
    "C92_again_refuted",
    "C92_phrase_refuted",
    "C92_reading"
   ],
   "note": "Full for the model; normalizing again as once, in two languages, and normalizing phrases word by word are refuted."
  },
  {
   "property": "C93",
   "status": "proved",
   "theorems": [
    "C93_compose",
    "C93_compose_fails",
    "C93_nested",
    "C93_import",
    "C93_import_composed",
    "C93_import_refuted",
    "C93_suffix",
    "C93_suffix_fails",
    "C93_devoiced",
    "C93_suffix_refuted",
    "C93_devoiced_inventory",
    "C93_inventory",
    "C93_base",
    "C93_composites",
    "C93_table",
    "C93_table_refuted",
    "C93_features",
    "C93_features_refuted",
    "C93_ipa",
    "C93_ipa_refuted",
    "C93_decode",
    "C93_decode_refuted",
    "C93_vowels",
    "C93_consonants"
   ],
   "note": "Full for the model; imported features in composites, the documented transliteration of derived phons, the table's rows on duration, features and IPA telling all phons apart, and reading with the combiner as a phon are refuted."
  },
  {
   "property": "C94",
   "status": "proved",
   "theorems": [
    "C94_base",
    "C94_base_unique_refuted",
    "C94_diphthong",
    "C94_affricate",
    "C94_romanized",
    "C94_total",
    "C94_repeated",
    "C94_repeated_idempotent_refuted",
    "C94_symbols"
   ],
   "note": "Full for the model, on symbols; uniqueness of base transliteration and idempotence of deleting repeated substrings are refuted; symbols for pitch are outside the alphabet of the rules."
  }
 ]
}