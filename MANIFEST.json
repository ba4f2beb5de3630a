{
 "claims": [
  {
   "property": "C01",
   "status": "proved",
   "theorems": [
    "C01_lookups_agree",
    "C01_named_several",
    "C01_lookups_agree_exactly"
   ],
   "note": ""
  },
  {
   "property": "C02",
   "status": "partial",
   "theorems": [
    "C02_behaves_like_list_partial",
    "C02_contains_index_count",
    "C02_delslice_refuted",
    "C83_delete_slice",
    "C107_every_call"
   ],
   "note": "The code contradicts the claim in one case: deleting a slice given from its end to its start deletes the wrong items (C02_delslice_refuted); every other call is proved for every history. What slice deletion does instead is proved exactly as C83."
  },
  {
   "property": "C03",
   "status": "partial",
   "theorems": [
    "C03_lookup_order_partial",
    "C03_lookup_order_refuted",
    "C80_lookups_told",
    "C80_order_when_only_added"
   ],
   "note": "Contradicted by insert (C03_lookup_order_refuted); proved for histories that add at the end. The exact order of every answer over every history is C80."
  },
  {
   "property": "C04",
   "status": "partial",
   "theorems": [
    "C04_assignment_before_lookups_partial",
    "C04_assignment_keeps_members_partial",
    "C04_assignment_refuted",
    "C80_lookups_told"
   ],
   "note": "Contradicted (C04_assignment_refuted): item assignment after a lookup leaves the lookup stale. The exact answer over histories with assignments is C80."
  },
  {
   "property": "C05",
   "status": "partial",
   "theorems": [
    "C05_lookups_read_only_partial",
    "C05_names_refuted",
    "C05_max_end_refuted",
    "C05_names_complete_partial",
    "C81_names",
    "C81_tags",
    "C82_max_end"
   ],
   "note": "Contradicted for names/tags (empty entries) and max_end; exact behaviour is C81 and C82; all other lookups proved read-only."
  },
  {
   "property": "C06",
   "status": "partial",
   "theorems": [
    "C06_max_end_bounds_partial",
    "C06_max_end_tight_partial",
    "C06_max_end_shrinks_refuted",
    "C06_max_end_never_decreases",
    "C82_max_end"
   ],
   "note": "Contradicted: max_end never decreases (C06_max_end_shrinks_refuted, C06_max_end_never_decreases); exact value is C82."
  },
  {
   "property": "C07",
   "status": "proved",
   "theorems": [
    "C07_previous_next"
   ],
   "note": ""
  },
  {
   "property": "C08",
   "status": "proved",
   "theorems": [
    "C08_range"
   ],
   "note": ""
  },
  {
   "property": "C09",
   "status": "partial",
   "theorems": [
    "C09_holes_partial",
    "C09_holes_from_start",
    "C09_holes_refuted",
    "C84_holes"
   ],
   "note": "Contradicted when the range starts inside a match (C09_holes_refuted); exact answer for every history, range and filter is C84."
  },
  {
   "property": "C10",
   "status": "partial",
   "theorems": [
    "C10_holes_seps_partial",
    "C10_holes_seps_refuted",
    "C84_holes"
   ],
   "note": "Contradicted (C10_holes_seps_refuted); exact answer is C84."
  },
  {
   "property": "C11",
   "status": "proved",
   "theorems": [
    "C11_conflicting",
    "C11_at_span",
    "C11_at_match"
   ],
   "note": ""
  },
  {
   "property": "C12",
   "status": "proved",
   "theorems": [
    "C12_chain_after",
    "C12_chain_before"
   ],
   "note": ""
  },
  {
   "property": "C13",
   "status": "partial",
   "theorems": [
    "C13_rejection_refuted",
    "C13_rejected_insert_partial",
    "C13_homogeneous_partial",
    "C107_every_call",
    "C108_account"
   ],
   "note": "Contradicted: a rejected append leaves the match in the list (C13_rejection_refuted). What a refused match does exactly, to the list and to every later call, is C107/C108."
  },
  {
   "property": "C14",
   "status": "proved",
   "theorems": [
    "C14_predicate_index",
    "C14_int_and_index"
   ],
   "note": ""
  },
  {
   "property": "C15",
   "status": "proved",
   "theorems": [
    "C15_eq_equivalence",
    "C15_eq_components",
    "C15_ne_is_negation",
    "C15_hash",
    "C15_order"
   ],
   "note": ""
  },
  {
   "property": "C16",
   "status": "proved",
   "theorems": [
    "C16_crop"
   ],
   "note": ""
  },
  {
   "property": "C17",
   "status": "proved",
   "theorems": [
    "C17_split",
    "C17_no_text"
   ],
   "note": ""
  },
  {
   "property": "C18",
   "status": "partial",
   "theorems": [
    "C18_value_partial",
    "C18_raw",
    "C18_falsy_refuted",
    "C103_value",
    "C103_assigned"
   ],
   "note": "Contradicted for an assigned value that is falsy; exact value is C103."
  },
  {
   "property": "C19",
   "status": "partial",
   "theorems": [
    "C19_to_dict_partial",
    "C19_details",
    "C19_list_values_refuted",
    "C104_to_dict"
   ],
   "note": "Contradicted when values are lists (C19_list_values_refuted); exact answer with shared list objects is C104, effects C105."
  },
  {
   "property": "C20",
   "status": "proved",
   "theorems": [
    "C20_find_all",
    "C20_greedy_unique"
   ],
   "note": ""
  },
  {
   "property": "C21",
   "status": "partial",
   "theorems": [
    "C21_terminates_partial",
    "C21_empty_refuted",
    "C106_terminates_iff"
   ],
   "note": "Contradicted by the empty sub-string (loops for ever); C106 gives the exact condition."
  },
  {
   "property": "C22",
   "status": "proved",
   "theorems": [
    "C22_string_text",
    "C22_string_exact",
    "C22_string_complete",
    "C22_ignore_case"
   ],
   "note": ""
  },
  {
   "property": "C23",
   "status": "proved",
   "theorems": [
    "C23_extend_safe"
   ],
   "note": ""
  },
  {
   "property": "C24",
   "status": "proved",
   "theorems": [
    "C24_identity_set"
   ],
   "note": ""
  },
  {
   "property": "C25",
   "status": "proved",
   "theorems": [
    "C25_layers",
    "C25_groups_determined"
   ],
   "note": ""
  },
  {
   "property": "C26",
   "status": "proved",
   "theorems": [
    "C26_cyclic"
   ],
   "note": ""
  },
  {
   "property": "C27",
   "status": "proved",
   "theorems": [
    "C27_order"
   ],
   "note": ""
  },
  {
   "property": "C28",
   "status": "partial",
   "theorems": [
    "C28_each_once_partial",
    "C28_completes",
    "C28_refuted",
    "C114_what_runs",
    "C114_completes"
   ],
   "note": "Contradicted when a dependency is given as an object of another priority or not registered (C28_refuted); what runs in every case is C114."
  },
  {
   "property": "C29",
   "status": "proved",
   "theorems": [
    "C29_conflict_order",
    "C29_rule_order"
   ],
   "note": ""
  },
  {
   "property": "C30",
   "status": "proved",
   "theorems": [
    "C30_execution",
    "C30_deterministic"
   ],
   "note": ""
  },
  {
   "property": "C31",
   "status": "proved",
   "theorems": [
    "C31_remove_many",
    "C31_remove_one"
   ],
   "note": ""
  },
  {
   "property": "C32",
   "status": "partial",
   "theorems": [
    "C32_append_partial",
    "C32_append_one_partial",
    "C32_refuted"
   ],
   "note": "Contradicted: AppendMatch with a new name tests membership before it renames, so two given matches may become equal (C32_refuted)."
  },
  {
   "property": "C33",
   "status": "partial",
   "theorems": [
    "C33_rename_partial",
    "C33_rename_lookups_partial",
    "C33_refuted",
    "C111_calls_and_rules"
   ],
   "note": "Contradicted (two witnesses in C33_refuted): an empty match given alone is removed and never put back (an empty match is falsy), and of two equal members the other one is removed."
  },
  {
   "property": "C34",
   "status": "partial",
   "theorems": [
    "C34_append_tags_partial",
    "C34_remove_tags_partial",
    "C34_refuted",
    "C111_calls_and_rules"
   ],
   "note": "Contradicted (two witnesses in C34_refuted): an empty match given alone is removed and never put back (an empty match is falsy), and with two equal members the tag lookup files the wrong one."
  },
  {
   "property": "C35",
   "status": "partial",
   "theorems": [
    "C35_conflicts_resolved_partial",
    "C35_equal_members_refuted",
    "C35_private_equal_refuted",
    "C35_empty_match_refuted",
    "C115_conflict_rule",
    "C115_raises"
   ],
   "note": "Contradicted by equal members, private equals and empty matches (three witnesses); what is removed in every case is C115."
  },
  {
   "property": "C36",
   "status": "proved",
   "theorems": [
    "C36_removed_for_a_reason"
   ],
   "note": ""
  },
  {
   "property": "C37",
   "status": "proved",
   "theorems": [
    "C37_longest_wins"
   ],
   "note": ""
  },
  {
   "property": "C38",
   "status": "partial",
   "theorems": [
    "C38_in_matches",
    "C38_returned",
    "C38_custom_solvers_partial",
    "C38_equal_members_refuted",
    "C115_conflict_rule",
    "C115_raises"
   ],
   "note": "Contradicted by equal members (C38_equal_members_refuted); what is removed in every case is C115."
  },
  {
   "property": "C39",
   "status": "partial",
   "theorems": [
    "C39_private_removed_partial",
    "C39_private_counts_partial",
    "C39_refuted",
    "C102_private_removed"
   ],
   "note": "Contradicted: equality ignores the private flag (C39_refuted); exact result is C102."
  },
  {
   "property": "C40",
   "status": "proved",
   "theorems": [
    "C40_options_resolve",
    "C40_bare_option",
    "C40_no_option"
   ],
   "note": ""
  },
  {
   "property": "C41",
   "status": "proved",
   "theorems": [
    "C41_all_or_nothing"
   ],
   "note": ""
  },
  {
   "property": "C42",
   "status": "proved",
   "theorems": [
    "C42_private",
    "C42_private_functional"
   ],
   "note": ""
  },
  {
   "property": "C43",
   "status": "partial",
   "theorems": [
    "C43_chain_terminates_partial",
    "C43_chain_matches_terminates_partial",
    "C43_patterns_qualify",
    "C43_explicit_raw_end_refuted",
    "C118_nested_chains_terminate"
   ],
   "note": "Contradicted when a match carries an explicit raw_end (C43_explicit_raw_end_refuted)."
  },
  {
   "property": "C44",
   "status": "partial",
   "theorems": [
    "C44_patterns_ordinary",
    "C44_pieces_in_place_partial",
    "C44_stale_text_refuted",
    "C44_missed_refuted"
   ],
   "note": "Contradicted: the text given to the next part is not reset after a failed attempt, so pieces may be at the wrong place or missed (C44_stale_text_refuted, C44_missed_refuted). C116 gives the exact behaviour without the hypothesis steady."
  },
  {
   "property": "C45",
   "status": "partial",
   "theorems": [
    "C45_repetitions_partial",
    "C45_chain_partial",
    "C45_alternatives_refuted"
   ],
   "note": "Contradicted when a part's pattern has several alternatives (C45_alternatives_refuted). C116 gives the exact behaviour without the hypothesis steady."
  },
  {
   "property": "C46",
   "status": "partial",
   "theorems": [
    "C46_number",
    "C46_symbols",
    "C46_braces_partial",
    "C46_exact_count_refuted",
    "C46_no_comma_refuted",
    "C113_repeater"
   ],
   "note": "Contradicted: '{n}' has no upper bound, '{a b}' without a comma is read as '{a,b}' (witnesses); the meaning of every text is C113."
  },
  {
   "property": "C47",
   "status": "partial",
   "theorems": [
    "C47_grandchildren_refuted",
    "C86_contributions",
    "C86_disabled_contribute_nothing",
    "C86_children_of_children_ignored"
   ],
   "note": "Contradicted: only the direct children contribute (C47_grandchildren_refuted); exact statement is C86."
  },
  {
   "property": "C48",
   "status": "partial",
   "theorems": [
    "C48_regex_groups_refuted",
    "C87_separated",
    "C87_marker_option",
    "C87_regex_groups_refused"
   ],
   "note": "Contradicted: a regex marker with groups raises AssertionError; exact statement is C87."
  },
  {
   "property": "C49",
   "status": "proved",
   "theorems": [
    "C49_default_rules",
    "C49_string_patterns"
   ],
   "note": ""
  },
  {
   "property": "C50",
   "status": "partial",
   "theorems": [
    "C50_calls_depend_on_the_tags_of_patterns_partial",
    "C50_calls_are_independent_without_tag_rules_partial",
    "C50_calls_are_independent_without_pattern_tags_partial",
    "C50_tags_leak_refuted",
    "C50_tags_are_shared_within_a_call_refuted"
   ],
   "note": "Contradicted: the tag lists of patterns are shared with the matches, so tag rules leak into the next call (two witnesses)."
  },
  {
   "property": "C51",
   "status": "partial",
   "theorems": [
    "C51_dictionary_option_partial",
    "C51_stale_kind_default_refuted",
    "C51_overrides_dictionary_refuted",
    "C88_each_option"
   ],
   "note": "Contradicted (two witnesses); exact statement is C88."
  },
  {
   "property": "C52",
   "status": "proved",
   "theorems": [
    "C52_declared_keys_fill_missing_names",
    "C52_one_key",
    "C52_several_keys",
    "C52_several_keys_refused"
   ],
   "note": ""
  },
  {
   "property": "C53",
   "status": "proved",
   "theorems": [
    "C53_exact",
    "C53_reported_names_are_never_found"
   ],
   "note": ""
  },
  {
   "property": "C54",
   "status": "partial",
   "theorems": [
    "C54_typed_access_partial",
    "C54_order_refuted",
    "C89_typed_access"
   ],
   "note": "Contradicted in the order of the answers; exact statement is C89."
  },
  {
   "property": "C55",
   "status": "proved",
   "theorems": [
    "C55_contract_check"
   ],
   "note": ""
  },
  {
   "property": "C56",
   "status": "partial",
   "theorems": [
    "C56_public_names_are_listed_partial",
    "C56_values_hide_names_refuted",
    "C56_chains_list_nothing_refuted",
    "C90_exact"
   ],
   "note": "Contradicted (two witnesses); exact statement is C90."
  },
  {
   "property": "C57",
   "status": "proved",
   "theorems": [
    "C57_chars",
    "C57_errors",
    "C57_validators",
    "C57_formatters"
   ],
   "note": ""
  },
  {
   "property": "C58",
   "status": "partial",
   "theorems": [
    "C58_accepted_partial",
    "C58_call_refuted",
    "C91_passes"
   ],
   "note": "Contradicted (three witnesses: a bound method, a keyword-only parameter, a parameter given twice); exact statement is C91."
  },
  {
   "property": "C59",
   "status": "proved",
   "theorems": [
    "C59_regex_occurrences",
    "C59_regex_matches"
   ],
   "note": ""
  },
  {
   "property": "C60",
   "status": "proved",
   "theorems": [
    "C60_functional_results",
    "C60_negative_span",
    "C60_functional_matches"
   ],
   "note": ""
  },
  {
   "property": "C61",
   "status": "partial",
   "theorems": [
    "C61_initiator",
    "C61_initiator_refuted",
    "C92_names",
    "C92_named_tagged",
    "C92_initiator"
   ],
   "note": "Contradicted: the walk to the initiator stops below an empty parent (Match has a length, so an empty parent is falsy); exact statement is C92."
  },
  {
   "property": "C62",
   "status": "partial",
   "theorems": [
    "C62_built_patterns_keep_their_formatters_partial",
    "C62_built_patterns_remain",
    "C62_defaults_change_built_patterns_refuted"
   ],
   "note": "Contradicted: defaults() changes built patterns (witness)."
  },
  {
   "property": "C63",
   "status": "proved",
   "theorems": [
    "C63_chain_inherits_a_copy",
    "C63_chain_configuration_is_isolated"
   ],
   "note": ""
  },
  {
   "property": "C64",
   "status": "proved",
   "theorems": [
    "C64_several_consequences",
    "C64_one_consequence",
    "C64_replace"
   ],
   "note": ""
  },
  {
   "property": "C65",
   "status": "partial",
   "theorems": [
    "C65_when_before_then_refuted",
    "C65_documented_partial",
    "C93_each_rule_at_once"
   ],
   "note": "The documentation is contradicted (witness); the true order is C93."
  },
  {
   "property": "C66",
   "status": "partial",
   "theorems": [
    "C66_lower_priority_refuted",
    "C94_dependency_first",
    "C94_lower_priority_after"
   ],
   "note": "Contradicted: priority comes first (witness); exact order is C94."
  },
  {
   "property": "C67",
   "status": "proved",
   "theorems": [
    "C67_default_rules_frame"
   ],
   "note": ""
  },
  {
   "property": "C68",
   "status": "partial",
   "theorems": [
    "C68_module_classes_partial",
    "C68_helper_functions_refuted",
    "C95_loading"
   ],
   "note": "Contradicted: helper functions of a module are loaded as rules (witness); exact statement is C95."
  },
  {
   "property": "C69",
   "status": "partial",
   "theorems": [
    "C69_reset_refuted",
    "C96_registration",
    "C96_effective"
   ],
   "note": "Contradicted by reset() (witness); exact statement is C96."
  },
  {
   "property": "C70",
   "status": "partial",
   "theorems": [
    "C70_other_dictionaries_partial",
    "C70_all_at_once_partial",
    "C70_all_at_once_refuted",
    "C70_tuple_refuted",
    "C70_dictionary_refuted",
    "C97_expressions"
   ],
   "note": "Contradicted (three witnesses); exact statement is C97."
  },
  {
   "property": "C71",
   "status": "proved",
   "theorems": [
    "C71_user_rules",
    "C71_no_private_match_returned",
    "C71_rules_start_without_conflicts"
   ],
   "note": ""
  },
  {
   "property": "C72",
   "status": "proved",
   "theorems": [
    "C72_named",
    "C72_unknown_keyword",
    "C72_keyword_wins",
    "C72_chains",
    "C72_selection",
    "C72_other_values",
    "C72_plain",
    "C72_members"
   ],
   "note": ""
  },
  {
   "property": "C73",
   "status": "partial",
   "theorems": [
    "C73_nearest_partial",
    "C73_nearest_refuted",
    "C98_previous",
    "C98_next"
   ],
   "note": "Contradicted (witness); exact statement is C98."
  },
  {
   "property": "C74",
   "status": "partial",
   "theorems": [
    "C74_slice_refuted",
    "C99_slice",
    "C99_constructors"
   ],
   "note": "Contradicted: a slice loses the text (holes differ) and a slice of Markers raises AssertionError; exact statement is C99."
  },
  {
   "property": "C75",
   "status": "partial",
   "theorems": [
    "C75_remove_held_refuted",
    "C75_extend_held_refuted",
    "C100_remove_held",
    "C100_extend_held"
   ],
   "note": "Contradicted (two witnesses); exact statement is C100."
  },
  {
   "property": "C76",
   "status": "proved",
   "theorems": [
    "C76_added_in_order",
    "C76_returned",
    "C76_close_returns_the_root",
    "C76_errors",
    "C76_failed_call",
    "C76_settings",
    "C76_nested_chains_once",
    "C76_tree",
    "C76_expression"
   ],
   "note": ""
  },
  {
   "property": "C77",
   "status": "partial",
   "theorems": [
    "C77_value_zero_refuted",
    "C101_shortcut",
    "C101_falsy_value"
   ],
   "note": "Contradicted for value=0 (witness); exact statement is C101."
  },
  {
   "property": "C78",
   "status": "proved",
   "theorems": [
    "C78_breaker_leaves_groups_out",
    "C78_breaker_false_of_what_is_kept",
    "C78_breaker_never_true",
    "C78_breaker_always_true",
    "C78_matches_unbroken"
   ],
   "note": ""
  },
  {
   "property": "C79",
   "status": "proved",
   "theorems": [
    "C79_longest_accepted",
    "C79_no_equal_children"
   ],
   "note": ""
  },
  {
   "property": "C80",
   "status": "proved",
   "theorems": [
    "C80_lookups_told",
    "C80_order_when_only_added"
   ],
   "note": ""
  },
  {
   "property": "C81",
   "status": "proved",
   "theorems": [
    "C81_names",
    "C81_tags"
   ],
   "note": ""
  },
  {
   "property": "C82",
   "status": "proved",
   "theorems": [
    "C82_max_end",
    "C82_max_end_of_all_added"
   ],
   "note": ""
  },
  {
   "property": "C83",
   "status": "proved",
   "theorems": [
    "C83_delete_slice"
   ],
   "note": ""
  },
  {
   "property": "C84",
   "status": "proved",
   "theorems": [
    "C84_holes",
    "C84_determined"
   ],
   "note": ""
  },
  {
   "property": "C85",
   "status": "proved",
   "theorems": [
    "C85_previous",
    "C85_next",
    "C85_conflicting",
    "C85_at_span",
    "C85_chains",
    "C85_chains_determined"
   ],
   "note": ""
  },
  {
   "property": "C86",
   "status": "proved",
   "theorems": [
    "C86_disabled_rebulk",
    "C86_contributions",
    "C86_disabled_contribute_nothing",
    "C86_children_of_children_ignored"
   ],
   "note": ""
  },
  {
   "property": "C87",
   "status": "proved",
   "theorems": [
    "C87_separated",
    "C87_marker_option",
    "C87_regex_groups_refused"
   ],
   "note": ""
  },
  {
   "property": "C88",
   "status": "proved",
   "theorems": [
    "C88_defaults_are_the_latest_given",
    "C88_each_option",
    "C88_overrides_must_be_given",
    "C88_overrides_errors"
   ],
   "note": ""
  },
  {
   "property": "C89",
   "status": "proved",
   "theorems": [
    "C89_element_type",
    "C89_typed_access"
   ],
   "note": ""
  },
  {
   "property": "C90",
   "status": "proved",
   "theorems": [
    "C90_exact"
   ],
   "note": ""
  },
  {
   "property": "C91",
   "status": "proved",
   "theorems": [
    "C91_passes"
   ],
   "note": ""
  },
  {
   "property": "C92",
   "status": "proved",
   "theorems": [
    "C92_names",
    "C92_named_tagged",
    "C92_initiator"
   ],
   "note": ""
  },
  {
   "property": "C93",
   "status": "proved",
   "theorems": [
    "C93_each_rule_at_once"
   ],
   "note": ""
  },
  {
   "property": "C94",
   "status": "proved",
   "theorems": [
    "C94_dependency_first",
    "C94_lower_priority_after"
   ],
   "note": ""
  },
  {
   "property": "C95",
   "status": "proved",
   "theorems": [
    "C95_loading",
    "C95_determined"
   ],
   "note": ""
  },
  {
   "property": "C96",
   "status": "proved",
   "theorems": [
    "C96_registration",
    "C96_effective",
    "C96_interleaving_irrelevant"
   ],
   "note": ""
  },
  {
   "property": "C97",
   "status": "proved",
   "theorems": [
    "C97_replace",
    "C97_expressions",
    "C97_determined",
    "C97_no_abbreviations"
   ],
   "note": ""
  },
  {
   "property": "C99",
   "status": "proved",
   "theorems": [
    "C99_slice",
    "C99_marker_slice",
    "C99_constructors"
   ],
   "note": ""
  },
  {
   "property": "C100",
   "status": "proved",
   "theorems": [
    "C100_remove_named",
    "C100_remove_held",
    "C100_extend_held",
    "C100_extend_held_empty"
   ],
   "note": ""
  },
  {
   "property": "C101",
   "status": "proved",
   "theorems": [
    "C101_shortcut",
    "C101_falsy_value"
   ],
   "note": ""
  },
  {
   "property": "C103",
   "status": "proved",
   "theorems": [
    "C103_value",
    "C103_assigned",
    "C103_raw"
   ],
   "note": ""
  },
  {
   "property": "C98",
   "status": "proved",
   "theorems": [
    "C98_previous",
    "C98_next"
   ],
   "note": ""
  },
  {
   "property": "C102",
   "status": "proved",
   "theorems": [
    "C102_remove_match",
    "C102_private_removed"
   ],
   "note": ""
  },
  {
   "property": "C104",
   "status": "proved",
   "theorems": [
    "C104_to_dict",
    "C104_equality",
    "C104_by_value"
   ],
   "note": ""
  },
  {
   "property": "C105",
   "status": "partial",
   "theorems": [
    "C105_read_only",
    "C105_appended",
    "C105_refuted"
   ],
   "note": "Contradicted: to_dict appends to the list that is a value (C105_refuted). C105_read_only and C105_appended say exactly when and what it changes."
  },
  {
   "property": "C106",
   "status": "proved",
   "theorems": [
    "C106_terminates_iff"
   ],
   "note": ""
  },
  {
   "property": "C107",
   "status": "proved",
   "theorems": [
    "C107_every_call"
   ],
   "note": ""
  },
  {
   "property": "C108",
   "status": "proved",
   "theorems": [
    "C108_account"
   ],
   "note": ""
  },
  {
   "property": "C109",
   "status": "proved",
   "theorems": [
    "C109_removal"
   ],
   "note": ""
  },
  {
   "property": "C110",
   "status": "proved",
   "theorems": [
    "C110_derived"
   ],
   "note": ""
  },
  {
   "property": "C111",
   "status": "proved",
   "theorems": [
    "C111_calls_and_rules",
    "C111_outcomes"
   ],
   "note": ""
  },
  {
   "property": "C112",
   "status": "partial",
   "theorems": [
    "C112_renamed_in_place_refuted",
    "C112_append_named_partial",
    "C111_calls_and_rules"
   ],
   "note": "Contradicted for one given member (witness). Proved for a single match that is no member; lists are in C111."
  },
  {
   "property": "C113",
   "status": "proved",
   "theorems": [
    "C113_repeater"
   ],
   "note": ""
  },
  {
   "property": "C114",
   "status": "proved",
   "theorems": [
    "C114_what_runs",
    "C114_completes"
   ],
   "note": ""
  },
  {
   "property": "C115",
   "status": "proved",
   "theorems": [
    "C115_conflict_rule",
    "C115_raises"
   ],
   "note": ""
  },
  {
   "property": "C116",
   "status": "proved",
   "theorems": [
    "C116_chain_attempts",
    "C116_matches_in_order",
    "C116_aligned_text",
    "C116_misplaced_after_failure_only",
    "C116_still_aligned",
    "C116_attempt_determined",
    "C116_determined",
    "C116_patterns_uniform",
    "C116_where"
   ],
   "note": ""
  },
  {
   "property": "C117",
   "status": "proved",
   "theorems": [
    "C117_set_defaults"
   ],
   "note": ""
  },
  {
   "property": "C118",
   "status": "proved",
   "theorems": [
    "C118_rebulk_search_ends",
    "C118_nested_chains_terminate",
    "C118_nested_matches_located",
    "C118_short_validator_diverges"
   ],
   "note": ""
  },
  {
   "property": "C119",
   "status": "proved",
   "theorems": [
    "C119_seed_independent",
    "C119_same_contents",
    "C119_new_objects"
   ],
   "note": ""
  },
  {
   "property": "C120",
   "status": "partial",
   "theorems": [
    "C120_nested_children_refuted",
    "C120_pattern_partial",
    "C120_rebulk_partial"
   ],
   "note": "Contradicted by chains inside chains that both show their children (C120_nested_children_refuted); the objects returned are distinct in every other case (C120_pattern_partial, C120_rebulk_partial)."
  },
  {
   "property": "C121",
   "status": "partial",
   "theorems": [
    "C121_beyond_the_end_refuted",
    "C121_pattern_partial",
    "C121_rebulk_partial"
   ],
   "note": "refuted for a chain part with several alternatives; proved for parts found from left to right (single string, expression or function, or a chain of such without validator)"
  },
  {
   "property": "C122",
   "status": "proved",
   "theorems": [
    "C122_flatten",
    "C122_sorted_determined",
    "C122_groups_ascending"
   ],
   "note": ""
  },
  {
   "property": "C123",
   "status": "proved",
   "theorems": [
    "C123_like_a_list",
    "C123_lookups",
    "C123_read",
    "C123_delete",
    "C123_step_one",
    "C123_reversed"
   ],
   "note": ""
  },
  {
   "property": "C124",
   "status": "partial",
   "theorems": [
    "C124_walked_again",
    "C124_iterator_refuted",
    "C124_iterator_partial"
   ],
   "note": "Contradicted for one-shot iterators (C124_iterator_refuted): the iterator is used up by the list assignment, so the members assigned reach no lookup. C124_walked_again: everything holds of iterables that can be walked again; C124_iterator_partial: what an iterator leaves, exactly."
  },
  {
   "property": "C125",
   "status": "proved",
   "theorems": [
    "C125_before_the_error"
   ],
   "note": ""
  },
  {
   "property": "C126",
   "status": "partial",
   "theorems": [
    "C126_account",
    "C126_derived",
    "C126_first_use_partial",
    "C126_follow_refuted",
    "C126_other_attributes",
    "C126_max_end",
    "C126_range_refuted",
    "C126_seen"
   ],
   "note": "refuted once that kind of lookup was used; proved for kinds of lookup first used after the change and for the other attributes; C126_account is the exact behaviour"
  },
  {
   "property": "C127",
   "status": "proved",
   "theorems": [
    "C127_removal",
    "C127_changed_outside"
   ],
   "note": ""
  },
  {
   "property": "C128",
   "status": "partial",
   "theorems": [
    "C128_exact",
    "C128_own_sets_partial",
    "C128_unmodified_partial",
    "C128_refuted"
   ],
   "note": "Contradicted: the sets given lose their own item, and a set object shared by two items hides a cycle (C128_refuted). C128_exact says exactly what the caller is left with and what is answered, whatever is shared."
  },
  {
   "property": "C129",
   "status": "proved",
   "theorems": [
    "C129_breaker_sees_pieces",
    "C129_made_of_pieces"
   ],
   "note": ""
  },
  {
   "property": "C130",
   "status": "proved",
   "theorems": [
    "C130_truth",
    "C130_texts",
    "C130_options",
    "C130_formatters",
    "C130_rebulk",
    "C130_functions"
   ],
   "note": ""
  },
  {
   "property": "C131",
   "status": "proved",
   "theorems": [
    "C131_described",
    "C131_matches",
    "C131_found",
    "C131_search_ends"
   ],
   "note": ""
  },
  {
   "property": "C132",
   "status": "proved",
   "theorems": [
    "C132_processors",
    "C132_determined",
    "C132_no_error",
    "C132_raw_matches"
   ],
   "note": ""
  },
  {
   "property": "C133",
   "status": "partial",
   "theorems": [
    "C133_parts_format_partial",
    "C133_parts_format_refuted"
   ],
   "note": "Contradicted when the chain is asked for its children (witness): the default formatter of the chain replaces the formatter of the part; exact rule is C134."
  },
  {
   "property": "C134",
   "status": "proved",
   "theorems": [
    "C134_chain_shows",
    "C134_options",
    "C134_formatters"
   ],
   "note": ""
  },
  {
   "property": "C135",
   "status": "proved",
   "theorems": [
    "C135_matches_display",
    "C135_orderly",
    "C135_in_force",
    "C135_keys_in_force",
    "C135_determined",
    "C135_keys_determined",
    "C135_sub_rebulks"
   ],
   "note": ""
  },
  {
   "property": "C136",
   "status": "partial",
   "theorems": [
    "C136_no_level_given_partial",
    "C136_level_given",
    "C136_level_given_refuted"
   ],
   "note": "Contradicted by the constructor dropping the level (C136_level_given_refuted); C136_level_given says exactly what happens then."
  },
  {
   "property": "C137",
   "status": "proved",
   "theorems": [
    "C137_location",
    "C137_switch",
    "C137_regex"
   ],
   "note": ""
  },
  {
   "property": "C138",
   "status": "proved",
   "theorems": [
    "C138_values",
    "C138_check",
    "C138_declared_first",
    "C138_key"
   ],
   "note": ""
  },
  {
   "property": "C139",
   "status": "proved",
   "theorems": [
    "C139_pattern",
    "C139_matches",
    "C139_built",
    "C139_group_names_given_once"
   ],
   "note": ""
  },
  {
   "property": "C140",
   "status": "proved",
   "theorems": [
    "C140_structure",
    "C140_distinct"
   ],
   "note": ""
  },
  {
   "property": "C141",
   "status": "proved",
   "theorems": [
    "C141_built",
    "C141_errors",
    "C141_returns",
    "C141_no_marker_below",
    "C141_matches"
   ],
   "note": ""
  },
  {
   "property": "C142",
   "status": "proved",
   "theorems": [
    "C142_chain_processors",
    "C142_stage_determined"
   ],
   "note": ""
  },
  {
   "property": "C143",
   "status": "proved",
   "theorems": [
    "C143_matches_show_the_list",
    "C143_untagged_stay_untagged",
    "C143_one_rule",
    "C143_renaming_rule",
    "C143_tags_only_grow",
    "C143_history_is_in_the_lists"
   ],
   "note": ""
  },
  {
   "property": "C144",
   "status": "proved",
   "theorems": [
    "C144_values",
    "C144_declared_first",
    "C144_check",
    "C144_no_formatter"
   ],
   "note": ""
  },
  {
   "property": "C145",
   "status": "partial",
   "theorems": [
    "C145_values_partial",
    "C145_same_key",
    "C145_check_partial",
    "C145_values_refuted",
    "C145_check_refuted"
   ],
   "note": "Contradicted (two witnesses): keys of an object do not reach the patterns of its sub-Rebulks, and the check then raises. Proved: the key of the object owning the pattern settles the value; the same key declared by all settles all; when the check changes nothing."
  },
  {
   "property": "C146",
   "status": "proved",
   "theorems": [
    "C146_as_found",
    "C146_keeps",
    "C146_built_in",
    "C146_calls",
    "C146_inside",
    "C146_displays",
    "C146_renamed"
   ],
   "note": "C146_as_found is the main theorem; C146_built_in and C146_calls show that rules made of the built-in consequences or of calls are such rules."
  },
  {
   "property": "C147",
   "status": "proved",
   "theorems": [
    "C147_the_result_is_an_edited_list",
    "C147_built_in_rules",
    "C147_matches_returns"
   ],
   "note": ""
  },
  {
   "property": "C148",
   "status": "proved",
   "theorems": [
    "C148_one_result",
    "C148_other_results_raise",
    "C148_no_answer",
    "C148_one_alone",
    "C148_several",
    "C148_no_such_answer",
    "C148_used_again",
    "C148_documented_answers",
    "C148_documented_forms_suffice"
   ],
   "note": ""
  },
  {
   "property": "C149",
   "status": "proved",
   "theorems": [
    "C149_calls_at_the_same_time",
    "C149_a_call_alone",
    "C149_the_patterns_are_left"
   ],
   "note": ""
  },
  {
   "property": "C150",
   "status": "proved",
   "theorems": [
    "C150_matches",
    "C150_others_ignored",
    "C150_other_ignored",
    "C150_append_raises",
    "C150_append_one_raises",
    "C150_not_triggered",
    "C150_triggered",
    "C150_empty_generator",
    "C150_several",
    "C150_several_one",
    "C150_several_match",
    "C150_removing_a_set",
    "C150_appending_a_set"
   ],
   "note": ""
  }
 ]
}