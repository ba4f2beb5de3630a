{
"C04_lookups_told_partial": "C80_lookups_told",
"C03_lookup_order_told_partial": "C80_order_when_only_added",
"C05_names_exact_partial": "C81_names",
"C05_tags_exact_partial": "C81_tags",
"C06_max_end_exact_partial": "C82_max_end",
"C06_max_end_of_all_added_partial": "C82_max_end_of_all_added",
"C02_delslice_exact_partial": "C83_delete_slice",
"C47_disabled_rebulk": "C86_disabled_rebulk",
"C47_contributions_partial": "C86_contributions",
"C47_disabled_contribute_nothing": "C86_disabled_contribute_nothing",
"C48_separated": "C87_separated",
"C48_marker_option": "C87_marker_option",
"C51_defaults_are_the_latest_given": "C88_defaults_are_the_latest_given",
"C51_each_option": "C88_each_option",
"C51_overrides_must_be_given": "C88_overrides_must_be_given",
"C54_element_type": "C89_element_type",
"C56_exact": "C90_exact",
"C58_passes": "C91_passes",
"C61_names": "C92_names",
"C61_named_tagged": "C92_named_tagged",
"C65_each_rule_at_once": "C93_each_rule_at_once",
"C66_dependency_first_partial": "C94_dependency_first",
"C66_lower_priority_after": "C94_lower_priority_after",
"C68_loading": "C95_loading",
"C68_determined": "C95_determined",
"C69_registration": "C96_registration",
"C69_effective": "C96_effective",
"C69_interleaving_irrelevant": "C96_interleaving_irrelevant",
"C70_replace": "C97_replace",
"C70_expressions_partial": "C97_expressions",
"C70_determined": "C97_determined",
"C70_no_abbreviations": "C97_no_abbreviations",
"C74_constructors": "C99_constructors",
"C75_remove_named": "C100_remove_named",
"C77_shortcut": "C101_shortcut",
"C77_falsy_value": "C101_falsy_value",
"C47_grandchildren_refuted": "C86_children_of_children_ignored",
"C48_regex_groups_refuted": "C87_regex_groups_refused",
"C74_slice_partial": "C99_slice",
"C74_marker_slice_refuted": "C99_marker_slice",
"C75_remove_held_refuted": "C100_remove_held",
"C75_extend_held_refuted": "C100_extend_held"
}