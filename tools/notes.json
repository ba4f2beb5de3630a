{
 "C02": {
  "note": "The code contradicts the claim in one case: deleting a slice given from its end to its start deletes the wrong items (C02_delslice_refuted); every other call is proved for every history. What slice deletion does instead is proved exactly as C83.",
  "see": [
   "C83_delete_slice",
   "C107_every_call"
  ]
 },
 "C03": {
  "note": "Contradicted by insert (C03_lookup_order_refuted); proved for histories that add at the end. The exact order of every answer over every history is C80.",
  "see": [
   "C80_lookups_told",
   "C80_order_when_only_added"
  ]
 },
 "C04": {
  "note": "Contradicted (C04_assignment_refuted): item assignment after a lookup leaves the lookup stale. The exact answer over histories with assignments is C80.",
  "see": [
   "C80_lookups_told"
  ]
 },
 "C05": {
  "note": "Contradicted for names/tags (empty entries) and max_end; exact behaviour is C81 and C82; all other lookups proved read-only.",
  "see": [
   "C81_names",
   "C81_tags",
   "C82_max_end"
  ]
 },
 "C06": {
  "note": "Contradicted: max_end never decreases (C06_max_end_shrinks_refuted, C06_max_end_never_decreases); exact value is C82.",
  "see": [
   "C82_max_end"
  ]
 },
 "C09": {
  "note": "Contradicted when the range starts inside a match (C09_holes_refuted); exact answer for every history, range and filter is C84.",
  "see": [
   "C84_holes"
  ]
 },
 "C10": {
  "note": "Contradicted (C10_holes_seps_refuted); exact answer is C84.",
  "see": [
   "C84_holes"
  ]
 },
 "C13": {
  "note": "Contradicted: a rejected append leaves the match in the list (C13_rejection_refuted). What a refused match does exactly, to the list and to every later call, is C107/C108.",
  "see": [
   "C107_every_call",
   "C108_account"
  ]
 },
 "C18": {
  "note": "Contradicted for an assigned value that is falsy; exact value is C103.",
  "see": [
   "C103_value",
   "C103_assigned"
  ]
 },
 "C19": {
  "note": "Contradicted when values are lists (C19_list_values_refuted); exact answer with shared list objects is C104, effects C105.",
  "see": [
   "C104_to_dict"
  ]
 },
 "C21": {
  "note": "Contradicted by the empty sub-string (loops for ever); C106 gives the exact condition.",
  "see": [
   "C106_terminates_iff"
  ]
 },
 "C28": {
  "note": "Contradicted when a dependency is given as an object of another priority or not registered (C28_refuted); what runs in every case is C114.",
  "see": [
   "C114_what_runs",
   "C114_completes"
  ]
 },
 "C32": {
  "note": "Contradicted: AppendMatch with a new name tests membership before it renames, so two given matches may become equal (C32_refuted)."
 },
 "C33": {
  "note": "Contradicted (two witnesses in C33_refuted): an empty match given alone is removed and never put back (an empty match is falsy), and of two equal members the other one is removed.",
  "see": [
   "C111_calls_and_rules"
  ]
 },
 "C34": {
  "note": "Contradicted (two witnesses in C34_refuted): an empty match given alone is removed and never put back (an empty match is falsy), and with two equal members the tag lookup files the wrong one.",
  "see": [
   "C111_calls_and_rules"
  ]
 },
 "C35": {
  "note": "Contradicted by equal members, private equals and empty matches (three witnesses); what is removed in every case is C115.",
  "see": [
   "C115_conflict_rule",
   "C115_raises"
  ]
 },
 "C38": {
  "note": "Contradicted by equal members (C38_equal_members_refuted); what is removed in every case is C115.",
  "see": [
   "C115_conflict_rule",
   "C115_raises"
  ]
 },
 "C39": {
  "note": "Contradicted: equality ignores the private flag (C39_refuted); exact result is C102.",
  "see": [
   "C102_private_removed"
  ]
 },
 "C43": {
  "note": "Contradicted when a match carries an explicit raw_end (C43_explicit_raw_end_refuted).",
  "see": [
   "C118_nested_chains_terminate"
  ]
 },
 "C44": {
  "note": "Contradicted: the text given to the next part is not reset after a failed attempt, so pieces may be at the wrong place or missed (C44_stale_text_refuted, C44_missed_refuted). C116 gives the exact behaviour without the hypothesis steady.",
  "see": []
 },
 "C45": {
  "note": "Contradicted when a part's pattern has several alternatives (C45_alternatives_refuted). C116 gives the exact behaviour without the hypothesis steady."
 },
 "C46": {
  "note": "Contradicted: '{n}' has no upper bound, '{a b}' without a comma is read as '{a,b}' (witnesses); the meaning of every text is C113.",
  "see": [
   "C113_repeater"
  ]
 },
 "C47": {
  "note": "Contradicted: only the direct children contribute (C47_grandchildren_refuted); exact statement is C86.",
  "see": [
   "C86_contributions",
   "C86_disabled_contribute_nothing",
   "C86_children_of_children_ignored"
  ]
 },
 "C48": {
  "note": "Contradicted: a regex marker with groups raises AssertionError; exact statement is C87.",
  "see": [
   "C87_separated",
   "C87_marker_option",
   "C87_regex_groups_refused"
  ]
 },
 "C50": {
  "note": "Contradicted: the tag lists of patterns are shared with the matches, so tag rules leak into the next call (two witnesses)."
 },
 "C51": {
  "note": "Contradicted (two witnesses); exact statement is C88.",
  "see": [
   "C88_each_option"
  ]
 },
 "C54": {
  "note": "Contradicted in the order of the answers; exact statement is C89.",
  "see": [
   "C89_typed_access"
  ]
 },
 "C56": {
  "note": "Contradicted (two witnesses); exact statement is C90.",
  "see": [
   "C90_exact"
  ]
 },
 "C58": {
  "note": "Contradicted (three witnesses: a bound method, a keyword-only parameter, a parameter given twice); exact statement is C91.",
  "see": [
   "C91_passes"
  ]
 },
 "C61": {
  "note": "Contradicted: the walk to the initiator stops below an empty parent (Match has a length, so an empty parent is falsy); exact statement is C92.",
  "see": [
   "C92_names",
   "C92_named_tagged",
   "C92_initiator"
  ]
 },
 "C62": {
  "note": "Contradicted: defaults() changes built patterns (witness)."
 },
 "C65": {
  "note": "The documentation is contradicted (witness); the true order is C93.",
  "see": [
   "C93_each_rule_at_once"
  ]
 },
 "C66": {
  "note": "Contradicted: priority comes first (witness); exact order is C94.",
  "see": [
   "C94_dependency_first",
   "C94_lower_priority_after"
  ]
 },
 "C68": {
  "note": "Contradicted: helper functions of a module are loaded as rules (witness); exact statement is C95.",
  "see": [
   "C95_loading"
  ]
 },
 "C69": {
  "note": "Contradicted by reset() (witness); exact statement is C96.",
  "see": [
   "C96_registration",
   "C96_effective"
  ]
 },
 "C70": {
  "note": "Contradicted (three witnesses); exact statement is C97.",
  "see": [
   "C97_expressions"
  ]
 },
 "C73": {
  "note": "Contradicted (witness); exact statement is C98.",
  "see": [
   "C98_previous",
   "C98_next"
  ]
 },
 "C74": {
  "note": "Contradicted: a slice loses the text (holes differ) and a slice of Markers raises AssertionError; exact statement is C99.",
  "see": [
   "C99_slice",
   "C99_constructors"
  ]
 },
 "C75": {
  "note": "Contradicted (two witnesses); exact statement is C100.",
  "see": [
   "C100_remove_held",
   "C100_extend_held"
  ]
 },
 "C77": {
  "note": "Contradicted for value=0 (witness); exact statement is C101.",
  "see": [
   "C101_shortcut",
   "C101_falsy_value"
  ]
 },
 "C105": {
  "note": "Contradicted: to_dict appends to the list that is a value (C105_refuted). C105_read_only and C105_appended say exactly when and what it changes."
 },
 "C112": {
  "note": "Contradicted for one given member (witness). Proved for a single match that is no member; lists are in C111.",
  "see": [
   "C111_calls_and_rules"
  ]
 },
 "C120": {
  "note": "Contradicted by chains inside chains that both show their children (C120_nested_children_refuted); the objects returned are distinct in every other case (C120_pattern_partial, C120_rebulk_partial)."
 },
 "C121": {
  "note": "refuted for a chain part with several alternatives; proved for parts found from left to right (single string, expression or function, or a chain of such without validator)",
  "see": []
 },
 "C126": {
  "note": "refuted once that kind of lookup was used; proved for kinds of lookup first used after the change and for the other attributes; C126_account is the exact behaviour",
  "see": []
 },
 "C133": {
  "note": "Contradicted when the chain is asked for its children (witness): the default formatter of the chain replaces the formatter of the part; exact rule is C134."
 },
 "C124": {
  "note": "Contradicted for one-shot iterators (C124_iterator_refuted): the iterator is used up by the list assignment, so the members assigned reach no lookup. C124_walked_again: everything holds of iterables that can be walked again; C124_iterator_partial: what an iterator leaves, exactly."
 },
 "C128": {
  "note": "Contradicted: the sets given lose their own item, and a set object shared by two items hides a cycle (C128_refuted). C128_exact says exactly what the caller is left with and what is answered, whatever is shared."
 },
 "C136": {
  "note": "Contradicted by the constructor dropping the level (C136_level_given_refuted); C136_level_given says exactly what happens then."
 },
 "C145": {
  "note": "Contradicted (two witnesses): keys of an object do not reach the patterns of its sub-Rebulks, and the check then raises. Proved: the key of the object owning the pattern settles the value; the same key declared by all settles all; when the check changes nothing."
 },
 "C146": {
  "note": "C146_as_found is the main theorem; C146_built_in and C146_calls show that rules made of the built-in consequences or of calls are such rules."
 }
}