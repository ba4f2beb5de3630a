{"id": "C01", "title": "Lookups agree with the contents after any history", "statement": "After any sequence of append/insert/extend/remove/pop/del/clear calls interleaved with any lookups, named(n), tagged(t), starting(i), ending(i) and at_index(i) return exactly the members of the sequence that have that name / tag / start / end / cover that index (one entry per member, up to Match equality, order aside), and no such call raises an internal error. Slices are deleted after an ending() lookup, or with no match but the last of the slice ending at the furthest end: other slice deletions may fail (see C02).", "quantifier": "every finite history of calls on one Matches/Markers object, every Match (span, name, tags, value, parent), every point at which a lookup is first used", "why_tests_cant": "the lookup structures are built lazily and then maintained incrementally, so the answer depends on the whole interleaving of mutations and lookups; tests exercise a handful of interleavings", "anchors": ["rebulk/match.py:_BaseMatches._name_dict", "rebulk/match.py:_BaseMatches._tag_dict", "rebulk/match.py:_BaseMatches._start_dict", "rebulk/match.py:_BaseMatches._end_dict", "rebulk/match.py:_BaseMatches._index_dict", "rebulk/match.py:_BaseMatches._add_match", "rebulk/match.py:_BaseMatches._remove_match"]}
{"id": "C02", "title": "Matches behaves like a list", "statement": "append, insert, extend, remove, pop, del (index or slice), clear, index, count, `in` and len have exactly the effect and the IndexError/ValueError conditions of the same calls on a plain Python list of the same matches, whatever lookups were made in between.", "quantifier": "every finite history of calls on one Matches/Markers object, every Match (span, name, tags, value, parent), every point at which a lookup is first used", "why_tests_cant": "quantifies over all call sequences and all indices, negative and out of range included", "anchors": ["rebulk/match.py:_BaseMatches.insert", "rebulk/match.py:_BaseMatches.__delitem__", "rebulk/match.py:_BaseMatches.__getitem__", "rebulk/match.py:_BaseMatches.__len__"]}
{"id": "C03", "title": "Lookups answer in match order", "statement": "named, tagged, starting, ending and at_index list their answers in the order of the matches in the sequence (documented: 'match order within each').", "quantifier": "every finite history of calls on one Matches/Markers object, every Match (span, name, tags, value, parent), every point at which a lookup is first used", "why_tests_cant": "the lookup structures are built lazily and then maintained incrementally, so the answer depends on the whole interleaving of mutations and lookups; tests exercise a handful of interleavings", "anchors": ["rebulk/match.py:_BaseMatches._add_match", "rebulk/match.py:_BaseMatches._remove_match", "rebulk/match.py:_BaseMatches.named"]}
{"id": "C04", "title": "Item assignment and reverse keep lookups coherent", "statement": "After matches[i] = m, matches[i:j] = ms or matches.reverse(), the lookups still return exactly the members of the sequence: the replaced match is no longer found and nothing is listed twice.", "quantifier": "every finite history of calls on one Matches/Markers object, every Match (span, name, tags, value, parent), every point at which a lookup is first used", "why_tests_cant": "the lookup structures are built lazily and then maintained incrementally, so the answer depends on the whole interleaving of mutations and lookups; tests exercise a handful of interleavings", "anchors": ["rebulk/match.py:_BaseMatches.__setitem__"]}
{"id": "C05", "title": "Lookups are read-only", "statement": "A lookup (named, tagged, starting, ending, at_index, at_span, range, holes, previous, next, conflicting, chain_before, chain_after) never changes the sequence, nor the answer of any later lookup, nor names, tags or max_end.", "quantifier": "every state, every lookup, every later lookup", "why_tests_cant": "a default-creating dictionary read is a hidden write; a test would have to guess the pair of calls that exposes it", "anchors": ["rebulk/match.py:_BaseMatches.ending", "rebulk/match.py:_BaseMatches.names", "rebulk/match.py:_BaseMatches.max_end", "rebulk/match.py:_BaseMatches._remove_match"]}
{"id": "C06", "title": "max_end bounds and tracks the matches", "statement": "max_end is at least the length of the input string and at least the end of every member, and it equals the maximum of those quantities (so it shrinks when the furthest match is removed).", "quantifier": "every finite history of calls on one Matches/Markers object, every Match (span, name, tags, value, parent), every point at which a lookup is first used", "why_tests_cant": "the lookup structures are built lazily and then maintained incrementally, so the answer depends on the whole interleaving of mutations and lookups; tests exercise a handful of interleavings", "anchors": ["rebulk/match.py:_BaseMatches.max_end", "rebulk/match.py:_BaseMatches._add_match", "rebulk/match.py:_BaseMatches._remove_match"]}
{"id": "C07", "title": "previous and next return the nearest group", "statement": "previous(m) returns exactly the matches whose end is the greatest end not after m.start (empty when there is none); next(m) returns exactly the matches whose start is the smallest start after m.start (empty when there is none).", "quantifier": "every reachable collection of matches with 0 <= start <= end, every match m with m.start >= 0", "why_tests_cant": "a nearest-neighbour claim over all positions", "anchors": ["rebulk/match.py:_BaseMatches.previous", "rebulk/match.py:_BaseMatches.next"]}
{"id": "C08", "title": "range returns the overlapping matches sorted by span", "statement": "range(start, end) returns exactly the members that overlap [start, min(end, max_end)), each once, ordered by (start, end), ties in sequence order.", "quantifier": "every reachable collection and all bounds", "why_tests_cant": "order and exactness must hold for all collections", "anchors": ["rebulk/match.py:_BaseMatches.range"]}
{"id": "C09", "title": "holes returns exactly the uncovered text", "statement": "Without separators, holes(start, end, ignore) returns intervals that are non-empty, ordered, non adjacent and disjoint, and a position of [start, min(end, max_end)) lies in one of them iff no member for which ignore is false covers it.", "quantifier": "every reachable collection of non-empty matches, all 0 <= start, all end, every ignore predicate", "why_tests_cant": "partition claims quantify over all positions and all layouts", "anchors": ["rebulk/match.py:_BaseMatches.holes", "rebulk/match.py:_BaseMatches._hole_start", "rebulk/match.py:_BaseMatches._hole_end"]}
{"id": "C10", "title": "holes with separators stays inside the range", "statement": "holes(start, end, seps=s) returns well-formed intervals (start <= hole.start < hole.end <= end) that are disjoint, cover no matched position and contain no separator character.", "quantifier": "every collection, all bounds, every separator set", "why_tests_cant": "the interaction of start with separators occurring before start is a corner the test-suite never reaches", "anchors": ["rebulk/match.py:_BaseMatches.holes"]}
{"id": "C11", "title": "conflicting, at_span and at_match are exact", "statement": "conflicting(m), for a non-empty member m, returns exactly the other members (up to equality) sharing at least one position with m, each once, and never m; it raises ValueError when m is empty or is not a member. at_span((s, e)) returns exactly the members covering s or e-1, each once.", "quantifier": "every reachable collection, every match, every span", "why_tests_cant": "exactness over all layouts", "anchors": ["rebulk/match.py:_BaseMatches.conflicting", "rebulk/match.py:_BaseMatches.at_span", "rebulk/match.py:_BaseMatches.at_match"]}
{"id": "C12", "title": "chain_before and chain_after stop at the first unmatched non-separator", "statement": "chain_after(p, seps, end) returns, each once, exactly the matches satisfying the predicate and covering a position q of [p, end) such that every position of [p, q] is covered by such a match or holds a separator; chain_before is the mirror image.", "quantifier": "every reachable collection, all positions, separators and predicates", "why_tests_cant": "reachability claim over all positions", "anchors": ["rebulk/match.py:_BaseMatches.chain_before", "rebulk/match.py:_BaseMatches.chain_after"]}
{"id": "C13", "title": "A rejected match leaves the collection unchanged", "statement": "When append/insert rejects a match (a marker into Matches, a non-marker into Markers) by raising AssertionError, the collection is unchanged; hence Matches never holds a marker and Markers never holds a non-marker.", "quantifier": "every finite history of calls on one Matches/Markers object, every Match (span, name, tags, value, parent), every point at which a lookup is first used", "why_tests_cant": "exception-safety at every point of every history", "anchors": ["rebulk/match.py:Matches._add_match", "rebulk/match.py:Markers._add_match", "rebulk/match.py:_BaseMatches.insert"]}
{"id": "C14", "title": "predicate and index arguments", "statement": "For every lookup, predicate keeps exactly the matches it accepts, in order; an integer index (also when passed in the predicate position) picks that element of the filtered list with Python indexing (negative allowed) and yields None when out of range.", "quantifier": "every collection, predicate and index", "why_tests_cant": "all index values, sign and range combinations", "anchors": ["rebulk/loose.py:filter_index"]}
{"id": "C15", "title": "Match equality, order and hash", "statement": "== on matches is an equivalence relation that compares span, value, name and parent, != is its negation, equal matches have equal hashes, hash does not depend on the value, and <, <=, >, >= form one total preorder on spans.", "quantifier": "all pairs/triples of matches", "why_tests_cant": "universally quantified algebraic laws", "anchors": ["rebulk/match.py:Match.__eq__", "rebulk/match.py:Match.__ne__", "rebulk/match.py:Match.__hash__", "rebulk/match.py:Match.__lt__", "rebulk/match.py:Match.__le__", "rebulk/match.py:Match.__gt__", "rebulk/match.py:Match.__ge__"]}
{"id": "C16", "title": "crop removes exactly the cropped positions", "statement": "m.crop(crops) returns non-empty, pairwise disjoint matches whose covered positions are exactly those of m covered by no crop; m itself is unchanged and the other attributes are those of m.", "quantifier": "every non-empty match and every list of crop spans with start <= end, in any order and overlapping", "why_tests_cant": "set-algebra over all interval lists", "anchors": ["rebulk/match.py:Match.crop"]}
{"id": "C17", "title": "split returns the maximal separator-free runs", "statement": "m.split(seps) returns, left to right, exactly the maximal non-empty runs of non-separator characters of m's text, at their true positions.", "quantifier": "every input string, in-range match and separator set", "why_tests_cant": "maximality and exactness over all strings", "anchors": ["rebulk/match.py:Match.split"]}
{"id": "C18", "title": "value resolution", "statement": "m.value is the assigned value when one was set, otherwise the formatter applied to the raw text when there is one, otherwise the raw text; after m.value = v, m.value is v.", "quantifier": "every match, value, formatter", "why_tests_cant": "every value, the falsy ones included", "anchors": ["rebulk/match.py:Match.value", "rebulk/match.py:Match.raw"]}
{"id": "C19", "title": "to_dict groups values by name in span order", "statement": "The keys of to_dict() are the names of the members in order of first appearance in span order; a name maps to its single distinct value, or to the list of its distinct values in span order; with first_value to the first one; with enforce_list always to a list; .matches[name] lists all its matches.", "quantifier": "every collection", "why_tests_cant": "all multiplicities and value collisions", "anchors": ["rebulk/match.py:_BaseMatches.to_dict"]}
{"id": "C20", "title": "find_all returns the leftmost non-overlapping occurrences", "statement": "For a non-empty substring find_all(string, sub, start, end) terminates and yields exactly the greedy left-to-right occurrences of sub lying inside string[start:end]: increasing, non overlapping, and no further occurrence fits before, between or after them.", "quantifier": "all strings, substrings and bounds (negative and out of range included)", "why_tests_cant": "all strings", "anchors": ["rebulk/utils.py:find_all"]}
{"id": "C21", "title": "String search always terminates", "statement": "StringPattern matching terminates on every input string for every pattern string.", "quantifier": "all pattern strings (the empty one included) and inputs", "why_tests_cant": "a test cannot observe non-termination", "anchors": ["rebulk/utils.py:find_all", "rebulk/pattern.py:StringPattern._match"]}
{"id": "C22", "title": "String matches carry the searched text", "statement": "Every match produced by a string pattern lies inside the input, is non-empty, and its raw text is the searched string (case-sensitive search); every occurrence of the string overlaps one of them.", "quantifier": "all inputs and patterns", "why_tests_cant": "soundness and completeness over all strings", "anchors": ["rebulk/pattern.py:StringPattern._match"]}
{"id": "C23", "title": "extend_safe appends each new element once, hashable or not", "statement": "extend_safe(target, source) leaves target as a prefix, then appends the elements of source not already present, once each, in order; the outcome is the same whether all elements are hashable, none is, or an unhashable one turns up midway.", "quantifier": "all lists and every hashability assignment", "why_tests_cant": "the exception may strike at any position", "anchors": ["rebulk/utils.py:extend_safe"]}
{"id": "C24", "title": "IdentitySet is a set of objects by identity", "statement": "Under any history of add/discard/update, an object is in the set iff it was added more recently than discarded, by identity not equality, and len counts distinct objects.", "quantifier": "all histories", "why_tests_cant": "all histories", "anchors": ["rebulk/utils.py:IdentitySet"]}
{"id": "C25", "title": "toposort yields the dependency layers", "statement": "toposort(data) yields disjoint non-empty groups covering exactly the keys and dependencies when it completes; each item comes in a strictly later group than each of its dependencies other than itself, and an item of group n>0 has a dependency in group n-1.", "quantifier": "all finite dependency graphs", "why_tests_cant": "all graphs", "anchors": ["rebulk/toposort.py:toposort"]}
{"id": "C26", "title": "toposort rejects exactly the cyclic graphs", "statement": "toposort raises CyclicDependency iff the graph has a dependency cycle of length greater than one; the reported remainder is the set of items that reach such a cycle.", "quantifier": "all finite dependency graphs", "why_tests_cant": "all graphs", "anchors": ["rebulk/toposort.py:toposort", "rebulk/toposort.py:CyclicDependency"]}
{"id": "C27", "title": "Rules run by priority then dependency then registration order", "statement": "execute_all_rules runs higher priorities first; inside a priority a rule runs after the rules of that priority it depends on; rules of one dependency layer run in registration order.", "quantifier": "all rule lists, priorities and class dependencies", "why_tests_cant": "all rule sets", "anchors": ["rebulk/rules.py:Rules.execute_all_rules", "rebulk/rules.py:toposort_rules"]}
{"id": "C28", "title": "Every registered rule runs exactly once", "statement": "A completed execute_all_rules considers every registered rule exactly once and no other rule, whatever the dependencies (declared as classes or instances).", "quantifier": "all rule lists and dependencies", "why_tests_cant": "all rule sets", "anchors": ["rebulk/rules.py:Rules.execute_all_rules", "rebulk/rules.py:toposort_rules"]}
{"id": "C29", "title": "Rule order does not depend on set iteration order", "statement": "The execution order of rules, and the outcome of the conflict solver, are the same whatever order Python iterates the sets used internally (rule groups, the identity set of matches to remove).", "quantifier": "all rule lists, all iteration orders of each set", "why_tests_cant": "a test run sees one iteration order", "anchors": ["rebulk/rules.py:Rules.execute_all_rules", "rebulk/processors.py:ConflictSolver.when", "rebulk/rules.py:RemoveMatch.then"]}
{"id": "C30", "title": "A rule's consequence runs iff it is enabled and its condition is truthy", "statement": "execute_all_rules calls when only on enabled rules, calls then exactly for the rules whose when was truthy, with that response and the matches as left by the rules before, and returns those (rule, response) pairs in order.", "quantifier": "all rules, states and contexts", "why_tests_cant": "all rules", "anchors": ["rebulk/rules.py:execute_rule", "rebulk/rules.py:Rules.execute_all_rules"]}
{"id": "C31", "title": "RemoveMatch removes exactly what it is given", "statement": "RemoveMatch removes, for each given match present in the sequence, one equal member, ignores those absent, never raises, keeps the order of the others, and returns the removed ones; the lookups stay coherent.", "quantifier": "all collections and responses", "why_tests_cant": "all multisets of equal and unequal matches", "anchors": ["rebulk/rules.py:RemoveMatch.then"]}
{"id": "C32", "title": "AppendMatch never introduces a duplicate", "statement": "After AppendMatch the members present before are still there, in order, followed by the given matches that were not already present, and no two appended or existing-and-appended members are equal.", "quantifier": "all collections and responses, with and without match_name", "why_tests_cant": "duplicates may only arise through renaming", "anchors": ["rebulk/rules.py:AppendMatch.then"]}
{"id": "C33", "title": "RenameMatch renames and keeps every match", "statement": "After RenameMatch(n) on members ms, every one of ms is in the collection under name n (up to equality), no other member changed, and named(n) finds them.", "quantifier": "all collections and responses", "why_tests_cant": "all layouts incl. name collisions and empty matches", "anchors": ["rebulk/rules.py:RenameMatch.then"]}
{"id": "C34", "title": "AppendTags and RemoveTags update tags and the tag lookup together", "statement": "After AppendTags(ts)/RemoveTags(ts) on members ms, each of ms carries / no longer carries one occurrence of each of ts, the number of members is unchanged, and tagged(t) agrees with the members' tags.", "quantifier": "all collections, responses and tag lists", "why_tests_cant": "all histories", "anchors": ["rebulk/rules.py:AppendTags.then", "rebulk/rules.py:RemoveTags.then"]}
{"id": "C35", "title": "Conflicts are resolved", "statement": "With the default solver, after the conflict rule no two remaining non-private matches overlap unless their initiators have equal length.", "quantifier": "all collections of non-empty matches, with parents, duplicates and private matches", "why_tests_cant": "all layouts", "anchors": ["rebulk/processors.py:ConflictSolver.when", "rebulk/processors.py:_default_conflict_solver"]}
{"id": "C36", "title": "Nothing is removed without a reason", "statement": "With the default solver each match removed by the conflict rule is non-private and overlaps a non-private match with a strictly longer initiator that had not been removed when the decision was made; private matches are never removed and a match no longer-initiator match overlaps is kept.", "quantifier": "all collections", "why_tests_cant": "all layouts", "anchors": ["rebulk/processors.py:ConflictSolver.when"]}
{"id": "C37", "title": "Longest match wins: exact outcome", "statement": "For matches without parents the default conflict rule keeps exactly the private matches and the non-private matches overlapped by no strictly longer non-private match, in their original order.", "quantifier": "all collections of parentless non-empty matches", "why_tests_cant": "closed form over all layouts", "anchors": ["rebulk/processors.py:ConflictSolver.when"]}
{"id": "C38", "title": "Custom conflict solvers decide their conflicts", "statement": "If the conflict_solver of the longer or of the shorter of two overlapping non-private matches (the conflicting one's consulted first) returns one of the two, one of them is removed; if it returns None neither is removed on account of this pair; if it returns '__default__' the next solver decides.", "quantifier": "all collections and solver functions", "why_tests_cant": "all solver functions", "anchors": ["rebulk/processors.py:ConflictSolver.when"]}
{"id": "C39", "title": "No private match survives", "statement": "After the private-remover rule no private match is left and every non-private match is still there.", "quantifier": "all collections", "why_tests_cant": "all mixtures of equal private and public matches", "anchors": ["rebulk/processors.py:PrivateRemover.when", "rebulk/rules.py:RemoveMatch.then"]}
{"id": "C40", "title": "Pattern options resolve by name, then role, then default", "statement": "The value, formatter and validator applied to a match are the entry for its name, else the entry '__parent__' or '__children__' for its role, else the entry None, else the pattern default.", "quantifier": "all option dictionaries, names and roles", "why_tests_cant": "all dictionaries", "anchors": ["rebulk/pattern.py:Pattern._match_config_property_keys", "rebulk/utils.py:get_first_defined", "rebulk/loose.py:ensure_dict"]}
{"id": "C41", "title": "Validation is all or nothing", "statement": "If the validator rejects the parent or any of its children that is subject to validation, no match at all is produced for that occurrence; otherwise the parent and/or all the children selected by children/every/private_* and ignore_names are produced, parent first, children in order.", "quantifier": "all patterns, occurrences and validators", "why_tests_cant": "all validators and option combinations", "anchors": ["rebulk/pattern.py:Pattern._process_matches", "rebulk/pattern.py:Pattern._process_match"]}
{"id": "C42", "title": "Privacy flags", "statement": "A produced match is private iff the pattern is private, or its name is in private_names, or it is the parent and private_parent, or a child and private_children.", "quantifier": "all option combinations", "why_tests_cant": "option cross-product", "anchors": ["rebulk/pattern.py:Pattern._process_match_private"]}
{"id": "C43", "title": "Chain search terminates", "statement": "Matching a chain terminates on every input whatever its parts produce, provided each part's matches are non-empty and start inside the text given to the part.", "quantifier": "all chains, parts, repeaters and inputs", "why_tests_cant": "a test cannot observe non-termination", "anchors": ["rebulk/chain.py:Chain._match"]}
{"id": "C44", "title": "Chain parts are contiguous and correctly positioned", "statement": "In every match produced by a chain, each part's text is what that part matched in the input at that position, and consecutive visible parts are adjacent.", "quantifier": "all chains and inputs", "why_tests_cant": "positions are rebased with an offset that survives failed attempts; only particular failures expose a stale base", "anchors": ["rebulk/chain.py:Chain._match", "rebulk/chain.py:Chain._to_next_chain_part", "rebulk/chain.py:Chain._fix_matches_offset"]}
{"id": "C45", "title": "Repeaters bound the number of repetitions", "statement": "In a valid chain each part is repeated at least repeater_start and at most repeater_end times.", "quantifier": "all repeaters and occurrence lists", "why_tests_cant": "all counts", "anchors": ["rebulk/chain.py:ChainPart._truncate_repeater", "rebulk/chain.py:ChainPart._validate_repeater"]}
{"id": "C46", "title": "Repeater notation", "statement": "repeater(n), '?', '*', '+', '{a,b}', '{a,}', '{,b}' and '{a}' denote the ranges n..n, 0..1, 0.., 1.., a..b, a.., 0..b and a..a.", "quantifier": "all integers a, b, n", "why_tests_cant": "all numerals", "anchors": ["rebulk/chain.py:ChainPart.repeater"]}
{"id": "C47", "title": "Disabled objects contribute nothing", "statement": "A disabled Rebulk returns an empty result; a disabled pattern or child Rebulk contributes no match, no rule and no key; enabled ones contribute all theirs, once, parents first.", "quantifier": "all configurations and contexts", "why_tests_cant": "all contexts and nestings", "anchors": ["rebulk/rebulk.py:Rebulk.matches", "rebulk/rebulk.py:Rebulk.effective_patterns", "rebulk/rebulk.py:Rebulk.effective_rules", "rebulk/rebulk.py:Rebulk.effective_keys"]}
{"id": "C48", "title": "Markers and matches are separated", "statement": "Matches found by marker patterns are in result.markers and only there, the others in result and only there, for string, regex and functional patterns.", "quantifier": "all configurations", "why_tests_cant": "all pattern kinds", "anchors": ["rebulk/rebulk.py:Rebulk._matches_patterns", "rebulk/pattern.py:RePattern._match"]}
{"id": "C49", "title": "End to end: string patterns", "statement": "Rebulk().string(p1)...string(pn).matches(text) returns exactly the occurrences found by each pattern that no strictly longer occurrence found by another overlaps, in pattern order then position order, each inside the text with the pattern as raw value, none private.", "quantifier": "all texts and non-empty pattern strings", "why_tests_cant": "all texts", "anchors": ["rebulk/rebulk.py:Rebulk.matches", "rebulk/pattern.py:Pattern.matches", "rebulk/processors.py:ConflictSolver.when"]}
{"id": "C50", "title": "matches() calls are independent", "statement": "Calling matches() does not change the Rebulk object: a second call with the same input returns an equal result, tags included.", "quantifier": "all configurations (rules that add or remove tags included) and all inputs", "why_tests_cant": "leakage needs a particular pair of configuration and call history", "anchors": ["rebulk/rules.py:AppendTags.then", "rebulk/loose.py:ensure_list", "rebulk/pattern.py:StringPattern._match", "rebulk/match.py:Match.__init__"]}
{"id": "C51", "title": "Keyword precedence in builders", "statement": "For a built pattern, an option given in the call wins over the kind-specific default, which wins over the general default; list options are concatenated general-first, dict options merged key-wise with the same precedence; options named in overrides are exactly the call's.", "quantifier": "all option dictionaries", "why_tests_cant": "all dictionaries and nestings", "anchors": ["rebulk/loose.py:set_defaults", "rebulk/builder.py:overrides", "rebulk/builder.py:PatternFactory.build_re"]}
{"id": "C52", "title": "Declared keys never override an explicit formatter", "statement": "After declare_keys, a pattern built without a bare formatter gets each key's converter for that name unless it already has an entry for the name; other entries are unchanged; a pattern with a bare formatter is unchanged; the last declaration of a name wins.", "quantifier": "all key lists and patterns", "why_tests_cant": "all dictionaries", "anchors": ["rebulk/builder.py:PatternFactory._inherit_keys", "rebulk/builder.py:PatternFactory.declare_keys", "rebulk/builder.py:_apply_key"]}
{"id": "C53", "title": "check_keys reports exactly the unproducible declared names", "statement": "check_keys(allowed) returns, sorted and without duplicates, the declared names (own and children's) that no pattern can emit and that are not allowed.", "quantifier": "all configurations", "why_tests_cant": "all configurations", "anchors": ["rebulk/rebulk.py:Rebulk.check_keys", "rebulk/rebulk.py:_producible_names"]}
{"id": "C54", "title": "Typed projection", "statement": "matches.to(model) fills a list field with all the values of its name in match order, another field with the first value, leaves a field without value out, and raises TypeError iff some field type contradicts a declared key; matches[key] and all(key) agree with it.", "quantifier": "all collections, models and declared keys", "why_tests_cant": "all models", "anchors": ["rebulk/match.py:_BaseMatches.to", "rebulk/match.py:_contradicts", "rebulk/match.py:_element_type", "rebulk/match.py:_BaseMatches.all"]}
{"id": "C55", "title": "Declared-type contract check is exact", "statement": "check_declared_keys raises TypeError iff some non-private named match whose value is not a literal and not None has a declared key of which its value is not an instance.", "quantifier": "all collections and key registries", "why_tests_cant": "all values", "anchors": ["rebulk/match.py:_BaseMatches.check_declared_keys"]}
{"id": "C56", "title": "Introspection lists every producible public property", "statement": "introspect(rebulk).properties maps each name declared or produced by an effective non-private non-marker pattern, or declared by a rule, to the de-duplicated list of its possible values, and contains no other name.", "quantifier": "all configurations", "why_tests_cant": "all configurations", "anchors": ["rebulk/introspector.py:PatternDescription", "rebulk/introspector.py:Introspection"]}
{"id": "C57", "title": "Character validators", "statement": "chars_before/chars_after/chars_surround accept a match iff each neighbouring character that exists is in the given set; validators(*vs) accepts iff all vs accept; formatters(*fs) applies fs left to right.", "quantifier": "all inputs, matches, character sets, validator and formatter lists", "why_tests_cant": "all positions, edges included", "anchors": ["rebulk/validators.py:chars_before", "rebulk/validators.py:chars_after", "rebulk/validators.py:chars_surround", "rebulk/validators.py:validators", "rebulk/formatters.py:formatters"]}
{"id": "C58", "title": "Loose calls pass a function only what it accepts", "statement": "call(f, *args, **kwargs) passes at most as many positional arguments as f takes and only keywords f names (everything when f has *args/**kwargs), so that a function of at least one parameter with a plain signature can be used as a functional pattern.", "quantifier": "all signatures and argument lists", "why_tests_cant": "all signatures", "anchors": ["rebulk/loose.py:call", "rebulk/loose.py:argspec_args"]}
{"id": "C59", "title": "Regex matches and children mirror the regex engine", "statement": "For each non-empty regex occurrence there is one match with its span, whose children are the non-empty participating groups in group order, each with the group's span and name (the pattern's name for unnamed groups) and the match as parent.", "quantifier": "all regexes and inputs, the engine being given", "why_tests_cant": "all occurrence structures", "anchors": ["rebulk/pattern.py:RePattern._match"]}
{"id": "C60", "title": "Functional results are turned into matches", "statement": "A functional pattern whose function returns a single span tuple, a span with options, a dict, or an iterable of those produces the corresponding non-empty matches in order; per-result options win over the pattern's; a falsy result produces nothing.", "quantifier": "all result shapes", "why_tests_cant": "all shapes", "anchors": ["rebulk/pattern.py:FunctionalPattern._match"]}
{"id": "C61", "title": "Initiator and names", "statement": "initiator is the root of the parent chain; names is the set of names of the leaves below a match (its own when it has no child); named(*ns) and tagged(*ts) test membership in them.", "quantifier": "all match trees", "why_tests_cant": "all tree shapes", "anchors": ["rebulk/match.py:Match.initiator", "rebulk/match.py:Match.names", "rebulk/match.py:Match.named", "rebulk/match.py:Match.tagged"]}
{"id": "C62", "title": "Later calls do not change the patterns already built", "statement": "The patterns already built by a builder keep their options and formatters whatever is later called on the builder (defaults, key declarations, new patterns).", "quantifier": "all histories of calls on a builder", "why_tests_cant": "the leak needs a particular order of calls sharing an option dictionary", "anchors": ["rebulk/loose.py:set_defaults", "rebulk/builder.py:PatternFactory.defaults", "rebulk/builder.py:PatternFactory.build_re"]}
{"id": "C63", "title": "A chain builder inherits a copy of the configuration", "statement": "The builder returned by chain() starts with the defaults and declared keys of the builder it is called on, and nothing done with it changes those.", "quantifier": "all configurations and all later histories of calls on the chain builder", "why_tests_cant": "all dictionaries and histories", "anchors": ["rebulk/builder.py:ChainBuilder._inherit_defaults", "rebulk/builder.py:Builder.chain"]}
{"id": "C64", "title": "A rule with several consequences", "statement": "A rule whose consequence is a list of consequences applies them in order: an iterable response gives its i-th element to the i-th consequence, another response goes to each of them; with [RemoveMatch, AppendMatch] and a pair (old, new) the result is the old matches taken out and the new ones put in.", "quantifier": "all lists of consequences and responses, all states", "why_tests_cant": "all lists and responses", "anchors": ["rebulk/rules.py:Rule.then"]}
{"id": "C65", "title": "when is called for all rules of a priority before any then (documentation)", "statement": "As the documentation says, all the when of the rules with the same priority are called before the then of any of them.", "quantifier": "all sets of rules", "why_tests_cant": "all schedules of rules", "anchors": ["rebulk/rules.py:Rules.execute_all_rules", "rebulk/rules.py:execute_rule"]}
{"id": "C66", "title": "A rule is executed after the rules it depends on", "statement": "When a rule names another one in its dependency, the other one is executed before it.", "quantifier": "all sets of rules, priorities and dependencies", "why_tests_cant": "all dependency graphs and priorities", "anchors": ["rebulk/rules.py:Rules.execute_all_rules", "rebulk/rules.py:toposort_rules"]}
{"id": "C67", "title": "The default rules frame the user's rules", "statement": "With the default rules installed, the conflict solver is executed before every rule whose priority is less than its own, and the private remover after every rule whose priority is greater than its own.", "quantifier": "all sets of user rules", "why_tests_cant": "all sets of rules", "anchors": ["rebulk/processors.py:ConflictSolver", "rebulk/processors.py:PrivateRemover", "rebulk/rules.py:Rules.execute_all_rules", "rebulk/rebulk.py:Rebulk.rules"]}
{"id": "C68", "title": "Loading rules", "statement": "rules(...) registers, in order, one rule per argument: an instance as it is, a class instantiated once, and every rule class defined in a module, and nothing else.", "quantifier": "all lists of arguments and modules", "why_tests_cant": "all module contents", "anchors": ["rebulk/rules.py:Rules.load", "rebulk/rules.py:Rules.load_module", "rebulk/rules.py:Rules.load_class"]}
{"id": "C69", "title": "Building Rebulk objects", "statement": "What a Rebulk object uses is what was registered on it, in order of registration, children included: calls on other objects, before, between or after, change nothing else, and reset() only forgets the builder's defaults.", "quantifier": "all histories of calls on any number of Rebulk objects", "why_tests_cant": "all interleavings of building calls", "anchors": ["rebulk/rebulk.py:Rebulk.pattern", "rebulk/rebulk.py:Rebulk.rules", "rebulk/rebulk.py:Rebulk.rebulk", "rebulk/builder.py:Builder.reset"]}
{"id": "C70", "title": "Abbreviations", "statement": "In every regex expression given (text, dictionary or tuple), each occurrence of the key of an abbreviation is replaced with its text, the abbreviations being applied in the order given, and nothing else is changed: neither the rest of the expression nor the objects given.", "quantifier": "all expressions, abbreviations and histories of pattern constructions", "why_tests_cant": "all texts and lists of abbreviations", "anchors": ["rebulk/pattern.py:RePattern.__init__"]}
{"id": "C71", "title": "The whole of matches(), user rules included", "statement": "With the default rules and user rules of ordinary priority that change the matches through the collection's methods, a call of matches() that returns ran the patterns, applied the conflict solver to what they found, considered each user rule once, and returns what they left without its private members; no private match is returned, every lookup agrees with the contents at each stage, and the rules start from matches without conflicts.", "quantifier": "all configurations, inputs, contexts, user rules and iteration orders of sets", "why_tests_cant": "all rules and matches", "anchors": ["rebulk/rebulk.py:Rebulk.matches", "rebulk/rebulk.py:Rebulk._execute_rules", "rebulk/processors.py:ConflictSolver", "rebulk/processors.py:PrivateRemover"]}
{"id": "C72", "title": "Names, predicate and index of the lookups", "statement": "named() called with any number of names returns the matches bearing one of them, name by name in the order the names are first given, and selects among them with predicate and index the same way whether these are given by position or by keyword (a lone integer is an index); an unknown keyword raises TypeError and changes nothing. For every other lookup, predicate and index select from the list given without them: the elements satisfying the predicate, the element at that position or None when out of range.", "quantifier": "all histories, names, predicates, indexes and ways to pass them", "why_tests_cant": "all arguments and all histories", "anchors": ["rebulk/match.py:_BaseMatches.named", "rebulk/match.py:_BaseMatches.tagged", "rebulk/match.py:_BaseMatches.starting", "rebulk/match.py:_BaseMatches.at_index", "rebulk/loose.py:filter_index"]}
{"id": "C73", "title": "previous and next with a predicate give the nearest match satisfying it", "statement": "previous(match, predicate) (next(match, predicate)) returns the matches satisfying the predicate that end (start) nearest before (after) the given match, whatever lies in between.", "quantifier": "all histories, matches and predicates", "why_tests_cant": "all contents and predicates", "anchors": ["rebulk/match.py:_BaseMatches.previous", "rebulk/match.py:_BaseMatches.next"]}
{"id": "C74", "title": "Slices and constructors", "statement": "matches[i:j] is a collection of the same kind, over the same text, holding the matches of the list slice, whose lookups agree with its contents; Matches(list) and Markers(list) hold the given matches.", "quantifier": "all histories, slice bounds and lists of matches", "why_tests_cant": "all contents and bounds", "anchors": ["rebulk/match.py:_BaseMatches.__getitem__", "rebulk/match.py:Matches.__init__", "rebulk/match.py:Markers.__init__"]}
{"id": "C75", "title": "Changing the collection while going through the answer of a lookup", "statement": "A loop removing from the collection every match a lookup returned removes exactly these; extending the collection with the answer of a lookup terminates.", "quantifier": "all histories and all lookups named, tagged, starting, ending, at_index", "why_tests_cant": "all histories; the effect depends on which list object is returned", "anchors": ["rebulk/match.py:_BaseMatches.named", "rebulk/match.py:_BaseMatches.tagged", "rebulk/match.py:_BaseMatches.starting", "rebulk/match.py:_BaseMatches.ending", "rebulk/match.py:_BaseMatches.at_index", "rebulk/match.py:_BaseMatches._remove_match"]}
{"id": "C76", "title": "Assembling chains", "statement": "In a fluent building history, every pattern or nested chain is added once, to the object the call was made on (the root builder, or the chain of the builder or part), in order of the calls; repeater() and hidden() change only the part they are called on; close() gives back the root builder from any depth; chains form finite trees; a call that raises changes nothing.", "quantifier": "all histories of calls on any of the objects returned so far, at any nesting depth", "why_tests_cant": "all interleavings of calls on builders and parts kept by the user", "anchors": ["rebulk/builder.py:Builder.chain", "rebulk/builder.py:ChainBuilder", "rebulk/chain.py:ChainPart"]}
{"id": "C77", "title": "A bare option is a shortcut for {None: option}", "statement": "Passing a bare formatter, value or validator gives the same matches as passing {None: it}, for every kind of pattern; the value given is set as the value of the matches.", "quantifier": "all patterns, options and inputs", "why_tests_cant": "all option combinations and inputs", "anchors": ["rebulk/pattern.py:Pattern.__init__", "rebulk/loose.py:ensure_dict", "rebulk/pattern.py:Pattern._process_match_value"]}
{"id": "C78", "title": "A chain breaker leaves groups out, and nothing else", "statement": "During an attempt at a chain with a chain_breaker, the matches of each repetition of each part that is not hidden are kept unless the breaker, called with the matches kept so far followed by them, answers true. The breaker has no other effect: the text is consumed, the following parts and repetitions are tried, and the attempt succeeds or fails, exactly as without a breaker; after a failed attempt the search resumes after the first match kept. No match of the chain is made of matches for which the breaker answers true; a breaker that never answers true changes nothing, one that always does prevents every match. If a match of a part is a marker, AssertionError is raised.", "quantifier": "all breakers, chains, parts (any pattern), texts and positions", "why_tests_cant": "The breaker is an arbitrary function of the history of the attempt; tests use one breaker on one text.", "anchors": ["rebulk/chain.py:Chain._to_next_chain_part", "rebulk/chain.py:Chain._chain_breaker_eval", "rebulk/chain.py:Chain._match"]}
{"id": "C79", "title": "A refused chain gives up repetitions of its last part", "statement": "When the validator of a chain refuses the match of the whole chain, the repetitions of the part its last child belongs to are given up one at a time, from the last one, the match then ending with its last remaining child, until the validator accepts; the matches returned are those of the first stage accepted, with the options of the chain applied. If every stage is refused, or if nothing is left of the match, nothing is returned for it. (For chains without match processors whose children are not themselves validated, and whose children in different repetitions are not equal.)", "quantifier": "all chains, validators and texts", "why_tests_cant": "The validator is arbitrary and the number of repetitions unbounded: the first accepted stage must be found among any number of them.", "anchors": ["rebulk/chain.py:Chain._process_match", "rebulk/chain.py:Chain._group_by_match_index", "rebulk/pattern.py:Pattern._process_matches"]}
{"id": "C80", "title": "What a lookup answers after any history, assignments included", "statement": "Each family of lookups (named, tagged, starting, ending, at_index) answers from a register that receives the whole contents, in order, when it is first needed, and afterwards is only told of the matches added (appended, inserted, assigned to an item or slice, swapped by reverse: placed last) and taken out (removed, popped, deleted, cleared: the first equal one leaves). A lookup returns exactly the matches of its register having the name, tag, start, end or covering the index, in the register's order. For names and tags the register is filled by the first call that reads names or tags. (tagged: when equal matches bear the same tags.)", "quantifier": "every finite history of calls on one Matches/Markers object, every Match (span, name, tags, value, parent), every point at which a lookup is first used", "why_tests_cant": "the lookup structures are built lazily and then maintained incrementally, so the answer depends on the whole interleaving of mutations and lookups; tests exercise a handful of interleavings", "anchors": ["rebulk/match.py:_BaseMatches._add_match", "rebulk/match.py:_BaseMatches._remove_match", "rebulk/match.py:_BaseMatches.__setitem__", "rebulk/match.py:_BaseMatches.named", "rebulk/match.py:_BaseMatches.tagged", "rebulk/match.py:_BaseMatches.starting", "rebulk/match.py:_BaseMatches.ending", "rebulk/match.py:_BaseMatches.at_index"]}
{"id": "C81", "title": "Which names and tags are listed", "statement": "names lists exactly the names asked for by named(), the names of the matches present when names were first asked for and those of the matches added since, whether or not these matches are still there; tags likewise.", "quantifier": "every finite history of calls on one Matches/Markers object, every Match (span, name, tags, value, parent), every point at which a lookup is first used", "why_tests_cant": "the lookup structures are built lazily and then maintained incrementally, so the answer depends on the whole interleaving of mutations and lookups; tests exercise a handful of interleavings", "anchors": ["rebulk/match.py:_BaseMatches.names", "rebulk/match.py:_BaseMatches.tags", "rebulk/match.py:_BaseMatches._add_match", "rebulk/match.py:_BaseMatches._remove_match"]}
{"id": "C82", "title": "What max_end is", "statement": "max_end is the largest of the length of the input and the ends of all matches ever added, those since removed or replaced included, unless it is larger still: then it is an end that was looked up with ending() or passed over by previous().", "quantifier": "every finite history of calls on one Matches/Markers object, every Match (span, name, tags, value, parent), every point at which a lookup is first used", "why_tests_cant": "the lookup structures are built lazily and then maintained incrementally, so the answer depends on the whole interleaving of mutations and lookups; tests exercise a handful of interleavings", "anchors": ["rebulk/match.py:_BaseMatches.max_end", "rebulk/match.py:_BaseMatches._add_match", "rebulk/match.py:_BaseMatches._remove_match"]}
{"id": "C83", "title": "Deleting a slice", "statement": "del matches[i:j] always takes the slice out of the sequence. It returns, or raises ValueError; it raises only if the first match of the slice that ends at the furthest end ever added is followed in the slice by matches that are not all found among those that stay; it does raise then if no call that may read the ends was made before, and never does once ending() was called.", "quantifier": "every finite history of calls on one Matches/Markers object, every Match (span, name, tags, value, parent), every point at which a lookup is first used", "why_tests_cant": "the lookup structures are built lazily and then maintained incrementally, so the answer depends on the whole interleaving of mutations and lookups; tests exercise a handful of interleavings", "anchors": ["rebulk/match.py:_BaseMatches.__delitem__", "rebulk/match.py:_BaseMatches._remove_match", "rebulk/match.py:_BaseMatches._end_dict"]}
{"id": "C84", "title": "What holes answers, for every history, range, filter and separators", "statement": "holes(start, end, ignore, seps) scans the positions from the start of the last kept match that starts before start (0 if none) up to end cut to max_end. A position not covered by a kept match opens a hole; the next position covered or holding a separator ends it and opens none; a hole found before start is made to start at start while its end is unchanged; one still open at the end of the range ends there, or one position earlier if a kept match starts at that position. The call raises AssertionError when separators are given without text, IndexError when a separator is looked for beyond the text, and nothing else. Covered and started positions are those of the lookups at_index and starting.", "quantifier": "every finite history of calls on one Matches/Markers object, every Match (span, name, tags, value, parent), every point at which a lookup is first used; every start, end, ignore predicate and separators", "why_tests_cant": "the lookup structures are built lazily and then maintained incrementally, so the answer depends on the whole interleaving of mutations and lookups; tests exercise a handful of interleavings", "anchors": ["rebulk/match.py:_BaseMatches.holes", "rebulk/match.py:_BaseMatches._hole_start", "rebulk/match.py:_BaseMatches._hole_end"]}
{"id": "C85", "title": "What previous, next, conflicting, at_span and the chains answer, for every history", "statement": "previous(m) answers the matches ending at the greatest position not after m's start at which ending() finds any; next(m) those starting at the least position after m's start at which starting() finds any, looking up to the furthest end; conflicting(m) and at_span the matches at_index gives at the positions of m, in order of position and without repetition, conflicting(m) taking out m itself and raising ValueError if it is not among them; chain_after and chain_before walk through the positions of the range, collecting the accepted matches at_index gives, passing separators, stopping at the first other position, and raising TypeError without text or IndexError outside it when the character there must be looked at.", "quantifier": "every finite history of calls on one Matches/Markers object, every Match (span, name, tags, value, parent), every point at which a lookup is first used", "why_tests_cant": "the lookup structures are built lazily and then maintained incrementally, so the answer depends on the whole interleaving of mutations and lookups; tests exercise a handful of interleavings", "anchors": ["rebulk/match.py:_BaseMatches.previous", "rebulk/match.py:_BaseMatches.next", "rebulk/match.py:_BaseMatches.conflicting", "rebulk/match.py:_BaseMatches.at_span", "rebulk/match.py:_BaseMatches.chain_before", "rebulk/match.py:_BaseMatches.chain_after"]}
{"id": "C86", "title": "Who contributes to a call of matches", "statement": "A call on a disabled Rebulk returns an empty result. Otherwise it uses the patterns of the object followed by those of its enabled direct children that were not met before, the rules likewise (one per class), and for each key name the first declaration; disabled children and patterns could be absent, and so could the children of the children, enabled or not.", "quantifier": "all Rebulk objects, children, contexts, inputs, rules", "why_tests_cant": "all combinations of disabled functions and children", "anchors": ["rebulk/rebulk.py:Rebulk.matches", "rebulk/rebulk.py:Rebulk.effective_patterns", "rebulk/rebulk.py:Rebulk.effective_rules", "rebulk/rebulk.py:Rebulk.effective_keys"]}
{"id": "C87", "title": "How markers and matches are separated", "statement": "The matches yielded by the effective patterns are put, in order, in result.markers if they are markers and in the result otherwise; the call fails exactly if a pattern fails. Matches of string and regex patterns without processors are markers iff the pattern has marker=True; a regex pattern with marker=True and a capturing group that takes part in a match raises AssertionError.", "quantifier": "all patterns, regex engines and inputs", "why_tests_cant": "all patterns and inputs", "anchors": ["rebulk/rebulk.py:Rebulk._matches_patterns", "rebulk/pattern.py:RePattern._match"]}
{"id": "C88", "title": "Which options a built pattern gets", "statement": "After any history of defaults() calls, the default of an option is the one given last for that kind of pattern (or in general). A built pattern's option is the call's when named in overrides; otherwise the call's value is combined first with the default of the kind, then with the general one: lists concatenated, dictionaries merged key-wise, other values kept. Naming in overrides an option that is not given raises KeyError.", "quantifier": "all histories of builder calls, all options", "why_tests_cant": "all histories of builder calls", "anchors": ["rebulk/loose.py:set_defaults", "rebulk/builder.py:overrides", "rebulk/builder.py:PatternFactory.build_re"]}
{"id": "C89", "title": "What typed access answers after any history", "statement": "matches[key], all(key) and to(model) answer from the list named(key) gives: its first value or all its values, in that list's order; a field of a type contradicting a declared key raises TypeError; fields without value are left out. The element type of an annotation is the argument of the container, through Optional.", "quantifier": "all histories, keys, models and type annotations", "why_tests_cant": "the lookup structures are built lazily and then maintained incrementally, so the answer depends on the whole interleaving of mutations and lookups; tests exercise a handful of interleavings", "anchors": ["rebulk/match.py:_BaseMatches.to", "rebulk/match.py:_contradicts", "rebulk/match.py:_element_type", "rebulk/match.py:_BaseMatches.all", "rebulk/match.py:_BaseMatches.__getitem__"]}
{"id": "C90", "title": "What introspection lists", "statement": "introspect(rebulk).properties has exactly the names mentioned by the effective patterns that are neither private nor markers (disabled ones included, private names of string patterns included) or declared by the rules, each once, with the possible values listed for it, without equal values.", "quantifier": "all Rebulk objects and contexts", "why_tests_cant": "all pattern options", "anchors": ["rebulk/introspector.py:PatternDescription", "rebulk/introspector.py:Introspection"]}
{"id": "C91", "title": "What a loose call passes", "statement": "call passes all positional arguments to a function with *args, otherwise the first n where n is the number of parameters (one less for a constructor); it passes a keyword iff the function has **kwargs or names it. (So a plain function used as a functional pattern receives the context keywords it names.)", "quantifier": "all signatures and arguments", "why_tests_cant": "all signatures and arguments", "anchors": ["rebulk/loose.py:call", "rebulk/loose.py:argspec_args"]}
{"id": "C92", "title": "Initiator, names, named and tagged of a match", "statement": "initiator is the top of the parent chain; names is the set of names of the matches without children below the match; named(*ns) holds iff one of ns is among them; tagged(*ts) iff one of ts is among the match's own tags.", "quantifier": "all trees of matches", "why_tests_cant": "all depths and shapes", "anchors": ["rebulk/match.py:Match.initiator", "rebulk/match.py:Match.names", "rebulk/match.py:Match.named", "rebulk/match.py:Match.tagged"]}
{"id": "C93", "title": "then follows when", "statement": "Each rule's then is called right after its own when, before any other rule's when, whatever the priorities.", "quantifier": "all rules, priorities, dependencies and iteration orders of sets", "why_tests_cant": "all schedules", "anchors": ["rebulk/rules.py:Rules.execute_all_rules", "rebulk/rules.py:execute_rule"]}
{"id": "C94", "title": "The order of rules", "statement": "A rule of greater priority is executed before one of lower priority, and among rules of the same priority, or when the dependency has the greater one, a rule is executed after those it names as dependencies. (Rules of one class having one priority.)", "quantifier": "all rules, priorities, dependencies and iteration orders of sets", "why_tests_cant": "all schedules", "anchors": ["rebulk/rules.py:Rules.execute_all_rules", "rebulk/rules.py:toposort_rules"]}
{"id": "C95", "title": "What loading registers", "statement": "rules(...) registers in order what each argument gives: an instance itself, a class what calling it returns, a module what calling each of its members defined in it returns (functions included, imported members left out), by name; when one of these calls raises, the exception goes through and what was obtained before stays registered.", "quantifier": "all lists of arguments and modules", "why_tests_cant": "all module contents", "anchors": ["rebulk/rules.py:Rules.load", "rebulk/rules.py:Rules.load_module", "rebulk/rules.py:Rules.load_class"]}
{"id": "C96", "title": "What a Rebulk object holds after any history", "statement": "After any history of calls on any number of objects, each holds the patterns, rules and children registered on it, in call order, since it was made or last reset (reset() forgets them, enables the object and restores the default rules); matches() uses these and those its enabled children hold at that time. Two histories with the same calls on each object since its last reset give the same.", "quantifier": "all histories of calls on any number of Rebulk objects", "why_tests_cant": "all interleavings of building calls", "anchors": ["rebulk/rebulk.py:Rebulk.pattern", "rebulk/rebulk.py:Rebulk.rules", "rebulk/rebulk.py:Rebulk.rebulk", "rebulk/builder.py:Builder.reset"]}
{"id": "C97", "title": "What abbreviations do", "statement": "In an expression given as text or as a dictionary, the occurrences of each key, from left to right without overlap, are replaced with its text, one abbreviation after the other in the order given; expressions given as tuples or compiled are left as they are. A construction fails with the error of the first argument that has one. Without abbreviations no dictionary given is changed.", "quantifier": "all expressions and abbreviations with non-empty keys, each dictionary given once", "why_tests_cant": "all texts and lists of abbreviations", "anchors": ["rebulk/pattern.py:RePattern.__init__"]}
{"id": "C99", "title": "What slices and constructors give", "statement": "matches[i:j] gives a Matches holding the list slice, that behaves like a new collection without text extended with it; on Markers a non-empty slice raises AssertionError. Matches(list, text) holds the given non-marker matches over the text; Markers(list) is empty.", "quantifier": "all histories, slice bounds and lists of matches", "why_tests_cant": "all contents and bounds", "anchors": ["rebulk/match.py:_BaseMatches.__getitem__", "rebulk/match.py:Matches.__init__", "rebulk/match.py:Markers.__init__"]}
{"id": "C100", "title": "Changing the collection while going through the answer of a lookup: what happens", "statement": "A loop removing the matches of named(...) removes exactly these. A loop removing the matches of tagged, starting, ending or at_index removes every other one of them, starting with the first (matches in order, each tag once). Extending the collection with the answer of one of these lookups never ends unless it is empty.", "quantifier": "all histories without assignments, all lookups", "why_tests_cant": "all histories; the effect depends on which list object is returned", "anchors": ["rebulk/match.py:_BaseMatches.named", "rebulk/match.py:_BaseMatches.tagged", "rebulk/match.py:_BaseMatches.starting", "rebulk/match.py:_BaseMatches.ending", "rebulk/match.py:_BaseMatches.at_index", "rebulk/match.py:_BaseMatches._remove_match"]}
{"id": "C101", "title": "Bare options and falsy values", "statement": "Passing a bare formatter, value or validator gives the same matches as passing {None: it}, for every kind of pattern, chains included; a falsy value (0, False, '', []) is as no value, however it is given.", "quantifier": "all patterns, options and inputs", "why_tests_cant": "all option combinations and inputs", "anchors": ["rebulk/pattern.py:Pattern.__init__", "rebulk/loose.py:ensure_dict", "rebulk/pattern.py:Pattern._process_match_value"]}
{"id": "C103", "title": "The value and raw text of a match", "statement": "value is the value assigned if it is not falsy, otherwise the formatter applied to the raw text; assigning a falsy value takes the assigned value away and assigning never changes raw. raw is None iff there is no text, and otherwise the characters of the text from raw_start (or start) up to raw_end (or end).", "quantifier": "all matches, formatters, values and texts", "why_tests_cant": "all combinations of span, raw span, formatter and value", "anchors": ["rebulk/match.py:Match.value", "rebulk/match.py:Match.raw"]}
{"id": "C98", "title": "What previous and next answer with a predicate and an index", "statement": "After any history, previous(m, predicate, index) selects, with the predicate then the index, from the matches ending() finds at the greatest position not after m's start at which it finds any; next(m, predicate, index) from those starting() finds at the least position after m's start at which it finds any. Matches further away are not considered.", "quantifier": "every finite history of calls on one Matches/Markers object, every Match (span, name, tags, value, parent), every point at which a lookup is first used; all predicates and indexes", "why_tests_cant": "the lookup structures are built lazily and then maintained incrementally, so the answer depends on the whole interleaving of mutations and lookups; tests exercise a handful of interleavings", "anchors": ["rebulk/match.py:_BaseMatches.previous", "rebulk/match.py:_BaseMatches.next"]}
{"id": "C102", "title": "What RemoveMatch and the removal of private matches leave", "statement": "After any history, RemoveMatch given a list removes the matches of it that are found, one by one, as remove() does, and returns these: of the members equal to one another the first ones go, as many as equal matches are given. The default private rule does so with the private members: of the members equal to one another as many go as are private, the first ones, private or not.", "quantifier": "every finite history of calls on one Matches/Markers object, every Match (span, name, tags, value, parent), every point at which a lookup is first used", "why_tests_cant": "all lists of matches, equal ones included", "anchors": ["rebulk/rules.py:RemoveMatch.then", "rebulk/processors.py:PrivateRemover"]}
{"id": "C104", "title": "What to_dict answers when values may be lists", "statement": "The keys of to_dict() are the names in order of first appearance (in span order), .matches their matches. A name whose first value is a list is mapped to that very list object. When no list is changed (C105), a name whose first value is no list is mapped to its only distinct value, or to a new list of the distinct values (always a list with enforce_list; the first value only with first_value), and .values_list holds the distinct values of every name. Read as values (lists by their contents, == comparing contents), it is then the dictionary made of the values.", "quantifier": "all collections, all values (lists, shared or nested, included), any ==, both options", "why_tests_cant": "all values and all sharing of list objects", "anchors": ["rebulk/match.py:_BaseMatches.to_dict", "rebulk/match.py:MatchesDict"]}
{"id": "C105", "title": "to_dict is read-only", "statement": "to_dict() changes no match and no value: afterwards every list that is the value of a match (or of a pattern's value option) is as before.", "quantifier": "all collections, all values (lists, shared or nested, included), any ==, both options", "why_tests_cant": "all values and all sharing of list objects", "anchors": ["rebulk/match.py:_BaseMatches.to_dict"]}
{"id": "C106", "title": "When string search terminates", "statement": "The search of a string pattern ends iff the string searched (lower-cased with ignore_case) is not empty or the start given lies after the end given; otherwise it goes on yielding the same position for ever.", "quantifier": "all texts, strings, bounds and both settings of ignore_case", "why_tests_cant": "non-termination cannot be observed by a test", "anchors": ["rebulk/utils.py:find_all"]}
{"id": "C107", "title": "What every call does to the contents and answers, refused matches included", "statement": "After any history whatever (refused matches, failed deletions, equal matches with different tags included), each mutating call changes the list of members exactly as the corresponding list operation up to the first match that is refused or cannot be struck from the lookups, keeps the match it stopped at in (or out of) the list, and answers the result of the list operation, AssertionError for a refused match, ValueError where striking fails, or the list's own ValueError / IndexError, which changes nothing.", "quantifier": "all histories of calls on a collection, without any condition", "why_tests_cant": "the lookup structures are built lazily and then maintained incrementally, so the answer depends on the whole interleaving of mutations and lookups; tests exercise a handful of interleavings", "anchors": ["rebulk/match.py:_BaseMatches.insert", "rebulk/match.py:_BaseMatches.__delitem__", "rebulk/match.py:_BaseMatches.__setitem__", "rebulk/match.py:_BaseMatches._add_match", "rebulk/match.py:_BaseMatches._remove_match"]}
{"id": "C108", "title": "The whole account of a collection by card indexes", "statement": "After any history whatever, the members and every answer and outcome are those of a list together with five card indexes (name, tag, start, end, position), each missing until a lookup first needs it, then made from the members there are; an accepted match adds its cards to the indexes that exist, a match that goes has the first equal card struck under each of its keys, stopping with ValueError where there is none; elementary lookups read a page of an index.", "quantifier": "all histories of calls on a collection, without any condition", "why_tests_cant": "the lookup structures are built lazily and then maintained incrementally, so the answer depends on the whole interleaving of mutations and lookups; tests exercise a handful of interleavings", "anchors": ["rebulk/match.py:_BaseMatches._name_dict", "rebulk/match.py:_BaseMatches._tag_dict", "rebulk/match.py:_BaseMatches._start_dict", "rebulk/match.py:_BaseMatches._end_dict", "rebulk/match.py:_BaseMatches._index_dict", "rebulk/match.py:_BaseMatches._add_match", "rebulk/match.py:_BaseMatches._remove_match"]}
{"id": "C109", "title": "When taking a match out raises", "statement": "After any history whatever, remove, del and pop of a member succeed when the lookups show an equal match under every key of the member (as often as its tags are repeated); once all five kinds of lookup have been used they succeed exactly then, and raise ValueError otherwise.", "quantifier": "all histories of calls on a collection, without any condition", "why_tests_cant": "the lookup structures are built lazily and then maintained incrementally, so the answer depends on the whole interleaving of mutations and lookups; tests exercise a handful of interleavings", "anchors": ["rebulk/match.py:_BaseMatches._remove_match", "rebulk/match.py:_BaseMatches.__delitem__"]}
{"id": "C110", "title": "Derived lookups after any history whatever", "statement": "After any history whatever (refused matches and failed deletions included), previous, next, conflicting, at_span, chain_before, chain_after and holes answer what the elementary lookups starting, ending and at_index show at that moment, and range answers from the list of members in span order.", "quantifier": "all histories of calls on a collection, without any condition", "why_tests_cant": "the lookup structures are built lazily and then maintained incrementally, so the answer depends on the whole interleaving of mutations and lookups; tests exercise a handful of interleavings", "anchors": ["rebulk/match.py:_BaseMatches.previous", "rebulk/match.py:_BaseMatches.next", "rebulk/match.py:_BaseMatches.conflicting", "rebulk/match.py:_BaseMatches.at_span", "rebulk/match.py:_BaseMatches.range", "rebulk/match.py:_BaseMatches.chain_before", "rebulk/match.py:_BaseMatches.chain_after", "rebulk/match.py:_BaseMatches.holes"]}
{"id": "C111", "title": "Calls and rule consequences in any order", "statement": "Start from an empty collection and let calls on it and consequences of rules (RemoveMatch, AppendMatch, RenameMatch, AppendTags, RemoveTags, each given one match or a list) follow each other in any order, every match being accepted by the collection, nothing being assigned by position, equal members being the same object when something is taken out, no member being listed twice when objects are changed, and AppendMatch(name) not being given a single match that is a member. Then the contents are those of a plain list of objects on which the same events happened, every lookup by name, tag, start, end and position shows exactly the members that have it, no consequence raises, and every call answers as a plain list.", "quantifier": "all histories of calls and consequences with these conditions, any responses", "why_tests_cant": "the lookup structures are built lazily and then maintained incrementally, so the answer depends on the whole interleaving of mutations and lookups; tests exercise a handful of interleavings", "anchors": ["rebulk/rules.py:RemoveMatch.then", "rebulk/rules.py:AppendMatch.then", "rebulk/rules.py:RenameMatch.then", "rebulk/rules.py:AppendTags.then", "rebulk/rules.py:RemoveTags.then", "rebulk/match.py:_BaseMatches"]}
{"id": "C112", "title": "AppendMatch with a name and the lookups", "statement": "AppendMatch(name) given matches leaves a collection whose lookups show its members: those appended are found under the new name, and every member can still be removed. (Contradicted when a single match that is already a member is given: it is renamed while it stays filed under its old name, and remove then raises ValueError.)", "quantifier": "all histories, all responses", "why_tests_cant": "the lookup structures are built lazily and then maintained incrementally, so the answer depends on the whole interleaving of mutations and lookups; tests exercise a handful of interleavings", "anchors": ["rebulk/rules.py:AppendMatch.then"]}
{"id": "C113", "title": "Repeater notation, for every text", "statement": "Whatever text repeater() is given: a whole number n (spaces around, a sign, single underscores between digits allowed) means n..n; '+', '*', '?' mean 1.., 0.., 0..1; a text beginning with two bounds between braces, either of which may be absent and which a comma or spaces separate, means those bounds (absent: 0, no limit), whatever follows the closing brace; '{n}' means n.. without limit; every other text leaves the repeater as it was.", "quantifier": "all texts (ASCII digits and spaces), all previous repeaters", "why_tests_cant": "Infinitely many texts; the reader is a regular expression with optional pieces.", "anchors": ["rebulk/chain.py:ChainPart.repeater"]}
{"id": "C114", "title": "What the rule engine runs, whatever is registered and declared", "statement": "Without any condition on priorities and dependencies: an execution that completes goes through the priorities of the registered rules from the highest to the lowest; for each priority it runs, once each, the registered rules of this priority and the rule objects they declare as dependencies whose class has no registered rule of this priority (the first declared of each class); rules that need none first, then those that need only these, and so on, and inside a layer in the order in which the classes were registered. It completes iff no class is registered twice with one priority, every class of which an object is declared is registered with some priority, and no rule needs itself, directly or not.", "quantifier": "all rule sets, all dependency declarations, all iteration orders of sets", "why_tests_cant": "Unbounded rule sets and dependency graphs.", "anchors": ["rebulk/rules.py:Rules.execute_all_rules", "rebulk/rules.py:toposort_rules", "rebulk/toposort.py:toposort"]}
{"id": "C115", "title": "What conflict solving removes, over every history", "statement": "After any acceptable history (equal members, assignments and repeated objects included), the conflict rule examines every public member, the shortest first, against the public matches that conflicting answers for it, the shortest first; a pair is settled by the solvers (C38); the match they name is condemned unless it already is, or the one it would go in favour of is. The rule then removes the condemned, of equal members the first, and nothing else; the state is the one reached by these calls. It raises ValueError and removes nothing when conflicting raises for a public member or when a solver names a match that is neither of the two.", "quantifier": "all acceptable histories, all solvers, all iteration orders of the set", "why_tests_cant": "it ranges over all histories of calls before the conflict solver runs and over every iteration order of the set of matches removed; a test run sees one order of one history", "anchors": ["rebulk/processors.py:ConflictSolver.when", "rebulk/rules.py:RemoveMatch.then"]}
{"id": "C116", "title": "A chain, attempt by attempt", "statement": "For a chain of ordinary parts (C44), whatever the bounds, hidden parts and chain breaker: two positions are kept, where the text is read from and the place its beginning is taken to have. An attempt takes the parts in order; of each, the adjacent occurrences up to the upper bound (only the first part may skip text), put relative to the second position; reading and placing then go on from the end of the last one. Retained are the leading valid ones of the parts that are not hidden, except one with which the chain breaker would hold. When a part has fewer occurrences than its lower bound the attempt fails: the text is not read again, the second position becomes the end of the first piece retained. A successful attempt with something retained gives a match from the first to the last of it. The search ends when an attempt finds no piece or the second position is at the end of the input. Hence the matches lie inside the input, are not empty, come from left to right and never overlap.", "quantifier": "all chains of ordinary parts, all repeaters, all regular expression engines, all inputs", "why_tests_cant": "it ranges over every chain, repeater and regular expression engine; tests try a few chains on a few texts", "anchors": ["rebulk/chain.py:Chain._match", "rebulk/chain.py:Chain._to_next_chain_part", "rebulk/chain.py:ChainPart.matches"]}
{"id": "C117", "title": "Filling keyword arguments with defaults", "statement": "set_defaults(defaults, kwargs, override), the option dictionaries of the two sides being different objects: a true clear among the defaults first empties kwargs, and clear itself is taken out of the defaults; then every default missing in kwargs is added; one that is present is replaced with override, else two lists are concatenated (the default first), two dictionaries are merged and anything else is left. Two dictionaries are merged in place by the same rules, clear included (without override), whatever override is; no other dictionary changes.", "quantifier": "all defaults, all keyword arguments, all option dictionaries", "why_tests_cant": "it ranges over all defaults and keyword dictionaries, including which of them are shared objects", "anchors": ["rebulk/loose.py:set_defaults"]}
{"id": "C118", "title": "Chains within chains terminate", "statement": "A chain whose parts are string, regex or functional patterns or other chains, nested to any depth, with whatever repeaters, hidden parts and chain breakers, terminates on every input (at most one attempt per character at each level), provided the patterns search non-empty text, no processor replaces matches, and the validators of each chain either accept everything or at least refuse empty matches. Every match it returns, and every match below one, belongs to the given text, is not empty, and starts at or after the match it is below. Without the condition on validators the search need not end: an inner chain whose validator asks for at most two characters, searched inside another chain, loops for ever on an occurrence of three characters.", "quantifier": "all trees of chains and patterns, all repeaters, all validators, all regular expression engines, all inputs", "why_tests_cant": "termination for every tree of chains cannot be observed by running some of them", "anchors": ["rebulk/chain.py:Chain._match", "rebulk/chain.py:Chain._process_match", "rebulk/chain.py:ChainPart.matches", "rebulk/builder.py:ChainBuilder.chain"]}
{"id": "C119", "title": "The result of matches() does not depend on the iteration order of sets (hash seed)", "statement": "Take any Rebulk with any patterns, any rules of the user and the default rules, any context and any input. Two runs of matches() that differ only in the order in which Python iterates sets (the sets of rules that wait for each other, the identity set of matches that the conflict solver decided to remove) have the same outcome: both raise the same exception, or both return matches and markers with the same contents in the same order, and nothing the user's rules did during the run, and nothing the caller does with the result afterwards through the API (any sequence of calls, each chosen on the answers to the earlier ones), can tell the two runs apart.", "quantifier": "all rebulk objects, contexts, inputs, user rules (any computation that reaches the matches through the API: calls, contents, attribute assignments, new matches, exceptions), all pairs of iteration orders of the sets, and all computations the caller runs on the result", "why_tests_cant": "the iteration order of sets changes from one process to another; a test observes one of them", "anchors": ["rebulk/rules.py: Rules.execute_all_rules", "rebulk/toposort.py: toposort", "rebulk/processors.py: ConflictSolver.when", "rebulk/utils.py: IdentitySet", "rebulk/match.py: _BaseMatches._remove_match"]}
{"id": "C120", "title": "No match object is returned twice", "statement": "The list returned by matches() - of a pattern, of a chain, or of a Rebulk object (matches and markers together) - never contains the same Match object twice. Refuted for chains inside chains: when a chain that shows its children (children=True, every=True or private_children=True) is itself a part of another chain that shows its children, and its own parts capture groups, the groups come back twice (Rebulk().chain(children=True).chain(children=True).regex('(a)(b)') on 'ab'), because the children of each part match are copied into the chain match without checking whether they are already there. It holds for every pattern, every chain of patterns, and chains nested to any depth as long as inner chains hide their children (or have only parts without groups), whatever the text, repeaters, hidden parts, chain breakers and validators.", "quantifier": "every input text; every pattern or tree of chains without processors (string, regex, functional) satisfying the stated condition; every Rebulk object made of them with the default rules and user rules that do not themselves repeat an object", "why_tests_cant": "it must hold for every pattern and every text; a test compares identities for a few matches", "anchors": ["rebulk/chain.py:_build_chain_match,_match,_to_next_chain_part,_process_match", "rebulk/pattern.py:_process_matches", "rebulk/rebulk.py:matches"]}
{"id": "C121", "title": "Every match returned lies inside the input", "statement": "Every match and marker returned by matches(), and every child below one, refers to the input string and has 0 <= start <= end <= len(input), provided the regular expression engine and user functions report positions inside the text they are given.", "quantifier": "every Rebulk object (patterns with any number of alternatives, chains nested to any depth, validators, repeaters, breakers), every input string, every set of rules that add nothing outside the input", "why_tests_cant": "it must hold for every Rebulk object and every text; a test looks at the spans of a few matches", "anchors": ["rebulk/chain.py:_match", "rebulk/chain.py:_fix_matches_offset", "rebulk/pattern.py:matches", "rebulk/rebulk.py:Rebulk.matches"]}
{"id": "C122", "title": "toposort_flatten lists every item once, after its dependencies", "statement": "toposort_flatten(data) raises CyclicDependency exactly when the graph has a cycle of length greater than one, and otherwise returns a list where every key and dependency appears exactly once, after all the items it depends on. With sort=True, the items of one layer come in ascending order and the result does not depend on the iteration order of the sets.", "quantifier": "all finite dependency graphs, all iteration orders of sets, all total orders on the items", "why_tests_cant": "it ranges over all graphs and all iteration orders of sets", "anchors": ["rebulk/toposort.py:toposort_flatten", "rebulk/toposort.py:toposort"]}
{"id": "C123", "title": "Slices with a step work as on a list", "statement": "matches[i:j:s], del matches[i:j:s] and matches[i:j:s] = ms, for all bounds and steps (omitted, negative, beyond the ends; step 0 refused; a wrong number of matches assigned to a stepped slice refused and nothing changed), read, delete and store the members a Python list would, in any history mixed with the other calls; without assignments every lookup agrees with the contents afterwards; matches[i:j:1] is matches[i:j], and matches[::-1] holds the members in reverse order with lookups that agree.", "quantifier": "all histories of calls, all bounds and steps, all matches assigned", "why_tests_cant": "the lookup structures are built lazily and then maintained incrementally, so the answer depends on the whole interleaving of mutations and lookups; tests exercise a handful of interleavings", "anchors": ["rebulk/match.py:_BaseMatches.__getitem__", "rebulk/match.py:_BaseMatches.__delitem__", "rebulk/match.py:_BaseMatches.__setitem__"]}
{"id": "C124", "title": "Any iterable can be assigned to a slice", "statement": "matches[i:j] = it (with or without a step) with any iterable it of matches gives the contents of a list, and every lookup finds the members assigned; matches of the wrong kind are refused.", "quantifier": "all histories, all bounds, steps and iterables: lists, one-shot iterators, the collection itself", "why_tests_cant": "the lookup structures are built lazily and then maintained incrementally, so the answer depends on the whole interleaving of mutations and lookups; tests exercise a handful of interleavings", "anchors": ["rebulk/match.py:_BaseMatches.__setitem__"]}
{"id": "C125", "title": "What has run when the rule engine raises", "statement": "When executing rules raises because of how they are registered and declared: every priority above the failing one has had its complete run (C114); in the failing priority, nothing has run if a class is registered twice with that priority or if an object of a class registered with no priority is declared as a dependency (ValueError); if rules depend on each other in a circle, exactly the rules that do not need, directly or not, a rule of a circle have run, once each, dependencies first, in the order of C114; nothing of a lower priority has run.", "quantifier": "all sets of rules, priorities, dependency declarations and set iteration orders", "why_tests_cant": "it ranges over every rule that may raise and every order of execution", "anchors": ["rebulk/rules.py:Rules.execute_all_rules", "rebulk/rules.py:toposort_rules", "rebulk/toposort.py:toposort"]}
{"id": "C126", "title": "Lookups follow the attributes of their members", "statement": "After the name, tags, start or end of a match in a collection is assigned, the lookups list it by its new attributes. (False: a kind of lookup already used goes on listing it where it was filed; true of a kind of lookup first used after the change, and of every other attribute. Nor is max_end told, so range can miss a match moved beyond it. The change is seen wherever the match is reached, through parents and children. The whole behaviour of histories mixing calls and changes is given by an account with card indexes.)", "quantifier": "all histories of calls on a collection and assignments of attributes of matches, of either kind of collection, whatever the assignments and whether the matches are members, parents or children", "why_tests_cant": "the lookup structures are built lazily and then maintained incrementally, so the answer depends on the whole interleaving of mutations and lookups; tests exercise a handful of interleavings", "anchors": ["rebulk/match.py:_BaseMatches._add_match", "rebulk/match.py:_BaseMatches._name_dict", "rebulk/match.py:Match.__init__", "rebulk/match.py:_BaseMatches.named"]}
{"id": "C127", "title": "Taking out and changing matches", "statement": "After any history of calls and attribute assignments, remove, del and pop of a member succeed when the lookups list an equal match under every key the member has now, and once every kind of lookup has been used they raise ValueError otherwise; a match no longer held by the collection can be changed and added again, and each lookup then lists what it listed and the match by its new attributes.", "quantifier": "all histories of calls and attribute assignments, all members, all changes", "why_tests_cant": "the lookup structures are built lazily and then maintained incrementally, so the answer depends on the whole interleaving of mutations and lookups; tests exercise a handful of interleavings", "anchors": ["rebulk/match.py:_BaseMatches._remove_match", "rebulk/match.py:_BaseMatches.__delitem__", "rebulk/rules.py:RenameMatch.then"]}
{"id": "C128", "title": "toposort leaves its input unmodified", "statement": "toposort treats the dictionary it is given as a value: the sets of the caller are unchanged afterwards and the groups and the cycle test depend only on their contents. (False: every set loses the items it is given for, and when two items are given one set object a cycle between them disappears. True when no item is in its own set; the result is right when each item has a set object of its own.)", "quantifier": "all dictionaries of items to set objects, shared or not, and all iteration orders of sets", "why_tests_cant": "it ranges over all sharings of set objects among the items and all iteration orders", "anchors": ["rebulk/toposort.py:toposort"]}
{"id": "C129", "title": "Chain matches are made of pieces found by the parts, moved with their families", "statement": "Whatever the parts (groups returned as children, nested chains, any function), every match of a chain is made of pieces: matches returned by a part that is not hidden when searching some end of the input, put at a place further in the input together with their parents and children, everything else as found. The match goes from the first start to the last end of its pieces; its children are the pieces and their children. The chain breaker is only ever asked about lists of such pieces.", "quantifier": "all chains of any parts, all repeaters, breakers and inputs", "why_tests_cant": "it ranges over every chain of arbitrary parts and every repetition; tests try a few chains on a few texts", "anchors": ["rebulk/chain.py:Chain._match", "rebulk/chain.py:Chain._fix_matches_offset", "rebulk/chain.py:Chain._to_next_chain_part"]}
{"id": "C130", "title": "The options given to a builder are what the matches show", "statement": "Take any history of calls on a Rebulk object (defaults(), string_defaults(), regex_defaults(), declared keys, string(), regex() with or without a key). Every match and marker returned by matches() shows the options in force when one of its patterns was built, that is the keyword argument of the call (or what its key stands for), else the kind's default, else the general default, lists being put together and overrides respected: it has that name (if it has no parent) and those tags, is a marker exactly when asked, has the conflict solver given, is private exactly when private, private_names, private_parent or private_children say so, is never named by ignore_names, is a parent or a child as children/every/private_* ask, has the value given (also by name), was accepted by the validator given, and is formatted by the formatter given, the entry for its name, or the converter of the key declared with that name.", "quantifier": "all histories of builder calls, all options, all heaps of option dictionaries, all regular expressions and strings, all callables, all inputs, all rules which add no match", "why_tests_cant": "it ranges over all histories of builder calls and all sharings of option dictionaries; tests try a few options at a time", "anchors": ["rebulk/builder.py: Builder, PatternFactory, defaults, build_string, build_re", "rebulk/pattern.py: Pattern.__init__, Pattern.matches, StringPattern, RePattern", "rebulk/rebulk.py: Rebulk.matches"]}
{"id": "C131", "title": "What a fluently built Rebulk object searches", "statement": "After any history of fluent calls (regex, string, functional, chain, repeater, hidden, close) on the root builder and on any chain builder or part they returned, everything added describes exactly one tree of patterns and chains: a chain holds what was added through its builder or its parts, in order of the calls, each part once unless repeater() was called on it and shown unless the last hidden() on it says otherwise. matches() then does exactly what a Rebulk object searching the trees added to the root builder, in that order, does; with rules that add nothing every match returned was found by one of these trees. If no processor is given, patterns search non-empty text and each chain accepts everything or refuses empty matches, the search ends on every input.", "quantifier": "all histories of fluent calls on all objects returned, all nesting depths, repeaters, patterns, breakers, rules and inputs", "why_tests_cant": "it ranges over all interleavings of fluent calls on all objects returned so far", "anchors": ["rebulk/builder.py: Builder, ChainBuilder, ChainPart.chain, close", "rebulk/chain.py: Chain, ChainPart, repeater, hidden", "rebulk/rebulk.py: Rebulk.pattern, Rebulk.matches"]}
{"id": "C132", "title": "What the processors of a pattern do", "statement": "Each occurrence found is given to pre_match_processor: when it returns None the work goes on with the occurrence as the processor left it, when it returns a match with that match, when it returns anything else falsy (or the match is empty) nothing is produced for the occurrence. The options of the pattern are then applied to that match and its children and they are validated; only if all are accepted is the configured match given to post_match_processor, with the same consequences, and the matches selected by children/every/private_parent/private_children/ignore_names are taken from the result. post_processor is given the matches of all occurrences in order, and what it returns is returned. Nothing but the search raises, as long as the processors make no match of negative length. (For matches that are the parents of their children and have no parent themselves.)", "quantifier": "all string, regex and functional patterns, all options, all processors and all inputs", "why_tests_cant": "it ranges over all processors (arbitrary user functions), all options and all texts; tests try a few processors", "anchors": ["rebulk/pattern.py:Pattern._process_match_processor", "rebulk/pattern.py:Pattern._process_matches", "rebulk/pattern.py:Pattern._post_process_matches", "rebulk/pattern.py:Pattern.matches"]}
{"id": "C133", "title": "A formatter given to a part of a chain formats what the part found", "statement": "For every chain, every part and every text: the value of a match found by a part of a chain is formatted by the formatter given to that part, as it is when the pattern is used alone; a value given to the part is kept when the options of the chain give none for it.", "quantifier": "all chains with any parts, breakers and texts", "why_tests_cant": "the formatter is overwritten or kept depending on children/every/format_all of the chain and of names; tests show single combinations.", "anchors": ["rebulk/chain.py:Chain", "rebulk/pattern.py:Pattern._process_match_formatter", "rebulk/pattern.py:Pattern._process_matches"]}
{"id": "C134", "title": "What the matches of a chain show of the options of the chain and of its parts", "statement": "Take any history of defaults() calls and a chain made by chain(**options). Every match the chain returns, whatever its parts, is either the chain, showing the options in force (name, tags, marker, conflict solver, private, value, validator, formatter, never ignored, returned only if asked) and having as children what its parts found; or, only if children, every or private_children ask for it, something a part found. What a part found keeps its name, tags, marker, conflict solver and start; it is private if it was or if private_names or private_children of the chain say so; it has the value the chain gives for it, else its own; it keeps its formatter unless the chain is asked for its children or to format everything, and then gets the formatter given to the chain, the entry for its name or the converter of the declared key; it was accepted by the validator of the chain.", "quantifier": "all histories of defaults, options, parts, breakers, texts", "why_tests_cant": "quantifies over all options of chain and parts and over whatever the parts find.", "anchors": ["rebulk/chain.py:Chain", "rebulk/chain.py:Chain._process_match", "rebulk/pattern.py:Pattern._process_match", "rebulk/builder.py:Builder.build_chain"]}
{"id": "C135", "title": "Every match displays the configuration the program gave its builder", "statement": "Whatever calls a program makes on the Rebulk object, on the builders of chains and on parts of chains - defaults(), regex_defaults(), ..., declare_keys(), string(), regex(), chain(), repeater(), hidden(), close(), in any order and nested at will -, when matches() returns normally and the user's rules add nothing, every match returned displays the options in force when its pattern was built: those of the call, then the defaults of the kind of pattern, then the general defaults given so far to the builder the call was made on, where the builder of a chain starts with a copy of the configuration of the builder it was opened with and is not affected by what is given later to the other. A match of a functional pattern is made from a result of the pattern's function on the text searched (the text, or the end of it a chain is at), with its span; the name, tags, marker, private and conflict solver of the result come before those of the pattern, the value of the pattern before that of the result. The children of a chain's match, and the matches a chain returns instead of itself, display the options of the part that found them (built with the chain's builder), with the options of the chain applied on top. A match which is formatted is formatted by the formatter in force for it: the single one given, else the one given for its name, else the converter of the key of that name last declared to the builder (a pattern given several keys has the dictionary of their converters as formatters, the first key of a name counting, a formatter given for a name in the call before them, and nothing else unless the defaults give a dictionary; a chain's builder starts with the keys declared so far to the builder it was opened with), and so on for __children__/__parent__ and None. The configuration in force and the keys declared are determined by the calls made. With sub-Rebulks, each built by a program of its own, every match returned displays in the same way what the program of the object, or that of one of its sub-Rebulks not disabled in the context, gave.", "quantifier": "all programs building a Rebulk object (no processors), all depths of chains, all inputs, contexts and rules adding nothing", "why_tests_cant": "the options a match shows go through the configuration of a tree of builders, copied at different moments, and through as many levels of chains as the program nests; no finite set of programs covers them", "anchors": ["rebulk/builder.py: Builder.defaults, regex_defaults, string_defaults, functional_defaults, chain_defaults, build_re, build_string, build_chain, regex, string, chain", "rebulk/chain.py: Chain.chain, Chain.regex, Chain.string, ChainPart", "rebulk/rebulk.py: Rebulk.matches", "rebulk/pattern.py: Pattern.matches, Pattern._process_match, FunctionalPattern._match"]}
{"id": "C136", "title": "A log level given to a rule", "statement": "Rule(log_level=n) makes a rule that is executed as without the argument and whose log_level is n; the default is the class's log_level, else rebulk.debug.LOG_LEVEL. (False: the constructor drops a level it is given. Unless the class defines one, which then wins, the rule has no log_level and executing the rules fails with AttributeError before any rule of its layer is considered. Exactly true: without the argument, logging changes nothing about which rules run, in which order and with which result.)", "quantifier": "all sets of rules, priorities, dependencies, behaviours, levels given and class levels", "why_tests_cant": "the failure depends on which layer of which priority the rule falls into and on what the rules before it did", "anchors": ["rebulk/rules.py: CustomRule.__init__, Rules.execute_all_rules, execute_rule"]}
{"id": "C137", "title": "Definition locations and environment switches", "statement": "With rebulk.debug.DEBUG the defined_at of a pattern, rule or match made by hand is the innermost stack frame whose package is not rebulk itself (AttributeError when there is none); without DEBUG it is None. REBULK_CHECK_DECLARED_KEYS turns the check on exactly for 1, true, yes, on, blanks around and capitals ignored. REBULK_REGEX_ENABLED turns the regex module on exactly for 1, true, True, Y, when it is installed.", "quantifier": "all stacks, all values of the variables, all character tables that agree with Python's on the letters concerned", "why_tests_cant": "the call depth and the text of the variables are unbounded", "anchors": ["rebulk/debug.py: defined_at, _truthy_env, CHECK_DECLARED_KEYS", "rebulk/remodule.py"]}
{"id": "C138", "title": "Values are the converted texts; the check of declared keys raises no false alarm", "statement": "For a Rebulk object made by any history of calls (defaults, declare_keys, string, regex), with rules which add no match: every match returned which is not private, has a name and no literal value has as value what the formatter meant for its name makes of its raw text - a single formatter in force at the call which built the pattern, else the entry for the name in a dictionary of formatters, else the converter of the key last declared with that name before the call. If at each call which can return matches called like a declared key the formatter meant makes values of the key's type (or None), matches() with REBULK_CHECK_DECLARED_KEYS on does exactly what it does with it off, on every input and with any rules. In particular: keys declared first and patterns which leave the formatters to them. A Key is refused exactly when its type is structured, and its converter is its formatter, else its type.", "quantifier": "all histories of builder calls, all inputs, contexts, rules, converters, key types and interpretations of the callables", "why_tests_cant": "tests declare one key and convert one text; the claim is about every order of declarations, defaults and patterns and every input", "anchors": ["rebulk/rebulk.py:Rebulk.matches", "rebulk/match.py:check_declared_keys", "rebulk/builder.py:PatternFactory._apply_key", "rebulk/builder.py:PatternFactory.declare_keys", "rebulk/key.py:Key"]}
{"id": "C139", "title": "When matches() returns and when it raises", "statement": "Take a Rebulk object whose enabled patterns have no processors. matches(string) returns exactly when nothing goes wrong in any enabled pattern: for a string pattern, every text searched for (lower-cased with ignore_case) is non-empty or the start/end range is turned round; for a regex pattern declared marker, no group has captured any text; for a functional pattern, every result ends at or after its start and does not give its value both by position and in the options. Otherwise it raises what the first pattern that goes wrong raises: a string search does not end, a marker expression raises AssertionError, a function's result TypeError or ValueError. The default rules never raise on top of it, whatever the conflict solvers answer as long as an answered match is one of the two given, and user rules running between them that raise nothing and change the matches by calls do not either.", "quantifier": "every set of patterns (strings, sound regex engines, functions), every set of options without processors, every conflict solver answering with one of its two matches, every history of builder calls, every set of well-behaved user rules and every input", "why_tests_cant": "the condition is an equivalence over all inputs and all patterns: a test shows one call returning or raising, never that nothing else can raise", "anchors": ["rebulk/rebulk.py: Rebulk.matches, _matches_patterns, _execute_rules", "rebulk/pattern.py: Pattern.matches, StringPattern._match, RePattern._match, FunctionalPattern._match", "rebulk/processors.py: ConflictSolver, PrivateRemover", "rebulk/utils.py: find_all"]}
{"id": "C140", "title": "A program of builder calls assembles what each call says", "statement": "In any program of calls on a Rebulk object, its chain builders and parts, each call does what it says whatever was called before and whatever failed: defaults() and declare_keys() assemble nothing, return the builder and raise AttributeError on a part; chain() on a part accepts no option (TypeError); a pattern call adds a pattern searched with the start, end, ignore_case and repeated_captures options in force for that builder at that moment; chain() opens a chain with the chain_breaker in force; repeater(), hidden(b) and close() act on the part or builder called and on nothing else; a call whose options cannot be read assembles nothing. The patterns and chains registered are distinct objects.", "quantifier": "every program: any sequence of calls with any arguments on any of the objects held, refused and failing calls included", "why_tests_cant": "the number of interleavings of configuration, building and closing calls is unbounded; a test runs one program", "anchors": ["rebulk/builder.py: Builder.defaults, declare_keys, build_chain, pattern, chain", "rebulk/chain.py: Chain, ChainPart.chain, hidden, repeater, close"]}
{"id": "C141", "title": "Chains return, or raise AssertionError because of a marker", "statement": "Chains nested to any depth, of non-empty texts, regular expressions with a sound engine and functions whose results make matches (no processors; validators that refuse empty matches or accept everything): the only exception their search can raise is AssertionError (in particular the internal exception for a part found too few times never leaves a chain, and the search ends). It raises nothing when no marker would have to become the child of a match: marker expressions capture no text, and only hidden parts of chains find markers. What is returned never has a marker below a match. The same holds of Rebulk.matches for an object made of such patterns and chains, with the default rules and rules that raise nothing. For an object assembled by any program of builder calls (chains within chains, calls on builders obtained earlier, failing calls) with the default rules, matches raises nothing when no call builds a marker.", "quantifier": "all chain trees of any depth and breadth, options, repeaters, breakers, inputs, identities, Rebulk objects made of them, enabled or not", "why_tests_cant": "which exception escapes depends on the whole course of a search over unbounded trees and inputs", "anchors": ["rebulk/chain.py:Chain._match", "rebulk/chain.py:ChainPart.matches", "rebulk/chain.py:Chain._build_chain_match", "rebulk/match.py:_BaseMatches._add_match", "rebulk/rebulk.py:Rebulk.matches"]}
{"id": "C142", "title": "Processors of a chain", "statement": "For a chain, pre_match_processor is given every chain found, in order, before its validation: a falsy answer (or a match left without characters) drops the chain, None goes on with the match as the processor left it, a match exchanges it. The work then follows the validation of C79: the repetitions of the last part are given up from the last one until the validator accepts, the accepted stage is configured with the options of the chain together with its children, which are validated in turn, and post_match_processor is given exactly that configured match (never a refused stage); its answer is treated the same way; what is kept yields the match, its children or both as children/every say. post_processor is given the concatenation of all that and its answer is what matches() returns.", "quantifier": "every chain of any parts, every processor and validator, every input text and every number of repetitions", "why_tests_cant": "processors interact with the validator's give-up loop over an unbounded number of repetitions; tests fix one processor on one chain", "anchors": ["rebulk/chain.py:Chain._process_match", "rebulk/chain.py:Chain._match", "rebulk/pattern.py:Pattern._process_matches", "rebulk/pattern.py: Pattern._process_match, Pattern._process_match_processor, Pattern._post_process_matches", "rebulk/pattern.py:Pattern._process_match"]}
{"id": "C143", "title": "What calls of matches() leave in the tags of the patterns", "statement": "Every match returned was found by a pattern of the Rebulk object (a rule may have renamed it). If the pattern was given a non-empty list of tags, the match shows exactly the tags the pattern has after the call: all the matches of a pattern show the same tags, and the next call starts with them. A rule changing tags (AppendTags, RemoveTags) changes the tags of a pattern as many times as it selects matches of that pattern, and loses no match. A rule renaming matches renames those it selects only, changes no tags, and loses no match unless two become equal. A pattern without tags never gets any. When rules only add tags, the tags of a pattern only grow, by tags the rules add. What a call returns depends on the calls made before through the tags of the patterns only.", "quantifier": "all patterns, rules keeping, renaming or retagging matches, and all sequences of calls of matches() on any inputs", "why_tests_cant": "it ranges over every history of calls and every selection made by rules", "anchors": ["rebulk/rules.py:AppendTags.then", "rebulk/rules.py:RemoveTags.then", "rebulk/match.py:Match.__init__", "rebulk/loose.py:ensure_list", "rebulk/rebulk.py:Rebulk.matches"]}
{"id": "C144", "title": "Values in whole programs: chains, functional patterns and sub-Rebulks included", "statement": "Take any program of calls on a Rebulk object, its chains (nested at will) and their parts, none of which is given a processor, the object possibly having sub-Rebulks built by programs of their own. Every match returned by matches() which is not private, has a name and no literal value (from a value option or from the result of a function) has, as value, what one formatter makes of its raw text: the formatter in force for its name at one call of the program which built a pattern of the Rebulk object or opened a chain of it (a single formatter option, else the one given for the name, else the converter of the key of that name last declared to that builder, else the one for __children__ or __parent__, else the one for None). In particular, when a program declares its keys first, and no call gives a formatter (but each may be given several of the declared keys, as for the groups of a regular expression returned as children, or one declared key with a pattern returning no children), every match called like a declared key - found by a string, a regex or a functional pattern, the match of a chain or what a chain returns instead of itself - has as value what the key's converter makes of its raw text; and if the converters make values of their keys' types, the check of declared keys (check_declared_keys) changes nothing.", "quantifier": "all programs of calls without processors, all nestings of chains, all inputs, contexts, callables; rules adding nothing", "why_tests_cant": "the formatter of a match is chosen through configuration inherited by nested builders, declared keys, the pattern, and the chains which the match is passed through; no finite set of programs covers them", "anchors": ["rebulk/builder.py: Builder.declare_keys, _inherit_keys, _apply_key", "rebulk/chain.py: Chain._process_match", "rebulk/match.py: Match.value", "rebulk/match.py: Matches.check_declared_keys", "rebulk/rebulk.py: Rebulk.matches"]}
{"id": "C145", "title": "Declared keys and sub-Rebulks", "statement": "Take a Rebulk object which declares keys first and leaves the formatters to them, and gets sub-Rebulks built the same way with keys of their own or none. The key in force for a name (the one matches(...).declared_keys holds) is the object's, else that of the first sub-Rebulk taking part which declares one. Its converter gives the value of every match called so which matches() returns, whichever object's pattern found it; and if every converter makes values of its key's type, the check of declared keys never raises. (Both are false as they stand: a sub-Rebulk's patterns take the converters of the sub-Rebulk's own keys only, so without the key it returns texts, and with the check switched on matches() raises TypeError; proved instead: the value is settled by the key of the object the pattern belongs to; when all objects taking part declare the same key, that key settles all values; the check changes nothing when, for each name with a key in force, each object taking part declares a key whose converter makes values of the type of the key in force.)", "quantifier": "all programs declaring their keys first, all sub-Rebulks and disabled predicates, inputs, contexts, converters; rules adding no match", "why_tests_cant": "which converter is used is decided when a pattern is built, which key is checked when the search starts, over all nestings, names and converters; tests of keys use one object", "anchors": ["rebulk/rebulk.py: effective_keys, matches, rebulk", "rebulk/builder.py: declare_keys, _inherit_keys", "rebulk/match.py: check_declared_keys"]}
{"id": "C146", "title": "Rules that move, rename and tag matches leave the rest as it was found", "statement": "Take a Rebulk object with the default rules and user rules whose conditions and consequences only call methods of the matches (append, insert, remove, pop, slices, ...) and the built-in consequences (RemoveMatch, AppendMatch, RenameMatch, AppendTags, RemoveTags), with matches and markers that were there. Every match and marker matches() returns is one the same object without any rule returns, but for its name and tags and those of the matches above it: same span, raw text, value, private and marker flags, formatter, conflict solver, pattern, parent and children. In particular a match that a rule gives the name of a declared key keeps its value: the key's converter is not applied to it.", "quantifier": "all Rebulk objects (sub-Rebulks included), inputs, contexts, rule schedules, conflict solvers, and all such rules, whatever calls they make and how many", "why_tests_cant": "the calls and consequences of rules can be any number in any order, on any collection, interleaved with the default rules; tests apply one consequence to one collection", "anchors": ["rebulk/rules.py: RemoveMatch, AppendMatch, RenameMatch, AppendTags, RemoveTags, execute_all_rules", "rebulk/rebulk.py: matches, _execute_rules", "rebulk/match.py: _BaseMatches, Match.value"]}
{"id": "C147", "title": "matches() as a plain list: found, solved, edited by the rules, without the private ones", "statement": "Take a Rebulk object with the two default rules and user rules of priorities between theirs, whose condition looks things up and whose consequence makes calls on the matches and applies built-in consequences. If matches() returns, the result is computed on a plain list: the matches the patterns yielded, in order; without the losers the conflict solver names; edited, rule after rule in the order of execution, by what each rule's consequence does to a plain list (a rule that is disabled or whose condition is false edits nothing); without the private matches. The markers are those found, and every lookup of the result shows exactly its members. With rules that select among the matches and apply RemoveMatch, AppendMatch, RenameMatch, AppendTags or RemoveTags, found matches that are pairwise different, with no match a parent of another one, the edition is a fold over the rules: the selected ones go, or are changed and put back at the end unless an equal match is there; and matches() then returns whenever the patterns do, the rules can be ordered, the declared types are respected, and no found match has its own conflict solver; the rules start from matches of which no two public ones conflict.", "quantifier": "all Rebulk objects (sub-Rebulks included), inputs, contexts, rule schedules, conflict solvers, set iteration orders, lists of matches and numbers of rules", "why_tests_cant": "the result depends on the whole history of one mutable collection with five lazily built lookups; tests run one or two rules on a few matches", "anchors": ["rebulk/rebulk.py: Rebulk.matches, _execute_rules", "rebulk/rules.py: RemoveMatch, AppendMatch, RenameMatch, AppendTags, RemoveTags, Rules.execute_all_rules", "rebulk/processors.py: ConflictSolver, PrivateRemover", "rebulk/match.py: _BaseMatches"]}
{"id": "C148", "title": "What the function of a functional pattern may return", "statement": "Whatever Python object the function returns, its results are used like this. A falsy object gives no match. A dictionary, or a tuple or a list beginning with a number, is one result, and may as well be given alone in a tuple, in a list, or yielded; several results are used one after the other and the first that raises ends the search. Each argument of the match of a result is the positional one (in the order start, end, value, name, tags, marker, parent, private), else the option the result gives (the dictionary itself, or the dictionary at the end of the tuple), else the option of the pattern. A result is used exactly if it gives an integer start and end, at most eight positional arguments, and no argument twice; otherwise TypeError, or ValueError when it ends before it starts; an empty one is left out. The entries input_string and pattern of a result that is a dictionary are ignored (and removed from it, which changes nothing when it is returned again), but raise in the dictionary at the end of a tuple. Any other answer (a number, True, a text, an object) raises. For the documented forms the matches are those of the model of functional patterns, and whatever the function returns, what is found is what some function returning documented forms finds.", "quantifier": "all objects returned (values, tuples, lists, dictionaries, generators, callables, nested to any depth), options of the pattern, and inputs", "why_tests_cant": "the function is the user's: it may return any object for any input", "anchors": ["rebulk/pattern.py:FunctionalPattern._match", "rebulk/utils.py:is_iterable", "rebulk/match.py:Match.__init__", "rebulk/match.py:Match.__len__"]}
{"id": "C149", "title": "Calls of matches() at the same time", "statement": "Calls of matches() on one Rebulk object or on several sharing patterns, made at the same time from several threads: when no rule of any call adds or removes tags, or no pattern of any call is given tags, each call returns exactly what it returns alone, however the steps of the calls are interleaved, and the lists of tags given to the patterns are left as they were; each call ends after a number of its own steps that does not depend on the others. (With tags in a pattern and a rule adding tags, two calls at the same time may both show the added tag twice.)", "quantifier": "all lists of calls (patterns, rules, input), all initial tag lists, all schedules of their steps", "why_tests_cant": "the number of interleavings is unbounded, and a test runs only the few the scheduler happens to choose", "anchors": ["rebulk/rebulk.py:Rebulk.matches", "rebulk/rules.py:AppendTags.then", "rebulk/rules.py:RemoveTags.then", "rebulk/match.py:Match.__init__"]}
{"id": "C150", "title": "What when may return", "statement": "Whatever Python object the when of a rule returns: the consequences run exactly if it is truthy (an empty list, an empty match, None, 0 and an empty text are not; a generator is, even one yielding nothing). A match, or matches in any iterable (list, tuple, set, generator), are handled alike by RemoveMatch, AppendMatch, RenameMatch, AppendTags and RemoveTags; all but AppendMatch ignore what is not a match, AppendMatch raises AttributeError at the first such element, after appending the matches before it. With several consequences each gets one element of an iterable response, elements left over are ignored and StopIteration is raised when there are too few; anything else is given to the first consequence and the second raises StopIteration. Given a set, RemoveMatch leaves the same list whatever the order of iteration; AppendMatch adds the same matches, in the order of iteration.", "quantifier": "all responses (matches, texts, other values, iterables nested to any depth, lazy or not), all collections and histories, all lists of consequences, all iteration orders of a set", "why_tests_cant": "when is the user's code: it may return any object, and the iteration order of a set of matches depends on the hash", "anchors": ["rebulk/rules.py:execute_rule", "rebulk/rules.py:Rule.then", "rebulk/rules.py:RemoveMatch.then", "rebulk/rules.py:AppendMatch.then", "rebulk/utils.py:is_iterable"]}
