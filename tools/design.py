import json
props=[json.loads(l) for l in open('/verif/properties.jsonl')]
man={c['property']:c for c in json.load(open('/verif/MANIFEST.json'))['claims']}
plan={}
def P(ids,model,proof):
    for i in ids.split(): plan[i]=(model,proof)
P("C01","Coll.v state machine, all mutators and lookups","invariant: per key and `==`-class, count in each built index = count in the sequence; induction over histories")
P("C02","Coll.v against SpecColl.v `list_run`","refinement to a plain list step by step, errors included; backwards slice deletion refuted")
P("C03","Coll.v","invariant with list equality for histories that add at the end; refuted for insert")
P("C04","Coll.v `__setitem__`, `reverse`","refuted by computation; sequence part and assignments before lookups proved")
P("C05","lookups return the new state","answers unchanged by any lookup; refuted for `names`, `max_end`")
P("C06","`_max_end`","invariant (bound); tightness refuted")
P("C07 C08 C11 C12","lookups of Coll.v","from the C01 invariant; loop invariants over the scanned range")
P("C09 C10","holes","walk over positions; refuted at a range starting inside a match / with separators")
P("C13","insert + `_add_match` assertion","refuted by computation; partial for accepted matches")
P("C14","`filter_index`","case analysis")
P("C15","`Match.__eq__` and order","induction on the parent chain")
P("C16 C17","crop, split","set-of-positions semantics, induction on crops / characters")
P("C18 C103","`Match.value`, `raw`","case analysis; falsy assigned value refuted")
P("C19","Typed.v to_dict on values","induction on the sorted list against a declarative grouping")
P("C20 C21 C106","Loose.v find_all","induction on fuel = length; empty pattern: no fuel suffices, iff")
P("C22","Pattern.v string patterns","from C20")
P("C23 C24","extend_safe, IdentitySet","induction; the exception may occur anywhere")
P("C25 C26","Topo.v","induction on the number of remaining items, any set iteration order")
P("C27 C28 C29 C30","Rules.v","from C25; sets as lists up to permutation")
P("C31 C32 C33 C34","Conseq.v over Coll.v","from C01/C02")
P("C35 C36 C37 C38","Processors.v","loop invariants on the growing removal set; C38_in_matches and C38_returned carry C38 through a whole call of matches()")
P("C39 C102","Processors.v, Conseq.v","multiset accounting of removals over every history (`left_over`)")
P("C40 C41 C42 C59 C60","Pattern.v (regex engine = argument)","case analysis, induction on children")
P("C43 C44 C45 C46","Chain.v","measure on the offset; attempts as a relation; refuted alignment")
P("C47 C48 C49 C53 C86 C87","Rebulk.v","composition of the pattern stage and the rule stage")
P("C50","TagHeap.v: tag lists as heap objects","non-interference over several calls; refuted leak")
P("C51 C52 C62 C63 C88","Builder.v","association-list algebra over histories of builder calls")
P("C54 C55 C89","Typed.v","induction on fields, from the index invariant")
P("C56 C90","Introspect.v","association-list algebra")
P("C57 C58 C91","Loose.v","direct, against a model of Python's argument binding")
P("C61 C92","Match.v","induction on the tree / parent chain")
P("C64","RuleThen.v","induction on consequences")
P("C65 C66 C67 C93 C94","Rules.v, Pipeline.v","trace of an execution; position in the trace")
P("C68 C69 C95 C96","Register.v","histories of registrations on several objects")
P("C70 C97","Abbrev.v","text replacement relation; histories of constructions sharing dictionaries")
P("C71","Pipeline.v","composition; user rules arbitrary functions")
P("C72 C73 C74 C75 C98 C99 C100","Lookup.v, Coll.v","case analysis; scans; live lists")
P("C76","Fluent.v","histories of calls on any chain/builder objects")
P("C77 C101","Pattern.v options","case analysis")
P("C78 C79","Chain.v","relation of attempts")
P("C80 C81 C82 C83","SpecFiled.v registers against Coll.v","simulation: each index = a register that is either unborn or told of each change since its birth")
P("C84 C85","SpecDerived.v","from C80 position by position")
P("C107 C108 C109 C110","SpecCards.v card indexes against Coll.v","simulation (`sim`): every dictionary is its card index, for every history without condition")
P("C111 C112","SpecMix.v (`settle`: a list of objects) against Coll.v and Conseq.v","invariant: every index is exact for the members; induction over the events")
P("C113","SpecRepeat.v (shapes of texts) against Chain.v `repeater`","both directions between the shapes and the reader")
P("C114","Rules.v, Topo.v","toposort layers with dependencies outside the group; no hypothesis on the declarations")
P("C118","SpecNest.v (trees) over Chain.v and Pattern.v","induction on the tree: a chain of sound parts is a sound part; the counterexample by a round of the search which changes nothing")
P("C119","Play.v: the code of a rule as an interaction with the collections (calls of every operation of Coll.op, contents, max_end, declared keys, new objects, attribute assignment, exceptions); Pipeline.v with the two iteration orders as arguments","Twin.v: collections that differ only in keys of the dictionary of ends up to the maximum end are a bisimulation for every operation; TwinSwap.v: two removals commute up to that relation (also in which of them raise); induction over permutations and over the rules executed; C29_rule_order for the schedule")
P("C120","Chain.v, Pattern.v, Rebulk.v; identities drawn from a supply","Blocks: the matches a part returns are split into blocks (children alone, or a match followed by some of its children) whose identities are disjoint and which truncation, grouping by repetition and the chain breaker keep whole; the chain match's children are then distinct; induction on the tree; refutation by computation")
P("C121","chain and pattern models of C43-C48/C118, Rebulk model of C35-C39","Refuted: chain().regex('a','b').regex('c') on a text of 8 characters returns a match ending at 9 (a part with alternatives is found out of order, a failed attempt then resumes at a position that does not correspond to the remaining text). Partial: chains whose parts are single sources found from left to right (or chains of those without validator); the top pattern may have alternatives, the top chain any validator. Invariant of the search: length of the remaining text + offset <= length of the input, and everything collected ends before the offset; kept when an attempt fails because the first collected match ends before the offset.")
P("C122","toposort_flatten over the model of toposort (C25): sorted is a stable sort by the given order","From the layers of C25/C26; a list without duplicates has one sorted arrangement for a total order.")
P("C123","Slices.v (CPython's slice.indices, reading/dropping/storing positions, histories with stepped slices); SpecSlices.v gives the positions as the Python reference words them.","The walk of slice.indices is the sorted list of the specified positions; deletion and storing are permutations of the contents, so that the invariant of C01 carries over; C123_delete tells exactly when a deletion raises (as C83).")
P("C124","Slices.v: the right-hand side is walked twice, by the list assignment and by the filing loop; an iterator is exhausted by the first walk; the collection itself has changed by the second.","Refuted for iterators (C124_iterator_refuted: unknown to lookups, deletion raises, markers get in). C124_walked_again: lists and the collection itself. C124_iterator_partial: contents; lookups agree if none was made before; a lookup already asked answers as if nothing was assigned.")
P("C125","Rules.v schedule with a recording behaviour (as C27, C28, C114).","C125_before_the_error, from the layers of toposort (emitted items reach no cycle, remaining ones do); missing classes are always in the first layer.")
P("C126","Edits.v: a change is made in every copy of the object (members, dictionaries, parents, children), keys of the dictionaries and max_end stay","the simulation with the card indexes of SpecCards.v is preserved by changes (cards keep their keys); C126_account, C126_derived, C126_first_use_partial (kind of lookup not needed before), C126_other_attributes, C126_follow_refuted (witness), C126_seen (any way through parents and children), C126_max_end, C126_range_refuted (witness)")
P("C127","Edits.v","C127_removal (C109 for these histories), C127_changed_outside, from the card indexes")
P("C128","TopoHeap.v: the sets are addresses in a heap","C128_exact: what each set holds afterwards and that the result is that of the contents then; C128_own_sets_partial, C128_unmodified_partial; C128_refuted (witness)")
P("C129","Chain.v; SpecMoved.v gives the relation between a match found and the piece","invariants of the loops over groups, parts and attempts; C129_breaker_sees_pieces (two breakers that agree on lists of pieces give the same matches), C129_made_of_pieces")
P("C130","Assemble.v reads the attributes of Pattern.v from the options of Builder.v and makes the Rebulk object of Rebulk.v from a history of calls; callables are arguments","C51/C52/C88 give the object each option is, C40-C42 and C87 what the pattern does with it; patterns of a history by induction over the calls; the default rules and rules adding nothing keep only matches the patterns found")
P("C131","Built.v reads the world of Fluent.v as trees (ctree) and makes the Rebulk object of Rebulk.v from the patterns registered on the root builder","written: an inductive description by the log of the calls; existence and uniqueness by induction on chain numbers (a nested chain is made after its chain); C76, C118 and C130's lemma on what matches() returns")
P("C132","Pattern.v: apply_processor, process_matches, finish_matches; a processor is any function from the match to the match as it leaves it and its result","C132_processors by induction over occurrences against the inductive description hooked/worked_on; C132_determined: the description leaves one result; C132_no_error")
P("C133","PropsParts.v over Chain.v and Pattern.v","refuted by chain(children=True).regex(..., formatter=f): the chain's default formatter replaces f (C133_parts_format_refuted); proved for chains that are asked neither for their children nor to format everything, about the children of the chain matches (C133_parts_format_partial). The exact rule is C134.")
P("C134","PropsParts.v: chain_matches over the options assembled as in Assemble.v","configuring twice is configuring once, so every attempt of Chain._process_match gives the occurrence cut to some children, configured once (treated_as); C134_chain_shows in terms of pattern attributes, C134_options and C134_formatters in terms of the options given; C134_case.")
P("C135","Site.v joins the models of the configuration (Builder), of the attributes of patterns (Assemble), of the objects calls return (Fluent) and of the search (Built): one program makes calls with their real arguments on a tree of builders.","PropsSite.v: in_force (specification of the configuration of each builder after a log of calls) and displays (specification of what a match found by a builder's patterns shows, by recursion on the nesting) are inductive relations over the log; invariant of site_step (every known builder is in force with its factory); then by recursion on the tree written (C131) with C130 at the leaves (PropsFunction.v, C130_functions, for functional patterns: result_shows) and C134 at the chains. C135_determined: two accounts of the same log agree. Several keys (given_by): the dictionary they make is followed through build (build_keeps: entries which are not lists are kept by every merge), under the invariant that no dictionary uses the name clear (C135_orderly).")
P("C136","Debug.v: rule_level, logged_layers, execute_logged","C136_level_given_refuted (witness), C136_level_given (every set of rules with such a rule fails, the rules run are a prefix of the order without it), C136_no_level_given_partial (equality with the unlogged execution)")
P("C137","Debug.v: defined_at, strip, truthy_env, regex_enabled","C137_location by induction on the stack; C137_switch, C137_regex: the exact sets of values accepted")
P("C138","Assemble.v over Builder.v, Pattern.v, Rebulk.v and Typed.v (converter, new_key, check_declared_keys).","C130 for the options of each built pattern, C135's keys_fill for the dictionary of formatters, a returned match which is not private is subject to formatting (from sh_returned and sh_private), and C55 for the check.")
P("C139","Pattern.pattern_matches, Rebulk.rb_matches, Pipeline.with_defaults, Assemble.rebulk_of","per source: the search of each text ends (C106), re_one on markers (C87), functional_one; sequence_total lifts it to the pattern; returned matches are never empty, so conflicting() succeeds for every public member and condemned never fails with loyal solvers (C115), the private remover never fails (C102); C139_built reads the condition off the builder calls")
P("C140","Site.site_step, Fluent.step, Assemble.source","induction on the program, with the invariant of C135 (site_ok) for the configuration in force; the log of the program is related to the log of the fluent session, event by event, by the relation [understood]")
P("C141","SpecNest.ctree trees of patterns, Chain.chain_matches, Rebulk.rb_matches","the state of an attempt carries matches without markers below them; errors of each loop come only from a marker; processing of located matches cannot fail")
P("C142","`chain_matches`/`chain_process_match` of theories/Chain.v over `process_matches`, `finish_matches` of theories/Pattern.v","`chain_process_spec` (C79) gives the accepted stage; induction over the children for their validation; induction over the found chains for the list")
P("C143","TagHeap.v: the lists of tags as shared objects in a heap surviving the calls","invariant giving each object its pattern and list; the removals and appends of a tag rule over pairwise different members are a permutation; induction over the calls")
P("C144","Site.v (programs of calls), Built.v (search of what they build), Rebulk.v and Typed.v","PropsTypedSite.v: from displays (C135), by cases: a match of a pattern or of a chain which is not private is subject to its formatting, and so are the pieces a chain returns (unless private); the keys declared to any builder, once declared first, by induction on the log of calls; the check by C55.")
P("C145","Site.v (programs of calls), Built.v (search of what they build), Rebulk.v (effective_keys) and Typed.v (check_declared_keys)","PropsKeysSub.v: each pattern searched belongs to the object or to a sub-Rebulk taking part (C86); its matches are valued by the program of that object (C144); effective_keys by induction on the sub-Rebulks; witnesses computed by evaluation.")
P("C146","Conseq.v (consequences), Coll.v (calls), Pipeline.v and Rebulk.v (matches with default and user rules), Site.v (programs) for the corollaries","PropsRelabel.v: the predicate \"is a relabelling of a match found\" holds of every member and every lookup entry of both collections, and is kept by each call (CollUniv), each consequence and both default rules; induction on the rules executed (C30). The corollaries go through the object without rules (C135, C144). Witness: a program with keys, one rule tagging and one renaming, evaluated.")
P("C147","Rebulk.v, Pipeline.v (matches with default and user rules), Processors.v, Conseq.v, Coll.v; what calls and consequences should do to a plain list is SpecMix.settle, independent of the lookups","PropsRun.v: the lookups are exact multisets of the members (PropsMix.event_exact) after the appends, the lookups of the conflict solver, its removal, each rule and the private remover; on tidy lists settle is the fold `picking`; no rule can raise, so C30 gives that matches() returns")
P("C148","FuncRet.v: Python objects of any shape, how an answer is split into results, and the binding of positional and keyword arguments by the call of Match","the binding is characterised by lookups (once, reserved, at most eight); every documented form is translated to an object and the binding compared with Pattern.v field by field")
P("C149","Sched.v: a call cut into steps (one match created, one match looked at by the when of a rule, the rule's choice with its effect on the call's own list, one match's tags read, then replaced, the changed matches put back) over the shared tag lists of TagHeap.v; a schedule is any list of call numbers.","Each call simulates itself running alone: a relation between the tag lists of both runs, lists allocated later belonging to one call; a step of another call changes only lists out of the relation.")
P("C150","WhenRet.v: Python objects of any shape as responses, their truth value, and each consequence of the library on them; RuleThen.v for several consequences, Coll.v for the collection.","Induction on the elements against the consequences on lists of matches (Conseq.v), whose meaning over every history C31-C34 and C102 give; the order of a set drops out because the accounts of C31 and C102 only count equal matches.")
P("C117","Builder.v (set_defaults, set_defaults_cell)","induction on the defaults, one option at a time, the others framed out")
P("C116","Chain.v","the loop as a history of attempts; two positions, one for reading, one for placing; the account determines the number and places of the matches (C116_determined) when the parts are uniform")
P("C115","Processors.v, Coll.v","the loop as a scan of pairs; the state by the calls made")
P("C104 C105","ToDict.v: list objects in a heap","induction over the sorted matches with the set of touched objects; C104_by_value: agreement with the to_dict of Typed.v through the reading of objects as values")
head=open('/verif/tools/design_head.md').read()
rows=[]
for p in sorted(props,key=lambda p:int(p['id'][1:])):
    m,q=plan.get(p['id'],("","")); c=man.get(p['id'],{})
    rows.append("| %s | %s | %s | %s | %s |"%(p['id'],p['title'].replace('|','/'),m,q,c.get('status','-')))
open('/verif/DESIGN.md','w').write(head+"\n".join(rows)+"\n")
