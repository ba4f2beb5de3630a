# Formal model of Toilal/rebulk in Coq 8.16 — design

## Approach

`/repo/rebulk` is modelled function by function as shallow, total, computable Gallina
(`rocq/theories/*.v`).  Python exceptions are values (`res A := Ok a | Err e`); where the
code mutates an object *before* raising, the model returns the mutated state together with
the error.  Loops become structural recursion or recursion on fuel with an explicit
out-of-fuel outcome that theorems exclude (or prove unreachable, or characterise).

Where sharing of Python objects matters (tag lists, dictionaries given as abbreviations, rule
and child objects, chain builders, list values) there is a separate model with an explicit
heap of objects named by numbers; elsewhere objects are values and this is said in the comment.

`Spec*.v` hold the model-independent vocabulary of the statements (positions, plain lists,
registers, adjacency); `*Facts.v`, `*Sem.v`, `Coll*.v` hold proofs; `Props*.v` hold the property
theorems `Cnn_*`, each with examples showing that a non-trivial case meets its hypotheses.

A property the code violates keeps its full English statement: the manifest marks it
"partial", `Cnn_..._refuted` is a concrete witness computed by the model, `Cnn_..._partial` the
strongest version found provable, and what the code does instead is its own property with its
own theorems (see the notes of MANIFEST.json and "Findings" below).

## Files

| file | models / contains |
|---|---|
| Base.v | Python built-ins: values, truthiness, `==`, `str.find`, slices, indexing, stable sort, default dictionaries |
| Match.v | `match.py` class `Match` (value, raw, initiator, names, crop, split, equality, order, hash) |
| Coll.v | `match.py` `_BaseMatches`/`Matches`/`Markers`: sequence + five lazy indices + every lookup; the `op` language of histories |
| SpecColl.v, SpecFiled.v, SpecDerived.v | reference semantics: plain list; registers; scans of registers |
| CollFacts/Query/Sem/Sem2/Hist/Univ/Order/More/Filed/Filed2.v | proofs about the collection |
| Loose.v | `loose.py`, `utils.py`, `validators.py`, `formatters.py` |
| Slices.v, SpecSlices.v, SliceFacts.v | slices with a step; sources of slice assignments |
| SpecMoved.v | the pieces of a chain (words of C129) |
| TopoHeap.v | toposort on the caller's set objects |
| Edits.v | attributes of matches assigned while they are in a collection |
| Topo.v, Rules.v, RuleThen.v | `toposort.py` (with `toposort_flatten`), `rules.py` engine, `Rule.then` |
| SpecRepeat.v | how a repeater is written |
| SpecMix.v | a list of objects under calls and consequences |
| Conseq.v, Processors.v, Pipeline.v, Play.v | consequences; `processors.py`; default rules beside the user's; rule code as interaction with the API |
| Pattern.v, Abbrev.v | `pattern.py`; construction of regex patterns with abbreviations |
| Chain.v, SpecChain.v, ChainSem.v, SpecAttempts.v, Attempts.v, SpecNest.v, SpecOnce.v, OnceFacts.v, SpecInside.v, InsideFacts.v, Fluent.v | `chain.py`; fluent building of chains |
| Rebulk.v, Register.v | `rebulk.py`; registration on objects that share children |
| Builder.v | `builder.py`, `key.py`, defaults |
| Introspect.v | `introspector.py` |
| Typed.v, ToDict.v | `to_dict`, typed access; `to_dict` with list objects |
| Lookup.v | arguments of the lookups, returned lists, slices, constructors |
| TagHeap.v | aliasing of the tag lists between patterns and matches |
| Props*.v | the theorems named in MANIFEST.json |

## Trusted base

* Coq 8.16.1's kernel (`coqc`, rechecked by `coqchk`), and the standard library only: no mathcomp,
  std++, Iris, Equations...; no plugin; no kernel check is switched off.
* `Print Assumptions` answers "Closed under the global context" for **every** theorem listed in
  MANIFEST.json (checked mechanically for all of them): no axiom, of the standard library or other.
* `coqchk` prints the axioms of all loaded library files whether used or not: loading
  `ZifyBool` loads `Coq.ssr.ssrunder`, whose `Under_rel.*` parameters (7) appear in its list. No
  theorem here depends on them (see the previous point).
* That the Gallina definitions describe the Python code: by reading; each definition cites the
  lines it models and says what it simplifies. No extraction or execution of `/repo` was possible.

### Modelled

match.py (all of Match, the collections, lookups, to_dict, typed access), loose.py, utils.py,
validators.py, formatters.py, toposort.py, rules.py (engine, conditions, all consequences, loading), processors.py,
pattern.py (string, regex, functional patterns, processing of raw matches, abbreviations),
chain.py, builder.py, key.py (as keys with a declared type), rebulk.py, introspector.py.

### Not modelled

* `__repr__`, what log handlers do, `__version__`, CLI `__main__`; of `debug.py`, the walking of the Python stack takes the stack as a list.
* The regex engine: an argument of the model (any function from text to raw groups, with the
  well-formedness every `re` match has); likewise user callbacks are arbitrary total functions,
  or functions that may raise where the property is about exceptions; they are deterministic and do not
  mutate the collection behind the library's back, except rules, which receive and return the state, and the attribute assignments of Edits.v.
* Non-string inputs, threads, generators interrupted halfway (a generator is read once), recursion limits.
* Object sharing between matches, beyond identity numbers: a match holds copies of its parent and children, brought up to date
  where the code changes them; the one place where a copy may be stale is said at `chain_children` (Chain.v). `crop` and `split`
  use `copy.deepcopy`, so the pattern of a piece is a copy of the pattern: the identity number stands for "object n or a copy".
* `isinstance`/`issubclass` and typing introspection of key types: arguments.

## Findings

Each is a `_refuted` theorem with a computed witness: see the notes in MANIFEST.json. In short:
assignments after a lookup leave lookups stale (C04); insert breaks lookup order (C03); names and max_end
are changed by lookups (C05, C06); a rejected append leaves the match in the list (C13); falsy assigned
values are ignored (C18, C77); to_dict appends to list values, even to themselves (C19, C105); the empty
string pattern loops for ever (C21); holes are wrong when the range starts inside a match (C09, C10);
dependencies on unregistered instances run or fail (C28); AppendMatch/RenameMatch/AppendTags go wrong on empty or
equal members (C32-C34); conflicts survive between equal members (C35, C38, C39); chains scan stale text (C44),
exceed repeaters with alternatives (C45), misread '{a}' (C46), may not terminate with an explicit
raw_end (C43); grandchildren are ignored (C47); regex markers with groups raise (C48); tag rules
leak into later calls (C50); stale kind defaults (C51); introspection omissions (C56); loose calls misbind (C58);
an empty parent stops the initiator walk (C61); defaults() changes built patterns (C62); documented rule order is not the
real one (C65, C66); helper functions of rule modules are loaded (C68); reset() forgets patterns (C69);
abbreviations replaced in sequence and leaked (C70); previous/next with an index (C73); slices lose the text (C74);
loops over a live lookup skip items (C75); a chain inside a chain: its part and close() (C76), the breaker (C78), a validator
that accepts an empty match makes the outer chain loop for ever (C118), children shown at both levels come back twice (C120);
AppendMatch(name) renames a member in place (C112); a chain part with alternatives may yield a match beyond the end of the
input (C121); matches[i:j] = iterator leaves the matches unfiled (C124);
a renamed or moved member stays filed where it was, and cannot be removed without ValueError (C126, C127);
toposort removes items from the caller's sets, and a cycle between two items given one set object is lost (C128).

## Mutation tests

`tools/mutate.py` applies one textual edit to the model in a scratch copy, rebuilds the files that depend on it and
reports the first theorem that fails; `seeded/LOG.jsonl` records every attempt.

## Per property plan

| id | property | model | proof | status |
|---|---|---|---|---|
| C01 | Lookups agree with the contents after any history | Coll.v state machine, all mutators and lookups | invariant: per key and `==`-class, count in each built index = count in the sequence; induction over histories | proved |
| C02 | Matches behaves like a list | Coll.v against SpecColl.v `list_run` | refinement to a plain list step by step, errors included; backwards slice deletion refuted | partial |
| C03 | Lookups answer in match order | Coll.v | invariant with list equality for histories that add at the end; refuted for insert | partial |
| C04 | Item assignment and reverse keep lookups coherent | Coll.v `__setitem__`, `reverse` | refuted by computation; sequence part and assignments before lookups proved | partial |
| C05 | Lookups are read-only | lookups return the new state | answers unchanged by any lookup; refuted for `names`, `max_end` | partial |
| C06 | max_end bounds and tracks the matches | `_max_end` | invariant (bound); tightness refuted | partial |
| C07 | previous and next return the nearest group | lookups of Coll.v | from the C01 invariant; loop invariants over the scanned range | proved |
| C08 | range returns the overlapping matches sorted by span | lookups of Coll.v | from the C01 invariant; loop invariants over the scanned range | proved |
| C09 | holes returns exactly the uncovered text | holes | walk over positions; refuted at a range starting inside a match / with separators | partial |
| C10 | holes with separators stays inside the range | holes | walk over positions; refuted at a range starting inside a match / with separators | partial |
| C11 | conflicting, at_span and at_match are exact | lookups of Coll.v | from the C01 invariant; loop invariants over the scanned range | proved |
| C12 | chain_before and chain_after stop at the first unmatched non-separator | lookups of Coll.v | from the C01 invariant; loop invariants over the scanned range | proved |
| C13 | A rejected match leaves the collection unchanged | insert + `_add_match` assertion | refuted by computation; partial for accepted matches | partial |
| C14 | predicate and index arguments | `filter_index` | case analysis | proved |
| C15 | Match equality, order and hash | `Match.__eq__` and order | induction on the parent chain | proved |
| C16 | crop removes exactly the cropped positions | crop, split | set-of-positions semantics, induction on crops / characters | proved |
| C17 | split returns the maximal separator-free runs | crop, split | set-of-positions semantics, induction on crops / characters | proved |
| C18 | value resolution | `Match.value`, `raw` | case analysis; falsy assigned value refuted | partial |
| C19 | to_dict groups values by name in span order | Typed.v to_dict on values | induction on the sorted list against a declarative grouping | partial |
| C20 | find_all returns the leftmost non-overlapping occurrences | Loose.v find_all | induction on fuel = length; empty pattern: no fuel suffices, iff | proved |
| C21 | String search always terminates | Loose.v find_all | induction on fuel = length; empty pattern: no fuel suffices, iff | partial |
| C22 | String matches carry the searched text | Pattern.v string patterns | from C20 | proved |
| C23 | extend_safe appends each new element once, hashable or not | extend_safe, IdentitySet | induction; the exception may occur anywhere | proved |
| C24 | IdentitySet is a set of objects by identity | extend_safe, IdentitySet | induction; the exception may occur anywhere | proved |
| C25 | toposort yields the dependency layers | Topo.v | induction on the number of remaining items, any set iteration order | proved |
| C26 | toposort rejects exactly the cyclic graphs | Topo.v | induction on the number of remaining items, any set iteration order | proved |
| C27 | Rules run by priority then dependency then registration order | Rules.v | from C25; sets as lists up to permutation | proved |
| C28 | Every registered rule runs exactly once | Rules.v | from C25; sets as lists up to permutation | partial |
| C29 | Rule order does not depend on set iteration order | Rules.v | from C25; sets as lists up to permutation | proved |
| C30 | A rule's consequence runs iff it is enabled and its condition is truthy | Rules.v | from C25; sets as lists up to permutation | proved |
| C31 | RemoveMatch removes exactly what it is given | Conseq.v over Coll.v | from C01/C02 | proved |
| C32 | AppendMatch never introduces a duplicate | Conseq.v over Coll.v | from C01/C02 | partial |
| C33 | RenameMatch renames and keeps every match | Conseq.v over Coll.v | from C01/C02 | partial |
| C34 | AppendTags and RemoveTags update tags and the tag lookup together | Conseq.v over Coll.v | from C01/C02 | partial |
| C35 | Conflicts are resolved | Processors.v | loop invariants on the growing removal set; C38_in_matches and C38_returned carry C38 through a whole call of matches() | partial |
| C36 | Nothing is removed without a reason | Processors.v | loop invariants on the growing removal set; C38_in_matches and C38_returned carry C38 through a whole call of matches() | proved |
| C37 | Longest match wins: exact outcome | Processors.v | loop invariants on the growing removal set; C38_in_matches and C38_returned carry C38 through a whole call of matches() | proved |
| C38 | Custom conflict solvers decide their conflicts | Processors.v | loop invariants on the growing removal set; C38_in_matches and C38_returned carry C38 through a whole call of matches() | partial |
| C39 | No private match survives | Processors.v, Conseq.v | multiset accounting of removals over every history (`left_over`) | partial |
| C40 | Pattern options resolve by name, then role, then default | Pattern.v (regex engine = argument) | case analysis, induction on children | proved |
| C41 | Validation is all or nothing | Pattern.v (regex engine = argument) | case analysis, induction on children | proved |
| C42 | Privacy flags | Pattern.v (regex engine = argument) | case analysis, induction on children | proved |
| C43 | Chain search terminates | Chain.v | measure on the offset; attempts as a relation; refuted alignment | partial |
| C44 | Chain parts are contiguous and correctly positioned | Chain.v | measure on the offset; attempts as a relation; refuted alignment | partial |
| C45 | Repeaters bound the number of repetitions | Chain.v | measure on the offset; attempts as a relation; refuted alignment | partial |
| C46 | Repeater notation | Chain.v | measure on the offset; attempts as a relation; refuted alignment | partial |
| C47 | Disabled objects contribute nothing | Rebulk.v | composition of the pattern stage and the rule stage | partial |
| C48 | Markers and matches are separated | Rebulk.v | composition of the pattern stage and the rule stage | partial |
| C49 | End to end: string patterns | Rebulk.v | composition of the pattern stage and the rule stage | proved |
| C50 | matches() calls are independent | TagHeap.v: tag lists as heap objects | non-interference over several calls; refuted leak | partial |
| C51 | Keyword precedence in builders | Builder.v | association-list algebra over histories of builder calls | partial |
| C52 | Declared keys never override an explicit formatter | Builder.v | association-list algebra over histories of builder calls | proved |
| C53 | check_keys reports exactly the unproducible declared names | Rebulk.v | composition of the pattern stage and the rule stage | proved |
| C54 | Typed projection | Typed.v | induction on fields, from the index invariant | partial |
| C55 | Declared-type contract check is exact | Typed.v | induction on fields, from the index invariant | proved |
| C56 | Introspection lists every producible public property | Introspect.v | association-list algebra | partial |
| C57 | Character validators | Loose.v | direct, against a model of Python's argument binding | proved |
| C58 | Loose calls pass a function only what it accepts | Loose.v | direct, against a model of Python's argument binding | partial |
| C59 | Regex matches and children mirror the regex engine | Pattern.v (regex engine = argument) | case analysis, induction on children | proved |
| C60 | Functional results are turned into matches | Pattern.v (regex engine = argument) | case analysis, induction on children | proved |
| C61 | Initiator and names | Match.v | induction on the tree / parent chain | partial |
| C62 | Later calls do not change the patterns already built | Builder.v | association-list algebra over histories of builder calls | partial |
| C63 | A chain builder inherits a copy of the configuration | Builder.v | association-list algebra over histories of builder calls | proved |
| C64 | A rule with several consequences | RuleThen.v | induction on consequences | proved |
| C65 | when is called for all rules of a priority before any then (documentation) | Rules.v, Pipeline.v | trace of an execution; position in the trace | partial |
| C66 | A rule is executed after the rules it depends on | Rules.v, Pipeline.v | trace of an execution; position in the trace | partial |
| C67 | The default rules frame the user's rules | Rules.v, Pipeline.v | trace of an execution; position in the trace | proved |
| C68 | Loading rules | Register.v | histories of registrations on several objects | partial |
| C69 | Building Rebulk objects | Register.v | histories of registrations on several objects | partial |
| C70 | Abbreviations | Abbrev.v | text replacement relation; histories of constructions sharing dictionaries | partial |
| C71 | The whole of matches(), user rules included | Pipeline.v | composition; user rules arbitrary functions | proved |
| C72 | Names, predicate and index of the lookups | Lookup.v, Coll.v | case analysis; scans; live lists | proved |
| C73 | previous and next with a predicate give the nearest match satisfying it | Lookup.v, Coll.v | case analysis; scans; live lists | partial |
| C74 | Slices and constructors | Lookup.v, Coll.v | case analysis; scans; live lists | partial |
| C75 | Changing the collection while going through the answer of a lookup | Lookup.v, Coll.v | case analysis; scans; live lists | partial |
| C76 | Assembling chains | Fluent.v | histories of calls on any chain/builder objects | proved |
| C77 | A bare option is a shortcut for {None: option} | Pattern.v options | case analysis | partial |
| C78 | A chain breaker leaves groups out, and nothing else | Chain.v | relation of attempts | proved |
| C79 | A refused chain gives up repetitions of its last part | Chain.v | relation of attempts | proved |
| C80 | What a lookup answers after any history, assignments included | SpecFiled.v registers against Coll.v | simulation: each index = a register that is either unborn or told of each change since its birth | proved |
| C81 | Which names and tags are listed | SpecFiled.v registers against Coll.v | simulation: each index = a register that is either unborn or told of each change since its birth | proved |
| C82 | What max_end is | SpecFiled.v registers against Coll.v | simulation: each index = a register that is either unborn or told of each change since its birth | proved |
| C83 | Deleting a slice | SpecFiled.v registers against Coll.v | simulation: each index = a register that is either unborn or told of each change since its birth | proved |
| C84 | What holes answers, for every history, range, filter and separators | SpecDerived.v | from C80 position by position | proved |
| C85 | What previous, next, conflicting, at_span and the chains answer, for every history | SpecDerived.v | from C80 position by position | proved |
| C86 | Who contributes to a call of matches | Rebulk.v | composition of the pattern stage and the rule stage | proved |
| C87 | How markers and matches are separated | Rebulk.v | composition of the pattern stage and the rule stage | proved |
| C88 | Which options a built pattern gets | Builder.v | association-list algebra over histories of builder calls | proved |
| C89 | What typed access answers after any history | Typed.v | induction on fields, from the index invariant | proved |
| C90 | What introspection lists | Introspect.v | association-list algebra | proved |
| C91 | What a loose call passes | Loose.v | direct, against a model of Python's argument binding | proved |
| C92 | Initiator, names, named and tagged of a match | Match.v | induction on the tree / parent chain | proved |
| C93 | then follows when | Rules.v, Pipeline.v | trace of an execution; position in the trace | proved |
| C94 | The order of rules | Rules.v, Pipeline.v | trace of an execution; position in the trace | proved |
| C95 | What loading registers | Register.v | histories of registrations on several objects | proved |
| C96 | What a Rebulk object holds after any history | Register.v | histories of registrations on several objects | proved |
| C97 | What abbreviations do | Abbrev.v | text replacement relation; histories of constructions sharing dictionaries | proved |
| C98 | What previous and next answer with a predicate and an index | Lookup.v, Coll.v | case analysis; scans; live lists | proved |
| C99 | What slices and constructors give | Lookup.v, Coll.v | case analysis; scans; live lists | proved |
| C100 | Changing the collection while going through the answer of a lookup: what happens | Lookup.v, Coll.v | case analysis; scans; live lists | proved |
| C101 | Bare options and falsy values | Pattern.v options | case analysis | proved |
| C102 | What RemoveMatch and the removal of private matches leave | Processors.v, Conseq.v | multiset accounting of removals over every history (`left_over`) | proved |
| C103 | The value and raw text of a match | `Match.value`, `raw` | case analysis; falsy assigned value refuted | proved |
| C104 | What to_dict answers when values may be lists | ToDict.v: list objects in a heap | induction over the sorted matches with the set of touched objects; C104_by_value: agreement with the to_dict of Typed.v through the reading of objects as values | proved |
| C105 | to_dict is read-only | ToDict.v: list objects in a heap | induction over the sorted matches with the set of touched objects; C104_by_value: agreement with the to_dict of Typed.v through the reading of objects as values | partial |
| C106 | When string search terminates | Loose.v find_all | induction on fuel = length; empty pattern: no fuel suffices, iff | proved |
| C107 | What every call does to the contents and answers, refused matches included | SpecCards.v card indexes against Coll.v | simulation (`sim`): every dictionary is its card index, for every history without condition | proved |
| C108 | The whole account of a collection by card indexes | SpecCards.v card indexes against Coll.v | simulation (`sim`): every dictionary is its card index, for every history without condition | proved |
| C109 | When taking a match out raises | SpecCards.v card indexes against Coll.v | simulation (`sim`): every dictionary is its card index, for every history without condition | proved |
| C110 | Derived lookups after any history whatever | SpecCards.v card indexes against Coll.v | simulation (`sim`): every dictionary is its card index, for every history without condition | proved |
| C111 | Calls and rule consequences in any order | SpecMix.v (`settle`: a list of objects) against Coll.v and Conseq.v | invariant: every index is exact for the members; induction over the events | proved |
| C112 | AppendMatch with a name and the lookups | SpecMix.v (`settle`: a list of objects) against Coll.v and Conseq.v | invariant: every index is exact for the members; induction over the events | partial |
| C113 | Repeater notation, for every text | SpecRepeat.v (shapes of texts) against Chain.v `repeater` | both directions between the shapes and the reader | proved |
| C114 | What the rule engine runs, whatever is registered and declared | Rules.v, Topo.v | toposort layers with dependencies outside the group; no hypothesis on the declarations | proved |
| C115 | What conflict solving removes, over every history | Processors.v, Coll.v | the loop as a scan of pairs; the state by the calls made | proved |
| C116 | A chain, attempt by attempt | Chain.v | the loop as a history of attempts; two positions, one for reading, one for placing; the account determines the number and places of the matches (C116_determined) when the parts are uniform | proved |
| C117 | Filling keyword arguments with defaults | Builder.v (set_defaults, set_defaults_cell) | induction on the defaults, one option at a time, the others framed out | proved |
| C118 | Chains within chains terminate | SpecNest.v (trees) over Chain.v and Pattern.v | induction on the tree: a chain of sound parts is a sound part; the counterexample by a round of the search which changes nothing | proved |
| C119 | The result of matches() does not depend on the iteration order of sets (hash seed) | Play.v: the code of a rule as an interaction with the collections (calls of every operation of Coll.op, contents, max_end, declared keys, new objects, attribute assignment, exceptions); Pipeline.v with the two iteration orders as arguments | Twin.v: collections that differ only in keys of the dictionary of ends up to the maximum end are a bisimulation for every operation; TwinSwap.v: two removals commute up to that relation (also in which of them raise); induction over permutations and over the rules executed; C29_rule_order for the schedule | proved |
| C120 | No match object is returned twice | Chain.v, Pattern.v, Rebulk.v; identities drawn from a supply | Blocks: the matches a part returns are split into blocks (children alone, or a match followed by some of its children) whose identities are disjoint and which truncation, grouping by repetition and the chain breaker keep whole; the chain match's children are then distinct; induction on the tree; refutation by computation | partial |
| C121 | Every match returned lies inside the input | chain and pattern models of C43-C48/C118, Rebulk model of C35-C39 | Refuted: chain().regex('a','b').regex('c') on a text of 8 characters returns a match ending at 9 (a part with alternatives is found out of order, a failed attempt then resumes at a position that does not correspond to the remaining text). Partial: chains whose parts are single sources found from left to right (or chains of those without validator); the top pattern may have alternatives, the top chain any validator. Invariant of the search: length of the remaining text + offset <= length of the input, and everything collected ends before the offset; kept when an attempt fails because the first collected match ends before the offset. | partial |
| C122 | toposort_flatten lists every item once, after its dependencies | toposort_flatten over the model of toposort (C25): sorted is a stable sort by the given order | From the layers of C25/C26; a list without duplicates has one sorted arrangement for a total order. | proved |
| C123 | Slices with a step work as on a list | Slices.v (CPython's slice.indices, reading/dropping/storing positions, histories with stepped slices); SpecSlices.v gives the positions as the Python reference words them. | The walk of slice.indices is the sorted list of the specified positions; deletion and storing are permutations of the contents, so that the invariant of C01 carries over; C123_delete tells exactly when a deletion raises (as C83). | proved |
| C124 | Any iterable can be assigned to a slice | Slices.v: the right-hand side is walked twice, by the list assignment and by the filing loop; an iterator is exhausted by the first walk; the collection itself has changed by the second. | Refuted for iterators (C124_iterator_refuted: unknown to lookups, deletion raises, markers get in). C124_walked_again: lists and the collection itself. C124_iterator_partial: contents; lookups agree if none was made before; a lookup already asked answers as if nothing was assigned. | partial |
| C125 | What has run when the rule engine raises | Rules.v schedule with a recording behaviour (as C27, C28, C114). | C125_before_the_error, from the layers of toposort (emitted items reach no cycle, remaining ones do); missing classes are always in the first layer. | proved |
| C126 | Lookups follow the attributes of their members | Edits.v: a change is made in every copy of the object (members, dictionaries, parents, children), keys of the dictionaries and max_end stay | the simulation with the card indexes of SpecCards.v is preserved by changes (cards keep their keys); C126_account, C126_derived, C126_first_use_partial (kind of lookup not needed before), C126_other_attributes, C126_follow_refuted (witness), C126_seen (any way through parents and children), C126_max_end, C126_range_refuted (witness) | partial |
| C127 | Taking out and changing matches | Edits.v | C127_removal (C109 for these histories), C127_changed_outside, from the card indexes | proved |
| C128 | toposort leaves its input unmodified | TopoHeap.v: the sets are addresses in a heap | C128_exact: what each set holds afterwards and that the result is that of the contents then; C128_own_sets_partial, C128_unmodified_partial; C128_refuted (witness) | partial |
| C129 | Chain matches are made of pieces found by the parts, moved with their families | Chain.v; SpecMoved.v gives the relation between a match found and the piece | invariants of the loops over groups, parts and attempts; C129_breaker_sees_pieces (two breakers that agree on lists of pieces give the same matches), C129_made_of_pieces | proved |
| C130 | The options given to a builder are what the matches show | Assemble.v reads the attributes of Pattern.v from the options of Builder.v and makes the Rebulk object of Rebulk.v from a history of calls; callables are arguments | C51/C52/C88 give the object each option is, C40-C42 and C87 what the pattern does with it; patterns of a history by induction over the calls; the default rules and rules adding nothing keep only matches the patterns found | proved |
| C131 | What a fluently built Rebulk object searches | Built.v reads the world of Fluent.v as trees (ctree) and makes the Rebulk object of Rebulk.v from the patterns registered on the root builder | written: an inductive description by the log of the calls; existence and uniqueness by induction on chain numbers (a nested chain is made after its chain); C76, C118 and C130's lemma on what matches() returns | proved |
| C132 | What the processors of a pattern do | Pattern.v: apply_processor, process_matches, finish_matches; a processor is any function from the match to the match as it leaves it and its result | C132_processors by induction over occurrences against the inductive description hooked/worked_on; C132_determined: the description leaves one result; C132_no_error | proved |
| C133 | A formatter given to a part of a chain formats what the part found | PropsParts.v over Chain.v and Pattern.v | refuted by chain(children=True).regex(..., formatter=f): the chain's default formatter replaces f (C133_parts_format_refuted); proved for chains that are asked neither for their children nor to format everything, about the children of the chain matches (C133_parts_format_partial). The exact rule is C134. | partial |
| C134 | What the matches of a chain show of the options of the chain and of its parts | PropsParts.v: chain_matches over the options assembled as in Assemble.v | configuring twice is configuring once, so every attempt of Chain._process_match gives the occurrence cut to some children, configured once (treated_as); C134_chain_shows in terms of pattern attributes, C134_options and C134_formatters in terms of the options given; C134_case. | proved |
| C135 | Every match displays the configuration the program gave its builder | Site.v joins the models of the configuration (Builder), of the attributes of patterns (Assemble), of the objects calls return (Fluent) and of the search (Built): one program makes calls with their real arguments on a tree of builders. | PropsSite.v: in_force (specification of the configuration of each builder after a log of calls) and displays (specification of what a match found by a builder's patterns shows, by recursion on the nesting) are inductive relations over the log; invariant of site_step (every known builder is in force with its factory); then by recursion on the tree written (C131) with C130 at the leaves (PropsFunction.v, C130_functions, for functional patterns: result_shows) and C134 at the chains. C135_determined: two accounts of the same log agree. Several keys (given_by): the dictionary they make is followed through build (build_keeps: entries which are not lists are kept by every merge), under the invariant that no dictionary uses the name clear (C135_orderly). | proved |
| C136 | A log level given to a rule | Debug.v: rule_level, logged_layers, execute_logged | C136_level_given_refuted (witness), C136_level_given (every set of rules with such a rule fails, the rules run are a prefix of the order without it), C136_no_level_given_partial (equality with the unlogged execution) | partial |
| C137 | Definition locations and environment switches | Debug.v: defined_at, strip, truthy_env, regex_enabled | C137_location by induction on the stack; C137_switch, C137_regex: the exact sets of values accepted | proved |
| C138 | Values are the converted texts; the check of declared keys raises no false alarm | Assemble.v over Builder.v, Pattern.v, Rebulk.v and Typed.v (converter, new_key, check_declared_keys). | C130 for the options of each built pattern, C135's keys_fill for the dictionary of formatters, a returned match which is not private is subject to formatting (from sh_returned and sh_private), and C55 for the check. | proved |
| C139 | When matches() returns and when it raises | Pattern.pattern_matches, Rebulk.rb_matches, Pipeline.with_defaults, Assemble.rebulk_of | per source: the search of each text ends (C106), re_one on markers (C87), functional_one; sequence_total lifts it to the pattern; returned matches are never empty, so conflicting() succeeds for every public member and condemned never fails with loyal solvers (C115), the private remover never fails (C102); C139_built reads the condition off the builder calls | proved |
| C140 | A program of builder calls assembles what each call says | Site.site_step, Fluent.step, Assemble.source | induction on the program, with the invariant of C135 (site_ok) for the configuration in force; the log of the program is related to the log of the fluent session, event by event, by the relation [understood] | proved |
| C141 | Chains return, or raise AssertionError because of a marker | SpecNest.ctree trees of patterns, Chain.chain_matches, Rebulk.rb_matches | the state of an attempt carries matches without markers below them; errors of each loop come only from a marker; processing of located matches cannot fail | proved |
| C142 | Processors of a chain | `chain_matches`/`chain_process_match` of theories/Chain.v over `process_matches`, `finish_matches` of theories/Pattern.v | `chain_process_spec` (C79) gives the accepted stage; induction over the children for their validation; induction over the found chains for the list | proved |
| C143 | What calls of matches() leave in the tags of the patterns | TagHeap.v: the lists of tags as shared objects in a heap surviving the calls | invariant giving each object its pattern and list; the removals and appends of a tag rule over pairwise different members are a permutation; induction over the calls | proved |
| C144 | Values in whole programs: chains, functional patterns and sub-Rebulks included | Site.v (programs of calls), Built.v (search of what they build), Rebulk.v and Typed.v | PropsTypedSite.v: from displays (C135), by cases: a match of a pattern or of a chain which is not private is subject to its formatting, and so are the pieces a chain returns (unless private); the keys declared to any builder, once declared first, by induction on the log of calls; the check by C55. | proved |
| C145 | Declared keys and sub-Rebulks | Site.v (programs of calls), Built.v (search of what they build), Rebulk.v (effective_keys) and Typed.v (check_declared_keys) | PropsKeysSub.v: each pattern searched belongs to the object or to a sub-Rebulk taking part (C86); its matches are valued by the program of that object (C144); effective_keys by induction on the sub-Rebulks; witnesses computed by evaluation. | partial |
| C146 | Rules that move, rename and tag matches leave the rest as it was found | Conseq.v (consequences), Coll.v (calls), Pipeline.v and Rebulk.v (matches with default and user rules), Site.v (programs) for the corollaries | PropsRelabel.v: the predicate "is a relabelling of a match found" holds of every member and every lookup entry of both collections, and is kept by each call (CollUniv), each consequence and both default rules; induction on the rules executed (C30). The corollaries go through the object without rules (C135, C144). Witness: a program with keys, one rule tagging and one renaming, evaluated. | proved |
| C147 | matches() as a plain list: found, solved, edited by the rules, without the private ones | Rebulk.v, Pipeline.v (matches with default and user rules), Processors.v, Conseq.v, Coll.v; what calls and consequences should do to a plain list is SpecMix.settle, independent of the lookups | PropsRun.v: the lookups are exact multisets of the members (PropsMix.event_exact) after the appends, the lookups of the conflict solver, its removal, each rule and the private remover; on tidy lists settle is the fold `picking`; no rule can raise, so C30 gives that matches() returns | proved |
| C148 | What the function of a functional pattern may return | FuncRet.v: Python objects of any shape, how an answer is split into results, and the binding of positional and keyword arguments by the call of Match | the binding is characterised by lookups (once, reserved, at most eight); every documented form is translated to an object and the binding compared with Pattern.v field by field | proved |
| C149 | Calls of matches() at the same time | Sched.v: a call cut into steps (one match created, one match looked at by the when of a rule, the rule's choice with its effect on the call's own list, one match's tags read, then replaced, the changed matches put back) over the shared tag lists of TagHeap.v; a schedule is any list of call numbers. | Each call simulates itself running alone: a relation between the tag lists of both runs, lists allocated later belonging to one call; a step of another call changes only lists out of the relation. | proved |
| C150 | What when may return | WhenRet.v: Python objects of any shape as responses, their truth value, and each consequence of the library on them; RuleThen.v for several consequences, Coll.v for the collection. | Induction on the elements against the consequences on lists of matches (Conseq.v), whose meaning over every history C31-C34 and C102 give; the order of a set drops out because the accounts of C31 and C102 only count equal matches. | proved |
