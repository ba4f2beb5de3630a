# Formal model of Toilal/rebulk in Coq 8.16 — design

## Approach

`/repo/rebulk` is modelled function by function as shallow, total, computable Gallina
(`rocq/theories/*.v`).  Python exceptions are values (`res A := Ok a | Err e`); where the
code mutates an object *before* raising, the model returns the mutated state together with
the error.  Loops become structural recursion or recursion on fuel with an explicit
out-of-fuel outcome that theorems exclude (or prove unreachable, or characterise).

Where sharing of Python objects matters (tag lists, dictionaries given as abbreviations, rule
and child objects, chain builders, list values) there is a separate model with an explicit
heap of objects named by numbers; elsewhere objects are values and this is said in the comment.

`Spec*.v` hold the model-independent vocabulary of the statements (positions, plain lists,
registers, adjacency); `*Facts.v`, `*Sem.v`, `Coll*.v` hold proofs; `Props*.v` hold the property
theorems `Cnn_*`, each with examples showing that a non-trivial case meets its hypotheses.

A property the code violates keeps its full English statement: the manifest marks it
"partial", `Cnn_..._refuted` is a concrete witness computed by the model, `Cnn_..._partial` the
strongest version found provable, and what the code does instead is its own property with its
own theorems (see the notes of MANIFEST.json and "Findings" below).

## Files

| file | models / contains |
|---|---|
| Base.v | Python built-ins: values, truthiness, `==`, `str.find`, slices, indexing, stable sort, default dictionaries |
| Match.v | `match.py` class `Match` (value, raw, initiator, names, crop, split, equality, order, hash) |
| Coll.v | `match.py` `_BaseMatches`/`Matches`/`Markers`: sequence + five lazy indices + every lookup; the `op` language of histories |
| SpecColl.v, SpecFiled.v, SpecDerived.v | reference semantics: plain list; registers; scans of registers |
| CollFacts/Query/Sem/Sem2/Hist/Univ/Order/More/Filed/Filed2.v | proofs about the collection |
| Loose.v | `loose.py`, `utils.py`, `validators.py`, `formatters.py` |
| Slices.v, SpecSlices.v, SliceFacts.v | slices with a step; sources of slice assignments |
| SpecMoved.v | the pieces of a chain (words of C129) |
| TopoHeap.v | toposort on the caller's set objects |
| Edits.v | attributes of matches assigned while they are in a collection |
| Topo.v, Rules.v, RuleThen.v | `toposort.py` (with `toposort_flatten`), `rules.py` engine, `Rule.then` |
| SpecRepeat.v | how a repeater is written |
| SpecMix.v | a list of objects under calls and consequences |
| Conseq.v, Processors.v, Pipeline.v, Play.v | consequences; `processors.py`; default rules beside the user's; rule code as interaction with the API |
| Pattern.v, Abbrev.v | `pattern.py`; construction of regex patterns with abbreviations |
| Chain.v, SpecChain.v, ChainSem.v, SpecAttempts.v, Attempts.v, SpecNest.v, SpecOnce.v, OnceFacts.v, SpecInside.v, InsideFacts.v, Fluent.v | `chain.py`; fluent building of chains |
| Rebulk.v, Register.v | `rebulk.py`; registration on objects that share children |
| Builder.v | `builder.py`, `key.py`, defaults |
| Introspect.v | `introspector.py` |
| Typed.v, ToDict.v | `to_dict`, typed access; `to_dict` with list objects |
| Lookup.v | arguments of the lookups, returned lists, slices, constructors |
| TagHeap.v | aliasing of the tag lists between patterns and matches |
| Props*.v | the theorems named in MANIFEST.json |

## Trusted base

* Coq 8.16.1's kernel (`coqc`, rechecked by `coqchk`), and the standard library only: no mathcomp,
  std++, Iris, Equations...; no plugin; no kernel check is switched off.
* `Print Assumptions` answers "Closed under the global context" for **every** theorem listed in
  MANIFEST.json (checked mechanically for all of them): no axiom, of the standard library or other.
* `coqchk` prints the axioms of all loaded library files whether used or not: loading
  `ZifyBool` loads `Coq.ssr.ssrunder`, whose `Under_rel.*` parameters (7) appear in its list. No
  theorem here depends on them (see the previous point).
* That the Gallina definitions describe the Python code: by reading; each definition cites the
  lines it models and says what it simplifies. No extraction or execution of `/repo` was possible.

### Modelled

match.py (all of Match, the collections, lookups, to_dict, typed access), loose.py, utils.py,
validators.py, formatters.py, toposort.py, rules.py (engine, conditions, all consequences, loading), processors.py,
pattern.py (string, regex, functional patterns, processing of raw matches, abbreviations),
chain.py, builder.py, key.py (as keys with a declared type), rebulk.py, introspector.py.

### Not modelled

* `__repr__`, what log handlers do, `__version__`, CLI `__main__`; of `debug.py`, the walking of the Python stack takes the stack as a list.
* The regex engine: an argument of the model (any function from text to raw groups, with the
  well-formedness every `re` match has); likewise user callbacks are arbitrary total functions,
  or functions that may raise where the property is about exceptions; they are deterministic and do not
  mutate the collection behind the library's back, except rules, which receive and return the state, and the attribute assignments of Edits.v.
* Non-string inputs, threads, generators interrupted halfway (a generator is read once), recursion limits.
* Object sharing between matches, beyond identity numbers: a match holds copies of its parent and children, brought up to date
  where the code changes them; the one place where a copy may be stale is said at `chain_children` (Chain.v). `crop` and `split`
  use `copy.deepcopy`, so the pattern of a piece is a copy of the pattern: the identity number stands for "object n or a copy".
* `isinstance`/`issubclass` and typing introspection of key types: arguments.

## Findings

Each is a `_refuted` theorem with a computed witness: see the notes in MANIFEST.json. In short:
assignments after a lookup leave lookups stale (C04); insert breaks lookup order (C03); names and max_end
are changed by lookups (C05, C06); a rejected append leaves the match in the list (C13); falsy assigned
values are ignored (C18, C77); to_dict appends to list values, even to themselves (C19, C105); the empty
string pattern loops for ever (C21); holes are wrong when the range starts inside a match (C09, C10);
dependencies on unregistered instances run or fail (C28); AppendMatch/RenameMatch/AppendTags go wrong on empty or
equal members (C32-C34); conflicts survive between equal members (C35, C38, C39); chains scan stale text (C44),
exceed repeaters with alternatives (C45), misread '{a}' (C46), may not terminate with an explicit
raw_end (C43); grandchildren are ignored (C47); regex markers with groups raise (C48); tag rules
leak into later calls (C50); stale kind defaults (C51); introspection omissions (C56); loose calls misbind (C58);
an empty parent stops the initiator walk (C61); defaults() changes built patterns (C62); documented rule order is not the
real one (C65, C66); helper functions of rule modules are loaded (C68); reset() forgets patterns (C69);
abbreviations replaced in sequence and leaked (C70); previous/next with an index (C73); slices lose the text (C74);
loops over a live lookup skip items (C75); a chain inside a chain: its part and close() (C76), the breaker (C78), a validator
that accepts an empty match makes the outer chain loop for ever (C118), children shown at both levels come back twice (C120);
AppendMatch(name) renames a member in place (C112); a chain part with alternatives may yield a match beyond the end of the
input (C121); matches[i:j] = iterator leaves the matches unfiled (C124);
a renamed or moved member stays filed where it was, and cannot be removed without ValueError (C126, C127);
toposort removes items from the caller's sets, and a cycle between two items given one set object is lost (C128).

## Mutation tests

`tools/mutate.py` applies one textual edit to the model in a scratch copy, rebuilds the files that depend on it and
reports the first theorem that fails; `seeded/LOG.jsonl` records every attempt.

## Per property plan

| id | property | model | proof | status |
|---|---|---|---|---|
