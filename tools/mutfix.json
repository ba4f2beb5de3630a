{
 "int3": {
  "skip": 1
 },
 "rb7": {
  "skip": 1
 },
 "rb8": {
  "skip": 1
 },
 "co20": {
  "skip": 1
 },
 "rb13": {
  "claim": "C47"
 },
 "ch14": {
  "claim": "C45/C79: a chain whose every stage is refused yields nothing",
  "failed": [],
  "tightened": [
   "C79_all_refused",
   "C79 theorems added"
  ],
  "note": "survived: no theorem spoke about validation of shrunk chains; see ch14b after tightening"
 },
 "ch15": {
  "claim": "C45/C78: breaker",
  "failed": [],
  "tightened": [
   "C78 theorems added"
  ],
  "note": "survived: no theorem spoke about the chain breaker; see ch15b after tightening"
 },
 "co1": {
  "claim": "C06: max_end is at least every end"
 },
 "co8": {
  "claim": "C07"
 },
 "co9": {
  "claim": "C07"
 },
 "co10": {
  "claim": "C08"
 },
 "co11": {
  "claim": "C08/C09"
 },
 "co14": {
  "claim": "C12"
 },
 "co15": {
  "claim": "C11"
 },
 "co4": {
  "claim": "C06"
 },
 "ma4": {
  "claim": "C16"
 },
 "ma5": {
  "claim": "C16"
 },
 "ma6": {
  "claim": "C16"
 },
 "ma7": {
  "claim": "C17"
 },
 "ma8": {
  "claim": "C18"
 },
 "lo5": {
  "claim": "C58"
 },
 "lo6": {
  "claim": "C57"
 },
 "lo7": {
  "claim": "C57"
 },
 "lo8": {
  "claim": "C57"
 },
 "ru3": {
  "claim": "C27"
 },
 "ru4": {
  "claim": "C27"
 },
 "ru7": {
  "claim": "C27/C29"
 },
 "ru8": {
  "claim": "C30"
 },
 "pr2": {
  "claim": "C38"
 },
 "pr4": {
  "claim": "C35/C36"
 },
 "pr5": {
  "claim": "C39"
 },
 "pr6": {
  "claim": "C38"
 },
 "rb8b": {
  "claim": "C49"
 },
 "rg1": {
  "claim": "C68"
 },
 "op2": {
  "claim": "C77"
 },
 "lk3": {
  "claim": "C72: the keyword predicate wins",
  "failed": [],
  "tightened": [
   "C72_keyword_wins"
  ],
  "note": "only an Example failed; theorem added, see lk3b"
 },
 "lk4": {
  "claim": "C72: the keyword index wins",
  "failed": [],
  "tightened": [
   "C72_keyword_wins"
  ],
  "note": "survived; theorem added, see lk4b"
 },
 "lk8": {
  "claim": "C72: predicate and index of chain_after",
  "failed": [],
  "tightened": [
   "C72_chains"
  ],
  "note": "survived; theorem added, see lk8b"
 },
 "pl2": {
  "claim": "C71: user rules are considered as they are alone",
  "failed": [],
  "tightened": [
   "C71_user_rules"
  ],
  "note": "survived: the theorem described the user rules through the combined behaviour; it now uses the user's own, see pl2b"
 },
 "rg5": {
  "claim": "C68",
  "failed": [],
  "note": "equivalent edit: a failing class leaves the state unchanged in load_class already"
 },
 "pa10": {
  "claim": "C41/C42: ignored names are not returned",
  "failed": [
   "C41_all_or_nothing"
  ]
 },
 "co32": {
  "claim": "C02 Matches behaves like a list",
  "failed": [
   "C02_behaves_like_list_partial",
   "C01_lookups_agree"
  ]
 },
 "r6-10": {
  "skip": true
 },
 "r6-35": {
  "skip": true
 },
 "r6-12": {
  "failed": [],
  "tightened": [
   "C117_set_defaults"
  ],
  "note": "survived: no theorem described set_defaults with nested dictionaries; C117 now does"
 },
 "r6-38": {
  "failed": [],
  "tightened": [
   "C72_plain"
  ],
  "note": "survived: the lookups with arguments were not tied to the plain ones; C72_plain does it"
 },
 "r6-51": {
  "skip": true
 },
 "r7-37": {
  "claim": "what has run before the rule engine raises",
  "failed": [],
  "tightened": [
   "C125_before_the_error"
  ],
  "note": "survived: C117 spoke of executions that end normally or of the error only; C125 added, see r8-35"
 },
 "r8-08": {
  "claim": "parents of pieces are moved with them",
  "failed": [],
  "tightened": [
   "C129_breaker_sees_pieces"
  ],
  "note": "survived: only the chain breaker can see the parent of a piece, and no theorem said what it sees for parts with children; C129 added, see r9-01"
 },
 "r8-41": {
  "skip": 1
 },
 "r8-51": {
  "skip": 1
 },
 "r9-03": {
  "failed": [],
  "tightened": [
   "C126_seen"
  ],
  "note": "survived; C126_seen added, see r9-03b"
 },
 "r9-06": {
  "failed": [],
  "tightened": [
   "C126_max_end"
  ],
  "note": "survived; C126_max_end added, see r9-06b"
 },
 "r9-20": {
  "failed": [],
  "tightened": [
   "C130_options"
  ],
  "note": "survived the modules tried: no theorem there started from the named options; C130 does, see r9-20b"
 },
 "r9-27": {
  "failed": [],
  "tightened": [
   "C132_processors",
   "C132_determined"
  ],
  "note": "survived: no theorem spoke about match processors; C132 added, see r9-27b"
 },
 "r9-28": {
  "failed": [],
  "tightened": [
   "C132_processors",
   "C132_determined"
  ],
  "note": "survived: no theorem spoke about match processors; C132 added, see r9-28b"
 },
 "r9-36": {
  "failed": [],
  "tightened": [
   "C132_processors",
   "C132_determined"
  ],
  "note": "survived: no theorem spoke about match processors; C132 added, see r9-36b"
 },
 "r9-16": {
  "failed": [],
  "note": "equivalent: re_child always overwrites the name of a child"
 },
 "r9-71": {
  "skip": 1
 },
 "r9-100": {
  "failed": [],
  "tightened": [
   "C32_append_one_partial"
  ],
  "note": "survived: the statement used the model's own helper; restated, see r9-100b"
 },
 "r9-02": {
  "failed": [],
  "tightened": [
   "C126_seen"
  ],
  "note": "only an example failed; C126_seen added, see r9-02b"
 },
 "r9-18": {
  "failed": [],
  "note": "equivalent: a missing validator counts as always true"
 },
 "r9-19": {
  "failed": [],
  "tightened": [
   "C130_options"
  ],
  "note": "only an example failed in the modules tried; C130 added, see r9-19b"
 },
 "r9-42": {
  "skip": 1
 },
 "r9-46": {
  "skip": 1
 },
 "a0668": {
  "note": "survived: the edited branch (out of fuel) is never reached: an equivalent program"
 },
 "a0588": {
  "note": "survived; see a0588b after tightening",
  "tightened": [
   "C72_other_values"
  ]
 },
 "a0334": {
  "tightened": [
   "C132_raw_matches"
  ]
 },
 "a0343": {
  "tightened": [
   "C132_raw_matches"
  ]
 },
 "a0336": {
  "tightened": [
   "C132_raw_matches"
  ]
 },
 "a0299": {
  "tightened": [
   "C57_errors"
  ]
 },
 "a0304": {
  "tightened": [
   "C57_errors"
  ]
 },
 "a0545": {
  "tightened": [
   "C88_overrides_errors"
  ]
 },
 "r10-002": {
  "note": "see C130_texts, added after it",
  "tightened": [
   "C130_texts"
  ]
 },
 "r10-003": {
  "note": "survived; see r11-001 after tightening",
  "tightened": [
   "C130_texts"
  ]
 },
 "r10-015": {
  "skip": 1
 },
 "r10-056": {
  "skip": 1
 },
 "r10-018": {
  "note": "survived: no theorem about whole Rebulk objects spoke about converters of declared keys; see r11-002",
  "tightened": [
   "C138_declared_first"
  ]
 },
 "r10-051": {
  "note": "survived; see r11-004 after tightening",
  "tightened": [
   "C138_key"
  ]
 },
 "r10-068": {
  "note": "survived; see r11-007 after tightening",
  "tightened": [
   "C72_other_values"
  ]
 },
 "r10-069": {
  "note": "survived; see r11-008 after tightening",
  "tightened": [
   "C72_other_values"
  ]
 },
 "r10-031": {
  "skip": 1
 },
 "r10-032": {
  "skip": 1
 },
 "r10-033": {
  "skip": 1
 },
 "r10-092": {
  "note": "equivalent: a class looked up is always registered"
 },
 "r10-051b": {
  "skip": 1
 },
 "r11-045": {
  "skip": 1
 },
 "r11-031": {
  "failed": [],
  "tightened": [
   "C140_structure"
  ],
  "note": "survived: no theorem related the program to what it assembles; C140 added, see the rerun in round 12"
 },
 "r11-041": {
  "failed": [],
  "tightened": [
   "C140_structure"
  ],
  "note": "survived: no theorem related the program to what it assembles; C140 added, see the rerun in round 12"
 },
 "r11-042": {
  "failed": [],
  "tightened": [
   "C140_structure"
  ],
  "note": "survived: no theorem related the program to what it assembles; C140 added, see the rerun in round 12"
 },
 "r11-048": {
  "failed": [],
  "tightened": [
   "C140_distinct"
  ],
  "note": "survived: no theorem related the program to what it assembles; C140 added, see the rerun in round 12"
 },
 "r12-008": {
  "skip": 1
 },
 "r13-017": {
  "skip": 1
 },
 "r13-018": {
  "skip": 1
 },
 "r18-001": {
  "tightened": [
   "C143_renaming_rule"
  ]
 },
 "r18-003": {
  "failed": [],
  "tightened": [
   "C148_one_alone",
   "C148_several"
  ],
  "note": "survived: the same test of a number stood on both sides; see r18-003b after tightening"
 },
 "r20-004": {
  "failed": [],
  "tightened": [
   "C150_several_one",
   "C150_other_ignored",
   "C150_append_one_raises"
  ],
  "note": "survived: the test for an iterable response stood on both sides; see r20-004b after tightening"
 },
 "b0661": {
  "failed": [],
  "tightened": [
   "C130_options",
   "C130_functions",
   "C134_options",
   "C135_matches_display"
  ],
  "note": "survived: no theorem spoke of the conflict solver given to a builder; see r22-003 after tightening"
 },
 "b0660": {
  "failed": [],
  "tightened": [
   "C130_options",
   "C130_functions",
   "C134_options",
   "C135_matches_display"
  ],
  "note": "survived: no theorem spoke of the conflict solver given to a builder; see r22-003 after tightening"
 }
}