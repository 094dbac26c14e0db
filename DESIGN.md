# Design of the formal model of nisaba

Prover: Coq 8.16.1 (`/verif/rocq`, logical name `Verif`). The code in /repo is
read as text, never run. Model definitions live in `*Model.v` files (no
proofs), specifications and lemmas in `*Proofs.v`, and the property theorems in
`*Thms.v` files that contain only `Theorem … exact lemma`, `Print Assumptions`
and non-vacuity `Example`s. Each model definition cites file and lines.

## Common representation

* A character is an `N` code point (or byte); a string is `list N`.
* A Python exception or non-OK status is a value (`option` or a result type).
* An FST is represented by what it denotes: a language `list N -> Prop` or a
  relation between strings, or by an executable function listing all outputs
  for an input. OpenFst/Pynini internals (optimize, epsilon removal, state
  numbering) are not modelled: they are assumed to preserve the denoted
  relation. `pynini.cdrewrite` is modelled as the obligatory left-to-right
  rewrite: scan from the left, at each position where some left-hand side
  matches with its contexts (left context read on the output side, right
  context on the input side, as for `direction="ltr"`, `mode="obl"`), one of
  the matching pairs must be applied and its input is consumed; elsewhere the
  symbol is copied.
* Data files: tables taken from the shipped textprotos are converted to Coq by
  `rocq/gen/*.py` (reads /repo as text; the generated `.v` file is committed).

## Trusted base

* Coq's kernel and `vm_compute` (checked again by `coqchk`, which does not use the VM).
  `Print Assumptions` follows every property theorem in the `*Thms.v` files; the results
  are collected in `ASSUMPTIONS.md` by `tools/assumptions.py` (all of them: "Closed under
  the global context").
* The reading of the Python/C++ code into Gallina (citations in the files).
* The denotational reading of Pynini operations stated above.
* Generated tables: `rocq/gen/*.py` read the textprotos, the TSV files and the Python tables
  in /repo as text. `IsoDists.v` is different: it holds proposals only, which a
  checker proved sound accepts or rejects.

What is modelled although its source is not in /repo (the model is trusted):

* utfcpp (`append`, `next`, `validate`): C31, C32.
* `absl::StrSplit` (C32, C76), `absl::Mutex` as atomic sections and condition variables (C33).
* The string compiler of pynini: escapes, bracketed labels, a lone backslash (C12, C71).
* `pynini.cdrewrite`: besides the above, cdrewrite of a transducer (C13), of languages that
  hold the empty string (C40, both readings), of insertions (C61), of a cross product
  of a language with a string, taken as its rules that are parts of the text (C75).
* `pandas.read_csv` on clean tables (C16); `re` character classes (C11);
  `unicodedata` and `pycountry` names are parameters or tables (C14, C15, C72).
* `fst::SymbolTable` and `fst::LabelsToUTF8String` (C77).
* `std::shared_ptr` control blocks (C57).

What is a parameter of the statements, with its specification as a hypothesis and, where one
is needed, a theorem that the hypothesis can be met:

* `ShortestPath` and `Compose` of OpenFst (C26, C35, C36, C56, C76), `Determinize`,
  `Project`, `RmEpsilon`, `Connect` (C43, C59), pushdown composition (C56, C60, C76).
* Number parsing and printing (C42, C47, C49, C76); `pyemd.emd_with_flow` (C78);
  the list of languages of pycountry (C79); the operating system and the parsers of messages (C80).
* `pynini.equal` and `==` on values (C37).

Simplifications:

* Costs are natural numbers or integers; distances of features are counted in quarters; error
  rates are compared as fractions. Rounding of floating point numbers is not modelled.
* Python sets are lists without repetitions; where the order of iteration matters it is a parameter.
* Python objects are values, except where sharing matters (C19, C25, C37, C53, C57), where there is a store.
* Expressions of natural_translit/utils/expression.py are trees; aliasing of changed parts is not modelled.
* Left out of the natural transliteration: VOCALIC_TR_I (psaf of Tamil and Malayalam) and the IPA
  signs that no grammar writes. Deromanization is for Hindi and Tamil, the only
  ones there are; `fixed.py` only with token type utf8; sound inventories without atomics.
* Threads: only C33, C45 and C50 have interleavings.

Not modelled: programs' `main` functions, bazel rules, the Python wrappers around `pynini` archives
(`far.py`, `far_base.cc`), protocol buffer parsing, logging.

## Plan per property

* **C01** Model partition_unordered as peeling of leaves with fuel = number of nodes (fuel error distinct from ValueError and proved unreachable). Prove permutation of nodup, antichain layers, ordering, and the error characterisation (proper-substring order is well-founded, so only equal left-hand sides make a cycle).
* **C02** Executable non-deterministic cdrewrite (list of all outputs); prove the output set of each antichain layer is a singleton; compose over layers.
* **C03** Span decomposition spec (inductive: copied stretches and rewritten spans); prove the rewriter's result has exactly this decomposition, with obligatoriness.
* **C04** General lemma from a decidable table criterion (no lhs overlaps a rhs) to idempotence; run the criterion with vm_compute on the shipped NFC tables; refute where it is false.
* **C05** Model ComposeFsts with an arbitrary num_states oracle; prove equality with fold of relational composition using associativity.
* **C06** Cascading rules as fold; prove split/identity laws and the agreement with the relation.
* **C07** UTF-8 encoder; self-synchronisation lemma; simulation between code-point and byte level scan.
* **C08** Model deletion of c after c (left context on output side); prove equal to run collapse for any permutation of the marks.
* **C09** Model the four steps with tagged alphabet (generated symbols); prove joiner survival theorem.
* **C10** Regular-expression denotation of accept_well_formed against an inductive akshara grammar; executable matcher proved sound and complete; structural theorems.
* **C11** Model re.sub over [^ignore]+ as a scan with explicit buffer; spec by maximal-run decomposition; exceptions as option.
* **C12** Model pynini.escape and the bracket-syntax compiler; prove compile (escape s) = literal s; refute for unescaped.
* **C13** Transduction star model; Sardinas-Patterson procedure proved sound; run on the generated table; composed with NFC.
* **C14** name_to_char over an abstract name database; permutation invariance, characterisation.
* **C15** proto_entries_to_string/convert_item branch by branch with exceptions as values.
* **C16** TSV writer and readers on character lists; round-trip under a decidable cleanliness predicate; refuted outside.
* **C17** Nested value lists, populate loop as fold over pairs; matrix invariants.
* **C18** Set distances as min over pairs in Q/Z; profile comparison.
* **C19** Profile as association aspect->set; op history induction.
* **C20** Expression trees, symbols as list of lists; language spec.
* **C21** Containment functions versus prefix/suffix/infix; refutations for duplicates.
* **C22** Inventory state machine, invariant by induction on the op list.
* **C23** Dictionaries as association lists with last-wins, history specification.
* **C24** Attribute namespace as association list, history induction.
* **C25** Lattice state machine with a map from coordinates to states, invariant over request histories; shared default objects refuted.
* **C26** Dynamic-programming table model against recursive Levenshtein and against inductive edit scripts.
* **C27** Fold over references and items.
* **C28** SegmentCoveredChars loop; run decomposition spec.
* **C29** Sort/threshold loop; spec on lists.
* **C30** Merge loop over the length vector with invariant 'pieces tile the word'; termination measure = number of pieces.
* **C31** utf8 encode/decode on bytes with explicit validity (utfcpp rules); finite-domain arithmetic by lemmas.
* **C32** Delimiter Find and SkipEmpty split; spec by maximal stretches.
* **C33** Small-step transition system of workers, queue and destructor; invariants over all interleavings; progress measure for termination.
* **C34** Run-length loop on the sorted list; spec by counting.
* **C35** Line grouping loop; spec by grouping; automatic k refuted for the last group.
* **C36** Decision logic with archive as a set of names and rewriting as an oracle section variable.
* **C37** Tree flattening with validity predicate; index arithmetic.
* **C38** Weighted star of a finite union; relational laws and cost sub-additivity.
* **C39** fold_left laws.
* **C40** Token-level model of the alignment strings.
* **C41** Generate canonical equivalence from decomposition mappings; show that the NFC tables reach one normal form per class.
* **C42** Reader of indexed lines as a fold; specification by filtering.
* **C43** Trie states as prefixes; specification of determinization; costs of words along the trie.
* **C44** State machine over arcs with bounds checks; failure (out of bounds, endless backoff) as values.
* **C45** Pool of C33 with a per-line function; result independent of the schedule.
* **C46** Cache state machine over lines; invariant relates cached FSTs to first occurrences.
* **C47** Print/parse round trip on lattices as lists of arcs.
* **C48** Option handling as record updates.
* **C49** Line parser with exceptions as values.
* **C50** Parallel word decoding on the pool of C33.
* **C51** Value lists as trees with a call depth; range and membership against list positions.
* **C52** Enumeration of the operations of every argument list.
* **C53** Numbering as a state machine with object identities.
* **C54** Rules as pairs of expression trees; language of a rule as pairs of words.
* **C55** Expand the grammar to a finite automaton, check distance proposals, prove that the deterministic machine gives the outputs of least cost; check that one machine inverts the other.
* **C56** Archive as a map, cascade as a fold; paths through FSTs as an inductive relation.
* **C57** Store of managers with reference counts; every history of operations.
* **C58** Iterator field by field over an abstract FST; specification by the list of paths.
* **C59** Readout of lattices to strings; determinization specified.
* **C60** Manager functions with fatal errors as values.
* **C61** Simulation between symbol strings and byte strings for lists of operations.
* **C62** Reading ISO text into graphemes and back; unique decoding.
* **C63** Results of the pipelines per language; existence and uniqueness by invariants over the operations.
* **C64** The same for IPA.
* **C65** Invariant over sound classes from input to output.
* **C66** The same for romanizations.
* **C67** Vowel dictionaries of the deromanizers; their parts tile the words.
* **C68** Longest and strongest spelling against the rules.
* **C69** Deromanized words romanize back to the same Latin word.
* **C70** Deterministic reader of letters as specification of the weighted grammar of C55.
* **C71** Typing units of Mozhi; reader and writer as inverse.
* **C72** Build the inventories by running the statements of the modules; compare with documentation pages; metric laws over the finite inventory.
* **C73** The same for Latin and English letters; adding features for all symbols.
* **C74** Speller as product of tables and separators; Sardinas-Patterson.
* **C75** Unique decoding of letter names; composition of C74, C55, C70 and C63.
* **C76** Tester state and messages; paths of C56 and best outputs as specification.
* **C77** Table invariant over all histories of calls; hexadecimal and UTF-8 names as inductive relations.
* **C78** Least-cost flow as a relation over exact fractions; block flows between hypotheses and references by
  non-negativity of the zero rows and columns; bounds by prices (weak duality); JSON texts as inductive relations.
* **C79** The tree of languages as an aspect of C17-C19; equidistance by induction over the tree; code lookup for
  every list of languages.
* **C80** The disk as a function with a quota; texts as lists of lines; streams as lists of calls with an invariant.
* **C81** (FstListModel): the lists of machines of natural transliteration.  The Pynini
  operations are relations on strings (as in C01); `pynini.accep`, `concat`, `union`, `closure`
  and `compose` are taken with their documented meaning.
* **C82** (LogModel): the texts and callers of the log functions; `logging` itself is a list of
  messages, `inspect.stack` a parameter.
* **C83** (AssertModel): the checks of `test_util.py`.  A machine is the function from an input to
  the paths that Pynini lists for it; `randgen` is any list of samples.
* **C84** (TextprotoModel): the test driver for lists of rewrites.  The rule cascade is given by
  parameters with the properties proved for it in C36, C42 and C58-C60; gMock's matchers are
  written out.
* **C85** (MarkTables, StableSpec): stability of visual normalization for the shipped tables, with
  the model of C08-C10.  Which characters are marks (category Mn) is a table generated by
  `rocq/gen/genmarks.py` from Python's unicodedata.  The positive statements rest on a checker
  (proved sound) that follows which strings cannot occur after each pass; the negative ones are
  witnesses, one of which (Tamil) turned up when the checker did not succeed.
* **C86** (KeepSpec): the results of the normalizers against the acceptor of C10, for the shipped
  tables.  A checker (proved sound) follows the derivatives of the acceptor along text and rewritten
  text at once.  Where an intermediate text is not well-formed (Devanagari, Tamil and Tirhuta with
  joiners) it follows a wider language.  The Malayalam statements are witnesses.
* **C87** (CommandSpec): flags of the form --name=value, with the readers of numbers and truth values,
  the parser of configurations and the decoder as parameters.  What the programs then do is the
  subject of C26-C29, C34, C35 and C42-C50.
* **C88** (LetterSpec): the registry of letters with the database of character names and the databases
  of languages and countries as parameters.  The shipped file is read by rocq/gen/genletters.py, which
  also takes the names it uses from Python's unicodedata.  That assigning None to a message field is a
  TypeError is trusted.
* **C89** (FarSpec): archives as lists of named transducers, with the runfiles library (both languages)
  and the files as parameters; the archive manager is that of C36.  That Rlocation may give an empty
  path (C++) or None (Python) for what it does not know, and that pynini reads an archive once it is
  open, is trusted.
* **C90** (TestdataSpec): on the disks and streams of C80; the printer and the parsers of protobuf are
  parameters.  That WriteCord and Print put bytes one after another until this fails is trusted.
* **C91** (BuildSpec): the build rule as a function from a list of pairs to an archive, with sed, farextract
  and farcreate as small functions; grammars are parameters.  Uses the managers of C36 and C89.  That
  farcreate refuses falling or empty keys and that farextract gives the first of equal keys its name
  is trusted, and so is that the three sed patterns match only the flag lines of the four shipped
  sources (checked by hand).
* **C92** (ArabSpec): the normalizers of abjad_alphabet with the rewriting of C01-C03.  String maps are lists
  of rules; an empty file is no rule.  The rule files are in ArabTables, written by gen/genarab.py.  That
  a rewriting with the map of the empty string to itself changes nothing is trusted.
* **C93** (PhonSpec): phons as records; a machine is the empty machine or a sequence of symbols, and the fst ph
  is the list of the texts in its braces.  The inventory, the features and the table of the documentation are in
  PhonTables, written by gen/genphon.py, which reads the lists of phoneme_inventory.py as syntax trees.
* **C94** (PhonTextSpec): the rules of romanizer.py are those of NatModel on symbols, with the phons of PhonModel.
  The theorems speak of all outputs of a rule, since pynini's choice among several of them is not modelled.
  C94_symbols shows that the names of pitch have a sign outside the alphabet; for texts with them the model says
  what the rules would do if the alphabet had that sign.

## Mutation tests

`tools/mutate.py` edits one definition in a scratch copy, replaces the proofs that no longer go through by
`Admitted`, and asks `Print Assumptions` which property theorems now depend on one of them.

* `failed` in `seeded/LOG.jsonl` lists theorems that lost their proof. A failing proof script does not by itself
  show that the statement is false of the mutant; several theorems are listed only because they share a lemma.
* `failed_examples` lists closed computations that now come out differently. These do show a change of behaviour.
* A mutant is logged only if every theorem file of `_CoqProject` could be built or its proofs admitted. A file that
  cannot be built gives "unknown", never "failed". The unmutated copy must build with nothing failed first.

An earlier version of the script counted every theorem of an unbuilt file as failed. It blamed mutants for theorems
unrelated to them and could have hidden survivors. Its 22 entries were deleted before any commit and the
mutants were run again.

Mutants that no theorem can kill, because they are the same program on every input:

* `NatModel.IGNORE_LONG` without its rule for DURH: VOWEL_MOD has already mapped DURH to DEL.
* `SoundModel.execute` adding a symbol whose alias exists: no alias of the modules is used twice.
* `SoundModel.bind` binding an alias twice: the first binding is the one found.
* `PhonTextModel.pair_by_key` and `apply_to` with another result for an empty machine or an exception: the phonemes
  give neither.

The last runs were stopped for time. Of `seeded/mutants_k.py` (C92) 18 of 47 edits were run and of
`seeded/mutants_l.py` (C93) 10 of 78, and all but one of these are logged. The one left out, `PhonModel.union` letting
the first of equal keys win, only lost the proof of a shared lemma, which shows nothing about the theorems. The
other edits in these two files are untested. All 27 of `seeded/mutants_m.py` (C94) were run.

Mutants that survived at first and the theorems that were tightened for them are marked in
`seeded/LOG.jsonl` (field `tightened`). The last one was `SoundModel.add_features` replacing the
old features instead of adding to them: no module adds features to an aspect that has some, so C73 said nothing
about it. `C73_add_keeps`, `C73_add_adds` and `C73_add_only` do.
