{
 "C01": {
  "note": "partition_unordered over all rule lists; networkx graph modelled by node and edge lists."
 },
 "C02": {
  "note": "cdrewrite is modelled by its specified left-to-right obligatory behaviour (trusted); empty left-hand sides are excluded because the reader rejects them."
 },
 "C03": {
  "note": "Per layer for prefix-free layers (all layers produced by the partitioning are), identity for whole rule sets."
 },
 "C05": {
  "note": "For any FST type, composition operation and state counts."
 },
 "C06": {
  "note": "Cascades equal successive whole-text replacement, any split point."
 },
 "C04": {
  "note": "General criterion plus all 20 Brahmic tables and their union, checked by a decision procedure proved sound; the Arabic table is refuted with a witness (the project's own test_util notes this)."
 },
 "C41": {
  "note": "Canonical equivalence is the congruence generated by Unicode 14 decomposition mappings and mark exchange, restricted to characters of the tables."
 },
 "C08": {
  "note": "For every non-empty mark set; the generator always includes the three joiners."
 },
 "C09": {
  "note": "Generic in tables and in the preceding steps; the requirements are checked on all 20 shipped scripts. The tables are regenerated from the textprotos by rocq/gen/gentables.py (trusted)."
 },
 "C10": {
  "note": "The acceptor is the regular expression of wellformed.py over the tables; its language is shown equal to an independent grammar of unit sequences. Table facts are checked on all 20 shipped scripts."
 },
 "C31": {
  "note": "utfcpp is not in the repository: its append/validate_next are modelled from its documented behaviour (trusted). The spec is Unicode table 3-7."
 },
 "C07": {
  "note": "Agreement holds for every text over the alphabet of the code-point grammar. Outside of that alphabet the shipped grammars differ (byte mode passes the text on), see C07_agree_on_all_text_refuted."
 },
 "C11": {
  "note": "Includes the compilation of the character class from re.escape(ignore). An empty ignore string makes the constructor raise re.error."
 },
 "C12": {
  "note": "pynini's string compiler is modelled for escapes and decimal bracket labels (trusted); other bracket contents and stray backslashes are parameters. AcceptText is refuted, and so is the claim that a word returned by NormalizingAcceptor is well-formed."
 },
 "C13": {
  "note": "Shipped table, closure relation, NFC composition. The Roman side is a uniquely decodable code (Sardinas-Patterson test, proved sound). The API wrapper ToReversibleRoman, a cdrewrite of FROM_ARAB, is refuted as a function: it may romanize in pieces without NFC; cdrewrite of a transducer is a trusted model."
 },
 "C14": {
  "note": "unicodedata is a parameter. Two wider readings are refuted: a character found by two listed spellings is rejected, and names of character sequences, which the proto allows, raise TypeError."
 },
 "C15": {
  "note": "unicodedata and the order of list(set(..)) are parameters."
 },
 "C16": {
  "note": "The pandas reader is a trusted model (no quotes, carriage returns or third column; number inference is a parameter). Refuted without the restrictions: white space at line ends is missing from the alphabet, '#' cuts a rule off."
 },
 "C33": {
  "note": "Interleaving model of ThreadPool: owner (Spawn/Schedule calls, then the destructor: one null item per worker, join in order), workers (blocking pop, run, return); tasks may call Schedule. Proved for every interleaving: FIFO dequeue, no task twice, everything pushed before destruction is run exactly once before the destructor returns (at least one worker), no deadlock, termination and reachability of the destructor's return when tasks do not spawn without bound, completion order with one worker. Two limits are shown by refutations: no workers means no task runs, and a task scheduled by a task after destruction has begun may be dropped. Atomicity of the locked sections and the blocking mutex condition are taken from absl::Mutex."
 },
 "C32": {
  "note": "Utf8Delimiter::Find, the whitespace tables, std::set_union and absl::StrSplit with SkipEmpty are modelled on bytes. Splitting well-formed text gives exactly the encodings of its words (declarative definition, shown unique); malformed text, and only that, makes utf8::next throw. absl::StrSplit and utfcpp are modelled after their sources."
 },
 "C30": {
  "note": "The candidate tables, merge loop (with checked vector accesses and an explicit InternalError), tokenization, whole-input segmentation, file vocabulary and the word-to-wordpiece transducer are modelled. The loop is shown to implement greedy merging of the best ranked, leftmost adjacent pair to its end, for every vocabulary; hence no error, no out-of-range access, termination, no lost text, no mergeable neighbours left. The transducer relation is characterised exactly. A word-initial prefix that is not UTF-8 silently drops all words (refutation); malformed input throws."
 },
 "C34": {
  "note": "Also: the alignment acceptor holds exactly the position-wise mixtures of the kept hypotheses, and systems are combined item by item. Refuted: a given length is ignored when all hypotheses share another; a given length may leave no hypothesis; a blank hypothesis aborts. The n-gram counter and symbol numbering are not modelled."
 },
 "C35": {
  "note": "Grouping is proved for accepted inputs with non-negative indices, and acceptance for as many runs as indices. Rejoined lists are proved for any correct k-shortest-paths search (a parameter). Refuted: the automatic k skips the last list (and aborts with one list); a single segment ignores k; two successive equal inputs are merged; indices may start below zero."
 },
 "C42": {
  "note": "Number parsing is a parameter. Refuted for negative indices: such lines are filed under the next index."
 },
 "C26": {
  "note": "Composition with the alignment transducer followed by ShortestPath is a parameter assumed to return a least-cost path (C26_search_exists shows such a search exists). Refuted corner: a token spelled <epsilon> gets label 0 and counts as nothing."
 },
 "C27": {
  "note": "As stated (fewest edits) the claim is false: references are compared by edits per token, C27_fewest_edits_refuted; proved with the error rate instead, for non-blank references. Refuted corners: 0/0 (NaN) keeps a matching blank reference from being chosen; pairwise output of a corpus with an example lacking references is shifted and reads out of range."
 },
 "C28": {
  "note": "For well-formed words the result is exactly the list of texts of the maximal runs (empty if there is one run, which the caller takes for unsegmented). Malformed words are not segmented."
 },
 "C29": {
  "note": "Proved: at most k, exactly the k first by score and position within the absolute bound, the best is always kept. Refuted parts of the claim: the result is not ordered by score, the bound is absolute and not relative to the best, and it is not applied to lists no longer than k; k = 0 empties the lattice. Costs are integers."
 },
 "C43": {
  "note": "The trie's Determinize is modelled by its specification: one state per prefix."
 },
 "C44": {
  "note": "Refuted without the hypotheses: a state without arcs is read out of bounds, a circle of backoff arcs never ends. The final ArcSort is not modelled."
 },
 "C45": {
  "note": "Proved for a pool whose workers are started. As coded StartWorkers is never called, and parallel decoding writes nothing (C45_as_coded_refuted). The decoder's own state (its cache) is not seen by the per-line function."
 },
 "C46": {
  "note": "FST operations (push, mix, join, pair LM) are parameters. A word met for the first time is compiled from exactly its own segments in order. Refuted: candidates depend on the limit of the first line that had the word; a word that earlier was a segment has no input symbol and aborts; the word <epsilon> aborts."
 },
 "C47": {
  "note": "Number formatting is a parameter that parsing inverts. Refuted for candidates with empty text."
 },
 "C48": {
  "note": "Refuted: the configured mixing weight is overwritten with the default; Utf8Check accepts malformed text."
 },
 "C49": {
  "note": "SimpleAtoi is a parameter; the order of arcs is not modelled."
 },
 "C50": {
  "note": "Proved if all word tasks have been executed. As coded the pool has no workers and the FST of the first word is read although never written (C50_as_coded_refuted). The composition with the language model in between is not modelled."
 },
 "C17": {
  "note": "Distances, pairs, symmetry, bounds, any and n_a proved for all trees with distinct values and aliases not in use; refuted when a feature has the alias of its list (asymmetric) and for ValueList.distance alone (negative). Distances are integers."
 },
 "C18": {
  "note": "Sets and comparison proved for every reachable profile; the similarity is a fraction of integers. Refuted for emptied sets (far below 0) and for inventories whose aspects have one feature each (division by zero). Python sets are lists."
 },
 "C19": {
  "note": "Refinement to functions from aspects to features for every history of new, update and copy; multi-profiles too. Refuted when an aspect alias is an attribute of profiles, when aspects or inventories share an alias, and for the result of MultiProfile.new_profile."
 },
 "C51": {
  "note": "value_in has a call depth, as Python does; is_in on a value list or aspect runs out at every depth (refuted). range(f, f) is the whole list (refuted)."
 },
 "C37": {
  "note": "Adding any nesting to an IterableThing in an acyclic heap appends exactly the valid items in order (inductive spec takes), with enough recursion depth; well-typedness after any history; indexing; is_equal with Fsts, strings, Things and Nothing (pynini.equal and == are parameters). Refuted: mutually containing containers never end; a Thing with an Fst value is not equal to that Fst."
 },
 "C24": {
  "note": "Every history of add_item/add_suppl/make_suppl/get refines a list of entries; no alias or item twice, nothing overwritten. Hypothesis: aliases that are not method names; without it refuted (an item called 'get' hides the method)."
 },
 "C22": {
  "note": "Any history of operation inventories: indices strictly increasing, above the prefix, no multiples of ten, lookups consistent and kept; from_args gives the n-th admissible index. Refuted: two foreign operations leave no next index (ValueError); a refused operation is returned with an index that the next one gets too; the 91st operation leaves the range of its prefix."
 },
 "C52": {
  "note": "Links of the four variants and the operations printed, for all argument lists. Refuted: the class comment's links of unexpected_voicing."
 },
 "C23": {
  "note": "All histories of Symbol.Inventory and Grapheme.Inventory: lookups by index, text and raw text give the last symbol with that key; aliases find their item and differ (first one wins); parsing keeps length and characters, equal characters iff equal symbols, new symbols numbered (decimal count or hexadecimal code point in the alias), parsing again changes nothing. Features, names and languages of symbols are not modelled. Refuted: typed inventories never take unknown symbols; taken aliases from_unk_1 and u_0x62; index overwritten by an unknown; a combined inventory of another class is ignored."
 },
 "C53": {
  "note": "Phoneme numbering for all lists, and disjointness of ranges by arithmetic. Refuted: 101st phoneme of a language, code points from 1000001, a phoneme added again or to a second inventory has a stale index."
 },
 "C20": {
  "note": "Words of every expression tree; construction laws for all expressions built with the constructors and add methods (aliasing of later changed parts not modelled). Flattening holds as equality of trees. Refuted: recurring lists, precedence, skipped controls, alternations of alignments, concatenation with ANY."
 },
 "C21": {
  "note": "All pairs of expressions. Equivalence is proved when no duplicates occur and refuted otherwise. Further refuted: symbols as prefixes of atomics, eps against the empty concatenation, empty alternations against ANY."
 },
 "C54": {
  "note": "All rules with built sides and contexts. Operations, costs, priorities and aliases are carried as numbers; strings of alignments are not modelled."
 },
 "C25": {
  "note": "Model: a world of FSTs (numbers of states), error nodes and lattices, with the program operations of lattice.py (making FSTs, nodes and lattices, adding states, requesting states), default arguments being shared objects. Proved for every history in which an error node that already has a state is used with one FST only: all requests succeed; a state once given stays, whatever happens in between; among any requests on lattices with one FST, states are equal exactly for equal coordinates or two places out of range with one error node; the order only renames; one new state per new place; populated lattices are numbered by rows. Refuted without the restriction: a second lattice on another FST with the default error node has one state for a place in range and for the error."
 },
 "C38": {
  "note": "Weighted expression of brahmic_to_iso over arbitrary tables; relation as inductive spec; computed outputs equal it when no closure repeats the empty string (checked for the 20 shipped scripts, both directions). optimize and ComposeFsts with nfc are outside."
 },
 "C55": {
  "note": "Functionality and invertibility of the 20 shipped weighted grammars, decided by a verified checker: the grammar is expanded to a finite automaton, untrusted distance tables (IsoDists.v, generated) are checked, and the deterministic machine that results is proved to give exactly the outputs of least cost; a second check proves that one machine inverts the other. Theorems are about the grammar of C38, the checker appears only in proofs. Gurmukhi has two spellings of SHA; the exported grammars include NFC, which makes them equal, as the TODO in iso.py says. Reading Latin first and romanizing again is not the identity (refuted)."
 },
 "C36": {
  "note": "Archive lookup, locating of files and pushdown parentheses are parameters. Loading, verification with the language fallback, rewriting and both normalizers are characterised exactly, including what is left in the output string after a failure; supports() and path construction too."
 },
 "C39": {
  "note": "Values, primitive functions and exceptions are type parameters. Characterises success and failure, the empty pipeline, splitting, nesting and the behaviour with no or several arguments; order matters (refuted commutation)."
 },
 "C56": {
  "note": "Pushdown transducers are a parameter; FSTs are finite weighted relations over byte strings. The refuted statements record that mixed separators, rule-by-rule greedy rewriting, empty cascades and repeated initialisation do not behave as their names suggest."
 },
 "C57": {
  "note": "Models std::shared_ptr control blocks created from raw pointers. Safe when each manager is adopted once; the sharing promised by the comment in grammar.h is refuted with two witnesses."
 },
 "C40": {
  "note": "Symbol strings and cdrewrite with the SKIP contexts; rewriting bytes is shown to be rewriting of symbols when the first symbol of every left side has a name (refuted otherwise). Extraction, assignment, reassignment, merging, printing and reading characterised; whether cdrewrite lets an empty match count is left open (both readings covered). Operations made of whole cdrewrites (reassign_ls, rewrite_repeated_ls) and insert are not modelled."
 },
 "C58": {
  "note": "Iterator modelled field by field with undefined behaviour and divergence as values; weights, their product and equality are parameters."
 },
 "C59": {
  "note": "String compilation, projection, epsilon removal and determinization are parameters; determinization is specified by good_dfa and best outputs. Token type BYTE."
 },
 "C60": {
  "note": "FST operations are parameters; LOG(FATAL) is a value."
 },
 "C61": {
  "note": "Bytes against symbols for lists of operations. cdrewrite of an insertion writes the new symbols once wherever the contexts allow it."
 },
 "C62": {
  "note": "The tables of grapheme_inventory.py are part of the model."
 },
 "C63": {
  "note": "Refuted: Gujarati ai and au have no romanization; Punjabi addak before c has two; psac keeps two of three equal letters. The Hindi acronym grammar is treated in C75. Left out: VOCALIC_TR_I (psaf of Tamil and Malayalam)."
 },
 "C64": {
  "note": "The IPA table holds the phonemes that the grammars can write. Refuted for Gujarati ai and au, which have no transcription (see C63)."
 },
 "C65": {
  "note": "A silent Bengali aspiration mark is allowed for but not shown to occur."
 },
 "C66": {
  "note": "The coarse romanization (psac), which then removes repeated letters, is not covered; see C63."
 },
 "C67": {
  "note": "Covers the Hindi and Tamil parameters, the only deromanizers in the code."
 },
 "C68": {
  "note": "Where two spellings of the same strength overlap (aaa) either reading satisfies the statement. The deromanizer.py documentation of only_geminated is refuted for a single tr."
 },
 "C69": {
  "note": "The texts are compared as code points of their UTF-8 bytes; the romanization grammars are the ones of C38 and C55."
 },
 "C70": {
  "note": "The spec (IsoTextSpec.v) is a deterministic reader over the shipped tables; the model is the weighted romanization grammar of C38/C55. Bengali and Kannada have theorems for texts lacking a few odd infixes, and refutations for all texts. C70_total needs an inherent vowel and no subjoined consonant."
 },
 "C71": {
  "note": "Only token type utf8 and the one shipped table (Malayalam). The string compiler's reading of a lone backslash is assumed as in the model comment. mO is a refuted case: fixed.textproto has no rule for it. Which units may follow which is part of the spec (FixedSpec.v)."
 },
 "C72": {
  "note": "Tables are taken from the source text by gen/genfeatures.py; the documentation pages in the repository serve as oracle. Distances are counted in quarters. Atomics of the inventories are left out."
 },
 "C73": {
  "note": "Same model as C72. latn.o is described as open-like, and latn.r as rhotic, unlike the phonemes of that name; both are stated as exceptions."
 },
 "C74": {
  "note": "Model of speller, _separated and _get_spellout over the generated table of names (gen/genspellout.py). Proved: one spelling, none for other input, injectivity up to letters of the same name (test of Sardinas and Patterson with a dropped separator, checked for all 143 pairs of language and script), target script. The closure of the characters and cdrewrite at the end of the string are modelled; optimize() is taken to keep the relation. A pair of language and script without names spells letters as themselves, as getattr's default does."
 },
 "C75": {
  "note": "hi.iso_to_nat with the acronym rule: the cross product of a letter language with a string is taken as the rules whose first string is a part of the text (only these can apply). C75_spelled joins the spellout grammar (C74), the ISO grammar (C55, C70) and this one."
 },
 "C76": {
  "note": "TesterModel.v builds on the archive and cascade model of C56. Symbol tables carried by FSTs are left out; the UTF-8 and symbol compilers, pushdown composition, the n-best search (with a specification shown to be satisfiable) and the printing of costs are parameters."
 },
 "C77": {
  "note": "SymtabModel.v includes a model of fst::SymbolTable (AddSymbol, Find) and of LabelsToUTF8String. One thread only (the mutex is left out)."
 },
 "C78": {
  "note": "Exact fractions for doubles; weights exp(-cost) are given; pyemd.emd_with_flow is a parameter, assumed to return a flow of least cost for the line at hand (hypothesis best_flow; satisfied by a certificate in the examples). Decimal digits of numbers are not modelled."
 },
 "C79": {
  "note": "Models phonology/features/language.py on top of the feature model. pycountry.languages is a parameter (any list); pycountry's get is modelled as the first entry whose code agrees without case. The markdown/visual output is not modelled."
 },
 "C80": {
  "note": "Models nisaba/port/file_util.cc, file.cc and proto_file_stream.cc, with CopyingOutputStreamAdaptor of protobuf as its buffer, position and failure flag. The operating system is a parameter: what may be written, how much fits, how many bytes a call reads or takes. Error texts, logs, runfiles and directories are not modelled; a client of the stream writes byte by byte through Next and BackUp. JoinPath is in C36."
 },
 "C81": {
  "note": "Full for the model. The meaning of Pynini's operations is taken from their documentation, as relations on strings."
 },
 "C82": {
  "note": "Full for the model. inspect.stack is a parameter; messages are collected in a list."
 },
 "C83": {
  "note": "Full for the model. A machine is given by the paths listed for each input; randgen is any list of samples. Three refuted statements show where documentation and behaviour differ."
 },
 "C84": {
  "note": "Full for the model. The rule cascade is assumed to have the properties stated in TextprotoSpec.cascade_of; the message helper is refuted for unsorted lists."
 },
 "C85": {
  "note": "Full for the model and the shipped tables; the refuted statements list a witness per script. The table of marks is generated from Python's unicodedata."
 },
 "C86": {
  "note": "Full for the model and the shipped tables, except that Malayalam is refuted with witnesses."
 },
 "C87": {
  "note": "Full for the model; the flag for the language model and two usage texts are refuted."
 },
 "C88": {
  "note": "Full for the model and the shipped registry; items without a target and the promise of three-letter codes are refuted."
 },
 "C89": {
  "note": "Full for the model; unknown directories (C++) and unknown files (Python) are refuted."
 },
 "C90": {
  "note": "Full for the model."
 },
 "C91": {
  "note": "Full for the model; lists with a tag that begins another, languages with two scripts and the use of all built languages are refuted."
 },
 "C92": {
  "note": "Full for the model; normalizing again as once, in two languages, and normalizing phrases word by word are refuted."
 },
 "C93": {
  "note": "Full for the model; imported features in composites, the documented transliteration of derived phons, the table's rows on duration, features and IPA telling all phons apart, and reading with the combiner as a phon are refuted."
 },
 "C94": {
  "note": "Full for the model, on symbols; uniqueness of base transliteration and idempotence of deleting repeated substrings are refuted; symbols for pitch are outside the alphabet of the rules."
 }
}