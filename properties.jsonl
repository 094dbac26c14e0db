{"id": "C01", "title": "Unordered rewrite rules are split into correctly ordered layers", "statement": "Partitioning an unordered rule list returns layers that together contain every distinct rule exactly once; inside a layer no left-hand side contains another one; whenever the left-hand side of rule A is contained in that of a different rule B, B sits in a strictly earlier layer than A. The call raises ValueError exactly when two different rules have the same left-hand side.", "quantifier": "every finite list of rules over every alphabet (duplicates allowed)", "why_tests_cant": "rule sets are unbounded; tests use a handful of hand-written lists", "anchors": ["nisaba/scripts/utils/rule.py: partition_unordered, _match_lhs_in_lhs"]}
{"id": "C02", "title": "Rule-file rewriting is total and functional", "statement": "For every rule set accepted by the partitioning, the rewriter built from it maps every string over the alphabet to exactly one output string, and that output is the result of one leftmost scan per layer, in layer order.", "quantifier": "every rule set with non-empty, pairwise distinct left-hand sides and every input string over sigma", "why_tests_cant": "the repository only samples five random strings per FST (AssertFstProbablyFunctional)", "anchors": ["nisaba/scripts/utils/rule.py: fst_from_rules", "nisaba/scripts/utils/rewrite.py: Rewrite, RewriteAndComposeFsts", "nisaba/scripts/utils/test_util.py: AssertFstProbablyFunctional"]}
{"id": "C03", "title": "Obligatory rewriting: nothing to do means identity, and no left-hand side survives untouched", "statement": "If no left-hand side occurs in the input the output equals the input. Within one layer, every occurrence of a left-hand side in the input overlaps a rewritten span, rewritten spans do not overlap, and the text outside of rewritten spans is copied unchanged.", "quantifier": "every layer (antichain of left-hand sides) and every input string", "why_tests_cant": "needs all strings and all rule sets", "anchors": ["nisaba/scripts/utils/rewrite.py: Rewrite", "nisaba/scripts/utils/rule.py: fst_from_rules"]}
{"id": "C04", "title": "Rule sets whose right-hand sides cannot form a left-hand side are idempotent", "statement": "If no left-hand side can arise from a right-hand side together with neighbouring text, applying the rewriter twice equals applying it once. This holds for the shipped NFC rule tables of the supported scripts wherever the finite criterion holds on the table.", "quantifier": "every rule set meeting the finite criterion and every input string; the shipped NFC tables", "why_tests_cant": "idempotence quantifies over all strings; comments in test_util.py note that it fails for some normalizers", "anchors": ["nisaba/scripts/brahmic/nfc.py: generator_main", "nisaba/scripts/abjad_alphabet/nfc.py: generator_main", "nisaba/scripts/brahmic/data/*/nfc.textproto"]}
{"id": "C05", "title": "The composition-order heuristic does not change the result", "statement": "Composing a list of transducers with the state-count heuristic denotes the same relation as composing them left to right, whatever the state counts are. The empty list yields the default and a singleton yields its element.", "quantifier": "every list of relations and every assignment of state counts to intermediate results", "why_tests_cant": "state counts depend on optimisation internals; the set of orders is exponential", "anchors": ["nisaba/scripts/utils/rewrite.py: ComposeFsts, RewriteAndComposeFsts"]}
{"id": "C06", "title": "Cascading rules apply one after the other to the whole text", "statement": "A cascading rule list denotes the left-to-right sequence of whole-text replacements; an empty list is the identity on sigma*; splitting a rule list in two and applying the halves in order gives the same result.", "quantifier": "every list of rules and every input string", "why_tests_cant": "unbounded rule lists and strings", "anchors": ["nisaba/scripts/utils/rule.py: _fst_from_cascading_rules", "nisaba/scripts/brahmic/fixed.py"]}
{"id": "C07", "title": "Byte-mode and UTF-8-mode grammars agree", "statement": "Rewriting the UTF-8 encoding of a text with the UTF-8 encodings of the rules gives exactly the UTF-8 encoding of the code-point level result; no rule ever fires across a code-point boundary.", "quantifier": "every rule set with valid code points and every valid text", "why_tests_cant": "the set of texts is infinite; tests compare a few TSV lines per token type", "anchors": ["nisaba/scripts/brahmic/nfc.py: generator_main", "nisaba/scripts/brahmic/util.py: OpenSigma", "nisaba/scripts/utils/rewrite.py: Rewrite"]}
{"id": "C08", "title": "Mark de-duplication leaves no doubled mark and does not depend on set order", "statement": "After de-duplication no listed mark is immediately followed by itself; all other text is kept; applying it again changes nothing; the result is the same for every iteration order of the set of marks, and equals collapsing every maximal run of a listed mark to one.", "quantifier": "every set of marks, every order in which it is iterated, every input string", "why_tests_cant": "Python string-set iteration order varies from run to run, so a test sees one order", "anchors": ["nisaba/scripts/brahmic/char_util.py: _dedup_chars, mark_chars, dedup_marks_fst"]}
{"id": "C09", "title": "Visual normalization removes joiners except preserved ones between consonants", "statement": "After the mark/clean/reinstate steps, each surviving ZWNJ, ZWJ or ZWS lies inside an occurrence of a preserve sequence; text without joiners is left unchanged by these steps; preserve sequences between consonants survive; no internal symbol leaks.", "quantifier": "every preserve table, consonant set and input string over the alphabet", "why_tests_cant": "all strings and all placements of joiners", "anchors": ["nisaba/scripts/brahmic/visual_norm.py: core_visual_norm_fsts"]}
{"id": "C10", "title": "Well-formedness acceptor recognises exactly sequences of aksharas, standalones and exceptions", "statement": "The acceptor accepts exactly finite sequences of units (clusters with optional vowel sign, independent vowels, with optional length sign, coda and dead consonant; clusters ended by virama; standalones; listed exceptions). It accepts the empty string, is closed under concatenation, is monotone in the tables, and rejects non-empty text that cannot start a unit, e.g. a leading vowel sign, whenever the class tables are disjoint. With no_inherent_vowel set, a cluster without vowel sign or virama is rejected.", "quantifier": "every assignment of string tables to classes and every input string", "why_tests_cant": "tests check listed words only", "anchors": ["nisaba/scripts/brahmic/wellformed.py: accept_well_formed", "nisaba/scripts/utils/file.py: OnEmpty, QuesSafe, StarSafe"]}
{"id": "C11", "title": "Text-level normalization keeps ignored characters in place and is wordwise", "statement": "Normalizing a line leaves every ignored character (whitespace by default) unchanged and in order, replaces each maximal run of other characters by its word-level result, and raises if and only if some run is rejected. A line of only ignored characters, or the empty line, is returned unchanged.", "quantifier": "every word-level function (including raising ones), every ignore set, every line", "why_tests_cant": "all lines and all ignore sets", "anchors": ["nisaba/scripts/brahmic/__init__.py: NormalizingAcceptor.ApplyOnText", "nisaba/scripts/abjad_alphabet/__init__.py: Normalizer.ApplyOnText"]}
{"id": "C12", "title": "Text passed to ApplyOnText is taken literally", "statement": "Escaping a text and compiling it in the string-compiler bracket syntax yields exactly the characters of the text, for every text. AcceptText, which does not escape, does not have this property.", "quantifier": "every text, including brackets and backslashes", "why_tests_cant": "all strings over the full alphabet", "anchors": ["nisaba/scripts/utils/far.py: FstWrapper.ApplyOnText, FstWrapper.AcceptText"]}
{"id": "C13", "title": "Reversible romanization is reversible", "statement": "For every string over the native side of the shipped reversible romanization table, romanizing and de-romanizing returns the NFC form of the string; romanization is injective on native strings in the table alphabet and every Roman string has at most one native reading.", "quantifier": "all strings over the table alphabet (unbounded length) with the shipped table", "why_tests_cant": "unique decodability is a statement about all concatenations; tests sample", "anchors": ["nisaba/scripts/abjad_alphabet/reversible_roman.py: generator_main", "nisaba/scripts/abjad_alphabet/data/Arab/reversible_roman.textproto"]}
{"id": "C14", "title": "Unicode-name resolution is unambiguous and independent of prefix order", "statement": "A name resolves exactly when precisely one prefixed spelling (including the bare one) names a non-control character, and then to that character; the outcome is the same for every order of the prefix list.", "quantifier": "every name database, prefix list and suffix", "why_tests_cant": "the prefix list goes through list(set(..)), whose order varies between runs", "anchors": ["nisaba/scripts/utils/unicode_strings_util.py: name_to_char, convert_item"]}
{"id": "C15", "title": "Converting a data item never silently disagrees with its spelled-out names", "statement": "When an item gives both raw text and names, conversion succeeds only if both denote the same string and then returns it; with only one of them it returns that one; with neither it raises. The destination is absent exactly when the item has no mapping fields.", "quantifier": "every item, prefix lists and name database", "why_tests_cant": "all combinations of optional fields and lookup outcomes", "anchors": ["nisaba/scripts/utils/unicode_strings_util.py: proto_entries_to_string, convert_item"]}
{"id": "C16", "title": "TSV files written from protos read back as the same rules", "statement": "Writing items as TSV and reading the file back as rules yields the same (source, destination) pairs, for items free of the reader's special characters; the alphabet derived from the file contains exactly the characters of these fields.", "quantifier": "every list of items whose strings avoid tab, newline, quote, backslash and '#'", "why_tests_cant": "all strings, including leading '#' and surrounding blanks", "anchors": ["nisaba/scripts/utils/unicode_strings_to_tsv.py: _convert_data_proto_to_file", "nisaba/scripts/utils/rule.py: rules_from_string_path", "nisaba/scripts/utils/char.py: _read_string_file_chars_to_set"]}
{"id": "C17", "title": "Feature distances are symmetric, bounded and zero on the diagonal", "statement": "Within an aspect, after populate(), the distance between two values is symmetric, zero from a value to itself and to 'any', never more than the maximum distance, and equal to the maximum for 'not applicable' against an applicable value.", "quantifier": "every aspect definition (linear, cyclic or flat lists, nested to any depth) and every pair of its values", "why_tests_cant": "aspect definitions are user data of any shape", "anchors": ["nisaba/scripts/natural_translit/utils/feature.py: Feature.ValueList, Feature.Aspect.populate, distance"]}
{"id": "C18", "title": "Set distance and profile comparison", "statement": "The distance of two feature sets is the minimum over pairs, is symmetric and non-negative; profile comparison adds per-aspect distances, is symmetric, and its similarity lies between 0 and 1 and is 1 when both profiles are equal.", "quantifier": "every pair of feature sets and profiles over every feature inventory", "why_tests_cant": "all sets of values", "anchors": ["nisaba/scripts/natural_translit/utils/feature.py: Feature.Set, Feature.Profile.compare"]}
{"id": "C19", "title": "Profiles keep one value set per aspect under any sequence of updates", "statement": "Whatever sequence of new/update/copy calls is made, a profile has exactly one value set per aspect of its inventory, an update changes only the aspects it names, and a copy is independent of its source.", "quantifier": "every inventory and every finite history of operations", "why_tests_cant": "histories are unbounded", "anchors": ["nisaba/scripts/natural_translit/utils/feature.py: Feature.Profile, Feature.MultiProfile"]}
{"id": "C20", "title": "Expression languages: concatenation and alternation", "statement": "The symbol sequences of a concatenation are exactly the concatenations of choices of sequences of its parts, with the empty expression as unit; those of an alternation are the union; nested concatenations flatten without changing the language.", "quantifier": "every expression tree of any depth and width", "why_tests_cant": "trees are unbounded", "anchors": ["nisaba/scripts/natural_translit/utils/expression.py: Cat, Or, Expression.symbols"]}
{"id": "C21", "title": "Containment and matching of expressions", "statement": "Head, tail and free containment of symbol sequences mean prefix, suffix and infix; the empty sequence is always contained; equivalence tests agree with equality of languages when no duplicates occur, and can disagree otherwise.", "quantifier": "every pair of expressions", "why_tests_cant": "all pairs of languages", "anchors": ["nisaba/scripts/natural_translit/utils/expression.py: contains, accepts, matches, is_equivalent", "nisaba/scripts/natural_translit/utils/symbol.py: Symbol.descriptions, contains_symbol_list"]}
{"id": "C22", "title": "Operation indices are unique and never collide with reserved multiples of ten", "statement": "After any sequence of additions to an operation inventory with a prefix divisible by ten, indices are strictly increasing, pairwise different, never a multiple of ten, and looking an index up returns the operation that was given that index.", "quantifier": "every history of additions", "why_tests_cant": "unbounded histories", "anchors": ["nisaba/scripts/natural_translit/utils/operation.py: Operation.Inventory"]}
{"id": "C23", "title": "Symbol inventory lookups are consistent with what was added", "statement": "After any sequence of additions, looking up an index, text, raw text or alias yields the last symbol added under that key; turning a string into symbols keeps the raw characters and the length, and unknown characters get fresh distinct symbols.", "quantifier": "every history of additions and every lookup string", "why_tests_cant": "unbounded histories", "anchors": ["nisaba/scripts/natural_translit/utils/symbol.py: Symbol.Inventory"]}
{"id": "C24", "title": "Attribute inventories: first alias wins and nothing is overwritten", "statement": "Adding an item under an alias already in use leaves the inventory unchanged and is reported; otherwise exactly one attribute and one list entry is added. Item list and alias list stay in step for every history.", "quantifier": "every history of additions", "why_tests_cant": "unbounded histories", "anchors": ["nisaba/scripts/natural_translit/utils/inventory.py: Inventory"]}
{"id": "C25", "title": "Alignment lattice states are one-to-one with coordinates", "statement": "Requesting a state twice gives the same state; different in-range coordinates have different states, none being the error state; out-of-range coordinates give the error state; the result does not depend on the order of requests beyond renaming.", "quantifier": "every pair of expression lengths and every sequence of requests", "why_tests_cant": "unbounded request sequences", "anchors": ["nisaba/scripts/natural_translit/utils/lattice.py: Lattice"]}
{"id": "C26", "title": "Error-rate edit counts are a minimum alignment", "statement": "The reported number of edits between a reference and a hypothesis equals the Levenshtein distance; insertions, deletions and substitutions are consistent with the lengths (ref - del + ins = hyp); it is zero exactly for equal sequences, symmetric in value, and satisfies the triangle inequality.", "quantifier": "every pair/triple of token sequences of any length", "why_tests_cant": "all sequences", "anchors": ["nisaba/translit/tools/calculate_error_rate.cc: MultiRefErrorRate, CalcErrorRate alignment"]}
{"id": "C27", "title": "Multi-reference scoring keeps the best reference and totals add up", "statement": "For several references the reported errors are those of a reference with the fewest edits (the first one among ties), and corpus totals are the sums of the per-item values.", "quantifier": "every list of references and every corpus", "why_tests_cant": "all corpora", "anchors": ["nisaba/translit/tools/calculate_error_rate.cc"]}
{"id": "C28", "title": "Segmentation by coverage loses no characters", "statement": "Splitting a word into maximal runs of covered and uncovered characters gives non-empty runs which alternate in coverage and concatenate to the word.", "quantifier": "every word and every coverage set", "why_tests_cant": "all words", "anchors": ["nisaba/translit/fst/pairlm_decoder.cc: SegmentCoveredChars"]}
{"id": "C29", "title": "Candidate pruning keeps the best candidate and honours the limits", "statement": "Pruning a scored candidate list keeps at most the requested number, always keeps a best candidate if there is any, keeps only candidates within the threshold of the best, and returns them ordered by score.", "quantifier": "every list of scored candidates and every limit/threshold", "why_tests_cant": "all lists", "anchors": ["nisaba/translit/fst/pairlm_decoder.cc: ApplyArcScoreThresh"]}
{"id": "C30", "title": "Wordpiece segmentation loses no text and terminates in a fixed point", "statement": "The pieces of every word concatenate to the prefixed word, every piece is either a vocabulary item or a single character, the internal error is unreachable, no table access is out of range, the merge loop terminates, and at the end no adjacent pair of pieces forms a vocabulary item.", "quantifier": "every vocabulary and every word", "why_tests_cant": "all vocabularies and words", "anchors": ["nisaba/translit/fst/wordpiece-segmenter.cc: CalculateBestWordpieceLengths, ExtractWordpieceCands, GetWordpieceTokenization"]}
{"id": "C31", "title": "UTF-8 splitting, decoding and encoding are mutually consistent", "statement": "Encoding then decoding any valid code point returns it together with its encoded length; splitting a valid string gives one string per code point, and these concatenate to the input; invalid input gives an empty split and the replacement code point; encodings of different code points are different and none is a proper prefix of another.", "quantifier": "every code point and every byte string", "why_tests_cant": "1.1 million code points and all byte strings", "anchors": ["nisaba/port/utf8_util.cc: StrSplitByChar, DecodeUnicodeChar, DecodeSingleUnicodeChar, EncodeUnicodeChar"]}
{"id": "C32", "title": "Whitespace splitting", "statement": "Splitting text on Unicode whitespace yields tokens free of whitespace which, read in order, are exactly the maximal whitespace-free stretches of the text.", "quantifier": "every valid text", "why_tests_cant": "all texts", "anchors": ["nisaba/port/utf8_delimiters.cc: Utf8Delimiter::Find", "nisaba/port/unicode_properties.cc"]}
{"id": "C33", "title": "Thread pool runs every scheduled task exactly once before destruction completes", "statement": "With at least one worker, under every interleaving, each task scheduled before destruction begins is executed exactly once, in FIFO dequeue order, before the destructor returns, and the pool never deadlocks.", "quantifier": "every number of workers, every task list, every interleaving", "why_tests_cant": "schedules cannot be enumerated by tests", "anchors": ["nisaba/port/thread_pool.h: ThreadPool"]}
{"id": "C34", "title": "Most-frequent word count", "statement": "The value chosen from a non-empty list of word counts occurs at least as often as any other value and is the largest such value; pruning keeps exactly the hypotheses with that word count, in order.", "quantifier": "every non-empty list of non-negative counts", "why_tests_cant": "all lists", "anchors": ["nisaba/translit/tools/kbest-full-string-util.cc: MostFreqValue, EnsembleFullString::PruneByInputLength"]}
{"id": "C35", "title": "Rejoining split k-best lists covers all segments in order", "statement": "The rejoiner groups consecutive lines into one list per output index, in order, without dropping or duplicating candidates; the automatic k is the largest list size of any group.", "quantifier": "every valid pair of candidate lines and split indices", "why_tests_cant": "all files", "anchors": ["nisaba/translit/tools/kbest-full-string-util.cc: KbestRejoiner::InitializeKbestRejoiner, RejoinList"]}
{"id": "C36", "title": "Grammar loading with language fallback; normalization rejects ill-formed text", "statement": "Verification succeeds exactly when the requested FST name, or the script of a known language code, is in the archive, and it leaves a name that is in the archive; rewriting succeeds exactly when normalization succeeds and its result is well-formed, and then returns the normalized text.", "quantifier": "every archive content, name and input", "why_tests_cant": "all archives and inputs", "anchors": ["nisaba/scripts/brahmic/grammar.cc: Grammar::VerifyLoad, Normalizer::Rewrite, ReadingNorm::Rewrite"]}
{"id": "C37", "title": "Iterable containers flatten and index consistently", "statement": "Adding any nesting of iterables stores exactly the valid leaves in order; indexing with negative indices counts from the end and out-of-range indices yield the missing value; the missing value is never equal to anything.", "quantifier": "every nesting of items and every index", "why_tests_cant": "trees are unbounded", "anchors": ["nisaba/scripts/natural_translit/utils/type_op.py: IterableThing, is_equal, is_instance"]}
{"id": "C38", "title": "ISO romanization star grammar", "statement": "Romanizing concatenated texts can always be done piecewise: the relation is closed under concatenation, maps empty to empty, de-romanization is its exact inverse, and best-path cost is sub-additive under concatenation.", "quantifier": "every assignment of tables and every string", "why_tests_cant": "all strings", "anchors": ["nisaba/scripts/brahmic/iso.py: brahmic_to_iso"]}
{"id": "C39", "title": "Function pipelines compose left to right", "statement": "Applying a composed pipeline to a value equals applying its functions one after another; the empty pipeline is the identity; splitting a pipeline anywhere changes nothing.", "quantifier": "every list of functions and every value", "why_tests_cant": "unbounded pipelines", "anchors": ["nisaba/scripts/utils/func.py: ComposeFn1"]}
{"id": "C40", "title": "Alignment strings of the natural transliteration grammar", "statement": "Aligning, assigning and stripping are inverse: extracting the right side of an aligned string removes exactly the left sides and alignment marks and keeps the order of the right sides.", "quantifier": "every sequence of enclosed symbols", "why_tests_cant": "all sequences", "anchors": ["nisaba/scripts/natural_translit/utils/alignment.py", "nisaba/scripts/natural_translit/utils/rewrite_functions.py", "nisaba/scripts/natural_translit/utils/concat.py"]}
{"id": "C41", "title": "NFC grammars never leave the canonical equivalence class of the text", "statement": "For every text, the output of a shipped NFC grammar (each Brahmic script, the pan-Brahmic one, Arabic) is canonically equivalent, in the sense of Unicode, to its input.", "quantifier": "all texts over any alphabet containing the rule outputs, for each of the 22 shipped NFC rule tables", "why_tests_cant": "A test checks the listed pairs; rewriting in context, overlapping matches and rule layering act on arbitrary texts.", "anchors": ["nisaba/scripts/brahmic/nfc.py:generator_main", "nisaba/scripts/abjad_alphabet/nfc.py:generator_main", "nisaba/scripts/brahmic/data/*/nfc.textproto", "nisaba/scripts/abjad_alphabet/data/Arab/nfc.textproto", "nisaba/scripts/utils/rule.py:fst_from_rules"]}
{"id": "C42", "title": "The k-best extractor files every line under its example and position", "statement": "For lines whose example indices are not negative, the extractor accepts exactly the files in which positions count up from 0 in every example; then each run of lines with the same index and position becomes one candidate list at that place, in order, nothing lost or added, with the input word of the first line of the run.", "quantifier": "every list of lines with five fields", "why_tests_cant": "all files", "anchors": ["nisaba/translit/tools/kbest-full-string-util.cc: KbestExtractor::InitializeKbestExtractor"]}
{"id": "C43", "title": "Word pieces are the greedy segmentation of the candidate", "statement": "Parsing a candidate into word pieces yields the unique left-to-right longest-match segmentation over the symbol table, where pieces after the first carry the internal prefix and characters without a match are one unknown piece each; the labels are those of the pieces, the unknown cost is charged once per unknown piece, and the path of a word reads back as the word.", "quantifier": "every symbol table with distinct symbols, every prefix and every well-formed word", "why_tests_cant": "all words and all vocabularies", "anchors": ["nisaba/translit/fst/pairlm_decoder.cc: ParseCandWordPiece", "nisaba/translit/fst/pairlm_decoder.cc: GetMatchedTokens", "nisaba/translit/fst/pairlm_decoder.cc: InitializeWordPieceTrie", "nisaba/translit/fst/pairlm_decoder.cc: WordToFst", "nisaba/translit/fst/pairlm_decoder.cc: GetTextString"]}
{"id": "C44", "title": "Backoff costs are propagated along backoff arcs", "statement": "Preparing a language model for phi matching gives each state other than the start without a final cost the sum of backoff costs to the first final state on its backoff path (or none), keeps all other costs, and relabels exactly the leading backoff arcs.", "quantifier": "every backoff model without backoff circles in which each state has an arc", "why_tests_cant": "all models", "anchors": ["nisaba/translit/fst/pairlm_decoder.cc: MakePhiMatcherLM", "nisaba/translit/fst/pairlm_decoder.cc: GetStateFinalCost", "nisaba/translit/fst/pairlm_decoder.cc: GetBackoff"]}
{"id": "C45", "title": "Parallel decoding writes what sequential decoding writes", "statement": "For every list of lines, number of workers and interleaving of threads, the text written by parallel decoding equals that of sequential decoding.", "quantifier": "all lines, numbers of workers and schedules", "why_tests_cant": "schedules cannot be enumerated", "anchors": ["nisaba/translit/fst/pairlm_decoder_runner.cc: SequentialDecoding", "nisaba/translit/fst/pairlm_decoder_runner.cc: ParallelDecoding"]}
{"id": "C46", "title": "Caching words is sound", "statement": "A word repeated within a line gets the same candidates; without add_to_cache lines do not influence each other; overriding external candidates are returned as they are; the override set stays within the global cache; every word of a line gets an input symbol.", "quantifier": "all decoders, words, caches and contexts", "why_tests_cant": "cache contents depend on all words seen before", "anchors": ["nisaba/translit/fst/pairlm_decoder.cc: TransliterateWord", "nisaba/translit/fst/pairlm_decoder.cc: TransliterateSegmentedWord", "nisaba/translit/fst/pairlm_decoder.cc: TransliterateUnsegmentedWord"]}
{"id": "C47", "title": "Printed lattices are read back by the k-best extractor", "statement": "The concatenated output for a list of lattices is accepted by the k-best extractor, which recovers for each line and position the input word and the candidates with their costs.", "quantifier": "all lists of lattices whose words and candidates are non-empty and free of tabs and line ends", "why_tests_cant": "all lattices", "anchors": ["nisaba/translit/fst/pairlm_decoder.cc: PrintTransliterations", "nisaba/translit/tools/kbest-full-string-util.cc: KbestExtractor::InitializeKbestExtractor"]}
{"id": "C48", "title": "Configuration options are honoured", "statement": "Every option of the decoder is the configured value or its default, and the external candidates hold for each pair of words the cost of the last line for it.", "quantifier": "all configurations and candidate files", "why_tests_cant": "all combinations of options", "anchors": ["nisaba/translit/fst/pairlm_decoder.cc: InitializePairLMDecoder", "nisaba/translit/fst/pairlm_decoder.cc: InitializeExternalTransliterations", "nisaba/translit/fst/pairlm_decoder.cc: Utf8Check"]}
{"id": "C49", "title": "Pair symbols are translated to their two sides", "statement": "The transducers built from the symbol table relate a sequence of pair labels to exactly the text of its first, respectively second, components without zeros; other symbols are left out.", "quantifier": "all symbol tables and all sequences of labels", "why_tests_cant": "all sequences", "anchors": ["nisaba/translit/fst/pairlm_decoder.cc: BuildUnicodeToPairTransducer"]}
{"id": "C50", "title": "The lattice of a line has every candidate of every word in place", "statement": "Position n of the lattice of a line has exactly the candidates of word n; with a language model each arc has its own label leading back to the candidate, and assigning labels and costs restores input word, candidate and cost of the arcs that remain after pruning.", "quantifier": "all lines, results of words and symbol tables", "why_tests_cant": "all lattices", "anchors": ["nisaba/translit/fst/pairlm_decoder.cc: BuildTransliterationFst", "nisaba/translit/fst/pairlm_decoder.cc: AssignLabelsAndCostsToTranslitLattice"]}
{"id": "C51", "title": "Containment and ranges of feature values", "statement": "A value list is in a set exactly when one of its features (at any depth) is; a value is in a profile when it is in one of its sets; the range between two items of a list has the features of the items passed going from one to the other, around the end if needed, and is empty for values not both directly in the list; the sets of an aspect have exactly the features given, or those not given. Asking whether a value is in a value list or aspect should be answered.", "quantifier": "all trees of values, sets, profiles and pairs of items", "why_tests_cant": "trees of any depth, all pairs of items, non-termination", "anchors": ["nisaba/scripts/natural_translit/utils/feature.py: value_in, Feature.is_in, Feature.Set.has_feature, Feature.ValueList.range, Feature.Aspect._make_set"]}
{"id": "C52", "title": "Variants of operations are linked to each other", "statement": "Making operations from arguments gives four operations each, whose match, partial and unexpected links lead to the variants described in the class comment; printing the inventory shows exactly the operations given.", "quantifier": "every list of arguments with distinct usable aliases", "why_tests_cant": "unbounded lists of arguments", "anchors": ["nisaba/scripts/natural_translit/utils/operation.py: Operation.Inventory.from_args, Operation.Inventory.__str__, Operation"]}
{"id": "C53", "title": "Index ranges of symbols do not overlap", "statement": "Phonemes of a language inventory are numbered in order after the prefix of the language and found by their index; indices of control symbols, graphemes and phonemes of different languages are different.", "quantifier": "every list of phonemes, every language, every code point", "why_tests_cant": "all languages and code points, unbounded lists", "anchors": ["nisaba/scripts/natural_translit/phonology/phonological_symbol.py: Phon.Inventory._add_phoneme, LANG_PREFIX_MULTIPLIER", "nisaba/scripts/natural_translit/script/grapheme.py: Grapheme.from_char", "nisaba/scripts/natural_translit/utils/symbol.py: Symbol.ReservedIndex"]}
{"id": "C54", "title": "Alignment rules: construction, copies and contexts", "statement": "Rules have the sides and contexts they were made with; a copy is the same rule; deletions and insertions have an empty side; interchangeable rules mirror each other; a rule applies where its left context is a suffix of what precedes and its right context a prefix of what follows.", "quantifier": "every pair of expressions and every context", "why_tests_cant": "all expressions", "anchors": ["nisaba/scripts/natural_translit/utils/expression.py: Alignment.rule, deletion, insertion, interchangeable, copy, context_matches"]}
{"id": "C55", "title": "The shipped ISO romanizations can be read back", "statement": "Each native text has at most one romanization of least cost. Reading that romanization back gives the NFC form of the text and nothing else, so two texts with the same romanization have the same NFC form. Apart from Gurmukhi this holds even without NFC.", "quantifier": "every text of each of the 20 shipped Brahmic scripts", "why_tests_cant": "texts are unbounded, and the weighted grammar has infinitely many alternative parses", "anchors": ["nisaba/scripts/brahmic/iso.py: brahmic_to_iso, _script_fsts", "nisaba/scripts/brahmic/data: consonant.tsv, vowel.tsv, vowel_sign.tsv, coda.tsv, standalone.tsv, virama.tsv, nfc.tsv"]}
{"id": "C56", "title": "Archive managers and rule cascades", "statement": "A loaded archive maps each key to the last FST stored under it. A rule name splits at its separators into rule, parentheses and assignments. A cascade yields exactly the strings of least total weight that go through all its rules in order, and a split cascade is the composition of its parts. Rewriting rule by rule, taking the best result each time, is not the same; an empty cascade is not the identity; separators cannot be mixed; initialising again does not forget the earlier rules.", "quantifier": "every archive, rule list and input", "why_tests_cant": "unbounded archives, cascades and inputs", "anchors": ["nisaba/interim/grm2/thrax/abstract-grm-manager.h: LoadArchive, RuleTriple, RuleCascade", "nisaba/interim/grm2/thrax/grm-manager.h: LoadArchive"]}
{"id": "C57", "title": "Ownership of archive managers", "statement": "If each manager is given to at most one grammar (and from then on shared by copying), it is deleted exactly once, after the last grammar using it. Giving one manager to two grammars, as the comment on the constructor allows, deletes it twice and leaves a dangling pointer.", "quantifier": "every sequence of constructions, copies and destructions", "why_tests_cant": "all lifetimes; double deletion is undefined behaviour a test may not notice", "anchors": ["nisaba/scripts/brahmic/grammar.h: Grammar constructors, grm_mgr_"]}
{"id": "C58", "title": "The path iterator shows every path once", "statement": "For an acyclic automaton the iterator never reads from an empty vector, stops, and shows each path exactly once in lexicographic order with its labels and weight: the accepted paths and those stuck in a non-final state without arcs. For a connected automaton these are the accepted paths. After the last path Reset starts again; before that it does not. A cyclic automaton is an error if checked; unchecked, the constructor may never return.", "quantifier": "every automaton, every weight type", "why_tests_cant": "all automata; the stack discipline (when labels are popped) matters only for particular shapes of final and non-final states", "anchors": ["nisaba/interim/grm2/paths/paths.h: PathIterator::Next, Reset, VisitArc, MaybePopLabels, Weight"]}
{"id": "C59", "title": "Reading rewrites out of lattices", "statement": "The functions that read a lattice return all its outputs in order, once each if it is deterministic; the overload for repeated fields fails on an empty lattice, the others do not. OneTopRewrite to a string succeeds exactly if there is a single best output. OneTopRewrite to an acceptor does so only if no output is a prefix of another; otherwise a tie can go unnoticed. Debug strings are the output strings if there are no generated symbols and no epsilons.", "quantifier": "every lattice, cascade and input, for every determinization that meets its specification", "why_tests_cant": "all lattices; ties between an output and its own prefix are easily missed", "anchors": ["nisaba/interim/grm2/rewrite/rewrite.h: LatticeToOneTopString, LatticeToLabels, LatticeToStrings, OneTopRewrite", "nisaba/interim/grm2/rewrite/base_rule_cascade.h: OneTopRewrite, TopRewrites, LabelsToDebugString"]}
{"id": "C60", "title": "Rewrite manager, rule set-up and pushdown rules", "statement": "Parentheses are the full label pairs of the arcs in order, equal labels abort; each gets its last assignment, a missing one aborts. Reuse of a label is not noticed. Loading replaces everything, the last entry of a key counts, the symbol table is not a rule. SetRules replaces the rules and accepts exactly non-empty lists of known names; a cascade is the composition of its parts. Refused rules may still rewrite.", "quantifier": "every archive, rule list and FST", "why_tests_cant": "all archives and label assignments; the reuse check never fires", "anchors": ["nisaba/interim/grm2/rewrite/parentheses.h", "nisaba/interim/grm2/rewrite/rewrite_manager.h", "nisaba/interim/grm2/rewrite/rule_cascade.h"]}
{"id": "C61", "title": "Operations of the transliteration grammars act on symbols", "statement": "Running a pronunciation or romanization grammar on a symbol string, byte by byte as pynini does, gives exactly the results of its rewrite, insertion and mapping operations on whole symbols, each applied from left to right with contexts seen past one side of an alignment. This needs that rules name symbols, that nothing empty is rewritten and that insertions come before transliterations; the grammars of all nine languages and three schemes satisfy it.", "quantifier": "every list of well-formed operations, every symbol string; all language grammars", "why_tests_cant": "all symbol strings and all operation lists; a rule that matches inside a symbol only fails for particular neighbours", "anchors": ["nisaba/scripts/natural_translit/utils/rewrite_functions.py", "nisaba/scripts/natural_translit/utils/alignment.py", "nisaba/scripts/natural_translit/brahmic/g2p.py", "nisaba/scripts/natural_translit/brahmic/romanizer.py", "nisaba/scripts/natural_translit/language_params/{hi,bn,ta,gu,kn,te,ml,mr,pa}.py"]}
{"id": "C62", "title": "Reading ISO text as Brahmic characters", "statement": "Every text of ISO letters has exactly one reading as typ strings of characters. The signs of these characters spell the text again, with an independent vowel mark in front if and only if the text starts with a vowel; no pair of characters is left that should be composed. Any other text has no reading.", "quantifier": "every string", "why_tests_cant": "all letter sequences, including stacked combining marks", "anchors": ["nisaba/scripts/natural_translit/brahmic/grapheme_inventory.py", "nisaba/scripts/natural_translit/brahmic/g2p.py"]}
{"id": "C63", "title": "Each ISO text is romanized in one way", "statement": "For Hindi, Bengali, Tamil, Kannada, Telugu, Malayalam and Marathi every text of ISO letters has exactly one romanization in each scheme, in lower case Latin letters. Gujarati has one if there is no a directly before i or u; ai has none at all. Punjabi has at least one, in lower case; before c the gemination mark gives two. Other characters give no output. The coarse scheme may leave doubled letters.", "quantifier": "every text, language and scheme that is modelled", "why_tests_cant": "all letter sequences; a phoneme without a transliteration silently drops the output of all words that contain it", "anchors": ["nisaba/scripts/natural_translit/brahmic/romanizer.py", "nisaba/scripts/natural_translit/brahmic/g2p.py", "nisaba/scripts/natural_translit/latin/ltn_inventory.py", "nisaba/scripts/natural_translit/language_params/{hi,bn,ta,gu,kn,te,ml,mr,pa}.py", "nisaba/scripts/natural_translit/romanization/{hi,bn,ta,gu,kn,te,ml,mr,pa}_iso_{psaf,psac,nat}.py"]}
{"id": "C64", "title": "Pronunciations are aligned with the text", "statement": "Every text of ISO letters has exactly one pronunciation in each language but Punjabi, which has at least one. Each is a sequence of graphemes with their phonemes, and its graphemes are those of the reading of the text, in order; Malayalam may add a final u. The transcription into IPA symbols exists and is unique (in Gujarati only without ai and au).", "quantifier": "every text and language", "why_tests_cant": "all letter sequences; lost or duplicated graphemes appear only for particular clusters", "anchors": ["nisaba/scripts/natural_translit/brahmic/g2p.py", "nisaba/scripts/natural_translit/phonology/operations/{syllable,voicing}.py", "nisaba/scripts/natural_translit/language_params/{hi,bn,ta,gu,kn,te,ml,mr,pa}.py", "nisaba/scripts/natural_translit/g2p/{hi,bn,ta,gu,kn,te,ml,mr,pa}_iso_ipa.py", "nisaba/scripts/natural_translit/phonology/transcriptor.py"]}
{"id": "C65", "title": "Every language has a closed set of sounds", "statement": "The pronunciation of any text of ISO letters is a sequence of sounds from a fixed list for the language: a character with its usual phonemes, or one of the special pronunciations of the language. Every listed sound is used by some text, except a pronounced virama.", "quantifier": "every language, every text of ISO letters", "why_tests_cant": "a rule that fires in the wrong context writes a phoneme that the language does not have; only particular letter sequences show it", "anchors": ["nisaba/scripts/natural_translit/brahmic/g2p.py", "nisaba/scripts/natural_translit/brahmic/grapheme_inventory.py", "nisaba/scripts/natural_translit/g2p/{hi,bn,ta,gu,kn,te,ml,mr,pa}_iso_ipa.py"]}
{"id": "C66", "title": "Telugu and Kannada pronunciation and romanization, letter by letter", "statement": "For every text, the Telugu and Kannada pronunciation is exactly this: the phonemes of each letter, with inherent vowel a, vocalic u, jñ as gñ and anusvara as the nasal of the place of the next sound (else m); Kannada has one r. The fine and the natural romanization are the letters of each character, anusvara being m or n; the natural one drops vowel length. The two languages are romanized alike.", "quantifier": "every text of ISO letters, both languages, fine and natural romanization", "why_tests_cant": "the rules are a cascade of context-dependent rewrites; that they amount to a letter by letter table with one letter of lookahead is a statement about all texts", "anchors": ["nisaba/scripts/natural_translit/brahmic/g2p.py", "nisaba/scripts/natural_translit/brahmic/romanizer.py", "nisaba/scripts/natural_translit/language_params/{te,kn}.py", "nisaba/scripts/natural_translit/romanization/{te,kn}_iso_nat.py"]}
{"id": "C67", "title": "Deromanization gives one text for every Latin word", "statement": "Each of the four deromanization grammars (Hindi to Devanagari and to ISO 15919, Tamil to Tamil script and to ISO 15919) has exactly one output for every word of the letters a to z, and no output for any other input.", "quantifier": "every byte string, all four grammars", "why_tests_cant": "the grammar is a composition of some thirty context-dependent rewrites over an alphabet of bracketed symbol names; that it neither fails nor forks on any word is a statement about infinitely many words", "anchors": ["nisaba/scripts/natural_translit/brahmic/deromanizer.py", "nisaba/scripts/natural_translit/brahmic/derom_inventory.py", "nisaba/scripts/natural_translit/language_params/{hi,ta}.py", "nisaba/scripts/natural_translit/deromanization/{hi_deva,hi_iso,ta_iso,ta_taml}.py"]}
{"id": "C68", "title": "Deromanization reads the strongest spellings and writes them in syllables", "statement": "The output for a Latin word is the writing of a reading of it: the word is cut into spellings from a ranked table so that wherever a spelling stands, something at least as strong was read there and no two neighbours make a spelling; in Hindi n and m are nasals exactly in their places. The sounds are written in aksharas: a vowel joins the consonant before it, otherwise it is an independent vowel (with a dot in ISO); Tamil consonants without a vowel take a virama, Hindi ones only within clusters at the ends of the word or inside one spelling, and a Hindi final a is long. The documented treatment of Tamil single tr is refuted.", "quantifier": "every word of the letters a to z, Hindi and Tamil", "why_tests_cant": "rewrites overlap (kkh, chh, tth, trtr) and the order of the cascade decides between them; that the cascade amounts to strongest-first reading holds for all words or not at all", "anchors": ["nisaba/scripts/natural_translit/brahmic/deromanizer.py", "nisaba/scripts/natural_translit/brahmic/derom_inventory.py", "nisaba/scripts/natural_translit/language_params/{hi,ta}.py"]}
{"id": "C69", "title": "The native and ISO deromanizations of a word agree with the romanization grammars", "statement": "For every word, the ISO 15919 text that the Hindi (Tamil) deromanizer gives is the one and only cheapest romanization of the Devanagari (Tamil) text it gives, by the FROM grammar of the script (NFC, then the weighted romanization); and the native text is the one and only cheapest reading of the ISO text by the TO grammar.", "quantifier": "every word that has outputs, Hindi and Tamil", "why_tests_cant": "it relates three independently written grammars (a symbol cascade with two printers, a table-driven weighted transducer and its inverse) on infinitely many words, and cheapest means cheaper than every other cut into pieces", "anchors": ["nisaba/scripts/natural_translit/brahmic/deromanizer.py", "nisaba/scripts/natural_translit/brahmic/grapheme_inventory.py", "nisaba/scripts/brahmic/iso.py", "nisaba/scripts/brahmic/data/Deva", "nisaba/scripts/brahmic/data/Taml"]}
{"id": "C70", "title": "The shipped romanizations are found by reading letter by letter", "statement": "In 18 of the 20 Brahmic scripts, the one romanization of least cost of any text is what a reader writes who takes the longest letter of the tables at each place: consonants wait for a vowel sign, a virama, a subjoined consonant or else get the inherent vowel, vowels that follow a syllable get a dot, vowel signs that follow no consonant get a hyphen, a virama that follows none a breve. Bengali and Kannada do so on texts without a few odd sequences, and not on all texts.", "quantifier": "every text of each of the scripts", "why_tests_cant": "the least cost is over all parses of unboundedly many texts with a weighted grammar; the sequences where the longest letter is not the best are rare", "anchors": ["nisaba/scripts/brahmic/iso.py: brahmic_to_iso, _script_fsts", "nisaba/scripts/brahmic/data: consonant.tsv, vowel.tsv, vowel_sign.tsv, coda.tsv, standalone.tsv, virama.tsv, nfc.tsv"]}
{"id": "C71", "title": "Malayalam typed with the fixed Mozhi rules", "statement": "A Malayalam text made of syllables, half consonants, joined consonants, chillus, anusvara, visarga and independent vowels, typed unit by unit with Latin letters, is rewritten to exactly that text as the one best result. Any typed text has at most one best result, and one with brackets or characters outside ASCII has none. The keys m and O fail to give MA with the vowel OO because a rule is missing.", "quantifier": "every sequence of units that may follow each other; every typed text", "why_tests_cant": "sequences are unbounded; rules with overlapping keys interact across units", "anchors": ["nisaba/scripts/brahmic/fixed.py", "nisaba/scripts/utils/char.py", "nisaba/scripts/brahmic/data/Mlym/fixed.textproto"]}
{"id": "C72", "title": "The phonemes of the universal inventory", "statement": "The multilingual phoneme inventory, the Latin letters and the English letters are built without exceptions; the symbols are exactly those of the generated documentation pages and the phonemes have the documented feature values; distances between features of an aspect are the documented tables. Every phoneme has the values its IPA name says (all but oi, whose height is missing). The distance of two symbols is defined, symmetric, between 0 and 23.5 and 0 for a symbol and itself; two different phonemes have distance 0 just for eleven listed pairs. The triangle inequality fails.", "quantifier": "all 224 symbols, all pairs of symbols, all aspects and features", "why_tests_cant": "the repository tests check a few phonemes; the claims range over all pairs of symbols and all aspects, and over the effect of about two hundred update statements in order", "anchors": ["nisaba/scripts/natural_translit/phonology/features/descriptive.py", "nisaba/scripts/natural_translit/phonology/inventories/x_uni.py", "nisaba/scripts/natural_translit/phonology/phonological_symbol.py", "nisaba/scripts/natural_translit/utils/feature.py"]}
{"id": "C73", "title": "The sounds of the Latin letters", "statement": "Latin and English letters have the documented feature values; the upper and the lower case letter differ in case only. An English letter has in each aspect exactly the values of its sounds taken together and is at distance 0 from each of them (it can be at distance 0 from other sounds as well). A Latin letter is at distance 0 from the English one except r, and from the phoneme with the same name except c, j, o, q, r and x; r of the Latin script is at a positive distance from every phoneme.", "quantifier": "all 26 letters of both inventories and both cases, all phonemes, all aspects", "why_tests_cant": "tests look at single letters; the values come from copies and updates through shared profiles, whose order matters", "anchors": ["nisaba/scripts/natural_translit/script/grapheme.py", "nisaba/scripts/natural_translit/script/inventories/latn.py", "nisaba/scripts/natural_translit/language_params/en.py", "nisaba/scripts/natural_translit/utils/symbol.py"]}
{"id": "C74", "title": "Spelling out English letters", "statement": "An English spell-out grammar has exactly one output for every word of the letters a to z in either case, and none for any other input: the names of the letters in the target language one after the other, separated by single spaces in the Arabic script, and without the joiner after the last one in Kannada, Malayalam and Telugu. It has the same output for code points and bytes. Two words have the same spelling only if they have the same letters up to case, except that Sindhi does not tell a from e and g from j, nor Tamil b from p and d from t. The spelling is written in the target script only.", "quantifier": "every input, all 13 languages and 11 scripts, both token types", "why_tests_cant": "some names are prefixes of others (a of f, h, l, m, n, s and x in most languages), so that no two of the infinitely many words share a spelling does not follow from any number of examples; tests use fewer than 200 words", "anchors": ["nisaba/scripts/natural_translit/brahmic/en_spellout.py", "nisaba/scripts/natural_translit/deromanization/en_spellout.py", "nisaba/scripts/natural_translit/utils/fst_list.py"]}
{"id": "C75", "title": "Spelled-out acronyms in Hindi natural transliteration", "statement": "In the Hindi natural transliteration (hi.iso_to_nat) a word whose characters are the Hindi names of English letters has exactly one result, the letters in upper case; every other word has exactly the results it has without the acronym rule, in lower case; no sequence of characters can be read as two different sequences of letters. A word of English letters that is spelled out in Devanagari by the spellout grammar and romanized by the ISO grammar is transliterated back to the word in upper case.", "quantifier": "for all sequences of ISO characters of any length, all sequences of letters, all words of English letters in either case, both settings of the printer", "why_tests_cant": "The rule has a left context and a right context that are closures over all letter names and a left-hand side that is an infinite language; whether a decomposition exists and is unique depends on the whole word, so a finite set of words cannot show that no word is read in two ways or damaged.", "anchors": ["nisaba/scripts/natural_translit/brahmic/acronym.py:28-124", "nisaba/scripts/natural_translit/language_params/hi.py:105-121", "nisaba/scripts/natural_translit/latin/ltn_inventory.py:61"]}
{"id": "C76", "title": "The rewrite tester prints the best outputs of its rules", "statement": "RewriteTester starts exactly if the archive loads, every rule between the commas of --rules has its main, parenthesis and assignment FSTs in it, and both modes are byte, utf8 or a readable symbol table; after that no rewriting fails for want of a rule. In byte mode ProcessInput prints an output of least cost over all paths through the rules (or the noutput best different outputs with their costs), preceded with show_details by what each prefix of the rules gives, and reports failure exactly if there is no path; output ends in a new line, failure does not. Symbols are printed with the separator between them, generated symbols in brackets. The check that --rules is given is dead, and printed text does not determine the labels (labels over 255, brackets, separators in symbols).", "quantifier": "for all archives, rule lists, flags, inputs, label sequences, and all search functions that give best outputs", "why_tests_cant": "The statement is about all grammars, inputs and flags at once: optimality is over all paths through a cascade, and failure means that no path exists, which a test on sample grammars cannot show.", "anchors": ["nisaba/interim/grm2/thrax/rewrite-tester.cc:77-272", "nisaba/interim/grm2/thrax/grm-manager.h:58-75"]}
{"id": "C77", "title": "Symbol tables of bytes and characters", "statement": "After any sequence of calls to the symbol table builder, every byte (character below U+10000) is named in the byte (UTF-8) table by itself if it is printable and by its hexadecimal number otherwise, label 0 by <epsilon>, and each such name is found with exactly that label; a fresh table holds nothing else and no name of a character contains a space or control byte. The white space of the tables is that used to split text and U+180E. A symbol keeps its label for ever, and a new symbol added to an existing table gets its label. A symbol added before the table was asked for is lost, and a second symbol of a byte is never its name.", "quantifier": "for all sequences of calls of any length, all bytes, all characters below U+10000, all symbols and labels", "why_tests_cant": "The tables are global state changed by any number of calls in any order; the claim is that no such sequence can rename a byte or character.", "anchors": ["nisaba/interim/grm2/thrax/walker/util/function/symbols.cc:33-207", "nisaba/interim/grm2/thrax/walker/util/function/symbols.h:30-63"]}
{"id": "C78", "title": "Character error rates by the earth mover's distance", "statement": "The pairwise output of the error-rate tool and the scripts emd_cer.py / calculate_emd_cer.py compute, for every example, the least expected number of edits when the probability of the system outputs is moved to the references, and the mean length of the references (independent of the flow found). Hence: with one output or one reference it is the expected number of edits; it is at most the expected number for independent choices and at least that for the nearest reference; it is 0 exactly if probability moves only between texts at distance 0. The normalized costs are positive probabilities of sum 1 in the right proportions, unchanged by a constant added to all costs. The overall rate is the mean of the rates weighted by length, so it lies between the smallest and the largest one. The lines are JSON if words have no quotes, backslashes and control characters and both sides have candidates. It is not true that the length counted is the one the edits refer to (\"<epsilon>\" stands for no text but counts 9; runs of blanks), that every word can be read back, or that an example without references gives JSON.", "quantifier": "all lists of positive weights, distance matrices and lengths of fitting sizes; all solvers that return a least-cost flow for the line", "why_tests_cant": "Least cost is a minimum over infinitely many flows, and the independence of the length from the flow concerns every solver; the tests check three lines.", "anchors": ["nisaba/translit/tools/emd_cer.py:21-35", "nisaba/translit/tools/calculate_emd_cer.py:33-48", "nisaba/translit/tools/calculate_error_rate.cc:182-272", "nisaba/translit/tools/calculate_error_rate.cc:299-337"]}
{"id": "C79", "title": "The language feature: families, distances and codes", "statement": "The language inventory is a tree of equidistant lists of one step (families in families). Whatever the nesting, all features of such a tree are the same one step apart; so any two different languages have distance 1, the greatest possible one, and related languages are not nearer than unrelated ones. A language is found in its own families and in no other. from_iso finds the entry of the list of languages by its two- or three-letter code whatever the case, and gives the code in small letters as alias, its name as text and its place in the list as number; other lengths are a ValueError and unknown codes an error. Different codes of the same length get different numbers, below the length of the list, but it is not true that different codes always do (hi and hin).", "quantifier": "all trees of equidistant lists of one step; all pairs of languages; all lists of languages and codes", "why_tests_cant": "There is no test of distances between languages in different families, and the code lookup depends on an external list.", "anchors": ["nisaba/scripts/natural_translit/phonology/features/language.py:36-48", "nisaba/scripts/natural_translit/phonology/features/language.py:72-126"]}
{"id": "C80", "title": "Files: writing and reading texts, lines, bytes and messages", "statement": "A non-empty text that is written is read again unchanged, other files stay as they are, and temporary files are put below the temporary directory unless their name is absolute. ReadLines gives the non-empty lines of the text in order; a line with at least as many bytes as the limit gets one zero byte at that place. Lines written one by one are read again if they are not empty and short. ReadToString gives as many bytes as there are up to the limit, however few each read gives; ReadLine gives a line with its newline or as much as fits. ReadFileToProto prefers the text format to the binary one. A message stream puts all bytes into the file in order, the bytes in the file are always a beginning of those put, flush, close and destruction write the rest, and closing twice is fatal. Not true are: that an empty text or an empty message can be read back, that success means that the bytes are on the disk (short texts stay in a buffer whose last flush is not checked), that lines too long are cut, that the limit 0 is safe, that the greatest limit means no limit (ReadToString: exception; ReadLine: nothing from 2^31), and that a byte put after Close is refused (it is accepted, and the destructor ends the program).", "quantifier": "all texts, limits, disks with any quota, patterns of short reads and writes, sequences of stream calls, message parsers and block sizes", "why_tests_cant": "Short reads, full disks and lines over the limit do not occur in the tests, which write and read one small temporary file.", "anchors": ["nisaba/port/file_util.cc:83-176", "nisaba/port/file.cc:68-206", "nisaba/port/proto_file_stream.cc:26-81"]}
{"id": "C81", "title": "Lists of machines and what they are combined to", "statement": "FstList.add, union, union_star, concat, compose, accep, make and the list operations hold exactly the given items in order: add appends a list's items and any other item, union relates what some item relates, union_star and concat and compose are the closure, the concatenation and the chain of the items' relations; the empty list composes to nothing. The documented call of make with a list of tuples does something else than documented.", "quantifier": "for all items, all lists, all relations of the items and all calls", "why_tests_cant": "The unit tests combine a few short lists of letters; the laws are about every list of every relation, including the empty list.", "anchors": ["nisaba/scripts/natural_translit/utils/fst_list.py:30-125"]}
{"id": "C82", "title": "Log texts, callers and returned values", "statement": "The text of an object is its text, alias or printed form and is never empty; a log function names its caller (or the k-th caller asked for) and returns the given value unchanged; without debugging nothing is logged and nothing can fail, but with debugging a caller index beyond the stack raises IndexError, so that debugging can change the result of the program.", "quantifier": "for all objects, values, details, stacks of callers and levels", "why_tests_cant": "Tests log a handful of objects from one place in the program, with one stack.", "anchors": ["nisaba/scripts/natural_translit/utils/log_op.py:39-154"]}
{"id": "C83", "title": "What the checks of the grammar tests establish", "statement": "AssertIfSinglePath passes for exactly one path; the shortest-path check passes when exactly one output has the least weight, AssertIdentity when the input is the only output of least weight; other weights than whole numbers, or no output at all, end in ValueError where AssertionError is documented. A sampled check passes if and only if it passes for every sample, and otherwise ends with the error of the first failing one. A table of pairs passes when each pair holds for the machine of characters and of bytes. Samples have at most five labels (documented: 100), so that a machine that is ambiguous on longer strings always passes.", "quantifier": "for all machines (lists of outputs with weights, as functions of the input), all samples and all tables", "why_tests_cant": "These are the tests; nothing tests what they accept.", "anchors": ["nisaba/scripts/utils/test_util.py:32-150", "nisaba/scripts/utils/test_util.py:164-346"]}
{"id": "C84", "title": "What it means that a list of rewrites passes", "statement": "The test of a grammar by a list of rewrites passes if and only if the files can be read, the rules of every entry can be set and every entry holds: no output when none is listed; in mode exact, the outputs are those listed; in mode subset, those listed are distinct outputs; in mode one_top, the one listed is the only lightest output; in mode top, it is the one found. An output listed twice fails in every mode; one_top is stricter than top and exact than subset. A mode that does not exist is noticed only at an entry with outputs. The strings reported as extra or missing are right for sorted lists only, and the lists are not sorted.", "quantifier": "for all cascades, entries, modes and lists of entries", "why_tests_cant": "This is the test driver; no test runs it on failing data.", "anchors": ["nisaba/interim/testing/test_textproto.cc:78-194", "nisaba/interim/testing/testdata.proto:21-35"]}
{"id": "C85", "title": "Which texts visual normalization leaves alone the second time", "statement": "Text without joiners in which no NFC or visual rule applies and no mark is doubled is left alone in every script. In 13 of the 20 scripts one application of visual normalization turns every text without joiners into such a settled text, so a second one changes nothing; in the other seven it can. A well-formed result from text without joiners is settled in all scripts except Devanagari and Tamil. In 13 scripts well-formed text without joiners is left alone altogether. In every script a joiner can hide a rule from the first application, so that the second one changes the text again.", "quantifier": "for all 20 shipped scripts, all texts over the alphabet of the script, and all orders in which the grammars are composed", "why_tests_cant": "The shipped test files list a few rewrites per script and never apply a grammar to its own result; that nothing is left to rewrite is a statement about all texts.", "anchors": ["nisaba/scripts/brahmic/visual_norm.py:50-113", "nisaba/scripts/brahmic/char_util.py:55-80", "nisaba/scripts/brahmic/wellformed.py:100-123"]}
{"id": "C86", "title": "Normalization keeps text well-formed", "statement": "If a text is well-formed, so is every result of NFC, of visual normalization and of reading normalization, in all shipped scripts except Malayalam, with or without joiners. In Malayalam it fails for all three: an accepted sign sequence becomes one sign that no rule of well-formedness allows there.", "quantifier": "for all shipped scripts, all well-formed texts over the alphabet of the script, all results, and all orders in which the grammars are composed", "why_tests_cant": "The test files give single rewrites and single well-formed words; none checks the result of a normalizer with the acceptor, and the Malayalam failures need neighbours that no listed word has.", "anchors": ["nisaba/scripts/brahmic/wellformed.py:100-123", "nisaba/scripts/brahmic/visual_norm.py:97-116", "nisaba/scripts/brahmic/reading_norm.py:46-72", "nisaba/scripts/brahmic/nfc.py:36-54"]}
{"id": "C87", "title": "Flags of the command-line programs", "statement": "Each transliteration tool runs exactly if all flags are defined, their values can be read, and the required ones are not empty; it then works with the last value given for each flag or its default. The decoder takes its configuration from the flag, or else from the file, or else an empty one, and ends with 0 exactly if decoding succeeded. Its flag for the language model does not set the language model but replaces the pair model. The usage texts of two tools name a flag that they do not define.", "quantifier": "for all argument lists, readers of numbers and truth values, configurations, files and program names", "why_tests_cant": "The mains have no tests; the wrong setter and the wrong names in usage texts are only seen by running each program with those flags.", "anchors": ["nisaba/translit/fst/pairlm_decoder_main.cc:63-107", "nisaba/translit/tools/rejoin-kbest-full-string_main.cc:34-58", "nisaba/translit/tools/ensemble-full-string_main.cc:45-69", "nisaba/translit/tools/extract-kbest-full-string_main.cc:46-73", "nisaba/translit/tools/calculate_error_rate_main.cc:51-85"]}
{"id": "C88", "title": "Letters and their languages", "statement": "Reading a registry of letters fills in the characters that the names denote, agrees with given characters or fails, and changes nothing when repeated. The integrity tests pass exactly for rising single characters and for the shortest codes of languages and regions, so a language has one code everywhere. Letters that are also in the romanization table read back as themselves. The shipped Arabic registry passes and has exactly the letters of the romanization. The reader of string lists fails on items without a target.", "quantifier": "for all registries, character databases, code databases and orders of prefix sets; for all shipped entries", "why_tests_cant": "The tests run on the one shipped file and show nothing about what they let through or about other registries; the reader of string lists is only used on a file in which every item has a target.", "anchors": ["nisaba/scripts/utils/letter_languages.py:25-50", "nisaba/scripts/utils/letter_languages_integrity_test.py:46-112", "nisaba/scripts/abjad_alphabet/reversible_roman_coverage_test.py:42-61", "nisaba/scripts/utils/unicode_strings_util.py:149-168"]}
{"id": "C89", "title": "Opening archives", "statement": "The C++ archive class loads the file of its lower-cased name if it is there and not empty, and then finds transducers by name in any case of letters, the last entry counting; entries with small letters are out of reach. A failure leaves it as it was, except for an empty archive. It finds what a grammar finds where directories of runfiles are known, and otherwise looks in the working directory. A Python archive object fails until its file can be opened and then answers from what it opened first, whatever happens to the file. The safe Python reader gives the default for missing files and names, but raises an error for files unknown to runfiles.", "quantifier": "for all runfiles, files, archives, names and histories of calls in changing worlds", "why_tests_cant": "The tests load one shipped archive and one name; missing and empty files, names in other cases, repeated loads, and runfiles given by a manifest are not tried.", "anchors": ["nisaba/scripts/utils/far_base.cc:23-38", "nisaba/scripts/brahmic/far.cc:23-25", "nisaba/scripts/utils/far.py:85-99", "nisaba/scripts/utils/file.py:29-42", "nisaba/scripts/utils/file.py:66-93", "nisaba/port/test_utils.cc:31-41"]}
{"id": "C90", "title": "Files of test data", "statement": "Writing rewrites to a file either succeeds, and then the file has two comment lines and the printed message and reads back as the same message, or it reports which step failed and leaves a beginning of that text. With the heading in one block, errors of the heading are never reported, and for short messages every error is one of closing. If the file cannot be opened the program ends. Reading succeeds exactly for files that are not empty and that one of the two parsers takes.", "quantifier": "for all disks, systems that take few or all bytes, block sizes, messages, printers and parsers", "why_tests_cant": "No test writes such a file; errors of the system in the middle of a file cannot be produced by tests.", "anchors": ["nisaba/interim/testing/testdata.cc:30-65", "nisaba/port/status_macros.h:44-54", "nisaba/port/proto_file_stream.cc:26-81"]}
{"id": "C91", "title": "Building archives for scripts and languages", "statement": "The build rule for scripts and languages makes an archive with each transducer under the upper-cased language, or else script, in order of the names, if no tag begins another one; this holds for all shipped lists. It fails for some lists with different tags, and loses a transducer if a language is listed with two scripts. The archive gets the file name that the Python readers look for, and sed sets exactly the three flags. With these archives the C++ normalizer supports exactly the 20 scripts and 11 languages (not Assamese, whose normalization is built), reading normalization loads for exactly six names, and the Python acceptor takes exactly the scripts, refusing the languages in the archive.", "quantifier": "for all lists of scripts and languages with tags of letters, all transducers, names of rules, lines of source and requested names; the shipped lists by computation", "why_tests_cant": "Build rules have no tests; the tests of the libraries try some scripts, but cannot try all names that should be refused nor lists that may be added later.", "anchors": ["nisaba/scripts/utils/grammars.bzl:147-209", "nisaba/scripts/brahmic/constant.bzl:19-53", "nisaba/scripts/brahmic/BUILD.bazel:293-314", "nisaba/scripts/abjad_alphabet/BUILD.bazel:36-53", "nisaba/scripts/brahmic/__init__.py:77-101", "nisaba/scripts/brahmic/visual_norm.py:42-45", "nisaba/scripts/utils/grammar.cc:72-96"]}
{"id": "C92", "title": "Normalization of languages in Arabic script", "statement": "Visual and reading normalization of every language in Arabic script can be built. Visual normalization has exactly one output for each text over the alphabet and none for other texts: presentation forms, canonical composition, the common rules and the rules of the language are applied in turn, then rules for all letters but the last, rules for the last letter of longer words, and rules for whole words. No presentation form, zero width space or zero width joiner is left, and text to which no rule applies is unchanged. It is not idempotent: in Dari two letters standing alone change places, and in Urdu some texts need two passes. Phrases are not normalized word by word. Reading normalization has one output, which it leaves alone.", "quantifier": "for all languages with rules, all texts of any length, inside and outside the alphabet, all sizes of the transducers; positions for all rule files with the shapes used", "why_tests_cant": "The test with random strings checks only that outputs are probably unique; tests of single words do not try each position in a word, each language and each text, nor a second pass.", "anchors": ["nisaba/scripts/abjad_alphabet/visual_norm.py:46-84", "nisaba/scripts/abjad_alphabet/visual_norm_common.py:22-24", "nisaba/scripts/abjad_alphabet/reading_norm.py:48-52", "nisaba/scripts/abjad_alphabet/util.py:29-51"]}
{"id": "C93", "title": "Phons and the multilingual phoneme inventory", "statement": "A composite phon joins the components of its phons in order, however they are nested, fails exactly without components or base transliterations, and has the base of its components in turn. Importing adds features and transliterations, but composites lose them. A suffix goes behind text, features and IPA; only voiced phons can be devoiced; contrary to the documentation derived phons get an empty transliteration. The inventory can be built and has 354 phons with unique names and fsts, known features and a base transliteration. The documented table has exactly the phonemes, and four outdated rows. Features tell phons apart but for two pairs, IPA but for four. There is one base vowel for each height, backness and rounding, and simple consonants have one voicing and one manner. A text of phonemes in braces can be read in one way only, unless the combiner counts as a phon.", "quantifier": "for all phons, lists of phons, features, dictionaries and transliterations; all sequences of phonemes of any length; the inventory by computation", "why_tests_cant": "Tests compose and derive a few phons; they cannot try all nestings, all pairs of phons of the inventory or all sequences that might be read in two ways.", "anchors": ["nisaba/scripts/natural_translit/phonology/phon.py:34-193", "nisaba/scripts/natural_translit/phonology/modify_phon.py:27-272", "nisaba/scripts/natural_translit/phonology/phoneme_inventory.py:39-371", "nisaba/scripts/natural_translit/phonology/feature.py:36-146", "nisaba/scripts/natural_translit/phonology/docs/phon_table.md:1-358"]}
{"id": "C94", "title": "Romanization of phonemes", "statement": "For texts of phonemes of the inventory, the base transliteration rewrites each phoneme to its base, or for a composite the parts with the combiner left between them; so its output is not unique. The rules for diphthongs and affricates rewrite those to one substring each and keep everything else. Applying diphthong, affricate and base rules and then ignoring modifiers always has a result, leaves transliteration symbols only, and all results show the same letters: those of the diphthong or affricate, or else the base. Deleting repeated substrings leaves half of a run of equal ones, so it is not idempotent. All symbols of phonemes are in the alphabet of the rewrite rules except those for pitch.", "quantifier": "for all sequences of phonemes of any length and all outputs of the rules; runs of any length; the inventory by computation", "why_tests_cant": "Tests romanize a few words and look at one output; they cannot try all sequences of phonemes nor see that another output of the ambiguous rules is possible.", "anchors": ["nisaba/scripts/natural_translit/phonology/romanizer.py:24-32", "nisaba/scripts/natural_translit/phonology/phon.py:192-211"]}
