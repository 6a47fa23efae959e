{"id": "C01", "title": "parse and tag always return at least one result", "statement": "Whenever morph.parse(word) (resp. morph.tag(word)) returns normally for an analyzer whose last unit is UnknAnalyzer (as in both shipped configurations), the returned list is non-empty.", "quantifier": "every word (any sequence of code points, including the empty one), every dictionary, every probability table, every unit list ending with UnknAnalyzer", "why_tests_cant": "The guarantee depends on the interplay of a shared mutable \"seen\" set and of up to twelve units; a test only samples words and one dictionary.", "anchors": ["pymorphy2/analyzer.py:MorphAnalyzer.parse", "pymorphy2/analyzer.py:MorphAnalyzer.tag", "pymorphy2/units/unkn.py:UnknAnalyzer", "pymorphy2/units/utils.py:add_parse_if_not_seen"]}
{"id": "C02", "title": "tag() and parse() agree", "statement": "For analyzers with a shipped unit order, the set of tags returned by morph.tag(word) is exactly the set of tags of the parses returned by morph.parse(word).", "quantifier": "every word, dictionary, substitution table and probability table", "why_tests_cant": "tag() is a separate hand-optimised implementation in every unit; agreement on samples says nothing about other words.", "anchors": ["pymorphy2/analyzer.py:MorphAnalyzer.tag", "pymorphy2/units/by_analogy.py:KnownSuffixAnalyzer.tag", "pymorphy2/units/by_analogy.py:UnknownPrefixAnalyzer.tag", "pymorphy2/units/by_hyphen.py:HyphenSeparatedParticleAnalyzer.tag", "pymorphy2/units/base.py:BaseAnalyzerUnit.tag"]}
{"id": "C03", "title": "A parse is about the word that was asked for", "statement": "For every parse p in morph.parse(word), p.word is word.lower() with some characters replaced by their configured substitutes (e.g. е by ё) and nothing else changed; in particular the length is the same.", "quantifier": "every word, dictionary, unit list and substitution table", "why_tests_cant": "Every unit cuts and re-glues strings with index arithmetic; boundary lengths cannot be enumerated.", "anchors": ["pymorphy2/analyzer.py:MorphAnalyzer.parse", "pymorphy2/units/by_analogy.py:KnownSuffixAnalyzer.parse", "pymorphy2/units/by_hyphen.py:HyphenatedWordsAnalyzer.parse", "pymorphy2/dawg.py:WordsDawg"]}
{"id": "C04", "title": "normal_forms is the de-duplicated list of parse normal forms", "statement": "morph.normal_forms(word) contains each normal form of morph.parse(word) exactly once, nothing else, in order of first occurrence.", "quantifier": "every word and every list of parses", "why_tests_cant": "Ordering and duplication patterns are unbounded.", "anchors": ["pymorphy2/analyzer.py:MorphAnalyzer.normal_forms"]}
{"id": "C05", "title": "Known words are parsed from the dictionary only", "statement": "If the lowercased word (up to substitutes) is in the dictionary, and is not an upper-case initial letter, morph.parse returns exactly one parse per dictionary entry of every substituted spelling, with the tag and normal form the dictionary stores, and no predicted parse.", "quantifier": "every word, dictionary and substitution table, for the shipped unit order", "why_tests_cant": "Needs all dictionary contents and all words.", "anchors": ["pymorphy2/analyzer.py:MorphAnalyzer.parse", "pymorphy2/units/by_lookup.py:DictionaryAnalyzer.parse", "pymorphy2/lang/ru/config.py:DEFAULT_UNITS"]}
{"id": "C06", "title": "is_known and word_is_known are coherent", "statement": "word_is_known(w, strict=True) implies word_is_known(w); word_is_known(w) is true iff dictionary lookup of w.lower() returns a parse; and every parse p of morph.parse(w) has p.is_known == morph.word_is_known(w) when substitutes are not themselves substitutable.", "quantifier": "every word, dictionary and substitution table", "why_tests_cant": "Universal over words and dictionaries.", "anchors": ["pymorphy2/analyzer.py:MorphAnalyzer.word_is_known", "pymorphy2/analyzer.py:Parse.is_known", "pymorphy2/opencorpora_dict/wrapper.py:Dictionary.word_is_known"]}
{"id": "C07", "title": "Closed-class readings are never predicted", "statement": "No parse built by KnownPrefixAnalyzer, UnknownPrefixAnalyzer or KnownSuffixAnalyzer carries a tag with one of the non-productive grammemes (NUMR, NPRO, PRED, PREP, CONJ, PRCL, INTJ, Apro).", "quantifier": "every word, dictionary, prefix list", "why_tests_cant": "Tests list a handful of regressions (\"бякобы\"); the guarantee is for every word.", "anchors": ["pymorphy2/tagset.py:OpencorporaTag.is_productive", "pymorphy2/units/by_analogy.py:KnownPrefixAnalyzer.parse", "pymorphy2/units/by_analogy.py:UnknownPrefixAnalyzer.parse", "pymorphy2/units/by_analogy.py:KnownSuffixAnalyzer.parse"]}
{"id": "C08", "title": "Parsing terminates: recursion depth is bounded by the word length", "statement": "If no configured prefix or particle is empty, the nested parse()/tag() calls made by morph.parse(word) and morph.tag(word) never nest deeper than len(word.lower())+1, and the result does not depend on any larger allowance; with an empty known prefix the recursion never bottoms out.", "quantifier": "every word and unit list", "why_tests_cant": "Non-termination is not observable by finite testing.", "anchors": ["pymorphy2/analyzer.py:MorphAnalyzer.parse", "pymorphy2/units/by_analogy.py:KnownPrefixAnalyzer", "pymorphy2/units/by_hyphen.py:HyphenSeparatedParticleAnalyzer", "pymorphy2/units/by_hyphen.py:HyphenAdverbAnalyzer", "pymorphy2/units/by_hyphen.py:HyphenatedWordsAnalyzer"]}
{"id": "C09", "title": "Parsing a word does not raise", "statement": "With a well-formed dictionary, an initialised tag class and no probability estimator, morph.parse(word) and morph.tag(word) return normally for every word (up to the interpreter recursion limit, see C79). With an estimator the same holds if the table gives no word a mixture of zero and non-zero probabilities; otherwise ZeroDivisionError is possible (concrete witness).", "quantifier": "every word, well-formed dictionary, probability table", "why_tests_cant": "Absence of exceptions over all inputs; the failing combination needs a table and a dictionary no test ships.", "anchors": ["pymorphy2/analyzer.py:ProbabilityEstimator.apply_to_parses", "pymorphy2/analyzer.py:MorphAnalyzer.parse", "pymorphy2/opencorpora_dict/wrapper.py:Dictionary"]}
{"id": "C10", "title": "The lexeme of a parse contains the parse", "statement": "For a parse p obtained by dictionary lookup, prefix or particle stripping, suffix prediction without prefix/suffix overlap, a shape unit or fixed-left hyphenation, p.lexeme has a member with the same word and tag as p. For \"both parts inflect\" hyphenated parses and for overlapping suffix predictions this fails (concrete witnesses).", "quantifier": "every parse of every word over every dictionary whose entries are consistent with their paradigms", "why_tests_cant": "Requires every paradigm and every stem.", "anchors": ["pymorphy2/analyzer.py:MorphAnalyzer.get_lexeme", "pymorphy2/units/by_lookup.py:DictionaryAnalyzer.get_lexeme", "pymorphy2/opencorpora_dict/wrapper.py:Dictionary.build_stem", "pymorphy2/units/by_hyphen.py:HyphenatedWordsAnalyzer._merge_lexemes"]}
{"id": "C11", "title": "The lexeme is closed: lexemes of its members are the same lexeme", "statement": "For every form f in p.lexeme (dictionary, prefix, particle, suffix based parses), f.lexeme == p.lexeme.", "quantifier": "every parse, every form of its lexeme", "why_tests_cant": "test_lexemes_sanity samples words; the claim is for every paradigm.", "anchors": ["pymorphy2/analyzer.py:Parse.lexeme", "pymorphy2/units/by_lookup.py:DictionaryAnalyzer.get_lexeme", "pymorphy2/units/base.py:AnalogyAnalizerUnit.get_lexeme"]}
{"id": "C12", "title": "All forms of a lexeme share the normal form", "statement": "Every member of p.lexeme has normal_form equal to p.normal_form (all non \"both parts inflect\" parses).", "quantifier": "every parse", "why_tests_cant": "Universal over dictionaries and words.", "anchors": ["pymorphy2/units/by_lookup.py:DictionaryAnalyzer.get_lexeme", "pymorphy2/units/base.py:AnalogyAnalizerUnit._get_lexeme"]}
{"id": "C13", "title": "normalized is the normal form, the first form of the lexeme, and idempotent", "statement": "For dictionary/prefix/particle/suffix parses, p.normalized.word == p.normal_form, p.normalized has the word and tag of p.lexeme[0], and p.normalized.normalized == p.normalized.", "quantifier": "every parse over every well-formed dictionary", "why_tests_cant": "Universal over paradigms and stems.", "anchors": ["pymorphy2/analyzer.py:Parse.normalized", "pymorphy2/units/by_lookup.py:DictionaryAnalyzer.normalized", "pymorphy2/units/base.py:AnalogyAnalizerUnit._normalized"]}
{"id": "C14", "title": "inflect is sound", "statement": "If p.inflect(req) returns a form, that form is in p.lexeme and its tag has all of req, or — only if no form has all of req — all of req with rare cases replaced by the common ones.", "quantifier": "every parse and every set of grammemes", "why_tests_cant": "All grammeme subsets times all lexemes.", "anchors": ["pymorphy2/analyzer.py:MorphAnalyzer._inflect", "pymorphy2/tagset.py:OpencorporaTag.fix_rare_cases"]}
{"id": "C15", "title": "inflect is complete and picks the closest form", "statement": "p.inflect(req) returns None exactly when no form of the lexeme has req nor its rare-case-fixed version (known grammemes); otherwise the result is the first of the candidates maximising shared minus a tenth of differing grammemes relative to the updated tag.", "quantifier": "every parse and every set of known grammemes", "why_tests_cant": "All grammeme subsets times all lexemes.", "anchors": ["pymorphy2/analyzer.py:MorphAnalyzer._inflect"]}
{"id": "C16", "title": "Inflecting to grammemes a form already has keeps its grammemes", "statement": "If req is a subset of the grammemes of p, p is in its lexeme, and the grammemes of p that are incompatible with one in req (as the gender of a plural noun is with plur) are shared by all forms of the lexeme that have req, then p.inflect(req) has exactly the grammemes of p.", "quantifier": "every parse, every such subset", "why_tests_cant": "Universal over tags and lexemes.", "anchors": ["pymorphy2/analyzer.py:MorphAnalyzer._inflect", "pymorphy2/tagset.py:OpencorporaTag.updated_grammemes"]}
{"id": "C17", "title": "Unknown grammemes are rejected by inflect", "statement": "p.inflect(req) raises ValueError whenever the requirement used (req, or its rare-case-fixed version when req matches no form) contains a grammeme the tag class does not know, and raises nothing of the kind otherwise.", "quantifier": "every parse and every set of grammemes", "why_tests_cant": "All grammeme sets and all class states.", "anchors": ["pymorphy2/analyzer.py:MorphAnalyzer._inflect", "pymorphy2/tagset.py:OpencorporaTag.updated_grammemes"]}
{"id": "C18", "title": "Numeral agreement follows the Russian rule for every integer", "statement": "For a NOUN in nomn/accs the grammemes requested by make_agree_with_number(n) are {sing,nomn}/{sing,accs} for n ending in 1 but not 11, {sing,gent} for n ending in 2-4 but not 12-14 and {plur,gent} otherwise; for oblique cases {sing|plur, own case}; analogously for ADJF/PRTF; depends on n mod 100 only; other parts of speech get the empty requirement. A NOUN tag without a case makes it raise ValueError.", "quantifier": "every integer n (including negative and huge ones) and every tag", "why_tests_cant": "Infinitely many numbers.", "anchors": ["pymorphy2/tagset.py:OpencorporaTag.numeral_agreement_grammemes", "pymorphy2/analyzer.py:Parse.make_agree_with_number"]}
{"id": "C19", "title": "Probability estimation permutes and reorders, never alters, parses", "statement": "With an estimator, morph.parse returns the same (word, tag, normal_form, methods_stack) tuples as without its final re-weighting; if any P(t|w) is known the scores are those probabilities and non-increasing, ties keeping the original order; otherwise order is unchanged and (when the scores are positive) they are rescaled to sum to 1.", "quantifier": "every list of parses and probability table", "why_tests_cant": "Sorting/normalisation laws over all lists.", "anchors": ["pymorphy2/analyzer.py:ProbabilityEstimator.apply_to_parses", "pymorphy2/analyzer.py:ProbabilityEstimator.apply_to_tags", "pymorphy2/dawg.py:ConditionalProbDistDAWG.prob"]}
{"id": "C20", "title": "Initials are recognised exactly for the configured upper-case letters", "statement": "AbbreviatedFirstName/PatronymicAnalyzer produce parses iff the token is, case-sensitively, one of the configured letters; then the 12 gender×case tags in order; the first-name lexeme keeps the gender while the patronymic lexeme spans both, and normalisation picks the nominative.", "quantifier": "every token", "why_tests_cant": "Universal over tokens.", "anchors": ["pymorphy2/units/abbreviations.py:_InitialsAnalyzer", "pymorphy2/units/abbreviations.py:AbbreviatedFirstNameAnalyzer", "pymorphy2/units/abbreviations.py:AbbreviatedPatronymicAnalyzer"]}
{"id": "C21", "title": "Tags behave as values: equality, hash, order, pickling", "statement": "Tag equality is an equivalence, compatible with hash; < is a strict total order up to equality with > its converse; unpickling a tag (under the same tag class state) gives an equal tag with the same text; construction from text keeps the text and splits it into the expected grammemes.", "quantifier": "every pair/triple of tag strings and class states", "why_tests_cant": "Algebraic laws over all tags.", "anchors": ["pymorphy2/tagset.py:OpencorporaTag.__init__", "pymorphy2/tagset.py:OpencorporaTag.__eq__", "pymorphy2/tagset.py:OpencorporaTag.__lt__", "pymorphy2/tagset.py:OpencorporaTag.__reduce__"]}
{"id": "C22", "title": "Grammeme membership never silently accepts typos", "statement": "\"g in tag\" is True iff g is one of the grammemes of the tag, False iff it is not and g is known, and raises otherwise; the same for sets (\"{..} in tag\" is True iff subset).", "quantifier": "every tag, every grammeme or grammeme set, every class state", "why_tests_cant": "Universal over grammeme names.", "anchors": ["pymorphy2/tagset.py:OpencorporaTag.__contains__", "pymorphy2/tagset.py:OpencorporaTag._assert_grammemes_are_known"]}
{"id": "C23", "title": "Tag attributes return a grammeme of their own category or None", "statement": "tag.POS, tag.case, ... return None iff the tag has no grammeme of the category, otherwise a grammeme that belongs both to the tag and to the category; comparing it to a grammeme outside the category raises ValueError, to None gives False.", "quantifier": "every tag, category and comparison value", "why_tests_cant": "Universal over tags.", "anchors": ["pymorphy2/tagset.py:_select_grammeme_from"]}
{"id": "C24", "title": "Latin/Cyrillic tag translation round-trips", "statement": "When every grammeme has its own Cyrillic name, cyr2lat(lat2cyr(s)) == s for every tag string of known grammemes with single spaces; when two grammemes share an alias the round trip loses information, and runs of whitespace are collapsed (concrete witnesses).", "quantifier": "every tag string and grammeme table", "why_tests_cant": "Universal over tag strings and tables.", "anchors": ["pymorphy2/tagset.py:_translate_tag", "pymorphy2/tagset.py:OpencorporaTag.cyr2lat", "pymorphy2/tagset.py:OpencorporaTag.lat2cyr", "pymorphy2/tagset.py:OpencorporaTag.add_grammemes_to_known"]}
{"id": "C25", "title": "updated_grammemes adds the requirement and removes exactly the incompatible grammemes", "statement": "The result is (tag grammemes ∪ required) minus the union of the grammemes declared incompatible with a required one, independent of iteration order; it raises iff a required grammeme is unknown.", "quantifier": "every tag, requirement, grammeme table", "why_tests_cant": "Set iteration order is unspecified; all subsets.", "anchors": ["pymorphy2/tagset.py:OpencorporaTag.updated_grammemes", "pymorphy2/tagset.py:OpencorporaTag._init_grammemes"]}
{"id": "C26", "title": "Loading dictionaries mutates the shared tag class: what survives and what does not", "statement": "After loading any dictionary and binding the default units, exactly the dictionary grammemes plus the unit grammemes are known, whatever was loaded before; so re-creating an analyzer of the same kind does not change membership answers. Creating an analyzer with fewer units makes a grammeme unknown for previously created analyzers (concrete witness).", "quantifier": "every history of dictionary loads and unit bindings", "why_tests_cant": "Depends on the whole history of the process.", "anchors": ["pymorphy2/tagset.py:OpencorporaTag._init_grammemes", "pymorphy2/tagset.py:OpencorporaTag.add_grammemes_to_known", "pymorphy2/analyzer.py:MorphAnalyzer.__init__"]}
{"id": "C27", "title": "Caches are transparent under every thread schedule, as long as no analyzer is being created", "statement": "is_latin_char, memoized functions, latin2cyr/cyr2lat-cached tag views and lazily computed tag attributes return the value of the underlying function for every interleaving of cache reads, computations and cache writes by any number of threads, provided no analyzer is created meanwhile, and every such schedule lets each thread finish. The same holds for parse(), tag() and normal_forms() of any analyzers, and for lexeme, normalized, inflect() and make_agree_with_number() of any analyses, which use these caches: every thread gets the result it would get alone. A tag whose Cyrillic view was computed before an analyzer for another language extended the tables keeps the old (stale) view for ever, and a view computed in the middle of a constructor stays untranslated (concrete schedules).", "quantifier": "every schedule, every number of threads and calls", "why_tests_cant": "Schedules cannot be enumerated by tests.", "anchors": ["pymorphy2/shapes.py:is_latin_char", "pymorphy2/cache.py:memoized_with_single_argument", "pymorphy2/tagset.py:OpencorporaTag.grammemes"]}
{"id": "C28", "title": "Creating an analyzer is not atomic for threads that use another one", "statement": "There is a schedule in which a membership test on a tag (and hence parsing of a \"по-...\" word) by one thread raises RuntimeError, and one in which it raises ValueError for a grammeme every dictionary has, while another thread is inside MorphAnalyzer(); two constructors running together can also make one of them fail. However, a membership test never silently gives a wrong answer under any schedule; and if constructor steps are not interleaved with queries, no schedule makes a query raise. parse(), tag() and normal_forms() themselves: under every schedule the result is the right one, or RuntimeError or ValueError is raised (concrete schedules for \"по-коту\"); it is always the right one for a word without a hyphen, for an analyzer without HyphenAdverbAnalyzer (Ukrainian), and when constructors are not interleaved. lexeme and normalized of an analysis: the right result, RuntimeError or ValueError (concrete schedules for an abbreviated first name); inflect() and make_agree_with_number() likewise if the dictionaries being loaded do not change the table of incompatible grammemes, which is so when the dictionary in use is loaded again and its grammemes form a tree of at most three levels; while a different dictionary is loaded inflect() can return a form that is right neither before nor after (concrete schedule).", "quantifier": "every schedule of constructor steps and queries", "why_tests_cant": "Race window; tests would have to hit it.", "anchors": ["pymorphy2/tagset.py:OpencorporaTag._init_grammemes", "pymorphy2/analyzer.py:MorphAnalyzer.__init__", "pymorphy2/units/by_hyphen.py:HyphenAdverbAnalyzer.should_parse"]}
{"id": "C29", "title": "Pickling an analyzer", "statement": "Unpickling re-creates the analyzer with the same path, lang, result type and units; it is the same analyzer configuration iff probability_estimator_cls and char_substitutes were left at their defaults (they are dropped otherwise: concrete witness).", "quantifier": "every constructor argument combination", "why_tests_cant": "All argument combinations.", "anchors": ["pymorphy2/analyzer.py:MorphAnalyzer.__reduce__", "pymorphy2/analyzer.py:MorphAnalyzer.__init__"]}
{"id": "C30", "title": "The tokenizer loses nothing but whitespace", "statement": "simple_word_tokenize(text): concatenating the tokens gives the text without whitespace; every token is either a maximal run of word characters/hyphens or a single other non-space character; re-tokenizing the tokens joined with spaces gives the same tokens.", "quantifier": "every text", "why_tests_cant": "Universal over texts.", "anchors": ["pymorphy2/tokenizers.py:simple_word_tokenize"]}
{"id": "C31", "title": "restore_capitalization only changes case and follows the example", "statement": "The result equals the word up to case and keeps its hyphen structure; each hyphen part takes lower/upper/title case according to the corresponding part of the example and parts beyond it are lower-cased.", "quantifier": "every word and example", "why_tests_cant": "Universal over strings.", "anchors": ["pymorphy2/shapes.py:restore_capitalization", "pymorphy2/shapes.py:_make_the_same_case"]}
{"id": "C32", "title": "Unknown-prefix splitting respects its bounds", "statement": "word_splits(word) lists exactly the splits prefix+rest with 1 <= len(prefix) <= 5 and len(rest) >= 3, by increasing prefix length; hence UnknownPrefixAnalyzer only produces parses whose prefix is at most 5 and whose dictionary word is at least 3 letters long.", "quantifier": "every word and bounds", "why_tests_cant": "Universal over words.", "anchors": ["pymorphy2/utils.py:word_splits", "pymorphy2/units/by_analogy.py:UnknownPrefixAnalyzer.parse"]}
{"id": "C33", "title": "longest_common_substring is correct", "statement": "The result is a substring of all given strings and no common substring is longer; among the longest it is the one starting leftmost in the first string.", "quantifier": "every non-empty list of strings", "why_tests_cant": "Universal over lists of strings.", "anchors": ["pymorphy2/utils.py:longest_common_substring"]}
{"id": "C34", "title": "largest_elements is correct", "statement": "Returns, in order, exactly the elements whose key is among the n largest distinct keys.", "quantifier": "every list, key function and n", "why_tests_cant": "Universal.", "anchors": ["pymorphy2/utils.py:largest_elements"]}
{"id": "C35", "title": "Paradigm extraction is lossless", "statement": "_to_paradigm(lexeme) yields stem and (suffix, tag, prefix) triples such that prefix+stem+suffix is the original form, tags are kept in order and every prefix is an allowed paradigm prefix (or empty).", "quantifier": "every lexeme and every list of paradigm prefixes", "why_tests_cant": "Universal over lexemes.", "anchors": ["pymorphy2/opencorpora_dict/compile.py:_to_paradigm"]}
{"id": "C36", "title": "A compiled dictionary contains exactly the source lexemes", "statement": "If compilation succeeds, then for each (joined) lexeme every form is found under some paradigm with its tag, its normal form is the first form, and its lexeme as reported by the dictionary is the source lexeme; conversely every word entry comes from a source lexeme.", "quantifier": "every list of lexemes and paradigm prefixes", "why_tests_cant": "Universal over dictionaries.", "anchors": ["pymorphy2/opencorpora_dict/compile.py:compile_parsed_dict", "pymorphy2/opencorpora_dict/wrapper.py:Dictionary", "pymorphy2/units/by_lookup.py:DictionaryAnalyzer.get_lexeme"]}
{"id": "C37", "title": "Suffix-prediction data is faithful to the dictionary", "statement": "Each stored ending record (count, paradigm, form) has a popular enough paradigm, a frequent enough ending, a form suffix that ends the ending, belongs to the right paradigm prefix and is most frequent for its part of speech; the count is at least the number of dictionary entries with that ending and analysis, and equals it when no such word is shorter than the ending limit. For shorter words the count is inflated (concrete witness).", "quantifier": "every word list and option values", "why_tests_cant": "Universal over dictionaries; the over-count is invisible in sample checks.", "anchors": ["pymorphy2/opencorpora_dict/compile.py:_suffixes_prediction_data", "pymorphy2/opencorpora_dict/compile.py:_get_suffixes_dawg_data"]}
{"id": "C38", "title": "Joining linked lexemes keeps every form and terminates on acyclic links", "statement": "If links are acyclic and refer to existing lexemes, _join_lexemes terminates and the multiset of (form, tag) pairs is unchanged; a linked lexeme ends up in the lexeme of its link source. With a self link all forms of the lexeme are lost, and a later link to it never terminates (concrete witnesses).", "quantifier": "every set of lexemes and list of links", "why_tests_cant": "Universal over link graphs; non-termination.", "anchors": ["pymorphy2/opencorpora_dict/compile.py:_join_lexemes"]}
{"id": "C39", "title": "Tag simplification preserves grammemes", "statement": "simplify_tags keeps words, order and number of forms and maps every tag to one with the same grammemes up to loc1/gen1/acc1 normalisation. A tag text whose normalised spelling is used in the dictionary beside a competing spelling of the same meaning becomes the most frequent spelling (of equally frequent ones the first seen); every other tag text becomes its own normalised spelling. With skip_space_ambiguity, spellings compete only if two of them have their first space at the same place. Without loc1/gen1/acc1 a second pass changes nothing; with them it can (concrete witness). The claim that no loc1/gen1/acc1 is left is false (concrete witness).", "quantifier": "every parsed dictionary", "why_tests_cant": "Depends on global tag-frequency patterns.", "anchors": ["pymorphy2/opencorpora_dict/preprocess.py:simplify_tags", "pymorphy2/opencorpora_dict/preprocess.py:_get_duplicate_tag_replaces", "pymorphy2/opencorpora_dict/preprocess.py:_simplify_tag"]}
{"id": "C40", "title": "Initials are removed from the dictionary, nothing else", "statement": "drop_unsupported_parses removes exactly the forms whose tag text contains \"Init\", keeping all other forms, their order and all lexeme ids.", "quantifier": "every parsed dictionary", "why_tests_cant": "Universal.", "anchors": ["pymorphy2/opencorpora_dict/preprocess.py:drop_unsupported_parses"]}
{"id": "C41", "title": "paradigms.array round-trips", "statement": "Loading a saved paradigms.array gives back the saved paradigms, for any list of at most 65535 paradigms of length at most 65535 with 16-bit entries on a machine of the same byte order; saving fails otherwise; across byte orders the data is corrupted (concrete witness).", "quantifier": "every list of paradigms, both byte orders", "why_tests_cant": "Universal over files.", "anchors": ["pymorphy2/opencorpora_dict/storage.py:save_compiled_dict", "pymorphy2/opencorpora_dict/storage.py:_load_paradigms"]}
{"id": "C42", "title": "Crash safety of saving a dictionary", "statement": "If saving into a fresh folder is interrupted at any point, loading the folder fails (no half-written dictionary is accepted); when overwriting an existing dictionary an interruption can leave a loadable mixture of old and new files (concrete witness).", "quantifier": "every crash point, every dictionary", "why_tests_cant": "Crash points cannot be enumerated by tests.", "anchors": ["pymorphy2/opencorpora_dict/storage.py:save_compiled_dict", "pymorphy2/opencorpora_dict/storage.py:load_dict", "pymorphy2/opencorpora_dict/compile.py:_create_out_path"]}
{"id": "C43", "title": "Meta data update", "statement": "update_meta keeps all other keys and their order, sets the given ones; values survive except JSON reals, which become strings; an interruption while rewriting leaves the dictionary unloadable.", "quantifier": "every meta file and update", "why_tests_cant": "Universal.", "anchors": ["pymorphy2/opencorpora_dict/storage.py:update_meta", "pymorphy2/opencorpora_dict/storage.py:load_meta", "pymorphy2/opencorpora_dict/storage.py:write_meta"]}
{"id": "C44", "title": "Dictionary format check", "statement": "A dictionary is accepted iff its format_version is of the form \"2.x\" with a single dot.", "quantifier": "every version string", "why_tests_cant": "Universal over strings.", "anchors": ["pymorphy2/opencorpora_dict/storage.py:_assert_format_is_compatible"]}
{"id": "C45", "title": "Roman numbers", "statement": "is_roman_number(token) holds exactly for the canonical Roman numerals of 1..4999 in any letter case, optionally followed by one newline, and for a lone newline.", "quantifier": "every token", "why_tests_cant": "Infinite language; the newline case is a corner nobody samples.", "anchors": ["pymorphy2/shapes.py:is_roman_number", "pymorphy2/shapes.py:ROMAN_NUMBERS_RE"]}
{"id": "C46", "title": "Number tokens", "statement": "NumberAnalyzer tags a token NUMB,intg iff it is a (signed, padded, underscored) run of decimal digits, not longer than the interpreter allows (CPython 3.11: 4300 digits), and NUMB,real iff it is not but is a decimal floating literal with point or comma, or inf/nan words; so there are number-tagged tokens without any digit, and an integer of more than 4300 digits is tagged as a real number (concrete witnesses).", "quantifier": "every token", "why_tests_cant": "Universal over strings.", "anchors": ["pymorphy2/units/by_shape.py:NumberAnalyzer.check_shape"]}
{"id": "C47", "title": "Latin and punctuation shapes", "statement": "is_latin holds iff the token has a letter and all its letters are Latin; is_punctuation iff it has a non-space character and all of those are punctuation; the two exclude each other; neither depends on the cache contents.", "quantifier": "every token", "why_tests_cant": "Universal over strings.", "anchors": ["pymorphy2/shapes.py:is_latin", "pymorphy2/shapes.py:is_punctuation"]}
{"id": "C48", "title": "CLI output does not depend on the cache option", "statement": "For every input, \"pymorphy parse\" writes the same text with no cache, an unlimited cache or an LRU cache of any size.", "quantifier": "every token stream and cache size/eviction behaviour", "why_tests_cant": "All streams and sizes.", "anchors": ["pymorphy2/cli.py:parse", "pymorphy2/cache.py:memoized_with_single_argument"]}
{"id": "C49", "title": "CLI output shape and threshold", "statement": "Each token produces exactly one record token{...}; with a threshold only analyses with score at least the threshold are shown, in order; lemma mode sums the scores of the parses with this lemma and lists lemmas by non-increasing weight.", "quantifier": "every token, every list of parses and every threshold", "why_tests_cant": "Universal.", "anchors": ["pymorphy2/cli.py:_TokenParserFormatter", "pymorphy2/cli.py:_iter_tokens_notokenize"]}
{"id": "C50", "title": "Iteration over known words is sound and complete", "statement": "iter_known_word_parses(prefix) yields exactly the dictionary entries whose word starts with prefix, each with the tag and normal form dictionary lookup gives.", "quantifier": "every prefix and dictionary", "why_tests_cant": "Universal.", "anchors": ["pymorphy2/analyzer.py:MorphAnalyzer.iter_known_word_parses", "pymorphy2/opencorpora_dict/wrapper.py:Dictionary.iter_known_words"]}
{"id": "C51", "title": "Optional C extension does not change prefix matching", "statement": "For non-empty, pairwise different prefixes, the DAWG based and the pure-Python prefix matcher make KnownPrefixAnalyzer try the same splits in the same order (longest prefix first), and is_prefixed agrees.", "quantifier": "every prefix list and word", "why_tests_cant": "Universal.", "anchors": ["pymorphy2/dawg.py:DawgPrefixMatcher", "pymorphy2/dawg.py:PythonPrefixMatcher", "pymorphy2/units/by_analogy.py:KnownPrefixAnalyzer.possible_splits"]}
{"id": "C52", "title": "Hyphenated-word analysis only for one inner hyphen", "statement": "HyphenatedWordsAnalyzer produces parses only for words with exactly one hyphen, not at either end, and not starting with a known prefix; \"both parts\" parses have parts of equal POS/number/case/person/tense features and the left tag, \"fixed left\" parses have the right tag and keep the left part verbatim.", "quantifier": "every word", "why_tests_cant": "Universal.", "anchors": ["pymorphy2/units/by_hyphen.py:HyphenatedWordsAnalyzer._should_parse", "pymorphy2/units/by_hyphen.py:HyphenatedWordsAnalyzer.parse"]}
{"id": "C53", "title": "Particles are split once and kept", "statement": "For the shipped particle lists a word ends with at most one particle; particle parses are the parses of the rest with the particle re-attached to word and normal form.", "quantifier": "every word", "why_tests_cant": "Universal.", "anchors": ["pymorphy2/units/by_hyphen.py:HyphenSeparatedParticleAnalyzer"]}
{"id": "C54", "title": "P(t|w) table", "statement": "Stored probabilities are the Laplace estimates truncated to 1e-6, lie in [0,1], keys of different (word, tag text) pairs never collide for tags without \":\"; words whose tags are equiprobable are omitted; lookup of a missing pair gives 0.", "quantifier": "every corpus count table, words and tags", "why_tests_cant": "Universal.", "anchors": ["pymorphy2/opencorpora_dict/probability.py:build_cpd_dawg", "pymorphy2/opencorpora_dict/probability.py:estimate_conditional_tag_probability", "pymorphy2/dawg.py:ConditionalProbDistDAWG"]}
{"id": "C55", "title": "XML lexeme reading", "statement": "Every <f> form of a lemma becomes, in order, one lower-cased form with the lemma grammemes, a space and the form grammemes (no surrounding spaces); lemmas without children or with a form without any information become empty; a lemma must have exactly one <l>.", "quantifier": "every XML tree", "why_tests_cant": "Universal.", "anchors": ["pymorphy2/opencorpora_dict/parse.py:_word_forms_from_xml_elem", "pymorphy2/opencorpora_dict/parse.py:parse_opencorpora_xml"]}
{"id": "C56", "title": "Dictionary path and language selection", "statement": "An explicit path wins over the environment variable, which wins over installed packages; the effective language is the requested one, else the dictionary language, else ru; a warning is issued iff the dictionary declares none (and none was requested) or a different one was requested.", "quantifier": "every argument/environment combination", "why_tests_cant": "Combination space incl. defaults.", "anchors": ["pymorphy2/analyzer.py:MorphAnalyzer.choose_dictionary_path", "pymorphy2/analyzer.py:MorphAnalyzer.choose_language", "pymorphy2/analyzer.py:lang_dict_path"]}
{"id": "C57", "title": "Unit groups: the first group with results wins", "statement": "parse() uses the units up to and including the first terminal unit at which something has been found, and no later one; nested lists make only their last element terminal.", "quantifier": "every unit list and word", "why_tests_cant": "Universal.", "anchors": ["pymorphy2/analyzer.py:MorphAnalyzer._init_units", "pymorphy2/analyzer.py:MorphAnalyzer.parse"]}
{"id": "C58", "title": "Suffix prediction uses the longest informative ending and normalised productivity", "statement": "For each paradigm prefix the word starts with, only the longest ending (at most max_suffix_length) with a productive record is used; scores are count/total*multiplier in (0, multiplier), non-increasing; words shorter than min_word_length give nothing.", "quantifier": "every word and prediction table", "why_tests_cant": "Universal.", "anchors": ["pymorphy2/units/by_analogy.py:KnownSuffixAnalyzer.parse"]}
{"id": "C59", "title": "Every tag has a source and only known grammemes", "statement": "The tag of every parse and of every form of its lexeme is a tag of the dictionary tag table or one that a unit of this analyzer created when it was initialised; for an analyzer built by the constructor all grammemes of these tags are known to its Tag class, so membership tests, inflect and the Cyrillic form work on them.", "quantifier": "every word, parse, lexeme form and constructed analyzer", "why_tests_cant": "Ranges over all words, dictionaries and unit lists, through nested units.", "anchors": ["pymorphy2/analyzer.py:MorphAnalyzer.parse", "pymorphy2/analyzer.py:MorphAnalyzer.get_lexeme", "pymorphy2/analyzer.py:MorphAnalyzer.__init__", "pymorphy2/tagset.py:OpencorporaTag"]}
{"id": "C60", "title": "A converted XML dictionary knows every form of the document", "statement": "When convert_to_pymorphy2 ends without an exception, the folder it leaves loads, and an analyzer over it gives, for every spelling of every form of the document, a parse with the word in lower case and the grammemes of that form (gen1/gent, loc1/loct and acc1/accs not distinguished; forms with the Init grammeme excepted). The lexeme of that parse is the lemma of the document, form by form in document order, and its normal form the lemma's first form, when no followed link touches the lemma; otherwise (no lemma being linked twice) the normal form is the first form of the lemma at the top of its links and the lexeme starts with that lemma's forms and holds the forms of exactly the lemmas under it. Without overwrite an existing folder is left untouched; if reading or compiling fails, no file is written.", "quantifier": "every document, form, spelling, option set and prior folder", "why_tests_cant": "Ranges over all documents and all words through the whole reader, preprocessing, compiler, writer, loader and analyzer chain.", "anchors": ["pymorphy2/opencorpora_dict/compile.py:convert_to_pymorphy2", "pymorphy2/opencorpora_dict/parse.py:parse_opencorpora_xml", "pymorphy2/opencorpora_dict/storage.py:load_dict", "pymorphy2/analyzer.py:MorphAnalyzer.parse"]}
{"id": "C61", "title": "The command line sees the same tokens however the text is broken into lines", "statement": "Without --tokenized, the tokens \"pymorphy parse\" works on are those of simple_word_tokenize applied to the whole text, for every way the file is split into lines, so output depends only on the tokens; with --tokenized they are the lines without surrounding white space, empty ones left out.", "quantifier": "every text and every division into lines", "why_tests_cant": "Universal over texts.", "anchors": ["pymorphy2/cli.py:_iter_tokens_tokenize", "pymorphy2/cli.py:_iter_tokens_notokenize"]}
{"id": "C62", "title": "The command line language", "statement": "\"pymorphy parse\" uses the units of the language given by --lang (default ru) whatever language the dictionary of --dict declares, and a warning is issued exactly when the dictionary does not declare that language.", "quantifier": "every option set, dictionary and environment", "why_tests_cant": "Combination space.", "anchors": ["pymorphy2/cli.py:main", "pymorphy2/analyzer.py:MorphAnalyzer.choose_language"]}
{"id": "C63", "title": "Parse scores are probabilities; their order", "statement": "Every parse score lies in [0,1] if the configured scores/multipliers do (the shipped ones do) and the P(t|w) table does; without an estimator it is never 0. If the table knows a probability for some reading of the word, the scores are the P(t|w) and the list is sorted by them. The documentation says parses are always sorted by descending score: false, with and without an estimator (a hyphenated word whose first part is not in the dictionary).", "quantifier": "every analyzer configuration, dictionary and word", "why_tests_cant": "All words and configurations.", "anchors": ["pymorphy2/analyzer.py:MorphAnalyzer.parse", "pymorphy2/analyzer.py:ProbabilityEstimator.apply_to_parses"]}
{"id": "C64", "title": "Letter case matters only for initials and shapes", "statement": "Two spellings of equal length that lower-case to the same word, are not configured initials and get the same answers from the shape tests have the same tags and the same parses, except that a methods stack that quotes the word quotes its spelling. Words that start with a letter of a non-Latin script always pass the shape condition. For initials the claim is false (А and а).", "quantifier": "every analyzer, every pair of spellings", "why_tests_cant": "All pairs of spellings.", "anchors": ["pymorphy2/analyzer.py:MorphAnalyzer.parse", "pymorphy2/analyzer.py:MorphAnalyzer.tag"]}
{"id": "C65", "title": "Known prefixes: exactly the productive readings of the remainder", "statement": "For every configured prefix the word (lower-cased) starts with and that leaves a remainder of the minimal length, the known-prefix unit returns exactly the productive readings of the remainder with the prefix put back, longest prefixes first; the unknown-prefix unit is complete for its splits. A configured prefix with a capital letter can never match; 75 prefixes shipped for Ukrainian are dead for that reason.", "quantifier": "every prefix list, dictionary and word", "why_tests_cant": "All words and prefix lists.", "anchors": ["pymorphy2/units/by_analogy.py:KnownPrefixAnalyzer", "pymorphy2/units/by_analogy.py:UnknownPrefixAnalyzer"]}
{"id": "C66", "title": "Adding P(t|w) estimates to a dictionary: effect, crash points, repetition", "statement": "After a successful add_conditional_tag_probability run every constructor call selecting the folder behaves as the same call with probability_estimator_cls=None did before, plus the estimated table; meta.json gains exactly four keys with the right counts and no other file changes. Interrupted at any write: before meta.json is opened nothing changes for users of a dictionary without a table, afterwards the folder is refused. On a dictionary that already had a table an interruption destroys the old one. The last of several successful runs determines all files.", "quantifier": "every dictionary folder, corpus, threshold, crash point, constructor arguments and sequence of two runs", "why_tests_cant": "All crash points and folder contents.", "anchors": ["pymorphy2/opencorpora_dict/probability.py:add_conditional_tag_probability", "pymorphy2/opencorpora_dict/storage.py:update_meta", "pymorphy2/analyzer.py:ProbabilityEstimator"]}
{"id": "C67", "title": "Compiling or saving a dictionary while analyzers exist", "statement": "The tag class is shared by all analyzers of a process. After a successful save (or conversion) it knows exactly the grammemes of the saved table, so grammemes that the units of an existing analyzer had added (PNCT, UNKN, NUMB, ...) are gone and a test for them raises ValueError. Parses, tags, lexemes and normal forms of existing analyzers do not change as long as the saved table has ADJF, sing, datv and masc (otherwise even parse() of a word such as по-коту can raise ValueError); inflect() is unchanged when the saved table is the one the analyzer was loaded with. A conversion that is refused or fails before saving changes nothing.", "quantifier": "every state of the tag classes, analyzer, grammeme table, compiled dictionary, word, parse and set of required grammemes", "why_tests_cant": "Interaction of two unrelated operations over every table, analyzer and word.", "anchors": ["pymorphy2/tagset.py:OpencorporaTag._init_grammemes", "pymorphy2/opencorpora_dict/storage.py:save_compiled_dict", "pymorphy2/opencorpora_dict/compile.py:convert_to_pymorphy2"]}
{"id": "C68", "title": "Dictionaries with Cyrillic grammeme names (format opencorpora-ext)", "statement": "The file gramtab-opencorpora-ext.json of a saved dictionary lists for each tag exactly what Tag.lat2cyr gives (if no other table was seen in the process; otherwise names of the other table are replaced too). Such a dictionary cannot be loaded in this format: load_dict raises ValueError as soon as one used grammeme has a Cyrillic name that is not itself a grammeme name. Trying to load one never changes what existing analyzers answer to parse, tag, lexeme and normal form; inflect() can change the first time only. is_productive() of a tag of the Cyrillic class goes by the Cyrillic names of the non-productive grammemes and updated_grammemes() with grammemes of the table removes nothing, so the two classes answer differently about the same tag text.", "quantifier": "every grammeme table whose names can be told apart, compiled dictionary, folder content and state of the tag classes", "why_tests_cant": "All tables and tags; histories of saves and loads in one process.", "anchors": ["pymorphy2/tagset.py:CyrillicOpencorporaTag", "pymorphy2/opencorpora_dict/storage.py:save_compiled_dict", "pymorphy2/opencorpora_dict/storage.py:load_dict"]}
{"id": "C69", "title": "Lexemes of words analysed through a shorter word", "statement": "The lexeme of a parse made with a known prefix is, form by form and in the same order, the lexeme of a parse of the rest with the prefix put before word and normal form (tags unchanged); likewise a particle is put after every form, an unchanging left part and a hyphen before every form of the right part; when both parts inflect, the forms are those of the right part, each behind the first form of the left lexeme whose grammemes differ least from its own (gen1/gent, loc1/loct and V-oy/V-ey not distinguished), and carry the tag of that left form. Unknown prefixes and known endings give the lexeme of the dictionary form the word was likened to. Scores never influence a lexeme.", "quantifier": "every analyzer with non-empty prefixes and particles, word, and parse of it made by such a unit", "why_tests_cant": "All words and dictionaries, and analyses nested to any depth.", "anchors": ["pymorphy2/analyzer.py:MorphAnalyzer.get_lexeme", "pymorphy2/units/by_analogy.py:_PrefixAnalyzer", "pymorphy2/units/by_hyphen.py:HyphenatedWordsAnalyzer._iter_lexeme", "pymorphy2/units/base.py:AnalogyAnalizerUnit.get_lexeme"]}
{"id": "C70", "title": "Every form of a lexeme can be reached by inflecting to its grammemes", "statement": "Inflecting a parse to exactly the grammemes of a form of its lexeme gives that form (or the first form of the lexeme with the same grammemes, where homonymous forms exist), and inflecting the result back to the grammemes of the starting form returns there; the starting form does not matter. This needs that no other form of the lexeme has strictly more grammemes than the wanted one: from such a form the one with fewer grammemes cannot be reached (краснее from покраснее).", "quantifier": "every dictionary, word, simple reading of it, and form of its lexeme", "why_tests_cant": "All lexemes of all dictionaries, including predicted ones.", "anchors": ["pymorphy2/analyzer.py:MorphAnalyzer._inflect", "pymorphy2/analyzer.py:Parse.inflect", "pymorphy2/tagset.py:OpencorporaTag.updated_grammemes"]}
{"id": "C71", "title": "How many analyses one parse() or tag() call needs", "statement": "Every word that parse() or tag() analyses on the way is the given word or a strictly shorter piece of its lower-case form; the number of analyses is bounded (exponentially in the length), and by the length itself for hyphen-free words if no known prefix begins another. With the shipped Russian prefixes it is not bounded by any polynomial: each repetition of \"недо\" (не, до and недо are all known prefixes) in an unknown word doubles the number of analyses.", "quantifier": "every analyzer with the shipped units and every word", "why_tests_cant": "Word length is unbounded; the blow-up shows only on long words, on which a test would not end.", "anchors": ["pymorphy2/analyzer.py:MorphAnalyzer.parse", "pymorphy2/analyzer.py:MorphAnalyzer.tag", "pymorphy2/units/by_analogy.py:KnownPrefixAnalyzer.parse", "pymorphy2/lang/ru/config.py:KNOWN_PREFIXES"]}
{"id": "C72", "title": "Floating-point rounding does not change the analyses", "statement": "Scores are floats: the result of every multiplication, division and addition is rounded to 53 bits. The readings parse() and tag() return, their order and the exceptions raised are nevertheless those of exact arithmetic (positive configured scores, 16-bit counts as in the file format, a P(t|w) table); scores stay between 0 and 1; without a P(t|w) table a score is off by at most a factor (1 + 2^-52)^(3n+3) for a word of n characters; with a table, normalised scores of n readings add up to 1 within a factor (1 + 2^-52)^(n+2), and not always exactly; inflect() chooses the same form unless tags of the lexeme differ in size by 12 grammemes or more (then rounding of 0.1 * n can break a tie); the P(t|w) table built from a corpus has the same keys, its values are at most one millionth off (and can be: 41/80 is stored as 512499) and never in the wrong order. Underflow: no score leaves the normal range of doubles for words of up to 978 characters without a table (with one: 138 characters when no piece of the word has more than 64 readings); without a table the readings are right for every length, though a score can become 0 after a thousand nested prefixes.", "quantifier": "every analyzer configuration, word, reading, required grammeme set and corpus (within the size limits stated)", "why_tests_cant": "Rounding errors depend on the counts in the data; a test sees a handful of values, a changed order may need one particular pair of counts among 2^32.", "anchors": ["pymorphy2/analyzer.py:ProbabilityEstimator.apply_to_parses", "pymorphy2/analyzer.py:MorphAnalyzer._inflect", "pymorphy2/units/by_analogy.py:KnownSuffixAnalyzer.parse", "pymorphy2/dawg.py:ConditionalProbDistDAWG", "pymorphy2/opencorpora_dict/probability.py:build_cpd_dawg"]}
{"id": "C73", "title": "Every saved dictionary opens, and \"pymorphy dict meta\" shows its metadata", "statement": "A dictionary that was compiled and completely saved, into any folder, opens as an analyzer with the compiled contents for any requested language; \"pymorphy dict meta --dict path\" then prints one \"key: value\" line for each of the sixteen metadata entries, with the true sizes of the gramtab, the paradigms, the suffixes and the DAWGs. For any folder the command prints one line per metadata entry or only the constructor exception.", "quantifier": "every compiled dictionary, folder, previous folder content, requested language and grammeme table", "why_tests_cant": "Dictionary contents are unbounded; the printed sizes must agree with them for all of them.", "anchors": ["pymorphy2/cli.py:show_dict_meta", "pymorphy2/cli.py:main", "pymorphy2/opencorpora_dict/storage.py:save_compiled_dict", "pymorphy2/opencorpora_dict/storage.py:load_dict", "pymorphy2/analyzer.py:MorphAnalyzer.__init__"]}
{"id": "C74", "title": "combinations_of_all_lengths lists every non-empty choice once", "statement": "combinations_of_all_lengths(iterable) yields, for every non-empty choice of positions in the input, the items at those positions in input order, each choice exactly once (2^n - 1 in all), shorter ones first and equally long ones in lexicographic order of positions.", "quantifier": "every input of any length, with or without repeated items", "why_tests_cant": "The number of results is exponential in an unbounded length; a test sees a few lengths only.", "anchors": ["pymorphy2/utils.py:combinations_of_all_lengths"]}
{"id": "C75", "title": "Analyzers never share or alter the unit objects they are given", "statement": "Each analyzer binds its own fresh copies of the given units: a copy has the class and the arguments of its original (also the default ones), the originals are left as they were, and no two analyzers (nor two places of one units list) share a unit object - so one list of units, e.g. the DEFAULT_UNITS of a language config, can be used for any number of analyzers. Refuted for arguments that are one-shot iterators (lost on cloning or after the first analyzer). On a Python without inspect.getargspec every units list with anything but DictionaryAnalyzer and UnknAnalyzer raises AttributeError. kwargs_repr shows entries ordered by name, whatever the order of the dict, and does not depend on hidden values.", "quantifier": "every sequence of constructor calls, every units list with nested groups, every number of analyzers made one after the other", "why_tests_cant": "Sharing of mutable state shows only over histories of constructions; arguments, lists and numbers of analyzers are unbounded.", "anchors": ["pymorphy2/units/base.py:BaseAnalyzerUnit.clone", "pymorphy2/units/base.py:BaseAnalyzerUnit._get_params", "pymorphy2/analyzer.py:MorphAnalyzer._init_units", "pymorphy2/analyzer.py:MorphAnalyzer._bound_unit", "pymorphy2/utils.py:kwargs_repr"]}
{"id": "C76", "title": "A dictionary answers exactly what its source lexemes say", "statement": "For a known word parse() gives, up to order and scores, one answer (word, tag, normal form, lexeme) for each occurrence of the word - or of a spelling with substituted characters - as a form of a joined source lexeme, and no other answer; the lexeme reported is the source lexeme. Therefore dictionaries compiled from the same lexemes know the same words and give the same answers for them, whatever the order, numbering or repetition of lexemes, the compile options and the P(t|w) estimates. The order of answers and predictions for unknown words do depend on them (witnesses).", "quantifier": "every source, every pair of compile options and orders, every known word in any letter case", "why_tests_cant": "Compilation shares paradigms, suffixes and tags between lexemes through global numbering; that this never leaks into answers must hold for all sources.", "anchors": ["pymorphy2/opencorpora_dict/compile.py:compile_parsed_dict", "pymorphy2/opencorpora_dict/compile.py:_to_paradigm", "pymorphy2/analyzer.py:MorphAnalyzer.parse", "pymorphy2/units/by_lookup.py:DictionaryAnalyzer"]}
{"id": "C77", "title": "Forms of a lexeme are found again; normal forms are fixed points", "statement": "For a known word, parse(f.word) contains, for every form f of the lexeme of every parse p, a parse with the tag of f, the normal form of p and the lexeme of p; in particular p.normal_form is among normal_forms(p.normal_form). Lemmatising with the first parse is not idempotent (witness), and normal forms of predicted words need not be normal forms of themselves (witness).", "quantifier": "every compiled dictionary, known word, parse and form", "why_tests_cant": "Closure of the readings under taking forms must hold for all lexemes, including homonyms and shared paradigms.", "anchors": ["pymorphy2/analyzer.py:MorphAnalyzer.parse", "pymorphy2/analyzer.py:Parse.lexeme", "pymorphy2/analyzer.py:MorphAnalyzer.normal_forms"]}
{"id": "C78", "title": "Every parse has a lexeme, a normal form and inflections, at any depth", "statement": "For every parse obtainable from an analyzer with the shipped units (a result of parse() for any string, or of iter_known_word_parses(), a member of the lexeme of an obtainable parse, its normalized form, the result of inflecting it, and so on), p.lexeme does not raise and is not empty, p.normalized does not raise, and p.inflect(grammemes of the table) does not raise. This covers predicted words, hyphenated words whose parts both inflect and any nesting of prefixes and particles.", "quantifier": "every string, analyzer with the shipped units, and chain of lexeme / normalized / inflect calls of any length", "why_tests_cant": "The forms of forms are an unbounded set, and the method stacks they carry are re-interpreted at each step; a test follows a few chains of a few words.", "anchors": ["pymorphy2/analyzer.py:Parse.lexeme", "pymorphy2/analyzer.py:Parse.normalized", "pymorphy2/analyzer.py:Parse.inflect", "pymorphy2/units/by_hyphen.py:HyphenatedWordsAnalyzer.get_lexeme"]}
{"id": "C79", "title": "Nesting depth and recursion limits", "statement": "With the shipped units parse(word) and tag(word) never nest more than len(word.lower())/2 + 1 analyses, and the result does not depend on a larger allowance. But the depth grows with the word: whatever the dictionary, for every allowance n the word \"не\" repeated n + 2 + (length of the longest dictionary word) times needs more than n nested calls, in Russian and Ukrainian, so under any recursion limit parse() and tag() raise RecursionError for some words.", "quantifier": "every word, dictionary and allowance", "why_tests_cant": "A test tries words of a few lengths with one limit; the claim is about every limit, and for the upper bound about every word.", "anchors": ["pymorphy2/analyzer.py:MorphAnalyzer.parse", "pymorphy2/analyzer.py:MorphAnalyzer.tag", "pymorphy2/units/by_analogy.py:KnownPrefixAnalyzer.parse"]}
{"id": "C80", "title": "Order of dictionary records", "statement": "Whatever the source, a compiled dictionary stores its words (and prediction endings) in the order of code points and the records of one word in the order of their base64 texts; so the order of the source leaves no trace: two dictionaries with the same records are identical. iter_known_word_parses lists words in that order and readings of a word in the order of records; without a P(t|w) table parse() of a dictionary word gives the readings of each spelling in the order of records. That is the order of numbers for the forms (below 208) of one paradigm and for paradigms 0-12, but not in general (dawg.py claims \"properly sorted\"): of sixteen paradigms 16k..16k+15 the last three come first, e.g. a reading of paradigm 13 before one of paradigm 0.", "quantifier": "every source, option set, prefix and dictionary word", "why_tests_cant": "A test looks at a few words of one dictionary with small numbers, where the order looks numeric.", "anchors": ["pymorphy2/dawg.py:WordsDawg", "pymorphy2/opencorpora_dict/compile.py:compile_parsed_dict", "pymorphy2/analyzer.py:MorphAnalyzer.iter_known_word_parses", "pymorphy2/analyzer.py:MorphAnalyzer.parse"]}
{"id": "C81", "title": "Counting again", "statement": "make_agree_with_number(n) applied again to its own result keeps the grammemes of the result when n ends like 1 or 5, and for nouns in oblique cases; adjectives likewise. But it is not idempotent: a noun in the nominative or accusative agreed with a number like 2 is genitive singular, and agreed again with the same number always becomes genitive plural (\"2 кота\" -> \"2 котов\"); a feminine adjective goes from nominative plural to genitive plural; a vocative from nominative to genitive plural. Agreeing again with another number asks for what the first form would have been asked for if the case was kept, otherwise for the genitive. Parts of speech other than nouns, full adjectives and participles are left as they are.", "quantifier": "every integer, every reading of every word through one dictionary word, every choice of set elements", "why_tests_cant": "A test counts a few words once; the claim is about every number, lexeme and sequence of two counts.", "anchors": ["pymorphy2/analyzer.py:Parse.make_agree_with_number", "pymorphy2/tagset.py:OpencorporaTag.numeral_agreement_grammemes", "pymorphy2/analyzer.py:MorphAnalyzer._inflect"]}
{"id": "C82", "title": "Agreement with fractions", "statement": "make_agree_with_number accepts a Fraction or a (non-negative) float: for an integral value it does what it does for the integer; strictly between k and k+1 a noun in the nominative or accusative is put into the genitive, singular if k ends in 2 or 3 (but not 12, 13), else plural; other cases are kept, in the plural. So the Russian rule (genitive singular after every fraction: 1.5 рубля) is not followed.", "quantifier": "every rational number, every noun tag", "why_tests_cant": "All numbers.", "anchors": ["pymorphy2/analyzer.py:Parse.make_agree_with_number", "pymorphy2/tagset.py:OpencorporaTag.numeral_agreement_grammemes"]}
{"id": "C83", "title": "Writing е for ё (or г for ґ)", "statement": "A dictionary word written without some of its dots keeps every reading: parse() of the dotted spelling returns exactly those readings of the undotted one whose word fits the dotted spelling; tags and normal forms are kept likewise, and word_is_known stays true. Without P(t|w) estimates the readings of the word exactly as written come first. For words outside the dictionary the claim is false: a prediction can be lost by omitting the dots (witness).", "quantifier": "every dictionary, substitution table that does not substitute its own results, word and choice of omitted dots", "why_tests_cant": "All words and all subsets of their letters.", "anchors": ["pymorphy2/analyzer.py:MorphAnalyzer.parse", "pymorphy2/analyzer.py:MorphAnalyzer.tag", "pymorphy2/analyzer.py:MorphAnalyzer.normal_forms", "pymorphy2/analyzer.py:MorphAnalyzer.word_is_known", "pymorphy2/units/by_lookup.py:DictionaryAnalyzer", "pymorphy2/dawg.py"]}
{"id": "C84", "title": "Adverbs with по-", "statement": "The unit for such adverbs answers for a lower-cased word exactly if it is \"по-\" followed by at least two letters that tag() can read as an adjective in the dative singular; it then gives one reading: the word itself as form and normal form, tag ADVB, score 0.7 by default. Every reading that parse() takes from this unit is of that kind. With the default Russian units an unknown word of this shape (not in the dictionary, not an initial, not ending in a particle) has only this reading in parse() and only this tag in tag(); its lexeme is itself and so is its normalized form. The documented bound \"longer than five characters\" is false: five characters are enough (witness).", "quantifier": "every analyzer whose tag class knows ADJF, sing and datv, every word", "why_tests_cant": "All words and dictionaries; the remainder is itself analysed by the whole analyzer.", "anchors": ["pymorphy2/units/by_hyphen.py:HyphenAdverbAnalyzer", "pymorphy2/analyzer.py:MorphAnalyzer.parse", "pymorphy2/analyzer.py:MorphAnalyzer.tag", "docs/internals/prediction.rst"]}
{"id": "C85", "title": "How a word outside the dictionary is analysed", "statement": "With the default Russian or Ukrainian units, a word that is not in the dictionary, is no initial, has no hyphen and starts with a letter of a non-Latin script is analysed in three steps. If a known prefix leaves at least three letters with a reading of an open class, the readings (word and grammemes) are exactly those, with the prefix put back. Otherwise they are exactly the readings of dictionary words of an open class behind a prefix of one to five letters together with the productive records of the longest informative endings. If there are none of these either, there is one reading, UNKN. tag() gives exactly the same grammemes. The documented restriction of dictionary words behind unknown prefixes to nouns, adjectives, verbs, participles and gerunds is false (witness: an adverb).", "quantifier": "every dictionary, prediction table and word of that kind, with or without P(t|w) estimates", "why_tests_cant": "All words and dictionaries; the steps recurse into the whole analyzer and share de-duplication.", "anchors": ["pymorphy2/analyzer.py:MorphAnalyzer.parse", "pymorphy2/analyzer.py:MorphAnalyzer.tag", "pymorphy2/units/by_analogy.py", "pymorphy2/units/unkn.py", "pymorphy2/lang/ru/__init__.py", "docs/internals/prediction.rst"]}
{"id": "C86", "title": "Rules for words outside the dictionary, in order", "statement": "With the default units, a word that is not in the dictionary, is no initial and starts with a letter of a non-Latin script (it may have hyphens) is analysed by the first of these rules that gives a reading, and its readings (word and grammemes) are then exactly those of that rule: (1) a hyphen and a known particle at the end: the readings of the rest with the particle put back; (2) Russian only: \"po-\" before a dative singular adjective: one adverb; (3) one inner hyphen and no known prefix: right and left part with a part of speech and the same features, or any reading of the right part behind a fixed left part; (4) a known prefix before at least three letters of an open class; (5) unknown prefixes together with the longest informative endings; (6) UNKN. tag() gives exactly the grammemes of the same rule.", "quantifier": "every dictionary, prediction table and word of that kind, with or without P(t|w) estimates, Russian and Ukrainian units", "why_tests_cant": "All words and dictionaries; every rule recurses into the whole analyzer.", "anchors": ["pymorphy2/analyzer.py:MorphAnalyzer.parse", "pymorphy2/analyzer.py:MorphAnalyzer.tag", "pymorphy2/units/by_analogy.py", "pymorphy2/units/by_hyphen.py", "pymorphy2/units/unkn.py", "pymorphy2/lang/ru/config.py", "pymorphy2/lang/uk/config.py"]}
{"id": "C87", "title": "Creating analyzers, successfully or not, in one process", "statement": "All analyzers of a process share one tag class. Whatever state it is in, MorphAnalyzer(...) gives the same warnings and the same exception or the same analyzer. Afterwards the class is unchanged (and the call raised), or it knows exactly the grammemes of the table in the selected folder and of the units bound so far. However many analyzers are created, or fail to be created, after one was made: its parses, tags, lexemes and normal forms stay as they were if all the tables have ADJF, sing, datv and masc; inflect() stays if all have the same table, unless a grammeme of a unit is required. A failing call is not without effect: after it a membership test of an existing analyzer can raise ValueError (witness).", "quantifier": "every sequence of constructor calls with any folders, languages, units and failures, every class state, every word and parse", "why_tests_cant": "All histories of calls and all points at which a constructor can fail.", "anchors": ["pymorphy2/analyzer.py:MorphAnalyzer.__init__", "pymorphy2/analyzer.py:MorphAnalyzer._init_units", "pymorphy2/tagset.py:OpencorporaTag._init_grammemes", "pymorphy2/tagset.py:OpencorporaTag.add_grammemes_to_known", "pymorphy2/opencorpora_dict/storage.py:load_dict"]}
{"id": "C88", "title": "The answer for any word", "statement": "With the default units and any text whose lower-case form is not empty, parse() gives exactly the readings (word and grammemes) of the first of these rules that gives one. Russian: (1) dictionary forms that the lower-cased text spells (with character substitutes), and, for a capital initial, the six cases of first names and patronymics of both genders; (2) numbers: what int() accepts is intg, what float() accepts with commas as points is real; (3) punctuation; (4) Roman numbers below 5000 and texts whose letters are all Latin; then the rules of C86: particle, po-adverb, two parts with a hyphen, known prefix, analogy, UNKN. Ukrainian: the Roman and Latin readings are added already to (1), and there is no po-adverb. tag() gives exactly the grammemes of the same rule.", "quantifier": "every text with a non-empty lower-case form, every dictionary and prediction table, with or without P(t|w) estimates, Russian and Ukrainian units", "why_tests_cant": "All texts and dictionaries; every unit takes part and some recurse into the whole analyzer.", "anchors": ["pymorphy2/analyzer.py:MorphAnalyzer.parse", "pymorphy2/analyzer.py:MorphAnalyzer.tag", "pymorphy2/units", "pymorphy2/lang/ru/__init__.py", "pymorphy2/lang/uk/__init__.py"]}
{"id": "C89", "title": "The order and the numbering of the source lexemes do not change the readings of any word", "statement": "Compile the same lexemes in two different orders (with the same options) and use both dictionaries with the default units of the same language: parse() returns the same set of readings (word and grammemes) for every word with a non-empty lower-case form, known or unknown, and tag() the same set of tags; only the order of the readings may differ (C76). The reason: up to an injective numbering of the shapes of the lexemes, the compiled dictionary contains exactly the forms of the source lexemes, and for an ending exactly the records whose counts are the numbers of times the ending is met in a row of the lexemes of a popular shape, whenever the ending is frequent enough in total and the count is the largest of its part of speech.", "quantifier": "every list of lexemes, every permutation of it, every choice of options, every word; Russian and Ukrainian units without P(t|w) estimates", "why_tests_cant": "All dictionaries, all orders and all words: paradigm numbers, prefix and suffix numbers, counters and heaps all depend on the order.", "anchors": ["pymorphy2/opencorpora_dict/compile.py:compile_parsed_dict", "pymorphy2/opencorpora_dict/compile.py:_suffixes_prediction_data", "pymorphy2/analyzer.py:MorphAnalyzer.parse", "pymorphy2/analyzer.py:MorphAnalyzer.tag"]}
{"id": "C90", "title": "Adding lexemes to a dictionary never takes a reading away from a known word", "statement": "Take two dictionaries (compiled with any options) where the second contains all lexemes of the first, and a word whose lower-case form spells (with character substitutes) a form of the first. With the default units of the same language, every reading (word and grammemes) and every tag the first analyzer gives the word is also given by the second; every further reading is a form of a lexeme that is not in the first dictionary and that the word spells; and if the second dictionary has no other form the word spells, both give the same readings and tags. For a word the first dictionary does not know this fails: a new lexeme can take predictions away (C90_unknown_refuted).", "quantifier": "every pair of lexeme lists, one included in the other, every pair of compile options, every word known to the first dictionary; Russian and Ukrainian units without P(t|w) estimates", "why_tests_cant": "All dictionaries, all extensions of them and all words.", "anchors": ["pymorphy2/opencorpora_dict/compile.py:compile_parsed_dict", "pymorphy2/analyzer.py:MorphAnalyzer.parse", "pymorphy2/analyzer.py:MorphAnalyzer.tag", "pymorphy2/units/by_lookup.py:DictionaryAnalyzer.parse"]}
{"id": "C91", "title": "The compile options change only the predictions, and in a known way", "statement": "Compile the same lexemes twice. Words, paradigms, suffixes and tag texts do not depend on min_ending_freq, min_paradigm_popularity and max_suffix_length, and a known word gets the same readings and tags whatever the options. Raising min_ending_freq removes exactly the prediction records of the endings met less often; lowering max_suffix_length removes exactly those of the longer endings (for endings that are not whole source forms); raising min_paradigm_popularity leaves no record of a rarer paradigm and keeps those of the paradigms and endings that still meet the bounds. No ending is longer than max_suffix_length. Not true: that a higher popularity bound only removes records, that whole short forms keep their counts, that a higher min_ending_freq only removes readings of unknown words (C91_..._refuted).", "quantifier": "every list of lexemes and links, every pair of option sets differing as stated, every ending, paradigm and count; every word for the last part", "why_tests_cant": "All dictionaries and all option values; a test compiles one dictionary with one or two settings.", "anchors": ["pymorphy2/opencorpora_dict/compile.py:compile_parsed_dict", "pymorphy2/opencorpora_dict/compile.py:_suffixes_prediction_data", "pymorphy2/analyzer.py:MorphAnalyzer.parse"]}
{"id": "C92", "title": "A dictionary in the layout of format 2.4 gives the same analyzer", "statement": "Two dictionary folders that agree except for the place where they state the paradigm prefixes (compile_options in meta.json, or the file paradigm-prefixes.json of format 2.4) and the longest ending (compile_options or prediction_options) give the same analyzer, warnings and tag class, or the same exception, whatever the arguments of the constructor; what the newer place states wins over the older one. A folder that states one of them in neither place gives no analyzer.", "quantifier": "every world, every folder, every pair of layouts of the same content (old, new, mixed, with left-over files), every argument list", "why_tests_cant": "All folders and arguments; the test-suite has no dictionary in the old layout.", "anchors": ["pymorphy2/opencorpora_dict/storage.py:load_dict", "pymorphy2/units/by_analogy.py:KnownSuffixAnalyzer._max_suffix_length", "pymorphy2/analyzer.py:MorphAnalyzer.__init__"]}
{"id": "C93", "title": "Where a normal form comes from", "statement": "Each reading of parse(), and so each text listed by normal_forms(), is built in the same steps as its word: a dictionary form (spelled by the lower-cased text, letter substitutes included) becomes the first form of its paradigm with the stem kept; numbers, punctuation, Latin words, Roman numbers, initials, по- adverbs and unknown words are their own normal form; a particle, a known or unknown prefix and a fixed left part are kept as they are; two parts inflected alike are both normalised; a word predicted by its ending has the first form of the recorded paradigm, with as many characters taken off as the recorded form has.", "quantifier": "every text with a non-empty lower-case form, every dictionary in the format, with and without P(t|w) estimates, Russian and Ukrainian default units, any nesting of prefixes, hyphens and particles", "why_tests_cant": "All words, dictionaries and nestings; tests check listed normal forms only.", "anchors": ["pymorphy2/analyzer.py:MorphAnalyzer.normal_forms", "pymorphy2/opencorpora_dict/wrapper.py:Dictionary.build_normal_form", "pymorphy2/units/by_analogy.py:KnownPrefixAnalyzer.parse", "pymorphy2/units/by_hyphen.py:HyphenatedWordsAnalyzer.parse"]}
{"id": "C94", "title": "What the score of a reading is", "statement": "Without P(t|w) estimates the score of every reading is the product along the way it was made: 1 for a dictionary form, 0.1 for an initial, 0.9 for a number, punctuation, a Latin word or a Roman number, 0.7 for an adverb with по-, 1 for UNKN; 0.9 times the score of the rest for a particle, 0.75 times for a known prefix or a hyphenated word (with two inflected parts: that of the left one), 0.5 for a dictionary word behind an unknown prefix, and 0.5 times count / (1 + sum of counts) for a word predicted by its ending. So a score above 0.9 is 1 and means a dictionary form or UNKN.", "quantifier": "every text with a non-empty lower-case form, every dictionary in the format without estimates, Russian and Ukrainian default units, any nesting", "why_tests_cant": "All words, dictionaries and nestings; the test-suite checks the order of a few readings.", "anchors": ["pymorphy2/analyzer.py:MorphAnalyzer.parse", "pymorphy2/units/by_analogy.py:KnownPrefixAnalyzer.parse", "pymorphy2/units/by_analogy.py:KnownSuffixAnalyzer.parse", "pymorphy2/units/by_hyphen.py:HyphenatedWordsAnalyzer.parse", "pymorphy2/units/base.py:BaseAnalyzerUnit"]}
{"id": "C95", "title": "P(t|w) estimates never add or remove a reading", "statement": "Two analyzers over the same dictionary of which one uses P(t|w) estimates (or both use different ones) give every text the same readings (word and grammemes) and the same tags; estimates only change scores and order, however deep the analysis of parts of the word that are themselves re-weighted.", "quantifier": "every dictionary in the format, every table of estimates (an analyzer created with one answers every text unless its table mixes zero and non-zero probabilities for one word, C09), every text with a non-empty lower-case form, both default unit lists", "why_tests_cant": "All tables and words: re-weighted readings of parts feed the analysis of the whole word.", "anchors": ["pymorphy2/analyzer.py:ProbabilityEstimator.apply_to_parses", "pymorphy2/analyzer.py:ProbabilityEstimator.apply_to_tags", "pymorphy2/analyzer.py:MorphAnalyzer.parse", "pymorphy2/analyzer.py:MorphAnalyzer.tag"]}
{"id": "C96", "title": "No reading of a word is listed twice", "statement": "Of a text outside the dictionary that is not split at a hyphen, no two readings returned by parse() have the same word, the same grammemes and the same basis (the paradigm of the dictionary row they start from); tag() lists no tag of a text outside the dictionary twice unless the text ends with a particle. The readings of a known word are different rows of the dictionary. Limits shown by counterexample: for a word that is a form of two lexemes tag() lists one tag twice, also with a particle, and a compound has readings that differ only in the lexeme of the left part.", "quantifier": "every analyzer with the default units of either language, with or without estimates, every text", "why_tests_cant": "All dictionaries and words: three analyzers share one seen-set while others ignore it, so a duplicate may come from any pair of them.", "anchors": ["pymorphy2/units/utils.py:add_parse_if_not_seen", "pymorphy2/units/utils.py:add_tag_if_not_seen", "pymorphy2/analyzer.py:MorphAnalyzer.parse", "pymorphy2/analyzer.py:MorphAnalyzer.tag", "pymorphy2/units/by_analogy.py:KnownSuffixAnalyzer.parse"]}
{"id": "C97", "title": "Every reading has its own derivation", "statement": "Except for the single letters configured as initials, no two readings returned by parse() for one text have the same methods_stack, and so no reading is returned twice: for homonyms, compounds with a hyphen, particles, prefixes, predicted words and any nesting of them, whatever units the analyzer is created with. (The readings of an initial letter, one for each gender and case, share their stack.)", "quantifier": "every list of units whose initials are not lower-case letters, every dictionary without repeated entries (every compiled one), every letter substitution, with or without estimates, every text", "why_tests_cant": "All unit lists, dictionaries and nestings; the stacks of the parts are embedded in the stack of the whole.", "anchors": ["pymorphy2/analyzer.py:MorphAnalyzer.parse", "pymorphy2/units/by_hyphen.py:HyphenatedWordsAnalyzer.parse", "pymorphy2/units/by_hyphen.py:HyphenSeparatedParticleAnalyzer.parse", "pymorphy2/units/by_analogy.py:KnownPrefixAnalyzer.parse", "pymorphy2/units/by_analogy.py:UnknownPrefixAnalyzer.parse", "pymorphy2/units/by_analogy.py:KnownSuffixAnalyzer.parse", "pymorphy2/units/by_lookup.py:DictionaryAnalyzer.parse"]}
{"id": "C98", "title": "A lexeme lists no form twice", "statement": "No two forms in the lexeme of a reading (of any text but a single letter configured as an initial) have the same methods_stack: each stands for a different row of the paradigm, also in lexemes of compounds, of words with particles or prefixes, of predicted words and of any nesting of them. The same holds for the lexeme of any form in whose making no unit for initials took part. (The forms of an initial letter share their stack.)", "quantifier": "every list of units, every dictionary, every text, every reading, every form (also ones made by hand)", "why_tests_cant": "All stacks and dictionaries; tests look at a few lexemes.", "anchors": ["pymorphy2/analyzer.py:MorphAnalyzer.get_lexeme", "pymorphy2/units/by_lookup.py:DictionaryAnalyzer.get_lexeme", "pymorphy2/units/base.py:AnalogyAnalizerUnit.get_lexeme", "pymorphy2/units/by_hyphen.py:HyphenatedWordsAnalyzer.get_lexeme"]}
{"id": "C99", "title": "The methods stack describes the reading", "statement": "Two readings that have the same methods_stack, returned by parse() for the same text or for two different ones (the first not a single letter configured as an initial), have the same word, tag and normal form: the stack alone tells which form was recognised, for dictionary words, tokens, compounds, particles, prefixes, predicted words and any nesting of them. Such readings therefore have the same lexeme, the same normal form, the same inflections and the same agreement with every number, because none of these depends on the score of the form asked about, whatever the form. (The stack of an initial letter does not tell its gender and case; scores may differ.)", "quantifier": "every list of units whose initials are not lower-case letters, every dictionary and letter substitution, with or without estimates, every pair of texts and readings; for scores: every form and every list of grammemes", "why_tests_cant": "All pairs of texts, unit lists, dictionaries and nestings; tests compare a few stacks literally.", "anchors": ["pymorphy2/analyzer.py:MorphAnalyzer.parse", "pymorphy2/analyzer.py:MorphAnalyzer.get_lexeme", "pymorphy2/analyzer.py:MorphAnalyzer._inflect", "pymorphy2/analyzer.py:Parse.normalized", "pymorphy2/units/by_hyphen.py:HyphenatedWordsAnalyzer.parse", "pymorphy2/units/by_hyphen.py:HyphenSeparatedParticleAnalyzer.parse", "pymorphy2/units/by_analogy.py:KnownPrefixAnalyzer.parse", "pymorphy2/units/by_analogy.py:UnknownPrefixAnalyzer.parse", "pymorphy2/units/by_analogy.py:KnownSuffixAnalyzer.parse", "pymorphy2/units/by_lookup.py:DictionaryAnalyzer.parse"]}
