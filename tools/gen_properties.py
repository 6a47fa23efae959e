#!/usr/bin/env python3
# Generates /verif/properties.jsonl (one JSON object per line).
import json, os
P = []
def p(id, title, statement, quantifier, why, anchors):
    P.append(dict(id=id, title=title, statement=statement, quantifier=quantifier,
                  why_tests_cant=why, anchors=anchors))

AN='pymorphy2/analyzer.py'; BL='pymorphy2/units/by_lookup.py'; BA='pymorphy2/units/by_analogy.py'
BH='pymorphy2/units/by_hyphen.py'; BS='pymorphy2/units/by_shape.py'; AB='pymorphy2/units/abbreviations.py'
UB='pymorphy2/units/base.py'; UU='pymorphy2/units/utils.py'; UK='pymorphy2/units/unkn.py'
TS='pymorphy2/tagset.py'; DG='pymorphy2/dawg.py'; SH='pymorphy2/shapes.py'; UT='pymorphy2/utils.py'
TK='pymorphy2/tokenizers.py'; CA='pymorphy2/cache.py'; CL='pymorphy2/cli.py'
OC='pymorphy2/opencorpora_dict/compile.py'; OW='pymorphy2/opencorpora_dict/wrapper.py'
OP='pymorphy2/opencorpora_dict/preprocess.py'; OS='pymorphy2/opencorpora_dict/storage.py'
OX='pymorphy2/opencorpora_dict/parse.py'; OB='pymorphy2/opencorpora_dict/probability.py'
RU='pymorphy2/lang/ru/config.py'; UKR='pymorphy2/lang/uk/config.py'

p('C01','parse and tag always return at least one result',
  'Whenever morph.parse(word) (resp. morph.tag(word)) returns normally for an analyzer whose last unit is UnknAnalyzer (as in both shipped configurations), the returned list is non-empty.',
  'every word (any sequence of code points, including the empty one), every dictionary, every probability table, every unit list ending with UnknAnalyzer',
  'The guarantee depends on the interplay of a shared mutable "seen" set and of up to twelve units; a test only samples words and one dictionary.',
  [AN+':MorphAnalyzer.parse',AN+':MorphAnalyzer.tag',UK+':UnknAnalyzer',UU+':add_parse_if_not_seen'])
p('C02','tag() and parse() agree',
  'For analyzers with a shipped unit order, the set of tags returned by morph.tag(word) is exactly the set of tags of the parses returned by morph.parse(word).',
  'every word, dictionary, substitution table and probability table',
  'tag() is a separate hand-optimised implementation in every unit; agreement on samples says nothing about other words.',
  [AN+':MorphAnalyzer.tag',BA+':KnownSuffixAnalyzer.tag',BA+':UnknownPrefixAnalyzer.tag',BH+':HyphenSeparatedParticleAnalyzer.tag',UB+':BaseAnalyzerUnit.tag'])
p('C03','A parse is about the word that was asked for',
  'For every parse p in morph.parse(word), p.word is word.lower() with some characters replaced by their configured substitutes (e.g. е by ё) and nothing else changed; in particular the length is the same.',
  'every word, dictionary, unit list and substitution table',
  'Every unit cuts and re-glues strings with index arithmetic; boundary lengths cannot be enumerated.',
  [AN+':MorphAnalyzer.parse',BA+':KnownSuffixAnalyzer.parse',BH+':HyphenatedWordsAnalyzer.parse',DG+':WordsDawg'])
p('C04','normal_forms is the de-duplicated list of parse normal forms',
  'morph.normal_forms(word) contains each normal form of morph.parse(word) exactly once, nothing else, in order of first occurrence.',
  'every word and every list of parses',
  'Ordering and duplication patterns are unbounded.',
  [AN+':MorphAnalyzer.normal_forms'])
p('C05','Known words are parsed from the dictionary only',
  'If the lowercased word (up to substitutes) is in the dictionary, and is not an upper-case initial letter, morph.parse returns exactly one parse per dictionary entry of every substituted spelling, with the tag and normal form the dictionary stores, and no predicted parse.',
  'every word, dictionary and substitution table, for the shipped unit order',
  'Needs all dictionary contents and all words.',
  [AN+':MorphAnalyzer.parse',BL+':DictionaryAnalyzer.parse',RU+':DEFAULT_UNITS'])
p('C06','is_known and word_is_known are coherent',
  'word_is_known(w, strict=True) implies word_is_known(w); word_is_known(w) is true iff dictionary lookup of w.lower() returns a parse; and every parse p of morph.parse(w) has p.is_known == morph.word_is_known(w) when substitutes are not themselves substitutable.',
  'every word, dictionary and substitution table',
  'Universal over words and dictionaries.',
  [AN+':MorphAnalyzer.word_is_known',AN+':Parse.is_known',OW+':Dictionary.word_is_known'])
p('C07','Closed-class readings are never predicted',
  'No parse built by KnownPrefixAnalyzer, UnknownPrefixAnalyzer or KnownSuffixAnalyzer carries a tag with one of the non-productive grammemes (NUMR, NPRO, PRED, PREP, CONJ, PRCL, INTJ, Apro).',
  'every word, dictionary, prefix list',
  'Tests list a handful of regressions ("бякобы"); the guarantee is for every word.',
  [TS+':OpencorporaTag.is_productive',BA+':KnownPrefixAnalyzer.parse',BA+':UnknownPrefixAnalyzer.parse',BA+':KnownSuffixAnalyzer.parse'])
p('C08','Parsing terminates: recursion depth is bounded by the word length',
  'If no configured prefix or particle is empty, the nested parse()/tag() calls made by morph.parse(word) and morph.tag(word) never nest deeper than len(word.lower())+1, and the result does not depend on any larger allowance; with an empty known prefix the recursion never bottoms out.',
  'every word and unit list',
  'Non-termination is not observable by finite testing.',
  [AN+':MorphAnalyzer.parse',BA+':KnownPrefixAnalyzer',BH+':HyphenSeparatedParticleAnalyzer',BH+':HyphenAdverbAnalyzer',BH+':HyphenatedWordsAnalyzer'])
p('C09','Parsing a word does not raise',
  'With a well-formed dictionary, an initialised tag class and no probability estimator, morph.parse(word) and morph.tag(word) return normally for every word (up to the interpreter recursion limit, see C79). With an estimator the same holds if the table gives no word a mixture of zero and non-zero probabilities; otherwise ZeroDivisionError is possible (concrete witness).',
  'every word, well-formed dictionary, probability table',
  'Absence of exceptions over all inputs; the failing combination needs a table and a dictionary no test ships.',
  [AN+':ProbabilityEstimator.apply_to_parses',AN+':MorphAnalyzer.parse',OW+':Dictionary'])
p('C10','The lexeme of a parse contains the parse',
  'For a parse p obtained by dictionary lookup, prefix or particle stripping, suffix prediction without prefix/suffix overlap, a shape unit or fixed-left hyphenation, p.lexeme has a member with the same word and tag as p. For "both parts inflect" hyphenated parses and for overlapping suffix predictions this fails (concrete witnesses).',
  'every parse of every word over every dictionary whose entries are consistent with their paradigms',
  'Requires every paradigm and every stem.',
  [AN+':MorphAnalyzer.get_lexeme',BL+':DictionaryAnalyzer.get_lexeme',OW+':Dictionary.build_stem',BH+':HyphenatedWordsAnalyzer._merge_lexemes'])
p('C11','The lexeme is closed: lexemes of its members are the same lexeme',
  'For every form f in p.lexeme (dictionary, prefix, particle, suffix based parses), f.lexeme == p.lexeme.',
  'every parse, every form of its lexeme',
  'test_lexemes_sanity samples words; the claim is for every paradigm.',
  [AN+':Parse.lexeme',BL+':DictionaryAnalyzer.get_lexeme',UB+':AnalogyAnalizerUnit.get_lexeme'])
p('C12','All forms of a lexeme share the normal form',
  'Every member of p.lexeme has normal_form equal to p.normal_form (all non "both parts inflect" parses).',
  'every parse',
  'Universal over dictionaries and words.',
  [BL+':DictionaryAnalyzer.get_lexeme',UB+':AnalogyAnalizerUnit._get_lexeme'])
p('C13','normalized is the normal form, the first form of the lexeme, and idempotent',
  'For dictionary/prefix/particle/suffix parses, p.normalized.word == p.normal_form, p.normalized has the word and tag of p.lexeme[0], and p.normalized.normalized == p.normalized.',
  'every parse over every well-formed dictionary',
  'Universal over paradigms and stems.',
  [AN+':Parse.normalized',BL+':DictionaryAnalyzer.normalized',UB+':AnalogyAnalizerUnit._normalized'])
p('C14','inflect is sound',
  'If p.inflect(req) returns a form, that form is in p.lexeme and its tag has all of req, or — only if no form has all of req — all of req with rare cases replaced by the common ones.',
  'every parse and every set of grammemes',
  'All grammeme subsets times all lexemes.',
  [AN+':MorphAnalyzer._inflect',TS+':OpencorporaTag.fix_rare_cases'])
p('C15','inflect is complete and picks the closest form',
  'p.inflect(req) returns None exactly when no form of the lexeme has req nor its rare-case-fixed version (known grammemes); otherwise the result is the first of the candidates maximising shared minus a tenth of differing grammemes relative to the updated tag.',
  'every parse and every set of known grammemes',
  'All grammeme subsets times all lexemes.',
  [AN+':MorphAnalyzer._inflect'])
p('C16','Inflecting to grammemes a form already has keeps its grammemes',
  'If req is a subset of the grammemes of p, p is in its lexeme, and the grammemes of p that are incompatible with one in req (as the gender of a plural noun is with plur) are shared by all forms of the lexeme that have req, then p.inflect(req) has exactly the grammemes of p.',
  'every parse, every such subset',
  'Universal over tags and lexemes.',
  [AN+':MorphAnalyzer._inflect',TS+':OpencorporaTag.updated_grammemes'])
p('C17','Unknown grammemes are rejected by inflect',
  'p.inflect(req) raises ValueError whenever the requirement used (req, or its rare-case-fixed version when req matches no form) contains a grammeme the tag class does not know, and raises nothing of the kind otherwise.',
  'every parse and every set of grammemes',
  'All grammeme sets and all class states.',
  [AN+':MorphAnalyzer._inflect',TS+':OpencorporaTag.updated_grammemes'])
p('C18','Numeral agreement follows the Russian rule for every integer',
  'For a NOUN in nomn/accs the grammemes requested by make_agree_with_number(n) are {sing,nomn}/{sing,accs} for n ending in 1 but not 11, {sing,gent} for n ending in 2-4 but not 12-14 and {plur,gent} otherwise; for oblique cases {sing|plur, own case}; analogously for ADJF/PRTF; depends on n mod 100 only; other parts of speech get the empty requirement. A NOUN tag without a case makes it raise ValueError.',
  'every integer n (including negative and huge ones) and every tag',
  'Infinitely many numbers.',
  [TS+':OpencorporaTag.numeral_agreement_grammemes',AN+':Parse.make_agree_with_number'])
p('C19','Probability estimation permutes and reorders, never alters, parses',
  'With an estimator, morph.parse returns the same (word, tag, normal_form, methods_stack) tuples as without its final re-weighting; if any P(t|w) is known the scores are those probabilities and non-increasing, ties keeping the original order; otherwise order is unchanged and (when the scores are positive) they are rescaled to sum to 1.',
  'every list of parses and probability table',
  'Sorting/normalisation laws over all lists.',
  [AN+':ProbabilityEstimator.apply_to_parses',AN+':ProbabilityEstimator.apply_to_tags',DG+':ConditionalProbDistDAWG.prob'])
p('C20','Initials are recognised exactly for the configured upper-case letters',
  'AbbreviatedFirstName/PatronymicAnalyzer produce parses iff the token is, case-sensitively, one of the configured letters; then the 12 gender×case tags in order; the first-name lexeme keeps the gender while the patronymic lexeme spans both, and normalisation picks the nominative.',
  'every token',
  'Universal over tokens.',
  [AB+':_InitialsAnalyzer',AB+':AbbreviatedFirstNameAnalyzer',AB+':AbbreviatedPatronymicAnalyzer'])
p('C21','Tags behave as values: equality, hash, order, pickling',
  'Tag equality is an equivalence, compatible with hash; < is a strict total order up to equality with > its converse; unpickling a tag (under the same tag class state) gives an equal tag with the same text; construction from text keeps the text and splits it into the expected grammemes.',
  'every pair/triple of tag strings and class states',
  'Algebraic laws over all tags.',
  [TS+':OpencorporaTag.__init__',TS+':OpencorporaTag.__eq__',TS+':OpencorporaTag.__lt__',TS+':OpencorporaTag.__reduce__'])
p('C22','Grammeme membership never silently accepts typos',
  '"g in tag" is True iff g is one of the grammemes of the tag, False iff it is not and g is known, and raises otherwise; the same for sets ("{..} in tag" is True iff subset).',
  'every tag, every grammeme or grammeme set, every class state',
  'Universal over grammeme names.',
  [TS+':OpencorporaTag.__contains__',TS+':OpencorporaTag._assert_grammemes_are_known'])
p('C23','Tag attributes return a grammeme of their own category or None',
  'tag.POS, tag.case, ... return None iff the tag has no grammeme of the category, otherwise a grammeme that belongs both to the tag and to the category; comparing it to a grammeme outside the category raises ValueError, to None gives False.',
  'every tag, category and comparison value',
  'Universal over tags.',
  [TS+':_select_grammeme_from'])
p('C24','Latin/Cyrillic tag translation round-trips',
  'When every grammeme has its own Cyrillic name, cyr2lat(lat2cyr(s)) == s for every tag string of known grammemes with single spaces; when two grammemes share an alias the round trip loses information, and runs of whitespace are collapsed (concrete witnesses).',
  'every tag string and grammeme table',
  'Universal over tag strings and tables.',
  [TS+':_translate_tag',TS+':OpencorporaTag.cyr2lat',TS+':OpencorporaTag.lat2cyr',TS+':OpencorporaTag.add_grammemes_to_known'])
p('C25','updated_grammemes adds the requirement and removes exactly the incompatible grammemes',
  'The result is (tag grammemes ∪ required) minus the union of the grammemes declared incompatible with a required one, independent of iteration order; it raises iff a required grammeme is unknown.',
  'every tag, requirement, grammeme table',
  'Set iteration order is unspecified; all subsets.',
  [TS+':OpencorporaTag.updated_grammemes',TS+':OpencorporaTag._init_grammemes'])
p('C26','Loading dictionaries mutates the shared tag class: what survives and what does not',
  'After loading any dictionary and binding the default units, exactly the dictionary grammemes plus the unit grammemes are known, whatever was loaded before; so re-creating an analyzer of the same kind does not change membership answers. Creating an analyzer with fewer units makes a grammeme unknown for previously created analyzers (concrete witness).',
  'every history of dictionary loads and unit bindings',
  'Depends on the whole history of the process.',
  [TS+':OpencorporaTag._init_grammemes',TS+':OpencorporaTag.add_grammemes_to_known',AN+':MorphAnalyzer.__init__'])
p('C27','Caches are transparent under every thread schedule, as long as no analyzer is being created',
  'is_latin_char, memoized functions, latin2cyr/cyr2lat-cached tag views and lazily computed tag attributes return the value of the underlying function for every interleaving of cache reads, computations and cache writes by any number of threads, provided no analyzer is created meanwhile, and every such schedule lets each thread finish. The same holds for parse(), tag() and normal_forms() of any analyzers, and for lexeme, normalized, inflect() and make_agree_with_number() of any analyses, which use these caches: every thread gets the result it would get alone. A tag whose Cyrillic view was computed before an analyzer for another language extended the tables keeps the old (stale) view for ever, and a view computed in the middle of a constructor stays untranslated (concrete schedules).',
  'every schedule, every number of threads and calls',
  'Schedules cannot be enumerated by tests.',
  [SH+':is_latin_char',CA+':memoized_with_single_argument',TS+':OpencorporaTag.grammemes'])
p('C28','Creating an analyzer is not atomic for threads that use another one',
  'There is a schedule in which a membership test on a tag (and hence parsing of a "по-..." word) by one thread raises RuntimeError, and one in which it raises ValueError for a grammeme every dictionary has, while another thread is inside MorphAnalyzer(); two constructors running together can also make one of them fail. However, a membership test never silently gives a wrong answer under any schedule; and if constructor steps are not interleaved with queries, no schedule makes a query raise. parse(), tag() and normal_forms() themselves: under every schedule the result is the right one, or RuntimeError or ValueError is raised (concrete schedules for "по-коту"); it is always the right one for a word without a hyphen, for an analyzer without HyphenAdverbAnalyzer (Ukrainian), and when constructors are not interleaved. lexeme and normalized of an analysis: the right result, RuntimeError or ValueError (concrete schedules for an abbreviated first name); inflect() and make_agree_with_number() likewise if the dictionaries being loaded do not change the table of incompatible grammemes, which is so when the dictionary in use is loaded again and its grammemes form a tree of at most three levels; while a different dictionary is loaded inflect() can return a form that is right neither before nor after (concrete schedule).',
  'every schedule of constructor steps and queries',
  'Race window; tests would have to hit it.',
  [TS+':OpencorporaTag._init_grammemes',AN+':MorphAnalyzer.__init__',BH+':HyphenAdverbAnalyzer.should_parse'])
p('C29','Pickling an analyzer',
  'Unpickling re-creates the analyzer with the same path, lang, result type and units; it is the same analyzer configuration iff probability_estimator_cls and char_substitutes were left at their defaults (they are dropped otherwise: concrete witness).',
  'every constructor argument combination',
  'All argument combinations.',
  [AN+':MorphAnalyzer.__reduce__',AN+':MorphAnalyzer.__init__'])
p('C30','The tokenizer loses nothing but whitespace',
  'simple_word_tokenize(text): concatenating the tokens gives the text without whitespace; every token is either a maximal run of word characters/hyphens or a single other non-space character; re-tokenizing the tokens joined with spaces gives the same tokens.',
  'every text',
  'Universal over texts.',
  [TK+':simple_word_tokenize'])
p('C31','restore_capitalization only changes case and follows the example',
  'The result equals the word up to case and keeps its hyphen structure; each hyphen part takes lower/upper/title case according to the corresponding part of the example and parts beyond it are lower-cased.',
  'every word and example',
  'Universal over strings.',
  [SH+':restore_capitalization',SH+':_make_the_same_case'])
p('C32','Unknown-prefix splitting respects its bounds',
  'word_splits(word) lists exactly the splits prefix+rest with 1 <= len(prefix) <= 5 and len(rest) >= 3, by increasing prefix length; hence UnknownPrefixAnalyzer only produces parses whose prefix is at most 5 and whose dictionary word is at least 3 letters long.',
  'every word and bounds',
  'Universal over words.',
  [UT+':word_splits',BA+':UnknownPrefixAnalyzer.parse'])
p('C33','longest_common_substring is correct',
  'The result is a substring of all given strings and no common substring is longer; among the longest it is the one starting leftmost in the first string.',
  'every non-empty list of strings',
  'Universal over lists of strings.',
  [UT+':longest_common_substring'])
p('C34','largest_elements is correct',
  'Returns, in order, exactly the elements whose key is among the n largest distinct keys.',
  'every list, key function and n',
  'Universal.',
  [UT+':largest_elements'])
p('C35','Paradigm extraction is lossless',
  '_to_paradigm(lexeme) yields stem and (suffix, tag, prefix) triples such that prefix+stem+suffix is the original form, tags are kept in order and every prefix is an allowed paradigm prefix (or empty).',
  'every lexeme and every list of paradigm prefixes',
  'Universal over lexemes.',
  [OC+':_to_paradigm'])
p('C36','A compiled dictionary contains exactly the source lexemes',
  'If compilation succeeds, then for each (joined) lexeme every form is found under some paradigm with its tag, its normal form is the first form, and its lexeme as reported by the dictionary is the source lexeme; conversely every word entry comes from a source lexeme.',
  'every list of lexemes and paradigm prefixes',
  'Universal over dictionaries.',
  [OC+':compile_parsed_dict',OW+':Dictionary',BL+':DictionaryAnalyzer.get_lexeme'])
p('C37','Suffix-prediction data is faithful to the dictionary',
  'Each stored ending record (count, paradigm, form) has a popular enough paradigm, a frequent enough ending, a form suffix that ends the ending, belongs to the right paradigm prefix and is most frequent for its part of speech; the count is at least the number of dictionary entries with that ending and analysis, and equals it when no such word is shorter than the ending limit. For shorter words the count is inflated (concrete witness).',
  'every word list and option values',
  'Universal over dictionaries; the over-count is invisible in sample checks.',
  [OC+':_suffixes_prediction_data',OC+':_get_suffixes_dawg_data'])
p('C38','Joining linked lexemes keeps every form and terminates on acyclic links',
  'If links are acyclic and refer to existing lexemes, _join_lexemes terminates and the multiset of (form, tag) pairs is unchanged; a linked lexeme ends up in the lexeme of its link source. With a self link all forms of the lexeme are lost, and a later link to it never terminates (concrete witnesses).',
  'every set of lexemes and list of links',
  'Universal over link graphs; non-termination.',
  [OC+':_join_lexemes'])
p('C39','Tag simplification preserves grammemes',
  'simplify_tags keeps words, order and number of forms and maps every tag to one with the same grammemes up to loc1/gen1/acc1 normalisation. A tag text whose normalised spelling is used in the dictionary beside a competing spelling of the same meaning becomes the most frequent spelling (of equally frequent ones the first seen); every other tag text becomes its own normalised spelling. With skip_space_ambiguity, spellings compete only if two of them have their first space at the same place. Without loc1/gen1/acc1 a second pass changes nothing; with them it can (concrete witness). The claim that no loc1/gen1/acc1 is left is false (concrete witness).',
  'every parsed dictionary',
  'Depends on global tag-frequency patterns.',
  [OP+':simplify_tags',OP+':_get_duplicate_tag_replaces',OP+':_simplify_tag'])
p('C40','Initials are removed from the dictionary, nothing else',
  'drop_unsupported_parses removes exactly the forms whose tag text contains "Init", keeping all other forms, their order and all lexeme ids.',
  'every parsed dictionary',
  'Universal.',
  [OP+':drop_unsupported_parses'])
p('C41','paradigms.array round-trips',
  'Loading a saved paradigms.array gives back the saved paradigms, for any list of at most 65535 paradigms of length at most 65535 with 16-bit entries on a machine of the same byte order; saving fails otherwise; across byte orders the data is corrupted (concrete witness).',
  'every list of paradigms, both byte orders',
  'Universal over files.',
  [OS+':save_compiled_dict',OS+':_load_paradigms'])
p('C42','Crash safety of saving a dictionary',
  'If saving into a fresh folder is interrupted at any point, loading the folder fails (no half-written dictionary is accepted); when overwriting an existing dictionary an interruption can leave a loadable mixture of old and new files (concrete witness).',
  'every crash point, every dictionary',
  'Crash points cannot be enumerated by tests.',
  [OS+':save_compiled_dict',OS+':load_dict',OC+':_create_out_path'])
p('C43','Meta data update',
  'update_meta keeps all other keys and their order, sets the given ones; values survive except JSON reals, which become strings; an interruption while rewriting leaves the dictionary unloadable.',
  'every meta file and update',
  'Universal.',
  [OS+':update_meta',OS+':load_meta',OS+':write_meta'])
p('C44','Dictionary format check',
  'A dictionary is accepted iff its format_version is of the form "2.x" with a single dot.',
  'every version string',
  'Universal over strings.',
  [OS+':_assert_format_is_compatible'])
p('C45','Roman numbers',
  'is_roman_number(token) holds exactly for the canonical Roman numerals of 1..4999 in any letter case, optionally followed by one newline, and for a lone newline.',
  'every token',
  'Infinite language; the newline case is a corner nobody samples.',
  [SH+':is_roman_number',SH+':ROMAN_NUMBERS_RE'])
p('C46','Number tokens',
  'NumberAnalyzer tags a token NUMB,intg iff it is a (signed, padded, underscored) run of decimal digits, not longer than the interpreter allows (CPython 3.11: 4300 digits), and NUMB,real iff it is not but is a decimal floating literal with point or comma, or inf/nan words; so there are number-tagged tokens without any digit, and an integer of more than 4300 digits is tagged as a real number (concrete witnesses).',
  'every token',
  'Universal over strings.',
  [BS+':NumberAnalyzer.check_shape'])
p('C47','Latin and punctuation shapes',
  'is_latin holds iff the token has a letter and all its letters are Latin; is_punctuation iff it has a non-space character and all of those are punctuation; the two exclude each other; neither depends on the cache contents.',
  'every token',
  'Universal over strings.',
  [SH+':is_latin',SH+':is_punctuation'])
p('C48','CLI output does not depend on the cache option',
  'For every input, "pymorphy parse" writes the same text with no cache, an unlimited cache or an LRU cache of any size.',
  'every token stream and cache size/eviction behaviour',
  'All streams and sizes.',
  [CL+':parse',CA+':memoized_with_single_argument'])
p('C49','CLI output shape and threshold',
  'Each token produces exactly one record token{...}; with a threshold only analyses with score at least the threshold are shown, in order; lemma mode sums the scores of the parses with this lemma and lists lemmas by non-increasing weight.',
  'every token, every list of parses and every threshold',
  'Universal.',
  [CL+':_TokenParserFormatter',CL+':_iter_tokens_notokenize'])
p('C50','Iteration over known words is sound and complete',
  'iter_known_word_parses(prefix) yields exactly the dictionary entries whose word starts with prefix, each with the tag and normal form dictionary lookup gives.',
  'every prefix and dictionary',
  'Universal.',
  [AN+':MorphAnalyzer.iter_known_word_parses',OW+':Dictionary.iter_known_words'])
p('C51','Optional C extension does not change prefix matching',
  'For non-empty, pairwise different prefixes, the DAWG based and the pure-Python prefix matcher make KnownPrefixAnalyzer try the same splits in the same order (longest prefix first), and is_prefixed agrees.',
  'every prefix list and word',
  'Universal.',
  [DG+':DawgPrefixMatcher',DG+':PythonPrefixMatcher',BA+':KnownPrefixAnalyzer.possible_splits'])
p('C52','Hyphenated-word analysis only for one inner hyphen',
  'HyphenatedWordsAnalyzer produces parses only for words with exactly one hyphen, not at either end, and not starting with a known prefix; "both parts" parses have parts of equal POS/number/case/person/tense features and the left tag, "fixed left" parses have the right tag and keep the left part verbatim.',
  'every word',
  'Universal.',
  [BH+':HyphenatedWordsAnalyzer._should_parse',BH+':HyphenatedWordsAnalyzer.parse'])
p('C53','Particles are split once and kept',
  'For the shipped particle lists a word ends with at most one particle; particle parses are the parses of the rest with the particle re-attached to word and normal form.',
  'every word',
  'Universal.',
  [BH+':HyphenSeparatedParticleAnalyzer'])
p('C54','P(t|w) table',
  'Stored probabilities are the Laplace estimates truncated to 1e-6, lie in [0,1], keys of different (word, tag text) pairs never collide for tags without ":"; words whose tags are equiprobable are omitted; lookup of a missing pair gives 0.',
  'every corpus count table, words and tags',
  'Universal.',
  [OB+':build_cpd_dawg',OB+':estimate_conditional_tag_probability',DG+':ConditionalProbDistDAWG'])
p('C55','XML lexeme reading',
  'Every <f> form of a lemma becomes, in order, one lower-cased form with the lemma grammemes, a space and the form grammemes (no surrounding spaces); lemmas without children or with a form without any information become empty; a lemma must have exactly one <l>.',
  'every XML tree',
  'Universal.',
  [OX+':_word_forms_from_xml_elem',OX+':parse_opencorpora_xml'])
p('C56','Dictionary path and language selection',
  'An explicit path wins over the environment variable, which wins over installed packages; the effective language is the requested one, else the dictionary language, else ru; a warning is issued iff the dictionary declares none (and none was requested) or a different one was requested.',
  'every argument/environment combination',
  'Combination space incl. defaults.',
  [AN+':MorphAnalyzer.choose_dictionary_path',AN+':MorphAnalyzer.choose_language',AN+':lang_dict_path'])
p('C57','Unit groups: the first group with results wins',
  'parse() uses the units up to and including the first terminal unit at which something has been found, and no later one; nested lists make only their last element terminal.',
  'every unit list and word',
  'Universal.',
  [AN+':MorphAnalyzer._init_units',AN+':MorphAnalyzer.parse'])
p('C58','Suffix prediction uses the longest informative ending and normalised productivity',
  'For each paradigm prefix the word starts with, only the longest ending (at most max_suffix_length) with a productive record is used; scores are count/total*multiplier in (0, multiplier), non-increasing; words shorter than min_word_length give nothing.',
  'every word and prediction table',
  'Universal.',
  [BA+':KnownSuffixAnalyzer.parse'])
p('C59','Every tag has a source and only known grammemes',
  'The tag of every parse and of every form of its lexeme is a tag of the dictionary tag table or one that a unit of this analyzer created when it was initialised; for an analyzer built by the constructor all grammemes of these tags are known to its Tag class, so membership tests, inflect and the Cyrillic form work on them.',
  'every word, parse, lexeme form and constructed analyzer',
  'Ranges over all words, dictionaries and unit lists, through nested units.',
  [AN+':MorphAnalyzer.parse',AN+':MorphAnalyzer.get_lexeme',AN+':MorphAnalyzer.__init__','pymorphy2/tagset.py:OpencorporaTag'])

p('C60','A converted XML dictionary knows every form of the document',
  'When convert_to_pymorphy2 ends without an exception, the folder it leaves loads, and an analyzer over it gives, for every spelling of every form of the document, a parse with the word in lower case and the grammemes of that form (gen1/gent, loc1/loct and acc1/accs not distinguished; forms with the Init grammeme excepted). The lexeme of that parse is the lemma of the document, form by form in document order, and its normal form the lemma\'s first form, when no followed link touches the lemma; otherwise (no lemma being linked twice) the normal form is the first form of the lemma at the top of its links and the lexeme starts with that lemma\'s forms and holds the forms of exactly the lemmas under it. Without overwrite an existing folder is left untouched; if reading or compiling fails, no file is written.',
  'every document, form, spelling, option set and prior folder',
  'Ranges over all documents and all words through the whole reader, preprocessing, compiler, writer, loader and analyzer chain.',
  ['pymorphy2/opencorpora_dict/compile.py:convert_to_pymorphy2','pymorphy2/opencorpora_dict/parse.py:parse_opencorpora_xml','pymorphy2/opencorpora_dict/storage.py:load_dict',AN+':MorphAnalyzer.parse'])

p('C61','The command line sees the same tokens however the text is broken into lines',
  'Without --tokenized, the tokens "pymorphy parse" works on are those of simple_word_tokenize applied to the whole text, for every way the file is split into lines, so output depends only on the tokens; with --tokenized they are the lines without surrounding white space, empty ones left out.',
  'every text and every division into lines',
  'Universal over texts.',
  [CL+':_iter_tokens_tokenize',CL+':_iter_tokens_notokenize'])
p('C62','The command line language',
  '"pymorphy parse" uses the units of the language given by --lang (default ru) whatever language the dictionary of --dict declares, and a warning is issued exactly when the dictionary does not declare that language.',
  'every option set, dictionary and environment',
  'Combination space.',
  [CL+':main',AN+':MorphAnalyzer.choose_language'])
p('C63','Parse scores are probabilities; their order',
  'Every parse score lies in [0,1] if the configured scores/multipliers do (the shipped ones do) and the P(t|w) table does; without an estimator it is never 0. If the table knows a probability for some reading of the word, the scores are the P(t|w) and the list is sorted by them. The documentation says parses are always sorted by descending score: false, with and without an estimator (a hyphenated word whose first part is not in the dictionary).',
  'every analyzer configuration, dictionary and word',
  'All words and configurations.',
  [AN+':MorphAnalyzer.parse',AN+':ProbabilityEstimator.apply_to_parses'])
p('C64','Letter case matters only for initials and shapes',
  'Two spellings of equal length that lower-case to the same word, are not configured initials and get the same answers from the shape tests have the same tags and the same parses, except that a methods stack that quotes the word quotes its spelling. Words that start with a letter of a non-Latin script always pass the shape condition. For initials the claim is false (А and а).',
  'every analyzer, every pair of spellings',
  'All pairs of spellings.',
  [AN+':MorphAnalyzer.parse',AN+':MorphAnalyzer.tag'])
p('C65','Known prefixes: exactly the productive readings of the remainder',
  'For every configured prefix the word (lower-cased) starts with and that leaves a remainder of the minimal length, the known-prefix unit returns exactly the productive readings of the remainder with the prefix put back, longest prefixes first; the unknown-prefix unit is complete for its splits. A configured prefix with a capital letter can never match; 75 prefixes shipped for Ukrainian are dead for that reason.',
  'every prefix list, dictionary and word',
  'All words and prefix lists.',
  [BA+':KnownPrefixAnalyzer',BA+':UnknownPrefixAnalyzer'])
p('C66','Adding P(t|w) estimates to a dictionary: effect, crash points, repetition',
  'After a successful add_conditional_tag_probability run every constructor call selecting the folder behaves as the same call with probability_estimator_cls=None did before, plus the estimated table; meta.json gains exactly four keys with the right counts and no other file changes. Interrupted at any write: before meta.json is opened nothing changes for users of a dictionary without a table, afterwards the folder is refused. On a dictionary that already had a table an interruption destroys the old one. The last of several successful runs determines all files.',
  'every dictionary folder, corpus, threshold, crash point, constructor arguments and sequence of two runs',
  'All crash points and folder contents.',
  [OB+':add_conditional_tag_probability',OS+':update_meta',AN+':ProbabilityEstimator'])
p('C67','Compiling or saving a dictionary while analyzers exist',
  'The tag class is shared by all analyzers of a process. After a successful save (or conversion) it knows exactly the grammemes of the saved table, so grammemes that the units of an existing analyzer had added (PNCT, UNKN, NUMB, ...) are gone and a test for them raises ValueError. Parses, tags, lexemes and normal forms of existing analyzers do not change as long as the saved table has ADJF, sing, datv and masc (otherwise even parse() of a word such as по-коту can raise ValueError); inflect() is unchanged when the saved table is the one the analyzer was loaded with. A conversion that is refused or fails before saving changes nothing.',
  'every state of the tag classes, analyzer, grammeme table, compiled dictionary, word, parse and set of required grammemes',
  'Interaction of two unrelated operations over every table, analyzer and word.',
  [TS+':OpencorporaTag._init_grammemes',OS+':save_compiled_dict',OC+':convert_to_pymorphy2'])
p('C68','Dictionaries with Cyrillic grammeme names (format opencorpora-ext)',
  'The file gramtab-opencorpora-ext.json of a saved dictionary lists for each tag exactly what Tag.lat2cyr gives (if no other table was seen in the process; otherwise names of the other table are replaced too). Such a dictionary cannot be loaded in this format: load_dict raises ValueError as soon as one used grammeme has a Cyrillic name that is not itself a grammeme name. Trying to load one never changes what existing analyzers answer to parse, tag, lexeme and normal form; inflect() can change the first time only. is_productive() of a tag of the Cyrillic class goes by the Cyrillic names of the non-productive grammemes and updated_grammemes() with grammemes of the table removes nothing, so the two classes answer differently about the same tag text.',
  'every grammeme table whose names can be told apart, compiled dictionary, folder content and state of the tag classes',
  'All tables and tags; histories of saves and loads in one process.',
  [TS+':CyrillicOpencorporaTag',OS+':save_compiled_dict',OS+':load_dict'])
p('C69','Lexemes of words analysed through a shorter word',
  'The lexeme of a parse made with a known prefix is, form by form and in the same order, the lexeme of a parse of the rest with the prefix put before word and normal form (tags unchanged); likewise a particle is put after every form, an unchanging left part and a hyphen before every form of the right part; when both parts inflect, the forms are those of the right part, each behind the first form of the left lexeme whose grammemes differ least from its own (gen1/gent, loc1/loct and V-oy/V-ey not distinguished), and carry the tag of that left form. Unknown prefixes and known endings give the lexeme of the dictionary form the word was likened to. Scores never influence a lexeme.',
  'every analyzer with non-empty prefixes and particles, word, and parse of it made by such a unit',
  'All words and dictionaries, and analyses nested to any depth.',
  [AN+':MorphAnalyzer.get_lexeme',BA+':_PrefixAnalyzer',BH+':HyphenatedWordsAnalyzer._iter_lexeme',UB+':AnalogyAnalizerUnit.get_lexeme'])
p('C70','Every form of a lexeme can be reached by inflecting to its grammemes',
  'Inflecting a parse to exactly the grammemes of a form of its lexeme gives that form (or the first form of the lexeme with the same grammemes, where homonymous forms exist), and inflecting the result back to the grammemes of the starting form returns there; the starting form does not matter. This needs that no other form of the lexeme has strictly more grammemes than the wanted one: from such a form the one with fewer grammemes cannot be reached (краснее from покраснее).',
  'every dictionary, word, simple reading of it, and form of its lexeme',
  'All lexemes of all dictionaries, including predicted ones.',
  [AN+':MorphAnalyzer._inflect',AN+':Parse.inflect',TS+':OpencorporaTag.updated_grammemes'])
p('C71','How many analyses one parse() or tag() call needs',
  'Every word that parse() or tag() analyses on the way is the given word or a strictly shorter piece of its lower-case form; the number of analyses is bounded (exponentially in the length), and by the length itself for hyphen-free words if no known prefix begins another. With the shipped Russian prefixes it is not bounded by any polynomial: each repetition of "недо" (не, до and недо are all known prefixes) in an unknown word doubles the number of analyses.',
  'every analyzer with the shipped units and every word',
  'Word length is unbounded; the blow-up shows only on long words, on which a test would not end.',
  [AN+':MorphAnalyzer.parse',AN+':MorphAnalyzer.tag',BA+':KnownPrefixAnalyzer.parse',RU+':KNOWN_PREFIXES'])
p('C72','Floating-point rounding does not change the analyses',
  'Scores are floats: the result of every multiplication, division and addition is rounded to 53 bits. The readings parse() and tag() return, their order and the exceptions raised are nevertheless those of exact arithmetic (positive configured scores, 16-bit counts as in the file format, a P(t|w) table); scores stay between 0 and 1; without a P(t|w) table a score is off by at most a factor (1 + 2^-52)^(3n+3) for a word of n characters; with a table, normalised scores of n readings add up to 1 within a factor (1 + 2^-52)^(n+2), and not always exactly; inflect() chooses the same form unless tags of the lexeme differ in size by 12 grammemes or more (then rounding of 0.1 * n can break a tie); the P(t|w) table built from a corpus has the same keys, its values are at most one millionth off (and can be: 41/80 is stored as 512499) and never in the wrong order. Underflow: no score leaves the normal range of doubles for words of up to 978 characters without a table (with one: 138 characters when no piece of the word has more than 64 readings); without a table the readings are right for every length, though a score can become 0 after a thousand nested prefixes.',
  'every analyzer configuration, word, reading, required grammeme set and corpus (within the size limits stated)',
  'Rounding errors depend on the counts in the data; a test sees a handful of values, a changed order may need one particular pair of counts among 2^32.',
  [AN+':ProbabilityEstimator.apply_to_parses',AN+':MorphAnalyzer._inflect',BA+':KnownSuffixAnalyzer.parse',DG+':ConditionalProbDistDAWG',OB+':build_cpd_dawg'])
p('C73','Every saved dictionary opens, and "pymorphy dict meta" shows its metadata',
  'A dictionary that was compiled and completely saved, into any folder, opens as an analyzer with the compiled contents for any requested language; "pymorphy dict meta --dict path" then prints one "key: value" line for each of the sixteen metadata entries, with the true sizes of the gramtab, the paradigms, the suffixes and the DAWGs. For any folder the command prints one line per metadata entry or only the constructor exception.',
  'every compiled dictionary, folder, previous folder content, requested language and grammeme table',
  'Dictionary contents are unbounded; the printed sizes must agree with them for all of them.',
  [CL+':show_dict_meta',CL+':main',OS+':save_compiled_dict',OS+':load_dict',AN+':MorphAnalyzer.__init__'])
p('C74','combinations_of_all_lengths lists every non-empty choice once',
  'combinations_of_all_lengths(iterable) yields, for every non-empty choice of positions in the input, the items at those positions in input order, each choice exactly once (2^n - 1 in all), shorter ones first and equally long ones in lexicographic order of positions.',
  'every input of any length, with or without repeated items',
  'The number of results is exponential in an unbounded length; a test sees a few lengths only.',
  [UT+':combinations_of_all_lengths'])
p('C75','Analyzers never share or alter the unit objects they are given',
  'Each analyzer binds its own fresh copies of the given units: a copy has the class and the arguments of its original (also the default ones), the originals are left as they were, and no two analyzers (nor two places of one units list) share a unit object - so one list of units, e.g. the DEFAULT_UNITS of a language config, can be used for any number of analyzers. Refuted for arguments that are one-shot iterators (lost on cloning or after the first analyzer). On a Python without inspect.getargspec every units list with anything but DictionaryAnalyzer and UnknAnalyzer raises AttributeError. kwargs_repr shows entries ordered by name, whatever the order of the dict, and does not depend on hidden values.',
  'every sequence of constructor calls, every units list with nested groups, every number of analyzers made one after the other',
  'Sharing of mutable state shows only over histories of constructions; arguments, lists and numbers of analyzers are unbounded.',
  [UB+':BaseAnalyzerUnit.clone',UB+':BaseAnalyzerUnit._get_params',AN+':MorphAnalyzer._init_units',AN+':MorphAnalyzer._bound_unit',UT+':kwargs_repr'])
p('C76','A dictionary answers exactly what its source lexemes say',
  'For a known word parse() gives, up to order and scores, one answer (word, tag, normal form, lexeme) for each occurrence of the word - or of a spelling with substituted characters - as a form of a joined source lexeme, and no other answer; the lexeme reported is the source lexeme. Therefore dictionaries compiled from the same lexemes know the same words and give the same answers for them, whatever the order, numbering or repetition of lexemes, the compile options and the P(t|w) estimates. The order of answers and predictions for unknown words do depend on them (witnesses).',
  'every source, every pair of compile options and orders, every known word in any letter case',
  'Compilation shares paradigms, suffixes and tags between lexemes through global numbering; that this never leaks into answers must hold for all sources.',
  [OC+':compile_parsed_dict',OC+':_to_paradigm',AN+':MorphAnalyzer.parse','pymorphy2/units/by_lookup.py:DictionaryAnalyzer'])
p('C77','Forms of a lexeme are found again; normal forms are fixed points',
  'For a known word, parse(f.word) contains, for every form f of the lexeme of every parse p, a parse with the tag of f, the normal form of p and the lexeme of p; in particular p.normal_form is among normal_forms(p.normal_form). Lemmatising with the first parse is not idempotent (witness), and normal forms of predicted words need not be normal forms of themselves (witness).',
  'every compiled dictionary, known word, parse and form',
  'Closure of the readings under taking forms must hold for all lexemes, including homonyms and shared paradigms.',
  [AN+':MorphAnalyzer.parse',AN+':Parse.lexeme',AN+':MorphAnalyzer.normal_forms'])
p('C78','Every parse has a lexeme, a normal form and inflections, at any depth',
  'For every parse obtainable from an analyzer with the shipped units (a result of parse() for any string, or of iter_known_word_parses(), a member of the lexeme of an obtainable parse, its normalized form, the result of inflecting it, and so on), p.lexeme does not raise and is not empty, p.normalized does not raise, and p.inflect(grammemes of the table) does not raise. This covers predicted words, hyphenated words whose parts both inflect and any nesting of prefixes and particles.',
  'every string, analyzer with the shipped units, and chain of lexeme / normalized / inflect calls of any length',
  'The forms of forms are an unbounded set, and the method stacks they carry are re-interpreted at each step; a test follows a few chains of a few words.',
  [AN+':Parse.lexeme',AN+':Parse.normalized',AN+':Parse.inflect','pymorphy2/units/by_hyphen.py:HyphenatedWordsAnalyzer.get_lexeme'])
p('C79','Nesting depth and recursion limits',
  'With the shipped units parse(word) and tag(word) never nest more than len(word.lower())/2 + 1 analyses, and the result does not depend on a larger allowance. But the depth grows with the word: whatever the dictionary, for every allowance n the word "не" repeated n + 2 + (length of the longest dictionary word) times needs more than n nested calls, in Russian and Ukrainian, so under any recursion limit parse() and tag() raise RecursionError for some words.',
  'every word, dictionary and allowance',
  'A test tries words of a few lengths with one limit; the claim is about every limit, and for the upper bound about every word.',
  [AN+':MorphAnalyzer.parse',AN+':MorphAnalyzer.tag',BA+':KnownPrefixAnalyzer.parse'])
p('C80','Order of dictionary records',
  'Whatever the source, a compiled dictionary stores its words (and prediction endings) in the order of code points and the records of one word in the order of their base64 texts; so the order of the source leaves no trace: two dictionaries with the same records are identical. iter_known_word_parses lists words in that order and readings of a word in the order of records; without a P(t|w) table parse() of a dictionary word gives the readings of each spelling in the order of records. That is the order of numbers for the forms (below 208) of one paradigm and for paradigms 0-12, but not in general (dawg.py claims "properly sorted"): of sixteen paradigms 16k..16k+15 the last three come first, e.g. a reading of paradigm 13 before one of paradigm 0.',
  'every source, option set, prefix and dictionary word',
  'A test looks at a few words of one dictionary with small numbers, where the order looks numeric.',
  ['pymorphy2/dawg.py:WordsDawg',OC+':compile_parsed_dict',AN+':MorphAnalyzer.iter_known_word_parses',AN+':MorphAnalyzer.parse'])
p('C81','Counting again',
  'make_agree_with_number(n) applied again to its own result keeps the grammemes of the result when n ends like 1 or 5, and for nouns in oblique cases; adjectives likewise. But it is not idempotent: a noun in the nominative or accusative agreed with a number like 2 is genitive singular, and agreed again with the same number always becomes genitive plural ("2 кота" -> "2 котов"); a feminine adjective goes from nominative plural to genitive plural; a vocative from nominative to genitive plural. Agreeing again with another number asks for what the first form would have been asked for if the case was kept, otherwise for the genitive. Parts of speech other than nouns, full adjectives and participles are left as they are.',
  'every integer, every reading of every word through one dictionary word, every choice of set elements',
  'A test counts a few words once; the claim is about every number, lexeme and sequence of two counts.',
  [AN+':Parse.make_agree_with_number',TS+':OpencorporaTag.numeral_agreement_grammemes',AN+':MorphAnalyzer._inflect'])
p('C82','Agreement with fractions',
  'make_agree_with_number accepts a Fraction or a (non-negative) float: for an integral value it does what it does for the integer; strictly between k and k+1 a noun in the nominative or accusative is put into the genitive, singular if k ends in 2 or 3 (but not 12, 13), else plural; other cases are kept, in the plural. So the Russian rule (genitive singular after every fraction: 1.5 рубля) is not followed.',
  'every rational number, every noun tag',
  'All numbers.',
  [AN+':Parse.make_agree_with_number',TS+':OpencorporaTag.numeral_agreement_grammemes'])
p('C83','Writing е for ё (or г for ґ)',
  'A dictionary word written without some of its dots keeps every reading: parse() of the dotted spelling returns exactly those readings of the undotted one whose word fits the dotted spelling; tags and normal forms are kept likewise, and word_is_known stays true. Without P(t|w) estimates the readings of the word exactly as written come first. For words outside the dictionary the claim is false: a prediction can be lost by omitting the dots (witness).',
  'every dictionary, substitution table that does not substitute its own results, word and choice of omitted dots',
  'All words and all subsets of their letters.',
  [AN+':MorphAnalyzer.parse',AN+':MorphAnalyzer.tag',AN+':MorphAnalyzer.normal_forms',AN+':MorphAnalyzer.word_is_known','pymorphy2/units/by_lookup.py:DictionaryAnalyzer','pymorphy2/dawg.py'])
p('C84','Adverbs with по-',
  'The unit for such adverbs answers for a lower-cased word exactly if it is "по-" followed by at least two letters that tag() can read as an adjective in the dative singular; it then gives one reading: the word itself as form and normal form, tag ADVB, score 0.7 by default. Every reading that parse() takes from this unit is of that kind. With the default Russian units an unknown word of this shape (not in the dictionary, not an initial, not ending in a particle) has only this reading in parse() and only this tag in tag(); its lexeme is itself and so is its normalized form. The documented bound "longer than five characters" is false: five characters are enough (witness).',
  'every analyzer whose tag class knows ADJF, sing and datv, every word',
  'All words and dictionaries; the remainder is itself analysed by the whole analyzer.',
  ['pymorphy2/units/by_hyphen.py:HyphenAdverbAnalyzer',AN+':MorphAnalyzer.parse',AN+':MorphAnalyzer.tag','docs/internals/prediction.rst'])
p('C85','How a word outside the dictionary is analysed',
  'With the default Russian or Ukrainian units, a word that is not in the dictionary, is no initial, has no hyphen and starts with a letter of a non-Latin script is analysed in three steps. If a known prefix leaves at least three letters with a reading of an open class, the readings (word and grammemes) are exactly those, with the prefix put back. Otherwise they are exactly the readings of dictionary words of an open class behind a prefix of one to five letters together with the productive records of the longest informative endings. If there are none of these either, there is one reading, UNKN. tag() gives exactly the same grammemes. The documented restriction of dictionary words behind unknown prefixes to nouns, adjectives, verbs, participles and gerunds is false (witness: an adverb).',
  'every dictionary, prediction table and word of that kind, with or without P(t|w) estimates',
  'All words and dictionaries; the steps recurse into the whole analyzer and share de-duplication.',
  [AN+':MorphAnalyzer.parse',AN+':MorphAnalyzer.tag','pymorphy2/units/by_analogy.py','pymorphy2/units/unkn.py','pymorphy2/lang/ru/__init__.py','docs/internals/prediction.rst'])
p('C86','Rules for words outside the dictionary, in order',
  'With the default units, a word that is not in the dictionary, is no initial and starts with a letter of a non-Latin script (it may have hyphens) is analysed by the first of these rules that gives a reading, and its readings (word and grammemes) are then exactly those of that rule: (1) a hyphen and a known particle at the end: the readings of the rest with the particle put back; (2) Russian only: "po-" before a dative singular adjective: one adverb; (3) one inner hyphen and no known prefix: right and left part with a part of speech and the same features, or any reading of the right part behind a fixed left part; (4) a known prefix before at least three letters of an open class; (5) unknown prefixes together with the longest informative endings; (6) UNKN. tag() gives exactly the grammemes of the same rule.',
  'every dictionary, prediction table and word of that kind, with or without P(t|w) estimates, Russian and Ukrainian units',
  'All words and dictionaries; every rule recurses into the whole analyzer.',
  [AN+':MorphAnalyzer.parse',AN+':MorphAnalyzer.tag','pymorphy2/units/by_analogy.py','pymorphy2/units/by_hyphen.py','pymorphy2/units/unkn.py','pymorphy2/lang/ru/config.py','pymorphy2/lang/uk/config.py'])
p('C87','Creating analyzers, successfully or not, in one process',
  'All analyzers of a process share one tag class. Whatever state it is in, MorphAnalyzer(...) gives the same warnings and the same exception or the same analyzer. Afterwards the class is unchanged (and the call raised), or it knows exactly the grammemes of the table in the selected folder and of the units bound so far. However many analyzers are created, or fail to be created, after one was made: its parses, tags, lexemes and normal forms stay as they were if all the tables have ADJF, sing, datv and masc; inflect() stays if all have the same table, unless a grammeme of a unit is required. A failing call is not without effect: after it a membership test of an existing analyzer can raise ValueError (witness).',
  'every sequence of constructor calls with any folders, languages, units and failures, every class state, every word and parse',
  'All histories of calls and all points at which a constructor can fail.',
  [AN+':MorphAnalyzer.__init__',AN+':MorphAnalyzer._init_units',TS+':OpencorporaTag._init_grammemes',TS+':OpencorporaTag.add_grammemes_to_known','pymorphy2/opencorpora_dict/storage.py:load_dict'])
p('C88','The answer for any word',
  'With the default units and any text whose lower-case form is not empty, parse() gives exactly the readings (word and grammemes) of the first of these rules that gives one. Russian: (1) dictionary forms that the lower-cased text spells (with character substitutes), and, for a capital initial, the six cases of first names and patronymics of both genders; (2) numbers: what int() accepts is intg, what float() accepts with commas as points is real; (3) punctuation; (4) Roman numbers below 5000 and texts whose letters are all Latin; then the rules of C86: particle, po-adverb, two parts with a hyphen, known prefix, analogy, UNKN. Ukrainian: the Roman and Latin readings are added already to (1), and there is no po-adverb. tag() gives exactly the grammemes of the same rule.',
  'every text with a non-empty lower-case form, every dictionary and prediction table, with or without P(t|w) estimates, Russian and Ukrainian units',
  'All texts and dictionaries; every unit takes part and some recurse into the whole analyzer.',
  [AN+':MorphAnalyzer.parse',AN+':MorphAnalyzer.tag','pymorphy2/units','pymorphy2/lang/ru/__init__.py','pymorphy2/lang/uk/__init__.py'])
p('C89','The order and the numbering of the source lexemes do not change the readings of any word',
  'Compile the same lexemes in two different orders (with the same options) and use both dictionaries with the default units of the same language: parse() returns the same set of readings (word and grammemes) for every word with a non-empty lower-case form, known or unknown, and tag() the same set of tags; only the order of the readings may differ (C76). The reason: up to an injective numbering of the shapes of the lexemes, the compiled dictionary contains exactly the forms of the source lexemes, and for an ending exactly the records whose counts are the numbers of times the ending is met in a row of the lexemes of a popular shape, whenever the ending is frequent enough in total and the count is the largest of its part of speech.',
  'every list of lexemes, every permutation of it, every choice of options, every word; Russian and Ukrainian units without P(t|w) estimates',
  'All dictionaries, all orders and all words: paradigm numbers, prefix and suffix numbers, counters and heaps all depend on the order.',
  [OC+':compile_parsed_dict',OC+':_suffixes_prediction_data',AN+':MorphAnalyzer.parse',AN+':MorphAnalyzer.tag'])
p('C90','Adding lexemes to a dictionary never takes a reading away from a known word',
  'Take two dictionaries (compiled with any options) where the second contains all lexemes of the first, and a word whose lower-case form spells (with character substitutes) a form of the first. With the default units of the same language, every reading (word and grammemes) and every tag the first analyzer gives the word is also given by the second; every further reading is a form of a lexeme that is not in the first dictionary and that the word spells; and if the second dictionary has no other form the word spells, both give the same readings and tags. For a word the first dictionary does not know this fails: a new lexeme can take predictions away (C90_unknown_refuted).',
  'every pair of lexeme lists, one included in the other, every pair of compile options, every word known to the first dictionary; Russian and Ukrainian units without P(t|w) estimates',
  'All dictionaries, all extensions of them and all words.',
  [OC+':compile_parsed_dict',AN+':MorphAnalyzer.parse',AN+':MorphAnalyzer.tag',BL+':DictionaryAnalyzer.parse'])
p('C91','The compile options change only the predictions, and in a known way',
  'Compile the same lexemes twice. Words, paradigms, suffixes and tag texts do not depend on min_ending_freq, min_paradigm_popularity and max_suffix_length, and a known word gets the same readings and tags whatever the options. Raising min_ending_freq removes exactly the prediction records of the endings met less often; lowering max_suffix_length removes exactly those of the longer endings (for endings that are not whole source forms); raising min_paradigm_popularity leaves no record of a rarer paradigm and keeps those of the paradigms and endings that still meet the bounds. No ending is longer than max_suffix_length. Not true: that a higher popularity bound only removes records, that whole short forms keep their counts, that a higher min_ending_freq only removes readings of unknown words (C91_..._refuted).',
  'every list of lexemes and links, every pair of option sets differing as stated, every ending, paradigm and count; every word for the last part',
  'All dictionaries and all option values; a test compiles one dictionary with one or two settings.',
  [OC+':compile_parsed_dict',OC+':_suffixes_prediction_data',AN+':MorphAnalyzer.parse'])
p('C92','A dictionary in the layout of format 2.4 gives the same analyzer',
  'Two dictionary folders that agree except for the place where they state the paradigm prefixes (compile_options in meta.json, or the file paradigm-prefixes.json of format 2.4) and the longest ending (compile_options or prediction_options) give the same analyzer, warnings and tag class, or the same exception, whatever the arguments of the constructor; what the newer place states wins over the older one. A folder that states one of them in neither place gives no analyzer.',
  'every world, every folder, every pair of layouts of the same content (old, new, mixed, with left-over files), every argument list',
  'All folders and arguments; the test-suite has no dictionary in the old layout.',
  ['pymorphy2/opencorpora_dict/storage.py:load_dict',BA+':KnownSuffixAnalyzer._max_suffix_length',AN+':MorphAnalyzer.__init__'])
p('C93','Where a normal form comes from',
  'Each reading of parse(), and so each text listed by normal_forms(), is built in the same steps as its word: a dictionary form (spelled by the lower-cased text, letter substitutes included) becomes the first form of its paradigm with the stem kept; numbers, punctuation, Latin words, Roman numbers, initials, по- adverbs and unknown words are their own normal form; a particle, a known or unknown prefix and a fixed left part are kept as they are; two parts inflected alike are both normalised; a word predicted by its ending has the first form of the recorded paradigm, with as many characters taken off as the recorded form has.',
  'every text with a non-empty lower-case form, every dictionary in the format, with and without P(t|w) estimates, Russian and Ukrainian default units, any nesting of prefixes, hyphens and particles',
  'All words, dictionaries and nestings; tests check listed normal forms only.',
  [AN+':MorphAnalyzer.normal_forms','pymorphy2/opencorpora_dict/wrapper.py:Dictionary.build_normal_form',BA+':KnownPrefixAnalyzer.parse','pymorphy2/units/by_hyphen.py:HyphenatedWordsAnalyzer.parse'])
p('C94','What the score of a reading is',
  'Without P(t|w) estimates the score of every reading is the product along the way it was made: 1 for a dictionary form, 0.1 for an initial, 0.9 for a number, punctuation, a Latin word or a Roman number, 0.7 for an adverb with по-, 1 for UNKN; 0.9 times the score of the rest for a particle, 0.75 times for a known prefix or a hyphenated word (with two inflected parts: that of the left one), 0.5 for a dictionary word behind an unknown prefix, and 0.5 times count / (1 + sum of counts) for a word predicted by its ending. So a score above 0.9 is 1 and means a dictionary form or UNKN.',
  'every text with a non-empty lower-case form, every dictionary in the format without estimates, Russian and Ukrainian default units, any nesting',
  'All words, dictionaries and nestings; the test-suite checks the order of a few readings.',
  [AN+':MorphAnalyzer.parse',BA+':KnownPrefixAnalyzer.parse',BA+':KnownSuffixAnalyzer.parse','pymorphy2/units/by_hyphen.py:HyphenatedWordsAnalyzer.parse','pymorphy2/units/base.py:BaseAnalyzerUnit'])
p('C95','P(t|w) estimates never add or remove a reading',
  'Two analyzers over the same dictionary of which one uses P(t|w) estimates (or both use different ones) give every text the same readings (word and grammemes) and the same tags; estimates only change scores and order, however deep the analysis of parts of the word that are themselves re-weighted.',
  'every dictionary in the format, every table of estimates (an analyzer created with one answers every text unless its table mixes zero and non-zero probabilities for one word, C09), every text with a non-empty lower-case form, both default unit lists',
  'All tables and words: re-weighted readings of parts feed the analysis of the whole word.',
  [AN+':ProbabilityEstimator.apply_to_parses',AN+':ProbabilityEstimator.apply_to_tags',AN+':MorphAnalyzer.parse',AN+':MorphAnalyzer.tag'])
p('C96','No reading of a word is listed twice',
  'Of a text outside the dictionary that is not split at a hyphen, no two readings returned by parse() have the same word, the same grammemes and the same basis (the paradigm of the dictionary row they start from); tag() lists no tag of a text outside the dictionary twice unless the text ends with a particle. The readings of a known word are different rows of the dictionary. Limits shown by counterexample: for a word that is a form of two lexemes tag() lists one tag twice, also with a particle, and a compound has readings that differ only in the lexeme of the left part.',
  'every analyzer with the default units of either language, with or without estimates, every text',
  'All dictionaries and words: three analyzers share one seen-set while others ignore it, so a duplicate may come from any pair of them.',
  ['pymorphy2/units/utils.py:add_parse_if_not_seen','pymorphy2/units/utils.py:add_tag_if_not_seen',AN+':MorphAnalyzer.parse',AN+':MorphAnalyzer.tag','pymorphy2/units/by_analogy.py:KnownSuffixAnalyzer.parse'])
p('C97','Every reading has its own derivation',
  'Except for the single letters configured as initials, no two readings returned by parse() for one text have the same methods_stack, and so no reading is returned twice: for homonyms, compounds with a hyphen, particles, prefixes, predicted words and any nesting of them, whatever units the analyzer is created with. (The readings of an initial letter, one for each gender and case, share their stack.)',
  'every list of units whose initials are not lower-case letters, every dictionary without repeated entries (every compiled one), every letter substitution, with or without estimates, every text',
  'All unit lists, dictionaries and nestings; the stacks of the parts are embedded in the stack of the whole.',
  [AN+':MorphAnalyzer.parse','pymorphy2/units/by_hyphen.py:HyphenatedWordsAnalyzer.parse','pymorphy2/units/by_hyphen.py:HyphenSeparatedParticleAnalyzer.parse',BA+':KnownPrefixAnalyzer.parse',BA+':UnknownPrefixAnalyzer.parse',BA+':KnownSuffixAnalyzer.parse','pymorphy2/units/by_lookup.py:DictionaryAnalyzer.parse'])
p('C98','A lexeme lists no form twice',
  'No two forms in the lexeme of a reading (of any text but a single letter configured as an initial) have the same methods_stack: each stands for a different row of the paradigm, also in lexemes of compounds, of words with particles or prefixes, of predicted words and of any nesting of them. The same holds for the lexeme of any form in whose making no unit for initials took part. (The forms of an initial letter share their stack.)',
  'every list of units, every dictionary, every text, every reading, every form (also ones made by hand)',
  'All stacks and dictionaries; tests look at a few lexemes.',
  [AN+':MorphAnalyzer.get_lexeme','pymorphy2/units/by_lookup.py:DictionaryAnalyzer.get_lexeme','pymorphy2/units/base.py:AnalogyAnalizerUnit.get_lexeme','pymorphy2/units/by_hyphen.py:HyphenatedWordsAnalyzer.get_lexeme'])
p('C99','The methods stack describes the reading',
  'Two readings that have the same methods_stack, returned by parse() for the same text or for two different ones (the first not a single letter configured as an initial), have the same word, tag and normal form: the stack alone tells which form was recognised, for dictionary words, tokens, compounds, particles, prefixes, predicted words and any nesting of them. Such readings therefore have the same lexeme, the same normal form, the same inflections and the same agreement with every number, because none of these depends on the score of the form asked about, whatever the form. (The stack of an initial letter does not tell its gender and case; scores may differ.)',
  'every list of units whose initials are not lower-case letters, every dictionary and letter substitution, with or without estimates, every pair of texts and readings; for scores: every form and every list of grammemes',
  'All pairs of texts, unit lists, dictionaries and nestings; tests compare a few stacks literally.',
  [AN+':MorphAnalyzer.parse',AN+':MorphAnalyzer.get_lexeme',AN+':MorphAnalyzer._inflect',AN+':Parse.normalized','pymorphy2/units/by_hyphen.py:HyphenatedWordsAnalyzer.parse','pymorphy2/units/by_hyphen.py:HyphenSeparatedParticleAnalyzer.parse',BA+':KnownPrefixAnalyzer.parse',BA+':UnknownPrefixAnalyzer.parse',BA+':KnownSuffixAnalyzer.parse','pymorphy2/units/by_lookup.py:DictionaryAnalyzer.parse'])
here = os.path.dirname(os.path.abspath(__file__))
with open(os.path.join(here,'..','properties.jsonl'),'w') as f:
    for x in P: f.write(json.dumps(x, ensure_ascii=False)+'\n')
print(len(P))
