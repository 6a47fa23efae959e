# Formal model of pymorphy2 in Coq 8.16.1 — design

The model is in `rocq/theories` (logical name `Verif`). Nothing of /repo was run: it was read as text. Python 3.11's own standard
library was used only to look at Unicode facts and stdlib behaviour (listed at the end).

## Files

| file | models |
|------|--------|
| `Py.v` | Python values: strings as lists of code points, `res A := Ok a \| Err exn`, dicts as association lists in insertion order, sets as lists read up to membership |
| `Uni.v` | Unicode oracles (`lower`, `isalpha`, `isspace`, "LATIN" in the character name, ...) as a record `uni`; concrete ASCII+Cyrillic instance `uni_cyr` for the examples |
| `Tagset.v` | tagset.py: tags, membership, attributes, translation, numeral agreement, the mutable class state (`tagclass`), `_init_grammemes`, `add_grammemes_to_known` |
| `Dawg.v` | dawg.py, and the contracts of the external `dawg`/`DAWG-Python` package it uses (finite maps with value lists, `similar_items`, prefixes) |
| `Utils.v`, `Shapes.v`, `Tokenizers.v` | utils.py, shapes.py and the text tests of units/by_shape.py, tokenizers.py |
| `Dict.v` | opencorpora_dict/wrapper.py |
| `Units.v`, `Analyzer.v` | units/*.py and analyzer.py: `parse`, `tag`, lexemes, normal forms, inflection, agreement, binding of units |
| `ConfigRu.v`, `ConfigUk.v` | lang/ru, lang/uk: the literal unit lists, prefixes, particles, initials |
| `Compile.v`, `Preprocess.v`, `XmlParse.v`, `Convert.v` | opencorpora_dict/compile.py, preprocess.py, parse.py |
| `Json.v`, `Storage.v` | json text and UTF-8 as used by utils.py:json_read/json_write; storage.py with byte-level file operations |
| `Probability.v` | probability.py |
| `AddProb.v` | probability.py:21-46 `add_conditional_tag_probability` as file operations |
| `CyrTags.v` | tagset.py:525-579 `CyrillicOpencorporaTag` and its state; the effect of `save_compiled_dict` and `convert_to_pymorphy2` on both tag classes; `load_dict(…, "opencorpora-ext")` |
| `Trace.v` | analyzer.py:301-341 and the units once more, with a log of the words for which parse/tag is entered; proved to give the same results (C71_results) |
| `Rounding.v` | everything that computes or compares scores once more (analyzer.py:73-101, :301-341, :371-385, the units' parse, dawg.py:58-66, probability.py:101-149), with each arithmetic result rounded to 53 bits, nearest even, unbounded exponent |
| `Doubles.v` | the same functions with IEEE 754 doubles: bounded exponents, subnormal numbers |
| `Objects.v` | units/base.py:30-77 (init, clone, __repr__, _get_params), the `__init__`/`init` methods of all units as far as attributes go, analyzer.py:226-248 on a heap of unit objects, utils.py:125-140 |
| `Counting.v` | tagset.py:485-513, analyzer.py:38-42 for numbers that are not integers |
| `Create.v` | analyzer.py:98-298, 427-429: choosing path and language, the constructor, pickling |
| `Attempt.v` | analyzer.py:187-248 once more, with the state of the shared tag class when the constructor raises; proved to agree with Create.v (C87_agrees) |
| `Cli.v` | cli.py `parse` and `dict meta` commands |
| `Threads.v` | shapes.py:10-18, cache.py:23-49, the shared state of tagset.py, and parse(), tag(), lexeme, normalized, inflect() with all units, as programs of atomic operations; schedules |
| `Spec*.v` | small specifications used in theorem statements, written without the model's helper functions where possible |
| `Ex.v`, `L_Ex*.v` | concrete dictionaries, documents and folders used by the non-vacuity examples |
| `L_*.v` | lemmas |
| `P_*.v` | the property theorems only, each followed by `Print Assumptions` and by an `Example Cxx_case` showing a concrete non-trivial instance of the hypotheses |

Theorems named `..._refuted` prove that an obvious stronger claim is *false* of the code, by a concrete execution; they document findings.

## Trusted base

* Coq's kernel (8.16.1), with `vm_compute` (used for demo values; `coqchk` re-checks everything without it).
* `Print Assumptions` says *Closed under the global context* for every theorem of every `P_*.v`: no axiom is used.
  `coqchk` also prints seven names `Coq.ssr.ssrunder.Under_rel.*`: these are standard-library parameters (the opaque module behind the
  `under` tactic), present because ssreflect is loaded; no theorem depends on them.
* That the definitions model the code: each carries the file and lines it was read from, and its simplifications.
* The contracts of what is outside the repository (below).

## What is modelled exactly, and what is not

* **Exceptions** are values; messages are not modelled; of EOFError/IOError one constructor `FileError` is used.
* **Recursion**: `morph.parse`/`morph.tag` call each other; the model runs on fuel `len(lower)+1` and C08 proves that the fuel is never
  the reason for a result, except for an empty configured prefix (where the code does not terminate: `C08_empty_prefix_refuted`).
* **Scores** are exact rationals in all files but Rounding.v; there IEEE-754 rounding is modelled (53 bits, nearest even; exponents unbounded), and C72 relates the two; Doubles.v adds the bounded exponents of binary64 (subnormals, underflow; infinity is represented by 2^1024, arithmetic on it is not modelled), and C72_double shows when they make no difference. Scores of lexeme forms ((a+b)/2 in by_hyphen.py), which nothing reads, are not rounded. `C15_rounding` shows that the form inflect() chooses with
  rounded similarities is the same under a stated error bound (a statement about an arbitrary error bound; C72_inflect is about binary64 itself).
* **Sets**: where Python's set order could matter the theorem is stated for every order (`pick`, permutations).
* **Unicode tables**: an oracle record; theorems list the facts they need (e.g. `lower_stable`: lower-casing twice is the same; all were
  checked on CPython 3.11's tables).
* **dawg package**: a RecordDAWG is a finite map; `similar_items` enumerates substituted spellings in the order of DAWG-Python. The bytes
  of a .dawg file are an abstract codec (`dawgio`): theorems assume that reading what was written gives it back and that a proper prefix
  of a file is refused; `io_json` is a concrete codec satisfying this. Compile.v builds it in the library's order: keys by code
  points (the order of UTF-8 bytes), the values of a key by the base64 text of their packed form (docs/internals/dict.rst), walked in the
  order of bytes; that the library walks its graph in that order is taken from its documentation, not from code in the repository.
* **JSON**: printer and parser for the values used (objects, arrays, strings with escapes, integers, reals kept as text, booleans, null),
  with UTF-8; tokens the printer never writes are parsed only as far as needed.
* **XML**: elements as trees; the text of the file, comments, processing instructions and tails are not modelled; both `xml_clear_elem`
  variants (lxml / ElementTree) are.
* **Lexeme ids** are numbers in Compile.v; `Convert.v` connects texts to numbers for canonical decimal ids.
* **Files**: opening for writing truncates; bytes appear one by one; a crash is a prefix of the operations (`C42_power_loss` also allows
  each file to keep any prefix). Permissions, disk-full, concurrent writers are not modelled.
* **Constructor**: a custom estimator class is modelled as another way to get a table; grammemes added by units bound before a failing
  unit are modelled in Attempt.v (not in Create.v); logging is not modelled.
* **Threads**: one built-in operation on one object is atomic (the GIL); `_init_grammemes` expands `_EXTRA_INCOMPATIBLE` in one action and
  stores a row in one action. `parse()`, `tag()`, `normal_forms()`, `lexeme`, `normalized`, `inflect()` and `make_agree_with_number()` are split into actions at every access to shared state (`tag.grammemes`, membership
  tests, the set of known grammemes, the table of incompatible grammemes, the cache of `is_latin_char`); what they read of the dictionary and the units is taken to be fixed after the constructor. Equal
  tags of one analyzer share one object in the model (the code may have two, e.g. `ADVB` of the dictionary and of `HyphenAdverbAnalyzer`).
  In `make_agree_with_number()` of a tag without case, None is the first of the required grammemes to be tested.
* **CLI**: docopt's defaults are taken from the usage text; `float()` is a parameter; `int()` is modelled, with CPython 3.11's limit on the number of digits as a parameter.
  `dict meta` is modelled (repr() of a text is a parameter), `dict mem_usage` is not.
* **Not modelled at all**: benchmarks, docs, tests, setup.py, logging, the `__repr__`s of tags and dictionaries, memory use,
  downloading of dictionaries.

## Property plans

* C01 C57: induction over the unit list with the invariant "seen set non-empty implies result non-empty".
* C02: simulation between unit `parse` and unit `tag`, by induction on fuel, then on units.
* C03: inductive relation `subst_of`, induction on fuel; each unit preserves it.
* C04: direct induction. C05/C06: analysis of the first unit group.
* C07: from the productive filter of the three units.
* C08: strictly decreasing length of the recursive arguments; fuel irrelevance.
* C09: well-formedness predicate for dictionary and class state; no-`Err` induction; witness for ZeroDivisionError.
* C10–C13: well-formed methods-stack predicate established by `parse`, then algebra of stem/prefix/suffix.
* C14–C17: list reasoning about filter/argmax; integer arithmetic on similarity.
* C18: arithmetic on `Z.modulo`.
* C19: stable sort lemmas (permutation, sortedness, stability), rational arithmetic.
* C20: direct. C21–C25: list/set algebra. C26: class state as state machine, induction over histories.
* C27/C28: small-step interleaving semantics, invariants kept by every operation of every thread (`safe`, Kripke style), witnesses by
  running a schedule.
* C29, C56, C62: configuration records, case analysis.
* C30–C34: list algorithms; full functional specs.
* C35–C38: dictionary compiler; invariants over the fold; multiset preservation; rank function for link graphs.
* C39–C40: map/filter laws; C39_spelling (L_Spell.v): counters keyed by grammeme sets keep first-occurrence order, so the head of the stable sort is the first maximum; the replacements of one meaning touch no other; C39_idempotent: after one pass no meaning has competing spellings. C41: byte codec round-trip. C42–C43: file-system as a map, save as a list of writes, crash = prefix.
* C44: string decision. C45: regex as nondeterministic matcher vs numeral printer, finite sweep lifted by a lemma.
* C46: grammar. C47: list predicates. C48: cache as arbitrary sound sub-map. C49, C61: formatting and tokens.
* C50–C53, C58, C59: direct list reasoning, induction over `made`. C54: rational arithmetic, string injectivity. C55: tree recursion.
* C60: composition of C55, C39, C40, C36, C42; C60_analyzer adds C56 (creation succeeds) and C09 (totality), from the XML document to parse(); C60_lexeme and C60_linked (vocabulary of elements and links only, Spec27.v) add C38 and C36: the analyzer's lexemes are the document's lemmas, joined along the links.
* C63: interval invariant over units; sortedness from the stable sort of the estimator; witnesses for unsorted results.
* C64: letter case; simulation on the lower-cased word, witness for initials. C65: list reasoning on prefixes; sweep over the shipped lists.
* C66: the folder as a map, the run as file operations; the loader depends on meta.json only through keys the run does not touch.
* C67: both registered tag classes are a state threaded through saving; an analyzer keeps its data and reads the class in its
  new state (`in_state`); grammemes analysis asks for are compared with the known sets of both states.
* C68: str.replace over a text whose separators are not in the grammeme names acts on each grammeme by itself; loading fails at the first unknown name; the class's own tables are looked up under translated names (L_CyrTags3.v).
* C69: stripping what the unit added gives back the inner parse up to its score, and scores do not matter to a lexeme (by induction on the method stack); the hyphen unit's distance is the size of the symmetric difference (bound 10**6 kept as a hypothesis), its right part keeps the left part's tag, so the inner lexeme must not depend on the tag (true for dictionary-based stacks).
* C70: `similar` keeps the forms with all wanted grammemes; when no form has strictly more, these are the forms with exactly the wanted grammemes and the ranking is stable, so the first wins. `outermost` is necessary: `C70_superset_refuted`.
* C71: Trace.v repeats parse/tag and the units with a log of the words analysed; C71_results shows the results are those of the model. Upper bounds by induction on the fuel; the lower bound by induction on the number of repetitions, for all analyzers with the Russian units, and (C71_polynomial_refuted) for a concrete one and every polynomial.
* C72: a simulation between the rounded and the exact analyzer. Invariant: the readings are equal and a score is zero in one iff in the other. The two places that compare scores (suffix prediction, estimator) are handled by gap lemmas: different fractions with numerators < 2^16 and denominators < 2^33, or different table values, stay different after rounding, equal ones stay equal. Inflection: equal similarities with tag sizes less than 12 apart have equal terms. The same simulation carries a bound on the relative error, counted in roundings (L_Rounding3.v, L_Rounding8.v). Doubles with their bounded exponents: by induction on the nesting, a score is 0 or at least 2^-(43 + (k+1) * depth), so below the stated word length no value leaves the normal range (L_Dbl*.v); without a table the readings agree for every length.
* C73: save/load round trip (C41) composed with the constructor; the printed lines are written out in Spec23.v and compared with the metadata entry by entry.
* C74: choices as increasing lists of positions (Spec24.v); induction on the list for `itertools.combinations`, then over lengths.
* C75: heap of unit objects and one-shot iterators (Objects.v); invariant "attributes of a unit are those its constructor stored", preserved by clone; induction over units and over analyzers. The meaning of constructor arguments is written out separately (`configured` in Spec25.v).
* C76, C77: `says` (what lexemes say, Spec26.v) against `shows` (what parses show); the content invariant of compilation (C36) composed with the exact readings of C05, both directions; independence and closure are corollaries. Witnesses are three small compiled dictionaries (L_ExSoap.v).
* C78: `obtainable` (Spec28.v) is the inductive closure of the analyzer's calls; an invariant of method stacks (`tame`: total for any word; `fits`: stacks with a both-parts hyphen item, whose word and normal form must contain the hyphen) holds of parse results and is preserved by lexeme, normalized and inflect (L_Forms.v). Hypotheses: well-formed dictionary, "masc" in the grammeme table, and no tag with 500000 grammemes (the search for the closest left form starts from the distance 10^6).
* C79: C79_enough repeats the fuel argument of C08 with the measure length/2 (shipped prefixes and particles have two or more characters, both parts of an inner hyphen are non-empty); C79_limit_refuted: for `не` repeated often enough no unit before the known-prefix unit says anything (too long for the dictionary) and the only split is `не` + rest, so the error of the innermost call comes out (L_Depth.v). Fuel counts nested parse/tag calls, not CPython frames.
* C80: `rdawg_of` sorts keys by code point and values by base64 text (library contract, see above); `pack_form` = the signs of Spec30 through the alphabet (division lemmas by lia), the 64x64 comparisons of signs by computation, strict sortedness from the sort, NoDup and injectivity of the text; uniqueness of a strictly sorted list gives C80_canonical; C05 and C50 give the order of results (L_Order.v, L_Order2.v). C80_properly_sorted_refuted: fourteen lexemes.
* C81: `numeral_agreement` of the result is computed from its only case and number (Spec32.v: `the_only`); `inflect_keeps` (also C16): a form that has what is required beats every form with other grammemes, because what the requirement excludes is shared by all candidates (cardinality argument); closure of the lexeme from C11 (L_Count.v). The refutations use a small compiled dictionary (L_ExN.v).
* C82: Counting.v repeats numeral_agreement_grammemes over Q with Python's modulo; floor(x/d) = floor(x)/d and case distinction (L_Count.v).
* C83: both words are dictionary words by transitivity of substitution; readings are determined by word and place in the dictionary (L_Yo.v, on top of C05, C02 and C04). The loss for predicted words is a computed witness.
* C84: the unit's test is characterised over the whole analyzer's tag() (any/contains over known grammemes); units before it are shown to be silent on such words, then the terminal unit ends the loop (L_Adverb.v). The five-character witness is computed.
* C85: all earlier units are shown to be silent on such words; the three analogy units are characterised exactly (C65, C58 and C32 in both directions), de-duplication across units is resolved through the seen set, estimates keep the set of readings (L_New.v). The tags follow with C02.
* C86: every unit behind the lookup and shape units gets an exact description as a rule (C53, C84, C57, C85 in both directions); the terminal flags make the loop stop at the first rule with a reading (L_Stages.v: rule_step); fuel is removed as in C85. The tags follow with C02.
* C87: `Attempt.v` threads the class through the binding of the units; every attempt leaves it either alone or equal to the initialised table plus the registrations of the units bound so far (attempt_state). Induction over the calls with the invariant `steady` (names known, extra incompatibilities already closed under descent); independence by erasing the part of the class that parsing never reads (`upd`). Agreement with `Create.v` is C87_agrees.
* C88: every lookup and shape unit is described exactly as a rule as well (`plain_unit`; C01, C46, C47, C64), a group of units up to a terminal one gives the union of its rules (`group_run`), and C86's steps continue behind them. Only the lower-case form has to be non-empty: no assumption on the script or on the dictionary.
* C89: `contents_from_source` describes the compiled words and prediction records by the shapes of the source lexemes (C35, C36 and the compile invariants, with the numbering as the only unknown); the description is invariant under permutation. `twins_alike` then compares the two analyzers rule by rule (C88), by induction on the length of the word for the units that recurse.
* C90: the forms of a compiled dictionary are those of its lexemes (C89's `form_source`, whatever the options), and a known word is answered by the first rule of C88 alone, whose other parts do not depend on the dictionary.
* C91: both compilations go through the same loop state (`same_state`), so the records of both are `source_record`s (C89) under one numbering; the theorems compare these: the frequency bound is one conjunct, the length limit only adds lengths at which no other ending is cut off (`hits_same`), and the popularity bound shrinks the set over which the maximum is taken.
* C92: `load_dict` reads the same steps from both folders (as in C66's `load_again`), `load_prefixes` and `max_suffix_length` return what the folder states, and the rest of the constructor looks at neither key.
* C93: an inductive relation over the text (Spec41) with one clause for each way to read it; strong induction on the length of the lower-cased text, the unit of each reading being one of the shipped list (`made`, C57); the first form is stated by paradigm rows and lengths, not by `build_normal_form`.
* C94: C93's relation with a score in each clause (Spec42); the same induction, keeping the score equations of C52, C53, C58 and C65, which hold as they stand when there are no estimates.
* C95: C89's induction over two analyzers never used that their estimates agree; here the dictionary is the same object and only the table differs. Totality of the second analyzer is C09's.
* C96: invariant of the loops that use a seen-set (keys of the results are in it and pairwise different), lifted unit by unit over the two default lists; other units return at most one reading, or two with different tags; for known words distinctness of substituted spellings and of the rows of an entry.
* C97: induction on the nesting depth: each unit returns readings with pairwise different stacks whose last method is its own (so readings of different units never clash); for the units with a seen-set from C96's invariant plus "the stack determines the reading", for compounds from the injectivity of the two stack constructors. Any list of units; the pieces an analyzer is asked about are lower-case, so never initials.
* C98: induction on the fuel of get_lexeme: dictionary rows carry their index, decorated forms keep distinct stacks (appending a method is injective), aligned compounds carry the stacks of the right part; readings of texts that are no initials are made without units for initials (induction on the nesting depth).
* C99: induction on the nesting depth for both texts at once: the last method names the unit, so both readings come from the same unit; each constructor of the stack determines its parts (prefix, left part, paradigm row), and the parts are alike by induction. Initials excluded (refuted with a concrete pair). Scores: two runs of get_lexeme, normalized and inflect related by "equal but for scores", by induction on the fuel (L_Scoreless.v).

No property is declared inexpressible.

## Checking the theorems against wrong programs

`seeded/LOG.jsonl` has one line per seeded bug: the edit of the model, the claim it breaks, the theorems that no longer prove, and what was
tightened. The edits are made in a scratch copy; each failing proof is replaced by an admission there, so that *all* theorems that depend on
the edited definition are found.

## Stdlib and Unicode facts looked up (CPython 3.11), used as hypotheses or in comments

`str.lower` is idempotent on code points; only U+0130 has a lower-case form of another length; no word character is a space; no punctuation
character is a space or a letter; `int()`/`float()` strip ASCII white space and non-ASCII `isspace` characters; nothing but '-' lower-cases
to something containing '-'; a UTF-8 reader drops an incomplete trailing sequence when reading a whole file through `codecs`.
