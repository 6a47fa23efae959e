{
 "claims": [
  {
   "property": "C01",
   "status": "proved",
   "theorems": [
    "C01_parse_nonempty",
    "C01_tag_nonempty",
    "C01_shipped"
   ],
   "note": ""
  },
  {
   "property": "C02",
   "status": "proved",
   "theorems": [
    "C02_parse_tag_agree",
    "C02_shipped",
    "C02_same_group_refuted"
   ],
   "note": ""
  },
  {
   "property": "C03",
   "status": "proved",
   "theorems": [
    "C03_parse_word",
    "C03_parse_length"
   ],
   "note": ""
  },
  {
   "property": "C04",
   "status": "proved",
   "theorems": [
    "C04_normal_forms"
   ],
   "note": ""
  },
  {
   "property": "C05",
   "status": "proved",
   "theorems": [
    "C05_russian",
    "C05_ukrainian",
    "C05_with_estimator"
   ],
   "note": ""
  },
  {
   "property": "C06",
   "status": "proved",
   "theorems": [
    "C06_strict_implies_known",
    "C06_known_iff",
    "C06_strictly_known_iff",
    "C06_parse_is_known"
   ],
   "note": ""
  },
  {
   "property": "C07",
   "status": "proved",
   "theorems": [
    "C07_closed_classes_not_predicted",
    "C07_made_by_a_unit"
   ],
   "note": ""
  },
  {
   "property": "C08",
   "status": "proved",
   "theorems": [
    "C08_depth_bounded",
    "C08_shipped",
    "C08_empty_prefix_refuted"
   ],
   "note": ""
  },
  {
   "property": "C09",
   "status": "proved",
   "theorems": [
    "C09_construct",
    "C09_total",
    "C09_any_units",
    "C09_with_estimator",
    "C09_mixture_refuted",
    "C09_unnamed_letter_refuted"
   ],
   "note": ""
  },
  {
   "property": "C10",
   "status": "proved",
   "theorems": [
    "C10_lexeme_contains",
    "C10_when_simple",
    "C10_both_parts_refuted",
    "C10_overlap_refuted"
   ],
   "note": ""
  },
  {
   "property": "C11",
   "status": "proved",
   "theorems": [
    "C11_lexeme_closed"
   ],
   "note": ""
  },
  {
   "property": "C12",
   "status": "proved",
   "theorems": [
    "C12_same_normal_form"
   ],
   "note": ""
  },
  {
   "property": "C13",
   "status": "proved",
   "theorems": [
    "C13_normalized",
    "C13_both_parts_refuted"
   ],
   "note": ""
  },
  {
   "property": "C14",
   "status": "proved",
   "theorems": [
    "C14_inflect_sound"
   ],
   "note": ""
  },
  {
   "property": "C15",
   "status": "proved",
   "theorems": [
    "C15_closest",
    "C15_none",
    "C15_none_complete",
    "C15_closeness_defined",
    "C15_rounding"
   ],
   "note": ""
  },
  {
   "property": "C16",
   "status": "proved",
   "theorems": [
    "C16_keeps"
   ],
   "note": ""
  },
  {
   "property": "C17",
   "status": "proved",
   "theorems": [
    "C17_unknown"
   ],
   "note": ""
  },
  {
   "property": "C18",
   "status": "proved",
   "theorems": [
    "C18_noun",
    "C18_noun_oblique",
    "C18_adjective",
    "C18_other",
    "C18_mod_100",
    "C18_kinds",
    "C18_make_agree",
    "C18_no_case_raises"
   ],
   "note": ""
  },
  {
   "property": "C19",
   "status": "proved",
   "theorems": [
    "C19_parse_reweighted",
    "C19_tag_reordered"
   ],
   "note": ""
  },
  {
   "property": "C20",
   "status": "proved",
   "theorems": [
    "C20_recognised",
    "C20_lexeme"
   ],
   "note": ""
  },
  {
   "property": "C21",
   "status": "proved",
   "theorems": [
    "C21_equality",
    "C21_hash",
    "C21_order",
    "C21_text",
    "C21_pickle"
   ],
   "note": ""
  },
  {
   "property": "C22",
   "status": "proved",
   "theorems": [
    "C22_member",
    "C22_subset",
    "C22_uninitialised"
   ],
   "note": ""
  },
  {
   "property": "C23",
   "status": "proved",
   "theorems": [
    "C23_attribute",
    "C23_comparison",
    "C23_single"
   ],
   "note": ""
  },
  {
   "property": "C24",
   "status": "proved",
   "theorems": [
    "C24_round_trip",
    "C24_shared_alias_refuted",
    "C24_whitespace_refuted"
   ],
   "note": ""
  },
  {
   "property": "C25",
   "status": "proved",
   "theorems": [
    "C25_updated",
    "C25_raises",
    "C25_order_independent",
    "C25_incompatible"
   ],
   "note": ""
  },
  {
   "property": "C26",
   "status": "proved",
   "theorems": [
    "C26_known",
    "C26_recreate",
    "C26_fewer_units_refuted",
    "C26_incompatible_leak_refuted"
   ],
   "note": ""
  },
  {
   "property": "C27",
   "status": "proved",
   "theorems": [
    "C27_caches",
    "C27_quiet",
    "C27_progress",
    "C27_stale_refuted",
    "C27_poisoned_refuted"
   ],
   "note": ""
  },
  {
   "property": "C28",
   "status": "proved",
   "theorems": [
    "C28_race_refuted",
    "C28_two_constructors_refuted",
    "C28_never_wrong",
    "C28_atomic",
    "C28_completed",
    "C28_alone",
    "C28_parse_never_wrong",
    "C28_parse_unaffected",
    "C28_ukrainian",
    "C28_parse_race_refuted",
    "C28_lexeme_never_wrong",
    "C28_inflect_never_wrong",
    "C28_agree_never_wrong",
    "C28_reloads",
    "C28_inflect_mixture_refuted",
    "C28_lexeme_race_refuted"
   ],
   "note": ""
  },
  {
   "property": "C29",
   "status": "proved",
   "theorems": [
    "C29_same",
    "C29_forgets",
    "C29_elsewhere",
    "C29_drops_refuted"
   ],
   "note": ""
  },
  {
   "property": "C30",
   "status": "proved",
   "theorems": [
    "C30_tokens",
    "C30_nothing_lost",
    "C30_shape",
    "C30_again"
   ],
   "note": ""
  },
  {
   "property": "C31",
   "status": "proved",
   "theorems": [
    "C31_hyphen_parts",
    "C31_pieces_exist",
    "C31_plain",
    "C31_only_case",
    "C31_restores"
   ],
   "note": ""
  },
  {
   "property": "C32",
   "status": "proved",
   "theorems": [
    "C32_unknown_prefix",
    "C32_splits",
    "C32_splits_in_order"
   ],
   "note": ""
  },
  {
   "property": "C33",
   "status": "proved",
   "theorems": [
    "C33_lcs"
   ],
   "note": ""
  },
  {
   "property": "C34",
   "status": "proved",
   "theorems": [
    "C34_largest"
   ],
   "note": ""
  },
  {
   "property": "C35",
   "status": "proved",
   "theorems": [
    "C35_total",
    "C35_lossless",
    "C35_stem"
   ],
   "note": ""
  },
  {
   "property": "C36",
   "status": "proved",
   "theorems": [
    "C36_forms",
    "C36_source",
    "C36_iter",
    "C36_wellformed",
    "C36_failures",
    "C36_no_empty_prefix_refuted",
    "C36_parse_russian",
    "C36_parse_ukrainian"
   ],
   "note": ""
  },
  {
   "property": "C37",
   "status": "proved",
   "theorems": [
    "C37_records",
    "C37_hits",
    "C37_hits_at_least",
    "C37_ending",
    "C37_short_words_refuted"
   ],
   "note": ""
  },
  {
   "property": "C38",
   "status": "proved",
   "theorems": [
    "C38_keeps_forms",
    "C38_joined_to_top",
    "C38_self_link_refuted",
    "C38_cycle_refuted"
   ],
   "note": ""
  },
  {
   "property": "C39",
   "status": "proved",
   "theorems": [
    "C39_same_grammemes",
    "C39_redundant",
    "C39_loc1_left_refuted",
    "C39_spelling",
    "C39_unified",
    "C39_idempotent",
    "C39_idempotent_refuted"
   ],
   "note": ""
  },
  {
   "property": "C40",
   "status": "proved",
   "theorems": [
    "C40_drop"
   ],
   "note": ""
  },
  {
   "property": "C41",
   "status": "proved",
   "theorems": [
    "C41_saving",
    "C41_round_trip",
    "C41_other_byte_order",
    "C41_portable_refuted",
    "C41_truncated"
   ],
   "note": ""
  },
  {
   "property": "C42",
   "status": "proved",
   "theorems": [
    "C42_interrupted",
    "C42_complete",
    "C42_power_loss",
    "C42_overwrite_refuted"
   ],
   "note": ""
  },
  {
   "property": "C43",
   "status": "proved",
   "theorems": [
    "C43_update",
    "C43_interrupted",
    "C43_unreadable",
    "C43_reals_refuted"
   ],
   "note": ""
  },
  {
   "property": "C44",
   "status": "proved",
   "theorems": [
    "C44_accepted",
    "C44_refused"
   ],
   "note": ""
  },
  {
   "property": "C45",
   "status": "proved",
   "theorems": [
    "C45_exact",
    "C45_value",
    "C45_newline_refuted",
    "C45_unit"
   ],
   "note": ""
  },
  {
   "property": "C46",
   "status": "proved",
   "theorems": [
    "C46_shape",
    "C46_unit",
    "C46_parse",
    "C46_initialised",
    "C46_digit_refuted",
    "C46_long",
    "C46_digits_refuted"
   ],
   "note": ""
  },
  {
   "property": "C47",
   "status": "proved",
   "theorems": [
    "C47_latin",
    "C47_latin_total",
    "C47_punctuation",
    "C47_exclusive",
    "C47_latin_unit",
    "C47_punct_unit"
   ],
   "note": ""
  },
  {
   "property": "C48",
   "status": "proved",
   "theorems": [
    "C48_sizes",
    "C48_any_cache",
    "C48_bad_size"
   ],
   "note": ""
  },
  {
   "property": "C49",
   "status": "proved",
   "theorems": [
    "C49_records",
    "C49_analyses",
    "C49_tags",
    "C49_lemmas",
    "C49_score_text",
    "C49_options",
    "C49_score_alone_refuted"
   ],
   "note": ""
  },
  {
   "property": "C50",
   "status": "proved",
   "theorems": [
    "C50_known",
    "C50_parsed"
   ],
   "note": ""
  },
  {
   "property": "C51",
   "status": "proved",
   "theorems": [
    "C51_extension",
    "C51_shipped"
   ],
   "note": ""
  },
  {
   "property": "C52",
   "status": "proved",
   "theorems": [
    "C52_unit",
    "C52_parse"
   ],
   "note": ""
  },
  {
   "property": "C53",
   "status": "proved",
   "theorems": [
    "C53_unit",
    "C53_parse",
    "C53_shipped"
   ],
   "note": ""
  },
  {
   "property": "C54",
   "status": "proved",
   "theorems": [
    "C54_keys",
    "C54_stored",
    "C54_sound",
    "C54_range",
    "C54_total",
    "C54_scores",
    "C54_spelling_refuted"
   ],
   "note": ""
  },
  {
   "property": "C55",
   "status": "proved",
   "theorems": [
    "C55_lemma",
    "C55_succeeds",
    "C55_one_l",
    "C55_tag",
    "C55_document",
    "C55_document_succeeds",
    "C55_version",
    "C55_libraries_agree",
    "C55_libraries_agree_refuted"
   ],
   "note": ""
  },
  {
   "property": "C56",
   "status": "proved",
   "theorems": [
    "C56_folder",
    "C56_not_installed",
    "C56_language",
    "C56_defaults",
    "C56_estimator"
   ],
   "note": ""
  },
  {
   "property": "C57",
   "status": "proved",
   "theorems": [
    "C57_parse_first_success",
    "C57_tag_first_success",
    "C57_terminal_units"
   ],
   "note": ""
  },
  {
   "property": "C58",
   "status": "proved",
   "theorems": [
    "C58_unit",
    "C58_parse",
    "C58_score"
   ],
   "note": ""
  },
  {
   "property": "C59",
   "status": "proved",
   "theorems": [
    "C59_source",
    "C59_known"
   ],
   "note": ""
  },
  {
   "property": "C60",
   "status": "proved",
   "theorems": [
    "C60_words",
    "C60_existing_folder",
    "C60_failures",
    "C60_analyzer",
    "C60_lexeme",
    "C60_linked"
   ],
   "note": ""
  },
  {
   "property": "C61",
   "status": "proved",
   "theorems": [
    "C61_lines",
    "C61_output",
    "C61_tokenized"
   ],
   "note": ""
  },
  {
   "property": "C62",
   "status": "proved",
   "theorems": [
    "C62_language"
   ],
   "note": ""
  },
  {
   "property": "C63",
   "status": "proved",
   "theorems": [
    "C63_bounds",
    "C63_shipped",
    "C63_known_sorted",
    "C63_sorted_refuted"
   ],
   "note": ""
  },
  {
   "property": "C64",
   "status": "proved",
   "theorems": [
    "C64_parse",
    "C64_tag",
    "C64_letters",
    "C64_initials_refuted"
   ],
   "note": ""
  },
  {
   "property": "C65",
   "status": "proved",
   "theorems": [
    "C65_unit",
    "C65_parse",
    "C65_unknown_complete",
    "C65_capital_prefixes_refuted"
   ],
   "note": ""
  },
  {
   "property": "C66",
   "status": "proved",
   "theorems": [
    "C66_complete",
    "C66_meta",
    "C66_interrupted",
    "C66_interrupted_again",
    "C66_last_wins",
    "C66_atomic_refuted"
   ],
   "note": ""
  },
  {
   "property": "C67",
   "status": "proved",
   "theorems": [
    "C67_known",
    "C67_unit_grammemes_lost",
    "C67_parse",
    "C67_parse_refuted",
    "C67_inflect",
    "C67_convert"
   ],
   "note": ""
  },
  {
   "property": "C68",
   "status": "proved",
   "theorems": [
    "C68_gramtab",
    "C68_history_refuted",
    "C68_not_loadable",
    "C68_bystander",
    "C68_bystander_refuted",
    "C68_productive",
    "C68_updated",
    "C68_classes_refuted"
   ],
   "note": ""
  },
  {
   "property": "C69",
   "status": "proved",
   "theorems": [
    "C69_prefix",
    "C69_particle",
    "C69_hyphen",
    "C69_analogy",
    "C69_scores"
   ],
   "note": ""
  },
  {
   "property": "C70",
   "status": "proved",
   "theorems": [
    "C70_reach",
    "C70_round_trip",
    "C70_superset_refuted"
   ],
   "note": ""
  },
  {
   "property": "C71",
   "status": "proved",
   "theorems": [
    "C71_results",
    "C71_pieces",
    "C71_bound",
    "C71_linear",
    "C71_doubling",
    "C71_polynomial_refuted"
   ],
   "note": ""
  },
  {
   "property": "C72",
   "status": "proved",
   "theorems": [
    "C72_rounding",
    "C72_parse",
    "C72_tag",
    "C72_range",
    "C72_error",
    "C72_sum",
    "C72_sum_refuted",
    "C72_normal",
    "C72_double",
    "C72_shipped",
    "C72_double_readings",
    "C72_underflow_refuted",
    "C72_inflect",
    "C72_tie_refuted",
    "C72_table",
    "C72_value_order",
    "C72_table_refuted"
   ],
   "note": ""
  },
  {
   "property": "C73",
   "status": "proved",
   "theorems": [
    "C73_opens",
    "C73_meta",
    "C73_any"
   ],
   "note": ""
  },
  {
   "property": "C74",
   "status": "proved",
   "theorems": [
    "C74_combinations"
   ],
   "note": ""
  },
  {
   "property": "C75",
   "status": "proved",
   "theorems": [
    "C75_clone",
    "C75_units",
    "C75_iterator_refuted",
    "C75_getargspec",
    "C75_repr",
    "C75_hidden"
   ],
   "note": ""
  },
  {
   "property": "C76",
   "status": "proved",
   "theorems": [
    "C76_exact",
    "C76_independent",
    "C76_order_refuted",
    "C76_prediction_refuted"
   ],
   "note": ""
  },
  {
   "property": "C77",
   "status": "proved",
   "theorems": [
    "C77_reparse",
    "C77_normal_form",
    "C77_first_refuted",
    "C77_predicted_refuted"
   ],
   "note": ""
  },
  {
   "property": "C78",
   "status": "proved",
   "theorems": [
    "C78_total"
   ],
   "note": ""
  },
  {
   "property": "C79",
   "status": "proved",
   "theorems": [
    "C79_enough",
    "C79_limit_refuted"
   ],
   "note": ""
  },
  {
   "property": "C80",
   "status": "proved",
   "theorems": [
    "C80_records",
    "C80_canonical",
    "C80_known_words",
    "C80_readings",
    "C80_forms",
    "C80_paradigms",
    "C80_last_three_first",
    "C80_properly_sorted_refuted"
   ],
   "note": ""
  },
  {
   "property": "C81",
   "status": "proved",
   "theorems": [
    "C81_noun_again",
    "C81_noun_two_again",
    "C81_recount",
    "C81_adjective_again",
    "C81_adjective_two_again",
    "C81_uncounted",
    "C81_vocative_refuted"
   ],
   "note": ""
  },
  {
   "property": "C82",
   "status": "proved",
   "theorems": [
    "C82_integer",
    "C82_fraction",
    "C82_genitive_refuted"
   ],
   "note": ""
  },
  {
   "property": "C83",
   "status": "proved",
   "theorems": [
    "C83_readings",
    "C83_known",
    "C83_tags",
    "C83_normal_forms",
    "C83_exact_first",
    "C83_unknown_refuted"
   ],
   "note": ""
  },
  {
   "property": "C84",
   "status": "proved",
   "theorems": [
    "C84_unit",
    "C84_parse",
    "C84_only",
    "C84_only_tag",
    "C84_longer_refuted"
   ],
   "note": ""
  },
  {
   "property": "C85",
   "status": "proved",
   "theorems": [
    "C85_new_word",
    "C85_new_tags",
    "C85_classes_refuted"
   ],
   "note": ""
  },
  {
   "property": "C86",
   "status": "proved",
   "theorems": [
    "C86_russian",
    "C86_ukrainian",
    "C86_tags"
   ],
   "note": ""
  },
  {
   "property": "C87",
   "status": "proved",
   "theorems": [
    "C87_known",
    "C87_independent",
    "C87_existing",
    "C87_inflect",
    "C87_agrees",
    "C87_failed_refuted"
   ],
   "note": ""
  },
  {
   "property": "C88",
   "status": "proved",
   "theorems": [
    "C88_russian",
    "C88_ukrainian",
    "C88_tags"
   ],
   "note": ""
  },
  {
   "property": "C89",
   "status": "proved",
   "theorems": [
    "C89_contents",
    "C89_order",
    "C89_analyzers"
   ],
   "note": ""
  },
  {
   "property": "C90",
   "status": "proved",
   "theorems": [
    "C90_growing",
    "C90_unknown_refuted"
   ],
   "note": ""
  },
  {
   "property": "C91",
   "status": "proved",
   "theorems": [
    "C91_words",
    "C91_known",
    "C91_frequency",
    "C91_length",
    "C91_longest",
    "C91_popularity",
    "C91_popularity_adds_refuted",
    "C91_length_whole_refuted",
    "C91_fewer_predictions_refuted"
   ],
   "note": ""
  },
  {
   "property": "C92",
   "status": "proved",
   "theorems": [
    "C92_layouts",
    "C92_missing"
   ],
   "note": ""
  },
  {
   "property": "C93",
   "status": "proved",
   "theorems": [
    "C93_reading",
    "C93_listed",
    "C93_stem"
   ],
   "note": ""
  },
  {
   "property": "C94",
   "status": "proved",
   "theorems": [
    "C94_score",
    "C94_certain"
   ],
   "note": ""
  },
  {
   "property": "C95",
   "status": "proved",
   "theorems": [
    "C95_readings",
    "C95_analyzers"
   ],
   "note": ""
  },
  {
   "property": "C96",
   "status": "proved",
   "theorems": [
    "C96_readings",
    "C96_tags",
    "C96_known",
    "C96_homonyms_refuted"
   ],
   "note": ""
  },
  {
   "property": "C97",
   "status": "proved",
   "theorems": [
    "C97_origins",
    "C97_distinct",
    "C97_entries",
    "C97_initials_refuted"
   ],
   "note": ""
  },
  {
   "property": "C98",
   "status": "proved",
   "theorems": [
    "C98_reading",
    "C98_form",
    "C98_made",
    "C98_initials_refuted"
   ],
   "note": ""
  },
  {
   "property": "C99",
   "status": "proved",
   "theorems": [
    "C99_stack",
    "C99_scores",
    "C99_agreement",
    "C99_same_lexeme",
    "C99_initials_refuted"
   ],
   "note": ""
  }
 ]
}