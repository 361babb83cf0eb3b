{
 "claims": [
  {
   "property": "C01",
   "status": "proved",
   "theorems": [
    "C01_same_distance"
   ],
   "note": ""
  },
  {
   "property": "C02",
   "status": "proved",
   "theorems": [
    "C02_append_only"
   ],
   "note": ""
  },
  {
   "property": "C03",
   "status": "partial",
   "theorems": [
    "C03_no_match_untouched_refuted",
    "C03_no_match_untouched_partial",
    "C03_single_condition_partial",
    "C03_not_extended_partial",
    "C03_leftover_partial"
   ],
   "note": "The property is false of the code: a later condition that fails leaves the ranges of the earlier ones in the buffer (C03_no_match_untouched_refuted). Proved for queries whose first condition fails, for queries of one condition and for queries not in extended syntax."
  },
  {
   "property": "C04",
   "status": "proved",
   "theorems": [
    "C04_canonical",
    "C04_canonical_unique"
   ],
   "note": "C04_canonical_unique: the appended ranges are determined by the bytes they cover."
  },
  {
   "property": "C05",
   "status": "proved",
   "theorems": [
    "C05_boundaries"
   ],
   "note": ""
  },
  {
   "property": "C06",
   "status": "proved",
   "theorems": [
    "C06_v1_highlights"
   ],
   "note": ""
  },
  {
   "property": "C07",
   "status": "partial",
   "theorems": [
    "C07_union_refuted",
    "C07_sound_partial",
    "C07_union_partial",
    "C07_kept_partial",
    "C07_step_partial"
   ],
   "note": "The property is false of the code: a range which overlaps the end of the ranges found so far is cut (C07_union_refuted). Proved: everything highlighted is highlighted by a term alone; the full property if the terms of later conditions are fuzzy or inverse."
  },
  {
   "property": "C08",
   "status": "partial",
   "theorems": [
    "C08_v2_highlights_refuted",
    "C08_v2_highlights_partial"
   ],
   "note": "The property is false of the code: on wide gaps FzfV2 can highlight a character that matches nothing (C08_v2_highlights_refuted). Proved: the highlighted characters are an alignment of a prefix of the query if the leftmost alignment is not too wide or the score is high."
  },
  {
   "property": "C09",
   "status": "partial",
   "theorems": [
    "C09_v2_whole_query_refuted",
    "C09_v2_whole_query_partial",
    "C09_v2_some_highlighted_partial"
   ],
   "note": "The property is false of the code: FzfV2 can report the best cell of an upper row, that is, of a prefix of the query (C09_v2_whole_query_refuted). Proved for high scores; in general at least one and at most as many characters as the query has are highlighted."
  },
  {
   "property": "C10",
   "status": "proved",
   "theorems": [
    "C10_blank",
    "C10_spaces",
    "C10_blank_not_extended"
   ],
   "note": ""
  },
  {
   "property": "C11",
   "status": "proved",
   "theorems": [
    "C11_v1_history"
   ],
   "note": ""
  },
  {
   "property": "C12",
   "status": "proved",
   "theorems": [
    "C12_v2_history"
   ],
   "note": ""
  },
  {
   "property": "C13",
   "status": "proved",
   "theorems": [
    "C13_parse_history"
   ],
   "note": ""
  },
  {
   "property": "C14",
   "status": "proved",
   "theorems": [
    "C14_parse_total"
   ],
   "note": ""
  },
  {
   "property": "C15",
   "status": "partial",
   "theorems": [
    "C15_parse_not_extended_refuted",
    "C15_parse_not_extended_partial",
    "C15_short_partial",
    "C15_after_parse_partial"
   ],
   "note": "The property is false of the code: the buffer is not grown (C15_parse_not_extended_refuted). Proved: the exact condition under which it panics."
  },
  {
   "property": "C16",
   "status": "proved",
   "theorems": [
    "C16_v1_total"
   ],
   "note": ""
  },
  {
   "property": "C17",
   "status": "proved",
   "theorems": [
    "C17_v2_total"
   ],
   "note": ""
  },
  {
   "property": "C18",
   "status": "proved",
   "theorems": [
    "C18_v1_fuzzy"
   ],
   "note": ""
  },
  {
   "property": "C19",
   "status": "proved",
   "theorems": [
    "C19_v2_fuzzy"
   ],
   "note": ""
  },
  {
   "property": "C20",
   "status": "proved",
   "theorems": [
    "C20_same_candidates"
   ],
   "note": ""
  },
  {
   "property": "C21",
   "status": "proved",
   "theorems": [
    "C21_exact"
   ],
   "note": ""
  },
  {
   "property": "C22",
   "status": "proved",
   "theorems": [
    "C22_prefix",
    "C22_place"
   ],
   "note": ""
  },
  {
   "property": "C23",
   "status": "proved",
   "theorems": [
    "C23_suffix",
    "C23_place"
   ],
   "note": ""
  },
  {
   "property": "C24",
   "status": "partial",
   "theorems": [
    "C24_equal_refuted",
    "C24_equal_partial",
    "C24_blank_equal_partial",
    "C24_place_partial"
   ],
   "note": "The property is false of the code for terms made of spaces only (C24_equal_refuted). Proved for all other terms, and what happens for those."
  },
  {
   "property": "C25",
   "status": "proved",
   "theorems": [
    "C25_condition",
    "C25_alternative"
   ],
   "note": ""
  },
  {
   "property": "C26",
   "status": "partial",
   "theorems": [
    "C26_lone_inverse_refuted",
    "C26_lone_inverse_partial",
    "C26_lone_fuzzy_partial"
   ],
   "note": "The property is false of the code for inverse fuzzy terms such as !'foo (C26_lone_inverse_refuted). Proved for all other kinds, and what happens for those."
  },
  {
   "property": "C27",
   "status": "proved",
   "theorems": [
    "C27_accepts",
    "C27_score"
   ],
   "note": "For queries which are regular, that is, without the defects of C24 and C26."
  },
  {
   "property": "C28",
   "status": "proved",
   "theorems": [
    "C28_grouping",
    "C28_terms"
   ],
   "note": ""
  },
  {
   "property": "C29",
   "status": "proved",
   "theorems": [
    "C29_words"
   ],
   "note": ""
  },
  {
   "property": "C30",
   "status": "proved",
   "theorems": [
    "C30_lone_word",
    "C30_sigils"
   ],
   "note": ""
  },
  {
   "property": "C31",
   "status": "proved",
   "theorems": [
    "C31_literal"
   ],
   "note": ""
  },
  {
   "property": "C32",
   "status": "partial",
   "theorems": [
    "C32_sensitive",
    "C32_insensitive_refuted",
    "C32_insensitive_ascii_partial",
    "C32_no_letters"
   ],
   "note": "Sensitive: proved. Insensitive: false for letters beyond ASCII (C32_insensitive_refuted), proved for ASCII letters."
  },
  {
   "property": "C33",
   "status": "partial",
   "theorems": [
    "C33_smart_refuted",
    "C33_smart_sensitive_partial",
    "C33_smart_insensitive_partial",
    "C33_smart_not_extended_partial",
    "C33_terms_partial"
   ],
   "note": "The property is false of the code: smart case is decided term by term (C33_smart_refuted). Proved for queries whose terms all have or all lack an upper case letter, and for queries not in extended syntax; for every other regular query the result is composed of the results of its terms, each searched in the mode which its own letters ask for (C33_terms_partial)."
  },
  {
   "property": "C34",
   "status": "proved",
   "theorems": [
    "C34_relax_case",
    "C34_C35_not_extended"
   ],
   "note": ""
  },
  {
   "property": "C35",
   "status": "proved",
   "theorems": [
    "C35_normalize",
    "C34_C35_not_extended"
   ],
   "note": ""
  },
  {
   "property": "C36",
   "status": "proved",
   "theorems": [
    "C36_ascii",
    "C36_normal"
   ],
   "note": ""
  },
  {
   "property": "C37",
   "status": "proved",
   "theorems": [
    "C37_normalize",
    "C37_letters",
    "C37_scalar",
    "C37_casts"
   ],
   "note": ""
  },
  {
   "property": "C38",
   "status": "proved",
   "theorems": [
    "C38_debug",
    "C38_texts",
    "C38_order"
   ],
   "note": ""
  },
  {
   "property": "C39",
   "status": "proved",
   "theorems": [
    "C39_fuzzy",
    "C39_other",
    "C39_query",
    "C39_not_extended",
    "C39_fits"
   ],
   "note": ""
  },
  {
   "property": "C40",
   "status": "proved",
   "theorems": [
    "C40_v1_window",
    "C40_window_unique",
    "C40_window_exists"
   ],
   "note": ""
  },
  {
   "property": "C41",
   "status": "proved",
   "theorems": [
    "C41_v1_score"
   ],
   "note": ""
  },
  {
   "property": "C42",
   "status": "proved",
   "theorems": [
    "C42_v1_appended",
    "C42_v1_appended_query"
   ],
   "note": ""
  },
  {
   "property": "C43",
   "status": "proved",
   "theorems": [
    "C43_v2_recurrence",
    "C43_table_exists"
   ],
   "note": ""
  },
  {
   "property": "C44",
   "status": "partial",
   "theorems": [
    "C44_v2_at_least_v1_refuted",
    "C44_v2_lower_partial",
    "C44_loss_partial",
    "C44_any_partial",
    "C44_two_partial"
   ],
   "note": "The property is false of the code (C44_v2_at_least_v1_refuted). Proved: it holds for queries of at most two characters; in general FzfV2 is worse by at most 2 points for each recurring character and 9 for each adjacent pair but the first; a lower bound of the score of FzfV2."
  },
  {
   "property": "C45",
   "status": "proved",
   "theorems": [
    "C45_v2_single"
   ],
   "note": ""
  },
  {
   "property": "C46",
   "status": "partial",
   "theorems": [
    "C46_exact_best_refuted",
    "C46_exact_best_partial",
    "C46_choice_partial"
   ],
   "note": "The property is false of the code: after a rejected occurrence the search skips a character too many (C46_exact_best_refuted). Proved for candidates without neighbouring characters that both agree with the first character of the term."
  },
  {
   "property": "C47",
   "status": "partial",
   "theorems": [
    "C47_one_character",
    "C47_path",
    "C47_default",
    "C47_history",
    "C47_path_digit_refuted"
   ],
   "note": "Proved for letters; for digits the claim about Path is false (C47_path_digit_refuted)."
  },
  {
   "property": "C48",
   "status": "proved",
   "theorems": [
    "C48_setters",
    "C48_searches"
   ],
   "note": ""
  },
  {
   "property": "C49",
   "status": "proved",
   "theorems": [
    "C49_order"
   ],
   "note": ""
  },
  {
   "property": "C50",
   "status": "proved",
   "theorems": [
    "C50_extend",
    "C50_not_extended",
    "C50_insert",
    "C50_remove",
    "C50_insert_not_extended"
   ],
   "note": ""
  },
  {
   "property": "C51",
   "status": "proved",
   "theorems": [
    "C51_same_search"
   ],
   "note": ""
  },
  {
   "property": "C52",
   "status": "proved",
   "theorems": [
    "C52_ranking",
    "C52_ranking_order"
   ],
   "note": ""
  },
  {
   "property": "C53",
   "status": "proved",
   "theorems": [
    "C53_text",
    "C53_text_determines",
    "C53_pretty",
    "C53_debug",
    "C53_debug_determines"
   ],
   "note": ""
  },
  {
   "property": "C54",
   "status": "proved",
   "theorems": [
    "C54_more_conditions",
    "C54_more_alternatives"
   ],
   "note": ""
  },
  {
   "property": "C55",
   "status": "proved",
   "theorems": [
    "C55_kinds"
   ],
   "note": ""
  },
  {
   "property": "C56",
   "status": "proved",
   "theorems": [
    "C56_extra_spaces",
    "C56_same_words"
   ],
   "note": ""
  },
  {
   "property": "C57",
   "status": "proved",
   "theorems": [
    "C57_two_queries"
   ],
   "note": ""
  },
  {
   "property": "C58",
   "status": "proved",
   "theorems": [
    "C58_no_fuzzy_same"
   ],
   "note": ""
  },
  {
   "property": "C59",
   "status": "proved",
   "theorems": [
    "C59_fuzz_target"
   ],
   "note": ""
  },
  {
   "property": "C60",
   "status": "proved",
   "theorems": [
    "C60_other_tables",
    "C60_ascii"
   ],
   "note": ""
  },
  {
   "property": "C61",
   "status": "proved",
   "theorems": [
    "C61_query_case"
   ],
   "note": ""
  },
  {
   "property": "C62",
   "status": "proved",
   "theorems": [
    "C62_candidate_case"
   ],
   "note": ""
  },
  {
   "property": "C63",
   "status": "proved",
   "theorems": [
    "C63_candidate_accents"
   ],
   "note": ""
  },
  {
   "property": "C64",
   "status": "proved",
   "theorems": [
    "C64_look_alike"
   ],
   "note": ""
  },
  {
   "property": "C65",
   "status": "proved",
   "theorems": [
    "C65_no_overflow",
    "C65_returns",
    "C65_long_run"
   ],
   "note": "Checked.v models the arithmetic on Score (i64), u32 and the usize products with a check after each operation; offsets into strings are not checked (they are at most the length of a string in memory)."
  },
  {
   "property": "C66",
   "status": "proved",
   "theorems": [
    "C66_queries_valid",
    "C66_calls_return"
   ],
   "note": "The borrow checker's part is modelled by the list of queries in use: those of a parser leave it when the parser parses again or is dropped. Aliasing rules: C87."
  },
  {
   "property": "C67",
   "status": "proved",
   "theorems": [
    "C67_bound",
    "C67_bound_fuzzy",
    "C67_start",
    "C67_unbeatable",
    "C67_v2_word",
    "C67_word_start"
   ],
   "note": "That FzfV1 also takes a word start that is not the start of the candidate would be false: it takes the leftmost alignment (see the last search of C67_example). For exact terms see C46."
  },
  {
   "property": "C68",
   "status": "proved",
   "theorems": [
    "C68_around",
    "C68_spaces"
   ],
   "note": ""
  },
  {
   "property": "C69",
   "status": "partial",
   "theorems": [
    "C69_append_refuted",
    "C69_append_partial",
    "C69_single_partial",
    "C69_loss_partial"
   ],
   "note": "The property is false of the code (C69_append_refuted: 81 points become 70). Proved: texts without query characters other than the last, and one-character queries; in general the loss is at most 12 points per query character less 22 (C69_loss_partial); C68 has texts without the last query character, C42 has FzfV1."
  },
  {
   "property": "C70",
   "status": "proved",
   "theorems": [
    "C70_same",
    "C70_fuzzy"
   ],
   "note": "Steps are loop iterations, counted by Cost.v, a copy of the searching code which returns the same results (C70_same). C80 has distance_and_ranges."
  },
  {
   "property": "C71",
   "status": "proved",
   "theorems": [
    "C71_fuzzy",
    "C71_terms"
   ],
   "note": ""
  },
  {
   "property": "C72",
   "status": "proved",
   "theorems": [
    "C72_first",
    "C72_again"
   ],
   "note": ""
  },
  {
   "property": "C73",
   "status": "partial",
   "theorems": [
    "C73_exact_refuted",
    "C73_terms_partial"
   ],
   "note": "The property is false of the code (C73_exact_refuted: for every constant K there is an exact term and a candidate which does not match and takes more than K * (len + 1) iterations). Proved: the bound with the characters of exact terms added (FzfV1); C71_terms has FzfV2, C70 and C72 have fuzzy queries."
  },
  {
   "property": "C74",
   "status": "proved",
   "theorems": [
    "C74_again",
    "C74_grow",
    "C74_bound"
   ],
   "note": "Lengths of vectors; their capacities are chosen by the standard library and are not modelled. The buffer for ranges belongs to the caller and is not covered."
  },
  {
   "property": "C75",
   "status": "proved",
   "theorems": [
    "C75_parse",
    "C75_raw",
    "C75_again"
   ],
   "note": "Lengths of vectors; their capacities are chosen by the standard library and are not modelled."
  },
  {
   "property": "C76",
   "status": "partial",
   "theorems": [
    "C76_earned_refuted",
    "C76_exact_partial",
    "C76_earned_partial"
   ],
   "note": "False of the code for candidates in which the query is spread wide: there the score can be more than any alignment is worth. Proved (exactly, and compared with the formula of FzfV1) if the leftmost match is not wider than about 15 characters per query character, or if the score is more than 26 points per query character but one."
  },
  {
   "property": "C77",
   "status": "proved",
   "theorems": [
    "C77_one_way"
   ],
   "note": "Uniqueness of the alignment of the whole query is not enough: the proviso about its start is needed, because FzfV2's table also sees alignments of the start of the query."
  },
  {
   "property": "C78",
   "status": "partial",
   "theorems": [
    "C78_same_refuted",
    "C78_texts_refuted",
    "C78_texts_partial"
   ],
   "note": "False: kinds and negations are not printed, and a single fuzzy term is printed without inner quotes, so that it can look like an exact term. Proved: apart from that last case, queries print the same if and only if their texts and grouping are the same."
  },
  {
   "property": "C79",
   "status": "proved",
   "theorems": [
    "C79_same",
    "C79_first",
    "C79_again",
    "C79_raw"
   ],
   "note": "Steps are loop iterations, counted by ParseCost.v, a copy of the parser which returns the same results (C79_same)."
  },
  {
   "property": "C80",
   "status": "proved",
   "theorems": [
    "C80_same",
    "C80_extra",
    "C80_v1_fuzzy_extra",
    "C80_v1_fuzzy",
    "C80_v2_fuzzy",
    "C80_v1_terms",
    "C80_v2_terms",
    "C80_binary_search",
    "C80_binary_search_steps"
   ],
   "note": "Steps are loop iterations, counted by CostRanges.v, a copy of the searching code which returns the same results (C80_same). A binary search of n elements counts as log2 n + 1 comparisons, rounded up; C80_binary_search proves that this is enough for both loops which the standard library has had, and that they find what the model's contract says."
  },
  {
   "property": "C81",
   "status": "proved",
   "theorems": [
    "C81_typing",
    "C81_last_word",
    "C81_negated_word",
    "C81_ranking",
    "C81_not_extended",
    "C81_weaker"
   ],
   "note": "C81_exceptions shows that each excluded character can make the longer query match more. C81_last_word and C81_negated_word cover queries with ! and |, C81_weaker every pair of queries."
  },
  {
   "property": "C82",
   "status": "proved",
   "theorems": [
    "C82_whole",
    "C82_self",
    "C82_not_extended"
   ],
   "note": "A prefix term which starts with an escaped space is excluded: leading spaces of the candidate are skipped, so it is not found at the start."
  },
  {
   "property": "C83",
   "status": "partial",
   "theorems": [
    "C83_first_refuted",
    "C83_first_partial",
    "C83_letter_partial",
    "C83_near_partial"
   ],
   "note": "False for fuzzy terms: the query -foo ranks the candidate `- foo` before -foo (C83_first_refuted). Proved for all other kinds of terms (C83_first_partial; when accents are ignored, for candidates whose accented characters are upper or lower case letters) and for every kind if the text starts with an ASCII letter (C83_letter_partial). For every fuzzy term the text itself loses at most what its first character lacks of the highest bonus (at most 3 points), once for each character and once more (C83_near_partial)."
  },
  {
   "property": "C84",
   "status": "proved",
   "theorems": [
    "C84_search",
    "C84_queries",
    "C84_calls"
   ],
   "note": "The pattern and the candidate are read when fuzzy or score is called, once per pattern; these two do not write to the slab of characters, which the model lets them do. The other slabs are borrowed by safe code only and are not in the memory. Aliasing rules: C87."
  },
  {
   "property": "C85",
   "status": "proved",
   "theorems": [
    "C85_words",
    "C85_write",
    "C85_only"
   ],
   "note": "C85_only and C85_write together characterise the queries which can be written; C85_words is the same for words."
  },
  {
   "property": "C86",
   "status": "proved",
   "theorems": [
    "C86_shown",
    "C86_pretty",
    "C86_same"
   ],
   "note": "`harmless` (PrintSpec.v) is the specification of the characters which may be printed."
  },
  {
   "property": "C87",
   "status": "proved",
   "theorems": [
    "C87_search",
    "C87_queries",
    "C87_calls",
    "C87_forbidden",
    "C87_exclusive",
    "C87_fresh"
   ],
   "note": "The rules are those of Stacked Borrows, for the buffers of Vecs, with one location per element; references get a new tag where they are made and function arguments are not protected (header of Borrows.v)."
  },
  {
   "property": "C88",
   "status": "proved",
   "theorems": [
    "C88_parser",
    "C88_program"
   ],
   "note": "parse_not_extended is the only method whose panics reachable parsers and metrics can meet (C15, C16); the loop is modelled up to the index that panics. Unwinding runs no code of the library."
  },
  {
   "property": "C89",
   "status": "proved",
   "theorems": [
    "C89_threads",
    "C89_ends",
    "C89_search",
    "C89_alone"
   ],
   "note": "Threads are those of std::thread::scope: they borrow metrics and queries of the program. The steps which are interleaved are the growth of a Vec, the write of one element, and the read of what one reference points to; C90 shows that finer steps would make no difference. Threads which also parse: C108."
  },
  {
   "property": "C90",
   "status": "proved",
   "theorems": [
    "C90_search",
    "C90_lent",
    "C90_parse",
    "C90_parse_not_extended"
   ],
   "note": "The buffers are those of MemoryMetric and Borrows: characters, patterns, conditions and the slab of characters. The other slabs of FzfV2 are fields of the metric to which no reference outlives a call, and are part of its state."
  },
  {
   "property": "C91",
   "status": "proved",
   "theorems": [
    "C91_entails",
    "C91_same",
    "C91_alternative"
   ],
   "note": "Logic.v has the semantics of formulas; `sensible` valuations are those which respect the order of terms of C81 (asks_less). Queries made of a single inverse fuzzy term are excluded because the code ignores the inversion there (C26)."
  },
  {
   "property": "C92",
   "status": "proved",
   "theorems": [
    "C92_mirror"
   ],
   "note": "No exception: it also holds for the two defects of C24 and C26."
  },
  {
   "property": "C93",
   "status": "proved",
   "theorems": [
    "C93_short"
   ],
   "note": "Lengths are numbers of characters."
  },
  {
   "property": "C94",
   "status": "partial",
   "theorems": [
    "C94_v1",
    "C94_v2_refuted",
    "C94_single_partial",
    "C94_one_way_partial",
    "C94_two_partial",
    "C94_loss_partial"
   ],
   "note": "Holds for FzfV1. False for FzfV2: the query aba scores 73 in xAbBA but 69 in -AbBA, because a cell of its table keeps only the best way to get there, which can be the worse one to continue. For FzfV2 it is proved for queries of at most two characters and for queries which can be found in one way only (the hypotheses of C77); in general the loss is at most 10 points for each query character but the first two (C94_loss_partial)."
  },
  {
   "property": "C95",
   "status": "partial",
   "theorems": [
    "C95_apart_refuted",
    "C95_v1_partial",
    "C95_v1_gain_partial",
    "C95_v2_refuted",
    "C95_single_partial",
    "C95_v2_gain_partial"
   ],
   "note": "False of the code for both metrics: the query obar scores 79 in foBar and 82 in foxBar (after a gap the run starts again with the bonus of the capital, within a run that bonus is not kept). Proved for FzfV1 unless the character behind the insertion gets the 7 points of a capital in the middle of a word or of a digit; for FzfV2 for one-character queries, and refuted for longer ones even with that condition. What the insertion can gain is bounded, and the bounds are attained by queries of four and of two characters. FzfV1: 3 points for each character of the query less 9 (nothing for up to three characters, 3 points for four). FzfV2: 12 points for each character of the query less 22, and nothing for one character; 2 points for two."
  },
  {
   "property": "C96",
   "status": "proved",
   "theorems": [
    "C96_subset",
    "C96_insert",
    "C96_chunks"
   ],
   "note": "For subsets, for one more candidate anywhere in the list, and for two parts ranked apart and merged."
  },
  {
   "property": "C97",
   "status": "proved",
   "theorems": [
    "C97_plain"
   ],
   "note": "Provided parse_not_extended does not panic (C15). The example shows that each condition on the text is needed."
  },
  {
   "property": "C98",
   "status": "proved",
   "theorems": [
    "C98_new",
    "C98_slab",
    "C98_short",
    "C98_parser"
   ],
   "note": "FzfV2::new allocates 5.75kb on a 64-bit and 4.25kb on a 32-bit system. Without the characters of the candidate these are 5.25kb and 3.75kb; the private documentation of the slab says 5.25kb and 4.25kb."
  },
  {
   "property": "C99",
   "status": "proved",
   "theorems": [
    "C99_display",
    "C99_fuzzy_v1",
    "C99_fuzzy_v2",
    "C99_term"
   ],
   "note": ""
  },
  {
   "property": "C100",
   "status": "partial",
   "theorems": [
    "C100_letters_refuted",
    "C100_letters_partial",
    "C100_exact_partial",
    "C100_sound"
   ],
   "note": "The first half is false of the code (C100_letters_refuted): most accented capitals beyond Latin-1 are missing in its tables. Proved: exactly which letters with a decomposition are found, and the second half."
  },
  {
   "property": "C101",
   "status": "partial",
   "theorems": [
    "C101_same_refuted",
    "C101_letter_refuted",
    "C101_same_partial",
    "C101_decomposed_partial"
   ],
   "note": "False of the code for exact terms (C101_same_refuted) and for letters missing in its tables (C101_letter_refuted). Proved for fuzzy terms of ASCII characters."
  },
  {
   "property": "C102",
   "status": "proved",
   "theorems": [
    "C102_read",
    "C102_v1",
    "C102_v2",
    "C102_v2_char"
   ],
   "note": "C102_read has any query, C102_v1 and C102_v2 matches of fuzzy queries, C102_v2_char queries of one character."
  },
  {
   "property": "C103",
   "status": "proved",
   "theorems": [
    "C103_query",
    "C103_not_extended",
    "C103_terms"
   ],
   "note": "C103_query and C103_not_extended have the bound by the length of the text, C103_terms the one by terms."
  },
  {
   "property": "C104",
   "status": "proved",
   "theorems": [
    "C104_accepts",
    "C104_ranking",
    "C104_v1",
    "C104_not_extended",
    "C104_anchored"
   ],
   "note": "C104_example shows that the places of exact terms, and of fuzzy terms with FzfV2, do depend on the scheme."
  },
  {
   "property": "C105",
   "status": "proved",
   "theorems": [
    "C105_parse",
    "C105_raw"
   ],
   "note": "Counts are those of ParseCost.v (upper bounds for which are C79): an under-counting or over-counting cost model fails the equation."
  },
  {
   "property": "C106",
   "status": "proved",
   "theorems": [
    "C106_no_less",
    "C106_no_match",
    "C106_v1",
    "C106_v2_char",
    "C106_v2",
    "C106_words",
    "C106_and",
    "C106_fails"
   ],
   "note": "Counts are those of CostRanges.v (upper bounds for which are C80). Not stated: exact counts for a fuzzy term which holds behind another condition, whose characters go between ranges which are already there; for these C80's bounds and C106_no_less hold."
  },
  {
   "property": "C107",
   "status": "proved",
   "theorems": [
    "C107_words",
    "C107_sum",
    "C107_missed_v1",
    "C107_missed_v2"
   ],
   "note": "Counts are those of Cost.v. What a fuzzy query which matches costs is C102. C107_sum supposes that FzfV2's other vectors do not grow; growing is counted by C102 for a single term."
  },
  {
   "property": "C108",
   "status": "proved",
   "theorems": [
    "C108_workers",
    "C108_completes",
    "C108_loans",
    "C108_search",
    "C108_parse"
   ],
   "note": "A call of parse or parse_not_extended is one step of a thread, and so is the replacement of a parser or metric; the steps of searches are those of C89. C90 shows that parsing has access to the buffers of its own parser only, so that finer steps would make no difference. Strings given to parse_not_extended have at most 64 characters (longer ones can panic, C03). Each thread borrows a metric and a parser which the program has created; it can replace them, but has no others."
  },
  {
   "property": "C109",
   "status": "proved",
   "theorems": [
    "C109_owned",
    "C109_counts",
    "C109_threads",
    "C109_freed"
   ],
   "note": "The buffers are those of Borrows.v: the parser's three vectors and the metrics' slab of characters. FzfV2's other two slabs and the user's vectors of ranges are vectors used by safe code only and are not in this memory."
  }
 ]
}