# Formal model of nomad/norm in Rocq (Coq 8.16.1)

norm is a small Rust crate: two distance metrics (FzfV1, FzfV2) which
compare a parsed query with a candidate string and optionally append the matched
byte ranges to a buffer. This directory contains a function-by-function model of
the crate in Gallina (`rocq/theories`), a small separate specification, and
theorems about the model.

* `properties.jsonl`: the properties in English.
* `MANIFEST.json`: status and theorem names for each property.
* `rocq/theories/Properties_*.v`: the theorems, each followed by `Print Assumptions` and an
  example which shows that its hypotheses can be met.
* `seeded/LOG.jsonl`: bugs seeded into copies of the model, and what failed.

## Approach

* Values. A `char` is a scalar value `N`; a Rust `&str` is the list of its
  chars (the type invariant of `str` makes these the same thing), with its byte
  view given by an explicit UTF-8 encoder; indices and lengths are `nat`;
  scores are `Z`; `u8` bonus cache values are reduced mod 256.
* Effects. Every function which can panic in Rust (index, slice, unwrap,
  expect, usize subtraction, debug_assert) returns `res A := Ok a | Panic | OutOfFuel`.
  Loops without an obvious structural measure take fuel; `OutOfFuel` is a distinct
  outcome which the totality theorems exclude. So "never panics" and
  "terminates" are theorems and not modelling assumptions.
* Overflow of i64, u32 and matrix sizes. The main model computes with unbounded numbers;
  `Checked.v` contains the same functions with a check after each operation, and C65 relates the two.
* Time. `Cost.v` contains the functions behind `distance` once more, with a counter. It counts the iterations of every
  loop: the loops in the code, and those inside `find`, `rfind`, `position`, `is_ascii`, `resize`, `fill` and `chars`. It does not
  count the constant work between them, nor that of the allocator. C70 states that the results are the same.
  `ParseCost.v` does this for the parser (C79), `CostRanges.v` for searches with ranges (C80).
* References. The main model keeps the content of a slice where the code keeps a reference. `Memory.v` is the parser with
  references, `MemoryMetric.v` a search with references, and C66 and C84 relate them to the main model. `Borrows.v` and `BorrowsMetric.v` add
  the aliasing rules of Stacked Borrows (C87), `BorrowsThreads.v` threads which search at the same time (C89), and `Workers.v` threads which also parse (C108). What is allocated and freed (C109) is said of these.
* State. Parsers and metrics are records holding the scratch buffers, and every API
  call returns the new record. `History.v` defines the states which a sequence of API
  calls reaches; theorems quantify over those (or over arbitrary states).
* `char::is_uppercase` & co. on non-ASCII characters, and `cfg(windows)`, are a record of
  Boolean functions, passed as an argument (`unicode`); all theorems hold for
  every such record, i.e. for every version of the Unicode tables and both kinds of platform.
  ASCII behaviour is fixed by definition. (`ExampleKit.v` has the instance `latin` for examples.)
* Specification. `Spec.v` contains the vocabulary used in theorem statements:
  alignments as strictly increasing position lists, substrings, query grammar,
  scoring formula, without reference to the model's loops.
* Proof structure. `ApiProofs.v` shows that a call returns a pure function (`outcome`) of
  options, query and candidate; the `Claims*` files derive the properties from it.
* Properties that are false of the code are stated as `..._refuted` theorems with
  a concrete witness evaluated by the kernel, next to the strongest true version (`..._partial`)
  and, where possible, an exact description of what the code does instead.

## Files

1. Model: `Prelude`, `Chars` (result monad, lists, UTF-8, character predicates); `Normalize`, `Utils`,
   `Candidate`, `MatchedRanges` (crate-level modules); `Query`, `Parser`, `Scoring` (mod.rs, distance.rs,
   scheme.rs, scoring.rs), `Slab`, `Fzf`, `FzfV1`, `FzfV2`, `Api` (the fzf module and the traits);
   `Checked` (the scoring code with overflow checks); `Memory` (the parser with references into buffers which move and are
   freed, and programs with several parsers); `MemoryMetric` (the same for metrics, and programs with several of both); `Borrows`, `BorrowsMetric` (both again, with stacks of tags); `BorrowsThreads` (searches as sequences of steps, and threads); `Workers` (threads which also parse); `Cost`, `CostRanges`, `ParseCost` (with a counter); `BinarySearch` (the loops of slice::binary_search_by); `Debug` (the text of Debug output); `Usage` (the fields shown in the Debug output of metrics, the ranking program of the
   documentation, the fuzz target). `UpstreamTests` and `UnitTests` evaluate all tests of the crate (tests/, the unit tests
   in src/ and the examples in the documentation) on the
   model. These are tests of the model and not counted as proofs.
2. Specification: `Spec`, `History`, `Typing`, `Writing`, `PrintSpec`, `SpecThreads`, `SpecWorkers`, `Logic`, `Ranking`, `Sizes`, `Loss`, `Highlight`, `UnicodeLetters`, `CostFormula`, `Amount`, `BorrowRules`, `ParseFormula`, `RangesFormula`, `TermCost`.
3. Lemmas: `PreludeProofs`, `CharsProofs`, `NormalizeProofs`, `CandidateProofs`, `MatchedRangesProofs`,
   `ParserProofs`, `MemoryProofs`, `MemoryMetricProofs`, `BorrowsProofs`, `BorrowsParser`, `BorrowsMetricProofs`, `BorrowsThreadsProofs`, `WorkersProofs`, `ScoreProofs`, `ExactProofs`, `ExactChoice`, `ShapeProofs`, `V1Proofs`, `V2Tables`, `V2Proofs`, `V2Rows`,
   `V2Fuzzy`, `ApiProofs`, `CheckedProofs`, `AcceptProofs`, `RangeProofs`, `WordsProofs`, `V2Facts`, `V2Path`, `CongProofs`, `FuzzyFacts`,
   `ParProofs`, `CostProofs`, `CostBounds`, `CostExact`, `ParseCostProofs`, `CostRangesProofs`, `CostRangesBounds`, `BinarySearchProofs`, `Claims1`–`Claims49`.
4. Theorems: `Properties_results` (C01–C05, C10–C17), `Properties_highlight` (C06–C09),
   `Properties_accept`, `Properties_score`, `Properties_usage`, `Properties_alike`, `Properties_machine`,
   `Properties_memory`, `Properties_borrows`, `Properties_best`, `Properties_cost`, `Properties_buffers`, `Properties_earned`, `Properties_debug`, `Properties_typing`, `Properties_writing`, `Properties_threads`, `Properties_workers`, `Properties_logic`, `Properties_placed`, `Properties_ranking`, `Properties_sizes`, `Properties_display`, `Properties_letters`, `Properties_exactcost`, `Properties_amount`, `Properties_scheme`, `Properties_parsecost`, `Properties_rangescost`, `Properties_termcost`;
   `ExampleKit` has definitions used by their examples only.

## Properties: what is modelled and how it is proved

* **C01** distance and distance_and_ranges agree: RANGES is a Boolean parameter of the modelled functions; simulation between the two instantiations, for every initial buffer.
  Theorems: `C01_same_distance`.
* **C02** The range buffer is append-only: Model `insert` on the whole vector with `initial_len`; prove it acts on the suffix only; lift through every loop.
  Theorems: `C02_append_only`.
* **C03** No match leaves the buffer untouched (partial): Refuted by `foo bar` on `foo`; proved for queries whose first condition fails; `C03_leftover_partial` says exactly what is left in the buffer.
  Theorems: `C03_no_match_untouched_refuted`, `C03_no_match_untouched_partial`, `C03_single_condition_partial`, `C03_not_extended_partial`, `C03_leftover_partial`.
* **C04** Appended ranges are canonical: Canonicity invariant of the suffix, preserved by `insert`, lifted through every caller.
  Theorems: `C04_canonical`, `C04_canonical_unique`.
* **C05** Ranges lie on character boundaries of the candidate: Invariant: every range end point is the byte length of a prefix of the candidate.
  Theorems: `C05_boundaries`.
* **C06** FzfV1 highlights exactly one alignment of a fuzzy query: Relate `compute_score`'s insertions to the greedy alignment; insertion of single characters in increasing order is exact.
  Theorems: `C06_v1_highlights`.
* **C07** Ranges of a multi-term query are the union of the terms' matches (partial): Refuted (completeness) by a concrete query; soundness proved as set inclusion; `C07_step_partial` says exactly what every condition adds to the buffer.
  Theorems: `C07_union_refuted`, `C07_sound_partial`, `C07_union_partial`, `C07_kept_partial`, `C07_step_partial`.
* **C08** FzfV2 highlights only characters that match the query (partial): Refuted by a concrete candidate; proved when the leftmost alignment is narrow or the score is high (so that no score on the way is negative).
  Theorems: `C08_v2_highlights_refuted`, `C08_v2_highlights_partial`.
* **C09** FzfV2 highlights every query character (partial): Refuted by a concrete candidate; proved for high scores; in general at least one and at most |query| characters.
  Theorems: `C09_v2_whole_query_refuted`, `C09_v2_whole_query_partial`, `C09_v2_some_highlighted_partial`.
* **C10** Empty and blank queries match everything: Degenerate query strings characterised by the grammar; then both metrics evaluate to the default distance.
  Theorems: `C10_blank`, `C10_spaces`, `C10_blank_not_extended`.
* **C11** FzfV1 results do not depend on earlier calls: Result of a call is a function of options, query, candidate for arbitrary slab contents; then induction on call histories.
  Theorems: `C11_v1_history`.
* **C12** FzfV2 results do not depend on earlier calls: Same for the V2 slabs (bonus cache, two matrices, indices, chars).
  Theorems: `C12_v2_history`.
* **C13** Parsing does not depend on earlier parses: `parse` from any parser state equals a pure specification function of the string.
  Theorems: `C13_parse_history`.
* **C14** parse never panics and always terminates: Capacity invariants: #patterns <= len/2+1, #chars <= #bytes; slices on boundaries; fuel bound.
  Theorems: `C14_parse_total`.
* **C15** parse_not_extended never panics (partial): Refuted on a 65 character string; characterised exactly (panics iff longer than the buffer).
  Theorems: `C15_parse_not_extended_refuted`, `C15_parse_not_extended_partial`, `C15_short_partial`, `C15_after_parse_partial`.
* **C16** FzfV1 never panics and always terminates: Forward pass success gives an alignment, so every unwrap succeeds; indices are in range.
  Theorems: `C16_v1_total`.
* **C17** FzfV2 never panics and always terminates: Matrix dimension invariants, matched indices < width, back-trace termination.
  Theorems: `C17_v2_total`.
* **C18** FzfV1 fuzzy semantics: Forward pass = greedy embedding; greedy succeeds iff an alignment exists.
  Theorems: `C18_v1_fuzzy`.
* **C19** FzfV2 fuzzy semantics: `matches` = greedy embedding.
  Theorems: `C19_v2_fuzzy`.
* **C20** FzfV1 and FzfV2 accept the same candidates: From C18/C19 and the shared exact/prefix/suffix/equal code.
  Theorems: `C20_same_candidates`.
* **C21** Exact terms: Loop invariant of the scan over first-character positions.
  Theorems: `C21_exact`.
* **C22** Prefix terms: Characterise `ignored_candidate_leading_spaces`, compare with the existential specification.
  Theorems: `C22_prefix`, `C22_place`.
* **C23** Suffix terms: Mirror image of C22.
  Theorems: `C23_suffix`, `C23_place`.
* **C24** Equality terms (partial): Characterised exactly; refuted for all-space terms.
  Theorems: `C24_equal_refuted`, `C24_equal_partial`, `C24_blank_equal_partial`, `C24_place_partial`.
* **C25** Inverse terms: Case analysis of `score`.
  Theorems: `C25_condition`, `C25_alternative`.
* **C26** A lone inverse term is negated (partial): Refuted for `!'foo`; proved for the other single inverse terms.
  Theorems: `C26_lone_inverse_refuted`, `C26_lone_inverse_partial`, `C26_lone_fuzzy_partial`.
* **C27** AND/OR semantics and total score: Relational semantics of conditions, sum of first alternatives; induction on conditions.
  Theorems: `C27_accepts`, `C27_score`.
* **C28** Grouping: OR binds tighter than AND: Specification groups words with a declarative relation; refinement of `Patterns`.
  Theorems: `C28_grouping`, `C28_terms`.
* **C29** Words and escaped spaces: Byte-level model of `Words`, refinement to a char-level splitter, and round trip.
  Theorems: `C29_words`.
* **C30** Sigil syntax of a term: Table specification of sigils; equality for all words.
  Theorems: `C30_lone_word`, `C30_sigils`.
* **C31** Non-extended queries have no special characters: Unfolding plus C18/C19.
  Theorems: `C31_literal`.
* **C32** Case sensitivity modes (partial): Specification of character agreement; refuted for a non-ASCII pair in Insensitive mode.
  Theorems: `C32_sensitive`, `C32_insensitive_refuted`, `C32_insensitive_ascii_partial`, `C32_no_letters`.
* **C33** Smart case (partial): Refuted at query level; proved at term level, and for whole queries from C27.
  Theorems: `C33_smart_refuted`, `C33_smart_sensitive_partial`, `C33_smart_insensitive_partial`, `C33_smart_not_extended_partial`, `C33_terms_partial`.
* **C34** Relaxing case sensitivity never loses a positive match: Monotonicity of the specification in the character equality.
  Theorems: `C34_relax_case`, `C34_C35_not_extended`.
* **C35** Enabling normalization never loses a positive match: Same.
  Theorems: `C35_normalize`, `C34_C35_not_extended`.
* **C36** Normalization is irrelevant for ASCII candidates: ASCII characters are fixed points of normalization; lift through all functions.
  Theorems: `C36_ascii`, `C36_normal`.
* **C37** The normalization function follows its tables: Computation over the complete (finite) tables by the kernel plus a proof for characters outside.
  Theorems: `C37_normalize`, `C37_letters`, `C37_scalar`, `C37_casts`.
* **C38** FzfDistance is a total order in which better scores are smaller: Order theory on Z.
  Theorems: `C38_debug`, `C38_texts`, `C38_order`.
* **C39** Score bounds: Bounds on bonuses and invariants on scores.
  Theorems: `C39_fuzzy`, `C39_other`, `C39_query`, `C39_not_extended`, `C39_fits`.
* **C40** FzfV1 selects the earliest-ending, then latest-starting window: Optimality of greedy from both ends.
  Theorems: `C40_v1_window`, `C40_window_unique`, `C40_window_exists`.
* **C41** FzfV1's score is the documented formula: Declarative scoring function on position lists; invariant of `compute_score`'s loop.
  Theorems: `C41_v1_score`.
* **C42** FzfV1 ignores text after the match: From C40/C41 style characterisation: result is a function of the prefix up to the end of the match.
  Theorems: `C42_v1_appended`, `C42_v1_appended_query`.
* **C43** FzfV2's score is its recurrence: Row functions defined by recursion on the column; loop invariants relate the in-place rows to them; max tracking.
  Theorems: `C43_v2_recurrence`, `C43_table_exists`.
* **C44** FzfV2 is never worse than FzfV1 (partial): Refuted; partial: true for at most two characters, a bound of the difference by induction over the window of FzfV1, and a lower bound of FzfV2's score.
  Theorems: `C44_v2_at_least_v1_refuted`, `C44_v2_lower_partial`, `C44_loss_partial`, `C44_any_partial`, `C44_two_partial`.
* **C45** FzfV2 picks the best occurrence of a one-character query: Loop invariant of the scan.
  Theorems: `C45_v2_single`.
* **C46** Exact terms pick the best occurrence (partial): Refuted; `C46_choice_partial` gives the exact rule by which the occurrence is chosen; the property proved for candidates where no two neighbours agree with the first character of the term.
  Theorems: `C46_exact_best_refuted`, `C46_exact_best_partial`, `C46_choice_partial`.
* **C47** Schemes (partial): Bonus tables of the three schemes for characters; the claim about Path and digits is refuted.
  Theorems: `C47_one_character`, `C47_path`, `C47_default`, `C47_history`, `C47_path_digit_refuted`.
* **C48** Option setters: State machine with arbitrary call sequences.
  Theorems: `C48_setters`, `C48_searches`.
* **C49** The order of AND-ed conditions is irrelevant for the distance: Permutation invariance of the specification.
  Theorems: `C49_order`.
* **C50** Extending the candidate keeps fuzzy and exact matches: Monotonicity of alignments and substrings under extension.
  Theorems: `C50_extend`, `C50_not_extended`, `C50_insert`, `C50_remove`, `C50_insert_not_extended`.
* **C51** The ASCII fast path agrees with the general path: Simulation between `Ascii l` and `Unicode l` for every modelled function.
  Theorems: `C51_same_search`.
* **C52** Ranking keeps exactly the matches, sorted and stable: Usage.v models the ranking program of the documentation; permutation/sortedness/stability of the result.
  Theorems: `C52_ranking`, `C52_ranking_order`.
* **C53** Debug output determines behaviour: Usage.v models the Debug output of the metrics as a tree; it is a function of the options and determines all later results; Debug.v has the text.
  Theorems: `C53_text`, `C53_text_determines`, `C53_pretty`, `C53_debug`, `C53_debug_determines`.
* **C54** More conditions narrow, more alternatives widen: From the relational semantics of conditions.
  Theorems: `C54_more_conditions`, `C54_more_alternatives`.
* **C55** Term kinds are ordered by strictness: Inclusion of the shapes of matches.
  Theorems: `C55_kinds`.
* **C56** Extra spaces in a query are irrelevant: Splitting into words ignores runs of unescaped spaces; then parse is a function of the words.
  Theorems: `C56_extra_spaces`, `C56_same_words`.
* **C57** Concatenated queries intersect and their scores add: Words of a concatenation, then sums over conditions.
  Theorems: `C57_two_queries`.
* **C58** The two metrics agree on queries without fuzzy terms: The code for non-fuzzy terms is shared; equality of the two outcome functions.
  Theorems: `C58_no_fuzzy_same`.
* **C59** The fuzz target never panics: Usage.v models the fuzz target; totality of parse and of FzfV2, and ranges on boundaries, imply that no assertion and no slice fails.
  Theorems: `C59_fuzz_target`.
* **C60** Results are independent of Unicode tables and platform where these agree: Congruence of the pure outcome functions in the Unicode tables (CongProofs).
  Theorems: `C60_other_tables`, `C60_ascii`.
* **C61** With case-insensitive matching the case of the query is irrelevant: Congruence in the characters of the query.
  Theorems: `C61_query_case`.
* **C62** When case is ignored the case of the candidate does not affect matching: Agreement depends on the case-folded character only.
  Theorems: `C62_candidate_case`.
* **C63** With normalization the accents of the candidate do not affect matching: Agreement of a normal query character depends on the normal form only.
  Theorems: `C63_candidate_accents`.
* **C64** A search sees of a candidate only classes, spaces and agreement: Congruence of the pure outcome functions in the candidate's characters.
  Theorems: `C64_look_alike`.
* **C65** Overflow checks never fire: Checked.v is the scoring code with a range check after each arithmetic operation; a simulation (CheckedProofs) shows that on short strings no check fires.
  Theorems: `C65_no_overflow`, `C65_returns`, `C65_long_run`.
* **C66** A query stays valid as long as it may be used: Memory.v is the parser with addresses: buffers are overwritten, moved and freed, and reading through an invalid reference is a panic. A simulation against Parser.v shows that the references of a query point to what Parser.v computes; an invariant of all programs shows that the buffers of different parsers are disjoint and that queries in use keep reading right.
  Theorems: `C66_queries_valid`, `C66_calls_return`.
* **C67** The best possible score, and which candidates reach it: For FzfV1 and the exact kinds the score is the formula of an alignment, which is bounded by induction on the alignment. For FzfV2 the bound is an invariant of the cells of the table; a cell which reaches the bound of its row can only come from the cell before it which reaches its own, so the way back from the best cell is the run.
  Theorems: `C67_bound`, `C67_bound_fuzzy`, `C67_start`, `C67_unbeatable`, `C67_v2_word`, `C67_word_start`.
* **C68** Text around a candidate in which no match can start or end is irrelevant: The alignments of the longer candidate are those of the shorter one, moved; so the window of FzfV1, the leftmost alignment and the last column of FzfV2 move. The cells of FzfV2's table are equal up to the shift by induction on rows and columns, hence also the best cell and the way back. Insertion of ranges commutes with the shift.
  Theorems: `C68_around`, `C68_spaces`.
* **C69** Appending text does not make a candidate worse (partial): Refuted. Partial: the old columns of the wider table are unchanged, by induction on rows and columns, because each row has a hit in the last old column or none in the new ones. Loss: the two tables are compared cell by cell; only the first step of the last gap of a row can cost more (2 points), and a run that is not seen costs at most 10.
  Theorems: `C69_append_refuted`, `C69_append_partial`, `C69_single_partial`, `C69_loss_partial`.
* **C70** FzfV1 is linear in the candidate: Cost.v is the searching code with a counter for the iterations of every loop; CostProofs shows that it returns the same, CostBounds bounds each function; sum over the phases.
  Theorems: `C70_same`, `C70_fuzzy`.
* **C71** FzfV2 is linear in the candidate times the query: The table has |query| rows and at most |candidate| columns, and every cell is visited a bounded number of times; the terms are not longer than the query.
  Theorems: `C71_fuzzy`, `C71_terms`.
* **C72** FzfV2 filters out non-matches in linear time: When the subsequence test fails, the table is not built; the buffer for the indices never shrinks (invariant over all later calls).
  Theorems: `C72_first`, `C72_again`.
* **C73** Linear time for every query (partial): Refuted by a^k b on a^(2k+1), with a lower bound by induction on the restarts. Partial: the sum over the terms.
  Theorems: `C73_exact_refuted`, `C73_terms_partial`.
* **C74** A metric reuses its memory: The length of every buffer after a search is the maximum of its length before and a need which depends on options, query and candidate only (V2Fuzzy.v, Claims15.v); repetition and bound follow by induction on the history.
  Theorems: `C74_again`, `C74_grow`, `C74_bound`.
* **C75** A parser reuses its memory: Lengths read off the specification of the parser loop.
  Theorems: `C75_parse`, `C75_raw`, `C75_again`.
* **C76** FzfV2's score is earned by an alignment (partial): Every cell of the table of Spec.v with positive scores on the way to it has the points of an alignment, by induction on rows and columns (V2Path.v); refuted by a wide candidate.
  Theorems: `C76_earned_refuted`, `C76_exact_partial`, `C76_earned_partial`.
* **C77** The two metrics agree when there is one way to match: With one hit per row the table has one path; its points equal the formula of FzfV1 (V2Path.v, Claims16.v).
  Theorems: `C77_one_way`.
* **C78** Queries that print the same give the same results (partial): Debug.v models the printed text, with the escapes of core; the text is shown to be uniquely readable from left to right (Claims17.v). Refuted by two pairs of queries.
  Theorems: `C78_same_refuted`, `C78_texts_refuted`, `C78_texts_partial`.
* **C79** Parsing takes time linear in the query: `ParseCost.v` is the parser with a counter; amortised: a budget of six iterations for each byte not yet read (ParseCostProofs.v).
  Theorems: `C79_same`, `C79_first`, `C79_again`, `C79_raw`.
* **C80** Asking for the matched ranges costs little more: `CostRanges.v` is the search with ranges and a counter. The ranges kept so far are disjoint and within the candidate, so there are at most (bytes + 1) / 2 of them and an insertion costs at most bytes + 1; a simulation runs both searches side by side (CostRangesBounds.v, Claims19.v).
  Theorems: `C80_same`, `C80_extra`, `C80_v1_fuzzy_extra`, `C80_v1_fuzzy`, `C80_v2_fuzzy`, `C80_v1_terms`, `C80_v2_terms`, `C80_binary_search`, `C80_binary_search_steps`.
* **C81** Typing on narrows the results: The terms of the longer query are compared with those of the shorter one: the last word grows, and with it the text or the kind of its term, in ways which ask for more (`Typing.v`, an inductive relation); every such change is shown to lose matches only, also when the longer text turns the comparison case-sensitive (Claims20.v).
  Theorems: `C81_typing`, `C81_last_word`, `C81_negated_word`, `C81_ranking`, `C81_not_extended`, `C81_weaker`.
* **C82** A candidate equal to the query matches as a whole: FzfV1 finds the only alignment which ends that early. For FzfV2 the diagonal of the table is computed in closed form, every cell to its right is shown to have fewer points than the diagonal in its column, and the way back follows the diagonal; the other kinds can only find the text at position 0 (Claims21.v).
  Theorems: `C82_whole`, `C82_self`, `C82_not_extended`.
* **C83** A candidate equal to the query is ranked first (partial): A counterexample for fuzzy terms. For the others the score of an occurrence anywhere is compared character by character with that of the whole text: the start of a candidate is worth at least as much as any other place, and places inside are worth the same up to the case of letters, which is never worth more than the first character (Claims21.v). C83_near_partial: the bound of C67 against the score of C82, in which each character has at least the bonus of the first.
  Theorems: `C83_first_refuted`, `C83_first_partial`, `C83_letter_partial`, `C83_near_partial`.
* **C84** A search reads memory which is still there: MemoryMetric.v adds the metrics to the memory of Memory.v: the slab of characters has an address, the candidate is a reference, the query is read through its references pattern by pattern. A search is proved equal to the one without memory as long as its query can be read before and after the candidate is written; an invariant of all programs says that buffers of different parsers and metrics are different and alive.
  Theorems: `C84_search`, `C84_queries`, `C84_calls`.
* **C85** Which queries can be written: `Writing.v` defines which terms can be written, when a text ends open, and a printer. The printer is inverted step by step (words, sigils, bars); conversely every word with a term is shown to be in the class, and no word before a space can end in a backslash (Claims22.v).
  Theorems: `C85_words`, `C85_write`, `C85_only`.
* **C86** Printing a query does not emit control characters: `Debug.v` models {:#?} with the padding adapter of core::fmt. By cases on the escapes every printed character is harmless, so the field has no line break and the adapter indents just one line (Claims23.v).
  Theorems: `C86_shown`, `C86_pretty`, `C86_same`.
* **C87** The unsafe code keeps the rules on aliasing: `Borrows.v` and `BorrowsMetric.v` are Memory.v and MemoryMetric.v again with a stack of tags for each element, so that an access is allowed only through a tag which is still in the stack. An invariant says which tags are: those of the Vecs at the bottom, and those of the references in the queries in use above; a simulation with the parser and metrics without memory carries it through every call (BorrowsProofs.v, BorrowsParser.v, BorrowsMetricProofs.v). That the rules forbid what they should is proved too: tags are never given twice, in any program, so a slice of a Vec may not be read once the Vec has been borrowed mutably, assigned to, moved or dropped (Claims38.v; `fresh` in BorrowRules.v). Examples show accesses which the rules forbid although nothing is dangling.
  Theorems: `C87_search`, `C87_queries`, `C87_calls`, `C87_forbidden`, `C87_exclusive`, `C87_fresh`.
* **C88** A parser whose panic was caught still works: The parser as a panic leaves it (`parse_not_extended_caught`, and its versions in Memory.v and Borrows.v) is a case of `parser_reached` and of the steps of programs, so that every theorem about these covers callers which catch panics; the theorem itself is by the size of the buffer, which the loop keeps, and the correctness of parse for any contents of the buffers.
  Theorems: `C88_parser`, `C88_program`.
* **C89** Threads which search at the same time get the results they would get alone: BorrowsThreads.v writes a search as a sequence of steps on the shared memory and interleaves threads; `safe` says that each step of a thread succeeds in every memory in which the thread's own slab and the program's parsers are as the thread left them, and leaves all other buffers alone. The invariant of the threads (`tinv`) is kept by every step of every thread. Schedules end because what is left of a thread is a subterm of it.
  Theorems: `C89_threads`, `C89_ends`, `C89_search`, `C89_alone`.
* **C90** A search only touches its metric's memory and only reads its query's: The search is proved in every memory which has the metric's slab and read-only copies of the parser's buffers (`lent`), where everything else may be freed; as an access to a freed or read-only buffer is an error of the model, its success shows that there is none.
  Theorems: `C90_search`, `C90_lent`, `C90_parse`, `C90_parse_not_extended`.
* **C91** A query means what its formula means: The candidate defines a valuation (which terms the code finds in it); it is sensible by the lemmas of C81, and the code's outcome is the value of the formula.
  Theorems: `C91_entails`, `C91_same`, `C91_alternative`.
* **C92** Matching has no direction: Each shape of Spec.v is mapped to its mirror image (for alignments: j to len - 1 - j); then by induction on the query, with the cases of the two defects.
  Theorems: `C92_mirror`.
* **C93** A candidate shorter than the query does not match: An alignment has distinct positions below the length of the candidate; all other kinds are alignments.
  Theorems: `C93_short`.
* **C94** A better placed match is not ranked worse (partial): The alignments of both candidates are the same, hence the window of C40 and the single cell of C45; the score of an alignment grows with the bonuses. A counterexample for FzfV2 by computation. Loss: the same comparison of tables, with the same hits and better bonuses.
  Theorems: `C94_v1`, `C94_v2_refuted`, `C94_single_partial`, `C94_one_way_partial`, `C94_two_partial`, `C94_loss_partial`.
* **C95** Pulling a match apart does not make it better (partial): Positions of one candidate are mapped to those of the other; this maps alignments to alignments and the window of C40 to the window, and the score of C41 does not grow. Counterexamples by computation. The gain of FzfV2 by induction over its recurrence (C43), as the loss in C94.
  Theorems: `C95_apart_refuted`, `C95_v1_partial`, `C95_v1_gain_partial`, `C95_v2_refuted`, `C95_single_partial`, `C95_v2_gain_partial`.
* **C96** Candidates do not affect the ranking of others: A sorted list is determined by the order of the elements of each distance; filtering and merging keep both.
  Theorems: `C96_subset`, `C96_insert`, `C96_chunks`.
* **C97** Texts without special characters mean the same to both parsers: The specification of parse gives one fuzzy term for the escaped text; both shapes of query have the outcome of the fuzzy search for it.
  Theorems: `C97_plain`.
* **C98** Short candidates and queries need no memory beyond that of a new metric: The lengths of the vectors of a new metric times the sizes of their elements; the bounds of C74 and C75 for short inputs are the initial lengths.
  Theorems: `C98_new`, `C98_slab`, `C98_short`, `C98_parser`.
* **C99** A display which cuts the candidate at the ranges shows it unchanged and highlights what matched: The loop as a function on bytes, with the panics of str slicing (Highlight.v); C04 and C05 turn the ranges into ranges of characters, then induction over them.
  Theorems: `C99_display`, `C99_fuzzy_v1`, `C99_fuzzy_v2`, `C99_term`.
* **C100** With normalization an accented letter is found by the letter under its accents (partial): Unicode's decompositions and names as tables made from UnicodeData.txt, not from the repository (UnicodeLetters.v); the tables of the model are compared with them by computation, the search by C27.
  Theorems: `C100_letters_refuted`, `C100_letters_partial`, `C100_exact_partial`, `C100_sound`.
* **C101** Composed and decomposed accents are found by the same queries (partial): Decomposition as a relation on candidates (UnicodeLetters.v); subsequences are carried over character by character, the rest by C27.
  Theorems: `C101_same_refuted`, `C101_letter_refuted`, `C101_same_partial`, `C101_decomposed_partial`.
* **C102** What a fuzzy search costs: The counting model of C70 (Cost.v); the iterations of each loop are computed exactly instead of bounded (CostExact.v), with the positions from the proofs of C40 and C43.
  Theorems: `C102_read`, `C102_v1`, `C102_v2`, `C102_v2_char`.
* **C103** A search highlights no more than the query has characters: An insertion adds at most one range, and only bytes of the inserted one (MatchedRangesProofs.v). Induction over the conditions with the positions of each term (V2: each step of the way back goes up one row).
  Theorems: `C103_query`, `C103_not_extended`, `C103_terms`.
* **C104** The scoring scheme affects the order of the matches, not which candidates match: The pure result of a search (ApiProofs.v) for both sets of options; induction over the query. Exact terms: an occurrence is chosen iff there is one (ExactProofs.v).
  Theorems: `C104_accepts`, `C104_ranking`, `C104_v1`, `C104_not_extended`, `C104_anchored`.
* **C105** How many steps parsing takes: A potential function over the text which is left, in closed form, for each of the three nested loops of ParseCost.v; the number of conditions is that of the parsed query.
  Theorems: `C105_parse`, `C105_raw`.
* **C106** What asking for the ranges costs: CostRanges.v step by step against Cost.v: the two runs differ only in the insertions, whose binary search makes a known number of comparisons (C80_binary_search_steps), and in the way back, whose columns are those of C43. For conditions of other terms, the steps with and without ranges are computed together from the same result, and an insertion's comparisons and moves from the ranges already there.
  Theorems: `C106_no_less`, `C106_no_match`, `C106_v1`, `C106_v2_char`, `C106_v2`, `C106_words`, `C106_and`, `C106_fails`.
* **C107** What the terms of a query cost: Cost.v against the counts of TermCost.v, which are written from the text and the candidate only: induction over the places an exact term tries, and over the conditions of a query for the sum.
  Theorems: `C107_words`, `C107_sum`, `C107_missed_v1`, `C107_missed_v2`.
* **C108** Threads which parse and search at the same time get the results they would get alone: Workers.v adds parsers to the threads of C89. `safe2` (WorkersProofs.v) is `safe` with the thread's own parser, whose buffers it may change and move; searches are lifted from C89 (`safe_safe2`), parsing is `parse_b_ok` of C87, and new parsers and metrics get buffers which no other has. The invariant (`winv`) says that the slabs, the threads' parsers and the other parsers are all apart and are as their owners left them; when the threads have ended it gives the invariant of programs back, with the parsers, metrics and queries they return. C108_completes: by induction on what is left of the threads, since a thread which has not stopped can make a step.
  Theorems: `C108_workers`, `C108_completes`, `C108_loans`, `C108_search`, `C108_parse`.
* **C109** Nothing leaks, and nothing is freed twice: Each operation on memory (Borrows.v) is shown to keep the number of allocated buffers, to add one or to remove one (AllocProofs.v), and so for each function and each step of a thread; no invariant is needed. Together with the invariant of C108, that the buffers of what exists are allocated and distinct, the pigeonhole principle gives that no others are (Claims47.v).
  Theorems: `C109_owned`, `C109_counts`, `C109_threads`, `C109_freed`.

## Trusted base

* Coq 8.16.1's kernel, including its `vm_compute` reduction (used for examples, for refutations and for the
  finite normalization tables).
* Axioms: none. `Print Assumptions` after each theorem of the `Properties_*` files prints
  `Closed under the global context`. (Whole-library listings, such as coqchk's, mention
  `Coq.ssr.ssrunder.Under_rel.*`. These are the parameters of a module type in the standard library,
  loaded by its files; no theorem here depends on them.)
* The correspondence between the Gallina definitions and the Rust code, stated in the comment of each
  definition (file and lines in /repo).
* The documented behaviour of the functions of core, alloc and memchr which are named there:
  `memchr`, `slice::sort`, `str::chars`, `char::len_utf8`, `Vec::resize`, iterators. For `slice::binary_search_by` both of the loops it has had are in
  `BinarySearch.v`, and proved to behave as documented on ranges in order (C80_binary_search).

### Modelled

All of `src/`: `candidate.rs`, `case_sensitivity.rs`, `lib.rs` (the documentation's program), `matched_ranges.rs`, `metric.rs`,
`normalize.rs`, `utils.rs`, and `metrics/fzf/{candidate,distance,fzf,fzf_v1,fzf_v2,mod,parser,query,scheme,scoring,slab}.rs`;
the fuzz target and the example in `examples/`.

### Not modelled, or simplified

* `Debug` output: the texts which `{:?}` and `{:#?}` print for queries, distances, metrics and parsers are modelled in `Debug.v`, with the escapes
  and the padding of core (documented there); a width or precision in the format string and the Debug implementations of private types (candidates, ranges, matrices) are
  not. (Read, not proved: printing a score matrix would panic on a negative cell, `ilog10` in slab.rs:152.)
* Unsafe code: the references which the parser casts to other lifetimes are modelled in `Memory.v`, those of `alloc_chars`
  (fzf_v1.rs:230, fzf_v2.rs:241) in `MemoryMetric.v`; C66 and C84 say that they are valid
  when they are read. Rust has no final rules on aliasing; those of Stacked Borrows are modelled in `Borrows.v` and `BorrowsMetric.v`
  for the buffers of Vecs (C87), with the simplifications listed there: no protected function arguments, one location per element, and the fields
  of structs, which only safe code accesses, have no stacks. The cast of
  a u32 to a char in `normalize.rs:20` is only applied to values of the type char: C37_casts.
* Memory: allocation always succeeds; overflow of offsets into strings (at most the length of a
  string in memory) is not checked.
* "Produces the same results as fzf" (documentation of FzfV1 and FzfV2): fzf's code is not part of the repository, so the claim
  cannot be stated about a model of this code. The properties on scores state the formula instead.
* Monomorphisation: the const generic RANGES is a Boolean argument. `Fzf::distance` is split into two
  definitions (building the candidate, searching it) to state C51.
* `debug_assert!` is a panic where it depends on data; C16/C17 therefore cover debug builds. The exceptions are
  listed at the definitions.
* Features (`fzf-v1`, `fzf-v2`, `into-score`, `tests`) are all taken as enabled. Benchmarks are not modelled.

## Testing the theorems

`seeded/LOG.jsonl` has one line for each seeded bug. A bug is a textual edit of one definition of the model in a scratch
copy. Two things are recorded. First, which theorem statements are false of the edited program: the statements were
transcribed into executable checks, which are run on random queries and candidates against the extracted
model. Second, which proofs fail when the copy is rebuilt. An edit whose claim is false but which breaks no proof
would reveal a theorem which is too weak.

About 350 of the lines were written by hand. The others were made by a program which replaces one expression of a
definition by another: a constant, a comparison, a branch or a number of steps. Each line says what it changed. The
edits marked as equivalent don't change what the definition computes.

## Testing the model

The directory `fidelity` compares the model with a second reading of the Rust source, a transcription into Python. On
260,000 random steps both did the same, panics included. That is evidence for the modelling, not part of any proof.
