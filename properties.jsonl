{"id": "C01", "title": "distance and distance_and_ranges agree", "statement": "Calling `distance(query, cand)` and `distance_and_ranges(query, cand, buf)` on metrics with the same options returns the same Option<Distance>, whatever is already in `buf`.", "quantifier": "every query value, candidate string, option setting, buffer content and prior history, for FzfV1 and FzfV2", "why_tests_cant": "two generic instantiations (RANGES=true/false) of the same code; a test compares them only on sampled inputs", "anchors": ["src/metric.rs:Metric", "src/metrics/fzf/fzf.rs:Fzf::distance", "src/metrics/fzf/fzf_v1.rs:FzfV1", "src/metrics/fzf/fzf_v2.rs:FzfV2"]}
{"id": "C02", "title": "The range buffer is append-only", "statement": "`distance_and_ranges` never modifies, removes or reorders ranges that were in the buffer before the call: the old content stays a prefix of the new content.", "quantifier": "every buffer content, query, candidate, option setting, both metrics, match or no match", "why_tests_cant": "insertion code merges, removes and shifts ranges; only a proof covers every pre-existing buffer", "anchors": ["src/metric.rs:Metric::distance_and_ranges", "src/matched_ranges.rs:MatchedRanges::insert"]}
{"id": "C03", "title": "No match leaves the buffer untouched", "statement": "If the candidate does not match the query, `distance_and_ranges` returns None and the buffer is exactly what it was before the call.", "quantifier": "every query (any number of terms), candidate, buffer, both metrics", "why_tests_cant": "the documented contract quantifies over all queries; unit tests only use a single-term query (the claim is false for several AND-ed terms)", "anchors": ["src/metric.rs:Metric::distance_and_ranges", "src/metrics/fzf/fzf.rs:Fzf::distance"]}
{"id": "C04", "title": "Appended ranges are canonical", "statement": "The ranges appended by a call are non-empty, sorted by start, pairwise disjoint and not even adjacent (each ends strictly before the next starts).", "quantifier": "every query, candidate, buffer, options, both metrics", "why_tests_cant": "depends on every possible order and overlap of insertions", "anchors": ["src/matched_ranges.rs:MatchedRanges::insert", "src/metric.rs:Metric::distance_and_ranges"]}
{"id": "C05", "title": "Ranges lie on character boundaries of the candidate", "statement": "Every appended range can be used to slice the candidate: it starts and ends on a UTF-8 character boundary within the candidate.", "quantifier": "every candidate (ASCII or not), query, options, both metrics", "why_tests_cant": "the fuzz target samples this; the claim is for all strings", "anchors": ["src/candidate.rs:Candidate::to_byte_range", "src/candidate.rs:Candidate::to_byte_offset", "fuzz/fuzz_targets/fzf.rs"]}
{"id": "C06", "title": "FzfV1 highlights exactly one alignment of a fuzzy query", "statement": "For a single fuzzy term matched by FzfV1 the appended byte ranges cover exactly the characters of one alignment of the query in the candidate: one candidate character per query character, in order, nothing more and nothing less.", "quantifier": "every non-empty fuzzy term, every candidate, option, buffer", "why_tests_cant": "all alignments of all strings", "anchors": ["src/metrics/fzf/fzf_v1.rs:FzfV1::fuzzy", "src/metrics/fzf/fzf.rs:compute_score", "src/matched_ranges.rs:MatchedRanges::insert"]}
{"id": "C07", "title": "Ranges of a multi-term query are the union of the terms' matches", "statement": "The appended ranges cover exactly the union of the character ranges matched by the accepted terms of the query.", "quantifier": "every multi-term query and candidate", "why_tests_cant": "overlap patterns between terms are unbounded (the completeness half is false of the code: overlapping insertions can lose bytes)", "anchors": ["src/matched_ranges.rs:MatchedRanges::insert", "src/metrics/fzf/fzf.rs:Fzf::distance"]}
{"id": "C08", "title": "FzfV2 highlights only characters that match the query", "statement": "Each character highlighted by FzfV2 for a fuzzy term matches the corresponding query character, in order.", "quantifier": "every fuzzy term and candidate", "why_tests_cant": "back-tracing over every possible score matrix; false once scores go negative on long gaps", "anchors": ["src/metrics/fzf/fzf_v2.rs:matched_ranges", "src/metrics/fzf/fzf_v2.rs:score_remaining_rows"]}
{"id": "C09", "title": "FzfV2 highlights every query character", "statement": "For a fuzzy term matched by FzfV2 the highlighted characters form an alignment of the whole query.", "quantifier": "every fuzzy term and candidate", "why_tests_cant": "needs every score matrix; false because the maximum is taken over all rows", "anchors": ["src/metrics/fzf/fzf_v2.rs:score_first_row", "src/metrics/fzf/fzf_v2.rs:score_remaining_rows", "src/metrics/fzf/fzf_v2.rs:matched_ranges"]}
{"id": "C10", "title": "Empty and blank queries match everything", "statement": "A query string that is empty, all spaces, or only made of words without text (such as a lone sigil or `|`) matches every candidate with the default distance and appends nothing.", "quantifier": "every candidate, buffer, options, parser and metric state, both metrics", "why_tests_cant": "all candidates and all degenerate query strings", "anchors": ["src/metrics/fzf/fzf.rs:Fzf::distance", "src/metrics/fzf/query.rs:FzfQuery::is_empty", "src/metrics/fzf/parser.rs:FzfParser::parse"]}
{"id": "C11", "title": "FzfV1 results do not depend on earlier calls", "statement": "The result of a call on an FzfV1 depends only on its current options, the query and the candidate, not on which candidates or queries were processed before.", "quantifier": "every history of calls and option changes", "why_tests_cant": "histories are unbounded; the scratch buffers are reused and never cleared", "anchors": ["src/metrics/fzf/slab.rs:CandidateSlab::alloc", "src/metrics/fzf/fzf_v1.rs:FzfV1"]}
{"id": "C12", "title": "FzfV2 results do not depend on earlier calls", "statement": "The result of a call on an FzfV2 (distance and ranges) depends only on its current options, the query and the candidate, not on earlier calls.", "quantifier": "every history of calls and option changes", "why_tests_cant": "five scratch buffers with stale content are reused; histories are unbounded", "anchors": ["src/metrics/fzf/slab.rs:MatrixSlab::alloc", "src/metrics/fzf/slab.rs:BonusSlab::alloc", "src/metrics/fzf/slab.rs:MatchedIndicesSlab::alloc", "src/metrics/fzf/slab.rs:CandidateSlab::alloc"]}
{"id": "C13", "title": "Parsing does not depend on earlier parses", "statement": "The query returned by `parse` depends only on the query string, not on the parser's history.", "quantifier": "every history of parse calls and every query string", "why_tests_cant": "buffers are reused and grown; histories are unbounded", "anchors": ["src/metrics/fzf/parser.rs:FzfParser::parse"]}
{"id": "C14", "title": "parse never panics and always terminates", "statement": "`FzfParser::parse` returns a query for every string: it never indexes outside its buffers, never slices a string off a character boundary, and terminates.", "quantifier": "every query string (any Unicode), every parser state", "why_tests_cant": "buffer capacities are computed from byte length; only a proof shows the bound always suffices", "anchors": ["src/metrics/fzf/parser.rs:FzfParser::parse", "src/metrics/fzf/parser.rs:Patterns", "src/metrics/fzf/parser.rs:Words"]}
{"id": "C15", "title": "parse_not_extended never panics", "statement": "`FzfParser::parse_not_extended` returns a query for every string.", "quantifier": "every query string and parser state", "why_tests_cant": "length is unbounded; false: the character buffer is not grown", "anchors": ["src/metrics/fzf/parser.rs:FzfParser::parse_not_extended"]}
{"id": "C16", "title": "FzfV1 never panics and always terminates", "statement": "For every query returned by the parser, every candidate, every option setting and every state of the metric, FzfV1's two methods return normally.", "quantifier": "all queries, candidates, options, histories", "why_tests_cant": "indexing, unwrap, expect and usize subtraction occur throughout; the input space is infinite", "anchors": ["src/metrics/fzf/fzf_v1.rs:forward_pass", "src/metrics/fzf/fzf_v1.rs:backward_pass", "src/metrics/fzf/fzf.rs:exact_match", "src/metrics/fzf/fzf.rs:compute_score"]}
{"id": "C17", "title": "FzfV2 never panics and always terminates", "statement": "Same as C16 for FzfV2.", "quantifier": "all queries, candidates, options, histories", "why_tests_cant": "matrix indexing, back-tracing, slicing and subtraction over arbitrary sizes", "anchors": ["src/metrics/fzf/fzf_v2.rs:score", "src/metrics/fzf/fzf_v2.rs:matched_ranges", "src/metrics/fzf/slab.rs:Matrix"]}
{"id": "C18", "title": "FzfV1 fuzzy semantics", "statement": "FzfV1 matches a fuzzy term iff the candidate contains the term's characters in order (not necessarily contiguous), under the configured character equality.", "quantifier": "every term, candidate, option setting", "why_tests_cant": "iff over all strings", "anchors": ["src/metrics/fzf/fzf_v1.rs:forward_pass", "src/candidate.rs:Candidate::find_first_from"]}
{"id": "C19", "title": "FzfV2 fuzzy semantics", "statement": "Same as C18 for FzfV2, including one-character terms.", "quantifier": "every term, candidate, option setting", "why_tests_cant": "iff over all strings", "anchors": ["src/metrics/fzf/fzf_v2.rs:matches", "src/metrics/fzf/fzf_v2.rs:fuzzy_single_char"]}
{"id": "C20", "title": "FzfV1 and FzfV2 accept the same candidates", "statement": "With equal options FzfV1 and FzfV2 agree on whether a candidate matches, for every query.", "quantifier": "every query, candidate, options, histories", "why_tests_cant": "two different algorithms over all strings", "anchors": ["src/metrics/fzf/fzf_v1.rs:FzfV1::fuzzy", "src/metrics/fzf/fzf_v2.rs:FzfV2::fuzzy"]}
{"id": "C21", "title": "Exact terms", "statement": "`'foo` matches iff the candidate contains foo as a contiguous substring under the configured equality, and the reported range is such an occurrence.", "quantifier": "every term text, candidate, options", "why_tests_cant": "the scan restarts at overlapping positions; all strings", "anchors": ["src/metrics/fzf/fzf.rs:exact_match"]}
{"id": "C22", "title": "Prefix terms", "statement": "`^foo` matches iff the candidate starts with foo after skipping zero or more leading spaces; the reported range is that occurrence.", "quantifier": "every term text, candidate, options", "why_tests_cant": "space-counting interacts with spaces inside the pattern", "anchors": ["src/metrics/fzf/fzf.rs:prefix_match", "src/metrics/fzf/fzf.rs:ignored_candidate_leading_spaces"]}
{"id": "C23", "title": "Suffix terms", "statement": "`foo$` matches iff the candidate ends with foo before zero or more trailing spaces; the reported range is that occurrence.", "quantifier": "every term text, candidate, options", "why_tests_cant": "space-counting interacts with spaces inside the pattern", "anchors": ["src/metrics/fzf/fzf.rs:suffix_match", "src/metrics/fzf/fzf.rs:ignored_candidate_trailing_spaces"]}
{"id": "C24", "title": "Equality terms", "statement": "`^foo$` matches iff the candidate is foo surrounded by zero or more spaces.", "quantifier": "every term text, candidate, options", "why_tests_cant": "iff over all strings; the edge case of an all-space term breaks it", "anchors": ["src/metrics/fzf/fzf.rs:equal_match"]}
{"id": "C25", "title": "Inverse terms", "statement": "In a query with several terms a term starting with `!` is satisfied iff the same term without `!` is not; it contributes 0 to the score and no ranges.", "quantifier": "every inverse term, candidate, options, both metrics", "why_tests_cant": "all strings", "anchors": ["src/metrics/fzf/fzf.rs:Fzf::score"]}
{"id": "C26", "title": "A lone inverse term is negated", "statement": "The query consisting of one inverse term accepts exactly the candidates the non-inverted term rejects.", "quantifier": "every single inverse term, candidate, both metrics", "why_tests_cant": "all strings; false for `!'foo`, whose negation is dropped", "anchors": ["src/metrics/fzf/query.rs:FzfQuery::new_extended", "src/metrics/fzf/fzf.rs:Fzf::distance"]}
{"id": "C27", "title": "AND/OR semantics and total score", "statement": "A parsed query matches iff every space-separated condition has at least one matching alternative; the score is the sum over the conditions of the score of the first matching alternative.", "quantifier": "every query, candidate, options, both metrics", "why_tests_cant": "arbitrarily many conditions and alternatives", "anchors": ["src/metrics/fzf/fzf.rs:Fzf::distance", "src/metrics/fzf/fzf.rs:Fzf::score"]}
{"id": "C28", "title": "Grouping: OR binds tighter than AND", "statement": "`parse` groups the non-empty terms of the query: two consecutive terms belong to the same condition iff at least one `|` word stands between them.", "quantifier": "every query string", "why_tests_cant": "arbitrary sequences of words, separators and empty terms", "anchors": ["src/metrics/fzf/parser.rs:Patterns"]}
{"id": "C29", "title": "Words and escaped spaces", "statement": "Words are separated by unescaped spaces; `\\ ` stands for a literal space. Any list of non-empty words none of which ends in a backslash, printed with spaces escaped and joined by spaces, is read back unchanged.", "quantifier": "every list of words", "why_tests_cant": "round trip over all strings, multi-byte characters included", "anchors": ["src/metrics/fzf/parser.rs:Words"]}
{"id": "C30", "title": "Sigil syntax of a term", "statement": "A word is interpreted by stripping `!`, then a trailing `$` (if text remains), then a leading `'` or `^`, and the documented table of term kinds follows; words with no remaining text are dropped.", "quantifier": "every word", "why_tests_cant": "all strings over the sigils", "anchors": ["src/metrics/fzf/query.rs:Pattern::parse"]}
{"id": "C31", "title": "Non-extended queries have no special characters", "statement": "`parse_not_extended(q)` (when it returns) yields a query that fuzzy-matches all characters of q literally.", "quantifier": "every query string up to the buffer size, candidate, both metrics", "why_tests_cant": "all strings", "anchors": ["src/metrics/fzf/parser.rs:FzfParser::parse_not_extended", "src/metrics/fzf/query.rs:Pattern::raw"]}
{"id": "C32", "title": "Case sensitivity modes", "statement": "Sensitive compares characters exactly; Insensitive ignores the case of letters.", "quantifier": "every pair of characters", "why_tests_cant": "1.1M x 1.1M pairs; false for non-ASCII letters in Insensitive mode", "anchors": ["src/case_sensitivity.rs:CaseSensitivity", "src/utils.rs:char_eq"]}
{"id": "C33", "title": "Smart case", "statement": "In Smart mode the search is case sensitive iff the query contains an uppercase letter. (False: it is decided for each term by the letters of the term.)", "quantifier": "every query and candidate", "why_tests_cant": "all queries; the decision is in fact taken per term", "anchors": ["src/case_sensitivity.rs:CaseSensitivity::Smart", "src/metrics/fzf/fzf_v1.rs:FzfV1::char_eq"]}
{"id": "C34", "title": "Relaxing case sensitivity never loses a positive match", "statement": "If a query without inverse terms matches in Sensitive mode, it matches in Insensitive and Smart mode.", "quantifier": "every inverse-free query, candidate, scheme, both metrics", "why_tests_cant": "metamorphic relation over all inputs", "anchors": ["src/utils.rs:char_eq", "src/metrics/fzf/fzf.rs:Fzf::distance"]}
{"id": "C35", "title": "Enabling normalization never loses a positive match", "statement": "If a query without inverse terms matches with candidate normalization off, it matches with it on.", "quantifier": "every inverse-free query, candidate, options, both metrics", "why_tests_cant": "metamorphic relation over all inputs", "anchors": ["src/utils.rs:normalize_candidate_char", "src/normalize.rs:normalize"]}
{"id": "C36", "title": "Normalization is irrelevant for ASCII candidates", "statement": "For an ASCII candidate the normalization option changes neither the distance nor the ranges.", "quantifier": "every ASCII candidate and every query, both metrics", "why_tests_cant": "all strings", "anchors": ["src/utils.rs:normalize_candidate_char", "src/candidate.rs:find_first_ascii"]}
{"id": "C37", "title": "The normalization function follows its tables", "statement": "Normalizing a character returns its table entry (an ASCII letter) if it has one and the character itself otherwise; normalization is idempotent and the identity on ASCII.", "quantifier": "every Unicode scalar value", "why_tests_cant": "tests only check listed characters; unlisted ones inside the compacted ranges are not tested", "anchors": ["src/normalize.rs:normalize", "src/normalize.rs:linearize_batch"]}
{"id": "C38", "title": "FzfDistance is a total order in which better scores are smaller", "statement": "`Ord` for FzfDistance is a total order consistent with equality, and d1 < d2 iff d1 comes from a strictly higher score. Printing shows the number in decimal notation, in both forms, and distances which print the same are equal.", "quantifier": "all pairs and triples of distances", "why_tests_cant": "2^64 values", "anchors": ["src/metrics/fzf/distance.rs:FzfDistance"]}
{"id": "C39", "title": "Score bounds", "statement": "A match of a term of n characters never scores more than 26n+10, and an FzfV2 fuzzy match never scores less than 16; scores fit i64 for any string that fits memory.", "quantifier": "every term, candidate, option, both metrics", "why_tests_cant": "unbounded inputs; rules out overflow", "anchors": ["src/metrics/fzf/fzf.rs:compute_score", "src/metrics/fzf/fzf_v2.rs:score", "src/metrics/fzf/mod.rs:bonus"]}
{"id": "C40", "title": "FzfV1 selects the earliest-ending, then latest-starting window", "statement": "The alignment reported by FzfV1 ends as early as any alignment can, and among alignments with that end starts as late as possible.", "quantifier": "every fuzzy term and candidate", "why_tests_cant": "optimality over all alignments", "anchors": ["src/metrics/fzf/fzf_v1.rs:forward_pass", "src/metrics/fzf/fzf_v1.rs:backward_pass"]}
{"id": "C41", "title": "FzfV1's score is the documented formula", "statement": "The score of an FzfV1 fuzzy match equals, for the reported alignment, the sum of match points, positional and consecutive bonuses (first doubled) minus affine gap penalties.", "quantifier": "every fuzzy term and candidate, scheme", "why_tests_cant": "all strings", "anchors": ["src/metrics/fzf/fzf.rs:compute_score", "src/metrics/fzf/scoring.rs:compute_bonus"]}
{"id": "C42", "title": "FzfV1 ignores text after the match", "statement": "Appending any text to a candidate already fuzzy-matched by FzfV1 changes neither the distance nor the ranges.", "quantifier": "every fuzzy term, matching candidate, appended text", "why_tests_cant": "metamorphic relation over all strings (may switch between the ASCII and Unicode paths)", "anchors": ["src/metrics/fzf/fzf_v1.rs:FzfV1::fuzzy", "src/candidate.rs:Candidate"]}
{"id": "C43", "title": "FzfV2's score is its recurrence", "statement": "The score returned by FzfV2 for a fuzzy term of at least two characters is the maximum over all cells of a two-dimensional recurrence over (query prefix, candidate prefix).", "quantifier": "every fuzzy term and candidate, scheme", "why_tests_cant": "in-place matrices, cached bonuses and loops over all sizes", "anchors": ["src/metrics/fzf/fzf_v2.rs:score_first_row", "src/metrics/fzf/fzf_v2.rs:score_remaining_rows", "src/metrics/fzf/candidate.rs:CandidateV2::bonus_at"]}
{"id": "C44", "title": "FzfV2 is never worse than FzfV1", "statement": "FzfV2's distance for a fuzzy term is never greater than FzfV1's (it finds the best alignment).", "quantifier": "every fuzzy term and candidate", "why_tests_cant": "optimality over all alignments; false", "anchors": ["src/metrics/fzf/fzf_v2.rs:FzfV2 docs", "src/metrics/fzf/fzf_v2.rs:score_remaining_rows"]}
{"id": "C45", "title": "FzfV2 picks the best occurrence of a one-character query", "statement": "For a one-character fuzzy term FzfV2 returns the best score over all occurrences and highlights the leftmost best one.", "quantifier": "every character, candidate, scheme", "why_tests_cant": "all strings", "anchors": ["src/metrics/fzf/fzf_v2.rs:fuzzy_single_char"]}
{"id": "C46", "title": "Exact terms pick the best occurrence", "statement": "Among the occurrences of an exact term the reported one has the highest positional bonus of its first character (stopping at the first boundary occurrence).", "quantifier": "every exact term and candidate", "why_tests_cant": "all strings; false because of a stale previous-character class", "anchors": ["src/metrics/fzf/fzf.rs:exact_match"]}
{"id": "C47", "title": "Schemes", "statement": "`set_scoring_scheme` stores exactly the chosen scheme; Path gives the character right after a path separator more points than any non-boundary position, History gives no extra points.", "quantifier": "every character and scheme", "why_tests_cant": "all characters; false for digits", "anchors": ["src/metrics/fzf/scheme.rs:FzfScheme", "src/metrics/fzf/scoring.rs:compute_bonus"]}
{"id": "C48", "title": "Option setters", "statement": "Setters only affect their own option, the last write wins, and setters of different options commute.", "quantifier": "every sequence of setter calls interleaved with searches, both metrics", "why_tests_cant": "histories are unbounded", "anchors": ["src/metrics/fzf/fzf_v1.rs:FzfV1", "src/metrics/fzf/fzf_v2.rs:FzfV2"]}
{"id": "C49", "title": "The order of AND-ed conditions is irrelevant for the distance", "statement": "Permuting the conditions of a query changes neither whether a candidate matches nor its distance.", "quantifier": "every permutation of every query, candidate, both metrics", "why_tests_cant": "unbounded permutations", "anchors": ["src/metrics/fzf/fzf.rs:Fzf::distance"]}
{"id": "C50", "title": "Extending the candidate keeps fuzzy and exact matches", "statement": "If a fuzzy or exact term matches a candidate it matches every string that has the candidate as a substring; a fuzzy term also matches every string which results from inserting characters anywhere, and a negated fuzzy term every string which results from leaving some out.", "quantifier": "every query of such terms, candidate, prefix and suffix text, inserted characters, both metrics", "why_tests_cant": "metamorphic relation over all strings", "anchors": ["src/metrics/fzf/fzf_v1.rs:forward_pass", "src/metrics/fzf/fzf_v2.rs:matches", "src/metrics/fzf/fzf.rs:exact_match"]}
{"id": "C51", "title": "The ASCII fast path agrees with the general path", "statement": "Matching an ASCII candidate through the byte path gives the same distance and ranges as treating it as a sequence of characters.", "quantifier": "every ASCII candidate, query, option, both metrics", "why_tests_cant": "two code paths over all strings", "anchors": ["src/candidate.rs:Candidate", "src/candidate.rs:find_first_ascii", "src/candidate.rs:CandidateMatches"]}
{"id": "C52", "title": "Ranking keeps exactly the matches, sorted and stable", "statement": "The documented way to rank candidates (filter_map with distance, then sort_by_key) keeps exactly the candidates which match on their own, each with the distance it has on its own, ordered by increasing distance, equally distant ones in their input order; permuting the input permutes only equally distant results.", "quantifier": "every query, list of candidates, option, history of the metric, both metrics", "why_tests_cant": "unbounded lists and histories; needs Ord to be a total preorder on all distances", "anchors": ["src/lib.rs:module example", "examples/cities.rs:main", "src/metrics/fzf/distance.rs:Ord for FzfDistance"]}
{"id": "C53", "title": "Debug output determines behaviour", "statement": "Printing a metric with {:?} or {:#?} always succeeds and shows the algorithm and the options set last; two metrics that print the same give the same distances and ranges.", "quantifier": "every history of setters and searches of both metrics, every query and candidate", "why_tests_cant": "quantifies over all histories", "anchors": ["src/metrics/fzf/fzf_v1.rs:Debug for FzfV1", "src/metrics/fzf/fzf_v2.rs:Debug for FzfV2", "src/metrics/fzf/scheme.rs:FzfScheme::from_inner"]}
{"id": "C54", "title": "More conditions narrow, more alternatives widen", "statement": "Appending conditions to a query never makes a candidate match that did not match before; adding an alternative to a condition never makes a matching candidate fail (queries consisting of one inverse fuzzy term excepted, see C26).", "quantifier": "every pair of such queries, candidate, option, both metrics", "why_tests_cant": "metamorphic relation over all queries and candidates", "anchors": ["src/metrics/fzf/fzf.rs:Fzf::distance"]}
{"id": "C55", "title": "Term kinds are ordered by strictness", "statement": "For the same text, a candidate that ^text$ matches is matched by ^text and by text$, one that either of these matches is matched by 'text, and one that 'text matches is matched by text.", "quantifier": "every text, candidate, option, both metrics", "why_tests_cant": "relates four matching routines over all strings", "anchors": ["src/metrics/fzf/fzf.rs:exact_match", "src/metrics/fzf/fzf.rs:prefix_match", "src/metrics/fzf/fzf.rs:suffix_match", "src/metrics/fzf/fzf.rs:equal_match"]}
{"id": "C56", "title": "Extra spaces in a query are irrelevant", "statement": "Adding spaces before, after or between the words of a query changes no result: neither the distance nor the ranges.", "quantifier": "every query string, number of spaces, candidate, option, both metrics", "why_tests_cant": "unbounded whitespace and strings", "anchors": ["src/metrics/fzf/parser.rs:Words", "src/metrics/fzf/parser.rs:Patterns"]}
{"id": "C57", "title": "Concatenated queries intersect and their scores add", "statement": "The query made of two queries separated by a space (the first ending in a term, the second beginning with one) matches exactly what both match, with the sum of their scores (neither being one inverse fuzzy term, see C26).", "quantifier": "every pair of queries, candidate, option, both metrics", "why_tests_cant": "metamorphic relation over all queries and candidates", "anchors": ["src/metrics/fzf/fzf.rs:Fzf::distance", "src/metrics/fzf/parser.rs:FzfParser::parse"]}
{"id": "C58", "title": "The two metrics agree on queries without fuzzy terms", "statement": "If no term of the query is fuzzy, both metrics with the same options give the same distance and the same ranges.", "quantifier": "every such query, candidate, option, history, buffer", "why_tests_cant": "two implementations over all strings", "anchors": ["src/metrics/fzf/fzf_v1.rs:Metric for FzfV1", "src/metrics/fzf/fzf_v2.rs:Metric for FzfV2"]}
{"id": "C59", "title": "The fuzz target never panics", "statement": "For every query and candidate, running both metrics under all combinations of options in turn, with one shared buffer, neither panics nor appends a range that cannot be used to slice the candidate.", "quantifier": "every pair of strings", "why_tests_cant": "this is what fuzzing samples", "anchors": ["fuzz/fuzz_targets/fzf.rs:fuzz_target"]}
{"id": "C60", "title": "Results are independent of Unicode tables and platform where these agree", "statement": "Two versions of the Unicode tables (or two platforms) which agree on which characters of the query are upper case and on the class of each character of the candidate give identical distances and ranges; for ASCII queries and candidates the tables never matter.", "quantifier": "every pair of tables, query, candidate, option, buffer, both metrics", "why_tests_cant": "quantifies over Unicode versions no test machine has", "anchors": ["src/metrics/fzf/scoring.rs:char_class", "src/metrics/fzf/scheme.rs:FzfScheme", "src/metrics/fzf/fzf_v1.rs:FzfV1", "src/metrics/fzf/fzf_v2.rs:FzfV2"]}
{"id": "C61", "title": "With case-insensitive matching the case of the query is irrelevant", "statement": "In Insensitive mode, changing the case of ASCII letters of the query changes neither the distance nor the ranges.", "quantifier": "every query string and case variant of it, candidate, option, both metrics", "why_tests_cant": "metamorphic relation over all strings", "anchors": ["src/utils.rs:case_insensitive_eq", "src/metrics/fzf/parser.rs:FzfParser::parse"]}
{"id": "C62", "title": "When case is ignored the case of the candidate does not affect matching", "statement": "In Insensitive mode, or in Smart mode with a query without upper case letters, changing the case of ASCII letters of the candidate does not change whether it matches.", "quantifier": "every query, candidate and case variant of it, option, both metrics", "why_tests_cant": "metamorphic relation over all strings", "anchors": ["src/utils.rs:case_insensitive_eq", "src/candidate.rs:Candidate"]}
{"id": "C63", "title": "With normalization the accents of the candidate do not affect matching", "statement": "With candidate normalization enabled and a query of characters that are their own normal form, replacing every character of the candidate by its normal form does not change whether it matches.", "quantifier": "every such query, candidate, option, both metrics", "why_tests_cant": "metamorphic relation over all strings", "anchors": ["src/normalize.rs:normalize", "src/utils.rs:normalize_candidate_char"]}
{"id": "C64", "title": "A search sees of a candidate only classes, spaces and agreement", "statement": "Two candidates of the same length whose characters, position by position, have the same class, are both or neither spaces, and agree with the same query characters have the same distance; if the characters also have the same UTF-8 width, the same ranges.", "quantifier": "every query and pair of candidates, option, buffer, both metrics", "why_tests_cant": "relational property over all pairs of strings", "anchors": ["src/metrics/fzf/scoring.rs:compute_bonus", "src/metrics/fzf/fzf.rs:Fzf::distance"]}
{"id": "C65", "title": "Overflow checks never fire", "statement": "In a build with overflow checks, both searches of both metrics return, and return the same distance and ranges as with unbounded arithmetic, when query and candidate have fewer than 2^28 characters each. (A prefix term of 2^32 characters on a candidate of 2^32 characters does make a check fire.)", "quantifier": "every query and candidate of fewer than 2^28 characters, history of the parser and the metric, options, buffer, both metrics", "why_tests_cant": "the extreme scores and counters need strings of many millions of characters, and every arithmetic operation on every input must be in range", "anchors": ["src/metrics/fzf/fzf.rs:compute_score", "src/metrics/fzf/fzf_v2.rs:score_first_row", "src/metrics/fzf/fzf_v2.rs:score_remaining_rows", "src/metrics/fzf/slab.rs:MatrixSlab::alloc"]}
{"id": "C66", "title": "A query stays valid as long as it may be used", "statement": "A query is a set of references into its parser's buffers, obtained with unsafe lifetime casts. As long as the borrow checker lets a query be used (until its parser parses again or is dropped), it reads as what was parsed, whatever other parsers do, whether or not buffers move when they grow, and even for clones of parsers that have been dropped; no call of a parser reads through an invalid reference.", "quantifier": "every program that creates, clones, drops and uses any number of parsers in any order, every string, every choice of the allocator to move a growing buffer", "why_tests_cant": "a dangling read usually returns the old bytes, so a test passes; it must hold for every order of calls and every reallocation", "anchors": ["src/metrics/fzf/parser.rs:FzfParser::parse", "src/metrics/fzf/parser.rs:FzfParser::parse_not_extended", "src/metrics/fzf/parser.rs:Patterns::next", "src/metrics/fzf/parser.rs:Words::next", "src/metrics/fzf/query.rs:FzfQuery"]}
{"id": "C67", "title": "The best possible score, and which candidates reach it", "statement": "For a query of one term, no candidate has a score above a bound which depends on the scoring scheme and the number of characters of the term only: (16 + B) * n + B, where B is the most points a position can have. A candidate which starts with the text of the term reaches it (both metrics, every kind of term for which this is a match) and has exactly this occurrence highlighted, so no candidate is ranked before it; FzfV2 reaches it whenever the text occurs, contiguously, at the start of a word, and highlights the first such occurrence.", "quantifier": "every term, candidate, option, history of parser and metric, buffer, both metrics", "why_tests_cant": "a bound over all candidates, and an optimum which must be found wherever it is among all alignments", "anchors": ["src/metrics/fzf/fzf.rs:compute_score", "src/metrics/fzf/fzf_v2.rs:score_remaining_rows", "src/metrics/fzf/fzf_v2.rs:matched_ranges", "src/metrics/fzf/scoring.rs:compute_bonus"]}
{"id": "C68", "title": "Text around a candidate in which no match can start or end is irrelevant", "statement": "Text put before a candidate none of whose characters agrees with the first character of a term of the query, and text put after it none of whose characters agrees with the last character of a term, changes nothing: the distance is the same and the ranges move by the byte length of the text before. (For anchored terms the text must be spaces; the text before must end in a character that counts like the start of the candidate, e.g. a space, or a slash for paths.) In particular leading and trailing spaces do not matter to queries none of whose terms starts or ends with a space.", "quantifier": "every query, candidate, text before and after, option, history, buffer, both metrics", "why_tests_cant": "relational property over all pairs of strings; FzfV2's table depends on where the first and last possible matches are", "anchors": ["src/metrics/fzf/fzf.rs:Fzf::distance", "src/metrics/fzf/fzf_v2.rs:score_remaining_rows", "src/metrics/fzf/fzf_v2.rs:matches", "src/metrics/fzf/fzf_v1.rs:forward_pass", "src/matched_ranges.rs:MatchedRanges::insert"]}
{"id": "C69", "title": "Appending text does not make a candidate worse", "statement": "FzfV2's distance between a fuzzy query and a candidate does not get worse when text is appended to the candidate (all the alignments it had are still there). False: appending can cost points, because the price of a gap depends on whether a later character agrees. True for one-character queries, and for texts in which no query character but the last one occurs. In general no more than 12 points per query character, less 22, are lost.", "quantifier": "every fuzzy query, candidate, appended text, option, history", "why_tests_cant": "relational property over all pairs of strings; false, with counterexamples that need a particular shape", "anchors": ["src/metrics/fzf/fzf_v2.rs:FzfV2 docs", "src/metrics/fzf/fzf_v2.rs:score_first_row", "src/metrics/fzf/fzf_v2.rs:score_remaining_rows"]}
{"id": "C70", "title": "FzfV1 is linear in the candidate", "statement": "The distance between a fuzzy query and a candidate takes FzfV1 at most 8 loop iterations per byte of the candidate and 2 more, for matches and non-matches alike, whatever the length of the query (documented as O(len(candidate))).", "quantifier": "every text, candidate, option, history of the metric", "why_tests_cant": "a bound on the running time for all inputs; a benchmark only sees the inputs it has", "anchors": ["src/metrics/fzf/fzf_v1.rs:FzfV1 docs", "src/metrics/fzf/fzf_v1.rs:forward_pass", "src/metrics/fzf/fzf_v1.rs:backward_pass", "src/metrics/fzf/fzf.rs:compute_score"]}
{"id": "C71", "title": "FzfV2 is linear in the candidate times the query", "statement": "The distance between a query and a candidate takes FzfV2 a number of loop iterations of at most (15 * len(candidate) + 7) * len(query), for queries of any shape (documented as O(len(query) * len(candidate))).", "quantifier": "every query, candidate, option, history of the parser and the metric", "why_tests_cant": "a bound on the running time for all inputs", "anchors": ["src/metrics/fzf/fzf_v2.rs:FzfV2 docs", "src/metrics/fzf/fzf_v2.rs:score", "src/metrics/fzf/fzf_v2.rs:score_first_row", "src/metrics/fzf/fzf_v2.rs:score_remaining_rows", "src/metrics/fzf/slab.rs:MatrixSlab::alloc"]}
{"id": "C72", "title": "FzfV2 filters out non-matches in linear time", "statement": "When a candidate does not match a fuzzy query, FzfV2 needs at most 5 loop iterations per byte of the candidate and 1 more; queries of more than 128 characters add their length, but only the first time the metric sees them (documented as O(len(candidate))).", "quantifier": "every text, candidate which does not match, option, history, every sequence of calls between two searches", "why_tests_cant": "a bound on the running time for all inputs and all histories of the reused buffers", "anchors": ["src/metrics/fzf/fzf_v2.rs:FzfV2 docs", "src/metrics/fzf/fzf_v2.rs:matches", "src/metrics/fzf/slab.rs:MatchedIndicesSlab::alloc"]}
{"id": "C73", "title": "Linear time for every query", "statement": "The distance to a candidate takes a number of loop iterations bounded by a constant times the length of the candidate, for each term of the query. False for both metrics, even for candidates which do not match: an exact term is compared at every position, so its length counts too. True for FzfV1 when the characters of the exact terms are counted.", "quantifier": "every query, candidate, option, history of the parser and the metric", "why_tests_cant": "a bound on the running time for all inputs; false, but only visibly so on long repetitive inputs", "anchors": ["src/metrics/fzf/fzf_v1.rs:FzfV1 docs", "src/metrics/fzf/fzf.rs:exact_match"]}
{"id": "C74", "title": "A metric reuses its memory", "statement": "A search which a metric has done before, with the same options and through either function, does not grow any of the metric's buffers, whatever searches and setter calls came in between. Buffers never shrink, and their lengths are bounded by the longest candidate and the longest query given so far (candidate times query for the two tables of FzfV2), however many searches are done.", "quantifier": "every query, candidate, option, every history before and every sequence of calls between two searches", "why_tests_cant": "a statement about all histories of the reused buffers", "anchors": ["src/metrics/fzf/slab.rs:BonusSlab::alloc", "src/metrics/fzf/slab.rs:CandidateSlab::alloc", "src/metrics/fzf/slab.rs:MatchedIndicesSlab::alloc", "src/metrics/fzf/slab.rs:MatrixSlab::alloc", "src/metrics/fzf/fzf_v2.rs:FzfV2"]}
{"id": "C75", "title": "A parser reuses its memory", "statement": "After parse each buffer of the parser is as long as before or as long as the query needs (its bytes for the characters, half of that and one for terms and for conditions), whichever is more; parse_not_extended never grows a buffer. A query which was parsed before grows nothing, whatever was parsed in between.", "quantifier": "every parser state, query and sequence of calls", "why_tests_cant": "a statement about all histories of the reused buffers", "anchors": ["src/metrics/fzf/parser.rs:FzfParser::parse", "src/metrics/fzf/parser.rs:FzfParser::parse_not_extended"]}
{"id": "C76", "title": "FzfV2's score is earned by an alignment", "statement": "The score which FzfV2 gives a fuzzy term is that of an alignment of the term, or of a start of it, with the candidate: that of FzfV1's formula, except that a gap costs one to three points per skipped character; and the highlighted characters are an alignment of the same start of the term which ends at the same character.", "quantifier": "every non-empty fuzzy term, candidate, option and history of the metric", "why_tests_cant": "the table has as many cells as query times candidate characters and the claim is about the best of them for all inputs", "anchors": ["src/metrics/fzf/fzf_v2.rs:score", "src/metrics/fzf/fzf_v2.rs:score_remaining_rows", "src/metrics/fzf/fzf_v2.rs:matched_ranges"]}
{"id": "C77", "title": "The two metrics agree when there is one way to match", "statement": "If a fuzzy term can be aligned with the candidate in one way only, so can its starts up to the end of that alignment, and no two neighbouring positions are more than 14 apart, then FzfV1 and FzfV2 return the same distance, that of the scoring formula for that alignment, and the same ranges, those of its characters.", "quantifier": "every term, candidate, option and every two histories of the metrics", "why_tests_cant": "relates two different algorithms on all inputs", "anchors": ["src/metrics/fzf/fzf_v1.rs:FzfV1", "src/metrics/fzf/fzf_v2.rs:FzfV2"]}
{"id": "C78", "title": "Queries that print the same give the same results", "statement": "If two query strings are parsed and the queries print the same with {:?}, they give the same results; at least they consist of the same texts, grouped in the same way, and conversely.", "quantifier": "every two query strings, every state of the parsers and every table of printable characters", "why_tests_cant": "the printed text has to be shown to be unambiguous for all texts, including those with quotes, backslashes and separators in them", "anchors": ["src/metrics/fzf/query.rs:Debug for FzfQuery", "src/metrics/fzf/query.rs:Debug for Condition", "src/metrics/fzf/parser.rs:FzfParser::parse"]}
{"id": "C79", "title": "Parsing takes time linear in the query", "statement": "The number of loop iterations of parse is at most 8 times the number of bytes of the query plus a constant, whatever the query consists of and whatever was parsed before; 6 times once a query as long was parsed by the same parser. parse_not_extended takes at most 4 iterations for each character.", "quantifier": "every query string, every state of the parser and every history of calls", "why_tests_cant": "a quadratic case needs a particular query and a large size to show; the bound is for all of them", "anchors": ["src/metrics/fzf/parser.rs:FzfParser::parse", "src/metrics/fzf/parser.rs:FzfParser::parse_not_extended", "src/metrics/fzf/parser.rs:Words", "src/metrics/fzf/query.rs:Pattern::parse"]}
{"id": "C80", "title": "Asking for the matched ranges costs little more", "statement": "distance_and_ranges takes at most (4 times the bytes of the candidate, plus 2) times the number of characters in the terms of the query more loop iterations than distance does; with FzfV1 and a fuzzy query of k characters at most the bytes of the candidate plus k (log2 k + 1) more, the logarithm rounded up. In all it is at most 9 times the bytes of the candidate plus 2 + k (log2 k + 1) for FzfV1 and a fuzzy query, and linear in the candidate times the query for both metrics and all queries. None of this depends on how many ranges the caller's buffer already holds.", "quantifier": "every query, every candidate, every content of the buffer, all options and every history of the metric", "why_tests_cant": "keeping the ranges sorted by inserting them in a vector looks quadratic, and how far it is depends on the order in which ranges are found and on how they merge; the bound is for all inputs", "anchors": ["src/metrics/fzf/fzf_v1.rs:FzfV1::distance_and_ranges", "src/metrics/fzf/fzf_v2.rs:FzfV2::distance_and_ranges", "src/matched_ranges.rs:MatchedRanges::insert", "src/metrics/fzf/fzf_v2.rs:matched_ranges", "src/metrics/fzf/fzf.rs:compute_score"]}
{"id": "C81", "title": "Typing on narrows the results", "statement": "A candidate which matches a query with one more character typed at its end matched the query before, so a list filtered by the shorter query can be filtered further, with the same result as starting again with all candidates. This holds for queries without ! and |, unless the query ended in $ or a space is typed after a backslash; and with ! and | elsewhere if the last word stands after a term and is not negated. In a negated last word, typing on widens the results. For parse_not_extended it holds without exception, and for leaving out any characters; and in general replacing a term by one which asks for less keeps the matches.", "quantifier": "every query string, typed character, candidate, list of candidates, both metrics, all options and every history of parser and metric", "why_tests_cant": "the kind of a term, the case sensitivity and the grouping are decided by the whole query, so one more character can change all of them; that matches are never gained has to be shown for all queries and candidates", "anchors": ["src/metrics/fzf/parser.rs:FzfParser::parse", "src/metrics/fzf/parser.rs:FzfParser::parse_not_extended", "src/metrics/fzf/query.rs:Pattern::parse", "src/metrics/fzf/fzf_v1.rs:FzfV1::distance", "src/metrics/fzf/fzf_v2.rs:FzfV2::distance"]}
{"id": "C82", "title": "A candidate equal to the query matches as a whole", "statement": "A candidate whose characters agree with those of the query one by one (in particular the text of the query itself) matches, whatever the kind of the term; the whole candidate is the one highlighted range, and the score is that of this alignment, the same for both metrics.", "quantifier": "every text, every kind of term, every candidate which agrees with it, both metrics, all options and every history", "why_tests_cant": "the table of FzfV2 holds other alignments of any shape, and that none of them wins has to be shown for all texts", "anchors": ["src/metrics/fzf/fzf_v1.rs:FzfV1::distance_and_ranges", "src/metrics/fzf/fzf_v2.rs:FzfV2::distance_and_ranges", "src/metrics/fzf/fzf_v2.rs:score", "src/metrics/fzf/fzf.rs:exact_match", "src/metrics/fzf/fzf.rs:compute_score", "src/metrics/fzf/scheme.rs:Scheme"]}
{"id": "C83", "title": "A candidate equal to the query is ranked first", "statement": "For a query of one term, no candidate has a smaller distance than the text of the term itself.", "quantifier": "every text, every kind of term, every other candidate, both metrics, all options and every history", "why_tests_cant": "the other candidate is arbitrary", "anchors": ["src/metrics/fzf/fzf_v1.rs:FzfV1::distance_and_ranges", "src/metrics/fzf/fzf_v2.rs:FzfV2::distance_and_ranges", "src/metrics/fzf/fzf_v2.rs:score", "src/metrics/fzf/fzf.rs:exact_match", "src/metrics/fzf/fzf.rs:compute_score", "src/metrics/fzf/scheme.rs:Scheme"]}
{"id": "C84", "title": "A search reads memory which is still there", "statement": "The characters of a non-ASCII candidate are copied to a buffer of the metric and read through a reference whose lifetime is extended by an unsafe cast. In every program, each search with a query that may still be used reads only buffers that are allocated and hold what was put there, even if the metric's buffer moves when it grows, and its result is that of a fresh metric with the same options; no search, clone, drop or setter of a metric disturbs a query or another metric.", "quantifier": "every program that creates, clones, drops and uses any number of parsers and metrics in any order, every candidate, buffer and query, every choice of the allocator to move a growing buffer", "why_tests_cant": "a read through a dangling reference usually returns the old characters; it must hold for every order of calls and every reallocation", "anchors": ["src/metrics/fzf/fzf_v1.rs:FzfV1::alloc_chars", "src/metrics/fzf/fzf_v2.rs:FzfV2::alloc_chars", "src/metrics/fzf/slab.rs:CandidateSlab::alloc", "src/metrics/fzf/fzf.rs:Fzf::distance", "src/candidate.rs:Candidate"]}
{"id": "C85", "title": "Which queries can be written", "statement": "A query of conditions, alternatives and terms of any kind can be written as a string exactly if its conditions are not empty, its texts are not empty and do not begin or end with characters that would be read as sigils of another kind of term, and no text but the last ends in a backslash that would escape the following space; it is then parsed back to just this query.", "quantifier": "every list of conditions, every term and text, every query string, every history of the parser", "why_tests_cant": "it is a statement about all strings: that none of them is parsed to a query outside the class, and that every query in the class is reached", "anchors": ["src/metrics/fzf/parser.rs:FzfParser::parse", "src/metrics/fzf/parser.rs:Words::next", "src/metrics/fzf/query.rs:Pattern::parse"]}
{"id": "C86", "title": "Printing a query does not emit control characters", "statement": "Whatever characters a query contains, its {:?} text is a single line in which NUL, tab, line feed, carriage return and unprintable characters are escaped; {:#?} prints the same field on a line of its own, so the two forms can be compared in place of each other.", "quantifier": "every query, every table of printable characters", "why_tests_cant": "every character of every text has to be escaped or harmless", "anchors": ["src/metrics/fzf/query.rs:Debug for FzfQuery", "src/metrics/fzf/query.rs:Debug for Condition"]}
{"id": "C87", "title": "The unsafe code keeps the rules on aliasing", "statement": "No call makes an access to memory that the aliasing rules of Stacked Borrows forbid: the library's references whose lifetimes are changed by unsafe code are never used after what they point to has been written, moved or freed through another path, and queries in use and searches with them give what they would give without any sharing of memory.", "quantifier": "every program that creates, clones, drops, configures and uses any number of parsers and metrics in any order, every query and candidate, every way in which growing buffers are reallocated", "why_tests_cant": "whether a write through one pointer invalidates another depends on the whole history of the buffers; tests (even under Miri) see single histories and the allocator they run with", "anchors": ["src/metrics/fzf/parser.rs:FzfParser::parse", "src/metrics/fzf/parser.rs:Patterns::next", "src/metrics/fzf/parser.rs:Words::next", "src/metrics/fzf/fzf_v1.rs:alloc_chars", "src/metrics/fzf/fzf_v2.rs:alloc_chars", "src/metrics/fzf/slab.rs:CandidateSlab::alloc"]}
{"id": "C88", "title": "A parser whose panic was caught still works", "statement": "If parse_not_extended panics because the string is too long and the caller catches the panic, the parser is as usable as before: it parses every string as a new parser does, parse_not_extended accepts the same strings as before, queries of other parsers and searches are unaffected, and no later access to memory is invalid.", "quantifier": "every parser whatever strings it was given before, every string that makes it panic, every later string, every program around it with any number of parsers and metrics", "why_tests_cant": "what is left in the buffer depends on the history and on the string at which the panic happened, and the later calls range over all strings", "anchors": ["src/metrics/fzf/parser.rs:FzfParser::parse_not_extended", "src/metrics/fzf/parser.rs:FzfParser::parse"]}
{"id": "C89", "title": "Threads which search at the same time get the results they would get alone", "statement": "If several threads search at the same time, each with a metric of its own and all with the same parsed queries, then whatever the order in which their accesses to memory happen, no search panics or makes an access the aliasing rules forbid, every search ends, and it returns the distance and the ranges which it would return if it were the only one. Afterwards the program can go on with the metrics and the queries.", "quantifier": "every schedule of the threads' steps, every number of threads, every list of searches of each, all queries, candidates and options, whatever the program did before, including earlier threads", "why_tests_cant": "the number of schedules grows exponentially with the steps, and a test sees the few which the machine happens to choose", "anchors": ["src/metric.rs:Metric::distance", "src/metric.rs:Metric::distance_and_ranges", "src/metrics/fzf/fzf.rs:Fzf::distance", "src/metrics/fzf/slab.rs:CandidateSlab::alloc", "src/metrics/fzf/query.rs:FzfQuery"]}
{"id": "C90", "title": "A search only touches its metric's memory and only reads its query's", "statement": "A search accesses no memory of parsers and metrics other than the buffer of its own metric and the buffers of the parser its query came from, and it never writes to the latter, not even to restore what was there. Parsing accesses the buffers of its own parser only. So there are no data races between searches on different threads, or between searches and parsing with other parsers.", "quantifier": "every program with any number of parsers and metrics, at any point, every query in use, every candidate, every string to parse", "why_tests_cant": "an access which is made on some path only, or which restores what it changed, has no effect that a test with one thread could see", "anchors": ["src/metrics/fzf/fzf.rs:Fzf::distance", "src/metrics/fzf/slab.rs:CandidateSlab::alloc", "src/metrics/fzf/parser.rs:FzfParser::parse", "src/metrics/fzf/parser.rs:FzfParser::parse_not_extended"]}
{"id": "C91", "title": "A query means what its formula means", "statement": "Read a query as a formula: terms are atoms, ! is negation, | is disjunction, and conditions are conjoined. If the formula of one query implies that of another, also using that a narrower term implies a wider one, then whatever the first matches is matched by the second; queries with the same truth table match the same candidates. So conditions and alternatives may be reordered, repeated, distributed or absorbed. An alternative which asks for more than an alternative to its left can be left out without any change of distances and ranges.", "quantifier": "all pairs of queries (except a single inverse fuzzy term, see C26), all candidates, options and both metrics", "why_tests_cant": "there are infinitely many equivalent queries, and each equivalence is about all candidates", "anchors": ["src/metrics/fzf/parser.rs:FzfParser::parse", "src/metrics/fzf/fzf.rs:Fzf::distance", "src/metrics/fzf/query.rs:Condition", "src/metrics/fzf/query.rs:Pattern::score"]}
{"id": "C92", "title": "Matching has no direction", "statement": "If the candidate is reversed, the texts of the terms of the query are reversed, and prefix terms become suffix terms and vice versa, then the candidate matches if and only if it did before.", "quantifier": "all queries which can be written, all candidates, options and both metrics", "why_tests_cant": "relates two runs on arbitrary inputs; the code for prefixes and suffixes, and the forward and backward scans, are separate", "anchors": ["src/metrics/fzf/parser.rs:FzfParser::parse", "src/metrics/fzf/fzf.rs:Fzf::distance", "src/metrics/fzf/query.rs:Condition", "src/metrics/fzf/query.rs:Pattern::score"]}
{"id": "C93", "title": "A candidate shorter than the query does not match", "statement": "If a candidate matches then every condition of the query has an alternative which is inverse or whose text has at most as many characters as the candidate.", "quantifier": "all queries, candidates, options and both metrics", "why_tests_cant": "ranges over all inputs; byte lengths and character lengths differ", "anchors": ["src/metrics/fzf/parser.rs:FzfParser::parse", "src/metrics/fzf/fzf.rs:Fzf::distance", "src/metrics/fzf/query.rs:Condition", "src/metrics/fzf/query.rs:Pattern::score"]}
{"id": "C94", "title": "A better placed match is not ranked worse", "statement": "Take two candidates of the same length in which the same query characters are found at the same positions. If at each of these positions the bonus (start of a word, capital in the middle of a word, and so on) of the second candidate is not less than that of the first, then the second candidate is not ranked behind the first. (False for FzfV2 with queries of three or more characters, where up to 10 points for each character but the first two can be lost.)", "quantifier": "all fuzzy queries, pairs of candidates, options and both metrics", "why_tests_cant": "relates the results of two runs on arbitrary candidates; FzfV2 breaks it only on rare inputs", "anchors": ["src/metrics/fzf/fzf_v1.rs:FzfV1", "src/metrics/fzf/fzf_v2.rs:FzfV2", "src/metrics/fzf/scheme.rs:Scheme", "src/metrics/fzf/scoring.rs:compute_bonus"]}
{"id": "C95", "title": "Pulling a match apart does not make it better", "statement": "If text which no character of the query matches is inserted somewhere in a candidate, and the character behind it does not get a higher bonus by this, then the candidate is not ranked before the one without the inserted text.", "quantifier": "all fuzzy queries, candidates, places and inserted texts, options and both metrics", "why_tests_cant": "relates the results of two runs on arbitrary candidates; the effect shows only when a capital letter continues a run of matched characters", "anchors": ["src/metrics/fzf/fzf_v1.rs:FzfV1", "src/metrics/fzf/fzf_v2.rs:FzfV2", "src/metrics/fzf/scoring.rs:compute_bonus"]}
{"id": "C96", "title": "Candidates do not affect the ranking of others", "statement": "Ranking some of the candidates gives the ranking of all of them without the others: adding a candidate inserts it and keeps the order and the distances of the rest. So a list may be ranked in parts, even by different metrics with the same options, and the rankings merged.", "quantifier": "all queries, lists of candidates, subsets and partitions of them, options, both metrics and all histories of the metrics", "why_tests_cant": "the metric is used for one candidate after another and keeps its buffers between the calls; that no candidate leaves a trace must hold for every list and every way to split it", "anchors": ["src/lib.rs (example)", "examples/cities.rs", "src/metrics/fzf/fzf_v1.rs:FzfV1", "src/metrics/fzf/fzf_v2.rs:FzfV2", "src/metrics/fzf/distance.rs:FzfDistance"]}
{"id": "C97", "title": "Texts without special characters mean the same to both parsers", "statement": "For a text which does not begin with !, ' or ^, does not end with $ and is not a lone |, searching with parse_not_extended gives the same distance and ranges as searching with parse for the text with its spaces escaped by backslashes.", "quantifier": "all such texts, candidates, options, both metrics and all histories", "why_tests_cant": "the two entry points build queries of different shapes which take different paths through both metrics; their agreement must hold for every text", "anchors": ["src/metrics/fzf/parser.rs:FzfParser::parse", "src/metrics/fzf/parser.rs:FzfParser::parse_not_extended", "src/metrics/fzf/fzf_v1.rs:FzfV1", "src/metrics/fzf/fzf_v2.rs:FzfV2"]}
{"id": "C98", "title": "Short candidates and queries need no memory beyond that of a new metric", "statement": "FzfV1::new allocates 512 bytes and FzfV2::new around 5kb, as documented. As long as the candidates have at most 128 bytes and, for FzfV2, the queries at most 128 characters and the product of both lengths is at most 256, no search allocates anything more; a parser given strings of at most 64 bytes allocates nothing after new.", "quantifier": "all histories of calls with such candidates and queries, both metrics, all options; usize of any size", "why_tests_cant": "that a buffer never grows must hold for every sequence of searches", "anchors": ["src/metrics/fzf/fzf_v1.rs:FzfV1::new", "src/metrics/fzf/fzf_v2.rs:FzfV2::new", "src/metrics/fzf/slab.rs", "src/metrics/fzf/parser.rs:FzfParser::new"]}
{"id": "C99", "title": "A display which cuts the candidate at the ranges shows it unchanged and highlights what matched", "statement": "The usual loop which shows a candidate piece by piece, plain up to the start of each range of a search (with an empty buffer) and highlighted inside it, never panics; its pieces are whole characters of UTF-8 and together are the candidate; no highlighted piece is empty. For a fuzzy query FzfV1's highlighted pieces together are the query up to case and accents (FzfV2's too if the score is high); an exact, prefix, suffix or equality term is one highlighted piece.", "quantifier": "all queries, candidates, options and histories of the metric", "why_tests_cant": "it depends on the order of the ranges and on the byte lengths of all characters", "anchors": ["src/metric.rs:Metric::distance_and_ranges", "src/candidate.rs:Candidate::to_byte_offset", "src/candidate.rs:Candidate::to_byte_range", "src/matched_ranges.rs:MatchedRanges::insert"]}
{"id": "C100", "title": "With normalization an accented letter is found by the letter under its accents", "statement": "If normalization of candidates is on, then a query of one ASCII letter finds every candidate which contains a character that Unicode decomposes into this letter and accents; and a query of one ASCII letter finds no character which is not, by its name in Unicode, a variant of this letter.", "quantifier": "all letters, all characters with a canonical decomposition, all surrounding texts, options and histories of the metric", "why_tests_cant": "there are hundreds of characters in the tables and hundreds which are not in them; a test looks at some of them", "anchors": ["src/normalize.rs:normalize", "src/normalize.rs:is_normalized", "src/metric.rs:Metric::distance", "src/metric.rs:Metric (set_candidate_normalization in its documentation)"]}
{"id": "C101", "title": "Composed and decomposed accents are found by the same queries", "statement": "If a candidate is rewritten so that accented letters are spelled as the letter followed by its accents (Unicode's canonical decomposition, used for file names on some systems), then with normalization the same queries find it. False for exact terms and for letters outside the tables of the code; true for fuzzy terms of ASCII characters, negated or not, if the rewritten letters are in the tables; and without any condition on letters and options no such query stops finding a candidate because letters are decomposed.", "quantifier": "all candidates, all ways to decompose some of their letters, all queries, options and histories of the metric", "why_tests_cant": "it ranges over all candidates and all combinations of letters in them", "anchors": ["src/normalize.rs:normalize", "src/utils.rs:char_eq", "src/metric.rs:Metric::distance"]}
{"id": "C102", "title": "What a fuzzy search costs", "statement": "The number of loop iterations of distance for a fuzzy query which matches is given by a formula: for FzfV1 from the length of the query, the size of the candidate, and where the first window starts and ends; for FzfV2 from the positions of the leftmost match and the last occurrence of the last query character; for queries of one character from the number of characters which agree. Vectors are grown, and that counts, only if those of the metric are too short. An empty query costs nothing, any other query at least reads the candidate. So the bounds of C70 to C72 are about the whole work, not about a part of it.", "quantifier": "all candidates, queries, options and histories of the metric", "why_tests_cant": "it is an equation for all candidates and queries", "anchors": ["src/metrics/fzf/fzf_v1.rs:FzfV1::fuzzy", "src/metrics/fzf/fzf_v2.rs:FzfV2::fuzzy", "src/metrics/fzf/fzf.rs:compute_score", "src/metrics/fzf/slab.rs:Slab"]}
{"id": "C103", "title": "A search highlights no more than the query has characters", "statement": "Whether the candidate matches or not, distance_and_ranges appends at most as many ranges, and these touch at most as many characters of the candidate, as the query text has characters, for both parsers and both metrics. More precisely one alternative of each condition counts, inverse terms count nothing, a fuzzy term adds at most one range per character, any other term one range with as many characters as its text.", "quantifier": "all queries, candidates, buffers, options and histories", "why_tests_cant": "the ranges of several terms are merged in ways which depend on all positions; the bound must hold for every combination", "anchors": ["src/matched_ranges.rs:MatchedRanges::insert", "src/metrics/fzf/fzf_v2.rs:matched_ranges", "src/metrics/fzf/fzf.rs:Fzf::score", "src/metric.rs:Metric::distance_and_ranges"]}
{"id": "C104", "title": "The scoring scheme affects the order of the matches, not which candidates match", "statement": "Two metrics, of the same kind or not, whose case sensitivity and normalization options are the same match the same candidates, for every query of either parser and whatever their scoring schemes; a ranking contains the same candidates. FzfV1 highlights the same characters under every scheme, except where an exact term chooses among several occurrences; prefix, suffix and equality terms are highlighted in the same place by both metrics under every scheme.", "quantifier": "all queries, candidates, options and histories", "why_tests_cant": "it compares the results of pairs of metrics on every candidate", "anchors": ["src/metrics/fzf/scheme.rs:FzfScheme", "src/metrics/fzf/fzf_v1.rs:FzfV1::set_scoring_scheme", "src/metrics/fzf/fzf_v2.rs:FzfV2::set_scoring_scheme", "src/metrics/fzf/fzf.rs:exact_match"]}
{"id": "C105", "title": "How many steps parsing takes", "statement": "The number of steps FzfParser::parse takes, down to the last one, depends only on how long the parser's buffers have become and on the text: one for each byte and for each character which does not separate words, a fixed number for each word, condition and trailing space, three searches over the text of each term, and what making the buffers longer costs. parse_not_extended takes one step for each character and the three searches. What was parsed before changes nothing beyond the buffers' lengths.", "quantifier": "all parsers after any history and all texts", "why_tests_cant": "it is an exact count for every text and every state of the parser; tests measure a few of them", "anchors": ["src/metrics/fzf/parser.rs:FzfParser::parse", "src/metrics/fzf/parser.rs:FzfParser::parse_not_extended", "src/metrics/fzf/parser.rs:Patterns::next", "src/metrics/fzf/parser.rs:Words::next", "src/metrics/fzf/query.rs:Pattern::parse"]}
{"id": "C106", "title": "What asking for the ranges costs", "statement": "distance_and_ranges takes at least as many steps as distance on the same arguments. For a fuzzy query which does not match it takes exactly as many. For one which matches, the difference is exact: with FzfV1, locating the start of the window and one binary search per highlighted character among the ranges before it; with FzfV2, locating the start of the table and each highlighted character, one step per column of the way back, and for each highlighted character a binary search among the ranges behind it and moving them if it is not next to them. For a query of one condition whose terms are not fuzzy the difference is nothing if no range is added, and otherwise locating the end of the range. A further condition of this kind adds what it costs alone, a binary search among the ranges of the conditions before it, and moving those behind its range unless it is joined to one of them. A condition of any kind which fails adds nothing, nor do those behind it. In an ASCII candidate locating costs nothing. The ranges which were in the buffer before the call do not change the number of steps.", "quantifier": "all metrics after any history, all queries (for the exact counts: fuzzy queries, and conjunctions whose further conditions are not fuzzy or fail), all candidates and all buffers", "why_tests_cant": "it is an exact count for every query, candidate, buffer and history; tests measure a few of them", "anchors": ["src/metrics/fzf/fzf.rs:compute_score", "src/metrics/fzf/fzf_v1.rs:FzfV1", "src/metrics/fzf/fzf_v2.rs:matched_ranges", "src/matched_ranges.rs:MatchedRanges::insert", "src/candidate.rs:Candidate::to_byte_offset", "src/metrics/fzf/fzf.rs:exact_match"]}
{"id": "C107", "title": "What the terms of a query cost", "statement": "A query costs reading the candidate once plus, for each condition up to the first which fails, one step and for each of its terms up to the first which holds, one step and the cost of that term. An exact, prefix, suffix or equality term costs an exact number of steps given by the text, the candidate and which of their characters agree: the characters compared up to the first difference at each place that is tried, the blanks skipped, and the length of the text if it is found. A fuzzy term costs as much in a query with other terms as on its own, as long as no buffer has to grow. A fuzzy query which does not match costs one look at the candidate and one step for each character which is found, and stops there.", "quantifier": "all metrics after any history, all query strings (without an equality term for blanks only), all candidates", "why_tests_cant": "it is an exact count for every query, candidate and history; tests measure a few of them", "anchors": ["src/metrics/fzf/fzf.rs:exact_match", "src/metrics/fzf/fzf.rs:prefix_match", "src/metrics/fzf/fzf.rs:suffix_match", "src/metrics/fzf/fzf.rs:equal_match", "src/metrics/fzf/fzf_v1.rs:forward_pass", "src/metrics/fzf/fzf_v2.rs:matches"]}
{"id": "C108", "title": "Threads which parse and search at the same time get the results they would get alone", "statement": "If several threads parse queries and search at the same time, each with a parser and a metric of its own, whose options it may set and which it may replace by new ones, and also search for queries which the program parsed before with other parsers, then whatever the order in which their steps happen, no call panics or makes an access the aliasing rules forbid, every thread ends, and each search returns the distance and the ranges which it would return with a new parser and a new metric with these options in a program without threads. Afterwards the program can go on with the metrics and parsers, and with the last query of each thread.", "quantifier": "every schedule of the threads' steps, every number of threads, every sequence of calls of each, all strings (for parse_not_extended up to 64 characters), candidates and options, whatever the program did before, including earlier threads", "why_tests_cant": "the number of schedules grows exponentially with the steps, and a test sees the few which the machine happens to choose", "anchors": ["src/metrics/fzf/parser.rs:FzfParser::parse", "src/metrics/fzf/parser.rs:FzfParser::parse_not_extended", "src/metric.rs:Metric::distance", "src/metric.rs:Metric::distance_and_ranges", "src/metrics/fzf/query.rs:FzfQuery"]}
{"id": "C109", "title": "Nothing leaks, and nothing is freed twice", "statement": "At any time the buffers which parsers and the metrics' slabs of characters have allocated and not freed are exactly those of the parsers and metrics which exist, three for each parser and one for each metric, no matter how often they have been cloned, parsed with, searched with and dropped, whether their buffers have grown in place or moved, after panics of parse_not_extended which the program caught, and between any two steps of threads which parse and search. When all parsers and metrics have been dropped nothing is allocated.", "quantifier": "every program which creates, clones, drops and uses any number of parsers and metrics, every string, candidate and option, every way in which vectors grow, every number of threads and every schedule of their steps", "why_tests_cant": "a test runs one program, and a leak or a second free may need a certain order of clones, growth, panics and drops", "anchors": ["src/metrics/fzf/parser.rs:FzfParser", "src/metrics/fzf/parser.rs:FzfParser::parse", "src/metrics/fzf/parser.rs:FzfParser::parse_not_extended", "src/metrics/fzf/fzf_v1.rs:FzfV1", "src/metrics/fzf/fzf_v2.rs:FzfV2", "src/metrics/fzf/slab.rs:CandidateSlab::alloc"]}
