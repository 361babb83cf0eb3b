(** What a user of the crate can obtain: the parsers, queries and metrics which are reached from
    fresh ones by any sequence of calls, and the usual pairs of calls "parse, then
    match". Nothing here is a model of further code. *)
From Verif Require Import Prelude Chars Utils Candidate Query Parser Scoring Fzf FzfV1 FzfV2 Api Slab.
From Verif Require Spec.

(** The options of a metric as the user sees them: the arguments of the last setter calls. *)
Record options := Options {
  opt_case : case_sensitivity;
  opt_norm : bool;
  opt_scheme : fzf_scheme
}.

(** The documented defaults, case_sensitivity.rs:19-21, scheme.rs:14-16, fzf_v1.rs:62-66. *)
Definition default_options : options := Options Smart false SchemeDefault.

Definition with_case (o : options) (cs : case_sensitivity) : options :=
  Options cs (opt_norm o) (opt_scheme o).
Definition with_norm (o : options) (b : bool) : options :=
  Options (opt_case o) b (opt_scheme o).
Definition with_scheme (o : options) (s : fzf_scheme) : options :=
  Options (opt_case o) (opt_norm o) s.

Section WithUnicode.
Context {UC : unicode}.

(** The parsers that can be reached: FzfParser::new (parser.rs:46), parse (parser.rs:87) and
    parse_not_extended (parser.rs:172), in any order, where the caller may catch the panics of
    parse_not_extended and go on using the parser. *)
Inductive parser_reached : parser -> Prop :=
| pr_new : parser_reached parser_new
| pr_parse ps s q ps' :
    parser_reached ps -> parse ps s = Ok (q, ps') -> parser_reached ps'
| pr_parse_not_extended ps s q ps' :
    parser_reached ps -> parse_not_extended ps s = Ok (q, ps') -> parser_reached ps'
| pr_caught ps s :
    parser_reached ps -> parse_not_extended ps s = Panic ->
    parser_reached (parse_not_extended_caught ps s).

(** [parser_with_room n ps]: some sequence of calls leads from a fresh parser to [ps], and [n] is
    the larger of 64 and the byte lengths of all strings given to parse, which is
    documented nowhere but matters to parse_not_extended. *)
Inductive parser_with_room : nat -> parser -> Prop :=
| pw_new : parser_with_room 64 parser_new
| pw_parse n ps s q ps' :
    parser_with_room n ps -> parse ps s = Ok (q, ps') ->
    parser_with_room (Nat.max n (byte_len s)) ps'
| pw_parse_not_extended n ps s q ps' :
    parser_with_room n ps -> parse_not_extended ps s = Ok (q, ps') -> parser_with_room n ps'
| pw_caught n ps s :
    parser_with_room n ps -> parse_not_extended ps s = Panic ->
    parser_with_room n (parse_not_extended_caught ps s).

(** The queries a parser can return; the fields of FzfQuery are private to the module
    (query.rs:8-20), so there are no others. *)
Inductive query_reached : query -> Prop :=
| qr_parse ps s q ps' :
    parser_reached ps -> parse ps s = Ok (q, ps') -> query_reached q
| qr_parse_not_extended ps s q ps' :
    parser_reached ps -> parse_not_extended ps s = Ok (q, ps') -> query_reached q.

(** [metric_reached a o m]: some sequence of setter calls and searches leads from a fresh metric
    to [m], and [o] are the options set last. *)
Inductive metric_reached (a : algo) : options -> metric -> Prop :=
| mr_new : metric_reached a default_options (metric_new a)
| mr_case o m cs :
    metric_reached a o m -> metric_reached a (with_case o cs) (set_case_sensitivity m cs)
| mr_norm o m b :
    metric_reached a o m -> metric_reached a (with_norm o b) (set_candidate_normalization m b)
| mr_scheme o m s :
    metric_reached a o m -> metric_reached a (with_scheme o s) (set_scoring_scheme m s)
| mr_distance o m q c d m' :
    metric_reached a o m -> query_reached q ->
    metric_distance m q c = Ok (d, m') -> metric_reached a o m'
| mr_distance_and_ranges o m q c buf d m' buf' :
    metric_reached a o m -> query_reached q ->
    metric_distance_and_ranges m q c buf = Ok (d, m', buf') -> metric_reached a o m'.

(** [searches m q c m']: one of the two searches with [q] and [c], called on [m], leaves [m']. *)
Inductive searches (m : metric) (q : query) (c : str) : metric -> Prop :=
| sr_distance d m' : metric_distance m q c = Ok (d, m') -> searches m q c m'
| sr_distance_and_ranges buf d m' buf' :
    metric_distance_and_ranges m q c buf = Ok (d, m', buf') -> searches m q c m'.

(** [later m m']: some calls of methods on [m], each of which returned, led to [m']. *)
Inductive later (m : metric) : metric -> Prop :=
| later_none : later m m
| later_case m' cs : later m m' -> later m (set_case_sensitivity m' cs)
| later_norm m' b : later m m' -> later m (set_candidate_normalization m' b)
| later_scheme m' s : later m m' -> later m (set_scoring_scheme m' s)
| later_search m' q c m'' :
    later m m' -> query_reached q -> searches m' q c m'' -> later m m''.

(** [query_of_length n q]: [q] is what a parser made of at most [n] characters. *)
Definition query_of_length (n : nat) (q : query) : Prop :=
  exists ps s ps', parser_reached ps /\ length s <= n
    /\ (parse ps s = Ok (q, ps') \/ parse_not_extended ps s = Ok (q, ps')).

(** [metric_fed a n h m]: as [metric_reached], with candidates of at most [n] bytes and queries
    of at most [h] characters only. *)
Inductive metric_fed (a : algo) (n h : nat) : metric -> Prop :=
| mf_new : metric_fed a n h (metric_new a)
| mf_case m cs : metric_fed a n h m -> metric_fed a n h (set_case_sensitivity m cs)
| mf_norm m b : metric_fed a n h m -> metric_fed a n h (set_candidate_normalization m b)
| mf_scheme m s : metric_fed a n h m -> metric_fed a n h (set_scoring_scheme m s)
| mf_search m q c m' :
    metric_fed a n h m -> query_of_length h q -> byte_len c <= n -> searches m q c m' -> metric_fed a n h m'.

(** The lengths of the vectors which a metric owns: the one for the characters of the candidate
    and, for FzfV2, those for bonuses, consecutive matches, indices and scores. *)
Definition buffers (m : metric) : list nat :=
  match m with
  | V1 m => [length (v1_candidate_slab m)]
  | V2 m =>
      let s := v2_slab_ m in
      [length (v2_candidate_slab m); length (s_bonus s); length (s_consecutive s);
       length (s_indices s); length (s_scoring s)]
  end.

(** The lengths of the vectors which a parser owns: for characters, terms and conditions. *)
Definition parser_buffers (ps : parser) : list nat :=
  [length (ps_chars ps); length (ps_patterns ps); length (ps_conditions ps)].

(** [parser_later ps ps']: some sequence of calls leads from [ps] to [ps']. *)
Inductive parser_later (ps : parser) : parser -> Prop :=
| pl_same : parser_later ps ps
| pl_parse ps' s q ps'' : parser_later ps ps' -> parse ps' s = Ok (q, ps'') -> parser_later ps ps''
| pl_parse_not_extended ps' s q ps'' :
    parser_later ps ps' -> parse_not_extended ps' s = Ok (q, ps'') -> parser_later ps ps''.

(** parser.parse(s), then metric.distance(query, c). *)
Definition find (ps : parser) (m : metric) (s c : str) : res (option distance) :=
  let* '(q, _) := parse ps s in
  let* '(d, _) := metric_distance m q c in
  Ok d.

(** parser.parse(s), then metric.distance_and_ranges(query, c, buf): the distance and the new
    content of the buffer. *)
Definition find_ranges (ps : parser) (m : metric) (s c : str) (buf : list (nat * nat))
  : res (option distance * list (nat * nat)) :=
  let* '(q, _) := parse ps s in
  let* '(d, _, buf) := metric_distance_and_ranges m q c buf in
  Ok (d, buf).

(** The same with parse_not_extended. *)
Definition find_raw (ps : parser) (m : metric) (s c : str) : res (option distance) :=
  let* '(q, _) := parse_not_extended ps s in
  let* '(d, _) := metric_distance m q c in
  Ok d.

Definition find_ranges_raw (ps : parser) (m : metric) (s c : str) (buf : list (nat * nat))
  : res (option distance * list (nat * nat)) :=
  let* '(q, _) := parse_not_extended ps s in
  let* '(d, _, buf) := metric_distance_and_ranges m q c buf in
  Ok (d, buf).

(** [q] is a query for the single fuzzy term [text], obtained from either function of a parser. *)
Definition fuzzy_query (text : str) (q : query) : Prop :=
  exists ps ps',
    (exists s, Spec.parse_spec s = [[Spec.Term false Spec.KFuzzy text]] /\ parse ps s = Ok (q, ps'))
    \/ parse_not_extended ps text = Ok (q, ps').

(** The kinds of terms under their names in query.rs:295-311. *)
Definition read_kind (t : match_type) : Spec.kind :=
  match t with
  | Fuzzy => Spec.KFuzzy
  | Exact => Spec.KExact
  | PrefixExact => Spec.KPrefix
  | SuffixExact => Spec.KSuffix
  | EqualExact => Spec.KEqual
  end.

Definition read_pattern (p : pattern) : Spec.term :=
  Spec.Term (p_is_inverse p) (read_kind (p_match_type p)) (p_text p).

(** The content of a query: the terms which its conditions consist of. *)
Definition read_query (q : query) : Spec.cnf :=
  match q with
  | Extended conditions => map (map read_pattern) conditions
  | NotExtended p => [[read_pattern p]]
  end.

(** The candidate is accepted. *)
Definition accepts (r : res (option distance)) : Prop := exists d, r = Ok (Some d).

(** When a character of the query term [text] agrees with a character of the candidate. *)
Definition agreement (o : options) (text : str) : char -> char -> Prop :=
  Spec.agrees (Spec.sensitive_for (opt_case o) text) (opt_norm o).

(** No term of the query [s] is case sensitive. *)
Definition case_ignored (o : options) (s : str) : Prop :=
  opt_case o = Insensitive \/ (opt_case o = Smart /\ forall x, In x s -> is_uppercase x = false).

(** [r] is the result of a search with buffer [buf] which finds the term [text] at [mid], a
    contiguous part of the candidate [c]. *)
Definition found_at (o : options) (text c pre mid post : str) (buf : list (nat * nat))
    (r : res (option distance * list (nat * nat))) : Prop :=
  c = pre ++ mid ++ post /\ Forall2 (agreement o text) text mid
  /\ r = Ok (Some (from_score (Spec.alignment_score (opt_scheme o) c (seq (length pre) (length text)))),
             buf ++ [(byte_len pre, byte_len pre + byte_len mid)]).

(** distance_and_ranges, with the candidate stored as [c]: as bytes, or as characters. *)
Definition search_stored (m : metric) (q : query) (c : candidate) (buf : list (nat * nat))
  : res (option distance * metric * list (nat * nat)) :=
  if q_is_empty q then Ok (Some (from_score 0), m, buf)
  else
    match m with
    | V1 m =>
        let* '(d, m, buf) := fzf_search v1_char_eq v1_scoring_scheme v1_fuzzy true m q c buf in
        Ok (d, V1 m, buf)
    | V2 m =>
        let* '(d, m, buf) := fzf_search v2_char_eq v2_scoring_scheme v2_fuzzy true m q c buf in
        Ok (d, V2 m, buf)
    end.

End WithUnicode.
