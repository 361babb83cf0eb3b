(** Properties C70 to C73, C79 and C80: how long searching and parsing take. See Properties_results.v for the conventions.
    [distance_steps m q c] is the number of iterations of all the loops, those of the standard library's
    searches and copies included, which m.distance(q, c) runs through: see Cost.v. *)
From Coq Require Import String.
From Verif Require Import Prelude Chars Normalize Utils Candidate Query Parser Scoring Fzf FzfV1 FzfV2 Api Cost CostRanges ParseCost BinarySearch History Spec.
From Verif Require Import CostProofs Claims1 Claims14 Claims18 Claims19 MatchedRanges BinarySearchProofs ExampleKit.
Local Open Scope nat_scope.


(** ** C70. FzfV1 is linear in the candidate *)

(** What is counted is the search: the counting version returns what the search returns. *)
Theorem C70_same : forall (UC : unicode) m q c, fst (metric_distance_tm m q c) = metric_distance m q c.
Proof. exact (@c70_same). Qed.
Print Assumptions C70_same.

(** Whatever the text of the query, match or not. *)
Theorem C70_fuzzy : forall (UC : unicode) o m text q c,
  metric_reached AlgoV1 o m -> fuzzy_query text q ->
  distance_steps m q c <= 8 * byte_len c + 2.
Proof. exact (@c70_fuzzy). Qed.
Print Assumptions C70_fuzzy.

Example C70_example (UC := latin) :
  fuzzy_query (txt "foo") (the_query (txt "foo"))
  /\ metric_reached AlgoV1 default_options (used AlgoV1 default_options)
  /\ byte_len (txt "f_o_o_foo") = 9
  /\ distance_steps (used AlgoV1 default_options) (the_query (txt "foo")) (txt "f_o_o_foo")
     = 30
  /\ distance_steps (used AlgoV1 default_options) (the_query (txt "foo")) (txt "f_o_ofoofoofoofoofoofoofo")
     = 46
  /\ distance_steps (used AlgoV1 default_options) (the_query (txt "foo")) (txt "bar")
     = 7.
Proof.
  split; [apply the_fuzzy_query; vm_compute; reflexivity|]. split; [apply used_reached|]. vm_compute. repeat split; reflexivity.
Qed.

(** ** C71. FzfV2 is linear in the candidate times the query *)

Theorem C71_fuzzy : forall (UC : unicode) o m text q c,
  metric_reached AlgoV2 o m -> fuzzy_query text q ->
  distance_steps m q c <= (15 * byte_len c + 5) * length text.
Proof. exact (@c71_fuzzy). Qed.
Print Assumptions C71_fuzzy.

(** Any query: the sum of the lengths of the terms, which is at most the length of the query. *)
Theorem C71_terms : forall (UC : unicode) o m ps s q ps' c,
  metric_reached AlgoV2 o m -> parse ps s = Ok (q, ps') ->
  distance_steps m q c <= (15 * byte_len c + 7) * text_length (parse_spec s)
  /\ text_length (parse_spec s) <= length s.
Proof. exact (@c71_terms). Qed.
Print Assumptions C71_terms.

Example C71_example (UC := latin) :
  fuzzy_query (txt "foo") (the_query (txt "foo"))
  /\ metric_reached AlgoV2 default_options (used AlgoV2 default_options)
  /\ distance_steps (used AlgoV2 default_options) (the_query (txt "foo")) (txt "f_o_o_foo")
     = 128
  /\ text_length (parse_spec (txt "foo 'bar | !^baz$")) = 9
  /\ String.length "foo 'bar | !^baz$" = 17
  /\ distance_steps (used AlgoV2 default_options) (the_query (txt "foo 'bar | !^baz$")) (txt "f_o_o_foo bar")
     = 157.
Proof.
  split; [apply the_fuzzy_query; vm_compute; reflexivity|]. split; [apply used_reached|]. vm_compute. repeat split; reflexivity.
Qed.

(** ** C72. FzfV2 filters out non-matches in time linear in the candidate *)

(** The length of the query counts only if it is above 128... *)
Theorem C72_first : forall (UC : unicode) o m text q c m',
  metric_reached AlgoV2 o m -> fuzzy_query text q ->
  metric_distance m q c = Ok (None, m') ->
  distance_steps m q c <= 5 * byte_len c + 1 + length text
  /\ (length text <= 128 -> distance_steps m q c <= 5 * byte_len c + 1).
Proof. exact (@c72_first). Qed.
Print Assumptions C72_first.

(** ...and only until the metric has seen the query once. *)
Theorem C72_again : forall (UC : unicode) o m text q c0 d0 m0 m1 c m',
  metric_reached AlgoV2 o m -> fuzzy_query text q ->
  metric_distance m q c0 = Ok (d0, m0) -> later m0 m1 ->
  metric_distance m1 q c = Ok (None, m') ->
  distance_steps m1 q c <= 5 * byte_len c + 1.
Proof. exact (@c72_again). Qed.
Print Assumptions C72_again.

Example C72_example (UC := latin) :
  fuzzy_query (txt "foo") (the_query (txt "foo"))
  /\ metric_reached AlgoV2 default_options (used AlgoV2 default_options)
  /\ find parser_new (used AlgoV2 default_options) (txt "foo") (txt "f_o_bar")
     = Ok None
  /\ distance_steps (metric_new AlgoV2) (the_query (txt "foo")) (txt "f_o_bar")
     = 17
  /\ fuzzy_query (repeat 97%N 200) (the_query (repeat 97%N 200))
  /\ distance_steps (metric_new AlgoV2) (the_query (repeat 97%N 200)) (txt "abc")
     = 208
  /\ distance_steps (searched (metric_new AlgoV2) (repeat 97%N 200) (txt "f_o_o")) (the_query (repeat 97%N 200)) (txt "abc")
     = 8.
Proof.
  split; [apply the_fuzzy_query; vm_compute; reflexivity|]. split; [apply used_reached|].
  do 2 (split; [vm_compute; reflexivity|]). split; [apply the_fuzzy_query; vm_compute; reflexivity|].
  vm_compute. split; reflexivity.
Qed.

(** ** C73. Any query: linear in the candidate times the number of terms *)

(** False for both metrics, even for queries of one term and candidates which do not match: an exact term. *)
Theorem C73_exact_refuted : forall (UC : unicode) a ps (K : nat), exists s t c q ps' m',
  parse ps s = Ok (q, ps') /\ parse_spec s = [[t]]
  /\ metric_distance (metric_new a) q c = Ok (None, m')
  /\ K * (byte_len c + 1) < distance_steps (metric_new a) q c.
Proof. exact (@c70_exact). Qed.
Print Assumptions C73_exact_refuted.

(** For FzfV1 the characters of the exact terms count too; C71_terms has FzfV2. *)
Theorem C73_terms_partial : forall (UC : unicode) o m ps s q ps' c,
  metric_reached AlgoV1 o m -> parse ps s = Ok (q, ps') ->
  distance_steps m q c <= (8 * byte_len c + 4) * length (concat (parse_spec s)) + byte_len c * exact_length (parse_spec s).
Proof. exact (@c70_terms). Qed.
Print Assumptions C73_terms_partial.

Example C73_example (UC := latin) :
  length (concat (parse_spec (txt "foo 'bar | !^baz$"))) = 3
  /\ exact_length (parse_spec (txt "foo 'bar | !^baz$")) = 3
  /\ distance_steps (used AlgoV1 default_options) (the_query (txt "foo 'bar | !^baz$")) (txt "f_o_o_foo bar")
     = 55
  /\ distance_steps (used AlgoV1 default_options) (the_query (txt "'aaaaab")) (txt "aaaaaaaaaaa")
     = 55.
Proof. vm_compute. repeat split; reflexivity. Qed.

(** ** C79. Parsing is linear in the query *)

(** [parse_steps ps s] is the same count for ps.parse(s): see ParseCost.v. Again what is counted is the parser. *)
Theorem C79_same : forall (UC : unicode) ps s,
  fst (parse_tm ps s) = parse ps s /\ fst (parse_not_extended_tm ps s) = parse_not_extended ps s.
Proof. exact (@c79_same). Qed.
Print Assumptions C79_same.

(** Whatever the query and whatever the parser was used for. *)
Theorem C79_first : forall (UC : unicode) ps s, parse_steps ps s <= 8 * byte_len s + 11.
Proof. exact (@c79_first). Qed.
Print Assumptions C79_first.

(** Less once a query at least as long was parsed: the buffers are there. *)
Theorem C79_again : forall (UC : unicode) ps s0 q0 ps1 ps2 s,
  parse ps s0 = Ok (q0, ps1) -> parser_later ps1 ps2 -> byte_len s <= byte_len s0 ->
  parse_steps ps2 s <= 6 * byte_len s + 9.
Proof. exact (@c79_again). Qed.
Print Assumptions C79_again.

Theorem C79_raw : forall (UC : unicode) ps s, parse_not_extended_steps ps s <= 4 * length s.
Proof. exact (@c79_raw). Qed.
Print Assumptions C79_raw.

Example C79_example (UC := latin) :
  parse_steps parser_new (txt "foo 'bar | !^baz$") = 66
  /\ parse_steps (parsed parser_new (txt "foo 'bar | !^baz$")) (txt "foo 'bar | !^baz$") = 66
  /\ parse_steps parser_new (repeat 97%N 200) = 1011
  /\ parse_steps (parsed parser_new (repeat 97%N 200)) (repeat 97%N 200) = 609
  /\ parse_steps parser_new (repeat 32%N 200) = 604
  /\ parse_not_extended_steps parser_new (txt "foo 'bar | !^baz$") = 36.
Proof. vm_compute. repeat split; reflexivity. Qed.

(** ** C80. Asking for the matched ranges costs little more *)

(** [distance_and_ranges_steps m q c buf] is the same count for m.distance_and_ranges(q, c, buf), the comparisons
    of its binary searches and the ranges it moves in the buffer included: see CostRanges.v. *)
Theorem C80_same : forall (UC : unicode) m q c buf,
  fst (metric_distance_and_ranges_tm m q c buf) = metric_distance_and_ranges m q c buf.
Proof. exact (@c80_same). Qed.
Print Assumptions C80_same.

(** Either metric and any query: compared to the same search without ranges. *)
Theorem C80_extra : forall (UC : unicode) a o m ps s q ps' c buf,
  metric_reached a o m -> parse ps s = Ok (q, ps') ->
  distance_and_ranges_steps m q c buf <= distance_steps m q c + (4 * byte_len c + 2) * text_length (parse_spec s).
Proof. exact (@c80_extra). Qed.
Print Assumptions C80_extra.

(** FzfV1 finds the ranges of a fuzzy query from left to right. *)
Theorem C80_v1_fuzzy_extra : forall (UC : unicode) o m text q c buf,
  metric_reached AlgoV1 o m -> fuzzy_query text q ->
  distance_and_ranges_steps m q c buf <= distance_steps m q c + byte_len c + length text * (Nat.log2_up (length text) + 1).
Proof. exact (@c80_v1_fuzzy). Qed.
Print Assumptions C80_v1_fuzzy_extra.

(** Altogether, and never depending on what the buffer of the caller holds. *)
Theorem C80_v1_fuzzy : forall (UC : unicode) o m text q c buf,
  metric_reached AlgoV1 o m -> fuzzy_query text q ->
  distance_and_ranges_steps m q c buf <= 9 * byte_len c + 2 + length text * (Nat.log2_up (length text) + 1).
Proof. exact (@c80_v1_fuzzy_total). Qed.
Print Assumptions C80_v1_fuzzy.

Theorem C80_v2_fuzzy : forall (UC : unicode) o m text q c buf,
  metric_reached AlgoV2 o m -> fuzzy_query text q ->
  distance_and_ranges_steps m q c buf <= (19 * byte_len c + 7) * length text.
Proof. exact (@c80_v2_fuzzy). Qed.
Print Assumptions C80_v2_fuzzy.

Theorem C80_v1_terms : forall (UC : unicode) o m ps s q ps' c buf,
  metric_reached AlgoV1 o m -> parse ps s = Ok (q, ps') ->
  distance_and_ranges_steps m q c buf <= (11 * byte_len c + 5) * text_length (parse_spec s)
  /\ text_length (parse_spec s) <= length s.
Proof. exact (@c80_v1_terms). Qed.
Print Assumptions C80_v1_terms.

Theorem C80_v2_terms : forall (UC : unicode) o m ps s q ps' c buf,
  metric_reached AlgoV2 o m -> parse ps s = Ok (q, ps') ->
  distance_and_ranges_steps m q c buf <= (19 * byte_len c + 9) * text_length (parse_spec s)
  /\ text_length (parse_spec s) <= length s.
Proof. exact (@c80_v2_terms). Qed.
Print Assumptions C80_v2_terms.

(** What is counted for a binary search is enough for both loops which the standard library has had (BinarySearch.v), and
    they find what the model says: the range with that start, or else where it belongs. *)
Theorem C80_binary_search : forall loop own start,
  loop = halving \/ loop = branchless ->
  (forall i j x y, i < j -> nth_error own i = Some x -> nth_error own j = Some y -> fst x < fst y) ->
  exists found, fst (loop own start) = Ok found /\ found = search_start own start 0
  /\ snd (loop own start) <= probes (length own)
  /\ match found with
     | inl i => exists x, nth_error own i = Some x /\ fst x = start
     | inr i => i <= length own
                /\ (forall j x, j < i -> nth_error own j = Some x -> fst x < start)
                /\ (forall j x, i <= j -> nth_error own j = Some x -> start < fst x)
     end.
Proof. exact c80_binary_search. Qed.
Print Assumptions C80_binary_search.

(** The bound is not too generous: the newer loop always makes that many comparisons, the older one about as many unless
    it finds a range with that start. *)
Theorem C80_binary_search_steps : forall own start,
  snd (branchless own start) = probes (length own)
  /\ (forall i, fst (halving own start) = Ok (inr i) -> length own + 1 < 2 ^ S (snd (halving own start)))
  /\ (forall i, fst (halving own start) = Ok (inl i) -> 1 <= snd (halving own start)).
Proof. exact c80_binary_search_steps. Qed.
Print Assumptions C80_binary_search_steps.

Example C80_binary_search_example :
  halving [(1, 3); (5, 6); (8, 9); (12, 20); (30, 31)] 12 = (Ok (inl 3), 3)
  /\ branchless [(1, 3); (5, 6); (8, 9); (12, 20); (30, 31)] 12 = (Ok (inl 3), 4)
  /\ halving [(1, 3); (5, 6); (8, 9); (12, 20); (30, 31)] 10 = (Ok (inr 3), 3)
  /\ branchless [(1, 3); (5, 6); (8, 9); (12, 20); (30, 31)] 10 = (Ok (inr 3), 4)
  /\ probes 5 = 4.
Proof. vm_compute. repeat split; reflexivity. Qed.

Example C80_example (UC := latin) :
  fuzzy_query (txt "foo") (the_query (txt "foo"))
  /\ metric_reached AlgoV1 default_options (used AlgoV1 default_options)
  /\ metric_reached AlgoV2 default_options (used AlgoV2 default_options)
  /\ distance_steps (used AlgoV1 default_options) (the_query (txt "foo")) (txt "f_o_o_foo") = 30
  /\ distance_and_ranges_steps (used AlgoV1 default_options) (the_query (txt "foo")) (txt "f_o_o_foo") [(3, 5)] = 33
  /\ distance_steps (used AlgoV2 default_options) (the_query (txt "foo")) (txt "f_o_o_foo") = 128
  /\ distance_and_ranges_steps (used AlgoV2 default_options) (the_query (txt "foo")) (txt "f_o_o_foo") [(3, 5)] = 133
  /\ distance_steps (used AlgoV2 default_options) (the_query (txt "foo 'bar | !^baz$")) (txt "f_o_o_foo bar") = 157
  /\ distance_and_ranges_steps (used AlgoV2 default_options) (the_query (txt "foo 'bar | !^baz$")) (txt "f_o_o_foo bar") [] = 163.
Proof.
  split; [apply the_fuzzy_query; vm_compute; reflexivity|]. do 2 (split; [apply used_reached|]). vm_compute. repeat split; reflexivity.
Qed.
