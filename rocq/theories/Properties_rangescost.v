(** Property C106: what asking for the ranges costs. See Properties_results.v for the conventions, Properties_cost.v for
    what [distance_steps] and [distance_and_ranges_steps] count, RangesFormula.v for the parts of the sums. *)
From Coq Require Import String.
From Verif Require Import Prelude Chars Normalize Utils Candidate MatchedRanges Query Parser Scoring Fzf FzfV1 FzfV2 Api Cost CostRanges
  RangesFormula History Spec.
From Verif Require Import Claims1 Claims2 Claims35 Claims40 Claims41 Claims45 ExampleKit.
Local Open Scope nat_scope.

(** ** C106. What asking for the ranges costs *)

(** Never less than the distance alone, whatever the query. *)
Theorem C106_no_less : forall (UC : unicode) m q c buf r,
  metric_distance_and_ranges m q c buf = Ok r -> distance_steps m q c <= distance_and_ranges_steps m q c buf.
Proof. exact (@c106_no_less). Qed.
Print Assumptions C106_no_less.

(** Nothing, if a fuzzy query does not match. *)
Theorem C106_no_match : forall (UC : unicode) m text q c buf m' buf', fuzzy_query text q ->
  metric_distance_and_ranges m q c buf = Ok (None, m', buf') ->
  distance_and_ranges_steps m q c buf = distance_steps m q c.
Proof. exact (@c106_none). Qed.
Print Assumptions C106_no_match.

(** FzfV1: the start of the window has to be located once, then its characters are added from left to right. How many
    ranges the buffer had before does not matter. *)
Theorem C106_v1 : forall (UC : unicode) o m text q c d m' buf buf' js,
  metric_reached AlgoV1 o m -> fuzzy_query text q -> text <> [] ->
  metric_distance_and_ranges m q c buf = Ok (Some d, m', buf') ->
  window (agreement o text) text c js ->
  distance_and_ranges_steps m q c buf = distance_steps m q c + locating c (hd 0 js) + appending js.
Proof. exact (@c106_v1). Qed.
Print Assumptions C106_v1.

(** FzfV2, one character: the highlighted character has to be located. *)
Theorem C106_v2_char : forall (UC : unicode) o m x q c d m' buf j e,
  metric_reached AlgoV2 o m -> fuzzy_query [x] q ->
  metric_distance_and_ranges m q c buf = Ok (Some d, m', buf ++ [(byte_len (firstn j c), e)]) -> j < length c ->
  distance_and_ranges_steps m q c buf = distance_steps m q c + locating c j.
Proof. exact (@c106_v2_char). Qed.
Print Assumptions C106_v2_char.

(** FzfV2, at least two characters, in terms of the table of C43: the start of the table is located, the way back visits
    each column from that of the best cell down to the first highlighted one, or down to the start of the table if it
    does not reach the first row; each highlighted character is located within the table, and added in front. *)
Theorem C106_v2 : forall (UC : unicode) o m text q c d m' buf buf' hit fs stop y i j,
  metric_reached AlgoV2 o m -> fuzzy_query text q -> 2 <= length text ->
  metric_distance_and_ranges m q c buf = Ok (Some d, m', buf') ->
  (forall i j, hit i j = true <->
     exists x z, nth_error text i = Some x /\ nth_error c j = Some z /\ agreement o text x z) ->
  leftmost (agreement o text) text c fs ->
  nth_error c stop = Some y -> agreement o text (last text 0%N) y ->
  (forall k z, stop < k -> nth_error c k = Some z -> ~ agreement o text (last text 0%N) z) ->
  let bonus := bonus_of (opt_scheme o) c in
  let first := fun i => nth i fs 0 in
  best_cell hit bonus first stop (length text) i j ->
  let js := rev (way_back hit bonus first stop (length text) i j true) in
  distance_and_ranges_steps m q c buf
  = distance_steps m q c + locating c (hd 0 fs)
    + (if length js =? S i then j + 1 - hd 0 js else j + 1 - hd 0 fs)
    + list_sum (map (fun k => locating c (k - hd 0 fs)) js) + prepending js.
Proof. exact (@c106_v2). Qed.
Print Assumptions C106_v2.

(** One condition, whose terms are not fuzzy: nothing if no range is added, and otherwise the end of the range has to be
    located. *)
Theorem C106_words : forall (UC : unicode) a o m ps s q ps' g c buf d m' buf',
  metric_reached a o m -> parse ps s = Ok (q, ps') ->
  parse_spec s = [g] -> Forall (fun t => t_kind t <> KFuzzy) g ->
  metric_distance_and_ranges m q c buf = Ok (d, m', buf') ->
  (buf' = buf -> distance_and_ranges_steps m q c buf = distance_steps m q c)
  /\ (forall b e, e <= length c -> buf' = buf ++ [(b, byte_len (firstn e c))] ->
      distance_and_ranges_steps m q c buf = distance_steps m q c + locating c e).
Proof. exact (@c106_words). Qed.
Print Assumptions C106_words.

(** A condition of this kind behind others which hold: what the others cost, what it costs alone, and adding its range to
    those of the others. *)
Theorem C106_and : forall (UC : unicode) a o m ps s q ps' s1 q1 ps1 s2 q2 ps2 g c buf d1 m1 own x2 m2 hits,
  metric_reached a o m ->
  parse ps s = Ok (q, ps') -> parse ps s1 = Ok (q1, ps1) -> parse ps s2 = Ok (q2, ps2) ->
  parse_spec s = parse_spec s1 ++ [g] -> parse_spec s2 = [g] -> parse_spec s1 <> [] ->
  (forall text, parse_spec s1 <> [[Term true KFuzzy text]]) -> Forall (fun t => t_kind t <> KFuzzy) g ->
  metric_distance_and_ranges m q1 c buf = Ok (Some d1, m1, buf ++ own) ->
  metric_distance_and_ranges m q2 c buf = Ok (x2, m2, buf ++ hits) ->
  let extra q := distance_and_ranges_steps m q c buf - distance_steps m q c in
  extra q = extra q1 + extra q2 + match hits with [] => 0 | r :: _ => adding own r end.
Proof. exact (@c106_and). Qed.
Print Assumptions C106_and.

(** A condition which fails, of any kind, ends the search: it adds nothing, nor do those behind it. *)
Theorem C106_fails : forall (UC : unicode) a o m ps s q ps' s1 q1 ps1 s2 q2 ps2 g rest c buf d1 m1 buf1 m2 buf2,
  metric_reached a o m ->
  parse ps s = Ok (q, ps') -> parse ps s1 = Ok (q1, ps1) -> parse ps s2 = Ok (q2, ps2) ->
  parse_spec s = parse_spec s1 ++ g :: rest -> parse_spec s2 = [g] -> parse_spec s1 <> [] ->
  (forall text, parse_spec s1 <> [[Term true KFuzzy text]]) -> (forall text, g <> [Term true KFuzzy text]) ->
  metric_distance_and_ranges m q1 c buf = Ok (Some d1, m1, buf1) ->
  metric_distance_and_ranges m q2 c buf = Ok (None, m2, buf2) ->
  let extra q := distance_and_ranges_steps m q c buf - distance_steps m q c in
  extra q = extra q1.
Proof. exact (@c106_missed). Qed.
Print Assumptions C106_fails.

(** The same searches in ASCII, in Unicode, with a buffer which is empty and one which is not. *)
Example C106_example (UC := latin) :
  let q := the_query (txt "foo") in
  let c := txt "f_o_o_foo" in
  let uni := 233%N :: txt "f_o_o" in
  let steps a q c buf := distance_and_ranges_steps (metric_new a) q c buf - distance_steps (metric_new a) q c in
  fuzzy_query (txt "foo") q /\ metric_reached AlgoV1 default_options (metric_new AlgoV1)
  /\ window (agreement default_options (txt "foo")) (txt "foo") c [0; 2; 4]
  /\ appending [0; 2; 4] = 0 + 1 + 2
  /\ steps AlgoV1 q c [] = 3 /\ steps AlgoV1 q c [(7, 9); (1, 4)] = 3
  /\ window (agreement default_options (txt "foo")) (txt "foo") uni [1; 3; 5]
  /\ steps AlgoV1 q uni [] = 1 + 3
  /\ (let hit i j := N.eqb (nth i (txt "foo") 0%N) (nth j c 1%N) in
      let bonus := bonus_of SchemeDefault c in
      let first i := nth i [0; 2; 4] 0 in
      pts (table hit bonus first 8 2 8) = 80%Z /\ way_back hit bonus first 8 3 2 8 true = [8; 7; 6])
  /\ prepending [6; 7; 8] = 0 + 1 + 1
  /\ steps AlgoV2 q c [] = 3 + 2
  /\ shown_ranges (metric_distance_and_ranges (metric_new AlgoV2) q uni []) = Some (Some (Distance 58), [(2, 3); (4, 5); (6, 7)])
  /\ prepending [1; 3; 5] = 0 + (1 + 1) + (2 + 2)
  /\ steps AlgoV2 q uni [] = 1 + 5 + (0 + 2 + 4) + 6
  /\ steps AlgoV2 (the_query (txt "o")) uni [] = 3
  /\ steps AlgoV2 (the_query (txt "x")) uni [] = 0 /\ steps AlgoV1 (the_query (txt "fx")) uni [] = 0.
Proof.
  cbv zeta.
  split; [apply the_fuzzy_query; vm_compute; reflexivity|]. split; [apply mr_new|].
  split; [apply v1_window_of; [discriminate|vm_compute; reflexivity]|].
  do 3 (split; [vm_compute; reflexivity|]).
  split; [apply v1_window_of; [discriminate|vm_compute; reflexivity]|].
  repeat split; vm_compute; reflexivity.
Qed.

(** Several conditions: a range behind the others, one in front of them which moves them, one which joins two, and a
    condition which fails. *)
Example C106_conditions_example (UC := latin) :
  let c := 233%N :: txt "foo_bar" in
  let m := metric_new AlgoV1 in
  let found s := shown_ranges (metric_distance_and_ranges m (the_query (txt s)) c []) in
  let extra s := distance_and_ranges_steps m (the_query (txt s)) c [] - distance_steps m (the_query (txt s)) c in
  metric_reached AlgoV1 default_options m
  /\ parse_spec (txt "'bar 'foo '_") = parse_spec (txt "'bar 'foo") ++ [[Term false KExact (txt "_")]]
  /\ parse_spec (txt "'_") = [[Term false KExact (txt "_")]]
  /\ found "'bar"%string = Some (Some (Distance 80), [(6, 9)]) /\ byte_len (firstn 8 c) = 9 /\ extra "'bar"%string = 8
  /\ found "'foo"%string = Some (Some (Distance 56), [(2, 5)]) /\ extra "'foo"%string = 4
  /\ adding [(2, 5)] (6, 9) = 1 /\ extra "'foo 'bar"%string = 4 + 8 + 1
  /\ adding [(6, 9)] (2, 5) = 1 + 1 /\ extra "'bar 'foo"%string = 8 + 4 + 2
  /\ found "'bar 'foo"%string = Some (Some (Distance 136), [(2, 5); (6, 9)])
  /\ extra "'_"%string = 5 /\ adding [(2, 5); (6, 9)] (5, 6) = 2
  /\ found "'bar 'foo '_"%string = Some (Some (Distance 168), [(2, 9)]) /\ extra "'bar 'foo '_"%string = 14 + 5 + 2
  /\ found "'bar 'foo 'x '_"%string = Some (None, [(2, 5); (6, 9)]) /\ extra "'bar 'foo 'x '_"%string = 14.
Proof. cbv zeta. split; [apply mr_new|]. repeat split; vm_compute; reflexivity. Qed.
