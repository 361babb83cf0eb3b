(** Property C102: what a search costs exactly. See Properties_results.v for the conventions, Properties_cost.v for what
    [distance_steps] counts, CostFormula.v for [reading_cost] and [growth]. *)
From Coq Require Import String Sorted.
From Verif Require Import Prelude Chars Normalize Utils Candidate Query Parser Scoring Fzf FzfV1 FzfV2 Api Cost CostFormula History Spec.
From Verif Require Import Claims1 Claims2 Claims35 ExampleKit.
Local Open Scope nat_scope.

(** ** C102. What a fuzzy search costs *)

(** An empty query looks at nothing; any other query at least reads the candidate. *)
Theorem C102_read : forall (UC : unicode) m q c d m',
  metric_distance m q c = Ok (d, m') ->
  if q_is_empty q then distance_steps m q c = 0 else reading_cost (hd 0 (buffers m)) c <= distance_steps m q c.
Proof. exact (@c102_read). Qed.
Print Assumptions C102_read.

(** FzfV1, a match: two iterations per character of the query, one per character of the candidate up to the end of the
    first window (C40), two per character in the window. Nothing behind the window counts. *)
Theorem C102_v1 : forall (UC : unicode) o m text q c d m' js room,
  metric_reached AlgoV1 o m -> fuzzy_query text q -> text <> [] ->
  metric_distance m q c = Ok (Some d, m') -> buffers m = [room] ->
  window (agreement o text) text c js ->
  distance_steps m q c
  = reading_cost room c + 2 * length text + S (last js 0) + 2 * (S (last js 0) - hd 0 js).
Proof. exact (@c102_v1). Qed.
Print Assumptions C102_v1.

(** FzfV2, a match, at least two characters: the matrix has a row per character of the query, [h], and a column per
    character from the start of the leftmost match to the last occurrence of the last character of the query, [w]. It
    is cleared twice, and each row looks at the columns from its character of the leftmost match on, twice. *)
Theorem C102_v2 : forall (UC : unicode) o m text q c d m' fs stop y r_chars r_bonus r_runs r_offsets r_scores,
  metric_reached AlgoV2 o m -> fuzzy_query text q -> 2 <= length text ->
  metric_distance m q c = Ok (Some d, m') -> buffers m = [r_chars; r_bonus; r_runs; r_offsets; r_scores] ->
  leftmost (agreement o text) text c fs ->
  nth_error c stop = Some y -> agreement o text (last text 0%N) y ->
  (forall j z, stop < j -> nth_error c j = Some z -> ~ agreement o text (last text 0%N) z) ->
  let h := length text in let w := stop + 1 - hd 0 fs in
  distance_steps m q c
  = reading_cost r_chars c
    + (growth r_offsets h + growth r_bonus w + growth r_scores (h * w) + growth r_runs (h * w))
    + (3 * h - 1) + S (last fs 0) + (length c - stop) + w + 2 * (h * w) + 2 * list_sum (map (fun f => stop + 1 - f) fs).
Proof. exact (@c102_v2). Qed.
Print Assumptions C102_v2.

(** FzfV2, one character, match or not: every character is looked at, and those which agree once more. *)
Theorem C102_v2_char : forall (UC : unicode) o m x q c d m' js room rest,
  metric_reached AlgoV2 o m -> fuzzy_query [x] q ->
  metric_distance m q c = Ok (d, m') -> buffers m = room :: rest ->
  StronglySorted lt js -> (forall j, In j js <-> exists y, nth_error c j = Some y /\ agreement o [x] x y) ->
  distance_steps m q c = reading_cost room c + length c + length js.
Proof. exact (@c102_v2_char). Qed.
Print Assumptions C102_v2_char.

(** The first two candidates are those of C70_example and C71_example; the others are not ASCII, the last one is
    longer than the buffers of a new metric. *)
Example C102_example (UC := latin) :
  let q := the_query (txt "foo") in
  let long := repeat 233%N 100 ++ txt "f_o_o" in
  fuzzy_query (txt "foo") q /\ metric_reached AlgoV1 default_options (metric_new AlgoV1)
  /\ window (agreement default_options (txt "foo")) (txt "foo") (txt "f_o_o_foo") [0; 2; 4]
  /\ distance_steps (metric_new AlgoV1) q (txt "f_o_o_foo") = 30
  /\ reading_cost 128 (txt "f_o_o_foo") + 2 * 3 + 5 + 2 * (5 - 0) = 30
  /\ leftmost (agreement default_options (txt "foo")) (txt "foo") (txt "f_o_o_foo") [0; 2; 4]
  /\ distance_steps (metric_new AlgoV2) q (txt "f_o_o_foo") = 128
  /\ reading_cost 128 (txt "f_o_o_foo") + (3 * 3 - 1) + 5 + (9 - 8) + 9 + 2 * (3 * 9) + 2 * (9 + 7 + 5) = 128
  /\ window (agreement default_options (txt "foo")) (txt "foo") long [100; 102; 104]
  /\ byte_len long = 205 /\ List.length long = 105
  /\ distance_steps (metric_new AlgoV1) q long = 205 + 205 + 105 + 2 * 3 + 105 + 2 * 5
  /\ distance_steps (searched (metric_new AlgoV1) (txt "x") long) q long = 205 + 105 + 2 * 3 + 105 + 2 * 5
  /\ distance_steps (metric_new AlgoV2) (the_query (txt "o")) (txt "f_o_o_foo") = 9 + 9 + 4
  /\ distance_steps (metric_new AlgoV2) (the_query (txt "x")) (txt "f_o_o_foo") = 9 + 9
  /\ distance_steps (metric_new AlgoV2) (the_query (txt "")) long = 0.
Proof.
  cbv zeta.
  split; [apply the_fuzzy_query; vm_compute; reflexivity|]. split; [apply mr_new|].
  split; [apply v1_window_of; [discriminate|vm_compute; reflexivity]|].
  do 2 (split; [vm_compute; reflexivity|]).
  split; [apply greedy_leftmost; vm_compute; reflexivity|].
  do 2 (split; [vm_compute; reflexivity|]).
  split; [apply v1_window_of; [discriminate|vm_compute; reflexivity]|].
  repeat split; vm_compute; reflexivity.
Qed.
