(** Properties C76 and C77: which alignment earns the score of FzfV2, and when the two metrics
    agree. See Properties_results.v for the conventions. *)
From Coq Require Import Sorted String Lia.
From Verif Require Import Prelude Chars Normalize Utils Candidate Query Parser Scoring Slab Fzf FzfV1 FzfV2 Api History Spec.
From Verif Require NormalizeProofs.
From Verif Require Import Claims1 Claims2 Claims6 Claims16 ExampleKit.
Local Open Scope nat_scope.

(** ** C76. The score of FzfV2 is that of an alignment of the query, or of its start: false *)

(** The text [a], a hundred [x] and [bcdefgh]. *)
Definition far : str := txt "a" ++ repeat 120%N 100 ++ txt "bcdefgh".

(** The score can be more than any alignment of the query or of its start is worth. *)
Theorem C76_earned_refuted : forall (UC : unicode), ~ (forall o m text q c buf d m' buf',
  metric_reached AlgoV2 o m -> fuzzy_query text q -> text <> [] ->
  metric_distance_and_ranges m q c buf = Ok (Some d, m', buf') ->
  exists k js, 0 < k <= length text /\ alignment (agreement o text) (firstn k text) c js
    /\ (into_score d <= alignment_score (opt_scheme o) c js + 2 * gaps js)%Z).
Proof.
  intros UC H.
  destruct (shown_ranges_ok (metric_distance_and_ranges (metric_with AlgoV2 default_options) (the_query (txt "abcdefgh")) far [])
     (Some (from_score 113)) [(0, 1); (100, 101); (102, 108)]) as (m' & E); [vm_compute; reflexivity|].
  assert (Q : fuzzy_query (txt "abcdefgh") (the_query (txt "abcdefgh"))) by (apply the_fuzzy_query; vm_compute; reflexivity).
  destruct (H _ _ _ _ _ _ _ _ _ (metric_with_reached AlgoV2 default_options) Q ltac:(discriminate) E) as (k & js & Hk & A & Hs).
  assert (js = firstn k [0; 101; 102; 103; 104; 105; 106; 107]) as ->.
  { apply (only_way (agreement default_options (txt "abcdefgh")) (txt "abcdefgh") far); [reflexivity| |exact A].
    intros i j x y Hx Hy R. apply NormalizeProofs.char_eq_agrees in R.
    assert (Hi : i < 8) by (change 8 with (length (txt "abcdefgh")); apply nth_error_Some; congruence).
    assert (Hj : j < 108) by (change 108 with (length far); apply nth_error_Some; congruence).
    assert (B : forallb (fun i => forallb (fun j => negb (char_eq false false (nth i (txt "abcdefgh") 0%N) (nth j far 0%N))
        || (j =? nth i [0; 101; 102; 103; 104; 105; 106; 107] 0)) (seq 0 108)) (seq 0 8) = true) by (vm_compute; reflexivity).
    rewrite forallb_forall in B. specialize (B i). rewrite in_seq in B. specialize (B ltac:(lia)).
    rewrite forallb_forall in B. specialize (B j). rewrite in_seq in B. specialize (B ltac:(lia)).
    rewrite (nth_error_nth _ _ _ Hx), (nth_error_nth _ _ _ Hy) in B.
    change (sensitive_for (opt_case default_options) (txt "abcdefgh")) with false in R. cbn [opt_norm default_options] in R.
    rewrite R in B. apply Nat.eqb_eq. exact B. }
  apply Hs. change (length (txt "abcdefgh")) with 8 in Hk.
  assert (C : k = 1 \/ k = 2 \/ k = 3 \/ k = 4 \/ k = 5 \/ k = 6 \/ k = 7 \/ k = 8) by lia.
  repeat (destruct C as [->|C]; [vm_compute; reflexivity|]). rewrite C. vm_compute. reflexivity.
Qed.
Print Assumptions C76_earned_refuted.

(** What holds: the score is the points of an alignment [js] of the first [k] characters of the query,
    and the highlighted characters are an alignment of the same characters which ends
    at the same position. The points are defined in Spec.v: as for FzfV1, but for what gaps cost. Either
    the leftmost match is not spread too wide, or the score is high. Missing: the other candidates. *)
Theorem C76_exact_partial : forall (UC : unicode) o m text q c buf d m' buf' hit fs stop y,
  metric_reached AlgoV2 o m -> fuzzy_query text q -> text <> [] ->
  metric_distance_and_ranges m q c buf = Ok (Some d, m', buf') ->
  (* the parameters of the table are those of C43 *)
  (forall i j, hit i j = true <->
     exists x z, nth_error text i = Some x /\ nth_error c j = Some z /\ agreement o text x z) ->
  leftmost (agreement o text) text c fs ->
  nth_error c stop = Some y -> agreement o text (last text 0%N) y ->
  (forall k z, stop < k -> nth_error c k = Some z -> ~ agreement o text (last text 0%N) z) ->
  (Z.of_nat (length c) < 2 ^ 63)%Z /\ (forall i, i < length text -> nth i fs 0 - nth 0 fs 0 < 15 * i + 16)
  \/ (26 * (Z.of_nat (length text) - 1) < into_score d)%Z ->
  exists k js, 0 < k <= length text /\ alignment (agreement o text) (firstn k text) c js
    /\ d = from_score (alignment_pts hit (bonus_of (opt_scheme o) c) (fun i => nth i fs 0) stop js)
    /\ exists new ks, buf' = buf ++ new /\ alignment (agreement o text) (firstn k text) c ks /\ last ks 0 = last js 0
        /\ forall b, covered new b <-> exists j, In j ks /\ byte_of_char c j b.
Proof. exact (@c76_exact). Qed.
Print Assumptions C76_exact_partial.

(** Compared with the score which FzfV1 would give that alignment: a gap costs between one and three points
    per skipped character instead of two points and one per skipped character. *)
Theorem C76_earned_partial : forall (UC : unicode) o m text q c buf d m' buf' fs,
  metric_reached AlgoV2 o m -> fuzzy_query text q -> text <> [] ->
  metric_distance_and_ranges m q c buf = Ok (Some d, m', buf') ->
  leftmost (agreement o text) text c fs ->
  (Z.of_nat (length c) < 2 ^ 63)%Z /\ (forall i, i < length text -> nth i fs 0 - nth 0 fs 0 < 15 * i + 16)
  \/ (26 * (Z.of_nat (length text) - 1) < into_score d)%Z ->
  exists k js, 0 < k <= length text /\ alignment (agreement o text) (firstn k text) c js
    /\ (alignment_score (opt_scheme o) c js - 2 * (skipped js - gaps js) <= into_score d
        <= alignment_score (opt_scheme o) c js + 2 * gaps js)%Z
    /\ exists new ks, buf' = buf ++ new /\ alignment (agreement o text) (firstn k text) c ks /\ last ks 0 = last js 0
        /\ forall b, covered new b <-> exists j, In j ks /\ byte_of_char c j b.
Proof. exact (@c76_earned). Qed.
Print Assumptions C76_earned_partial.

(** Both cases: a narrow match, and a wide one with a high score. *)
Example C76_example (UC := latin) :
  metric_reached AlgoV2 default_options (used AlgoV2 default_options)
  /\ fuzzy_query (txt "abc") (the_query (txt "abc"))
  /\ shown_ranges (metric_distance_and_ranges (used AlgoV2 default_options) (the_query (txt "abc")) (txt "a__b_c") [])
     = Some (Some (Distance 77), [(0, 1); (3, 4); (5, 6)])
  /\ leftmost (agreement default_options (txt "abc")) (txt "abc") (txt "a__b_c") [0; 3; 5]
  /\ (forall i, i < 3 -> nth i [0; 3; 5] 0 - nth 0 [0; 3; 5] 0 < 15 * i + 16)
  /\ alignment_score SchemeDefault (txt "a__b_c") [0; 3; 5] = 77%Z
  /\ skipped [0; 3; 5] = 3%Z /\ gaps [0; 3; 5] = 2%Z.
Proof.
  split; [apply used_reached|]. split; [apply the_fuzzy_query; vm_compute; reflexivity|].
  split; [vm_compute; reflexivity|].
  assert (A : alignment (agreement default_options (txt "abc")) (txt "abc") (txt "a__b_c") [0; 3; 5]).
  { split; [repeat constructor|]. repeat constructor; (eexists; split; [vm_compute; reflexivity|left; vm_compute; reflexivity]). }
  split; [|split; [intros [|[|[|i]]] Hi; cbn; lia|repeat split; vm_compute; reflexivity]].
  split; [exact A|]. intros qs Q.
  assert (qs = firstn 3 [0; 3; 5]) as ->; [|repeat constructor].
  apply (only_way (agreement default_options (txt "abc")) (txt "abc") (txt "a__b_c")); [reflexivity| |exact Q].
  intros i j x y Hx Hy R.
  destruct i as [|[|[|i]]]; [..|destruct i; discriminate Hx]; injection Hx as <-;
    (do 6 (destruct j as [|j]; [injection Hy as <-; try reflexivity; destruct R as [R|[R _]]; discriminate R|])); destruct j; discriminate Hy.
Qed.

(** ** C77. The two metrics agree when there is one way to match *)

(** [fs] is the only alignment of the query, and its start is the only one of a start of the query which ends no later;
    and no two neighbouring positions are more than 14 apart. *)
Theorem C77_one_way : forall (UC : unicode) o m1 m2 text q c buf fs,
  metric_reached AlgoV1 o m1 -> metric_reached AlgoV2 o m2 -> fuzzy_query text q -> text <> [] ->
  alignment (agreement o text) text c fs ->
  (forall k js, alignment (agreement o text) (firstn k text) c js ->
     k = length text \/ last js 0 <= last fs 0 -> js = firstn k fs) ->
  (forall i, S i < length text -> nth (S i) fs 0 <= nth i fs 0 + 14) ->
  exists m1' m2' new,
    metric_distance_and_ranges m1 q c buf = Ok (Some (from_score (alignment_score (opt_scheme o) c fs)), m1', buf ++ new)
    /\ metric_distance_and_ranges m2 q c buf = Ok (Some (from_score (alignment_score (opt_scheme o) c fs)), m2', buf ++ new)
    /\ forall b, covered new b <-> exists j, In j fs /\ byte_of_char c j b.
Proof. exact (@c77_one_way). Qed.
Print Assumptions C77_one_way.

Example C77_example (UC := latin) :
  metric_reached AlgoV1 default_options (used AlgoV1 default_options)
  /\ metric_reached AlgoV2 default_options (used AlgoV2 default_options)
  /\ fuzzy_query (txt "abc") (the_query (txt "abc"))
  /\ alignment (agreement default_options (txt "abc")) (txt "abc") (txt "xa__b_c") [1; 4; 6]
  /\ (forall k js, alignment (agreement default_options (txt "abc")) (firstn k (txt "abc")) (txt "xa__b_c") js ->
        k = length (txt "abc") \/ last js 0 <= last [1; 4; 6] 0 -> js = firstn k [1; 4; 6])
  /\ (forall i, S i < length (txt "abc") -> nth (S i) [1; 4; 6] 0 <= nth i [1; 4; 6] 0 + 14)
  /\ shown_ranges (metric_distance_and_ranges (used AlgoV1 default_options) (the_query (txt "abc")) (txt "xa__b_c") [])
     = Some (Some (Distance 57), [(1, 2); (4, 5); (6, 7)])
  /\ shown_ranges (metric_distance_and_ranges (used AlgoV2 default_options) (the_query (txt "abc")) (txt "xa__b_c") [])
     = Some (Some (Distance 57), [(1, 2); (4, 5); (6, 7)])
  /\ alignment_score SchemeDefault (txt "xa__b_c") [1; 4; 6] = 57%Z.
Proof.
  split; [apply used_reached|]. split; [apply used_reached|]. split; [apply the_fuzzy_query; vm_compute; reflexivity|].
  split; [split; [repeat constructor|]; repeat constructor; (eexists; split; [vm_compute; reflexivity|left; vm_compute; reflexivity])|].
  split; [|split; [intros [|[|i]] Hi; cbn in *; lia|repeat split; vm_compute; reflexivity]].
  intros k js A _. revert k js A. apply only_way; [reflexivity|]. intros i j x y Hx Hy R.
  destruct i as [|[|[|i]]]; [..|destruct i; discriminate Hx]; injection Hx as <-;
    (do 7 (destruct j as [|j]; [injection Hy as <-; try reflexivity; destruct R as [R|[R _]]; discriminate R|])); destruct j; discriminate Hy.
Qed.
