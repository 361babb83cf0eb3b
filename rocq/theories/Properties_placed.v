(** Properties C94 and C95: candidates in which the characters of the query are placed better, or further apart. See Properties_results.v
    for the conventions. *)
From Coq Require Import Sorted String Lia.
From Verif Require Import Prelude Chars Utils Query Parser Scoring Fzf Api History Spec.
From Verif Require Import Claims27 Claims28 Claims48 Claims49 ExampleKit.
Local Open Scope nat_scope.

(** ** C94. A better placed match is not ranked worse *)

(** [c] and [c'] have the same length, at each position the same characters of the query agree with both, and
    where one agrees the bonus of [c'] is not less. FzfV1 ranks [c'] not behind [c]. *)
Theorem C94_v1 : forall (UC : unicode) o m m' text q c c' d m1,
  metric_reached AlgoV1 o m -> metric_reached AlgoV1 o m' -> fuzzy_query text q -> length c = length c' ->
  (forall x j y y', In x text -> nth_error c j = Some y -> nth_error c' j = Some y' ->
     (agreement o text x y <-> agreement o text x y')) ->
  (forall x j y, In x text -> nth_error c j = Some y -> agreement o text x y ->
     (bonus_of (opt_scheme o) c j <= bonus_of (opt_scheme o) c' j)%Z) ->
  metric_distance m q c = Ok (Some d, m1) ->
  exists d' m1', metric_distance m' q c' = Ok (Some d', m1') /\ distance_cmp d' d <> Gt.
Proof. exact (@c94_v1). Qed.
Print Assumptions C94_v1.

(** FzfV2 can rank it behind: the query [aba] scores 73 in [xAbBA] and 69 in [-AbBA], where the first [A] is
    the start of a word. *)
Theorem C94_v2_refuted : forall (UC : unicode), ~ (forall o m m' text q c c' d m1,
  metric_reached AlgoV2 o m -> metric_reached AlgoV2 o m' -> fuzzy_query text q -> length c = length c' ->
  (forall x j y y', In x text -> nth_error c j = Some y -> nth_error c' j = Some y' ->
     (agreement o text x y <-> agreement o text x y')) ->
  (forall x j y, In x text -> nth_error c j = Some y -> agreement o text x y ->
     (bonus_of (opt_scheme o) c j <= bonus_of (opt_scheme o) c' j)%Z) ->
  metric_distance m q c = Ok (Some d, m1) ->
  exists d' m1', metric_distance m' q c' = Ok (Some d', m1') /\ distance_cmp d' d <> Gt).
Proof.
  intros UC H.
  destruct (shown_ok (metric_distance (metric_with AlgoV2 default_options) (the_query (txt "aba")) (txt "xAbBA")) (Some (from_score 73)))
    as (m1 & E1); [vm_compute; reflexivity|].
  destruct (shown_ok (metric_distance (metric_with AlgoV2 default_options) (the_query (txt "aba")) (txt "-AbBA")) (Some (from_score 69)))
    as (m2 & E2); [vm_compute; reflexivity|].
  assert (Q : fuzzy_query (txt "aba") (the_query (txt "aba"))) by (apply the_fuzzy_query; vm_compute; reflexivity).
  destruct (H _ _ _ _ _ (txt "xAbBA") (txt "-AbBA") (from_score 73) m1 (metric_with_reached AlgoV2 default_options) (metric_with_reached AlgoV2 default_options) Q
    eq_refl) as (d' & m1' & E & C).
  - clear E1 E2. intros x j y y' Hx Hy Hy'.
    destruct j as [|[|[|[|[|j]]]]]; cbn in Hy, Hy'; try (destruct j; discriminate Hy);
      injection Hy as <-; injection Hy' as <-; try reflexivity.
    destruct Hx as [<-|[<-|[<-|[]]]]; unfold agreement; rewrite <- !NormalizeProofs.char_eq_agrees; vm_compute; split; discriminate.
  - clear E1 E2. intros x j y Hx Hy A.
    destruct j as [|[|[|[|[|j]]]]]; cbn in Hy; try (destruct j; discriminate Hy);
      try (apply Z.leb_le; vm_compute; reflexivity).
    exfalso. revert A. injection Hy as <-. destruct Hx as [<-|[<-|[<-|[]]]]; unfold agreement;
      rewrite <- !NormalizeProofs.char_eq_agrees; vm_compute; discriminate.
  - exact E1.
  - rewrite E2 in E. injection E as <- _. apply C. reflexivity.
Qed.
Print Assumptions C94_v2_refuted.

(** What holds for FzfV2. Missing: other queries and candidates, for which it is false. One-character queries: *)
Theorem C94_single_partial : forall (UC : unicode) o m m' x q c c' d m1,
  metric_reached AlgoV2 o m -> metric_reached AlgoV2 o m' -> fuzzy_query [x] q -> length c = length c' ->
  (forall j y y', nth_error c j = Some y -> nth_error c' j = Some y' -> (agreement o [x] x y <-> agreement o [x] x y')) ->
  (forall j y, nth_error c j = Some y -> agreement o [x] x y -> (bonus_of (opt_scheme o) c j <= bonus_of (opt_scheme o) c' j)%Z) ->
  metric_distance m q c = Ok (Some d, m1) ->
  exists d' m1', metric_distance m' q c' = Ok (Some d', m1') /\ distance_cmp d' d <> Gt.
Proof. exact (@c94_single). Qed.
Print Assumptions C94_single_partial.

(** And queries which can be found in one way [fs] only (as in C77): *)
Theorem C94_one_way_partial : forall (UC : unicode) o m m' text q c c' d m1 fs,
  metric_reached AlgoV2 o m -> metric_reached AlgoV2 o m' -> fuzzy_query text q -> text <> [] -> length c = length c' ->
  (forall x j y y', In x text -> nth_error c j = Some y -> nth_error c' j = Some y' ->
     (agreement o text x y <-> agreement o text x y')) ->
  (forall x j y, In x text -> nth_error c j = Some y -> agreement o text x y ->
     (bonus_of (opt_scheme o) c j <= bonus_of (opt_scheme o) c' j)%Z) ->
  alignment (agreement o text) text c fs ->
  (forall k js, alignment (agreement o text) (firstn k text) c js ->
     k = length text \/ last js 0 <= last fs 0 -> js = firstn k fs) ->
  (forall i, S i < length text -> nth (S i) fs 0 <= nth i fs 0 + 14) ->
  metric_distance m q c = Ok (Some d, m1) ->
  exists d' m1', metric_distance m' q c' = Ok (Some d', m1') /\ distance_cmp d' d <> Gt.
Proof. exact (@c94_one_way). Qed.
Print Assumptions C94_one_way_partial.

(** [foo_bar] is a better place for [fb] than [fooxbar]: the letter [b] starts a word there. *)
(** For FzfV2 it holds for queries of at most two characters; each further character can cost 10 points. *)
Theorem C94_two_partial : forall (UC : unicode) o m m' text q c c' d m1,
  metric_reached AlgoV2 o m -> metric_reached AlgoV2 o m' -> fuzzy_query text q -> length c = length c' ->
  (forall x j y y', In x text -> nth_error c j = Some y -> nth_error c' j = Some y' ->
     (agreement o text x y <-> agreement o text x y')) ->
  (forall x j y, In x text -> nth_error c j = Some y -> agreement o text x y ->
     (bonus_of (opt_scheme o) c j <= bonus_of (opt_scheme o) c' j)%Z) ->
  length text <= 2 ->
  metric_distance m q c = Ok (Some d, m1) ->
  exists d' m1', metric_distance m' q c' = Ok (Some d', m1') /\ distance_cmp d' d <> Gt.
Proof. exact (@c94_two). Qed.
Print Assumptions C94_two_partial.

Theorem C94_loss_partial : forall (UC : unicode) o m m' text q c c' d m1,
  metric_reached AlgoV2 o m -> metric_reached AlgoV2 o m' -> fuzzy_query text q -> length c = length c' ->
  (forall x j y y', In x text -> nth_error c j = Some y -> nth_error c' j = Some y' ->
     (agreement o text x y <-> agreement o text x y')) ->
  (forall x j y, In x text -> nth_error c j = Some y -> agreement o text x y ->
     (bonus_of (opt_scheme o) c j <= bonus_of (opt_scheme o) c' j)%Z) ->
  metric_distance m q c = Ok (Some d, m1) ->
  exists d' m1', metric_distance m' q c' = Ok (Some d', m1')
    /\ (into_score d <= into_score d' + Z.max 0 (10 * Z.of_nat (length text) - 20))%Z.
Proof. exact (@c94_loss). Qed.
Print Assumptions C94_loss_partial.

Example C94_example (UC := latin) :
  fuzzy_query (txt "fb") (the_query (txt "fb"))
  /\ length (txt "fooxbar") = length (txt "foo_bar")
  /\ (forall x j y y', In x (txt "fb") -> nth_error (txt "fooxbar") j = Some y -> nth_error (txt "foo_bar") j = Some y' ->
        (agreement default_options (txt "fb") x y <-> agreement default_options (txt "fb") x y'))
  /\ (forall x j y, In x (txt "fb") -> nth_error (txt "fooxbar") j = Some y -> agreement default_options (txt "fb") x y ->
        (bonus_of (opt_scheme default_options) (txt "fooxbar") j <= bonus_of (opt_scheme default_options) (txt "foo_bar") j)%Z)
  /\ alignment (agreement default_options (txt "fb")) (txt "fb") (txt "fooxbar") [0; 4]
  /\ shown (metric_distance (used AlgoV1 default_options) (the_query (txt "fb")) (txt "fooxbar")) = Some (Some (Distance 47))
  /\ shown (metric_distance (used AlgoV1 default_options) (the_query (txt "fb")) (txt "foo_bar")) = Some (Some (Distance 55))
  /\ shown (metric_distance (used AlgoV2 default_options) (the_query (txt "fb")) (txt "fooxbar")) = Some (Some (Distance 47))
  /\ shown (metric_distance (used AlgoV2 default_options) (the_query (txt "fb")) (txt "foo_bar")) = Some (Some (Distance 55)).
Proof.
  split; [apply the_fuzzy_query; vm_compute; reflexivity|]. split; [reflexivity|].
  split.
  { intros x j y y' Hx Hy Hy'.
    destruct j as [|[|[|[|[|[|[|j]]]]]]]; cbn in Hy, Hy'; try (destruct j; discriminate);
      injection Hy as <-; injection Hy' as <-; try reflexivity.
    destruct Hx as [<-|[<-|[]]]; unfold agreement; rewrite <- !NormalizeProofs.char_eq_agrees; vm_compute; split; discriminate. }
  split.
  { intros x j y Hx Hy A.
    destruct j as [|[|[|[|[|[|[|j]]]]]]]; cbn in Hy; try (destruct j; discriminate Hy); apply Z.leb_le; vm_compute; reflexivity. }
  split.
  { split; [repeat constructor|].
    constructor; [eexists; split; [reflexivity|apply NormalizeProofs.char_eq_agrees; vm_compute; reflexivity]|].
    constructor; [eexists; split; [reflexivity|apply NormalizeProofs.char_eq_agrees; vm_compute; reflexivity]|constructor]. }
  repeat split; vm_compute; reflexivity.
Qed.

(** ** C95. Pulling a match apart does not make it better *)

(** [u ++ w ++ v] is [u ++ v] with [w] inserted, where no character of the query agrees with one of [w]; the
    first character of [v] does not get a higher bonus. Both metrics can rank the longer candidate
    first: the query [obar] scores 79 in [foBar] and 82 in [foxBar]. *)
Theorem C95_apart_refuted : forall (UC : unicode) a, ~ (forall o m m' text q u w v d m1,
  metric_reached a o m -> metric_reached a o m' -> fuzzy_query text q ->
  (forall x y, In x text -> In y w -> ~ agreement o text x y) ->
  (bonus_of (opt_scheme o) (u ++ w ++ v) (length u + length w) <= bonus_of (opt_scheme o) (u ++ v) (length u))%Z ->
  metric_distance m q (u ++ v) = Ok (Some d, m1) ->
  exists d' m1', metric_distance m' q (u ++ w ++ v) = Ok (Some d', m1') /\ distance_cmp d d' <> Gt).
Proof.
  intros UC a H.
  destruct (shown_ok (metric_distance (metric_with a default_options) (the_query (txt "obar")) (txt "fo" ++ txt "Bar")) (Some (from_score 79)))
    as (m1 & E1); [destruct a; vm_compute; reflexivity|].
  destruct (shown_ok (metric_distance (metric_with a default_options) (the_query (txt "obar")) (txt "fo" ++ txt "x" ++ txt "Bar")) (Some (from_score 82)))
    as (m2 & E2); [destruct a; vm_compute; reflexivity|].
  assert (Q : fuzzy_query (txt "obar") (the_query (txt "obar"))) by (apply the_fuzzy_query; vm_compute; reflexivity).
  destruct (H _ _ _ _ _ (txt "fo") (txt "x") (txt "Bar") (from_score 79) m1 (metric_with_reached a default_options)
    (metric_with_reached a default_options) Q) as (d' & m1' & E & C).
  - clear E1 E2. intros x y Hx [<-|[]]. unfold agreement. rewrite <- !NormalizeProofs.char_eq_agrees.
    destruct Hx as [<-|[<-|[<-|[<-|[]]]]]; vm_compute; discriminate.
  - apply Z.leb_le. vm_compute. reflexivity.
  - exact E1.
  - rewrite E2 in E. injection E as <- _. apply C. reflexivity.
Qed.
Print Assumptions C95_apart_refuted.

(** What holds for FzfV1: the property, unless the first character of [v] gets 7 points there (a capital after a lower case letter,
    or a digit). *)
Theorem C95_v1_partial : forall (UC : unicode) o m m' text q u w v d m1,
  metric_reached AlgoV1 o m -> metric_reached AlgoV1 o m' -> fuzzy_query text q ->
  (forall x y, In x text -> In y w -> ~ agreement o text x y) ->
  (bonus_of (opt_scheme o) (u ++ w ++ v) (length u + length w) <= bonus_of (opt_scheme o) (u ++ v) (length u))%Z ->
  u = [] \/ bonus_of (opt_scheme o) (u ++ w ++ v) (length u + length w) <> 7%Z ->
  metric_distance m q (u ++ v) = Ok (Some d, m1) ->
  exists d' m1', metric_distance m' q (u ++ w ++ v) = Ok (Some d', m1') /\ distance_cmp d d' <> Gt.
Proof. exact (@c95_v1). Qed.
Print Assumptions C95_v1_partial.

(** With such a character FzfV1 gains not more than 3 points for each character of the query, less 9: nothing for a query of up to three
    characters, and 3 points for four, which [obar] gains in [C95_apart_refuted]. Missing: that it gains nothing, which is false. *)
Theorem C95_v1_gain_partial : forall (UC : unicode) o m m' text q u w v d m1,
  metric_reached AlgoV1 o m -> metric_reached AlgoV1 o m' -> fuzzy_query text q ->
  (forall x y, In x text -> In y w -> ~ agreement o text x y) ->
  (bonus_of (opt_scheme o) (u ++ w ++ v) (length u + length w) <= bonus_of (opt_scheme o) (u ++ v) (length u))%Z ->
  metric_distance m q (u ++ v) = Ok (Some d, m1) ->
  exists d' m1', metric_distance m' q (u ++ w ++ v) = Ok (Some d', m1')
    /\ (into_score d' <= into_score d + Z.max 0 (3 * Z.of_nat (length text) - 9))%Z.
Proof. exact (@c95_v1_gain). Qed.
Print Assumptions C95_v1_gain_partial.

(** The three points are attained. *)
Example C95_v1_gain_example (UC := latin) :
  fuzzy_query (txt "obar") (the_query (txt "obar"))
  /\ (forall x y, In x (txt "obar") -> In y (txt "x") -> ~ agreement default_options (txt "obar") x y)
  /\ bonus_of SchemeDefault (txt "fo" ++ txt "x" ++ txt "Bar") (length (txt "fo") + length (txt "x")) = 7%Z
  /\ bonus_of SchemeDefault (txt "fo" ++ txt "Bar") (length (txt "fo")) = 7%Z
  /\ shown (metric_distance (used AlgoV1 default_options) (the_query (txt "obar")) (txt "fo" ++ txt "Bar")) = Some (Some (Distance 79))
  /\ shown (metric_distance (used AlgoV1 default_options) (the_query (txt "obar")) (txt "fo" ++ txt "x" ++ txt "Bar")) = Some (Some (Distance 82)).
Proof.
  split; [apply the_fuzzy_query; vm_compute; reflexivity|]. split; [|repeat split; vm_compute; reflexivity].
  intros x y Hx Hy. unfold agreement. rewrite <- !NormalizeProofs.char_eq_agrees.
  destruct Hx as [<-|[<-|[<-|[<-|[]]]]]; destruct Hy as [<-|[]]; vm_compute; discriminate.
Qed.

(** For FzfV2 this is not enough: the query [ab] scores 36 in [aab-b] and 38 in [axxxab-b]. *)
Theorem C95_v2_refuted : forall (UC : unicode), ~ (forall o m m' text q u w v d m1,
  metric_reached AlgoV2 o m -> metric_reached AlgoV2 o m' -> fuzzy_query text q ->
  (forall x y, In x text -> In y w -> ~ agreement o text x y) ->
  (bonus_of (opt_scheme o) (u ++ w ++ v) (length u + length w) <= bonus_of (opt_scheme o) (u ++ v) (length u))%Z ->
  u = [] \/ bonus_of (opt_scheme o) (u ++ w ++ v) (length u + length w) <> 7%Z ->
  metric_distance m q (u ++ v) = Ok (Some d, m1) ->
  exists d' m1', metric_distance m' q (u ++ w ++ v) = Ok (Some d', m1') /\ distance_cmp d d' <> Gt).
Proof.
  intros UC H.
  destruct (shown_ok (metric_distance (metric_with AlgoV2 default_options) (the_query (txt "ab")) (txt "a" ++ txt "ab-b")) (Some (from_score 36)))
    as (m1 & E1); [vm_compute; reflexivity|].
  destruct (shown_ok (metric_distance (metric_with AlgoV2 default_options) (the_query (txt "ab")) (txt "a" ++ txt "xxx" ++ txt "ab-b")) (Some (from_score 38)))
    as (m2 & E2); [vm_compute; reflexivity|].
  assert (Q : fuzzy_query (txt "ab") (the_query (txt "ab"))) by (apply the_fuzzy_query; vm_compute; reflexivity).
  destruct (H _ _ _ _ _ (txt "a") (txt "xxx") (txt "ab-b") (from_score 36) m1 (metric_with_reached AlgoV2 default_options)
    (metric_with_reached AlgoV2 default_options) Q) as (d' & m1' & E & C).
  - clear E1 E2. intros x y Hx Hy. unfold agreement. rewrite <- !NormalizeProofs.char_eq_agrees.
    destruct Hx as [<-|[<-|[]]]; destruct Hy as [<-|[<-|[<-|[]]]]; vm_compute; discriminate.
  - apply Z.leb_le. vm_compute. reflexivity.
  - right. apply Z.eqb_neq. vm_compute. reflexivity.
  - exact E1.
  - rewrite E2 in E. injection E as <- _. apply C. reflexivity.
Qed.
Print Assumptions C95_v2_refuted.

(** One-character queries. Missing: longer ones, for which it is false. *)
Theorem C95_single_partial : forall (UC : unicode) o m m' x q u w v d m1,
  metric_reached AlgoV2 o m -> metric_reached AlgoV2 o m' -> fuzzy_query [x] q ->
  (forall y, In y w -> ~ agreement o [x] x y) ->
  (bonus_of (opt_scheme o) (u ++ w ++ v) (length u + length w) <= bonus_of (opt_scheme o) (u ++ v) (length u))%Z ->
  metric_distance m q (u ++ v) = Ok (Some d, m1) ->
  exists d' m1', metric_distance m' q (u ++ w ++ v) = Ok (Some d', m1') /\ distance_cmp d d' <> Gt.
Proof. exact (@c95_single). Qed.
Print Assumptions C95_single_partial.

(** What FzfV2 can gain: not more than 12 points for each character of the query, less 22 (nothing for one character,
    2 points for two, which [ab] gains in [C95_v2_refuted]). Missing: that it gains nothing, which is false. *)
Theorem C95_v2_gain_partial : forall (UC : unicode) o m m' text q u w v d m1,
  metric_reached AlgoV2 o m -> metric_reached AlgoV2 o m' -> fuzzy_query text q ->
  (forall x y, In x text -> In y w -> ~ agreement o text x y) ->
  (bonus_of (opt_scheme o) (u ++ w ++ v) (length u + length w) <= bonus_of (opt_scheme o) (u ++ v) (length u))%Z ->
  metric_distance m q (u ++ v) = Ok (Some d, m1) ->
  exists d' m1', metric_distance m' q (u ++ w ++ v) = Ok (Some d', m1')
    /\ (into_score d' <= into_score d + Z.max 0 (12 * Z.of_nat (length text) - 22))%Z.
Proof. exact (@c95_gain). Qed.
Print Assumptions C95_v2_gain_partial.

(** The two points are attained. *)
Example C95_v2_gain_example (UC := latin) :
  fuzzy_query (txt "ab") (the_query (txt "ab"))
  /\ (forall x y, In x (txt "ab") -> In y (txt "xxx") -> ~ agreement default_options (txt "ab") x y)
  /\ (bonus_of SchemeDefault (txt "a" ++ txt "xxx" ++ txt "ab-b") (length (txt "a") + length (txt "xxx"))
      <= bonus_of SchemeDefault (txt "a" ++ txt "ab-b") (length (txt "a")))%Z
  /\ shown (metric_distance (used AlgoV2 default_options) (the_query (txt "ab")) (txt "a" ++ txt "ab-b")) = Some (Some (Distance 36))
  /\ shown (metric_distance (used AlgoV2 default_options) (the_query (txt "ab")) (txt "a" ++ txt "xxx" ++ txt "ab-b")) = Some (Some (Distance 38)).
Proof.
  split; [apply the_fuzzy_query; vm_compute; reflexivity|]. split; [|repeat split; vm_compute; (reflexivity || discriminate)].
  intros x y Hx Hy. unfold agreement. rewrite <- !NormalizeProofs.char_eq_agrees.
  destruct Hx as [<-|[<-|[]]]; destruct Hy as [<-|[<-|[<-|[]]]]; vm_compute; discriminate.
Qed.

(** The [b] of [foo_xx_bar] has the same bonus as that of [foo_bar], but it is further away from the [f]. *)
Example C95_example (UC := latin) :
  fuzzy_query (txt "fb") (the_query (txt "fb"))
  /\ (forall x y, In x (txt "fb") -> In y (txt "xx_") -> ~ agreement default_options (txt "fb") x y)
  /\ bonus_of SchemeDefault (txt "foo_" ++ txt "xx_" ++ txt "bar") (length (txt "foo_") + length (txt "xx_")) = 8%Z
  /\ bonus_of SchemeDefault (txt "foo_" ++ txt "bar") (length (txt "foo_")) = 8%Z
  /\ shown (metric_distance (used AlgoV1 default_options) (the_query (txt "fb")) (txt "foo_" ++ txt "bar")) = Some (Some (Distance 55))
  /\ shown (metric_distance (used AlgoV1 default_options) (the_query (txt "fb")) (txt "foo_" ++ txt "xx_" ++ txt "bar")) = Some (Some (Distance 52)).
Proof.
  split; [apply the_fuzzy_query; vm_compute; reflexivity|]. split; [|repeat split; vm_compute; reflexivity].
  intros x y Hx Hy. unfold agreement. rewrite <- !NormalizeProofs.char_eq_agrees.
  destruct Hx as [<-|[<-|[]]]; destruct Hy as [<-|[<-|[<-|[]]]]; vm_compute; discriminate.
Qed.
