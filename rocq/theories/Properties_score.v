(** Properties C38 to C48 and C51: distances, and which of several matches is chosen. See
    Properties_results.v for the conventions. *)
From Coq Require Import Sorted String Lia.
From Verif Require Import Prelude Chars Normalize Utils Candidate Query Parser Scoring Slab Fzf FzfV1 FzfV2 Api History Spec.
From Verif Require Import Claims1 Claims2 Claims3 Claims4 Claims5 Claims6 Claims7 Claims8 Claims31 Loss ExampleKit.
Local Open Scope nat_scope.

(** ** C38. Distances are totally ordered, better scores first *)

Theorem C38_order : forall d1 d2 d3,
  (distance_cmp d1 d2 = Eq <-> d1 = d2)
  /\ (distance_cmp d1 d2 = Lt <-> (into_score d2 < into_score d1)%Z)
  /\ distance_cmp d2 d1 = CompOpp (distance_cmp d1 d2)
  /\ (distance_cmp d1 d2 = Lt -> distance_cmp d2 d3 = Lt -> distance_cmp d1 d3 = Lt)
  /\ (distance_eqb d1 d2 = true <-> d1 = d2).
Proof. exact (@c38_order). Qed.
Print Assumptions C38_order.

Example C38_example : distance_cmp (from_score 57) (from_score 36)
     = Lt /\ distance_cmp (from_score 36) (from_score 36)
     = Eq.
Proof. split; vm_compute; reflexivity. Qed.

(** ** C39. Bounds of the scores *)

Theorem C39_fuzzy : forall (UC : unicode) a o m text q c d m',
  metric_reached a o m -> fuzzy_query text q -> text <> [] ->
  metric_distance m q c = Ok (Some d, m') ->
  (15 * Z.of_nat (length text) + 2 - Z.of_nat (length c) <= into_score d
     <= 26 * Z.of_nat (length text) + 10)%Z
  /\ (a = AlgoV2 -> (16 <= into_score d)%Z).
Proof. exact (@c39_fuzzy). Qed.
Print Assumptions C39_fuzzy.

Theorem C39_other : forall (UC : unicode) a o m ps s k text c d,
  metric_reached a o m -> parse_spec s = [[Term false k text]] -> k <> KFuzzy ->
  find ps m s c = Ok (Some d) ->
  (20 * Z.of_nat (length text) - 4 <= into_score d <= 26 * Z.of_nat (length text) + 10)%Z.
Proof. exact (@c39_other). Qed.
Print Assumptions C39_other.

(** Whole queries of [length s] characters. *)
Theorem C39_query : forall (UC : unicode) a o m ps s c d,
  metric_reached a o m -> find ps m s c = Ok (Some d) ->
  (- Z.of_nat (length s * length c) <= into_score d <= 36 * Z.of_nat (length s))%Z.
Proof. exact (@c39_query). Qed.
Print Assumptions C39_query.

Theorem C39_not_extended : forall (UC : unicode) a o m ps s c d,
  metric_reached a o m -> find_raw ps m s c = Ok (Some d) ->
  (- Z.of_nat (length s * length c) <= into_score d <= 36 * Z.of_nat (length s))%Z.
Proof. exact (@c39_not_extended). Qed.
Print Assumptions C39_not_extended.

(** Scores fit into 64 bits unless the strings have more than about 2^31 characters. *)
Theorem C39_fits : forall (UC : unicode) a o m ps s c d,
  metric_reached a o m -> find ps m s c = Ok (Some d) ->
  (36 * Z.of_nat (length s) < 2 ^ 63)%Z -> (Z.of_nat (length s) * Z.of_nat (length c) <= 2 ^ 63)%Z ->
  (- 2 ^ 63 <= into_score d < 2 ^ 63)%Z.
Proof. exact (@c39_fits). Qed.
Print Assumptions C39_fits.

Example C39_example (UC := latin) :
  fuzzy_query (txt "fb") (the_query (txt "fb"))
  /\ shown (metric_distance (used AlgoV1 default_options) (the_query (txt "fb")) (txt "f_________________________________________________b"))
     = Some (Some (Distance 9))
  /\ shown (metric_distance (used AlgoV2 default_options) (the_query (txt "fb")) (txt "f_________________________________________________b"))
     = Some (Some (Distance 36))
  /\ find parser_new (used AlgoV2 default_options) (txt "^foo bar$ !x") (txt "foo bar")
     = Ok (Some (Distance 176))
  /\ (36 * Z.of_nat (length (txt "^foo bar$ !x")) < 2 ^ 63)%Z.
Proof. split; [apply the_fuzzy_query; vm_compute; reflexivity|]. repeat split; vm_compute; reflexivity. Qed.

(** ** C40. FzfV1 takes the window which ends first, and of these the one which starts last *)

Theorem C40_v1_window : forall (UC : unicode) o m text q c buf d m' buf',
  metric_reached AlgoV1 o m -> fuzzy_query text q -> text <> [] ->
  metric_distance_and_ranges m q c buf = Ok (Some d, m', buf') ->
  exists new js, buf' = buf ++ new /\ window (agreement o text) text c js
    /\ forall b, covered new b <-> exists j, In j js /\ byte_of_char c j b.
Proof. exact (@c40_v1_window). Qed.
Print Assumptions C40_v1_window.

(** The rule determines the alignment, and applies whenever there is a match. *)
Theorem C40_window_unique : forall (R : char -> char -> Prop) text c js js',
  window R text c js -> window R text c js' -> js = js'.
Proof. exact window_unique. Qed.
Print Assumptions C40_window_unique.

Theorem C40_window_exists : forall (UC : unicode) o text c, text <> [] -> fuzzy_in (agreement o text) text c ->
  exists js, window (agreement o text) text c js.
Proof. exact (@window_exists). Qed.
Print Assumptions C40_window_exists.

Example C40_example (UC := latin) :
  fuzzy_query (txt "abc") (the_query (txt "abc")) /\ txt "abc" <> []
  /\ fuzzy_in (agreement default_options (txt "abc")) (txt "abc") (txt "a_aXb_bcabc")
  /\ shown_ranges (metric_distance_and_ranges (used AlgoV1 default_options) (the_query (txt "abc")) (txt "a_aXb_bcabc") [])
     = Some (Some (Distance 57), [(2, 3); (4, 5); (7, 8)]).
Proof.
  split; [apply the_fuzzy_query; vm_compute; reflexivity|]. split; [discriminate|]. split; [|vm_compute; reflexivity].
  exists [2; 4; 7]. split; [repeat constructor|].
  repeat constructor; (eexists; split; [vm_compute; reflexivity|left; vm_compute; reflexivity]).
Qed.

(** ** C41. The score of FzfV1 is the formula [alignment_score] of that alignment *)

Theorem C41_v1_score : forall (UC : unicode) o m text q c d m' js,
  metric_reached AlgoV1 o m -> fuzzy_query text q -> text <> [] ->
  metric_distance m q c = Ok (Some d, m') ->
  window (agreement o text) text c js ->
  d = from_score (alignment_score (opt_scheme o) c js).
Proof. exact (@c41_v1_score). Qed.
Print Assumptions C41_v1_score.

Example C41_example (UC := latin) :
  shown (metric_distance (used AlgoV1 default_options) (the_query (txt "abc")) (txt "a_aXb_bcabc"))
     = Some (Some (Distance 57))
  /\ alignment_score SchemeDefault (txt "a_aXb_bcabc") [2; 4; 7]
     = 57%Z.
Proof. split; vm_compute; reflexivity. Qed.

(** ** C42. FzfV1 ignores what follows the match *)

Theorem C42_v1_appended : forall (UC : unicode) o m text q c post buf d m' buf',
  metric_reached AlgoV1 o m -> fuzzy_query text q ->
  metric_distance_and_ranges m q c buf = Ok (Some d, m', buf') ->
  exists m'', metric_distance_and_ranges m q (c ++ post) buf = Ok (Some d, m'', buf').
Proof. exact (@c42_v1_appended). Qed.
Print Assumptions C42_v1_appended.

(** Also for queries of several fuzzy terms. *)
Theorem C42_v1_appended_query : forall (UC : unicode) o m ps s c post buf d buf',
  metric_reached AlgoV1 o m ->
  Forall (fun alternatives => exists text, alternatives = [Term false KFuzzy text]) (parse_spec s) ->
  find_ranges ps m s c buf = Ok (Some d, buf') ->
  find_ranges ps m s (c ++ post) buf = Ok (Some d, buf').
Proof. exact (@c42_v1_appended_query). Qed.
Print Assumptions C42_v1_appended_query.

Example C42_example (UC := latin) :
  fuzzy_query (txt "ob") (the_query (txt "ob"))
  /\ Forall (fun alternatives => exists text, alternatives = [Term false KFuzzy text]) (parse_spec (txt "ob f"))
  /\ find_ranges parser_new (used AlgoV1 default_options) (txt "ob f") (txt "foo_b") []
     = Ok (Some (Distance 73), [(0, 1); (2, 3); (4, 5)])
  /\ find_ranges parser_new (used AlgoV1 default_options) (txt "ob f") (txt "foo_bar ob f") []
     = Ok (Some (Distance 73), [(0, 1); (2, 3); (4, 5)]).
Proof.
  split; [apply the_fuzzy_query; vm_compute; reflexivity|]. split; [|split; vm_compute; reflexivity].
  replace (parse_spec (txt "ob f")) with [[Term false KFuzzy (txt "ob")]; [Term false KFuzzy (txt "f")]] by (vm_compute; reflexivity).
  repeat constructor; eexists; reflexivity.
Qed.

(** ** C43. The score of FzfV2 is the best cell of the table defined in Spec.v, and what it
    highlights is read off that table *)

Theorem C43_v2_recurrence : forall (UC : unicode) o m text q c buf d m' buf' hit fs stop y,
  metric_reached AlgoV2 o m -> fuzzy_query text q -> text <> [] ->
  metric_distance_and_ranges m q c buf = Ok (Some d, m', buf') ->
  (* hit i j: query character i agrees with candidate character j *)
  (forall i j, hit i j = true <->
     exists x z, nth_error text i = Some x /\ nth_error c j = Some z /\ agreement o text x z) ->
  (* the table starts with the leftmost alignment, and ends with the last character which
     agrees with the last of the query *)
  leftmost (agreement o text) text c fs ->
  nth_error c stop = Some y -> agreement o text (last text 0%N) y ->
  (forall k z, stop < k -> nth_error c k = Some z -> ~ agreement o text (last text 0%N) z) ->
  let bonus := bonus_of (opt_scheme o) c in
  let first := fun i => nth i fs 0 in
  exists i j new,
    best_cell hit bonus first stop (length text) i j
    /\ d = from_score (pts (table hit bonus first stop i j))
    /\ buf' = buf ++ new
    /\ forall b, covered new b <->
         exists k, In k (way_back hit bonus first stop (length text) i j true) /\ byte_of_char c k b.
Proof. exact (@c43_v2_recurrence). Qed.
Print Assumptions C43_v2_recurrence.

(** There are such [hit], [fs], [stop] and [y] whenever there is a match. *)
Theorem C43_table_exists : forall (UC : unicode) o text c, text <> [] -> fuzzy_in (agreement o text) text c ->
  exists (hit : nat -> nat -> bool) fs stop y,
    (forall i j, hit i j = true <->
       exists x z, nth_error text i = Some x /\ nth_error c j = Some z /\ agreement o text x z)
    /\ leftmost (agreement o text) text c fs
    /\ nth_error c stop = Some y /\ agreement o text (last text 0%N) y
    /\ forall k z, stop < k -> nth_error c k = Some z -> ~ agreement o text (last text 0%N) z.
Proof. exact (@table_exists). Qed.
Print Assumptions C43_table_exists.

Example C43_example (UC := latin) :
  fuzzy_query (txt "ab") (the_query (txt "ab"))
  /\ fuzzy_in (agreement default_options (txt "ab")) (txt "ab") (txt "xa_ab_")
  /\ shown_ranges (metric_distance_and_ranges (used AlgoV2 default_options) (the_query (txt "ab")) (txt "xa_ab_") [])
     = Some (Some (Distance 56), [(3, 5)])
  /\ (let hit i j := N.eqb (nth i (txt "ab") 0%N) (nth j (txt "xa_ab_") 1%N) in
      let bonus := bonus_of SchemeDefault (txt "xa_ab_") in
      let first i := nth i [1; 4] 0 in
      pts (table hit bonus first 4 1 4) = 56%Z /\ way_back hit bonus first 4 2 1 4 true = [4; 3]).
Proof.
  split; [apply the_fuzzy_query; vm_compute; reflexivity|]. split; [|repeat split; vm_compute; reflexivity].
  exists [1; 4]. split; [repeat constructor|].
  repeat constructor; (eexists; split; [vm_compute; reflexivity|left; vm_compute; reflexivity]).
Qed.

(** ** C44. FzfV2 never scores less than FzfV1: false *)

Theorem C44_v2_at_least_v1_refuted : forall (UC : unicode), ~ (forall o m1 m2 text q c d1 d2 m1' m2',
  metric_reached AlgoV1 o m1 -> metric_reached AlgoV2 o m2 -> fuzzy_query text q ->
  metric_distance m1 q c = Ok (Some d1, m1') -> metric_distance m2 q c = Ok (Some d2, m2') ->
  distance_cmp d2 d1 <> Gt).
Proof.
  intros UC H.
  destruct (shown_ok (metric_distance (metric_with AlgoV1 default_options) (the_query (txt "abc")) (txt "abbbc")) (Some (from_score 74)))
    as (m1' & E1); [vm_compute; reflexivity|].
  destruct (shown_ok (metric_distance (metric_with AlgoV2 default_options) (the_query (txt "abc")) (txt "abbbc")) (Some (from_score 72)))
    as (m2' & E2); [vm_compute; reflexivity|].
  assert (Q : fuzzy_query (txt "abc") (the_query (txt "abc"))) by (apply the_fuzzy_query; vm_compute; reflexivity).
  apply (H _ _ _ _ _ _ _ _ _ _ (metric_with_reached AlgoV1 default_options) (metric_with_reached AlgoV2 default_options) Q E1 E2).
  reflexivity.
Qed.
Print Assumptions C44_v2_at_least_v1_refuted.

(** What holds: FzfV2 scores at least as much as any alignment [qs] would if every skipped
    character cost 3 points and runs of adjacent characters earned nothing, provided
    that the first query character does not occur between its position and the next. Missing: a
    comparison with the scores of FzfV1, which is false. *)
Theorem C44_v2_lower_partial : forall (UC : unicode) o m text q c d m' qs,
  metric_reached AlgoV2 o m -> fuzzy_query text q -> text <> [] ->
  metric_distance m q c = Ok (Some d, m') ->
  alignment (agreement o text) text c qs ->
  (forall k y, hd 0 qs < k < nth 1 qs 0 -> nth_error c k = Some y -> ~ agreement o text (hd 0%N text) y) ->
  (bonus_of (opt_scheme o) c (hd 0%nat qs) + sum (map (fun j => 16 + bonus_of (opt_scheme o) c j) qs)
   - 3 * (Z.of_nat (last qs 0%nat) - Z.of_nat (hd 0%nat qs) + 1 - Z.of_nat (length text)) <= into_score d)%Z.
Proof. exact (@c44_v2_lower_partial). Qed.
Print Assumptions C44_v2_lower_partial.

Example C44_example (UC := latin) :
  fuzzy_query (txt "abc") (the_query (txt "abc"))
  /\ shown (metric_distance (used AlgoV2 default_options) (the_query (txt "abc")) (txt "a_b_c"))
     = Some (Some (Distance 78))
  /\ alignment (agreement default_options (txt "abc")) (txt "abc") (txt "a_b_c") [0; 2; 4]
  /\ (forall k y, hd 0 [0; 2; 4] < k < nth 1 [0; 2; 4] 0 -> nth_error (txt "a_b_c") k = Some y ->
        ~ agreement default_options (txt "abc") (hd 0%N (txt "abc")) y)
  /\ (bonus_of SchemeDefault (txt "a_b_c") 0 + sum (map (fun j => 16 + bonus_of SchemeDefault (txt "a_b_c") j) [0; 2; 4]%nat) - 3 * (4 - 0 + 1 - 3))%Z
     = 78%Z.
Proof.
  split; [apply the_fuzzy_query; vm_compute; reflexivity|]. split; [vm_compute; reflexivity|]. split.
  - split; [repeat constructor|]. repeat constructor; (eexists; split; [vm_compute; reflexivity|left; vm_compute; reflexivity]).
  - split; [|vm_compute; reflexivity]. cbn [hd nth]. intros k y Hk Hy. assert (k = 1) as -> by lia. vm_compute in Hy. injection Hy as <-.
    intros [A|[A _]]; discriminate A.
Qed.

(** How much less it can be: 2 points for each time that a query character recurs between its position in the window
    which FzfV1 chooses and that of the next character (but not directly before the latter), and 9 for each adjacent pair of positions but the first pair. *)
Theorem C44_loss_partial : forall (UC : unicode) o m1 m2 text q c d1 d2 m1' m2' ps hit,
  metric_reached AlgoV1 o m1 -> metric_reached AlgoV2 o m2 -> fuzzy_query text q -> text <> [] ->
  metric_distance m1 q c = Ok (Some d1, m1') -> metric_distance m2 q c = Ok (Some d2, m2') ->
  (* hit i j: query character i agrees with candidate character j *)
  (forall i j, hit i j = true <->
     exists x z, nth_error text i = Some x /\ nth_error c j = Some z /\ agreement o text x z) ->
  window (agreement o text) text c ps ->
  (into_score d1 <= into_score d2 + 2 * Z.of_nat (recurring hit 0 ps) + 9 * Z.of_nat (adjacent (tl ps)))%Z.
Proof. exact (@c44_loss). Qed.
Print Assumptions C44_loss_partial.

(** The same for the points of any other alignment, if the first query character does not recur before the second. *)
Theorem C44_any_partial : forall (UC : unicode) o m text q c d m' qs hit,
  metric_reached AlgoV2 o m -> fuzzy_query text q -> text <> [] ->
  metric_distance m q c = Ok (Some d, m') ->
  (forall i j, hit i j = true <->
     exists x z, nth_error text i = Some x /\ nth_error c j = Some z /\ agreement o text x z) ->
  alignment (agreement o text) text c qs ->
  (forall k, hd 0 qs < k < nth 1 qs 0 -> hit 0 k = false) ->
  (alignment_score (opt_scheme o) c qs
   <= into_score d + 2 * Z.of_nat (recurring hit 0 qs) + 9 * Z.of_nat (adjacent (tl qs)))%Z.
Proof. exact (@c44_any). Qed.
Print Assumptions C44_any_partial.

(** So the claim is true of queries of at most two characters. *)
Theorem C44_two_partial : forall (UC : unicode) o m1 m2 text q c d1 d2 m1' m2',
  metric_reached AlgoV1 o m1 -> metric_reached AlgoV2 o m2 -> fuzzy_query text q -> length text <= 2 ->
  metric_distance m1 q c = Ok (Some d1, m1') -> metric_distance m2 q c = Ok (Some d2, m2') ->
  distance_cmp d2 d1 <> Gt.
Proof. exact (@c44_two). Qed.
Print Assumptions C44_two_partial.

(** The counterexample above reaches the bound. A loss at an adjacent pair after the first, and two characters for which FzfV2 is
    better. *)
Example C44_loss_example (UC := latin) :
  (let hit i j := N.eqb (nth i (txt "abc") 0%N) (nth j (txt "abbbc") 1%N) in
   recurring hit 0 [0; 1; 4] = 1 /\ adjacent (tl [0; 1; 4]) = 0)
  /\ shown (metric_distance (used AlgoV1 default_options) (the_query (txt "abc")) (txt "abbbc")) = Some (Some (Distance 74))
  /\ shown (metric_distance (used AlgoV2 default_options) (the_query (txt "abc")) (txt "abbbc")) = Some (Some (Distance 72))
  /\ (let hit i j := N.eqb (nth i (txt "aab") 0%N) (nth j (txt "b- bb-aa-ab") 1%N) in
      recurring hit 0 [7; 9; 10] = 0 /\ adjacent (tl [7; 9; 10]) = 1)
  /\ shown (metric_distance (used AlgoV1 default_options) (the_query (txt "aab")) (txt "B- Bb-aA-AB")) = Some (Some (Distance 75))
  /\ shown (metric_distance (used AlgoV2 default_options) (the_query (txt "aab")) (txt "B- Bb-aA-AB")) = Some (Some (Distance 68))
  /\ fuzzy_query (txt "ab") (the_query (txt "ab"))
  /\ shown (metric_distance (used AlgoV1 default_options) (the_query (txt "ab")) (txt "xaxb_ab")) = Some (Some (Distance 29))
  /\ shown (metric_distance (used AlgoV2 default_options) (the_query (txt "ab")) (txt "xaxb_ab")) = Some (Some (Distance 56)).
Proof.
  split; [split; vm_compute; reflexivity|]. split; [vm_compute; reflexivity|]. split; [vm_compute; reflexivity|].
  split; [split; vm_compute; reflexivity|]. split; [vm_compute; reflexivity|]. split; [vm_compute; reflexivity|].
  split; [apply the_fuzzy_query; vm_compute; reflexivity|]. split; vm_compute; reflexivity.
Qed.

(** ** C45. FzfV2 takes the best occurrence of a single character, the leftmost of several *)

Theorem C45_v2_single : forall (UC : unicode) o m x q c buf d m' buf',
  metric_reached AlgoV2 o m -> fuzzy_query [x] q ->
  metric_distance_and_ranges m q c buf = Ok (Some d, m', buf') ->
  exists pre y post, c = pre ++ y :: post /\ agreement o [x] x y
    /\ d = from_score (16 + 2 * bonus_of (opt_scheme o) c (length pre))
    /\ buf' = buf ++ [(byte_len pre, byte_len (pre ++ [y]))]
    /\ forall k z, nth_error c k = Some z -> agreement o [x] x z ->
         (bonus_of (opt_scheme o) c k <= bonus_of (opt_scheme o) c (length pre))%Z
         /\ (k < length pre -> (bonus_of (opt_scheme o) c k < bonus_of (opt_scheme o) c (length pre))%Z).
Proof. exact (@c45_v2_single). Qed.
Print Assumptions C45_v2_single.

Example C45_example (UC := latin) :
  fuzzy_query (txt "a") (the_query (txt "a"))
  /\ shown_ranges (metric_distance_and_ranges (used AlgoV2 default_options) (the_query (txt "a")) (txt "xa,a a/ a") [])
     = Some (Some (Distance 36), [(5, 6)]).
Proof. split; [apply the_fuzzy_query; vm_compute; reflexivity|]. vm_compute; reflexivity. Qed.

(** ** C46. Exact terms take the best occurrence: false *)

Theorem C46_exact_best_refuted : forall (UC : unicode) a, ~ (forall o m ps s text c buf d buf',
  metric_reached a o m -> parse_spec s = [[Term false KExact text]] ->
  find_ranges ps m s c buf = Ok (Some d, buf') ->
  let bonus := bonus_of (opt_scheme o) c in
  exists pre mid post, found_at o text c pre mid post buf (Ok (Some d, buf'))
    /\ ((8 <= bonus (length pre))%Z
        \/ forall j, occurs_at (agreement o text) text c j -> (bonus j <= bonus (length pre))%Z)).
Proof.
  intros UC a H.
  assert (P : parse_spec (txt "'a") = [[Term false KExact (txt "a")]]) by (vm_compute; reflexivity).
  assert (E : find_ranges parser_new (metric_with a default_options) (txt "'a") (txt "XaA") [] = Ok (Some (from_score 16), [(1, 2)]))
    by (destruct a; vm_compute; reflexivity).
  destruct (H _ _ _ _ _ _ _ _ _ (metric_with_reached a default_options) P E) as (pre & mid & post & (Hc & _ & Hf) & Hb).
  assert (Hl : byte_len pre = 1) by (cbn [app] in Hf; congruence).
  assert (pre = txt "X") as ->.
  { destruct pre as [|x pre]; [discriminate Hl|]. injection Hc as <- Hc.
    destruct pre as [|y pre]; [reflexivity|]. injection Hc as <- _. cbn in Hl. discriminate Hl. }
  destruct Hb as [Hb|Hb]; [apply Hb; vm_compute; reflexivity|].
  assert (O : occurs_at (agreement default_options (txt "a")) (txt "a") (txt "XaA") 2).
  { exists (txt "Xa"), (txt "A"), []. split; [reflexivity|]. split; [reflexivity|]. constructor; [left; vm_compute; reflexivity|constructor]. }
  apply (Hb 2 O). vm_compute. reflexivity.
Qed.
Print Assumptions C46_exact_best_refuted.

(** What holds: the property if no two neighbouring characters of the candidate agree with the
    first character of the term, unless the second character of the term tells them apart.
    Missing: the other candidates. *)
Theorem C46_exact_best_partial : forall (UC : unicode) a o m ps s text c buf d buf',
  metric_reached a o m -> parse_spec s = [[Term false KExact text]] ->
  find_ranges ps m s c buf = Ok (Some d, buf') ->
  (* neighbouring characters which both agree with the first of the term are told apart by the second *)
  (forall k y z, nth_error c k = Some y -> nth_error c (S k) = Some z ->
     agreement o text (hd 0%N text) y -> agreement o text (hd 0%N text) z ->
     exists x, nth_error text 1 = Some x /\ ~ agreement o text x z) ->
  let bonus := bonus_of (opt_scheme o) c in
  exists pre mid post, found_at o text c pre mid post buf (Ok (Some d, buf'))
    /\ (forall j, occurs_at (agreement o text) text c j -> j < length pre ->
          (bonus j < bonus (length pre) /\ bonus j < 8)%Z)
    /\ ((8 <= bonus (length pre))%Z
        \/ forall j, occurs_at (agreement o text) text c j -> (bonus j <= bonus (length pre))%Z).
Proof. exact (@c46_exact_best_partial). Qed.
Print Assumptions C46_exact_best_partial.

Example C46_example (UC := latin) :
  parse_spec (txt "'ba") = [[Term false KExact (txt "ba")]]
  /\ find_ranges parser_new (used AlgoV1 default_options) (txt "'ba") (txt "abbaBar_ba") []
     = Ok (Some (Distance 56), [(8, 10)])
  /\ (forall k y z, nth_error (txt "abbaBar_ba") k = Some y -> nth_error (txt "abbaBar_ba") (S k) = Some z ->
       agreement default_options (txt "ba") (hd 0%N (txt "ba")) y -> agreement default_options (txt "ba") (hd 0%N (txt "ba")) z ->
       exists x, nth_error (txt "ba") 1 = Some x /\ ~ agreement default_options (txt "ba") x z).
Proof.
  split; [vm_compute; reflexivity|]. split; [vm_compute; reflexivity|].
  intros k y z Hy Hz Ay Az. exists 97%N. split; [reflexivity|]. intros A.
  assert (fold_case z = 98%N) by (destruct Az as [Az|[Az _]]; [vm_compute in Az; symmetry; exact Az|discriminate Az]).
  assert (fold_case z = 97%N) by (destruct A as [A|[A _]]; [vm_compute in A; symmetry; exact A|discriminate A]).
  congruence.
Qed.

(** The exact behaviour, for all candidates: the rule holds for the points which the search
    sees, see [bonus_seen] in Spec.v. *)
Theorem C46_choice_partial : forall (UC : unicode) a o m ps s text c buf d buf' same,
  metric_reached a o m -> parse_spec s = [[Term false KExact text]] ->
  (forall x y, same x y = true <-> agreement o text x y) ->
  find_ranges ps m s c buf = Ok (Some d, buf') ->
  let bonus := bonus_seen same (opt_scheme o) text c in
  exists pre mid post, found_at o text c pre mid post buf (Ok (Some d, buf'))
    /\ (forall j, occurs_at (agreement o text) text c j -> j < length pre ->
          (bonus j < bonus (length pre) /\ bonus j < 8)%Z)
    /\ ((8 <= bonus (length pre))%Z
        \/ forall j, occurs_at (agreement o text) text c j -> (bonus j <= bonus (length pre))%Z).
Proof. exact (@c46_choice). Qed.
Print Assumptions C46_choice_partial.

Example C46_choice_example (UC := latin) :
  parse_spec (txt "'a") = [[Term false KExact (txt "a")]]
  /\ find_ranges parser_new (used AlgoV1 default_options) (txt "'a") (txt "XaA") []
     = Ok (Some (Distance 16), [(1, 2)])
  /\ (let same := fun x y => (fold_case x =? fold_case y)%N in
      (forall x y, same x y = true <-> agreement default_options (txt "a") x y)
      /\ map (bonus_seen (fun x y => (fold_case x =? fold_case y)%N) SchemeDefault (txt "a") (txt "XaA")) [0; 1; 2]
     = [10%Z; 0%Z; 0%Z]
      /\ map (bonus_of SchemeDefault (txt "XaA")) [0; 1; 2]
     = [10%Z; 0%Z; 7%Z])
  /\ find_ranges parser_new (used AlgoV1 default_options) (txt "'aaB") (txt "xaaaB") []
     = Ok (Some (Distance 59), [(2, 5)]).
Proof.
  split; [vm_compute; reflexivity|]. split; [vm_compute; reflexivity|]. split; [|vm_compute; reflexivity].
  split; [|split; vm_compute; reflexivity]. intros x y. rewrite N.eqb_eq. split.
  - intros H. left. exact H.
  - intros [H|[H _]]; [exact H|discriminate H].
Qed.

(** ** C47. Scoring schemes *)

(** The rule for all schemes: a character which occurs once scores 16 and twice the bonus of
    its place, a function of the scheme, the character and the one before it. *)
Theorem C47_one_character : forall (UC : unicode) a o m x q pre y post d m',
  metric_reached a o m -> fuzzy_query [x] q ->
  metric_distance m q (pre ++ y :: post) = Ok (Some d, m') ->
  agreement o [x] x y ->
  Forall (fun z => ~ agreement o [x] x z) pre -> Forall (fun z => ~ agreement o [x] x z) post ->
  d = from_score (16 + 2 * bonus_of (opt_scheme o) (pre ++ y :: post) (length pre)).
Proof. exact (@c47_one_character). Qed.
Print Assumptions C47_one_character.

(** Path: a letter right after a slash scores 34, and after any other character at most 32. *)
Theorem C47_path : forall (UC : unicode) a o m x q pre z y post d m',
  metric_reached a (with_scheme o SchemePath) m -> fuzzy_query [x] q -> ascii_letter y ->
  metric_distance m q (pre ++ z :: y :: post) = Ok (Some d, m') ->
  agreement o [x] x y -> Forall (fun w => ~ agreement o [x] x w) (pre ++ z :: post) ->
  (z = 47%N -> d = from_score 34) /\ (z <> 47%N -> z <> 92%N -> (into_score d <= 32)%Z).
Proof. exact (@c47_path_scores). Qed.
Print Assumptions C47_path.

(** Default: 36 after white space, 34 after a delimiter. *)
Theorem C47_default : forall (UC : unicode) a o m x q pre z y post d m',
  metric_reached a (with_scheme o SchemeDefault) m -> fuzzy_query [x] q -> ascii_letter y ->
  metric_distance m q (pre ++ z :: y :: post) = Ok (Some d, m') ->
  agreement o [x] x y -> Forall (fun w => ~ agreement o [x] x w) (pre ++ z :: post) ->
  (In z [9; 10; 12; 13; 32]%N -> d = from_score 36) /\ (In z [47; 44; 58; 59; 124]%N -> d = from_score 34).
Proof. exact (@c47_default_scores). Qed.
Print Assumptions C47_default.

(** History: nothing scores more than 32. *)
Theorem C47_history : forall (UC : unicode) a o m x q c d m',
  metric_reached a (with_scheme o SchemeHistory) m -> fuzzy_query [x] q ->
  metric_distance m q c = Ok (Some d, m') -> (into_score d <= 32)%Z.
Proof. exact (@c47_history_scores). Qed.
Print Assumptions C47_history.

(** For digits the claim about Path is false: after a slash they score no more than after a letter. *)
Theorem C47_path_digit_refuted : forall (UC : unicode) a,
  let m := metric_with a (with_scheme default_options SchemePath) in
  find parser_new m (txt "1") (txt "a/1") = Ok (Some (from_score 30))
  /\ find parser_new m (txt "1") (txt "a/x1") = Ok (Some (from_score 30)).
Proof. intros UC a m. subst m. unfold metric_with. destruct a; vm_compute; destruct cfg_windows; split; reflexivity. Qed.
Print Assumptions C47_path_digit_refuted.

Example C47_example (UC := latin) :
  ascii_letter 98%N /\ agreement default_options [98%N] 98%N 98%N
  /\ Forall (fun w => ~ agreement default_options [98%N] 98%N w) (txt "a" ++ 47%N :: txt "c")
  /\ find parser_new (used AlgoV2 (with_scheme default_options SchemePath)) (txt "b") (txt "a/bc")
     = Ok (Some (Distance 34))
  /\ find parser_new (used AlgoV2 (with_scheme default_options SchemePath)) (txt "b") (txt "a,bc")
     = Ok (Some (Distance 32))
  /\ find parser_new (used AlgoV1 (with_scheme default_options SchemeDefault)) (txt "b") (txt "a bc")
     = Ok (Some (Distance 36))
  /\ find parser_new (used AlgoV1 (with_scheme default_options SchemeHistory)) (txt "b") (txt "a bc")
     = Ok (Some (Distance 32)).
Proof.
  split; [right; split; discriminate|]. split; [left; reflexivity|].
  split; [repeat constructor; intros [A|[A _]]; discriminate A|]. repeat split; vm_compute; reflexivity.
Qed.

(** ** C48. Setters *)

Theorem C48_setters : forall (UC : unicode) m cs cs' n n' sch sch',
  set_case_sensitivity (set_case_sensitivity m cs) cs' = set_case_sensitivity m cs'
  /\ set_candidate_normalization (set_candidate_normalization m n) n' = set_candidate_normalization m n'
  /\ set_scoring_scheme (set_scoring_scheme m sch) sch' = set_scoring_scheme m sch'
  /\ set_case_sensitivity (set_candidate_normalization m n) cs = set_candidate_normalization (set_case_sensitivity m cs) n
  /\ set_case_sensitivity (set_scoring_scheme m sch) cs = set_scoring_scheme (set_case_sensitivity m cs) sch
  /\ set_candidate_normalization (set_scoring_scheme m sch) n = set_scoring_scheme (set_candidate_normalization m n) sch.
Proof. exact (@c48_setters). Qed.
Print Assumptions C48_setters.

(** Setters and searches do not interfere. *)
Theorem C48_searches : forall (UC : unicode) a o m q c d m' q' c' buf f,
  metric_reached a o m -> query_reached q -> query_reached q' ->
  metric_distance m q c = Ok (d, m') ->
  (exists cs, f = fun m => set_case_sensitivity m cs)
  \/ (exists n, f = fun m => set_candidate_normalization m n)
  \/ (exists sch, f = fun m => set_scoring_scheme m sch) ->
  exists d1 buf1 m1 m2,
    metric_distance_and_ranges (f m) q' c' buf = Ok (d1, m1, buf1)
    /\ metric_distance_and_ranges (f m') q' c' buf = Ok (d1, m2, buf1).
Proof. exact (@c48_searches). Qed.
Print Assumptions C48_searches.

Example C48_example (UC := latin) :
  set_case_sensitivity (metric_new AlgoV1) Sensitive <> set_case_sensitivity (metric_new AlgoV1) Insensitive
  /\ find parser_new (set_case_sensitivity (set_case_sensitivity (metric_new AlgoV1) Sensitive) Insensitive) (txt "A") (txt "a")
     = Ok (Some (Distance 36))
  /\ find parser_new (set_case_sensitivity (set_case_sensitivity (metric_new AlgoV1) Insensitive) Sensitive) (txt "A") (txt "a")
     = Ok None.
Proof. split; [discriminate|]. split; vm_compute; reflexivity. Qed.

(** ** C51. The byte path agrees with the character path *)

Theorem C51_same_search : forall (UC : unicode) a o m q c buf,
  metric_reached a o m -> query_reached q -> Forall (fun x => x < 128)%N c ->
  exists r m1 m2 m3 buf', metric_distance_and_ranges m q c buf = Ok (r, m1, buf')
    /\ search_stored m q (Ascii c) buf = Ok (r, m2, buf')
    /\ search_stored m q (Unicode c) buf = Ok (r, m3, buf').
Proof. exact (@c51_same_search). Qed.
Print Assumptions C51_same_search.

Example C51_example (UC := latin) :
  Forall (fun x => x < 128)%N (txt "foo/Bar")
  /\ shown_ranges (metric_distance_and_ranges (used AlgoV2 default_options) (the_query (txt "ob | 'x !^b")) (txt "foo/Bar") [])
     = Some (Some (Distance 38), [(2, 3); (4, 5)])
  /\ shown_ranges (search_stored (used AlgoV2 default_options) (the_query (txt "ob | 'x !^b")) (Ascii (txt "foo/Bar")) [])
     = Some (Some (Distance 38), [(2, 3); (4, 5)])
  /\ shown_ranges (search_stored (used AlgoV2 default_options) (the_query (txt "ob | 'x !^b")) (Unicode (txt "foo/Bar")) [])
     = Some (Some (Distance 38), [(2, 3); (4, 5)]).
Proof. split; [repeat constructor|]. repeat split; vm_compute; reflexivity. Qed.
