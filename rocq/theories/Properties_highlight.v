(** Properties C06 to C09: which characters are highlighted. See Properties_results.v for the
    conventions. *)
From Coq Require Import Sorted String Lia.
From Verif Require Import Prelude Chars Normalize Utils Candidate Query Parser Scoring Slab Fzf FzfV1 FzfV2 Api History Spec.
From Verif Require Import Claims1 Claims2 Claims3 Claims4 Claims5 Claims6 Claims7 Claims8 ExampleKit.
Local Open Scope nat_scope.

(** ** C06. FzfV1 highlights exactly one alignment of a fuzzy term *)

Theorem C06_v1_highlights : forall (UC : unicode) o m text q c buf d m' buf',
  metric_reached AlgoV1 o m -> fuzzy_query text q ->
  metric_distance_and_ranges m q c buf = Ok (Some d, m', buf') ->
  exists new js, buf' = buf ++ new /\ alignment (agreement o text) text c js
    /\ forall b, covered new b <-> exists j, In j js /\ byte_of_char c j b.
Proof. exact (@c06_v1_highlights). Qed.
Print Assumptions C06_v1_highlights.

Example C06_example (UC := latin) :
  metric_reached AlgoV1 default_options (used AlgoV1 default_options)
  /\ fuzzy_query (txt "fbb") (the_query (txt "fbb"))
  /\ shown_ranges (metric_distance_and_ranges (used AlgoV1 default_options) (the_query (txt "fbb")) (txt "foo barBaz") [(7, 8)])
     = Some (Some (Distance 76), [(7, 8); (0, 1); (4, 5); (7, 8)]).
Proof.
  split; [apply used_reached|]. split; [apply the_fuzzy_query; vm_compute; reflexivity|]. vm_compute; reflexivity.
Qed.

(** ** C07. The ranges of several terms are the union of the ranges of the terms: false *)

Theorem C07_union_refuted : forall (UC : unicode) a, ~ (forall o m ps s c buf d buf',
  metric_reached a o m -> regular (parse_spec s) ->
  find_ranges ps m s c buf = Ok (Some d, buf') ->
  exists new, buf' = buf ++ new
    /\ forall b, covered new b <->
       exists g' t s1 d1 new1, In g' (parse_spec s)
         /\ first_such (fun t => term_accepts (opt_case o) (opt_norm o) t c) g' t /\ t_neg t = false
         /\ parse_spec s1 = [[t]] /\ find_ranges ps m s1 c [] = Ok (Some d1, new1) /\ covered new1 b).
Proof.
  intros UC a H.
  assert (E : exists d, find_ranges parser_new (metric_with a default_options) (txt "b 'abc") (txt "abc") [] = Ok (Some d, [(0, 2)]))
    by (destruct a; eexists; vm_compute; reflexivity).
  destruct E as (d & E).
  assert (P : parse_spec (txt "b 'abc") = [[Term false KFuzzy (txt "b")]; [Term false KExact (txt "abc")]]) by (vm_compute; reflexivity).
  assert (R : regular (parse_spec (txt "b 'abc"))).
  { rewrite P. split; [intros (t & Ht); discriminate Ht|]. repeat constructor; intros [K _]; discriminate K. }
  destruct (H _ _ _ _ _ _ _ _ (metric_with_reached a default_options) R E) as (new & En & Hb).
  change ([(0, 2)] = new) in En. subst new.
  assert (C : covered [(0, 2)] 2).
  { apply Hb. rewrite P.
    assert (E1 : exists d1, find_ranges parser_new (metric_with a default_options) (txt "'abc") (txt "abc") [] = Ok (Some d1, [(0, 3)]))
      by (destruct a; eexists; vm_compute; reflexivity).
    destruct E1 as (d1 & E1).
    exists [Term false KExact (txt "abc")], (Term false KExact (txt "abc")), (txt "'abc"), d1, [(0, 3)].
    split; [right; left; reflexivity|]. split.
    - exists [], []. split; [reflexivity|]. split; [constructor|]. cbn [term_accepts t_neg t_kind t_text text_matches].
      exists 0, [], (txt "abc"), []. split; [reflexivity|]. split; [reflexivity|].
      repeat constructor.
    - split; [reflexivity|]. split; [vm_compute; reflexivity|]. split; [exact E1|].
      exists (0, 3). split; [left; reflexivity|]. cbn. lia. }
  destruct C as (r & [<-|[]] & Hr). cbn in Hr. lia.
Qed.
Print Assumptions C07_union_refuted.

(** What holds. Nothing is highlighted unless the query made of one of the words alone
    highlights it. Missing: that everything which such a query highlights is highlighted. *)
Theorem C07_sound_partial : forall (UC : unicode) a o m ps s c buf r buf',
  metric_reached a o m -> find_ranges ps m s c buf = Ok (r, buf') ->
  exists new, buf' = buf ++ new
    /\ forall b, covered new b ->
       exists w t d new1, In w (words_of s) /\ is_term w = Some t
         /\ (t_neg t = false \/ lone_negated_fuzzy (parse_spec s))
         /\ find_ranges ps m (escape w) c [] = Ok (Some d, new1) /\ covered new1 b.
Proof. exact (@c07_sound_partial). Qed.
Print Assumptions C07_sound_partial.

(** The full property, for queries whose terms after the first condition are fuzzy
    or inverse. Missing: exact, prefix, suffix and equality terms in later conditions. *)
Theorem C07_union_partial : forall (UC : unicode) a o m ps s g q c buf d buf',
  metric_reached a o m -> parse_spec s = g :: q -> regular (parse_spec s) ->
  Forall (Forall (fun t => t_neg t = true \/ t_kind t = KFuzzy)) q ->
  find_ranges ps m s c buf = Ok (Some d, buf') ->
  exists new, buf' = buf ++ new
    /\ forall b, covered new b <->
       exists g' t s1 d1 new1, In g' (parse_spec s)
         /\ first_such (fun t => term_accepts (opt_case o) (opt_norm o) t c) g' t /\ t_neg t = false
         /\ parse_spec s1 = [[t]] /\ find_ranges ps m s1 c [] = Ok (Some d1, new1) /\ covered new1 b.
Proof. exact (@c07_union_partial). Qed.
Print Assumptions C07_union_partial.

Example C07_example (UC := latin) :
  parse_spec (txt "'foo br | x !q bz")
  = [Term false KExact (txt "foo")]
    :: [[Term false KFuzzy (txt "br"); Term false KFuzzy (txt "x")]; [Term true KExact (txt "q")]; [Term false KFuzzy (txt "bz")]]
  /\ regular (parse_spec (txt "'foo br | x !q bz"))
  /\ Forall (Forall (fun t => t_neg t = true \/ t_kind t = KFuzzy))
       [[Term false KFuzzy (txt "br"); Term false KFuzzy (txt "x")]; [Term true KExact (txt "q")]; [Term false KFuzzy (txt "bz")]]
  /\ find_ranges parser_new (used AlgoV1 default_options) (txt "'foo br | x !q bz") (txt "foo bar baz") []
     = Ok (Some (Distance 186), [(0, 3); (4, 5); (6, 7); (8, 9); (10, 11)])
  /\ find_ranges parser_new (used AlgoV2 default_options) (txt "'foo br | x !q bz") (txt "foo bar baz") []
     = Ok (Some (Distance 188), [(0, 3); (4, 5); (6, 7); (8, 9); (10, 11)]).
Proof.
  assert (P : parse_spec (txt "'foo br | x !q bz")
    = [Term false KExact (txt "foo")]
      :: [[Term false KFuzzy (txt "br"); Term false KFuzzy (txt "x")]; [Term true KExact (txt "q")]; [Term false KFuzzy (txt "bz")]])
    by (vm_compute; reflexivity).
  split; [exact P|]. rewrite P. split.
  - split; [intros (t & Ht); discriminate Ht|]. repeat constructor; intros [K _]; discriminate K.
  - split; [repeat (apply Forall_cons || apply Forall_nil); cbn; auto|]. split; vm_compute; reflexivity.
Qed.

(** A further condition never removes a highlight. Missing: what it adds. *)
Theorem C07_kept_partial : forall (UC : unicode) a o m ps s s' q q' c buf d d' new new',
  metric_reached a o m ->
  parse_spec s = q -> parse_spec s' = q ++ q' -> ~ lone_negated_fuzzy q -> ~ lone_negated_fuzzy (q ++ q') ->
  find_ranges ps m s c buf = Ok (Some d, buf ++ new) -> find_ranges ps m s' c buf = Ok (d', buf ++ new') ->
  forall b, covered new b -> covered new' b.
Proof. exact (@c07_kept). Qed.
Print Assumptions C07_kept_partial.

(** The exact behaviour. A further condition adds nothing if the alternative which is used is
    inverse, and everything that alternative highlights on its own if it is fuzzy. Otherwise it adds
    the range of that alternative up to the end of the first range of the earlier conditions
    which starts inside of it, further to the right than it does. *)
Theorem C07_step_partial : forall (UC : unicode) a o m ps s s' q g c buf d d' new new',
  metric_reached a o m ->
  parse_spec s = q -> parse_spec s' = q ++ [g] -> regular q -> regular (q ++ [g]) ->
  find_ranges ps m s c buf = Ok (Some d, buf ++ new) ->
  find_ranges ps m s' c buf = Ok (Some d', buf ++ new') ->
  exists t, first_such (fun t => term_accepts (opt_case o) (opt_norm o) t c) g t
  /\ (t_neg t = true -> new' = new)
  /\ (t_neg t = false -> forall ps1 s1, parse_spec s1 = [[t]] ->
      exists d1 new1, find_ranges ps1 m s1 c [] = Ok (Some d1, new1)
      /\ forall b, covered new' b <->
           covered new b
           \/ (covered new1 b
               /\ (t_kind t = KFuzzy \/ ~ exists r1 r, In r1 new1 /\ In r new /\ fst r1 < fst r /\ snd r <= b))).
Proof. exact (@c07_step). Qed.
Print Assumptions C07_step_partial.

Example C07_step_example (UC := latin) :
  parse_spec (txt "b") = [[Term false KFuzzy (txt "b")]]
  /\ parse_spec (txt "b z | 'abcde") = [[Term false KFuzzy (txt "b")]] ++ [[Term false KFuzzy (txt "z"); Term false KExact (txt "abcde")]]
  /\ regular [[Term false KFuzzy (txt "b")]]
  /\ regular ([[Term false KFuzzy (txt "b")]] ++ [[Term false KFuzzy (txt "z"); Term false KExact (txt "abcde")]])
  /\ find_ranges parser_new (used AlgoV1 default_options) (txt "b") (txt "xabcde") [(4, 5)]
     = Ok (Some (Distance 16), [(4, 5); (2, 3)])
  /\ find_ranges parser_new (used AlgoV1 default_options) (txt "b z | 'abcde") (txt "xabcde") [(4, 5)]
     = Ok (Some (Distance 112), [(4, 5); (1, 3)])
  /\ parse_spec (txt "'abcde") = [[Term false KExact (txt "abcde")]]
  /\ find_ranges parser_new (used AlgoV1 default_options) (txt "'abcde") (txt "xabcde") []
     = Ok (Some (Distance 96), [(1, 6)]).
Proof.
  split; [vm_compute; reflexivity|]. split; [vm_compute; reflexivity|].
  split; [split; [intros (t & Ht); discriminate Ht|]; repeat constructor; intros [K _]; discriminate K|].
  split; [split; [intros (t & Ht); discriminate Ht|]; repeat constructor; intros [K _]; discriminate K|].
  repeat split; vm_compute; reflexivity.
Qed.

(** ** C08. FzfV2 highlights only characters which match: false

    Not even does every highlighted character agree with some character of the query. *)

Theorem C08_v2_highlights_refuted : forall (UC : unicode), ~ (forall o m text q c buf d m' buf',
  metric_reached AlgoV2 o m -> fuzzy_query text q -> text <> [] ->
  metric_distance_and_ranges m q c buf = Ok (Some d, m', buf') ->
  exists new, buf' = buf ++ new
    /\ forall b, covered new b ->
         exists j x y, byte_of_char c j b /\ nth_error c j = Some y /\ In x text /\ agreement o text x y).
Proof.
  intros UC H.
  set (c := txt "a" ++ repeat 120%N 100 ++ txt "bcdefgh").
  destruct (shown_ranges_ok (metric_distance_and_ranges (metric_with AlgoV2 default_options) (the_query (txt "abcdefgh")) c [])
              (Some (from_score 113)) [(0, 1); (100, 101); (102, 108)]) as (m' & E); [vm_compute; reflexivity|].
  assert (Q : fuzzy_query (txt "abcdefgh") (the_query (txt "abcdefgh"))) by (apply the_fuzzy_query; vm_compute; reflexivity).
  assert (N : txt "abcdefgh" <> []) by discriminate.
  destruct (H _ _ _ _ _ _ _ _ _ (metric_with_reached AlgoV2 default_options) Q N E) as (new & En & Hb).
  cbn [app] in En. subst new.
  destruct (Hb 100) as (j & x & y & B & Hy & Hx & Ha).
  { exists (100, 101). split; [right; left; reflexivity|]. cbn. lia. }
  apply ascii_byte_of_char in B as [_ <-]; [|vm_compute; reflexivity].
  vm_compute in Hy. injection Hy as <-.
  destruct Ha as [Ha|[Ha _]]; [|discriminate Ha].
  change (fold_case x = 120%N) in Ha. cbn in Hx.
  repeat (destruct Hx as [<-|Hx]; [discriminate Ha|]). exact Hx.
Qed.
Print Assumptions C08_v2_highlights_refuted.

(** What holds: the highlighted characters are an alignment of a prefix of the query if the
    leftmost alignment is not too wide, or if the score is high. Missing: the other cases. *)
Theorem C08_v2_highlights_partial : forall (UC : unicode) o m text q c buf d m' buf' fs,
  metric_reached AlgoV2 o m -> fuzzy_query text q -> text <> [] ->
  metric_distance_and_ranges m q c buf = Ok (Some d, m', buf') ->
  leftmost (agreement o text) text c fs ->
  (forall i, i < length text -> nth i fs 0 - nth 0 fs 0 < 15 * i + 16)
  \/ (26 * (Z.of_nat (length text) - 1) < into_score d)%Z ->
  exists new k js, buf' = buf ++ new /\ 0 < k <= length text
    /\ alignment (agreement o text) (firstn k text) c js
    /\ forall b, covered new b <-> exists j, In j js /\ byte_of_char c j b.
Proof. exact (@c08_v2_highlights_partial). Qed.
Print Assumptions C08_v2_highlights_partial.

Example C08_example (UC := latin) :
  metric_reached AlgoV2 default_options (used AlgoV2 default_options)
  /\ fuzzy_query (txt "rdoc") (the_query (txt "rdoc"))
  /\ shown_ranges (metric_distance_and_ranges (used AlgoV2 default_options) (the_query (txt "rdoc")) (txt "/AutomatorDocument.icns") [])
     = Some (Some (Distance 79), [(9, 13)])
  /\ (exists fs, leftmost (agreement default_options (txt "rdoc")) (txt "rdoc") (txt "/AutomatorDocument.icns") fs
        /\ forall i, i < length (txt "rdoc") -> nth i fs 0 - nth 0 fs 0 < 15 * i + 16).
Proof.
  split; [apply used_reached|]. split; [apply the_fuzzy_query; vm_compute; reflexivity|]. split; [vm_compute; reflexivity|].
  exists [9; 10; 11; 12].
  assert (A : alignment (agreement default_options (txt "rdoc")) (txt "rdoc") (txt "/AutomatorDocument.icns") [9; 10; 11; 12]).
  { split; [repeat constructor|]. repeat constructor; (eexists; split; [vm_compute; reflexivity|left; vm_compute; reflexivity]). }
  split; [split; [exact A|]|].
  - intros qs [S F]. inversion F as [|? q0 ? q1 (y & Hy & Ay) F1]; subst. inversion F1 as [|? q2 ? q3 _ F2]; subst.
    inversion F2 as [|? q4 ? q5 _ F3]; subst. inversion F3 as [|? q6 ? q7 _ F4]; subst. inversion F4; subst.
    inversion S as [|? ? S1 T1]; subst. inversion S1 as [|? ? S2 T2]; subst. inversion S2 as [|? ? S3 T3]; subst.
    inversion T1; inversion T2; inversion T3; subst.
    assert (9 <= q0); [|repeat constructor; lia].
    destruct (Nat.le_gt_cases 9 q0) as [?|L]; [assumption|]. exfalso.
    do 9 (destruct q0 as [|q0]; [vm_compute in Hy; injection Hy as <-; destruct Ay as [Ay|[Ay _]]; discriminate Ay|]). lia.
  - intros i Hi. cbn in Hi. do 4 (destruct i as [|i]; [cbn; lia|]). lia.
Qed.

(** ** C09. FzfV2 highlights an alignment of the whole query: false *)

Theorem C09_v2_whole_query_refuted : forall (UC : unicode), ~ (forall o m text q c buf d m' buf',
  metric_reached AlgoV2 o m -> fuzzy_query text q -> text <> [] ->
  metric_distance_and_ranges m q c buf = Ok (Some d, m', buf') ->
  exists new js, buf' = buf ++ new /\ alignment (agreement o text) text c js
    /\ forall b, covered new b <-> exists j, In j js /\ byte_of_char c j b).
Proof.
  intros UC H.
  destruct (shown_ranges_ok (metric_distance_and_ranges (metric_with AlgoV2 default_options) (the_query (txt "ab")) (txt "aab") [])
              (Some (from_score 36)) [(0, 1)]) as (m' & E); [vm_compute; reflexivity|].
  assert (Q : fuzzy_query (txt "ab") (the_query (txt "ab"))) by (apply the_fuzzy_query; vm_compute; reflexivity).
  assert (N : txt "ab" <> []) by discriminate.
  destruct (H _ _ _ _ _ _ _ _ _ (metric_with_reached AlgoV2 default_options) Q N E) as (new & js & En & [S F] & Hb).
  cbn [app] in En. subst new.
  inversion F as [|? j0 ? js' _ F1]; subst. inversion F1 as [|? j1 ? ? (y & Hy & _) F2]; subst. inversion F2; subst.
  inversion S as [|? ? _ T]; subst. inversion T; subst.
  assert (L : j1 < 3) by (apply (nth_error_Some (txt "aab") j1); congruence).
  assert (C : covered [(0, 1)] j1).
  { apply Hb. exists j1. split; [right; left; reflexivity|]. split; [exact L|].
    destruct j1 as [|[|[|j1]]]; cbn; lia. }
  destruct C as (r & [<-|[]] & Hr). cbn in Hr. lia.
Qed.
Print Assumptions C09_v2_whole_query_refuted.

(** What holds: the property itself if the score is higher than that of a match of all but one
    character can be. Missing: lower scores. *)
Theorem C09_v2_whole_query_partial : forall (UC : unicode) o m text q c buf d m' buf',
  metric_reached AlgoV2 o m -> fuzzy_query text q -> text <> [] ->
  metric_distance_and_ranges m q c buf = Ok (Some d, m', buf') ->
  (26 * (Z.of_nat (length text) - 1) + 10 < into_score d)%Z ->
  exists new js, buf' = buf ++ new /\ alignment (agreement o text) text c js
    /\ forall b, covered new b <-> exists j, In j js /\ byte_of_char c j b.
Proof. exact (@c09_v2_whole_query_partial). Qed.
Print Assumptions C09_v2_whole_query_partial.

(** Always: at least one character is highlighted and at most as many as the query has, and the
    last one agrees with a character of the query. *)
Theorem C09_v2_some_highlighted_partial : forall (UC : unicode) o m text q c buf d m' buf',
  metric_reached AlgoV2 o m -> fuzzy_query text q -> text <> [] ->
  metric_distance_and_ranges m q c buf = Ok (Some d, m', buf') ->
  exists new js, buf' = buf ++ new /\ StronglySorted lt js /\ Forall (fun j => j < length c) js
    /\ 1 <= length js <= length text
    /\ (exists x y, In x text /\ nth_error c (last js 0) = Some y /\ agreement o text x y)
    /\ forall b, covered new b <-> exists j, In j js /\ byte_of_char c j b.
Proof. exact (@c09_v2_some_highlighted). Qed.
Print Assumptions C09_v2_some_highlighted_partial.

Example C09_example (UC := latin) :
  metric_reached AlgoV2 default_options (used AlgoV2 default_options)
  /\ fuzzy_query (txt "fba") (the_query (txt "fba"))
  /\ shown_ranges (metric_distance_and_ranges (used AlgoV2 default_options) (the_query (txt "fba")) (txt "foo/fbar") [])
     = Some (Some (Distance 84), [(4, 7)])
  /\ (26 * (Z.of_nat (length (txt "fba")) - 1) + 10 < 84)%Z.
Proof.
  split; [apply used_reached|]. split; [apply the_fuzzy_query; vm_compute; reflexivity|]. split; [vm_compute; reflexivity|]. cbn. lia.
Qed.
