(** Properties C18 to C37, C49 and C50: which candidates are accepted. See Properties_results.v
    for the conventions. *)
From Coq Require Import Sorted String Lia Permutation.
From Verif Require Import Prelude Chars Normalize Utils Candidate Query Parser Scoring Slab Fzf FzfV1 FzfV2 Api History Spec.
From Verif Require Import Claims1 Claims2 Claims3 Claims4 Claims5 Claims6 Claims7 Claims8 Claims22 Typing ExampleKit.
Local Open Scope nat_scope.

(** ** C18, C19. A fuzzy term is found iff its characters occur in order *)

Theorem C18_v1_fuzzy : forall (UC : unicode) o m text q c r m',
  metric_reached AlgoV1 o m -> fuzzy_query text q -> metric_distance m q c = Ok (r, m') ->
  ((exists d, r = Some d) <-> fuzzy_in (agreement o text) text c).
Proof. exact (fun UC => @fuzzy_iff UC AlgoV1). Qed.
Print Assumptions C18_v1_fuzzy.

Theorem C19_v2_fuzzy : forall (UC : unicode) o m text q c r m',
  metric_reached AlgoV2 o m -> fuzzy_query text q -> metric_distance m q c = Ok (r, m') ->
  ((exists d, r = Some d) <-> fuzzy_in (agreement o text) text c).
Proof. exact (fun UC => @fuzzy_iff UC AlgoV2). Qed.
Print Assumptions C19_v2_fuzzy.

(** "Cé" is found in "bÇé" with normalization but not without. *)
Example C18_C19_example (UC := latin) : forall a,
  (forall o, metric_reached a o (used a o))
  /\ fuzzy_query [67; 233]%N (the_query [67; 233]%N)
  /\ (exists d, shown (metric_distance (used a (Options Smart true SchemePath)) (the_query [67; 233]%N) [98; 199; 233]%N) = Some (Some d))
  /\ shown (metric_distance (used a (Options Smart false SchemePath)) (the_query [67; 233]%N) [98; 199; 233]%N) = Some None.
Proof.
  intros a. split; [apply used_reached|]. split; [apply the_fuzzy_query; vm_compute; reflexivity|].
  split; [eexists|]; destruct a; vm_compute; reflexivity.
Qed.

(** ** C20. FzfV1 and FzfV2 accept the same candidates *)

Theorem C20_same_candidates : forall (UC : unicode) o m1 m2 q c,
  metric_reached AlgoV1 o m1 -> metric_reached AlgoV2 o m2 -> query_reached q ->
  exists d1 d2 m1' m2', metric_distance m1 q c = Ok (d1, m1') /\ metric_distance m2 q c = Ok (d2, m2')
    /\ (d1 = None <-> d2 = None).
Proof. exact (@c20_same_candidates). Qed.
Print Assumptions C20_same_candidates.

Example C20_example (UC := latin) :
  query_reached (the_query (txt "fb !'x | baz$"))
  /\ shown (metric_distance (used AlgoV1 default_options) (the_query (txt "fb !'x | baz$")) (txt "foo bar"))
     = Some (Some (Distance 57))
  /\ shown (metric_distance (used AlgoV2 default_options) (the_query (txt "fb !'x | baz$")) (txt "foo bar"))
     = Some (Some (Distance 57))
  /\ shown (metric_distance (used AlgoV1 default_options) (the_query (txt "fb !'x | baz$")) (txt "fox bar"))
     = Some None
  /\ shown (metric_distance (used AlgoV2 default_options) (the_query (txt "fb !'x | baz$")) (txt "fox bar"))
     = Some None.
Proof. split; [apply the_query_reached|]. repeat split; vm_compute; reflexivity. Qed.

(** ** C21. Exact terms *)

Theorem C21_exact : forall (UC : unicode) a o m ps s text c buf,
  metric_reached a o m -> parse_spec s = [[Term false KExact text]] ->
  (~ exact_in (agreement o text) text c /\ find_ranges ps m s c buf = Ok (None, buf))
  \/ exists pre mid post, found_at o text c pre mid post buf (find_ranges ps m s c buf).
Proof. exact (@c21_exact). Qed.
Print Assumptions C21_exact.

Example C21_example (UC := latin) :
  parse_spec (txt "'oo\ B")
     = [[{| t_neg := false; t_kind := KExact; t_text := [111%N; 111%N; 32%N; 66%N] |}]]
  /\ find_ranges parser_new (used AlgoV1 default_options) (txt "'oo\ B") (txt "foo Bar") [(9, 9)]
     = Ok (Some (Distance 88), [(9, 9); (1, 5)])
  /\ find_ranges parser_new (used AlgoV2 default_options) (txt "'oo\ B") (txt "foo bar") [(9, 9)]
     = Ok (None, [(9, 9)]).
Proof. repeat split; vm_compute; reflexivity. Qed.

(** ** C22. Prefix terms *)

Theorem C22_prefix : forall (UC : unicode) a o m ps s text c buf,
  metric_reached a o m -> parse_spec s = [[Term false KPrefix text]] ->
  (~ prefix_in (agreement o text) text c /\ find_ranges ps m s c buf = Ok (None, buf))
  \/ exists n mid post, found_at o text c (spaces n) mid post buf (find_ranges ps m s c buf).
Proof. exact (@c22_prefix). Qed.
Print Assumptions C22_prefix.

Example C22_example (UC := latin) :
  parse_spec (txt "^foo")
     = [[{| t_neg := false; t_kind := KPrefix; t_text := [102%N; 111%N; 111%N] |}]]
  /\ find_ranges parser_new (used AlgoV1 default_options) (txt "^foo") (txt "  Foobar") []
     = Ok (Some (Distance 88), [(2, 5)])
  /\ find_ranges parser_new (used AlgoV2 default_options) (txt "^foo") (txt "a foo") []
     = Ok (None, []).
Proof. repeat split; vm_compute; reflexivity. Qed.

(** If there are several such places, which takes a text that starts with spaces, the one
    furthest to the right is reported. *)
Theorem C22_place : forall (UC : unicode) a o m ps s text c buf d buf',
  metric_reached a o m -> parse_spec s = [[Term false KPrefix text]] ->
  find_ranges ps m s c buf = Ok (Some d, buf') ->
  exists n mid post, found_at o text c (spaces n) mid post buf (Ok (Some d, buf'))
    /\ forall n' mid' post', c = spaces n' ++ mid' ++ post' -> Forall2 (agreement o text) text mid' -> n' <= n.
Proof. exact (@c22_place). Qed.
Print Assumptions C22_place.

Example C22_place_example (UC := latin) :
  parse_spec (txt "^\ ")
     = [[{| t_neg := false; t_kind := KPrefix; t_text := [32%N] |}]]
  /\ find_ranges parser_new (used AlgoV2 default_options) (txt "^\ ") (txt "   b") []
     = Ok (Some (Distance 36), [(2, 3)]).
Proof. repeat split; vm_compute; reflexivity. Qed.

(** ** C23. Suffix terms *)

Theorem C23_suffix : forall (UC : unicode) a o m ps s text c buf,
  metric_reached a o m -> parse_spec s = [[Term false KSuffix text]] ->
  (~ suffix_in (agreement o text) text c /\ find_ranges ps m s c buf = Ok (None, buf))
  \/ exists pre mid n, found_at o text c pre mid (spaces n) buf (find_ranges ps m s c buf).
Proof. exact (@c23_suffix). Qed.
Print Assumptions C23_suffix.

Example C23_example (UC := latin) :
  parse_spec (txt "bar$")
     = [[{| t_neg := false; t_kind := KSuffix; t_text := [98%N; 97%N; 114%N] |}]]
  /\ find_ranges parser_new (used AlgoV1 default_options) (txt "bar$") (txt "fooBar  ") []
     = Ok (Some (Distance 76), [(3, 6)])
  /\ find_ranges parser_new (used AlgoV2 default_options) (txt "bar$") (txt "foo bar.") []
     = Ok (None, []).
Proof. repeat split; vm_compute; reflexivity. Qed.

(** If there are several such places, which takes a text that ends with spaces, the one
    furthest to the left is reported. *)
Theorem C23_place : forall (UC : unicode) a o m ps s text c buf d buf',
  metric_reached a o m -> parse_spec s = [[Term false KSuffix text]] ->
  find_ranges ps m s c buf = Ok (Some d, buf') ->
  exists pre mid n, found_at o text c pre mid (spaces n) buf (Ok (Some d, buf'))
    /\ forall pre' mid' n', c = pre' ++ mid' ++ spaces n' -> Forall2 (agreement o text) text mid' -> n' <= n.
Proof. exact (@c23_place). Qed.
Print Assumptions C23_place.

Example C23_place_example (UC := latin) :
  parse_spec (txt "\ $")
     = [[{| t_neg := false; t_kind := KSuffix; t_text := [32%N] |}]]
  /\ find_ranges parser_new (used AlgoV2 default_options) (txt "\ $") (txt "b   ") []
     = Ok (Some (Distance 36), [(1, 2)]).
Proof. repeat split; vm_compute; reflexivity. Qed.

(** ** C24. Equality terms: false for terms made of spaces only *)

Theorem C24_equal_refuted : forall (UC : unicode) a, ~ (forall o m ps s text c buf,
  metric_reached a o m -> parse_spec s = [[Term false KEqual text]] ->
  (~ equal_in (agreement o text) text c /\ find_ranges ps m s c buf = Ok (None, buf))
  \/ exists n mid k, found_at o text c (spaces n) mid (spaces k) buf (find_ranges ps m s c buf)).
Proof.
  intros UC a H.
  assert (P : parse_spec (txt "^\ $") = [[Term false KEqual (txt " ")]]) by (vm_compute; reflexivity).
  assert (E : find_ranges parser_new (metric_with a default_options) (txt "^\ $") (txt "  ") [] = Ok (None, []))
    by (destruct a; vm_compute; reflexivity).
  destruct (H _ _ parser_new _ _ (txt "  ") [] (metric_with_reached a default_options) P) as [[X _]|(n & mid & k & _ & _ & X)].
  - apply X. exists 1, (txt " "), 0. split; [reflexivity|]. constructor; [left; reflexivity|constructor].
  - rewrite E in X. discriminate X.
Qed.
Print Assumptions C24_equal_refuted.

(** What holds: the property for terms with another character than the space, which covers
    all but the terms of [C24_blank_equal_partial]. *)
Theorem C24_equal_partial : forall (UC : unicode) a o m ps s text c buf,
  metric_reached a o m -> parse_spec s = [[Term false KEqual text]] -> text <> spaces (length text) ->
  (~ equal_in (agreement o text) text c /\ find_ranges ps m s c buf = Ok (None, buf))
  \/ exists n mid k, found_at o text c (spaces n) mid (spaces k) buf (find_ranges ps m s c buf).
Proof. exact (@c24_equal_partial). Qed.
Print Assumptions C24_equal_partial.

(** A term of n spaces is found in the candidate of n spaces only. *)
Theorem C24_blank_equal_partial : forall (UC : unicode) a o m ps s text c buf,
  metric_reached a o m -> parse_spec s = [[Term false KEqual text]] -> text = spaces (length text) ->
  (c <> text /\ find_ranges ps m s c buf = Ok (None, buf))
  \/ (c = text /\ found_at o text c [] text [] buf (find_ranges ps m s c buf)).
Proof. exact (@c24_blank_equal). Qed.
Print Assumptions C24_blank_equal_partial.

(** The place is the only one possible. *)
Theorem C24_place_partial : forall (UC : unicode) a o m ps s text c buf d buf',
  metric_reached a o m -> parse_spec s = [[Term false KEqual text]] ->
  find_ranges ps m s c buf = Ok (Some d, buf') ->
  exists n mid k, found_at o text c (spaces n) mid (spaces k) buf (Ok (Some d, buf'))
    /\ forall n' mid' k', c = spaces n' ++ mid' ++ spaces k' -> Forall2 (agreement o text) text mid' -> n' = n /\ mid' = mid /\ k' = k.
Proof. exact (@c24_place). Qed.
Print Assumptions C24_place_partial.

Example C24_example (UC := latin) :
  parse_spec (txt "^foo$") = [[Term false KEqual (txt "foo")]] /\ txt "foo" <> spaces (length (txt "foo"))
  /\ find_ranges parser_new (used AlgoV1 default_options) (txt "^foo$") (txt "  Foo ") []
     = Ok (Some (Distance 88), [(2, 5)])
  /\ find_ranges parser_new (used AlgoV2 default_options) (txt "^foo$") (txt "  Foo x") []
     = Ok (None, [])
  /\ parse_spec (txt "^\ \ $")
     = [[{| t_neg := false; t_kind := KEqual; t_text := [32%N; 32%N] |}]]
  /\ find_ranges parser_new (used AlgoV2 default_options) (txt "^\ \ $") (txt "  ") []
     = Ok (Some (Distance 62), [(0, 2)]).
Proof. split; [vm_compute; reflexivity|]. split; [vm_compute; discriminate|]. repeat split; vm_compute; reflexivity. Qed.

(** ** C25. Inverse terms

    [s] contains the inverse term as a condition, [s0] is the term without [!], [s'] is the query
    without that condition. *)

Theorem C25_condition : forall (UC : unicode) a o m ps s s0 s' q1 q2 k text c buf,
  metric_reached a o m ->
  parse_spec s = q1 ++ [Term true k text] :: q2 -> ~ lone_negated_fuzzy (parse_spec s) ->
  parse_spec s0 = [[Term false k text]] ->
  parse_spec s' = q1 ++ q2 -> ~ lone_negated_fuzzy (parse_spec s') ->
  (find ps m s0 c = Ok None /\ find_ranges ps m s c buf = find_ranges ps m s' c buf)
  \/ (accepts (find ps m s0 c) /\ find ps m s c = Ok None).
Proof. exact (@c25_condition). Qed.
Print Assumptions C25_condition.

(** The same for an inverse term among the alternatives of a condition: if the term without [!]
    is found, the result is that of the query [s1] without this alternative; otherwise
    it is that of the query [s'] of which this condition keeps the alternatives before it, if
    that query matches. *)
Theorem C25_alternative : forall (UC : unicode) a o m ps s s0 s1 s' q1 g1 g2 q2 k text c buf,
  metric_reached a o m ->
  parse_spec s = q1 ++ (g1 ++ Term true k text :: g2) :: q2 -> g1 ++ g2 <> [] ->
  parse_spec s0 = [[Term false k text]] ->
  parse_spec s1 = q1 ++ (g1 ++ g2) :: q2 -> ~ lone_negated_fuzzy (parse_spec s1) ->
  parse_spec s' = q1 ++ g1 :: q2 -> ~ lone_negated_fuzzy (parse_spec s') ->
  (accepts (find ps m s0 c) /\ find_ranges ps m s c buf = find_ranges ps m s1 c buf)
  \/ (find ps m s0 c = Ok None /\ (accepts (find ps m s' c) -> find_ranges ps m s c buf = find_ranges ps m s' c buf)).
Proof. exact (@c25_alternative). Qed.
Print Assumptions C25_alternative.

Example C25_example (UC := latin) :
  parse_spec (txt "fo !ba 'o") = [[Term false KFuzzy (txt "fo")]] ++ [Term true KExact (txt "ba")] :: [[Term false KExact (txt "o")]]
  /\ parse_spec (txt "'ba") = [[Term false KExact (txt "ba")]]
  /\ parse_spec (txt "fo 'o") = [[Term false KFuzzy (txt "fo")]] ++ [[Term false KExact (txt "o")]]
  /\ find parser_new (used AlgoV1 default_options) (txt "'ba") (txt "foo")
     = Ok None
  /\ find_ranges parser_new (used AlgoV1 default_options) (txt "fo !ba 'o") (txt "foo") []
     = Ok (Some (Distance 78), [(0, 2)])
  /\ find_ranges parser_new (used AlgoV1 default_options) (txt "fo 'o") (txt "foo") []
     = Ok (Some (Distance 78), [(0, 2)])
  /\ find parser_new (used AlgoV1 default_options) (txt "'ba") (txt "foo bar")
     = Ok (Some (Distance 62))
  /\ find parser_new (used AlgoV1 default_options) (txt "fo !ba 'o") (txt "foo bar")
     = Ok None.
Proof. repeat split; vm_compute; reflexivity. Qed.

Example C25_alternative_example (UC := latin) :
  parse_spec (txt "fo 'z | !ba | 'r") = [[Term false KFuzzy (txt "fo")]]
    ++ ([Term false KExact (txt "z")] ++ Term true KExact (txt "ba") :: [Term false KExact (txt "r")]) :: []
  /\ parse_spec (txt "fo 'z | 'r") = [[Term false KFuzzy (txt "fo")]] ++ ([Term false KExact (txt "z")] ++ [Term false KExact (txt "r")]) :: []
  /\ parse_spec (txt "fo 'z") = [[Term false KFuzzy (txt "fo")]] ++ [Term false KExact (txt "z")] :: []
  /\ find_ranges parser_new (used AlgoV1 default_options) (txt "fo 'z | !ba | 'r") (txt "foo bar") []
     = Ok (Some (Distance 78), [(0, 2); (6, 7)])
  /\ find_ranges parser_new (used AlgoV1 default_options) (txt "fo 'z | 'r") (txt "foo bar") []
     = Ok (Some (Distance 78), [(0, 2); (6, 7)])
  /\ find_ranges parser_new (used AlgoV1 default_options) (txt "fo 'z | !ba | 'r") (txt "foo zr") []
     = Ok (Some (Distance 98), [(0, 2); (4, 5)])
  /\ find_ranges parser_new (used AlgoV1 default_options) (txt "fo 'z") (txt "foo zr") []
     = Ok (Some (Distance 98), [(0, 2); (4, 5)]).
Proof. repeat split; vm_compute; reflexivity. Qed.

(** ** C26. A lone inverse term is negated: false for inverse fuzzy terms *)

Theorem C26_lone_inverse_refuted : forall (UC : unicode) a, ~ (forall o m ps s s0 k text c,
  metric_reached a o m ->
  parse_spec s = [[Term true k text]] -> parse_spec s0 = [[Term false k text]] ->
  (accepts (find ps m s c) <-> ~ accepts (find ps m s0 c))).
Proof.
  intros UC a H.
  assert (E : exists d, find parser_new (metric_with a default_options) (txt "!'foo") (txt "foo") = Ok (Some d)
              /\ find parser_new (metric_with a default_options) (txt "foo") (txt "foo") = Ok (Some d))
    by (destruct a; eexists; split; vm_compute; reflexivity).
  destruct E as (d & E1 & E2).
  assert (P1 : parse_spec (txt "!'foo") = [[Term true KFuzzy (txt "foo")]]) by (vm_compute; reflexivity).
  assert (P2 : parse_spec (txt "foo") = [[Term false KFuzzy (txt "foo")]]) by (vm_compute; reflexivity).
  destruct (H _ _ parser_new _ _ _ _ (txt "foo") (metric_with_reached a default_options) P1 P2) as [X _].
  apply X; eexists; eassumption.
Qed.
Print Assumptions C26_lone_inverse_refuted.

(** What holds: the property for all other kinds of terms. Then a match has the default
    distance and no ranges. *)
Theorem C26_lone_inverse_partial : forall (UC : unicode) a o m ps s s0 k text c buf,
  metric_reached a o m -> k <> KFuzzy ->
  parse_spec s = [[Term true k text]] -> parse_spec s0 = [[Term false k text]] ->
  (accepts (find ps m s0 c) /\ find_ranges ps m s c buf = Ok (None, buf))
  \/ (find ps m s0 c = Ok None /\ find_ranges ps m s c buf = Ok (Some default_distance, buf)).
Proof. exact (@c26_lone_inverse_partial). Qed.
Print Assumptions C26_lone_inverse_partial.

(** What happens to a lone inverse fuzzy term: the [!] is ignored. *)
Theorem C26_lone_fuzzy_partial : forall (UC : unicode) a o m ps s s0 text c buf,
  metric_reached a o m ->
  parse_spec s = [[Term true KFuzzy text]] -> parse_spec s0 = [[Term false KFuzzy text]] ->
  find ps m s c = find ps m s0 c /\ find_ranges ps m s c buf = find_ranges ps m s0 c buf.
Proof. exact (@c26_lone_fuzzy). Qed.
Print Assumptions C26_lone_fuzzy_partial.

Example C26_example (UC := latin) :
  parse_spec (txt "!^foo")
     = [[{| t_neg := true; t_kind := KPrefix; t_text := [102%N; 111%N; 111%N] |}]]
  /\ parse_spec (txt "^foo")
     = [[{| t_neg := false; t_kind := KPrefix; t_text := [102%N; 111%N; 111%N] |}]]
  /\ find_ranges parser_new (used AlgoV1 default_options) (txt "!^foo") (txt "foo") []
     = Ok (None, [])
  /\ find_ranges parser_new (used AlgoV2 default_options) (txt "!^foo") (txt "bar") []
     = Ok (Some (Distance 0), []).
Proof. repeat split; vm_compute; reflexivity. Qed.

(** ** C27. AND and OR; the score is the sum of the scores of the conditions

    [regular] excludes the two defects shown in [C24_equal_refuted] and [C26_lone_inverse_refuted]. *)

Theorem C27_accepts : forall (UC : unicode) a o m ps s c, metric_reached a o m -> regular (parse_spec s) ->
  (accepts (find ps m s c) <-> cnf_accepts (opt_case o) (opt_norm o) (parse_spec s) c).
Proof. exact (@c27_accepts). Qed.
Print Assumptions C27_accepts.

Theorem C27_score : forall (UC : unicode) a o m ps s c d,
  metric_reached a o m -> regular (parse_spec s) -> find ps m s c = Ok (Some d) ->
  exists scores, d = from_score (sum scores)
    /\ Forall2 (fun g x => exists t, first_such (fun t => term_accepts (opt_case o) (opt_norm o) t c) g t
         /\ (if t_neg t then x = 0%Z
             else forall ps1 s1, parse_spec s1 = [[t]] -> find ps1 m s1 c = Ok (Some (from_score x))))
       (parse_spec s) scores.
Proof. exact (@c27_score). Qed.
Print Assumptions C27_score.

Example C27_example (UC := latin) :
  parse_spec (txt "'zz | fo ba$ !^x")
     = [[{| t_neg := false; t_kind := KExact; t_text := [122%N; 122%N] |}; {| t_neg := false; t_kind := KFuzzy; t_text := [102%N; 111%N] |}]; [{| t_neg := false; t_kind := KSuffix; t_text := [98%N; 97%N] |}]; [{| t_neg := true; t_kind := KPrefix; t_text := [120%N] |}]]
  /\ regular (parse_spec (txt "'zz | fo ba$ !^x"))
  /\ find parser_new (used AlgoV1 default_options) (txt "'zz | fo ba$ !^x") (txt "foo ba")
     = Ok (Some (Distance 124))
  /\ find parser_new (used AlgoV1 default_options) (txt "fo") (txt "foo ba")
     = Ok (Some (Distance 62))
  /\ find parser_new (used AlgoV1 default_options) (txt "ba$") (txt "foo ba")
     = Ok (Some (Distance 62))
  /\ find parser_new (used AlgoV1 default_options) (txt "'zz | fo ba$ !^x") (txt "xfoo ba")
     = Ok None.
Proof.
  split; [vm_compute; reflexivity|]. split.
  - replace (parse_spec (txt "'zz | fo ba$ !^x"))
      with [[Term false KExact (txt "zz"); Term false KFuzzy (txt "fo")]; [Term false KSuffix (txt "ba")]; [Term true KPrefix (txt "x")]]
      by (vm_compute; reflexivity).
    split; [intros (t & Ht); discriminate Ht|]. repeat constructor; intros [K _]; discriminate K.
  - repeat split; vm_compute; reflexivity.
Qed.

(** ** C28. OR binds tighter than AND

    [w1] and [w2] are words with a text, the words between them have none. *)

Theorem C28_grouping : forall (UC : unicode) ps s ws1 w1 mid w2 ws2 t u,
  words_of s = ws1 ++ w1 :: mid ++ w2 :: ws2 ->
  is_term w1 = Some t -> is_term w2 = Some u -> Forall (fun w => is_term w = None) mid ->
  exists q ps' q1 g1 g2 q2,
    parse ps s = Ok (q, ps')
    /\ concat q1 ++ g1 = terms_of ws1
    /\ read_query q
       = q1 ++ (if existsb is_bar mid then (g1 ++ t :: u :: g2) :: q2 else (g1 ++ [t]) :: (u :: g2) :: q2).
Proof. exact (@c28_grouping). Qed.
Print Assumptions C28_grouping.

(** All terms appear in the query, in order. *)
Theorem C28_terms : forall (UC : unicode) ps s, exists q ps',
  parse ps s = Ok (q, ps') /\ concat (read_query q) = terms_of (words_of s)
  /\ Forall (fun g => g <> []) (read_query q).
Proof. exact (@c28_terms). Qed.
Print Assumptions C28_terms.

Example C28_example :
  words_of (txt "a b ! | c d") = [txt "a"] ++ txt "b" :: [txt "!"; txt "|"] ++ txt "c" :: [txt "d"]
  /\ is_term (txt "b") = Some (Term false KFuzzy (txt "b")) /\ is_term (txt "c") = Some (Term false KFuzzy (txt "c"))
  /\ Forall (fun w => is_term w = None) [txt "!"; txt "|"]
  /\ read_query (@the_query latin (txt "a b ! | c d"))
     = [[{| t_neg := false; t_kind := KFuzzy; t_text := [97%N] |}]; [{| t_neg := false; t_kind := KFuzzy; t_text := [98%N] |}; {| t_neg := false; t_kind := KFuzzy; t_text := [99%N] |}]; [{| t_neg := false; t_kind := KFuzzy; t_text := [100%N] |}]].
Proof. repeat split; repeat constructor. Qed.

(** ** C29. Words and escaped spaces *)

Theorem C29_words : forall (UC : unicode) ps ws,
  Forall (fun w => w <> []) ws -> Forall (fun w => last w 0%N <> 92%N) (removelast ws) ->
  words_of (print_words ws) = ws
  /\ exists q ps', parse ps (print_words ws) = Ok (q, ps') /\ concat (read_query q) = terms_of ws.
Proof. exact (@c29_words). Qed.
Print Assumptions C29_words.

Example C29_example :
  Forall (fun w => w <> []) [txt "a b"; txt "\c"; txt " "]
  /\ Forall (fun w => last w 0%N <> 92%N) (removelast [txt "a b"; txt "\c"; txt " "])
  /\ print_words [txt "a b"; txt "\c"; txt " "]
     = [97%N; 92%N; 32%N; 98%N; 32%N; 92%N; 99%N; 32%N; 92%N; 32%N]
  /\ print_words [txt "a b"; txt "\c"; txt " "] = txt "a\ b \c \ ".
Proof.
  split; [repeat constructor; discriminate|]. split; [repeat constructor; discriminate|]. split; vm_compute; reflexivity.
Qed.

(** ** C30. Sigils

    The rule, for every word: *)

Theorem C30_lone_word : forall (UC : unicode) ps w, w <> [] ->
  exists q ps', parse ps (escape w) = Ok (q, ps')
    /\ read_query q = match is_term w with Some t => [[t]] | None => [] end.
Proof. exact (@c30_lone_word). Qed.
Print Assumptions C30_lone_word.

(** And the documented table, for every text which does not itself begin or end with a sigil: *)
Theorem C30_sigils : forall (UC : unicode) ps t, plain t -> t <> [124%N] ->
  Forall (fun '(w, neg, k) =>
            exists q ps', parse ps (escape w) = Ok (q, ps') /\ read_query q = [[Term neg k t]])
    [(t, false, KFuzzy);                        (* foo *)
     (39%N :: t, false, KExact);                (* 'foo *)
     (94%N :: t, false, KPrefix);               (* ^foo *)
     (t ++ [36%N], false, KSuffix);             (* foo$ *)
     (94%N :: t ++ [36%N], false, KEqual);      (* ^foo$ *)
     (33%N :: t, true, KExact);                 (* !foo *)
     (33%N :: 39%N :: t, true, KFuzzy);         (* !'foo *)
     (33%N :: 94%N :: t, true, KPrefix);        (* !^foo *)
     (33%N :: t ++ [36%N], true, KSuffix);      (* !foo$ *)
     (33%N :: 94%N :: t ++ [36%N], true, KEqual) (* !^foo$ *)].
Proof. exact (@c30_sigils). Qed.
Print Assumptions C30_sigils.

Example C30_example : plain (txt "a$'b") /\ txt "a$'b" <> [124%N] /\ plain (txt "a b") /\ txt "!^a$'b" <> [].
Proof.
  assert (P : forall t, t <> [] -> ~ In (hd 0%N t) [33; 39; 94]%N -> last t 0%N <> 36%N -> plain t) by (unfold plain; auto).
  repeat split; try discriminate; cbn; intros H; repeat (destruct H as [H|H]; [discriminate H|]); exact H.
Qed.

(** ** C31. Queries not in extended syntax are taken literally *)

Theorem C31_literal : forall (UC : unicode) ps s q ps',
  parse_not_extended ps s = Ok (q, ps') -> read_query q = [[Term false KFuzzy s]].
Proof. exact (@c31_literal). Qed.
Print Assumptions C31_literal.

Example C31_example (UC := latin) :
  match parse_not_extended parser_new (txt "^f\ o | !'x$") with
  | Ok (q, _) => read_query q = [[Term false KFuzzy (txt "^f\ o | !'x$")]]
      /\ shown_ranges (metric_distance_and_ranges (used AlgoV1 default_options) q (txt "^f\ o | !'x$") []) = Some (Some (from_score 314), [(0, 12)])
  | _ => False
  end.
Proof. vm_compute. split; reflexivity. Qed.

(** ** C32. Case sensitivity *)

Theorem C32_sensitive : forall (UC : unicode) a o m ps x y,
  metric_reached a (with_case (with_norm o false) Sensitive) m -> parser_reached ps ->
  (accepts (find_raw ps m [x] [y]) <-> x = y).
Proof. exact (@c32_sensitive). Qed.
Print Assumptions C32_sensitive.

(** Insensitive does not ignore the case of letters beyond ASCII: É and é are told apart. *)
Theorem C32_insensitive_refuted : forall (UC : unicode) a,
  ~ accepts (find_raw parser_new (metric_with a (with_case default_options Insensitive)) [233%N] [201%N]).
Proof.
  intros UC a (d & E).
  assert (X : find_raw parser_new (metric_with a (with_case default_options Insensitive)) [233%N] [201%N] = Ok None)
    by (destruct a; vm_compute; reflexivity).
  rewrite X in E. discriminate E.
Qed.
Print Assumptions C32_insensitive_refuted.

(** What holds: the case of the 52 ASCII letters is ignored. Missing: other letters. *)
Theorem C32_insensitive_ascii_partial : forall (UC : unicode) a o m ps x y,
  metric_reached a (with_case (with_norm o false) Insensitive) m -> parser_reached ps ->
  (accepts (find_raw ps m [x] [y]) <-> fold_case x = fold_case y).
Proof. exact (@c32_insensitive_ascii_partial). Qed.
Print Assumptions C32_insensitive_ascii_partial.

(** The case mode makes no difference to queries without ASCII letters. *)
Theorem C32_no_letters : forall (UC : unicode) a o m m' ps s c buf cs cs',
  metric_reached a (with_case o cs) m -> metric_reached a (with_case o cs') m' ->
  Forall (Forall (fun t => Forall (fun x => ~ ascii_letter x) (t_text t))) (parse_spec s) ->
  find ps m s c = find ps m' s c /\ find_ranges ps m s c buf = find_ranges ps m' s c buf.
Proof. exact (@no_letters). Qed.
Print Assumptions C32_no_letters.

Example C32_example (UC := latin) :
  metric_reached AlgoV1 (with_case (with_norm default_options false) Insensitive) (metric_with AlgoV1 (with_case (with_norm default_options false) Insensitive))
  /\ parser_reached parser_new
  /\ find_raw parser_new (metric_with AlgoV1 (with_case (with_norm default_options false) Insensitive)) [97%N] [65%N]
     = Ok (Some (Distance 36))
  /\ find_raw parser_new (metric_with AlgoV1 (with_case (with_norm default_options false) Sensitive)) [97%N] [65%N]
     = Ok None
  /\ Forall (Forall (fun t => Forall (fun x => ~ ascii_letter x) (t_text t))) (parse_spec (txt "'12 !^3")).
Proof.
  split; [apply metric_with_reached|]. split; [constructor|]. split; [vm_compute; reflexivity|]. split; [vm_compute; reflexivity|].
  vm_compute. repeat constructor; intros [[H1 H2]|[H1 H2]]; first [apply H1; reflexivity | apply H2; reflexivity].
Qed.

(** ** C33. Smart case: false for queries of several terms, in which it is decided term by term *)

Theorem C33_smart_refuted : forall (UC : unicode) a, ~ (forall o m m' ps s c,
  metric_reached a (with_case o Smart) m -> metric_reached a (with_case o Sensitive) m' ->
  (exists x, In x s /\ is_uppercase x = true) -> find ps m s c = find ps m' s c).
Proof.
  intros UC a H.
  assert (X : find parser_new (metric_with a (with_case default_options Smart)) (txt "foo Bar") (txt "FOO Bar")
              = find parser_new (metric_with a (with_case default_options Sensitive)) (txt "foo Bar") (txt "FOO Bar")).
  { apply (H default_options); try apply metric_with_reached. exists 66%N. split; [|reflexivity]. vm_compute. auto 6. }
  destruct a; vm_compute in X; discriminate X.
Qed.
Print Assumptions C33_smart_refuted.

(** What holds: the property if the terms agree, and for queries not in extended syntax. For
    queries with terms of both sorts, each term is searched with the metric which its own letters
    ask for (C33_terms_partial). *)
Theorem C33_smart_sensitive_partial : forall (UC : unicode) a o m m' ps s c buf,
  metric_reached a (with_case o Smart) m -> metric_reached a (with_case o Sensitive) m' ->
  Forall (Forall (fun t => exists x, In x (t_text t) /\ is_uppercase x = true)) (parse_spec s) ->
  find ps m s c = find ps m' s c /\ find_ranges ps m s c buf = find_ranges ps m' s c buf.
Proof. exact (@c33_smart_sensitive_partial). Qed.
Print Assumptions C33_smart_sensitive_partial.

Theorem C33_smart_insensitive_partial : forall (UC : unicode) a o m m' ps s c buf,
  metric_reached a (with_case o Smart) m -> metric_reached a (with_case o Insensitive) m' ->
  Forall (Forall (fun t => forall x, In x (t_text t) -> is_uppercase x = false)) (parse_spec s) ->
  find ps m s c = find ps m' s c /\ find_ranges ps m s c buf = find_ranges ps m' s c buf.
Proof. exact (@c33_smart_insensitive_partial). Qed.
Print Assumptions C33_smart_insensitive_partial.

Theorem C33_smart_not_extended_partial : forall (UC : unicode) a o m m1 m2 ps s c buf,
  metric_reached a (with_case o Smart) m -> metric_reached a (with_case o Sensitive) m1 ->
  metric_reached a (with_case o Insensitive) m2 ->
  ((exists x, In x s /\ is_uppercase x = true) ->
     find_raw ps m s c = find_raw ps m1 s c /\ find_ranges_raw ps m s c buf = find_ranges_raw ps m1 s c buf)
  /\ ((forall x, In x s -> is_uppercase x = false) ->
     find_raw ps m s c = find_raw ps m2 s c /\ find_ranges_raw ps m s c buf = find_ranges_raw ps m2 s c buf).
Proof. exact (@c33_smart_not_extended). Qed.
Print Assumptions C33_smart_not_extended_partial.

Theorem C33_terms_partial : forall (UC : unicode) a o m m1 m2 ps s c,
  metric_reached a (with_case o Smart) m -> metric_reached a (with_case o Sensitive) m1 ->
  metric_reached a (with_case o Insensitive) m2 -> regular (parse_spec s) ->
  let mode t := if existsb is_uppercase (t_text t) then Sensitive else Insensitive in
  let metric_for t := if existsb is_uppercase (t_text t) then m1 else m2 in
  (accepts (find ps m s c)
   <-> Forall (fun g => Exists (fun t => term_accepts (mode t) (opt_norm o) t c) g) (parse_spec s))
  /\ forall d, find ps m s c = Ok (Some d) ->
     exists scores, d = from_score (sum scores)
     /\ Forall2 (fun g x => exists t, first_such (fun t => term_accepts (mode t) (opt_norm o) t c) g t
          /\ (if t_neg t then x = 0%Z
              else forall ps1 s1, parse_spec s1 = [[t]] ->
                   find ps1 (metric_for t) s1 c = Ok (Some (from_score x))))
        (parse_spec s) scores.
Proof. exact (@c33_terms). Qed.
Print Assumptions C33_terms_partial.

Example C33_example (UC := latin) :
  metric_reached AlgoV2 (with_case default_options Smart) (metric_with AlgoV2 (with_case default_options Smart))
  /\ Forall (Forall (fun t => exists x, In x (t_text t) /\ is_uppercase x = true)) (parse_spec (txt "Foo | 'bAr"))
  /\ find parser_new (metric_with AlgoV2 (with_case default_options Smart)) (txt "Foo | 'bAr") (txt "foo bar")
     = Ok None
  /\ Forall (Forall (fun t => forall x, In x (t_text t) -> is_uppercase x = false)) (parse_spec (txt "o 'b"))
  /\ find parser_new (metric_with AlgoV2 (with_case default_options Smart)) (txt "o 'b") (txt "FOO BAR")
     = Ok (Some (Distance 52)).
Proof.
  split; [apply metric_with_reached|]. split.
  { vm_compute. repeat constructor; [exists 70%N|exists 65%N]; auto. }
  split; [vm_compute; reflexivity|]. split; [|vm_compute; reflexivity].
  vm_compute. repeat constructor; intros x [<-|[]]; reflexivity.
Qed.

Example C33_terms_example (UC := latin) :
  let m cs := metric_with AlgoV1 (with_case default_options cs) in
  let s := txt "Foo bar" in
  parse_spec s = [[Term false KFuzzy (txt "Foo")]; [Term false KFuzzy (txt "bar")]]
  /\ find parser_new (m Smart) s (txt "BAR Foo") = Ok (Some (Distance 176))
  /\ find parser_new (m Sensitive) (txt "Foo") (txt "BAR Foo") = Ok (Some (Distance 88))
  /\ find parser_new (m Insensitive) (txt "bar") (txt "BAR Foo") = Ok (Some (Distance 88))
  /\ find parser_new (m Smart) s (txt "BAR foo") = Ok None.
Proof. vm_compute. repeat split. Qed.

(** ** C34, C35. Relaxing the case mode, or turning on normalization, loses no match *)

Theorem C34_relax_case : forall (UC : unicode) a o m m' ps s c cs cs',
  metric_reached a (with_case o cs) m -> metric_reached a (with_case o cs') m' -> stricter cs cs' ->
  positive (parse_spec s) ->
  accepts (find ps m s c) -> accepts (find ps m' s c).
Proof. exact (@c34_relax_case). Qed.
Print Assumptions C34_relax_case.

Theorem C35_normalize : forall (UC : unicode) a o m m' ps s c,
  metric_reached a (with_norm o false) m -> metric_reached a (with_norm o true) m' ->
  positive (parse_spec s) ->
  accepts (find ps m s c) -> accepts (find ps m' s c).
Proof. exact (@c35_normalize). Qed.
Print Assumptions C35_normalize.

(** Both at once, for queries not in extended syntax. *)
Theorem C34_C35_not_extended : forall (UC : unicode) a o m m' ps s c cs cs' n n',
  metric_reached a (with_norm (with_case o cs) n) m -> metric_reached a (with_norm (with_case o cs') n') m' ->
  cs = cs' \/ stricter cs cs' -> (n = true -> n' = true) ->
  accepts (find_raw ps m s c) -> accepts (find_raw ps m' s c).
Proof. exact (@relax_not_extended). Qed.
Print Assumptions C34_C35_not_extended.

Example C34_C35_example (UC := latin) :
  stricter Sensitive Smart /\ positive (parse_spec (txt "foo 'bar | ^x"))
  /\ find parser_new (metric_with AlgoV1 (with_case default_options Sensitive)) (txt "foo 'bar | ^x") (txt "foobar")
     = Ok (Some (Distance 144))
  /\ find parser_new (metric_with AlgoV1 (with_case default_options Insensitive)) (txt "foo 'bar | ^x") (txt "foobar")
     = Ok (Some (Distance 144))
  /\ find parser_new (metric_with AlgoV1 (with_norm default_options false)) [102; 233]%N [102; 111; 233]%N
     = Ok (Some (Distance 49))
  /\ find parser_new (metric_with AlgoV1 (with_norm default_options true)) [102; 233]%N [102; 111; 233]%N
     = Ok (Some (Distance 49)).
Proof. split; [constructor|]. split; [vm_compute; repeat constructor|]. repeat split; vm_compute; reflexivity. Qed.

(** With inverse terms a match can be lost. *)
Example C34_inverse_terms (UC := latin) :
  find parser_new (metric_with AlgoV1 (with_case default_options Sensitive)) (txt "foo !Bar") (txt "foobar")
     = Ok (Some (Distance 88))
  /\ find parser_new (metric_with AlgoV1 (with_case default_options Insensitive)) (txt "foo !Bar") (txt "foobar")
     = Ok None.
Proof. split; vm_compute; reflexivity. Qed.

(** ** C36. Normalization is irrelevant to ASCII candidates, and to all which are in normal form *)

Theorem C36_ascii : forall (UC : unicode) a o m m' ps s c buf,
  metric_reached a (with_norm o false) m -> metric_reached a (with_norm o true) m' ->
  Forall (fun x => x < 128)%N c ->
  (find ps m s c = find ps m' s c /\ find_ranges ps m s c buf = find_ranges ps m' s c buf)
  /\ (find_raw ps m s c = find_raw ps m' s c /\ find_ranges_raw ps m s c buf = find_ranges_raw ps m' s c buf).
Proof. exact (@c36_ascii). Qed.
Print Assumptions C36_ascii.

Theorem C36_normal : forall (UC : unicode) a o m m' ps s c buf,
  metric_reached a (with_norm o false) m -> metric_reached a (with_norm o true) m' ->
  Forall (fun x => normal_form x = x) c ->
  (find ps m s c = find ps m' s c /\ find_ranges ps m s c buf = find_ranges ps m' s c buf)
  /\ (find_raw ps m s c = find_raw ps m' s c /\ find_ranges_raw ps m s c buf = find_ranges_raw ps m' s c buf).
Proof. exact (@c36_normal). Qed.
Print Assumptions C36_normal.

Example C36_example (UC := latin) :
  Forall (fun x => x < 128)%N (txt "foo/bar") /\ Forall (fun x => normal_form x = x) [102; 8594; 98]%N
  /\ find_ranges parser_new (metric_with AlgoV2 (with_norm default_options true)) (txt "fb") (txt "foo/bar") []
     = Ok (Some (Distance 56), [(0, 1); (4, 5)])
  /\ find_ranges parser_new (metric_with AlgoV2 (with_norm default_options false)) (txt "fb") (txt "foo/bar") []
     = Ok (Some (Distance 56), [(0, 1); (4, 5)]).
Proof.
  split; [repeat constructor|]. split; [repeat constructor|]. split; vm_compute; reflexivity.
Qed.

(** ** C37. The normalization function *)

Theorem C37_normalize : forall c,
  normalize c = normal_form c /\ normalize (normalize c) = normalize c /\ ((c < 128)%N -> normalize c = c).
Proof. exact (@c37_normalize). Qed.
Print Assumptions C37_normalize.

Theorem C37_letters : forall c, normal_form c = c \/ ascii_letter (normal_form c).
Proof. exact (@normal_form_letter). Qed.
Print Assumptions C37_letters.

(** The result is a char, and so is every number which is cast to one when the tables are built. *)
Theorem C37_scalar : forall c, scalar c -> scalar (normalize c).
Proof. exact (@c37_scalar). Qed.
Print Assumptions C37_scalar.

Theorem C37_casts : forall b, In b [first_batch; second_batch; third_batch] ->
  (exists l, linearize b = Ok l) /\ forall i, (i < N.of_nat (linearized_len b))%N -> scalar (batch_start b + i)%N.
Proof. exact (@c37_casts). Qed.
Print Assumptions C37_casts.

Example C37_example : map normalize [233; 231; 7871; 8490; 8594; 97]%N
     = [101%N; 99%N; 101%N; 8490%N; 8594%N; 97%N].
Proof. vm_compute. reflexivity. Qed.

(** ** C49. The order of the conditions does not matter to the distance *)

Theorem C49_order : forall (UC : unicode) a o m ps ps' s s' c, metric_reached a o m ->
  Permutation (parse_spec s) (parse_spec s') -> find ps m s c = find ps' m s' c.
Proof. exact (@c49_order). Qed.
Print Assumptions C49_order.

Example C49_example (UC := latin) :
  Permutation (parse_spec (txt "fo 'a | b$ !x")) (parse_spec (txt "!x fo 'a | b$"))
  /\ find parser_new (used AlgoV1 default_options) (txt "fo 'a | b$ !x") (txt "foo bar")
     = Ok (Some (Distance 78))
  /\ find parser_new (used AlgoV1 default_options) (txt "!x fo 'a | b$") (txt "foo bar")
     = Ok (Some (Distance 78)).
Proof.
  split; [|split; vm_compute; reflexivity].
  replace (parse_spec (txt "!x fo 'a | b$")) with ([[Term true KExact (txt "x")]] ++ [[Term false KFuzzy (txt "fo")]; [Term false KExact (txt "a"); Term false KSuffix (txt "b")]])
    by (vm_compute; reflexivity).
  replace (parse_spec (txt "fo 'a | b$ !x")) with ([[Term false KFuzzy (txt "fo")]; [Term false KExact (txt "a"); Term false KSuffix (txt "b")]] ++ [[Term true KExact (txt "x")]])
    by (vm_compute; reflexivity).
  apply Permutation_app_comm.
Qed.

(** ** C50. Extending the candidate keeps fuzzy and exact matches *)

Theorem C50_extend : forall (UC : unicode) a o m ps s c pre post, metric_reached a o m ->
  Forall (Forall (fun t => t_neg t = false /\ (t_kind t = KFuzzy \/ t_kind t = KExact))) (parse_spec s) ->
  accepts (find ps m s c) -> accepts (find ps m s (pre ++ c ++ post)).
Proof. exact (@c50_extend). Qed.
Print Assumptions C50_extend.

Theorem C50_not_extended : forall (UC : unicode) a o m ps s c pre post, metric_reached a o m ->
  accepts (find_raw ps m s c) -> accepts (find_raw ps m s (pre ++ c ++ post)).
Proof. exact (@c50_not_extended). Qed.
Print Assumptions C50_not_extended.

Example C50_example (UC := latin) :
  Forall (Forall (fun t => t_neg t = false /\ (t_kind t = KFuzzy \/ t_kind t = KExact))) (parse_spec (txt "fb | x 'oo"))
  /\ find parser_new (used AlgoV2 default_options) (txt "fb | x 'oo") (txt "foo bar")
     = Ok (Some (Distance 93))
  /\ find parser_new (used AlgoV2 default_options) (txt "fb | x 'oo") (txt "a b foo bar baz")
     = Ok (Some (Distance 93)).
Proof.
  split; [|split; vm_compute; reflexivity].
  vm_compute. repeat (apply Forall_cons || apply Forall_nil); auto.
Qed.

(** Fuzzy terms are still found if characters are inserted anywhere into the candidate ([part c c']: [c] is [c'] with
    characters left out); negated ones if characters are left out. *)
Theorem C50_insert : forall (UC : unicode) a o m ps s c c', metric_reached a o m ->
  Forall (Forall (fun t => t_neg t = false /\ t_kind t = KFuzzy)) (parse_spec s) -> part c c' ->
  accepts (find ps m s c) -> accepts (find ps m s c').
Proof. exact (@c50_insert). Qed.
Print Assumptions C50_insert.

Theorem C50_remove : forall (UC : unicode) a o m ps s c c', metric_reached a o m ->
  Forall (Forall (fun t => t_neg t = true /\ t_kind t = KFuzzy)) (parse_spec s) -> ~ lone_negated_fuzzy (parse_spec s) ->
  part c c' -> accepts (find ps m s c') -> accepts (find ps m s c).
Proof. exact (@c50_remove). Qed.
Print Assumptions C50_remove.

Theorem C50_insert_not_extended : forall (UC : unicode) a o m ps s c c', metric_reached a o m -> part c c' ->
  accepts (find_raw ps m s c) -> accepts (find_raw ps m s c').
Proof. exact (@c50_insert_raw). Qed.
Print Assumptions C50_insert_not_extended.

Example C50_insert_example (UC := latin) :
  part (txt "foo b") (txt "fXoo, bar")
  /\ Forall (Forall (fun t => t_neg t = false /\ t_kind t = KFuzzy)) (parse_spec (txt "fb | x oo"))
  /\ find parser_new (used AlgoV2 default_options) (txt "fb | x oo") (txt "foo b") = Ok (Some (Distance 93))
  /\ find parser_new (used AlgoV2 default_options) (txt "fb | x oo") (txt "fXoo, bar") = Ok (Some (Distance 91))
  /\ Forall (Forall (fun t => t_neg t = true /\ t_kind t = KFuzzy)) (parse_spec (txt "!'fz | !'x !'zz"))
  /\ ~ lone_negated_fuzzy (parse_spec (txt "!'fz | !'x !'zz"))
  /\ find parser_new (used AlgoV2 default_options) (txt "!'fz | !'x !'zz") (txt "fXoo, bar") = Ok (Some (Distance 0))
  /\ find parser_new (used AlgoV2 default_options) (txt "!'fz | !'x !'zz") (txt "foo b") = Ok (Some (Distance 0))
  /\ find_raw parser_new (used AlgoV1 default_options) (txt "fb") (txt "foo b") = Ok (Some (Distance 57))
  /\ find_raw parser_new (used AlgoV1 default_options) (txt "fb") (txt "fXoo, bar") = Ok (Some (Distance 55)).
Proof.
  split; [apply part_keep, part_skip; do 2 apply part_keep; apply part_skip; do 2 apply part_keep; do 2 apply part_skip; apply part_nil|].
  split; [vm_compute; repeat (apply Forall_cons || apply Forall_nil); auto|].
  split; [vm_compute; reflexivity|]. split; [vm_compute; reflexivity|].
  split; [vm_compute; repeat (apply Forall_cons || apply Forall_nil); auto|].
  split; [intros (t & H); vm_compute in H; discriminate H|]. repeat split; vm_compute; reflexivity.
Qed.
