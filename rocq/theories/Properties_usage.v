(** Properties C52 to C59: programs which use the API, and how the results of related queries
    compare. See Properties_results.v for the conventions. *)
From Coq Require Import Sorted Permutation String.
From Verif Require Import Prelude Chars Normalize Utils Candidate Query Parser Scoring Slab Fzf FzfV1 FzfV2 Api Usage History Spec.
From Verif Require Import Claims1 Claims2 Claims3 Claims4 Claims5 Claims6 Claims7 Claims8 ExampleKit.
Local Open Scope nat_scope.

(** ** C52. Filtering and sorting candidates by distance *)

(** The documented way to rank candidates keeps those, and only those, which match on their
    own, sorts them by descending relevance and keeps the order of equally distant ones. *)
Theorem C52_ranking : forall (UC : unicode) a o m q cs, metric_reached a o m -> query_reached q ->
  exists f rs m', rank m q cs = Ok (rs, m') /\ metric_reached a o m'
  /\ (forall m0 c, metric_reached a o m0 -> exists m0', metric_distance m0 q c = Ok (f c, m0'))
  /\ Permutation rs (found_in f cs)
  /\ StronglySorted (fun x y => distance_cmp (snd x) (snd y) <> Gt) rs
  /\ forall d, filter (fun e => distance_eqb (snd e) d) rs = filter (fun e => distance_eqb (snd e) d) (found_in f cs).
Proof. exact (@ranking). Qed.
Print Assumptions C52_ranking.

(** The order of the input matters for equally distant candidates only. *)
Theorem C52_ranking_order : forall (UC : unicode) a o m1 m2 q cs1 cs2 rs1 rs2 m1' m2',
  metric_reached a o m1 -> metric_reached a o m2 -> query_reached q -> Permutation cs1 cs2 ->
  rank m1 q cs1 = Ok (rs1, m1') -> rank m2 q cs2 = Ok (rs2, m2') ->
  Permutation rs1 rs2 /\ map snd rs1 = map snd rs2.
Proof. exact (@ranking_order). Qed.
Print Assumptions C52_ranking_order.

Example C52_example (UC := latin) :
  metric_reached AlgoV2 default_options (used AlgoV2 default_options) /\ query_reached (the_query (txt "fb"))
  /\ ranked (rank (used AlgoV2 default_options) (the_query (txt "fb")) [txt "fxb"; txt "foo bar"; txt "zip"; txt "fyb"; txt "fb"])
     = Some [([102%N; 98%N], Distance 62); ([102%N; 111%N; 111%N; 32%N; 98%N; 97%N; 114%N], Distance 57); ([102%N; 120%N; 98%N], Distance 49); ([102%N; 121%N; 98%N], Distance 49)]
  /\ ranked (rank (used AlgoV2 default_options) (the_query (txt "fb")) [txt "fyb"; txt "fb"; txt "zip"; txt "fxb"; txt "foo bar"])
     = Some [([102%N; 98%N], Distance 62); ([102%N; 111%N; 111%N; 32%N; 98%N; 97%N; 114%N], Distance 57); ([102%N; 121%N; 98%N], Distance 49); ([102%N; 120%N; 98%N], Distance 49)].
Proof.
  split; [apply used_reached|]. split; [apply the_query_reached|]. split; vm_compute; reflexivity.
Qed.

(** ** C53. Debug *)

(** Printing a metric shows the options it was given last, whatever it has been used for. *)
Theorem C53_debug : forall (UC : unicode) a o m, metric_reached a o m ->
  metric_debug m = Some (a, opt_norm o, opt_case o, opt_scheme o).
Proof. exact (@debug_options). Qed.
Print Assumptions C53_debug.

(** Two metrics which print the same give the same results. *)
Theorem C53_debug_determines : forall (UC : unicode) a o a' o' m m' q c buf, metric_reached a o m -> metric_reached a' o' m' -> query_reached q ->
  metric_debug m = metric_debug m' ->
  exists d new n n', metric_distance_and_ranges m q c buf = Ok (d, n, buf ++ new) /\ metric_distance_and_ranges m' q c buf = Ok (d, n', buf ++ new).
Proof. exact (@debug_determines). Qed.
Print Assumptions C53_debug_determines.

Example C53_example (UC := latin) :
  metric_reached AlgoV1 (Options Sensitive true SchemeHistory) (used AlgoV1 (Options Sensitive true SchemeHistory))
  /\ query_reached (the_query (txt "fb"))
  /\ metric_debug (used AlgoV1 (Options Sensitive true SchemeHistory))
     = Some (AlgoV1, true, Sensitive, SchemeHistory)
  /\ metric_debug (metric_with AlgoV1 (Options Sensitive true SchemeHistory)) = metric_debug (used AlgoV1 (Options Sensitive true SchemeHistory)).
Proof.
  split; [apply used_reached|]. split; [apply the_query_reached|]. split; vm_compute; reflexivity.
Qed.

(** ** C54. A further condition narrows, a further alternative widens *)

Theorem C54_more_conditions : forall (UC : unicode) a o m ps s s' c q q', metric_reached a o m ->
  parse_spec s = q -> parse_spec s' = q ++ q' -> ~ lone_negated_fuzzy q ->
  accepts (find ps m s' c) -> accepts (find ps m s c).
Proof. exact (@more_conditions). Qed.
Print Assumptions C54_more_conditions.

Theorem C54_more_alternatives : forall (UC : unicode) a o m ps s s' q1 g1 g2 g3 q2 c, metric_reached a o m ->
  parse_spec s = q1 ++ (g1 ++ g3) :: q2 -> parse_spec s' = q1 ++ (g1 ++ g2 ++ g3) :: q2 ->
  ~ lone_negated_fuzzy (parse_spec s) -> ~ lone_negated_fuzzy (parse_spec s') ->
  accepts (find ps m s c) -> accepts (find ps m s' c).
Proof. exact (@more_alternatives). Qed.
Print Assumptions C54_more_alternatives.

Example C54_example (UC := latin) :
  parse_spec (txt "fo !zip bar | 'x") = parse_spec (txt "fo !zip") ++ [[Term false KFuzzy (txt "bar"); Term false KExact (txt "x")]]
  /\ ~ lone_negated_fuzzy (parse_spec (txt "fo !zip"))
  /\ find parser_new (used AlgoV2 default_options) (txt "fo !zip bar | 'x") (txt "foo bar")
     = Ok (Some (Distance 150))
  /\ find parser_new (used AlgoV2 default_options) (txt "fo !zip") (txt "foo bar")
     = Ok (Some (Distance 62))
  /\ parse_spec (txt "fo bar | ^c | d") = [[Term false KFuzzy (txt "fo")]] ++ ([Term false KFuzzy (txt "bar")] ++ [Term false KPrefix (txt "c")] ++ [Term false KFuzzy (txt "d")]) :: []
  /\ parse_spec (txt "fo bar | d") = [[Term false KFuzzy (txt "fo")]] ++ ([Term false KFuzzy (txt "bar")] ++ [Term false KFuzzy (txt "d")]) :: []
  /\ ~ lone_negated_fuzzy (parse_spec (txt "fo bar | d")) /\ ~ lone_negated_fuzzy (parse_spec (txt "fo bar | ^c | d"))
  /\ find parser_new (used AlgoV2 default_options) (txt "fo bar | d") (txt "cfod")
     = Ok (Some (Distance 52))
  /\ find parser_new (used AlgoV2 default_options) (txt "fo bar | ^c | d") (txt "cfod")
     = Ok (Some (Distance 72)).
Proof.
  split; [vm_compute; reflexivity|]. split; [intros (t & H); vm_compute in H; discriminate H|].
  split; [vm_compute; reflexivity|]. split; [vm_compute; reflexivity|]. split; [vm_compute; reflexivity|]. split; [vm_compute; reflexivity|].
  split; [intros (t & H); vm_compute in H; discriminate H|]. split; [intros (t & H); vm_compute in H; discriminate H|].
  split; vm_compute; reflexivity.
Qed.

(** ** C55. The kinds of terms, from the narrowest to the widest *)

(** Whatever [^text$] matches is matched by [^text] and [text$], whatever these match is matched
    by ['text], and whatever that matches is matched by [text]. *)
Theorem C55_kinds : forall (UC : unicode) a o m ps s s' k k' text c, metric_reached a o m -> narrower k k' ->
  parse_spec s = [[Term false k text]] -> parse_spec s' = [[Term false k' text]] ->
  accepts (find ps m s c) -> accepts (find ps m s' c).
Proof. exact (@kinds_narrow). Qed.
Print Assumptions C55_kinds.

Example C55_example (UC := latin) :
  narrower KEqual KFuzzy
  /\ parse_spec (txt "^foo$") = [[Term false KEqual (txt "foo")]] /\ parse_spec (txt "foo") = [[Term false KFuzzy (txt "foo")]]
  /\ find parser_new (used AlgoV2 default_options) (txt "^foo$") (txt " Foo")
     = Ok (Some (Distance 88))
  /\ find parser_new (used AlgoV2 default_options) (txt "foo") (txt " Foo")
     = Ok (Some (Distance 88)).
Proof.
  split; [apply (nr_trans _ KPrefix); [constructor|apply (nr_trans _ KExact); constructor]|].
  repeat split; vm_compute; reflexivity.
Qed.

(** ** C56. Spaces between, before and after words *)

Theorem C56_extra_spaces : forall (UC : unicode) a o m ps k s1 n s2 j c buf, metric_reached a o m ->
  (s1 = [] \/ last s1 0%N <> 92%N) -> (s2 = [] \/ last s2 0%N <> 92%N) ->
  find ps m (spaces k ++ s1 ++ spaces (S n) ++ s2 ++ spaces j) c = find ps m (s1 ++ 32%N :: s2) c
  /\ find_ranges ps m (spaces k ++ s1 ++ spaces (S n) ++ s2 ++ spaces j) c buf = find_ranges ps m (s1 ++ 32%N :: s2) c buf.
Proof. exact (@extra_spaces). Qed.
Print Assumptions C56_extra_spaces.

(** More generally, only the words of a query matter. *)
Theorem C56_same_words : forall (UC : unicode) a o m ps ps' s s' c buf, metric_reached a o m -> words_of s = words_of s' ->
  find ps m s c = find ps' m s' c /\ find_ranges ps m s c buf = find_ranges ps' m s' c buf.
Proof. exact (@same_words). Qed.
Print Assumptions C56_same_words.

Example C56_example (UC := latin) :
  (txt "fo !zip" = [] \/ last (txt "fo !zip") 0%N <> 92%N) /\ (txt "ba" = [] \/ last (txt "ba") 0%N <> 92%N)
  /\ spaces 1 ++ txt "fo !zip" ++ spaces 3 ++ txt "ba" ++ spaces 2 = txt " fo !zip   ba  "
  /\ find_ranges parser_new (used AlgoV2 default_options) (txt " fo !zip   ba  ") (txt "foo bar") []
     = Ok (Some (Distance 124), [(0, 2); (4, 6)])
  /\ find_ranges parser_new (used AlgoV2 default_options) (txt "fo !zip ba") (txt "foo bar") []
     = Ok (Some (Distance 124), [(0, 2); (4, 6)]).
Proof.
  split; [right; vm_compute; discriminate|]. split; [right; vm_compute; discriminate|].
  repeat split; vm_compute; reflexivity.
Qed.

(** ** C57. Two queries in one *)

(** A query written after another one, separated by a space, matches what both match, and the
    scores add up. *)
Theorem C57_two_queries : forall (UC : unicode) a o m ps s1 s2 c, metric_reached a o m ->
  (s1 = [] \/ last s1 0%N <> 92%N) -> ends_in_term (words_of s1) -> begins_with_term (words_of s2) ->
  ~ lone_negated_fuzzy (parse_spec s1) -> ~ lone_negated_fuzzy (parse_spec s2) ->
  find ps m (s1 ++ 32%N :: s2) c
  = match find ps m s1 c, find ps m s2 c with
    | Ok (Some d1), Ok (Some d2) => Ok (Some (from_score (into_score d1 + into_score d2)))
    | _, _ => Ok None
    end.
Proof. exact (@two_queries). Qed.
Print Assumptions C57_two_queries.

Example C57_example (UC := latin) :
  ends_in_term (words_of (txt "fo !zip")) /\ begins_with_term (words_of (txt "ba | ^x"))
  /\ ~ lone_negated_fuzzy (parse_spec (txt "fo !zip")) /\ ~ lone_negated_fuzzy (parse_spec (txt "ba | ^x"))
  /\ find parser_new (used AlgoV2 default_options) (txt "fo !zip") (txt "foo bar")
     = Ok (Some (Distance 62))
  /\ find parser_new (used AlgoV2 default_options) (txt "ba | ^x") (txt "foo bar")
     = Ok (Some (Distance 62))
  /\ find parser_new (used AlgoV2 default_options) (txt "fo !zip ba | ^x") (txt "foo bar")
     = Ok (Some (Distance 124)).
Proof.
  split; [right; exists [txt "fo"], (txt "!zip"), (Term true KExact (txt "zip")); split; vm_compute; reflexivity|].
  split; [right; exists (txt "ba"), [txt "|"; txt "^x"], (Term false KFuzzy (txt "ba")); split; vm_compute; reflexivity|].
  split; [intros (t & H); vm_compute in H; discriminate H|]. split; [intros (t & H); vm_compute in H; discriminate H|].
  repeat split; vm_compute; reflexivity.
Qed.

(** ** C58. The two metrics agree on queries without fuzzy terms *)

Theorem C58_no_fuzzy_same : forall (UC : unicode) o m1 m2 ps s c buf,
  metric_reached AlgoV1 o m1 -> metric_reached AlgoV2 o m2 ->
  Forall (Forall (fun t => t_kind t <> KFuzzy)) (parse_spec s) ->
  find ps m1 s c = find ps m2 s c /\ find_ranges ps m1 s c buf = find_ranges ps m2 s c buf.
Proof. exact (@no_fuzzy_same). Qed.
Print Assumptions C58_no_fuzzy_same.

Example C58_example (UC := latin) :
  Forall (Forall (fun t => t_kind t <> KFuzzy)) (parse_spec (txt "'oo ^f | b$ !z"))
  /\ find_ranges parser_new (used AlgoV1 default_options) (txt "'oo ^f | b$ !z") (txt "foo foo") []
     = Ok (Some (Distance 72), [(0, 3)])
  /\ find_ranges parser_new (used AlgoV2 default_options) (txt "'oo ^f | b$ !z") (txt "foo foo") []
     = Ok (Some (Distance 72), [(0, 3)]).
Proof.
  split; [vm_compute; repeat constructor; discriminate|]. split; vm_compute; reflexivity.
Qed.

(** ** C59. The fuzz target never panics *)

(** Every range which either metric appends, under any of the eighteen combinations of options set
    in turn on the same metrics, can be used to slice the candidate. *)
Theorem C59_fuzz_target : forall (UC : unicode) query candidate,
  exists m1 m2 ranges, fuzz_target query candidate = Ok (m1, m2, ranges).
Proof. exact (@fuzz_target_ok). Qed.
Print Assumptions C59_fuzz_target.

Example C59_example (UC := latin) :
  match fuzz_target (txt "fb 'a") [102; 243; 98; 195; 97]%N with Ok (_, _, r) => Some (length r, firstn 6 r) | _ => None end
     = Some (96, [(0, 1); (3, 4); (6, 7); (0, 1); (3, 4); (6, 7)]).
Proof. vm_compute. reflexivity. Qed.
