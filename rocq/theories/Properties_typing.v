(** Properties C81 to C83: queries which grow as they are typed, and candidates equal to the query. See
    Properties_results.v for the conventions. *)
From Coq Require Import Sorted Permutation String.
From Verif Require Import Prelude Chars Normalize Utils Candidate Query Parser Scoring Slab Fzf FzfV1 FzfV2 Api Usage History Spec Typing.
From Verif Require Import Claims1 Claims2 Claims3 Claims4 Claims5 Claims6 Claims7 Claims8 Claims11 Claims20 Claims21 Claims49 ExampleKit.
Local Open Scope nat_scope.

(** ** C81. Typing on narrows the results *)

(** A candidate which matches the query with one more character at its end matched before. The words of the query must
    not contain [!] (33) or [|] (124), and neither a [$] (36) followed by something nor a backslash (92) followed by a
    space; [C81_exceptions] shows that each of them can make a longer query match more. *)
Theorem C81_typing : forall (UC : unicode) a o m ps s x c, metric_reached a o m ->
  ~ In 33%N s -> ~ In 124%N s -> last s 0%N <> 36%N -> (x = 32%N -> last s 0%N <> 92%N) ->
  accepts (find ps m (s ++ [x]) c) -> accepts (find ps m s c).
Proof. exact (@c81_typing). Qed.
Print Assumptions C81_typing.

Example C81_example (UC := latin) :
  ~ In 33%N (txt "^fo 'ba") /\ ~ In 124%N (txt "^fo 'ba") /\ last (txt "^fo 'ba") 0%N <> 36%N
  /\ find parser_new (used AlgoV2 default_options) (txt "^fo 'bar") (txt "foo bar") = Ok (Some (Distance 150))
  /\ find parser_new (used AlgoV2 default_options) (txt "^fo 'ba") (txt "foo bar") = Ok (Some (Distance 124))
  /\ find parser_new (used AlgoV2 default_options) (txt "^fo 'bar") (txt "foo baz") = Ok None
  /\ find parser_new (used AlgoV2 default_options) (txt "^fo 'ba") (txt "foo baz") = Ok (Some (Distance 124)).
Proof.
  split; [vm_compute; intuition discriminate|]. split; [vm_compute; intuition discriminate|].
  split; [vm_compute; discriminate|]. repeat split; vm_compute; reflexivity.
Qed.

(** Each pair is a query and the same query with one more character, and a candidate which only the longer one
    matches. *)
Example C81_exceptions (UC := latin) :
  Forall (fun e : string * string * string =>
      let '(s, x, c) := e in
      length (txt x) = 1
      /\ find parser_new (used AlgoV2 default_options) (txt s) (txt c) = Ok None
      /\ exists d, find parser_new (used AlgoV2 default_options) (txt s ++ txt x) (txt c) = Ok (Some d))
    [("!fo", "x", "foo"); ("fo | ", "b", "bar"); ("foo$", "x", "foo$x"); ("a\", " ", "a b")]%string.
Proof.
  repeat constructor; vm_compute; try reflexivity; eexists; reflexivity.
Qed.

(** Also with [!] and [|] elsewhere in the query: a character is added to the last word [w] (or starts a new word, then
    [w] is empty), the word before it is a term, so that the last one is a condition of its own, and the last word is not
    negated. *)
Theorem C81_last_word : forall (UC : unicode) a o m ps s s' ws w x c, metric_reached a o m ->
  words_of s = ws ++ match w with [] => [] | _ => [w] end -> words_of s' = ws ++ [w ++ [x]] ->
  ends_in_term ws -> hd 0%N w <> 33%N -> last w 0%N <> 36%N -> ~ lone_negated_fuzzy (parse_spec s) ->
  accepts (find ps m s' c) -> accepts (find ps m s c).
Proof. exact (@c81_last_word). Qed.
Print Assumptions C81_last_word.

(** And typing on in a negated word does the opposite: the longer query matches what the shorter one did. *)
Theorem C81_negated_word : forall (UC : unicode) a o m ps s s' ws w x c, metric_reached a o m ->
  words_of s = ws ++ [33%N :: w] -> words_of s' = ws ++ [33%N :: w ++ [x]] ->
  ends_in_term ws -> is_term (33%N :: w) <> None -> last w 0%N <> 36%N ->
  ~ lone_negated_fuzzy (parse_spec s) -> ~ lone_negated_fuzzy (parse_spec s') ->
  accepts (find ps m s c) -> accepts (find ps m s' c).
Proof. exact (@c81_negated_word). Qed.
Print Assumptions C81_negated_word.

Example C81_words_example (UC := latin) :
  let ws := [txt "fo"; txt "|"; txt "!x"] in
  ends_in_term ws
  /\ words_of (txt "fo | !x ba") = ws ++ [txt "ba"] /\ words_of (txt "fo | !x bar") = ws ++ [txt "ba" ++ txt "r"]
  /\ words_of (txt "fo | !x !ba") = ws ++ [txt "!ba"] /\ words_of (txt "fo | !x !bar") = ws ++ [txt "!ba" ++ txt "r"]
  /\ words_of (txt "fo | !x ") = ws /\ is_term (txt "!ba") <> None
  /\ ~ lone_negated_fuzzy (parse_spec (txt "fo | !x ba")) /\ ~ lone_negated_fuzzy (parse_spec (txt "fo | !x "))
  /\ ~ lone_negated_fuzzy (parse_spec (txt "fo | !x !ba")) /\ ~ lone_negated_fuzzy (parse_spec (txt "fo | !x !bar"))
  /\ find parser_new (used AlgoV2 default_options) (txt "fo | !x bar") (txt "foo bar") = Ok (Some (Distance 150))
  /\ find parser_new (used AlgoV2 default_options) (txt "fo | !x ba") (txt "foo bar") = Ok (Some (Distance 124))
  /\ find parser_new (used AlgoV2 default_options) (txt "fo | !x ") (txt "foo bar") = Ok (Some (Distance 62))
  /\ find parser_new (used AlgoV2 default_options) (txt "fo | !x !bar") (txt "foo ba") = Ok (Some (Distance 62))
  /\ find parser_new (used AlgoV2 default_options) (txt "fo | !x !ba") (txt "foo ba") = Ok None
  /\ find parser_new (used AlgoV2 default_options) (txt "fo | !x !ba") (txt "foo") = Ok (Some (Distance 62))
  /\ find parser_new (used AlgoV2 default_options) (txt "fo | !x !bar") (txt "foo") = Ok (Some (Distance 62)).
Proof.
  cbv zeta. split; [right; exists [txt "fo"; txt "|"], (txt "!x"); eexists; split; vm_compute; reflexivity|].
  repeat split; try (vm_compute; reflexivity); try (vm_compute; discriminate); intros (t & H); vm_compute in H; discriminate H.
Qed.

(** So a list which is already filtered by the shorter query can be filtered further instead of starting again with
    all candidates: the result is the same up to the order of equally distant candidates. *)
Theorem C81_ranking : forall (UC : unicode) a o m ps s x q ps1 q' ps2 cs rs m1 rs1 m2 rs2 m3,
  metric_reached a o m -> parser_reached ps ->
  parse ps s = Ok (q, ps1) -> parse ps1 (s ++ [x]) = Ok (q', ps2) ->
  ~ In 33%N s -> ~ In 124%N s -> last s 0%N <> 36%N -> (x = 32%N -> last s 0%N <> 92%N) ->
  rank m q cs = Ok (rs, m1) -> rank m1 q' (map fst rs) = Ok (rs1, m2) -> rank m q' cs = Ok (rs2, m3) ->
  Permutation rs1 rs2 /\ map snd rs1 = map snd rs2.
Proof. exact (@c81_ranking). Qed.
Print Assumptions C81_ranking.

Example C81_ranking_example (UC := latin) :
  let cs := [txt "fxb"; txt "foo bar"; txt "zip"; txt "fyba"; txt "fb"; txt "fzar fba"] in
  let m := used AlgoV2 default_options in
  exists q ps1 q' ps2 rs m1 rs1 m2 rs2 m3,
  parse parser_new (txt "fb") = Ok (q, ps1) /\ parse ps1 (txt "fba") = Ok (q', ps2)
  /\ rank m q cs = Ok (rs, m1) /\ rank m1 q' (map fst rs) = Ok (rs1, m2) /\ rank m q' cs = Ok (rs2, m3)
  /\ rs = [(txt "fb", Distance 62); (txt "fzar fba", Distance 62); (txt "foo bar", Distance 57);
           (txt "fxb", Distance 49); (txt "fyba", Distance 49)]
  /\ rs1 = [(txt "fzar fba", Distance 88); (txt "foo bar", Distance 83); (txt "fyba", Distance 69)] /\ rs2 = rs1.
Proof.
  cbv zeta. do 10 eexists. split; [vm_compute; reflexivity|]. split; [vm_compute; reflexivity|].
  split; [vm_compute; reflexivity|]. split; [vm_compute; reflexivity|]. split; [vm_compute; reflexivity|].
  repeat split; reflexivity.
Qed.

(** Queries which are not parsed into terms: leaving out any characters, not only the last ones, matches at least as
    much. *)
Theorem C81_not_extended : forall (UC : unicode) a o m ps s s' c, metric_reached a o m -> part s s' ->
  accepts (find_raw ps m s' c) -> accepts (find_raw ps m s c).
Proof. exact (@c81_raw). Qed.
Print Assumptions C81_not_extended.

Example C81_not_extended_example (UC := latin) :
  part (txt "!b") (txt "!|bo")
  /\ find_raw parser_new (used AlgoV1 default_options) (txt "!|bo") (txt "!f|box") = Ok (Some (Distance 95))
  /\ find_raw parser_new (used AlgoV1 default_options) (txt "!b") (txt "!f|box") = Ok (Some (Distance 53)).
Proof.
  split; [repeat constructor|]. split; vm_compute; reflexivity.
Qed.

(** And in general: replacing terms of a query by ones which ask for less (or, after a [!], for more) keeps the
    matches. *)
Theorem C81_weaker : forall (UC : unicode) a o m ps s s' c, metric_reached a o m ->
  Forall2 (Forall2 weaker) (parse_spec s) (parse_spec s') ->
  ~ lone_negated_fuzzy (parse_spec s) -> ~ lone_negated_fuzzy (parse_spec s') ->
  accepts (find ps m s' c) -> accepts (find ps m s c).
Proof. exact (@c81_weaker). Qed.
Print Assumptions C81_weaker.

Example C81_weaker_example (UC := latin) :
  Forall2 (Forall2 weaker) (parse_spec (txt "fb | 'oo !^zips")) (parse_spec (txt "fab | 'foo !^zip"))
  /\ ~ lone_negated_fuzzy (parse_spec (txt "fb | 'oo !^zips")) /\ ~ lone_negated_fuzzy (parse_spec (txt "fab | 'foo !^zip"))
  /\ find parser_new (used AlgoV2 default_options) (txt "fab | 'foo !^zip") (txt "foo bar") = Ok (Some (Distance 88))
  /\ find parser_new (used AlgoV2 default_options) (txt "fb | 'oo !^zips") (txt "foo bar") = Ok (Some (Distance 57)).
Proof.
  split.
  { change (parse_spec (txt "fb | 'oo !^zips")) with
      [[Term false KFuzzy (txt "fb"); Term false KExact (txt "oo")]; [Term true KPrefix (txt "zips")]].
    change (parse_spec (txt "fab | 'foo !^zip")) with
      [[Term false KFuzzy (txt "fab"); Term false KExact (txt "foo")]; [Term true KPrefix (txt "zip")]].
    apply Forall2_cons; [apply Forall2_cons; [|apply Forall2_cons; [|apply Forall2_nil]]
      |apply Forall2_cons; [apply Forall2_cons; [|apply Forall2_nil]|apply Forall2_nil]]; (split; [reflexivity|]).
    - apply al_fuzzy. repeat constructor.
    - exact (al_exact (txt "f") (txt "oo") []).
    - exact (al_prefix (txt "zip") (txt "s")). }
  split; [intros (t & H); vm_compute in H; discriminate H|]. split; [intros (t & H); vm_compute in H; discriminate H|].
  split; vm_compute; reflexivity.
Qed.

(** ** C82. A candidate equal to the query *)

(** A candidate whose characters agree with those of the query, one by one, matches whatever the kind of the term, is
    highlighted as a whole, and has the score of this alignment, in both metrics. (A prefix term which starts with a
    space is never found at the start of a candidate, as leading spaces are skipped.) *)
Theorem C82_whole : forall (UC : unicode) a o m ps s k text c buf,
  metric_reached a o m -> parse_spec s = [[Term false k text]] ->
  Forall2 (agreement o text) text c -> (k = KPrefix -> hd 0%N text <> 32%N) ->
  find_ranges ps m s c buf
    = Ok (Some (from_score (alignment_score (opt_scheme o) c (seq 0 (length c)))), buf ++ [(0, byte_len c)]).
Proof. exact (@c82_whole). Qed.
Print Assumptions C82_whole.

(** In particular the text itself. *)
Theorem C82_self : forall (UC : unicode) a o m ps s k text buf,
  metric_reached a o m -> parse_spec s = [[Term false k text]] -> (k = KPrefix -> hd 0%N text <> 32%N) ->
  find_ranges ps m s text buf
    = Ok (Some (from_score (alignment_score (opt_scheme o) text (seq 0 (length text)))), buf ++ [(0, byte_len text)]).
Proof. exact (@c82_self). Qed.
Print Assumptions C82_self.

Theorem C82_not_extended : forall (UC : unicode) a o m text q c buf,
  metric_reached a o m -> fuzzy_query text q -> text <> [] -> Forall2 (agreement o text) text c ->
  exists m', metric_distance_and_ranges m q c buf
    = Ok (Some (from_score (alignment_score (opt_scheme o) c (seq 0 (length c)))), m', buf ++ [(0, byte_len c)]).
Proof. exact (@c82_not_extended). Qed.
Print Assumptions C82_not_extended.

Example C82_example (UC := latin) :
  parse_spec (txt "-foo") = [[Term false KFuzzy (txt "-foo")]]
  /\ Forall2 (agreement default_options (txt "-foo")) (txt "-foo") (txt "-fOo")
  /\ fuzzy_query (txt "-foo") (the_query (txt "-foo"))
  /\ alignment_score SchemeDefault (txt "-fOo") (seq 0 4) = 104%Z
  /\ find_ranges parser_new (used AlgoV1 default_options) (txt "-foo") (txt "-fOo") [(9, 9)]
     = Ok (Some (Distance 104), [(9, 9); (0, 4)])
  /\ find_ranges parser_new (used AlgoV2 default_options) (txt "-foo") (txt "-fOo") [(9, 9)]
     = Ok (Some (Distance 104), [(9, 9); (0, 4)])
  /\ find_ranges parser_new (used AlgoV1 default_options) (txt "^2nd$") (txt "2nd") [] = Ok (Some (Distance 76), [(0, 3)])
  /\ find_ranges parser_new (used AlgoV2 default_options) (txt "'2nd") (txt "2nd") [] = Ok (Some (Distance 76), [(0, 3)]).
Proof.
  split; [vm_compute; reflexivity|]. split; [vm_compute; repeat constructor|].
  split; [apply the_fuzzy_query; vm_compute; reflexivity|]. repeat split; vm_compute; reflexivity.
Qed.

(** ** C83. A candidate equal to the query is ranked first *)

(** Not always: for the query [-foo], the candidate [- foo] is ranked before [-foo] itself. *)
Theorem C83_first_refuted : forall (UC : unicode) a, ~ (forall o m m' ps ps' s text c d d0,
  metric_reached a o m -> metric_reached a o m' -> parse_spec s = [[Term false KFuzzy text]] ->
  find ps m s text = Ok (Some d0) -> find ps' m' s c = Ok (Some d) ->
  distance_cmp d0 d <> Gt).
Proof.
  intros UC a H.
  assert (E1 : find parser_new (metric_with a default_options) (txt "-foo") (txt "-foo") = Ok (Some (from_score 104)))
    by (destruct a; vm_compute; reflexivity).
  assert (E2 : find parser_new (metric_with a default_options) (txt "-foo") (txt "- foo") = Ok (Some (from_score 107)))
    by (destruct a; vm_compute; reflexivity).
  apply (H default_options _ _ _ _ (txt "-foo") (txt "-foo") (txt "- foo") _ _
    (metric_with_reached a default_options) (metric_with_reached a default_options) eq_refl E1 E2).
  reflexivity.
Qed.
Print Assumptions C83_first_refuted.

(** It is for terms which are not fuzzy. If accents are ignored, the accented characters of the other candidate have to
    be letters, which is a fact about Unicode and not part of the model. *)
Theorem C83_first_partial : forall (UC : unicode) a o m m' ps ps' s k text c d,
  metric_reached a o m -> metric_reached a o m' -> parse_spec s = [[Term false k text]] -> k <> KFuzzy ->
  (k = KPrefix -> hd 0%N text <> 32%N) ->
  opt_norm o = false \/ (forall y, In y c -> normal_form y = y \/ u_lowercase y = true \/ u_uppercase y = true) ->
  find ps' m' s c = Ok (Some d) ->
  exists d0, find ps m s text = Ok (Some d0) /\ distance_cmp d0 d <> Gt.
Proof. exact (@c83_first). Qed.
Print Assumptions C83_first_partial.

(** And for all terms if the first character is a letter. *)
Theorem C83_letter_partial : forall (UC : unicode) a o m m' ps ps' s k text x rest c d,
  metric_reached a o m -> metric_reached a o m' -> parse_spec s = [[Term false k text]] ->
  text = x :: rest -> ascii_letter x -> find ps' m' s c = Ok (Some d) ->
  exists d0, find ps m s text = Ok (Some d0) /\ distance_cmp d0 d <> Gt.
Proof. exact (@c83_letter). Qed.
Print Assumptions C83_letter_partial.

(** For every fuzzy term no candidate is better by more than what the first character of the text lacks of the highest bonus, once for each
    character and once more. This is nothing if it has the highest bonus,
    and never more than 3 points. Missing: that it is always nothing, which is false. *)
Theorem C83_near_partial : forall (UC : unicode) a o m m' ps ps' s text c d,
  metric_reached a o m -> metric_reached a o m' -> parse_spec s = [[Term false KFuzzy text]] ->
  find ps' m' s c = Ok (Some d) ->
  exists d0, find ps m s text = Ok (Some d0)
    /\ (into_score d <= into_score d0 + (top_points (opt_scheme o) - bonus_of (opt_scheme o) text 0) * (Z.of_nat (length text) + 1))%Z
    /\ (into_score d <= into_score d0 + 3 * (Z.of_nat (length text) + 1))%Z.
Proof. exact (@c83_near). Qed.
Print Assumptions C83_near_partial.

(** A hyphen has 8 points. A space has all 10 (and is no ASCII letter), so that nothing is before the text itself. *)
Example C83_near_example (UC := latin) :
  parse_spec (txt "-foo") = [[Term false KFuzzy (txt "-foo")]]
  /\ bonus_of SchemeDefault (txt "-foo") 0 = 8%Z
  /\ find parser_new (used AlgoV2 default_options) (txt "-foo") (txt "-foo") = Ok (Some (Distance 104))
  /\ find parser_new (used AlgoV2 default_options) (txt "-foo") (txt "- foo") = Ok (Some (Distance 107))
  /\ parse_spec (txt "\ foo") = [[Term false KFuzzy (txt " foo")]]
  /\ bonus_of SchemeDefault (txt " foo") 0 = top_points SchemeDefault
  /\ find parser_new (used AlgoV2 default_options) (txt "\ foo") (txt " foo") = Ok (Some (Distance 114))
  /\ find parser_new (used AlgoV2 default_options) (txt "\ foo") (txt "x  foo") = Ok (Some (Distance 114)).
Proof. repeat split; vm_compute; reflexivity. Qed.

Example C83_example (UC := latin) :
  parse_spec (txt "'2nd") = [[Term false KExact (txt "2nd")]]
  /\ (forall y, In y (txt "a 12Nd Street 22ND") -> normal_form y = y)
  /\ find parser_new (used AlgoV2 default_options) (txt "'2nd") (txt "2nd") = Ok (Some (Distance 76))
  /\ find parser_new (used AlgoV2 default_options) (txt "'2nd") (txt "a 12Nd Street 22ND") = Ok (Some (Distance 56))
  /\ find parser_new (used AlgoV2 default_options) (txt "fo") (txt "fo") = Ok (Some (Distance 62))
  /\ find parser_new (used AlgoV2 default_options) (txt "fo") (txt "f oo") = Ok (Some (Distance 59)).
Proof.
  split; [vm_compute; reflexivity|]. split.
  { intros y H. vm_compute in H. repeat (destruct H as [<-|H]; [vm_compute; reflexivity|]). destruct H. }
  repeat split; vm_compute; reflexivity.
Qed.
