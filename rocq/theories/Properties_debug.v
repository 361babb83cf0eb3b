(** Properties C78 and C86 and further parts of C38 and C53: the texts which {:?} and {:#?} print. See
    Properties_results.v for the conventions. [printable] is the part of the Unicode tables which decides which
    characters are escaped; the theorems hold for all such tables. *)
From Coq Require Import String Lia.
From Verif Require Import Prelude Chars Utils Query Parser Scoring Fzf FzfV1 FzfV2 Api Usage Debug History Spec.
From Verif Require Import Claims1 Claims7 Claims17 Claims23 PrintSpec ExampleKit.
Local Open Scope nat_scope.

(** ** C38. Distances which print the same are equal *)

Theorem C38_debug : forall d d', distance_debug d = distance_debug d' -> d = d'.
Proof. exact (@c38_debug). Qed.
Print Assumptions C38_debug.

Example C38_debug_example : distance_debug (from_score 57) = txt "FzfDistance(57)"
  /\ distance_debug (from_score (-1230)) = txt "FzfDistance(-1230)" /\ distance_debug (from_score 0) = txt "FzfDistance(0)".
Proof. repeat split; vm_compute; reflexivity. Qed.

(** What is printed is the number in decimal notation, with a minus sign if it is negative and without leading zeros; {:#?}
    prints the same in three lines. *)
Theorem C38_texts : forall z, exists ds, numeral (Z.abs_N z) ds
  /\ distance_debug (Distance z) = str_of "FzfDistance(" ++ str_of (if (z <? 0)%Z then "-" else "") ++ ds ++ str_of ")"
  /\ distance_pretty (Distance z)
     = str_of "FzfDistance(" ++ [10%N] ++ str_of "    " ++ str_of (if (z <? 0)%Z then "-" else "") ++ ds ++ str_of "," ++ [10%N] ++ str_of ")".
Proof. exact (@c38_texts). Qed.
Print Assumptions C38_texts.

Example C38_texts_example : numeral 1230 (txt "1230") /\ ~ numeral 1230 (txt "01230") /\ ~ numeral 1230 (txt "123")
  /\ distance_pretty (from_score (-1230)) = txt "FzfDistance(" ++ [10%N] ++ txt "    -1230," ++ [10%N] ++ txt ")".
Proof.
  unfold numeral. repeat split; try (vm_compute; congruence).
  - repeat (constructor; [split; vm_compute; discriminate|]). constructor.
  - intros (_ & _ & H & _). specialize (H eq_refl). discriminate H.
  - intros (_ & _ & _ & H). vm_compute in H. discriminate H.
Qed.

(** ** C53. The text for a metric shows the options set last, and determines its results *)

Theorem C53_text : forall (UC : unicode) a o m, metric_reached a o m ->
  metric_text m =
    str_of (match a with AlgoV1 => "FzfV1" | AlgoV2 => "FzfV2" end)
    ++ str_of " { candidate_normalization: " ++ str_of (if opt_norm o then "true" else "false")
    ++ str_of ", case_sensitivity: "
    ++ str_of (match opt_case o with Sensitive => "Sensitive" | Insensitive => "Insensitive" | Smart => "Smart" end)
    ++ str_of ", scoring_scheme: "
    ++ str_of (match opt_scheme o with SchemeDefault => "Default" | SchemePath => "Path" | SchemeHistory => "History" end)
    ++ str_of ", .. }".
Proof. exact (@c53_text). Qed.
Print Assumptions C53_text.

Theorem C53_text_determines : forall (UC : unicode) a o a' o' m m' q c buf,
  metric_reached a o m -> metric_reached a' o' m' -> query_reached q ->
  metric_text m = metric_text m' ->
  exists d new n n', metric_distance_and_ranges m q c buf = Ok (d, n, buf ++ new)
    /\ metric_distance_and_ranges m' q c buf = Ok (d, n', buf ++ new).
Proof. exact (@c53_text_determines). Qed.
Print Assumptions C53_text_determines.

(** {:#?} prints each option in a line of its own. *)
Theorem C53_pretty : forall (UC : unicode) a o m, metric_reached a o m ->
  metric_pretty m =
    str_of (match a with AlgoV1 => "FzfV1 {" | AlgoV2 => "FzfV2 {" end) ++ [10%N]
    ++ str_of (if opt_norm o then "    candidate_normalization: true," else "    candidate_normalization: false,") ++ [10%N]
    ++ str_of (match opt_case o with
               | Sensitive => "    case_sensitivity: Sensitive,"
               | Insensitive => "    case_sensitivity: Insensitive,"
               | Smart => "    case_sensitivity: Smart," end) ++ [10%N]
    ++ str_of (match opt_scheme o with
               | SchemeDefault => "    scoring_scheme: Default,"
               | SchemePath => "    scoring_scheme: Path,"
               | SchemeHistory => "    scoring_scheme: History," end) ++ [10%N]
    ++ str_of "    .." ++ [10%N] ++ str_of "}".
Proof. exact (@c53_pretty). Qed.
Print Assumptions C53_pretty.

Example C53_text_example (UC := latin) :
  metric_reached AlgoV2 (Options Insensitive true SchemePath) (used AlgoV2 (Options Insensitive true SchemePath))
  /\ metric_text (used AlgoV2 (Options Insensitive true SchemePath))
     = txt "FzfV2 { candidate_normalization: true, case_sensitivity: Insensitive, scoring_scheme: Path, .. }"
  /\ metric_text (metric_with AlgoV2 (Options Insensitive true SchemePath)) = metric_text (used AlgoV2 (Options Insensitive true SchemePath)).
Proof. split; [apply used_reached|]. split; vm_compute; reflexivity. Qed.

(** ** C78. Queries which print the same give the same results: false *)

(** The negated and the quoted form of a term print the same. *)
Theorem C78_same_refuted : forall (UC : unicode) a printable, ~ (forall o m ps s s' q q' n n' c,
  metric_reached a o m -> parse ps s = Ok (q, n) -> parse ps s' = Ok (q', n') ->
  query_debug printable q = query_debug printable q' -> find ps m s c = find ps m s' c).
Proof.
  intros UC a pr H.
  destruct (the_query_parse (txt "'a")) as (n & E). destruct (the_query_parse (txt "!a")) as (n' & E').
  specialize (H _ _ _ _ _ _ _ _ _ (txt "a") (metric_with_reached a default_options) E E' eq_refl).
  destruct a; vm_compute in H; discriminate H.
Qed.
Print Assumptions C78_same_refuted.

(** Not even the texts of the terms can be told in all cases: the fuzzy term ["a"], with its double quotes, prints like
    the exact term [a]. *)
Theorem C78_texts_refuted : forall (UC : unicode) printable, ~ (forall ps s s' q q' n n',
  parse ps s = Ok (q, n) -> parse ps s' = Ok (q', n') ->
  query_debug printable q = query_debug printable q' ->
  map (map t_text) (parse_spec s) = map (map t_text) (parse_spec s')).
Proof.
  intros UC pr H. set (s' := str_debug pr (txt "a")).
  destruct (the_query_parse (txt "'a")) as (n & E). destruct (the_query_parse s') as (n' & E').
  specialize (H _ _ _ _ _ _ _ E E').
  assert (S : s' = [34; 97; 34]%N \/ s' = [34; 92; 117; 123; 54; 49; 125; 34]%N).
  { unfold s', str_debug, escape_char. cbn [txt list_ascii_of_string map flat_map]. destruct (pr 97%N) eqn:P; [left|right]; vm_compute; rewrite P; reflexivity. }
  assert (D : query_debug pr (the_query (txt "'a")) = query_debug pr (the_query s')).
  { change (query_debug pr (the_query (txt "'a"))) with (str_of "FzfQuery(" ++ str_debug pr s' ++ [41%N]).
    destruct S as [-> | ->]; reflexivity. }
  specialize (H D). destruct S as [S|S]; rewrite S in H; vm_compute in H; discriminate H.
Qed.
Print Assumptions C78_texts_refuted.

(** What holds: unless one of the queries is a single fuzzy term and the other is not, they print the same if and only if they
    consist of the same texts, grouped in the same way. Missing: the kinds of the terms and their
    negations, which are not printed. *)
Theorem C78_texts_partial : forall (UC : unicode) printable ps ps' s s' q q' n n',
  parse ps s = Ok (q, n) -> parse ps' s' = Ok (q', n') ->
  ((exists neg text, parse_spec s = [[Term neg KFuzzy text]]) <-> (exists neg text, parse_spec s' = [[Term neg KFuzzy text]])) ->
  (query_debug printable q = query_debug printable q'
   <-> map (map t_text) (parse_spec s) = map (map t_text) (parse_spec s')).
Proof. exact (@c78_texts). Qed.
Print Assumptions C78_texts_partial.

Example C78_example (UC := latin) (printable := fun c => ((32 <=? c) && (c <=? 126))%N) :
  map (map t_text) (parse_spec (txt "foo !bar$ | ^x\ y")) = [[txt "foo"]; [txt "bar"; txt "x y"]]
  /\ query_debug printable (the_query (txt "foo !bar$ | ^x\ y")) = txt "FzfQuery(""\""foo\"" && (\""bar\"" || \""x y\"")"")"
  /\ ~ (exists neg text, parse_spec (txt "foo !bar$ | ^x\ y") = [[Term neg KFuzzy text]])
  /\ query_debug printable (the_query (txt "foo" ++ [9; 233]%N)) = txt "FzfQuery(""foo\t\u{e9}"")".
Proof.
  split; [vm_compute; reflexivity|]. split; [vm_compute; reflexivity|]. split; [|vm_compute; reflexivity].
  intros (neg & text & E). vm_compute in E. discriminate E.
Qed.

(** ** C86. Printing a query does not emit control characters *)

(** Whatever characters the query string contains, the text is one line and shows only visible characters. *)
Theorem C86_shown : forall printable q, Forall (harmless printable) (query_debug printable q).
Proof. exact (@c86_shown). Qed.
Print Assumptions C86_shown.

(** {:#?} prints the same field, on a line of its own which is not broken any further. *)
Theorem C86_pretty : forall printable q, exists field,
  query_debug printable q = str_of "FzfQuery(" ++ field ++ str_of ")"
  /\ query_pretty printable q = str_of "FzfQuery(" ++ [10%N] ++ str_of "    " ++ field ++ str_of "," ++ [10%N] ++ str_of ")"
  /\ ~ In 10%N field.
Proof. exact (@c86_pretty). Qed.
Print Assumptions C86_pretty.

(** So either form can be compared in place of the other. *)
Theorem C86_same : forall printable q q',
  query_pretty printable q = query_pretty printable q' <-> query_debug printable q = query_debug printable q'.
Proof. exact (@c86_same). Qed.
Print Assumptions C86_same.

Example C86_example (UC := latin) (printable := fun c => (32 <=? c)%N) :
  map (map t_text) (parse_spec (txt "a" ++ [10; 0]%N ++ txt "b")) = [[txt "a" ++ [10; 0]%N ++ txt "b"]]
  /\ query_debug printable (the_query (txt "a" ++ [10; 0]%N ++ txt "b")) = txt "FzfQuery(""a\n\0b"")"
  /\ query_pretty printable (the_query (txt "a" ++ [10; 0]%N ++ txt "b"))
     = txt "FzfQuery(" ++ [10%N] ++ txt "    ""a\n\0b""," ++ [10%N] ++ txt ")"
  /\ ~ harmless printable 10%N.
Proof.
  split; [vm_compute; reflexivity|]. split; [vm_compute; reflexivity|]. split; [vm_compute; reflexivity|].
  intros [[H _]|(_ & _ & _ & H & _)]; [vm_compute in H|]; congruence.
Qed.
