(** Properties C01 to C05 and C10 to C17: what every call returns, whatever happened before.

    Each theorem is the statement of a property, with the proof referred to a lemma. After it
    come its assumptions and a case which meets its hypotheses. A name ending in [_refuted]
    says that the property as stated in properties.jsonl is false of the code; the theorems next
    to it, with the suffix [_partial], say what holds. *)
From Coq Require Import Sorted String.
From Verif Require Import Prelude Chars Normalize Utils Candidate Query Parser Scoring Slab Fzf FzfV1 FzfV2 Api History Spec.
From Verif Require Import Claims1 Claims2 Claims3 Claims4 Claims5 Claims6 Claims7 Claims8 ExampleKit.
Local Open Scope nat_scope.

(** ** C01. distance and distance_and_ranges agree *)

Theorem C01_same_distance : forall (UC : unicode) a o m m' q c buf,
  metric_reached a o m -> metric_reached a o m' -> query_reached q ->
  exists d m1 m2 buf',
    metric_distance m q c = Ok (d, m1) /\ metric_distance_and_ranges m' q c buf = Ok (d, m2, buf').
Proof. exact (@c01_same_distance). Qed.
Print Assumptions C01_same_distance.

Example C01_example (UC := latin) :
  metric_reached AlgoV2 default_options (used AlgoV2 default_options)
  /\ metric_reached AlgoV2 default_options (metric_with AlgoV2 default_options)
  /\ query_reached (the_query (txt "fb !x"))
  /\ shown (metric_distance (used AlgoV2 default_options) (the_query (txt "fb !x")) (txt "foo bar"))
     = Some (Some (Distance 57))
  /\ shown_ranges (metric_distance_and_ranges (metric_with AlgoV2 default_options) (the_query (txt "fb !x")) (txt "foo bar") [(7, 9)])
     = Some (Some (Distance 57), [(7, 9); (0, 1); (4, 5)]).
Proof.
  split; [apply used_reached|]. split; [apply metric_with_reached|]. split; [apply the_query_reached|].
  split; vm_compute; reflexivity.
Qed.

(** ** C02. The buffer is append-only; what is appended does not depend on the buffer *)

Theorem C02_append_only : forall (UC : unicode) a o m q c,
  metric_reached a o m -> query_reached q ->
  exists d new, forall buf, exists m',
    metric_distance_and_ranges m q c buf = Ok (d, m', buf ++ new).
Proof. exact (@c02_append_only). Qed.
Print Assumptions C02_append_only.

Example C02_example (UC := latin) :
  metric_reached AlgoV1 default_options (used AlgoV1 default_options)
  /\ query_reached (the_query (txt "fb | ^foo 'r"))
  /\ shown_ranges (metric_distance_and_ranges (used AlgoV1 default_options) (the_query (txt "fb | ^foo 'r")) (txt "foo bar") [(1, 2); (0, 9)])
     = Some (Some (Distance 73), [(1, 2); (0, 9); (0, 1); (4, 5); (6, 7)])
  /\ shown_ranges (metric_distance_and_ranges (used AlgoV1 default_options) (the_query (txt "fb 'z")) (txt "foo bar") [(1, 2); (0, 9)])
     = Some (None, [(1, 2); (0, 9); (0, 1); (4, 5)]).
Proof.
  split; [apply used_reached|]. split; [apply the_query_reached|]. split; vm_compute; reflexivity.
Qed.

(** ** C03. No match leaves the buffer untouched: false for queries of several conditions *)

Theorem C03_no_match_untouched_refuted : forall (UC : unicode) a, ~ (forall o m ps s c buf buf',
  metric_reached a o m -> find_ranges ps m s c buf = Ok (None, buf') -> buf' = buf).
Proof.
  intros UC a H.
  assert (E : find_ranges parser_new (metric_with a default_options) (txt "foo bar") (txt "foo") [] = Ok (None, [(0, 3)]))
    by (destruct a; vm_compute; reflexivity).
  discriminate (H _ _ _ _ _ _ _ (metric_with_reached a default_options) E).
Qed.
Print Assumptions C03_no_match_untouched_refuted.

(** What holds: if already the first condition fails, nothing is appended. Missing for the full
    property: the case of a later condition that fails. *)
Theorem C03_no_match_untouched_partial : forall (UC : unicode) a o m ps s s1 g q c buf buf',
  metric_reached a o m ->
  parse_spec s = g :: q -> parse_spec s1 = [g] -> ~ lone_negated_fuzzy [g] ->
  find ps m s1 c = Ok None ->
  find_ranges ps m s c buf = Ok (None, buf') -> buf' = buf.
Proof. exact (@c03_no_match_untouched_partial). Qed.
Print Assumptions C03_no_match_untouched_partial.

Example C03_partial_example (UC := latin) :
  parse_spec (txt "zap | zip foo") = [Term false KFuzzy (txt "zap"); Term false KFuzzy (txt "zip")] :: [[Term false KFuzzy (txt "foo")]]
  /\ parse_spec (txt "zap | zip") = [[Term false KFuzzy (txt "zap"); Term false KFuzzy (txt "zip")]]
  /\ ~ lone_negated_fuzzy [[Term false KFuzzy (txt "zap"); Term false KFuzzy (txt "zip")]]
  /\ find parser_new (used AlgoV2 default_options) (txt "zap | zip") (txt "foo")
     = Ok None
  /\ find_ranges parser_new (used AlgoV2 default_options) (txt "zap | zip foo") (txt "foo") [(4, 5)]
     = Ok (None, [(4, 5)]).
Proof.
  split; [vm_compute; reflexivity|]. split; [vm_compute; reflexivity|].
  split; [intros (text & H); discriminate H|]. split; vm_compute; reflexivity.
Qed.

(** The full property holds for queries of one condition, and for those not in extended syntax. *)
Theorem C03_single_condition_partial : forall (UC : unicode) a o m ps s g c buf buf',
  metric_reached a o m -> parse_spec s = [g] ->
  find_ranges ps m s c buf = Ok (None, buf') -> buf' = buf.
Proof. exact (@c03_single_condition). Qed.
Print Assumptions C03_single_condition_partial.

Theorem C03_not_extended_partial : forall (UC : unicode) a o m ps s c buf buf',
  metric_reached a o m -> find_ranges_raw ps m s c buf = Ok (None, buf') -> buf' = buf.
Proof. exact (@c03_not_extended). Qed.
Print Assumptions C03_not_extended_partial.

Example C03_single_example (UC := latin) :
  parse_spec (txt "^bar | oof")
     = [[{| t_neg := false; t_kind := KPrefix; t_text := [98%N; 97%N; 114%N] |}; {| t_neg := false; t_kind := KFuzzy; t_text := [111%N; 111%N; 102%N] |}]]
  /\ find_ranges parser_new (used AlgoV1 default_options) (txt "^bar | oof") (txt "foo") [(4, 5)]
     = Ok (None, [(4, 5)])
  /\ find_ranges_raw parser_new (used AlgoV1 default_options) (txt "foo bar") (txt "foo") [(4, 5)]
     = Ok (None, [(4, 5)]).
Proof. repeat split; vm_compute; reflexivity. Qed.

(** The exact behaviour in that case: what the conditions before the first failing one have
    matched stays in the buffer. *)
Theorem C03_leftover_partial : forall (UC : unicode) a o m ps s1 s2 s q1 g q2 c buf d buf1,
  metric_reached a o m ->
  parse_spec s1 = q1 -> parse_spec s2 = [g] -> parse_spec s = q1 ++ g :: q2 ->
  ~ lone_negated_fuzzy q1 -> ~ lone_negated_fuzzy [g] ->
  find_ranges ps m s1 c buf = Ok (Some d, buf1) -> find ps m s2 c = Ok None ->
  find_ranges ps m s c buf = Ok (None, buf1).
Proof. exact (@c03_leftover). Qed.
Print Assumptions C03_leftover_partial.

Example C03_leftover_example (UC := latin) :
  parse_spec (txt "fo 'bar") = parse_spec (txt "fo 'bar") /\ parse_spec (txt "zip") = [[Term false KFuzzy (txt "zip")]]
  /\ parse_spec (txt "fo 'bar zip ^f") = parse_spec (txt "fo 'bar") ++ [Term false KFuzzy (txt "zip")] :: [[Term false KPrefix (txt "f")]]
  /\ ~ lone_negated_fuzzy (parse_spec (txt "fo 'bar")) /\ ~ lone_negated_fuzzy [[Term false KFuzzy (txt "zip")]]
  /\ find_ranges parser_new (used AlgoV2 default_options) (txt "fo 'bar") (txt "foo bar") [(4, 5)]
     = Ok (Some (Distance 150), [(4, 5); (0, 2); (4, 7)])
  /\ find parser_new (used AlgoV2 default_options) (txt "zip") (txt "foo bar")
     = Ok None
  /\ find_ranges parser_new (used AlgoV2 default_options) (txt "fo 'bar zip ^f") (txt "foo bar") [(4, 5)]
     = Ok (None, [(4, 5); (0, 2); (4, 7)]).
Proof.
  split; [reflexivity|]. split; [vm_compute; reflexivity|]. split; [vm_compute; reflexivity|].
  split; [intros (text & H); vm_compute in H; discriminate H|]. split; [intros (text & H); discriminate H|].
  repeat split; vm_compute; reflexivity.
Qed.

(** ** C04. The ranges appended are non-empty, ascending and not adjacent *)

Theorem C04_canonical : forall (UC : unicode) a o m q c buf d m' buf',
  metric_reached a o m -> query_reached q ->
  metric_distance_and_ranges m q c buf = Ok (d, m', buf') ->
  exists new, buf' = buf ++ new /\ canonical new.
Proof. exact (@c04_canonical). Qed.
Print Assumptions C04_canonical.

(** So the appended ranges are determined by the bytes they cover. *)
Theorem C04_canonical_unique : forall rs rs', canonical rs -> canonical rs' ->
  (forall b, covered rs b <-> covered rs' b) -> rs = rs'.
Proof. exact (@canonical_unique). Qed.
Print Assumptions C04_canonical_unique.

Example C04_example (UC := latin) :
  shown_ranges (metric_distance_and_ranges (used AlgoV1 default_options) (the_query (txt "ab 'cd ^a e$")) (txt "abcde") [(0, 2)])
     = Some (Some (Distance 150), [(0, 2); (0, 5)])
  /\ shown_ranges (metric_distance_and_ranges (used AlgoV2 default_options) (the_query (txt "fbb o")) (txt "foo bar baz") [])
     = Some (Some (Distance 94), [(0, 2); (4, 5); (8, 9)])
  /\ canonical [(0, 2); (4, 5); (8, 9)].
Proof.
  split; [vm_compute; reflexivity|]. split; [vm_compute; reflexivity|].
  split; [repeat constructor|]. repeat constructor.
Qed.

(** ** C05. The ranges appended lie on character boundaries *)

Theorem C05_boundaries : forall (UC : unicode) a o m q c buf d m' buf',
  metric_reached a o m -> query_reached q ->
  metric_distance_and_ranges m q c buf = Ok (d, m', buf') ->
  exists new, buf' = buf ++ new
    /\ Forall (fun r => boundary c (fst r) /\ boundary c (snd r) /\ fst r < snd r <= byte_len c) new.
Proof. exact (@c05_boundaries). Qed.
Print Assumptions C05_boundaries.

(** "é" has two bytes, "→" three. *)
Example C05_example (UC := latin) :
  shown_ranges (metric_distance_and_ranges (used AlgoV2 default_options) (the_query [233; 98]%N) [97; 233; 8594; 98]%N [])
     = Some (Some (Distance 37), [(1, 3); (6, 7)])
  /\ byte_len [97; 233; 8594; 98]%N
     = 7.
Proof. split; vm_compute; reflexivity. Qed.

(** ** C10. Blank queries match everything with the default distance *)

Theorem C10_blank : forall (UC : unicode) a o m ps s c buf,
  metric_reached a o m -> Forall (fun w => is_term w = None) (words_of s) ->
  find ps m s c = Ok (Some default_distance)
  /\ find_ranges ps m s c buf = Ok (Some default_distance, buf).
Proof. exact (@c10_blank). Qed.
Print Assumptions C10_blank.

Theorem C10_spaces : forall (UC : unicode) a o m ps n c buf, metric_reached a o m ->
  find ps m (spaces n) c = Ok (Some default_distance)
  /\ find_ranges ps m (spaces n) c buf = Ok (Some default_distance, buf).
Proof. exact (@c10_spaces). Qed.
Print Assumptions C10_spaces.

Theorem C10_blank_not_extended : forall (UC : unicode) a o m ps c buf,
  metric_reached a o m ->
  find_raw ps m [] c = Ok (Some default_distance)
  /\ find_ranges_raw ps m [] c buf = Ok (Some default_distance, buf).
Proof. exact (@c10_blank_not_extended). Qed.
Print Assumptions C10_blank_not_extended.

Example C10_example (UC := latin) :
  words_of (txt "  ! |  ' ^ !^ ") = map txt ["!"; "|"; "'"; "^"; "!^"]%string
  /\ Forall (fun w => is_term w = None) (words_of (txt "  ! |  ' ^ !^ "))
  /\ find_ranges parser_new (used AlgoV2 default_options) (txt "  ! |  ' ^ !^ ") (txt "foo") [(1, 2)]
     = Ok (Some (Distance 0), [(1, 2)])
  /\ find_ranges parser_new (used AlgoV1 default_options) (spaces 3) [] []
     = Ok (Some (Distance 0), [])
  /\ find_ranges_raw parser_new (used AlgoV1 default_options) [] (txt "foo") []
     = Ok (Some (Distance 0), []).
Proof.
  split; [vm_compute; reflexivity|]. split; [vm_compute; repeat constructor|]. repeat split; vm_compute; reflexivity.
Qed.

(** ** C11, C12. Results do not depend on earlier calls

    [m] and [m'] are reached by any two sequences of setter calls and searches which leave the
    same options set. *)

Theorem C11_v1_history : forall (UC : unicode) o m m' q c buf,
  metric_reached AlgoV1 o m -> metric_reached AlgoV1 o m' -> query_reached q ->
  (exists d m1 m1', metric_distance m q c = Ok (d, m1) /\ metric_distance m' q c = Ok (d, m1'))
  /\ (exists d buf' m1 m1', metric_distance_and_ranges m q c buf = Ok (d, m1, buf')
        /\ metric_distance_and_ranges m' q c buf = Ok (d, m1', buf')).
Proof. exact (fun UC => @history UC AlgoV1). Qed.
Print Assumptions C11_v1_history.

Theorem C12_v2_history : forall (UC : unicode) o m m' q c buf,
  metric_reached AlgoV2 o m -> metric_reached AlgoV2 o m' -> query_reached q ->
  (exists d m1 m1', metric_distance m q c = Ok (d, m1) /\ metric_distance m' q c = Ok (d, m1'))
  /\ (exists d buf' m1 m1', metric_distance_and_ranges m q c buf = Ok (d, m1, buf')
        /\ metric_distance_and_ranges m' q c buf = Ok (d, m1', buf')).
Proof. exact (fun UC => @history UC AlgoV2). Qed.
Print Assumptions C12_v2_history.

Example C12_example (UC := latin) :
  metric_reached AlgoV2 default_options (used AlgoV2 default_options)
  /\ metric_reached AlgoV2 default_options (metric_with AlgoV2 default_options)
  /\ used AlgoV2 default_options <> metric_with AlgoV2 default_options
  /\ shown_ranges (metric_distance_and_ranges (used AlgoV2 default_options) (the_query (txt "ob")) (txt "foo bar") [])
     = Some (Some (Distance 39), [(2, 3); (4, 5)])
  /\ shown_ranges (metric_distance_and_ranges (metric_with AlgoV2 default_options) (the_query (txt "ob")) (txt "foo bar") [])
     = Some (Some (Distance 39), [(2, 3); (4, 5)]).
Proof.
  split; [apply used_reached|]. split; [apply metric_with_reached|]. split; [vm_compute; discriminate|].
  split; vm_compute; reflexivity.
Qed.

(** ** C13, C14. parse is a function of the string, and total *)

Theorem C13_parse_history : forall (UC : unicode) ps1 ps2 s,
  exists q ps1' ps2', parse ps1 s = Ok (q, ps1') /\ parse ps2 s = Ok (q, ps2').
Proof. exact (@c13_parse_history). Qed.
Print Assumptions C13_parse_history.

Theorem C14_parse_total : forall (UC : unicode) ps s, exists q ps', parse ps s = Ok (q, ps').
Proof. exact (@c14_parse_total). Qed.
Print Assumptions C14_parse_total.

Example C14_example (UC := latin) :
  match parse parser_new [94; 92; 32; 233; 36; 32; 124; 32; 33; 39; 8594; 36]%N with
  | Ok (q, ps') => read_query q = [[Term false KEqual [32; 233]; Term true KFuzzy [8594]]]%N /\ ps' <> parser_new
  | _ => False
  end.
Proof. vm_compute. split; [reflexivity|discriminate]. Qed.

(** ** C15. parse_not_extended panics on long strings *)

Theorem C15_parse_not_extended_refuted : forall (UC : unicode), exists s, parse_not_extended parser_new s = Panic.
Proof. intros UC. exists (repeat 97%N 65). vm_compute. reflexivity. Qed.
Print Assumptions C15_parse_not_extended_refuted.

(** What holds: it panics exactly if the string has more characters than there is room for, which
    is the larger of 64 and the byte lengths of all strings parsed before. *)
Theorem C15_parse_not_extended_partial : forall (UC : unicode) n ps s, parser_with_room n ps ->
  (length s <= n -> exists q ps', parse_not_extended ps s = Ok (q, ps'))
  /\ (n < length s -> parse_not_extended ps s = Panic).
Proof. exact (@c15_parse_not_extended_partial). Qed.
Print Assumptions C15_parse_not_extended_partial.

(** Strings of up to 64 characters are always accepted, and longer ones if something at least as
    long has been parsed right before. *)
Theorem C15_short_partial : forall (UC : unicode) ps s, parser_reached ps -> length s <= 64 ->
  exists q ps', parse_not_extended ps s = Ok (q, ps').
Proof. exact (@c15_short). Qed.
Print Assumptions C15_short_partial.

Theorem C15_after_parse_partial : forall (UC : unicode) ps s q ps' s', parse ps s = Ok (q, ps') -> length s' <= byte_len s ->
  exists q' ps'', parse_not_extended ps' s' = Ok (q', ps'').
Proof. exact (@c15_after_parse). Qed.
Print Assumptions C15_after_parse_partial.

Example C15_example (UC := latin) :
  parser_with_room 64 parser_new
  /\ (exists q ps, parse parser_new (repeat 233%N 40) = Ok (q, ps) /\ parser_with_room 80 ps
        /\ (exists q' ps', parse_not_extended ps (repeat 97%N 80) = Ok (q', ps'))
        /\ parse_not_extended ps (repeat 97%N 81) = Panic).
Proof.
  split; [constructor|]. destruct (parse parser_new (repeat 233%N 40)) as [[q ps]| |] eqn:E; try discriminate.
  exists q, ps. split; [reflexivity|].
  assert (W : parser_with_room 80 ps) by exact (pw_parse 64 parser_new (repeat 233%N 40) q ps pw_new E).
  split; [exact W|]. split.
  - apply (C15_parse_not_extended_partial UC 80 ps _ W). rewrite repeat_length. constructor.
  - apply (C15_parse_not_extended_partial UC 80 ps _ W). rewrite repeat_length. constructor.
Qed.

(** ** C16, C17. The searches never panic and always terminate *)

Theorem C16_v1_total : forall (UC : unicode) o m q c buf, metric_reached AlgoV1 o m -> query_reached q ->
  (exists d m', metric_distance m q c = Ok (d, m'))
  /\ (exists d m' buf', metric_distance_and_ranges m q c buf = Ok (d, m', buf')).
Proof. exact (fun UC => @metric_total UC AlgoV1). Qed.
Print Assumptions C16_v1_total.

Theorem C17_v2_total : forall (UC : unicode) o m q c buf, metric_reached AlgoV2 o m -> query_reached q ->
  (exists d m', metric_distance m q c = Ok (d, m'))
  /\ (exists d m' buf', metric_distance_and_ranges m q c buf = Ok (d, m', buf')).
Proof. exact (fun UC => @metric_total UC AlgoV2). Qed.
Print Assumptions C17_v2_total.

Example C16_C17_example (UC := latin) :
  metric_reached AlgoV1 default_options (used AlgoV1 default_options)
  /\ metric_reached AlgoV2 default_options (used AlgoV2 default_options)
  /\ query_reached (the_query [94; 92; 32; 233; 36; 32; 124; 32; 33; 39; 8594; 36]%N)
  /\ shown_ranges (metric_distance_and_ranges (used AlgoV1 default_options) (the_query [94; 92; 32; 233; 36; 32; 124; 32; 33; 39; 8594; 36]%N) [32; 32; 233]%N [])
     = Some (Some (Distance 62), [(1, 4)])
  /\ shown_ranges (metric_distance_and_ranges (used AlgoV2 default_options) (the_query [94; 92; 32; 233; 36; 32; 124; 32; 33; 39; 8594; 36]%N) [32; 32; 233]%N [])
     = Some (Some (Distance 62), [(1, 4)]).
Proof.
  split; [apply used_reached|]. split; [apply used_reached|]. split; [apply the_query_reached|].
  split; vm_compute; reflexivity.
Qed.
