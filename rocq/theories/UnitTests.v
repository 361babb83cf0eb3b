(** The unit tests and the examples in the documentation inside /repo/src, evaluated on the model. As UpstreamTests.v, these are tests of the model's
    fidelity, not proofs of properties. *)
From Coq Require Import String.
Local Open Scope string_scope.
From Verif Require Import Prelude Chars Normalize Utils Candidate MatchedRanges Query Parser Scoring Fzf FzfV1 FzfV2 Api.
Local Open Scope list_scope.
Local Open Scope nat_scope.

(** ** fzf.rs:588-695. The tests hold whatever the Unicode tables are: all characters are in ASCII. *)
Section Fzf.
Context {UC : unicode}.

Definition exact_test (p c : string) : option (option (list range)) :=
  match pattern_parse (str_of p) with
  | Ok (Some p) =>
      match exact_match true p (Ascii (str_of c)) (char_eq true false) (into_inner SchemeDefault) (mranges_from []) with
      | Ok (Some _, m) => Some (Some (mr_ranges m))
      | Ok (None, _) => Some None
      | _ => None
      end
  | _ => None
  end.

(** The pattern of equal_match_1 has the type EqualExact, but the test calls exact_match. *)
Example equal_match_1 : map (exact_test "^AbC$") ["ABC"; "AbC"; "AbC "; " AbC "; "  AbC"]
  = [Some None; Some (Some [(0, 3)]); Some (Some [(0, 3)]); Some (Some [(1, 4)]); Some (Some [(2, 5)])].
Proof. vm_compute. reflexivity. Qed.

Example exact_match_1 : exact_test "abc" "aabbcc abc" = Some (Some [(7, 10)]).
Proof. vm_compute. reflexivity. Qed.

(** ** parser.rs:407-509 *)
Definition parsed (s : string) : option query :=
  match parse parser_new (str_of s) with Ok (q, _) => Some q | _ => None end.

Definition kinds (cs : list condition) : list (list (match_type * bool)) :=
  map (map (fun p => (p_match_type p, p_is_inverse p))) cs.

Example parse_query_empty : option_map q_is_empty (parsed "") = Some true.
Proof. vm_compute. reflexivity. Qed.

Example parse_query_single_fuzzy : match parsed "foo" with
  | Some (NotExtended p) => p_text p = str_of "foo" /\ p_match_type p = Fuzzy
  | _ => False
  end.
Proof. vm_compute. split; reflexivity. Qed.

Example parse_query_upstream_extended :
  match parsed "aaa 'bbb ^ccc ddd$ !eee !'fff !^ggg !hhh$ | ^iii$ ^xxx | 'yyy | zzz$ | !ZZZ |" with
  | Some (Extended cs) => kinds cs =
      [[(Fuzzy, false)]; [(Exact, false)]; [(PrefixExact, false)]; [(SuffixExact, false)]; [(Exact, true)]; [(Fuzzy, true)];
       [(PrefixExact, true)]; [(SuffixExact, true); (EqualExact, false)];
       [(PrefixExact, false); (Exact, false); (SuffixExact, false); (Exact, true)]]
  | _ => False
  end.
Proof. vm_compute. reflexivity. Qed.

(** ** parser.rs:511-571 *)
Fixpoint all_blocks (fuel : nat) (p : patterns) : option (list (list pattern)) :=
  match fuel with
  | 0 => None
  | S fuel => match patterns_next p with
      | Ok (None, _) => Some []
      | Ok (Some b, p) => option_map (cons b) (all_blocks fuel p)
      | _ => None
      end
  end.

Definition blocks (s : string) : option (list (list pattern)) :=
  let b := encode (str_of s) in
  match patterns_new (repeat default_pattern (length b / 2 + 1)) (repeat 0%N (length b)) b with
  | Ok p => all_blocks (S (length b)) p
  | _ => None
  end.

Definition the_pattern (s : string) : pattern :=
  match pattern_parse (str_of s) with Ok (Some p) => p | _ => default_pattern end.

Example patterns_all : map blocks
    [""; "foo"; "foo | bar | baz"; "foo bar baz"; "foo | | bar"; "foo | bar baz qux | quux | corge"]
  = map (fun l => Some (map (map the_pattern) l))
    [[]; [["foo"]]; [["foo"; "bar"; "baz"]]; [["foo"]; ["bar"]; ["baz"]]; [["foo"; "bar"]];
     [["foo"; "bar"]; ["baz"]; ["qux"; "quux"; "corge"]]].
Proof. vm_compute. reflexivity. Qed.

(** ** query.rs:314-373 *)
Definition parse_test (s : string) : option (option (str * match_type * bool)) :=
  match pattern_parse (str_of s) with
  | Ok p => Some (option_map (fun p => (p_text p, p_match_type p, p_is_inverse p)) p)
  | _ => None
  end.

Example pattern_parse_specials_none : map parse_test ["'"; "^"; "!"; "!'"; "!^"; "'$"; "^$"; "!^$"] = repeat (Some None) 8.
Proof. vm_compute. reflexivity. Qed.

Example pattern_parse_specials_some :
  map parse_test ["$"; "'^"; "!$"; "!!"; "$$"; "'^$"; "'!$"; "'^$$"]
  = map (fun '(s, m, i) => Some (Some (str_of s, m, i)))
    [("$", Fuzzy, false); ("^", Exact, false); ("$", Exact, true); ("!", Exact, true); ("$", SuffixExact, false);
     ("^", Exact, false); ("!", Exact, false); ("^$", Exact, false)].
Proof. vm_compute. reflexivity. Qed.

(** ** Documentation *)
Definition found_with (m : metric) (q : query) (c : str) (buf : list range) : option (option Z * list range) :=
  match metric_distance_and_ranges m q c buf with
  | Ok (d, _, buf) => Some (option_map into_score d, buf)
  | _ => None
  end.

(** The score and the ranges of [c] for the query [s], appended to [buf]. *)
Definition doc (m : metric) (s c : str) (buf : list range) : option (option Z * list range) :=
  match parse parser_new s with Ok (q, _) => found_with m q c buf | _ => None end.

Definition is_found (x : option (option Z * list range)) : bool :=
  match x with Some (Some _, _) => true | _ => false end.

(** The ranges if there is a match. *)
Definition ranges_found (x : option (option Z * list range)) : option (list range) :=
  match x with Some (Some _, r) => Some r | _ => None end.

Definition doc_score (m : metric) (s c : string) : Z :=
  match doc m (str_of s) (str_of c) [] with Some (Some d, _) => d | _ => 0%Z end.

(** lib.rs:25-66. The distance is the negated score. *)
Example lib_doc :
  map (fun c => is_found (doc (metric_new AlgoV2) (str_of "aa") (str_of c) []))
    ["Geneva"; "Ulaanbaatar"; "New York City"; "Adelaide"] = [false; true; false; true]
  /\ (doc_score (metric_new AlgoV2) "aa" "Ulaanbaatar" < doc_score (metric_new AlgoV2) "aa" "Adelaide")%Z
  /\ ranges_found (doc (metric_new AlgoV2) (str_of "aa") (str_of "Adelaide") []) = Some [(0, 1); (4, 5)]
  /\ ranges_found (doc (metric_new AlgoV2) (str_of "aa") (str_of "Ulaanbaatar") []) = Some [(2, 4)].
Proof. vm_compute. repeat split; reflexivity. Qed.

(** metric.rs:65-122; the third example is [norm_doc] *)
Example metric_doc :
  doc (metric_new AlgoV1) (str_of "foo") (str_of "bar") [] = Some (None, [])
  /\ ranges_found (doc (metric_new AlgoV1) (str_of "foo") (str_of "seafood") []) = Some [(3, 6)]
  /\ ranges_found (doc (metric_new AlgoV1) (str_of "foo") (str_of "fancy igloo") [(3, 6)]) = Some [(3, 6); (0, 1); (9, 11)].
Proof. vm_compute. repeat split; reflexivity. Qed.

(** fzf_v1.rs:22-55 *)
Example v1_doc : ranges_found (doc (metric_new AlgoV1) (str_of "abc") (str_of "a_b_abcd") []) = Some [(4, 7)].
Proof. vm_compute. reflexivity. Qed.

(** fzf_v2.rs:23-50 *)
Example v2_doc :
  ranges_found (doc (metric_new AlgoV1) (str_of "foo") (str_of "f_o_o_foo") []) = Some [(0, 1); (2, 3); (4, 5)]
  /\ ranges_found (doc (metric_new AlgoV2) (str_of "foo") (str_of "f_o_o_foo") []) = Some [(6, 9)]
  /\ (doc_score (metric_new AlgoV1) "foo" "f_o_o_foo" < doc_score (metric_new AlgoV2) "foo" "f_o_o_foo")%Z.
Proof. vm_compute. repeat split; reflexivity. Qed.

(** fzf_v1.rs:143-156 and fzf_v2.rs:154-167 *)
Example case_doc : map (fun a =>
    (is_found (doc (metric_new a) (str_of "abc") (str_of "ABC") []),
     is_found (doc (set_case_sensitivity (metric_new a) Sensitive) (str_of "abc") (str_of "ABC") [])))
    [AlgoV1; AlgoV2] = [(true, false); (true, false)].
Proof. vm_compute. reflexivity. Qed.

(** fzf_v1.rs:171-193 and fzf_v2.rs:182-204. On Windows the separator of paths is a backslash. *)
Example scheme_doc : cfg_windows = false -> map (fun a =>
    let path := set_scoring_scheme (metric_new a) SchemePath in
    ((doc_score (metric_new a) "foo" "f/o/o" <? doc_score (metric_new a) "foo" "f o o")%Z,
     (doc_score path "foo" "f o o" <? doc_score path "foo" "f/o/o")%Z))
    [AlgoV1; AlgoV2] = [(true, true); (true, true)].
Proof. intros H. destruct UC as [w ? ? ? ? ?]. cbn in H. subst w. vm_compute. reflexivity. Qed.

(** parser.rs:149-170 *)
Example not_extended_doc :
  match parse_not_extended parser_new (str_of "^bar | baz$") with
  | Ok (q, _) => ranges_found (found_with (metric_new AlgoV2) q (str_of "^foo bar | baz $ foo") []) = Some [(0, 1); (5, 14); (15, 16)]
  | _ => False
  end
  /\ is_found (doc (metric_new AlgoV2) (str_of "^bar | baz$") (str_of "^foo bar | baz $ foo") []) = false.
Proof. vm_compute. split; reflexivity. Qed.

(** fzf_v1.rs:111-128, fzf_v2.rs:122-139 and metric.rs:105-122: "ƒöö". *)
Definition foo_accents : str := [402; 246; 246]%N.
Definition doc_norm (a : algo) : metric := set_candidate_normalization (metric_new a) true.

End Fzf.

(** The classes of these three letters; no other character is asked about. *)
#[local] Instance doc_unicode : unicode :=
  {| cfg_windows := false; u_lowercase := fun c => (c =? 402)%N || (c =? 246)%N; u_uppercase := fun _ => false;
     u_numeric := fun _ => false; u_alphabetic := fun _ => true; u_whitespace := fun _ => false |}.

Example norm_doc : map (fun a =>
    (is_found (doc (metric_new a) (str_of "foo") foo_accents []),
     ranges_found (doc (doc_norm a) (str_of "foo") foo_accents []),
     is_found (doc (doc_norm a) foo_accents (str_of "foo") [])))
    [AlgoV1; AlgoV2] = [(false, Some [(0, 6)], false); (false, Some [(0, 6)], false)].
Proof. vm_compute. reflexivity. Qed.


(** ** parser.rs:577-647 *)
Fixpoint all_words (fuel : nat) (w : words) : option (list str) :=
  match fuel with
  | 0 => None
  | S fuel => match words_next w with
      | Ok (None, _) => Some []
      | Ok (Some x, w) => option_map (cons x) (all_words fuel w)
      | _ => None
      end
  end.

Definition words_test (s : string) : option (list str) :=
  let b := encode (str_of s) in
  match words_new (repeat 0%N (length b)) b with Ok w => all_words (S (length b)) w | _ => None end.

Example words_all : map words_test
    [""; "foo"; "\\ "; "foo bar"; "   foo bar   "; "foo\ bar\ baz"; " \  foo \ bar \  "; "\ "; " \ \ \  "]
  = map (fun l => Some (map str_of l))
    [[]; ["foo"]; ["\ "]; ["foo"; "bar"]; ["foo"; "bar"]; ["foo bar baz"]; [" "; "foo"; " bar"; " "]; [" "]; ["   "]].
Proof. vm_compute. reflexivity. Qed.

(** The examples of Words, parser.rs:286-309 *)
Example words_doc : map words_test ["foo 'bar' ""baz"""; "foo\ bar baz"; "foo \ bar"]
  = map (fun l => Some (map str_of l)) [["foo"; "'bar'"; """baz"""]; ["foo bar"; "baz"]; ["foo"; " bar"]].
Proof. vm_compute. reflexivity. Qed.

(** ** normalize.rs:570-594 *)
Example normalize_batches : forallb (fun '(raw, n) => N.eqb (normalize raw) n) (first_batch ++ second_batch ++ third_batch) = true.
Proof. vm_compute. reflexivity. Qed.

(** ** matched_ranges.rs:225-352 *)
Fixpoint inserted (m : mranges) (l : list range) : option (list range) :=
  match l with
  | [] => Some (mr_ranges m)
  | r :: l => match mr_insert m r with Ok m => inserted m l | _ => None end
  end.

Example matched_ranges_insert : map (inserted (mranges_from []))
   [[(0, 1); (0, 2); (0, 3)]; [(0, 1); (0, 2); (0, 3); (0, 2)]; [(0, 1); (1, 2); (2, 3)]; [(2, 3); (1, 2); (0, 1)];
    [(0, 1); (2, 3)]; [(0, 1); (2, 3); (1, 2)]; [(0, 2); (4, 6); (1, 3)]; [(0, 2); (4, 6); (3, 5)]; [(0, 4); (6, 8); (10, 14)];
    [(3, 8); (4, 7)]; [(3, 8); (4, 7); (5, 6)]; [(1, 2); (3, 8); (4, 7)]; [(1, 2); (3, 8); (4, 7); (5, 6)];
    [(10, 11); (3, 8); (4, 7)]; [(10, 11); (3, 8); (4, 7); (5, 6)];
    [(1, 2); (10, 11); (3, 8); (4, 7)]; [(1, 2); (10, 11); (3, 8); (4, 7); (5, 6)]]
 = map Some
   [[(0, 3)]; [(0, 3)]; [(0, 3)]; [(0, 3)];
    [(0, 1); (2, 3)]; [(0, 3)]; [(0, 3); (4, 6)]; [(0, 2); (3, 6)]; [(0, 4); (6, 8); (10, 14)];
    [(3, 8)]; [(3, 8)]; [(1, 2); (3, 8)]; [(1, 2); (3, 8)]; [(3, 8); (10, 11)]; [(3, 8); (10, 11)];
    [(1, 2); (3, 8); (10, 11)]; [(1, 2); (3, 8); (10, 11)]].
Proof. vm_compute. reflexivity. Qed.
