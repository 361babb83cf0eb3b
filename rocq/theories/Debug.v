(** The texts which {:?} and {:#?} produce for the public types of the crate: queries, distances,
    metrics and parsers. Printing of private types (Candidate, MatchedRanges, Matrix) is not modelled:
    no function of the API hands them out. Nor are a width or a precision in the format string. *)
From Coq Require Import String.
From Verif Require Import Prelude Chars Query Parser Utils Scoring Slab Fzf FzfV1 FzfV2 Api Usage.
Local Open Scope N_scope.

(** A digit of a number, in lower case: core::char::from_digit. For the escapes of query.rs:22-37. *)
Definition digit (d : N) : char := if d <? 10 then 48 + d else 87 + d.

(** The digits of [n] in base [b], the most significant first. The fuel is more than the number of
    binary digits, which is enough for all bases. core::fmt::num. For distance.rs:8. *)
Fixpoint digits (fuel : nat) (b n : N) : str :=
  match fuel with
  | O => []
  | S fuel => if n <? b then [digit n] else digits fuel b (n / b) ++ [digit (n mod b)]
  end.

(** {:x} and {} of an unsigned number. For distance.rs:8. *)
Definition number (b n : N) : str := digits (N.to_nat (N.size n) + 1) b n.

(** {} and {:?} of an i64. For distance.rs:8 (derived Debug). *)
Definition integer (z : Z) : str :=
  if (z <? 0)%Z then 45 :: number 10 (Z.to_N (- z)) else number 10 (Z.to_N z).

(** One character in the Debug output of a str: char::escape_debug_ext with double quotes and
    grapheme extenders escaped, single quotes not. [printable] stands for core::unicode: the
    characters which are neither grapheme extenders nor unprintable. The first six cases are NUL, tab, carriage return,
    line feed, backslash and double quote, the last is the hexadecimal form in braces. For query.rs:22-37, 86-118. *)
Definition escape_char (printable : char -> bool) (c : char) : str :=
  if c =? 0 then [92; 48]
  else if c =? 9 then [92; 116]
  else if c =? 13 then [92; 114]
  else if c =? 10 then [92; 110]
  else if c =? 92 then [92; 92]
  else if c =? 34 then [92; 34]
  else if printable c then [c]
  else [92; 117; 123] ++ number 16 c ++ [125].

(** Debug for str and String. query.rs:91. *)
Definition str_debug (printable : char -> bool) (s : str) : str :=
  34 :: flat_map (escape_char printable) s ++ [34].

(** [T]::join, with [sep] between the parts. query.rs:86-118. *)
Fixpoint join_with (sep : str) (parts : list str) : str :=
  match parts with
  | [] => []
  | [p] => p
  | p :: parts => p ++ sep ++ join_with sep parts
  end.

(** Debug for Condition, query.rs:86-112. The trait in scope is Debug, the one being implemented, so
    [pattern.into_string().fmt(f)] is the Debug output of a String. *)
Definition condition_debug (printable : char -> bool) (c : condition) : str :=
  match c with
  | [] => []
  | [p] => str_debug printable (p_text p)
  | _ => [40] ++ join_with (str_of " || ") (map (fun p => str_debug printable (p_text p)) c) ++ [41]
  end.

(** Debug for FzfQuery, query.rs:22-37; debug_tuple with one field *)
Definition query_debug (printable : char -> bool) (q : query) : str :=
  let s :=
    match q with
    | Extended conditions => join_with (str_of " && ") (map (condition_debug printable) conditions)
    | NotExtended p => p_text p
    end in
  str_of "FzfQuery(" ++ str_debug printable s ++ [41].

(** derived Debug for FzfDistance, distance.rs:7 *)
Definition distance_debug (d : distance) : str :=
  match d with Distance z => str_of "FzfDistance(" ++ integer z ++ [41] end.

(** derived Debug for CaseSensitivity, case_sensitivity.rs:5 *)
Definition case_debug (c : case_sensitivity) : str :=
  match c with
  | Sensitive => str_of "Sensitive"
  | Insensitive => str_of "Insensitive"
  | Smart => str_of "Smart"
  end.

(** derived Debug for FzfScheme, scheme.rs:8 *)
Definition scheme_debug (s : fzf_scheme) : str :=
  match s with
  | SchemeDefault => str_of "Default"
  | SchemePath => str_of "Path"
  | SchemeHistory => str_of "History"
  end.

(** Debug for bool. fzf_v1.rs:80, fzf_v2.rs:90. *)
Definition bool_debug (b : bool) : str := if b then str_of "true" else str_of "false".

(** Debug for FzfParser, parser.rs:36-41: debug_struct without fields, finish_non_exhaustive *)
Definition parser_debug (ps : parser) : str := str_of "FzfParser { .. }".

(** Debug for FzfV1 and FzfV2, fzf_v1.rs:72-87, fzf_v2.rs:82-97: debug_struct with three fields,
    finish_non_exhaustive. Usage.metric_debug has the fields. *)
Definition metric_text {UC : unicode} (m : metric) : str :=
  match metric_debug m with
  | None => []
  | Some (a, norm, case, scheme) =>
      (match a with AlgoV1 => str_of "FzfV1" | AlgoV2 => str_of "FzfV2" end)
      ++ str_of " { candidate_normalization: " ++ bool_debug norm
      ++ str_of ", case_sensitivity: " ++ case_debug case
      ++ str_of ", scoring_scheme: " ++ scheme_debug scheme
      ++ str_of ", .. }"
  end.

(** ** The alternate form, {:#?} *)

(** core::fmt::builders::PadAdapter: four spaces before each line. [on_newline] is its state.
    For {:#?} of fzf_v1.rs:80, fzf_v2.rs:90. *)
Fixpoint pad (on_newline : bool) (s : str) : str :=
  match s with
  | [] => []
  | c :: s => (if on_newline then str_of "    " else []) ++ c :: pad (c =? 10) s
  end.

(** core::fmt::builders::DebugTuple, alternate form, with one field whose alternate text is [field]. For distance.rs:8. *)
Definition tuple_pretty (name field : str) : str :=
  name ++ str_of "(" ++ [10] ++ pad true (field ++ str_of "," ++ [10]) ++ str_of ")".

(** core::fmt::builders::DebugStruct, alternate form, with at least one field, and
    finish_non_exhaustive; each field is padded by an adapter of its own. fzf_v1.rs:80, fzf_v2.rs:90, parser.rs:39. *)
Definition struct_pretty (name : str) (fields : list (str * str)) : str :=
  name ++ str_of " {" ++ [10]
  ++ flat_map (fun field => pad true (fst field ++ str_of ": " ++ snd field ++ str_of "," ++ [10])) fields
  ++ pad true (str_of ".." ++ [10]) ++ str_of "}".

(** Debug for FzfQuery, query.rs:22-37, alternate form. The conditions are formatted with {:?} in both
    forms, and the alternate form of a String is its usual one. *)
Definition query_pretty (printable : char -> bool) (q : query) : str :=
  let s :=
    match q with
    | Extended conditions => join_with (str_of " && ") (map (condition_debug printable) conditions)
    | NotExtended p => p_text p
    end in
  tuple_pretty (str_of "FzfQuery") (str_debug printable s).

(** derived Debug for FzfDistance, distance.rs:7, alternate form *)
Definition distance_pretty (d : distance) : str :=
  match d with Distance z => tuple_pretty (str_of "FzfDistance") (integer z) end.

(** Debug for FzfParser, parser.rs:36-41: without fields, both forms are the same *)
Definition parser_pretty (ps : parser) : str := str_of "FzfParser { .. }".

(** Debug for FzfV1 and FzfV2, fzf_v1.rs:72-87, fzf_v2.rs:82-97, alternate form *)
Definition metric_pretty {UC : unicode} (m : metric) : str :=
  match metric_debug m with
  | None => []
  | Some (a, norm, case, scheme) =>
      struct_pretty (match a with AlgoV1 => str_of "FzfV1" | AlgoV2 => str_of "FzfV2" end)
        [(str_of "candidate_normalization", bool_debug norm);
         (str_of "case_sensitivity", case_debug case);
         (str_of "scoring_scheme", scheme_debug scheme)]
  end.
