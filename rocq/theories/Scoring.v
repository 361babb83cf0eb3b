(** Model of /repo/src/metrics/fzf/{mod.rs (constants), distance.rs, scheme.rs, scoring.rs}. *)
From Verif Require Import Prelude Chars.
Local Open Scope Z_scope.

(** Score = i64, distance.rs:1. Modelled by unbounded integers; Checked.v is the same code with a
    check after every operation, and C65 shows that the checks do not fire. *)
Notation score := Z.

(** bonus and penalty constants, mod.rs:57-92 *)
Definition GAP_START : score := 3.
(** mod.rs:91 *)
Definition GAP_EXTENSION : score := 1.
(** mod.rs:63 *)
Definition MATCH : score := 16.
(** mod.rs:66 *)
Definition BOUNDARY : score := MATCH / 2.
(** mod.rs:69 *)
Definition NON_WORD : score := MATCH / 2.
(** mod.rs:72 *)
Definition CAMEL_123 : score := BOUNDARY - GAP_EXTENSION.
(** mod.rs:75 *)
Definition CONSECUTIVE : score := GAP_START + GAP_EXTENSION.
(** mod.rs:78 *)
Definition FIRST_QUERY_CHAR_MULTIPLIER : score := 2.

(** i64::MIN. Score is i64, distance.rs:1. *)
Definition I64_MIN : score := - 2 ^ 63.

(** i64::saturating_sub for a non-negative subtrahend. fzf_v2.rs:447, 472, 517, 524, 563. *)
Definition saturating_sub (a b : score) : score := Z.max (a - b) I64_MIN.

(** FzfDistance, distance.rs:8 *)
Inductive distance := Distance (s : score).

(** FzfDistance::from_score and Default, distance.rs:25-37 *)
Definition from_score (s : score) : distance := Distance s.
(** Default for FzfDistance, distance.rs:25-37 *)
Definition default_distance : distance := from_score 0.

(** FzfDistance::into_score, distance.rs:46-48 *)
Definition into_score (d : distance) : score := match d with Distance s => s end.

(** Ord::cmp (and PartialOrd, which wraps it), distance.rs:10-23 *)
Definition distance_cmp (a b : distance) : comparison :=
  Z.compare (into_score b) (into_score a).

(** derived PartialEq, distance.rs:7 *)
Definition distance_eqb (a b : distance) : bool := into_score a =? into_score b.

(** CharClass, scoring.rs:5-26 *)
Inductive char_class_t :=
| WhiteSpace | NonWord | Delimiter | Lower | Upper | Letter | Number.

(** derived PartialEq on CharClass, scoring.rs:4 *)
Definition class_eqb (a b : char_class_t) : bool :=
  match a, b with
  | WhiteSpace, WhiteSpace | NonWord, NonWord | Delimiter, Delimiter
  | Lower, Lower | Upper, Upper | Letter, Letter | Number, Number => true
  | _, _ => false
  end.

(** Scheme, scheme.rs:55-60 *)
Record scheme := MkScheme {
  bonus_boundary_white : score;
  bonus_boundary_delimiter : score;
  initial_char_class : char_class_t;
  is_delimiter : char -> bool
}.

(** FzfScheme, scheme.rs:9-22 *)
Inductive fzf_scheme := SchemeDefault | SchemePath | SchemeHistory.

(** is_delimiter_default, scheme.rs:78-80: '/' ',' ':' ';' '|' *)
Definition is_delimiter_default (c : char) : bool :=
  (c =? 47)%N || (c =? 44)%N || (c =? 58)%N || (c =? 59)%N || (c =? 124)%N.

(** is_delimiter_path, scheme.rs:91-100 *)
Definition is_delimiter_path {UC : unicode} (c : char) : bool :=
  let os_path_separator := if cfg_windows then 92%N else 47%N in
  (c =? 47)%N || (c =? os_path_separator)%N.

(** DEFAULT, scheme.rs:70-75 *)
Definition DEFAULT : scheme :=
  MkScheme (BOUNDARY + 2) (BOUNDARY + 1) WhiteSpace is_delimiter_default.

(** PATH, scheme.rs:83-88 *)
Definition PATH {UC : unicode} : scheme :=
  MkScheme BOUNDARY (BOUNDARY + 1) Delimiter is_delimiter_path.

(** HISTORY, scheme.rs:103-108 *)
Definition HISTORY : scheme :=
  MkScheme BOUNDARY BOUNDARY (initial_char_class DEFAULT) (is_delimiter DEFAULT).

(** FzfScheme::into_inner, scheme.rs:27-33 *)
Definition into_inner {UC : unicode} (s : fzf_scheme) : scheme :=
  match s with
  | SchemeDefault => DEFAULT
  | SchemePath => PATH
  | SchemeHistory => HISTORY
  end.

(** FzfScheme::from_inner, scheme.rs:37-49 *)
Definition from_inner {UC : unicode} (s : scheme) : option fzf_scheme :=
  if bonus_boundary_white s =? bonus_boundary_white DEFAULT then Some SchemeDefault
  else if bonus_boundary_white s =? bonus_boundary_white PATH then
    if class_eqb (initial_char_class s) Delimiter then Some SchemePath
    else Some SchemeHistory
  else None.

Section WithUnicode.
Context {UC : unicode}.

(** ascii_char_class, scoring.rs:40-54 *)
Definition ascii_char_class (c : char) (s : scheme) : char_class_t :=
  if is_ascii_lowercase c then Lower
  else if is_ascii_uppercase c then Upper
  else if is_ascii_digit c then Number
  else if is_ascii_whitespace c then WhiteSpace
  else if is_delimiter s c then Delimiter
  else NonWord.

(** non_ascii_char_class, scoring.rs:58-74 *)
Definition non_ascii_char_class (c : char) (s : scheme) : char_class_t :=
  if is_lowercase c then Lower
  else if is_uppercase c then Upper
  else if is_numeric c then Number
  else if is_alphabetic c then Letter
  else if is_whitespace c then WhiteSpace
  else if is_delimiter s c then Delimiter
  else NonWord.

(** char_class, scoring.rs:30-36 *)
Definition char_class (c : char) (s : scheme) : char_class_t :=
  if is_ascii c then ascii_char_class c s else non_ascii_char_class c s.

End WithUnicode.

(** compute_bonus, scoring.rs:78-106. The guards of the arms on lines 90 and 92 fall through to
    the default arm, written [other] here. *)
Definition compute_bonus (prev_class next_class : char_class_t) (s : scheme) : score :=
  let other :=
    if class_eqb prev_class WhiteSpace then bonus_boundary_white s
    else if class_eqb prev_class Delimiter then bonus_boundary_delimiter s
    else if class_eqb prev_class NonWord then BOUNDARY
    else 0 in
  match next_class with
  | NonWord => NON_WORD
  | WhiteSpace => bonus_boundary_white s
  | Upper => if class_eqb prev_class Lower then CAMEL_123 else other
  | Number => if negb (class_eqb prev_class Number) then CAMEL_123 else other
  | _ => other
  end.
