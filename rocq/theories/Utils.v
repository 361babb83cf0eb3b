(** Model of /repo/src/utils.rs and /repo/src/case_sensitivity.rs. *)
From Verif Require Import Prelude Chars Normalize.
Local Open Scope N_scope.

(** CaseSensitivity, case_sensitivity.rs:6-23 *)
Inductive case_sensitivity := Sensitive | Insensitive | Smart.

(** CharEq, utils.rs:4: [char_eq pattern_char candidate_char]. *)
Definition char_eq_fn := char -> char -> bool.

(** ASCII_CASE_MASK, utils.rs:7 *)
Definition ASCII_CASE_MASK : N := 32.

(** ascii_letter_flip_case, utils.rs:11-14. The debug_assert (line 12) holds at all call sites,
    which test is_ascii_alphabetic first; it is not modelled. *)
Definition ascii_letter_flip_case (b : N) : N := N.lxor b ASCII_CASE_MASK.

(** normalize_candidate_char, utils.rs:54-60 *)
Definition normalize_candidate_char (query_char candidate_char : char) : char :=
  if is_normalized query_char then normalize candidate_char else candidate_char.

(** case_insensitive_eq, utils.rs:17-19 *)
Definition case_insensitive_eq (lhs rhs : char) : bool := eq_ignore_ascii_case lhs rhs.

(** case_insensitive_normalized_eq, utils.rs:22-24 *)
Definition case_insensitive_normalized_eq (lhs rhs : char) : bool :=
  eq_ignore_ascii_case lhs (normalize_candidate_char lhs rhs).

(** case_sensitive_eq, utils.rs:27-29 *)
Definition case_sensitive_eq (lhs rhs : char) : bool := lhs =? rhs.

(** case_sensitive_normalized_eq, utils.rs:32-34 *)
Definition case_sensitive_normalized_eq (lhs rhs : char) : bool :=
  lhs =? normalize_candidate_char lhs rhs.

(** char_eq, utils.rs:37-44 *)
Definition char_eq (is_case_sensitive normalize_candidate : bool) : char_eq_fn :=
  match is_case_sensitive, normalize_candidate with
  | false, false => case_insensitive_eq
  | true, false => case_sensitive_eq
  | false, true => case_insensitive_normalized_eq
  | true, true => case_sensitive_normalized_eq
  end.

(** leading_spaces, utils.rs:48-50 (on the bytes of the str) *)
Definition leading_spaces (s : list N) : nat := count_while (fun b => b =? SPACE) s.

(** strip_leading_spaces, utils.rs:64-66 *)
Definition strip_leading_spaces (s : list N) : res (list N) := str_from s (leading_spaces s).
