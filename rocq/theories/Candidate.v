(** Model of /repo/src/candidate.rs. *)
From Verif Require Import Prelude Chars Utils.
Local Open Scope N_scope.

(** Candidate, candidate.rs:7-10. [Ascii] holds bytes (u8), [Unicode] holds chars. *)
Inductive candidate :=
| Ascii (slice : list N)
| Unicode (slice : list char).

(** The underlying slice; both variants hold values of type [N] in the model. The fields of candidate.rs:7-10. *)
Definition cand_slice (c : candidate) : list char :=
  match c with
  | Ascii l => l
  | Unicode l => l
  end.

(** Rebuild a candidate of the same variant. As in Candidate::slice, candidate.rs:205-212. *)
Definition cand_with (c : candidate) (l : list char) : candidate :=
  match c with
  | Ascii _ => Ascii l
  | Unicode _ => Unicode l
  end.

(** Candidate::char, candidate.rs:30-35 *)
Definition cand_char (c : candidate) (i : nat) : res char :=
  match c with
  | Ascii l => idx l i
  | Unicode l => idx l i
  end.

(** Candidate::chars_from, candidate.rs:45-54. The iterator is the list of the items it yields
    (Chars, candidate.rs:316-341, converts u8 to char with char::from, the
    identity on code points). *)
Definition cand_chars_from (c : candidate) (char_offset : nat) : res (list char) :=
  match c with
  | Ascii l => slice_from l char_offset
  | Unicode l => slice_from l char_offset
  end.

(** Candidate::chars, candidate.rs:39-41 *)
Definition cand_chars (c : candidate) : res (list char) := cand_chars_from c 0.

(** Candidate::char_len, candidate.rs:58-63 *)
Definition cand_char_len (c : candidate) : nat :=
  match c with
  | Ascii l => length l
  | Unicode l => length l
  end.

(** memchr::memchr, memchr::memchr2, memchr::memrchr, memchr::memrchr2 by their documentation:
    index of the first / last byte equal to (one of) the needle(s). candidate.rs:271, parser.rs:355. *)
Definition memchr (n : N) (h : list N) : option nat := find_idx (fun b => b =? n) h.
(** candidate.rs:273 *)
Definition memchr2 (n1 n2 : N) (h : list N) : option nat :=
  find_idx (fun b => (b =? n1) || (b =? n2)) h.
(** candidate.rs:284 *)
Definition memrchr (n : N) (h : list N) : option nat := find_last_idx (fun b => b =? n) h.
(** candidate.rs:286 *)
Definition memrchr2 (n1 n2 : N) (h : list N) : option nat :=
  find_last_idx (fun b => (b =? n1) || (b =? n2)) h.

(** find_first_ascii, candidate.rs:265-275 *)
Definition find_first_ascii (needle : N) (haystack : list N) (is_case_sensitive : bool)
  : option nat :=
  if is_case_sensitive || negb (is_ascii_alphabetic needle) then memchr needle haystack
  else memchr2 needle (ascii_letter_flip_case needle) haystack.

(** find_last_ascii, candidate.rs:278-288 *)
Definition find_last_ascii (needle : N) (haystack : list N) (is_case_sensitive : bool)
  : option nat :=
  if is_case_sensitive || negb (is_ascii_alphabetic needle) then memrchr needle haystack
  else memrchr2 needle (ascii_letter_flip_case needle) haystack.

(** find_first_unicode, candidate.rs:291-300 *)
Definition find_first_unicode (needle : char) (haystack : list char) (eq : char_eq_fn)
  : option nat := find_idx (fun c => eq needle c) haystack.

(** find_last_unicode, candidate.rs:303-313 *)
Definition find_last_unicode (needle : char) (haystack : list char) (eq : char_eq_fn)
  : option nat := find_last_idx (fun c => eq needle c) haystack.

(** Candidate::find_first_from, candidate.rs:67-93 *)
Definition find_first_from (c : candidate) (char_offset : nat) (cha : char)
    (is_case_sensitive : bool) (eq : char_eq_fn) : res (option nat) :=
  match c with
  | Ascii l =>
      if negb (is_ascii cha) then Ok None
      else
        let* l := slice_from l char_offset in
        Ok (option_map (fun offset => (offset + char_offset)%nat)
              (find_first_ascii (as_u8 cha) l is_case_sensitive))
  | Unicode l =>
      let* l := slice_from l char_offset in
      Ok (option_map (fun i => (i + char_offset)%nat) (find_first_unicode cha l eq))
  end.

(** Candidate::find_last, candidate.rs:97-114 *)
Definition find_last (c : candidate) (cha : char) (is_case_sensitive : bool)
    (eq : char_eq_fn) : option nat :=
  match c with
  | Ascii l =>
      if is_ascii cha then find_last_ascii (as_u8 cha) l is_case_sensitive else None
  | Unicode l => find_last_unicode cha l eq
  end.

(** Candidate::find_last_from, candidate.rs:119-141 *)
Definition find_last_from (c : candidate) (end_offset : nat) (cha : char)
    (is_case_sensitive : bool) (eq : char_eq_fn) : res (option nat) :=
  match c with
  | Ascii l =>
      if is_ascii cha then
        let* l := slice_to l end_offset in
        Ok (find_last_ascii (as_u8 cha) l is_case_sensitive)
      else Ok None
  | Unicode l =>
      let* l := slice_to l end_offset in
      Ok (find_last_unicode cha l eq)
  end.

(** Candidate::leading_spaces, candidate.rs:145-155 *)
Definition cand_leading_spaces (c : candidate) : nat :=
  match c with
  | Ascii l => count_while (fun b => b =? SPACE) l
  | Unicode l => count_while (fun b => b =? SPACE) l
  end.

(** Candidate::trailing_spaces, candidate.rs:251-261 *)
Definition cand_trailing_spaces (c : candidate) : nat :=
  match c with
  | Ascii l => count_while (fun b => b =? SPACE) (rev l)
  | Unicode l => count_while (fun b => b =? SPACE) (rev l)
  end.

(** UnicodeMatches, candidate.rs:408-439: the list of everything the iterator yields. Each
    unfolding is one call of [next]; [fuel] bounds the number of calls and the
    caller passes enough ([unicode_matches_spec] in CandidateProofs). *)
Fixpoint unicode_matches (fuel : nat) (needle : char) (haystack : list char)
    (eq : char_eq_fn) (offset : nat) : list nat :=
  match fuel with
  | O => []
  | S fuel' =>
      match find_idx (fun c => eq needle c) haystack with
      | None => []
      | Some i =>
          let haystack := skipn (i + 1) haystack in
          let this := (offset + i)%nat in
          this :: unicode_matches fuel' needle haystack eq (this + 1)
      end
  end.

(** memchr::Memchr and memchr::Memchr2 by their documentation: all the positions, ascending. candidate.rs:364. *)
Definition memchr_iter (n : N) (h : list N) : list nat := all_idx (fun b => b =? n) h 0.
(** candidate.rs:366 *)
Definition memchr2_iter (n1 n2 : N) (h : list N) : list nat :=
  all_idx (fun b => (b =? n1) || (b =? n2)) h 0.

(** CandidateMatches::from_unicode, candidate.rs:377-385, with Iterator::next, 394-406 *)
Definition matches_from_unicode (needle : char) (haystack : list char) (eq : char_eq_fn)
    (start_offset : nat) : list nat :=
  map (fun offset => (start_offset + offset)%nat)
    (unicode_matches (S (length haystack)) needle haystack eq 0).

(** CandidateMatches::from_ascii, candidate.rs:351-374, with Iterator::next, 394-406 *)
Definition matches_from_ascii (needle : char) (haystack : list N) (is_case_sensitive : bool)
    (start_offset : nat) : list nat :=
  if negb (is_ascii needle) then matches_from_unicode needle [] (char_eq false false) 0
  else
    let needle := as_u8 needle in
    map (fun offset => (start_offset + offset)%nat)
      (if is_case_sensitive || negb (is_ascii_alphabetic needle)
       then memchr_iter needle haystack
       else memchr2_iter needle (ascii_letter_flip_case needle) haystack).

(** Candidate::matches, candidate.rs:159-174. Iterators are modelled by the list of the
    items they yield; they borrow the candidate immutably, so nothing can change
    between two calls of [next]. *)
Definition cand_matches (c : candidate) (cha : char) (is_case_sensitive : bool)
    (eq : char_eq_fn) : list nat :=
  match c with
  | Ascii l => matches_from_ascii cha l is_case_sensitive 0
  | Unicode l => matches_from_unicode cha l eq 0
  end.

(** Candidate::matches_from, candidate.rs:178-201 *)
Definition cand_matches_from (c : candidate) (char_offset : nat) (cha : char)
    (is_case_sensitive : bool) (eq : char_eq_fn) : res (list nat) :=
  match c with
  | Ascii l =>
      let* l := slice_from l char_offset in
      Ok (matches_from_ascii cha l is_case_sensitive char_offset)
  | Unicode l =>
      let* l := slice_from l char_offset in
      Ok (matches_from_unicode cha l eq char_offset)
  end.

(** Candidate::slice, candidate.rs:205-213 *)
Definition cand_slice_range (c : candidate) (a b : nat) : res candidate :=
  match c with
  | Ascii l => let* l := slice l a b in Ok (Ascii l)
  | Unicode l => let* l := slice l a b in Ok (Unicode l)
  end.

(** Candidate::to_byte_offset, candidate.rs:217-224 *)
Definition to_byte_offset (c : candidate) (char_offset : nat) : res nat :=
  match c with
  | Ascii _ => Ok char_offset
  | Unicode l => let* l := slice_to l char_offset in Ok (byte_len l)
  end.

(** Candidate::to_byte_range, candidate.rs:228-247 *)
Definition to_byte_range (c : candidate) (a b : nat) : res (nat * nat) :=
  match c with
  | Ascii _ => Ok (a, b)
  | Unicode l =>
      let* chars := slice_to l b in
      let start := byte_len (firstn a chars) in
      Ok (start, (start + byte_len (skipn a chars))%nat)
  end.
