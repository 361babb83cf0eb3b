(** Model of /repo/src/metrics/fzf/fzf_v1.rs and of CandidateOpts (candidate.rs of fzf). *)
From Verif Require Import Prelude Chars Utils Candidate MatchedRanges Query Scoring Slab Fzf.

(** CandidateOpts, /repo/src/metrics/fzf/candidate.rs:21-28 *)
Record candidate_opts := MkOpts { o_char_eq : char_eq_fn; o_is_case_sensitive : bool }.

(** CandidateOpts::new, /repo/src/metrics/fzf/candidate.rs:39-44 *)
Definition opts_new (is_case_sensitive is_normalized : bool) : candidate_opts :=
  MkOpts (char_eq is_case_sensitive is_normalized) is_case_sensitive.

(** The match on the case sensitivity, fzf_v1.rs:235-239 and 256-260, fzf_v2.rs:246-250 and
    267-271 *)
Definition is_sensitive (cs : case_sensitivity) (p : pattern) : bool :=
  match cs with
  | Sensitive => true
  | Insensitive => false
  | Smart => p_has_uppercase p
  end.

(** FzfV1, fzf_v1.rs:58-70 *)
Record v1 := MkV1 {
  v1_candidate_slab : list char;
  v1_case_sensitivity : case_sensitivity;
  v1_candidate_normalization : bool;
  v1_scoring_scheme : scheme
}.

(** FzfV1::new, fzf_v1.rs:95-97 (derived Default, case_sensitivity.rs:21, scheme.rs:62-67) *)
Definition v1_new : v1 := MkV1 candidate_slab_new Smart false DEFAULT.

(** set_candidate_normalization, fzf_v1.rs:130-136 *)
Definition v1_set_candidate_normalization (m : v1) (b : bool) : v1 :=
  MkV1 (v1_candidate_slab m) (v1_case_sensitivity m) b (v1_scoring_scheme m).

(** set_case_sensitivity, fzf_v1.rs:158-164 *)
Definition v1_set_case_sensitivity (m : v1) (cs : case_sensitivity) : v1 :=
  MkV1 (v1_candidate_slab m) cs (v1_candidate_normalization m) (v1_scoring_scheme m).

(** set_scoring_scheme, fzf_v1.rs:195-198 *)
Definition v1_set_scoring_scheme {UC : unicode} (m : v1) (s : fzf_scheme) : v1 :=
  MkV1 (v1_candidate_slab m) (v1_case_sensitivity m) (v1_candidate_normalization m)
    (into_inner s).

(** The loop of forward_pass, fzf_v1.rs:296-309. [pattern_char] and the remaining
    [pattern_chars]. *)
Fixpoint forward_loop (c : candidate) (o : candidate_opts) (pattern_char : char)
    (pattern_chars : list char) (end_offset : nat) : res (option nat) :=
  let* f := find_first_from c end_offset pattern_char (o_is_case_sensitive o)
              (o_char_eq o) in
  match f with
  | None => Ok None
  | Some x =>
      let end_offset := x + 1 in
      match pattern_chars with
      | next :: rest => forward_loop c o next rest end_offset
      | [] => Ok (Some end_offset)
      end
  end.

(** forward_pass, fzf_v1.rs:285-310 *)
Definition forward_pass (p : pattern) (c : candidate) (o : candidate_opts)
  : res (option nat) :=
  match p_text p with
  | [] => Ok None
  | pattern_char :: rest => forward_loop c o pattern_char rest 0
  end.

(** The loop of backward_pass, fzf_v1.rs:326-341 *)
Fixpoint backward_loop (c : candidate) (o : candidate_opts) (pattern_char : char)
    (pattern_chars : list char) (start_offset : nat) : res nat :=
  let* f := find_last_from c start_offset pattern_char (o_is_case_sensitive o)
              (o_char_eq o) in
  let* start_offset := unwrap f in
  match pattern_chars with
  | next :: rest => backward_loop c o next rest start_offset
  | [] => Ok start_offset
  end.

(** backward_pass, fzf_v1.rs:314-342 *)
Definition backward_pass (p : pattern) (c : candidate) (end_offset : nat)
    (o : candidate_opts) : res nat :=
  match rev (p_text p) with
  | [] => Panic (* expect, line 322 *)
  | pattern_char :: rest => backward_loop c o pattern_char rest end_offset
  end.

Section WithUnicode.
Context {UC : unicode}.

(** FzfV1::alloc_chars, fzf_v1.rs:229-231. The transmute extends the lifetime of the slice; the
    slab is not touched while the slice is in use. *)
Definition v1_alloc_chars (m : v1) (s : str) : res (list char * v1) :=
  let* '(sl, slab) := candidate_alloc (v1_candidate_slab m) s in
  Ok (sl, MkV1 slab (v1_case_sensitivity m) (v1_candidate_normalization m)
            (v1_scoring_scheme m)).

(** FzfV1::char_eq, fzf_v1.rs:234-242 *)
Definition v1_char_eq (m : v1) (p : pattern) : char_eq_fn :=
  char_eq (is_sensitive (v1_case_sensitivity m) p) (v1_candidate_normalization m).

(** FzfV1::fuzzy, fzf_v1.rs:250-280 *)
Definition v1_fuzzy (RANGES : bool) (m : v1) (p : pattern) (c : candidate)
    (ranges : mranges) : res (option score * v1 * mranges) :=
  let o := opts_new (is_sensitive (v1_case_sensitivity m) p)
             (v1_candidate_normalization m) in
  let* f := forward_pass p c o in
  match f with
  | None => Ok (None, m, ranges)
  | Some end_forward =>
      let* start_backward := backward_pass p c end_forward o in
      let* '(sc, ranges) :=
        compute_score RANGES p c start_backward end_forward (o_char_eq o)
          (v1_scoring_scheme m) ranges in
      Ok (Some sc, m, ranges)
  end.

(** <FzfV1 as Fzf>::distance, which is the default method fzf.rs:140-173 *)
Definition v1_fzf_distance : bool -> v1 -> query -> str -> list range
                             -> res (option distance * v1 * list range) :=
  fzf_distance v1_alloc_chars v1_char_eq v1_scoring_scheme v1_fuzzy.

(** <FzfV1 as Metric>::distance, fzf_v1.rs:207-214 *)
Definition v1_distance (m : v1) (q : query) (cand : str) : res (option distance * v1) :=
  let* '(d, m, _) := v1_fzf_distance false m q cand [] in Ok (d, m).

(** <FzfV1 as Metric>::distance_and_ranges, fzf_v1.rs:217-224 *)
Definition v1_distance_and_ranges (m : v1) (q : query) (cand : str) (buf : list range)
  : res (option distance * v1 * list range) :=
  v1_fzf_distance true m q cand buf.

End WithUnicode.
