(** Model of /repo/src/metrics/fzf/fzf_v2.rs and of CandidateV2 (candidate.rs of fzf). *)
From Verif Require Import Prelude Chars Utils Candidate MatchedRanges Query Scoring Slab Fzf FzfV1.
Local Open Scope Z_scope.

(** CandidateV2, /repo/src/metrics/fzf/candidate.rs:6-18 *)
Record candidate_v2 := MkCv {
  cv_bonuses : list bonus;
  cv_base : candidate;
  cv_initial_char_class : char_class_t;
  cv_opts : candidate_opts
}.

(** CandidateV2::matches, /repo/src/metrics/fzf/candidate.rs:87-89 *)
Definition cv_matches (cv : candidate_v2) (c : char) : list nat :=
  cand_matches (cv_base cv) c (o_is_case_sensitive (cv_opts cv)) (o_char_eq (cv_opts cv)).

(** CandidateV2::matches_from, /repo/src/metrics/fzf/candidate.rs:92-103 *)
Definition cv_matches_from (cv : candidate_v2) (char_offset : nat) (c : char)
  : res (list nat) :=
  cand_matches_from (cv_base cv) char_offset c (o_is_case_sensitive (cv_opts cv))
    (o_char_eq (cv_opts cv)).

(** FzfV2, fzf_v2.rs:65-80 *)
Record v2 := MkV2 {
  v2_candidate_slab : list char;
  v2_candidate_normalization : bool;
  v2_case_sensitivity : case_sensitivity;
  v2_scoring_scheme : scheme;
  v2_slab_ : v2_slab
}.

(** FzfV2::new, fzf_v2.rs:105-107 *)
Definition v2_new : v2 := MkV2 candidate_slab_new false Smart DEFAULT v2_slab_new.

(** set_candidate_normalization, fzf_v2.rs:141-147 *)
Definition v2_set_candidate_normalization (m : v2) (b : bool) : v2 :=
  MkV2 (v2_candidate_slab m) b (v2_case_sensitivity m) (v2_scoring_scheme m) (v2_slab_ m).

(** set_case_sensitivity, fzf_v2.rs:169-175 *)
Definition v2_set_case_sensitivity (m : v2) (cs : case_sensitivity) : v2 :=
  MkV2 (v2_candidate_slab m) (v2_candidate_normalization m) cs (v2_scoring_scheme m)
    (v2_slab_ m).

(** set_scoring_scheme, fzf_v2.rs:206-209 *)
Definition v2_set_scoring_scheme {UC : unicode} (m : v2) (s : fzf_scheme) : v2 :=
  MkV2 (v2_candidate_slab m) (v2_candidate_normalization m) (v2_case_sensitivity m)
    (into_inner s) (v2_slab_ m).

(** The metric after its slab has changed, fzf_v2.rs:79 (used through &mut self.slab in fzf_v2.rs:261-333) *)
Definition v2_with_slab (m : v2) (s : v2_slab) : v2 :=
  MkV2 (v2_candidate_slab m) (v2_candidate_normalization m) (v2_case_sensitivity m)
    (v2_scoring_scheme m) s.

(** The loop of matches, fzf_v2.rs:349-368. [n] is the number of pattern chars from
    [pattern_char_idx] on; [None] is the early return of the [?], which leaves the
    slab modified. *)
Fixpoint matches_loop (p : pattern) (c : candidate) (o : candidate_opts)
    (fuel : nat) (pattern_char_idx last_match_offset : nat) (offsets : list nat)
  : res (option nat * list nat) :=
  match fuel with
  | O => OutOfFuel
  | S fuel' =>
      let* pattern_char := p_char p pattern_char_idx in
      let* f := find_first_from c last_match_offset pattern_char
                  (o_is_case_sensitive o) (o_char_eq o) in
      match f with
      | None => Ok (None, offsets)
      | Some last_match_offset =>
          let* offsets := set_idx offsets pattern_char_idx last_match_offset in
          let last_match_offset := (last_match_offset + 1)%nat in
          if (pattern_char_idx + 1 <? p_char_len p)%nat
          then matches_loop p c o fuel' (pattern_char_idx + 1) last_match_offset offsets
          else Ok (Some pattern_char_idx, offsets)
      end
  end.

(** matches, fzf_v2.rs:337-380. Returns the offsets and the end offset, if any, and the Vec of
    the slab. *)
Definition v2_matches (slab : list nat) (p : pattern) (c : candidate) (o : candidate_opts)
  : res (option (list nat * nat) * list nat) :=
  let* '(offsets, slab) := indices_alloc slab (p_char_len p) in
  let* '(r, offsets) := matches_loop p c o (S (p_char_len p)) 0 0 offsets in
  let slab := put_back offsets slab in
  match r with
  | None => Ok (None, slab)
  | Some pattern_char_idx =>
      let* last_char := p_char p pattern_char_idx in
      let* l := unwrap (find_last c last_char (o_is_case_sensitive o) (o_char_eq o)) in
      Ok (Some (offsets, (l + 1)%nat), slab)
  end.

(** The gap loops of score_first_row, fzf_v2.rs:446-451 and 471-476: [n] columns from [col].
    Returns the row, prev_score and penalty. *)
Fixpoint first_row_gap (n col : nat) (row : list score) (prev_score penalty : score)
  : res (list score * score * score) :=
  match n with
  | O => Ok (row, prev_score, penalty)
  | S n' =>
      let sc := saturating_sub prev_score penalty in
      let* row := set_idx row col sc in
      first_row_gap n' (col + 1) row sc GAP_EXTENSION
  end.

(** The gap loops of score_remaining_rows, fzf_v2.rs:515-520 and 561-566. Returns the row and
    penalty. *)
Fixpoint row_gap (n col : nat) (row : list score) (penalty : score)
  : res (list score * score) :=
  match n with
  | O => Ok (row, penalty)
  | S n' =>
      let* i := usub col 1 in
      let* score_left := idx row i in
      let sc := saturating_sub score_left penalty in
      let* row := set_idx row col sc in
      row_gap n' (col + 1) row GAP_EXTENSION
  end.

Section WithUnicode.
Context {UC : unicode}.

(** CandidateV2::bonus_at, /repo/src/metrics/fzf/candidate.rs:49-69 *)
Definition bonus_at (cv : candidate_v2) (i : nat) (s : scheme)
  : res (score * candidate_v2) :=
  let* b := idx (cv_bonuses cv) i in
  if b_is_set b then Ok (bonus_value b, cv)
  else
    let* prev_class :=
      if (i =? 0)%nat then Ok (cv_initial_char_class cv)
      else
        let* j := usub i 1 in
        let* x := cand_char (cv_base cv) j in
        Ok (char_class x s) in
    let* this := cand_char (cv_base cv) i in
    let this_class := char_class this s in
    let b := bonus_set (compute_bonus prev_class this_class s) in
    let* bonuses := set_idx (cv_bonuses cv) i b in
    Ok (bonus_value b, MkCv bonuses (cv_base cv) (cv_initial_char_class cv) (cv_opts cv)).

(** The variables of score_first_row, fzf_v2.rs:426-441. *)
Record fr_state := MkFr {
  fr_scores : list score;
  fr_consecutives : list nat;
  fr_cv : candidate_v2;
  fr_max_score : score;
  fr_prev_score : score;
  fr_max_score_col : nat;
  fr_column : nat;
  fr_penalty : score
}.

(** The loop of score_first_row, fzf_v2.rs:443-469 *)
Fixpoint first_row_loop (s : scheme) (ms : list nat) (st : fr_state) : res fr_state :=
  match ms with
  | [] => Ok st
  | char_offset :: ms' =>
      let* '(row, _, penalty) :=
        first_row_gap (char_offset - (fr_column st + 1)) (fr_column st + 1)
          (fr_scores st) (fr_prev_score st) GAP_START in
      let column := char_offset in
      let* cons := set_idx (fr_consecutives st) column 1%nat in
      let* '(b, cv) := bonus_at (fr_cv st) column s in
      let sc := MATCH + b * FIRST_QUERY_CHAR_MULTIPLIER in
      let* row := set_idx row column sc in
      let '(max_score, max_score_col) :=
        if fr_max_score st <? sc then (sc, column)
        else (fr_max_score st, fr_max_score_col st) in
      first_row_loop s ms' (MkFr row cons cv max_score sc max_score_col column penalty)
  end.

(** score_first_row, fzf_v2.rs:426-479. Returns both rows, the candidate (bonus cache), the
    maximum and its cell. *)
Definition score_first_row (scores : list score) (consecutives : list nat)
    (first_pattern_char : char) (cv : candidate_v2) (s : scheme)
  : res (list score * list nat * candidate_v2 * score * nat) :=
  let* st := first_row_loop s (cv_matches cv first_pattern_char)
               (MkFr scores consecutives cv 0 0 0 0 GAP_START) in
  let* '(row, _, _) :=
    first_row_gap (length (fr_scores st) - (fr_column st + 1)) (fr_column st + 1)
      (fr_scores st) (fr_prev_score st) (fr_penalty st) in
  Ok (row, fr_consecutives st, fr_cv st, fr_max_score st, fr_max_score_col st).

(** The variables of the inner loop of score_remaining_rows, fzf_v2.rs:489-508. *)
Record rr_state := MkRr {
  rr_scores : list score;
  rr_consecutives : list nat;
  rr_cv : candidate_v2;
  rr_max_score : score;
  rr_max_score_cell : nat;
  rr_column : nat;
  rr_penalty : score
}.

(** The inner loop of score_remaining_rows, fzf_v2.rs:510-559 *)
Fixpoint row_loop (s : scheme) (matrix_width row_idx : nat)
    (prev_scores : list score) (prev_consecutives : list nat)
    (ms : list nat) (st : rr_state) : res rr_state :=
  match ms with
  | [] => Ok st
  | char_offset :: ms' =>
      let* '(row, penalty) :=
        row_gap (char_offset - (rr_column st + 1)) (rr_column st + 1)
          (rr_scores st) GAP_START in
      let column := char_offset in
      let* left := usub column 1 in
      let* l := idx row left in
      let score_left := saturating_sub l penalty in
      let* ul := idx prev_scores left in
      let score_up_left := ul + MATCH in
      let* '(b, cv) := bonus_at (rr_cv st) column s in
      let* pc := idx prev_consecutives left in
      let consecutive := (pc + 1)%nat in
      let* '(b, consecutive, cv) :=
        if (1 <? consecutive)%nat then
          let* fi := usub (column + 1) consecutive in
          let* '(fb, cv) := bonus_at cv fi s in
          if (BOUNDARY <=? b) && (fb <? b) then Ok (b, 1%nat, cv)
          else Ok (Z.max (Z.max CONSECUTIVE fb) b, consecutive, cv)
        else Ok (b, consecutive, cv) in
      let* '(score_up_left, consecutive, cv) :=
        if score_up_left + b <? score_left then
          let* '(b, cv) := bonus_at cv column s in
          Ok (score_up_left + b, 0%nat, cv)
        else Ok (score_up_left + b, consecutive, cv) in
      let sc := Z.max score_left score_up_left in
      let '(max_score, max_score_cell) :=
        if rr_max_score st <? sc then (sc, (row_idx * matrix_width + column)%nat)
        else (rr_max_score st, rr_max_score_cell st) in
      let* cons := set_idx (rr_consecutives st) column consecutive in
      let* row := set_idx row column sc in
      row_loop s matrix_width row_idx prev_scores prev_consecutives ms'
        (MkRr row cons cv max_score max_score_cell column penalty)
  end.

(** score_remaining_rows, fzf_v2.rs:483-570: [n] rows from [row_idx]. *)
Fixpoint score_remaining_rows (n row_idx : nat) (s : scheme) (p : pattern)
    (matches : list nat) (scores : matrix score) (consecutives : matrix nat)
    (cv : candidate_v2) (max_score : score) (max_score_cell : nat)
  : res (matrix score * matrix nat * candidate_v2 * score * nat) :=
  match n with
  | O => Ok (scores, consecutives, cv, max_score, max_score_cell)
  | S n' =>
      let matrix_width := m_width scores in
      let* pattern_char := p_char p row_idx in
      let* prev_idx := usub row_idx 1 in
      let* '(prev_scores, row) := two_rows_mut scores prev_idx row_idx in
      let* '(prev_consecutives, cons_row) := two_rows_mut consecutives prev_idx row_idx in
      let* first_match_offset := idx matches row_idx in
      let* ms := cv_matches_from cv first_match_offset pattern_char in
      let* st :=
        row_loop s matrix_width row_idx prev_scores prev_consecutives ms
          (MkRr row cons_row cv max_score max_score_cell first_match_offset GAP_START) in
      let* '(row, _) :=
        row_gap (matrix_width - (rr_column st + 1)) (rr_column st + 1)
          (rr_scores st) (rr_penalty st) in
      score_remaining_rows n' (row_idx + 1) s p matches
        (put_row scores row_idx row)
        (put_row consecutives row_idx (rr_consecutives st))
        (rr_cv st) (rr_max_score st) (rr_max_score_cell st)
  end.

(** score, fzf_v2.rs:384-422. Returns both matrices, the candidate, the score and its cell,
    and the two Vecs of the slab. *)
Definition v2_score (scoring_slab : list score) (consecutive_slab : list nat)
    (p : pattern) (cv : candidate_v2) (matches : list nat) (s : scheme)
  : res (matrix score * matrix nat * candidate_v2 * score * nat
         * list score * list nat) :=
  let matrix_width := cand_char_len (cv_base cv) in
  let matrix_height := p_char_len p in
  let* '(scores, scoring_slab) := matrix_alloc 0 scoring_slab matrix_width matrix_height in
  let* '(consecutives, consecutive_slab) :=
    matrix_alloc 0%nat consecutive_slab matrix_width matrix_height in
  let* row := row_mut scores 0 in
  let* cons_row := row_mut consecutives 0 in
  let* first := p_char p 0 in
  let* '(row, cons_row, cv, max_score, max_score_cell) :=
    score_first_row row cons_row first cv s in
  let* '(scores, consecutives, cv, max_score, max_score_cell) :=
    score_remaining_rows (m_height scores - 1) 1 s p matches
      (put_row scores 0 row) (put_row consecutives 0 cons_row)
      cv max_score max_score_cell in
  Ok (scores, consecutives, cv, max_score, max_score_cell,
      put_back (m_slice scores) scoring_slab,
      put_back (m_slice consecutives) consecutive_slab).

(** The loop of matched_ranges, fzf_v2.rs:590-637. Every iteration moves one column to the left. *)
Fixpoint matched_ranges_loop (fuel : nat) (scores : matrix score) (consecutives : matrix nat)
    (c : candidate) (start_byte_offset : nat)
    (prefer_match : bool) (cell col row : nat) (ranges : mranges) : res mranges :=
  match fuel with
  | O => OutOfFuel
  | S fuel' =>
      let is_cell_in_first_col := (col =? 0)%nat in
      let is_cell_in_first_row := (row =? 0)%nat in
      let* score_left :=
        if is_cell_in_first_col then Ok 0
        else let* x := cell_left cell in m_index scores x in
      let* score_up_left :=
        if is_cell_in_first_col || is_cell_in_first_row then Ok 0
        else let* x := up_left scores cell in m_index scores x in
      let prefer_this_match := prefer_match in
      let* cons := m_index consecutives cell in
      let prefer_match :=
        (1 <? cons)%nat
        || match m_get_value consecutives (down_right consecutives cell) with
           | None => false
           | Some x => (0 <? x)%nat
           end in
      let* sc := m_index scores cell in
      if (score_up_left <? sc)
         && ((score_left <? sc) || ((sc =? score_left) && prefer_this_match))
      then
        let* byte_offset := to_byte_offset c col in
        let* x := cand_char c col in
        let byte_offset := (byte_offset + start_byte_offset)%nat in
        let* ranges := mr_insert ranges (byte_offset, (byte_offset + len_utf8 x)%nat) in
        if is_cell_in_first_row || is_cell_in_first_col then Ok ranges
        else
          let* row := usub row 1 in
          let* cell := up_left scores cell in
          let* col := usub col 1 in
          matched_ranges_loop fuel' scores consecutives c start_byte_offset
            prefer_match cell col row ranges
      else if is_cell_in_first_col then Ok ranges
      else
        let* cell := cell_left cell in
        let* col := usub col 1 in
        matched_ranges_loop fuel' scores consecutives c start_byte_offset
          prefer_match cell col row ranges
  end.

(** matched_ranges, fzf_v2.rs:574-638 *)
Definition matched_ranges (scores : matrix score) (consecutives : matrix nat)
    (max_score_cell : nat) (c : candidate) (start_byte_offset : nat) (ranges : mranges)
  : res mranges :=
  let* col := col_of scores max_score_cell in
  let* row := row_of scores max_score_cell in
  matched_ranges_loop (S (m_width scores)) scores consecutives c start_byte_offset
    true max_score_cell col row ranges.

(** The loop of fuzzy_single_char, fzf_v2.rs:653-672 *)
Fixpoint single_char_loop (c : candidate) (s : scheme) (ms : list nat)
    (max_score : score) (max_score_pos : nat) : res (score * nat) :=
  match ms with
  | [] => Ok (max_score, max_score_pos)
  | char_offset :: ms' =>
      let* prev_class :=
        if (char_offset =? 0)%nat then Ok (initial_char_class s)
        else
          let* i := usub char_offset 1 in
          let* x := cand_char c i in
          Ok (char_class x s) in
      let* this := cand_char c char_offset in
      let this_class := char_class this s in
      let b := compute_bonus prev_class this_class s in
      let sc := MATCH + b * FIRST_QUERY_CHAR_MULTIPLIER in
      if max_score <? sc then single_char_loop c s ms' sc char_offset
      else single_char_loop c s ms' max_score max_score_pos
  end.

(** fuzzy_single_char, fzf_v2.rs:642-685 *)
Definition fuzzy_single_char (RANGES : bool) (pattern_char : char) (c : candidate)
    (o : candidate_opts) (s : scheme) (ranges : mranges) : res (option score * mranges) :=
  let* '(max_score, max_score_pos) :=
    single_char_loop c s
      (cand_matches c pattern_char (o_is_case_sensitive o) (o_char_eq o)) 0 0 in
  if max_score =? 0 then Ok (None, ranges)
  else
    let* ranges :=
      if RANGES then
        let* start := to_byte_offset c max_score_pos in
        let* x := cand_char c max_score_pos in
        mr_insert ranges (start, (start + len_utf8 x)%nat)
      else Ok ranges in
    Ok (Some max_score, ranges).

(** FzfV2::alloc_chars, fzf_v2.rs:240-242 *)
Definition v2_alloc_chars (m : v2) (s : str) : res (list char * v2) :=
  let* '(sl, slab) := candidate_alloc (v2_candidate_slab m) s in
  Ok (sl, MkV2 slab (v2_candidate_normalization m) (v2_case_sensitivity m)
            (v2_scoring_scheme m) (v2_slab_ m)).

(** FzfV2::char_eq, fzf_v2.rs:245-253 *)
Definition v2_char_eq (m : v2) (p : pattern) : char_eq_fn :=
  char_eq (is_sensitive (v2_case_sensitivity m) p) (v2_candidate_normalization m).

(** FzfV2::fuzzy, fzf_v2.rs:261-332 *)
Definition v2_fuzzy (RANGES : bool) (m : v2) (p : pattern) (c : candidate)
    (ranges : mranges) : res (option score * v2 * mranges) :=
  let o := opts_new (is_sensitive (v2_case_sensitivity m) p)
             (v2_candidate_normalization m) in
  let s := v2_scoring_scheme m in
  if (p_char_len p =? 1)%nat then
    let* x := p_char p 0 in
    let* '(sc, ranges) := fuzzy_single_char RANGES x c o s ranges in
    Ok (sc, m, ranges)
  else
    let slab := v2_slab_ m in
    let* '(r, indices) := v2_matches (s_indices slab) p c o in
    let slab := MkV2Slab (s_bonus slab) (s_consecutive slab) indices (s_scoring slab) in
    match r with
    | None => Ok (None, v2_with_slab m slab, ranges)
    | Some (match_offsets, last_match_offset) =>
        let* first_offset := idx match_offsets 0 in
        let* start_byte_offset :=
          if RANGES then to_byte_offset c first_offset else Ok 0%nat in
        let* initial :=
          if (first_offset =? 0)%nat then Ok (initial_char_class s)
          else
            let* i := usub first_offset 1 in
            let* x := cand_char c i in
            Ok (char_class x s) in
        let* base := cand_slice_range c first_offset last_match_offset in
        (* CandidateV2::new, /repo/src/metrics/fzf/candidate.rs:106-114 *)
        let* '(bonuses, bonus_vec) := bonus_alloc (s_bonus slab) (cand_char_len base) in
        let cv := MkCv bonuses base initial o in
        (* line 309 *)
        let* match_offsets :=
          fold_right (fun x acc => let* l := acc in
                                   let* y := usub x first_offset in Ok (y :: l))
            (Ok []) match_offsets in
        let indices := put_back match_offsets indices in
        let* '(scores, consecutives, cv, sc, cell, scoring_vec, consecutive_vec) :=
          v2_score (s_scoring slab) (s_consecutive slab) p cv match_offsets s in
        let slab := MkV2Slab (put_back (cv_bonuses cv) bonus_vec) consecutive_vec
                      indices scoring_vec in
        let* ranges :=
          if RANGES then
            matched_ranges scores consecutives cell (cv_base cv) start_byte_offset ranges
          else Ok ranges in
        Ok (Some sc, v2_with_slab m slab, ranges)
    end.

(** <FzfV2 as Fzf>::distance, which is the default method fzf.rs:140-173 *)
Definition v2_fzf_distance : bool -> v2 -> query -> str -> list range
                             -> res (option distance * v2 * list range) :=
  fzf_distance v2_alloc_chars v2_char_eq v2_scoring_scheme v2_fuzzy.

(** <FzfV2 as Metric>::distance, fzf_v2.rs:218-225 *)
Definition v2_distance (m : v2) (q : query) (cand : str) : res (option distance * v2) :=
  let* '(d, m, _) := v2_fzf_distance false m q cand [] in Ok (d, m).

(** <FzfV2 as Metric>::distance_and_ranges, fzf_v2.rs:228-235 *)
Definition v2_distance_and_ranges (m : v2) (q : query) (cand : str) (buf : list range)
  : res (option distance * v2 * list range) :=
  v2_fzf_distance true m q cand buf.

End WithUnicode.
