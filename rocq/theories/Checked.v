(** The scoring code once more, as it runs in a build with overflow checks: every arithmetic
    operation on a Score (i64), on the counter of type u32 and on the size and the
    cells of a matrix (usize) panics when its result does not fit. The functions
    are those of Fzf.v, FzfV1.v and FzfV2.v in which these operations are
    unbounded; all others are reused. Offsets into strings (usize) stay unbounded:
    they are at most the length of a string which is in memory. *)
From Verif Require Import Prelude Chars Utils Candidate MatchedRanges Query Scoring Slab Fzf FzfV1 FzfV2 Api.
Local Open Scope Z_scope.

(** The result of an operation on i64 (Score, distance.rs:1) *)
Definition i64 (z : Z) : res Z := if (- 2 ^ 63 <=? z) && (z <? 2 ^ 63) then Ok z else Panic.

(** The result of an operation on u32. slab.rs:36-44, fzf.rs:484-590. *)
Definition u32 (n : nat) : res nat := if Z.of_nat n <? 2 ^ 32 then Ok n else Panic.

(** The result of an operation on usize. fzf_v2.rs:384-424, slab.rs:191-197. *)
Definition usize (n : nat) : res nat := if Z.of_nat n <? 2 ^ 64 then Ok n else Panic.

Section WithUnicode.
Context {UC : unicode}.

(** The loop of compute_score, fzf.rs:524-583; checked are lines 528, 541-545, 557 and 565-569 *)
Fixpoint compute_score_loop_ck (RANGES : bool) (eq : char_eq_fn) (s : scheme)
    (byte_range_start : nat) (chars : list char) (st : cs_state)
  : res (score * mranges) :=
  match chars with
  | [] => Ok (cs_score st, cs_ranges st)
  | c :: chars' =>
      let ch_class := char_class c s in
      if eq (cs_pattern_char st) c then
        let* sc := i64 (cs_score st + MATCH) in
        let b := compute_bonus (cs_prev_class st) ch_class s in
        let '(first_bonus, b) :=
          if (cs_consecutive st =? 0)%nat then (b, b)
          else
            let first_bonus :=
              if (BOUNDARY <=? b) && (cs_first_bonus st <? b) then b
              else cs_first_bonus st in
            (first_bonus, Z.max (Z.max b first_bonus) CONSECUTIVE) in
        let* inc := if cs_first st then i64 (b * FIRST_QUERY_CHAR_MULTIPLIER) else Ok b in
        let* sc := i64 (sc + inc) in
        let* ranges :=
          if RANGES then
            let start := (byte_range_start + cs_byte_offset st)%nat in
            mr_insert (cs_ranges st) (start, (start + len_utf8 c)%nat)
          else Ok (cs_ranges st) in
        let* consecutive := u32 (cs_consecutive st + 1) in
        match cs_pattern_chars st with
        | [] => Ok (sc, ranges) (* break *)
        | next_char :: rest =>
            compute_score_loop_ck RANGES eq s byte_range_start chars'
              (MkCs false false first_bonus consecutive
                 (if RANGES then cs_byte_offset st + len_utf8 c else cs_byte_offset st)
                 ch_class next_char rest sc ranges)
        end
      else
        let* sc := i64 (cs_score st - (if cs_in_gap st then GAP_EXTENSION else GAP_START)) in
        compute_score_loop_ck RANGES eq s byte_range_start chars'
          (MkCs true (cs_first st) 0 0
             (if RANGES then cs_byte_offset st + len_utf8 c else cs_byte_offset st)
             ch_class (cs_pattern_char st) (cs_pattern_chars st) sc (cs_ranges st))
  end.

(** compute_score, fzf.rs:484-586 *)
Definition compute_score_ck (RANGES : bool) (p : pattern) (c : candidate) (a b : nat)
    (eq : char_eq_fn) (s : scheme) (ranges : mranges) : res (score * mranges) :=
  let* byte_range_start := if RANGES then to_byte_offset c a else Ok 0%nat in
  let* prev_class :=
    if (a =? 0)%nat then Ok (initial_char_class s)
    else
      let* i := usub a 1 in
      let* x := cand_char c i in
      Ok (char_class x s) in
  match p_text p with
  | [] => Panic (* expect, line 520 *)
  | pattern_char :: pattern_chars =>
      let* sl := cand_slice_range c a b in
      let* chars := cand_chars sl in
      compute_score_loop_ck RANGES eq s byte_range_start chars
        (MkCs false true 0 0 0 prev_class pattern_char pattern_chars 0 ranges)
  end.

(** The common tail of the four functions below, fzf.rs:262-277, 311-330, 366-385, 436-449 *)
Definition finish_match_ck (RANGES : bool) (p : pattern) (c : candidate) (a b : nat)
    (eq : char_eq_fn) (s : scheme) (ranges : mranges) : res (option score * mranges) :=
  let* '(sc, ranges) := compute_score_ck false p c a b eq s ranges in
  let* ranges :=
    if RANGES then
      let* r := to_byte_range c a b in
      mr_insert ranges r
    else Ok ranges in
  Ok (Some sc, ranges).

(** exact_match, fzf.rs:178-278 *)
Definition exact_match_ck (RANGES : bool) (p : pattern) (c : candidate) (eq : char_eq_fn)
    (s : scheme) (ranges : mranges) : res (option score * mranges) :=
  if p_is_empty p then Ok (Some 0, ranges)
  else
    let* st := exact_outer (S (cand_char_len c)) p c eq s
                 (MkEm (-1) 0 0 false (initial_char_class s) 0) in
    if negb (em_matched st) then Ok (None, ranges)
    else finish_match_ck RANGES p c (em_best_start st) (em_best_end st) eq s ranges.

(** prefix_match, fzf.rs:282-331 *)
Definition prefix_match_ck (RANGES : bool) (p : pattern) (c : candidate) (eq : char_eq_fn)
    (s : scheme) (ranges : mranges) : res (option score * mranges) :=
  if p_is_empty p then Ok (Some 0, ranges)
  else
    let* ign := ignored_candidate_leading_spaces p c in
    match ign with
    | None => Ok (None, ranges)
    | Some ignored =>
        let* chars := cand_chars_from c ignored in
        match zip_eq eq (p_text p) chars with
        | None => Ok (None, ranges)
        | Some (_ :: _, _) => Ok (None, ranges)
        | Some ([], _) =>
            finish_match_ck RANGES p c ignored (ignored + p_char_len p) eq s ranges
        end
    end.

(** suffix_match, fzf.rs:335-386 *)
Definition suffix_match_ck (RANGES : bool) (p : pattern) (c : candidate) (eq : char_eq_fn)
    (s : scheme) (ranges : mranges) : res (option score * mranges) :=
  if p_is_empty p then Ok (Some 0, ranges)
  else
    let* ign := ignored_candidate_trailing_spaces p c in
    match ign with
    | None => Ok (None, ranges)
    | Some ignored =>
        let* up_to := usub (cand_char_len c) ignored in
        let* sl := cand_slice_range c 0 up_to in
        let* chars := cand_chars sl in
        match zip_eq eq (rev (p_text p)) (rev chars) with
        | None => Ok (None, ranges)
        | Some (_ :: _, _) => Ok (None, ranges)
        | Some ([], _) =>
            let* start := usub up_to (p_char_len p) in
            finish_match_ck RANGES p c start up_to eq s ranges
        end
    end.

(** equal_match, fzf.rs:390-450 *)
Definition equal_match_ck (RANGES : bool) (p : pattern) (c : candidate) (eq : char_eq_fn)
    (s : scheme) (ranges : mranges) : res (option score * mranges) :=
  if p_is_empty p then Ok (Some 0, ranges)
  else
    let* ign := ignored_candidate_leading_spaces p c in
    match ign with
    | None => Ok (None, ranges)
    | Some lead =>
        if (lead =? cand_char_len c)%nat then Ok (None, ranges)
        else
          let* ign := ignored_candidate_trailing_spaces p c in
          match ign with
          | None => Ok (None, ranges)
          | Some trail =>
              let* en := usub (cand_char_len c) trail in
              if (en - lead <? p_char_len p)%nat then Ok (None, ranges)
              else
                let* sl := cand_slice_range c lead en in
                let* chars := cand_chars sl in
                match zip_eq eq (p_text p) chars with
                | None => Ok (None, ranges)
                | Some (rp, rc) =>
                    match zip_rest rp rc with
                    | ([], []) => finish_match_ck RANGES p c lead en eq s ranges
                    | _ => Ok (None, ranges)
                    end
                end
          end
    end.

End WithUnicode.

(** The trait Fzf, fzf.rs:8-174, with the implementor's methods as parameters, as in Fzf.v *)
Section Trait.
Context {UC : unicode}.
Context {St : Type}.
Variable alloc_chars : St -> str -> res (list char * St).
Variable st_char_eq : St -> pattern -> char_eq_fn.
Variable st_scheme : St -> scheme.
Variable fuzzy : bool -> St -> pattern -> candidate -> mranges
                 -> res (option score * St * mranges).

(** Fzf::score, fzf.rs:27-136 *)
Definition fzf_score_ck (RANGES : bool) (st : St) (p : pattern) (c : candidate)
    (ranges : mranges) : res (option score * St * mranges) :=
  let with_ranges := if p_is_inverse p then false else RANGES in
  let pure (f : bool -> pattern -> candidate -> char_eq_fn -> scheme -> mranges
                -> res (option score * mranges)) :=
    let* '(sc, ranges) := f with_ranges p c (st_char_eq st p) (st_scheme st) ranges in
    Ok (sc, st, ranges) in
  let* '(sc, st, ranges) :=
    match p_match_type p with
    | Fuzzy => fuzzy with_ranges st p c ranges
    | Exact => pure exact_match_ck
    | PrefixExact => pure prefix_match_ck
    | SuffixExact => pure suffix_match_ck
    | EqualExact => pure equal_match_ck
    end in
  match sc, p_is_inverse p with
  | Some x, false => Ok (Some x, st, ranges)
  | None, true => Ok (Some 0, st, ranges)
  | _, _ => Ok (None, st, ranges)
  end.

(** find_map over the patterns of a condition, fzf.rs:166-168 *)
Fixpoint score_condition_ck (RANGES : bool) (st : St) (cond : condition) (c : candidate)
    (ranges : mranges) : res (option score * St * mranges) :=
  match cond with
  | [] => Ok (None, st, ranges)
  | p :: cond' =>
      let* '(sc, st, ranges) := fzf_score_ck RANGES st p c ranges in
      match sc with
      | Some x => Ok (Some x, st, ranges)
      | None => score_condition_ck RANGES st cond' c ranges
      end
  end.

(** The loop over the conditions, fzf.rs:164-170; checked is the sum *)
Fixpoint score_conditions_ck (RANGES : bool) (st : St) (conds : list condition) (c : candidate)
    (total : score) (ranges : mranges) : res (option score * St * mranges) :=
  match conds with
  | [] => Ok (Some total, st, ranges)
  | cond :: conds' =>
      let* '(sc, st, ranges) := score_condition_ck RANGES st cond c ranges in
      match sc with
      | None => Ok (None, st, ranges)
      | Some x =>
          let* total := i64 (total + x) in
          score_conditions_ck RANGES st conds' c total ranges
      end
  end.

(** Fzf::distance once the candidate is built, fzf.rs:156-173 *)
Definition fzf_search_ck (RANGES : bool) (st : St) (q : query) (c : candidate)
    (buf : list range) : res (option distance * St * list range) :=
  let ranges := mranges_from buf in
  let* '(sc, st, ranges) :=
    match q with
    | NotExtended p => fuzzy RANGES st p c ranges
    | Extended conds => score_conditions_ck RANGES st conds c 0 ranges
    end in
  Ok (option_map from_score sc, st, mr_ranges ranges).

(** Fzf::distance, fzf.rs:140-173 *)
Definition fzf_distance_ck (RANGES : bool) (st : St) (q : query) (cand : str)
    (buf : list range) : res (option distance * St * list range) :=
  if q_is_empty q then Ok (Some (from_score 0), st, buf)
  else
    let* '(c, st) :=
      if str_is_ascii cand then Ok (Ascii (encode cand), st)
      else let* '(chars, st) := alloc_chars st cand in Ok (Unicode chars, st) in
    fzf_search_ck RANGES st q c buf.

End Trait.

Section WithUnicode.
Context {UC : unicode}.

(** FzfV1::fuzzy, fzf_v1.rs:250-280 *)
Definition v1_fuzzy_ck (RANGES : bool) (m : v1) (p : pattern) (c : candidate)
    (ranges : mranges) : res (option score * v1 * mranges) :=
  let o := opts_new (is_sensitive (v1_case_sensitivity m) p)
             (v1_candidate_normalization m) in
  let* f := forward_pass p c o in
  match f with
  | None => Ok (None, m, ranges)
  | Some end_forward =>
      let* start_backward := backward_pass p c end_forward o in
      let* '(sc, ranges) :=
        compute_score_ck RANGES p c start_backward end_forward (o_char_eq o)
          (v1_scoring_scheme m) ranges in
      Ok (Some sc, m, ranges)
  end.

(** The loop of score_first_row, fzf_v2.rs:443-469; checked are lines 457-459 *)
Fixpoint first_row_loop_ck (s : scheme) (ms : list nat) (st : fr_state) : res fr_state :=
  match ms with
  | [] => Ok st
  | char_offset :: ms' =>
      let* '(row, _, penalty) :=
        first_row_gap (char_offset - (fr_column st + 1)) (fr_column st + 1)
          (fr_scores st) (fr_prev_score st) GAP_START in
      let column := char_offset in
      let* cons := set_idx (fr_consecutives st) column 1%nat in
      let* '(b, cv) := bonus_at (fr_cv st) column s in
      let* twice := i64 (b * FIRST_QUERY_CHAR_MULTIPLIER) in
      let* sc := i64 (MATCH + twice) in
      let* row := set_idx row column sc in
      let '(max_score, max_score_col) :=
        if fr_max_score st <? sc then (sc, column)
        else (fr_max_score st, fr_max_score_col st) in
      first_row_loop_ck s ms' (MkFr row cons cv max_score sc max_score_col column penalty)
  end.

(** score_first_row, fzf_v2.rs:426-479 *)
Definition score_first_row_ck (scores : list score) (consecutives : list nat)
    (first_pattern_char : char) (cv : candidate_v2) (s : scheme)
  : res (list score * list nat * candidate_v2 * score * nat) :=
  let* st := first_row_loop_ck s (cv_matches cv first_pattern_char)
               (MkFr scores consecutives cv 0 0 0 0 GAP_START) in
  let* '(row, _, _) :=
    first_row_gap (length (fr_scores st) - (fr_column st + 1)) (fr_column st + 1)
      (fr_scores st) (fr_prev_score st) (fr_penalty st) in
  Ok (row, fr_consecutives st, fr_cv st, fr_max_score st, fr_max_score_col st).

(** The inner loop of score_remaining_rows, fzf_v2.rs:510-559; checked are lines 526, 530,
    542-547 and 553 *)
Fixpoint row_loop_ck (s : scheme) (matrix_width row_idx : nat)
    (prev_scores : list score) (prev_consecutives : list nat)
    (ms : list nat) (st : rr_state) : res rr_state :=
  match ms with
  | [] => Ok st
  | char_offset :: ms' =>
      let* '(row, penalty) :=
        row_gap (char_offset - (rr_column st + 1)) (rr_column st + 1)
          (rr_scores st) GAP_START in
      let column := char_offset in
      let* left := usub column 1 in
      let* l := idx row left in
      let score_left := saturating_sub l penalty in
      let* ul := idx prev_scores left in
      let* score_up_left := i64 (ul + MATCH) in
      let* '(b, cv) := bonus_at (rr_cv st) column s in
      let* pc := idx prev_consecutives left in
      let* consecutive := usize (pc + 1) in
      let* '(b, consecutive, cv) :=
        if (1 <? consecutive)%nat then
          let* fi := usub (column + 1) consecutive in
          let* '(fb, cv) := bonus_at cv fi s in
          if (BOUNDARY <=? b) && (fb <? b) then Ok (b, 1%nat, cv)
          else Ok (Z.max (Z.max CONSECUTIVE fb) b, consecutive, cv)
        else Ok (b, consecutive, cv) in
      let* sum := i64 (score_up_left + b) in
      let* '(score_up_left, consecutive, cv) :=
        if sum <? score_left then
          let* '(b, cv) := bonus_at cv column s in
          let* x := i64 (score_up_left + b) in
          Ok (x, 0%nat, cv)
        else
          let* x := i64 (score_up_left + b) in
          Ok (x, consecutive, cv) in
      let sc := Z.max score_left score_up_left in
      let* '(max_score, max_score_cell) :=
        if rr_max_score st <? sc then
          let* start := usize (row_idx * matrix_width) in
          let* cell := usize (start + column) in
          Ok (sc, cell)
        else Ok (rr_max_score st, rr_max_score_cell st) in
      let* cons := set_idx (rr_consecutives st) column consecutive in
      let* row := set_idx row column sc in
      row_loop_ck s matrix_width row_idx prev_scores prev_consecutives ms'
        (MkRr row cons cv max_score max_score_cell column penalty)
  end.

(** score_remaining_rows, fzf_v2.rs:483-570: [n] rows from [row_idx] *)
Fixpoint score_remaining_rows_ck (n row_idx : nat) (s : scheme) (p : pattern)
    (matches : list nat) (scores : matrix score) (consecutives : matrix nat)
    (cv : candidate_v2) (max_score : score) (max_score_cell : nat)
  : res (matrix score * matrix nat * candidate_v2 * score * nat) :=
  match n with
  | O => Ok (scores, consecutives, cv, max_score, max_score_cell)
  | S n' =>
      let matrix_width := m_width scores in
      let* pattern_char := p_char p row_idx in
      let* prev_idx := usub row_idx 1 in
      let* '(prev_scores, row) := two_rows_mut scores prev_idx row_idx in
      let* '(prev_consecutives, cons_row) := two_rows_mut consecutives prev_idx row_idx in
      let* first_match_offset := idx matches row_idx in
      let* ms := cv_matches_from cv first_match_offset pattern_char in
      let* st :=
        row_loop_ck s matrix_width row_idx prev_scores prev_consecutives ms
          (MkRr row cons_row cv max_score max_score_cell first_match_offset GAP_START) in
      let* '(row, _) :=
        row_gap (matrix_width - (rr_column st + 1)) (rr_column st + 1)
          (rr_scores st) (rr_penalty st) in
      score_remaining_rows_ck n' (row_idx + 1) s p matches
        (put_row scores row_idx row)
        (put_row consecutives row_idx (rr_consecutives st))
        (rr_cv st) (rr_max_score st) (rr_max_score_cell st)
  end.

(** MatrixSlab::alloc, slab.rs:190-202; checked is the product in line 191 *)
Definition matrix_alloc_ck {A : Type} (fill : A) (vec : list A) (width height : nat)
  : res (matrix A * list A) :=
  let* _ := usize (height * width) in
  matrix_alloc fill vec width height.

(** score, fzf_v2.rs:384-422 *)
Definition v2_score_ck (scoring_slab : list score) (consecutive_slab : list nat)
    (p : pattern) (cv : candidate_v2) (matches : list nat) (s : scheme)
  : res (matrix score * matrix nat * candidate_v2 * score * nat
         * list score * list nat) :=
  let matrix_width := cand_char_len (cv_base cv) in
  let matrix_height := p_char_len p in
  let* '(scores, scoring_slab) := matrix_alloc_ck 0 scoring_slab matrix_width matrix_height in
  let* '(consecutives, consecutive_slab) :=
    matrix_alloc_ck 0%nat consecutive_slab matrix_width matrix_height in
  let* row := row_mut scores 0 in
  let* cons_row := row_mut consecutives 0 in
  let* first := p_char p 0 in
  let* '(row, cons_row, cv, max_score, max_score_cell) :=
    score_first_row_ck row cons_row first cv s in
  let* '(scores, consecutives, cv, max_score, max_score_cell) :=
    score_remaining_rows_ck (m_height scores - 1) 1 s p matches
      (put_row scores 0 row) (put_row consecutives 0 cons_row)
      cv max_score max_score_cell in
  Ok (scores, consecutives, cv, max_score, max_score_cell,
      put_back (m_slice scores) scoring_slab,
      put_back (m_slice consecutives) consecutive_slab).

(** The loop of fuzzy_single_char, fzf_v2.rs:653-672; checked is line 666 *)
Fixpoint single_char_loop_ck (c : candidate) (s : scheme) (ms : list nat)
    (max_score : score) (max_score_pos : nat) : res (score * nat) :=
  match ms with
  | [] => Ok (max_score, max_score_pos)
  | char_offset :: ms' =>
      let* prev_class :=
        if (char_offset =? 0)%nat then Ok (initial_char_class s)
        else
          let* i := usub char_offset 1 in
          let* x := cand_char c i in
          Ok (char_class x s) in
      let* this := cand_char c char_offset in
      let this_class := char_class this s in
      let b := compute_bonus prev_class this_class s in
      let* twice := i64 (b * FIRST_QUERY_CHAR_MULTIPLIER) in
      let* sc := i64 (MATCH + twice) in
      if max_score <? sc then single_char_loop_ck c s ms' sc char_offset
      else single_char_loop_ck c s ms' max_score max_score_pos
  end.

(** fuzzy_single_char, fzf_v2.rs:642-685 *)
Definition fuzzy_single_char_ck (RANGES : bool) (pattern_char : char) (c : candidate)
    (o : candidate_opts) (s : scheme) (ranges : mranges) : res (option score * mranges) :=
  let* '(max_score, max_score_pos) :=
    single_char_loop_ck c s
      (cand_matches c pattern_char (o_is_case_sensitive o) (o_char_eq o)) 0 0 in
  if max_score =? 0 then Ok (None, ranges)
  else
    let* ranges :=
      if RANGES then
        let* start := to_byte_offset c max_score_pos in
        let* x := cand_char c max_score_pos in
        mr_insert ranges (start, (start + len_utf8 x)%nat)
      else Ok ranges in
    Ok (Some max_score, ranges).

(** FzfV2::fuzzy, fzf_v2.rs:261-332 *)
Definition v2_fuzzy_ck (RANGES : bool) (m : v2) (p : pattern) (c : candidate)
    (ranges : mranges) : res (option score * v2 * mranges) :=
  let o := opts_new (is_sensitive (v2_case_sensitivity m) p)
             (v2_candidate_normalization m) in
  let s := v2_scoring_scheme m in
  if (p_char_len p =? 1)%nat then
    let* x := p_char p 0 in
    let* '(sc, ranges) := fuzzy_single_char_ck RANGES x c o s ranges in
    Ok (sc, m, ranges)
  else
    let slab := v2_slab_ m in
    let* '(r, indices) := v2_matches (s_indices slab) p c o in
    let slab := MkV2Slab (s_bonus slab) (s_consecutive slab) indices (s_scoring slab) in
    match r with
    | None => Ok (None, v2_with_slab m slab, ranges)
    | Some (match_offsets, last_match_offset) =>
        let* first_offset := idx match_offsets 0 in
        let* start_byte_offset :=
          if RANGES then to_byte_offset c first_offset else Ok 0%nat in
        let* initial :=
          if (first_offset =? 0)%nat then Ok (initial_char_class s)
          else
            let* i := usub first_offset 1 in
            let* x := cand_char c i in
            Ok (char_class x s) in
        let* base := cand_slice_range c first_offset last_match_offset in
        let* '(bonuses, bonus_vec) := bonus_alloc (s_bonus slab) (cand_char_len base) in
        let cv := MkCv bonuses base initial o in
        let* match_offsets :=
          fold_right (fun x acc => let* l := acc in
                                   let* y := usub x first_offset in Ok (y :: l))
            (Ok []) match_offsets in
        let indices := put_back match_offsets indices in
        let* '(scores, consecutives, cv, sc, cell, scoring_vec, consecutive_vec) :=
          v2_score_ck (s_scoring slab) (s_consecutive slab) p cv match_offsets s in
        let slab := MkV2Slab (put_back (cv_bonuses cv) bonus_vec) consecutive_vec
                      indices scoring_vec in
        let* ranges :=
          if RANGES then
            matched_ranges scores consecutives cell (cv_base cv) start_byte_offset ranges
          else Ok ranges in
        Ok (Some sc, v2_with_slab m slab, ranges)
    end.

(** Metric::distance, fzf_v1.rs:207-214, fzf_v2.rs:218-225 *)
Definition metric_distance_ck (m : metric) (q : query) (cand : str)
  : res (option distance * metric) :=
  match m with
  | V1 m =>
      let* '(d, m, _) := fzf_distance_ck v1_alloc_chars v1_char_eq v1_scoring_scheme v1_fuzzy_ck
                           false m q cand [] in
      Ok (d, V1 m)
  | V2 m =>
      let* '(d, m, _) := fzf_distance_ck v2_alloc_chars v2_char_eq v2_scoring_scheme v2_fuzzy_ck
                           false m q cand [] in
      Ok (d, V2 m)
  end.

(** Metric::distance_and_ranges, fzf_v1.rs:217-224, fzf_v2.rs:228-235 *)
Definition metric_distance_and_ranges_ck (m : metric) (q : query) (cand : str)
    (buf : list range) : res (option distance * metric * list range) :=
  match m with
  | V1 m =>
      let* '(d, m, buf) := fzf_distance_ck v1_alloc_chars v1_char_eq v1_scoring_scheme v1_fuzzy_ck
                             true m q cand buf in
      Ok (d, V1 m, buf)
  | V2 m =>
      let* '(d, m, buf) := fzf_distance_ck v2_alloc_chars v2_char_eq v2_scoring_scheme v2_fuzzy_ck
                             true m q cand buf in
      Ok (d, V2 m, buf)
  end.

End WithUnicode.
