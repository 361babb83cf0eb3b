(** Metric::distance_and_ranges once more, with the number of loop iterations it makes, counted as in Cost.v. The
    functions which do not depend on RANGES are those of Cost.v. In addition to the loops, the elements which Vec::insert
    and Vec::remove shift are counted; moving the user's Vec when it runs out of capacity is not, since how
    often that happens is up to the allocation policy of Vec. Dropping the counters gives the functions of Fzf.v,
    FzfV1.v and FzfV2.v back ([metric_distance_and_ranges_tm_same] in CostRangesProofs.v). *)
From Verif Require Import Prelude Chars Utils Candidate MatchedRanges Query Scoring Slab Fzf FzfV1 FzfV2 Api Cost.
Local Open Scope Z_scope.

(** slice::binary_search_by, matched_ranges.rs:55-60: the most comparisons it may need (proved of the
    loops of the standard library in BinarySearchProofs.v) *)
Definition probes (len : nat) : nat :=
  match len with
  | O => 0
  | _ => S (Nat.log2_up len)
  end.

(** binary_search_by, matched_ranges.rs:55-60 *)
Definition binary_search_by_tm (m : mranges) (start : nat) : timed (nat + nat) :=
  spend (probes (length (mr_ranges m) - mr_initial_len m)) (lift (binary_search_by m start)).

(** insert_at, matched_ranges.rs:185-187: Vec::insert shifts the elements from there on *)
Definition mr_insert_at_tm (m : mranges) (i : nat) (r : range) : timed mranges :=
  spend (length (mr_ranges m) - (mr_initial_len m + i)) (lift (mr_insert_at m i r)).

(** remove, matched_ranges.rs:209-211: Vec::remove shifts the elements behind it *)
Definition mr_remove_tm (m : mranges) (i : nat) : timed mranges :=
  spend (length (mr_ranges m) - (mr_initial_len m + i) - 1) (lift (mr_remove m i)).

(** insert, matched_ranges.rs:70-181 *)
Definition mr_insert_tm (m : mranges) (new_range : range) : timed mranges :=
  let! found := binary_search_by_tm m (fst new_range) in
  match found with
  | inl i =>
      let! '(lhs, rhs) := lift (mr_split_at m (i + 1)) in
      let! rng := lift (idx lhs i) in
      let next_range := nth_error rhs 0 in
      if (snd new_range <=? snd rng)%nat then lift (Ok m)
      else
        match next_range with
        | Some nr =>
            if (fst nr <=? snd new_range)%nat then
              let! m := lift (mr_set m i (fst rng, snd nr)) in
              mr_remove_tm m (i + 1)
            else lift (mr_set m i (fst rng, snd new_range))
        | None => lift (mr_set m i (fst rng, snd new_range))
        end
  | inr insert_idx =>
      if (insert_idx =? 0)%nat then
        match mr_get m 0 with
        | None => lift (Ok (mr_push m new_range))
        | Some first_range =>
            if (fst first_range <=? snd new_range)%nat
            then lift (mr_set m 0 (fst new_range, snd first_range))
            else mr_insert_at_tm m 0 new_range
        end
      else
        let! len := lift (mr_len m) in
        if (insert_idx =? len)%nat then
          let! last_range := lift (unwrap (nth_error (mr_ranges m) (length (mr_ranges m) - 1))) in
          if (fst new_range <=? snd last_range)%nat
          then
            let! l := lift (set_idx (mr_ranges m) (length (mr_ranges m) - 1)
                              (fst last_range, Nat.max (snd last_range) (snd new_range))) in
            lift (Ok (with_ranges m l))
          else lift (Ok (mr_push m new_range))
        else
          let! '(lhs, rhs) := lift (mr_split_at m insert_idx) in
          let! prev_i := lift (usub insert_idx 1) in
          let! prev_range := lift (idx lhs prev_i) in
          let! next_range := lift (idx rhs 0) in
          match (fst new_range <=? snd prev_range)%nat, (fst next_range <=? snd new_range)%nat with
          | true, true =>
              let! m := lift (mr_set m prev_i (fst prev_range, snd next_range)) in
              mr_remove_tm m insert_idx
          | true, false =>
              if (snd prev_range <? snd new_range)%nat
              then lift (mr_set m prev_i (fst prev_range, snd new_range))
              else lift (Ok m)
          | false, true => lift (mr_set m insert_idx (fst new_range, snd next_range))
          | false, false => mr_insert_at_tm m insert_idx new_range
          end
  end.

(** Candidate::to_byte_offset, candidate.rs:217-224 *)
Definition to_byte_offset_tm (c : candidate) (char_offset : nat) : timed nat :=
  spend (match c with Ascii _ => 0 | Unicode _ => char_offset end) (lift (to_byte_offset c char_offset)).

(** Candidate::to_byte_range, candidate.rs:228-247 *)
Definition to_byte_range_tm (c : candidate) (a b : nat) : timed (nat * nat) :=
  spend (match c with Ascii _ => 0 | Unicode _ => b end) (lift (to_byte_range c a b)).

Section WithUnicode.
Context {UC : unicode}.

(** The loop of compute_score::<true>, fzf.rs:524-583 *)
Fixpoint compute_score_ranges_loop_tm (eq : char_eq_fn) (s : scheme) (byte_range_start : nat)
    (chars : list char) (st : cs_state) : timed (score * mranges) :=
  match chars with
  | [] => lift (Ok (cs_score st, cs_ranges st))
  | c :: chars' =>
      let ch_class := char_class c s in
      spend 1
        (if eq (cs_pattern_char st) c then
           let sc := cs_score st + MATCH in
           let b := compute_bonus (cs_prev_class st) ch_class s in
           let '(first_bonus, b) :=
             if (cs_consecutive st =? 0)%nat then (b, b)
             else
               let first_bonus :=
                 if (BOUNDARY <=? b) && (cs_first_bonus st <? b) then b
                 else cs_first_bonus st in
               (first_bonus, Z.max (Z.max b first_bonus) CONSECUTIVE) in
           let sc := sc + (if cs_first st then b * FIRST_QUERY_CHAR_MULTIPLIER else b) in
           let! ranges :=
             (let start := (byte_range_start + cs_byte_offset st)%nat in
              mr_insert_tm (cs_ranges st) (start, (start + len_utf8 c)%nat)) in
           match cs_pattern_chars st with
           | [] => lift (Ok (sc, ranges)) (* break *)
           | next_char :: rest =>
               compute_score_ranges_loop_tm eq s byte_range_start chars'
                 (MkCs false false first_bonus (cs_consecutive st + 1)
                    (cs_byte_offset st + len_utf8 c) ch_class next_char rest sc ranges)
           end
         else
           let sc := cs_score st - (if cs_in_gap st then GAP_EXTENSION else GAP_START) in
           compute_score_ranges_loop_tm eq s byte_range_start chars'
             (MkCs true (cs_first st) 0 0 (cs_byte_offset st + len_utf8 c)
                ch_class (cs_pattern_char st) (cs_pattern_chars st) sc (cs_ranges st)))
  end.

(** compute_score::<true>, fzf.rs:484-586 *)
Definition compute_score_ranges_tm (p : pattern) (c : candidate) (a b : nat)
    (eq : char_eq_fn) (s : scheme) (ranges : mranges) : timed (score * mranges) :=
  let! byte_range_start := to_byte_offset_tm c a in
  let! prev_class :=
    lift (if (a =? 0)%nat then Ok (initial_char_class s)
          else
            let* i := usub a 1 in
            let* x := cand_char c i in
            Ok (char_class x s)) in
  match p_text p with
  | [] => lift Panic
  | pattern_char :: pattern_chars =>
      let! sl := lift (cand_slice_range c a b) in
      let! chars := lift (cand_chars sl) in
      compute_score_ranges_loop_tm eq s byte_range_start chars
        (MkCs false true 0 0 0 prev_class pattern_char pattern_chars 0 ranges)
  end.

(** The common tail, fzf.rs:262-277, 311-330, 366-385, 436-449 *)
Definition finish_match_ranges_tm (p : pattern) (c : candidate) (a b : nat)
    (eq : char_eq_fn) (s : scheme) (ranges : mranges) : timed (option score * mranges) :=
  let! '(sc, ranges) := compute_score_tm p c a b eq s ranges in
  let! r := to_byte_range_tm c a b in
  let! ranges := mr_insert_tm ranges r in
  lift (Ok (Some sc, ranges)).

(** exact_match, fzf.rs:178-278 *)
Definition exact_match_ranges_tm (p : pattern) (c : candidate) (eq : char_eq_fn)
    (s : scheme) (ranges : mranges) : timed (option score * mranges) :=
  if p_is_empty p then lift (Ok (Some 0, ranges))
  else
    let! st := exact_outer_tm (S (cand_char_len c)) p c eq s
                 (MkEm (-1) 0 0 false (initial_char_class s) 0) in
    if negb (em_matched st) then lift (Ok (None, ranges))
    else finish_match_ranges_tm p c (em_best_start st) (em_best_end st) eq s ranges.

(** prefix_match, fzf.rs:282-331 *)
Definition prefix_match_ranges_tm (p : pattern) (c : candidate) (eq : char_eq_fn)
    (s : scheme) (ranges : mranges) : timed (option score * mranges) :=
  if p_is_empty p then lift (Ok (Some 0, ranges))
  else
    let! ign := ignored_leading_tm p c in
    match ign with
    | None => lift (Ok (None, ranges))
    | Some ignored =>
        let! chars := lift (cand_chars_from c ignored) in
        let! z := zip_eq_tm eq (p_text p) chars in
        match z with
        | None => lift (Ok (None, ranges))
        | Some (_ :: _, _) => lift (Ok (None, ranges))
        | Some ([], _) =>
            finish_match_ranges_tm p c ignored (ignored + p_char_len p) eq s ranges
        end
    end.

(** suffix_match, fzf.rs:335-386 *)
Definition suffix_match_ranges_tm (p : pattern) (c : candidate) (eq : char_eq_fn)
    (s : scheme) (ranges : mranges) : timed (option score * mranges) :=
  if p_is_empty p then lift (Ok (Some 0, ranges))
  else
    let! ign := ignored_trailing_tm p c in
    match ign with
    | None => lift (Ok (None, ranges))
    | Some ignored =>
        let! up_to := lift (usub (cand_char_len c) ignored) in
        let! sl := lift (cand_slice_range c 0 up_to) in
        let! chars := lift (cand_chars sl) in
        let! z := zip_eq_tm eq (rev (p_text p)) (rev chars) in
        match z with
        | None => lift (Ok (None, ranges))
        | Some (_ :: _, _) => lift (Ok (None, ranges))
        | Some ([], _) =>
            let! start := lift (usub up_to (p_char_len p)) in
            finish_match_ranges_tm p c start up_to eq s ranges
        end
    end.

(** equal_match, fzf.rs:390-450 *)
Definition equal_match_ranges_tm (p : pattern) (c : candidate) (eq : char_eq_fn)
    (s : scheme) (ranges : mranges) : timed (option score * mranges) :=
  if p_is_empty p then lift (Ok (Some 0, ranges))
  else
    let! ign := ignored_leading_tm p c in
    match ign with
    | None => lift (Ok (None, ranges))
    | Some lead =>
        if (lead =? cand_char_len c)%nat then lift (Ok (None, ranges))
        else
          let! ign := ignored_trailing_tm p c in
          match ign with
          | None => lift (Ok (None, ranges))
          | Some trail =>
              let! en := lift (usub (cand_char_len c) trail) in
              if (en - lead <? p_char_len p)%nat then lift (Ok (None, ranges))
              else
                let! sl := lift (cand_slice_range c lead en) in
                let! chars := lift (cand_chars sl) in
                let! z := zip_eq_tm eq (p_text p) chars in
                match z with
                | None => lift (Ok (None, ranges))
                | Some (rp, rc) =>
                    match zip_rest rp rc with
                    | ([], []) => finish_match_ranges_tm p c lead en eq s ranges
                    | _ => lift (Ok (None, ranges))
                    end
                end
          end
    end.

(** FzfV1::fuzzy::<true>, fzf_v1.rs:250-280 *)
Definition v1_fuzzy_ranges_tm (m : v1) (p : pattern) (c : candidate) (ranges : mranges)
  : timed (option score * v1 * mranges) :=
  let o := opts_new (is_sensitive (v1_case_sensitivity m) p)
             (v1_candidate_normalization m) in
  let! f := forward_pass_tm p c o in
  match f with
  | None => lift (Ok (None, m, ranges))
  | Some end_forward =>
      let! start_backward := backward_pass_tm p c end_forward o in
      let! '(sc, ranges) :=
        compute_score_ranges_tm p c start_backward end_forward (o_char_eq o)
          (v1_scoring_scheme m) ranges in
      lift (Ok (Some sc, m, ranges))
  end.

(** The loop of matched_ranges, fzf_v2.rs:590-637 *)
Fixpoint matched_ranges_loop_tm (fuel : nat) (scores : matrix score) (consecutives : matrix nat)
    (c : candidate) (start_byte_offset : nat)
    (prefer_match : bool) (cell col row : nat) (ranges : mranges) : timed mranges :=
  match fuel with
  | O => lift OutOfFuel
  | S fuel' =>
      let is_cell_in_first_col := (col =? 0)%nat in
      let is_cell_in_first_row := (row =? 0)%nat in
      spend 1
        (let! score_left :=
           lift (if is_cell_in_first_col then Ok 0
                 else let* x := cell_left cell in m_index scores x) in
         let! score_up_left :=
           lift (if is_cell_in_first_col || is_cell_in_first_row then Ok 0
                 else let* x := up_left scores cell in m_index scores x) in
         let prefer_this_match := prefer_match in
         let! cons := lift (m_index consecutives cell) in
         let prefer_match :=
           (1 <? cons)%nat
           || match m_get_value consecutives (down_right consecutives cell) with
              | None => false
              | Some x => (0 <? x)%nat
              end in
         let! sc := lift (m_index scores cell) in
         if (score_up_left <? sc)
            && ((score_left <? sc) || ((sc =? score_left) && prefer_this_match))
         then
           let! byte_offset := to_byte_offset_tm c col in
           let! x := lift (cand_char c col) in
           let byte_offset := (byte_offset + start_byte_offset)%nat in
           let! ranges := mr_insert_tm ranges (byte_offset, (byte_offset + len_utf8 x)%nat) in
           if is_cell_in_first_row || is_cell_in_first_col then lift (Ok ranges)
           else
             let! row := lift (usub row 1) in
             let! cell := lift (up_left scores cell) in
             let! col := lift (usub col 1) in
             matched_ranges_loop_tm fuel' scores consecutives c start_byte_offset
               prefer_match cell col row ranges
         else if is_cell_in_first_col then lift (Ok ranges)
         else
           let! cell := lift (cell_left cell) in
           let! col := lift (usub col 1) in
           matched_ranges_loop_tm fuel' scores consecutives c start_byte_offset
             prefer_match cell col row ranges)
  end.

(** matched_ranges, fzf_v2.rs:574-638 *)
Definition matched_ranges_tm (scores : matrix score) (consecutives : matrix nat)
    (max_score_cell : nat) (c : candidate) (start_byte_offset : nat) (ranges : mranges)
  : timed mranges :=
  let! col := lift (col_of scores max_score_cell) in
  let! row := lift (row_of scores max_score_cell) in
  matched_ranges_loop_tm (S (m_width scores)) scores consecutives c start_byte_offset
    true max_score_cell col row ranges.

(** fuzzy_single_char::<true>, fzf_v2.rs:642-685 *)
Definition fuzzy_single_char_ranges_tm (pattern_char : char) (c : candidate)
    (o : candidate_opts) (s : scheme) (ranges : mranges) : timed (option score * mranges) :=
  let! ms := cand_matches_tm c pattern_char (o_is_case_sensitive o) (o_char_eq o) in
  let! '(max_score, max_score_pos) := single_char_loop_tm c s ms 0 0 in
  if max_score =? 0 then lift (Ok (None, ranges))
  else
    let! start := to_byte_offset_tm c max_score_pos in
    let! x := lift (cand_char c max_score_pos) in
    let! ranges := mr_insert_tm ranges (start, (start + len_utf8 x)%nat) in
    lift (Ok (Some max_score, ranges)).

(** FzfV2::fuzzy::<true>, fzf_v2.rs:261-332 *)
Definition v2_fuzzy_ranges_tm (m : v2) (p : pattern) (c : candidate) (ranges : mranges)
  : timed (option score * v2 * mranges) :=
  let o := opts_new (is_sensitive (v2_case_sensitivity m) p)
             (v2_candidate_normalization m) in
  let s := v2_scoring_scheme m in
  if (p_char_len p =? 1)%nat then
    let! x := lift (p_char p 0) in
    let! '(sc, ranges) := fuzzy_single_char_ranges_tm x c o s ranges in
    lift (Ok (sc, m, ranges))
  else
    let slab := v2_slab_ m in
    let! '(r, indices) := v2_matches_tm (s_indices slab) p c o in
    let slab := MkV2Slab (s_bonus slab) (s_consecutive slab) indices (s_scoring slab) in
    match r with
    | None => lift (Ok (None, v2_with_slab m slab, ranges))
    | Some (match_offsets, last_match_offset) =>
        let! first_offset := lift (idx match_offsets 0) in
        let! start_byte_offset := to_byte_offset_tm c first_offset in
        let! initial :=
          lift (if (first_offset =? 0)%nat then Ok (initial_char_class s)
                else
                  let* i := usub first_offset 1 in
                  let* x := cand_char c i in
                  Ok (char_class x s)) in
        let! base := lift (cand_slice_range c first_offset last_match_offset) in
        let! '(bonuses, bonus_vec) := bonus_alloc_tm (s_bonus slab) (cand_char_len base) in
        let cv := MkCv bonuses base initial o in
        let! match_offsets :=
          spend (length match_offsets)
            (lift (fold_right (fun x acc => let* l := acc in
                                            let* y := usub x first_offset in Ok (y :: l))
                     (Ok []) match_offsets)) in
        let indices := put_back match_offsets indices in
        let! '(scores, consecutives, cv, sc, cell, scoring_vec, consecutive_vec) :=
          v2_score_tm (s_scoring slab) (s_consecutive slab) p cv match_offsets s in
        let slab := MkV2Slab (put_back (cv_bonuses cv) bonus_vec) consecutive_vec
                      indices scoring_vec in
        let! ranges :=
          matched_ranges_tm scores consecutives cell (cv_base cv) start_byte_offset ranges in
        lift (Ok (Some sc, v2_with_slab m slab, ranges))
    end.

End WithUnicode.

(** The trait Fzf, fzf.rs:8-174 *)
Section Trait.
Context {UC : unicode}.
Context {St : Type}.
Variable alloc_chars : St -> str -> timed (list char * St).
Variable st_char_eq : St -> pattern -> char_eq_fn.
Variable st_scheme : St -> scheme.
Variable fuzzy : St -> pattern -> candidate -> mranges -> timed (option score * St * mranges).
Variable fuzzy_ranges : St -> pattern -> candidate -> mranges -> timed (option score * St * mranges).

(** Fzf::score::<true>, fzf.rs:27-136: an inverse pattern leaves no ranges *)
Definition fzf_score_ranges_tm (st : St) (p : pattern) (c : candidate) (ranges : mranges)
  : timed (option score * St * mranges) :=
  if p_is_inverse p then fzf_score_tm st_char_eq st_scheme fuzzy st p c ranges
  else
    let pure (f : pattern -> candidate -> char_eq_fn -> scheme -> mranges
                  -> timed (option score * mranges)) :=
      let! '(sc, ranges) := f p c (st_char_eq st p) (st_scheme st) ranges in
      lift (Ok (sc, st, ranges)) in
    match p_match_type p with
    | Fuzzy => fuzzy_ranges st p c ranges
    | Exact => pure exact_match_ranges_tm
    | PrefixExact => pure prefix_match_ranges_tm
    | SuffixExact => pure suffix_match_ranges_tm
    | EqualExact => pure equal_match_ranges_tm
    end.

(** find_map over the patterns of a condition, fzf.rs:166-168 *)
Fixpoint score_condition_ranges_tm (st : St) (cond : condition) (c : candidate)
    (ranges : mranges) : timed (option score * St * mranges) :=
  match cond with
  | [] => lift (Ok (None, st, ranges))
  | p :: cond' =>
      spend 1
        (let! '(sc, st, ranges) := fzf_score_ranges_tm st p c ranges in
         match sc with
         | Some x => lift (Ok (Some x, st, ranges))
         | None => score_condition_ranges_tm st cond' c ranges
         end)
  end.

(** The loop over the conditions, fzf.rs:164-170 *)
Fixpoint score_conditions_ranges_tm (st : St) (conds : list condition) (c : candidate)
    (total : score) (ranges : mranges) : timed (option score * St * mranges) :=
  match conds with
  | [] => lift (Ok (Some total, st, ranges))
  | cond :: conds' =>
      spend 1
        (let! '(sc, st, ranges) := score_condition_ranges_tm st cond c ranges in
         match sc with
         | None => lift (Ok (None, st, ranges))
         | Some x => score_conditions_ranges_tm st conds' c (total + x) ranges
         end)
  end.

(** Fzf::distance::<true> once the candidate is built, fzf.rs:156-173 *)
Definition fzf_search_ranges_tm (st : St) (q : query) (c : candidate) (buf : list range)
  : timed (option distance * St * list range) :=
  let ranges := mranges_from buf in
  let! '(sc, st, ranges) :=
    match q with
    | NotExtended p => fuzzy_ranges st p c ranges
    | Extended conds => score_conditions_ranges_tm st conds c 0 ranges
    end in
  lift (Ok (option_map from_score sc, st, mr_ranges ranges)).

(** Fzf::distance::<true>, fzf.rs:140-173 *)
Definition fzf_distance_ranges_tm (st : St) (q : query) (cand : str) (buf : list range)
  : timed (option distance * St * list range) :=
  if q_is_empty q then lift (Ok (Some (from_score 0), st, buf))
  else
    spend (byte_len cand)
      (let! '(c, st) :=
         if str_is_ascii cand then lift (Ok (Ascii (encode cand), st))
         else let! '(chars, st) := alloc_chars st cand in lift (Ok (Unicode chars, st)) in
       fzf_search_ranges_tm st q c buf).

End Trait.

(** Metric::distance_and_ranges, fzf_v1.rs:217-224, fzf_v2.rs:228-235 *)
Definition metric_distance_and_ranges_tm {UC : unicode} (m : metric) (q : query) (cand : str)
    (buf : list range) : timed (option distance * metric * list range) :=
  match m with
  | V1 m =>
      let! '(d, m, buf) := fzf_distance_ranges_tm v1_alloc_chars_tm v1_char_eq v1_scoring_scheme
                             v1_fuzzy_tm v1_fuzzy_ranges_tm m q cand buf in
      lift (Ok (d, V1 m, buf))
  | V2 m =>
      let! '(d, m, buf) := fzf_distance_ranges_tm v2_alloc_chars_tm v2_char_eq v2_scoring_scheme
                             v2_fuzzy_tm v2_fuzzy_ranges_tm m q cand buf in
      lift (Ok (d, V2 m, buf))
  end.

(** The number of iterations [distance_and_ranges] makes. fzf_v1.rs:217-224, fzf_v2.rs:228-235. *)
Definition distance_and_ranges_steps {UC : unicode} (m : metric) (q : query) (cand : str)
    (buf : list range) : nat :=
  snd (metric_distance_and_ranges_tm m q cand buf).
