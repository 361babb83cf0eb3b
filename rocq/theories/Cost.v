(** Metric::distance once more, with the number of loop iterations it makes: those of the loops
    in /repo/src and those inside the functions of core, alloc and memchr it calls
    (searching a slice, counting, filling or resizing a Vec), which are taken to
    look at one element after the other. Everything between two iterations is a
    bounded number of operations on integers and single array elements. Only
    [distance] is covered, so RANGES is false throughout. Dropping the counters
    gives the functions of Fzf.v, FzfV1.v and FzfV2.v back ([metric_distance_tm_same]
    in CostProofs.v). *)
From Verif Require Import Prelude Chars Utils Candidate MatchedRanges Query Scoring Slab Fzf FzfV1 FzfV2 Api.
Local Open Scope Z_scope.

(** A result and the number of iterations made to get there. The loops counted are those of /repo/src. *)
Definition timed (A : Type) : Type := (res A * nat)%type.

(** Code without loops. E.g. query.rs:177-199. *)
Definition lift {A : Type} (r : res A) : timed A := (r, 0%nat).

(** [n] iterations, then [t]. E.g. fzf.rs:164-170. *)
Definition spend {A : Type} (n : nat) (t : timed A) : timed A := (fst t, (n + snd t)%nat).

(** One after the other. As in every body of /repo/src. *)
Definition tbind {A B : Type} (t : timed A) (k : A -> timed B) : timed B :=
  match fst t with
  | Ok a => spend (snd t) (k a)
  | Panic => (Panic, snd t)
  | OutOfFuel => (OutOfFuel, snd t)
  end.

Notation "'let!' x ':=' c1 'in' c2" := (tbind c1 (fun x => c2))
  (at level 200, x name, c1 at level 100, c2 at level 200, right associativity).
Notation "'let!' ' p ':=' c1 'in' c2" := (tbind c1 (fun x => match x with p => c2 end))
  (at level 200, p strict pattern, c1 at level 100, c2 at level 200, right associativity).

(** Elements looked at by a search from the front, memchr::memchr and Iterator::find_map. candidate.rs:271, 299. *)
Fixpoint search_steps {A : Type} (f : A -> bool) (l : list A) : nat :=
  match l with
  | [] => 0
  | x :: t => if f x then 1 else S (search_steps f t)
  end.

(** Elements looked at by take_while, candidate.rs:148-152 and 254-258 *)
Fixpoint while_steps {A : Type} (f : A -> bool) (l : list A) : nat :=
  match l with
  | [] => 0
  | x :: t => if f x then S (while_steps f t) else 1
  end.

(** Vec::resize when the Vec is too short: the old elements may be moved, the new ones are
    written (slab.rs:64-66, 94-97, 126-128, 193-195) *)
Definition resize_steps {A : Type} (vec : list A) (len : nat) : nat :=
  if (length vec <? len)%nat then len else 0.

(** find_first_ascii, candidate.rs:265-275 *)
Definition find_first_ascii_steps (needle : N) (haystack : list N) (is_case_sensitive : bool)
  : nat :=
  if is_case_sensitive || negb (is_ascii_alphabetic needle)
  then search_steps (fun b => (b =? needle)%N) haystack
  else search_steps (fun b => ((b =? needle) || (b =? ascii_letter_flip_case needle))%N) haystack.

(** find_last_ascii, candidate.rs:278-288 *)
Definition find_last_ascii_steps (needle : N) (haystack : list N) (is_case_sensitive : bool)
  : nat :=
  if is_case_sensitive || negb (is_ascii_alphabetic needle)
  then search_steps (fun b => (b =? needle)%N) (rev haystack)
  else search_steps (fun b => ((b =? needle) || (b =? ascii_letter_flip_case needle))%N)
         (rev haystack).

(** Candidate::find_first_from, candidate.rs:67-93 *)
Definition find_first_from_tm (c : candidate) (char_offset : nat) (cha : char)
    (is_case_sensitive : bool) (eq : char_eq_fn) : timed (option nat) :=
  match c with
  | Ascii l =>
      if negb (is_ascii cha) then lift (Ok None)
      else
        let! l := lift (slice_from l char_offset) in
        spend (find_first_ascii_steps (as_u8 cha) l is_case_sensitive)
          (lift (Ok (option_map (fun offset => (offset + char_offset)%nat)
                       (find_first_ascii (as_u8 cha) l is_case_sensitive))))
  | Unicode l =>
      let! l := lift (slice_from l char_offset) in
      spend (search_steps (fun x => eq cha x) l)
        (lift (Ok (option_map (fun i => (i + char_offset)%nat) (find_first_unicode cha l eq))))
  end.

(** Candidate::find_last, candidate.rs:97-114 *)
Definition find_last_tm (c : candidate) (cha : char) (is_case_sensitive : bool)
    (eq : char_eq_fn) : timed (option nat) :=
  match c with
  | Ascii l =>
      if is_ascii cha then
        spend (find_last_ascii_steps (as_u8 cha) l is_case_sensitive)
          (lift (Ok (find_last_ascii (as_u8 cha) l is_case_sensitive)))
      else lift (Ok None)
  | Unicode l =>
      spend (search_steps (fun x => eq cha x) (rev l)) (lift (Ok (find_last_unicode cha l eq)))
  end.

(** Candidate::find_last_from, candidate.rs:119-141 *)
Definition find_last_from_tm (c : candidate) (end_offset : nat) (cha : char)
    (is_case_sensitive : bool) (eq : char_eq_fn) : timed (option nat) :=
  match c with
  | Ascii l =>
      if is_ascii cha then
        let! l := lift (slice_to l end_offset) in
        spend (find_last_ascii_steps (as_u8 cha) l is_case_sensitive)
          (lift (Ok (find_last_ascii (as_u8 cha) l is_case_sensitive)))
      else lift (Ok None)
  | Unicode l =>
      let! l := lift (slice_to l end_offset) in
      spend (search_steps (fun x => eq cha x) (rev l))
        (lift (Ok (find_last_unicode cha l eq)))
  end.

(** Candidate::leading_spaces, candidate.rs:145-155 *)
Definition leading_spaces_tm (c : candidate) : timed nat :=
  spend (while_steps (fun b => (b =? SPACE)%N) (cand_slice c)) (lift (Ok (cand_leading_spaces c))).

(** Candidate::trailing_spaces, candidate.rs:251-261 *)
Definition trailing_spaces_tm (c : candidate) : timed nat :=
  spend (while_steps (fun b => (b =? SPACE)%N) (rev (cand_slice c)))
    (lift (Ok (cand_trailing_spaces c))).

(** Candidate::matches, candidate.rs:159-174: all calls of [next] together look at every
    character of the haystack once. *)
Definition cand_matches_tm (c : candidate) (cha : char) (is_case_sensitive : bool)
    (eq : char_eq_fn) : timed (list nat) :=
  spend (cand_char_len c) (lift (Ok (cand_matches c cha is_case_sensitive eq))).

(** Candidate::matches_from, candidate.rs:178-201 *)
Definition cand_matches_from_tm (c : candidate) (char_offset : nat) (cha : char)
    (is_case_sensitive : bool) (eq : char_eq_fn) : timed (list nat) :=
  spend (cand_char_len c - char_offset)
    (lift (cand_matches_from c char_offset cha is_case_sensitive eq)).

(** The loops over zipped characters, fzf.rs:298-305, 351-360, 424-430 *)
Fixpoint zip_eq_tm (eq : char_eq_fn) (pattern_chars candidate_chars : list char)
  : timed (option (list char * list char)) :=
  match pattern_chars, candidate_chars with
  | p :: ps, c :: cs =>
      spend 1 (if eq p c then zip_eq_tm eq ps cs else lift (Ok None))
  | ps, cs => lift (Ok (Some (ps, cs)))
  end.

(** CandidateSlab::alloc, slab.rs:93-106: resize and the loop of lines 100-103 *)
Definition candidate_alloc_tm (chars : list char) (text : str)
  : timed (list char * list char) :=
  spend (resize_steps chars (byte_len text) + length text) (lift (candidate_alloc chars text)).

(** BonusSlab::alloc, slab.rs:63-75: resize and the loop of lines 70-72 *)
Definition bonus_alloc_tm (vec : list bonus) (len : nat) : timed (list bonus * list bonus) :=
  spend (resize_steps vec len + len) (lift (bonus_alloc vec len)).

(** MatchedIndicesSlab::alloc, slab.rs:125-131 *)
Definition indices_alloc_tm (vec : list nat) (len : nat) : timed (list nat * list nat) :=
  spend (resize_steps vec len) (lift (indices_alloc vec len)).

(** MatrixSlab::alloc, slab.rs:190-202: resize and fill *)
Definition matrix_alloc_tm {A : Type} (fill : A) (vec : list A) (width height : nat)
  : timed (matrix A * list A) :=
  spend (resize_steps vec (height * width) + height * width)
    (lift (matrix_alloc fill vec width height)).

(** The loop of forward_pass, fzf_v1.rs:296-309 *)
Fixpoint forward_loop_tm (c : candidate) (o : candidate_opts) (pattern_char : char)
    (pattern_chars : list char) (end_offset : nat) : timed (option nat) :=
  spend 1
    (let! f := find_first_from_tm c end_offset pattern_char (o_is_case_sensitive o)
                 (o_char_eq o) in
     match f with
     | None => lift (Ok None)
     | Some x =>
         let end_offset := (x + 1)%nat in
         match pattern_chars with
         | next :: rest => forward_loop_tm c o next rest end_offset
         | [] => lift (Ok (Some end_offset))
         end
     end).

(** forward_pass, fzf_v1.rs:285-310 *)
Definition forward_pass_tm (p : pattern) (c : candidate) (o : candidate_opts)
  : timed (option nat) :=
  match p_text p with
  | [] => lift (Ok None)
  | pattern_char :: rest => forward_loop_tm c o pattern_char rest 0
  end.

(** The loop of backward_pass, fzf_v1.rs:326-341 *)
Fixpoint backward_loop_tm (c : candidate) (o : candidate_opts) (pattern_char : char)
    (pattern_chars : list char) (start_offset : nat) : timed nat :=
  spend 1
    (let! f := find_last_from_tm c start_offset pattern_char (o_is_case_sensitive o)
                 (o_char_eq o) in
     let! start_offset := lift (unwrap f) in
     match pattern_chars with
     | next :: rest => backward_loop_tm c o next rest start_offset
     | [] => lift (Ok start_offset)
     end).

(** backward_pass, fzf_v1.rs:314-342 *)
Definition backward_pass_tm (p : pattern) (c : candidate) (end_offset : nat)
    (o : candidate_opts) : timed nat :=
  match rev (p_text p) with
  | [] => lift Panic
  | pattern_char :: rest => backward_loop_tm c o pattern_char rest end_offset
  end.

(** The loop of matches, fzf_v2.rs:349-368 *)
Fixpoint matches_loop_tm (p : pattern) (c : candidate) (o : candidate_opts)
    (fuel : nat) (pattern_char_idx last_match_offset : nat) (offsets : list nat)
  : timed (option nat * list nat) :=
  match fuel with
  | O => lift OutOfFuel
  | S fuel' =>
      spend 1
        (let! pattern_char := lift (p_char p pattern_char_idx) in
         let! f := find_first_from_tm c last_match_offset pattern_char
                     (o_is_case_sensitive o) (o_char_eq o) in
         match f with
         | None => lift (Ok (None, offsets))
         | Some last_match_offset =>
             let! offsets := lift (set_idx offsets pattern_char_idx last_match_offset) in
             let last_match_offset := (last_match_offset + 1)%nat in
             if (pattern_char_idx + 1 <? p_char_len p)%nat
             then matches_loop_tm p c o fuel' (pattern_char_idx + 1) last_match_offset offsets
             else lift (Ok (Some pattern_char_idx, offsets))
         end)
  end.

(** matches, fzf_v2.rs:337-380 *)
Definition v2_matches_tm (slab : list nat) (p : pattern) (c : candidate) (o : candidate_opts)
  : timed (option (list nat * nat) * list nat) :=
  let! '(offsets, slab) := indices_alloc_tm slab (p_char_len p) in
  let! '(r, offsets) := matches_loop_tm p c o (S (p_char_len p)) 0 0 offsets in
  let slab := put_back offsets slab in
  match r with
  | None => lift (Ok (None, slab))
  | Some pattern_char_idx =>
      let! last_char := lift (p_char p pattern_char_idx) in
      let! f := find_last_tm c last_char (o_is_case_sensitive o) (o_char_eq o) in
      let! l := lift (unwrap f) in
      lift (Ok (Some (offsets, (l + 1)%nat), slab))
  end.

(** The gap loops of score_first_row, fzf_v2.rs:446-451 and 471-476 *)
Fixpoint first_row_gap_tm (n col : nat) (row : list score) (prev_score penalty : score)
  : timed (list score * score * score) :=
  match n with
  | O => lift (Ok (row, prev_score, penalty))
  | S n' =>
      let sc := saturating_sub prev_score penalty in
      spend 1
        (let! row := lift (set_idx row col sc) in
         first_row_gap_tm n' (col + 1) row sc GAP_EXTENSION)
  end.

(** The gap loops of score_remaining_rows, fzf_v2.rs:515-520 and 561-566 *)
Fixpoint row_gap_tm (n col : nat) (row : list score) (penalty : score)
  : timed (list score * score) :=
  match n with
  | O => lift (Ok (row, penalty))
  | S n' =>
      spend 1
        (let! i := lift (usub col 1) in
         let! score_left := lift (idx row i) in
         let sc := saturating_sub score_left penalty in
         let! row := lift (set_idx row col sc) in
         row_gap_tm n' (col + 1) row GAP_EXTENSION)
  end.

Section WithUnicode.
Context {UC : unicode}.

(** The loop of compute_score, fzf.rs:524-583 *)
Fixpoint compute_score_loop_tm (eq : char_eq_fn) (s : scheme) (chars : list char) (st : cs_state)
  : timed (score * mranges) :=
  match chars with
  | [] => lift (Ok (cs_score st, cs_ranges st))
  | c :: chars' =>
      let ch_class := char_class c s in
      spend 1
        (if eq (cs_pattern_char st) c then
           let sc := cs_score st + MATCH in
           let b := compute_bonus (cs_prev_class st) ch_class s in
           let '(first_bonus, b) :=
             if (cs_consecutive st =? 0)%nat then (b, b)
             else
               let first_bonus :=
                 if (BOUNDARY <=? b) && (cs_first_bonus st <? b) then b
                 else cs_first_bonus st in
               (first_bonus, Z.max (Z.max b first_bonus) CONSECUTIVE) in
           let sc := sc + (if cs_first st then b * FIRST_QUERY_CHAR_MULTIPLIER else b) in
           match cs_pattern_chars st with
           | [] => lift (Ok (sc, cs_ranges st)) (* break *)
           | next_char :: rest =>
               compute_score_loop_tm eq s chars'
                 (MkCs false false first_bonus (cs_consecutive st + 1) (cs_byte_offset st)
                    ch_class next_char rest sc (cs_ranges st))
           end
         else
           let sc := cs_score st - (if cs_in_gap st then GAP_EXTENSION else GAP_START) in
           compute_score_loop_tm eq s chars'
             (MkCs true (cs_first st) 0 0 (cs_byte_offset st)
                ch_class (cs_pattern_char st) (cs_pattern_chars st) sc (cs_ranges st)))
  end.

(** compute_score, fzf.rs:484-586 *)
Definition compute_score_tm (p : pattern) (c : candidate) (a b : nat)
    (eq : char_eq_fn) (s : scheme) (ranges : mranges) : timed (score * mranges) :=
  let! prev_class :=
    lift (if (a =? 0)%nat then Ok (initial_char_class s)
          else
            let* i := usub a 1 in
            let* x := cand_char c i in
            Ok (char_class x s)) in
  match p_text p with
  | [] => lift Panic
  | pattern_char :: pattern_chars =>
      let! sl := lift (cand_slice_range c a b) in
      let! chars := lift (cand_chars sl) in
      compute_score_loop_tm eq s chars
        (MkCs false true 0 0 0 prev_class pattern_char pattern_chars 0 ranges)
  end.

(** The inner loop of exact_match, fzf.rs:213-251 *)
Fixpoint exact_inner_tm (p : pattern) (eq : char_eq_fn) (s : scheme)
    (current_start_offset : nat) (chars : list char) (char_offset : nat)
    (bonus_start : nat) (current_bonus : score) (pattern_char_idx : nat)
    (st : em_state) : timed (em_state * em_exit) :=
  match chars with
  | [] => lift (Ok (st, EmInnerDone []))
  | candidate_ch :: chars' =>
      spend 1
        (let! pattern_ch := lift (p_char p pattern_char_idx) in
         let cls := char_class candidate_ch s in
         if eq pattern_ch candidate_ch then
           let '(bonus_start, current_bonus, st) :=
             if (pattern_char_idx =? 0)%nat then
               ((current_start_offset + char_offset)%nat,
                compute_bonus (em_prev_class st) cls s,
                MkEm (em_best_bonus st) (em_best_start st) (em_best_end st)
                  (em_matched st) (em_prev_class st)
                  (em_start_offset st + (char_offset + 1)))
             else (bonus_start, current_bonus, st) in
           let pattern_char_idx := (pattern_char_idx + 1)%nat in
           if (pattern_char_idx =? p_char_len p)%nat then
             let st :=
               if em_best_bonus st <? current_bonus then
                 MkEm current_bonus bonus_start (current_start_offset + char_offset + 1)
                   true (em_prev_class st) (em_start_offset st)
               else
                 MkEm (em_best_bonus st) (em_best_start st) (em_best_end st)
                   true (em_prev_class st) (em_start_offset st) in
             if BOUNDARY <=? current_bonus then lift (Ok (st, EmBreakOuter))
             else lift (Ok (st, EmInnerDone chars'))
           else
             exact_inner_tm p eq s current_start_offset chars' (char_offset + 1)
               bonus_start current_bonus pattern_char_idx
               (MkEm (em_best_bonus st) (em_best_start st) (em_best_end st)
                  (em_matched st) cls (em_start_offset st))
         else if (0 <? pattern_char_idx)%nat then lift (Ok (st, EmInnerDone chars'))
         else
           exact_inner_tm p eq s current_start_offset chars' (char_offset + 1)
             bonus_start current_bonus pattern_char_idx
             (MkEm (em_best_bonus st) (em_best_start st) (em_best_end st)
                (em_matched st) cls (em_start_offset st)))
  end.

(** The outer loop of exact_match, fzf.rs:205-256 *)
Fixpoint exact_outer_tm (fuel : nat) (p : pattern) (c : candidate) (eq : char_eq_fn)
    (s : scheme) (st : em_state) : timed em_state :=
  match fuel with
  | O => lift OutOfFuel
  | S fuel' =>
      spend 1
        (let! chars := lift (cand_chars_from c (em_start_offset st)) in
         let! '(st, e) := exact_inner_tm p eq s (em_start_offset st) chars 0 0 0 0 st in
         match e with
         | EmBreakOuter => lift (Ok st)
         | EmInnerDone [] => lift (Ok st)
         | EmInnerDone _ => exact_outer_tm fuel' p c eq s st
         end)
  end.

(** The common tail, fzf.rs:262-277, 311-330, 366-385, 436-449 *)
Definition finish_match_tm (p : pattern) (c : candidate) (a b : nat)
    (eq : char_eq_fn) (s : scheme) (ranges : mranges) : timed (option score * mranges) :=
  let! '(sc, ranges) := compute_score_tm p c a b eq s ranges in
  lift (Ok (Some sc, ranges)).

(** exact_match, fzf.rs:178-278 *)
Definition exact_match_tm (p : pattern) (c : candidate) (eq : char_eq_fn)
    (s : scheme) (ranges : mranges) : timed (option score * mranges) :=
  if p_is_empty p then lift (Ok (Some 0, ranges))
  else
    let! st := exact_outer_tm (S (cand_char_len c)) p c eq s
                 (MkEm (-1) 0 0 false (initial_char_class s) 0) in
    if negb (em_matched st) then lift (Ok (None, ranges))
    else finish_match_tm p c (em_best_start st) (em_best_end st) eq s ranges.

(** ignored_candidate_leading_spaces, fzf.rs:454-465 *)
Definition ignored_leading_tm (p : pattern) (c : candidate) : timed (option nat) :=
  let! n := leading_spaces_tm c in
  if (n <? p_leading_spaces p)%nat then lift (Ok None)
  else let! d := lift (usub n (p_leading_spaces p)) in lift (Ok (Some d)).

(** ignored_candidate_trailing_spaces, fzf.rs:469-480 *)
Definition ignored_trailing_tm (p : pattern) (c : candidate) : timed (option nat) :=
  let! n := trailing_spaces_tm c in
  if (n <? p_trailing_spaces p)%nat then lift (Ok None)
  else let! d := lift (usub n (p_trailing_spaces p)) in lift (Ok (Some d)).

(** prefix_match, fzf.rs:282-331 *)
Definition prefix_match_tm (p : pattern) (c : candidate) (eq : char_eq_fn)
    (s : scheme) (ranges : mranges) : timed (option score * mranges) :=
  if p_is_empty p then lift (Ok (Some 0, ranges))
  else
    let! ign := ignored_leading_tm p c in
    match ign with
    | None => lift (Ok (None, ranges))
    | Some ignored =>
        let! chars := lift (cand_chars_from c ignored) in
        let! z := zip_eq_tm eq (p_text p) chars in
        match z with
        | None => lift (Ok (None, ranges))
        | Some (_ :: _, _) => lift (Ok (None, ranges))
        | Some ([], _) =>
            finish_match_tm p c ignored (ignored + p_char_len p) eq s ranges
        end
    end.

(** suffix_match, fzf.rs:335-386 *)
Definition suffix_match_tm (p : pattern) (c : candidate) (eq : char_eq_fn)
    (s : scheme) (ranges : mranges) : timed (option score * mranges) :=
  if p_is_empty p then lift (Ok (Some 0, ranges))
  else
    let! ign := ignored_trailing_tm p c in
    match ign with
    | None => lift (Ok (None, ranges))
    | Some ignored =>
        let! up_to := lift (usub (cand_char_len c) ignored) in
        let! sl := lift (cand_slice_range c 0 up_to) in
        let! chars := lift (cand_chars sl) in
        let! z := zip_eq_tm eq (rev (p_text p)) (rev chars) in
        match z with
        | None => lift (Ok (None, ranges))
        | Some (_ :: _, _) => lift (Ok (None, ranges))
        | Some ([], _) =>
            let! start := lift (usub up_to (p_char_len p)) in
            finish_match_tm p c start up_to eq s ranges
        end
    end.

(** equal_match, fzf.rs:390-450 *)
Definition equal_match_tm (p : pattern) (c : candidate) (eq : char_eq_fn)
    (s : scheme) (ranges : mranges) : timed (option score * mranges) :=
  if p_is_empty p then lift (Ok (Some 0, ranges))
  else
    let! ign := ignored_leading_tm p c in
    match ign with
    | None => lift (Ok (None, ranges))
    | Some lead =>
        if (lead =? cand_char_len c)%nat then lift (Ok (None, ranges))
        else
          let! ign := ignored_trailing_tm p c in
          match ign with
          | None => lift (Ok (None, ranges))
          | Some trail =>
              let! en := lift (usub (cand_char_len c) trail) in
              if (en - lead <? p_char_len p)%nat then lift (Ok (None, ranges))
              else
                let! sl := lift (cand_slice_range c lead en) in
                let! chars := lift (cand_chars sl) in
                let! z := zip_eq_tm eq (p_text p) chars in
                match z with
                | None => lift (Ok (None, ranges))
                | Some (rp, rc) =>
                    match zip_rest rp rc with
                    | ([], []) => finish_match_tm p c lead en eq s ranges
                    | _ => lift (Ok (None, ranges))
                    end
                end
          end
    end.

(** FzfV1::fuzzy, fzf_v1.rs:250-280 *)
Definition v1_fuzzy_tm (m : v1) (p : pattern) (c : candidate) (ranges : mranges)
  : timed (option score * v1 * mranges) :=
  let o := opts_new (is_sensitive (v1_case_sensitivity m) p)
             (v1_candidate_normalization m) in
  let! f := forward_pass_tm p c o in
  match f with
  | None => lift (Ok (None, m, ranges))
  | Some end_forward =>
      let! start_backward := backward_pass_tm p c end_forward o in
      let! '(sc, ranges) :=
        compute_score_tm p c start_backward end_forward (o_char_eq o)
          (v1_scoring_scheme m) ranges in
      lift (Ok (Some sc, m, ranges))
  end.

(** The loop of score_first_row, fzf_v2.rs:443-469 *)
Fixpoint first_row_loop_tm (s : scheme) (ms : list nat) (st : fr_state) : timed fr_state :=
  match ms with
  | [] => lift (Ok st)
  | char_offset :: ms' =>
      spend 1
        (let! '(row, _, penalty) :=
           first_row_gap_tm (char_offset - (fr_column st + 1)) (fr_column st + 1)
             (fr_scores st) (fr_prev_score st) GAP_START in
         let column := char_offset in
         let! cons := lift (set_idx (fr_consecutives st) column 1%nat) in
         let! '(b, cv) := lift (bonus_at (fr_cv st) column s) in
         let sc := MATCH + b * FIRST_QUERY_CHAR_MULTIPLIER in
         let! row := lift (set_idx row column sc) in
         let '(max_score, max_score_col) :=
           if fr_max_score st <? sc then (sc, column)
           else (fr_max_score st, fr_max_score_col st) in
         first_row_loop_tm s ms' (MkFr row cons cv max_score sc max_score_col column penalty))
  end.

(** score_first_row, fzf_v2.rs:426-479 *)
Definition score_first_row_tm (scores : list score) (consecutives : list nat)
    (first_pattern_char : char) (cv : candidate_v2) (s : scheme)
  : timed (list score * list nat * candidate_v2 * score * nat) :=
  let! ms := cand_matches_tm (cv_base cv) first_pattern_char
               (o_is_case_sensitive (cv_opts cv)) (o_char_eq (cv_opts cv)) in
  let! st := first_row_loop_tm s ms (MkFr scores consecutives cv 0 0 0 0 GAP_START) in
  let! '(row, _, _) :=
    first_row_gap_tm (length (fr_scores st) - (fr_column st + 1)) (fr_column st + 1)
      (fr_scores st) (fr_prev_score st) (fr_penalty st) in
  lift (Ok (row, fr_consecutives st, fr_cv st, fr_max_score st, fr_max_score_col st)).

(** The inner loop of score_remaining_rows, fzf_v2.rs:510-559 *)
Fixpoint row_loop_tm (s : scheme) (matrix_width row_idx : nat)
    (prev_scores : list score) (prev_consecutives : list nat)
    (ms : list nat) (st : rr_state) : timed rr_state :=
  match ms with
  | [] => lift (Ok st)
  | char_offset :: ms' =>
      spend 1
        (let! '(row, penalty) :=
           row_gap_tm (char_offset - (rr_column st + 1)) (rr_column st + 1)
             (rr_scores st) GAP_START in
         let column := char_offset in
         let! left := lift (usub column 1) in
         let! l := lift (idx row left) in
         let score_left := saturating_sub l penalty in
         let! ul := lift (idx prev_scores left) in
         let score_up_left := ul + MATCH in
         let! '(b, cv) := lift (bonus_at (rr_cv st) column s) in
         let! pc := lift (idx prev_consecutives left) in
         let consecutive := (pc + 1)%nat in
         let! '(b, consecutive, cv) :=
           lift (if (1 <? consecutive)%nat then
                   let* fi := usub (column + 1) consecutive in
                   let* '(fb, cv) := bonus_at cv fi s in
                   if (BOUNDARY <=? b) && (fb <? b) then Ok (b, 1%nat, cv)
                   else Ok (Z.max (Z.max CONSECUTIVE fb) b, consecutive, cv)
                 else Ok (b, consecutive, cv)) in
         let! '(score_up_left, consecutive, cv) :=
           lift (if score_up_left + b <? score_left then
                   let* '(b, cv) := bonus_at cv column s in
                   Ok (score_up_left + b, 0%nat, cv)
                 else Ok (score_up_left + b, consecutive, cv)) in
         let sc := Z.max score_left score_up_left in
         let '(max_score, max_score_cell) :=
           if rr_max_score st <? sc then (sc, (row_idx * matrix_width + column)%nat)
           else (rr_max_score st, rr_max_score_cell st) in
         let! cons := lift (set_idx (rr_consecutives st) column consecutive) in
         let! row := lift (set_idx row column sc) in
         row_loop_tm s matrix_width row_idx prev_scores prev_consecutives ms'
           (MkRr row cons cv max_score max_score_cell column penalty))
  end.

(** score_remaining_rows, fzf_v2.rs:483-570 *)
Fixpoint score_remaining_rows_tm (n row_idx : nat) (s : scheme) (p : pattern)
    (matches : list nat) (scores : matrix score) (consecutives : matrix nat)
    (cv : candidate_v2) (max_score : score) (max_score_cell : nat)
  : timed (matrix score * matrix nat * candidate_v2 * score * nat) :=
  match n with
  | O => lift (Ok (scores, consecutives, cv, max_score, max_score_cell))
  | S n' =>
      let matrix_width := m_width scores in
      spend 1
        (let! pattern_char := lift (p_char p row_idx) in
         let! prev_idx := lift (usub row_idx 1) in
         let! '(prev_scores, row) := lift (two_rows_mut scores prev_idx row_idx) in
         let! '(prev_consecutives, cons_row) :=
           lift (two_rows_mut consecutives prev_idx row_idx) in
         let! first_match_offset := lift (idx matches row_idx) in
         let! ms := cand_matches_from_tm (cv_base cv) first_match_offset pattern_char
                      (o_is_case_sensitive (cv_opts cv)) (o_char_eq (cv_opts cv)) in
         let! st :=
           row_loop_tm s matrix_width row_idx prev_scores prev_consecutives ms
             (MkRr row cons_row cv max_score max_score_cell first_match_offset GAP_START) in
         let! '(row, _) :=
           row_gap_tm (matrix_width - (rr_column st + 1)) (rr_column st + 1)
             (rr_scores st) (rr_penalty st) in
         score_remaining_rows_tm n' (row_idx + 1) s p matches
           (put_row scores row_idx row)
           (put_row consecutives row_idx (rr_consecutives st))
           (rr_cv st) (rr_max_score st) (rr_max_score_cell st))
  end.

(** score, fzf_v2.rs:384-422 *)
Definition v2_score_tm (scoring_slab : list score) (consecutive_slab : list nat)
    (p : pattern) (cv : candidate_v2) (matches : list nat) (s : scheme)
  : timed (matrix score * matrix nat * candidate_v2 * score * nat
           * list score * list nat) :=
  let matrix_width := cand_char_len (cv_base cv) in
  let matrix_height := p_char_len p in
  let! '(scores, scoring_slab) :=
    matrix_alloc_tm 0 scoring_slab matrix_width matrix_height in
  let! '(consecutives, consecutive_slab) :=
    matrix_alloc_tm 0%nat consecutive_slab matrix_width matrix_height in
  let! row := lift (row_mut scores 0) in
  let! cons_row := lift (row_mut consecutives 0) in
  let! first := lift (p_char p 0) in
  let! '(row, cons_row, cv, max_score, max_score_cell) :=
    score_first_row_tm row cons_row first cv s in
  let! '(scores, consecutives, cv, max_score, max_score_cell) :=
    score_remaining_rows_tm (m_height scores - 1) 1 s p matches
      (put_row scores 0 row) (put_row consecutives 0 cons_row)
      cv max_score max_score_cell in
  lift (Ok (scores, consecutives, cv, max_score, max_score_cell,
            put_back (m_slice scores) scoring_slab,
            put_back (m_slice consecutives) consecutive_slab)).

(** The loop of fuzzy_single_char, fzf_v2.rs:653-672 *)
Fixpoint single_char_loop_tm (c : candidate) (s : scheme) (ms : list nat)
    (max_score : score) (max_score_pos : nat) : timed (score * nat) :=
  match ms with
  | [] => lift (Ok (max_score, max_score_pos))
  | char_offset :: ms' =>
      spend 1
        (let! prev_class :=
           lift (if (char_offset =? 0)%nat then Ok (initial_char_class s)
                 else
                   let* i := usub char_offset 1 in
                   let* x := cand_char c i in
                   Ok (char_class x s)) in
         let! this := lift (cand_char c char_offset) in
         let this_class := char_class this s in
         let b := compute_bonus prev_class this_class s in
         let sc := MATCH + b * FIRST_QUERY_CHAR_MULTIPLIER in
         if max_score <? sc then single_char_loop_tm c s ms' sc char_offset
         else single_char_loop_tm c s ms' max_score max_score_pos)
  end.

(** fuzzy_single_char, fzf_v2.rs:642-685 *)
Definition fuzzy_single_char_tm (pattern_char : char) (c : candidate)
    (o : candidate_opts) (s : scheme) (ranges : mranges) : timed (option score * mranges) :=
  let! ms := cand_matches_tm c pattern_char (o_is_case_sensitive o) (o_char_eq o) in
  let! '(max_score, max_score_pos) := single_char_loop_tm c s ms 0 0 in
  if max_score =? 0 then lift (Ok (None, ranges))
  else lift (Ok (Some max_score, ranges)).

(** FzfV2::fuzzy, fzf_v2.rs:261-332; the loop of line 309 goes over all offsets *)
Definition v2_fuzzy_tm (m : v2) (p : pattern) (c : candidate) (ranges : mranges)
  : timed (option score * v2 * mranges) :=
  let o := opts_new (is_sensitive (v2_case_sensitivity m) p)
             (v2_candidate_normalization m) in
  let s := v2_scoring_scheme m in
  if (p_char_len p =? 1)%nat then
    let! x := lift (p_char p 0) in
    let! '(sc, ranges) := fuzzy_single_char_tm x c o s ranges in
    lift (Ok (sc, m, ranges))
  else
    let slab := v2_slab_ m in
    let! '(r, indices) := v2_matches_tm (s_indices slab) p c o in
    let slab := MkV2Slab (s_bonus slab) (s_consecutive slab) indices (s_scoring slab) in
    match r with
    | None => lift (Ok (None, v2_with_slab m slab, ranges))
    | Some (match_offsets, last_match_offset) =>
        let! first_offset := lift (idx match_offsets 0) in
        let! initial :=
          lift (if (first_offset =? 0)%nat then Ok (initial_char_class s)
                else
                  let* i := usub first_offset 1 in
                  let* x := cand_char c i in
                  Ok (char_class x s)) in
        let! base := lift (cand_slice_range c first_offset last_match_offset) in
        let! '(bonuses, bonus_vec) := bonus_alloc_tm (s_bonus slab) (cand_char_len base) in
        let cv := MkCv bonuses base initial o in
        let! match_offsets :=
          spend (length match_offsets)
            (lift (fold_right (fun x acc => let* l := acc in
                                            let* y := usub x first_offset in Ok (y :: l))
                     (Ok []) match_offsets)) in
        let indices := put_back match_offsets indices in
        let! '(scores, consecutives, cv, sc, cell, scoring_vec, consecutive_vec) :=
          v2_score_tm (s_scoring slab) (s_consecutive slab) p cv match_offsets s in
        let slab := MkV2Slab (put_back (cv_bonuses cv) bonus_vec) consecutive_vec
                      indices scoring_vec in
        lift (Ok (Some sc, v2_with_slab m slab, ranges))
    end.

(** FzfV1::alloc_chars, fzf_v1.rs:229-231 *)
Definition v1_alloc_chars_tm (m : v1) (s : str) : timed (list char * v1) :=
  let! '(sl, slab) := candidate_alloc_tm (v1_candidate_slab m) s in
  lift (Ok (sl, MkV1 slab (v1_case_sensitivity m) (v1_candidate_normalization m)
                  (v1_scoring_scheme m))).

(** FzfV2::alloc_chars, fzf_v2.rs:240-242 *)
Definition v2_alloc_chars_tm (m : v2) (s : str) : timed (list char * v2) :=
  let! '(sl, slab) := candidate_alloc_tm (v2_candidate_slab m) s in
  lift (Ok (sl, MkV2 slab (v2_candidate_normalization m) (v2_case_sensitivity m)
                  (v2_scoring_scheme m) (v2_slab_ m))).

End WithUnicode.

(** The trait Fzf, fzf.rs:8-174 *)
Section Trait.
Context {UC : unicode}.
Context {St : Type}.
Variable alloc_chars : St -> str -> timed (list char * St).
Variable st_char_eq : St -> pattern -> char_eq_fn.
Variable st_scheme : St -> scheme.
Variable fuzzy : St -> pattern -> candidate -> mranges -> timed (option score * St * mranges).

(** Fzf::score, fzf.rs:27-136 *)
Definition fzf_score_tm (st : St) (p : pattern) (c : candidate) (ranges : mranges)
  : timed (option score * St * mranges) :=
  let pure (f : pattern -> candidate -> char_eq_fn -> scheme -> mranges
                -> timed (option score * mranges)) :=
    let! '(sc, ranges) := f p c (st_char_eq st p) (st_scheme st) ranges in
    lift (Ok (sc, st, ranges)) in
  let! '(sc, st, ranges) :=
    match p_match_type p with
    | Fuzzy => fuzzy st p c ranges
    | Exact => pure exact_match_tm
    | PrefixExact => pure prefix_match_tm
    | SuffixExact => pure suffix_match_tm
    | EqualExact => pure equal_match_tm
    end in
  match sc, p_is_inverse p with
  | Some x, false => lift (Ok (Some x, st, ranges))
  | None, true => lift (Ok (Some 0, st, ranges))
  | _, _ => lift (Ok (None, st, ranges))
  end.

(** find_map over the patterns of a condition, fzf.rs:166-168 *)
Fixpoint score_condition_tm (st : St) (cond : condition) (c : candidate)
    (ranges : mranges) : timed (option score * St * mranges) :=
  match cond with
  | [] => lift (Ok (None, st, ranges))
  | p :: cond' =>
      spend 1
        (let! '(sc, st, ranges) := fzf_score_tm st p c ranges in
         match sc with
         | Some x => lift (Ok (Some x, st, ranges))
         | None => score_condition_tm st cond' c ranges
         end)
  end.

(** The loop over the conditions, fzf.rs:164-170 *)
Fixpoint score_conditions_tm (st : St) (conds : list condition) (c : candidate)
    (total : score) (ranges : mranges) : timed (option score * St * mranges) :=
  match conds with
  | [] => lift (Ok (Some total, st, ranges))
  | cond :: conds' =>
      spend 1
        (let! '(sc, st, ranges) := score_condition_tm st cond c ranges in
         match sc with
         | None => lift (Ok (None, st, ranges))
         | Some x => score_conditions_tm st conds' c (total + x) ranges
         end)
  end.

(** Fzf::distance once the candidate is built, fzf.rs:156-173 *)
Definition fzf_search_tm (st : St) (q : query) (c : candidate) (buf : list range)
  : timed (option distance * St * list range) :=
  let ranges := mranges_from buf in
  let! '(sc, st, ranges) :=
    match q with
    | NotExtended p => fuzzy st p c ranges
    | Extended conds => score_conditions_tm st conds c 0 ranges
    end in
  lift (Ok (option_map from_score sc, st, mr_ranges ranges)).

(** Fzf::distance, fzf.rs:140-173; str::is_ascii looks at every byte at most once. *)
Definition fzf_distance_tm (st : St) (q : query) (cand : str) (buf : list range)
  : timed (option distance * St * list range) :=
  if q_is_empty q then lift (Ok (Some (from_score 0), st, buf))
  else
    spend (byte_len cand)
      (let! '(c, st) :=
         if str_is_ascii cand then lift (Ok (Ascii (encode cand), st))
         else let! '(chars, st) := alloc_chars st cand in lift (Ok (Unicode chars, st)) in
       fzf_search_tm st q c buf).

End Trait.

(** Metric::distance, fzf_v1.rs:207-214, fzf_v2.rs:218-225 *)
Definition metric_distance_tm {UC : unicode} (m : metric) (q : query) (cand : str)
  : timed (option distance * metric) :=
  match m with
  | V1 m =>
      let! '(d, m, _) := fzf_distance_tm v1_alloc_chars_tm v1_char_eq v1_scoring_scheme
                           v1_fuzzy_tm m q cand [] in
      lift (Ok (d, V1 m))
  | V2 m =>
      let! '(d, m, _) := fzf_distance_tm v2_alloc_chars_tm v2_char_eq v2_scoring_scheme
                           v2_fuzzy_tm m q cand [] in
      lift (Ok (d, V2 m))
  end.

(** The number of iterations [distance] makes. fzf_v1.rs:207-214, fzf_v2.rs:218-225. *)
Definition distance_steps {UC : unicode} (m : metric) (q : query) (cand : str) : nat :=
  snd (metric_distance_tm m q cand).
