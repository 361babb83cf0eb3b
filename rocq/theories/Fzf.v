(** Model of /repo/src/metrics/fzf/fzf.rs: the code shared by FzfV1 and FzfV2. *)
From Verif Require Import Prelude Chars Utils Candidate MatchedRanges Query Scoring.
Local Open Scope Z_scope.

(** The loops over zipped characters, fzf.rs:298-305, 351-360, 424-430: [None] for an early
    return, otherwise what is left of both iterators. In zip order the pattern
    iterator is the second one in prefix_match and suffix_match (so that the
    candidate iterator may lose one char, which is not used afterwards) and the
    first one in equal_match; the latter case is the one where both rests are
    inspected, see [zip_rest]. *)
Fixpoint zip_eq (eq : char_eq_fn) (pattern_chars candidate_chars : list char)
  : option (list char * list char) :=
  match pattern_chars, candidate_chars with
  | p :: ps, c :: cs => if eq p c then zip_eq eq ps cs else None
  | ps, cs => Some (ps, cs)
  end.

(** What [by_ref] iterators hold after [a.by_ref().zip(b.by_ref())] is exhausted: zip calls
    [a.next()] first, so a surplus item of [a] is lost when [b] is empty. fzf.rs:300, 355, 425. *)
Definition zip_rest (rest_a rest_b : list char) : list char * list char :=
  match rest_a, rest_b with
  | _ :: a, [] => (a, [])
  | a, b => (a, b)
  end.

Section WithUnicode.
Context {UC : unicode}.

(** The variables of compute_score's loop, fzf.rs:493-522. *)
Record cs_state := MkCs {
  cs_in_gap : bool;
  cs_first : bool;
  cs_first_bonus : score;
  cs_consecutive : nat;
  cs_byte_offset : nat;
  cs_prev_class : char_class_t;
  cs_pattern_char : char;
  cs_pattern_chars : list char;
  cs_score : score;
  cs_ranges : mranges
}.

(** The loop of compute_score, fzf.rs:524-583. consecutive (u32) is a nat. *)
Fixpoint compute_score_loop (RANGES : bool) (eq : char_eq_fn) (s : scheme)
    (byte_range_start : nat) (chars : list char) (st : cs_state)
  : res (score * mranges) :=
  match chars with
  | [] => Ok (cs_score st, cs_ranges st)
  | c :: chars' =>
      let ch_class := char_class c s in
      if eq (cs_pattern_char st) c then
        let sc := cs_score st + MATCH in
        let b := compute_bonus (cs_prev_class st) ch_class s in
        let '(first_bonus, b) :=
          if (cs_consecutive st =? 0)%nat then (b, b)
          else
            let first_bonus :=
              if (BOUNDARY <=? b) && (cs_first_bonus st <? b) then b
              else cs_first_bonus st in
            (first_bonus, Z.max (Z.max b first_bonus) CONSECUTIVE) in
        let sc := sc + (if cs_first st then b * FIRST_QUERY_CHAR_MULTIPLIER else b) in
        let* ranges :=
          if RANGES then
            let start := (byte_range_start + cs_byte_offset st)%nat in
            mr_insert (cs_ranges st) (start, (start + len_utf8 c)%nat)
          else Ok (cs_ranges st) in
        match cs_pattern_chars st with
        | [] => Ok (sc, ranges) (* break *)
        | next_char :: rest =>
            compute_score_loop RANGES eq s byte_range_start chars'
              (MkCs false false first_bonus (cs_consecutive st + 1)
                 (if RANGES then cs_byte_offset st + len_utf8 c else cs_byte_offset st)
                 ch_class next_char rest sc ranges)
        end
      else
        let sc := cs_score st - (if cs_in_gap st then GAP_EXTENSION else GAP_START) in
        compute_score_loop RANGES eq s byte_range_start chars'
          (MkCs true (cs_first st) 0 0
             (if RANGES then cs_byte_offset st + len_utf8 c else cs_byte_offset st)
             ch_class (cs_pattern_char st) (cs_pattern_chars st) sc (cs_ranges st))
  end.

(** compute_score, fzf.rs:484-586. The range candidate_char_range is [a..b]. *)
Definition compute_score (RANGES : bool) (p : pattern) (c : candidate) (a b : nat)
    (eq : char_eq_fn) (s : scheme) (ranges : mranges) : res (score * mranges) :=
  let* byte_range_start := if RANGES then to_byte_offset c a else Ok 0%nat in
  let* prev_class :=
    if (a =? 0)%nat then Ok (initial_char_class s)
    else
      let* i := usub a 1 in
      let* x := cand_char c i in
      Ok (char_class x s) in
  match p_text p with
  | [] => Panic (* expect, line 520 *)
  | pattern_char :: pattern_chars =>
      let* sl := cand_slice_range c a b in
      let* chars := cand_chars sl in
      compute_score_loop RANGES eq s byte_range_start chars
        (MkCs false true 0 0 0 prev_class pattern_char pattern_chars 0 ranges)
  end.

(** The variables of exact_match, fzf.rs:190-203. *)
Record em_state := MkEm {
  em_best_bonus : Z;
  em_best_start : nat;
  em_best_end : nat;
  em_matched : bool;
  em_prev_class : char_class_t;
  em_start_offset : nat
}.

(** How the inner loop of exact_match ends: [break 'outer], or normally / by [break], with the
    characters which the iterator would still yield. fzf.rs:178-280. *)
Inductive em_exit := EmBreakOuter | EmInnerDone (rest : list char).

(** The inner loop of exact_match, fzf.rs:213-251. *)
Fixpoint exact_inner (p : pattern) (eq : char_eq_fn) (s : scheme)
    (current_start_offset : nat) (chars : list char) (char_offset : nat)
    (bonus_start : nat) (current_bonus : score) (pattern_char_idx : nat)
    (st : em_state) : res (em_state * em_exit) :=
  match chars with
  | [] => Ok (st, EmInnerDone [])
  | candidate_ch :: chars' =>
      let* pattern_ch := p_char p pattern_char_idx in
      let cls := char_class candidate_ch s in
      if eq pattern_ch candidate_ch then
        let '(bonus_start, current_bonus, st) :=
          if (pattern_char_idx =? 0)%nat then
            ((current_start_offset + char_offset)%nat,
             compute_bonus (em_prev_class st) cls s,
             MkEm (em_best_bonus st) (em_best_start st) (em_best_end st)
               (em_matched st) (em_prev_class st)
               (em_start_offset st + (char_offset + 1)))
          else (bonus_start, current_bonus, st) in
        let pattern_char_idx := (pattern_char_idx + 1)%nat in
        if (pattern_char_idx =? p_char_len p)%nat then
          let st :=
            if em_best_bonus st <? current_bonus then
              MkEm current_bonus bonus_start (current_start_offset + char_offset + 1)
                true (em_prev_class st) (em_start_offset st)
            else
              MkEm (em_best_bonus st) (em_best_start st) (em_best_end st)
                true (em_prev_class st) (em_start_offset st) in
          if BOUNDARY <=? current_bonus then Ok (st, EmBreakOuter)
          else Ok (st, EmInnerDone chars')
        else
          exact_inner p eq s current_start_offset chars' (char_offset + 1)
            bonus_start current_bonus pattern_char_idx
            (MkEm (em_best_bonus st) (em_best_start st) (em_best_end st)
               (em_matched st) cls (em_start_offset st))
      else if (0 <? pattern_char_idx)%nat then Ok (st, EmInnerDone chars')
      else
        exact_inner p eq s current_start_offset chars' (char_offset + 1)
          bonus_start current_bonus pattern_char_idx
          (MkEm (em_best_bonus st) (em_best_start st) (em_best_end st)
             (em_matched st) cls (em_start_offset st))
  end.

(** The outer loop of exact_match, fzf.rs:205-256. *)
Fixpoint exact_outer (fuel : nat) (p : pattern) (c : candidate) (eq : char_eq_fn)
    (s : scheme) (st : em_state) : res em_state :=
  match fuel with
  | O => OutOfFuel
  | S fuel' =>
      let* chars := cand_chars_from c (em_start_offset st) in
      let* '(st, e) := exact_inner p eq s (em_start_offset st) chars 0 0 0 0 st in
      match e with
      | EmBreakOuter => Ok st
      | EmInnerDone [] => Ok st
      | EmInnerDone _ => exact_outer fuel' p c eq s st
      end
  end.

(** The common tail of the four functions below: compute_score::<false> and, with RANGES, one
    insertion (fzf.rs:262-277, 311-330, 366-385, 436-449). *)
Definition finish_match (RANGES : bool) (p : pattern) (c : candidate) (a b : nat)
    (eq : char_eq_fn) (s : scheme) (ranges : mranges) : res (option score * mranges) :=
  let* '(sc, ranges) := compute_score false p c a b eq s ranges in
  let* ranges :=
    if RANGES then
      let* r := to_byte_range c a b in
      mr_insert ranges r
    else Ok ranges in
  Ok (Some sc, ranges).

(** exact_match, fzf.rs:178-278 *)
Definition exact_match (RANGES : bool) (p : pattern) (c : candidate) (eq : char_eq_fn)
    (s : scheme) (ranges : mranges) : res (option score * mranges) :=
  if p_is_empty p then Ok (Some 0, ranges)
  else
    let* st := exact_outer (S (cand_char_len c)) p c eq s
                 (MkEm (-1) 0 0 false (initial_char_class s) 0) in
    if negb (em_matched st) then Ok (None, ranges)
    else finish_match RANGES p c (em_best_start st) (em_best_end st) eq s ranges.

(** ignored_candidate_leading_spaces, fzf.rs:454-465 *)
Definition ignored_candidate_leading_spaces (p : pattern) (c : candidate)
  : res (option nat) :=
  let n := cand_leading_spaces c in
  if (n <? p_leading_spaces p)%nat then Ok None
  else let* d := usub n (p_leading_spaces p) in Ok (Some d).

(** ignored_candidate_trailing_spaces, fzf.rs:469-480 *)
Definition ignored_candidate_trailing_spaces (p : pattern) (c : candidate)
  : res (option nat) :=
  let n := cand_trailing_spaces c in
  if (n <? p_trailing_spaces p)%nat then Ok None
  else let* d := usub n (p_trailing_spaces p) in Ok (Some d).

(** prefix_match, fzf.rs:282-331 *)
Definition prefix_match (RANGES : bool) (p : pattern) (c : candidate) (eq : char_eq_fn)
    (s : scheme) (ranges : mranges) : res (option score * mranges) :=
  if p_is_empty p then Ok (Some 0, ranges)
  else
    let* ign := ignored_candidate_leading_spaces p c in
    match ign with
    | None => Ok (None, ranges)
    | Some ignored =>
        let* chars := cand_chars_from c ignored in
        match zip_eq eq (p_text p) chars with
        | None => Ok (None, ranges)
        | Some (_ :: _, _) => Ok (None, ranges)
        | Some ([], _) =>
            finish_match RANGES p c ignored (ignored + p_char_len p) eq s ranges
        end
    end.

(** suffix_match, fzf.rs:335-386 *)
Definition suffix_match (RANGES : bool) (p : pattern) (c : candidate) (eq : char_eq_fn)
    (s : scheme) (ranges : mranges) : res (option score * mranges) :=
  if p_is_empty p then Ok (Some 0, ranges)
  else
    let* ign := ignored_candidate_trailing_spaces p c in
    match ign with
    | None => Ok (None, ranges)
    | Some ignored =>
        let* up_to := usub (cand_char_len c) ignored in
        let* sl := cand_slice_range c 0 up_to in
        let* chars := cand_chars sl in
        match zip_eq eq (rev (p_text p)) (rev chars) with
        | None => Ok (None, ranges)
        | Some (_ :: _, _) => Ok (None, ranges)
        | Some ([], _) =>
            let* start := usub up_to (p_char_len p) in
            finish_match RANGES p c start up_to eq s ranges
        end
    end.

(** equal_match, fzf.rs:390-450 *)
Definition equal_match (RANGES : bool) (p : pattern) (c : candidate) (eq : char_eq_fn)
    (s : scheme) (ranges : mranges) : res (option score * mranges) :=
  if p_is_empty p then Ok (Some 0, ranges)
  else
    let* ign := ignored_candidate_leading_spaces p c in
    match ign with
    | None => Ok (None, ranges)
    | Some lead =>
        if (lead =? cand_char_len c)%nat then Ok (None, ranges)
        else
          let* ign := ignored_candidate_trailing_spaces p c in
          match ign with
          | None => Ok (None, ranges)
          | Some trail =>
              let* en := usub (cand_char_len c) trail in
              (* Range::len is 0 when end < start *)
              if (en - lead <? p_char_len p)%nat then Ok (None, ranges)
              else
                let* sl := cand_slice_range c lead en in
                let* chars := cand_chars sl in
                match zip_eq eq (p_text p) chars with
                | None => Ok (None, ranges)
                | Some (rp, rc) =>
                    match zip_rest rp rc with
                    | ([], []) => finish_match RANGES p c lead en eq s ranges
                    | _ => Ok (None, ranges)
                    end
                end
          end
    end.

End WithUnicode.

(** The trait Fzf, fzf.rs:8-174: the implementor's type is [St], its required methods are
    parameters. [char_eq] and [scheme] only read the implementor's options, which
    no method changes, so they are taken from the state at every use. *)
Section Trait.
Context {UC : unicode}.
Context {St : Type}.
Variable alloc_chars : St -> str -> res (list char * St).
Variable st_char_eq : St -> pattern -> char_eq_fn.
Variable st_scheme : St -> scheme.
Variable fuzzy : bool -> St -> pattern -> candidate -> mranges
                 -> res (option score * St * mranges).

(** Fzf::score, fzf.rs:27-136 *)
Definition fzf_score (RANGES : bool) (st : St) (p : pattern) (c : candidate)
    (ranges : mranges) : res (option score * St * mranges) :=
  let with_ranges := if p_is_inverse p then false else RANGES in
  let pure (f : bool -> pattern -> candidate -> char_eq_fn -> scheme -> mranges
                -> res (option score * mranges)) :=
    let* '(sc, ranges) := f with_ranges p c (st_char_eq st p) (st_scheme st) ranges in
    Ok (sc, st, ranges) in
  let* '(sc, st, ranges) :=
    match p_match_type p with
    | Fuzzy => fuzzy with_ranges st p c ranges
    | Exact => pure exact_match
    | PrefixExact => pure prefix_match
    | SuffixExact => pure suffix_match
    | EqualExact => pure equal_match
    end in
  match sc, p_is_inverse p with
  | Some x, false => Ok (Some x, st, ranges)
  | None, true => Ok (Some 0, st, ranges)
  | _, _ => Ok (None, st, ranges)
  end.

(** find_map over the patterns of a condition, fzf.rs:166-168 *)
Fixpoint score_condition (RANGES : bool) (st : St) (cond : condition) (c : candidate)
    (ranges : mranges) : res (option score * St * mranges) :=
  match cond with
  | [] => Ok (None, st, ranges)
  | p :: cond' =>
      let* '(sc, st, ranges) := fzf_score RANGES st p c ranges in
      match sc with
      | Some x => Ok (Some x, st, ranges)
      | None => score_condition RANGES st cond' c ranges
      end
  end.

(** The loop over the conditions, fzf.rs:164-170 *)
Fixpoint score_conditions (RANGES : bool) (st : St) (conds : list condition) (c : candidate)
    (total : score) (ranges : mranges) : res (option score * St * mranges) :=
  match conds with
  | [] => Ok (Some total, st, ranges)
  | cond :: conds' =>
      let* '(sc, st, ranges) := score_condition RANGES st cond c ranges in
      match sc with
      | None => Ok (None, st, ranges)
      | Some x => score_conditions RANGES st conds' c (total + x) ranges
      end
  end.

(** Fzf::distance once the candidate is built, fzf.rs:156-173: the result, the new state and the
    user's buffer. *)
Definition fzf_search (RANGES : bool) (st : St) (q : query) (c : candidate)
    (buf : list range) : res (option distance * St * list range) :=
  let ranges := mranges_from buf in
  let* '(sc, st, ranges) :=
    match q with
    | NotExtended p => fuzzy RANGES st p c ranges
    | Extended conds => score_conditions RANGES st conds c 0 ranges
    end in
  Ok (option_map from_score sc, st, mr_ranges ranges).

(** Fzf::distance, fzf.rs:140-173. Returns the result, the new state and the user's buffer. *)
Definition fzf_distance (RANGES : bool) (st : St) (q : query) (cand : str)
    (buf : list range) : res (option distance * St * list range) :=
  if q_is_empty q then Ok (Some (from_score 0), st, buf)
  else
    let* '(c, st) :=
      if str_is_ascii cand then Ok (Ascii (encode cand), st)
      else let* '(chars, st) := alloc_chars st cand in Ok (Unicode chars, st) in
    fzf_search RANGES st q c buf.

End Trait.
