(** FzfParser::parse and parse_not_extended once more, with the number of loop iterations they make, counted as
    in Cost.v: those of the loops in /repo/src and those inside the functions of core, alloc and memchr they call.
    Slicing a str and comparing a word with "|" take a bounded number of operations. Dropping the
    counters gives the functions of Parser.v back ([parse_tm_same] in ParseCostProofs.v). *)
From Verif Require Import Prelude Chars Utils Candidate Query Parser Cost.
Local Open Scope N_scope.

(** Words::alloc, parser.rs:325-330. Decoding a char looks at no more than four bytes. *)
Fixpoint words_alloc_tm (buf : list char) (allocated : nat) (s : list char)
  : timed (list char * nat) :=
  match s with
  | [] => lift (Ok (buf, allocated))
  | c :: s' =>
      spend 1
        (let! buf := lift (set_idx buf allocated c) in
         words_alloc_tm buf (allocated + 1) s')
  end.

(** strip_leading_spaces and leading_spaces, utils.rs:48-50 and 64-66 *)
Definition strip_leading_spaces_tm (s : list N) : timed (list N) :=
  spend (while_steps (fun b => b =? SPACE) s) (lift (strip_leading_spaces s)).

(** memchr::memchr, parser.rs:355 *)
Definition memchr_tm (n : N) (h : list N) : timed (option nat) :=
  spend (search_steps (fun b => b =? n) h) (lift (Ok (memchr n h))).

(** Words::new, parser.rs:334-336 *)
Definition words_new_tm (buf : list char) (s : list N) : timed words :=
  let! s := strip_leading_spaces_tm s in
  lift (Ok (MkWords buf 0 s)).

(** The loop of Words::next, parser.rs:354-385 *)
Fixpoint words_next_loop_tm (fuel : nat) (buf : list char) (allocated : nat)
    (s : list N) (word_byte_end : nat) : timed (list char * nat * nat) :=
  match fuel with
  | O => lift OutOfFuel
  | S fuel' =>
      spend 1
        (let! found := memchr_tm SPACE s in
         match found with
         | Some O => lift (Ok (buf, allocated, word_byte_end))
         | Some (S offset_minus_1 as offset) =>
             let! prev := lift (idx s offset_minus_1) in
             if prev =? BACKSLASH then
               let! upto := lift (str_to s offset_minus_1) in
               let! '(buf, allocated) := words_alloc_tm buf allocated (decode upto) in
               let! '(buf, allocated) := words_alloc_tm buf allocated [SPACE] in
               let! s := lift (str_from s (offset + 1)%nat) in
               words_next_loop_tm fuel' buf allocated s (word_byte_end + (offset + 1))
             else
               let! w := lift (str_to s offset) in
               let! '(buf, allocated) := words_alloc_tm buf allocated (decode w) in
               lift (Ok (buf, allocated, (word_byte_end + length w)%nat))
         | None =>
             let! '(buf, allocated) := words_alloc_tm buf allocated (decode s) in
             lift (Ok (buf, allocated, (word_byte_end + length s)%nat))
         end)
  end.

(** Words::next, parser.rs:343-395 *)
Definition words_next_tm (w : words) : timed (option (list char) * words) :=
  match w_s w with
  | [] => lift (Ok (None, w))
  | _ =>
      let prev_allocated := w_allocated w in
      let! '(buf, allocated, word_byte_end) :=
        words_next_loop_tm (S (length (w_s w))) (w_buf w) (w_allocated w) (w_s w) 0 in
      let! rest := lift (str_from (w_s w) word_byte_end) in
      let! s := strip_leading_spaces_tm rest in
      let! word := lift (slice buf prev_allocated allocated) in
      lift (Ok (Some word, MkWords buf allocated s))
  end.

Section WithUnicode.
Context {UC : unicode}.

(** [any] and the two [take_while]s over the text, query.rs:203-215 and 257-271 *)
Definition mk_pattern_steps (text : list char) : nat :=
  search_steps is_uppercase text
  + while_steps (fun c => c =? SPACE) text
  + while_steps (fun c => c =? SPACE) (rev text).

(** Pattern::parse, query.rs:220-274. There are no loops before the last lines, and they see the text the
    pattern is made of. *)
Definition pattern_parse_tm (text : list char) : timed (option pattern) :=
  let! parsed := lift (pattern_parse text) in
  match parsed with
  | None => lift (Ok None)
  | Some pat => spend (mk_pattern_steps (p_text pat)) (lift (Ok (Some pat)))
  end.

(** The loop of Patterns::next, parser.rs:242-263 *)
Fixpoint patterns_next_loop_tm (fuel : nat) (p : patterns) (looking_for_or : bool)
  : timed patterns :=
  match fuel with
  | O => lift OutOfFuel
  | S fuel' =>
      spend 1
        (let! '(word, w) := words_next_tm (pt_words p) in
         let p := MkPatterns (pt_buf p) (pt_allocated p) w (pt_next p) in
         match word with
         | None => lift (Ok p)
         | Some word =>
             if negb (is_or_separator word) then
               let! parsed := pattern_parse_tm word in
               match parsed with
               | None => patterns_next_loop_tm fuel' p looking_for_or
               | Some pat =>
                   if looking_for_or then
                     lift (Ok (MkPatterns (pt_buf p) (pt_allocated p) (pt_words p) (Some pat)))
                   else
                     let! p := lift (patterns_alloc p pat) in
                     patterns_next_loop_tm fuel' p true
               end
             else patterns_next_loop_tm fuel' p false
         end)
  end.

(** Patterns::next, parser.rs:227-276 *)
Definition patterns_next_tm (p : patterns) : timed (option (list pattern) * patterns) :=
  let prev_allocated := pt_allocated p in
  let! '(p, looking_for_or) :=
    match pt_next p with
    | Some first_pattern =>
        let! p :=
          lift (patterns_alloc (MkPatterns (pt_buf p) (pt_allocated p) (pt_words p) None)
                  first_pattern) in
        lift (Ok (p, true))
    | None => lift (Ok (p, false))
    end in
  let! p := patterns_next_loop_tm (S (length (w_s (pt_words p)))) p looking_for_or in
  if (pt_allocated p =? prev_allocated)%nat then lift (Ok (None, p))
  else
    let! pats := lift (slice (pt_buf p) prev_allocated (pt_allocated p)) in
    lift (Ok (Some pats, p)).

(** The loop of FzfParser::parse, parser.rs:120-133 *)
Fixpoint parse_loop_tm (fuel : nat) (p : patterns) (conditions : list condition)
    (num_conditions : nat) : timed (patterns * list condition * nat) :=
  match fuel with
  | O => lift OutOfFuel
  | S fuel' =>
      spend 1
        (let! '(c, p) := patterns_next_tm p in
         match c with
         | None => lift (Ok (p, conditions, num_conditions))
         | Some c =>
             let! conditions := lift (set_idx conditions num_conditions c) in
             parse_loop_tm fuel' p conditions (num_conditions + 1)
         end)
  end.

(** FzfParser::parse, parser.rs:87-136 *)
Definition parse_tm (ps : parser) (q : str) : timed (query * parser) :=
  let bytes := encode q in
  let max_chars := length bytes in
  let chars := if (length (ps_chars ps) <? max_chars)%nat
               then grow (ps_chars ps) max_chars 0 else ps_chars ps in
  let max_conditions := (length bytes / 2 + 1)%nat in
  let conditions := if (length (ps_conditions ps) <? max_conditions)%nat
                    then grow (ps_conditions ps) max_conditions []
                    else ps_conditions ps in
  let pats := if (length (ps_patterns ps) <? max_conditions)%nat
              then grow (ps_patterns ps) max_conditions default_pattern
              else ps_patterns ps in
  spend (resize_steps (ps_chars ps) max_chars
         + resize_steps (ps_conditions ps) max_conditions
         + resize_steps (ps_patterns ps) max_conditions)
    (let! p :=
       (let! w := words_new_tm chars bytes in
        lift (Ok (MkPatterns pats 0 w None))) in
     let! '(p, conditions, num_conditions) :=
       parse_loop_tm (S (S (length bytes))) p conditions 0 in
     let! cs := lift (slice_to conditions num_conditions) in
     let! query := lift (new_extended cs) in
     lift (Ok (query, MkParser (w_buf (pt_words p)) (pt_buf p) conditions))).

(** FzfParser::parse_not_extended, parser.rs:172-181, and Pattern::raw, query.rs:202-216 *)
Definition parse_not_extended_tm (ps : parser) (q : str) : timed (query * parser) :=
  let! '(chars, char_len) := words_alloc_tm (ps_chars ps) 0 q in
  let! text := lift (slice_to chars char_len) in
  spend (mk_pattern_steps text)
    (lift (Ok (new_not_extended text, MkParser chars (ps_patterns ps) (ps_conditions ps)))).

(** Iterations made by one call. parser.rs:87-136. *)
Definition parse_steps (ps : parser) (q : str) : nat := snd (parse_tm ps q).
(** The same for parse_not_extended, parser.rs:172-181 *)
Definition parse_not_extended_steps (ps : parser) (q : str) : nat := snd (parse_not_extended_tm ps q).

End WithUnicode.
