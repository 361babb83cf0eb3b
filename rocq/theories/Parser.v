(** Model of /repo/src/metrics/fzf/parser.rs. *)
From Verif Require Import Prelude Chars Utils Candidate Query.
Local Open Scope N_scope.

(** FzfParser, parser.rs:14-23 *)
Record parser := MkParser {
  ps_chars : list char;
  ps_patterns : list pattern;
  ps_conditions : list condition
}.

(** Default for FzfParser and FzfParser::new, parser.rs:25-48 *)
Definition parser_new : parser :=
  MkParser (repeat 0 64) (repeat default_pattern 64) (repeat [] 64).

(** Words, parser.rs:311-320. [w_s] are the bytes of the remaining str. *)
Record words := MkWords { w_buf : list char; w_allocated : nat; w_s : list N }.

(** Words::alloc, parser.rs:325-330 *)
Fixpoint words_alloc (buf : list char) (allocated : nat) (s : list char)
  : res (list char * nat) :=
  match s with
  | [] => Ok (buf, allocated)
  | c :: s' =>
      let* buf := set_idx buf allocated c in
      words_alloc buf (allocated + 1) s'
  end.

(** Words::new, parser.rs:334-336 *)
Definition words_new (buf : list char) (s : list N) : res words :=
  let* s := strip_leading_spaces s in
  Ok (MkWords buf 0 s).

(** The loop of Words::next, parser.rs:354-385. Returns the buffer, the number of chars
    allocated and word_byte_end. Each iteration that continues consumes bytes,
    so [length s] iterations suffice. *)
Fixpoint words_next_loop (fuel : nat) (buf : list char) (allocated : nat)
    (s : list N) (word_byte_end : nat) : res (list char * nat * nat) :=
  match fuel with
  | O => OutOfFuel
  | S fuel' =>
      match memchr SPACE s with
      | Some O => Ok (buf, allocated, word_byte_end)
      | Some (S offset_minus_1 as offset) =>
          let* prev := idx s offset_minus_1 in
          if prev =? BACKSLASH then
            (* lines 358-370 *)
            let* upto := str_to s offset_minus_1 in
            let* '(buf, allocated) := words_alloc buf allocated (decode upto) in
            let* '(buf, allocated) := words_alloc buf allocated [SPACE] in
            let* s := str_from s (offset + 1)%nat in
            words_next_loop fuel' buf allocated s (word_byte_end + (offset + 1))
          else
            (* lines 372-377 *)
            let* w := str_to s offset in
            let* '(buf, allocated) := words_alloc buf allocated (decode w) in
            Ok (buf, allocated, (word_byte_end + length w)%nat)
      | None =>
          (* lines 379-383 *)
          let* '(buf, allocated) := words_alloc buf allocated (decode s) in
          Ok (buf, allocated, (word_byte_end + length s)%nat)
      end
  end.

(** Words::next, parser.rs:343-395 *)
Definition words_next (w : words) : res (option (list char) * words) :=
  match w_s w with
  | [] => Ok (None, w)
  | _ =>
      let prev_allocated := w_allocated w in
      let* '(buf, allocated, word_byte_end) :=
        words_next_loop (S (length (w_s w))) (w_buf w) (w_allocated w) (w_s w) 0 in
      let* rest := str_from (w_s w) word_byte_end in
      let* s := strip_leading_spaces rest in
      let* word := slice buf prev_allocated allocated in
      Ok (Some word, MkWords buf allocated s)
  end.

(** Patterns, parser.rs:187-199 *)
Record patterns := MkPatterns {
  pt_buf : list pattern;
  pt_allocated : nat;
  pt_words : words;
  pt_next : option pattern
}.

(** Patterns::alloc, parser.rs:203-206 *)
Definition patterns_alloc (p : patterns) (pat : pattern) : res patterns :=
  let* buf := set_idx (pt_buf p) (pt_allocated p) pat in
  Ok (MkPatterns buf (pt_allocated p + 1) (pt_words p) (pt_next p)).

(** Patterns::new, parser.rs:209-220 *)
Definition patterns_new (patterns_buf : list pattern) (char_buf : list char) (s : list N)
  : res patterns :=
  let* w := words_new char_buf s in
  Ok (MkPatterns patterns_buf 0 w None).

(** OR_BLOCK_SEPARATOR, parser.rs:184, and the comparison on line 247 *)
Definition is_or_separator (word : list char) : bool :=
  match word with
  | [c] => c =? 124 (* '|' *)
  | _ => false
  end.

Section WithUnicode.
Context {UC : unicode}.

(** The loop of Patterns::next, parser.rs:242-263. Each iteration consumes a word. *)
Fixpoint patterns_next_loop (fuel : nat) (p : patterns) (looking_for_or : bool)
  : res patterns :=
  match fuel with
  | O => OutOfFuel
  | S fuel' =>
      let* '(word, w) := words_next (pt_words p) in
      let p := MkPatterns (pt_buf p) (pt_allocated p) w (pt_next p) in
      match word with
      | None => Ok p
      | Some word =>
          if negb (is_or_separator word) then
            let* parsed := pattern_parse word in
            match parsed with
            | None => patterns_next_loop fuel' p looking_for_or
            | Some pat =>
                if looking_for_or then
                  Ok (MkPatterns (pt_buf p) (pt_allocated p) (pt_words p) (Some pat))
                else
                  let* p := patterns_alloc p pat in
                  patterns_next_loop fuel' p true
            end
          else patterns_next_loop fuel' p false
      end
  end.

(** Patterns::next, parser.rs:227-276 *)
Definition patterns_next (p : patterns) : res (option (list pattern) * patterns) :=
  let prev_allocated := pt_allocated p in
  let* '(p, looking_for_or) :=
    match pt_next p with
    | Some first_pattern =>
        let* p :=
          patterns_alloc (MkPatterns (pt_buf p) (pt_allocated p) (pt_words p) None)
            first_pattern in
        Ok (p, true)
    | None => Ok (p, false)
    end in
  let* p := patterns_next_loop (S (length (w_s (pt_words p)))) p looking_for_or in
  if (pt_allocated p =? prev_allocated)%nat then Ok (None, p)
  else
    let* pats := slice (pt_buf p) prev_allocated (pt_allocated p) in
    Ok (Some pats, p).

(** The loop of FzfParser::parse, parser.rs:120-133 *)
Fixpoint parse_loop (fuel : nat) (p : patterns) (conditions : list condition)
    (num_conditions : nat) : res (patterns * list condition * nat) :=
  match fuel with
  | O => OutOfFuel
  | S fuel' =>
      let* '(c, p) := patterns_next p in
      match c with
      | None => Ok (p, conditions, num_conditions)
      | Some c =>
          let* conditions := set_idx conditions num_conditions c in
          parse_loop fuel' p conditions (num_conditions + 1)
      end
  end.

(** FzfParser::parse, parser.rs:87-136. The query borrows the parser in Rust; here its content
    is returned next to the new state of the parser. *)
Definition parse (ps : parser) (q : str) : res (query * parser) :=
  let bytes := encode q in
  let max_chars := length bytes in
  let chars := if (length (ps_chars ps) <? max_chars)%nat
               then grow (ps_chars ps) max_chars 0 else ps_chars ps in
  let max_conditions := (length bytes / 2 + 1)%nat in
  let conditions := if (length (ps_conditions ps) <? max_conditions)%nat
                    then grow (ps_conditions ps) max_conditions []
                    else ps_conditions ps in
  let pats := if (length (ps_patterns ps) <? max_conditions)%nat
              then grow (ps_patterns ps) max_conditions default_pattern
              else ps_patterns ps in
  let* p := patterns_new pats chars bytes in
  let* '(p, conditions, num_conditions) :=
    parse_loop (S (S (length bytes))) p conditions 0 in
  let* cs := slice_to conditions num_conditions in
  let* query := new_extended cs in
  Ok (query, MkParser (w_buf (pt_words p)) (pt_buf p) conditions).

(** FzfParser::parse_not_extended, parser.rs:172-181 *)
Definition parse_not_extended (ps : parser) (q : str) : res (query * parser) :=
  let* '(chars, char_len) := words_alloc (ps_chars ps) 0 q in
  let* text := slice_to chars char_len in
  Ok (new_not_extended text, MkParser chars (ps_patterns ps) (ps_conditions ps)).

(** The buffer as the loop of FzfParser::parse_not_extended, parser.rs:175-178, leaves it when indexing
    (parser.rs:176) panics: the characters written before the panic stay. Nothing undoes them,
    since FzfParser has no Drop of its own and holds no guard. *)
Fixpoint words_alloc_left (buf : list char) (allocated : nat) (s : list char) : list char :=
  match s with
  | [] => buf
  | c :: s' =>
      match set_idx buf allocated c with
      | Ok buf => words_alloc_left buf (allocated + 1) s'
      | _ => buf
      end
  end.

(** The parser after a call of FzfParser::parse_not_extended, parser.rs:172-181, which panicked and
    whose panic the caller caught (std::panic::catch_unwind) *)
Definition parse_not_extended_caught (ps : parser) (q : str) : parser :=
  MkParser (words_alloc_left (ps_chars ps) 0 q) (ps_patterns ps) (ps_conditions ps).

End WithUnicode.
