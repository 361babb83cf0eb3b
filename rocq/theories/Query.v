(** Model of /repo/src/metrics/fzf/query.rs. *)
From Verif Require Import Prelude Chars.
Local Open Scope N_scope.

(** MatchType, query.rs:295-311 *)
Inductive match_type := Fuzzy | Exact | PrefixExact | SuffixExact | EqualExact.

(** derived PartialEq on MatchType, query.rs:294 *)
Definition match_type_eqb (a b : match_type) : bool :=
  match a, b with
  | Fuzzy, Fuzzy | Exact, Exact | PrefixExact, PrefixExact
  | SuffixExact, SuffixExact | EqualExact, EqualExact => true
  | _, _ => false
  end.

(** Pattern, query.rs:136-154. [text] is a slice of the parser's char buffer in Rust; here it is
    the content of that slice. Memory.v has the references. *)
Record pattern := MkPattern {
  p_text : list char;
  p_has_uppercase : bool;
  p_match_type : match_type;
  p_is_inverse : bool;
  p_leading_spaces : nat;
  p_trailing_spaces : nat
}.

(** Default for Pattern, query.rs:134 *)
Definition default_pattern : pattern := MkPattern [] false Fuzzy false 0 0.

(** Pattern::char_len, query.rs:166-168 *)
Definition p_char_len (p : pattern) : nat := length (p_text p).

(** Pattern::char, query.rs:172-174 *)
Definition p_char (p : pattern) (i : nat) : res char := idx (p_text p) i.

(** Pattern::is_empty, query.rs:184-186 *)
Definition p_is_empty (p : pattern) : bool :=
  match p_text p with [] => true | _ => false end.

(** Condition, query.rs:81-84: its or_patterns. *)
Notation condition := (list pattern).

(** SearchMode and FzfQuery, query.rs:8-20 *)
Inductive query :=
| Extended (conditions : list condition)
| NotExtended (p : pattern).

(** FzfQuery::is_empty, query.rs:41-46 *)
Definition q_is_empty (q : query) : bool :=
  match q with
  | Extended cs => match cs with [] => true | _ => false end
  | NotExtended p => p_is_empty p
  end.

(** FzfQuery::new_extended, query.rs:50-70 *)
Definition new_extended (conditions : list condition) : res query :=
  match conditions with
  | [c] =>
      match c with
      | [] => Panic (* expect, lines 56-58 *)
      | first :: rest =>
          match rest, p_match_type first with
          | [], Fuzzy => Ok (NotExtended first)
          | _, _ => Ok (Extended conditions)
          end
      end
  | _ => Ok (Extended conditions)
  end.

(** starts_with, query.rs:289-291 *)
Definition starts_with (haystack : list char) (needle : char) : bool :=
  match haystack with
  | c :: _ => c =? needle
  | [] => false
  end.

(** ends_with, query.rs:284-286 *)
Definition ends_with (haystack : list char) (needle : char) : bool :=
  match rev haystack with
  | c :: _ => c =? needle
  | [] => false
  end.

Section WithUnicode.
Context {UC : unicode}.

(** The field values computed from the text in Pattern::raw (query.rs:203-215) and at the end
    of Pattern::parse (query.rs:257-271). *)
Definition mk_pattern (text : list char) (mt : match_type) (inv : bool) : pattern :=
  MkPattern text
    (existsb is_uppercase text)
    mt inv
    (count_while (fun c => c =? SPACE) text)
    (count_while (fun c => c =? SPACE) (rev text)).

(** Pattern::raw, query.rs:202-216 *)
Definition pattern_raw (text : list char) : pattern := mk_pattern text Fuzzy false.

(** FzfQuery::new_not_extended, query.rs:74-76 *)
Definition new_not_extended (chars : list char) : query := NotExtended (pattern_raw chars).

(** Pattern::parse, query.rs:220-274 *)
Definition pattern_parse (text0 : list char) : res (option pattern) :=
  let* _ := assert_ (negb (match text0 with [] => true | _ => false end)) in
  (* lines 227-231 *)
  let* '(is_inverse, mt, text) :=
    if starts_with text0 33 (* '!' *)
    then let* t := slice_from text0 1 in Ok (true, Exact, t)
    else Ok (false, Fuzzy, text0) in
  (* lines 233-236 *)
  let* '(mt, text) :=
    if ends_with text 36 (* '$' *) && (1 <? length text)%nat
    then
      let* n := usub (length text) 1 in
      let* t := slice_to text n in
      Ok (SuffixExact, t)
    else Ok (mt, text) in
  (* lines 238-251 *)
  let* '(mt, text) :=
    if starts_with text 39 (* ''' *)
    then
      let* t := slice_from text 1 in
      Ok (if negb is_inverse then Exact else Fuzzy, t)
    else if starts_with text 94 (* '^' *)
    then
      let* t := slice_from text 1 in
      Ok (if match_type_eqb mt SuffixExact then EqualExact else PrefixExact, t)
    else Ok (mt, text) in
  (* lines 253-273 *)
  match text with
  | [] => Ok None
  | _ => Ok (Some (mk_pattern text mt is_inverse))
  end.

End WithUnicode.
