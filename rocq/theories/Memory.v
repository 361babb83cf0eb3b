(** The parser once more, with its memory: /repo/src/metrics/fzf/parser.rs and query.rs as in Parser.v and
    Query.v, except that a slice is a reference into a buffer which may have been
    overwritten or freed by the time it is read. The casts of the unsafe blocks (parser.rs:114,
    126, 273 and 392) change the lifetime of a reference and are the identity here.

    A reference is an address with an offset and a length. Addresses are never used
    twice, so that a reference into a freed buffer stays invalid. Reading through an invalid reference
    is [Panic]. That the references respect the aliasing rules of Rust is not modelled. *)
From Verif Require Import Prelude Chars Utils Candidate Query Parser.

(** The buffers of the Vecs with elements of one type, by address; [None] is a freed one *)
Notation heap A := (list (option (list A))).

(** &'a [A]. E.g. query.rs:138. *)
Record sref := MkRef { r_addr : nat; r_start : nat; r_len : nat }.

(** The elements a reference points to. A slice of length 0 can be read whatever its address. E.g. query.rs:173, 177-199. *)
Definition deref {A} (h : heap A) (r : sref) : res (list A) :=
  if r_len r =? 0 then Ok []
  else
    match nth_error h (r_addr r) with
    | Some (Some l) => slice l (r_start r) (r_start r + r_len r)
    | _ => Panic
    end.

(** The buffer at an address, through the Vec or a mutable reference to all of it. parser.rs:14-23. *)
Definition buffer {A} (h : heap A) (a : nat) : res (list A) :=
  match nth_error h a with
  | Some (Some l) => Ok l
  | _ => Panic
  end.

(** [v[i] = x]. parser.rs:130, 176, 204, 327. *)
Definition write {A} (h : heap A) (a i : nat) (x : A) : res (heap A) :=
  let* l := buffer h a in
  let* l := set_idx l i x in
  Ok (upd h a (Some l)).

(** [&v[i..j]]. parser.rs:135, 180, 269, 389. *)
Definition borrow {A} (h : heap A) (a i j : nat) : res sref :=
  let* l := buffer h a in
  let* _ := slice l i j in
  Ok (MkRef a i (j - i)).

(** [Vec::resize(n, d)] if the Vec is shorter than [n], parser.rs:90-92, 102-104 and 106-108. The flag tells
    whether the allocator moves the buffer. *)
Definition grow_vec {A} (mv : bool) (h : heap A) (a n : nat) (d : A) : res (heap A * nat) :=
  let* l := buffer h a in
  if length l <? n then
    if mv then Ok (upd h a None ++ [Some (grow l n d)], length h)
    else Ok (upd h a (Some (grow l n d)), a)
  else Ok (h, a).

(** [&r[n..]]. query.rs:230, 242, 250. *)
Definition ref_from (r : sref) (n : nat) : res sref :=
  if n <=? r_len r then Ok (MkRef (r_addr r) (r_start r + n) (r_len r - n)) else Panic.

(** [&r[..n]]. query.rs:235. *)
Definition ref_to (r : sref) (n : nat) : res sref :=
  if n <=? r_len r then Ok (MkRef (r_addr r) (r_start r) n) else Panic.

(** Pattern, query.rs:136-154 *)
Record pattern_m := MkPatternM {
  pm_text : sref;
  pm_has_uppercase : bool;
  pm_match_type : match_type;
  pm_is_inverse : bool;
  pm_leading_spaces : nat;
  pm_trailing_spaces : nat
}.

(** Default for &[A]. query.rs:134-138. *)
Definition empty_ref : sref := MkRef 0 0 0.

(** Default for Pattern, query.rs:134 *)
Definition default_pattern_m : pattern_m := MkPatternM empty_ref false Fuzzy false 0 0.

(** SearchMode and FzfQuery, query.rs:8-20. A Condition (query.rs:81-84) is a reference to
    its patterns. *)
Inductive query_m :=
| ExtendedM (conditions : sref)
| NotExtendedM (p : pattern_m).

(** The memory. The buffers of the Vecs of parser.rs:14-23. *)
Record memory := MkMem {
  m_chars : heap char;
  m_patterns : heap pattern_m;
  m_conditions : heap sref
}.

(** FzfParser, parser.rs:14-23: the addresses of its buffers *)
Record parser_m := MkParserM { pa_chars : nat; pa_patterns : nat; pa_conditions : nat }.

(** What is found when a query is read: its texts through its references. query.rs:136-199. *)
Definition read_pattern_m (mem : memory) (p : pattern_m) : res pattern :=
  let* t := deref (m_chars mem) (pm_text p) in
  Ok (MkPattern t (pm_has_uppercase p) (pm_match_type p) (pm_is_inverse p)
        (pm_leading_spaces p) (pm_trailing_spaces p)).

(** Reading several things, one after the other. As fzf.rs:164-170 does. *)
Fixpoint read_all {A B} (f : A -> res B) (l : list A) : res (list B) :=
  match l with
  | [] => Ok []
  | x :: l' => let* y := f x in let* ys := read_all f l' in Ok (y :: ys)
  end.

(** The same for a condition, query.rs:81-84 *)
Definition read_condition_m (mem : memory) (c : sref) : res condition :=
  let* ps := deref (m_patterns mem) c in
  read_all (read_pattern_m mem) ps.

(** The same for a query, query.rs:8-20 *)
Definition read_query_m (mem : memory) (q : query_m) : res query :=
  match q with
  | ExtendedM r =>
      let* cs := deref (m_conditions mem) r in
      let* cs := read_all (read_condition_m mem) cs in
      Ok (Extended cs)
  | NotExtendedM p => let* p := read_pattern_m mem p in Ok (NotExtended p)
  end.

(** Default for FzfParser and FzfParser::new, parser.rs:25-48 *)
Definition parser_new_m (mem : memory) : parser_m * memory :=
  (MkParserM (length (m_chars mem)) (length (m_patterns mem)) (length (m_conditions mem)),
   MkMem (m_chars mem ++ [Some (repeat 0%N 64)])
     (m_patterns mem ++ [Some (repeat default_pattern_m 64)])
     (m_conditions mem ++ [Some (repeat empty_ref 64)])).

(** The derived Clone for FzfParser, parser.rs:13: the references in the new buffers are those
    in the old ones *)
Definition parser_clone_m (mem : memory) (p : parser_m) : res (parser_m * memory) :=
  let* cs := buffer (m_chars mem) (pa_chars p) in
  let* ps := buffer (m_patterns mem) (pa_patterns p) in
  let* ds := buffer (m_conditions mem) (pa_conditions p) in
  Ok (MkParserM (length (m_chars mem)) (length (m_patterns mem)) (length (m_conditions mem)),
      MkMem (m_chars mem ++ [Some cs]) (m_patterns mem ++ [Some ps]) (m_conditions mem ++ [Some ds])).

(** drop of an FzfParser. parser.rs:14 (no Drop of its own: the Vecs are freed). *)
Definition parser_drop_m (mem : memory) (p : parser_m) : memory :=
  MkMem (upd (m_chars mem) (pa_chars p) None) (upd (m_patterns mem) (pa_patterns p) None)
    (upd (m_conditions mem) (pa_conditions p) None).

(** Words, parser.rs:311-320: the address of [buf], [allocated] and the bytes of [s] *)
Record words_m := MkWordsM { wm_buf : nat; wm_allocated : nat; wm_s : list N }.

(** Words::alloc, parser.rs:325-330 *)
Fixpoint words_alloc_m (h : heap char) (a allocated : nat) (s : list char)
  : res (heap char * nat) :=
  match s with
  | [] => Ok (h, allocated)
  | c :: s' =>
      let* h := write h a allocated c in
      words_alloc_m h a (allocated + 1) s'
  end.

(** Words::new, parser.rs:334-336 *)
Definition words_new_m (buf : nat) (s : list N) : res words_m :=
  let* s := strip_leading_spaces s in
  Ok (MkWordsM buf 0 s).

(** The loop of Words::next, parser.rs:354-385 *)
Fixpoint words_next_loop_m (fuel : nat) (h : heap char) (a allocated : nat)
    (s : list N) (word_byte_end : nat) : res (heap char * nat * nat) :=
  match fuel with
  | O => OutOfFuel
  | S fuel' =>
      match memchr SPACE s with
      | Some O => Ok (h, allocated, word_byte_end)
      | Some (S offset_minus_1 as offset) =>
          let* prev := idx s offset_minus_1 in
          if (prev =? BACKSLASH)%N then
            let* upto := str_to s offset_minus_1 in
            let* '(h, allocated) := words_alloc_m h a allocated (decode upto) in
            let* '(h, allocated) := words_alloc_m h a allocated [SPACE] in
            let* s := str_from s (offset + 1) in
            words_next_loop_m fuel' h a allocated s (word_byte_end + (offset + 1))
          else
            let* w := str_to s offset in
            let* '(h, allocated) := words_alloc_m h a allocated (decode w) in
            Ok (h, allocated, word_byte_end + length w)
      | None =>
          let* '(h, allocated) := words_alloc_m h a allocated (decode s) in
          Ok (h, allocated, word_byte_end + length s)
      end
  end.

(** Words::next, parser.rs:343-395 *)
Definition words_next_m (h : heap char) (w : words_m)
  : res (option sref * heap char * words_m) :=
  match wm_s w with
  | [] => Ok (None, h, w)
  | _ =>
      let prev_allocated := wm_allocated w in
      let* '(h, allocated, word_byte_end) :=
        words_next_loop_m (S (length (wm_s w))) h (wm_buf w) (wm_allocated w) (wm_s w) 0 in
      let* rest := str_from (wm_s w) word_byte_end in
      let* s := strip_leading_spaces rest in
      let* word := borrow h (wm_buf w) prev_allocated allocated in
      Ok (Some word, h, MkWordsM (wm_buf w) allocated s)
  end.

(** Patterns, parser.rs:187-199: the address of [buf], [allocated], [words] and [next] *)
Record patterns_m := MkPatternsM {
  ptm_buf : nat;
  ptm_allocated : nat;
  ptm_words : words_m;
  ptm_next : option pattern_m
}.

(** Patterns::alloc, parser.rs:203-206 *)
Definition patterns_alloc_m (mem : memory) (p : patterns_m) (pat : pattern_m)
  : res (memory * patterns_m) :=
  let* h := write (m_patterns mem) (ptm_buf p) (ptm_allocated p) pat in
  Ok (MkMem (m_chars mem) h (m_conditions mem),
      MkPatternsM (ptm_buf p) (ptm_allocated p + 1) (ptm_words p) (ptm_next p)).

(** Patterns::new, parser.rs:209-220 *)
Definition patterns_new_m (patterns_buf char_buf : nat) (s : list N) : res patterns_m :=
  let* w := words_new_m char_buf s in
  Ok (MkPatternsM patterns_buf 0 w None).

Section WithUnicode.
Context {UC : unicode}.

(** The field values computed from the text in Pattern::raw (query.rs:203-215) and at the end
    of Pattern::parse (query.rs:257-271) *)
Definition mk_pattern_m (h : heap char) (text : sref) (mt : match_type) (inv : bool) : res pattern_m :=
  let* t := deref h text in
  Ok (MkPatternM text
        (existsb is_uppercase t) mt inv
        (count_while (fun c => (c =? SPACE)%N) t)
        (count_while (fun c => (c =? SPACE)%N) (rev t))).

(** FzfQuery::new_not_extended, query.rs:74-76, with Pattern::raw, query.rs:202-216 *)
Definition new_not_extended_m (h : heap char) (text : sref) : res query_m :=
  let* p := mk_pattern_m h text Fuzzy false in
  Ok (NotExtendedM p).

(** FzfQuery::new_extended, query.rs:50-70 *)
Definition new_extended_m (mem : memory) (conditions : sref) : res query_m :=
  let* cs := deref (m_conditions mem) conditions in
  match cs with
  | [c] =>
      let* ps := deref (m_patterns mem) c in
      match ps with
      | [] => Panic (* expect, lines 56-58 *)
      | first :: rest =>
          match rest, pm_match_type first with
          | [], Fuzzy => Ok (NotExtendedM first)
          | _, _ => Ok (ExtendedM conditions)
          end
      end
  | _ => Ok (ExtendedM conditions)
  end.

(** Pattern::parse, query.rs:220-274; every test reads the text anew *)
Definition pattern_parse_m (h : heap char) (text0 : sref) : res (option pattern_m) :=
  let* _ := assert_ (negb (r_len text0 =? 0)) in
  (* lines 227-231 *)
  let* t := deref h text0 in
  let* '(is_inverse, mt, text) :=
    if starts_with t 33 (* '!' *)
    then let* r := ref_from text0 1 in Ok (true, Exact, r)
    else Ok (false, Fuzzy, text0) in
  (* lines 233-236 *)
  let* t := deref h text in
  let* '(mt, text) :=
    if ends_with t 36 (* '$' *) && (1 <? r_len text)
    then
      let* n := usub (r_len text) 1 in
      let* r := ref_to text n in
      Ok (SuffixExact, r)
    else Ok (mt, text) in
  (* lines 238-251 *)
  let* t := deref h text in
  let* '(mt, text) :=
    if starts_with t 39 (* ''' *)
    then
      let* r := ref_from text 1 in
      Ok (if negb is_inverse then Exact else Fuzzy, r)
    else if starts_with t 94 (* '^' *)
    then
      let* r := ref_from text 1 in
      Ok (if match_type_eqb mt SuffixExact then EqualExact else PrefixExact, r)
    else Ok (mt, text) in
  (* lines 253-273 *)
  if r_len text =? 0 then Ok None
  else let* p := mk_pattern_m h text mt is_inverse in Ok (Some p).

(** The loop of Patterns::next, parser.rs:242-263 *)
Fixpoint patterns_next_loop_m (fuel : nat) (mem : memory) (p : patterns_m) (looking_for_or : bool)
  : res (memory * patterns_m) :=
  match fuel with
  | O => OutOfFuel
  | S fuel' =>
      let* '(word, h, w) := words_next_m (m_chars mem) (ptm_words p) in
      let mem := MkMem h (m_patterns mem) (m_conditions mem) in
      let p := MkPatternsM (ptm_buf p) (ptm_allocated p) w (ptm_next p) in
      match word with
      | None => Ok (mem, p)
      | Some word =>
          let* t := deref h word in
          if negb (is_or_separator t) then
            let* parsed := pattern_parse_m h word in
            match parsed with
            | None => patterns_next_loop_m fuel' mem p looking_for_or
            | Some pat =>
                if looking_for_or then
                  Ok (mem, MkPatternsM (ptm_buf p) (ptm_allocated p) (ptm_words p) (Some pat))
                else
                  let* '(mem, p) := patterns_alloc_m mem p pat in
                  patterns_next_loop_m fuel' mem p true
            end
          else patterns_next_loop_m fuel' mem p false
      end
  end.

(** Patterns::next, parser.rs:227-276 *)
Definition patterns_next_m (mem : memory) (p : patterns_m) : res (option sref * memory * patterns_m) :=
  let prev_allocated := ptm_allocated p in
  let* '(mem, p, looking_for_or) :=
    match ptm_next p with
    | Some first_pattern =>
        let* '(mem, p) :=
          patterns_alloc_m mem (MkPatternsM (ptm_buf p) (ptm_allocated p) (ptm_words p) None)
            first_pattern in
        Ok (mem, p, true)
    | None => Ok (mem, p, false)
    end in
  let* '(mem, p) := patterns_next_loop_m (S (length (wm_s (ptm_words p)))) mem p looking_for_or in
  if ptm_allocated p =? prev_allocated then Ok (None, mem, p)
  else
    let* pats := borrow (m_patterns mem) (ptm_buf p) prev_allocated (ptm_allocated p) in
    Ok (Some pats, mem, p).

(** The loop of FzfParser::parse, parser.rs:120-133 *)
Fixpoint parse_loop_m (fuel : nat) (mem : memory) (p : patterns_m) (conditions num_conditions : nat)
  : res (memory * nat) :=
  match fuel with
  | O => OutOfFuel
  | S fuel' =>
      let* '(c, mem, p) := patterns_next_m mem p in
      match c with
      | None => Ok (mem, num_conditions)
      | Some c =>
          let* h := write (m_conditions mem) conditions num_conditions c in
          parse_loop_m fuel' (MkMem (m_chars mem) (m_patterns mem) h) p conditions (num_conditions + 1)
      end
  end.

(** FzfParser::parse, parser.rs:87-136. [mv] tells for each of the three Vecs whether it moves if it
    grows. *)
Definition parse_m (mv : bool * bool * bool) (mem : memory) (ps : parser_m) (q : str)
  : res (query_m * parser_m * memory) :=
  let '(mv1, mv2, mv3) := mv in
  let bytes := encode q in
  let max_chars := length bytes in
  let* '(hc, ac) := grow_vec mv1 (m_chars mem) (pa_chars ps) max_chars 0%N in
  let max_conditions := length bytes / 2 + 1 in
  let* '(hd, ad) := grow_vec mv2 (m_conditions mem) (pa_conditions ps) max_conditions empty_ref in
  let* '(hp, ap) := grow_vec mv3 (m_patterns mem) (pa_patterns ps) max_conditions default_pattern_m in
  let* p := patterns_new_m ap ac bytes in
  let* '(mem, num_conditions) :=
    parse_loop_m (S (S (length bytes))) (MkMem hc hp hd) p ad 0 in
  let* cs := borrow (m_conditions mem) ad 0 num_conditions in
  let* query := new_extended_m mem cs in
  Ok (query, MkParserM ac ap ad, mem).

(** FzfParser::parse_not_extended, parser.rs:172-181 *)
Definition parse_not_extended_m (mem : memory) (ps : parser_m) (q : str)
  : res (query_m * memory) :=
  let* '(h, char_len) := words_alloc_m (m_chars mem) (pa_chars ps) 0 q in
  let* text := borrow h (pa_chars ps) 0 char_len in
  let* query := new_not_extended_m h text in
  Ok (query, MkMem h (m_patterns mem) (m_conditions mem)).

(** The buffer as the loop of FzfParser::parse_not_extended, parser.rs:175-178, leaves it when indexing
    (parser.rs:176) panics *)
Fixpoint words_alloc_left_m (h : heap char) (a allocated : nat) (s : list char) : heap char :=
  match s with
  | [] => h
  | c :: s' =>
      match write h a allocated c with
      | Ok h => words_alloc_left_m h a (allocated + 1) s'
      | _ => h
      end
  end.

(** The memory after a call of FzfParser::parse_not_extended, parser.rs:172-181, whose panic was caught *)
Definition parse_not_extended_caught_m (mem : memory) (ps : parser_m) (q : str) : memory :=
  MkMem (words_alloc_left_m (m_chars mem) (pa_chars ps) 0 q) (m_patterns mem) (m_conditions mem).

(** * Programs which use several parsers *)

(** A query in use: the number of the parser which it borrows, how and from which string it was parsed.
    The lifetimes of parser.rs:87 and 172. *)
Record loan := MkLoan { l_parser : nat; l_query : query_m; l_extended : bool; l_string : str }.

(** The memory, the parsers in the order of their creation ([None]: dropped) and the queries which may
    still be read. FzfParser, parser.rs:14-23. *)
Record world := MkWorld { w_mem : memory; w_parsers : list (option parser_m); w_loans : list loan }.

(** The queries which do not borrow parser [i]. These survive a use of the parser through
    [&mut self] or its drop; the borrow checker makes sure that the others are not used again.
    &'a mut self in parser.rs:87 and 172. *)
Definition other_loans (i : nat) (ls : list loan) : list loan :=
  filter (fun l => negb (l_parser l =? i)) ls.

(** One step of a program: create, clone, drop, parse, and a call of parse_not_extended which panics and
    whose panic is caught. Queries survive a clone, even though the borrow checker
    does not let a parser be cloned while a query from it is in use. parser.rs:13 (Clone), 46, 87, 172. *)
Inductive step : world -> world -> Prop :=
| step_new mem ps ls p mem' :
    parser_new_m mem = (p, mem') ->
    step (MkWorld mem ps ls) (MkWorld mem' (ps ++ [Some p]) ls)
| step_clone mem ps ls i p p' mem' :
    nth_error ps i = Some (Some p) -> parser_clone_m mem p = Ok (p', mem') ->
    step (MkWorld mem ps ls) (MkWorld mem' (ps ++ [Some p']) ls)
| step_drop mem ps ls i p :
    nth_error ps i = Some (Some p) ->
    step (MkWorld mem ps ls) (MkWorld (parser_drop_m mem p) (upd ps i None) (other_loans i ls))
| step_parse mem ps ls i p mv s q p' mem' :
    nth_error ps i = Some (Some p) -> parse_m mv mem p s = Ok (q, p', mem') ->
    step (MkWorld mem ps ls) (MkWorld mem' (upd ps i (Some p')) (MkLoan i q true s :: other_loans i ls))
| step_parse_not_extended mem ps ls i p s q mem' :
    nth_error ps i = Some (Some p) -> parse_not_extended_m mem p s = Ok (q, mem') ->
    step (MkWorld mem ps ls) (MkWorld mem' ps (MkLoan i q false s :: other_loans i ls))
| step_caught mem ps ls i p s :
    nth_error ps i = Some (Some p) -> parse_not_extended_m mem p s = Panic ->
    step (MkWorld mem ps ls) (MkWorld (parse_not_extended_caught_m mem p s) ps (other_loans i ls)).

(** The states of programs which start without any parser. The public functions of parser.rs. *)
Inductive world_reached : world -> Prop :=
| wr_start : world_reached (MkWorld (MkMem [] [] []) [] [])
| wr_step w w' : world_reached w -> step w w' -> world_reached w'.

End WithUnicode.
