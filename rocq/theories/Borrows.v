(** The parser a third time, with the rules of Rust on aliasing: /repo/src/metrics/fzf/parser.rs and query.rs
    as in Memory.v, except that a reference has a tag and that each element of a buffer has a stack of
    the tags which may be used to access it. The rules are those of Stacked Borrows (Jung, Dang, Kang,
    Dreyer: Stacked Borrows, POPL 2020). An access which they forbid is [Panic], as is one to memory which has
    been freed. The casts of the unsafe blocks (parser.rs:114, 126, 273 and 392) change the lifetime of a reference
    and are the identity here: tags have no lifetimes.

    Simplifications:
    - an element of a buffer is one location, rather than each of its bytes;
    - only the buffers of the Vecs have stacks. The fields of the parser are accessed by safe code;
    - a reference gets a new tag where it is made ([&v[i..j]], [&mut v], [&r[n..]]), not when it is
      passed to a function or returned, and function arguments are not protected. No
      buffer is written to by a function which has a reference to it, except through that reference. *)
From Verif Require Import Prelude Chars Utils Candidate Query Parser.

(** ** Stacks *)

(** An item of a stack: a reference with this tag may read and write, or only read. The top is the
    head of the list. A rule of Stacked Borrows, applied to the references of parser.rs. *)
Inductive item := Uniq (t : nat) | Shr (t : nat).
Notation stack := (list item).

(** A write with tag [t]: everything above the item which allows it is removed. E.g. parser.rs:130, 327. *)
Fixpoint write_access (t : nat) (s : stack) : res stack :=
  match s with
  | [] => Panic
  | Uniq t' :: s' => if t =? t' then Ok s else write_access t s'
  | Shr _ :: s' => write_access t s'
  end.

(** A read with tag [t]: above the item which allows it, the items which allow writing are removed. E.g. query.rs:173. *)
Fixpoint read_access (t : nat) (s : stack) : res stack :=
  match s with
  | [] => Panic
  | Uniq t' :: s' => if t =? t' then Ok s else read_access t s'
  | Shr t' :: s' => if t =? t' then Ok s else let* r := read_access t s' in Ok (Shr t' :: r)
  end.

(** The elements of a buffer, each with its stack *)
Notation cells A := (list (A * stack)).

(** An access to all of these elements; [push] is put on top of the stacks. E.g. parser.rs:389. *)
Fixpoint access {A} (f : stack -> res stack) (push : list item) (l : cells A) : res (cells A) :=
  match l with
  | [] => Ok []
  | (x, s) :: l' =>
      let* s := f s in
      let* r := access f push l' in
      Ok ((x, push ++ s) :: r)
  end.

(** An access to [n] elements from the [i]th on. E.g. parser.rs:389. *)
Definition access_range {A} (f : stack -> res stack) (push : list item) (l : cells A) (i n : nat) : res (cells A) :=
  if i + n <=? length l then
    let* m := access f push (firstn n (skipn i l)) in
    Ok (firstn i l ++ m ++ skipn (i + n) l)
  else Panic.

(** ** Memory *)

(** The buffers of the Vecs with elements of one type, by address ([None] is a freed one), and the next tag
    for references to such elements. parser.rs:14-23. *)
Record bheap A := MkHeap { hp : list (option (cells A)); hp_tag : nat }.
Arguments MkHeap {A}.
Arguments hp {A}.
Arguments hp_tag {A}.

(** &'a [A] and &'a mut [A]. parser.rs:187-199, 311-320. *)
Record bref := MkB { b_addr : nat; b_start : nat; b_len : nat; b_tag : nat }.

(** Vec: the address of its buffer and the tag of the pointer it has. parser.rs:14-23. *)
Record bvec := MkVec { v_addr : nat; v_tag : nat }.

(** The elements of the buffer at an address; see [bheap], parser.rs:14-23 *)
Definition cells_at {A} (h : bheap A) (a : nat) : res (cells A) :=
  match nth_error (hp h) a with
  | Some (Some l) => Ok l
  | _ => Panic
  end.

(** An access through a reference, to [n] of its elements from the [i]th on. An access to no elements is
    allowed whatever the address. E.g. parser.rs:327, query.rs:173. *)
Definition use {A} (f : stack -> res stack) (push : list item) (h : bheap A) (r : bref) (i n : nat) : res (bheap A) :=
  if n =? 0 then Ok h
  else
    let* l := cells_at h (b_addr r) in
    let* l := access_range f push l (b_start r + i) n in
    Ok (MkHeap (upd (hp h) (b_addr r) (Some l)) (hp_tag h)).

(** Reading all that a reference points to. E.g. query.rs:189-199. *)
Definition read {A} (h : bheap A) (r : bref) : res (list A * bheap A) :=
  let* h := use (read_access (b_tag r)) [] h r 0 (b_len r) in
  if b_len r =? 0 then Ok ([], h)
  else
    let* l := cells_at h (b_addr r) in
    Ok (map fst (firstn (b_len r) (skipn (b_start r) l)), h).

(** [r[i] = x] for a mutable reference. parser.rs:204, 327. *)
Definition write {A} (h : bheap A) (r : bref) (i : nat) (x : A) : res (bheap A) :=
  if i <? b_len r then
    let* h := use (write_access (b_tag r)) [] h r i 1 in
    let* l := cells_at h (b_addr r) in
    match nth_error l (b_start r + i) with
    | Some (_, s) => Ok (MkHeap (upd (hp h) (b_addr r) (Some (upd l (b_start r + i) (x, s)))) (hp_tag h))
    | None => Panic
    end
  else Panic.

(** The heap after a tag was given out; part of [reborrow], e.g. parser.rs:389 *)
Definition next_tag {A} (h : bheap A) : bheap A := MkHeap (hp h) (hp_tag h + 1).

(** The reborrow [&r[i..i+n]] of one reference from another: a read of what it points to, and a new tag.
    parser.rs:269, 389. *)
Definition reborrow {A} (h : bheap A) (r : bref) (i n : nat) : res (bref * bheap A) :=
  if i + n <=? b_len r then
    let t := hp_tag h in
    let* h := use (read_access (b_tag r)) [Shr t] (next_tag h) r i n in
    Ok (MkB (b_addr r) (b_start r + i) n t, h)
  else Panic.

(** The reborrow [&mut r[i..i+n]]: a write. parser.rs:109-110, 123, 209-220. *)
Definition reborrow_mut {A} (h : bheap A) (r : bref) (i n : nat) : res (bref * bheap A) :=
  if i + n <=? b_len r then
    let t := hp_tag h in
    let* h := use (write_access (b_tag r)) [Uniq t] (next_tag h) r i n in
    Ok (MkB (b_addr r) (b_start r + i) n t, h)
  else Panic.

(** The expression [&r[i..j]] is [Index::index(&*r, i..j)]: a reborrow of the whole slice, and one of its part.
    parser.rs:135, 180, 269, 389. *)
Definition subslice {A} (h : bheap A) (r : bref) (i j : nat) : res (bref * bheap A) :=
  if i <=? j then
    let* '(r, h) := reborrow h r 0 (b_len r) in
    reborrow h r i (j - i)
  else Panic.

(** A pointer to all the elements of a Vec. parser.rs:109-135. *)
Definition vec_ptr {A} (h : bheap A) (v : bvec) : res bref :=
  let* l := cells_at h (v_addr v) in
  Ok (MkB (v_addr v) 0 (length l) (v_tag v)).

(** [Vec::deref_mut], [Vec::as_mut_slice]. parser.rs:109-110, 123. *)
Definition vec_mut {A} (h : bheap A) (v : bvec) : res (bref * bheap A) :=
  let* p := vec_ptr h v in
  reborrow_mut h p 0 (b_len p).

(** [Vec::deref]. parser.rs:135, 180. *)
Definition vec_ref {A} (h : bheap A) (v : bvec) : res (bref * bheap A) :=
  let* p := vec_ptr h v in
  reborrow h p 0 (b_len p).

(** [v[i] = x] for a Vec is [*IndexMut::index_mut(&mut v, i) = x]. parser.rs:130, 176. *)
Definition vec_set {A} (h : bheap A) (v : bvec) (i : nat) (x : A) : res (bheap A) :=
  let* '(r, h) := vec_mut h v in
  let* '(r, h) := reborrow_mut h r i 1 in
  write h r 0 x.

(** [&v[i..j]] for a Vec. parser.rs:135, 180. *)
Definition vec_slice {A} (h : bheap A) (v : bvec) (i j : nat) : res (bref * bheap A) :=
  if i <=? j then
    let* '(r, h) := vec_ref h v in
    reborrow h r i (j - i)
  else Panic.

(** A new buffer. parser.rs:27-34. *)
Definition vec_new {A} (h : bheap A) (l : list A) : bvec * bheap A :=
  let t := hp_tag h in
  (MkVec (length (hp h)) t, MkHeap (hp h ++ [Some (map (fun x => (x, [Uniq t])) l)]) (t + 1)).

(** [Vec::clone]: for elements which are Copy this copies what [&v] points to. parser.rs:13 (derived Clone). *)
Definition vec_clone {A} (h : bheap A) (v : bvec) : res (bvec * bheap A) :=
  let* '(r, h) := vec_ref h v in
  let* '(l, h) := read h r in
  Ok (vec_new h l).

(** drop of a Vec: freeing a buffer is a write to all of it with the tag of the Vec. parser.rs:14 (fields). *)
Definition vec_drop {A} (h : bheap A) (v : bvec) : res (bheap A) :=
  let* p := vec_ptr h v in
  let* h := use (write_access (v_tag v)) [] h p 0 (b_len p) in
  Ok (MkHeap (upd (hp h) (v_addr v) None) (hp_tag h)).

(** What [Vec::resize] may do: there is room behind the elements; the buffer grows where it is; it moves. In
    the last two cases the allocator returns a new pointer, and the old tags are of no use. parser.rs:91, 103, 107. *)
Inductive growth := Within | InPlace | Moved.

(** [Vec::resize(n, d)] if the Vec is shorter than [n], parser.rs:90-92, 102-104 and 106-108 *)
Definition vec_grow {A} (g : growth) (h : bheap A) (v : bvec) (n : nat) (d : A) : res (bvec * bheap A) :=
  let* l := cells_at h (v_addr v) in
  if length l <? n then
    let new := repeat d (n - length l) in
    match g with
    | Within =>
        Ok (v, MkHeap (upd (hp h) (v_addr v) (Some (l ++ map (fun x => (x, [Uniq (v_tag v)])) new))) (hp_tag h))
    | InPlace =>
        let* h := vec_drop h v in
        let t := hp_tag h in
        Ok (MkVec (v_addr v) t,
            MkHeap (upd (hp h) (v_addr v) (Some (map (fun x => (x, [Uniq t])) (map fst l ++ new)))) (t + 1))
    | Moved =>
        let* h := vec_drop h v in
        Ok (vec_new h (map fst l ++ new))
    end
  else Ok (v, h).

(** ** The parser *)

(** Pattern, query.rs:136-154 *)
Record pattern_b := MkPatternB {
  pb_text : bref;
  pb_has_uppercase : bool;
  pb_match_type : match_type;
  pb_is_inverse : bool;
  pb_leading_spaces : nat;
  pb_trailing_spaces : nat
}.

(** Default for &[A]. query.rs:134-138. *)
Definition empty_bref : bref := MkB 0 0 0 0.

(** Default for Pattern, query.rs:134 *)
Definition default_pattern_b : pattern_b := MkPatternB empty_bref false Fuzzy false 0 0.

(** SearchMode and FzfQuery, query.rs:8-20. A Condition (query.rs:81-84) is a reference to its patterns. *)
Inductive query_b :=
| ExtendedB (conditions : bref)
| NotExtendedB (p : pattern_b).

(** The memory. The buffers of the Vecs of parser.rs:14-23. *)
Record bmemory := MkBMem {
  bm_chars : bheap char;
  bm_patterns : bheap pattern_b;
  bm_conditions : bheap bref
}.

(** The memory with other buffers of chars, parser.rs:16 *)
Definition set_chars (mem : bmemory) (h : bheap char) : bmemory := MkBMem h (bm_patterns mem) (bm_conditions mem).
(** With other buffers of patterns, parser.rs:19 *)
Definition set_patterns (mem : bmemory) (h : bheap pattern_b) : bmemory := MkBMem (bm_chars mem) h (bm_conditions mem).
(** With other buffers of conditions, parser.rs:22 *)
Definition set_conditions (mem : bmemory) (h : bheap bref) : bmemory := MkBMem (bm_chars mem) (bm_patterns mem) h.

(** FzfParser, parser.rs:14-23 *)
Record parser_b := MkParserB { pb_chars : bvec; pb_patterns : bvec; pb_conditions : bvec }.

(** Reading a query through its references, as a search does: each read may change the stacks. query.rs:136-199. *)
Definition read_pattern_b (mem : bmemory) (p : pattern_b) : res (pattern * bmemory) :=
  let* '(t, h) := read (bm_chars mem) (pb_text p) in
  Ok (MkPattern t (pb_has_uppercase p) (pb_match_type p) (pb_is_inverse p)
        (pb_leading_spaces p) (pb_trailing_spaces p), set_chars mem h).

(** Reading several things, one after the other. As fzf.rs:164-170 does. *)
Fixpoint read_all_b {A B} (f : bmemory -> A -> res (B * bmemory)) (mem : bmemory) (l : list A) : res (list B * bmemory) :=
  match l with
  | [] => Ok ([], mem)
  | x :: l' =>
      let* '(y, mem) := f mem x in
      let* '(ys, mem) := read_all_b f mem l' in
      Ok (y :: ys, mem)
  end.

(** The same for a condition, query.rs:81-84 *)
Definition read_condition_b (mem : bmemory) (c : bref) : res (condition * bmemory) :=
  let* '(ps, h) := read (bm_patterns mem) c in
  read_all_b read_pattern_b (set_patterns mem h) ps.

(** The same for a query, query.rs:8-20 *)
Definition read_query_b (mem : bmemory) (q : query_b) : res (query * bmemory) :=
  match q with
  | ExtendedB r =>
      let* '(cs, h) := read (bm_conditions mem) r in
      let* '(cs, mem) := read_all_b read_condition_b (set_conditions mem h) cs in
      Ok (Extended cs, mem)
  | NotExtendedB p => let* '(p, mem) := read_pattern_b mem p in Ok (NotExtended p, mem)
  end.

(** Default for FzfParser and FzfParser::new, parser.rs:25-48 *)
Definition parser_new_b (mem : bmemory) : parser_b * bmemory :=
  let '(cs, hc) := vec_new (bm_chars mem) (repeat 0%N 64) in
  let '(ps, hp) := vec_new (bm_patterns mem) (repeat default_pattern_b 64) in
  let '(ds, hd) := vec_new (bm_conditions mem) (repeat empty_bref 64) in
  (MkParserB cs ps ds, MkBMem hc hp hd).

(** The derived Clone for FzfParser, parser.rs:13 *)
Definition parser_clone_b (mem : bmemory) (p : parser_b) : res (parser_b * bmemory) :=
  let* '(cs, hc) := vec_clone (bm_chars mem) (pb_chars p) in
  let* '(ps, hp) := vec_clone (bm_patterns mem) (pb_patterns p) in
  let* '(ds, hd) := vec_clone (bm_conditions mem) (pb_conditions p) in
  Ok (MkParserB cs ps ds, MkBMem hc hp hd).

(** drop of an FzfParser. parser.rs:14. *)
Definition parser_drop_b (mem : bmemory) (p : parser_b) : res bmemory :=
  let* hc := vec_drop (bm_chars mem) (pb_chars p) in
  let* hp := vec_drop (bm_patterns mem) (pb_patterns p) in
  let* hd := vec_drop (bm_conditions mem) (pb_conditions p) in
  Ok (MkBMem hc hp hd).

(** Words, parser.rs:311-320: [buf], [allocated] and the bytes of [s] *)
Record words_b := MkWordsB { wb_buf : bref; wb_allocated : nat; wb_s : list N }.

(** Words::alloc, parser.rs:325-330 *)
Fixpoint words_alloc_b (h : bheap char) (buf : bref) (allocated : nat) (s : list char)
  : res (bheap char * nat) :=
  match s with
  | [] => Ok (h, allocated)
  | c :: s' =>
      let* h := write h buf allocated c in
      words_alloc_b h buf (allocated + 1) s'
  end.

(** Words::new, parser.rs:334-336 *)
Definition words_new_b (buf : bref) (s : list N) : res words_b :=
  let* s := strip_leading_spaces s in
  Ok (MkWordsB buf 0 s).

(** The loop of Words::next, parser.rs:354-385 *)
Fixpoint words_next_loop_b (fuel : nat) (h : bheap char) (buf : bref) (allocated : nat)
    (s : list N) (word_byte_end : nat) : res (bheap char * nat * nat) :=
  match fuel with
  | O => OutOfFuel
  | S fuel' =>
      match memchr SPACE s with
      | Some O => Ok (h, allocated, word_byte_end)
      | Some (S offset_minus_1 as offset) =>
          let* prev := idx s offset_minus_1 in
          if (prev =? BACKSLASH)%N then
            let* upto := str_to s offset_minus_1 in
            let* '(h, allocated) := words_alloc_b h buf allocated (decode upto) in
            let* '(h, allocated) := words_alloc_b h buf allocated [SPACE] in
            let* s := str_from s (offset + 1) in
            words_next_loop_b fuel' h buf allocated s (word_byte_end + (offset + 1))
          else
            let* w := str_to s offset in
            let* '(h, allocated) := words_alloc_b h buf allocated (decode w) in
            Ok (h, allocated, word_byte_end + length w)
      | None =>
          let* '(h, allocated) := words_alloc_b h buf allocated (decode s) in
          Ok (h, allocated, word_byte_end + length s)
      end
  end.

(** Words::next, parser.rs:343-395 *)
Definition words_next_b (h : bheap char) (w : words_b) : res (option bref * bheap char * words_b) :=
  match wb_s w with
  | [] => Ok (None, h, w)
  | _ =>
      let prev_allocated := wb_allocated w in
      let* '(h, allocated, word_byte_end) :=
        words_next_loop_b (S (length (wb_s w))) h (wb_buf w) (wb_allocated w) (wb_s w) 0 in
      let* rest := str_from (wb_s w) word_byte_end in
      let* s := strip_leading_spaces rest in
      let* '(word, h) := subslice h (wb_buf w) prev_allocated allocated in
      Ok (Some word, h, MkWordsB (wb_buf w) allocated s)
  end.

(** Patterns, parser.rs:187-199: [buf], [allocated], [words] and [next] *)
Record patterns_b := MkPatternsB {
  ptb_buf : bref;
  ptb_allocated : nat;
  ptb_words : words_b;
  ptb_next : option pattern_b
}.

(** Patterns::alloc, parser.rs:203-206 *)
Definition patterns_alloc_b (mem : bmemory) (p : patterns_b) (pat : pattern_b)
  : res (bmemory * patterns_b) :=
  let* h := write (bm_patterns mem) (ptb_buf p) (ptb_allocated p) pat in
  Ok (set_patterns mem h, MkPatternsB (ptb_buf p) (ptb_allocated p + 1) (ptb_words p) (ptb_next p)).

(** Patterns::new, parser.rs:209-220 *)
Definition patterns_new_b (patterns_buf char_buf : bref) (s : list N) : res patterns_b :=
  let* w := words_new_b char_buf s in
  Ok (MkPatternsB patterns_buf 0 w None).

Section WithUnicode.
Context {UC : unicode}.

(** The field values computed from the text in Pattern::raw (query.rs:203-215) and at the end
    of Pattern::parse (query.rs:257-271) *)
Definition mk_pattern_b (h : bheap char) (text : bref) (mt : match_type) (inv : bool) : res (pattern_b * bheap char) :=
  let* '(t, h) := read h text in
  Ok (MkPatternB text
        (existsb is_uppercase t) mt inv
        (count_while (fun c => (c =? SPACE)%N) t)
        (count_while (fun c => (c =? SPACE)%N) (rev t)), h).

(** FzfQuery::new_not_extended, query.rs:74-76, with Pattern::raw, query.rs:202-216 *)
Definition new_not_extended_b (h : bheap char) (text : bref) : res (query_b * bheap char) :=
  let* '(p, h) := mk_pattern_b h text Fuzzy false in
  Ok (NotExtendedB p, h).

(** FzfQuery::new_extended, query.rs:50-70. All the patterns of a lone condition are read, rather than the first two. *)
Definition new_extended_b (mem : bmemory) (conditions : bref) : res (query_b * bmemory) :=
  let* '(cs, h) := read (bm_conditions mem) conditions in
  let mem := set_conditions mem h in
  match cs with
  | [c] =>
      let* '(ps, h) := read (bm_patterns mem) c in
      let mem := set_patterns mem h in
      match ps with
      | [] => Panic (* expect, lines 56-58 *)
      | first :: rest =>
          match rest, pb_match_type first with
          | [], Fuzzy => Ok (NotExtendedB first, mem)
          | _, _ => Ok (ExtendedB conditions, mem)
          end
      end
  | _ => Ok (ExtendedB conditions, mem)
  end.

(** Pattern::parse, query.rs:220-274; every test reads the whole text *)
Definition pattern_parse_b (h : bheap char) (text0 : bref) : res (option pattern_b * bheap char) :=
  let* _ := assert_ (negb (b_len text0 =? 0)) in
  (* lines 227-231 *)
  let* '(t, h) := read h text0 in
  let* '(is_inverse, mt, text, h) :=
    if starts_with t 33 (* '!' *)
    then let* '(r, h) := subslice h text0 1 (b_len text0) in Ok (true, Exact, r, h)
    else Ok (false, Fuzzy, text0, h) in
  (* lines 233-236 *)
  let* '(t, h) := read h text in
  let* '(mt, text, h) :=
    if ends_with t 36 (* '$' *) && (1 <? b_len text)
    then
      let* n := usub (b_len text) 1 in
      let* '(r, h) := subslice h text 0 n in
      Ok (SuffixExact, r, h)
    else Ok (mt, text, h) in
  (* lines 238-251 *)
  let* '(t, h) := read h text in
  let* '(mt, text, h) :=
    if starts_with t 39 (* ''' *)
    then
      let* '(r, h) := subslice h text 1 (b_len text) in
      Ok (if negb is_inverse then Exact else Fuzzy, r, h)
    else if starts_with t 94 (* '^' *)
    then
      let* '(r, h) := subslice h text 1 (b_len text) in
      Ok (if match_type_eqb mt SuffixExact then EqualExact else PrefixExact, r, h)
    else Ok (mt, text, h) in
  (* lines 253-273 *)
  if b_len text =? 0 then Ok (None, h)
  else let* '(p, h) := mk_pattern_b h text mt is_inverse in Ok (Some p, h).

(** The loop of Patterns::next, parser.rs:242-263 *)
Fixpoint patterns_next_loop_b (fuel : nat) (mem : bmemory) (p : patterns_b) (looking_for_or : bool)
  : res (bmemory * patterns_b) :=
  match fuel with
  | O => OutOfFuel
  | S fuel' =>
      let* '(word, h, w) := words_next_b (bm_chars mem) (ptb_words p) in
      let p := MkPatternsB (ptb_buf p) (ptb_allocated p) w (ptb_next p) in
      match word with
      | None => Ok (set_chars mem h, p)
      | Some word =>
          let* '(t, h) := read h word in
          if negb (is_or_separator t) then
            let* '(parsed, h) := pattern_parse_b h word in
            let mem := set_chars mem h in
            match parsed with
            | None => patterns_next_loop_b fuel' mem p looking_for_or
            | Some pat =>
                if looking_for_or then
                  Ok (mem, MkPatternsB (ptb_buf p) (ptb_allocated p) (ptb_words p) (Some pat))
                else
                  let* '(mem, p) := patterns_alloc_b mem p pat in
                  patterns_next_loop_b fuel' mem p true
            end
          else patterns_next_loop_b fuel' (set_chars mem h) p false
      end
  end.

(** Patterns::next, parser.rs:227-276 *)
Definition patterns_next_b (mem : bmemory) (p : patterns_b) : res (option bref * bmemory * patterns_b) :=
  let prev_allocated := ptb_allocated p in
  let* '(mem, p, looking_for_or) :=
    match ptb_next p with
    | Some first_pattern =>
        let* '(mem, p) :=
          patterns_alloc_b mem (MkPatternsB (ptb_buf p) (ptb_allocated p) (ptb_words p) None)
            first_pattern in
        Ok (mem, p, true)
    | None => Ok (mem, p, false)
    end in
  let* '(mem, p) := patterns_next_loop_b (S (length (wb_s (ptb_words p)))) mem p looking_for_or in
  if ptb_allocated p =? prev_allocated then Ok (None, mem, p)
  else
    let* '(pats, h) := subslice (bm_patterns mem) (ptb_buf p) prev_allocated (ptb_allocated p) in
    Ok (Some pats, set_patterns mem h, p).

(** The loop of FzfParser::parse, parser.rs:120-133 *)
Fixpoint parse_loop_b (fuel : nat) (mem : bmemory) (p : patterns_b) (conditions : bvec) (num_conditions : nat)
  : res (bmemory * nat) :=
  match fuel with
  | O => OutOfFuel
  | S fuel' =>
      let* '(c, mem, p) := patterns_next_b mem p in
      match c with
      | None => Ok (mem, num_conditions)
      | Some c =>
          let* h := vec_set (bm_conditions mem) conditions num_conditions c in
          parse_loop_b fuel' (set_conditions mem h) p conditions (num_conditions + 1)
      end
  end.

(** FzfParser::parse, parser.rs:87-136. The flags tell what each of the three Vecs does if it grows. *)
Definition parse_b (g1 g2 g3 : growth) (mem : bmemory) (ps : parser_b) (q : str)
  : res (query_b * parser_b * bmemory) :=
  let bytes := encode q in
  let max_chars := length bytes in
  let* '(vc, hc) := vec_grow g1 (bm_chars mem) (pb_chars ps) max_chars 0%N in
  let max_conditions := length bytes / 2 + 1 in
  let* '(vd, hd) := vec_grow g2 (bm_conditions mem) (pb_conditions ps) max_conditions empty_bref in
  let* '(vp, hp) := vec_grow g3 (bm_patterns mem) (pb_patterns ps) max_conditions default_pattern_b in
  let* '(patterns, hp) := vec_mut hp vp in
  let* '(chars, hc) := vec_mut hc vc in
  let* p := patterns_new_b patterns chars bytes in
  let* '(mem, num_conditions) := parse_loop_b (S (S (length bytes))) (MkBMem hc hp hd) p vd 0 in
  let* '(cs, hd) := vec_slice (bm_conditions mem) vd 0 num_conditions in
  let* '(query, mem) := new_extended_b (set_conditions mem hd) cs in
  Ok (query, MkParserB vc vp vd, mem).

(** The loop of FzfParser::parse_not_extended, parser.rs:175-178 *)
Fixpoint fill_chars_b (h : bheap char) (v : bvec) (char_len : nat) (s : str) : res (bheap char * nat) :=
  match s with
  | [] => Ok (h, char_len)
  | c :: s' =>
      let* h := vec_set h v char_len c in
      fill_chars_b h v (char_len + 1) s'
  end.

(** FzfParser::parse_not_extended, parser.rs:172-181 *)
Definition parse_not_extended_b (mem : bmemory) (ps : parser_b) (q : str) : res (query_b * bmemory) :=
  let* '(h, char_len) := fill_chars_b (bm_chars mem) (pb_chars ps) 0 q in
  let* '(text, h) := vec_slice h (pb_chars ps) 0 char_len in
  let* '(query, h) := new_not_extended_b h text in
  Ok (query, set_chars mem h).

(** The buffer as the loop of FzfParser::parse_not_extended, parser.rs:175-178, leaves it when indexing
    (parser.rs:176) panics. IndexMut for Vec borrows the whole buffer first and checks the
    index then, so that the borrow has been made when the panic starts. *)
Fixpoint fill_chars_left_b (h : bheap char) (v : bvec) (char_len : nat) (s : str) : bheap char :=
  match s with
  | [] => h
  | c :: s' =>
      match vec_set h v char_len c with
      | Ok h => fill_chars_left_b h v (char_len + 1) s'
      | _ => match vec_mut h v with Ok (_, h) => h | _ => h end
      end
  end.

(** The memory after a call of FzfParser::parse_not_extended, parser.rs:172-181, whose panic was caught *)
Definition parse_not_extended_caught_b (mem : bmemory) (ps : parser_b) (q : str) : bmemory :=
  set_chars mem (fill_chars_left_b (bm_chars mem) (pb_chars ps) 0 q).

(** * Programs which use several parsers *)

(** A query in use: the number of the parser which it borrows, how and from which string it was parsed.
    The lifetimes of parser.rs:87 and 172. *)
Record bloan := MkBLoan { bl_parser : nat; bl_query : query_b; bl_extended : bool; bl_string : str }.

(** The memory, the parsers in the order of their creation ([None]: dropped) and the queries which may
    still be read. FzfParser, parser.rs:14-23. *)
Record bworld := MkBWorld { bw_mem : bmemory; bw_parsers : list (option parser_b); bw_loans : list bloan }.

(** The queries which do not borrow parser [i]. These survive a use of the parser through
    [&mut self] or its drop; the borrow checker makes sure that the others are not used again.
    &'a mut self in parser.rs:87 and 172. *)
Definition other_bloans (i : nat) (ls : list bloan) : list bloan :=
  filter (fun l => negb (bl_parser l =? i)) ls.

(** One step of a program: create, clone, drop, parse, read a query, or a call of parse_not_extended
    which panics and whose panic is caught. parser.rs:13 (Clone), 46, 87, 172. *)
Inductive bstep : bworld -> bworld -> Prop :=
| bs_new mem ps ls p mem' :
    parser_new_b mem = (p, mem') ->
    bstep (MkBWorld mem ps ls) (MkBWorld mem' (ps ++ [Some p]) ls)
| bs_clone mem ps ls i p p' mem' :
    nth_error ps i = Some (Some p) -> parser_clone_b mem p = Ok (p', mem') ->
    bstep (MkBWorld mem ps ls) (MkBWorld mem' (ps ++ [Some p']) ls)
| bs_drop mem ps ls i p mem' :
    nth_error ps i = Some (Some p) -> parser_drop_b mem p = Ok mem' ->
    bstep (MkBWorld mem ps ls) (MkBWorld mem' (upd ps i None) (other_bloans i ls))
| bs_parse mem ps ls i p g1 g2 g3 s q p' mem' :
    nth_error ps i = Some (Some p) -> parse_b g1 g2 g3 mem p s = Ok (q, p', mem') ->
    bstep (MkBWorld mem ps ls) (MkBWorld mem' (upd ps i (Some p')) (MkBLoan i q true s :: other_bloans i ls))
| bs_parse_not_extended mem ps ls i p s q mem' :
    nth_error ps i = Some (Some p) -> parse_not_extended_b mem p s = Ok (q, mem') ->
    bstep (MkBWorld mem ps ls) (MkBWorld mem' ps (MkBLoan i q false s :: other_bloans i ls))
| bs_caught mem ps ls i p s :
    nth_error ps i = Some (Some p) -> parse_not_extended_b mem p s = Panic ->
    bstep (MkBWorld mem ps ls) (MkBWorld (parse_not_extended_caught_b mem p s) ps (other_bloans i ls))
| bs_read mem ps ls b q mem' :
    In b ls -> read_query_b mem (bl_query b) = Ok (q, mem') ->
    bstep (MkBWorld mem ps ls) (MkBWorld mem' ps ls).

(** The states of programs which start without any parser. The public functions of parser.rs. *)
Inductive bworld_reached : bworld -> Prop :=
| bwr_start : bworld_reached (MkBWorld (MkBMem (MkHeap [] 0) (MkHeap [] 0) (MkHeap [] 0)) [] [])
| bwr_step w w' : bworld_reached w -> bstep w w' -> bworld_reached w'.

End WithUnicode.
