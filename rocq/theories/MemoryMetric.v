(** The metrics with their memory, as Memory.v has the parser: the slab of characters of a metric
    (/repo/src/metrics/fzf/slab.rs:78-107) is a buffer with an address, among those of the
    parsers; the candidate of a search is a reference into it, and the query a tree of references into the
    buffers of a parser. The casts of the unsafe blocks (fzf_v1.rs:230, fzf_v2.rs:241) change the lifetime of
    the reference to the candidate and are the identity here.

    The other slabs of FzfV2 are borrowed by safe code only; they are lists as in FzfV2.v. *)
From Verif Require Import Prelude Chars Utils Candidate MatchedRanges Query Parser Scoring Slab Fzf FzfV1 FzfV2 Api History Memory.

(** The slab of characters of a metric, fzf_v1.rs:60 and fzf_v2.rs:67 *)
Definition slab_of (m : metric) : list char :=
  match m with V1 m => v1_candidate_slab m | V2 m => v2_candidate_slab m end.

(** A metric with another slab, fzf_v1.rs:58-70, fzf_v2.rs:65-80 *)
Definition with_slab (m : metric) (l : list char) : metric :=
  match m with
  | V1 m => V1 (MkV1 l (v1_case_sensitivity m) (v1_candidate_normalization m) (v1_scoring_scheme m))
  | V2 m => V2 (MkV2 l (v2_candidate_normalization m) (v2_case_sensitivity m) (v2_scoring_scheme m) (v2_slab_ m))
  end.

(** FzfV1 (fzf_v1.rs:58-70) or FzfV2 (fzf_v2.rs:65-80): the address of the slab of characters, and the
    other fields. The slab in [mm_rest] is empty and not used. *)
Record metric_m := MkMetricM { mm_slab : nat; mm_rest : metric }.

(** The memory with other characters; the buffers of slab.rs:79-82 *)
Definition with_chars (mem : memory) (h : heap char) : memory := MkMem h (m_patterns mem) (m_conditions mem).

(** FzfV1::new and FzfV2::new, fzf_v1.rs:95-97, fzf_v2.rs:105-107: the slab is a new buffer *)
Definition metric_new_m (mem : memory) (a : algo) : metric_m * memory :=
  (MkMetricM (length (m_chars mem)) (with_slab (metric_new a) []),
   with_chars mem (m_chars mem ++ [Some (slab_of (metric_new a))])).

(** The derived Clone of both metrics, fzf_v1.rs:57 and fzf_v2.rs:64 *)
Definition metric_clone_m (mem : memory) (mm : metric_m) : res (metric_m * memory) :=
  let* l := buffer (m_chars mem) (mm_slab mm) in
  Ok (MkMetricM (length (m_chars mem)) (mm_rest mm), with_chars mem (m_chars mem ++ [Some l])).

(** drop of a metric. fzf_v1.rs:58, fzf_v2.rs:65 (no Drop of their own). *)
Definition metric_drop_m (mem : memory) (mm : metric_m) : memory :=
  with_chars mem (upd (m_chars mem) (mm_slab mm) None).

(** The loop of CandidateSlab::alloc, slab.rs:100-103 *)
Fixpoint chars_fill_m (h : heap char) (a char_len : nat) (text : str) : res (heap char * nat) :=
  match text with
  | [] => Ok (h, char_len)
  | c :: text' =>
      let* h := write h a char_len c in
      chars_fill_m h a (char_len + 1) text'
  end.

(** FzfV1::alloc_chars and FzfV2::alloc_chars, fzf_v1.rs:229-231 and fzf_v2.rs:240-242, with
    CandidateSlab::alloc, slab.rs:93-106: a reference to the characters, in a slab which may have moved *)
Definition alloc_chars_m (mv : bool) (mem : memory) (mm : metric_m) (text : str)
  : res (sref * metric_m * memory) :=
  let* '(h, a) := grow_vec mv (m_chars mem) (mm_slab mm) (byte_len text) 0%N in
  let* '(h, char_len) := chars_fill_m h a 0 text in
  let* r := borrow h a 0 char_len in
  Ok (r, MkMetricM a (mm_rest mm), with_chars mem h).

(** Candidate, /repo/src/candidate.rs:7-10. The bytes of an ASCII candidate are those of the user's string,
    which is borrowed during the whole call. *)
Inductive candidate_m := AsciiM (bytes : list N) | UnicodeM (chars : sref).

(** The characters of the candidate, through the reference. candidate.rs:7-10. *)
Definition read_candidate_m (mem : memory) (c : candidate_m) : res candidate :=
  match c with
  | AsciiM bytes => Ok (Ascii bytes)
  | UnicodeM r => let* l := deref (m_chars mem) r in Ok (Unicode l)
  end.

(** FzfQuery::is_empty, query.rs:41-46 *)
Definition q_is_empty_m (q : query_m) : bool :=
  match q with
  | ExtendedM r => r_len r =? 0
  | NotExtendedM p => r_len (pm_text p) =? 0
  end.

Section WithUnicode.
Context {UC : unicode}.

(** <M as Fzf>::fuzzy, fzf_v1.rs:250-280 and fzf_v2.rs:261-332 *)
Definition metric_fuzzy (RANGES : bool) (m : metric) (p : pattern) (c : candidate) (ranges : mranges)
  : res (option score * metric * mranges) :=
  match m with
  | V1 m => let* '(sc, m, ranges) := v1_fuzzy RANGES m p c ranges in Ok (sc, V1 m, ranges)
  | V2 m => let* '(sc, m, ranges) := v2_fuzzy RANGES m p c ranges in Ok (sc, V2 m, ranges)
  end.

(** Fzf::score, fzf.rs:27-136 *)
Definition metric_score (RANGES : bool) (m : metric) (p : pattern) (c : candidate) (ranges : mranges)
  : res (option score * metric * mranges) :=
  match m with
  | V1 m => let* '(sc, m, ranges) := fzf_score v1_char_eq v1_scoring_scheme v1_fuzzy RANGES m p c ranges in Ok (sc, V1 m, ranges)
  | V2 m => let* '(sc, m, ranges) := fzf_score v2_char_eq v2_scoring_scheme v2_fuzzy RANGES m p c ranges in Ok (sc, V2 m, ranges)
  end.

(** A call of one of the two with references: the pattern and the candidate are read from the memory as it is when the
    call starts. The method has the whole metric, slab of characters included, and
    what it leaves there is in the memory afterwards. fzf_v1.rs:250, fzf_v2.rs:261. *)
Definition call_m (f : metric -> pattern -> candidate -> mranges -> res (option score * metric * mranges))
    (mem : memory) (mm : metric_m) (p : pattern_m) (c : candidate_m) (ranges : mranges)
  : res (option score * metric_m * memory * mranges) :=
  let* p := read_pattern_m mem p in
  let* c := read_candidate_m mem c in
  let* l := buffer (m_chars mem) (mm_slab mm) in
  let* '(sc, m, ranges) := f (with_slab (mm_rest mm) l) p c ranges in
  Ok (sc, MkMetricM (mm_slab mm) (with_slab m []),
      with_chars mem (upd (m_chars mem) (mm_slab mm) (Some (slab_of m))), ranges).

(** find_map over the patterns of a condition, fzf.rs:166-168 *)
Fixpoint score_condition_m (RANGES : bool) (mem : memory) (mm : metric_m) (ps : list pattern_m)
    (c : candidate_m) (ranges : mranges) : res (option score * metric_m * memory * mranges) :=
  match ps with
  | [] => Ok (None, mm, mem, ranges)
  | p :: ps' =>
      let* '(sc, mm, mem, ranges) := call_m (metric_score RANGES) mem mm p c ranges in
      match sc with
      | Some x => Ok (Some x, mm, mem, ranges)
      | None => score_condition_m RANGES mem mm ps' c ranges
      end
  end.

(** The loop over the conditions, fzf.rs:164-170 *)
Fixpoint score_conditions_m (RANGES : bool) (mem : memory) (mm : metric_m) (conds : list sref)
    (c : candidate_m) (total : score) (ranges : mranges)
  : res (option score * metric_m * memory * mranges) :=
  match conds with
  | [] => Ok (Some total, mm, mem, ranges)
  | r :: conds' =>
      let* ps := deref (m_patterns mem) r in
      let* '(sc, mm, mem, ranges) := score_condition_m RANGES mem mm ps c ranges in
      match sc with
      | None => Ok (None, mm, mem, ranges)
      | Some x => score_conditions_m RANGES mem mm conds' c (total + x)%Z ranges
      end
  end.

(** Fzf::distance, fzf.rs:140-173 *)
Definition distance_m (mv RANGES : bool) (mem : memory) (mm : metric_m) (q : query_m) (cand : str)
    (buf : list range) : res (option distance * metric_m * memory * list range) :=
  if q_is_empty_m q then Ok (Some (from_score 0), mm, mem, buf)
  else
    let* '(c, mm, mem) :=
      if str_is_ascii cand then Ok (AsciiM (encode cand), mm, mem)
      else let* '(r, mm, mem) := alloc_chars_m mv mem mm cand in Ok (UnicodeM r, mm, mem) in
    let ranges := mranges_from buf in
    let* '(sc, mm, mem, ranges) :=
      match q with
      | NotExtendedM p => call_m (metric_fuzzy RANGES) mem mm p c ranges
      | ExtendedM r =>
          let* conds := deref (m_conditions mem) r in
          score_conditions_m RANGES mem mm conds c 0 ranges
      end in
    Ok (option_map from_score sc, mm, mem, mr_ranges ranges).

(** <M as Metric>::distance, fzf_v1.rs:207-214, fzf_v2.rs:218-225 *)
Definition metric_distance_m (mv : bool) (mem : memory) (mm : metric_m) (q : query_m) (cand : str)
  : res (option distance * metric_m * memory) :=
  let* '(d, mm, mem, _) := distance_m mv false mem mm q cand [] in Ok (d, mm, mem).

(** <M as Metric>::distance_and_ranges, fzf_v1.rs:217-224, fzf_v2.rs:228-235 *)
Definition metric_distance_and_ranges_m (mv : bool) (mem : memory) (mm : metric_m) (q : query_m)
    (cand : str) (buf : list range) : res (option distance * metric_m * memory * list range) :=
  distance_m mv true mem mm q cand buf.

(** ** Programs *)

(** The setters, fzf_v1.rs:130-204 and fzf_v2.rs:141-215 *)
Inductive setting := SetCase (cs : case_sensitivity) | SetNorm (b : bool) | SetScheme (s : fzf_scheme).

(** A call of a setter, fzf_v1.rs:130-198, fzf_v2.rs:141-209 *)
Definition set_option (m : metric) (x : setting) : metric :=
  match x with
  | SetCase cs => set_case_sensitivity m cs
  | SetNorm b => set_candidate_normalization m b
  | SetScheme s => set_scoring_scheme m s
  end.

(** A metric of a program, with the last arguments of its setters for the statements. fzf_v1.rs:58, fzf_v2.rs:65. *)
Record owned := MkOwned { ow_algo : algo; ow_options : options; ow_metric : metric_m }.

(** The arguments the setters have had so far, fzf_v1.rs:130-198, fzf_v2.rs:141-209 *)
Definition after_setting (o : options) (x : setting) : options :=
  match x with
  | SetCase cs => with_case o cs
  | SetNorm b => with_norm o b
  | SetScheme s => with_scheme o s
  end.

(** The state of a program which uses parsers and metrics. The parsers, their queries and the memory are as in
    Memory.v; the metrics are in the same memory; [None] is a metric which has been dropped.
    parser.rs:14, fzf_v1.rs:58, fzf_v2.rs:65. *)
Record program := MkProgram { pg_world : world; pg_metrics : list (option owned) }.

(** The program with another memory; see [program], parser.rs:14-23 and slab.rs:79-82 *)
Definition with_mem (w : world) (mem : memory) : world := MkWorld mem (w_parsers w) (w_loans w).

(** One call. A search may be made with any metric and with any query the borrow checker lets the program use; the flags
    say whether the allocator moves a growing buffer. The public functions of parser.rs, fzf_v1.rs and fzf_v2.rs. *)
Inductive pstep : program -> program -> Prop :=
| ps_parser w w' ms :
    step w w' -> pstep (MkProgram w ms) (MkProgram w' ms)
| ps_new w ms a mm mem :
    metric_new_m (w_mem w) a = (mm, mem) ->
    pstep (MkProgram w ms) (MkProgram (with_mem w mem) (ms ++ [Some (MkOwned a default_options mm)]))
| ps_clone w ms i a o mm mm' mem :
    nth_error ms i = Some (Some (MkOwned a o mm)) -> metric_clone_m (w_mem w) mm = Ok (mm', mem) ->
    pstep (MkProgram w ms) (MkProgram (with_mem w mem) (ms ++ [Some (MkOwned a o mm')]))
| ps_drop w ms i a o mm :
    nth_error ms i = Some (Some (MkOwned a o mm)) ->
    pstep (MkProgram w ms) (MkProgram (with_mem w (metric_drop_m (w_mem w) mm)) (upd ms i None))
| ps_set w ms i a o mm x :
    nth_error ms i = Some (Some (MkOwned a o mm)) ->
    pstep (MkProgram w ms)
      (MkProgram w (upd ms i (Some (MkOwned a (after_setting o x) (MkMetricM (mm_slab mm) (set_option (mm_rest mm) x))))))
| ps_distance w ms i a o mm mv b cand d mm' mem :
    nth_error ms i = Some (Some (MkOwned a o mm)) -> In b (w_loans w) ->
    metric_distance_m mv (w_mem w) mm (l_query b) cand = Ok (d, mm', mem) ->
    pstep (MkProgram w ms) (MkProgram (with_mem w mem) (upd ms i (Some (MkOwned a o mm'))))
| ps_distance_and_ranges w ms i a o mm mv b cand buf d mm' mem buf' :
    nth_error ms i = Some (Some (MkOwned a o mm)) -> In b (w_loans w) ->
    metric_distance_and_ranges_m mv (w_mem w) mm (l_query b) cand buf = Ok (d, mm', mem, buf') ->
    pstep (MkProgram w ms) (MkProgram (with_mem w mem) (upd ms i (Some (MkOwned a o mm')))).

(** The states of programs which start without any parser or metric.
    The public functions of parser.rs, fzf_v1.rs and fzf_v2.rs. *)
Inductive program_reached : program -> Prop :=
| pgr_start : program_reached (MkProgram (MkWorld (MkMem [] [] []) [] []) [])
| pgr_step g g' : program_reached g -> pstep g g' -> program_reached g'.

End WithUnicode.
