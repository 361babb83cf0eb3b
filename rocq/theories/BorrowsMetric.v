(** The metrics with the rules of Rust on aliasing: MemoryMetric.v with the references and stacks of Borrows.v.
    The slab of characters of a metric (/repo/src/metrics/fzf/slab.rs:78-107) is a Vec among those of the
    parsers. The casts of the unsafe blocks (fzf_v1.rs:230, fzf_v2.rs:241) are the identity, as in Borrows.v.

    Besides those of Borrows.v there are these simplifications: [fuzzy] and [score] read the pattern and the candidate once,
    at the start of the call, and what they change in the slab of characters they write at the end. *)
From Verif Require Import Prelude Chars Utils Candidate MatchedRanges Query Parser Scoring Slab Fzf FzfV1 FzfV2 Api History MemoryMetric Borrows.

(** FzfV1 (fzf_v1.rs:58-70) or FzfV2 (fzf_v2.rs:65-80): the slab of characters, and the
    other fields. The slab in [mb_rest] is empty and not used. *)
Record metric_b := MkMetricB { mb_slab : bvec; mb_rest : metric }.

(** FzfV1::new and FzfV2::new, fzf_v1.rs:95-97, fzf_v2.rs:105-107: the slab is a new buffer *)
Definition metric_new_b (mem : bmemory) (a : algo) : metric_b * bmemory :=
  let '(v, h) := vec_new (bm_chars mem) (slab_of (metric_new a)) in
  (MkMetricB v (with_slab (metric_new a) []), set_chars mem h).

(** The derived Clone of both metrics, fzf_v1.rs:57 and fzf_v2.rs:64 *)
Definition metric_clone_b (mem : bmemory) (mb : metric_b) : res (metric_b * bmemory) :=
  let* '(v, h) := vec_clone (bm_chars mem) (mb_slab mb) in
  Ok (MkMetricB v (mb_rest mb), set_chars mem h).

(** drop of a metric. fzf_v1.rs:58, fzf_v2.rs:65. *)
Definition metric_drop_b (mem : bmemory) (mb : metric_b) : res bmemory :=
  let* h := vec_drop (bm_chars mem) (mb_slab mb) in
  Ok (set_chars mem h).

(** FzfV1::alloc_chars and FzfV2::alloc_chars, fzf_v1.rs:229-231 and fzf_v2.rs:240-242, with
    CandidateSlab::alloc, slab.rs:93-106; the loop of slab.rs:100-103 is that of parser.rs:175-178 *)
Definition alloc_chars_b (g : growth) (mem : bmemory) (mb : metric_b) (text : str)
  : res (bref * metric_b * bmemory) :=
  let* '(v, h) := vec_grow g (bm_chars mem) (mb_slab mb) (byte_len text) 0%N in
  let* '(h, char_len) := fill_chars_b h v 0 text in
  let* '(r, h) := vec_slice h v 0 char_len in
  Ok (r, MkMetricB v (mb_rest mb), set_chars mem h).

(** Candidate, /repo/src/candidate.rs:7-10. The bytes of an ASCII candidate are those of the user's string. *)
Inductive candidate_b := AsciiB (bytes : list N) | UnicodeB (chars : bref).

(** The characters of the candidate, through the reference. candidate.rs:7-10. *)
Definition read_candidate_b (mem : bmemory) (c : candidate_b) : res (candidate * bmemory) :=
  match c with
  | AsciiB bytes => Ok (Ascii bytes, mem)
  | UnicodeB r => let* '(l, h) := read (bm_chars mem) r in Ok (Unicode l, set_chars mem h)
  end.

(** FzfQuery::is_empty, query.rs:41-46 *)
Definition q_is_empty_b (q : query_b) : bool :=
  match q with
  | ExtendedB r => b_len r =? 0
  | NotExtendedB p => b_len (pb_text p) =? 0
  end.

Section WithUnicode.
Context {UC : unicode}.

(** The elements of a Vec which differ from [old] in [new], written one by one. slab.rs:68-74, 130, 197-201. *)
Fixpoint store_changes (h : bheap char) (v : bvec) (i : nat) (old new : list char) : res (bheap char) :=
  match old, new with
  | x :: old', y :: new' =>
      let* h := if (x =? y)%N then Ok h else vec_set h v i y in
      store_changes h v (i + 1) old' new'
  | _, _ => Ok h
  end.

(** A call of <M as Fzf>::fuzzy (fzf_v1.rs:250-280, fzf_v2.rs:261-332) or Fzf::score (fzf.rs:27-136) with references. The method
    has the whole metric, slab of characters included; where it leaves another character there, it has written it. *)
Definition call_b (f : metric -> pattern -> candidate -> mranges -> res (option score * metric * mranges))
    (mem : bmemory) (mb : metric_b) (p : pattern_b) (c : candidate_b) (ranges : mranges)
  : res (option score * metric_b * bmemory * mranges) :=
  let* '(p, mem) := read_pattern_b mem p in
  let* '(c, mem) := read_candidate_b mem c in
  let* l := cells_at (bm_chars mem) (v_addr (mb_slab mb)) in
  let* '(sc, m, ranges) := f (with_slab (mb_rest mb) (map fst l)) p c ranges in
  let* h := store_changes (bm_chars mem) (mb_slab mb) 0 (map fst l) (slab_of m) in
  Ok (sc, MkMetricB (mb_slab mb) (with_slab m []), set_chars mem h, ranges).

(** find_map over the patterns of a condition, fzf.rs:166-168 *)
Fixpoint score_condition_b (RANGES : bool) (mem : bmemory) (mb : metric_b) (ps : list pattern_b)
    (c : candidate_b) (ranges : mranges) : res (option score * metric_b * bmemory * mranges) :=
  match ps with
  | [] => Ok (None, mb, mem, ranges)
  | p :: ps' =>
      let* '(sc, mb, mem, ranges) := call_b (metric_score RANGES) mem mb p c ranges in
      match sc with
      | Some x => Ok (Some x, mb, mem, ranges)
      | None => score_condition_b RANGES mem mb ps' c ranges
      end
  end.

(** The loop over the conditions, fzf.rs:164-170 *)
Fixpoint score_conditions_b (RANGES : bool) (mem : bmemory) (mb : metric_b) (conds : list bref)
    (c : candidate_b) (total : score) (ranges : mranges)
  : res (option score * metric_b * bmemory * mranges) :=
  match conds with
  | [] => Ok (Some total, mb, mem, ranges)
  | r :: conds' =>
      let* '(ps, h) := read (bm_patterns mem) r in
      let* '(sc, mb, mem, ranges) := score_condition_b RANGES (set_patterns mem h) mb ps c ranges in
      match sc with
      | None => Ok (None, mb, mem, ranges)
      | Some x => score_conditions_b RANGES mem mb conds' c (total + x)%Z ranges
      end
  end.

(** Fzf::distance, fzf.rs:140-173 *)
Definition distance_b (g : growth) (RANGES : bool) (mem : bmemory) (mb : metric_b) (q : query_b) (cand : str)
    (buf : list range) : res (option distance * metric_b * bmemory * list range) :=
  if q_is_empty_b q then Ok (Some (from_score 0), mb, mem, buf)
  else
    let* '(c, mb, mem) :=
      if str_is_ascii cand then Ok (AsciiB (encode cand), mb, mem)
      else let* '(r, mb, mem) := alloc_chars_b g mem mb cand in Ok (UnicodeB r, mb, mem) in
    let ranges := mranges_from buf in
    let* '(sc, mb, mem, ranges) :=
      match q with
      | NotExtendedB p => call_b (metric_fuzzy RANGES) mem mb p c ranges
      | ExtendedB r =>
          let* '(conds, h) := read (bm_conditions mem) r in
          score_conditions_b RANGES (set_conditions mem h) mb conds c 0 ranges
      end in
    Ok (option_map from_score sc, mb, mem, mr_ranges ranges).

(** <M as Metric>::distance, fzf_v1.rs:207-214, fzf_v2.rs:218-225 *)
Definition metric_distance_b (g : growth) (mem : bmemory) (mb : metric_b) (q : query_b) (cand : str)
  : res (option distance * metric_b * bmemory) :=
  let* '(d, mb, mem, _) := distance_b g false mem mb q cand [] in Ok (d, mb, mem).

(** <M as Metric>::distance_and_ranges, fzf_v1.rs:217-224, fzf_v2.rs:228-235 *)
Definition metric_distance_and_ranges_b (g : growth) (mem : bmemory) (mb : metric_b) (q : query_b)
    (cand : str) (buf : list range) : res (option distance * metric_b * bmemory * list range) :=
  distance_b g true mem mb q cand buf.

(** ** Programs *)

(** A metric of a program, with the last arguments of its setters for the statements. fzf_v1.rs:58, fzf_v2.rs:65. *)
Record bowned := MkBOwned { bo_algo : algo; bo_options : options; bo_metric : metric_b }.

(** The state of a program which uses parsers and metrics; [None] is a metric which has been dropped.
    parser.rs:14, fzf_v1.rs:58, fzf_v2.rs:65. *)
Record bprogram := MkBProgram { bp_world : bworld; bp_metrics : list (option bowned) }.

(** The program with another memory; see [bprogram], parser.rs:14-23 and slab.rs:79-82 *)
Definition with_bmem (w : bworld) (mem : bmemory) : bworld := MkBWorld mem (bw_parsers w) (bw_loans w).

(** One call. A search may be made with any metric and with any query the borrow checker lets the program use.
    The public functions of parser.rs, fzf_v1.rs and fzf_v2.rs. *)
Inductive bpstep : bprogram -> bprogram -> Prop :=
| bps_parser w w' ms :
    bstep w w' -> bpstep (MkBProgram w ms) (MkBProgram w' ms)
| bps_new w ms a mb mem :
    metric_new_b (bw_mem w) a = (mb, mem) ->
    bpstep (MkBProgram w ms) (MkBProgram (with_bmem w mem) (ms ++ [Some (MkBOwned a default_options mb)]))
| bps_clone w ms i a o mb mb' mem :
    nth_error ms i = Some (Some (MkBOwned a o mb)) -> metric_clone_b (bw_mem w) mb = Ok (mb', mem) ->
    bpstep (MkBProgram w ms) (MkBProgram (with_bmem w mem) (ms ++ [Some (MkBOwned a o mb')]))
| bps_drop w ms i a o mb mem :
    nth_error ms i = Some (Some (MkBOwned a o mb)) -> metric_drop_b (bw_mem w) mb = Ok mem ->
    bpstep (MkBProgram w ms) (MkBProgram (with_bmem w mem) (upd ms i None))
| bps_set w ms i a o mb x :
    nth_error ms i = Some (Some (MkBOwned a o mb)) ->
    bpstep (MkBProgram w ms)
      (MkBProgram w (upd ms i (Some (MkBOwned a (after_setting o x) (MkMetricB (mb_slab mb) (set_option (mb_rest mb) x))))))
| bps_distance w ms i a o mb g b cand d mb' mem :
    nth_error ms i = Some (Some (MkBOwned a o mb)) -> In b (bw_loans w) ->
    metric_distance_b g (bw_mem w) mb (bl_query b) cand = Ok (d, mb', mem) ->
    bpstep (MkBProgram w ms) (MkBProgram (with_bmem w mem) (upd ms i (Some (MkBOwned a o mb'))))
| bps_distance_and_ranges w ms i a o mb g b cand buf d mb' mem buf' :
    nth_error ms i = Some (Some (MkBOwned a o mb)) -> In b (bw_loans w) ->
    metric_distance_and_ranges_b g (bw_mem w) mb (bl_query b) cand buf = Ok (d, mb', mem, buf') ->
    bpstep (MkBProgram w ms) (MkBProgram (with_bmem w mem) (upd ms i (Some (MkBOwned a o mb')))).

(** The states of programs which start without any parser or metric.
    The public functions of parser.rs, fzf_v1.rs and fzf_v2.rs. *)
Inductive bprogram_reached : bprogram -> Prop :=
| bpr_start : bprogram_reached (MkBProgram (MkBWorld (MkBMem (MkHeap [] 0) (MkHeap [] 0) (MkHeap [] 0)) [] []) [])
| bpr_step g g' : bprogram_reached g -> bpstep g g' -> bprogram_reached g'.

End WithUnicode.
