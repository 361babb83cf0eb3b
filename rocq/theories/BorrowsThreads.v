(** Searches on several threads at once, with the rules on aliasing of Borrows.v. The library starts no threads. But
    its types have no fields which keep them from being [Send] and [Sync], so that a program may search on several threads
    with the same query, each with a metric of its own (Metric::distance and distance_and_ranges take [&mut self] and the query
    by value, which is [Copy]: /repo/src/metric.rs:45-49 and 124-129, /repo/src/metrics/fzf/query.rs:7-10).

    A search is written a second time, as the sequence of its accesses to memory (the first is BorrowsMetric.v, and
    [run_distance_p] in BorrowsThreadsProofs.v shows that they agree). Threads are interleaved between any two of
    these steps. Simplification: the steps are those of BorrowsMetric.v; the growth of
    a Vec, the write of one element and the read of what one reference points to are one step each. *)
From Verif Require Import Prelude Chars Utils Candidate MatchedRanges Query Parser Scoring Slab Fzf FzfV1 FzfV2 Api History MemoryMetric Borrows BorrowsMetric.

(** ** Programs as sequences of steps *)

(** A computation which is finished, or has a step to do before it goes on.
    The accesses of fzf.rs:140-173 and what it calls. *)
Inductive prog (A : Type) : Type :=
| Done (r : res A)
| Step {B : Type} (op : bmemory -> res (B * bmemory)) (k : B -> prog A).
Arguments Done {A}.
Arguments Step {A B}.

(** One computation after another. As statements in fzf.rs:140-173. *)
Fixpoint pbind {A B} (p : prog A) (f : A -> prog B) : prog B :=
  match p with
  | Done (Ok x) => f x
  | Done Panic => Done Panic
  | Done OutOfFuel => Done OutOfFuel
  | Step op k => Step op (fun y => pbind (k y) f)
  end.

(** One step which works on the characters only. slab.rs:93-106. *)
Definition on_chars {B} (f : bheap char -> res (B * bheap char)) (mem : bmemory) : res (B * bmemory) :=
  let* '(y, h) := f (bm_chars mem) in Ok (y, set_chars mem h).

(** A step without a result, e.g. slab.rs:101 *)
Definition no_value {A} (f : bheap char -> res (bheap char)) (x : A) (h : bheap char) : res (A * bheap char) :=
  let* h := f h in Ok (x, h).

(** All the steps, without any other thread. One call of fzf.rs:140-173. *)
Fixpoint run_alone {A} (p : prog A) (mem : bmemory) : res (A * bmemory) :=
  match p with
  | Done r => let* x := r in Ok (x, mem)
  | Step op k => let* '(y, mem) := op mem in run_alone (k y) mem
  end.

(** ** A search *)

(** The loop of CandidateSlab::alloc, slab.rs:100-103 *)
Fixpoint fill_chars_p (v : bvec) (char_len : nat) (s : str) : prog nat :=
  match s with
  | [] => Done (Ok char_len)
  | c :: s' => Step (on_chars (no_value (fun h => vec_set h v char_len c) tt)) (fun _ => fill_chars_p v (char_len + 1) s')
  end.

(** FzfV1::alloc_chars and FzfV2::alloc_chars, fzf_v1.rs:229-231 and fzf_v2.rs:240-242, with CandidateSlab::alloc, slab.rs:93-106 *)
Definition alloc_chars_p (g : growth) (mb : metric_b) (text : str) : prog (bref * metric_b) :=
  Step (on_chars (fun h => vec_grow g h (mb_slab mb) (byte_len text) 0%N)) (fun v =>
  pbind (fill_chars_p v 0 text) (fun char_len =>
  Step (on_chars (fun h => vec_slice h v 0 char_len)) (fun r =>
  Done (Ok (r, MkMetricB v (mb_rest mb)))))).

Section WithUnicode.
Context {UC : unicode}.

(** [store_changes], BorrowsMetric.v. slab.rs:68-74, 130, 197-201. *)
Fixpoint store_changes_p (v : bvec) (i : nat) (old new : list char) : prog unit :=
  match old, new with
  | x :: old', y :: new' =>
      if (x =? y)%N then store_changes_p v (i + 1) old' new'
      else Step (on_chars (no_value (fun h => vec_set h v i y) tt)) (fun _ => store_changes_p v (i + 1) old' new')
  | _, _ => Done (Ok tt)
  end.

(** A call of <M as Fzf>::fuzzy (fzf_v1.rs:250-280, fzf_v2.rs:261-332) or Fzf::score (fzf.rs:27-136), see [call_b] *)
Definition call_p (f : metric -> pattern -> candidate -> mranges -> res (option score * metric * mranges))
    (mb : metric_b) (p : pattern_b) (c : candidate_b) (ranges : mranges) : prog (option score * metric_b * mranges) :=
  Step (fun mem => read_pattern_b mem p) (fun p =>
  Step (fun mem => read_candidate_b mem c) (fun c =>
  Step (on_chars (fun h => let* l := cells_at h (v_addr (mb_slab mb)) in Ok (map fst l, h))) (fun l =>
  pbind (Done (f (with_slab (mb_rest mb) l) p c ranges)) (fun '(sc, m, ranges) =>
  pbind (store_changes_p (mb_slab mb) 0 l (slab_of m)) (fun _ =>
  Done (Ok (sc, MkMetricB (mb_slab mb) (with_slab m []), ranges))))))).

(** find_map over the patterns of a condition, fzf.rs:166-168 *)
Fixpoint score_condition_p (RANGES : bool) (mb : metric_b) (ps : list pattern_b)
    (c : candidate_b) (ranges : mranges) : prog (option score * metric_b * mranges) :=
  match ps with
  | [] => Done (Ok (None, mb, ranges))
  | p :: ps' =>
      pbind (call_p (metric_score RANGES) mb p c ranges) (fun '(sc, mb, ranges) =>
      match sc with
      | Some x => Done (Ok (Some x, mb, ranges))
      | None => score_condition_p RANGES mb ps' c ranges
      end)
  end.

(** The loop over the conditions, fzf.rs:164-170 *)
Fixpoint score_conditions_p (RANGES : bool) (mb : metric_b) (conds : list bref)
    (c : candidate_b) (total : score) (ranges : mranges) : prog (option score * metric_b * mranges) :=
  match conds with
  | [] => Done (Ok (Some total, mb, ranges))
  | r :: conds' =>
      Step (fun mem => let* '(ps, h) := read (bm_patterns mem) r in Ok (ps, set_patterns mem h)) (fun ps =>
      pbind (score_condition_p RANGES mb ps c ranges) (fun '(sc, mb, ranges) =>
      match sc with
      | None => Done (Ok (None, mb, ranges))
      | Some x => score_conditions_p RANGES mb conds' c (total + x)%Z ranges
      end))
  end.

(** Fzf::distance, fzf.rs:140-173 *)
Definition distance_p (g : growth) (RANGES : bool) (mb : metric_b) (q : query_b) (cand : str)
    (buf : list range) : prog (option distance * metric_b * list range) :=
  if q_is_empty_b q then Done (Ok (Some (from_score 0), mb, buf))
  else
    pbind
      (if str_is_ascii cand then Done (Ok (AsciiB (encode cand), mb))
       else pbind (alloc_chars_p g mb cand) (fun '(r, mb) => Done (Ok (UnicodeB r, mb)))) (fun '(c, mb) =>
    let ranges := mranges_from buf in
    pbind
      (match q with
       | NotExtendedB p => call_p (metric_fuzzy RANGES) mb p c ranges
       | ExtendedB r =>
           Step (fun mem => let* '(conds, h) := read (bm_conditions mem) r in Ok (conds, set_conditions mem h)) (fun conds =>
           score_conditions_p RANGES mb conds c 0 ranges)
       end) (fun '(sc, mb, ranges) =>
    Done (Ok (option_map from_score sc, mb, mr_ranges ranges)))).

(** ** Threads *)

(** A search of a thread: the query, the candidate, and the vector which is given to distance_and_ranges, or [None]
    for a call of distance. metric.rs:45, 124. *)
Record tcall := MkCall { tc_growth : growth; tc_loan : bloan; tc_cand : str; tc_ranges : option (list range) }.

(** <M as Metric>::distance (fzf_v1.rs:207-214, fzf_v2.rs:218-225) or <M as Metric>::distance_and_ranges
    (fzf_v1.rs:217-224, fzf_v2.rs:228-235) *)
Definition search_p (mb : metric_b) (c : tcall) : prog (option distance * list range * metric_b) :=
  match tc_ranges c with
  | None =>
      pbind (distance_p (tc_growth c) false mb (bl_query (tc_loan c)) (tc_cand c) []) (fun '(d, mb, _) =>
      Done (Ok (d, [], mb)))
  | Some buf =>
      pbind (distance_p (tc_growth c) true mb (bl_query (tc_loan c)) (tc_cand c) buf) (fun '(d, mb, buf) =>
      Done (Ok (d, buf, mb)))
  end.

(** A thread which makes these searches with a metric: the metric at the end, and the results.
    The caller's code; the calls are those of metric.rs:45, 124. *)
Fixpoint thread_p (mb : metric_b) (cs : list tcall) : prog (metric_b * list (option distance * list range)) :=
  match cs with
  | [] => Done (Ok (mb, []))
  | c :: cs' =>
      pbind (search_p mb c) (fun '(d, rs, mb) =>
      pbind (thread_p mb cs') (fun '(mb, out) =>
      Done (Ok (mb, (d, rs) :: out))))
  end.

Notation thread := (prog (metric_b * list (option distance * list range))).

(** One step of a thread. One which has panicked does nothing more. The caller's code, which calls metric.rs:45, 124. *)
Definition thread_step {A} (mem : bmemory) (t : prog A) : bmemory * prog A :=
  match t with
  | Done r => (mem, t)
  | Step op k =>
      match op mem with
      | Ok (y, mem) => (mem, k y)
      | Panic => (mem, Done Panic)
      | OutOfFuel => (mem, Done OutOfFuel)
      end
  end.

(** A thread which has ended or panicked; the caller's code, which calls metric.rs:45, 124 *)
Definition is_done {A} (t : prog A) : bool := match t with Done _ => true | Step _ _ => false end.

(** One step of one of the threads which are not finished. The caller's code, which calls metric.rs:45, 124. *)
Inductive sched {A} : bmemory * list (prog A) -> bmemory * list (prog A) -> Prop :=
| sched_step mem ts i t mem' t' :
    nth_error ts i = Some t -> is_done t = false -> thread_step mem t = (mem', t') ->
    sched (mem, ts) (mem', upd ts i t').

(** The steps of the threads in any order. The caller's code, which calls metric.rs:45, 124. *)
Inductive schedule {A} : bmemory * list (prog A) -> bmemory * list (prog A) -> Prop :=
| schedule_none st : schedule st st
| schedule_more st1 st2 st3 : schedule st1 st2 -> sched st2 st3 -> schedule st1 st3.

(** The threads which a program may start at a time: each borrows a metric, and no two borrow the same one. All may use
    the queries which the program has. &mut self in metric.rs:45, 124. *)
Definition spawned (g : bprogram) (jobs : list (nat * list tcall)) (ts : list thread) : Prop :=
  NoDup (map fst jobs)
  /\ Forall2 (fun job t => exists k, nth_error (bp_metrics g) (fst job) = Some (Some k)
       /\ (forall c, In c (snd job) -> In (tc_loan c) (bw_loans (bp_world g)))
       /\ t = thread_p (bo_metric k) (snd job)) jobs ts.

(** The metrics when the threads have ended. The caller's code, which calls metric.rs:45, 124. *)
Fixpoint joined (ms : list (option bowned)) (jobs : list (nat * list tcall)) (ts : list thread) : list (option bowned) :=
  match jobs, ts with
  | (i, _) :: jobs', Done (Ok (mb, _)) :: ts' =>
      joined (match nth_error ms i with
              | Some (Some k) => upd ms i (Some (MkBOwned (bo_algo k) (bo_options k) mb))
              | _ => ms
              end) jobs' ts'
  | _, _ => ms
  end.

(** The states of programs which make the calls of BorrowsMetric.v and which, any number of times, start threads as
    std::thread::scope does and wait until they have ended. The public functions of parser.rs, fzf_v1.rs and fzf_v2.rs. *)
Inductive tprogram_reached : bprogram -> Prop :=
| tpr_start : tprogram_reached (MkBProgram (MkBWorld (MkBMem (MkHeap [] 0) (MkHeap [] 0) (MkHeap [] 0)) [] []) [])
| tpr_call g g' : tprogram_reached g -> bpstep g g' -> tprogram_reached g'
| tpr_threads g jobs ts mem ts' :
    tprogram_reached g -> spawned g jobs ts -> schedule (bw_mem (bp_world g), ts) (mem, ts') -> forallb is_done ts' = true ->
    tprogram_reached (MkBProgram (with_bmem (bp_world g) mem) (joined (bp_metrics g) jobs ts')).

End WithUnicode.
