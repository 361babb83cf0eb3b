(** Threads which parse and search. In BorrowsThreads.v the threads only search, with queries which have been parsed before they start.
    Here each thread also borrows a parser, with which it parses any number of queries (FzfParser::parse and parse_not_extended take
    [&mut self], /repo/src/metrics/fzf/parser.rs:87 and 172; FzfParser has no fields which keep it from being [Send], parser.rs:14-23).

    The thread may also set the options of its metric, and replace the metric or the parser by a new one.

    Simplification: a call of parse or parse_not_extended is one step, and so is the creation of a parser or metric with the drop of the old one, while the
    searches are sequences of steps as in BorrowsThreads.v. (C90: parsing has access to the buffers of its own parser only.) *)
From Verif Require Import Prelude Chars Utils Candidate MatchedRanges Query Parser Scoring Slab Fzf FzfV1 FzfV2 Api History MemoryMetric
  Borrows BorrowsMetric BorrowsThreads.

Section WithUnicode.
Context {UC : unicode}.

(** What a thread does: parse a string (parser.rs:87 if [extended], else parser.rs:172), search as in [tcall] (metric.rs:45, 124),
    with a query which the program has parsed before ([Some]), or with the one which the thread has parsed last ([None]), set an option of the
    metric (fzf_v1.rs:130-198, fzf_v2.rs:141-209), or assign a new metric (fzf_v1.rs:95, fzf_v2.rs:105) or parser (parser.rs:46) to the place it
    borrows, which drops the old one. *)
Inductive work :=
| WParse (g1 g2 g3 : growth) (extended : bool) (s : str)
| WSearch (g : growth) (query : option bloan) (cand : str) (ranges : option (list range))
| WSet (x : setting)
| WNewMetric
| WNewParser.

(** What a thread leaves when it ends: its metric, its parser, the query which it has parsed last and which still borrows
    that parser, and the results of the searches. The caller's code, which calls parser.rs:87, 172 and metric.rs:45, 124. *)
Record wresult := MkWResult {
  wr_metric : bowned;
  wr_parser : parser_b;
  wr_loan : option bloan;
  wr_out : list (option distance * list range)
}.

(** FzfParser::parse, parser.rs:87-135, or FzfParser::parse_not_extended, parser.rs:172-181, by parser number [j] *)
Definition parse_p (j : nat) (g1 g2 g3 : growth) (extended : bool) (p : parser_b) (s : str) : prog (bloan * parser_b) :=
  Step (fun mem =>
    if extended then let* '(q, p, mem) := parse_b g1 g2 g3 mem p s in Ok ((MkBLoan j q true s, p), mem)
    else let* '(q, mem) := parse_not_extended_b mem p s in Ok ((MkBLoan j q false s, p), mem)) (fun y => Done (Ok y)).

(** [*metric = FzfV1::new()], or of FzfV2: fzf_v1.rs:95-97, fzf_v2.rs:105-107, and the drop of the old one *)
Definition renew_metric_p (k : bowned) : prog bowned :=
  Step (fun mem =>
    let '(mb, mem) := metric_new_b mem (bo_algo k) in
    let* mem := metric_drop_b mem (bo_metric k) in
    Ok (MkBOwned (bo_algo k) default_options mb, mem)) (fun y => Done (Ok y)).

(** [*parser = FzfParser::new()]: parser.rs:25-48, and the drop of the old one *)
Definition renew_parser_p (p : parser_b) : prog parser_b :=
  Step (fun mem =>
    let '(p', mem) := parser_new_b mem in
    let* mem := parser_drop_b mem p in
    Ok (p', mem)) (fun y => Done (Ok y)).

(** A thread with the metric [k] and with parser number [j], which is [p]; [cur] is the query which it has parsed last. A search
    for a query of its own before it has parsed one is not accepted by rustc ([hired] excludes it), here it panics.
    The caller's code, which calls parser.rs:87, 172 and metric.rs:45, 124. *)
Fixpoint worker_p (j : nat) (k : bowned) (p : parser_b) (cur : option bloan) (ws : list work) : prog wresult :=
  match ws with
  | [] => Done (Ok (MkWResult k p cur []))
  | WParse g1 g2 g3 extended s :: ws' =>
      pbind (parse_p j g1 g2 g3 extended p s) (fun '(b, p) => worker_p j k p (Some b) ws')
  | WSearch g query cand ranges :: ws' =>
      match (match query with Some b => Some b | None => cur end) with
      | None => Done Panic
      | Some b =>
          pbind (search_p (bo_metric k) (MkCall g b cand ranges)) (fun '(d, rs, mb) =>
          pbind (worker_p j (MkBOwned (bo_algo k) (bo_options k) mb) p cur ws') (fun r =>
          Done (Ok (MkWResult (wr_metric r) (wr_parser r) (wr_loan r) ((d, rs) :: wr_out r)))))
      end
  | WSet x :: ws' =>
      worker_p j (MkBOwned (bo_algo k) (after_setting (bo_options k) x)
        (MkMetricB (mb_slab (bo_metric k)) (set_option (mb_rest (bo_metric k)) x))) p cur ws'
  | WNewMetric :: ws' => pbind (renew_metric_p k) (fun k => worker_p j k p cur ws')
  | WNewParser :: ws' => pbind (renew_parser_p p) (fun p => worker_p j k p None ws')
  end.

(** A thread: the metric and the parser which it borrows, and what it does. &mut self in parser.rs:87, 172 and metric.rs:45, 124. *)
Record job := MkJob { jb_metric : nat; jb_parser : nat; jb_works : list work }.

(** What rustc accepts, and parse_not_extended does not panic for: [parsed] says whether the thread has a query of its own, which borrows its parser. All strings given to
    parse_not_extended have at most 64 characters (parser.rs:28-30 and 172-181; a longer one can panic, C03). The queries [ls] may be shared. *)
Fixpoint allowed (ls : list bloan) (parsed : bool) (ws : list work) : Prop :=
  match ws with
  | [] => True
  | WParse _ _ _ extended s :: ws' => (extended = false -> length s <= 64) /\ allowed ls true ws'
  | WSearch _ (Some b) _ _ :: ws' => In b ls /\ allowed ls parsed ws'
  | WSearch _ None _ _ :: ws' => parsed = true /\ allowed ls parsed ws'
  | WSet _ :: ws' => allowed ls parsed ws'
  | WNewMetric :: ws' => allowed ls parsed ws'
  | WNewParser :: ws' => allowed ls false ws'
  end.

(** The queries whose parsers no thread borrows. &'a mut self in parser.rs:87 and 172. *)
Definition free_loans (jobs : list job) (ls : list bloan) : list bloan :=
  filter (fun b => negb (existsb (Nat.eqb (bl_parser b)) (map jb_parser jobs))) ls.

(** The threads which a program may start at a time: no two borrow the same metric or the same parser, and the queries which they
    share with the program borrow other parsers. &mut self in parser.rs:87, 172 and metric.rs:45, 124. *)
Definition hired (g : bprogram) (jobs : list job) (ts : list (prog wresult)) : Prop :=
  NoDup (map jb_metric jobs) /\ NoDup (map jb_parser jobs)
  /\ Forall2 (fun jb t => exists k p, nth_error (bp_metrics g) (jb_metric jb) = Some (Some k)
       /\ nth_error (bw_parsers (bp_world g)) (jb_parser jb) = Some (Some p)
       /\ allowed (free_loans jobs (bw_loans (bp_world g))) false (jb_works jb)
       /\ t = worker_p (jb_parser jb) k p None (jb_works jb)) jobs ts.

(** The metrics when the threads have ended with the results [rs]. The caller's code, which calls metric.rs:45, 124. *)
Fixpoint back_metrics (ms : list (option bowned)) (jobs : list job) (rs : list wresult) : list (option bowned) :=
  match jobs, rs with
  | jb :: jobs', r :: rs' => back_metrics (upd ms (jb_metric jb) (Some (wr_metric r))) jobs' rs'
  | _, _ => ms
  end.

(** The parsers when the threads have ended. The caller's code, which calls parser.rs:87, 172. *)
Fixpoint back_parsers (ps : list (option parser_b)) (jobs : list job) (rs : list wresult) : list (option parser_b) :=
  match jobs, rs with
  | jb :: jobs', r :: rs' => back_parsers (upd ps (jb_parser jb) (Some (wr_parser r))) jobs' rs'
  | _, _ => ps
  end.

(** The queries which the threads return; the lifetime is that of the borrow of the parser, parser.rs:87 and 172 *)
Definition back_loans (rs : list wresult) : list bloan :=
  flat_map (fun r => match wr_loan r with Some b => [b] | None => [] end) rs.

(** The program when the threads have ended with the results [rs]. The caller's code, which calls parser.rs:87, 172 and metric.rs:45, 124. *)
Definition rejoined (g : bprogram) (jobs : list job) (mem : bmemory) (rs : list wresult) : bprogram :=
  MkBProgram (MkBWorld mem (back_parsers (bw_parsers (bp_world g)) jobs rs) (back_loans rs ++ free_loans jobs (bw_loans (bp_world g))))
    (back_metrics (bp_metrics g) jobs rs).

(** The states of programs which make the calls of BorrowsMetric.v and which, any number of times, start threads as std::thread::scope
    does and wait until they have ended. The public functions of parser.rs, fzf_v1.rs and fzf_v2.rs. *)
Inductive wprogram_reached : bprogram -> Prop :=
| wpr_start : wprogram_reached (MkBProgram (MkBWorld (MkBMem (MkHeap [] 0) (MkHeap [] 0) (MkHeap [] 0)) [] []) [])
| wpr_call g g' : wprogram_reached g -> bpstep g g' -> wprogram_reached g'
| wpr_workers g jobs ts mem rs :
    wprogram_reached g -> hired g jobs ts -> schedule (bw_mem (bp_world g), ts) (mem, map (fun r => Done (Ok r)) rs) ->
    wprogram_reached (rejoined g jobs mem rs).

End WithUnicode.
