(** Properties C89 and C90: searches on several threads. See Properties_results.v for the conventions. *)
From Coq Require Import String.
From Verif Require Import Prelude Chars Normalize Utils Candidate MatchedRanges Query Parser Scoring Fzf Api History MemoryMetric Borrows BorrowsMetric BorrowsThreads
  Spec SpecThreads.
From Verif Require Import BorrowsMetricProofs BorrowsThreadsProofs Claims1 Claims25 ExampleKit.
Local Open Scope nat_scope.

(** ** C89. Threads which search at the same time get the results they would get alone *)

(** BorrowsThreads.v has a search as the sequence of its accesses to the shared memory, and threads whose steps are
    interleaved in any order ([schedule]). Each thread borrows a metric of its own ([spawned]) and
    makes any number of searches, with queries which all threads may use. [tprogram_reached] are the states of programs which create, use and
    drop parsers and metrics, and start threads any number of times.

    Whatever the schedule, a thread which has stopped has not panicked, and its results are those which a metric returns that no
    other thread and no other search has anything to do with. *)
Theorem C89_threads : forall (UC : unicode) g jobs ts mem ts',
  tprogram_reached g -> spawned g jobs ts -> schedule (bw_mem (bp_world g), ts) (mem, ts') ->
  forall n i cs t, nth_error jobs n = Some (i, cs) -> nth_error ts' n = Some t -> is_done t = true ->
  exists k mb out, nth_error (bp_metrics g) i = Some (Some k) /\ t = Done (Ok (mb, out))
    /\ Forall2 (answers (bo_algo k) (bo_options k)) cs out.
Proof. exact (@c89_threads). Qed.
Print Assumptions C89_threads.

(** There is no schedule without an end. (A thread which has not stopped can always make a step: [sched].) *)
Theorem C89_ends : forall (A : Type) mem (ts : list (prog A)), Acc (fun st' st => sched st st') (mem, ts).
Proof. exact c89_ends. Qed.
Print Assumptions C89_ends.

(** After the threads have ended the program can go on, with the metrics they leave: every search returns, and returns
    what a metric without memory returns. *)
Theorem C89_search : forall (UC : unicode) g i k b gr cand buf m,
  tprogram_reached g -> nth_error (bp_metrics g) i = Some (Some k) -> In b (bw_loans (bp_world g)) ->
  metric_reached (bo_algo k) (bo_options k) m ->
  exists q d new m1 m2 mb1 mem1 mb2 mem2,
    (if bl_extended b then exists ps, parse parser_new (bl_string b) = Ok (q, ps) else q = new_not_extended (bl_string b))
    /\ metric_distance m q cand = Ok (d, m1)
    /\ metric_distance_and_ranges m q cand buf = Ok (d, m2, buf ++ new)
    /\ metric_distance_b gr (bw_mem (bp_world g)) (bo_metric k) (bl_query b) cand = Ok (d, mb1, mem1)
    /\ metric_distance_and_ranges_b gr (bw_mem (bp_world g)) (bo_metric k) (bl_query b) cand buf = Ok (d, mb2, mem2, buf ++ new).
Proof. exact (@c89_search). Qed.
Print Assumptions C89_search.

(** The sequence of accesses is that of the search of BorrowsMetric.v: one thread alone does what that search does. *)
Theorem C89_alone : forall (UC : unicode) gr RANGES mb q cand buf mem,
  run_alone (distance_p gr RANGES mb q cand buf) mem
  = let* '(d, mb, mem, buf) := distance_b gr RANGES mem mb q cand buf in Ok ((d, mb, buf), mem).
Proof. exact (@run_distance_p). Qed.
Print Assumptions C89_alone.

(** Three threads with two queries and candidates which are not ASCII, so that all write to their slabs, and the slabs grow. They are interleaved step by step; after
    40 steps none is finished. *)
Example C89_example (UC := latin) :
  let long := repeat 233%N 70 ++ txt "foo bar" in
  let calls := [BNew AlgoV2; BNew AlgoV1; BNew AlgoV2; BParser; BParser; BParse 0 Moved Moved Moved (txt "fo 'bar | x");
    BParseNotExtended 1 (txt "ob"); BSet 2 (SetCase Sensitive)] in
  let searches := [(0, [(Moved, 1, long, Some []); (Within, 0, txt "Ob", None)]);
    (2, [(InPlace, 0, long, None); (Moved, 1, txt "fox", Some [(1, 2)])]); (1, [(Moved, 1, long, None)])] in
  exists g rs jobs ts, brun calls start_bprogram = Some (g, rs) /\ tprogram_reached g /\ spawn g searches = Some (jobs, ts) /\ spawned g jobs ts
    /\ (let st := steps (flat_map (fun _ => [0; 1; 2]) (seq 0 14)) (bw_mem (bp_world g), ts) in
        schedule (bw_mem (bp_world g), ts) st /\ outputs (snd st) = [None; None; None])
    /\ (let st := steps (flat_map (fun _ => [0; 1; 2]) (seq 0 200)) (bw_mem (bp_world g), ts) in
        schedule (bw_mem (bp_world g), ts) st /\ forallb is_done (snd st) = true
        /\ outputs (snd st) = [Some [(Some (Distance 124), [(140, 142); (144, 147)]); (Some (Distance 62), [])];
             Some [(Some (Distance 39), []); (Some (Distance 78), [(1, 2); (0, 3)])]; Some [(Some (Distance 124), [])]]
        /\ tprogram_reached (MkBProgram (with_bmem (bp_world g) (fst st)) (joined (bp_metrics g) jobs (snd st)))).
Proof.
  intros long calls searches.
  assert (X : match brun calls start_bprogram with
    | Some (g, _) => match spawn g searches with
        | Some (_, ts) =>
            outputs (snd (steps (flat_map (fun _ => [0; 1; 2]) (seq 0 14)) (bw_mem (bp_world g), ts))) = [None; None; None]
            /\ match steps (flat_map (fun _ => [0; 1; 2]) (seq 0 200)) (bw_mem (bp_world g), ts) with
               | (_, ts') => forallb is_done ts' = true
                  /\ outputs ts' = [Some [(Some (Distance 124), [(140, 142); (144, 147)]); (Some (Distance 62), [])];
                       Some [(Some (Distance 39), []); (Some (Distance 78), [(1, 2); (0, 3)])]; Some [(Some (Distance 124), [])]]
               end
        | None => False
        end
    | None => False
    end).
  { vm_compute. split; [reflexivity|]. split; reflexivity. }
  destruct (brun calls start_bprogram) as [[g rs]|] eqn:E1; [|contradiction]. destruct (spawn g searches) as [[jobs ts]|] eqn:E2; [|contradiction].
  pose proof (without_threads _ (brun_reached _ _ _ _ bpr_start E1)) as R. pose proof (spawn_spawned _ _ _ _ E2) as Sp.
  clearbody calls searches. clear E1. exists g, rs, jobs, ts. cbv zeta.
  pose proof (steps_schedule _ (flat_map (fun _ => [0; 1; 2]) (seq 0 200)) _ _ (schedule_none (bw_mem (bp_world g), ts))) as Sc.
  pose proof (steps_schedule _ (flat_map (fun _ => [0; 1; 2]) (seq 0 14)) _ _ (schedule_none (bw_mem (bp_world g), ts))) as Sc1.
  destruct (steps (flat_map (fun _ => [0; 1; 2]) (seq 0 200)) (bw_mem (bp_world g), ts)) as [mem2 ts2].
  destruct (steps (flat_map (fun _ => [0; 1; 2]) (seq 0 14)) (bw_mem (bp_world g), ts)) as [mem1 ts1].
  cbn [fst snd] in *. destruct X as (X1 & X2 & X3). split; [reflexivity|]. split; [exact R|]. split; [exact E2|]. split; [exact Sp|]. split; [auto|].
  split; [exact Sc|]. split; [exact X2|]. split; [exact X3|]. eapply tpr_threads; eassumption.
Qed.

(** ** C90. A search has access to its metric's memory, and reads the memory of the query's parser *)

(** In [mem'] the buffers of the query's parser may not be written to by anybody, and all others may have been freed, except for
    the metric's own ([lent], SpecThreads.v). An access to a freed buffer, and a write to one which may only be read, is [Panic]. Nevertheless a search in [mem'] returns, with the same result: at no time does
    it access anything else, or write to the query. It leaves all other buffers as they are, with their stacks. This is more than is
    seen from C89, where what is one step of a thread may be several accesses: there are no data races. *)
Theorem C90_search : forall (UC : unicode) g i k b p mem' gr cand buf,
  tprogram_reached g -> nth_error (bp_metrics g) i = Some (Some k) -> In b (bw_loans (bp_world g)) ->
  nth_error (bw_parsers (bp_world g)) (bl_parser b) = Some (Some p) ->
  lent (bw_mem (bp_world g)) p (v_addr (mb_slab (bo_metric k))) mem' ->
  (exists d mb1 mem1 mb2 mem2,
     metric_distance_b gr (bw_mem (bp_world g)) (bo_metric k) (bl_query b) cand = Ok (d, mb1, mem1)
     /\ metric_distance_b gr mem' (bo_metric k) (bl_query b) cand = Ok (d, mb2, mem2)
     /\ bm_patterns mem2 = bm_patterns mem' /\ bm_conditions mem2 = bm_conditions mem'
     /\ forall a l, a <> v_addr (mb_slab (bo_metric k)) ->
          nth_error (hp (bm_chars mem')) a = Some (Some l) -> nth_error (hp (bm_chars mem2)) a = Some (Some l))
  /\ (exists d new mb1 mem1 mb2 mem2,
     metric_distance_and_ranges_b gr (bw_mem (bp_world g)) (bo_metric k) (bl_query b) cand buf = Ok (d, mb1, mem1, buf ++ new)
     /\ metric_distance_and_ranges_b gr mem' (bo_metric k) (bl_query b) cand buf = Ok (d, mb2, mem2, buf ++ new)
     /\ bm_patterns mem2 = bm_patterns mem' /\ bm_conditions mem2 = bm_conditions mem'
     /\ forall a l, a <> v_addr (mb_slab (bo_metric k)) ->
          nth_error (hp (bm_chars mem')) a = Some (Some l) -> nth_error (hp (bm_chars mem2)) a = Some (Some l)).
Proof. exact (@c90_search). Qed.
Print Assumptions C90_search.

(** There is always such a memory [mem']: the one in which all the other buffers have been freed. *)
Theorem C90_lent : forall (UC : unicode) g i k j p,
  tprogram_reached g -> nth_error (bp_metrics g) i = Some (Some k) -> nth_error (bw_parsers (bp_world g)) j = Some (Some p) ->
  lent (bw_mem (bp_world g)) p (v_addr (mb_slab (bo_metric k))) (only_these (bw_mem (bp_world g)) p (v_addr (mb_slab (bo_metric k)))).
Proof. exact (@c90_lent). Qed.
Print Assumptions C90_lent.

(** Parsing has access to the buffers of the parser only: the others may have been freed. *)
Theorem C90_parse : forall (UC : unicode) g i p mem' g1 g2 g3 s,
  tprogram_reached g -> nth_error (bw_parsers (bp_world g)) i = Some (Some p) -> owned (bw_mem (bp_world g)) p mem' ->
  exists q ps qb1 p1 mem1 qb2 p2 mem2,
    parse parser_new s = Ok (q, ps)
    /\ parse_b g1 g2 g3 (bw_mem (bp_world g)) p s = Ok (qb1, p1, mem1) /\ read_query_b mem1 qb1 = Ok (q, mem1)
    /\ parse_b g1 g2 g3 mem' p s = Ok (qb2, p2, mem2) /\ read_query_b mem2 qb2 = Ok (q, mem2).
Proof. exact (@c90_parse). Qed.
Print Assumptions C90_parse.

Theorem C90_parse_not_extended : forall (UC : unicode) g i p mem' s,
  tprogram_reached g -> nth_error (bw_parsers (bp_world g)) i = Some (Some p) -> owned (bw_mem (bp_world g)) p mem' ->
  (parse_not_extended_b (bw_mem (bp_world g)) p s = Panic /\ parse_not_extended_b mem' p s = Panic)
  \/ exists qb1 mem1 qb2 mem2,
    parse_not_extended_b (bw_mem (bp_world g)) p s = Ok (qb1, mem1) /\ read_query_b mem1 qb1 = Ok (new_not_extended s, mem1)
    /\ parse_not_extended_b mem' p s = Ok (qb2, mem2) /\ read_query_b mem2 qb2 = Ok (new_not_extended s, mem2).
Proof. exact (@c90_parse_not_extended). Qed.
Print Assumptions C90_parse_not_extended.

(** A program with two parsers and two metrics. With everything else freed, metric 0 searches with the query of parser 0, and
    its slab grows and moves. The query of the other parser cannot be read there, the other metric cannot search a candidate
    which it has to write to its slab, and parser 0 cannot parse, as this writes to its buffers. *)
Example C90_example (UC := latin) :
  let long := repeat 233%N 70 ++ txt "foo bar" in
  let calls := [BNew AlgoV2; BNew AlgoV1; BParser; BParser; BParse 0 Moved Moved Moved (txt "fo 'bar | x"); BParse 1 Within Within Within (txt "ob")] in
  match brun calls start_bprogram with
  | Some (MkBProgram w ms, _) =>
      match bw_parsers w, bw_loans w, ms with
      | [Some p0; Some p1], [b1; b0], [Some k0; Some k1] =>
          let mem' := only_these (bw_mem w) p0 (v_addr (mb_slab (bo_metric k0))) in
          (map (fun r => match r with Ok (d, _, _, rs) => Ok (d, rs) | Panic => Panic | OutOfFuel => OutOfFuel end)
             [metric_distance_and_ranges_b Moved (bw_mem w) (bo_metric k0) (bl_query b0) long [];
              metric_distance_and_ranges_b Moved mem' (bo_metric k0) (bl_query b0) long [];
              metric_distance_and_ranges_b Moved (bw_mem w) (bo_metric k0) (bl_query b1) long [];
              metric_distance_and_ranges_b Moved mem' (bo_metric k0) (bl_query b1) long [];
              metric_distance_and_ranges_b Moved mem' (bo_metric k1) (bl_query b0) long []]
           = [Ok (Some (Distance 124), [(140, 142); (144, 147)]); Ok (Some (Distance 124), [(140, 142); (144, 147)]);
              Ok (Some (Distance 39), [(142, 143); (144, 145)]); Panic; Panic])
          /\ parse_b Within Within Within mem' p0 (txt "a") = Panic
          /\ bl_parser b0 = 0
      | _, _, _ => False
      end
  | None => False
  end.
Proof. vm_compute. auto. Qed.
