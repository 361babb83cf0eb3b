(** Property C108: threads which parse and search. See Properties_results.v for the conventions. *)
From Coq Require Import String.
From Verif Require Import Prelude Chars Normalize Utils Candidate MatchedRanges Query Parser Scoring Fzf Api History MemoryMetric Borrows BorrowsMetric BorrowsThreads
  Workers Spec SpecThreads SpecWorkers.
From Verif Require Import BorrowsMetricProofs BorrowsThreadsProofs Claims1 Claims25 Claims46 ExampleKit.
Local Open Scope nat_scope.

(** ** C108. Threads which parse and search at the same time get the results they would get alone *)

(** Workers.v has threads each of which borrows a metric and a parser ([hired]), parses any number of queries with the parser, and searches for
    these and for queries which the program has parsed before with other parsers. It may also set the options of the metric, and replace the metric or the parser
    by a new one. Their steps are interleaved in any order ([schedule],
    BorrowsThreads.v). [wprogram_reached] are the states of programs which create, use and drop parsers and metrics, and start such threads any number of
    times.

    Whatever the schedule, a thread which has stopped has not panicked, and its results ([results], SpecWorkers.v) are those which a new parser and a metric
    return that no other thread and no other call has anything to do with. The metric is left with the options which the thread has set. *)
Theorem C108_workers : forall (UC : unicode) g jobs ts mem ts',
  wprogram_reached g -> hired g jobs ts -> schedule (bw_mem (bp_world g), ts) (mem, ts') ->
  forall n jb t, nth_error jobs n = Some jb -> nth_error ts' n = Some t -> is_done t = true ->
  exists k r, nth_error (bp_metrics g) (jb_metric jb) = Some (Some k) /\ t = Done (Ok r)
    /\ results (bo_algo k) (bo_options k) None (jb_works jb) (wr_out r)
    /\ bo_algo (wr_metric r) = bo_algo k /\ bo_options (wr_metric r) = options_left (bo_options k) (jb_works jb).
Proof. exact (@c108_workers). Qed.
Print Assumptions C108_workers.

(** At any time the threads can be run to their ends, and none of them panics. (There is no schedule without an end, C89_ends.) *)
Theorem C108_completes : forall (UC : unicode) g jobs ts mem ts',
  wprogram_reached g -> hired g jobs ts -> schedule (bw_mem (bp_world g), ts) (mem, ts') ->
  exists mem' rs, schedule (mem, ts') (mem', map (fun r => Done (Ok r)) rs).
Proof. exact (@c108_completes). Qed.
Print Assumptions C108_completes.

(** After the threads have ended the program goes on with the metrics, the parsers and the queries they leave. Every query which it may use reads as it should, *)
Theorem C108_loans : forall (UC : unicode) g b,
  wprogram_reached g -> In b (bw_loans (bp_world g)) -> exists q,
  (if bl_extended b then exists ps, parse parser_new (bl_string b) = Ok (q, ps) else q = new_not_extended (bl_string b))
  /\ read_query_b (bw_mem (bp_world g)) (bl_query b) = Ok (q, bw_mem (bp_world g)).
Proof. exact (@c108_loans). Qed.
Print Assumptions C108_loans.

(** every search returns, and returns what a metric without memory returns, *)
Theorem C108_search : forall (UC : unicode) g i k b gr cand buf m,
  wprogram_reached g -> nth_error (bp_metrics g) i = Some (Some k) -> In b (bw_loans (bp_world g)) ->
  metric_reached (bo_algo k) (bo_options k) m ->
  exists q d new m1 m2 mb1 mem1 mb2 mem2,
    (if bl_extended b then exists ps, parse parser_new (bl_string b) = Ok (q, ps) else q = new_not_extended (bl_string b))
    /\ metric_distance m q cand = Ok (d, m1)
    /\ metric_distance_and_ranges m q cand buf = Ok (d, m2, buf ++ new)
    /\ metric_distance_b gr (bw_mem (bp_world g)) (bo_metric k) (bl_query b) cand = Ok (d, mb1, mem1)
    /\ metric_distance_and_ranges_b gr (bw_mem (bp_world g)) (bo_metric k) (bl_query b) cand buf = Ok (d, mb2, mem2, buf ++ new).
Proof. exact (@c108_search). Qed.
Print Assumptions C108_search.

(** and every parser parses as a new one does. *)
Theorem C108_parse : forall (UC : unicode) g j p g1 g2 g3 s,
  wprogram_reached g -> nth_error (bw_parsers (bp_world g)) j = Some (Some p) ->
  (exists q ps qb p' mem, parse parser_new s = Ok (q, ps)
     /\ parse_b g1 g2 g3 (bw_mem (bp_world g)) p s = Ok (qb, p', mem) /\ read_query_b mem qb = Ok (q, mem))
  /\ (length s <= 64 -> exists qb mem, parse_not_extended_b (bw_mem (bp_world g)) p s = Ok (qb, mem)
        /\ read_query_b mem qb = Ok (new_not_extended s, mem)).
Proof. exact (@c108_parse). Qed.
Print Assumptions C108_parse.

(** Three threads, of which two parse twice, once a query for which all buffers of the parser move, and all search for a query of the program; the third sets an option, and replaces its metric and its parser. The candidates are not
    ASCII, so that all write to their slabs. They are interleaved step by step; after 30 steps none is finished. At the end two queries of the threads
    and one of the program may be used. *)
Example C108_example (UC := latin) :
  let long := repeat 233%N 70 ++ txt "foo bar" in
  let calls := [BNew AlgoV2; BNew AlgoV1; BNew AlgoV2; BParser; BParser; BParser; BParser; BParse 0 Moved Moved Moved (txt "fo 'bar | x");
    BParseNotExtended 1 (txt "ob"); BSet 2 (SetCase Sensitive)] in
  let works := [(0, 1, [PParse Within true (txt "!x ^foo"); PSearch Moved (Some 0) long (Some []); PSearch Within None (txt "foo") None;
       PParse Moved false (txt "ob"); PSearch Within None long (Some [(0, 1)])]);
    (2, 3, [PSearch InPlace (Some 0) long None; PParse Moved true (repeat 97%N 150); PSearch Within None (txt "a") None;
       PParse Moved true (txt "o$"); PSearch Moved None (txt "Foo") (Some [])]);
    (1, 2, [PSearch Moved (Some 0) long None; PSet (SetCase Sensitive); PParse Within false (txt "fo"); PSearch Moved None (233%N :: txt "FO") None;
       PNewMetric; PSearch Moved None (233%N :: txt "FO") (Some []); PNewParser; PSearch Moved (Some 0) long None])] in
  exists g rs jobs ts, brun calls start_bprogram = Some (g, rs) /\ wprogram_reached g /\ hire g works = Some (jobs, ts) /\ hired g jobs ts
    /\ (let st := steps (flat_map (fun _ => [0; 1; 2]) (seq 0 10)) (bw_mem (bp_world g), ts) in
        schedule (bw_mem (bp_world g), ts) st /\ woutputs (snd st) = [None; None; None])
    /\ (let st := steps (flat_map (fun _ => [0; 1; 2]) (seq 0 300)) (bw_mem (bp_world g), ts) in
        schedule (bw_mem (bp_world g), ts) st
        /\ woutputs (snd st) = [Some [(Some (Distance 124), [(140, 142); (144, 147)]); (Some (Distance 88), []); (Some (Distance 39), [(0, 1); (142, 143); (144, 145)])];
             Some [(Some (Distance 124), []); (None, []); (Some (Distance 16), [(2, 3)])]; Some [(Some (Distance 124), []); (None, []); (Some (Distance 53), [(2, 4)]); (Some (Distance 124), [])]]
        /\ exists r, ended (snd st) = Some r /\ wprogram_reached (rejoined g jobs (fst st) r)
             /\ map bl_string (bw_loans (bp_world (rejoined g jobs (fst st) r))) = [txt "ob"; txt "o$"; txt "fo 'bar | x"]).
Proof.
  intros long calls works.
  assert (X : match brun calls start_bprogram with
    | Some (g, _) => match hire g works with
        | Some (jobs, ts) =>
            woutputs (snd (steps (flat_map (fun _ => [0; 1; 2]) (seq 0 10)) (bw_mem (bp_world g), ts))) = [None; None; None]
            /\ match steps (flat_map (fun _ => [0; 1; 2]) (seq 0 300)) (bw_mem (bp_world g), ts) with
               | (mem, ts') => woutputs ts' = [Some [(Some (Distance 124), [(140, 142); (144, 147)]); (Some (Distance 88), []); (Some (Distance 39), [(0, 1); (142, 143); (144, 145)])];
             Some [(Some (Distance 124), []); (None, []); (Some (Distance 16), [(2, 3)])]; Some [(Some (Distance 124), []); (None, []); (Some (Distance 53), [(2, 4)]); (Some (Distance 124), [])]]
                  /\ match ended ts' with
                     | Some r => map bl_string (bw_loans (bp_world (rejoined g jobs mem r))) = [txt "ob"; txt "o$"; txt "fo 'bar | x"]
                     | None => False
                     end
               end
        | None => False
        end
    | None => False
    end).
  { vm_compute. split; [reflexivity|]. split; reflexivity. }
  destruct (brun calls start_bprogram) as [[g rs]|] eqn:E1; [|contradiction]. destruct (hire g works) as [[jobs ts]|] eqn:E2; [|contradiction].
  pose proof (without_workers _ (brun_reached _ _ _ _ bpr_start E1)) as R. pose proof (hire_hired _ _ _ _ E2) as Sp.
  clearbody calls works. clear E1. exists g, rs, jobs, ts. cbv zeta.
  pose proof (steps_schedule _ (flat_map (fun _ => [0; 1; 2]) (seq 0 300)) _ _ (schedule_none (bw_mem (bp_world g), ts))) as Sc.
  pose proof (steps_schedule _ (flat_map (fun _ => [0; 1; 2]) (seq 0 10)) _ _ (schedule_none (bw_mem (bp_world g), ts))) as Sc1.
  destruct (steps (flat_map (fun _ => [0; 1; 2]) (seq 0 300)) (bw_mem (bp_world g), ts)) as [mem2 ts2].
  destruct (steps (flat_map (fun _ => [0; 1; 2]) (seq 0 10)) (bw_mem (bp_world g), ts)) as [mem1 ts1].
  cbn [fst snd] in *. destruct X as (X1 & X2 & X3). split; [reflexivity|]. split; [exact R|]. split; [exact E2|]. split; [exact Sp|]. split; [auto|].
  split; [exact Sc|]. split; [exact X2|]. destruct (ended ts2) as [r|] eqn:Ee; [|contradiction]. exists r. split; [reflexivity|]. split; [|exact X3].
  eapply wpr_workers; [exact R|exact Sp|]. rewrite <- (ended_map _ _ Ee). exact Sc.
Qed.
