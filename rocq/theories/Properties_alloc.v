(** Property C109: memory which is allocated and freed. See Properties_results.v for the conventions. *)
From Coq Require Import String.
From Verif Require Import Prelude Chars Normalize Utils Candidate MatchedRanges Query Parser Scoring Fzf Api History MemoryMetric Borrows BorrowsMetric BorrowsThreads
  Workers Spec SpecThreads SpecWorkers SpecAlloc.
From Verif Require Import BorrowsMetricProofs BorrowsThreadsProofs Claims1 Claims25 Claims46 Claims47 ExampleKit.
Local Open Scope nat_scope.

(** ** C109. Nothing leaks, and nothing is freed twice *)

(** At any time in a program which creates, clones, uses and drops parsers and metrics and starts threads (C108), the buffers of characters which are allocated
    are those of the parsers and the metrics which exist, and the buffers of patterns and of conditions are those of the parsers which exist. *)
Theorem C109_owned : forall (UC : unicode) g a, wprogram_reached g ->
  let mem := bw_mem (bp_world g) in
  let parser := fun p => exists j, nth_error (bw_parsers (bp_world g)) j = Some (Some p) in
  let metric := fun k => exists i, nth_error (bp_metrics g) i = Some (Some k) in
  (is_allocated (bm_chars mem) a <->
     (exists p, parser p /\ v_addr (pb_chars p) = a) \/ (exists k, metric k /\ v_addr (mb_slab (bo_metric k)) = a))
  /\ (is_allocated (bm_patterns mem) a <-> exists p, parser p /\ v_addr (pb_patterns p) = a)
  /\ (is_allocated (bm_conditions mem) a <-> exists p, parser p /\ v_addr (pb_conditions p) = a).
Proof. exact (@c109_owned). Qed.
Print Assumptions C109_owned.

(** No two of them share a buffer: there are three for each parser and one for each metric. *)
Theorem C109_counts : forall (UC : unicode) g, wprogram_reached g ->
  let parsers := existing (bw_parsers (bp_world g)) in
  let metrics := existing (bp_metrics g) in
  allocated (bw_mem (bp_world g)) = (parsers + metrics, parsers, parsers).
Proof. exact (@c109_counts). Qed.
Print Assumptions C109_counts.

(** This is so between any two steps of threads as well, *)
Theorem C109_threads : forall (UC : unicode) g jobs ts mem ts',
  wprogram_reached g -> hired g jobs ts -> schedule (bw_mem (bp_world g), ts) (mem, ts') ->
  let parsers := existing (bw_parsers (bp_world g)) in
  let metrics := existing (bp_metrics g) in
  allocated mem = (parsers + metrics, parsers, parsers).
Proof. exact (@c109_threads). Qed.
Print Assumptions C109_threads.

(** and when everything has been dropped, nothing is allocated. *)
Theorem C109_freed : forall (UC : unicode) g a,
  wprogram_reached g -> (forall o, In o (bw_parsers (bp_world g)) -> o = None) -> (forall o, In o (bp_metrics g) -> o = None) ->
  let mem := bw_mem (bp_world g) in
  ~ is_allocated (bm_chars mem) a /\ ~ is_allocated (bm_patterns mem) a /\ ~ is_allocated (bm_conditions mem) a.
Proof. exact (@c109_freed). Qed.
Print Assumptions C109_freed.

(** Two parsers, of which one is a clone and the other's buffers have moved, and two metrics, one of which has a slab which has moved; a third has been dropped. A thread then
    replaces the metric and the parser it borrows. In the end all are dropped; the program has had eleven buffers of characters. *)
Example C109_example (UC := latin) :
  let long := repeat 233%N 150 ++ txt "foo bar" in
  let calls := [BNew AlgoV2; BNew AlgoV1; BClone 0; BParser; BParse 0 Moved Moved Moved (repeat 97%N 200); BParserClone 0; BParseNotExtended 1 (txt "ob");
    BDistance 0 Moved 0 long; BDrop 1] in
  let works := [(2, 0, [PParse Moved true (txt "!x ^foo"); PSearch Moved None long (Some []); PNewMetric; PNewParser; PSearch Moved (Some 0) long None])] in
  exists g rs jobs ts, brun calls start_bprogram = Some (g, rs) /\ wprogram_reached g /\ hire g works = Some (jobs, ts) /\ hired g jobs ts
    /\ (existing (bw_parsers (bp_world g)), existing (bp_metrics g)) = (2, 2)
    /\ allocated (bw_mem (bp_world g)) = (4, 2, 2)
    /\ exists r, let st := steps (repeat 0 600) (bw_mem (bp_world g), ts) in
         ended (snd st) = Some r /\ schedule (bw_mem (bp_world g), ts) st /\ allocated (fst st) = (4, 2, 2)
         /\ wprogram_reached (rejoined g jobs (fst st) r)
         /\ exists g' rs', brun [BDrop 0; BDrop 2; BParserDrop 0; BParserDrop 1] (rejoined g jobs (fst st) r) = Some (g', rs')
              /\ wprogram_reached g' /\ bw_parsers (bp_world g') = [None; None] /\ bp_metrics g' = [None; None; None]
              /\ allocated (bw_mem (bp_world g')) = (0, 0, 0) /\ List.length (hp (bm_chars (bw_mem (bp_world g')))) = 11.
Proof.
  intros long calls works.
  assert (X : match brun calls start_bprogram with
    | Some (g, _) => match hire g works with
        | Some (jobs, ts) =>
            (existing (bw_parsers (bp_world g)), existing (bp_metrics g)) = (2, 2) /\ allocated (bw_mem (bp_world g)) = (4, 2, 2)
            /\ match steps (repeat 0 600) (bw_mem (bp_world g), ts) with
               | (mem, ts') => match ended ts' with
                     | Some r => allocated mem = (4, 2, 2) /\
                         match brun [BDrop 0; BDrop 2; BParserDrop 0; BParserDrop 1] (rejoined g jobs mem r) with
                         | Some (g', _) => bw_parsers (bp_world g') = [None; None] /\ bp_metrics g' = [None; None; None]
                            /\ allocated (bw_mem (bp_world g')) = (0, 0, 0) /\ List.length (hp (bm_chars (bw_mem (bp_world g')))) = 11
                         | None => False
                         end
                     | None => False
                     end
               end
        | None => False
        end
    | None => False
    end).
  { vm_compute. repeat (split; [reflexivity|]). reflexivity. }
  destruct (brun calls start_bprogram) as [[g rs]|] eqn:E1; [|contradiction]. destruct (hire g works) as [[jobs ts]|] eqn:E2; [|contradiction].
  pose proof (brun_wreached _ _ _ _ wpr_start E1) as R. pose proof (hire_hired _ _ _ _ E2) as Sp.
  clearbody calls works. clear E1. exists g, rs, jobs, ts. cbv zeta. destruct X as (X1 & X2 & X3).
  pose proof (steps_schedule _ (repeat 0 600) _ _ (schedule_none (bw_mem (bp_world g), ts))) as Sc.
  destruct (steps (repeat 0 600) (bw_mem (bp_world g), ts)) as [mem ts']. cbn [fst snd] in *.
  destruct (ended ts') as [r|] eqn:Ee; [|contradiction]. destruct X3 as (X3 & X4).
  split; [reflexivity|]. split; [exact R|]. split; [exact E2|]. split; [exact Sp|]. split; [exact X1|]. split; [exact X2|].
  exists r. split; [reflexivity|]. split; [exact Sc|]. split; [exact X3|].
  assert (R' : wprogram_reached (rejoined g jobs mem r)) by (eapply wpr_workers; [exact R|exact Sp|]; rewrite <- (ended_map _ _ Ee); exact Sc).
  split; [exact R'|]. destruct (brun _ (rejoined g jobs mem r)) as [[g' rs']|] eqn:E3; [|contradiction]. exists g', rs'.
  split; [reflexivity|]. split; [eapply brun_wreached; eassumption|]. exact X4.
Qed.
