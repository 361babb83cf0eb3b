(** Properties C66 and C84: queries, candidates and the memory they are in. See Properties_results.v for the conventions. *)
From Coq Require Import String.
From Verif Require Import Prelude Chars Normalize Utils Candidate Query Parser Scoring Fzf Api History Memory MemoryMetric Spec.
From Verif Require Import MemoryProofs MemoryMetricProofs Claims1 ExampleKit.
Local Open Scope nat_scope.

(** ** C66. A query stays valid as long as the borrow checker lets it be used *)

(** Memory.v has the parser with its references: a query is made of references into the buffers of its
    parser, which are overwritten by the next parse, moved when they grow and freed when
    the parser is dropped. [world_reached] are the states of all programs which create, clone, drop and use parsers;
    [w_loans] are the queries which the borrow checker lets them use. Each of these reads as what [parse]
    returns for its string. *)
Theorem C66_queries_valid : forall (UC : unicode) w b,
  world_reached w -> In b (w_loans w) ->
  exists q, read_query_m (w_mem w) (l_query b) = Ok q
    /\ if l_extended b then exists ps, parse parser_new (l_string b) = Ok (q, ps) else q = new_not_extended (l_string b).
Proof. exact (@queries_valid). Qed.
Print Assumptions C66_queries_valid.

(** Nor does a call read through a reference which is not valid, not even one on the clone of a parser
    which has been dropped, whose buffers are full of dangling references. (parse_not_extended panics if the string has more characters than the
    buffer, which has at least 64: C15.) *)
Theorem C66_calls_return : forall (UC : unicode) w i p,
  world_reached w -> nth_error (w_parsers w) i = Some (Some p) ->
  (forall mv s, exists r, parse_m mv (w_mem w) p s = Ok r)
  /\ (exists r, parser_clone_m (w_mem w) p = Ok r)
  /\ (forall s, (exists r, parse_not_extended_m (w_mem w) p s = Ok r)
        <-> exists l, buffer (m_chars (w_mem w)) (pa_chars p) = Ok l /\ length s <= length l)
  /\ (exists l, buffer (m_chars (w_mem w)) (pa_chars p) = Ok l /\ 64 <= length l).
Proof. exact (@calls_return). Qed.
Print Assumptions C66_calls_return.

(** Two parsers, the second a clone of the first made while a query of the first was in use. After the first is dropped,
    - the query of the first, no longer in use, cannot be read any more,
    - the references in the clone's buffers are dangling,
    - the clone works all the same: its query has two conditions, then buffers move as they grow. *)
Example C66_example (UC := latin) :
  let before := [DoNew; DoParse 0 (true, true, true) (txt "'foo bar | x"); DoClone 0] in
  let after := [DoDrop 0; DoNew; DoParse 1 (true, false, true) (txt "ab cd"); DoParseNotExtended 2 (txt "'not extended")] in
  let long := txt "a" ++ repeat 97%N 200 in
  exists w w' w'', run before empty_world = Some w /\ run after w = Some w'
    /\ run [DoParse 1 (true, true, true) long] w' = Some w''
    /\ world_reached w /\ world_reached w' /\ world_reached w''
    /\ all_read w = [Ok (the_query (txt "'foo bar | x"))]
    /\ all_read w' = [Ok (new_not_extended (txt "'not extended")); Ok (the_query (txt "ab cd"))]
    /\ all_read w'' = [Ok (the_query long); Ok (new_not_extended (txt "'not extended"))]
    /\ map (fun b => read_query_m (w_mem w') (l_query b)) (w_loans w) = [Panic]
    /\ (exists p ps, nth_error (w_parsers w) 1 = Some (Some p) /\ buffer (m_patterns (w_mem w')) (pa_patterns p) = Ok ps
         /\ map (read_pattern_m (w_mem w')) (firstn 1 (skipn 2 ps)) = [Panic]).
Proof.
  intros before after long.
  destruct (run before empty_world) as [w|] eqn:E; [|vm_compute in E; discriminate].
  destruct (run after w) as [w'|] eqn:E'; [|vm_compute in E; injection E as <-; vm_compute in E'; discriminate].
  destruct (run [DoParse 1 (true, true, true) long] w') as [w''|] eqn:E'';
    [|vm_compute in E; injection E as <-; vm_compute in E'; injection E' as <-; vm_compute in E''; discriminate].
  exists w, w', w''. pose proof (run_reached _ _ _ wr_start E) as R. pose proof (run_reached _ _ _ R E') as R'.
  pose proof (run_reached _ _ _ R' E'') as R''.
  vm_compute in E. injection E as <-. vm_compute in E'. injection E' as <-. vm_compute in E''. injection E'' as <-.
  split; [reflexivity|]. split; [reflexivity|]. split; [reflexivity|]. split; [exact R|]. split; [exact R'|]. split; [exact R''|].
  split; [vm_compute; reflexivity|]. split; [vm_compute; reflexivity|]. split; [vm_compute; reflexivity|].
  split; [vm_compute; reflexivity|]. eexists _, _. split; [reflexivity|]. split; [vm_compute; reflexivity|]. vm_compute. reflexivity.
Qed.

(** ** C84. A search reads memory which is still there *)

(** MemoryMetric.v has the metrics with their references: the characters of a candidate are written to a buffer of
    the metric, which is moved when it grows and freed when the metric is dropped, and are read through
    a reference whose lifetime is not that of the buffer. [program_reached] are the states of all programs which create, clone, drop and use any number of
    parsers and metrics in one memory; reading what has been freed is [Panic]. Every search with a query which the borrow checker lets the program use returns, and
    what it returns is what a metric without memory returns which has the same options, whatever its history. *)
Theorem C84_search : forall (UC : unicode) g i k b mv cand buf m,
  program_reached g -> nth_error (pg_metrics g) i = Some (Some k) -> In b (w_loans (pg_world g)) ->
  metric_reached (ow_algo k) (ow_options k) m ->
  exists q d new m1 m2 mm1 mem1 mm2 mem2,
    (if l_extended b then exists ps, parse parser_new (l_string b) = Ok (q, ps) else q = new_not_extended (l_string b))
    /\ metric_distance m q cand = Ok (d, m1)
    /\ metric_distance_and_ranges m q cand buf = Ok (d, m2, buf ++ new)
    /\ metric_distance_m mv (w_mem (pg_world g)) (ow_metric k) (l_query b) cand = Ok (d, mm1, mem1)
    /\ metric_distance_and_ranges_m mv (w_mem (pg_world g)) (ow_metric k) (l_query b) cand buf = Ok (d, mm2, mem2, buf ++ new).
Proof. exact (@c84_search). Qed.
Print Assumptions C84_search.

(** No search disturbs a query: in such programs, too, the queries in use read as what was parsed. *)
Theorem C84_queries : forall (UC : unicode) g b,
  program_reached g -> In b (w_loans (pg_world g)) ->
  exists q, read_query_m (w_mem (pg_world g)) (l_query b) = Ok q
    /\ if l_extended b then exists ps, parse parser_new (l_string b) = Ok (q, ps) else q = new_not_extended (l_string b).
Proof. exact (@c84_queries). Qed.
Print Assumptions C84_queries.

(** Nor does any other call read what is not there. *)
Theorem C84_calls : forall (UC : unicode) g,
  program_reached g ->
  (forall i k, nth_error (pg_metrics g) i = Some (Some k) -> exists r, metric_clone_m (w_mem (pg_world g)) (ow_metric k) = Ok r)
  /\ (forall i p, nth_error (w_parsers (pg_world g)) i = Some (Some p) ->
       (forall mv s, exists r, parse_m mv (w_mem (pg_world g)) p s = Ok r)
       /\ (exists r, parser_clone_m (w_mem (pg_world g)) p = Ok r)
       /\ (forall s, length s <= 64 -> exists r, parse_not_extended_m (w_mem (pg_world g)) p s = Ok r)).
Proof. exact (@c84_calls). Qed.
Print Assumptions C84_calls.

(** A program: a metric whose slab (address 0) moves (to 3) when a long candidate is searched with a query
    of two conditions; its clone, with a slab of its own (4) and other options; the original is dropped (3 is freed) and the clone
    goes on with the same query; another metric's slab (2) grows in place; the parser's buffer is at 1. *)
Example C84_example (UC := latin) :
  let long := repeat 233%N 70 ++ txt "foo bar" in
  let calls := [PNew AlgoV2; PParser DoNew; PParser (DoParse 0 (true, true, true) (txt "fo 'bar | x")); PNew AlgoV1;
    PRanges 0 true 0 long []; PClone 0; PSet 2 (SetCase Sensitive); PDrop 0; PDistance 2 false 0 long; PRanges 1 false 0 long [];
    PParser (DoParseNotExtended 0 (txt "ob")); PRanges 2 true 0 long [(1, 2)]] in
  exists g rs, prun calls empty_program = Some (g, rs) /\ program_reached g
    /\ rs = [(Some (Distance 124), [(140, 142); (144, 147)]); (Some (Distance 124), []); (Some (Distance 124), [(140, 142); (144, 147)]);
             (Some (Distance 39), [(1, 2); (142, 143); (144, 145)])]
    /\ map (fun o => match o with Some k => Some (ow_algo k, opt_case (ow_options k), mm_slab (ow_metric k)) | None => None end) (pg_metrics g)
       = [None; Some (AlgoV1, Smart, 2); Some (AlgoV2, Sensitive, 4)]
    /\ map (fun o => match o with Some l => Some (length l) | None => None end) (m_chars (w_mem (pg_world g)))
       = [None; Some 64; Some 147; None; Some 147]
    /\ length (w_loans (pg_world g)) = 1.
Proof.
  intros long calls. destruct (prun calls empty_program) as [[g rs]|] eqn:E; [|vm_compute in E; discriminate].
  exists g, rs. pose proof (prun_reached _ _ _ _ pgr_start E) as R. vm_compute in E. injection E as <- <-.
  split; [reflexivity|]. split; [exact R|]. split; [vm_compute; reflexivity|]. split; [vm_compute; reflexivity|].
  split; vm_compute; reflexivity.
Qed.
