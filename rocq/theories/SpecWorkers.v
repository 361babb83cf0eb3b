(** What is said about threads which parse and search (Properties_workers.v). *)
From Verif Require Import Prelude Chars Utils Candidate MatchedRanges Query Parser Scoring Fzf Api History MemoryMetric Borrows BorrowsMetric BorrowsThreads Workers.
Local Open Scope nat_scope.

Section WithUnicode.
Context {UC : unicode}.

(** [result_of a o extended s cand ranges r]: [r] is what a search for the query [s] returns, and leaves in the vector [ranges], in a
    program without other threads and without memory, after any other calls; the query is parsed with a new parser. *)
Definition result_of (a : algo) (o : options) (extended : bool) (s cand : str) (ranges : option (list range))
    (r : option distance * list range) : Prop :=
  exists q,
    (if extended then exists ps, parse parser_new s = Ok (q, ps) else q = new_not_extended s)
    /\ forall m, metric_reached a o m ->
       match ranges with
       | None => snd r = [] /\ exists m', metric_distance m q cand = Ok (fst r, m')
       | Some buf => exists m', metric_distance_and_ranges m q cand buf = Ok (fst r, m', snd r)
       end.

(** The results of a thread: those of its searches, one after the other, each for the query it asks for and with the options which the metric
    has then. [cur] is the string which the thread has parsed last with the parser it has, [o] are the options. *)
Inductive results (a : algo) : options -> option (bool * str) -> list work -> list (option distance * list range) -> Prop :=
| results_none o cur : results a o cur [] []
| results_parse o cur g1 g2 g3 extended s ws out :
    results a o (Some (extended, s)) ws out -> results a o cur (WParse g1 g2 g3 extended s :: ws) out
| results_own o g extended s cand ranges r ws out :
    result_of a o extended s cand ranges r -> results a o (Some (extended, s)) ws out ->
    results a o (Some (extended, s)) (WSearch g None cand ranges :: ws) (r :: out)
| results_shared o cur g b cand ranges r ws out :
    result_of a o (bl_extended b) (bl_string b) cand ranges r -> results a o cur ws out ->
    results a o cur (WSearch g (Some b) cand ranges :: ws) (r :: out)
| results_set o cur x ws out : results a (after_setting o x) cur ws out -> results a o cur (WSet x :: ws) out
| results_metric o cur ws out : results a default_options cur ws out -> results a o cur (WNewMetric :: ws) out
| results_parser o cur ws out : results a o None ws out -> results a o cur (WNewParser :: ws) out.

(** The options which a thread leaves *)
Definition options_left (o : options) (ws : list work) : options :=
  fold_left (fun o w => match w with WSet x => after_setting o x | WNewMetric => default_options | _ => o end) ws o.

End WithUnicode.
