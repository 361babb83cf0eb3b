(** Properties C74 and C75: the memory which the metrics and the parser keep. See Properties_results.v for the
    conventions. [buffers m] and [parser_buffers ps] are the lengths of the vectors they own: see History.v. *)
From Coq Require Import String.
From Verif Require Import Prelude Chars Normalize Utils Candidate Query Parser Scoring Slab Fzf FzfV1 FzfV2 Api History Spec.
From Verif Require Import Claims1 Claims15 ExampleKit.
Local Open Scope nat_scope.


(** ** C74. The memory of a metric *)

(** A search which was done before, by either function and with the same options, grows nothing,
    whatever happened since. *)
Theorem C74_again : forall (UC : unicode) a o m q c m1 m2 m3,
  metric_reached a o m -> query_reached q -> searches m q c m1 ->
  later m1 m2 -> metric_reached a o m2 ->
  searches m2 q c m3 ->
  buffers m3 = buffers m2.
Proof. exact (@c74_again). Qed.
Print Assumptions C74_again.

(** Nothing is ever given back before the metric is dropped... *)
Theorem C74_grow : forall (UC : unicode) a o m m', metric_reached a o m -> later m m' -> Forall2 le (buffers m) (buffers m').
Proof. exact (@c74_grow). Qed.
Print Assumptions C74_grow.

(** ...but what is kept is bounded by the longest candidate and the longest query, not by the number of searches. *)
Theorem C74_bound : forall (UC : unicode) a n h m, metric_fed a n h m ->
  Forall2 le (buffers m)
    match a with
    | AlgoV1 => [Nat.max 128 n]
    | AlgoV2 => [Nat.max 128 n; Nat.max 128 n; Nat.max 256 (h * n); Nat.max 128 h; Nat.max 256 (h * n)]
    end.
Proof. exact (@c74_bound). Qed.
Print Assumptions C74_bound.

Example C74_example (UC := latin) :
  metric_reached AlgoV2 default_options (metric_new AlgoV2)
  /\ query_reached (the_query (txt "foo bar"))
  /\ searches (metric_new AlgoV2) (the_query (txt "foo bar")) (repeat 102%N 150 ++ txt "oo bar")
       (searched (metric_new AlgoV2) (txt "foo bar") (repeat 102%N 150 ++ txt "oo bar"))
  /\ buffers (metric_new AlgoV2)
     = [128; 128; 256; 128; 256]
  /\ buffers (searched (metric_new AlgoV2) (txt "foo bar") (repeat 102%N 150 ++ txt "oo bar"))
     = [128; 152; 456; 128; 456]
  /\ buffers (searched (searched (metric_new AlgoV2) (txt "foo bar") (repeat 102%N 150 ++ txt "oo bar")) (txt "x") (231%N :: repeat 102%N 150))
     = [152; 152; 456; 128; 456]
  /\ buffers (searched (metric_new AlgoV1) (txt "foo bar") (231%N :: repeat 102%N 150))
     = [152]
  /\ metric_fed AlgoV2 156 7 (searched (metric_new AlgoV2) (txt "foo bar") (repeat 102%N 150 ++ txt "oo bar")).
Proof.
  assert (S : searches (metric_new AlgoV2) (the_query (txt "foo bar")) (repeat 102%N 150 ++ txt "oo bar")
       (searched (metric_new AlgoV2) (txt "foo bar") (repeat 102%N 150 ++ txt "oo bar"))).
  { eapply searched_searches. constructor. }
  split; [constructor|]. split; [apply the_query_reached|]. split; [exact S|].
  split; [vm_compute; reflexivity|]. split; [vm_compute; reflexivity|]. split; [vm_compute; reflexivity|].
  split; [vm_compute; reflexivity|].
  apply (mf_search AlgoV2 156 7 (metric_new AlgoV2) (the_query (txt "foo bar")) (repeat 102%N 150 ++ txt "oo bar")).
  - constructor.
  - exists parser_new, (txt "foo bar"). eexists. split; [constructor|]. split; [vm_compute; repeat constructor|].
    left. vm_compute. reflexivity.
  - vm_compute. repeat constructor.
  - exact S.
Qed.

(** ** C75. The memory of a parser *)

(** Exactly what the constructor's 64 slots and the longest query given to parse need. *)
Theorem C75_parse : forall (UC : unicode) ps s q ps', parse ps s = Ok (q, ps') ->
  parser_buffers ps' = [Nat.max (length (ps_chars ps)) (byte_len s);
                        Nat.max (length (ps_patterns ps)) (byte_len s / 2 + 1);
                        Nat.max (length (ps_conditions ps)) (byte_len s / 2 + 1)].
Proof. exact (@c75_parse). Qed.
Print Assumptions C75_parse.

Theorem C75_raw : forall (UC : unicode) ps s q ps', parse_not_extended ps s = Ok (q, ps') -> parser_buffers ps' = parser_buffers ps.
Proof. exact (@c75_raw). Qed.
Print Assumptions C75_raw.

(** A query which was parsed before grows nothing, whatever happened since. *)
Theorem C75_again : forall (UC : unicode) ps s q ps1 ps2 q' ps3,
  parse ps s = Ok (q, ps1) -> parser_later ps1 ps2 -> parse ps2 s = Ok (q', ps3) ->
  parser_buffers ps3 = parser_buffers ps2.
Proof. exact (@c75_again). Qed.
Print Assumptions C75_again.

Example C75_example (UC := latin) :
  parse parser_new (txt "foo") = Ok (the_query (txt "foo"), parsed parser_new (txt "foo"))
  /\ parser_buffers parser_new
     = [64; 64; 64]
  /\ parser_buffers (parsed parser_new (txt "foo"))
     = [64; 64; 64]
  /\ parser_buffers (parsed parser_new (repeat 102%N 149 ++ [231%N]))
     = [151; 76; 76]
  /\ parser_buffers (parsed (parsed parser_new (repeat 102%N 149 ++ [231%N])) (txt "foo"))
     = [151; 76; 76]
  /\ parse_not_extended parser_new (repeat 102%N 65) = Panic.
Proof. vm_compute. repeat split. Qed.
