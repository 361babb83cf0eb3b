(** Property C99: displaying what was found. See Properties_results.v for the conventions. *)
From Coq Require Import Sorted String.
From Verif Require Import Prelude Chars Normalize Utils Candidate Query Parser Scoring Slab Fzf FzfV1 FzfV2 Api History Spec.
From Verif Require Import Highlight Claims32 ExampleKit.
Local Open Scope nat_scope.

(** ** C99. A program which cuts the candidate at the ranges shows it unchanged, and highlights what matched *)

(** [shows c rs ts]: the loop of Highlight.v does not panic on candidate [c] and ranges [rs] and shows the texts [ts]. *)
Theorem C99_display : forall (UC : unicode) a o m q c d m' rs,
  metric_reached a o m -> query_reached q ->
  metric_distance_and_ranges m q c [] = Ok (d, m', rs) ->
  exists ts, shows c rs ts /\ shown_text ts = c
    /\ length (highlighted_texts ts) = length rs /\ Forall (fun t => t <> []) (highlighted_texts ts).
Proof. exact (@c99_display). Qed.
Print Assumptions C99_display.

(** The highlighted texts of a fuzzy query, put together, are the query, up to case and accents. *)
Theorem C99_fuzzy_v1 : forall (UC : unicode) o m text q c d m' rs ts,
  metric_reached AlgoV1 o m -> query_reached q -> fuzzy_query text q ->
  metric_distance_and_ranges m q c [] = Ok (Some d, m', rs) -> shows c rs ts ->
  Forall2 (agreement o text) text (concat (highlighted_texts ts)).
Proof. exact (@c99_fuzzy_v1). Qed.
Print Assumptions C99_fuzzy_v1.

(** The same for FzfV2 if the score is high enough (C08 and C09 say why this is needed). *)
Theorem C99_fuzzy_v2 : forall (UC : unicode) o m text q c d m' rs ts,
  metric_reached AlgoV2 o m -> query_reached q -> fuzzy_query text q -> text <> [] ->
  metric_distance_and_ranges m q c [] = Ok (Some d, m', rs) ->
  (26 * (Z.of_nat (length text) - 1) + 10 < into_score d)%Z -> shows c rs ts ->
  Forall2 (agreement o text) text (concat (highlighted_texts ts)).
Proof. exact (@c99_fuzzy_v2). Qed.
Print Assumptions C99_fuzzy_v2.

(** A term of any other kind is highlighted in one piece. *)
Theorem C99_term : forall (UC : unicode) a o m ps s k text c d rs ts,
  metric_reached a o m -> parse_spec s = [[Term false k text]] -> k <> KFuzzy ->
  find_ranges ps m s c [] = Ok (Some d, rs) -> shows c rs ts ->
  exists pre mid post, ts = [(false, pre); (true, mid); (false, post)] /\ Forall2 (agreement o text) text mid.
Proof. exact (@c99_term). Qed.
Print Assumptions C99_term.

(** é, → and ß have two, three and two bytes; the loop panics on a range which ends inside é. *)
Example C99_example (UC := latin) :
  fuzzy_query [233; 223]%N (the_query [233; 223]%N)
  /\ shown_ranges (metric_distance_and_ranges (used AlgoV1 default_options) (the_query [233; 223]%N) [97; 233; 8594; 223; 98]%N [])
     = Some (Some (Distance 37), [(1, 3); (6, 8)])
  /\ shows [97; 233; 8594; 223; 98]%N [(1, 3); (6, 8)]
       [(false, [97%N]); (true, [233%N]); (false, [8594%N]); (true, [223%N]); (false, [98%N])]
  /\ show_pieces (encode [97; 233; 8594; 223; 98]%N) 0 [(1, 2)] = Panic
  /\ parse_spec (txt "'oB") = [[Term false KExact (txt "oB")]]
  /\ find_ranges parser_new (used AlgoV2 default_options) (txt "'oB") (txt "foBar") []
     = Ok (Some (Distance 39), [(1, 3)])
  /\ shows (txt "foBar") [(1, 3)] [(false, txt "f"); (true, txt "oB"); (false, txt "ar")].
Proof.
  split; [apply the_fuzzy_query; vm_compute; reflexivity|]. split; [vm_compute; reflexivity|].
  split; [vm_compute; reflexivity|]. split; [vm_compute; reflexivity|]. split; [vm_compute; reflexivity|].
  split; vm_compute; reflexivity.
Qed.
