(** Property C103: how much a search highlights. See Properties_results.v for the conventions, Amount.v for
    [at_most], [term_pieces], [term_chars] and [highlighted]. *)
From Coq Require Import String.
From Verif Require Import Prelude Chars Normalize Utils Candidate Query Parser Scoring Fzf FzfV1 FzfV2 Api History Spec Amount.
From Verif Require Import Claims1 Claims2 Claims36 ExampleKit.
Local Open Scope nat_scope.

(** ** C103. A search highlights no more than the query has characters *)

(** Whether the candidate matches or not: no more ranges are appended, and no more characters highlighted, than the query
    has characters. *)
Theorem C103_query : forall (UC : unicode) a o m ps s c buf r buf',
  metric_reached a o m -> find_ranges ps m s c buf = Ok (r, buf') ->
  exists new, buf' = buf ++ new /\ length new <= length s
    /\ forall js, highlighted c new js -> length js <= length s.
Proof. exact (@c103_query). Qed.
Print Assumptions C103_query.

Theorem C103_not_extended : forall (UC : unicode) a o m ps s c buf r buf',
  metric_reached a o m -> find_ranges_raw ps m s c buf = Ok (r, buf') ->
  exists new, buf' = buf ++ new /\ length new <= length s
    /\ forall js, highlighted c new js -> length js <= length s.
Proof. exact (@c103_not_extended). Qed.
Print Assumptions C103_not_extended.

(** More precisely: one alternative of each condition counts, inverse terms do not, and terms which are not fuzzy
    add one range. (A lone inverse fuzzy term is searched as if it were not inverse, see C26.) *)
Theorem C103_terms : forall (UC : unicode) a o m ps s c buf r buf',
  metric_reached a o m -> ~ lone_negated_fuzzy (parse_spec s) ->
  find_ranges ps m s c buf = Ok (r, buf') ->
  exists new, buf' = buf ++ new
    /\ length new <= at_most term_pieces (parse_spec s)
    /\ forall js, highlighted c new js -> length js <= at_most term_chars (parse_spec s).
Proof. exact (@c103_terms). Qed.
Print Assumptions C103_terms.

(** The bounds are reached: three ranges with three characters; four ranges with five characters. *)
Example C103_example (UC := latin) : forall a,
  metric_reached a default_options (used a default_options)
  /\ find_ranges parser_new (used a default_options) (txt "fbz") (txt "foo barBaz") [] = Ok (Some (Distance 67), [(0, 1); (4, 5); (9, 10)])
  /\ length (txt "fbz") = 3
  /\ highlighted (txt "foo barBaz") [(0, 1); (4, 5); (9, 10)] [0; 4; 9]
  /\ parse_spec (txt "fbz 'oo | x !q")
     = [[Term false KFuzzy (txt "fbz")]; [Term false KExact (txt "oo"); Term false KFuzzy (txt "x")]; [Term true KExact (txt "q")]]
  /\ at_most term_pieces (parse_spec (txt "fbz 'oo | x !q")) = 4
  /\ at_most term_chars (parse_spec (txt "fbz 'oo | x !q")) = 5
  /\ find_ranges parser_new (used AlgoV1 default_options) (txt "fbz 'oo | x !q") (txt "oo foo barBaz") [] = Ok (Some (Distance 129), [(0, 2); (3, 4); (7, 8); (12, 13)]).
Proof.
  intros a. split; [apply used_reached|]. split; [destruct a; vm_compute; reflexivity|]. split; [reflexivity|]. split.
  - split; [repeat constructor; cbn; intuition discriminate|].
    repeat apply Forall_cons; [exists 0|exists 4|exists 9|constructor]; (split; [split; [vm_compute; lia|vm_compute; lia]|]).
    + exists (0, 1). cbn. split; [auto|lia].
    + exists (4, 5). cbn. split; [auto|lia].
    + exists (9, 10). cbn. split; [auto|lia].
  - split; [vm_compute; reflexivity|]. split; [vm_compute; reflexivity|]. split; vm_compute; reflexivity.
Qed.
