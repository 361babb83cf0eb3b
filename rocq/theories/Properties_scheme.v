(** Property C104: what the scoring scheme does not affect. See Properties_results.v for the conventions. *)
From Coq Require Import String Permutation.
From Verif Require Import Prelude Chars Normalize Utils Candidate Query Parser Scoring Fzf FzfV1 FzfV2 Api Usage History Spec.
From Verif Require Import Claims1 Claims2 Claims37 ExampleKit.
Local Open Scope nat_scope.

(** ** C104. The scoring scheme affects the order of the matches, not which candidates match *)

(** For any query of either parser. The two metrics may even be of different kinds. *)
Theorem C104_accepts : forall (UC : unicode) a a' o o' m m' q c,
  metric_reached a o m -> metric_reached a' o' m' -> query_reached q ->
  opt_case o = opt_case o' -> opt_norm o = opt_norm o' ->
  exists d d' m1 m1', metric_distance m q c = Ok (d, m1) /\ metric_distance m' q c = Ok (d', m1')
    /\ (d = None <-> d' = None).
Proof. exact (@c104_accepts). Qed.
Print Assumptions C104_accepts.

(** A ranking has the same candidates. *)
Theorem C104_ranking : forall (UC : unicode) a a' o o' m m' q cs rs rs' m1 m1',
  metric_reached a o m -> metric_reached a' o' m' -> query_reached q ->
  opt_case o = opt_case o' -> opt_norm o = opt_norm o' ->
  rank m q cs = Ok (rs, m1) -> rank m' q cs = Ok (rs', m1') -> Permutation (map fst rs) (map fst rs').
Proof. exact (@c104_ranking). Qed.
Print Assumptions C104_ranking.

(** FzfV1 also highlights the same, unless an exact term chooses among several occurrences. *)
Theorem C104_v1 : forall (UC : unicode) o o' m m' ps s c buf r r' buf1 buf1',
  metric_reached AlgoV1 o m -> metric_reached AlgoV1 o' m' ->
  opt_case o = opt_case o' -> opt_norm o = opt_norm o' ->
  Forall (Forall (fun t => t_neg t = true \/ t_kind t <> KExact)) (parse_spec s) ->
  find_ranges ps m s c buf = Ok (r, buf1) -> find_ranges ps m' s c buf = Ok (r', buf1') -> buf1 = buf1'.
Proof. exact (@c104_v1). Qed.
Print Assumptions C104_v1.

Theorem C104_not_extended : forall (UC : unicode) o o' m m' ps s c buf r r' buf1 buf1',
  metric_reached AlgoV1 o m -> metric_reached AlgoV1 o' m' ->
  opt_case o = opt_case o' -> opt_norm o = opt_norm o' ->
  find_ranges_raw ps m s c buf = Ok (r, buf1) -> find_ranges_raw ps m' s c buf = Ok (r', buf1') -> buf1 = buf1'.
Proof. exact (@c104_not_extended). Qed.
Print Assumptions C104_not_extended.

(** Both metrics highlight the same for prefix, suffix, equality and inverse terms. *)
Theorem C104_anchored : forall (UC : unicode) a a' o o' m m' ps s c buf r r' buf1 buf1',
  metric_reached a o m -> metric_reached a' o' m' ->
  opt_case o = opt_case o' -> opt_norm o = opt_norm o' -> ~ lone_negated_fuzzy (parse_spec s) ->
  Forall (Forall (fun t => t_neg t = true \/ (t_kind t <> KExact /\ t_kind t <> KFuzzy))) (parse_spec s) ->
  find_ranges ps m s c buf = Ok (r, buf1) -> find_ranges ps m' s c buf = Ok (r', buf1') -> buf1 = buf1'.
Proof. exact (@c104_anchored). Qed.
Print Assumptions C104_anchored.

(** The score differs. So can the ranges of exact terms (in a path a comma has the same bonus everywhere), and those of
    fuzzy terms with FzfV2 (by default the character after the comma is as good as the one after the slash). *)
Example C104_example (UC := latin) :
  let path := with_scheme default_options SchemePath in
  metric_reached AlgoV1 default_options (used AlgoV1 default_options) /\ metric_reached AlgoV1 path (used AlgoV1 path)
  /\ query_reached (the_query (txt "^x b a$"))
  /\ Forall (Forall (fun t => t_neg t = true \/ t_kind t <> KExact)) (parse_spec (txt "^x b a$"))
  /\ find_ranges parser_new (used AlgoV1 default_options) (txt "^x b a$") (txt "x,b/ba") [] = Ok (Some (Distance 86), [(0, 1); (2, 3); (5, 6)])
  /\ find_ranges parser_new (used AlgoV1 path) (txt "^x b a$") (txt "x,b/ba") [] = Ok (Some (Distance 82), [(0, 1); (2, 3); (5, 6)])
  /\ find_ranges parser_new (used AlgoV1 default_options) (txt "',") (txt "a, ,") [] = Ok (Some (Distance 36), [(3, 4)])
  /\ find_ranges parser_new (used AlgoV1 path) (txt "',") (txt "a, ,") [] = Ok (Some (Distance 32), [(1, 2)])
  /\ find_ranges parser_new (used AlgoV2 default_options) (txt "b") (txt "x,b/b") [] = Ok (Some (Distance 34), [(2, 3)])
  /\ find_ranges parser_new (used AlgoV2 path) (txt "b") (txt "x,b/b") [] = Ok (Some (Distance 34), [(4, 5)]).
Proof.
  split; [apply used_reached|]. split; [apply used_reached|]. split; [apply the_query_reached; vm_compute; reflexivity|]. split.
  { assert (P : parse_spec (txt "^x b a$") = [[Term false KPrefix (txt "x")]; [Term false KFuzzy (txt "b")]; [Term false KSuffix (txt "a")]])
      by (vm_compute; reflexivity).
    rewrite P. repeat (apply Forall_cons || apply Forall_nil); right; discriminate. }
  split; [vm_compute; reflexivity|]. split; [vm_compute; reflexivity|]. split; [vm_compute; reflexivity|].
  split; [vm_compute; reflexivity|]. split; vm_compute; reflexivity.
Qed.
