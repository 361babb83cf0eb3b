(** Property C65: overflow checks. See Properties_results.v for the conventions. *)
From Coq Require Import String.
From Verif Require Import Prelude Chars Normalize Utils Candidate Query Parser Scoring Slab Fzf FzfV1 FzfV2 Api Checked History Spec.
From Verif Require Import Claims1 Claims2 Claims3 Claims4 Claims5 Claims6 Claims7 Claims8 Claims9 Claims10 ExampleKit.
Local Open Scope nat_scope.

(** ** C65. Overflow checks never fire *)

(** [metric_distance_ck] and [metric_distance_and_ranges_ck] are the two searches as they run in a
    build with overflow checks: every operation on a score panics when the result is not an i64. They
    are the two searches, which compute with unbounded scores, when the query and the candidate
    have fewer than 2^28 characters each. *)
Theorem C65_no_overflow : forall (UC : unicode) a o m ps s q ps' c buf,
  metric_reached a o m ->
  parse ps s = Ok (q, ps') \/ parse_not_extended ps s = Ok (q, ps') ->
  (Z.of_nat (length s) < 2 ^ 28)%Z -> (Z.of_nat (length c) < 2 ^ 28)%Z ->
  metric_distance_ck m q c = metric_distance m q c
  /\ metric_distance_and_ranges_ck m q c buf = metric_distance_and_ranges m q c buf.
Proof. exact (@no_overflow). Qed.
Print Assumptions C65_no_overflow.

Theorem C65_returns : forall (UC : unicode) a o m ps s q ps' c buf,
  metric_reached a o m -> parser_reached ps ->
  parse ps s = Ok (q, ps') \/ parse_not_extended ps s = Ok (q, ps') ->
  (Z.of_nat (length s) < 2 ^ 28)%Z -> (Z.of_nat (length c) < 2 ^ 28)%Z ->
  (exists d m', metric_distance_ck m q c = Ok (d, m'))
  /\ (exists d m' buf', metric_distance_and_ranges_ck m q c buf = Ok (d, m', buf')).
Proof. exact (@checked_total). Qed.
Print Assumptions C65_returns.

(** The bound cannot be dropped: the length of a run is counted in a u32. *)
Theorem C65_long_run : forall (UC : unicode) a o m ps n,
  metric_reached a o m -> (2 ^ 32 <= Z.of_nat n)%Z ->
  exists q ps', parse ps (94%N :: repeat 97%N n) = Ok (q, ps')
    /\ (exists d m', metric_distance m q (repeat 97%N n) = Ok (d, m'))
    /\ metric_distance_ck m q (repeat 97%N n) = Panic.
Proof. exact (@long_run). Qed.
Print Assumptions C65_long_run.

Example C65_example (UC := latin) :
  metric_reached AlgoV2 default_options (used AlgoV2 default_options)
  /\ parser_reached parser_new
  /\ (exists ps', parse parser_new (txt "fb 'oo | x !zz") = Ok (the_query (txt "fb 'oo | x !zz"), ps'))
  /\ (Z.of_nat (List.length (txt "fb 'oo | x !zz")) < 2 ^ 28)%Z
  /\ (Z.of_nat (List.length (txt "foo/bar" ++ [233%N])) < 2 ^ 28)%Z
  /\ shown_ranges (metric_distance_and_ranges_ck (used AlgoV2 default_options) (the_query (txt "fb 'oo | x !zz")) (txt "foo/bar" ++ [233%N]) [])
     = Some (Some (Distance 92), [(0, 3); (4, 5)])
  /\ (2 ^ 32 <= Z.of_nat (Z.to_nat (2 ^ 32)))%Z.
Proof.
  split; [apply used_reached|]. split; [apply pr_new|].
  split; [eexists; vm_compute; reflexivity|].
  split; [reflexivity|]. split; [reflexivity|].
  split; [vm_compute; reflexivity|]. rewrite Z2Nat.id; [apply Z.le_refl|discriminate].
Qed.
