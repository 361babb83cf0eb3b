(** Properties C91 to C93: queries as formulas, mirror images, and short candidates. See Properties_results.v
    for the conventions. *)
From Coq Require Import Sorted String Lia.
From Verif Require Import Prelude Chars Utils Query Parser Scoring Fzf Api History Spec Typing Logic.
From Verif Require Import Claims26 ExampleKit.
Local Open Scope nat_scope.

(** ** C91. A query means what the formula means *)

(** If the formula of [s] implies the formula of [s'] then whatever [s] matches is matched by [s']. *)
Theorem C91_entails : forall (UC : unicode) a o m ps s s' c, metric_reached a o m ->
  ~ lone_negated_fuzzy (parse_spec s) -> ~ lone_negated_fuzzy (parse_spec s') ->
  entails (parse_spec s) (parse_spec s') -> accepts (find ps m s c) -> accepts (find ps m s' c).
Proof. exact (@c91_entails). Qed.
Print Assumptions C91_entails.

(** Queries with the same truth table match the same candidates. *)
Theorem C91_same : forall (UC : unicode) a o m ps s s' c, metric_reached a o m ->
  ~ lone_negated_fuzzy (parse_spec s) -> ~ lone_negated_fuzzy (parse_spec s') ->
  same_table (parse_spec s) (parse_spec s') -> (accepts (find ps m s c) <-> accepts (find ps m s' c)).
Proof. exact (@c91_same). Qed.
Print Assumptions C91_same.

(** An alternative which asks for more than one to the left of it can be left out: not even the distance and the ranges change. *)
Theorem C91_alternative : forall (UC : unicode) a o m ps s s' q1 g1 t g2 q2 u c buf, metric_reached a o m ->
  parse_spec s = q1 ++ (g1 ++ t :: g2) :: q2 -> parse_spec s' = q1 ++ (g1 ++ g2) :: q2 ->
  ~ lone_negated_fuzzy (parse_spec s') -> In u g1 -> weaker u t ->
  find_ranges ps m s c buf = find_ranges ps m s' c buf.
Proof. exact (@c91_alternative). Qed.
Print Assumptions C91_alternative.

(** [^fo !x] implies [foo | 'f]; the law of distribution; and [b$] adds nothing to [b]. *)
Example C91_example (UC := latin) :
  entails (parse_spec (txt "^fo !x")) (parse_spec (txt "foo | 'f"))
  /\ same_table (parse_spec (txt "'b | a c | a")) (parse_spec (txt "a | 'b | a a | c | a"))
  /\ find parser_new (used AlgoV1 default_options) (txt "^fo !x") (txt " foe") = Ok (Some (Distance 62))
  /\ find parser_new (used AlgoV1 default_options) (txt "foo | 'f") (txt " foe") = Ok (Some (Distance 36))
  /\ find parser_new (used AlgoV2 default_options) (txt "'b | a c | a") (txt "bac") = Ok (Some (Distance 52))
  /\ find parser_new (used AlgoV2 default_options) (txt "a | 'b | a a | c | a") (txt "bac") = Ok (Some (Distance 32))
  /\ find parser_new (used AlgoV2 default_options) (txt "'b | a c | a") (txt "bc") = Ok (Some (Distance 52))
  /\ parse_spec (txt "a b | b$ c") = [[Term false KFuzzy (txt "a")]] ++ ([Term false KFuzzy (txt "b")] ++ Term false KSuffix (txt "b") :: []) :: [[Term false KFuzzy (txt "c")]]
  /\ parse_spec (txt "a b c") = [[Term false KFuzzy (txt "a")]] ++ ([Term false KFuzzy (txt "b")] ++ []) :: [[Term false KFuzzy (txt "c")]]
  /\ weaker (Term false KFuzzy (txt "b")) (Term false KSuffix (txt "b"))
  /\ find_ranges parser_new (used AlgoV2 default_options) (txt "a b | b$ c") (txt "cab") [] = Ok (Some (Distance 68), [(0, 3)]).
Proof.
  split.
  { intros v V. replace (parse_spec (txt "^fo !x")) with [[Term false KPrefix (txt "fo")]; [Term true KExact (txt "x")]] by (vm_compute; reflexivity).
    replace (parse_spec (txt "foo | 'f")) with [[Term false KFuzzy (txt "foo"); Term false KExact (txt "f")]] by (vm_compute; reflexivity).
    unfold query_true, term_true. cbn [forallb existsb t_neg t_kind t_text orb andb].
    destruct (v KPrefix (txt "fo")) eqn:E; [|discriminate]. intros _.
    rewrite (V KExact (txt "f") KPrefix (txt "fo")); [rewrite orb_true_r; reflexivity| |exact E].
    apply (al_trans _ _ KPrefix (txt "f")); [apply al_kind; constructor|apply (al_prefix (txt "f") (txt "o"))]. }
  split.
  { intros v. replace (parse_spec (txt "'b | a c | a"))
      with [[Term false KExact (txt "b"); Term false KFuzzy (txt "a")]; [Term false KFuzzy (txt "c"); Term false KFuzzy (txt "a")]]
      by (vm_compute; reflexivity).
    replace (parse_spec (txt "a | 'b | a a | c | a"))
      with [[Term false KFuzzy (txt "a"); Term false KExact (txt "b"); Term false KFuzzy (txt "a")]; [Term false KFuzzy (txt "a"); Term false KFuzzy (txt "c"); Term false KFuzzy (txt "a")]]
      by (vm_compute; reflexivity).
    unfold query_true, term_true. cbn [forallb existsb t_neg t_kind t_text].
    destruct (v KExact (txt "b")), (v KFuzzy (txt "a")), (v KFuzzy (txt "c")); reflexivity. }
  do 5 (split; [vm_compute; reflexivity|]). do 2 (split; [vm_compute; reflexivity|]). split; [|vm_compute; reflexivity].
  split; [reflexivity|]. cbn. apply al_kind. apply (nr_trans _ KExact); constructor.
Qed.

(** ** C92. Mirror images *)

(** [s'] is [s] with the texts reversed and prefix and suffix terms exchanged; [rev c] is [c] reversed. *)
Theorem C92_mirror : forall (UC : unicode) a o m ps s s' c, metric_reached a o m -> parse_spec s' = mirror (parse_spec s) ->
  (accepts (find ps m s c) <-> accepts (find ps m s' (rev c))).
Proof. exact (@c92_mirror). Qed.
Print Assumptions C92_mirror.

Example C92_example (UC := latin) :
  parse_spec (txt "oof !^z ^ab") = mirror (parse_spec (txt "foo !z$ ba$"))
  /\ find parser_new (used AlgoV1 default_options) (txt "foo !z$ ba$") (txt "f-oo ba  ") = Ok (Some (Distance 143))
  /\ find parser_new (used AlgoV1 default_options) (txt "oof !^z ^ab") (rev (txt "f-oo ba  ")) = Ok (Some (Distance 145))
  /\ find parser_new (used AlgoV2 default_options) (txt "foo !z$ ba$") (txt "foba!") = Ok None
  /\ find parser_new (used AlgoV2 default_options) (txt "oof !^z ^ab") (rev (txt "foba!")) = Ok None.
Proof. repeat split; vm_compute; reflexivity. Qed.

(** ** C93. Short candidates *)

(** Every condition has an alternative which is negated or which is not longer than the candidate. *)
Theorem C93_short : forall (UC : unicode) a o m ps s c, metric_reached a o m -> accepts (find ps m s c) ->
  Forall (Exists (fun t => t_neg t = true \/ length (t_text t) <= length c)) (parse_spec s).
Proof. exact (@c93_short). Qed.
Print Assumptions C93_short.

Example C93_example (UC := latin) :
  find parser_new (used AlgoV2 default_options) (txt "fo\ b 'ob") (txt "fo ob") = Ok (Some (Distance 163))
  /\ find parser_new (used AlgoV2 default_options) (txt "fo\ bo") (txt "fo bo") = Ok (Some (Distance 140))
  /\ find parser_new (used AlgoV2 default_options) (txt "fo\ bo") (txt "fo b") = Ok None.
Proof. repeat split; vm_compute; reflexivity. Qed.
