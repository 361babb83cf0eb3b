(** Property C107: what the terms of a query cost exactly. See Properties_results.v for the conventions,
    Properties_cost.v for what [distance_steps] counts, CostFormula.v for [reading_cost] and [growth], TermCost.v for
    [word_cost] and [conditions_cost]. *)
From Coq Require Import String.
From Verif Require Import Prelude Chars Utils Candidate Query Parser Scoring Fzf FzfV1 FzfV2 Api Cost CostFormula TermCost History Spec.
From Verif Require Import NormalizeProofs ApiProofs AcceptProofs Claims1 Claims2 Claims43 ExampleKit.
Local Open Scope nat_scope.

(** ** C107. What a query costs *)

(** Terms which are not fuzzy: the candidate is read once, the conditions are tried until one fails, the terms of a
    condition until one holds, and each term which is tried costs what [word_cost] says. *)
Theorem C107_words : forall (UC : unicode) a o m ps s q ps' c d m' same holds,
  metric_reached a o m -> parse ps s = Ok (q, ps') -> parse_spec s <> [] ->
  Forall (Forall (fun t => t_kind t <> KFuzzy /\ ~ blank_equal t)) (parse_spec s) ->
  metric_distance m q c = Ok (d, m') ->
  (forall text x y, same text x y = true <-> agreement o text x y) ->
  (forall t, In t (concat (parse_spec s)) -> (holds t = true <-> term_accepts (opt_case o) (opt_norm o) t c)) ->
  distance_steps m q c
  = reading_cost (hd 0 (buffers m)) c
    + conditions_cost (fun t => word_cost (same (t_text t)) (opt_scheme o) (t_kind t) (t_text t) c) holds (parse_spec s).
Proof. exact (@c107_words). Qed.
Print Assumptions C107_words.

(** Any terms, if no vector other than that of the characters of the candidate has to grow (FzfV1 has no other): a fuzzy
    term costs, apart from reading the candidate, what it costs on its own. *)
Theorem C107_sum : forall (UC : unicode) a o m ps s q ps' c d m' same holds cost,
  metric_reached a o m -> parse ps s = Ok (q, ps') ->
  parse_spec s <> [] -> (forall neg text, parse_spec s <> [[Term neg KFuzzy text]]) ->
  Forall (Forall (fun t => ~ blank_equal t)) (parse_spec s) ->
  metric_distance m q c = Ok (d, m') -> tl (buffers m') = tl (buffers m) ->
  (forall text x y, same text x y = true <-> agreement o text x y) ->
  (forall t, In t (concat (parse_spec s)) -> (holds t = true <-> term_accepts (opt_case o) (opt_norm o) t c)) ->
  (forall text q1, fuzzy_query text q1 -> text <> [] ->
     distance_steps m q1 c = reading_cost (hd 0 (buffers m)) c + cost text) ->
  distance_steps m q c
  = reading_cost (hd 0 (buffers m)) c
    + conditions_cost (fun t => match t_kind t with
                                | KFuzzy => cost (t_text t)
                                | k => word_cost (same (t_text t)) (opt_scheme o) k (t_text t) c
                                end) holds (parse_spec s).
Proof. exact (@c107_sum). Qed.
Print Assumptions C107_sum.

(** FzfV1, no match: the characters [done] of the query are found, [fs] are their leftmost positions, and [x] is not
    found behind them. The candidate is looked at once, unless it is ASCII and [x] is not. *)
Theorem C107_missed_v1 : forall (UC : unicode) o m text done x rest q c fs,
  metric_reached AlgoV1 o m -> fuzzy_query text q -> text = done ++ x :: rest ->
  leftmost (agreement o text) done c fs ->
  (forall j y, (match fs with [] => 0 | _ => S (last fs 0) end) <= j -> nth_error c j = Some y -> ~ agreement o text x y) ->
  distance_steps m q c
  = reading_cost (hd 0 (buffers m)) c + S (length done)
    + if forallb is_ascii c && negb (is_ascii x) then (match fs with [] => 0 | _ => S (last fs 0) end) else length c.
Proof. exact (@c107_missed_v1). Qed.
Print Assumptions C107_missed_v1.

(** FzfV2, no match, at least two characters (for one see C102_v2_char): the same, and the vector of the positions has a
    place for each character of the query. *)
Theorem C107_missed_v2 : forall (UC : unicode) o m text done x rest q c fs,
  metric_reached AlgoV2 o m -> fuzzy_query text q -> text = done ++ x :: rest -> 2 <= length text ->
  leftmost (agreement o text) done c fs ->
  (forall j y, (match fs with [] => 0 | _ => S (last fs 0) end) <= j -> nth_error c j = Some y -> ~ agreement o text x y) ->
  distance_steps m q c
  = reading_cost (hd 0 (buffers m)) c + growth (nth 3 (buffers m) 0) (length text) + S (length done)
    + if forallb is_ascii c && negb (is_ascii x) then (match fs with [] => 0 | _ => S (last fs 0) end) else length c.
Proof. exact (@c107_missed_v2). Qed.
Print Assumptions C107_missed_v2.

(** Each kind of term, one which matches and one which does not; then a query with five terms, of which the last is not
    tried; then one with a fuzzy term. *)
Example C107_example (UC := latin) :
  let c := txt " foo/ba_foo" in
  let same text := char_eq (sensitive_for Smart text) false in
  let holds t := match term_outcome AlgoV1 default_options t c with Some _ => true | None => false end in
  let steps a s := distance_steps (metric_new a) (the_query s) c in
  let s := txt "'oo ^x | foo$ !^o ba$ | !foo" in
  let s' := txt "'oo fbo" in
  (forall text x y, same text x y = true <-> agreement default_options text x y)
  /\ reading_cost 128 c = 11
  /\ exact_cost (same (txt "oo")) SchemeDefault (txt "oo") c = 1 + (1 + 1 + 3 + 3 + 1 + 1 + 1 + 1 + 1 + 2) + 2
  /\ steps AlgoV1 (txt "'oo") = 11 + 2 + 18 /\ steps AlgoV2 (txt "!oo") = 11 + 2 + 18
  /\ exact_cost (same (txt "foo")) SchemeDefault (txt "foo") c = 1 + (1 + 3) + 3 /\ steps AlgoV1 (txt "'foo") = 11 + 2 + 8
  /\ prefix_cost (same (txt "fo")) (txt "fo") c = 2 + 2 + 2 /\ steps AlgoV1 (txt "^fo") = 11 + 2 + 6
  /\ prefix_cost (same (txt "fx")) (txt "fx") c = 2 + 2 /\ steps AlgoV2 (txt "^fx") = 11 + 2 + 4
  /\ suffix_cost (same (txt "foo")) (txt "foo") c = 1 + 3 + 3 /\ steps AlgoV1 (txt "foo$") = 11 + 2 + 7
  /\ equal_cost (same (txt "foo")) (txt "foo") c = 2 + 1 + 3 /\ steps AlgoV1 (txt "^foo$") = 11 + 2 + 6
  /\ equal_cost (same (txt "foo/ba_foo")) (txt "foo/ba_foo") c = 2 + 1 + 10 + 10
  /\ steps AlgoV1 (txt "^foo/ba_foo$") = 11 + 2 + 23
  /\ parse_spec s = [[Term false KExact (txt "oo")]; [Term false KPrefix (txt "x"); Term false KSuffix (txt "foo")];
       [Term true KPrefix (txt "o")]; [Term false KSuffix (txt "ba"); Term true KExact (txt "foo")]]
  /\ Forall (Forall (fun t => t_kind t <> KFuzzy /\ ~ blank_equal t)) (parse_spec s)
  /\ (forall t, In t (concat (parse_spec s)) -> (holds t = true <-> term_accepts Smart false t c))
  /\ (exists m', metric_distance (metric_new AlgoV1) (the_query s) c = Ok (None, m'))
  /\ steps AlgoV1 s = 11 + (1 + (1 + 18)) + (1 + (1 + 3) + (1 + 7)) + (1 + (1 + 3)) + (1 + (1 + 2) + (1 + 8))
  /\ parse_spec s' = [[Term false KExact (txt "oo")]; [Term false KFuzzy (txt "fbo")]]
  /\ (exists d m', metric_distance (metric_new AlgoV2) (the_query s') c = Ok (d, m') /\ buffers m' = buffers (metric_new AlgoV2))
  /\ steps AlgoV2 (txt "fbo") = 11 + 125 /\ steps AlgoV2 s' = 11 + (1 + (1 + 18)) + (1 + (1 + 125)).
Proof.
  cbv zeta.
  split; [intros; exact (char_eq_agrees _ _ _ _)|].
  do 17 (split; [vm_compute; reflexivity|]).
  split. { vm_compute parse_spec. repeat constructor; try discriminate; intros [E _]; discriminate E. }
  split. { intros t Ht. vm_compute in Ht.
    assert (N : t_text t <> [] /\ ~ blank_equal t).
    { decompose [or] Ht; try contradiction; subst t; (split; [discriminate|intros [E _]; discriminate E]). }
    destruct N as [N1 N2]. rewrite (term_outcome_iff default_options AlgoV1 t _ N1 N2).
    destruct (term_outcome _ _ _ _) as [r|]; split; intros H; [exists r; reflexivity|reflexivity|discriminate|destruct H; discriminate]. }
  split. { apply shown_ok. vm_compute. reflexivity. }
  do 2 (split; [vm_compute; reflexivity|]).
  split. { eexists. eexists. split; vm_compute; reflexivity. }
  split; vm_compute; reflexivity.
Qed.

(** The two queries which find nothing: an ASCII character, and one which cannot be in an ASCII candidate. *)
Example C107_missed_example (UC := latin) :
  let c := txt "foo/ba_foo" in
  let text := txt "fbx" in
  let text' := txt "fb" ++ [233%N] in
  fuzzy_query text (the_query text) /\ fuzzy_query text' (the_query text')
  /\ leftmost (agreement default_options text) (txt "fb") c [0; 4] /\ leftmost (agreement default_options text') (txt "fb") c [0; 4]
  /\ (forall x y, In x [120%N; 233%N] -> In y (skipn 5 c) ->
        ~ agreement default_options text x y /\ ~ agreement default_options text' x y)
  /\ distance_steps (metric_new AlgoV1) (the_query text) c = 10 + 3 + 10
  /\ distance_steps (metric_new AlgoV2) (the_query text) c = 10 + 3 + 10
  /\ distance_steps (metric_new AlgoV1) (the_query text') c = 10 + 3 + 5
  /\ distance_steps (metric_new AlgoV2) (the_query text') c = 10 + 3 + 5
  /\ buffers (metric_new AlgoV2) = [128; 128; 256; 128; 256].
Proof.
  cbv zeta.
  do 2 (split; [apply the_fuzzy_query; vm_compute; reflexivity|]).
  do 2 (split; [apply greedy_leftmost; vm_compute; reflexivity|]).
  split. { intros x y Hx Hy. unfold agreement. rewrite <- !char_eq_agrees. vm_compute in Hx, Hy. cbn [opt_norm default_options].
    decompose [or] Hx; decompose [or] Hy; try contradiction; subst x y; split; vm_compute; discriminate. }
  repeat split; vm_compute; reflexivity.
Qed.
