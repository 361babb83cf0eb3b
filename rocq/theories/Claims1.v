(** Proofs of the properties about results, buffers, histories and totality. *)
From Coq Require Import Sorted.
From Verif Require Import Prelude Chars Normalize Utils Candidate MatchedRanges Query Parser Scoring
  Slab Fzf FzfV1 FzfV2 Api History
  Spec PreludeProofs CharsProofs NormalizeProofs CandidateProofs MatchedRangesProofs ParserProofs
  ScoreProofs ExactProofs ShapeProofs V1Proofs V2Tables V2Proofs V2Rows V2Fuzzy V2Facts ApiProofs AcceptProofs
  RangeProofs WordsProofs CongProofs FuzzyFacts.
Local Open Scope nat_scope.

Section WithUnicode.
Context {UC : unicode}.

(** What the two methods return for a query that was obtained from a parser. *)
Lemma reached_result a o q c : query_reached q ->
  exists d new, canonical new /\ on_boundaries c new
  /\ forall m, metric_reached a o m ->
     (exists m', metric_reached a o m' /\ metric_distance m q c = Ok (d, m'))
     /\ forall buf, exists m', metric_reached a o m' /\ metric_distance_and_ranges m q c buf = Ok (d, m', buf ++ new).
Proof.
  intros Hq. pose proof Hq as Hq0. apply query_reached_inv in Hq as [(s & ->)|(s & ->)].
  - destruct (parse_spec_ok s) as [H1 H2].
    exists (option_map from_score (fst (outcome a o (parse_spec s) c))), (inserts [] (snd (outcome a o (parse_spec s) c))).
    split; [|split].
    + apply chain_canonical. apply inserts_chain; [apply outcome_proper; exact H1|constructor].
    + apply inserts_boundaries; [apply outcome_boundaries; exact H1|constructor].
    + intros m Hm. pose proof (metric_reached_options _ _ _ Hm) as Ho. split.
      * destruct (metric_spec a o m (parse_spec s) c [] Ho H1 H2) as [(m' & _ & E) _]. exists m'. split; [|exact E].
        econstructor; eassumption.
      * intros buf. destruct (metric_spec a o m (parse_spec s) c buf Ho H1 H2) as [_ (m' & _ & E)]. exists m'.
        split; [|exact E]. eapply mr_distance_and_ranges; eassumption.
  - exists (option_map from_score (fst (raw_outcome a o s c))), (inserts [] (snd (raw_outcome a o s c))).
    split; [|split].
    + apply chain_canonical. apply inserts_chain; [apply raw_outcome_proper|constructor].
    + apply inserts_boundaries; [apply raw_outcome_boundaries|constructor].
    + intros m Hm. pose proof (metric_reached_options _ _ _ Hm) as Ho. split.
      * destruct (metric_raw_spec a o m s c [] Ho) as [(m' & _ & E) _]. exists m'. split; [|exact E].
        econstructor; eassumption.
      * intros buf. destruct (metric_raw_spec a o m s c buf Ho) as [_ (m' & _ & E)]. exists m'.
        split; [|exact E]. eapply mr_distance_and_ranges; eassumption.
Qed.

Lemma c01_same_distance : forall a o m m' q c buf,
  metric_reached a o m -> metric_reached a o m' -> query_reached q ->
  exists d m1 m2 buf',
    metric_distance m q c = Ok (d, m1) /\ metric_distance_and_ranges m' q c buf = Ok (d, m2, buf').
Proof.
  intros a o m m' q c buf Hm Hm' Hq. destruct (reached_result a o q c Hq) as (d & new & _ & _ & R).
  destruct (R m Hm) as [(m1 & _ & E1) _]. destruct (R m' Hm') as [_ R']. destruct (R' buf) as (m2 & _ & E2). eauto 8.
Qed.

Lemma c02_append_only : forall a o m q c,
  metric_reached a o m -> query_reached q ->
  exists d new, forall buf, exists m',
    metric_distance_and_ranges m q c buf = Ok (d, m', buf ++ new).
Proof.
  intros a o m q c Hm Hq. destruct (reached_result a o q c Hq) as (d & new & _ & _ & R).
  exists d, new. intros buf. destruct (R m Hm) as [_ R']. destruct (R' buf) as (m' & _ & E). eauto.
Qed.

Lemma c04_canonical : forall a o m q c buf d m' buf',
  metric_reached a o m -> query_reached q ->
  metric_distance_and_ranges m q c buf = Ok (d, m', buf') ->
  exists new, buf' = buf ++ new /\ canonical new.
Proof.
  intros a o m q c buf d m' buf' Hm Hq E. destruct (reached_result a o q c Hq) as (d0 & new & Hc & _ & R).
  destruct (R m Hm) as [_ R']. destruct (R' buf) as (m2 & _ & E2). exists new. split; [congruence|exact Hc].
Qed.

Lemma c05_boundaries : forall a o m q c buf d m' buf',
  metric_reached a o m -> query_reached q ->
  metric_distance_and_ranges m q c buf = Ok (d, m', buf') ->
  exists new, buf' = buf ++ new
    /\ Forall (fun r => boundary c (fst r) /\ boundary c (snd r) /\ fst r < snd r <= byte_len c) new.
Proof.
  intros a o m q c buf d m' buf' Hm Hq E. destruct (reached_result a o q c Hq) as (d0 & new & [Hc _] & Hb & R).
  destruct (R m Hm) as [_ R']. destruct (R' buf) as (m2 & _ & E2). exists new. split; [congruence|].
  unfold on_boundaries in Hb. rewrite Forall_forall in *. intros r Hr. specialize (Hc r Hr). specialize (Hb r Hr). destruct Hb as [B1 B2].
  split; [exact B1|]. split; [exact B2|]. split; [exact Hc|].
  destruct B2 as [k ->]. rewrite <- (firstn_skipn k c) at 2. rewrite byte_len_app. lia.
Qed.

(** ** No match *)

Lemma c03_no_match_untouched_partial : forall a o m ps s s1 g q c buf buf',
  metric_reached a o m ->
  parse_spec s = g :: q -> parse_spec s1 = [g] -> ~ lone_negated_fuzzy [g] ->
  find ps m s1 c = Ok None ->
  find_ranges ps m s c buf = Ok (None, buf') -> buf' = buf.
Proof.
  intros a o m ps s s1 g q c buf buf' Hm Hs Hs1 Hl E1 E. apply metric_reached_options in Hm.
  rewrite (find_spec a o) in E1 by exact Hm. rewrite (find_ranges_spec a o) in E by exact Hm.
  rewrite Hs1 in E1. rewrite Hs in E. assert (E0 : option_map from_score (fst (outcome a o (g :: q) c)) = None) by congruence.
  assert (Eb : buf' = buf ++ inserts [] (snd (outcome a o (g :: q) c))) by congruence. subst buf'. clear E.
  assert (E1' : option_map from_score (fst (outcome a o [g] c)) = None) by congruence. clear E1. rename E1' into E1.
  assert (En : either_outcome a o g c = None).
  { destruct (outcome_cases [g]) as [(neg & text & Eg)|[Eo _]].
    - injection Eg as ->. destruct neg; [exfalso; apply Hl; eexists; reflexivity|].
      cbn in E1 |- *. unfold term_outcome, base_outcome. cbn. destruct (fuzzy_outcome a o text c) as [[? ?]|]; [discriminate|reflexivity].
    - rewrite Eo in E1. cbn in E1. destruct (either_outcome a o g c) as [[? ?]|]; [discriminate|reflexivity]. }
  assert (Es : snd (outcome a o (g :: q) c) = []).
  { destruct (outcome_cases (g :: q)) as [(neg & text & Eg)|[Eo _]].
    - rewrite Eg in E0 |- *. cbn in E0 |- *. destruct (fuzzy_outcome a o text c) as [[? ?]|]; [discriminate|reflexivity].
    - rewrite Eo. cbn. rewrite En. reflexivity. }
  rewrite Es. cbn. apply app_nil_r.
Qed.

Lemma c03_single_condition : forall a o m ps s g c buf buf',
  metric_reached a o m -> parse_spec s = [g] ->
  find_ranges ps m s c buf = Ok (None, buf') -> buf' = buf.
Proof.
  intros a o m ps s g c buf buf' Hm Hs E. apply metric_reached_options in Hm.
  rewrite (find_ranges_spec a o) in E by exact Hm. rewrite Hs in E.
  assert (E0 : option_map from_score (fst (outcome a o [g] c)) = None) by congruence.
  assert (Eb : buf' = buf ++ inserts [] (snd (outcome a o [g] c))) by congruence. subst buf'. clear E.
  assert (Es : snd (outcome a o [g] c) = []).
  { destruct (outcome_cases [g]) as [(neg & text & Eg)|[Eo _]].
    - rewrite Eg in E0 |- *. cbn in E0 |- *. destruct (fuzzy_outcome a o text c) as [[? ?]|]; [discriminate|reflexivity].
    - rewrite Eo in E0 |- *. cbn in *. destruct (either_outcome a o g c) as [[? ?]|]; [discriminate|reflexivity]. }
  rewrite Es. cbn. apply app_nil_r.
Qed.

Lemma c03_not_extended : forall a o m ps s c buf buf',
  metric_reached a o m -> find_ranges_raw ps m s c buf = Ok (None, buf') -> buf' = buf.
Proof.
  intros a o m ps s c buf buf' Hm E. apply metric_reached_options in Hm.
  rewrite (find_ranges_raw_spec a o) in E by exact Hm. destruct (_ <=? _); [|discriminate].
  injection E as E0 <-. destruct s as [|x s]; [discriminate|]. cbn in E0 |- *.
  destruct (fuzzy_outcome a o (x :: s) c) as [[? ?]|]; [discriminate|]. cbn. apply app_nil_r.
Qed.

(** ** Blank queries *)

Lemma c10_blank : forall a o m ps s c buf,
  metric_reached a o m -> Forall (fun w => is_term w = None) (words_of s) ->
  find ps m s c = Ok (Some default_distance)
  /\ find_ranges ps m s c buf = Ok (Some default_distance, buf).
Proof.
  intros a o m ps s c buf Hm H. apply metric_reached_options in Hm.
  rewrite (find_spec a o), (find_ranges_spec a o) by exact Hm.
  assert (E : parse_spec s = []).
  { unfold parse_spec. assert (M : forall ws b, Forall (fun w => is_term w = None) ws -> marked_terms b ws = []).
    { induction ws as [|w ws IH]; intros b Hw; [reflexivity|]. inversion Hw as [|? ? H1 H2]; subst.
      cbn [marked_terms]. unfold is_term in H1. destruct (is_bar w); [apply IH; exact H2|].
      rewrite H1. apply IH. exact H2. }
    rewrite M by exact H. reflexivity. }
  rewrite E. cbn. rewrite app_nil_r. split; reflexivity.
Qed.

Lemma c10_blank_not_extended : forall a o m ps c buf,
  metric_reached a o m ->
  find_raw ps m [] c = Ok (Some default_distance)
  /\ find_ranges_raw ps m [] c buf = Ok (Some default_distance, buf).
Proof.
  intros a o m ps c buf Hm. apply metric_reached_options in Hm.
  rewrite (find_raw_spec a o), (find_ranges_raw_spec a o) by exact Hm. cbn. rewrite app_nil_r. split; reflexivity.
Qed.

(** ** Histories *)

Lemma history : forall a o m m' q c buf, metric_reached a o m -> metric_reached a o m' -> query_reached q ->
  (exists d m1 m1', metric_distance m q c = Ok (d, m1) /\ metric_distance m' q c = Ok (d, m1'))
  /\ (exists d buf' m1 m1', metric_distance_and_ranges m q c buf = Ok (d, m1, buf')
        /\ metric_distance_and_ranges m' q c buf = Ok (d, m1', buf')).
Proof.
  intros a o m m' q c buf Hm Hm' Hq. destruct (reached_result a o q c Hq) as (d & new & _ & _ & R).
  destruct (R m Hm) as [(m1 & _ & E1) R1]. destruct (R m' Hm') as [(m2 & _ & E2) R2].
  destruct (R1 buf) as (m3 & _ & E3). destruct (R2 buf) as (m4 & _ & E4). split; eauto 10.
Qed.

Lemma c13_parse_history : forall ps1 ps2 s,
  exists q ps1' ps2', parse ps1 s = Ok (q, ps1') /\ parse ps2 s = Ok (q, ps2').
Proof.
  intros ps1 ps2 s. destruct (parse_correct ps1 s) as (p1 & E1 & _). destruct (parse_correct ps2 s) as (p2 & E2 & _). eauto.
Qed.

Lemma c14_parse_total : forall ps s, exists q ps', parse ps s = Ok (q, ps').
Proof. intros ps s. destruct (parse_correct ps s) as (p1 & E1 & _). eauto. Qed.

Lemma not_extended_room : forall ps s,
  (length s <= length (ps_chars ps) -> exists q ps', parse_not_extended ps s = Ok (q, ps'))
  /\ (length (ps_chars ps) < length s -> parse_not_extended ps s = Panic).
Proof.
  intros ps s. rewrite parse_not_extended_correct.
  destruct (Nat.leb_spec (length s) (length (ps_chars ps))); split; intros; try lia; eauto.
Qed.

(** The size of the buffer in terms of the calls made. *)
Lemma words_alloc_left_length : forall s buf i, length (words_alloc_left buf i s) = length buf.
Proof.
  induction s as [|c s IH]; intros buf i; cbn [words_alloc_left]; [reflexivity|].
  destruct (Nat.lt_ge_cases i (length buf)) as [H|H].
  - rewrite set_idx_ok by exact H. rewrite IH. apply length_upd.
  - rewrite set_idx_panic by exact H. reflexivity.
Qed.

Lemma room_size : forall n ps, parser_with_room n ps -> length (ps_chars ps) = n.
Proof.
  induction 1 as [|n ps s q ps' _ IH E|n ps s q ps' _ IH E|n ps s _ IH E].
  - reflexivity.
  - destruct (parse_correct ps s) as (p1 & E1 & _ & _ & _ & L). rewrite E in E1. injection E1 as _ <-. lia.
  - rewrite parse_not_extended_correct in E. destruct (_ <=? _) eqn:Le; [|discriminate]. apply Nat.leb_le in Le.
    injection E as _ <-. cbn [ps_chars]. rewrite put_length by lia. exact IH.
  - cbn [parse_not_extended_caught ps_chars]. rewrite words_alloc_left_length. exact IH.
Qed.

Lemma room_exists : forall ps, parser_reached ps -> exists n, 64 <= n /\ parser_with_room n ps.
Proof.
  induction 1 as [|ps s q ps' _ (n & Hn & IH) E|ps s q ps' _ (n & Hn & IH) E|ps s _ (n & Hn & IH) E].
  - exists 64. split; [lia|constructor].
  - eexists. split; [|eapply pw_parse; eassumption]. lia.
  - exists n. split; [exact Hn|]. eapply pw_parse_not_extended; eassumption.
  - exists n. split; [exact Hn|]. apply pw_caught; assumption.
Qed.

Lemma c15_parse_not_extended_partial : forall n ps s, parser_with_room n ps ->
  (length s <= n -> exists q ps', parse_not_extended ps s = Ok (q, ps'))
  /\ (n < length s -> parse_not_extended ps s = Panic).
Proof. intros n ps s H. rewrite <- (room_size n ps H). apply not_extended_room. Qed.

Lemma parser_room : forall ps, parser_reached ps -> 64 <= length (ps_chars ps).
Proof. intros ps H. destruct (room_exists ps H) as (n & Hn & W). rewrite (room_size n ps W). exact Hn. Qed.

Lemma c15_short : forall ps s, parser_reached ps -> length s <= 64 ->
  exists q ps', parse_not_extended ps s = Ok (q, ps').
Proof.
  intros ps s H Hs. apply not_extended_room. pose proof (parser_room ps H). lia.
Qed.

Lemma c15_after_parse : forall ps s q ps' s', parse ps s = Ok (q, ps') -> length s' <= byte_len s ->
  exists q' ps'', parse_not_extended ps' s' = Ok (q', ps'').
Proof.
  intros ps s q ps' s' E H. apply not_extended_room.
  destruct (parse_correct ps s) as (p1 & E1 & _ & _ & _ & L). rewrite E in E1. injection E1 as _ <-. lia.
Qed.

Lemma metric_total : forall a o m q c buf, metric_reached a o m -> query_reached q ->
  (exists d m', metric_distance m q c = Ok (d, m'))
  /\ (exists d m' buf', metric_distance_and_ranges m q c buf = Ok (d, m', buf')).
Proof.
  intros a o m q c buf Hm Hq. destruct (reached_result a o q c Hq) as (d & new & _ & _ & R).
  destruct (R m Hm) as [(m1 & _ & E1) R1]. destruct (R1 buf) as (m3 & _ & E3). split; eauto.
Qed.

Lemma c20_same_candidates : forall o m1 m2 q c,
  metric_reached AlgoV1 o m1 -> metric_reached AlgoV2 o m2 -> query_reached q ->
  exists d1 d2 m1' m2', metric_distance m1 q c = Ok (d1, m1') /\ metric_distance m2 q c = Ok (d2, m2')
    /\ (d1 = None <-> d2 = None).
Proof.
  intros o m1 m2 q c H1 H2 Hq. apply metric_reached_options in H1, H2.
  assert (G : forall x y, opt_none x = opt_none y ->
            (option_map from_score x = None <-> option_map from_score y = None)).
  { intros [x|] [y|] E; try discriminate; split; cbn; intros; try discriminate; reflexivity. }
  apply query_reached_inv in Hq as [(s & ->)|(s & ->)].
  - destruct (parse_spec_ok s) as [P1 P2].
    destruct (metric_spec AlgoV1 o m1 (parse_spec s) c [] H1 P1 P2) as [(m1' & _ & E1) _].
    destruct (metric_spec AlgoV2 o m2 (parse_spec s) c [] H2 P1 P2) as [(m2' & _ & E2) _].
    do 4 eexists. split; [exact E1|]. split; [exact E2|]. apply G. apply outcome_same. exact P1.
  - destruct (metric_raw_spec AlgoV1 o m1 s c [] H1) as [(m1' & _ & E1) _].
    destruct (metric_raw_spec AlgoV2 o m2 s c [] H2) as [(m2' & _ & E2) _].
    do 4 eexists. split; [exact E1|]. split; [exact E2|]. apply G. apply raw_same.
Qed.

End WithUnicode.
