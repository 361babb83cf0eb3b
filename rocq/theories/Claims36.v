(** Proofs for C103: how much a search highlights. *)
From Verif Require Import Prelude Chars Normalize Utils Candidate MatchedRanges Query Parser Scoring
  Slab Fzf FzfV1 FzfV2 Api History Spec Amount PreludeProofs CharsProofs CandidateProofs MatchedRangesProofs ParserProofs
  ScoreProofs ExactProofs ShapeProofs V1Proofs V2Proofs V2Fuzzy V2Facts ApiProofs RangeProofs WordsProofs Claims1 Claims2 Claims3 Claims14.
Local Open Scope nat_scope.

(** ** Insertions *)

Lemma ins_length own a b : length (ins own a b) <= S (length own).
Proof.
  induction own as [|[s e] t IH]; cbn [ins]; [cbn; lia|].
  destruct (s =? a).
  - destruct (b <=? e); [cbn; lia|]. destruct t as [|[s' e'] t']; [cbn; lia|]. destruct (s' <=? b); cbn; lia.
  - destruct (a <? s); [destruct (s <=? b); cbn; lia|].
    destruct t as [|[s' e'] t']; [destruct (a <=? e); cbn; lia|].
    destruct (s' <=? a); [cbn [length] in *; lia|].
    destruct (a <=? e), (s' <=? b); [| destruct (e <? b) | |]; cbn; lia.
Qed.

Lemma inserts_length rs : forall own, length (inserts own rs) <= length own + length rs.
Proof.
  induction rs as [|r rs IH]; intros own; [cbn; lia|]. cbn [inserts fold_left].
  specialize (IH (ins own (fst r) (snd r))). pose proof (ins_length own (fst r) (snd r)). unfold inserts in IH. cbn [length]. lia.
Qed.

(** ** Positions *)

Lemma byte_of_char_one c i j b : byte_of_char c i b -> byte_of_char c j b -> i = j.
Proof.
  intros [_ Hi] [_ Hj]. destruct (Nat.lt_trichotomy i j) as [H|[H|H]]; [|exact H|].
  - pose proof (byte_len_firstn_le c (S i) j ltac:(lia)). lia.
  - pose proof (byte_len_firstn_le c (S j) i ltac:(lia)). lia.
Qed.

Lemma byte_in_span c k : forall n b, k + n <= length c -> fst (span c k (k + n)) <= b < snd (span c k (k + n)) ->
  exists j, In j (seq k n) /\ byte_of_char c j b.
Proof.
  intros n. induction n as [|n IH]; intros b Hn Hb; cbn [span fst snd] in *.
  - rewrite Nat.add_0_r in Hb. lia.
  - destruct (Nat.lt_ge_cases b (byte_len (firstn (k + n) c))) as [H|H].
    + destruct (IH b ltac:(lia) ltac:(lia)) as (j & Hj & B). exists j. split; [|exact B]. apply in_seq in Hj. apply in_seq. lia.
    + exists (k + n). split; [apply in_seq; lia|]. split; [lia|]. replace (S (k + n)) with (k + S n) by lia. lia.
Qed.

Lemma way_back_length hit bonus first stop h : forall j i prefer, length (way_back hit bonus first stop h i j prefer) <= S i.
Proof.
  induction j as [|j IH]; intros i prefer; cbn [way_back]; destruct (_ && _)%bool.
  - destruct i; cbn; lia.
  - cbn. lia.
  - destruct i as [|i]; cbn [length]; [lia|]. apply le_n_S, IH.
  - apply IH.
Qed.

Section Outcome.
Context {UC : unicode}.
Variables (a : algo) (o : options) (c : str).

(** [rs] has at most [n] ranges, with bytes of at most [k] characters. *)
Definition small (n k : nat) (rs : list byte_range) : Prop :=
  length rs <= n /\ exists L, length L <= k /\ forall b, covered rs b -> exists j, In j L /\ byte_of_char c j b.

Lemma small_nil n k : small n k [].
Proof. split; [cbn; lia|]. exists []. split; [cbn; lia|]. intros b C. destruct (covered_nil _ C). Qed.

Lemma small_mono n k n' k' rs : n <= n' -> k <= k' -> small n k rs -> small n' k' rs.
Proof. intros Hn Hk [H1 (L & H2 & H3)]. split; [lia|]. exists L. split; [lia|exact H3]. Qed.

Lemma small_app n k n' k' rs rs' : small n k rs -> small n' k' rs' -> small (n + n') (k + k') (rs ++ rs').
Proof.
  intros [H1 (L & H2 & H3)] [H1' (L' & H2' & H3')]. split; [rewrite app_length; lia|]. exists (L ++ L').
  split; [rewrite app_length; lia|]. intros b C. apply covered_app in C as [C|C].
  - destruct (H3 b C) as (j & Hj & B). exists j. rewrite in_app_iff. auto.
  - destruct (H3' b C) as (j & Hj & B). exists j. rewrite in_app_iff. auto.
Qed.

Lemma fuzzy_small text sc rs : text <> [] -> fuzzy_outcome a o text c = Some (sc, rs) -> small (length text) (length text) rs.
Proof.
  intros Ht. unfold fuzzy_outcome. destruct a.
  - destruct (v1_positions _ _ _ _) as [ps|] eqn:E; [|discriminate]. intros H. injection H as _ <-.
    apply v1_positions_aligned in E; [|exact Ht]. assert (L : length ps = length text) by (destruct E as [_ F]; induction F; cbn [length]; congruence).
    apply aligned_bound in E. split; [rewrite map_length; lia|]. exists ps. split; [lia|].
    intros b C. apply covered_char in C; [exact C|exact E].
  - destruct (v2_result _ _ _ _ _) as [[sc' ps]|] eqn:E; [|discriminate]. intros H. injection H as _ <-.
    pose proof (v2_result_bound _ _ _ _ _ _ _ Ht E) as [B _].
    assert (L : length ps <= length text).
    { unfold v2_result in E. destruct (greedy _ text c 0) as [fs|] eqn:G; [|discriminate].
      destruct (last_col _ _ text c) as [stop|] eqn:L; [|discriminate].
      pose proof (v2_best_cell _ _ (opt_scheme o) text c fs stop Ht G L) as Bc.
      destruct (v2_best _ _ _ text c fs stop) as [i j]. cbn [fst snd] in Bc. injection E as _ <-.
      destruct Bc as ((Hi & _) & _). etransitivity; [apply way_back_length|lia]. }
    split; [rewrite map_length; lia|]. exists ps. split; [lia|]. intros b C. apply covered_char in C; [exact C|exact B].
Qed.

Lemma base_small t sc rs : t_text t <> [] -> base_outcome a o t c = Some (sc, rs) ->
  small (match t_kind t with KFuzzy => length (t_text t) | _ => 1 end) (length (t_text t)) rs.
Proof.
  intros Ht E. unfold base_outcome in E. destruct (t_kind t) eqn:K; [eapply fuzzy_small; eauto|..].
  all: destruct (place_found o t c) as [i|] eqn:P; [|discriminate]; injection E as _ <-;
    apply place_found_hits in P as [_ P]; [|exact Ht];
    split; [cbn; lia|]; exists (seq i (length (t_text t))); split; [rewrite seq_length; lia|];
    intros b C; apply covered_cons in C as [C|C]; [|destruct (covered_nil _ C)];
    exact (byte_in_span c i _ b P C).
Qed.

Lemma term_small t sc rs : t_text t <> [] -> term_outcome a o t c = Some (sc, rs) -> small (term_pieces t) (term_chars t) rs.
Proof.
  intros Ht. unfold term_outcome, term_pieces, term_chars. destruct (t_neg t).
  - destruct (base_outcome a o t c); [discriminate|]. intros H. injection H as _ <-. apply small_nil.
  - apply base_small. exact Ht.
Qed.

Lemma either_small g sc rs : Forall (fun t => t_text t <> []) g -> either_outcome a o g c = Some (sc, rs) ->
  small (list_max (map term_pieces g)) (list_max (map term_chars g)) rs.
Proof.
  induction 1 as [|t g Ht Hg IH]; cbn [either_outcome]; [discriminate|].
  intros H. cbn [map]. change (list_max (?x :: ?l)) with (Nat.max x (list_max l)).
  destruct (term_outcome a o t c) as [[sc' rs']|] eqn:E.
  - injection H as <- <-. eapply small_mono; [| |eapply term_small; eauto]; apply Nat.le_max_l.
  - eapply small_mono; [| |apply IH; exact H]; apply Nat.le_max_r.
Qed.

Lemma all_small q : texts_ok q -> small (at_most term_pieces q) (at_most term_chars q) (snd (all_outcome a o q c)).
Proof.
  induction 1 as [|g q Hg Hq IH]; cbn [all_outcome]; [apply small_nil|].
  destruct (either_outcome a o g c) as [[sc rs]|] eqn:E; [|apply small_nil].
  destruct (all_outcome a o q c) as [tot rs']. cbn [snd] in *.
  apply (small_app _ _ _ _ _ _ (either_small _ _ _ Hg E) IH).
Qed.

Lemma at_most_length q f : (forall t, f t <= length (t_text t)) -> at_most f q <= text_length q.
Proof.
  intros F. unfold at_most, text_length. induction q as [|g q IH]; [reflexivity|]. cbn [map concat]. rewrite map_app, list_sum_app.
  change (list_sum (?x :: ?l)) with (x + list_sum l). apply Nat.add_le_mono; [|exact IH]. clear IH.
  induction g as [|t g IH]; [reflexivity|]. cbn [map]. change (list_max (?x :: ?l)) with (Nat.max x (list_max l)).
  change (list_sum (?x :: ?l)) with (x + list_sum l). specialize (F t). lia.
Qed.

Lemma lone_small q : texts_ok q -> small (text_length q) (text_length q) (snd (outcome a o q c)).
Proof.
  intros T. destruct (outcome_cases q) as [(neg & text & ->)|[Eo _]].
  - cbn [outcome]. inversion T as [|? ? T1]; subst. inversion T1; subst. cbn [t_text] in *.
    destruct (fuzzy_outcome a o text c) as [[sc rs]|] eqn:E; [|apply small_nil]. cbn [snd].
    eapply small_mono; [| |eapply fuzzy_small; eauto]; unfold text_length; cbn; lia.
  - rewrite Eo. assert (G : small (at_most term_pieces q) (at_most term_chars q) (snd (all_outcome a o q c))) by (apply all_small; exact T).
    split.
    + etransitivity; [apply G|]. clear Eo G. induction T as [|g q Hg Hq IH]; [reflexivity|].
      unfold at_most, text_length in *. cbn [map concat]. rewrite map_app, list_sum_app.
      change (list_sum (?x :: ?l)) with (x + list_sum l). apply Nat.add_le_mono; [|exact IH]. clear IH.
      induction Hg as [|t g Ht Hg IH]; [reflexivity|]. cbn [map]. change (list_max (?x :: ?l)) with (Nat.max x (list_max l)).
      change (list_sum (?x :: ?l)) with (x + list_sum l).
      assert (term_pieces t <= length (t_text t)).
      { unfold term_pieces. destruct (t_neg t); [lia|]. destruct (t_kind t); destruct (t_text t); try congruence; cbn; lia. }
      lia.
    + destruct G as [_ (L & H1 & H2)]. exists L. split; [|exact H2]. etransitivity; [exact H1|]. apply at_most_length.
      intros t. unfold term_chars. destruct (t_neg t); lia.
Qed.

Lemma small_inserts n k rs js : proper rs -> small n k rs -> highlighted c (inserts [] rs) js ->
  length (inserts [] rs) <= n /\ length js <= k.
Proof.
  intros P [H1 (L & H2 & H3)] [D F]. split.
  - pose proof (inserts_length rs []). cbn [length] in *. lia.
  - etransitivity; [|exact H2]. apply NoDup_incl_length; [exact D|]. intros j Hj. rewrite Forall_forall in F.
    destruct (F j Hj) as (b & B & C). apply covered_inserts in C; [|exact P]. destruct (H3 b C) as (j' & Hj' & B').
    rewrite (byte_of_char_one _ _ _ _ B B'). exact Hj'.
Qed.

Lemma small_inserts_both n k rs : proper rs -> small n k rs ->
  length (inserts [] rs) <= n /\ forall js, highlighted c (inserts [] rs) js -> length js <= k.
Proof.
  intros P S0. split; [|intros js H; apply (small_inserts n k rs js P S0 H)].
  apply (small_inserts n k rs [] P S0). split; constructor.
Qed.

End Outcome.

Section Claims.
Context {UC : unicode}.

Lemma c103_terms : forall a o m ps s c buf r buf',
  metric_reached a o m -> ~ lone_negated_fuzzy (parse_spec s) ->
  find_ranges ps m s c buf = Ok (r, buf') ->
  exists new, buf' = buf ++ new
    /\ length new <= at_most term_pieces (parse_spec s)
    /\ forall js, highlighted c new js -> length js <= at_most term_chars (parse_spec s).
Proof.
  intros a o m ps s c buf r buf' Hm Hl E. pose proof (metric_reached_options _ _ _ Hm) as Ho.
  rewrite (find_ranges_spec a o) in E by exact Ho. pose proof (proj1 (parse_spec_ok s)) as T.
  exists (inserts [] (snd (outcome a o (parse_spec s) c))). split; [congruence|]. clear E.
  apply small_inserts_both; [apply outcome_proper; exact T|].
  destruct (outcome_cases (parse_spec s)) as [(neg & text & Eq)|[Eo _]]; [|rewrite Eo; apply all_small; exact T].
  rewrite Eq in *. destruct neg; [destruct Hl; eexists; reflexivity|].
  pose proof (all_small a o c _ T) as G. cbn [outcome all_outcome either_outcome term_outcome t_neg base_outcome t_kind t_text] in *.
  unfold term_outcome in G. cbn [t_neg base_outcome t_kind t_text] in G.
  unfold base_outcome in G. cbn [t_kind t_text] in G.
  destruct (fuzzy_outcome a o text c) as [[sc rs]|]; [|exact G]. cbn [snd] in *. rewrite app_nil_r in G. exact G.
Qed.

Lemma c103_query : forall a o m ps s c buf r buf',
  metric_reached a o m -> find_ranges ps m s c buf = Ok (r, buf') ->
  exists new, buf' = buf ++ new /\ length new <= length s
    /\ forall js, highlighted c new js -> length js <= length s.
Proof.
  intros a o m ps s c buf r buf' Hm E. pose proof (metric_reached_options _ _ _ Hm) as Ho.
  rewrite (find_ranges_spec a o) in E by exact Ho. pose proof (proj1 (parse_spec_ok s)) as T.
  exists (inserts [] (snd (outcome a o (parse_spec s) c))). split; [congruence|]. clear E.
  apply small_inserts_both; [apply outcome_proper; exact T|].
  eapply small_mono; [apply text_length_le|apply text_length_le|]. apply lone_small. exact T.
Qed.

Lemma c103_not_extended : forall a o m ps s c buf r buf',
  metric_reached a o m -> find_ranges_raw ps m s c buf = Ok (r, buf') ->
  exists new, buf' = buf ++ new /\ length new <= length s
    /\ forall js, highlighted c new js -> length js <= length s.
Proof.
  intros a o m ps s c buf r buf' Hm E. pose proof (metric_reached_options _ _ _ Hm) as Ho.
  rewrite (find_ranges_raw_spec a o) in E by exact Ho. destruct (_ <=? _); [|discriminate].
  exists (inserts [] (snd (raw_outcome a o s c))). split; [congruence|]. clear E.
  destruct s as [|x t]; [cbn; split; [lia|]; intros js [_ F]; destruct js; [cbn; lia|]; inversion F as [|? ? (b & _ & C)]; destruct (covered_nil _ C)|].
  apply small_inserts_both; [apply raw_outcome_proper|]. unfold raw_outcome.
  destruct (fuzzy_outcome a o (x :: t) c) as [[sc rs]|] eqn:E; [|apply small_nil]. cbn [snd].
  eapply fuzzy_small; [discriminate|exact E].
Qed.

End Claims.
