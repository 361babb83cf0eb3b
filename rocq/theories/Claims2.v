(** Proofs of the properties about fuzzy terms and about the other terms. *)
From Coq Require Import Sorted.
From Verif Require Import Prelude Chars Normalize Utils Candidate MatchedRanges Query Parser Scoring
  Slab Fzf FzfV1 FzfV2 Api History
  Spec PreludeProofs CharsProofs NormalizeProofs CandidateProofs MatchedRangesProofs ParserProofs
  ScoreProofs ExactProofs ShapeProofs V1Proofs V2Tables V2Proofs V2Rows V2Fuzzy V2Facts ApiProofs AcceptProofs
  RangeProofs WordsProofs CongProofs FuzzyFacts.
Local Open Scope nat_scope.

Section WithUnicode.
Context {UC : unicode}.

Lemma fuzzy_query_of text q : fuzzy_query text q -> q = NotExtended (pat_of (Term false KFuzzy text)).
Proof.
  intros (ps & ps' & [(s & Hs & E)|E]).
  - destruct (parse_correct ps s) as (p1 & E1 & _). rewrite E, Hs in E1. injection E1 as -> _. reflexivity.
  - rewrite parse_not_extended_correct in E. destruct (_ <=? _); [|discriminate]. injection E as <- _. reflexivity.
Qed.

Lemma fuzzy_result a o m text q c buf : metric_reached a o m -> fuzzy_query text q ->
  (exists m', metric_distance m q c = Ok (option_map from_score (fst (raw_outcome a o text c)), m'))
  /\ (exists m', metric_distance_and_ranges m q c buf
        = Ok (option_map from_score (fst (raw_outcome a o text c)), m', buf ++ inserts [] (snd (raw_outcome a o text c)))).
Proof.
  intros Hm Hq. apply fuzzy_query_of in Hq. subst q. apply metric_reached_options in Hm.
  destruct (metric_raw_spec a o m text c buf Hm) as [(m1 & _ & E1) (m2 & _ & E2)]. eauto.
Qed.

Lemma fuzzy_distance a o m text q c r m' : metric_reached a o m -> fuzzy_query text q ->
  metric_distance m q c = Ok (r, m') -> r = option_map from_score (fst (raw_outcome a o text c)).
Proof.
  intros Hm Hq E. destruct (fuzzy_result a o m text q c [] Hm Hq) as [(m1 & E1) _]. congruence.
Qed.

Lemma fuzzy_ranges a o m text q c buf r m' buf' : metric_reached a o m -> fuzzy_query text q ->
  metric_distance_and_ranges m q c buf = Ok (r, m', buf') ->
  r = option_map from_score (fst (raw_outcome a o text c))
  /\ buf' = buf ++ inserts [] (snd (raw_outcome a o text c)).
Proof.
  intros Hm Hq E. destruct (fuzzy_result a o m text q c buf Hm Hq) as [_ (m1 & E1)]. split; congruence.
Qed.

Lemma raw_some a o text c d : option_map from_score (fst (raw_outcome a o text c)) = Some d ->
  text = [] /\ d = default_distance
  \/ text <> [] /\ exists rs, fuzzy_outcome a o text c = Some (into_score d, rs) /\ raw_outcome a o text c = (Some (into_score d), rs).
Proof.
  destruct text as [|x t].
  - intros H. injection H as <-. left. split; reflexivity.
  - intros H. right. split; [discriminate|]. cbn in H |- *.
    destruct (fuzzy_outcome a o (x :: t) c) as [[sc rs]|]; [|discriminate]. injection H as <-.
    exists rs. split; reflexivity.
Qed.

(** ** C18, C19 *)

Lemma fuzzy_iff : forall a o m text q c r m',
  metric_reached a o m -> fuzzy_query text q -> metric_distance m q c = Ok (r, m') ->
  ((exists d, r = Some d) <-> fuzzy_in (agreement o text) text c).
Proof.
  intros a o m text q c r m' Hm Hq E. pose proof (fuzzy_distance _ _ _ _ _ _ _ _ Hm Hq E) as ->.
  unfold agreement. rewrite (raw_outcome_iff o a). destruct (fst (raw_outcome a o text c)) as [sc|]; cbn; split; intros [d H]; eauto; discriminate.
Qed.

(** ** C06 *)

Lemma covered_chars c ps b : Forall (fun j => j < length c) ps ->
  (covered (inserts [] (map (char_range c) ps)) b <-> exists j, In j ps /\ byte_of_char c j b).
Proof.
  intros H. rewrite inserts_chars; [|exact H|constructor|constructor]. rewrite covered_char by exact H.
  split; [intros [C|C]; [destruct (covered_nil _ C)|exact C]|tauto].
Qed.

Lemma c06_v1_highlights : forall o m text q c buf d m' buf',
  metric_reached AlgoV1 o m -> fuzzy_query text q ->
  metric_distance_and_ranges m q c buf = Ok (Some d, m', buf') ->
  exists new js, buf' = buf ++ new /\ alignment (agreement o text) text c js
    /\ forall b, covered new b <-> exists j, In j js /\ byte_of_char c j b.
Proof.
  intros o m text q c buf d m' buf' Hm Hq E. destruct (fuzzy_ranges _ _ _ _ _ _ _ _ _ _ Hm Hq E) as [Hd ->].
  symmetry in Hd. apply raw_some in Hd as [[-> ->]|(Ht & rs & Hf & ->)].
  - exists [], []. split; [reflexivity|]. split; [split; constructor|]. intros b.
    split; [intros C; destruct (covered_nil _ C)|intros (j & [] & _)].
  - cbn [snd]. unfold fuzzy_outcome in Hf. destruct (v1_positions _ _ text c) as [ps|] eqn:Ev; [|discriminate].
    injection Hf as _ <-. apply v1_positions_aligned in Ev; [|exact Ht].
    exists (inserts [] (map (char_range c) ps)), ps. split; [reflexivity|]. split; [apply aligned_alignment; exact Ev|].
    intros b. apply covered_chars. eapply aligned_bound. exact Ev.
Qed.

(** ** C08, C09: what FzfV2 highlights *)

Lemma v2_case o text c sc rs : text <> [] -> fuzzy_outcome AlgoV2 o text c = Some (sc, rs) ->
  exists ps fs stop, v2_result (sensitive_for (opt_case o) text) (opt_norm o) (opt_scheme o) text c = Some (sc, ps)
    /\ rs = map (char_range c) ps
    /\ greedy (char_eq (sensitive_for (opt_case o) text) (opt_norm o)) text c 0 = Some fs
    /\ last_col (sensitive_for (opt_case o) text) (opt_norm o) text c = Some stop.
Proof.
  intros Ht H. unfold fuzzy_outcome in H.
  destruct (v2_result _ _ _ text c) as [[sc' ps]|] eqn:E; [|discriminate]. injection H as <- <-.
  pose proof E as E'. unfold v2_result in E'.
  destruct (greedy _ text c 0) as [fs|] eqn:G; [|discriminate].
  destruct (last_col _ _ text c) as [stop|] eqn:L; [|discriminate]. exists ps, fs, stop. auto.
Qed.

Lemma greedy_leftmost sens norm p c fs : greedy (char_eq sens norm) p c 0 = Some fs -> leftmost (agrees sens norm) p c fs.
Proof.
  intros G. split; [apply aligned_alignment, greedy_sound, G|].
  intros qs H. apply aligned_alignment in H. destruct (greedy_complete _ _ _ _ _ H) as (fs' & G' & Hle). congruence.
Qed.

Lemma Forall2_le_antisym : forall a b, Forall2 le a b -> Forall2 le b a -> a = b.
Proof.
  induction 1 as [|x y a b Hxy _ IH]; intros H; inversion H; subst; [reflexivity|].
  f_equal; [lia|]. apply IH. assumption.
Qed.

Lemma leftmost_greedy sens norm p c fs : leftmost (agrees sens norm) p c fs -> greedy (char_eq sens norm) p c 0 = Some fs.
Proof.
  intros [A H]. apply aligned_alignment in A. destruct (greedy_complete _ _ _ _ _ A) as (fs' & G & Hle).
  rewrite G. f_equal. apply Forall2_le_antisym; [exact Hle|]. apply H. apply aligned_alignment, greedy_sound, G.
Qed.

Lemma rev_covered c ps b : (exists j, In j ps /\ byte_of_char c j b) <-> (exists j, In j (rev ps) /\ byte_of_char c j b).
Proof. split; intros (j & Hj & H); exists j; (split; [|exact H]); apply in_rev; [rewrite rev_involutive|]; exact Hj. Qed.

Lemma c08_v2_highlights_partial : forall o m text q c buf d m' buf' fs,
  metric_reached AlgoV2 o m -> fuzzy_query text q -> text <> [] ->
  metric_distance_and_ranges m q c buf = Ok (Some d, m', buf') ->
  leftmost (agreement o text) text c fs ->
  (forall i, i < length text -> nth i fs 0 - nth 0 fs 0 < 15 * i + 16)
  \/ (26 * (Z.of_nat (length text) - 1) < into_score d)%Z ->
  exists new k js, buf' = buf ++ new /\ 0 < k <= length text
    /\ alignment (agreement o text) (firstn k text) c js
    /\ forall b, covered new b <-> exists j, In j js /\ byte_of_char c j b.
Proof.
  intros o m text q c buf d m' buf' fs Hm Hq Ht E Hfs Hn. destruct (fuzzy_ranges _ _ _ _ _ _ _ _ _ _ Hm Hq E) as [Hd ->].
  symmetry in Hd. apply raw_some in Hd as [[-> _]|(_ & rs & Hf & ->)]; [congruence|].
  destruct (v2_case _ _ _ _ _ Ht Hf) as (ps & fs' & stop & Hr & -> & G & L). cbn [snd].
  pose proof (leftmost_greedy _ _ _ _ _ Hfs) as G'. unfold agreement in *. rewrite G in G'. injection G' as ->.
  assert (K : exists k, 0 < k <= length text /\ alignment (agreement o text) (firstn k text) c (rev ps)).
  { destruct Hn as [Hn|Hn].
    - apply (v2_positions_near _ _ _ _ _ _ _ Ht G L _ _ Hr Hn).
    - apply (v2_positions_high _ _ _ _ _ _ _ Ht G L _ _ Hr Hn). }
  destruct K as (k & Hk & A). exists (inserts [] (map (char_range c) ps)), k, (rev ps).
  split; [reflexivity|]. split; [exact Hk|]. split; [exact A|].
  intros b. rewrite covered_chars; [apply rev_covered|]. eapply v2_result_bound; eassumption.
Qed.

Lemma c09_v2_whole_query_partial : forall o m text q c buf d m' buf',
  metric_reached AlgoV2 o m -> fuzzy_query text q -> text <> [] ->
  metric_distance_and_ranges m q c buf = Ok (Some d, m', buf') ->
  (26 * (Z.of_nat (length text) - 1) + 10 < into_score d)%Z ->
  exists new js, buf' = buf ++ new /\ alignment (agreement o text) text c js
    /\ forall b, covered new b <-> exists j, In j js /\ byte_of_char c j b.
Proof.
  intros o m text q c buf d m' buf' Hm Hq Ht E Hn. destruct (fuzzy_ranges _ _ _ _ _ _ _ _ _ _ Hm Hq E) as [Hd ->].
  symmetry in Hd. apply raw_some in Hd as [[-> _]|(_ & rs & Hf & ->)]; [congruence|].
  destruct (v2_case _ _ _ _ _ Ht Hf) as (ps & fs & stop & Hr & -> & G & L). cbn [snd].
  exists (inserts [] (map (char_range c) ps)), (rev ps). split; [reflexivity|]. split.
  - apply (v2_positions_full _ _ _ _ _ _ _ Ht G L _ _ Hr Hn).
  - intros b. rewrite covered_chars; [apply rev_covered|]. eapply v2_result_bound; eassumption.
Qed.

(** In any case, between one and as many characters as the query has are highlighted, and the
    rightmost of them agrees with a query character. *)
Lemma c09_v2_some_highlighted : forall o m text q c buf d m' buf',
  metric_reached AlgoV2 o m -> fuzzy_query text q -> text <> [] ->
  metric_distance_and_ranges m q c buf = Ok (Some d, m', buf') ->
  exists new js, buf' = buf ++ new /\ StronglySorted lt js /\ Forall (fun j => j < length c) js
    /\ 1 <= length js <= length text
    /\ (exists x y, In x text /\ nth_error c (last js 0) = Some y /\ agreement o text x y)
    /\ forall b, covered new b <-> exists j, In j js /\ byte_of_char c j b.
Proof.
  intros o m text q c buf d m' buf' Hm Hq Ht E. destruct (fuzzy_ranges _ _ _ _ _ _ _ _ _ _ Hm Hq E) as [Hd ->].
  symmetry in Hd. apply raw_some in Hd as [[-> _]|(_ & rs & Hf & ->)]; [congruence|].
  destruct (v2_case _ _ _ _ _ Ht Hf) as (ps & fs & stop & Hr & -> & G & L). cbn [snd].
  destruct (v2_positions_some _ _ _ _ _ _ _ Ht G L _ _ Hr) as (Hne & Hlen & x & y & Hy & Hx & A).
  destruct (v2_result_bound _ _ _ _ _ _ _ Ht Hr) as [Hb Hs].
  exists (inserts [] (map (char_range c) ps)), (rev ps). split; [reflexivity|]. split; [|split; [|split; [|split]]].
  - apply sorted_rev. rewrite rev_involutive. exact Hs.
  - apply Forall_rev. exact Hb.
  - rewrite rev_length. destruct ps; [congruence|]. simpl in *. lia.
  - exists x, y. split; [exact Hx|]. split; [|exact A].
    destruct ps as [|j ps]; [congruence|]. cbn [rev]. rewrite last_last. exact Hy.
  - intros b. rewrite covered_chars by exact Hb. apply rev_covered.
Qed.

(** ** The other terms *)

Lemma single_result a o m ps s k text c buf :
  metric_reached a o m -> parse_spec s = [[Term false k text]] ->
  find ps m s c = Ok (option_map (fun r => from_score (fst r)) (base_outcome a o (Term false k text) c))
  /\ find_ranges ps m s c buf
     = Ok (match base_outcome a o (Term false k text) c with
           | Some (sc, rs) => (Some (from_score sc), buf ++ inserts [] rs)
           | None => (None, buf)
           end).
Proof.
  intros Hm Hs. apply metric_reached_options in Hm.
  rewrite (find_spec a o), (find_ranges_spec a o) by exact Hm. rewrite Hs.
  assert (E : outcome a o [[Term false k text]] c
    = match base_outcome a o (Term false k text) c with Some (sc, rs) => (Some sc, rs) | None => (None, []) end).
  { destruct k; unfold outcome, all_outcome, either_outcome, term_outcome; cbn [t_neg];
      [reflexivity|..]; (destruct (base_outcome a o _ c) as [[sc rs]|]; [|reflexivity]; cbn; rewrite Z.add_0_r, app_nil_r; reflexivity). }
  rewrite E. destruct (base_outcome a o _ c) as [[sc rs]|]; cbn; [split; reflexivity|].
  rewrite app_nil_r. split; reflexivity.
Qed.

Lemma single_text s neg k text : parse_spec s = [[Term neg k text]] -> text <> [].
Proof.
  intros H. destruct (parse_spec_ok s) as [T _]. rewrite H in T. inversion T as [|? ? T1]; subst. inversion T1; subst. assumption.
Qed.

(** A found place, as a decomposition of the candidate. *)
Lemma place_decomposed (R : char -> char -> Prop) eq (HR : forall x y, eq x y = true <-> R x y) text c i :
  hits eq text (skipn i c) = true -> i + length text <= length c ->
  exists pre mid post, c = pre ++ mid ++ post /\ length pre = i /\ Forall2 R text mid
    /\ span c i (i + length text) = (byte_len pre, byte_len pre + byte_len mid).
Proof.
  intros H Hl. exists (firstn i c), (firstn (length text) (skipn i c)), (skipn (length text) (skipn i c)).
  split; [rewrite !firstn_skipn; reflexivity|]. split; [rewrite firstn_length; lia|]. split.
  - revert H. generalize (skipn i c). clear -HR. induction text as [|x t IH]; intros [|y w] H; try discriminate; cbn [firstn length]; try constructor.
    + cbn [hits] in H. apply andb_prop in H as [H _]. apply HR. exact H.
    + cbn [hits] in H. apply andb_prop in H as [_ H]. apply IH, H.
  - unfold span. f_equal. rewrite <- byte_len_app. f_equal.
    rewrite <- (firstn_skipn i c) at 1. rewrite firstn_app, firstn_firstn, firstn_length.
    replace (Nat.min (i + length text) i) with i by lia.
    replace (i + length text - Nat.min i (length c)) with (length text) by lia. reflexivity.
Qed.

Lemma ins_one s e : inserts [] [(s, e)] = [(s, e)].
Proof. reflexivity. Qed.

Lemma place_term a o m ps s k text c buf :
  metric_reached a o m -> parse_spec s = [[Term false k text]] -> k <> KFuzzy ->
  (place_found o (Term false k text) c = None /\ find_ranges ps m s c buf = Ok (None, buf))
  \/ exists i pre mid post, place_found o (Term false k text) c = Some i /\ length pre = i
       /\ i + length text <= length c
       /\ found_at o text c pre mid post buf (find_ranges ps m s c buf).
Proof.
  intros Hm Hs Hk. destruct (single_result a o m ps s k text c buf Hm Hs) as [_ ->].
  pose proof (single_text _ _ _ _ Hs) as Ht.
  assert (E : base_outcome a o (Term false k text) c
    = match place_found o (Term false k text) c with
      | Some i => Some (alignment_score (opt_scheme o) c (seq i (length text)), [span c i (i + length text)])
      | None => None end) by (unfold base_outcome; cbn [t_kind t_text]; destruct k; congruence).
  rewrite E. destruct (place_found o (Term false k text) c) as [i|] eqn:Ep; [|left; auto].
  right. apply place_found_hits in Ep as [E1 E2]; [|exact Ht]. cbn [t_text] in *.
  destruct (place_decomposed (agreement o text) _ (fun x y => char_eq_agrees _ _ x y) text c i E1 E2) as (pre & mid & post & Hc & Hl & F & Es).
  exists i, pre, mid, post. split; [reflexivity|]. split; [exact Hl|]. split; [exact E2|].
  split; [exact Hc|]. split; [exact F|]. rewrite Es, Hl. reflexivity.
Qed.

Lemma c21_exact : forall a o m ps s text c buf,
  metric_reached a o m -> parse_spec s = [[Term false KExact text]] ->
  (~ exact_in (agreement o text) text c /\ find_ranges ps m s c buf = Ok (None, buf))
  \/ exists pre mid post, found_at o text c pre mid post buf (find_ranges ps m s c buf).
Proof.
  intros a o m ps s text c buf Hm Hs.
  destruct (place_term a o m ps s KExact text c buf Hm Hs) as [[E ->]|(i & pre & mid & post & _ & _ & _ & F)]; [discriminate| |eauto].
  left. split; [|reflexivity]. intros H.
  apply (exact_find_iff o (Term false KExact text) c (single_text _ _ _ _ Hs)) in H as [i H].
  unfold place_found in E. cbn [t_kind t_text] in *. congruence.
Qed.

Lemma c22_prefix : forall a o m ps s text c buf,
  metric_reached a o m -> parse_spec s = [[Term false KPrefix text]] ->
  (~ prefix_in (agreement o text) text c /\ find_ranges ps m s c buf = Ok (None, buf))
  \/ exists n mid post, found_at o text c (spaces n) mid post buf (find_ranges ps m s c buf).
Proof.
  intros a o m ps s text c buf Hm Hs.
  destruct (place_term a o m ps s KPrefix text c buf Hm Hs) as [[E ->]|(i & pre & mid & post & E & Hl & _ & F)]; [discriminate| |].
  - left. split; [|reflexivity]. intros H. apply prefix_find_in in H as [i H].
    unfold place_found in E. cbn [t_kind t_text] in *. congruence.
  - right. exists i, mid, post. unfold place_found in E. cbn [t_kind t_text] in E.
    apply prefix_find_le in E as [_ E].
    assert (P : pre = spaces i); [|rewrite P in F; exact F].
    destruct F as [F _]. rewrite F in E at 1. rewrite <- Hl in E at 1.
    transitivity (firstn (length pre) (pre ++ mid ++ post)).
    + symmetry. apply firstn_app_len.
    + rewrite E. rewrite <- Hl. rewrite <- (spaces_length (length pre)) at 1. apply firstn_app_len.
Qed.

Lemma c23_suffix : forall a o m ps s text c buf,
  metric_reached a o m -> parse_spec s = [[Term false KSuffix text]] ->
  (~ suffix_in (agreement o text) text c /\ find_ranges ps m s c buf = Ok (None, buf))
  \/ exists pre mid n, found_at o text c pre mid (spaces n) buf (find_ranges ps m s c buf).
Proof.
  intros a o m ps s text c buf Hm Hs.
  destruct (place_term a o m ps s KSuffix text c buf Hm Hs) as [[E ->]|(i & pre & mid & post & E & Hl & _ & F)]; [discriminate| |].
  - left. split; [|reflexivity]. intros H. apply suffix_find_in in H as [i H].
    unfold place_found in E. cbn [t_kind t_text] in *. congruence.
  - right. unfold place_found in E. cbn [t_kind t_text] in E.
    apply suffix_find_hits in E as [_ [n E]]; [|apply (single_text _ _ _ _ Hs)].
    exists pre, mid, n. assert (P : post = spaces n); [|rewrite P in F; exact F].
    destruct F as (F & F2 & _). apply Forall2_len in F2. rewrite F2 in E.
    apply (f_equal (skipn (i + length mid))) in E.
    assert (Ec : c = (pre ++ mid) ++ post) by (rewrite <- app_assoc; exact F).
    rewrite Ec in E at 1. rewrite <- Hl, <- app_length in E.
    rewrite skipn_app_len in E. rewrite E.
    rewrite Ec. rewrite firstn_app_len. apply skipn_app_len.
Qed.

Lemma c24_equal_partial : forall a o m ps s text c buf,
  metric_reached a o m -> parse_spec s = [[Term false KEqual text]] -> text <> spaces (length text) ->
  (~ equal_in (agreement o text) text c /\ find_ranges ps m s c buf = Ok (None, buf))
  \/ exists n mid k, found_at o text c (spaces n) mid (spaces k) buf (find_ranges ps m s c buf).
Proof.
  intros a o m ps s text c buf Hm Hs Hb.
  destruct (place_term a o m ps s KEqual text c buf Hm Hs) as [[E ->]|(i & pre & mid & post & E & Hl & _ & F)]; [discriminate| |].
  - left. split; [|reflexivity]. intros H. apply equal_find_in in H as [i H]; [|exact Hb].
    unfold place_found in E. cbn [t_kind t_text] in *. congruence.
  - right. unfold place_found in E. cbn [t_kind t_text] in E.
    apply equal_find_hits in E as (_ & _ & E1 & E2 & _ & _); [|apply (single_text _ _ _ _ Hs)].
    destruct (lead_split c) as (r & Ec & _).
    assert (P1 : pre = spaces i).
    { destruct F as [F _]. transitivity (firstn (length pre) c); [rewrite F; symmetry; apply firstn_app_len|].
      rewrite Hl, Ec. replace (lead c) with (i + (lead c - i)) by lia. rewrite spaces_add, <- app_assoc.
      rewrite <- (spaces_length i) at 1. apply firstn_app_len. }
    assert (P2 : post = spaces (length post)).
    { destruct F as (F & F2 & _). apply Forall2_len in F2.
      destruct (lead_split (rev c)) as (r' & Er & _). change (lead (rev c)) with (trail c) in Er.
      assert (Hp : rev c = rev post ++ rev (pre ++ mid)) by (rewrite <- rev_app_distr, <- app_assoc; f_equal; exact F).
      assert (Hn : length post = trail c - trail text).
      { pose proof (f_equal (@length _) F) as Lc. rewrite !app_length in Lc.
        assert (trail c <= length c) by apply trail_le. lia. }
      assert (R : rev post = spaces (length post)).
      { transitivity (firstn (length (rev post)) (rev c)); [rewrite Hp; symmetry; apply firstn_app_len|].
        rewrite rev_length, Er. replace (trail c) with (length post + (trail c - length post)) by lia.
        rewrite spaces_add, <- app_assoc. rewrite <- (spaces_length (length post)) at 1. apply firstn_app_len. }
      rewrite <- (rev_involutive post) at 1. rewrite R. apply rev_spaces. }
    exists i, mid, (length post). rewrite <- P2, <- P1. exact F.
Qed.

(** An all-space text is only found in itself. *)
Lemma c24_blank_equal : forall a o m ps s text c buf,
  metric_reached a o m -> parse_spec s = [[Term false KEqual text]] -> text = spaces (length text) ->
  (c <> text /\ find_ranges ps m s c buf = Ok (None, buf))
  \/ (c = text /\ found_at o text c [] text [] buf (find_ranges ps m s c buf)).
Proof.
  intros a o m ps s text c buf Hm Hs Hb.
  pose proof (single_text _ _ _ _ Hs) as Ht.
  assert (B : (exists i, place_found o (Term false KEqual text) c = Some i) <-> c = text).
  { unfold place_found. cbn [t_kind t_text]. rewrite Hb. apply equal_find_blank. destruct text; [congruence|simpl; lia]. }
  destruct (place_term a o m ps s KEqual text c buf Hm Hs) as [[E ->]|(i & pre & mid & post & E & Hl & Hle & F)]; [discriminate| |].
  - left. split; [|reflexivity]. intros H. apply B in H as [i H]. congruence.
  - right. assert (Hc : c = text) by (apply B; eauto). split; [exact Hc|].
    assert (i = 0) by (rewrite Hc in Hle; lia). subst i. destruct pre; [|discriminate].
    destruct F as (F & F2 & F3). pose proof (Forall2_len _ _ _ F2) as L.
    assert (post = []). { rewrite Hc in F. apply (f_equal (@length _)) in F. rewrite !app_length in F. destruct post; [reflexivity|]. simpl in F. lia. }
    subst post. rewrite app_nil_r in F. cbn [app] in F. assert (Em : mid = text) by congruence. rewrite Em in F, F2, F3.
    split; [rewrite app_nil_r; exact F|]. split; assumption.
Qed.

End WithUnicode.
