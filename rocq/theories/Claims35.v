(** Proofs for C102: what a search costs. *)
From Coq Require Import Sorted.
From Verif Require Import Prelude Chars Utils Candidate MatchedRanges Query Parser Scoring Slab Fzf FzfV1 FzfV2 Api Cost CostFormula History
  Spec PreludeProofs CharsProofs CandidateProofs ScoreProofs V1Proofs V2Proofs V2Fuzzy CostProofs CostBounds CostExact
  ParserProofs ApiProofs ShapeProofs NormalizeProofs Claims1 Claims2 Claims5 Claims14.
Local Open Scope nat_scope.

Section WithUnicode.
Context {UC : unicode}.

Lemma resize_growth A (v : list A) n : resize_steps v n = growth (length v) n.
Proof. reflexivity. Qed.

Lemma ascii_encode c : str_is_ascii c = true -> encode c = c.
Proof. exact (encode_ascii c). Qed.

(** The two ways to read a candidate. *)
Lemma reading_takes St (alloc : St -> str -> timed (list char * St)) (room : St -> nat) st c :
  (forall st c, takes (alloc st c) (fun x n => fst x = c /\ n = growth (room st) (byte_len c) + length c)) ->
  takes (if str_is_ascii c then lift (Ok (Ascii (encode c), st))
         else let! '(chars, st) := alloc st c in lift (Ok (Unicode chars, st)))
    (fun x n => cand_ok (fst x) /\ cand_slice (fst x) = c /\ byte_len c + n = reading_cost (room st) c).
Proof.
  intros H. unfold reading_cost. change (forallb is_ascii c) with (str_is_ascii c). destruct (str_is_ascii c) eqn:E.
  - apply takes_ok. cbn [fst cand_ok cand_slice]. rewrite ascii_encode by exact E. auto.
  - apply takes_bind. eapply takes_weaken; [apply H|]. intros [l st'] n [E1 ->]. cbn [fst] in E1. subst l.
    apply takes_ok. cbn [fst cand_ok cand_slice]. split; [exact I|]. split; [reflexivity|lia].
Qed.

Lemma alloc_takes chars c :
  takes (candidate_alloc_tm chars c) (fun x n => fst x = c /\ n = growth (length chars) (byte_len c) + length c).
Proof.
  unfold candidate_alloc_tm. apply takes_spend, takes_lift. destruct (candidate_alloc_spec chars c) as (v & -> & _).
  intros [l v'] E. injection E as <- _. split; [reflexivity|]. rewrite resize_growth. lia.
Qed.

Lemma v1_alloc_takes st c :
  takes (v1_alloc_chars_tm st c) (fun x n => fst x = c /\ n = growth (length (v1_candidate_slab st)) (byte_len c) + length c).
Proof.
  unfold v1_alloc_chars_tm. apply takes_bind. eapply takes_weaken; [apply alloc_takes|]. intros [l v] n [E ->]. cbn [fst] in E.
  apply takes_ok. cbn [fst]. split; [exact E|lia].
Qed.

Lemma v2_alloc_takes st c :
  takes (v2_alloc_chars_tm st c) (fun x n => fst x = c /\ n = growth (length (v2_candidate_slab st)) (byte_len c) + length c).
Proof.
  unfold v2_alloc_chars_tm. apply takes_bind. eapply takes_weaken; [apply alloc_takes|]. intros [l v] n [E ->]. cbn [fst] in E.
  apply takes_ok. cbn [fst]. split; [exact E|lia].
Qed.

(** What does not change when a candidate is read. *)
Lemma v1_read_same st c x : fst (if str_is_ascii c then lift (Ok (Ascii (encode c), st))
         else let! '(chars, st) := v1_alloc_chars_tm st c in lift (Ok (Unicode chars, st))) = Ok x ->
  v1_case_sensitivity (snd x) = v1_case_sensitivity st /\ v1_candidate_normalization (snd x) = v1_candidate_normalization st.
Proof.
  destruct (str_is_ascii c); [intros E; injection E as <-; split; reflexivity|].
  rewrite fst_tbind. intros E. apply ok_bind in E as ([l st'] & E & E'). injection E' as <-.
  unfold v1_alloc_chars_tm in E. rewrite fst_tbind in E. apply ok_bind in E as ([l' sl] & _ & E). injection E as _ <-. split; reflexivity.
Qed.

Lemma v2_read_same st c x : fst (if str_is_ascii c then lift (Ok (Ascii (encode c), st))
         else let! '(chars, st) := v2_alloc_chars_tm st c in lift (Ok (Unicode chars, st))) = Ok x ->
  v2_case_sensitivity (snd x) = v2_case_sensitivity st /\ v2_candidate_normalization (snd x) = v2_candidate_normalization st
  /\ v2_slab_ (snd x) = v2_slab_ st.
Proof.
  destruct (str_is_ascii c); [intros E; injection E as <-; repeat split; reflexivity|].
  rewrite fst_tbind. intros E. apply ok_bind in E as ([l st'] & E & E'). injection E' as <-.
  unfold v2_alloc_chars_tm in E. rewrite fst_tbind in E. apply ok_bind in E as ([l' sl] & _ & E). injection E as _ <-. repeat split; reflexivity.
Qed.

Lemma takes_steps m q c d m' n : takes (metric_distance_tm m q c) (fun _ k => k = n) ->
  metric_distance m q c = Ok (d, m') -> distance_steps m q c = n.
Proof.
  intros H E. rewrite <- metric_distance_tm_same in E. exact (takes_get _ _ _ _ H E).
Qed.

Lemma v1_window_of o text c js : text <> [] ->
  v1_positions (sensitive_for (opt_case o) text) (opt_norm o) text c = Some js -> window (agreement o text) text c js.
Proof.
  intros Ht E. pose proof E as E'. unfold v1_positions in E'.
  destruct (greedy _ text c 0) as [fs|] eqn:G; [|discriminate]. clear E'.
  destruct (v1_window _ _ text c fs Ht G) as (s & ps & X). cbv zeta in X.
  destruct X as (_ & _ & _ & E' & _ & A' & Hs & _ & H1 & H2 & H3 & _). rewrite E in E'. injection E' as <-.
  split; [apply aligned_alignment; exact A'|]. split.
  - intros qs Q. apply H1. apply aligned_alignment. exact Q.
  - intros qs Q El. apply aligned_alignment in Q. split; [rewrite Hs; apply H2; assumption|].
    intros Eh. apply H3; [exact Q|exact El|]. rewrite Eh, Hs. apply le_n.
Qed.

Lemma window_v1 o text c js : text <> [] -> window (agreement o text) text c js ->
  v1_positions (sensitive_for (opt_case o) text) (opt_norm o) text c = Some js.
Proof.
  intros Ht W. pose proof (proj1 W) as A. apply aligned_alignment in A. destruct (greedy_complete _ _ _ _ _ A) as (fs & G & _).
  destruct (v1_window _ _ text c fs Ht G) as (s & ps & X). cbv zeta in X. destruct X as (_ & _ & _ & E & _).
  rewrite E. f_equal. apply (window_unique (agreement o text) text c); [apply v1_window_of; assumption|exact W].
Qed.

Lemma c102_v1 : forall o m text q c d m' js room,
  metric_reached AlgoV1 o m -> fuzzy_query text q -> text <> [] ->
  metric_distance m q c = Ok (Some d, m') -> buffers m = [room] ->
  window (agreement o text) text c js ->
  distance_steps m q c
  = reading_cost room c + 2 * length text + S (last js 0) + 2 * (S (last js 0) - hd 0 js).
Proof.
  intros o m text q c d m' js room Hm Hq Ht E Hb W. eapply takes_steps; [|exact E].
  pose proof (window_v1 _ _ _ _ Ht W) as Ev. clear E.
  apply metric_reached_options in Hm. destruct m as [v|v]; [|contradiction]. destruct Hm as (O1 & O2 & _).
  injection Hb as <-. apply fuzzy_query_of in Hq. subst q.
  cbn [metric_distance_tm]. apply takes_bind. unfold fzf_distance_tm.
  assert (Hq0 : q_is_empty (NotExtended (pat_of (Term false KFuzzy text))) = false) by (destruct text; [congruence|reflexivity]).
  rewrite Hq0. apply takes_spend, takes_bind.
  eapply takes_weaken; [exact (takes_same _ _ _ _ eq_refl (reading_takes _ _ (fun st => length (v1_candidate_slab st)) v c v1_alloc_takes))|].
  intros [cd st] n (Es & Hok & Hsl & Hn). apply v1_read_same in Es. cbn [fst snd] in Es, Hok, Hsl. destruct Es as [S1 S2].
  unfold fzf_search_tm. cbv zeta. apply takes_bind.
  eapply takes_weaken; [apply (v1_fuzzy_takes st (pat_of (Term false KFuzzy text)) cd _ js); [exact Hok|exact Ht|]|].
  { rewrite is_sensitive_pat, S1, S2, O1, O2, Hsl. exact Ev. }
  intros [[sc st'] r'] k ->. apply takes_ok. apply takes_ok.
  change (p_char_len (pat_of (Term false KFuzzy text))) with (length text). lia.
Qed.

Lemma last_col_is sens norm text c stop y : nth_error c stop = Some y -> agrees sens norm (last text 0%N) y ->
  (forall j z, stop < j -> nth_error c j = Some z -> ~ agrees sens norm (last text 0%N) z) ->
  last_col sens norm text c = Some stop.
Proof.
  intros Hy Ha Hno. unfold last_col. destruct (find_last_idx _ c) as [j|] eqn:E.
  - apply find_last_idx_some in E as (a & Ea & Ha' & Hl). f_equal.
    destruct (Nat.lt_trichotomy j stop) as [H|[H|H]]; [|exact H|].
    + exfalso. apply char_eq_agrees in Ha. rewrite (Hl _ _ H Hy) in Ha. discriminate.
    + exfalso. apply (Hno j a H Ea). apply char_eq_agrees. exact Ha'.
  - exfalso. rewrite find_last_idx_none in E. apply char_eq_agrees in Ha. rewrite (E y) in Ha; [discriminate|]. eapply nth_error_In; eauto.
Qed.

Lemma c102_v2 : forall o m text q c d m' fs stop y r_chars r_bonus r_runs r_offsets r_scores,
  metric_reached AlgoV2 o m -> fuzzy_query text q -> 2 <= length text ->
  metric_distance m q c = Ok (Some d, m') -> buffers m = [r_chars; r_bonus; r_runs; r_offsets; r_scores] ->
  leftmost (agreement o text) text c fs ->
  nth_error c stop = Some y -> agreement o text (last text 0%N) y ->
  (forall j z, stop < j -> nth_error c j = Some z -> ~ agreement o text (last text 0%N) z) ->
  let h := length text in let w := stop + 1 - hd 0 fs in
  distance_steps m q c
  = reading_cost r_chars c
    + (growth r_offsets h + growth r_bonus w + growth r_scores (h * w) + growth r_runs (h * w))
    + (3 * h - 1) + S (last fs 0) + (length c - stop) + w + 2 * (h * w) + 2 * list_sum (map (fun f => stop + 1 - f) fs).
Proof.
  intros o m text q c d m' fs stop y rc rb rg ri rs Hm Hq Ht E Hb L Hy Ha Hno h w. eapply takes_steps; [|exact E]. clear E.
  assert (Ht' : text <> []) by (destruct text; [cbn in Ht; lia|discriminate]).
  apply metric_reached_options in Hm. destruct m as [v|v]; [contradiction|]. destruct Hm as (O1 & O2 & _).
  injection Hb as <- <- <- <- <-. apply fuzzy_query_of in Hq. subst q.
  apply leftmost_greedy in L. pose proof (last_col_is _ _ _ _ _ _ Hy Ha Hno) as Hl.
  cbn [metric_distance_tm]. apply takes_bind. unfold fzf_distance_tm.
  assert (Hq0 : q_is_empty (NotExtended (pat_of (Term false KFuzzy text))) = false) by (destruct text; [congruence|reflexivity]).
  rewrite Hq0. apply takes_spend, takes_bind.
  eapply takes_weaken; [exact (takes_same _ _ _ _ eq_refl (reading_takes _ _ (fun st => length (v2_candidate_slab st)) v c v2_alloc_takes))|].
  intros [cd st] n (Es & Hok & Hsl & Hn). apply v2_read_same in Es. cbn [fst snd] in Es, Hok, Hsl. destruct Es as (S1 & S2 & S3).
  unfold fzf_search_tm. cbv zeta. apply takes_bind.
  pose proof (v2_fuzzy_takes st (pat_of (Term false KFuzzy text)) cd (mranges_from []) fs stop) as T. cbv zeta in T.
  rewrite is_sensitive_pat, S1, S2, S3, O1, O2, Hsl in T. cbn [t_text] in T.
  eapply takes_weaken; [apply T; [exact Hok|exact Ht'| |exact L|exact Hl]|].
  { change (p_char_len (pat_of (Term false KFuzzy text))) with (length text). lia. }
  intros [[sc st'] r'] k ->. apply takes_ok. apply takes_ok.
  change (p_char_len (pat_of (Term false KFuzzy text))) with h. fold w. rewrite !resize_growth.
  rewrite <- cand_slice_len, Hsl. lia.
Qed.

Lemma count_sorted (f : char -> bool) : forall l off js, StronglySorted lt js ->
  (forall j, In j js <-> exists y, off <= j /\ nth_error l (j - off) = Some y /\ f y = true) -> js = all_idx f l off.
Proof.
  intros l off js Hs H. assert (H' : forall j, In j js <-> In j (all_idx f l off)).
  { intros j. rewrite H, in_all_idx. split.
    - intros (y & A & B & C). split; [exact A|]. exists y. auto.
    - intros (A & y & B & C). exists y. auto. }
  pose proof (all_idx_sorted _ f l off) as Hs'. revert H'. generalize (all_idx f l off) Hs' Hs. clear.
  intros ks Hk. revert js. induction Hk as [|k ks Hk IH Hlt]; intros js Hj H.
  - destruct js as [|j js]; [reflexivity|]. destruct (proj1 (H j) (or_introl eq_refl)).
  - destruct Hj as [|j js Hj Hlt'].
    + destruct (proj2 (H k) (or_introl eq_refl)).
    + rewrite Forall_forall in Hlt, Hlt'. assert (j = k) as ->.
      { destruct (proj1 (H j) (or_introl eq_refl)) as [->|A]; [reflexivity|].
        destruct (proj2 (H k) (or_introl eq_refl)) as [->|B]; [reflexivity|]. apply Hlt in A. apply Hlt' in B. lia. }
      f_equal. apply IH; [exact Hj|]. intros x. specialize (H x). cbn [In] in H. split; intros X.
      * destruct (proj1 H (or_intror X)) as [->|Y]; [|exact Y]. apply Hlt' in X. lia.
      * destruct (proj2 H (or_intror X)) as [->|Y]; [|exact Y]. apply Hlt in X. lia.
Qed.

Lemma c102_v2_char : forall o m x q c d m' js room rest,
  metric_reached AlgoV2 o m -> fuzzy_query [x] q ->
  metric_distance m q c = Ok (d, m') -> buffers m = room :: rest ->
  StronglySorted lt js -> (forall j, In j js <-> exists y, nth_error c j = Some y /\ agreement o [x] x y) ->
  distance_steps m q c = reading_cost room c + length c + length js.
Proof.
  intros o m x q c d m' js room rest Hm Hq E Hb Hs Hj. eapply takes_steps; [|exact E]. clear E.
  apply metric_reached_options in Hm. destruct m as [v|v]; [contradiction|]. destruct Hm as (O1 & O2 & _).
  injection Hb as <- _. apply fuzzy_query_of in Hq. subst q.
  cbn [metric_distance_tm]. apply takes_bind. unfold fzf_distance_tm.
  change (q_is_empty (NotExtended (pat_of (Term false KFuzzy [x])))) with false. cbv iota. apply takes_spend, takes_bind.
  eapply takes_weaken; [exact (takes_same _ _ _ _ eq_refl (reading_takes _ _ (fun st => length (v2_candidate_slab st)) v c v2_alloc_takes))|].
  intros [cd st] n (Es & Hok & Hsl & Hn). apply v2_read_same in Es. cbn [fst snd] in Es, Hok, Hsl. destruct Es as (S1 & S2 & S3).
  unfold fzf_search_tm. cbv zeta. apply takes_bind.
  pose proof (v2_single_takes st (pat_of (Term false KFuzzy [x])) cd (mranges_from []) x Hok eq_refl) as T.
  rewrite is_sensitive_pat, S1, S2, O1, O2, Hsl in T. cbn [t_text] in T.
  eapply takes_weaken; [exact T|]. intros [[sc st'] r'] k ->. apply takes_ok. apply takes_ok.
  assert (js = all_idx (char_eq (sensitive_for (opt_case o) [x]) (opt_norm o) x) c 0) as ->.
  { apply count_sorted; [exact Hs|]. intros j. rewrite Hj, Nat.sub_0_r. split.
    - intros (y & A & B). exists y. split; [lia|]. split; [exact A|]. apply char_eq_agrees. exact B.
    - intros (y & _ & A & B). exists y. split; [exact A|]. apply char_eq_agrees. exact B. }
  rewrite all_idx_count, <- cand_slice_len, Hsl. lia.
Qed.

Lemma c102_read : forall m q c d m',
  metric_distance m q c = Ok (d, m') ->
  if q_is_empty q then distance_steps m q c = 0 else reading_cost (hd 0 (buffers m)) c <= distance_steps m q c.
Proof.
  intros m q c d m' E. rewrite <- metric_distance_tm_same in E. unfold distance_steps. destruct (q_is_empty q) eqn:Eq.
  - destruct m; unfold metric_distance_tm, fzf_distance_tm; rewrite Eq; reflexivity.
  - refine (takes_get _ _ (d, m') (fun _ n => reading_cost (hd 0 (buffers m)) c <= n) _ E).
    destruct m as [v|v]; cbn [metric_distance_tm buffers hd]; apply takes_bind; unfold fzf_distance_tm; rewrite Eq;
      apply takes_spend, takes_bind;
      (eapply takes_weaken; [first [apply (reading_takes _ _ (fun st => length (v1_candidate_slab st))); exact v1_alloc_takes
                                   |apply (reading_takes _ _ (fun st => length (v2_candidate_slab st))); exact v2_alloc_takes]|]);
      intros [cd st] n (_ & _ & Hn); unfold takes at 1, runs at 1;
      match goal with |- context [fst (fzf_search_tm ?a ?b ?c ?d ?e ?f ?g)] => destruct (fst (fzf_search_tm a b c d e f g)) as [[[d1 m1] b1]| |] end;
      try exact I; apply takes_ok; lia.
Qed.

End WithUnicode.
