(** Dropping the counters of CostRanges.v gives the functions of the model back, and bounds on what is counted. *)
From Verif Require Import Prelude Chars Utils Candidate MatchedRanges Query Scoring Slab Fzf FzfV1 FzfV2 Api Cost CostRanges.
From Verif Require Import PreludeProofs CharsProofs MatchedRangesProofs CandidateProofs ScoreProofs V1Proofs CostProofs CostBounds.
Local Open Scope Z_scope.

(** * The results are the same *)

Lemma bind_assoc {A B C} (x : res A) (k : A -> res B) (h : B -> res C) :
  bind (bind x k) h = bind x (fun a => bind (k a) h).
Proof. destruct x; reflexivity. Qed.

(** Removes a counted call at the head: what it returns is what the model's function returns. *)
Ltac pass := rewrite fst_tbind, ?fst_spend, ?fst_lift; apply bind_ex; [reflexivity|].

Lemma mr_insert_same m r : fst (mr_insert_tm m r) = mr_insert m r.
Proof.
  unfold mr_insert_tm, mr_insert, binary_search_by_tm. pass. intros [i|i].
  - pass. intros [lhs rhs]. pass. intros rng. cbv zeta. destruct (_ <=? _)%nat; [reflexivity|].
    destruct (nth_error rhs 0) as [nr|]; [|reflexivity]. destruct (_ <=? _)%nat; [|reflexivity].
    pass. intros m'. reflexivity.
  - destruct (i =? 0)%nat.
    + destruct (mr_get m 0) as [fr|]; [|reflexivity]. destruct (_ <=? _)%nat; reflexivity.
    + pass. intros len. destruct (i =? len)%nat.
      * pass. intros lr. destruct (_ <=? _)%nat; [|reflexivity]. pass. reflexivity.
      * pass. intros [lhs rhs]. pass. intros pi. pass. intros pr. pass. intros nr.
        destruct (_ <=? _)%nat, (_ <=? _)%nat.
        -- pass. reflexivity.
        -- destruct (_ <? _)%nat; reflexivity.
        -- reflexivity.
        -- reflexivity.
Qed.

Section Same.
Context {UC : unicode}.

Lemma compute_score_ranges_loop_same eq s b chars : forall st,
  fst (compute_score_ranges_loop_tm eq s b chars st) = compute_score_loop true eq s b chars st.
Proof.
  induction chars as [|c chars IH]; intros st; cbn [compute_score_ranges_loop_tm compute_score_loop]; [reflexivity|].
  cbv zeta. rewrite fst_spend. destruct (eq (cs_pattern_char st) c); [|apply IH].
  destruct (cs_consecutive st =? 0)%nat;
    (rewrite fst_tbind, mr_insert_same; apply bind_ex; [reflexivity|]; intros r; destruct (cs_pattern_chars st); [reflexivity|apply IH]).
Qed.

Lemma compute_score_ranges_same p c a b eq s r :
  fst (compute_score_ranges_tm p c a b eq s r) = compute_score true p c a b eq s r.
Proof.
  unfold compute_score_ranges_tm, compute_score, to_byte_offset_tm. pass. intros brs. pass.
  intros cl. destruct (p_text p) as [|x xs]; [reflexivity|]. pass. intros sl. pass. intros chars. apply compute_score_ranges_loop_same.
Qed.

Lemma finish_match_ranges_same p c a b eq s r :
  fst (finish_match_ranges_tm p c a b eq s r) = finish_match true p c a b eq s r.
Proof.
  unfold finish_match_ranges_tm, finish_match. rewrite fst_tbind, compute_score_same. apply bind_ex; [reflexivity|].
  intros [sc r']. rewrite fst_tbind. unfold to_byte_range_tm. rewrite fst_spend, fst_lift. rewrite bind_assoc.
  apply bind_ex; [reflexivity|]. intros x. rewrite fst_tbind, mr_insert_same. reflexivity.
Qed.

Lemma exact_match_ranges_same p c eq s r : fst (exact_match_ranges_tm p c eq s r) = exact_match true p c eq s r.
Proof.
  unfold exact_match_ranges_tm, exact_match. destruct (p_is_empty p); [reflexivity|].
  rewrite fst_tbind, exact_outer_same. apply bind_ex; [reflexivity|]. intros st.
  destruct (negb _); [reflexivity|apply finish_match_ranges_same].
Qed.

Lemma prefix_match_ranges_same p c eq s r : fst (prefix_match_ranges_tm p c eq s r) = prefix_match true p c eq s r.
Proof.
  unfold prefix_match_ranges_tm, prefix_match. destruct (p_is_empty p); [reflexivity|].
  rewrite fst_tbind, ignored_leading_same. apply bind_ex; [reflexivity|]. intros [ign|]; [|reflexivity].
  pass. intros chars. rewrite fst_tbind, zip_eq_same. cbn [bind].
  destruct (zip_eq _ _ _) as [[[|] rc]|]; [apply finish_match_ranges_same|reflexivity..].
Qed.

Lemma suffix_match_ranges_same p c eq s r : fst (suffix_match_ranges_tm p c eq s r) = suffix_match true p c eq s r.
Proof.
  unfold suffix_match_ranges_tm, suffix_match. destruct (p_is_empty p); [reflexivity|].
  rewrite fst_tbind, ignored_trailing_same. apply bind_ex; [reflexivity|]. intros [ign|]; [|reflexivity].
  pass. intros u. pass. intros sl. pass. intros chars. rewrite fst_tbind, zip_eq_same. cbn [bind].
  destruct (zip_eq _ _ _) as [[[|] rc]|]; [|reflexivity..]. pass. intros st. apply finish_match_ranges_same.
Qed.

Lemma equal_match_ranges_same p c eq s r : fst (equal_match_ranges_tm p c eq s r) = equal_match true p c eq s r.
Proof.
  unfold equal_match_ranges_tm, equal_match. destruct (p_is_empty p); [reflexivity|].
  rewrite fst_tbind, ignored_leading_same. apply bind_ex; [reflexivity|]. intros [ign|]; [|reflexivity].
  destruct (_ =? cand_char_len c)%nat; [reflexivity|].
  rewrite fst_tbind, ignored_trailing_same. apply bind_ex; [reflexivity|]. intros [ign'|]; [|reflexivity].
  pass. intros u. destruct (_ <? _)%nat; [reflexivity|]. pass. intros sl. pass. intros chars.
  rewrite fst_tbind, zip_eq_same. cbn [bind]. destruct (zip_eq _ _ _) as [[rp rc]|]; [|reflexivity..].
  destruct (zip_rest rp rc) as [[|] [|]]; [apply finish_match_ranges_same|reflexivity..].
Qed.

Lemma v1_fuzzy_ranges_same m p c r : fst (v1_fuzzy_ranges_tm m p c r) = v1_fuzzy true m p c r.
Proof.
  unfold v1_fuzzy_ranges_tm, v1_fuzzy. cbv zeta. rewrite fst_tbind, forward_pass_same. apply bind_ex; [reflexivity|].
  intros [e|]; [|reflexivity]. rewrite fst_tbind, backward_pass_same. apply bind_ex; [reflexivity|]. intros b.
  rewrite fst_tbind, compute_score_ranges_same. apply bind_ex; [reflexivity|]. intros [sc r']. reflexivity.
Qed.

Lemma matched_ranges_loop_same fuel sc co c sb : forall pm cell col row r,
  fst (matched_ranges_loop_tm fuel sc co c sb pm cell col row r) = matched_ranges_loop fuel sc co c sb pm cell col row r.
Proof.
  induction fuel as [|fuel IH]; intros; cbn [matched_ranges_loop_tm matched_ranges_loop]; [reflexivity|]. cbv zeta.
  rewrite fst_spend. pass. intros sl. pass. intros su. pass. intros cons. pass. intros x.
  destruct (_ && _)%bool.
  - unfold to_byte_offset_tm. pass. intros bo. pass. intros ch. rewrite fst_tbind, mr_insert_same. apply bind_ex; [reflexivity|].
    intros r'. destruct (_ || _)%bool; [reflexivity|]. pass. intros row'. pass. intros cell'. pass. intros col'. apply IH.
  - destruct (_ =? _)%nat; [reflexivity|]. pass. intros cell'. pass. intros col'. apply IH.
Qed.

Lemma matched_ranges_same sc co cell c sb r : fst (matched_ranges_tm sc co cell c sb r) = matched_ranges sc co cell c sb r.
Proof. unfold matched_ranges_tm, matched_ranges. pass. intros col. pass. intros row. apply matched_ranges_loop_same. Qed.

Lemma fuzzy_single_char_ranges_same ch c o s r :
  fst (fuzzy_single_char_ranges_tm ch c o s r) = fuzzy_single_char true ch c o s r.
Proof.
  unfold fuzzy_single_char_ranges_tm, fuzzy_single_char, cand_matches_tm. rewrite fst_tbind, fst_spend, fst_lift. cbn [bind].
  rewrite fst_tbind, single_char_loop_same. apply bind_ex; [reflexivity|]. intros [mx pos].
  destruct (mx =? 0); [reflexivity|]. rewrite bind_assoc. unfold to_byte_offset_tm. pass. intros b. rewrite bind_assoc. pass. intros x.
  rewrite fst_tbind, mr_insert_same. reflexivity.
Qed.

Lemma v2_fuzzy_ranges_same m p c r : fst (v2_fuzzy_ranges_tm m p c r) = v2_fuzzy true m p c r.
Proof.
  unfold v2_fuzzy_ranges_tm, v2_fuzzy. cbv zeta. destruct (p_char_len p =? 1)%nat.
  - pass. intros x. rewrite fst_tbind, fuzzy_single_char_ranges_same. apply bind_ex; [reflexivity|]. intros [sc r']. reflexivity.
  - rewrite fst_tbind, v2_matches_same. apply bind_ex; [reflexivity|]. intros [[[offs l]|] ind]; [|reflexivity].
    pass. intros fo. unfold to_byte_offset_tm. pass. intros sb. pass. intros ini. pass. intros base.
    unfold bonus_alloc_tm. cbn [s_bonus s_scoring s_consecutive]. pass. intros [bo bv]. pass. intros mo.
    rewrite fst_tbind, v2_score_same. apply bind_ex; [reflexivity|].
    intros [[[[[[sc co] cv] score] cell] sv] cv']. rewrite fst_tbind, matched_ranges_same. reflexivity.
Qed.

End Same.

Section TraitSame.
Context {UC : unicode}.
Context {St : Type}.
Variable alloc : St -> str -> res (list char * St).
Variable alloc_tm : St -> str -> timed (list char * St).
Variable ceq : St -> pattern -> char_eq_fn.
Variable sch : St -> scheme.
Variable fz : bool -> St -> pattern -> candidate -> mranges -> res (option score * St * mranges).
Variable fz_tm fzr_tm : St -> pattern -> candidate -> mranges -> timed (option score * St * mranges).
Hypothesis alloc_same : forall st s, fst (alloc_tm st s) = alloc st s.
Hypothesis fz_same : forall st p c r, fst (fz_tm st p c r) = fz false st p c r.
Hypothesis fzr_same : forall st p c r, fst (fzr_tm st p c r) = fz true st p c r.

Lemma fzf_score_ranges_same st p c r :
  fst (fzf_score_ranges_tm ceq sch fz_tm fzr_tm st p c r) = fzf_score ceq sch fz true st p c r.
Proof.
  unfold fzf_score_ranges_tm. destruct (p_is_inverse p) eqn:E.
  - rewrite (fzf_score_same ceq sch fz fz_tm fz_same). unfold fzf_score. rewrite E. reflexivity.
  - unfold fzf_score. rewrite E. cbv zeta.
    match goal with |- _ = bind ?x ?k => transitivity (bind x (fun y => Ok y)) end.
    2:{ apply bind_ex; [reflexivity|]. intros [[[sc|] st'] r']; reflexivity. }
    destruct (p_match_type p);
      [rewrite fzr_same; destruct (fz true st p c r); reflexivity|..]; rewrite fst_tbind, bind_assoc;
      first [rewrite exact_match_ranges_same | rewrite prefix_match_ranges_same | rewrite suffix_match_ranges_same | rewrite equal_match_ranges_same];
      (apply bind_ex; [reflexivity|]; intros [sc r']; reflexivity).
Qed.

Lemma score_condition_ranges_same c cond : forall st r,
  fst (score_condition_ranges_tm ceq sch fz_tm fzr_tm st cond c r) = score_condition ceq sch fz true st cond c r.
Proof.
  induction cond as [|p cond IH]; intros; cbn [score_condition_ranges_tm score_condition]; [reflexivity|].
  rewrite fst_spend, fst_tbind, fzf_score_ranges_same. apply bind_ex; [reflexivity|]. intros [[[sc|] st'] r']; [reflexivity|apply IH].
Qed.

Lemma score_conditions_ranges_same c conds : forall st t r,
  fst (score_conditions_ranges_tm ceq sch fz_tm fzr_tm st conds c t r) = score_conditions ceq sch fz true st conds c t r.
Proof.
  induction conds as [|p conds IH]; intros; cbn [score_conditions_ranges_tm score_conditions]; [reflexivity|].
  rewrite fst_spend, fst_tbind, score_condition_ranges_same. apply bind_ex; [reflexivity|]. intros [[[sc|] st'] r']; [apply IH|reflexivity].
Qed.

Lemma fzf_distance_ranges_same st q cand buf :
  fst (fzf_distance_ranges_tm alloc_tm ceq sch fz_tm fzr_tm st q cand buf) = fzf_distance alloc ceq sch fz true st q cand buf.
Proof.
  unfold fzf_distance_ranges_tm, fzf_distance. destruct (q_is_empty q); [reflexivity|]. rewrite fst_spend, fst_tbind.
  apply bind_ex.
  - destruct (str_is_ascii cand); [reflexivity|]. rewrite fst_tbind, alloc_same. apply bind_ex; [reflexivity|].
    intros [ch st']. reflexivity.
  - intros [c st']. unfold fzf_search_ranges_tm, fzf_search. cbv zeta. rewrite fst_tbind. apply bind_ex.
    + destruct q; [apply score_conditions_ranges_same|apply fzr_same].
    + intros [[sc st''] r']. reflexivity.
Qed.

End TraitSame.

Theorem metric_distance_and_ranges_tm_same {UC : unicode} m q cand buf :
  fst (metric_distance_and_ranges_tm m q cand buf) = metric_distance_and_ranges m q cand buf.
Proof.
  unfold metric_distance_and_ranges_tm, metric_distance_and_ranges.
  destruct m as [m|m]; unfold v1_distance_and_ranges, v2_distance_and_ranges, v1_fzf_distance, v2_fzf_distance; rewrite fst_tbind.
  - rewrite (fzf_distance_ranges_same v1_alloc_chars _ _ _ (v1_fuzzy)); [|..].
    + apply bind_ex; [reflexivity|]. intros [[d m'] b]. reflexivity.
    + intros st s. unfold v1_alloc_chars_tm, v1_alloc_chars, candidate_alloc_tm. pass. intros [a b]; reflexivity.
    + intros. apply v1_fuzzy_same.
    + intros. apply v1_fuzzy_ranges_same.
  - rewrite (fzf_distance_ranges_same v2_alloc_chars _ _ _ (v2_fuzzy)); [|..].
    + apply bind_ex; [reflexivity|]. intros [[d m'] b]. reflexivity.
    + intros st s. unfold v2_alloc_chars_tm, v2_alloc_chars, candidate_alloc_tm. pass. intros [a b]; reflexivity.
    + intros. apply v2_fuzzy_same.
    + intros. apply v2_fuzzy_ranges_same.
Qed.
