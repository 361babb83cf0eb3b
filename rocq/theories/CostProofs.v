(** Cost.v computes what the model computes, and bounds on the iterations it counts. *)
From Verif Require Import Prelude Chars Utils Candidate MatchedRanges Query Scoring Slab Fzf FzfV1 FzfV2 Api Cost.
From Verif Require Import PreludeProofs CandidateProofs.
Local Open Scope Z_scope.

(** * The counters change nothing *)

Lemma fst_tbind A B (t : timed A) (k : A -> timed B) :
  fst (tbind t k) = bind (fst t) (fun a => fst (k a)).
Proof. unfold tbind. destruct (fst t); reflexivity. Qed.

Lemma fst_spend A n (t : timed A) : fst (spend n t) = fst t.
Proof. reflexivity. Qed.

Lemma fst_lift A (r : res A) : fst (lift r) = r.
Proof. reflexivity. Qed.

Lemma bind_ex A B (x y : res A) (f g : A -> res B) :
  x = y -> (forall a, f a = g a) -> bind x f = bind y g.
Proof. intros -> H. destruct y; cbn [bind]; [apply H|reflexivity..]. Qed.

Ltac same1 :=
  first
    [ rewrite fst_spend | rewrite fst_tbind | rewrite fst_lift
    | reflexivity
    | match goal with
      | |- bind _ _ = bind _ _ => apply bind_ex; [|intro]
      | |- context [fst (match ?x with _ => _ end)] => destruct x
      | |- context [match ?x with _ => _ end] => destruct x
      end ].
Ltac same := cbv zeta; repeat same1.

Lemma find_first_from_same c off ch cs eq :
  fst (find_first_from_tm c off ch cs eq) = find_first_from c off ch cs eq.
Proof. unfold find_first_from_tm, find_first_from. same. Qed.

Lemma find_last_same c ch cs eq : fst (find_last_tm c ch cs eq) = Ok (find_last c ch cs eq).
Proof. unfold find_last_tm, find_last. same. Qed.

Lemma find_last_from_same c off ch cs eq :
  fst (find_last_from_tm c off ch cs eq) = find_last_from c off ch cs eq.
Proof. unfold find_last_from_tm, find_last_from. same. Qed.

Lemma zip_eq_same eq ps : forall cs, fst (zip_eq_tm eq ps cs) = Ok (zip_eq eq ps cs).
Proof.
  induction ps as [|p ps IH]; intros [|c cs]; cbn [zip_eq_tm zip_eq]; try reflexivity.
  rewrite fst_spend. destruct (eq p c); [apply IH|reflexivity].
Qed.

Lemma forward_loop_same c o ps : forall p e, fst (forward_loop_tm c o p ps e) = forward_loop c o p ps e.
Proof.
  induction ps as [|q ps IH]; intros p e; cbn [forward_loop_tm forward_loop];
    rewrite fst_spend, fst_tbind, find_first_from_same; apply bind_ex; [reflexivity| |reflexivity|];
    intros [x|]; try reflexivity. apply IH.
Qed.

Lemma forward_pass_same p c o : fst (forward_pass_tm p c o) = forward_pass p c o.
Proof. unfold forward_pass_tm, forward_pass. destruct (p_text p); [reflexivity|apply forward_loop_same]. Qed.

Lemma backward_loop_same c o ps : forall p e, fst (backward_loop_tm c o p ps e) = backward_loop c o p ps e.
Proof.
  induction ps as [|q ps IH]; intros p e; cbn [backward_loop_tm backward_loop];
    rewrite fst_spend, fst_tbind, find_last_from_same; apply bind_ex; try reflexivity;
    intros f; rewrite fst_tbind, fst_lift; apply bind_ex; try reflexivity. apply IH.
Qed.

Lemma backward_pass_same p c e o : fst (backward_pass_tm p c e o) = backward_pass p c e o.
Proof. unfold backward_pass_tm, backward_pass. destruct (rev (p_text p)); [reflexivity|apply backward_loop_same]. Qed.

Lemma matches_loop_same p c o fuel : forall i l offs,
  fst (matches_loop_tm p c o fuel i l offs) = matches_loop p c o fuel i l offs.
Proof.
  induction fuel as [|fuel IH]; intros i l offs; cbn [matches_loop_tm matches_loop]; [reflexivity|].
  rewrite fst_spend, fst_tbind, fst_lift. apply bind_ex; [reflexivity|]. intros x.
  rewrite fst_tbind, find_first_from_same. apply bind_ex; [reflexivity|]. intros [y|]; [|reflexivity].
  rewrite fst_tbind, fst_lift. apply bind_ex; [reflexivity|]. intros offs'. cbv zeta.
  destruct (_ <? _)%nat; [apply IH|reflexivity].
Qed.

Lemma v2_matches_same slab p c o : fst (v2_matches_tm slab p c o) = v2_matches slab p c o.
Proof.
  unfold v2_matches_tm, v2_matches, indices_alloc_tm. rewrite fst_tbind, fst_spend, fst_lift.
  apply bind_ex; [reflexivity|]. intros [offs sl]. rewrite fst_tbind, matches_loop_same.
  apply bind_ex; [reflexivity|]. intros [[i|] offs']; cbv zeta; [|reflexivity].
  rewrite fst_tbind, fst_lift. apply bind_ex; [reflexivity|]. intros x.
  rewrite fst_tbind, find_last_same. cbn [bind]. rewrite fst_tbind, fst_lift. apply bind_ex; reflexivity.
Qed.

Lemma first_row_gap_same n : forall col row ps pen,
  fst (first_row_gap_tm n col row ps pen) = first_row_gap n col row ps pen.
Proof.
  induction n as [|n IH]; intros; cbn [first_row_gap_tm first_row_gap]; [reflexivity|]. cbv zeta.
  rewrite fst_spend, fst_tbind, fst_lift. apply bind_ex; [reflexivity|]. intros. apply IH.
Qed.

Lemma row_gap_same n : forall col row pen, fst (row_gap_tm n col row pen) = row_gap n col row pen.
Proof.
  induction n as [|n IH]; intros; cbn [row_gap_tm row_gap]; [reflexivity|]. cbv zeta.
  rewrite fst_spend, fst_tbind, fst_lift. apply bind_ex; [reflexivity|]. intros i.
  rewrite fst_tbind, fst_lift. apply bind_ex; [reflexivity|]. intros x.
  rewrite fst_tbind, fst_lift. apply bind_ex; [reflexivity|]. intros y. apply IH.
Qed.

Section WithUnicode.
Context {UC : unicode}.

Lemma compute_score_loop_same eq s b chars : forall st,
  fst (compute_score_loop_tm eq s chars st) = compute_score_loop false eq s b chars st.
Proof.
  induction chars as [|c chars IH]; intros st; cbn [compute_score_loop_tm compute_score_loop]; [reflexivity|].
  cbv zeta. rewrite fst_spend. destruct (eq (cs_pattern_char st) c); [|apply IH].
  destruct (cs_consecutive st =? 0)%nat; cbn [bind]; (destruct (cs_pattern_chars st); [reflexivity|apply IH]).
Qed.

Lemma compute_score_same p c a b eq s r :
  fst (compute_score_tm p c a b eq s r) = compute_score false p c a b eq s r.
Proof.
  unfold compute_score_tm, compute_score. cbn [bind]. rewrite fst_tbind, fst_lift. apply bind_ex; [reflexivity|].
  intros cl. destruct (p_text p) as [|x xs]; [reflexivity|]. rewrite fst_tbind, fst_lift. apply bind_ex; [reflexivity|].
  intros sl. rewrite fst_tbind, fst_lift. apply bind_ex; [reflexivity|]. intros chars. apply compute_score_loop_same.
Qed.

Lemma exact_inner_same p eq s cur chars : forall off bs cb i st,
  fst (exact_inner_tm p eq s cur chars off bs cb i st) = exact_inner p eq s cur chars off bs cb i st.
Proof.
  induction chars as [|c chars IH]; intros; cbn [exact_inner_tm exact_inner]; [reflexivity|].
  rewrite fst_spend, fst_tbind, fst_lift. apply bind_ex; [reflexivity|]. intros x. cbv zeta.
  destruct (eq x c).
  - destruct (i =? 0)%nat; (destruct (_ =? p_char_len p)%nat; [destruct (BOUNDARY <=? _); reflexivity|apply IH]).
  - destruct (0 <? i)%nat; [reflexivity|apply IH].
Qed.

Lemma exact_outer_same fuel p c eq s : forall st, fst (exact_outer_tm fuel p c eq s st) = exact_outer fuel p c eq s st.
Proof.
  induction fuel as [|fuel IH]; intros st; cbn [exact_outer_tm exact_outer]; [reflexivity|].
  rewrite fst_spend, fst_tbind, fst_lift. apply bind_ex; [reflexivity|]. intros chars.
  rewrite fst_tbind, exact_inner_same. apply bind_ex; [reflexivity|]. intros [st' [|[|x rest]]]; [reflexivity..|apply IH].
Qed.

Lemma finish_match_same p c a b eq s r : fst (finish_match_tm p c a b eq s r) = finish_match false p c a b eq s r.
Proof.
  unfold finish_match_tm, finish_match. rewrite fst_tbind, compute_score_same. apply bind_ex; [reflexivity|].
  intros [sc r']. reflexivity.
Qed.

Lemma exact_match_same p c eq s r : fst (exact_match_tm p c eq s r) = exact_match false p c eq s r.
Proof.
  unfold exact_match_tm, exact_match. destruct (p_is_empty p); [reflexivity|].
  rewrite fst_tbind, exact_outer_same. apply bind_ex; [reflexivity|]. intros st.
  destruct (negb _); [reflexivity|apply finish_match_same].
Qed.

Lemma ignored_leading_same p c : fst (ignored_leading_tm p c) = ignored_candidate_leading_spaces p c.
Proof.
  unfold ignored_leading_tm, ignored_candidate_leading_spaces, leading_spaces_tm. rewrite fst_tbind, fst_spend, fst_lift.
  cbn [bind]. cbv zeta. destruct (_ <? _)%nat; [reflexivity|]. rewrite fst_tbind, fst_lift. reflexivity.
Qed.

Lemma ignored_trailing_same p c : fst (ignored_trailing_tm p c) = ignored_candidate_trailing_spaces p c.
Proof.
  unfold ignored_trailing_tm, ignored_candidate_trailing_spaces, trailing_spaces_tm. rewrite fst_tbind, fst_spend, fst_lift.
  cbn [bind]. cbv zeta. destruct (_ <? _)%nat; [reflexivity|]. rewrite fst_tbind, fst_lift. reflexivity.
Qed.

Lemma prefix_match_same p c eq s r : fst (prefix_match_tm p c eq s r) = prefix_match false p c eq s r.
Proof.
  unfold prefix_match_tm, prefix_match. destruct (p_is_empty p); [reflexivity|].
  rewrite fst_tbind, ignored_leading_same. apply bind_ex; [reflexivity|]. intros [ign|]; [|reflexivity].
  rewrite fst_tbind, fst_lift. apply bind_ex; [reflexivity|]. intros chars.
  rewrite fst_tbind, zip_eq_same. cbn [bind]. destruct (zip_eq _ _ _) as [[[|] rc]|]; [apply finish_match_same|reflexivity..].
Qed.

Lemma suffix_match_same p c eq s r : fst (suffix_match_tm p c eq s r) = suffix_match false p c eq s r.
Proof.
  unfold suffix_match_tm, suffix_match. destruct (p_is_empty p); [reflexivity|].
  rewrite fst_tbind, ignored_trailing_same. apply bind_ex; [reflexivity|]. intros [ign|]; [|reflexivity].
  rewrite fst_tbind, fst_lift. apply bind_ex; [reflexivity|]. intros u.
  rewrite fst_tbind, fst_lift. apply bind_ex; [reflexivity|]. intros sl.
  rewrite fst_tbind, fst_lift. apply bind_ex; [reflexivity|]. intros chars.
  rewrite fst_tbind, zip_eq_same. cbn [bind]. destruct (zip_eq _ _ _) as [[[|] rc]|]; [|reflexivity..].
  rewrite fst_tbind, fst_lift. apply bind_ex; [reflexivity|]. intros st. apply finish_match_same.
Qed.

Lemma equal_match_same p c eq s r : fst (equal_match_tm p c eq s r) = equal_match false p c eq s r.
Proof.
  unfold equal_match_tm, equal_match. destruct (p_is_empty p); [reflexivity|].
  rewrite fst_tbind, ignored_leading_same. apply bind_ex; [reflexivity|]. intros [ign|]; [|reflexivity].
  destruct (_ =? cand_char_len c)%nat; [reflexivity|].
  rewrite fst_tbind, ignored_trailing_same. apply bind_ex; [reflexivity|]. intros [ign'|]; [|reflexivity].
  rewrite fst_tbind, fst_lift. apply bind_ex; [reflexivity|]. intros u.
  destruct (_ <? _)%nat; [reflexivity|].
  rewrite fst_tbind, fst_lift. apply bind_ex; [reflexivity|]. intros sl.
  rewrite fst_tbind, fst_lift. apply bind_ex; [reflexivity|]. intros chars.
  rewrite fst_tbind, zip_eq_same. cbn [bind]. destruct (zip_eq _ _ _) as [[rp rc]|]; [|reflexivity..].
  destruct (zip_rest rp rc) as [[|] [|]]; [apply finish_match_same|reflexivity..].
Qed.

Lemma v1_fuzzy_same m p c r : fst (v1_fuzzy_tm m p c r) = v1_fuzzy false m p c r.
Proof.
  unfold v1_fuzzy_tm, v1_fuzzy. cbv zeta. rewrite fst_tbind, forward_pass_same. apply bind_ex; [reflexivity|].
  intros [e|]; [|reflexivity]. rewrite fst_tbind, backward_pass_same. apply bind_ex; [reflexivity|]. intros b.
  rewrite fst_tbind, compute_score_same. apply bind_ex; [reflexivity|]. intros [sc r']. reflexivity.
Qed.

Lemma first_row_loop_same s ms : forall st, fst (first_row_loop_tm s ms st) = first_row_loop s ms st.
Proof.
  induction ms as [|m ms IH]; intros st; cbn [first_row_loop_tm first_row_loop]; [reflexivity|].
  rewrite fst_spend, fst_tbind, first_row_gap_same. apply bind_ex; [reflexivity|]. intros [[row x] pen]. cbv zeta.
  rewrite fst_tbind, fst_lift. apply bind_ex; [reflexivity|]. intros cons.
  rewrite fst_tbind, fst_lift. apply bind_ex; [reflexivity|]. intros [b cv]. cbv zeta.
  rewrite fst_tbind, fst_lift. apply bind_ex; [reflexivity|]. intros row'.
  destruct (fr_max_score st <? _); apply IH.
Qed.

Lemma score_first_row_same a b ch cv s : fst (score_first_row_tm a b ch cv s) = score_first_row a b ch cv s.
Proof.
  unfold score_first_row_tm, score_first_row, cand_matches_tm. rewrite fst_tbind, fst_spend, fst_lift. cbn [bind].
  rewrite fst_tbind, first_row_loop_same. unfold cv_matches. apply bind_ex; [reflexivity|]. intros st.
  rewrite fst_tbind, first_row_gap_same. apply bind_ex; [reflexivity|]. intros [[row x] y]. reflexivity.
Qed.

Lemma row_loop_same s w i ps pc ms : forall st, fst (row_loop_tm s w i ps pc ms st) = row_loop s w i ps pc ms st.
Proof.
  induction ms as [|m ms IH]; intros st; cbn [row_loop_tm row_loop]; [reflexivity|].
  rewrite fst_spend, fst_tbind, row_gap_same. apply bind_ex; [reflexivity|]. intros [row pen]. cbv zeta.
  rewrite fst_tbind, fst_lift. apply bind_ex; [reflexivity|]. intros left.
  rewrite fst_tbind, fst_lift. apply bind_ex; [reflexivity|]. intros l.
  rewrite fst_tbind, fst_lift. apply bind_ex; [reflexivity|]. intros ul.
  rewrite fst_tbind, fst_lift. apply bind_ex; [reflexivity|]. intros [b cv].
  rewrite fst_tbind, fst_lift. apply bind_ex; [reflexivity|]. intros c.
  rewrite fst_tbind, fst_lift. apply bind_ex; [reflexivity|]. intros [[b' co] cv'].
  rewrite fst_tbind, fst_lift. apply bind_ex; [reflexivity|]. intros [[su co'] cv''].
  destruct (rr_max_score st <? _);
    (rewrite fst_tbind, fst_lift; apply bind_ex; [reflexivity|]; intros cons;
     rewrite fst_tbind, fst_lift; apply bind_ex; [reflexivity|]; intros row'; apply IH).
Qed.

Lemma score_remaining_rows_same n s p ms : forall i sc co cv mx cell,
  fst (score_remaining_rows_tm n i s p ms sc co cv mx cell) = score_remaining_rows n i s p ms sc co cv mx cell.
Proof.
  induction n as [|n IH]; intros; cbn [score_remaining_rows_tm score_remaining_rows]; [reflexivity|]. cbv zeta.
  rewrite fst_spend, fst_tbind, fst_lift. apply bind_ex; [reflexivity|]. intros x.
  rewrite fst_tbind, fst_lift. apply bind_ex; [reflexivity|]. intros pi.
  rewrite fst_tbind, fst_lift. apply bind_ex; [reflexivity|]. intros [ps row].
  rewrite fst_tbind, fst_lift. apply bind_ex; [reflexivity|]. intros [pc cr].
  rewrite fst_tbind, fst_lift. apply bind_ex; [reflexivity|]. intros fm.
  rewrite fst_tbind. unfold cand_matches_from_tm. rewrite fst_spend, fst_lift. apply bind_ex; [reflexivity|]. intros l.
  rewrite fst_tbind, row_loop_same. apply bind_ex; [reflexivity|]. intros st.
  rewrite fst_tbind, row_gap_same. apply bind_ex; [reflexivity|]. intros [row' y]. apply IH.
Qed.

Lemma v2_score_same a b p cv ms s : fst (v2_score_tm a b p cv ms s) = v2_score a b p cv ms s.
Proof.
  unfold v2_score_tm, v2_score, matrix_alloc_tm. cbv zeta.
  rewrite fst_tbind, fst_spend, fst_lift. apply bind_ex; [reflexivity|]. intros [sc sv].
  rewrite fst_tbind, fst_spend, fst_lift. apply bind_ex; [reflexivity|]. intros [co cov].
  rewrite fst_tbind, fst_lift. apply bind_ex; [reflexivity|]. intros row.
  rewrite fst_tbind, fst_lift. apply bind_ex; [reflexivity|]. intros cr.
  rewrite fst_tbind, fst_lift. apply bind_ex; [reflexivity|]. intros fi.
  rewrite fst_tbind, score_first_row_same. apply bind_ex; [reflexivity|]. intros [[[[r1 r2] cv'] mx] cell].
  rewrite fst_tbind, score_remaining_rows_same. apply bind_ex; [reflexivity|]. intros [[[[r3 r4] cv''] mx'] cell']. reflexivity.
Qed.

Lemma single_char_loop_same c s ms : forall a b, fst (single_char_loop_tm c s ms a b) = single_char_loop c s ms a b.
Proof.
  induction ms as [|m ms IH]; intros; cbn [single_char_loop_tm single_char_loop]; [reflexivity|].
  rewrite fst_spend, fst_tbind, fst_lift. apply bind_ex; [reflexivity|]. intros cl.
  rewrite fst_tbind, fst_lift. apply bind_ex; [reflexivity|]. intros x. cbv zeta.
  destruct (a <? _); apply IH.
Qed.

Lemma fuzzy_single_char_same ch c o s r : fst (fuzzy_single_char_tm ch c o s r) = fuzzy_single_char false ch c o s r.
Proof.
  unfold fuzzy_single_char_tm, fuzzy_single_char, cand_matches_tm. rewrite fst_tbind, fst_spend, fst_lift. cbn [bind].
  rewrite fst_tbind, single_char_loop_same. apply bind_ex; [reflexivity|]. intros [mx pos]. cbn [bind].
  destruct (mx =? 0); reflexivity.
Qed.

Lemma v2_fuzzy_same m p c r : fst (v2_fuzzy_tm m p c r) = v2_fuzzy false m p c r.
Proof.
  unfold v2_fuzzy_tm, v2_fuzzy. cbv zeta. destruct (p_char_len p =? 1)%nat.
  - rewrite fst_tbind, fst_lift. apply bind_ex; [reflexivity|]. intros x.
    rewrite fst_tbind, fuzzy_single_char_same. apply bind_ex; [reflexivity|]. intros [sc r']. reflexivity.
  - rewrite fst_tbind, v2_matches_same. apply bind_ex; [reflexivity|]. intros [[[offs l]|] ind]; [|reflexivity].
    rewrite fst_tbind, fst_lift. apply bind_ex; [reflexivity|]. intros fo. cbn [bind].
    rewrite fst_tbind, fst_lift. apply bind_ex; [reflexivity|]. intros ini.
    rewrite fst_tbind, fst_lift. apply bind_ex; [reflexivity|]. intros base.
    rewrite fst_tbind. unfold bonus_alloc_tm. rewrite fst_spend, fst_lift. cbn [s_bonus s_scoring s_consecutive].
    apply bind_ex; [reflexivity|]. intros [bo bv].
    rewrite fst_tbind, fst_spend, fst_lift. apply bind_ex; [reflexivity|]. intros mo.
    rewrite fst_tbind, v2_score_same. apply bind_ex; [reflexivity|].
    intros [[[[[[sc co] cv] score] cell] sv] cv']. reflexivity.
Qed.

End WithUnicode.

Section Trait.
Context {UC : unicode}.
Context {St : Type}.
Variable alloc : St -> str -> res (list char * St).
Variable alloc_tm : St -> str -> timed (list char * St).
Variable ceq : St -> pattern -> char_eq_fn.
Variable sch : St -> scheme.
Variable fz : bool -> St -> pattern -> candidate -> mranges -> res (option score * St * mranges).
Variable fz_tm : St -> pattern -> candidate -> mranges -> timed (option score * St * mranges).
Hypothesis alloc_same : forall st s, fst (alloc_tm st s) = alloc st s.
Hypothesis fz_same : forall st p c r, fst (fz_tm st p c r) = fz false st p c r.

Lemma fzf_score_same st p c r : fst (fzf_score_tm ceq sch fz_tm st p c r) = fzf_score ceq sch fz false st p c r.
Proof.
  unfold fzf_score_tm, fzf_score. cbv zeta.
  replace (if p_is_inverse p then false else false) with false by (destruct (p_is_inverse p); reflexivity).
  rewrite fst_tbind. apply bind_ex.
  - destruct (p_match_type p); [apply fz_same|..]; rewrite fst_tbind;
      first [rewrite exact_match_same | rewrite prefix_match_same | rewrite suffix_match_same | rewrite equal_match_same];
      (apply bind_ex; [reflexivity|]; intros [sc r']; reflexivity).
  - intros [[[sc|] st'] r']; destruct (p_is_inverse p); reflexivity.
Qed.

Lemma score_condition_same c cond : forall st r,
  fst (score_condition_tm ceq sch fz_tm st cond c r) = score_condition ceq sch fz false st cond c r.
Proof.
  induction cond as [|p cond IH]; intros; cbn [score_condition_tm score_condition]; [reflexivity|].
  rewrite fst_spend, fst_tbind, fzf_score_same. apply bind_ex; [reflexivity|]. intros [[[sc|] st'] r']; [reflexivity|apply IH].
Qed.

Lemma score_conditions_same c conds : forall st t r,
  fst (score_conditions_tm ceq sch fz_tm st conds c t r) = score_conditions ceq sch fz false st conds c t r.
Proof.
  induction conds as [|p conds IH]; intros; cbn [score_conditions_tm score_conditions]; [reflexivity|].
  rewrite fst_spend, fst_tbind, score_condition_same. apply bind_ex; [reflexivity|]. intros [[[sc|] st'] r']; [apply IH|reflexivity].
Qed.

Lemma fzf_distance_same st q cand buf :
  fst (fzf_distance_tm alloc_tm ceq sch fz_tm st q cand buf) = fzf_distance alloc ceq sch fz false st q cand buf.
Proof.
  unfold fzf_distance_tm, fzf_distance. destruct (q_is_empty q); [reflexivity|]. rewrite fst_spend, fst_tbind.
  apply bind_ex.
  - destruct (str_is_ascii cand); [reflexivity|]. rewrite fst_tbind, alloc_same. apply bind_ex; [reflexivity|].
    intros [ch st']. reflexivity.
  - intros [c st']. unfold fzf_search_tm, fzf_search. cbv zeta. rewrite fst_tbind. apply bind_ex.
    + destruct q; [apply score_conditions_same|apply fz_same].
    + intros [[sc st''] r']. reflexivity.
Qed.

End Trait.

Theorem metric_distance_tm_same {UC : unicode} m q cand :
  fst (metric_distance_tm m q cand) = metric_distance m q cand.
Proof.
  unfold metric_distance_tm, metric_distance. destruct m as [m|m]; unfold v1_distance, v2_distance, v1_fzf_distance, v2_fzf_distance;
  rewrite fst_tbind.
  - rewrite (fzf_distance_same v1_alloc_chars _ _ _ (v1_fuzzy)); [|..].
    + destruct (fzf_distance _ _ _ _ _ _ _ _ _) as [[[d m'] b]| |]; reflexivity.
    + intros st s. unfold v1_alloc_chars_tm, v1_alloc_chars, candidate_alloc_tm. rewrite fst_tbind, fst_spend, fst_lift.
      apply bind_ex; [reflexivity|]. intros [a b]; reflexivity.
    + intros. apply v1_fuzzy_same.
  - rewrite (fzf_distance_same v2_alloc_chars _ _ _ (v2_fuzzy)); [|..].
    + destruct (fzf_distance _ _ _ _ _ _ _ _ _) as [[[d m'] b]| |]; reflexivity.
    + intros st s. unfold v2_alloc_chars_tm, v2_alloc_chars, candidate_alloc_tm. rewrite fst_tbind, fst_spend, fst_lift.
      apply bind_ex; [reflexivity|]. intros [a b]; reflexivity.
    + intros. apply v2_fuzzy_same.
Qed.
