(** Proofs of C80: what asking for the ranges costs. *)
From Verif Require Import Prelude Chars Normalize Utils Candidate MatchedRanges Query Parser Scoring
  Slab Fzf FzfV1 FzfV2 Api Cost CostRanges History
  Spec PreludeProofs CharsProofs MatchedRangesProofs CandidateProofs ParserProofs ScoreProofs V1Proofs V2Proofs V2Fuzzy
  ApiProofs RangeProofs WordsProofs Claims1 Claims2 Claims3
  CostProofs CostBounds CostRangesProofs CostRangesBounds Claims14.
Local Open Scope nat_scope.

(** * Searching without ranges takes as long whatever ranges are passed in *)

Definition alike {X} (t t' : timed (X * mranges)) : Prop :=
  snd t = snd t' /\ match fst t, fst t' with
                    | Ok (x, _), Ok (x', _) => x = x'
                    | Panic, Panic | OutOfFuel, OutOfFuel => True
                    | _, _ => False
                    end.

Lemma alike_lift {X} (x : X) r r' : alike (lift (Ok (x, r))) (lift (Ok (x, r'))).
Proof. split; reflexivity. Qed.

Lemma alike_spend {X} n (t t' : timed (X * mranges)) : alike t t' -> alike (spend n t) (spend n t').
Proof. intros [H1 H2]. split; [rewrite !steps_spend; lia|rewrite !fst_spend; exact H2]. Qed.

Lemma alike_bind {X Y} (t : timed Y) (k k' : Y -> timed (X * mranges)) :
  (forall y, alike (k y) (k' y)) -> alike (tbind t k) (tbind t k').
Proof.
  intros H. unfold tbind. destruct (fst t) as [y| |]; [apply alike_spend, H|split; reflexivity..].
Qed.

Lemma alike_both {X Y} (t t' : timed (Y * mranges)) (k k' : Y * mranges -> timed (X * mranges)) :
  alike t t' -> (forall y r r', alike (k (y, r)) (k' (y, r'))) -> alike (tbind t k) (tbind t' k').
Proof.
  intros [H1 H2] H. unfold tbind. destruct (fst t) as [[y r]| |], (fst t') as [[y' r']| |]; try contradiction; rewrite H1;
    [subst y'; apply alike_spend, H|split; reflexivity..].
Qed.

Section Alike.
Context {UC : unicode}.

Lemma loop_alike eq s chars : forall st st' r, st' = MkCs (cs_in_gap st) (cs_first st) (cs_first_bonus st) (cs_consecutive st)
    (cs_byte_offset st) (cs_prev_class st) (cs_pattern_char st) (cs_pattern_chars st) (cs_score st) r ->
  alike (compute_score_loop_tm eq s chars st) (compute_score_loop_tm eq s chars st').
Proof.
  induction chars as [|c chars IH]; intros st st' r ->; cbn [compute_score_loop_tm].
  - split; reflexivity.
  - cbn [cs_in_gap cs_first cs_first_bonus cs_consecutive cs_byte_offset cs_prev_class cs_pattern_char cs_pattern_chars cs_score cs_ranges].
    apply alike_spend. destruct (eq _ c); [|eapply IH; reflexivity].
    destruct (if (cs_consecutive st =? 0)%nat then _ else _) as [fb b].
    destruct (cs_pattern_chars st) as [|nc rest]; [split; reflexivity|eapply IH; reflexivity].
Qed.

Lemma score_alike p c a b eq s r r' : alike (compute_score_tm p c a b eq s r) (compute_score_tm p c a b eq s r').
Proof.
  unfold compute_score_tm. apply alike_bind. intros pc. destruct (p_text p) as [|x t]; [split; reflexivity|].
  apply alike_bind. intros sl. apply alike_bind. intros ch. eapply loop_alike. reflexivity.
Qed.

Lemma finish_alike p c a b eq s r r' : alike (finish_match_tm p c a b eq s r) (finish_match_tm p c a b eq s r').
Proof. unfold finish_match_tm. apply alike_both; [apply score_alike|]. intros. apply alike_lift. Qed.

Lemma exact_alike p c eq s r r' : alike (exact_match_tm p c eq s r) (exact_match_tm p c eq s r').
Proof.
  unfold exact_match_tm. destruct (p_is_empty p); [apply alike_lift|]. apply alike_bind. intros st.
  destruct (negb _); [apply alike_lift|apply finish_alike].
Qed.

Lemma prefix_alike p c eq s r r' : alike (prefix_match_tm p c eq s r) (prefix_match_tm p c eq s r').
Proof.
  unfold prefix_match_tm. destruct (p_is_empty p); [apply alike_lift|]. apply alike_bind. intros [i|]; [|apply alike_lift].
  apply alike_bind. intros ch. apply alike_bind. intros [[[|] rc]|]; [apply finish_alike|apply alike_lift..].
Qed.

Lemma suffix_alike p c eq s r r' : alike (suffix_match_tm p c eq s r) (suffix_match_tm p c eq s r').
Proof.
  unfold suffix_match_tm. destruct (p_is_empty p); [apply alike_lift|]. apply alike_bind. intros [i|]; [|apply alike_lift].
  apply alike_bind. intros u. apply alike_bind. intros sl. apply alike_bind. intros ch.
  apply alike_bind. intros [[[|] rc]|]; [|apply alike_lift..]. apply alike_bind. intros st. apply finish_alike.
Qed.

Lemma equal_alike p c eq s r r' : alike (equal_match_tm p c eq s r) (equal_match_tm p c eq s r').
Proof.
  unfold equal_match_tm. destruct (p_is_empty p); [apply alike_lift|]. apply alike_bind. intros [i|]; [|apply alike_lift].
  destruct (_ =? _); [apply alike_lift|]. apply alike_bind. intros [i'|]; [|apply alike_lift]. apply alike_bind. intros u.
  destruct (_ <? _); [apply alike_lift|]. apply alike_bind. intros sl. apply alike_bind. intros ch.
  apply alike_bind. intros [[rp rc]|]; [|apply alike_lift].
  destruct (zip_rest rp rc) as [[|] [|]]; [apply finish_alike|apply alike_lift..].
Qed.

Lemma v1_alike m p c r r' : alike (v1_fuzzy_tm m p c r) (v1_fuzzy_tm m p c r').
Proof.
  unfold v1_fuzzy_tm. cbv zeta. apply alike_bind. intros [e|]; [|apply alike_lift]. apply alike_bind. intros a.
  apply alike_both; [apply score_alike|]. intros. apply alike_lift.
Qed.

Lemma v2_alike m p c r r' : alike (v2_fuzzy_tm m p c r) (v2_fuzzy_tm m p c r').
Proof.
  unfold v2_fuzzy_tm. cbv zeta. destruct (_ =? 1).
  - apply alike_bind. intros x. apply alike_both; [|intros; apply alike_lift].
    unfold fuzzy_single_char_tm. apply alike_bind. intros ms. apply alike_bind. intros [mx pos]. destruct (_ =? _)%Z; apply alike_lift.
  - apply alike_bind. intros [[[offs l]|] ind]; [|apply alike_lift]. do 2 (apply alike_bind; intros). apply alike_bind. intros base.
    apply alike_bind. intros [bo bv]. apply alike_bind. intros mo. apply alike_bind. intros [[[[[[sc co] cv] score] cell] sv] cv'].
    apply alike_lift.
Qed.

(** * Asking for ranges does not change what a metric keeps *)

Lemma v1_state R R' m p c r r' x y m1 m2 r1 r2 : v1_fuzzy R m p c r = Ok (x, m1, r1) -> v1_fuzzy R' m p c r' = Ok (y, m2, r2) -> m1 = m2.
Proof.
  assert (G : forall R r x m' r1, v1_fuzzy R m p c r = Ok (x, m', r1) -> m' = m).
  { clear. intros R r x m' r1. unfold v1_fuzzy. cbv zeta. intros H. apply ok_bind in H as ([e|] & _ & H); [|congruence].
    apply ok_bind in H as (a & _ & H). apply ok_bind in H as ([s r2] & _ & H). congruence. }
  intros H1 H2. apply G in H1. apply G in H2. congruence.
Qed.

Lemma v2_state R R' m p c r r' x y m1 m2 r1 r2 : v2_fuzzy R m p c r = Ok (x, m1, r1) -> v2_fuzzy R' m p c r' = Ok (y, m2, r2) -> m1 = m2.
Proof.
  unfold v2_fuzzy. cbv zeta. destruct (p_char_len p =? 1).
  - intros H H'. apply ok_bind in H as (x1 & _ & H). apply ok_bind in H as ([x2 x3] & _ & H).
    apply ok_bind in H' as (y1 & _ & H'). apply ok_bind in H' as ([y2 y3] & _ & H'). congruence.
  - intros H H'. apply ok_bind in H as ([o ind] & E & H). rewrite E in H'. cbn [bind] in H'.
    destruct o as [[offs l]|]; [|congruence].
    apply ok_bind in H as (fo & E1 & H). rewrite E1 in H'. cbn [bind] in H'.
    apply ok_bind in H as (sb & _ & H). apply ok_bind in H' as (sb' & _ & H').
    apply ok_bind in H as (ini & E2 & H). rewrite E2 in H'. cbn [bind] in H'.
    apply ok_bind in H as (base & E3 & H). rewrite E3 in H'. cbn [bind] in H'.
    apply ok_bind in H as ([bo bv] & E4 & H). rewrite E4 in H'. cbn [bind] in H'.
    apply ok_bind in H as (mo & E5 & H). rewrite E5 in H'. cbn [bind] in H'.
    apply ok_bind in H as ([[[[[[sc co] cv] score] cell] sv] cv'] & E6 & H). rewrite E6 in H'. cbn [bind] in H'.
    apply ok_bind in H as (rr & _ & H). apply ok_bind in H' as (rr' & _ & H'). congruence.
Qed.

End Alike.

(** * The cost of the ranges of a whole search *)

Section Extra.
Context {UC : unicode} {St : Type}.
Variables (alloc_chars : St -> str -> res (list char * St)) (alloc_tm : St -> str -> timed (list char * St)).
Variables (st_char_eq : St -> pattern -> char_eq_fn) (st_scheme : St -> scheme)
  (fuzzy : bool -> St -> pattern -> candidate -> mranges -> res (option score * St * mranges))
  (fz_tm fzr_tm : St -> pattern -> candidate -> mranges -> timed (option score * St * mranges)).
Variables (a : algo) (o : options).
Variable Inv : St -> Prop.
Hypothesis Halloc : forall st s, Inv st -> exists st', Inv st' /\ alloc_chars st s = Ok (s, st').
Hypothesis Heq : forall st t, Inv st ->
  st_char_eq st (pat_of t) = char_eq (sensitive_for (opt_case o) (t_text t)) (opt_norm o).
Hypothesis Hsch : forall st, Inv st -> st_scheme st = into_inner (opt_scheme o).
Hypothesis Hfuzzy : forall (R : bool) st t c pre own,
  Inv st -> cand_ok c -> t_text t <> [] -> chain 0 own ->
  exists st', Inv st' /\ fuzzy R st (pat_of t) c (mk pre own)
    = Ok (match fuzzy_outcome a o (t_text t) (cand_slice c) with
          | None => (None, st', mk pre own)
          | Some (sc, rs) => (Some sc, st', mk pre (if R then inserts own rs else own))
          end).
Hypothesis alloc_same : forall st s, fst (alloc_tm st s) = alloc_chars st s.
Hypothesis fz_same : forall st p c r, fst (fz_tm st p c r) = fuzzy false st p c r.
Hypothesis fzr_same : forall st p c r, fst (fzr_tm st p c r) = fuzzy true st p c r.
Hypothesis Hstate : forall R R' st p c r r' x y s1 s2 r1 r2,
  fuzzy R st p c r = Ok (x, s1, r1) -> fuzzy R' st p c r' = Ok (y, s2, r2) -> s1 = s2.
Hypothesis Halike : forall st p c r r', alike (fz_tm st p c r) (fz_tm st p c r').
Variable E : nat -> term -> nat.
Hypothesis Hextra : forall st t c pre own, cand_ok c -> t_text t <> [] -> tidy (byte_len (cand_slice c)) own ->
  snd (fzr_tm st (pat_of t) c (mk pre own)) <= snd (fz_tm st (pat_of t) c (mk pre own)) + E (byte_len (cand_slice c)) t.
Hypothesis Eother : forall n t, 2 * n + 1 <= E n t.

Lemma slice_chars c : cand_ok c -> cand_char_len c <= byte_len (cand_slice c).
Proof. intros _. rewrite cand_char_len_spec. apply length_le_byte_len. Qed.

Lemma bounded l rs : on_boundaries l rs -> Forall (fun r => snd r <= byte_len l) rs.
Proof. intros H. eapply Forall_impl; [|exact H]. cbn beta. intros [x y] [_ [k Hk]]. rewrite Hk. apply firstn_bytes. Qed.

Lemma score_extra st t c pre own r : cand_ok c -> t_text t <> [] -> tidy (byte_len (cand_slice c)) own ->
  snd (fzf_score_ranges_tm st_char_eq st_scheme fz_tm fzr_tm st (pat_of t) c (mk pre own))
  <= snd (fzf_score_tm st_char_eq st_scheme fz_tm st (pat_of t) c r) + E (byte_len (cand_slice c)) t.
Proof.
  intros Hc Ht Ho. unfold fzf_score_ranges_tm. destruct (p_is_inverse (pat_of t)) eqn:Ei.
  - enough (snd (fzf_score_tm st_char_eq st_scheme fz_tm st (pat_of t) c (mk pre own))
            = snd (fzf_score_tm st_char_eq st_scheme fz_tm st (pat_of t) c r)) by lia.
    unfold fzf_score_tm. cbv zeta. apply alike_both.
    + destruct (p_match_type _); [apply Halike|..]; (apply alike_both; [|intros; apply alike_lift]).
      * apply exact_alike.
      * apply prefix_alike.
      * apply suffix_alike.
      * apply equal_alike.
    + intros [[x|] s] r1 r2; destruct (p_is_inverse _); apply alike_lift.
  - unfold fzf_score_tm. cbv zeta. pose proof (slice_chars c Hc) as Hn. pose proof (Eother (byte_len (cand_slice c)) t) as Hx.
    destruct (p_match_type (pat_of t)).
    1:{ etransitivity; [apply Hextra; assumption|]. apply Nat.add_le_mono_r. rewrite (proj1 (Halike st (pat_of t) c (mk pre own) r)).
        apply steps_first. }
    all: rewrite <- Nat.add_0_r; (apply steps_bind; [|intros [x y] _; rewrite steps_lift; lia]).
    + etransitivity; [apply (exact_extra _ _ _ _ (byte_len (cand_slice c))), Ho|].
      rewrite (proj1 (exact_alike (pat_of t) c (st_char_eq st (pat_of t)) (st_scheme st) (mk pre own) r)).
      apply Nat.add_le_mono; [|lia]. etransitivity; [|apply steps_first]. apply steps_first.
    + etransitivity; [apply (prefix_extra _ _ _ _ (byte_len (cand_slice c))), Ho|].
      rewrite (proj1 (prefix_alike (pat_of t) c (st_char_eq st (pat_of t)) (st_scheme st) (mk pre own) r)).
      apply Nat.add_le_mono; [|lia]. etransitivity; [|apply steps_first]. apply steps_first.
    + etransitivity; [apply (suffix_extra _ _ _ _ (byte_len (cand_slice c))), Ho|].
      rewrite (proj1 (suffix_alike (pat_of t) c (st_char_eq st (pat_of t)) (st_scheme st) (mk pre own) r)).
      apply Nat.add_le_mono; [|lia]. etransitivity; [|apply steps_first]. apply steps_first.
    + etransitivity; [apply (equal_extra _ _ _ _ (byte_len (cand_slice c))), Ho|].
      rewrite (proj1 (equal_alike (pat_of t) c (st_char_eq st (pat_of t)) (st_scheme st) (mk pre own) r)).
      apply Nat.add_le_mono; [|lia]. etransitivity; [|apply steps_first]. apply steps_first.
Qed.

Lemma score_state R R' st p c r r' x y s1 s2 r1 r2 :
  fzf_score st_char_eq st_scheme fuzzy R st p c r = Ok (x, s1, r1) ->
  fzf_score st_char_eq st_scheme fuzzy R' st p c r' = Ok (y, s2, r2) -> s1 = s2.
Proof.
  unfold fzf_score. cbv zeta. intros H H'. apply ok_bind in H as ([[sc s] rr] & E1 & H). apply ok_bind in H' as ([[sc' s'] rr'] & E1' & H').
  assert (s = s1) as -> by (destruct sc, (p_is_inverse p); congruence).
  assert (s' = s2) as -> by (destruct sc', (p_is_inverse p); congruence).
  destruct (p_match_type p); [eapply Hstate; eassumption|..];
    apply ok_bind in E1 as ([? ?] & _ & E1); apply ok_bind in E1' as ([? ?] & _ & E1'); congruence.
Qed.

(** One run with ranges and one without: the second always has an empty set of ranges. *)
Lemma pair_bind A B B' (t : timed A) (t' : timed A) (k : A -> timed B) (k' : A -> timed B') x y e e' :
  fst t = Ok x -> fst t' = Ok y -> snd t <= snd t' + e -> snd (k x) <= snd (k' y) + e' ->
  snd (tbind t k) <= snd (tbind t' k') + (e + e').
Proof. intros H1 H2 H3 H4. unfold tbind. rewrite H1, H2, !steps_spend. lia. Qed.

Lemma condition_extra c pre : cand_ok c -> forall g st own,
  Forall (fun t => t_text t <> []) g -> Inv st -> tidy (byte_len (cand_slice c)) own ->
  snd (score_condition_ranges_tm st_char_eq st_scheme fz_tm fzr_tm st (map pat_of g) c (mk pre own))
  <= snd (score_condition_tm st_char_eq st_scheme fz_tm st (map pat_of g) c (mk [] []))
     + list_sum (map (E (byte_len (cand_slice c))) g)
  /\ exists st', Inv st'
     /\ fst (score_condition_ranges_tm st_char_eq st_scheme fz_tm fzr_tm st (map pat_of g) c (mk pre own))
        = Ok (match either_outcome a o g (cand_slice c) with
              | None => (None, st', mk pre own)
              | Some (sc, rs) => (Some sc, st', mk pre (inserts own rs))
              end)
     /\ fst (score_condition_tm st_char_eq st_scheme fz_tm st (map pat_of g) c (mk [] []))
        = Ok (match either_outcome a o g (cand_slice c) with
              | None => (None, st', mk [] [])
              | Some (sc, rs) => (Some sc, st', mk [] [])
              end).
Proof.
  intros Hc. induction g as [|t g IH]; intros st own Hg HI Ho; cbn [map score_condition_ranges_tm score_condition_tm either_outcome].
  - split; [rewrite !steps_lift; lia|]. exists st. auto.
  - inversion Hg as [|? ? Ht Hg']; subst. rewrite !steps_spend, !fst_spend.
    change (list_sum (E (byte_len (cand_slice c)) t :: map (E (byte_len (cand_slice c))) g))
      with (E (byte_len (cand_slice c)) t + list_sum (map (E (byte_len (cand_slice c))) g)).
    pose proof (score_extra st t c pre own (mk [] []) Hc Ht Ho) as X.
    destruct (fzf_score_spec st_char_eq st_scheme fuzzy a o Inv Heq Hsch Hfuzzy true st t c pre own HI Hc Ht (proj1 Ho)) as (s1 & HI1 & E1).
    destruct (fzf_score_spec st_char_eq st_scheme fuzzy a o Inv Heq Hsch Hfuzzy false st t c [] [] HI Hc Ht I) as (s2 & HI2 & E2).
    assert (s1 = s2) as <-.
    { destruct (term_outcome a o t (cand_slice c)) as [[sc rs]|]; eapply score_state; eassumption. }
    rewrite <- (fzf_score_ranges_same st_char_eq st_scheme fuzzy fz_tm fzr_tm fz_same fzr_same) in E1.
    rewrite <- (fzf_score_same st_char_eq st_scheme fuzzy fz_tm fz_same) in E2.
    rewrite !fst_tbind, E1, E2. cbn [bind].
    destruct (term_outcome a o t (cand_slice c)) as [[sc rs]|].
    + split; [|exists s1; auto]. cbn [Nat.add]. apply le_n_S. eapply pair_bind; [exact E1|exact E2|exact X|]. cbv beta iota. rewrite !steps_lift. lia.
    + destruct (IH s1 own Hg' HI1 Ho) as (IH1 & IH2). split; [|exact IH2]. cbn [Nat.add]. apply le_n_S.
      eapply pair_bind; [exact E1|exact E2|exact X|exact IH1].
Qed.

Lemma conditions_extra c pre : cand_ok c -> forall q st own total total',
  texts_ok q -> Inv st -> tidy (byte_len (cand_slice c)) own ->
  snd (score_conditions_ranges_tm st_char_eq st_scheme fz_tm fzr_tm st (map (map pat_of) q) c total (mk pre own))
  <= snd (score_conditions_tm st_char_eq st_scheme fz_tm st (map (map pat_of) q) c total' (mk [] []))
     + list_sum (map (E (byte_len (cand_slice c))) (concat q)).
Proof.
  intros Hc. induction q as [|g q IH]; intros st own total total' Hq HI Ho;
    cbn [map score_conditions_ranges_tm score_conditions_tm]; [rewrite !steps_lift; lia|].
  inversion Hq as [|? ? Hg Hq']; subst. rewrite !steps_spend. cbn [concat]. rewrite map_app, list_sum_app.
  destruct (condition_extra c pre Hc g st own Hg HI Ho) as (X & s1 & HI1 & E1 & E2).
  cbn [Nat.add]. apply le_n_S. eapply pair_bind; [exact E1|exact E2|exact X|].
  destruct (either_outcome a o g (cand_slice c)) as [[sc rs]|] eqn:Eg; cbv beta iota; [|rewrite !steps_lift; lia].
  apply IH; [exact Hq'|exact HI1|]. apply tidy_inserts; [eapply either_outcome_proper; eauto| |exact Ho].
  apply bounded. eapply either_outcome_boundaries; eauto.
Qed.

(** For the query made of [q]. *)
Lemma distance_extra st q s buf : Inv st -> texts_ok q -> Forall (fun g => g <> []) q ->
  snd (fzf_distance_ranges_tm alloc_tm st_char_eq st_scheme fz_tm fzr_tm st (query_of q) s buf)
  <= snd (fzf_distance_tm alloc_tm st_char_eq st_scheme fz_tm st (query_of q) s [])
     + list_sum (map (E (byte_len s)) (concat q)).
Proof.
  intros HI Hq Hne. unfold fzf_distance_ranges_tm, fzf_distance_tm.
  destruct (q_is_empty (query_of q)); [rewrite !steps_lift; lia|]. rewrite !steps_spend, <- Nat.add_assoc. apply Nat.add_le_mono_l.
  apply extra_bind. intros [c st1] E1.
  destruct (cand_made alloc_chars Inv Halloc st s HI) as (c' & st1' & HI1 & Hc & Hs & E2).
  assert (c = c' /\ st1 = st1') as [-> ->].
  { destruct (str_is_ascii s).
    - rewrite fst_lift in E1. rewrite E1 in E2. split; congruence.
    - rewrite fst_tbind, alloc_same in E1. apply ok_bind in E1 as ([l s1] & E3 & E1). rewrite E3 in E2. cbn [bind] in E2.
      rewrite fst_lift in E1. rewrite E1 in E2. split; congruence. }
  clear E1 E2. unfold fzf_search_ranges_tm, fzf_search_tm. cbv zeta. rewrite !mk_nil, <- Hs.
  destruct (outcome_cases q) as [(neg & text & ->)|[_ Eq]].
  - cbn [query_of concat app map].
    assert (Ht : text <> []) by (inversion Hq as [|? ? H1]; subst; inversion H1; subst; assumption).
    pose proof (Hextra st1' (Term neg KFuzzy text) c' buf [] Hc Ht (tidy_nil _)) as X.
    rewrite (proj1 (Halike st1' (pat_of (Term neg KFuzzy text)) c' (mk buf []) (mk [] []))) in X.
    change (list_sum [E (byte_len (cand_slice c')) (Term neg KFuzzy text)]) with (E (byte_len (cand_slice c')) (Term neg KFuzzy text) + 0).
    apply Nat.le_trans with (snd (fzr_tm st1' (pat_of (Term neg KFuzzy text)) c' (mk buf []))).
    + rewrite <- Nat.add_0_r. apply steps_bind; [reflexivity|]. intros [[x y] z] _. rewrite steps_lift. lia.
    + rewrite Nat.add_0_r. etransitivity; [exact X|]. apply Nat.add_le_mono_r. apply steps_first.
  - rewrite Eq. pose proof (conditions_extra c' buf Hc q st1' [] 0%Z 0%Z Hq HI1 (tidy_nil _)) as X.
    etransitivity; [|etransitivity; [exact X|apply Nat.add_le_mono_r, steps_first]].
    rewrite <- Nat.add_0_r. apply steps_bind; [reflexivity|]. intros [[x y] z] _. rewrite steps_lift. lia.
Qed.

End Extra.

Section Claims.
Context {UC : unicode}.

Definition v1_ranges_bound (n : nat) (t : term) : nat := 2 * n + 1 + (length (t_text t) - 1) * (n + 1).

Definition v2_ranges_bound (n : nat) (t : term) : nat := 2 * n + 1 + length (t_text t) * (2 * n + 1).

Lemma text_len t : t_text t <> [] -> 1 <= length (t_text t).
Proof. destruct (t_text t); [congruence|cbn; lia]. Qed.

Lemma v1_term_extra st t c pre own : cand_ok c -> t_text t <> [] -> tidy (byte_len (cand_slice c)) own ->
  snd (v1_fuzzy_ranges_tm st (pat_of t) c (mk pre own))
  <= snd (v1_fuzzy_tm st (pat_of t) c (mk pre own)) + v1_ranges_bound (byte_len (cand_slice c)) t.
Proof.
  intros Hc Ht Ho. etransitivity; [apply v1_extra; assumption|]. apply Nat.add_le_mono_l. unfold v1_ranges_bound.
  pose proof (slice_chars c Hc). apply text_len in Ht. unfold p_char_len. cbn [pat_of mk_pattern p_text].
  destruct (length (t_text t)); nia.
Qed.

Lemma v2_term_extra st t c pre own : cand_ok c -> t_text t <> [] -> tidy (byte_len (cand_slice c)) own ->
  snd (v2_fuzzy_ranges_tm st (pat_of t) c (mk pre own))
  <= snd (v2_fuzzy_tm st (pat_of t) c (mk pre own)) + v2_ranges_bound (byte_len (cand_slice c)) t.
Proof.
  intros Hc Ht Ho. etransitivity; [apply v2_extra; assumption|]. apply Nat.add_le_mono_l. unfold v2_ranges_bound.
  pose proof (slice_chars c Hc). unfold p_char_len. cbn [pat_of mk_pattern p_text].
  assert (length (t_text t) * (cand_char_len c + (byte_len (cand_slice c) + 1)) <= length (t_text t) * (2 * byte_len (cand_slice c) + 1))
    by (apply Nat.mul_le_mono_l; lia). lia.
Qed.

Lemma v1_alloc_same st s : fst (v1_alloc_chars_tm st s) = v1_alloc_chars st s.
Proof. unfold v1_alloc_chars_tm, v1_alloc_chars, candidate_alloc_tm. rewrite fst_tbind, fst_spend, fst_lift. apply bind_ex; [reflexivity|]. intros [x y]. reflexivity. Qed.

Lemma v2_alloc_same st s : fst (v2_alloc_chars_tm st s) = v2_alloc_chars st s.
Proof. unfold v2_alloc_chars_tm, v2_alloc_chars, candidate_alloc_tm. rewrite fst_tbind, fst_spend, fst_lift. apply bind_ex; [reflexivity|]. intros [x y]. reflexivity. Qed.

Lemma metric_v1_ranges m q s buf :
  distance_and_ranges_steps (V1 m) q s buf
  = snd (fzf_distance_ranges_tm v1_alloc_chars_tm v1_char_eq v1_scoring_scheme v1_fuzzy_tm v1_fuzzy_ranges_tm m q s buf).
Proof.
  unfold distance_and_ranges_steps, metric_distance_and_ranges_tm, tbind.
  destruct (fst _) as [[[d m'] b]| |]; [|reflexivity..]. rewrite steps_spend, steps_lift. lia.
Qed.

Lemma metric_v2_ranges m q s buf :
  distance_and_ranges_steps (V2 m) q s buf
  = snd (fzf_distance_ranges_tm v2_alloc_chars_tm v2_char_eq v2_scoring_scheme v2_fuzzy_tm v2_fuzzy_ranges_tm m q s buf).
Proof.
  unfold distance_and_ranges_steps, metric_distance_and_ranges_tm, tbind.
  destruct (fst _) as [[[d m'] b]| |]; [|reflexivity..]. rewrite steps_spend, steps_lift. lia.
Qed.

Lemma text_sum q k (f : term -> nat) : texts_ok q -> (forall t, t_text t <> [] -> f t <= k * length (t_text t)) ->
  list_sum (map f (concat q)) <= k * text_length q.
Proof.
  intros Ht H. unfold text_length. rewrite <- list_sum_scale. apply list_sum_le. intros t Hin. apply H.
  apply in_concat in Hin as (g & Hg1 & Hg2). unfold texts_ok in Ht. rewrite Forall_forall in Ht. specialize (Ht g Hg1).
  rewrite Forall_forall in Ht. apply (Ht _ Hg2).
Qed.

Lemma v1_cnf_extra o m q c buf : has_options AlgoV1 o (V1 m) -> texts_ok q -> Forall (fun g => g <> []) q ->
  distance_and_ranges_steps (V1 m) (query_of q) c buf
  <= distance_steps (V1 m) (query_of q) c + (2 * byte_len c + 1) * text_length q.
Proof.
  intros Hm Hq Hg. rewrite metric_v1_ranges. unfold distance_steps. rewrite metric_v1_steps.
  etransitivity; [apply (distance_extra v1_alloc_chars v1_alloc_chars_tm v1_char_eq v1_scoring_scheme v1_fuzzy v1_fuzzy_tm v1_fuzzy_ranges_tm
    AlgoV1 o (v1_inv o) (v1_alloc_ok o) (v1_char_eq_ok o) (fun st H => proj2 (proj2 H)) (v1_fuzzy_ok o)
    v1_alloc_same v1_fuzzy_same v1_fuzzy_ranges_same v1_state v1_alike v1_ranges_bound v1_term_extra); auto|].
  - intros. unfold v1_ranges_bound. apply Nat.le_add_r.
  - apply Nat.add_le_mono_l. apply text_sum; [exact Hq|]. intros t Ht. apply text_len in Ht. unfold v1_ranges_bound.
    destruct (length (t_text t)); nia.
Qed.

Lemma v2_cnf_extra o m q c buf : has_options AlgoV2 o (V2 m) -> texts_ok q -> Forall (fun g => g <> []) q ->
  distance_and_ranges_steps (V2 m) (query_of q) c buf
  <= distance_steps (V2 m) (query_of q) c + (4 * byte_len c + 2) * text_length q.
Proof.
  intros Hm Hq Hg. rewrite metric_v2_ranges. unfold distance_steps. rewrite metric_v2_steps.
  etransitivity; [apply (distance_extra v2_alloc_chars v2_alloc_chars_tm v2_char_eq v2_scoring_scheme v2_fuzzy v2_fuzzy_tm v2_fuzzy_ranges_tm
    AlgoV2 o (v2_inv o) (v2_alloc_ok o) (v2_char_eq_ok o) (fun st H => proj2 (proj2 H)) (v2_fuzzy_ok o)
    v2_alloc_same v2_fuzzy_same v2_fuzzy_ranges_same v2_state v2_alike v2_ranges_bound v2_term_extra); auto|].
  - intros. unfold v2_ranges_bound. apply Nat.le_add_r.
  - apply Nat.add_le_mono_l. apply text_sum; [exact Hq|]. intros t Ht. apply text_len in Ht. unfold v2_ranges_bound. nia.
Qed.

(** *** C80 *)

Lemma c80_same : forall m q c buf, fst (metric_distance_and_ranges_tm m q c buf) = metric_distance_and_ranges m q c buf.
Proof. exact metric_distance_and_ranges_tm_same. Qed.

Lemma c80_extra : forall a o m ps s q ps' c buf,
  metric_reached a o m -> parse ps s = Ok (q, ps') ->
  distance_and_ranges_steps m q c buf <= distance_steps m q c + (4 * byte_len c + 2) * text_length (parse_spec s).
Proof.
  intros a o m ps s q ps' c buf Hm Hq. apply metric_reached_options in Hm.
  destruct (parse_correct ps s) as (ps1 & E & _). rewrite E in Hq. injection Hq as <- _.
  destruct (parse_spec_ok s) as [Ht Hg]. destruct a, m as [v|v]; try contradiction.
  - etransitivity; [apply (v1_cnf_extra o); assumption|]. nia.
  - apply (v2_cnf_extra o); assumption.
Qed.

(** A fuzzy query is the query of one term, or it is empty. *)
Lemma fuzzy_cnf text q : fuzzy_query text q -> text <> [] -> q = query_of [[Term false KFuzzy text]].
Proof. intros H _. apply fuzzy_query_of in H. subst q. reflexivity. Qed.

Lemma empty_ranges a o m q c buf : metric_reached a o m -> fuzzy_query [] q -> distance_and_ranges_steps m q c buf = 0.
Proof. intros _ H. apply fuzzy_query_of in H. subst q. destruct m; reflexivity. Qed.

Lemma one_length text : text_length [[Term false KFuzzy text]] = length text.
Proof. cbn. lia. Qed.

Lemma c80_v1_fuzzy : forall o m text q c buf,
  metric_reached AlgoV1 o m -> fuzzy_query text q ->
  distance_and_ranges_steps m q c buf <= distance_steps m q c + byte_len c + length text * (Nat.log2_up (length text) + 1).
Proof.
  intros o m text q c buf Hm Hq. apply reached_v1 in Hm as (v & ->). apply fuzzy_query_of in Hq. subst q.
  rewrite metric_v1_ranges. unfold distance_steps. rewrite metric_v1_steps. unfold fzf_distance_ranges_tm, fzf_distance_tm.
  destruct (q_is_empty _) eqn:Ee; [rewrite !steps_lift; lia|]. rewrite !steps_spend, <- !Nat.add_assoc. apply Nat.add_le_mono_l.
  apply extra_bind. intros [cand st1] E1.
  assert (Hc : cand_char_len cand <= byte_len c).
  { destruct (str_is_ascii c).
    - injection E1 as <- _. cbn [cand_char_len]. rewrite encode_length. lia.
    - rewrite fst_tbind in E1. apply ok_bind in E1 as ([l s1] & E2 & E1). apply v1_alloc_chars_of in E2. subst l.
      injection E1 as <- _. cbn [cand_char_len]. apply length_le_byte_len. }
  unfold fzf_search_ranges_tm, fzf_search_tm. cbv zeta. rewrite !mk_nil.
  set (p := pat_of (Term false KFuzzy text)) in *. pose proof (v1_append st1 p cand buf) as X.
  rewrite (proj1 (v1_alike st1 p cand (mk buf []) (mk [] []))) in X.
  apply Nat.le_trans with (snd (v1_fuzzy_ranges_tm st1 p cand (mk buf []))).
  - rewrite <- Nat.add_0_r. apply steps_bind; [reflexivity|]. intros [[x y] z] _. rewrite steps_lift. lia.
  - etransitivity; [exact X|]. apply Nat.add_le_mono; [apply steps_first|]. apply Nat.add_le_mono; [exact Hc|].
    change (p_char_len p) with (length text). apply Nat.mul_le_mono_l. unfold probes.
    destruct (length text - 1) as [|k] eqn:Ek; [lia|]. pose proof (Nat.log2_up_le_mono (S k) (length text) ltac:(lia)). lia.
Qed.

Lemma c80_v1_fuzzy_total : forall o m text q c buf,
  metric_reached AlgoV1 o m -> fuzzy_query text q ->
  distance_and_ranges_steps m q c buf <= 9 * byte_len c + 2 + length text * (Nat.log2_up (length text) + 1).
Proof.
  intros o m text q c buf Hm Hq. etransitivity; [eapply c80_v1_fuzzy; eassumption|].
  pose proof (c70_fuzzy o m text q c Hm Hq). lia.
Qed.

Lemma c80_v2_fuzzy : forall o m text q c buf,
  metric_reached AlgoV2 o m -> fuzzy_query text q ->
  distance_and_ranges_steps m q c buf <= (19 * byte_len c + 7) * length text.
Proof.
  intros o m text q c buf Hm Hq. destruct text as [|x t]; [rewrite (empty_ranges AlgoV2 o); [lia|assumption..]|].
  pose proof (c71_fuzzy o m (x :: t) q c Hm Hq) as X. assert (Hn : x :: t <> []) by discriminate.
  pose proof (fuzzy_cnf _ _ Hq Hn) as ->. apply metric_reached_options in Hm. destruct m as [v|v]; [contradiction|].
  etransitivity; [apply (v2_cnf_extra o); [exact Hm|repeat constructor; exact Hn|repeat constructor; discriminate]|].
  rewrite one_length. nia.
Qed.

Lemma exact_le_text q : exact_length q <= text_length q.
Proof.
  unfold exact_length, text_length. apply list_sum_le. intros t _. destruct (t_kind t); lia.
Qed.

Lemma terms_le_text q : texts_ok q -> length (concat q) <= text_length q.
Proof.
  intros H. pose proof (text_sum q 1 (fun _ => 1) H) as X. rewrite list_sum_const in X. rewrite !Nat.mul_1_l in X. apply X.
  intros t Ht. apply text_len in Ht. lia.
Qed.

Lemma c80_v1_terms : forall o m ps s q ps' c buf,
  metric_reached AlgoV1 o m -> parse ps s = Ok (q, ps') ->
  distance_and_ranges_steps m q c buf <= (11 * byte_len c + 5) * text_length (parse_spec s)
  /\ text_length (parse_spec s) <= length s.
Proof.
  intros o m ps s q ps' c buf Hm Hq. split; [|apply text_length_le].
  pose proof (c70_terms o m ps s q ps' c Hm Hq) as X. apply metric_reached_options in Hm. destruct m as [v|v]; [|contradiction].
  destruct (parse_correct ps s) as (ps1 & E & _). rewrite E in Hq. injection Hq as <- _. destruct (parse_spec_ok s) as [Ht Hg].
  etransitivity; [apply (v1_cnf_extra o); assumption|]. pose proof (exact_le_text (parse_spec s)). pose proof (terms_le_text _ Ht). nia.
Qed.

Lemma c80_v2_terms : forall o m ps s q ps' c buf,
  metric_reached AlgoV2 o m -> parse ps s = Ok (q, ps') ->
  distance_and_ranges_steps m q c buf <= (19 * byte_len c + 9) * text_length (parse_spec s)
  /\ text_length (parse_spec s) <= length s.
Proof.
  intros o m ps s q ps' c buf Hm Hq. split; [|apply text_length_le].
  pose proof (c71_terms o m ps s q ps' c Hm Hq) as [X _]. pose proof (c80_extra AlgoV2 o m ps s q ps' c buf Hm Hq). nia.
Qed.

End Claims.
