(** Proofs of C106: the ranges of several conditions. *)
From Verif Require Import Prelude Chars Normalize Utils Candidate MatchedRanges Query Parser Scoring
  Slab Fzf FzfV1 FzfV2 Api Cost CostRanges CostFormula History
  Spec PreludeProofs CharsProofs MatchedRangesProofs CandidateProofs ParserProofs ScoreProofs V1Proofs V2Proofs V2Fuzzy
  ApiProofs RangeProofs WordsProofs Claims1 Claims2 Claims3
  CostProofs CostBounds CostExact CostRangesProofs CostRangesBounds RangesFormula Claims14 Claims19 Claims35 Claims39 Claims40 Claims41 Claims44.
Local Open Scope nat_scope.

Lemma tbind_ok A B (t : timed A) (k : A -> timed B) a n : t = (Ok a, n) -> tbind t k = spend n (k a).
Proof. intros ->. reflexivity. Qed.

Section Several.
Context {UC : unicode} {St : Type}.
Variables (alloc_chars : St -> str -> res (list char * St)) (alloc_tm : St -> str -> timed (list char * St)).
Variables (st_char_eq : St -> pattern -> char_eq_fn) (st_scheme : St -> scheme)
  (fuzzy : bool -> St -> pattern -> candidate -> mranges -> res (option score * St * mranges))
  (fz_tm fzr_tm : St -> pattern -> candidate -> mranges -> timed (option score * St * mranges)).
Variables (a : algo) (o : options).
Variable Inv : St -> Prop.
Hypothesis Halloc : forall st s, Inv st -> exists st', Inv st' /\ alloc_chars st s = Ok (s, st').
Hypothesis Heq : forall st t, Inv st ->
  st_char_eq st (pat_of t) = char_eq (sensitive_for (opt_case o) (t_text t)) (opt_norm o).
Hypothesis Hsch : forall st, Inv st -> st_scheme st = into_inner (opt_scheme o).
Hypothesis Hfuzzy : forall (R : bool) st t c pre own,
  Inv st -> cand_ok c -> t_text t <> [] -> chain 0 own ->
  exists st', Inv st' /\ fuzzy R st (pat_of t) c (mk pre own)
    = Ok (match fuzzy_outcome a o (t_text t) (cand_slice c) with
          | None => (None, st', mk pre own)
          | Some (sc, rs) => (Some sc, st', mk pre (if R then inserts own rs else own))
          end).
Hypothesis fz_same : forall st p c r, fst (fz_tm st p c r) = fuzzy false st p c r.
Hypothesis fzr_same : forall st p c r, fst (fzr_tm st p c r) = fuzzy true st p c r.
Hypothesis Halike : forall st p c r r', alike (fz_tm st p c r) (fz_tm st p c r').
Hypothesis Hdearer : forall st p c r r', dearer (fz_tm st p c r) (fzr_tm st p c r').
Hypothesis Hnone : forall st p c r r0 st' r', fst (fzr_tm st p c r) = Ok (None, st', r') ->
  snd (fzr_tm st p c r) = snd (fz_tm st p c r0).

Notation term_run := (fzf_score_tm st_char_eq st_scheme fz_tm).
Notation term_ranges := (fzf_score_ranges_tm st_char_eq st_scheme fz_tm fzr_tm).
Notation cond_run := (score_condition_tm st_char_eq st_scheme fz_tm).
Notation cond_ranges := (score_condition_ranges_tm st_char_eq st_scheme fz_tm fzr_tm).
Notation all_run := (score_conditions_tm st_char_eq st_scheme fz_tm).
Notation all_ranges := (score_conditions_ranges_tm st_char_eq st_scheme fz_tm fzr_tm).

(** ** Words *)

Definition flipped (neg : bool) (x : option score) : option score :=
  match x, neg with Some y, false => Some y | None, true => Some 0%Z | _, _ => None end.

Lemma word_runs st0 t c : Inv st0 -> cand_ok c -> t_text t <> [] -> t_kind t <> KFuzzy ->
  exists x k hit, sound c x hit /\ forall st, Inv st ->
    (forall pre own, chain 0 own -> term_ranges st (pat_of t) c (mk pre own) = (Ok (x, st, mk pre (grown c hit own)), k + gains c hit own))
    /\ (forall r, term_run st (pat_of t) c r = (Ok (x, st, r), k)).
Proof.
  intros HI Hc Ht Hk.
  set (eqc := char_eq (sensitive_for (opt_case o) (t_text t)) (opt_norm o)). set (s := into_inner (opt_scheme o)).
  assert (G : exists f g, both_ok c f g /\ forall st, Inv st ->
    (t_neg t = false -> forall r, term_ranges st (pat_of t) c r = tbind (f r) (fun '(sc, ranges) => lift (Ok (sc, st, ranges))))
    /\ forall r, term_run st (pat_of t) c r = tbind (tbind (g r) (fun '(sc, ranges) => lift (Ok (sc, st, ranges))))
         (fun '(sc, st, ranges) => match sc, t_neg t with
                                   | Some x, false => lift (Ok (Some x, st, ranges))
                                   | None, true => lift (Ok (Some 0%Z, st, ranges))
                                   | _, _ => lift (Ok (None, st, ranges)) end)).
  { destruct (t_kind t) eqn:K; [congruence|..].
    1:exists (exact_match_ranges_tm (pat_of t) c eqc s), (exact_match_tm (pat_of t) c eqc s); split; [apply exact_both, Hc|].
    2:exists (prefix_match_ranges_tm (pat_of t) c eqc s), (prefix_match_tm (pat_of t) c eqc s); split; [apply prefix_both, Hc|].
    3:exists (suffix_match_ranges_tm (pat_of t) c eqc s), (suffix_match_tm (pat_of t) c eqc s); split; [apply suffix_both, Hc|].
    4:exists (equal_match_ranges_tm (pat_of t) c eqc s), (equal_match_tm (pat_of t) c eqc s); split; [apply equal_both, Hc|].
    all: intros st HIs; unfold eqc, s; rewrite <- (Heq st t HIs), <- (Hsch st HIs); unfold fzf_score_ranges_tm, fzf_score_tm;
      change (p_is_inverse (pat_of t)) with (t_neg t); change (p_match_type (pat_of t)) with (mt_of (t_kind t)); rewrite K; cbn [mt_of]; cbv zeta;
      (split; [intros ->; reflexivity|reflexivity]). }
  destruct G as (f & g & Hb & G). destruct (G st0 HI) as (_ & G0).
  destruct (fzf_score_spec st_char_eq st_scheme fuzzy a o Inv Heq Hsch Hfuzzy false st0 t c [] [] HI Hc Ht I) as (s1 & _ & E).
  rewrite <- (fzf_score_same st_char_eq st_scheme fuzzy fz_tm fz_same), G0, fst_tbind in E. apply ok_bind in E as (y & E & _).
  rewrite fst_tbind in E. apply ok_bind in E as (z & E & _).
  destruct (Hb _ _ E) as (x & k & hit & Hs & Hf & Hg).
  exists (flipped (t_neg t) x), k, (if t_neg t then None else hit). split.
  { destruct (t_neg t); [exact I|]. unfold sound in *. destruct hit as [[i e]|]; [|exact I]. destruct Hs as [Hs1 Hs2]. split; [exact Hs1|].
    destruct x; [discriminate|congruence]. }
  intros st HIs. destruct (G st HIs) as (G1 & G2).
  assert (P : forall r, term_run st (pat_of t) c r = (Ok (flipped (t_neg t) x, st, r), k)).
  { intros r. rewrite G2, Hg. unfold tbind, spend, lift, flipped. cbn [fst snd]. destruct x, (t_neg t); cbn [fst snd]; f_equal; lia. }
  split; [|exact P]. intros pre own Ho. destruct (t_neg t) eqn:En.
  - unfold fzf_score_ranges_tm. change (p_is_inverse (pat_of t)) with (t_neg t). rewrite En, P. cbn [grown gains]. f_equal; lia.
  - rewrite G1 by reflexivity. rewrite Hf by exact Ho. unfold tbind, spend, lift. cbn [fst snd]. unfold flipped. destruct x; f_equal; lia.
Qed.

Lemma words_runs st0 c : Inv st0 -> cand_ok c -> forall g, Forall (fun t => t_text t <> [] /\ t_kind t <> KFuzzy) g ->
  exists x k hit, sound c x hit /\ forall st, Inv st ->
    (forall pre own, chain 0 own -> cond_ranges st (map pat_of g) c (mk pre own) = (Ok (x, st, mk pre (grown c hit own)), k + gains c hit own))
    /\ (forall r, cond_run st (map pat_of g) c r = (Ok (x, st, r), k)).
Proof.
  intros HI Hc. induction g as [|t g IH]; intros Hg.
  - exists None, 0, None. split; [exact I|]. intros st _. split; reflexivity.
  - inversion Hg as [|? ? [Ht Hk] Hg']; subst. destruct (word_runs st0 t c HI Hc Ht Hk) as (x & k & hit & Hs & H).
    destruct x as [x|].
    + exists (Some x), (1 + k), hit. split; [exact Hs|]. intros st HIs. destruct (H st HIs) as [H1 H2]. cbn [map score_condition_ranges_tm score_condition_tm].
      split; intros.
      * rewrite H1 by assumption. unfold tbind, spend, lift. cbn [fst snd]. f_equal; lia.
      * rewrite H2. unfold tbind, spend, lift. cbn [fst snd]. f_equal; lia.
    + assert (hit = None) as ->. { destruct hit as [[i e]|]; [|reflexivity]. destruct Hs as [_ Hs]. congruence. }
      destruct (IH Hg') as (x & k' & hit & Hs' & H'). exists x, (1 + k + k'), hit. split; [exact Hs'|]. intros st HIs.
      destruct (H st HIs) as [H1 H2]. destruct (H' st HIs) as [H3 H4]. cbn [map score_condition_ranges_tm score_condition_tm].
      split; intros.
      * rewrite H1 by assumption. cbn [grown gains]. rewrite (tbind_ok _ _ _ _ _ _ eq_refl). cbv iota beta. rewrite H3 by assumption.
        unfold spend. cbn [fst snd]. f_equal; lia.
      * rewrite H2, (tbind_ok _ _ _ _ _ _ eq_refl). cbv iota beta. rewrite H4. unfold spend. cbn [fst snd]. f_equal; lia.
Qed.

(** ** A condition which does not hold *)

Lemma missed_runs c pre : cand_ok c -> forall g st own r, Forall (fun t => t_text t <> []) g -> Inv st -> chain 0 own ->
  either_outcome a o g (cand_slice c) = None ->
  snd (cond_ranges st (map pat_of g) c (mk pre own)) = snd (cond_run st (map pat_of g) c r).
Proof.
  intros Hc. induction g as [|t g IH]; intros st own r Hg HI Ho Hn; [reflexivity|].
  inversion Hg as [|? ? Ht Hg']; subst. cbn [map score_condition_ranges_tm score_condition_tm either_outcome] in *.
  destruct (term_outcome a o t (cand_slice c)) as [[sc rs]|] eqn:Et; [discriminate Hn|].
  destruct (fzf_score_spec st_char_eq st_scheme fuzzy a o Inv Heq Hsch Hfuzzy true st t c pre own HI Hc Ht Ho) as (s1 & HI1 & E1).
  rewrite Et in E1. rewrite <- (fzf_score_ranges_same st_char_eq st_scheme fuzzy fz_tm fzr_tm fz_same fzr_same) in E1.
  destruct (term_dearer alloc_tm st_char_eq st_scheme fz_tm fzr_tm Halike Hdearer st (pat_of t) c r (mk pre own) _ _ E1) as (r2 & E2 & _).
  rewrite !steps_spend. f_equal. rewrite (count_bind _ _ _ _ _ E1), (count_bind _ _ _ _ _ E2). cbv iota beta.
  rewrite (IH s1 own r2 Hg' HI1 Ho Hn). f_equal.
  destruct (t_kind t) eqn:K.
  - unfold fzf_score_ranges_tm in *. change (p_is_inverse (pat_of t)) with (t_neg t) in *. destruct (t_neg t) eqn:En.
    + unfold fzf_score_tm. change (p_match_type (pat_of t)) with (mt_of (t_kind t)). rewrite K. cbv zeta. cbn [mt_of].
      change (p_is_inverse (pat_of t)) with (t_neg t). rewrite En.
      apply (alike_both _ _ _ _ (Halike st (pat_of t) c (mk pre own) r)). intros [[x|] s] r3 r4; apply alike_lift.
    + change (p_match_type (pat_of t)) with (mt_of (t_kind t)) in *. rewrite K in *. cbv zeta in *. cbn [mt_of] in *.
      unfold fzf_score_tm. cbv zeta. change (p_match_type (pat_of t)) with (mt_of (t_kind t)). rewrite K. cbn [mt_of].
      destruct (Hdearer st (pat_of t) c r (mk pre own) _ _ E1) as (r3 & E3 & _). rewrite (count_bind _ _ _ _ _ E3).
      change (p_is_inverse (pat_of t)) with (t_neg t). rewrite En, steps_lift, Nat.add_0_r. apply (Hnone _ _ _ _ _ _ _ E1).
  - destruct (word_runs st t c HI Hc Ht) as (x & k & hit & Hs & H); [rewrite K; discriminate|]. destruct (H st HI) as [H1 H2].
    rewrite H1 in E1 |- * by exact Ho. rewrite H2. cbn [fst snd] in *. assert (x = None) as -> by congruence.
    destruct hit as [[i e]|]; [destruct Hs; congruence|]. cbn [gains]. lia.
  - destruct (word_runs st t c HI Hc Ht) as (x & k & hit & Hs & H); [rewrite K; discriminate|]. destruct (H st HI) as [H1 H2].
    rewrite H1 in E1 |- * by exact Ho. rewrite H2. cbn [fst snd] in *. assert (x = None) as -> by congruence.
    destruct hit as [[i e]|]; [destruct Hs; congruence|]. cbn [gains]. lia.
  - destruct (word_runs st t c HI Hc Ht) as (x & k & hit & Hs & H); [rewrite K; discriminate|]. destruct (H st HI) as [H1 H2].
    rewrite H1 in E1 |- * by exact Ho. rewrite H2. cbn [fst snd] in *. assert (x = None) as -> by congruence.
    destruct hit as [[i e]|]; [destruct Hs; congruence|]. cbn [gains]. lia.
  - destruct (word_runs st t c HI Hc Ht) as (x & k & hit & Hs & H); [rewrite K; discriminate|]. destruct (H st HI) as [H1 H2].
    rewrite H1 in E1 |- * by exact Ho. rewrite H2. cbn [fst snd] in *. assert (x = None) as -> by congruence.
    destruct hit as [[i e]|]; [destruct Hs; congruence|]. cbn [gains]. lia.
Qed.

(** ** One condition after the other *)

Lemma ranges_app c q2 : forall q1 st total r total' st' r', fst (all_ranges st q1 c total r) = Ok (Some total', st', r') ->
  snd (all_ranges st (q1 ++ q2) c total r) = snd (all_ranges st q1 c total r) + snd (all_ranges st' q2 c total' r').
Proof.
  induction q1 as [|g q1 IH]; intros st total r total' st' r' H; cbn [app score_conditions_ranges_tm] in *.
  - rewrite fst_lift in H. rewrite steps_lift. injection H as <- <- <-. reflexivity.
  - rewrite fst_spend, fst_tbind in H. apply ok_bind in H as ([[sc s1] r1] & E & H). rewrite !steps_spend, !(count_bind _ _ _ _ _ E).
    destruct sc as [x|]; [|discriminate H]. rewrite (IH _ _ _ _ _ _ H). lia.
Qed.

Lemma run_app c q2 : forall q1 st total r total' st' r', fst (all_run st q1 c total r) = Ok (Some total', st', r') ->
  snd (all_run st (q1 ++ q2) c total r) = snd (all_run st q1 c total r) + snd (all_run st' q2 c total' r').
Proof.
  induction q1 as [|g q1 IH]; intros st total r total' st' r' H; cbn [app score_conditions_tm] in *.
  - rewrite fst_lift in H. rewrite steps_lift. injection H as <- <- <-. reflexivity.
  - rewrite fst_spend, fst_tbind in H. apply ok_bind in H as ([[sc s1] r1] & E & H). rewrite !steps_spend, !(count_bind _ _ _ _ _ E).
    destruct sc as [x|]; [|discriminate H]. rewrite (IH _ _ _ _ _ _ H). lia.
Qed.

(** Conditions which hold, with and without ranges. *)
Lemma first_runs c pre q st : cand_ok c -> texts_ok q -> Inv st ->
  exists st' r, Inv st' /\ chain 0 (inserts [] (snd (all_outcome a o q (cand_slice c))))
  /\ fst (all_ranges st (map (map pat_of) q) c 0%Z (mk pre []))
     = Ok (option_map (Z.add 0) (fst (all_outcome a o q (cand_slice c))), st', mk pre (inserts [] (snd (all_outcome a o q (cand_slice c)))))
  /\ fst (all_run st (map (map pat_of) q) c 0%Z (mk [] []))
     = Ok (option_map (Z.add 0) (fst (all_outcome a o q (cand_slice c))), st', r).
Proof.
  intros Hc Hq HI.
  destruct (score_conditions_spec alloc_chars st_char_eq st_scheme fuzzy a o Inv Halloc Heq Hsch Hfuzzy true c pre Hc q st [] 0%Z Hq HI I) as (s1 & HI1 & E1).
  rewrite <- (score_conditions_ranges_same st_char_eq st_scheme fuzzy fz_tm fzr_tm fz_same fzr_same) in E1.
  destruct (conditions_dearer alloc_tm st_char_eq st_scheme fz_tm fzr_tm Halike Hdearer c _ st 0%Z (mk [] []) (mk pre []) _ _ E1) as (r & E2 & _).
  exists s1, r. split; [exact HI1|]. split; [|split; [exact E1|exact E2]].
  apply inserts_chain; [|exact I]. eapply all_outcome_proper; eauto.
Qed.

Definition X (st : St) (c : candidate) (q : cnf) (buf : list range) : nat := snd (all_ranges st (map (map pat_of) q) c 0%Z (mk buf [])).
Definition Y (st : St) (c : candidate) (q : cnf) : nat := snd (all_run st (map (map pat_of) q) c 0%Z (mk [] [])).

Lemma lone_ranges st p c r x s r' n : term_ranges st p c r = (Ok (x, s, r'), n) -> snd (all_ranges st [[p]] c 0%Z r) = 2 + n.
Proof.
  intros E. cbn [score_conditions_ranges_tm score_condition_ranges_tm]. rewrite E. unfold tbind, spend, lift.
  destruct x; cbn [fst snd]; lia.
Qed.

Lemma lone_run st p c r x s r' n : term_run st p c r = (Ok (x, s, r'), n) -> snd (all_run st [[p]] c 0%Z r) = 2 + n.
Proof.
  intros E. cbn [score_conditions_tm score_condition_tm]. rewrite E. unfold tbind, spend, lift.
  destruct x; cbn [fst snd]; lia.
Qed.

Lemma ok_pair A (t : timed A) x : fst t = Ok x -> t = (Ok x, snd t).
Proof. intros <-. apply surjective_pairing. Qed.

Lemma search_diff st q c buf : cand_ok c -> texts_ok q -> Inv st -> (forall text, q <> [[Term true KFuzzy text]]) ->
  snd (fzf_search_ranges_tm st_char_eq st_scheme fz_tm fzr_tm st (query_of q) c buf) + Y st c q
  = snd (fzf_search_tm st_char_eq st_scheme fz_tm st (query_of q) c []) + X st c q buf.
Proof.
  intros Hc Hq HI Hn. unfold fzf_search_ranges_tm, fzf_search_tm. cbv zeta. rewrite !mk_nil.
  destruct (first_runs c buf q st Hc Hq HI) as (s1 & r1 & _ & _ & E1 & E2).
  destruct (outcome_cases q) as [(neg & text & ->)|[_ ->]].
  - clear E1 E2. destruct neg; [destruct (Hn text eq_refl)|]. cbn [query_of]. unfold X, Y. cbn [map]. set (p := pat_of (Term false KFuzzy text)).
    assert (Ht : text <> []) by (inversion Hq as [|? ? H ?]; inversion H; assumption).
    destruct (Hfuzzy true st (Term false KFuzzy text) c buf [] HI Hc Ht I) as (s2 & _ & E1). rewrite <- fzr_same in E1. fold p in E1.
    assert (exists x y z, fst (fzr_tm st p c (mk buf [])) = Ok (x, y, z)) as (x & y & z & E2).
    { destruct (fuzzy_outcome a o (t_text (Term false KFuzzy text)) (cand_slice c)) as [[sc rs]|]; eauto. }
    clear E1. destruct (Hdearer st p c (mk [] []) (mk buf []) _ _ E2) as (r0 & E0 & _). 
    change (query_of [[Term false KFuzzy text]]) with (NotExtended p). cbv iota.
    rewrite (count_bind _ _ _ _ _ E2), (count_bind _ _ _ _ _ E0), !steps_lift.
    assert (Er : term_ranges st p c (mk buf []) = (Ok (x, y, z), snd (fzr_tm st p c (mk buf [])))) by (rewrite <- (ok_pair _ _ _ E2); reflexivity).
    assert (Ef : term_run st p c (mk [] []) = (Ok (x, y, r0), snd (fz_tm st p c (mk [] [])))).
    { unfold fzf_score_tm. cbv zeta. change (p_match_type p) with Fuzzy. change (p_is_inverse p) with false. cbv iota. rewrite (ok_pair _ _ _ E0).
      unfold tbind, spend, lift. destruct x; cbn [fst snd]; f_equal; lia. }
    rewrite (lone_ranges _ _ _ _ _ _ _ _ Er), (lone_run _ _ _ _ _ _ _ _ Ef). lia.
  - unfold X, Y. rewrite (count_bind _ _ _ _ _ E1), (count_bind _ _ _ _ _ E2), !steps_lift. lia.
Qed.

Lemma query_full q : texts_ok q -> Forall (fun g => g <> []) q -> q <> [] -> q_is_empty (query_of q) = false.
Proof. intros H1 H2 H3. destruct (q_is_empty (query_of q)) eqn:E; [|reflexivity]. apply empty_query in E; auto. congruence. Qed.

Notation reading st cand := (if str_is_ascii cand then lift (Ok (Ascii (encode cand), st))
  else let! '(chars, st) := alloc_tm st cand in lift (Ok (Unicode chars, st))).
Notation with_ranges_steps st q cand buf := (snd (fzf_distance_ranges_tm alloc_tm st_char_eq st_scheme fz_tm fzr_tm st (query_of q) cand buf)).
Notation plain_steps st q cand := (snd (fzf_distance_tm alloc_tm st_char_eq st_scheme fz_tm st (query_of q) cand [])).

Lemma distance_diff st q cand buf c st1 : fst (reading st cand) = Ok (c, st1) -> Inv st1 -> cand_ok c -> texts_ok q -> Forall (fun g => g <> []) q ->
  q <> [] -> (forall text, q <> [[Term true KFuzzy text]]) ->
  with_ranges_steps st q cand buf + Y st1 c q = plain_steps st q cand + X st1 c q buf.
Proof.
  intros Er HI Hc Hq Hne H0 Hn. unfold fzf_distance_ranges_tm, fzf_distance_tm. rewrite (query_full q Hq Hne H0), !steps_spend, !(count_bind _ _ _ _ _ Er).
  pose proof (search_diff st1 q c buf Hc Hq HI Hn). lia.
Qed.

Lemma last_cond st total g c r x s r' n : cond_ranges st (map pat_of g) c r = (Ok (x, s, r'), n) ->
  snd (all_ranges st (map (map pat_of) [g]) c total r) = 1 + n.
Proof. intros E. cbn [map score_conditions_ranges_tm]. rewrite E. unfold tbind, spend, lift. destruct x; cbn [fst snd]; lia. Qed.

Lemma last_plain st total g c r x s r' n : cond_run st (map pat_of g) c r = (Ok (x, s, r'), n) ->
  snd (all_run st (map (map pat_of) [g]) c total r) = 1 + n.
Proof. intros E. cbn [map score_conditions_tm]. rewrite E. unfold tbind, spend, lift. destruct x; cbn [fst snd]; lia. Qed.

(** The range which a condition of words adds. *)
Lemma words_hit st g c : Inv st -> cand_ok c -> Forall (fun t => t_text t <> [] /\ t_kind t <> KFuzzy) g ->
  exists k hit, sound c (Some 0%Z) hit
  /\ grown c hit [] = match either_outcome a o g (cand_slice c) with Some (_, rs) => inserts [] rs | None => [] end
  /\ (forall st' total pre own, Inv st' -> chain 0 own ->
        snd (all_ranges st' (map (map pat_of) [g]) c total (mk pre own)) = 1 + (k + gains c hit own))
  /\ (forall st' total r, Inv st' -> snd (all_run st' (map (map pat_of) [g]) c total r) = 1 + k).
Proof.
  intros HI Hc Hg. destruct (words_runs st c HI Hc g Hg) as (x & k & hit & Hs & H). exists k, hit. split.
  { destruct hit as [[i e]|]; [|exact I]. destruct Hs as [Hs _]. split; [exact Hs|discriminate]. }
  destruct (H st HI) as [H1 H2].
  assert (Ht : Forall (fun t => t_text t <> []) g) by (eapply Forall_impl; [|exact Hg]; intros t [Ht _]; exact Ht).
  destruct (score_condition_spec st_char_eq st_scheme fuzzy a o Inv Heq Hsch Hfuzzy true c [] Hc g st [] Ht HI I) as (s1 & _ & E).
  rewrite <- (score_condition_ranges_same st_char_eq st_scheme fuzzy fz_tm fzr_tm fz_same fzr_same), (H1 [] [] I) in E. cbn [fst] in E.
  split.
  { destruct (either_outcome a o g (cand_slice c)) as [[sc rs]|]; pose proof (f_equal (fun r => match r with Ok (_, _, z) => mr_ranges z | _ => [] end) E) as E'; exact E'. }
  split.
  - intros st' total pre own HI' Ho. destruct (H st' HI') as [H3 _]. eapply last_cond. apply H3. exact Ho.
  - intros st' total r HI'. destruct (H st' HI') as [_ H4]. eapply last_plain. apply H4.
Qed.

Lemma gains_hit c hit own : gains c hit own = gains c hit [] + match grown c hit [] with [] => 0 | r :: _ => adding own r end.
Proof. destruct hit as [[i e]|]; [|reflexivity]. cbn [gains grown ins adding length filter existsb binary_probes]. lia. Qed.

Hypothesis alloc_same : forall st s, fst (alloc_tm st s) = alloc_chars st s.

Lemma read_made st cand : Inv st -> exists c st1, Inv st1 /\ cand_ok c /\ cand_slice c = cand /\ fst (reading st cand) = Ok (c, st1).
Proof.
  intros HI. destruct (cand_made alloc_chars Inv Halloc st cand HI) as (c & s1 & H1 & H2 & H3 & E). exists c, s1.
  split; [exact H1|]. split; [exact H2|]. split; [exact H3|]. rewrite <- E. destruct (str_is_ascii cand); [reflexivity|].
  rewrite fst_tbind, alloc_same. destruct (alloc_chars st cand) as [[l s]| |]; reflexivity.
Qed.

Lemma words_last st q1 g cand buf : Inv st -> texts_ok (q1 ++ [g]) -> Forall (fun g => g <> []) (q1 ++ [g]) -> q1 <> [] ->
  (forall text, q1 <> [[Term true KFuzzy text]]) -> Forall (fun t => t_kind t <> KFuzzy) g -> fst (all_outcome a o q1 cand) <> None ->
  with_ranges_steps st (q1 ++ [g]) cand buf + plain_steps st q1 cand + plain_steps st [g] cand
  = plain_steps st (q1 ++ [g]) cand + with_ranges_steps st q1 cand buf + with_ranges_steps st [g] cand buf
    + match (match either_outcome a o g cand with Some (_, rs) => inserts [] rs | None => [] end) with
      | [] => 0
      | r :: _ => adding (inserts [] (snd (all_outcome a o q1 cand))) r
      end.
Proof.
  intros HI Hq Hne H0 Hn Hw Hs. destruct (read_made st cand HI) as (c & s1 & HI1 & Hc & Hsl & Er).
  assert (Hq1 : texts_ok q1 /\ Forall (fun t => t_text t <> []) g).
  { unfold texts_ok in Hq. apply Forall_app in Hq as [A B]. inversion B; subst. auto. }
  destruct Hq1 as [Hq1 Hg]. apply Forall_app in Hne as Hne'. destruct Hne' as [Hne1 Hneg].
  assert (Hg' : Forall (fun t => t_text t <> [] /\ t_kind t <> KFuzzy) g).
  { clear - Hw Hg. induction g as [|t g IH]; constructor; inversion Hw; inversion Hg; subst; auto. }
  pose proof (distance_diff st (q1 ++ [g]) cand buf c s1 Er HI1 Hc Hq Hne) as D0.
  pose proof (distance_diff st q1 cand buf c s1 Er HI1 Hc Hq1 Hne1 H0 Hn) as D1.
  assert (Hq2 : texts_ok [g]) by (constructor; [exact Hg|constructor]).
  pose proof (distance_diff st [g] cand buf c s1 Er HI1 Hc Hq2 Hneg) as D2.
  specialize (D0 ltac:(destruct q1; discriminate)).
  assert (N0 : forall text, q1 ++ [g] <> [[Term true KFuzzy text]]).
  { intros text E. destruct q1 as [|g1 [|g2 q1]]; [congruence|discriminate E|discriminate E]. }
  specialize (D0 N0). specialize (D2 ltac:(discriminate)).
  assert (N2 : forall text, [g] <> [[Term true KFuzzy text]]).
  { intros text E. injection E as ->. inversion Hw; subst. auto. }
  specialize (D2 N2).
  destruct (words_hit s1 g c HI1 Hc Hg') as (k & hit & _ & Hgr & HX & HY). rewrite Hsl in Hgr. rewrite <- Hgr.
  destruct (first_runs c buf q1 s1 Hc Hq1 HI1) as (s2 & r2 & HI2 & Hch & E1 & E2). rewrite Hsl in E1, E2, Hch.
  destruct (all_outcome a o q1 cand) as [[tot|] rs1]; [|cbn [fst] in Hs; congruence]. cbn [fst snd option_map] in *.
  assert (X0 : X s1 c (q1 ++ [g]) buf = X s1 c q1 buf + (1 + (k + gains c hit (inserts [] rs1)))).
  { unfold X. rewrite map_app. rewrite (ranges_app _ _ _ _ _ _ _ _ _ E1). f_equal. apply (HX _ _ _ _ HI2 Hch). }
  assert (Y0 : Y s1 c (q1 ++ [g]) = Y s1 c q1 + (1 + k)).
  { unfold Y. rewrite map_app. rewrite (run_app _ _ _ _ _ _ _ _ _ E2). f_equal. apply (HY _ _ _ HI2). }
  assert (X2 : X s1 c [g] buf = 1 + (k + gains c hit [])) by (apply (HX s1 0%Z buf [] HI1 I)).
  assert (Y2 : Y s1 c [g] = 1 + k) by (apply (HY _ _ _ HI1)).
  rewrite (gains_hit c hit (inserts [] rs1)) in X0. set (w := match grown c hit [] with [] => 0 | _ => _ end) in *. lia.
Qed.

Lemma missed_last st q1 g rest cand buf : Inv st -> texts_ok (q1 ++ g :: rest) -> Forall (fun g => g <> []) (q1 ++ g :: rest) -> q1 <> [] ->
  (forall text, q1 <> [[Term true KFuzzy text]]) -> fst (all_outcome a o q1 cand) <> None -> either_outcome a o g cand = None ->
  with_ranges_steps st (q1 ++ g :: rest) cand buf + plain_steps st q1 cand
  = plain_steps st (q1 ++ g :: rest) cand + with_ranges_steps st q1 cand buf.
Proof.
  intros HI Hq Hne H0 Hn Hs Hm. destruct (read_made st cand HI) as (c & s1 & HI1 & Hc & Hsl & Er).
  assert (Hq1 : texts_ok q1 /\ Forall (fun t => t_text t <> []) g).
  { unfold texts_ok in Hq. apply Forall_app in Hq as [A B]. inversion B; subst. auto. }
  destruct Hq1 as [Hq1 Hg]. apply Forall_app in Hne as Hne'. destruct Hne' as [Hne1 Hneg].
  pose proof (distance_diff st (q1 ++ g :: rest) cand buf c s1 Er HI1 Hc Hq Hne) as D0.
  pose proof (distance_diff st q1 cand buf c s1 Er HI1 Hc Hq1 Hne1 H0 Hn) as D1.
  specialize (D0 ltac:(destruct q1; discriminate)).
  assert (N0 : forall text, q1 ++ g :: rest <> [[Term true KFuzzy text]]).
  { intros text E. destruct q1 as [|g1 [|g2 q1]]; [congruence|discriminate E|discriminate E]. }
  specialize (D0 N0).
  destruct (first_runs c buf q1 s1 Hc Hq1 HI1) as (s2 & r2 & HI2 & Hch & E1 & E2). rewrite Hsl in E1, E2, Hch.
  destruct (all_outcome a o q1 cand) as [[tot|] rs1]; [|cbn [fst] in Hs; congruence]. cbn [fst snd option_map] in *.
  rewrite <- Hsl in Hm.
  assert (X0 : X s1 c (q1 ++ g :: rest) buf + Y s1 c q1 = Y s1 c (q1 ++ g :: rest) + X s1 c q1 buf).
  { unfold X, Y. rewrite map_app. rewrite (ranges_app _ _ _ _ _ _ _ _ _ E1), (run_app _ _ _ _ _ _ _ _ _ E2).
    cbn [map score_conditions_ranges_tm score_conditions_tm]. rewrite !steps_spend.
    destruct (score_condition_spec st_char_eq st_scheme fuzzy a o Inv Heq Hsch Hfuzzy true c buf Hc g s2 (inserts [] rs1) Hg HI2 Hch) as (s3 & HI3 & E3).
    rewrite Hm in E3. rewrite <- (score_condition_ranges_same st_char_eq st_scheme fuzzy fz_tm fzr_tm fz_same fzr_same) in E3.
    destruct (condition_dearer alloc_tm st_char_eq st_scheme fz_tm fzr_tm Halike Hdearer c _ s2 r2 _ _ _ E3) as (r3 & E4 & _).
    rewrite (count_bind _ _ _ _ _ E3), (count_bind _ _ _ _ _ E4), !steps_lift.
    rewrite (missed_runs c buf Hc g s2 (inserts [] rs1) r2 Hg HI2 Hch Hm). lia. }
  lia.
Qed.

Lemma words_alone st g cand buf : Inv st -> texts_ok [g] -> g <> [] -> Forall (fun t => t_kind t <> KFuzzy) g ->
  exists hit, match hit with None => True | Some (i, e) => i <= e <= length cand end
  /\ match either_outcome a o g cand with Some (_, rs) => inserts [] rs | None => [] end
     = match hit with None => [] | Some (i, e) => [(byte_len (firstn i cand), byte_len (firstn e cand))] end
  /\ with_ranges_steps st [g] cand buf = plain_steps st [g] cand + match hit with None => 0 | Some (_, e) => if str_is_ascii cand then 0 else e end.
Proof.
  intros HI Hq Hne Hw. destruct (read_made st cand HI) as (c & s1 & HI1 & Hc & Hsl & Er).
  assert (Hg : Forall (fun t => t_text t <> []) g) by (inversion Hq; assumption).
  assert (Hg' : Forall (fun t => t_text t <> [] /\ t_kind t <> KFuzzy) g).
  { clear - Hw Hg. induction g as [|t g IH]; constructor; inversion Hw; inversion Hg; subst; auto. }
  assert (N2 : forall text, [g] <> [[Term true KFuzzy text]]).
  { intros text E. injection E as ->. inversion Hw; subst. auto. }
  pose proof (distance_diff st [g] cand buf c s1 Er HI1 Hc Hq ltac:(constructor; [exact Hne|constructor]) ltac:(discriminate) N2) as D2.
  destruct (words_hit s1 g c HI1 Hc Hg') as (k & hit & Hso & Hgr & HX & HY). rewrite Hsl in Hgr. exists hit. rewrite <- Hgr.
  assert (X2 : X s1 c [g] buf = 1 + (k + gains c hit [])) by (apply (HX s1 0%Z buf [] HI1 I)).
  assert (Y2 : Y s1 c [g] = 1 + k) by (apply (HY _ _ _ HI1)).
  assert (Hl : forall e, located c e = if str_is_ascii cand then 0 else e).
  { intros e. destruct (str_is_ascii cand); [injection Er as <- _; reflexivity|]. rewrite fst_tbind in Er. apply ok_bind in Er as ([l s] & _ & Er).
    injection Er as <- _. reflexivity. }
  destruct hit as [[i e]|]; cbn [grown gains ins sound] in *; rewrite ?Hsl in *.
  - split; [apply Hso|]. split; [reflexivity|]. rewrite Hl in X2. cbn [adding length filter existsb binary_probes] in X2. lia.
  - split; [exact I|]. split; [reflexivity|]. lia.
Qed.

End Several.

(** ** The metrics *)

Section Metrics.
Context {UC : unicode}.

Notation with_ranges := distance_and_ranges_steps.
Notation plain := distance_steps.

Lemma v1_alloc_same st s : fst (v1_alloc_chars_tm st s) = v1_alloc_chars st s.
Proof.
  unfold v1_alloc_chars_tm, v1_alloc_chars, candidate_alloc_tm. rewrite fst_tbind, fst_spend, fst_lift.
  apply bind_ex; [reflexivity|]. intros [a b]; reflexivity.
Qed.

Lemma v2_alloc_same st s : fst (v2_alloc_chars_tm st s) = v2_alloc_chars st s.
Proof.
  unfold v2_alloc_chars_tm, v2_alloc_chars, candidate_alloc_tm. rewrite fst_tbind, fst_spend, fst_lift.
  apply bind_ex; [reflexivity|]. intros [a b]; reflexivity.
Qed.

Lemma metric_last a o m q1 g cand buf : has_options a o m -> texts_ok (q1 ++ [g]) -> Forall (fun g => g <> []) (q1 ++ [g]) -> q1 <> [] ->
  (forall text, q1 <> [[Term true KFuzzy text]]) -> Forall (fun t => t_kind t <> KFuzzy) g -> fst (all_outcome a o q1 cand) <> None ->
  with_ranges m (query_of (q1 ++ [g])) cand buf + plain m (query_of q1) cand + plain m (query_of [g]) cand
  = plain m (query_of (q1 ++ [g])) cand + with_ranges m (query_of q1) cand buf + with_ranges m (query_of [g]) cand buf
    + match (match either_outcome a o g cand with Some (_, rs) => inserts [] rs | None => [] end) with
      | [] => 0
      | r :: _ => adding (inserts [] (snd (all_outcome a o q1 cand))) r
      end.
Proof.
  intros Ho. destruct a, m as [v|v]; try contradiction; unfold distance_steps.
  - rewrite !metric_v1_ranges, !metric_v1_steps.
    apply (words_last v1_alloc_chars v1_alloc_chars_tm v1_char_eq v1_scoring_scheme v1_fuzzy v1_fuzzy_tm v1_fuzzy_ranges_tm AlgoV1 o (v1_inv o)
      (v1_alloc_ok o) (v1_char_eq_ok o) (fun st H => proj2 (proj2 H)) (v1_fuzzy_ok o) CostProofs.v1_fuzzy_same v1_fuzzy_ranges_same v1_alike v1_dearer v1_none v1_alloc_same). exact Ho.
  - rewrite !metric_v2_ranges, !metric_v2_steps.
    apply (words_last v2_alloc_chars v2_alloc_chars_tm v2_char_eq v2_scoring_scheme v2_fuzzy v2_fuzzy_tm v2_fuzzy_ranges_tm AlgoV2 o (v2_inv o)
      (v2_alloc_ok o) (v2_char_eq_ok o) (fun st H => proj2 (proj2 H)) (v2_fuzzy_ok o) CostProofs.v2_fuzzy_same v2_fuzzy_ranges_same v2_alike v2_dearer v2_none v2_alloc_same). exact Ho.
Qed.

Lemma metric_missed a o m q1 g rest cand buf : has_options a o m -> texts_ok (q1 ++ g :: rest) -> Forall (fun g => g <> []) (q1 ++ g :: rest) -> q1 <> [] ->
  (forall text, q1 <> [[Term true KFuzzy text]]) -> fst (all_outcome a o q1 cand) <> None -> either_outcome a o g cand = None ->
  with_ranges m (query_of (q1 ++ g :: rest)) cand buf + plain m (query_of q1) cand
  = plain m (query_of (q1 ++ g :: rest)) cand + with_ranges m (query_of q1) cand buf.
Proof.
  intros Ho. destruct a, m as [v|v]; try contradiction; unfold distance_steps.
  - rewrite !metric_v1_ranges, !metric_v1_steps.
    apply (missed_last v1_alloc_chars v1_alloc_chars_tm v1_char_eq v1_scoring_scheme v1_fuzzy v1_fuzzy_tm v1_fuzzy_ranges_tm AlgoV1 o (v1_inv o)
      (v1_alloc_ok o) (v1_char_eq_ok o) (fun st H => proj2 (proj2 H)) (v1_fuzzy_ok o) CostProofs.v1_fuzzy_same v1_fuzzy_ranges_same v1_alike v1_dearer v1_none v1_alloc_same). exact Ho.
  - rewrite !metric_v2_ranges, !metric_v2_steps.
    apply (missed_last v2_alloc_chars v2_alloc_chars_tm v2_char_eq v2_scoring_scheme v2_fuzzy v2_fuzzy_tm v2_fuzzy_ranges_tm AlgoV2 o (v2_inv o)
      (v2_alloc_ok o) (v2_char_eq_ok o) (fun st H => proj2 (proj2 H)) (v2_fuzzy_ok o) CostProofs.v2_fuzzy_same v2_fuzzy_ranges_same v2_alike v2_dearer v2_none v2_alloc_same). exact Ho.
Qed.

Lemma metric_alone a o m g cand buf : has_options a o m -> texts_ok [g] -> g <> [] -> Forall (fun t => t_kind t <> KFuzzy) g ->
  exists hit, match hit with None => True | Some (i, e) => i <= e <= length cand end
  /\ match either_outcome a o g cand with Some (_, rs) => inserts [] rs | None => [] end
     = match hit with None => [] | Some (i, e) => [(byte_len (firstn i cand), byte_len (firstn e cand))] end
  /\ with_ranges m (query_of [g]) cand buf = plain m (query_of [g]) cand + match hit with None => 0 | Some (_, e) => locating cand e end.
Proof.
  intros Ho. destruct a, m as [v|v]; try contradiction; unfold distance_steps.
  - rewrite !metric_v1_ranges, !metric_v1_steps.
    apply (words_alone v1_alloc_chars v1_alloc_chars_tm v1_char_eq v1_scoring_scheme v1_fuzzy v1_fuzzy_tm v1_fuzzy_ranges_tm AlgoV1 o (v1_inv o)
      (v1_alloc_ok o) (v1_char_eq_ok o) (fun st H => proj2 (proj2 H)) (v1_fuzzy_ok o) CostProofs.v1_fuzzy_same v1_fuzzy_ranges_same v1_alike v1_dearer v1_none v1_alloc_same). exact Ho.
  - rewrite !metric_v2_ranges, !metric_v2_steps.
    apply (words_alone v2_alloc_chars v2_alloc_chars_tm v2_char_eq v2_scoring_scheme v2_fuzzy v2_fuzzy_tm v2_fuzzy_ranges_tm AlgoV2 o (v2_inv o)
      (v2_alloc_ok o) (v2_char_eq_ok o) (fun st H => proj2 (proj2 H)) (v2_fuzzy_ok o) CostProofs.v2_fuzzy_same v2_fuzzy_ranges_same v2_alike v2_dearer v2_none v2_alloc_same). exact Ho.
Qed.

Lemma outcome_all a o q l : (forall text, q <> [[Term true KFuzzy text]]) -> outcome a o q l = all_outcome a o q l.
Proof.
  intros H. destruct (outcome_cases q) as [(neg & text & ->)|[E _]]; [|apply E]. destruct neg; [destruct (H text eq_refl)|].
  cbn [outcome all_outcome either_outcome]. unfold term_outcome, base_outcome. cbn [t_neg t_kind t_text].
  destruct (fuzzy_outcome a o text l) as [[sc rs]|]; [|reflexivity]. cbn [option_map]. rewrite Z.add_0_r, app_nil_r. reflexivity.
Qed.

(** What a search says about the outcome. *)
Lemma searched a o m ps s q ps' c buf d m' buf' : metric_reached a o m -> parse ps s = Ok (q, ps') -> (forall text, parse_spec s <> [[Term true KFuzzy text]]) ->
  metric_distance_and_ranges m q c buf = Ok (d, m', buf') ->
  q = query_of (parse_spec s) /\ d = option_map from_score (fst (all_outcome a o (parse_spec s) c))
  /\ buf' = buf ++ inserts [] (snd (all_outcome a o (parse_spec s) c)).
Proof.
  intros Hm Hp Hn E. pose proof (metric_reached_options _ _ _ Hm) as Ho. destruct (parse_correct ps s) as (p1 & E1 & _).
  assert (q = query_of (parse_spec s)) as -> by congruence. pose proof (parse_spec_ok s) as (T1 & T2). split; [reflexivity|].
  destruct (metric_spec a o m (parse_spec s) c buf Ho T1 T2) as [_ (m2 & _ & E2)]. rewrite (outcome_all _ _ _ _ Hn) in E2. split; congruence.
Qed.

Lemma words_not g : Forall (fun t => t_kind t <> KFuzzy) g -> forall text, [g] <> [[Term true KFuzzy text]].
Proof. intros H text E. injection E as ->. inversion H; subst. auto. Qed.

Lemma one_outcome a o g c : all_outcome a o [g] c = match either_outcome a o g c with Some (sc, rs) => (Some sc, rs) | None => (None, []) end.
Proof. cbn [all_outcome]. destruct (either_outcome a o g c) as [[sc rs]|]; [|reflexivity]. cbn [option_map]. rewrite Z.add_0_r, app_nil_r. reflexivity. Qed.

Lemma one_ranges a o g c : inserts [] (snd (all_outcome a o [g] c)) = match either_outcome a o g c with Some (_, rs) => inserts [] rs | None => [] end.
Proof. rewrite one_outcome. destruct (either_outcome a o g c) as [[sc rs]|]; reflexivity. Qed.

Lemma c106_words : forall a o m ps s q ps' g c buf d m' buf', metric_reached a o m -> parse ps s = Ok (q, ps') ->
  parse_spec s = [g] -> Forall (fun t => t_kind t <> KFuzzy) g ->
  metric_distance_and_ranges m q c buf = Ok (d, m', buf') ->
  (buf' = buf -> distance_and_ranges_steps m q c buf = distance_steps m q c)
  /\ (forall b e, e <= length c -> buf' = buf ++ [(b, byte_len (firstn e c))] ->
      distance_and_ranges_steps m q c buf = distance_steps m q c + locating c e).
Proof.
  intros a o m ps s q ps' g c buf d m' buf' Hm Hp Hs Hg E.
  destruct (searched a o m ps s q ps' c buf d m' buf' Hm Hp) as (-> & _ & ->); [rewrite Hs; apply words_not, Hg|exact E|].
  pose proof (parse_spec_ok s) as (T1 & T2). rewrite Hs in *. rewrite one_ranges.
  destruct (metric_alone a o m g c buf (metric_reached_options _ _ _ Hm) T1) as (hit & Hh & -> & ->); [inversion T2; assumption|exact Hg|].
  split.
  - intros X. destruct hit as [[i e]|]; [|lia]. apply (f_equal (@length _)) in X. rewrite app_length in X. cbn [length] in X. lia.
  - intros b e He X. apply app_inv_head in X. destruct hit as [[i e']|]; [|discriminate X].
    assert (Hb : byte_len (firstn e' c) = byte_len (firstn e c)) by congruence. f_equal. f_equal.
    destruct (Nat.lt_trichotomy e' e) as [H|[H|H]]; [|exact H|]; exfalso.
    + pose proof (byte_len_firstn_lt c e' e). lia.
    + pose proof (byte_len_firstn_lt c e e'). lia.
Qed.

Lemma c106_and : forall a o m ps s q ps' s1 q1 ps1 s2 q2 ps2 g c buf d1 m1 own x2 m2 hits, metric_reached a o m ->
  parse ps s = Ok (q, ps') -> parse ps s1 = Ok (q1, ps1) -> parse ps s2 = Ok (q2, ps2) ->
  parse_spec s = parse_spec s1 ++ [g] -> parse_spec s2 = [g] -> parse_spec s1 <> [] ->
  (forall text, parse_spec s1 <> [[Term true KFuzzy text]]) -> Forall (fun t => t_kind t <> KFuzzy) g ->
  metric_distance_and_ranges m q1 c buf = Ok (Some d1, m1, buf ++ own) ->
  metric_distance_and_ranges m q2 c buf = Ok (x2, m2, buf ++ hits) ->
  let extra q := distance_and_ranges_steps m q c buf - distance_steps m q c in
  extra q = extra q1 + extra q2 + match hits with [] => 0 | r :: _ => adding own r end.
Proof.
  intros a o m ps s q ps' s1 q1 ps1 s2 q2 ps2 g c buf d1 m1 own x2 m2 hits Hm Hp Hp1 Hp2 Hs Hs2 H0 Hn Hg E1 E2 extra.
  pose proof (c106_no_less _ _ _ _ _ E1) as L1. pose proof (c106_no_less _ _ _ _ _ E2) as L2.
  destruct (searched a o m ps s1 q1 ps1 c buf _ m1 _ Hm Hp1 Hn E1) as (-> & D1 & B1). apply app_inv_head in B1. subst own.
  destruct (searched a o m ps s2 q2 ps2 c buf x2 m2 (buf ++ hits) Hm Hp2) as (-> & _ & B2); [rewrite Hs2; apply words_not, Hg|exact E2|]. apply app_inv_head in B2. subst hits.
  pose proof (parse_spec_ok s) as (T1 & T2). destruct (parse_correct ps s) as (p1 & Ep & _).
  assert (q = query_of (parse_spec s)) as -> by congruence.
  destruct (metric_spec a o m (parse_spec s) c buf (metric_reached_options _ _ _ Hm) T1 T2) as [_ (m3 & _ & E3)].
  pose proof (c106_no_less _ _ _ _ _ E3) as L3. rewrite Hs2, one_ranges in *. rewrite Hs in *.
  pose proof (metric_last a o m (parse_spec s1) g c buf (metric_reached_options _ _ _ Hm) T1 T2 H0 Hn Hg) as M.
  unfold extra. specialize (M ltac:(intros X; rewrite X in D1; discriminate D1)).
  set (w := match match either_outcome a o g c with Some _ => _ | None => _ end with [] => 0 | _ => _ end) in *. lia.
Qed.

Lemma c106_missed : forall a o m ps s q ps' s1 q1 ps1 s2 q2 ps2 g rest c buf d1 m1 buf1 m2 buf2, metric_reached a o m ->
  parse ps s = Ok (q, ps') -> parse ps s1 = Ok (q1, ps1) -> parse ps s2 = Ok (q2, ps2) ->
  parse_spec s = parse_spec s1 ++ g :: rest -> parse_spec s2 = [g] -> parse_spec s1 <> [] ->
  (forall text, parse_spec s1 <> [[Term true KFuzzy text]]) -> (forall text, g <> [Term true KFuzzy text]) ->
  metric_distance_and_ranges m q1 c buf = Ok (Some d1, m1, buf1) ->
  metric_distance_and_ranges m q2 c buf = Ok (None, m2, buf2) ->
  let extra q := distance_and_ranges_steps m q c buf - distance_steps m q c in
  extra q = extra q1.
Proof.
  intros a o m ps s q ps' s1 q1 ps1 s2 q2 ps2 g rest c buf d1 m1 buf1 m2 buf2 Hm Hp Hp1 Hp2 Hs Hs2 H0 Hn Hg E1 E2 extra.
  pose proof (c106_no_less _ _ _ _ _ E1) as L1.
  destruct (searched a o m ps s1 q1 ps1 c buf _ m1 _ Hm Hp1 Hn E1) as (-> & D1 & _).
  destruct (searched a o m ps s2 q2 ps2 c buf None m2 buf2 Hm Hp2) as (_ & D2 & _); [rewrite Hs2; intros text X; apply (Hg text); congruence|exact E2|].
  pose proof (parse_spec_ok s) as (T1 & T2). destruct (parse_correct ps s) as (p1 & Ep & _).
  assert (q = query_of (parse_spec s)) as -> by congruence.
  destruct (metric_spec a o m (parse_spec s) c buf (metric_reached_options _ _ _ Hm) T1 T2) as [_ (m3 & _ & E3)].
  pose proof (c106_no_less _ _ _ _ _ E3) as L3. rewrite Hs2, one_outcome in D2. rewrite Hs in *.
  pose proof (metric_missed a o m (parse_spec s1) g rest c buf (metric_reached_options _ _ _ Hm) T1 T2 H0 Hn) as M.
  specialize (M ltac:(intros X; rewrite X in D1; discriminate D1)).
  specialize (M ltac:(destruct (either_outcome a o g c) as [[sc rs]|]; [discriminate D2|reflexivity])). unfold extra. lia.
Qed.

End Metrics.
