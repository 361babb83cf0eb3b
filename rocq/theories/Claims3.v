(** Proofs of the properties about queries of several terms, and about the query language. *)
From Coq Require Import Sorted Permutation.
From Verif Require Import Prelude Chars Normalize Utils Candidate MatchedRanges Query Parser Scoring
  Slab Fzf FzfV1 FzfV2 Api History
  Spec PreludeProofs CharsProofs NormalizeProofs CandidateProofs MatchedRangesProofs ParserProofs
  ScoreProofs ExactProofs ShapeProofs V1Proofs V2Tables V2Proofs V2Rows V2Fuzzy V2Facts ApiProofs AcceptProofs
  RangeProofs WordsProofs CongProofs FuzzyFacts Claims2.
Local Open Scope nat_scope.

Section WithUnicode.
Context {UC : unicode}.

(** ** The content of queries *)

Lemma read_pat_of t : read_pattern (pat_of t) = t.
Proof. destruct t as [neg [] text]; reflexivity. Qed.

Lemma read_query_of q : read_query (query_of q) = q.
Proof.
  assert (G : map (map read_pattern) (map (map pat_of) q) = q).
  { rewrite map_map. rewrite <- (map_id q) at 2. apply map_ext. intros g. rewrite map_map.
    rewrite <- (map_id g) at 2. apply map_ext. apply read_pat_of. }
  destruct q as [|[|[neg [] text] []] []]; exact G.
Qed.

Lemma parse_read : forall ps s, exists q ps', parse ps s = Ok (q, ps') /\ read_query q = parse_spec s.
Proof.
  intros ps s. destruct (parse_correct ps s) as (ps' & E & _). exists (query_of (parse_spec s)), ps'.
  split; [exact E|apply read_query_of].
Qed.

Lemma c31_literal : forall ps s q ps',
  parse_not_extended ps s = Ok (q, ps') -> read_query q = [[Term false KFuzzy s]].
Proof.
  intros ps s q ps' E. rewrite parse_not_extended_correct in E. destruct (_ <=? _); [|discriminate].
  injection E as <- _. reflexivity.
Qed.

(** ** C28, C29, C30 *)

Lemma c28_grouping : forall ps s ws1 w1 mid w2 ws2 t u,
  words_of s = ws1 ++ w1 :: mid ++ w2 :: ws2 ->
  is_term w1 = Some t -> is_term w2 = Some u -> Forall (fun w => is_term w = None) mid ->
  exists q ps' q1 g1 g2 q2,
    parse ps s = Ok (q, ps')
    /\ concat q1 ++ g1 = terms_of ws1
    /\ read_query q
       = q1 ++ (if existsb is_bar mid then (g1 ++ t :: u :: g2) :: q2 else (g1 ++ [t]) :: (u :: g2) :: q2).
Proof.
  intros ps s ws1 w1 mid w2 ws2 t u Hs Ht Hu Hm. destruct (parse_read ps s) as (q & ps' & E & R).
  destruct (grouping s ws1 w1 mid w2 ws2 t u Hs Ht Hu Hm) as (q1 & g1 & g2 & q2 & H1 & H2).
  exists q, ps', q1, g1, g2, q2. split; [exact E|]. split; [exact H1|]. congruence.
Qed.

Lemma c28_terms : forall ps s, exists q ps',
  parse ps s = Ok (q, ps') /\ concat (read_query q) = terms_of (words_of s)
  /\ Forall (fun g => g <> []) (read_query q).
Proof.
  intros ps s. destruct (parse_read ps s) as (q & ps' & E & R). exists q, ps'. split; [exact E|].
  rewrite R. split; [apply parse_spec_terms|apply parse_spec_ok].
Qed.

Lemma c29_words : forall ps ws,
  Forall (fun w => w <> []) ws -> Forall (fun w => last w 0%N <> 92%N) (removelast ws) ->
  words_of (print_words ws) = ws
  /\ exists q ps', parse ps (print_words ws) = Ok (q, ps') /\ concat (read_query q) = terms_of ws.
Proof.
  intros ps ws H1 H2. pose proof (words_of_print ws H1 H2) as W. split; [exact W|].
  destruct (c28_terms ps (print_words ws)) as (q & ps' & E & R & _). rewrite W in R. eauto.
Qed.

(** A word by itself. *)
Lemma c30_lone_word : forall ps w, w <> [] ->
  exists q ps', parse ps (escape w) = Ok (q, ps')
    /\ read_query q = match is_term w with Some t => [[t]] | None => [] end.
Proof.
  intros ps w Hw. destruct (parse_read ps (escape w)) as (q & ps' & E & R). exists q, ps'. split; [exact E|].
  rewrite R. unfold parse_spec. rewrite words_of_escape by exact Hw. cbn [marked_terms]. unfold is_term.
  destruct (is_bar w); [reflexivity|]. destruct (term_of w); reflexivity.
Qed.

(** ** C07 *)

Lemma lone_found a o m ps s t c : metric_reached a o m -> parse_spec s = [[t]] ->
  (t_neg t = false \/ t_kind t = KFuzzy) ->
  find_ranges ps m s c [] = Ok (match base_outcome a o t c with
                                | Some (sc, rs) => (Some (from_score sc), inserts [] rs)
                                | None => (None, [])
                                end).
Proof.
  intros Hm Hs H. destruct t as [neg k text]. cbn [t_neg t_kind] in H. destruct neg.
  - destruct H as [H| ->]; [discriminate|]. rewrite (find_ranges_spec a o) by (apply metric_reached_options; exact Hm).
    rewrite Hs. cbn [outcome]. unfold base_outcome. cbn [t_kind t_text].
    destruct (fuzzy_outcome a o text c) as [[sc rs]|]; reflexivity.
  - destruct (single_result a o m ps s k text c [] Hm Hs) as [_ ->]. reflexivity.
Qed.

Lemma query_texts s g t : In g (parse_spec s) -> In t g -> t_text t <> [].
Proof.
  intros Hg Ht. destruct (parse_spec_ok s) as [T _]. unfold texts_ok in T. rewrite Forall_forall in T.
  specialize (T g Hg). rewrite Forall_forall in T. apply T. exact Ht.
Qed.

Lemma covered_inserts rs b : proper rs -> covered (inserts [] rs) b -> covered rs b.
Proof.
  intros H C. apply inserts_sound in C as [C|C]; [destruct (covered_nil _ C)|exact C|exact H|constructor].
Qed.

Lemma covered_base a o t c sc rs b : t_text t <> [] -> base_outcome a o t c = Some (sc, rs) ->
  (covered (inserts [] rs) b <-> covered rs b).
Proof.
  intros Ht E. split; [apply covered_inserts; eapply base_outcome_proper; eauto|]. intros C.
  unfold base_outcome in E. destruct (t_kind t).
  1: { apply fuzzy_outcome_chars in E as (ps & -> & Hps); [|exact Ht].
       apply inserts_chars; [exact Hps|constructor|constructor|]. right. exact C. }
  all: destruct (place_found o t c) as [i|]; [|discriminate]; injection E as _ <-; exact C.
Qed.

Lemma c07_sound_partial : forall a o m ps s c buf r buf',
  metric_reached a o m -> find_ranges ps m s c buf = Ok (r, buf') ->
  exists new, buf' = buf ++ new
    /\ forall b, covered new b ->
       exists w t d new1, In w (words_of s) /\ is_term w = Some t
         /\ (t_neg t = false \/ lone_negated_fuzzy (parse_spec s))
         /\ find_ranges ps m (escape w) c [] = Ok (Some d, new1) /\ covered new1 b.
Proof.
  intros a o m ps s c buf r buf' Hm E. pose proof (metric_reached_options _ _ _ Hm) as Ho.
  rewrite (find_ranges_spec a o) in E by exact Ho.
  exists (inserts [] (snd (outcome a o (parse_spec s) c))). split; [congruence|]. intros b C.
  pose proof (proj1 (parse_spec_ok s)) as T.
  apply covered_inserts in C; [|apply outcome_proper; exact T].
  assert (G : exists g t sc rs, In g (parse_spec s) /\ In t g /\ (t_neg t = false \/ (t_kind t = KFuzzy /\ lone_negated_fuzzy (parse_spec s)))
      /\ base_outcome a o t c = Some (sc, rs) /\ covered rs b).
  { destruct (outcome_cases (parse_spec s)) as [(neg & text & Eq)|[Eo _]].
    - rewrite Eq in C |- *. cbn [outcome] in C. destruct (fuzzy_outcome a o text c) as [[sc rs]|] eqn:Ef; [|destruct (covered_nil _ C)].
      exists [Term neg KFuzzy text], (Term neg KFuzzy text), sc, rs. split; [left; reflexivity|]. split; [left; reflexivity|].
      split; [|split; [exact Ef|exact C]]. destruct neg; [right|left; reflexivity]. split; [reflexivity|eexists; reflexivity].
    - rewrite Eo in C. apply all_source in C as (g & t & sc & rs & H1 & H2 & H3 & H4 & H5). exists g, t, sc, rs. auto 8. }
  destruct G as (g & t & sc & rs & H1 & H2 & H3 & H4 & H5).
  assert (Hw : exists w, In w (words_of s) /\ is_term w = Some t).
  { apply terms_of_in. rewrite <- parse_spec_terms. apply in_concat. eauto. }
  destruct Hw as (w & Hw & Et). assert (Hne : w <> []).
  { pose proof (words_of_nonempty s) as F. rewrite Forall_forall in F. auto. }
  exists w, t, (from_score sc), (inserts [] rs). split; [exact Hw|]. split; [exact Et|]. split; [tauto|].
  rewrite (lone_found a o m ps (escape w) t c Hm (parse_spec_alone w t Hne Et)) by tauto. rewrite H4.
  split; [reflexivity|]. eapply covered_base; eauto. eapply query_texts; eauto.
Qed.

(** *** The terms used *)

Section Used.
Variables (a : algo) (o : options) (c : str).
Notation holds := (fun t => term_accepts (opt_case o) (opt_norm o) t c).

Lemma either_first g sc rs : Forall (fun t => t_text t <> []) g -> Forall (fun t => ~ blank_equal t) g ->
  either_outcome a o g c = Some (sc, rs) ->
  exists t, first_such holds g t /\ term_outcome a o t c = Some (sc, rs).
Proof.
  intros Ht Hb E. apply either_source in E as (g1 & t & g2 & -> & H1 & H2). exists t. split; [|exact H2].
  apply Forall_app in Ht as [Ht1 Ht2]. apply Forall_app in Hb as [Hb1 Hb2]. inversion Ht2; subst. inversion Hb2; subst.
  exists g1, g2. split; [reflexivity|]. split.
  - rewrite Forall_forall in *. intros u Hu A. apply (term_outcome_iff o a u c) in A as [r A]; auto. rewrite H1 in A by exact Hu. discriminate.
  - apply (term_outcome_iff o a t c); eauto.
Qed.

Lemma first_such_unique g t t' : first_such holds g t -> first_such holds g t' -> t = t'.
Proof.
  intros (b & r & -> & H1 & H2) (b' & r' & E & H3 & H4). revert b' E H3. induction b as [|x b IH]; intros [|x' b'] E H3; cbn in E.
  - congruence.
  - injection E as <- _. inversion H3; contradiction.
  - injection E as -> _. inversion H1; contradiction.
  - injection E as <- E. inversion H1; subst. inversion H3; subst. eapply IH; eauto.
Qed.

(** The ranges which are inserted come from the terms used. *)
Lemma all_used q b : texts_ok q -> Forall (Forall (fun t => ~ blank_equal t)) q -> (exists x, fst (all_outcome a o q c) = Some x) ->
  (covered (snd (all_outcome a o q c)) b
   <-> exists g t sc rs, In g q /\ first_such holds g t /\ t_neg t = false /\ base_outcome a o t c = Some (sc, rs) /\ covered rs b).
Proof.
  intros T B. revert T B. induction q as [|g q IH]; intros T B [x Hx].
  - split; [intros C; destruct (covered_nil _ C)|intros (g & ? & ? & ? & [] & _)].
  - inversion T as [|? ? Tg Tq]; subst. inversion B as [|? ? Bg Bq]; subst. cbn [all_outcome] in *.
    destruct (either_outcome a o g c) as [[sc rs]|] eqn:E; [|discriminate].
    destruct (all_outcome a o q c) as [[tot|] rs'] eqn:Ea; [|discriminate]. cbn [snd fst] in *.
    specialize (IH Tq Bq (ex_intro _ tot eq_refl)). rewrite covered_app, IH. clear IH.
    destruct (either_first g sc rs Tg Bg E) as (t & F & Et). split.
    + intros [C|(g' & t' & sc' & rs'' & H1 & H2 & H3 & H4 & H5)].
      * destruct (term_source _ _ _ _ _ _ _ Et C) as [N1 N2]. exists g, t, sc, rs. split; [left; reflexivity|]. auto.
      * exists g', t', sc', rs''. split; [right; exact H1|]. auto.
    + intros (g' & t' & sc' & rs'' & [<-|H1] & H2 & H3 & H4 & H5).
      * left. rewrite (first_such_unique _ _ _ H2 F) in *. unfold term_outcome in Et. rewrite H3 in Et. congruence.
      * right. exists g', t', sc', rs''. auto.
Qed.

End Used.

(** Inserting all ranges of a query whose conditions after the first are fuzzy loses nothing. *)
Definition chars_only (t : term) : Prop := t_neg t = true \/ t_kind t = KFuzzy.

Lemma all_chars a o q c : texts_ok q -> Forall (Forall chars_only) q ->
  exists ps, snd (all_outcome a o q c) = map (char_range c) ps /\ Forall (fun j => j < length c) ps.
Proof.
  intros T F. induction q as [|g q IH].
  - exists []. split; [reflexivity|constructor].
  - inversion T as [|? ? Tg Tq]; subst. inversion F as [|? ? Fg Fq]; subst. cbn [all_outcome].
    destruct (IH Tq Fq) as (ps & E & B).
    destruct (either_outcome a o g c) as [[sc rs]|] eqn:Eg; [|exists []; split; [reflexivity|constructor]].
    destruct (all_outcome a o q c) as [tot rs']. cbn [snd] in *. subst rs'.
    assert (G : exists ps', rs = map (char_range c) ps' /\ Forall (fun j => j < length c) ps').
    { apply either_source in Eg as (g1 & t & g2 & -> & _ & Et). rewrite Forall_forall in Tg, Fg.
      specialize (Tg t (in_elt _ _ _)). specialize (Fg t (in_elt _ _ _)). unfold term_outcome in Et.
      destruct (t_neg t) eqn:N.
      - destruct (base_outcome a o t c); [discriminate|]. injection Et as _ <-. exists []. split; [reflexivity|constructor].
      - destruct Fg as [Fg|Fg]; [congruence|]. unfold base_outcome in Et. rewrite Fg in Et. eapply fuzzy_outcome_chars; eauto. }
    destruct G as (ps' & -> & B'). exists (ps' ++ ps). rewrite map_app. split; [reflexivity|]. apply Forall_app. auto.
Qed.

Lemma either_proper a o g c sc rs : Forall (fun t => t_text t <> []) g -> either_outcome a o g c = Some (sc, rs) ->
  (forall b, covered (inserts [] rs) b <-> covered rs b).
Proof.
  intros T E b. apply either_source in E as (g1 & t & g2 & -> & _ & Et). rewrite Forall_forall in T.
  specialize (T t (in_elt _ _ _)). unfold term_outcome in Et. destruct (t_neg t).
  - destruct (base_outcome a o t c); [discriminate|]. injection Et as _ <-. reflexivity.
  - eapply covered_base; eauto.
Qed.

Lemma inserts_union a o g q c b : texts_ok (g :: q) -> Forall (Forall chars_only) q ->
  (covered (inserts [] (snd (all_outcome a o (g :: q) c))) b <-> covered (snd (all_outcome a o (g :: q) c)) b).
Proof.
  intros T F. inversion T as [|? ? Tg Tq]; subst. cbn [all_outcome].
  destruct (either_outcome a o g c) as [[sc rs]|] eqn:E; [|reflexivity].
  destruct (all_chars a o q c Tq F) as (ps & Ep & Bp).
  destruct (all_outcome a o q c) as [tot rs']. cbn [snd] in *. subst rs'. rewrite inserts_app.
  pose proof (either_outcome_proper _ _ _ _ _ _ Tg E) as Pr. pose proof (either_outcome_boundaries _ _ _ _ _ _ Tg E) as Bd.
  rewrite inserts_chars; [|exact Bp|apply inserts_chain; [exact Pr|constructor]|apply inserts_boundaries; [exact Bd|constructor]].
  rewrite covered_app, (either_proper a o g c sc rs Tg E). reflexivity.
Qed.

Lemma regular_parts q : regular q -> Forall (Forall (fun t => ~ blank_equal t)) q.
Proof. intros [_ H]. exact H. Qed.

(** The query is not searched by the special case for single fuzzy terms, or that makes no difference. *)
Lemma outcome_all a o q c : ~ lone_negated_fuzzy q -> outcome a o q c = all_outcome a o q c.
Proof.
  intros H. destruct (outcome_cases q) as [(neg & text & ->)|[E _]]; [|apply E].
  destruct neg; [exfalso; apply H; eexists; reflexivity|].
  cbn. unfold term_outcome, base_outcome. cbn. destruct (fuzzy_outcome a o text c) as [[sc rs]|]; [|reflexivity].
  cbn. rewrite Z.add_0_r, app_nil_r. reflexivity.
Qed.

Lemma c07_union_partial : forall a o m ps s g q c buf d buf',
  metric_reached a o m -> parse_spec s = g :: q -> regular (parse_spec s) ->
  Forall (Forall (fun t => t_neg t = true \/ t_kind t = KFuzzy)) q ->
  find_ranges ps m s c buf = Ok (Some d, buf') ->
  exists new, buf' = buf ++ new
    /\ forall b, covered new b <->
       exists g' t s1 d1 new1, In g' (parse_spec s)
         /\ first_such (fun t => term_accepts (opt_case o) (opt_norm o) t c) g' t /\ t_neg t = false
         /\ parse_spec s1 = [[t]] /\ find_ranges ps m s1 c [] = Ok (Some d1, new1) /\ covered new1 b.
Proof.
  intros a o m ps s g q c buf d buf' Hm Hs Hr F E. pose proof (metric_reached_options _ _ _ Hm) as Ho.
  rewrite (find_ranges_spec a o) in E by exact Ho. pose proof (proj1 (parse_spec_ok s)) as T.
  pose proof (query_texts s) as TX. pose proof (term_alone s) as TA.
  rewrite outcome_all in E by apply Hr. rewrite Hs in *.
  exists (inserts [] (snd (all_outcome a o (g :: q) c))). split; [congruence|]. intros b.
  rewrite (inserts_union a o g q c b T F).
  assert (Hx : exists x, fst (all_outcome a o (g :: q) c) = Some x).
  { assert (K : option_map from_score (fst (all_outcome a o (g :: q) c)) = Some d) by congruence.
    destruct (fst (all_outcome a o (g :: q) c)); [eauto|discriminate]. }
  rewrite (all_used a o c (g :: q) b T (regular_parts _ Hr) Hx). split.
  - intros (g' & t & sc & rs & H1 & H2 & H3 & H4 & H5).
    assert (Ht : In t g') by (destruct H2 as (x & y & -> & _); apply in_elt).
    destruct (TA g' t H1 Ht) as (w & _ & Hw). exists g', t, (escape w), (from_score sc), (inserts [] rs).
    split; [exact H1|]. split; [exact H2|]. split; [exact H3|]. split; [exact Hw|].
    rewrite (lone_found a o m ps (escape w) t c Hm Hw) by auto. rewrite H4. split; [reflexivity|].
    eapply covered_base; eauto.
  - intros (g' & t & s1 & d1 & new1 & H1 & H2 & H3 & H4 & H5 & H6).
    rewrite (lone_found a o m ps s1 t c Hm H4) in H5 by auto.
    destruct (base_outcome a o t c) as [[sc rs]|] eqn:Eb; [|discriminate]. injection H5 as _ <-.
    exists g', t, sc, rs. split; [exact H1|]. split; [exact H2|]. split; [exact H3|]. split; [exact Eb|].
    assert (Ht : In t g') by (destruct H2 as (x & y & -> & _); apply in_elt).
    eapply covered_base; eauto.
Qed.

(** ** C27 *)

Lemma c27_accepts : forall a o m ps s c, metric_reached a o m -> regular (parse_spec s) ->
  (accepts (find ps m s c) <-> cnf_accepts (opt_case o) (opt_norm o) (parse_spec s) c).
Proof.
  intros a o m ps s c Hm Hr. rewrite (outcome_iff o a) by (try exact Hr; apply parse_spec_ok).
  apply metric_reached_options in Hm. rewrite (find_spec a o) by exact Hm. unfold accepts.
  destruct (fst (outcome a o (parse_spec s) c)); cbn; split; intros [x H]; eauto; congruence.
Qed.

Lemma c27_score : forall a o m ps s c d,
  metric_reached a o m -> regular (parse_spec s) -> find ps m s c = Ok (Some d) ->
  exists scores, d = from_score (sum scores)
    /\ Forall2 (fun g x => exists t, first_such (fun t => term_accepts (opt_case o) (opt_norm o) t c) g t
         /\ (if t_neg t then x = 0%Z
             else forall ps1 s1, parse_spec s1 = [[t]] -> find ps1 m s1 c = Ok (Some (from_score x))))
       (parse_spec s) scores.
Proof.
  intros a o m ps s c d Hm Hr E. pose proof (metric_reached_options _ _ _ Hm) as Ho.
  rewrite (find_spec a o) in E by exact Ho. rewrite outcome_all in E by apply Hr.
  pose proof (proj1 (parse_spec_ok s)) as T. apply regular_parts in Hr.
  assert (K : option_map from_score (fst (all_outcome a o (parse_spec s) c)) = Some d) by congruence. clear E.
  revert d K. induction T as [|g q Tg Tq IH]; intros d K.
  - injection K as <-. exists []. split; [reflexivity|constructor].
  - inversion Hr as [|? ? Rg Rq]; subst. cbn [all_outcome] in K.
    destruct (either_outcome a o g c) as [[sc rs]|] eqn:Eg; [|discriminate].
    destruct (all_outcome a o q c) as [[tot|] rs'] eqn:Ea; [|discriminate]. injection K as <-.
    destruct (IH Rq (from_score tot) eq_refl) as (scores & Es & F). injection Es as ->.
    exists (sc :: scores). split; [reflexivity|]. constructor; [|exact F].
    destruct (either_first a o c g sc rs Tg Rg Eg) as (t & Ft & Et). exists t. split; [exact Ft|].
    unfold term_outcome in Et. destruct (t_neg t) eqn:N.
    + destruct (base_outcome a o t c); [discriminate|]. congruence.
    + intros ps1 s1 Hs1. destruct t as [neg k text]. cbn in N. subst neg.
      destruct (single_result a o m ps1 s1 k text c [] Hm Hs1) as [-> _]. rewrite Et. reflexivity.
Qed.

(** ** C25, C26 *)

Lemma all_outcome_either a o q1 g g' q2 c : either_outcome a o g c = either_outcome a o g' c ->
  all_outcome a o (q1 ++ g :: q2) c = all_outcome a o (q1 ++ g' :: q2) c.
Proof.
  intros E. induction q1 as [|x q1 IH]; cbn [app all_outcome]; [rewrite E; reflexivity|]. rewrite IH. reflexivity.
Qed.

Lemma all_outcome_none a o q1 g q2 c : either_outcome a o g c = None ->
  fst (all_outcome a o (q1 ++ g :: q2) c) = None.
Proof.
  intros E. induction q1 as [|x q1 IH]; cbn [app all_outcome]; [rewrite E; reflexivity|].
  destruct (either_outcome a o x c) as [[sc rs]|]; [|reflexivity].
  destruct (all_outcome a o (q1 ++ g :: q2) c) as [tot rs']. cbn [fst] in *. rewrite IH. reflexivity.
Qed.

Lemma all_outcome_skip a o q1 g q2 c : either_outcome a o g c = Some (0%Z, []) ->
  all_outcome a o (q1 ++ g :: q2) c = all_outcome a o (q1 ++ q2) c.
Proof.
  intros E. induction q1 as [|x q1 IH]; cbn [app all_outcome].
  - rewrite E. destruct (all_outcome a o q2 c) as [[tot|] rs']; reflexivity.
  - rewrite IH. reflexivity.
Qed.

Lemma either_app a o g1 g2 c : either_outcome a o (g1 ++ g2) c
  = match either_outcome a o g1 c with Some r => Some r | None => either_outcome a o g2 c end.
Proof.
  induction g1 as [|t g1 IH]; [reflexivity|]. cbn [app either_outcome]. destruct (term_outcome a o t c); [reflexivity|apply IH].
Qed.

Lemma exact_inner_text p p' eq s cso : p_text p = p_text p' -> forall chars off bs cb k st,
  exact_inner p eq s cso chars off bs cb k st = exact_inner p' eq s cso chars off bs cb k st.
Proof.
  intros E. induction chars as [|y chars IH]; intros off bs cb k st; [reflexivity|]. cbn [exact_inner].
  unfold p_char, p_char_len. rewrite E. destruct (idx (p_text p') k) as [x| |]; [|reflexivity|reflexivity]. cbn [bind].
  destruct (eq x y).
  - destruct (k =? 0); (destruct (_ =? length (p_text p')); [reflexivity|apply IH]).
  - destruct (0 <? k); [reflexivity|apply IH].
Qed.

Lemma exact_outer_text p p' eq s c : p_text p = p_text p' -> forall fuel st,
  exact_outer fuel p c eq s st = exact_outer fuel p' c eq s st.
Proof.
  intros E. induction fuel as [|fuel IH]; intros st; [reflexivity|]. cbn [exact_outer].
  destruct (cand_chars_from c _) as [chars| |]; [|reflexivity|reflexivity]. cbn [bind].
  rewrite (exact_inner_text p p' eq s _ E).
  destruct (exact_inner _ _ _ _ _ _ _ _ _ _) as [[st' e]| |]; [|reflexivity|reflexivity]. cbn [bind].
  destruct e as [|[|]]; auto.
Qed.

Lemma base_outcome_neg a o k text c : base_outcome a o (Term true k text) c = base_outcome a o (Term false k text) c.
Proof.
  destruct k; try reflexivity. unfold base_outcome, place_found, exact_find. cbn [t_kind t_text].
  rewrite (exact_outer_text (pat_of (Term true KExact text)) (pat_of (Term false KExact text)) _ _ _ eq_refl). reflexivity.
Qed.

Lemma single_accepts a o m ps s k text c : metric_reached a o m -> parse_spec s = [[Term false k text]] ->
  (accepts (find ps m s c) /\ term_outcome a o (Term true k text) c = None)
  \/ (find ps m s c = Ok None /\ term_outcome a o (Term true k text) c = Some (0%Z, [])).
Proof.
  intros Hm Hs. destruct (single_result a o m ps s k text c [] Hm Hs) as [-> _].
  unfold term_outcome. cbn [t_neg]. rewrite base_outcome_neg.
  destruct (base_outcome a o (Term false k text) c) as [[sc rs]|]; [left|right]; split; try reflexivity. eexists. reflexivity.
Qed.

(** An inverse term as a condition of its own. *)
Lemma c25_condition : forall a o m ps s s0 s' q1 q2 k text c buf,
  metric_reached a o m ->
  parse_spec s = q1 ++ [Term true k text] :: q2 -> ~ lone_negated_fuzzy (parse_spec s) ->
  parse_spec s0 = [[Term false k text]] ->
  parse_spec s' = q1 ++ q2 -> ~ lone_negated_fuzzy (parse_spec s') ->
  (find ps m s0 c = Ok None /\ find_ranges ps m s c buf = find_ranges ps m s' c buf)
  \/ (accepts (find ps m s0 c) /\ find ps m s c = Ok None).
Proof.
  intros a o m ps s s0 s' q1 q2 k text c buf Hm Hs Hl Hs0 Hs' Hl'. pose proof (metric_reached_options _ _ _ Hm) as Ho.
  rewrite (find_spec a o m ps s), !(find_ranges_spec a o) by exact Ho.
  rewrite (outcome_all a o (parse_spec s)), (outcome_all a o (parse_spec s')) by assumption. rewrite Hs, Hs'.
  destruct (single_accepts a o m ps s0 k text c Hm Hs0) as [[E1 E2]|[E1 E2]].
  - right. split; [exact E1|]. rewrite all_outcome_none; [reflexivity|]. cbn [either_outcome]. rewrite E2. reflexivity.
  - left. split; [exact E1|]. rewrite all_outcome_skip; [reflexivity|]. cbn [either_outcome]. rewrite E2. reflexivity.
Qed.

(** An inverse term as one of several alternatives. *)
Lemma c25_alternative : forall a o m ps s s0 s1 s' q1 g1 g2 q2 k text c buf,
  metric_reached a o m ->
  parse_spec s = q1 ++ (g1 ++ Term true k text :: g2) :: q2 -> g1 ++ g2 <> [] ->
  parse_spec s0 = [[Term false k text]] ->
  parse_spec s1 = q1 ++ (g1 ++ g2) :: q2 -> ~ lone_negated_fuzzy (parse_spec s1) ->
  parse_spec s' = q1 ++ g1 :: q2 -> ~ lone_negated_fuzzy (parse_spec s') ->
  (accepts (find ps m s0 c) /\ find_ranges ps m s c buf = find_ranges ps m s1 c buf)
  \/ (find ps m s0 c = Ok None /\ (accepts (find ps m s' c) -> find_ranges ps m s c buf = find_ranges ps m s' c buf)).
Proof.
  intros a o m ps s s0 s1 s' q1 g1 g2 q2 k text c buf Hm Hs Hne Hs0 Hs1 Hl1 Hs' Hl'. pose proof (metric_reached_options _ _ _ Hm) as Ho.
  assert (Hl : ~ lone_negated_fuzzy (parse_spec s)).
  { rewrite Hs. intros (x & E). destruct q1 as [|y q1]; [|injection E as _ E; destruct q1; discriminate].
    injection E as E _. apply Hne. destruct g1 as [|y g1]; [injection E as _ _ E; exact E|]. injection E as _ E. destruct g1; discriminate. }
  rewrite (find_spec a o m ps s'), !(find_ranges_spec a o) by exact Ho.
  rewrite (outcome_all a o (parse_spec s)), (outcome_all a o (parse_spec s1)), (outcome_all a o (parse_spec s')) by assumption. rewrite Hs, Hs1, Hs'.
  destruct (single_accepts a o m ps s0 k text c Hm Hs0) as [[E1 E2]|[E1 E2]].
  - left. split; [exact E1|]. rewrite (all_outcome_either a o q1 (g1 ++ Term true k text :: g2) (g1 ++ g2)); [reflexivity|].
    rewrite !either_app. cbn [either_outcome]. rewrite E2. reflexivity.
  - right. split; [exact E1|]. intros [d A].
    assert (G : exists r, either_outcome a o g1 c = Some r).
    { destruct (either_outcome a o g1 c) as [r|] eqn:N; [eauto|]. rewrite all_outcome_none in A by exact N. discriminate. }
    destruct G as [r G]. rewrite (all_outcome_either a o q1 (g1 ++ Term true k text :: g2) g1); [reflexivity|].
    rewrite either_app, G. reflexivity.
Qed.

Lemma c26_lone_inverse_partial : forall a o m ps s s0 k text c buf,
  metric_reached a o m -> k <> KFuzzy ->
  parse_spec s = [[Term true k text]] -> parse_spec s0 = [[Term false k text]] ->
  (accepts (find ps m s0 c) /\ find_ranges ps m s c buf = Ok (None, buf))
  \/ (find ps m s0 c = Ok None /\ find_ranges ps m s c buf = Ok (Some default_distance, buf)).
Proof.
  intros a o m ps s s0 k text c buf Hm Hk Hs Hs0. pose proof (metric_reached_options _ _ _ Hm) as Ho.
  rewrite !(find_ranges_spec a o) by exact Ho. rewrite outcome_all by (rewrite Hs; intros [x E]; congruence). rewrite Hs.
  cbn [all_outcome either_outcome].
  destruct (single_accepts a o m ps s0 k text c Hm Hs0) as [[E1 E2]|[E1 E2]]; rewrite E2; [left|right]; (split; [exact E1|]);
    cbn; rewrite app_nil_r; reflexivity.
Qed.

(** The negation of a lone fuzzy term is not seen. *)
Lemma c26_lone_fuzzy : forall a o m ps s s0 text c buf,
  metric_reached a o m ->
  parse_spec s = [[Term true KFuzzy text]] -> parse_spec s0 = [[Term false KFuzzy text]] ->
  find ps m s c = find ps m s0 c /\ find_ranges ps m s c buf = find_ranges ps m s0 c buf.
Proof.
  intros a o m ps s s0 text c buf Hm Hs Hs0. apply metric_reached_options in Hm.
  rewrite !(find_spec a o), !(find_ranges_spec a o) by exact Hm. rewrite Hs, Hs0. split; reflexivity.
Qed.

(** ** C49 *)

Lemma all_outcome_perm a o q q' c : Permutation q q' -> fst (all_outcome a o q c) = fst (all_outcome a o q' c).
Proof.
  induction 1 as [|g q q' _ IH|g g' q|q q' q'' _ IH1 _ IH2].
  - reflexivity.
  - cbn [all_outcome]. destruct (either_outcome a o g c) as [[sc rs]|]; [|reflexivity].
    destruct (all_outcome a o q c), (all_outcome a o q' c). cbn [fst] in *. congruence.
  - cbn [all_outcome]. destruct (either_outcome a o g c) as [[sc rs]|], (either_outcome a o g' c) as [[sc' rs']|]; try reflexivity;
      destruct (all_outcome a o q c) as [[tot|] r]; cbn; try reflexivity. f_equal. lia.
  - congruence.
Qed.

Lemma c49_order : forall a o m ps ps' s s' c, metric_reached a o m ->
  Permutation (parse_spec s) (parse_spec s') -> find ps m s c = find ps' m s' c.
Proof.
  intros a o m ps ps' s s' c Hm P. apply metric_reached_options in Hm. rewrite !(find_spec a o) by exact Hm.
  do 2 f_equal. destruct (outcome_cases (parse_spec s)) as [(neg & text & E)|[E1 N1]].
  - rewrite E in P |- *. apply Permutation_length_1_inv in P. rewrite P. reflexivity.
  - destruct (outcome_cases (parse_spec s')) as [(neg & text & E)|[E2 _]].
    + rewrite E in P. apply Permutation_sym, Permutation_length_1_inv in P. rewrite P, E. reflexivity.
    + rewrite E1, E2. apply all_outcome_perm. exact P.
Qed.

(** ** Growing and shrinking queries *)

(** A longer query accepts fewer candidates. *)
Lemma all_outcome_app_some a o q1 q2 c x : fst (all_outcome a o (q1 ++ q2) c) = Some x ->
  exists y, fst (all_outcome a o q1 c) = Some y.
Proof.
  revert x. induction q1 as [|g q1 IH]; intros x H; [cbn; eauto|]. cbn [app all_outcome] in *.
  destruct (either_outcome a o g c) as [[sc rs]|]; [|discriminate].
  destruct (all_outcome a o (q1 ++ q2) c) as [[tot|] r]; [|discriminate]. destruct (IH tot eq_refl) as [y E].
  destruct (all_outcome a o q1 c) as [[tot'|] r']; cbn in *; [eauto|discriminate].
Qed.

Lemma more_conditions : forall a o m ps s s' c q q', metric_reached a o m ->
  parse_spec s = q -> parse_spec s' = q ++ q' -> ~ lone_negated_fuzzy q ->
  accepts (find ps m s' c) -> accepts (find ps m s c).
Proof.
  intros a o m ps s s' c q q' Hm Hs Hs' Hl [d A]. apply metric_reached_options in Hm.
  rewrite (find_spec a o) in A |- * by exact Hm. rewrite Hs, Hs' in *.
  destruct q' as [|g' q']; [rewrite app_nil_r in A; eexists; exact A|].
  destruct q as [|g q]; [eexists; reflexivity|].
  rewrite (outcome_all a o (g :: q)) by exact Hl.
  rewrite outcome_all in A by (intros (x & E); destruct q; discriminate).
  destruct (fst (all_outcome a o ((g :: q) ++ g' :: q') c)) as [x|] eqn:E; [|discriminate].
  apply all_outcome_app_some in E as [y ->]. eexists. reflexivity.
Qed.

End WithUnicode.
