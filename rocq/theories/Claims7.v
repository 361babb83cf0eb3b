(** Proofs about the programs in Usage, about writing queries, and about queries of several
    conditions. *)
From Coq Require Import Sorted Permutation.
From Verif Require Import Prelude Chars Normalize Utils Candidate MatchedRanges Query Parser Scoring
  Slab Fzf FzfV1 FzfV2 Api Usage History
  Spec PreludeProofs CharsProofs NormalizeProofs CandidateProofs MatchedRangesProofs ParserProofs
  ScoreProofs ExactProofs ShapeProofs V1Proofs V2Tables V2Proofs V2Rows V2Fuzzy V2Facts ApiProofs AcceptProofs
  RangeProofs WordsProofs CongProofs FuzzyFacts Claims1 Claims2 Claims3 Claims4.
Local Open Scope nat_scope.

Section WithUnicode.
Context {UC : unicode}.

(** ** C03: what is left behind *)

Lemma all_outcome_app a o q1 q2 c sc rs : all_outcome a o q1 c = (Some sc, rs) ->
  all_outcome a o (q1 ++ q2) c
  = (option_map (Z.add sc) (fst (all_outcome a o q2 c)), rs ++ snd (all_outcome a o q2 c)).
Proof.
  revert sc rs. induction q1 as [|g q1 IH]; intros sc rs E.
  - injection E as <- <-. cbn [app]. destruct (all_outcome a o q2 c) as [[x|] r]; reflexivity.
  - cbn [app all_outcome] in *. destruct (either_outcome a o g c) as [[s1 r1]|]; [|discriminate].
    destruct (all_outcome a o q1 c) as [[x|] r] eqn:E1; [|discriminate].
    assert (sc = s1 + x)%Z by (cbn in E; congruence). assert (rs = r1 ++ r) by congruence. subst. clear E.
    rewrite (IH x r eq_refl). destruct (all_outcome a o q2 c) as [[y|] r2]; cbn [fst snd option_map]; rewrite app_assoc.
    + do 2 f_equal. lia.
    + reflexivity.
Qed.

Lemma c03_leftover : forall a o m ps s1 s2 s q1 g q2 c buf d buf1,
  metric_reached a o m ->
  parse_spec s1 = q1 -> parse_spec s2 = [g] -> parse_spec s = q1 ++ g :: q2 ->
  ~ lone_negated_fuzzy q1 -> ~ lone_negated_fuzzy [g] ->
  find_ranges ps m s1 c buf = Ok (Some d, buf1) -> find ps m s2 c = Ok None ->
  find_ranges ps m s c buf = Ok (None, buf1).
Proof.
  intros a o m ps s1 s2 s q1 g q2 c buf d buf1 Hm H1 H2 H Hl1 Hl2 E1 E2. apply metric_reached_options in Hm.
  rewrite (find_ranges_spec a o) in E1 |- * by exact Hm. rewrite (find_spec a o) in E2 by exact Hm.
  rewrite H1 in E1. rewrite H2 in E2. rewrite H.
  rewrite (outcome_all a o q1) in E1 by exact Hl1. rewrite (outcome_all a o [g]) in E2 by exact Hl2.
  destruct (all_outcome a o q1 c) as [[sc|] rs] eqn:Ea; [|discriminate]. cbn [fst snd option_map] in E1.
  assert (Eg : either_outcome a o g c = None).
  { cbn [all_outcome] in E2. destruct (either_outcome a o g c) as [[x r]|]; [discriminate|reflexivity]. }
  assert (Es : all_outcome a o (q1 ++ g :: q2) c = (None, rs)).
  { rewrite (all_outcome_app a o q1 (g :: q2) c sc rs Ea). cbn [all_outcome]. rewrite Eg. cbn. rewrite app_nil_r. reflexivity. }
  destruct (outcome_cases (q1 ++ g :: q2)) as [(neg & text & Eq)|[Eo _]].
  - destruct q1 as [|g1 q1]; [|destruct q1; discriminate]. cbn in Eq. injection Eq as -> ->.
    cbn [app] in *. rewrite outcome_all by exact Hl2. rewrite Es. cbn [fst snd option_map]. congruence.
  - rewrite Eo, Es. cbn [fst snd option_map]. congruence.
Qed.

(** ** C07: adding a condition keeps what is highlighted *)

Lemma c07_kept : forall a o m ps s s' q q' c buf d d' new new',
  metric_reached a o m ->
  parse_spec s = q -> parse_spec s' = q ++ q' -> ~ lone_negated_fuzzy q -> ~ lone_negated_fuzzy (q ++ q') ->
  find_ranges ps m s c buf = Ok (Some d, buf ++ new) -> find_ranges ps m s' c buf = Ok (d', buf ++ new') ->
  forall b, covered new b -> covered new' b.
Proof.
  intros a o m ps s s' q q' c buf d d' new new' Hm Hs Hs' Hl Hl' E E' b C. apply metric_reached_options in Hm.
  rewrite (find_ranges_spec a o) in E, E' by exact Hm. rewrite Hs in E. rewrite Hs' in E'.
  rewrite outcome_all in E, E' by assumption.
  destruct (all_outcome a o q c) as [[sc|] rs] eqn:Ea; [|discriminate].
  assert (new = inserts [] rs). { apply (app_inv_head buf). cbn [fst snd option_map] in E. congruence. }
  assert (N' : new' = inserts [] (snd (all_outcome a o (q ++ q') c))). { apply (app_inv_head buf). congruence. }
  rewrite (all_outcome_app a o q q' c sc rs Ea) in N'. cbn [snd] in N'. subst new new'. rewrite inserts_app.
  pose proof (proj1 (parse_spec_ok s')) as T. rewrite Hs' in T. apply Forall_app in T as [T1 T2].
  apply inserts_keep; [apply all_outcome_proper; exact T2| |exact C].
  apply inserts_chain; [|constructor]. pose proof (all_outcome_proper a o q c T1) as P. rewrite Ea in P. exact P.
Qed.

(** ** Conditions and alternatives *)

Lemma either_widen a o g1 g g2 g3 c r : either_outcome a o (g1 ++ g3) c = Some r ->
  g = g1 ++ g2 ++ g3 -> exists r', either_outcome a o g c = Some r'.
Proof.
  intros E ->. rewrite !either_app in *. destruct (either_outcome a o g1 c); [eauto|].
  destruct (either_outcome a o g2 c); eauto.
Qed.

Lemma more_alternatives : forall a o m ps s s' q1 g1 g2 g3 q2 c, metric_reached a o m ->
  parse_spec s = q1 ++ (g1 ++ g3) :: q2 -> parse_spec s' = q1 ++ (g1 ++ g2 ++ g3) :: q2 ->
  ~ lone_negated_fuzzy (parse_spec s) -> ~ lone_negated_fuzzy (parse_spec s') ->
  accepts (find ps m s c) -> accepts (find ps m s' c).
Proof.
  intros a o m ps s s' q1 g1 g2 g3 q2 c Hm Hs Hs' Hl Hl' [d A]. apply metric_reached_options in Hm.
  rewrite (find_spec a o) in A |- * by exact Hm. rewrite outcome_all in A |- * by assumption. rewrite Hs in A. rewrite Hs'.
  clear Hs Hs' Hl Hl'. revert d A. induction q1 as [|g q1 IH]; intros d A; cbn [app all_outcome] in *.
  - destruct (either_outcome a o (g1 ++ g3) c) as [[x r]|] eqn:E; [|discriminate].
    destruct (either_widen a o g1 _ g2 g3 c _ E eq_refl) as [[x' r'] ->].
    destruct (all_outcome a o q2 c) as [[y|] r2]; [|discriminate]. eexists. reflexivity.
  - destruct (either_outcome a o g c) as [[x r]|]; [|discriminate].
    destruct (all_outcome a o (q1 ++ (g1 ++ g3) :: q2) c) as [[y|] r2]; [|discriminate].
    destruct (IH _ eq_refl) as [d' E']. destruct (all_outcome a o (q1 ++ (g1 ++ g2 ++ g3) :: q2) c) as [[y'|] r2']; [|discriminate].
    eexists. reflexivity.
Qed.

(** ** Queries without fuzzy terms *)

Lemma base_no_fuzzy o t c : t_kind t <> KFuzzy -> base_outcome AlgoV1 o t c = base_outcome AlgoV2 o t c.
Proof. intros H. unfold base_outcome. destruct (t_kind t); congruence. Qed.

Lemma either_no_fuzzy o g c : Forall (fun t => t_kind t <> KFuzzy) g -> either_outcome AlgoV1 o g c = either_outcome AlgoV2 o g c.
Proof.
  induction 1 as [|t g Ht _ IH]; [reflexivity|]. cbn [either_outcome]. unfold term_outcome.
  rewrite (base_no_fuzzy o t c Ht), IH. reflexivity.
Qed.

Lemma no_fuzzy_same : forall o m1 m2 ps s c buf,
  metric_reached AlgoV1 o m1 -> metric_reached AlgoV2 o m2 ->
  Forall (Forall (fun t => t_kind t <> KFuzzy)) (parse_spec s) ->
  find ps m1 s c = find ps m2 s c /\ find_ranges ps m1 s c buf = find_ranges ps m2 s c buf.
Proof.
  intros o m1 m2 ps s c buf H1 H2 F. apply metric_reached_options in H1, H2.
  rewrite (find_spec AlgoV1 o), (find_ranges_spec AlgoV1 o) by exact H1.
  rewrite (find_spec AlgoV2 o), (find_ranges_spec AlgoV2 o) by exact H2.
  assert (E : outcome AlgoV1 o (parse_spec s) c = outcome AlgoV2 o (parse_spec s) c).
  { destruct (outcome_cases (parse_spec s)) as [(neg & text & Eq)|[Eo _]].
    - rewrite Eq in F. inversion F as [|? ? F1]; subst. inversion F1; subst. cbn in *. congruence.
    - rewrite !Eo. clear Eo. induction F as [|g q Hg _ IH]; [reflexivity|]. cbn [all_outcome].
      rewrite (either_no_fuzzy o g c Hg), IH. reflexivity. }
  rewrite E. split; reflexivity.
Qed.

(** ** Writing queries *)

Lemma tokens_sep : forall s1 s2, (s1 = [] \/ last s1 0%N <> 92%N) -> tokens (s1 ++ 32%N :: s2) = tokens s1 ++ Sep :: tokens s2.
Proof.
  intros s1. remember (length s1) as n eqn:En. revert s1 En. induction n as [n IH] using lt_wf_ind. intros s1 En s2 H.
  destruct s1 as [|x s1]; [reflexivity|]. cbn [app tokens length] in *.
  destruct (N.eqb_spec x 32) as [->|Nx].
  - cbn [app]. f_equal. apply (IH (length s1)); [lia|reflexivity|]. destruct s1; [left; reflexivity|right].
    destruct H as [H|H]; [discriminate|exact H].
  - destruct s1 as [|y s1]; cbn [app].
    + destruct H as [H|H]; [discriminate|]. cbn in H. destruct (N.eqb_spec x 92); [congruence|]. reflexivity.
    + assert (H' : last (y :: s1) 0%N <> 92%N) by (destruct H as [H|H]; [discriminate|exact H]).
      assert (E' : tokens ((y :: s1) ++ 32%N :: s2) = tokens (y :: s1) ++ Sep :: tokens s2).
      { apply (IH (length (y :: s1))); [cbn in *; lia|reflexivity|right; exact H']. }
      destruct ((x =? 92) && (y =? 32))%N eqn:B.
      * cbn [app]. f_equal. apply (IH (length s1)); [cbn in *; lia|reflexivity|]. destruct s1; [left; reflexivity|right; exact H'].
      * cbn [app]. f_equal. exact E'.
Qed.

Lemma split_sep l1 l2 : split (l1 ++ Sep :: l2) = split l1 ++ split l2.
Proof.
  induction l1 as [|[x|] l1 IH]; cbn [app split]; [reflexivity| |rewrite IH; reflexivity].
  rewrite IH. destruct (split l1) as [|w ws] eqn:E; [destruct (split_nonempty _ E)|]. reflexivity.
Qed.

Lemma words_of_app s1 s2 : (s1 = [] \/ last s1 0%N <> 92%N) -> words_of (s1 ++ 32%N :: s2) = words_of s1 ++ words_of s2.
Proof. intros H. unfold words_of. rewrite tokens_sep by exact H. rewrite split_sep, filter_app. reflexivity. Qed.

Lemma spaces_snoc n : spaces (S n) = 32%N :: spaces n.
Proof. reflexivity. Qed.

Lemma words_of_pad s1 n s2 : (s1 = [] \/ last s1 0%N <> 92%N) ->
  words_of (s1 ++ spaces (S n) ++ s2) = words_of s1 ++ words_of s2.
Proof.
  intros H. rewrite spaces_snoc. cbn [app]. rewrite words_of_app by exact H. f_equal. apply words_of_spaces.
Qed.

Lemma same_words : forall a o m ps ps' s s' c buf, metric_reached a o m -> words_of s = words_of s' ->
  find ps m s c = find ps' m s' c /\ find_ranges ps m s c buf = find_ranges ps' m s' c buf.
Proof.
  intros a o m ps ps' s s' c buf Hm W. apply metric_reached_options in Hm.
  rewrite !(find_spec a o), !(find_ranges_spec a o) by exact Hm. unfold parse_spec. rewrite W. split; reflexivity.
Qed.

Lemma extra_spaces : forall a o m ps k s1 n s2 j c buf, metric_reached a o m ->
  (s1 = [] \/ last s1 0%N <> 92%N) -> (s2 = [] \/ last s2 0%N <> 92%N) ->
  find ps m (spaces k ++ s1 ++ spaces (S n) ++ s2 ++ spaces j) c = find ps m (s1 ++ 32%N :: s2) c
  /\ find_ranges ps m (spaces k ++ s1 ++ spaces (S n) ++ s2 ++ spaces j) c buf = find_ranges ps m (s1 ++ 32%N :: s2) c buf.
Proof.
  intros a o m ps k s1 n s2 j c buf Hm H1 H2. apply (same_words a o); [exact Hm|].
  transitivity (words_of (s1 ++ spaces (S n) ++ s2 ++ spaces j)); [apply words_of_spaces|].
  rewrite words_of_pad, words_of_app by exact H1. f_equal.
  destruct j as [|j]; [change (spaces 0) with (@nil N); rewrite app_nil_r; reflexivity|].
  rewrite <- (app_nil_r (spaces (S j))), words_of_pad by exact H2. cbn. apply app_nil_r.
Qed.

(** The words of two queries, one after the other. *)

Lemma marked_begin ws b : begins_with_term ws -> exists m', marked_terms b ws = m' /\ 
  match ws with [] => m' = [] | _ => exists t r, m' = (b, t) :: r /\ marked_terms false ws = (false, t) :: r end.
Proof.
  intros H. eexists. split; [reflexivity|]. destruct ws as [|w ws]; [reflexivity|].
  destruct H as [H|(w' & ws' & t & E & Ht)]; [discriminate|]. injection E as <- <-. unfold is_term in Ht.
  cbn [marked_terms]. destruct (is_bar w); [discriminate|]. rewrite Ht. eauto.
Qed.

Lemma marked_terms_app ws1 ws2 : forall b, ends_in_term ws1 -> begins_with_term ws2 -> ws1 <> [] ->
  marked_terms b (ws1 ++ ws2) = marked_terms b ws1 ++ marked_terms false ws2.
Proof.
  intros b [->|(ws' & w & t & -> & Ht)] _ Hne; [congruence|]. clear Hne. revert b. rewrite <- app_assoc.
  induction ws' as [|v ws' IH]; intros b; cbn [app marked_terms] in *.
  - unfold is_term in Ht. destruct (is_bar w); [discriminate|]. rewrite Ht. reflexivity.
  - destruct (is_bar v); [apply IH|]. destruct (term_of v); [|apply IH]. cbn [app]. f_equal. apply IH.
Qed.

Lemma join_bars_app m1 m2 : match m2 with (true, _) :: _ => False | _ => True end ->
  join_bars (m1 ++ m2) = join_bars m1 ++ join_bars m2.
Proof.
  intros H. induction m1 as [|[b t] m1 IH]; [reflexivity|]. cbn [app join_bars].
  destruct m1 as [|[[] u] m1].
  - cbn [app]. destruct m2 as [|[[] u] m2]; [reflexivity|contradiction|reflexivity].
  - change (((true, u) :: m1) ++ m2) with ((true, u) :: (m1 ++ m2)) in *. cbv iota. rewrite IH.
    destruct (join_bars ((true, u) :: m1)) as [|g gs] eqn:E; [|reflexivity].
    exfalso. cbn in E. destruct m1 as [|[[] v] m1]; try discriminate. destruct (join_bars _); discriminate.
  - change (((false, u) :: m1) ++ m2) with ((false, u) :: (m1 ++ m2)) in *. cbv iota. rewrite IH. reflexivity.
Qed.

Lemma parse_spec_app s1 s2 : (s1 = [] \/ last s1 0%N <> 92%N) ->
  ends_in_term (words_of s1) -> begins_with_term (words_of s2) ->
  parse_spec (s1 ++ 32%N :: s2) = parse_spec s1 ++ parse_spec s2.
Proof.
  intros H H1 H2. unfold parse_spec. rewrite words_of_app by exact H.
  destruct (words_of s1) as [|w ws]; [reflexivity|].
  rewrite marked_terms_app by (auto; discriminate). apply join_bars_app.
  destruct (marked_begin _ false H2) as (m' & E & K). rewrite E. destruct (words_of s2); [subst m'; exact I|].
  destruct K as (t & r & -> & _). exact I.
Qed.

Lemma two_queries : forall a o m ps s1 s2 c, metric_reached a o m ->
  (s1 = [] \/ last s1 0%N <> 92%N) -> ends_in_term (words_of s1) -> begins_with_term (words_of s2) ->
  ~ lone_negated_fuzzy (parse_spec s1) -> ~ lone_negated_fuzzy (parse_spec s2) ->
  find ps m (s1 ++ 32%N :: s2) c
  = match find ps m s1 c, find ps m s2 c with
    | Ok (Some d1), Ok (Some d2) => Ok (Some (from_score (into_score d1 + into_score d2)))
    | _, _ => Ok None
    end.
Proof.
  intros a o m ps s1 s2 c Hm H H1 H2 L1 L2. apply metric_reached_options in Hm. rewrite !(find_spec a o) by exact Hm.
  rewrite parse_spec_app by assumption.
  assert (L : ~ lone_negated_fuzzy (parse_spec s1 ++ parse_spec s2)).
  { intros (t & E). destruct (parse_spec s1) as [|g q]; [cbn in E; apply L2; rewrite E; eexists; reflexivity|].
    destruct q as [|g' q]; [|destruct q; discriminate]. destruct (parse_spec s2); [|discriminate]. cbn in E.
    apply L1. rewrite E. eexists. reflexivity. }
  rewrite !outcome_all by assumption. destruct (all_outcome a o (parse_spec s1) c) as [[x1|] r1] eqn:E1.
  - rewrite (all_outcome_app a o _ _ c _ _ E1). cbn [fst option_map].
    destruct (all_outcome a o (parse_spec s2) c) as [[x2|] r2]; reflexivity.
  - cbn [fst option_map]. destruct (fst (all_outcome a o (parse_spec s1 ++ parse_spec s2) c)) as [x|] eqn:E; [|reflexivity].
    apply all_outcome_app_some in E as [y E]. rewrite E1 in E. discriminate.
Qed.

(** ** Ranking *)


Lemma filter_all_spec a o q (f : str -> option distance) :
  (forall m c, metric_reached a o m -> exists m', metric_reached a o m' /\ metric_distance m q c = Ok (f c, m')) ->
  forall cs m, metric_reached a o m -> exists m', metric_reached a o m' /\ filter_all m q cs = Ok (found_in f cs, m').
Proof.
  intros F. induction cs as [|c cs IH]; intros m Hm; [exists m; auto|]. cbn [filter_all found_in flat_map].
  destruct (F m c Hm) as (m1 & H1 & ->). cbn [bind]. destruct (IH m1 H1) as (m2 & H2 & ->). cbn [bind].
  exists m2. split; [exact H2|]. destruct (f c); reflexivity.
Qed.

Notation le_dist := (fun x y : str * distance => distance_cmp (snd x) (snd y) <> Gt).

Lemma insert_perm x l : Permutation (insert_by_distance x l) (x :: l).
Proof.
  induction l as [|y l IH]; cbn [insert_by_distance]; [apply Permutation_refl|].
  destruct (distance_cmp (snd x) (snd y)); try apply Permutation_refl.
  rewrite IH. apply perm_swap.
Qed.

Lemma cmp_score x y : distance_cmp x y <> Gt <-> (into_score y <= into_score x)%Z.
Proof. unfold distance_cmp. rewrite Z.compare_ngt_iff. lia. Qed.

Lemma insert_sorted x l : StronglySorted le_dist l -> StronglySorted le_dist (insert_by_distance x l).
Proof.
  induction 1 as [|y l Hl IH Hy]; cbn [insert_by_distance]; [repeat constructor|].
  destruct (distance_cmp (snd x) (snd y)) eqn:E.
  1,2: (constructor; [constructor; assumption|]; constructor; [congruence|];
        rewrite Forall_forall in *; intros z Hz; specialize (Hy z Hz); assert (distance_cmp (snd x) (snd y) <> Gt) by congruence;
        rewrite cmp_score in *; lia).
  constructor; [exact IH|]. apply (Permutation_Forall (Permutation_sym (insert_perm x l))).
  constructor; [|exact Hy]. rewrite cmp_score. unfold distance_cmp in E. rewrite Z.compare_gt_iff in E. lia.
Qed.

Lemma insert_stable x l d : filter (fun e => distance_eqb (snd e) d) (insert_by_distance x l)
  = filter (fun e => distance_eqb (snd e) d) (x :: l).
Proof.
  induction l as [|y l IH]; [reflexivity|]. cbn [insert_by_distance].
  destruct (distance_cmp (snd x) (snd y)) eqn:E; try reflexivity. cbn [filter]. cbn [filter] in IH. rewrite IH.
  destruct (distance_eqb (snd x) d) eqn:Ex, (distance_eqb (snd y) d) eqn:Ey; try reflexivity.
  unfold distance_eqb in *. apply Z.eqb_eq in Ex, Ey. unfold distance_cmp in E. rewrite Z.compare_gt_iff in E. lia.
Qed.

Lemma sort_spec l : Permutation (sort_by_distance l) l /\ StronglySorted le_dist (sort_by_distance l)
  /\ forall d, filter (fun e => distance_eqb (snd e) d) (sort_by_distance l) = filter (fun e => distance_eqb (snd e) d) l.
Proof.
  induction l as [|x l (P & S & F)]; [split; [|split]; [apply Permutation_refl|constructor|reflexivity]|].
  cbn [sort_by_distance]. split; [|split].
  - rewrite insert_perm, P. apply Permutation_refl.
  - apply insert_sorted, S.
  - intros d. rewrite insert_stable. cbn [filter]. rewrite F. reflexivity.
Qed.

Lemma ranking : forall a o m q cs, metric_reached a o m -> query_reached q ->
  exists f rs m', rank m q cs = Ok (rs, m') /\ metric_reached a o m'
  /\ (forall m0 c, metric_reached a o m0 -> exists m0', metric_distance m0 q c = Ok (f c, m0'))
  /\ Permutation rs (found_in f cs)
  /\ StronglySorted (fun x y => distance_cmp (snd x) (snd y) <> Gt) rs
  /\ forall d, filter (fun e => distance_eqb (snd e) d) rs = filter (fun e => distance_eqb (snd e) d) (found_in f cs).
Proof.
  intros a o m q cs Hm Hq.
  assert (F : exists f : str -> option distance, forall m0 c, metric_reached a o m0 ->
    exists m', metric_reached a o m' /\ metric_distance m0 q c = Ok (f c, m')).
  { apply query_reached_inv in Hq as Hq'. destruct Hq' as [(s & ->)|(s & ->)].
    - exists (fun c => option_map from_score (fst (outcome a o (parse_spec s) c))). intros m0 c H0.
      pose proof (metric_reached_options _ _ _ H0) as Ho.
      destruct (metric_spec a o m0 (parse_spec s) c [] Ho) as [(m' & _ & E) _]; [apply parse_spec_ok..|].
      exists m'. split; [|exact E]. econstructor; eassumption.
    - exists (fun c => option_map from_score (fst (raw_outcome a o s c))). intros m0 c H0.
      pose proof (metric_reached_options _ _ _ H0) as Ho.
      destruct (metric_raw_spec a o m0 s c [] Ho) as [(m' & _ & E) _]. exists m'. split; [|exact E]. econstructor; eassumption. }
  destruct F as [f F]. destruct (filter_all_spec a o q f F cs m Hm) as (m' & H' & E).
  destruct (sort_spec (found_in f cs)) as (P & S & St).
  exists f, (sort_by_distance (found_in f cs)), m'. unfold rank. rewrite E. cbn [bind]. split; [reflexivity|].
  split; [exact H'|]. split; [|auto]. intros m0 c H0. destruct (F m0 c H0) as (m0' & _ & E0). eauto.
Qed.

(** The order of the candidates only matters for those of equal distance. *)
Lemma sorted_perm_eq (l l' : list Z) : StronglySorted Z.ge l -> StronglySorted Z.ge l' -> Permutation l l' -> l = l'.
Proof.
  revert l'. induction l as [|x l IH]; intros [|y l'] S S' P.
  - reflexivity.
  - apply Permutation_nil in P. discriminate.
  - apply Permutation_sym, Permutation_nil in P. discriminate.
  - inversion S as [|? ? S1 F1]; subst. inversion S' as [|? ? S1' F1']; subst.
    assert (x = y).
    { rewrite Forall_forall in F1, F1'. assert (A : In x (y :: l')) by (eapply Permutation_in; [exact P|left; reflexivity]).
      assert (B : In y (x :: l)) by (eapply Permutation_in; [apply Permutation_sym, P|left; reflexivity]).
      destruct A as [A|A]; [congruence|]. destruct B as [B|B]; [congruence|]. specialize (F1 _ B). specialize (F1' _ A). lia. }
    subst y. f_equal. apply IH; auto. eapply Permutation_cons_inv. exact P.
Qed.

Lemma flat_map_perm {A B} (f : A -> list B) l l' : Permutation l l' -> Permutation (flat_map f l) (flat_map f l').
Proof.
  induction 1; cbn; [constructor|apply Permutation_app_head; assumption| |eapply Permutation_trans; eassumption].
  rewrite !app_assoc. apply Permutation_app_tail. apply Permutation_app_comm.
Qed.

Lemma scores_sorted rs : StronglySorted le_dist rs -> StronglySorted Z.ge (map (fun e => into_score (snd e)) rs).
Proof.
  induction 1 as [|x l _ IH Hx]; cbn [map]; constructor; [exact IH|]. rewrite Forall_map. eapply Forall_impl; [|exact Hx].
  cbv beta. intros y Hy. rewrite cmp_score in Hy. lia.
Qed.

Lemma ranking_order : forall a o m1 m2 q cs1 cs2 rs1 rs2 m1' m2',
  metric_reached a o m1 -> metric_reached a o m2 -> query_reached q -> Permutation cs1 cs2 ->
  rank m1 q cs1 = Ok (rs1, m1') -> rank m2 q cs2 = Ok (rs2, m2') ->
  Permutation rs1 rs2 /\ map snd rs1 = map snd rs2.
Proof.
  intros a o m1 m2 q cs1 cs2 rs1 rs2 m1' m2' H1 H2 Hq P E1 E2.
  destruct (ranking a o m1 q cs1 H1 Hq) as (f1 & r1 & n1 & R1 & _ & F1 & P1 & S1 & _).
  destruct (ranking a o m2 q cs2 H2 Hq) as (f2 & r2 & n2 & R2 & _ & F2 & P2 & S2 & _).
  assert (r1 = rs1) by congruence. assert (r2 = rs2) by congruence. subst r1 r2.
  assert (Ef : forall c, f1 c = f2 c).
  { intros c. destruct (F1 m1 c H1) as (x & X). destruct (F2 m1 c H1) as (y & Y). congruence. }
  assert (Q : Permutation rs1 rs2).
  { rewrite P1, P2. unfold found_in. rewrite (flat_map_perm _ _ _ P). erewrite flat_map_ext; [apply Permutation_refl|].
    intros c. cbv beta. rewrite Ef. reflexivity. }
  split; [exact Q|].
  pose proof (sorted_perm_eq _ _ (scores_sorted _ S1) (scores_sorted _ S2) (Permutation_map _ Q)) as E.
  assert (G : forall l, map snd l = map from_score (map (fun e : str * distance => into_score (snd e)) l)).
  { intros l. rewrite map_map. apply map_ext. intros [c [d]]. reflexivity. }
  rewrite !G, E. reflexivity.
Qed.

(** ** The fuzz target *)

Lemma str_index_boundary c r : boundary c (fst r) -> boundary c (snd r) -> fst r <= snd r -> str_index c r = Ok tt.
Proof.
  intros [k Hk] [n Hn] Hle. unfold str_index. rewrite (proj2 (Nat.leb_le _ _) Hle).
  assert (B : forall k, is_char_boundary (encode c) (byte_len (firstn k c)) = true).
  { intros j. rewrite <- (firstn_skipn j c) at 1. apply boundary_prefix. }
  rewrite Hk, Hn, !B. reflexivity.
Qed.

Definition all_indexable (c : str) (rs : list (nat * nat)) : Prop :=
  Forall (fun r => boundary c (fst r) /\ boundary c (snd r) /\ fst r <= snd r) rs.

Lemma index_all_ok c rs : all_indexable c rs -> index_all c rs = Ok tt.
Proof.
  induction 1 as [|r rs (H1 & H2 & H3) _ IH]; [reflexivity|]. cbn [index_all].
  rewrite str_index_boundary by assumption. exact IH.
Qed.

Lemma set_options_reached a o m cs b sch : metric_reached a o m -> metric_reached a (Options cs b sch) (set_options m cs b sch).
Proof.
  intros H. unfold set_options. apply (mr_norm a _ _ b) in H. apply (mr_case a _ _ cs) in H. apply (mr_scheme a _ _ sch) in H. exact H.
Qed.

Lemma search_indexable a o m q c buf : metric_reached a o m -> query_reached q -> all_indexable c buf ->
  exists d m' buf', metric_distance_and_ranges m q c buf = Ok (d, m', buf') /\ metric_reached a o m' /\ all_indexable c buf'.
Proof.
  intros Hm Hq Hb. destruct (reached_result a o q c Hq) as (d & new & [Hc _] & Hbd & R).
  destruct (R m Hm) as [_ R']. destruct (R' buf) as (m' & H' & E). exists d, m', (buf ++ new).
  split; [exact E|]. split; [exact H'|]. apply Forall_app. split; [exact Hb|].
  unfold on_boundaries in Hbd. rewrite Forall_forall in *. intros r Hr. specialize (Hc r Hr). destruct (Hbd r Hr). repeat split; auto. lia.
Qed.

Lemma fuzz_step_ok q c cs b sch o1 o2 m1 m2 buf : metric_reached AlgoV1 o1 m1 -> metric_reached AlgoV2 o2 m2 ->
  query_reached q -> all_indexable c buf ->
  exists m1' m2' buf', fuzz_step q c cs b sch (m1, m2, buf) = Ok (m1', m2', buf')
    /\ metric_reached AlgoV1 (Options cs b sch) m1' /\ metric_reached AlgoV2 (Options cs b sch) m2' /\ all_indexable c buf'.
Proof.
  intros H1 H2 Hq Hb. unfold fuzz_step.
  destruct (search_indexable _ _ _ q c buf (set_options_reached _ _ _ cs b sch H1) Hq Hb) as (d1 & m1' & buf1 & -> & H1' & Hb1).
  cbn [bind]. rewrite index_all_ok by exact Hb1. cbn [bind].
  destruct (search_indexable _ _ _ q c buf1 (set_options_reached _ _ _ cs b sch H2) Hq Hb1) as (d2 & m2' & buf2 & -> & H2' & Hb2).
  cbn [bind]. rewrite index_all_ok by exact Hb2. cbn [bind]. eauto 8.
Qed.

Lemma fuzz_target_ok : forall s c, exists m1 m2 ranges, fuzz_target s c = Ok (m1, m2, ranges).
Proof.
  intros s c. unfold fuzz_target. destruct (parse_correct parser_new s) as (ps' & E & _). rewrite E. cbn [bind].
  assert (Hq : query_reached (query_of (parse_spec s))) by (econstructor; [constructor|exact E]).
  assert (G : forall os o1 o2 m1 m2 buf, metric_reached AlgoV1 o1 m1 -> metric_reached AlgoV2 o2 m2 -> all_indexable c buf ->
    exists m1' m2' buf', fuzz_loop (query_of (parse_spec s)) c os (m1, m2, buf) = Ok (m1', m2', buf')).
  { induction os as [|[[cs b] sch] os IH]; intros o1 o2 m1 m2 buf H1 H2 Hb; [eexists _, _, _; reflexivity|]. cbn [fuzz_loop].
    destruct (fuzz_step_ok _ c cs b sch o1 o2 m1 m2 buf H1 H2 Hq Hb) as (m1' & m2' & buf' & -> & H1' & H2' & Hb').
    cbn [bind]. eapply IH; eassumption. }
  eapply G; [constructor|constructor|constructor].
Qed.

(** ** Debug *)

Lemma debug_options : forall a o m, metric_reached a o m ->
  metric_debug m = Some (a, opt_norm o, opt_case o, opt_scheme o).
Proof.
  intros a o m H. apply metric_reached_options in H. destruct a, m as [m|m]; try contradiction; destruct H as (H1 & H2 & H3);
    unfold metric_debug; rewrite H1, H2, H3; destruct (opt_scheme o); reflexivity.
Qed.

Lemma debug_determines : forall a o a' o' m m' q c buf, metric_reached a o m -> metric_reached a' o' m' -> query_reached q ->
  metric_debug m = metric_debug m' ->
  exists d new n n', metric_distance_and_ranges m q c buf = Ok (d, n, buf ++ new) /\ metric_distance_and_ranges m' q c buf = Ok (d, n', buf ++ new).
Proof.
  intros a o a' o' m m' q c buf Hm Hm' Hq E. rewrite (debug_options a o m Hm), (debug_options a' o' m' Hm') in E.
  assert (a' = a) by congruence. assert (o' = o) by (destruct o, o'; cbn in *; congruence). subst.
  destruct (reached_result a o q c Hq) as (d & new & _ & _ & R). destruct (R m Hm) as [_ R1]. destruct (R m' Hm') as [_ R2].
  destruct (R1 buf) as (n & _ & E1). destruct (R2 buf) as (n' & _ & E2). eauto 8.
Qed.

End WithUnicode.
