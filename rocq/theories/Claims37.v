(** Proofs for C104: what the scoring scheme does not affect. *)
From Coq Require Import Permutation Sorted.
From Verif Require Import Prelude Chars Normalize Utils Candidate MatchedRanges Query Parser Scoring
  Slab Fzf FzfV1 FzfV2 Api Usage History Spec PreludeProofs CharsProofs CandidateProofs MatchedRangesProofs ParserProofs
  ScoreProofs ExactProofs ShapeProofs V1Proofs V2Proofs V2Fuzzy ApiProofs AcceptProofs RangeProofs WordsProofs Claims1 Claims2 Claims3 Claims7.
Local Open Scope nat_scope.

Section Same.
Context {UC : unicode}.
Variables (a a' : algo) (o o' : options) (c : str).
Hypothesis Hcase : opt_case o = opt_case o'.
Hypothesis Hnorm : opt_norm o = opt_norm o'.

Definition alike_some {A} (x y : option A) : Prop := opt_none x = opt_none y.

Lemma some_iff {A} (x y : option A) : ((exists r, x = Some r) <-> (exists r, y = Some r)) -> alike_some x y.
Proof.
  unfold alike_some. destruct x as [x|], y as [y|]; cbn; intros [H1 H2]; try reflexivity.
  - destruct (H1 (ex_intro _ x eq_refl)). discriminate.
  - destruct (H2 (ex_intro _ y eq_refl)). discriminate.
Qed.

Lemma fuzzy_alike text : text <> [] -> alike_some (fuzzy_outcome a o text c) (fuzzy_outcome a' o' text c).
Proof.
  intros Ht. apply some_iff. rewrite <- (fuzzy_outcome_iff o a text c Ht), <- (fuzzy_outcome_iff o' a' text c Ht).
  rewrite Hcase, Hnorm. reflexivity.
Qed.

Lemma place_same t : t_kind t <> KExact -> place_found o t c = place_found o' t c.
Proof. intros Hk. unfold place_found. rewrite Hcase, Hnorm. destruct (t_kind t); congruence. Qed.

Lemma base_alike t : t_text t <> [] -> alike_some (base_outcome a o t c) (base_outcome a' o' t c).
Proof.
  intros Ht. destruct (t_kind t) eqn:K.
  - unfold base_outcome. rewrite K. apply fuzzy_alike. exact Ht.
  - apply some_iff. rewrite !base_outcome_place by congruence. unfold place_found. rewrite K.
    rewrite <- (exact_find_iff o t c Ht), <- (exact_find_iff o' t c Ht), Hcase, Hnorm. reflexivity.
  - apply some_iff. rewrite !base_outcome_place by congruence. rewrite place_same by congruence. reflexivity.
  - apply some_iff. rewrite !base_outcome_place by congruence. rewrite place_same by congruence. reflexivity.
  - apply some_iff. rewrite !base_outcome_place by congruence. rewrite place_same by congruence. reflexivity.
Qed.

Lemma term_alike t : t_text t <> [] -> alike_some (term_outcome a o t c) (term_outcome a' o' t c).
Proof.
  intros Ht. pose proof (base_alike t Ht) as H. unfold term_outcome. destruct (t_neg t); [|exact H].
  unfold alike_some in *. destruct (base_outcome a o t c), (base_outcome a' o' t c); try discriminate; reflexivity.
Qed.

Lemma either_alike g : Forall (fun t => t_text t <> []) g -> alike_some (either_outcome a o g c) (either_outcome a' o' g c).
Proof.
  induction 1 as [|t g Ht _ IH]; [reflexivity|]. cbn [either_outcome]. pose proof (term_alike t Ht) as H. unfold alike_some in *.
  destruct (term_outcome a o t c), (term_outcome a' o' t c); try discriminate; [reflexivity|exact IH].
Qed.

Lemma all_alike q : texts_ok q -> alike_some (fst (all_outcome a o q c)) (fst (all_outcome a' o' q c)).
Proof.
  induction 1 as [|g q Hg _ IH]; [reflexivity|]. cbn [all_outcome]. pose proof (either_alike g Hg) as H. unfold alike_some in *.
  destruct (either_outcome a o g c) as [[s r]|], (either_outcome a' o' g c) as [[s' r']|]; try discriminate; [|reflexivity].
  destruct (all_outcome a o q c) as [[t|] x], (all_outcome a' o' q c) as [[t'|] x']; try discriminate; reflexivity.
Qed.

Lemma fuzzy_case_alike text : text <> [] ->
  alike_some (fst (match fuzzy_outcome a o text c with Some (sc, rs) => (Some sc, rs) | None => (None, []) end))
    (fst (match fuzzy_outcome a' o' text c with Some (sc, rs) => (Some sc, rs) | None => (None, []) end)).
Proof.
  intros Ht. pose proof (fuzzy_alike text Ht) as H. unfold alike_some in *.
  destruct (fuzzy_outcome a o text c) as [[s r]|], (fuzzy_outcome a' o' text c) as [[s' r']|]; try discriminate; reflexivity.
Qed.

Lemma outcome_alike q : texts_ok q -> alike_some (fst (outcome a o q c)) (fst (outcome a' o' q c)).
Proof.
  intros T. destruct (outcome_cases q) as [(neg & text & ->)|[E _]]; [|rewrite !E; apply all_alike; exact T].
  cbn [outcome]. apply fuzzy_case_alike. inversion T as [|? ? T1]; subst. inversion T1; subst. assumption.
Qed.

Lemma raw_alike text : alike_some (fst (raw_outcome a o text c)) (fst (raw_outcome a' o' text c)).
Proof. destruct text as [|x t]; [reflexivity|]. apply (fuzzy_case_alike (x :: t)). discriminate. Qed.

(** ** Ranges *)

(** The place does not depend on the scheme. *)
Definition fixed_place (t : term) : Prop := t_neg t = true \/ (t_kind t = KFuzzy /\ a = AlgoV1 /\ a' = AlgoV1)
  \/ t_kind t = KPrefix \/ t_kind t = KSuffix \/ t_kind t = KEqual.

Lemma fuzzy_ranges_same text : a = AlgoV1 -> a' = AlgoV1 ->
  option_map snd (fuzzy_outcome a o text c) = option_map snd (fuzzy_outcome a' o' text c).
Proof. intros -> ->. unfold fuzzy_outcome. rewrite Hcase, Hnorm. destruct (v1_positions _ _ _ _); reflexivity. Qed.

Lemma term_ranges_same t : t_text t <> [] -> fixed_place t ->
  option_map snd (term_outcome a o t c) = option_map snd (term_outcome a' o' t c).
Proof.
  intros Ht F. pose proof (base_alike t Ht) as H. unfold term_outcome. destruct F as [F|F].
  - rewrite F. unfold alike_some in H. destruct (base_outcome a o t c), (base_outcome a' o' t c); try discriminate; reflexivity.
  - assert (E : option_map snd (base_outcome a o t c) = option_map snd (base_outcome a' o' t c)).
    { unfold base_outcome. destruct F as [(K & A & A')|F].
      - rewrite K. apply fuzzy_ranges_same; assumption.
      - assert (K : t_kind t <> KExact) by (destruct F as [F|[F|F]]; rewrite F; discriminate).
        rewrite (place_same t K). destruct F as [F|[F|F]]; rewrite F; destruct (place_found o' t c); reflexivity. }
    destruct (t_neg t); [|exact E].
    destruct (base_outcome a o t c), (base_outcome a' o' t c); try discriminate; reflexivity.
Qed.

Lemma either_ranges_same g : Forall (fun t => t_text t <> []) g -> Forall fixed_place g ->
  option_map snd (either_outcome a o g c) = option_map snd (either_outcome a' o' g c).
Proof.
  induction 1 as [|t g Ht _ IH]; intros F; [reflexivity|]. apply Forall_cons_iff in F as [F1 F2]. cbn [either_outcome].
  pose proof (term_ranges_same t Ht F1) as H.
  destruct (term_outcome a o t c), (term_outcome a' o' t c); try discriminate; [exact H|apply IH; exact F2].
Qed.

Lemma all_ranges_same q : texts_ok q -> Forall (Forall fixed_place) q ->
  snd (all_outcome a o q c) = snd (all_outcome a' o' q c).
Proof.
  induction 1 as [|g q Hg _ IH]; intros F; [reflexivity|]. apply Forall_cons_iff in F as [F1 F2]. cbn [all_outcome].
  pose proof (either_ranges_same g Hg F1) as H. specialize (IH F2).
  destruct (either_outcome a o g c) as [[s r]|], (either_outcome a' o' g c) as [[s' r']|]; try discriminate; [|reflexivity].
  cbn in H. injection H as ->.
  destruct (all_outcome a o q c) as [t x], (all_outcome a' o' q c) as [t' x']. cbn [snd] in *. congruence.
Qed.

Lemma fuzzy_case_ranges text : a = AlgoV1 -> a' = AlgoV1 ->
  snd (match fuzzy_outcome a o text c with Some (sc, rs) => (Some sc, rs) | None => (None, []) end)
  = snd (match fuzzy_outcome a' o' text c with Some (sc, rs) => (Some sc, rs) | None => (None, []) end).
Proof.
  intros A A'. pose proof (fuzzy_ranges_same text A A') as H.
  destruct (fuzzy_outcome a o text c) as [[s r]|], (fuzzy_outcome a' o' text c) as [[s' r']|]; try discriminate; [|reflexivity].
  cbn in *. congruence.
Qed.

End Same.

Section Claims.
Context {UC : unicode}.

Lemma c104_accepts : forall a a' o o' m m' q c,
  metric_reached a o m -> metric_reached a' o' m' -> query_reached q ->
  opt_case o = opt_case o' -> opt_norm o = opt_norm o' ->
  exists d d' m1 m1', metric_distance m q c = Ok (d, m1) /\ metric_distance m' q c = Ok (d', m1')
    /\ (d = None <-> d' = None).
Proof.
  intros a a' o o' m m' q c H1 H2 Hq Hc Hn. apply metric_reached_options in H1, H2.
  assert (G : forall x y, opt_none x = opt_none y ->
            (option_map from_score x = None <-> option_map from_score y = None)).
  { intros [x|] [y|] E; try discriminate; split; cbn; intros; try discriminate; reflexivity. }
  apply query_reached_inv in Hq as [(s & ->)|(s & ->)].
  - destruct (parse_spec_ok s) as [P1 P2].
    destruct (metric_spec a o m (parse_spec s) c [] H1 P1 P2) as [(m1' & _ & E1) _].
    destruct (metric_spec a' o' m' (parse_spec s) c [] H2 P1 P2) as [(m2' & _ & E2) _].
    do 4 eexists. split; [exact E1|]. split; [exact E2|]. apply G. apply outcome_alike; assumption.
  - destruct (metric_raw_spec a o m s c [] H1) as [(m1' & _ & E1) _].
    destruct (metric_raw_spec a' o' m' s c [] H2) as [(m2' & _ & E2) _].
    do 4 eexists. split; [exact E1|]. split; [exact E2|]. apply G. apply raw_alike; assumption.
Qed.

Lemma c104_v1 : forall o o' m m' ps s c buf r r' buf1 buf1',
  metric_reached AlgoV1 o m -> metric_reached AlgoV1 o' m' ->
  opt_case o = opt_case o' -> opt_norm o = opt_norm o' ->
  Forall (Forall (fun t => t_neg t = true \/ t_kind t <> KExact)) (parse_spec s) ->
  find_ranges ps m s c buf = Ok (r, buf1) -> find_ranges ps m' s c buf = Ok (r', buf1') -> buf1 = buf1'.
Proof.
  intros o o' m m' ps s c buf r r' buf1 buf1' H1 H2 Hc Hn F E1 E2. apply metric_reached_options in H1, H2.
  rewrite (find_ranges_spec AlgoV1 o) in E1 by exact H1. rewrite (find_ranges_spec AlgoV1 o') in E2 by exact H2.
  enough (snd (outcome AlgoV1 o (parse_spec s) c) = snd (outcome AlgoV1 o' (parse_spec s) c)) by congruence.
  clear E1 E2. destruct (outcome_cases (parse_spec s)) as [(neg & text & Eq)|[Eo _]].
  - rewrite Eq. cbn [outcome]. apply fuzzy_case_ranges; auto.
  - rewrite !Eo. apply all_ranges_same; [exact Hc|exact Hn|apply parse_spec_ok|].
    eapply Forall_impl; [|exact F]. intros g Hg. eapply Forall_impl; [|exact Hg]. intros t [Ht|Ht]; [left; exact Ht|right].
    destruct (t_kind t); auto. congruence.
Qed.

Lemma c104_anchored : forall a a' o o' m m' ps s c buf r r' buf1 buf1',
  metric_reached a o m -> metric_reached a' o' m' ->
  opt_case o = opt_case o' -> opt_norm o = opt_norm o' -> ~ lone_negated_fuzzy (parse_spec s) ->
  Forall (Forall (fun t => t_neg t = true \/ (t_kind t <> KExact /\ t_kind t <> KFuzzy))) (parse_spec s) ->
  find_ranges ps m s c buf = Ok (r, buf1) -> find_ranges ps m' s c buf = Ok (r', buf1') -> buf1 = buf1'.
Proof.
  intros a a' o o' m m' ps s c buf r r' buf1 buf1' H1 H2 Hc Hn Hl F E1 E2. apply metric_reached_options in H1, H2.
  rewrite (find_ranges_spec a o) in E1 by exact H1. rewrite (find_ranges_spec a' o') in E2 by exact H2.
  enough (snd (outcome a o (parse_spec s) c) = snd (outcome a' o' (parse_spec s) c)) by congruence.
  clear E1 E2. destruct (outcome_cases (parse_spec s)) as [(neg & text & Eq)|[Eo _]].
  - exfalso. rewrite Eq in *. apply Forall_inv, Forall_inv in F. cbn in F.
    destruct F as [->|[_ F]]; [apply Hl; eexists; reflexivity|congruence].
  - rewrite !Eo. apply all_ranges_same; [exact Hc|exact Hn|apply parse_spec_ok|].
    eapply Forall_impl; [|exact F]. intros g Hg. eapply Forall_impl; [|exact Hg]. intros t [Ht|[Hx Hf]]; [left; exact Ht|right].
    destruct (t_kind t); auto; congruence.
Qed.

Lemma c104_not_extended : forall o o' m m' ps s c buf r r' buf1 buf1',
  metric_reached AlgoV1 o m -> metric_reached AlgoV1 o' m' ->
  opt_case o = opt_case o' -> opt_norm o = opt_norm o' ->
  find_ranges_raw ps m s c buf = Ok (r, buf1) -> find_ranges_raw ps m' s c buf = Ok (r', buf1') -> buf1 = buf1'.
Proof.
  intros o o' m m' ps s c buf r r' buf1 buf1' H1 H2 Hc Hn E1 E2. apply metric_reached_options in H1, H2.
  rewrite (find_ranges_raw_spec AlgoV1 o) in E1 by exact H1. rewrite (find_ranges_raw_spec AlgoV1 o') in E2 by exact H2.
  destruct (_ <=? _); [|discriminate].
  enough (snd (raw_outcome AlgoV1 o s c) = snd (raw_outcome AlgoV1 o' s c)) by congruence.
  destruct s as [|x t]; [reflexivity|]. apply (fuzzy_case_ranges AlgoV1 AlgoV1); auto.
Qed.

Lemma c104_ranking : forall a a' o o' m m' q cs rs rs' m1 m1',
  metric_reached a o m -> metric_reached a' o' m' -> query_reached q ->
  opt_case o = opt_case o' -> opt_norm o = opt_norm o' ->
  rank m q cs = Ok (rs, m1) -> rank m' q cs = Ok (rs', m1') -> Permutation (map fst rs) (map fst rs').
Proof.
  intros a a' o o' m m' q cs rs rs' m1 m1' Hm Hm' Hq Hc Hn E E'.
  destruct (ranking a o m q cs Hm Hq) as (f & rs0 & m0 & E0 & _ & F & P & _). rewrite E in E0. injection E0 as <- <-.
  destruct (ranking a' o' m' q cs Hm' Hq) as (f' & rs0 & m0 & E0 & _ & F' & P' & _). rewrite E' in E0. injection E0 as <- <-.
  rewrite P, P'. enough (map fst (found_in f cs) = map fst (found_in f' cs)) as -> by reflexivity.
  clear E E' P P'. induction cs as [|c cs IH]; [reflexivity|]. cbn [found_in flat_map].
  destruct (c104_accepts a a' o o' m m' q c Hm Hm' Hq Hc Hn) as (d & d' & x & x' & D & D' & H).
  destruct (F m c Hm) as (y & D1). destruct (F' m' c Hm') as (y' & D1').
  rewrite D in D1. injection D1 as <- _. rewrite D' in D1'. injection D1' as <- _.
  destruct d as [d|], d' as [d'|]; cbn; unfold found_in in IH; rewrite ?IH; try reflexivity.
  - destruct H as [_ H]. discriminate (H eq_refl).
  - destruct H as [H _]. discriminate (H eq_refl).
Qed.

End Claims.
