(** Proofs of C74: the vectors which a metric owns. *)
From Verif Require Import Prelude Chars Normalize Utils Candidate MatchedRanges Query Parser Scoring
  Slab Fzf FzfV1 FzfV2 Api History
  Spec PreludeProofs CharsProofs MatchedRangesProofs CandidateProofs ScoreProofs ParserProofs V1Proofs V2Proofs V2Fuzzy ApiProofs
  Claims2 Claims3 CostBounds Claims14.
Local Open Scope nat_scope.

(** ** The greater of two at every position *)

Lemma maxes_nil_r a : maxes a [] = a.
Proof. destruct a; reflexivity. Qed.

Lemma maxes_assoc : forall a b c, maxes a (maxes b c) = maxes (maxes a b) c.
Proof.
  induction a as [|x a IH]; intros [|y b] [|z c]; cbn [maxes]; try reflexivity. rewrite IH, Nat.max_assoc. reflexivity.
Qed.

Lemma maxes_comm : forall a b, maxes a b = maxes b a.
Proof. induction a as [|x a IH]; intros [|y b]; cbn [maxes]; try reflexivity. rewrite IH, Nat.max_comm. reflexivity. Qed.

Lemma maxes_same a : maxes a a = a.
Proof. induction a as [|x a IH]; cbn [maxes]; [reflexivity|]. rewrite IH, Nat.max_id. reflexivity. Qed.

(** [b] is at least [a] at every position. *)
Definition under (a b : list nat) : Prop := maxes a b = b.

Lemma under_refl a : under a a.
Proof. apply maxes_same. Qed.

Lemma under_trans a b c : under a b -> under b c -> under a c.
Proof. unfold under. intros H1 H2. rewrite <- H2 at 1. rewrite maxes_assoc, H1. exact H2. Qed.

Lemma under_l a b : under a (maxes a b).
Proof. unfold under. rewrite maxes_assoc, maxes_same. reflexivity. Qed.

Lemma under_r a b : under b (maxes a b).
Proof. rewrite maxes_comm. apply under_l. Qed.

Lemma maxes_under a b c : under a c -> under b c -> under (maxes a b) c.
Proof. unfold under. intros H1 H2. rewrite <- maxes_assoc, H2. exact H1. Qed.

Lemma under_nil b : under [] b.
Proof. destruct b; reflexivity. Qed.

Lemma under_cons x a y b : x <= y -> under a b -> under (x :: a) (y :: b).
Proof. unfold under. intros H E. cbn [maxes]. rewrite E, Nat.max_r by exact H. reflexivity. Qed.

Lemma under_le : forall a b, length a = length b -> under a b -> Forall2 le a b.
Proof.
  unfold under. induction a as [|x a IH]; intros [|y b] L; try discriminate; [constructor|].
  cbn [maxes]. intros E. injection E as E1 E2. constructor; [lia|]. apply IH; [cbn in L; lia|exact E2].
Qed.

(** ** What a search needs *)
Section Sizes.
Context {UC : unicode} {St : Type}.
Variables (alloc_chars : St -> str -> res (list char * St)) (st_char_eq : St -> pattern -> char_eq_fn)
  (st_scheme : St -> scheme)
  (fuzzy : bool -> St -> pattern -> candidate -> mranges -> res (option score * St * mranges)).
Variables (a : algo) (o : options).
Variable Inv : St -> Prop.
Hypothesis Halloc : forall st s, Inv st -> exists st', Inv st' /\ alloc_chars st s = Ok (s, st').
Hypothesis Heq : forall st t, Inv st ->
  st_char_eq st (pat_of t) = char_eq (sensitive_for (opt_case o) (t_text t)) (opt_norm o).
Hypothesis Hsch : forall st, Inv st -> st_scheme st = into_inner (opt_scheme o).
Hypothesis Hfuzzy : forall (R : bool) st t c pre own,
  Inv st -> cand_ok c -> t_text t <> [] -> chain 0 own ->
  exists st', Inv st' /\ fuzzy R st (pat_of t) c (mk pre own)
    = Ok (match fuzzy_outcome a o (t_text t) (cand_slice c) with
          | None => (None, st', mk pre own)
          | Some (sc, rs) => (Some sc, st', mk pre (if R then inserts own rs else own))
          end).
(** The sizes of the vectors in a state, what a fuzzy term needs of a candidate, and what the
    characters of a candidate need. *)
Variables (size : St -> list nat) (fneed : str -> str -> list nat) (cneed : str -> list nat).
Hypothesis Hsize : forall (R : bool) st t c pre own x st' r,
  Inv st -> cand_ok c -> t_text t <> [] -> chain 0 own ->
  fuzzy R st (pat_of t) c (mk pre own) = Ok (x, st', r) ->
  size st' = maxes (size st) (fneed (t_text t) (cand_slice c)).
Hypothesis Hasize : forall st s x st', Inv st -> alloc_chars st s = Ok (x, st') -> size st' = maxes (size st) (cneed s).

Definition term_need (t : term) (l : str) : list nat :=
  match t_kind t with KFuzzy => fneed (t_text t) l | _ => [] end.

Fixpoint either_need (g : list term) (l : str) : list nat :=
  match g with
  | [] => []
  | t :: g' =>
      maxes (term_need t l) (match term_outcome a o t l with Some _ => [] | None => either_need g' l end)
  end.

Fixpoint all_need (q : cnf) (l : str) : list nat :=
  match q with
  | [] => []
  | g :: q' => maxes (either_need g l) (match either_outcome a o g l with Some _ => all_need q' l | None => [] end)
  end.

Definition search_need (q : cnf) (s : str) : list nat :=
  match q with
  | [] => []
  | _ => maxes (if str_is_ascii s then [] else cneed s) (all_need q s)
  end.

Lemma score_sizes (R : bool) st t c pre own x st' r :
  Inv st -> cand_ok c -> t_text t <> [] -> chain 0 own ->
  fzf_score st_char_eq st_scheme fuzzy R st (pat_of t) c (mk pre own) = Ok (x, st', r) ->
  size st' = maxes (size st) (term_need t (cand_slice c)).
Proof using Hsize.
  intros HI Hc Ht Ho E. unfold fzf_score in E. apply ok_bind in E as ([[sc st1] r1] & E1 & E2).
  assert (st1 = st') as -> by (destruct sc, (p_is_inverse _); injection E2 as _ <- _; reflexivity).
  unfold term_need. change (p_match_type (pat_of t)) with (mt_of (t_kind t)) in E1.
  destruct (t_kind t); cbn [mt_of] in E1.
  1: eapply Hsize; eauto.
  all: apply ok_bind in E1 as ([y z] & _ & E1); injection E1 as _ <- _; rewrite maxes_nil_r; reflexivity.
Qed.

Lemma condition_sizes (R : bool) c pre : cand_ok c -> forall g st own x st' r,
  Forall (fun t => t_text t <> []) g -> Inv st -> chain 0 own ->
  score_condition st_char_eq st_scheme fuzzy R st (map pat_of g) c (mk pre own) = Ok (x, st', r) ->
  size st' = maxes (size st) (either_need g (cand_slice c)).
Proof using Heq Hsch Hfuzzy Hsize.
  intros Hc. induction g as [|t g IH]; intros st own x st' r Hg HI Ho E.
  - injection E as _ <- _. cbn [either_need]. rewrite maxes_nil_r. reflexivity.
  - inversion Hg as [|? ? Ht Hg']; subst. cbn [map score_condition either_need] in E |- *.
    destruct (fzf_score_spec st_char_eq st_scheme fuzzy a o Inv Heq Hsch Hfuzzy R st t c pre own HI Hc Ht Ho)
      as (st1 & HI1 & E1). rewrite E1 in E. cbn [bind] in E.
    destruct (term_outcome a o t (cand_slice c)) as [[sc rs]|].
    + injection E as _ <- _. rewrite maxes_nil_r. eapply score_sizes; eauto.
    + rewrite maxes_assoc, <- (score_sizes R st t c pre own _ _ _ HI Hc Ht Ho E1). eapply IH; eauto.
Qed.

Lemma conditions_sizes (R : bool) c pre : cand_ok c -> forall q st own total x st' r,
  texts_ok q -> Inv st -> chain 0 own ->
  score_conditions st_char_eq st_scheme fuzzy R st (map (map pat_of) q) c total (mk pre own) = Ok (x, st', r) ->
  size st' = maxes (size st) (all_need q (cand_slice c)).
Proof using Heq Hsch Hfuzzy Hsize.
  intros Hc. induction q as [|g q IH]; intros st own total x st' r Hq HI Ho E.
  - injection E as _ <- _. cbn [all_need]. rewrite maxes_nil_r. reflexivity.
  - inversion Hq as [|? ? Hg Hq']; subst. cbn [map score_conditions all_need] in E |- *.
    destruct (score_condition_spec st_char_eq st_scheme fuzzy a o Inv Heq Hsch Hfuzzy R c pre Hc g st own Hg HI Ho)
      as (st1 & HI1 & E1). rewrite E1 in E. cbn [bind] in E.
    destruct (either_outcome a o g (cand_slice c)) as [[sc rs]|] eqn:Eg;
      pose proof (condition_sizes R c pre Hc g st own _ _ _ Hg HI Ho E1) as S1.
    + rewrite maxes_assoc, <- S1. eapply IH; [exact Hq'|exact HI1| |exact E].
      destruct R; [|exact Ho]. apply inserts_chain; [|exact Ho]. eapply either_outcome_proper; eauto.
    + injection E as _ <- _. rewrite maxes_nil_r. exact S1.
Qed.

Lemma search_sizes (R : bool) st q s buf x st' buf' :
  Inv st -> texts_ok q -> Forall (fun g => g <> []) q ->
  fzf_distance alloc_chars st_char_eq st_scheme fuzzy R st (query_of q) s buf = Ok (x, st', buf') ->
  size st' = maxes (size st) (search_need q s).
Proof using Halloc Heq Hsch Hfuzzy Hsize Hasize.
  intros HI Hq Hne E. unfold fzf_distance in E.
  destruct (q_is_empty (query_of q)) eqn:Ee.
  { apply empty_query in Ee; auto. subst. injection E as _ <- _. cbn [search_need]. rewrite maxes_nil_r. reflexivity. }
  assert (Eq : search_need q s = maxes (if str_is_ascii s then [] else cneed s) (all_need q s)).
  { destruct q; [discriminate Ee|reflexivity]. }
  rewrite Eq, maxes_assoc.
  destruct (cand_made alloc_chars Inv Halloc st s HI) as (c & st1 & HI1 & Hc & Hs & E1).
  assert (S1 : size st1 = maxes (size st) (if str_is_ascii s then [] else cneed s)).
  { destruct (str_is_ascii s).
    - injection E1 as _ <-. rewrite maxes_nil_r. reflexivity.
    - apply ok_bind in E1 as ([y z] & E2 & E1). injection E1 as _ <-. eapply Hasize; eauto. }
  rewrite E1 in E. cbn [bind] in E. rewrite <- S1, <- Hs. clear E1 S1 Eq.
  unfold fzf_search in E. rewrite mk_nil in E. apply ok_bind in E as ([[sc st2] r2] & E1 & E).
  injection E as _ <- _.
  destruct (outcome_cases q) as [(neg & text & ->)|[_ Eq]].
  - cbn [query_of] in E1.
    assert (F : all_need [[Term neg KFuzzy text]] (cand_slice c) = fneed text (cand_slice c)).
    { cbn [all_need either_need]. unfold term_need. cbn [t_kind t_text].
      destruct (term_outcome _ _ _ _), (either_outcome _ _ _ _); rewrite !maxes_nil_r; reflexivity. }
    rewrite F. apply (Hsize R st1 (Term neg KFuzzy text) c buf [] sc st2 r2); [exact HI1|exact Hc| | |exact E1].
    + inversion Hq as [|? ? H1]; subst. inversion H1; subst. assumption.
    + exact I.
  - rewrite Eq in E1. eapply conditions_sizes; eauto. exact I.
Qed.

End Sizes.

(** ** The two metrics *)
Section Metrics.
Context {UC : unicode}.

(** What a fuzzy term needs, in the order of [buffers]. *)
Definition fuzzy_need (a : algo) (o : options) (text l : str) : list nat :=
  match a with
  | AlgoV1 => []
  | AlgoV2 => 0 :: v2_need (sensitive_for (opt_case o) text) (opt_norm o) text l
  end.

Definition metric_need (a : algo) (o : options) : cnf -> str -> list nat :=
  search_need a o (fuzzy_need a o) (fun s => [byte_len s]).

Lemma v1_size o (R : bool) st t c pre own x st' r :
  v1_inv o st -> cand_ok c -> t_text t <> [] -> chain 0 own ->
  v1_fuzzy R st (pat_of t) c (mk pre own) = Ok (x, st', r) ->
  buffers (V1 st') = maxes (buffers (V1 st)) [].
Proof.
  intros HI Hc Ht Ho E. rewrite maxes_nil_r. destruct HI as (H1 & H2 & H3).
  rewrite (v1_fuzzy_spec R st (opt_scheme o)) in E by auto.
  destruct (v1_positions _ _ _ _); injection E as _ <- _; reflexivity.
Qed.

Lemma v1_alloc_size o st s x st' : v1_inv o st -> v1_alloc_chars st s = Ok (x, st') ->
  buffers (V1 st') = maxes (buffers (V1 st)) [byte_len s].
Proof.
  intros _ E. unfold v1_alloc_chars in E. destruct (candidate_alloc_spec (v1_candidate_slab st) s) as (slab & E1 & L).
  rewrite E1 in E. injection E as _ <-. cbn. rewrite L. reflexivity.
Qed.

Lemma v2_size o (R : bool) st t c pre own x st' r :
  v2_inv o st -> cand_ok c -> t_text t <> [] -> chain 0 own ->
  v2_fuzzy R st (pat_of t) c (mk pre own) = Ok (x, st', r) ->
  buffers (V2 st') = maxes (buffers (V2 st)) (fuzzy_need AlgoV2 o (t_text t) (cand_slice c)).
Proof.
  intros HI Hc Ht Ho E. destruct HI as (H1 & H2 & H3).
  destruct (v2_fuzzy_sized R st (opt_scheme o) (pat_of t) c pre own) as (st2 & (_ & S1 & S2) & E2); auto.
  assert (st2 = st') as ->.
  { rewrite E2 in E. destruct (v2_result _ _ _ _ _) as [[sc ps]|]; injection E as _ <- _; reflexivity. }
  rewrite H1, H2, is_sensitive_pat in S2. change (p_text (pat_of t)) with (t_text t) in S2.
  unfold v2_sizes in S2. cbn [buffers fuzzy_need]. cbv zeta in *. rewrite S2, S1. cbn [maxes]. rewrite Nat.max_0_r. reflexivity.
Qed.

Lemma v2_alloc_size o st s x st' : v2_inv o st -> v2_alloc_chars st s = Ok (x, st') ->
  buffers (V2 st') = maxes (buffers (V2 st)) [byte_len s].
Proof.
  intros _ E. unfold v2_alloc_chars in E. destruct (candidate_alloc_spec (v2_candidate_slab st) s) as (slab & E1 & L).
  rewrite E1 in E. injection E as _ <-. cbn. rewrite L. reflexivity.
Qed.

Lemma metric_sizes a o m q c m' :
  has_options a o m -> texts_ok q -> Forall (fun g => g <> []) q -> searches m (query_of q) c m' ->
  buffers m' = maxes (buffers m) (metric_need a o q c).
Proof.
  intros HI Hq Hne E. destruct a, m as [m|m]; try contradiction.
  - pose proof (fun R buf x st' buf' => search_sizes v1_alloc_chars v1_char_eq v1_scoring_scheme v1_fuzzy AlgoV1 o (v1_inv o)
      (v1_alloc_ok o) (v1_char_eq_ok o) (fun st H => proj2 (proj2 H)) (v1_fuzzy_ok o)
      (fun st => buffers (V1 st)) (fuzzy_need AlgoV1 o) (fun s => [byte_len s]) (v1_size o) (v1_alloc_size o)
      R m q c buf x st' buf' HI Hq Hne) as G.
    destruct E as [d m' E|buf d m' buf' E]; cbn in E.
    + unfold v1_distance, v1_fzf_distance in E. apply ok_bind in E as ([x v1'] & E & E').
      apply ok_bind in E as ([[x' v1''] b] & E & E''). injection E'' as _ <-. injection E' as _ <-. eapply G; eauto.
    + unfold v1_distance_and_ranges, v1_fzf_distance in E. apply ok_bind in E as ([[x v1'] b] & E & E').
      injection E' as _ <- _. eapply G; eauto.
  - pose proof (fun R buf x st' buf' => search_sizes v2_alloc_chars v2_char_eq v2_scoring_scheme v2_fuzzy AlgoV2 o (v2_inv o)
      (v2_alloc_ok o) (v2_char_eq_ok o) (fun st H => proj2 (proj2 H)) (v2_fuzzy_ok o)
      (fun st => buffers (V2 st)) (fuzzy_need AlgoV2 o) (fun s => [byte_len s]) (v2_size o) (v2_alloc_size o)
      R m q c buf x st' buf' HI Hq Hne) as G.
    destruct E as [d m' E|buf d m' buf' E]; cbn in E.
    + unfold v2_distance, v2_fzf_distance in E. apply ok_bind in E as ([x v2'] & E & E').
      apply ok_bind in E as ([[x' v2''] b] & E & E''). injection E'' as _ <-. injection E' as _ <-. eapply G; eauto.
    + unfold v2_distance_and_ranges, v2_fzf_distance in E. apply ok_bind in E as ([[x v2'] b] & E & E').
      injection E' as _ <- _. eapply G; eauto.
Qed.

(** What a query of the user needs. *)
Lemma raw_empty m c m' : searches m (NotExtended (pat_of (Term false KFuzzy []))) c m' -> m' = m.
Proof.
  intros E. destruct m as [m|m], E as [d m' E|buf d m' buf' E]; cbn in E; congruence.
Qed.

(** The two kinds of queries at once: [q'] is the terms of [q]. *)
Definition has_terms (q : query) (q' : cnf) : Prop :=
  texts_ok q' /\ Forall (fun g => g <> []) q'
  /\ forall m c m', searches m q c m' -> m' = m /\ q' = [] \/ searches m (query_of q') c m'.

Lemma raw_terms s : has_terms (NotExtended (pat_of (Term false KFuzzy s)))
  (match s with [] => [] | _ => [[Term false KFuzzy s]] end).
Proof.
  destruct s as [|x s].
  - repeat split; [constructor..|]. intros m c m' H. left. split; [eapply raw_empty; exact H|reflexivity].
  - repeat split; [repeat constructor; discriminate..|]. intros m c m' H. right. exact H.
Qed.

Lemma query_terms q : query_reached q -> exists q', has_terms q q'.
Proof.
  intros [(s & ->)|(s & ->)]%query_reached_inv.
  - exists (parse_spec s). repeat split; [apply parse_spec_ok..|]. intros m c m' H. right. exact H.
  - eexists. apply raw_terms.
Qed.

Lemma terms_sizes a o m q q' c m' :
  has_options a o m -> has_terms q q' -> searches m q c m' -> buffers m' = maxes (buffers m) (metric_need a o q' c).
Proof.
  intros HI (T1 & T2 & T3) E. destruct (T3 m c m' E) as [(-> & ->)|E'].
  - unfold metric_need. cbn. rewrite maxes_nil_r. reflexivity.
  - eapply metric_sizes; eauto.
Qed.

Lemma reached_search a o m q c m' : metric_reached a o m -> query_reached q -> searches m q c m' -> metric_reached a o m'.
Proof. intros H Hq [d m1 E|buf d m1 buf' E]; [eapply mr_distance|eapply mr_distance_and_ranges]; eauto. Qed.

(** Every metric that follows a metric which was obtained is obtained with some options. *)
Lemma later_reached a o m m' : metric_reached a o m -> later m m' -> exists o', metric_reached a o' m'.
Proof.
  intros H. induction 1 as [|m' cs _ (o' & IH)|m' b _ (o' & IH)|m' s _ (o' & IH)|m' q c m'' _ (o' & IH) Hq E]; eauto.
  1-3: eexists; econstructor; exact IH.
  exists o'. eapply reached_search; eauto.
Qed.

Lemma setter_buffers m : (forall cs, buffers (set_case_sensitivity m cs) = buffers m)
  /\ (forall b, buffers (set_candidate_normalization m b) = buffers m)
  /\ (forall s, buffers (set_scoring_scheme m s) = buffers m).
Proof. destruct m; repeat split. Qed.

Lemma later_under a o m m' : metric_reached a o m -> later m m' -> under (buffers m) (buffers m').
Proof.
  intros H. induction 1 as [|m' cs _ IH|m' b _ IH|m' s _ IH|m' q c m'' L IH Hq E].
  - apply under_refl.
  - destruct (setter_buffers m') as (S & _ & _). rewrite S. exact IH.
  - destruct (setter_buffers m') as (_ & S & _). rewrite S. exact IH.
  - destruct (setter_buffers m') as (_ & _ & S). rewrite S. exact IH.
  - destruct (later_reached a o m m' H L) as (o' & H'). destruct (query_terms q Hq) as (q' & T).
    rewrite (terms_sizes a o' m' q q' c m'' (metric_reached_options a o' m' H') T E).
    eapply under_trans; [exact IH|apply under_l].
Qed.

Lemma reached_buffers_length a o m : has_options a o m -> length (buffers m) = match a with AlgoV1 => 1 | AlgoV2 => 5 end.
Proof. destruct a, m; intros H; try contradiction; reflexivity. Qed.

Lemma c74_grow : forall a o m m', metric_reached a o m -> later m m' -> Forall2 le (buffers m) (buffers m').
Proof.
  intros a o m m' H L. apply under_le; [|eapply later_under; eauto].
  destruct (later_reached a o m m' H L) as (o' & H').
  rewrite (reached_buffers_length a o m), (reached_buffers_length a o' m') by (eapply metric_reached_options; eauto). reflexivity.
Qed.

Lemma c74_again : forall a o m q c m1 m2 m3,
  metric_reached a o m -> query_reached q -> searches m q c m1 ->
  later m1 m2 -> metric_reached a o m2 ->
  searches m2 q c m3 ->
  buffers m3 = buffers m2.
Proof.
  intros a o m q c m1 m2 m3 H Hq E1 L H2 E3. destruct (query_terms q Hq) as (q' & T).
  rewrite (terms_sizes a o m2 q q' c m3 (metric_reached_options a o m2 H2) T E3).
  pose proof (terms_sizes a o m q q' c m1 (metric_reached_options a o m H) T E1) as S1.
  pose proof (later_under a o m1 m2 (reached_search a o m q c m1 H Hq E1) L) as U. rewrite S1 in U.
  assert (U' : under (metric_need a o q' c) (buffers m2)) by (eapply under_trans; [apply under_r|exact U]).
  unfold under in U'. rewrite maxes_comm. exact U'.
Qed.

(** ** Bounds *)

(** What the buffers of a metric need for candidates of [n] bytes and queries of [h] characters. *)
Definition need_bound (a : algo) (n h : nat) : list nat :=
  match a with AlgoV1 => [n] | AlgoV2 => [n; n; h * n; h; h * n] end.

Lemma last_col_lt sens norm p l j : last_col sens norm p l = Some j -> j < length l.
Proof.
  unfold last_col. intros (x & Hx & _)%find_last_idx_some. apply nth_error_Some. congruence.
Qed.

Lemma fuzzy_under a o text l n h :
  length l <= n -> length text <= h -> under (fuzzy_need a o text l) (need_bound a n h).
Proof.
  intros Hn Hh. destruct a; [apply under_nil|]. cbn [fuzzy_need need_bound]. apply under_cons; [lia|]. unfold v2_need.
  destruct (length text =? 1).
  { repeat (apply under_cons; [lia|]). apply under_nil. }
  destruct (greedy _ _ _ _) as [fs|]; [destruct (last_col _ _ _ _) as [j|] eqn:Ej|].
  2-3: repeat (apply under_cons; [lia|]); apply under_nil.
  apply last_col_lt in Ej. cbv zeta.
  assert (W : j + 1 - firsts fs 0 <= n) by lia. pose proof (Nat.mul_le_mono _ _ _ _ Hh W).
  repeat (apply under_cons; [lia|]). apply under_nil.
Qed.

Lemma either_under a o n h l : length l <= n -> forall g,
  Forall (fun t => length (t_text t) <= h) g -> under (either_need a o (fuzzy_need a o) g l) (need_bound a n h).
Proof.
  intros Hn. induction 1 as [|t g Ht Hg IH]; cbn [either_need]; [apply under_nil|]. apply maxes_under.
  - unfold term_need. destruct (t_kind t); [apply fuzzy_under; assumption|apply under_nil..].
  - destruct (term_outcome _ _ _ _); [apply under_nil|exact IH].
Qed.

Lemma all_under a o n h l : length l <= n -> forall q,
  Forall (Forall (fun t => length (t_text t) <= h)) q -> under (all_need a o (fuzzy_need a o) q l) (need_bound a n h).
Proof.
  intros Hn. induction 1 as [|g q Hg Hq IH]; cbn [all_need]; [apply under_nil|]. apply maxes_under.
  - apply either_under; assumption.
  - destruct (either_outcome _ _ _ _); [exact IH|apply under_nil].
Qed.

Lemma metric_under a o n h q s : byte_len s <= n ->
  Forall (Forall (fun t => length (t_text t) <= h)) q -> under (metric_need a o q s) (need_bound a n h).
Proof.
  intros Hn Hq. unfold metric_need, search_need. destruct q as [|g q]; [apply under_nil|]. apply maxes_under.
  - destruct (str_is_ascii s); [apply under_nil|]. destruct a; (apply under_cons; [lia|apply under_nil]).
  - apply all_under; [|exact Hq]. pose proof (length_le_byte_len s). lia.
Qed.

Lemma short_texts s : Forall (Forall (fun t => length (t_text t) <= length s)) (parse_spec s).
Proof.
  apply Forall_forall. intros g Hg. apply Forall_forall. intros t Ht. etransitivity; [|apply text_length_le].
  unfold text_length. assert (Hc : In t (concat (parse_spec s))) by (apply in_concat; eauto).
  induction (concat (parse_spec s)) as [|t' l IH]; [destruct Hc|]. cbn [map]. unfold list_sum in *. cbn [fold_right].
  destruct Hc as [->|Hc]; [lia|]. specialize (IH Hc). lia.
Qed.

Lemma short_terms h q : query_of_length h q ->
  query_reached q /\ exists q', has_terms q q' /\ Forall (Forall (fun t => length (t_text t) <= h)) q'.
Proof.
  intros (ps & s & ps' & Hps & Hs & H). split.
  { destruct H as [H|H]; [eapply qr_parse|eapply qr_parse_not_extended]; eauto. }
  destruct H as [H|H].
  - destruct (parse_correct ps s) as (ps'' & E & _). rewrite E in H. injection H as <- _. exists (parse_spec s). split.
    + repeat split; [apply parse_spec_ok..|]. intros m c m' H. right. exact H.
    + eapply Forall_impl; [|apply short_texts]. intros g Hg. eapply Forall_impl; [|exact Hg]. cbn. lia.
  - rewrite parse_not_extended_correct in H. destruct (_ <=? _); [|discriminate]. injection H as <- _.
    eexists. split; [apply raw_terms|]. destruct s as [|x s]; [constructor|]. repeat constructor. exact Hs.
Qed.

Lemma fed_under a n h m : metric_fed a n h m ->
  (exists o, metric_reached a o m) /\ under (buffers m) (maxes (buffers (metric_new a)) (need_bound a n h)).
Proof.
  induction 1 as [|m cs _ [(o & R) IH]|m b _ [(o & R) IH]|m s _ [(o & R) IH]|m q c m' _ [(o & R) IH] Hq Hc E].
  - split; [eexists; constructor|apply under_l].
  - destruct (setter_buffers m) as (S & _ & _). rewrite S. split; [eexists; constructor; exact R|exact IH].
  - destruct (setter_buffers m) as (_ & S & _). rewrite S. split; [eexists; constructor; exact R|exact IH].
  - destruct (setter_buffers m) as (_ & _ & S). rewrite S. split; [eexists; constructor; exact R|exact IH].
  - apply short_terms in Hq as (Hq & q' & T & Hq'). split; [exists o; eapply reached_search; eauto|].
    rewrite (terms_sizes a o m q q' c m' (metric_reached_options a o m R) T E). apply maxes_under; [exact IH|].
    eapply under_trans; [|apply under_r]. apply metric_under; assumption.
Qed.

Lemma c74_bound : forall a n h m, metric_fed a n h m ->
  Forall2 le (buffers m)
    match a with
    | AlgoV1 => [Nat.max 128 n]
    | AlgoV2 => [Nat.max 128 n; Nat.max 128 n; Nat.max 256 (h * n); Nat.max 128 h; Nat.max 256 (h * n)]
    end.
Proof.
  intros a n h m H. destruct (fed_under a n h m H) as [(o & R) U]. apply under_le.
  - rewrite (reached_buffers_length a o m) by (eapply metric_reached_options; eauto). destruct a; reflexivity.
  - destruct a; exact U.
Qed.

(** ** The parser *)

Lemma c75_parse : forall ps s q ps', parse ps s = Ok (q, ps') ->
  parser_buffers ps' = [Nat.max (length (ps_chars ps)) (byte_len s);
                        Nat.max (length (ps_patterns ps)) (byte_len s / 2 + 1);
                        Nat.max (length (ps_conditions ps)) (byte_len s / 2 + 1)].
Proof.
  intros ps s q ps' H. destruct (parse_correct_sized ps s) as (ps'' & E & _ & _ & _ & L1 & L2 & L3).
  rewrite E in H. injection H as _ <-. unfold parser_buffers. rewrite L1, L2, L3. reflexivity.
Qed.

Lemma c75_raw : forall ps s q ps', parse_not_extended ps s = Ok (q, ps') -> parser_buffers ps' = parser_buffers ps.
Proof.
  intros ps s q ps' H. rewrite parse_not_extended_correct in H. destruct (Nat.leb_spec (length s) (length (ps_chars ps))) as [L|L]; [|discriminate].
  injection H as _ <-. unfold parser_buffers. cbn [ps_chars ps_patterns ps_conditions]. rewrite put_length by lia. reflexivity.
Qed.

Lemma parser_later_under ps ps' : parser_later ps ps' -> under (parser_buffers ps) (parser_buffers ps').
Proof.
  induction 1 as [|ps' s q ps'' _ IH E|ps' s q ps'' _ IH E]; [apply under_refl| |].
  - apply c75_parse in E. rewrite E. eapply under_trans; [exact IH|].
    repeat (apply under_cons; [lia|]). apply under_nil.
  - apply c75_raw in E. rewrite E. exact IH.
Qed.

Lemma c75_again : forall ps s q ps1 ps2 q' ps3,
  parse ps s = Ok (q, ps1) -> parser_later ps1 ps2 -> parse ps2 s = Ok (q', ps3) ->
  parser_buffers ps3 = parser_buffers ps2.
Proof.
  intros ps s q ps1 ps2 q' ps3 H1 L H2. apply c75_parse in H1. apply c75_parse in H2.
  apply parser_later_under, under_le in L; [|reflexivity]. rewrite H1 in L. rewrite H2. clear H1 H2.
  generalize dependent (byte_len s / 2 + 1). intros k L.
  unfold parser_buffers in *. inversion L as [|? ? ? ? L1 L']; subst. inversion L' as [|? ? ? ? L2 L'']; subst.
  inversion L'' as [|? ? ? ? L3 L3']; subst. do 3 (apply f_equal2; [lia|]). reflexivity.
Qed.

End Metrics.
