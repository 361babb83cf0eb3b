(** The whole crate as one function: what a search returns, for any state of the parser and of
    the metric. *)
From Coq Require Import Sorted.
From Verif Require Import Prelude Chars Normalize Utils Candidate MatchedRanges Query Parser Scoring
  Slab Fzf FzfV1 FzfV2 Api History Spec PreludeProofs CharsProofs NormalizeProofs CandidateProofs
  MatchedRangesProofs ParserProofs ScoreProofs ExactProofs ShapeProofs V1Proofs V2Tables V2Proofs V2Rows V2Fuzzy.
Local Open Scope nat_scope.

(** ** Positions *)

Lemma char_ranges_proper l ps : Forall (fun j => j < length l) ps -> proper (map (char_range l) ps).
Proof.
  intros H. apply Forall_map. eapply Forall_impl; [|exact H]. intros j. apply char_range_proper.
Qed.

Section Positions.
Context {UC : unicode}.
Variables (sens norm : bool) (sch : fzf_scheme).
Notation eq := (char_eq sens norm).

Lemma v1_positions_aligned p l ps : p <> [] -> v1_positions sens norm p l = Some ps -> aligned eq p l 0 ps.
Proof.
  intros Hp H. unfold v1_positions in H. destruct (greedy eq p l 0) as [fs|] eqn:G; [|discriminate].
  destruct (v1_window sens norm _ _ _ Hp G) as (s & ps' & Er & _ & _ & Ev & _ & Ap & _).
  unfold v1_positions in Ev. rewrite G in Ev. rewrite H in Ev. injection Ev as ->. exact Ap.
Qed.

Lemma v2_result_bound p l sc ps : p <> [] -> v2_result sens norm sch p l = Some (sc, ps) ->
  Forall (fun j => j < length l) ps /\ StronglySorted (fun x y => y < x) ps.
Proof.
  intros Hp H. unfold v2_result in H. destruct (greedy eq p l 0) as [fs|] eqn:G; [|discriminate].
  destruct (last_col sens norm p l) as [stop|] eqn:L; [|discriminate].
  pose proof (v2_best_cell sens norm sch p l fs stop Hp G L) as B.
  destruct (v2_best sens norm sch p l fs stop) as [i j]. cbn [fst snd] in B.
  injection H as <- <-. split; [|apply back_sorted].
  eapply Forall_impl; [|apply back_bound]. cbv beta. intros x Hx.
  destruct B as ((_ & Hj & _) & _). pose proof (stop_lt sens norm p l fs stop Hp G L). lia.
Qed.

End Positions.

(** ** The outcome of a search: the score, and the byte ranges in the order of insertion *)
Section Outcome.
Context {UC : unicode}.
Variables (a : algo) (o : options).

Definition fuzzy_outcome (text l : str) : option (Z * list byte_range) :=
  let sens := sensitive_for (opt_case o) text in
  match a with
  | AlgoV1 =>
      match v1_positions sens (opt_norm o) text l with
      | Some ps => Some (alignment_score (opt_scheme o) l ps, map (char_range l) ps)
      | None => None
      end
  | AlgoV2 =>
      match v2_result sens (opt_norm o) (opt_scheme o) text l with
      | Some (sc, ps) => Some (sc, map (char_range l) ps)
      | None => None
      end
  end.

(** Where the other kinds of terms are found. *)
Definition place_found (t : term) (l : str) : option nat :=
  let eq := char_eq (sensitive_for (opt_case o) (t_text t)) (opt_norm o) in
  match t_kind t with
  | KFuzzy => None
  | KExact => exact_find eq (opt_scheme o) (pat_of t) l
  | KPrefix => prefix_find eq (t_text t) l
  | KSuffix => suffix_find eq (t_text t) l
  | KEqual => equal_find eq (t_text t) l
  end.

(** Ignoring negation. *)
Definition base_outcome (t : term) (l : str) : option (Z * list byte_range) :=
  match t_kind t with
  | KFuzzy => fuzzy_outcome (t_text t) l
  | _ =>
      match place_found t l with
      | Some i =>
          let n := length (t_text t) in
          Some (alignment_score (opt_scheme o) l (seq i n), [span l i (i + n)])
      | None => None
      end
  end.

Definition term_outcome (t : term) (l : str) : option (Z * list byte_range) :=
  if t_neg t then
    match base_outcome t l with
    | Some _ => None
    | None => Some (0%Z, [])
    end
  else base_outcome t l.

Fixpoint either_outcome (g : list term) (l : str) : option (Z * list byte_range) :=
  match g with
  | [] => None
  | t :: g' =>
      match term_outcome t l with
      | Some r => Some r
      | None => either_outcome g' l
      end
  end.

(** The ranges of the conditions before the first one which fails are kept. *)
Fixpoint all_outcome (q : cnf) (l : str) : option Z * list byte_range :=
  match q with
  | [] => (Some 0%Z, [])
  | g :: q' =>
      match either_outcome g l with
      | None => (None, [])
      | Some (sc, rs) =>
          let (total, rs') := all_outcome q' l in
          (option_map (Z.add sc) total, rs ++ rs')
      end
  end.

(** A query with a single fuzzy term is searched without looking at its negation. *)
Definition outcome (q : cnf) (l : str) : option Z * list byte_range :=
  match q with
  | [[Term neg KFuzzy text]] =>
      match fuzzy_outcome text l with
      | Some (sc, rs) => (Some sc, rs)
      | None => (None, [])
      end
  | _ => all_outcome q l
  end.

(** The same for parse_not_extended. *)
Definition raw_outcome (text l : str) : option Z * list byte_range :=
  match text with
  | [] => (Some 0%Z, [])
  | _ =>
      match fuzzy_outcome text l with
      | Some (sc, rs) => (Some sc, rs)
      | None => (None, [])
      end
  end.

Lemma fuzzy_outcome_proper text l sc rs :
  text <> [] -> fuzzy_outcome text l = Some (sc, rs) -> proper rs.
Proof.
  intros Ht. unfold fuzzy_outcome. destruct a.
  - destruct (v1_positions _ _ _ _) as [ps|] eqn:E; [|discriminate]. intros H. injection H as _ <-.
    apply char_ranges_proper. eapply aligned_bound. eapply v1_positions_aligned; eauto.
  - destruct (v2_result _ _ _ _ _) as [[sc' ps]|] eqn:E; [|discriminate]. intros H. injection H as _ <-.
    apply char_ranges_proper. eapply v2_result_bound; eauto.
Qed.

Lemma place_found_hits t l i : t_text t <> [] -> place_found t l = Some i ->
  hits (char_eq (sensitive_for (opt_case o) (t_text t)) (opt_norm o)) (t_text t) (skipn i l) = true
  /\ i + length (t_text t) <= length l.
Proof.
  intros Ht H. unfold place_found in H.
  assert (G : hits (char_eq (sensitive_for (opt_case o) (t_text t)) (opt_norm o)) (t_text t) (skipn i l) = true).
  { destruct (t_kind t).
    - discriminate.
    - apply exact_find_some in H; [|exact Ht]. exact (proj1 H).
    - apply prefix_find_le in H. exact (proj1 H).
    - apply suffix_find_hits in H; [|exact Ht]. exact (proj1 H).
    - apply equal_find_hits in H; [|exact Ht]. exact (proj1 H). }
  split; [exact G|]. apply (occ_bound _ _ _ _ Ht G).
Qed.

Lemma span_proper l i n : 0 < n -> i + n <= length l -> fst (span l i (i + n)) < snd (span l i (i + n)).
Proof. intros. unfold span. cbn [fst snd]. apply byte_len_firstn_lt; lia. Qed.

Lemma base_outcome_proper t l sc rs :
  t_text t <> [] -> base_outcome t l = Some (sc, rs) -> proper rs.
Proof.
  intros Ht. unfold base_outcome.
  assert (G : forall i, place_found t l = Some i ->
     proper [span l i (i + length (t_text t))]).
  { intros i Hi. apply place_found_hits in Hi as [_ Hi]; [|exact Ht]. constructor; [|constructor].
    apply span_proper; auto. destruct (t_text t); [congruence|simpl; lia]. }
  destruct (t_kind t);
    [apply fuzzy_outcome_proper; exact Ht|..];
    (destruct (place_found t l) as [i|]; [|discriminate]; intros H; injection H as _ <-; apply G; reflexivity).
Qed.

Lemma term_outcome_proper t l sc rs :
  t_text t <> [] -> term_outcome t l = Some (sc, rs) -> proper rs.
Proof.
  intros Ht. unfold term_outcome. destruct (t_neg t).
  - destruct (base_outcome t l); [discriminate|]. intros H. injection H as _ <-. constructor.
  - apply base_outcome_proper. exact Ht.
Qed.

Lemma either_outcome_proper g l sc rs :
  Forall (fun t => t_text t <> []) g -> either_outcome g l = Some (sc, rs) -> proper rs.
Proof.
  induction 1 as [|t g Ht Hg IH]; cbn [either_outcome]; [discriminate|].
  destruct (term_outcome t l) as [[sc' rs']|] eqn:E; [|exact IH].
  intros H. injection H as <- <-. eapply term_outcome_proper; eauto.
Qed.

Definition texts_ok (q : cnf) : Prop := Forall (Forall (fun t => t_text t <> [])) q.

Lemma all_outcome_proper q l : texts_ok q -> proper (snd (all_outcome q l)).
Proof.
  induction 1 as [|g q Hg Hq IH]; cbn [all_outcome]; [constructor|].
  destruct (either_outcome g l) as [[sc rs]|] eqn:E; [|constructor].
  destruct (all_outcome q l) as [tot rs']. cbn [snd] in *. apply Forall_app. split; [|exact IH].
  eapply either_outcome_proper; eauto.
Qed.

Lemma fuzzy_case_proper text l : text <> [] ->
  proper (snd (match fuzzy_outcome text l with
               | Some (sc, rs) => (Some sc, rs)
               | None => (None, [])
               end)).
Proof.
  intros Ht. destruct (fuzzy_outcome text l) as [[sc rs]|] eqn:E; [|constructor].
  eapply fuzzy_outcome_proper; eauto.
Qed.

Lemma raw_outcome_proper text l : proper (snd (raw_outcome text l)).
Proof.
  destruct text as [|x t]; [constructor|]. apply (fuzzy_case_proper (x :: t)). discriminate.
Qed.

End Outcome.

(** Either the query is a lone fuzzy term, or [outcome] is [all_outcome]. *)
Lemma outcome_cases {UC : unicode} q :
  (exists neg text, q = [[Term neg KFuzzy text]])
  \/ ((forall a o l, outcome a o q l = all_outcome a o q l) /\ query_of q = Extended (map (map pat_of) q)).
Proof.
  destruct q as [|[|[neg [] text] [|t g]] [|g' q]]; try (right; split; reflexivity).
  left. eauto.
Qed.

Lemma outcome_proper {UC : unicode} a o q l : texts_ok q -> proper (snd (outcome a o q l)).
Proof.
  intros H. destruct (outcome_cases q) as [(neg & text & ->)|[E _]].
  - apply fuzzy_case_proper. inversion H as [|? ? H1]; subst. inversion H1; subst. assumption.
  - rewrite E. apply all_outcome_proper. exact H.
Qed.

(** ** The trait's functions *)
Section Trait.
Context {UC : unicode} {St : Type}.
Variables (alloc_chars : St -> str -> res (list char * St)) (st_char_eq : St -> pattern -> char_eq_fn)
  (st_scheme : St -> scheme)
  (fuzzy : bool -> St -> pattern -> candidate -> mranges -> res (option score * St * mranges)).
Variables (a : algo) (o : options).
(** The states whose options are [o]. *)
Variable Inv : St -> Prop.
Hypothesis Halloc : forall st s, Inv st -> exists st', Inv st' /\ alloc_chars st s = Ok (s, st').
Hypothesis Heq : forall st t, Inv st ->
  st_char_eq st (pat_of t) = char_eq (sensitive_for (opt_case o) (t_text t)) (opt_norm o).
Hypothesis Hsch : forall st, Inv st -> st_scheme st = into_inner (opt_scheme o).
Hypothesis Hfuzzy : forall (R : bool) st t c pre own,
  Inv st -> cand_ok c -> t_text t <> [] -> chain 0 own ->
  exists st', Inv st' /\ fuzzy R st (pat_of t) c (mk pre own)
    = Ok (match fuzzy_outcome a o (t_text t) (cand_slice c) with
          | None => (None, st', mk pre own)
          | Some (sc, rs) => (Some sc, st', mk pre (if R then inserts own rs else own))
          end).

Lemma pat_of_ok t : pat_ok (pat_of t).
Proof. split; reflexivity. Qed.

Lemma fzf_score_spec (R : bool) st t c pre own :
  Inv st -> cand_ok c -> t_text t <> [] -> chain 0 own ->
  exists st', Inv st' /\ fzf_score st_char_eq st_scheme fuzzy R st (pat_of t) c (mk pre own)
    = Ok (match term_outcome a o t (cand_slice c) with
          | None => (None, st', mk pre own)
          | Some (sc, rs) => (Some sc, st', mk pre (if R then inserts own rs else own))
          end).
Proof.
  intros HI Hc Ht Ho. set (R' := if t_neg t then false else R).
  (* what the selected function returns *)
  assert (G : exists st', Inv st' /\
    (match t_kind t with
     | KFuzzy => fuzzy R' st (pat_of t) c (mk pre own)
     | k =>
        let* '(sc, ranges) :=
          match k with
          | KPrefix => prefix_match | KSuffix => suffix_match | KEqual => equal_match | _ => exact_match
          end R' (pat_of t) c (st_char_eq st (pat_of t)) (st_scheme st) (mk pre own) in
        Ok (sc, st, ranges)
     end)
    = Ok (match base_outcome a o t (cand_slice c) with
          | None => (None, st', mk pre own)
          | Some (sc, rs) => (Some sc, st', mk pre (if R' then inserts own rs else own))
          end)).
  { unfold base_outcome. destruct (t_kind t) eqn:K.
    - apply Hfuzzy; auto.
    - exists st. split; [exact HI|]. rewrite Heq, Hsch by auto.
      rewrite (exact_match_spec _ _ (pat_of t) (cand_slice c)) by auto. cbn [bind].
      unfold place_found. rewrite K.
      change (p_text (pat_of t)) with (t_text t).
      destruct (t_text t) eqn:Et; [congruence|]. rewrite <- Et.
      destruct (exact_find _ _ _ _); reflexivity.
    - exists st. split; [exact HI|]. rewrite Heq, Hsch by auto.
      rewrite prefix_match_spec by (auto using pat_of_ok). cbn [bind].
      unfold place_found. rewrite K. change (p_text (pat_of t)) with (t_text t). unfold found.
      destruct (t_text t) eqn:Et; [congruence|]. rewrite <- Et.
      destruct (prefix_find _ _ _); reflexivity.
    - exists st. split; [exact HI|]. rewrite Heq, Hsch by auto.
      rewrite suffix_match_spec by (auto using pat_of_ok). cbn [bind].
      unfold place_found. rewrite K. change (p_text (pat_of t)) with (t_text t). unfold found.
      destruct (t_text t) eqn:Et; [congruence|]. rewrite <- Et.
      destruct (suffix_find _ _ _); reflexivity.
    - exists st. split; [exact HI|]. rewrite Heq, Hsch by auto.
      rewrite equal_match_spec by (auto using pat_of_ok). cbn [bind].
      unfold place_found. rewrite K. change (p_text (pat_of t)) with (t_text t). unfold found.
      destruct (t_text t) eqn:Et; [congruence|]. rewrite <- Et.
      destruct (equal_find _ _ _); reflexivity. }
  destruct G as (st' & HI' & G). exists st'. split; [exact HI'|].
  unfold fzf_score. change (p_is_inverse (pat_of t)) with (t_neg t).
  change (p_match_type (pat_of t)) with (mt_of (t_kind t)). fold R'.
  match goal with |- bind ?x _ = _ => replace x with
    (Ok (match base_outcome a o t (cand_slice c) with
          | None => (None, st', mk pre own)
          | Some (sc, rs) => (Some sc, st', mk pre (if R' then inserts own rs else own))
          end)) end.
  2:{ rewrite <- G. destruct (t_kind t); reflexivity. }
  unfold term_outcome, R'. destruct (base_outcome a o t (cand_slice c)) as [[sc rs]|];
    destruct (t_neg t); cbn [bind]; try reflexivity.
  destruct R; reflexivity.
Qed.

Lemma score_condition_spec (R : bool) c pre : cand_ok c -> forall g st own,
  Forall (fun t => t_text t <> []) g -> Inv st -> chain 0 own ->
  exists st', Inv st' /\ score_condition st_char_eq st_scheme fuzzy R st (map pat_of g) c (mk pre own)
    = Ok (match either_outcome a o g (cand_slice c) with
          | None => (None, st', mk pre own)
          | Some (sc, rs) => (Some sc, st', mk pre (if R then inserts own rs else own))
          end).
Proof.
  intros Hc. induction g as [|t g IH]; intros st own Hg HI Ho.
  - exists st. split; [exact HI|reflexivity].
  - inversion Hg as [|? ? Ht Hg']; subst. cbn [map score_condition either_outcome].
    destruct (fzf_score_spec R st t c pre own HI Hc Ht Ho) as (st1 & HI1 & E). rewrite E. cbn [bind].
    destruct (term_outcome a o t (cand_slice c)) as [[sc rs]|].
    + exists st1. split; [exact HI1|reflexivity].
    + apply IH; auto.
Qed.

Lemma score_conditions_spec (R : bool) c pre : cand_ok c -> forall q st own total,
  texts_ok q -> Inv st -> chain 0 own ->
  exists st', Inv st' /\ score_conditions st_char_eq st_scheme fuzzy R st (map (map pat_of) q) c total (mk pre own)
    = Ok (option_map (Z.add total) (fst (all_outcome a o q (cand_slice c))), st',
          mk pre (if R then inserts own (snd (all_outcome a o q (cand_slice c))) else own)).
Proof.
  intros Hc. induction q as [|g q IH]; intros st own total Hq HI Ho.
  - exists st. split; [exact HI|]. cbn. rewrite Z.add_0_r. destruct R; reflexivity.
  - inversion Hq as [|? ? Hg Hq']; subst. cbn [map score_conditions all_outcome].
    destruct (score_condition_spec R c pre Hc g st own Hg HI Ho) as (st1 & HI1 & E). rewrite E. cbn [bind].
    destruct (either_outcome a o g (cand_slice c)) as [[sc rs]|] eqn:Eg.
    + destruct (IH st1 (if R then inserts own rs else own) (total + sc)%Z Hq' HI1) as (st2 & HI2 & E2).
      { destruct R; [|exact Ho]. apply inserts_chain; [|exact Ho]. eapply either_outcome_proper; eauto. }
      rewrite E2. exists st2. split; [exact HI2|].
      destruct (all_outcome a o q (cand_slice c)) as [tot rs']. cbn [fst snd]. f_equal. f_equal.
      * f_equal. destruct tot; cbn [option_map]; [|reflexivity]. f_equal. lia.
      * f_equal. destruct R; [|reflexivity]. symmetry. apply inserts_app.
    + exists st1. split; [exact HI1|]. cbn. destruct R; reflexivity.
Qed.

Lemma cand_made st s : Inv st -> exists c st', Inv st' /\ cand_ok c /\ cand_slice c = s
  /\ (if str_is_ascii s then Ok (Ascii (encode s), st)
      else let* '(chars, st) := alloc_chars st s in Ok (Unicode chars, st)) = Ok (c, st').
Proof.
  intros HI. destruct (str_is_ascii s) eqn:E.
  - exists (Ascii (encode s)), st. split; [exact HI|]. rewrite encode_ascii by exact E.
    split; [exact E|]. split; reflexivity.
  - destruct (Halloc st s HI) as (st' & HI' & ->). exists (Unicode s), st'. split; [exact HI'|].
    split; [exact I|]. split; reflexivity.
Qed.

Lemma mk_nil buf : mranges_from buf = mk buf [].
Proof. unfold mranges_from, mk. rewrite app_nil_r. reflexivity. Qed.

Lemma empty_query q : texts_ok q -> Forall (fun g => g <> []) q ->
  q_is_empty (query_of q) = true -> q = [].
Proof.
  intros H H0. destruct (outcome_cases q) as [(neg & text & ->)|[_ ->]].
  - inversion H as [|? ? H1]; subst. inversion H1; subst. cbn. destruct text; [cbn in *; congruence|discriminate].
  - cbn. destruct q; [reflexivity|discriminate].
Qed.

Lemma fzf_search_spec (R : bool) st q c buf :
  Inv st -> cand_ok c -> texts_ok q ->
  exists st', Inv st' /\
    fzf_search st_char_eq st_scheme fuzzy R st (query_of q) c buf
    = Ok (option_map from_score (fst (outcome a o q (cand_slice c))), st',
          buf ++ (if R then inserts [] (snd (outcome a o q (cand_slice c))) else [])).
Proof.
  intros HI1 Hc Hq. unfold fzf_search. rewrite mk_nil.
  destruct (outcome_cases q) as [(neg & text & ->)|[Eo Eq]].
  - cbn [query_of outcome].
    destruct (Hfuzzy R st (Term neg KFuzzy text) c buf [] HI1 Hc) as (st2 & HI2 & ->).
    { inversion Hq as [|? ? H1]; subst. inversion H1; subst. assumption. }
    { exact I. }
    cbn [t_text bind].
    destruct (fuzzy_outcome a o text (cand_slice c)) as [[sc rs]|]; exists st2; (split; [exact HI2|]); [reflexivity|].
    cbn. destruct R; rewrite ?app_nil_r; reflexivity.
  - rewrite Eq, Eo.
    destruct (score_conditions_spec R c buf Hc q st [] 0%Z Hq HI1) as (st2 & HI2 & ->); [exact I|].
    cbn [bind mk mr_ranges]. exists st2. split; [exact HI2|]. f_equal. f_equal. f_equal.
    destruct (fst (all_outcome a o q (cand_slice c))); reflexivity.
Qed.

Lemma fzf_distance_spec (R : bool) st q s buf :
  Inv st -> texts_ok q -> Forall (fun g => g <> []) q ->
  exists st', Inv st' /\
    fzf_distance alloc_chars st_char_eq st_scheme fuzzy R st (query_of q) s buf
    = Ok (option_map from_score (fst (outcome a o q s)), st',
          buf ++ (if R then inserts [] (snd (outcome a o q s)) else [])).
Proof.
  intros HI Hq Hne. unfold fzf_distance.
  destruct (q_is_empty (query_of q)) eqn:E.
  { apply empty_query in E; auto. subst. exists st. split; [exact HI|]. cbn.
    destruct R; cbn; rewrite app_nil_r; reflexivity. }
  destruct (cand_made st s HI) as (c & st1 & HI1 & Hc & Hs & ->). cbn [bind].
  rewrite <- Hs. apply fzf_search_spec; assumption.
Qed.

Lemma fzf_distance_raw (R : bool) st text s buf :
  Inv st ->
  exists st', Inv st' /\
    fzf_distance alloc_chars st_char_eq st_scheme fuzzy R st (NotExtended (pat_of (Term false KFuzzy text))) s buf
    = Ok (option_map from_score (fst (raw_outcome a o text s)), st',
          buf ++ (if R then inserts [] (snd (raw_outcome a o text s)) else [])).
Proof.
  intros HI. destruct text as [|x t].
  - exists st. split; [exact HI|]. cbn. destruct R; cbn; rewrite app_nil_r; reflexivity.
  - destruct (fzf_distance_spec R st [[Term false KFuzzy (x :: t)]] s buf HI) as (st' & HI' & E).
    { repeat constructor. discriminate. }
    { repeat constructor. discriminate. }
    exists st'. split; [exact HI'|]. exact E.
Qed.

End Trait.

(** ** The two metrics *)
Section Metrics.
Context {UC : unicode}.

(** The metric runs algorithm [a] with options [o]. *)
Definition has_options (a : algo) (o : options) (m : metric) : Prop :=
  match a, m with
  | AlgoV1, V1 m =>
      v1_case_sensitivity m = opt_case o /\ v1_candidate_normalization m = opt_norm o
      /\ v1_scoring_scheme m = into_inner (opt_scheme o)
  | AlgoV2, V2 m =>
      v2_case_sensitivity m = opt_case o /\ v2_candidate_normalization m = opt_norm o
      /\ v2_scoring_scheme m = into_inner (opt_scheme o)
  | _, _ => False
  end.

Lemma is_sensitive_pat cs t : is_sensitive cs (pat_of t) = sensitive_for cs (t_text t).
Proof. destruct cs; reflexivity. Qed.

Definition v1_inv (o : options) (m : v1) : Prop := has_options AlgoV1 o (V1 m).
Definition v2_inv (o : options) (m : v2) : Prop := has_options AlgoV2 o (V2 m).

Lemma v1_alloc_ok o m s : v1_inv o m -> exists m', v1_inv o m' /\ v1_alloc_chars m s = Ok (s, m').
Proof.
  intros H. unfold v1_alloc_chars. destruct (candidate_alloc_spec (v1_candidate_slab m) s) as (slab & E & _).
  rewrite E. cbn [bind]. eexists. split; [|reflexivity]. exact H.
Qed.

Lemma v2_alloc_ok o m s : v2_inv o m -> exists m', v2_inv o m' /\ v2_alloc_chars m s = Ok (s, m').
Proof.
  intros H. unfold v2_alloc_chars. destruct (candidate_alloc_spec (v2_candidate_slab m) s) as (slab & E & _).
  rewrite E. cbn [bind]. eexists. split; [|reflexivity]. exact H.
Qed.

Lemma v1_fuzzy_ok o (R : bool) st t c pre own :
  v1_inv o st -> cand_ok c -> t_text t <> [] -> chain 0 own ->
  exists st', v1_inv o st' /\ v1_fuzzy R st (pat_of t) c (mk pre own)
    = Ok (match fuzzy_outcome AlgoV1 o (t_text t) (cand_slice c) with
          | None => (None, st', mk pre own)
          | Some (sc, rs) => (Some sc, st', mk pre (if R then inserts own rs else own))
          end).
Proof.
  intros HI Hc Ht Ho. exists st. split; [exact HI|]. destruct HI as (H1 & H2 & H3).
  rewrite (v1_fuzzy_spec R st (opt_scheme o)) by auto. rewrite H1, H2, is_sensitive_pat.
  unfold fuzzy_outcome. change (p_text (pat_of t)) with (t_text t).
  destruct (v1_positions _ _ _ _); reflexivity.
Qed.

Lemma v2_fuzzy_ok o (R : bool) st t c pre own :
  v2_inv o st -> cand_ok c -> t_text t <> [] -> chain 0 own ->
  exists st', v2_inv o st' /\ v2_fuzzy R st (pat_of t) c (mk pre own)
    = Ok (match fuzzy_outcome AlgoV2 o (t_text t) (cand_slice c) with
          | None => (None, st', mk pre own)
          | Some (sc, rs) => (Some sc, st', mk pre (if R then inserts own rs else own))
          end).
Proof.
  intros HI Hc Ht Ho. destruct HI as (H1 & H2 & H3).
  destruct (v2_fuzzy_spec R st (opt_scheme o) (pat_of t) c pre own) as (st' & (S1 & S2 & S3) & E); auto.
  exists st'. split; [repeat split; congruence|]. rewrite E, H1, H2, is_sensitive_pat.
  change (p_text (pat_of t)) with (t_text t). cbn [fuzzy_outcome]. unfold fuzzy_outcome.
  destruct (v2_result (sensitive_for (opt_case o) (t_text t)) (opt_norm o) (opt_scheme o) (t_text t) (cand_slice c))
    as [[sc ps]|]; reflexivity.
Qed.

Lemma v1_char_eq_ok o st t : v1_inv o st ->
  v1_char_eq st (pat_of t) = char_eq (sensitive_for (opt_case o) (t_text t)) (opt_norm o).
Proof. intros (H1 & H2 & _). unfold v1_char_eq. rewrite H1, H2, is_sensitive_pat. reflexivity. Qed.

Lemma v2_char_eq_ok o st t : v2_inv o st ->
  v2_char_eq st (pat_of t) = char_eq (sensitive_for (opt_case o) (t_text t)) (opt_norm o).
Proof. intros (H1 & H2 & _). unfold v2_char_eq. rewrite H1, H2, is_sensitive_pat. reflexivity. Qed.

Lemma metric_spec a o m q s buf :
  has_options a o m -> texts_ok q -> Forall (fun g => g <> []) q ->
  (exists m', has_options a o m' /\ metric_distance m (query_of q) s
     = Ok (option_map from_score (fst (outcome a o q s)), m'))
  /\ (exists m', has_options a o m' /\ metric_distance_and_ranges m (query_of q) s buf
     = Ok (option_map from_score (fst (outcome a o q s)), m', buf ++ inserts [] (snd (outcome a o q s)))).
Proof.
  intros HI Hq Hne. destruct a, m as [m|m]; try contradiction.
  - pose proof (fun R buf => fzf_distance_spec v1_alloc_chars v1_char_eq v1_scoring_scheme v1_fuzzy AlgoV1 o (v1_inv o)
      (v1_alloc_ok o) (v1_char_eq_ok o) (fun st H => proj2 (proj2 H)) (v1_fuzzy_ok o) R m q s buf HI Hq Hne) as G.
    split.
    + destruct (G false []) as (m' & HI' & E). exists (V1 m'). split; [exact HI'|].
      cbn [metric_distance]. unfold v1_distance, v1_fzf_distance. rewrite E. reflexivity.
    + destruct (G true buf) as (m' & HI' & E). exists (V1 m'). split; [exact HI'|].
      cbn [metric_distance_and_ranges]. unfold v1_distance_and_ranges, v1_fzf_distance. rewrite E. reflexivity.
  - pose proof (fun R buf => fzf_distance_spec v2_alloc_chars v2_char_eq v2_scoring_scheme v2_fuzzy AlgoV2 o (v2_inv o)
      (v2_alloc_ok o) (v2_char_eq_ok o) (fun st H => proj2 (proj2 H)) (v2_fuzzy_ok o) R m q s buf HI Hq Hne) as G.
    split.
    + destruct (G false []) as (m' & HI' & E). exists (V2 m'). split; [exact HI'|].
      cbn [metric_distance]. unfold v2_distance, v2_fzf_distance. rewrite E. reflexivity.
    + destruct (G true buf) as (m' & HI' & E). exists (V2 m'). split; [exact HI'|].
      cbn [metric_distance_and_ranges]. unfold v2_distance_and_ranges, v2_fzf_distance. rewrite E. reflexivity.
Qed.

Lemma metric_raw_spec a o m text s buf :
  has_options a o m ->
  (exists m', has_options a o m' /\ metric_distance m (NotExtended (pat_of (Term false KFuzzy text))) s
     = Ok (option_map from_score (fst (raw_outcome a o text s)), m'))
  /\ (exists m', has_options a o m'
     /\ metric_distance_and_ranges m (NotExtended (pat_of (Term false KFuzzy text))) s buf
     = Ok (option_map from_score (fst (raw_outcome a o text s)), m',
           buf ++ inserts [] (snd (raw_outcome a o text s)))).
Proof.
  intros HI. destruct a, m as [m|m]; try contradiction.
  - pose proof (fun R buf => fzf_distance_raw v1_alloc_chars v1_char_eq v1_scoring_scheme v1_fuzzy AlgoV1 o (v1_inv o)
      (v1_alloc_ok o) (v1_char_eq_ok o) (fun st H => proj2 (proj2 H)) (v1_fuzzy_ok o) R m text s buf HI) as G.
    split.
    + destruct (G false []) as (m' & HI' & E). exists (V1 m'). split; [exact HI'|].
      cbn [metric_distance]. unfold v1_distance, v1_fzf_distance. rewrite E. reflexivity.
    + destruct (G true buf) as (m' & HI' & E). exists (V1 m'). split; [exact HI'|].
      cbn [metric_distance_and_ranges]. unfold v1_distance_and_ranges, v1_fzf_distance. rewrite E. reflexivity.
  - pose proof (fun R buf => fzf_distance_raw v2_alloc_chars v2_char_eq v2_scoring_scheme v2_fuzzy AlgoV2 o (v2_inv o)
      (v2_alloc_ok o) (v2_char_eq_ok o) (fun st H => proj2 (proj2 H)) (v2_fuzzy_ok o) R m text s buf HI) as G.
    split.
    + destruct (G false []) as (m' & HI' & E). exists (V2 m'). split; [exact HI'|].
      cbn [metric_distance]. unfold v2_distance, v2_fzf_distance. rewrite E. reflexivity.
    + destruct (G true buf) as (m' & HI' & E). exists (V2 m'). split; [exact HI'|].
      cbn [metric_distance_and_ranges]. unfold v2_distance_and_ranges, v2_fzf_distance. rewrite E. reflexivity.
Qed.

(** ** Queries *)

Lemma term_of_text w t : term_of w = Some t -> t_text t <> [].
Proof.
  unfold term_of. destruct (bang w) as [neg w1], (dollar w1) as [d w2], (open_sigil w2) as [op w3].
  destruct w3; [discriminate|]. intros H. injection H as <-. cbn. discriminate.
Qed.

Lemma marked_terms_text ws : forall b, Forall (fun bt => t_text (snd bt) <> []) (marked_terms b ws).
Proof.
  induction ws as [|w ws IH]; intros b; cbn [marked_terms]; [constructor|].
  destruct (is_bar w); [apply IH|]. destruct (term_of w) eqn:E; [|apply IH].
  constructor; [|apply IH]. cbn. eapply term_of_text; eauto.
Qed.

Lemma join_bars_text m : Forall (fun bt => t_text (snd bt) <> []) m -> texts_ok (join_bars m).
Proof.
  induction m as [|[b t] m IH]; intros H; [constructor|]. inversion H as [|? ? Ht Hm]; subst.
  specialize (IH Hm). cbn [join_bars]. cbn [snd] in Ht.
  destruct m as [|[[] u] m].
  - repeat constructor. exact Ht.
  - destruct (join_bars _) as [|g gs]; [repeat constructor; exact Ht|].
    inversion IH; subst. constructor; [constructor; auto|]. assumption.
  - constructor; [repeat constructor; exact Ht|exact IH].
Qed.

Lemma parse_spec_ok s : texts_ok (parse_spec s) /\ Forall (fun g => g <> []) (parse_spec s).
Proof.
  split; [apply join_bars_text, marked_terms_text|apply join_bars_nonempty].
Qed.

Lemma query_reached_inv q : query_reached q ->
  (exists s, q = query_of (parse_spec s)) \/ (exists s, q = NotExtended (pat_of (Term false KFuzzy s))).
Proof.
  intros [ps s q' ps' _ H|ps s q' ps' _ H].
  - left. exists s. destruct (parse_correct ps s) as (ps'' & E & _). congruence.
  - right. exists s. rewrite parse_not_extended_correct in H. destruct (_ <=? _); [|discriminate]. congruence.
Qed.

Lemma metric_reached_options a o m : metric_reached a o m -> has_options a o m.
Proof.
  induction 1 as [|o m cs _ IH|o m b _ IH|o m s _ IH|o m q c d m' _ IH Hq E|o m q c buf d m' buf' _ IH Hq E].
  - destruct a; cbn; auto.
  - destruct a, m; try contradiction; destruct IH as (H1 & H2 & H3); cbn; auto.
  - destruct a, m; try contradiction; destruct IH as (H1 & H2 & H3); cbn; auto.
  - destruct a, m; try contradiction; destruct IH as (H1 & H2 & H3); cbn; auto.
  - apply query_reached_inv in Hq as [(s & ->)|(s & ->)].
    + destruct (metric_spec a o m (parse_spec s) c [] IH) as [(m'' & HI & E') _]; [apply parse_spec_ok..|].
      congruence.
    + destruct (metric_raw_spec a o m s c [] IH) as [(m'' & HI & E') _]. congruence.
  - apply query_reached_inv in Hq as [(s & ->)|(s & ->)].
    + destruct (metric_spec a o m (parse_spec s) c buf IH) as [_ (m'' & HI & E')]; [apply parse_spec_ok..|].
      congruence.
    + destruct (metric_raw_spec a o m s c buf IH) as [_ (m'' & HI & E')]. congruence.
Qed.

(** ** What a search returns *)

Lemma find_spec a o m ps s c : has_options a o m ->
  find ps m s c = Ok (option_map from_score (fst (outcome a o (parse_spec s) c))).
Proof.
  intros H. unfold find. destruct (parse_correct ps s) as (ps' & -> & _). cbn [bind].
  destruct (metric_spec a o m (parse_spec s) c [] H) as [(m' & _ & ->) _]; [apply parse_spec_ok..|].
  reflexivity.
Qed.

Lemma find_ranges_spec a o m ps s c buf : has_options a o m ->
  find_ranges ps m s c buf
  = Ok (option_map from_score (fst (outcome a o (parse_spec s) c)),
        buf ++ inserts [] (snd (outcome a o (parse_spec s) c))).
Proof.
  intros H. unfold find_ranges. destruct (parse_correct ps s) as (ps' & -> & _). cbn [bind].
  destruct (metric_spec a o m (parse_spec s) c buf H) as [_ (m' & _ & ->)]; [apply parse_spec_ok..|].
  reflexivity.
Qed.

Lemma find_raw_spec a o m ps s c : has_options a o m ->
  find_raw ps m s c
  = if length s <=? length (ps_chars ps)
    then Ok (option_map from_score (fst (raw_outcome a o s c))) else Panic.
Proof.
  intros H. unfold find_raw. rewrite parse_not_extended_correct. destruct (_ <=? _); [|reflexivity].
  cbn [bind]. destruct (metric_raw_spec a o m s c [] H) as [(m' & _ & ->) _]. reflexivity.
Qed.

Lemma find_ranges_raw_spec a o m ps s c buf : has_options a o m ->
  find_ranges_raw ps m s c buf
  = if length s <=? length (ps_chars ps)
    then Ok (option_map from_score (fst (raw_outcome a o s c)), buf ++ inserts [] (snd (raw_outcome a o s c)))
    else Panic.
Proof.
  intros H. unfold find_ranges_raw. rewrite parse_not_extended_correct. destruct (_ <=? _); [|reflexivity].
  cbn [bind]. destruct (metric_raw_spec a o m s c buf H) as [_ (m' & _ & ->)]. reflexivity.
Qed.

End Metrics.
