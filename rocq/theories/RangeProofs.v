(** The ranges which a search appends. *)
From Coq Require Import Sorted.
From Verif Require Import Prelude Chars Normalize Utils Candidate MatchedRanges Query Parser Scoring
  Slab Fzf FzfV1 FzfV2 Api History Spec PreludeProofs CharsProofs NormalizeProofs CandidateProofs
  MatchedRangesProofs ParserProofs ScoreProofs ExactProofs ShapeProofs V1Proofs V2Tables V2Proofs V2Rows V2Fuzzy ApiProofs.
Local Open Scope nat_scope.

(** ** Insertions *)

Definition on_boundaries (c : str) (rs : list byte_range) : Prop :=
  Forall (fun r => boundary c (fst r) /\ boundary c (snd r)) rs.

Lemma inserts_boundaries c rs : on_boundaries c rs -> forall own, on_boundaries c own ->
  on_boundaries c (inserts own rs).
Proof.
  induction 1 as [|r rs [H1 H2] _ IH]; intros own Ho; [exact Ho|].
  cbn [inserts fold_left]. apply IH. apply ins_ends; assumption.
Qed.

Lemma inserts_sound rs : proper rs -> forall own b, chain 0 own ->
  covered (inserts own rs) b -> covered own b \/ covered rs b.
Proof.
  induction 1 as [|r rs Hr Hrs IH]; intros own b Ho H; [left; exact H|].
  cbn [inserts fold_left] in H. apply IH in H; [|apply ins_chain; [exact Hr|lia|exact Ho]].
  rewrite covered_cons. destruct H as [H|H]; [|tauto].
  eapply ins_adds in H; eauto. tauto.
Qed.

Lemma inserts_keep rs : proper rs -> forall own b, chain 0 own ->
  covered own b -> covered (inserts own rs) b.
Proof.
  induction 1 as [|r rs Hr Hrs IH]; intros own b Ho H; [exact H|].
  cbn [inserts fold_left]. apply IH; [apply ins_chain; [exact Hr|lia|exact Ho]|].
  eapply ins_keeps; eauto.
Qed.

(** The range of one character is inside or outside of a range which ends on boundaries. *)
Lemma char_range_atomic c j own : j < length c -> on_boundaries c own ->
  atomic own (fst (char_range c j)) (snd (char_range c j)).
Proof.
  intros Hj H. eapply Forall_impl; [|exact H]. cbv beta. intros [s e] [[k Hk] [n Hn]].
  cbn [fst snd char_range] in *. subst.
  destruct (Nat.le_gt_cases n j).
  - right. left. apply byte_len_firstn_le. assumption.
  - destruct (Nat.le_gt_cases k j).
    + left. split; apply byte_len_firstn_le; lia.
    + right. right. apply byte_len_firstn_le. lia.
Qed.

Lemma char_range_boundaries c ps : on_boundaries c (map (char_range c) ps).
Proof. apply Forall_map. apply Forall_forall. intros j _. split; eexists; reflexivity. Qed.

Lemma covered_char c ps b : Forall (fun j => j < length c) ps ->
  (covered (map (char_range c) ps) b <-> exists j, In j ps /\ byte_of_char c j b).
Proof.
  intros Hps. unfold covered, byte_of_char. split.
  - intros (r & Hr & Hb). apply in_map_iff in Hr as (j & <- & Hj). exists j. split; [exact Hj|].
    rewrite Forall_forall in Hps. split; [auto|]. exact Hb.
  - intros (j & Hj & _ & Hb). exists (char_range c j). split; [|exact Hb]. apply in_map. exact Hj.
Qed.

(** Inserting the ranges of single characters adds exactly these. *)
Lemma inserts_chars c ps : Forall (fun j => j < length c) ps -> forall own b,
  chain 0 own -> on_boundaries c own ->
  (covered (inserts own (map (char_range c) ps)) b
   <-> covered own b \/ covered (map (char_range c) ps) b).
Proof.
  intros Hps own b Ho Hb. split.
  - apply inserts_sound; [apply char_ranges_proper; exact Hps|exact Ho].
  - revert own Ho Hb. induction Hps as [|j ps Hj Hps IH]; intros own Ho Hb H.
    + destruct H as [H|H]; [exact H|destruct (covered_nil _ H)].
    + cbn [map inserts fold_left] in *. pose proof (char_range_proper c j Hj) as Hp.
      assert (G1 : chain 0 (ins own (fst (char_range c j)) (snd (char_range c j))))
        by (apply ins_chain; [exact Hp|lia|exact Ho]).
      assert (G2 : on_boundaries c (ins own (fst (char_range c j)) (snd (char_range c j)))).
      { apply ins_ends; [eexists; reflexivity..|exact Hb]. }
      apply IH; [exact G1|exact G2|]. rewrite covered_cons in H. destruct H as [H|[H|H]].
      * left. eapply ins_keeps; eauto.
      * left. eapply ins_covers; eauto. apply char_range_atomic; assumption.
      * right. exact H.
Qed.

(** A canonical list is determined by the bytes it covers. *)
Lemma chain_unique : forall rs rs' lo lo', chain lo rs -> chain lo' rs' ->
  (forall b, covered rs b <-> covered rs' b) -> rs = rs'.
Proof.
  assert (Hlow : forall s e t lo b, chain lo ((s, e) :: t) -> covered ((s, e) :: t) b -> s <= b).
  { intros s e t lo b (_ & H1 & H2) C. apply covered_cons in C as [C|C]; [simpl in C; lia|].
    destruct C as (r & Hr & Hb). apply chain_bound in H2. rewrite Forall_forall in H2. apply H2 in Hr. lia. }
  assert (Hnext : forall e t b, chain (S e) t -> covered t b -> e < b).
  { intros e t b H C. destruct C as (r & Hr & Hb). apply chain_bound in H. rewrite Forall_forall in H.
    apply H in Hr. lia. }
  induction rs as [|[s e] t IH]; intros [|[s' e'] t'] lo lo' H H' C.
  - reflexivity.
  - exfalso. destruct H' as (_ & Hse & _). apply (covered_nil s'). apply C. apply covered_cons. left. simpl. lia.
  - exfalso. destruct H as (_ & Hse & _). apply (covered_nil s). apply C. apply covered_cons. left. simpl. lia.
  - pose proof H as H0. pose proof H' as H0'. destruct H as (_ & Hse & Ht). destruct H' as (_ & Hse' & Ht').
    assert (s = s').
    { assert (covered ((s', e') :: t') s) by (apply C; apply covered_cons; left; simpl; lia).
      assert (covered ((s, e) :: t) s') by (apply C; apply covered_cons; left; simpl; lia).
      eapply Hlow in H; eauto. eapply Hlow in H1; eauto. lia. }
    subst s'.
    assert (Hn : forall e t, chain (S e) t -> ~ covered t e).
    { intros e0 t0 Hc Hcov. eapply Hnext in Hcov; eauto. lia. }
    assert (e = e').
    { destruct (Nat.lt_trichotomy e e') as [L|[E|L]]; [exfalso|exact E|exfalso].
      - assert (K : covered ((s, e) :: t) e) by (apply C; apply covered_cons; left; simpl; lia).
        apply covered_cons in K as [K|K]; [simpl in K; lia|]. exact (Hn _ _ Ht K).
      - assert (K : covered ((s, e') :: t') e') by (apply C; apply covered_cons; left; simpl; lia).
        apply covered_cons in K as [K|K]; [simpl in K; lia|]. exact (Hn _ _ Ht' K). }
    subst e'. f_equal. eapply IH; eauto. intros b. split; intros K.
    + pose proof (Hnext _ _ _ Ht K). assert (G : covered ((s, e) :: t') b) by (apply C, covered_cons; tauto).
      apply covered_cons in G as [G|G]; [simpl in G; lia|exact G].
    + pose proof (Hnext _ _ _ Ht' K). assert (G : covered ((s, e) :: t) b) by (apply C, covered_cons; tauto).
      apply covered_cons in G as [G|G]; [simpl in G; lia|exact G].
Qed.

Lemma canonical_unique rs rs' : canonical rs -> canonical rs' ->
  (forall b, covered rs b <-> covered rs' b) -> rs = rs'.
Proof. rewrite !chain_canonical. apply chain_unique. Qed.

(** ** The ranges of an outcome *)
Section Outcome.
Context {UC : unicode}.
Variables (a : algo) (o : options).

Lemma fuzzy_outcome_chars text l sc rs : text <> [] -> fuzzy_outcome a o text l = Some (sc, rs) ->
  exists ps, rs = map (char_range l) ps /\ Forall (fun j => j < length l) ps.
Proof.
  intros Ht. unfold fuzzy_outcome. destruct a.
  - destruct (v1_positions _ _ _ _) as [ps|] eqn:E; [|discriminate]. intros H. injection H as _ <-.
    exists ps. split; [reflexivity|]. eapply aligned_bound. eapply v1_positions_aligned; eauto.
  - destruct (v2_result _ _ _ _ _) as [[sc' ps]|] eqn:E; [|discriminate]. intros H. injection H as _ <-.
    exists ps. split; [reflexivity|]. eapply v2_result_bound; eauto.
Qed.

Lemma base_outcome_boundaries t l sc rs : t_text t <> [] -> base_outcome a o t l = Some (sc, rs) ->
  on_boundaries l rs.
Proof.
  intros Ht. unfold base_outcome.
  destruct (t_kind t).
  1: { intros H. apply fuzzy_outcome_chars in H as (ps & -> & _); [|exact Ht]. apply char_range_boundaries. }
  all: destruct (place_found o t l); [|discriminate]; intros H; injection H as _ <-;
    constructor; [|constructor]; split; eexists; reflexivity.
Qed.

Lemma term_outcome_boundaries t l sc rs : t_text t <> [] -> term_outcome a o t l = Some (sc, rs) ->
  on_boundaries l rs.
Proof.
  intros Ht. unfold term_outcome. destruct (t_neg t).
  - destruct (base_outcome a o t l); [discriminate|]. intros H. injection H as _ <-. constructor.
  - apply base_outcome_boundaries. exact Ht.
Qed.

Lemma either_outcome_boundaries g l sc rs : Forall (fun t => t_text t <> []) g ->
  either_outcome a o g l = Some (sc, rs) -> on_boundaries l rs.
Proof.
  induction 1 as [|t g Ht Hg IH]; cbn [either_outcome]; [discriminate|].
  destruct (term_outcome a o t l) as [[sc' rs']|] eqn:E; [|exact IH].
  intros H. injection H as <- <-. eapply term_outcome_boundaries; eauto.
Qed.

Lemma all_outcome_boundaries q l : texts_ok q -> on_boundaries l (snd (all_outcome a o q l)).
Proof.
  induction 1 as [|g q Hg Hq IH]; cbn [all_outcome]; [constructor|].
  destruct (either_outcome a o g l) as [[sc rs]|] eqn:E; [|constructor].
  destruct (all_outcome a o q l) as [tot rs']. cbn [snd] in *. apply Forall_app. split; [|exact IH].
  eapply either_outcome_boundaries; eauto.
Qed.

Lemma fuzzy_case_boundaries text l : text <> [] ->
  on_boundaries l (snd (match fuzzy_outcome a o text l with
               | Some (sc, rs) => (Some sc, rs)
               | None => (None, [])
               end)).
Proof.
  intros Ht. destruct (fuzzy_outcome a o text l) as [[sc rs]|] eqn:E; [|constructor].
  apply fuzzy_outcome_chars in E as (ps & -> & _); [|exact Ht]. apply char_range_boundaries.
Qed.

Lemma outcome_boundaries q l : texts_ok q -> on_boundaries l (snd (outcome a o q l)).
Proof.
  intros H. destruct (outcome_cases q) as [(neg & text & ->)|[E _]].
  - apply fuzzy_case_boundaries. inversion H as [|? ? H1]; subst. inversion H1; subst. assumption.
  - rewrite E. apply all_outcome_boundaries. exact H.
Qed.

Lemma raw_outcome_boundaries text l : on_boundaries l (snd (raw_outcome a o text l)).
Proof.
  destruct text as [|x t]; [constructor|]. apply (fuzzy_case_boundaries (x :: t)). discriminate.
Qed.

(** ** Sound and complete *)

(** A positive term which was used. *)
Lemma either_source g l sc rs : either_outcome a o g l = Some (sc, rs) ->
  exists g1 t g2, g = g1 ++ t :: g2 /\ Forall (fun u => term_outcome a o u l = None) g1
                  /\ term_outcome a o t l = Some (sc, rs).
Proof.
  induction g as [|t g IH]; cbn [either_outcome]; [discriminate|].
  destruct (term_outcome a o t l) as [[sc' rs']|] eqn:E.
  - intros H. injection H as <- <-. exists [], t, g. auto.
  - intros H. apply IH in H as (g1 & t' & g2 & -> & H1 & H2). exists (t :: g1), t', g2.
    split; [reflexivity|]. split; [constructor; assumption|assumption].
Qed.

Lemma term_source t l sc rs b : term_outcome a o t l = Some (sc, rs) -> covered rs b ->
  t_neg t = false /\ base_outcome a o t l = Some (sc, rs).
Proof.
  unfold term_outcome. destruct (t_neg t); [|auto].
  destruct (base_outcome a o t l); [discriminate|]. intros H C. injection H as <- <-.
  destruct (covered_nil _ C).
Qed.

Lemma all_source q l b : covered (snd (all_outcome a o q l)) b ->
  exists g t sc rs, In g q /\ In t g /\ t_neg t = false /\ base_outcome a o t l = Some (sc, rs) /\ covered rs b.
Proof.
  induction q as [|g q IH]; cbn [all_outcome]; intros C; [destruct (covered_nil _ C)|].
  destruct (either_outcome a o g l) as [[sc rs]|] eqn:E; [|destruct (covered_nil _ C)].
  destruct (all_outcome a o q l) as [tot rs']. cbn [snd] in *. apply covered_app in C as [C|C].
  - apply either_source in E as (g1 & t & g2 & -> & _ & E). pose proof (term_source _ _ _ _ _ E C) as [H1 H2].
    exists (g1 ++ t :: g2), t, sc, rs. repeat split; auto; [left; reflexivity|]. apply in_or_app. right. left. reflexivity.
  - apply IH in C as (g' & t & sc' & rs'' & H1 & H2 & H3 & H4 & H5). exists g', t, sc', rs''.
    repeat split; auto. right. exact H1.
Qed.

End Outcome.
