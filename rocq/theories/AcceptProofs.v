(** Which candidates a search accepts. *)
From Coq Require Import Sorted.
From Verif Require Import Prelude Chars Normalize Utils Candidate MatchedRanges Query Parser Scoring
  Slab Fzf FzfV1 FzfV2 Api History Spec PreludeProofs CharsProofs NormalizeProofs CandidateProofs
  MatchedRangesProofs ParserProofs ScoreProofs ExactProofs ShapeProofs V1Proofs V2Tables V2Proofs V2Rows V2Fuzzy ApiProofs.
Local Open Scope nat_scope.

Section Accept.
Context {UC : unicode}.

Lemma v1_positions_iff sens norm p l : p <> [] ->
  (fuzzy_in (agrees sens norm) p l <-> exists ps, v1_positions sens norm p l = Some ps).
Proof.
  intros Hp. rewrite greedy_fuzzy. split.
  - intros [fs G]. destruct (v1_window sens norm _ _ _ Hp G) as (s & ps & _ & _ & _ & Ev & _). eauto.
  - intros [ps H]. unfold v1_positions in H. destruct (greedy _ p l 0); [eauto|discriminate].
Qed.

Lemma v2_result_iff sens norm sch p l : p <> [] ->
  (fuzzy_in (agrees sens norm) p l <-> exists r, v2_result sens norm sch p l = Some r).
Proof.
  intros Hp. rewrite greedy_fuzzy. unfold v2_result. split.
  - intros [fs G]. rewrite G. apply greedy_sound in G.
    destruct (last_col_ge sens norm p l fs Hp G) as (j & -> & _).
    destruct (v2_best _ _ _ _ _ _ _). eauto.
  - intros [ps H]. destruct (greedy _ p l 0); [eauto|discriminate].
Qed.

Variable (o : options).
Notation eqv text := (agrees (sensitive_for (opt_case o) text) (opt_norm o)).

Lemma fuzzy_outcome_iff a text l : text <> [] ->
  (fuzzy_in (eqv text) text l <-> exists r, fuzzy_outcome a o text l = Some r).
Proof.
  intros Ht. unfold fuzzy_outcome. destruct a.
  - rewrite v1_positions_iff by exact Ht. split.
    + intros [ps ->]. eauto.
    + intros [r H]. destruct (v1_positions _ _ _ _); [eauto|discriminate].
  - rewrite (v2_result_iff _ _ (opt_scheme o)) by exact Ht. split.
    + intros [[sc ps] ->]. eauto.
    + intros [r H]. destruct (v2_result _ _ _ _ _); [eauto|discriminate].
Qed.

Lemma exact_find_iff t l : t_text t <> [] ->
  (exact_in (eqv (t_text t)) (t_text t) l
   <-> exists i, exact_find (char_eq (sensitive_for (opt_case o) (t_text t)) (opt_norm o)) (opt_scheme o) (pat_of t) l
                 = Some i).
Proof.
  intros Ht. split.
  - intros [i Hi]. apply occurs_at_occ in Hi. destruct (exact_find _ _ _ _) eqn:E; [eauto|].
    exfalso. eapply (exact_find_none _ _ (pat_of t)); eauto.
  - intros [i Hi]. apply exact_find_some in Hi as [Hi _]; [|exact Ht]. exists i.
    apply occ_occurs_at; auto.
Qed.

Lemma base_outcome_place a t l : t_kind t <> KFuzzy ->
  ((exists r, base_outcome a o t l = Some r) <-> exists i, place_found o t l = Some i).
Proof.
  intros Hk. unfold base_outcome. destruct (t_kind t); [congruence|..];
    (destruct (place_found o t l); split; intros [x H]; try discriminate; eauto).
Qed.

Lemma place_found_iff t l : t_kind t <> KFuzzy -> t_text t <> [] -> ~ blank_equal t ->
  (text_matches (opt_case o) (opt_norm o) (t_kind t) (t_text t) l
   <-> exists i, place_found o t l = Some i).
Proof.
  intros Hk Ht Hb. unfold text_matches, place_found. destruct (t_kind t) eqn:K; [congruence|..].
  - apply exact_find_iff. exact Ht.
  - apply prefix_find_in.
  - apply suffix_find_in.
  - apply equal_find_in. intros E. apply Hb. split; assumption.
Qed.

Lemma base_outcome_iff a t l : t_text t <> [] -> ~ blank_equal t ->
  (text_matches (opt_case o) (opt_norm o) (t_kind t) (t_text t) l
   <-> exists r, base_outcome a o t l = Some r).
Proof.
  intros Ht Hb. destruct (t_kind t) eqn:K.
  1: { unfold base_outcome. rewrite K. apply fuzzy_outcome_iff. exact Ht. }
  all: rewrite base_outcome_place by congruence; rewrite <- place_found_iff by congruence; rewrite K; reflexivity.
Qed.

(** Spaces agree with spaces only, so that for [`^ $`] the candidate must be the text itself. *)
Lemma base_outcome_blank a t l : t_text t <> [] -> blank_equal t ->
  ((exists r, base_outcome a o t l = Some r) <-> l = t_text t).
Proof.
  intros Ht [Hk Hb]. rewrite base_outcome_place by congruence. unfold place_found. rewrite Hk.
  set (n := length (t_text t)) in *. assert (1 <= n) by (destruct (t_text t); [congruence|simpl in n; lia]).
  rewrite Hb. apply equal_find_blank. assumption.
Qed.

Lemma some_or_none {A} (x : option A) : (exists r, x = Some r) \/ x = None.
Proof. destruct x; eauto. Qed.

Lemma term_outcome_iff a t l : t_text t <> [] -> ~ blank_equal t ->
  (term_accepts (opt_case o) (opt_norm o) t l <-> exists r, term_outcome a o t l = Some r).
Proof.
  intros Ht Hb. unfold term_accepts, term_outcome. pose proof (base_outcome_iff a t l Ht Hb) as H.
  destruct (t_neg t); [|exact H]. rewrite H. destruct (base_outcome a o t l) as [r|].
  - split; [intros G; exfalso; apply G; eauto|intros [r' G]; discriminate].
  - split; [eauto|]. intros _ [r G]. discriminate.
Qed.

Lemma either_outcome_iff a g l : Forall (fun t => t_text t <> []) g -> Forall (fun t => ~ blank_equal t) g ->
  (Exists (fun t => term_accepts (opt_case o) (opt_norm o) t l) g <-> exists r, either_outcome a o g l = Some r).
Proof.
  induction 1 as [|t g Ht Hg IH]; intros Hb.
  - split; [intros H; inversion H|intros [r H]; discriminate].
  - inversion Hb as [|? ? Hbt Hbg]; subst. specialize (IH Hbg). cbn [either_outcome].
    pose proof (term_outcome_iff a t l Ht Hbt) as T. rewrite Exists_cons, T, IH.
    destruct (term_outcome a o t l) as [r|].
    + split; [eauto|]. intros _. left. eauto.
    + split; [intros [[r H]|H]; [discriminate|exact H]|]. tauto.
Qed.

Lemma all_outcome_iff a q l : texts_ok q -> Forall (Forall (fun t => ~ blank_equal t)) q ->
  (cnf_accepts (opt_case o) (opt_norm o) q l <-> exists sc, fst (all_outcome a o q l) = Some sc).
Proof.
  unfold cnf_accepts. induction 1 as [|g q Hg Hq IH]; intros Hb.
  - split; [cbn; eauto|constructor].
  - inversion Hb as [|? ? Hbg Hbq]; subst. specialize (IH Hbq).
    rewrite Forall_cons_iff, IH, (either_outcome_iff a g l Hg Hbg). cbn [all_outcome].
    destruct (either_outcome a o g l) as [[sc rs]|].
    + destruct (all_outcome a o q l) as [[tot|] rs']; cbn [fst option_map];
        split; [eauto|eauto| |]; [intros [_ [x H]]; discriminate|intros [x H]; discriminate].
    + split; [intros [[r H] _]; discriminate|intros [sc H]; discriminate].
Qed.

Lemma outcome_iff a q l : texts_ok q -> regular q ->
  (cnf_accepts (opt_case o) (opt_norm o) q l <-> exists sc, fst (outcome a o q l) = Some sc).
Proof.
  intros Hq [Hl Hb]. destruct (outcome_cases q) as [(neg & text & ->)|[E _]].
  - assert (neg = false) by (destruct neg; [exfalso; apply Hl; eexists; reflexivity|reflexivity]). subst.
    rewrite (all_outcome_iff a _ l Hq Hb). cbn. unfold term_outcome. cbn.
    unfold base_outcome. cbn. destruct (fuzzy_outcome a o text l) as [[sc rs]|]; cbn; split; intros [x H];
      try discriminate; eauto.
  - rewrite E. apply all_outcome_iff; assumption.
Qed.

Lemma raw_outcome_iff a text l :
  (fuzzy_in (eqv text) text l <-> exists sc, fst (raw_outcome a o text l) = Some sc).
Proof.
  destruct text as [|x t].
  - split; [cbn; eauto|]. intros _. exists []. split; constructor.
  - rewrite (fuzzy_outcome_iff a) by discriminate. unfold raw_outcome.
    destruct (fuzzy_outcome a o (x :: t) l) as [[sc rs]|]; split; intros [r H]; cbn in *; try discriminate; eauto.
Qed.

(** The two metrics accept the same candidates, for all queries. *)
Definition opt_none {A} (x : option A) : bool := match x with None => true | Some _ => false end.

Lemma opt_none_iff {A B} (x : option A) (y : option B) :
  ((exists r, x = Some r) <-> (exists r, y = Some r)) -> opt_none x = opt_none y.
Proof.
  intros [H1 H2]. destruct x, y; try reflexivity.
  - destruct H1 as [r H]; [eauto|discriminate].
  - destruct H2 as [r H]; [eauto|discriminate].
Qed.

Lemma fuzzy_same text l a b : text <> [] -> opt_none (fuzzy_outcome a o text l) = opt_none (fuzzy_outcome b o text l).
Proof.
  intros Ht. apply opt_none_iff. rewrite <- !fuzzy_outcome_iff by exact Ht. reflexivity.
Qed.

Lemma base_same t l a b : t_text t <> [] -> opt_none (base_outcome a o t l) = opt_none (base_outcome b o t l).
Proof.
  intros Ht. unfold base_outcome. destruct (t_kind t); try reflexivity. apply fuzzy_same. exact Ht.
Qed.

Lemma term_same t l a b : t_text t <> [] -> opt_none (term_outcome a o t l) = opt_none (term_outcome b o t l).
Proof.
  intros Ht. unfold term_outcome. pose proof (base_same t l a b Ht) as H.
  destruct (t_neg t); [|exact H].
  destruct (base_outcome a o t l), (base_outcome b o t l); cbn in *; congruence.
Qed.

Lemma either_same g l a b : Forall (fun t => t_text t <> []) g ->
  opt_none (either_outcome a o g l) = opt_none (either_outcome b o g l).
Proof.
  induction 1 as [|t g Ht Hg IH]; [reflexivity|]. cbn [either_outcome].
  pose proof (term_same t l a b Ht) as T.
  destruct (term_outcome a o t l), (term_outcome b o t l); cbn in T; try discriminate; auto.
Qed.

Lemma all_same q l a b : texts_ok q ->
  opt_none (fst (all_outcome a o q l)) = opt_none (fst (all_outcome b o q l)).
Proof.
  induction 1 as [|g q Hg Hq IH]; [reflexivity|]. cbn [all_outcome].
  pose proof (either_same g l a b Hg) as T.
  destruct (either_outcome a o g l) as [[s r]|], (either_outcome b o g l) as [[s' r']|]; cbn in T; try discriminate; auto.
  destruct (all_outcome a o q l) as [[x|] y], (all_outcome b o q l) as [[x'|] y']; cbn in *; auto.
Qed.

Lemma outcome_same q l a b : texts_ok q ->
  opt_none (fst (outcome a o q l)) = opt_none (fst (outcome b o q l)).
Proof.
  intros Hq. destruct (outcome_cases q) as [(neg & text & ->)|[E _]].
  - cbn. assert (Ht : text <> []).
    { inversion Hq as [|? ? H]; subst. inversion H; subst. assumption. }
    pose proof (fuzzy_same text l a b Ht) as T.
    destruct (fuzzy_outcome a o text l) as [[]|], (fuzzy_outcome b o text l) as [[]|]; cbn in *; congruence.
  - rewrite !E. apply all_same. exact Hq.
Qed.

Lemma raw_same text l a b :
  opt_none (fst (raw_outcome a o text l)) = opt_none (fst (raw_outcome b o text l)).
Proof. apply opt_none_iff. rewrite <- !raw_outcome_iff. reflexivity. Qed.

End Accept.
