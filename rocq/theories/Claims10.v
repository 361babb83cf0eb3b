(** Proofs of C65: overflow checks. *)
From Verif Require Import Prelude Chars Normalize Utils Candidate MatchedRanges Query Parser Scoring
  Slab Fzf FzfV1 FzfV2 Api Checked History
  Spec PreludeProofs CharsProofs CandidateProofs ParserProofs
  ScoreProofs ExactProofs V1Proofs NormalizeProofs ApiProofs AcceptProofs Claims1 Claims3 Claims5 Claims6 CheckedProofs.
Local Open Scope nat_scope.

Section WithUnicode.
Context {UC : unicode}.

Lemma weight_texts q : Forall (Forall (fun t => length (t_text t) <= weight q)) q.
Proof.
  apply Forall_forall. intros g Hg. apply Forall_forall. intros t Ht. unfold weight.
  assert (H : In t (concat q)) by (apply in_concat; eauto). clear Hg Ht. revert H. generalize (concat q) as l.
  induction l as [|x l IH]; [contradiction|]. intros [<-|H]; (cbn [map]; rewrite list_sum_cons); [lia|]. specialize (IH H). lia.
Qed.

Lemma weight_conds q : texts_ok q -> Forall (fun g => g <> []) q -> length q <= weight q.
Proof.
  induction q as [|g q IH]; intros T G; [cbn; lia|]. apply Forall_cons_iff in T as [T1 T2]. apply Forall_cons_iff in G as [G1 G2].
  specialize (IH T2 G2). rewrite weight_cons. cbn [length]. destruct g as [|t g]; [congruence|].
  apply Forall_cons_iff in T1 as [T1 _]. cbn [map]. rewrite list_sum_cons. destruct (t_text t); [congruence|]. cbn [length]. lia.
Qed.

Lemma small_parsed N ps s q ps' : length s <= N ->
  parse ps s = Ok (q, ps') \/ parse_not_extended ps s = Ok (q, ps') -> small_query N q.
Proof.
  intros Hs [E|E].
  - destruct (parse_correct ps s) as (ps1 & E1 & _). rewrite E1 in E. injection E as <- _.
    pose proof (weight_le s) as W. pose proof (weight_texts (parse_spec s)) as T. destruct (parse_spec_ok s) as [T1 T2].
    pose proof (weight_conds _ T1 T2) as C.
    destruct (outcome_cases (parse_spec s)) as [(neg & text & Eq)|[_ Eq]].
    + rewrite Eq in *. cbn [query_of small_query]. apply Forall_inv in T. apply Forall_inv in T. cbn [t_text] in T.
      change (length text <= N). lia.
    + rewrite Eq. cbn [small_query]. rewrite map_length. split; [lia|]. apply Forall_map. eapply Forall_impl; [|exact T].
      intros g Hg. apply Forall_map. eapply Forall_impl; [|exact Hg]. intros t Ht. change (length (t_text t) <= N). cbv beta in Ht. lia.
  - rewrite parse_not_extended_correct in E. destruct (_ <=? _); [|discriminate]. injection E as <- _. exact Hs.
Qed.

Lemma no_overflow : forall a o m ps s q ps' c buf,
  metric_reached a o m ->
  parse ps s = Ok (q, ps') \/ parse_not_extended ps s = Ok (q, ps') ->
  (Z.of_nat (length s) < 2 ^ 28)%Z -> (Z.of_nat (length c) < 2 ^ 28)%Z ->
  metric_distance_ck m q c = metric_distance m q c
  /\ metric_distance_and_ranges_ck m q c buf = metric_distance_and_ranges m q c buf.
Proof.
  intros a o m ps s q ps' c buf Hm Hq Hs Hc. apply metric_reached_options in Hm.
  apply (metric_same (Nat.max 1 (Nat.max (length s) (length c))) a o); [exact Hm| | | |].
  - eapply small_parsed; [|exact Hq]. lia.
  - lia.
  - lia.
  - lia.
Qed.

(** In particular these calls return. *)
Lemma checked_total : forall a o m ps s q ps' c buf,
  metric_reached a o m -> parser_reached ps ->
  parse ps s = Ok (q, ps') \/ parse_not_extended ps s = Ok (q, ps') ->
  (Z.of_nat (length s) < 2 ^ 28)%Z -> (Z.of_nat (length c) < 2 ^ 28)%Z ->
  (exists d m', metric_distance_ck m q c = Ok (d, m'))
  /\ (exists d m' buf', metric_distance_and_ranges_ck m q c buf = Ok (d, m', buf')).
Proof.
  intros a o m ps s q ps' c buf Hm Hp Hq Hs Hc.
  destruct (no_overflow a o m ps s q ps' c buf Hm Hq Hs Hc) as [-> ->].
  apply (metric_total a o); [exact Hm|]. destruct Hq as [E|E]; [eapply qr_parse|eapply qr_parse_not_extended]; eauto.
Qed.

(** ** A run of 2^32 characters: the counter of type u32 overflows. *)
Lemma bind_panic {A B} (b : bool) (x : A) (k : A -> res B) :
  k x = Panic -> bind (if b then Ok x else Panic) k = Panic.
Proof. destruct b; auto. Qed.

Lemma long_loop eq s r st : eq 97%N 97%N = true ->
  cs_pattern_char st = 97%N -> cs_pattern_chars st = repeat 97%N r ->
  (2 ^ 32 <= Z.of_nat (cs_consecutive st + S r))%Z ->
  compute_score_loop_ck false eq s 0 (repeat 97%N (S r)) st = Panic.
Proof.
  intros He. revert st. induction r as [|r IH]; intros st E1 E2 Hn; cbn [repeat compute_score_loop_ck]; rewrite E1, He, E2;
    unfold i64 at 1; apply bind_panic.
  - destruct (cs_consecutive st =? 0); destruct (cs_first st); cbn [bind]; unfold i64; repeat match goal with |- bind (if (_ && _)%bool then _ else _) _ = _ => apply bind_panic end;
      (unfold u32; rewrite (proj2 (Z.ltb_ge _ _)); [reflexivity|lia]).
  - destruct (cs_consecutive st =? 0); destruct (cs_first st); cbn [bind]; unfold i64; repeat match goal with |- bind (if (_ && _)%bool then _ else _) _ = _ => apply bind_panic end;
      (unfold u32; apply bind_panic; cbn [repeat]; apply IH; [reflexivity|reflexivity|cbn [cs_consecutive]; lia]).
Qed.

Lemma char_eq_same sens norm x : char_eq sens norm x x = true.
Proof. apply char_eq_agrees. left. destruct sens; reflexivity. Qed.

Lemma long_run : forall a o m ps n,
  metric_reached a o m -> (2 ^ 32 <= Z.of_nat n)%Z ->
  exists q ps', parse ps (94%N :: repeat 97%N n) = Ok (q, ps')
    /\ (exists d m', metric_distance m q (repeat 97%N n) = Ok (d, m'))
    /\ metric_distance_ck m q (repeat 97%N n) = Panic.
Proof.
  intros a o m ps n Hm Hn. set (t := repeat 97%N n).
  assert (Ha : forall x, In x t -> x = 97%N) by (intros x H; exact (repeat_spec n 97%N x H)).
  assert (Hl : length t = n) by apply repeat_length.
  assert (Hn1 : n <> 0) by (intros ->; cbn in Hn; lia).
  assert (Et : t = 97%N :: repeat 97%N (n - 1)).
  { unfold t. destruct n as [|k]; [congruence|]. cbn [repeat]. replace (S k - 1) with k by lia. reflexivity. }
  assert (Hp : plain t).
  { split; [|split].
    - rewrite Et. discriminate.
    - rewrite Et. cbn. intuition discriminate.
    - assert (L : In (last t 0%N) t); [|rewrite (Ha _ L); discriminate].
      destruct (exists_last (l := t)) as (l & x & ->); [rewrite Et; discriminate|]. rewrite last_last. apply in_app_iff. right. left. reflexivity. }
  assert (Hbar : t <> [124%N]) by (rewrite Et; discriminate).
  assert (Hesc : escape (94%N :: t) = 94%N :: t).
  { unfold escape. cbn [flat_map N.eqb Pos.eqb app]. f_equal. clearbody t. clear - Ha. induction t as [|x t IH]; [reflexivity|].
    cbn [flat_map]. rewrite (Ha x (or_introl eq_refl)) at 1. cbn [N.eqb Pos.eqb app]. rewrite (Ha x (or_introl eq_refl)) at 1.
    f_equal; [|apply IH; intros y H; apply Ha; right; exact H]. symmetry. apply Ha. left. reflexivity. }
  pose proof (c30_sigils ps t Hp Hbar) as F. rewrite Forall_forall in F.
  specialize (F (94%N :: t, false, KPrefix) ltac:(cbn; tauto)). cbv beta iota in F. rewrite Hesc in F.
  destruct F as (q & ps' & E & R). exists q, ps'. split; [exact E|].
  assert (Eq : q = query_of [[Term false KPrefix t]]).
  { destruct (parse_correct ps (94%N :: t)) as (ps1 & E1 & _). rewrite E1 in E. injection E as <- _.
    rewrite read_query_of in R. rewrite R. reflexivity. }
  split.
  { destruct (metric_total a o m q t [] Hm) as [H _]; [|exact H].
    destruct (parse_correct parser_new (94%N :: t)) as (ps1 & E1 & _).
    destruct (parse_correct ps (94%N :: t)) as (ps2 & E2 & _). rewrite E2 in E. injection E as <- _.
    exact (qr_parse _ _ _ _ pr_new E1). }
  rewrite Eq. clear Eq R E q ps'. cbn [query_of map].
  assert (Hasc : forallb is_ascii t = true).
  { apply forallb_forall. intros x H. rewrite (Ha x H). reflexivity. }
  assert (G : forall eq s, eq 97%N 97%N = true ->
    prefix_match_ck false (pat_of (Term false KPrefix t)) (Ascii (encode t)) eq s (mranges_from []) = Panic).
  { intros eq s He. unfold prefix_match_ck. rewrite encode_ascii by exact Hasc.
    assert (Ee : p_is_empty (pat_of (Term false KPrefix t)) = false) by (rewrite Et; reflexivity). rewrite Ee.
    unfold ignored_candidate_leading_spaces. rewrite cand_leading_spaces_spec.
    assert (El : p_leading_spaces (pat_of (Term false KPrefix t)) = 0) by (rewrite Et; reflexivity).
    rewrite El. cbn [Nat.ltb Nat.leb].
    assert (Ec : count_while (fun b => (b =? SPACE)%N) (cand_slice (Ascii t)) = 0) by (rewrite Et; reflexivity).
    rewrite Ec. cbn [usub Nat.leb Nat.sub bind]. rewrite cand_chars_from_spec. cbn [cand_slice slice_from Nat.leb bind skipn].
    change (p_text (pat_of (Term false KPrefix t))) with t.
    rewrite (zip_eq_rest eq t t).
    2:{ clearbody t. clear - Ha He. induction t as [|x t IH]; [reflexivity|]. cbn [hits]. rewrite (Ha x (or_introl eq_refl)), He. apply IH. intros y H. apply Ha. right. exact H. }
    unfold finish_match_ck, compute_score_ck. cbn [Nat.eqb bind]. change (p_text (pat_of (Term false KPrefix t))) with t.
    change (p_char_len (pat_of (Term false KPrefix t))) with (length t). cbn [Nat.add].
    rewrite cand_slice_range_spec by (cbn [cand_slice]; lia). cbn [cand_slice cand_with bind skipn]. rewrite cand_chars_spec. cbn [cand_slice bind].
    rewrite Nat.sub_0_r, firstn_all. rewrite Et at 1.
    rewrite Et. replace (97%N :: repeat 97%N (n - 1)) with (repeat 97%N (S (n - 1))) by reflexivity.
    rewrite long_loop; [reflexivity|exact He|reflexivity|reflexivity|]. cbn [cs_consecutive]. lia. }
  destruct m as [m|m]; unfold metric_distance_ck, fzf_distance_ck; cbn [q_is_empty];
    unfold str_is_ascii; rewrite Hasc; cbn [bind];
    unfold fzf_search_ck; cbn [score_conditions_ck score_condition_ck]; unfold fzf_score_ck;
    change (p_is_inverse (pat_of (Term false KPrefix t))) with false;
    change (p_match_type (pat_of (Term false KPrefix t))) with PrefixExact; cbv beta iota zeta;
    (rewrite G; [reflexivity|apply char_eq_same]).
Qed.

End WithUnicode.
