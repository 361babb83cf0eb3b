(** Further properties: corollaries in observable terms, and facts about the vocabulary of the
    statements themselves. *)
From Coq Require Import Sorted.
From Verif Require Import Prelude Chars Normalize Utils Candidate Query Parser Scoring Slab Fzf FzfV1 FzfV2 Api History Spec.
From Verif Require Import PreludeProofs CharsProofs NormalizeProofs ParserProofs WordsProofs ApiProofs V2Proofs V2Fuzzy.
From Verif Require Import Claims1 Claims2 Claims3 Claims4 Claims5.
From Coq Require Import Lia.

(** ** Canonical lists of ranges are determined by the bytes they cover *)

Lemma canonical_cons (r : byte_range) rs : canonical (r :: rs) ->
  fst r < snd r /\ canonical rs /\ Forall (fun r' => snd r < fst r') rs.
Proof. intros [F S]. inversion F; inversion S; subst. repeat split; assumption. Qed.

Lemma covered_cons (r : byte_range) rs b : covered (r :: rs) b <-> fst r <= b < snd r \/ covered rs b.
Proof.
  split.
  - intros (x & [<-|H] & Hb); [left; exact Hb|right; exists x; auto].
  - intros [H|(x & H & Hb)]; [exists r; split; [left; reflexivity|exact H]|exists x; split; [right; exact H|exact Hb]].
Qed.

Lemma covered_after (r : byte_range) rs b : Forall (fun r' => snd r < fst r') rs -> covered rs b -> snd r < b.
Proof. rewrite Forall_forall. intros F (x & Hx & Hb). specialize (F x Hx). lia. Qed.

Lemma canonical_unique : forall rs rs', canonical rs -> canonical rs' ->
  (forall b, covered rs b <-> covered rs' b) -> rs = rs'.
Proof.
  induction rs as [|[s e] rs IH]; intros [|[s' e'] rs'] C C' H.
  - reflexivity.
  - apply canonical_cons in C' as (L & _). cbn in L. destruct (proj2 (H s')) as (x & [] & _).
    apply covered_cons. left. cbn. lia.
  - apply canonical_cons in C as (L & _). cbn in L. destruct (proj1 (H s)) as (x & [] & _).
    apply covered_cons. left. cbn. lia.
  - apply canonical_cons in C as (L & C & A). apply canonical_cons in C' as (L' & C' & A'). cbn in L, L'.
    assert (G : forall s e rs s' e' rs', s < e -> s' < e' ->
               Forall (fun r' => e < fst r') rs -> Forall (fun r' => e' < fst r') rs' ->
               (forall b, covered ((s, e) :: rs) b -> covered ((s', e') :: rs') b) -> s' <= s).
    { clear. intros s e rs s' e' rs' L L' A A' H. specialize (H s). rewrite !covered_cons in H. cbn in H.
      destruct H as [H|H]; [lia|lia|]. pose proof (covered_after (s', e') _ _ A' H). cbn in *. lia. }
    cbn in A, A'. assert (s = s') as <-.
    { apply Nat.le_antisymm.
      - apply (G s' e' rs' s e rs); auto. intros b. apply H.
      - apply (G s e rs s' e' rs'); auto. intros b. apply H. }
    assert (K : forall e rs e' rs', s < e -> s < e' ->
               Forall (fun r' => e < fst r') rs -> Forall (fun r' => e' < fst r') rs' ->
               (forall b, covered ((s, e) :: rs) b -> covered ((s, e') :: rs') b) -> e <= e').
    { clear. intros e rs e' rs' L L' A A' H. destruct (Nat.le_gt_cases e e'); [assumption|]. exfalso.
      specialize (H e'). rewrite !covered_cons in H. cbn in H. destruct H as [H|H]; [lia|lia|].
      pose proof (covered_after (s, e') _ _ A' H). cbn in *. lia. }
    assert (e = e') as <-.
    { apply Nat.le_antisymm; [apply (K e rs e' rs')|apply (K e' rs' e rs)]; auto; intros b; apply H. }
    f_equal. apply IH; [assumption|assumption|]. intros b. specialize (H b). rewrite !covered_cons in H. cbn in H.
    split; intros Hb.
    + pose proof (covered_after (s, e) _ _ A Hb). cbn in *. destruct (proj1 H) as [?|?]; [auto|lia|assumption].
    + pose proof (covered_after (s, e) _ _ A' Hb). cbn in *. destruct (proj2 H) as [?|?]; [auto|lia|assumption].
Qed.

(** In an ASCII text, byte and character positions coincide. *)
Lemma ascii_byte_of_char c j b : forallb is_ascii c = true -> byte_of_char c j b -> j < length c /\ b = j.
Proof.
  intros H [Hj Hb]. split; [exact Hj|].
  assert (G : forall n, byte_len (firstn n c) = length (firstn n c)).
  { intros n. apply byte_len_ascii. rewrite <- (firstn_skipn n c), forallb_app in H. apply andb_true_iff in H. apply H. }
  rewrite !G, !firstn_length in Hb. lia.
Qed.

(** ** C37 *)

Lemma table_letters : forallb (fun e => negb (fst e <? 128) && (((65 <=? snd e) && (snd e <=? 90)) || ((97 <=? snd e) && (snd e <=? 122))))%N
  (first_batch ++ second_batch ++ third_batch) = true.
Proof. vm_compute. reflexivity. Qed.

Lemma normal_form_letter : forall c, normal_form c = c \/ ascii_letter (normal_form c).
Proof.
  intros c. unfold normal_form. destruct (List.find _ _) as [e|] eqn:E; [|left; reflexivity].
  apply find_some in E as [He _]. pose proof table_letters as T. rewrite forallb_forall in T. specialize (T e He).
  apply andb_true_iff in T as [_ T]. right. unfold ascii_letter.
  apply orb_true_iff in T as [T|T]; apply andb_true_iff in T as [T1 T2]; apply N.leb_le in T1, T2; lia.
Qed.

Lemma c37_scalar : forall c, scalar c -> scalar (normalize c).
Proof.
  intros c H. rewrite normalize_normal_form. destruct (normal_form_letter c) as [->|L]; [exact H|].
  unfold ascii_letter in L. left. lia.
Qed.

Lemma c37_casts : forall b, In b [first_batch; second_batch; third_batch] ->
  (exists l, linearize b = Ok l) /\ forall i, (i < N.of_nat (linearized_len b))%N -> scalar (batch_start b + i)%N.
Proof.
  intros b [<-|[<-|[<-|[]]]]; (split; [eexists; vm_compute; reflexivity|]);
    intros i Hi; left; unfold linearized_len in Hi; rewrite N2Nat.id in Hi;
    match type of Hi with (_ < ?x)%N => let y := eval vm_compute in x in change x with y in Hi end;
    match goal with |- (?x + _ < _)%N => let y := eval vm_compute in x in change x with y end; lia.
Qed.

(** ** C10 *)

Lemma tokens_spaces n : tokens (spaces n) = repeat Sep n.
Proof. induction n; [reflexivity|]. cbn. f_equal. assumption. Qed.

Lemma words_spaces n : words_of (spaces n) = [].
Proof. unfold words_of. rewrite tokens_spaces. induction n; [reflexivity|]. cbn. assumption. Qed.

Section WithUnicode.
Context {UC : unicode}.

Lemma c10_spaces : forall a o m ps n c buf, metric_reached a o m ->
  find ps m (spaces n) c = Ok (Some default_distance)
  /\ find_ranges ps m (spaces n) c buf = Ok (Some default_distance, buf).
Proof. intros a o m ps n c buf Hm. apply (c10_blank a o); [exact Hm|]. rewrite words_spaces. constructor. Qed.

(** ** C30 *)

Lemma plain_bar t : plain t -> t <> [124%N] -> is_bar t = false.
Proof.
  intros _ H. destruct t as [|x [|y t]]; try reflexivity. cbn. destruct (N.eqb_spec x 124); congruence.
Qed.

Lemma c30_sigils : forall ps t, plain t -> t <> [124%N] ->
  Forall (fun '(w, neg, k) =>
            exists q ps', parse ps (escape w) = Ok (q, ps') /\ read_query q = [[Term neg k t]])
    [(t, false, KFuzzy);                        (* foo *)
     (39%N :: t, false, KExact);                (* 'foo *)
     (94%N :: t, false, KPrefix);               (* ^foo *)
     (t ++ [36%N], false, KSuffix);             (* foo$ *)
     (94%N :: t ++ [36%N], false, KEqual);      (* ^foo$ *)
     (33%N :: t, true, KExact);                 (* !foo *)
     (33%N :: 39%N :: t, true, KFuzzy);         (* !'foo *)
     (33%N :: 94%N :: t, true, KPrefix);        (* !^foo *)
     (33%N :: t ++ [36%N], true, KSuffix);      (* !foo$ *)
     (33%N :: 94%N :: t ++ [36%N], true, KEqual) (* !^foo$ *)].
Proof.
  intros ps t Hp Hb. assert (Ht : t <> []) by apply Hp.
  assert (G : forall w neg k, w <> [] -> is_bar w = false -> term_of w = Some (Term neg k t) ->
            exists q ps', parse ps (escape w) = Ok (q, ps') /\ read_query q = [[Term neg k t]]).
  { intros w neg k Hw Hbar E. destruct (c30_lone_word ps w Hw) as (q & ps' & E1 & E2). exists q, ps'. split; [exact E1|].
    rewrite E2. unfold is_term. rewrite Hbar, E. reflexivity. }
  destruct t as [|x t]; [congruence|].
  destruct (sigil_table (x :: t) Hp) as (H1 & H2 & H3 & H4 & H5 & H6 & H7 & H8 & H9 & H10).
  repeat apply Forall_cons; try apply Forall_nil; apply G;
    try discriminate; try assumption; try reflexivity.
  - apply plain_bar; assumption.
  - destruct t; reflexivity.
Qed.

(** ** Nothing above is empty talk: every option setting and every fuzzy term can be had *)

Lemma options_reached : forall a o, exists m, metric_reached a o m.
Proof.
  intros a o.
  exists (set_scoring_scheme (set_candidate_normalization (set_case_sensitivity (metric_new a) (opt_case o)) (opt_norm o)) (opt_scheme o)).
  assert (o = with_scheme (with_norm (with_case default_options (opt_case o)) (opt_norm o)) (opt_scheme o)) as E by (destruct o; reflexivity).
  rewrite E at 1. do 4 constructor.
Qed.

Lemma fuzzy_query_exists : forall text, exists q, fuzzy_query text q /\ query_reached q.
Proof.
  intros text. destruct (parse_correct parser_new text) as (ps & E & _).
  destruct (c15_after_parse parser_new text _ ps text E (length_le_byte_len text)) as (q & ps' & E').
  exists q. split.
  - exists ps, ps'. right. exact E'.
  - eapply qr_parse_not_extended; [|exact E']. eapply pr_parse; [constructor|exact E].
Qed.

(** ** C40: a window exists whenever there is an alignment *)

Lemma window_exists : forall o text c, text <> [] -> fuzzy_in (agreement o text) text c ->
  exists js, window (agreement o text) text c js.
Proof.
  intros o text c Ht F. destruct (options_reached AlgoV1 o) as [m Hm]. destruct (fuzzy_query_exists text) as (q & Hq & Hr).
  destruct (c01_same_distance AlgoV1 o m m q c [] Hm Hm Hr) as (r & m1 & m2 & buf' & E1 & E2).
  apply (fuzzy_iff AlgoV1 o m text q c r m1 Hm Hq E1) in F as [d ->].
  destruct (c40_v1_window o m text q c [] d m2 buf' Hm Hq Ht E2) as (new & js & _ & W & _).
  exists js. exact W.
Qed.

(** ** C43: the hypotheses of [c43_v2_recurrence] can be met whenever there is an alignment *)

Lemma table_exists : forall o text c, text <> [] -> fuzzy_in (agreement o text) text c ->
  exists (hit : nat -> nat -> bool) fs stop y,
    (forall i j, hit i j = true <->
       exists x z, nth_error text i = Some x /\ nth_error c j = Some z /\ agreement o text x z)
    /\ leftmost (agreement o text) text c fs
    /\ nth_error c stop = Some y /\ agreement o text (last text 0%N) y
    /\ forall k z, stop < k -> nth_error c k = Some z -> ~ agreement o text (last text 0%N) z.
Proof.
  intros o text c Ht F. destruct (options_reached AlgoV2 o) as [m Hm]. destruct (fuzzy_query_exists text) as (q & Hq & Hr).
  destruct (c01_same_distance AlgoV2 o m m q c [] Hm Hm Hr) as (r & m1 & m2 & buf' & E1 & E2).
  apply (fuzzy_iff AlgoV2 o m text q c r m1 Hm Hq E1) in F as [d ->].
  destruct (fuzzy_ranges _ _ _ _ _ _ _ _ _ _ Hm Hq E2) as [Hd _].
  symmetry in Hd. apply raw_some in Hd as [[-> _]|(_ & rs & Hf & _)]; [congruence|].
  destruct (v2_case _ _ _ _ _ Ht Hf) as (ps & fs & stop & _ & _ & G & L).
  apply find_last_idx_some in L as (y & Hy & Ey & Hno).
  exists (hit_of (sensitive_for (opt_case o) text) (opt_norm o) text c), fs, stop, y.
  split; [|split; [|split; [exact Hy|split]]].
  - intros i j. unfold hit_of. split.
    + destruct (nth_error text i) as [x|]; [|discriminate]. destruct (nth_error c j) as [z|]; [|discriminate].
      intros H. exists x, z. split; [reflexivity|]. split; [reflexivity|]. apply char_eq_agrees. exact H.
    + intros (x & z & -> & -> & A). apply char_eq_agrees. exact A.
  - apply greedy_leftmost. exact G.
  - apply char_eq_agrees. exact Ey.
  - intros k z Hk Hz A. apply char_eq_agrees in A. rewrite (Hno _ _ Hk Hz) in A. discriminate A.
Qed.

(** ** C47 in terms of distances *)

Lemma c47_path_scores : forall a o m x q pre z y post d m',
  metric_reached a (with_scheme o SchemePath) m -> fuzzy_query [x] q -> ascii_letter y ->
  metric_distance m q (pre ++ z :: y :: post) = Ok (Some d, m') ->
  agreement o [x] x y -> Forall (fun w => ~ agreement o [x] x w) (pre ++ z :: post) ->
  (z = 47%N -> d = from_score 34) /\ (z <> 47%N -> z <> 92%N -> (into_score d <= 32)%Z).
Proof.
  intros a o m x q pre z y post d m' Hm Hq Hy E Ay F.
  apply Forall_app in F as [F1 F2]. inversion F2; subst.
  assert (d = from_score (16 + 2 * bonus_of SchemePath (pre ++ z :: y :: post) (S (length pre)))) as ->.
  { replace (pre ++ z :: y :: post) with ((pre ++ [z]) ++ y :: post) in * by (rewrite <- app_assoc; reflexivity).
    replace (S (length pre)) with (length (pre ++ [z])) by (rewrite app_length; cbn; lia).
    apply (c47_one_character a (with_scheme o SchemePath) m x q _ y post d m' Hm Hq E Ay); [|assumption].
    apply Forall_app. split; [exact F1|]. constructor; [assumption|constructor]. }
  destruct (c47_path pre z y post Hy) as (P1 & P2 & _). split.
  - intros Hz. rewrite P1 by exact Hz. reflexivity.
  - intros Z1 Z2. specialize (P2 Z1 Z2). unfold into_score, from_score. lia.
Qed.

Lemma c47_default_scores : forall a o m x q pre z y post d m',
  metric_reached a (with_scheme o SchemeDefault) m -> fuzzy_query [x] q -> ascii_letter y ->
  metric_distance m q (pre ++ z :: y :: post) = Ok (Some d, m') ->
  agreement o [x] x y -> Forall (fun w => ~ agreement o [x] x w) (pre ++ z :: post) ->
  (In z [9; 10; 12; 13; 32]%N -> d = from_score 36) /\ (In z [47; 44; 58; 59; 124]%N -> d = from_score 34).
Proof.
  intros a o m x q pre z y post d m' Hm Hq Hy E Ay F.
  apply Forall_app in F as [F1 F2]. inversion F2; subst.
  assert (d = from_score (16 + 2 * bonus_of SchemeDefault (pre ++ z :: y :: post) (S (length pre)))) as ->.
  { replace (pre ++ z :: y :: post) with ((pre ++ [z]) ++ y :: post) in * by (rewrite <- app_assoc; reflexivity).
    replace (S (length pre)) with (length (pre ++ [z])) by (rewrite app_length; cbn; lia).
    apply (c47_one_character a (with_scheme o SchemeDefault) m x q _ y post d m' Hm Hq E Ay); [|assumption].
    apply Forall_app. split; [exact F1|]. constructor; [assumption|constructor]. }
  destruct (c47_default pre z y post Hy) as (P1 & P2 & _).
  split; intros Hz; [rewrite P1|rewrite P2]; auto.
Qed.

Lemma c47_history_scores : forall a o m x q c d m',
  metric_reached a (with_scheme o SchemeHistory) m -> fuzzy_query [x] q ->
  metric_distance m q c = Ok (Some d, m') -> (into_score d <= 32)%Z.
Proof.
  intros a o m x q c d m' Hm Hq E.
  assert (G : exists j, d = from_score (16 + 2 * bonus_of SchemeHistory c j)).
  { destruct a.
    - assert (F : fuzzy_in (agreement (with_scheme o SchemeHistory) [x]) [x] c).
      { apply (fuzzy_iff AlgoV1 _ m [x] q c (Some d) m' Hm Hq E). eauto. }
      assert (Hx : [x] <> []) by discriminate.
      destruct (window_exists _ _ _ Hx F) as (js & W).
      rewrite (c41_v1_score _ _ _ _ _ _ _ _ Hm Hq Hx E W).
      destruct W as ((_ & F2) & _). inversion F2 as [|? j ? l _ F3]; subst. inversion F3; subst.
      exists j. unfold alignment_score. cbn [rest_score]. rewrite Z.add_0_r. reflexivity.
    - destruct (fuzzy_result _ _ _ _ _ c [] Hm Hq) as [(m1 & E1) (m2 & E2)].
      assert (E3 : option_map from_score (fst (raw_outcome AlgoV2 (with_scheme o SchemeHistory) [x] c)) = Some d) by congruence.
      rewrite E3 in E2.
      destruct (c45_v2_single _ _ _ _ _ _ _ _ _ Hm Hq E2) as (pre & y & post & -> & _ & -> & _).
      exists (length pre). reflexivity. }
  destruct G as (j & ->). pose proof (c47_history c j). unfold into_score, from_score. lia.
Qed.

End WithUnicode.
