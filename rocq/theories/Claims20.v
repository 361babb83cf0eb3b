(** Proofs of C81: typing on narrows. *)
From Coq Require Import Sorted Permutation.
From Verif Require Import Prelude Chars Normalize Utils Candidate MatchedRanges Query Parser Scoring
  Slab Fzf FzfV1 FzfV2 Api Usage History
  Spec Typing PreludeProofs CharsProofs NormalizeProofs CandidateProofs MatchedRangesProofs ParserProofs
  ScoreProofs ExactProofs ShapeProofs V1Proofs V2Tables V2Proofs V2Rows V2Fuzzy V2Facts ApiProofs AcceptProofs
  RangeProofs WordsProofs CongProofs FuzzyFacts Claims1 Claims2 Claims3 Claims4 Claims7.
Local Open Scope nat_scope.

(** * Texts *)

Lemma part_refl t : part t t.
Proof. induction t; constructor; assumption. Qed.

Lemma part_app_r t u : part t (t ++ u).
Proof. induction t as [|x t IH]; cbn [app]; [|constructor; exact IH]. induction u; constructor; assumption. Qed.

Lemma part_nonempty t t' : part t t' -> t <> [] -> t' <> [].
Proof. destruct 1; congruence. Qed.

Lemma part_existsb (f : char -> bool) t t' : part t t' -> existsb f t = true -> existsb f t' = true.
Proof.
  induction 1 as [|x t t' _ IH|x t t' _ IH]; cbn [existsb]; intros H; [exact H|..]; apply orb_true_iff.
  - apply orb_true_iff in H as [H|H]; [left; exact H|right; apply IH; exact H].
  - right. apply IH, H.
Qed.

Lemma part_length t t' : part t t' -> length t <= length t'.
Proof. induction 1; cbn [length]; lia. Qed.

Lemma StronglySorted_sub {A} (R : A -> A -> Prop) x l : StronglySorted R (x :: l) -> StronglySorted R l /\ Forall (R x) l.
Proof. intros H. inversion H; subst. split; assumption. Qed.

Lemma alignment_part R t t' c : part t t' -> forall qs, alignment R t' c qs ->
  exists ps, alignment R t c ps /\ (forall b, Forall (lt b) qs -> Forall (lt b) ps).
Proof.
  induction 1 as [|x t t' _ IH|x t t' _ IH]; intros qs [S F].
  - exists []. split; [split; constructor|constructor].
  - inversion F as [|a j l ps Hj Hl]; subst. apply StronglySorted_sub in S as [S1 S2].
    destruct (IH _ (conj S1 Hl)) as (rs & [R1 R2] & B). exists (j :: rs). split.
    + split; constructor; auto.
    + intros b Hb. inversion Hb; subst. constructor; auto.
  - inversion F as [|a j l ps Hj Hl]; subst. apply StronglySorted_sub in S as [S1 S2].
    destruct (IH _ (conj S1 Hl)) as (rs & Rs & B). exists rs. split; [exact Rs|].
    intros b Hb. inversion Hb; subst. auto.
Qed.

Lemma Forall2_imp {A B} (R R' : A -> B -> Prop) x y : (forall a b, R a b -> R' a b) -> Forall2 R x y -> Forall2 R' x y.
Proof. intros H. induction 1; constructor; auto. Qed.

Section WithUnicode.
Context {UC : unicode}.

Lemma text_matches_weaken m norm k text text' c :
  (sensitive_for m text = true -> sensitive_for m text' = true) ->
  forall R', R' = agrees (sensitive_for m text') norm ->
  (match k with
   | KFuzzy => fuzzy_in R' text c
   | KExact => exact_in R' text c
   | KPrefix => prefix_in R' text c
   | KSuffix => suffix_in R' text c
   | KEqual => equal_in R' text c
   end) -> text_matches m norm k text c.
Proof.
  intros Hs R' -> H. unfold text_matches. cbv zeta.
  assert (W : forall x y, agrees (sensitive_for m text') norm x y -> agrees (sensitive_for m text) norm x y).
  { intros x y. apply agrees_relax; auto. }
  assert (W2 : forall p mid, Forall2 (agrees (sensitive_for m text') norm) p mid -> Forall2 (agrees (sensitive_for m text) norm) p mid).
  { intros p mid F. eapply Forall2_imp; [|exact F]. exact W. }
  destruct k.
  - destruct H as (ps & S & F). exists ps. split; [exact S|]. eapply Forall2_imp; [|exact F].
    intros x j (y & E & A). exists y. split; [exact E|apply W, A].
  - destruct H as (i & pre & mid & post & E & L & F). exists i, pre, mid, post. auto.
  - destruct H as (n & mid & post & E & F). exists n, mid, post. auto.
  - destruct H as (pre & mid & n & E & F). exists pre, mid, n. auto.
  - destruct H as (n & mid & j & E & F). exists n, mid, j. auto.
Qed.

Lemma sensitive_part m t t' : part t t' -> sensitive_for m t = true -> sensitive_for m t' = true.
Proof. intros H. destruct m; cbn [sensitive_for]; auto. apply part_existsb, H. Qed.

Lemma sensitive_mid m u t v : sensitive_for m t = true -> sensitive_for m (u ++ t ++ v) = true.
Proof. destruct m; cbn [sensitive_for]; auto. rewrite !existsb_app. intros ->. rewrite orb_true_r. reflexivity. Qed.

Lemma matches_fuzzy m norm t t' c : part t t' -> text_matches m norm KFuzzy t' c -> text_matches m norm KFuzzy t c.
Proof.
  intros P (qs & A). apply (text_matches_weaken m norm KFuzzy t t') with (R' := agrees (sensitive_for m t') norm);
    [apply sensitive_part, P|reflexivity|].
  destruct (alignment_part _ _ _ _ P _ A) as (ps & B & _). exists ps. exact B.
Qed.

Lemma matches_exact m norm u t v c : text_matches m norm KExact (u ++ t ++ v) c -> text_matches m norm KExact t c.
Proof.
  intros (i & pre & mid & post & -> & L & F).
  apply (text_matches_weaken m norm KExact t (u ++ t ++ v)) with (R' := agrees (sensitive_for m (u ++ t ++ v)) norm);
    [apply sensitive_mid|reflexivity|].
  apply Forall2_app_inv_l in F as (m1 & m23 & F1 & F & ->). apply Forall2_app_inv_l in F as (m2 & m3 & F2 & F3 & ->).
  exists (length (pre ++ m1)), (pre ++ m1), m2, (m3 ++ post). rewrite <- !app_assoc. auto.
Qed.

Lemma matches_prefix m norm t v c : text_matches m norm KPrefix (t ++ v) c -> text_matches m norm KPrefix t c.
Proof.
  intros (n & mid & post & -> & F).
  apply (text_matches_weaken m norm KPrefix t (t ++ v)) with (R' := agrees (sensitive_for m (t ++ v)) norm);
    [exact (sensitive_mid m [] t v)|reflexivity|].
  apply Forall2_app_inv_l in F as (m1 & m2 & F1 & F2 & ->). exists n, m1, (m2 ++ post). rewrite <- !app_assoc. auto.
Qed.

Lemma matches_suffix m norm u t c : text_matches m norm KSuffix (u ++ t) c -> text_matches m norm KSuffix t c.
Proof.
  intros (pre & mid & n & -> & F).
  apply (text_matches_weaken m norm KSuffix t (u ++ t)) with (R' := agrees (sensitive_for m (u ++ t)) norm);
    [|reflexivity|].
  { intros H. pose proof (sensitive_mid m u t [] H) as G. rewrite app_nil_r in G. exact G. }
  apply Forall2_app_inv_l in F as (m1 & m2 & F1 & F2 & ->). exists (pre ++ m1), m2, n. rewrite <- !app_assoc. auto.
Qed.

(** * Terms *)

Lemma base_matches a o neg k text c r : text <> [] -> base_outcome a o (Term neg k text) c = Some r ->
  text_matches (opt_case o) (opt_norm o) k text c.
Proof.
  intros Ht E.
  assert (D : blank_equal (Term neg k text) \/ ~ blank_equal (Term neg k text)).
  { unfold blank_equal. cbn. destruct k; try (right; intros [? _]; discriminate).
    destruct (list_eq_dec N.eq_dec text (spaces (length text))); [left; auto|right; tauto]. }
  assert (S : exists r, base_outcome a o (Term neg k text) c = Some r) by eauto.
  destruct D as [D|D].
  - apply (base_outcome_blank o a (Term neg k text) c Ht D) in S. cbn in S. destruct D as [D1 D2]. cbn in D1, D2. subst k c.
    exists 0, text, 0. split; [cbn; rewrite app_nil_r; reflexivity|]. rewrite D2. apply spaces_Forall2.
  - apply (base_outcome_iff o a (Term neg k text) c Ht D) in S. exact S.
Qed.

Lemma asks_less_equal k t k' t' : asks_less k t k' t' -> k = KEqual -> k' = KEqual /\ t' = t.
Proof.
  induction 1; intros E; try discriminate; auto.
  - subst. exfalso. eapply narrower_not_equal; [eassumption|reflexivity].
  - destruct (IHasks_less1 E) as [E1 ->]. destruct (IHasks_less2 E1) as [E2 ->]. auto.
Qed.

Lemma asks_less_matches m norm c k t k' t' : asks_less k t k' t' -> text_matches m norm k' t' c -> text_matches m norm k t c.
Proof.
  induction 1; auto.
  - apply matches_fuzzy. assumption.
  - apply matches_exact.
  - apply matches_prefix.
  - apply matches_suffix.
  - apply narrower_matches. assumption.
Qed.

Lemma asks_less_base a o neg k t neg' k' t' c r : asks_less k t k' t' -> t <> [] -> t' <> [] ->
  base_outcome a o (Term neg' k' t') c = Some r -> exists r', base_outcome a o (Term neg k t) c = Some r'.
Proof.
  intros L Ht Ht' E. pose proof (base_matches _ _ _ _ _ _ _ Ht' E) as M. apply (asks_less_matches _ _ _ _ _ _ _ L) in M.
  assert (D : blank_equal (Term neg k t) \/ ~ blank_equal (Term neg k t)).
  { unfold blank_equal. cbn. destruct k; try (right; intros [? _]; discriminate).
    destruct (list_eq_dec N.eq_dec t (spaces (length t))); [left; auto|right; tauto]. }
  destruct D as [[D _]|D].
  - cbn in D. destruct (asks_less_equal _ _ _ _ L D) as [-> ->]. subst k. exists r. exact E.
  - apply (base_outcome_iff o a (Term neg k t) c Ht D). exact M.
Qed.

Lemma weaker_term a o t t' c r : weaker t t' -> t_text t <> [] -> t_text t' <> [] ->
  term_outcome a o t' c = Some r -> exists r', term_outcome a o t c = Some r'.
Proof.
  destruct t as [neg k text], t' as [neg' k' text']. intros [E W] Ht Ht' H. cbn [t_neg t_kind t_text] in *. subst neg'.
  unfold term_outcome in *. cbn [t_neg] in *. destruct neg.
  - destruct (base_outcome a o (Term true k text) c) eqn:B; [|eauto].
    destruct (asks_less_base a o true _ _ true _ _ c _ W Ht' Ht B) as [r' B']. rewrite B' in H. discriminate.
  - eapply asks_less_base; eassumption.
Qed.

Lemma weaker_either a o c g g' : Forall2 weaker g g' -> Forall (fun t => t_text t <> []) g -> Forall (fun t => t_text t <> []) g' ->
  forall r, either_outcome a o g' c = Some r -> exists r', either_outcome a o g c = Some r'.
Proof.
  induction 1 as [|t t' g g' W _ IH]; intros T T' r E; [discriminate|]. inversion T; subst. inversion T'; subst.
  cbn [either_outcome] in *. destruct (term_outcome a o t c) eqn:E1; [eauto|].
  destruct (term_outcome a o t' c) eqn:E2.
  - destruct (weaker_term a o t t' c _ W ltac:(assumption) ltac:(assumption) E2) as [r' X]. congruence.
  - eapply IH; eassumption.
Qed.

Lemma weaker_all a o c q q' : Forall2 (Forall2 weaker) q q' -> texts_ok q -> texts_ok q' ->
  forall x, fst (all_outcome a o q' c) = Some x -> exists y, fst (all_outcome a o q c) = Some y.
Proof.
  induction 1 as [|g g' q q' W _ IH]; intros T T' x E; [cbn; eauto|]. inversion T; subst. inversion T'; subst.
  cbn [all_outcome] in *. destruct (either_outcome a o g' c) as [[s1 r1]|] eqn:E1; [|discriminate].
  destruct (weaker_either a o c g g' W ltac:(assumption) ltac:(assumption) _ E1) as [[s2 r2] ->].
  destruct (all_outcome a o q' c) as [[y|] r]; [|discriminate]. destruct (IH ltac:(assumption) ltac:(assumption) _ eq_refl) as [z E2].
  destruct (all_outcome a o q c) as [[z'|] r3]; [|discriminate]. eexists. reflexivity.
Qed.

Lemma c81_weaker : forall a o m ps s s' c, metric_reached a o m ->
  Forall2 (Forall2 weaker) (parse_spec s) (parse_spec s') ->
  ~ lone_negated_fuzzy (parse_spec s) -> ~ lone_negated_fuzzy (parse_spec s') ->
  accepts (find ps m s' c) -> accepts (find ps m s c).
Proof.
  intros a o m ps s s' c Hm W L L' [d A]. apply metric_reached_options in Hm.
  rewrite (find_spec a o) in A |- * by exact Hm. rewrite outcome_all in A |- * by assumption.
  destruct (fst (all_outcome a o (parse_spec s') c)) as [x|] eqn:E; [|discriminate].
  destruct (weaker_all a o c _ _ W (proj1 (parse_spec_ok s)) (proj1 (parse_spec_ok s')) _ E) as [y ->]. eexists. reflexivity.
Qed.

Lemma c81_raw : forall a o m ps s s' c, metric_reached a o m -> part s s' ->
  accepts (find_raw ps m s' c) -> accepts (find_raw ps m s c).
Proof.
  intros a o m ps s s' c Hm P [d A]. apply metric_reached_options in Hm. rewrite (find_raw_spec a o) in * by exact Hm.
  pose proof (part_length _ _ P). destruct (Nat.leb_spec (length s') (length (ps_chars ps))); [|discriminate].
  destruct (Nat.leb_spec (length s) (length (ps_chars ps))); [|lia].
  assert (F : text_matches (opt_case o) (opt_norm o) KFuzzy s' c).
  { apply (raw_outcome_iff o a). destruct (fst (raw_outcome a o s' c)); [eauto|discriminate]. }
  apply (matches_fuzzy _ _ _ _ _ P) in F. apply (raw_outcome_iff o a) in F as [x ->]. eexists. reflexivity.
Qed.

(** * Typing a character *)

Lemma tokens_cons c rest : c <> 32%N -> (forall d r, rest = d :: r -> (c =? 92)%N && (d =? 32)%N = false) ->
  tokens (c :: rest) = Lit c :: tokens rest.
Proof.
  intros Hc H. cbn [tokens]. destruct (N.eqb_spec c 32); [contradiction|]. destruct rest as [|d r]; [reflexivity|].
  rewrite (H d r eq_refl). reflexivity.
Qed.

Lemma tokens_snoc x s : x <> 32%N -> tokens (s ++ [x]) = tokens s ++ [Lit x].
Proof.
  intros Hx. assert (P : tokens (s ++ [x]) = tokens s ++ [Lit x] /\ forall c, tokens ((c :: s) ++ [x]) = tokens (c :: s) ++ [Lit x]); [|apply P].
  assert (X : tokens [x] = [Lit x]) by (cbn [tokens]; destruct (N.eqb_spec x 32); [contradiction|reflexivity]).
  induction s as [|d s [IH1 IH2]].
  - split; [exact X|]. intros c. cbn [app tokens]. destruct (N.eqb_spec x 32); [contradiction|]. destruct (c =? 32)%N; [reflexivity|].
    rewrite andb_false_r. reflexivity.
  - split; [apply IH2|]. intros c. cbn [app]. cbn [tokens]. destruct (c =? 32)%N.
    + cbn [app]. f_equal. apply IH2.
    + destruct ((c =? 92)%N && (d =? 32)%N).
      * cbn [app]. f_equal. apply IH1.
      * cbn [app]. f_equal. apply IH2.
Qed.

Lemma split_lit l ws w x : split l = ws ++ [w] -> split (l ++ [Lit x]) = ws ++ [w ++ [x]].
Proof.
  revert ws w. induction l as [|[c|] l IH]; intros ws w H; cbn [app split] in *.
  - destruct ws as [|w0 [|? ?]]; try discriminate. injection H as <-. reflexivity.
  - destruct (split l) as [|v vs] eqn:E; [destruct l as [|[c'|] l]; cbn in E; try discriminate; destruct (split l); discriminate|].
    destruct ws as [|w0 ws]; cbn [app] in H; injection H as H1 H2.
    + subst vs w. rewrite (IH [] v eq_refl). reflexivity.
    + subst w0 vs. rewrite (IH (v :: ws) w eq_refl). reflexivity.
  - destruct ws as [|w0 ws]; cbn [app] in H.
    + injection H as _ H. destruct l as [|[c'|] l]; cbn in H; try discriminate; destruct (split l); discriminate.
    + injection H as <- H. rewrite (IH ws w H). reflexivity.
Qed.

Lemma split_snoc_sep l : split (l ++ [Sep]) = split l ++ [[]].
Proof.
  induction l as [|[c|] l IH]; cbn [app split]; [reflexivity|..].
  - rewrite IH. destruct (split l) as [|w ws] eqn:E; [|reflexivity].
    destruct l as [|[c'|] l]; cbn in E; try discriminate; destruct (split l); discriminate.
  - rewrite IH. reflexivity.
Qed.

Lemma split_some l : exists ws w, split l = ws ++ [w].
Proof.
  induction l as [|t l (ws & w & IH)] using rev_ind; [exists [], []; reflexivity|]. destruct t as [c|].
  - exists ws, (w ++ [c]). apply split_lit, IH.
  - exists (split l), []. apply split_snoc_sep.
Qed.

Lemma split_last l ws w : split l = ws ++ [w] -> w <> [] -> exists l', l = l' ++ [Lit (last w 0%N)].
Proof.
  destruct l as [|t l _] using rev_ind; intros H Hw.
  - destruct ws as [|w0 [|? ?]]; try discriminate. injection H as <-. contradiction.
  - destruct t as [c|].
    + destruct (split_some l) as (ws' & w' & E). rewrite (split_lit _ _ _ c E) in H. apply app_inj_tail in H as [_ <-].
      rewrite last_last. exists l. reflexivity.
    + rewrite split_snoc_sep in H. apply app_inj_tail in H as [_ <-]. contradiction.
Qed.

Lemma tokens_nonempty c s : tokens (c :: s) <> [].
Proof. cbn [tokens]. destruct (c =? 32)%N; [discriminate|]. destruct s as [|d s]; [discriminate|]. destruct ((c =? 92)%N && (d =? 32)%N); discriminate. Qed.

Lemma tokens_last s l c : tokens s = l ++ [Lit c] -> last s 0%N = c.
Proof.
  assert (P : (forall l, tokens s = l ++ [Lit c] -> last s 0%N = c) /\ forall d l, tokens (d :: s) = l ++ [Lit c] -> last (d :: s) 0%N = c).
  { clear l. induction s as [|e s [IH1 IH2]].
    - split; [intros [|? ?]; discriminate|]. intros d l. cbn [tokens]. destruct (d =? 32)%N.
      + destruct l as [|? [|? ?]]; discriminate.
      + destruct l as [|? [|? ?]]; try discriminate. intros H. injection H as ->. reflexivity.
    - split; [intros l; apply (IH2 e l)|]. intros d l H. change (last (e :: s) 0%N = c). cbn [tokens] in H.
      assert (Q : forall t r, t :: r = l ++ [Lit c] -> r <> [] -> exists l', r = l' ++ [Lit c]).
      { intros t r E Hr. destruct l as [|t' l]; [injection E as _ E; contradiction|]. injection E as _ E. exists l. exact E. }
      assert (Ne : tokens (e :: s) <> []).
      { apply tokens_nonempty. }
      destruct (d =? 32)%N.
      + destruct (Q _ _ H Ne) as [l' E]. exact (IH2 e l' E).
      + destruct ((d =? 92)%N && (e =? 32)%N) eqn:B.
        * destruct s as [|y s].
          -- destruct l as [|? [|? ?]]; try discriminate. injection H as <-. apply andb_true_iff in B as [_ B].
             apply N.eqb_eq in B. cbn [last]. exact B.
          -- assert (Ny : tokens (y :: s) <> []).
             { apply tokens_nonempty. }
             destruct (Q _ _ H Ny) as [l' E]. exact (IH1 l' E).
        * destruct (Q _ _ H Ne) as [l' E]. exact (IH2 e l' E). }
  apply P.
Qed.

Lemma tokens_in s c : In (Lit c) (tokens s) -> In c s.
Proof.
  assert (P : (In (Lit c) (tokens s) -> In c s) /\ forall d, In (Lit c) (tokens (d :: s)) -> In c (d :: s)); [|apply P].
  induction s as [|e s [IH1 IH2]].
  - split; [auto|]. intros d. cbn [tokens]. destruct (d =? 32)%N; cbn; intros [H|H]; try contradiction; [discriminate|injection H; auto].
  - split; [apply IH2|]. intros d. cbn [tokens]. destruct (d =? 32)%N; [|destruct ((d =? 92)%N && (e =? 32)%N) eqn:B].
    + intros [H|H]; [discriminate|]. right. apply IH2, H.
    + intros [H|H]; [|right; right; apply IH1, H]. injection H as <-. right. left. apply andb_true_iff in B as [_ B]. apply N.eqb_eq in B. exact B.
    + intros [H|H]; [injection H; left; assumption|]. right. apply IH2, H.
Qed.

Lemma split_in l w c : In w (split l) -> In c w -> In (Lit c) l.
Proof.
  revert w. induction l as [|[d|] l IH]; intros w; cbn [split].
  - intros [<-|[]] [].
  - destruct (split l) as [|v vs]; cbn [In].
    + intros [<-|[]] [->|[]]. left. reflexivity.
    + intros [<-|H] Hc; [destruct Hc as [->|Hc]; [left; reflexivity|]|]; right; [apply (IH v)|apply (IH w)]; cbn; auto.
  - intros [<-|H] Hc; [destruct Hc|]. right. apply (IH w); assumption.
Qed.

Lemma marked_no_bar ws : Forall (fun w => is_bar w = false) ws ->
  marked_terms false ws = map (fun t => (false, t)) (terms_of ws).
Proof.
  induction 1 as [|w ws Hw _ IH]; [reflexivity|]. cbn [marked_terms terms_of]. unfold is_term. rewrite Hw.
  destruct (term_of w); cbn [map]; rewrite IH; reflexivity.
Qed.

Lemma marked_bar ws w : is_bar w = true -> forall b, marked_terms b (ws ++ [w]) = marked_terms b ws.
Proof.
  intros H. induction ws as [|v ws IH]; intros b; cbn [app marked_terms]; [rewrite H; reflexivity|]. rewrite !IH. reflexivity.
Qed.

Lemma join_no_bar l : join_bars (map (fun t => (false, t)) l) = map (fun t => [t]) l.
Proof.
  induction l as [|t l IH]; [reflexivity|]. cbn [map join_bars]. destruct l as [|u l]; [reflexivity|]. cbn [map] in *. rewrite IH. reflexivity.
Qed.

Lemma terms_of_app ws vs : terms_of (ws ++ vs) = terms_of ws ++ terms_of vs.
Proof. induction ws as [|w ws IH]; [reflexivity|]. cbn [app terms_of]. rewrite IH. destruct (is_term w); reflexivity. Qed.

Lemma bang_snoc w x : w <> [] -> bang (w ++ [x]) = (fst (bang w), snd (bang w) ++ [x]).
Proof. destruct w as [|c w]; [contradiction|]. intros _. cbn [app bang]. destruct (c =? 33)%N; reflexivity. Qed.

(** A term whose word grows asks for more (negated or not) *)
Lemma word_grows w x t : last w 0%N <> 36%N -> term_of w = Some t ->
  exists t', term_of (w ++ [x]) = Some t' /\ t_neg t' = t_neg t
    /\ asks_less (t_kind t) (t_text t) (t_kind t') (t_text t').
Proof.
  intros H2 E. assert (Hw : w <> []) by (intros ->; discriminate).
  unfold term_of in *. rewrite (bang_snoc w x Hw). destruct (bang w) as [neg v] eqn:Eb. cbn [fst snd].
  assert (Hv : v <> []) by (intros ->; cbn in E; discriminate).
  assert (H2' : last v 0%N <> 36%N).
  { destruct w as [|c w]; [contradiction|]. cbn [bang] in Eb. destruct (c =? 33)%N; injection Eb as _ <-; [|exact H2].
    destruct w; [contradiction|exact H2]. }
  clear Hw H2 Eb w. rename v into w, Hv into Hw, H2' into H2.
  assert (D : dollar w = (false, w)).
  { destruct w as [|c [|d w]]; try reflexivity. cbn [dollar]. destruct (N.eqb_spec (last (c :: d :: w) 0%N) 36); [contradiction|reflexivity]. }
  rewrite D in E. destruct (open_sigil w) as [o text] eqn:Eo.
  destruct text as [|y text]; [discriminate|]. injection E as <-.
  assert (Eo' : open_sigil (w ++ [x]) = (o, (y :: text) ++ [x])).
  { destruct w as [|c w]; [contradiction|]. cbn [app open_sigil] in *.
    destruct (c =? 39)%N; [injection Eo as <- ->; reflexivity|]. destruct (c =? 94)%N; [injection Eo as <- ->; reflexivity|].
    injection Eo as <- <- <-. reflexivity. }
  destruct (N.eqb_spec x 36) as [->|Hx].
  - rewrite dollar_snoc by exact Hw. rewrite Eo. eexists. split; [reflexivity|]. split; [reflexivity|].
    cbn [t_kind t_text]. destruct o, neg; cbn [kind_of]; try apply al_same; try (apply al_kind; constructor).
    apply al_kind. apply (nr_trans _ KExact); constructor.
  - assert (D' : dollar (w ++ [x]) = (false, w ++ [x])).
    { destruct w as [|c w]; [contradiction|]. unfold dollar. rewrite last_last. destruct (N.eqb_spec x 36); [contradiction|].
      cbn [app]. destruct (w ++ [x]); reflexivity. }
    rewrite D', Eo'. cbn [app]. eexists. split; [reflexivity|]. split; [reflexivity|].
    cbn [t_kind t_text]. change (y :: text ++ [x]) with ((y :: text) ++ [x]). destruct o, neg; cbn [kind_of];
      first [exact (al_exact [] (y :: text) [x])|apply al_prefix|apply al_fuzzy, part_app_r].
Qed.

Lemma term_neg w t : term_of w = Some t -> (t_neg t = true <-> hd 0%N w = 33%N).
Proof.
  unfold term_of. destruct w as [|c w]; [discriminate|]. cbn [bang hd]. destruct (N.eqb_spec c 33) as [->|Hc]; intros E;
    destruct (dollar _) as [d v] in E; destruct (open_sigil v) as [o [|y text]]; try discriminate; injection E as <-; cbn [t_neg];
    split; congruence.
Qed.

Lemma term_grows w x t : hd 0%N w <> 33%N -> last w 0%N <> 36%N -> term_of w = Some t ->
  exists t', term_of (w ++ [x]) = Some t' /\ weaker t t' /\ t_neg t = false.
Proof.
  intros H1 H2 E. destruct (word_grows w x t H2 E) as (t' & E' & N & A). exists t'. split; [exact E'|].
  assert (F : t_neg t = false) by (destruct (t_neg t) eqn:F; [apply (term_neg _ _ E) in F; contradiction|reflexivity]).
  split; [|exact F]. split; [congruence|]. rewrite F. exact A.
Qed.

Lemma positive_terms ws : Forall (fun w => hd 0%N w <> 33%N) ws -> Forall (fun t => t_neg t = false) (terms_of ws).
Proof.
  induction 1 as [|w ws Hw _ IH]; [constructor|]. cbn [terms_of]. destruct (is_term w) as [t|] eqn:E; [|exact IH]. constructor; [|exact IH].
  unfold is_term in E. destruct (is_bar w); [discriminate|]. unfold term_of in E.
  assert (B : bang w = (false, w)) by (destruct w as [|c w]; [reflexivity|]; cbn [hd] in Hw; cbn [bang]; destruct (N.eqb_spec c 33); [contradiction|reflexivity]).
  rewrite B in E. destruct (dollar w) as [d w1]. destruct (open_sigil w1) as [o w2]. destruct w2; [discriminate|]. injection E as <-. reflexivity.
Qed.

Lemma positive_singles l : Forall (fun t => t_neg t = false) l -> ~ lone_negated_fuzzy (map (fun t => [t]) l).
Proof.
  intros H (text & E). destruct l as [|t [|? ?]]; try discriminate. cbn in E. injection E as ->. inversion H; subst. discriminate.
Qed.

Lemma weaker_refl t : weaker t t.
Proof. split; [reflexivity|]. destruct (t_neg t); apply al_same. Qed.

Lemma c81_typing : forall a o m ps s x c, metric_reached a o m ->
  ~ In 33%N s -> ~ In 124%N s -> last s 0%N <> 36%N -> (x = 32%N -> last s 0%N <> 92%N) ->
  accepts (find ps m (s ++ [x]) c) -> accepts (find ps m s c).
Proof.
  intros a o m ps s x c Hm H33 H124 H36 Hx A. destruct (N.eq_dec x 32) as [->|Hx'].
  { assert (W : words_of (s ++ [32%N]) = words_of s).
    { rewrite words_of_app by auto. apply app_nil_r. }
    destruct (same_words a o m ps ps _ _ c [] Hm W) as [E _]. rewrite <- E. exact A. }
  clear Hx. destruct (split_some (tokens s)) as (ws & w & E).
  assert (Es : words_of s = filter nonempty ws ++ filter nonempty [w]) by (unfold words_of; rewrite E, filter_app; reflexivity).
  assert (Es' : words_of (s ++ [x]) = filter nonempty ws ++ [w ++ [x]]).
  { unfold words_of. rewrite tokens_snoc by exact Hx'. rewrite (split_lit _ _ _ x E), filter_app. cbn [filter]. destruct w; reflexivity. }
  assert (Hin : forall v y, In v (ws ++ [w]) -> In y v -> In y s).
  { intros v y Hv Hy. rewrite <- E in Hv. apply tokens_in, (split_in _ v); assumption. }
  assert (Hbar : forall v, In v (ws ++ [w]) -> is_bar v = false).
  { intros v Hv. destruct v as [|y [|? ?]]; try reflexivity. cbn [is_bar]. apply N.eqb_neq. intros ->. apply H124.
    apply (Hin [124%N]); [exact Hv|left; reflexivity]. }
  assert (Hbang : forall v, In v (ws ++ [w]) -> hd 0%N v <> 33%N).
  { intros v Hv. destruct v as [|y v]; [discriminate|]. cbn [hd]. intros ->. apply H33. apply (Hin (33%N :: v)); [exact Hv|left; reflexivity]. }
  set (vs := filter nonempty ws) in *.
  assert (Hvs : forall v, In v vs -> In v (ws ++ [w])) by (intros v Hv; apply filter_In in Hv as [Hv _]; apply in_or_app; auto).
  assert (Hw : In w (ws ++ [w])) by (apply in_or_app; right; left; reflexivity).
  assert (Hws : forall v, In v (vs ++ filter nonempty [w]) -> In v (ws ++ [w])).
  { intros v Hv. apply in_app_or in Hv as [Hv|Hv]; [auto|]. apply filter_In in Hv as [[<-|[]] _]. exact Hw. }
  assert (P : parse_spec s = map (fun t => [t]) (terms_of (vs ++ filter nonempty [w]))).
  { unfold parse_spec. rewrite Es, marked_no_bar, join_no_bar; [reflexivity|]. apply Forall_forall. auto. }
  assert (N : ~ lone_negated_fuzzy (parse_spec s)).
  { rewrite P. apply positive_singles, positive_terms, Forall_forall. auto. }
  destruct (is_bar (w ++ [x])) eqn:Bx.
  - (* a lone | at the end *)
    assert (w = []) by (destruct w as [|? [|? ?]]; [reflexivity|discriminate..]). subst w. cbn [app filter nonempty] in *.
    apply (c81_weaker a o m ps s (s ++ [x]) c Hm); [|exact N| |exact A].
    + replace (parse_spec (s ++ [x])) with (parse_spec s); [|unfold parse_spec; rewrite Es, Es'; rewrite marked_bar by exact Bx; rewrite app_nil_r; reflexivity].
      clear. induction (parse_spec s) as [|g q IH]; constructor; [|exact IH]. induction g; constructor; [apply weaker_refl|assumption].
    + replace (parse_spec (s ++ [x])) with (parse_spec s); [exact N|]. unfold parse_spec. rewrite Es, Es'. rewrite marked_bar by exact Bx. rewrite app_nil_r. reflexivity.
  - assert (P' : parse_spec (s ++ [x]) = map (fun t => [t]) (terms_of (vs ++ [w ++ [x]]))).
    { unfold parse_spec. rewrite Es', marked_no_bar, join_no_bar; [reflexivity|]. apply Forall_app. split; [apply Forall_forall; auto|].
      constructor; [exact Bx|constructor]. }
    rewrite terms_of_app, map_app in P, P'. destruct (terms_of (filter nonempty [w])) as [|t [|? ?]] eqn:Et.
    + rewrite app_nil_r in P. apply (more_conditions a o m ps s (s ++ [x]) c _ _ Hm P P'); [|exact A]. rewrite <- P. exact N.
    + assert (Ew : term_of w = Some t /\ w <> []).
      { destruct w as [|y w]; [discriminate|]. cbn [filter nonempty terms_of] in Et. unfold is_term in Et. rewrite (Hbar _ Hw) in Et.
        destruct (term_of (y :: w)); [|discriminate]. split; congruence. }
      destruct Ew as [Ew Hne].
      assert (H36' : last w 0%N <> 36%N).
      { destruct (split_last _ _ _ E Hne) as [l' El]. rewrite <- (tokens_last _ _ _ El). exact H36. }
      destruct (term_grows w x t (Hbang _ Hw) H36' Ew) as (t' & Et' & Wk & Ht).
      assert (T' : terms_of [w ++ [x]] = [t']) by (cbn [terms_of]; unfold is_term; rewrite Bx, Et'; reflexivity).
      rewrite T' in P'. apply (c81_weaker a o m ps s (s ++ [x]) c Hm); [|exact N| |exact A].
      * rewrite P, P'. apply Forall2_app; [|repeat constructor; apply Wk]. clear. induction (terms_of vs); cbn [map]; constructor; auto.
        repeat constructor. apply weaker_refl.
      * rewrite P', <- map_app. apply positive_singles. apply Forall_app. split.
        -- apply positive_terms, Forall_forall. auto.
        -- constructor; [|constructor]. destruct Wk as [W _]. congruence.
    + destruct w; [discriminate|]. cbn [filter nonempty terms_of] in Et. destruct (is_term _); discriminate.
Qed.

(** * Searching what is left *)

(** The query up to a word, and the query with it *)
Lemma spec_snoc ws w : ends_in_term ws ->
  join_bars (marked_terms false (ws ++ [w])) = join_bars (marked_terms false ws)
    ++ match is_term w with Some t => [[t]] | None => [] end.
Proof.
  intros H. assert (M : marked_terms false (ws ++ [w]) = marked_terms false ws ++ marked_terms false [w]).
  { destruct H as [->|(ws' & v & t & -> & Et)]; [reflexivity|]. rewrite <- app_assoc. cbn [app].
    unfold is_term in Et. destruct (is_bar v) eqn:Bv; [discriminate|].
    generalize false at 1 2. induction ws' as [|u ws' IH]; intros b; cbn [app marked_terms].
    - rewrite Bv, Et. reflexivity.
    - destruct (is_bar u); [apply IH|]. destruct (term_of u); [|apply IH]. cbn [app]. f_equal. apply IH. }
  rewrite M. rewrite join_bars_app.
  - f_equal. cbn [marked_terms]. unfold is_term. destruct (is_bar w); [reflexivity|]. destruct (term_of w); reflexivity.
  - cbn [marked_terms]. destruct (is_bar w); [exact I|]. destruct (term_of w); exact I.
Qed.

(** The last word of a query, [] if it ends in a space *)
Definition last_word (w : str) : list str := match w with [] => [] | _ => [w] end.

Lemma spec_last ws w : ends_in_term ws ->
  join_bars (marked_terms false (ws ++ last_word w)) = join_bars (marked_terms false ws)
    ++ match is_term w with Some t => [[t]] | None => [] end.
Proof.
  intros H. destruct w as [|y w]; cbn [last_word]; [|apply spec_snoc; exact H]. rewrite !app_nil_r. reflexivity.
Qed.

Lemma Forall2_weaker_refl q : Forall2 (Forall2 weaker) q q.
Proof. induction q as [|g q IH]; constructor; [|exact IH]. induction g; constructor; [apply weaker_refl|assumption]. Qed.

Lemma c81_last_word : forall a o m ps s s' ws w x c, metric_reached a o m ->
  words_of s = ws ++ last_word w -> words_of s' = ws ++ [w ++ [x]] ->
  ends_in_term ws -> hd 0%N w <> 33%N -> last w 0%N <> 36%N -> ~ lone_negated_fuzzy (parse_spec s) ->
  accepts (find ps m s' c) -> accepts (find ps m s c).
Proof.
  intros a o m ps s s' ws w x c Hm Es Es' He H33 H36 L A.
  assert (P : parse_spec s = join_bars (marked_terms false ws) ++ match is_term w with Some t => [[t]] | None => [] end)
    by (unfold parse_spec; rewrite Es; apply spec_last; exact He).
  assert (P' : parse_spec s' = join_bars (marked_terms false ws) ++ match is_term (w ++ [x]) with Some t => [[t]] | None => [] end)
    by (unfold parse_spec; rewrite Es'; apply spec_snoc; exact He).
  set (q := join_bars (marked_terms false ws)) in *. destruct (is_term w) as [t|] eqn:Et.
  - unfold is_term in Et. destruct (is_bar w) eqn:Bw; [discriminate|]. destruct (term_grows w x t H33 H36 Et) as (t' & Et' & Wk & Ht).
    assert (Bx : is_bar (w ++ [x]) = false) by (destruct w as [|? [|? ?]]; [discriminate|reflexivity..]).
    unfold is_term in P'. rewrite Bx, Et' in P'.
    apply (c81_weaker a o m ps s s' c Hm); [|exact L| |exact A].
    + rewrite P, P'. apply Forall2_app; [apply Forall2_weaker_refl|]. repeat constructor; apply Wk.
    + rewrite P'. intros (text & E). destruct q as [|g [|? ?]]; try discriminate. cbn [app] in E. injection E as E.
      destruct Wk as [W _]. rewrite E in W. cbn [t_neg] in W. congruence.
  - rewrite app_nil_r in P. apply (more_conditions a o m ps s s' c q _ Hm P P'); [|exact A]. rewrite <- P. exact L.
Qed.

Lemma c81_negated_word : forall a o m ps s s' ws w x c, metric_reached a o m ->
  words_of s = ws ++ [33%N :: w] -> words_of s' = ws ++ [33%N :: w ++ [x]] ->
  ends_in_term ws -> is_term (33%N :: w) <> None -> last w 0%N <> 36%N ->
  ~ lone_negated_fuzzy (parse_spec s) -> ~ lone_negated_fuzzy (parse_spec s') ->
  accepts (find ps m s c) -> accepts (find ps m s' c).
Proof.
  intros a o m ps s s' ws w x c Hm Es Es' He Hw H36 L L' A.
  assert (P : parse_spec s = join_bars (marked_terms false ws) ++ match is_term (33%N :: w) with Some t => [[t]] | None => [] end)
    by (unfold parse_spec; rewrite Es; apply spec_snoc; exact He).
  assert (P' : parse_spec s' = join_bars (marked_terms false ws) ++ match is_term (33%N :: w ++ [x]) with Some t => [[t]] | None => [] end)
    by (unfold parse_spec; rewrite Es'; apply spec_snoc; exact He).
  set (q := join_bars (marked_terms false ws)) in *. destruct (is_term (33%N :: w)) as [t|] eqn:Et; [|contradiction].
  assert (Bw : is_bar (33%N :: w) = false) by (destruct w; reflexivity).
  assert (Bx : is_bar (33%N :: w ++ [x]) = false) by (destruct w; reflexivity).
  unfold is_term in Et, P'. rewrite Bw in Et. rewrite Bx in P'.
  assert (Hl : last (33%N :: w) 0%N <> 36%N) by (destruct w; [discriminate|exact H36]).
  destruct (word_grows (33%N :: w) x t Hl Et) as (t' & Et' & N & G). cbn [app] in Et'. rewrite Et' in P'.
  assert (T : t_neg t = true) by (apply (term_neg _ _ Et); reflexivity).
  apply (c81_weaker a o m ps s' s c Hm); [|exact L'|exact L|exact A].
  rewrite P, P'. apply Forall2_app; [apply Forall2_weaker_refl|]. constructor; [|constructor]. constructor; [|constructor].
  split; [exact N|]. rewrite N, T. exact G.
Qed.

Lemma found_in_fst {D} (f : str -> option D) cs :
  map fst (found_in f cs) = filter (fun c => match f c with Some _ => true | None => false end) cs.
Proof.
  induction cs as [|c cs IH]; [reflexivity|]. unfold found_in in *. cbn [flat_map filter]. rewrite map_app, IH. destruct (f c); reflexivity.
Qed.

Lemma found_in_kept {D} (f g : str -> option D) cs : (forall c d, g c = Some d -> exists e, f c = Some e) ->
  found_in g (map fst (found_in f cs)) = found_in g cs.
Proof.
  intros H. induction cs as [|c cs IH]; [reflexivity|]. unfold found_in in *. cbn [flat_map]. rewrite map_app, flat_map_app, IH. f_equal.
  destruct (f c) eqn:Ef; cbn [map fst flat_map]; [apply app_nil_r|]. destruct (g c) eqn:Eg; [|reflexivity].
  destruct (H c _ Eg) as [e E]. congruence.
Qed.

Lemma rank_kept a o m q q' cs rs m1 rs1 m2 rs2 m3 :
  metric_reached a o m -> query_reached q -> query_reached q' ->
  (forall c d n, metric_distance m q' c = Ok (Some d, n) -> exists d' n', metric_distance m q c = Ok (Some d', n')) ->
  rank m q cs = Ok (rs, m1) -> rank m1 q' (map fst rs) = Ok (rs1, m2) -> rank m q' cs = Ok (rs2, m3) ->
  Permutation rs1 rs2 /\ map snd rs1 = map snd rs2.
Proof.
  intros Hm Hq Hq' N E E1 E2.
  destruct (ranking a o m q cs Hm Hq) as (f & r & n & R & Hn & F & P & _ & _). assert (r = rs) by congruence. assert (n = m1) by congruence. subst r n.
  destruct (ranking a o m1 q' (map fst rs) Hn Hq') as (f1 & r1 & n1 & R1 & _ & F1 & P1 & S1 & _).
  destruct (ranking a o m q' cs Hm Hq') as (f2 & r2 & n2 & R2 & _ & F2 & P2 & S2 & _).
  assert (r1 = rs1) by congruence. assert (r2 = rs2) by congruence. subst r1 r2.
  assert (Ef : forall c, f1 c = f2 c).
  { intros c. destruct (F1 m c Hm) as (x & X). destruct (F2 m c Hm) as (y & Y). congruence. }
  assert (Q : Permutation rs1 rs2).
  { rewrite P1, P2. rewrite <- (found_in_kept f f2 cs).
    - unfold found_in at 1. rewrite (flat_map_perm _ _ _ (Permutation_map fst P)). unfold found_in at 2.
      erewrite flat_map_ext; [apply Permutation_refl|]. intros c. cbv beta. rewrite Ef. reflexivity.
    - intros c d Ed. destruct (F2 m c Hm) as (x & X). rewrite Ed in X. destruct (N c d x X) as (d' & n' & D).
      destruct (F m c Hm) as (y & Y). exists d'. congruence. }
  split; [exact Q|].
  pose proof (sorted_perm_eq _ _ (scores_sorted _ S1) (scores_sorted _ S2) (Permutation_map _ Q)) as Es.
  assert (G : forall l, map snd l = map from_score (map (fun e : str * distance => into_score (snd e)) l)).
  { intros l. rewrite map_map. apply map_ext. intros [c [d]]. reflexivity. }
  rewrite !G, Es. reflexivity.
Qed.

Lemma c81_ranking : forall a o m ps s x q ps1 q' ps2 cs rs m1 rs1 m2 rs2 m3,
  metric_reached a o m -> parser_reached ps ->
  parse ps s = Ok (q, ps1) -> parse ps1 (s ++ [x]) = Ok (q', ps2) ->
  ~ In 33%N s -> ~ In 124%N s -> last s 0%N <> 36%N -> (x = 32%N -> last s 0%N <> 92%N) ->
  rank m q cs = Ok (rs, m1) -> rank m1 q' (map fst rs) = Ok (rs1, m2) -> rank m q' cs = Ok (rs2, m3) ->
  Permutation rs1 rs2 /\ map snd rs1 = map snd rs2.
Proof.
  intros a o m ps s x q ps1 q' ps2 cs rs m1 rs1 m2 rs2 m3 Hm Hp E E' H33 H124 H36 Hx.
  apply (rank_kept a o); [exact Hm|eapply qr_parse; eassumption|eapply qr_parse; [eapply pr_parse; eassumption|eassumption]|].
  intros c d n D.
  assert (A : accepts (find ps1 m (s ++ [x]) c)) by (exists d; unfold find; rewrite E'; cbn [bind]; rewrite D; reflexivity).
  apply (c81_typing a o m ps1 s x c Hm H33 H124 H36 Hx) in A. destruct A as [d' A].
  apply metric_reached_options in Hm. rewrite (find_spec a o m ps1 s c Hm), <- (find_spec a o m ps s c Hm) in A.
  unfold find in A. rewrite E in A. cbn [bind] in A. destruct (metric_distance m q c) as [[d0 n0]| |]; try discriminate.
  cbn [bind] in A. injection A as ->. eauto.
Qed.

End WithUnicode.
