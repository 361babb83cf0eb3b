(** Proofs of C101: candidates with composed and with decomposed letters. *)
From Coq Require Import Sorted.
From Verif Require Import Prelude Chars Normalize Utils Candidate MatchedRanges Query Parser Scoring
  Slab Fzf FzfV1 FzfV2 Api History
  Spec NormalizeProofs AcceptProofs Claims2 Claims3 Claims4 UnicodeLetters Claims33 ApiProofs ParserProofs Claims26.
Local Open Scope nat_scope.

(** ** Subsequences, one character at a time *)

Section Embeds.
Variable R : char -> char -> Prop.

Inductive embeds : str -> str -> Prop :=
| emb_end c : embeds [] c
| emb_take q p y c : R q y -> embeds p c -> embeds (q :: p) (y :: c)
| emb_skip p y c : embeds p c -> embeds p (y :: c).

Lemma fuzzy_skip p y c : fuzzy_in R p c -> fuzzy_in R p (y :: c).
Proof.
  intros (ps & So & F). exists (map S ps). split.
  - clear F. induction So as [|j js So IH Fj]; cbn; constructor; [exact IH|]. apply Forall_map.
    eapply Forall_impl; [|exact Fj]. cbv beta. intros. lia.
  - clear So. induction F as [|q j p js (z & Hz & Hr) F IH]; cbn; constructor; [|exact IH]. exists z. auto.
Qed.

Lemma embeds_fuzzy p c : embeds p c <-> fuzzy_in R p c.
Proof.
  split.
  - induction 1 as [c|q p y c Hr H IH|p y c H IH].
    + exists []. split; constructor.
    + destruct IH as (ps & So & F). exists (0 :: map S ps). split.
      * constructor.
        -- clear F. induction So as [|j js So IH Fj]; cbn; constructor; [exact IH|]. apply Forall_map.
           eapply Forall_impl; [|exact Fj]. cbv beta. intros. lia.
        -- clear. induction ps; cbn; constructor; [lia|assumption].
      * constructor; [exists y; auto|]. clear So H.
        induction F as [|q' j p' js (z & Hz & Hr') F IH]; cbn; constructor; [|exact IH]. exists z. auto.
    + apply fuzzy_skip, IH.
  - revert p. induction c as [|y c IH]; intros p (ps & So & F).
    + inversion F as [|q j p' js (z & Hz & _)]; subst; [constructor|]. destruct j; discriminate.
    + inversion F as [|q j p' js (z & Hz & Hr) F']; subst; [constructor|].
      assert (K : forall n p js, Forall (lt n) js -> Forall2 (fun q j => exists z, nth_error (y :: c) j = Some z /\ R q z) p js ->
        Forall2 (fun q j => exists z, nth_error c j = Some z /\ R q z) p (map pred js)).
      { clear. intros n p js Hj F. induction F as [|q j p js (z & Hz & Hr) F IHF]; cbn; [constructor|].
        inversion Hj; subst. constructor; [|auto]. exists z. destruct j as [|j]; [lia|]. auto. }
      assert (T : forall n js, Forall (lt n) js -> StronglySorted lt js -> StronglySorted lt (map pred js)).
      { clear. intros n js Hj Sj. induction Sj as [|j js Sj IHs Fj]; cbn; constructor; inversion Hj; subst; auto.
        apply Forall_map. rewrite Forall_forall in *. intros k Hk. specialize (Fj k Hk). lia. }
      inversion So as [|? ? So' Fj]; subst. destruct j as [|j].
      * injection Hz as <-. apply emb_take; [exact Hr|]. apply IH. exists (map pred js). split; eauto.
      * apply emb_skip. apply IH. exists (map pred (S j :: js)).
        assert (G : Forall (lt 0) (S j :: js)).
        { constructor; [lia|]. eapply Forall_impl; [|exact Fj]. cbv beta. intros. lia. }
        split; eauto.
Qed.

Lemma embeds_behind p marks c : embeds p c -> embeds p (marks ++ c).
Proof. intros H. induction marks; cbn; [exact H|]. apply emb_skip. assumption. Qed.

Lemma embeds_without p marks c : (forall q y, In q p -> In y marks -> ~ R q y) -> embeds p (marks ++ c) -> embeds p c.
Proof.
  intros N. induction marks as [|y marks IH]; cbn; intros H; [exact H|].
  apply IH; [intros q z Hq Hz; apply N; [exact Hq|right; exact Hz]|].
  inversion H as [? E|q p' ? ? Hr Hp|]; subst; [constructor| |assumption].
  exfalso. apply (N q y); [left|left|]; auto.
Qed.
End Embeds.

(** ** ASCII characters and decompositions *)

Lemma marks_form c x marks y : In (c, x, marks) decompositions -> In y marks -> (127 < y)%N /\ normal_form y = y.
Proof.
  assert (K : forallb (fun e => let '(_, _, marks) := e in
    forallb (fun y => (127 <? y) && (normal_form y =? y))%N marks) decompositions = true) by (vm_compute; reflexivity).
  rewrite forallb_forall in K. intros H Hy. specialize (K _ H). cbv beta iota in K.
  rewrite forallb_forall in K. specialize (K _ Hy). apply andb_prop in K as [K1 K2].
  apply N.ltb_lt in K1. apply N.eqb_eq in K2. auto.
Qed.

Lemma fold_low q c : (q < 128)%N -> (127 < c)%N -> fold_case q <> fold_case c.
Proof.
  unfold fold_case. intros Hx Hc.
  destruct ((65 <=? q) && (q <=? 90))%N eqn:A, ((65 <=? c) && (c <=? 90))%N eqn:B;
    rewrite ?andb_true_iff, ?N.leb_le in A, B; lia.
Qed.

Lemma low_other b q c : (q < 128)%N -> (127 < c)%N -> ~ same_char b q c.
Proof. intros Hx Hc. pose proof (fold_low q c Hx Hc) as K. unfold same_char. destruct b; congruence. Qed.

Lemma low_mark b n q c x marks y : (q < 128)%N -> In (c, x, marks) decompositions -> In y marks -> ~ agrees b n q y.
Proof.
  intros Hq Hi Hy. destruct (marks_form _ _ _ _ Hi Hy) as [Hb Hn]. intros [A|[_ A]].
  - revert A. now apply low_other.
  - rewrite Hn in A. revert A. now apply low_other.
Qed.

Lemma low_composed b n q c x marks : (q < 128)%N -> In (c, x, marks) decompositions -> agrees b n q c -> agrees b n q x.
Proof.
  intros Hq Hi. destruct (plain_entry _ _ _ Hi) as [Hx Hc]. intros [A|[Hn A]]; [exfalso; revert A; now apply low_other|].
  destruct (entry_form _ _ _ Hi) as [[E _]|[E _]]; rewrite E in A; [left; exact A|].
  exfalso. revert A. now apply low_other.
Qed.

Lemma low_handled b q c x marks : (q < 128)%N -> In (c, x, marks) decompositions -> handled c x marks ->
  agrees b true q x -> agrees b true q c.
Proof.
  intros Hq Hi Hh A. destruct (plain_entry _ _ _ Hi) as [Hx _]. right. split; [reflexivity|].
  destruct (entry_form _ _ _ Hi) as [[E _]|[_ E]]; [|contradiction]. rewrite E.
  assert (F : normal_form x = x) by (apply normal_form_ascii; unfold ascii_letter in Hx; lia).
  destruct A as [A|[_ A]]; [exact A|]. rewrite F in A. exact A.
Qed.

Lemma embeds_split b n p c c' which : Forall (fun q => (q < 128)%N) p -> decomposed which c c' ->
  embeds (agrees b n) p c -> embeds (agrees b n) p c'.
Proof.
  intros Hp D. revert p Hp. induction D as [|y c c' D IH|y x marks c c' Hi Hw D IH]; intros p Hp H; [exact H|..].
  - inversion H as [|q p' ? ? Hr H'|]; subst; [constructor|apply emb_take|apply emb_skip; auto]; auto.
    apply IH; [inversion Hp; assumption|assumption].
  - inversion H as [|q p' ? ? Hr H'|]; subst; [constructor|apply emb_take|apply emb_skip; apply embeds_behind; auto].
    + inversion Hp; subst. eapply low_composed; eassumption.
    + apply embeds_behind. apply IH; [inversion Hp; assumption|assumption].
Qed.

Lemma embeds_joined b p c c' : Forall (fun q => (q < 128)%N) p -> decomposed handled c c' ->
  embeds (agrees b true) p c' -> embeds (agrees b true) p c.
Proof.
  intros Hp D. revert p Hp. induction D as [|y c c' D IH|y x marks c c' Hi Hw D IH]; intros p Hp H; [exact H|..].
  - inversion H as [|q p' ? ? Hr H'|]; subst; [constructor|apply emb_take|apply emb_skip; auto]; auto.
    apply IH; [inversion Hp; assumption|assumption].
  - assert (W : forall p', Forall (fun q => (q < 128)%N) p' -> embeds (agrees b true) p' (marks ++ c') ->
      embeds (agrees b true) p' c').
    { intros p' Hp'. apply embeds_without. intros q z Hq Hz. rewrite Forall_forall in Hp'.
      eapply low_mark; [apply Hp'; exact Hq|eassumption|exact Hz]. }
    inversion H as [|q p' ? ? Hr H'|]; subst; [constructor|apply emb_take|apply emb_skip; auto].
    + inversion Hp; subst. eapply low_handled; eassumption.
    + inversion Hp; subst. apply IH; auto.
Qed.

Section WithUnicode.
Context {UC : unicode}.

Lemma text_split m n text c c' which : Forall (fun q => (q < 128)%N) text -> decomposed which c c' ->
  text_matches m n KFuzzy text c -> text_matches m n KFuzzy text c'.
Proof. unfold text_matches. intros Hp D. rewrite <- !embeds_fuzzy. apply embeds_split with which; assumption. Qed.

Lemma text_same m text c c' : Forall (fun q => (q < 128)%N) text -> decomposed handled c c' ->
  (text_matches m true KFuzzy text c <-> text_matches m true KFuzzy text c').
Proof.
  intros Hp D. split; [apply text_split with handled; assumption|].
  unfold text_matches. rewrite <- !embeds_fuzzy. apply embeds_joined; assumption.
Qed.

Definition fuzzy_ascii (t : term) : Prop := t_kind t = KFuzzy /\ Forall (fun q => (q < 128)%N) (t_text t).

Lemma fuzzy_regular q : Forall (Forall fuzzy_ascii) q -> ~ lone_negated_fuzzy q -> regular q.
Proof.
  intros H L. split; [exact L|]. eapply Forall_impl; [|exact H]. cbv beta. intros g Hg. eapply Forall_impl; [|exact Hg].
  intros t [K _] [B _]. congruence.
Qed.

Lemma c101_decomposed : forall a o m ps s c c',
  metric_reached a o m ->
  Forall (Forall (fun t => t_neg t = false /\ t_kind t = KFuzzy /\ Forall (fun x => (x < 128)%N) (t_text t))) (parse_spec s) ->
  decomposed any_letter c c' ->
  accepts (find ps m s c) -> accepts (find ps m s c').
Proof.
  intros a o m ps s c c' Hm Hs D.
  assert (Hr : regular (parse_spec s)).
  { apply fuzzy_regular.
    - eapply Forall_impl; [|exact Hs]. cbv beta. intros g Hg. eapply Forall_impl; [|exact Hg]. cbv beta. unfold fuzzy_ascii. tauto.
    - intros [text E]. rewrite E in Hs. inversion Hs as [|? ? H1]; subst. inversion H1 as [|? ? (H2 & _)]; subst. discriminate. }
  rewrite !(c27_accepts a o) by assumption. unfold cnf_accepts. intros H. rewrite Forall_forall in *. intros g Hg.
  specialize (H g Hg). specialize (Hs g Hg). rewrite Forall_forall in Hs. apply Exists_exists in H as (t & Ht & H).
  apply Exists_exists. exists t. split; [exact Ht|]. destruct (Hs t Ht) as (H1 & H2 & H3). unfold term_accepts in *.
  rewrite H1, H2 in *. eapply text_split; eassumption.
Qed.

Lemma c101_same : forall a o m ps s c c',
  metric_reached a o m -> opt_norm o = true ->
  Forall (Forall (fun t => t_kind t = KFuzzy /\ Forall (fun x => (x < 128)%N) (t_text t))) (parse_spec s) ->
  decomposed handled c c' ->
  (accepts (find ps m s c) <-> accepts (find ps m s c')).
Proof.
  intros a o m ps s c c' Hm Hn Hs D. change (Forall (Forall fuzzy_ascii) (parse_spec s)) in Hs.
  destruct (lone_negated_dec (parse_spec s)) as [[text E]|L].
  - (* the code does not see this negation *)
    rewrite E in Hs. inversion Hs as [|? ? Hs1 _]; subst. inversion Hs1 as [|? ? [_ Ha] _]; subst. cbn [t_text] in Ha.
    assert (G : forall y, accepts (find ps m s y) <-> text_matches (opt_case o) true KFuzzy text y).
    { intros y. pose proof (metric_reached_options _ _ _ Hm) as Ho. rewrite (find_spec a o) by exact Ho. rewrite E.
      pose proof (proj1 (parse_spec_ok s)) as T. rewrite E in T.
      assert (I : cnf_accepts (opt_case o) (opt_norm o) [[Term false KFuzzy text]] y
                  <-> exists sc, fst (outcome a o [[Term true KFuzzy text]] y) = Some sc).
      { apply (outcome_iff o a [[Term false KFuzzy text]]); [repeat constructor; inversion T as [|? ? T1 _]; subst; inversion T1; assumption|]. split.
        - intros [t Ht]. discriminate.
        - repeat constructor. intros [B _]. discriminate. }
      transitivity (exists sc, fst (outcome a o [[Term true KFuzzy text]] y) = Some sc).
      - unfold accepts. destruct (fst (outcome a o [[Term true KFuzzy text]] y)); cbn; split; intros [x H]; eauto; congruence.
      - rewrite <- I. unfold cnf_accepts, term_accepts. cbn [t_neg t_kind t_text]. rewrite Hn. split.
        + intros H. inversion H as [|? ? H1 _]; subst. inversion H1 as [? ? H2|? ? H2]; subst; [exact H2|inversion H2].
        + intros H. constructor; [|constructor]. constructor. exact H. }
    rewrite !G. apply text_same; assumption.
  - assert (Hr : regular (parse_spec s)) by (apply fuzzy_regular; assumption).
    rewrite !(c27_accepts a o) by assumption. unfold cnf_accepts. rewrite Hn.
    assert (I : forall g, In g (parse_spec s) -> forall t, In t g ->
      (term_accepts (opt_case o) true t c <-> term_accepts (opt_case o) true t c')).
    { intros g Hg t Ht. rewrite Forall_forall in Hs. specialize (Hs g Hg). rewrite Forall_forall in Hs.
      destruct (Hs t Ht) as [K A]. unfold term_accepts. rewrite K. pose proof (text_same (opt_case o) _ _ _ A D). destruct (t_neg t); tauto. }
    rewrite !Forall_forall. split; intros H g Hg; specialize (H g Hg); apply Exists_exists in H as (t & Ht & H);
      apply Exists_exists; exists t; (split; [exact Ht|]); apply (I g Hg t Ht); exact H.
Qed.
(** The query 'en, and the word ên composed and decomposed. *)
Lemma c101_exact : forall a o m ps, metric_reached a o m -> opt_norm o = true ->
  accepts (find ps m [39; 101; 110]%N [234; 110]%N) /\ ~ accepts (find ps m [39; 101; 110]%N [101; 770; 110]%N).
Proof.
  intros a o m ps Hm Hn.
  assert (P : parse_spec [39; 101; 110]%N = [[Term false KExact [101; 110]%N]]) by (vm_compute; reflexivity).
  assert (Hr : regular (parse_spec [39; 101; 110]%N)).
  { rewrite P. split; [intros [t Ht]; discriminate|]. repeat constructor. intros [B _]. discriminate. }
  set (b := sensitive_for (opt_case o) [101; 110]%N).
  assert (G : forall y, accepts (find ps m [39; 101; 110]%N y) <-> exact_in (agrees b true) [101; 110]%N y).
  { intros y. rewrite (c27_accepts a o) by assumption. rewrite P, Hn. unfold cnf_accepts. split.
    - intros H. apply Forall_inv in H. inversion H as [? ? H2|? ? H2]; subst; [exact H2|inversion H2].
    - intros H. constructor; [|constructor]. constructor. exact H. }
  rewrite !G. clearbody b.
  assert (Z : same_char b 101%N 101%N /\ same_char b 110%N 110%N) by (destruct b; split; reflexivity).
  split.
  - exists 0, [], [234; 110]%N, []. split; [reflexivity|]. split; [reflexivity|].
    constructor; [|constructor; [left; apply Z|constructor]]. right. split; [reflexivity|].
    replace (normal_form 234) with 101%N by (vm_compute; reflexivity). apply Z.
  - intros (i & pre & mid & post & E & _ & F).
    assert (B : forall q, (q < 128)%N -> ~ agrees b true q 770%N).
    { intros q Hq. apply (low_mark b true q 234%N 101%N [770%N]); [exact Hq|apply listed; vm_compute; reflexivity|left; reflexivity]. }
    inversion F as [|? y1 ? mid1 R1 F1]; subst. inversion F1 as [|? y2 ? mid2 R2 F2]; subst. inversion F2; subst.
    destruct pre as [|z1 [|z2 pre]]; cbn in E; [injection E as <- <- _|injection E as _ <- _ _|].
    + revert R2. apply B. reflexivity.
    + revert R1. apply B. reflexivity.
    + apply (f_equal (@length char)) in E. cbn in E. rewrite app_length in E. cbn in E. lia.
Qed.

Lemma c101_letter : forall a o m ps, metric_reached a o m ->
  accepts (find ps m [83]%N [83; 780]%N) /\ ~ accepts (find ps m [83]%N [352]%N).
Proof.
  intros a o m ps Hm. assert (X : ascii_letter 83%N) by (left; split; discriminate). split.
  - apply (letter_accepts a o); [exact Hm|exact X|]. apply (in_middle _ _ _ [] [780%N]). left. unfold same_char.
    destruct (sensitive_for _ _); reflexivity.
  - intros H. apply (c100_exact a o m ps 352%N 83%N [780%N] Hm) in H; [|apply listed; vm_compute; reflexivity].
    destruct H as [_ [H|[H|[H|H]]]]; discriminate H.
Qed.

End WithUnicode.
