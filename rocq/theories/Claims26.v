(** Proofs of C91 to C93: queries as formulas, mirror images, and short candidates. *)
From Coq Require Import Sorted.
From Verif Require Import Prelude Chars Utils Query Parser Api History Spec PreludeProofs ParserProofs ApiProofs AcceptProofs ShapeProofs
  Claims1 Claims2 Claims3 Claims4 Typing Claims20 Logic.
Local Open Scope nat_scope.

Section Claims.
Context {UC : unicode}.

(** ** Formulas *)

(** The valuation given by a candidate. *)
Definition seen (a : algo) (o : options) (c : str) : valuation := fun k t =>
  match t with
  | [] => true
  | _ => match base_outcome a o (Term false k t) c with Some _ => true | None => false end
  end.

Lemma asks_less_nil k t k' t' : asks_less k t k' t' -> t' = [] -> t = [].
Proof.
  induction 1 as [| t t' P | u t v | t v | u t | |]; intros E; auto.
  - subst. inversion P. reflexivity.
  - apply app_eq_nil in E as [_ E]. apply app_eq_nil in E as [E _]. exact E.
  - apply app_eq_nil in E as [E _]. exact E.
  - apply app_eq_nil in E as [_ E]. exact E.
Qed.

Lemma seen_some a o c k t : t <> [] -> (seen a o c k t = true <-> exists r, base_outcome a o (Term false k t) c = Some r).
Proof.
  intros Ht. destruct t as [|x t]; [congruence|]. cbn [seen]. destruct (base_outcome a o _ c) as [r|]; split; try discriminate; eauto.
  intros [r H]. discriminate.
Qed.

Lemma seen_sensible a o c : sensible (seen a o c).
Proof.
  intros k t k' t' L H. destruct t as [|x t]; [reflexivity|]. destruct t' as [|x' t'].
  { apply asks_less_nil in L; [discriminate|reflexivity]. }
  apply seen_some in H as [r H]; [|discriminate]. apply seen_some; [discriminate|].
  eapply asks_less_base; [exact L|discriminate|discriminate|exact H].
Qed.

Lemma term_seen a o c t : t_text t <> [] -> (term_true (seen a o c) t = true <-> exists r, term_outcome a o t c = Some r).
Proof.
  destruct t as [neg k text]. cbn [t_text]. intros Ht. unfold term_true, term_outcome. cbn [t_neg t_kind t_text].
  destruct neg; [|apply seen_some; exact Ht].
  pose proof (seen_some a o c k text Ht) as S. destruct (seen a o c k text).
  - destruct S as [S _]. destruct (S eq_refl) as [r E].
    destruct (asks_less_base a o true k text false k text c r (al_same _ _) Ht Ht E) as [r' ->].
    split; [discriminate|]. intros [? ?]. discriminate.
  - split; [|reflexivity]. intros _. destruct (base_outcome a o (Term true k text) c) eqn:E; [|eauto].
    destruct (asks_less_base a o false k text true k text c _ (al_same _ _) Ht Ht E) as [r' E'].
    destruct S as [_ S]. discriminate S. eauto.
Qed.

Lemma either_seen a o c g : Forall (fun t => t_text t <> []) g ->
  (existsb (term_true (seen a o c)) g = true <-> exists r, either_outcome a o g c = Some r).
Proof.
  induction 1 as [|t g Ht _ IH]; [split; [discriminate|intros [? ?]; discriminate]|]. cbn [existsb either_outcome].
  pose proof (term_seen a o c t Ht) as T. destruct (term_true (seen a o c) t).
  - destruct T as [T _]. destruct (T eq_refl) as [r ->]. split; [eauto|reflexivity].
  - cbn [orb]. destruct (term_outcome a o t c); [|exact IH]. destruct T as [_ T]. discriminate T. eauto.
Qed.

Lemma all_seen a o c q : texts_ok q ->
  (query_true (seen a o c) q = true <-> exists x, fst (all_outcome a o q c) = Some x).
Proof.
  induction 1 as [|g q Hg _ IH]; [cbn; split; [eauto|reflexivity]|]. unfold query_true. cbn [forallb all_outcome].
  pose proof (either_seen a o c g Hg) as E. destruct (existsb (term_true (seen a o c)) g).
  - destruct E as [E _]. destruct (E eq_refl) as [[s r] ->]. cbn [andb]. unfold query_true in IH. rewrite IH.
    destruct (all_outcome a o q c) as [[y|] rs]; cbn; split; intros [x X]; eauto; discriminate.
  - cbn [andb]. split; [discriminate|]. intros [x X]. destruct (either_outcome a o g c); [|discriminate].
    destruct E as [_ E]. apply E. eauto.
Qed.

Lemma find_seen a o m ps s c : metric_reached a o m -> ~ lone_negated_fuzzy (parse_spec s) ->
  (accepts (find ps m s c) <-> query_true (seen a o c) (parse_spec s) = true).
Proof.
  intros Hm L. apply metric_reached_options in Hm. rewrite (find_spec a o) by exact Hm. rewrite outcome_all by exact L.
  rewrite all_seen by apply parse_spec_ok. unfold accepts.
  destruct (fst (all_outcome a o (parse_spec s) c)) as [x|]; cbn; split; intros [y Y]; eauto; discriminate.
Qed.

Lemma c91_entails : forall a o m ps s s' c, metric_reached a o m ->
  ~ lone_negated_fuzzy (parse_spec s) -> ~ lone_negated_fuzzy (parse_spec s') ->
  entails (parse_spec s) (parse_spec s') -> accepts (find ps m s c) -> accepts (find ps m s' c).
Proof.
  intros a o m ps s s' c Hm L L' E A. apply (find_seen a o) in A; try assumption. apply (find_seen a o); try assumption.
  apply E; [apply seen_sensible|exact A].
Qed.

Lemma c91_same : forall a o m ps s s' c, metric_reached a o m ->
  ~ lone_negated_fuzzy (parse_spec s) -> ~ lone_negated_fuzzy (parse_spec s') ->
  same_table (parse_spec s) (parse_spec s') -> (accepts (find ps m s c) <-> accepts (find ps m s' c)).
Proof.
  intros a o m ps s s' c Hm L L' E. rewrite (find_seen a o m ps s c Hm L), (find_seen a o m ps s' c Hm L'), (E _). reflexivity.
Qed.

(** An alternative which asks for more than an earlier one is never looked at. *)
Lemma either_drop a o c g1 t g2 u : Forall (fun t => t_text t <> []) (g1 ++ t :: g2) -> In u g1 -> weaker u t ->
  either_outcome a o (g1 ++ t :: g2) c = either_outcome a o (g1 ++ g2) c.
Proof.
  induction g1 as [|x g1 IH]; intros F Hu W; [contradiction|]. inversion F as [|? ? Fx F']; subst.
  cbn [app either_outcome]. destruct (term_outcome a o x c) eqn:E; [reflexivity|]. destruct Hu as [->|Hu]; [|apply IH; assumption].
  clear IH. assert (N : term_outcome a o t c = None).
  { destruct (term_outcome a o t c) eqn:Et; [|reflexivity].
    apply Forall_app in F' as [_ F']. inversion F'; subst.
    destruct (weaker_term a o u t c _ W Fx ltac:(assumption) Et) as [r' R]. congruence. }
  clear - N. induction g1 as [|y g1 IH]; cbn [app either_outcome]; [rewrite N; reflexivity|]. rewrite IH. reflexivity.
Qed.

Lemma all_drop a o c q1 g g' q2 : either_outcome a o g c = either_outcome a o g' c ->
  all_outcome a o (q1 ++ g :: q2) c = all_outcome a o (q1 ++ g' :: q2) c.
Proof. intros E. induction q1 as [|h q1 IH]; cbn [app all_outcome]; [rewrite E; reflexivity|]. rewrite IH. reflexivity. Qed.

Lemma c91_alternative : forall a o m ps s s' q1 g1 t g2 q2 u c buf, metric_reached a o m ->
  parse_spec s = q1 ++ (g1 ++ t :: g2) :: q2 -> parse_spec s' = q1 ++ (g1 ++ g2) :: q2 ->
  ~ lone_negated_fuzzy (parse_spec s') -> In u g1 -> weaker u t ->
  find_ranges ps m s c buf = find_ranges ps m s' c buf.
Proof.
  intros a o m ps s s' q1 g1 t g2 q2 u c buf Hm E E' L' Hu W. apply metric_reached_options in Hm.
  rewrite !(find_ranges_spec a o) by exact Hm.
  assert (L : ~ lone_negated_fuzzy (parse_spec s)).
  { rewrite E. intros [text X]. destruct q1 as [|h q1]; [|destruct q1; discriminate X]. cbn [app] in X. injection X as X _.
    destruct g1 as [|x g1]; [contradiction|]. destruct g1; discriminate X. }
  rewrite !outcome_all by assumption. pose proof (proj1 (parse_spec_ok s)) as T. rewrite E in *. rewrite E' in *.
  apply Forall_app in T as [_ T]. inversion T; subst.
  rewrite (all_drop a o c q1 _ (g1 ++ g2) q2); [reflexivity|]. eapply either_drop; eassumption.
Qed.

(** ** Mirror images *)

Lemma lone_negated_dec (q : cnf) : lone_negated_fuzzy q \/ ~ lone_negated_fuzzy q.
Proof.
  destruct q as [|[|[[|] [| | | |] text] [|? ?]] [|? ?]]; try (right; intros [? E]; discriminate E). left. eexists. reflexivity.
Qed.

Lemma uppercase_rev text : existsb is_uppercase (rev text) = existsb is_uppercase text.
Proof.
  induction text as [|x t IH]; [reflexivity|]. cbn [rev]. rewrite existsb_app, IH. cbn [existsb]. rewrite orb_false_r. apply orb_comm.
Qed.

Lemma sensitive_rev m text : sensitive_for m (rev text) = sensitive_for m text.
Proof. destruct m; cbn [sensitive_for]; auto. apply uppercase_rev. Qed.



Lemma sorted_snoc (l : list nat) x : StronglySorted lt l -> Forall (fun y => y < x) l -> StronglySorted lt (l ++ [x]).
Proof.
  induction 1 as [|y l S IH F]; intros G; cbn [app]; [constructor; constructor|]. inversion G; subst. constructor; [auto|].
  apply Forall_app. split; [exact F|repeat constructor; assumption].
Qed.

Lemma nth_error_rev {A} (l : list A) i : i < length l -> nth_error (rev l) (length l - 1 - i) = nth_error l i.
Proof.
  revert i. induction l as [|x l IH]; intros i Hi; [cbn in Hi; lia|]. cbn [rev length] in *. destruct i as [|i].
  - rewrite nth_error_app2 by (rewrite rev_length; lia). rewrite rev_length.
    replace (S (length l) - 1 - 0 - length l) with 0 by lia. reflexivity.
  - rewrite nth_error_app1 by (rewrite rev_length; lia). replace (S (length l) - 1 - S i) with (length l - 1 - i) by lia.
    cbn [nth_error]. apply IH. lia.
Qed.

Lemma forall2_rev {A B} (P : A -> B -> Prop) l l' : Forall2 P l l' -> Forall2 P (rev l) (rev l').
Proof. induction 1; cbn [rev]; [constructor|]. apply Forall2_app; auto. Qed.

Lemma alignment_rev R p c ps : alignment R p c ps ->
  alignment R (rev p) (rev c) (rev (map (fun j => length c - 1 - j) ps)).
Proof.
  intros [S F].
  assert (B : Forall (fun j => j < length c) ps).
  { clear S. induction F as [|x j p ps (y & Hy & _) _ IH]; constructor; auto. apply nth_error_Some. congruence. }
  split.
  - clear F. induction S as [|j ps S IH G]; cbn [map rev]; [constructor|]. inversion B as [|? ? Bj B']; subst. apply sorted_snoc; [auto|].
    apply Forall_rev. apply Forall_map. clear - G B' Bj. induction G as [|k ps Hk _ IH]; constructor; inversion B'; subst; [lia|auto].
  - apply forall2_rev. clear S. induction F as [|x j p ps (y & Hy & Hr) _ IH]; cbn [map]; constructor; inversion B; subst; auto.
    exists y. split; [|exact Hr]. rewrite nth_error_rev by assumption. exact Hy.
Qed.

Lemma fuzzy_rev R p c : fuzzy_in R p c <-> fuzzy_in R (rev p) (rev c).
Proof.
  split; intros [ps H]; apply alignment_rev in H; [eexists; exact H|]. rewrite !rev_involutive in H. eexists; exact H.
Qed.

Lemma exact_rev R p c : exact_in R p c <-> exact_in R (rev p) (rev c).
Proof.
  assert (H : forall p c, exact_in R p c -> exact_in R (rev p) (rev c)).
  { intros p' c' (i & pre & mid & post & -> & L & F). exists (length (rev post)), (rev post), (rev mid), (rev pre).
    rewrite !rev_app_distr, <- app_assoc. split; [reflexivity|]. split; [reflexivity|]. apply forall2_rev. exact F. }
  split; [apply H|]. intros X. apply H in X. rewrite !rev_involutive in X. exact X.
Qed.

Lemma equal_rev R p c : equal_in R p c <-> equal_in R (rev p) (rev c).
Proof.
  assert (H : forall p c, equal_in R p c -> equal_in R (rev p) (rev c)).
  { intros p' c' (n & mid & k & -> & F). exists k, (rev mid), n.
    rewrite !rev_app_distr, !rev_spaces, <- app_assoc. split; [reflexivity|]. apply forall2_rev. exact F. }
  split; [apply H|]. intros X. apply H in X. rewrite !rev_involutive in X. exact X.
Qed.

Lemma text_mirror m norm k text c :
  text_matches m norm k text c <-> text_matches m norm (mirror_kind k) (rev text) (rev c).
Proof.
  unfold text_matches. rewrite sensitive_rev. destruct k; cbn [mirror_kind].
  - apply fuzzy_rev.
  - apply exact_rev.
  - rewrite suffix_prefix, !rev_involutive. reflexivity.
  - apply suffix_prefix.
  - apply equal_rev.
Qed.

Lemma rev_nonempty (t : str) : t <> [] -> rev t <> [].
Proof. intros H E. apply H. rewrite <- (rev_involutive t), E. reflexivity. Qed.

Lemma base_mirror a o t c : t_text t <> [] ->
  ((exists r, base_outcome a o t c = Some r) <-> exists r, base_outcome a o (mirror_term t) (rev c) = Some r).
Proof.
  intros Ht. assert (Ht' : t_text (mirror_term t) <> []) by (apply rev_nonempty; exact Ht).
  assert (D : blank_equal t \/ ~ blank_equal t).
  { unfold blank_equal. destruct (t_kind t); try (right; intros [? _]; discriminate).
    destruct (list_eq_dec N.eq_dec (t_text t) (spaces (length (t_text t)))); [left; auto|right; tauto]. }
  destruct D as [D|D].
  - assert (D' : blank_equal (mirror_term t)).
    { destruct D as [D1 D2]. split; unfold mirror_term; cbn [t_kind t_text]; [rewrite D1; reflexivity|].
      rewrite rev_length, D2 at 1. apply rev_spaces. }
    rewrite (base_outcome_blank o a t c Ht D), (base_outcome_blank o a _ _ Ht' D'). unfold mirror_term. cbn [t_text].
    split; [intros ->; reflexivity|]. intros E. apply (f_equal (@rev _)) in E. rewrite !rev_involutive in E. exact E.
  - assert (D' : ~ blank_equal (mirror_term t)).
    { intros [D1 D2]. apply D. unfold mirror_term in *. cbn [t_kind t_text] in *. split; [revert D1; destruct (t_kind t); cbn; congruence|].
      apply (f_equal (@rev _)) in D2. rewrite rev_involutive, rev_spaces, rev_length in D2. exact D2. }
    rewrite <- (base_outcome_iff o a t c Ht D), <- (base_outcome_iff o a _ _ Ht' D'). apply text_mirror.
Qed.

Lemma term_mirror a o t c : t_text t <> [] ->
  ((exists r, term_outcome a o t c = Some r) <-> exists r, term_outcome a o (mirror_term t) (rev c) = Some r).
Proof.
  intros Ht. pose proof (base_mirror a o t c Ht) as B. unfold term_outcome. change (t_neg (mirror_term t)) with (t_neg t).
  destruct (t_neg t); [|exact B].
  destruct (base_outcome a o t c), (base_outcome a o (mirror_term t) (rev c)); try (split; intros [? ?]; eauto; discriminate).
  - destruct B as [B _]. destruct B; eauto. discriminate.
  - destruct B as [_ B]. destruct B; eauto. discriminate.
Qed.

Lemma either_mirror a o g c : Forall (fun t => t_text t <> []) g ->
  ((exists r, either_outcome a o g c = Some r) <-> exists r, either_outcome a o (map mirror_term g) (rev c) = Some r).
Proof.
  induction 1 as [|t g Ht _ IH]; [reflexivity|]. cbn [map either_outcome]. pose proof (term_mirror a o t c Ht) as T.
  destruct (term_outcome a o t c), (term_outcome a o (mirror_term t) (rev c)); [split; eauto| | |exact IH].
  - destruct T as [T _]. destruct T; eauto. discriminate.
  - destruct T as [_ T]. destruct T; eauto. discriminate.
Qed.

Lemma all_mirror a o q c : texts_ok q ->
  ((exists x, fst (all_outcome a o q c) = Some x) <-> exists x, fst (all_outcome a o (mirror q) (rev c)) = Some x).
Proof.
  induction 1 as [|g q Hg _ IH]; [cbn; split; eauto|]. cbn [mirror map all_outcome]. fold (mirror q).
  pose proof (either_mirror a o g c Hg) as E.
  destruct (either_outcome a o g c) as [[s1 r1]|], (either_outcome a o (map mirror_term g) (rev c)) as [[s2 r2]|].
  - destruct (all_outcome a o q c) as [[x|] r], (all_outcome a o (mirror q) (rev c)) as [[x'|] r']; cbn [fst option_map] in *.
    + split; eauto.
    + destruct IH as [IH _]. destruct IH; eauto. discriminate.
    + destruct IH as [_ IH]. destruct IH; eauto. discriminate.
    + split; intros [? ?]; discriminate.
  - destruct E as [E _]. destruct E; eauto. discriminate.
  - destruct E as [_ E]. destruct E; eauto. discriminate.
  - cbn. split; intros [? ?]; discriminate.
Qed.

Lemma outcome_mirror a o q c : texts_ok q ->
  ((exists x, fst (outcome a o q c) = Some x) <-> exists x, fst (outcome a o (mirror q) (rev c)) = Some x).
Proof.
  intros T. destruct (lone_negated_dec q) as [[text ->]|L].
  - inversion T as [|? ? T1 _]; subst. inversion T1 as [|? ? T2 _]; subst. cbn [t_text] in T2.
    pose proof (base_mirror a o (Term true KFuzzy text) c T2) as B. unfold base_outcome, mirror_term in B. cbn [t_kind t_text mirror_kind] in B.
    cbn. destruct (fuzzy_outcome a o text c) as [[s1 r1]|], (fuzzy_outcome a o (rev text) (rev c)) as [[s2 r2]|]; cbn.
    + split; eauto.
    + destruct B as [B _]. destruct B; eauto. discriminate.
    + destruct B as [_ B]. destruct B; eauto. discriminate.
    + split; intros [? ?]; discriminate.
  - rewrite !outcome_all; [apply all_mirror; exact T| |exact L].
    intros [text E]. apply L. destruct q as [|[|[neg k text'] [|? ?]] [|? ?]]; try discriminate. unfold mirror, mirror_term in E.
    cbn in E. injection E as -> E _. destruct k; try discriminate. eexists. reflexivity.
Qed.

Lemma c92_mirror : forall a o m ps s s' c, metric_reached a o m -> parse_spec s' = mirror (parse_spec s) ->
  (accepts (find ps m s c) <-> accepts (find ps m s' (rev c))).
Proof.
  intros a o m ps s s' c Hm E. apply metric_reached_options in Hm. rewrite !(find_spec a o) by exact Hm. rewrite E.
  pose proof (outcome_mirror a o (parse_spec s) c (proj1 (parse_spec_ok s))) as O. unfold accepts.
  destruct (fst (outcome a o (parse_spec s) c)), (fst (outcome a o (mirror (parse_spec s)) (rev c))); cbn.
  - split; eauto.
  - destruct O as [O _]. destruct O; eauto. discriminate.
  - destruct O as [_ O]. destruct O; eauto. discriminate.
  - split; intros [? ?]; discriminate.
Qed.

(** ** Short candidates *)

Lemma text_matches_length m norm k text c : text_matches m norm k text c -> length text <= length c.
Proof.
  assert (F : forall R, fuzzy_in R text c -> length text <= length c).
  { intros R [ps [S F]]. pose proof (Forall2_len _ _ _ F) as L. rewrite L.
    assert (B : Forall (fun j => j < length c) ps).
    { clear S L. induction F as [|x j p ps (y & Hy & _) _ IH]; constructor; auto. apply nth_error_Some. congruence. }
    assert (N : NoDup ps).
    { clear - S. induction S as [|j ps S IH F]; constructor; auto. intros I. rewrite Forall_forall in F. specialize (F _ I). lia. }
    rewrite <- (seq_length (length c) 0). apply NoDup_incl_length; [exact N|]. intros j I. apply in_seq. rewrite Forall_forall in B.
    specialize (B _ I). lia. }
  intros H. apply (F (agrees (sensitive_for m text) norm)). destruct k.
  - exact H.
  - apply exact_fuzzy, H.
  - apply exact_fuzzy, prefix_exact, H.
  - apply exact_fuzzy, suffix_exact, H.
  - apply exact_fuzzy, prefix_exact, equal_prefix, H.
Qed.

Lemma either_length a o g c r : Forall (fun t => t_text t <> []) g -> either_outcome a o g c = Some r ->
  Exists (fun t => t_neg t = true \/ length (t_text t) <= length c) g.
Proof.
  intros T. induction T as [|t g Ht _ IH]; intros E; [discriminate|]. cbn [either_outcome] in E.
  destruct (term_outcome a o t c) eqn:X; [|right; apply IH; exact E]. left. unfold term_outcome in X. destruct t as [neg k text].
  cbn [t_neg t_text] in *. destruct neg; [left; reflexivity|]. right.
  apply base_matches in X; [|exact Ht]. eapply text_matches_length. exact X.
Qed.

Lemma c93_short : forall a o m ps s c, metric_reached a o m -> accepts (find ps m s c) ->
  Forall (Exists (fun t => t_neg t = true \/ length (t_text t) <= length c)) (parse_spec s).
Proof.
  intros a o m ps s c Hm [d A]. apply metric_reached_options in Hm. rewrite (find_spec a o) in A by exact Hm.
  pose proof (proj1 (parse_spec_ok s)) as T.
  destruct (lone_negated_dec (parse_spec s)) as [[text E]|L]; [rewrite E; repeat constructor|].
  rewrite outcome_all in A by exact L. destruct (fst (all_outcome a o (parse_spec s) c)) as [x|] eqn:E; [|discriminate]. clear A L.
  revert x E. induction T as [|g q Hg _ IH]; intros x E; constructor; cbn [all_outcome] in E.
  - destruct (either_outcome a o g c) eqn:G; [|discriminate]. eapply either_length; eassumption.
  - destruct (either_outcome a o g c) as [[s1 r1]|] eqn:G; [|discriminate]. destruct (all_outcome a o q c) as [[y|] r]; [|discriminate].
    eapply IH. reflexivity.
Qed.

End Claims.
