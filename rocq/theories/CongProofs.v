(** A search depends on the options only through the scheme and through which characters of the
    query agree with which characters of the candidate. *)
From Coq Require Import Sorted.
From Verif Require Import Prelude Chars Normalize Utils Candidate MatchedRanges Query Parser Scoring
  Slab Fzf FzfV1 FzfV2 Api History
  Spec PreludeProofs CharsProofs NormalizeProofs CandidateProofs MatchedRangesProofs ParserProofs
  ScoreProofs ExactProofs ShapeProofs V1Proofs V2Tables V2Proofs V2Rows V2Fuzzy V2Facts ApiProofs.
Local Open Scope nat_scope.

Lemma find_last_idx_cong {A} (f g : A -> bool) l :
  (forall a, In a l -> f a = g a) -> find_last_idx f l = find_last_idx g l.
Proof.
  induction l as [|x l IH]; intros H; [reflexivity|]. cbn [find_last_idx].
  rewrite IH by (intros a Ha; apply H; right; exact Ha). rewrite (H x) by (left; reflexivity). reflexivity.
Qed.

Lemma in_firstn {A} (x : A) n l : In x (firstn n l) -> In x l.
Proof. intros H. rewrite <- (firstn_skipn n l). apply in_or_app. left. exact H. Qed.
Lemma in_skipn {A} (x : A) n l : In x (skipn n l) -> In x l.
Proof. intros H. rewrite <- (firstn_skipn n l). apply in_or_app. right. exact H. Qed.

Section Eq.
Variables (eq eq' : char_eq_fn).

Lemma hits_cong p : forall w, (forall x y, In x p -> In y w -> eq x y = eq' x y) -> hits eq p w = hits eq' p w.
Proof.
  induction p as [|x p IH]; intros [|y w] H; try reflexivity. cbn [hits].
  rewrite H by (left; reflexivity). rewrite IH; [reflexivity|]. intros a b Ha Hb. apply H; right; assumption.
Qed.

Lemma greedy_cong : forall chars p k, (forall x y, In x p -> In y chars -> eq x y = eq' x y) ->
  greedy eq p chars k = greedy eq' p chars k.
Proof.
  induction chars as [|c chars IH]; intros [|x p] k H; try reflexivity.
  rewrite !greedy_cons. rewrite H by (left; reflexivity).
  rewrite (IH p) by (intros a b Ha Hb; apply H; right; assumption).
  rewrite (IH (x :: p)) by (intros a b Ha Hb; apply H; [exact Ha|right; exact Hb]). reflexivity.
Qed.

Lemma exact_inner_cong {UC : unicode} p s cso : forall chars off bs cb k st,
  (forall x y, In x (p_text p) -> In y chars -> eq x y = eq' x y) ->
  exact_inner p eq s cso chars off bs cb k st = exact_inner p eq' s cso chars off bs cb k st.
Proof.
  induction chars as [|y chars IH]; intros off bs cb k st H; [reflexivity|]. cbn [exact_inner].
  destruct (p_char p k) as [x| |] eqn:E; [|reflexivity|reflexivity]. cbn [bind].
  assert (Hx : In x (p_text p)).
  { unfold p_char, idx in E. destruct (nth_error (p_text p) k) eqn:N; [|discriminate].
    injection E as <-. eapply nth_error_In. exact N. }
  rewrite H by (auto; left; reflexivity).
  assert (IH' : forall off bs cb k st, exact_inner p eq s cso chars off bs cb k st = exact_inner p eq' s cso chars off bs cb k st).
  { intros. apply IH. intros a b Ha Hb. apply H; [exact Ha|right; exact Hb]. }
  destruct (eq' x y).
  - destruct (k =? 0); (destruct (_ =? p_char_len p); [reflexivity|apply IH']).
  - destruct (0 <? k); [reflexivity|apply IH'].
Qed.

Lemma exact_outer_cong {UC : unicode} p s l fuel : forall st,
  (forall x y, In x (p_text p) -> In y l -> eq x y = eq' x y) ->
  exact_outer fuel p (Unicode l) eq s st = exact_outer fuel p (Unicode l) eq' s st.
Proof.
  induction fuel as [|fuel IH]; intros st H; [reflexivity|]. cbn [exact_outer].
  rewrite cand_chars_from_spec. cbn [cand_slice]. unfold slice_from.
  destruct (em_start_offset st <=? length l); [|reflexivity]. cbn [bind].
  rewrite exact_inner_cong by (intros x y Hx Hy; apply H; [exact Hx|eapply in_skipn; exact Hy]).
  destruct (exact_inner _ _ _ _ _ _ _ _ _ _) as [[st' e]| |]; [|reflexivity|reflexivity]. cbn [bind].
  destruct e as [|[|]]; auto.
Qed.

Lemma exact_find_cong {UC : unicode} sch p l :
  (forall x y, In x (p_text p) -> In y l -> eq x y = eq' x y) ->
  exact_find eq sch p l = exact_find eq' sch p l.
Proof. intros H. unfold exact_find. rewrite (exact_outer_cong _ _ _ _ _ H). reflexivity. Qed.

Lemma prefix_find_cong t l : (forall x y, In x t -> In y l -> eq x y = eq' x y) -> prefix_find eq t l = prefix_find eq' t l.
Proof.
  intros H. unfold prefix_find. rewrite (hits_cong t); [reflexivity|].
  intros x y Hx Hy. apply H; [exact Hx|eapply in_skipn; exact Hy].
Qed.

Lemma suffix_find_cong t l : (forall x y, In x t -> In y l -> eq x y = eq' x y) -> suffix_find eq t l = suffix_find eq' t l.
Proof.
  intros H. unfold suffix_find. cbv zeta. rewrite (hits_cong t); [reflexivity|].
  intros x y Hx Hy. apply H; [exact Hx|eapply in_firstn, in_skipn; exact Hy].
Qed.

Lemma equal_find_cong t l : (forall x y, In x t -> In y l -> eq x y = eq' x y) -> equal_find eq t l = equal_find eq' t l.
Proof.
  intros H. unfold equal_find. cbv zeta. rewrite (hits_cong t); [reflexivity|].
  intros x y Hx Hy. apply H; [exact Hx|eapply in_skipn; exact Hy].
Qed.

End Eq.

Section Fuzzy.
Context {UC : unicode}.
Variables (s n s' n' : bool) (p l : list char).
Hypothesis H : forall x y, In x p -> In y l -> char_eq s n x y = char_eq s' n' x y.

Lemma rightmost_cong : forall rp e, (forall x, In x rp -> In x p) -> rightmost s n rp l e = rightmost s' n' rp l e.
Proof.
  induction rp as [|x rp IH]; intros e Hx; [reflexivity|]. cbn [rightmost].
  rewrite (find_last_idx_cong (char_eq s n x) (char_eq s' n' x)).
  - destruct (find_last_idx _ _); [|reflexivity]. apply IH. intros y Hy. apply Hx. right. exact Hy.
  - intros y Hy. apply H; [apply Hx; left; reflexivity|eapply in_firstn; exact Hy].
Qed.

Lemma v1_positions_cong : v1_positions s n p l = v1_positions s' n' p l.
Proof.
  unfold v1_positions. rewrite (greedy_cong _ (char_eq s' n') l p 0 H).
  destruct (greedy (char_eq s' n') p l 0) as [fs|]; [|reflexivity].
  rewrite rightmost_cong by (intros x Hx; apply in_rev; exact Hx).
  destruct (rightmost s' n' _ _ _) as [k|]; [|reflexivity].
  apply greedy_cong. intros x y Hx Hy. apply H; [exact Hx|]. eapply in_skipn, in_firstn. exact Hy.
Qed.

Lemma hit_of_cong i j : hit_of s n p l i j = hit_of s' n' p l i j.
Proof.
  unfold hit_of. destruct (nth_error p i) as [x|] eqn:Ex; [|reflexivity].
  destruct (nth_error l j) as [y|] eqn:Ey; [|reflexivity].
  apply H; eapply nth_error_In; eassumption.
Qed.

Lemma last_col_cong : p <> [] -> last_col s n p l = last_col s' n' p l.
Proof.
  intros Hp. unfold last_col. apply find_last_idx_cong. intros y Hy. apply H; [|exact Hy].
  destruct (exists_last Hp) as (q & x & ->). rewrite last_last. apply in_or_app. right. left. reflexivity.
Qed.

Lemma v2_result_cong sch : p <> [] -> v2_result s n sch p l = v2_result s' n' sch p l.
Proof.
  intros Hp. unfold v2_result. 
  pose proof (greedy_cong _ (char_eq s' n') l p 0 H) as Eg. pose proof (last_col_cong Hp) as El.
  destruct (greedy (char_eq s' n') p l 0) as [fs|] eqn:G'; rewrite Eg; [|reflexivity].
  destruct (last_col s' n' p l) as [stop|] eqn:L'; rewrite El; [|reflexivity].
  pose proof (v2_best_cell s n sch p l fs stop Hp Eg El) as B.
  pose proof (v2_best_cell s' n' sch p l fs stop Hp G' L') as B'.
  assert (Hi : fst (v2_best s n sch p l fs stop) < length p) by apply B.
  apply (best_cell_ext _ (hit_of s' n' p l) _ _ (firsts fs) _ _ hit_of_cong (fun _ _ => eq_refl)) in B.
  pose proof (best_cell_unique _ _ _ _ _ _ _ _ _ B B') as [E1 E2].
  destruct (v2_best s n sch p l fs stop) as [i j], (v2_best s' n' sch p l fs stop) as [i' j'].
  cbn [fst snd] in *. subst i' j'. unfold v2_table.
  rewrite (table_ext _ (hit_of s' n' p l) _ _ (firsts fs) _ _ hit_of_cong (fun _ _ => eq_refl) i Hi).
  rewrite (way_back_ext _ (hit_of s' n' p l) _ _ (firsts fs) _ _ hit_of_cong (fun _ _ => eq_refl) j i true Hi).
  reflexivity.
Qed.

End Fuzzy.

Section Outcome.
Context {UC : unicode}.
Variables (a : algo) (o o' : options) (l : list char).
Hypothesis Hs : opt_scheme o = opt_scheme o'.

(** The two sets of options compare the characters of this text with those of the candidate alike. *)
Definition alike (text : str) : Prop :=
  forall x y, In x text -> In y l ->
    char_eq (sensitive_for (opt_case o) text) (opt_norm o) x y
    = char_eq (sensitive_for (opt_case o') text) (opt_norm o') x y.

Lemma fuzzy_outcome_cong text : text <> [] -> alike text -> fuzzy_outcome a o text l = fuzzy_outcome a o' text l.
Proof.
  intros Ht H. unfold fuzzy_outcome. destruct a.
  - rewrite (v1_positions_cong _ _ _ _ _ _ H), Hs. reflexivity.
  - rewrite (v2_result_cong _ _ _ _ _ _ H _ Ht), Hs. reflexivity.
Qed.

Lemma place_found_cong t : alike (t_text t) -> place_found o t l = place_found o' t l.
Proof.
  intros H. unfold place_found. destruct (t_kind t).
  - reflexivity.
  - rewrite Hs. apply exact_find_cong. exact H.
  - apply prefix_find_cong. exact H.
  - apply suffix_find_cong. exact H.
  - apply equal_find_cong. exact H.
Qed.

Lemma base_outcome_cong t : t_text t <> [] -> alike (t_text t) -> base_outcome a o t l = base_outcome a o' t l.
Proof.
  intros Ht H. unfold base_outcome. rewrite (place_found_cong t H), Hs.
  destruct (t_kind t); try reflexivity. apply fuzzy_outcome_cong; assumption.
Qed.

Lemma term_outcome_cong t : t_text t <> [] -> alike (t_text t) -> term_outcome a o t l = term_outcome a o' t l.
Proof. intros Ht H. unfold term_outcome. rewrite (base_outcome_cong t Ht H). reflexivity. Qed.

Lemma either_outcome_cong g : Forall (fun t => t_text t <> []) g -> Forall (fun t => alike (t_text t)) g ->
  either_outcome a o g l = either_outcome a o' g l.
Proof.
  induction 1 as [|t g Ht Hg IH]; intros H; [reflexivity|]. inversion H; subst. cbn [either_outcome].
  rewrite term_outcome_cong, IH by assumption. reflexivity.
Qed.

Lemma all_outcome_cong q : texts_ok q -> Forall (Forall (fun t => alike (t_text t))) q ->
  all_outcome a o q l = all_outcome a o' q l.
Proof.
  induction 1 as [|g q Hg Hq IH]; intros H; [reflexivity|]. inversion H; subst. cbn [all_outcome].
  rewrite either_outcome_cong, IH by assumption. reflexivity.
Qed.

Lemma outcome_cong q : texts_ok q -> Forall (Forall (fun t => alike (t_text t))) q ->
  outcome a o q l = outcome a o' q l.
Proof.
  intros Hq H. destruct (outcome_cases q) as [(neg & text & ->)|[E _]].
  - cbn. inversion Hq as [|? ? H1]; subst. inversion H1; subst. inversion H as [|? ? H2]; subst. inversion H2; subst.
    rewrite fuzzy_outcome_cong by assumption. reflexivity.
  - rewrite !E. apply all_outcome_cong; assumption.
Qed.

Lemma raw_outcome_cong text : alike text -> raw_outcome a o text l = raw_outcome a o' text l.
Proof.
  intros H. destruct text as [|x t]; [reflexivity|]. unfold raw_outcome.
  rewrite fuzzy_outcome_cong; [reflexivity|discriminate|exact H].
Qed.

End Outcome.
