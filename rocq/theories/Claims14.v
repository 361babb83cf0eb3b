(** Proofs of C70 and C71: how long a search takes. *)
From Verif Require Import Prelude Chars Normalize Utils Candidate MatchedRanges Query Parser Scoring
  Slab Fzf FzfV1 FzfV2 Api Cost History
  Spec PreludeProofs CharsProofs CandidateProofs ParserProofs V1Proofs ApiProofs WordsProofs Claims1 Claims2 Claims3
  CostProofs CostBounds.
Local Open Scope nat_scope.

(** ** The terms are not longer than the query *)

Lemma split_length l : list_sum (map (@length char) (split l)) <= length l.
Proof.
  induction l as [|[c|] l IH]; cbn [split]; [reflexivity| |].
  - destruct (split l) as [|w ws]; cbn [map list_sum length] in *; unfold list_sum in *; cbn [fold_right length] in *; lia.
  - unfold list_sum in *. cbn [map fold_right length]. lia.
Qed.

Lemma tokens_length s : length (tokens s) <= length s.
Proof.
  induction s as [s IH] using (induction_ltof1 _ (@length char)). unfold ltof in IH. destruct s as [|c [|d r]].
  - reflexivity.
  - cbn [tokens]. destruct (_ =? _)%N; reflexivity.
  - pose proof (IH (d :: r)) as I1. pose proof (IH r) as I2. cbn [length] in *.
    specialize (I1 ltac:(lia)). specialize (I2 ltac:(lia)).
    assert (E : tokens (c :: d :: r) = if (c =? 32)%N then Sep :: tokens (d :: r)
      else if ((c =? 92)%N && (d =? 32)%N)%bool then Lit 32%N :: tokens r else Lit c :: tokens (d :: r)) by reflexivity.
    rewrite E. destruct (c =? 32)%N; [cbn [length]; lia|]. destruct (_ && _)%bool; cbn [length]; lia.
Qed.

Lemma words_length s : list_sum (map (@length char) (words_of s)) <= length s.
Proof.
  unfold words_of. etransitivity; [|apply tokens_length]. etransitivity; [|apply split_length].
  induction (split (tokens s)) as [|w ws IH]; [reflexivity|]. cbn [filter]. unfold list_sum in *. cbn [map fold_right].
  destruct (nonempty w); cbn [map fold_right]; lia.
Qed.

Lemma removelast_length A (l : list A) : length (removelast l) <= length l.
Proof. induction l as [|x [|y l] IH]; cbn [removelast length] in *; lia. Qed.

Lemma term_of_length w t : term_of w = Some t -> length (t_text t) <= length w.
Proof.
  unfold term_of. destruct (bang w) as [neg w1] eqn:E1. destruct (dollar w1) as [d w2] eqn:E2. destruct (open_sigil w2) as [o w3] eqn:E3.
  assert (L1 : length w1 <= length w).
  { destruct w as [|c w]; cbn in E1; [injection E1 as _ <-; lia|]. destruct (_ =? _)%N; injection E1 as _ <-; cbn; lia. }
  assert (L2 : length w2 <= length w1).
  { destruct w1 as [|c [|c' w1]]; cbn [dollar] in E2; [injection E2 as _ <-; lia..|].
    destruct (_ =? _)%N; injection E2 as _ <-; [apply (removelast_length _ (c :: c' :: w1))|lia]. }
  assert (L3 : length w3 <= length w2).
  { destruct w2 as [|c w2]; cbn in E3; [injection E3 as _ <-; lia|].
    destruct (_ =? _)%N; [injection E3 as _ <-; cbn; lia|]. destruct (_ =? _)%N; injection E3 as _ <-; cbn; lia. }
  destruct w3; [discriminate|]. intros H. injection H as <-. cbn [t_text]. lia.
Qed.

Lemma text_length_le s : text_length (parse_spec s) <= length s.
Proof.
  unfold text_length. rewrite parse_spec_terms. etransitivity; [|apply words_length].
  induction (words_of s) as [|w ws IH]; [reflexivity|]. cbn [terms_of]. unfold list_sum in *. cbn [map fold_right].
  destruct (is_term w) as [t|] eqn:E; cbn [map fold_right].
  - unfold is_term in E. destruct (is_bar w); [discriminate|]. apply term_of_length in E. lia.
  - lia.
Qed.

(** ** From one term to a query *)
Section Trait.
Context {UC : unicode}.
Context {St : Type}.
Variable ceq : St -> pattern -> char_eq_fn.
Variable sch : St -> scheme.
Variable fz : St -> pattern -> candidate -> mranges -> timed (option score * St * mranges).
Variable c : candidate.
Variable B : pattern -> nat.
Hypothesis fuzzy_le : forall st p r, snd (fz st p c r) <= B p.
Hypothesis exact_le : forall p, p_match_type p = Exact -> 2 * cand_char_len c + cand_char_len c * p_char_len p + 1 <= B p.
Hypothesis other_le : forall p, 4 * cand_char_len c <= B p.

Lemma score_steps st p r : snd (fzf_score_tm ceq sch fz st p c r) <= B p.
Proof.
  unfold fzf_score_tm. cbv zeta. rewrite <- (Nat.add_0_r (B p)). apply steps_bind.
  - specialize (other_le p). destruct (p_match_type p) eqn:E; [apply fuzzy_le|..];
      rewrite <- (Nat.add_0_r (B p)); (apply steps_bind; [|intros [x y] _; rewrite steps_lift; lia]).
    + etransitivity; [apply exact_steps|]. apply exact_le, E.
    + etransitivity; [apply prefix_steps|exact other_le].
    + etransitivity; [apply suffix_steps|exact other_le].
    + etransitivity; [apply equal_steps|exact other_le].
  - intros [[[x|] st'] r'] _; destruct (p_is_inverse p); rewrite steps_lift; lia.
Qed.

Lemma condition_steps cond : forall st r,
  snd (score_condition_tm ceq sch fz st cond c r) <= list_sum (map (fun p => S (B p)) cond).
Proof.
  induction cond as [|p cond IH]; intros st r; cbn [score_condition_tm]; [reflexivity|].
  rewrite steps_spend. cbn [map list_sum fold_right].
  change (list_sum (S (B p) :: map (fun p => S (B p)) cond)) with (S (B p + list_sum (map (fun p => S (B p)) cond))).
  apply le_n_S. apply steps_bind; [apply score_steps|]. intros [[[x|] st'] r'] _; [rewrite steps_lift; lia|apply IH].
Qed.

Lemma conditions_steps conds : forall st t r,
  snd (score_conditions_tm ceq sch fz st conds c t r) <= length conds + list_sum (map (fun p => S (B p)) (concat conds)).
Proof.
  induction conds as [|cond conds IH]; intros st t r; cbn [score_conditions_tm]; [reflexivity|].
  rewrite steps_spend. cbn [length concat]. rewrite map_app, list_sum_app.
  assert (Hb : forall st' t' r', snd (score_conditions_tm ceq sch fz st' conds c t' r')
    <= length conds + list_sum (map (fun p => S (B p)) (concat conds))) by exact IH.
  set (X := list_sum (map _ cond)). set (Y := list_sum (map _ (concat conds))) in *.
  replace (S (length conds) + (X + Y)) with (1 + (X + (length conds + Y))) by lia. apply le_n_S.
  apply steps_bind; [apply condition_steps|]. intros [[[x|] st'] r'] _; [apply IH|rewrite steps_lift; lia].
Qed.

Lemma search_steps_le st q buf : snd (fzf_search_tm ceq sch fz st q c buf)
  <= match q with
     | NotExtended p => B p
     | Extended conds => length conds + list_sum (map (fun p => S (B p)) (concat conds))
     end.
Proof.
  unfold fzf_search_tm. cbv zeta. rewrite <- (Nat.add_0_r (match q with Extended _ => _ | NotExtended _ => _ end)).
  apply steps_bind; [destruct q; [apply conditions_steps|apply fuzzy_le]|].
  intros [[x st'] r'] _. rewrite steps_lift. lia.
Qed.

End Trait.

Lemma concat_length_ge A (l : list (list A)) : Forall (fun g => g <> []) l -> length l <= length (concat l).
Proof.
  induction 1 as [|g l Hg _ IH]; [reflexivity|]. cbn [concat length]. rewrite app_length. destruct g; [congruence|]. cbn [length]. lia.
Qed.

Lemma list_sum_le A (f g : A -> nat) l : (forall x, In x l -> f x <= g x) -> list_sum (map f l) <= list_sum (map g l).
Proof.
  induction l as [|x l IH]; intros H; [reflexivity|]. unfold list_sum in *. cbn [map fold_right].
  pose proof (H x (or_introl eq_refl)). assert (fold_right Nat.add 0 (map f l) <= fold_right Nat.add 0 (map g l)) by (apply IH; intros; apply H; right; assumption).
  lia.
Qed.

Lemma list_sum_scale A (f : A -> nat) k l : list_sum (map (fun x => k * f x) l) = k * list_sum (map f l).
Proof. induction l as [|x l IH]; unfold list_sum in *; cbn [map fold_right]; [lia|]. rewrite IH. lia. Qed.

Lemma list_sum_plus A (f g : A -> nat) l : list_sum (map (fun x => f x + g x) l) = list_sum (map f l) + list_sum (map g l).
Proof. induction l as [|x l IH]; unfold list_sum in *; cbn [map fold_right]; lia. Qed.

Lemma list_sum_const A k (l : list A) : list_sum (map (fun _ => k) l) = k * length l.
Proof. induction l as [|x l IH]; unfold list_sum in *; cbn [map fold_right length]; lia. Qed.

(** The steps of a search: those of the terms and up to three for every byte of the candidate. *)
Section Search.
Context {UC : unicode}.
Context {St : Type}.
Variable alloc : St -> str -> timed (list char * St).
Variable ceq : St -> pattern -> char_eq_fn.
Variable sch : St -> scheme.
Variable fz : St -> pattern -> candidate -> mranges -> timed (option score * St * mranges).
Hypothesis alloc_steps : forall st s, snd (alloc st s) <= 2 * byte_len s.
Hypothesis alloc_chars : forall st s l st', fst (alloc st s) = Ok (l, st') -> l = s.
Variable B : nat -> pattern -> nat.
Hypothesis B_mono : forall n n' p, n <= n' -> B n p <= B n' p.
Hypothesis fuzzy_le : forall st p c r, snd (fz st p c r) <= B (cand_char_len c) p.
Hypothesis exact_le : forall p n, p_match_type p = Exact -> 2 * n + n * p_char_len p + 1 <= B n p.
Hypothesis other_le : forall p n, 4 * n <= B n p.

Lemma distance_steps_le st q s buf : snd (fzf_distance_tm alloc ceq sch fz st q s buf)
  <= if q_is_empty q then 0 else 3 * byte_len s +
     match q with
     | NotExtended p => B (byte_len s) p
     | Extended conds => length conds + list_sum (map (fun p => S (B (byte_len s) p)) (concat conds))
     end.
Proof.
  unfold fzf_distance_tm. destruct (q_is_empty q); [rewrite steps_lift; lia|]. rewrite steps_spend.
  replace (3 * byte_len s) with (byte_len s + 2 * byte_len s) by lia. rewrite <- Nat.add_assoc. apply Nat.add_le_mono_l.
  apply steps_bind.
  - destruct (str_is_ascii s); [rewrite steps_lift; lia|]. rewrite <- (Nat.add_0_r (2 * byte_len s)).
    apply steps_bind; [apply alloc_steps|]. intros [l st'] _. rewrite steps_lift. lia.
  - intros [c st'] E.
    assert (Hc : cand_char_len c <= byte_len s).
    { destruct (str_is_ascii s).
      - injection E as <- _. cbn [cand_char_len]. rewrite encode_length. lia.
      - rewrite fst_tbind in E. apply ok_bind in E as ([l st1] & E1 & E). apply alloc_chars in E1. subst l.
        injection E as <- _. cbn [cand_char_len]. apply length_le_byte_len. }
    etransitivity; [apply (search_steps_le ceq sch fz c (B (byte_len s)))|reflexivity].
    + intros. etransitivity; [apply fuzzy_le|apply B_mono, Hc].
    + intros p Hp. etransitivity; [apply exact_le, Hp|apply B_mono, Hc].
    + intros p. etransitivity; [apply other_le|apply B_mono, Hc].
Qed.

(** For the query made of [q]. *)
Lemma cnf_steps_le st q s buf : Forall (fun g => g <> []) q ->
  snd (fzf_distance_tm alloc ceq sch fz st (query_of q) s buf)
  <= list_sum (map (fun t => 3 * byte_len s + 2 + B (byte_len s) (pat_of t)) (concat q)).
Proof.
  intros Hq. etransitivity; [apply distance_steps_le|].
  assert (G : q <> [] -> 3 * byte_len s + (length (map (map pat_of) q)
      + list_sum (map (fun p => S (B (byte_len s) p)) (concat (map (map pat_of) q))))
    <= list_sum (map (fun t => 3 * byte_len s + 2 + B (byte_len s) (pat_of t)) (concat q))).
  { intros Hne. rewrite map_length, <- concat_map, map_map, list_sum_plus, list_sum_const.
    pose proof (concat_length_ge _ _ Hq) as L. assert (1 <= length q) by (destruct q; [congruence|cbn; lia]).
    assert (E : list_sum (map (fun x => S (B (byte_len s) (pat_of x))) (concat q))
                = length (concat q) + list_sum (map (fun x => B (byte_len s) (pat_of x)) (concat q))).
    { change (map (fun x => S (B (byte_len s) (pat_of x))) (concat q)) with (map (fun x => 1 + B (byte_len s) (pat_of x)) (concat q)).
      rewrite list_sum_plus, list_sum_const. lia. }
    rewrite E. nia. }
  destruct q as [|g q]; [cbn; lia|].
  assert (N : q_is_empty (query_of (g :: q)) = false \/ q_is_empty (query_of (g :: q)) = true) by (destruct (q_is_empty _); auto).
  destruct N as [->| ->]; [|lia].
  assert (Hn : g :: q <> []) by discriminate. specialize (G Hn).
  unfold query_of. destruct g as [|[neg k text] [|t' g]]; [exact G| |destruct k; exact G].
  destruct k, q; try exact G. cbn [concat app map]. unfold list_sum. cbn [fold_right]. lia.
Qed.

End Search.

Section Claims.
Context {UC : unicode}.

Lemma v1_alloc_steps st s : snd (v1_alloc_chars_tm st s) <= 2 * byte_len s.
Proof.
  unfold v1_alloc_chars_tm, candidate_alloc_tm. rewrite <- (Nat.add_0_r (2 * byte_len s)).
  pose proof (resize_le _ (v1_candidate_slab st) (byte_len s)). pose proof (length_le_byte_len s).
  apply steps_bind; [rewrite steps_spend, steps_lift; lia|]. intros [l sl] _. rewrite steps_lift. lia.
Qed.

Lemma v1_alloc_chars_of st s l st' : fst (v1_alloc_chars_tm st s) = Ok (l, st') -> l = s.
Proof.
  unfold v1_alloc_chars_tm, candidate_alloc_tm. rewrite fst_tbind, fst_spend, fst_lift.
  destruct (candidate_alloc_spec (v1_candidate_slab st) s) as (ch & -> & _). intros H. injection H as <- _. reflexivity.
Qed.

Lemma v2_alloc_steps st s : snd (v2_alloc_chars_tm st s) <= 2 * byte_len s.
Proof.
  unfold v2_alloc_chars_tm, candidate_alloc_tm. rewrite <- (Nat.add_0_r (2 * byte_len s)).
  pose proof (resize_le _ (v2_candidate_slab st) (byte_len s)). pose proof (length_le_byte_len s).
  apply steps_bind; [rewrite steps_spend, steps_lift; lia|]. intros [l sl] _. rewrite steps_lift. lia.
Qed.

Lemma v2_alloc_chars_of st s l st' : fst (v2_alloc_chars_tm st s) = Ok (l, st') -> l = s.
Proof.
  unfold v2_alloc_chars_tm, candidate_alloc_tm. rewrite fst_tbind, fst_spend, fst_lift.
  destruct (candidate_alloc_spec (v2_candidate_slab st) s) as (ch & -> & _). intros H. injection H as <- _. reflexivity.
Qed.

Definition v1_bound (n : nat) (p : pattern) : nat :=
  5 * n + 2 + match p_match_type p with Exact => n * p_char_len p | _ => 0 end.

Definition v2_bound (n : nat) (p : pattern) : nat :=
  5 * n + 3 * p_char_len p + 7 * (p_char_len p * n) + 2.

Lemma metric_v1_steps m q s :
  snd (metric_distance_tm (V1 m) q s)
  = snd (fzf_distance_tm v1_alloc_chars_tm v1_char_eq v1_scoring_scheme v1_fuzzy_tm m q s []).
Proof.
  unfold metric_distance_tm, tbind. destruct (fst _) as [[[d m'] b]| |]; [|reflexivity..]. rewrite steps_spend, steps_lift. lia.
Qed.

Lemma metric_v2_steps m q s :
  snd (metric_distance_tm (V2 m) q s)
  = snd (fzf_distance_tm v2_alloc_chars_tm v2_char_eq v2_scoring_scheme v2_fuzzy_tm m q s []).
Proof.
  unfold metric_distance_tm, tbind. destruct (fst _) as [[[d m'] b]| |]; [|reflexivity..]. rewrite steps_spend, steps_lift. lia.
Qed.

Lemma v1_bound_mono n n' p : n <= n' -> v1_bound n p <= v1_bound n' p.
Proof. intros H. unfold v1_bound. destruct (p_match_type p); nia. Qed.

Lemma v2_bound_mono n n' p : n <= n' -> v2_bound n p <= v2_bound n' p.
Proof. intros H. unfold v2_bound. nia. Qed.

Lemma v1_fuzzy_bound m p c r : snd (v1_fuzzy_tm m p c r) <= v1_bound (cand_char_len c) p.
Proof. etransitivity; [apply v1_fuzzy_steps|]. unfold v1_bound. lia. Qed.

Lemma room_le m h : room_steps m h <= h.
Proof. unfold room_steps. destruct (_ =? _); [lia|apply resize_le]. Qed.

Lemma v2_fuzzy_bound m p c r : snd (v2_fuzzy_tm m p c r) <= v2_bound (cand_char_len c) p.
Proof.
  destruct (v2_fuzzy_steps m p c r) as [H _]. unfold v2_bound. pose proof (room_le m (p_char_len p)). lia.
Qed.

Lemma v1_exact_bound p n : p_match_type p = Exact -> 2 * n + n * p_char_len p + 1 <= v1_bound n p.
Proof. intros H. unfold v1_bound. rewrite H. lia. Qed.

Lemma v1_other_bound p n : 4 * n <= v1_bound n p.
Proof. unfold v1_bound. lia. Qed.

Lemma v2_exact_bound p n : p_match_type p = Exact -> 2 * n + n * p_char_len p + 1 <= v2_bound n p.
Proof. intros _. unfold v2_bound. nia. Qed.

Lemma v2_other_bound p n : 4 * n <= v2_bound n p.
Proof. unfold v2_bound. lia. Qed.

(** *** C70 *)

Lemma reached_v1 o m : metric_reached AlgoV1 o m -> exists v, m = V1 v.
Proof. intros H. apply metric_reached_options in H. destruct m; [eauto|contradiction]. Qed.

Lemma reached_v2 o m : metric_reached AlgoV2 o m -> exists v, m = V2 v.
Proof. intros H. apply metric_reached_options in H. destruct m; [contradiction|eauto]. Qed.

Lemma c70_same : forall m q c, fst (metric_distance_tm m q c) = metric_distance m q c.
Proof. exact metric_distance_tm_same. Qed.

Lemma c70_fuzzy : forall o m text q c,
  metric_reached AlgoV1 o m -> fuzzy_query text q ->
  distance_steps m q c <= 8 * byte_len c + 2.
Proof.
  intros o m text q c Hm Hq. apply reached_v1 in Hm as (v & ->). apply fuzzy_query_of in Hq. subst q.
  unfold distance_steps. rewrite metric_v1_steps.
  etransitivity; [apply (distance_steps_le _ v1_char_eq v1_scoring_scheme _ v1_alloc_steps v1_alloc_chars_of v1_bound
    v1_bound_mono v1_fuzzy_bound v1_exact_bound v1_other_bound)|].
  destruct (q_is_empty _); [lia|]. unfold v1_bound. cbn [pat_of p_match_type mk_pattern t_kind mt_of]. lia.
Qed.

Lemma c70_terms : forall o m ps s q ps' c,
  metric_reached AlgoV1 o m -> parse ps s = Ok (q, ps') ->
  distance_steps m q c <= (8 * byte_len c + 4) * length (concat (parse_spec s)) + byte_len c * exact_length (parse_spec s).
Proof.
  intros o m ps s q ps' c Hm Hq. apply reached_v1 in Hm as (v & ->).
  destruct (parse_correct ps s) as (ps1 & E & _). rewrite E in Hq. injection Hq as <- _.
  unfold distance_steps. rewrite metric_v1_steps.
  etransitivity; [apply (cnf_steps_le _ v1_char_eq v1_scoring_scheme _ v1_alloc_steps v1_alloc_chars_of v1_bound
    v1_bound_mono v1_fuzzy_bound v1_exact_bound v1_other_bound); apply parse_spec_ok|].
  unfold exact_length. rewrite <- list_sum_scale, <- list_sum_const, <- list_sum_plus. apply list_sum_le.
  intros [neg k text] _. unfold v1_bound. cbn [pat_of p_match_type mk_pattern t_kind t_text].
  unfold p_char_len. change (length (p_text (pat_of (Term neg k text)))) with (length text). destruct k; cbn [mt_of]; lia.
Qed.

(** *** C71 *)

Lemma c71_fuzzy : forall o m text q c,
  metric_reached AlgoV2 o m -> fuzzy_query text q ->
  distance_steps m q c <= (15 * byte_len c + 5) * length text.
Proof.
  intros o m text q c Hm Hq. apply reached_v2 in Hm as (v & ->). apply fuzzy_query_of in Hq. subst q.
  unfold distance_steps. rewrite metric_v2_steps.
  etransitivity; [apply (distance_steps_le _ v2_char_eq v2_scoring_scheme _ v2_alloc_steps v2_alloc_chars_of v2_bound
    v2_bound_mono v2_fuzzy_bound v2_exact_bound v2_other_bound)|].
  destruct text as [|x t]; [cbn; lia|].
  cbn [q_is_empty pat_of p_is_empty mk_pattern t_text p_text]. unfold v2_bound, p_char_len. cbn [p_text mk_pattern pat_of t_text].
  set (h := length (x :: t)). assert (1 <= h) by (unfold h; cbn; lia). clearbody h. set (n := byte_len c). clearbody n.
  assert (n <= h * n) by nia. lia.
Qed.

Lemma c71_terms : forall o m ps s q ps' c,
  metric_reached AlgoV2 o m -> parse ps s = Ok (q, ps') ->
  distance_steps m q c <= (15 * byte_len c + 7) * text_length (parse_spec s)
  /\ text_length (parse_spec s) <= length s.
Proof.
  intros o m ps s q ps' c Hm Hq. apply reached_v2 in Hm as (v & ->). split; [|apply text_length_le].
  destruct (parse_correct ps s) as (ps1 & E & _). rewrite E in Hq. injection Hq as <- _.
  unfold distance_steps. rewrite metric_v2_steps. destruct (parse_spec_ok s) as [Ht Hg].
  etransitivity; [apply (cnf_steps_le _ v2_char_eq v2_scoring_scheme _ v2_alloc_steps v2_alloc_chars_of v2_bound
    v2_bound_mono v2_fuzzy_bound v2_exact_bound v2_other_bound); exact Hg|].
  unfold text_length. rewrite <- list_sum_scale. apply list_sum_le.
  intros [neg k text] Hin. unfold v2_bound, p_char_len. cbn [pat_of p_match_type mk_pattern t_kind t_text p_text].
  assert (1 <= length text).
  { apply in_concat in Hin as (g & Hg1 & Hg2). unfold texts_ok in Ht. rewrite Forall_forall in Ht. specialize (Ht g Hg1).
    rewrite Forall_forall in Ht. specialize (Ht _ Hg2). cbn in Ht. destruct text; [congruence|cbn; lia]. }
  set (h := length text) in *. set (n := byte_len c). clearbody h n. assert (n <= h * n) by nia. lia.
Qed.

(** *** A candidate which does not match *)

Lemma v2_fuzzy_room R m p c r x m' r' : v2_fuzzy R m p c r = Ok (x, m', r') ->
  length (s_indices (v2_slab_ m)) <= length (s_indices (v2_slab_ m'))
  /\ (p_char_len p <> 1 -> p_char_len p <= length (s_indices (v2_slab_ m'))).
Proof.
  unfold v2_fuzzy. cbv zeta. destruct (p_char_len p =? 1) eqn:E1.
  - intros H. apply ok_bind in H as (y & _ & H). apply ok_bind in H as ([sc r1] & _ & H). injection H as _ <- _.
    apply Nat.eqb_eq in E1. split; lia.
  - intros H. apply ok_bind in H as ([o ind] & E & H).
    assert (L : length (s_indices (v2_slab_ m)) <= length ind /\ p_char_len p <= length ind).
    { unfold v2_matches in E. apply ok_bind in E as ([off sl] & Ea & E). apply ok_bind in E as ([o' off'] & Eb & E).
      assert (length (s_indices (v2_slab_ m)) <= length sl /\ p_char_len p <= length sl).
      { unfold indices_alloc in Ea. apply ok_bind in Ea as (l & _ & Ea). injection Ea as _ <-.
        destruct (_ <? _) eqn:El; [|apply Nat.ltb_ge in El; lia]. apply Nat.ltb_lt in El. unfold grow.
        rewrite app_length, repeat_length. lia. }
      assert (Hp : length sl <= length (put_back off' sl)).
      { unfold put_back. rewrite app_length, skipn_length. lia. }
      destruct o' as [i|].
      - apply ok_bind in E as (ch & _ & E). apply ok_bind in E as (l & _ & E). injection E as _ <-. lia.
      - injection E as _ <-. lia. }
    destruct o as [[offs last]|].
    + apply ok_bind in H as (fo & _ & H). apply ok_bind in H as (sb & _ & H). apply ok_bind in H as (ini & _ & H).
      apply ok_bind in H as (base & _ & H). apply ok_bind in H as ([bo bv] & _ & H). apply ok_bind in H as (mo & _ & H).
      apply ok_bind in H as ([[[[[[sc co] cv] score] cell] sv] cov] & _ & H). apply ok_bind in H as (rr & _ & H).
      injection H as _ <- _. cbn [v2_with_slab v2_slab_ s_indices].
      assert (length ind <= length (put_back mo ind)) by (unfold put_back; rewrite app_length, skipn_length; lia). lia.
    + injection H as _ <- _. cbn [v2_with_slab v2_slab_ s_indices]. lia.
Qed.

(** The room for the indices of a query which a metric keeps. *)
Definition room (m : metric) : nat := match m with V1 _ => 0 | V2 v => length (s_indices (v2_slab_ v)) end.

Lemma v2_distance_room R m q s buf x m' buf' : v2_fzf_distance R m q s buf = Ok (x, m', buf') ->
  length (s_indices (v2_slab_ m)) <= length (s_indices (v2_slab_ m'))
  /\ match q with
     | NotExtended p => p_char_len p <= 1 \/ p_char_len p <= length (s_indices (v2_slab_ m'))
     | Extended _ => True
     end.
Proof.
  assert (Hscore : forall R st p c r x st' r', fzf_score v2_char_eq v2_scoring_scheme v2_fuzzy R st p c r = Ok (x, st', r') ->
    length (s_indices (v2_slab_ st)) <= length (s_indices (v2_slab_ st'))).
  { clear. intros R st p c r x st' r'. unfold fzf_score. cbv zeta. intros H. apply ok_bind in H as ([[sc st1] r1] & E & H).
    assert (length (s_indices (v2_slab_ st)) <= length (s_indices (v2_slab_ st1))).
    { destruct (p_match_type p); [apply v2_fuzzy_room in E as [E _]; exact E|..];
        apply ok_bind in E as ([y r2] & _ & E); injection E as _ <- _; lia. }
    assert (st1 = st') as <-; [|assumption]. destruct sc, (p_is_inverse p); injection H as _ -> _; reflexivity. }
  assert (Hcond : forall R c cond st r x st' r', score_condition v2_char_eq v2_scoring_scheme v2_fuzzy R st cond c r = Ok (x, st', r') ->
    length (s_indices (v2_slab_ st)) <= length (s_indices (v2_slab_ st'))).
  { clear - Hscore. intros R c. induction cond as [|p cond IH]; intros st r x st' r' H; cbn [score_condition] in H.
    - injection H as _ <- _. lia.
    - apply ok_bind in H as ([[sc st1] r1] & E & H). apply Hscore in E. destruct sc; [injection H as _ <- _; lia|]. apply IH in H. lia. }
  assert (Hconds : forall R c conds st t r x st' r', score_conditions v2_char_eq v2_scoring_scheme v2_fuzzy R st conds c t r = Ok (x, st', r') ->
    length (s_indices (v2_slab_ st)) <= length (s_indices (v2_slab_ st'))).
  { clear - Hcond. intros R c. induction conds as [|cond conds IH]; intros st t r x st' r' H; cbn [score_conditions] in H.
    - injection H as _ <- _. lia.
    - apply ok_bind in H as ([[sc st1] r1] & E & H). apply Hcond in E. destruct sc; [apply IH in H; lia|injection H as _ <- _; lia]. }
  unfold v2_fzf_distance, fzf_distance. destruct (q_is_empty q) eqn:Eq.
  - intros H. injection H as _ <- _. split; [lia|]. destruct q as [|p]; [exact I|]. left. cbn in Eq. unfold p_is_empty in Eq.
    unfold p_char_len. destruct (p_text p); [cbn; lia|discriminate].
  - intros H. apply ok_bind in H as ([c st1] & E & H). unfold fzf_search in H. cbv zeta in H.
    apply ok_bind in H as ([[sc st2] r2] & E2 & H). injection H as _ <- _.
    assert (E0 : s_indices (v2_slab_ m) = s_indices (v2_slab_ st1)).
    { destruct (str_is_ascii s); [injection E as _ <-; reflexivity|]. apply ok_bind in E as ([l st] & E & E'). injection E' as _ <-.
      unfold v2_alloc_chars in E. apply ok_bind in E as ([l' sl] & _ & E). injection E as _ <-. reflexivity. }
    rewrite E0. destruct q as [conds|p]; [apply Hconds in E2; auto|].
    apply v2_fuzzy_room in E2 as [E2 E3]. split; [exact E2|]. lia.
Qed.

Lemma distance_room m q c d m' : metric_distance m q c = Ok (d, m') -> room m <= room m'.
Proof.
  destruct m as [v|v]; cbn [metric_distance]; intros H; apply ok_bind in H as ([x v'] & E & H); injection H as _ <-; cbn [room]; [lia|].
  unfold v2_distance in E. apply ok_bind in E as ([[y w] b] & E & H). injection H as _ <-. apply v2_distance_room in E. apply E.
Qed.

Lemma distance_and_ranges_room m q c buf d m' buf' : metric_distance_and_ranges m q c buf = Ok (d, m', buf') -> room m <= room m'.
Proof.
  destruct m as [v|v]; cbn [metric_distance_and_ranges]; intros H; apply ok_bind in H as ([[x v'] b] & E & H); injection H as _ <- _;
    cbn [room]; [lia|].
  unfold v2_distance_and_ranges in E. apply v2_distance_room in E. apply E.
Qed.

Lemma later_room m m' : later m m' -> room m <= room m'.
Proof.
  induction 1 as [|m' cs _ IH|m' b _ IH|m' s _ IH|m' q c m'' _ IH _ E]; [lia| | | |].
  1-3: destruct m'; exact IH.
  destruct E as [d m'' E|buf d m'' buf' E].
  - apply distance_room in E. lia.
  - apply distance_and_ranges_room in E. lia.
Qed.

Lemma reached_room o m : metric_reached AlgoV2 o m -> 128 <= room m.
Proof.
  induction 1 as [|o m cs _ IH|o m b _ IH|o m s _ IH|o m q c d m' _ IH _ E|o m q c buf d m' buf' _ IH _ E].
  - cbn [metric_new room v2_new v2_slab_]. apply Nat.leb_le. vm_compute. reflexivity.
  - destruct m; exact IH.
  - destruct m; exact IH.
  - destruct m; exact IH.
  - apply distance_room in E. lia.
  - apply distance_and_ranges_room in E. lia.
Qed.

Lemma called_room m text q c d m' : fuzzy_query text q -> metric_distance m q c = Ok (d, m') ->
  match m with V1 _ => False | V2 _ => True end -> length text <= 1 \/ length text <= room m'.
Proof.
  intros Hq H Hv. apply fuzzy_query_of in Hq. subst q. destruct m as [v|v]; [contradiction|]. cbn [metric_distance] in H.
  apply ok_bind in H as ([x v'] & E & H). injection H as _ <-. unfold v2_distance in E. apply ok_bind in E as ([[y w] b] & E & H).
  injection H as _ <-. apply v2_distance_room in E. apply E.
Qed.

Lemma nomatch_steps v text c m' : metric_distance (V2 v) (NotExtended (pat_of (Term false KFuzzy text))) c = Ok (None, m') ->
  distance_steps (V2 v) (NotExtended (pat_of (Term false KFuzzy text))) c
  <= 5 * byte_len c + 1 + room_steps v (length text).
Proof.
  intros H. rewrite <- metric_distance_tm_same in H. unfold distance_steps. rewrite metric_v2_steps.
  unfold metric_distance_tm in H. rewrite fst_tbind in H. apply ok_bind in H as ([[d w] b] & E & H).
  rewrite fst_lift in H. injection H as -> _. revert E. set (q := NotExtended _).
  change (forall (E : fst (fzf_distance_tm v2_alloc_chars_tm v2_char_eq v2_scoring_scheme v2_fuzzy_tm v q c []) = Ok (None, w, b)),
    snd (fzf_distance_tm v2_alloc_chars_tm v2_char_eq v2_scoring_scheme v2_fuzzy_tm v q c []) <= 5 * byte_len c + 1 + room_steps v (length text)).
  unfold fzf_distance_tm. destruct (q_is_empty q) eqn:Eq; [rewrite fst_lift; discriminate|].
  rewrite fst_spend, steps_spend. rewrite fst_tbind. intros E. apply ok_bind in E as ([cd st] & E1 & E2).
  assert (Hst : snd (if str_is_ascii c then lift (Ok (Ascii (encode c), v))
                     else let! '(chars, st) := v2_alloc_chars_tm v c in lift (Ok (Unicode chars, st))) <= 2 * byte_len c).
  { destruct (str_is_ascii c); [rewrite steps_lift; lia|]. rewrite <- (Nat.add_0_r (2 * byte_len c)).
    apply steps_bind; [apply v2_alloc_steps|]. intros [l st'] _. rewrite steps_lift. lia. }
  assert (Hc : cand_char_len cd <= byte_len c /\ room_steps st (length text) = room_steps v (length text)).
  { destruct (str_is_ascii c).
    - injection E1 as <- <-. cbn [cand_char_len]. rewrite encode_length. split; reflexivity || lia.
    - rewrite fst_tbind in E1. apply ok_bind in E1 as ([l st1] & E1 & E3). injection E3 as <- <-.
      pose proof (v2_alloc_chars_of _ _ _ _ E1) as ->. cbn [cand_char_len]. split; [apply length_le_byte_len|].
      unfold v2_alloc_chars_tm in E1. rewrite fst_tbind in E1. apply ok_bind in E1 as ([l' sl] & _ & E1). injection E1 as _ <-. reflexivity. }
  destruct Hc as [Hc Hr].
  replace (5 * byte_len c + 1 + room_steps v (length text)) with (byte_len c + (2 * byte_len c + (2 * byte_len c + 1 + room_steps v (length text)))) by lia.
  apply Nat.add_le_mono_l. unfold tbind at 1. rewrite E1. cbn [snd]. rewrite steps_spend. apply Nat.add_le_mono; [exact Hst|].
  unfold fzf_search_tm in *. cbv zeta in *. unfold q in *. rewrite fst_tbind in E2. apply ok_bind in E2 as ([[sc st2] r2] & E2 & E3).
  rewrite fst_lift in E3. injection E3 as E3 _ _. destruct sc; [discriminate|].
  rewrite <- (Nat.add_0_r (2 * byte_len c + 1 + _)). apply steps_bind; [|intros [[x y] z] _; rewrite steps_lift; lia].
  destruct (v2_fuzzy_steps st (pat_of (Term false KFuzzy text)) cd (mranges_from [])) as [_ S]. rewrite E2 in S.
  change (p_char_len (pat_of (Term false KFuzzy text))) with (length text) in S. rewrite Hr in S. lia.
Qed.

Lemma room_enough v h : h <= 1 \/ h <= room (V2 v) -> h <> 0 -> room_steps v h = 0.
Proof.
  unfold room_steps, resize_steps. cbn [room]. intros H H0. destruct (h =? 1) eqn:E; [reflexivity|]. apply Nat.eqb_neq in E.
  destruct (_ <? h) eqn:El; [|reflexivity]. apply Nat.ltb_lt in El. lia.
Qed.

Lemma c72_first : forall o m text q c m',
  metric_reached AlgoV2 o m -> fuzzy_query text q ->
  metric_distance m q c = Ok (None, m') ->
  distance_steps m q c <= 5 * byte_len c + 1 + length text
  /\ (length text <= 128 -> distance_steps m q c <= 5 * byte_len c + 1).
Proof.
  intros o m text q c m' Hm Hq H. pose proof (reached_room _ _ Hm) as Hr. apply reached_v2 in Hm as (v & ->).
  apply fuzzy_query_of in Hq. subst q. apply nomatch_steps in H. split; [pose proof (room_le v (length text)); lia|].
  intros L. destruct (length text) eqn:El.
  - destruct text; [|discriminate]. cbn. lia.
  - rewrite room_enough in H; lia.
Qed.

Lemma c72_again : forall o m text q c0 d0 m0 m1 c m',
  metric_reached AlgoV2 o m -> fuzzy_query text q ->
  metric_distance m q c0 = Ok (d0, m0) -> later m0 m1 ->
  metric_distance m1 q c = Ok (None, m') ->
  distance_steps m1 q c <= 5 * byte_len c + 1.
Proof.
  intros o m text q c0 d0 m0 m1 c m' Hm Hq H0 Hl H. apply reached_v2 in Hm as (v & ->).
  pose proof (called_room _ _ _ _ _ _ Hq H0 I) as Hr. pose proof (later_room _ _ Hl) as Hr'.
  assert (exists w, m1 = V2 w) as (w & ->).
  { cbn [metric_distance] in H0. apply ok_bind in H0 as ([x v'] & _ & H0). injection H0 as _ <-. clear - Hl. induction Hl.
    - eauto.
    - destruct IHHl as (w & ->). cbn. eauto.
    - destruct IHHl as (w & ->). cbn. eauto.
    - destruct IHHl as (w & ->). cbn. eauto.
    - destruct IHHl as (w & ->). destruct H0 as [d m'' H0|buf d m'' buf' H0]; cbn in H0.
      + apply ok_bind in H0 as ([x v1] & _ & H0). injection H0 as _ <-. eauto.
      + apply ok_bind in H0 as ([[x v1] b] & _ & H0). injection H0 as _ <- _. eauto. }
  apply fuzzy_query_of in Hq. subst q. apply nomatch_steps in H. destruct (length text) eqn:El.
  - destruct text; [|discriminate]. cbn. lia.
  - rewrite room_enough in H; lia.
Qed.

(** *** An exact term *)

Definition long_exact (k : nat) : str := 39%N :: repeat 97%N k ++ [98%N].
Definition long_text (k : nat) : str := repeat 97%N (2 * k + 1).

Lemma long_exact_parsed k : parse_spec (long_exact k) = [[Term false KExact (repeat 97%N k ++ [98%N])]].
Proof.
  assert (N : no_space (long_exact k)).
  { unfold no_space, long_exact. constructor; [discriminate|]. apply Forall_app. split; [|repeat constructor; discriminate].
    apply Forall_forall. intros x Hx. apply repeat_spec in Hx. subst x. discriminate. }
  unfold parse_spec, words_of. rewrite tokens_no_space by exact N. rewrite split_lits_end.
  change (filter nonempty [long_exact k]) with [long_exact k]. cbn [marked_terms].
  assert (B : is_bar (long_exact k) = false) by (unfold long_exact; destruct k; reflexivity). rewrite B.
  assert (T : term_of (long_exact k) = Some (Term false KExact (repeat 97%N k ++ [98%N]))); [|rewrite T; reflexivity].
  unfold term_of. change (bang (long_exact k)) with (false, long_exact k).
  assert (D : dollar (long_exact k) = (false, long_exact k)).
  { unfold dollar. assert (L : last (long_exact k) 0%N = 98%N).
    { unfold long_exact. change (39%N :: repeat 97%N k ++ [98%N]) with ((39%N :: repeat 97%N k) ++ [98%N]). apply last_last. }
    rewrite L. unfold long_exact. destruct (repeat 97%N k ++ [98%N]); reflexivity. }
  cbv beta iota. rewrite D. cbv beta iota.
  change (open_sigil (long_exact k)) with (OQuote, repeat 97%N k ++ [98%N]). cbv beta iota.
  destruct (repeat 97%N k ++ [98%N]) eqn:E; [destruct k; discriminate|reflexivity].
Qed.

Section Exact.
Variable eq : char_eq_fn.
Hypothesis eq_a : eq 97%N 97%N = true.
Hypothesis eq_b : eq 98%N 97%N = false.
Variable s : scheme.
Variable k : nat.
Hypothesis k_pos : 1 <= k.
Let p := pat_of (Term false KExact (repeat 97%N k ++ [98%N])).

Lemma long_char i : i <= k -> p_char p i = Ok (if i =? k then 98%N else 97%N).
Proof using k_pos eq.
  intros H. unfold p_char, idx. cbn [p pat_of mk_pattern p_text t_text]. destruct (i =? k) eqn:E.
  - apply Nat.eqb_eq in E. subst i. rewrite nth_error_app2; rewrite repeat_length; [|lia]. rewrite Nat.sub_diag. reflexivity.
  - apply Nat.eqb_neq in E. rewrite nth_error_app1 by (rewrite repeat_length; lia). rewrite nth_error_repeat by lia. reflexivity.
Qed.

Lemma long_inner m : forall i off cur bs cb st l, i + m = k -> length l > m -> l = repeat 97%N (length l) ->
  exists st', exact_inner_tm p eq s cur l off bs cb i st = (Ok (st', EmInnerDone (repeat 97%N (length l - S m))), S m)
    /\ em_start_offset st' = (if i =? 0 then em_start_offset st + (off + 1) else em_start_offset st).
Proof using eq_a eq_b k_pos.
  induction m as [|m IH]; intros i off cur bs cb st l Hi Hl El.
  - destruct l as [|x l]; [cbn in Hl; lia|]. cbn [length repeat] in El. injection El as -> El. cbn [exact_inner_tm].
    rewrite long_char by lia. replace (i =? k) with true by (symmetry; apply Nat.eqb_eq; lia).
    unfold tbind, lift. cbn [fst snd]. rewrite eq_b. replace (0 <? i) with true by (symmetry; apply Nat.ltb_lt; lia).
    unfold spend. cbn [fst snd]. exists st. replace (i =? 0) with false by (symmetry; apply Nat.eqb_neq; lia).
    split; [|reflexivity]. cbn [length]. rewrite Nat.sub_succ, Nat.sub_0_r, <- El. reflexivity.
  - destruct l as [|x l]; [cbn in Hl; lia|]. cbn [length repeat] in El, Hl. injection El as -> El. cbn [exact_inner_tm].
    rewrite long_char by lia. replace (i =? k) with false by (symmetry; apply Nat.eqb_neq; lia).
    unfold tbind at 1. unfold lift at 1 2. cbn [fst snd]. rewrite eq_a.
    assert (Hlen : p_char_len p = S k).
    { unfold p_char_len. cbn [p pat_of mk_pattern p_text t_text]. rewrite app_length, repeat_length. cbn [length]. lia. }
    destruct (if i =? 0 then _ else _) as [[bs1 cb1] st1] eqn:E1.
    rewrite Hlen. replace (i + 1 =? S k) with false by (symmetry; apply Nat.eqb_neq; lia).
    edestruct (IH (i + 1) (off + 1) cur bs1 cb1) as (st' & -> & Hs); [lia|lia|exact El|]. exists st'. split; [reflexivity|].
    rewrite Hs. replace (i + 1 =? 0) with false by (symmetry; apply Nat.eqb_neq; lia). cbn [em_start_offset].
    destruct (i =? 0); injection E1 as _ _ <-; reflexivity.
Qed.

Lemma long_outer n j : forall fuel st, em_start_offset st + (k + 1 + j) <= n -> j <= fuel ->
  j * (k + 1) <= snd (exact_outer_tm fuel p (Ascii (repeat 97%N n)) eq s st).
Proof using eq_a eq_b k_pos.
  induction j as [|j IH]; intros fuel st Hn Hf; [lia|]. destruct fuel as [|fuel]; [lia|]. cbn [exact_outer_tm].
  set (o := em_start_offset st) in *.
  assert (E : cand_chars_from (Ascii (repeat 97%N n)) o = Ok (repeat 97%N (n - o))).
  { cbn [cand_chars_from]. unfold slice_from. rewrite repeat_length. replace (o <=? n) with true by (symmetry; apply Nat.leb_le; lia).
    f_equal. replace n with (o + (n - o)) at 1 by lia. rewrite repeat_app, skipn_app, skipn_all2, repeat_length, Nat.sub_diag
      by (rewrite repeat_length; lia). reflexivity. }
  rewrite E. unfold lift at 1. rewrite steps_spend. unfold tbind at 1. cbn [fst snd]. rewrite steps_spend.
  destruct (long_inner k 0 0 o 0 0 st (repeat 97%N (n - o))) as (st' & -> & Hs).
  1-3: rewrite ?repeat_length; lia || reflexivity.
  unfold tbind. cbn [fst snd]. rewrite steps_spend. rewrite repeat_length.
  destruct (repeat 97%N (n - o - S k)) eqn:Er.
  - apply (f_equal (@length _)) in Er. rewrite repeat_length in Er. cbn in Er. lia.
  - pose proof (IH fuel st') as IH'. cbn [Nat.eqb] in Hs. rewrite Hs in IH'. fold o in IH'.
    specialize (IH' ltac:(lia) ltac:(lia)). nia.
Qed.

Lemma long_exact_steps r : k * (k + 1) <= snd (exact_match_tm p (Ascii (long_text k)) eq s r).
Proof using eq_a eq_b k_pos.
  unfold exact_match_tm. assert (Ep : p_is_empty p = false).
  { unfold p_is_empty. cbn [p pat_of mk_pattern p_text t_text]. destruct k; reflexivity. }
  rewrite Ep. unfold tbind. etransitivity; [apply (long_outer (2 * k + 1) k (S (cand_char_len (Ascii (long_text k))))
    (MkEm (-1) 0 0 false (initial_char_class s) 0))|].
  - cbn [em_start_offset]. lia.
  - cbn [cand_char_len]. unfold long_text. rewrite repeat_length. lia.
  - change (Ascii (repeat 97%N (2 * k + 1))) with (Ascii (long_text k)).
    destruct (fst (exact_outer_tm _ _ _ _ _ _)); rewrite ?steps_spend; cbn [snd]; lia.
Qed.

End Exact.

Lemma long_is_ascii k : str_is_ascii (long_text k) = true /\ byte_len (long_text k) = 2 * k + 1.
Proof.
  unfold long_text. induction (2 * k + 1) as [|n [IH1 IH2]]; [split; reflexivity|]. split.
  - unfold str_is_ascii in *. cbn [repeat forallb]. rewrite IH1. reflexivity.
  - change (byte_len (repeat 97%N (S n))) with (1 + byte_len (repeat 97%N n)). rewrite IH2. reflexivity.
Qed.

Lemma long_encode k : encode (long_text k) = long_text k.
Proof. unfold long_text. induction (2 * k + 1) as [|n IH]; [reflexivity|]. cbn [repeat]. change (encode (97%N :: repeat 97%N n)) with (97%N :: encode (repeat 97%N n)). rewrite IH. reflexivity. Qed.

Lemma eq_letters sens : char_eq sens false 97%N 97%N = true /\ char_eq sens false 98%N 97%N = false.
Proof. destruct sens; split; reflexivity. Qed.

Lemma first_term_steps {St} (alloc : St -> str -> timed (list char * St)) ceq sch fz st k :
  1 <= k -> (forall p, ceq st p 97%N 97%N = true /\ ceq st p 98%N 97%N = false) ->
  k * (k + 1) <= snd (fzf_distance_tm alloc ceq sch fz st (query_of (parse_spec (long_exact k))) (long_text k) []).
Proof.
  intros Hk He. rewrite long_exact_parsed. unfold query_of. unfold fzf_distance_tm. cbn [q_is_empty map].
  destruct (long_is_ascii k) as [Ea _]. rewrite Ea, steps_spend. unfold tbind at 1. unfold lift at 1. cbn [fst]. rewrite steps_spend.
  rewrite long_encode. unfold fzf_search_tm. cbv zeta. cbn [score_conditions_tm score_condition_tm].
  set (p := pat_of _).
  assert (M : forall A B (t : timed A) (f : A -> timed B), snd t <= snd (tbind t f)).
  { intros. unfold tbind. destruct (fst t); rewrite ?steps_spend; cbn [snd]; lia. }
  assert (H : k * (k + 1) <= snd (fzf_score_tm ceq sch fz st p (Ascii (long_text k)) (mranges_from []))).
  { unfold fzf_score_tm. cbv zeta. change (p_match_type p) with Exact. cbv iota.
    etransitivity; [|apply M]. etransitivity; [|apply M]. apply long_exact_steps; [apply He..|exact Hk]. }
  etransitivity; [exact H|]. etransitivity; [apply M|]. etransitivity; [|apply Nat.le_add_l].
  etransitivity; [|apply Nat.le_add_l]. etransitivity; [|apply M].
  rewrite steps_spend. etransitivity; [|apply Nat.le_add_l]. etransitivity; [|apply M].
  rewrite steps_spend. etransitivity; [|apply Nat.le_add_l]. apply le_n.
Qed.

Lemma c70_exact : forall a ps (K : nat), exists s t c q ps' m',
  parse ps s = Ok (q, ps') /\ parse_spec s = [[t]]
  /\ metric_distance (metric_new a) q c = Ok (None, m')
  /\ K * (byte_len c + 1) < distance_steps (metric_new a) q c.
Proof.
  intros a ps K. set (k := 2 * K + 1). destruct (parse_correct ps (long_exact k)) as (ps' & E & _).
  pose proof (find_spec a default_options (metric_new a) ps (long_exact k) (long_text k)) as F.
  pose proof (mr_new a) as Hm. specialize (F (metric_reached_options _ _ _ Hm)).
  assert (N : fst (outcome a default_options (parse_spec (long_exact k)) (long_text k)) = None).
  { destruct (fst (outcome _ _ _ _)) as [sc|] eqn:Eo; [exfalso|reflexivity].
    pose proof (c27_accepts a default_options (metric_new a) ps (long_exact k) (long_text k) Hm) as A.
    rewrite long_exact_parsed in A.
    destruct A as [A _].
    - split; [intros (text & H); discriminate|]. repeat constructor. intros [H _]. discriminate.
    - assert (G : accepts (find ps (metric_new a) (long_exact k) (long_text k))) by (rewrite F; unfold accepts; cbn; eauto).
      specialize (A G). inversion A as [|g gs H _]. subst. inversion H as [? ? H1|? ? H1]; [|inversion H1]. subst.
      cbn [term_accepts t_neg text_matches t_kind t_text] in H1. destruct H1 as (i & pre & mid & post & Hc & _ & H2).
      apply Forall2_app_inv_l in H2 as (m1 & m2 & _ & H2 & ->). inversion H2 as [|? y ? ? Hy]. subst.
      assert (y = 97%N).
      { apply (repeat_spec (2 * k + 1)). change (In y (long_text k)). rewrite Hc. apply in_or_app. right. apply in_or_app. left.
        apply in_or_app. right. left. reflexivity. }
      subst y. destruct Hy as [Hy|[Hy _]]; [|discriminate]. revert Hy. unfold same_char, sensitive_for.
      destruct (opt_case default_options); [..|destruct (existsb _ _)]; vm_compute; intuition discriminate. }
  exists (long_exact k), (Term false KExact (repeat 97%N k ++ [98%N])), (long_text k), (query_of (parse_spec (long_exact k))), ps'.
  unfold find in F. rewrite E in F. cbn [bind] in F. apply ok_bind in F as ([d m'] & Ed & F). injection F as ->. rewrite N in Ed.
  exists m'. split; [exact E|]. split; [apply long_exact_parsed|]. split; [exact Ed|].
  destruct (long_is_ascii k) as [_ ->]. unfold distance_steps.
  assert (S : k * (k + 1) <= snd (metric_distance_tm (metric_new a) (query_of (parse_spec (long_exact k))) (long_text k))).
  { destruct a; cbn [metric_new]; [rewrite metric_v1_steps|rewrite metric_v2_steps]; apply first_term_steps; [lia| |lia|];
      intros p; unfold v1_char_eq, v2_char_eq; cbn [v1_candidate_normalization v1_new v2_candidate_normalization v2_new]; apply eq_letters. }
  nia.
Qed.

End Claims.
