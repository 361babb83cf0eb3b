(** Bounds on the iterations counted by Cost.v. *)
From Coq Require Import Sorted.
From Verif Require Import Prelude Chars Utils Candidate MatchedRanges Query Scoring Slab Fzf FzfV1 FzfV2 Api Cost.
From Verif Require Import PreludeProofs CharsProofs CandidateProofs V1Proofs CostProofs.
Local Open Scope nat_scope.

(** * Counting through binds *)

Lemma steps_lift A (r : res A) : snd (lift r) = 0.
Proof. reflexivity. Qed.

Lemma steps_spend A n (t : timed A) : snd (spend n t) = n + snd t.
Proof. reflexivity. Qed.

Lemma steps_bind A B (t : timed A) (k : A -> timed B) x y :
  snd t <= x -> (forall a, fst t = Ok a -> snd (k a) <= y) -> snd (tbind t k) <= x + y.
Proof.
  intros Hx Hy. unfold tbind. destruct (fst t) as [a| |] eqn:E; cbn [snd spend]; [specialize (Hy a eq_refl)|..]; lia.
Qed.

Lemma steps_pure A B (r : res A) (k : A -> timed B) y :
  (forall a, r = Ok a -> snd (k a) <= y) -> snd (tbind (lift r) k) <= y.
Proof. intros H. change y with (0 + y). apply steps_bind; [reflexivity|exact H]. Qed.

Lemma ok_bind A B (r : res A) (k : A -> res B) b : bind r k = Ok b -> exists a, r = Ok a /\ k a = Ok b.
Proof. destruct r; cbn [bind]; intros; [eauto|discriminate..]. Qed.

(** * Searching *)

Lemma search_le A (f : A -> bool) l : search_steps f l <= length l.
Proof. induction l as [|x l IH]; cbn [search_steps length]; [lia|]. destruct (f x); lia. Qed.

Lemma search_found A (f : A -> bool) l i : find_idx f l = Some i -> search_steps f l = i + 1 /\ i < length l.
Proof.
  revert i. induction l as [|x l IH]; intros i; cbn [find_idx search_steps length]; [discriminate|].
  destruct (f x).
  - intros H. injection H as <-. lia.
  - destruct (find_idx f l) as [j|]; [|discriminate]. intros H. injection H as <-. destruct (IH j eq_refl). lia.
Qed.

Lemma find_last_snoc A (f : A -> bool) l x :
  find_last_idx f (l ++ [x]) = if f x then Some (length l) else find_last_idx f l.
Proof.
  induction l as [|y l IH]; cbn [app find_last_idx length].
  - destruct (f x); reflexivity.
  - rewrite IH. destruct (f x); reflexivity.
Qed.

Lemma search_last A (f : A -> bool) l i : find_last_idx f l = Some i ->
  search_steps f (rev l) = length l - i /\ i < length l.
Proof.
  revert i. induction l as [|x l IH] using rev_ind; intros i; [discriminate|].
  rewrite find_last_snoc, rev_app_distr, app_length. cbn [rev app search_steps length].
  destruct (f x).
  - intros H. injection H as <-. lia.
  - intros H. destruct (IH i H). lia.
Qed.

Lemma while_le A (f : A -> bool) l : while_steps f l <= length l.
Proof. induction l as [|x l IH]; cbn [while_steps length]; [lia|]. destruct (f x); lia. Qed.

Lemma slice_from_inv A (l : list A) i l' : slice_from l i = Ok l' -> length l' = length l - i /\ i <= length l.
Proof.
  unfold slice_from. destruct (i <=? length l) eqn:E; [|discriminate]. intros H. injection H as <-.
  apply Nat.leb_le in E. rewrite skipn_length. lia.
Qed.

Lemma slice_to_inv A (l : list A) i l' : slice_to l i = Ok l' -> length l' = i /\ i <= length l.
Proof.
  unfold slice_to. destruct (i <=? length l) eqn:E; [|discriminate]. intros H. injection H as <-.
  apply Nat.leb_le in E. rewrite firstn_length. lia.
Qed.

Lemma slice_inv A (l : list A) a b l' : slice l a b = Ok l' -> length l' = b - a /\ a <= b <= length l.
Proof.
  unfold slice. destruct ((a <=? b) && (b <=? length l))%bool eqn:E; [|discriminate]. intros H. injection H as <-.
  apply andb_true_iff in E as [E1 E2]. apply Nat.leb_le in E1, E2. rewrite firstn_length, skipn_length. lia.
Qed.

Lemma cand_slice_range_inv c a b c' : cand_slice_range c a b = Ok c' ->
  cand_char_len c' = b - a /\ a <= b <= cand_char_len c.
Proof.
  destruct c as [l|l]; cbn [cand_slice_range]; intros H; apply ok_bind in H as (l' & E & H); injection H as <-;
    apply slice_inv in E; exact E.
Qed.

Lemma cand_chars_from_inv c i l : cand_chars_from c i = Ok l -> length l = cand_char_len c - i /\ i <= cand_char_len c.
Proof. destruct c; apply slice_from_inv. Qed.

Lemma cand_slice_len c : length (cand_slice c) = cand_char_len c.
Proof. destruct c; reflexivity. Qed.

Lemma first_ascii_steps needle l cs : find_first_ascii_steps needle l cs <= length l.
Proof. unfold find_first_ascii_steps. destruct (_ || _)%bool; apply search_le. Qed.

Lemma first_ascii_found needle l cs i : find_first_ascii needle l cs = Some i ->
  find_first_ascii_steps needle l cs = i + 1 /\ i < length l.
Proof. unfold find_first_ascii_steps, find_first_ascii. destruct (_ || _)%bool; apply search_found. Qed.

Lemma last_ascii_steps needle l cs : find_last_ascii_steps needle l cs <= length l.
Proof. unfold find_last_ascii_steps. rewrite <- (rev_length l). destruct (_ || _)%bool; apply search_le. Qed.

Lemma last_ascii_found needle l cs i : find_last_ascii needle l cs = Some i ->
  find_last_ascii_steps needle l cs = length l - i /\ i < length l.
Proof. unfold find_last_ascii_steps, find_last_ascii. destruct (_ || _)%bool; apply search_last. Qed.

Lemma first_from_steps c off ch cs eq : snd (find_first_from_tm c off ch cs eq) <= cand_char_len c - off.
Proof.
  destruct c as [l|l]; cbn [find_first_from_tm cand_char_len].
  - destruct (negb _); [rewrite steps_lift; lia|]. apply steps_pure. intros l' E. apply slice_from_inv in E as [E _].
    rewrite steps_spend, steps_lift, Nat.add_0_r, <- E. apply first_ascii_steps.
  - apply steps_pure. intros l' E. apply slice_from_inv in E as [E _].
    rewrite steps_spend, steps_lift, Nat.add_0_r, <- E. apply search_le.
Qed.

Lemma first_from_found c off ch cs eq x : fst (find_first_from_tm c off ch cs eq) = Ok (Some x) ->
  snd (find_first_from_tm c off ch cs eq) = x + 1 - off /\ off <= x < cand_char_len c.
Proof.
  destruct c as [l|l]; cbn [find_first_from_tm cand_char_len].
  - destruct (negb _); [discriminate|]. unfold tbind. rewrite fst_lift. destruct (slice_from l off) as [l'| |] eqn:E; [|discriminate..].
    apply slice_from_inv in E as [E E2]. rewrite fst_spend, fst_spend, fst_lift, !steps_spend, !steps_lift.
    destruct (find_first_ascii _ _ _) as [i|] eqn:F; [|discriminate]. cbn [option_map]. intros H. injection H as <-.
    apply first_ascii_found in F as [-> F]. lia.
  - unfold tbind. rewrite fst_lift. destruct (slice_from l off) as [l'| |] eqn:E; [|discriminate..].
    apply slice_from_inv in E as [E E2]. rewrite fst_spend, fst_spend, fst_lift, !steps_spend, !steps_lift.
    unfold find_first_unicode. destruct (find_idx _ _) as [i|] eqn:F; [|discriminate]. cbn [option_map]. intros H. injection H as <-.
    apply search_found in F as [-> F]. lia.
Qed.

Lemma last_from_steps c e ch cs eq : snd (find_last_from_tm c e ch cs eq) <= e.
Proof.
  destruct c as [l|l]; cbn [find_last_from_tm].
  - destruct (is_ascii ch); [|rewrite steps_lift; lia]. apply steps_pure. intros l' E. apply slice_to_inv in E as [<- _].
    rewrite steps_spend, steps_lift, Nat.add_0_r. apply last_ascii_steps.
  - apply steps_pure. intros l' E. apply slice_to_inv in E as [<- _].
    rewrite steps_spend, steps_lift, Nat.add_0_r, <- (rev_length l'). apply search_le.
Qed.

Lemma last_from_found c e ch cs eq x : fst (find_last_from_tm c e ch cs eq) = Ok (Some x) ->
  snd (find_last_from_tm c e ch cs eq) = e - x /\ x < e.
Proof.
  destruct c as [l|l]; cbn [find_last_from_tm].
  - destruct (is_ascii ch); [|discriminate]. unfold tbind. rewrite fst_lift. destruct (slice_to l e) as [l'| |] eqn:E; [|discriminate..].
    apply slice_to_inv in E as [<- _]. rewrite fst_spend, fst_spend, fst_lift, !steps_spend, !steps_lift.
    intros H. injection H as H. apply last_ascii_found in H as [-> F]. lia.
  - unfold tbind. rewrite fst_lift. destruct (slice_to l e) as [l'| |] eqn:E; [|discriminate..].
    apply slice_to_inv in E as [<- _]. rewrite fst_spend, fst_spend, fst_lift, !steps_spend, !steps_lift.
    intros H. injection H as H. unfold find_last_unicode in H. apply search_last in H as [-> F]. lia.
Qed.

Lemma last_steps c ch cs eq : snd (find_last_tm c ch cs eq) <= cand_char_len c.
Proof.
  destruct c as [l|l]; cbn [find_last_tm cand_char_len].
  - destruct (is_ascii ch); [|rewrite steps_lift; lia]. rewrite steps_spend, steps_lift, Nat.add_0_r. apply last_ascii_steps.
  - rewrite steps_spend, steps_lift, Nat.add_0_r, <- (rev_length l). apply search_le.
Qed.

(** * FzfV1 on a fuzzy term *)

Lemma forward_loop_steps c o ps : forall p e, e <= cand_char_len c ->
  snd (forward_loop_tm c o p ps e) <= 2 * (cand_char_len c - e) + 1
  /\ forall x, fst (forward_loop_tm c o p ps e) = Ok (Some x) -> x <= cand_char_len c.
Proof.
  set (n := cand_char_len c).
  induction ps as [|q ps IH]; intros p e He; cbn [forward_loop_tm]; rewrite steps_spend, fst_spend;
    pose proof (first_from_steps c e p (o_is_case_sensitive o) (o_char_eq o)) as H1;
    pose proof (first_from_found c e p (o_is_case_sensitive o) (o_char_eq o)) as H2;
    fold n in H1, H2; unfold tbind;
    destruct (find_first_from_tm c e p (o_is_case_sensitive o) (o_char_eq o)) as [[[x|]| |] k];
    cbn [fst snd] in *; rewrite ?steps_spend, ?fst_spend, ?steps_lift, ?fst_lift; (split; [|try discriminate]); try lia.
  - intros y H. destruct (H2 x eq_refl). injection H as <-. lia.
  - destruct (H2 x eq_refl). destruct (IH q (x + 1)); lia.
  - destruct (H2 x eq_refl). apply IH. lia.
Qed.

Lemma backward_loop_steps c o ps : forall p e, snd (backward_loop_tm c o p ps e) <= 2 * e + 1.
Proof.
  induction ps as [|q ps IH]; intros p e; cbn [backward_loop_tm]; rewrite steps_spend;
    pose proof (last_from_steps c e p (o_is_case_sensitive o) (o_char_eq o)) as H1;
    pose proof (last_from_found c e p (o_is_case_sensitive o) (o_char_eq o)) as H2;
    unfold tbind at 1;
    destruct (find_last_from_tm c e p (o_is_case_sensitive o) (o_char_eq o)) as [[[x|]| |] k];
    cbn [fst snd unwrap] in *; rewrite ?steps_spend, ?steps_lift; try lia;
    unfold tbind; cbn [fst snd lift spend]; try lia.
  destruct (H2 x eq_refl). specialize (IH q x). lia.
Qed.

Section WithUnicode.
Context {UC : unicode}.

Lemma score_loop_steps eq s chars : forall st, snd (compute_score_loop_tm eq s chars st) <= length chars.
Proof.
  induction chars as [|x chars IH]; intros st; cbn [compute_score_loop_tm length]; [rewrite steps_lift; lia|].
  cbv zeta. rewrite steps_spend. destruct (eq _ x).
  - destruct (_ =? 0); (destruct (cs_pattern_chars st); [rewrite steps_lift; lia|]); cbv zeta;
      match goal with |- context [compute_score_loop_tm eq s chars ?st] => specialize (IH st) end; lia.
  - match goal with |- context [compute_score_loop_tm eq s chars ?st] => specialize (IH st) end. lia.
Qed.

Lemma compute_score_steps p c a b eq s r : snd (compute_score_tm p c a b eq s r) <= cand_char_len c.
Proof.
  unfold compute_score_tm. apply steps_pure. intros cl _. destruct (p_text p) as [|x xs]; [rewrite steps_lift; lia|].
  apply steps_pure. intros sl E. apply cand_slice_range_inv in E as [E1 E2].
  apply steps_pure. intros chars E3. apply cand_chars_from_inv in E3 as [E3 _].
  etransitivity; [apply score_loop_steps|]. lia.
Qed.

Lemma v1_fuzzy_steps m p c r : snd (v1_fuzzy_tm m p c r) <= 5 * cand_char_len c + 2.
Proof.
  unfold v1_fuzzy_tm. cbv zeta. set (o := opts_new _ _). set (n := cand_char_len c).
  assert (F : snd (forward_pass_tm p c o) <= 2 * n + 1 /\ forall x, fst (forward_pass_tm p c o) = Ok (Some x) -> x <= n).
  { unfold forward_pass_tm. destruct (p_text p) as [|x xs]; [split; [rewrite steps_lift; lia|discriminate]|].
    pose proof (forward_loop_steps c o xs x 0 (Nat.le_0_l _)) as F. fold n in F. rewrite Nat.sub_0_r in F. exact F. }
  destruct F as [F1 F2].
  replace (5 * n + 2) with ((2 * n + 1) + ((2 * n + 1) + n)) by lia.
  apply steps_bind; [exact F1|]. intros [e|] E; [|rewrite steps_lift; lia]. specialize (F2 e E).
  apply steps_bind.
  - unfold backward_pass_tm. destruct (rev (p_text p)) as [|x xs]; [rewrite steps_lift; lia|].
    pose proof (backward_loop_steps c o xs x e). lia.
  - intros b _. rewrite <- (Nat.add_0_r n). apply steps_bind; [apply compute_score_steps|]. intros [sc r'] _. rewrite steps_lift. lia.
Qed.

(** * The other kinds of terms *)

Lemma zip_steps eq ps : forall cs, snd (zip_eq_tm eq ps cs) <= length cs.
Proof.
  induction ps as [|p ps IH]; intros [|c cs]; cbn [zip_eq_tm length]; rewrite ?steps_spend, ?steps_lift; try lia.
  destruct (eq p c); [specialize (IH cs)|rewrite steps_lift]; lia.
Qed.

Lemma finish_steps p c a b eq s r : snd (finish_match_tm p c a b eq s r) <= cand_char_len c.
Proof.
  unfold finish_match_tm. rewrite <- (Nat.add_0_r (cand_char_len c)). apply steps_bind; [apply compute_score_steps|].
  intros [sc r'] _. rewrite steps_lift. lia.
Qed.

Lemma leading_steps p c : snd (ignored_leading_tm p c) <= cand_char_len c.
Proof.
  unfold ignored_leading_tm. rewrite <- (Nat.add_0_r (cand_char_len c)). apply steps_bind.
  - unfold leading_spaces_tm. rewrite steps_spend, steps_lift, <- cand_slice_len, Nat.add_0_r. apply while_le.
  - intros k _. destruct (_ <? _); [rewrite steps_lift; lia|]. apply steps_pure. intros; rewrite steps_lift; lia.
Qed.

Lemma trailing_steps p c : snd (ignored_trailing_tm p c) <= cand_char_len c.
Proof.
  unfold ignored_trailing_tm. rewrite <- (Nat.add_0_r (cand_char_len c)). apply steps_bind.
  - unfold trailing_spaces_tm. rewrite steps_spend, steps_lift, <- cand_slice_len, Nat.add_0_r, <- rev_length. apply while_le.
  - intros k _. destruct (_ <? _); [rewrite steps_lift; lia|]. apply steps_pure. intros; rewrite steps_lift; lia.
Qed.

Lemma prefix_steps p c eq s r : snd (prefix_match_tm p c eq s r) <= 4 * cand_char_len c.
Proof.
  unfold prefix_match_tm. destruct (p_is_empty p); [rewrite steps_lift; lia|].
  set (n := cand_char_len c). replace (4 * n) with (n + (n + (n + n))) by lia.
  apply steps_bind; [apply leading_steps|]. intros [i|] _; [|rewrite steps_lift; lia].
  apply steps_pure. intros chars E. apply cand_chars_from_inv in E as [E _]. fold n in E.
  apply steps_bind; [etransitivity; [apply zip_steps|]; lia|].
  intros [[[|] rc]|] _; rewrite ?steps_lift; try lia. pose proof (finish_steps p c i (i + p_char_len p) eq s r) as F. fold n in F. lia.
Qed.

Lemma suffix_steps p c eq s r : snd (suffix_match_tm p c eq s r) <= 4 * cand_char_len c.
Proof.
  unfold suffix_match_tm. destruct (p_is_empty p); [rewrite steps_lift; lia|].
  set (n := cand_char_len c). replace (4 * n) with (n + (n + (n + n))) by lia.
  apply steps_bind; [apply trailing_steps|]. intros [i|] _; [|rewrite steps_lift; lia].
  apply steps_pure. intros u _. apply steps_pure. intros sl E1. apply cand_slice_range_inv in E1.
  apply steps_pure. intros chars E. apply cand_chars_from_inv in E as [E _]. fold n in E1.
  apply steps_bind; [etransitivity; [apply zip_steps|rewrite rev_length]; lia|].
  intros [[[|] rc]|] _; rewrite ?steps_lift; try lia. apply steps_pure. intros st _.
  pose proof (finish_steps p c st u eq s r) as F. fold n in F. lia.
Qed.

Lemma equal_steps p c eq s r : snd (equal_match_tm p c eq s r) <= 4 * cand_char_len c.
Proof.
  unfold equal_match_tm. destruct (p_is_empty p); [rewrite steps_lift; lia|].
  set (n := cand_char_len c). replace (4 * n) with (n + (n + (n + n))) by lia.
  apply steps_bind; [apply leading_steps|]. intros [i|] _; [|rewrite steps_lift; lia].
  destruct (_ =? _); [rewrite steps_lift; lia|].
  apply steps_bind; [apply trailing_steps|]. intros [j|] _; [|rewrite steps_lift; lia].
  apply steps_pure. intros u _. destruct (_ <? _); [rewrite steps_lift; lia|].
  apply steps_pure. intros sl E1. apply cand_slice_range_inv in E1.
  apply steps_pure. intros chars E. apply cand_chars_from_inv in E as [E _]. fold n in E1.
  apply steps_bind; [etransitivity; [apply zip_steps|]; lia|].
  intros [[rp rc]|] _; rewrite ?steps_lift; try lia.
  pose proof (finish_steps p c i u eq s r) as F. fold n in F.
  destruct (zip_rest rp rc) as [[|] [|]]; rewrite ?steps_lift; lia.
Qed.

(** Once the first character of the term has been found, an attempt takes no more
    iterations than the term has characters. *)
Lemma inner_steps_started p eq s cur chars : forall off bs cb i st, 0 < i < p_char_len p ->
  snd (exact_inner_tm p eq s cur chars off bs cb i st) <= p_char_len p - i
  /\ forall st' e, fst (exact_inner_tm p eq s cur chars off bs cb i st) = Ok (st', e) -> em_start_offset st' = em_start_offset st.
Proof.
  induction chars as [|x chars IH]; intros off bs cb i st Hi; cbn [exact_inner_tm].
  - split; [rewrite steps_lift; lia|]. intros st' e H. injection H as <- _. reflexivity.
  - rewrite steps_spend, fst_spend, fst_tbind, fst_lift. unfold tbind. rewrite fst_lift.
    destruct (p_char p i) as [y| |]; cbn [bind snd]; rewrite ?steps_lift; [|split; [lia|discriminate]..].
    rewrite steps_spend. cbn [snd]. cbv zeta. replace (i =? 0) with false by (symmetry; apply Nat.eqb_neq; lia).
    destruct (eq y x).
    + destruct (i + 1 =? p_char_len p) eqn:Ei.
      * destruct (em_best_bonus st <? cb)%Z, (BOUNDARY <=? cb)%Z;
          (split; [rewrite steps_lift; lia|]; intros st' e H; injection H as <- _; reflexivity).
      * apply Nat.eqb_neq in Ei.
        match goal with |- context [exact_inner_tm p eq s cur chars ?a ?b ?c ?d ?st] =>
          destruct (IH a b c d st) as [I1 I2]; [lia|] end.
        split; [lia|exact I2].
    + replace (0 <? i) with true by (symmetry; apply Nat.ltb_lt; lia). split; [rewrite steps_lift; lia|].
      intros st' e H. injection H as <- _. reflexivity.
Qed.

Lemma inner_steps_len p eq s cur chars : forall off bs cb i st,
  snd (exact_inner_tm p eq s cur chars off bs cb i st) <= length chars.
Proof.
  induction chars as [|x chars IH]; intros off bs cb i st; cbn [exact_inner_tm length]; [rewrite steps_lift; lia|].
  rewrite steps_spend. apply le_n_S. apply steps_pure. intros y _. cbv zeta.
  destruct (eq y x); [|destruct (0 <? i); [rewrite steps_lift; lia|apply IH]].
  destruct (i =? 0); (destruct (_ =? p_char_len p); [destruct (BOUNDARY <=? _)%Z; rewrite steps_lift; lia|apply IH]).
Qed.

Lemma inner_steps p eq s cur chars : forall off bs cb st, 0 < p_char_len p ->
  let t := exact_inner_tm p eq s cur chars off bs cb 0 st in
  forall st' e, fst t = Ok (st', e) ->
       em_start_offset st' = em_start_offset st /\ e = EmInnerDone []
       \/ exists k, em_start_offset st' = em_start_offset st + (off + k + 1) /\ k < length chars /\ snd t <= k + p_char_len p.
Proof.
  induction chars as [|x chars IH]; intros off bs cb st Hp t; subst t; cbn [exact_inner_tm length].
  - intros st' e H. injection H as <- <-. left. split; reflexivity.
  - rewrite !steps_spend, fst_spend, fst_tbind, fst_lift. unfold tbind. rewrite fst_lift.
    destruct (p_char p 0) as [y| |]; cbn [bind snd]; rewrite ?steps_lift; [|discriminate..].
    rewrite steps_spend. cbn [snd]. cbv zeta. rewrite Nat.eqb_refl. cbn [Nat.ltb Nat.leb].
    destruct (eq y x).
    + cbn [em_start_offset em_best_bonus em_best_start em_best_end em_matched em_prev_class].
      destruct (0 + 1 =? p_char_len p) eqn:Ei.
      * intros st' e H. right. exists 0. rewrite Nat.add_0_r.
        split; [|split; [lia|destruct (BOUNDARY <=? _)%Z; rewrite steps_lift; lia]].
        destruct (em_best_bonus st <? _)%Z, (BOUNDARY <=? _)%Z; injection H as <- _; reflexivity.
      * apply Nat.eqb_neq in Ei.
        match goal with |- context [exact_inner_tm p eq s cur chars ?a ?b ?c ?d ?st] =>
          destruct (inner_steps_started p eq s cur chars a b c d st) as [I1 I2]; [lia|] end.
        intros st' e H. right. exists 0. apply I2 in H. cbn [em_start_offset] in H. rewrite H.
        split; [lia|]. split; lia.
    + match goal with |- context [exact_inner_tm p eq s cur chars ?a ?b ?c ?d ?st] =>
        pose proof (IH a b c st Hp) as I2 end.
      intros st' e H. destruct (I2 st' e H) as [(J1 & J2)|(k & J1 & J2 & J3)]; cbn [em_start_offset] in J1.
      * left. split; [exact J1|exact J2].
      * right. exists (k + 1). split; [lia|]. split; lia.
Qed.

Lemma outer_steps fuel p c eq s : 0 < p_char_len p -> forall st,
  snd (exact_outer_tm fuel p c eq s st) <= (cand_char_len c - em_start_offset st) * (p_char_len p + 1) + 1.
Proof.
  intros Hp. set (n := cand_char_len c). set (h := p_char_len p).
  induction fuel as [|fuel IH]; intros st; cbn [exact_outer_tm]; [rewrite steps_lift; apply Nat.le_0_l|].
  rewrite steps_spend. unfold tbind at 1. rewrite fst_lift, steps_lift.
  destruct (cand_chars_from c (em_start_offset st)) as [chars| |] eqn:E; cbn [snd]; [|nia..]. rewrite steps_spend.
  apply cand_chars_from_inv in E as [E1 E2]. fold n in E1, E2.
  pose proof (inner_steps_len p eq s (em_start_offset st) chars 0 0 0%Z 0 st) as L.
  pose proof (inner_steps p eq s (em_start_offset st) chars 0 0 0%Z st Hp) as H. cbv zeta in H.
  unfold tbind. destruct (exact_inner_tm p eq s (em_start_offset st) chars 0 0 0%Z 0 st) as [[[st' e]| |] k]; cbn [fst snd] in *; [|nia..].
  rewrite steps_spend. fold h in H.
  destruct (H st' e eq_refl) as [(J1 & ->)|(j & J1 & J2 & J3)].
  + rewrite steps_lift. nia.
  + assert (B : snd (match e with
              | EmBreakOuter => lift (Ok st')
              | EmInnerDone [] => lift (Ok st')
              | EmInnerDone (_ :: _) => exact_outer_tm fuel p c eq s st'
              end) <= (n - em_start_offset st') * (h + 1) + 1).
    { destruct e as [|[|y ys]]; [rewrite steps_lift; apply Nat.le_0_l..|apply IH]. }
    assert (D : n - em_start_offset st = (n - em_start_offset st') + (j + 1)) by lia.
    rewrite D, Nat.mul_add_distr_r. set (A := (n - em_start_offset st') * (h + 1)) in *. assert (K : j + h + 1 <= (j + 1) * (h + 1)) by nia. clearbody A. clear IH H D E1 L J1 J2. destruct e as [|[|y ys]]; lia.
Qed.

Lemma exact_steps p c eq s r :
  snd (exact_match_tm p c eq s r) <= 2 * cand_char_len c + cand_char_len c * p_char_len p + 1.
Proof.
  unfold exact_match_tm, p_is_empty. destruct (p_text p) as [|x xs] eqn:E; [rewrite steps_lift; lia|].
  assert (Hp : 0 < p_char_len p) by (unfold p_char_len; rewrite E; cbn; lia).
  set (n := cand_char_len c). replace (2 * n + n * p_char_len p + 1) with ((n * (p_char_len p + 1) + 1) + n) by lia.
  apply steps_bind.
  - etransitivity; [apply outer_steps; exact Hp|]. cbn [em_start_offset]. rewrite Nat.sub_0_r. fold n. lia.
  - intros st _. destruct (negb _); [rewrite steps_lift; lia|apply finish_steps].
Qed.

End WithUnicode.

(** * FzfV2 *)

(** What holds of the result, [None] after a panic, and of the number of iterations. *)
Definition runs {A : Type} (t : timed A) (P : option A -> nat -> Prop) : Prop :=
  P (match fst t with Ok a => Some a | _ => None end) (snd t).

Lemma runs_lift A (r : res A) (P : option A -> nat -> Prop) :
  P None 0 -> (forall a, r = Ok a -> P (Some a) 0) -> runs (lift r) P.
Proof. intros H0 H. unfold runs. rewrite fst_lift, steps_lift. destruct r; auto. Qed.

Lemma runs_spend A n (t : timed A) (P : option A -> nat -> Prop) : runs t (fun o k => P o (n + k)) -> runs (spend n t) P.
Proof. exact (fun H => H). Qed.

Lemma runs_bind A B (t : timed A) (k : A -> timed B) (P : option B -> nat -> Prop) :
  runs t (fun o n => match o with
                     | None => P None n
                     | Some a => runs (k a) (fun o' n' => P o' (n + n'))
                     end) -> runs (tbind t k) P.
Proof. unfold runs, tbind. destruct (fst t); cbn [fst snd spend]; auto. Qed.

Lemma runs_pure A B (r : res A) (k : A -> timed B) (P : option B -> nat -> Prop) :
  P None 0 -> (forall a, r = Ok a -> runs (k a) P) -> runs (tbind (lift r) k) P.
Proof. intros H0 H. apply runs_bind. apply runs_lift; [exact H0|]. intros a E. exact (H a E). Qed.

Lemma runs_weaken A (t : timed A) (P Q : option A -> nat -> Prop) :
  runs t P -> (forall o n, P o n -> Q o n) -> runs t Q.
Proof. intros H HPQ. apply HPQ, H. Qed.

Lemma runs_ok A (a : A) (P : option A -> nat -> Prop) : P (Some a) 0 -> runs (lift (Ok a)) P.
Proof. exact (fun H => H). Qed.

Lemma set_idx_len A (l : list A) i a l' : set_idx l i a = Ok l' -> length l' = length l /\ i < length l.
Proof.
  unfold set_idx. destruct (i <? length l) eqn:E; [|discriminate]. intros H. injection H as <-. apply Nat.ltb_lt in E.
  rewrite length_upd. lia.
Qed.

Lemma idx_lt A (l : list A) i a : idx l i = Ok a -> i < length l.
Proof. intros H. apply idx_inv in H. apply nth_error_Some. congruence. Qed.

Lemma first_from_runs c off ch cs eq : runs (find_first_from_tm c off ch cs eq) (fun o n =>
  n <= cand_char_len c - off /\ forall x, o = Some (Some x) -> n = x + 1 - off /\ off <= x < cand_char_len c).
Proof.
  split; [apply first_from_steps|]. intros x H. apply (first_from_found c off ch cs eq x).
  destruct (fst _) as [o| |]; [|discriminate..]. injection H as ->. reflexivity.
Qed.

Lemma matches_loop_steps p c o fuel : forall i l offs, l <= cand_char_len c ->
  runs (matches_loop_tm p c o fuel i l offs) (fun r n =>
    n <= 2 * (cand_char_len c - l) + 1
    /\ match r with
       | Some (x, offs') => length offs' = length offs /\ (x <> None -> p_char_len p - i <= cand_char_len c - l)
       | None => True
       end).
Proof.
  set (n := cand_char_len c). set (h := p_char_len p).
  induction fuel as [|fuel IH]; intros i l offs Hl; cbn [matches_loop_tm].
  { split; [apply Nat.le_0_l|exact I]. }
  apply runs_spend, runs_pure; [split; [lia|exact I]|]. intros x Ei. apply idx_lt in Ei. fold (p_char_len p) in Ei. fold h in Ei.
  apply runs_bind. eapply runs_weaken; [apply first_from_runs|]. fold n. intros [[y|]|] k [H1 H2]; [| |split; [lia|exact I]].
  - destruct (H2 y eq_refl) as [H3 H4]. apply runs_pure; [split; [lia|exact I]|]. intros offs1 E1.
    apply set_idx_len in E1 as [E1 _]. cbv zeta. fold h. destruct (i + 1 <? h) eqn:Eh.
    + apply Nat.ltb_lt in Eh. eapply runs_weaken; [apply (IH (i + 1) (y + 1) offs1); lia|].
      intros [[r offs']|] k' [I1 I2]; (split; [lia|]); [|exact I]. destruct I2 as [I3 I4].
      split; [congruence|]. intros Hr. specialize (I4 Hr). lia.
    + apply Nat.ltb_ge in Eh. apply runs_ok. split; [lia|]. split; [exact E1|]. intros _. lia.
  - apply runs_ok. split; [lia|]. split; [reflexivity|congruence].
Qed.

Lemma resize_le A (vec : list A) n : resize_steps vec n <= n.
Proof. unfold resize_steps. destruct (_ <? _); lia. Qed.

Lemma indices_alloc_len vec n l v : indices_alloc vec n = Ok (l, v) -> length l = n.
Proof.
  unfold indices_alloc. intros H. apply ok_bind in H as (sl & E & H). injection H as <- _. apply slice_to_inv in E. apply E.
Qed.

Lemma v2_matches_steps slab p c o : runs (v2_matches_tm slab p c o) (fun r n =>
  n <= resize_steps slab (p_char_len p) + (3 * cand_char_len c + 1)
  /\ match r with
     | Some (None, _) => n <= resize_steps slab (p_char_len p) + (2 * cand_char_len c + 1)
     | Some (Some (offs, _), _) => length offs = p_char_len p /\ p_char_len p <= cand_char_len c
     | None => True
     end).
Proof.
  set (n := cand_char_len c). set (h := p_char_len p). unfold v2_matches_tm, indices_alloc_tm. fold h.
  apply runs_bind, runs_spend, runs_lift; [split; [lia|exact I]|]. intros [offs sl] E. apply indices_alloc_len in E.
  apply runs_bind. eapply runs_weaken; [apply matches_loop_steps; apply Nat.le_0_l|]. fold n h. rewrite !Nat.sub_0_r.
  intros [[[j|] offs1]|] k [M1 M2]; [| |split; [lia|exact I]].
  - destruct M2 as [M3 M4]. specialize (M4 ltac:(discriminate)). cbv zeta.
    apply runs_pure; [split; [lia|exact I]|]. intros x _. apply runs_bind.
    pose proof (last_steps c x (o_is_case_sensitive o) (o_char_eq o)) as L. fold n in L.
    unfold runs at 1. destruct (fst _) as [f| |]; [|split; [lia|exact I]..].
    apply runs_pure; [split; [lia|exact I]|]. intros l _. apply runs_ok. split; [lia|]. split; [lia|exact M4].
  - cbv zeta. apply runs_ok. split; lia.
Qed.

Lemma first_row_gap_steps k : forall col row ps pen,
  runs (first_row_gap_tm k col row ps pen) (fun r n =>
    n <= k /\ match r with Some (row', _, _) => length row' = length row | None => True end).
Proof.
  induction k as [|k IH]; intros col row ps pen; cbn [first_row_gap_tm].
  - apply runs_ok. split; [lia|reflexivity].
  - cbv zeta. apply runs_spend, runs_pure; [split; [lia|exact I]|]. intros row' E. apply set_idx_len in E as [E _].
    eapply runs_weaken; [apply IH|]. intros [[[r a] b]|] n [I1 I2]; (split; [lia|]); [congruence|exact I].
Qed.

Lemma row_gap_steps k : forall col row pen, snd (row_gap_tm k col row pen) <= k.
Proof.
  induction k as [|k IH]; intros col row pen; cbn [row_gap_tm]; [reflexivity|].
  rewrite steps_spend. apply le_n_S. apply steps_pure. intros i _. apply steps_pure. intros x _. cbv zeta.
  apply steps_pure. intros row' _. apply IH.
Qed.

(** The columns a row visits: [ms], ascending, from [col] on. *)
Definition ascending (col width : nat) (ms : list nat) : Prop :=
  StronglySorted lt ms /\ Forall (fun x => col <= x < width) ms.

Lemma ascending_tail col w x ms : ascending col w (x :: ms) -> col <= x < w /\ ascending x w ms.
Proof.
  intros [S F]. inversion S as [|? ? S' L]; subst. inversion F as [|? ? Fx F']; subst. split; [exact Fx|]. split; [exact S'|].
  rewrite Forall_forall in *. intros y Hy. specialize (L y Hy). specialize (F' y Hy). lia.
Qed.

Section WithUnicode2.
Context {UC : unicode}.

Lemma bonus_at_base cv i s b cv' : bonus_at cv i s = Ok (b, cv') -> cv_base cv' = cv_base cv.
Proof.
  unfold bonus_at. intros Eb. apply ok_bind in Eb as (b0 & _ & Eb). destruct (b_is_set b0); [injection Eb as _ <-; reflexivity|].
  apply ok_bind in Eb as (pc & _ & Eb). apply ok_bind in Eb as (th & _ & Eb). cbv zeta in Eb. apply ok_bind in Eb as (bs & _ & Eb).
  injection Eb as _ <-. reflexivity.
Qed.

Lemma first_row_loop_steps s w ms : forall st, fr_column st < w -> ascending (fr_column st) w ms ->
  runs (first_row_loop_tm s ms st) (fun r n =>
    n <= length ms + (w - fr_column st)
    /\ match r with
       | Some st' => fr_column st <= fr_column st' < w /\ n <= length ms + (fr_column st' - fr_column st)
           /\ length (fr_scores st') = length (fr_scores st) /\ cv_base (fr_cv st') = cv_base (fr_cv st)
       | None => True
       end).
Proof.
  induction ms as [|x ms IH]; intros st Hw Ha; cbn [first_row_loop_tm length].
  - apply runs_ok. repeat split; lia.
  - apply ascending_tail in Ha as [Hx Ha]. apply runs_spend, runs_bind. eapply runs_weaken; [apply first_row_gap_steps|].
    intros [[[row a] pen]|] k [G1 G2]; [|split; [lia|exact I]]. cbv zeta.
    apply runs_pure; [split; [lia|exact I]|]. intros cons _.
    apply runs_pure; [split; [lia|exact I]|]. intros [b cv] Eb. apply bonus_at_base in Eb.
    apply runs_pure; [split; [lia|exact I]|]. intros row' Er. apply set_idx_len in Er as [Er _].
    destruct (fr_max_score st <? _)%Z;
      (eapply runs_weaken; [apply IH; [|exact Ha]; cbn [fr_column]; lia|];
       cbn [fr_column fr_scores fr_cv]; intros [st'|] k' [I1 I2]; (split; [lia|]); [|exact I];
       destruct I2 as (I3 & I4 & I5 & I6); split; [lia|]; split; [lia|]; split; congruence).
Qed.

Lemma matches_all c q cs eq : exists f, cand_matches c q cs eq = all_idx f (cand_slice c) 0.
Proof.
  destruct c as [l|l]; cbn [cand_matches cand_slice].
  - unfold matches_from_ascii. destruct (negb _).
    + exists (fun _ => false). rewrite all_idx_false by reflexivity. reflexivity.
    + cbv zeta. destruct (_ || _)%bool; eexists; unfold memchr_iter, memchr2_iter; rewrite map_id; reflexivity.
  - eexists. apply matches_from_unicode_spec.
Qed.

Lemma matches_from_all c off q cs eq ms : cand_matches_from c off q cs eq = Ok ms ->
  off <= cand_char_len c /\ exists f, ms = all_idx f (skipn off (cand_slice c)) off.
Proof.
  destruct c as [l|l]; cbn [cand_matches_from cand_slice cand_char_len]; intros H; apply ok_bind in H as (l' & E & H);
    injection H as <-; pose proof (slice_from_inv _ _ _ _ E) as [_ El]; (split; [exact El|]);
    rewrite slice_from_ok in E by exact El; injection E as <-.
  - unfold matches_from_ascii. destruct (negb _).
    + exists (fun _ => false). rewrite all_idx_false by reflexivity. reflexivity.
    + cbv zeta. destruct (_ || _)%bool; eexists; unfold memchr_iter, memchr2_iter; rewrite <- all_idx_shift, Nat.add_0_r; reflexivity.
  - eexists. apply matches_from_unicode_spec.
Qed.

Lemma all_idx_len A (f : A -> bool) l : forall off, length (all_idx f l off) <= length l.
Proof. induction l as [|x l IH]; intros off; cbn [all_idx length]; [lia|]. specialize (IH (S off)). destruct (f x); cbn [length]; lia. Qed.

Lemma all_idx_ascending A (f : A -> bool) l off : ascending off (off + length l) (all_idx f l off).
Proof.
  split; [apply all_idx_sorted|]. apply Forall_forall. intros i Hi. apply in_all_idx in Hi as (H1 & a & H2 & _).
  assert (i - off < length l) by (apply nth_error_Some; congruence). lia.
Qed.

Lemma first_row_steps a b ch cv s w : cand_char_len (cv_base cv) = w -> length a = w -> 0 < w ->
  runs (score_first_row_tm a b ch cv s) (fun r n =>
    n <= 3 * w /\ match r with Some (_, _, cv', _, _) => cv_base cv' = cv_base cv | None => True end).
Proof.
  intros Hc Hw H0. unfold score_first_row_tm, cand_matches_tm.
  destruct (matches_all (cv_base cv) ch (o_is_case_sensitive (cv_opts cv)) (o_char_eq (cv_opts cv))) as (f & ->).
  pose proof (all_idx_len _ f (cand_slice (cv_base cv)) 0) as L. rewrite cand_slice_len, Hc in L.
  pose proof (all_idx_ascending _ f (cand_slice (cv_base cv)) 0) as As. rewrite cand_slice_len, Hc in As.
  apply runs_bind, runs_spend, runs_ok. apply runs_bind.
  eapply runs_weaken; [apply (first_row_loop_steps s w); [exact H0|exact As]|]. cbn [fr_column fr_scores fr_cv].
  intros [st|] k [R1 R2]; [|split; [lia|exact I]]. destruct R2 as (R3 & R4 & R5 & R6).
  apply runs_bind. eapply runs_weaken; [apply first_row_gap_steps|]. rewrite R5, Hw.
  intros [[[r x] y]|] k' [G1 _]; [|split; [lia|exact I]]. apply runs_ok. split; [lia|exact R6].
Qed.

Lemma row_loop_steps s w w0 i ps pc ms : forall st, rr_column st <= w -> ascending (rr_column st) w ms ->
  runs (row_loop_tm s w0 i ps pc ms st) (fun r n =>
    n <= length ms + (w - rr_column st)
    /\ match r with
       | Some st' => rr_column st <= rr_column st' <= w /\ n <= length ms + (rr_column st' - rr_column st)
           /\ cv_base (rr_cv st') = cv_base (rr_cv st)
       | None => True
       end).
Proof.
  induction ms as [|x ms IH]; intros st Hw Ha; cbn [row_loop_tm length].
  - apply runs_ok. repeat split; lia.
  - apply ascending_tail in Ha as [Hx Ha]. apply runs_spend, runs_bind.
    pose proof (row_gap_steps (x - (rr_column st + 1)) (rr_column st + 1) (rr_scores st) GAP_START) as G.
    unfold runs at 1. destruct (row_gap_tm _ _ _ _) as [[[row pen]| |] k]; cbn [fst snd] in *; [|split; [lia|exact I]..]. cbv zeta.
    apply runs_pure; [split; [lia|exact I]|]. intros left _.
    apply runs_pure; [split; [lia|exact I]|]. intros l _.
    apply runs_pure; [split; [lia|exact I]|]. intros ul _.
    apply runs_pure; [split; [lia|exact I]|]. intros [b cv] E1. apply bonus_at_base in E1.
    apply runs_pure; [split; [lia|exact I]|]. intros c _.
    apply runs_pure; [split; [lia|exact I]|]. intros [[b' co] cv'] E2.
    assert (E2' : cv_base cv' = cv_base cv).
    { destruct (1 <? c + 1); [|congruence]. apply ok_bind in E2 as (fi & _ & E2). apply ok_bind in E2 as ([fb cv1] & E3 & E2).
      apply bonus_at_base in E3. destruct (_ && _)%bool; congruence. }
    apply runs_pure; [split; [lia|exact I]|]. intros [[su co'] cv''] E3.
    assert (E3' : cv_base cv'' = cv_base cv').
    { destruct (_ <? _)%Z; [|congruence]. apply ok_bind in E3 as ([fb cv1] & E4 & E3). apply bonus_at_base in E4. congruence. }
    destruct (rr_max_score st <? _)%Z;
      (apply runs_pure; [split; [lia|exact I]|]; intros cons _;
       apply runs_pure; [split; [lia|exact I]|]; intros row' _;
       eapply runs_weaken; [apply IH; [|exact Ha]; cbn [rr_column]; lia|];
       cbn [rr_column rr_cv]; intros [st'|] k' [I1 I2]; (split; [lia|]); [|exact I];
       destruct I2 as (I3 & I4 & I5); split; [lia|]; split; [lia|]; congruence).
Qed.

Lemma remaining_rows_steps k s p ms w : forall i sc co cv mx cell,
  cand_char_len (cv_base cv) = w -> m_width sc = w ->
  snd (score_remaining_rows_tm k i s p ms sc co cv mx cell) <= k * (3 * w + 1).
Proof.
  induction k as [|k IH]; intros i sc co cv mx cell Hc Hw; cbn [score_remaining_rows_tm]; [reflexivity|]. cbv zeta.
  cbn [Nat.mul]. change (snd (?t) <= ?b) with (runs t (fun _ n => n <= b)).
  apply runs_spend.
  apply runs_pure; [lia|]. intros x _.
  apply runs_pure; [lia|]. intros pi _.
  apply runs_pure; [lia|]. intros [ps row] _.
  apply runs_pure; [lia|]. intros [pc cr] _.
  apply runs_pure; [lia|]. intros fm _.
  unfold cand_matches_from_tm. apply runs_bind, runs_spend, runs_lift; [lia|]. intros l E.
  apply matches_from_all in E as (El & f & ->). rewrite Hc in El.
  pose proof (all_idx_len _ f (skipn fm (cand_slice (cv_base cv))) fm) as L. rewrite skipn_length, cand_slice_len, Hc in L.
  pose proof (all_idx_ascending _ f (skipn fm (cand_slice (cv_base cv))) fm) as As. rewrite skipn_length, cand_slice_len, Hc in As.
  replace (fm + (w - fm)) with w in As by lia.
  apply runs_bind. eapply runs_weaken; [apply (row_loop_steps s w); [|exact As]; cbn [rr_column]; lia|]. cbn [rr_column rr_cv].
  intros [st|] n [R1 R2]; [|lia]. destruct R2 as (R3 & R4 & R5).
  apply runs_bind. pose proof (row_gap_steps (m_width sc - (rr_column st + 1)) (rr_column st + 1) (rr_scores st) (rr_penalty st)) as G.
  rewrite Hw in G |- *. unfold runs at 1. destruct (row_gap_tm _ _ _ _) as [[[row' pen]| |] n']; cbn [fst snd] in *; [|lia..].
  unfold runs. cbv beta.
  specialize (IH (i + 1) (put_row sc i row') (put_row co i (rr_consecutives st)) (rr_cv st) (rr_max_score st) (rr_max_score_cell st)).
  rewrite R5 in IH. specialize (IH Hc Hw). rewrite Hc. lia.
Qed.

Lemma matrix_alloc_inv A (fill : A) vec w h m v : matrix_alloc fill vec w h = Ok (m, v) ->
  m_width m = w /\ m_height m = h /\ 0 < h * w /\ length (m_slice m) = h * w.
Proof.
  unfold matrix_alloc. intros H. apply ok_bind in H as (u & E & H). unfold assert_ in E.
  destruct (0 <? h * w) eqn:E0; [|discriminate]. apply Nat.ltb_lt in E0. cbv zeta in H.
  apply ok_bind in H as (sl & Es & H). injection H as <- _. cbn. rewrite map_length. apply slice_to_inv in Es as [-> _]. auto.
Qed.

Lemma v2_score_steps a b p cv ms s w h : cand_char_len (cv_base cv) = w -> p_char_len p = h ->
  snd (v2_score_tm a b p cv ms s) <= 7 * (h * w) + h.
Proof.
  intros Hw Hh. unfold v2_score_tm, matrix_alloc_tm. rewrite Hw, Hh. cbv zeta.
  pose proof (resize_le _ a (h * w)) as Ra. pose proof (resize_le _ b (h * w)) as Rb.
  change (snd (?t) <= ?b) with (runs t (fun _ n => n <= b)).
  apply runs_bind, runs_spend, runs_lift; [lia|]. intros [sc sv] E1. apply matrix_alloc_inv in E1 as (W1 & H1 & P1 & L1).
  apply runs_bind, runs_spend, runs_lift; [lia|]. intros [co cov] E2. apply matrix_alloc_inv in E2 as (W2 & H2 & _ & _).
  apply runs_pure; [lia|]. intros row Er.
  apply runs_pure; [lia|]. intros cr _.
  apply runs_pure; [lia|]. intros fi _.
  assert (Lr : length row = w).
  { unfold row_mut in Er. cbv zeta in Er. rewrite W1 in Er. apply slice_inv in Er. lia. }
  assert (P : 0 < h /\ 0 < w) by nia. destruct P as [P2 P3].
  apply runs_bind. eapply runs_weaken; [apply (first_row_steps row cr fi cv s w Hw Lr P3)|].
  intros [[[[[r1 r2] cv'] mx] cell]|] n [F1 F2]; [|nia].
  apply runs_bind.
  pose proof (remaining_rows_steps (m_height sc - 1) s p ms w 1 (put_row sc 0 r1) (put_row co 0 r2) cv' mx cell) as R.
  rewrite F2 in R. specialize (R Hw W1). rewrite H1 in R |- *.
  assert (B : (h - 1) * (3 * w + 1) + 3 * w + 1 = 3 * (h * w) + h).
  { destruct h as [|h']; [lia|]. replace (S h' - 1) with h' by lia. lia. }
  unfold runs at 1. destruct (score_remaining_rows_tm _ _ _ _ _ _ _ _ _ _) as [[[[[[r3 r4] cv''] mx'] cell']| |] n']; cbn [fst snd] in *.
  - apply runs_ok. lia.
  - lia.
  - lia.
Qed.

Lemma single_loop_steps c s ms : forall a b, snd (single_char_loop_tm c s ms a b) <= length ms.
Proof.
  induction ms as [|m ms IH]; intros a b; cbn [single_char_loop_tm length]; [reflexivity|].
  rewrite steps_spend. apply le_n_S. apply steps_pure. intros cl _. apply steps_pure. intros x _. cbv zeta.
  destruct (a <? _)%Z; apply IH.
Qed.

Lemma single_steps ch c o s r : snd (fuzzy_single_char_tm ch c o s r) <= 2 * cand_char_len c.
Proof.
  unfold fuzzy_single_char_tm, cand_matches_tm.
  destruct (matches_all c ch (o_is_case_sensitive o) (o_char_eq o)) as (f & ->).
  pose proof (all_idx_len _ f (cand_slice c) 0) as L. rewrite cand_slice_len in L.
  set (n := cand_char_len c) in *. replace (2 * n) with (n + (n + 0)) by lia.
  apply steps_bind; [rewrite steps_spend, steps_lift; lia|]. intros ms E. rewrite fst_spend, fst_lift in E. injection E as <-.
  apply steps_bind; [etransitivity; [apply single_loop_steps|exact L]|]. intros [mx pos] _.
  destruct (mx =? 0)%Z; rewrite steps_lift; lia.
Qed.

(** Iterations to make room for the offsets of the pattern's characters; none when the buffer of an
    earlier call is long enough. *)
Definition room_steps (m : v2) (h : nat) : nat :=
  if h =? 1 then 0 else resize_steps (s_indices (v2_slab_ m)) h.

Lemma v2_fuzzy_steps m p c r : let n := cand_char_len c in let h := p_char_len p in
  runs (v2_fuzzy_tm m p c r) (fun x k =>
    k <= room_steps m h + 5 * n + 2 * h + 7 * (h * n) + 1
    /\ match x with Some (None, _, _) => k <= room_steps m h + 2 * n + 1 | _ => True end).
Proof.
  intros n h. unfold v2_fuzzy_tm, room_steps. cbv zeta. fold h. destruct (h =? 1) eqn:Eh.
  - apply runs_pure; [split; [lia|exact I]|]. intros x _. apply runs_bind.
    pose proof (single_steps x c (opts_new (is_sensitive (v2_case_sensitivity m) p) (v2_candidate_normalization m))
                  (v2_scoring_scheme m) r) as S. fold n in S.
    unfold runs at 1. destruct (fst _) as [[sc r']| |]; [|split; [lia|exact I]..].
    apply runs_ok. split; [lia|]. destruct sc; [exact I|lia].
  - apply runs_bind. eapply runs_weaken; [apply v2_matches_steps|]. fold n h.
    set (R := resize_steps _ h). intros [[[[offs l]|] ind]|] k [M1 M2]; [| |split; [lia|exact I]].
    + destruct M2 as [M2 M3].
      apply runs_pure; [split; [lia|exact I]|]. intros fo _.
      apply runs_pure; [split; [lia|exact I]|]. intros ini _.
      apply runs_pure; [split; [lia|exact I]|]. intros base Eb. apply cand_slice_range_inv in Eb as [Eb1 Eb2]. fold n in Eb2.
      set (w := cand_char_len base) in *. assert (Hw : w <= n) by lia.
      assert (HW : h * w <= h * n) by (apply Nat.mul_le_mono_l; exact Hw).
      unfold bonus_alloc_tm. cbn [s_bonus s_scoring s_consecutive].
      pose proof (resize_le _ (s_bonus (v2_slab_ m)) w) as Rb.
      apply runs_bind, runs_spend, runs_lift; [split; [lia|exact I]|]. intros [bo bv] _.
      apply runs_bind, runs_spend, runs_lift; [split; [lia|exact I]|]. intros mo _.
      apply runs_bind.
      pose proof (v2_score_steps (s_scoring (v2_slab_ m)) (s_consecutive (v2_slab_ m)) p
        (MkCv bo base ini (opts_new (is_sensitive (v2_case_sensitivity m) p) (v2_candidate_normalization m)))
        mo (v2_scoring_scheme m) w h eq_refl eq_refl) as V.
      unfold runs at 1. destruct (fst (v2_score_tm _ _ _ _ _ _)) as [[[[[[[sc co] cv] score] cell] sv] cv']| |];
        [|split; [lia|exact I]..].
      apply runs_ok. split; [lia|exact I].
    + apply runs_ok. split; lia.
Qed.

End WithUnicode2.
