(** ParseCost.v computes what Parser.v computes, and bounds on the iterations it counts. *)
From Verif Require Import Prelude Chars Utils Candidate Query Parser Cost ParseCost.
From Verif Require Import PreludeProofs CharsProofs CostProofs CostBounds.
Local Open Scope nat_scope.

(** * The counters change nothing *)

Lemma words_alloc_same s : forall buf i, fst (words_alloc_tm buf i s) = words_alloc buf i s.
Proof.
  induction s as [|c s IH]; intros buf i; cbn [words_alloc_tm words_alloc]; [reflexivity|].
  rewrite fst_spend, fst_tbind, fst_lift. apply bind_ex; [reflexivity|]. intros a. apply IH.
Qed.

Lemma words_next_loop_same fuel : forall buf i s e,
  fst (words_next_loop_tm fuel buf i s e) = words_next_loop fuel buf i s e.
Proof.
  induction fuel as [|fuel IH]; intros buf i s e; cbn [words_next_loop_tm words_next_loop]; [reflexivity|].
  rewrite fst_spend, fst_tbind. unfold memchr_tm. rewrite fst_spend, fst_lift. cbn [bind].
  destruct (memchr SPACE s) as [[|o]|].
  - reflexivity.
  - rewrite fst_tbind, fst_lift. apply bind_ex; [reflexivity|]. intros prev. destruct (_ =? _)%N.
    + rewrite fst_tbind, fst_lift. apply bind_ex; [reflexivity|]. intros upto.
      rewrite fst_tbind, words_alloc_same. apply bind_ex; [reflexivity|]. intros [b1 i1].
      rewrite fst_tbind, words_alloc_same. apply bind_ex; [reflexivity|]. intros [b2 i2].
      rewrite fst_tbind, fst_lift. apply bind_ex; [reflexivity|]. intros s'. apply IH.
    + rewrite fst_tbind, fst_lift. apply bind_ex; [reflexivity|]. intros upto.
      rewrite fst_tbind, words_alloc_same. apply bind_ex; [reflexivity|]. intros [b1 i1]. reflexivity.
  - rewrite fst_tbind, words_alloc_same. apply bind_ex; [reflexivity|]. intros [b1 i1]. reflexivity.
Qed.

Lemma words_next_same w : fst (words_next_tm w) = words_next w.
Proof.
  unfold words_next_tm, words_next. destruct (w_s w) as [|b l]; [reflexivity|].
  rewrite fst_tbind, words_next_loop_same. apply bind_ex; [reflexivity|]. intros [[b1 i1] e1].
  rewrite fst_tbind, fst_lift. apply bind_ex; [reflexivity|]. intros r.
  rewrite fst_tbind. unfold strip_leading_spaces_tm. rewrite fst_spend, fst_lift. apply bind_ex; [reflexivity|]. intros s.
  rewrite fst_tbind, fst_lift. reflexivity.
Qed.

Section WithUnicode.
Context {UC : unicode}.

Lemma pattern_parse_same w : fst (pattern_parse_tm w) = pattern_parse w.
Proof.
  unfold pattern_parse_tm. rewrite fst_tbind, fst_lift. destruct (pattern_parse w) as [[p|]| |]; reflexivity.
Qed.

Lemma patterns_next_loop_same fuel : forall p b,
  fst (patterns_next_loop_tm fuel p b) = patterns_next_loop fuel p b.
Proof.
  induction fuel as [|fuel IH]; intros p b; cbn [patterns_next_loop_tm patterns_next_loop]; [reflexivity|].
  rewrite fst_spend, fst_tbind, words_next_same. apply bind_ex; [reflexivity|]. intros [[word|] w]; [|reflexivity].
  cbv zeta. destruct (negb _); [|apply IH].
  rewrite fst_tbind, pattern_parse_same. apply bind_ex; [reflexivity|]. intros [pat|]; [|apply IH].
  destruct b; [reflexivity|]. rewrite fst_tbind, fst_lift. apply bind_ex; [reflexivity|]. intros p'. apply IH.
Qed.

Lemma patterns_next_same p : fst (patterns_next_tm p) = patterns_next p.
Proof.
  unfold patterns_next_tm, patterns_next. rewrite fst_tbind. apply bind_ex.
  { destruct (pt_next p); [|reflexivity]. rewrite fst_tbind, fst_lift. reflexivity. }
  intros [p1 b]. rewrite fst_tbind, patterns_next_loop_same. apply bind_ex; [reflexivity|]. intros p2.
  destruct (_ =? _); [reflexivity|]. rewrite fst_tbind, fst_lift. reflexivity.
Qed.

Lemma parse_loop_same fuel : forall p cs n, fst (parse_loop_tm fuel p cs n) = parse_loop fuel p cs n.
Proof.
  induction fuel as [|fuel IH]; intros p cs n; cbn [parse_loop_tm parse_loop]; [reflexivity|].
  rewrite fst_spend, fst_tbind, patterns_next_same. apply bind_ex; [reflexivity|]. intros [[c|] p']; [|reflexivity].
  rewrite fst_tbind, fst_lift. apply bind_ex; [reflexivity|]. intros cs'. apply IH.
Qed.

Lemma parse_tm_same ps q : fst (parse_tm ps q) = parse ps q.
Proof.
  unfold parse_tm, parse. rewrite fst_spend, fst_tbind. apply bind_ex.
  { unfold patterns_new, words_new, words_new_tm, strip_leading_spaces_tm.
    rewrite !fst_tbind, fst_spend, fst_lift. destruct (strip_leading_spaces _); reflexivity. }
  intros p. rewrite fst_tbind, parse_loop_same. apply bind_ex; [reflexivity|]. intros [[p' cs] n].
  rewrite fst_tbind, fst_lift. apply bind_ex; [reflexivity|]. intros cs'.
  rewrite fst_tbind, fst_lift. reflexivity.
Qed.

Lemma parse_not_extended_tm_same ps q : fst (parse_not_extended_tm ps q) = parse_not_extended ps q.
Proof.
  unfold parse_not_extended_tm, parse_not_extended. rewrite fst_tbind, words_alloc_same.
  apply bind_ex; [reflexivity|]. intros [cs n]. rewrite fst_tbind, fst_lift. reflexivity.
Qed.

End WithUnicode.

(** * Paying for iterations *)

(** With a budget of [F] the computation gets through, and [P] is left over. *)
Definition pays {A : Type} (t : timed A) (F : nat) (P : A -> nat) : Prop :=
  snd t <= F /\ forall a, fst t = Ok a -> snd t + P a <= F.

Lemma pays_bind A B (t : timed A) (k : A -> timed B) F P Q :
  pays t F P -> (forall a, fst t = Ok a -> pays (k a) (P a) Q) -> pays (tbind t k) F Q.
Proof.
  intros [H1 H2] H3. unfold pays, tbind. destruct (fst t) as [a| |] eqn:E; cbn [fst snd].
  - specialize (H2 a eq_refl). destruct (H3 a eq_refl) as [H4 H5]. cbn [spend fst snd]. split; [lia|].
    intros b Hb. specialize (H5 b Hb). lia.
  - split; [lia|]. discriminate.
  - split; [lia|]. discriminate.
Qed.

Lemma pays_lift A (r : res A) F P : (forall a, r = Ok a -> P a <= F) -> pays (lift r) F P.
Proof. intros H. split; cbn [lift fst snd]; [lia|]. intros a E. specialize (H a E). lia. Qed.

Lemma pays_spend A n (t : timed A) F P : n <= F -> pays t (F - n) P -> pays (spend n t) F P.
Proof. intros Hn [H1 H2]. split; cbn [spend fst snd]; [lia|]. intros a E. specialize (H2 a E). lia. Qed.

Lemma pays_pure A B (r : res A) (k : A -> timed B) F Q :
  (forall a, r = Ok a -> pays (k a) F Q) -> pays (tbind (lift r) k) F Q.
Proof.
  intros H. apply pays_bind with (P := fun _ => F); [apply pays_lift; intros; lia|]. exact H.
Qed.

Lemma pays_more A (t : timed A) F F' (P P' : A -> nat) :
  pays t F P -> F <= F' -> (forall a, fst t = Ok a -> F + P' a <= F' + P a) -> pays t F' P'.
Proof.
  intros [H1 H2] HF HP. split; [lia|]. intros a E. specialize (H2 a E). specialize (HP a E). lia.
Qed.

(** * Words *)

Lemma words_alloc_pays s : forall buf i F, length s <= F ->
  pays (words_alloc_tm buf i s) F (fun _ => F - length s).
Proof.
  induction s as [|c s IH]; intros buf i F HF; cbn [words_alloc_tm length] in *.
  - apply pays_lift. intros. lia.
  - apply pays_spend; [lia|]. apply pays_pure. intros buf' _.
    apply (pays_more _ _ _ _ _ _ (IH buf' (i + 1) (F - 1) ltac:(lia))); [lia|]. intros. lia.
Qed.

Lemma words_alloc_count s : forall buf i buf' i', words_alloc buf i s = Ok (buf', i') -> i' = i + length s.
Proof.
  induction s as [|c s IH]; intros buf i buf' i' H; cbn [words_alloc length] in *.
  - injection H as _ <-. lia.
  - apply ok_bind in H as (b & _ & H). apply IH in H. lia.
Qed.

Lemma decode_length_aux n : forall b, length b <= n -> length (decode b) <= length b.
Proof.
  induction n as [|n IH]; intros b Hn; [destruct b; [reflexivity|cbn [length] in Hn; lia]|].
  destruct b as [|b0 r0]; [reflexivity|]. cbn [decode length] in *.
  destruct (_ <? _)%N.
  { cbn [length]. specialize (IH r0 ltac:(lia)). lia. }
  destruct r0 as [|b1 r1]; [cbn [length]; lia|]. cbn [length] in *. destruct (_ <? _)%N.
  { cbn [length]. specialize (IH r1 ltac:(lia)). lia. }
  destruct r1 as [|b2 r2]; [cbn [length]; lia|]. cbn [length] in *. destruct (_ <? _)%N.
  { cbn [length]. specialize (IH r2 ltac:(lia)). lia. }
  destruct r2 as [|b3 r3]; [cbn [length]; lia|]. cbn [length] in *.
  specialize (IH r3 ltac:(lia)). lia.
Qed.

Lemma decode_length b : length (decode b) <= length b.
Proof. apply (decode_length_aux (length b)). lia. Qed.

Lemma str_to_inv b i b' : str_to b i = Ok b' -> length b' <= i.
Proof. unfold str_to. destruct (is_char_boundary b i); [|discriminate]. intros H. injection H as <-. rewrite firstn_length. lia. Qed.

Lemma boundary_le b i : is_char_boundary b i = true -> i <= length b.
Proof.
  unfold is_char_boundary. destruct (nth_error b i) as [x|] eqn:E.
  - intros _. assert (i < length b) by (apply nth_error_Some; congruence). lia.
  - intros H. apply Nat.eqb_eq in H. lia.
Qed.

Lemma str_to_inv_eq b i b' : str_to b i = Ok b' -> length b' = i.
Proof.
  unfold str_to. destruct (is_char_boundary b i) eqn:E; [|discriminate]. intros H. injection H as <-.
  rewrite firstn_length. apply boundary_le in E. lia.
Qed.

Lemma str_from_inv b i b' : str_from b i = Ok b' -> b' = skipn i b /\ i <= length b.
Proof.
  unfold str_from. destruct (is_char_boundary b i) eqn:E; [|discriminate]. intros H. injection H as <-.
  apply boundary_le in E. auto.
Qed.

Lemma memchr_found n s i : memchr n s = Some i ->
  search_steps (fun b => (b =? n)%N) s = i + 1 /\ i < length s /\ nth_error s i = Some n.
Proof.
  unfold memchr. intros H. split; [|split].
  - apply search_found in H. apply H.
  - apply search_found in H. apply H.
  - revert i H. induction s as [|x s IH]; intros i H; [discriminate|]. cbn [find_idx] in H.
    destruct (x =? n)%N eqn:E.
    + injection H as <-. apply N.eqb_eq in E. subst. reflexivity.
    + destruct (find_idx _ s) as [j|]; [|discriminate]. injection H as <-. apply IH. reflexivity.
Qed.

(** What is left over when a word of [d] bytes and [k] characters has been found *)
Definition word_pays (s : list N) (i wbe : nat) (t : timed (list char * nat * nat)) : Prop :=
  snd t <= 5 * length s + 2
  /\ forall buf' i' wbe', fst t = Ok (buf', i', wbe') ->
     exists d, wbe' = wbe + d /\ d <= length s /\ i <= i' /\ snd t + 3 * (i' - i) <= 5 * d + 2
       /\ i' - i <= d
       /\ (d = length s \/ nth_error s d = Some SPACE)
       /\ (s <> [] -> nth_error s 0 <> Some SPACE -> 1 <= d).

Lemma tbind_cases A B (t : timed A) (k : A -> timed B) :
  (exists a, fst t = Ok a /\ tbind t k = (fst (k a), snd t + snd (k a)))
  \/ ((forall b, fst (tbind t k) <> Ok b) /\ snd (tbind t k) = snd t).
Proof.
  unfold tbind. destruct (fst t) as [a| |]; [left|right; split; [discriminate|reflexivity]..].
  exists a. split; reflexivity.
Qed.

(** Run the first computation of a sequence. *)
Ltac run a E :=
  match goal with
  | |- context [tbind ?t ?k] =>
      let HN := fresh "HN" in let HS := fresh "HS" in
      destruct (tbind_cases _ _ t k) as [(a & E & ->)|[HN HS]];
      [rewrite ?fst_lift, ?steps_lift in *; cbn [fst snd]
      |rewrite ?HS, ?steps_spend, ?steps_lift; split; [lia|intros; exfalso; eapply HN; eassumption]]
  end.

Lemma words_next_loop_pays fuel : forall buf i s wbe,
  word_pays s i wbe (words_next_loop_tm fuel buf i s wbe).
Proof.
  induction fuel as [|fuel IH]; intros buf i s wbe; cbn [words_next_loop_tm].
  { split; [cbn [lift snd]; lia|discriminate]. }
  unfold memchr_tm, word_pays. rewrite fst_spend, steps_spend.
  pose proof (search_le _ (fun b => (b =? SPACE)%N) s) as HS0.
  run found E0.
  rewrite fst_spend, fst_lift in E0. injection E0 as <-. rewrite steps_spend, steps_lift.
  destruct (memchr SPACE s) as [[|o]|] eqn:M.
  - (* a space at the front *)
    apply memchr_found in M as (-> & M1 & M2). rewrite steps_lift, fst_lift. split; [lia|].
    intros buf' i' wbe' H. injection H as <- <- <-. exists 0. repeat split; try lia.
    + right. exact M2.
    + intros _ H. congruence.
  - apply memchr_found in M as (-> & M1 & M2). run prev E1. destruct (prev =? BACKSLASH)%N.
    + (* an escaped space *)
      run upto U. apply str_to_inv_eq in U. pose proof (decode_length upto) as HD.
      pose proof (words_alloc_pays (decode upto) buf i _ (Nat.le_refl _)) as [HA _].
      run x W1. destruct x as [b1 i1]. rewrite words_alloc_same in W1. apply words_alloc_count in W1.
      pose proof (words_alloc_pays [SPACE] b1 i1 1 (Nat.le_refl _)) as [HB _].
      run x W2. destruct x as [b2 i2]. rewrite words_alloc_same in W2. apply words_alloc_count in W2. cbn [length] in W2.
      run s' F. apply str_from_inv in F as [F1 F2].
      destruct (IH b2 i2 s' (wbe + (S o + 1))) as [G1 G2].
      assert (HL : length s' = length s - (S o + 1)) by (rewrite F1, skipn_length; reflexivity).
      split; [lia|]. intros buf' i' wbe' H. destruct (G2 buf' i' wbe' H) as (d & E2 & E3 & E4 & E5 & E6 & E7 & E8).
      exists (S o + 1 + d). split; [lia|]. split; [lia|]. split; [lia|]. split; [lia|]. split; [lia|]. split.
      * destruct E7 as [E7|E7]; [left; lia|right]. rewrite <- E7, F1, nth_error_skipn. f_equal; lia.
      * intros. lia.
    + (* the end of the word *)
      run w U. apply str_to_inv_eq in U. pose proof (decode_length w) as HD.
      pose proof (words_alloc_pays (decode w) buf i _ (Nat.le_refl _)) as [HA _].
      run x W1. destruct x as [b1 i1]. rewrite words_alloc_same in W1. apply words_alloc_count in W1.
      rewrite fst_lift, steps_lift. split; [lia|]. intros buf' i' wbe' H. injection H as <- <- <-.
      exists (S o). repeat split; try lia. right. exact M2.
  - (* no more spaces *)
    pose proof (decode_length s) as HD.
    pose proof (words_alloc_pays (decode s) buf i _ (Nat.le_refl _)) as [HA _].
    run x W1. destruct x as [b1 i1]. rewrite words_alloc_same in W1. apply words_alloc_count in W1.
    rewrite fst_lift, steps_lift. split; [lia|]. intros buf' i' wbe' H. injection H as <- <- <-.
    exists (length s). repeat split; try lia.
    intros Hs _. destruct s; [congruence|cbn [length]; lia].
Qed.

Lemma while_count A (f : A -> bool) l :
  while_steps f l <= count_while f l + 1 /\ (count_while f l = length l -> while_steps f l = length l)
  /\ count_while f l <= length l
  /\ (count_while f l < length l -> exists x, nth_error l (count_while f l) = Some x /\ f x = false).
Proof.
  induction l as [|x l (H1 & H2 & H3 & H4)]; cbn [while_steps count_while length].
  - repeat split; lia.
  - destruct (f x) eqn:E.
    + repeat split; try lia. intros H. destruct (H4 ltac:(lia)) as (y & Hy). exists y. exact Hy.
    + repeat split; try lia. intros _. exists x. split; [reflexivity|exact E].
Qed.

(** Between two words the remaining bytes do not start with a space. *)
Definition no_front_space (s : list N) : Prop := nth_error s 0 <> Some SPACE.

Lemma strip_pays s : exists k, k <= length s
  /\ (forall i, i < k -> nth_error s i = Some SPACE)
  /\ snd (strip_leading_spaces_tm s) <= k + 1
  /\ (k = length s -> snd (strip_leading_spaces_tm s) <= k)
  /\ forall s', fst (strip_leading_spaces_tm s) = Ok s' -> length s' = length s - k /\ no_front_space s'.
Proof.
  unfold strip_leading_spaces_tm, strip_leading_spaces. rewrite fst_spend, fst_lift, steps_spend, steps_lift.
  destruct (while_count _ (fun b => (b =? SPACE)%N) s) as (H1 & H2 & H3 & H4).
  fold (leading_spaces s) in *. exists (leading_spaces s). split; [exact H3|]. split; [|split; [lia|split; [intros H; specialize (H2 H); lia|]]].
  { unfold leading_spaces. intros i. clear. revert i. induction s as [|x s IH]; intros i; cbn [count_while]; [lia|].
    destruct (x =? SPACE)%N eqn:E; [|lia]. destruct i as [|i]; [intros _; apply N.eqb_eq in E; subst; reflexivity|].
    intros H. apply IH. lia. }
  intros s' H. apply str_from_inv in H as [-> H]. split; [rewrite skipn_length; reflexivity|].
  unfold no_front_space. rewrite nth_error_skipn, Nat.add_0_r. intros H5.
  destruct (Nat.lt_ge_cases (leading_spaces s) (length s)) as [H6|H6].
  - destruct (H4 H6) as (x & Hx & Hf). rewrite Hx in H5. injection H5 as ->. rewrite N.eqb_refl in Hf. discriminate.
  - rewrite (proj2 (nth_error_None s (leading_spaces s)) H6) in H5. discriminate.
Qed.

(** The budget of the words which are left: six for each byte, and six for the last word *)
Definition budget (w : words) : nat :=
  match w_s w with [] => 0 | s => 6 * length s + 6 end.

Lemma budget_le w : budget w <= 6 * length (w_s w) + 6.
Proof. unfold budget. destruct (w_s w); cbn [length]; lia. Qed.

(** Each word pays for its own characters, three times, and for three more iterations. *)
Lemma words_next_pays w : no_front_space (w_s w) ->
  snd (words_next_tm w) <= budget w
  /\ (forall w', fst (words_next_tm w) = Ok (None, w') ->
        snd (words_next_tm w) = 0 /\ no_front_space (w_s w') /\ budget w' = budget w)
  /\ (forall word w', fst (words_next_tm w) = Ok (Some word, w') ->
        snd (words_next_tm w) + 3 * length word + 3 + budget w' <= budget w /\ no_front_space (w_s w')).
Proof.
  intros HF. unfold words_next_tm. destruct (w_s w) as [|b0 l0] eqn:Ws.
  { rewrite fst_lift, steps_lift. split; [lia|]. split.
    - intros w' H. injection H as <-. rewrite Ws. auto.
    - discriminate. }
  assert (HB : budget w = 6 * length (b0 :: l0) + 6) by (unfold budget; rewrite Ws; reflexivity). rewrite HB. clear HB.
  set (s := b0 :: l0) in *. assert (HN : s <> []) by discriminate.
  destruct (words_next_loop_pays (S (length s)) (w_buf w) (w_allocated w) s 0) as [G1 G2].
  match goal with |- context [tbind ?t ?k] => destruct (tbind_cases _ _ t k) as [(x & E & ->)|[HN1 HS]] end.
  2: { rewrite HS. split; [lia|]. split; intros; exfalso; eapply HN1; eassumption. }
  destruct x as [[buf' i'] wbe]. cbn [fst snd]. destruct (G2 _ _ _ E) as (d & E1 & E2 & E3 & E4 & E5 & E6 & E7).
  cbn [Nat.add] in E1. subst wbe. specialize (E7 HN HF). clear G1 G2 E.
  match goal with |- context [tbind ?t ?k] => destruct (tbind_cases _ _ t k) as [(rest & E & ->)|[HN1 HS]] end.
  2: { rewrite HS, steps_lift. split; [lia|]. split; intros; exfalso; eapply HN1; eassumption. }
  rewrite fst_lift in E. apply str_from_inv in E as [R1 R2]. cbn [fst snd]. rewrite steps_lift.
  destruct (strip_pays rest) as (k & K1 & K2 & K3 & K4 & K5).
  assert (HR : length rest = length s - d) by (rewrite R1, skipn_length; reflexivity).
  match goal with |- context [tbind ?t ?k] => destruct (tbind_cases _ _ t k) as [(s' & E & ->)|[HN1 HS]] end.
  2: { rewrite HS. split; [lia|]. split; intros; exfalso; eapply HN1; eassumption. }
  cbn [fst snd]. destruct (K5 s' E) as [S1 S2].
  match goal with |- context [tbind ?t ?k] => destruct (tbind_cases _ _ t k) as [(word & E' & ->)|[HN1 HS]] end.
  2: { rewrite HS, steps_lift. split; [lia|]. split; intros; exfalso; eapply HN1; eassumption. }
  rewrite fst_lift in *. cbn [fst snd]. rewrite !steps_lift. apply slice_inv in E' as [W1 W2].
  split; [lia|]. split; [discriminate|]. intros word' w' H. injection H as <- <-. cbn [w_s]. split; [|exact S2].
  unfold budget. cbn [w_s]. destruct s' as [|b1 l1] eqn:Es'.
  { cbn [length] in S1. lia. }
  rewrite <- Es' in *. assert (Hk : 1 <= k).
  { assert (d < length s) by (rewrite Es' in S1; cbn [length] in S1; lia).
    destruct E6 as [E6|E6]; [lia|]. destruct k as [|k]; [|lia]. exfalso.
    apply S2. unfold strip_leading_spaces_tm in E. rewrite fst_spend, fst_lift in E. unfold strip_leading_spaces in E.
    apply str_from_inv in E as [E _].
    rewrite E, skipn_length in S1. rewrite E, nth_error_skipn, Nat.add_0_r.
    assert (leading_spaces rest = 0) as HL by lia. rewrite HL, R1, nth_error_skipn, Nat.add_0_r. exact E6. }
  rewrite S1, HR. lia.
Qed.

Section Pay.
Context {UC : unicode}.

Lemma starts_with_length t c : starts_with t c = true -> 1 <= length t.
Proof. destruct t; [discriminate|cbn [length]; lia]. Qed.

Lemma pattern_parse_length w p : pattern_parse w = Ok (Some p) -> length (p_text p) <= length w.
Proof.
  unfold pattern_parse. intros H. apply ok_bind in H as (u & _ & H).
  apply ok_bind in H as ([[inv mt] t1] & E1 & H). apply ok_bind in H as ([mt2 t2] & E2 & H).
  apply ok_bind in H as ([mt3 t3] & E3 & H).
  assert (H1 : length t1 <= length w).
  { destruct (starts_with w 33).
    - apply ok_bind in E1 as (t & F & E1). apply slice_from_inv in F. injection E1 as _ _ <-. lia.
    - injection E1 as _ _ <-. lia. }
  assert (H2 : length t2 <= length t1).
  { destruct (_ && _)%bool.
    - apply ok_bind in E2 as (n & _ & E2). apply ok_bind in E2 as (t & F & E2). apply slice_to_inv in F. injection E2 as _ <-. lia.
    - injection E2 as _ <-. lia. }
  assert (H3 : length t3 <= length t2).
  { destruct (starts_with t2 39); [|destruct (starts_with t2 94)].
    - apply ok_bind in E3 as (t & F & E3). apply slice_from_inv in F. injection E3 as _ <-. lia.
    - apply ok_bind in E3 as (t & F & E3). apply slice_from_inv in F. injection E3 as _ <-. lia.
    - injection E3 as _ <-. lia. }
  destruct t3 as [|c t3]; [discriminate|]. injection H as <-. unfold mk_pattern. cbn [p_text]. lia.
Qed.

Lemma mk_pattern_steps_le text : mk_pattern_steps text <= 3 * length text.
Proof.
  unfold mk_pattern_steps. pose proof (search_le _ is_uppercase text).
  pose proof (while_le _ (fun c => (c =? SPACE)%N) text). pose proof (while_le _ (fun c => (c =? SPACE)%N) (rev text)).
  rewrite rev_length in *. lia.
Qed.

Lemma pattern_parse_pays w : snd (pattern_parse_tm w) <= 3 * length w.
Proof.
  unfold pattern_parse_tm. apply steps_pure. intros [p|] E; [|rewrite steps_lift; lia].
  rewrite steps_spend, steps_lift. apply pattern_parse_length in E. pose proof (mk_pattern_steps_le (p_text p)). lia.
Qed.

(** Two iterations are left over for each pattern. *)
Definition saved (p : option pattern) : nat := match p with Some _ => 2 | None => 0 end.

Lemma patterns_next_loop_pays fuel : forall p b,
  no_front_space (w_s (pt_words p)) -> pt_next p = None ->
  snd (patterns_next_loop_tm fuel p b) <= budget (pt_words p) + 1
  /\ forall p', fst (patterns_next_loop_tm fuel p b) = Ok p' ->
       no_front_space (w_s (pt_words p')) /\ pt_allocated p <= pt_allocated p'
       /\ snd (patterns_next_loop_tm fuel p b) + budget (pt_words p') + saved (pt_next p')
          + 2 * (pt_allocated p' - pt_allocated p) <= budget (pt_words p) + 1.
Proof.
  induction fuel as [|fuel IH]; intros p b HF HN; cbn [patterns_next_loop_tm].
  { rewrite steps_lift. split; [lia|discriminate]. }
  rewrite fst_spend, steps_spend. destruct (words_next_pays (pt_words p) HF) as (W1 & W2 & W3).
  run x E. destruct x as [[word|] w].
  2: { destruct (W2 w E) as (-> & W4 & W5). rewrite steps_lift, fst_lift. split; [lia|]. intros p' H. injection H as <-.
       cbn [pt_words pt_allocated pt_next]. rewrite HN. cbn [saved]. split; [exact W4|]. lia. }
  destruct (W3 word w E) as (W4 & W5). set (p1 := MkPatterns (pt_buf p) (pt_allocated p) w (pt_next p)).
  destruct (negb _).
  - pose proof (pattern_parse_pays word) as P1. run parsed E1. destruct parsed as [pat|].
    + destruct b.
      * rewrite steps_lift, fst_lift. split; [lia|]. intros p' H. injection H as <-.
        cbn [pt_words pt_allocated pt_next saved]. split; [exact W5|]. cbn [p1 pt_allocated pt_words]. lia.
      * run p2 E2. apply ok_bind in E2 as (buf & _ & E2). injection E2 as <-.
        match goal with |- context [patterns_next_loop_tm fuel ?q true] =>
          destruct (IH q true) as [I1 I2]; [exact W5|exact HN|] end.
        cbn [pt_words pt_allocated p1] in *. split; [lia|]. intros p' H. destruct (I2 p' H) as (I3 & I4 & I5).
        split; [exact I3|]. lia.
    + destruct (IH p1 b) as [I1 I2]; [exact W5|exact HN|]. cbn [pt_words pt_allocated p1] in *.
      split; [lia|]. intros p' H. destruct (I2 p' H) as (I3 & I4 & I5). split; [exact I3|]. lia.
  - destruct (IH p1 false) as [I1 I2]; [exact W5|exact HN|]. cbn [pt_words pt_allocated p1] in *.
    split; [lia|]. intros p' H. destruct (I2 p' H) as (I3 & I4 & I5). split; [exact I3|]. lia.
Qed.

Definition owed (p : patterns) : nat := budget (pt_words p) + saved (pt_next p).

Lemma patterns_next_pays p : no_front_space (w_s (pt_words p)) ->
  snd (patterns_next_tm p) <= owed p + 1
  /\ forall c p', fst (patterns_next_tm p) = Ok (Some c, p') ->
       no_front_space (w_s (pt_words p')) /\ snd (patterns_next_tm p) + 1 + owed p' <= owed p.
Proof.
  intros HF. unfold patterns_next_tm.
  match goal with |- context [tbind ?t ?k] => set (rest := k); set (t0 := t) end.
  assert (H0 : snd t0 <= 0).
  { unfold t0. destruct (pt_next p); [|rewrite steps_lift; lia]. apply steps_pure. intros. rewrite steps_lift. lia. }
  assert (H1 : forall p1 b, fst t0 = Ok (p1, b) ->
     pt_words p1 = pt_words p /\ pt_next p1 = None /\ pt_allocated p <= pt_allocated p1
     /\ saved (pt_next p) = 2 * (pt_allocated p1 - pt_allocated p)).
  { intros p1 b E. unfold t0 in E. destruct (pt_next p) as [pat|] eqn:EN.
    - rewrite fst_tbind, fst_lift in E. apply ok_bind in E as (p2 & E2 & E). injection E as <- _.
      apply ok_bind in E2 as (buf & _ & E2). injection E2 as <-. cbn [pt_words pt_next pt_allocated saved].
      repeat split; lia.
    - injection E as <- _. rewrite EN. cbn [saved]. repeat split; lia. }
  clearbody t0.
  destruct (tbind_cases _ _ t0 rest) as [(x & E & ->)|[HN1 HS]].
  2: { rewrite HS. split; [lia|intros; exfalso; eapply HN1; eassumption]. }
  destruct x as [p1 b]. cbn [fst snd]. specialize (H1 p1 b E). unfold rest. clear rest.
  destruct H1 as (A1 & A2 & A3 & A4). rewrite <- A1 in HF.
  destruct (patterns_next_loop_pays (S (length (w_s (pt_words p1)))) p1 b HF A2) as [L1 L2].
  unfold owed. rewrite A4, <- A1.
  run p2 E2. destruct (L2 p2 E2) as (L3 & L4 & L5).
  destruct (pt_allocated p2 =? pt_allocated p) eqn:EQ.
  { rewrite steps_lift, fst_lift. split; [lia|discriminate]. }
  apply Nat.eqb_neq in EQ. run pats E3. split; [lia|]. intros c p' H. injection H as _ <-.
  split; [exact L3|]. rewrite <- ?A1 in *. lia.
Qed.

Lemma parse_loop_pays fuel : forall p cs n, no_front_space (w_s (pt_words p)) ->
  snd (parse_loop_tm fuel p cs n) <= owed p + 2.
Proof.
  induction fuel as [|fuel IH]; intros p cs n HF; cbn [parse_loop_tm]; [rewrite steps_lift; lia|].
  rewrite steps_spend. destruct (patterns_next_pays p HF) as [P1 P2].
  match goal with |- context [tbind ?t ?k] => destruct (tbind_cases _ _ t k) as [(x & E & ->)|[HN1 HS]] end; [|lia].
  destruct x as [[c|] p']; cbn [fst snd]; [|rewrite steps_lift; lia].
  destruct (P2 c p' E) as [F1 F2].
  match goal with |- context [tbind ?t ?k] => destruct (tbind_cases _ _ t k) as [(x & E1 & ->)|[HN1 HS]] end; [|rewrite HS, steps_lift; lia].
  cbn [fst snd]. rewrite steps_lift. specialize (IH p' x (n + 1) F1). lia.
Qed.

Lemma parse_steps_le ps q :
  parse_steps ps q <= 6 * byte_len q + 9
    + resize_steps (ps_chars ps) (byte_len q)
    + resize_steps (ps_conditions ps) (byte_len q / 2 + 1)
    + resize_steps (ps_patterns ps) (byte_len q / 2 + 1).
Proof.
  unfold parse_steps, parse_tm. rewrite steps_spend. rewrite encode_length.
  set (R := resize_steps _ _ + _ + _). unfold words_new_tm.
  destruct (strip_pays (encode q)) as (k & K1 & K2 & K3 & K4 & K5). rewrite encode_length in *.
  set (chars := if _ <? byte_len q then _ else _).
  set (pats := if length (ps_patterns ps) <? _ then _ else _).
  set (conds := if length (ps_conditions ps) <? _ then _ else _).
  match goal with |- context [tbind ?t0 ?k] => set (rest := k); set (t := t0) end.
  assert (HT : snd t <= k + 1 /\ forall p, fst t = Ok p -> exists s', fst (strip_leading_spaces_tm (encode q)) = Ok s'
     /\ p = MkPatterns pats 0 (MkWords chars 0 s') None).
  { split.
    - replace (k + 1) with (k + 1 + 0 + 0) by lia. apply steps_bind; [apply steps_bind; [exact K3|]|]; intros; rewrite steps_lift; lia.
    - intros p H. unfold t in H. rewrite fst_tbind in H. apply ok_bind in H as (w & H1 & H2).
      rewrite fst_tbind in H1. apply ok_bind in H1 as (s' & H1 & H3). exists s'. split; [exact H1|].
      injection H3 as <-. injection H2 as <-. reflexivity. }
  destruct HT as [T1 T2]. clearbody t.
  destruct (tbind_cases _ _ t rest) as [(p & E & ->)|[HN1 HS]]; [|rewrite HS; lia].
  cbn [fst snd]. destruct (T2 p E) as (s' & E1 & ->). destruct (K5 s' E1) as [S1 S2]. clear T2.
  assert (HR : snd (rest (MkPatterns pats 0 (MkWords chars 0 s') None)) <= owed (MkPatterns pats 0 (MkWords chars 0 s') None) + 2 + 0).
  { unfold rest. apply steps_bind; [apply parse_loop_pays; exact S2|].
    intros [[p' cs] n] _. apply steps_pure. intros cs' _. apply steps_pure. intros. rewrite steps_lift. lia. }
  unfold owed in HR. cbn [pt_words pt_next saved] in HR. unfold budget in HR. cbn [w_s] in HR.
  unfold R. destruct s' as [|b l]; [lia|]. rewrite S1 in HR.
  destruct (Nat.eq_dec k (byte_len q)) as [->|Hk]; [cbn [length] in S1; lia|]. lia.
Qed.

Lemma parse_not_extended_steps_le ps q : parse_not_extended_steps ps q <= 4 * length q.
Proof.
  unfold parse_not_extended_steps, parse_not_extended_tm.
  replace (4 * length q) with (length q + 3 * length q) by lia.
  apply steps_bind; [apply (words_alloc_pays q (ps_chars ps) 0 _ (Nat.le_refl _))|].
  intros [cs n] E. rewrite words_alloc_same in E. apply words_alloc_count in E.
  apply steps_pure. intros text F. apply slice_to_inv in F as [F _].
  rewrite steps_spend, steps_lift. pose proof (mk_pattern_steps_le text). lia.
Qed.

End Pay.
