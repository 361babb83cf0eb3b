(** Proofs for C105: how many iterations ParseCost.v counts exactly. *)
From Verif Require Import Prelude Chars Utils Candidate Query Parser Cost ParseCost CostFormula ParseFormula Spec.
From Verif Require Import PreludeProofs CharsProofs CostProofs CostBounds CostExact ParserProofs WordsProofs ParseCostProofs Claims35.
Local Open Scope nat_scope.

Lemma count_bind A B (t : timed A) (k : A -> timed B) a : fst t = Ok a -> snd (tbind t k) = snd t + snd (k a).
Proof. intros E. unfold tbind. rewrite E. reflexivity. Qed.

Lemma count_pure A B (r : res A) (k : A -> timed B) a : r = Ok a -> snd (tbind (lift r) k) = snd (k a).
Proof. intros ->. reflexivity. Qed.

Lemma words_alloc_steps s : forall buf i, i + length s <= length buf -> snd (words_alloc_tm buf i s) = length s.
Proof.
  induction s as [|c s IH]; intros buf i H; cbn [words_alloc_tm length] in *; [reflexivity|].
  rewrite steps_spend. rewrite (count_pure _ _ _ _ (put buf i [c])) by (apply set_idx_put; lia).
  rewrite IH; [reflexivity|]. rewrite put_length; cbn [length]; lia.
Qed.

Lemma memchr_steps_space a b : no_space a -> search_steps (fun x => (x =? SPACE)%N) (encode (a ++ SPACE :: b)) = byte_len a + 1.
Proof. intros H. apply memchr_space with (b := b) in H. apply memchr_found in H. apply H. Qed.

Lemma memchr_steps_none a : no_space a -> search_steps (fun x => (x =? SPACE)%N) (encode a) = byte_len a.
Proof.
  intros H. apply encode_no with (n := SPACE) in H; [|reflexivity]. rewrite <- encode_length.
  induction (encode a) as [|x l IH]; [reflexivity|]. inversion H; subst. cbn [search_steps length].
  destruct (N.eqb_spec x SPACE); [contradiction|]. rewrite IH by assumption. reflexivity.
Qed.

Definition more {A} (l : list A) : nat := match l with [] => 0 | _ => 1 end.

Lemma words_loop_count fuel : forall s buf i wbe,
  length s < fuel -> i + length s <= length buf ->
  exists w used rest,
    words_next_loop fuel buf i (encode s) wbe = Ok (put buf i w, i + length w, wbe + byte_len used)
    /\ s = used ++ rest /\ word_end rest
    /\ tokens s = map Lit w ++ tokens rest
    /\ length w <= length used
    /\ snd (words_next_loop_tm fuel buf i (encode s) wbe) = byte_len used + length used + 1 + more rest.
Proof.
  induction fuel as [|fuel IH]; intros s buf i wbe Hf Hb; [lia|].
  cbn [words_next_loop words_next_loop_tm]. rewrite steps_spend. unfold memchr_tm.
  rewrite (count_bind _ _ _ _ (memchr SPACE (encode s))) by (rewrite fst_spend, fst_lift; reflexivity).
  rewrite steps_spend, steps_lift.
  destruct (split_at_space s) as [(a & b & -> & Ha)|Hs].
  - rewrite memchr_space, memchr_steps_space by exact Ha.
    destruct (list_eq_dec N.eq_dec a []) as [->|Hne].
    + change (byte_len []) with 0. exists [], [], (SPACE :: b). cbn [length app more].
      rewrite put_nil, !Nat.add_0_r. split; [reflexivity|]. split; [reflexivity|]. split; [reflexivity|].
      split; [reflexivity|]. split; [lia|reflexivity].
    + destruct (byte_len_nonzero a Hne) as [n Hn]. rewrite Hn.
      destruct (exists_last Hne) as (a0 & c & ->).
      destruct (last_byte a0 c (encode (SPACE :: b))) as (x & Hx & Hxc).
      rewrite <- encode_app in Hx. rewrite Hn in Hx. cbn [Nat.sub] in Hx. rewrite Nat.sub_0_r in Hx.
      rewrite Hx. cbn [bind]. rewrite (count_pure _ _ _ _ x eq_refl).
      destruct (x =? BACKSLASH)%N eqn:E.
      * assert (c = BACKSLASH) by (apply Hxc; reflexivity). subst c. clear Hxc.
        rewrite byte_len_app in Hn. cbn in Hn. assert (n = byte_len a0) by lia. subst n.
        rewrite <- app_assoc. cbn [app]. rewrite str_to_encode. cbn [bind].
        rewrite (count_pure _ _ _ _ (encode a0) eq_refl).
        rewrite decode_encode.
        rewrite !app_length in *. cbn [length] in *.
        rewrite words_alloc_spec by lia. cbn [bind].
        rewrite (count_bind _ _ _ _ (put buf i a0, i + length a0)) by (rewrite words_alloc_same; apply words_alloc_spec; lia).
        rewrite words_alloc_steps by lia.
        rewrite words_alloc_spec by (rewrite put_length; cbn [length]; lia). cbn [bind].
        rewrite (count_bind _ _ _ _ (put (put buf i a0) (i + length a0) [SPACE], i + length a0 + length [SPACE]))
          by (rewrite words_alloc_same; apply words_alloc_spec; rewrite put_length; cbn [length]; lia).
        rewrite words_alloc_steps by (rewrite put_length; cbn [length]; lia).
        rewrite put_put by (cbn [length]; lia).
        replace (S (byte_len a0) + 1) with (byte_len (a0 ++ [BACKSLASH; SPACE]))
          by (rewrite byte_len_app; cbn; lia).
        replace (a0 ++ BACKSLASH :: SPACE :: b) with ((a0 ++ [BACKSLASH; SPACE]) ++ b)
          by (rewrite <- app_assoc; reflexivity).
        rewrite str_from_encode. cbn [bind]. rewrite (count_pure _ _ _ _ (encode b) eq_refl).
        destruct (IH b (put buf i (a0 ++ [SPACE])) (i + length a0 + length [SPACE])
                    (wbe + byte_len (a0 ++ [BACKSLASH; SPACE])))
          as (w & used & rest & Hw & -> & Hr & Ht & Hl & Hc).
        { lia. }
        { rewrite put_length; rewrite ?app_length; cbn [length]; lia. }
        exists (a0 ++ SPACE :: w), ((a0 ++ [BACKSLASH; SPACE]) ++ used), rest.
        rewrite Hw, Hc. split; [|split; [|split; [|split; [|split]]]].
        -- replace (i + length a0 + length [SPACE]) with (i + length (a0 ++ [SPACE]))
             by (rewrite app_length; lia).
           rewrite put_put.
           2:{ rewrite !app_length in *. cbn [length] in *. lia. }
           rewrite <- app_assoc. cbn [app]. rewrite !byte_len_app. f_equal. f_equal; [f_equal|].
           ++ rewrite !app_length. cbn [length]. lia.
           ++ lia.
        -- rewrite !app_assoc. reflexivity.
        -- exact Hr.
        -- rewrite <- app_assoc. cbn [app]. apply Forall_app in Ha. rewrite tokens_app_escape by apply Ha.
           rewrite Ht, map_app, <- app_assoc. reflexivity.
        -- rewrite !app_length. cbn [length]. lia.
        -- rewrite !byte_len_app, !app_length. cbn [length]. cbn -[Nat.add]. lia.
      * assert (Hc : c <> BACKSLASH) by (intros ->; destruct Hxc as [_ Hxc]; specialize (Hxc eq_refl); congruence).
        rewrite <- Hn. rewrite str_to_encode. cbn [bind]. rewrite (count_pure _ _ _ _ (encode (a0 ++ [c])) eq_refl).
        rewrite decode_encode.
        rewrite app_length in Hb. rewrite words_alloc_spec by lia. cbn [bind].
        rewrite (count_bind _ _ _ _ (put buf i (a0 ++ [c]), i + length (a0 ++ [c]))) by (rewrite words_alloc_same; apply words_alloc_spec; lia).
        rewrite words_alloc_steps, steps_lift by lia.
        exists (a0 ++ [c]), (a0 ++ [c]), (SPACE :: b). rewrite encode_length.
        split; [reflexivity|]. split; [reflexivity|]. split; [reflexivity|].
        split; [rewrite tokens_app_space; auto|]. split; [lia|]. cbn [more]. lia.
  - rewrite memchr_no_space, memchr_steps_none by exact Hs. rewrite decode_encode.
    rewrite words_alloc_spec by lia. cbn [bind]. rewrite encode_length.
    rewrite (count_bind _ _ _ _ (put buf i s, i + length s)) by (rewrite words_alloc_same; apply words_alloc_spec; lia).
    rewrite words_alloc_steps, steps_lift by lia.
    exists s, s, []. rewrite app_nil_r. cbn [more]. repeat split; auto; [|lia].
    rewrite tokens_no_space by exact Hs. cbn. rewrite app_nil_r. reflexivity.
Qed.

Lemma strip_count s : exists n s', s = repeat SPACE n ++ s' /\ stripped s'
  /\ strip_leading_spaces (encode s) = Ok (encode s')
  /\ snd (strip_leading_spaces_tm (encode s)) = n + more s'.
Proof.
  destruct (strip_spec s) as (n & s' & -> & Hs & E). exists n, s'. split; [reflexivity|]. split; [exact Hs|]. split; [exact E|].
  unfold strip_leading_spaces_tm. rewrite steps_spend, steps_lift, Nat.add_0_r. clear E. induction n as [|n IH].
  - cbn [repeat app]. destruct s' as [|c s']; [reflexivity|]. cbn [stripped] in Hs. rewrite encode_cons.
    destruct (encode_char c) as [|x r] eqn:E; [apply encode_char_nonempty in E; contradiction|].
    pose proof (encode_char_no SPACE c space_lt Hs) as H. rewrite E in H. inversion H; subst. cbn [app while_steps].
    destruct (N.eqb_spec x SPACE); [contradiction|]. reflexivity.
  - cbn [repeat app]. rewrite encode_space_cons. cbn [while_steps]. rewrite N.eqb_refl, IH. reflexivity.
Qed.

(** ** Words *)

Definition is_sep (t : token) : bool := match t with Sep => true | Lit _ => false end.

Definition trailing (s : str) : nat := if ends_in_separator s then 1 else 0.

(** All that reading the words of [s] will cost, and 2 more if there is a word *)
Definition words_cost (s : str) : nat := byte_len s + (length s - separators s) + 3 * length (words_of s) + trailing s.

Lemma tokens_spaces n s : tokens (repeat SPACE n ++ s) = repeat Sep n ++ tokens s.
Proof. induction n as [|n IH]; [reflexivity|]. cbn [repeat app tokens]. unfold SPACE at 1. cbn [N.eqb Pos.eqb]. rewrite IH. reflexivity. Qed.

Lemma separators_le s : separators s <= length s.
Proof.
  unfold separators. apply Nat.le_trans with (length (tokens s)); [|].
  { induction (tokens s) as [|t l IH]; [apply le_n|]. cbn [filter length]. destruct t; cbn [length]; lia. }
  assert (G : forall n s, length s <= n -> length (tokens s) <= length s).
  { clear. induction n as [|n IH]; intros s Hn; [destruct s; [cbn; lia|cbn in Hn; lia]|].
    destruct s as [|c s]; [cbn; lia|]. cbn [length] in Hn. cbn [tokens]. destruct (c =? 32)%N; [cbn [length]; specialize (IH s); lia|].
    destruct s as [|d s]; [cbn; lia|]. cbn [length] in *. destruct (_ && _); cbn [length].
    - specialize (IH s). lia.
    - specialize (IH (d :: s)). cbn [length] in IH. lia. }
  apply (G (length s)). lia.
Qed.

Lemma separators_split w used n s' : tokens (used ++ repeat SPACE n ++ s') = map Lit w ++ tokens (repeat SPACE n ++ s') ->
  separators (used ++ repeat SPACE n ++ s') = n + separators s'.
Proof.
  intros H. unfold separators. rewrite H, tokens_spaces, !filter_app, !app_length.
  assert (E1 : forall w, length (filter (fun t => match t with Sep => true | Lit _ => false end) (map Lit w)) = 0)
    by (clear; induction w as [|c w IH]; [reflexivity|exact IH]).
  assert (E2 : forall n, length (filter (fun t => match t with Sep => true | Lit _ => false end) (repeat Sep n)) = n)
    by (clear; induction n as [|n IH]; [reflexivity|cbn [repeat filter length]; rewrite IH; reflexivity]).
  rewrite E1, E2. reflexivity.
Qed.

Lemma last_app_ne {A} (l l' : list A) d : l' <> [] -> last (l ++ l') d = last l' d.
Proof.
  intros H. induction l as [|x l IH]; [reflexivity|]. cbn [app]. destruct (l ++ l') eqn:E.
  - apply app_eq_nil in E as [_ E]. contradiction.
  - rewrite <- IH. reflexivity.
Qed.

Lemma tokens_nil s : tokens s = [] -> s = [].
Proof. destruct s as [|c s]; [reflexivity|]. cbn [tokens]. destruct (c =? 32)%N; [discriminate|]. destruct s; [discriminate|]. destruct (_ && _); discriminate. Qed.

Lemma trailing_split w used n s' : w <> [] -> tokens (used ++ repeat SPACE n ++ s') = map Lit w ++ tokens (repeat SPACE n ++ s') ->
  trailing (used ++ repeat SPACE n ++ s') = match s' with [] => if n =? 0 then 0 else 1 | _ => trailing s' end.
Proof.
  intros Hw H. unfold trailing, ends_in_separator. rewrite H, tokens_spaces. destruct s' as [|c s'].
  - cbn [tokens]. rewrite app_nil_r. destruct n as [|n].
    + cbn [repeat]. rewrite app_nil_r. assert (E : exists x, last (map Lit w) (Lit 0%N) = Lit x).
      { clear - Hw. induction w as [|c w IH]; [congruence|]. destruct w as [|d w]; [exists c; reflexivity|]. apply IH. discriminate. }
      destruct E as (x & ->). reflexivity.
    + rewrite last_app_ne by discriminate. replace (last (repeat Sep (S n)) (Lit 0%N)) with Sep; [reflexivity|].
      clear. induction n as [|n IH]; [reflexivity|]. exact IH.
  - assert (N : tokens (c :: s') <> []) by (intros E; apply tokens_nil in E; discriminate).
    rewrite app_assoc, last_app_ne by exact N. reflexivity.
Qed.

Lemma byte_len_spaces n : byte_len (repeat SPACE n) = n.
Proof. induction n as [|n IH]; [reflexivity|]. cbn [repeat]. rewrite byte_len_cons, IH. reflexivity. Qed.

(** [w] is about to yield the words of [s]. *)
Definition wat (w : words) (s : str) : Prop :=
  w_s w = encode s /\ stripped s /\ w_allocated w + length s <= length (w_buf w).

Lemma words_next_count w s : wat w s ->
  match s with
  | [] => words_next w = Ok (None, w) /\ snd (words_next_tm w) = 0
  | _ => exists x w' s', words_next w = Ok (Some x, w') /\ wat w' s' /\ x <> [] /\ words_of s = x :: words_of s'
      /\ length s' < length s
      /\ snd (words_next_tm w) + words_cost s' + 2 * more s = words_cost s + 2 * more s'
  end.
Proof.
  intros (Hs & Hst & Hb).
  destruct s as [|c0 s0] eqn:E.
  - unfold words_next, words_next_tm. rewrite Hs. split; reflexivity.
  - rewrite <- E in *. assert (Hne : s <> []) by congruence. replace (more s) with 1 by (rewrite E; reflexivity). clear E.
    destruct (words_loop_count (S (length (w_s w))) s (w_buf w) (w_allocated w) 0)
      as (x & used & rest & Hloop & Hur & Hr & Ht & Hl & Hc).
    { rewrite Hs, encode_length. pose proof (length_le_byte_len s). lia. }
    { exact Hb. }
    assert (Hx : nonempty x = true) by (eapply tokens_lits_nonempty; eauto).
    pose proof (words_of_word _ _ _ Ht Hr) as Hws.
    rewrite Hx in Hws. destruct (strip_count rest) as (k & s' & Hk & Hs' & Hstrip & Hcost).
    assert (Hxne : x <> []) by (intros ->; discriminate).
    exists x. unfold words_next, words_next_tm. rewrite <- Hs in Hloop, Hc.
    destruct (w_s w) as [|b0 bs] eqn:Eb.
    { symmetry in Hs. apply (proj1 (encode_nil_iff s)) in Hs. contradiction. }
    rewrite <- Eb in *. clear Eb. rewrite Hloop. cbn [bind].
    rewrite (count_bind _ _ _ _ _ (eq_trans (words_next_loop_same _ _ _ _ _) Hloop)), Hc.
    cbn [Nat.add].
    assert (E1 : str_from (w_s w) (byte_len used) = Ok (encode rest)) by (rewrite Hs, Hur; apply str_from_encode).
    rewrite E1. cbn [bind]. rewrite (count_pure _ _ _ _ _ eq_refl). rewrite Hstrip. cbn [bind].
    rewrite (count_bind _ _ _ _ (encode s')) by (unfold strip_leading_spaces_tm; rewrite fst_spend, fst_lift; exact Hstrip).
    rewrite Hcost.
    assert (Hlen : length s = length used + (k + length s')).
    { rewrite Hur, Hk, !app_length, repeat_length. reflexivity. }
    rewrite slice_put by lia. cbn [bind]. rewrite (count_pure _ _ _ _ _ eq_refl), steps_lift.
    eexists. exists s'. split; [reflexivity|]. split; [|split; [exact Hxne|split; [|split]]].
    + split; [reflexivity|]. split; [exact Hs'|]. cbn [w_allocated w_buf]. rewrite put_length; lia.
    + rewrite Hws, Hk, words_of_spaces. reflexivity.
    + assert (1 <= length x) by (destruct x; [congruence|cbn [length]; lia]). lia.
    + unfold words_cost. rewrite Hws, Hk, words_of_spaces. cbn [length].
      assert (Hb1 : byte_len s = byte_len used + (k + byte_len s')) by (rewrite Hur, Hk, !byte_len_app, byte_len_spaces; reflexivity).
      rewrite Hk in Ht, Hur. rewrite Hur in Ht.
      pose proof (separators_split _ _ _ _ Ht) as Hsep. pose proof (trailing_split _ _ _ _ Hxne Ht) as Htr. rewrite <- Hur in Hsep, Htr.
      rewrite Hb1, Hsep, Htr, Hlen. pose proof (separators_le s') as Hle.
      assert (Hm : more (repeat SPACE k ++ s') = match s' with [] => if k =? 0 then 0 else 1 | _ => 1 end).
      { destruct s' as [|c s']; [rewrite app_nil_r|]; destruct k; reflexivity. }
      rewrite Hm. destruct s' as [|c s'].
      * cbn [more length words_of tokens split filter nonempty]. change (trailing []) with 0. change (words_of []) with (@nil str).
        change (byte_len []) with 0. change (separators []) with 0. cbn [length]. destruct (k =? 0); lia.
      * cbn [more]. cbn [length] in *. lia.
Qed.

Section WithUnicode.
Context {UC : unicode}.

Lemma examined_search f t : search_steps f t = examined f t.
Proof. induction t as [|x t IH]; [reflexivity|]. cbn. rewrite IH. reflexivity. Qed.

Lemma examined_while f t : while_steps f t = examined (fun c => negb (f c)) t.
Proof. induction t as [|x t IH]; [reflexivity|]. cbn. rewrite IH. destruct (f x); reflexivity. Qed.

Lemma mk_pattern_steps_cost t : mk_pattern_steps t = term_cost t.
Proof. unfold mk_pattern_steps, term_cost. rewrite examined_search, !examined_while. reflexivity. Qed.

Definition word_cost (w : str) : nat :=
  if is_bar w then 0 else match term_of w with Some t => term_cost (t_text t) | None => 0 end.

Definition words_terms (ws : list str) : nat := list_sum (map word_cost ws).

(** What is left to do with the words of [s], and 2 more if there is a word *)
Definition left (s : str) : nat := words_cost s + length (words_of s) + words_terms (words_of s).

Lemma pattern_parse_steps w : w <> [] -> snd (pattern_parse_tm w) = match term_of w with Some t => term_cost (t_text t) | None => 0 end.
Proof.
  intros H. unfold pattern_parse_tm. rewrite (count_pure _ _ _ _ _ (pattern_parse_spec w H)).
  destruct (term_of w) as [t|]; [|reflexivity]. cbn [option_map]. rewrite steps_spend, steps_lift, mk_pattern_steps_cost. rewrite Nat.add_0_r. reflexivity.
Qed.

(** How the loop of Patterns::next ends: there are no more words, or a term begins the next condition. *)
Lemma patterns_loop_count fuel : forall p b s, wat (pt_words p) s ->
  takes (patterns_next_loop_tm fuel p b) (fun p' n => exists s', wat (pt_words p') s' /\ pt_allocated p <= pt_allocated p'
    /\ ((s' = [] /\ pt_next p' = pt_next p /\ n + 2 * more s = left s + 1)
        \/ (pt_next p' <> None /\ (b = true \/ pt_allocated p < pt_allocated p') /\ n + left s' + 2 * more s = left s + 2 * more s'))).
Proof.
  induction fuel as [|fuel IH]; intros p b s Hs; cbn [patterns_next_loop_tm]; [exact I|].
  apply takes_spend. pose proof (words_next_count _ _ Hs) as Hn. destruct s as [|c0 s0] eqn:Es.
  - destruct Hn as [Hn Hc]. unfold takes, runs, tbind. rewrite words_next_same, Hn. cbn. exists []. split; [exact Hs|].
    split; [lia|]. left. split; [reflexivity|]. split; [reflexivity|]. rewrite Hc. unfold left, words_cost. cbn. lia.
  - rewrite <- Es in *. destruct Hn as (x & w' & s' & Hn & Hw & Hx & Hws & Hlen & Hc).
    assert (Hm : more s = 1) by (rewrite Es; reflexivity). clear Es. rewrite Hm in *.
    assert (HL : left s + 2 * more s' = 2 + snd (words_next_tm (pt_words p)) + words_cost s' + S (length (words_of s')) + (word_cost x + words_terms (words_of s'))).
    { unfold left. rewrite Hws. cbn [length]. change (words_terms (x :: words_of s')) with (word_cost x + words_terms (words_of s')). lia. }
    apply takes_bind. unfold takes at 1, runs. rewrite words_next_same, Hn. cbn beta iota zeta.
    destruct (is_or_separator x) eqn:Eb; cbn [negb].
    + assert (HW : word_cost x = 0) by (unfold word_cost; rewrite is_or_separator_bar in Eb; rewrite Eb; reflexivity).
      eapply takes_weaken; [apply (IH _ false s'); exact Hw|]. cbn [pt_words pt_allocated pt_next]. intros p' n (s2 & W2 & A2 & [(-> & N2 & K)|(N2 & A3 & K)]);
        [exists []|exists s2]; (split; [exact W2|]); (split; [exact A2|]); [left|right].
      * split; [reflexivity|]. split; [exact N2|]. unfold left in *. lia.
      * split; [exact N2|]. split; [destruct A3 as [A3|A3]; [discriminate|right; exact A3]|]. unfold left in *.
        lia.
    + assert (HW : word_cost x = match term_of x with Some t => term_cost (t_text t) | None => 0 end)
        by (unfold word_cost; rewrite is_or_separator_bar in Eb; rewrite Eb; reflexivity).
      apply takes_bind. unfold takes at 1, runs. rewrite pattern_parse_same, (pattern_parse_spec x Hx), (pattern_parse_steps x Hx), <- HW.
      destruct (term_of x) as [t|] eqn:Et; cbn [option_map].
      * destruct b.
        -- apply takes_ok. cbn [pt_words pt_allocated pt_next]. exists s'. split; [exact Hw|]. split; [lia|]. right.
           split; [discriminate|]. split; [left; reflexivity|]. unfold left in *. lia.
        -- apply takes_pure. intros p1 E1. unfold patterns_alloc in E1. apply ok_bind in E1 as (buf & _ & E1). injection E1 as <-.
           eapply takes_weaken; [apply (IH _ true s'); exact Hw|]. cbn [pt_words pt_allocated pt_next]. intros p' n (s2 & W2 & A2 & [(-> & N2 & K)|(N2 & A3 & K)]);
             [exists []|exists s2]; (split; [exact W2|]); (split; [lia|]); [left|right].
           ++ split; [reflexivity|]. split; [exact N2|]. unfold left in *. lia.
           ++ split; [exact N2|]. split; [right; lia|]. unfold left in *. lia.
      * eapply takes_weaken; [apply (IH _ b s'); exact Hw|]. cbn [pt_words pt_allocated pt_next]. intros p' n (s2 & W2 & A2 & [(-> & N2 & K)|(N2 & A3 & K)]);
        [exists []|exists s2]; (split; [exact W2|]); (split; [exact A2|]); [left|right].
        -- split; [reflexivity|]. split; [exact N2|]. unfold left in *. lia.
        -- split; [exact N2|]. split; [exact A3|]. unfold left in *. lia.
Qed.

Lemma patterns_next_count p s : wat (pt_words p) s ->
  takes (patterns_next_tm p) (fun '(c, p') n => exists s', wat (pt_words p') s'
    /\ (c = None -> pt_next p = None /\ s' = [] /\ n + 2 * more s = left s + 1)
    /\ (c <> None -> ~ (pt_next p = None /\ s = []) /\ ((pt_next p' = None /\ s' = [] /\ n + 2 * more s = left s + 1)
                     \/ (pt_next p' <> None /\ n + left s' + 2 * more s = left s + 2 * more s')))).
Proof.
  intros Hs. unfold patterns_next_tm. apply takes_bind. destruct (pt_next p) as [first|] eqn:En.
  - apply takes_pure. intros p1 E1. unfold patterns_alloc in E1. apply ok_bind in E1 as (buf & _ & E1). injection E1 as <-.
    apply takes_ok. apply takes_bind. cbn [pt_words]. eapply takes_weaken; [apply patterns_loop_count; exact Hs|].
    cbn [pt_words pt_allocated pt_next]. intros p' n (s' & W & A & K).
    destruct (Nat.eqb_spec (pt_allocated p') (pt_allocated p)) as [E|_]; [lia|].
    apply takes_pure. intros pats _. apply takes_ok. exists s'. split; [exact W|]. split; [discriminate|]. intros _.
    split; [intros [? _]; discriminate|]. destruct K as [(-> & N & K)|(N & _ & K)]; [left|right].
    + split; [exact N|]. split; [reflexivity|]. lia.
    + split; [exact N|]. lia.
  - apply takes_ok. apply takes_bind. destruct s as [|c0 s0].
    { pose proof (words_next_count _ _ Hs) as [Hn Hc].
      assert (Ew : words_next_tm (pt_words p) = lift (Ok (None, pt_words p))).
      { rewrite (surjective_pairing (words_next_tm (pt_words p))), words_next_same, Hn, Hc. reflexivity. }
      cbn [patterns_next_loop_tm]. rewrite Ew. apply takes_spend, takes_bind, takes_ok, takes_ok. cbn [pt_allocated].
      rewrite Nat.eqb_refl. apply takes_ok. cbn [pt_words]. exists []. split; [exact Hs|]. split; [|congruence]. intros _.
      split; [reflexivity|]. split; reflexivity. }
    eapply takes_weaken; [apply patterns_loop_count; exact Hs|]. set (s := c0 :: s0) in *.
    cbn [pt_words pt_allocated pt_next]. intros p' n (s' & W & A & K).
    assert (Hne : ~ (@None pattern = None /\ s = [])) by (intros [_ X]; discriminate X).
    destruct (Nat.eqb_spec (pt_allocated p') (pt_allocated p)) as [E|_].
    + apply takes_ok. exists s'. split; [exact W|]. split; [|congruence]. intros _. split; [reflexivity|].
      destruct K as [(-> & N & K)|(N & [X|X] & K)]; [|discriminate|lia]. split; [reflexivity|]. lia.
    + apply takes_pure. intros pats _. apply takes_ok. exists s'. split; [exact W|]. split; [discriminate|]. intros _.
      split; [exact Hne|]. destruct K as [(-> & N & K)|(N & _ & K)]; [left|right].
      * split; [congruence|]. split; [reflexivity|]. lia.
      * split; [exact N|]. lia.
Qed.

Lemma parse_loop_count fuel : forall p cs n s, wat (pt_words p) s ->
  takes (parse_loop_tm fuel p cs n) (fun '(_, _, n') k =>
    n <= n' /\ (pt_next p <> None -> n < n') /\ (pt_next p = None -> s = [] -> n' = n)
    /\ k + 2 * more s = left s + (if n' =? n then 2 else n' - n + 3)).
Proof.
  induction fuel as [|fuel IH]; intros p cs n s Hs; cbn [parse_loop_tm]; [exact I|].
  apply takes_spend, takes_bind. eapply takes_weaken; [apply patterns_next_count; exact Hs|].
  intros [c p'] k (s' & W & K1 & K2). destruct c as [c|].
  - destruct K2 as [N K]; [discriminate|]. apply takes_pure. intros cs' _.
    eapply takes_weaken; [apply (IH p' cs' (n + 1) s'); exact W|]. intros [[p2 cs2] n'] k' (L & L1 & L2 & T).
    split; [lia|]. split; [intros _; lia|]. split; [intros A B; exfalso; apply N; split; assumption|].
    destruct (Nat.eqb_spec n' n) as [|_]; [lia|].
    destruct K as [(N' & -> & K)|(N' & K)].
    + rewrite (L2 N' eq_refl) in *. rewrite Nat.eqb_refl in T. unfold left in T at 1. cbn in T. lia.
    + specialize (L1 N'). destruct (Nat.eqb_spec n' (n + 1)); [lia|]. lia.
  - destruct K1 as (N & -> & K); [reflexivity|]. apply takes_ok. split; [lia|]. split; [congruence|]. split; [reflexivity|].
    rewrite Nat.eqb_refl. lia.
Qed.

Lemma words_terms_sum ws : words_terms ws = list_sum (map (fun t => term_cost (t_text t)) (terms_of ws)).
Proof.
  induction ws as [|w ws IH]; [reflexivity|]. change (words_terms (w :: ws)) with (word_cost w + words_terms ws). rewrite IH.
  cbn [terms_of]. unfold is_term, word_cost. destruct (is_bar w); [reflexivity|]. destruct (term_of w); reflexivity.
Qed.

Lemma separators_spaces n s : separators (repeat SPACE n ++ s) = n + separators s.
Proof. apply (separators_split [] []). reflexivity. Qed.

Lemma trailing_spaces n s : trailing (repeat SPACE n ++ s) = match s with [] => if n =? 0 then 0 else 1 | _ => trailing s end.
Proof.
  unfold trailing, ends_in_separator. rewrite tokens_spaces. destruct s as [|c s].
  - cbn [tokens]. rewrite app_nil_r. destruct n as [|n]; [reflexivity|].
    replace (last (repeat Sep (S n)) (Lit 0%N)) with Sep; [reflexivity|]. clear. induction n as [|n IH]; [reflexivity|]. exact IH.
  - rewrite last_app_ne; [reflexivity|]. intros E. apply tokens_nil in E. discriminate.
Qed.

Lemma parse_steps_exact : forall ps s,
  parse_steps ps s
  = buffers_cost ps (byte_len s)
    + byte_len s + (length s - separators s)
    + words_overhead (length (words_of s)) (length (parse_spec s)) (ends_in_separator s)
    + list_sum (map (fun t => term_cost (t_text t)) (concat (parse_spec s))).
Proof.
  intros ps q. rewrite parse_spec_terms, <- words_terms_sum. unfold parse_steps, parse_tm.
  rewrite steps_spend, !resize_growth, encode_length. fold (buffers_cost ps (byte_len q)).
  rewrite <- !Nat.add_assoc. f_equal.
  pose proof (grow_length _ (ps_chars ps) (byte_len q) 0%N) as L1.
  pose proof (grow_length _ (ps_conditions ps) (byte_len q / 2 + 1) []) as L2.
  pose proof (grow_length _ (ps_patterns ps) (byte_len q / 2 + 1) default_pattern) as L3.
  destruct (strip_count q) as (k & s & Hq & Hs & Hstrip & Hcost).
  set (chars := if _ <? _ then grow (ps_chars ps) _ _ else _) in *.
  set (conds := if _ <? _ then grow (ps_conditions ps) _ _ else _) in *.
  set (pats := if _ <? _ then grow (ps_patterns ps) _ _ else _) in *.
  assert (Hlen : length s <= byte_len q).
  { pose proof (length_le_byte_len q).
    assert (length q = k + length s) by (rewrite Hq, app_length, repeat_length; reflexivity). lia. }
  pose proof (words_count s Hs) as Hcount.
  pose proof (marked_terms_length true (words_of s)) as Hm.
  assert (Hdiv : length (words_of s) <= byte_len q / 2 + 1).
  { pose proof (Nat.div_mod (byte_len q) 2). pose proof (Nat.mod_upper_bound (byte_len q) 2). lia. }
  assert (Hspec : parse_spec q = join_bars (marked_terms true (words_of s))).
  { unfold parse_spec. rewrite Hq, words_of_spaces. symmetry. apply marked_first_flag. }
  set (p0 := MkPatterns pats 0 (MkWords chars 0 (encode s)) None).
  destruct (parse_loop_spec (S (S (byte_len q))) p0
              (words_of s) (marked_terms true (words_of s)) conds 0) as (p' & H1 & H2 & H3 & H4).
  { lia. }
  { repeat split; cbn [p0 pt_words pt_next pt_allocated pt_buf].
    - exists s. cbn [w_s w_allocated w_buf]. repeat split; auto. lia.
    - lia. }
  { lia. }
  rewrite <- Hspec in *. cbn [Nat.add] in H1.
  rewrite (count_bind _ _ _ _ p0).
  2:{ unfold words_new_tm, strip_leading_spaces_tm. rewrite !fst_tbind, fst_spend, fst_lift, Hstrip. reflexivity. }
  assert (C0 : snd (let! w := words_new_tm chars (encode q) in lift (Ok (MkPatterns pats 0 w None))) = k + more s).
  { unfold words_new_tm. rewrite (count_bind _ _ _ _ (MkWords chars 0 (encode s))).
    - rewrite (count_bind _ _ _ _ (encode s)) by (unfold strip_leading_spaces_tm; rewrite fst_spend, fst_lift; exact Hstrip).
      rewrite Hcost, !steps_lift. lia.
    - rewrite fst_tbind. unfold strip_leading_spaces_tm. rewrite fst_spend, fst_lift, Hstrip. reflexivity. }
  rewrite C0.
  assert (Hat : wat (pt_words p0) s).
  { split; [reflexivity|]. split; [exact Hs|]. cbn. lia. }
  pose proof (parse_loop_count (S (S (byte_len q))) p0 conds 0 s Hat) as T.
  rewrite <- parse_loop_same in H1. apply (takes_get _ _ _ _ T) in H1 as C. destruct C as (_ & _ & _ & C).
  rewrite (count_bind _ _ _ _ _ H1). cbn beta iota.
  rewrite (count_pure _ _ _ _ (firstn (length (parse_spec q)) (put conds 0 (map (map pat_of) (parse_spec q))))).
  2:{ apply slice_to_ok. pose proof (join_bars_length (marked_terms true (words_of s))) as J.
      rewrite <- Hspec in J. rewrite put_length; rewrite ?map_length; lia. }
  assert (Hf : firstn (length (parse_spec q)) (put conds 0 (map (map pat_of) (parse_spec q)))
               = map (map pat_of) (parse_spec q)).
  { pose proof (firstn_put_all _ conds 0 (map (map pat_of) (parse_spec q))) as F.
    rewrite map_length in F. apply F. pose proof (join_bars_length (marked_terms true (words_of s))) as J. rewrite <- Hspec in J. lia. }
  rewrite Hf. erewrite count_pure by (apply new_extended_spec; rewrite Hspec; apply join_bars_nonempty).
  rewrite steps_lift, Nat.add_0_r. clear H1 H2 H3 H4 T Hf.
  assert (Hws : words_of q = words_of s) by (rewrite Hq; apply words_of_spaces).
  assert (B : byte_len q = k + byte_len s) by (rewrite Hq, byte_len_app, byte_len_spaces; reflexivity).
  assert (SP : separators q = k + separators s) by (rewrite Hq; apply separators_spaces).
  assert (LE : length q = k + length s) by (rewrite Hq, app_length, repeat_length; reflexivity).
  pose proof (trailing_spaces k s) as TR. rewrite <- Hq in TR. rewrite Hws.
  change (if ends_in_separator q then 1 else 0) with (trailing q) in *.
  unfold left, words_cost in C. set (cost := snd (parse_loop_tm _ _ _ _)) in *. clearbody cost. rewrite B, SP, LE.
  destruct s as [|c s].
  - change (words_of []) with (@nil str) in *. cbn [length words_overhead words_terms map list_sum fold_right] in *.
    change (words_terms []) with 0 in *. change (byte_len []) with 0 in *. change (separators []) with 0 in *. change (trailing []) with 0 in C. cbn [more] in *.
    assert (P0 : length (parse_spec q) = 0).
    { rewrite Hspec. reflexivity. }
    rewrite P0 in C. cbn [Nat.eqb] in C. lia.
  - assert (W1 : 1 <= length (words_of (c :: s))).
    { pose proof (words_next_count (MkWords (repeat 0%N (length (c :: s))) 0 (encode (c :: s))) (c :: s)) as X.
      destruct X as (x & w' & s' & _ & _ & _ & X & _); [|rewrite X; cbn [length]; lia].
      split; [reflexivity|]. split; [exact Hs|]. cbn [w_allocated w_buf]. rewrite repeat_length. apply le_n. }
    cbn [more] in *. set (W := length (words_of (c :: s))) in *. unfold words_overhead. fold (trailing q). rewrite TR.
    destruct W as [|W]; [lia|]. destruct (length (parse_spec q)) as [|n] eqn:En; cbn [Nat.eqb] in C; lia.
Qed.

Lemma parse_not_extended_steps_exact : forall ps s, length s <= length (ps_chars ps) ->
  parse_not_extended_steps ps s = length s + term_cost s.
Proof.
  intros ps s H. unfold parse_not_extended_steps, parse_not_extended_tm.
  rewrite (count_bind _ _ _ _ (put (ps_chars ps) 0 s, 0 + length s)) by (rewrite words_alloc_same; apply words_alloc_spec; lia).
  rewrite words_alloc_steps by lia. cbn beta iota. cbn [Nat.add].
  rewrite (count_pure _ _ _ _ s).
  - rewrite steps_spend, steps_lift, mk_pattern_steps_cost. lia.
  - rewrite slice_to_ok by (rewrite put_length; lia). f_equal. apply (firstn_put_all _ (ps_chars ps) 0 s). lia.
Qed.

End WithUnicode.
