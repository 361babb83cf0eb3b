(** The parser computes [parse_spec], whatever is in its buffers. *)
From Verif Require Import Prelude Chars Utils Candidate Query Parser Spec PreludeProofs
  CharsProofs.
Local Open Scope nat_scope.

(** ** Writing a run of items into a buffer *)

Definition put {A} (l : list A) (i : nat) (xs : list A) : list A :=
  firstn i l ++ xs ++ skipn (i + length xs) l.

Lemma put_length A (l : list A) i xs : i + length xs <= length l -> length (put l i xs) = length l.
Proof. intros. unfold put. rewrite !app_length, firstn_length, skipn_length. lia. Qed.

Lemma put_nil A (l : list A) i : put l i [] = l.
Proof. unfold put. simpl. rewrite Nat.add_0_r. apply firstn_skipn. Qed.

Lemma firstn_put A (l : list A) i xs :
  i <= length l -> firstn i (put l i xs) = firstn i l.
Proof.
  intros. unfold put. rewrite firstn_app, firstn_firstn, firstn_length.
  replace (i - Nat.min i (length l)) with 0 by lia. rewrite firstn_O, app_nil_r, Nat.min_id.
  reflexivity.
Qed.

Lemma firstn_put_all A (l : list A) i xs :
  i <= length l -> firstn (i + length xs) (put l i xs) = firstn i l ++ xs.
Proof.
  intros. unfold put. rewrite app_assoc.
  replace (i + length xs) with (length (firstn i l ++ xs)) at 1
    by (rewrite app_length, firstn_length; lia).
  rewrite firstn_app, Nat.sub_diag, firstn_all, firstn_O, app_nil_r. reflexivity.
Qed.

Lemma put_put A (l : list A) i xs ys :
  i + length xs + length ys <= length l ->
  put (put l i xs) (i + length xs) ys = put l i (xs ++ ys).
Proof.
  intros. unfold put at 1. rewrite firstn_put_all by lia.
  unfold put. rewrite app_length, <- !app_assoc. do 3 f_equal.
  rewrite !app_assoc, skipn_app.
  rewrite (skipn_all2 (n := _) (firstn i l ++ xs)) by (rewrite app_length, firstn_length; lia).
  simpl. rewrite skipn_skipn. f_equal. rewrite app_length, firstn_length. lia.
Qed.

Lemma slice_put A (l : list A) i xs :
  i + length xs <= length l -> slice (put l i xs) i (i + length xs) = Ok xs.
Proof.
  intros. rewrite slice_ok by (rewrite ?put_length; lia).
  unfold put. replace (i + length xs - i) with (length xs) by lia.
  rewrite skipn_app, skipn_all2 by (rewrite firstn_length; lia).
  rewrite firstn_length. replace (i - Nat.min i (length l)) with 0 by lia. simpl.
  rewrite firstn_app, Nat.sub_diag, firstn_all, firstn_O, app_nil_r. reflexivity.
Qed.

Lemma set_idx_put A (l : list A) i a : i < length l -> set_idx l i a = Ok (put l i [a]).
Proof.
  intros. rewrite set_idx_ok by lia. rewrite upd_firstn_skipn by lia. unfold put. simpl.
  rewrite Nat.add_1_r. reflexivity.
Qed.

Lemma words_alloc_spec buf i s :
  i + length s <= length buf -> words_alloc buf i s = Ok (put buf i s, i + length s).
Proof.
  revert buf i. induction s as [|c s IH]; simpl; intros buf i H.
  - rewrite put_nil, Nat.add_0_r. reflexivity.
  - rewrite set_idx_put by lia. simpl. rewrite IH by (rewrite put_length; simpl; lia).
    change (i + 1) with (i + length [c]). rewrite put_put by (simpl; lia). simpl.
    do 2 f_equal. lia.
Qed.

Lemma words_alloc_panic buf i s :
  length buf < i + length s -> i <= length buf -> words_alloc buf i s = Panic.
Proof.
  revert buf i. induction s as [|c s IH]; simpl; intros buf i H Hi; [lia|].
  destruct (Nat.eq_dec i (length buf)).
  - rewrite set_idx_panic by lia. reflexivity.
  - rewrite set_idx_ok by lia. simpl. apply IH; rewrite length_upd; lia.
Qed.

(** ** Spaces at the byte level *)

Definition no_space (a : str) : Prop := Forall (fun c => c <> SPACE) a.

Lemma memchr_app n a b : Forall (fun x => x <> n) a ->
  memchr n (a ++ n :: b) = Some (length a).
Proof.
  unfold memchr. induction 1; simpl.
  - rewrite N.eqb_refl. reflexivity.
  - destruct (N.eqb_spec x n); [contradiction|]. rewrite IHForall. reflexivity.
Qed.

Lemma memchr_none n a : Forall (fun x => x <> n) a -> memchr n a = None.
Proof.
  unfold memchr. intros H. apply find_idx_none. intros x Hx. rewrite Forall_forall in H.
  apply H in Hx. apply N.eqb_neq. exact Hx.
Qed.

Lemma encode_char_no n c : (n < 128)%N -> c <> n -> Forall (fun x => x <> n) (encode_char c).
Proof.
  intros Hn Hc. destruct (N.lt_ge_cases c 128).
  - rewrite encode_char_ascii by assumption. repeat constructor. exact Hc.
  - eapply Forall_impl; [|apply encode_char_high; exact H]. simpl. intros. lia.
Qed.

Lemma encode_no n a : (n < 128)%N -> Forall (fun c => c <> n) a -> Forall (fun x => x <> n) (encode a).
Proof.
  intros Hn. induction 1; [constructor|]. rewrite encode_cons. apply Forall_app. split; auto.
  apply encode_char_no; auto.
Qed.

Lemma space_lt : (SPACE < 128)%N. Proof. reflexivity. Qed.

Lemma encode_space_cons b : encode (SPACE :: b) = SPACE :: encode b.
Proof. reflexivity. Qed.

Lemma split_at_space s :
  (exists a b, s = a ++ SPACE :: b /\ no_space a) \/ no_space s.
Proof.
  induction s as [|c s IH]; [right; constructor|].
  destruct (N.eq_dec c SPACE) as [->|Hc].
  - left. exists [], s. split; [reflexivity|constructor].
  - destruct IH as [(a & b & -> & Ha)|H].
    + left. exists (c :: a), b. split; [reflexivity|constructor; auto].
    + right. constructor; auto.
Qed.

Lemma memchr_space a b : no_space a ->
  memchr SPACE (encode (a ++ SPACE :: b)) = Some (byte_len a).
Proof.
  intros H. rewrite encode_app, encode_space_cons, memchr_app.
  - rewrite encode_length. reflexivity.
  - apply encode_no; [reflexivity|exact H].
Qed.

Lemma memchr_no_space a : no_space a -> memchr SPACE (encode a) = None.
Proof. intros H. apply memchr_none, encode_no; [reflexivity|exact H]. Qed.

(** The last byte of a string is a backslash iff its last char is. *)
Lemma last_byte a c r :
  exists x, idx (encode (a ++ [c]) ++ r) (byte_len (a ++ [c]) - 1) = Ok x
            /\ ((x =? BACKSLASH)%N = true <-> c = BACKSLASH).
Proof.
  rewrite encode_app, byte_len_app. simpl byte_len. rewrite Nat.add_0_r.
  assert (E : encode [c] = encode_char c) by (unfold encode; simpl; apply app_nil_r). rewrite E.
  destruct (exists_last (encode_char_nonempty c)) as (i & x & Hx).
  exists x. split.
  - rewrite Hx. rewrite <- !app_assoc. simpl.
    pose proof (encode_char_length c) as L. rewrite Hx, app_length in L. simpl in L.
    replace (byte_len a + len_utf8 c - 1) with (length (encode a ++ i))
      by (rewrite app_length, encode_length; lia).
    unfold idx. rewrite app_assoc, nth_error_app2, Nat.sub_diag by lia. reflexivity.
  - rewrite N.eqb_eq. split.
    + intros ->. destruct (N.lt_ge_cases c 128).
      * rewrite encode_char_ascii in Hx by assumption.
        destruct i; [injection Hx; auto|].
        destruct i; discriminate.
      * apply encode_char_high in H. rewrite Hx in H. apply Forall_app in H.
        destruct H as [_ H]. inversion H. unfold BACKSLASH in *. lia.
    + intros ->. rewrite encode_char_ascii in Hx by reflexivity.
      destruct i; [injection Hx; auto|]. destruct i; discriminate.
Qed.

(** ** Tokens *)

Lemma tokens_cons_lit c d r : c <> SPACE -> d <> SPACE ->
  tokens (c :: d :: r) = Lit c :: tokens (d :: r).
Proof.
  intros Hc Hd. cbn [tokens]. apply N.eqb_neq in Hc, Hd. unfold SPACE in *. rewrite Hc, Hd.
  rewrite andb_false_r. reflexivity.
Qed.

Lemma tokens_app_escape a b : no_space a ->
  tokens (a ++ BACKSLASH :: SPACE :: b) = map Lit a ++ Lit SPACE :: tokens b.
Proof.
  induction 1 as [|c a Hc Ha IH]; [reflexivity|]. cbn [app map]. rewrite <- IH.
  destruct Ha as [|d a Hd Ha]; cbn [app].
  - rewrite tokens_cons_lit; [reflexivity|assumption|discriminate].
  - apply tokens_cons_lit; assumption.
Qed.

Lemma tokens_app_space a c b : no_space (a ++ [c]) -> c <> BACKSLASH ->
  tokens ((a ++ [c]) ++ SPACE :: b) = map Lit (a ++ [c]) ++ Sep :: tokens b.
Proof.
  intros H Hc. apply Forall_app in H. destruct H as [Ha Hc'].
  inversion Hc' as [|? ? Hc'' _]; subst. rewrite map_app, <- !app_assoc. cbn [app map].
  induction Ha as [|d a Hd Ha IH]; cbn [app map].
  - cbn [tokens]. apply N.eqb_neq in Hc, Hc''. unfold SPACE, BACKSLASH in *.
    rewrite Hc'', Hc. reflexivity.
  - rewrite <- IH.
    destruct Ha as [|e a He Ha]; cbn [app]; apply tokens_cons_lit; assumption.
Qed.

Lemma tokens_no_space a : no_space a -> tokens a = map Lit a.
Proof.
  induction 1 as [|c a Hc Ha IH]; [reflexivity|]. cbn [map]. rewrite <- IH.
  destruct Ha as [|d a Hd Ha].
  - cbn [tokens]. apply N.eqb_neq in Hc. unfold SPACE in *. rewrite Hc. reflexivity.
  - apply tokens_cons_lit; assumption.
Qed.

(** ** Words *)

Definition word_end (rest : str) : Prop :=
  match rest with [] => True | c :: _ => c = SPACE end.

Lemma byte_len_nonzero a : a <> [] -> exists n, byte_len a = S n.
Proof.
  destruct a as [|c a]; [congruence|]. intros _. rewrite byte_len_cons.
  pose proof (len_utf8_pos c). exists (len_utf8 c + byte_len a - 1). lia.
Qed.

Lemma words_next_loop_spec fuel : forall s buf i wbe,
  length s < fuel -> i + length s <= length buf ->
  exists w used rest,
    words_next_loop fuel buf i (encode s) wbe
    = Ok (put buf i w, i + length w, wbe + byte_len used)
    /\ s = used ++ rest /\ word_end rest
    /\ tokens s = map Lit w ++ tokens rest
    /\ length w <= length used.
Proof.
  induction fuel as [|fuel IH]; intros s buf i wbe Hf Hb; [lia|].
  cbn [words_next_loop].
  destruct (split_at_space s) as [(a & b & -> & Ha)|Hs].
  - rewrite memchr_space by exact Ha.
    destruct (list_eq_dec N.eq_dec a []) as [->|Hne].
    + cbn [byte_len fold_right]. exists [], [], (SPACE :: b). cbn [length app byte_len fold_right].
      rewrite put_nil, !Nat.add_0_r. repeat split; auto.
    + destruct (byte_len_nonzero a Hne) as [n Hn]. rewrite Hn.
      destruct (exists_last Hne) as (a0 & c & ->).
      destruct (last_byte a0 c (encode (SPACE :: b))) as (x & Hx & Hxc).
      rewrite <- encode_app in Hx. rewrite Hn in Hx. cbn [Nat.sub] in Hx. rewrite Nat.sub_0_r in Hx.
      rewrite Hx. cbn [bind].
      destruct (x =? BACKSLASH)%N eqn:E.
      * assert (c = BACKSLASH) by (apply Hxc; reflexivity). subst c. clear Hxc.
        rewrite byte_len_app in Hn. cbn in Hn. assert (n = byte_len a0) by lia. subst n.
        rewrite <- app_assoc. cbn [app]. rewrite str_to_encode. cbn [bind].
        rewrite decode_encode.
        rewrite !app_length in *. cbn [length] in *.
        rewrite words_alloc_spec by lia. cbn [bind].
        rewrite words_alloc_spec by (rewrite put_length; cbn [length]; lia). cbn [bind].
        rewrite put_put by (cbn [length]; lia).
        replace (S (byte_len a0) + 1) with (byte_len (a0 ++ [BACKSLASH; SPACE]))
          by (rewrite byte_len_app; cbn; lia).
        replace (a0 ++ BACKSLASH :: SPACE :: b) with ((a0 ++ [BACKSLASH; SPACE]) ++ b)
          by (rewrite <- app_assoc; reflexivity).
        rewrite str_from_encode. cbn [bind].
        destruct (IH b (put buf i (a0 ++ [SPACE])) (i + length a0 + length [SPACE])
                    (wbe + byte_len (a0 ++ [BACKSLASH; SPACE])))
          as (w & used & rest & Hw & -> & Hr & Ht & Hl).
        { lia. }
        { rewrite put_length; rewrite ?app_length; cbn [length]; lia. }
        exists (a0 ++ SPACE :: w), ((a0 ++ [BACKSLASH; SPACE]) ++ used), rest.
        rewrite Hw. split; [|split; [|split; [|split]]].
        -- replace (i + length a0 + length [SPACE]) with (i + length (a0 ++ [SPACE]))
             by (rewrite app_length; lia).
           rewrite put_put.
           2:{ rewrite !app_length in *. cbn [length] in *. lia. }
           rewrite <- app_assoc. cbn [app]. rewrite !byte_len_app. f_equal. f_equal; [f_equal|].
           ++ rewrite !app_length. cbn [length]. lia.
           ++ lia.
        -- rewrite !app_assoc. reflexivity.
        -- exact Hr.
        -- rewrite <- app_assoc. cbn [app]. apply Forall_app in Ha. rewrite tokens_app_escape by apply Ha.
           rewrite Ht, map_app, <- app_assoc. reflexivity.
        -- rewrite !app_length. cbn [length]. lia.
      * assert (Hc : c <> BACKSLASH) by (intros ->; destruct Hxc as [_ Hxc]; specialize (Hxc eq_refl); congruence).
        rewrite <- Hn. rewrite str_to_encode. cbn [bind]. rewrite decode_encode.
        rewrite app_length in Hb. rewrite words_alloc_spec by lia. cbn [bind].
        exists (a0 ++ [c]), (a0 ++ [c]), (SPACE :: b). rewrite encode_length.
        split; [reflexivity|]. split; [reflexivity|]. split; [reflexivity|].
        split; [|lia]. rewrite tokens_app_space; auto.
  - rewrite memchr_no_space by exact Hs. rewrite decode_encode.
    rewrite words_alloc_spec by lia. cbn [bind]. rewrite encode_length.
    exists s, s, []. rewrite app_nil_r. repeat split; auto.
    rewrite tokens_no_space by exact Hs. cbn. rewrite app_nil_r. reflexivity.
Qed.

(** Without leading spaces. *)
Definition stripped (s : str) : Prop :=
  match s with [] => True | c :: _ => c <> SPACE end.

Lemma strip_spec s :
  exists n s', s = repeat SPACE n ++ s' /\ stripped s'
               /\ strip_leading_spaces (encode s) = Ok (encode s').
Proof.
  assert (G : exists n s', s = repeat SPACE n ++ s' /\ stripped s' /\ leading_spaces (encode s) = n).
  { induction s as [|c s IH]; [exists 0, []; repeat split; auto|].
    destruct (N.eq_dec c SPACE) as [->|Hc].
    - destruct IH as (n & s' & -> & Hs & Hn). exists (S n), s'. repeat split; auto.
      rewrite encode_space_cons. unfold leading_spaces in *. cbn [count_while]. rewrite N.eqb_refl.
      rewrite Hn. reflexivity.
    - exists 0, (c :: s). repeat split; auto. rewrite encode_cons.
      destruct (encode_char c) as [|x r] eqn:E; [apply encode_char_nonempty in E; contradiction|].
      pose proof (encode_char_no SPACE c space_lt Hc) as H. rewrite E in H. inversion H; subst.
      unfold leading_spaces. cbn [app count_while]. apply N.eqb_neq in H2. rewrite H2. reflexivity. }
  destruct G as (n & s' & -> & Hs & Hn). exists n, s'. repeat split; auto.
  unfold strip_leading_spaces. rewrite Hn.
  replace n with (byte_len (repeat SPACE n)) at 2.
  - apply str_from_encode.
  - clear. induction n; [reflexivity|]. cbn [repeat]. rewrite byte_len_cons, IHn. reflexivity.
Qed.

Lemma words_of_spaces n s : words_of (repeat SPACE n ++ s) = words_of s.
Proof. induction n; [reflexivity|]. cbn [repeat app]. exact IHn. Qed.

Lemma split_nonempty l : split l <> [].
Proof. destruct l as [|[c|] l]; simpl; try discriminate. destruct (split l); discriminate. Qed.

Lemma split_lits w l :
  split (map Lit w ++ l) = match split l with x :: r => (w ++ x) :: r | [] => [w] end.
Proof.
  induction w as [|c w IH]; simpl.
  - destruct (split l) eqn:E; [destruct (split_nonempty _ E)|reflexivity].
  - rewrite IH. destruct (split l); reflexivity.
Qed.

Lemma words_of_word s w rest :
  tokens s = map Lit w ++ tokens rest -> word_end rest ->
  words_of s = if nonempty w then w :: words_of rest else words_of rest.
Proof.
  intros Ht Hr. unfold words_of. rewrite Ht, split_lits.
  destruct rest as [|c r].
  - simpl. rewrite app_nil_r. destruct (nonempty w); reflexivity.
  - simpl in Hr. subst c. cbn [tokens]. rewrite N.eqb_refl. cbn [split filter nonempty].
    rewrite app_nil_r. destruct (nonempty w); reflexivity.
Qed.

Lemma tokens_lits_nonempty s w rest :
  s <> [] -> stripped s -> tokens s = map Lit w ++ tokens rest -> word_end rest -> nonempty w = true.
Proof.
  intros Hs Hst Ht Hr. destruct w; [|reflexivity]. exfalso. simpl in Ht.
  assert (H : exists c l, tokens s = Lit c :: l).
  { destruct s as [|c s]; [congruence|]. simpl in Hst. cbn [tokens].
    apply N.eqb_neq in Hst. unfold SPACE in Hst. rewrite Hst. destruct s as [|d s]; [eauto|].
    destruct (_ && _); eauto. }
  destruct H as (c & l & H). rewrite H in Ht.
  destruct rest as [|d r]; [discriminate|]. simpl in Hr. subst d. discriminate.
Qed.

(** [w] is about to yield the words [ws], which contain [n] more chars at most. *)
Definition wrep (w : words) (ws : list str) : Prop :=
  exists s, w_s w = encode s /\ stripped s /\ words_of s = ws
            /\ w_allocated w + length s <= length (w_buf w).

Lemma words_count_aux n : forall s, length s <= n -> stripped s ->
  2 * length (words_of s) <= length s + 1.
Proof.
  induction n as [|n IH]; intros s Hn Hs.
  - destruct s; [simpl; lia|simpl in Hn; lia].
  - destruct s as [|c0 s0] eqn:E; [simpl; lia|]. rewrite <- E in *.
    destruct (words_next_loop_spec (S (length s)) s (repeat 0%N (length s)) 0 0)
      as (w & used & rest & _ & Hur & Hr & Ht & Hl).
    { lia. } { rewrite repeat_length. lia. }
    rewrite (words_of_word _ _ _ Ht Hr).
    assert (Hw : nonempty w = true) by (eapply tokens_lits_nonempty; eauto; congruence).
    rewrite Hw. destruct (strip_spec rest) as (k & s' & Hk & Hs' & _).
    rewrite Hk, words_of_spaces.
    assert (Hlen : length s = length used + (k + length s')).
    { rewrite Hur, Hk, !app_length, repeat_length. reflexivity. }
    assert (1 <= length w) by (destruct w; [discriminate|simpl; lia]).
    cbn [length]. destruct s' as [|d s'].
    + cbn. lia.
    + assert (1 <= k).
      { destruct k; [|lia]. simpl in Hk. subst rest. simpl in Hr, Hs'. contradiction. }
      assert (2 * length (words_of (d :: s')) <= length (d :: s') + 1).
      { apply IH; auto. lia. }
      lia.
Qed.

Lemma words_count s : stripped s -> 2 * length (words_of s) <= length s + 1.
Proof. intros. apply words_count_aux with (n := length s); auto. Qed.

Lemma wrep_fuel w ws : wrep w ws -> length ws <= length (w_s w).
Proof.
  intros (s & Hs & Hst & <- & _). rewrite Hs, encode_length.
  pose proof (words_count s Hst). pose proof (length_le_byte_len s).
  destruct s; [simpl; lia|]. simpl length in *. lia.
Qed.

Lemma words_next_spec w ws : wrep w ws ->
  match ws with
  | [] => words_next w = Ok (None, w)
  | x :: ws' => exists w', words_next w = Ok (Some x, w') /\ wrep w' ws' /\ x <> []
      /\ w_buf w' = put (w_buf w) (w_allocated w) x
      /\ w_allocated w' = w_allocated w + length x
      /\ w_allocated w' <= length (w_buf w)
  end.
Proof.
  intros (s & Hs & Hst & Hws & Hb).
  destruct s as [|c0 s0] eqn:E.
  - simpl in Hws. subst ws. unfold words_next. rewrite Hs. reflexivity.
  - rewrite <- E in *. assert (Hne : s <> []) by congruence. clear E.
    destruct (words_next_loop_spec (S (length (w_s w))) s (w_buf w) (w_allocated w) 0)
      as (x & used & rest & Hloop & Hur & Hr & Ht & Hl).
    { rewrite Hs, encode_length. pose proof (length_le_byte_len s). lia. }
    { exact Hb. }
    rewrite (words_of_word _ _ _ Ht Hr) in Hws.
    assert (Hx : nonempty x = true) by (eapply tokens_lits_nonempty; eauto).
    rewrite Hx in Hws. destruct (strip_spec rest) as (k & s' & Hk & Hs' & Hstrip).
    subst ws. unfold words_next. rewrite <- Hs in Hloop.
    destruct (w_s w) as [|b0 bs] eqn:Eb.
    { symmetry in Hs. apply (proj1 (encode_nil_iff s)) in Hs. contradiction. }
    rewrite <- Eb in *. clear Eb. rewrite Hloop. cbn [bind].
    rewrite Hs, Hur. cbn [Nat.add]. rewrite str_from_encode. cbn [bind]. rewrite Hstrip. cbn [bind].
    assert (Hlen : length s = length used + (k + length s')).
    { rewrite Hur, Hk, !app_length, repeat_length. reflexivity. }
    rewrite slice_put by lia. cbn [bind]. eexists. split; [reflexivity|]. split; [|split].
    + exists s'. cbn [w_s w_allocated w_buf]. repeat split; auto.
      * rewrite Hk, words_of_spaces. reflexivity.
      * rewrite put_length; lia.
    + intros ->. discriminate.
    + cbn [w_s w_allocated w_buf]. repeat split; auto. lia.
Qed.

(** ** Patterns *)
Section WithUnicode.
Context {UC : unicode}.

Definition mt_of (k : kind) : match_type :=
  match k with
  | KFuzzy => Fuzzy
  | KExact => Exact
  | KPrefix => PrefixExact
  | KSuffix => SuffixExact
  | KEqual => EqualExact
  end.

Definition pat_of (t : term) : pattern :=
  mk_pattern (t_text t) (mt_of (t_kind t)) (t_neg t).

Lemma ends_with_last t c :
  t <> [] -> ends_with t c = (last t 0 =? c)%N.
Proof.
  intros H. destruct (exists_last H) as (l & x & ->). unfold ends_with.
  rewrite rev_app_distr, last_last. reflexivity.
Qed.

Lemma pattern_parse_spec w : w <> [] ->
  pattern_parse w = Ok (option_map pat_of (term_of w)).
Proof.
  intros Hw. unfold pattern_parse, term_of.
  destruct w as [|c0 r0]; [congruence|]. cbn [negb assert_ bind].
  (* ! *)
  assert (H1 : (if starts_with (c0 :: r0) 33
                then let* t := slice_from (c0 :: r0) 1 in Ok (true, Exact, t)
                else Ok (false, Fuzzy, c0 :: r0))
               = let (neg, w) := bang (c0 :: r0) in
                 Ok (neg, if neg then Exact else Fuzzy, w)).
  { unfold bang. cbn [starts_with]. destruct (c0 =? 33)%N; reflexivity. }
  rewrite H1. destruct (bang (c0 :: r0)) as [neg w1]. cbn [bind].
  (* $ *)
  assert (H2 : forall mt, (if ends_with w1 36 && (1 <? length w1)
                then let* n := usub (length w1) 1 in
                     let* t := slice_to w1 n in Ok (SuffixExact, t)
                else Ok (mt, w1))
               = let (d, w) := dollar w1 in Ok (if d then SuffixExact else mt, w)).
  { intros mt. destruct w1 as [|x [|y w1]].
    - reflexivity.
    - simpl. rewrite andb_false_r. reflexivity.
    - rewrite ends_with_last by discriminate. unfold dollar.
      destruct (last (x :: y :: w1) 0 =? 36)%N; [|reflexivity].
      cbn [andb]. destruct (Nat.ltb_spec 1 (length (x :: y :: w1))); [|simpl in *; lia].
      rewrite usub_ok by (simpl; lia). cbn [bind]. rewrite slice_to_ok by lia. cbn [bind].
      rewrite removelast_firstn_len. rewrite Nat.sub_1_r. reflexivity. }
  rewrite H2. destruct (dollar w1) as [d w2]. cbn [bind].
  (* opening *)
  destruct w2 as [|c r]; [reflexivity|]. cbn [starts_with open_sigil].
  destruct (c =? 39)%N.
  { rewrite slice_from_ok by (simpl; lia). cbn [bind skipn].
    destruct r; [reflexivity|]. destruct neg, d; reflexivity. }
  destruct (c =? 94)%N.
  { rewrite slice_from_ok by (simpl; lia). cbn [bind skipn].
    destruct r; [reflexivity|]. destruct neg, d; reflexivity. }
  cbn [bind]. destruct neg, d; reflexivity.
Qed.

(** What one call of Patterns::next gathers from the words. *)
Fixpoint gather (looking : bool) (ws : list str) : list term * option term * list str :=
  match ws with
  | [] => ([], None, [])
  | w :: ws' =>
      if is_bar w then gather false ws'
      else
        match term_of w with
        | None => gather looking ws'
        | Some t =>
            if looking then ([], Some t, ws')
            else let '(ts, n, r) := gather true ws' in (t :: ts, n, r)
        end
  end.

Lemma gather_spec looking ws :
  let '(ts, n, ws') := gather looking ws in
  marked_terms (negb looking) ws
  = map (pair true) ts ++ match n with None => [] | Some t => (false, t) :: marked_terms false ws' end
  /\ length ts + (if n then 1 else 0) + length ws' <= length ws
  /\ (n = None -> ws' = []).
Proof.
  revert looking. induction ws as [|w ws IH]; intros looking; cbn [gather marked_terms].
  - auto.
  - destruct (is_bar w).
    { specialize (IH false). destruct (gather false ws) as [[ts n] r]. cbn [length]. intuition lia. }
    destruct (term_of w) as [t|].
    + destruct looking; cbn [negb].
      * cbn [length map app]. split; [reflexivity|]. split; [lia|discriminate].
      * specialize (IH true). destruct (gather true ws) as [[ts n] r].
        destruct IH as (H1 & H2 & H3). cbn [negb] in H1. rewrite H1.
        cbn [length map app]. split; [reflexivity|]. split; [lia|exact H3].
    + specialize (IH looking). destruct (gather looking ws) as [[ts n] r]. cbn [length].
      intuition lia.
Qed.

Lemma is_or_separator_bar w : is_or_separator w = is_bar w.
Proof. reflexivity. Qed.

(** From [w], which is about to yield [ws], to [w'], which is about to yield [ws']: the words
    in between have been appended to the used part of the character buffer. *)
Definition wkept (w : words) (ws : list str) (w' : words) (ws' : list str) : Prop :=
  exists mid, ws = mid ++ ws'
    /\ firstn (w_allocated w') (w_buf w') = firstn (w_allocated w) (w_buf w) ++ concat mid
    /\ length (w_buf w') = length (w_buf w).

Lemma wkept_trans a wa b wb c wc : wkept a wa b wb -> wkept b wb c wc -> wkept a wa c wc.
Proof.
  intros (m & -> & H1 & H2) (m' & -> & H3 & H4). exists (m ++ m').
  rewrite concat_app, !app_assoc, <- H1, <- H3. repeat split; congruence.
Qed.

Lemma wkept_refl w ws : wkept w ws w ws.
Proof. exists []. simpl. rewrite app_nil_r. auto. Qed.

Lemma patterns_next_loop_spec fuel : forall p ws looking,
  length ws < fuel -> wrep (pt_words p) ws ->
  pt_allocated p + length ws <= length (pt_buf p) ->
  let '(ts, n, ws') := gather looking ws in
  exists w', patterns_next_loop fuel p looking
    = Ok (MkPatterns (put (pt_buf p) (pt_allocated p) (map pat_of ts))
            (pt_allocated p + length ts) w'
            (match n with Some t => Some (pat_of t) | None => pt_next p end))
    /\ wrep w' ws' /\ wkept (pt_words p) ws w' ws'.
Proof.
  induction fuel as [|fuel IH]; intros p ws looking Hf Hw Hb; [lia|].
  cbn [patterns_next_loop]. pose proof (words_next_spec _ _ Hw) as Hn.
  destruct ws as [|x ws].
  - rewrite Hn. cbn [bind gather]. exists (pt_words p). cbn [map].
    rewrite put_nil, Nat.add_0_r. split; [reflexivity|]. split; [exact Hw|apply wkept_refl].
  - destruct Hn as (w' & Hn & Hw' & Hx & Hbuf & Hal & Hal'). rewrite Hn. cbn [bind gather].
    assert (Hk : wkept (pt_words p) (x :: ws) w' ws).
    { exists [x]. rewrite Hbuf, Hal. simpl concat. rewrite app_nil_r.
      split; [reflexivity|]. split; [apply firstn_put_all; lia|apply put_length; lia]. }
    cbn [length] in *. change (is_or_separator x) with (is_bar x). destruct (is_bar x); cbn [negb].
    + specialize (IH (MkPatterns (pt_buf p) (pt_allocated p) w' (pt_next p)) ws false).
      cbn [pt_words pt_allocated pt_buf pt_next] in IH.
      destruct (gather false ws) as [[ts n] r]. destruct IH as (w'' & H1 & H2 & H3); auto; try lia.
      exists w''. split; [exact H1|]. split; [exact H2|]. eapply wkept_trans; eauto.
    + rewrite pattern_parse_spec by exact Hx. cbn [bind].
      destruct (term_of x) as [t|]; cbn [option_map].
      * destruct looking.
        -- exists w'. cbn [map length pt_buf pt_allocated pt_words]. rewrite put_nil, Nat.add_0_r.
           split; [reflexivity|]. split; assumption.
        -- unfold patterns_alloc. cbn [pt_buf pt_allocated pt_words pt_next].
           rewrite set_idx_put by lia. cbn [bind].
           specialize (IH (MkPatterns (put (pt_buf p) (pt_allocated p) [pat_of t])
                             (pt_allocated p + 1) w' (pt_next p)) ws true).
           cbn [pt_words pt_allocated pt_buf pt_next] in IH.
           assert (Hts : let '(ts, n, ws') := gather true ws in length ts <= length ws).
           { pose proof (gather_spec true ws) as G. destruct (gather true ws) as [[ts n] r].
             destruct G as (_ & G & _). lia. }
           destruct (gather true ws) as [[ts n] r]. destruct IH as (w'' & H1 & H2 & H3); auto; try lia.
           { rewrite put_length by (cbn [length]; lia). lia. }
           exists w''. rewrite H1. split; [|split; [exact H2|eapply wkept_trans; eauto]].
           f_equal. cbn [map length]. f_equal; [|lia].
           change (pt_allocated p + 1) with (pt_allocated p + length [pat_of t]).
           rewrite put_put; [reflexivity|]. cbn [length]. rewrite map_length. lia.
      * specialize (IH (MkPatterns (pt_buf p) (pt_allocated p) w' (pt_next p)) ws looking).
        cbn [pt_words pt_allocated pt_buf pt_next] in IH.
        destruct (gather looking ws) as [[ts n] r]. destruct IH as (w'' & H1 & H2 & H3); auto; try lia.
        exists w''. split; [exact H1|]. split; [exact H2|]. eapply wkept_trans; eauto.
Qed.

(** The marked terms still to come. At the beginning the flag of the first one is irrelevant. *)
Definition prep (p : patterns) (ws : list str) (m : list (bool * term)) : Prop :=
  wrep (pt_words p) ws
  /\ match pt_next p with
     | None => m = marked_terms true ws
     | Some pat => exists t, pat = pat_of t /\ m = (false, t) :: marked_terms false ws
     end
  /\ pt_allocated p + length ws + (if pt_next p then 1 else 0) <= length (pt_buf p).

Fixpoint take_bars (m : list (bool * term)) : list term * list (bool * term) :=
  match m with
  | (true, t) :: m' => let (ts, r) := take_bars m' in (t :: ts, r)
  | _ => ([], m)
  end.

Lemma take_bars_app ts r :
  match r with (true, _) :: _ => False | _ => True end ->
  take_bars (map (pair true) ts ++ r) = (ts, r).
Proof.
  intros H. induction ts as [|t ts IH]; cbn [map app take_bars].
  - destruct r as [|[[|] x] r]; [reflexivity|contradiction|reflexivity].
  - rewrite IH. reflexivity.
Qed.

Lemma join_bars_true f t u m :
  join_bars ((f, t) :: (true, u) :: m)
  = match join_bars ((true, u) :: m) with g :: gs => (t :: g) :: gs | [] => [[t]] end.
Proof. reflexivity. Qed.

Lemma join_bars_cons f t m :
  join_bars ((f, t) :: m) = (t :: fst (take_bars m)) :: join_bars (snd (take_bars m)).
Proof.
  revert f t. induction m as [|[[|] u] m IH]; intros f t.
  - reflexivity.
  - rewrite join_bars_true, IH. cbn [take_bars]. destruct (take_bars m). reflexivity.
  - reflexivity.
Qed.

Lemma take_bars_length m :
  length (snd (take_bars m)) + length (fst (take_bars m)) = length m.
Proof.
  induction m as [|[[|] t] m IH]; simpl; auto.
  destruct (take_bars m); simpl in *. lia.
Qed.

Lemma take_bars_head_false m :
  match snd (take_bars m) with (true, _) :: _ => False | _ => True end.
Proof.
  induction m as [|[[|] t] m IH]; simpl; auto. destruct (take_bars m). exact IH.
Qed.

Lemma marked_true_head ws :
  match marked_terms true ws with (false, _) :: _ => False | _ => True end.
Proof.
  induction ws as [|w ws IH]; simpl; auto. destruct (is_bar w); auto.
  destruct (term_of w); auto.
Qed.

Lemma patterns_next_spec p ws m : prep p ws m ->
  match m with
  | [] => exists p' ws', patterns_next p = Ok (None, p') /\ ws' = [] /\ pt_buf p' = pt_buf p
                     /\ pt_allocated p' = pt_allocated p
                     /\ wkept (pt_words p) ws (pt_words p') ws'
  | (_, t) :: m' => exists p' ws', patterns_next p = Ok (Some (map pat_of (t :: fst (take_bars m'))), p')
      /\ prep p' ws' (snd (take_bars m'))
      /\ pt_buf p' = put (pt_buf p) (pt_allocated p) (map pat_of (t :: fst (take_bars m')))
      /\ pt_allocated p' = pt_allocated p + length (t :: fst (take_bars m'))
      /\ pt_allocated p' <= length (pt_buf p)
      /\ wkept (pt_words p) ws (pt_words p') ws'
  end.
Proof.
  intros (Hw & Hm & Hb). unfold patterns_next.
  destruct (pt_next p) as [pat|] eqn:En.
  - destruct Hm as (t & -> & ->).
    unfold patterns_alloc. cbn [pt_buf pt_allocated pt_words pt_next].
    rewrite set_idx_put by lia. cbn [bind].
    pose proof (patterns_next_loop_spec (S (length (w_s (pt_words p))))
                  (MkPatterns (put (pt_buf p) (pt_allocated p) [pat_of t]) (pt_allocated p + 1)
                     (pt_words p) None) ws true) as L.
    cbn [pt_words pt_allocated pt_buf pt_next] in *.
    pose proof (gather_spec true ws) as G. cbn [negb] in G.
    destruct (gather true ws) as [[ts n] ws'].
    destruct L as (w' & L & Hw' & Hk).
    { apply wrep_fuel in Hw. lia. } { exact Hw. } { rewrite put_length by (cbn; lia). lia. }
    rewrite L. cbn [bind pt_allocated pt_buf].
    destruct G as (G1 & G2 & G3).
    assert (T : take_bars (marked_terms false ws)
                = (ts, match n with None => [] | Some t => (false, t) :: marked_terms false ws' end)).
    { rewrite G1. apply take_bars_app. destruct n; exact I. }
    rewrite T. cbn [fst snd].
    destruct (Nat.eqb_spec (pt_allocated p + 1 + length ts) (pt_allocated p)); [lia|].
    change (pt_allocated p + 1) with (pt_allocated p + length [pat_of t]).
    rewrite put_put by (rewrite map_length; cbn [length]; destruct n; lia).
    replace (pt_allocated p + length [pat_of t] + length ts)
      with (pt_allocated p + length (map pat_of (t :: ts)))
      by (rewrite map_length; cbn [length]; lia).
    rewrite slice_put by (rewrite map_length; cbn [length]; destruct n; lia). cbn [bind].
    eexists. exists ws'. split; [reflexivity|]. cbn [pt_words pt_allocated pt_buf pt_next].
    split; [|rewrite map_length; cbn [length]; repeat split; auto; try apply Hk; destruct n; lia].
    unfold prep. cbn [pt_words pt_allocated pt_buf pt_next].
    split; [exact Hw'|]. split.
    + destruct n as [u|]; [exists u; auto|]. rewrite G3 by reflexivity. reflexivity.
    + rewrite put_length; repeat (rewrite ?app_length, ?map_length; cbn [length app map]); destruct n; lia.
  - subst m. cbn [bind].
    pose proof (patterns_next_loop_spec (S (length (w_s (pt_words p)))) p ws false) as L.
    pose proof (gather_spec false ws) as G. cbn [negb] in G.
    destruct (gather false ws) as [[ts n] ws'].
    destruct L as (w' & L & Hw' & Hk).
    { apply wrep_fuel in Hw. lia. } { exact Hw. } { lia. }
    rewrite L, En. cbn [bind pt_allocated pt_buf].
    destruct G as (G1 & G2 & G3). rewrite G1.
    pose proof (marked_true_head ws) as MH. rewrite G1 in MH.
    destruct ts as [|t ts].
    + cbn [map app] in *. destruct n as [u|]; [contradiction|].
      cbn [length]. rewrite Nat.add_0_r, Nat.eqb_refl.
      eexists. exists ws'. split; [reflexivity|]. cbn [pt_buf pt_allocated pt_words].
      rewrite put_nil. auto 6.
    + cbn [map app].
      rewrite take_bars_app by (destruct n; exact I). cbn [fst snd].
      destruct (Nat.eqb_spec (pt_allocated p + length (t :: ts)) (pt_allocated p));
        [cbn [length] in *; lia|].
      change (pat_of t :: map pat_of ts) with (map pat_of (t :: ts)).
      replace (length (t :: ts)) with (length (map pat_of (t :: ts))) by apply map_length.
      cbn [length] in G2.
      rewrite slice_put by (rewrite map_length; cbn [length]; destruct n; lia). cbn [bind].
      eexists. exists ws'. split; [reflexivity|]. cbn [pt_words pt_allocated pt_buf pt_next].
      split; [|rewrite map_length; cbn [length]; repeat split; auto; try apply Hk; destruct n; lia].
      unfold prep. cbn [pt_words pt_allocated pt_buf pt_next].
      split; [exact Hw'|]. split.
      * destruct n as [u|]; [exists u; auto|]. rewrite G3 by reflexivity. reflexivity.
      * rewrite put_length by (rewrite map_length; cbn [length]; destruct n; lia).
        rewrite map_length. cbn [length]. destruct n; lia.
Qed.

Lemma join_bars_length m : length (join_bars m) <= length m.
Proof.
  assert (G : forall n m, length m <= n -> length (join_bars m) <= length m).
  { induction n as [|n IH]; intros l H.
    - destruct l; [simpl; lia|simpl in H; lia].
    - destruct l as [|[f t] l]; [simpl; lia|]. rewrite join_bars_cons.
      pose proof (take_bars_length l). cbn [length] in *.
      specialize (IH (snd (take_bars l))). lia. }
  apply G with (n := length m). lia.
Qed.

Lemma parse_loop_spec fuel : forall p ws m conds n,
  length m < fuel -> prep p ws m -> n + length m <= length conds ->
  exists p',
    parse_loop fuel p conds n
    = Ok (p', put conds n (map (map pat_of) (join_bars m)), n + length (join_bars m))
    /\ pt_buf p' = put (pt_buf p) (pt_allocated p) (map pat_of (concat (join_bars m)))
    /\ wkept (pt_words p) ws (pt_words p') []
    /\ pt_allocated p + length (concat (join_bars m)) <= length (pt_buf p).
Proof.
  induction fuel as [|fuel IH]; intros p ws m conds n Hf Hp Hc; [lia|].
  cbn [parse_loop]. pose proof (patterns_next_spec _ _ _ Hp) as Hn.
  destruct m as [|[f t] m].
  - destruct Hn as (p' & ws' & Hn & -> & Hb & Ha & Hk). rewrite Hn. cbn [bind].
    exists p'. cbn. rewrite !put_nil, Nat.add_0_r. repeat split; auto.
    destruct Hp as (_ & _ & Hp). lia.
  - destruct Hn as (p' & ws' & Hn & Hp' & Hb & Ha & Ha' & Hk). rewrite Hn. cbn [bind].
    cbn [length] in *. rewrite set_idx_put by lia. cbn [bind].
    pose proof (take_bars_length m).
    destruct (IH p' ws' (snd (take_bars m))
                (put conds n [map pat_of (t :: fst (take_bars m))]) (n + 1))
      as (p'' & H1 & H2 & H3 & H4).
    { lia. } { exact Hp'. } { rewrite put_length by (cbn [length]; lia). lia. }
    exists p''. rewrite join_bars_cons. rewrite H1.
    split; [|split; [|split; [eapply wkept_trans; eauto|]]].
    + f_equal. f_equal; [f_equal|cbn [length]; lia].
      pose proof (join_bars_length (snd (take_bars m))).
      change (n + 1) with (n + length [map pat_of (t :: fst (take_bars m))]).
      rewrite put_put; [reflexivity|]. rewrite map_length. cbn [length]. lia.
    + rewrite H2, Hb, Ha.
      replace (pt_allocated p + S (length (fst (take_bars m))))
        with (pt_allocated p + length (map pat_of (t :: fst (take_bars m))))
        by (rewrite map_length; reflexivity).
      rewrite put_put.
      * cbn [concat]. rewrite map_app. reflexivity.
      * rewrite !map_length in *. cbn [length] in *.
        rewrite Hb in H4. rewrite put_length in H4 by (rewrite map_length; cbn [length]; lia).
        lia.
    + cbn [concat]. rewrite app_length. rewrite Hb in H4.
      rewrite put_length in H4 by (rewrite map_length; cbn [length]; lia). cbn [length] in *. lia.
Qed.

Lemma marked_first_flag ws :
  join_bars (marked_terms true ws) = join_bars (marked_terms false ws).
Proof.
  induction ws as [|w ws IH]; simpl; [reflexivity|].
  destruct (is_bar w); [reflexivity|]. destruct (term_of w); [reflexivity|exact IH].
Qed.

Lemma marked_terms_length b ws : length (marked_terms b ws) <= length ws.
Proof.
  revert b. induction ws as [|w ws IH]; intros b; simpl; [lia|].
  destruct (is_bar w); [specialize (IH true); lia|].
  destruct (term_of w); simpl; [specialize (IH false)|specialize (IH b)]; lia.
Qed.

Lemma join_bars_nonempty m : Forall (fun g => g <> []) (join_bars m).
Proof.
  assert (G : forall n m, length m <= n -> Forall (fun g => g <> []) (join_bars m)).
  { induction n as [|n IH]; intros l H.
    - destruct l; [constructor|simpl in H; lia].
    - destruct l as [|[f t] l]; [constructor|]. rewrite join_bars_cons.
      pose proof (take_bars_length l). cbn [length] in *.
      constructor; [discriminate|]. apply IH. lia. }
  apply G with (n := length m). lia.
Qed.

(** The query built from the conditions. *)
Definition query_of (q : cnf) : query :=
  match q with
  | [[Term neg KFuzzy text]] => NotExtended (pat_of (Term neg KFuzzy text))
  | _ => Extended (map (map pat_of) q)
  end.

Lemma new_extended_spec q :
  Forall (fun g => g <> []) q -> new_extended (map (map pat_of) q) = Ok (query_of q).
Proof.
  intros H. destruct q as [|g [|g' q]]; [reflexivity| |].
  - destruct g as [|[neg k text] [|t' g]].
    + inversion H. congruence.
    + destruct k; reflexivity.
    + cbn [map new_extended query_of]. destruct k; reflexivity.
  - unfold query_of. destruct g as [|[neg [] text] [|t' g]]; reflexivity.
Qed.

Lemma grow_length A (l : list A) n d :
  n <= length (if length l <? n then grow l n d else l).
Proof.
  destruct (Nat.ltb_spec (length l) n); [|lia]. unfold grow.
  rewrite app_length, repeat_length. lia.
Qed.

Lemma grow_length_max A (l : list A) n d :
  length (if length l <? n then grow l n d else l) = Nat.max (length l) n.
Proof.
  destruct (Nat.ltb_spec (length l) n); [|lia]. unfold grow. rewrite app_length, repeat_length. lia.
Qed.

(** parse never panics, its result does not depend on the state of the parser, and at the end
    the buffers still hold what the query refers to. *)
Lemma parse_correct_sized ps q :
  exists ps', parse ps q = Ok (query_of (parse_spec q), ps')
    /\ firstn (length (concat (words_of q))) (ps_chars ps') = concat (words_of q)
    /\ firstn (length (concat (parse_spec q))) (ps_patterns ps')
       = map pat_of (concat (parse_spec q))
    /\ firstn (length (parse_spec q)) (ps_conditions ps') = map (map pat_of) (parse_spec q)
    /\ length (ps_chars ps') = Nat.max (length (ps_chars ps)) (byte_len q)
    /\ length (ps_patterns ps') = Nat.max (length (ps_patterns ps)) (byte_len q / 2 + 1)
    /\ length (ps_conditions ps') = Nat.max (length (ps_conditions ps)) (byte_len q / 2 + 1).
Proof.
  unfold parse.
  pose proof (grow_length _ (ps_chars ps) (length (encode q)) 0%N) as L1.
  pose proof (grow_length _ (ps_conditions ps) (length (encode q) / 2 + 1) []) as L2.
  pose proof (grow_length _ (ps_patterns ps) (length (encode q) / 2 + 1) default_pattern) as L3.
  destruct (strip_spec q) as (k & s & Hq & Hs & Hstrip).
  unfold patterns_new, words_new. rewrite Hstrip. cbn [bind].
  set (chars := if _ <? _ then grow (ps_chars ps) _ _ else _) in *.
  set (conds := if _ <? _ then grow (ps_conditions ps) _ _ else _) in *.
  set (pats := if _ <? _ then grow (ps_patterns ps) _ _ else _) in *.
  assert (Hlen : length s <= length (encode q)).
  { rewrite encode_length. pose proof (length_le_byte_len q).
    assert (length q = k + length s) by (rewrite Hq, app_length, repeat_length; reflexivity). lia. }
  pose proof (words_count s Hs) as Hcount.
  pose proof (marked_terms_length true (words_of s)) as Hm.
  assert (Hdiv : length (words_of s) <= length (encode q) / 2 + 1).
  { pose proof (Nat.div_mod (length (encode q)) 2). pose proof (Nat.mod_upper_bound (length (encode q)) 2).
    lia. }
  assert (Hspec : parse_spec q = join_bars (marked_terms true (words_of s))).
  { unfold parse_spec. rewrite Hq, words_of_spaces. symmetry. apply marked_first_flag. }
  destruct (parse_loop_spec (S (S (length (encode q)))) (MkPatterns pats 0 (MkWords chars 0 (encode s)) None)
              (words_of s) (marked_terms true (words_of s)) conds 0) as (p' & H1 & H2 & H3 & H4).
  { lia. }
  { repeat split; cbn [pt_words pt_next pt_allocated pt_buf].
    - exists s. cbn [w_s w_allocated w_buf]. repeat split; auto. lia.
    - lia. }
  { lia. }
  rewrite H1. cbn [bind Nat.add]. rewrite <- Hspec in *.
  rewrite slice_to_ok.
  2:{ pose proof (join_bars_length (marked_terms true (words_of s))) as J.
      rewrite <- Hspec in J. rewrite put_length; rewrite ?map_length; lia. }
  cbn [bind].
  assert (Hf : firstn (length (parse_spec q)) (put conds 0 (map (map pat_of) (parse_spec q)))
               = map (map pat_of) (parse_spec q)).
  { pose proof (firstn_put_all _ conds 0 (map (map pat_of) (parse_spec q))) as F.
    rewrite map_length in F. apply F. lia. }
  rewrite Hf. rewrite new_extended_spec by (rewrite Hspec; apply join_bars_nonempty). cbn [bind].
  destruct H3 as (read & Hr1 & Hr2 & Hr3). cbn [pt_words w_allocated w_buf firstn app] in *.
  rewrite app_nil_r in Hr1. subst read.
  assert (Hws : words_of q = words_of s) by (rewrite Hq; apply words_of_spaces).
  eexists. split; [reflexivity|]. cbn [ps_chars ps_patterns ps_conditions].
  split; [|split; [|split; [exact Hf|split; [|split]]]].
  - rewrite Hws, <- Hr2. rewrite firstn_length.
    destruct (Nat.le_ge_cases (w_allocated (pt_words p')) (length (w_buf (pt_words p')))).
    + f_equal. lia.
    + rewrite Nat.min_r by lia. rewrite !firstn_all2 by lia. reflexivity.
  - rewrite H2. cbn [pt_buf pt_allocated] in *.
    pose proof (firstn_put_all _ pats 0 (map pat_of (concat (parse_spec q)))) as F.
    rewrite map_length in F. apply F. lia.
  - rewrite Hr3. unfold chars. rewrite <- encode_length. apply grow_length_max.
  - rewrite H2, put_length by (rewrite map_length; lia). rewrite <- encode_length. apply grow_length_max.
  - pose proof (join_bars_length (marked_terms true (words_of s))) as J. rewrite <- Hspec in J.
    rewrite put_length by (rewrite map_length; lia). rewrite <- encode_length. apply grow_length_max.
Qed.

Lemma parse_correct ps q :
  exists ps', parse ps q = Ok (query_of (parse_spec q), ps')
    /\ firstn (length (concat (words_of q))) (ps_chars ps') = concat (words_of q)
    /\ firstn (length (concat (parse_spec q))) (ps_patterns ps')
       = map pat_of (concat (parse_spec q))
    /\ firstn (length (parse_spec q)) (ps_conditions ps') = map (map pat_of) (parse_spec q)
    /\ length (ps_chars ps') = Nat.max (length (ps_chars ps)) (byte_len q).
Proof.
  destruct (parse_correct_sized ps q) as (ps' & H1 & H2 & H3 & H4 & H5 & _). exists ps'. repeat split; assumption.
Qed.

Lemma parse_not_extended_correct ps q :
  parse_not_extended ps q
  = if length q <=? length (ps_chars ps)
    then Ok (NotExtended (pat_of (Term false KFuzzy q)),
             MkParser (put (ps_chars ps) 0 q) (ps_patterns ps) (ps_conditions ps))
    else Panic.
Proof.
  unfold parse_not_extended. destruct (Nat.leb_spec (length q) (length (ps_chars ps))).
  - rewrite words_alloc_spec by lia. cbn [bind Nat.add].
    rewrite slice_to_ok by (rewrite put_length; lia). cbn [bind].
    pose proof (firstn_put_all _ (ps_chars ps) 0 q) as F. cbn [Nat.add] in F. rewrite F by lia.
    reflexivity.
  - rewrite words_alloc_panic by lia. reflexivity.
Qed.

End WithUnicode.
