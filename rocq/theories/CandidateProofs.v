(** The candidate functions in terms of the list of characters of the candidate. *)
From Verif Require Import Prelude Chars Normalize Utils Candidate Spec PreludeProofs CharsProofs
  NormalizeProofs.
Local Open Scope N_scope.

(** The [Ascii] variant holds ASCII bytes only: what fzf.rs:32-40 builds. *)
Definition cand_ok (c : candidate) : Prop :=
  match c with
  | Ascii l => str_is_ascii l = true
  | Unicode _ => True
  end.

Lemma ascii_lt l b : str_is_ascii l = true -> In b l -> b < 128.
Proof.
  unfold str_is_ascii. rewrite forallb_forall. intros H Hb. apply H in Hb.
  unfold is_ascii in Hb. lia.
Qed.

Lemma flip_table :
  forallb (fun n => forallb (fun b =>
    Bool.eqb (same_charb false n b)
      (if negb (is_ascii_alphabetic n) then b =? n
       else (b =? n) || (b =? ascii_letter_flip_case n))) (below 128)) (below 128) = true.
Proof. vm_compute. reflexivity. Qed.

Lemma flip_spec n b : n < 128 -> b < 128 ->
  same_charb false n b
  = (if negb (is_ascii_alphabetic n) then b =? n
     else (b =? n) || (b =? ascii_letter_flip_case n)).
Proof.
  intros Hn Hb. pose proof flip_table as T. rewrite forallb_forall in T.
  specialize (T n (below_in _ _ Hn)). rewrite forallb_forall in T.
  specialize (T b (below_in _ _ Hb)). apply eqb_prop in T. exact T.
Qed.

Section WithEq.
Variables (sens norm : bool).
Let eq := char_eq sens norm.

Lemma eq_ascii q b : b < 128 -> eq q b = same_charb sens q b.
Proof. apply char_eq_ascii. Qed.

Lemma eq_ascii_high q b : 128 <= q -> b < 128 -> eq q b = false.
Proof.
  intros Hq Hb. rewrite eq_ascii by exact Hb. unfold same_charb.
  destruct sens; [lia|]. rewrite (fold_case_high q) by lia.
  pose proof (fold_case_low b). lia.
Qed.

(** The byte test of the memchr family is the character test. *)
Lemma byte_test q b : q < 128 -> b < 128 ->
  (if sens || negb (is_ascii_alphabetic q) then b =? q
   else (b =? q) || (b =? ascii_letter_flip_case q)) = eq q b.
Proof.
  intros Hq Hb. rewrite eq_ascii by exact Hb. destruct sens; simpl.
  - apply N.eqb_sym.
  - symmetry. apply flip_spec; auto.
Qed.

Lemma as_u8_ascii q : q < 128 -> as_u8 q = q.
Proof. intros. apply N.mod_small. lia. Qed.

Lemma find_first_ascii_spec q l : q < 128 -> str_is_ascii l = true ->
  find_first_ascii (as_u8 q) l sens = find_idx (eq q) l.
Proof.
  intros Hq Hl. rewrite as_u8_ascii by exact Hq. unfold find_first_ascii, memchr, memchr2.
  transitivity (find_idx (fun b => if sens || negb (is_ascii_alphabetic q) then b =? q
     else (b =? q) || (b =? ascii_letter_flip_case q)) l).
  - destruct (sens || _); reflexivity.
  - apply find_idx_ext. intros b Hb. apply byte_test; auto. eapply ascii_lt; eauto.
Qed.

Lemma find_last_ascii_spec q l : q < 128 -> str_is_ascii l = true ->
  find_last_ascii (as_u8 q) l sens = find_last_idx (eq q) l.
Proof.
  intros Hq Hl. rewrite as_u8_ascii by exact Hq. unfold find_last_ascii, memrchr, memrchr2.
  transitivity (find_last_idx (fun b => if sens || negb (is_ascii_alphabetic q) then b =? q
     else (b =? q) || (b =? ascii_letter_flip_case q)) l).
  - destruct (sens || _); reflexivity.
  - apply find_last_idx_ext. intros b Hb. apply byte_test; auto. eapply ascii_lt; eauto.
Qed.

Lemma ascii_firstn n l : str_is_ascii l = true -> str_is_ascii (firstn n l) = true.
Proof.
  unfold str_is_ascii. rewrite !forallb_forall. intros H x Hx. apply H.
  rewrite <- (firstn_skipn n l). apply in_or_app. auto.
Qed.

Lemma ascii_skipn n l : str_is_ascii l = true -> str_is_ascii (skipn n l) = true.
Proof.
  unfold str_is_ascii. rewrite !forallb_forall. intros H x Hx. apply H.
  rewrite <- (firstn_skipn n l). apply in_or_app. auto.
Qed.

Lemma high_find_idx q l : 128 <= q -> str_is_ascii l = true -> find_idx (eq q) l = None.
Proof.
  intros Hq Hl. apply find_idx_none. intros b Hb. apply eq_ascii_high; auto.
  eapply ascii_lt; eauto.
Qed.

Lemma high_find_last_idx q l : 128 <= q -> str_is_ascii l = true ->
  find_last_idx (eq q) l = None.
Proof.
  intros Hq Hl. apply find_last_idx_none. intros b Hb. apply eq_ascii_high; auto.
  eapply ascii_lt; eauto.
Qed.

Lemma is_ascii_spec q : is_ascii q = true <-> q < 128.
Proof. unfold is_ascii. lia. Qed.

Lemma find_first_from_spec c off q :
  cand_ok c -> (off <= length (cand_slice c))%nat ->
  find_first_from c off q sens eq
  = Ok (option_map (fun i => (i + off)%nat) (find_idx (eq q) (skipn off (cand_slice c)))).
Proof.
  intros Hc Hoff. destruct c as [l|l]; simpl in *; [|rewrite slice_from_ok by exact Hoff; reflexivity].
  destruct (is_ascii q) eqn:E; unfold is_ascii in E; simpl.
  - rewrite slice_from_ok by exact Hoff. simpl.
    rewrite find_first_ascii_spec; [reflexivity|lia|]. apply ascii_skipn; auto.
  - rewrite high_find_idx; [reflexivity|lia|]. apply ascii_skipn; auto.
Qed.

Lemma find_last_spec c q :
  cand_ok c -> find_last c q sens eq = find_last_idx (eq q) (cand_slice c).
Proof.
  intros Hc. destruct c as [l|l]; simpl in *; [|reflexivity].
  destruct (is_ascii q) eqn:E; unfold is_ascii in E.
  - rewrite find_last_ascii_spec; auto. lia.
  - rewrite high_find_last_idx; auto. lia.
Qed.

Lemma find_last_from_spec c e q :
  cand_ok c -> (e <= length (cand_slice c))%nat ->
  find_last_from c e q sens eq = Ok (find_last_idx (eq q) (firstn e (cand_slice c))).
Proof.
  intros Hc He. destruct c as [l|l]; simpl in *; [|rewrite slice_to_ok by exact He; reflexivity].
  destruct (is_ascii q) eqn:E; unfold is_ascii in E.
  - rewrite slice_to_ok by exact He. simpl. rewrite find_last_ascii_spec; auto; [lia|].
    apply ascii_firstn; auto.
  - rewrite high_find_last_idx; auto; [lia|]. apply ascii_firstn; auto.
Qed.

Lemma all_idx_find_idx A (f : A -> bool) l off :
  all_idx f l off =
  match find_idx f l with
  | None => []
  | Some i => (off + i)%nat :: all_idx f (skipn (i + 1) l) (off + i + 1)%nat
  end.
Proof.
  revert off. induction l as [|x l IH]; intros off; [reflexivity|]. simpl.
  destruct (f x) eqn:E; simpl.
  - f_equal; [lia|]. f_equal. lia.
  - rewrite IH. destruct (find_idx f l) as [i|]; simpl; [|reflexivity].
    f_equal; [lia|]. f_equal. lia.
Qed.

(** The fuel passed by [matches_from_unicode] is enough. *)
Lemma unicode_matches_spec fuel q l e off :
  (length l < fuel)%nat -> unicode_matches fuel q l e off = all_idx (e q) l off.
Proof.
  revert l off. induction fuel as [|fuel IH]; intros l off H; [lia|]. simpl.
  rewrite all_idx_find_idx. change (fun c => e q c) with (e q).
  destruct (find_idx (e q) l) as [i|] eqn:E; [|reflexivity].
  f_equal. apply IH. rewrite skipn_length. apply find_idx_lt in E. lia.
Qed.

Lemma matches_from_unicode_spec q l e off :
  matches_from_unicode q l e off = all_idx (e q) l off.
Proof.
  unfold matches_from_unicode. rewrite unicode_matches_spec by lia.
  rewrite <- all_idx_shift. f_equal. lia.
Qed.

Lemma matches_from_ascii_spec q l off :
  str_is_ascii l = true -> matches_from_ascii q l sens off = all_idx (eq q) l off.
Proof.
  intros Hl. unfold matches_from_ascii.
  destruct (is_ascii q) eqn:E; unfold is_ascii in E; simpl.
  - rewrite as_u8_ascii by lia. unfold memchr_iter, memchr2_iter.
    transitivity (all_idx (fun b => if sens || negb (is_ascii_alphabetic q) then b =? q
       else (b =? q) || (b =? ascii_letter_flip_case q)) l off).
    + destruct (sens || _); rewrite <- all_idx_shift; f_equal; lia.
    + apply all_idx_ext. intros b Hb. apply byte_test; [lia|]. eapply ascii_lt; eauto.
  - rewrite all_idx_false; [reflexivity|]. intros b Hb. apply eq_ascii_high; [lia|].
    eapply ascii_lt; eauto.
Qed.

Lemma cand_matches_spec c q :
  cand_ok c -> cand_matches c q sens eq = all_idx (eq q) (cand_slice c) 0.
Proof.
  destruct c; simpl; intros; [apply matches_from_ascii_spec; auto|apply matches_from_unicode_spec].
Qed.

Lemma cand_matches_from_spec c off q :
  cand_ok c -> (off <= length (cand_slice c))%nat ->
  cand_matches_from c off q sens eq = Ok (all_idx (eq q) (skipn off (cand_slice c)) off).
Proof.
  destruct c; simpl; intros Hc Hoff; rewrite slice_from_ok by exact Hoff; simpl; f_equal.
  - apply matches_from_ascii_spec. apply ascii_skipn; auto.
  - apply matches_from_unicode_spec.
Qed.

End WithEq.

Lemma cand_char_spec c i : cand_char c i = idx (cand_slice c) i.
Proof. destruct c; reflexivity. Qed.

Lemma cand_chars_from_spec c off : cand_chars_from c off = slice_from (cand_slice c) off.
Proof. destruct c; reflexivity. Qed.

Lemma cand_chars_spec c : cand_chars c = Ok (cand_slice c).
Proof. destruct c; reflexivity. Qed.

Lemma cand_char_len_spec c : cand_char_len c = length (cand_slice c).
Proof. destruct c; reflexivity. Qed.

Lemma cand_leading_spaces_spec c :
  cand_leading_spaces c = count_while (fun b => b =? SPACE) (cand_slice c).
Proof. destruct c; reflexivity. Qed.

Lemma cand_trailing_spaces_spec c :
  cand_trailing_spaces c = count_while (fun b => b =? SPACE) (rev (cand_slice c)).
Proof. destruct c; reflexivity. Qed.

Lemma cand_slice_range_spec c a b :
  (a <= b)%nat -> (b <= length (cand_slice c))%nat ->
  cand_slice_range c a b = Ok (cand_with c (firstn (b - a) (skipn a (cand_slice c)))).
Proof. destruct c; simpl; intros; rewrite slice_ok by assumption; reflexivity. Qed.

Lemma cand_slice_with c l : cand_slice (cand_with c l) = l.
Proof. destruct c; reflexivity. Qed.

Lemma cand_ok_with_slice c a n :
  cand_ok c -> cand_ok (cand_with c (firstn n (skipn a (cand_slice c)))).
Proof. destruct c; simpl; auto. intros. apply ascii_firstn, ascii_skipn; auto. Qed.

Lemma to_byte_offset_spec c n :
  cand_ok c -> (n <= length (cand_slice c))%nat ->
  to_byte_offset c n = Ok (byte_len (firstn n (cand_slice c))).
Proof.
  destruct c as [l|l]; simpl; intros Hc Hn.
  - rewrite byte_len_ascii by (apply ascii_firstn; auto). rewrite firstn_length. f_equal. lia.
  - rewrite slice_to_ok by exact Hn. reflexivity.
Qed.

Lemma to_byte_range_spec c a b :
  cand_ok c -> (a <= b)%nat -> (b <= length (cand_slice c))%nat ->
  to_byte_range c a b
  = Ok (byte_len (firstn a (cand_slice c)), byte_len (firstn b (cand_slice c))).
Proof.
  destruct c as [l|l]; simpl; intros Hc Hab Hb.
  - rewrite !byte_len_ascii by (apply ascii_firstn; auto). rewrite !firstn_length.
    do 2 f_equal; lia.
  - rewrite slice_to_ok by exact Hb. simpl. do 2 f_equal.
    + rewrite firstn_firstn. do 2 f_equal. lia.
    + rewrite <- byte_len_app, firstn_skipn. reflexivity.
Qed.
