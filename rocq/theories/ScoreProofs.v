(** compute_score gives the specified score of the leftmost alignment in its window. *)
From Coq Require Import Sorted.
From Verif Require Import Prelude Chars Utils Candidate MatchedRanges Query Scoring Fzf Spec
  PreludeProofs CharsProofs NormalizeProofs CandidateProofs MatchedRangesProofs.
Local Open Scope nat_scope.

Lemma Forall2_imp {A B} (P Q : A -> B -> Prop) l l' :
  (forall a b, P a b -> Q a b) -> Forall2 P l l' -> Forall2 Q l l'.
Proof. intros H F. induction F; constructor; auto. Qed.

(** ** Leftmost alignments *)

Fixpoint greedy (eq : char_eq_fn) (p chars : list char) (k : nat) : option (list nat) :=
  match p with
  | [] => Some []
  | x :: p' =>
      (fix go (chars : list char) (k : nat) : option (list nat) :=
         match chars with
         | [] => None
         | c :: chars' =>
             if eq x c then option_map (cons k) (greedy eq p' chars' (S k))
             else go chars' (S k)
         end) chars k
  end.

Lemma greedy_nil eq chars k : greedy eq [] chars k = Some [].
Proof. destruct chars; reflexivity. Qed.

Lemma greedy_end eq x p k : greedy eq (x :: p) [] k = None.
Proof. reflexivity. Qed.

Lemma greedy_cons eq x p c chars k :
  greedy eq (x :: p) (c :: chars) k
  = if eq x c then option_map (cons k) (greedy eq p chars (S k))
    else greedy eq (x :: p) chars (S k).
Proof. reflexivity. Qed.

(** Positions of [p] in [chars], whose first character has index [k]. *)
Definition aligned (eq : char_eq_fn) (p chars : list char) (k : nat) (ps : list nat) : Prop :=
  StronglySorted lt ps
  /\ Forall2 (fun x j => k <= j /\ exists y, nth_error chars (j - k) = Some y /\ eq x y = true) p ps.

Lemma aligned_shift eq p c chars k ps :
  aligned eq p chars (S k) ps -> aligned eq p (c :: chars) k ps.
Proof.
  intros [Hs H]. split; [exact Hs|]. eapply Forall2_imp; [|exact H].
  intros x j (Hj & y & Hy & He). split; [lia|]. exists y. split; [|exact He].
  replace (j - k) with (S (j - S k)) by lia. exact Hy.
Qed.

Lemma greedy_sound eq p chars k ps :
  greedy eq p chars k = Some ps -> aligned eq p chars k ps.
Proof.
  revert p k ps. induction chars as [|c chars IH]; intros p k ps H.
  - destruct p; [|discriminate]. simpl in H. injection H as <-. split; constructor.
  - destruct p as [|x p]; [injection H as <-; split; constructor|].
    rewrite greedy_cons in H. destruct (eq x c) eqn:E.
    + destruct (greedy eq p chars (S k)) as [qs|] eqn:G; [|discriminate]. injection H as <-.
      apply IH in G as G'. destruct (aligned_shift _ _ c _ _ _ G') as [Hs Hf].
      destruct G' as [_ Hf']. split.
      * constructor; [exact Hs|]. clear - Hf'. induction Hf' as [|? ? ? ? [H _] _ IHf]; constructor.
        -- lia.
        -- exact IHf.
      * constructor; [|exact Hf]. split; [lia|]. exists c. rewrite Nat.sub_diag. auto.
    + apply IH in H. apply aligned_shift. exact H.
Qed.

Lemma aligned_unshift eq p c chars k ps :
  aligned eq p (c :: chars) k ps -> Forall (fun j => k < j) ps -> aligned eq p chars (S k) ps.
Proof.
  intros [Hs H] Hk. split; [exact Hs|]. clear Hs. induction H as [|x j p ps (Hj & y & Hy & He) H IH].
  - constructor.
  - inversion Hk; subst. constructor; [|auto]. split; [lia|]. exists y. split; [|exact He].
    replace (j - k) with (S (j - S k)) in Hy by lia. exact Hy.
Qed.

(** The leftmost alignment exists when there is one, and is pointwise minimal. *)
Lemma greedy_complete eq p chars k qs :
  aligned eq p chars k qs ->
  exists ps, greedy eq p chars k = Some ps /\ Forall2 le ps qs.
Proof.
  revert p k qs. induction chars as [|c chars IH]; intros p k qs H.
  - destruct H as [_ H]. destruct H as [|x j p qs (_ & y & Hy & _) H].
    + exists []. auto.
    + destruct (j - k); discriminate.
  - destruct p as [|x p].
    { exists []. destruct H as [_ H]. inversion H. auto. }
    rewrite greedy_cons. destruct H as [Hs H].
    inversion H as [|? j ? qs' (Hj & y & Hy & He) H']; subst.
    inversion Hs as [|? ? Hs' Hlt]; subst.
    destruct (eq x c) eqn:E.
    + destruct (IH p (S k) qs') as (ps & G & Hle).
      { apply aligned_unshift with (c := c).
        - split; auto.
        - eapply Forall_impl; [|exact Hlt]. simpl. intros. lia. }
      rewrite G. exists (k :: ps). split; [reflexivity|]. constructor; auto.
    + destruct (IH (x :: p) (S k) (j :: qs')) as (ps & G & Hle).
      { apply aligned_unshift with (c := c).
        - split; auto.
        - assert (k <> j).
          { intros ->. rewrite Nat.sub_diag in Hy. injection Hy as ->. congruence. }
          constructor; [lia|]. eapply Forall_impl; [|exact Hlt]. simpl. intros. lia. }
      exists ps. auto.
Qed.

Lemma greedy_ext eq eq' p chars k :
  (forall x c, eq x c = eq' x c) -> greedy eq p chars k = greedy eq' p chars k.
Proof.
  intros E. revert p k. induction chars as [|c chars IH]; intros [|x p] k; try reflexivity.
  rewrite !greedy_cons, E, !IH. reflexivity.
Qed.

Lemma greedy_length eq p chars k ps : greedy eq p chars k = Some ps -> length ps = length p.
Proof.
  intros H. apply greedy_sound in H. destruct H as [_ H]. symmetry. induction H; simpl; auto.
Qed.

(** Extra text after the window does not matter. *)
Lemma greedy_app eq p chars tail k ps :
  greedy eq p chars k = Some ps -> greedy eq p (chars ++ tail) k = Some ps.
Proof.
  revert p k ps. induction chars as [|c chars IH]; intros [|x p] k ps H; try discriminate; auto.
  - cbn [app]. rewrite greedy_cons in *. destruct (eq x c).
    + destruct (greedy eq p chars (S k)) as [qs|] eqn:G; [|discriminate].
      apply IH in G. rewrite G. exact H.
    + apply IH. exact H.
Qed.

(** ** Classes and bonuses *)

Definition place_of_class (c : char_class_t) : place :=
  match c with
  | WhiteSpace => PSpace
  | NonWord => POther
  | Delimiter => PDelim
  | Lower => PLower
  | Upper => PUpper
  | Letter => PLetter
  | Number => PDigit
  end.

Section WithUnicode.
Context {UC : unicode}.

Lemma is_delimiter_spec sch c :
  is_delimiter (into_inner sch) c = existsb (N.eqb c) (delimiters sch).
Proof.
  destruct sch; simpl; unfold is_delimiter_default, is_delimiter_path;
    [| destruct cfg_windows; simpl |]; rewrite ?orb_false_r, ?orb_diag, ?orb_assoc; reflexivity.
Qed.

Lemma char_class_place sch c :
  place_of_class (char_class c (into_inner sch)) = place_of sch c.
Proof.
  unfold char_class, place_of, is_ascii. destruct (N.ltb_spec c 128) as [H|H].
  - unfold ascii_char_class. rewrite is_delimiter_spec.
    unfold is_ascii_lowercase, is_ascii_uppercase, is_ascii_digit.
    destruct ((97 <=? c) && (c <=? 122))%N; [reflexivity|].
    destruct ((65 <=? c) && (c <=? 90))%N; [reflexivity|].
    destruct ((48 <=? c) && (c <=? 57))%N; [reflexivity|].
    replace (is_ascii_whitespace c) with (existsb (N.eqb c) [9; 10; 12; 13; 32]%N).
    + destruct (existsb _ [9; 10; 12; 13; 32]%N); [reflexivity|].
      destruct (existsb _ (delimiters sch)); reflexivity.
    + unfold is_ascii_whitespace. cbn [existsb]. lia.
  - unfold non_ascii_char_class, is_lowercase, is_uppercase, is_numeric, is_alphabetic,
      is_whitespace, is_ascii.
    destruct (N.ltb_spec c 128); [lia|].
    destruct (u_lowercase c); [reflexivity|]. destruct (u_uppercase c); [reflexivity|].
    destruct (u_numeric c); [reflexivity|]. destruct (u_alphabetic c); [reflexivity|].
    destruct (u_whitespace c); [reflexivity|]. rewrite is_delimiter_spec.
    replace (existsb (N.eqb c) (delimiters sch)) with false; [reflexivity|].
    destruct sch; [| cbn [delimiters]; destruct cfg_windows |]; cbn [delimiters existsb]; lia.
Qed.

Lemma initial_class_place sch :
  place_of_class (initial_char_class (into_inner sch)) = before_start sch.
Proof. destruct sch; reflexivity. Qed.

Lemma compute_bonus_points sch a b :
  compute_bonus a b (into_inner sch) = points sch (place_of_class a) (place_of_class b).
Proof. destruct sch, a, b; reflexivity. Qed.

(** The class before position [j]. *)
Definition class_before (sch : fzf_scheme) (l : list char) (j : nat) : char_class_t :=
  match j with
  | O => initial_char_class (into_inner sch)
  | S i => char_class (nth i l 0%N) (into_inner sch)
  end.

Lemma bonus_of_spec sch l j :
  compute_bonus (class_before sch l j) (char_class (nth j l 0%N) (into_inner sch)) (into_inner sch)
  = bonus_of sch l j.
Proof.
  rewrite compute_bonus_points, char_class_place. unfold bonus_of. f_equal.
  destruct j; simpl; [apply initial_class_place|apply char_class_place].
Qed.

Lemma points_bounds sch a b : (0 <= points sch a b <= 10)%Z.
Proof. destruct sch, a, b; simpl; lia. Qed.

Lemma bonus_of_bounds sch l j : (0 <= bonus_of sch l j <= 10)%Z.
Proof. apply points_bounds. Qed.

(** ** Insertions *)

Definition char_range (l : list char) (j : nat) : nat * nat :=
  (byte_len (firstn j l), byte_len (firstn (S j) l)).

Definition inserts (own rs : list (nat * nat)) : list (nat * nat) :=
  fold_left (fun o r => ins o (fst r) (snd r)) rs own.

Lemma inserts_app own rs rs' : inserts own (rs ++ rs') = inserts (inserts own rs) rs'.
Proof. apply fold_left_app. Qed.

Definition proper (rs : list (nat * nat)) : Prop := Forall (fun r => fst r < snd r) rs.

Lemma inserts_chain own rs : proper rs -> chain 0 own -> chain 0 (inserts own rs).
Proof.
  intros H. revert own. induction H as [|r rs Hr H IH]; intros own Ho; [exact Ho|].
  simpl. apply IH. apply ins_chain; auto. lia.
Qed.

Lemma char_range_proper l j : j < length l -> fst (char_range l j) < snd (char_range l j).
Proof. intros. apply byte_len_firstn_lt; lia. Qed.

Lemma char_range_end l j c :
  nth_error l j = Some c ->
  char_range l j = (byte_len (firstn j l), byte_len (firstn j l) + len_utf8 c).
Proof. intros. unfold char_range. rewrite (byte_len_firstn_S _ _ _ H). reflexivity. Qed.

(** ** compute_score *)

Lemma cs_loop (R : bool) eq sch brs l tail : forall chars k x p ps prev best g cons bo sc pre own,
  skipn k l = chars ++ tail -> k = S (prev + g) ->
  (cons =? 0) = (0 <? g)%nat ->
  (R = true -> brs + bo = byte_len (firstn k l)) -> chain 0 own ->
  greedy eq (x :: p) chars k = Some ps ->
  compute_score_loop R eq (into_inner sch) brs chars
    (MkCs (0 <? g)%nat false (if (0 <? g)%nat then 0 else best)%Z cons bo
       (char_class (nth (prev + g) l 0%N) (into_inner sch)) x p sc (mk pre own))
  = Ok ((sc + (if (0 <? g)%nat then 3 + (Z.of_nat g - 1) else 0) + rest_score sch l prev best ps)%Z,
        mk pre (if R then inserts own (map (char_range l) ps) else own)).
Proof.
  induction chars as [|c chars IH]; intros k x p ps prev best g cons bo sc pre own Hl Hk Hc Hb Ho G.
  - discriminate.
  - assert (Hn : nth_error l k = Some c).
    { rewrite <- (Nat.add_0_r k), <- nth_error_skipn, Hl. reflexivity. }
    assert (Hnth : nth k l 0%N = c) by (apply nth_error_nth; exact Hn).
    assert (Hl' : skipn (S k) l = chars ++ tail).
    { rewrite (skipn_cons_nth _ _ _ _ Hn) in Hl. injection Hl. auto. }
    assert (Hb' : R = true -> brs + (bo + len_utf8 c) = byte_len (firstn (S k) l)).
    { intros HR. rewrite (byte_len_firstn_S _ _ _ Hn). specialize (Hb HR). lia. }
    rewrite greedy_cons in G. cbn [compute_score_loop cs_pattern_char].
    assert (Hbonus : compute_bonus (char_class (nth (prev + g) l 0%N) (into_inner sch))
                       (char_class c (into_inner sch)) (into_inner sch) = bonus_of sch l k).
    { rewrite <- bonus_of_spec, Hk, <- Hnth, Hk. reflexivity. }
    destruct (eq x c) eqn:E.
    + destruct (greedy eq p chars (S k)) as [qs|] eqn:G'; [|discriminate]. injection G as <-.
      cbn [cs_prev_class cs_consecutive cs_first cs_score cs_first_bonus cs_ranges cs_byte_offset
             cs_pattern_chars].
      rewrite Hbonus, Hc.
      set (b := bonus_of sch l k).
      set (fb' := if (0 <? g)%nat then b else if ((BOUNDARY <=? b) && (best <? b))%Z then b else best).
      set (bb := if (0 <? g)%nat then b else Z.max (Z.max b fb') CONSECUTIVE).
      assert (Hins : (if R
                      then mr_insert (mk pre own)
                             (brs + bo, brs + bo + len_utf8 c)
                      else Ok (mk pre own))
                     = Ok (mk pre (if R then ins own (fst (char_range l k)) (snd (char_range l k)) else own))).
      { destruct R; [|reflexivity]. rewrite (char_range_end _ _ _ Hn), (Hb eq_refl).
        apply mr_insert_spec with (lo := 0). exact Ho. }
      assert (Hlt : prev < k) by lia.
      assert (Hscore : (sc + MATCH + bb)%Z
                       = (sc + (if (0 <? g)%nat then 3 + (Z.of_nat g - 1) else 0)
                          + (rest_score sch l prev best (k :: qs) - rest_score sch l k fb' qs))%Z).
      { cbn [rest_score]. fold b. unfold bb, fb'. destruct (Nat.ltb_spec 0 g).
        - destruct (Nat.eqb_spec k (S prev)); [lia|]. change MATCH with 16%Z.
          replace (k - S prev) with g by lia. lia.
        - destruct (Nat.eqb_spec k (S prev)); [|lia].
          change MATCH with 16%Z. change BOUNDARY with 8%Z. change CONSECUTIVE with 4%Z. lia. }
      assert (Hpair : (if (0 <? g)%nat then (b, b)
              else (if ((BOUNDARY <=? b) && ((if (0 <? g)%nat then 0 else best) <? b))%Z then b
                    else (if (0 <? g)%nat then 0 else best)%Z,
                    Z.max (Z.max b (if ((BOUNDARY <=? b) && ((if (0 <? g)%nat then 0 else best) <? b))%Z
                                    then b else (if (0 <? g)%nat then 0 else best)%Z)) CONSECUTIVE))
              = (fb', bb)).
      { unfold bb, fb'. destruct (0 <? g)%nat; reflexivity. }
      rewrite Hpair. cbv beta iota zeta. rewrite Hins. cbn [bind].
      destruct p as [|y p].
      * rewrite greedy_nil in G'. injection G' as <-. f_equal.
        apply f_equal2; [|destruct R; reflexivity]. rewrite Hscore. cbn [rest_score]. lia.
      * specialize (IH (S k) y p qs k fb' 0 (cons + 1) (if R then bo + len_utf8 c else bo)
                      (sc + MATCH + bb)%Z pre
                      (if R then ins own (fst (char_range l k)) (snd (char_range l k)) else own)).
        cbn [Nat.ltb Nat.leb] in IH. rewrite Nat.add_0_r, Hnth in IH. rewrite IH.
        -- f_equal. apply f_equal2; [rewrite Hscore; lia|]. destruct R; reflexivity.
        -- exact Hl'.
        -- reflexivity.
        -- lia.
        -- intros HR. specialize (Hb' HR). subst R. exact Hb'.
        -- destruct R; [|exact Ho]. apply ins_chain; auto; [|lia].
           apply char_range_proper. apply nth_error_Some. congruence.
        -- exact G'.
    + cbn [cs_score cs_in_gap cs_first cs_byte_offset cs_pattern_char cs_pattern_chars cs_ranges].
      specialize (IH (S k) x p ps prev best (S g) 0 (if R then bo + len_utf8 c else bo)
                    (sc - (if (0 <? g)%nat then GAP_EXTENSION else GAP_START))%Z pre own).
      replace (prev + S g) with k in IH by lia. rewrite Hnth in IH.
      change (0 <? S g)%nat with true in IH. cbv iota in IH. rewrite IH; auto.
      * f_equal. apply f_equal2; [|reflexivity]. destruct (Nat.ltb_spec 0 g); unfold GAP_EXTENSION, GAP_START; lia.
      * intros HR. specialize (Hb' HR). subst R. exact Hb'.
Qed.

Lemma compute_score_spec (R : bool) eq sch p c a b pre own x p' ps y w :
  cand_ok c -> a <= b -> b <= length (cand_slice c) ->
  p_text p = x :: p' ->
  firstn (b - a) (skipn a (cand_slice c)) = y :: w -> eq x y = true ->
  greedy eq (x :: p') (y :: w) a = Some ps -> chain 0 own ->
  compute_score R p c a b eq (into_inner sch) (mk pre own)
  = Ok (alignment_score sch (cand_slice c) ps,
        mk pre (if R then inserts own (map (char_range (cand_slice c)) ps) else own)).
Proof.
  intros Hc Hab Hbl Hp Hw Exy G Ho. set (l := cand_slice c) in *.
  assert (Hsk : skipn a l = y :: w ++ skipn (b - a) (skipn a l)).
  { rewrite <- (firstn_skipn (b - a) (skipn a l)) at 1. rewrite Hw. reflexivity. }
  assert (Hn : nth_error l a = Some y).
  { rewrite <- (Nat.add_0_r a), <- nth_error_skipn, Hsk. reflexivity. }
  assert (Hnth : nth a l 0%N = y) by (apply nth_error_nth; exact Hn).
  assert (Hal : a < length l) by (apply nth_error_Some; congruence).
  unfold compute_score.
  assert (H1 : (if R then to_byte_offset c a else Ok 0)
               = Ok (if R then byte_len (firstn a l) else 0)).
  { destruct R; [|reflexivity]. apply to_byte_offset_spec; auto. fold l. lia. }
  rewrite H1. cbn [bind].
  assert (H2 : (if a =? 0 then Ok (initial_char_class (into_inner sch))
                else let* i := usub a 1 in
                     let* x := cand_char c i in Ok (char_class x (into_inner sch)))
               = Ok (class_before sch l a)).
  { destruct a as [|i]; [reflexivity|]. cbn [Nat.eqb]. rewrite usub_ok by lia. cbn [bind].
    rewrite cand_char_spec. fold l. rewrite (idx_nth _ _ _ 0%N) by lia. cbn [bind].
    rewrite Nat.sub_succ, Nat.sub_0_r. reflexivity. }
  rewrite H2. cbn [bind]. rewrite Hp.
  rewrite cand_slice_range_spec by auto. cbn [bind]. rewrite cand_chars_spec. cbn [bind].
  rewrite cand_slice_with. fold l. rewrite Hw.
  cbn [compute_score_loop cs_pattern_char cs_prev_class cs_consecutive cs_first cs_score cs_first_bonus
         cs_ranges cs_byte_offset cs_pattern_chars Nat.eqb].
  rewrite Exy. rewrite greedy_cons, Exy in G.
  destruct (greedy eq p' w (S a)) as [qs|] eqn:G'; [|discriminate]. injection G as <-.
  rewrite <- Hnth. rewrite bonus_of_spec. rewrite Hnth.
  assert (Hins : (if R
                  then mr_insert (mk pre own)
                         ((if R then byte_len (firstn a l) else 0) + 0,
                          (if R then byte_len (firstn a l) else 0) + 0 + len_utf8 y)
                  else Ok (mk pre own))
                 = Ok (mk pre (if R then ins own (fst (char_range l a)) (snd (char_range l a)) else own))).
  { destruct R; [|reflexivity]. rewrite (char_range_end _ _ _ Hn), Nat.add_0_r.
    apply mr_insert_spec with (lo := 0). exact Ho. }
  rewrite Hins. cbn [bind alignment_score].
  destruct p' as [|x' p''].
  - rewrite greedy_nil in G'. injection G' as <-. cbn [rest_score]. f_equal. apply f_equal2.
    + change MATCH with 16%Z. change FIRST_QUERY_CHAR_MULTIPLIER with 2%Z. lia.
    + destruct R; reflexivity.
  - pose proof (cs_loop R eq sch (if R then byte_len (firstn a l) else 0) l
                  (skipn (b - a) (skipn a l)) w (S a) x' p'' qs a (bonus_of sch l a) 0 (0 + 1)
                  (if R then 0 + len_utf8 y else 0)
                  (0 + MATCH + bonus_of sch l a * FIRST_QUERY_CHAR_MULTIPLIER)%Z pre
                  (if R then ins own (fst (char_range l a)) (snd (char_range l a)) else own)) as L.
    cbn [Nat.ltb Nat.leb] in L. rewrite Nat.add_0_r, Hnth in L. rewrite L.
    + f_equal. apply f_equal2.
      * change MATCH with 16%Z. change FIRST_QUERY_CHAR_MULTIPLIER with 2%Z. lia.
      * destruct R; reflexivity.
    + rewrite <- Nat.add_1_r, <- skipn_skipn. apply (f_equal (skipn 1)) in Hsk. exact Hsk.
    + reflexivity.
    + reflexivity.
    + intros ->. rewrite (byte_len_firstn_S _ _ _ Hn). lia.
    + destruct R; [|exact Ho]. apply ins_chain; auto; [|lia].
      apply char_range_proper. exact Hal.
    + exact G'.
Qed.

End WithUnicode.
