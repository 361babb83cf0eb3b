(** Proofs of C106: what asking for the ranges costs at least, and exactly. *)
From Verif Require Import Prelude Chars Normalize Utils Candidate MatchedRanges Query Parser Scoring
  Slab Fzf FzfV1 FzfV2 Api Cost CostRanges CostFormula History
  Spec PreludeProofs CharsProofs MatchedRangesProofs CandidateProofs ParserProofs ScoreProofs V1Proofs V2Proofs V2Fuzzy
  ApiProofs RangeProofs WordsProofs Claims1 Claims2 Claims3
  CostProofs CostBounds CostExact CostRangesProofs CostRangesBounds RangesFormula Claims14 Claims19 Claims35 Claims39.
Local Open Scope nat_scope.

(** * No search becomes cheaper *)

(** When [t'] ends well, so does [t], with the same result but for the ranges, and no later. *)
Definition dearer {X} (t t' : timed (X * mranges)) : Prop :=
  forall x r', fst t' = Ok (x, r') -> exists r, fst t = Ok (x, r) /\ snd t <= snd t'.

Lemma dearer_lift {X} (x : X) r r' : dearer (lift (Ok (x, r))) (lift (Ok (x, r'))).
Proof. intros y r1 E. injection E as <- _. exists r. split; [reflexivity|apply le_n]. Qed.

Lemma dearer_spend {X} n (t t' : timed (X * mranges)) : dearer t t' -> dearer (spend n t) (spend n t').
Proof. intros H x r E. rewrite fst_spend in E. destruct (H x r E) as (r0 & E0 & L). exists r0. rewrite fst_spend, !steps_spend. split; [exact E0|lia]. Qed.

Lemma dearer_bind {X Y} (t : timed Y) (k k' : Y -> timed (X * mranges)) :
  (forall y, fst t = Ok y -> dearer (k y) (k' y)) -> dearer (tbind t k) (tbind t k').
Proof.
  intros H. unfold tbind. destruct (fst t) as [y| |] eqn:E; [apply dearer_spend, H, eq_refl|intros x r E'; discriminate..].
Qed.

Lemma dearer_extra {X Y} (t : timed (X * mranges)) (t' : timed Y) (k : Y -> timed (X * mranges)) :
  (forall y, fst t' = Ok y -> dearer t (k y)) -> dearer t (tbind t' k).
Proof.
  intros H. unfold tbind. destruct (fst t') as [y| |] eqn:E; [|intros x r E'; discriminate..].
  intros x r E'. rewrite fst_spend in E'. destruct (H y eq_refl x r E') as (r0 & E0 & L). exists r0. rewrite steps_spend. split; [exact E0|lia].
Qed.

Lemma dearer_both {X Y} (t t' : timed (Y * mranges)) (k k' : Y * mranges -> timed (X * mranges)) :
  dearer t t' -> (forall y r r', dearer (k (y, r)) (k' (y, r'))) -> dearer (tbind t k) (tbind t' k').
Proof.
  intros H K. unfold tbind. destruct (fst t') as [[y r']| |] eqn:E; [|intros x r E'; discriminate..].
  destruct (H y r' E) as (r & E0 & L). rewrite E0. intros x r1 E1. rewrite fst_spend in E1.
  destruct (K y r r' x r1 E1) as (r2 & E2 & L2). exists r2. rewrite fst_spend, !steps_spend. split; [exact E2|lia].
Qed.

Lemma dearer_alike {X} (t t' : timed (X * mranges)) : alike t t' -> dearer t t'.
Proof.
  intros [H1 H2] x r E. rewrite E in H2. destruct (fst t) as [[y r0]| |]; [|contradiction..]. subst y. exists r0. split; [reflexivity|lia].
Qed.

Section Dearer.
Context {UC : unicode}.

Lemma loop_dearer eq s brs chars : forall st st' o r, st = MkCs (cs_in_gap st') (cs_first st') (cs_first_bonus st') (cs_consecutive st')
    o (cs_prev_class st') (cs_pattern_char st') (cs_pattern_chars st') (cs_score st') r ->
  dearer (compute_score_loop_tm eq s chars st) (compute_score_ranges_loop_tm eq s brs chars st').
Proof.
  induction chars as [|c chars IH]; intros st st' o r ->; cbn [compute_score_loop_tm compute_score_ranges_loop_tm].
  - apply dearer_lift.
  - cbn [cs_in_gap cs_first cs_first_bonus cs_consecutive cs_byte_offset cs_prev_class cs_pattern_char cs_pattern_chars cs_score cs_ranges].
    apply dearer_spend. destruct (eq _ c); [|eapply IH; reflexivity].
    destruct (if (cs_consecutive st' =? 0)%nat then _ else _) as [fb b]. apply dearer_extra. intros r' _.
    destruct (cs_pattern_chars st') as [|nc rest]; [apply dearer_lift|eapply IH; reflexivity].
Qed.

Lemma score_dearer p c a b eq s r r' : dearer (compute_score_tm p c a b eq s r) (compute_score_ranges_tm p c a b eq s r').
Proof.
  unfold compute_score_tm, compute_score_ranges_tm. apply dearer_extra. intros brs _. apply dearer_bind. intros pc _.
  destruct (p_text p) as [|x t]; [intros y r0 E; discriminate|].
  apply dearer_bind. intros sl _. apply dearer_bind. intros ch _. eapply loop_dearer. reflexivity.
Qed.

Lemma finish_dearer p c a b eq s r r' : dearer (finish_match_tm p c a b eq s r) (finish_match_ranges_tm p c a b eq s r').
Proof.
  unfold finish_match_tm, finish_match_ranges_tm. apply dearer_both; [apply dearer_alike, score_alike|]. intros sc r1 r2.
  apply dearer_extra. intros x _. apply dearer_extra. intros r3 _. apply dearer_lift.
Qed.

Ltac dear := repeat first [apply dearer_lift | apply finish_dearer | apply dearer_bind; intros ? _
  | match goal with |- dearer (match ?x with _ => _ end) _ => destruct x end ].

Lemma exact_dearer p c eq s r r' : dearer (exact_match_tm p c eq s r) (exact_match_ranges_tm p c eq s r').
Proof. unfold exact_match_tm, exact_match_ranges_tm. dear. Qed.

Lemma prefix_dearer p c eq s r r' : dearer (prefix_match_tm p c eq s r) (prefix_match_ranges_tm p c eq s r').
Proof. unfold prefix_match_tm, prefix_match_ranges_tm. dear. Qed.

Lemma suffix_dearer p c eq s r r' : dearer (suffix_match_tm p c eq s r) (suffix_match_ranges_tm p c eq s r').
Proof. unfold suffix_match_tm, suffix_match_ranges_tm. dear. Qed.

Lemma equal_dearer p c eq s r r' : dearer (equal_match_tm p c eq s r) (equal_match_ranges_tm p c eq s r').
Proof. unfold equal_match_tm, equal_match_ranges_tm. dear. Qed.

Lemma v1_dearer m p c r r' : dearer (v1_fuzzy_tm m p c r) (v1_fuzzy_ranges_tm m p c r').
Proof.
  unfold v1_fuzzy_tm, v1_fuzzy_ranges_tm. apply dearer_bind. intros [e|] _; [|apply dearer_lift]. apply dearer_bind. intros a _.
  apply dearer_both; [apply score_dearer|]. intros sc r1 r2. apply dearer_lift.
Qed.

Lemma v2_dearer m p c r r' : dearer (v2_fuzzy_tm m p c r) (v2_fuzzy_ranges_tm m p c r').
Proof.
  unfold v2_fuzzy_tm, v2_fuzzy_ranges_tm. cbv zeta. destruct (p_char_len p =? 1).
  - apply dearer_bind. intros x _. apply dearer_both; [|intros; apply dearer_lift].
    unfold fuzzy_single_char_tm, fuzzy_single_char_ranges_tm. apply dearer_bind. intros ms _. apply dearer_bind. intros [mx pos] _.
    destruct (_ =? _)%Z; [apply dearer_lift|]. apply dearer_extra. intros st _. apply dearer_extra. intros y _. apply dearer_extra. intros r1 _.
    apply dearer_lift.
  - apply dearer_bind. intros [[[offs l]|] ind] _; [|apply dearer_lift]. apply dearer_bind. intros f _. apply dearer_extra. intros sb _.
    apply dearer_bind. intros ini _. apply dearer_bind. intros base _. apply dearer_bind. intros [bo bv] _. apply dearer_bind. intros mo _.
    apply dearer_bind. intros [[[[[[sc co] cv] x] cell] sv] gv] _. apply dearer_extra. intros r1 _. apply dearer_lift.
Qed.

Section Trait.
Context {St : Type}.
Variable alloc_tm : St -> str -> timed (list char * St).
Variable st_char_eq : St -> pattern -> char_eq_fn.
Variable st_scheme : St -> scheme.
Variable fz_tm fzr_tm : St -> pattern -> candidate -> mranges -> timed (option score * St * mranges).
Hypothesis Halike : forall st p c r r', alike (fz_tm st p c r) (fz_tm st p c r').
Hypothesis Hdearer : forall st p c r r', dearer (fz_tm st p c r) (fzr_tm st p c r').

Lemma term_dearer st p c r r' :
  dearer (fzf_score_tm st_char_eq st_scheme fz_tm st p c r) (fzf_score_ranges_tm st_char_eq st_scheme fz_tm fzr_tm st p c r').
Proof.
  unfold fzf_score_ranges_tm. destruct (p_is_inverse p) eqn:Ei.
  - apply dearer_alike. unfold fzf_score_tm. cbv zeta. apply alike_both.
    + destruct (p_match_type _); [apply Halike|..]; (apply alike_both; [|intros; apply alike_lift]).
      * apply exact_alike.
      * apply prefix_alike.
      * apply suffix_alike.
      * apply equal_alike.
    + intros [[x|] s] r1 r2; destruct (p_is_inverse _); apply alike_lift.
  - unfold fzf_score_tm. cbv zeta. rewrite Ei.
    assert (G : forall t t' : timed (option score * St * mranges), dearer t t' ->
      dearer (let! '(sc, st, ranges) := t in match sc with Some x => lift (Ok (Some x, st, ranges)) | None => lift (Ok (None, st, ranges)) end) t').
    { intros t t' H [sc s] r1 E. destruct (H _ _ E) as (r0 & E0 & L). exists r0. unfold tbind. rewrite E0.
      destruct sc; rewrite fst_spend, steps_spend, steps_lift; (split; [reflexivity|lia]). }
    match goal with |- dearer (tbind ?t _) ?t' => apply (G t t') end.
    destruct (p_match_type p); [apply Hdearer|..]; (apply dearer_both; [|intros; apply dearer_lift]).
    + apply exact_dearer.
    + apply prefix_dearer.
    + apply suffix_dearer.
    + apply equal_dearer.
Qed.

Lemma condition_dearer c g : forall st r r',
  dearer (score_condition_tm st_char_eq st_scheme fz_tm st g c r) (score_condition_ranges_tm st_char_eq st_scheme fz_tm fzr_tm st g c r').
Proof.
  induction g as [|p g IH]; intros st r r'; cbn [score_condition_tm score_condition_ranges_tm]; [apply dearer_lift|].
  apply dearer_spend, dearer_both; [apply term_dearer|]. intros [[x|] s] r1 r2; [apply dearer_lift|apply IH].
Qed.

Lemma conditions_dearer c q : forall st total r r',
  dearer (score_conditions_tm st_char_eq st_scheme fz_tm st q c total r) (score_conditions_ranges_tm st_char_eq st_scheme fz_tm fzr_tm st q c total r').
Proof.
  induction q as [|g q IH]; intros st total r r'; cbn [score_conditions_tm score_conditions_ranges_tm]; [apply dearer_lift|].
  apply dearer_spend, dearer_both; [apply condition_dearer|]. intros [[x|] s] r1 r2; [apply IH|apply dearer_lift].
Qed.

Lemma distance_dearer st q cand buf buf' x : fst (fzf_distance_ranges_tm alloc_tm st_char_eq st_scheme fz_tm fzr_tm st q cand buf') = Ok x ->
  snd (fzf_distance_tm alloc_tm st_char_eq st_scheme fz_tm st q cand buf)
  <= snd (fzf_distance_ranges_tm alloc_tm st_char_eq st_scheme fz_tm fzr_tm st q cand buf').
Proof.
  unfold fzf_distance_tm, fzf_distance_ranges_tm. destruct (q_is_empty q); [intros _; apply le_n|]. rewrite fst_spend, !steps_spend. intros E.
  apply Nat.add_le_mono_l. rewrite fst_tbind in E. apply ok_bind in E as ([c s] & Ea & E).
  rewrite !(count_bind _ _ _ _ _ Ea). apply Nat.add_le_mono_l. unfold fzf_search_tm, fzf_search_ranges_tm in *. cbv zeta in *.
  assert (D : dearer (match q with NotExtended p => fz_tm s p c (mranges_from buf)
                      | Extended conds => score_conditions_tm st_char_eq st_scheme fz_tm s conds c 0%Z (mranges_from buf) end)
                     (match q with NotExtended p => fzr_tm s p c (mranges_from buf')
                      | Extended conds => score_conditions_ranges_tm st_char_eq st_scheme fz_tm fzr_tm s conds c 0%Z (mranges_from buf') end)).
  { destruct q; [apply conditions_dearer|apply Hdearer]. }
  rewrite fst_tbind in E. apply ok_bind in E as ([[y z] r] & E1 & _).
  destruct (D _ _ E1) as (r0 & E0 & L). rewrite (count_bind _ _ _ _ _ E0), (count_bind _ _ _ _ _ E1), !steps_lift. lia.
Qed.

End Trait.

Lemma c106_no_less : forall m q c buf r, metric_distance_and_ranges m q c buf = Ok r ->
  distance_steps m q c <= distance_and_ranges_steps m q c buf.
Proof.
  intros m q c buf r H. rewrite <- c80_same in H. unfold distance_and_ranges_steps, distance_steps, metric_distance_and_ranges_tm, metric_distance_tm in *.
  destruct m as [m|m]; rewrite fst_tbind in H; apply ok_bind in H as ([[d m'] b'] & E & _); unfold tbind; rewrite E, steps_spend, steps_lift.
  - pose proof (distance_dearer v1_alloc_chars_tm v1_char_eq v1_scoring_scheme v1_fuzzy_tm v1_fuzzy_ranges_tm v1_alike v1_dearer m q c [] buf _ E) as L.
    destruct (fst (fzf_distance_tm _ _ _ _ _ _ _ _)) as [[[? ?] ?]| |]; rewrite ?steps_spend, ?steps_lift; cbn [snd]; lia.
  - pose proof (distance_dearer v2_alloc_chars_tm v2_char_eq v2_scoring_scheme v2_fuzzy_tm v2_fuzzy_ranges_tm v2_alike v2_dearer m q c [] buf _ E) as L.
    destruct (fst (fzf_distance_tm _ _ _ _ _ _ _ _)) as [[[? ?] ?]| |]; rewrite ?steps_spend, ?steps_lift; cbn [snd]; lia.
Qed.

End Dearer.

(** * Exactly: appending *)

Lemma append_steps_exact pre own a b : chain 0 own -> Forall (fun r => snd r <= a) own ->
  snd (mr_insert_tm (mk pre own) (a, b)) = probes (length own).
Proof.
  intros Hc Hb. apply Nat.le_antisymm; [apply append_steps; assumption|].
  unfold mr_insert_tm. etransitivity; [|apply steps_first]. unfold binary_search_by_tm. rewrite steps_spend, steps_lift.
  cbn [mr_ranges mr_initial_len mk]. rewrite app_length. replace (length pre + length own - length pre) with (length own) by lia. lia.
Qed.

(** The end of the last range. *)
Fixpoint end_of (own : list range) : option nat :=
  match own with [] => None | r :: t => match t with [] => Some (snd r) | _ => end_of t end end.

Lemma ins_append own a b : a < b -> forall lo, chain lo own -> Forall (fun r => snd r <= a) own ->
  length (ins own a b) = length own + (match end_of own with Some e => if e =? a then 0 else 1 | None => 1 end)
  /\ end_of (ins own a b) = Some b.
Proof.
  intros Hab. induction own as [|[s e] t IH]; intros lo Hc Hb; [split; reflexivity|].
  destruct Hc as (H1 & H2 & H3). inversion Hb as [|? ? H4 H5]; subst. cbn [snd] in H4. cbn [ins].
  destruct (Nat.eqb_spec s a); [lia|]. destruct (Nat.ltb_spec a s); [lia|].
  destruct t as [|[s' e'] t'].
  - destruct (Nat.leb_spec a e).
    + assert (e = a) as -> by lia. cbn [end_of snd length]. rewrite Nat.eqb_refl. split; [lia|f_equal; lia].
    + cbn [end_of snd length]. destruct (Nat.eqb_spec e a); [lia|]. split; [lia|reflexivity].
  - pose proof H3 as (H6 & H7 & _). inversion H5 as [|? ? H8 _]; subst. cbn [snd] in H8.
    destruct (Nat.leb_spec s' a); [|lia]. destruct (IH _ H3 H5) as [I1 I2].
    cbn [length]. split.
    + rewrite I1. change (end_of ((s, e) :: (s', e') :: t')) with (end_of ((s', e') :: t')). cbn [length]. lia.
    + destruct (ins ((s', e') :: t') a b) as [|r u]; [discriminate I2|]. exact I2.
Qed.

Lemma runs_snoc js j : runs_of (js ++ [j]) = runs_of js + (match js with [] => 1 | _ => if j =? S (last js 0) then 0 else 1 end).
Proof.
  induction js as [|i t IH]; [reflexivity|]. destruct t as [|k t].
  - cbn [app runs_of last]. destruct (j =? S i); reflexivity.
  - change ((i :: k :: t) ++ [j]) with (i :: (k :: t) ++ [j]). change (last (i :: k :: t) 0) with (last (k :: t) 0).
    cbn [runs_of] in IH |- *. change ((k :: t) ++ [j]) with (k :: t ++ [j]) in *. cbn [runs_of] in IH |- *.
    destruct (k =? S i); lia.
Qed.

(** What the loop still has to do when [done] is highlighted and [js] is not. *)
Definition appending_after (done js : list nat) : nat :=
  list_sum (map (fun k => binary_probes (runs_of (done ++ firstn k js))) (seq 0 (length js))).

Lemma appending_cons done j js : appending_after done (j :: js) = binary_probes (runs_of done) + appending_after (done ++ [j]) js.
Proof.
  unfold appending_after. cbn [length seq map list_sum fold_right firstn]. rewrite app_nil_r. f_equal.
  rewrite <- seq_shift, map_map. unfold list_sum. f_equal. apply map_ext. intros k. cbn [firstn]. rewrite <- app_assoc. reflexivity.
Qed.

Section AppendLoop.
Context {UC : unicode}.

Lemma loop_appends eq s brs l tail pre : forall chars k done own st st' ps,
  cs_pattern_char st = cs_pattern_char st' -> cs_pattern_chars st = cs_pattern_chars st' ->
  cs_ranges st = mk pre own -> tidy (byte_len (firstn k l)) own ->
  skipn k l = chars ++ tail -> brs + cs_byte_offset st = byte_len (firstn k l) ->
  length own = runs_of done -> Forall (fun j => j < k) done ->
  end_of own = match done with [] => None | _ => Some (byte_len (firstn (S (last done 0)) l)) end ->
  greedy eq (cs_pattern_char st :: cs_pattern_chars st) chars k = Some ps ->
  snd (compute_score_ranges_loop_tm eq s brs chars st)
  = snd (compute_score_loop_tm eq s chars st') + appending_after done ps.
Proof.
  induction chars as [|c chars IH]; intros k done own st st' ps E1 E2 Er Ht Hl Hb Hn Hd He G; [discriminate G|].
  cbn [compute_score_ranges_loop_tm compute_score_loop_tm]. cbv zeta. rewrite !steps_spend, <- E1. pose proof (len_utf8_pos c) as Lc.
  assert (Hk : nth_error l k = Some c) by (rewrite <- (Nat.add_0_r k), <- nth_error_skipn, Hl; reflexivity).
  assert (Hl' : skipn (S k) l = chars ++ tail) by (rewrite (skipn_cons_nth _ _ _ _ Hk) in Hl; injection Hl; auto).
  pose proof (byte_len_firstn_S _ _ _ Hk) as Hb'.
  rewrite greedy_cons in G. destruct (eq (cs_pattern_char st) c).
  - destruct (greedy eq (cs_pattern_chars st) chars (S k)) as [qs|] eqn:G'; [|discriminate]. injection G as <-.
    set (x := if cs_consecutive st =? 0 then _ else _). set (y := if cs_consecutive st' =? 0 then _ else _).
    destruct x as [x1 x2], y as [y1 y2]. rewrite <- E2, Er, Hb. set (start := byte_len (firstn k l)) in *.
    assert (Hf : Forall (fun r => snd r <= start) own).
    { eapply Forall_impl; [|apply Ht]. cbv beta. intros r [_ H]. exact H. }
    assert (Ei : fst (mr_insert_tm (mk pre own) (start, start + len_utf8 c)) = Ok (mk pre (ins own start (start + len_utf8 c)))).
    { rewrite mr_insert_same, (mr_insert_spec _ _ _ _ 0) by apply Ht. reflexivity. }
    rewrite (count_bind _ _ _ _ _ Ei), append_steps_exact by (apply Ht || exact Hf).
    rewrite Hn, appending_cons. change (probes (runs_of done)) with (binary_probes (runs_of done)).
    destruct (ins_append own start (start + len_utf8 c) ltac:(lia) 0 (proj1 Ht) Hf) as [I1 I2].
    assert (J1 : length (ins own start (start + len_utf8 c)) = runs_of (done ++ [k])).
    { rewrite I1, runs_snoc, Hn, He. destruct done as [|j0 dn]; [lia|]. set (la := last (j0 :: dn) 0) in *.
      assert (la < k) as Hla.
      { rewrite Forall_forall in Hd. apply Hd. unfold la. clear. revert j0. induction dn as [|y t IH]; intros z; [left; reflexivity|].
        right. exact (IH y). }
      destruct (Nat.eqb_spec k (S la)) as [->|Hne].
      - unfold start. rewrite Nat.eqb_refl. reflexivity.
      - assert (byte_len (firstn (S la) l) < start).
        { assert (k < length l) by (apply nth_error_Some; congruence). apply byte_len_firstn_lt; lia. }
        destruct (Nat.eqb_spec (byte_len (firstn (S la) l)) start); lia. }
    destruct (cs_pattern_chars st) as [|nx rest] eqn:Ep.
    + rewrite greedy_nil in G'. injection G' as <-. rewrite !steps_lift. unfold appending_after. cbn. lia.
    + cbv beta iota zeta.
      match goal with |- context [compute_score_loop_tm eq s chars ?z] => set (st2 := z) end.
      rewrite (IH (S k) (done ++ [k]) (ins own start (start + len_utf8 c)) _ st2 qs).
      * lia.
      * reflexivity.
      * reflexivity.
      * reflexivity.
      * rewrite Hb'. apply tidy_ins; [|lia]. split; [apply Ht|]. eapply Forall_impl; [|apply Ht]. cbv beta. intros; lia.
      * exact Hl'.
      * cbn [cs_byte_offset]. rewrite Hb'. fold start. lia.
      * exact J1.
      * apply Forall_app. split; [eapply Forall_impl; [|exact Hd]; cbv beta; intros; lia|]. constructor; [lia|constructor].
      * rewrite I2, last_last. destruct (done ++ [k]) eqn:Ed; [destruct done; discriminate|]. rewrite Hb'. reflexivity.
      * exact G'.
  - match goal with |- _ + snd (compute_score_ranges_loop_tm _ _ _ _ ?x) = _ + snd (compute_score_loop_tm _ _ _ ?y) + _ =>
      rewrite (IH (S k) done own x y ps) end; [apply Nat.add_assoc|reflexivity|..].
    + exact E2.
    + exact Er.
    + rewrite Hb'. split; [apply Ht|]. eapply Forall_impl; [|apply Ht]. cbv beta. intros; lia.
    + exact Hl'.
    + cbn [cs_byte_offset]. lia.
    + exact Hn.
    + eapply Forall_impl; [|exact Hd]; cbv beta; intros; lia.
    + exact He.
    + exact G.
Qed.

End AppendLoop.

Section TopLevel.
Context {UC : unicode}.

Definition located (c : candidate) (j : nat) : nat := match c with Ascii _ => 0 | Unicode _ => j end.

Lemma v1_fuzzy_appends m p c pre r0 ps x : cand_ok c -> p_text p <> [] ->
  v1_positions (is_sensitive (v1_case_sensitivity m) p) (v1_candidate_normalization m) (p_text p) (cand_slice c) = Some ps ->
  fst (v1_fuzzy_ranges_tm m p c (mk pre [])) = Ok x ->
  snd (v1_fuzzy_ranges_tm m p c (mk pre [])) = snd (v1_fuzzy_tm m p c r0) + (located c (hd 0 ps) + appending ps).
Proof.
  intros Hc Hp Ev Hok. rewrite (proj1 (v1_alike m p c r0 (mk pre []))).
  unfold v1_fuzzy_tm, v1_fuzzy_ranges_tm in *. cbv zeta in *. set (sens := is_sensitive _ _) in *. set (norm := v1_candidate_normalization m) in *.
  pose proof Ev as Ev'. unfold v1_positions in Ev'.
  destruct (greedy (char_eq sens norm) (p_text p) (cand_slice c) 0) as [fs|] eqn:G; [|discriminate]. clear Ev'.
  destruct (V1Proofs.v1_window sens norm _ _ _ Hp G) as (s & ps' & Er & Hse & Hel & Ev2 & Gp & _ & Hhd & Hla & _).
  rewrite Ev in Ev2. injection Ev2 as <-. rewrite Hhd. set (e := S (last fs 0)) in *. set (o := opts_new sens norm) in *.
  rewrite fst_tbind in Hok. apply ok_bind in Hok as (f & E1 & Hok). rewrite !(count_bind _ _ _ _ _ E1).
  rewrite forward_pass_same in E1. unfold o in E1. rewrite forward_pass_spec in E1 by assumption. rewrite G in E1. injection E1 as <-. fold e in Hok |- *.
  rewrite fst_tbind in Hok. apply ok_bind in Hok as (s' & E2 & Hok). rewrite !(count_bind _ _ _ _ _ E2).
  rewrite backward_pass_same in E2.
  assert (s' = s) as ->.
  { unfold backward_pass in E2. destruct (rev (p_text p)) as [|y t] eqn:Et; [discriminate E2|].
    unfold o in E2. rewrite backward_loop_spec in E2 by assumption. rewrite Er in E2. injection E2 as <-. reflexivity. }
  rewrite fst_tbind in Hok. apply ok_bind in Hok as ([sc r'] & E3 & _). rewrite (count_bind _ _ _ _ _ E3), steps_lift.
  destruct (score_dearer p c s e (o_char_eq o) (v1_scoring_scheme m) (mk pre []) (mk pre []) _ _ E3) as (r1 & E4 & _).
  rewrite (count_bind _ _ _ _ _ E4), steps_lift.
  enough (snd (compute_score_ranges_tm p c s e (o_char_eq o) (v1_scoring_scheme m) (mk pre []))
          = snd (compute_score_tm p c s e (o_char_eq o) (v1_scoring_scheme m) (mk pre [])) + (located c s + appending ps)) by lia.
  clear E2 E4. unfold compute_score_ranges_tm, compute_score_tm in *.
  rewrite fst_tbind in E3. apply ok_bind in E3 as (brs & Eb & E3). rewrite (count_bind _ _ _ _ _ Eb).
  unfold to_byte_offset_tm in Eb |- *. rewrite fst_spend, fst_lift in Eb. rewrite steps_spend, steps_lift.
  fold (located c s).
  rewrite fst_tbind in E3. apply ok_bind in E3 as (pc & Ec & E3). rewrite !(count_bind _ _ _ _ _ Ec), !steps_lift.
  destruct (p_text p) as [|z zs] eqn:Et; [discriminate E3|].
  rewrite fst_tbind in E3. apply ok_bind in E3 as (sl & Es & E3). rewrite !(count_bind _ _ _ _ _ Es), !steps_lift.
  rewrite fst_tbind in E3. apply ok_bind in E3 as (chars & Eh & E3). rewrite !(count_bind _ _ _ _ _ Eh), !steps_lift.
  rewrite fst_lift in Es, Eh. pose proof (cand_chars_slice _ _ _ _ _ Es Eh) as ->.
  rewrite to_byte_offset_spec in Eb by (auto; lia). injection Eb as <-.
  erewrite (loop_appends _ _ _ (cand_slice c) (skipn (e - s) (skipn s (cand_slice c))) pre _ s [] [] _ _ ps); 
    [|reflexivity|reflexivity|reflexivity|apply tidy_nil|symmetry; apply firstn_skipn|cbn [cs_byte_offset]; lia|reflexivity|constructor|reflexivity|exact Gp].
  change (appending_after [] ps) with (appending ps). lia.
Qed.

(** From the fuzzy search to the call. *)
Section Trait.
Context {St : Type}.
Variable alloc_tm : St -> str -> timed (list char * St).
Variable st_char_eq : St -> pattern -> char_eq_fn.
Variable st_scheme : St -> scheme.
Variable fz_tm fzr_tm : St -> pattern -> candidate -> mranges -> timed (option score * St * mranges).
Hypothesis Hdearer : forall st p c r r', dearer (fz_tm st p c r) (fzr_tm st p c r').

Lemma distance_extra st p c buf x e : p_is_empty p = false ->
  fst (fzf_distance_ranges_tm alloc_tm st_char_eq st_scheme fz_tm fzr_tm st (NotExtended p) c buf) = Ok x ->
  (forall cd st' y, fst (if str_is_ascii c then lift (Ok (Ascii (encode c), st))
      else let! '(chars, st) := alloc_tm st c in lift (Ok (Unicode chars, st))) = Ok (cd, st') ->
    fst (fzr_tm st' p cd (mranges_from buf)) = Ok y ->
    option_map from_score (fst (fst y)) = fst (fst x) ->
    snd (fzr_tm st' p cd (mranges_from buf)) = snd (fz_tm st' p cd (mranges_from [])) + e) ->
  snd (fzf_distance_ranges_tm alloc_tm st_char_eq st_scheme fz_tm fzr_tm st (NotExtended p) c buf)
  = snd (fzf_distance_tm alloc_tm st_char_eq st_scheme fz_tm st (NotExtended p) c []) + e.
Proof.
  intros Hp Hok H. unfold fzf_distance_tm, fzf_distance_ranges_tm in *. cbn [q_is_empty] in *. rewrite Hp in *.
  rewrite fst_spend in Hok. rewrite !steps_spend. rewrite fst_tbind in Hok. apply ok_bind in Hok as ([cd st'] & Ea & Hok).
  specialize (H cd st'). rewrite !(count_bind _ _ _ _ _ Ea). unfold fzf_search_tm, fzf_search_ranges_tm in *. cbv zeta in *.
  rewrite fst_tbind in Hok. apply ok_bind in Hok as (y & E1 & Hok). specialize (H y Ea E1).
  destruct y as [[y1 y2] r]. rewrite fst_lift in Hok. assert (X : x = (option_map from_score y1, y2, mr_ranges r)) by congruence.
  subst x. specialize (H eq_refl). destruct (Hdearer st' p cd (mranges_from []) (mranges_from buf) _ _ E1) as (r0 & E0 & _).
  rewrite (count_bind _ _ _ _ _ E0), (count_bind _ _ _ _ _ E1), !steps_lift. lia.
Qed.

End Trait.

Lemma mk_from buf : mranges_from buf = mk buf [].
Proof. unfold mk, mranges_from. rewrite app_nil_r. reflexivity. Qed.

Lemma read_as St (alloc : St -> str -> timed (list char * St)) (room : St -> nat) :
  (forall st c, takes (alloc st c) (fun x n => fst x = c /\ n = growth (room st) (byte_len c) + length c)) ->
  forall st c cd st', fst (if str_is_ascii c then lift (Ok (Ascii (encode c), st))
      else let! '(chars, st) := alloc st c in lift (Ok (Unicode chars, st))) = Ok (cd, st') ->
  cand_ok cd /\ cand_slice cd = c /\ (forall j, located cd j = locating c j).
Proof.
  intros H st c cd st' E. pose proof (takes_get _ _ _ _ (reading_takes St alloc room st c H) E) as (H1 & H2 & _). cbn [fst] in H1, H2.
  split; [exact H1|]. split; [exact H2|]. intros j. unfold locating. change (forallb is_ascii c) with (str_is_ascii c).
  destruct (str_is_ascii c); [injection E as <- _; reflexivity|]. rewrite fst_tbind in E. apply ok_bind in E as ([l st0] & _ & E).
  injection E as <- _. reflexivity.
Qed.

Lemma c106_v1 : forall o m text q c d m' buf buf' js,
  metric_reached AlgoV1 o m -> fuzzy_query text q -> text <> [] ->
  metric_distance_and_ranges m q c buf = Ok (Some d, m', buf') ->
  window (agreement o text) text c js ->
  distance_and_ranges_steps m q c buf = distance_steps m q c + locating c (hd 0 js) + appending js.
Proof.
  intros o m text q c d m' buf buf' js Hm Hq Ht E W. pose proof (window_v1 _ _ _ _ Ht W) as Ev.
  apply metric_reached_options in Hm. destruct m as [v|v]; [|contradiction]. destruct Hm as (O1 & O2 & _).
  apply fuzzy_query_of in Hq. subst q. rewrite <- c80_same in E.
  unfold distance_and_ranges_steps, distance_steps, metric_distance_and_ranges_tm, metric_distance_tm in *.
  rewrite fst_tbind in E. apply ok_bind in E as (x & E & _).
  rewrite (count_bind _ _ _ _ _ E). destruct x as [[d0 m0] b0]. rewrite steps_lift.
  assert (X : snd (fzf_distance_ranges_tm v1_alloc_chars_tm v1_char_eq v1_scoring_scheme v1_fuzzy_tm v1_fuzzy_ranges_tm v
                     (NotExtended (pat_of (Term false KFuzzy text))) c buf)
              = snd (fzf_distance_tm v1_alloc_chars_tm v1_char_eq v1_scoring_scheme v1_fuzzy_tm v
                     (NotExtended (pat_of (Term false KFuzzy text))) c []) + (locating c (hd 0 js) + appending js)).
  { eapply (distance_extra v1_alloc_chars_tm v1_char_eq v1_scoring_scheme v1_fuzzy_tm v1_fuzzy_ranges_tm v1_dearer); [|exact E|].
    { destruct text; [congruence|reflexivity]. }
    intros cd st y Ea Ey _. pose proof (v1_read_same _ _ _ Ea) as [S1 S2]. cbn [snd] in S1, S2.
    pose proof (read_as _ _ _ v1_alloc_takes _ _ _ _ Ea) as (Hcd & Hsl & Hlo). rewrite <- Hlo. rewrite mk_from in Ey |- *.
    eapply v1_fuzzy_appends; [exact Hcd|exact Ht| |exact Ey]. rewrite is_sensitive_pat, S1, S2, O1, O2, Hsl. exact Ev. }
  rewrite X. unfold tbind. destruct (fst (fzf_distance_tm _ _ _ _ _ _ _ _)) as [[[? ?] ?]| |]; rewrite ?steps_spend, ?steps_lift; cbn [snd]; lia.
Qed.
End TopLevel.
