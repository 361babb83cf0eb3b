(** With strings of fewer than 2^28 characters the overflow checks of Checked.v never fire: the
    checked functions are the unbounded ones. *)
From Verif Require Import Prelude Chars Utils Candidate MatchedRanges Query Parser Scoring Slab Fzf FzfV1 FzfV2 Api Checked.
From Verif Require Import PreludeProofs CharsProofs CandidateProofs V1Proofs ScoreProofs ParserProofs ApiProofs Spec History.
Local Open Scope Z_scope.

Lemma bind_ext A B (x y : res A) (f g : A -> res B) :
  x = y -> (forall a, y = Ok a -> f a = g a) -> bind x f = bind y g.
Proof. intros -> H. destruct y as [a| |]; cbn [bind]; [apply H; reflexivity|reflexivity..]. Qed.

Lemma i64_ok z : - 2 ^ 63 <= z < 2 ^ 63 -> i64 z = Ok z.
Proof.
  intros H. unfold i64. rewrite (proj2 (Z.leb_le _ _)) by lia. rewrite (proj2 (Z.ltb_lt _ _)) by lia. reflexivity.
Qed.

Lemma u32_ok n : Z.of_nat n < 2 ^ 32 -> u32 n = Ok n.
Proof. intros H. unfold u32. rewrite (proj2 (Z.ltb_lt _ _)) by lia. reflexivity. Qed.

Lemma usize_ok n : Z.of_nat n < 2 ^ 64 -> usize n = Ok n.
Proof. intros H. unfold usize. rewrite (proj2 (Z.ltb_lt _ _)) by lia. reflexivity. Qed.

Lemma upd_forall A (P : A -> Prop) l : forall i a, Forall P l -> P a -> Forall P (upd l i a).
Proof.
  induction l as [|x l IH]; intros i a Hl Ha; [constructor|]. apply Forall_cons_iff in Hl as [Hx Hl].
  destruct i; cbn [upd]; constructor; auto.
Qed.

Lemma set_idx_forall A (P : A -> Prop) l i a l' :
  set_idx l i a = Ok l' -> Forall P l -> P a -> Forall P l'.
Proof.
  unfold set_idx. destruct (_ <? _)%nat; [|discriminate]. intros H. injection H as <-. apply upd_forall.
Qed.

Lemma idx_forall A (P : A -> Prop) l i a : idx l i = Ok a -> Forall P l -> P a.
Proof. intros H F. apply idx_inv in H. rewrite Forall_forall in F. apply F. eapply nth_error_In. exact H. Qed.

Lemma firstn_forall A (P : A -> Prop) n l : Forall P l -> Forall P (firstn n l).
Proof. revert n. induction l; intros [|n] H; cbn; constructor; inversion H; auto. Qed.

Lemma skipn_forall A (P : A -> Prop) n l : Forall P l -> Forall P (skipn n l).
Proof. revert n. induction l; intros [|n] H; cbn; auto. inversion H; auto. Qed.

Lemma two_rows_forall A (P : A -> Prop) (m : matrix A) i j a b :
  two_rows_mut m i j = Ok (a, b) -> Forall P (m_slice m) -> Forall P a /\ Forall P b.
Proof.
  unfold two_rows_mut, assert_. destruct (_ <? _)%nat; [|discriminate]. cbn [bind]. unfold slice_to at 1, slice_from.
  destruct (_ <=? _)%nat; [|discriminate]. cbn [bind]. unfold slice. destruct (_ && _)%bool; [|discriminate]. cbn [bind].
  unfold slice_to. destruct (_ <=? _)%nat; [|discriminate]. cbn [bind]. intros H F. injection H as <- <-.
  split; repeat first [apply firstn_forall | apply skipn_forall]; exact F.
Qed.

Lemma put_row_forall A (P : A -> Prop) (m : matrix A) i l :
  Forall P (m_slice m) -> Forall P l -> Forall P (m_slice (put_row m i l)).
Proof.
  intros F G. cbn [put_row m_slice]. apply Forall_app. split; [apply firstn_forall, F|].
  apply Forall_app. split; [exact G|apply skipn_forall, F].
Qed.

(** The bonuses of a scheme are small. *)
Definition mild (s : scheme) : Prop := forall a b, 0 <= compute_bonus a b s <= 10.

Lemma mild_into_inner {UC : unicode} sch : mild (into_inner sch).
Proof. intros a b. destruct sch, a, b; vm_compute; split; discriminate. Qed.

Section WithUnicode.
Context {UC : unicode}.

Lemma compute_score_loop_same RANGES eq s start : mild s ->
  forall chars st, let n := Z.of_nat (length chars) in
  0 <= cs_first_bonus st <= 10 ->
  - 2 ^ 60 + 3 * n <= cs_score st <= 2 ^ 60 - 36 * n ->
  Z.of_nat (cs_consecutive st) + n < 2 ^ 32 ->
  compute_score_loop_ck RANGES eq s start chars st = compute_score_loop RANGES eq s start chars st
  /\ forall sc r, compute_score_loop RANGES eq s start chars st = Ok (sc, r) ->
     cs_score st - 3 * n <= sc <= cs_score st + 36 * n.
Proof.
  intros Hs. induction chars as [|c chars IH]; intros st n Hf Hb Hc.
  { split; [reflexivity|]. intros sc r H. cbn in H. injection H as <- _. subst n. cbn. lia. }
  subst n. cbn [length] in Hb, Hc. rewrite Nat2Z.inj_succ in Hb, Hc. unfold Z.succ in Hb, Hc.
  cbn [compute_score_loop compute_score_loop_ck length]. cbv zeta. rewrite Nat2Z.inj_succ. unfold Z.succ.
  destruct (eq (cs_pattern_char st) c).
  - rewrite i64_ok by (unfold MATCH; lia). cbn [bind].
    set (b0 := compute_bonus (cs_prev_class st) (char_class c s) s).
    pose proof (Hs (cs_prev_class st) (char_class c s)) as Hb0. fold b0 in Hb0.
    set (pr := if (cs_consecutive st =? 0)%nat then (b0, b0) else _).
    assert (Hpr : 0 <= fst pr <= 10 /\ 0 <= snd pr <= 10).
    { subst pr. destruct (_ =? _)%nat; [cbn; lia|]. cbn [fst snd]. unfold CONSECUTIVE, GAP_START, GAP_EXTENSION.
      destruct (_ && _)%bool; lia. }
    destruct pr as [fb b]. cbn [fst snd] in Hpr. destruct Hpr as [Hfb Hbb].
    assert (Einc : (if cs_first st then i64 (b * FIRST_QUERY_CHAR_MULTIPLIER) else Ok b)
            = Ok (if cs_first st then b * FIRST_QUERY_CHAR_MULTIPLIER else b)).
    { destruct (cs_first st); [|reflexivity]. apply i64_ok. unfold FIRST_QUERY_CHAR_MULTIPLIER. lia. }
    rewrite Einc. cbn [bind]. set (inc := if cs_first st then _ else _).
    assert (Hinc : 0 <= inc <= 20).
    { subst inc. unfold FIRST_QUERY_CHAR_MULTIPLIER. destruct (cs_first st); lia. }
    rewrite i64_ok by (unfold MATCH; lia). cbn [bind].
    set (ins := if RANGES then _ else _). destruct ins as [rg| |]; cbn [bind]; [|split; [reflexivity|discriminate]..].
    rewrite u32_ok by lia. cbn [bind]. destruct (cs_pattern_chars st) as [|next rest].
    + split; [reflexivity|]. intros sc r H. injection H as <- _. unfold MATCH. lia.
    + set (st' := MkCs _ _ _ _ _ _ _ _ _ _). destruct (IH st') as [E B]; subst st'.
      * cbn. lia.
      * cbn [cs_score]. unfold MATCH. lia.
      * cbn [cs_consecutive]. lia.
      * split; [exact E|]. intros sc r H. apply B in H. cbn [cs_score] in H. unfold MATCH in H. lia.
  - set (pen := if cs_in_gap st then GAP_EXTENSION else GAP_START).
    assert (Hpen : 1 <= pen <= 3) by (subst pen; destruct (cs_in_gap st); unfold GAP_EXTENSION, GAP_START; lia).
    rewrite i64_ok by lia. cbn [bind]. set (st' := MkCs _ _ _ _ _ _ _ _ _ _). destruct (IH st') as [E B]; subst st'.
    + cbn. lia.
    + cbn [cs_score]. lia.
    + cbn [cs_consecutive]. lia.
    + split; [exact E|]. intros sc r H. apply B in H. cbn [cs_score] in H. lia.
Qed.

(** [small N c]: the candidate has at most [N] characters, and [N] is not enormous. *)
Definition small (N : nat) (c : candidate) : Prop := (length (cand_slice c) <= N)%nat /\ Z.of_nat N < 2 ^ 28.

Lemma compute_score_same RANGES p c a b eq s rg N : mild s -> small N c ->
  compute_score_ck RANGES p c a b eq s rg = compute_score RANGES p c a b eq s rg
  /\ forall sc r, compute_score RANGES p c a b eq s rg = Ok (sc, r) -> - 36 * Z.of_nat N <= sc <= 36 * Z.of_nat N.
Proof.
  intros Hs [Hc HN]. unfold compute_score_ck, compute_score.
  destruct (if RANGES then to_byte_offset c a else Ok 0%nat) as [brs| |]; cbn [bind]; [|split; [reflexivity|discriminate]..].
  destruct (if (a =? 0)%nat then _ else _) as [pc| |]; cbn [bind]; [|split; [reflexivity|discriminate]..].
  destruct (p_text p) as [|x t]; [split; [reflexivity|discriminate]|].
  destruct (cand_slice_range c a b) as [sl| |] eqn:Esl; cbn [bind]; [|split; [reflexivity|discriminate]..].
  rewrite cand_chars_spec. cbn [bind].
  assert (Hl : (length (cand_slice sl) <= N)%nat).
  { unfold cand_slice_range, slice in Esl. destruct c as [l|l]; cbn [cand_slice] in Hc;
      (destruct (_ && _)%bool; cbn [bind] in Esl; [|discriminate]); injection Esl as <-; cbn [cand_slice];
      rewrite firstn_length, skipn_length; lia. }
  set (st := MkCs _ _ _ _ _ _ _ _ _ _).
  destruct (compute_score_loop_same RANGES eq s brs Hs (cand_slice sl) st) as [E B]; subst st; cbn [cs_first_bonus cs_score cs_consecutive] in *.
  - lia.
  - lia.
  - lia.
  - split; [exact E|]. intros sc r H. apply B in H. lia.
Qed.

(** What is needed of a function which matches a term: the checked one is the same, and the score
    is bounded. *)
Definition same (N : nat) (x y : res (option score * mranges)) : Prop :=
  x = y /\ forall sc r, y = Ok (Some sc, r) -> - 36 * Z.of_nat N <= sc <= 36 * Z.of_nat N.

Lemma same_none N r : same N (Ok (None, r)) (Ok (None, r)).
Proof. split; [reflexivity|]. intros sc r' H. discriminate. Qed.
Lemma same_zero N r : same N (Ok (Some 0, r)) (Ok (Some 0, r)).
Proof. split; [reflexivity|]. intros sc r' H. injection H as <- _. lia. Qed.

Lemma same_bind N A (x : res A) f g :
  (forall a, x = Ok a -> same N (f a) (g a)) -> same N (bind x f) (bind x g).
Proof.
  intros H. destruct x as [a| |]; cbn [bind]; [apply H; reflexivity|split; [reflexivity|discriminate]..].
Qed.

Lemma finish_match_same RANGES p c a b eq s rg N : mild s -> small N c ->
  same N (finish_match_ck RANGES p c a b eq s rg) (finish_match RANGES p c a b eq s rg).
Proof.
  intros Hs Hc. unfold finish_match_ck, finish_match.
  destruct (compute_score_same false p c a b eq s rg N Hs Hc) as [-> B]. apply same_bind. intros [sc r] E.
  apply same_bind. intros r' _. split; [reflexivity|]. intros sc' r'' H. injection H as <- _. eapply B, E.
Qed.

Ltac same_step :=
  lazymatch goal with
  | |- same _ (bind _ _) (bind _ _) => apply same_bind; intros ? _
  | |- same _ (if ?b then _ else _) _ => destruct b
  | |- same _ (match ?x with _ => _ end) _ => destruct x
  | |- same _ (Ok (None, _)) _ => apply same_none
  | |- same _ (Ok (Some 0, _)) _ => apply same_zero
  | |- same _ (finish_match_ck _ _ _ _ _ _ _ _) _ => apply finish_match_same; assumption
  end.

Lemma exact_match_same RANGES p c eq s rg N : mild s -> small N c ->
  same N (exact_match_ck RANGES p c eq s rg) (exact_match RANGES p c eq s rg).
Proof. intros Hs Hc. unfold exact_match_ck, exact_match. repeat same_step. Qed.

Lemma prefix_match_same RANGES p c eq s rg N : mild s -> small N c ->
  same N (prefix_match_ck RANGES p c eq s rg) (prefix_match RANGES p c eq s rg).
Proof. intros Hs Hc. unfold prefix_match_ck, prefix_match. repeat same_step. Qed.

Lemma suffix_match_same RANGES p c eq s rg N : mild s -> small N c ->
  same N (suffix_match_ck RANGES p c eq s rg) (suffix_match RANGES p c eq s rg).
Proof. intros Hs Hc. unfold suffix_match_ck, suffix_match. repeat same_step. Qed.

Lemma equal_match_same RANGES p c eq s rg N : mild s -> small N c ->
  same N (equal_match_ck RANGES p c eq s rg) (equal_match RANGES p c eq s rg).
Proof. intros Hs Hc. unfold equal_match_ck, equal_match. repeat same_step. Qed.

(** The same for functions which also return a state. *)
Definition same_st {St : Type} (N : nat) (Inv : St -> Prop) (x y : res (option score * St * mranges)) : Prop :=
  x = y /\ forall o st r, y = Ok (o, st, r) -> Inv st /\ forall sc, o = Some sc -> - 36 * Z.of_nat N <= sc <= 36 * Z.of_nat N.

Section Trait.
Context {St : Type}.
Variables (alloc_chars : St -> str -> res (list char * St)) (st_char_eq : St -> pattern -> char_eq_fn)
  (st_scheme : St -> scheme) (fuzzy fuzzy_ck : bool -> St -> pattern -> candidate -> mranges -> res (option score * St * mranges))
  (Inv : St -> Prop) (N : nat).
Hypothesis HN : Z.of_nat N < 2 ^ 28.
Hypothesis Hscheme : forall st, Inv st -> mild (st_scheme st).
Hypothesis Halloc : forall st s l st', Inv st -> alloc_chars st s = Ok (l, st') -> Inv st' /\ l = s.
Hypothesis Hfuzzy : forall R st p c rg, Inv st -> small N c -> (p_char_len p <= N)%nat ->
  same_st N Inv (fuzzy_ck R st p c rg) (fuzzy R st p c rg).

Lemma fzf_score_same R st p c rg : Inv st -> small N c -> (p_char_len p <= N)%nat ->
  same_st N Inv (fzf_score_ck st_char_eq st_scheme fuzzy_ck R st p c rg) (fzf_score st_char_eq st_scheme fuzzy R st p c rg).
Proof.
  intros Hi Hc Hp. unfold fzf_score_ck, fzf_score. cbv zeta. set (wr := if p_is_inverse p then false else R).
  assert (G : same_st N Inv
    (match p_match_type p with
     | Fuzzy => fuzzy_ck wr st p c rg
     | Exact => let* '(sc, ranges) := exact_match_ck wr p c (st_char_eq st p) (st_scheme st) rg in Ok (sc, st, ranges)
     | PrefixExact => let* '(sc, ranges) := prefix_match_ck wr p c (st_char_eq st p) (st_scheme st) rg in Ok (sc, st, ranges)
     | SuffixExact => let* '(sc, ranges) := suffix_match_ck wr p c (st_char_eq st p) (st_scheme st) rg in Ok (sc, st, ranges)
     | EqualExact => let* '(sc, ranges) := equal_match_ck wr p c (st_char_eq st p) (st_scheme st) rg in Ok (sc, st, ranges)
     end)
    (match p_match_type p with
     | Fuzzy => fuzzy wr st p c rg
     | Exact => let* '(sc, ranges) := exact_match wr p c (st_char_eq st p) (st_scheme st) rg in Ok (sc, st, ranges)
     | PrefixExact => let* '(sc, ranges) := prefix_match wr p c (st_char_eq st p) (st_scheme st) rg in Ok (sc, st, ranges)
     | SuffixExact => let* '(sc, ranges) := suffix_match wr p c (st_char_eq st p) (st_scheme st) rg in Ok (sc, st, ranges)
     | EqualExact => let* '(sc, ranges) := equal_match wr p c (st_char_eq st p) (st_scheme st) rg in Ok (sc, st, ranges)
     end)).
  { assert (L : forall x y : res (option score * mranges), same N x y ->
      same_st N Inv (let* '(sc, ranges) := x in Ok (sc, st, ranges)) (let* '(sc, ranges) := y in Ok (sc, st, ranges))).
    { intros x y [-> B]. split; [reflexivity|]. intros o st' r H. destruct y as [[o' r']| |]; try discriminate.
      cbn [bind] in H. injection H as <- <- <-. split; [exact Hi|]. intros sc ->. eapply B. reflexivity. }
    pose proof (Hscheme st Hi) as Hs.
    destruct (p_match_type p); [apply Hfuzzy; assumption|apply L..].
    - apply exact_match_same; assumption.
    - apply prefix_match_same; assumption.
    - apply suffix_match_same; assumption.
    - apply equal_match_same; assumption. }
  destruct G as [-> B]. split; [reflexivity|]. intros o st' r H.
  match type of H with bind ?y _ = _ => destruct y as [[[o1 st1] r1]| |] eqn:E; try discriminate end.
  destruct (B o1 st1 r1 eq_refl) as [B1 B2]. cbn [bind] in H. destruct o1 as [x|], (p_is_inverse p); injection H as <- <- <-; (split; [exact B1|]); intros sc Hsc; try discriminate.
  - apply B2, Hsc.
  - injection Hsc as <-. lia.
Qed.

Lemma score_condition_same R c : forall cond st rg, Inv st -> small N c -> Forall (fun p => (p_char_len p <= N)%nat) cond ->
  same_st N Inv (score_condition_ck st_char_eq st_scheme fuzzy_ck R st cond c rg) (score_condition st_char_eq st_scheme fuzzy R st cond c rg).
Proof.
  induction cond as [|p cond IH]; intros st rg Hi Hc Hp; cbn [score_condition_ck score_condition].
  - split; [reflexivity|]. intros o st' r H. injection H as <- <- <-. split; [exact Hi|]. discriminate.
  - apply Forall_cons_iff in Hp as [Hp Hps]. destruct (fzf_score_same R st p c rg Hi Hc Hp) as [-> B].
    destruct (fzf_score _ _ _ R st p c rg) as [[[o st'] r]| |]; cbn [bind]; [|split; [reflexivity|discriminate]..].
    destruct (B o st' r eq_refl) as [B1 B2]. destruct o as [x|].
    + split; [reflexivity|]. intros o st'' r' H. injection H as <- <- <-. split; [exact B1|]. intros sc H. injection H as <-. apply B2. reflexivity.
    + apply IH; assumption.
Qed.

Lemma score_conditions_same R c : forall conds st total rg, Inv st -> small N c ->
  Forall (Forall (fun p => (p_char_len p <= N)%nat)) conds ->
  - 2 ^ 62 + 36 * Z.of_nat (length conds) * Z.of_nat N <= total <= 2 ^ 62 - 36 * Z.of_nat (length conds) * Z.of_nat N ->
  score_conditions_ck st_char_eq st_scheme fuzzy_ck R st conds c total rg
  = score_conditions st_char_eq st_scheme fuzzy R st conds c total rg.
Proof.
  induction conds as [|cond conds IH]; intros st total rg Hi Hc Hp Ht; [reflexivity|].
  cbn [score_conditions_ck score_conditions]. apply Forall_cons_iff in Hp as [Hp Hps].
  destruct (score_condition_same R c cond st rg Hi Hc Hp) as [-> B].
  destruct (score_condition _ _ _ R st cond c rg) as [[[o st'] r]| |]; cbn [bind]; [|reflexivity..].
  destruct (B o st' r eq_refl) as [B1 B2]. destruct o as [x|]; [|reflexivity]. specialize (B2 x eq_refl).
  cbn [length] in Ht. rewrite Nat2Z.inj_succ in Ht.
  rewrite i64_ok by nia. cbn [bind]. apply IH; [assumption..|]. nia.
Qed.

(** The sizes of the query and the candidate. *)
Definition small_query (q : query) : Prop :=
  match q with
  | NotExtended p => (p_char_len p <= N)%nat
  | Extended conds => (length conds <= N)%nat /\ Forall (Forall (fun p => (p_char_len p <= N)%nat)) conds
  end.

Lemma fzf_distance_same R st q s buf : Inv st -> small_query q -> (length s <= N)%nat ->
  fzf_distance_ck alloc_chars st_char_eq st_scheme fuzzy_ck R st q s buf
  = fzf_distance alloc_chars st_char_eq st_scheme fuzzy R st q s buf.
Proof.
  intros Hi Hq Hs. unfold fzf_distance_ck, fzf_distance. destruct (q_is_empty q); [reflexivity|].
  apply bind_ext; [reflexivity|]. intros [c st'] E.
  assert (G : Inv st' /\ small N c).
  { destruct (str_is_ascii s) eqn:A.
    - injection E as <- <-. split; [exact Hi|]. split; [|exact HN]. cbn [cand_slice]. rewrite (encode_ascii s A). exact Hs.
    - destruct (alloc_chars st s) as [[l st1]| |] eqn:Ea; cbn [bind] in E; try discriminate. injection E as <- <-.
      destruct (Halloc _ _ _ _ Hi Ea) as [Hi' ->]. split; [exact Hi'|]. split; [exact Hs|exact HN]. }
  destruct G as [Hi' Hc]. unfold fzf_search_ck, fzf_search. apply bind_ext; [|reflexivity].
  destruct q as [conds|p].
  - destruct Hq as [Hn Hp]. apply score_conditions_same; [assumption..|]. nia.
  - apply (Hfuzzy R st' p c _ Hi' Hc Hq).
Qed.

End Trait.

(** ** FzfV1 *)

Lemma v1_fuzzy_same N o R m p c rg : v1_inv o m -> small N c ->
  same_st N (v1_inv o) (v1_fuzzy_ck R m p c rg) (v1_fuzzy R m p c rg).
Proof.
  intros Hi Hc. unfold v1_fuzzy_ck, v1_fuzzy. cbv zeta.
  destruct (forward_pass _ _ _) as [[e|]| |]; cbn [bind]; [| |split; [reflexivity|discriminate]..].
  - destruct (backward_pass _ _ _ _) as [b| |]; cbn [bind]; [|split; [reflexivity|discriminate]..].
    assert (Hs : mild (v1_scoring_scheme m)) by (destruct Hi as (_ & _ & ->); apply mild_into_inner).
    match goal with |- context [compute_score_ck R p c b e ?eq _ rg] =>
      destruct (compute_score_same R p c b e eq _ rg N Hs Hc) as [-> B] end.
    destruct (compute_score _ _ _ _ _ _ _ _) as [[sc r]| |]; cbn [bind]; [|split; [reflexivity|discriminate]..].
    split; [reflexivity|]. intros o' st r' H. injection H as <- <- <-. split; [exact Hi|].
    intros sc' H. injection H as <-. eapply B. reflexivity.
  - split; [reflexivity|]. intros o' st r' H. injection H as <- <- <-. split; [exact Hi|]. discriminate.
Qed.

(** ** FzfV2 *)

(** Cells are at most [B]; they cannot fall below the least i64 because of the saturating
    subtraction. *)
Definition cell (B : Z) (x : Z) : Prop := - 2 ^ 63 <= x <= B.

Lemma sat_cell B x y : cell B x -> 0 <= y -> cell B (saturating_sub x y).
Proof. unfold cell, saturating_sub, I64_MIN. lia. Qed.

Lemma cell_mono B B' x : B <= B' -> cell B x -> cell B' x.
Proof. unfold cell. lia. Qed.

Definition set_small (b : bonus) : Prop := b_is_set b = true -> (b_value b <= 10)%N.

Definition cache (cv : candidate_v2) : Prop := Forall set_small (cv_bonuses cv).

Lemma bonus_at_small s cv i b cv' : mild s -> cache cv -> bonus_at cv i s = Ok (b, cv') ->
  0 <= b <= 10 /\ cache cv' /\ cv_base cv' = cv_base cv.
Proof.
  intros Hs Hc. unfold bonus_at. destruct (idx (cv_bonuses cv) i) as [x| |] eqn:Ex; cbn [bind]; [|discriminate..].
  destruct (b_is_set x) eqn:Eset.
  - intros H. injection H as <- <-. apply (idx_forall _ set_small) in Ex; [|exact Hc]. specialize (Ex Eset).
    unfold bonus_value. split; [lia|auto].
  - destruct (if (i =? 0)%nat then _ else _) as [pc| |]; cbn [bind]; [|discriminate..].
    destruct (cand_char _ i) as [this| |]; cbn [bind]; [|discriminate..].
    pose proof (Hs pc (char_class this s)) as Hb. set (v := compute_bonus _ _ _) in *.
    assert (Ev : b_value (bonus_set v) = Z.to_N v).
    { unfold bonus_set. cbn [b_value]. rewrite Z.mod_small by lia. reflexivity. }
    destruct (set_idx _ _ _) as [bs| |] eqn:Es; cbn [bind]; [|discriminate..].
    intros H. injection H as <- <-. unfold bonus_value. rewrite Ev. split; [lia|]. split; [|reflexivity].
    unfold cache. cbn [cv_bonuses]. eapply set_idx_forall; [exact Es|exact Hc|]. intros _. rewrite Ev. lia.
Qed.

Lemma first_row_gap_cells B : forall n col row prev pen row' prev' pen',
  first_row_gap n col row prev pen = Ok (row', prev', pen') ->
  Forall (cell B) row -> cell B prev -> 0 <= pen -> Forall (cell B) row' /\ 0 <= pen'.
Proof.
  induction n as [|n IH]; intros col row prev pen row' prev' pen' H F Hp Hn; cbn [first_row_gap] in H.
  - injection H as <- _ <-. auto.
  - destruct (set_idx row col _) as [row1| |] eqn:E; cbn [bind] in H; [|discriminate..].
    pose proof (sat_cell B prev pen Hp Hn) as Hc.
    eapply IH; [exact H| |exact Hc|unfold GAP_EXTENSION; lia]. eapply set_idx_forall; [exact E|exact F|exact Hc].
Qed.

Lemma row_gap_cells B : forall n col row pen row' pen',
  row_gap n col row pen = Ok (row', pen') -> Forall (cell B) row -> 0 <= pen -> Forall (cell B) row' /\ 0 <= pen'.
Proof.
  induction n as [|n IH]; intros col row pen row' pen' H F Hn; cbn [row_gap] in H.
  - injection H as <- <-. auto.
  - destruct (usub col 1) as [i| |]; cbn [bind] in H; [|discriminate..].
    destruct (idx row i) as [l| |] eqn:El; cbn [bind] in H; [|discriminate..].
    destruct (set_idx row col _) as [row1| |] eqn:E; cbn [bind] in H; [|discriminate..].
    pose proof (idx_forall _ (cell B) _ _ _ El F) as Hl. pose proof (sat_cell B l pen Hl Hn) as Hc.
    eapply IH; [exact H| |unfold GAP_EXTENSION; lia]. eapply set_idx_forall; [exact E|exact F|exact Hc].
Qed.

Definition fr_ok (st : fr_state) : Prop :=
  Forall (cell 36) (fr_scores st) /\ Forall (fun n => (n <= 1)%nat) (fr_consecutives st) /\ cache (fr_cv st)
  /\ cell 36 (fr_prev_score st) /\ 0 <= fr_max_score st <= 36 /\ 0 <= fr_penalty st.

Lemma first_row_loop_same s : mild s -> forall ms st, fr_ok st ->
  first_row_loop_ck s ms st = first_row_loop s ms st
  /\ forall st', first_row_loop s ms st = Ok st' -> fr_ok st' /\ cv_base (fr_cv st') = cv_base (fr_cv st).
Proof.
  intros Hs. induction ms as [|off ms IH]; intros st (F & C & K & P & M & N); cbn [first_row_loop first_row_loop_ck].
  { split; [reflexivity|]. intros st' H. injection H as <-. repeat split; try assumption; apply P || apply M. }
  destruct (first_row_gap _ _ _ _ _) as [[[row prev] pen]| |] eqn:Eg; cbn [bind]; [|split; [reflexivity|discriminate]..].
  apply (first_row_gap_cells 36) in Eg as [Frow Hpen]; [|assumption..|unfold GAP_START; lia].
  destruct (set_idx (fr_consecutives st) off 1%nat) as [cons| |] eqn:Ec; cbn [bind]; [|split; [reflexivity|discriminate]..].
  apply (set_idx_forall _ (fun n => (n <= 1)%nat)) in Ec; [|assumption|lia].
  destruct (bonus_at (fr_cv st) off s) as [[b cv]| |] eqn:Eb; cbn [bind]; [|split; [reflexivity|discriminate]..].
  apply bonus_at_small in Eb as (Hb & Kcv & Ebase); [|assumption..].
  rewrite i64_ok by (unfold FIRST_QUERY_CHAR_MULTIPLIER; lia). cbn [bind].
  rewrite i64_ok by (unfold FIRST_QUERY_CHAR_MULTIPLIER, MATCH; lia). cbn [bind]. cbv zeta.
  set (sc := MATCH + b * FIRST_QUERY_CHAR_MULTIPLIER).
  assert (Hsc : 16 <= sc <= 36) by (subst sc; unfold FIRST_QUERY_CHAR_MULTIPLIER, MATCH; lia).
  destruct (set_idx row off sc) as [row1| |] eqn:Er; cbn [bind]; [|split; [reflexivity|discriminate]..].
  apply (set_idx_forall _ (cell 36)) in Er; [|assumption|unfold cell; lia].
  destruct (fr_max_score st <? sc) eqn:Em.
  - set (st1 := MkFr _ _ _ _ _ _ _ _). destruct (IH st1) as [E G].
    { subst st1. repeat split; cbn [fr_scores fr_consecutives fr_cv fr_prev_score fr_max_score fr_penalty]; try assumption; unfold cell; lia. }
    split; [exact E|]. intros st' H. destruct (G st' H) as [G1 G2]. split; [exact G1|]. rewrite G2. exact Ebase.
  - set (st1 := MkFr _ _ _ _ _ _ _ _). destruct (IH st1) as [E G].
    { subst st1. repeat split; cbn [fr_scores fr_consecutives fr_cv fr_prev_score fr_max_score fr_penalty]; try assumption; unfold cell; lia. }
    split; [exact E|]. intros st' H. destruct (G st' H) as [G1 G2]. split; [exact G1|]. rewrite G2. exact Ebase.
Qed.

Lemma score_first_row_same s row cons x cv : mild s -> cache cv ->
  Forall (cell 36) row -> Forall (fun n => (n <= 1)%nat) cons ->
  score_first_row_ck row cons x cv s = score_first_row row cons x cv s
  /\ forall row' cons' cv' sc cl, score_first_row row cons x cv s = Ok (row', cons', cv', sc, cl) ->
     Forall (cell 36) row' /\ Forall (fun n => (n <= 1)%nat) cons' /\ cache cv' /\ 0 <= sc <= 36 /\ cv_base cv' = cv_base cv.
Proof.
  intros Hs K F C. unfold score_first_row_ck, score_first_row. set (st := MkFr _ _ _ _ _ _ _ _).
  destruct (first_row_loop_same s Hs (cv_matches cv x) st) as [-> G].
  { subst st. repeat split; cbn [fr_scores fr_consecutives fr_cv fr_prev_score fr_max_score fr_penalty]; try assumption; try (unfold cell, GAP_START; lia). }
  split; [reflexivity|]. intros row' cons' cv' sc cl H.
  destruct (first_row_loop _ _ _) as [st'| |]; cbn [bind] in H; [|discriminate..].
  destruct (G st' eq_refl) as [(F' & C' & K' & P' & M' & N') Eb].
  destruct (first_row_gap _ _ _ _ _) as [[[r pr] pn]| |] eqn:Eg; cbn [bind] in H; [|discriminate..].
  apply (first_row_gap_cells 36) in Eg as [Frow _]; [|assumption..]. injection H as <- <- <- <- <-. auto.
Qed.

Definition rr_ok (B : Z) (n : nat) (st : rr_state) : Prop :=
  Forall (cell B) (rr_scores st) /\ Forall (fun k => (k <= n)%nat) (rr_consecutives st) /\ cache (rr_cv st)
  /\ 0 <= rr_max_score st <= B /\ 0 <= rr_penalty st.

Lemma row_loop_same s w i prev pcons B n : mild s ->
  Forall (cell (B - 26)) prev -> Forall (fun k => (k < n)%nat) pcons ->
  36 <= B < 2 ^ 60 -> Z.of_nat n < 2 ^ 60 -> Z.of_nat w < 2 ^ 28 -> Z.of_nat i < 2 ^ 28 -> length prev = w ->
  forall ms st, rr_ok B n st ->
  row_loop_ck s w i prev pcons ms st = row_loop s w i prev pcons ms st
  /\ forall st', row_loop s w i prev pcons ms st = Ok st' -> rr_ok B n st' /\ cv_base (rr_cv st') = cv_base (rr_cv st).
Proof.
  intros Hs Fp Cp HB Hn Hw Hi Hlen. induction ms as [|off ms IH]; intros st (F & C & K & M & N); cbn [row_loop row_loop_ck].
  { split; [reflexivity|]. intros st' H. injection H as <-. split; [|reflexivity]. repeat split; try assumption; apply M. }
  destruct (row_gap _ _ _ _) as [[row pen]| |] eqn:Eg; cbn [bind]; [|split; [reflexivity|discriminate]..].
  apply (row_gap_cells B) in Eg as [Frow Hpen]; [|assumption|unfold GAP_START; lia].
  destruct (usub off 1) as [left| |] eqn:Eo; cbn [bind]; [|split; [reflexivity|discriminate]..].
  destruct (idx row left) as [l| |] eqn:El; cbn [bind]; [|split; [reflexivity|discriminate]..].
  apply (idx_forall _ (cell B)) in El; [|assumption]. pose proof (sat_cell B l pen El Hpen) as Hsl.
  set (sl := saturating_sub l pen) in *. cbv zeta.
  destruct (idx prev left) as [ul| |] eqn:Eu; cbn [bind]; [|split; [reflexivity|discriminate]..].
  assert (Hoff : (off <= w)%nat).
  { unfold usub in Eo. destruct (Nat.leb_spec 1 off) as [E1|E1]; [|discriminate]. assert (left = off - 1)%nat as -> by congruence.
    apply idx_inv in Eu. assert (off - 1 < length prev)%nat by (apply nth_error_Some; congruence). lia. }
  apply (idx_forall _ (cell (B - 26))) in Eu; [|assumption]. unfold cell in Eu.
  rewrite i64_ok by (unfold MATCH; lia). cbn [bind].
  destruct (bonus_at (rr_cv st) off s) as [[b cv]| |] eqn:Eb; cbn [bind]; [|split; [reflexivity|discriminate]..].
  apply bonus_at_small in Eb as (Hb & Kcv & Ebase); [|assumption..].
  destruct (idx pcons left) as [pc| |] eqn:Epc; cbn [bind]; [|split; [reflexivity|discriminate]..].
  apply (idx_forall _ (fun k => (k < n)%nat)) in Epc; [|assumption].
  rewrite usize_ok by lia. cbn [bind].
  set (blk := if (1 <? pc + 1)%nat then _ else _).
  assert (Hblk : forall b1 k1 cv1, blk = Ok (b1, k1, cv1) -> 0 <= b1 <= 10 /\ (k1 <= n)%nat /\ cache cv1 /\ cv_base cv1 = cv_base cv).
  { subst blk. intros b1 k1 cv1 H. destruct (_ <? _)%nat.
    - destruct (usub (off + 1) (pc + 1)) as [fi| |]; cbn [bind] in H; [|discriminate..].
      destruct (bonus_at cv fi s) as [[fb cv2]| |] eqn:Ef; cbn [bind] in H; [|discriminate..].
      apply bonus_at_small in Ef as (Hf & Kf & Ebf); [|assumption..]. unfold CONSECUTIVE, GAP_START, GAP_EXTENSION in H.
      destruct (_ && _)%bool; injection H as <- <- <-; repeat split; try assumption; lia.
    - injection H as <- <- <-. repeat split; try assumption; lia. }
  destruct blk as [[[b1 k1] cv1]| |]; cbn [bind]; [|split; [reflexivity|discriminate]..].
  destruct (Hblk b1 k1 cv1 eq_refl) as (Hb1 & Hk1 & Kcv1 & Eb1).
  rewrite i64_ok by (unfold MATCH; lia). cbn [bind].
  set (sel_ck := if ul + MATCH + b1 <? sl then (let* '(b2, cv2) := bonus_at cv1 off s in let* x := i64 (ul + MATCH + b2) in Ok (x, 0%nat, cv2))
                 else Ok (ul + MATCH + b1, k1, cv1)).
  set (sel := if ul + MATCH + b1 <? sl then (let* '(b2, cv2) := bonus_at cv1 off s in Ok (ul + MATCH + b2, 0%nat, cv2)) else Ok (ul + MATCH + b1, k1, cv1)).
  assert (Hsel : sel_ck = sel /\ forall x k2 cv2, sel = Ok (x, k2, cv2) -> cell B x /\ (k2 <= n)%nat /\ cache cv2 /\ cv_base cv2 = cv_base cv1).
  { subst sel sel_ck. unfold MATCH. destruct (_ <? _).
    - destruct (bonus_at cv1 off s) as [[b2 cv2]| |] eqn:E2; cbn [bind]; [|split; [reflexivity|discriminate]..].
      apply bonus_at_small in E2 as (H2 & K2 & Eb2); [|assumption..]. rewrite i64_ok by lia. cbn [bind].
      split; [reflexivity|]. intros x k2 cv3 H. injection H as <- <- <-. unfold cell. repeat split; try assumption; lia.
    - split; [reflexivity|]. intros x k2 cv3 H. injection H as <- <- <-.
      unfold cell. repeat split; try assumption; lia. }
  destruct Hsel as [-> Hsel]. fold sel. destruct sel as [[[x k2] cv2]| |]; cbn [bind]; [|split; [reflexivity|discriminate]..].
  destruct (Hsel x k2 cv2 eq_refl) as (Hx & Hk2 & Kcv2 & Eb2).
  set (sc := Z.max sl x). assert (Hsc : cell B sc) by (subst sc; unfold cell in *; lia).
  assert (Emax : (if rr_max_score st <? sc then
             let* start := usize (i * w) in let* cl := usize (start + off) in Ok (sc, cl)
           else Ok (rr_max_score st, rr_max_score_cell st))
          = Ok (if rr_max_score st <? sc then (sc, (i * w + off)%nat) else (rr_max_score st, rr_max_score_cell st))).
  { destruct (_ <? _); [|reflexivity]. rewrite usize_ok by nia. cbn [bind]. rewrite usize_ok by nia. reflexivity. }
  rewrite Emax. cbn [bind].
  assert (Hmx : 0 <= fst (if rr_max_score st <? sc then (sc, (i * w + off)%nat) else (rr_max_score st, rr_max_score_cell st)) <= B).
  { unfold cell in Hsc. destruct (rr_max_score st <? sc) eqn:Em; cbn [fst]; [|lia]. apply Z.ltb_lt in Em. lia. }
  set (mxp := if rr_max_score st <? sc then (sc, (i * w + off)%nat) else (rr_max_score st, rr_max_score_cell st)) in *.
  destruct mxp as [mx mcell]. cbn [fst] in Hmx. cbv iota beta.
  destruct (set_idx (rr_consecutives st) off k2) as [cons| |] eqn:Ec; cbn [bind]; [|split; [reflexivity|discriminate]..].
  apply (set_idx_forall _ (fun k => (k <= n)%nat)) in Ec; [|assumption..].
  destruct (set_idx row off sc) as [row1| |] eqn:Er; cbn [bind]; [|split; [reflexivity|discriminate]..].
  apply (set_idx_forall _ (cell B)) in Er; [|assumption..].
  set (st1 := MkRr _ _ _ _ _ _ _). destruct (IH st1) as [E G].
  { subst st1. repeat split; cbn [rr_scores rr_consecutives rr_cv rr_max_score rr_penalty]; try assumption; apply Hmx. }
  split; [exact E|]. intros st' H. destruct (G st' H) as [G1 G2]. split; [exact G1|]. rewrite G2. subst st1. cbn [rr_cv]. congruence.
Qed.

Lemma two_rows_length A (m : matrix A) i j a b : two_rows_mut m i j = Ok (a, b) -> length a = m_width m.
Proof.
  unfold two_rows_mut. destruct (assert_ _) as [u| |]; cbn [bind]; [|discriminate..].
  destruct (slice_to _ _) as [pa| |]; cbn [bind]; [|discriminate..].
  destruct (slice_from _ _) as [pb| |]; cbn [bind]; [|discriminate..].
  destruct (slice pa _ _) as [ra| |] eqn:E; cbn [bind]; [|discriminate..].
  destruct (slice_to pb _) as [rb| |]; cbn [bind]; [|discriminate..]. intros H. injection H as <- _.
  unfold slice in E. destruct (_ && _)%bool eqn:E2 in E; [|discriminate]. injection E as <-.
  apply andb_prop in E2 as [_ E2]. apply Nat.leb_le in E2. rewrite firstn_length, skipn_length. lia.
Qed.

Definition top (i : nat) : Z := 10 + 26 * Z.of_nat i.

Lemma remaining_same s p ms : mild s -> forall n i scores cons cv mx cl,
  let inv (i : nat) (sc : matrix score) (co : matrix nat) (cv : candidate_v2) (mx : Z) :=
    Forall (cell (top i)) (m_slice sc) /\ Forall (fun k => (k <= i)%nat) (m_slice co) /\ cache cv /\ 0 <= mx <= top i
    /\ Z.of_nat (m_width sc) < 2 ^ 28 in
  inv i scores cons cv mx -> (1 <= i)%nat -> Z.of_nat (i + n) < 2 ^ 28 ->
  score_remaining_rows_ck n i s p ms scores cons cv mx cl = score_remaining_rows n i s p ms scores cons cv mx cl
  /\ forall sc' co' cv' mx' cl', score_remaining_rows n i s p ms scores cons cv mx cl = Ok (sc', co', cv', mx', cl') ->
     inv (i + n)%nat sc' co' cv' mx' /\ cv_base cv' = cv_base cv.
Proof.
  intros Hs n. induction n as [|n IH]; intros i scores cons cv mx cl inv HI Hi Hn; cbn [score_remaining_rows score_remaining_rows_ck].
  { split; [reflexivity|]. intros sc' co' cv' mx' cl' H. injection H as <- <- <- <- <-. rewrite Nat.add_0_r. auto. }
  destruct HI as (F & C & K & M & W). cbv zeta.
  destruct (p_char p i) as [x| |]; cbn [bind]; [|split; [reflexivity|discriminate]..].
  destruct (usub i 1) as [j| |]; cbn [bind]; [|split; [reflexivity|discriminate]..].
  destruct (two_rows_mut scores j i) as [[pr row]| |] eqn:E1; cbn [bind]; [|split; [reflexivity|discriminate]..].
  pose proof (two_rows_length _ _ _ _ _ _ E1) as Lp. apply (two_rows_forall _ (cell (top i))) in E1 as [Fp Frow]; [|assumption].
  destruct (two_rows_mut cons j i) as [[pc crow]| |] eqn:E2; cbn [bind]; [|split; [reflexivity|discriminate]..].
  apply (two_rows_forall _ (fun k => (k <= i)%nat)) in E2 as [Cp Crow]; [|assumption].
  destruct (idx ms i) as [fm| |]; cbn [bind]; [|split; [reflexivity|discriminate]..].
  destruct (cv_matches_from cv fm x) as [offs| |]; cbn [bind]; [|split; [reflexivity|discriminate]..].
  assert (Htop : top (i + 1) = top i + 26) by (unfold top; lia).
  set (st := MkRr _ _ _ _ _ _ _).
  destruct (row_loop_same s (m_width scores) i pr pc (top (i + 1)) (i + 1) Hs) with (ms := offs) (st := st) as [-> G].
  { rewrite Htop. replace (top i + 26 - 26) with (top i) by lia. exact Fp. }
  { eapply Forall_impl; [|exact Cp]. cbv beta. intros; lia. }
  { unfold top. lia. }
  { lia. }
  { exact W. }
  { lia. }
  { exact Lp. }
  { subst st. repeat split; cbn [rr_scores rr_consecutives rr_cv rr_max_score rr_penalty]; try assumption; try lia.
    - eapply Forall_impl; [|exact Frow]. intros z. apply cell_mono. lia.
    - eapply Forall_impl; [|exact Crow]. cbv beta. intros; lia.
    - unfold GAP_START. lia. }
  destruct (row_loop _ _ _ _ _ _ _) as [st'| |]; cbn [bind]; [|split; [reflexivity|discriminate]..].
  destruct (G st' eq_refl) as [(F' & C' & K' & M' & N') Eb]. subst st. cbn [rr_cv] in Eb.
  destruct (row_gap _ _ _ _) as [[row2 pen2]| |] eqn:Eg; cbn [bind]; [|split; [reflexivity|discriminate]..].
  apply (row_gap_cells (top (i + 1))) in Eg as [Frow2 _]; [|assumption..].
  destruct (IH (i + 1)%nat (put_row scores i row2) (put_row cons i (rr_consecutives st')) (rr_cv st') (rr_max_score st') (rr_max_score_cell st')) as [E H].
  { split; [apply put_row_forall; [|exact Frow2]; eapply Forall_impl; [|exact F]; intros z; apply cell_mono; lia|].
    split; [apply put_row_forall; [|exact C']; eapply Forall_impl; [|exact C]; cbv beta; intros; lia|].
    split; [exact K'|]. split; [exact M'|]. exact W. }
  { lia. }
  { lia. }
  split; [exact E|]. intros sc' co' cv' mx' cl' HE. destruct (H _ _ _ _ _ HE) as [H1 H2].
  replace (i + S n)%nat with (i + 1 + n)%nat by lia. split; [exact H1|]. congruence.
Qed.

Lemma v2_score_same N s sslab cslab p cv ms : mild s -> cache cv -> small N (cv_base cv) -> (p_char_len p <= N)%nat ->
  v2_score_ck sslab cslab p cv ms s = v2_score sslab cslab p cv ms s
  /\ forall a b cv' sc d e f, v2_score sslab cslab p cv ms s = Ok (a, b, cv', sc, d, e, f) ->
     0 <= sc <= 36 * Z.of_nat N.
Proof.
  intros Hs K [Hc HN] Hp. unfold v2_score_ck, v2_score, matrix_alloc_ck. cbv zeta. rewrite cand_char_len_spec.
  set (w := length (cand_slice (cv_base cv))) in *. set (h := p_char_len p) in *.
  rewrite usize_ok by nia. cbn [bind].
  destruct (matrix_alloc 0 sslab w h) as [[sm sv]| |] eqn:E1; cbn [bind]; [|split; [reflexivity|discriminate]..].
  destruct (matrix_alloc 0%nat cslab w h) as [[cm cvv]| |] eqn:E2; cbn [bind]; [|split; [reflexivity|discriminate]..].
  assert (A1 : Forall (cell 36) (m_slice sm) /\ m_width sm = w /\ m_height sm = h /\ (1 <= h)%nat).
  { unfold matrix_alloc, assert_ in E1. destruct (0 <? h * w)%nat eqn:E0; [|discriminate]. cbn [bind] in E1.
    destruct (slice_to _ _) as [sl| |]; cbn [bind] in E1; [|discriminate..]. injection E1 as <- _. cbn [m_slice m_width m_height].
    split; [apply Forall_forall; intros z Hz; apply in_map_iff in Hz as (? & <- & _); unfold cell; lia|].
    apply Nat.ltb_lt in E0. repeat split. nia. }
  assert (A2 : Forall (fun k => (k <= 1)%nat) (m_slice cm)).
  { unfold matrix_alloc, assert_ in E2. destruct (0 <? h * w)%nat; [|discriminate]. cbn [bind] in E2.
    destruct (slice_to _ _) as [sl| |]; cbn [bind] in E2; [|discriminate..]. injection E2 as <- _. cbn [m_slice].
    apply Forall_forall. intros z Hz. apply in_map_iff in Hz as (? & <- & _). lia. }
  destruct A1 as (F & Ew & Eh & Hh).
  destruct (row_mut sm 0) as [row| |] eqn:E3; cbn [bind]; [|split; [reflexivity|discriminate]..].
  destruct (row_mut cm 0) as [crow| |] eqn:E4; cbn [bind]; [|split; [reflexivity|discriminate]..].
  assert (R : forall A (P : A -> Prop) (m : matrix A) l, row_mut m 0 = Ok l -> Forall P (m_slice m) -> Forall P l).
  { intros A P m l E G. unfold row_mut, slice in E. destruct (_ && _)%bool; [|discriminate]. injection E as <-.
    apply firstn_forall; exact G. }
  apply (R _ (cell 36)) in E3; [|exact F]. apply (R _ (fun k => (k <= 1)%nat)) in E4; [|exact A2]. clear R.
  destruct (p_char p 0) as [x| |]; cbn [bind]; [|split; [reflexivity|discriminate]..].
  destruct (score_first_row_same s row crow x cv Hs K E3 E4) as [-> G].
  destruct (score_first_row row crow x cv s) as [[[[[row1 crow1] cv1] mx] mc]| |]; cbn [bind]; [|split; [reflexivity|discriminate]..].
  destruct (G _ _ _ _ _ eq_refl) as (F1 & C1 & K1 & M1 & Eb1).
  destruct (remaining_same s p ms Hs (m_height sm - 1) 1 (put_row sm 0 row1) (put_row cm 0 crow1) cv1 mx mc) as [-> H].
  { split; [apply put_row_forall; assumption|]. split; [apply put_row_forall; assumption|]. split; [exact K1|]. split; [exact M1|].
    change (m_width (put_row sm 0 row1)) with (m_width sm). lia. }
  { lia. }
  { lia. }
  split; [reflexivity|]. intros a b cv' sc d e f E.
  destruct (score_remaining_rows _ _ _ _ _ _ _ _ _ _) as [[[[[sc2 co2] cv2] mx2] mc2]| |]; cbn [bind] in E; [|discriminate..].
  destruct (H _ _ _ _ _ eq_refl) as [(_ & _ & _ & M2 & _) _]. injection E as _ _ _ <- _ _ _.
  unfold top in M2. lia.
Qed.

Lemma single_char_same c s : mild s -> forall ms mx pos, 0 <= mx <= 36 ->
  single_char_loop_ck c s ms mx pos = single_char_loop c s ms mx pos
  /\ forall mx' pos', single_char_loop c s ms mx pos = Ok (mx', pos') -> 0 <= mx' <= 36.
Proof.
  intros Hs. induction ms as [|off ms IH]; intros mx pos Hm; cbn [single_char_loop single_char_loop_ck].
  { split; [reflexivity|]. intros mx' pos' H. injection H as <- _. exact Hm. }
  destruct (if (off =? 0)%nat then _ else _) as [pc| |]; cbn [bind]; [|split; [reflexivity|discriminate]..].
  destruct (cand_char c off) as [x| |]; cbn [bind]; [|split; [reflexivity|discriminate]..].
  pose proof (Hs pc (char_class x s)) as Hb. unfold FIRST_QUERY_CHAR_MULTIPLIER, MATCH. cbv zeta.
  rewrite i64_ok by lia. cbn [bind]. rewrite i64_ok by lia. cbn [bind].
  destruct (_ <? _); apply IH; lia.
Qed.

Lemma v2_fuzzy_same N o R m p c rg : v2_inv o m -> small N c -> (p_char_len p <= N)%nat -> (1 <= N)%nat ->
  same_st N (v2_inv o) (v2_fuzzy_ck R m p c rg) (v2_fuzzy R m p c rg).
Proof.
  intros Hi Hc Hp HN1. assert (Hs : mild (v2_scoring_scheme m)) by (destruct Hi as (_ & _ & ->); apply mild_into_inner).
  unfold v2_fuzzy_ck, v2_fuzzy. cbv zeta. destruct (_ =? _)%nat.
  - destruct (p_char p 0) as [x| |]; cbn [bind]; [|split; [reflexivity|discriminate]..].
    unfold fuzzy_single_char_ck, fuzzy_single_char.
    match goal with |- context [single_char_loop_ck c ?s ?ms 0 0] => destruct (single_char_same c s Hs ms 0 0%nat) as [-> B]; [lia|] end.
    destruct (single_char_loop _ _ _ _ _) as [[mx pos]| |]; cbn [bind]; [|split; [reflexivity|discriminate]..].
    specialize (B mx pos eq_refl). split; [reflexivity|]. intros o' st r H. destruct (mx =? 0).
    + cbn [bind] in H. injection H as <- <- <-. split; [exact Hi|]. discriminate.
    + match type of H with bind (bind ?z _) _ = _ => destruct z as [rg'| |]; cbn [bind] in H; [|discriminate..] end.
      injection H as <- <- <-. split; [exact Hi|]. intros sc H. injection H as <-. lia.
  - destruct (v2_matches _ p c _) as [[r ind]| |]; cbn [bind]; [|split; [reflexivity|discriminate]..].
    destruct r as [[offs last]|].
    2: { split; [reflexivity|]. intros o' st r H. injection H as <- <- <-. split; [exact Hi|]. discriminate. }
    destruct (idx offs 0) as [fo| |]; cbn [bind]; [|split; [reflexivity|discriminate]..].
    destruct (if R then to_byte_offset c fo else Ok 0%nat) as [sb| |]; cbn [bind]; [|split; [reflexivity|discriminate]..].
    destruct (if (fo =? 0)%nat then _ else _) as [init| |]; cbn [bind]; [|split; [reflexivity|discriminate]..].
    destruct (cand_slice_range c fo last) as [base| |] eqn:Eb; cbn [bind]; [|split; [reflexivity|discriminate]..].
    destruct (bonus_alloc _ _) as [[bs bv]| |] eqn:Ea; cbn [bind]; [|split; [reflexivity|discriminate]..].
    destruct (fold_right _ _ _) as [offs'| |]; cbn [bind]; [|split; [reflexivity|discriminate]..].
    match goal with |- context [v2_score_ck ?x ?y p ?cv offs' ?s] =>
      destruct (v2_score_same N s x y p cv offs' Hs) as [-> B] end.
    { unfold cache. cbn [cv_bonuses]. unfold bonus_alloc in Ea. destruct (slice_to _ _) as [sl| |]; cbn [bind] in Ea; [|discriminate..].
      injection Ea as <- _. apply Forall_forall. intros z Hz. apply in_map_iff in Hz as (? & <- & _). intros H. discriminate. }
    { cbn [cv_base]. destruct Hc as [Hc HN]. split; [|exact HN].
      unfold cand_slice_range, slice in Eb. destruct c as [l|l]; cbn [cand_slice] in Hc;
      (destruct (_ && _)%bool; cbn [bind] in Eb; [|discriminate]); injection Eb as <-; cbn [cand_slice];
      rewrite firstn_length, skipn_length; lia. }
    { exact Hp. }
    destruct (v2_score _ _ _ _ _ _) as [[[[[[[sm cm] cv'] sc] cl] sv] cvv]| |]; cbn [bind]; [|split; [reflexivity|discriminate]..].
    specialize (B _ _ _ _ _ _ _ eq_refl). split; [reflexivity|]. intros o' st r H.
    match type of H with bind ?z _ = _ => destruct z as [rg'| |]; cbn [bind] in H; [|discriminate..] end.
    injection H as <- <- <-. split; [exact Hi|]. intros sc' H. injection H as <-. lia.
Qed.

(** ** The metrics *)

Lemma v1_alloc_same o m s l m' : v1_inv o m -> v1_alloc_chars m s = Ok (l, m') -> v1_inv o m' /\ l = s.
Proof. intros H E. destruct (v1_alloc_ok o m s H) as (m1 & H1 & E1). rewrite E1 in E. injection E as <- <-. auto. Qed.

Lemma v2_alloc_same o m s l m' : v2_inv o m -> v2_alloc_chars m s = Ok (l, m') -> v2_inv o m' /\ l = s.
Proof. intros H E. destruct (v2_alloc_ok o m s H) as (m1 & H1 & E1). rewrite E1 in E. injection E as <- <-. auto. Qed.

Lemma metric_same N a o m q c buf : has_options a o m -> small_query N q -> (length c <= N)%nat -> (1 <= N)%nat -> Z.of_nat N < 2 ^ 28 ->
  metric_distance_ck m q c = metric_distance m q c
  /\ metric_distance_and_ranges_ck m q c buf = metric_distance_and_ranges m q c buf.
Proof.
  intros Hi Hq Hc H1 HN. destruct a, m as [m|m]; try contradiction.
  - assert (G : forall R b, fzf_distance_ck v1_alloc_chars v1_char_eq v1_scoring_scheme v1_fuzzy_ck R m q c b
        = fzf_distance v1_alloc_chars v1_char_eq v1_scoring_scheme v1_fuzzy R m q c b).
    { intros R b. apply (fzf_distance_same _ _ _ _ _ (v1_inv o) N HN); try assumption.
      - intros st Hst. destruct Hst as (_ & _ & ->). apply mild_into_inner.
      - apply v1_alloc_same.
      - intros R' st p c' rg Hst Hsm _. apply v1_fuzzy_same; assumption. }
    cbn [metric_distance_ck metric_distance metric_distance_and_ranges_ck metric_distance_and_ranges].
    unfold v1_distance, v1_distance_and_ranges, v1_fzf_distance. rewrite !G. split; [|reflexivity].
    destruct (fzf_distance _ _ _ _ false m q c []) as [[[d m'] b]| |]; reflexivity.
  - assert (G : forall R b, fzf_distance_ck v2_alloc_chars v2_char_eq v2_scoring_scheme v2_fuzzy_ck R m q c b
        = fzf_distance v2_alloc_chars v2_char_eq v2_scoring_scheme v2_fuzzy R m q c b).
    { intros R b. apply (fzf_distance_same _ _ _ _ _ (v2_inv o) N HN); try assumption.
      - intros st Hst. destruct Hst as (_ & _ & ->). apply mild_into_inner.
      - apply v2_alloc_same.
      - intros R' st p c' rg Hst Hsm Hp. apply v2_fuzzy_same; assumption. }
    cbn [metric_distance_ck metric_distance metric_distance_and_ranges_ck metric_distance_and_ranges].
    unfold v2_distance, v2_distance_and_ranges, v2_fzf_distance. rewrite !G. split; [|reflexivity].
    destruct (fzf_distance _ _ _ _ false m q c []) as [[[d m'] b]| |]; reflexivity.
Qed.

End WithUnicode.
