(** How many iterations Cost.v counts exactly, for fuzzy terms which match. *)
From Coq Require Import Sorted.
From Verif Require Import Prelude Chars Utils Candidate MatchedRanges Query Scoring Slab Fzf FzfV1 FzfV2 Api Cost.
From Verif Require Import PreludeProofs CharsProofs CandidateProofs ScoreProofs V1Proofs V2Proofs V2Rows V2Fuzzy CostProofs CostBounds.
Local Open Scope nat_scope.

(** If [t] returns [a], it does so after [n] iterations. *)
Definition takes {A : Type} (t : timed A) (P : A -> nat -> Prop) : Prop :=
  runs t (fun o n => match o with Some a => P a n | None => True end).

Lemma takes_lift A (r : res A) (P : A -> nat -> Prop) : (forall a, r = Ok a -> P a 0) -> takes (lift r) P.
Proof. intros H. apply runs_lift; [exact I|exact H]. Qed.

Lemma takes_spend A n (t : timed A) (P : A -> nat -> Prop) : takes t (fun a k => P a (n + k)) -> takes (spend n t) P.
Proof. exact (fun H => H). Qed.

Lemma takes_bind A B (t : timed A) (k : A -> timed B) (P : B -> nat -> Prop) :
  takes t (fun a n => takes (k a) (fun b n' => P b (n + n'))) -> takes (tbind t k) P.
Proof. unfold takes, runs, tbind. destruct (fst t); cbn [fst snd spend]; auto. Qed.

Lemma takes_pure A B (r : res A) (k : A -> timed B) (P : B -> nat -> Prop) :
  (forall a, r = Ok a -> takes (k a) P) -> takes (tbind (lift r) k) P.
Proof. intros H. apply runs_pure; [exact I|exact H]. Qed.

Lemma takes_weaken A (t : timed A) (P Q : A -> nat -> Prop) : takes t P -> (forall a n, P a n -> Q a n) -> takes t Q.
Proof. unfold takes, runs. intros H X. destruct (fst t); auto. Qed.

Lemma takes_ok A (a : A) (P : A -> nat -> Prop) : P a 0 -> takes (lift (Ok a)) P.
Proof. exact (fun H => H). Qed.

Lemma takes_same A (t : timed A) (r : res A) (P : A -> nat -> Prop) :
  fst t = r -> takes t P -> takes t (fun a n => r = Ok a /\ P a n).
Proof. intros <-. unfold takes, runs. destruct (fst t); auto. Qed.

Lemma takes_get A (t : timed A) a (P : A -> nat -> Prop) : takes t P -> fst t = Ok a -> P a (snd t).
Proof. unfold takes, runs. intros H E. rewrite E in H. exact H. Qed.

(** * Searching *)

Lemma first_from_takes c off ch cs eq :
  takes (find_first_from_tm c off ch cs eq) (fun o n => match o with Some x => n = x + 1 - off /\ off <= x < cand_char_len c | None => True end).
Proof.
  unfold takes, runs. pose proof (first_from_found c off ch cs eq) as H.
  destruct (fst _) as [[x|]| |]; try exact I. apply H. reflexivity.
Qed.

Lemma last_from_takes c e ch cs eq :
  takes (find_last_from_tm c e ch cs eq) (fun o n => match o with Some x => n = e - x /\ x < e | None => True end).
Proof.
  unfold takes, runs. pose proof (last_from_found c e ch cs eq) as H.
  destruct (fst _) as [[x|]| |]; try exact I. apply H. reflexivity.
Qed.

Lemma last_takes c ch cs eq : takes (find_last_tm c ch cs eq) (fun o n => match o with Some x => n = cand_char_len c - x | None => True end).
Proof.
  destruct c as [l|l]; cbn [find_last_tm cand_char_len].
  - destruct (is_ascii ch); [|exact I]. apply takes_spend, takes_ok. destruct (find_last_ascii _ _ _) as [x|] eqn:E; [|exact I].
    apply last_ascii_found in E as [-> _]. lia.
  - apply takes_spend, takes_ok. destruct (find_last_unicode _ _ _) as [x|] eqn:E; [|exact I].
    unfold find_last_unicode in E. apply search_last in E as [-> _]. lia.
Qed.

(** * FzfV1 *)

(** Forwards: one iteration per character of the query, and one per character of the candidate up to the end. *)
Lemma forward_takes c o ps : forall p e,
  takes (forward_loop_tm c o p ps e) (fun r n =>
    match r with Some x => n + e = S (length ps) + x /\ e <= x | None => True end).
Proof.
  induction ps as [|q ps IH]; intros p e; cbn [forward_loop_tm length]; apply takes_spend, takes_bind;
    (eapply takes_weaken; [apply first_from_takes|]); intros [x|] k H; try exact I.
  - apply takes_ok. lia.
  - cbv zeta. eapply takes_weaken; [apply IH|]. intros [y|] n; [lia|auto].
Qed.

Lemma backward_takes c o ps : forall p e,
  takes (backward_loop_tm c o p ps e) (fun s n => n + s = S (length ps) + e /\ s <= e).
Proof.
  induction ps as [|q ps IH]; intros p e; cbn [backward_loop_tm length]; apply takes_spend, takes_bind;
    (eapply takes_weaken; [apply last_from_takes|]); intros [x|] k H; apply takes_pure; intros y E; try discriminate E;
    injection E as <-.
  - apply takes_ok. lia.
  - eapply takes_weaken; [apply IH|]. intros s n. cbv beta. lia.
Qed.

Section WithUnicode.
Context {UC : unicode}.

Lemma last_default (l : list nat) d d' : l <> [] -> last l d = last l d'.
Proof. induction l as [|x [|y l] IH]; intros H; [congruence|reflexivity|]. apply IH. discriminate. Qed.

(** Scoring: one iteration per character up to the last of the greedy match. *)
Lemma score_loop_takes eq s chars : forall st k ps, greedy eq (cs_pattern_char st :: cs_pattern_chars st) chars k = Some ps ->
  snd (compute_score_loop_tm eq s chars st) + k = S (last ps 0).
Proof.
  induction chars as [|x chars IH]; intros st k ps G; [discriminate G|]. rewrite greedy_cons in G.
  cbn [compute_score_loop_tm]. cbv zeta. rewrite steps_spend. destruct (eq _ x).
  - destruct (greedy eq (cs_pattern_chars st) chars (S k)) as [qs|] eqn:G'; [|discriminate G]. injection G as <-.
    destruct (cs_pattern_chars st) as [|y ys] eqn:Ep.
    + rewrite greedy_nil in G'. injection G' as <-. destruct (_ =? 0); rewrite steps_lift; cbn [last]; lia.
    + assert (qs <> []) as Hq by (apply greedy_length in G'; destruct qs; [discriminate G'|discriminate]).
      assert (last (k :: qs) 0 = last qs 0) as -> by (destruct qs; [congruence|reflexivity]).
      destruct (_ =? 0); cbv zeta;
        match goal with |- context [compute_score_loop_tm eq s chars ?st] => specialize (IH st (S k) qs G') end; lia.
  - match goal with |- context [compute_score_loop_tm eq s chars ?st] => specialize (IH st (S k) ps G) end. lia.
Qed.

Lemma cand_chars_slice c a b sl chars : cand_slice_range c a b = Ok sl -> cand_chars sl = Ok chars ->
  chars = firstn (b - a) (skipn a (cand_slice c)).
Proof.
  assert (H : forall c' chars, cand_chars c' = Ok chars -> chars = cand_slice c').
  { intros [l|l] ch E; unfold cand_chars in E; cbn [cand_chars_from cand_slice] in E |- *; rewrite slice_from_ok in E by lia;
      injection E as <-; reflexivity. }
  intros E1 E2. apply H in E2. subst chars. destruct c as [l|l]; cbn [cand_slice_range] in E1; apply ok_bind in E1 as (l' & E & E1);
    injection E1 as <-; cbn [cand_slice]; unfold slice in E; destruct (_ && _)%bool; [injection E as <-; reflexivity|discriminate|
    injection E as <-; reflexivity|discriminate].
Qed.

(** [ps] is what FzfV1 highlights: 2 iterations per character of the query, one per character of the candidate
    up to the end of the match and two per character of the window. *)
Lemma v1_fuzzy_takes m p c r ps : cand_ok c -> p_text p <> [] ->
  v1_positions (is_sensitive (v1_case_sensitivity m) p) (v1_candidate_normalization m) (p_text p) (cand_slice c) = Some ps ->
  takes (v1_fuzzy_tm m p c r) (fun _ n => n = 2 * p_char_len p + S (last ps 0) + 2 * (S (last ps 0) - hd 0 ps)).
Proof.
  intros Hc Hp Ev. unfold v1_fuzzy_tm. cbv zeta. set (sens := is_sensitive _ _) in *. set (norm := v1_candidate_normalization m) in *.
  pose proof Ev as Ev'. unfold v1_positions in Ev'.
  destruct (greedy (char_eq sens norm) (p_text p) (cand_slice c) 0) as [fs|] eqn:G; [|discriminate]. clear Ev'.
  destruct (v1_window sens norm _ _ _ Hp G) as (s & ps' & Er & Hse & Hel & Ev2 & Gp & _ & Hhd & Hla & _).
  rewrite Ev in Ev2. injection Ev2 as <-. rewrite Hhd, Hla. set (e := S (last fs 0)) in *. set (o := opts_new sens norm).
  apply takes_bind. eapply takes_weaken;
    [apply (takes_same _ _ _ (fun r n => match r with Some x => n = p_char_len p + x | None => True end) (forward_pass_same p c o))|].
  { unfold forward_pass_tm, p_char_len. destruct (p_text p) as [|x t] eqn:Et; [congruence|].
    eapply takes_weaken; [apply forward_takes|]. cbn [length]. intros [a|] n Hn; [lia|exact I]. }
  intros [e'|] k [E H].
  2:{ unfold o in E. rewrite forward_pass_spec in E by assumption. rewrite G in E. discriminate E. }
  unfold o in E. rewrite forward_pass_spec in E by assumption. rewrite G in E. injection E as <-. fold e in H |- *.
  apply takes_bind. eapply takes_weaken; [apply (takes_same _ _ _ (fun s n => n + s = p_char_len p + e) (backward_pass_same p c e o))|].
  { unfold backward_pass_tm. unfold p_char_len. rewrite <- (rev_length (p_text p)).
    destruct (rev (p_text p)) as [|x t]; [exact I|]. eapply takes_weaken; [apply backward_takes|]. cbn [length]. intros a n Hn. lia. }
  intros s' k' [E H']. 
  assert (s' = s) as ->.
  { unfold backward_pass in E. destruct (rev (p_text p)) as [|x t] eqn:Et; [discriminate E|].
    unfold o in E. rewrite backward_loop_spec in E by assumption. rewrite Er in E. injection E as <-. reflexivity. }
  apply takes_bind.
  assert (takes (compute_score_tm p c s e (o_char_eq o) (v1_scoring_scheme m) r) (fun _ n => n = e - s)) as Hs.
  { unfold compute_score_tm. apply takes_pure. intros cl _. destruct (p_text p) as [|x xs] eqn:Et; [exact I|].
    apply takes_pure. intros sl E1. apply takes_pure. intros chars E2. pose proof (cand_chars_slice _ _ _ _ _ E1 E2) as ->.
    unfold takes, runs. destruct (fst _) as [a| |]; [|exact I..].
    match goal with |- snd (compute_score_loop_tm ?q ?sc ?ch ?st) = _ => pose proof (score_loop_takes q sc ch st s ps) as L end.
    cbn [cs_pattern_char cs_pattern_chars] in L. specialize (L Gp). rewrite Hla in L. fold e in L. lia. }
  eapply takes_weaken; [exact Hs|]. intros [sc r'] n ->. apply takes_ok. lia.
Qed.

(** * FzfV2 *)

Lemma matches_loop_takes p c o fuel : forall i l offs, i < p_char_len p ->
  takes (matches_loop_tm p c o fuel i l offs) (fun r n =>
    match r with (Some _, offs') => n + l = (p_char_len p - i) + S (nth (p_char_len p - 1) offs' 0) /\ l <= nth (p_char_len p - 1) offs' 0 | (None, _) => True end).
Proof.
  set (h := p_char_len p).
  induction fuel as [|fuel IH]; intros i l offs Hi; cbn [matches_loop_tm]; [exact I|].
  apply takes_spend, takes_pure. intros x _. apply takes_bind. eapply takes_weaken; [apply first_from_takes|].
  intros [y|] k H; [|apply takes_ok; exact I]. apply takes_pure. intros offs1 E1. cbv zeta. fold h.
  destruct (i + 1 <? h) eqn:Eh.
  - apply Nat.ltb_lt in Eh. eapply takes_weaken; [apply IH; exact Eh|]. intros [[r|] offs'] n; [|auto]. lia.
  - apply Nat.ltb_ge in Eh. apply takes_ok.
    assert (nth (h - 1) offs1 0 = y) as ->; [|lia].
    unfold set_idx in E1. destruct (i <? length offs) eqn:El; [|discriminate E1]. injection E1 as <-. apply Nat.ltb_lt in El.
    replace (h - 1) with i by lia. rewrite upd_firstn_skipn by exact El. rewrite app_nth2; rewrite firstn_length; [|lia].
    replace (i - Nat.min i (length offs)) with 0 by lia. reflexivity.
Qed.

Lemma last_nth (l : list nat) : last l 0 = nth (length l - 1) l 0.
Proof.
  induction l as [|x l IH]; [reflexivity|]. destruct l as [|y l]; [reflexivity|].
  cbn [length] in *. rewrite Nat.sub_succ, Nat.sub_0_r in *. exact IH.
Qed.

Lemma v2_matches_takes sens norm slab p c fs stop : cand_ok c -> p_text p <> [] ->
  greedy (char_eq sens norm) (p_text p) (cand_slice c) 0 = Some fs -> last_col sens norm (p_text p) (cand_slice c) = Some stop ->
  takes (v2_matches_tm slab p c (opts_new sens norm)) (fun r n =>
    fst r = Some (fs, stop + 1)
    /\ n = resize_steps slab (p_char_len p) + (p_char_len p + S (last fs 0)) + (cand_char_len c - stop)).
Proof.
  intros Hc Hp Hg Hl.
  destruct (v2_matches_spec sens norm slab p c Hc Hp) as (slab' & E & _). rewrite Hg, Hl in E.
  eapply takes_weaken; [apply (takes_same _ _ _ (fun r n => match fst r with Some (fs, stop1) => 
      n = resize_steps slab (p_char_len p) + (p_char_len p + S (nth (p_char_len p - 1) fs 0)) + (cand_char_len c - (stop1 - 1)) | None => True end)
      (v2_matches_same slab p c (opts_new sens norm)))|].
  - unfold v2_matches_tm, indices_alloc_tm. apply takes_bind, takes_spend, takes_lift. intros [offs sl] _.
    assert (0 < p_char_len p) as H0 by (unfold p_char_len; destruct (p_text p); [congruence|cbn; lia]).
    apply takes_bind. eapply takes_weaken; [apply matches_loop_takes; exact H0|].
    intros [[i|] offs'] k H; cbv zeta; [|apply takes_ok; exact I]. apply takes_pure. intros x _. apply takes_bind.
    eapply takes_weaken; [apply last_takes|]. intros [j|] k' Hj; apply takes_pure; intros y Ey; [|discriminate Ey].
    injection Ey as <-. apply takes_ok. cbn [fst]. replace (j + 1 - 1) with j by lia. lia.
  - intros [r sl] n [Er H]. rewrite E in Er. injection Er as <- <-. cbn [fst] in H |- *. split; [reflexivity|].
    apply greedy_length in Hg. rewrite last_nth, Hg. unfold p_char_len in H |- *. rewrite H. replace (stop + 1 - 1) with stop by lia. reflexivity.
Qed.

Lemma first_row_gap_takes k : forall col row ps pen,
  takes (first_row_gap_tm k col row ps pen) (fun r n => n = k /\ length (fst (fst r)) = length row).
Proof.
  induction k as [|k IH]; intros col row ps pen; cbn [first_row_gap_tm]; [apply takes_ok; split; reflexivity|].
  cbv zeta. apply takes_spend, takes_pure. intros row' E. apply set_idx_len in E as [E _].
  eapply takes_weaken; [apply IH|]. intros [[r a] b] n [-> H]. cbn [fst] in *. split; [lia|congruence].
Qed.

Lemma row_gap_takes k : forall col row pen, takes (row_gap_tm k col row pen) (fun _ n => n = k).
Proof.
  induction k as [|k IH]; intros col row pen; cbn [row_gap_tm]; [apply takes_ok; reflexivity|].
  apply takes_spend, takes_pure. intros i _. apply takes_pure. intros x _. cbv zeta. apply takes_pure. intros row' _.
  eapply takes_weaken; [apply IH|]. intros _ n ->. reflexivity.
Qed.

Definition same_view (cv cv' : candidate_v2) : Prop := cv_base cv' = cv_base cv /\ cv_opts cv' = cv_opts cv.

Lemma bonus_at_view cv i s b cv' : bonus_at cv i s = Ok (b, cv') -> same_view cv cv'.
Proof.
  unfold bonus_at. intros Eb. apply ok_bind in Eb as (b0 & _ & Eb). destruct (b_is_set b0); [injection Eb as _ <-; split; reflexivity|].
  apply ok_bind in Eb as (pc & _ & Eb). apply ok_bind in Eb as (th & _ & Eb). cbv zeta in Eb. apply ok_bind in Eb as (bs & _ & Eb).
  injection Eb as _ <-. split; reflexivity.
Qed.

Lemma view_trans a b c : same_view a b -> same_view b c -> same_view a c.
Proof. unfold same_view. intros [H1 H2] [H3 H4]. split; congruence. Qed.

(** One more iteration if the first column is a hit. *)
Definition at_hit (col : nat) (ms : list nat) : nat := match ms with x :: _ => if x =? col then 1 else 0 | [] => 0 end.

Lemma ascending_strict col w x ms : ascending col w (x :: ms) -> at_hit x ms = 0.
Proof.
  intros [S _]. inversion S as [|? ? _ L]; subst. destruct ms as [|y ms]; [reflexivity|]. inversion L; subst. cbn.
  destruct (Nat.eqb_spec y x); [lia|reflexivity].
Qed.

Lemma first_row_loop_takes s w ms : forall st, fr_column st < w -> ascending (fr_column st) w ms ->
  takes (first_row_loop_tm s ms st) (fun st' n =>
    n = at_hit (fr_column st) ms + (fr_column st' - fr_column st) /\ fr_column st <= fr_column st' < w
    /\ length (fr_scores st') = length (fr_scores st) /\ same_view (fr_cv st) (fr_cv st')).
Proof.
  induction ms as [|x ms IH]; intros st Hw Ha; cbn [first_row_loop_tm].
  - apply takes_ok. cbn [at_hit]. repeat split; lia.
  - pose proof (ascending_strict _ _ _ _ Ha) as H0. apply ascending_tail in Ha as [Hx Ha].
    apply takes_spend, takes_bind. eapply takes_weaken; [apply first_row_gap_takes|].
    intros [[row a] pen] k [-> G2]. cbn [fst] in G2. cbv zeta.
    apply takes_pure. intros cons _. apply takes_pure. intros [b cv] Eb. apply bonus_at_view in Eb.
    apply takes_pure. intros row' Er. apply set_idx_len in Er as [Er _].
    assert (Hd : 1 + (x - (fr_column st + 1)) = at_hit (fr_column st) (x :: ms) + (x - fr_column st)).
    { cbn [at_hit]. destruct (Nat.eqb_spec x (fr_column st)); lia. }
    destruct (fr_max_score st <? _)%Z;
      (eapply takes_weaken; [apply IH; [|exact Ha]; cbn [fr_column]; lia|];
       cbn [fr_column fr_scores fr_cv]; intros st' k' (I1 & I3 & I5 & I6); rewrite H0 in I1;
       split; [lia|]; split; [lia|]; split; [congruence|eapply view_trans; eassumption]).
Qed.

Lemma all_idx_hit (f : char -> bool) l off y : nth_error l off = Some y -> f y = true ->
  all_idx f (skipn off l) off = off :: all_idx f (skipn (S off) l) (S off).
Proof. intros H E. rewrite (skipn_cons_nth _ _ _ _ H). cbn [all_idx]. rewrite E. reflexivity. Qed.

Section Rows.
Variables (sens norm : bool).
Notation eq := (char_eq sens norm).
Notation o := (opts_new sens norm).

Lemma first_row_takes a b ch cv s w y : cand_ok (cv_base cv) -> cv_opts cv = o -> cand_char_len (cv_base cv) = w -> length a = w ->
  nth_error (cand_slice (cv_base cv)) 0 = Some y -> eq ch y = true ->
  takes (score_first_row_tm a b ch cv s) (fun r n => n = 2 * w /\ same_view cv (snd (fst (fst r)))).
Proof.
  intros Hok Ho Hc Hw Hy E. unfold score_first_row_tm, cand_matches_tm. rewrite Ho. cbn [o_is_case_sensitive o_char_eq opts_new].
  rewrite cand_matches_spec by exact Hok. pose proof (all_idx_hit (eq ch) (cand_slice (cv_base cv)) 0 y Hy E) as Hd. cbn [skipn] in Hd.
  pose proof (all_idx_ascending _ (eq ch) (cand_slice (cv_base cv)) 0) as As. rewrite cand_slice_len, Hc in As.
  assert (0 < w) as H0. { rewrite <- Hc, <- cand_slice_len. apply nth_error_Some. congruence. }
  apply takes_bind, takes_spend, takes_ok. apply takes_bind.
  eapply takes_weaken; [apply (first_row_loop_takes s w); [exact H0|exact As]|]. cbn [fr_column fr_scores fr_cv].
  rewrite Hd. cbn [at_hit Nat.eqb]. intros st k (R1 & R3 & R5 & R6).
  apply takes_bind. eapply takes_weaken; [apply first_row_gap_takes|]. rewrite R5, Hw.
  intros [[r x] z] k' [-> _]. apply takes_ok. cbn [fst snd]. split; [lia|exact R6].
Qed.

Lemma row_loop_takes s w w0 i ps pc ms : forall st, rr_column st < w -> ascending (rr_column st) w ms ->
  takes (row_loop_tm s w0 i ps pc ms st) (fun st' n =>
    n = at_hit (rr_column st) ms + (rr_column st' - rr_column st) /\ rr_column st <= rr_column st' < w
    /\ same_view (rr_cv st) (rr_cv st')).
Proof.
  induction ms as [|x ms IH]; intros st Hw Ha; cbn [row_loop_tm].
  - apply takes_ok. cbn [at_hit]. repeat split; lia.
  - pose proof (ascending_strict _ _ _ _ Ha) as H0. apply ascending_tail in Ha as [Hx Ha].
    assert (Hd : 1 + (x - (rr_column st + 1)) = at_hit (rr_column st) (x :: ms) + (x - rr_column st)).
    { cbn [at_hit]. destruct (Nat.eqb_spec x (rr_column st)); lia. }
    apply takes_spend, takes_bind. eapply takes_weaken; [apply row_gap_takes|]. intros [row pen] k ->. cbv zeta.
    apply takes_pure. intros left _. apply takes_pure. intros l _. apply takes_pure. intros ul _.
    apply takes_pure. intros [b cv] E1. apply bonus_at_view in E1.
    apply takes_pure. intros c _. apply takes_pure. intros [[b' co] cv'] E2.
    assert (E2' : same_view cv cv').
    { destruct (1 <? c + 1); [|injection E2 as _ _ <-; split; reflexivity].
      apply ok_bind in E2 as (fi & _ & E2). apply ok_bind in E2 as ([fb cv1] & E3 & E2).
      apply bonus_at_view in E3. destruct (_ && _)%bool; injection E2 as _ _ <-; exact E3. }
    apply takes_pure. intros [[su co'] cv''] E3.
    assert (E3' : same_view cv' cv'').
    { destruct (_ <? _)%Z; [|injection E3 as _ _ <-; split; reflexivity].
      apply ok_bind in E3 as ([fb cv1] & E4 & E3). apply bonus_at_view in E4. injection E3 as _ _ <-. exact E4. }
    pose proof (view_trans _ _ _ (view_trans _ _ _ E1 E2') E3') as V.
    destruct (rr_max_score st <? _)%Z;
      (apply takes_pure; intros cons _; apply takes_pure; intros row' _;
       eapply takes_weaken; [apply IH; [|exact Ha]; cbn [rr_column]; lia|];
       cbn [rr_column rr_cv]; intros st' k' (I1 & I3 & I5); rewrite H0 in I1;
       split; [lia|]; split; [lia|]; eapply view_trans; eassumption).
Qed.

Lemma remaining_rows_takes k s p ms w : forall i sc co cv mx cell,
  cand_ok (cv_base cv) -> cv_opts cv = o -> cand_char_len (cv_base cv) = w -> m_width sc = w -> length ms = i + k ->
  (forall r f, i <= r -> nth_error ms r = Some f ->
     exists x y, p_char p r = Ok x /\ nth_error (cand_slice (cv_base cv)) f = Some y /\ eq x y = true) ->
  takes (score_remaining_rows_tm k i s p ms sc co cv mx cell)
    (fun _ n => n = k + 2 * list_sum (map (fun f => w - f) (skipn i ms))).
Proof.
  induction k as [|k IH]; intros i sc co cv mx cell Hok Ho Hc Hw Hms Hhit; cbn [score_remaining_rows_tm].
  { apply takes_ok. rewrite skipn_all2 by lia. reflexivity. }
  cbv zeta. apply takes_spend. apply takes_pure. intros x Ex. apply takes_pure. intros pi _.
  apply takes_pure. intros [ps row] _. apply takes_pure. intros [pc cr] _.
  apply takes_pure. intros fm Ef. apply idx_inv in Ef.
  destruct (Hhit i fm (le_n _) Ef) as (x' & y & Ex' & Hy & E). rewrite Ex in Ex'. injection Ex' as <-.
  rewrite (skipn_cons_nth _ _ _ _ Ef). cbn [map list_sum fold_right].
  assert (fm < w) as Hfm. { rewrite <- Hc, <- cand_slice_len. apply nth_error_Some. congruence. }
  unfold cand_matches_from_tm. rewrite Ho. cbn [o_is_case_sensitive o_char_eq opts_new].
  rewrite cand_matches_from_spec by (try assumption; rewrite cand_slice_len, Hc; lia). rewrite Hc.
  pose proof (all_idx_hit (eq x) (cand_slice (cv_base cv)) fm y Hy E) as Hd.
  pose proof (all_idx_ascending _ (eq x) (skipn fm (cand_slice (cv_base cv))) fm) as As. rewrite skipn_length, cand_slice_len, Hc in As.
  replace (fm + (w - fm)) with w in As by lia.
  apply takes_bind, takes_spend, takes_ok. apply takes_bind.
  eapply takes_weaken; [apply (row_loop_takes s w); [exact Hfm|exact As]|]. cbn [rr_column rr_cv]. rewrite Hd. cbn [at_hit].
  rewrite Nat.eqb_refl. intros st n (R1 & R3 & R5 & R6). 
  apply takes_bind. eapply takes_weaken; [apply row_gap_takes|]. intros [row' pen] n' ->.
  eapply takes_weaken; [apply (IH (i + 1) (put_row sc i row') (put_row co i (rr_consecutives st)) (rr_cv st))|].
  - rewrite R5. exact Hok.
  - rewrite R6. exact Ho.
  - rewrite R5. exact Hc.
  - exact Hw.
  - lia.
  - intros r f Hr Hf. rewrite R5. apply Hhit; [lia|exact Hf].
  - intros _ m ->. rewrite Hw. replace (i + 1) with (S i) by lia.
    change (fold_right Nat.add 0 (map (fun f => w - f) (skipn (S i) ms))) with (list_sum (map (fun f => w - f) (skipn (S i) ms))). lia.
Qed.

Lemma v2_score_takes a b p cv ms s w h : cand_ok (cv_base cv) -> cv_opts cv = o -> cand_char_len (cv_base cv) = w -> p_char_len p = h ->
  length ms = h -> hd 0 ms = 0 ->
  (forall r f, nth_error ms r = Some f ->
     exists x y, p_char p r = Ok x /\ nth_error (cand_slice (cv_base cv)) f = Some y /\ eq x y = true) ->
  takes (v2_score_tm a b p cv ms s) (fun _ n =>
    n = resize_steps a (h * w) + resize_steps b (h * w) + 2 * (h * w) + (h - 1) + 2 * list_sum (map (fun f => w - f) ms)).
Proof.
  intros Hok Ho Hw Hh Hms H0 Hhit. unfold v2_score_tm, matrix_alloc_tm. rewrite Hw, Hh. cbv zeta.
  apply takes_bind, takes_spend, takes_lift. intros [sc sv] E1. apply matrix_alloc_inv in E1 as (W1 & H1 & P1 & L1).
  apply takes_bind, takes_spend, takes_lift. intros [co cov] E2. apply matrix_alloc_inv in E2 as (W2 & H2 & _ & _).
  apply takes_pure. intros row Er. apply takes_pure. intros cr _. apply takes_pure. intros fi Ex.
  assert (Lr : length row = w).
  { unfold row_mut in Er. cbv zeta in Er. rewrite W1 in Er. apply slice_inv in Er. lia. }
  destruct ms as [|f0 ms]; [cbn in Hms; nia|]. cbn [hd] in H0. subst f0.
  destruct (Hhit 0 0 eq_refl) as (x & y & Ex' & Hy & E). rewrite Ex in Ex'. injection Ex' as <-.
  apply takes_bind. eapply takes_weaken; [apply (first_row_takes row cr fi cv s w y Hok Ho Hw Lr Hy E)|].
  intros [[[[r1 r2] cv'] mx] cell] n [-> [V1 V2]]. cbn [fst snd] in V1, V2.
  apply takes_bind. rewrite H1.
  eapply takes_weaken; [apply (remaining_rows_takes (h - 1) s p (0 :: ms) w 1 (put_row sc 0 r1) (put_row co 0 r2) cv' mx cell)|].
  - rewrite V1. exact Hok.
  - rewrite V2. exact Ho.
  - rewrite V1. exact Hw.
  - exact W1.
  - cbn [length] in *. lia.
  - intros r f _ Hf. rewrite V1. apply Hhit. exact Hf.
  - intros [[[[r3 r4] cv''] mx'] cell'] n ->. apply takes_ok. cbn [skipn map list_sum fold_right].
    change (fold_right Nat.add 0 (map (fun f => w - f) ms)) with (list_sum (map (fun f => w - f) ms)). lia.
Qed.

End Rows.

(** [w]: the characters from the first of the leftmost match to the last which agrees with the end of the query. *)
Lemma v2_fuzzy_takes m p c r fs stop : let sens := is_sensitive (v2_case_sensitivity m) p in let norm := v2_candidate_normalization m in
  let h := p_char_len p in let w := stop + 1 - hd 0 fs in let sl := v2_slab_ m in
  cand_ok c -> p_text p <> [] -> h <> 1 ->
  greedy (char_eq sens norm) (p_text p) (cand_slice c) 0 = Some fs -> last_col sens norm (p_text p) (cand_slice c) = Some stop ->
  takes (v2_fuzzy_tm m p c r) (fun _ n =>
    n = resize_steps (s_indices sl) h + resize_steps (s_bonus sl) w + resize_steps (s_scoring sl) (h * w) + resize_steps (s_consecutive sl) (h * w)
        + (3 * h - 1) + S (last fs 0) + (cand_char_len c - stop) + w + 2 * (h * w) + 2 * list_sum (map (fun f => stop + 1 - f) fs)).
Proof.
  intros sens norm h w sl Hc Hp H1 Hg Hl. unfold v2_fuzzy_tm. cbv zeta. fold h sens norm sl.
  destruct (Nat.eqb_spec h 1) as [?|_]; [congruence|].
  pose proof (firsts_facts sens norm (p_text p) (cand_slice c) fs stop Hp Hg Hl) as Hff.
  pose proof (a_le sens norm (p_text p) (cand_slice c) fs stop Hp Hg Hl) as Ha.
  pose proof (stop_lt sens norm (p_text p) (cand_slice c) fs stop Hp Hg Hl) as Hstop.
  pose proof (greedy_length _ _ _ _ _ Hg) as Hfl. fold (p_char_len p) in Hfl. fold h in Hfl.
  assert (firsts fs 0 = hd 0 fs) as Eh by (destruct fs; reflexivity). rewrite Eh in *.
  assert (0 < h) as H0 by (unfold h, p_char_len; destruct (p_text p); [congruence|cbn; lia]).
  apply takes_bind. eapply takes_weaken; [apply (v2_matches_takes sens norm (s_indices sl) p c fs stop Hc Hp Hg Hl)|].
  intros [r0 ind] k [Er ->]. cbn [fst] in Er. subst r0. fold h.
  apply takes_pure. intros fo E0.
  assert (fo = hd 0 fs) as ->. { destruct fs; [discriminate E0|]. injection E0 as <-. reflexivity. }
  apply takes_pure. intros ini _. apply takes_pure. intros base Eb.
  assert (Hb : cand_ok base /\ cand_slice base = firstn w (skipn (hd 0 fs) (cand_slice c))).
  { unfold w. destruct c as [l|l]; cbn [cand_slice_range] in Eb; apply ok_bind in Eb as (l' & E & Eb); injection Eb as <-;
      unfold slice in E; destruct (_ && _)%bool; try discriminate E; injection E as <-; cbn [cand_slice cand_ok].
    - split; [|reflexivity]. apply ascii_firstn, ascii_skipn. exact Hc.
    - split; [exact I|reflexivity]. }
  destruct Hb as [Hok Hsl].
  assert (Lb : cand_char_len base = w).
  { rewrite <- cand_slice_len, Hsl, firstn_length, skipn_length. unfold w. lia. }
  unfold bonus_alloc_tm. cbn [s_bonus s_scoring s_consecutive]. rewrite Lb.
  apply takes_bind, takes_spend, takes_lift. intros [bo bv] _.
  apply takes_bind, takes_spend, takes_lift. intros mo Emo.
  assert (Hall : Forall (fun x => hd 0 fs <= x) fs).
  { apply Forall_nth. intros i d Hi. rewrite (nth_indep fs d 0 Hi). change (hd 0 fs <= firsts fs i).
    destruct (Hff i); [unfold h, p_char_len in *; lia|lia]. }
  rewrite (fold_usub (hd 0 fs) fs Hall) in Emo. injection Emo as <-.
  apply takes_bind.
  eapply takes_weaken; [apply (v2_score_takes sens norm (s_scoring sl) (s_consecutive sl) p (MkCv bo base ini (opts_new sens norm))
      (map (fun x => x - hd 0 fs) fs) (v2_scoring_scheme m) w h)|].
  - exact Hok.
  - reflexivity.
  - exact Lb.
  - reflexivity.
  - rewrite map_length. exact Hfl.
  - destruct fs as [|f fs]; [reflexivity|]. cbn. lia.
  - cbn [cv_base]. intros i f Hf. rewrite nth_error_map in Hf. destruct (nth_error fs i) as [f'|] eqn:Ef; [|discriminate Hf].
    injection Hf as <-. assert (i < length fs) as Hi by (apply nth_error_Some; congruence).
    destruct (Hff i) as [B Hhit]; [unfold h, p_char_len in *; lia|].
    assert (firsts fs i = f') as Ef' by (unfold firsts; apply nth_error_nth; exact Ef). rewrite Ef' in *.
    unfold hit_of in Hhit. destruct (nth_error (p_text p) i) as [x|] eqn:Ex; [|discriminate].
    destruct (nth_error (cand_slice c) f') as [y|] eqn:Ey; [|discriminate].
    exists x, y. split; [unfold p_char; apply idx_nth_error; exact Ex|]. split; [|exact Hhit].
    rewrite Hsl, nth_error_firstn, nth_error_skipn. destruct (Nat.ltb_spec (f' - hd 0 fs) w); [|unfold w in *; lia].
    replace (hd 0 fs + (f' - hd 0 fs)) with f' by lia. exact Ey.
  - intros [[[[[[sc co] cv] score] cell] sv] cv'] n ->. apply takes_ok.
    assert (map (fun f => w - f) (map (fun x => x - hd 0 fs) fs) = map (fun f => stop + 1 - f) fs) as ->.
    { rewrite map_map. apply map_ext_in. intros f Hf. rewrite Forall_forall in Hall. specialize (Hall f Hf). unfold w. lia. }
    rewrite Hfl. lia.
Qed.

Lemma single_loop_takes c s ms : forall a b, takes (single_char_loop_tm c s ms a b) (fun _ n => n = length ms).
Proof.
  induction ms as [|m ms IH]; intros a b; cbn [single_char_loop_tm length]; [apply takes_ok; reflexivity|].
  apply takes_spend, takes_pure. intros cl _. apply takes_pure. intros x _. cbv zeta.
  destruct (a <? _)%Z; (eapply takes_weaken; [apply IH|]; intros _ n ->; reflexivity).
Qed.

Lemma all_idx_count (f : char -> bool) l : forall off, length (all_idx f l off) = length (filter f l).
Proof. induction l as [|x l IH]; intros off; cbn [all_idx filter length]; [reflexivity|]. destruct (f x); cbn [length]; rewrite IH; reflexivity. Qed.

Lemma v2_single_takes m p c r x : cand_ok c -> p_text p = [x] ->
  takes (v2_fuzzy_tm m p c r) (fun _ n => n = cand_char_len c
    + length (filter (char_eq (is_sensitive (v2_case_sensitivity m) p) (v2_candidate_normalization m) x) (cand_slice c))).
Proof.
  intros Hc Hp. unfold v2_fuzzy_tm. cbv zeta. unfold p_char_len. rewrite Hp. cbn [length Nat.eqb].
  apply takes_pure. intros y Ey. unfold p_char in Ey. rewrite Hp in Ey. injection Ey as <-.
  apply takes_bind. unfold fuzzy_single_char_tm, cand_matches_tm. cbn [o_is_case_sensitive o_char_eq opts_new].
  rewrite cand_matches_spec by exact Hc. apply takes_bind, takes_spend, takes_ok. apply takes_bind.
  eapply takes_weaken; [apply single_loop_takes|]. intros [mx pos] n ->. rewrite all_idx_count.
  destruct (mx =? 0)%Z; apply takes_ok; cbv iota beta; apply takes_ok; lia.
Qed.

End WithUnicode.
