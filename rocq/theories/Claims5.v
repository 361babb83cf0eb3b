(** Proofs of the properties about scores and about which of several matches is chosen. *)
From Coq Require Import Sorted.
From Verif Require Import Prelude Chars Normalize Utils Candidate MatchedRanges Query Parser Scoring
  Slab Fzf FzfV1 FzfV2 Api History
  Spec PreludeProofs CharsProofs NormalizeProofs CandidateProofs MatchedRangesProofs ParserProofs
  ScoreProofs ExactProofs ShapeProofs V1Proofs V2Tables V2Proofs V2Rows V2Fuzzy V2Facts ApiProofs AcceptProofs
  RangeProofs WordsProofs CongProofs FuzzyFacts Claims1 Claims2.
Local Open Scope nat_scope.

Section WithUnicode.
Context {UC : unicode}.

(** ** C40, C41: what FzfV1 chooses and how it scores it *)

Lemma v1_case o text c sc rs : text <> [] -> fuzzy_outcome AlgoV1 o text c = Some (sc, rs) ->
  exists ps, v1_positions (sensitive_for (opt_case o) text) (opt_norm o) text c = Some ps
    /\ sc = alignment_score (opt_scheme o) c ps /\ rs = map (char_range c) ps
    /\ alignment (agreement o text) text c ps
    /\ (forall qs, alignment (agreement o text) text c qs -> last ps 0 <= last qs 0)
    /\ (forall qs, alignment (agreement o text) text c qs -> last qs 0 = last ps 0 ->
          hd 0 qs <= hd 0 ps /\ (hd 0 qs = hd 0 ps -> Forall2 le ps qs)).
Proof.
  intros Ht H. unfold fuzzy_outcome in H.
  destruct (v1_positions _ _ text c) as [ps|] eqn:E; [|discriminate]. injection H as <- <-.
  exists ps. split; [reflexivity|]. split; [reflexivity|]. split; [reflexivity|].
  pose proof E as E'. unfold v1_positions in E'.
  destruct (greedy _ text c 0) as [fs|] eqn:G; [|discriminate]. clear E'.
  destruct (v1_window _ _ text c fs Ht G) as (s & ps' & W). cbv zeta in W.
  destruct W as (_ & _ & _ & E' & _ & A & Hs & _ & H1 & H2 & H3 & _).
  rewrite E in E'. injection E' as <-. unfold agreement. split; [apply aligned_alignment; exact A|]. split.
  - intros qs Hq. apply aligned_alignment in Hq. auto.
  - intros qs Hq El. apply aligned_alignment in Hq. rewrite Hs. split; [auto|].
    intros Eh. apply H3; auto. lia.
Qed.

(** The characters which are highlighted are those of the window: it ends as early as possible,
    then starts as late as possible, and inside it the leftmost alignment is taken.
    The distance is given by the formula for that alignment. *)
Lemma c40_v1_window : forall o m text q c buf d m' buf',
  metric_reached AlgoV1 o m -> fuzzy_query text q -> text <> [] ->
  metric_distance_and_ranges m q c buf = Ok (Some d, m', buf') ->
  exists new js, buf' = buf ++ new /\ window (agreement o text) text c js
    /\ forall b, covered new b <-> exists j, In j js /\ byte_of_char c j b.
Proof.
  intros o m text q c buf d m' buf' Hm Hq Ht E. destruct (fuzzy_ranges _ _ _ _ _ _ _ _ _ _ Hm Hq E) as [Hd ->].
  symmetry in Hd. apply raw_some in Hd as [[-> _]|(_ & rs & Hf & ->)]; [congruence|].
  destruct (v1_case _ _ _ _ _ Ht Hf) as (ps & Ev & _ & -> & A & H1 & H2). cbn [snd].
  exists (inserts [] (map (char_range c) ps)), ps. split; [reflexivity|]. split; [exact (conj A (conj H1 H2))|].
  intros b. apply covered_chars. eapply aligned_bound. apply aligned_alignment. exact A.
Qed.

(** Two alignments chosen by the rule of [c40_v1_window] are equal, so the rule determines the
    score and the ranges. *)
Lemma window_unique (R : char -> char -> Prop) text c js js' :
  window R text c js -> window R text c js' -> js = js'.
Proof.
  intros (A & L & W) (A' & L' & W').
  assert (El : last js 0 = last js' 0) by (apply Nat.le_antisymm; auto).
  destruct (W js' A' (eq_sym El)) as [H1 H2]. destruct (W' js A El) as [H1' H2'].
  assert (Eh : hd 0 js = hd 0 js') by lia.
  apply Forall2_le_antisym; auto.
Qed.

Lemma c41_v1_score : forall o m text q c d m' js,
  metric_reached AlgoV1 o m -> fuzzy_query text q -> text <> [] ->
  metric_distance m q c = Ok (Some d, m') ->
  window (agreement o text) text c js ->
  d = from_score (alignment_score (opt_scheme o) c js).
Proof.
  intros o m text q c d m' js Hm Hq Ht E W.
  pose proof (fuzzy_distance _ _ _ _ _ _ _ _ Hm Hq E) as Hd.
  symmetry in Hd. apply raw_some in Hd as [[-> _]|(_ & rs & Hf & _)]; [congruence|].
  destruct (v1_case _ _ _ _ _ Ht Hf) as (ps & Ev & Hsc & _ & A' & L' & W').
  rewrite (window_unique _ _ _ js ps W (conj A' (conj L' W'))).
  rewrite <- Hsc. destruct d. reflexivity.
Qed.

(** ** C42: text after the match does not matter to FzfV1 *)

Lemma greedy_more eq p : forall l post k fs, greedy eq p l k = Some fs -> greedy eq p (l ++ post) k = Some fs.
Proof.
  induction p as [|x p IH]; [intros; assumption|]. induction l as [|y l IHl]; intros post k fs H; [discriminate|].
  cbn in H |- *. destruct (eq x y).
  - destruct (greedy eq p l (S k)) as [gs|] eqn:G; [|discriminate]. injection H as <-.
    rewrite (IH _ post _ _ G). reflexivity.
  - exact (IHl post (S k) fs H).
Qed.

Lemma firstn_more {A} n (l post : list A) : n <= length l -> firstn n (l ++ post) = firstn n l.
Proof. intros H. rewrite firstn_app. replace (n - length l) with 0 by lia. rewrite app_nil_r. reflexivity. Qed.

Lemma rightmost_more sens norm rp : forall l post e, e <= length l ->
  rightmost sens norm rp (l ++ post) e = rightmost sens norm rp l e.
Proof.
  induction rp as [|x rp IH]; intros l post e He; [reflexivity|]. cbn [rightmost].
  rewrite firstn_more by exact He. destruct (find_last_idx _ (firstn e l)) as [j|] eqn:E; [|reflexivity].
  apply IH. apply find_last_idx_some in E as (a & Ha & _). assert (j < length (firstn e l)) by (apply nth_error_Some; congruence).
  rewrite firstn_length in H. lia.
Qed.

Lemma v1_positions_more sens norm p l post ps : p <> [] -> v1_positions sens norm p l = Some ps ->
  v1_positions sens norm p (l ++ post) = Some ps.
Proof.
  intros Hp H. unfold v1_positions in *. destruct (greedy _ p l 0) as [fs|] eqn:G; [|discriminate].
  rewrite (greedy_more _ _ _ post _ _ G).
  assert (He : S (last fs 0) <= length l).
  { apply greedy_sound in G. pose proof (aligned_bound _ _ _ _ _ G) as B. rewrite Forall_forall in B.
    apply B. apply last_in. eapply aligned_nonempty; eauto. }
  rewrite rightmost_more by exact He. destruct (rightmost sens norm (rev p) l (S (last fs 0))) as [s|]; [|discriminate].
  destruct (Nat.le_gt_cases s (length l)) as [Hs|Hs].
  - rewrite skipn_app. replace (s - length l) with 0 by lia. rewrite skipn_O, firstn_more; [exact H|].
    rewrite skipn_length. lia.
  - replace (S (last fs 0) - s) with 0 in * by lia. exact H.
Qed.

Lemma place_more sch c post j : j < length c -> bonus_of sch (c ++ post) j = bonus_of sch c j.
Proof.
  intros Hj. unfold bonus_of. rewrite app_nth1 by exact Hj. destruct j; [reflexivity|].
  rewrite app_nth1 by lia. reflexivity.
Qed.

Lemma rest_score_more sch c post : forall ps prev best, Forall (fun j => j < length c) ps ->
  rest_score sch (c ++ post) prev best ps = rest_score sch c prev best ps.
Proof.
  induction ps as [|j ps IH]; intros prev best H; [reflexivity|]. inversion H as [|? ? Hj H']; subst.
  cbn [rest_score]. cbv zeta. rewrite place_more by exact Hj. rewrite !IH by exact H'. reflexivity.
Qed.

Lemma alignment_score_more sch c post ps : Forall (fun j => j < length c) ps ->
  alignment_score sch (c ++ post) ps = alignment_score sch c ps.
Proof.
  destruct 1 as [|j ps Hj H]; [reflexivity|]. cbn [alignment_score].
  rewrite place_more by exact Hj. rewrite rest_score_more by exact H. reflexivity.
Qed.

Lemma char_ranges_more c post ps : Forall (fun j => j < length c) ps ->
  map (char_range (c ++ post)) ps = map (char_range c) ps.
Proof.
  induction 1 as [|j ps Hj H IH]; [reflexivity|]. cbn [map]. rewrite IH. f_equal.
  unfold char_range. rewrite !firstn_more by lia. reflexivity.
Qed.

Lemma v1_outcome_more o text c post r : text <> [] -> fuzzy_outcome AlgoV1 o text c = Some r ->
  fuzzy_outcome AlgoV1 o text (c ++ post) = Some r.
Proof.
  intros Ht H. unfold fuzzy_outcome in *. destruct (v1_positions _ _ text c) as [ps|] eqn:E; [|discriminate].
  pose proof (v1_positions_aligned _ _ _ _ _ Ht E) as A. apply aligned_bound in A.
  rewrite (v1_positions_more _ _ _ _ post _ Ht E), alignment_score_more, char_ranges_more by exact A. exact H.
Qed.

Lemma c42_v1_appended : forall o m text q c post buf d m' buf',
  metric_reached AlgoV1 o m -> fuzzy_query text q ->
  metric_distance_and_ranges m q c buf = Ok (Some d, m', buf') ->
  exists m'', metric_distance_and_ranges m q (c ++ post) buf = Ok (Some d, m'', buf').
Proof.
  intros o m text q c post buf d m' buf' Hm Hq E. destruct (fuzzy_ranges _ _ _ _ _ _ _ _ _ _ Hm Hq E) as [Hd ->].
  destruct (fuzzy_result _ _ _ _ _ (c ++ post) buf Hm Hq) as [_ (m'' & E')]. exists m''. rewrite E'.
  assert (Er : raw_outcome AlgoV1 o text (c ++ post) = raw_outcome AlgoV1 o text c).
  { destruct text as [|x t]; [reflexivity|]. symmetry in Hd.
    apply raw_some in Hd as [[H _]|(_ & rs & Hf & Er)]; [discriminate|].
    rewrite Er. unfold raw_outcome. rewrite (v1_outcome_more o (x :: t) c post (into_score d, rs)); [reflexivity|discriminate|exact Hf]. }
  rewrite Er, <- Hd. reflexivity.
Qed.

(** The same for queries of several terms without alternatives. *)
Lemma c42_v1_appended_query : forall o m ps s c post buf d buf',
  metric_reached AlgoV1 o m ->
  Forall (fun alternatives => exists text, alternatives = [Term false KFuzzy text]) (parse_spec s) ->
  find_ranges ps m s c buf = Ok (Some d, buf') ->
  find_ranges ps m s (c ++ post) buf = Ok (Some d, buf').
Proof.
  intros o m ps s c post buf d buf' Hm Hs. apply metric_reached_options in Hm.
  rewrite !(find_ranges_spec AlgoV1 o) by exact Hm. destruct (parse_spec_ok s) as [T _].
  set (q := parse_spec s) in *. clearbody q.
  assert (K : forall sc, fst (outcome AlgoV1 o q c) = Some sc -> outcome AlgoV1 o q (c ++ post) = outcome AlgoV1 o q c).
  2:{ intros H. destruct (fst (outcome AlgoV1 o q c)) as [sc|] eqn:Eo; [|discriminate].
      rewrite (K sc eq_refl), Eo. exact H. }
  assert (KA : forall sc, fst (all_outcome AlgoV1 o q c) = Some sc ->
            all_outcome AlgoV1 o q (c ++ post) = all_outcome AlgoV1 o q c).
  { clear s. induction Hs as [|g q (text & ->) Hs IH]; intros sc H; [reflexivity|].
    inversion T as [|? ? T1 T2]; subst. inversion T1 as [|? ? T3 _]; subst. cbn [t_text] in T3.
    cbn [all_outcome either_outcome] in *. unfold term_outcome, base_outcome in *. cbn [t_neg t_kind t_text] in *.
    destruct (fuzzy_outcome AlgoV1 o text c) as [[sc1 rs1]|] eqn:E; [|discriminate].
    rewrite (v1_outcome_more _ _ _ post _ T3 E).
    destruct (all_outcome AlgoV1 o q c) as [[tot|] rs'] eqn:Eq; [|discriminate].
    rewrite (IH T2 tot eq_refl). reflexivity. }
  intros sc H. destruct (outcome_cases q) as [(neg & text & Eq)|[Eo _]].
  - rewrite Eq in H |- *. cbn [outcome] in *.
    destruct (fuzzy_outcome AlgoV1 o text c) as [r|] eqn:E; [|discriminate].
    rewrite (v1_outcome_more _ _ _ post r); [reflexivity| |exact E].
    rewrite Eq in T. inversion T as [|? ? T1 _]; subst. inversion T1; subst. assumption.
  - rewrite !Eo in *. eapply KA. exact H.
Qed.

(** ** C43: FzfV2 *)

(** The last column of the table: the last character which agrees with the last of the query. *)
Lemma last_col_intro sens norm text c stop y : text <> [] ->
  nth_error c stop = Some y -> agrees sens norm (last text 0%N) y ->
  (forall k z, stop < k -> nth_error c k = Some z -> ~ agrees sens norm (last text 0%N) z) ->
  last_col sens norm text c = Some stop.
Proof.
  intros Ht Hy A Hno. unfold last_col.
  destruct (find_last_idx (char_eq sens norm (last text 0%N)) c) as [j|] eqn:E.
  - apply find_last_idx_some in E as (z & Hz & Ez & Hno'). f_equal.
    destruct (Nat.lt_trichotomy j stop) as [H|[H|H]]; [|exact H|].
    + apply char_eq_agrees in A. specialize (Hno' _ _ H Hy). congruence.
    + exfalso. apply (Hno _ _ H Hz). apply char_eq_agrees. exact Ez.
  - exfalso. rewrite find_last_idx_none in E. apply char_eq_agrees in A.
    rewrite (E y) in A; [discriminate|]. eapply nth_error_In. exact Hy.
Qed.

Lemma c43_v2_recurrence : forall o m text q c buf d m' buf' hit fs stop y,
  metric_reached AlgoV2 o m -> fuzzy_query text q -> text <> [] ->
  metric_distance_and_ranges m q c buf = Ok (Some d, m', buf') ->
  (* hit i j: query character i agrees with candidate character j *)
  (forall i j, hit i j = true <->
     exists x z, nth_error text i = Some x /\ nth_error c j = Some z /\ agreement o text x z) ->
  (* the table starts with the leftmost alignment, and ends with the last character which
     agrees with the last of the query *)
  leftmost (agreement o text) text c fs ->
  nth_error c stop = Some y -> agreement o text (last text 0%N) y ->
  (forall k z, stop < k -> nth_error c k = Some z -> ~ agreement o text (last text 0%N) z) ->
  let bonus := bonus_of (opt_scheme o) c in
  let first := fun i => nth i fs 0 in
  exists i j new,
    best_cell hit bonus first stop (length text) i j
    /\ d = from_score (pts (table hit bonus first stop i j))
    /\ buf' = buf ++ new
    /\ forall b, covered new b <->
         exists k, In k (way_back hit bonus first stop (length text) i j true) /\ byte_of_char c k b.
Proof.
  intros o m text q c buf d m' buf' hit fs stop y Hm Hq Ht E Hhit Hfs Hy Ay Hno bonus first. subst bonus.
  destruct (fuzzy_ranges _ _ _ _ _ _ _ _ _ _ Hm Hq E) as [Hd ->].
  symmetry in Hd. apply raw_some in Hd as [[-> _]|(_ & rs & Hf & ->)]; [congruence|].
  destruct (v2_case _ _ _ _ _ Ht Hf) as (ps & fs' & stop' & Hr & -> & G & L). cbn [snd].
  pose proof (leftmost_greedy _ _ _ _ _ Hfs) as G'. unfold agreement in *. rewrite G in G'. injection G' as ->.
  pose proof (last_col_intro _ _ _ _ _ _ Ht Hy Ay Hno) as L'. rewrite L in L'. injection L' as ->.
  destruct (v2_result_cell _ _ _ _ _ _ _ Ht G L _ _ Hr) as (i & j & B & Hsc & Hps).
  assert (Hi : i < length text) by apply B.
  assert (Hx : forall i j, hit_of (sensitive_for (opt_case o) text) (opt_norm o) text c i j = hit i j).
  { intros i0 j0. apply Bool.eq_true_iff_eq. rewrite Hhit. unfold hit_of. split.
    - destruct (nth_error text i0) as [x|]; [|discriminate]. destruct (nth_error c j0) as [z|]; [|discriminate].
      intros H. exists x, z. split; [reflexivity|]. split; [reflexivity|]. apply char_eq_agrees. exact H.
    - intros (x & z & -> & -> & A). apply char_eq_agrees. exact A. }
  assert (Hfst : forall i, i < length text -> firsts fs i = first i) by reflexivity.
  exists i, j, (inserts [] (map (char_range c) ps)).
  split; [eapply best_cell_ext; [exact Hx|exact Hfst|exact B]|].
  rewrite (table_ext _ hit (bonus_of (opt_scheme o) c) (firsts fs) first stop (length text) Hx Hfst i Hi) in Hsc.
  rewrite (way_back_ext _ hit (bonus_of (opt_scheme o) c) (firsts fs) first stop (length text) Hx Hfst j i true Hi) in Hps.
  split; [rewrite <- Hsc; destruct d; reflexivity|]. split; [reflexivity|].
  intros b. rewrite <- Hps. apply covered_chars. eapply v2_result_bound; eassumption.
Qed.

(** ** C44: lower bounds of the score of FzfV2 *)

Lemma c44_v2_lower_partial : forall o m text q c d m' qs,
  metric_reached AlgoV2 o m -> fuzzy_query text q -> text <> [] ->
  metric_distance m q c = Ok (Some d, m') ->
  alignment (agreement o text) text c qs ->
  (forall k y, hd 0 qs < k < nth 1 qs 0 -> nth_error c k = Some y -> ~ agreement o text (hd 0%N text) y) ->
  (bonus_of (opt_scheme o) c (hd 0%nat qs) + sum (map (fun j => 16 + bonus_of (opt_scheme o) c j) qs)
   - 3 * (Z.of_nat (last qs 0%nat) - Z.of_nat (hd 0%nat qs) + 1 - Z.of_nat (length text)) <= into_score d)%Z.
Proof.
  intros o m text q c d m' qs Hm Hq Ht E A Hno.
  pose proof (fuzzy_distance _ _ _ _ _ _ _ _ Hm Hq E) as Hd.
  symmetry in Hd. apply raw_some in Hd as [[-> _]|(_ & rs & Hf & _)]; [congruence|].
  destruct (v2_case _ _ _ _ _ Ht Hf) as (ps & fs & stop & Hr & _ & G & L).
  pose proof (v2_score_lower _ _ _ _ _ _ _ Ht G L _ _ Hr qs A Hno) as H.
  assert (Es : forall u, sum (map (fun j => 16 + bonus_of (opt_scheme o) c j)%Z u)
                = fold_right (fun j t => 16 + bonus_of (opt_scheme o) c j + t)%Z 0%Z u).
  { induction u as [|j u IH]; [reflexivity|]. cbn [map sum fold_right]. rewrite IH. reflexivity. }
  rewrite Es. exact H.
Qed.

(** ** C45: one character *)

Lemma c45_v2_single : forall o m x q c buf d m' buf',
  metric_reached AlgoV2 o m -> fuzzy_query [x] q ->
  metric_distance_and_ranges m q c buf = Ok (Some d, m', buf') ->
  exists pre y post, c = pre ++ y :: post /\ agreement o [x] x y
    /\ d = from_score (16 + 2 * bonus_of (opt_scheme o) c (length pre))
    /\ buf' = buf ++ [(byte_len pre, byte_len (pre ++ [y]))]
    /\ forall k z, nth_error c k = Some z -> agreement o [x] x z ->
         (bonus_of (opt_scheme o) c k <= bonus_of (opt_scheme o) c (length pre))%Z
         /\ (k < length pre -> (bonus_of (opt_scheme o) c k < bonus_of (opt_scheme o) c (length pre))%Z).
Proof.
  intros o m x q c buf d m' buf' Hm Hq E.
  destruct (fuzzy_ranges _ _ _ _ _ _ _ _ _ _ Hm Hq E) as [Hd ->].
  symmetry in Hd. apply raw_some in Hd as [[H _]|(Ht & rs & Hf & ->)]; [discriminate|].
  destruct (v2_case _ _ _ _ _ Ht Hf) as (ps & fs & stop & Hr & -> & G & L). cbn [snd].
  destruct (v2_result_cell _ _ _ _ _ _ _ Ht G L _ _ Hr) as (i & j & B & Hsc & Hps).
  set (sens := sensitive_for (opt_case o) [x]) in *.
  pose proof G as G1. rewrite greedy_one in G1.
  destruct (find_idx (char_eq sens (opt_norm o) x) c) as [j0|] eqn:E0; [|discriminate]. injection G1 as <-.
  destruct (v2_single sens (opt_norm o) (opt_scheme o) x c j0 stop E0 L) as (V1 & _ & _ & V4 & V5).
  pose proof (v2_best_cell sens (opt_norm o) (opt_scheme o) [x] c [j0] stop Ht G L) as C'.
  rewrite V1 in C'. cbn [length fst snd] in C'.
  destruct (best_cell_unique _ _ _ _ _ _ _ _ _ B C') as [Hi Hj]. rewrite <- Hj in *. clear V1 C' Hj. subst i.
  cbn [length] in Hps. rewrite V5 in Hps. subst ps.
  destruct B as ((_ & Hj & Hh) & M & M').
  assert (HT : forall k, hit_cell (hit_of sens (opt_norm o) [x] c) (firsts [j0]) stop 1 0 k ->
     pts (table (hit_of sens (opt_norm o) [x] c) (bonus_of (opt_scheme o) c) (firsts [j0]) stop 0 k)
     = (16 + 2 * bonus_of (opt_scheme o) c k)%Z).
  { intros k (_ & Hk & Hhk). rewrite T_hit0; [reflexivity|lia|exact Hhk]. }
  assert (Cj : hit_cell (hit_of sens (opt_norm o) [x] c) (firsts [j0]) stop 1 0 j).
  { split; [lia|]. split; [exact Hj|exact Hh]. }
  apply hit_of_some in Hh as (x' & y & Hx & Hy & Ey). injection Hx as <-.
  destruct (nth_error_split _ _ Hy) as (pre & post & Hc & Hl).
  exists pre, y, post. split; [exact Hc|]. split; [apply char_eq_agrees; exact Ey|].
  rewrite HT in Hsc by exact Cj. rewrite Hl.
  split; [rewrite <- Hsc; destruct d; reflexivity|]. split.
  - f_equal. change (inserts [] (map (char_range c) [j])) with [char_range c j].
    unfold char_range. f_equal. f_equal; f_equal.
    + rewrite Hc, <- Hl, firstn_app, Nat.sub_diag, app_nil_r. apply firstn_all.
    + rewrite Hc, <- Hl. change (y :: post) with ([y] ++ post). rewrite app_assoc.
      replace (S (length pre)) with (length (pre ++ [y])) by (rewrite app_length; simpl; lia).
      rewrite firstn_app, Nat.sub_diag, app_nil_r. apply firstn_all.
  - intros k z Hz Az. apply char_eq_agrees in Az. fold sens in Az.
    assert (Ck : hit_cell (hit_of sens (opt_norm o) [x] c) (firsts [j0]) stop 1 0 k).
    { split; [lia|]. assert (Hhk : hit_of sens (opt_norm o) [x] c 0 k = true) by (unfold hit_of; cbn [nth_error]; rewrite Hz; exact Az).
      split; [|exact Hhk]. unfold firsts. cbn [nth].
      apply find_idx_some in E0 as (y0 & Hy0 & _ & Hno). apply find_last_idx_some in L as (y1 & Hy1 & _ & Hno').
      cbn [last] in *. split.
      - destruct (Nat.le_gt_cases j0 k) as [|Hlt]; [assumption|]. rewrite (Hno _ _ Hlt Hz) in Az. discriminate.
      - destruct (Nat.le_gt_cases k stop) as [|Hlt]; [assumption|]. rewrite (Hno' _ _ Hlt Hz) in Az. discriminate. }
    split.
    + specialize (M 0 k Ck). rewrite !HT in M by assumption. lia.
    + intros Hk. specialize (M' 0 k Ck). rewrite !HT in M' by assumption. lia.
Qed.

(** ** C46: exact terms *)

Lemma c46_exact_best_partial : forall a o m ps s text c buf d buf',
  metric_reached a o m -> parse_spec s = [[Term false KExact text]] ->
  find_ranges ps m s c buf = Ok (Some d, buf') ->
  (* neighbouring characters which both agree with the first of the term are told apart by the second *)
  (forall k y z, nth_error c k = Some y -> nth_error c (S k) = Some z ->
     agreement o text (hd 0%N text) y -> agreement o text (hd 0%N text) z ->
     exists x, nth_error text 1 = Some x /\ ~ agreement o text x z) ->
  let bonus := bonus_of (opt_scheme o) c in
  exists pre mid post, found_at o text c pre mid post buf (Ok (Some d, buf'))
    /\ (forall j, occurs_at (agreement o text) text c j -> j < length pre ->
          (bonus j < bonus (length pre) /\ bonus j < 8)%Z)
    /\ ((8 <= bonus (length pre))%Z
        \/ forall j, occurs_at (agreement o text) text c j -> (bonus j <= bonus (length pre))%Z).
Proof.
  intros a o m ps s text c buf d buf' Hm Hs E Hcl bonus.
  pose proof (single_text _ _ _ _ Hs) as Ht.
  destruct (place_term a o m ps s KExact text c buf Hm Hs) as [[_ E']|(i & pre & mid & post & P & Hi & Hl & F)];
    [discriminate|congruence|].
  rewrite E in F. exists pre, mid, post. split; [exact F|].
  unfold place_found in P. cbn [t_kind] in P.
  apply exact_find_some in P as [_ P]; [|exact Ht]. cbn [pat_of p_text t_text] in P.
  assert (Hc : clean (char_eq (sensitive_for (opt_case o) text) (opt_norm o)) text c).
  { intros k x y z Hx Hy Hz Ey Ez. assert (hd 0%N text = x) as Hh by (destruct text; [discriminate|]; injection Hx; auto).
    apply char_eq_agrees in Ey, Ez. rewrite <- Hh in Ey, Ez.
    destruct (Hcl k y z Hy Hz Ey Ez) as (x1 & Hx1 & Hn). exists x1. split; [exact Hx1|].
    destruct (char_eq (sensitive_for (opt_case o) text) (opt_norm o) x1 z) eqn:Ex; [|reflexivity].
    exfalso. apply Hn. apply char_eq_agrees. exact Ex. }
  assert (Hocc : forall j, occurs_at (agreement o text) text c j ->
            occ (char_eq (sensitive_for (opt_case o) text) (opt_norm o)) text c j).
  { intros j. apply occurs_at_occ. }
  destruct (P Hc) as [P1 P2]. rewrite <- Hi in *. split.
  - intros j Hj Hlt. apply P1; auto.
  - destruct P2 as [P2|P2]; [left; exact P2|right; auto].
Qed.

(** ** C47: schemes *)

Lemma c47_one_character : forall a o m x q pre y post d m',
  metric_reached a o m -> fuzzy_query [x] q ->
  metric_distance m q (pre ++ y :: post) = Ok (Some d, m') ->
  agreement o [x] x y ->
  Forall (fun z => ~ agreement o [x] x z) pre -> Forall (fun z => ~ agreement o [x] x z) post ->
  d = from_score (16 + 2 * bonus_of (opt_scheme o) (pre ++ y :: post) (length pre)).
Proof.
  intros a o m x q pre y post d m' Hm Hq E Ay H1 H2.
  assert (Hnth : nth_error (pre ++ y :: post) (length pre) = Some y)
    by (rewrite nth_error_app2, Nat.sub_diag by lia; reflexivity).
  assert (Hu : forall k z, nth_error (pre ++ y :: post) k = Some z -> agreement o [x] x z -> k = length pre).
  { intros k z Hz Az. rewrite Forall_forall in H1, H2. destruct (Nat.lt_trichotomy k (length pre)) as [Hk|[Hk|Hk]]; [|exact Hk|].
    - rewrite nth_error_app1 in Hz by exact Hk. exfalso. apply (H1 z); [eapply nth_error_In; exact Hz|exact Az].
    - rewrite nth_error_app2 in Hz by lia. destruct (k - length pre) as [|k'] eqn:Ek; [lia|]. cbn in Hz.
      exfalso. apply (H2 z); [eapply nth_error_In; exact Hz|exact Az]. }
  destruct a.
  - rewrite <- (Z.add_0_r (16 + _)).
    change (16 + 2 * bonus_of (opt_scheme o) (pre ++ y :: post) (length pre) + 0)%Z
      with (alignment_score (opt_scheme o) (pre ++ y :: post) [length pre]).
    apply (c41_v1_score o m [x] q _ d m' [length pre] Hm Hq ltac:(discriminate) E). split; [|split].
    + split; [repeat constructor|]. constructor; [|constructor]. exists y. auto.
    + intros qs [_ F]. inversion F as [|? ? ? ? (z & Hz & Az) F']; subst. inversion F'; subst. cbn.
      rewrite (Hu _ _ Hz Az). lia.
    + intros qs [_ F] _. inversion F as [|? ? ? ? (z & Hz & Az) F']; subst. inversion F'; subst. cbn.
      rewrite (Hu _ _ Hz Az). split; [lia|]. intros _. repeat constructor.
  - destruct (fuzzy_result _ _ _ _ _ (pre ++ y :: post) [] Hm Hq) as [(m1 & E1) (m2 & E2)].
    assert (E3 : option_map from_score (fst (raw_outcome AlgoV2 o [x] (pre ++ y :: post))) = Some d) by congruence.
    rewrite E3 in E2.
    destruct (c45_v2_single _ _ _ _ _ _ _ _ _ Hm Hq E2) as (pre' & y' & post' & Hc & Ay' & -> & _ & _).
    assert (length pre' = length pre) as ->; [|reflexivity].
    apply (Hu _ y'); [|exact Ay']. rewrite Hc, nth_error_app2, Nat.sub_diag by lia. reflexivity.
Qed.

(** What the position of a character is worth, by the character before it. *)
Lemma bonus_after sch pre z y post :
  bonus_of sch (pre ++ z :: y :: post) (S (length pre)) = points sch (place_of sch z) (place_of sch y).
Proof.
  unfold bonus_of. rewrite (app_nth2 _ _ 0%N (n := length pre)), Nat.sub_diag by lia.
  rewrite (app_nth2 _ _ 0%N (n := S (length pre))) by lia.
  replace (S (length pre) - length pre) with 1 by lia. reflexivity.
Qed.

Lemma letter_place sch y : (65 <= y <= 90 \/ 97 <= y <= 122)%N -> place_of sch y = PLower \/ place_of sch y = PUpper.
Proof.
  intros H. unfold place_of. destruct (N.ltb_spec y 128); [|lia].
  destruct (N.leb_spec 97 y), (N.leb_spec y 122); cbn [andb]; auto;
    (destruct (N.leb_spec 65 y), (N.leb_spec y 90); cbn [andb]; auto; lia).
Qed.

Lemma place_code sch y : (y < 128)%N -> place_of sch y =
  if ((97 <=? y) && (y <=? 122))%N then PLower
    else if ((65 <=? y) && (y <=? 90))%N then PUpper
    else if ((48 <=? y) && (y <=? 57))%N then PDigit
    else if existsb (N.eqb y) [9; 10; 12; 13; 32]%N then PSpace
    else if existsb (N.eqb y) (delimiters sch) then PDelim
    else POther.
Proof. intros H. unfold place_of. destruct (N.ltb_spec y 128); [reflexivity|lia]. Qed.

(** After a path separator, a letter has one point more with Path than after anything else. *)
Lemma c47_path : forall pre z y post, (65 <= y <= 90 \/ 97 <= y <= 122)%N ->
  (z = 47%N -> bonus_of SchemePath (pre ++ z :: y :: post) (S (length pre)) = 9%Z)
  /\ (z <> 47%N -> z <> 92%N -> (bonus_of SchemePath (pre ++ z :: y :: post) (S (length pre)) <= 8)%Z)
  /\ bonus_of SchemePath (y :: post) 0 = 9%Z.
Proof.
  intros pre z y post Hy. destruct (letter_place SchemePath y Hy) as [Ey|Ey]; rewrite bonus_after, Ey; split; [|split| |split].
  - intros ->. rewrite place_code by lia. cbn. destruct cfg_windows; reflexivity.
  - intros H1 H2. assert (Hz : place_of SchemePath z <> PDelim).
    { unfold place_of, delimiters. destruct (N.eqb_spec z 47); [congruence|]. destruct (N.eqb_spec z 92); [congruence|].
      destruct cfg_windows; cbn [existsb]; destruct (N.eqb_spec z 47), (N.eqb_spec z 92); try congruence; cbn [orb];
      repeat (match goal with |- context [if ?b then _ else _] => destruct b end; try discriminate). }
    destruct (place_of SchemePath z); cbn; try lia; congruence.
  - unfold bonus_of. cbn [nth]. rewrite Ey. reflexivity.
  - intros ->. rewrite place_code by lia. cbn. destruct cfg_windows; reflexivity.
  - intros H1 H2. assert (Hz : place_of SchemePath z <> PDelim).
    { unfold place_of, delimiters. destruct (N.eqb_spec z 47); [congruence|]. destruct (N.eqb_spec z 92); [congruence|].
      destruct cfg_windows; cbn [existsb]; destruct (N.eqb_spec z 47), (N.eqb_spec z 92); try congruence; cbn [orb];
      repeat (match goal with |- context [if ?b then _ else _] => destruct b end; try discriminate). }
    destruct (place_of SchemePath z); cbn; try lia; congruence.
  - unfold bonus_of. cbn [nth]. rewrite Ey. reflexivity.
Qed.

(** No position is worth more than 8 points with History, and it is worth 8 after any character
    which is neither a letter nor a digit. *)
Lemma c47_history : forall c j, (bonus_of SchemeHistory c j <= 8)%Z.
Proof.
  intros c j. unfold bonus_of. generalize (match j with O => before_start SchemeHistory | S i => place_of SchemeHistory (nth i c 0%N) end).
  intros p. destruct p, (place_of SchemeHistory (nth j c 0%N)); cbn; lia.
Qed.

Lemma c47_default : forall pre z y post, (65 <= y <= 90 \/ 97 <= y <= 122)%N ->
  (In z [9; 10; 12; 13; 32]%N -> bonus_of SchemeDefault (pre ++ z :: y :: post) (S (length pre)) = 10%Z)
  /\ (In z [47; 44; 58; 59; 124]%N -> bonus_of SchemeDefault (pre ++ z :: y :: post) (S (length pre)) = 9%Z)
  /\ bonus_of SchemeDefault (y :: post) 0 = 10%Z.
Proof.
  intros pre z y post Hy. destruct (letter_place SchemeDefault y Hy) as [Ey|Ey]; rewrite bonus_after, Ey; split; [|split| |split];
    try (unfold bonus_of; cbn [nth]; rewrite Ey; reflexivity);
    (intros H; repeat (destruct H as [<-|H]; [reflexivity|]); destruct H).
Qed.

(** ** C51: the two ways to store a candidate *)

Lemma c51_same_search : forall a o m q c buf,
  metric_reached a o m -> query_reached q -> Forall (fun x => x < 128)%N c ->
  exists r m1 m2 m3 buf', metric_distance_and_ranges m q c buf = Ok (r, m1, buf')
    /\ search_stored m q (Ascii c) buf = Ok (r, m2, buf')
    /\ search_stored m q (Unicode c) buf = Ok (r, m3, buf').
Proof.
  intros a o m q c buf Hm Hq Hc.
  assert (Ha : str_is_ascii c = true).
  { unfold str_is_ascii. apply forallb_forall. intros x Hx. rewrite Forall_forall in Hc. apply N.ltb_lt. auto. }
  apply metric_reached_options in Hm.
  assert (K : forall cand, cand_ok cand -> cand_slice cand = c -> exists r m1 m2 buf',
     metric_distance_and_ranges m q c buf = Ok (r, m1, buf') /\ search_stored m q cand buf = Ok (r, m2, buf')).
  2:{ destruct (K (Ascii c)) as (r & m1 & m2 & b & E1 & E2); [exact Ha|reflexivity|].
      destruct (K (Unicode c)) as (r' & m1' & m3 & b' & E1' & E3); [exact I|reflexivity|].
      rewrite E1 in E1'. injection E1' as <- <- <-. exists r, m1, m2, m3, b. auto. }
  intros cand Hk Hs.
  assert (Q : q_is_empty q = true \/ exists t, q = query_of t /\ texts_ok t /\ Forall (fun g => g <> []) t).
  { destruct (query_reached_inv q Hq) as [(s & ->)|(text & ->)].
    - right. exists (parse_spec s). split; [reflexivity|]. apply parse_spec_ok.
    - destruct text as [|x text]; [left; reflexivity|]. right. exists [[Term false KFuzzy (x :: text)]].
      split; [reflexivity|]. split; repeat constructor; discriminate. }
  destruct Q as [Q|(t & -> & T1 & T2)].
  - destruct m as [m|m]; cbn [metric_distance_and_ranges]; unfold search_stored, v1_distance_and_ranges, v2_distance_and_ranges,
      v1_fzf_distance, v2_fzf_distance, fzf_distance; rewrite Q; cbn [bind]; eauto 8.
  - destruct (metric_spec a o m t c buf Hm T1 T2) as [_ (m1 & _ & E1)].
    unfold search_stored. destruct (q_is_empty (query_of t)) eqn:Q.
    { apply empty_query in Q; auto. subst t. cbn in E1. rewrite app_nil_r in E1. eauto 8. }
    destruct a, m as [m|m]; try contradiction.
    + destruct (fzf_search_spec v1_alloc_chars v1_char_eq v1_scoring_scheme v1_fuzzy AlgoV1 o (v1_inv o)
        (v1_alloc_ok o) (v1_char_eq_ok o) (fun st H => proj2 (proj2 H)) (v1_fuzzy_ok o) true m t cand buf Hm Hk T1) as (m2 & _ & E2).
      rewrite Hs in E2. exists (option_map from_score (fst (outcome AlgoV1 o t c))), m1, (V1 m2), (buf ++ inserts [] (snd (outcome AlgoV1 o t c))).
      split; [exact E1|]. rewrite E2. reflexivity.
    + destruct (fzf_search_spec v2_alloc_chars v2_char_eq v2_scoring_scheme v2_fuzzy AlgoV2 o (v2_inv o)
        (v2_alloc_ok o) (v2_char_eq_ok o) (fun st H => proj2 (proj2 H)) (v2_fuzzy_ok o) true m t cand buf Hm Hk T1) as (m2 & _ & E2).
      rewrite Hs in E2. exists (option_map from_score (fst (outcome AlgoV2 o t c))), m1, (V2 m2), (buf ++ inserts [] (snd (outcome AlgoV2 o t c))).
      split; [exact E1|]. rewrite E2. reflexivity.
Qed.

(** ** C39: bounds of scores *)

Lemma v1_bounds o text c sc rs : text <> [] -> fuzzy_outcome AlgoV1 o text c = Some (sc, rs) ->
  (15 * Z.of_nat (length text) + 2 - Z.of_nat (length c) <= sc <= 26 * Z.of_nat (length text) + 10)%Z.
Proof.
  intros Ht H. destruct (v1_case _ _ _ _ _ Ht H) as (ps & _ & -> & _ & A & _).
  pose proof (proj2 (aligned_alignment _ _ _ _ _) A) as A'. pose proof (aligned_bound _ _ _ _ _ A') as B.
  destruct A as [S F]. pose proof (Forall2_len _ _ _ F) as Hl.
  assert (Hne : ps <> []) by (intros ->; destruct text; [congruence|discriminate]).
  pose proof (alignment_score_bounds (opt_scheme o) c ps Hne S) as Hb. rewrite <- Hl in Hb.
  rewrite Forall_forall in B. specialize (B _ (last_in ps 0 Hne)). lia.
Qed.

Lemma v2_bounds o text c sc rs : text <> [] -> fuzzy_outcome AlgoV2 o text c = Some (sc, rs) ->
  (16 <= sc <= 26 * Z.of_nat (length text) + 10)%Z
  /\ (15 * Z.of_nat (length text) + 2 - Z.of_nat (length c) <= sc)%Z.
Proof.
  intros Ht H. destruct (v2_case _ _ _ _ _ Ht H) as (ps & fs & stop & Hr & _ & G & L).
  split; [apply (v2_score_bounds _ _ _ _ _ _ _ Ht G L _ _ Hr)|].
  pose proof (v2_score_width _ _ _ _ _ _ _ Ht G L _ _ Hr) as Hw.
  apply greedy_sound in G. pose proof (aligned_bound _ _ _ _ _ G) as B. rewrite Forall_forall in B.
  assert (Hne : fs <> []) by (eapply aligned_nonempty; eauto).
  specialize (B _ (last_in fs 0 Hne)). lia.
Qed.

Lemma c39_fuzzy : forall a o m text q c d m',
  metric_reached a o m -> fuzzy_query text q -> text <> [] ->
  metric_distance m q c = Ok (Some d, m') ->
  (15 * Z.of_nat (length text) + 2 - Z.of_nat (length c) <= into_score d
     <= 26 * Z.of_nat (length text) + 10)%Z
  /\ (a = AlgoV2 -> (16 <= into_score d)%Z).
Proof.
  intros a o m text q c d m' Hm Hq Ht E.
  pose proof (fuzzy_distance _ _ _ _ _ _ _ _ Hm Hq E) as Hd.
  symmetry in Hd. apply raw_some in Hd as [[-> _]|(_ & rs & Hf & _)]; [congruence|].
  destruct a.
  - apply v1_bounds in Hf; [|exact Ht]. split; [exact Hf|discriminate].
  - apply v2_bounds in Hf; [|exact Ht]. split; [lia|]. intros _. lia.
Qed.

Lemma place_bounds o t c i : t_text t <> [] -> place_found o t c = Some i ->
  let sc := alignment_score (opt_scheme o) c (seq i (length (t_text t))) in
  (20 * Z.of_nat (length (t_text t)) - 4 <= sc <= 26 * Z.of_nat (length (t_text t)) + 10)%Z.
Proof.
  intros Ht _. assert (Hn : 0 < length (t_text t)) by (destruct (t_text t); [congruence|simpl; lia]).
  cbv zeta. split; [apply run_score_lower; exact Hn|].
  pose proof (alignment_score_bounds (opt_scheme o) c (seq i (length (t_text t)))) as B.
  rewrite seq_length in B. apply B.
  - destruct (length (t_text t)); [lia|discriminate].
  - generalize (length (t_text t)). clear. intros n. revert i. induction n as [|n IH]; intros i; cbn [seq]; constructor; [apply IH|].
    apply Forall_forall. intros x Hx. apply in_seq in Hx. lia.
Qed.

Lemma c39_other : forall a o m ps s k text c d,
  metric_reached a o m -> parse_spec s = [[Term false k text]] -> k <> KFuzzy ->
  find ps m s c = Ok (Some d) ->
  (20 * Z.of_nat (length text) - 4 <= into_score d <= 26 * Z.of_nat (length text) + 10)%Z.
Proof.
  intros a o m ps s k text c d Hm Hs Hk E. destruct (single_result a o m ps s k text c [] Hm Hs) as [E' _].
  rewrite E in E'. pose proof (single_text _ _ _ _ Hs) as Ht.
  assert (Eb : base_outcome a o (Term false k text) c
    = match place_found o (Term false k text) c with
      | Some i => Some (alignment_score (opt_scheme o) c (seq i (length text)), [span c i (i + length text)])
      | None => None end) by (unfold base_outcome; cbn [t_kind t_text]; destruct k; congruence).
  rewrite Eb in E'. destruct (place_found o (Term false k text) c) as [i|] eqn:P; [|discriminate].
  cbn [option_map fst] in E'. injection E' as ->. cbn [from_score into_score].
  exact (place_bounds o (Term false k text) c i Ht P).
Qed.

Lemma base_bounds a o t c sc rs : t_text t <> [] -> base_outcome a o t c = Some (sc, rs) ->
  (- Z.of_nat (length c) <= sc <= 36 * Z.of_nat (length (t_text t)))%Z.
Proof.
  intros Ht H. assert (Hn : 0 < length (t_text t)) by (destruct (t_text t); [congruence|simpl; lia]).
  assert (K : t_kind t = KFuzzy /\ fuzzy_outcome a o (t_text t) c = Some (sc, rs)
     \/ exists i, place_found o t c = Some i /\ sc = alignment_score (opt_scheme o) c (seq i (length (t_text t)))).
  { unfold base_outcome in H. destruct (t_kind t); [left; auto|right..];
      (destruct (place_found o t c) as [i|]; [|discriminate]; injection H as <- _; eauto). }
  destruct K as [[_ K]|(i & P & ->)].
  - destruct a.
    + apply v1_bounds in K; [lia|exact Ht].
    + apply v2_bounds in K; [lia|exact Ht].
  - pose proof (place_bounds o t c i Ht P) as B. cbv zeta in B. lia.
Qed.

(** The number of characters of all the terms. *)
Definition weight (q : cnf) : nat := list_sum (map (fun t => length (t_text t)) (concat q)).

Lemma weight_cons g q : weight (g :: q) = list_sum (map (fun t => length (t_text t)) g) + weight q.
Proof. unfold weight. cbn [concat]. rewrite map_app, list_sum_app. reflexivity. Qed.

Lemma either_bounds a o g c sc rs : Forall (fun t => t_text t <> []) g -> either_outcome a o g c = Some (sc, rs) ->
  0 < list_sum (map (fun t => length (t_text t)) g)
  /\ (- Z.of_nat (length c) <= sc <= 36 * Z.of_nat (list_sum (map (fun t => length (t_text t)) g)))%Z.
Proof.
  induction 1 as [|t g Ht Hg IH]; intros H; [discriminate|]. cbn [either_outcome map list_sum fold_right] in *.
  assert (Hn : 0 < length (t_text t)) by (destruct (t_text t); [congruence|simpl; lia]).
  destruct (term_outcome a o t c) as [r|] eqn:E.
  - injection H as ->. unfold term_outcome in E. destruct (t_neg t).
    + destruct (base_outcome a o t c); [discriminate|]. injection E as <- _. lia.
    + apply base_bounds in E; [|exact Ht]. lia.
  - destruct (IH H) as [I1 I2]. unfold list_sum in I1, I2. lia.
Qed.

Lemma all_bounds a o q c sc : texts_ok q -> fst (all_outcome a o q c) = Some sc ->
  (- Z.of_nat (length q * length c) <= sc <= 36 * Z.of_nat (weight q))%Z /\ length q <= weight q.
Proof.
  intros T. revert sc. induction T as [|g q Hg T IH]; intros sc H.
  - injection H as <-. cbn. lia.
  - cbn [all_outcome] in H. destruct (either_outcome a o g c) as [[sc1 rs]|] eqn:E; [|discriminate].
    destruct (all_outcome a o q c) as [[tot|] rs'] eqn:Eq; [|discriminate]. injection H as <-.
    apply either_bounds in E as [E1 E2]; [|exact Hg]. destruct (IH tot eq_refl) as [I1 I2].
    rewrite weight_cons. cbn [length]. rewrite Nat.mul_succ_l. lia.
Qed.

Lemma query_bounds a o q c sc : texts_ok q -> fst (outcome a o q c) = Some sc ->
  (- Z.of_nat (length q * length c) <= sc <= 36 * Z.of_nat (weight q))%Z /\ length q <= weight q.
Proof.
  intros T H. destruct (outcome_cases q) as [(neg & text & ->)|[Eo _]].
  - assert (T' : texts_ok [[Term false KFuzzy text]]).
    { inversion T as [|? ? T1 _]; subst. inversion T1 as [|? ? T2 _]; subst. repeat constructor. exact T2. }
    apply (all_bounds a o [[Term false KFuzzy text]] c sc T'). cbn [outcome] in H. cbn. unfold term_outcome, base_outcome. cbn [t_neg t_kind t_text].
    destruct (fuzzy_outcome a o text c) as [[sc1 rs]|]; [|discriminate]. injection H as <-. cbn. f_equal. lia.
  - rewrite Eo in H. eapply all_bounds; eassumption.
Qed.

Lemma removelast_le (u : str) : length (removelast u) <= length u.
Proof. induction u as [|x [|y u] IH]; [auto|simpl; lia|]. change (S (length (removelast (y :: u))) <= length (x :: y :: u)). cbn [length] in *. lia. Qed.

Lemma list_sum_cons x u : list_sum (x :: u) = x + list_sum u.
Proof. reflexivity. Qed.

Lemma term_of_len w t : term_of w = Some t -> length (t_text t) <= length w.
Proof.
  unfold term_of. destruct (bang w) as [n w1] eqn:E1.
  assert (length w1 <= length w).
  { unfold bang in E1. destruct w as [|x w]; [injection E1 as _ <-; auto|]. destruct (x =? 33)%N; injection E1 as _ <-; simpl; lia. }
  destruct (dollar w1) as [d w2] eqn:E2.
  assert (length w2 <= length w1).
  { unfold dollar in E2. destruct w1 as [|x [|y w1]]; [injection E2 as _ <-; auto..|].
    destruct (_ =? _)%N; inversion E2; [exact (removelast_le (x :: y :: w1))|reflexivity]. }
  destruct (open_sigil w2) as [op w3] eqn:E3.
  assert (length w3 <= length w2).
  { unfold open_sigil in E3. destruct w2 as [|x w2]; [injection E3 as _ <-; auto|].
    destruct (x =? 39)%N; [injection E3 as _ <-; simpl; lia|]. destruct (x =? 94)%N; injection E3 as _ <-; simpl; lia. }
  destruct w3; [discriminate|]. intros H2. injection H2 as <-. cbn [t_text]. lia.
Qed.

Lemma marked_len ws : forall b,
  list_sum (map (fun bt => length (t_text (snd bt))) (marked_terms b ws)) <= list_sum (map (@length _) ws).
Proof.
  induction ws as [|w ws IH]; intros b; [reflexivity|]. (cbn [marked_terms map]; rewrite ?list_sum_cons).
  destruct (is_bar w); [specialize (IH true); lia|].
  destruct (term_of w) as [t|] eqn:E; [|specialize (IH b); lia].
  apply term_of_len in E. specialize (IH false). (cbn [map snd]; rewrite ?list_sum_cons). lia.
Qed.

Lemma join_weight m : weight (join_bars m) = list_sum (map (fun bt => length (t_text (snd bt))) m).
Proof.
  induction m as [|[b t] m IH]; [reflexivity|]. (cbn [join_bars map snd]; rewrite ?list_sum_cons).
  rewrite <- IH. destruct m as [|[[|] t'] m].
  - reflexivity.
  - cbv beta. destruct (join_bars ((true, t') :: m)) as [|g gs]; [reflexivity|]. rewrite !weight_cons. (cbn [map]; rewrite ?list_sum_cons). cbn [list_sum fold_right]. lia.
  - rewrite weight_cons. (cbn [map]; rewrite ?list_sum_cons). cbn [list_sum fold_right]. lia.
Qed.

Lemma tokens_len : forall n s, length s <= n -> length (tokens s) <= length s.
Proof.
  induction n as [|n IH]; intros [|x s] H; cbn [length tokens] in *; try lia.
  destruct (x =? 32)%N; [cbn [length]; specialize (IH s); lia|].
  destruct s as [|y s]; [cbn; lia|]. destruct (_ && _)%bool.
  - cbn [length] in *. specialize (IH s). lia.
  - change (length (Lit x :: tokens (y :: s))) with (S (length (tokens (y :: s)))). specialize (IH (y :: s)). lia.
Qed.

Lemma split_len l : list_sum (map (@length _) (split l)) <= length l.
Proof.
  induction l as [|[x|] l IH]; (cbn [split map length]; rewrite ?list_sum_cons); [reflexivity| |lia].
  destruct (split l) as [|w ws]; (cbn [map length] in *; rewrite ?list_sum_cons in *); [cbn [list_sum fold_right]|]; lia.
Qed.

Lemma filter_len ws : list_sum (map (@length char) (filter nonempty ws)) <= list_sum (map (@length _) ws).
Proof.
  induction ws as [|w ws IH]; [reflexivity|]. cbn [filter]. destruct (nonempty w); (cbn [map] in *; rewrite ?list_sum_cons in *); lia.
Qed.

Lemma weight_le s : weight (parse_spec s) <= length s.
Proof.
  unfold parse_spec. rewrite join_weight. pose proof (marked_len (words_of s) false). unfold words_of in *.
  pose proof (filter_len (split (tokens s))). pose proof (split_len (tokens s)). pose proof (tokens_len _ s (le_n _)). lia.
Qed.

Lemma c39_query : forall a o m ps s c d,
  metric_reached a o m -> find ps m s c = Ok (Some d) ->
  (- Z.of_nat (length s * length c) <= into_score d <= 36 * Z.of_nat (length s))%Z.
Proof.
  intros a o m ps s c d Hm E. apply metric_reached_options in Hm. rewrite (find_spec a o) in E by exact Hm.
  destruct (fst (outcome a o (parse_spec s) c)) as [sc|] eqn:Eo; [|discriminate]. injection E as <-.
  apply query_bounds in Eo as [B H]; [|apply parse_spec_ok]. pose proof (weight_le s) as W. cbn [into_score from_score].
  assert (length (parse_spec s) * length c <= length s * length c) by (apply Nat.mul_le_mono_r; lia). lia.
Qed.

Lemma c39_not_extended : forall a o m ps s c d,
  metric_reached a o m -> find_raw ps m s c = Ok (Some d) ->
  (- Z.of_nat (length s * length c) <= into_score d <= 36 * Z.of_nat (length s))%Z.
Proof.
  intros a o m ps s c d Hm E. apply metric_reached_options in Hm.
  unfold find_raw in E. destruct (parse_not_extended ps s) as [[q ps']| |] eqn:Eq; try discriminate. cbn [bind] in E.
  rewrite parse_not_extended_correct in Eq. destruct (_ <=? _); [|discriminate]. injection Eq as <- _.
  destruct (metric_raw_spec a o m s c [] Hm) as [(m1 & _ & E1) _]. rewrite E1 in E. cbn [bind] in E.
  destruct (fst (raw_outcome a o s c)) as [sc|] eqn:Es; [|discriminate]. injection E as <-. cbn [into_score from_score].
  destruct s as [|x t]; [injection Es as <-; cbn; lia|].
  destruct (query_bounds a o [[Term false KFuzzy (x :: t)]] c sc) as [B _].
  { repeat constructor. discriminate. }
  { exact Es. }
  unfold weight in B. (cbn [concat app map t_text length] in *; rewrite ?list_sum_cons in *). cbn [list_sum fold_right] in *. lia.
Qed.

(** So the score is a 64-bit integer unless the strings are enormous. *)
Lemma c39_fits : forall a o m ps s c d,
  metric_reached a o m -> find ps m s c = Ok (Some d) ->
  (36 * Z.of_nat (length s) < 2 ^ 63)%Z -> (Z.of_nat (length s) * Z.of_nat (length c) <= 2 ^ 63)%Z ->
  (- 2 ^ 63 <= into_score d < 2 ^ 63)%Z.
Proof. intros a o m ps s c d Hm E H1 H2. pose proof (c39_query _ _ _ _ _ _ _ Hm E) as B. rewrite Nat2Z.inj_mul in B. lia. Qed.

End WithUnicode.
