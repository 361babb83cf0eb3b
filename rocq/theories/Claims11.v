(** Proofs of C67: the best possible score, and which candidates reach it. *)
From Coq Require Import Sorted.
From Verif Require Import Prelude Chars Normalize Utils Candidate MatchedRanges Query Parser Scoring
  Slab Fzf FzfV1 FzfV2 Api History
  Spec PreludeProofs CharsProofs NormalizeProofs CandidateProofs MatchedRangesProofs ParserProofs
  ScoreProofs ExactProofs ShapeProofs V1Proofs V2Tables V2Proofs V2Rows V2Fuzzy V2Facts ApiProofs AcceptProofs
  RangeProofs WordsProofs CongProofs FuzzyFacts Claims1 Claims2 Claims5 ExactChoice Claims8.
Local Open Scope nat_scope.

(** ** The table *)
Section Table.
Variables (hit : nat -> nat -> bool) (bonus : nat -> Z) (first : nat -> nat) (stop h : nat) (B : Z).
Hypothesis HB : (8 <= B <= 10)%Z.
Hypothesis Hb : forall j, (0 <= bonus j <= B)%Z.
Notation T := (table hit bonus first stop).
Notation cost := (step_cost hit first stop).
Notation back := (way_back hit bonus first stop h).

Local Definition bound (i : nat) : Z := ((16 + B) * Z.of_nat (S i) + B)%Z.

Lemma bound_S i : bound (S i) = (bound i + 16 + B)%Z.
Proof. unfold bound. lia. Qed.

Lemma bound_pos i : (0 < bound i)%Z.
Proof. unfold bound. nia. Qed.

Lemma T_hit_top i k : 0 < k -> first (S i) <= k -> hit (S i) k = true ->
  exists b r, (0 <= b <= B)%Z
    /\ (let left := saturating_sub (pts (T (S i) (k - 1))) (cost (S i) k) in
        T (S i) k = if (pts (T i (k - 1)) + 16 + b <? left)%Z then Cell left 0
                    else Cell (pts (T i (k - 1)) + 16 + b) r)
    /\ (0 < run (T i (k - 1)) -> bonus (k - run (T i (k - 1))) = B -> b = B /\ r = S (run (T i (k - 1)))).
Proof.
  intros Hk Hf Hh. rewrite (T_hit i k) by assumption. cbv zeta. unfold pts_of, run_of.
  set (left := saturating_sub _ _). set (n := run (T i (k - 1))).
  pose proof (Hb k). pose proof (Hb (S k - S n)). 
  destruct (Nat.eqb_spec (S n) 1).
  - exists (bonus k), (S n). split; [lia|]. split; [reflexivity|]. lia.
  - change (S k - S n) with (k - n) in *. destruct (_ && _)%Z eqn:E.
    + exists (bonus k), 1. split; [lia|]. split; [reflexivity|]. intros _ E2. rewrite E2 in E.
      apply andb_prop in E as [_ E]. apply Z.ltb_lt in E. lia.
    + exists (Z.max (Z.max 4 (bonus (k - n))) (bonus k)), (S n). split; [lia|]. split; [reflexivity|].
      intros _ ->. split; [lia|reflexivity].
Qed.

(** A sharper [pts_upper]. *)
Lemma pts_top i : forall k, (pts (T i k) <= bound i)%Z.
Proof.
  induction i as [|i IHi].
  - intros k. apply cell_le_hits; [pose proof (bound_pos 0); lia|]. intros j Hj Hh.
    rewrite T_hit0 by (auto; lia). cbn [pts]. pose proof (Hb j). unfold bound. lia.
  - assert (G : forall n j, j < n -> first (S i) <= j -> hit (S i) j = true -> (pts (T (S i) j) <= bound (S i))%Z).
    { induction n as [|n IHn]; intros j Hn Hf Hh; [lia|].
      destruct (Nat.eq_dec j 0) as [->|]; [rewrite T_col0; pose proof (bound_pos (S i)); lia|].
      destruct (T_hit_top i j ltac:(lia) Hf Hh) as (b & r & Hbb & Hv & _). cbv zeta in Hv. rewrite Hv. clear Hv.
      pose proof (IHi (j - 1)). pose proof (step_cost_bounds hit first stop (S i) j).
      assert (pts (T (S i) (j - 1)) <= bound (S i))%Z.
      { apply cell_le_hits; [pose proof (bound_pos (S i)); lia|]. intros x Hx Hhx. apply IHn; auto; lia. }
      pose proof (bound_pos (S i)). rewrite bound_S in *.
      destruct (_ <? _)%Z; cbn [pts]; [unfold saturating_sub, I64_MIN|]; lia. }
    intros k. apply cell_le_hits; [pose proof (bound_pos (S i)); lia|]. intros j Hj Hh. apply (G (S j)); auto; lia.
Qed.

(** An occurrence worth [B] reaches the bound. *)
Lemma pts_reach k : bonus k = B ->
  forall i, (forall i', i' <= i -> first i' <= k + i' /\ hit i' (k + i') = true) ->
  T i (k + i) = Cell (bound i) (S i).
Proof.
  intros Ek. induction i as [|i IH]; intros H.
  - destruct (H 0 (le_n 0)) as [Hf Hh]. rewrite Nat.add_0_r in *. rewrite T_hit0 by assumption. rewrite Ek.
    unfold bound. f_equal. lia.
  - destruct (H (S i) (le_n _)) as [Hf Hh].
    destruct (T_hit_top i (k + S i) ltac:(lia) Hf Hh) as (b & r & Hbb & Hv & Hr). cbv zeta in Hv.
    replace (k + S i - 1) with (k + i) in * by lia. rewrite IH in * by (intros; apply H; lia). cbn [pts run] in *.
    destruct Hr as [-> ->]; [lia|replace (k + S i - S i) with k by lia; exact Ek|].
    rewrite Hv. rewrite <- bound_S.
    pose proof (pts_top (S i) (k + i)). pose proof (step_cost_bounds hit first stop (S i) (k + S i)). pose proof (bound_pos (S i)).
    destruct (Z.ltb_spec (bound (S i)) (saturating_sub (pts (T (S i) (k + i))) (cost (S i) (k + S i)))) as [Hlt|]; [|reflexivity].
    unfold saturating_sub, I64_MIN in Hlt. lia.
Qed.

(** Nothing else reaches it, and the way back from such a cell highlights the occurrence. *)
Lemma reached_only i : forall j, pts (T i j) = bound i ->
  i <= j /\ bonus (j - i) = B /\ (forall i', i' <= i -> first i' <= j - i + i' /\ hit i' (j - i + i') = true).
Proof.
  assert (Step : forall i j, pts (T i j) = bound i -> first i <= j /\ hit i j = true).
  { intros i0 j E. pose proof (bound_pos i0) as Hp. destruct (Nat.lt_ge_cases j (first i0)) as [Hlt|Hge].
    { rewrite T_before in E by exact Hlt. cbn in E. lia. }
    split; [exact Hge|]. destruct (hit i0 j) eqn:Hh; [reflexivity|exfalso].
    destruct j as [|j]; [rewrite T_zero in E by auto; lia|].
    rewrite T_gap_pts in E by (auto; lia). unfold saturating_sub, I64_MIN in E.
    pose proof (step_cost_bounds hit first stop i0 (S j)). pose proof (pts_top i0 (S j - 1)). lia. }
  induction i as [|i IH]; intros j E; destruct (Step _ _ E) as [Hf Hh].
  - rewrite T_hit0 in E by assumption. cbn [pts] in E. unfold bound in E. rewrite Nat.sub_0_r.
    split; [lia|]. split; [pose proof (Hb j); lia|]. intros i' Hi'. replace i' with 0 by lia. rewrite Nat.add_0_r. auto.
  - destruct j as [|j]; [rewrite T_col0 in E; pose proof (bound_pos (S i)); lia|].
    destruct (T_hit_top i (S j) ltac:(lia) Hf Hh) as (b & r & Hbb & Hv & _). cbv zeta in Hv.
    rewrite Hv in E. replace (S j - 1) with j in * by lia. clear Hv.
    assert (E' : pts (T i j) = bound i).
    { pose proof (pts_top i j). pose proof (bound_pos (S i)). rewrite bound_S in *.
      pose proof (pts_top (S i) j). pose proof (step_cost_bounds hit first stop (S i) (S j)). rewrite bound_S in *.
      destruct (_ <? _)%Z; cbn [pts] in E; [unfold saturating_sub, I64_MIN in E|]; lia. }
    destruct (IH j E') as (H1 & H2 & H3). split; [lia|]. replace (S j - S i) with (j - i) by lia. split; [exact H2|].
    intros i' Hi'. destruct (Nat.eq_dec i' (S i)) as [->|]; [|apply H3; lia].
    replace (j - i + S i) with (S j) by lia. auto.
Qed.

Lemma back_reached k : bonus k = B ->
  forall i, (forall i', i' <= i -> first i' <= k + i' /\ hit i' (k + i') = true) ->
  back i (k + i) true = rev (seq k (S i)).
Proof.
  intros Ek.
  assert (Et : forall i, (forall i', i' <= i -> first i' <= k + i' /\ hit i' (k + i') = true) ->
            taken hit bonus first stop i (k + i) true = true).
  { intros i H. pose proof (pts_reach k Ek i H) as E. pose proof (bound_pos i) as Hp. unfold taken. rewrite E. cbn [pts].
    apply andb_true_intro. split.
    - apply Z.ltb_lt. destruct i as [|i]; [exact Hp|]. rewrite <- plus_n_Sm.
      pose proof (pts_top i (k + i)). rewrite bound_S. lia.
    - assert (Hl : (match (k + i)%nat with 0%nat => 0 | S j' => pts (T i j') end <= bound i)%Z).
      { destruct (k + i); [lia|apply pts_top]. }
      destruct (Z.ltb_spec (match (k + i)%nat with 0%nat => 0 | S j' => pts (T i j') end) (bound i)) as [|Hge]; [reflexivity|].
      cbn [orb]. rewrite andb_true_r. apply Z.eqb_eq. lia. }
  induction i as [|i IH]; intros H; rewrite back_eq, (Et _ H).
  - rewrite Nat.add_0_r. destruct k; reflexivity.
  - rewrite <- plus_n_Sm.
    assert (Ep : pref hit bonus first stop h (S i) (S (k + i)) = true).
    { unfold pref. pose proof (pts_reach k Ek (S i) H) as E. rewrite <- plus_n_Sm in E. rewrite E. reflexivity. }
    rewrite Ep, IH by (intros; apply H; lia).
    rewrite (seq_S (S i) k), rev_app_distr. cbn [rev app]. f_equal. lia.
Qed.

End Table.

(** ** The two searches *)
Section WithUnicode.
Context {UC : unicode}.

Lemma bonus_of_top sch l j : (0 <= bonus_of sch l j <= top_points sch)%Z.
Proof.
  unfold bonus_of. set (a := match j with 0 => _ | S i => _ end). set (b := place_of sch (nth j l 0%N)).
  destruct sch, a, b; cbn; lia.
Qed.

Lemma top_points_bounds sch : (8 <= top_points sch <= 10)%Z.
Proof. destruct sch; cbn; lia. Qed.

Lemma rest_score_top sch l : forall ps prev best, (best <= top_points sch)%Z -> StronglySorted lt (prev :: ps) ->
  (rest_score sch l prev best ps <= (16 + top_points sch) * Z.of_nat (length ps))%Z.
Proof.
  induction ps as [|j ps IH]; intros prev best Hb Hs; [cbn; lia|].
  apply StronglySorted_inv in Hs as [Hs Hx]. inversion Hx as [|? ? Hj _]; subst.
  cbn [rest_score length]. cbv zeta. pose proof (bonus_of_top sch l j) as Bj. pose proof (top_points_bounds sch).
  destruct (Nat.eqb_spec j (S prev)).
  - set (best' := if ((8 <=? bonus_of sch l j) && (best <? bonus_of sch l j))%Z then bonus_of sch l j else best).
    assert (Hb' : (best' <= top_points sch)%Z) by (unfold best'; destruct (_ && _)%Z; lia).
    specialize (IH j best' Hb' Hs). lia.
  - specialize (IH j (bonus_of sch l j) (proj2 Bj) Hs). lia.
Qed.

Lemma alignment_score_top sch l ps : ps <> [] -> StronglySorted lt ps ->
  (alignment_score sch l ps <= best_score sch (length ps))%Z.
Proof.
  intros Hne Hs. destruct ps as [|j ps]; [congruence|]. cbn [alignment_score length].
  pose proof (bonus_of_top sch l j) as Bj. pose proof (rest_score_top sch l ps j (bonus_of sch l j) (proj2 Bj) Hs).
  unfold best_score. lia.
Qed.

Lemma rest_score_reach sch l : forall n i,
  rest_score sch l i (top_points sch) (seq (S i) n) = ((16 + top_points sch) * Z.of_nat n)%Z.
Proof.
  induction n as [|n IH]; intros i; [cbn [seq rest_score]; lia|]. cbn [seq rest_score]. cbv zeta. rewrite Nat.eqb_refl.
  pose proof (bonus_of_top sch l (S i)) as B. pose proof (top_points_bounds sch).
  destruct (Z.ltb_spec (top_points sch) (bonus_of sch l (S i))); [lia|]. rewrite andb_false_r, IH. lia.
Qed.

Lemma run_score_reach sch l i n : 0 < n -> bonus_of sch l i = top_points sch ->
  alignment_score sch l (seq i n) = best_score sch n.
Proof.
  intros Hn E. destruct n as [|n]; [lia|]. cbn [seq alignment_score]. rewrite E, rest_score_reach. unfold best_score. lia.
Qed.

Lemma seq_sorted : forall n i, StronglySorted lt (seq i n).
Proof.
  induction n as [|n IH]; intros i; cbn [seq]; constructor; [apply IH|].
  apply Forall_forall. intros x Hx. apply in_seq in Hx. lia.
Qed.

Lemma occurs_nth (R : char -> char -> Prop) p c k : occurs_at R p c k ->
  k + length p <= length c
  /\ forall i x, nth_error p i = Some x -> exists y, nth_error c (k + i) = Some y /\ R x y.
Proof.
  intros (pre & mid & post & -> & <- & F). split.
  - rewrite !app_length, (Forall2_len _ _ _ F). lia.
  - intros i x Hx. assert (E : nth_error (pre ++ mid ++ post) (length pre + i) = nth_error (mid ++ post) i).
    { rewrite nth_error_app2 by lia. f_equal. lia. }
    rewrite E. clear E. revert i Hx. induction F as [|a b p mid Hab F IH]; intros i Hx; [destruct i; discriminate|].
    destruct i as [|i]; [injection Hx as <-; exists b; split; [reflexivity|exact Hab]|]. exact (IH i Hx).
Qed.

Lemma nth_occurs (R : char -> char -> Prop) p c k : k + length p <= length c ->
  (forall i x, nth_error p i = Some x -> exists y, nth_error c (k + i) = Some y /\ R x y) -> occurs_at R p c k.
Proof.
  intros Hl H. exists (firstn k c), (firstn (length p) (skipn k c)), (skipn (length p) (skipn k c)).
  split; [rewrite !firstn_skipn; reflexivity|]. split; [rewrite firstn_length; lia|].
  assert (H' : forall i x, nth_error p i = Some x -> exists y, nth_error (skipn k c) i = Some y /\ R x y).
  { intros i x Hx. destruct (H i x Hx) as (y & Hy & Hr). exists y. split; [|exact Hr]. rewrite nth_error_skipn. exact Hy. }
  assert (Hl' : length p <= length (skipn k c)) by (rewrite skipn_length; lia).
  clear H Hl. revert Hl' H'. generalize (skipn k c). clear. induction p as [|x p IH]; intros l Hl H; [constructor|].
  destruct l as [|y l]; [simpl in Hl; lia|]. cbn [length firstn]. constructor.
  - destruct (H 0 x eq_refl) as (z & Hz & Hr). injection Hz as ->. exact Hr.
  - apply IH; [simpl in Hl; lia|]. intros i z Hz. exact (H (S i) z Hz).
Qed.

Lemma occurs_alignment (R : char -> char -> Prop) p c k : occurs_at R p c k -> alignment R p c (seq k (length p)).
Proof.
  intros H. apply occurs_nth in H as [_ H]. split; [apply seq_sorted|]. revert k H.
  induction p as [|x p IH]; intros k H; [constructor|]. cbn [length seq]. constructor.
  - destruct (H 0 x eq_refl) as (y & Hy & Hr). rewrite Nat.add_0_r in Hy. eauto.
  - apply IH. intros i z Hz. destruct (H (S i) z Hz) as (y & Hy & Hr). exists y. split; [|exact Hr].
    rewrite <- Hy. f_equal. lia.
Qed.

Lemma run_inserts c k n ps : 0 < n -> k + n <= length c -> (forall j, In j ps <-> k <= j < k + n) ->
  inserts [] (map (char_range c) ps) = [span c k (k + n)].
Proof.
  intros Hn Hl Hps.
  assert (Hb : Forall (fun j => j < length c) ps) by (apply Forall_forall; intros j Hj; apply Hps in Hj; lia).
  apply RangeProofs.canonical_unique.
  - apply chain_canonical. apply inserts_chain; [|constructor]. apply Forall_map.
    eapply Forall_impl; [|exact Hb]. intros j Hj. unfold char_range. cbn [fst snd]. apply byte_len_firstn_lt; [lia|exact Hj].
  - apply chain_canonical. pose proof (span_proper c k n Hn Hl) as Hsp. unfold span in *. cbn [chain fst snd] in *. repeat split; auto; lia.
  - intros b. rewrite covered_chars by exact Hb. unfold byte_of_char. split.
    + intros (j & Hj & Hjl & Hb1 & Hb2). apply Hps in Hj. eexists. split; [left; reflexivity|]. unfold span. cbn [fst snd].
      pose proof (byte_len_firstn_le c k j ltac:(lia)). pose proof (byte_len_firstn_le c (S j) (k + n) ltac:(lia)). lia.
    + intros (r & [<-|[]] & Hr). unfold span in Hr. cbn [fst snd] in Hr.
      assert (G : exists j, k <= j < k + n /\ byte_len (firstn j c) <= b < byte_len (firstn (S j) c)).
      { clear Hps Hb ps Hn Hl. induction n as [|n IH]; [rewrite Nat.add_0_r in Hr; lia|].
        destruct (Nat.lt_ge_cases b (byte_len (firstn (k + n) c))) as [Hlt|Hge].
        - destruct IH as (j & Hj & Hjb); [lia|]. exists j. split; [lia|exact Hjb].
        - exists (k + n). rewrite <- plus_n_Sm in Hr. split; lia. }
      destruct G as (j & Hj & Hjb). exists j. split; [apply Hps; exact Hj|]. split; [lia|exact Hjb].
Qed.

(** ** FzfV2 *)
Section V2.
Variables (sens norm : bool) (sch : fzf_scheme) (p l : list char) (fs : list nat) (stop : nat).
Hypothesis Hp : p <> [].
Hypothesis G : greedy (char_eq sens norm) p l 0 = Some fs.
Hypothesis L : last_col sens norm p l = Some stop.
Notation hit := (hit_of sens norm p l).
Notation first := (firsts fs).
Notation h := (length p).
Notation T := (table hit (bonus_of sch l) first stop).
Lemma occurs_cells k : occurs_at (agrees sens norm) p l k ->
  k + h - 1 <= stop /\ forall i, i < h -> first i <= k + i /\ hit i (k + i) = true.
Proof.
  intros Ho. pose proof (occurs_alignment _ _ _ _ Ho) as A.
  pose proof (proj2 (aligned_alignment sens norm p l _) A) as A'.
  destruct (greedy_complete _ _ _ _ _ A') as (fs' & G' & Hle). rewrite G in G'. injection G' as <-.
  assert (Hh : 0 < h) by (destruct p; [congruence|simpl; lia]).
  split.
  - destruct (last_col_ge sens norm p l _ Hp A') as (j' & Ej & Hj & _). rewrite L in Ej. injection Ej as ->.
    rewrite last_nth, seq_length, seq_nth in Hj by lia. lia.
  - intros i Hi. split.
    + unfold firsts. clear -Hle Hi. revert k i fs Hle Hi. generalize h as n.
      induction n as [|n IH]; intros k i fs Hle Hi; [lia|]. cbn [seq] in Hle. inversion Hle as [|a b fs' ? Hab Hle']; subst.
      destruct i as [|i]; [cbn; lia|]. cbn [nth]. specialize (IH (S k) i fs' Hle' ltac:(lia)). lia.
    + apply occurs_nth in Ho as [_ Ho]. unfold hit_of.
      destruct (nth_error p i) as [x|] eqn:Ex; [|apply nth_error_None in Ex; lia].
      destruct (Ho i x Ex) as (y & -> & Hxy). apply char_eq_agrees. exact Hxy.
Qed.

Variables (sc : Z) (ps : list nat).
Hypothesis Hr : v2_result sens norm sch p l = Some (sc, ps).

Lemma v2_score_top : (sc <= best_score sch h)%Z.
Proof.
  destruct (v2_result_cell _ _ _ _ _ _ _ Hp G L _ _ Hr) as (i & j & B & -> & _).
  pose proof (pts_top hit (bonus_of sch l) first stop (top_points sch) (top_points_bounds sch) (bonus_of_top sch l) i j) as H.
  unfold bound in H. unfold best_score. destruct B as ((Hi & _) & _). pose proof (top_points_bounds sch). nia.
Qed.

Lemma v2_word k : occurs_at (agrees sens norm) p l k -> bonus_of sch l k = top_points sch ->
  (forall k', k' < k -> occurs_at (agrees sens norm) p l k' -> bonus_of sch l k' <> top_points sch) ->
  sc = best_score sch h /\ ps = rev (seq k h).
Proof.
  intros Ho Hb Hno. assert (Hh : 0 < h) by (destruct p; [congruence|simpl; lia]).
  destruct (v2_result_cell _ _ _ _ _ _ _ Hp G L _ _ Hr) as (i & j & B & -> & ->).
  destruct B as ((Hi & Hj & Hh') & HM & HL). destruct (occurs_cells k Ho) as [Hks Hc].
  assert (HB : (8 <= top_points sch <= 10)%Z) by apply top_points_bounds.
  assert (Ek : T (h - 1) (k + (h - 1)) = Cell (bound (top_points sch) (h - 1)) (S (h - 1))).
  { apply pts_reach; [exact HB|apply bonus_of_top|exact Hb|]. intros i' Hi'. apply Hc. lia. }
  assert (Ck : hit_cell hit first stop h (h - 1) (k + (h - 1))).
  { split; [lia|]. destruct (Hc (h - 1) ltac:(lia)) as [H1 H2]. split; [lia|exact H2]. }
  pose proof (HM _ _ Ck) as Hge. rewrite Ek in Hge. cbn [pts] in Hge.
  pose proof (pts_top hit (bonus_of sch l) first stop _ HB (bonus_of_top sch l) i j) as Hle.
  assert (Ei : i = h - 1).
  { destruct (Nat.eq_dec i (h - 1)) as [|Hne]; [assumption|exfalso]. unfold bound in *. nia. }
  rewrite Ei in *. clear Ei.
  assert (E : pts (T (h - 1) j) = bound (top_points sch) (h - 1)) by lia.
  split; [rewrite E; unfold bound, best_score; f_equal; f_equal; lia|].
  destruct (reached_only hit (bonus_of sch l) first stop _ HB (bonus_of_top sch l) _ _ E) as (H1 & H2 & H3).
  assert (Ho' : occurs_at (agrees sens norm) p l (j - (h - 1))).
  { apply nth_occurs.
    - destruct (H3 (h - 1) (le_n _)) as [_ H4]. apply hit_of_some in H4 as (x & y & _ & Hy & _).
      assert (j - (h - 1) + (h - 1) < length l) by (apply nth_error_Some; congruence). lia.
    - intros i' x Hx. assert (i' < h) by (apply nth_error_Some; congruence).
      destruct (H3 i' ltac:(lia)) as [_ H4]. apply hit_of_some in H4 as (x' & y & Hx' & Hy & Exy).
      rewrite Hx in Hx'. injection Hx' as <-. exists y. split; [exact Hy|]. apply char_eq_agrees. exact Exy. }
  assert (Hkj : k <= j - (h - 1)).
  { destruct (Nat.le_gt_cases k (j - (h - 1))) as [|Hlt]; [assumption|exfalso]. exact (Hno _ Hlt Ho' H2). }
  assert (Hjk : j <= k + (h - 1)).
  { destruct (Nat.le_gt_cases j (k + (h - 1))) as [|Hlt]; [assumption|exfalso].
    specialize (HL _ _ Ck (or_intror (conj eq_refl Hlt))). rewrite Ek in HL. cbn [pts] in HL. lia. }
  replace j with (k + (h - 1)) by lia.
  rewrite (back_reached hit (bonus_of sch l) first stop h _ HB (bonus_of_top sch l) k Hb).
  - do 2 f_equal. lia.
  - intros i' Hi'. apply Hc. lia.
Qed.

End V2.

(** ** The theorems *)

Lemma base_top a o t c sc rs : t_text t <> [] -> base_outcome a o t c = Some (sc, rs) ->
  (sc <= best_score (opt_scheme o) (length (t_text t)))%Z.
Proof.
  intros Ht H. assert (Hn : 0 < length (t_text t)) by (destruct (t_text t); [congruence|simpl; lia]).
  assert (K : t_kind t = KFuzzy /\ fuzzy_outcome a o (t_text t) c = Some (sc, rs)
     \/ exists i, sc = alignment_score (opt_scheme o) c (seq i (length (t_text t)))).
  { unfold base_outcome in H. destruct (t_kind t); [left; auto|right..];
      (destruct (place_found o t c) as [i|]; [|discriminate]; injection H as <- _; eauto). }
  destruct K as [[_ K]|(i & ->)].
  - destruct a.
    + destruct (v1_case _ _ _ _ _ Ht K) as (ps & _ & -> & _ & [S F] & _). rewrite (Forall2_len _ _ _ F).
      apply alignment_score_top; [|exact S]. intros ->. apply Forall2_len in F. simpl in F. lia.
    + destruct (v2_case _ _ _ _ _ Ht K) as (ps & fs & stop & Hr & _ & G & L).
      exact (v2_score_top _ _ _ _ _ _ _ Ht G L _ _ Hr).
  - rewrite <- (seq_length (length (t_text t)) i) at 2. apply alignment_score_top; [|apply seq_sorted].
    destruct (length (t_text t)); [lia|discriminate].
Qed.

Lemma c67_bound : forall a o m ps s k text c d,
  metric_reached a o m -> parse_spec s = [[Term false k text]] ->
  find ps m s c = Ok (Some d) ->
  (into_score d <= best_score (opt_scheme o) (length text))%Z.
Proof.
  intros a o m ps s k text c d Hm Hs E. destruct (single_result a o m ps s k text c [] Hm Hs) as [E' _].
  rewrite E in E'. pose proof (single_text _ _ _ _ Hs) as Ht.
  destruct (base_outcome a o (Term false k text) c) as [[sc rs]|] eqn:Eb; [|discriminate].
  apply base_top in Eb; [|exact Ht]. injection E' as ->. exact Eb.
Qed.

Lemma c67_bound_fuzzy : forall a o m text q c d m',
  metric_reached a o m -> fuzzy_query text q -> text <> [] ->
  metric_distance m q c = Ok (Some d, m') ->
  (into_score d <= best_score (opt_scheme o) (length text))%Z.
Proof.
  intros a o m text q c d m' Hm Hq Ht E.
  pose proof (fuzzy_distance _ _ _ _ _ _ _ _ Hm Hq E) as Hd.
  symmetry in Hd. apply raw_some in Hd as [[-> _]|(_ & rs & Hf & _)]; [congruence|].
  apply (base_top a o (Term false KFuzzy text) c _ rs Ht). exact Hf.
Qed.

Lemma v2_word_outcome o text c k : text <> [] ->
  occurs_at (agreement o text) text c k ->
  bonus_of (opt_scheme o) c k = top_points (opt_scheme o) ->
  (forall k', k' < k -> occurs_at (agreement o text) text c k' -> (bonus_of (opt_scheme o) c k' < top_points (opt_scheme o))%Z) ->
  exists rs, fuzzy_outcome AlgoV2 o text c = Some (best_score (opt_scheme o) (length text), rs)
    /\ inserts [] rs = [span c k (k + length text)].
Proof.
  intros Ht Ho Hb Hno.
  assert (Hf : fuzzy_in (agreement o text) text c) by (eexists; apply occurs_alignment; exact Ho).
  apply (fuzzy_outcome_iff o AlgoV2 text c Ht) in Hf as ([sc rs] & Hf).
  destruct (v2_case _ _ _ _ _ Ht Hf) as (ps & fs & stop & Hr & -> & G & L).
  destruct (v2_word _ _ _ _ _ _ _ Ht G L _ _ Hr k Ho Hb) as [-> ->].
  { intros k' Hk' Ho'. specialize (Hno k' Hk' Ho'). lia. }
  eexists. split; [exact Hf|]. apply run_inserts.
  - destruct text; [congruence|simpl; lia].
  - apply (occurs_nth _ _ _ _ Ho).
  - intros j. rewrite <- in_rev, in_seq. reflexivity.
Qed.

Lemma c67_v2_word : forall o m text q c k buf,
  metric_reached AlgoV2 o m -> fuzzy_query text q -> text <> [] ->
  occurs_at (agreement o text) text c k ->
  bonus_of (opt_scheme o) c k = top_points (opt_scheme o) ->
  (forall k', k' < k -> occurs_at (agreement o text) text c k' -> (bonus_of (opt_scheme o) c k' < top_points (opt_scheme o))%Z) ->
  exists m', metric_distance_and_ranges m q c buf
    = Ok (Some (from_score (best_score (opt_scheme o) (length text))), m',
          buf ++ [(byte_len (firstn k c), byte_len (firstn (k + length text) c))]).
Proof.
  intros o m text q c k buf Hm Hq Ht Ho Hb Hno.
  destruct (v2_word_outcome o text c k Ht Ho Hb Hno) as (rs & Ef & Ei).
  destruct (fuzzy_result AlgoV2 o m text q c buf Hm Hq) as [_ (m' & E)].
  unfold raw_outcome in E. rewrite Ef in E. destruct text; [congruence|]. cbn [fst snd option_map] in E. rewrite Ei in E. eauto.
Qed.

(** An alignment which ends as early as the number of its characters allows. *)
Lemma packed : forall ps n, StronglySorted lt ps -> Forall (fun j => n <= j) ps -> (ps <> [] -> last ps 0 < n + length ps) ->
  ps = seq n (length ps).
Proof.
  induction ps as [|x ps IH]; intros n Hs Hn Hl; [reflexivity|].
  apply StronglySorted_inv in Hs as [Hs Hx]. inversion Hn as [|? ? Hnx Hn']; subst.
  assert (Hb : Forall (fun j => S n <= j) ps) by (eapply Forall_impl; [|exact Hx]; intros; lia).
  assert (E : ps = seq (S n) (length ps)).
  { apply IH; auto. intros Hne. specialize (Hl ltac:(discriminate)). destruct ps as [|y ps]; [congruence|].
    change (last (x :: y :: ps) 0) with (last (y :: ps) 0) in Hl. cbn [length] in *. lia. }
  cbn [length seq]. f_equal; [|exact E]. specialize (Hl ltac:(discriminate)).
  destruct ps as [|y ps]; [cbn in Hl; lia|]. inversion Hx as [|? ? Hxy _]; subst. injection E as -> _. lia.
Qed.

Lemma v1_start_outcome o text c : text <> [] -> occurs_at (agreement o text) text c 0 ->
  bonus_of (opt_scheme o) c 0 = top_points (opt_scheme o) ->
  exists rs, fuzzy_outcome AlgoV1 o text c = Some (best_score (opt_scheme o) (length text), rs)
    /\ inserts [] rs = [span c 0 (0 + length text)].
Proof.
  intros Ht Ho Hb. assert (Hn : 0 < length text) by (destruct text; [congruence|simpl; lia]).
  pose proof (occurs_alignment _ _ _ _ Ho) as A.
  assert (Hf : fuzzy_in (agreement o text) text c) by (eexists; exact A).
  apply (fuzzy_outcome_iff o AlgoV1 text c Ht) in Hf as ([sc rs] & Hf).
  destruct (v1_case _ _ _ _ _ Ht Hf) as (ps & _ & Esc & Ers & [S F] & Hmin & _).
  specialize (Hmin _ A). rewrite (last_nth (seq _ _)), seq_length, seq_nth in Hmin by lia.
  assert (Eps : ps = seq 0 (length text)).
  { rewrite (Forall2_len _ _ _ F). apply packed; [exact S|apply Forall_forall; intros; lia|].
    intros _. rewrite <- (Forall2_len _ _ _ F). lia. }
  exists rs. split.
  - rewrite Hf, Esc, Eps, run_score_reach by auto. reflexivity.
  - rewrite Ers. apply run_inserts; [exact Hn|apply (occurs_nth _ _ _ _ Ho)|].
    intros j. rewrite Eps, in_seq. reflexivity.
Qed.

(** Where the other kinds of terms find a text with which the candidate starts. *)
Lemma place_start o k text mid post : k <> KFuzzy -> text <> [] -> Forall2 (agreement o text) text mid ->
  bonus_of (opt_scheme o) (mid ++ post) 0 = top_points (opt_scheme o) ->
  (k = KPrefix -> hd 0%N text <> 32%N) -> (k = KSuffix \/ k = KEqual -> post = []) ->
  place_found o (Term false k text) (mid ++ post) = Some 0.
Proof.
  intros Hk Ht F Hb Hp Hs. assert (Hl : length text = length mid) by (eapply Forall2_len; exact F).
  assert (Ho : occurs_at (agreement o text) text (mid ++ post) 0) by (exists [], mid, post; auto).
  unfold place_found. cbn [t_kind t_text]. destruct k; [congruence|..].
  - destruct (proj1 (exact_find_iff o (Term false KExact text) (mid ++ post) Ht) (ex_intro _ 0 Ho)) as (i & E).
    cbn [t_text] in E. rewrite E. destruct i as [|i]; [reflexivity|exfalso].
    apply exact_find_seen in E as (_ & E & _); [|exact Ht]. cbn [pat_of p_text t_text] in E.
    destruct (E 0 ltac:(lia)) as [_ H8].
    { apply (occurs_at_occ _ _ _ _ _ Ho). }
    unfold bonus_seen, place_seen in H8. unfold bonus_of in Hb. rewrite Hb in H8. pose proof (top_points_bounds (opt_scheme o)). lia.
  - destruct (proj1 (prefix_find_in (sensitive_for (opt_case o) text) (opt_norm o) text (mid ++ post))) as (i & E).
    { exists 0, mid, post. split; [reflexivity|exact F]. }
    rewrite E. destruct i as [|i]; [reflexivity|exfalso]. apply prefix_find_le in E as [_ E].
    inversion F as [Et Em|x y text' mid' Hxy F' Et Em]; [congruence|]. rewrite <- Em in E. cbn [app spaces repeat] in E. injection E as -> _.
    apply (Hp eq_refl). apply agrees_space_r in Hxy. rewrite <- Et. exact Hxy.
  - rewrite (Hs (or_introl eq_refl)), app_nil_r.
    destruct (proj1 (suffix_find_in (sensitive_for (opt_case o) text) (opt_norm o) text mid)) as (i & E).
    { exists [], mid, 0. split; [cbn; rewrite app_nil_r; reflexivity|exact F]. }
    rewrite E. f_equal.
    pose proof (place_found_hits o (Term false KSuffix text) mid i Ht E) as [_ B]. cbn [t_text] in B. lia.
  - rewrite (Hs (or_intror eq_refl)), app_nil_r.
    assert (X : exists i, equal_find (char_eq (sensitive_for (opt_case o) text) (opt_norm o)) text mid = Some i).
    { destruct (list_eq_dec N.eq_dec text (spaces (length text))) as [Eb|Eb].
      - assert (Em : mid = spaces (length text)).
        { assert (F' : Forall2 (agreement o text) (spaces (length text)) mid) by (rewrite <- Eb; exact F).
          apply Forall2_spaces in F'. exact F'. }
        destruct (proj2 (equal_find_blank (sensitive_for (opt_case o) text) (opt_norm o) (length text) mid ltac:(destruct text; [congruence|simpl; lia])) Em) as (i & E).
        exists i. rewrite <- Eb in E. exact E.
      - apply equal_find_in; [exact Eb|]. exists 0, mid, 0. split; [cbn; rewrite app_nil_r; reflexivity|exact F]. }
    destruct X as (i & E). rewrite E. f_equal.
    pose proof (place_found_hits o (Term false KEqual text) mid i Ht E) as [_ B]. cbn [t_text] in B. lia.
Qed.

Lemma c67_start : forall a o m ps s k text mid post buf,
  metric_reached a o m -> parse_spec s = [[Term false k text]] ->
  Forall2 (agreement o text) text mid ->
  bonus_of (opt_scheme o) (mid ++ post) 0 = top_points (opt_scheme o) ->
  (k = KPrefix -> hd 0%N text <> 32%N) -> (k = KSuffix \/ k = KEqual -> post = []) ->
  find_ranges ps m s (mid ++ post) buf
    = Ok (Some (from_score (best_score (opt_scheme o) (length text))), buf ++ [(0, byte_len mid)]).
Proof.
  intros a o m ps s k text mid post buf Hm Hs F Hb Hp Hk. pose proof (single_text _ _ _ _ Hs) as Ht.
  assert (Hn : 0 < length text) by (destruct text; [congruence|simpl; lia]).
  assert (Hl : length text = length mid) by (eapply Forall2_len; exact F).
  assert (Ho : occurs_at (agreement o text) text (mid ++ post) 0) by (exists [], mid, post; auto).
  destruct (single_result a o m ps s k text (mid ++ post) buf Hm Hs) as [_ ->].
  assert (G : exists rs, base_outcome a o (Term false k text) (mid ++ post) = Some (best_score (opt_scheme o) (length text), rs)
    /\ inserts [] rs = [span (mid ++ post) 0 (0 + length text)]).
  { destruct (match k with KFuzzy => true | _ => false end) eqn:Ek.
    - destruct k; try discriminate. unfold base_outcome. cbn [t_kind t_text]. destruct a.
      + apply v1_start_outcome; auto.
      + apply v2_word_outcome; auto. intros k' Hk'. lia.
    - assert (Hk' : k <> KFuzzy) by (intros ->; discriminate). 
      exists [span (mid ++ post) 0 (0 + length text)]. split.
      + unfold base_outcome. cbn [t_kind t_text]. rewrite (place_start o k text mid post) by auto.
        rewrite run_score_reach by auto. destruct k; [congruence|reflexivity..].
      + assert (B : 0 + length text <= length (mid ++ post)) by (rewrite app_length; lia).
        pose proof (span_proper (mid ++ post) 0 (length text) Hn B) as S. unfold span in *. cbn [fst snd] in S.
        unfold inserts. cbn [fold_left]. unfold ins. cbn. reflexivity. }
  destruct G as (rs & -> & ->). unfold span. rewrite Nat.add_0_l, Hl, firstn_app_len. reflexivity.
Qed.

Lemma c67_unbeatable : forall a o m m' ps ps' s k text mid post c d,
  metric_reached a o m -> metric_reached a o m' -> parse_spec s = [[Term false k text]] ->
  Forall2 (agreement o text) text mid ->
  bonus_of (opt_scheme o) (mid ++ post) 0 = top_points (opt_scheme o) ->
  (k = KPrefix -> hd 0%N text <> 32%N) -> (k = KSuffix \/ k = KEqual -> post = []) ->
  find ps' m' s c = Ok (Some d) ->
  exists d0, find ps m s (mid ++ post) = Ok (Some d0) /\ distance_cmp d0 d <> Gt.
Proof.
  intros a o m m' ps ps' s k text mid post c d Hm Hm' Hs F Hb Hp Hk E.
  pose proof (c67_start a o m ps s k text mid post [] Hm Hs F Hb Hp Hk) as E1.
  pose proof (c67_bound a o m' ps' s k text c d Hm' Hs E) as B.
  destruct (single_result a o m ps s k text (mid ++ post) [] Hm Hs) as [E2 E3]. rewrite E1 in E3.
  destruct (base_outcome a o (Term false k text) (mid ++ post)) as [[sc rs]|]; [|discriminate].
  exists (from_score sc). split; [exact E2|]. 
  assert (Esc : from_score (best_score (opt_scheme o) (length text)) = from_score sc) by congruence.
  apply (f_equal into_score) in Esc. cbn [into_score from_score] in Esc.
  unfold distance_cmp. destruct d as [x]. cbn [into_score from_score] in *. rewrite Z.compare_gt_iff. lia.
Qed.

(** Where the best points are: letters at the start, or after a space or, for paths, a slash. *)
Lemma c67_word_start : forall s c k x,
  nth_error c k = Some x -> ascii_letter x ->
  k = 0 \/ nth_error c (k - 1) = Some (match s with SchemePath => 47 | _ => 32 end)%N ->
  bonus_of s c k = top_points s.
Proof.
  intros s c k x Hx Hl Hk.
  assert (Ex : nth k c 0%N = x) by (apply nth_error_nth; exact Hx).
  assert (Px : place_of s x = PLower \/ place_of s x = PUpper).
  { unfold ascii_letter in Hl. unfold place_of. destruct (N.ltb_spec x 128); [|lia].
    destruct (N.leb_spec 97 x), (N.leb_spec x 122); cbn [andb]; auto;
      (destruct (N.leb_spec 65 x), (N.leb_spec x 90); cbn [andb]; auto; lia). }
  unfold bonus_of. rewrite Ex. destruct k as [|k].
  - destruct Px as [-> | ->]; destruct s; reflexivity.
  - destruct Hk as [|Hk]; [discriminate|]. replace (S k - 1) with k in Hk by lia.
    rewrite (nth_error_nth _ _ 0%N Hk).
    assert (Pp : place_of s (match s with SchemePath => 47 | _ => 32 end)%N = match s with SchemePath => PDelim | _ => PSpace end).
    { destruct s; try reflexivity. unfold place_of, delimiters. destruct cfg_windows; reflexivity. }
    rewrite Pp. destruct Px as [-> | ->]; destruct s; reflexivity.
Qed.

End WithUnicode.
