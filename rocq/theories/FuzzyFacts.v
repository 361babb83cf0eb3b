(** What is known of the scores and positions of the fuzzy searches. *)
From Coq Require Import Sorted.
From Verif Require Import Prelude Chars Normalize Utils Candidate MatchedRanges Query Parser Scoring
  Slab Fzf FzfV1 FzfV2 Api History
  Spec PreludeProofs CharsProofs NormalizeProofs CandidateProofs MatchedRangesProofs ParserProofs
  ScoreProofs ExactProofs ShapeProofs V1Proofs V2Tables V2Proofs V2Rows V2Fuzzy V2Facts ApiProofs AcceptProofs.
Local Open Scope nat_scope.

Lemma last_ge (x : nat) ps : StronglySorted lt (x :: ps) -> x <= last (x :: ps) 0.
Proof.
  revert x. induction ps as [|y ps IH]; intros x H; [simpl; lia|].
  apply StronglySorted_inv in H as [H Hx]. inversion Hx; subst.
  change (last (x :: y :: ps) 0) with (last (y :: ps) 0). specialize (IH y H). lia.
Qed.

Lemma last_nth (l : list nat) : last l 0 = nth (length l - 1) l 0.
Proof.
  induction l as [|x l IH]; [reflexivity|]. destruct l as [|y l]; [reflexivity|].
  cbn [length] in *. rewrite Nat.sub_succ, Nat.sub_0_r in *. exact IH.
Qed.

(** ** Scores of alignments *)
Section Scores.
Context {UC : unicode}.
Variables (sch : fzf_scheme) (l : list char).

Lemma rest_score_bounds : forall ps prev best, (0 <= best <= 10)%Z -> StronglySorted lt (prev :: ps) ->
  (15 * Z.of_nat (length ps) - (Z.of_nat (last (prev :: ps) 0%nat) - Z.of_nat prev)
   <= rest_score sch l prev best ps <= 26 * Z.of_nat (length ps))%Z.
Proof.
  induction ps as [|j ps IH]; intros prev best Hb Hs.
  - cbn [rest_score last length]. lia.
  - apply StronglySorted_inv in Hs as [Hs Hx]. inversion Hx as [|? ? Hj _]; subst.
    change (last (prev :: j :: ps) 0) with (last (j :: ps) 0).
    cbn [rest_score length]. cbv zeta. pose proof (bonus_of_bounds sch l j) as Bj.
    destruct (Nat.eqb_spec j (S prev)).
    + set (best' := if ((8 <=? bonus_of sch l j) && (best <? bonus_of sch l j))%Z then bonus_of sch l j else best).
      assert (Hb' : (0 <= best' <= 10)%Z) by (unfold best'; destruct (_ && _)%Z; lia).
      specialize (IH j best' Hb' Hs). lia.
    + specialize (IH j (bonus_of sch l j) Bj Hs). lia.
Qed.

(** At most 26 points a character and 10 more, and at least 15 a character less the width. *)
Lemma alignment_score_bounds ps : ps <> [] -> StronglySorted lt ps ->
  (15 * Z.of_nat (length ps) + 1 - (Z.of_nat (last ps 0%nat) - Z.of_nat (hd 0%nat ps))
   <= alignment_score sch l ps <= 26 * Z.of_nat (length ps) + 10)%Z.
Proof.
  intros Hne Hs. destruct ps as [|j ps]; [congruence|]. cbn [alignment_score hd length].
  pose proof (bonus_of_bounds sch l j) as Bj.
  pose proof (rest_score_bounds ps j (bonus_of sch l j) Bj Hs). lia.
Qed.

Lemma rest_score_run : forall n i best, (0 <= best)%Z ->
  (20 * Z.of_nat n <= rest_score sch l i best (seq (S i) n))%Z.
Proof.
  induction n as [|n IH]; intros i best Hb; [cbn; lia|]. cbn [seq rest_score]. cbv zeta.
  rewrite Nat.eqb_refl. pose proof (bonus_of_bounds sch l (S i)).
  set (best' := if ((8 <=? bonus_of sch l (S i)) && (best <? bonus_of sch l (S i)))%Z then bonus_of sch l (S i) else best).
  assert (Hb' : (0 <= best')%Z) by (unfold best'; destruct (_ && _)%Z; lia).
  specialize (IH (S i) best' Hb'). lia.
Qed.

Lemma run_score_lower i n : 0 < n -> (20 * Z.of_nat n - 4 <= alignment_score sch l (seq i n))%Z.
Proof.
  intros Hn. destruct n as [|n]; [lia|]. cbn [seq alignment_score].
  pose proof (bonus_of_bounds sch l i) as [B _]. pose proof (rest_score_run n i (bonus_of sch l i) B). lia.
Qed.

End Scores.

(** ** FzfV2 *)
Section V2.
Context {UC : unicode}.
Variables (sens norm : bool) (sch : fzf_scheme) (p l : list char) (fs : list nat) (stop : nat).
Hypothesis Hp : p <> [].
Hypothesis G : greedy (char_eq sens norm) p l 0 = Some fs.
Hypothesis L : last_col sens norm p l = Some stop.
Notation eq := (char_eq sens norm).
Notation hit := (hit_of sens norm p l).
Notation first := (firsts fs).
Notation h := (length p).
Notation T := (table hit (bonus_of sch l) first stop).

Lemma v2_bonus j : (0 <= bonus_of sch l j <= 10)%Z.
Proof. apply bonus_of_bounds. Qed.

Lemma v2_first i : i < h -> hit i (first i) = true.
Proof. intros Hi. apply (firsts_facts sens norm p l fs stop Hp G L i Hi). Qed.

Lemma v2_first_stop i : i < h -> first i <= stop.
Proof. intros Hi. apply (firsts_facts sens norm p l fs stop Hp G L i Hi). Qed.

Lemma v2_inc i : S i < h -> first i < first (S i).
Proof.
  intros Hi. pose proof (greedy_sound _ _ _ _ _ G) as [Hs _]. pose proof (greedy_length _ _ _ _ _ G) as Hl.
  pose proof (sorted_nth_add fs Hs 1 i). unfold firsts. rewrite Nat.add_1_r in H. specialize (H ltac:(lia)). lia.
Qed.

Lemma hit_of_some i j : hit i j = true ->
  exists x y, nth_error p i = Some x /\ nth_error l j = Some y /\ eq x y = true.
Proof.
  unfold hit_of. destruct (nth_error p i) as [x|]; [|discriminate].
  destruct (nth_error l j) as [y|]; [|discriminate]. eauto.
Qed.

Lemma firstn_S_nth {A} (u : list A) : forall i x, nth_error u i = Some x -> firstn (S i) u = firstn i u ++ [x].
Proof.
  induction u as [|a u IH]; intros [|i] x H; try discriminate.
  - injection H as <-. reflexivity.
  - cbn [nth_error] in H. rewrite firstn_cons, (IH _ _ H). reflexivity.
Qed.

Lemma rows_aligned : forall i ps, rows hit first i ps ->
  Forall2 (fun x j => exists y, nth_error l j = Some y /\ agrees sens norm x y) (firstn (S i) p) (rev ps).
Proof.
  induction i as [|i IH]; intros [|j ps] H; try (destruct H; fail); cbn [rows] in H; destruct H as (Hh & _ & H);
    apply hit_of_some in Hh as (x & y & Hx & Hy & E); rewrite (firstn_S_nth p _ _ Hx); cbn [rev].
  - subst ps. constructor; [|constructor]. exists y. split; [exact Hy|]. apply char_eq_agrees. exact E.
  - apply Forall2_app; [apply IH, H|]. constructor; [|constructor]. exists y. split; [exact Hy|].
    apply char_eq_agrees. exact E.
Qed.

Lemma rows_alignment i j prefer :
  rows hit first i (way_back hit (bonus_of sch l) first stop h i j prefer) ->
  alignment (agrees sens norm) (firstn (S i) p) l (rev (way_back hit (bonus_of sch l) first stop h i j prefer)).
Proof.
  intros H. split; [|apply rows_aligned; exact H].
  apply sorted_rev. rewrite rev_involutive. apply back_sorted.
Qed.

Section Result.
Variables (sc : Z) (ps : list nat).
Hypothesis Hr : v2_result sens norm sch p l = Some (sc, ps).

Lemma v2_result_cell : exists i j, best_cell hit (bonus_of sch l) first stop h i j
  /\ sc = pts (T i j) /\ ps = way_back hit (bonus_of sch l) first stop h i j true.
Proof.
  unfold v2_result in Hr. rewrite G, L in Hr. pose proof (v2_best_cell sens norm sch p l fs stop Hp G L) as B.
  destruct (v2_best sens norm sch p l fs stop) as [i j]. injection Hr as <- <-.
  exists i, j. split; [exact B|]. split; reflexivity.
Qed.

Lemma v2_score_bounds : (16 <= sc <= 26 * Z.of_nat h + 10)%Z.
Proof.
  destruct v2_result_cell as (i & j & B & -> & _).
  assert (Hh : 0 < h) by (destruct p; [congruence|simpl; lia]). split.
  - apply (best_16 hit (bonus_of sch l) first stop h v2_bonus v2_first v2_inc i j Hh); [|exact B].
    apply v2_first_stop. exact Hh.
  - pose proof (pts_upper hit (bonus_of sch l) first stop v2_bonus i j). destruct B as ((Hi & _) & _). lia.
Qed.

Lemma v2_score_width :
  (15 * Z.of_nat h + 1 - (Z.of_nat (last fs 0%nat) - Z.of_nat (hd 0%nat fs)) <= sc)%Z.
Proof.
  destruct v2_result_cell as (i & j & (_ & HM & _) & -> & _).
  assert (Hh : 0 < h) by (destruct p; [congruence|simpl; lia]).
  specialize (HM (h - 1) (first (h - 1))).
  assert (C : hit_cell hit first stop h (h - 1) (first (h - 1))).
  { split; [lia|]. split; [|apply v2_first; lia]. split; [lia|apply v2_first_stop; lia]. }
  specialize (HM C).
  pose proof (pts_lower hit (bonus_of sch l) first stop h v2_bonus v2_first v2_inc (h - 1) ltac:(lia)
                (first (h - 1)) (le_n _)) as Lo.
  rewrite v2_first in Lo by lia.
  assert (El : first (h - 1) = last fs 0).
  { rewrite last_nth, (greedy_length _ _ _ _ _ G). reflexivity. }
  assert (Eh : first 0 = hd 0 fs) by (unfold firsts; destruct fs; reflexivity).
  rewrite Eh in Lo. rewrite El in *. lia.
Qed.

(** The rightmost highlighted character is the one of the best cell. *)
Lemma v2_positions_some : ps <> [] /\ length ps <= h
  /\ exists x y, nth_error l (hd 0 ps) = Some y /\ In x p /\ agrees sens norm x y.
Proof.
  destruct v2_result_cell as (i & j & B & _ & ->).
  pose proof (best_taken hit (bonus_of sch l) first stop h v2_bonus v2_first v2_inc i j true v2_first_stop B) as Ht.
  rewrite back_eq, Ht. split; [discriminate|]. split.
  - pose proof (back_length hit (bonus_of sch l) first stop h v2_bonus v2_first v2_inc j i true) as Hl. rewrite back_eq, Ht in Hl.
    destruct B as ((Hi & _) & _). lia.
  - destruct B as ((_ & _ & Hh) & _). apply hit_of_some in Hh as (x & y & Hx & Hy & E).
    exists x, y. cbn [hd]. split; [exact Hy|]. split; [eapply nth_error_In; exact Hx|].
    apply char_eq_agrees. exact E.
Qed.

(** If the leftmost alignment does not spread too much, an initial part of the query is highlighted. *)
Lemma v2_positions_near :
  (forall i, i < h -> nth i fs 0 - nth 0 fs 0 < 15 * i + 16) ->
  exists k, 0 < k <= h /\ alignment (agrees sens norm) (firstn k p) l (rev ps).
Proof.
  intros Hn. destruct v2_result_cell as (i & j & B & _ & ->). destruct B as ((Hi & Hj & _) & _).
  exists (S i). split; [lia|]. apply rows_alignment.
  apply (back_rows hit (bonus_of sch l) first stop h v2_bonus v2_first v2_inc); [|exact Hi|lia].
  intros i' Hi'. pose proof (pts_lower hit (bonus_of sch l) first stop h v2_bonus v2_first v2_inc i' Hi'
                  (first i') (le_n _)) as Lo.
  rewrite v2_first in Lo by exact Hi'. specialize (Hn i' Hi'). unfold firsts in *.
  pose proof (first_le hit (bonus_of sch l) (firsts fs) h v2_bonus v2_first v2_inc 0 i' (Nat.le_0_l _) Hi') as Hle. unfold firsts in Hle. lia.
Qed.

(** So it does if the score is high. *)
Lemma v2_positions_high : (26 * (Z.of_nat h - 1) < sc)%Z ->
  exists k, 0 < k <= h /\ alignment (agrees sens norm) (firstn k p) l (rev ps).
Proof.
  intros Hs. destruct v2_result_cell as (i & j & B & E & ->). destruct B as ((Hi & Hj & _) & _).
  exists (S i). split; [lia|]. apply rows_alignment.
  apply (back_rows_high hit (bonus_of sch l) first stop h v2_bonus v2_first v2_inc); [exact Hi|lia|]. lia.
Qed.

Lemma v2_positions_full : (26 * (Z.of_nat h - 1) + 10 < sc)%Z -> alignment (agrees sens norm) p l (rev ps).
Proof.
  intros Hs. destruct v2_result_cell as (i & j & B & E & ->).
  assert (Ei : S i = h) by (apply (best_row hit (bonus_of sch l) first stop h v2_bonus v2_first v2_inc i j B); lia).
  assert (Hf : firstn (S i) p = p) by (rewrite Ei; apply firstn_all). rewrite <- Hf at 1.
  apply rows_alignment. destruct B as ((Hi & Hj & _) & _).
  apply (back_rows_high hit (bonus_of sch l) first stop h v2_bonus v2_first v2_inc); [exact Hi|lia|]. lia.
Qed.

(** Any alignment without a further occurrence of its first character before its second
    position bounds the score from below. *)
Lemma v2_score_lower qs : alignment (agrees sens norm) p l qs ->
  (forall k y, hd 0 qs < k < nth 1 qs 0 -> nth_error l k = Some y -> ~ agrees sens norm (hd 0%N p) y) ->
  (bonus_of sch l (hd 0%nat qs) + fold_right (fun j t => 16 + bonus_of sch l j + t) 0 qs
   - 3 * (Z.of_nat (last qs 0%nat) - Z.of_nat (hd 0%nat qs) + 1 - Z.of_nat h) <= sc)%Z.
Proof.
  intros A Hno. pose proof (proj2 (aligned_alignment sens norm p l qs) A) as A'.
  destruct (greedy_complete _ _ _ _ _ A') as (fs' & G' & Hle). rewrite G in G'. injection G' as <-.
  destruct A as [Hs F]. pose proof (Forall2_len _ _ _ F) as Hlen.
  destruct qs as [|j qs]; [destruct p; [congruence|discriminate]|].
  assert (Hnth : forall i, i < h -> first i <= nth i (j :: qs) 0 /\ hit i (nth i (j :: qs) 0) = true).
  { clear -Hle F. intros i Hi. split.
    - unfold firsts. revert i Hi. rewrite (Forall2_len _ _ _ F). clear F. revert Hle. generalize (j :: qs). intros u H.
      induction H as [|a b ? ? Hab _ IH]; intros i Hi; [simpl in Hi; lia|].
      destruct i as [|i]; [exact Hab|]. apply IH. simpl in Hi. lia.
    - unfold hit_of. revert i Hi. revert F. generalize (j :: qs). intros u H.
      induction H as [|x b ? ? Hab _ IH]; intros i Hi; [simpl in Hi; lia|].
      destruct i as [|i]; [|apply IH; simpl in Hi; lia].
      destruct Hab as (y & Hy & E). cbn [nth_error nth]. rewrite Hy. apply char_eq_agrees. exact E. }
  destruct v2_result_cell as (bi & bj & (_ & HM & _) & -> & _).
  cbn [length] in Hlen.
  assert (Hlast : last (j :: qs) 0 <= stop).
  { destruct (last_col_ge sens norm p l (j :: qs) Hp A') as (j' & Ej & Hj & _).
    rewrite L in Ej. injection Ej as ->. exact Hj. }
  assert (El : last (j :: qs) 0 = nth (h - 1) (j :: qs) 0).
  { rewrite last_nth. cbn [length]. f_equal. lia. }
  specialize (HM (h - 1) (last (j :: qs) 0)).
  assert (C : hit_cell hit first stop h (h - 1) (last (j :: qs) 0)).
  { split; [lia|]. rewrite El in Hlast |- *. destruct (Hnth (h - 1) ltac:(lia)). auto. }
  specialize (HM C). clear C.
  pose proof (aligned_lower hit (bonus_of sch l) first stop h v2_bonus v2_first v2_inc qs 0 j) as Lo.
  destruct (Hnth 0 ltac:(lia)) as [Hf0 Hh0]. cbn [nth] in Hf0, Hh0.
  specialize (Lo Hf0 Hs).
  assert (Lo' : (pts (T 0 j) + plain_points (bonus_of sch l) qs
     - 3 * (Z.of_nat (last (j :: qs) 0%nat) - Z.of_nat j - Z.of_nat (length qs))
     <= pts (T (0 + length qs) (last (j :: qs) 0%nat)))%Z).
  { apply Lo.
    - intros k Hk. specialize (Hnth (S k) ltac:(lia)). exact Hnth.
    - right. intros k Hk. destruct (hit 0 k) eqn:E; [|reflexivity].
      apply hit_of_some in E as (x & y & Hx & Hy & E). exfalso. apply (Hno k y).
      + destruct qs; exact Hk.
      + exact Hy.
      + apply char_eq_agrees. destruct p; [discriminate|]. injection Hx as ->. exact E. }
  cbn [Nat.add] in Lo'. replace (length qs) with (h - 1) in Lo' by lia.
  rewrite T_hit0 in Lo' by assumption. cbn [pts] in Lo'. cbn [hd fold_right].
  assert (Ep : forall u, plain_points (bonus_of sch l) u = fold_right (fun j t => (16 + bonus_of sch l j + t)%Z) 0%Z u).
  { induction u as [|x u IH]; [reflexivity|]. cbn [plain_points fold_right]. rewrite IH. reflexivity. }
  rewrite Ep in Lo'. lia.
Qed.

End Result.
End V2.
