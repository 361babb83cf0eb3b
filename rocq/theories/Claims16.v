(** Proofs of C76 and C77: the score of FzfV2 and alignments. *)
From Coq Require Import Sorted.
From Verif Require Import Prelude Chars Normalize Utils Candidate MatchedRanges Query Parser Scoring
  Slab Fzf FzfV1 FzfV2 Api History
  Spec PreludeProofs CharsProofs NormalizeProofs CandidateProofs MatchedRangesProofs ParserProofs
  ScoreProofs ExactProofs ShapeProofs V1Proofs V2Tables V2Proofs V2Rows V2Fuzzy V2Facts V2Path ApiProofs AcceptProofs
  RangeProofs WordsProofs CongProofs FuzzyFacts Claims1 Claims2 Claims5 Claims6.
Local Open Scope nat_scope.

Section Ext.
Variables (hit hit' : nat -> nat -> bool) (bonus : nat -> Z) (first first' : nat -> nat) (stop h : nat).
Hypothesis Hh : forall i j, hit i j = hit' i j.
Hypothesis Hf : forall i, i < h -> first i = first' i.

Lemma gap_cost_ext i p j : i < h -> gap_cost hit first stop i p j = gap_cost hit' first' stop i p j.
Proof.
  intros Hi. unfold gap_cost. f_equal. apply map_ext. intros k. apply (step_cost_ext hit hit' first first' stop h Hh Hf). exact Hi.
Qed.

Lemma rest_pts_ext : forall ps i prev best, i + length ps <= h ->
  rest_pts hit bonus first stop i prev best ps = rest_pts hit' bonus first' stop i prev best ps.
Proof.
  induction ps as [|j ps IH]; intros i prev best Hi; [reflexivity|]. cbn [length] in Hi. cbn [rest_pts]. cbv zeta.
  rewrite gap_cost_ext by lia. rewrite !IH by lia. reflexivity.
Qed.

Lemma alignment_pts_ext ps : length ps <= h ->
  alignment_pts hit bonus first stop ps = alignment_pts hit' bonus first' stop ps.
Proof.
  intros H. destruct ps as [|j ps]; [reflexivity|]. cbn [alignment_pts]. rewrite rest_pts_ext by (simpl in H; lia). reflexivity.
Qed.
End Ext.

Section WithUnicode.
Context {UC : unicode}.

Section V2.
Variables (sens norm : bool) (sch : fzf_scheme) (p l : list char) (fs : list nat) (stop : nat).
Hypothesis Hp : p <> [].
Hypothesis G : greedy (char_eq sens norm) p l 0 = Some fs.
Hypothesis L : last_col sens norm p l = Some stop.
Notation hit := (hit_of sens norm p l).
Notation first := (firsts fs).
Notation h := (length p).
Notation T := (table hit (bonus_of sch l) first stop).

Lemma traced_alignment i k x ps : i < h -> traced hit (bonus_of sch l) first stop i k x ps ->
  alignment (agrees sens norm) (firstn (S i) p) l (x :: ps).
Proof.
  intros Hi (H1 & H2 & H3 & _). split; [exact H2|].
  assert (Hl : length (firstn (S i) p) = S i) by (rewrite firstn_length; lia).
  assert (R : forall n, n < S i -> exists a y, nth_error (firstn (S i) p) n = Some a /\ nth_error l (nth n (x :: ps) 0) = Some y /\ agrees sens norm a y).
  { intros n Hn. destruct (H3 n ltac:(lia)) as [_ Hh]. apply hit_of_some in Hh as (a & y & Ha & Hy & E).
    exists a, y. split; [|split; [exact Hy|apply char_eq_agrees; exact E]].
    rewrite <- Ha. rewrite <- (firstn_skipn (S i) p) at 2. rewrite nth_error_app1 by lia. reflexivity. }
  revert Hl R. generalize (firstn (S i) p). assert (Hn : S i = length (x :: ps)) by (simpl; lia). rewrite Hn.
  clear. generalize (x :: ps). intros u. induction u as [|j u IH]; intros w Hl R.
  - destruct w; [constructor|discriminate].
  - destruct w as [|a w]; [discriminate|]. constructor.
    + destruct (R 0) as (a' & y & Ha & Hy & E); [simpl; lia|]. injection Ha as <-. exists y. split; [exact Hy|exact E].
    + apply IH; [simpl in Hl; lia|]. intros n Hn. apply (R (S n)). simpl. lia.
Qed.

Lemma stop_bound : stop < length l.
Proof.
  pose proof L as L'. unfold last_col in L'. apply find_last_idx_some in L' as (y & Hy & _).
  apply nth_error_Some. congruence.
Qed.

Section Result.
Variables (sc : Z) (ps : list nat).
Hypothesis Hr : v2_result sens norm sch p l = Some (sc, ps).

Lemma v2_earned :
  (Z.of_nat (length l) < 2 ^ 63)%Z /\ (forall i, i < h -> nth i fs 0 - nth 0 fs 0 < 15 * i + 16)
  \/ (26 * (Z.of_nat h - 1) < sc)%Z ->
  exists k js, 0 < k <= h /\ alignment (agrees sens norm) (firstn k p) l js
    /\ sc = alignment_pts hit (bonus_of sch l) first stop js
    /\ alignment (agrees sens norm) (firstn k p) l (rev ps) /\ hd 0 ps = last js 0.
Proof.
  intros Hn. destruct (v2_result_cell sens norm sch p l fs stop Hp G L sc ps Hr) as (i & j & B & E & ->).
  pose proof (v2_bonus sch l) as Hb.
  pose proof (v2_first sens norm p l fs stop Hp G L) as Hf.
  pose proof (v2_inc sens norm p l fs G) as Hi.
  pose proof (v2_first_stop sens norm p l fs stop Hp G L) as Hs.
  assert (Hih : i < h) by apply B. assert (Hj : first i <= j <= stop) by apply B.
  assert (Hpos : (forall i, i < h -> nth i fs 0 - nth 0 fs 0 < 15 * i + 16) ->
            forall i, i < h -> (0 < pts (T i (first i)))%Z).
  { intros Hw i' Hi'. pose proof (pts_lower hit (bonus_of sch l) first stop h Hb Hf Hi i' Hi' (first i') (le_n _)) as Lo.
    rewrite Hf in Lo by exact Hi'. specialize (Hw i' Hi').
    pose proof (first_le hit (bonus_of sch l) first h Hb Hf Hi 0 i' (Nat.le_0_l _) Hi') as Hle. unfold firsts in *. lia. }
  assert (P : exists x ps, traced hit (bonus_of sch l) first stop i j x ps /\ last ps x = j
            /\ pts (T i j) = alignment_pts hit (bonus_of sch l) first stop (x :: ps)).
  { destruct Hn as [[Hl Hw]|Hh].
    - apply (best_path_near hit (bonus_of sch l) first stop h Hb Hf Hi Hs); [|apply Hpos, Hw|exact B].
      pose proof stop_bound. lia.
    - apply (best_path_high hit (bonus_of sch l) first stop h Hb Hf Hi Hs); [lia|exact B]. }
  destruct P as (x & ps & Tr & El & Ep). exists (S i), (x :: ps).
  split; [lia|]. split; [apply (traced_alignment i j); assumption|]. split; [lia|]. split.
  - apply rows_alignment; auto. destruct Hn as [[Hl Hw]|Hh].
    + apply (back_rows hit (bonus_of sch l) first stop h Hb Hf Hi); [apply Hpos, Hw|exact Hih|lia].
    + apply (back_rows_high hit (bonus_of sch l) first stop h Hb Hf Hi); [exact Hih|lia|lia].
  - rewrite back_eq, (best_taken hit (bonus_of sch l) first stop h Hb Hf Hi i j true Hs B). cbn [hd].
    rewrite last_default. symmetry. exact El.
Qed.

End Result.
End V2.

(** The points of an alignment of a prefix of the query. *)
Lemma c76_exact : forall o m text q c buf d m' buf' hit fs stop y,
  metric_reached AlgoV2 o m -> fuzzy_query text q -> text <> [] ->
  metric_distance_and_ranges m q c buf = Ok (Some d, m', buf') ->
  (forall i j, hit i j = true <->
     exists x z, nth_error text i = Some x /\ nth_error c j = Some z /\ agreement o text x z) ->
  leftmost (agreement o text) text c fs ->
  nth_error c stop = Some y -> agreement o text (last text 0%N) y ->
  (forall k z, stop < k -> nth_error c k = Some z -> ~ agreement o text (last text 0%N) z) ->
  (Z.of_nat (length c) < 2 ^ 63)%Z /\ (forall i, i < length text -> nth i fs 0 - nth 0 fs 0 < 15 * i + 16)
  \/ (26 * (Z.of_nat (length text) - 1) < into_score d)%Z ->
  exists k js, 0 < k <= length text /\ alignment (agreement o text) (firstn k text) c js
    /\ d = from_score (alignment_pts hit (bonus_of (opt_scheme o) c) (fun i => nth i fs 0) stop js)
    /\ exists new ks, buf' = buf ++ new /\ alignment (agreement o text) (firstn k text) c ks /\ last ks 0 = last js 0
        /\ forall b, covered new b <-> exists j, In j ks /\ byte_of_char c j b.
Proof.
  intros o m text q c buf d m' buf' hit fs stop y Hm Hq Ht E Hhit Hfs Hy Ay Hno Hn.
  destruct (fuzzy_ranges _ _ _ _ _ _ _ _ _ _ Hm Hq E) as [Hd ->].
  symmetry in Hd. apply raw_some in Hd as [[-> _]|(_ & rs & Hf & ->)]; [congruence|].
  destruct (v2_case _ _ _ _ _ Ht Hf) as (ps & fs' & stop' & Hr & -> & G & L). cbn [snd].
  pose proof (leftmost_greedy _ _ _ _ _ Hfs) as G'. unfold agreement in *. rewrite G in G'. injection G' as ->.
  pose proof (last_col_intro _ _ _ _ _ _ Ht Hy Ay Hno) as L'. rewrite L in L'. injection L' as ->.
  assert (Hx : forall i j, hit_of (sensitive_for (opt_case o) text) (opt_norm o) text c i j = hit i j).
  { intros i0 j0. apply Bool.eq_true_iff_eq. rewrite Hhit. unfold hit_of. split.
    - destruct (nth_error text i0) as [x|]; [|discriminate]. destruct (nth_error c j0) as [z|]; [|discriminate].
      intros H. exists x, z. split; [reflexivity|]. split; [reflexivity|]. apply char_eq_agrees. exact H.
    - intros (x & z & -> & -> & A). apply char_eq_agrees. exact A. }
  destruct (v2_earned _ _ _ _ _ _ _ Ht G L _ _ Hr Hn) as (k & js & Hk & A & Hsc & A' & El).
  exists k, js. split; [exact Hk|]. split; [exact A|]. split.
  - assert (Hjs : length js <= length text).
    { destruct A as [_ F]. apply Forall2_len in F. rewrite firstn_length in F. lia. }
    rewrite <- (alignment_pts_ext _ hit (bonus_of (opt_scheme o) c) (firsts fs) (fun i => nth i fs 0) stop (length text) Hx (fun _ _ => eq_refl) js Hjs).
    rewrite <- Hsc. destruct d. reflexivity.
  - exists (inserts [] (map (char_range c) ps)), (rev ps). split; [reflexivity|]. split; [exact A'|]. split.
    + rewrite <- El. destruct ps as [|j ps]; [reflexivity|]. cbn [rev hd]. apply last_last.
    + intros b. rewrite covered_chars; [apply rev_covered|]. eapply v2_result_bound; eassumption.
Qed.

(** Compared with the formula of FzfV1. *)
Lemma c76_earned : forall o m text q c buf d m' buf' fs,
  metric_reached AlgoV2 o m -> fuzzy_query text q -> text <> [] ->
  metric_distance_and_ranges m q c buf = Ok (Some d, m', buf') ->
  leftmost (agreement o text) text c fs ->
  (Z.of_nat (length c) < 2 ^ 63)%Z /\ (forall i, i < length text -> nth i fs 0 - nth 0 fs 0 < 15 * i + 16)
  \/ (26 * (Z.of_nat (length text) - 1) < into_score d)%Z ->
  exists k js, 0 < k <= length text /\ alignment (agreement o text) (firstn k text) c js
    /\ (alignment_score (opt_scheme o) c js - 2 * (skipped js - gaps js) <= into_score d
        <= alignment_score (opt_scheme o) c js + 2 * gaps js)%Z
    /\ exists new ks, buf' = buf ++ new /\ alignment (agreement o text) (firstn k text) c ks /\ last ks 0 = last js 0
        /\ forall b, covered new b <-> exists j, In j ks /\ byte_of_char c j b.
Proof.
  intros o m text q c buf d m' buf' fs Hm Hq Ht E Hfs Hn.
  assert (F : fuzzy_in (agreement o text) text c) by (exists fs; apply Hfs).
  destruct (table_exists o text c Ht F) as (hit & fs' & stop & y & Hhit & Hfs' & Hy & Ay & Hno).
  destruct (c76_exact o m text q c buf d m' buf' hit fs stop y Hm Hq Ht E Hhit Hfs Hy Ay Hno Hn)
    as (k & js & Hk & A & -> & R).
  exists k, js. split; [exact Hk|]. split; [exact A|]. split; [|exact R].
  change (into_score (from_score ?x)) with x. apply apts_between. apply A.
Qed.

(** ** C77: one way to match *)

Lemma alignment_nth (R : char -> char -> Prop) p c js i : alignment R p c js -> i < length p ->
  exists x y, nth_error p i = Some x /\ nth_error c (nth i js 0) = Some y /\ R x y.
Proof.
  intros [_ F]. revert i. induction F as [|x j p js (y & Hy & A) _ IH]; intros i Hi; [simpl in Hi; lia|].
  destruct i as [|i]; [exists x, y; auto|]. apply IH. simpl in Hi. lia.
Qed.

Lemma alignment_snoc (R : char -> char -> Prop) p c js x j y :
  alignment R p c js -> Forall (fun k => k < j) js -> nth_error c j = Some y -> R x y -> alignment R (p ++ [x]) c (js ++ [j]).
Proof.
  intros [S F] Hj Hy A. split; [apply sorted_snoc; assumption|]. apply Forall2_app; [exact F|].
  constructor; [|constructor]. exists y. auto.
Qed.

Lemma alignment_firstn (R : char -> char -> Prop) p c js k : alignment R p c js -> alignment R (firstn k p) c (firstn k js).
Proof.
  intros [S F]. split.
  - clear F. revert k. induction S as [|x js S IH Hx]; intros k; [destruct k; constructor|].
    destruct k as [|k]; [constructor|]. cbn [firstn]. constructor; [apply IH|].
    rewrite Forall_forall in *. intros z Hz. apply Hx. rewrite <- (firstn_skipn k js). apply in_or_app. left. exact Hz.
  - clear S. revert k. induction F as [|x j p js A F IH]; intros [|k]; cbn [firstn]; constructor; auto.
Qed.

Lemma map_nth_seq (fs : list nat) : map (fun i => nth i fs 0) (seq 0 (length fs)) = fs.
Proof.
  apply (nth_ext _ _ 0 0); [rewrite map_length, seq_length; reflexivity|]. intros n Hn. rewrite map_length, seq_length in Hn.
  rewrite (nth_indep _ 0 ((fun i => nth i fs 0) 0)) by (rewrite map_length, seq_length; exact Hn).
  rewrite (map_nth (fun i => nth i fs 0)), seq_nth by exact Hn. reflexivity.
Qed.

Lemma firstn_last_lt js k j : StronglySorted lt js -> k < length js -> nth k js 0 < j -> Forall (fun x => x < j) (firstn (S k) js).
Proof.
  intros S. revert k. induction S as [|x js S IH Hx]; intros k Hk Hj; [simpl in Hk; lia|]. destruct k as [|k].
  - cbn in *. repeat constructor. exact Hj.
  - cbn [firstn]. constructor; [|apply IH; [simpl in Hk; lia|exact Hj]].
    rewrite Forall_forall in Hx. cbn [nth] in Hj. specialize (Hx (nth k js 0)). cbn [length] in Hk.
    assert (Hk' : k < length js) by lia. specialize (Hx (nth_In js 0 Hk')). lia.
Qed.

(** Each character of the query agrees with one character of the candidate. *)
Lemma only_way (R : char -> char -> Prop) text c fs : length fs = length text ->
  (forall i j x y, nth_error text i = Some x -> nth_error c j = Some y -> R x y -> j = nth i fs 0) ->
  forall k js, alignment R (firstn k text) c js -> js = firstn k fs.
Proof.
  intros Hl H k js A. pose proof A as [_ F]. apply Forall2_len in F. apply (nth_ext _ _ 0 0).
  - rewrite <- F, !firstn_length. lia.
  - intros n Hn. rewrite <- F in Hn. destruct (alignment_nth R _ _ _ n A Hn) as (x & y & Hx & Hy & Rxy).
    rewrite firstn_length in Hn. assert (Hx' : nth_error text n = Some x).
    { rewrite <- (firstn_skipn k text), nth_error_app1 by (rewrite firstn_length; lia). exact Hx. }
    rewrite (H n _ x y Hx' Hy Rxy). rewrite <- (firstn_skipn k fs) at 1.
    apply app_nth1. rewrite firstn_length. lia.
Qed.

Lemma c77_one_way : forall o m1 m2 text q c buf fs,
  metric_reached AlgoV1 o m1 -> metric_reached AlgoV2 o m2 -> fuzzy_query text q -> text <> [] ->
  alignment (agreement o text) text c fs ->
  (forall k js, alignment (agreement o text) (firstn k text) c js ->
     k = length text \/ last js 0 <= last fs 0 -> js = firstn k fs) ->
  (forall i, S i < length text -> nth (S i) fs 0 <= nth i fs 0 + 14) ->
  exists m1' m2' new,
    metric_distance_and_ranges m1 q c buf = Ok (Some (from_score (alignment_score (opt_scheme o) c fs)), m1', buf ++ new)
    /\ metric_distance_and_ranges m2 q c buf = Ok (Some (from_score (alignment_score (opt_scheme o) c fs)), m2', buf ++ new)
    /\ forall b, covered new b <-> exists j, In j fs /\ byte_of_char c j b.
Proof.
  intros o m1 m2 text q c buf fs Hm1 Hm2 Hq Ht A U Near.
  assert (U1 : forall js, alignment (agreement o text) text c js -> js = fs).
  { intros js Hjs. assert (El : length fs = length text) by (destruct A as [_ F]; symmetry; apply (Forall2_len _ _ _ F)).
    assert (E : js = firstn (length text) fs) by (apply U; [rewrite firstn_all; exact Hjs|left; reflexivity]).
    rewrite E, <- El. apply firstn_all. }
  assert (Hlen : length fs = length text) by (destruct A as [_ F]; symmetry; apply (Forall2_len _ _ _ F)).
  assert (Hfs : leftmost (agreement o text) text c fs).
  { split; [exact A|]. intros qs Hqs. rewrite (U1 qs Hqs). clear. induction fs; constructor; auto. }
  assert (W : window (agreement o text) text c fs).
  { split; [exact A|]. split.
    - intros qs Hqs. rewrite (U1 qs Hqs). lia.
    - intros qs Hqs _. rewrite (U1 qs Hqs). split; [lia|]. intros _. clear. induction fs; constructor; auto. }
  assert (F : fuzzy_in (agreement o text) text c) by (exists fs; exact A).
  (* FzfV1 *)
  destruct (fuzzy_result _ _ _ _ _ c buf Hm1 Hq) as [(m1a & D1) (m1b & R1)].
  assert (S1 : exists d, option_map from_score (fst (raw_outcome AlgoV1 o text c)) = Some d).
  { destruct (fuzzy_iff AlgoV1 o m1 text q c _ _ Hm1 Hq D1) as [_ H]. destruct (H F) as [d Hd]. eauto. }
  destruct S1 as [d1 S1]. rewrite S1 in D1, R1.
  pose proof (c41_v1_score o m1 text q c d1 _ fs Hm1 Hq Ht D1 W) as ->.
  destruct (c40_v1_window _ _ _ _ _ _ _ _ _ Hm1 Hq Ht R1) as (new & js & E1 & W1 & C1).
  assert (js = fs) as -> by (apply U1; apply W1).
  (* FzfV2 *)
  destruct (fuzzy_result _ _ _ _ _ c buf Hm2 Hq) as [(m2a & D2) (m2b & R2)].
  assert (S2 : exists d, option_map from_score (fst (raw_outcome AlgoV2 o text c)) = Some d).
  { destruct (fuzzy_iff AlgoV2 o m2 text q c _ _ Hm2 Hq D2) as [_ H]. destruct (H F) as [d Hd]. eauto. }
  destruct S2 as [d2 S2]. rewrite S2 in D2, R2.
  apply raw_some in S2 as [[-> _]|(_ & rs & Hf & Hraw)]; [congruence|].
  destruct (v2_case _ _ _ _ _ Ht Hf) as (ps & fs' & stop & Hr & -> & G & L).
  pose proof (leftmost_greedy _ _ _ _ _ Hfs) as G'. unfold agreement in G'. rewrite G in G'. injection G' as ->.
  set (sens := sensitive_for (opt_case o) text) in *. set (norm := opt_norm o) in *. set (sch := opt_scheme o) in *.
  pose proof (v2_bonus sch c) as Hb.
  pose proof (v2_first sens norm text c fs stop Ht G L) as Hfi.
  pose proof (v2_inc sens norm text c fs G) as Hi.
  pose proof (v2_first_stop sens norm text c fs stop Ht G L) as Hs.
  destruct (v2_result_cell sens norm sch text c fs stop Ht G L _ _ Hr) as (i & j & B & Esc & Eps).
  assert (Hn0 : 0 < length text) by (destruct text; [congruence|simpl; lia]).
  (* the last column is that of the last position *)
  assert (Hstop : stop = last fs 0).
  { pose proof L as L'. unfold last_col in L'. apply find_last_idx_some in L' as (y & Hy & Ey & _).
    specialize (Hs (length text - 1) ltac:(lia)).
    assert (El : last fs 0 = firsts fs (length text - 1)) by (rewrite last_nth, Hlen; reflexivity).
    rewrite El. destruct (Nat.eq_dec (firsts fs (length text - 1)) stop) as [e|Hne]; [lia|exfalso].
    assert (Hlast : removelast text ++ [last text 0%N] = text) by (symmetry; apply app_removelast_last; exact Ht).
    assert (A2 : alignment (agreement o text) (removelast text ++ [last text 0%N]) c (removelast fs ++ [stop])).
    { apply alignment_snoc with (y := y); [| |exact Hy|apply char_eq_agrees; exact Ey].
      - rewrite !removelast_firstn_len, Hlen. apply alignment_firstn. exact A.
      - rewrite removelast_firstn_len. destruct A as [Sf _].
        destruct (length fs) as [|[|n]] eqn:En; [constructor|constructor|].
        cbn [Nat.pred]. apply firstn_last_lt; [exact Sf|lia|].
        pose proof (v2_inc sens norm text c fs G n ltac:(lia)) as Hlt. unfold firsts in *.
        replace (length text - 1) with (S n) in * by lia. lia. }
    rewrite Hlast in A2. apply U1 in A2. rewrite <- A2 in El at 1. rewrite last_last in El. lia. }
  assert (One : forall i j, i < length text -> firsts fs i <= j <= stop ->
            hit_of sens norm text c i j = true -> j = firsts fs i).
  { intros i0 j0 Hi0 Hj0 Hh. apply hit_of_some in Hh as (x & y & Hx & Hy & Ey).
    assert (A2 : alignment (agreement o text) (firstn (S i0) text) c (firstn i0 fs ++ [j0])).
    { rewrite (firstn_S_nth text i0 x Hx). apply alignment_snoc with (y := y); [apply alignment_firstn, A| |exact Hy|apply char_eq_agrees; exact Ey].
      destruct i0 as [|i0]; [constructor|]. destruct A as [Sf _]. apply firstn_last_lt; [exact Sf|lia|].
      specialize (Hi i0 Hi0). unfold firsts in *. lia. }
    apply U in A2; [|right; rewrite last_last; lia].
    apply (f_equal (fun u => nth i0 u 0)) in A2. rewrite app_nth2 in A2 by (rewrite firstn_length; lia).
    rewrite firstn_length in A2. replace (i0 - Nat.min i0 (length fs)) with 0 in A2 by lia. cbn [nth] in A2.
    rewrite A2. unfold firsts. clear -Hi0 Hlen. rewrite <- (firstn_skipn (S i0) fs) at 2.
    rewrite app_nth1 by (rewrite firstn_length; lia). reflexivity. }
  assert (Nr : forall i, S i < length text -> firsts fs (S i) <= firsts fs i + 14) by exact Near.
  destruct (one_best _ _ _ stop _ Hb Hfi Hi Hs One Nr i j B) as [Ei Ej]. subst j.
  assert (Hii : i < length text) by lia.
  rewrite (one_pts _ _ _ stop _ Hb Hfi Hi Hs One Nr i Hii) in Esc.
  assert (Emap : map (firsts fs) (seq 0 (S i)) = fs) by (rewrite Ei, <- Hlen; apply map_nth_seq).
  rewrite Emap in Esc.
  assert (Esame : alignment_pts (hit_of sens norm text c) (bonus_of sch c) (firsts fs) stop fs = alignment_score sch c fs).
  { destruct fs as [|j0 fs0]; [reflexivity|]. cbn [alignment_pts alignment_score]. f_equal. apply rest_same.
    intros n Hn Hne. cbn [Nat.add]. change (nth n fs0 0) with (firsts (j0 :: fs0) (S n)) in *.
    change (nth n (j0 :: fs0) 0) with (firsts (j0 :: fs0) n) in *. cbn [length] in Hlen.
    apply (one_gap_to _ (bonus_of sch c) _ stop _ Hb Hfi Hi Hs One Nr n ltac:(lia) Hne). }
  rewrite Esame in Esc.
  assert (Erows : rev ps = fs).
  { rewrite <- Emap, Eps. apply (one_rows _ (bonus_of sch c) _ stop _ Hb Hfi Hi Hs One Nr i); [exact Hii| |].
    - apply (back_rows _ _ _ _ _ Hb Hfi Hi); [|exact Hii|lia]. intros i' Hi'.
      apply (near_pos _ _ _ stop _ Hb Hfi Hi Hs One Nr i' (firsts fs i') Hi'). lia.
    - pose proof (back_sorted (hit_of sens norm text c) (bonus_of sch c) (firsts fs) stop (length text) (firsts fs i) i true) as Sb.
      rewrite back_eq in Sb |- *.
      rewrite (best_taken _ _ _ _ _ Hb Hfi Hi i (firsts fs i) true Hs B) in Sb |- *.
      apply StronglySorted_inv in Sb as [_ Sb]. specialize (Hs i Hii). constructor; [exact Hs|].
      eapply Forall_impl; [|exact Sb]. cbn. intros. lia. }
  exists m1b, m2b, new. split; [rewrite R1, E1; reflexivity|]. split.
  - rewrite R2, Hraw. cbn [snd]. f_equal. f_equal; [f_equal; f_equal; rewrite <- Esc; destruct d2; reflexivity|].
    f_equal. apply RangeProofs.canonical_unique.
    + apply chain_canonical, inserts_chain; [|constructor]. apply char_ranges_proper. eapply v2_result_bound; eassumption.
    + apply app_inv_head in E1. rewrite <- E1. apply raw_some in S1 as [[-> _]|(_ & rs1 & Hf1 & Hraw1)]; [congruence|].
      rewrite Hraw1. cbn [snd]. apply chain_canonical, inserts_chain; [|constructor].
      eapply fuzzy_outcome_proper; eassumption.
    + intros b. rewrite covered_chars by (eapply v2_result_bound; eassumption). rewrite rev_covered, Erows. symmetry. apply C1.
  - exact C1.
Qed.

End WithUnicode.
