(** Proofs of C95: a match which is pulled apart. *)
From Coq Require Import Sorted.
From Verif Require Import Prelude Chars Utils Query Parser Scoring Fzf Api History Spec PreludeProofs ShapeProofs ApiProofs AcceptProofs
  Claims1 Claims2 Claims5 Claims6 Claims7 Claims27.
Local Open Scope nat_scope.

Section Claims.
Context {UC : unicode}.

(** ** Positions before and after the insertion of [n] characters at [k] *)

Definition moved (k n j : nat) : nat := if j <? k then j else j + n.

Lemma moved_lt k n i j : i < j -> moved k n i < moved k n j.
Proof. unfold moved. intros. destruct (Nat.ltb_spec i k), (Nat.ltb_spec j k); lia. Qed.

Lemma moved_le_iff k n i j : moved k n i <= moved k n j <-> i <= j.
Proof. unfold moved. destruct (Nat.ltb_spec i k), (Nat.ltb_spec j k); lia. Qed.

Lemma moved_le k n : forall ps qs, Forall2 le ps qs -> Forall2 le (map (moved k n) ps) (map (moved k n) qs).
Proof. induction 1; cbn [map]; constructor; [apply moved_le_iff; assumption|assumption]. Qed.

Lemma last_map_moved k n ps : ps <> [] -> last (map (moved k n) ps) 0 = moved k n (last ps 0).
Proof.
  intros H. destruct (exists_last H) as (qs & x & ->). rewrite map_app. cbn [map]. rewrite !last_last. reflexivity.
Qed.

Lemma hd_map_moved k n ps : ps <> [] -> hd 0 (map (moved k n) ps) = moved k n (hd 0 ps).
Proof. destruct ps; [congruence|reflexivity]. Qed.

Section Two.
Variables (R : char -> char -> Prop) (text u w v : str).
Hypothesis Hw : forall x y, In x text -> In y w -> ~ R x y.
Let c := u ++ v.
Let c' := u ++ w ++ v.
Let f := moved (length u) (length w).

Lemma nth_moved j : nth_error c' (f j) = nth_error c j.
Proof using Type.
  clear Hw. subst c c' f. unfold moved. destruct (Nat.ltb_spec j (length u)).
  - rewrite !nth_error_app1 by lia. reflexivity.
  - rewrite !nth_error_app2 by lia. f_equal. lia.
Qed.

Lemma moved_onto j y x : In x text -> nth_error c' j = Some y -> R x y -> exists i, f i = j.
Proof using Hw.
  intros Hx Hy Hr. subst c' f. unfold moved. destruct (Nat.ltb_spec j (length u)) as [L|L].
  - exists j. destruct (Nat.ltb_spec j (length u)); lia.
  - destruct (Nat.ltb_spec j (length u + length w)) as [L'|L'].
    + exfalso. rewrite nth_error_app2, nth_error_app1 in Hy by lia. apply nth_error_In in Hy. apply (Hw x y Hx Hy Hr).
    + exists (j - length w). destruct (Nat.ltb_spec (j - length w) (length u)); lia.
Qed.

Lemma alignment_moved ps : alignment R text c ps <-> alignment R text c' (map f ps).
Proof using Type.
  clear Hw. split; intros [S F]; split.
  - clear F. induction S as [|j ps _ IH Hj]; cbn [map]; constructor; [exact IH|]. rewrite Forall_forall in *.
    intros i Hi. apply in_map_iff in Hi as (i' & <- & Hi). apply moved_lt. auto.
  - clear S. revert F. generalize text. induction 1 as [|x j p ps (y & Hy & Hr) _ IH]; cbn [map]; constructor; [|exact IH].
    exists y. rewrite nth_moved. auto.
  - clear F. induction ps as [|j ps IH]; constructor; inversion S as [|? ? S' Fj]; subst; [apply IH; assumption|].
    rewrite Forall_forall in *. intros i Hi. specialize (Fj (f i) (in_map _ _ _ Hi)).
    destruct (Nat.le_gt_cases i j) as [L|L]; [|exact L]. apply (moved_le_iff (length u) (length w)) in L. fold f in L. lia.
  - clear S. revert F. generalize text. induction ps as [|j ps IH]; intros t F; inversion F as [|x ? p ? (y & Hy & Hr) F']; subst; constructor.
    + exists y. rewrite <- nth_moved. auto.
    + apply IH. exact F'.
Qed.

Lemma alignment_onto qs : alignment R text c' qs -> exists ps, qs = map f ps.
Proof using Hw.
  intros [_ F]. assert (H : forall x, In x text -> In x text) by auto. revert F H. generalize text at 1 2.
  induction 1 as [|x j p qs (y & Hy & Hr) F IH]; intros H; [exists []; reflexivity|].
  destruct (moved_onto j y x (H x (or_introl eq_refl)) Hy Hr) as [i <-].
  destruct IH as [ps ->]; [intros z Hz; apply H; right; exact Hz|]. exists (i :: ps). reflexivity.
Qed.

Lemma window_moved ps : text <> [] -> window R text c ps -> window R text c' (map f ps).
Proof using Hw.
  intros Ht (A & W2 & W3).
  assert (NE : forall qs, alignment R text c qs -> qs <> []).
  { intros qs [_ F] ->. inversion F; congruence. }
  split; [apply alignment_moved; exact A|]. split.
  - intros qs Hq. destruct (alignment_onto qs Hq) as [rs ->]. apply alignment_moved in Hq. subst f.
    rewrite !last_map_moved by auto. apply moved_le_iff. auto.
  - intros qs Hq. destruct (alignment_onto qs Hq) as [rs ->]. apply alignment_moved in Hq. subst f.
    rewrite !last_map_moved, !hd_map_moved by auto. intros E.
    assert (E' : last rs 0 = last ps 0).
    { assert (L1 := proj1 (moved_le_iff (length u) (length w) (last rs 0) (last ps 0))).
      assert (L2 := proj1 (moved_le_iff (length u) (length w) (last ps 0) (last rs 0))). lia. }
    destruct (W3 rs Hq E') as [L1 L2]. split; [apply moved_le_iff; exact L1|]. intros E2. apply moved_le. apply L2.
    assert (L := proj1 (moved_le_iff (length u) (length w) (hd 0 ps) (hd 0 rs))). lia.
Qed.
End Two.

(** ** Scores *)

Lemma bonus_values sch c j : (bonus_of sch c j = 0 \/ bonus_of sch c j = 7 \/ 8 <= bonus_of sch c j)%Z.
Proof.
  unfold bonus_of, points, white_points, delim_points.
  destruct sch, (match j with O => _ | S i => _ end), (place_of _ (nth j c 0%N)); lia.
Qed.

Lemma bonus_nonneg sch c j : (0 <= bonus_of sch c j)%Z.
Proof. destruct (bonus_values sch c j); lia. Qed.

Section Scores.
Variables (sch : scheme_name) (u w v : str).
Let c := u ++ v.
Let c' := u ++ w ++ v.
Let k := length u.
Let n := length w.
Let f := moved k n.
Hypothesis Hk : (bonus_of sch c' (k + n) <= bonus_of sch c k)%Z.
Hypothesis Hk' : u = [] \/ bonus_of sch c' (k + n) <> 7%Z.

Lemma nth_moved' j : nth (f j) c' 0%N = nth j c 0%N.
Proof using Type.
  clear Hk Hk'. subst c c' f k n. unfold moved. destruct (Nat.ltb_spec j (length u)).
  - rewrite !app_nth1 by lia. reflexivity.
  - rewrite !app_nth2 by lia. f_equal. lia.
Qed.

Lemma bonus_same j : j <> k -> bonus_of sch c' (f j) = bonus_of sch c j.
Proof using Type.
  clear Hk Hk'. intros H. unfold bonus_of. rewrite nth_moved'. f_equal. destruct j as [|j].
  - subst f. unfold moved. destruct (Nat.ltb_spec 0 k); [reflexivity|lia].
  - assert (E : f (S j) = S (f j)) by (subst f; unfold moved; destruct (Nat.ltb_spec (S j) k), (Nat.ltb_spec j k); lia).
    rewrite E, nth_moved'. reflexivity.
Qed.

Lemma f_k : f k = k + n.
Proof using Type. subst f. unfold moved. rewrite Nat.ltb_irrefl. reflexivity. Qed.

Lemma bonus_le j : (bonus_of sch c' (f j) <= bonus_of sch c j)%Z.
Proof using Hk.
  destruct (Nat.eq_dec j k) as [->|N]; [rewrite f_k; exact Hk|]. rewrite bonus_same by exact N. lia.
Qed.

Lemma rest_score_apart : forall ps prev best best', (0 <= best' <= best)%Z -> StronglySorted lt (prev :: ps) ->
  (rest_score sch c' (f prev) best' (map f ps) <= rest_score sch c prev best ps)%Z.
Proof using Hk Hk'.
  induction ps as [|j ps IH]; intros prev best best' Hb Ss; [reflexivity|].
  inversion Ss as [|? ? Ss' Fp]; subst. inversion Fp as [|? ? Hj _]; subst.
  cbn [map rest_score]. cbv zeta. pose proof (bonus_le j) as B. pose proof (bonus_nonneg sch c' (f j)) as P.
  pose proof (bonus_nonneg sch c j) as P'.
  destruct (Nat.eqb_spec (f j) (S (f prev))) as [E|N].
  - assert (Ej : j = S prev).
    { destruct (Nat.eq_dec j (S prev)) as [Ej|Ej]; [exact Ej|]. assert (L1 := moved_lt k n prev (S prev) ltac:(lia)). assert (L2 := moved_lt k n (S prev) j ltac:(lia)).
      fold f in L1, L2. lia. }
    destruct (Nat.eqb_spec j (S prev)); [|contradiction].
    pose proof (best_mono _ _ _ _ B (proj2 Hb)) as Bl.
    assert (P2 : (0 <= (if (8 <=? bonus_of sch c' (f j)) && (best' <? bonus_of sch c' (f j)) then bonus_of sch c' (f j) else best'))%Z)
      by (destruct (_ && _); lia).
    pose proof (IH j _ _ (conj P2 Bl) Ss'). lia.
  - destruct (Nat.eqb_spec j (S prev)) as [E|N'].
    + assert (j = k).
      { destruct (Nat.eq_dec j k) as [Ej|Ej]; [exact Ej|]. exfalso. apply N. subst f. unfold moved.
        destruct (Nat.ltb_spec j k), (Nat.ltb_spec prev k); lia. }
      rewrite H in *. rewrite f_k in *.
      set (b := bonus_of sch c k) in *. set (b' := bonus_of sch c' (k + n)) in *.
      assert (Hbest : (b' <= if (8 <=? b) && (best <? b) then b else best)%Z).
      { destruct Hk' as [U|U].
        - exfalso. subst k. rewrite U in E. discriminate.
        - assert (V := bonus_values sch c' (k + n)). fold b' in V, U.
          destruct (Z.leb_spec 8 b), (Z.ltb_spec best b); cbn [andb]; lia. }
      pose proof (IH k _ _ (conj P Hbest) Ss') as I. rewrite f_k in I.
      assert (f prev < k + n) by (rewrite <- f_k; apply moved_lt; lia). lia.
    + pose proof (IH j _ _ (conj P B) Ss') as I.
      assert (j - S prev <= f j - S (f prev)) by (subst f; unfold moved; destruct (Nat.ltb_spec j k), (Nat.ltb_spec prev k); lia).
      lia.
Qed.

Lemma alignment_score_apart ps : StronglySorted lt ps ->
  (alignment_score sch c' (map f ps) <= alignment_score sch c ps)%Z.
Proof using Hk Hk'.
  destruct ps as [|j ps]; intros Ss; [reflexivity|]. cbn [map alignment_score].
  pose proof (bonus_le j) as B. pose proof (bonus_nonneg sch c' (f j)) as P.
  pose proof (rest_score_apart ps j _ _ (conj P B) Ss). lia.
Qed.
End Scores.

Lemma c95_v1 : forall o m m' text q u w v d m1,
  metric_reached AlgoV1 o m -> metric_reached AlgoV1 o m' -> fuzzy_query text q ->
  (forall x y, In x text -> In y w -> ~ agreement o text x y) ->
  (bonus_of (opt_scheme o) (u ++ w ++ v) (length u + length w) <= bonus_of (opt_scheme o) (u ++ v) (length u))%Z ->
  u = [] \/ bonus_of (opt_scheme o) (u ++ w ++ v) (length u + length w) <> 7%Z ->
  metric_distance m q (u ++ v) = Ok (Some d, m1) ->
  exists d' m1', metric_distance m' q (u ++ w ++ v) = Ok (Some d', m1') /\ distance_cmp d d' <> Gt.
Proof.
  intros o m m' text q u w v d m1 Hm Hm' Hq Hw Hk Hk' E.
  destruct (fuzzy_result AlgoV1 o m' text q (u ++ w ++ v) [] Hm' Hq) as [(m1' & E1) _].
  destruct text as [|x0 text'].
  { rewrite E1. pose proof (fuzzy_distance _ _ _ _ _ _ _ _ Hm Hq E) as Ed. cbn in *. injection Ed as ->. eexists _, _. split; [reflexivity|discriminate]. }
  set (text := x0 :: text') in *. assert (Ht : text <> []) by discriminate.
  assert (F : fuzzy_in (agreement o text) text (u ++ v)) by (apply (fuzzy_iff AlgoV1 o m text q _ (Some d) m1 Hm Hq E); eauto).
  destruct (window_exists o text _ Ht F) as [js W]. pose proof (window_moved _ _ u w v Hw js Ht W) as W'.
  assert (F' : fuzzy_in (agreement o text) text (u ++ w ++ v)) by (eexists; apply W').
  apply (fuzzy_iff AlgoV1 o m' text q _ _ m1' Hm' Hq E1) in F' as [d' Ed']. rewrite Ed' in E1. exists d', m1'. split; [exact E1|].
  rewrite (c41_v1_score o m text q _ d m1 js Hm Hq Ht E W), (c41_v1_score o m' text q _ d' m1' _ Hm' Hq Ht E1 W').
  apply cmp_score. apply alignment_score_apart; [exact Hk|exact Hk'|apply W].
Qed.

Lemma c95_single : forall o m m' x q u w v d m1,
  metric_reached AlgoV2 o m -> metric_reached AlgoV2 o m' -> fuzzy_query [x] q ->
  (forall y, In y w -> ~ agreement o [x] x y) ->
  (bonus_of (opt_scheme o) (u ++ w ++ v) (length u + length w) <= bonus_of (opt_scheme o) (u ++ v) (length u))%Z ->
  metric_distance m q (u ++ v) = Ok (Some d, m1) ->
  exists d' m1', metric_distance m' q (u ++ w ++ v) = Ok (Some d', m1') /\ distance_cmp d d' <> Gt.
Proof.
  intros o m m' x q u w v d m1 Hm Hm' Hq Hw Hk E.
  assert (Hw' : forall x0 y, In x0 [x] -> In y w -> ~ agreement o [x] x0 y) by (intros x0 y [<-|[]]; auto).
  destruct (fuzzy_result _ _ _ _ _ (u ++ v) [] Hm Hq) as [(m0 & E0) (m0' & E0')].
  assert (Ed : Some d = option_map from_score (fst (raw_outcome AlgoV2 o [x] (u ++ v)))) by congruence. rewrite <- Ed in E0'.
  assert (F : fuzzy_in (agreement o [x]) [x] (u ++ v)) by (apply (fuzzy_iff AlgoV2 o m [x] q _ (Some d) m1 Hm Hq E); eauto).
  destruct F as [ps A]. apply (alignment_moved _ _ u w v) in A.
  destruct (fuzzy_result _ _ _ _ _ (u ++ w ++ v) [] Hm' Hq) as [(m2 & E2) (m2' & E2')].
  assert (F' : fuzzy_in (agreement o [x]) [x] (u ++ w ++ v)) by (eexists; exact A).
  apply (fuzzy_iff AlgoV2 o m' [x] q _ _ m2 Hm' Hq E2) in F' as [d' Ed']. rewrite Ed' in E2, E2'. exists d', m2. split; [exact E2|].
  destruct (c45_v2_single _ _ _ _ _ _ _ _ _ Hm Hq E0') as (pre & y & post & _ & _ & -> & _ & Best).
  destruct (c45_v2_single _ _ _ _ _ _ _ _ _ Hm' Hq E2') as (pre' & z & post' & Ec & Rz & -> & _ & _).
  assert (Hz : nth_error (u ++ w ++ v) (length pre') = Some z) by (rewrite Ec, nth_error_app2, Nat.sub_diag by lia; reflexivity).
  destruct (moved_onto _ _ u w v Hw' _ _ x (or_introl eq_refl) Hz Rz) as [i Ei]. rewrite <- Ei, nth_moved in Hz.
  apply cmp_score. repeat change (into_score (from_score ?x)) with x. destruct (Best _ _ Hz Rz) as [B _].
  pose proof (bonus_le (opt_scheme o) u w v Hk i) as L. rewrite Ei in L. lia.
Qed.
End Claims.
