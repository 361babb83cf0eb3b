(** Proofs of C94: candidates in which the characters of the query are placed better. *)
From Coq Require Import Sorted.
From Verif Require Import Prelude Chars Utils Query Parser Scoring Fzf Api History Spec PreludeProofs ApiProofs AcceptProofs
  Claims1 Claims2 Claims5 Claims6 Claims7 Claims16 ExampleKit.
Local Open Scope nat_scope.

Section Claims.
Context {UC : unicode}.

(** ** Scores *)

Lemma best_mono (b b' best best' : Z) : (b <= b')%Z -> (best <= best')%Z ->
  ((if (8 <=? b) && (best <? b) then b else best) <= (if (8 <=? b') && (best' <? b') then b' else best'))%Z.
Proof. intros. destruct (Z.leb_spec 8 b), (Z.ltb_spec best b), (Z.leb_spec 8 b'), (Z.ltb_spec best' b'); cbn [andb]; lia. Qed.

Lemma rest_score_mono sch c c' : forall ps prev best best', (best <= best')%Z ->
  Forall (fun j => (bonus_of sch c j <= bonus_of sch c' j)%Z) ps ->
  (rest_score sch c prev best ps <= rest_score sch c' prev best' ps)%Z.
Proof.
  induction ps as [|j ps IH]; intros prev best best' Hb F; [reflexivity|]. inversion F as [|? ? Fj F']; subst. cbn [rest_score].
  destruct (j =? S prev).
  - pose proof (IH j _ _ (best_mono (bonus_of sch c j) (bonus_of sch c' j) best best' Fj Hb) F') as H.
    pose proof (best_mono (bonus_of sch c j) (bonus_of sch c' j) best best' Fj Hb) as B. lia.
  - specialize (IH j _ _ Fj F'). lia.
Qed.

Lemma alignment_score_mono sch c c' ps : Forall (fun j => (bonus_of sch c j <= bonus_of sch c' j)%Z) ps ->
  (alignment_score sch c ps <= alignment_score sch c' ps)%Z.
Proof.
  destruct ps as [|j ps]; intros F; [reflexivity|]. inversion F as [|? ? Fj F']; subst. cbn [alignment_score].
  pose proof (rest_score_mono sch c c' ps j _ _ Fj F'). lia.
Qed.

(** ** Alignments *)

Section Two.
Variables (R : char -> char -> Prop) (text c c' : str).
Hypothesis HL : length c = length c'.
Hypothesis HR : forall x j y y', In x text -> nth_error c j = Some y -> nth_error c' j = Some y' -> (R x y <-> R x y').

Lemma alignment_two p ps : (forall x, In x p -> In x text) -> alignment R p c ps <-> alignment R p c' ps.
Proof.
  intros Hp. unfold alignment. apply and_iff_compat_l.
  assert (D : forall j y, nth_error c j = Some y -> exists y', nth_error c' j = Some y').
  { intros j y Hy. destruct (nth_error c' j) eqn:E; [eauto|]. apply nth_error_None in E. assert (j < length c) by (apply nth_error_Some; congruence). lia. }
  assert (D' : forall j y, nth_error c' j = Some y -> exists y', nth_error c j = Some y').
  { intros j y Hy. destruct (nth_error c j) eqn:E; [eauto|]. apply nth_error_None in E. assert (j < length c') by (apply nth_error_Some; congruence). lia. }
  split; intros F; (induction F as [|x j p ps (y & Hy & Hr) _ IH]; constructor; [|apply IH; intros; apply Hp; right; assumption]).
  - destruct (D j y Hy) as [y' Hy']. exists y'. split; [exact Hy'|]. apply (HR x j y y'); auto. apply Hp. left. reflexivity.
  - destruct (D' j y Hy) as [y' Hy']. exists y'. split; [exact Hy'|]. apply (HR x j y' y); auto. apply Hp. left. reflexivity.
Qed.

Lemma window_two ps : window R text c ps -> window R text c' ps.
Proof.
  assert (A : forall qs, alignment R text c qs <-> alignment R text c' qs) by (intros qs; apply alignment_two; auto).
  intros (W1 & W2 & W3). split; [apply A, W1|]. split; intros qs Hq; apply A in Hq; auto.
Qed.

Lemma alignment_hits (b b' : nat -> Z) ps : (forall x j y, In x text -> nth_error c j = Some y -> R x y -> (b j <= b' j)%Z) ->
  alignment R text c ps -> Forall (fun j => (b j <= b' j)%Z) ps.
Proof.
  intros Hb [_ F]. revert F Hb. clear HR HL. induction 1 as [|x j p ps (y & Hy & Hr) _ IH]; intros Hb; constructor.
  - eapply Hb; [left; reflexivity|eassumption|exact Hr].
  - apply IH. intros. eapply Hb; [right; eassumption|eassumption|assumption].
Qed.
End Two.

Lemma c94_v1 : forall o m m' text q c c' d m1,
  metric_reached AlgoV1 o m -> metric_reached AlgoV1 o m' -> fuzzy_query text q -> length c = length c' ->
  (forall x j y y', In x text -> nth_error c j = Some y -> nth_error c' j = Some y' -> (agreement o text x y <-> agreement o text x y')) ->
  (forall x j y, In x text -> nth_error c j = Some y -> agreement o text x y ->
     (bonus_of (opt_scheme o) c j <= bonus_of (opt_scheme o) c' j)%Z) ->
  metric_distance m q c = Ok (Some d, m1) ->
  exists d' m1', metric_distance m' q c' = Ok (Some d', m1') /\ distance_cmp d' d <> Gt.
Proof.
  intros o m m' text q c c' d m1 Hm Hm' Hq HL HR Hb E.
  destruct (fuzzy_result AlgoV1 o m' text q c' [] Hm' Hq) as [(m1' & E1) _].
  destruct text as [|x0 text'].
  { rewrite E1. pose proof (fuzzy_distance _ _ _ _ _ _ _ _ Hm Hq E) as Ed. cbn in *. injection Ed as ->. eexists _, _. split; [reflexivity|discriminate]. }
  set (text := x0 :: text') in *. assert (Ht : text <> []) by discriminate.
  assert (F : fuzzy_in (agreement o text) text c) by (apply (fuzzy_iff AlgoV1 o m text q c (Some d) m1 Hm Hq E); eauto).
  destruct (window_exists o text c Ht F) as [js W]. pose proof (window_two _ _ _ _ HL HR js W) as W'.
  assert (F' : fuzzy_in (agreement o text) text c') by (exists js; apply W').
  apply (fuzzy_iff AlgoV1 o m' text q c' _ m1' Hm' Hq E1) in F' as [d' Ed']. rewrite Ed' in E1. exists d', m1'. split; [exact E1|].
  rewrite (c41_v1_score o m text q c d m1 js Hm Hq Ht E W), (c41_v1_score o m' text q c' d' m1' js Hm' Hq Ht E1 W').
  apply cmp_score. apply alignment_score_mono. eapply alignment_hits; [exact Hb|apply W].
Qed.

Lemma c94_single : forall o m m' x q c c' d m1,
  metric_reached AlgoV2 o m -> metric_reached AlgoV2 o m' -> fuzzy_query [x] q -> length c = length c' ->
  (forall j y y', nth_error c j = Some y -> nth_error c' j = Some y' -> (agreement o [x] x y <-> agreement o [x] x y')) ->
  (forall j y, nth_error c j = Some y -> agreement o [x] x y -> (bonus_of (opt_scheme o) c j <= bonus_of (opt_scheme o) c' j)%Z) ->
  metric_distance m q c = Ok (Some d, m1) ->
  exists d' m1', metric_distance m' q c' = Ok (Some d', m1') /\ distance_cmp d' d <> Gt.
Proof.
  intros o m m' x q c c' d m1 Hm Hm' Hq HL HR Hb E.
  destruct (fuzzy_result _ _ _ _ _ c [] Hm Hq) as [(m0 & E0) (m0' & E0')]. 
  assert (Ed : Some d = option_map from_score (fst (raw_outcome AlgoV2 o [x] c))) by congruence. rewrite <- Ed in E0'.
  destruct (c45_v2_single _ _ _ _ _ _ _ _ _ Hm Hq E0') as (pre & y & post & Ec & Ry & -> & _ & Best). clear E0' Ed.
  assert (Hy : nth_error c (length pre) = Some y) by (rewrite Ec, nth_error_app2, Nat.sub_diag by lia; reflexivity).
  destruct (nth_error c' (length pre)) as [y'|] eqn:Hy'.
  2: { apply nth_error_None in Hy'. assert (length pre < length c) by (apply nth_error_Some; congruence). lia. }
  pose proof (proj1 (HR _ _ _ Hy Hy') Ry) as Ry'.
  destruct (fuzzy_result _ _ _ _ _ c' [] Hm' Hq) as [(m2 & E2) (m2' & E2')].
  assert (F' : fuzzy_in (agreement o [x]) [x] c').
  { exists [length pre]. split; [constructor; constructor|]. constructor; [|constructor]. eauto. }
  apply (fuzzy_iff AlgoV2 o m' [x] q c' _ m2 Hm' Hq E2) in F' as [d' Ed']. rewrite Ed' in E2, E2'. exists d', m2. split; [exact E2|].
  destruct (c45_v2_single _ _ _ _ _ _ _ _ _ Hm' Hq E2') as (pre' & z & post' & _ & _ & -> & _ & Best').
  apply cmp_score. destruct (Best' _ _ Hy' Ry') as [B _]. pose proof (Hb _ _ Hy Ry).
  repeat change (into_score (from_score ?x)) with x. lia.
Qed.

Lemma c94_one_way : forall o m m' text q c c' d m1 fs,
  metric_reached AlgoV2 o m -> metric_reached AlgoV2 o m' -> fuzzy_query text q -> text <> [] -> length c = length c' ->
  (forall x j y y', In x text -> nth_error c j = Some y -> nth_error c' j = Some y' -> (agreement o text x y <-> agreement o text x y')) ->
  (forall x j y, In x text -> nth_error c j = Some y -> agreement o text x y ->
     (bonus_of (opt_scheme o) c j <= bonus_of (opt_scheme o) c' j)%Z) ->
  alignment (agreement o text) text c fs ->
  (forall k js, alignment (agreement o text) (firstn k text) c js ->
     k = length text \/ last js 0 <= last fs 0 -> js = firstn k fs) ->
  (forall i, S i < length text -> nth (S i) fs 0 <= nth i fs 0 + 14) ->
  metric_distance m q c = Ok (Some d, m1) ->
  exists d' m1', metric_distance m' q c' = Ok (Some d', m1') /\ distance_cmp d' d <> Gt.
Proof.
  intros o m m' text q c c' d m1 fs Hm Hm' Hq Ht HL HR Hb A U Near E.
  pose proof (metric_with_reached AlgoV1 o) as Hv.
  assert (A' : alignment (agreement o text) text c' fs) by (apply (alignment_two _ text c c' HL HR); auto).
  assert (U' : forall k js, alignment (agreement o text) (firstn k text) c' js ->
     k = length text \/ last js 0 <= last fs 0 -> js = firstn k fs).
  { intros k js Hj. apply U. apply (alignment_two _ text c c' HL HR); [|exact Hj].
    intros x Hx. rewrite <- (firstn_skipn k text). apply in_or_app. left. exact Hx. }
  destruct (c77_one_way o _ m text q c [] fs Hv Hm Hq Ht A U Near) as (_ & m2 & new & _ & E2 & _).
  destruct (c77_one_way o _ m' text q c' [] fs Hv Hm' Hq Ht A' U' Near) as (_ & m3 & new' & _ & E3 & _).
  destruct (fuzzy_result _ _ _ _ _ c [] Hm Hq) as [(m0 & E0) (m0' & E0')].
  destruct (fuzzy_result _ _ _ _ _ c' [] Hm' Hq) as [(n0 & F0) (n0' & F0')].
  assert (Ed : Some d = option_map from_score (fst (raw_outcome AlgoV2 o text c))) by congruence. rewrite <- Ed in E0'.
  assert (Ed' : option_map from_score (fst (raw_outcome AlgoV2 o text c')) = Some (from_score (alignment_score (opt_scheme o) c' fs))) by congruence.
  rewrite Ed' in F0. eexists _, _. split; [exact F0|].
  assert (d = from_score (alignment_score (opt_scheme o) c fs)) as -> by congruence.
  apply cmp_score. apply alignment_score_mono. eapply alignment_hits; [exact Hb|exact A].
Qed.
End Claims.
