(** Proofs of C69: text appended to a candidate. *)
From Coq Require Import Sorted.
From Verif Require Import Prelude Chars Normalize Utils Candidate MatchedRanges Query Parser Scoring
  Slab Fzf FzfV1 FzfV2 Api History
  Spec PreludeProofs CharsProofs NormalizeProofs CandidateProofs MatchedRangesProofs ParserProofs
  ScoreProofs ExactProofs ShapeProofs V1Proofs V2Tables V2Proofs V2Rows V2Fuzzy V2Facts ApiProofs AcceptProofs
  RangeProofs WordsProofs CongProofs FuzzyFacts Claims1 Claims2 Claims5 Claims7 ExactChoice Claims8 Claims11 Claims12.
Local Open Scope nat_scope.

(** ** Tables with more columns *)
Section Wider.
Variables (hit hit' : nat -> nat -> bool) (bonus bonus' : nat -> Z) (first : nat -> nat) (stop stop' h : nat).
Hypothesis Hs : stop <= stop'.
Hypothesis Hh : forall i j, i < h -> j <= stop -> hit' i j = hit i j.
Hypothesis Hb : forall j, j <= stop -> bonus' j = bonus j.
Hypothesis Hinc : forall i, S i < h -> first i < first (S i).
Hypothesis Hfirst : forall i, i < h -> hit i (first i) = true.
(** A row has no hits in the new columns, or a hit in the last old one. *)
Hypothesis Hnew : forall i, i < h -> hit i stop = true \/ (forall j, stop < j <= stop' -> hit' i j = false).
Notation T := (table hit bonus first stop).
Notation T' := (table hit' bonus' first stop').

Lemma later_wider i j : i < h -> j <= stop -> hit i j || later_hit hit stop i j = hit' i j || later_hit hit' stop' i j.
Proof.
  intros Hi Hj. rewrite Hh by assumption. destruct (hit i j) eqn:Eh; [reflexivity|]. cbn [orb]. unfold later_hit.
  apply eq_true_iff_eq. rewrite !existsb_exists. split; intros (x & Hx & E); apply in_seq in Hx.
  - exists x. split; [apply in_seq; lia|]. rewrite Hh by lia. exact E.
  - destruct (Hnew i Hi) as [H|H].
    + exists stop. split; [|exact H]. apply in_seq. assert (j <> stop) by congruence. lia.
    + exists x. destruct (Nat.le_gt_cases x stop) as [Hx'|Hx']; [|rewrite H in E by lia; discriminate].
      split; [apply in_seq; lia|]. rewrite <- Hh by assumption. exact E.
Qed.

Lemma step_cost_wider i j : i < h -> j <= stop -> step_cost hit' first stop' i j = step_cost hit first stop i j.
Proof.
  intros Hi Hj. unfold step_cost. rewrite (later_wider i j Hi Hj), !Hh by lia. reflexivity.
Qed.

Lemma table_wider : forall i j, i < h -> j <= stop -> T' i j = T i j.
Proof.
  induction i as [|i IHi]; induction j as [j IHj] using lt_wf_ind; intros Hi Hj.
  - destruct (Nat.lt_ge_cases j (first 0)) as [H|H]; [rewrite !T_before; auto|].
    destruct (hit 0 j) eqn:E; [rewrite !T_hit0; auto; [rewrite Hb by exact Hj; reflexivity|rewrite Hh; auto]|].
    assert (0 < j). { destruct j; [|lia]. pose proof (Hfirst 0 Hi) as F. replace (first 0) with 0 in F by lia. congruence. }
    rewrite (T_gap (hit := hit') 0 j), (T_gap (hit := hit) 0 j); auto; try lia; [|rewrite Hh; auto].
    unfold pts_of. rewrite step_cost_wider, IHj by lia. reflexivity.
  - pose proof (Hinc i Hi) as Hp.
    destruct (Nat.lt_ge_cases j (first (S i))) as [H|H]; [rewrite !T_before; auto|].
    destruct (hit (S i) j) eqn:E.
    + rewrite (T_hit (hit := hit') i j), (T_hit (hit := hit) i j); auto; try lia; [|rewrite Hh; auto].
      cbv zeta. unfold pts_of, run_of. rewrite step_cost_wider, IHj, IHi by lia. rewrite !Hb by lia. reflexivity.
    + rewrite (T_gap (hit := hit') (S i) j), (T_gap (hit := hit) (S i) j); auto; try lia; [|rewrite Hh; auto].
      unfold pts_of. rewrite step_cost_wider, IHj by lia. reflexivity.
Qed.

End Wider.

Section WithUnicode.
Context {UC : unicode}.

Lemma find_last_more {A} (f : A -> bool) l post i : find_last_idx f l = Some i ->
  exists j, find_last_idx f (l ++ post) = Some j /\ i <= j.
Proof.
  revert i. induction l as [|x l IH]; intros i H; [discriminate|]. cbn [app find_last_idx] in *.
  destruct (find_last_idx f l) as [k|]; cbn [option_map] in H.
  - destruct (IH k eq_refl) as (j & -> & Hj). exists (S j). split; [reflexivity|]. injection H as <-. lia.
  - destruct (f x) eqn:E; [|discriminate]. injection H as <-. destruct (find_last_idx f (l ++ post)); eexists; (split; [reflexivity|lia]).
Qed.

Lemma nth_removelast {A} (p : list A) i x : nth_error p i = Some x -> S i < length p -> In x (removelast p).
Proof.
  revert i. induction p as [|a p IH]; intros i Hx Hl; [destruct i; discriminate|].
  destruct p as [|b p]; [cbn in Hl; lia|]. change (removelast (a :: b :: p)) with (a :: removelast (b :: p)).
  destruct i as [|i]; [left; cbn in Hx; congruence|]. right. apply (IH i); [exact Hx|cbn in *; lia].
Qed.

Lemma find_last_here {A} (f : A -> bool) u y v : f y = true -> (forall z, In z v -> f z = false) ->
  find_last_idx f (u ++ y :: v) = Some (length u).
Proof.
  intros Hy Hv. replace (u ++ y :: v) with ((u ++ [y]) ++ v) by (rewrite <- app_assoc; reflexivity).
  rewrite find_last_idx_false by exact Hv.
  rewrite (find_last_idx_moved f u [y] 0); [f_equal; lia|]. cbn. rewrite Hy. reflexivity.
Qed.

Lemma last_row (p : str) i : i < length p -> S i < length p \/ nth_error p i = Some (last p 0%N).
Proof.
  intros Hi. destruct (Nat.lt_ge_cases (S i) (length p)) as [H|H]; [left; exact H|right].
  assert (Hp : p <> []) by (intros ->; cbn in Hi; lia). destruct (exists_last Hp) as (u & x & ->).
  rewrite last_last. rewrite app_length in *. cbn [length] in *. rewrite nth_error_app2 by lia.
  replace (i - length u) with 0 by lia. reflexivity.
Qed.

Lemma v2_result_wider sens norm sch p u y v post sc ps : p <> [] ->
  char_eq sens norm (last p 0%N) y = true ->
  (forall z, In z v -> char_eq sens norm (last p 0%N) z = false) ->
  (forall x z, In x (removelast p) -> In z (v ++ post) -> char_eq sens norm x z = false) ->
  v2_result sens norm sch p (u ++ y :: v) = Some (sc, ps) ->
  exists sc' ps', v2_result sens norm sch p ((u ++ y :: v) ++ post) = Some (sc', ps') /\ (sc <= sc')%Z.
Proof.
  intros Hp Hy Hv Hno E. pose proof E as E'. unfold v2_result in E'.
  assert (L : last_col sens norm p (u ++ y :: v) = Some (length u)) by (apply find_last_here; assumption).
  rewrite L in E'. destruct (greedy _ p (u ++ y :: v) 0) as [fs|] eqn:G; [|discriminate]. clear E'.
  pose proof (greedy_more _ p _ post _ _ G) as G'.
  destruct (find_last_more _ _ post _ L) as (stop' & L' & Hs). change (last_col sens norm p ((u ++ y :: v) ++ post) = Some stop') in L'.
  destruct (v2_result_cell _ _ _ _ _ _ _ Hp G L _ _ E) as (i & j & B & -> & ->).
  destruct (v2_result sens norm sch p ((u ++ y :: v) ++ post)) as [[sc' ps']|] eqn:Er'.
  2: { unfold v2_result in Er'. rewrite G', L' in Er'. destruct (v2_best _ _ _ _ _ _ _); discriminate. }
  destruct (v2_result_cell _ _ _ _ _ _ _ Hp G' L' _ _ Er') as (i' & j' & B' & -> & ->).
  eexists _, _. split; [reflexivity|].
  assert (Hl : length u < length (u ++ y :: v)) by (rewrite app_length; cbn; lia).
  assert (A1 : forall i j, i < length p -> j <= length u -> hit_of sens norm p ((u ++ y :: v) ++ post) i j = hit_of sens norm p (u ++ y :: v) i j).
  { intros i0 j0 Hi0 Hj0. unfold hit_of. rewrite (nth_error_app1 (u ++ y :: v)) by lia. reflexivity. }
  assert (A3 : forall j, j <= length u -> bonus_of sch ((u ++ y :: v) ++ post) j = bonus_of sch (u ++ y :: v) j)
    by (intros; apply place_more; lia).
  assert (A4 : forall i, S i < length p -> firsts fs i < firsts fs (S i)) by (intros; eapply v2_inc; eauto).
  assert (A5 : forall i, i < length p -> hit_of sens norm p (u ++ y :: v) i (firsts fs i) = true) by (intros; eapply v2_first; eauto).
  assert (A6 : forall i, i < length p -> hit_of sens norm p (u ++ y :: v) i (length u) = true
            \/ (forall j, length u < j <= stop' -> hit_of sens norm p ((u ++ y :: v) ++ post) i j = false)).
  { intros i0 Hi0. destruct (last_row p i0 Hi0) as [H|H].
    - right. intros j0 Hj0. unfold hit_of. destruct (nth_error p i0) as [x|] eqn:Ex; [|reflexivity].
      destruct (nth_error ((u ++ y :: v) ++ post) j0) as [z|] eqn:Ez; [|reflexivity]. apply Hno; [eapply nth_removelast; eauto|].
      rewrite <- app_assoc in Ez. rewrite nth_error_app2 in Ez by lia. cbn [app] in Ez.
      destruct (j0 - length u) as [|k] eqn:Ek; [lia|]. cbn [nth_error] in Ez. eapply nth_error_In. exact Ez.
    - left. unfold hit_of. rewrite H. rewrite nth_error_app2 by lia. rewrite Nat.sub_diag. exact Hy. }
  destruct B as ((Hi & Hj & Hc) & _). destruct B' as (_ & M & _).
  rewrite <- (table_wider _ _ _ _ _ _ _ _ Hs A1 A3 A4 A5 A6 i j) by lia.
  apply M. split; [exact Hi|]. split; [lia|]. rewrite A1 by lia. exact Hc.
Qed.

(** ** C69 *)
Lemma c69_append_partial : forall o m m' text q u y v post d m1,
  metric_reached AlgoV2 o m -> metric_reached AlgoV2 o m' -> fuzzy_query text q ->
  agreement o text (last text 0%N) y ->
  (forall z, In z v -> ~ agreement o text (last text 0%N) z) ->
  (forall x z, In x (removelast text) -> In z (v ++ post) -> ~ agreement o text x z) ->
  metric_distance m q (u ++ y :: v) = Ok (Some d, m1) ->
  exists d' m1', metric_distance m' q ((u ++ y :: v) ++ post) = Ok (Some d', m1') /\ distance_cmp d' d <> Gt.
Proof.
  intros o m m' text q u y v post d m1 Hm Hm' Hq Hy Hv Hno E.
  pose proof (fuzzy_distance _ _ _ _ _ _ _ _ Hm Hq E) as Ed.
  destruct (fuzzy_result AlgoV2 o m' text q ((u ++ y :: v) ++ post) [] Hm' Hq) as [(m1' & E1) _]. rewrite E1.
  symmetry in Ed. apply raw_some in Ed as [[-> ->]|(Ht & rs & Hf & _)].
  { eexists _, _. split; [reflexivity|]. discriminate. }
  destruct (v2_case _ _ _ _ _ Ht Hf) as (ps & _ & _ & Hr & _).
  edestruct (v2_result_wider (sensitive_for (opt_case o) text) (opt_norm o) (opt_scheme o) text u y v post) as (sc' & ps' & Er & Hle);
    [exact Ht| | | |exact Hr|].
  - apply char_eq_agrees. exact Hy.
  - intros z Hz. apply not_true_is_false. intros Ez. apply char_eq_agrees in Ez. exact (Hv z Hz Ez).
  - intros x z Hx Hz. apply not_true_is_false. intros Ez. apply char_eq_agrees in Ez. exact (Hno x z Hx Hz Ez).
  - assert (Eo : fst (raw_outcome AlgoV2 o text ((u ++ y :: v) ++ post)) = Some sc').
    { unfold raw_outcome, fuzzy_outcome. rewrite Er. destruct text; [congruence|reflexivity]. }
    rewrite Eo. eexists _, _. split; [reflexivity|]. apply cmp_score. exact Hle.
Qed.

(** So the text does not matter to queries of one character. *)
Lemma c69_single_partial : forall o m m' x q c post d m1,
  metric_reached AlgoV2 o m -> metric_reached AlgoV2 o m' -> fuzzy_query [x] q ->
  metric_distance m q c = Ok (Some d, m1) ->
  exists d' m1', metric_distance m' q (c ++ post) = Ok (Some d', m1') /\ distance_cmp d' d <> Gt.
Proof.
  intros o m m' x q c post d m1 Hm Hm' Hq E.
  pose proof (fuzzy_distance _ _ _ _ _ _ _ _ Hm Hq E) as Ed. symmetry in Ed.
  apply raw_some in Ed as [[Ex _]|(Ht & rs & Hf & _)]; [discriminate|].
  destruct (v2_case _ _ _ _ _ Ht Hf) as (ps & fs & stop & _ & _ & _ & L). unfold last_col in L.
  apply find_last_idx_some in L as (y & Hy & Ey & Hafter). cbn [last] in *.
  apply nth_error_split in Hy as (u & v & -> & Hu).
  apply (c69_append_partial o m m' [x] q u y v post d m1 Hm Hm' Hq); [apply char_eq_agrees; exact Ey| |intros ? ? []|exact E].
  intros z Hz A. apply char_eq_agrees in A. apply In_nth_error in Hz as (k & Hk).
  cbn [last] in A. unfold agreement in *. rewrite (Hafter (stop + S k) z) in A; [discriminate|lia|].
  rewrite nth_error_app2 by lia. replace (stop + S k - length u) with (S k) by lia. exact Hk.
Qed.

End WithUnicode.
