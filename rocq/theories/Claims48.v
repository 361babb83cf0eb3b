(** Proofs about what a search with FzfV2 loses at most when text is appended to a candidate or when
    the match is placed better (C69, C94). *)
From Coq Require Import Sorted.
From Verif Require Import Prelude Chars Normalize Utils Candidate MatchedRanges Query Parser Scoring
  Slab Fzf FzfV1 FzfV2 Api History
  Spec PreludeProofs CharsProofs NormalizeProofs CandidateProofs MatchedRangesProofs ParserProofs
  ScoreProofs ExactProofs ShapeProofs V1Proofs V2Tables V2Proofs V2Rows V2Fuzzy V2Facts ApiProofs AcceptProofs
  RangeProofs WordsProofs CongProofs FuzzyFacts Claims1 Claims2 Claims5 Claims6 Claims7 ExactChoice Claims8 Claims11 Claims12
  Claims13 Claims16 Claims27.
Local Open Scope nat_scope.

Lemma sat_lossy x y e : (0 <= e -> x <= y + e -> at_least_min x <= at_least_min y + e)%Z.
Proof. unfold at_least_min. generalize (- 2 ^ 63)%Z. intros. lia. Qed.

(** ** Two tables *)
Section Lossy.
Variables (hit hit' : nat -> nat -> bool) (bonus bonus' : nat -> Z) (first : nat -> nat) (stop stop' h : nat).
Variables (D : Z) (E : nat -> nat -> Z).
Hypothesis HD : (0 <= D)%Z.
Hypothesis HE : forall i j, (0 <= E i j <= D)%Z.
Hypothesis HE0 : forall i j, i < h -> j <= stop -> hit i j = true -> E i j = 0%Z.
Hypothesis Hh : forall i j, i < h -> j <= stop -> hit' i j = hit i j.
Hypothesis Hr : forall j, (0 <= bonus j <= 10)%Z.
Hypothesis Hr' : forall j, (0 <= bonus' j <= 10)%Z.
Hypothesis Hb : forall i j, i < h -> j <= stop -> hit i j = true -> (bonus j <= bonus' j)%Z.
Hypothesis Hinc : forall i, S i < h -> first i < first (S i).
Hypothesis Hfirst : forall i, i < h -> hit i (first i) = true.
Hypothesis Hstep : forall i j, i < h -> first i <= j -> 0 < j -> j <= stop ->
  (step_cost hit' first stop' i j <= step_cost hit first stop i j + E i j - E i (j - 1))%Z.
Notation T := (table hit bonus first stop).
Notation T' := (table hit' bonus' first stop').

Fixpoint lost (i : nat) : Z := match i with O => 0 | S i' => lost i' + D + (match i' with O => 0 | _ => 10 end) end%Z.

Lemma lost_nonneg i : (0 <= lost i)%Z.
Proof. induction i as [|i IH]; cbn [lost]; [lia|]. destruct i; lia. Qed.

Lemma first_row_same j : 0 < h -> j <= stop -> run (T' 0 j) = run (T 0 j).
Proof.
  intros H0 Hj. destruct (Nat.lt_ge_cases j (first 0)) as [H|H]; [rewrite !T_before; auto|].
  destruct (hit 0 j) eqn:X; [rewrite !T_hit0; auto; rewrite Hh; auto|].
  assert (0 < j). { destruct j; [|lia]. pose proof (Hfirst 0 H0) as F. replace (first 0) with 0 in F by lia. congruence. }
  rewrite (T_gap (hit := hit') 0 j), (T_gap (hit := hit) 0 j); auto; try lia. rewrite Hh; auto.
Qed.

(** The length of a run in the first row, and where it starts *)
Lemma first_row_run j : 0 < h -> j <= stop -> run (T 0 j) = 0 \/ (run (T 0 j) = 1 /\ hit 0 j = true).
Proof.
  intros H0 Hj. destruct (Nat.lt_ge_cases j (first 0)) as [H|H]; [rewrite !T_before; auto|].
  destruct (hit 0 j) eqn:X; [rewrite !T_hit0; auto|].
  assert (0 < j). { destruct j; [|lia]. pose proof (Hfirst 0 H0) as F. replace (first 0) with 0 in F by lia. congruence. }
  rewrite (T_gap (hit := hit) 0 j); auto; lia.
Qed.

Lemma gap_lossy i j e : i < h -> first i <= j -> 0 < j -> j <= stop -> (0 <= e)%Z ->
  (pts (T i (j - 1)) <= pts (T' i (j - 1)) + e + E i (j - 1))%Z ->
  (at_least_min (pts (T i (j - 1)) - step_cost hit first stop i j)
   <= at_least_min (pts (T' i (j - 1)) - step_cost hit' first stop' i j) + e + E i j)%Z.
Proof.
  intros Hi Hf H0 Hj He H. pose proof (Hstep i j Hi Hf H0 Hj). pose proof (HE i j). rewrite <- Z.add_assoc. apply sat_lossy; lia.
Qed.

Lemma table_lossy : forall i j, i < h -> j <= stop -> (pts (T i j) <= pts (T' i j) + lost i + E i j)%Z.
Proof.
  induction i as [|i IHi]; induction j as [j IHj] using lt_wf_ind; intros Hi Hj.
  - pose proof (HE 0 j) as He. destruct (Nat.lt_ge_cases j (first 0)) as [H|H]; [rewrite !T_before by auto; cbn [pts lost]; lia|].
    destruct (hit 0 j) eqn:X.
    + rewrite !T_hit0 by (auto; rewrite Hh; auto). cbn [pts lost]. pose proof (Hb 0 j Hi Hj X). lia.
    + assert (0 < j). { destruct j; [|lia]. pose proof (Hfirst 0 Hi) as F. replace (first 0) with 0 in F by lia. congruence. }
      rewrite (T_gap (hit := hit') 0 j), (T_gap (hit := hit) 0 j); auto; try (rewrite Hh; auto).
      cbn [pts]. apply gap_lossy; auto; [apply lost_nonneg|apply IHj; lia].
  - pose proof (Hinc i Hi) as Hp. pose proof (HE (S i) j) as He. pose proof (lost_nonneg (S i)) as HL.
    destruct (Nat.lt_ge_cases j (first (S i))) as [H|H]; [rewrite !T_before by auto; cbn [pts]; lia|].
    pose proof (gap_lossy (S i) j (lost (S i)) Hi H ltac:(lia) Hj HL (IHj (j - 1) ltac:(lia) Hi ltac:(lia))) as G.
    destruct (hit (S i) j) eqn:X.
    + pose proof (IHi (j - 1) ltac:(lia) ltac:(lia)) as U. pose proof (HE i (j - 1)) as Eu.
      rewrite (T_hit (hit := hit') i j), (T_hit (hit := hit) i j); auto; try lia; [|rewrite Hh; auto].
      cbv zeta. unfold pts_of, run_of in *.
      change (saturating_sub ?a ?b) with (at_least_min (a - b)) in *.
      set (l := at_least_min (pts (T (S i) (j - 1)) - step_cost hit first stop (S i) j)) in *. clearbody l.
      set (l' := at_least_min (pts (T' (S i) (j - 1)) - step_cost hit' first stop' (S i) j)) in *. clearbody l'.
      assert (B : (bonus j <= bonus' j)%Z) by (eapply Hb; eauto).
      pose proof (Hr j) as R1. pose proof (Hr' j) as R2.
      assert (K : forall d0 d0' (r0 r0' : nat), (d0 <= d0' + lost (S i))%Z ->
        (pts (if (d0 <? l)%Z then Cell l 0 else Cell d0 r0) <= pts (if (d0' <? l')%Z then Cell l' 0 else Cell d0' r0') + lost (S i) + E (S i) j)%Z).
      { intros d0 d0' r0 r0' Hd. destruct (Z.ltb_spec d0 l), (Z.ltb_spec d0' l'); cbn [pts]; lia. }
      clear G. cbn [lost] in K |- *.
      destruct i as [|i].
      * rewrite (first_row_same (j - 1)) by lia. destruct (first_row_run (j - 1)) as [->|(-> & X0)]; try lia.
        -- cbn [Nat.eqb]. apply K. cbn [lost] in U |- *. lia.
        -- cbn [Nat.eqb]. replace (S j - 2) with (j - 1) by lia. pose proof (Hb 0 (j - 1) ltac:(lia) ltac:(lia) X0) as B0.
           destruct (Z.leb_spec 8 (bonus j)), (Z.ltb_spec (bonus (j - 1)) (bonus j)),
             (Z.leb_spec 8 (bonus' j)), (Z.ltb_spec (bonus' (j - 1)) (bonus' j)); cbn [andb]; apply K; cbn [lost] in U |- *; lia.
      * set (r := S (run (T (S i) (j - 1)))) in *. set (r' := S (run (T' (S i) (j - 1)))) in *. clearbody r r'.
        pose proof (Hr (S j - r)) as R3. pose proof (Hr' (S j - r')) as R4.
        destruct (r =? 1), (r' =? 1); try destruct ((8 <=? bonus j) && (bonus (S j - r) <? bonus j))%Z;
          try destruct ((8 <=? bonus' j) && (bonus' (S j - r') <? bonus' j))%Z; apply K; cbn [lost] in U |- *; lia.
    + rewrite (T_gap (hit := hit') (S i) j), (T_gap (hit := hit) (S i) j); auto; try lia; try (rewrite Hh; auto; fail).
Qed.

End Lossy.

(** ** Columns behind a table *)
Section Behind.
Variables (hit : nat -> nat -> bool) (stop : nat).

(** 2 in the columns which no hit follows *)
Definition behind (i j : nat) : Z := if existsb (hit i) (seq j (S stop - j)) then 0%Z else 2%Z.

Lemma behind_range i j : (0 <= behind i j <= 2)%Z.
Proof. unfold behind. destruct (existsb _ _); lia. Qed.

Lemma behind_hit i j k : j <= k <= stop -> hit i k = true -> behind i j = 0%Z.
Proof.
  intros Hk X. unfold behind. assert (E : existsb (hit i) (seq j (S stop - j)) = true); [|rewrite E; reflexivity].
  apply existsb_exists. exists k. split; [apply in_seq; lia|exact X].
Qed.

Lemma behind_none i j : (forall k, j <= k <= stop -> hit i k = false) -> behind i j = 2%Z.
Proof.
  intros H. unfold behind. destruct (existsb _ _) eqn:X; [|reflexivity]. apply existsb_exists in X as (k & Hk & X).
  apply in_seq in Hk. rewrite H in X by lia. discriminate.
Qed.

Lemma behind_mono i j : 0 < j -> (behind i (j - 1) <= behind i j)%Z.
Proof.
  intros H0. pose proof (behind_range i (j - 1)). unfold behind at 2. destruct (existsb _ _) eqn:X; [|lia].
  apply existsb_exists in X as (k & Hk & X). apply in_seq in Hk. rewrite (behind_hit i (j - 1) k) by (auto; lia). lia.
Qed.

Variables (hit' : nat -> nat -> bool) (first : nat -> nat) (stop' h : nat).
Hypothesis Hs : stop <= stop'.
Hypothesis Hh : forall i j, i < h -> j <= stop -> hit' i j = hit i j.
Hypothesis Hfirst : forall i, i < h -> hit i (first i) = true.

Lemma behind_step i j : i < h -> first i <= j -> 0 < j -> j <= stop ->
  (step_cost hit' first stop' i j <= step_cost hit first stop i j + behind i j - behind i (j - 1))%Z.
Proof.
  intros Hi Hf H0 Hj. pose proof (behind_mono i j H0) as M. unfold step_cost. rewrite !(Hh i (j - 1)), !(Hh i (j - 2)), !(Hh i j) by lia.
  destruct ((first i <? j) && negb (hit i (j - 1))) eqn:C; [lia|].
  destruct (hit i j || later_hit hit stop i j) eqn:L.
  - assert (L' : hit i j || later_hit hit' stop' i j = true).
    { apply orb_true_iff in L. apply orb_true_iff. destruct L as [L|L]; [left; exact L|right]. unfold later_hit in *.
      apply existsb_exists in L as (k & Hk & L). apply in_seq in Hk. apply existsb_exists. exists k. split; [apply in_seq; lia|].
      rewrite Hh by lia. exact L. }
    rewrite L'. lia.
  - apply orb_false_iff in L as [L1 L2]. assert (N : behind i j = 2%Z).
    { apply behind_none. intros k Hk. destruct (Nat.eq_dec k j) as [->|]; [exact L1|]. apply not_true_is_false. intros X.
      unfold later_hit in L2. assert (Y : existsb (hit i) (seq (S j) (stop - j)) = true); [|congruence].
      apply existsb_exists. exists k. split; [apply in_seq; lia|exact X]. }
    assert (first i <> j) by (intros K; pose proof (Hfirst i Hi); congruence).
    assert (X : hit i (j - 1) = true).
    { apply andb_false_iff in C as [C|C]; [apply Nat.ltb_ge in C; lia|]. apply negb_false_iff in C. exact C. }
    rewrite (behind_hit i (j - 1) (j - 1)) by (auto; lia).
    repeat match goal with |- context [if ?b then _ else _] => destruct b end; lia.
Qed.
End Behind.

Lemma lost_two i : lost 2 i = Z.max 0 (12 * Z.of_nat i - 10).
Proof. induction i as [|i IH]; [reflexivity|]. cbn [lost]. rewrite IH. destruct i; lia. Qed.

Lemma lost_zero i : lost 0 i = Z.max 0 (10 * Z.of_nat i - 10).
Proof. induction i as [|i IH]; [reflexivity|]. cbn [lost]. rewrite IH. destruct i; lia. Qed.

Section WithUnicode.
Context {UC : unicode}.

Lemma v2_result_appended sens norm sch p c post sc ps : p <> [] ->
  v2_result sens norm sch p c = Some (sc, ps) ->
  exists sc' ps', v2_result sens norm sch p (c ++ post) = Some (sc', ps')
    /\ (sc <= sc' + Z.max 0 (12 * Z.of_nat (length p) - 22))%Z.
Proof.
  intros Hp E. pose proof E as E'. unfold v2_result in E'.
  destruct (greedy _ p c 0) as [fs|] eqn:G; [|discriminate]. destruct (last_col sens norm p c) as [stop|] eqn:L; [|discriminate]. clear E'.
  pose proof (greedy_more _ p _ post _ _ G) as G'.
  destruct (find_last_more _ _ post _ L) as (stop' & L' & Hs). change (last_col sens norm p (c ++ post) = Some stop') in L'.
  destruct (v2_result_cell _ _ _ _ _ _ _ Hp G L _ _ E) as (i & j & B & -> & ->).
  destruct (v2_result sens norm sch p (c ++ post)) as [[sc' ps']|] eqn:Er'.
  2: { unfold v2_result in Er'. rewrite G', L' in Er'. destruct (v2_best _ _ _ _ _ _ _); discriminate. }
  destruct (v2_result_cell _ _ _ _ _ _ _ Hp G' L' _ _ Er') as (i' & j' & B' & -> & ->).
  eexists _, _. split; [reflexivity|].
  assert (Hl : stop < length c).
  { unfold last_col in L. apply find_last_idx_some in L as (y & Hy & _). apply nth_error_Some. congruence. }
  assert (A1 : forall i j, i < length p -> j <= stop -> hit_of sens norm p (c ++ post) i j = hit_of sens norm p c i j).
  { intros i0 j0 Hi0 Hj0. unfold hit_of. rewrite (nth_error_app1 c) by lia. reflexivity. }
  assert (A3 : forall j, j <= stop -> bonus_of sch (c ++ post) j = bonus_of sch c j)
    by (intros; apply place_more; lia).
  assert (A4 : forall i, S i < length p -> firsts fs i < firsts fs (S i)) by (intros; eapply v2_inc; eauto).
  assert (A5 : forall i, i < length p -> hit_of sens norm p c i (firsts fs i) = true) by (intros; eapply v2_first; eauto).
  destruct B as ((Hi & Hj & Hc) & _). destruct B' as (_ & M & _).
  assert (T : (pts (table (hit_of sens norm p c) (bonus_of sch c) (firsts fs) stop i j)
               <= pts (table (hit_of sens norm p (c ++ post)) (bonus_of sch (c ++ post)) (firsts fs) stop' i j)
                  + lost 2 i + behind (hit_of sens norm p c) stop i j)%Z).
  { apply (table_lossy _ _ _ _ _ _ stop' (length p)); auto; try lia.
    - apply behind_range.
    - intros i0 j0 _ Hj0 X. eapply behind_hit; [|exact X]. lia.
    - intros k. apply v2_bonus.
    - intros k. apply v2_bonus.
    - intros i0 j0 _ Hj0 _. rewrite A3 by exact Hj0. lia.
    - intros i0 j0 Hi0 Hf H0 Hj0. apply (behind_step _ _ _ _ _ (length p)); auto. }
  assert (N : behind (hit_of sens norm p c) stop i j = 0%Z) by (eapply behind_hit; [|exact Hc]; lia).
  assert (C : (pts (table (hit_of sens norm p (c ++ post)) (bonus_of sch (c ++ post)) (firsts fs) stop' i j)
               <= pts (table (hit_of sens norm p (c ++ post)) (bonus_of sch (c ++ post)) (firsts fs) stop' i' j'))%Z).
  { apply M. split; [exact Hi|]. split; [lia|]. rewrite A1 by lia. exact Hc. }
  rewrite lost_two in T. lia.
Qed.

(** ** C69 *)
Lemma c69_loss : forall o m m' text q c post d m1,
  metric_reached AlgoV2 o m -> metric_reached AlgoV2 o m' -> fuzzy_query text q ->
  metric_distance m q c = Ok (Some d, m1) ->
  exists d' m1', metric_distance m' q (c ++ post) = Ok (Some d', m1')
    /\ (into_score d <= into_score d' + Z.max 0 (12 * Z.of_nat (length text) - 22))%Z.
Proof.
  intros o m m' text q c post d m1 Hm Hm' Hq E.
  pose proof (fuzzy_distance _ _ _ _ _ _ _ _ Hm Hq E) as Ed.
  destruct (fuzzy_result AlgoV2 o m' text q (c ++ post) [] Hm' Hq) as [(m1' & E1) _]. rewrite E1.
  symmetry in Ed. apply raw_some in Ed as [[-> ->]|(Ht & rs & Hf & _)].
  { eexists _, _. split; [reflexivity|]. cbn. lia. }
  destruct (v2_case _ _ _ _ _ Ht Hf) as (ps & _ & _ & Hr & _).
  destruct (v2_result_appended _ _ _ _ _ post _ _ Ht Hr) as (sc' & ps' & Er & Hle).
  assert (Eo : fst (raw_outcome AlgoV2 o text (c ++ post)) = Some sc').
  { unfold raw_outcome, fuzzy_outcome. rewrite Er. destruct text; [congruence|reflexivity]. }
  rewrite Eo. eexists _, _. split; [reflexivity|]. exact Hle.
Qed.

(** ** C94 *)
Lemma c94_loss : forall o m m' text q c c' d m1,
  metric_reached AlgoV2 o m -> metric_reached AlgoV2 o m' -> fuzzy_query text q -> length c = length c' ->
  (forall x j y y', In x text -> nth_error c j = Some y -> nth_error c' j = Some y' -> (agreement o text x y <-> agreement o text x y')) ->
  (forall x j y, In x text -> nth_error c j = Some y -> agreement o text x y ->
     (bonus_of (opt_scheme o) c j <= bonus_of (opt_scheme o) c' j)%Z) ->
  metric_distance m q c = Ok (Some d, m1) ->
  exists d' m1', metric_distance m' q c' = Ok (Some d', m1')
    /\ (into_score d <= into_score d' + Z.max 0 (10 * Z.of_nat (length text) - 20))%Z.
Proof.
  intros o m m' text q c c' d m1 Hm Hm' Hq HL HR Hb E.
  destruct (fuzzy_result AlgoV2 o m' text q c' [] Hm' Hq) as [(m1' & E1) (m2' & E2')].
  destruct text as [|x0 text'].
  { rewrite E1. pose proof (fuzzy_distance _ _ _ _ _ _ _ _ Hm Hq E) as Ed. cbn in *. injection Ed as ->. eexists _, _. split; [reflexivity|]. cbn. lia. }
  set (text := x0 :: text') in *. assert (Ht : text <> []) by discriminate.
  assert (F : fuzzy_in (agreement o text) text c) by (apply (fuzzy_iff AlgoV2 o m text q c (Some d) m1 Hm Hq E); eauto).
  assert (F' : fuzzy_in (agreement o text) text c').
  { destruct F as (js & A). exists js. apply (alignment_two _ text c c' HL HR); auto. }
  apply (fuzzy_iff AlgoV2 o m' text q c' _ m1' Hm' Hq E1) in F' as [d' Ed']. rewrite Ed' in E1, E2'.
  exists d', m1'. split; [exact E1|].
  destruct (fuzzy_result _ _ _ _ _ c [] Hm Hq) as [(m0 & E0) (m0' & E0')].
  assert (Ed : Some d = option_map from_score (fst (raw_outcome AlgoV2 o text c))) by congruence. rewrite <- Ed in E0'.
  destruct (table_exists o text c Ht F) as (hit & fs & stop & y & Hhit & Hfs & Hy & Ay & Hno).
  destruct (c43_v2_recurrence _ _ _ _ _ _ _ _ _ hit fs stop y Hm Hq Ht E0' Hhit Hfs Hy Ay Hno) as (i & j & new & B & -> & _).
  assert (D : forall j, nth_error c j = None <-> nth_error c' j = None) by (intros k; rewrite !nth_error_None; lia).
  assert (Hhit' : forall i j, hit i j = true <-> exists x z, nth_error text i = Some x /\ nth_error c' j = Some z /\ agreement o text x z).
  { intros i0 j0. rewrite Hhit. split; intros (x & z & Hx & Hz & A).
    - destruct (nth_error c' j0) as [z'|] eqn:Z'; [|apply D in Z'; congruence]. exists x, z'. split; [exact Hx|]. split; [reflexivity|].
      apply (HR x j0 z z' (nth_error_In _ _ Hx) Hz Z'), A.
    - destruct (nth_error c j0) as [z'|] eqn:Z'; [|apply D in Z'; congruence]. exists x, z'. split; [exact Hx|]. split; [reflexivity|].
      apply (HR x j0 z' z (nth_error_In _ _ Hx) Z' Hz), A. }
  assert (Hfs' : leftmost (agreement o text) text c' fs).
  { destruct Hfs as [A Le]. split; [apply (alignment_two _ text c c' HL HR); auto|].
    intros qs Q. apply Le. apply (alignment_two _ text c c' HL HR); auto. }
  assert (Hlast : In (last text 0%N) text) by (destruct (exists_last Ht) as (u & x & ->); rewrite last_last; apply in_elt).
  destruct (nth_error c' stop) as [y'|] eqn:Hy'; [|apply D in Hy'; congruence].
  assert (Ay' : agreement o text (last text 0%N) y') by (apply (HR _ _ _ _ Hlast Hy Hy'), Ay).
  assert (Hno' : forall k z, stop < k -> nth_error c' k = Some z -> ~ agreement o text (last text 0%N) z).
  { intros k z Hk Hz A. destruct (nth_error c k) as [z0|] eqn:Z0; [|apply D in Z0; congruence].
    apply (Hno k z0 Hk Z0). apply (HR _ _ _ _ Hlast Z0 Hz), A. }
  destruct (c43_v2_recurrence _ _ _ _ _ _ _ _ _ hit fs stop y' Hm' Hq Ht E2' Hhit' Hfs' Hy' Ay' Hno') as (i' & j' & new' & B' & -> & _).
  destruct B as ((Hi & Hj & Hc) & _). destruct B' as (_ & M & _).
  set (first := fun i => nth i fs 0) in *.
  assert (Hal : alignment (agreement o text) text c fs) by apply Hfs.
  assert (T : (pts (table hit (bonus_of (opt_scheme o) c) first stop i j)
               <= pts (table hit (bonus_of (opt_scheme o) c') first stop i j) + lost 0 i + 0)%Z).
  { apply (table_lossy _ _ _ _ _ _ _ (length text) 0%Z (fun _ _ => 0%Z)); auto; try lia.
    - intros k. apply v2_bonus.
    - intros k. apply v2_bonus.
    - intros i0 j0 _ _ X. apply Hhit in X as (x & z & Hx & Hz & A). exact (Hb x j0 z (nth_error_In _ _ Hx) Hz A).
    - intros i0 Hi0. unfold first. destruct Hal as [So Fa].
      assert (Le : length text = length fs) by (clear -Fa; induction Fa; cbn; congruence).
      pose proof (sorted_nth_add fs So 1 i0 ltac:(lia)) as X. replace (i0 + 1) with (S i0) in X by lia. lia.
    - intros i0 Hi0. apply Hhit. unfold first.
      destruct (alignment_nth _ _ _ _ i0 Hal Hi0) as (x & z & Hx & Hz & A). eauto. }
  pose proof (M i j (conj Hi (conj Hj Hc))) as C. rewrite lost_zero in T.
  repeat change (into_score (from_score ?x)) with x. lia.
Qed.

Lemma c94_two : forall o m m' text q c c' d m1,
  metric_reached AlgoV2 o m -> metric_reached AlgoV2 o m' -> fuzzy_query text q -> length c = length c' ->
  (forall x j y y', In x text -> nth_error c j = Some y -> nth_error c' j = Some y' -> (agreement o text x y <-> agreement o text x y')) ->
  (forall x j y, In x text -> nth_error c j = Some y -> agreement o text x y ->
     (bonus_of (opt_scheme o) c j <= bonus_of (opt_scheme o) c' j)%Z) ->
  length text <= 2 ->
  metric_distance m q c = Ok (Some d, m1) ->
  exists d' m1', metric_distance m' q c' = Ok (Some d', m1') /\ distance_cmp d' d <> Gt.
Proof.
  intros o m m' text q c c' d m1 Hm Hm' Hq HL HR Hb H2 E.
  destruct (c94_loss o m m' text q c c' d m1 Hm Hm' Hq HL HR Hb E) as (d' & m1' & E' & H). exists d', m1'. split; [exact E'|].
  apply cmp_score. lia.
Qed.
End WithUnicode.
