(** Proofs about what a search gains at most when a match is pulled apart (C95), and over a candidate equal to the query (C83). *)
From Coq Require Import Sorted.
From Verif Require Import Prelude Chars Normalize Utils Candidate MatchedRanges Query Parser Scoring
  Slab Fzf FzfV1 FzfV2 Api History
  Spec PreludeProofs CharsProofs NormalizeProofs CandidateProofs MatchedRangesProofs ParserProofs
  ScoreProofs ExactProofs ShapeProofs V1Proofs V2Tables V2Proofs V2Rows V2Fuzzy V2Facts ApiProofs AcceptProofs
  RangeProofs WordsProofs CongProofs FuzzyFacts Claims1 Claims2 Claims5 Claims6 Claims7 ExactChoice Claims8 Claims11 Claims12
  Claims13 Claims16 Claims21 Claims27 Claims28 Claims48.
Local Open Scope nat_scope.

Lemma sat_le x c : (- 2 ^ 63 <= x -> 0 <= c -> at_least_min (x - c) <= x)%Z.
Proof. unfold at_least_min. generalize (- 2 ^ 63)%Z. intros. lia. Qed.

Lemma sat_min x : (- 2 ^ 63 <= at_least_min x)%Z.
Proof. unfold at_least_min. lia. Qed.

Lemma step_cost_range hit first stop i j : (1 <= step_cost hit first stop i j <= 3)%Z.
Proof. unfold step_cost. repeat match goal with |- context [if ?b then _ else _] => destruct b end; lia. Qed.

Lemma lost2_nonneg i : (0 <= lost 2 i)%Z.
Proof. rewrite lost_two. lia. Qed.

Section Apart.
Variables (hit hit' : nat -> nat -> bool) (bonus bonus' : nat -> Z) (first : nat -> nat) (stop h k n : nat).
Let f := moved k n.
Let first' i := f (first i).
Let stop' := f stop.
Hypothesis Hn : 0 < n.
Hypothesis Hh : forall i j, i < h -> hit' i (f j) = hit i j.
Hypothesis Hw : forall i j, i < h -> k <= j < k + n -> hit' i j = false.
Hypothesis Hr : forall j, (0 <= bonus j <= 10)%Z.
Hypothesis Hr' : forall j, (0 <= bonus' j <= 10)%Z.
Hypothesis Hb : forall j, (bonus' (f j) <= bonus j)%Z.
Hypothesis Hinc : forall i, S i < h -> first i < first (S i).
Hypothesis Hfirst : forall i, i < h -> hit i (first i) = true.
Notation T := (table hit bonus first stop).
Notation T' := (table hit' bonus' first' stop').
Notation cost := (step_cost hit first stop).
Notation cost' := (step_cost hit' first' stop').
Notation E := (behind hit stop).

Lemma f_lt i j : f i < f j <-> i < j.
Proof. unfold f, moved. destruct (Nat.ltb_spec i k), (Nat.ltb_spec j k); lia. Qed.

Lemma f_ltb i j : (f i <? f j) = (i <? j).
Proof. apply eq_true_iff_eq. rewrite !Nat.ltb_lt. apply f_lt. Qed.

Lemma f_pred j : 0 < j -> j <> k -> f j - 1 = f (j - 1).
Proof. unfold f, moved. intros. destruct (Nat.ltb_spec j k), (Nat.ltb_spec (j - 1) k); lia. Qed.

Lemma f_low j : j < k -> f j = j.
Proof. unfold f, moved. intros. destruct (Nat.ltb_spec j k); lia. Qed.

Lemma f_at : f k = k + n.
Proof. unfold f, moved. rewrite Nat.ltb_irrefl. reflexivity. Qed.

Lemma hit_onto i j : i < h -> hit' i j = true -> exists x, f x = j.
Proof.
  intros Hi X. destruct (Nat.lt_ge_cases j k) as [L|L]; [exists j; apply f_low; exact L|].
  destruct (Nat.lt_ge_cases j (k + n)) as [L'|L']; [rewrite Hw in X by lia; discriminate|].
  exists (j - n). unfold f, moved. destruct (Nat.ltb_spec (j - n) k); lia.
Qed.

Lemma later_moved i j : i < h -> later_hit hit' stop' i (f j) = later_hit hit stop i j.
Proof.
  intros Hi. unfold later_hit. apply eq_true_iff_eq. rewrite !existsb_exists. split; intros (x & Hx & X); apply in_seq in Hx.
  - destruct (hit_onto i x Hi X) as [y <-]. exists y. rewrite Hh in X by exact Hi. split; [|exact X]. apply in_seq.
    assert (f j < f y) by lia. assert (~ stop < y) by (rewrite <- f_lt; unfold stop' in *; lia). rewrite f_lt in H. lia.
  - exists (f x). rewrite Hh by exact Hi. split; [|exact X]. apply in_seq.
    assert (f j < f x) by (apply f_lt; lia). assert (~ f stop < f x) by (rewrite f_lt; lia). unfold stop' in *. lia.
Qed.

Lemma later_at i : i < h -> k <= stop -> later_hit hit' stop' i k = hit i k || later_hit hit stop i k.
Proof.
  intros Hi Hk. unfold later_hit. apply eq_true_iff_eq. rewrite orb_true_iff, !existsb_exists. split.
  - intros (x & Hx & X). apply in_seq in Hx. destruct (hit_onto i x Hi X) as [y <-]. rewrite Hh in X by exact Hi.
    assert (Y : k <= y). { destruct (Nat.lt_ge_cases y k) as [L|L]; [rewrite f_low in Hx by exact L; lia|exact L]. }
    assert (~ stop < y) by (rewrite <- f_lt; unfold stop' in *; lia).
    destruct (Nat.eq_dec y k) as [->|]; [left; exact X|right]. exists y. split; [apply in_seq; lia|exact X].
  - assert (G : forall y, k <= y <= stop -> hit i y = true -> exists x, In x (seq (S k) (stop' - k)) /\ hit' i x = true).
    { intros y Hy X. exists (f y). rewrite Hh by exact Hi. split; [|exact X]. apply in_seq.
      assert (~ f stop < f y) by (rewrite f_lt; lia). assert (~ f y < f k) by (rewrite f_lt; lia). rewrite f_at in *. unfold stop' in *. lia. }
    intros [X|(x & Hx & X)]; [apply (G k); [lia|exact X]|]. apply in_seq in Hx. apply (G x); [lia|exact X].
Qed.

(** The price of a step *)
Lemma exception i j c : i < h -> first i <= j -> 0 < j -> j <= stop -> (c <= 3)%Z ->
  (first i <? j) && negb (hit i (j - 1)) = false -> hit i j || later_hit hit stop i j = false ->
  (c <= 1 + E i j - E i (j - 1))%Z.
Proof.
  intros Hi Hf H0 Hj Hc C L. apply orb_false_iff in L as [L1 L2]. assert (N : E i j = 2%Z).
  { apply behind_none. intros x Hx. destruct (Nat.eq_dec x j) as [->|]; [exact L1|]. apply not_true_is_false. intros X.
    unfold later_hit in L2. assert (Y : existsb (hit i) (seq (S j) (stop - j)) = true); [|congruence].
    apply existsb_exists. exists x. split; [apply in_seq; lia|exact X]. }
  assert (first i <> j) by (intros K; pose proof (Hfirst i Hi); congruence).
  assert (X : hit i (j - 1) = true).
  { apply andb_false_iff in C as [C|C]; [apply Nat.ltb_ge in C; lia|]. apply negb_false_iff in C. exact C. }
  rewrite (behind_hit hit stop i (j - 1) (j - 1)) by (auto; lia). lia.
Qed.

Lemma cost_moved i j : i < h -> first i <= j -> 0 < j -> j <= stop -> j <> k ->
  (cost i j <= cost' i (f j) + E i j - E i (j - 1))%Z.
Proof.
  intros Hi Hf H0 Hj Nk. pose proof (behind_mono hit stop i j H0) as M.
  pose proof (step_cost_range hit first stop i j) as R. pose proof (step_cost_range hit' first' stop' i (f j)) as R'.
  destruct ((first i <? j) && negb (hit i (j - 1))) eqn:C.
  - assert (cost i j = 1%Z) by (unfold step_cost; rewrite C; reflexivity). lia.
  - destruct (hit i j || later_hit hit stop i j) eqn:L.
    + assert (cost' i (f j) = 3%Z); [|lia]. unfold step_cost. unfold first'.
      rewrite f_ltb, f_pred, !Hh, later_moved, C, L by assumption. reflexivity.
    + pose proof (exception i j (cost i j) Hi Hf H0 Hj ltac:(lia) C L). lia.
Qed.

Lemma cost_at i : i < h -> first i < k -> k <= stop -> (cost i k <= cost' i k + E i k - E i (k - 1))%Z.
Proof.
  intros Hi Hf Hk. pose proof (behind_mono hit stop i k ltac:(lia)) as M.
  pose proof (step_cost_range hit first stop i k) as R. pose proof (step_cost_range hit' first' stop' i k) as R'.
  destruct ((first i <? k) && negb (hit i (k - 1))) eqn:C.
  - assert (cost i k = 1%Z) by (unfold step_cost; rewrite C; reflexivity). lia.
  - destruct (hit i k || later_hit hit stop i k) eqn:L.
    + assert (cost' i k = 3%Z); [|lia]. unfold step_cost. unfold first'. rewrite f_low by exact Hf.
      assert (X : hit' i (k - 1) = hit i (k - 1)) by (rewrite <- (Hh i (k - 1) Hi), f_low by lia; reflexivity).
      rewrite X, C, later_at, L, orb_true_r by assumption. reflexivity.
    + pose proof (exception i k (cost i k) Hi ltac:(lia) ltac:(lia) Hk ltac:(lia) C L). lia.
Qed.

(** ** Cells *)
Lemma cell_min : forall i j, (- 2 ^ 63 <= pts (T' i j))%Z.
Proof.
  assert (Z63 : (- 2 ^ 63 <= 0)%Z) by lia.
  induction i as [|i IHi]; intros j.
  - destruct (Nat.lt_ge_cases j (first' 0)) as [H|H]; [rewrite T_before by exact H; exact Z63|].
    destruct (hit' 0 j) eqn:X; [rewrite T_hit0 by auto; cbn [pts]; pose proof (Hr' j); lia|].
    destruct j as [|j]; [cbn [table]; unfold first_row; rewrite X; destruct (0 <? first' 0); exact Z63|].
    rewrite T_gap by (auto; lia). apply sat_min.
  - destruct j as [|j]; [exact Z63|].
    destruct (Nat.lt_ge_cases (S j) (first' (S i))) as [H|H]; [rewrite T_before by exact H; exact Z63|].
    destruct (hit' (S i) (S j)) eqn:X; [|rewrite T_gap by (auto; lia); apply sat_min].
    rewrite T_hit by (auto; lia). cbv zeta. unfold pts_of. specialize (IHi (S j - 1)).
    match goal with |- context [saturating_sub ?a ?b] => pose proof (sat_min (a - b)) as M; change (at_least_min (a - b)) with (saturating_sub a b) in M; set (l := saturating_sub a b) in * end.
    clearbody l. pose proof (Hr' (S j)) as R1. pose proof (Hr' (S (S j) - S (run_of T' i (S j - 1)))) as R2. unfold run_of in *.
    repeat match goal with |- context [let (_, _) := (if ?b then _ else _) in _] => destruct b end;
      match goal with |- context [if ?b then _ else _] => destruct b end; cbn [pts]; lia.
Qed.

(** Within the inserted columns *)
Lemma inserted i t : i < h -> first i < k -> t < n ->
  (pts (T' i (k + t)) <= at_least_min (pts (T' i (k - 1)) - cost' i k))%Z /\ run (T' i (k + t)) = 0.
Proof.
  intros Hi Hf. induction t as [|t IH]; intros Ht.
  - rewrite Nat.add_0_r. rewrite T_gap; [cbn [pts run]; split; [apply Z.le_refl|reflexivity]|lia| |apply Hw; lia].
    unfold first'. rewrite f_low; lia.
  - destruct (IH ltac:(lia)) as [IH1 _]. rewrite T_gap; [cbn [pts run]|lia| |apply Hw; lia].
    + split; [|reflexivity]. eapply Z.le_trans; [|exact IH1]. unfold pts_of. replace (k + S t - 1) with (k + t) by lia.
      apply sat_le; [apply cell_min|]. pose proof (step_cost_range hit' first' stop' i (k + S t)). lia.
    + unfold first'. rewrite f_low; lia.
Qed.

Lemma inserted_before i t : k <= first i -> t < n -> T' i (k + t) = Cell 0 0.
Proof.
  intros Hf Ht. apply T_before. unfold first'. assert (~ f (first i) < f k) by (rewrite f_lt; lia). rewrite f_at in *. lia.
Qed.

(** The cell to the left of column [f j] *)
Lemma left_cell i j e : i < h -> 0 < j -> j <= stop -> (0 <= e)%Z ->
  (pts (T' i (f (j - 1))) <= pts (T i (j - 1)) + e + E i (j - 1))%Z ->
  (pts (T' i (f j - 1)) <= pts (T i (j - 1)) + e + E i (j - 1))%Z
  /\ (first i <= j -> (at_least_min (pts (T' i (f j - 1)%nat) - cost' i (f j))
      <= at_least_min (pts (T i (j - 1)%nat) - cost i j) + e + E i j)%Z).
Proof.
  intros Hi H0 Hj He H. pose proof (behind_range hit stop i j) as B. pose proof (behind_range hit stop i (j - 1)) as B'.
  destruct (Nat.eq_dec j k) as [->|N].
  - replace (f k - 1) with (k + (n - 1)) by (rewrite f_at; lia). rewrite f_low in H by lia.
    destruct (Nat.lt_ge_cases (first i) k) as [L|L].
    + destruct (inserted i (n - 1) Hi L ltac:(lia)) as [I _]. pose proof (cell_min i (k - 1)) as M1. pose proof (cell_min i (k + (n - 1))) as M2.
      pose proof (step_cost_range hit' first' stop' i k) as R1. pose proof (step_cost_range hit' first' stop' i (f k)) as R2. split.
      * eapply Z.le_trans; [exact I|]. eapply Z.le_trans; [apply sat_le; [exact M1|lia]|exact H].
      * intros _. eapply Z.le_trans; [apply sat_le; [exact M2|lia]|]. eapply Z.le_trans; [exact I|].
        rewrite <- Z.add_assoc. apply sat_lossy; [lia|]. pose proof (cost_at i Hi L Hj). lia.
    + rewrite (inserted_before i (n - 1) L ltac:(lia)), (T_before (hit := hit) i (k - 1)) by lia. cbn [pts]. split; [lia|].
      intros L'. assert (X : first i = k) by lia. rewrite <- Z.add_assoc. apply sat_lossy; [lia|].
      assert (C : cost i k = 3%Z).
      { unfold step_cost. rewrite X, Nat.ltb_irrefl. cbn [andb]. rewrite <- X at 1. rewrite (Hfirst i Hi). reflexivity. }
      assert (C' : cost' i (f k) = 3%Z).
      { unfold step_cost. unfold first'. rewrite X, Nat.ltb_irrefl. cbn [andb]. rewrite Hh by exact Hi. rewrite <- X. rewrite (Hfirst i Hi). reflexivity. }
      lia.
  - rewrite f_pred by assumption. split; [exact H|]. intros Hf. pose proof (cost_moved i j Hi Hf H0 Hj N). rewrite <- Z.add_assoc. apply sat_lossy; lia.
Qed.

Lemma first_row_runs j : 0 < h -> j <= stop -> run (T' 0 (f j)) = run (T 0 j).
Proof.
  intros H0 Hj. assert (F : f j < first' 0 <-> j < first 0) by (unfold first'; apply f_lt).
  destruct (Nat.lt_ge_cases j (first 0)) as [H|H]; [rewrite !T_before; auto; apply F; exact H|].
  assert (H' : first' 0 <= f j) by lia.
  destruct (hit 0 j) eqn:X; [rewrite !T_hit0; auto; rewrite Hh; auto|].
  assert (0 < j). { destruct j; [|lia]. pose proof (Hfirst 0 H0) as G. replace (first 0) with 0 in G by lia. congruence. }
  assert (0 < f j) by (unfold f, moved; destruct (j <? k); lia).
  rewrite (T_gap (hit := hit') 0 (f j)), (T_gap (hit := hit) 0 j); auto. rewrite Hh; auto.
Qed.

Lemma first_row_run_one j : 0 < h -> j <= stop -> run (T 0 j) = 0 \/ (run (T 0 j) = 1 /\ hit 0 j = true).
Proof.
  intros H0 Hj. destruct (Nat.lt_ge_cases j (first 0)) as [H|H]; [rewrite !T_before; auto|].
  destruct (hit 0 j) eqn:X; [rewrite !T_hit0; auto|].
  assert (0 < j). { destruct j; [|lia]. pose proof (Hfirst 0 H0) as G. replace (first 0) with 0 in G by lia. congruence. }
  rewrite (T_gap (hit := hit) 0 j); auto; lia.
Qed.

Lemma table_apart : forall i j, i < h -> j <= stop -> (pts (T' i (f j)) <= pts (T i j) + lost 2 i + E i j)%Z.
Proof.
  induction i as [|i IHi]; induction j as [j IHj] using lt_wf_ind; intros Hi Hj.
  - pose proof (behind_range hit stop 0 j) as He. assert (F : f j < first' 0 <-> j < first 0) by (unfold first'; apply f_lt).
    destruct (Nat.lt_ge_cases j (first 0)) as [H|H]; [rewrite T_before by (apply F; exact H); rewrite T_before by exact H; cbn [pts lost]; lia|].
    assert (H' : first' 0 <= f j) by lia.
    destruct (hit 0 j) eqn:X.
    + rewrite !T_hit0 by (auto; rewrite Hh; auto). cbn [pts lost]. pose proof (Hb j). lia.
    + assert (H0 : 0 < j). { destruct j; [|lia]. pose proof (Hfirst 0 Hi) as G. replace (first 0) with 0 in G by lia. congruence. }
      assert (H1 : 0 < f j) by (unfold f, moved; destruct (j <? k); lia).
      destruct (left_cell 0 j (lost 2 0) Hi H0 Hj ltac:(cbn; lia) (IHj (j - 1) ltac:(lia) Hi ltac:(lia))) as [_ G].
      rewrite (T_gap (hit := hit') 0 (f j)), (T_gap (hit := hit) 0 j) by (auto; rewrite Hh; auto).
      exact (G H).
  - pose proof (Hinc i Hi) as Hp. pose proof (behind_range hit stop (S i) j) as He. pose proof (lost2_nonneg (S i)) as HL.
    assert (F : f j < first' (S i) <-> j < first (S i)) by (unfold first'; apply f_lt).
    destruct (Nat.lt_ge_cases j (first (S i))) as [H|H]; [rewrite T_before by (apply F; exact H); rewrite T_before by exact H; cbn [pts]; lia|].
    assert (H' : first' (S i) <= f j) by lia. assert (H0 : 0 < j) by lia.
    assert (H1 : 0 < f j) by (unfold f, moved; destruct (j <? k); lia).
    destruct (left_cell (S i) j (lost 2 (S i)) Hi H0 Hj HL (IHj (j - 1) ltac:(lia) Hi ltac:(lia))) as [_ G]. specialize (G H).
    destruct (left_cell i j (lost 2 i) ltac:(lia) H0 Hj (lost2_nonneg i) (IHi (j - 1) ltac:(lia) ltac:(lia))) as [U _].
    pose proof (behind_range hit stop i (j - 1)) as Eu.
    destruct (hit (S i) j) eqn:X.
    + rewrite (T_hit (hit := hit') i (f j)), (T_hit (hit := hit) i j) by (auto; rewrite Hh; auto).
      cbv zeta. unfold pts_of, run_of in *.
      change (saturating_sub ?a ?b) with (at_least_min (a - b)) in *.
      set (l := at_least_min (pts (T (S i) (j - 1)) - cost (S i) j)) in *. clearbody l.
      set (l' := at_least_min (pts (T' (S i) (f j - 1)) - cost' (S i) (f j))) in *. clearbody l'.
      pose proof (Hb j) as B. pose proof (Hr j) as R1. pose proof (Hr' (f j)) as R2.
      assert (K : forall d0 d0' (r0 r0' : nat), (d0' <= d0 + lost 2 (S i))%Z ->
        (pts (if (d0' <? l')%Z then Cell l' 0 else Cell d0' r0') <= pts (if (d0 <? l)%Z then Cell l 0 else Cell d0 r0) + lost 2 (S i) + E (S i) j)%Z).
      { intros d0 d0' r0 r0' Hd. destruct (Z.ltb_spec d0 l), (Z.ltb_spec d0' l'); cbn [pts]; lia. }
      clear G. cbn [lost] in K |- *.
      destruct i as [|i].
      * destruct (Nat.eq_dec j k) as [->|N].
        -- assert (Z0 : run (T' 0 (f k - 1)) = 0).
           { replace (f k - 1) with (k + (n - 1)) by (rewrite f_at; lia). destruct (Nat.lt_ge_cases (first 0) k) as [L|L].
             - apply (inserted 0 (n - 1)); lia.
             - rewrite inserted_before by lia. reflexivity. }
           rewrite Z0. cbn [Nat.eqb].
           repeat match goal with |- context [let (_, _) := (if ?b then _ else _) in _] => destruct b end; apply K; cbn [lost] in U |- *; lia.
        -- rewrite (f_pred j H0 N) in *. rewrite (first_row_runs (j - 1)) by lia.
           destruct (first_row_run_one (j - 1)) as [->|(-> & X0)]; try lia.
           ++ cbn [Nat.eqb]. apply K. cbn [lost] in U |- *. lia.
           ++ cbn [Nat.eqb]. replace (S j - 2) with (j - 1) by lia. replace (S (f j) - 2) with (f (j - 1)) by (rewrite <- f_pred by assumption; lia).
              pose proof (Hb (j - 1)) as B0.
              destruct (Z.leb_spec 8 (bonus j)), (Z.ltb_spec (bonus (j - 1)) (bonus j)),
                (Z.leb_spec 8 (bonus' (f j))), (Z.ltb_spec (bonus' (f (j - 1))) (bonus' (f j))); cbn [andb]; apply K; cbn [lost] in U |- *; lia.
      * set (r := S (run (T (S i) (j - 1)))) in *. set (r' := S (run (T' (S i) (f j - 1)))) in *. clearbody r r'.
        pose proof (Hr (S j - r)) as R3. pose proof (Hr' (S (f j) - r')) as R4.
        destruct (r =? 1), (r' =? 1); try destruct ((8 <=? bonus j) && (bonus (S j - r) <? bonus j))%Z;
          try destruct ((8 <=? bonus' (f j)) && (bonus' (S (f j) - r') <? bonus' (f j)))%Z; apply K; cbn [lost] in U |- *; lia.
    + rewrite (T_gap (hit := hit') (S i) (f j)), (T_gap (hit := hit) (S i) j) by (auto; rewrite Hh; auto). exact G.
Qed.
End Apart.

Section WithUnicode.
Context {UC : unicode}.

(** ** C95 *)
Lemma c95_gain : forall o m m' text q u w v d m1,
  metric_reached AlgoV2 o m -> metric_reached AlgoV2 o m' -> fuzzy_query text q ->
  (forall x y, In x text -> In y w -> ~ agreement o text x y) ->
  (bonus_of (opt_scheme o) (u ++ w ++ v) (length u + length w) <= bonus_of (opt_scheme o) (u ++ v) (length u))%Z ->
  metric_distance m q (u ++ v) = Ok (Some d, m1) ->
  exists d' m1', metric_distance m' q (u ++ w ++ v) = Ok (Some d', m1')
    /\ (into_score d' <= into_score d + Z.max 0 (12 * Z.of_nat (length text) - 22))%Z.
Proof.
  intros o m m' text q u w v d m1 Hm Hm' Hq Hw Hk E.
  destruct (fuzzy_result AlgoV2 o m' text q (u ++ w ++ v) [] Hm' Hq) as [(m1' & E1) (m2' & E2')].
  pose proof (fuzzy_distance _ _ _ _ _ _ _ _ Hm Hq E) as Ed.
  destruct text as [|x0 text'].
  { rewrite E1. cbn in Ed |- *. injection Ed as ->. eexists _, _. split; [reflexivity|]. cbn. lia. }
  set (text := x0 :: text') in *. assert (Ht : text <> []) by discriminate.
  destruct (Nat.eq_dec (length w) 0) as [W0|W0].
  { apply length_zero_iff_nil in W0. subst w. cbn [app] in *. rewrite <- Ed in E1. exists d, m1'. split; [exact E1|]. lia. }
  set (c := u ++ v) in *. set (c' := u ++ w ++ v) in *. set (f := moved (length u) (length w)).
  assert (F : fuzzy_in (agreement o text) text c) by (apply (fuzzy_iff AlgoV2 o m text q c (Some d) m1 Hm Hq E); eauto).
  assert (F' : fuzzy_in (agreement o text) text c').
  { destruct F as (js & A). eexists. apply (alignment_moved _ _ u w v), A. }
  destruct (table_exists o text c Ht F) as (hit & fs & stop & y & Hhit & Hfs & Hy & Ay & Hno).
  destruct (table_exists o text c' Ht F') as (hit' & _ & _ & _ & Hhit' & _).
  apply (fuzzy_iff AlgoV2 o m' text q c' _ m1' Hm' Hq E1) in F' as [d' Ed']. rewrite Ed' in E1, E2'.
  exists d', m1'. split; [exact E1|].
  destruct (fuzzy_result _ _ _ _ _ c [] Hm Hq) as [_ (m0' & E0')]. rewrite <- Ed in E0'.
  destruct (c43_v2_recurrence _ _ _ _ _ _ _ _ _ hit fs stop y Hm Hq Ht E0' Hhit Hfs Hy Ay Hno) as (i & j & new & B & -> & _).
  assert (Hfs' : leftmost (agreement o text) text c' (map f fs)).
  { destruct Hfs as [A Le]. split; [apply (alignment_moved _ _ u w v), A|].
    intros qs Q. destruct (alignment_onto _ _ u w v Hw qs Q) as (rs & ->). apply moved_le. apply Le. apply (alignment_moved _ _ u w v), Q. }
  assert (Hlast : In (last text 0%N) text) by (destruct (exists_last Ht) as (z & x & ->); rewrite last_last; apply in_elt).
  assert (Hy' : nth_error c' (f stop) = Some y) by (unfold c', f; rewrite nth_moved; exact Hy).
  assert (Hno' : forall k z, f stop < k -> nth_error c' k = Some z -> ~ agreement o text (last text 0%N) z).
  { intros k z Hlt Hz A. destruct (moved_onto _ _ u w v Hw k z _ Hlast Hz A) as (x & <-).
    unfold c' in Hz. rewrite nth_moved in Hz. fold c in Hz. apply (Hno x z); [|exact Hz|exact A].
    fold f in Hlt. destruct (Nat.lt_ge_cases stop x) as [L|L]; [exact L|]. apply (moved_le_iff (length u) (length w)) in L. fold f in L. lia. }
  destruct (c43_v2_recurrence _ _ _ _ _ _ _ _ _ hit' (map f fs) (f stop) y Hm' Hq Ht E2' Hhit' Hfs' Hy' Ay Hno') as (i' & j' & new' & B' & -> & _).
  assert (Hal : alignment (agreement o text) text c fs) by apply Hfs.
  assert (Le : length text = length fs) by (destruct Hal as [_ Fa]; clear -Fa; induction Fa; cbn; congruence).
  assert (HH : forall i j, hit' i (f j) = hit i j).
  { intros i0 j0. apply eq_true_iff_eq. rewrite Hhit, Hhit'. unfold c', f. rewrite nth_moved. reflexivity. }
  assert (HW : forall i j, length u <= j < length u + length w -> hit' i j = false).
  { intros i0 j0 Hj. apply not_true_is_false. intros X. apply Hhit' in X as (x & z & Hx & Hz & A).
    unfold c' in Hz. rewrite nth_error_app2, nth_error_app1 in Hz by lia.
    exact (Hw x z (nth_error_In _ _ Hx) (nth_error_In _ _ Hz) A). }
  assert (FM : forall i, i < length text -> nth i (map f fs) 0 = f (nth i fs 0)).
  { intros i0 Hi0. rewrite (nth_indep _ 0 (f 0)) by (rewrite map_length; lia). apply map_nth. }
  destruct B as (_ & M & _). destruct B' as ((Hi' & Hj' & Hc') & _).
  assert (O : exists x, f x = j').
  { apply Hhit' in Hc' as (x & z & Hx & Hz & A). exact (moved_onto _ _ u w v Hw j' z x (nth_error_In _ _ Hx) Hz A). }
  destruct O as (x & <-). rewrite HH in Hc'. rewrite FM in Hj' by exact Hi'.
  assert (Hx : nth i' fs 0 <= x <= stop).
  { split; apply (moved_le_iff (length u) (length w)); apply Hj'. }
  pose proof (M i' x (conj Hi' (conj Hx Hc'))) as C.
  rewrite (table_ext hit' hit' (bonus_of (opt_scheme o) c') (fun i => nth i (map f fs) 0) (fun i => f (nth i fs 0)) (f stop) (length text))
    by (auto; intros; apply FM; assumption).
  assert (T : (pts (table hit' (bonus_of (opt_scheme o) c') (fun i => f (nth i fs 0%nat)) (f stop) i' (f x))
               <= pts (table hit (bonus_of (opt_scheme o) c) (fun i => nth i fs 0%nat) stop i' x) + lost 2 i' + behind hit stop i' x)%Z).
  { apply (table_apart hit hit' (bonus_of (opt_scheme o) c) (bonus_of (opt_scheme o) c') (fun i => nth i fs 0) stop (length text) (length u) (length w)); auto; try lia.
    - intros k. apply v2_bonus.
    - intros k. apply v2_bonus.
    - intros k. apply (bonus_le (opt_scheme o) u w v Hk).
    - intros i0 Hi0. destruct Hal as [So _]. pose proof (sorted_nth_add fs So 1 i0 ltac:(lia)) as X. replace (i0 + 1) with (S i0) in X by lia. lia.
    - intros i0 Hi0. apply Hhit. destruct (alignment_nth _ _ _ _ i0 Hal Hi0) as (a & z & Ha & Hz & A). eauto. }
  rewrite (behind_hit hit stop i' x x) in T by (auto; lia). rewrite lost_two in T.
  repeat change (into_score (from_score ?z)) with z. lia.
Qed.
End WithUnicode.

(** ** FzfV1: the scores of alignments *)
Section Gap.
Context {UC : unicode}.
Variables (sch : scheme_name) (u w v : str).
Let c := u ++ v.
Let c' := u ++ w ++ v.
Let k := length u.
Let n := length w.
Let f := moved k n.
Hypothesis Hk : (bonus_of sch c' (k + n) <= bonus_of sch c k)%Z.

Lemma f_at_k : f k = k + n.
Proof. unfold f, moved. rewrite Nat.ltb_irrefl. reflexivity. Qed.

Lemma f_next prev j : prev < j -> f j = S (f prev) -> j = S prev.
Proof. unfold f, moved. destruct (Nat.ltb_spec j k), (Nat.ltb_spec prev k); lia. Qed.

Lemma f_apart prev : f (S prev) <> S (f prev) -> S prev = k /\ f prev < k + n /\ f prev = prev.
Proof. unfold f, moved. destruct (Nat.ltb_spec (S prev) k), (Nat.ltb_spec prev k); lia. Qed.

Lemma f_gap prev j : prev < j -> j - S prev <= f j - S (f prev).
Proof. unfold f, moved. destruct (Nat.ltb_spec j k), (Nat.ltb_spec prev k); lia. Qed.

Lemma best_split best : (bonus_of sch c' (k + n) <= Z.max (if (8 <=? bonus_of sch c k) && (best <? bonus_of sch c k) then bonus_of sch c k else best) 7)%Z.
Proof.
  pose proof (bonus_values sch c' (k + n)). destruct (Z.leb_spec 8 (bonus_of sch c k)), (Z.ltb_spec best (bonus_of sch c k)); cbn [andb]; lia.
Qed.

Lemma rest_score_after : forall ps prev best best', (0 <= best' <= Z.max best 7)%Z -> StronglySorted lt (prev :: ps) ->
  (rest_score sch c' (f prev) best' (map f ps) <= rest_score sch c prev best ps + 3 * Z.of_nat (length ps))%Z.
Proof.
  induction ps as [|j ps IH]; intros prev best best' Hb Ss; [cbn; lia|].
  inversion Ss as [|? ? Ss' Fp]; subst. inversion Fp as [|? ? Hj _]; subst.
  cbn [map rest_score length]. cbv zeta. pose proof (bonus_le sch u w v Hk j) as B. fold c c' k n f in B.
  pose proof (bonus_nonneg sch c' (f j)) as P. pose proof (bonus_nonneg sch c j) as P'.
  destruct (Nat.eqb_spec (f j) (S (f prev))) as [E|N].
  - rewrite (f_next prev j Hj E), Nat.eqb_refl, <- (f_next prev j Hj E).
    assert (P2 : (0 <= (if (8 <=? bonus_of sch c' (f j)) && (best' <? bonus_of sch c' (f j)) then bonus_of sch c' (f j) else best')
                  <= Z.max (if (8 <=? bonus_of sch c j) && (best <? bonus_of sch c j) then bonus_of sch c j else best) 7)%Z).
    { destruct (Z.leb_spec 8 (bonus_of sch c' (f j))), (Z.ltb_spec best' (bonus_of sch c' (f j))),
        (Z.leb_spec 8 (bonus_of sch c j)), (Z.ltb_spec best (bonus_of sch c j)); cbn [andb]; lia. }
    pose proof (IH j _ _ P2 Ss'). lia.
  - destruct (Nat.eqb_spec j (S prev)) as [->|N'].
    + destruct (f_apart prev N) as (Ek & L & _). rewrite Ek in *. rewrite f_at_k in *.
      pose proof (IH k _ _ (conj P (best_split best)) Ss') as I. rewrite f_at_k in I. lia.
    + assert (B' : (0 <= bonus_of sch c' (f j) <= Z.max (bonus_of sch c j) 7)%Z) by lia.
      pose proof (IH j _ _ B' Ss') as I. pose proof (f_gap prev j Hj). lia.
Qed.

Lemma rest_score_gain : forall ps prev best best', (0 <= best' <= best)%Z -> StronglySorted lt (prev :: ps) ->
  (rest_score sch c' (f prev) best' (map f ps) <= rest_score sch c prev best ps + Z.max 0 (3 * Z.of_nat (length ps) - 6))%Z.
Proof.
  induction ps as [|j ps IH]; intros prev best best' Hb Ss; [cbn; lia|].
  inversion Ss as [|? ? Ss' Fp]; subst. inversion Fp as [|? ? Hj _]; subst.
  cbn [map rest_score length]. cbv zeta. pose proof (bonus_le sch u w v Hk j) as B. fold c c' k n f in B.
  pose proof (bonus_nonneg sch c' (f j)) as P. pose proof (bonus_nonneg sch c j) as P'.
  destruct (Nat.eqb_spec (f j) (S (f prev))) as [E|N].
  - rewrite (f_next prev j Hj E), Nat.eqb_refl, <- (f_next prev j Hj E).
    pose proof (best_mono _ _ _ _ B (proj2 Hb)) as Bl.
    assert (P2 : (0 <= (if (8 <=? bonus_of sch c' (f j)) && (best' <? bonus_of sch c' (f j)) then bonus_of sch c' (f j) else best'))%Z)
      by (destruct (_ && _); lia).
    pose proof (IH j _ _ (conj P2 Bl) Ss'). lia.
  - destruct (Nat.eqb_spec j (S prev)) as [->|N'].
    + destruct (f_apart prev N) as (Ek & L & _). rewrite Ek in *. rewrite f_at_k in *.
      pose proof (rest_score_after ps k _ _ (conj P (best_split best)) Ss') as I. rewrite f_at_k in I. lia.
    + pose proof (IH j _ _ (conj P B) Ss') as I. pose proof (f_gap prev j Hj). lia.
Qed.

Lemma alignment_score_gain ps : StronglySorted lt ps ->
  (alignment_score sch c' (map f ps) <= alignment_score sch c ps + Z.max 0 (3 * Z.of_nat (length ps) - 9))%Z.
Proof.
  destruct ps as [|j ps]; intros Ss; [cbn; lia|]. cbn [map alignment_score length].
  pose proof (bonus_le sch u w v Hk j) as B. fold c c' k n f in B. pose proof (bonus_nonneg sch c' (f j)) as P.
  pose proof (rest_score_gain ps j _ _ (conj P B) Ss). lia.
Qed.
End Gap.

Lemma c95_v1_gain {UC : unicode} : forall o m m' text q u w v d m1,
  metric_reached AlgoV1 o m -> metric_reached AlgoV1 o m' -> fuzzy_query text q ->
  (forall x y, In x text -> In y w -> ~ agreement o text x y) ->
  (bonus_of (opt_scheme o) (u ++ w ++ v) (length u + length w) <= bonus_of (opt_scheme o) (u ++ v) (length u))%Z ->
  metric_distance m q (u ++ v) = Ok (Some d, m1) ->
  exists d' m1', metric_distance m' q (u ++ w ++ v) = Ok (Some d', m1')
    /\ (into_score d' <= into_score d + Z.max 0 (3 * Z.of_nat (length text) - 9))%Z.
Proof.
  intros o m m' text q u w v d m1 Hm Hm' Hq Hw Hk E.
  destruct (fuzzy_result AlgoV1 o m' text q (u ++ w ++ v) [] Hm' Hq) as [(m1' & E1) _].
  destruct text as [|x0 text'].
  { rewrite E1. pose proof (fuzzy_distance _ _ _ _ _ _ _ _ Hm Hq E) as Ed. cbn in Ed |- *. injection Ed as ->. eexists _, _. split; [reflexivity|]. cbn. lia. }
  set (text := x0 :: text') in *. assert (Ht : text <> []) by discriminate.
  assert (F : fuzzy_in (agreement o text) text (u ++ v)) by (apply (fuzzy_iff AlgoV1 o m text q _ (Some d) m1 Hm Hq E); eauto).
  destruct (window_exists o text _ Ht F) as [js W]. pose proof (window_moved _ _ u w v Hw js Ht W) as W'.
  assert (F' : fuzzy_in (agreement o text) text (u ++ w ++ v)) by (eexists; apply W').
  apply (fuzzy_iff AlgoV1 o m' text q _ _ m1' Hm' Hq E1) in F' as [d' Ed']. rewrite Ed' in E1. exists d', m1'. split; [exact E1|].
  rewrite (c41_v1_score o m text q _ d m1 js Hm Hq Ht E W), (c41_v1_score o m' text q _ d' m1' _ Hm' Hq Ht E1 W').
  assert (L : length text = length js) by (destruct W as ((_ & Fa) & _); clear -Fa; induction Fa; cbn; congruence).
  rewrite L. repeat change (into_score (from_score ?z)) with z. apply alignment_score_gain; [exact Hk|apply W].
Qed.

(** ** C83: the text itself is nearly the best candidate *)

Lemma diag_first bonus j : (16 * (Z.of_nat j + 1) + bonus 0%nat * (Z.of_nat j + 2) <= diag bonus j)%Z.
Proof.
  induction j as [|j IH]; [cbn [diag]; lia|]. change (diag bonus (S j)) with (diag bonus j + 16 + most bonus (S j))%Z.
  assert (G : forall n, (bonus 0%nat <= most bonus n)%Z) by (induction n as [|n IHn]; cbn [most]; lia).
  specialize (G (S j)). lia.
Qed.

Lemma c83_near {UC : unicode} : forall a o m m' ps ps' s text c d,
  metric_reached a o m -> metric_reached a o m' -> parse_spec s = [[Term false KFuzzy text]] ->
  find ps' m' s c = Ok (Some d) ->
  exists d0, find ps m s text = Ok (Some d0)
    /\ (into_score d <= into_score d0 + (top_points (opt_scheme o) - bonus_of (opt_scheme o) text 0) * (Z.of_nat (length text) + 1))%Z
    /\ (into_score d <= into_score d0 + 3 * (Z.of_nat (length text) + 1))%Z.
Proof.
  intros a o m m' ps ps' s text c d Hm Hm' Hs E. pose proof (single_text _ _ _ _ Hs) as Ht.
  destruct (single_result a o m ps s KFuzzy text text [] Hm Hs) as [E1 _].
  destruct (whole_outcome a o KFuzzy text text Ht (agreement_refl o text text) ltac:(discriminate)) as (rs0 & E0 & _). rewrite E0 in E1.
  cbn [option_map fst] in E1. eexists. split; [exact E1|].
  pose proof (c67_bound _ _ _ _ _ _ _ _ _ Hm' Hs E) as B.
  assert (Hn : 0 < length text) by (destruct text; [congruence|cbn; lia]).
  rewrite whole_score by exact Hn. change (into_score (from_score ?z)) with z.
  pose proof (diag_first (bonus_of (opt_scheme o) text) (length text - 1)) as D. unfold best_score in B.
  replace (Z.of_nat (length text - 1)) with (Z.of_nat (length text) - 1)%Z in D by lia.
  pose proof (bonus_start (opt_scheme o) text). pose proof (top_points_bounds (opt_scheme o)).
  split; [lia|]. nia.
Qed.
