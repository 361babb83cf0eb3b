(** Facts about the table of Spec: bounds of its cells, and what the way back highlights. *)
From Coq Require Import Sorted.
From Verif Require Import Prelude Chars Utils Candidate MatchedRanges Query Scoring Slab Fzf FzfV1 FzfV2
  Spec PreludeProofs CharsProofs NormalizeProofs CandidateProofs MatchedRangesProofs ScoreProofs ExactProofs
  ShapeProofs V1Proofs V2Tables V2Proofs V2Rows V2Fuzzy.
Local Open Scope nat_scope.

Lemma step_cost_bounds hit first stop i j : (1 <= step_cost hit first stop i j <= 3)%Z.
Proof. unfold step_cost. destruct (_ && _); [lia|]. destruct (_ || _); [lia|]. destruct (_ && _); lia. Qed.

Section Table.
Variables (hit : nat -> nat -> bool) (bonus : nat -> Z) (first : nat -> nat) (stop h : nat).
Hypothesis Hb : forall j, (0 <= bonus j <= 10)%Z.
Notation T := (table hit bonus first stop).
Notation P := (fun i k => pts (table hit bonus first stop i k)).
Notation back := (way_back hit bonus first stop h).
Notation cost := (step_cost hit first stop).

Lemma T_zero i : first i <= 0 -> hit i 0 = false -> pts (T i 0) = 0%Z.
Proof.
  intros Hf E. destruct i as [|i]; cbn [table]; [|reflexivity].
  unfold first_row. destruct (_ <? _); [reflexivity|]. rewrite E. reflexivity.
Qed.

Lemma T_col0 i : pts (T (S i) 0) = 0%Z.
Proof. reflexivity. Qed.

(** A hit below the first row. *)
Lemma T_hit_pts i k : 0 < k -> first (S i) <= k -> hit (S i) k = true ->
  exists b, (bonus k <= b <= 10)%Z
    /\ pts (T (S i) k) = Z.max (pts (T i (k - 1)) + 16 + b) (saturating_sub (pts (T (S i) (k - 1))) (cost (S i) k)).
Proof.
  intros Hk Hf Hh. rewrite T_hit by assumption. cbv zeta. unfold pts_of, run_of.
  set (left := saturating_sub _ _). set (r := S (run (T i (k - 1)))).
  pose proof (Hb k). pose proof (Hb (S k - r)).
  destruct (r =? 1).
  - exists (bonus k). split; [lia|]. destruct (Z.ltb_spec (pts (T i (k - 1)) + 16 + bonus k) left); cbn [pts]; lia.
  - destruct (_ && _)%Z.
    + exists (bonus k). split; [lia|]. destruct (Z.ltb_spec (pts (T i (k - 1)) + 16 + bonus k) left); cbn [pts]; lia.
    + exists (Z.max (Z.max 4 (bonus (S k - r))) (bonus k)). split; [lia|].
      destruct (Z.ltb_spec (pts (T i (k - 1)) + 16 + Z.max (Z.max 4 (bonus (S k - r))) (bonus k)) left); cbn [pts]; lia.
Qed.

Lemma T_gap_pts i k : 0 < k -> first i <= k -> hit i k = false ->
  pts (T i k) = saturating_sub (pts (T i (k - 1))) (cost i k).
Proof. intros. rewrite T_gap by assumption. reflexivity. Qed.

(** No cell has more than 26 points per query character, and 10 more. *)
Lemma pts_upper i : forall k, (pts (T i k) <= 26 * Z.of_nat (S i) + 10)%Z.
Proof.
  induction i as [|i IHi].
  - intros k. apply cell_le_hits; [lia|]. intros j Hj Hh.
    rewrite T_hit0 by (auto; lia). cbn [pts]. pose proof (Hb j). lia.
  - assert (G : forall n j, j < n -> first (S i) <= j -> hit (S i) j = true ->
                (pts (T (S i) j) <= 26 * Z.of_nat (S (S i)) + 10)%Z).
    { induction n as [|n IHn]; intros j Hn Hf Hh; [lia|].
      destruct (Nat.eq_dec j 0) as [->|]; [rewrite T_col0; lia|].
      destruct (T_hit_pts i j ltac:(lia) Hf Hh) as (b & Hbb & ->).
      pose proof (IHi (j - 1)). pose proof (step_cost_bounds hit first stop (S i) j).
      assert (pts (T (S i) (j - 1)) <= 26 * Z.of_nat (S (S i)) + 10)%Z.
      { apply cell_le_hits; [lia|]. intros x Hx Hhx. apply IHn; auto; lia. }
      unfold saturating_sub, I64_MIN. lia. }
    intros k. apply cell_le_hits; [lia|]. intros j Hj Hh. apply (G (S j)); auto; lia.
Qed.

Lemma pts_min i : forall k, (- 2 ^ 63 <= pts (T i k))%Z.
Proof.
  induction i as [|i IHi]; intros k.
  - destruct (Nat.lt_ge_cases k (first 0)) as [Hlt|Hge]; [rewrite T_before by exact Hlt; cbn; lia|].
    destruct (hit 0 k) eqn:E.
    + rewrite T_hit0 by auto. cbn [pts]. pose proof (Hb k). lia.
    + destruct k as [|k]; [rewrite T_zero by auto; lia|].
      rewrite T_gap_pts by (auto; lia). unfold saturating_sub, I64_MIN. lia.
  - destruct (Nat.lt_ge_cases k (first (S i))) as [Hlt|Hge]; [rewrite T_before by exact Hlt; cbn; lia|].
    destruct k as [|k]; [rewrite T_col0; lia|].
    destruct (hit (S i) (S k)) eqn:E.
    + destruct (T_hit_pts i (S k) ltac:(lia) ltac:(lia) E) as (b & Hbb & ->).
      pose proof (IHi (S k - 1)). pose proof (Hb (S k)). unfold saturating_sub, I64_MIN. lia.
    + rewrite T_gap_pts by (auto; lia). unfold saturating_sub, I64_MIN. lia.
Qed.

(** Below the first row, a step to the right loses at most the cost of the step. *)
Lemma pts_step i k : first (S i) <= k -> (pts (T (S i) k) - cost (S i) (S k) <= pts (T (S i) (S k)))%Z.
Proof.
  intros Hf. destruct (hit (S i) (S k)) eqn:E.
  - destruct (T_hit_pts i (S k) ltac:(lia) ltac:(lia) E) as (b & Hbb & ->).
    replace (S k - 1) with k by lia. unfold saturating_sub, I64_MIN. lia.
  - rewrite (T_gap_pts _ (S k)) by (auto; lia). replace (S k - 1) with k by lia. unfold saturating_sub, I64_MIN. lia.
Qed.

(** In any row, unless the step leads to a hit. *)
Lemma pts_step_gap i k : first i <= k -> hit i (S k) = false -> (pts (T i k) - cost i (S k) <= pts (T i (S k)))%Z.
Proof.
  intros Hf E. rewrite (T_gap_pts _ (S k)) by (auto; lia). replace (S k - 1) with k by lia. unfold saturating_sub, I64_MIN. lia.
Qed.

Lemma pts_steps i k n : first i <= k -> (i <> 0 \/ forall j, k < j <= k + n -> hit i j = false) ->
  (pts (T i k) - 3 * Z.of_nat n <= pts (T i (k + n)))%Z.
Proof.
  intros Hf Hi. induction n as [|n IH]; [rewrite Nat.add_0_r; lia|].
  specialize (IH ltac:(destruct Hi as [Hi|Hi]; [left; exact Hi|right; intros; apply Hi; lia])).
  rewrite <- plus_n_Sm. pose proof (step_cost_bounds hit first stop i (S (k + n))).
  assert (pts (T i (k + n)) - cost i (S (k + n)) <= pts (T i (S (k + n))))%Z; [|lia].
  destruct Hi as [Hi|Hi].
  - destruct i as [|i]; [congruence|]. apply pts_step. lia.
  - apply pts_step_gap; [lia|]. apply Hi. lia.
Qed.

Lemma pts_diag i k : first (S i) <= S k -> hit (S i) (S k) = true ->
  (pts (T i k) + 16 + bonus (S k) <= pts (T (S i) (S k)))%Z.
Proof.
  intros Hf E. destruct (T_hit_pts i (S k) ltac:(lia) Hf E) as (b & Hbb & ->).
  replace (S k - 1) with k by lia. lia.
Qed.

(** ** Tables whose first columns are those of an alignment *)

Hypothesis Hfirst : forall i, i < h -> hit i (first i) = true.
Hypothesis Hinc : forall i, S i < h -> first i < first (S i).

Lemma first_le i j : i <= j -> j < h -> first i + (j - i) <= first j.
Proof.
  intros Hij Hj. induction Hij as [|j Hij IH]; [lia|].
  specialize (IH ltac:(lia)). pose proof (Hinc j Hj). lia.
Qed.

(** A hit of row [i] has at least 16 points for the first query character, 15 for each
    other one, less one for each column passed. *)
Lemma pts_lower i : i < h -> forall k, first i <= k ->
  (16 + 15 * Z.of_nat i - (Z.of_nat k - Z.of_nat (first 0)) - (if hit i k then 0 else 2) <= pts (T i k))%Z.
Proof.
  induction i as [|i IHi]; intros Hi; induction k as [|k IHk]; intros Hk.
  - assert (E : first 0 = 0) by lia. pose proof (Hfirst 0 Hi) as Hh. rewrite E in Hh.
    rewrite Hh. rewrite T_hit0 by (auto; lia). cbn [pts]. pose proof (Hb 0). lia.
  - destruct (hit 0 (S k)) eqn:E.
    + rewrite T_hit0 by (auto; lia). cbn [pts]. pose proof (Hb (S k)). lia.
    + assert (Hk' : first 0 <= k).
      { destruct (Nat.eq_dec (first 0) (S k)) as [e|]; [|lia]. pose proof (Hfirst 0 Hi). congruence. }
      pose proof (pts_step_gap 0 k Hk' E). specialize (IHk Hk').
      destruct (hit 0 k) eqn:Ek.
      * pose proof (step_cost_bounds hit first stop 0 (S k)). lia.
      * assert (Ec : cost 0 (S k) = 1%Z).
        { unfold step_cost. replace (S k - 1) with k by lia. rewrite Ek.
          destruct (Nat.ltb_spec (first 0) (S k)); [reflexivity|lia]. }
        lia.
  - pose proof (first_le 0 (S i) ltac:(lia) Hi). lia.
  - destruct (hit (S i) (S k)) eqn:E.
    + pose proof (pts_diag i k Hk E). pose proof (Hb (S k)). pose proof (Hinc i Hi).
      specialize (IHi ltac:(lia) k ltac:(lia)). destruct (hit i k); lia.
    + assert (Hk' : first (S i) <= k).
      { destruct (Nat.eq_dec (first (S i)) (S k)) as [e|]; [|lia]. pose proof (Hfirst (S i) Hi). congruence. }
      pose proof (pts_step_gap (S i) k Hk' E). specialize (IHk Hk').
      destruct (hit (S i) k) eqn:Ek.
      * pose proof (step_cost_bounds hit first stop (S i) (S k)). lia.
      * assert (Ec : cost (S i) (S k) = 1%Z).
        { unfold step_cost. replace (S k - 1) with k by lia. rewrite Ek.
          destruct (Nat.ltb_spec (first (S i)) (S k)); [reflexivity|lia]. }
        lia.
Qed.

(** ** What the way back highlights *)

Lemma taken_hit i j prefer : i < h -> first i <= j -> taken hit bonus first stop i j prefer = true -> hit i j = true.
Proof.
  intros Hi Hf Ht. destruct (hit i j) eqn:E; [reflexivity|exfalso].
  assert (Hlt : first i < j).
  { destruct (Nat.eq_dec (first i) j) as [<-|]; [|lia]. pose proof (Hfirst i Hi). congruence. }
  destruct j as [|j]; [lia|]. pose proof (T_gap_pts i (S j) ltac:(lia) Hf E) as Hg.
  replace (S j - 1) with j in Hg by lia. unfold saturating_sub, I64_MIN in Hg.
  pose proof (step_cost_bounds hit first stop i (S j)). pose proof (pts_min i j) as Hm.
  unfold taken in Ht. apply andb_prop in Ht as [Hd Hl]. apply Z.ltb_lt in Hd.
  assert (Hm' : (- 2 ^ 63 <= match i with O => 0 | S i' => pts (T i' j) end)%Z)
    by (destruct i; [lia|apply pts_min]).
  apply orb_prop in Hl as [Hl|Hl].
  - apply Z.ltb_lt in Hl. lia.
  - apply andb_prop in Hl as [Hl _]. apply Z.eqb_eq in Hl. destruct i; lia.
Qed.

Lemma taken_first i prefer : i < h -> (0 < pts (T i (first i)))%Z -> taken hit bonus first stop i (first i) prefer = true.
Proof.
  intros Hi Hpos. unfold taken.
  assert (Hl : match first i with 0 => 0%Z | S j' => pts (T i j') end = 0%Z).
  { destruct (first i) as [|j'] eqn:E; [reflexivity|]. rewrite T_before by lia. reflexivity. }
  assert (Hd : (match i, first i with S i', S j' => pts (T i' j') | _, _ => 0 end < pts (T i (first i)))%Z).
  { destruct i as [|i']; [exact Hpos|]. pose proof (Hinc i' Hi) as Hlt. pose proof (Hfirst _ Hi) as Hh.
    destruct (first (S i')) as [|j'] eqn:E; [lia|].
    destruct (T_hit_pts i' (S j') ltac:(lia) ltac:(lia) Hh) as (b & Hbb & Hv).
    replace (S j' - 1) with j' in Hv by lia. pose proof (Hb (S j')). lia. }
  apply andb_true_intro. split; [apply Z.ltb_lt; exact Hd|]. rewrite Hl.
  apply orb_true_intro. left. apply Z.ltb_lt. exact Hpos.
Qed.

(** One hit in each row up to [i], going up. *)
Fixpoint rows (i : nat) (ps : list nat) {struct ps} : Prop :=
  match ps with
  | [] => False
  | j :: ps' =>
      hit i j = true /\ first i <= j
      /\ match i with 0 => ps' = [] | S i' => rows i' ps' end
  end.

Lemma back_rows : (forall i, i < h -> (0 < pts (T i (first i)))%Z) ->
  forall j i prefer, i < h -> first i <= j -> rows i (back i j prefer).
Proof.
  intros Hpos. induction j as [|j IH]; intros i prefer Hi Hf; rewrite back_eq.
  - assert (i = 0) by (pose proof (first_le 0 i ltac:(lia) Hi); lia). subst i.
    assert (E : first 0 = 0) by lia. pose proof (taken_first 0 prefer Hi (Hpos 0 Hi)) as Ht. rewrite E in Ht.
    rewrite Ht. cbn [rows]. split; [|split; [lia|reflexivity]]. rewrite <- E at 2. auto.
  - destruct (taken _ _ _ _ i (S j) prefer) eqn:Et.
    + cbn [rows]. split; [apply (taken_hit i (S j) prefer); auto|]. split; [exact Hf|].
      destruct i as [|i]; [reflexivity|]. pose proof (Hinc i Hi). apply IH; lia.
    + apply IH; [exact Hi|]. destruct (Nat.eq_dec (first i) (S j)) as [e|]; [|lia].
      rewrite <- e, taken_first in Et by auto. discriminate.
Qed.

(** The same for a cell with enough points. *)
Lemma back_rows_high : forall j i prefer, i < h -> first i <= j -> (26 * Z.of_nat i < pts (T i j))%Z ->
  rows i (back i j prefer).
Proof.
  induction j as [|j IH]; intros i prefer Hi Hf Hhi; rewrite back_eq.
  - assert (i = 0) by (pose proof (first_le 0 i ltac:(lia) Hi); lia). subst i.
    assert (E : first 0 = 0) by lia. pose proof (taken_first 0 prefer Hi) as Ht. rewrite E in Ht.
    rewrite Ht by lia. cbn [rows]. split; [|split; [lia|reflexivity]]. rewrite <- E at 2. auto.
  - destruct (taken _ _ _ _ i (S j) prefer) eqn:Et.
    + pose proof (taken_hit i (S j) prefer Hi Hf Et) as Hh.
      cbn [rows]. split; [exact Hh|]. split; [exact Hf|].
      destruct i as [|i]; [reflexivity|]. pose proof (Hinc i Hi). apply IH; [lia|lia|].
      destruct (T_hit_pts i (S j) ltac:(lia) Hf Hh) as (b & Hbb & Hv).
      replace (S j - 1) with j in Hv by lia. unfold taken in Et. apply andb_prop in Et as [Hd Hl].
      pose proof (step_cost_bounds hit first stop (S i) (S j)).
      unfold saturating_sub, I64_MIN in Hv. apply Z.ltb_lt in Hd.
      apply orb_prop in Hl as [Hl|Hl].
      * apply Z.ltb_lt in Hl. lia.
      * apply andb_prop in Hl as [Hl _]. apply Z.eqb_eq in Hl. lia.
    + assert (Hne : first i <> S j).
      { intros e. rewrite <- e, taken_first in Et; [discriminate|exact Hi|rewrite e; lia]. }
      apply IH; [exact Hi|lia|].
      destruct (Z.lt_ge_cases (26 * Z.of_nat i) (pts (T i j))) as [|Hle]; [assumption|exfalso].
      assert (Hlt : (pts (T i j) < pts (T i (S j)))%Z) by lia.
      destruct (hit i (S j)) eqn:Hh.
      * assert (Et' : taken hit bonus first stop i (S j) prefer = true); [|congruence].
        unfold taken. apply andb_true_intro. split.
        -- apply Z.ltb_lt. destruct i as [|i]; [lia|].
           destruct (T_hit_pts i (S j) ltac:(lia) Hf Hh) as (b & Hbb & Hv).
           replace (S j - 1) with j in Hv by lia. pose proof (Hb (S j)). lia.
        -- apply orb_true_intro. left. apply Z.ltb_lt. exact Hlt.
      * pose proof (T_gap_pts i (S j) ltac:(lia) Hf Hh) as Hg. replace (S j - 1) with j in Hg by lia.
        unfold saturating_sub, I64_MIN in Hg. pose proof (step_cost_bounds hit first stop i (S j)).
        pose proof (pts_min i j). lia.
Qed.

Lemma rows_length : forall i ps, rows i ps -> length ps = S i.
Proof.
  induction i as [|i IH]; intros [|j ps] H; try (destruct H; fail); cbn [rows] in H; destruct H as (_ & _ & H).
  - rewrite H. reflexivity.
  - cbn [length]. f_equal. apply IH, H.
Qed.

Lemma rows_nth : forall i ps, rows i ps -> forall k, k <= i -> hit k (nth (i - k) ps 0) = true.
Proof.
  induction i as [|i IH]; intros [|j ps] H k Hk; try (destruct H; fail); cbn [rows] in H; destruct H as (Hh & _ & H).
  - replace k with 0 by lia. exact Hh.
  - destruct (Nat.eq_dec k (S i)) as [->|].
    + rewrite Nat.sub_diag. exact Hh.
    + replace (S i - k) with (S (i - k)) by lia. cbn [nth]. apply IH; [exact H|lia].
Qed.

(** ** The way back from the best cell *)

Lemma back_length : forall j i prefer, length (back i j prefer) <= S i.
Proof.
  induction j as [|j IH]; intros i prefer; rewrite back_eq; destruct (taken _ _ _ _ _ _ _).
  - destruct i; cbn; lia.
  - cbn. lia.
  - destruct i as [|i]; cbn [length]; [lia|]. specialize (IH i). 
    match goal with |- S (length (way_back _ _ _ _ _ _ _ ?p)) <= _ => specialize (IH p) end. lia.
  - apply IH.
Qed.

Lemma best_16 i j : 0 < h -> first 0 <= stop -> best_cell hit bonus first stop h i j -> (16 <= pts (T i j))%Z.
Proof.
  intros Hh Hs (_ & HM & _). specialize (HM 0 (first 0)).
  assert (hit_cell hit first stop h 0 (first 0)) as C by (repeat split; auto; lia).
  specialize (HM C). rewrite T_hit0 in HM by auto. cbn [pts] in HM. pose proof (Hb (first 0)). lia.
Qed.

Lemma best_taken i j prefer : (forall i, i < h -> first i <= stop) -> best_cell hit bonus first stop h i j ->
  taken hit bonus first stop i j prefer = true.
Proof.
  intros Hs B. pose proof B as ((Hi & Hj & Hh) & HM & HL).
  pose proof (best_16 i j ltac:(lia) ltac:(apply Hs; lia) B) as H16.
  unfold taken. apply andb_true_intro. split.
  - apply Z.ltb_lt. destruct i as [|i]; [lia|]. destruct j as [|j]; [lia|].
    enough (pts (T i j) <= pts (T (S i) (S j)) - 1)%Z by lia.
    apply cell_le_hits; [lia|]. intros k Hk Hhk. specialize (HL i k).
    assert (hit_cell hit first stop h i k) by (repeat split; auto; lia).
    specialize (HL H (or_introl (Nat.lt_succ_diag_r i))). lia.
  - apply orb_true_intro. left. apply Z.ltb_lt. destruct j as [|j]; [lia|].
    enough (pts (T i j) <= pts (T i (S j)) - 1)%Z by lia.
    apply cell_le_hits; [lia|]. intros k Hk Hhk. specialize (HL i k).
    assert (hit_cell hit first stop h i k) by (repeat split; auto; lia).
    assert (Hlt : k < S j) by lia. specialize (HL H (or_intror (conj eq_refl Hlt))). lia.
Qed.

Lemma best_row i j : best_cell hit bonus first stop h i j -> (26 * (Z.of_nat h - 1) + 10 < pts (T i j))%Z -> S i = h.
Proof.
  intros ((Hi & _) & _) Hlt. pose proof (pts_upper i j). lia.
Qed.

(** ** A lower bound from any alignment *)

(** Points of an alignment counting each position by itself. *)
Fixpoint plain_points (ps : list nat) : Z :=
  match ps with [] => 0 | j :: ps' => 16 + bonus j + plain_points ps' end%Z.

Lemma aligned_lower : forall ps i j, first i <= j ->
  StronglySorted lt (j :: ps) ->
  (forall k, k < length ps -> first (S i + k) <= nth k ps 0 /\ hit (S i + k) (nth k ps 0) = true) ->
  (i <> 0 \/ forall k, j < k < hd 0 ps -> hit 0 k = false) ->
  (pts (T i j) + plain_points ps - 3 * (Z.of_nat (last (j :: ps) 0%nat) - Z.of_nat j - Z.of_nat (length ps))
   <= pts (T (i + length ps) (last (j :: ps) 0%nat)))%Z.
Proof.
  induction ps as [|x ps IH]; intros i j Hf Hs Hk Hi.
  - cbn [plain_points last length]. rewrite Nat.add_0_r. lia.
  - apply StronglySorted_inv in Hs as [Hs Hx]. inversion Hx as [|? ? Hjx _]; subst.
    destruct (Hk 0 ltac:(simpl; lia)) as [Hfx Hhx]. cbn [nth] in Hfx, Hhx. rewrite Nat.add_0_r in Hfx, Hhx.
    specialize (IH (S i) x Hfx Hs).
    assert (IH' : (pts (T (S i) x) + plain_points ps - 3 * (Z.of_nat (last (x :: ps) 0%nat) - Z.of_nat x - Z.of_nat (length ps))
      <= pts (T (S i + length ps) (last (x :: ps) 0%nat)))%Z).
    { apply IH; [|left; discriminate]. intros k Hkl. specialize (Hk (S k)). cbn [nth length] in Hk.
      rewrite <- plus_n_Sm in Hk. apply Hk. lia. }
    clear IH. change (last (j :: x :: ps) 0) with (last (x :: ps) 0%nat).
    destruct x as [|x]; [lia|].
    pose proof (pts_diag i x Hfx Hhx) as Hd.
    pose proof (pts_steps i j (x - j) Hf) as Hst. replace (j + (x - j)) with x in Hst by lia.
    assert (Hst' : (pts (T i j) - 3 * Z.of_nat (x - j) <= pts (T i x))%Z).
    { apply Hst. destruct Hi as [Hi|Hi]; [left; exact Hi|]. destruct i as [|i]; [|left; discriminate].
      right. intros k Hk'. apply Hi. cbn [hd]. lia. }
    cbn [length plain_points]. replace (i + S (length ps)) with (S i + length ps) by lia. lia.
Qed.

End Table.

(** ** The table depends on its arguments only *)

Lemma first_row_S hit bonus first stop j :
  first_row hit bonus first stop (S j) =
  if S j <? first 0 then Cell 0 0
  else if hit 0 (S j) then Cell (16 + 2 * bonus (S j)) 1
  else Cell (at_least_min (pts (first_row hit bonus first stop j) - step_cost hit first stop 0 (S j))) 0.
Proof. reflexivity. Qed.

Lemma next_row_S hit bonus first stop i up j :
  next_row hit bonus first stop i up (S j) =
  if S j <? first i then Cell 0 0
  else
    let left := at_least_min (pts (next_row hit bonus first stop i up j) - step_cost hit first stop i (S j)) in
    if hit i (S j) then
      let r := S (run (up j)) in
      let first_bonus := bonus (S (S j) - r) in
      let (b, r) :=
        if r =? 1 then (bonus (S j), r)
        else if ((8 <=? bonus (S j)) && (first_bonus <? bonus (S j)))%Z then (bonus (S j), 1)
        else (Z.max (Z.max 4 first_bonus) (bonus (S j)), r) in
      let diagonal := (pts (up j) + 16 + b)%Z in
      if (diagonal <? left)%Z then Cell left 0 else Cell diagonal r
    else Cell left 0.
Proof. reflexivity. Qed.

Section Ext.
Variables (hit hit' : nat -> nat -> bool) (bonus : nat -> Z) (first first' : nat -> nat) (stop h : nat).
Hypothesis Hh : forall i j, hit i j = hit' i j.
Hypothesis Hf : forall i, i < h -> first i = first' i.

Lemma later_hit_ext i j : later_hit hit stop i j = later_hit hit' stop i j.
Proof.
  unfold later_hit. generalize (seq (S j) (stop - j)). induction l as [|x l IH]; [reflexivity|].
  cbn. rewrite Hh, IH. reflexivity.
Qed.

Lemma step_cost_ext i j : i < h -> step_cost hit first stop i j = step_cost hit' first' stop i j.
Proof. intros Hi. unfold step_cost. rewrite !Hh, later_hit_ext, Hf by exact Hi. reflexivity. Qed.

Lemma table_ext i : i < h -> forall j, table hit bonus first stop i j = table hit' bonus first' stop i j.
Proof.
  induction i as [|i IHi]; intros Hi; cbn [table]; induction j as [|j IHj].
  - unfold first_row. rewrite Hh, Hf by exact Hi. reflexivity.
  - cbn [table] in IHj. rewrite !first_row_S, Hh, Hf, step_cost_ext, IHj by exact Hi. reflexivity.
  - reflexivity.
  - cbn [table] in IHj. rewrite !next_row_S, Hh, Hf, step_cost_ext, IHj, IHi by (auto; lia). reflexivity.
Qed.

Lemma hit_cell_ext i j : hit_cell hit first stop h i j <-> hit_cell hit' first' stop h i j.
Proof.
  unfold hit_cell. rewrite Hh. split; intros (Hi & H); (split; [exact Hi|]).
  - rewrite <- Hf by exact Hi. exact H.
  - rewrite Hf by exact Hi. exact H.
Qed.

Lemma best_cell_ext i j : best_cell hit bonus first stop h i j -> best_cell hit' bonus first' stop h i j.
Proof.
  intros (C & M & L). assert (Hi : i < h) by apply C. split; [apply hit_cell_ext, C|]. split.
  - intros i' j' C'. apply hit_cell_ext in C'. rewrite <- !table_ext by (auto; apply C'). apply M, C'.
  - intros i' j' C'. apply hit_cell_ext in C'. rewrite <- !table_ext by (auto; apply C'). apply L, C'.
Qed.

Lemma way_back_ext : forall j i prefer, i < h ->
  way_back hit bonus first stop h i j prefer = way_back hit' bonus first' stop h i j prefer.
Proof.
  induction j as [|j IH]; intros i prefer Hi;
    rewrite (back_eq hit), (back_eq hit').
  - unfold taken. rewrite !table_ext by exact Hi. destruct i; reflexivity.
  - assert (Et : taken hit bonus first stop i (S j) prefer = taken hit' bonus first' stop i (S j) prefer).
    { unfold taken. rewrite !table_ext by exact Hi. destruct i as [|i]; [reflexivity|].
      rewrite (table_ext i) by lia. reflexivity. }
    assert (Ep : pref hit bonus first stop h i (S j) = pref hit' bonus first' stop h i (S j)).
    { unfold pref. rewrite table_ext by exact Hi. destruct (Nat.ltb_spec (S i) h); [|reflexivity].
      rewrite table_ext by assumption. reflexivity. }
    rewrite Et, Ep. destruct (taken hit' bonus first' stop i (S j) prefer).
    + destruct i as [|i]; [reflexivity|]. rewrite IH by lia. reflexivity.
    + apply IH, Hi.
Qed.

End Ext.
