(** The rows which FzfV2 computes are those of the table of Spec. *)
From Coq Require Import Sorted.
From Verif Require Import Prelude Chars Utils Candidate MatchedRanges Query Scoring Slab Fzf FzfV1 FzfV2
  Spec PreludeProofs CharsProofs NormalizeProofs CandidateProofs MatchedRangesProofs ScoreProofs ExactProofs
  ShapeProofs V1Proofs V2Tables V2Proofs.
Local Open Scope nat_scope.

Lemma filter_seq_cons (h : nat -> bool) w s x ms :
  filter h (seq s (w - s)) = x :: ms ->
  s <= x < w /\ h x = true /\ (forall k, s <= k < x -> h k = false)
  /\ ms = filter h (seq (S x) (w - S x)).
Proof.
  remember (w - s) as n eqn:En. revert s En. induction n as [|n IH]; intros s En E; [discriminate|].
  cbn [seq filter] in E. destruct (h s) eqn:Eh.
  - injection E as <- <-. split; [lia|]. split; [exact Eh|]. split; [intros; lia|].
    f_equal. f_equal. lia.
  - apply IH in E as (H1 & H2 & H3 & H4); [|lia]. split; [lia|]. split; [exact H2|].
    split; [|exact H4]. intros k Hk. destruct (Nat.eq_dec k s) as [->|]; [exact Eh|]. apply H3. lia.
Qed.

Lemma filter_seq_nil (h : nat -> bool) w s :
  filter h (seq s (w - s)) = [] -> forall k, s <= k < w -> h k = false.
Proof.
  intros E k Hk. destruct (h k) eqn:Eh; [|reflexivity].
  assert (Hin : In k (filter h (seq s (w - s)))) by (apply filter_In; rewrite in_seq; split; [lia|exact Eh]).
  rewrite E in Hin. destruct Hin.
Qed.

(** The running maximum, as kept by the code. *)
Definition better (F : nat -> Z) (acc : Z * nat) (c : nat) : Z * nat :=
  if (fst acc <? F c)%Z then (F c, c) else acc.

Definition pts_of (t : nat -> nat -> cell) (i k : nat) : Z := pts (t i k).
Definition run_of (t : nat -> nat -> cell) (i k : nat) : nat := run (t i k).

Section Facts.
Variables (hit : nat -> nat -> bool) (bonus : nat -> Z) (first : nat -> nat) (stop : nat).
Notation T := (table hit bonus first stop).
Notation f := (pts_of T).
Notation g := (run_of T).

Lemma T_before i k : k < first i -> T i k = Cell 0 0.
Proof.
  intros H. destruct i as [|i], k as [|k]; cbn [table]; try reflexivity;
    (unfold first_row || unfold next_row); (match goal with |- context [?x <? ?y] => destruct (Nat.ltb_spec x y) end; [reflexivity|lia]).
Qed.

Lemma T_gap i k : 0 < k -> first i <= k -> hit i k = false ->
  T i k = Cell (saturating_sub (f i (k - 1)) (step_cost hit first stop i k)) 0.
Proof.
  intros H0 H1 H2. destruct k as [|k]; [lia|].
  assert (E : (S k <? first i) = false) by (apply Nat.ltb_ge; lia).
  replace (S k - 1) with k by lia.
  destruct i as [|i]; cbn [table]; (unfold first_row || unfold next_row); rewrite E, H2; reflexivity.
Qed.

Lemma T_hit0 k : first 0 <= k -> hit 0 k = true -> T 0 k = Cell (16 + 2 * bonus k) 1.
Proof.
  intros H1 H2. assert (E : (k <? first 0) = false) by (apply Nat.ltb_ge; lia).
  destruct k; cbn [table]; unfold first_row; rewrite E, H2; reflexivity.
Qed.

Lemma T_hit i k : 0 < k -> first (S i) <= k -> hit (S i) k = true ->
  T (S i) k =
  let left := saturating_sub (f (S i) (k - 1)) (step_cost hit first stop (S i) k) in
  let r := S (g i (k - 1)) in
  let first_bonus := bonus (S k - r) in
  let (b, r) :=
    if r =? 1 then (bonus k, r)
    else if ((8 <=? bonus k) && (first_bonus <? bonus k))%Z then (bonus k, 1)
    else (Z.max (Z.max 4 first_bonus) (bonus k), r) in
  let diagonal := (f i (k - 1)%nat + 16 + b)%Z in
  if (diagonal <? left)%Z then Cell left 0 else Cell diagonal r.
Proof.
  intros H0 H1 H2. destruct k as [|k]; [lia|].
  assert (E : (S k <? first (S i)) = false) by (apply Nat.ltb_ge; lia).
  replace (S k - 1) with k by lia.
  cbn [table]. unfold next_row at 1. rewrite E, H2. reflexivity.
Qed.

Lemma g_nohit i k : hit i k = false -> g i k = 0.
Proof.
  intros H. unfold run_of. destruct (Nat.lt_ge_cases k (first i)) as [Hk|Hk]; [rewrite T_before by exact Hk; reflexivity|].
  destruct k as [|k].
  - destruct i; cbn [table]; [|reflexivity]. unfold first_row. destruct (_ <? _); [reflexivity|].
    rewrite H. reflexivity.
  - rewrite T_gap by (auto; lia). reflexivity.
Qed.

Lemma g_bound i : forall k, g i k <= S k.
Proof.
  induction i as [|i IH]; intros k.
  - destruct (hit 0 k) eqn:E; [|rewrite g_nohit by exact E; lia].
    destruct (Nat.lt_ge_cases k (first 0)) as [Hk|Hk]; [unfold run_of; rewrite T_before by exact Hk; simpl; lia|].
    unfold run_of; rewrite T_hit0 by auto. simpl. lia.
  - destruct (hit (S i) k) eqn:E; [|rewrite g_nohit by exact E; lia].
    destruct (Nat.lt_ge_cases k (first (S i))) as [Hk|Hk]; [unfold run_of; rewrite T_before by exact Hk; simpl; lia|].
    destruct k as [|k]; [unfold run_of; simpl; lia|].
    unfold run_of at 1. rewrite T_hit by (auto; lia). cbv zeta. specialize (IH k).
    replace (S k - 1) with k by lia.
    repeat (match goal with |- context [if ?b then _ else _] => destruct b end); simpl; lia.
Qed.

End Facts.

Arguments T_before {hit bonus first stop} _ _ _.
Arguments T_gap {hit bonus first stop} _ _ _ _ _.
Arguments T_hit0 {hit bonus first stop} _ _ _.
Arguments T_hit {hit bonus first stop} _ _ _ _ _.
Arguments g_nohit {hit bonus first stop} _ _ _.
Arguments g_bound {hit bonus first stop} _ _.

Section Rows.
Context {UC : unicode}.
Variables (sch : fzf_scheme) (l : list char) (a w : nat).
Hypothesis Hw : a + w <= length l.
Variables (c : candidate) (o : candidate_opts).
Variables (hit : nat -> nat -> bool) (first : nat -> nat).
Notation bon := (bonus_in sch l a).
Notation T := (table hit bon first (w - 1)).
Notation f := (pts_of T).
Notation g := (run_of T).
Notation s := (into_inner sch).
Notation ok := (cv_ok sch l a w c o).

(** What the penalty is after the hit in column [c]. *)
Definition end_pen (i k : nat) : score :=
  if (first i <? k) && negb (hit i (k - 1)) then GAP_EXTENSION else GAP_START.

Section Row.
Variable i : nat.

Lemma later_true x k : x < k -> k < w -> hit i k = true -> later_hit hit (w - 1) i x = true.
Proof.
  intros H1 H2 H3. unfold later_hit. apply existsb_exists. exists k. split; [|exact H3].
  apply in_seq. lia.
Qed.

Lemma later_false x : (forall k, x < k < w -> hit i k = false) -> later_hit hit (w - 1) i x = false.
Proof.
  intros H. unfold later_hit. apply not_true_is_false. intros E. apply existsb_exists in E as (k & Hk & E).
  apply in_seq in Hk. rewrite H in E by lia. discriminate.
Qed.

(** Costs in the gap between a hit at [col] and the next one at [x]. *)
Lemma cost_between col x k :
  first i <= col -> hit i col = true -> col < k < x -> x < w -> hit i x = true ->
  (forall k, col < k < x -> hit i k = false) ->
  step_cost hit first (w - 1) i k = if k =? col + 1 then GAP_START else GAP_EXTENSION.
Proof.
  intros H1 H2 H3 H4 H5 H6. unfold step_cost.
  destruct (Nat.ltb_spec (first i) k); [|lia].
  destruct (Nat.eqb_spec k (col + 1)) as [->|].
  - replace (col + 1 - 1) with col by lia. rewrite H2. cbn [negb andb].
    rewrite (later_true _ x) by (auto; lia). rewrite orb_true_r. reflexivity.
  - rewrite (H6 (k - 1)) by lia. reflexivity.
Qed.

Lemma cost_hit x : hit i x = true -> step_cost hit first (w - 1) i x = end_pen i x.
Proof. intros H. unfold step_cost, end_pen. rewrite H. destruct (_ && _); reflexivity. Qed.

Lemma cost_after col k :
  first i <= col -> hit i col = true -> col < k < w ->
  (forall k, col < k < w -> hit i k = false) ->
  step_cost hit first (w - 1) i k = if k =? col + 1 then end_pen i col else GAP_EXTENSION.
Proof.
  intros H1 H2 H3 H6. unfold step_cost.
  destruct (Nat.ltb_spec (first i) k); [|lia].
  destruct (Nat.eqb_spec k (col + 1)) as [->|].
  - replace (col + 1 - 1) with col by lia. rewrite H2. cbn [negb andb].
    rewrite (H6 (col + 1)) by lia. rewrite later_false by (intros; apply H6; lia). cbn [orb].
    unfold end_pen. replace (col + 1 - 2) with (col - 1) by lia. destruct (_ && _); reflexivity.
  - rewrite (H6 (k - 1)) by lia. reflexivity.
Qed.

(** [s0] is the first column which has not been computed, [col] the column of the last hit; before
    the first hit they are equal. *)
Definition pos_ok (col s0 x : nat) : Prop :=
  (s0 = col + 1 /\ first i <= col /\ hit i col = true) \/ (s0 = x /\ col = x /\ x = first i).

Lemma pen_after col s0 x :
  pos_ok col s0 x -> s0 <= x < w -> hit i x = true -> (forall k, s0 <= k < x -> hit i k = false) ->
  (if x - (col + 1) =? 0 then GAP_START else GAP_EXTENSION) = end_pen i x.
Proof.
  intros H Hx Hh Hno. unfold end_pen. destruct H as [(-> & H1 & H2)|(-> & -> & ->)].
  - destruct (Nat.ltb_spec (first i) x); [|lia]. cbn [andb].
    destruct (Nat.eqb_spec (x - (col + 1)) 0).
    + replace (x - 1) with col by lia. rewrite H2. reflexivity.
    + rewrite Hno by lia. reflexivity.
  - replace (first i - (first i + 1)) with 0 by lia. rewrite Nat.ltb_irrefl. reflexivity.
Qed.

Lemma gap_between col s0 x k :
  pos_ok col s0 x -> s0 <= x < w -> hit i x = true -> (forall k, s0 <= k < x -> hit i k = false) ->
  s0 <= k < x ->
  f i k = saturating_sub (f i (k - 1)) (if k =? col + 1 then GAP_START else GAP_EXTENSION).
Proof.
  intros H Hx Hh Hno Hk. destruct H as [(-> & H1 & H2)|(-> & -> & ->)]; [|lia].
  unfold pts_of at 1. rewrite T_gap; [|lia|lia|apply Hno; lia]. cbn [pts]. f_equal.
  apply (cost_between col x); auto; try lia. intros; apply Hno; lia.
Qed.

Lemma gap_after col k :
  first i <= col -> hit i col = true -> col < k < w ->
  (forall k, col < k < w -> hit i k = false) ->
  f i k = saturating_sub (f i (k - 1)) (if k =? col + 1 then end_pen i col else GAP_EXTENSION).
Proof.
  intros H1 H2 H3 H4. unfold pts_of at 1. rewrite T_gap; [|lia|lia|apply H4; lia]. cbn [pts]. f_equal.
  apply cost_after; auto.
Qed.

Lemma cons_skip s0 x : s0 <= x <= w -> (forall k, s0 <= k < x -> hit i k = false) ->
  tab 0 (g i) s0 w = tab 0 (g i) x w.
Proof. intros H1 H2. apply tab_skip; try lia. intros k Hk. apply g_nohit, H2, Hk. Qed.

End Row.

(** ** The first row *)

Ltac frs := cbn [fr_scores fr_consecutives fr_cv fr_max_score fr_prev_score fr_max_score_col fr_column
                 fr_penalty] in *.

Definition row_cells (i : nat) (ms : list nat) : list nat := map (fun x => i * w + x) ms.

Notation F := (flat f w).

Lemma first_row_step ms st x s0 :
  first 0 < w -> hit 0 (first 0) = true -> first 0 = 0 ->
  pos_ok 0 (fr_column st) s0 x -> s0 <= x < w -> hit 0 x = true ->
  (forall k, s0 <= k < x -> hit 0 k = false) ->
  fr_scores st = tab 0%Z (f 0) s0 w -> fr_consecutives st = tab 0 (g 0) s0 w -> ok (fr_cv st) ->
  (s0 = fr_column st + 1 -> fr_prev_score st = f 0 (fr_column st)) ->
  exists cv mx cell,
    first_row_loop s (x :: ms) st
    = first_row_loop s ms (MkFr (tab 0%Z (f 0) (S x) w) (tab 0 (g 0) (S x) w) cv mx (f 0 x) cell x (end_pen 0 x))
    /\ ok cv /\ (mx, cell) = better F (fr_max_score st, fr_max_score_col st) x.
Proof.
  intros Hf Hh H0 Hpos Hx Hhit Hno Hs Hc Hok Hprev. cbn [first_row_loop].
  assert (Hgap : exists ps,
    first_row_gap (x - (fr_column st + 1)) (fr_column st + 1) (fr_scores st) (fr_prev_score st) GAP_START
    = Ok (tab 0%Z (f 0) x w, ps, end_pen 0 x)).
  { rewrite <- (pen_after 0 (fr_column st) s0 x Hpos Hx Hhit Hno), Hs.
    destruct (Nat.eq_dec s0 (fr_column st + 1)) as [->|Hne].
    - rewrite first_row_gap_spec.
      + replace (fr_column st + 1 + (x - (fr_column st + 1))) with x by lia. eauto.
      + lia.
      + lia.
      + rewrite Hprev by reflexivity. rewrite Nat.add_sub. reflexivity.
      + intros k Hk. eapply (gap_between 0); eauto. lia.
    - destruct Hpos as [(? & _)|(-> & -> & _)]; [lia|].
      replace (x - (x + 1)) with 0 by lia. cbn [first_row_gap Nat.eqb]. eauto. }
  destruct Hgap as [ps Hgap]. rewrite Hgap. cbn [bind]. rewrite Hc, (cons_skip 0 s0 x) by (auto; lia).
  assert (Hgx : g 0 x = 1) by (unfold run_of; rewrite T_hit0 by (auto; lia); reflexivity).
  assert (Hset : set_idx (tab 0 (g 0) x w) x 1 = Ok (tab 0 (g 0) (S x) w)).
  { rewrite <- tab_set by lia. f_equal. symmetry. exact Hgx. }
  rewrite Hset. cbn [bind].
  destruct (bonus_at_spec sch l a w Hw c o (fr_cv st) x Hok) as (cv & Eb & Hcv); [lia|].
  rewrite Eb. cbn [bind].
  assert (Hfx : (MATCH + bon x * FIRST_QUERY_CHAR_MULTIPLIER)%Z = f 0 x).
  { unfold pts_of. rewrite T_hit0 by (auto; lia). cbn [pts]. unfold MATCH, FIRST_QUERY_CHAR_MULTIPLIER. lia. }
  assert (Hset' : set_idx (tab 0%Z (f 0) x w) x (MATCH + bon x * FIRST_QUERY_CHAR_MULTIPLIER)%Z
                  = Ok (tab 0%Z (f 0) (S x) w)).
  { rewrite Hfx. apply tab_set. lia. }
  rewrite Hset'. cbn [bind]. rewrite Hfx.
  assert (HF : F x = f 0 x). { rewrite <- (flat_cell f w 0 x) by lia. reflexivity. }
  unfold better. cbn [fst]. rewrite HF.
  destruct (fr_max_score st <? f 0 x)%Z; eexists _, _, _; (split; [reflexivity|]; split; [exact Hcv|reflexivity]).
Qed.

Lemma first_row_loop_spec ms : forall st,
  first 0 = 0 -> hit 0 (first 0) = true ->
  fr_column st < w -> hit 0 (fr_column st) = true ->
  ms = filter (hit 0) (seq (S (fr_column st)) (w - S (fr_column st))) ->
  fr_scores st = tab 0%Z (f 0) (S (fr_column st)) w ->
  fr_consecutives st = tab 0 (g 0) (S (fr_column st)) w ->
  ok (fr_cv st) -> fr_prev_score st = f 0 (fr_column st) -> fr_penalty st = end_pen 0 (fr_column st) ->
  exists st', first_row_loop s ms st = Ok st'
    /\ fr_column st' < w /\ hit 0 (fr_column st') = true
    /\ (forall k, fr_column st' < k < w -> hit 0 k = false)
    /\ fr_scores st' = tab 0%Z (f 0) (S (fr_column st')) w
    /\ fr_consecutives st' = tab 0 (g 0) (S (fr_column st')) w
    /\ ok (fr_cv st') /\ fr_prev_score st' = f 0 (fr_column st')
    /\ fr_penalty st' = end_pen 0 (fr_column st')
    /\ (fr_max_score st', fr_max_score_col st')
       = fold_left (better F) ms (fr_max_score st, fr_max_score_col st).
Proof.
  induction ms as [|x ms IH]; intros st H0 Hh Hcol Hhit Hms Hs Hc Hok Hprev Hpen.
  - exists st. split; [reflexivity|]. do 2 (split; [assumption|]). split.
    + intros k Hk. eapply filter_seq_nil; [symmetry; exact Hms|lia].
    + do 5 (split; [assumption|]). reflexivity.
  - symmetry in Hms. destruct (filter_seq_cons _ _ _ _ _ Hms) as (Hx & Hxh & Hno & Hms').
    destruct (first_row_step ms st x (S (fr_column st))) as (cv & mx & cell & E & Hcv & Hmx); auto; try lia.
    { left. split; [lia|]. split; [lia|exact Hhit]. }
    rewrite E. destruct (IH (MkFr (tab 0%Z (f 0) (S x) w) (tab 0 (g 0) (S x) w) cv mx (f 0 x) cell x (end_pen 0 x)))
      as (st' & E' & R); frs; auto; try lia.
    exists st'. rewrite E'. rewrite Hmx in R. split; [reflexivity|exact R].
Qed.

Lemma score_first_row_spec x0 cv :
  0 < w -> first 0 = 0 -> hit 0 0 = true -> ok cv ->
  cv_matches cv x0 = filter (hit 0) (seq 0 w) ->
  exists cv' mx col,
    score_first_row (tab 0%Z (f 0) 0 w) (tab 0 (g 0) 0 w) x0 cv s
    = Ok (tab 0%Z (f 0) w w, tab 0 (g 0) w w, cv', mx, col)
    /\ ok cv' /\ (mx, col) = fold_left (better F) (filter (hit 0) (seq 0 w)) (0%Z, 0).
Proof.
  intros H0 Hf Hh Hok Hm. unfold score_first_row. rewrite Hm.
  remember (filter (hit 0) (seq 0 w)) as ms eqn:Ems.
  replace w with (w - 0) in Ems by lia. symmetry in Ems.
  destruct ms as [|x ms].
  { rewrite (filter_seq_nil _ _ _ Ems 0) in Hh by lia. discriminate. }
  destruct (filter_seq_cons _ _ _ _ _ Ems) as (Hx & Hxh & Hno & Hms).
  assert (x = 0) as ->.
  { destruct x; [reflexivity|]. rewrite Hno in Hh by lia. discriminate. }
  set (st0 := MkFr (tab 0%Z (f 0) 0 w) (tab 0 (g 0) 0 w) cv 0 0 0 0 GAP_START).
  destruct (first_row_step ms st0 0 0) as (cv1 & mx1 & cell1 & E1 & Hcv1 & Hmx1);
    subst st0; frs; auto; try lia.
  { rewrite Hf. exact Hh. }
  { right. split; [reflexivity|]. split; [reflexivity|]. symmetry. exact Hf. }
  rewrite E1. clear E1.
  edestruct (first_row_loop_spec ms) as (st & E & Hc & Hch & Hno' & Hs & Hcons & Hcv & Hp & Hpen & Hmx);
    [exact Hf|rewrite Hf; exact Hh| | | | | | | | |rewrite E]; frs; auto; try lia.
  cbn [bind]. rewrite Hs, tab_length, Hp, Hpen by lia.
  replace (w - (fr_column st + 1)) with (w - S (fr_column st)) by lia. rewrite <- Nat.add_1_r.
  rewrite first_row_gap_spec.
  - cbn [bind]. replace (fr_column st + 1 + (w - (fr_column st + 1))) with w by lia.
    eexists _, _, _. split; [|split; [exact Hcv|]].
    + rewrite Hcons. rewrite <- (cons_skip 0 (S (fr_column st)) w); [reflexivity|lia|].
      intros k Hk. apply Hno'. lia.
    + rewrite Hmx. cbn [fr_max_score fr_max_score_col fold_left]. rewrite Hmx1. reflexivity.
  - lia.
  - lia.
  - rewrite Nat.add_sub. reflexivity.
  - intros k Hk. apply gap_after; auto; lia.
Qed.

(** ** The other rows *)

Section NextRow.
Variable i : nat.
Hypothesis Hi : i < first (S i).
Notation r := (S i).

Lemma row_step ms st x s0 :
  first r < w ->
  pos_ok r (rr_column st) s0 x -> s0 <= x < w -> first r <= x -> hit r x = true ->
  (forall k, s0 <= k < x -> hit r k = false) ->
  rr_scores st = tab 0%Z (f r) s0 w -> rr_consecutives st = tab 0 (g r) s0 w -> ok (rr_cv st) ->
  exists cv mx cell,
    row_loop s w r (tab 0%Z (f i) w w) (tab 0 (g i) w w) (x :: ms) st
    = row_loop s w r (tab 0%Z (f i) w w) (tab 0 (g i) w w) ms
        (MkRr (tab 0%Z (f r) (S x) w) (tab 0 (g r) (S x) w) cv mx cell x (end_pen r x))
    /\ ok cv /\ (mx, cell) = better F (rr_max_score st, rr_max_score_cell st) (r * w + x).
Proof.
  intros Hf Hpos Hx Hfx Hhit Hno Hs Hc Hok. cbn [row_loop].
  assert (Hgap :
    row_gap (x - (rr_column st + 1)) (rr_column st + 1) (rr_scores st) GAP_START
    = Ok (tab 0%Z (f r) x w, end_pen r x)).
  { rewrite <- (pen_after r (rr_column st) s0 x Hpos Hx Hhit Hno), Hs.
    destruct (Nat.eq_dec s0 (rr_column st + 1)) as [->|Hne].
    - rewrite row_gap_spec.
      + replace (rr_column st + 1 + (x - (rr_column st + 1))) with x by lia. reflexivity.
      + lia.
      + lia.
      + intros k Hk. eapply (gap_between r); eauto. lia.
    - destruct Hpos as [(? & _)|(-> & -> & _)]; [lia|].
      replace (x - (x + 1)) with 0 by lia. reflexivity. }
  rewrite Hgap. cbn [bind]. rewrite usub_ok by lia. cbn [bind].
  rewrite !tab_idx by lia. cbn [bind].
  destruct (bonus_at_spec sch l a w Hw c o (rr_cv st) x Hok) as (cv1 & E1 & Hcv1); [lia|].
  rewrite E1. cbn [bind].
  pose proof (@T_hit hit bon first (w - 1) i x ltac:(lia) Hfx Hhit) as HT. cbv zeta in HT.
  rewrite (cost_hit r x Hhit) in HT.
  set (left := saturating_sub (f r (x - 1)) (end_pen r x)) in *.
  set (n := g i (x - 1)) in *.
  assert (Hn : n <= x). { pose proof (@g_bound hit bon first (w - 1) i (x - 1)). unfold n. lia. }
  assert (Hsel : exists cv2,
    (if (1 <? n + 1)%nat then
       let* fi := usub (x + 1) (n + 1) in
       let* '(fb, cv) := bonus_at cv1 fi s in
       if ((BOUNDARY <=? bon x) && (fb <? bon x))%Z then Ok (bon x, 1%nat, cv)
       else Ok (Z.max (Z.max CONSECUTIVE fb) (bon x), (n + 1)%nat, cv)
     else Ok (bon x, (n + 1)%nat, cv1))
    = (let (b, n') :=
        if S n =? 1 then (bon x, S n)
        else if ((8 <=? bon x) && (bon (S x - S n) <? bon x))%Z then (bon x, 1)
        else (Z.max (Z.max 4 (bon (S x - S n))) (bon x), S n) in Ok (b, n', cv2)) /\ ok cv2).
  { rewrite Nat.add_1_r. destruct n as [|n']; [exists cv1; split; [reflexivity|exact Hcv1]|].
    change (1 <? S (S n')) with true. change (S (S n') =? 1) with false. cbv iota.
    rewrite usub_ok by lia. cbn [bind]. replace (x + 1 - S (S n')) with (S x - S (S n')) by lia.
    destruct (bonus_at_spec sch l a w Hw c o cv1 (S x - S (S n')) Hcv1) as (cv2 & E2 & Hcv2); [lia|].
    rewrite E2. cbn [bind]. exists cv2. split; [|exact Hcv2].
    change BOUNDARY with 8%Z. change CONSECUTIVE with 4%Z.
    destruct (_ && _); reflexivity. }
  destruct Hsel as (cv2 & E2 & Hcv2). rewrite E2. clear E2.
  assert (Hb : forall b n',
    (if S n =? 1 then (bon x, S n)
        else if ((8 <=? bon x) && (bon (S x - S n) <? bon x))%Z then (bon x, 1)
        else (Z.max (Z.max 4 (bon (S x - S n))) (bon x), S n)) = (b, n') -> (bon x <= b)%Z).
  { intros b n'. destruct (S n =? 1); [|destruct (_ && _)]; intros [= <- <-]; lia. }
  destruct (if S n =? 1 then (bon x, S n)
        else if ((8 <=? bon x) && (bon (S x - S n) <? bon x))%Z then (bon x, 1)
        else (Z.max (Z.max 4 (bon (S x - S n))) (bon x), S n)) as [b n'].
  specialize (Hb b n' eq_refl). cbn [bind].
  change MATCH with 16%Z. change (pts_of T i (x - 1)) with (f i (x - 1)) in *.
  assert (Hfin : exists cv3,
    (if (f i (x - 1)%nat + 16 + b <? left)%Z then
       let* '(b, cv) := bonus_at cv2 x s in Ok ((f i (x - 1)%nat + 16 + b)%Z, 0%nat, cv)
     else Ok ((f i (x - 1)%nat + 16 + b)%Z, n', cv2))
    = Ok (if (f i (x - 1)%nat + 16 + b <? left)%Z then (f i (x - 1)%nat + 16 + bon x)%Z
          else (f i (x - 1)%nat + 16 + b)%Z, g r x, cv3) /\ ok cv3).
  { unfold run_of at 1. rewrite HT. destruct (_ <? left)%Z.
    - destruct (bonus_at_spec sch l a w Hw c o cv2 x Hcv2) as (cv3 & E3 & Hcv3); [lia|].
      rewrite E3. cbn [bind]. exists cv3. split; [reflexivity|exact Hcv3].
    - exists cv2. split; [reflexivity|exact Hcv2]. }
  destruct Hfin as (cv3 & E3 & Hcv3). rewrite E3. cbn [bind].
  assert (Hpts : Z.max left (if (f i (x - 1)%nat + 16 + b <? left)%Z then (f i (x - 1)%nat + 16 + bon x)%Z
          else (f i (x - 1)%nat + 16 + b)%Z) = f r x).
  { change (f r x) with (pts (T r x)). rewrite HT. destruct (Z.ltb_spec (f i (x - 1) + 16 + b) left); cbn [pts]; lia. }
  rewrite Hpts. clear E3.
  assert (HF : F (r * w + x) = f r x) by (apply flat_cell; lia).
  unfold better. cbn [fst]. rewrite HF.
  destruct (if (rr_max_score st <? f r x)%Z then (f r x, r * w + x)
            else (rr_max_score st, rr_max_score_cell st)) as [mx cell] eqn:Emx.
  rewrite Hc, (cons_skip r s0 x) by (auto; lia). rewrite tab_set by lia. cbn [bind].
  rewrite tab_set by lia. cbn [bind]. exists cv3, mx, cell. split; [reflexivity|]. split; [exact Hcv3|reflexivity].
Qed.

Ltac rrs := cbn [rr_scores rr_consecutives rr_cv rr_max_score rr_max_score_cell rr_column rr_penalty] in *.

Lemma row_loop_spec ms : forall st,
  first r < w -> first r <= rr_column st < w -> hit r (rr_column st) = true ->
  ms = filter (hit r) (seq (S (rr_column st)) (w - S (rr_column st))) ->
  rr_scores st = tab 0%Z (f r) (S (rr_column st)) w ->
  rr_consecutives st = tab 0 (g r) (S (rr_column st)) w ->
  ok (rr_cv st) -> rr_penalty st = end_pen r (rr_column st) ->
  exists st', row_loop s w r (tab 0%Z (f i) w w) (tab 0 (g i) w w) ms st = Ok st'
    /\ first r <= rr_column st' < w /\ hit r (rr_column st') = true
    /\ (forall k, rr_column st' < k < w -> hit r k = false)
    /\ rr_scores st' = tab 0%Z (f r) (S (rr_column st')) w
    /\ rr_consecutives st' = tab 0 (g r) (S (rr_column st')) w
    /\ ok (rr_cv st')
    /\ rr_penalty st' = end_pen r (rr_column st')
    /\ (rr_max_score st', rr_max_score_cell st')
       = fold_left (better F) (row_cells r ms) (rr_max_score st, rr_max_score_cell st).
Proof.
  induction ms as [|x ms IH]; intros st Hf Hcol Hhit Hms Hs Hc Hok Hpen.
  - exists st. split; [reflexivity|]. do 2 (split; [assumption|]). split.
    + intros k Hk. eapply filter_seq_nil; [symmetry; exact Hms|lia].
    + do 4 (split; [assumption|]). reflexivity.
  - symmetry in Hms. destruct (filter_seq_cons _ _ _ _ _ Hms) as (Hx & Hxh & Hno & Hms').
    destruct (row_step ms st x (S (rr_column st))) as (cv & mx & cell & E & Hcv & Hmx); auto; try lia.
    { left. split; [lia|]. split; [lia|exact Hhit]. }
    rewrite E. destruct (IH (MkRr (tab 0%Z (f r) (S x) w) (tab 0 (g r) (S x) w) cv mx cell x (end_pen r x)))
      as (st' & E' & R); rrs; auto; try lia.
    exists st'. rewrite E'. split; [reflexivity|]. cbn [row_cells map fold_left]. rewrite <- Hmx. exact R.
Qed.

Lemma row_spec cv mx cell :
  first r < w -> hit r (first r) = true -> ok cv ->
  exists st,
    row_loop s w r (tab 0%Z (f i) w w) (tab 0 (g i) w w) (filter (hit r) (seq (first r) (w - first r)))
      (MkRr (tab 0%Z (f r) 0 w) (tab 0 (g r) 0 w) cv mx cell (first r) GAP_START) = Ok st
    /\ (exists pen, row_gap (w - (rr_column st + 1)) (rr_column st + 1) (rr_scores st) (rr_penalty st)
                    = Ok (tab 0%Z (f r) w w, pen))
    /\ rr_consecutives st = tab 0 (g r) w w /\ ok (rr_cv st)
    /\ (rr_max_score st, rr_max_score_cell st)
       = fold_left (better F) (row_cells r (filter (hit r) (seq (first r) (w - first r)))) (mx, cell).
Proof.
  intros Hf Hh Hok.
  remember (filter (hit r) (seq (first r) (w - first r))) as ms eqn:Ems. symmetry in Ems.
  destruct ms as [|x ms].
  { rewrite (filter_seq_nil _ _ _ Ems (first r)) in Hh by lia. discriminate. }
  destruct (filter_seq_cons _ _ _ _ _ Ems) as (Hx & Hxh & Hno & Hms).
  assert (x = first r) as ->.
  { destruct (Nat.eq_dec x (first r)); [assumption|]. rewrite Hno in Hh by lia. discriminate. }
  destruct (row_step ms (MkRr (tab 0%Z (f r) 0 w) (tab 0 (g r) 0 w) cv mx cell (first r) GAP_START)
              (first r) (first r)) as (cv1 & mx1 & cell1 & E1 & Hcv1 & Hmx1); rrs; auto; try lia.
  { right. auto. }
  { apply tab_skip; [lia|lia|]. intros k Hk. unfold pts_of. rewrite T_before by lia. reflexivity. }
  { apply tab_skip; [lia|lia|]. intros k Hk. unfold run_of. rewrite T_before by lia. reflexivity. }
  rewrite E1. clear E1.
  edestruct (row_loop_spec ms) as (st & E & Hc & Hch & Hno' & Hs & Hcons & Hcv & Hpen & Hmx);
    [exact Hf| | | | | | | |rewrite E]; rrs; auto; try lia.
  exists st. split; [reflexivity|]. split; [|split; [|split]].
  - rewrite Hs, Hpen. replace (S (rr_column st)) with (rr_column st + 1) by lia. rewrite row_gap_spec.
    + replace (rr_column st + 1 + (w - (rr_column st + 1))) with w by lia. eauto.
    + lia.
    + lia.
    + intros k Hk. apply gap_after; auto; lia.
  - rewrite Hcons. apply cons_skip; [lia|]. intros k Hk. apply Hno'. lia.
  - exact Hcv.
  - rewrite Hmx. cbn [row_cells map fold_left]. rewrite <- Hmx1. reflexivity.
Qed.

End NextRow.

(** ** All rows *)

Section AllRows.
Variables (p : pattern) (matches : list nat).
Notation h := (p_char_len p).
Hypothesis Hmatches : forall i, i < h -> idx matches i = Ok (first i).
Hypothesis Hfirst : forall i, i < h -> i <= first i < w.
Hypothesis Hhit : forall i, i < h -> hit i (first i) = true.
Hypothesis Hchar : forall i, i < h -> exists x, p_char p i = Ok x
  /\ forall cv off, ok cv -> off <= w -> cv_matches_from cv off x = Ok (filter (hit i) (seq off (w - off))).

Definition cells (i n : nat) : list nat :=
  flat_map (fun i => row_cells i (filter (hit i) (seq (first i) (w - first i)))) (seq i n).

Lemma score_remaining_rows_spec : forall n i cv mx cell,
  S i + n = h -> ok cv ->
  exists cv' mx' cell',
    score_remaining_rows n (S i) s p matches
      (MkMatrix (rows 0%Z f w (S i) h) h w) (MkMatrix (rows 0 g w (S i) h) h w) cv mx cell
    = Ok (MkMatrix (rows 0%Z f w h h) h w, MkMatrix (rows 0 g w h h) h w, cv', mx', cell')
    /\ ok cv' /\ (mx', cell') = fold_left (better F) (cells (S i) n) (mx, cell).
Proof.
  induction n as [|n IH]; intros i cv mx cell Hn Hok; cbn [score_remaining_rows].
  - rewrite Nat.add_0_r in Hn. rewrite Hn. exists cv, mx, cell.
    split; [reflexivity|]. split; [exact Hok|reflexivity].
  - destruct (Hchar (S i)) as (x & Ex & Hx); [lia|]. rewrite Ex. cbn [bind].
    rewrite usub_ok by lia. cbn [bind].
    rewrite two_rows_mut_rows by lia. cbn [bind].
    rewrite two_rows_mut_rows by lia. cbn [bind].
    rewrite Hmatches by lia. cbn [bind].
    pose proof (Hfirst (S i) ltac:(lia)) as Hfi.
    rewrite Hx by (auto; lia). cbn [bind m_width].
    replace (S i - 1) with i by lia.
    destruct (row_spec i ltac:(lia) cv mx cell) as (st & E & (pen & Eg) & Hc & Hcv & Hmx);
      [lia|apply Hhit; lia|exact Hok|].
    rewrite E. cbn [bind]. rewrite Eg. cbn [bind]. rewrite Hc.
    rewrite put_row_rows by lia. rewrite put_row_rows by lia. rewrite Nat.add_1_r.
    destruct (IH (S i) (rr_cv st) (rr_max_score st) (rr_max_score_cell st)) as (cv' & mx' & cell' & E' & Hcv' & Hmx');
      [lia|exact Hcv|].
    exists cv', mx', cell'. rewrite E'. split; [reflexivity|]. split; [exact Hcv'|].
    rewrite Hmx', Hmx. unfold cells. cbn [seq flat_map]. rewrite fold_left_app. reflexivity.
Qed.

Lemma v2_score_spec sv gv cv :
  0 < h -> first 0 = 0 -> ok cv -> (forall q, cv_matches_from cv 0 q = Ok (cv_matches cv q)) ->
  cand_char_len (cv_base cv) = w ->
  exists cv' mx cell sv' gv',
    v2_score sv gv p cv matches s
    = Ok (MkMatrix (rows 0%Z f w h h) h w, MkMatrix (rows 0 g w h h) h w, cv', mx, cell, sv', gv')
    /\ ok cv' /\ (mx, cell) = fold_left (better F) (cells 0 h) (0%Z, 0)
    /\ length sv' = Nat.max (length sv) (h * w) /\ length gv' = Nat.max (length gv) (h * w).
Proof.
  intros Hh H0 Hok Hm Hlen. unfold v2_score. rewrite Hlen.
  pose proof (Hfirst 0 Hh) as Hf0.
  destruct (matrix_alloc_spec 0%Z sv w h f) as (sv' & E1 & L1); [lia|lia|]. rewrite E1. cbn [bind].
  destruct (matrix_alloc_spec 0 gv w h g) as (gv' & E2 & L2); [lia|lia|]. rewrite E2. cbn [bind].
  rewrite !row_mut_new by lia. cbn [bind].
  destruct (Hchar 0 Hh) as (x & Ex & Hx). rewrite Ex. cbn [bind].
  pose proof (Hx cv 0 Hok ltac:(lia)) as Hx0. rewrite Hm, Nat.sub_0_r in Hx0. injection Hx0 as Hx0.
  destruct (score_first_row_spec x cv) as (cv1 & mx1 & col1 & E3 & Hcv1 & Hmx1);
    [lia|exact H0|rewrite <- H0 at 2; apply Hhit; lia|exact Hok|exact Hx0|].
  rewrite E3. cbn [bind m_height].
  rewrite !put_row_rows by lia.
  destruct (score_remaining_rows_spec (h - 1) 0 cv1 mx1 col1) as (cv2 & mx2 & cell2 & E4 & Hcv2 & Hmx2);
    [lia|exact Hcv1|].
  rewrite E4. cbn [bind]. eexists _, _, _, _, _. split; [reflexivity|]. split; [exact Hcv2|].
  split; [|unfold put_back; rewrite !app_length, !skipn_length; cbn [m_slice]; rewrite !rows_length, L1, L2 by lia; lia].
  rewrite Hmx2, Hmx1. unfold cells. replace h with (S (h - 1)) at 2 by lia. cbn [seq flat_map].
  rewrite fold_left_app. rewrite H0, Nat.sub_0_r.
  replace (row_cells 0 (filter (hit 0) (seq 0 w))) with (filter (hit 0) (seq 0 w)); [reflexivity|].
  symmetry. apply map_id.
Qed.

End AllRows.

End Rows.
