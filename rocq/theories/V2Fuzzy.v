(** The fuzzy search of FzfV2: the table of Spec, its best cell, and the way back. *)
From Coq Require Import Sorted.
From Verif Require Import Prelude Chars Utils Candidate MatchedRanges Query Scoring Slab Fzf FzfV1 FzfV2
  Spec PreludeProofs CharsProofs NormalizeProofs CandidateProofs MatchedRangesProofs ScoreProofs ExactProofs
  ShapeProofs V1Proofs V2Tables V2Proofs V2Rows.
Local Open Scope nat_scope.

(** ** The running maximum *)

Lemma better_fold F : forall cs m k,
  StronglySorted lt cs ->
  let r := fold_left (better F) cs (m, k) in
  (r = (m, k) /\ Forall (fun x => F x <= m)%Z cs)
  \/ (In (snd r) cs /\ fst r = F (snd r) /\ (m < fst r)%Z
      /\ Forall (fun x => F x <= fst r)%Z cs
      /\ Forall (fun x => x < snd r -> (F x < fst r)%Z) cs).
Proof.
  induction cs as [|c cs IH]; intros m k Hs r; [left; split; [reflexivity|constructor]|].
  apply StronglySorted_inv in Hs as [Hs Hc]. unfold r. cbn [fold_left].
  
  assert (Eb : better F (m, k) c = if (m <? F c)%Z then (F c, c) else (m, k)) by reflexivity.
  rewrite Eb. clear Eb. destruct (Z.ltb_spec m (F c)).
  - right. destruct (IH (F c) c Hs) as [[E HF]|(H1 & H2 & H3 & H4 & H5)].
    + rewrite E. cbn [fst snd]. split; [left; reflexivity|]. split; [reflexivity|]. split; [lia|].
      split; constructor; [lia|exact HF|intros; lia|].
      eapply Forall_impl; [|exact Hc]. intros x Hx Hlt. cbn beta in *. lia.
    + split; [right; exact H1|]. split; [exact H2|]. split; [lia|]. split; constructor; auto; lia.
  - destruct (IH m k Hs) as [[E HF]|(H1 & H2 & H3 & H4 & H5)].
    + left. rewrite E. split; [reflexivity|]. constructor; auto.
    + right. split; [right; exact H1|]. split; [exact H2|]. split; [lia|].
      split; constructor; auto; lia.
Qed.

Lemma filter_sorted (h : nat -> bool) l : StronglySorted lt l -> StronglySorted lt (filter h l).
Proof.
  induction 1 as [|x l Hs IH Hx]; simpl; [constructor|]. destruct (h x); [|exact IH].
  constructor; [exact IH|]. rewrite Forall_forall in *. intros y Hy. apply Hx.
  apply filter_In in Hy. apply Hy.
Qed.

Lemma seq_sorted s n : StronglySorted lt (seq s n).
Proof.
  revert s. induction n as [|n IH]; intros s; simpl; constructor; auto.
  apply Forall_forall. intros x Hx. apply in_seq in Hx. lia.
Qed.

Lemma map_add_sorted k l : StronglySorted lt l -> StronglySorted lt (map (fun x => k + x) l).
Proof.
  induction 1 as [|x l Hs IH Hx]; simpl; constructor; auto.
  rewrite Forall_forall in *. intros y Hy. apply in_map_iff in Hy as (z & <- & Hz).
  apply Hx in Hz. lia.
Qed.

Section Cells.
Variables (hit : nat -> nat -> bool) (first : nat -> nat) (w : nat).
Notation cells := (cells w hit first).

Lemma in_cells i n x : In x (cells i n) <->
  exists r k, x = r * w + k /\ i <= r < i + n /\ first r <= k < w /\ hit r k = true.
Proof.
  unfold V2Rows.cells. rewrite in_flat_map. split.
  - intros (r & Hr & Hx). apply in_seq in Hr. unfold row_cells in Hx.
    apply in_map_iff in Hx as (k & <- & Hk). apply filter_In in Hk as [Hk Hh]. apply in_seq in Hk.
    exists r, k. repeat split; auto; lia.
  - intros (r & k & -> & Hr & Hk & Hh). exists r. split; [apply in_seq; lia|].
    apply in_map_iff. exists k. split; [reflexivity|]. apply filter_In. split; [apply in_seq; lia|exact Hh].
Qed.

Lemma cells_sorted n : forall i, StronglySorted lt (cells i n).
Proof.
  induction n as [|n IH]; intros i; [constructor|].
  unfold V2Rows.cells. cbn [seq flat_map]. apply ssorted_app.
  - unfold row_cells. apply map_add_sorted, filter_sorted, seq_sorted.
  - apply (IH (S i)).
  - intros x y Hx Hy. fold (cells (S i) n) in Hy. apply in_cells in Hy as (r & k & -> & Hr & Hk & _).
    unfold row_cells in Hx. apply in_map_iff in Hx as (k' & <- & Hk').
    apply filter_In in Hk' as [Hk' _]. apply in_seq in Hk'.
    assert (S i * w <= r * w) by (apply Nat.mul_le_mono_r; lia). simpl in *. lia.
Qed.

End Cells.

(** ** The table seen from its first column *)

Section Shift.
Context {UC : unicode}.
Variables (sch : fzf_scheme) (l : list char) (a w : nat).
Variables (hit : nat -> nat -> bool) (first : nat -> nat).
Notation stop := (a + (w - 1)).
Notation hit' := (fun i k => hit i (a + k)).
Notation first' := (fun i => first i - a).
Notation T := (table hit (bonus_of sch l) first stop).
Notation T' := (table hit' (bonus_in sch l a) first' (w - 1)).

Lemma shift_later i k : later_hit hit stop i (a + k) = later_hit hit' (w - 1) i k.
Proof.
  unfold later_hit. replace (stop - (a + k)) with (w - 1 - k) by lia.
  replace (S (a + k)) with (a + S k) by lia.
  generalize (w - 1 - k) (S k). clear. intros n. induction n as [|n IH]; intros k; [reflexivity|].
  cbn [seq existsb]. f_equal. replace (S (a + k)) with (a + S k) by lia. apply IH.
Qed.

Lemma shift_cost i k : a <= first i -> first i <= a + k ->
  step_cost hit first stop i (a + k) = step_cost hit' first' (w - 1) i k.
Proof.
  intros Ha Hk. unfold step_cost. rewrite shift_later.
  assert (E1 : (first i <? a + k) && negb (hit i (a + k - 1))
               = (first i - a <? k) && negb (hit i (a + (k - 1)))).
  { destruct (Nat.ltb_spec (first i) (a + k)), (Nat.ltb_spec (first i - a) k); try lia; try reflexivity.
    cbn [andb]. f_equal. f_equal. lia. }
  rewrite E1.
  assert (E2 : (first i <? a + k - 1) && negb (hit i (a + k - 2))
               = (first i - a <? k - 1) && negb (hit i (a + (k - 2)))).
  { destruct (Nat.ltb_spec (first i) (a + k - 1)), (Nat.ltb_spec (first i - a) (k - 1)); try lia; try reflexivity.
    cbn [andb]. f_equal. f_equal. lia. }
  rewrite E2. reflexivity.
Qed.

Lemma shift_table i : a = first 0 -> hit 0 a = true -> (forall j, j <= i -> a + j <= first j) ->
  forall k, T i (a + k) = T' i k.
Proof.
  intros H0 Hh. induction i as [|i IHi]; intros Hf.
  - induction k as [|k IHk].
    + rewrite Nat.add_0_r. rewrite T_hit0; [|lia|exact Hh].
      rewrite T_hit0; [|lia|rewrite Nat.add_0_r; exact Hh]. unfold bonus_in. rewrite Nat.add_0_r. reflexivity.
    + destruct (hit 0 (a + S k)) eqn:E.
      * rewrite T_hit0 by (auto; lia). rewrite T_hit0 by (auto; lia). reflexivity.
      * rewrite T_gap by (auto; lia). rewrite T_gap by (auto; lia).
        rewrite shift_cost by lia. unfold pts_of. replace (a + S k - 1) with (a + k) by lia.
        replace (S k - 1) with k by lia. rewrite IHk. reflexivity.
  - specialize (IHi ltac:(intros j Hj; apply Hf; lia)).
    pose proof (Hf (S i) ltac:(lia)) as Hfi. induction k as [|k IHk].
    + rewrite !T_before by lia. reflexivity.
    + destruct (Nat.lt_ge_cases (a + S k) (first (S i))) as [Hlt|Hge].
      { rewrite !T_before by lia. reflexivity. }
      destruct (hit (S i) (a + S k)) eqn:E.
      * rewrite T_hit by (auto; lia). rewrite T_hit by (auto; lia).
        rewrite shift_cost by lia. unfold pts_of, run_of. replace (a + S k - 1) with (a + k) by lia.
        replace (S k - 1) with k by lia. rewrite IHk, IHi.
        pose proof (@g_bound hit' (bonus_in sch l a) first' (w - 1) i k) as Hb. unfold run_of in Hb.
        replace (S (a + S k) - S (run (T' i k))) with (a + (S (S k) - S (run (T' i k)))) by lia. reflexivity.
      * rewrite T_gap by (auto; lia). rewrite T_gap by (auto; lia).
        rewrite shift_cost by lia. unfold pts_of. replace (a + S k - 1) with (a + k) by lia.
        replace (S k - 1) with k by lia. rewrite IHk. reflexivity.
Qed.

End Shift.

(** ** The way back *)

Section Back.
Context {UC : unicode}.
Variables (sch : fzf_scheme) (l : list char) (a w h : nat).
Hypothesis Hw : a + w <= length l.
Variables (c : candidate).
Hypothesis Hc : cand_ok c.
Hypothesis Hslice : cand_slice c = firstn w (skipn a l).
Variables (hit : nat -> nat -> bool) (first : nat -> nat).
Notation T := (table hit (bonus_in sch l a) first (w - 1)).
Notation f := (pts_of T).
Notation g := (run_of T).
Notation S_ := (MkMatrix (rows 0%Z f w h h) h w).
Notation G_ := (MkMatrix (rows 0 g w h h) h w).

Lemma prefer_spec i col : i < h -> col < w ->
  match m_get_value G_ (down_right G_ (i * w + col)) with
  | None => false
  | Some x => 0 <? x
  end = (S i <? h) && (col <? w - 1) && (0 <? run (T (S i) (S col))).
Proof.
  intros Hi Hcol. rewrite m_get_value_rows. unfold down_right. cbn [m_width].
  destruct (Nat.ltb_spec col (w - 1)) as [H1|H1].
  - replace (i * w + col + w + 1) with (S i * w + S col) by (simpl; lia).
    rewrite flat_cell by lia. rewrite andb_true_r.
    destruct (Nat.ltb_spec (S i) h) as [H2|H2].
    + assert (S (S i) * w <= h * w) by (apply Nat.mul_le_mono_r; lia).
      destruct (Nat.ltb_spec (S i * w + S col) (h * w)); [reflexivity|]. simpl in *. lia.
    + assert (h * w <= S i * w) by (apply Nat.mul_le_mono_r; lia).
      destruct (Nat.ltb_spec (S i * w + S col) (h * w)); [lia|reflexivity].
  - rewrite andb_false_r. cbn [andb].
    replace (i * w + col + w + 1) with (S (S i) * w + 0) by (simpl; lia).
    rewrite flat_cell by lia. destruct (_ <? h * w); reflexivity.
Qed.

Lemma window_char col : col < w -> cand_char c col = Ok (nth (a + col) l 0%N).
Proof.
  intros H. rewrite cand_char_spec, Hslice. apply idx_nth_error.
  rewrite nth_error_firstn, nth_error_skipn. destruct (Nat.ltb_spec col w); [|lia].
  apply nth_error_nth'. lia.
Qed.

Lemma window_offset col : col < w ->
  exists b, to_byte_offset c col = Ok b
    /\ (b + byte_len (firstn a l), b + byte_len (firstn a l) + len_utf8 (nth (a + col) l 0%N))
       = char_range l (a + col).
Proof.
  intros H. rewrite to_byte_offset_spec.
  - eexists. split; [reflexivity|].
    rewrite (char_range_end l (a + col) (nth (a + col) l 0%N)) by (apply nth_error_nth'; lia).
    assert (E : byte_len (firstn col (cand_slice c)) + byte_len (firstn a l) = byte_len (firstn (a + col) l)).
    { rewrite Hslice, firstn_firstn. replace (Nat.min col w) with col by lia.
      rewrite <- (firstn_skipn a (firstn (a + col) l)), byte_len_app.
      rewrite firstn_firstn, skipn_firstn_comm. replace (Nat.min a (a + col)) with a by lia.
      replace (a + col - a) with col by lia. lia. }
    rewrite E. reflexivity.
  - exact Hc.
  - rewrite Hslice, firstn_length, skipn_length. lia.
Qed.

Lemma back_loop_spec pre : forall col fuel i prefer own,
  col < fuel -> col < w -> i < h -> chain 0 own ->
  matched_ranges_loop fuel S_ G_ c (byte_len (firstn a l)) prefer (i * w + col) col i (mk pre own)
  = Ok (mk pre (inserts own
      (map (fun k => char_range l (a + k)) (way_back hit (bonus_in sch l a) first (w - 1) h i col prefer)))).
Proof.
  induction col as [|col IH]; intros fuel i prefer own Hf Hcol Hi Ho;
    (destruct fuel as [|fuel]; [lia|]); cbn [matched_ranges_loop Nat.eqb orb bind].
  - rewrite !m_index_rows by lia. cbn [bind].
    rewrite prefer_spec by lia. cbn [way_back].
    assert (Ed : match i with 0 | _ => 0%Z end = 0%Z) by (destruct i; reflexivity). rewrite Ed.
    change (pts (T i 0)) with (f i 0).
    set (cond := andb (Z.ltb _ (f i 0)) (orb _ _)). destruct cond.
    + destruct (window_offset 0 Hcol) as (b & Eb & Er). rewrite Eb. cbn [bind].
      rewrite window_char by exact Hcol. cbn [bind]. rewrite Er.
      destruct (char_range l (a + 0)) as [x y] eqn:Exy. rewrite (mr_insert_spec _ _ _ _ 0) by exact Ho. cbn [bind].
      rewrite orb_true_r. destruct i; cbn [map inserts fold_left]; rewrite Exy; reflexivity.
    + reflexivity.
  - unfold cell_left at 1. rewrite usub_ok by lia. cbn [bind].
    replace (i * w + S col - 1) with (i * w + col) by lia.
    rewrite !m_index_rows by lia. cbn [bind].
    assert (Eul : (if i =? 0 then Ok 0%Z
                   else let* x := up_left S_ (i * w + S col) in m_index S_ x)
                  = Ok match i with 0 => 0%Z | S i' => f i' col end).
    { destruct i as [|i]; [reflexivity|]. cbn [Nat.eqb]. unfold up_left. cbn [m_width].
      rewrite usub_ok by (simpl; lia). cbn [bind]. rewrite usub_ok by (simpl; lia). cbn [bind].
      replace (S i * w + S col - w - 1) with (i * w + col) by (simpl; lia).
      apply m_index_rows; lia. }
    rewrite Eul. cbn [bind]. rewrite prefer_spec by lia. cbn [way_back].
    change (pts (T i (S col))) with (f i (S col)). change (pts (T i col)) with (f i col).
    change (run (T i (S col))) with (g i (S col)).
    set (prefer' := (1 <? g i (S col)) || _).
    assert (Ed : match i with 0 => 0%Z | S i' => pts (T i' col) end = match i with 0 => 0%Z | S i' => f i' col end)
      by reflexivity.
    rewrite Ed. clear Ed. set (cond := andb (Z.ltb _ (f i (S col))) (orb _ _)). destruct cond.
    + destruct (window_offset (S col) Hcol) as (b & Eb & Er). rewrite Eb. cbn [bind].
      rewrite window_char by exact Hcol. cbn [bind]. rewrite Er.
      destruct (char_range l (a + S col)) as [x y] eqn:Exy. rewrite (mr_insert_spec _ _ _ _ 0) by exact Ho. cbn [bind].
      assert (Hxy : x < y).
      { pose proof (char_range_proper l (a + S col) ltac:(lia)) as Hp. rewrite Exy in Hp. exact Hp. }
      destruct i as [|i]; cbn [Nat.eqb orb].
      * cbn [map inserts fold_left]; rewrite Exy; reflexivity.
      * rewrite usub_ok by lia. cbn [bind]. unfold up_left. cbn [m_width].
        rewrite usub_ok by (simpl; lia). cbn [bind]. rewrite usub_ok by (simpl; lia). cbn [bind].
        rewrite usub_ok by lia. cbn [bind].
        replace (S i * w + S col - w - 1) with (i * w + col) by (simpl; lia).
        replace (S col - 1) with col by lia. replace (S i - 1) with i by lia.
        rewrite IH; try lia.
        -- cbn [map inserts fold_left]. rewrite Exy. reflexivity.
        -- apply ins_chain; auto. lia.
    + unfold cell_left. rewrite usub_ok by lia. cbn [bind]. rewrite usub_ok by lia. cbn [bind].
      replace (i * w + S col - 1) with (i * w + col) by lia.
      replace (S col - 1) with col by lia. apply IH; try lia. exact Ho.
Qed.

End Back.

Section BackFacts.
Variables (hit : nat -> nat -> bool) (bonus : nat -> Z) (first : nat -> nat) (stop h : nat).
Notation T := (table hit bonus first stop).
Notation back := (way_back hit bonus first stop h).

Definition pref (i j : nat) : bool :=
  (1 <? run (T i j)) || ((S i <? h) && (j <? stop) && (0 <? run (T (S i) (S j)))).

(** Does the walk highlight this column? *)
Definition taken (i j : nat) (prefer : bool) : bool :=
  Z.ltb (match i, j with S i', S j' => pts (T i' j') | _, _ => 0%Z end) (pts (T i j))
  && (Z.ltb (match j with 0 => 0%Z | S j' => pts (T i j') end) (pts (T i j))
      || (Z.eqb (pts (T i j)) (match j with 0 => 0%Z | S j' => pts (T i j') end) && prefer)).

Lemma back_eq i j prefer :
  back i j prefer =
  if taken i j prefer then
    j :: match i, j with S i', S j' => back i' j' (pref i j) | _, _ => [] end
  else match j with 0 => [] | S j' => back i j' (pref i j) end.
Proof. destruct j, i; reflexivity. Qed.

Lemma back_before : forall j i prefer,
  i < h -> (forall i, i < h -> j < first i) -> back i j prefer = [].
Proof.
  induction j as [|j IH]; intros i prefer Hi Hf; rewrite back_eq.
  - replace (taken i 0 prefer) with false; [reflexivity|]. unfold taken.
    rewrite (T_before i 0) by auto. destruct i; reflexivity.
  - replace (taken i (S j) prefer) with false.
    + apply IH; auto. intros i' Hi'. specialize (Hf i' Hi'). lia.
    + unfold taken. rewrite (T_before i (S j)) by auto.
      replace (match i with 0 => 0%Z | S i' => pts (T i' j) end) with 0%Z; [reflexivity|].
      destruct i as [|i]; [reflexivity|].
      rewrite (T_before i j); [reflexivity|]. specialize (Hf i ltac:(lia)). lia.
Qed.

Lemma back_bound : forall j i prefer, Forall (fun x => x <= j) (back i j prefer).
Proof.
  induction j as [|j IH]; intros i prefer; rewrite back_eq.
  - destruct (taken _ _ _); [|constructor]. constructor; [lia|]. destruct i; constructor.
  - assert (Hw : forall i prefer, Forall (fun x => x <= S j) (back i j prefer)).
    { intros i' p'. eapply Forall_impl; [|apply IH]. cbv beta. intros. lia. }
    destruct (taken _ _ _); [constructor; [lia|]|]; [destruct i; [constructor|]|]; apply Hw.
Qed.

(** From right to left. *)
Lemma back_sorted : forall j i prefer, StronglySorted (fun x y => y < x) (back i j prefer).
Proof.
  induction j as [|j IH]; intros i prefer; rewrite back_eq.
  - destruct (taken _ _ _); [|constructor]. destruct i; repeat constructor.
  - destruct (taken _ _ _); [|apply IH]. destruct i as [|i]; [repeat constructor|].
    constructor; [apply IH|]. eapply Forall_impl; [|apply back_bound]. cbv beta. intros. lia.
Qed.

End BackFacts.

Section ShiftBack.
Context {UC : unicode}.
Variables (sch : fzf_scheme) (l : list char) (a w h : nat).
Variables (hit : nat -> nat -> bool) (first : nat -> nat).
Notation stop := (a + (w - 1)).
Notation hit' := (fun i k => hit i (a + k)).
Notation first' := (fun i => first i - a).
Hypothesis H0 : a = first 0.
Hypothesis Hh : hit 0 a = true.
Hypothesis Hf : forall j, j < h -> a + j <= first j.

Lemma shift_back : forall k i prefer, i < h ->
  way_back hit (bonus_of sch l) first stop h i (a + k) prefer
  = map (Nat.add a) (way_back hit' (bonus_in sch l a) first' (w - 1) h i k prefer).
Proof.
  assert (HT : forall i k, i < h ->
    table hit (bonus_of sch l) first stop i (a + k) = table hit' (bonus_in sch l a) first' (w - 1) i k).
  { intros i k Hi. apply shift_table; auto. intros j Hj. apply Hf. lia. }
  assert (Hpref : forall i k, i < h ->
    pref hit (bonus_of sch l) first stop h i (a + k) = pref hit' (bonus_in sch l a) first' (w - 1) h i k).
  { intros i k Hi. unfold pref. rewrite HT by exact Hi. f_equal.
    replace (S (a + k)) with (a + S k) by lia.
    destruct (Nat.ltb_spec (S i) h); [|reflexivity]. rewrite HT by lia. f_equal. f_equal.
    destruct (Nat.ltb_spec (a + k) stop), (Nat.ltb_spec k (w - 1)); try lia; reflexivity. }
  assert (Hz : forall i, i < h -> forall j, j < a -> pts (table hit (bonus_of sch l) first stop i j) = 0%Z).
  { intros i Hi j Hj. rewrite T_before; [reflexivity|]. specialize (Hf i Hi). lia. }
  assert (Hb : forall i j prefer, i < h -> j < a ->
             way_back hit (bonus_of sch l) first stop h i j prefer = []).
  { intros i j prefer Hi Hj. apply back_before; auto. intros i' Hi'. specialize (Hf i' Hi'). lia. }
  induction k as [|k IH]; intros i prefer Hi.
  - rewrite Nat.add_0_r, (back_eq _ _ _ _ _ i a), (back_eq _ _ _ _ _ i 0).
    assert (Et : taken hit (bonus_of sch l) first stop i a prefer
                 = taken hit' (bonus_in sch l a) first' (w - 1) i 0 prefer).
    { unfold taken. rewrite <- (HT i 0 Hi), Nat.add_0_r.
      replace (match i, a with S i', S j' => pts (table hit (bonus_of sch l) first stop i' j') | _, _ => 0%Z end) with 0%Z.
      - replace (match a with 0 => 0%Z | S j' => pts (table hit (bonus_of sch l) first stop i j') end) with 0%Z.
        + destruct i; reflexivity.
        + destruct a; [reflexivity|]. symmetry. apply Hz; [exact Hi|lia].
      - destruct i as [|i]; [reflexivity|]. destruct a; [reflexivity|]. symmetry. apply Hz; lia. }
    rewrite Et. destruct (taken _ _ _ _ i 0 prefer).
    + assert (E : match i, a with S i', S j' =>
          way_back hit (bonus_of sch l) first stop h i' j' (pref hit (bonus_of sch l) first stop h i a)
          | _, _ => [] end = []).
      { destruct i as [|i]; [reflexivity|]. destruct a eqn:Ea; [reflexivity|]. apply Hb; lia. }
      rewrite E. destruct i; cbn [map]; rewrite Nat.add_0_r; reflexivity.
    + destruct a; [reflexivity|]. apply Hb; [exact Hi|lia].
  - replace (a + S k) with (S (a + k)) by lia.
    rewrite (back_eq _ _ _ _ _ i (S (a + k))), (back_eq _ _ _ _ _ i (S k)).
    assert (Et : taken hit (bonus_of sch l) first stop i (S (a + k)) prefer
                 = taken hit' (bonus_in sch l a) first' (w - 1) i (S k) prefer).
    { unfold taken. rewrite (HT i k Hi). rewrite <- (HT i (S k) Hi).
      replace (a + S k) with (S (a + k)) by lia. destruct i as [|i]; [reflexivity|].
      rewrite (HT i k) by lia. reflexivity. }
    rewrite Et. replace (S (a + k)) with (a + S k) by lia. rewrite Hpref by exact Hi.
    destruct (taken _ _ _ _ i (S k) prefer).
    + replace (a + S k) with (S (a + k)) by lia. cbn [map]. f_equal; [lia|].
      destruct i as [|i]; [reflexivity|]. apply IH. lia.
    + replace (a + S k) with (S (a + k)) by lia. apply IH. exact Hi.
Qed.

End ShiftBack.

(** ** Best cells *)

Lemma step_cost_pos hit first stop i j : (0 <= step_cost hit first stop i j)%Z.
Proof. unfold step_cost. destruct (_ && _); [lia|]. destruct (_ || _); [lia|]. destruct (_ && _); lia. Qed.

(** A cell has no more points than the hits at or before it in its row. *)
Lemma cell_le_hits hit bonus first stop M i : (0 <= M)%Z -> forall k,
  (forall j, first i <= j <= k -> hit i j = true -> (pts (table hit bonus first stop i j) <= M)%Z) ->
  (pts (table hit bonus first stop i k) <= M)%Z.
Proof.
  intros HM. induction k as [|k IH]; intros H.
  - destruct (Nat.lt_ge_cases 0 (first i)) as [Hlt|Hge]; [rewrite T_before by exact Hlt; exact HM|].
    destruct (hit i 0) eqn:E; [apply H; auto|].
    destruct i as [|i]; cbn [table].
    + unfold first_row. destruct (_ <? _); [exact HM|]. rewrite E. exact HM.
    + exact HM.
  - destruct (Nat.lt_ge_cases (S k) (first i)) as [Hlt|Hge]; [rewrite T_before by exact Hlt; exact HM|].
    destruct (hit i (S k)) eqn:E; [apply H; auto|].
    rewrite T_gap by (auto; lia). cbn [pts]. unfold pts_of, saturating_sub, I64_MIN.
    replace (S k - 1) with k by lia. pose proof (step_cost_pos hit first stop i (S k)).
    specialize (IH ltac:(intros j Hj; apply H; lia)). lia.
Qed.

Lemma best_cell_unique hit bonus first stop h i j i' j' :
  best_cell hit bonus first stop h i j -> best_cell hit bonus first stop h i' j' -> i = i' /\ j = j'.
Proof.
  intros (C1 & M1 & L1) (C2 & M2 & L2).
  pose proof (M1 _ _ C2). pose proof (M2 _ _ C1).
  destruct (Nat.lt_trichotomy i i') as [Hi|[->|Hi]].
  - specialize (L2 _ _ C1 (or_introl Hi)). lia.
  - destruct (Nat.lt_trichotomy j j') as [Hj|[->|Hj]]; [|auto|].
    + specialize (L2 _ _ C1 (or_intror (conj eq_refl Hj))). lia.
    + specialize (L1 _ _ C2 (or_intror (conj eq_refl Hj))). lia.
  - specialize (L1 _ _ C2 (or_introl Hi)). lia.
Qed.

Lemma sorted_nth_add l : StronglySorted lt l -> forall k i, i + k < length l -> nth i l 0 + k <= nth (i + k) l 0.
Proof.
  induction 1 as [|x l Hs IH Hx]; intros k i Hk; [simpl in Hk; lia|].
  destruct i as [|i]; cbn [nth Nat.add].
  - destruct k as [|k]; cbn [nth]; [lia|]. cbn [length] in Hk.
    specialize (IH k 0 ltac:(lia)). cbn [Nat.add] in IH.
    assert (x < nth 0 l 0).
    { rewrite Forall_forall in Hx. apply Hx. apply nth_In. lia. }
    lia.
  - apply IH. simpl in Hk. lia.
Qed.

Section Fuzzy.
Context {UC : unicode}.
Variables (sens norm : bool) (sch : fzf_scheme).
Notation eq := (char_eq sens norm).

Definition hit_of (p l : list char) (i j : nat) : bool :=
  match nth_error p i, nth_error l j with
  | Some x, Some y => eq x y
  | _, _ => false
  end.

Definition firsts (fs : list nat) (i : nat) : nat := nth i fs 0.

Definition v2_table (p l : list char) (fs : list nat) (stop : nat) : nat -> nat -> cell :=
  table (hit_of p l) (bonus_of sch l) (firsts fs) stop.

(** Row and column of the best cell. *)
Definition v2_best (p l : list char) (fs : list nat) (stop : nat) : nat * nat :=
  let a := firsts fs 0 in
  let w := stop + 1 - a in
  let F := flat (pts_of (table (fun i k => hit_of p l i (a + k)) (bonus_in sch l a)
                           (fun i => firsts fs i - a) (w - 1))) w in
  let r := fold_left (better F)
             (cells w (fun i k => hit_of p l i (a + k)) (fun i => firsts fs i - a) 0 (length p)) (0%Z, 0) in
  (snd r / w, a + snd r mod w).

(** Score and positions, from right to left. *)
Definition v2_result (p l : list char) : option (Z * list nat) :=
  match greedy eq p l 0, last_col sens norm p l with
  | Some fs, Some stop =>
      let (i, j) := v2_best p l fs stop in
      Some (pts (v2_table p l fs stop i j),
            way_back (hit_of p l) (bonus_of sch l) (firsts fs) stop (length p) i j true)
  | _, _ => None
  end.

Section Facts.
Variables (p l : list char) (fs : list nat) (stop : nat).
Hypothesis Hp : p <> [].
Hypothesis Hg : greedy eq p l 0 = Some fs.
Hypothesis Hl : last_col sens norm p l = Some stop.
Notation a := (firsts fs 0).
Notation w := (stop + 1 - a).
Notation h := (length p).

Lemma h_pos : 0 < h.
Proof. destruct p; [congruence|simpl; lia]. Qed.

Lemma firsts_facts i : i < h ->
  a + i <= firsts fs i <= stop /\ hit_of p l i (firsts fs i) = true.
Proof.
  intros Hi. pose proof (greedy_sound _ _ _ _ _ Hg) as [Hs F]. pose proof (greedy_length _ _ _ _ _ Hg) as Hlen.
  split; [split|].
  - apply (sorted_nth_add fs Hs i 0). lia.
  - destruct (last_col_ge sens norm p l fs Hp (conj Hs F)) as (j & Ej & Hj & _).
    rewrite Hl in Ej. injection Ej as ->. unfold firsts.
    transitivity (last fs 0); [|exact Hj].
    pose proof (sorted_nth_add fs Hs (h - 1 - i) i) as H.
    replace (i + (h - 1 - i)) with (length fs - 1) in H by lia.
    assert (El : forall (l : list nat), last l 0 = nth (length l - 1) l 0).
    { clear. intros u. induction u as [|x u IH]; [reflexivity|]. destruct u as [|y u]; [reflexivity|].
      cbn [length] in *. rewrite Nat.sub_succ, Nat.sub_0_r in *. exact IH. }
    rewrite El. lia.
  - unfold hit_of, firsts. revert i Hi. clear -F.
    induction F as [|x j p fs H F IH]; intros i Hi; [simpl in Hi; lia|].
    destruct i as [|i]; cbn [nth_error nth].
    + destruct H as (_ & y & Hy & E). rewrite Nat.sub_0_r in Hy. rewrite Hy. exact E.
    + apply IH. simpl in Hi. lia.
Qed.

Lemma stop_lt : stop < length l.
Proof.
  destruct (last_col_ge sens norm p l fs Hp (greedy_sound _ _ _ _ _ Hg)) as (j & Ej & _ & Hj).
  rewrite Hl in Ej. injection Ej as ->. exact Hj.
Qed.

Lemma a_le : a <= stop.
Proof. destruct (firsts_facts 0 h_pos). lia. Qed.

Lemma stop_eq : stop = a + (w - 1).
Proof. pose proof a_le. lia. Qed.

Notation T' := (table (fun i k => hit_of p l i (a + k)) (bonus_in sch l a) (fun i => firsts fs i - a) (w - 1)).

Lemma v2_table_shift i k : i < h -> v2_table p l fs stop i (a + k) = T' i k.
Proof.
  intros Hi. unfold v2_table. rewrite stop_eq at 1. apply shift_table; auto.
  - apply (firsts_facts 0 h_pos).
  - intros j Hj. apply firsts_facts. lia.
Qed.

Lemma in_cells_hit x : In x (cells w (fun i k => hit_of p l i (a + k)) (fun i => firsts fs i - a) 0 h) <->
  exists i k, x = i * w + k /\ k < w /\ hit_cell (hit_of p l) (firsts fs) stop h i (a + k).
Proof.
  rewrite in_cells. unfold hit_cell. pose proof a_le. split.
  - intros (i & k & -> & Hi & Hk & Hh). exists i, k. split; [reflexivity|]. split; [lia|].
    pose proof (firsts_facts i ltac:(lia)). repeat split; auto; lia.
  - intros (i & k & -> & Hk & Hi & Hf & Hh). exists i, k.
    pose proof (firsts_facts i ltac:(lia)). repeat split; auto; lia.
Qed.

Lemma v2_best_spec :
  let r := fold_left (better (flat (pts_of T') w))
             (cells w (fun i k => hit_of p l i (a + k)) (fun i => firsts fs i - a) 0 h) (0%Z, 0) in
  exists i k, snd r = i * w + k /\ k < w /\ i < h /\ v2_best p l fs stop = (i, a + k)
    /\ fst r = pts (v2_table p l fs stop i (a + k))
    /\ best_cell (hit_of p l) (bonus_of sch l) (firsts fs) stop h i (a + k).
Proof.
  intros r. pose proof a_le as Ha.
  assert (HF : forall i k, i < h -> k < w ->
            flat (pts_of T') w (i * w + k) = pts (v2_table p l fs stop i (a + k))).
  { intros i k Hi Hk. rewrite flat_cell by exact Hk. unfold pts_of. rewrite v2_table_shift by exact Hi. reflexivity. }
  assert (H0 : In (0 * w + 0) (cells w (fun i k => hit_of p l i (a + k)) (fun i => firsts fs i - a) 0 h)).
  { apply in_cells_hit. exists 0, 0. split; [reflexivity|]. split; [lia|].
    pose proof h_pos. destruct (firsts_facts 0 ltac:(lia)). rewrite Nat.add_0_r. repeat split; auto; lia. }
  assert (HF0 : (0 < flat (pts_of T') w (0 * w + 0))%Z).
  { rewrite HF by (try lia; apply h_pos). rewrite Nat.add_0_r. unfold v2_table. rewrite T_hit0.
    - cbn [pts]. pose proof (bonus_of_bounds sch l a). lia.
    - lia.
    - apply (firsts_facts 0 h_pos). }
  pose proof (better_fold (flat (pts_of T') w) _ 0%Z 0
    (cells_sorted (fun i k => hit_of p l i (a + k)) (fun i => firsts fs i - a) w h 0)) as B.
  cbv zeta in B. fold r in B.
  destruct B as [[_ B]|(B1 & B2 & B3 & B4 & B5)].
  { rewrite Forall_forall in B. specialize (B _ H0). lia. }
  apply in_cells_hit in B1 as (i & k & Er & Hk & C). exists i, k.
  assert (Hi : i < h) by apply C.
  assert (Hdm : snd r / w = i /\ snd r mod w = k).
  { rewrite Er. rewrite Nat.div_add_l, Nat.div_small by lia. rewrite Nat.add_0_r.
    rewrite Nat.add_comm, Nat.mod_add, Nat.mod_small by lia. split; reflexivity. }
  split; [exact Er|]. split; [exact Hk|]. split; [exact Hi|]. split; [|split; [|split; [exact C|split]]].
  - unfold v2_best. fold r. destruct Hdm as [-> ->]. reflexivity.
  - rewrite B2, Er. apply HF; assumption.
  - rewrite B2, Er in B4. rewrite HF in B4 by assumption. rewrite Forall_forall in B4.
    intros i' j' C'. pose proof C' as (Hi' & Hj' & _). pose proof (firsts_facts i' Hi') as [? _].
    specialize (B4 (i' * w + (j' - a))). rewrite HF in B4 by (auto; lia).
    replace (a + (j' - a)) with j' in B4 by lia. apply B4. apply in_cells_hit. exists i', (j' - a).
    split; [reflexivity|]. split; [lia|]. replace (a + (j' - a)) with j' by lia. exact C'.
  - rewrite B2, Er in B5. rewrite HF in B5 by assumption. rewrite Forall_forall in B5.
    intros i' j' C' Hlt. pose proof C' as (Hi' & Hj' & _). pose proof (firsts_facts i' Hi') as [? _].
    specialize (B5 (i' * w + (j' - a))). rewrite HF in B5 by (auto; lia).
    replace (a + (j' - a)) with j' in B5 by lia. apply B5.
    + apply in_cells_hit. exists i', (j' - a).
      split; [reflexivity|]. split; [lia|]. replace (a + (j' - a)) with j' by lia. exact C'.
    + destruct Hlt as [Hlt|[-> Hlt]]; [|lia].
      assert (S i' * w <= i * w) by (apply Nat.mul_le_mono_r; lia). simpl in *. lia.
Qed.

Lemma v2_best_cell : best_cell (hit_of p l) (bonus_of sch l) (firsts fs) stop h
                       (fst (v2_best p l fs stop)) (snd (v2_best p l fs stop)).
Proof.
  destruct v2_best_spec as (i & k & _ & _ & _ & E & _ & B). rewrite E. exact B.
Qed.

End Facts.
End Fuzzy.

Lemma all_idx_filter (f : char -> bool) l : forall n off, n = length l - off ->
  all_idx f (skipn off l) off
  = filter (fun k => match nth_error l k with Some y => f y | None => false end) (seq off n).
Proof.
  induction n as [|n IH]; intros off Hn.
  - rewrite skipn_all2 by lia. reflexivity.
  - destruct (nth_error l off) as [y|] eqn:E.
    2:{ apply nth_error_None in E. lia. }
    rewrite (skipn_cons_nth _ _ _ _ E). cbn [all_idx seq filter]. rewrite E.
    rewrite IH by lia. reflexivity.
Qed.

Lemma filter_ext_in A (f g : A -> bool) l : (forall x, In x l -> f x = g x) -> filter f l = filter g l.
Proof.
  induction l as [|x l IH]; intros H; [reflexivity|]. simpl.
  rewrite (H x (or_introl eq_refl)), IH; [reflexivity|]. intros y Hy. apply H. right. exact Hy.
Qed.

(** Same options, possibly other contents of the buffers. *)
Definition same_options (m m' : v2) : Prop :=
  v2_candidate_normalization m' = v2_candidate_normalization m
  /\ v2_case_sensitivity m' = v2_case_sensitivity m
  /\ v2_scoring_scheme m' = v2_scoring_scheme m.

Section WithUnicode.
Context {UC : unicode}.

Lemma single_char_loop_spec c sch : forall ms m k,
  Forall (fun x => x < length (cand_slice c)) ms ->
  single_char_loop c (into_inner sch) ms m k
  = Ok (fold_left (better (fun x => (16 + 2 * bonus_of sch (cand_slice c) x)%Z)) ms (m, k)).
Proof.
  induction ms as [|x ms IH]; intros m k H; [reflexivity|]. inversion H as [|? ? Hx H']; subst.
  cbn [single_char_loop fold_left].
  assert (E : (if x =? 0 then Ok (initial_char_class (into_inner sch))
               else let* i := usub x 1 in
                    let* y := cand_char c i in Ok (char_class y (into_inner sch)))
              = Ok (class_before sch (cand_slice c) x)).
  { destruct x as [|x]; [reflexivity|]. cbn [Nat.eqb]. rewrite usub_ok by lia. cbn [bind].
    replace (S x - 1) with x by lia. rewrite cand_char_spec, (idx_nth _ _ _ 0%N) by lia. reflexivity. }
  rewrite E. cbn [bind]. rewrite cand_char_spec, (idx_nth _ _ _ 0%N) by lia. cbn [bind].
  rewrite bonus_of_spec.
  assert (Es : (MATCH + bonus_of sch (cand_slice c) x * FIRST_QUERY_CHAR_MULTIPLIER
                = 16 + 2 * bonus_of sch (cand_slice c) x)%Z)
    by (unfold MATCH, FIRST_QUERY_CHAR_MULTIPLIER; lia).
  rewrite Es. unfold better at 2. cbn [fst].
  destruct (m <? 16 + 2 * bonus_of sch (cand_slice c) x)%Z; apply IH; exact H'.
Qed.

Section OneChar.
Variables (sens norm : bool) (sch : fzf_scheme) (x : char) (l : list char).
Notation eq := (char_eq sens norm).
Notation ms := (all_idx (eq x) l 0).
Notation F := (fun j => (16 + 2 * bonus_of sch l j)%Z).
Notation r := (fold_left (better F) ms (0%Z, 0)).

Lemma greedy_one : greedy eq [x] l 0 = match find_idx (eq x) l with Some j => Some [j] | None => None end.
Proof. rewrite greedy_find. destruct (find_idx (eq x) l); [|reflexivity]. rewrite greedy_nil. reflexivity. Qed.

Lemma ms_hit j : In j ms <-> hit_of sens norm [x] l 0 j = true.
Proof.
  unfold hit_of. cbn [nth_error]. rewrite in_all_idx, Nat.sub_0_r. split.
  - intros (_ & y & Hy & E). rewrite Hy. exact E.
  - destruct (nth_error l j) as [y|] eqn:Ey; [|discriminate]. intros E. split; [lia|]. exists y. auto.
Qed.

Lemma v2_single_none : find_idx (eq x) l = None -> ms = [].
Proof. intros E. apply all_idx_false. intros y Hy. rewrite find_idx_none in E. apply E. exact Hy. Qed.

Lemma v2_single j0 stop : find_idx (eq x) l = Some j0 -> last_col sens norm [x] l = Some stop ->
  v2_best sens norm sch [x] l [j0] stop = (0, snd r)
  /\ fst r = pts (v2_table sens norm sch [x] l [j0] stop 0 (snd r))
  /\ (0 < fst r)%Z /\ snd r < length l
  /\ way_back (hit_of sens norm [x] l) (bonus_of sch l) (firsts [j0]) stop 1 0 (snd r) true = [snd r].
Proof.
  intros E El.
  assert (Hg : greedy eq [x] l 0 = Some [j0]) by (rewrite greedy_one, E; reflexivity).
  assert (Hp : [x] <> []) by discriminate.
  assert (Hin : forall j, In j ms <-> hit_cell (hit_of sens norm [x] l) (firsts [j0]) stop 1 0 j).
  { intros j. rewrite ms_hit. unfold hit_cell, firsts. cbn [nth]. split; [|tauto]. intros H.
    split; [lia|]. split; [|exact H]. unfold hit_of in H. cbn [nth_error] in H.
    destruct (nth_error l j) as [y|] eqn:Ey; [|discriminate].
    apply find_idx_some in E as (y0 & Hy0 & _ & Hno). apply find_last_idx_some in El as (y1 & Hy1 & _ & Hno').
    cbn [last] in *. split.
    - destruct (Nat.le_gt_cases j0 j) as [|Hlt]; [assumption|]. rewrite (Hno _ _ Hlt Ey) in H. discriminate.
    - destruct (Nat.le_gt_cases j stop) as [|Hlt]; [assumption|]. rewrite (Hno' _ _ Hlt Ey) in H. discriminate. }
  assert (HT : forall j, In j ms -> pts (v2_table sens norm sch [x] l [j0] stop 0 j) = F j).
  { intros j Hj. apply Hin in Hj as (_ & Hj & Hh). unfold v2_table. rewrite T_hit0; [reflexivity|lia|exact Hh]. }
  assert (Hj0 : In j0 ms).
  { apply ms_hit. unfold hit_of. cbn [nth_error]. apply find_idx_some in E as (y0 & -> & -> & _). reflexivity. }
  pose proof (better_fold F ms 0%Z 0 (all_idx_sorted _ _ _ _)) as B. cbv zeta in B.
  destruct B as [[_ B]|(B1 & B2 & B3 & B4 & B5)].
  { rewrite Forall_forall in B. specialize (B _ Hj0). cbv beta in B. pose proof (bonus_of_bounds sch l j0). lia. }
  assert (C : best_cell (hit_of sens norm [x] l) (bonus_of sch l) (firsts [j0]) stop 1 0 (snd r)).
  { rewrite Forall_forall in B4, B5. split; [apply Hin; exact B1|]. split.
    - intros i' j' C. assert (i' = 0) as -> by (destruct C; lia).
      pose proof C as Cj. apply Hin in Cj. fold (v2_table sens norm sch [x] l [j0] stop).
      rewrite !HT by auto. rewrite <- B2. apply B4. exact Cj.
    - intros i' j' C Hlt. assert (i' = 0) as -> by (destruct C; lia).
      pose proof C as Cj. apply Hin in Cj. fold (v2_table sens norm sch [x] l [j0] stop).
      rewrite !HT by auto. rewrite <- B2. apply B5; [exact Cj|]. lia. }
  pose proof (v2_best_cell sens norm sch [x] l [j0] stop Hp Hg El) as C'.
  destruct (best_cell_unique _ _ _ _ _ _ _ _ _ C' C) as [H1 H2].
  destruct (v2_best sens norm sch [x] l [j0] stop) as [i j]. cbn [fst snd] in H1, H2. subst i j.
  split; [reflexivity|]. split; [rewrite HT by exact B1; exact B2|]. split; [exact B3|]. split.
  { apply in_all_idx in B1 as (_ & y & Hy & _). rewrite Nat.sub_0_r in Hy. apply nth_error_Some. congruence. }
  rewrite back_eq. set (t := taken _ _ _ _ _ _ _).
  assert (Ht : t = true).
  { unfold t, taken. fold (v2_table sens norm sch [x] l [j0] stop).
    rewrite (HT _ B1). pose proof (bonus_of_bounds sch l (snd r)).
    destruct (Z.ltb_spec 0 (F (snd r))); [|lia]. cbn [andb].
    destruct (snd r) as [|j'] eqn:Ej; [destruct (Z.ltb_spec 0 (F 0)); [reflexivity|lia]|].
    assert (Hle : (pts (v2_table sens norm sch [x] l [j0] stop 0 j') <= F (S j'))%Z).
    { rewrite <- B2. apply cell_le_hits; [lia|]. intros j Hj Hh.
      assert (Hjm : In j ms) by (apply ms_hit; exact Hh).
      fold (v2_table sens norm sch [x] l [j0] stop). rewrite HT by exact Hjm.
      rewrite Forall_forall in B4. apply B4. exact Hjm. }
    destruct (Z.ltb_spec (pts (v2_table sens norm sch [x] l [j0] stop 0 j')) (F (S j'))); [reflexivity|].
    cbn [orb]. rewrite andb_true_r. apply Z.eqb_eq. cbv beta in *. lia. }
  rewrite Ht. destruct (snd r); reflexivity.
Qed.

End OneChar.
Lemma fold_usub a : forall fs, Forall (fun x => a <= x) fs ->
  fold_right (fun x acc => let* l := acc in let* y := usub x a in Ok (y :: l)) (Ok []) fs
  = Ok (map (fun x => x - a) fs).
Proof.
  induction 1 as [|x fs Hx H IH]; [reflexivity|]. cbn [fold_right map]. rewrite IH. cbn [bind].
  rewrite usub_ok by exact Hx. reflexivity.
Qed.

(** The lengths of the buffers of the slab, and those which a fuzzy term needs. *)
Definition v2_sizes (m : v2) : list nat :=
  let s := v2_slab_ m in [length (s_bonus s); length (s_consecutive s); length (s_indices s); length (s_scoring s)].

Definition v2_need (sens norm : bool) (p l : list char) : list nat :=
  if length p =? 1 then [0; 0; 0; 0]
  else match greedy (char_eq sens norm) p l 0, last_col sens norm p l with
       | Some fs, Some stop =>
           let w := stop + 1 - firsts fs 0 in [w; length p * w; length p; length p * w]
       | _, _ => [0; 0; length p; 0]
       end.

(** The greater of the two at every position. *)
Fixpoint maxes (a b : list nat) : list nat :=
  match a, b with
  | x :: a', y :: b' => Nat.max x y :: maxes a' b'
  | a, [] => a
  | [], b => b
  end.

Lemma v2_fuzzy_sized (R : bool) m sch p c pre own :
  v2_scoring_scheme m = into_inner sch ->
  cand_ok c -> p_text p <> [] -> chain 0 own ->
  exists m', (same_options m m' /\ v2_candidate_slab m' = v2_candidate_slab m
    /\ v2_sizes m' = maxes (v2_sizes m) (v2_need (is_sensitive (v2_case_sensitivity m) p) (v2_candidate_normalization m)
                                          (p_text p) (cand_slice c)))
  /\ v2_fuzzy R m p c (mk pre own)
     = Ok (match v2_result (is_sensitive (v2_case_sensitivity m) p) (v2_candidate_normalization m) sch
                  (p_text p) (cand_slice c) with
           | None => (None, m', mk pre own)
           | Some (sc, ps) =>
               (Some sc, m',
                mk pre (if R then inserts own (map (char_range (cand_slice c)) ps) else own))
           end).
Proof.
  intros Hs Hc Hp Ho. unfold v2_fuzzy.
  set (sens := is_sensitive _ _). set (norm := v2_candidate_normalization m).
  assert (Hsame : forall s, same_options m (v2_with_slab m s)) by (intros; repeat split).
  unfold v2_need.
  destruct (Nat.eqb_spec (p_char_len p) 1) as [H1|H1].
  - (* one char *)
    exists m. split; [split; [repeat split|split; [reflexivity|]]|].
    { unfold p_char_len in H1. rewrite H1. cbn [Nat.eqb]. unfold v2_sizes. cbn. rewrite !Nat.max_0_r. reflexivity. }
    assert (Ex : exists x, p_text p = [x]).
    { unfold p_char_len in H1. destruct (p_text p) as [|x [|y t]]; try discriminate. eauto. }
    destruct Ex as [x Ex]. unfold p_char. rewrite Ex. cbn [idx nth_error bind].
    unfold fuzzy_single_char. cbn [o_is_case_sensitive o_char_eq opts_new].
    rewrite cand_matches_spec by exact Hc. rewrite Hs, single_char_loop_spec.
    2:{ apply Forall_forall. intros j Hj. apply in_all_idx in Hj as (_ & y & Hy & _).
        rewrite Nat.sub_0_r in Hy. apply nth_error_Some. congruence. }
    unfold v2_result. rewrite greedy_one.
    destruct (find_idx (char_eq sens norm x) (cand_slice c)) as [j0|] eqn:E0.
    + assert (Hg : greedy (char_eq sens norm) [x] (cand_slice c) 0 = Some [j0]) by (rewrite greedy_one, E0; reflexivity).
      destruct (last_col_ge sens norm [x] (cand_slice c) [j0]) as (stop & El & _);
        [discriminate|eapply greedy_sound; exact Hg|]. rewrite El.
      destruct (v2_single sens norm sch x (cand_slice c) j0 stop E0 El) as (V1 & V2 & V3 & V4 & V5).
      set (r := fold_left _ _ _) in *. destruct r as [mx k]. cbn [fst snd] in *. cbn [bind].
      destruct (Z.eqb_spec mx 0); [lia|].
      rewrite V1. cbn [length]. rewrite <- V2, V5. destruct R; cbn [bind]; [|reflexivity].
      rewrite to_byte_offset_spec by (auto; lia). cbn [bind].
      destruct (nth_error (cand_slice c) k) as [y|] eqn:Ey.
      2:{ apply nth_error_None in Ey. lia. }
      rewrite cand_char_spec, (idx_nth_error _ _ _ _ Ey). cbn [bind].
      rewrite (mr_insert_spec _ _ _ _ 0) by exact Ho. cbn [bind map inserts fold_left].
      rewrite (char_range_end _ _ _ Ey). reflexivity.
    + rewrite v2_single_none by exact E0. reflexivity.
  - unfold p_char_len in H1. apply Nat.eqb_neq in H1. rewrite H1.
    destruct (v2_matches_spec sens norm (s_indices (v2_slab_ m)) p c Hc Hp) as (ind & Em & Lind). rewrite Em. cbn [bind].
    unfold v2_result.
    destruct (greedy (char_eq sens norm) (p_text p) (cand_slice c) 0) as [fs|] eqn:Hg.
    2:{ eexists. split; [|reflexivity]. split; [apply Hsame|]. split; [reflexivity|].
        unfold v2_sizes. cbn. rewrite !Nat.max_0_r, Lind. reflexivity. }
    destruct (last_col_ge sens norm _ _ _ Hp (greedy_sound _ _ _ _ _ Hg)) as (stop & El & _). rewrite El.
    assert (Hh : 0 < length (p_text p)) by (destruct (p_text p); [congruence|simpl; lia]).
    set (l := cand_slice c) in *. set (pt := p_text p) in *.
    pose proof (firsts_facts sens norm pt l fs stop Hp Hg El) as Hff.
    pose proof (a_le sens norm pt l fs stop Hp Hg El) as Ha.
    pose proof (stop_lt sens norm pt l fs stop Hp Hg El) as Hstop.
    pose proof (greedy_length _ _ _ _ _ Hg) as Hfl.
    set (a := firsts fs 0) in *. set (w := stop + 1 - a).
    assert (E0 : idx fs 0 = Ok a) by (apply idx_nth; lia). rewrite E0. cbn [bind].
    assert (Esb : (if R then to_byte_offset c a else Ok 0) = Ok (if R then byte_len (firstn a l) else 0)).
    { destruct R; [|reflexivity]. apply to_byte_offset_spec; [exact Hc|]. fold l. lia. }
    rewrite Esb. cbn [bind].
    assert (Ei : (if a =? 0 then Ok (initial_char_class (v2_scoring_scheme m))
                  else let* i := usub a 1 in
                       let* x := cand_char c i in Ok (char_class x (v2_scoring_scheme m)))
                 = Ok (class_before sch l a)).
    { rewrite Hs. destruct a as [|a']; [reflexivity|]. cbn [Nat.eqb]. rewrite usub_ok by lia. cbn [bind].
      replace (S a' - 1) with a' by lia. rewrite cand_char_spec. fold l. rewrite (idx_nth _ _ _ 0%N) by lia. reflexivity. }
    rewrite Ei. cbn [bind]. rewrite cand_slice_range_spec by (fold l; lia). cbn [bind]. fold l w.
    set (base := cand_with c (firstn w (skipn a l))).
    assert (Hbase : cand_slice base = firstn w (skipn a l)) by apply cand_slice_with.
    assert (Hbok : cand_ok base) by (apply cand_ok_with_slice; exact Hc).
    assert (Hblen : cand_char_len base = w).
    { rewrite cand_char_len_spec, Hbase, firstn_length, skipn_length. unfold w. lia. }
    rewrite Hblen.
    destruct (bonus_alloc_spec (s_bonus (v2_slab_ m)) w) as (bs & bv & Eb & Hbl & Hbs & Hbv).
    cbn [s_bonus]. rewrite Eb. cbn [bind].
    rewrite fold_usub.
    2:{ apply Forall_forall. intros y Hy. apply (In_nth _ _ 0) in Hy as (i & Hi & <-).
        pose proof (Hff i ltac:(lia)) as [? _]. unfold firsts in *. lia. }
    cbn [bind].
    set (o := opts_new sens norm). set (cv := MkCv bs base (class_before sch l a) o).
    assert (Hw : a + w <= length l) by (unfold w; lia).
    assert (Hok : cv_ok sch l a w base o cv).
    { repeat split; auto. cbn. intros j b Hj Hset. rewrite (Hbs _ _ Hj) in Hset. discriminate. }
    set (hit := fun i k => hit_of sens norm pt l i (a + k)).
    set (first := fun i => firsts fs i - a).
    set (matches := map (fun x => x - a) fs).
    assert (Hmf : forall cv' off q, cv_ok sch l a w base o cv' -> off <= w ->
              cv_matches_from cv' off q
              = Ok (filter (fun k => match nth_error l (a + k) with Some y => char_eq sens norm q y | None => false end)
                      (seq off (w - off)))).
    { intros cv' off q (Hb & _ & _ & Hop & _) Hoff. unfold cv_matches_from. rewrite Hb, Hop.
      unfold o. cbn [o_is_case_sensitive o_char_eq opts_new].
      assert (Hbl' : length (cand_slice base) = w) by (rewrite <- cand_char_len_spec; exact Hblen).
      rewrite cand_matches_from_spec by (auto; lia). f_equal.
      rewrite (all_idx_filter _ _ (w - off)) by lia. apply filter_ext_in. intros k Hk. apply in_seq in Hk.
      rewrite Hbase, nth_error_firstn, nth_error_skipn. destruct (Nat.ltb_spec k w); [reflexivity|lia]. }
    destruct (v2_score_spec sch l a w Hw base o hit first p matches) with (sv := s_scoring (v2_slab_ m))
      (gv := s_consecutive (v2_slab_ m)) (cv := cv) as (cv' & mx & cell & sv' & gv' & Esc & Hcv' & Hmx & Lsv & Lgv).
    + intros i Hi. unfold p_char_len in Hi. fold pt in Hi. unfold matches, first, firsts.
      apply idx_nth_error. rewrite nth_error_map, (nth_error_nth' fs 0) by lia. reflexivity.
    + intros i Hi. unfold p_char_len in Hi. fold pt in Hi. destruct (Hff i Hi). unfold first, w. lia.
    + intros i Hi. unfold p_char_len in Hi. fold pt in Hi. destruct (Hff i Hi) as [? E].
      unfold hit, first. replace (a + (firsts fs i - a)) with (firsts fs i) by lia. exact E.
    + intros i Hi. unfold p_char_len in Hi. fold pt in Hi.
      destruct (nth_error pt i) as [x|] eqn:Ex.
      2:{ apply nth_error_None in Ex. lia. }
      exists x. split; [unfold p_char; fold pt; apply idx_nth_error; exact Ex|].
      intros cv' off Hcv' Hoff. rewrite Hmf by auto. f_equal. apply filter_ext_in. intros k _.
      unfold hit, hit_of. rewrite Ex. reflexivity.
    + unfold p_char_len. fold pt. lia.
    + unfold first. lia.
    + exact Hok.
    + intros q. unfold cv_matches_from, cv_matches. cbn [cv_base cv_opts cv].
      unfold o. cbn [o_is_case_sensitive o_char_eq opts_new].
      rewrite cand_matches_from_spec by (auto; lia). rewrite cand_matches_spec by auto. reflexivity.
    + exact Hblen.
    + cbn [s_scoring s_consecutive]. rewrite Hs, Esc. cbn [bind]. clear Esc.
      unfold p_char_len in Hmx. fold pt in Hmx.
      destruct (v2_best_spec sens norm sch pt l fs stop Hp Hg El) as (i & k & Ec & Hk & Hi & Ebest & Ept & _).
      fold a w hit first in Ec, Hk, Ept, Ebest.
      rewrite <- Hmx in Ec, Ept. cbn [fst snd] in Ec, Ept.
      rewrite Ebest, <- Ept.
      exists (v2_with_slab m (MkV2Slab (put_back (cv_bonuses cv') bv) gv' (put_back matches ind) sv')). split.
      { split; [apply Hsame|]. split; [reflexivity|]. destruct Hcv' as (_ & _ & _ & _ & Hcl & _).
        unfold v2_sizes. cbn [v2_with_slab v2_slab_ s_bonus s_consecutive s_indices s_scoring maxes].
        cbn zeta. fold a w.
        unfold matches. rewrite !put_back_length, map_length, Hfl, Lind, Lsv, Lgv, Hbv, Hcl. unfold p_char_len. fold pt.
        do 3 (apply f_equal2; [lia|]). apply f_equal2; [lia|reflexivity]. }
      destruct R; cbn [bind]; [|reflexivity].
      destruct Hcv' as (Hcvb & _). rewrite Hcvb.
      unfold matched_ranges, col_of, row_of. cbn [m_width].
      destruct (Nat.ltb_spec 0 w) as [Hw0|]; [|unfold w in *; lia]. cbn [assert_ bind].
      rewrite Ec. rewrite Nat.div_add_l, Nat.div_small by lia. rewrite Nat.add_0_r.
      replace ((i * w + k) mod w) with k by (rewrite Nat.add_comm, Nat.mod_add, Nat.mod_small by lia; reflexivity).
      unfold p_char_len. fold pt.
      rewrite (back_loop_spec sch l a w (length pt) Hw base Hbok Hbase hit first pre) by (auto; lia).
      cbn [bind]. f_equal. f_equal. f_equal. f_equal.
      rewrite (stop_eq sens norm pt l fs stop Hp Hg El) at 1. fold a w.
      rewrite shift_back; auto.
      * rewrite map_map. reflexivity.
      * apply (Hff 0 Hh).
      * intros j Hj. apply Hff. exact Hj.
Qed.

Lemma v2_fuzzy_spec (R : bool) m sch p c pre own :
  v2_scoring_scheme m = into_inner sch ->
  cand_ok c -> p_text p <> [] -> chain 0 own ->
  exists m', same_options m m'
  /\ v2_fuzzy R m p c (mk pre own)
     = Ok (match v2_result (is_sensitive (v2_case_sensitivity m) p) (v2_candidate_normalization m) sch
                  (p_text p) (cand_slice c) with
           | None => (None, m', mk pre own)
           | Some (sc, ps) =>
               (Some sc, m',
                mk pre (if R then inserts own (map (char_range (cand_slice c)) ps) else own))
           end).
Proof.
  intros Hs Hc Hp Ho. destruct (v2_fuzzy_sized R m sch p c pre own Hs Hc Hp Ho) as (m' & (H & _) & E). eauto.
Qed.

End WithUnicode.
