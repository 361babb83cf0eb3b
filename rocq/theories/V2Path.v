(** The points of a cell of the table of Spec are those of an alignment. *)
From Coq Require Import Sorted.
From Verif Require Import Prelude Chars Utils Candidate MatchedRanges Query Scoring Slab Fzf FzfV1 FzfV2
  Spec PreludeProofs CharsProofs NormalizeProofs CandidateProofs MatchedRangesProofs ScoreProofs ExactProofs
  ShapeProofs V1Proofs V2Tables V2Proofs V2Rows V2Fuzzy V2Facts.
Local Open Scope nat_scope.

Lemma sum_app a b : sum (a ++ b) = (sum a + sum b)%Z.
Proof. induction a as [|x a IH]; [reflexivity|]. cbn [app sum]. rewrite IH. lia. Qed.

Lemma last_default {A} (x d : A) ps : last (x :: ps) d = last ps x.
Proof.
  revert x d. induction ps as [|y ps IH]; intros x d; [reflexivity|].
  change (last (x :: y :: ps) d) with (last (y :: ps) d). rewrite !IH. reflexivity.
Qed.

Lemma sorted_snoc ps k : StronglySorted lt ps -> Forall (fun j => j < k) ps -> StronglySorted lt (ps ++ [k]).
Proof.
  induction ps as [|x ps IH]; intros H F; cbn [app]; [repeat constructor|].
  apply StronglySorted_inv in H as [H Hx]. inversion F; subst. constructor; [apply IH; assumption|].
  apply Forall_app. split; [assumption|]. repeat constructor. assumption.
Qed.

Lemma sorted_last x ps : StronglySorted lt (x :: ps) -> Forall (fun j => j <= last ps x) (x :: ps).
Proof.
  revert x. induction ps as [|y ps IH]; intros x H; [repeat constructor|].
  apply StronglySorted_inv in H as [H Hx]. specialize (IH y H). rewrite last_default.
  constructor; [|exact IH]. inversion Hx; subst. inversion IH; subst. lia.
Qed.

Section Path.
Variables (hit : nat -> nat -> bool) (bonus : nat -> Z) (first : nat -> nat) (stop h : nat).
Hypothesis Hb : forall j, (0 <= bonus j <= 10)%Z.
Hypothesis Hfirst : forall i, i < h -> hit i (first i) = true.
Hypothesis Hinc : forall i, S i < h -> first i < first (S i).
Notation T := (table hit bonus first stop).
Notation cost := (step_cost hit first stop).
Notation gap := (gap_cost hit first stop).
Notation rest := (rest_pts hit bonus first stop).
Notation apts := (alignment_pts hit bonus first stop).

Lemma gap_next i l : gap i l (S l) = 0%Z.
Proof using Type. unfold gap_cost. rewrite Nat.sub_diag. reflexivity. Qed.

Lemma gap_step i l k : l <= k -> gap i l (S (S k)) = (gap i l (S k) + cost i (S k))%Z.
Proof using Type.
  clear bonus Hb Hfirst Hinc. intros H. unfold gap_cost. replace (S (S k) - S l) with (S (k - l)) by lia. rewrite seq_S, map_app, sum_app.
  cbn [map sum]. replace (S k - S l) with (k - l) by lia. replace (S l + (k - l)) with (S k) by lia. lia.
Qed.

(** The best points of the run which ends the alignment. *)
Fixpoint best_of (prev : nat) (best : Z) (ps : list nat) : Z :=
  match ps with
  | [] => best
  | j :: ps' =>
      best_of j (if (j =? S prev)%nat then if ((8 <=? bonus j) && (best <? bonus j))%Z then bonus j else best
                 else bonus j) ps'
  end.

Definition step_pts (i prev : nat) (best : Z) (j : nat) : Z :=
  (16 + if (j =? S prev)%nat then
          Z.max (Z.max (bonus j) (if ((8 <=? bonus j) && (best <? bonus j)) then bonus j else best)) 4
        else bonus j - gap i prev j)%Z.

Lemma rest_app : forall ps i prev best j,
  rest i prev best (ps ++ [j])
  = (rest i prev best ps + step_pts (i + length ps) (last ps prev) (best_of prev best ps) j)%Z.
Proof using Type.
  clear Hb Hfirst Hinc. induction ps as [|x ps IH]; intros i prev best j.
  - cbn [app rest_pts length last best_of]. rewrite Nat.add_0_r. unfold step_pts. destruct (j =? S prev); lia.
  - cbn [app rest_pts best_of length]. cbv zeta. replace (i + S (length ps)) with (S i + length ps) by lia.
    rewrite last_default. destruct (x =? S prev); rewrite IH; lia.
Qed.

(** A property of cells which holds of those from which a cell with it takes its points. *)
Variable good : nat -> nat -> Prop.
Hypothesis good_left : forall i k, i < h -> first i <= k -> good i k -> 0 < k ->
  pts (T i k) = saturating_sub (pts (T i (k - 1))) (cost i k) ->
  first i < k /\ good i (k - 1) /\ pts (T i k) = (pts (T i (k - 1)) - cost i k)%Z.
Hypothesis good_diag : forall i k b, S i < h -> first (S i) <= k -> hit (S i) k = true -> good (S i) k -> 0 < k -> (b <= 10)%Z ->
  pts (T (S i) k) = (pts (T i (k - 1)) + 16 + b)%Z -> good i (k - 1).

(** [x :: ps] has a hit in each row up to [i], and the points of cell [i], [k]. *)
Definition traced (i k x : nat) (ps : list nat) : Prop :=
  length ps = i /\ StronglySorted lt (x :: ps)
  /\ (forall n, n <= i -> first n <= nth n (x :: ps) 0 /\ hit n (nth n (x :: ps) 0) = true)
  /\ last ps x <= k
  /\ pts (T i k) = (apts (x :: ps) - gap i (last ps x) (S k))%Z
  /\ (run (T i k) = 0 -> last ps x < k)
  /\ (0 < run (T i k) -> last ps x = k /\ best_of x (bonus x) ps = bonus (S k - run (T i k))).

Lemma traced_left i k x ps c : traced i k x ps -> T i (S k) = Cell c 0 -> c = (pts (T i k) - cost i (S k))%Z ->
  traced i (S k) x ps.
Proof.
  intros (H1 & H2 & H3 & H4 & H5 & _) E ->. unfold traced. rewrite E. cbn [pts run].
  repeat (split; [assumption|]). split; [lia|]. split; [|split; [lia|intros; lia]].
  rewrite gap_step by lia. lia.
Qed.

Lemma traced_diag i k x ps : traced i k x ps -> S i < h -> first (S i) <= S k -> hit (S i) (S k) = true ->
  T (S i) (S k) = (let r := S (run (T i k)) in
    let (b, r') := if r =? 1 then (bonus (S k), r)
      else if ((8 <=? bonus (S k)) && (bonus (S (S k) - r) <? bonus (S k)))%Z then (bonus (S k), 1)
      else (Z.max (Z.max 4 (bonus (S (S k) - r))) (bonus (S k)), r) in
    Cell (pts (T i k) + 16 + b) r') ->
  traced (S i) (S k) x (ps ++ [S k]).
Proof.
  intros (H1 & H2 & H3 & H4 & H5 & H6 & H7) Hi Hf Hh E. cbv zeta in E.
  assert (El : last (ps ++ [S k]) x = S k) by apply last_last.
  assert (Ea : apts (x :: ps ++ [S k]) = (apts (x :: ps) + step_pts i (last ps x) (best_of x (bonus x) ps) (S k))%Z).
  { cbn [alignment_pts]. rewrite rest_app, H1. cbn [Nat.add]. lia. }
  assert (Eb : best_of x (bonus x) (ps ++ [S k])
    = if (S k =? S (last ps x))%nat then
        if ((8 <=? bonus (S k)) && (best_of x (bonus x) ps <? bonus (S k)))%Z then bonus (S k) else best_of x (bonus x) ps
      else bonus (S k)).
  { clear. generalize (bonus x). revert x. induction ps as [|y ps IH]; intros x z; [reflexivity|].
    cbn [app best_of]. rewrite IH, last_default. reflexivity. }
  unfold traced. rewrite El, Ea, gap_next, Eb.
  split; [rewrite app_length; simpl; lia|].
  split; [apply (sorted_snoc (x :: ps)); [exact H2|]; eapply Forall_impl; [|apply sorted_last, H2]; cbn; intros; lia|].
  split; [intros n Hn; destruct (Nat.eq_dec n (S i)) as [->|]|].
  - change (x :: ps ++ [S k]) with ((x :: ps) ++ [S k]). rewrite app_nth2 by (simpl; lia).
    replace (S i - length (x :: ps)) with 0 by (simpl; lia). auto.
  - change (x :: ps ++ [S k]) with ((x :: ps) ++ [S k]). rewrite app_nth1 by (simpl; lia). apply H3. lia.
  - split; [lia|]. destruct (run (T i k)) as [|r] eqn:Er.
    + cbn [Nat.eqb] in E. rewrite E. cbn [pts run]. specialize (H6 eq_refl).
      assert (En : (S k =? S (last ps x)) = false) by (apply Nat.eqb_neq; lia). rewrite En.
      unfold step_pts. rewrite En. split; [lia|]. split; [discriminate|]. intros _. split; [reflexivity|].
      f_equal; lia.
    + destruct H7 as [El' Eb']; [lia|]. rewrite El' in *. rewrite gap_next in H5.
      replace (S (S r) =? 1) with false in E by reflexivity.
      replace (S (S k) - S (S r)) with (S k - S r) in E by lia. rewrite <- Eb' in E.
      unfold step_pts. rewrite Nat.eqb_refl. destruct ((8 <=? bonus (S k)) && _)%Z eqn:Ec; rewrite E; cbn [pts run].
      * apply andb_prop in Ec as [Ec _]. apply Z.leb_le in Ec.
        split; [lia|]. split; [discriminate|]. intros _. split; [reflexivity|]. f_equal; lia.
      * split; [lia|]. split; [discriminate|]. intros _. split; [reflexivity|]. rewrite Eb'. f_equal; lia.
Qed.

Lemma path_exists : forall i, i < h -> forall k, first i <= k -> good i k -> exists x ps, traced i k x ps.
Proof.
  induction i as [|i IHi]; intros Hi; induction k as [|k IHk]; intros Hf Hg.
  - assert (E : first 0 = 0) by lia. pose proof (Hfirst 0 Hi) as Hh. rewrite E in Hh.
    exists 0, []. unfold traced. rewrite T_hit0 by auto. cbn [pts run length last alignment_pts rest_pts best_of].
    rewrite gap_next. split; [reflexivity|]. split; [repeat constructor|].
    split; [intros n Hn; assert (n = 0) as -> by lia; cbn; auto|].
    split; [lia|]. split; [lia|]. split; [discriminate|]. intros _. split; [reflexivity|]. f_equal; lia.
  - destruct (hit 0 (S k)) eqn:E.
    + exists (S k), []. unfold traced. rewrite T_hit0 by auto. cbn [pts run length last alignment_pts rest_pts best_of].
      rewrite gap_next. split; [reflexivity|]. split; [repeat constructor|].
      split; [intros n Hn; assert (n = 0) as -> by lia; cbn; auto|].
      split; [lia|]. split; [lia|]. split; [discriminate|]. intros _. split; [reflexivity|]. f_equal; lia.
    + pose proof (@T_gap hit bonus first stop 0 (S k) ltac:(lia) Hf E) as Et.
      destruct (good_left 0 (S k) Hi Hf Hg ltac:(lia)) as (Hlt & Hg' & Ep); [rewrite Et; reflexivity|].
      replace (S k - 1) with k in * by lia.
      destruct (IHk ltac:(lia) Hg') as (x & ps & Tr). exists x, ps. eapply traced_left; [exact Tr|exact Et|].
      rewrite Et in Ep. cbn [pts] in Ep. exact Ep.
  - pose proof (first_le hit bonus first h Hb Hfirst Hinc 0 (S i) ltac:(lia) Hi). lia.
  - destruct (hit (S i) (S k)) eqn:E.
    + pose proof (@T_hit hit bonus first stop i (S k) ltac:(lia) Hf E) as Et. cbv zeta in Et.
      unfold pts_of, run_of in Et. replace (S k - 1) with k in Et by lia.
      remember (if S (run (T i k)) =? 1 then _ else _) as br eqn:Ebr. destruct br as [b r].
      assert (Hbb : (b <= 10)%Z).
      { pose proof (Hb (S k)). pose proof (Hb (S (S k) - S (run (T i k)))).
        destruct (S (run (T i k)) =? 1); [apply (f_equal fst) in Ebr; cbn [fst] in Ebr; lia|]. destruct (_ && _)%Z; apply (f_equal fst) in Ebr; cbn [fst] in Ebr; lia. }
      destruct (Z.ltb_spec (pts (T i k) + 16 + b) (saturating_sub (pts (T (S i) k)) (cost (S i) (S k)))) as [Hlt|Hge].
      * destruct (good_left (S i) (S k) Hi Hf Hg ltac:(lia)) as (Hl & Hg' & Ep);
          [replace (S k - 1) with k by lia; rewrite Et; reflexivity|].
        replace (S k - 1) with k in * by lia.
        destruct (IHk ltac:(lia) Hg') as (x & ps & Tr). exists x, ps. eapply traced_left; [exact Tr|exact Et|].
        rewrite Et in Ep. cbn [pts] in Ep. exact Ep.
      * assert (Hg' : good i (S k - 1)).
        { apply (good_diag i (S k) b); try assumption; try lia. rewrite Et. cbn [pts].
          replace (S k - 1) with k by lia. reflexivity. }
        replace (S k - 1) with k in Hg' by lia. pose proof (Hinc i Hi).
        destruct (IHi ltac:(lia) k ltac:(lia) Hg') as (x & ps & Tr). exists x, (ps ++ [S k]).
        apply traced_diag with (i := i); try assumption. cbv zeta. rewrite <- Ebr. exact Et.
    + pose proof (@T_gap hit bonus first stop (S i) (S k) ltac:(lia) Hf E) as Et.
      destruct (good_left (S i) (S k) Hi Hf Hg ltac:(lia)) as (Hlt & Hg' & Ep); [rewrite Et; reflexivity|].
      replace (S k - 1) with k in * by lia.
      destruct (IHk ltac:(lia) Hg') as (x & ps & Tr). exists x, ps. eapply traced_left; [exact Tr|exact Et|].
      rewrite Et in Ep. cbn [pts] in Ep. exact Ep.
Qed.

(** The best cell takes its points from the diagonal. *)
Lemma best_path i j : (forall i, i < h -> first i <= stop) -> best_cell hit bonus first stop h i j -> good i j ->
  exists x ps, traced i j x ps /\ last ps x = j /\ pts (T i j) = apts (x :: ps).
Proof.
  intros Hs B Hg. pose proof B as ((Hi & Hj & Hh) & HM & HL).
  destruct (path_exists i Hi j ltac:(lia) Hg) as (x & ps & Tr). exists x, ps. split; [exact Tr|].
  assert (El : last ps x = j).
  { destruct Tr as (_ & _ & _ & _ & _ & H6 & H7). destruct (run (T i j)) as [|r] eqn:Er; [|apply H7; lia].
    exfalso. specialize (H6 eq_refl). clear H7. destruct i as [|i].
    - rewrite T_hit0 in Er by (auto; lia). discriminate.
    - destruct j as [|j]; [lia|]. pose proof (@T_hit hit bonus first stop i (S j) ltac:(lia) ltac:(lia) Hh) as Et. cbv zeta in Et.
      unfold pts_of, run_of in Et. replace (S j - 1) with j in Et by lia.
      remember (if S (run (T i j)) =? 1 then _ else _) as br eqn:Ebr. destruct br as [b r].
      assert (Hr : 0 < r).
      { destruct (S (run (T i j)) =? 1); [apply (f_equal snd) in Ebr; cbn [snd] in Ebr; lia|]. destruct (_ && _)%Z; apply (f_equal snd) in Ebr; cbn [snd] in Ebr; lia. }
      destruct (Z.ltb_spec (pts (T i j) + 16 + b) (saturating_sub (pts (T (S i) j)) (cost (S i) (S j)))) as [Hlt|Hge];
        [|rewrite Et in Er; cbn [run] in Er; lia].
      pose proof (step_cost_bounds hit first stop (S i) (S j)).
      pose proof (best_16 hit bonus first stop h Hb Hfirst Hinc (S i) (S j) ltac:(lia) ltac:(apply Hs; lia) B) as H16.
      assert (pts (T (S i) j) <= pts (T (S i) (S j)) - 1)%Z.
      { apply cell_le_hits; [lia|]. intros k Hk Hhk.
        assert (hit_cell hit first stop h (S i) k) as C by (repeat split; auto; lia).
        assert (Hkj : k < S j) by lia. specialize (HL (S i) k C (or_intror (conj eq_refl Hkj))). lia. }
      assert (Ep : pts (T (S i) (S j)) = saturating_sub (pts (T (S i) j)) (cost (S i) (S j))) by (rewrite Et; reflexivity).
      unfold saturating_sub, I64_MIN in Ep. lia. }
  split; [exact El|]. destruct Tr as (_ & _ & _ & _ & H5 & _). rewrite El, gap_next in H5. lia.
Qed.

End Path.

Section Kinds.
Variables (hit : nat -> nat -> bool) (bonus : nat -> Z) (first : nat -> nat) (stop h : nat).
Hypothesis Hb : forall j, (0 <= bonus j <= 10)%Z.
Hypothesis Hfirst : forall i, i < h -> hit i (first i) = true.
Hypothesis Hinc : forall i, S i < h -> first i < first (S i).
Hypothesis Hstop : forall i, i < h -> first i <= stop.
Notation T := (table hit bonus first stop).
Notation cost := (step_cost hit first stop).
Notation gap := (gap_cost hit first stop).
Notation rest := (rest_pts hit bonus first stop).
Notation apts := (alignment_pts hit bonus first stop).
Notation path := (traced hit bonus first stop).

(** A row takes points from its start only if these are negative. *)
Lemma left_first i k : 0 < k -> first i <= k -> pts (T i k) = saturating_sub (pts (T i (k - 1))) (cost i k) ->
  (0 < pts (T i k))%Z -> first i < k.
Proof.
  intros Hk Hf E Hpos. destruct (Nat.eq_dec (first i) k) as [e|]; [|lia].
  rewrite (@T_before hit bonus first stop i (k - 1)) in E by lia. cbn [pts] in E.
  pose proof (step_cost_bounds hit first stop i k). unfold saturating_sub, I64_MIN in E. lia.
Qed.

Lemma left_exact i k : pts (T i k) = saturating_sub (pts (T i (k - 1))) (cost i k) -> (- 2 ^ 63 < pts (T i k))%Z ->
  pts (T i k) = (pts (T i (k - 1)) - cost i k)%Z.
Proof. unfold saturating_sub, I64_MIN. lia. Qed.

(** If no row starts with a negative number of points. *)
Lemma best_path_near i j : (Z.of_nat stop < 2 ^ 63)%Z ->
  (forall i, i < h -> (0 < pts (T i (first i)))%Z) -> best_cell hit bonus first stop h i j ->
  exists x ps, path i j x ps /\ last ps x = j /\ pts (T i j) = apts (x :: ps).
Proof.
  intros Hl Hpos B. apply (best_path hit bonus first stop h Hb Hfirst Hinc (fun _ k => k <= stop)); auto.
  - intros i' k Hi Hf Hk H0 E.
    assert (Hlt : first i' < k).
    { destruct (Nat.eq_dec (first i') k) as [e|]; [|lia].
      apply left_first; [lia|lia|exact E|]. rewrite <- e. apply Hpos, Hi. }
    split; [exact Hlt|]. split; [lia|]. apply left_exact; [exact E|].
    pose proof (pts_lower hit bonus first stop h Hb Hfirst Hinc i' Hi k Hf). destruct (hit i' k); lia.
  - intros. lia.
  - apply B.
Qed.

(** If the points are more than those of a row less can be. *)
Lemma best_path_high i j : (26 * Z.of_nat i < pts (T i j))%Z -> best_cell hit bonus first stop h i j ->
  exists x ps, path i j x ps /\ last ps x = j /\ pts (T i j) = apts (x :: ps).
Proof.
  intros Hp B. apply (best_path hit bonus first stop h Hb Hfirst Hinc (fun i k => 26 * Z.of_nat i < pts (T i k))%Z); auto.
  - intros i' k Hi Hf Hg H0 E. pose proof (step_cost_bounds hit first stop i' k).
    split; [apply left_first; [lia|lia|exact E|lia]|].
    pose proof (left_exact i' k E ltac:(lia)). lia.
  - intros i' k b Hi Hf Hh Hg H0 Hbb E. lia.
Qed.

(** ** One hit in each row *)
Section One.
Hypothesis One : forall i j, i < h -> first i <= j <= stop -> hit i j = true -> j = first i.
Hypothesis Near : forall i, S i < h -> first (S i) <= first i + 14.

Lemma near_first i : i < h -> first i <= first 0 + 14 * i.
Proof.
  induction i as [|i IH]; intros Hi; [lia|]. specialize (IH ltac:(lia)). specialize (Near i Hi). lia.
Qed.

Lemma near_pos i k : i < h -> first i <= k <= first i + 13 -> (0 < pts (T i k))%Z.
Proof.
  intros Hi Hk. pose proof (pts_lower hit bonus first stop h Hb Hfirst Hinc i Hi k ltac:(lia)) as H.
  pose proof (near_first i Hi). destruct (hit i k); lia.
Qed.

Lemma one_path i : i < h -> exists x ps, path i (first i) x ps.
Proof.
  intros Hi. apply (path_exists hit bonus first stop h Hb Hfirst Hinc (fun i k => k <= first i + 13 /\ k <= stop)); auto.
  - intros i' k Hi' Hf Hk H0 E. assert (Hpos : (0 < pts (T i' k))%Z) by (apply near_pos; [exact Hi'|lia]).
    split; [apply left_first; [lia|lia|exact E|exact Hpos]|]. split; [lia|]. apply left_exact; [exact E|lia].
  - intros i' k b Hi' Hf Hh Hk H0 Hbb E. assert (k = first (S i')) as -> by (apply One; auto; lia).
    specialize (Near i' Hi'). specialize (Hinc i' Hi'). lia.
  - specialize (Hstop i Hi). lia.
Qed.

Lemma seq_from a n : seq a (S n) = a :: seq (S a) n.
Proof using Type. reflexivity. Qed.

Lemma nth_seq_map n k : k < n -> nth k (map first (seq 0 n)) 0 = first k.
Proof using Type.
  intros H. rewrite (nth_indep _ 0 (first 0)) by (rewrite map_length, seq_length; exact H).
  rewrite map_nth, seq_nth by exact H. reflexivity.
Qed.

Lemma one_pts i : i < h -> pts (T i (first i)) = apts (map first (seq 0 (S i))).
Proof.
  intros Hi. destruct (one_path i Hi) as (x & ps & H1 & H2 & H3 & H4 & H5 & _).
  assert (Hl : last ps x = nth i (x :: ps) 0).
  { rewrite <- H1. clear. revert x. induction ps as [|y ps IH]; intros x; [reflexivity|].
    rewrite last_default, IH. reflexivity. }
  assert (Hle : forall n, n <= i -> nth n (x :: ps) 0 <= first i).
  { intros n Hn. pose proof (sorted_last x ps H2) as F. rewrite Forall_forall in F.
    assert (Hn' : n < length (x :: ps)) by (simpl; lia). specialize (F _ (nth_In (x :: ps) 0 Hn')). lia. }
  assert (El : x :: ps = map first (seq 0 (S i))).
  { apply (nth_ext _ _ 0 0).
    - rewrite map_length, seq_length. simpl. lia.
    - intros n Hn. cbn [length] in Hn. rewrite nth_seq_map by lia.
      destruct (H3 n ltac:(lia)) as [Hf Hh]. specialize (Hle n ltac:(lia)). specialize (Hstop i Hi).
      apply One; auto; lia. }
  assert (Eli : last ps x = first i).
  { destruct (H3 i (le_n _)) as [Hf _]. rewrite <- Hl in Hf. lia. }
  rewrite Eli, gap_next in H5. rewrite H5, El. lia.
Qed.

(** The gap between two positions starts with 3 and goes on with 1. *)
Lemma one_gap i n : i < h -> first i + n < stop -> 0 < n -> gap i (first i) (S (first i + n)) = (2 + Z.of_nat n)%Z.
Proof.
  intros Hi. destruct n as [|n]; [lia|]. intros Hs _. induction n as [|n IH].
  - rewrite Nat.add_1_r, gap_step, gap_next by lia. unfold step_cost.
    replace (S (first i) - 1) with (first i) by lia. rewrite Hfirst by exact Hi. rewrite andb_false_r.
    assert (E : (first i <? first i) = false) by apply Nat.ltb_irrefl. rewrite E. cbn [andb].
    destruct (hit i (S (first i)) || _); reflexivity.
  - replace (first i + S (S n)) with (S (first i + S n)) by lia. rewrite gap_step by lia. rewrite IH by lia. unfold step_cost.
    replace (S (first i + S n) - 1) with (first i + S n) by lia.
    destruct (Nat.ltb_spec (first i) (S (first i + S n))); [|lia].
    destruct (hit i (first i + S n)) eqn:E; [|cbn [andb negb]; lia].
    apply One in E; [lia|exact Hi|lia].
Qed.

Lemma one_gap_to i : S i < h -> first (S i) <> S (first i) ->
  gap i (first i) (first (S i)) = (3 + (Z.of_nat (first (S i) - S (first i)) - 1))%Z.
Proof.
  intros Hi Hne. pose proof (Hinc i Hi). pose proof (Hstop (S i) Hi).
  pose proof (one_gap i (first (S i) - S (first i)) ltac:(lia) ltac:(lia) ltac:(lia)) as E.
  replace (S (first i + (first (S i) - S (first i)))) with (first (S i)) in E by lia. lia.
Qed.

Lemma apts_snoc i : S i < h ->
  exists b, apts (map first (seq 0 (S (S i)))) =
    (apts (map first (seq 0 (S i))) + step_pts hit bonus first stop i (first i) b (first (S i)))%Z /\ (0 <= b)%Z.
Proof.
  intros Hi. rewrite (seq_S (S i)), map_app. cbn [Nat.add map]. rewrite seq_from. cbn [map app alignment_pts].
  rewrite rest_app, map_length, seq_length. exists (best_of bonus (first 0) (bonus (first 0)) (map first (seq 1 i))). split.
  - replace (last (map first (seq 1 i)) (first 0)) with (first i); [cbn [Nat.add]; lia|].
    destruct i as [|i]; [reflexivity|]. rewrite seq_S, map_app. cbn [map]. rewrite last_last. reflexivity.
  - assert (G : forall ps prev z, (0 <= z)%Z -> (0 <= best_of bonus prev z ps)%Z).
    { induction ps as [|y ps IH]; intros prev z Hz; [exact Hz|]. cbn [best_of]. apply IH. pose proof (Hb y).
      destruct (_ =? _); [destruct (_ && _)%Z|]; lia. }
    apply G. apply Hb.
Qed.

Lemma one_more i : S i < h -> (pts (T i (first i)) < pts (T (S i) (first (S i))))%Z.
Proof.
  intros Hi. rewrite !one_pts by lia. destruct (apts_snoc i Hi) as (b & -> & Hb0). unfold step_pts.
  destruct (Nat.eqb_spec (first (S i)) (S (first i))) as [E|E]; [lia|].
  rewrite one_gap_to by auto. pose proof (Hb (first (S i))). pose proof (Near i Hi). pose proof (Hinc i Hi). lia.
Qed.

Lemma one_best i j : best_cell hit bonus first stop h i j -> S i = h /\ j = first i.
Proof.
  intros ((Hi & Hj & Hh) & HM & _). assert (j = first i) as -> by (apply One; auto). split; [|reflexivity].
  destruct (Nat.eq_dec (S i) h) as [|Hne]; [assumption|exfalso].
  pose proof (one_more i ltac:(lia)) as H.
  assert (C : hit_cell hit first stop h (S i) (first (S i))).
  { split; [lia|]. split; [|apply Hfirst; lia]. split; [lia|apply Hstop; lia]. }
  specialize (HM _ _ C). lia.
Qed.

Lemma one_rows : forall i ps, i < h -> rows hit first i ps -> Forall (fun j => j <= stop) ps ->
  rev ps = map first (seq 0 (S i)).
Proof.
  induction i as [|i IH]; intros [|j ps] Hi H F; try (destruct H; fail); cbn [rows] in H; destruct H as (Hh & Hf & H);
    inversion F; subst; assert (j = first _) as -> by (apply One; [exact Hi|split; [exact Hf|assumption]|exact Hh]).
  - reflexivity.
  - cbn [rev]. rewrite (IH ps) by (auto; lia). rewrite (seq_S (S i)), map_app. reflexivity.
Qed.

End One.
End Kinds.

(** ** The points of an alignment and its score *)
Section Compare.
Context {UC : unicode}.
Variables (sch : fzf_scheme) (c : list char).
Variables (hit : nat -> nat -> bool) (first : nat -> nat) (stop : nat).
Notation gap := (gap_cost hit first stop).
Notation rest := (rest_pts hit (bonus_of sch c) first stop).
Notation apts := (alignment_pts hit (bonus_of sch c) first stop).

Lemma gap_bounds i p j : (Z.of_nat (j - S p) <= gap i p j <= 3 * Z.of_nat (j - S p))%Z.
Proof.
  unfold gap_cost. generalize (j - S p). generalize (S p). intros a n. revert a.
  induction n as [|n IH]; intros a; [cbn; lia|]. cbn [seq map sum]. specialize (IH (S a)).
  pose proof (step_cost_bounds hit first stop i a). lia.
Qed.

Lemma rest_between : forall ps i prev best, StronglySorted lt (prev :: ps) ->
  (rest_score sch c prev best ps - 2 * (skipped (prev :: ps) - gaps (prev :: ps)) <= rest i prev best ps
   <= rest_score sch c prev best ps + 2 * gaps (prev :: ps))%Z.
Proof.
  induction ps as [|j ps IH]; intros i prev best Hs; [cbn; lia|].
  apply StronglySorted_inv in Hs as [Hs Hx]. inversion Hx as [|? ? Hj _]; subst.
  change (skipped (prev :: j :: ps)) with (Z.of_nat (j - S prev) + skipped (j :: ps))%Z.
  change (gaps (prev :: j :: ps)) with ((if (j =? S prev)%nat then 0 else 1) + gaps (j :: ps))%Z.
  cbn [rest_score rest_pts]. cbv zeta. destruct (Nat.eqb_spec j (S prev)) as [E|E].
  - match goal with |- context [rest_score sch c j ?b ps] => specialize (IH (S i) j b Hs) end. lia.
  - specialize (IH (S i) j (bonus_of sch c j) Hs). pose proof (gap_bounds i prev j). lia.
Qed.

Lemma apts_between ps : StronglySorted lt ps ->
  (alignment_score sch c ps - 2 * (skipped ps - gaps ps) <= apts ps <= alignment_score sch c ps + 2 * gaps ps)%Z.
Proof.
  intros Hs. destruct ps as [|j ps]; [cbn; lia|]. cbn [alignment_score alignment_pts].
  pose proof (rest_between ps 0 j (bonus_of sch c j) Hs). lia.
Qed.

Lemma rest_same : forall ps i prev best,
  (forall n, n < length ps -> nth n ps 0 <> S (nth n (prev :: ps) 0) ->
     gap (i + n) (nth n (prev :: ps) 0) (nth n ps 0)
     = (3 + (Z.of_nat (nth n ps 0 - S (nth n (prev :: ps) 0))%nat - 1))%Z) ->
  rest i prev best ps = rest_score sch c prev best ps.
Proof.
  induction ps as [|j ps IH]; intros i prev best H; [reflexivity|].
  assert (IH' : forall b, rest (S i) j b ps = rest_score sch c j b ps).
  { intros b. apply IH. intros n Hn Hne. specialize (H (S n)). cbn [nth length] in H.
    rewrite <- plus_n_Sm in H. apply H; [lia|exact Hne]. }
  cbn [rest_pts rest_score]. cbv zeta. destruct (Nat.eqb_spec j (S prev)) as [E|E]; rewrite IH'; [reflexivity|].
  specialize (H 0 ltac:(simpl; lia)). cbn [nth] in H. rewrite Nat.add_0_r in H. rewrite H by exact E. reflexivity.
Qed.

End Compare.
