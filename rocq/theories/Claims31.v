(** Proofs for C44: how much worse FzfV2 can be than FzfV1. *)
From Coq Require Import Sorted.
From Verif Require Import Prelude Chars Normalize Utils Candidate MatchedRanges Query Parser Scoring
  Slab Fzf FzfV1 FzfV2 Api History
  Spec Loss PreludeProofs CharsProofs NormalizeProofs CandidateProofs MatchedRangesProofs ParserProofs
  ScoreProofs ExactProofs ShapeProofs V1Proofs V2Tables V2Proofs V2Rows V2Fuzzy V2Facts V2Path ApiProofs AcceptProofs
  RangeProofs WordsProofs CongProofs FuzzyFacts Claims1 Claims2 Claims5 Claims6 Claims7 Claims16.
Local Open Scope nat_scope.

Lemma filter_no {A} (f : A -> bool) l : (forall x, In x l -> f x = false) -> filter f l = [].
Proof.
  induction l as [|x l IH]; intros H; [reflexivity|]. cbn [filter]. rewrite (H x (or_introl eq_refl)).
  apply IH. intros y Hy. apply H. right. exact Hy.
Qed.

Section Table.
Variables (hit : nat -> nat -> bool) (bonus : nat -> Z) (first : nat -> nat) (stop h : nat).
Hypothesis Hb : forall j, (0 <= bonus j <= 10)%Z.
Notation T := (table hit bonus first stop).
Notation cost := (step_cost hit first stop).

(** Crossing [n] characters to the right of a cell costs 3, 1 for each but the first, and 2 more for each hit among
    all but the last. *)
Lemma cross_cost i k n : first i <= k -> hit i k = true ->
  (i <> 0 \/ forall j, k < j <= k + S n -> hit i j = false) ->
  (pts (T i k) - (3 + Z.of_nat n + 2 * Z.of_nat (length (filter (hit i) (seq (S k) n)))) <= pts (T i (k + S n)))%Z.
Proof using Hb.
  intros Hf Hh. induction n as [|n IH]; intros Hi.
  - cbn [seq filter length]. pose proof (pts_steps hit bonus first stop Hb i k 1 Hf) as H. specialize (H Hi). lia.
  - specialize (IH ltac:(destruct Hi as [Hi|Hi]; [left; exact Hi|right; intros; apply Hi; lia])).
    rewrite seq_S, filter_app, app_length. cbn [filter].
    assert (St : (pts (T i (k + S n)) - cost i (S (k + S n)) <= pts (T i (S (k + S n))))%Z).
    { destruct Hi as [Hi|Hi].
      - destruct i as [|i]; [congruence|]. eapply pts_step; first [exact Hb|exact h|lia].
      - eapply pts_step_gap; first [exact Hb|exact h|lia|apply Hi; lia]. }
    replace (k + S (S n)) with (S (k + S n)) by lia. replace (S k + n) with (k + S n) by lia.
    unfold step_cost in St at 1. replace (S (k + S n) - 1) with (k + S n) in St by lia.
    assert (E : (first i <? S (k + S n)) = true) by (apply Nat.ltb_lt; lia). rewrite E in St. cbn [andb] in St.
    destruct (hit i (k + S n)); cbn [negb length] in *; [|lia].
    revert St. destruct (_ || _); [lia|]. destruct (_ && _); lia.
Qed.

(** A hit below the first row: what it earns, and one point more if the cell to the left is better. *)
Definition left_better (t : cell) : Z := if run t =? 0 then 1%Z else 0%Z.

Lemma hit_earns i k : first (S i) <= S k -> hit (S i) (S k) = true ->
  exists b, (pts (T i k) + 16 + b + left_better (T (S i) (S k)) <= pts (T (S i) (S k)))%Z
    /\ (bonus (S k) <= b)%Z /\ (run (T i k) <> 0 -> (4 <= b)%Z)
    /\ (run (T i k) = 1 -> b = Z.max (Z.max (bonus (S k)) (if (8 <=? bonus (S k)) && (bonus k <? bonus (S k)) then bonus (S k) else bonus k)%Z) 4).
Proof using Hb.
  intros Hf Hh. unfold left_better. rewrite T_hit by (auto; lia). cbv zeta. unfold pts_of, run_of.
  replace (S k - 1) with k by lia. set (left := saturating_sub _ _). set (r := run (T i k)).
  pose proof (Hb k) as B1. pose proof (Hb (S k)) as B2.
  destruct (Nat.eqb_spec (S r) 1) as [E|E].
  - exists (bonus (S k)). assert (r = 0) by lia.
    destruct (Z.ltb_spec (pts (T i k) + 16 + bonus (S k)) left); cbn [pts run]; [|rewrite E];
      cbn [Nat.eqb]; (split; [lia|]; split; [lia|]; split; [congruence|lia]).
  - assert (Hr : r <> 0) by lia. destruct ((8 <=? bonus (S k)) && (bonus (S (S k) - S r) <? bonus (S k)))%Z eqn:R.
    + exists (bonus (S k)). apply andb_true_iff in R as [R1 R2]. apply Z.leb_le in R1. apply Z.ltb_lt in R2.
      split; [destruct (Z.ltb_spec (pts (T i k) + 16 + bonus (S k)) left); cbn [pts run Nat.eqb]; lia|].
      split; [lia|]. split; [lia|]. intros E1. replace (S (S k) - S r) with k in R2 by lia.
      destruct (Z.leb_spec 8 (bonus (S k))); [|lia]. destruct (Z.ltb_spec (bonus k) (bonus (S k))); [|lia]. cbn [andb]. lia.
    + exists (Z.max (Z.max 4 (bonus (S (S k) - S r))) (bonus (S k))).
      split; [destruct (Z.ltb_spec (pts (T i k) + 16 + Z.max (Z.max 4 (bonus (S (S k) - S r))) (bonus (S k))) left);
        cbn [pts run Nat.eqb]; lia|].
      split; [lia|]. split; [lia|]. intros E1. replace (S (S k) - S r) with k in R |- * by lia. rewrite R. lia.
Qed.
End Table.

Section WithUnicode.
Context {UC : unicode}.

Section Lower.
Variables (hit : nat -> nat -> bool) (sch : fzf_scheme) (l : str) (first : nat -> nat) (stop : nat).
Notation bonus := (bonus_of sch l).
Hypothesis Hb : forall j, (0 <= bonus j <= 10)%Z.
Notation T := (table hit bonus first stop).

Lemma rest_lower : forall ps i prev best, first i <= prev -> hit i prev = true -> (0 <= best <= 10)%Z ->
  StronglySorted lt (prev :: ps) ->
  (forall k, k < length ps -> first (S i + k) <= nth k ps 0 /\ hit (S i + k) (nth k ps 0) = true) ->
  (i = 0 -> best = bonus prev /\ forall k, prev < k < hd 0 ps -> hit 0 k = false) ->
  (pts (T i prev) - left_better (T i prev) + rest_score sch l prev best ps
   <= pts (T (i + length ps) (last (prev :: ps) 0%nat)) + 2 * Z.of_nat (recurring hit i (prev :: ps))
      + 9 * Z.of_nat (adjacent (if (i =? 0)%nat then ps else prev :: ps)))%Z.
Proof using Hb.
  induction ps as [|x ps IH]; intros i prev best Hf Hh Hbest Hs Hk H0.
  - cbn [rest_score last length]. rewrite Nat.add_0_r. unfold left_better. destruct (run (T i prev) =? 0); lia.
  - apply StronglySorted_inv in Hs as [Hs Hx]. inversion Hx as [|? ? Hjx _]; subst.
    destruct (Hk 0 ltac:(simpl; lia)) as [Hfx Hhx]. cbn [nth] in Hfx, Hhx. rewrite Nat.add_0_r in Hfx, Hhx.
    assert (Hk' : forall k, k < length ps -> first (S (S i) + k) <= nth k ps 0 /\ hit (S (S i) + k) (nth k ps 0) = true).
    { intros k Hkl. specialize (Hk (S k)). cbn [nth length] in Hk. rewrite <- plus_n_Sm in Hk. apply Hk. lia. }
    change (last (prev :: x :: ps) 0) with (last (x :: ps) 0%nat).
    replace (i + length (x :: ps)) with (S i + length ps) by (cbn [length]; lia).
    cbn [rest_score]. cbv zeta. destruct x as [|x]; [lia|].
    destruct (hit_earns hit bonus first stop Hb i x Hfx Hhx) as (b & E1 & E2 & E3 & E4).
    pose proof (Hb (S x)) as Bx. pose proof (Hb prev) as Bp.
    change (recurring hit i (prev :: S x :: ps))
      with (length (filter (hit i) (seq (S prev) (S x - S (S prev)))) + recurring hit (S i) (S x :: ps)).
    destruct (Nat.eqb_spec (S x) (S prev)) as [Eq|Ne].
    + injection Eq as ->. set (best' := if ((8 <=? bonus (S prev)) && (best <? bonus (S prev)))%Z then bonus (S prev) else best).
      assert (B' : (0 <= best' <= 10)%Z) by (subst best'; match goal with |- context [if ?g then _ else _] => destruct g end; assumption).
      specialize (IH (S i) (S prev) best' Hfx Hhx B' Hs Hk' ltac:(discriminate)). cbn [Nat.eqb] in IH.
      replace (S prev - S (S prev)) with 0 by lia. cbn [seq filter length]. rewrite Nat.add_0_l.
      destruct (Nat.eqb_spec i 0) as [->|Ni].
      * destruct (H0 eq_refl) as [Eb _]. assert (Er : T 0 prev = Cell (16 + 2 * bonus prev) 1) by (apply T_hit0; assumption).
        rewrite Er in *. cbn [run] in E4. specialize (E4 eq_refl). subst best. fold best' in E4.
        unfold left_better at 1. cbn [run Nat.eqb]. lia.
      * change (adjacent (prev :: S prev :: ps)) with ((if S prev =? S prev then 1 else 0) + adjacent (S prev :: ps)).
        rewrite Nat.eqb_refl. unfold left_better in *.
        destruct (Nat.eqb_spec (run (T i prev)) 0) as [R|R]; [|specialize (E3 R)]; lia.
    + assert (Bb : (0 <= bonus (S x) <= 10)%Z) by apply Hb.
      specialize (IH (S i) (S x) (bonus (S x)) Hfx Hhx Bb Hs Hk' ltac:(discriminate)). cbn [Nat.eqb] in IH.
      pose proof (cross_cost hit bonus first stop Hb i prev (x - S prev) Hf Hh) as C.
      replace (prev + S (x - S prev)) with x in C by lia.
      assert (C' : (pts (T i prev) - (3 + Z.of_nat (x - S prev) + 2 * Z.of_nat (length (filter (hit i) (seq (S prev) (x - S prev)))))
        <= pts (T i x))%Z).
      { apply C. destruct (Nat.eq_dec i 0) as [->|Ni]; [right|left; exact Ni]. intros k Hkk. apply (H0 eq_refl). cbn [hd]. lia. }
      clear C. replace (S x - S (S prev)) with (x - S prev) by lia.
      assert (A : adjacent (if i =? 0 then S x :: ps else prev :: S x :: ps) = adjacent (S x :: ps)).
      { destruct (i =? 0); [reflexivity|].
        change (adjacent (prev :: S x :: ps)) with ((if S x =? S prev then 1 else 0) + adjacent (S x :: ps)).
        destruct (Nat.eqb_spec (S x) (S prev)); [lia|reflexivity]. }
      rewrite A. assert (Lp : (0 <= left_better (T i prev))%Z) by (unfold left_better; destruct (run (T i prev) =? 0); lia). lia.
Qed.
End Lower.

(** The score of FzfV2 is at least that of any alignment without a further occurrence of its first character before
    its second position, but for what the hits which it skips and its adjacent pairs can cost. *)
Lemma v2_any sens norm sch p l fs stop sc ps qs hit : p <> [] -> greedy (char_eq sens norm) p l 0 = Some fs ->
  last_col sens norm p l = Some stop -> v2_result sens norm sch p l = Some (sc, ps) ->
  (forall i j, hit_of sens norm p l i j = hit i j) ->
  alignment (agrees sens norm) p l qs -> (forall k, hd 0 qs < k < nth 1 qs 0 -> hit 0 k = false) ->
  (alignment_score sch l qs <= sc + 2 * Z.of_nat (recurring hit 0 qs) + 9 * Z.of_nat (adjacent (tl qs)))%Z.
Proof.
  intros Hp G L Hr Hx A Hno. pose proof (proj2 (aligned_alignment sens norm p l qs) A) as A'.
  destruct (greedy_complete _ _ _ _ _ A') as (fs' & G' & Hle). rewrite G in G'. injection G' as <-.
  destruct A as [Hs F]. pose proof (Forall2_len _ _ _ F) as Hlen.
  destruct qs as [|j qs]; [destruct p; [congruence|discriminate]|].
  assert (Hnth : forall i, i < length p -> firsts fs i <= nth i (j :: qs) 0 /\ hit i (nth i (j :: qs) 0) = true).
  { clear -Hle F Hx. intros i Hi. rewrite <- Hx. clear Hx. split.
    - unfold firsts. revert i Hi. rewrite (Forall2_len _ _ _ F). clear F. revert Hle. generalize (j :: qs). intros u H.
      induction H as [|a b ? ? Hab _ IH]; intros i Hi; [simpl in Hi; lia|].
      destruct i as [|i]; [exact Hab|]. apply IH. simpl in Hi. lia.
    - unfold hit_of. revert i Hi. revert F. generalize (j :: qs). intros u H.
      induction H as [|x b ? ? Hab _ IH]; intros i Hi; [simpl in Hi; lia|].
      destruct i as [|i]; [|apply IH; simpl in Hi; lia].
      destruct Hab as (y & Hy & E). cbn [nth_error nth]. rewrite Hy. apply char_eq_agrees. exact E. }
  destruct (v2_result_cell sens norm sch p l fs stop Hp G L sc ps Hr) as (bi & bj & B & -> & _).
  assert (Hbi : bi < length p) by apply B.
  pose proof (best_cell_ext _ hit (bonus_of sch l) (firsts fs) (firsts fs) stop (length p) Hx (fun _ _ => eq_refl) _ _ B) as B'.
  rewrite (table_ext _ hit (bonus_of sch l) (firsts fs) (firsts fs) stop (length p) Hx (fun _ _ => eq_refl) bi Hbi).
  destruct B' as (_ & HM & _). cbn [length] in Hlen.
  assert (Hlast : last (j :: qs) 0 <= stop).
  { destruct (last_col_ge sens norm p l (j :: qs) Hp A') as (j' & Ej & Hj & _).
    rewrite L in Ej. injection Ej as ->. exact Hj. }
  assert (El : last (j :: qs) 0 = nth (length p - 1) (j :: qs) 0).
  { rewrite last_nth. cbn [length]. f_equal. lia. }
  specialize (HM (length p - 1) (last (j :: qs) 0)).
  assert (C : hit_cell hit (firsts fs) stop (length p) (length p - 1) (last (j :: qs) 0)).
  { split; [lia|]. rewrite El in Hlast |- *. destruct (Hnth (length p - 1) ltac:(lia)). auto. }
  specialize (HM C). clear C.
  destruct (Hnth 0 ltac:(lia)) as [Hf0 Hh0]. cbn [nth] in Hf0, Hh0.
  pose proof (rest_lower hit sch l (firsts fs) stop (v2_bonus sch l) qs 0 j (bonus_of sch l j) Hf0 Hh0 (v2_bonus sch l j) Hs) as Lo.
  assert (Lo' := Lo (fun k Hk => Hnth (S k) ltac:(lia))). clear Lo.
  assert (Hno' : 0 = 0 -> bonus_of sch l j = bonus_of sch l j /\ forall k, j < k < hd 0 qs -> hit 0 k = false).
  { intros _. split; [reflexivity|]. intros k Hk. apply Hno. destruct qs; exact Hk. }
  specialize (Lo' Hno'). cbn [Nat.add Nat.eqb] in Lo'. replace (length qs) with (length p - 1) in Lo' by lia.
  rewrite T_hit0 in Lo' by assumption. unfold left_better in Lo'. cbn [pts run Nat.eqb] in Lo'.
  cbn [alignment_score tl]. lia.
Qed.

Lemma c44_any : forall o m text q c d m' qs hit,
  metric_reached AlgoV2 o m -> fuzzy_query text q -> text <> [] ->
  metric_distance m q c = Ok (Some d, m') ->
  (forall i j, hit i j = true <->
     exists x z, nth_error text i = Some x /\ nth_error c j = Some z /\ agreement o text x z) ->
  alignment (agreement o text) text c qs ->
  (forall k, hd 0 qs < k < nth 1 qs 0 -> hit 0 k = false) ->
  (alignment_score (opt_scheme o) c qs
   <= into_score d + 2 * Z.of_nat (recurring hit 0 qs) + 9 * Z.of_nat (adjacent (tl qs)))%Z.
Proof.
  intros o m text q c d m' qs hit Hm Hq Ht E Hhit A Hno.
  pose proof (fuzzy_distance _ _ _ _ _ _ _ _ Hm Hq E) as Hd.
  symmetry in Hd. apply raw_some in Hd as [[-> _]|(_ & rs & Hf & _)]; [congruence|].
  destruct (v2_case _ _ _ _ _ Ht Hf) as (ps & fs & stop & Hr & _ & G & L).
  eapply v2_any; [exact Ht|exact G|exact L|exact Hr| |exact A|exact Hno].
  intros i0 j0. apply Bool.eq_true_iff_eq. rewrite Hhit. unfold hit_of. split.
  - destruct (nth_error text i0) as [x|]; [|discriminate]. destruct (nth_error c j0) as [z|]; [|discriminate].
    intros H. exists x, z. split; [reflexivity|]. split; [reflexivity|]. apply char_eq_agrees. exact H.
  - intros (x & z & -> & -> & H). apply char_eq_agrees. exact H.
Qed.

(** The first character of a query does not occur between the first two positions of its window. *)
Lemma window_first o text c ps (hit : nat -> nat -> bool) :
  (forall i j, hit i j = true <->
     exists x z, nth_error text i = Some x /\ nth_error c j = Some z /\ agreement o text x z) ->
  window (agreement o text) text c ps -> forall k, hd 0 ps < k < nth 1 ps 0 -> hit 0 k = false.
Proof.
  intros Hhit (A & _ & W) k Hk. destruct (hit 0 k) eqn:E; [|reflexivity]. exfalso.
  apply Hhit in E as (x & z & Hx & Hz & Hxz). destruct ps as [|j [|j2 ps]]; [simpl in Hk; lia|simpl in Hk; lia|].
  cbn [hd nth] in Hk. destruct A as [Hs F]. inversion F as [|x' ? text' ? _ F']; subst. injection Hx as ->.
  apply StronglySorted_inv in Hs as [Hs _].
  destruct (W (k :: j2 :: ps)) as [H _].
  - split.
    + constructor; [exact Hs|]. apply StronglySorted_inv in Hs as [_ Hs].
      constructor; [lia|]. eapply Forall_impl; [|exact Hs]. cbv beta. lia.
    + constructor; [|exact F']. exists z. split; assumption.
  - reflexivity.
  - cbn [hd] in H. lia.
Qed.

Lemma c44_loss : forall o m1 m2 text q c d1 d2 m1' m2' ps hit,
  metric_reached AlgoV1 o m1 -> metric_reached AlgoV2 o m2 -> fuzzy_query text q -> text <> [] ->
  metric_distance m1 q c = Ok (Some d1, m1') -> metric_distance m2 q c = Ok (Some d2, m2') ->
  (forall i j, hit i j = true <->
     exists x z, nth_error text i = Some x /\ nth_error c j = Some z /\ agreement o text x z) ->
  window (agreement o text) text c ps ->
  (into_score d1 <= into_score d2 + 2 * Z.of_nat (recurring hit 0 ps) + 9 * Z.of_nat (adjacent (tl ps)))%Z.
Proof.
  intros o m1 m2 text q c d1 d2 m1' m2' ps hit Hm1 Hm2 Hq Ht E1 E2 Hhit W.
  rewrite (c41_v1_score _ _ _ _ _ _ _ _ Hm1 Hq Ht E1 W).
  change (into_score (from_score ?x)) with x.
  eapply c44_any; [exact Hm2|exact Hq|exact Ht|exact E2|exact Hhit|apply W|]. eapply window_first; eassumption.
Qed.

Lemma c44_two : forall o m1 m2 text q c d1 d2 m1' m2',
  metric_reached AlgoV1 o m1 -> metric_reached AlgoV2 o m2 -> fuzzy_query text q -> length text <= 2 ->
  metric_distance m1 q c = Ok (Some d1, m1') -> metric_distance m2 q c = Ok (Some d2, m2') ->
  distance_cmp d2 d1 <> Gt.
Proof.
  intros o m1 m2 text q c d1 d2 m1' m2' Hm1 Hm2 Hq Hl E1 E2. apply cmp_score.
  destruct (list_eq_dec N.eq_dec text []) as [->|Ht].
  - pose proof (fuzzy_distance _ _ _ _ _ _ _ _ Hm1 Hq E1) as H1. pose proof (fuzzy_distance _ _ _ _ _ _ _ _ Hm2 Hq E2) as H2.
    symmetry in H1, H2. apply raw_some in H1 as [[_ ->]|(H & _)]; [|congruence].
    apply raw_some in H2 as [[_ ->]|(H & _)]; [|congruence]. apply Z.le_refl.
  - assert (F : fuzzy_in (agreement o text) text c) by (apply (fuzzy_iff AlgoV1 o m1 text q c (Some d1) m1' Hm1 Hq E1); eauto).
    destruct (table_exists o text c Ht F) as (hit & _ & _ & _ & Hhit & _).
    destruct (window_exists o text c Ht F) as (ps & W).
    pose proof (c44_loss _ _ _ _ _ _ _ _ _ _ _ _ Hm1 Hm2 Hq Ht E1 E2 Hhit W) as Lo.
    pose proof (window_first _ _ _ _ _ Hhit W) as Hno. destruct W as ((_ & A) & _). pose proof (Forall2_len _ _ _ A) as Hlen.
    assert (R : recurring hit 0 ps = 0 /\ adjacent (tl ps) = 0).
    { destruct ps as [|j [|j2 [|? ?]]]; [split; reflexivity..| |simpl in Hlen; lia].
      split; [|reflexivity]. cbn [recurring]. rewrite Nat.add_0_r. cbn [hd nth] in Hno.
      replace (filter (hit 0) (seq (S j) (j2 - S (S j)))) with (@nil nat); [reflexivity|].
      symmetry. apply filter_no. intros k Hk. apply in_seq in Hk. apply Hno. lia. }
    destruct R as [R1 R2]. rewrite R1, R2 in Lo. cbn in Lo. lia.
Qed.
End WithUnicode.
