(** Proofs of C68: text before and after a candidate which agrees with no character of the query. *)
From Coq Require Import Sorted.
From Verif Require Import Prelude Chars Normalize Utils Candidate MatchedRanges Query Parser Scoring
  Slab Fzf FzfV1 FzfV2 Api History
  Spec PreludeProofs CharsProofs NormalizeProofs CandidateProofs MatchedRangesProofs ParserProofs
  ScoreProofs ExactProofs ShapeProofs V1Proofs V2Tables V2Proofs V2Rows V2Fuzzy V2Facts ApiProofs AcceptProofs
  RangeProofs WordsProofs CongProofs FuzzyFacts Claims1 Claims2 Claims5 ExactChoice Claims8 Claims11.
Local Open Scope nat_scope.

Lemma shift_ltb n a b : (n + a <? n + b) = (a <? b).
Proof. destruct (Nat.ltb_spec (n + a) (n + b)), (Nat.ltb_spec a b); auto; lia. Qed.
Lemma shift_leb n a b : (n + a <=? n + b) = (a <=? b).
Proof. destruct (Nat.leb_spec (n + a) (n + b)), (Nat.leb_spec a b); auto; lia. Qed.
Lemma shift_eqb n a b : (n + a =? n + b) = (a =? b).
Proof. destruct (Nat.eqb_spec (n + a) (n + b)), (Nat.eqb_spec a b); auto; lia. Qed.

(** ** Tables *)
Section Table.
Variables (hit hit' : nat -> nat -> bool) (bonus bonus' : nat -> Z) (first first' : nat -> nat) (n stop h : nat).
Hypothesis Hh : forall i j, i < h -> j <= stop -> hit' i (n + j) = hit i j.
Hypothesis Hf : forall i, i < h -> first' i = n + first i.
Hypothesis Hb : forall j, j <= stop -> bonus' (n + j) = bonus j.
Hypothesis Hinc : forall i, S i < h -> first i < first (S i).
Hypothesis Hfirst : forall i, i < h -> hit i (first i) = true.
Notation T := (table hit bonus first stop).
Notation T' := (table hit' bonus' first' (n + stop)).
Notation back := (way_back hit bonus first stop h).
Notation back' := (way_back hit' bonus' first' (n + stop) h).

Lemma run_le : forall i j, run (T i j) <= S j.
Proof.
  induction i as [|i IH]; intros j.
  - destruct (Nat.lt_ge_cases j (first 0)) as [H|H]; [rewrite T_before by exact H; cbn; lia|].
    destruct (hit 0 j) eqn:E; [rewrite T_hit0 by auto; cbn; lia|].
    destruct j; [|rewrite T_gap by (auto; lia); cbn; lia].
    cbn [table]. unfold first_row. rewrite E. destruct (_ <? _); cbn; lia.
  - destruct (Nat.lt_ge_cases j (first (S i))) as [H|H]; [rewrite T_before by exact H; cbn; lia|].
    destruct j as [|j]; [cbn; lia|].
    destruct (hit (S i) (S j)) eqn:E; [|rewrite T_gap by (auto; lia); cbn; lia].
    rewrite T_hit by (auto; lia). cbv zeta. unfold run_of. specialize (IH (S j - 1)).
    destruct (S (run (T i (S j - 1))) =? 1); [|destruct (_ && _)%Z];
      (destruct (_ <? _)%Z; cbn [run]; lia).
Qed.

Lemma existsb_shift (f g : nat -> bool) k : forall a, (forall x, x < a + k -> f (n + x) = g x) ->
  existsb f (seq (n + a) k) = existsb g (seq a k).
Proof.
  induction k as [|k IH]; intros a H; [reflexivity|]. cbn [seq existsb].
  rewrite H, plus_n_Sm, IH by (intros; try apply H; lia). reflexivity.
Qed.

Lemma step_cost_shift i j : i < h -> j <= stop -> step_cost hit' first' (n + stop) i (n + j) = step_cost hit first stop i j.
Proof.
  intros Hi Hj. unfold step_cost, later_hit. rewrite (Hf i Hi), (Hh i j Hi Hj), plus_n_Sm.
  replace (n + stop - (n + j)) with (stop - j) by lia.
  rewrite (existsb_shift (hit' i) (hit i)) by (intros; apply Hh; [exact Hi|lia]). rewrite shift_ltb.
  destruct (Nat.ltb_spec (first i) j) as [H|H].
  - replace (n + j - 1) with (n + (j - 1)) by lia. rewrite (Hh i (j - 1)), shift_ltb by lia.
    destruct (Nat.ltb_spec (first i) (j - 1)) as [H'|H']; [|reflexivity].
    replace (n + j - 2) with (n + (j - 2)) by lia. rewrite (Hh i (j - 2)) by lia. reflexivity.
  - cbn [andb]. destruct (Nat.ltb_spec (first i) (j - 1)); [lia|].
    destruct (Nat.ltb_spec (n + first i) (n + j - 1)); [lia|]. reflexivity.
Qed.

Lemma table_shift : forall i j, i < h -> j <= stop -> T' i (n + j) = T i j.
Proof.
  induction i as [|i IHi]; induction j as [j IHj] using lt_wf_ind; intros Hi Hj.
  - destruct (Nat.lt_ge_cases j (first 0)) as [H|H].
    { rewrite !T_before; auto. rewrite Hf by exact Hi. lia. }
    destruct (hit 0 j) eqn:E.
    { rewrite !T_hit0; auto; [rewrite Hb by exact Hj; reflexivity|rewrite Hf by exact Hi; lia|rewrite Hh; auto]. }
    assert (0 < j). { destruct j; [|lia]. pose proof (Hfirst 0 Hi) as F. replace (first 0) with 0 in F by lia. congruence. }
    rewrite (T_gap (0) (n + j)), (T_gap (0) (j)); auto; try lia; [|rewrite Hf by exact Hi; lia|rewrite Hh; auto].
    unfold pts_of. rewrite step_cost_shift by assumption. replace (n + j - 1) with (n + (j - 1)) by lia.
    rewrite IHj by lia. reflexivity.
  - pose proof (Hinc i Hi) as Hp.
    destruct (Nat.lt_ge_cases j (first (S i))) as [H|H].
    { rewrite !T_before; auto. rewrite Hf by exact Hi. lia. }
    assert (Ef : first' (S i) <= n + j) by (rewrite Hf by exact Hi; lia).
    destruct (hit (S i) j) eqn:E.
    + rewrite (T_hit i (n + j)), (T_hit i j); auto; try lia; [|rewrite Hh; auto].
      cbv zeta. unfold pts_of, run_of. rewrite step_cost_shift by assumption. replace (n + j - 1) with (n + (j - 1)) by lia.
      rewrite IHj, IHi by lia. rewrite Hb by exact Hj. pose proof (run_le i (j - 1)).
      replace (S (n + j) - S (run (T i (j - 1)))) with (n + (S j - S (run (T i (j - 1))))) by lia.
      rewrite Hb by lia. reflexivity.
    + rewrite (T_gap (S i) (n + j)), (T_gap (S i) (j)); auto; try lia; [|rewrite Hh; auto].
      unfold pts_of. rewrite step_cost_shift by assumption. replace (n + j - 1) with (n + (j - 1)) by lia.
      rewrite IHj by lia. reflexivity.
Qed.

Lemma pref_shift i j : i < h -> j <= stop ->
  pref hit' bonus' first' (n + stop) h i (n + j) = pref hit bonus first stop h i j.
Proof.
  intros Hi Hj. unfold pref. rewrite table_shift by assumption. rewrite shift_ltb. f_equal.
  destruct (Nat.ltb_spec (S i) h); [|reflexivity]. destruct (Nat.ltb_spec j stop); [|reflexivity].
  rewrite plus_n_Sm, table_shift by lia. reflexivity.
Qed.

Lemma before_zero i k : i < h -> k < n -> pts (T' i k) = 0%Z.
Proof. intros Hi Hk. rewrite T_before; [reflexivity|]. rewrite Hf by exact Hi. lia. Qed.

Lemma back_shift : forall j i pr, i < h -> j <= stop -> back' i (n + j) pr = map (Nat.add n) (back i j pr).
Proof.
  induction j as [|j IH]; intros i pr Hi Hj.
  - rewrite (back_eq hit' bonus' first'), (back_eq hit bonus first), pref_shift by assumption.
    assert (Et : taken hit' bonus' first' (n + stop) i (n + 0) pr = taken hit bonus first stop i 0 pr).
    { unfold taken. rewrite table_shift by assumption. destruct (n + 0) as [|k] eqn:Ek; [reflexivity|].
      rewrite (before_zero i k) by lia.
      replace (match i with 0 => 0%Z | S i' => pts (T' i' k) end) with 0%Z; [destruct i; reflexivity|].
      destruct i as [|i']; [reflexivity|]. rewrite before_zero by lia. reflexivity. }
    rewrite Et. assert (Ebk : forall k i' pr', i' < h -> S k = n + 0 -> back' i' k pr' = []).
    { intros k i' pr' Hi' Hk. apply back_before; [exact Hi'|]. intros i'' Hi''. rewrite Hf by exact Hi''. lia. }
    destruct (taken _ _ _ _ i 0 pr); cbn [map]; [f_equal; destruct i as [|i']; [reflexivity|]|];
      (destruct (n + 0) as [|k] eqn:Ek; [reflexivity|]; apply Ebk; lia).
  - rewrite (back_eq hit' bonus' first'), (back_eq hit bonus first), pref_shift by assumption.
    assert (Et : taken hit' bonus' first' (n + stop) i (n + S j) pr = taken hit bonus first stop i (S j) pr).
    { unfold taken. rewrite table_shift by assumption. rewrite <- plus_n_Sm, table_shift by lia.
      destruct i as [|i']; [reflexivity|]. rewrite table_shift by lia. reflexivity. }
    rewrite Et. rewrite <- plus_n_Sm. destruct (taken _ _ _ _ i (S j) pr).
    + cbn [map]. rewrite <- plus_n_Sm. f_equal. destruct i as [|i']; [reflexivity|]. apply IH; lia.
    + apply IH; lia.
Qed.

Lemma best_shift i j : best_cell hit bonus first stop h i j -> best_cell hit' bonus' first' (n + stop) h i (n + j).
Proof.
  intros ((Hi & Hj & Hc) & HM & HL).
  assert (D : forall i' j', hit_cell hit' first' (n + stop) h i' j' -> exists j0, j' = n + j0 /\ hit_cell hit first stop h i' j0).
  { intros i' j' (Hi' & Hj' & Hc'). rewrite Hf in Hj' by exact Hi'. exists (j' - n). replace j' with (n + (j' - n)) in Hc' by lia.
    rewrite Hh in Hc' by lia. split; [lia|]. split; [exact Hi'|]. split; [lia|exact Hc']. }
  split; [|split].
  - split; [exact Hi|]. rewrite Hf, Hh by lia. split; [lia|exact Hc].
  - intros i' j' C. apply D in C as (j0 & -> & C). pose proof C as (Hi' & Hj' & _).
    rewrite !table_shift by lia. apply HM. exact C.
  - intros i' j' C Hlt. apply D in C as (j0 & -> & C). pose proof C as (Hi' & Hj' & _).
    rewrite !table_shift by lia. apply HL; [exact C|lia].
Qed.

End Table.

(** ** Insertions *)

Definition moved (b : nat) (r : nat * nat) : nat * nat := (b + fst r, b + snd r).

Lemma ins_moved b : forall own x y, ins (map (moved b) own) (b + x) (b + y) = map (moved b) (ins own x y).
Proof.
  unfold moved. induction own as [|[s e] t IH]; intros x y; [reflexivity|]. specialize (IH x y).
  cbn [map ins fst snd]. rewrite shift_eqb, !shift_ltb, !shift_leb.
  destruct t as [|[s' e'] t'].
  - cbn [map]. destruct (s =? x), (y <=? e), (x <? s), (s <=? y), (x <=? e); try reflexivity;
      cbn [map fst snd]; rewrite <- ?Nat.add_max_distr_l; reflexivity.
  - cbn [map fst snd] in *. rewrite ?shift_leb, ?shift_ltb.
    destruct (s =? x), (y <=? e), (x <? s), (s <=? y), (x <=? e), (s' <=? y), (s' <=? x), (e <? y); cbn [map fst snd]; try reflexivity;
      rewrite IH; reflexivity.
Qed.

Lemma inserts_moved b rs : forall own, inserts (map (moved b) own) (map (moved b) rs) = map (moved b) (inserts own rs).
Proof.
  induction rs as [|r rs IH]; intros own; [reflexivity|]. cbn [map inserts fold_left].
  unfold inserts in IH. cbn [moved fst snd]. rewrite ins_moved. apply IH.
Qed.

(** ** Strings *)

Lemma find_last_idx_false {A} (f : A -> bool) l post : (forall y, In y post -> f y = false) ->
  find_last_idx f (l ++ post) = find_last_idx f l.
Proof.
  intros H. induction l as [|x l IH]; [apply find_last_idx_none; exact H|]. cbn [app find_last_idx]. rewrite IH. reflexivity.
Qed.

Lemma find_last_idx_moved {A} (f : A -> bool) pre l i : find_last_idx f l = Some i ->
  find_last_idx f (pre ++ l) = Some (length pre + i).
Proof.
  intros H. induction pre as [|x pre IH]; [exact H|]. cbn [app find_last_idx length]. rewrite IH. reflexivity.
Qed.

Lemma last_spaces k : last (spaces (S k)) 0%N = 32%N.
Proof. induction k as [|k IH]; [reflexivity|exact IH]. Qed.

Lemma sorted_between qs : StronglySorted lt qs -> Forall (fun j => hd 0 qs <= j <= last qs 0) qs.
Proof.
  induction 1 as [|q qs Hs IH Hq]; [constructor|]. constructor.
  - pose proof (last_ge q qs ltac:(constructor; assumption)). cbn [hd]. lia.
  - destruct qs as [|q' qs]; [constructor|]. change (last (q :: q' :: qs) 0) with (last (q' :: qs) 0). cbn [hd] in *.
    inversion Hq; subst. eapply Forall_impl; [|exact IH]. cbn. intros; lia.
Qed.

Lemma firstn_spaces : forall k a, firstn a (spaces k) = spaces (Nat.min a k).
Proof.
  induction k as [|k IH]; intros [|a]; try reflexivity. cbn [spaces repeat firstn Nat.min]. f_equal. apply IH.
Qed.

Section Strings.
Context {UC : unicode}.
Variables (sens norm : bool) (sch : fzf_scheme) (p pre l post : str).
Notation eq := (char_eq sens norm).
Notation R := (agrees sens norm).
Notation n := (length pre).
Notation l' := (pre ++ l ++ post).
Hypothesis Hp : p <> [].
Hypothesis Hfst : forall y, In y pre -> eq (hd 0%N p) y = false.
Hypothesis Hlst : forall y, In y post -> eq (last p 0%N) y = false.

Lemma nth_mid j : j < length l -> nth_error l' (n + j) = nth_error l j.
Proof using Type. clear Hp Hfst Hlst. intros H. rewrite nth_error_app2 by lia. rewrite nth_error_app1 by lia. f_equal. lia. Qed.

Lemma nth_back j : n <= j < n + length l -> nth_error l' j = nth_error l (j - n).
Proof using Type. clear Hp Hfst Hlst. intros H. rewrite <- nth_mid by lia. f_equal. lia. Qed.

Lemma hit_lo y j : nth_error l' j = Some y -> eq (hd 0%N p) y = true -> n <= j.
Proof.
  intros Hy E. destruct (Nat.lt_ge_cases j n) as [H|H]; [exfalso|exact H].
  rewrite nth_error_app1 in Hy by exact H. rewrite Hfst in E; [discriminate|]. eapply nth_error_In. exact Hy.
Qed.

Lemma hit_hi y j : nth_error l' j = Some y -> eq (last p 0%N) y = true -> j < n + length l.
Proof.
  intros Hy E. destruct (Nat.lt_ge_cases j (n + length l)) as [H|H]; [exact H|exfalso].
  rewrite nth_error_app2, nth_error_app2 in Hy by lia. rewrite Hlst in E; [discriminate|]. eapply nth_error_In. exact Hy.
Qed.

Lemma alignment_up qs : alignment R p l qs -> alignment R p l' (map (Nat.add n) qs).
Proof.
  intros [Hs F]. split.
  - clear F. induction Hs as [|q qs Hs IH Hq]; cbn [map]; constructor; auto.
    apply Forall_map. eapply Forall_impl; [|exact Hq]. cbn. intros; lia.
  - clear Hs. revert F. generalize p as t. clear Hp Hfst Hlst. intros t F.
    induction F as [|x j t qs (y & Hy & Ry) F IH]; cbn [map]; constructor; auto.
    exists y. split; [|exact Ry]. rewrite nth_mid; [exact Hy|]. apply nth_error_Some. congruence.
Qed.

Lemma alignment_down qs' : alignment R p l' qs' -> exists qs, qs' = map (Nat.add n) qs /\ alignment R p l qs.
Proof.
  intros [Hs F]. exists (map (fun j => j - n) qs').
  assert (Hne : qs' <> []) by (intros ->; inversion F; congruence).
  assert (Hm : Forall (fun j => n <= j < n + length l) qs').
  { pose proof (Forall2_last _ _ _ 0%N 0 F Hp) as (y & Hy & Ry). apply char_eq_agrees in Ry. pose proof (hit_hi y _ Hy Ry) as Hhi.
    assert (Hlo : n <= hd 0 qs').
    { inversion F as [|x j t qs (y' & Hy' & Ry') F' E1 E2]; [congruence|]. apply char_eq_agrees in Ry'.
      apply (hit_lo y'); [exact Hy'|]. rewrite <- E1. exact Ry'. }
    pose proof (sorted_between qs' Hs) as B. eapply Forall_impl; [|exact B]. cbn. intros; lia. }
  split; [|split].
  - rewrite map_map. rewrite <- (map_id qs') at 1. apply map_ext_Forall.
    eapply Forall_impl; [|exact Hm]. cbn. intros; lia.
  - clear F Hne. induction Hs as [|q qs Hs IH Hq]; cbn [map]; [constructor|]. inversion Hm; subst.
    constructor; [apply IH; assumption|]. apply Forall_map. rewrite Forall_forall in *. intros x Hx.
    specialize (Hq x Hx). lia.
  - clear Hs Hne. revert F. generalize p as t. clear Hp Hfst Hlst. intros t F.
    induction F as [|x j t qs (y & Hy & Ry) F IH]; cbn [map]; [constructor|]. inversion Hm as [|? ? H1 H2]; subst.
    constructor; [|apply IH; exact H2]. exists y. split; [|exact Ry]. rewrite <- nth_back; assumption.
Qed.

Lemma align_ne c qs : alignment R p c qs -> qs <> [].
Proof. intros [_ F] ->. inversion F. congruence. Qed.

Lemma last_moved qs : qs <> [] -> last (map (Nat.add n) qs) 0 = n + last qs 0.
Proof.
  induction qs as [|q qs IH]; [congruence|]. intros _. destruct qs as [|q' qs]; [reflexivity|].
  change (last (map (Nat.add n) (q' :: qs)) 0 = n + last (q' :: qs) 0). apply IH. discriminate.
Qed.

Lemma hd_moved qs : qs <> [] -> hd 0 (map (Nat.add n) qs) = n + hd 0 qs.
Proof. destruct qs; [congruence|reflexivity]. Qed.

Lemma Forall2_le_moved ps qs : Forall2 le ps qs -> Forall2 le (map (Nat.add n) ps) (map (Nat.add n) qs).
Proof. induction 1; cbn [map]; constructor; auto. lia. Qed.

Lemma window_moved ps : window R p l ps -> window R p l' (map (Nat.add n) ps).
Proof.
  intros (A & H1 & H2). split; [apply alignment_up; exact A|]. pose proof (align_ne _ _ A) as Hps. split.
  - intros qs' Hq. apply alignment_down in Hq as (qs & -> & Hq). rewrite !last_moved by (auto; eapply align_ne; exact Hq).
    specialize (H1 qs Hq). lia.
  - intros qs' Hq. apply alignment_down in Hq as (qs & -> & Hq). pose proof (align_ne _ _ Hq) as Hqs.
    rewrite !last_moved, !hd_moved by assumption. intros El. destruct (H2 qs Hq ltac:(lia)) as [H3 H4].
    split; [lia|]. intros Eh. apply Forall2_le_moved, H4. lia.
Qed.

Lemma greedy_moved fs : greedy eq p l 0 = Some fs -> greedy eq p l' 0 = Some (map (Nat.add n) fs).
Proof.
  intros G. apply greedy_leftmost in G as [A H].
  destruct (proj1 (greedy_fuzzy sens norm p l') (ex_intro _ _ (alignment_up _ A))) as (fs' & G').
  rewrite G'. f_equal. apply greedy_leftmost in G' as [A' H'].
  destruct (alignment_down _ A') as (fs0 & -> & A0). apply Forall2_le_antisym.
  - apply H'. apply alignment_up. exact A.
  - apply Forall2_le_moved. apply H. exact A0.
Qed.

Lemma fuzzy_moved : fuzzy_in R p l <-> fuzzy_in R p l'.
Proof.
  split; intros [qs H].
  - eexists. apply alignment_up. exact H.
  - apply alignment_down in H as (qs0 & _ & H). eexists. exact H.
Qed.

Lemma last_col_moved stop : last_col sens norm p l = Some stop -> last_col sens norm p l' = Some (n + stop).
Proof.
  unfold last_col. intros E. rewrite app_assoc, find_last_idx_false by exact Hlst. apply find_last_idx_moved. exact E.
Qed.

(** ** Occurrences *)

Lemma occurs_up i : occurs_at R p l i -> occurs_at R p l' (n + i).
Proof.
  intros (u & mid & v & -> & <- & F). exists (pre ++ u), mid, (v ++ post). rewrite app_length, <- !app_assoc. auto.
Qed.

Lemma last_is_nth : nth_error p (length p - 1) = Some (last p 0%N).
Proof.
  clear Hfst Hlst. pose proof Hp as H. induction p as [|x t IH]; [congruence|]. destruct t as [|y t]; [reflexivity|].
  change (last (x :: y :: t) 0%N) with (last (y :: t) 0%N). cbn [length]. replace (S (S (length t)) - 1) with (S (length t)) by lia.
  cbn [nth_error]. rewrite <- IH by discriminate. f_equal. cbn [length]. lia.
Qed.

Lemma occurs_down i' : occurs_at R p l' i' -> exists i, i' = n + i /\ occurs_at R p l i.
Proof.
  intros Ho. apply occurs_nth in Ho as [Hb Ho].
  assert (Hl : 0 < length p) by (destruct p; [congruence|simpl; lia]).
  assert (Hlo : n <= i').
  { destruct (Ho 0 (hd 0%N p)) as (y & Hy & Ry); [destruct p; [congruence|reflexivity]|].
    rewrite Nat.add_0_r in Hy. apply char_eq_agrees in Ry. eapply hit_lo; eassumption. }
  assert (Hhi : i' + length p <= n + length l).
  { destruct (Ho _ _ last_is_nth) as (y & Hy & Ry). apply char_eq_agrees in Ry. pose proof (hit_hi _ _ Hy Ry). lia. }
  exists (i' - n). split; [lia|]. apply nth_occurs; [lia|].
  intros k x Ex. assert (k < length p) by (apply nth_error_Some; congruence).
  destruct (Ho k x Ex) as (y & Hy & Ry). exists y. split; [|exact Ry].
  rewrite <- Hy. rewrite nth_back by lia. f_equal. lia.
Qed.

Lemma strip_mid i mid q : pre = spaces n -> l' = spaces (n + i) ++ mid ++ q -> i + length mid <= length l ->
  l = spaces i ++ mid ++ firstn (length l - i - length mid) q.
Proof.
  intros Hs E Hb. rewrite spaces_add, <- app_assoc, <- Hs in E. apply app_inv_head in E.
  apply (f_equal (firstn (length l))) in E. rewrite firstn_app_len in E.
  rewrite firstn_app, firstn_all2, spaces_length, firstn_app, (firstn_all2 mid) in E
    by (rewrite ?spaces_length; lia). exact E.
Qed.

Lemma prefix_moved : pre = spaces n ->
  prefix_find eq p l' = option_map (Nat.add n) (prefix_find eq p l).
Proof.
  intros Hs.
  assert (D : forall i', prefix_find eq p l' = Some i' ->
    exists i mid q, i' = n + i /\ l = spaces i ++ mid ++ q /\ Forall2 R p mid).
  { intros i' E. pose proof E as E0. apply prefix_find_le in E as [Hh El].
    apply hits_R in Hh as (mid & q & Hq & F).
    assert (Ho : occurs_at R p l' i').
    { exists (spaces i'), mid, q. rewrite spaces_length, <- Hq. auto. }
    apply occurs_down in Ho as (i & -> & Ho). apply occurs_nth in Ho as [Hb _].
    pose proof (Forall2_len _ _ _ F) as Hm. exists i, mid, (firstn (length l - i - length mid) q).
    split; [reflexivity|]. split; [|exact F]. apply strip_mid; [exact Hs| |lia]. rewrite <- Hq. exact El. }
  destruct (prefix_find eq p l) as [i|] eqn:E.
  - pose proof E as E0. apply prefix_find_le in E0 as [Hh El]. apply hits_R in Hh as (mid & q & Hq & F).
    assert (El' : l' = spaces (n + i) ++ mid ++ q ++ post).
    { rewrite spaces_add, <- Hs, <- app_assoc. f_equal. rewrite El at 1. rewrite Hq, <- !app_assoc. reflexivity. }
    destruct (proj1 (prefix_find_in sens norm p l')) as (i' & E'); [exists (n + i), mid, (q ++ post); auto|].
    pose proof (prefix_find_max _ _ _ _ _ _ _ _ E' El' F) as H1.
    destruct (D i' E') as (i0 & mid0 & q0 & -> & El0 & F0).
    pose proof (prefix_find_max _ _ _ _ _ _ _ _ E El0 F0) as H2.
    rewrite E'. cbn [option_map]. f_equal. lia.
  - destruct (prefix_find eq p l') as [i'|] eqn:E'; [|reflexivity].
    destruct (D i' eq_refl) as (i0 & mid0 & q0 & -> & El0 & F0).
    destruct (proj1 (prefix_find_in sens norm p l)) as (i & E1); [exists i0, mid0, q0; auto|congruence].
Qed.

Lemma equal_moved : pre = spaces n -> post = spaces (length post) ->
  equal_find eq p l' = option_map (Nat.add n) (equal_find eq p l).
Proof.
  intros Hs Hs'. destruct (list_eq_dec N.eq_dec p (spaces (length p))) as [Hb|Hb].
  { assert (Hl : exists k, length p = S k) by (destruct p; [congruence|eexists; reflexivity]). destruct Hl as (k & Hl). rewrite Hl in Hb.
    assert (E32 : eq 32%N 32%N = true) by (apply char_eq_agrees, agrees_space_l; reflexivity).
    assert (Hh : hd 0%N p = 32%N) by (rewrite Hb; reflexivity).
    assert (Hla : last p 0%N = 32%N) by (rewrite Hb; apply last_spaces).
    assert (E1 : pre = []).
    { destruct n as [|i] eqn:En; [apply length_zero_iff_nil; exact En|]. rewrite Hh in Hfst.
      rewrite Hfst in E32; [discriminate|]. rewrite Hs. left. reflexivity. }
    assert (E2 : post = []).
    { destruct (length post) as [|i] eqn:En; [apply length_zero_iff_nil; exact En|]. rewrite Hla in Hlst.
      rewrite Hlst in E32; [discriminate|]. rewrite Hs'. left. reflexivity. }
    rewrite E1, E2, app_nil_r. cbn [app length]. destruct (equal_find eq p l); reflexivity. }
  destruct (equal_find eq p l) as [i|] eqn:E.
  - destruct (proj2 (equal_find_in sens norm p l Hb) (ex_intro _ _ E)) as (i0 & mid & k & El & F).
    apply equal_find_hits in E as (_ & _ & Ei & _); [|exact Hp].
    assert (El' : l' = spaces (n + i0) ++ mid ++ spaces (k + length post)).
    { rewrite !spaces_add, <- Hs, <- Hs', <- app_assoc. f_equal. rewrite El, <- !app_assoc. reflexivity. }
    destruct (proj1 (equal_find_in sens norm p l' Hb)) as (i' & E'); [exists (n + i0), mid, (k + length post); auto|].
    rewrite E'. apply equal_find_hits in E' as (_ & _ & Ei' & _); [|exact Hp].
    rewrite El, lead_app, (lead_match sens norm p mid _ F Hb) in Ei.
    rewrite El', lead_app, (lead_match sens norm p mid _ F Hb) in Ei'. cbn [option_map]. f_equal. lia.
  - destruct (equal_find eq p l') as [i'|] eqn:E'; [|reflexivity].
    destruct (proj2 (equal_find_in sens norm p l' Hb) (ex_intro _ _ E')) as (i0 & mid & k & El & F).
    assert (Ho : occurs_at R p l' i0) by (exists (spaces i0), mid, (spaces k); rewrite spaces_length; auto).
    apply occurs_down in Ho as (i & -> & Ho). apply occurs_nth in Ho as [Hbd _].
    pose proof (Forall2_len _ _ _ F) as Hm.
    pose proof (strip_mid i mid (spaces k) Hs El ltac:(lia)) as El0.
    rewrite firstn_spaces in El0. destruct (proj1 (equal_find_in sens norm p l Hb)) as (i1 & E1); [|congruence].
    eexists _, _, _. split; [exact El0|exact F].
Qed.

(** ** Points *)

Hypothesis Hplace : pre = [] \/ place_of sch (last pre 0%N) = before_start sch.

Lemma nth_mid' j : j < length l -> nth (n + j) l' 0%N = nth j l 0%N.
Proof using Type.
  clear Hp Hfst Hlst. intros H. rewrite app_nth2 by lia. rewrite app_nth1 by lia. f_equal. lia.
Qed.

Lemma last_pre : pre <> [] -> nth (n - 1) l' 0%N = last pre 0%N.
Proof using Type.
  clear Hp Hfst Hlst. intros H. destruct (exists_last H) as (u & x & E). rewrite E, last_last, app_length. cbn [length].
  rewrite app_nth1 by (rewrite app_length; cbn; lia).
  replace (length u + 1 - 1) with (length u) by lia. apply nth_middle.
Qed.

Lemma bonus_moved j : j < length l -> bonus_of sch l' (n + j) = bonus_of sch l j.
Proof using Hplace.
  clear Hp Hfst Hlst. intros H. unfold bonus_of. rewrite nth_mid' by exact H. f_equal. destruct j as [|j].
  - rewrite Nat.add_0_r. destruct Hplace as [E|E]; [rewrite E; reflexivity|].
    destruct n as [|k] eqn:En; [reflexivity|]. rewrite <- E, <- last_pre by (intros E'; rewrite E' in En; discriminate).
    rewrite En. replace (S k - 1) with k by lia. reflexivity.
  - rewrite <- plus_n_Sm. rewrite nth_mid' by lia. reflexivity.
Qed.

Lemma rest_score_moved : forall ps prev best, Forall (fun j => j < length l) ps ->
  rest_score sch l' (n + prev) best (map (Nat.add n) ps) = rest_score sch l prev best ps.
Proof using Hplace.
  clear Hp Hfst Hlst. induction ps as [|j ps IH]; intros prev best H; [reflexivity|]. inversion H as [|? ? Hj Hps]; subst.
  cbn [map rest_score]. cbv zeta. rewrite bonus_moved by exact Hj. rewrite plus_n_Sm, shift_eqb, !IH by exact Hps.
  replace (n + j - (n + S prev)) with (j - S prev) by lia. reflexivity.
Qed.

Lemma alignment_score_moved ps : Forall (fun j => j < length l) ps ->
  alignment_score sch l' (map (Nat.add n) ps) = alignment_score sch l ps.
Proof using Hplace.
  clear Hp Hfst Hlst. intros H. destruct ps as [|j ps]; [reflexivity|]. inversion H as [|? ? Hj Hps]; subst.
  cbn [map alignment_score]. rewrite rest_score_moved, bonus_moved by assumption. reflexivity.
Qed.

Lemma bytes_moved j : j <= length l -> byte_len (firstn (n + j) l') = byte_len pre + byte_len (firstn j l).
Proof using Type.
  clear Hp Hfst Hlst. intros H. rewrite firstn_app_2, firstn_app. replace (j - length l) with 0 by lia.
  rewrite firstn_O, app_nil_r. apply byte_len_app.
Qed.

Lemma char_range_moved j : j < length l -> char_range l' (n + j) = moved (byte_len pre) (char_range l j).
Proof using Type. clear Hp Hfst Hlst. intros H. unfold char_range, moved. cbn [fst snd]. rewrite plus_n_Sm, !bytes_moved by lia. reflexivity. Qed.

Lemma char_ranges_moved ps : Forall (fun j => j < length l) ps ->
  map (char_range l') (map (Nat.add n) ps) = map (moved (byte_len pre)) (map (char_range l) ps).
Proof using Type.
  clear Hp Hfst Hlst. induction 1 as [|j ps Hj _ IH]; [reflexivity|]. cbn [map]. rewrite char_range_moved, IH by exact Hj. reflexivity.
Qed.

(** ** FzfV2 *)

Lemma v2_result_moved sc ps : v2_result sens norm sch p l = Some (sc, ps) ->
  v2_result sens norm sch p l' = Some (sc, map (Nat.add n) ps).
Proof.
  intros E. pose proof E as E'. unfold v2_result in E'.
  destruct (greedy eq p l 0) as [fs|] eqn:G; [|discriminate].
  destruct (last_col sens norm p l) as [stop|] eqn:L; [|discriminate]. clear E'.
  pose proof (greedy_moved fs G) as G'. pose proof (last_col_moved stop L) as L'.
  destruct (v2_result_cell _ _ _ _ _ _ _ Hp G L _ _ E) as (i & j & B & -> & ->).
  assert (Hstop : stop < length l).
  { destruct B as ((Hi & Hj & Hc) & _). unfold last_col in L. apply find_last_idx_some in L as (y & Hy & _). apply nth_error_Some. congruence. }
  destruct (v2_result sens norm sch p l') as [[sc' ps']|] eqn:Er'.
  2: { unfold v2_result in Er'. rewrite G', L' in Er'. destruct (v2_best _ _ _ _ _ _ _); discriminate. }
  destruct (v2_result_cell _ _ _ _ _ _ _ Hp G' L' _ _ Er') as (i' & j' & B' & -> & ->).
  assert (Hlen : length fs = length p) by (eapply greedy_length; exact G).
  assert (A1 : forall i j, i < length p -> j <= stop -> hit_of sens norm p l' i (n + j) = hit_of sens norm p l i j).
  { intros i0 j0 Hi0 Hj0. unfold hit_of. rewrite nth_mid by lia. reflexivity. }
  assert (A2 : forall i, i < length p -> firsts (map (Nat.add n) fs) i = n + firsts fs i).
  { intros i0 Hi0. unfold firsts. rewrite (nth_indep _ 0 (n + 0)) by (rewrite map_length; lia). apply map_nth. }
  assert (A3 : forall j, j <= stop -> bonus_of sch l' (n + j) = bonus_of sch l j) by (intros; apply bonus_moved; lia).
  assert (A4 : forall i, S i < length p -> firsts fs i < firsts fs (S i)) by (intros; eapply v2_inc; eauto).
  assert (A5 : forall i, i < length p -> hit_of sens norm p l i (firsts fs i) = true) by (intros; eapply v2_first; eauto).
  pose proof (best_shift _ _ _ _ _ _ _ _ _ A1 A2 A3 A4 A5 i j B) as B2.
  destruct (best_cell_unique _ _ _ _ _ _ _ _ _ B' B2) as [-> ->].
  destruct B as ((Hi & Hj & Hc) & _).
  rewrite (table_shift _ _ _ _ _ _ _ _ _ A1 A2 A3 A4 A5) by (auto; lia).
  rewrite (back_shift _ _ _ _ _ _ _ _ _ A1 A2 A3 A4 A5) by (auto; lia). reflexivity.
Qed.

(** ** Exact terms *)

Lemma agreed_len_post : forall t w, length t <= length w -> agreed_len eq t (w ++ post) = agreed_len eq t w.
Proof.
  induction t as [|x t IH]; intros w H; [reflexivity|]. destruct w as [|y w]; [cbn in H; lia|].
  cbn [app agreed_len]. cbn [length] in H. rewrite IH by lia. reflexivity.
Qed.

Lemma agreed_len_le : forall t w, agreed_len eq t w <= length w.
Proof.
  induction t as [|x t IH]; intros [|y w]; cbn; try lia. destruct (eq x y); [|lia]. specialize (IH w). lia.
Qed.

Lemma skipn_mid i : i <= length l -> skipn (n + i) l' = skipn i l ++ post.
Proof.
  intros H. rewrite skipn_app, skipn_all2 by lia. cbn [app]. replace (n + i - n) with i by lia.
  rewrite skipn_app. replace (i - length l) with 0 by lia. reflexivity.
Qed.

Lemma place_seen_moved : forall j, j + length p <= length l -> place_seen eq sch p l' (n + j) = place_seen eq sch p l j.
Proof.
  assert (Hpl : 0 < length p) by (destruct p; [congruence|simpl; lia]). induction j as [|j IH]; intros Hj.
  - rewrite Nat.add_0_r. destruct Hplace as [E|E]; [rewrite E; reflexivity|].
    destruct n as [|k] eqn:En; [reflexivity|]. cbn [place_seen].
    assert (Hne : pre <> []) by (intros E'; rewrite E' in En; discriminate).
    assert (Ek : agreed_len eq p (skipn k l') = 0).
    { destruct (exists_last Hne) as (u & x & E'). rewrite E', app_length in En. cbn [length] in En.
      rewrite E', <- app_assoc. replace k with (length u) by lia. rewrite skipn_app_len. cbn [app].
      destruct p as [|q t] eqn:Ep; [congruence|]. cbn [agreed_len]. cbn [hd] in Hfst. rewrite Hfst; [reflexivity|].
      rewrite E'. apply in_or_app. right. left. reflexivity. }
    rewrite Ek. cbn [Nat.eqb]. pose proof (last_pre Hne) as Hl. rewrite En in Hl. replace (S k - 1) with k in Hl by lia.
    rewrite Hl. exact E.
  - rewrite <- plus_n_Sm. cbn [place_seen]. rewrite skipn_mid by lia. rewrite agreed_len_post by (rewrite skipn_length; lia).
    set (k := agreed_len eq p (skipn j l)).
    assert (Hk : k <= length l - j) by (unfold k; rewrite <- skipn_length; apply agreed_len_le).
    rewrite nth_mid', IH by lia.
    destruct (Nat.eqb_spec k 0) as [|Hk0]; [reflexivity|].
    replace (n + j + k - 1) with (n + (j + k - 1)) by lia.
    destruct (Nat.ltb_spec k (length p)); [rewrite nth_mid' by lia; reflexivity|].
    destruct (Nat.eqb_spec k 1) as [|Hk1]; [reflexivity|].
    replace (n + j + k - 2) with (n + (j + k - 2)) by lia. rewrite nth_mid' by lia. reflexivity.
Qed.

Lemma bonus_seen_moved j : j + length p <= length l -> bonus_seen eq sch p l' (n + j) = bonus_seen eq sch p l j.
Proof.
  intros H. assert (0 < length p) by (destruct p; [congruence|simpl; lia]).
  unfold bonus_seen. rewrite place_seen_moved, nth_mid' by lia. reflexivity.
Qed.

Lemma exact_moved q : p_text q = p -> exact_find eq sch q l' = option_map (Nat.add n) (exact_find eq sch q l).
Proof.
  intros Eq. assert (Hq : p_text q <> []) by congruence.
  assert (Hpl : 0 < length p) by (destruct p; [congruence|simpl; lia]).
  assert (D : forall j, occ eq p l' j -> exists i, j = n + i /\ occ eq p l i /\ i + length p <= length l).
  { intros j H. apply occ_occurs_at in H; [|exact Hp]. apply occurs_down in H as (i & -> & H). exists i.
    pose proof (occurs_nth _ _ _ _ H) as [Hb _]. apply occurs_at_occ in H. split; [reflexivity|]. split; [exact H|lia]. }
  assert (U : forall i, occ eq p l i -> occ eq p l' (n + i) /\ i + length p <= length l).
  { intros i H. apply occ_bound in H as Hb; [|exact Hp]. apply occ_occurs_at in H; [|exact Hp].
    split; [apply occurs_at_occ, occurs_up; exact H|lia]. }
  destruct (exact_find eq sch q l') as [i'|] eqn:E'; destruct (exact_find eq sch q l) as [i|] eqn:E; cbn [option_map].
  - apply exact_find_seen in E' as (O' & L' & M'); [|exact Hq]. apply exact_find_seen in E as (O & L & M); [|exact Hq].
    rewrite Eq in *. destruct (D i' O') as (i0 & -> & O0 & B0). destruct (U i O) as [O1 B1].
    rewrite bonus_seen_moved in * by assumption.
    f_equal. f_equal. destruct (Nat.lt_trichotomy i0 i) as [H|[H|H]]; [exfalso|exact H|exfalso].
    + destruct (L i0 H O0) as [X1 X2]. destruct M' as [M'|M']; [lia|]. specialize (M' _ O1).
      rewrite bonus_seen_moved in M' by exact B1. lia.
    + destruct (L' (n + i) ltac:(lia) O1) as [X1 X2]. rewrite bonus_seen_moved in X1, X2 by exact B1.
      destruct M as [M|M]; [lia|]. specialize (M _ O0). lia.
  - exfalso. apply exact_find_some in E' as [O' _]; [|exact Hq]. rewrite Eq in O'. destruct (D i' O') as (i & _ & O & _).
    apply (exact_find_none _ _ _ _ Hq E i). rewrite Eq. exact O.
  - exfalso. apply exact_find_some in E as [O _]; [|exact Hq]. rewrite Eq in O. destruct (U i O) as [O' _].
    apply (exact_find_none _ _ _ _ Hq E' (n + i)). rewrite Eq. exact O'.
  - reflexivity.
Qed.

End Strings.

Lemma last_rev (p : str) : last (rev p) 0%N = hd 0%N p.
Proof. destruct p as [|x p]; [reflexivity|]. cbn [rev hd]. apply last_last. Qed.

Lemma hd_rev (p : str) : hd 0%N (rev p) = last p 0%N.
Proof. rewrite <- (rev_involutive p) at 2. symmetry. apply last_rev. Qed.

Lemma suffix_moved sens norm p pre l post : p <> [] ->
  (forall y, In y pre -> char_eq sens norm (hd 0%N p) y = false) ->
  (forall y, In y post -> char_eq sens norm (last p 0%N) y = false) -> post = spaces (length post) ->
  suffix_find (char_eq sens norm) p (pre ++ l ++ post) = option_map (Nat.add (length pre)) (suffix_find (char_eq sens norm) p l).
Proof.
  intros Hp Hfst Hlst Hs. rewrite !suffix_find_rev, !rev_app_distr, <- app_assoc.
  rewrite (prefix_moved sens norm (rev p) (rev post) (rev l) (rev pre)).
  - rewrite rev_length, !app_length. destruct (prefix_find _ (rev p) (rev l)) as [i|] eqn:E; [|reflexivity].
    cbn [option_map]. f_equal. apply prefix_find_le in E as [Hh _]. apply hits_length in Hh.
    rewrite skipn_length, !rev_length in Hh. assert (0 < length p) by (destruct p; [congruence|simpl; lia]). lia.
  - intros E. apply Hp. apply (f_equal (@rev _)) in E. rewrite rev_involutive in E. exact E.
  - intros y Hy. rewrite hd_rev. apply Hlst, in_rev. exact Hy.
  - intros y Hy. rewrite last_rev. apply Hfst, in_rev. exact Hy.
  - rewrite rev_length, Hs at 1. apply rev_spaces.
Qed.

(** ** Outcomes *)
Section Outcomes.
Context {UC : unicode}.
Variables (a : algo) (o : options) (pre post : str).
Hypothesis Hplace : pre = [] \/ place_of (opt_scheme o) (last pre 0%N) = before_start (opt_scheme o).

Definition around (t : term) : Prop :=
  (forall y, In y pre -> ~ agreement o (t_text t) (hd 0%N (t_text t)) y)
  /\ (forall y, In y post -> ~ agreement o (t_text t) (last (t_text t) 0%N) y)
  /\ (t_kind t = KPrefix \/ t_kind t = KEqual -> pre = spaces (length pre))
  /\ (t_kind t = KSuffix \/ t_kind t = KEqual -> post = spaces (length post)).

Notation move := (map (moved (byte_len pre))).
Notation both r := (option_map (fun x : Z * list (nat * nat) => (fst x, move (snd x))) r).

Lemma around_eq t : around t ->
  (forall y, In y pre -> char_eq (sensitive_for (opt_case o) (t_text t)) (opt_norm o) (hd 0%N (t_text t)) y = false)
  /\ (forall y, In y post -> char_eq (sensitive_for (opt_case o) (t_text t)) (opt_norm o) (last (t_text t) 0%N) y = false).
Proof.
  intros (H1 & H2 & _). split; intros y Hy; destruct (char_eq _ _ _ y) eqn:E; try reflexivity; exfalso.
  - apply (H1 y Hy). apply char_eq_agrees. exact E.
  - apply (H2 y Hy). apply char_eq_agrees. exact E.
Qed.

Lemma fuzzy_outcome_moved t l : t_text t <> [] -> around t ->
  fuzzy_outcome a o (t_text t) (pre ++ l ++ post) = both (fuzzy_outcome a o (t_text t) l).
Proof.
  intros Ht Ha. pose proof (around_eq t Ha) as [Hfst Hlst]. set (text := t_text t) in *.
  set (sens := sensitive_for (opt_case o) text) in *.
  destruct (fuzzy_outcome a o text l) as [[sc rs]|] eqn:E; cbn [option_map fst snd].
  - destruct (fuzzy_outcome_iff o a text (pre ++ l ++ post) Ht) as [A _].
    destruct A as ([sc' rs'] & E').
    { apply (fuzzy_moved _ _ text pre l post Ht Hfst Hlst). apply (fuzzy_outcome_iff o a text l Ht). eauto. }
    destruct a.
    + rewrite E'. apply v1_case in E as (ps & _ & -> & -> & W); [|exact Ht].
      apply v1_case in E' as (ps' & _ & -> & -> & W'); [|exact Ht].
      apply (window_moved _ _ text pre l post Ht Hfst Hlst) in W as W2.
      rewrite (window_unique _ _ _ _ _ W' W2).
      assert (B : Forall (fun j => j < length l) ps).
      { destruct W as (A & _). eapply aligned_bound. apply aligned_alignment. exact A. }
      rewrite char_ranges_moved by exact B. f_equal. f_equal. apply alignment_score_moved; assumption.
    + apply v2_case in E as (ps & fs & stop & Er & -> & G & L); [|exact Ht].
      pose proof (v2_result_moved _ _ _ text pre l post Ht Hfst Hlst Hplace _ _ Er) as Er'.
      unfold fuzzy_outcome. fold sens. rewrite Er'. f_equal. f_equal. apply char_ranges_moved.
      apply Forall_forall. intros j Hj.
      destruct (v2_result_cell _ _ _ _ _ _ _ Ht G L _ _ Er) as (i & k & B & _ & ->).
      destruct B as ((Hi & Hk & Hc) & _). apply hit_of_some in Hc as (x & y & _ & Hy & _).
      assert (k < length l) by (apply nth_error_Some; congruence).
      assert (forall k i pr, In j (way_back (hit_of sens (opt_norm o) text l) (bonus_of (opt_scheme o) l) (firsts fs) stop (length text) i k pr) -> j <= k).
      { clear. induction k as [|k IH]; intros i pr H; rewrite back_eq in H.
        - destruct (taken _ _ _ _ _ _ _); [destruct H as [<-|H]; [lia|destruct i; destruct H]|destruct H].
        - destruct (taken _ _ _ _ _ _ _).
          + destruct H as [<-|H]; [lia|]. destruct i as [|i]; [destruct H|]. apply IH in H. lia.
          + apply IH in H. lia. }
      apply H0 in Hj. lia.
  - destruct (fuzzy_outcome a o text (pre ++ l ++ post)) as [r|] eqn:E'; [|reflexivity].
    destruct (proj1 (fuzzy_outcome_iff o a text l Ht)) as (r' & X); [|congruence].
    apply (fuzzy_moved _ _ text pre l post Ht Hfst Hlst). apply (fuzzy_outcome_iff o a text _ Ht). eauto.
Qed.

Lemma place_moved t l : t_text t <> [] -> around t ->
  place_found o t (pre ++ l ++ post) = option_map (Nat.add (length pre)) (place_found o t l).
Proof.
  intros Ht Ha. pose proof (around_eq t Ha) as [Hfst Hlst]. destruct Ha as (_ & _ & H1 & H2). unfold place_found.
  destruct (t_kind t).
  - reflexivity.
  - apply (exact_moved _ _ _ (t_text t)); auto.
  - apply prefix_moved; auto.
  - apply suffix_moved; auto.
  - apply equal_moved; auto.
Qed.

Lemma map_add_seq k : forall n i, map (Nat.add k) (seq i n) = seq (k + i) n.
Proof. induction n as [|n IH]; intros i; [reflexivity|]. cbn [seq map]. rewrite IH, plus_n_Sm. reflexivity. Qed.

Lemma place_bound t l i : t_text t <> [] -> place_found o t l = Some i -> i + length (t_text t) <= length l.
Proof.
  intros Ht E. apply (place_found_hits o t l i Ht) in E. apply E.
Qed.

Lemma base_moved t l : t_text t <> [] -> around t ->
  base_outcome a o t (pre ++ l ++ post) = both (base_outcome a o t l).
Proof.
  intros Ht Ha. unfold base_outcome. destruct (match t_kind t with KFuzzy => true | _ => false end) eqn:K.
  { destruct (t_kind t); try discriminate. apply fuzzy_outcome_moved; assumption. }
  assert (G : match place_found o t (pre ++ l ++ post) with
              | Some i => Some (alignment_score (opt_scheme o) (pre ++ l ++ post) (seq i (length (t_text t))),
                                [span (pre ++ l ++ post) i (i + length (t_text t))])
              | None => None end
            = both match place_found o t l with
              | Some i => Some (alignment_score (opt_scheme o) l (seq i (length (t_text t))), [span l i (i + length (t_text t))])
              | None => None end).
  { rewrite place_moved by assumption. destruct (place_found o t l) as [i|] eqn:E; [|reflexivity].
    pose proof (place_bound t l i Ht E) as B. cbn [option_map fst snd map].
    rewrite <- map_add_seq, alignment_score_moved; [|exact Hplace|apply Forall_forall; intros j Hj; apply in_seq in Hj; lia].
    unfold span, moved. cbn [fst snd]. rewrite <- Nat.add_assoc, !bytes_moved by lia. reflexivity. }
  destruct (t_kind t); [discriminate|exact G..].
Qed.

Lemma term_moved t l : t_text t <> [] -> around t ->
  term_outcome a o t (pre ++ l ++ post) = both (term_outcome a o t l).
Proof.
  intros Ht Ha. unfold term_outcome. rewrite base_moved by assumption.
  destruct (t_neg t); [|reflexivity]. destruct (base_outcome a o t l); reflexivity.
Qed.

Lemma either_moved g l : Forall (fun t => t_text t <> []) g -> Forall around g ->
  either_outcome a o g (pre ++ l ++ post) = both (either_outcome a o g l).
Proof.
  induction 1 as [|t g Ht Hg IH]; intros Ha; [reflexivity|]. inversion Ha; subst. cbn [either_outcome].
  rewrite term_moved by assumption. destruct (term_outcome a o t l); [reflexivity|]. apply IH. assumption.
Qed.

Lemma all_moved q l : texts_ok q -> Forall (Forall around) q ->
  all_outcome a o q (pre ++ l ++ post) = (fst (all_outcome a o q l), move (snd (all_outcome a o q l))).
Proof.
  induction 1 as [|g q Hg Hq IH]; intros Ha; [reflexivity|]. inversion Ha; subst. cbn [all_outcome].
  rewrite either_moved, IH by assumption. destruct (either_outcome a o g l) as [[sc rs]|]; [|reflexivity].
  cbn [option_map fst snd]. destruct (all_outcome a o q l) as [tot rs']. cbn [fst snd]. rewrite map_app. reflexivity.
Qed.

Lemma outcome_moved q l : texts_ok q -> Forall (Forall around) q ->
  outcome a o q (pre ++ l ++ post) = (fst (outcome a o q l), move (snd (outcome a o q l))).
Proof.
  intros Ht Ha. destruct (outcome_cases q) as [(neg & text & ->)|[E _]].
  - cbn [outcome]. inversion Ht as [|? ? H1 _]; subst. inversion H1 as [|? ? H2 _]; subst.
    inversion Ha as [|? ? H3 _]; subst. inversion H3 as [|? ? H4 _]; subst.
    pose proof (fuzzy_outcome_moved _ l H2 H4) as E. cbn [t_text] in E. rewrite E. destruct (fuzzy_outcome a o text l) as [[sc rs]|]; reflexivity.
  - rewrite !E. apply all_moved; assumption.
Qed.

End Outcomes.

(** ** C68 *)
Section WithUnicode.
Context {UC : unicode}.

Lemma c68_around : forall a o m m' ps ps' s pre c post buf,
  metric_reached a o m -> metric_reached a o m' ->
  pre = [] \/ place_of (opt_scheme o) (last pre 0%N) = before_start (opt_scheme o) ->
  Forall (Forall (fun t =>
      (forall y, In y pre -> ~ agreement o (t_text t) (hd 0%N (t_text t)) y)
      /\ (forall y, In y post -> ~ agreement o (t_text t) (last (t_text t) 0%N) y)
      /\ (t_kind t = KPrefix \/ t_kind t = KEqual -> pre = spaces (length pre))
      /\ (t_kind t = KSuffix \/ t_kind t = KEqual -> post = spaces (length post)))) (parse_spec s) ->
  exists d rs, find_ranges ps m s c buf = Ok (d, buf ++ rs)
    /\ find_ranges ps' m' s (pre ++ c ++ post) buf
       = Ok (d, buf ++ map (fun r => (byte_len pre + fst r, byte_len pre + snd r)) rs)
    /\ find ps' m' s (pre ++ c ++ post) = Ok d.
Proof.
  intros a o m m' ps ps' s pre c post buf Hm Hm' Hpl Ha.
  apply metric_reached_options in Hm, Hm'. 
  pose proof (outcome_moved a o pre post Hpl (parse_spec s) c (proj1 (parse_spec_ok s)) Ha) as E.
  rewrite (find_ranges_spec a o m ps s c buf Hm), (find_ranges_spec a o m' ps' s _ buf Hm'), (find_spec a o m' ps' s _ Hm'), E.
  cbn [fst snd]. eexists _, _. split; [reflexivity|]. split; [|reflexivity].
  pose proof (inserts_moved (byte_len pre) (snd (outcome a o (parse_spec s) c)) []) as I. cbn [map] in I.
  rewrite I. reflexivity.
Qed.

(** In particular spaces around the candidate, if no term starts or ends with one. *)
Lemma c68_spaces : forall a o m m' ps ps' s n c k buf,
  metric_reached a o m -> metric_reached a o m' -> n = 0 \/ opt_scheme o <> SchemePath ->
  Forall (Forall (fun t => hd 0%N (t_text t) <> 32%N /\ last (t_text t) 0%N <> 32%N)) (parse_spec s) ->
  exists d rs, find_ranges ps m s c buf = Ok (d, buf ++ rs)
    /\ find_ranges ps' m' s (spaces n ++ c ++ spaces k) buf = Ok (d, buf ++ map (fun r => (n + fst r, n + snd r)) rs)
    /\ find ps' m' s (spaces n ++ c ++ spaces k) = Ok d.
Proof.
  intros a o m m' ps ps' s n c k buf Hm Hm' Hsch Ht.
  assert (Eb : byte_len (spaces n) = n) by (clear; induction n; [reflexivity|cbn; f_equal; exact IHn]).
  assert (X : forall rs : list (nat * nat), map (fun r => (n + fst r, n + snd r)) rs
    = map (fun r => (byte_len (spaces n) + fst r, byte_len (spaces n) + snd r)) rs) by (rewrite Eb; reflexivity).
  setoid_rewrite X. apply (c68_around a o); auto.
  - destruct n as [|n]; [left; reflexivity|]. right.
    assert (El : last (spaces (S n)) 0%N = 32%N).
    { clear. induction n as [|n IH]; [reflexivity|]. exact IH. }
    rewrite El. destruct Hsch as [|Hsch]; [discriminate|]. destruct (opt_scheme o); try reflexivity. congruence.
  - apply Forall_forall. intros g Hg. apply Forall_forall. intros t Hin.
    rewrite Forall_forall in Ht. specialize (Ht g Hg). rewrite Forall_forall in Ht. destruct (Ht t Hin) as [H1 H2].
    rewrite !spaces_length. split; [|split; [|auto]]; intros y Hy A; apply repeat_spec in Hy; subst y;
      apply agrees_space_r in A; [apply H1|apply H2]; exact A.
Qed.

End WithUnicode.
