(** Proofs of C106: the ranges of the terms which are not fuzzy, and of several conditions. *)
From Verif Require Import Prelude Chars Normalize Utils Candidate MatchedRanges Query Parser Scoring
  Slab Fzf FzfV1 FzfV2 Api Cost CostRanges CostFormula History
  Spec PreludeProofs CharsProofs MatchedRangesProofs CandidateProofs ParserProofs ScoreProofs V1Proofs V2Proofs V2Fuzzy
  ApiProofs RangeProofs WordsProofs Claims1 Claims2 Claims3
  CostProofs CostBounds CostExact CostRangesProofs CostRangesBounds RangesFormula Claims14 Claims19 Claims35 Claims39 Claims40 Claims41.
Local Open Scope nat_scope.

(** * One insertion *)

Lemma chain_app l : forall lo r, chain lo (l ++ r) -> chain lo l /\ exists lo', lo <= lo' /\ chain lo' r.
Proof.
  induction l as [|[s e] t IH]; intros lo r H; cbn [app chain] in *; [split; [exact I|]; exists lo; auto|].
  destruct H as (H1 & H2 & H3). destruct (IH _ _ H3) as (H4 & lo' & H5 & H6). split; [auto|]. exists lo'. split; [lia|exact H6].
Qed.

Lemma behind_all (r : list (nat * nat)) a : forall lo, chain lo r -> match r with [] => True | x :: _ => a < fst x end ->
  filter (fun x => a <? fst x) r = r /\ existsb (fun x => (fst x <=? a) && (a <=? snd x)) r = false.
Proof.
  induction r as [|[s e] t IH]; intros lo H Ha; [split; reflexivity|]. destruct H as (H1 & H2 & H3). cbn [fst] in Ha.
  destruct (IH _ H3) as [I1 I2].
  { destruct t as [|[s' e'] t']; [exact I|]. destruct H3 as (H4 & _). cbn [fst]. lia. }
  cbn [filter existsb fst snd]. destruct (Nat.ltb_spec a s); [|lia]. destruct (Nat.leb_spec s a); [lia|]. rewrite I1, I2. split; reflexivity.
Qed.

Lemma joins_next (r : list (nat * nat)) a b : forall lo, chain lo r -> match r with [] => True | x :: _ => a < fst x end ->
  existsb (fun x => (a <? fst x) && (fst x <=? b)) r = match r with [] => false | x :: _ => fst x <=? b end.
Proof.
  induction r as [|[s e] t IH]; intros lo H Ha; [reflexivity|]. destruct H as (H1 & H2 & H3). cbn [fst] in Ha.
  cbn [existsb fst]. destruct (Nat.ltb_spec a s); [|lia]. cbn [andb]. destruct (Nat.leb_spec s b); [reflexivity|]. cbn [orb].
  rewrite (IH _ H3).
  - destruct t as [|[s' e'] t']; [reflexivity|]. destruct H3 as (H4 & _). cbn [fst]. apply Nat.leb_gt. lia.
  - destruct t as [|[s' e'] t']; [exact I|]. destruct H3 as (H4 & _). cbn [fst]. lia.
Qed.

Lemma before_none (l : list (nat * nat)) a b : Forall (fun x => fst x <= a) l ->
  filter (fun x => a <? fst x) l = [] /\ existsb (fun x => (a <? fst x) && (fst x <=? b)) l = false.
Proof.
  induction 1 as [|[s e] t H Ht [I1 I2]]; [split; reflexivity|]. cbn [filter existsb fst] in *. destruct (Nat.ltb_spec a s); [lia|]. rewrite I1, I2.
  split; reflexivity.
Qed.

(** The ranges before [a], the last of which is [(s, e)]. *)
Lemma joins_prev l s e a : forall lo, chain lo (l ++ [(s, e)]) -> s <= a ->
  existsb (fun x => (fst x <=? a) && (a <=? snd x)) (l ++ [(s, e)]) = (a <=? e).
Proof.
  induction l as [|[s0 e0] t IH]; intros lo H Hs.
  - cbn [app existsb fst snd]. destruct (Nat.leb_spec s a); [|lia]. cbn [andb]. apply orb_false_r.
  - cbn [app] in H |- *. destruct H as (H1 & H2 & H3). cbn [existsb fst snd]. rewrite (IH _ H3 Hs).
    assert (e0 < a).
    { destruct (chain_app _ _ _ H3) as (_ & lo' & L & H4). destruct H4 as (H4 & _). lia. }
    destruct (Nat.leb_spec a e0); [lia|]. rewrite andb_false_r. reflexivity.
Qed.

Lemma adding_eq l r a b lo : chain lo (l ++ r) -> Forall (fun x => fst x <= a) l ->
  match r with [] => True | x :: _ => a < fst x end ->
  adding (l ++ r) (a, b)
  = probes (length l + length r)
    + let left := existsb (fun x => (fst x <=? a) && (a <=? snd x)) l in
      let right := match r with [] => false | x :: _ => fst x <=? b end in
      if left then (if right then length r - 1 else 0) else if right then 0 else length r.
Proof.
  intros H Hl Hr. unfold adding. rewrite filter_app, !existsb_app, app_length.
  destruct (chain_app _ _ _ H) as (_ & lo' & _ & H'). destruct (behind_all r a _ H' Hr) as [E1 E2].
  destruct (before_none l a b Hl) as [E3 E4]. rewrite E1, E2, E3, E4, (joins_next r a b _ H' Hr), orb_false_r. reflexivity.
Qed.

Lemma probed pre own a (k : nat + nat -> timed mranges) f : search_start own a 0 = f ->
  snd (tbind (binary_search_by_tm (mk pre own) a) k) = probes (length own) + snd (k f).
Proof.
  intros E. assert (Eb : fst (binary_search_by_tm (mk pre own) a) = Ok f).
  { unfold binary_search_by_tm. rewrite fst_spend, fst_lift. unfold binary_search_by. rewrite own_mk. cbn [bind]. rewrite E. reflexivity. }
  rewrite (count_bind _ _ _ _ _ Eb). f_equal. unfold binary_search_by_tm. rewrite steps_spend, steps_lift. cbn [mr_ranges mr_initial_len mk].
  rewrite app_length. replace (length pre + length own - length pre) with (length own) by lia. lia.
Qed.

Lemma insert_steps pre own a b lo : chain lo own -> snd (mr_insert_tm (mk pre own) (a, b)) = adding own (a, b).
Proof.
  intros H. unfold mr_insert_tm. cbn [fst snd]. pose proof (search_start_spec own a 0 _ H) as Sp.
  destruct (search_start own a 0) as [k|k] eqn:Es; rewrite (probed _ _ _ _ _ Es).
  - destruct Sp as (l & e & r & -> & -> & Hl). cbn [Nat.add].
    assert (Hr : match r with [] => True | x :: _ => a < fst x end /\ a < e).
    { destruct (chain_app _ _ _ H) as (_ & lo' & _ & H1 & H2 & H3). split; [|exact H2]. destruct r as [|[s' e'] r']; [exact I|]. destruct H3 as (H3 & _). cbn [fst]. lia. }
    destruct Hr as [Hr He].
    assert (X : l ++ (a, e) :: r = (l ++ [(a, e)]) ++ r) by (rewrite <- app_assoc; reflexivity).
    rewrite X at 3. rewrite X in H.
    rewrite (adding_eq _ _ _ _ _ H); [|apply Forall_app; split; [eapply Forall_impl; [|exact Hl]; cbn beta; intros; lia|repeat constructor]|exact Hr].
    rewrite (joins_prev l a e a lo); [|apply (proj1 (chain_app _ _ _ H))|lia].
    destruct (Nat.leb_spec a e); [|lia]. cbv zeta. rewrite !app_length. cbn [length].
    replace (length l + S (length r)) with (length l + 1 + length r) by lia. f_equal.
    rewrite X at 1. replace (length l + 1) with (length (l ++ [(a, e)])) at 1 by (rewrite app_length; reflexivity).
    rewrite mr_split_at_mk, count_ok. rewrite idx_app_len, count_ok. cbn [fst snd].
    destruct (Nat.leb_spec b e) as [Hbe|Hbe].
    { rewrite steps_lift. destruct r as [|[s' e'] r']; [reflexivity|]. cbn [fst].
      rewrite <- app_assoc in H. cbn [app] in H.
      destruct (chain_app _ _ _ H) as (_ & lo' & _ & H2 & H3 & H4 & _). destruct (Nat.leb_spec s' b); [lia|reflexivity]. }
    destruct r as [|[s' e'] r']; cbn [nth_error fst snd]; [rewrite steps_lift; reflexivity|].
    destruct (Nat.leb_spec s' b); [|rewrite steps_lift; reflexivity].
    rewrite mr_set_mk, count_ok. unfold mr_remove_tm. rewrite steps_spend, steps_lift. cbn [mr_ranges mr_initial_len mk].
    rewrite !app_length. cbn [length]. lia.
  - destruct Sp as (l & r & -> & -> & Hl & Hr). cbn [Nat.add].
    assert (Hl' : Forall (fun x => fst x <= a) l) by (eapply Forall_impl; [|exact Hl]; cbn beta; intros; lia).
    rewrite (adding_eq _ _ _ _ _ H Hl' Hr), app_length. f_equal. cbv zeta.
    destruct (Nat.eqb_spec (length l) 0) as [E|E].
    + destruct l; [|discriminate]. cbn [app existsb].
      unfold mr_get. cbn [mr_ranges mr_initial_len mk].
      rewrite nth_error_app2 by lia. replace (length pre + 0 - length pre) with 0 by lia.
      destruct r as [|[s e] t]; cbn [nth_error fst snd]; [apply steps_lift|].
      destruct (Nat.leb_spec s b); [apply steps_lift|].
      unfold mr_insert_at_tm. rewrite steps_spend, steps_lift. cbn [mr_ranges mr_initial_len mk length]. rewrite app_length. cbn [length]. lia.
    + rewrite mr_len_mk, count_ok.
      destruct (exists_last (l := l)) as (l0 & [s e] & ->); [intros ->; apply E; reflexivity|].
      apply Forall_app in Hl. destruct Hl as [Hl0 Hs]. inversion Hs as [|? ? Hs' _]; subst. cbn [fst] in Hs'.
      rewrite (joins_prev l0 s e a lo); [|apply (proj1 (chain_app _ _ _ H))|lia].
      rewrite (app_length (l0 ++ [(s, e)]) r). destruct r as [|[s' e'] t].
      * cbn [length]. rewrite Nat.add_0_r, Nat.eqb_refl.
        cbn [mr_ranges mk]. rewrite app_nil_r.
        replace (length (pre ++ l0 ++ [(s, e)]) - 1) with (length (pre ++ l0))
          by (rewrite !app_length; simpl; lia).
        rewrite app_assoc. rewrite nth_error_app2, Nat.sub_diag by lia. cbn [nth_error unwrap]. rewrite count_ok. cbn [fst snd].
        destruct (Nat.leb_spec a e); [|apply steps_lift].
        rewrite set_idx_ok by (rewrite !app_length; simpl; lia). rewrite count_ok. apply steps_lift.
      * cbn [fst] in Hr. cbn [length].
        destruct (Nat.eqb_spec (length (l0 ++ [(s, e)])) (length (l0 ++ [(s, e)]) + S (length t)));
          [lia|].
        rewrite mr_split_at_mk, count_ok.
        rewrite usub_ok by (rewrite app_length; simpl; lia). rewrite count_ok.
        replace (length (l0 ++ [(s, e)]) - 1) with (length l0)
          by (rewrite app_length; simpl; lia).
        rewrite idx_app_len, count_ok. cbn [idx nth_error]. rewrite count_ok. cbn [fst snd].
        destruct (Nat.leb_spec a e); destruct (Nat.leb_spec s' b).
        -- rewrite <- app_assoc. cbn [app]. rewrite mr_set_mk, count_ok. unfold mr_remove_tm. rewrite steps_spend, steps_lift.
           cbn [mr_ranges mr_initial_len mk]. rewrite !app_length. cbn [length]. lia.
        -- destruct (Nat.ltb_spec e b); apply steps_lift.
        -- apply steps_lift.
        -- unfold mr_insert_at_tm. rewrite steps_spend, steps_lift. cbn [mr_ranges mr_initial_len mk]. rewrite !app_length. cbn [length]. lia.
Qed.

(** * The terms which are not fuzzy *)

(** What [f], which adds ranges, and [g], which does not, do: both return [x]; [g] takes [k] steps, and [f] more of them
    if it adds the range of the characters from [i] up to [e]. *)
Definition gains (c : candidate) (hit : option (nat * nat)) (own : list range) : nat :=
  match hit with
  | None => 0
  | Some (i, e) => located c e + adding own (byte_len (firstn i (cand_slice c)), byte_len (firstn e (cand_slice c)))
  end.

Definition grown (c : candidate) (hit : option (nat * nat)) (own : list range) : list range :=
  match hit with
  | None => own
  | Some (i, e) => ins own (byte_len (firstn i (cand_slice c))) (byte_len (firstn e (cand_slice c)))
  end.

Definition sound (c : candidate) (x : option score) (hit : option (nat * nat)) : Prop :=
  match hit with None => True | Some (i, e) => i <= e <= length (cand_slice c) /\ x <> None end.

Definition both (c : candidate) (f g : mranges -> timed (option score * mranges)) : Prop :=
  exists x k hit, sound c x hit
  /\ (forall pre own, chain 0 own -> f (mk pre own) = (Ok (x, mk pre (grown c hit own)), k + gains c hit own))
  /\ (forall r, g r = (Ok (x, r), k)).

Definition both_ok c f g : Prop := forall r y, fst (g r) = Ok y -> both c f g.

Lemma both_lift c x : both_ok c (fun r => lift (Ok (x, r))) (fun r => lift (Ok (x, r))).
Proof. intros r y _. exists x, 0, None. split; [exact I|]. split; intros; reflexivity. Qed.

Lemma both_bind c Y (t : timed Y) (f g : Y -> mranges -> timed (option score * mranges)) :
  (forall y, fst t = Ok y -> both_ok c (f y) (g y)) -> both_ok c (fun r => tbind t (fun y => f y r)) (fun r => tbind t (fun y => g y r)).
Proof.
  intros H r z E. cbn beta in E. rewrite fst_tbind in E. apply ok_bind in E as (y & Ey & E).
  destruct (H y Ey r z E) as (x & k & hit & Hs & Hf & Hg). exists x, (snd t + k), hit. split; [exact Hs|].
  assert (B : forall A (u : timed A) a n, u = (Ok a, n) -> spend (snd t) u = (Ok a, snd t + n)) by (intros A u a n ->; reflexivity).
  split; intros; unfold tbind; rewrite Ey.
  - rewrite Hf by assumption. rewrite (B _ _ _ _ eq_refl). f_equal. lia.
  - rewrite Hg. apply B. reflexivity.
Qed.

Section Words.
Context {UC : unicode}.

Lemma finish_both p c a b eq s : cand_ok c ->
  both_ok c (finish_match_ranges_tm p c a b eq s) (finish_match_tm p c a b eq s).
Proof.
  intros Hc r y E. unfold finish_match_tm in E. rewrite fst_tbind in E. apply ok_bind in E as ([sc r1] & E1 & E). rewrite compute_score_same in E1.
  pose proof E1 as W. apply compute_score_window in W as [W ->]. rewrite cand_char_len_spec in W. set (k := snd (compute_score_tm p c a b eq s r)).
  assert (G : forall r', compute_score_tm p c a b eq s r' = (Ok (sc, r'), k)).
  { intros r'. destruct (score_alike p c a b eq s r r') as [A1 A2]. rewrite compute_score_same, E1 in A2.
    destruct (fst (compute_score_tm p c a b eq s r')) as [[sc' r'']| |] eqn:E'; [|contradiction..]. subst sc'.
    pose proof E' as W'. rewrite compute_score_same in W'. apply compute_score_window in W' as [_ ->].
    rewrite (surjective_pairing (compute_score_tm p c a b eq s r')), E'. f_equal. symmetry. exact A1. }
  exists (Some sc), k, (Some (a, b)). split; [split; [lia|discriminate]|]. split.
  - intros pre own Ho. unfold finish_match_ranges_tm. rewrite G. unfold tbind at 1. cbn [fst snd].
    unfold to_byte_range_tm. rewrite to_byte_range_spec by (auto; lia). unfold tbind at 1. rewrite fst_spend, fst_lift, steps_spend, steps_lift.
    unfold tbind at 1. rewrite mr_insert_same, (mr_insert_spec _ _ _ _ 0) by exact Ho. rewrite (insert_steps _ _ _ _ 0) by exact Ho.
    unfold spend, lift. cbn [fst snd grown gains]. f_equal. unfold located. lia.
  - intros r'. unfold finish_match_tm. rewrite G. unfold tbind, spend, lift. cbn [fst snd]. f_equal. lia.
Qed.

Ltac pairs := repeat match goal with
  | |- both_ok _ (fun r => lift (Ok (?x, r))) _ => apply (both_lift _ x)
  | |- both_ok ?c (fun r1 => tbind ?t (fun y1 => @?f y1 r1)) (fun r2 => tbind _ (fun y2 => @?g y2 r2)) =>
      apply (both_bind c _ t f g); let y := fresh "y" in intros y _; cbn beta
  | |- both_ok ?c (fun r => finish_match_ranges_tm ?p ?c ?a ?b ?eq ?s r) _ => apply (finish_both p c a b eq s); assumption
  | |- both_ok _ (fun r => match ?x with _ => _ end) _ => destruct x
  end.

Lemma exact_both p c eq s : cand_ok c -> both_ok c (exact_match_ranges_tm p c eq s) (exact_match_tm p c eq s).
Proof. intros Hc. unfold exact_match_ranges_tm, exact_match_tm. pairs. Qed.

Lemma prefix_both p c eq s : cand_ok c -> both_ok c (prefix_match_ranges_tm p c eq s) (prefix_match_tm p c eq s).
Proof. intros Hc. unfold prefix_match_ranges_tm, prefix_match_tm. pairs. Qed.

Lemma suffix_both p c eq s : cand_ok c -> both_ok c (suffix_match_ranges_tm p c eq s) (suffix_match_tm p c eq s).
Proof. intros Hc. unfold suffix_match_ranges_tm, suffix_match_tm. pairs. Qed.

Lemma equal_both p c eq s : cand_ok c -> both_ok c (equal_match_ranges_tm p c eq s) (equal_match_tm p c eq s).
Proof. intros Hc. unfold equal_match_ranges_tm, equal_match_tm. pairs. Qed.

End Words.
