(** The searches of the code decide the shapes of the specification. *)
From Coq Require Import Sorted.
From Verif Require Import Prelude Chars Utils Candidate MatchedRanges Query Scoring Fzf Spec
  PreludeProofs CharsProofs NormalizeProofs CandidateProofs MatchedRangesProofs ScoreProofs ExactProofs.
Local Open Scope nat_scope.

Section Shapes.
Variables (sens norm : bool).
Notation eq := (char_eq sens norm).
Notation R := (agrees sens norm).

Lemma eq_R q c : eq q c = true <-> R q c.
Proof. apply char_eq_agrees. Qed.

Lemma forall2_eq_R p mid : Forall2 (fun x y => eq x y = true) p mid <-> Forall2 R p mid.
Proof. split; apply Forall2_imp; intros; apply eq_R; auto. Qed.

Lemma hits_R p w : hits eq p w = true <-> exists mid post, w = mid ++ post /\ Forall2 R p mid.
Proof.
  rewrite hits_forall. split; intros (mid & post & H & F); exists mid, post; split; auto;
    apply forall2_eq_R; auto.
Qed.

Lemma Forall2_len {A B} (P : A -> B -> Prop) l l' : Forall2 P l l' -> length l = length l'.
Proof. induction 1; simpl; auto. Qed.

Lemma occ_occurs p l i : i <= length l -> (occ eq p l i <-> occurs_at R p l i).
Proof.
  intros Hi. unfold occ. rewrite hits_R. split.
  - intros (mid & post & H & F). exists (firstn i l), mid, post.
    rewrite <- H, firstn_skipn. split; [reflexivity|]. split; [|exact F].
    rewrite firstn_length. lia.
  - intros (pre & mid & post & -> & <- & F). exists mid, post. split; [|exact F].
    apply skipn_app_len.
Qed.

Lemma occurs_at_occ p l i : occurs_at R p l i -> occ eq p l i.
Proof.
  intros H. apply occ_occurs; auto. destruct H as (pre & mid & post & -> & <- & _).
  rewrite app_length. lia.
Qed.

Lemma occ_occurs_at p l i : p <> [] -> occ eq p l i -> occurs_at R p l i.
Proof. intros Hp H. apply occ_bound in H as Hb; auto. apply occ_occurs; auto. lia. Qed.

(** ** Fuzzy *)

Lemma aligned_alignment p l ps : aligned eq p l 0 ps <-> alignment R p l ps.
Proof.
  unfold aligned, alignment. split; intros [H F]; split; auto; revert F; apply Forall2_imp.
  - intros x j (_ & y & Hy & E). rewrite Nat.sub_0_r in Hy. exists y. split; auto. apply eq_R; auto.
  - intros x j (y & Hy & E). split; [lia|]. exists y. rewrite Nat.sub_0_r. split; auto.
    apply eq_R; auto.
Qed.

Lemma greedy_fuzzy p l : fuzzy_in R p l <-> exists ps, greedy eq p l 0 = Some ps.
Proof.
  split.
  - intros [qs H]. apply aligned_alignment in H. apply greedy_complete in H as (ps & H & _). eauto.
  - intros [ps H]. exists ps. apply aligned_alignment. apply greedy_sound. exact H.
Qed.

(** ** Leading and trailing spaces *)

Lemma spaces_all n : Forall (fun c => N.eqb c SPACE = true) (spaces n).
Proof. apply Forall_forall. intros c H. apply repeat_spec in H. subst. reflexivity. Qed.

Lemma all_spaces l : Forall (fun c => N.eqb c SPACE = true) l -> l = spaces (length l).
Proof.
  induction 1 as [|c l H _ IH]; [reflexivity|]. apply N.eqb_eq in H. subst.
  change (SPACE :: l = SPACE :: spaces (length l)). f_equal. exact IH.
Qed.

Lemma lead_split l :
  exists rest, l = spaces (lead l) ++ rest /\ match rest with [] => True | a :: _ => a <> SPACE end.
Proof.
  destruct (count_while_spec _ (fun c => N.eqb c SPACE) l) as (rest & H1 & H2 & H3).
  exists rest. split.
  - rewrite <- (firstn_skipn (lead l) l) at 1. f_equal; [|exact H1].
    apply all_spaces in H2. fold (lead l) in H2. rewrite H2. f_equal. rewrite firstn_length.
    pose proof (lead_le l). lia.
  - destruct rest; auto. apply N.eqb_neq. exact H3.
Qed.

Lemma spaces_length n : length (spaces n) = n.
Proof. apply repeat_length. Qed.

Lemma spaces_add a b : spaces (a + b) = spaces a ++ spaces b.
Proof. unfold spaces. apply repeat_app. Qed.

Lemma lead_app n l : lead (spaces n ++ l) = n + lead l.
Proof. unfold lead. rewrite count_while_app_true by apply spaces_all. rewrite spaces_length. reflexivity. Qed.

Lemma lead_spaces n : lead (spaces n) = n.
Proof. apply count_while_repeat. reflexivity. Qed.

Lemma lead_nonspace a l : a <> SPACE -> lead (a :: l) = 0.
Proof. intros H. unfold lead. simpl. apply N.eqb_neq in H. rewrite H. reflexivity. Qed.

Lemma Forall2_spaces n mid : Forall2 R (spaces n) mid -> mid = spaces n.
Proof.
  revert mid. induction n as [|n IH]; intros mid H; inversion H as [|? b ? m' Hb Hm]; subst; [reflexivity|].
  apply (agrees_space_l sens norm) in Hb. subst. apply IH in Hm. subst. reflexivity.
Qed.

Lemma spaces_Forall2 n : Forall2 R (spaces n) (spaces n).
Proof. induction n; simpl; constructor; auto. apply (agrees_space_l sens norm). reflexivity. Qed.

Lemma skipn_spaces n k : k <= n -> skipn k (spaces n) = spaces (n - k).
Proof.
  intros H. replace n with (k + (n - k)) at 1 by lia. rewrite spaces_add.
  rewrite <- (spaces_length k) at 1. apply skipn_app_len.
Qed.

(** A match of [p] at the start of [mid ++ post] has as many leading spaces as [p], unless [p]
    is blank. *)
Lemma lead_match p mid post :
  Forall2 R p mid -> p <> spaces (length p) -> lead (mid ++ post) = lead p.
Proof.
  intros F Hp. destruct (lead_split p) as (rest & Hs & Hr).
  destruct rest as [|a rest].
  - rewrite app_nil_r in Hs. exfalso. apply Hp. rewrite Hs at 1. f_equal.
    rewrite Hs at 2. rewrite spaces_length. reflexivity.
  - rewrite Hs in F. apply Forall2_app_inv_l in F as (m1 & m2 & F1 & F2 & ->).
    apply Forall2_spaces in F1. subst m1. inversion F2 as [|? b ? m2' Hab F3]; subst.
    rewrite <- app_assoc, lead_app. cbn [app]. rewrite lead_nonspace; [lia|].
    intros ->. apply Hr. apply (agrees_space_r sens norm). exact Hab.
Qed.

Lemma prefix_find_in p l : prefix_in R p l <-> exists i, prefix_find eq p l = Some i.
Proof.
  unfold prefix_find. split.
  - intros (n & mid & post & -> & F). rewrite lead_app.
    destruct (list_eq_dec N.eq_dec p (spaces (length p))) as [Hb|Hb].
    + (* blank pattern *)
      assert (Hm : mid = spaces (length p)) by (rewrite Hb in F; apply Forall2_spaces; exact F).
      assert (Hlp : lead p = length p).
      { rewrite Hb at 1. apply lead_spaces. }
      subst mid. rewrite lead_app, Hlp.
      destruct (Nat.ltb_spec (n + (length p + lead post)) (length p)); [lia|].
      replace (hits _ _ _) with true; [eauto|]. symmetry. apply hits_R.
      destruct (lead_split post) as (rest & Hs & _).
      exists (spaces (length p)), rest. split; [|rewrite Hb at 1; apply spaces_Forall2].
      rewrite Hs at 2. rewrite !app_assoc, <- !spaces_add.
      rewrite skipn_app, skipn_spaces by lia. rewrite spaces_length.
      f_equal; [f_equal; lia|].
      replace (n + (length p + lead post) - length p - (n + length p + lead post)) with 0 by lia. reflexivity.
    + rewrite (lead_match p mid post) by auto.
      destruct (Nat.ltb_spec (n + lead p) (lead p)); [lia|].
      replace (hits _ _ _) with true; [eauto|]. symmetry. apply hits_R.
      exists mid, post. split; [|exact F]. rewrite Nat.add_sub.
      rewrite <- (spaces_length n) at 1. apply skipn_app_len.
  - intros [i H]. destruct (Nat.ltb_spec (lead l) (lead p)) as [|Hle]; [discriminate|].
    destruct (hits _ _ _) eqn:Hh; [|discriminate].
    apply hits_R in Hh as (mid & post & Hs & F).
    exists (lead l - lead p), mid, post. split; [|exact F]. rewrite <- Hs.
    destruct (lead_split l) as (rest & Hl & _).
    rewrite <- (firstn_skipn (lead l - lead p) l) at 1. f_equal.
    rewrite Hl at 2. rewrite firstn_app, spaces_length.
    replace (lead l - lead p - lead l) with 0 by lia. rewrite firstn_O, app_nil_r.
    replace (lead l) with ((lead l - lead p) + lead p) at 2 by lia. rewrite spaces_add.
    rewrite <- (spaces_length (lead l - lead p)) at 1. apply firstn_app_len.
Qed.

Lemma prefix_find_le p l i : prefix_find eq p l = Some i ->
  hits eq p (skipn i l) = true /\ l = spaces i ++ skipn i l.
Proof.
  unfold prefix_find. destruct (Nat.ltb_spec (lead l) (lead p)) as [|Hle]; [discriminate|].
  destruct (hits _ _ _) eqn:Hh; [|discriminate]. intros H. injection H as <-. split; [exact Hh|].
  destruct (lead_split l) as (rest & Hl & _).
  rewrite <- (firstn_skipn (lead l - lead p) l) at 1. f_equal.
  rewrite Hl at 2. rewrite firstn_app, spaces_length.
  replace (lead l - lead p - lead l) with 0 by lia. rewrite firstn_O, app_nil_r.
  replace (lead l) with ((lead l - lead p) + lead p) at 2 by lia. rewrite spaces_add.
  rewrite <- (spaces_length (lead l - lead p)) at 1. apply firstn_app_len.
Qed.

(** ** Suffixes are prefixes of the reversed text *)

Lemma rev_spaces n : rev (spaces n) = spaces n.
Proof.
  induction n; [reflexivity|]. replace (S n) with (n + 1) at 1 by lia. rewrite spaces_add, rev_app_distr.
  rewrite IHn. reflexivity.
Qed.

Lemma Forall2_rev (P : char -> char -> Prop) p mid : Forall2 P p mid -> Forall2 P (rev p) (rev mid).
Proof. induction 1; simpl; [constructor|]. apply Forall2_app; auto. Qed.

Lemma suffix_prefix p l : suffix_in R p l <-> prefix_in R (rev p) (rev l).
Proof.
  split.
  - intros (pre & mid & n & -> & F). exists n, (rev mid), (rev pre).
    rewrite !rev_app_distr, rev_spaces, app_assoc. split; [reflexivity|]. apply Forall2_rev; auto.
  - intros (n & mid & post & H & F). exists (rev post), (rev mid), n.
    apply (f_equal (@rev _)) in H. rewrite rev_involutive in H.
    rewrite H, !rev_app_distr, rev_spaces, app_assoc. split; [reflexivity|].
    rewrite <- (rev_involutive p). apply Forall2_rev; auto.
Qed.

Lemma suffix_find_rev p l :
  suffix_find eq p l
  = option_map (fun i => length l - i - length p) (prefix_find eq (rev p) (rev l)).
Proof.
  unfold suffix_find, prefix_find. change (lead (rev l)) with (trail l).
  change (lead (rev p)) with (trail p).
  destruct (trail l <? trail p); [reflexivity|].
  pose proof (trail_le l).
  assert (E : skipn (trail l - trail p) (rev l) = rev (firstn (length l - (trail l - trail p)) l)).
  { rewrite skipn_rev. reflexivity. }
  rewrite E, hits_rev, firstn_length.
  rewrite Nat.min_l by lia.
  destruct (_ && _); reflexivity.
Qed.

Lemma suffix_find_in p l : suffix_in R p l <-> exists i, suffix_find eq p l = Some i.
Proof.
  rewrite suffix_prefix, prefix_find_in, suffix_find_rev. split; intros [i H].
  - rewrite H. simpl. eauto.
  - destruct (prefix_find _ _ _); [eauto|discriminate].
Qed.

Lemma suffix_find_hits p l i : p <> [] -> suffix_find eq p l = Some i ->
  hits eq p (skipn i l) = true
  /\ exists n, l = firstn (i + length p) l ++ spaces n.
Proof.
  intros Hp H. rewrite suffix_find_rev in H.
  destruct (prefix_find eq (rev p) (rev l)) as [k|] eqn:Hk; [|discriminate].
  injection H as <-. apply prefix_find_le in Hk as [Hh Hs].
  rewrite skipn_rev, hits_rev in Hh. apply andb_true_iff in Hh as [Hle Hh].
  apply Nat.leb_le in Hle. rewrite firstn_length in Hle.
  rewrite firstn_length in Hh.
  assert (Hk : k <= length l).
  { apply (f_equal (@length _)) in Hs. rewrite app_length, spaces_length, rev_length in Hs. lia. }
  rewrite Nat.min_l in Hh by lia.
  split.
  - rewrite skipn_firstn_hits in Hh; auto; lia.
  - exists k. replace (length l - k - length p + length p) with (length l - k) by lia.
    apply (f_equal (@rev _)) in Hs. rewrite rev_app_distr, rev_involutive, rev_spaces, skipn_rev, rev_involutive in Hs.
    exact Hs.
Qed.

(** ** Equal *)

Lemma trail_app l n : trail (l ++ spaces n) = n + trail l.
Proof. unfold trail. rewrite rev_app_distr, rev_spaces. apply lead_app. Qed.

Lemma blank_rev p : p <> spaces (length p) -> rev p <> spaces (length (rev p)).
Proof.
  intros H E. apply H. apply (f_equal (@rev _)) in E. rewrite rev_involutive, rev_spaces, rev_length in E.
  exact E.
Qed.

Lemma trail_match p pre mid :
  Forall2 R p mid -> p <> spaces (length p) -> trail (pre ++ mid) = trail p.
Proof.
  intros F Hp. unfold trail. rewrite rev_app_distr. apply lead_match.
  - apply Forall2_rev. exact F.
  - apply blank_rev. exact Hp.
Qed.

Lemma equal_find_hits p l i : p <> [] -> equal_find eq p l = Some i ->
  hits eq p (skipn i l) = true /\ i + length p <= length l
  /\ i = lead l - lead p /\ i + length p = length l - (trail l - trail p)
  /\ lead p <= lead l /\ trail p <= trail l.
Proof.
  intros Hp H. unfold equal_find in H.
  destruct (Nat.ltb_spec (lead l) (lead p)); [discriminate|].
  destruct (Nat.ltb_spec (trail l) (trail p)); [discriminate|].
  destruct (_ && _) eqn:E; [|discriminate]. injection H as <-.
  apply andb_true_iff in E as [E Hh]. apply andb_true_iff in E as [E1 E2].
  apply Nat.eqb_eq in E2. repeat split; auto. lia.
Qed.

Lemma equal_find_in p l :
  p <> spaces (length p) -> (equal_in R p l <-> exists i, equal_find eq p l = Some i).
Proof.
  intros Hp. assert (Hne : p <> []) by (intros ->; apply Hp; reflexivity).
  assert (Hlen : 1 <= length p) by (destruct p; [congruence|simpl; lia]).
  split.
  - intros (n & mid & k & -> & F).
    assert (Hm : length mid = length p) by (symmetry; eapply Forall2_len; eauto).
    unfold equal_find. rewrite lead_app, (lead_match p mid (spaces k)) by auto.
    rewrite app_assoc, trail_app, (trail_match p (spaces n) mid) by auto.
    rewrite !app_length, !spaces_length, Hm.
    destruct (Nat.ltb_spec (n + lead p) (lead p)); [lia|].
    destruct (Nat.ltb_spec (k + trail p) (trail p)); [lia|].
    rewrite Nat.add_sub. rewrite Nat.add_sub.
    replace (n + length p + k - k) with (n + length p) by lia. rewrite Nat.eqb_refl.
    destruct (Nat.ltb_spec n (n + length p + k)); [|lia]. cbn [andb].
    replace (hits _ _ _) with true; [eauto|]. symmetry. apply hits_R.
    exists mid, (spaces k). split; [|exact F]. rewrite <- app_assoc.
    rewrite <- (spaces_length n) at 1. apply skipn_app_len.
  - intros [i H]. apply equal_find_hits in H as (Hh & Hb & Hi & He & Hle1 & Hle2); auto.
    apply hits_R in Hh as (mid & post & Hs & F).
    assert (Hm : length mid = length p) by (symmetry; eapply Forall2_len; eauto).
    destruct (lead_split l) as (rest & Hl & _).
    destruct (lead_split (rev l)) as (rest' & Hl' & _). change (lead (rev l)) with (trail l) in Hl'.
    apply (f_equal (@rev _)) in Hl'. rewrite rev_involutive, rev_app_distr, rev_spaces in Hl'.
    exists i, mid, (length l - (i + length p)). split; [|exact F].
    rewrite <- (firstn_skipn i l) at 1. f_equal.
    + rewrite Hl at 1. rewrite firstn_app, spaces_length.
      replace (i - lead l) with 0 by lia. rewrite firstn_O, app_nil_r.
      replace (lead l) with (i + (lead l - i)) by lia. rewrite spaces_add.
      rewrite <- (spaces_length i) at 1. apply firstn_app_len.
    + rewrite Hs. f_equal.
      assert (Hpost : post = skipn (i + length p) l).
      { rewrite <- skipn_skipn, Hs, <- Hm. symmetry. apply skipn_app_len. }
      rewrite Hpost. rewrite Hl' at 1.
      assert (Hr : length (rev rest') = length l - trail l).
      { apply (f_equal (@length _)) in Hl'. rewrite app_length, spaces_length in Hl'. lia. }
      pose proof (trail_le l).
      rewrite skipn_app, Hr. rewrite skipn_all2 by lia. cbn [app].
      rewrite skipn_spaces by lia. f_equal. lia.
Qed.

(** Blank patterns are only equal to themselves. *)
Lemma equal_find_blank k l :
  1 <= k -> ((exists i, equal_find eq (spaces k) l = Some i) <-> l = spaces k).
Proof.
  intros Hk.
  assert (Hlk : lead (spaces k) = k) by apply lead_spaces.
  assert (Htk : trail (spaces k) = k) by (unfold trail; rewrite rev_spaces; exact Hlk).
  assert (Hne : spaces k <> []) by (destruct k; [lia|discriminate]).
  split.
  - intros [i H]. apply equal_find_hits in H as (Hh & Hb & Hi & He & Hle1 & Hle2); auto.
    rewrite Hlk in *. rewrite Htk in *. rewrite spaces_length in *.
    destruct (lead_split l) as (rest & Hl & Hr).
    pose proof (lead_le l). pose proof (trail_le l).
    assert (Hil : l <> [] -> lead l < length l -> lead l + trail l <= length l).
    { intros _ Hlt. destruct rest as [|a rest].
      { rewrite app_nil_r in Hl. apply (f_equal (@length _)) in Hl. rewrite spaces_length in Hl. lia. }
      rewrite Hl at 2 3. rewrite app_length, spaces_length.
      assert (Ht : trail (spaces (lead l) ++ a :: rest) <= length (a :: rest)); [|lia].
      unfold trail. rewrite rev_app_distr. simpl rev. clear - Hr.
      rewrite <- app_assoc. unfold lead. cbn [app length]. rewrite <- (rev_length rest).
      generalize (rev rest). intros u. induction u as [|x u IH]; simpl.
      - apply N.eqb_neq in Hr. rewrite Hr. lia.
      - destruct (N.eqb x SPACE); lia. }
    apply hits_R in Hh as (mid & post & Hs & F). apply Forall2_spaces in F. subst mid.
    destruct (Nat.eq_dec (lead l) (length l)) as [Heq|Hneq].
    + (* all spaces *)
      destruct rest as [|a rest].
      2:{ apply (f_equal (@length _)) in Hl. rewrite app_length, spaces_length in Hl. cbn [length] in Hl. lia. }
      rewrite app_nil_r in Hl. rewrite Hl.
      assert (trail l = length l).
      { rewrite Hl. unfold trail. rewrite rev_spaces, spaces_length. apply lead_spaces. }
      f_equal. lia.
    + exfalso. assert (l <> []) by (intros ->; simpl in *; lia). specialize (Hil H1). lia.
  - intros ->. unfold equal_find. rewrite Hlk, Htk, Nat.ltb_irrefl, Nat.sub_diag, spaces_length.
    destruct (Nat.ltb_spec 0 k); [|lia]. rewrite Nat.sub_0_r, Nat.eqb_refl. cbn [andb skipn].
    replace (hits _ _ _) with true; [eauto|]. symmetry. apply hits_R. exists (spaces k), [].
    rewrite app_nil_r. split; [reflexivity|]. apply spaces_Forall2.
Qed.

End Shapes.
