(** exact_match, prefix_match, suffix_match and equal_match. *)
From Coq Require Import Sorted.
From Verif Require Import Prelude Chars Utils Candidate MatchedRanges Query Scoring Fzf Spec
  PreludeProofs CharsProofs NormalizeProofs CandidateProofs MatchedRangesProofs ScoreProofs.
Local Open Scope nat_scope.

(** [p] agrees with the beginning of [w]. *)
Fixpoint hits (eq : char_eq_fn) (p w : list char) : bool :=
  match p, w with
  | [], _ => true
  | _ :: _, [] => false
  | x :: p', y :: w' => eq x y && hits eq p' w'
  end.

Lemma hits_length eq p w : hits eq p w = true -> length p <= length w.
Proof.
  revert w. induction p as [|x p IH]; intros [|y w] H; simpl in *; try lia; try discriminate.
  apply andb_true_iff in H as [_ H]. apply IH in H. lia.
Qed.

Lemma hits_forall eq p w :
  hits eq p w = true <-> exists mid post, w = mid ++ post /\ Forall2 (fun x y => eq x y = true) p mid.
Proof.
  revert w. induction p as [|x p IH]; intros w; simpl.
  - split; [|reflexivity]. intros _. exists [], w. auto.
  - destruct w as [|y w].
    + split; [discriminate|]. intros (mid & post & H & F). inversion F; subst. discriminate.
    + rewrite andb_true_iff, IH. split.
      * intros (E & mid & post & -> & F). exists (y :: mid), post. split; [reflexivity|].
        constructor; auto.
      * intros (mid & post & H & F). inversion F; subst. injection H as <- ->.
        split; [assumption|]. eauto.
Qed.

Lemma hits_nth eq p w i x :
  hits eq p w = true -> nth_error p i = Some x -> exists y, nth_error w i = Some y /\ eq x y = true.
Proof.
  revert w i. induction p as [|z p IH]; intros w i H Hi.
  - destruct i; discriminate.
  - destruct w as [|y w]; [discriminate|]. simpl in H. apply andb_true_iff in H as [E H].
    destruct i; simpl in *.
    + injection Hi as <-. eauto.
    + eauto.
Qed.

Lemma hits_intro eq p w :
  (forall i x, nth_error p i = Some x -> exists y, nth_error w i = Some y /\ eq x y = true) ->
  hits eq p w = true.
Proof.
  revert w. induction p as [|z p IH]; intros w H; [destruct w; reflexivity|].
  destruct (H 0 z eq_refl) as (y & Hy & E). destruct w as [|y' w]; [discriminate|].
  injection Hy as ->. simpl. rewrite E. apply IH. intros i x Hx. exact (H (S i) x Hx).
Qed.

Lemma hits_firstn eq p w : hits eq p w = true -> hits eq p (firstn (length p) w) = true.
Proof.
  revert w. induction p as [|x p IH]; intros [|y w] H; simpl in *; auto.
  apply andb_true_iff in H as [-> H]. rewrite IH; auto.
Qed.

Lemma hits_app eq p w t : hits eq p w = true -> hits eq p (w ++ t) = true.
Proof.
  revert w. induction p as [|x p IH]; intros [|y w] H; simpl in *; auto; try discriminate.
  apply andb_true_iff in H as [-> H]. rewrite IH; auto.
Qed.

Lemma hits_greedy eq p : forall w k,
  hits eq p w = true -> greedy eq p w k = Some (seq k (length p)).
Proof.
  induction p as [|x p IH]; intros w k H.
  - apply greedy_nil.
  - destruct w as [|y w]; [discriminate|]. simpl in H. apply andb_true_iff in H as [E H].
    rewrite greedy_cons, E, IH by assumption. reflexivity.
Qed.

(** The byte range of the chars [a..b). *)
Definition span (l : list char) (a b : nat) : nat * nat :=
  (byte_len (firstn a l), byte_len (firstn b l)).

Section WithUnicode.
Context {UC : unicode}.

Lemma finish_match_spec (R : bool) eq sch p c a b pre own :
  cand_ok c -> p_text p <> [] -> hits eq (p_text p) (skipn a (cand_slice c)) = true ->
  b = a + length (p_text p) -> chain 0 own ->
  finish_match R p c a b eq (into_inner sch) (mk pre own)
  = Ok (Some (alignment_score sch (cand_slice c) (seq a (length (p_text p)))),
        mk pre (if R then inserts own [span (cand_slice c) a b] else own)).
Proof.
  intros Hc Hp H -> Ho. unfold finish_match.
  apply hits_length in H as Hlen. rewrite skipn_length in Hlen.
  assert (Hb : a + length (p_text p) <= length (cand_slice c)).
  { destruct (p_text p); [congruence|]. simpl in *. lia. }
  destruct (p_text p) as [|x t] eqn:Ep; [congruence|].
  apply hits_firstn in H as H'.
  destruct (firstn (length (x :: t)) (skipn a (cand_slice c))) as [|y w] eqn:Ew; [discriminate|].
  rewrite (compute_score_spec false eq sch p c a (a + length (x :: t)) pre own x t
             (seq a (length (x :: t))) y w); auto.
  - cbn [bind]. destruct R; [|reflexivity].
    rewrite to_byte_range_spec by (auto; lia). cbn [bind].
    rewrite mr_insert_spec with (lo := 0) by assumption. reflexivity.
  - lia.
  - replace (a + length (x :: t) - a) with (length (x :: t)) by lia. exact Ew.
  - simpl in H'. apply andb_true_iff in H'. tauto.
  - apply hits_greedy. exact H'.
Qed.

(** ** exact_match *)

Definition occ (eq : char_eq_fn) (p l : list char) (i : nat) : Prop :=
  hits eq p (skipn i l) = true.

Lemma occ_bound eq p l i : p <> [] -> occ eq p l i -> i + length p <= length l.
Proof.
  intros Hp H. apply hits_length in H. rewrite skipn_length in H.
  destruct p; [congruence|]. simpl in *. lia.
Qed.

Definition em_best (st : em_state) := (em_best_bonus st, em_best_start st, em_best_end st, em_matched st).

(** The stale class the search can restart with never matters: two neighbouring chars which
    both agree with the first char of the pattern are told apart by its second char. *)
Definition clean (eq : char_eq_fn) (p l : list char) : Prop :=
  forall k x a b,
    nth_error p 0 = Some x -> nth_error l k = Some a -> nth_error l (S k) = Some b ->
    eq x a = true -> eq x b = true ->
    exists y, nth_error p 1 = Some y /\ eq y b = false.

Section Search.
Variables (eq : char_eq_fn) (sch : fzf_scheme) (p : pattern) (l : list char).
Local Notation text := (p_text p).
Local Notation m := (length (p_text p)).
Local Notation n := (length l).
Local Notation s := (into_inner sch).

(** The class remembered before position [i] is right, or does not matter. *)
Definition prev_ok (st : em_state) (i : nat) : Prop :=
  em_prev_class st = class_before sch l i
  \/ forall y x, nth_error l i = Some y -> nth_error text 0 = Some x -> eq x y = false.

Lemma clean_skips bs k : clean eq text l -> 1 < k < m ->
  (forall i x, i < k -> nth_error text i = Some x ->
               exists y, nth_error l (bs + i) = Some y /\ eq x y = true) ->
  forall st, prev_ok st (S bs).
Proof.
  intros Hc Hk Hpre st. right. intros b x Hb Hx.
  destruct (eq x b) eqn:E; [|reflexivity]. exfalso.
  destruct (Hpre 0 x) as (a & Ha & Ea); [lia|exact Hx|].
  rewrite Nat.add_0_r in Ha.
  destruct (Hc bs x a b Hx Ha Hb Ea E) as (y & Hy & Ey).
  destruct (Hpre 1 y) as (b' & Hb' & Eb); [lia|exact Hy|].
  rewrite Nat.add_1_r in Hb'. congruence.
Qed.

Definition better (old : Z * nat * nat * bool) (cb : Z) (bs : nat) : Z * nat * nat * bool :=
  let '(bb, s0, e0, _) := old in
  if (bb <? cb)%Z then (cb, bs, bs + m, true) else (bb, s0, e0, true).

(** The inner loop after [k] > 0 chars of the pattern have been matched from [bs] on. *)
Lemma exact_inner_matching cso : forall chars off bs cb k st,
  skipn (cso + off) l = chars -> cso + off = bs + k -> 0 < k < m ->
  (forall i x, i < k -> nth_error text i = Some x ->
               exists y, nth_error l (bs + i) = Some y /\ eq x y = true) ->
  bs < n ->
  exists st' e,
    exact_inner p eq s cso chars off bs cb k st = Ok (st', e)
    /\ em_start_offset st' = em_start_offset st
    /\ ((occ eq text l bs /\ em_best st' = better (em_best st) cb bs
         /\ ((8 <= cb)%Z -> e = EmBreakOuter)
         /\ ((cb < 8)%Z -> exists rest, e = EmInnerDone rest /\ (rest = [] -> n <= bs + m)))
        \/ (~ occ eq text l bs /\ em_best st' = em_best st
            /\ exists rest, e = EmInnerDone rest /\ (rest = [] -> n <= bs + m)))
    /\ (k = 1 -> em_prev_class st = class_before sch l (S bs) -> clean eq text l -> prev_ok st' (S bs))
    /\ (1 < k -> clean eq text l -> prev_ok st' (S bs)).
Proof.
  induction chars as [|c chars IH]; intros off bs cb k st Hl Hk Hkm Hpre Hbs.
  - (* the candidate ends *)
    assert (Hn : n <= bs + k).
    { rewrite <- Hk. apply (f_equal (@length _)) in Hl. rewrite skipn_length in Hl. simpl in Hl. lia. }
    exists st, (EmInnerDone []). cbn [exact_inner]. split; [reflexivity|]. split; [reflexivity|].
    split; [|split].
    + right. split; [|split; [reflexivity|]].
      * intros H. apply occ_bound in H; [|intros Ht'; rewrite Ht' in *; simpl in *; lia]. lia.
      * exists []. split; [reflexivity|]. lia.
    + intros _ H _. left. exact H.
    + intros H Hc. apply clean_skips with (k := k); auto; lia.
  - assert (Hn : nth_error l (bs + k) = Some c).
    { rewrite <- Hk, <- (Nat.add_0_r (cso + off)), <- nth_error_skipn, Hl. reflexivity. }
    assert (Hl' : skipn (cso + (off + 1)) l = chars).
    { rewrite Nat.add_assoc, <- skipn_skipn, Hl. reflexivity. }
    assert (Hend : n <= bs + k + 1 \/ chars <> []).
    { destruct chars; [left|right; congruence].
      apply (f_equal (@length _)) in Hl'. rewrite skipn_length in Hl'. simpl in Hl'. lia. }
    assert (Hprev1 : clean eq text l -> 1 < k -> forall st', prev_ok st' (S bs)).
    { intros Hc H st'. apply clean_skips with (k := k); auto; lia. }
    cbn [exact_inner]. unfold p_char.
    destruct (nth_error text k) as [x|] eqn:Ex.
    2:{ apply nth_error_None in Ex. lia. }
    rewrite (idx_nth_error _ _ _ _ Ex). cbn [bind].
    destruct (eq x c) eqn:E.
    + destruct (Nat.eqb_spec k 0); [lia|].
      unfold p_char_len.
      destruct (Nat.eqb_spec (k + 1) m) as [Hm|Hm].
      * assert (Ho : occ eq text l bs).
        { apply hits_intro. intros i z Hz. rewrite nth_error_skipn.
          assert (i < m) by (apply nth_error_Some; congruence).
          destruct (Nat.eq_dec i k) as [->|].
          - exists c. split; [exact Hn|]. congruence.
          - apply Hpre; [lia|exact Hz]. }
        assert (Hpr : forall st', em_prev_class st' = em_prev_class st ->
                 (k = 1 -> em_prev_class st = class_before sch l (S bs) -> clean eq text l -> prev_ok st' (S bs))
                 /\ (1 < k -> clean eq text l -> prev_ok st' (S bs))).
        { intros st' Hst. split.
          - intros _ H _. left. congruence.
          - intros H1 H2. apply Hprev1; auto. }
        change BOUNDARY with 8%Z.
        replace (cso + off + 1) with (bs + m) by lia.
        destruct (Z.ltb_spec (em_best_bonus st) cb) as [Hcb|Hcb];
          destruct (Z.leb_spec 8 cb) as [H8|H8];
          (eexists _, _; split; [reflexivity|]; split; [reflexivity|]; split; [left|apply Hpr; reflexivity]);
          (split; [exact Ho|]; split;
           [unfold better, em_best; cbn; destruct (Z.ltb_spec (em_best_bonus st) cb); try lia; reflexivity|]);
          (split; intros; [first [reflexivity | lia]|first [lia|idtac]]);
          (eexists; split; [reflexivity|]; intros ->; destruct Hend; [lia|congruence]).
      * match goal with
        | |- exists st' e, exact_inner _ _ _ _ _ _ _ _ _ ?s1 = _ /\ _ => set (st1 := s1)
        end.
        destruct (IH (off + 1) bs cb (k + 1) st1) as (st' & e & H1 & H2 & H3 & H4 & H5); auto.
        { lia. } { lia. }
        { intros i z Hi Hz. destruct (Nat.eq_dec i k) as [->|].
          - exists c. split; [exact Hn|]. congruence.
          - apply Hpre; [lia|exact Hz]. }
        exists st', e. split; [exact H1|]. split; [exact H2|]. split; [exact H3|].
        split; intros; apply H5; auto; lia.
    + destruct (Nat.ltb_spec 0 k); [|lia].
      exists st, (EmInnerDone chars). split; [reflexivity|]. split; [reflexivity|].
      split; [right|split].
      * split; [|split; [reflexivity|]].
        -- intros Ho. destruct (hits_nth _ _ _ _ _ Ho Ex) as (y & Hy & Ey).
           rewrite nth_error_skipn, Hn in Hy. injection Hy as <-. congruence.
        -- eexists; split; [reflexivity|]; intros ->; destruct Hend; [lia|congruence].
      * intros _ H1 _. left. exact H1.
      * intros H1 H2. apply Hprev1; auto.
Qed.

(** The inner loop from the start. *)
Lemma exact_inner_spec cso st : forall chars off st0,
  text <> [] ->
  skipn (cso + off) l = chars -> em_best st0 = em_best st -> em_start_offset st0 = cso ->
  (forall i, cso <= i < cso + off -> ~ occ eq text l i) ->
  exists st' e,
    exact_inner p eq s cso chars off 0 0 0 st0 = Ok (st', e)
    /\ ((e = EmInnerDone [] /\ em_best st' = em_best st /\ (forall i, cso <= i -> ~ occ eq text l i))
        \/ exists bs cb,
             cso <= bs < n /\ (forall i, cso <= i < bs -> ~ occ eq text l i)
             /\ em_start_offset st' = S bs /\ (0 <= cb <= 10)%Z
             /\ ((occ eq text l bs /\ em_best st' = better (em_best st) cb bs
                  /\ ((8 <= cb)%Z -> e = EmBreakOuter)
                  /\ ((cb < 8)%Z -> exists rest, e = EmInnerDone rest /\ (rest = [] -> n <= bs + m)))
                 \/ (~ occ eq text l bs /\ em_best st' = em_best st
                     /\ exists rest, e = EmInnerDone rest /\ (rest = [] -> n <= bs + m)))
             /\ (clean eq text l -> prev_ok st0 (cso + off) ->
                 cb = bonus_of sch l bs /\ prev_ok st' (S bs))).
Proof.
  induction chars as [|c chars IH]; intros off st0 Ht Hl Hb Hs Hno.
  - exists st0, (EmInnerDone []). split; [reflexivity|]. left. split; [reflexivity|].
    split; [exact Hb|]. intros i Hi Ho.
    destruct (Nat.lt_ge_cases i (cso + off)); [eapply Hno; eauto|].
    apply occ_bound in Ho; auto. apply (f_equal (@length _)) in Hl. rewrite skipn_length in Hl.
    simpl in Hl. destruct text; [congruence|]. simpl in Ho. lia.
  - assert (Hn : nth_error l (cso + off) = Some c).
    { rewrite <- (Nat.add_0_r (cso + off)), <- nth_error_skipn, Hl. reflexivity. }
    assert (Hl' : skipn (cso + (off + 1)) l = chars).
    { rewrite Nat.add_assoc, <- skipn_skipn, Hl. reflexivity. }
    assert (Hlt : cso + off < n) by (apply nth_error_Some; congruence).
    cbn [exact_inner]. unfold p_char.
    destruct (nth_error text 0) as [x|] eqn:Ex.
    2:{ destruct text; [congruence|discriminate]. }
    rewrite (idx_nth_error _ _ _ _ Ex). cbn [bind].
    assert (Hcls : char_class c s = class_before sch l (S (cso + off))).
    { simpl. rewrite (nth_error_nth _ _ _ Hn). reflexivity. }
    destruct (eq x c) eqn:E.
    + cbn [Nat.eqb]. unfold p_char_len.
      set (cb := compute_bonus (em_prev_class st0) (char_class c s) s).
      assert (Hcb0 : (0 <= cb <= 10)%Z).
      { unfold cb. rewrite compute_bonus_points. apply points_bounds. }
      assert (Hcb : prev_ok st0 (cso + off) -> cb = bonus_of sch l (cso + off)).
      { intros [H|H].
        - rewrite <- bonus_of_spec, <- H. unfold cb. rewrite (nth_error_nth _ _ _ Hn). reflexivity.
        - rewrite (H _ _ Hn Ex) in E. discriminate. }
      destruct (Nat.eqb_spec (0 + 1) m) as [Hm|Hm].
      * (* patterns of one char *)
        assert (Ho : occ eq text l (cso + off)).
        { unfold occ. rewrite Hl. destruct text as [|x0 [|? ?]]; try discriminate.
          simpl in *. injection Ex as ->. rewrite E. destruct chars; reflexivity. }
        assert (Hncl : clean eq text l -> forall st', prev_ok st' (S (cso + off))).
        { intros Hcl st'. right. intros b z Hb' Hz.
          destruct (eq z b) eqn:Eb; [|reflexivity]. exfalso.
          rewrite Ex in Hz. injection Hz as <-.
          destruct (Hcl _ _ _ _ Ex Hn Hb' E Eb) as (y & Hy & _).
          assert (1 < m) by (apply nth_error_Some; congruence). lia. }
        assert (Hend : chars = [] -> n <= cso + off + m).
        { intros ->. apply (f_equal (@length _)) in Hl'. rewrite skipn_length in Hl'. simpl in Hl'.
          lia. }
        change BOUNDARY with 8%Z. cbn [em_best_bonus].
        destruct (Z.ltb_spec (em_best_bonus st0) cb) as [Hcb1|Hcb1];
          destruct (Z.leb_spec 8 cb) as [H8|H8];
          (eexists _, _; split; [reflexivity|]; right; exists (cso + off), cb;
           split; [lia|]; split; [exact Hno|]; split; [cbn; lia|]; split; [exact Hcb0|];
           split; [left|intros Hcl Hpo; split; [auto|apply Hncl; exact Hcl]]);
          (split; [exact Ho|]; split;
           [rewrite <- Hb; unfold better, em_best; cbn;
             destruct (Z.ltb_spec (em_best_bonus st0) cb); try lia; try rewrite <- Hm; reflexivity|]);
          (split; intros; [first [reflexivity | lia]|first [lia|idtac]]);
          (eexists; split; [reflexivity|]; assumption).
      * assert (1 < m) by (destruct text as [|? [|? ?]]; simpl in *; try congruence; lia).
        match goal with
        | |- exists st' e, exact_inner _ _ _ _ _ _ _ _ _ ?s1 = _ /\ _ => set (st1 := s1)
        end.
        destruct (exact_inner_matching cso chars (off + 1) (cso + off) cb (0 + 1) st1)
          as (st' & e & H1 & H2 & H3 & H4 & _); auto.
        { lia. }
        { intros i z Hi Hz. replace i with 0 in * by lia. exists c. rewrite Nat.add_0_r.
          split; [exact Hn|]. congruence. }
        exists st', e. split; [exact H1|]. right. exists (cso + off), cb.
        split; [lia|]. split; [exact Hno|]. split; [rewrite H2; cbn; lia|]. split; [exact Hcb0|].
        change (em_best st1) with (em_best st0) in H3. rewrite Hb in H3. split; [exact H3|].
        intros Hcl Hpo. split; [auto|]. apply H4; auto.
    + cbn [Nat.ltb Nat.leb].
      match goal with
      | |- exists st' e, exact_inner _ _ _ _ _ _ _ _ _ ?s1 = _ /\ _ => set (st1 := s1)
      end.
      destruct (IH (off + 1) st1) as (st' & e & H1 & H2); auto.
      { intros i Hi Ho. destruct (Nat.eq_dec i (cso + off)) as [->|].
        - destruct (hits_nth _ _ _ _ _ Ho Ex) as (y & Hy & Ey).
          rewrite nth_error_skipn, Nat.add_0_r, Hn in Hy. injection Hy as <-. congruence.
        - eapply Hno; eauto. lia. }
      exists st', e. split; [exact H1|].
      destruct H2 as [H2|(bs & cb & G1 & G2 & G3 & G4 & G5 & G6)]; [left; exact H2|right].
      exists bs, cb. split; [exact G1|]. split; [exact G2|]. split; [exact G3|]. split; [exact G4|].
      split; [exact G5|]. intros Hcl _. apply G6; [exact Hcl|]. left.
      rewrite Nat.add_assoc, Nat.add_1_r. exact Hcls.
Qed.

(** What the search has found so far. *)
Definition em_inv (st : em_state) (upto : nat) : Prop :=
  if em_matched st then
    occ eq text l (em_best_start st) /\ em_best_start st < upto
    /\ em_best_end st = em_best_start st + m
    /\ (0 <= em_best_bonus st)%Z
    /\ (clean eq text l ->
        em_best_bonus st = bonus_of sch l (em_best_start st)
        /\ (forall j, j < em_best_start st -> occ eq text l j ->
              (bonus_of sch l j < em_best_bonus st)%Z /\ (bonus_of sch l j < 8)%Z))
  else em_best_bonus st = (-1)%Z /\ forall i, i < upto -> ~ occ eq text l i.

Definition em_rest_inv (st : em_state) (upto : nat) : Prop :=
  em_matched st = true -> clean eq text l ->
  forall j, em_best_start st < j < upto -> occ eq text l j ->
    (bonus_of sch l j <= em_best_bonus st)%Z.

Lemma em_inv_weaken st a b :
  a <= b -> (forall i, a <= i < b -> ~ occ eq text l i) ->
  em_inv st a -> em_rest_inv st a -> em_inv st b /\ em_rest_inv st b.
Proof.
  intros Hab Hno H1 H2. unfold em_inv, em_rest_inv in *. destruct (em_matched st).
  - destruct H1 as (G1 & G2 & G3 & G4 & G5). split.
    + repeat split; auto; try lia; apply G5; auto.
    + intros _ Hcl j Hj Ho. destruct (Nat.lt_ge_cases j a).
      * apply (H2 eq_refl Hcl); [lia|auto].
      * exfalso. eapply Hno; eauto. lia.
  - split; [|discriminate]. split; [tauto|]. intros i Hi Ho. destruct (Nat.lt_ge_cases i a).
    + destruct H1 as [_ H1]. eapply H1; eauto.
    + eapply Hno; eauto.
Qed.

Lemma em_inv_cong st st' upto :
  em_best st' = em_best st -> em_inv st upto -> em_inv st' upto.
Proof.
  unfold em_best. intros H. injection H as H1 H2 H3 H4. unfold em_inv.
  rewrite H1, H2, H3, H4. auto.
Qed.

Lemma em_rest_inv_cong st st' upto :
  em_best st' = em_best st -> em_rest_inv st upto -> em_rest_inv st' upto.
Proof.
  unfold em_best. intros H. injection H as H1 H2 H3 H4. unfold em_rest_inv.
  rewrite H1, H2, H4. auto.
Qed.

Lemma exact_outer_spec c : cand_slice c = l -> text <> [] -> forall fuel st,
  em_start_offset st <= n -> n - em_start_offset st < fuel ->
  (em_best_bonus st < 8)%Z ->
  em_inv st (em_start_offset st) -> em_rest_inv st (em_start_offset st) ->
  (clean eq text l -> prev_ok st (em_start_offset st)) ->
  exists st', exact_outer fuel p c eq s st = Ok st'
    /\ em_inv st' n
    /\ (em_matched st' = true -> clean eq text l -> (8 <= em_best_bonus st')%Z \/ em_rest_inv st' n).
Proof.
  intros Hc Ht. induction fuel as [|fuel IH]; intros st Hso Hf H8 Hi Hr Hp; [lia|].
  cbn [exact_outer]. rewrite cand_chars_from_spec, Hc. rewrite slice_from_ok by exact Hso.
  cbn [bind]. set (cso := em_start_offset st) in *.
  destruct (exact_inner_spec cso st (skipn cso l) 0 st Ht) as (st' & e & E & H); auto.
  { rewrite Nat.add_0_r. reflexivity. } { intros; lia. }
  rewrite E. cbn [bind].
  destruct H as [(-> & Hb & Hno)|(bs & cb & G1 & G2 & G3 & G4 & G5 & G6)].
  - exists st'. split; [reflexivity|].
    destruct (em_inv_weaken st cso n) as [I1 I2]; auto.
    { intros i Hi'. apply Hno. lia. }
    split; [eapply em_inv_cong; eauto|]. intros _ _. right. eapply em_rest_inv_cong; eauto.
  - rewrite Nat.add_0_r in G6.
    destruct (em_inv_weaken st cso bs) as [I1 I2]; auto; [lia|].
    destruct G5 as [(Ho & Hb & Hbr & Hdone)|(Hno & Hb & rest & -> & Hrest)].
    + (* an occurrence at bs *)
      assert (I : em_inv st' (S bs)
                  /\ ((cb < 8)%Z -> em_rest_inv st' (S bs) /\ (em_best_bonus st' < 8)%Z)
                  /\ ((8 <= cb)%Z -> (8 <= em_best_bonus st')%Z) /\ em_matched st' = true).
      { unfold better, em_best in Hb. unfold em_inv, em_rest_inv in I1, I2 |- *.
        destruct (Z.ltb_spec (em_best_bonus st) cb) as [Hlt|Hge]; injection Hb as B1 B2 B3 B4;
          rewrite B1, B2, B3, B4.
        - split; [|split; [|split]]; auto.
          + split; [exact Ho|]. split; [lia|]. split; [reflexivity|]. split; [lia|].
            intros Hcl. split; [apply G6; auto|]. intros j Hj Hoj.
            destruct (em_matched st).
            * destruct I1 as (J1 & J2 & J3 & J4 & J5). destruct (J5 Hcl) as [J6 J7].
              destruct (Nat.lt_trichotomy j (em_best_start st)) as [Hlt1|[->|Hlt1]].
              -- destruct (J7 j); auto. lia.
              -- rewrite <- J6. lia.
              -- specialize (I2 eq_refl Hcl j). lapply I2; [|lia]. intros I2'. specialize (I2' Hoj). lia.
            * exfalso. destruct I1 as [_ I1]. apply (I1 j); auto.
          + intros Hcb. split; [|exact Hcb]. intros _ Hcl j Hj. lia.
        - destruct (em_matched st) eqn:Em.
          2:{ destruct I1 as [I1 _]. rewrite I1 in Hge. lia. }
          destruct I1 as (J1 & J2 & J3 & J4 & J5).
          split; [|split; [|split; [lia|reflexivity]]].
          + split; [exact J1|]. split; [lia|]. split; [exact J3|]. split; [lia|]. exact J5.
          + intros Hcb. split; [|lia]. intros _ Hcl j Hj Hoj.
            destruct (Nat.eq_dec j bs) as [->|].
            * destruct (G6 Hcl (Hp Hcl)) as [<- _]. lia.
            * apply I2; auto. lia. }
      destruct I as (J1 & J2 & J3 & J4).
      assert (J1n : em_inv st' n).
      { revert J1. unfold em_inv. rewrite J4. intros (K1 & K2 & K3 & K4 & K5).
        repeat split; auto; try (apply K5; auto). apply occ_bound in K1; auto. destruct text; [congruence|].
        simpl in K1. lia. }
      destruct (Z.lt_ge_cases cb 8) as [Hcb|Hcb].
      * destruct (Hdone Hcb) as (rest & -> & Hrest). destruct (J2 Hcb) as [J5 J6].
        destruct rest as [|r rest].
        -- exists st'. split; [reflexivity|]. split; [exact J1n|]. intros _ Hcl. right.
           specialize (Hrest eq_refl). intros _ _ j Hj Hoj.
           destruct (Nat.lt_ge_cases j (S bs)).
           ++ apply J5; auto. lia.
           ++ apply occ_bound in Hoj; auto. lia.
        -- apply IH; rewrite ?G3; auto; try lia. intros Hcl. apply G6; auto.
      * rewrite (Hbr Hcb). exists st'. split; [reflexivity|]. split; [exact J1n|]. auto.
    + (* none at bs *)
      assert (I1' : em_inv st' (S bs) /\ em_rest_inv st' (S bs)).
      { apply em_inv_weaken with (a := bs); try lia.
        - intros i Hi'. replace i with bs by lia. exact Hno.
        - eapply em_inv_cong; eauto.
        - eapply em_rest_inv_cong; eauto. }
      destruct I1' as [J1 J2].
      destruct rest as [|r rest].
      * exists st'. split; [reflexivity|]. specialize (Hrest eq_refl).
        destruct (em_inv_weaken st' (S bs) n) as [K1 K2]; auto.
        { lia. }
        { intros i Hi' Ho. apply occ_bound in Ho; auto. lia. }
      * assert (em_best_bonus st' = em_best_bonus st) by (unfold em_best in Hb; congruence).
        apply IH; rewrite ?G3; auto; try lia. intros Hcl. apply G6; auto.
Qed.

(** The result of the search. *)
Definition exact_find : option nat :=
  match exact_outer (S n) p (Unicode l) eq s (MkEm (-1) 0 0 false (initial_char_class s) 0) with
  | Ok st => if em_matched st then Some (em_best_start st) else None
  | _ => None
  end.

Lemma exact_outer_unicode c fuel st :
  cand_slice c = l -> exact_outer fuel p c eq s st = exact_outer fuel p (Unicode l) eq s st.
Proof.
  intros Hc. revert st. induction fuel as [|fuel IH]; intros st; [reflexivity|].
  cbn [exact_outer]. rewrite !cand_chars_from_spec, Hc. cbn [cand_slice].
  destruct (slice_from l (em_start_offset st)); [|reflexivity..]. cbn [bind].
  destruct (exact_inner _ _ _ _ _ _ _ _ _ _) as [[st' [|[|]]]| |]; try reflexivity. cbn [bind]. apply IH.
Qed.

Lemma exact_start :
  text <> [] ->
  exists st, exact_outer (S n) p (Unicode l) eq s (MkEm (-1) 0 0 false (initial_char_class s) 0) = Ok st
    /\ em_inv st n
    /\ (em_matched st = true -> clean eq text l -> (8 <= em_best_bonus st)%Z \/ em_rest_inv st n).
Proof.
  intros Ht. apply exact_outer_spec; cbn [em_start_offset em_best_bonus]; auto; try lia.
  - unfold em_inv. cbn. split; [reflexivity|]. intros; lia.
  - unfold em_rest_inv. cbn. discriminate.
  - intros _. left. reflexivity.
Qed.

Lemma exact_find_none : text <> [] -> exact_find = None -> forall i, ~ occ eq text l i.
Proof.
  intros Ht H i Ho. destruct (exact_start Ht) as (st & E & I & _).
  unfold exact_find in H. rewrite E in H. unfold em_inv in I. destruct (em_matched st); [discriminate|].
  destruct I as [_ I]. apply (I i); auto. apply occ_bound in Ho; auto. destruct text; [congruence|].
  simpl in Ho. lia.
Qed.

Lemma exact_find_some i : text <> [] -> exact_find = Some i ->
  occ eq text l i
  /\ (clean eq text l ->
      (forall j, j < i -> occ eq text l j ->
         (bonus_of sch l j < bonus_of sch l i)%Z /\ (bonus_of sch l j < 8)%Z)
      /\ ((8 <= bonus_of sch l i)%Z
          \/ forall j, occ eq text l j -> (bonus_of sch l j <= bonus_of sch l i)%Z)).
Proof.
  intros Ht H. destruct (exact_start Ht) as (st & E & I & B).
  unfold exact_find in H. rewrite E in H. unfold em_inv in I. unfold em_rest_inv in B.
  destruct (em_matched st); [|discriminate]. injection H as <-.
  destruct I as (K1 & K2 & K3 & K4 & K5). split; [exact K1|]. intros Hcl.
  destruct (K5 Hcl) as [K6 K7]. rewrite <- K6. split; [exact K7|].
  destruct (B eq_refl Hcl) as [B'|B']; [left; exact B'|right]. intros j Hoj.
  destruct (Nat.lt_trichotomy j (em_best_start st)) as [Hlt|[->|Hgt]].
  - destruct (K7 j Hlt Hoj). lia.
  - lia.
  - apply B'; auto. apply occ_bound in Hoj as Hb; auto. destruct text; [congruence|].
    simpl in Hb. lia.
Qed.

Lemma exact_match_spec (R : bool) c pre own :
  cand_ok c -> cand_slice c = l -> chain 0 own ->
  exact_match R p c eq s (mk pre own)
  = Ok (match text with
        | [] => (Some 0%Z, mk pre own)
        | _ =>
            match exact_find with
            | None => (None, mk pre own)
            | Some i => (Some (alignment_score sch l (seq i m)),
                         mk pre (if R then inserts own [span l i (i + m)] else own))
            end
        end).
Proof.
  intros Hok Hc Ho. unfold exact_match, p_is_empty.
  destruct text as [|x t] eqn:Et; [reflexivity|]. rewrite <- Et in *.
  assert (Ht : text <> []) by congruence.
  rewrite cand_char_len_spec, Hc.
  rewrite exact_outer_unicode by assumption.
  destruct (exact_start Ht) as (st & E & I & _).
  unfold exact_find. rewrite E. cbn [bind]. unfold em_inv in I.
  destruct (em_matched st); cbn [negb]; [|reflexivity].
  destruct I as (K1 & _ & K3 & _). rewrite K3.
  rewrite <- Hc.
  rewrite finish_match_spec; auto.
  rewrite Hc. exact K1.
Qed.

End Search.


(** ** prefix_match, suffix_match, equal_match *)

Definition zip_full (r : option (list char * list char)) : bool :=
  match r with
  | Some ([], _) => true
  | _ => false
  end.

Lemma zip_eq_hits eq p w : zip_full (zip_eq eq p w) = hits eq p w.
Proof.
  revert w. induction p as [|x p IH]; intros w; [destruct w; reflexivity|].
  destruct w as [|y w]; [reflexivity|]. simpl. destruct (eq x y); [apply IH|reflexivity].
Qed.

Lemma zip_eq_rest eq p w :
  hits eq p w = true -> zip_eq eq p w = Some ([], skipn (length p) w).
Proof.
  revert w. induction p as [|x p IH]; intros w H; [destruct w; reflexivity|].
  destruct w as [|y w]; [discriminate|]. simpl in *. apply andb_true_iff in H as [-> H]. auto.
Qed.

Definition lead (l : list char) : nat := count_while (fun c => N.eqb c SPACE) l.
Definition trail (l : list char) : nat := count_while (fun c => N.eqb c SPACE) (rev l).

Lemma lead_le l : lead l <= length l.
Proof. apply count_while_le. Qed.
Lemma trail_le l : trail l <= length l.
Proof. unfold trail. rewrite <- (rev_length l). apply count_while_le. Qed.

Definition prefix_find (eq : char_eq_fn) (t l : list char) : option nat :=
  if lead l <? lead t then None
  else if hits eq t (skipn (lead l - lead t) l) then Some (lead l - lead t) else None.

Definition suffix_find (eq : char_eq_fn) (t l : list char) : option nat :=
  if trail l <? trail t then None
  else
    let e := length l - (trail l - trail t) in
    if (length t <=? e) && hits eq t (skipn (e - length t) (firstn e l))
    then Some (e - length t) else None.

Definition equal_find (eq : char_eq_fn) (t l : list char) : option nat :=
  if lead l <? lead t then None
  else if trail l <? trail t then None
  else
    let a := lead l - lead t in
    let e := length l - (trail l - trail t) in
    if (a <? length l) && (e =? a + length t) && hits eq t (skipn a l) then Some a else None.

(** What the four functions return, given where they find the pattern. *)
Definition found (R : bool) (sch : fzf_scheme) (t l : list char) (pre own : list (nat * nat))
    (o : option nat) : option score * mranges :=
  match t with
  | [] => (Some 0%Z, mk pre own)
  | _ =>
      match o with
      | None => (None, mk pre own)
      | Some i => (Some (alignment_score sch l (seq i (length t))),
                   mk pre (if R then inserts own [span l i (i + length t)] else own))
      end
  end.

Definition pat_ok (p : pattern) : Prop :=
  p_leading_spaces p = lead (p_text p) /\ p_trailing_spaces p = trail (p_text p).

Lemma found_finish (R : bool) eq sch p c a b pre own :
  cand_ok c -> p_text p <> [] -> hits eq (p_text p) (skipn a (cand_slice c)) = true ->
  b = a + length (p_text p) -> chain 0 own ->
  finish_match R p c a b eq (into_inner sch) (mk pre own)
  = Ok (found R sch (p_text p) (cand_slice c) pre own (Some a)).
Proof.
  intros Hc Ht H -> Ho. rewrite finish_match_spec by auto. unfold found.
  destruct (p_text p); [congruence|reflexivity].
Qed.

Lemma prefix_match_spec (R : bool) eq sch p c pre own :
  cand_ok c -> pat_ok p -> chain 0 own ->
  prefix_match R p c eq (into_inner sch) (mk pre own)
  = Ok (found R sch (p_text p) (cand_slice c) pre own (prefix_find eq (p_text p) (cand_slice c))).
Proof.
  intros Hc [Hp _] Ho. unfold prefix_match, p_is_empty.
  destruct (p_text p) as [|x t] eqn:Et; [reflexivity|]. rewrite <- Et in *.
  assert (Ht : p_text p <> []) by congruence.
  unfold ignored_candidate_leading_spaces, prefix_find.
  rewrite cand_leading_spaces_spec, Hp. fold (lead (cand_slice c)).
  pose proof (lead_le (cand_slice c)).
  destruct (Nat.ltb_spec (lead (cand_slice c)) (lead (p_text p))) as [H1|H1].
  { cbn [bind]. unfold found. rewrite Et. reflexivity. }
  rewrite usub_ok by assumption. cbn [bind].
  rewrite cand_chars_from_spec, slice_from_ok by lia. cbn [bind].
  set (i := lead (cand_slice c) - lead (p_text p)).
  destruct (hits eq (p_text p) (skipn i (cand_slice c))) eqn:Hh.
  - rewrite (zip_eq_rest _ _ _ Hh). apply found_finish; auto.
  - pose proof (zip_eq_hits eq (p_text p) (skipn i (cand_slice c))) as Hz. rewrite Hh in Hz.
    destruct (zip_eq _ _ _) as [[[|] ?]|]; try discriminate; unfold found; rewrite Et; reflexivity.
Qed.

Lemma hits_rev eq t w :
  hits eq (rev t) (rev w) = (length t <=? length w) && hits eq t (skipn (length w - length t) w).
Proof.
  apply Bool.eq_true_iff_eq. rewrite andb_true_iff, Nat.leb_le, !hits_forall. split.
  - intros (mid & post & Hw & F).
    apply (f_equal (@rev _)) in Hw. rewrite rev_involutive, rev_app_distr in Hw.
    assert (Hl : length mid = length t).
    { rewrite <- (rev_length t). symmetry. clear - F. induction F; simpl; auto. }
    assert (F' : Forall2 (fun x y => eq x y = true) t (rev mid)).
    { rewrite <- (rev_involutive t). clear - F. induction F; simpl; [constructor|].
      apply Forall2_app; auto. }
    subst w. rewrite app_length, !rev_length, Hl. split; [lia|].
    exists (rev mid), []. rewrite app_nil_r. split; [|exact F'].
    replace (length post + length t - length t) with (length (rev post)) by (rewrite rev_length; lia).
    apply skipn_app_len.
  - intros (Hl & mid & post & Hw & F).
    assert (Hm : length mid = length t) by (symmetry; clear - F; induction F; simpl; auto).
    assert (Hp : post = []).
    { apply (f_equal (@length _)) in Hw. rewrite skipn_length, app_length in Hw.
      destruct post; [reflexivity|]. simpl in Hw. lia. }
    subst post. rewrite app_nil_r in Hw. rewrite <- (firstn_skipn (length w - length t) w), Hw.
    rewrite rev_app_distr. eexists _, _. split; [reflexivity|].
    clear - F. induction F; simpl; [constructor|]. apply Forall2_app; auto.
Qed.

Lemma skipn_firstn_hits eq t l e :
  t <> [] -> length t <= e -> e <= length l ->
  hits eq t (skipn (e - length t) (firstn e l)) = hits eq t (skipn (e - length t) l).
Proof.
  intros Ht H1 H2. rewrite skipn_firstn_comm. replace (e - (e - length t)) with (length t) by lia.
  apply Bool.eq_true_iff_eq. split; [|apply hits_firstn].
  intros H. apply (hits_app _ _ _ (skipn (length t) (skipn (e - length t) l))) in H.
  rewrite firstn_skipn in H. exact H.
Qed.

Lemma suffix_match_spec (R : bool) eq sch p c pre own :
  cand_ok c -> pat_ok p -> chain 0 own ->
  suffix_match R p c eq (into_inner sch) (mk pre own)
  = Ok (found R sch (p_text p) (cand_slice c) pre own (suffix_find eq (p_text p) (cand_slice c))).
Proof.
  intros Hc [_ Hp] Ho. unfold suffix_match, p_is_empty.
  destruct (p_text p) as [|x t] eqn:Et; [reflexivity|]. rewrite <- Et in *.
  assert (Ht : p_text p <> []) by congruence.
  unfold ignored_candidate_trailing_spaces, suffix_find.
  rewrite cand_trailing_spaces_spec, Hp. fold (trail (cand_slice c)).
  pose proof (trail_le (cand_slice c)).
  destruct (Nat.ltb_spec (trail (cand_slice c)) (trail (p_text p))) as [H1|H1].
  { cbn [bind]. unfold found. rewrite Et. reflexivity. }
  rewrite usub_ok by assumption. cbn [bind].
  rewrite cand_char_len_spec, usub_ok by lia. cbn [bind].
  set (e := length (cand_slice c) - (trail (cand_slice c) - trail (p_text p))).
  assert (He : e <= length (cand_slice c)) by lia.
  rewrite cand_slice_range_spec by lia. cbn [bind].
  rewrite cand_chars_spec, cand_slice_with. cbn [bind skipn]. rewrite Nat.sub_0_r.
  assert (Hlen : length (firstn e (cand_slice c)) = e) by (rewrite firstn_length; lia).
  pose proof (hits_rev eq (p_text p) (firstn e (cand_slice c))) as Hr. rewrite Hlen in Hr.
  destruct (hits eq (rev (p_text p)) (rev (firstn e (cand_slice c)))) eqn:Hh.
  - rewrite <- Hr. rewrite (zip_eq_rest _ _ _ Hh).
    symmetry in Hr. apply andb_true_iff in Hr as [Hr1 Hr2]. apply Nat.leb_le in Hr1.
    rewrite skipn_firstn_hits in Hr2 by auto.
    unfold p_char_len. rewrite usub_ok by lia. cbn [bind]. apply found_finish; auto. lia.
  - rewrite <- Hr.
    pose proof (zip_eq_hits eq (rev (p_text p)) (rev (firstn e (cand_slice c)))) as Hz. rewrite Hh in Hz.
    destruct (zip_eq _ _ _) as [[[|] ?]|]; try discriminate; unfold found; rewrite Et; reflexivity.
Qed.

Lemma equal_match_spec (R : bool) eq sch p c pre own :
  cand_ok c -> pat_ok p -> chain 0 own ->
  equal_match R p c eq (into_inner sch) (mk pre own)
  = Ok (found R sch (p_text p) (cand_slice c) pre own (equal_find eq (p_text p) (cand_slice c))).
Proof.
  intros Hc [Hp Hp'] Ho. unfold equal_match, p_is_empty.
  destruct (p_text p) as [|x t] eqn:Et; [reflexivity|]. rewrite <- Et in *.
  assert (Ht : p_text p <> []) by congruence.
  assert (Hm : 1 <= length (p_text p)) by (rewrite Et; simpl; lia).
  assert (Hnone : Ok (None, mk pre own) = Ok (found R sch (p_text p) (cand_slice c) pre own None)).
  { unfold found. rewrite Et. reflexivity. }
  unfold ignored_candidate_leading_spaces, ignored_candidate_trailing_spaces, equal_find.
  rewrite cand_leading_spaces_spec, cand_trailing_spaces_spec, Hp, Hp'.
  fold (lead (cand_slice c)) (trail (cand_slice c)).
  pose proof (lead_le (cand_slice c)). pose proof (trail_le (cand_slice c)).
  destruct (Nat.ltb_spec (lead (cand_slice c)) (lead (p_text p))) as [H1|H1]; [exact Hnone|].
  rewrite usub_ok by assumption. cbn [bind].
  rewrite cand_char_len_spec.
  set (a := lead (cand_slice c) - lead (p_text p)).
  set (e := length (cand_slice c) - (trail (cand_slice c) - trail (p_text p))).
  destruct (Nat.eqb_spec a (length (cand_slice c))) as [H2|H2].
  { destruct (trail (cand_slice c) <? trail (p_text p)); [exact Hnone|].
    destruct (Nat.ltb_spec a (length (cand_slice c))); [lia|]. exact Hnone. }
  destruct (Nat.ltb_spec a (length (cand_slice c))) as [Hal|]; [|lia].
  destruct (Nat.ltb_spec (trail (cand_slice c)) (trail (p_text p))) as [H3|H3]; [exact Hnone|].
  rewrite usub_ok by assumption. cbn [bind].
  rewrite usub_ok by lia. cbn [bind]. fold e. cbn [andb]. unfold p_char_len.
  destruct (Nat.ltb_spec (e - a) (length (p_text p))) as [H4|H4].
  { destruct (Nat.eqb_spec e (a + length (p_text p))); [lia|]. exact Hnone. }
  rewrite cand_slice_range_spec by lia. cbn [bind].
  rewrite cand_chars_spec, cand_slice_with. cbn [bind].
  set (w := firstn (e - a) (skipn a (cand_slice c))).
  assert (Hw : length w = e - a).
  { unfold w. rewrite firstn_length, skipn_length. lia. }
  destruct (hits eq (p_text p) w) eqn:Hh.
  - rewrite (zip_eq_rest _ _ _ Hh). cbn [zip_rest].
    assert (Hh' : hits eq (p_text p) (skipn a (cand_slice c)) = true).
    { rewrite <- (firstn_skipn (e - a) (skipn a (cand_slice c))). apply hits_app. exact Hh. }
    rewrite Hh'.
    assert (Hs : length (skipn (length (p_text p)) w) = e - a - length (p_text p))
      by (rewrite skipn_length; lia).
    destruct (skipn (length (p_text p)) w) as [|? ?]; simpl in Hs.
    + destruct (Nat.eqb_spec e (a + length (p_text p))); [|lia]. cbn [andb].
      apply found_finish; auto.
    + destruct (Nat.eqb_spec e (a + length (p_text p))); [lia|]. exact Hnone.
  - assert (Hnil : (if (e =? a + length (p_text p)) && hits eq (p_text p) (skipn a (cand_slice c))
                    then Some a else None) = None).
    { destruct (Nat.eqb_spec e (a + length (p_text p))); [|reflexivity].
      destruct (hits eq (p_text p) (skipn a (cand_slice c))) eqn:H5; [|reflexivity].
      apply hits_firstn in H5. unfold w in Hh. replace (e - a) with (length (p_text p)) in Hh by lia.
      congruence. }
    rewrite Hnil.
    pose proof (zip_eq_hits eq (p_text p) w) as Hz. rewrite Hh in Hz.
    destruct (zip_eq eq (p_text p) w) as [[rp rc]|] eqn:Ez; [|exact Hnone].
    destruct rp as [|r rp]; [discriminate|].
    (* the pattern cannot outlast the window *)
    exfalso. clear - Ez Hw H4. revert Ez. assert (Hle : length (p_text p) <= length w) by lia.
    clearbody w. clear - Hle. revert w Hle. generalize (p_text p). induction l as [|x t IH]; intros w Hle.
    + simpl. destruct w; discriminate.
    + destruct w as [|y w]; simpl in *; [lia|]. destruct (eq x y); [|discriminate]. apply IH. lia.
Qed.

End WithUnicode.
