(** Which occurrence exact_match chooses, with the class it remembers when it restarts. *)
From Verif Require Import Prelude Chars Utils Candidate MatchedRanges Query Parser Scoring Slab Fzf
  Spec PreludeProofs CharsProofs CandidateProofs MatchedRangesProofs ScoreProofs ExactProofs.
Local Open Scope nat_scope.

Section WithUnicode.
Context {UC : unicode}.

Lemma agreed_len_is eq : forall p w k,
  (forall i x, i < k -> nth_error p i = Some x -> exists y, nth_error w i = Some y /\ eq x y = true) ->
  k <= length p ->
  (k = length p \/ nth_error w k = None \/ exists x y, nth_error p k = Some x /\ nth_error w k = Some y /\ eq x y = false) ->
  agreed_len eq p w = k.
Proof.
  induction p as [|x p IH]; intros w k Hk Hl He; [cbn in *; lia|].
  destruct k as [|k].
  - destruct He as [He|[He|(x' & y & Hx & Hy & Exy)]]; [discriminate| |].
    + destruct w; [reflexivity|discriminate].
    + injection Hx as <-. destruct w; [discriminate|]. injection Hy as ->. cbn. rewrite Exy. reflexivity.
  - destruct (Hk 0 x) as (y & Hy & Exy); [lia|reflexivity|]. destruct w as [|y' w]; [discriminate|].
    injection Hy as ->. cbn. rewrite Exy. f_equal. apply IH.
    + intros i z Hi Hz. apply (Hk (S i)); [lia|exact Hz].
    + cbn in Hl. lia.
    + destruct He as [He|[He|He]]; [left; cbn in He; lia|right; left; exact He|right; right; exact He].
Qed.

Section Search.
Variables (eq : char_eq_fn) (sch : fzf_scheme) (p : pattern) (l : list char).
Local Notation text := (p_text p).
Local Notation m := (length (p_text p)).
Local Notation n := (length l).
Local Notation s := (into_inner sch).

Fixpoint class_seen (j : nat) : char_class_t :=
  match j with
  | O => initial_char_class s
  | S i =>
      let k := agreed_len eq text (skipn i l) in
      if k =? 0 then char_class (nth i l 0%N) s
      else if k <? m then char_class (nth (i + k - 1) l 0%N) s
      else if k =? 1 then class_seen i
      else char_class (nth (i + k - 2) l 0%N) s
  end.

Lemma class_seen_place j : place_of_class (class_seen j) = place_seen eq sch text l j.
Proof.
  induction j as [|i IH]; cbn [class_seen place_seen]; [apply initial_class_place|].
  destruct (agreed_len eq text (skipn i l) =? 0); [apply char_class_place|].
  destruct (agreed_len eq text (skipn i l) <? m); [apply char_class_place|].
  destruct (agreed_len eq text (skipn i l) =? 1); [exact IH|apply char_class_place].
Qed.

Local Notation B := (bonus_seen eq sch text l).

Lemma bonus_seen_bounds j : (0 <= B j <= 10)%Z.
Proof. apply points_bounds. Qed.

Lemma seen_inner_matching cso : forall chars off bs cb k st,
  skipn (cso + off) l = chars -> cso + off = bs + k -> 0 < k < m ->
  (forall i x, i < k -> nth_error text i = Some x ->
               exists y, nth_error l (bs + i) = Some y /\ eq x y = true) ->
  bs < n -> em_prev_class st = char_class (nth (bs + k - 1) l 0%N) s ->
  exists st' e,
    exact_inner p eq s cso chars off bs cb k st = Ok (st', e)
    /\ em_prev_class st' = class_seen (S bs).
Proof.
  induction chars as [|c chars IH]; intros off bs cb k st Hl Hk Hkm Hpre Hbs Hp.
  - assert (Hn : n <= bs + k).
    { rewrite <- Hk. apply (f_equal (@length _)) in Hl. rewrite skipn_length in Hl. simpl in Hl. lia. }
    exists st, (EmInnerDone []). split; [reflexivity|].
    cbn [class_seen]. rewrite (agreed_len_is eq text (skipn bs l) k).
    + destruct (Nat.eqb_spec k 0); [lia|]. destruct (Nat.ltb_spec k m); [exact Hp|lia].
    + intros i x Hi Hx. rewrite nth_error_skipn. apply Hpre; assumption.
    + lia.
    + right. left. rewrite nth_error_skipn. apply nth_error_None. lia.
  - assert (Hn : nth_error l (bs + k) = Some c).
    { rewrite <- Hk, <- (Nat.add_0_r (cso + off)), <- nth_error_skipn, Hl. reflexivity. }
    assert (Hl' : skipn (cso + (off + 1)) l = chars).
    { rewrite Nat.add_assoc, <- skipn_skipn, Hl. reflexivity. }
    cbn [exact_inner]. unfold p_char.
    destruct (nth_error text k) as [x|] eqn:Ex.
    2:{ apply nth_error_None in Ex. lia. }
    rewrite (idx_nth_error _ _ _ _ Ex). cbn [bind].
    destruct (eq x c) eqn:E.
    + destruct (Nat.eqb_spec k 0); [lia|].
      assert (Hpre' : forall i x0, i < k + 1 -> nth_error text i = Some x0 ->
               exists y, nth_error l (bs + i) = Some y /\ eq x0 y = true).
      { intros i z Hi Hz. destruct (Nat.eq_dec i k) as [->|].
        - exists c. split; [exact Hn|]. congruence.
        - apply Hpre; [lia|exact Hz]. }
      unfold p_char_len.
      destruct (Nat.eqb_spec (k + 1) m) as [Hm|Hm].
      * assert (Hag : class_seen (S bs) = char_class (nth (bs + k - 1) l 0%N) s).
        { cbn [class_seen]. rewrite (agreed_len_is eq text (skipn bs l) (k + 1)).
          - destruct (Nat.eqb_spec (k + 1) 0); [lia|]. destruct (Nat.ltb_spec (k + 1) m); [lia|].
            destruct (Nat.eqb_spec (k + 1) 1); [lia|]. do 2 f_equal. lia.
          - intros i z Hi Hz. rewrite nth_error_skipn. apply Hpre'; assumption.
          - lia.
          - left. exact Hm. }
        destruct (em_best_bonus st <? cb)%Z; destruct (BOUNDARY <=? cb)%Z;
          (eexists _, _; split; [reflexivity|]; cbn [em_prev_class]; congruence).
      * match goal with
        | |- exists st' e, exact_inner _ _ _ _ _ _ _ _ _ ?s1 = _ /\ _ => set (st1 := s1)
        end.
        apply (IH (off + 1) bs cb (k + 1) st1); auto; try lia.
        cbn. replace (bs + (k + 1) - 1) with (bs + k) by lia. rewrite (nth_error_nth _ _ _ Hn). reflexivity.
    + destruct (Nat.ltb_spec 0 k); [|lia].
      exists st, (EmInnerDone chars). split; [reflexivity|].
      cbn [class_seen]. rewrite (agreed_len_is eq text (skipn bs l) k).
      * destruct (Nat.eqb_spec k 0); [lia|]. destruct (Nat.ltb_spec k m); [exact Hp|lia].
      * intros i z Hi Hz. rewrite nth_error_skipn. apply Hpre; assumption.
      * lia.
      * right. right. exists x, c. rewrite nth_error_skipn. auto.
Qed.

Lemma seen_inner_spec cso st : forall chars off st0,
  text <> [] ->
  skipn (cso + off) l = chars -> em_best st0 = em_best st -> em_start_offset st0 = cso ->
  (forall i, cso <= i < cso + off -> ~ occ eq text l i) ->
  em_prev_class st0 = class_seen (cso + off) ->
  exists st' e,
    exact_inner p eq s cso chars off 0 0 0 st0 = Ok (st', e)
    /\ ((e = EmInnerDone [] /\ em_best st' = em_best st /\ (forall i, cso <= i -> ~ occ eq text l i))
        \/ exists bs,
             cso <= bs < n /\ (forall i, cso <= i < bs -> ~ occ eq text l i)
             /\ em_start_offset st' = S bs
             /\ ((occ eq text l bs /\ em_best st' = better p (em_best st) (B bs) bs
                  /\ ((8 <= B bs)%Z -> e = EmBreakOuter)
                  /\ ((B bs < 8)%Z -> exists rest, e = EmInnerDone rest /\ (rest = [] -> n <= bs + m)))
                 \/ (~ occ eq text l bs /\ em_best st' = em_best st
                     /\ exists rest, e = EmInnerDone rest /\ (rest = [] -> n <= bs + m)))
             /\ em_prev_class st' = class_seen (S bs)).
Proof.
  induction chars as [|c chars IH]; intros off st0 Ht Hl Hb Hs Hno Hp.
  - exists st0, (EmInnerDone []). split; [reflexivity|]. left. split; [reflexivity|].
    split; [exact Hb|]. intros i Hi Ho.
    destruct (Nat.lt_ge_cases i (cso + off)); [eapply Hno; eauto|].
    apply occ_bound in Ho; auto. apply (f_equal (@length _)) in Hl. rewrite skipn_length in Hl.
    simpl in Hl. destruct text; [congruence|]. simpl in Ho. lia.
  - assert (Hn : nth_error l (cso + off) = Some c).
    { rewrite <- (Nat.add_0_r (cso + off)), <- nth_error_skipn, Hl. reflexivity. }
    assert (Hl' : skipn (cso + (off + 1)) l = chars).
    { rewrite Nat.add_assoc, <- skipn_skipn, Hl. reflexivity. }
    assert (Hlt : cso + off < n) by (apply nth_error_Some; congruence).
    cbn [exact_inner]. unfold p_char.
    destruct (nth_error text 0) as [x|] eqn:Ex.
    2:{ destruct text; [congruence|discriminate]. }
    rewrite (idx_nth_error _ _ _ _ Ex). cbn [bind].
    assert (Hm0 : 0 < m) by (apply nth_error_Some; congruence).
    destruct (eq x c) eqn:E.
    + cbn [Nat.eqb]. unfold p_char_len.
      set (cb := compute_bonus (em_prev_class st0) (char_class c s) s).
      assert (Hcb : cb = B (cso + off)).
      { unfold cb. rewrite compute_bonus_points, char_class_place, Hp, class_seen_place.
        unfold bonus_seen. rewrite (nth_error_nth _ _ _ Hn). reflexivity. }
      destruct (Nat.eqb_spec (0 + 1) m) as [Hm|Hm].
      * assert (Ho : occ eq text l (cso + off)).
        { unfold occ. rewrite Hl. destruct text as [|x0 [|? ?]]; try discriminate.
          simpl in *. injection Ex as ->. rewrite E. destruct chars; reflexivity. }
        assert (Hend : chars = [] -> n <= cso + off + m).
        { intros ->. apply (f_equal (@length _)) in Hl'. rewrite skipn_length in Hl'. simpl in Hl'.
          lia. }
        assert (Hpn : class_seen (S (cso + off)) = class_seen (cso + off)).
        { cbn [class_seen]. rewrite (agreed_len_is eq text (skipn (cso + off) l) 1).
          - destruct (Nat.ltb_spec 1 m); [lia|]. reflexivity.
          - intros i z Hi Hz. replace i with 0 in * by lia. exists c. rewrite nth_error_skipn, Nat.add_0_r. split; [exact Hn|congruence].
          - lia.
          - left. lia. }
        change BOUNDARY with 8%Z. cbn [em_best_bonus].
        destruct (Z.ltb_spec (em_best_bonus st0) cb) as [Hcb1|Hcb1];
          destruct (Z.leb_spec 8 cb) as [H8|H8];
          (eexists _, _; split; [reflexivity|]; right; exists (cso + off);
           split; [lia|]; split; [exact Hno|]; split; [cbn; lia|];
           split; [left|cbn [em_prev_class]; congruence]);
          (split; [exact Ho|]; split;
           [rewrite <- Hb, <- Hcb; unfold better, em_best; cbn;
             destruct (Z.ltb_spec (em_best_bonus st0) cb); try lia; try rewrite <- Hm; reflexivity|]);
          (split; intros; [first [reflexivity | lia]|first [lia|idtac]]);
          (eexists; split; [reflexivity|]; assumption).
      * assert (1 < m) by (destruct text as [|? [|? ?]]; simpl in *; try congruence; lia).
        match goal with
        | |- exists st' e, exact_inner _ _ _ _ _ _ _ _ _ ?s1 = _ /\ _ => set (st1 := s1)
        end.
        assert (Hpre : forall i x0, i < 0 + 1 -> nth_error text i = Some x0 ->
                 exists y, nth_error l (cso + off + i) = Some y /\ eq x0 y = true).
        { intros i z Hi Hz. replace i with 0 in * by lia. exists c. rewrite Nat.add_0_r.
          split; [exact Hn|]. congruence. }
        destruct (exact_inner_matching eq sch p l cso chars (off + 1) (cso + off) cb (0 + 1) st1)
          as (st' & e & H1 & H2 & H3 & _); auto; try lia.
        destruct (seen_inner_matching cso chars (off + 1) (cso + off) cb (0 + 1) st1)
          as (st2 & e2 & H1' & H4); auto; try lia.
        { cbn. replace (cso + off + 1 - 1) with (cso + off) by lia. rewrite (nth_error_nth _ _ _ Hn). reflexivity. }
        rewrite H1 in H1'. injection H1' as <- <-.
        exists st', e. split; [exact H1|]. right. exists (cso + off).
        split; [lia|]. split; [exact Hno|]. split; [rewrite H2; cbn; lia|].
        change (em_best st1) with (em_best st0) in H3. rewrite Hb, Hcb in H3. split; [exact H3|exact H4].
    + cbn [Nat.ltb Nat.leb].
      match goal with
      | |- exists st' e, exact_inner _ _ _ _ _ _ _ _ _ ?s1 = _ /\ _ => set (st1 := s1)
      end.
      destruct (IH (off + 1) st1) as (st' & e & H1 & H2); auto.
      { intros i Hi Ho. destruct (Nat.eq_dec i (cso + off)) as [->|].
        - destruct (hits_nth _ _ _ _ _ Ho Ex) as (y & Hy & Ey).
          rewrite nth_error_skipn, Nat.add_0_r, Hn in Hy. injection Hy as <-. congruence.
        - eapply Hno; eauto. lia. }
      { rewrite Nat.add_assoc, Nat.add_1_r. cbn [class_seen].
        rewrite (agreed_len_is eq text (skipn (cso + off) l) 0).
        - cbn [Nat.eqb]. rewrite (nth_error_nth _ _ _ Hn). reflexivity.
        - intros; lia.
        - lia.
        - right. right. exists x, c. rewrite nth_error_skipn, Nat.add_0_r. auto. }
      exists st', e. auto.
Qed.

(** What the search has found so far. *)
Definition seen_inv (st : em_state) (upto : nat) : Prop :=
  if em_matched st then
    occ eq text l (em_best_start st) /\ em_best_start st < upto
    /\ em_best_bonus st = B (em_best_start st)
    /\ (forall j, j < em_best_start st -> occ eq text l j ->
          (B j < em_best_bonus st)%Z /\ (B j < 8)%Z)
  else em_best_bonus st = (-1)%Z /\ forall i, i < upto -> ~ occ eq text l i.

Definition seen_rest (st : em_state) (upto : nat) : Prop :=
  em_matched st = true ->
  forall j, em_best_start st < j < upto -> occ eq text l j -> (B j <= em_best_bonus st)%Z.

Lemma seen_weaken st a b :
  a <= b -> (forall i, a <= i < b -> ~ occ eq text l i) ->
  seen_inv st a -> seen_rest st a -> seen_inv st b /\ seen_rest st b.
Proof.
  intros Hab Hno H1 H2. unfold seen_inv, seen_rest in *. destruct (em_matched st).
  - destruct H1 as (G1 & G2 & G3 & G4). split.
    + split; [exact G1|]. split; [lia|]. split; [exact G3|exact G4].
    + intros _ j Hj Ho. destruct (Nat.lt_ge_cases j a).
      * apply (H2 eq_refl); [lia|auto].
      * exfalso. eapply Hno; eauto. lia.
  - split; [|discriminate]. split; [tauto|]. intros i Hi Ho. destruct (Nat.lt_ge_cases i a).
    + destruct H1 as [_ H1]. eapply H1; eauto.
    + eapply Hno; eauto.
Qed.

Lemma seen_inv_cong st st' upto : em_best st' = em_best st -> seen_inv st upto -> seen_inv st' upto.
Proof.
  unfold em_best. intros H. injection H as H1 H2 H3 H4. unfold seen_inv. rewrite H1, H2, H4. auto.
Qed.

Lemma seen_rest_cong st st' upto : em_best st' = em_best st -> seen_rest st upto -> seen_rest st' upto.
Proof.
  unfold em_best. intros H. injection H as H1 H2 H3 H4. unfold seen_rest. rewrite H1, H2, H4. auto.
Qed.

Lemma seen_outer_spec : text <> [] -> forall fuel st,
  em_start_offset st <= n -> n - em_start_offset st < fuel ->
  (em_best_bonus st < 8)%Z ->
  seen_inv st (em_start_offset st) -> seen_rest st (em_start_offset st) ->
  em_prev_class st = class_seen (em_start_offset st) ->
  exists st', exact_outer fuel p (Unicode l) eq s st = Ok st'
    /\ seen_inv st' n
    /\ (em_matched st' = true -> (8 <= em_best_bonus st')%Z \/ seen_rest st' n).
Proof.
  intros Ht. induction fuel as [|fuel IH]; intros st Hso Hf H8 Hi Hr Hp; [lia|].
  cbn [exact_outer]. rewrite cand_chars_from_spec. cbn [cand_slice]. rewrite slice_from_ok by exact Hso.
  cbn [bind]. set (cso := em_start_offset st) in *.
  destruct (seen_inner_spec cso st (skipn cso l) 0 st Ht) as (st' & e & E & H); auto.
  { rewrite Nat.add_0_r. reflexivity. } { intros; lia. } { rewrite Nat.add_0_r. exact Hp. }
  rewrite E. cbn [bind].
  destruct H as [(-> & Hb & Hno)|(bs & G1 & G2 & G3 & G5 & G6)].
  - exists st'. split; [reflexivity|].
    destruct (seen_weaken st cso n) as [I1 I2]; auto.
    { intros i Hi'. apply Hno. lia. }
    split; [eapply seen_inv_cong; eauto|]. intros _. right. eapply seen_rest_cong; eauto.
  - destruct (seen_weaken st cso bs) as [I1 I2]; auto; [lia|].
    pose proof (bonus_seen_bounds bs) as G4.
    destruct G5 as [(Ho & Hb & Hbr & Hdone)|(Hno & Hb & rest & -> & Hrest)].
    + assert (I : seen_inv st' (S bs)
                  /\ ((B bs < 8)%Z -> seen_rest st' (S bs) /\ (em_best_bonus st' < 8)%Z)
                  /\ ((8 <= B bs)%Z -> (8 <= em_best_bonus st')%Z) /\ em_matched st' = true).
      { unfold better, em_best in Hb. unfold seen_inv, seen_rest in I1, I2 |- *.
        destruct (Z.ltb_spec (em_best_bonus st) (B bs)) as [Hlt|Hge]; injection Hb as B1 B2 B3 B4;
          rewrite B1, B2, B4.
        - split; [|split; [|split]]; auto.
          + split; [exact Ho|]. split; [lia|]. split; [reflexivity|]. intros j Hj Hoj.
            destruct (em_matched st).
            * destruct I1 as (J1 & J2 & J6 & J7).
              destruct (Nat.lt_trichotomy j (em_best_start st)) as [Hlt1|[->|Hlt1]].
              -- destruct (J7 j); auto. lia.
              -- rewrite <- J6. lia.
              -- specialize (I2 eq_refl j). lapply I2; [|lia]. intros I2'. specialize (I2' Hoj). lia.
            * exfalso. destruct I1 as [_ I1]. apply (I1 j); auto.
          + intros Hcb. split; [|exact Hcb]. intros _ j Hj. lia.
        - destruct (em_matched st) eqn:Em.
          2:{ destruct I1 as [I1 _]. rewrite I1 in Hge. lia. }
          destruct I1 as (J1 & J2 & J3 & J4).
          split; [|split; [|split; [lia|reflexivity]]].
          + split; [exact J1|]. split; [lia|]. split; [exact J3|exact J4].
          + intros Hcb. split; [|lia]. intros _ j Hj Hoj.
            destruct (Nat.eq_dec j bs) as [->|]; [lia|]. apply I2; auto. lia. }
      destruct I as (J1 & J2 & J3 & J4).
      assert (J1n : seen_inv st' n).
      { revert J1. unfold seen_inv. rewrite J4. intros (K1 & K2 & K3 & K4).
        split; [exact K1|]. split; [lia|]. auto. }
      destruct (Z.lt_ge_cases (B bs) 8) as [Hcb|Hcb].
      * destruct (Hdone Hcb) as (rest & -> & Hrest). destruct (J2 Hcb) as [J5 J6].
        destruct rest as [|r rest].
        -- exists st'. split; [reflexivity|]. split; [exact J1n|]. intros _. right.
           specialize (Hrest eq_refl). intros _ j Hj Hoj.
           destruct (Nat.lt_ge_cases j (S bs)).
           ++ apply J5; auto. lia.
           ++ apply occ_bound in Hoj; auto. lia.
        -- apply IH; rewrite ?G3; auto; try lia.
      * rewrite (Hbr Hcb). exists st'. split; [reflexivity|]. split; [exact J1n|]. auto.
    + assert (I1' : seen_inv st' (S bs) /\ seen_rest st' (S bs)).
      { apply seen_weaken with (a := bs); try lia.
        - intros i Hi'. replace i with bs by lia. exact Hno.
        - eapply seen_inv_cong; eauto.
        - eapply seen_rest_cong; eauto. }
      destruct I1' as [J1 J2].
      destruct rest as [|r rest].
      * exists st'. split; [reflexivity|]. specialize (Hrest eq_refl).
        destruct (seen_weaken st' (S bs) n) as [K1 K2]; auto.
        { lia. }
        { intros i Hi' Ho. apply occ_bound in Ho; auto. lia. }
      * assert (em_best_bonus st' = em_best_bonus st) by (unfold em_best in Hb; congruence).
        apply IH; rewrite ?G3; auto; try lia.
Qed.

(** The occurrence which is chosen, whatever the text and the candidate. *)
Lemma exact_find_seen i : text <> [] -> exact_find eq sch p l = Some i ->
  occ eq text l i
  /\ (forall j, j < i -> occ eq text l j -> (B j < B i)%Z /\ (B j < 8)%Z)
  /\ ((8 <= B i)%Z \/ forall j, occ eq text l j -> (B j <= B i)%Z).
Proof.
  intros Ht H.
  destruct (seen_outer_spec Ht (S n) (MkEm (-1) 0 0 false (initial_char_class s) 0)) as (st & E & I & R);
    cbn [em_start_offset em_best_bonus em_prev_class class_seen]; auto; try lia.
  { unfold seen_inv. cbn. split; [reflexivity|]. intros; lia. }
  { unfold seen_rest. cbn. discriminate. }
  unfold exact_find in H. rewrite E in H. unfold seen_inv in I. unfold seen_rest in R.
  destruct (em_matched st); [|discriminate]. injection H as <-.
  destruct I as (K1 & K2 & K3 & K4). rewrite <- K3. split; [exact K1|]. split; [exact K4|].
  destruct (R eq_refl) as [R'|R']; [left; exact R'|right]. intros j Hoj.
  destruct (Nat.lt_trichotomy j (em_best_start st)) as [Hlt|[->|Hgt]].
  - destruct (K4 j Hlt Hoj). lia.
  - lia.
  - apply R'; auto. apply occ_bound in Hoj as Hb; auto. destruct text; [congruence|]. simpl in Hb. lia.
Qed.

End Search.
End WithUnicode.
