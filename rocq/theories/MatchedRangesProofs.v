(** MatchedRanges::insert as a pure function on the ranges of the current call. *)
From Coq Require Import Sorted.
From Verif Require Import Prelude Chars MatchedRanges Spec PreludeProofs.

(** A buffer holding [pre] when the call started and [own] since. *)
Definition mk (pre own : list range) : mranges := MkRanges (pre ++ own) (length pre).

(** Result of inserting [a..b] into sorted disjoint ranges. *)
Fixpoint ins (own : list range) (a b : nat) : list range :=
  match own with
  | [] => [(a, b)]
  | (s, e) :: t =>
      if s =? a then
        if b <=? e then own
        else
          match t with
          | (s', e') :: t' => if s' <=? b then (s, e') :: t' else (s, b) :: t
          | [] => [(s, b)]
          end
      else if a <? s then
        if s <=? b then (a, e) :: t else (a, b) :: own
      else
        match t with
        | [] => if a <=? e then [(s, Nat.max e b)] else [(s, e); (a, b)]
        | (s', e') :: t' =>
            if s' <=? a then (s, e) :: ins t a b
            else if a <=? e then
              if s' <=? b then (s, e') :: t'
              else if e <? b then (s, b) :: t else own
            else if s' <=? b then (s, e) :: (a, e') :: t'
            else (s, e) :: (a, b) :: t
        end
  end.

Fixpoint chain (lo : nat) (own : list range) : Prop :=
  match own with
  | [] => True
  | (s, e) :: t => lo <= s /\ s < e /\ chain (S e) t
  end.

Lemma chain_weaken lo lo' own : lo' <= lo -> chain lo own -> chain lo' own.
Proof. destruct own as [|[s e] t]; simpl; intros; intuition lia. Qed.

Lemma chain_bound lo own : chain lo own -> Forall (fun r => lo <= fst r /\ fst r < snd r) own.
Proof.
  revert lo. induction own as [|[s e] t IH]; simpl; intros lo H; constructor.
  - simpl. lia.
  - destruct H as (? & ? & H). apply IH in H. eapply Forall_impl; [|exact H].
    simpl. intros. lia.
Qed.

Lemma chain_canonical own : canonical own <-> chain 0 own.
Proof.
  unfold canonical. split.
  - intros [H1 H2]. assert (G : forall lo, Forall (fun r => lo <= fst r) own -> chain lo own).
    { induction own as [|[s e] t IH]; simpl; [auto|]. intros lo Hlo.
      inversion H1; inversion H2; inversion Hlo; subst; simpl in *.
      repeat split; auto. }
    apply G. apply Forall_forall. intros. lia.
  - generalize 0. induction own as [|[s e] t IH]; simpl; intros lo H; [repeat constructor|].
    destruct H as (? & ? & H). destruct (IH _ H) as [G1 G2]. split; constructor; auto.
    apply chain_bound in H. eapply Forall_impl; [|exact H]. simpl. intros. lia.
Qed.

Lemma covered_nil x : ~ covered [] x.
Proof. intros (r & [] & _). Qed.

Lemma covered_cons r t x : covered (r :: t) x <-> (fst r <= x < snd r) \/ covered t x.
Proof.
  unfold covered. split.
  - intros (r' & [->|H] & H'); [auto|]. right. eauto.
  - intros [H|(r' & H & H')]; [exists r|exists r']; simpl; auto.
Qed.

Lemma covered_app l l' x : covered (l ++ l') x <-> covered l x \/ covered l' x.
Proof.
  unfold covered. split.
  - intros (r & H & H'). apply in_app_or in H. destruct H; [left|right]; eauto.
  - intros [(r & H & H')|(r & H & H')]; exists r; (split; [apply in_or_app|]); auto.
Qed.

Ltac ins_cases :=
  repeat match goal with
  | |- context [if ?a <=? ?b then _ else _] => destruct (Nat.leb_spec a b)
  | |- context [if ?a <? ?b then _ else _] => destruct (Nat.ltb_spec a b)
  | |- context [if ?a =? ?b then _ else _] => destruct (Nat.eqb_spec a b)
  end.

Lemma ins_chain own a b lo :
  a < b -> lo <= a -> chain lo own -> chain lo (ins own a b).
Proof.
  intros Hab. revert lo. induction own as [|[s e] t IH]; intros lo Hlo H.
  - simpl. lia.
  - cbn [ins]. destruct H as (H1 & H2 & H3).
    destruct t as [|[s' e'] t'].
    + ins_cases; simpl; lia.
    + pose proof H3 as H3'. destruct H3 as (H4 & H5 & H6).
      ins_cases; cbn [chain]; repeat split; try lia; auto;
        try (eapply chain_weaken; [|exact H6]; lia).
      apply IH; [lia|]. exact H3'.
Qed.

(** Nothing is lost. *)
Lemma ins_keeps own a b x lo :
  a < b -> chain lo own -> covered own x -> covered (ins own a b) x.
Proof.
  intros Hab. revert lo. induction own as [|[s e] t IH]; intros lo H.
  - intros C. destruct (covered_nil _ C).
  - cbn [ins]. destruct H as (H1 & H2 & H3).
    destruct t as [|[s' e'] t'].
    + ins_cases; rewrite ?covered_cons; simpl; first [lia | intuition lia].
    + pose proof H3 as H3'. destruct H3 as (H4 & H5 & H6).
      rewrite covered_cons. intros C.
      assert (C' : s <= x < e \/ s' <= x < e' \/ covered t' x)
        by (rewrite covered_cons in C; simpl in C; tauto).
      ins_cases; rewrite ?covered_cons; simpl; try solve [lia | intuition lia].
      simpl in C. destruct C as [C|C]; [left; exact C|right; eapply IH; eauto].
Qed.

(** Nothing is added but the new range. *)
Lemma ins_adds own a b x lo :
  a < b -> chain lo own -> covered (ins own a b) x -> covered own x \/ a <= x < b.
Proof.
  intros Hab. revert lo. induction own as [|[s e] t IH]; intros lo H.
  - simpl. rewrite covered_cons. simpl. tauto.
  - cbn [ins]. destruct H as (H1 & H2 & H3).
    destruct t as [|[s' e'] t'].
    + ins_cases; rewrite ?covered_cons; simpl; first [lia | intuition lia].
    + pose proof H3 as H3'. destruct H3 as (H4 & H5 & H6).
      ins_cases; rewrite ?covered_cons; simpl; try solve [lia | intuition lia].
      intros [C|C]; [tauto|]. eapply IH in C; [|exact H3'].
      rewrite covered_cons in C. simpl in C. tauto.
Qed.

(** Each range contains the new one or is disjoint from it. *)
Definition atomic (own : list range) (a b : nat) : Prop :=
  Forall (fun r => (fst r <= a /\ b <= snd r) \/ snd r <= a \/ b <= fst r) own.

(** Under this condition the new range is covered afterwards. *)
Lemma ins_covers own a b x lo :
  a < b -> chain lo own -> atomic own a b -> a <= x < b -> covered (ins own a b) x.
Proof.
  intros Hab. revert lo. induction own as [|[s e] t IH]; intros lo H A C.
  - simpl. apply covered_cons. simpl. lia.
  - cbn [ins]. destruct H as (H1 & H2 & H3). inversion A as [|? ? A1 A2]; subst. simpl in A1.
    destruct t as [|[s' e'] t'].
    + ins_cases; rewrite ?covered_cons; simpl; first [lia | intuition lia].
    + pose proof H3 as H3'. destruct H3 as (H4 & H5 & H6).
      inversion A2 as [|? ? A3 A4]; subst. simpl in A3.
      ins_cases; rewrite ?covered_cons; simpl; try solve [lia | intuition lia].
      right. eapply IH; eauto.
Qed.

(** The end points of the ranges are old end points or those of the new range. *)
Lemma ins_ends own a b (P : nat -> Prop) :
  P a -> P b -> Forall (fun r => P (fst r) /\ P (snd r)) own ->
  Forall (fun r => P (fst r) /\ P (snd r)) (ins own a b).
Proof.
  intros Pa Pb. induction own as [|[s e] t IH]; intros H.
  - simpl. repeat constructor; auto.
  - cbn [ins]. inversion H as [|? ? [H1 H2] H3]; subst. simpl in H1, H2.
    destruct t as [|[s' e'] t'].
    + assert (P (Nat.max e b)) by (destruct (Nat.max_spec e b) as [[_ ->]|[_ ->]]; auto).
      ins_cases; repeat constructor; auto.
    + inversion H3 as [|? ? [H4 H5] H6]; subst. simpl in H4, H5.
      ins_cases; repeat constructor; auto.
Qed.

(** If the new range is already inside one of the ranges nothing changes. *)
Lemma ins_within own a b lo :
  a < b -> chain lo own -> (exists r, In r own /\ fst r <= a /\ b <= snd r) ->
  ins own a b = own.
Proof.
  intros Hab. revert lo. induction own as [|[s e] t IH]; intros lo H C.
  - destruct C as (r & [] & _).
  - cbn [ins]. destruct H as (H1 & H2 & H3).
    assert (C' : (s <= a /\ b <= e) \/ exists r, In r t /\ fst r <= a /\ b <= snd r).
    { destruct C as (r & [<-|Hr] & Hr'); [left; exact Hr'|right; eauto]. }
    destruct C' as [C'|C'].
    + destruct t as [|[s' e'] t'].
      * ins_cases; try lia; try reflexivity. do 2 f_equal. lia.
      * destruct H3 as (H4 & H5 & H6). ins_cases; try lia; reflexivity.
    + pose proof (chain_bound _ _ H3) as B. rewrite Forall_forall in B.
      destruct C' as (r & Hr & Hr'). pose proof (B _ Hr).
      destruct t as [|[s' e'] t']; [destruct Hr|].
      assert (s' <= a).
      { destruct Hr as [<-|Hr]; [simpl in *; lia|].
        destruct H3 as (? & ? & H6). pose proof (chain_bound _ _ H6) as B'.
        rewrite Forall_forall in B'. apply B' in Hr. lia. }
      ins_cases; try lia. f_equal. eapply IH; eauto.
Qed.

(** ** The code computes [ins] *)

Lemma search_start_spec own a : forall i lo, chain lo own ->
  match search_start own a i with
  | inl k => exists l e r, own = l ++ (a, e) :: r /\ k = i + length l
                           /\ Forall (fun x => fst x < a) l
  | inr k => exists l r, own = l ++ r /\ k = i + length l
                         /\ Forall (fun x => fst x < a) l
                         /\ match r with [] => True | x :: _ => a < fst x end
  end.
Proof.
  induction own as [|[s e] t IH]; intros i lo H; cbn [search_start fst].
  - exists [], []. simpl. repeat split; auto.
  - destruct H as (H1 & H2 & H3).
    destruct (Nat.eqb_spec s a).
    + subst. exists [], e, t. simpl. repeat split; auto.
    + destruct (Nat.ltb_spec a s).
      * exists [], ((s, e) :: t). simpl. repeat split; auto; try lia.
      * specialize (IH (S i) _ H3). destruct (search_start t a (S i)).
        -- destruct IH as (l & e' & r & -> & -> & Hl).
           exists ((s, e) :: l), e', r. simpl. repeat split; [lia|].
           constructor; [simpl; lia|exact Hl].
        -- destruct IH as (l & r & -> & -> & Hl & Hr).
           exists ((s, e) :: l), r. simpl. repeat split; [lia| |exact Hr].
           constructor; [simpl; lia|exact Hl].
Qed.

Lemma ins_skip l x r a b :
  Forall (fun y => fst y < a) l -> fst x <= a ->
  ins (l ++ x :: r) a b = l ++ ins (x :: r) a b.
Proof.
  intros H Hx. induction H as [|[s e] l Hs Hl IH]; [reflexivity|]. simpl in Hs.
  cbn [app]. rewrite <- IH. destruct l as [|[s' e'] l']; cbn [app] in *.
  - destruct x as [s' e']. simpl in Hx. cbn [ins].
    destruct (Nat.eqb_spec s a); [lia|]. destruct (Nat.ltb_spec a s); [lia|].
    destruct (Nat.leb_spec s' a); [reflexivity|lia].
  - inversion Hl; subst. simpl in *.
    destruct (Nat.eqb_spec s a); [lia|]. destruct (Nat.ltb_spec a s); [lia|].
    destruct (Nat.leb_spec s' a); [reflexivity|lia].
Qed.

Lemma firstn_app_len A (l l' : list A) : firstn (length l) (l ++ l') = l.
Proof. rewrite firstn_app, Nat.sub_diag, firstn_all, firstn_O, app_nil_r. reflexivity. Qed.

Lemma skipn_app_len A (l l' : list A) : skipn (length l) (l ++ l') = l'.
Proof. rewrite skipn_app, Nat.sub_diag, skipn_all, skipn_O. reflexivity. Qed.

Lemma skipn_S_app_len A (l : list A) x l' : skipn (S (length l)) (l ++ x :: l') = l'.
Proof.
  replace (l ++ x :: l') with ((l ++ [x]) ++ l') by (rewrite <- app_assoc; reflexivity).
  replace (S (length l)) with (length (l ++ [x])) by (rewrite app_length; simpl; lia).
  apply skipn_app_len.
Qed.

Lemma own_mk pre own : slice_from (mr_ranges (mk pre own)) (mr_initial_len (mk pre own)) = Ok own.
Proof.
  simpl. rewrite slice_from_ok by (rewrite app_length; lia). rewrite skipn_app_len. reflexivity.
Qed.

Lemma upd_app_len A (l : list A) x y l' : upd (l ++ x :: l') (length l) y = l ++ y :: l'.
Proof. induction l; simpl; [reflexivity|]. rewrite IHl. reflexivity. Qed.

Lemma mr_set_mk pre l x r y :
  mr_set (mk pre (l ++ x :: r)) (length l) y = Ok (mk pre (l ++ y :: r)).
Proof.
  unfold mr_set. simpl. rewrite set_idx_ok by (rewrite !app_length; simpl; lia).
  simpl. unfold with_ranges, mk. simpl. f_equal. f_equal.
  rewrite !app_assoc, <- app_length. apply upd_app_len.
Qed.

Lemma mr_insert_at_mk pre l r y :
  mr_insert_at (mk pre (l ++ r)) (length l) y = Ok (mk pre (l ++ y :: r)).
Proof.
  unfold mr_insert_at. simpl.
  destruct (Nat.leb_spec (length pre + length l) (length (pre ++ l ++ r))).
  - unfold with_ranges, mk. simpl. f_equal. f_equal.
    rewrite !app_assoc, <- app_length, firstn_app_len, skipn_app_len. reflexivity.
  - rewrite !app_length in *. lia.
Qed.

Lemma mr_remove_mk pre l x r :
  mr_remove (mk pre (l ++ x :: r)) (length l) = Ok (mk pre (l ++ r)).
Proof.
  unfold mr_remove. simpl.
  destruct (Nat.ltb_spec (length pre + length l) (length (pre ++ l ++ x :: r))).
  - unfold with_ranges, mk. simpl. f_equal. f_equal.
    rewrite !app_assoc, <- app_length, firstn_app_len.
    replace (match (pre ++ l) ++ x :: r with [] => [] | _ :: l1 => skipn (length (pre ++ l)) l1 end)
      with (skipn (S (length (pre ++ l))) ((pre ++ l) ++ x :: r)) by reflexivity.
    rewrite skipn_S_app_len. reflexivity.
  - rewrite !app_length in *. simpl in *. lia.
Qed.

Lemma mr_split_at_mk pre l r : mr_split_at (mk pre (l ++ r)) (length l) = Ok (l, r).
Proof.
  unfold mr_split_at. simpl.
  destruct (Nat.leb_spec (length pre + length l) (length (pre ++ l ++ r))).
  - rewrite !app_assoc, <- app_length, firstn_app_len, skipn_app_len.
    rewrite slice_from_ok by (rewrite app_length; lia). rewrite skipn_app_len. reflexivity.
  - rewrite !app_length in *. lia.
Qed.

Lemma mr_len_mk pre own : mr_len (mk pre own) = Ok (length own).
Proof.
  unfold mr_len. simpl. rewrite app_length, usub_ok by lia. f_equal. lia.
Qed.

Lemma idx_app_len A (l : list A) x r : idx (l ++ x :: r) (length l) = Ok x.
Proof. unfold idx. rewrite nth_error_app2, Nat.sub_diag by lia. reflexivity. Qed.

Lemma mr_insert_spec pre own a b lo :
  chain lo own -> mr_insert (mk pre own) (a, b) = Ok (mk pre (ins own a b)).
Proof.
  intros H. unfold mr_insert, binary_search_by. rewrite own_mk. cbn [bind fst snd].
  pose proof (search_start_spec own a 0 _ H) as S.
  destruct (search_start own a 0) as [k|k].
  - destruct S as (l & e & r & -> & -> & Hl). cbn [Nat.add].
    replace (l ++ (a, e) :: r) with ((l ++ [(a, e)]) ++ r) at 1
      by (rewrite <- app_assoc; reflexivity).
    replace (length l + 1) with (length (l ++ [(a, e)])) by (rewrite app_length; reflexivity).
    rewrite mr_split_at_mk. cbn [bind]. rewrite idx_app_len. cbn [bind snd fst].
    rewrite (ins_skip l (a, e)) by (simpl; auto). cbn [ins]. rewrite Nat.eqb_refl.
    destruct (Nat.leb_spec b e); [reflexivity|].
    destruct r as [|[s' e'] r']; cbn [nth_error].
    + apply mr_set_mk.
    + cbn [fst snd]. destruct (Nat.leb_spec s' b).
      * rewrite mr_set_mk. cbn [bind].
        pose proof (mr_remove_mk pre (l ++ [(a, e')]) (s', e') r') as R.
        rewrite <- !app_assoc in R. rewrite app_length in R |- *. exact R.
      * apply mr_set_mk.
  - destruct S as (l & r & -> & -> & Hl & Hr). cbn [Nat.add].
    destruct (Nat.eqb_spec (length l) 0) as [E|E].
    + destruct l; [|discriminate]. cbn [app].
      unfold mr_get. cbn [mr_ranges mr_initial_len mk].
      rewrite nth_error_app2 by lia. replace (length pre + 0 - length pre) with 0 by lia.
      destruct r as [|[s e] t]; cbn [nth_error].
      * unfold mr_push, with_ranges, mk. cbn. rewrite app_nil_r. reflexivity.
      * cbn [fst snd]. simpl in Hr. cbn [ins].
        destruct (Nat.eqb_spec s a); [lia|]. destruct (Nat.ltb_spec a s); [|lia].
        destruct (Nat.leb_spec s b).
        -- apply (mr_set_mk pre [] (s, e) t).
        -- apply (mr_insert_at_mk pre [] ((s, e) :: t)).
    + rewrite mr_len_mk. cbn [bind].
      destruct (exists_last (l := l)) as (l0 & [s e] & ->); [intros ->; apply E; reflexivity|].
      apply Forall_app in Hl. destruct Hl as [Hl0 Hs]. inversion Hs as [|? ? Hs' _]; subst.
      simpl in Hs'. rewrite <- app_assoc. cbn [app].
      rewrite ins_skip by (simpl; auto; lia). cbn [ins].
      destruct (Nat.eqb_spec s a); [lia|]. destruct (Nat.ltb_spec a s); [lia|].
      replace (length (l0 ++ (s, e) :: r)) with (length (l0 ++ [(s, e)]) + length r)
        by (rewrite !app_length; simpl; lia).
      destruct r as [|[s' e'] t].
      * cbn [length]. rewrite Nat.add_0_r, Nat.eqb_refl.
        cbn [mr_ranges mk].
        replace (length (pre ++ l0 ++ [(s, e)]) - 1) with (length (pre ++ l0))
          by (rewrite !app_length; simpl; lia).
        rewrite app_assoc. rewrite nth_error_app2, Nat.sub_diag by lia. cbn [nth_error unwrap bind fst snd].
        destruct (Nat.leb_spec a e).
        -- rewrite set_idx_ok by (rewrite !app_length; simpl; lia). cbn [bind].
           rewrite upd_app_len. rewrite <- app_assoc. reflexivity.
        -- unfold mr_push, with_ranges, mk. cbn [mr_ranges mr_initial_len].
           rewrite <- !app_assoc. reflexivity.
      * simpl in Hr. cbn [length].
        destruct (Nat.eqb_spec (length (l0 ++ [(s, e)])) (length (l0 ++ [(s, e)]) + S (length t)));
          [lia|].
        replace (l0 ++ (s, e) :: (s', e') :: t) with ((l0 ++ [(s, e)]) ++ (s', e') :: t)
          by (rewrite <- app_assoc; reflexivity).
        rewrite mr_split_at_mk. cbn [bind].
        rewrite usub_ok by (rewrite app_length; simpl; lia). cbn [bind].
        replace (length (l0 ++ [(s, e)]) - 1) with (length l0)
          by (rewrite app_length; simpl; lia).
        rewrite idx_app_len. cbn [bind idx nth_error fst snd].
        destruct (Nat.leb_spec s' a); [lia|].
        destruct (Nat.leb_spec a e); destruct (Nat.leb_spec s' b).
        -- rewrite <- app_assoc. cbn [app]. rewrite mr_set_mk. cbn [bind].
           pose proof (mr_remove_mk pre (l0 ++ [(s, e')]) (s', e') t) as R.
           rewrite <- !app_assoc in R. rewrite app_length in R |- *. exact R.
        -- rewrite <- app_assoc. cbn [app]. destruct (Nat.ltb_spec e b); [|reflexivity].
           apply mr_set_mk.
        -- rewrite mr_set_mk. rewrite <- app_assoc. reflexivity.
        -- rewrite mr_insert_at_mk. rewrite <- app_assoc. reflexivity.
Qed.
