(** Lemmas about the primitives of Prelude. *)
From Coq Require Import Sorted.
From Verif Require Import Prelude.
From Coq Require Export ZifyBool ZifyNat.

Lemma bind_ok A B (x : res A) (f : A -> res B) b :
  bind x f = Ok b -> exists a, x = Ok a /\ f a = Ok b.
Proof. destruct x; simpl; intros H; try discriminate. eauto. Qed.

Lemma idx_nth_error A (l : list A) i a : nth_error l i = Some a -> idx l i = Ok a.
Proof. unfold idx. intros ->. reflexivity. Qed.

Lemma idx_inv A (l : list A) i a : idx l i = Ok a -> nth_error l i = Some a.
Proof. unfold idx. destruct (nth_error l i); congruence. Qed.

Lemma idx_nth A (l : list A) i d : i < length l -> idx l i = Ok (nth i l d).
Proof. intros H. apply idx_nth_error. apply nth_error_nth'. exact H. Qed.

Lemma slice_from_ok A (l : list A) i : i <= length l -> slice_from l i = Ok (skipn i l).
Proof. unfold slice_from. intros. destruct (Nat.leb_spec i (length l)); [reflexivity|lia]. Qed.

Lemma slice_to_ok A (l : list A) i : i <= length l -> slice_to l i = Ok (firstn i l).
Proof. unfold slice_to. intros. destruct (Nat.leb_spec i (length l)); [reflexivity|lia]. Qed.

Lemma slice_ok A (l : list A) a b :
  a <= b -> b <= length l -> slice l a b = Ok (firstn (b - a) (skipn a l)).
Proof.
  unfold slice. intros.
  destruct (Nat.leb_spec a b); [|lia]. destruct (Nat.leb_spec b (length l)); [reflexivity|lia].
Qed.

Lemma usub_ok a b : b <= a -> usub a b = Ok (a - b).
Proof. unfold usub. intros. destruct (Nat.leb_spec b a); [reflexivity|lia]. Qed.

Lemma set_idx_ok A (l : list A) i a : i < length l -> set_idx l i a = Ok (upd l i a).
Proof. unfold set_idx. intros. destruct (Nat.ltb_spec i (length l)); [reflexivity|lia]. Qed.

Lemma set_idx_panic A (l : list A) i a : length l <= i -> set_idx l i a = Panic.
Proof. unfold set_idx. intros. destruct (Nat.ltb_spec i (length l)); [lia|reflexivity]. Qed.

Lemma length_upd A (l : list A) i a : length (upd l i a) = length l.
Proof. revert i. induction l; destruct i; simpl; auto. Qed.

Lemma nth_error_upd A (l : list A) i j a :
  nth_error (upd l i a) j = if (j =? i) && (i <? length l) then Some a else nth_error l j.
Proof.
  revert i j. induction l as [|x l IH]; intros [|i] [|j]; simpl; auto.
  - rewrite andb_false_r. reflexivity.
  - rewrite IH. reflexivity.
Qed.

Lemma nth_upd A (l : list A) i j a d :
  nth j (upd l i a) d = if (j =? i) && (i <? length l) then a else nth j l d.
Proof.
  revert i j. induction l as [|x l IH]; intros [|i] [|j]; simpl; auto.
  - rewrite andb_false_r. reflexivity.
  - rewrite IH. reflexivity.
Qed.

Lemma nth_upd_eq A (l : list A) i a d : i < length l -> nth i (upd l i a) d = a.
Proof. intros. rewrite nth_upd, Nat.eqb_refl. destruct (Nat.ltb_spec i (length l)); [auto|lia]. Qed.

Lemma nth_upd_neq A (l : list A) i j a d : j <> i -> nth j (upd l i a) d = nth j l d.
Proof. intros. rewrite nth_upd. destruct (Nat.eqb_spec j i); [lia|reflexivity]. Qed.

Lemma upd_firstn_skipn A (l : list A) i a :
  i < length l -> upd l i a = firstn i l ++ a :: skipn (S i) l.
Proof.
  revert i. induction l as [|x l IH]; simpl; intros i H; [lia|].
  destruct i; simpl; [reflexivity|]. rewrite IH by lia. reflexivity.
Qed.

Lemma nth_error_firstn A (l : list A) n i :
  nth_error (firstn n l) i = if i <? n then nth_error l i else None.
Proof.
  revert l i. induction n as [|n IH]; intros l i; simpl.
  - destruct i; reflexivity.
  - destruct l as [|x l]; simpl.
    + rewrite !(proj2 (nth_error_None _ _)) by (simpl; lia). destruct (i <? S n); reflexivity.
    + destruct i; simpl; [reflexivity|]. rewrite IH. reflexivity.
Qed.

Lemma nth_error_skipn A (l : list A) n i : nth_error (skipn n l) i = nth_error l (n + i).
Proof.
  revert l. induction n as [|n IH]; intros l; simpl; [reflexivity|].
  destruct l; simpl; [destruct i; reflexivity|apply IH].
Qed.

Lemma nth_skipn A (l : list A) n i d : nth i (skipn n l) d = nth (n + i) l d.
Proof.
  revert l. induction n as [|n IH]; intros l; simpl; [reflexivity|].
  destruct l; simpl; [destruct i; reflexivity|apply IH].
Qed.

Lemma nth_firstn A (l : list A) n i d : i < n -> nth i (firstn n l) d = nth i l d.
Proof.
  revert l i. induction n as [|n IH]; intros l i H; [lia|].
  destruct l; simpl; [reflexivity|]. destruct i; [reflexivity|]. apply IH. lia.
Qed.

Lemma skipn_skipn A (l : list A) a b : skipn a (skipn b l) = skipn (b + a) l.
Proof.
  revert l. induction b as [|b IH]; intros l; simpl; [reflexivity|].
  destruct l; simpl; [destruct a; reflexivity|apply IH].
Qed.

Lemma skipn_cons_nth A (l : list A) i a :
  nth_error l i = Some a -> skipn i l = a :: skipn (S i) l.
Proof.
  revert i. induction l as [|x l IH]; intros [|i] H; simpl in *; try discriminate.
  - injection H as ->. reflexivity.
  - apply IH in H. exact H.
Qed.

Lemma firstn_S_nth A (l : list A) i a :
  nth_error l i = Some a -> firstn (S i) l = firstn i l ++ [a].
Proof.
  revert i. induction l as [|x l IH]; intros [|i] H; simpl in *; try discriminate.
  - injection H as ->. reflexivity.
  - apply IH in H. rewrite <- H. reflexivity.
Qed.

Lemma firstn_all_eq A (l : list A) n : length l <= n -> firstn n l = l.
Proof. intros. apply firstn_all2. exact H. Qed.

Lemma nth_ext_eq A (l l' : list A) d :
  length l = length l' -> (forall i, i < length l -> nth i l d = nth i l' d) -> l = l'.
Proof. intros. apply nth_ext with (d := d) (d' := d); auto. Qed.

(** ** Searching *)

Lemma find_idx_some A (f : A -> bool) l i :
  find_idx f l = Some i ->
  exists a, nth_error l i = Some a /\ f a = true
            /\ forall j b, j < i -> nth_error l j = Some b -> f b = false.
Proof.
  revert i. induction l as [|x l IH]; simpl; intros i H; [discriminate|].
  destruct (f x) eqn:E.
  - injection H as <-. exists x. repeat split; auto. lia.
  - destruct (find_idx f l) as [k|]; [|discriminate]. injection H as <-.
    destruct (IH _ eq_refl) as (a & Ha & Hf & Hlt). exists a. repeat split; auto.
    intros [|j] b Hj Hb; simpl in Hb.
    + congruence.
    + apply (Hlt j b); auto. lia.
Qed.

Lemma find_idx_none A (f : A -> bool) l :
  find_idx f l = None <-> forall a, In a l -> f a = false.
Proof.
  induction l as [|x l IH]; simpl; [split; [contradiction|reflexivity]|].
  destruct (f x) eqn:E.
  - split; [discriminate|]. intros H. rewrite H in E; auto. discriminate.
  - destruct (find_idx f l); simpl.
    + split; [discriminate|]. intros H. assert (Some n = None) by (apply IH; auto). discriminate.
    + split; auto. intros _ a [<-|Ha]; auto. apply IH; auto.
Qed.

Lemma find_idx_lt A (f : A -> bool) l i : find_idx f l = Some i -> i < length l.
Proof.
  intros H. apply find_idx_some in H. destruct H as (a & H & _).
  apply nth_error_Some. congruence.
Qed.

Lemma find_last_idx_some A (f : A -> bool) l i :
  find_last_idx f l = Some i ->
  exists a, nth_error l i = Some a /\ f a = true
            /\ forall j b, i < j -> nth_error l j = Some b -> f b = false.
Proof.
  revert i. induction l as [|x l IH]; simpl; intros i H; [discriminate|].
  destruct (find_last_idx f l) as [k|] eqn:E.
  - injection H as <-. destruct (IH _ eq_refl) as (a & Ha & Hf & Hlt).
    exists a. repeat split; auto. intros [|j] b Hj Hb; simpl in Hb; [lia|].
    apply (Hlt j b); auto. lia.
  - destruct (f x) eqn:Ef; [|discriminate]. injection H as <-.
    exists x. repeat split; auto. intros [|j] b Hj Hb; simpl in Hb; [lia|].
    clear IH Ef Hj x. revert j Hb. induction l as [|y l IHl]; intros [|j] Hb; simpl in *; try discriminate.
    + injection Hb as ->. destruct (find_last_idx f l); [discriminate|].
      destruct (f b); [discriminate|reflexivity].
    + destruct (find_last_idx f l); [discriminate|]. eauto.
Qed.

Lemma find_last_idx_none A (f : A -> bool) l :
  find_last_idx f l = None <-> forall a, In a l -> f a = false.
Proof.
  induction l as [|x l IH]; simpl; [split; [contradiction|reflexivity]|].
  destruct (find_last_idx f l).
  - split; [discriminate|]. intros H. assert (Some n = None) by (apply IH; auto). discriminate.
  - destruct (f x) eqn:E; split; try discriminate.
    + intros H. rewrite H in E; auto. discriminate.
    + intros _ a [<-|Ha]; auto. apply IH; auto.
    + reflexivity.
Qed.

Lemma find_idx_ext A (f g : A -> bool) l :
  (forall a, In a l -> f a = g a) -> find_idx f l = find_idx g l.
Proof.
  induction l as [|x l IH]; simpl; intros H; [reflexivity|].
  rewrite H by auto. destruct (g x); [reflexivity|]. rewrite IH; auto.
Qed.

Lemma find_last_idx_ext A (f g : A -> bool) l :
  (forall a, In a l -> f a = g a) -> find_last_idx f l = find_last_idx g l.
Proof.
  induction l as [|x l IH]; simpl; intros H; [reflexivity|].
  rewrite IH by auto. destruct (find_last_idx g l); [reflexivity|]. rewrite H; auto.
Qed.

Lemma all_idx_ext A (f g : A -> bool) l off :
  (forall a, In a l -> f a = g a) -> all_idx f l off = all_idx g l off.
Proof.
  revert off. induction l as [|x l IH]; simpl; intros off H; [reflexivity|].
  rewrite H by auto. rewrite IH by auto. reflexivity.
Qed.

Lemma all_idx_false A (f : A -> bool) l off :
  (forall a, In a l -> f a = false) -> all_idx f l off = [].
Proof.
  revert off. induction l as [|x l IH]; simpl; intros off H; [reflexivity|].
  rewrite H by auto. apply IH. auto.
Qed.

Lemma in_all_idx A (f : A -> bool) l off i :
  In i (all_idx f l off) <->
  off <= i /\ exists a, nth_error l (i - off) = Some a /\ f a = true.
Proof.
  revert off. induction l as [|x l IH]; simpl; intros off.
  - split; [contradiction|]. intros (_ & a & H & _). destruct (i - off); discriminate.
  - assert (Hrec : In i (all_idx f l (S off)) <->
                   S off <= i /\ exists a, nth_error (x :: l) (i - off) = Some a /\ f a = true).
    { rewrite IH. split; intros (Hle & a & Ha & Hf); split; auto; exists a; split; auto.
      - replace (i - off) with (S (i - S off)) by lia. exact Ha.
      - replace (i - off) with (S (i - S off)) in Ha by lia. exact Ha. }
    destruct (f x) eqn:E; simpl.
    + rewrite Hrec. split.
      * intros [<-|(H & Ha)].
        -- split; [lia|]. exists x. rewrite Nat.sub_diag. auto.
        -- split; [lia|auto].
      * intros (H & Ha). destruct (Nat.eq_dec off i); [auto|right]. split; [lia|auto].
    + rewrite Hrec. split.
      * intros (H & Ha). split; [lia|auto].
      * intros (H & a & Ha & Hf). split; [|eauto].
        destruct (Nat.eq_dec off i) as [->|]; [|lia].
        rewrite Nat.sub_diag in Ha. simpl in Ha. congruence.
Qed.

Lemma all_idx_sorted A (f : A -> bool) l off : StronglySorted lt (all_idx f l off).
Proof.
  revert off. induction l as [|x l IH]; simpl; intros off; [constructor|].
  destruct (f x); [|apply IH]. constructor; [apply IH|].
  apply Forall_forall. intros i Hi. apply in_all_idx in Hi. lia.
Qed.

Lemma all_idx_shift A (f : A -> bool) l off k :
  all_idx f l (k + off) = map (fun i => k + i) (all_idx f l off).
Proof.
  revert off. induction l as [|x l IH]; simpl; intros off; [reflexivity|].
  rewrite plus_n_Sm, IH. destruct (f x); reflexivity.
Qed.

Lemma count_while_spec A (f : A -> bool) l :
  exists rest, skipn (count_while f l) l = rest
    /\ Forall (fun a => f a = true) (firstn (count_while f l) l)
    /\ match rest with [] => True | a :: _ => f a = false end.
Proof.
  induction l as [|x l IH]; simpl; [exists []; auto|].
  destruct (f x) eqn:E; simpl.
  - destruct IH as (r & H1 & H2 & H3). exists r. auto.
  - exists (x :: l). auto.
Qed.

Lemma count_while_le A (f : A -> bool) l : count_while f l <= length l.
Proof. induction l; simpl; [lia|]. destruct (f a); lia. Qed.

Lemma count_while_app_true A (f : A -> bool) l l' :
  Forall (fun a => f a = true) l -> count_while f (l ++ l') = length l + count_while f l'.
Proof. induction 1; simpl; [reflexivity|]. rewrite H. simpl. lia. Qed.

Lemma count_while_repeat A (f : A -> bool) (a : A) n :
  f a = true -> count_while f (repeat a n) = n.
Proof. intros H. induction n; simpl; [reflexivity|]. rewrite H, IHn. reflexivity. Qed.

(** ** Sorted lists of positions *)

Lemma ssorted_app_inv A (R : A -> A -> Prop) l l' :
  StronglySorted R (l ++ l') ->
  StronglySorted R l /\ StronglySorted R l' /\ (forall a b, In a l -> In b l' -> R a b).
Proof.
  induction l as [|x l IH]; simpl; intros H.
  - repeat split; auto; [constructor|contradiction].
  - inversion H as [|? ? Hs Hf]; subst. destruct (IH Hs) as (H1 & H2 & H3).
    rewrite Forall_app in Hf. destruct Hf as (Hf1 & Hf2). repeat split; auto.
    + constructor; auto.
    + intros a b [<-|Ha] Hb; auto. rewrite Forall_forall in Hf2. auto.
Qed.

Lemma ssorted_app A (R : A -> A -> Prop) l l' :
  StronglySorted R l -> StronglySorted R l' -> (forall a b, In a l -> In b l' -> R a b) ->
  StronglySorted R (l ++ l').
Proof.
  induction 1 as [|x l Hs IH Hf]; simpl; intros Hl' Hx; [auto|].
  constructor.
  - apply IH; auto.
  - apply Forall_app. split; auto. apply Forall_forall. auto.
Qed.

Lemma ssorted_lt_eq l l' :
  StronglySorted lt l -> StronglySorted lt l' -> (forall i, In i l <-> In i l') -> l = l'.
Proof.
  intros H. revert l'. induction H as [|x l Hs IH Hf]; intros l' Hl' Heq.
  - destruct l' as [|y l']; [reflexivity|]. destruct (proj2 (Heq y)); simpl; auto.
  - inversion Hl' as [|y l'' Hs' Hf']; subst.
    + destruct (proj1 (Heq x)); simpl; auto.
    + rewrite Forall_forall in Hf, Hf'.
      assert (x = y).
      { destruct (proj1 (Heq x) (or_introl eq_refl)) as [E|Hx]; [auto|].
        destruct (proj2 (Heq y) (or_introl eq_refl)) as [E|Hy]; [auto|].
        apply Hf in Hy. apply Hf' in Hx. lia. }
      subst y. f_equal. apply IH; auto. intros i. split; intros Hi.
      * destruct (proj1 (Heq i) (or_intror Hi)) as [E|?]; [|auto].
        apply Hf in Hi. lia.
      * destruct (proj2 (Heq i) (or_intror Hi)) as [E|?]; [|auto].
        apply Hf' in Hi. lia.
Qed.
